(** C08, C09: sample positions. *)
From Coq Require Import Reals Lra Lia ZifyBool Psatz.
From Coquelicot Require Import Complex.
From Verif Require Import Lib.Py Lib.PyFacts Lib.Vec Lib.VecFacts Lib.Cplx Lib.Arr Lib.MatFacts
  Model.Samples Model.Grids Spec.SamplesSpec Spec.SphereSpec Spec.GridSpec Proofs.SamplesProofs.
Open Scope Z_scope.

(** ** heights *)
Lemma IZR_pos n : 1 <= n -> (0 < IZR n)%R.
Proof. intros. apply IZR_lt. lia. Qed.

Lemma height_cap n t : 1 <= n -> 0 <= t -> t + 1 < n -> (2 / 3 < hp_height n t < 1)%R.
Proof.
  intros Hn Ht H. unfold hp_height. zif. rewrite !mult_IZR.
  assert (N := IZR_pos n Hn). assert (T := IZR_pos (t + 1) ltac:(lia)). apply IZR_lt in H.
  set (x := IZR (t + 1)) in *. set (y := IZR n) in *.
  assert (B : (0 < x * x / (3 * (y * y)) < 1 / 3)%R).
  { split; [apply Rdiv_lt_0_compat; nra|]. apply (Rmult_lt_reg_r (3 * (y * y))); [nra|].
    replace (x * x / (3 * (y * y)) * (3 * (y * y)))%R with (x * x)%R by (field; nra). nra. }
  lra.
Qed.
Lemma height_eq n t : 1 <= n -> n <= t + 1 <= 3 * n -> (- (2 / 3) <= hp_height n t <= 2 / 3)%R.
Proof.
  intros Hn H. unfold hp_height. repeat zif. assert (N := IZR_pos n Hn). destruct H as (H1 & H2).
  apply IZR_le in H1. apply IZR_le in H2. rewrite mult_IZR in H2. set (x := IZR (t + 1)) in *. set (y := IZR n) in *.
  assert (B : (2 / 3 <= 2 * x / (3 * y) <= 2)%R).
  { split; apply (Rmult_le_reg_r (3 * y)); try nra; replace (2 * x / (3 * y) * (3 * y))%R with (2 * x)%R by (field; lra); nra. }
  lra.
Qed.
Lemma height_opp n t : 1 <= n -> hp_height n (4 * n - 2 - t) = (- hp_height n t)%R.
Proof.
  intros Hn. unfold hp_height.
  assert (N := IZR_pos n Hn).
  destruct (Z.ltb_spec (t + 1) n).
  - repeat zif. replace (4 * n - 1 - (4 * n - 2 - t)) with (t + 1) by lia. ring.
  - destruct (Z.leb_spec (t + 1) (3 * n)).
    + destruct (Z.eqb_spec (t + 1) (3 * n)) as [E|].
      * replace (4 * n - 2 - t + 1) with n by lia. repeat zif. rewrite E, mult_IZR. field. lra.
      * repeat zif. replace (4 * n - 2 - t + 1) with (4 * n - (t + 1)) by lia. rewrite minus_IZR, mult_IZR. field. lra.
    + repeat zif. replace (4 * n - 2 - t + 1) with (4 * n - 1 - t) by lia. ring.
Qed.
Lemma height_south n t : 1 <= n -> 3 * n < t + 1 -> t < 4 * n - 1 -> (-1 < hp_height n t < - (2 / 3))%R.
Proof.
  intros Hn H1 H2. replace t with (4 * n - 2 - (4 * n - 2 - t)) by lia. rewrite height_opp by auto.
  assert (B := height_cap n (4 * n - 2 - t) Hn ltac:(lia) ltac:(lia)). lra.
Qed.
Lemma height_bound n t : 1 <= n -> 0 <= t < 4 * n - 1 -> (-1 < hp_height n t < 1)%R.
Proof.
  intros Hn Ht. destruct (Z_lt_le_dec (t + 1) n); [assert (B := height_cap n t Hn ltac:(lia) ltac:(lia)); lra|].
  destruct (Z_lt_le_dec (3 * n) (t + 1)); [assert (B := height_south n t Hn ltac:(lia) ltac:(lia)); lra|].
  assert (B := height_eq n t Hn ltac:(lia)). lra.
Qed.
Lemma height_cap_decr n t t' : 1 <= n -> 0 <= t -> t < t' -> t' + 1 < n -> (hp_height n t' < hp_height n t)%R.
Proof.
  intros Hn Ht H H'. unfold hp_height. repeat zif. rewrite !mult_IZR.
  assert (N := IZR_pos n Hn). assert (T := IZR_pos (t + 1) ltac:(lia)). assert (T' : (IZR (t + 1) < IZR (t' + 1))%R) by (apply IZR_lt; lia).
  apply Rplus_lt_compat_l, Ropp_lt_contravar, Rmult_lt_compat_r; [apply Rinv_0_lt_compat; nra|nra].
Qed.
Lemma height_decr n t t' : 1 <= n -> 0 <= t -> t < t' -> t' < 4 * n - 1 -> (hp_height n t' < hp_height n t)%R.
Proof.
  intros Hn Ht H H'.
  destruct (Z_lt_le_dec (t + 1) n) as [A|A], (Z_lt_le_dec (t' + 1) n) as [A'|A']; try lia.
  - apply height_cap_decr; auto.
  - assert (B := height_cap n t Hn ltac:(lia) ltac:(lia)).
    destruct (Z_lt_le_dec (3 * n) (t' + 1)); [assert (C := height_south n t' Hn ltac:(lia) ltac:(lia)); lra|].
    assert (C := height_eq n t' Hn ltac:(lia)). lra.
  - destruct (Z_lt_le_dec (3 * n) (t' + 1)) as [D'|D'], (Z_lt_le_dec (3 * n) (t + 1)) as [D|D]; try lia.
    + replace t with (4 * n - 2 - (4 * n - 2 - t)) by lia. replace t' with (4 * n - 2 - (4 * n - 2 - t')) by lia.
      rewrite (height_opp n (4 * n - 2 - t)), (height_opp n (4 * n - 2 - t')) by auto. apply Ropp_lt_contravar, height_cap_decr; lia.
    + assert (C := height_south n t' Hn ltac:(lia) ltac:(lia)). assert (B := height_eq n t Hn ltac:(lia)). lra.
    + unfold hp_height. repeat zif. assert (N := IZR_pos n Hn). assert (T' : (IZR (t + 1) < IZR (t' + 1))%R) by (apply IZR_lt; lia).
      apply Rplus_lt_compat_l, Ropp_lt_contravar, Rmult_lt_compat_r; [apply Rinv_0_lt_compat; lra|lra].
Qed.

Lemma t2theta_hp_height n t : 1 <= n -> 0 <= t < 4 * n - 1 -> t2theta_healpix t n = acos (hp_height n t).
Proof.
  intros Hn Ht. unfold t2theta_healpix, hp_height. f_equal. assert (N := IZR_pos n Hn).
  rewrite !Z.pow_2_r, !mult_IZR.
  destruct (Z.ltb_spec (t + 1) n); [repeat zif; reflexivity|].
  destruct (Z.leb_spec (t + 1) (3 * n)); repeat zif; [reflexivity|ring].
Qed.
Lemma acos_height n t : 1 <= n -> 0 <= t < 4 * n - 1 ->
  (0 < acos (hp_height n t) < PI)%R /\ cos (acos (hp_height n t)) = hp_height n t.
Proof.
  intros Hn Ht. assert (B := height_bound n t Hn Ht). split; [|apply cos_acos; lra].
  split; [apply acos_bound_lt|apply acos_bound_lt]; lra.
Qed.

(** ** colatitudes *)
Definition theta_of (s : scheme) (L nside t : Z) : R :=
  match s with MW => mw_theta L t | MWSS => mwss_theta L t | DH => dh_theta L t
             | _ => acos (hp_height nside t) end.

Lemma mwss_theta_code L t : 1 <= L -> (IZR (2 * t) * PI / IZR (2 * L))%R = mwss_theta L t.
Proof. intros. unfold mwss_theta. rewrite !mult_IZR. field. apply not_0_IZR. lia. Qed.

Lemma t2theta_ok name s L nside t : denotes name s -> s <> GL -> (s = HEALPIX \/ 1 <= L) -> (s = HEALPIX -> 1 <= nside) ->
  0 <= t < rings s L nside -> t2theta t (Some L) name (Some nside) = Ok (theta_of s L nside t).
Proof.
  intros Hd Hs HL Hn Ht. unfold t2theta, denotes in *. rewrite Hd, andb_false_r.
  destruct s; try congruence; cbn in *; try reflexivity; f_equal.
  - apply mwss_theta_code. destruct HL; [discriminate|auto].
  - apply t2theta_hp_height; auto.
Qed.

Lemma thetas_ok gl name s L nside : denotes name s -> s <> GL -> (s = HEALPIX \/ 1 <= L) -> (s = HEALPIX -> 1 <= nside) ->
  exists v, thetas gl (Some L) name (Some nside) = Ok v /\ vlen v = rings s L nside /\
    forall t, 0 <= t < rings s L nside -> vat v t = theta_of s L nside t.
Proof.
  intros Hd Hs HL Hn. unfold thetas.
  assert (E : streq (lower name) "gl" = false) by (rewrite Hd; destruct s; try congruence; reflexivity).
  rewrite E. clear E.
  assert (E : ntheta (Some L) name (Some nside) = Ok (rings s L nside)) by (unfold ntheta, denotes in *; rewrite Hd; destruct s; reflexivity).
  rewrite E. cbn [bind]. unfold over_arange.
  assert (P : 0 < rings s L nside) by (destruct s; cbn [rings]; try congruence; try (destruct HL; [discriminate|lia]); specialize (Hn eq_refl); lia).
  rewrite (t2theta_ok name s) by (auto; lia). cbn [bind]. eexists. split; [reflexivity|]. split; [reflexivity|].
  intros t Ht. cbn. now rewrite (t2theta_ok name s) by auto.
Qed.

Lemma theta_of_colatitude s L nside t : s <> GL -> (s = HEALPIX -> 1 <= nside) ->
  0 <= t < rings s L nside -> is_colatitude s L nside t (theta_of s L nside t).
Proof. intros Hs Hn Ht. destruct s; cbn [rings theta_of is_colatitude] in *; try congruence. apply acos_height; auto. Qed.

Lemma frac_PI_bounds a b : 0 <= a -> a <= b -> 0 < b -> (0 <= IZR a * PI / IZR b <= PI)%R.
Proof.
  intros Ha Hab Hb. pose proof PI_RGT_0. apply IZR_le in Ha. apply IZR_le in Hab. apply IZR_lt in Hb.
  split; [apply Rmult_le_pos; [nra|left; now apply Rinv_0_lt_compat]|].
  apply (Rmult_le_reg_r (IZR b)); [lra|]. unfold Rdiv. rewrite Rmult_assoc, Rinv_l by lra. nra.
Qed.
Lemma frac_PI_lt a a' b : a < a' -> 0 < b -> (IZR a * PI / IZR b < IZR a' * PI / IZR b)%R.
Proof.
  intros H Hb. apply IZR_lt in H. apply IZR_lt in Hb. apply Rmult_lt_compat_r; [now apply Rinv_0_lt_compat|].
  apply Rmult_lt_compat_r; [apply PI_RGT_0|auto].
Qed.
Lemma frac_PI_0 b : (IZR 0 * PI / IZR b = 0)%R.
Proof. unfold Rdiv. ring. Qed.
Lemma frac_PI_1 b : 0 < b -> (IZR b * PI / IZR b = PI)%R.
Proof. intros Hb. field. apply not_0_IZR. lia. Qed.

Lemma theta_of_bounds s L nside t : s <> GL -> (s = HEALPIX -> 1 <= nside) ->
  (s = HEALPIX \/ 1 <= L) -> 0 <= t < rings s L nside -> (0 <= theta_of s L nside t <= PI)%R.
Proof.
  intros Hs Hn HL Ht. destruct s; cbn [rings theta_of is_colatitude] in *; try congruence; try (destruct HL; [discriminate|]).
  - apply frac_PI_bounds; lia.
  - apply frac_PI_bounds; lia.
  - apply frac_PI_bounds; lia.
  - destruct (acos_height nside t ltac:(auto) Ht) as (B & _). lra.
Qed.
Lemma theta_of_incr s L nside t t' : s <> GL -> (s = HEALPIX -> 1 <= nside) ->
  (s = HEALPIX \/ 1 <= L) -> 0 <= t -> t < t' -> t' < rings s L nside -> (theta_of s L nside t < theta_of s L nside t')%R.
Proof.
  intros Hs Hn HL Ht H H'. destruct s; cbn [rings theta_of is_colatitude] in *; try congruence; try (destruct HL; [discriminate|]).
  - apply frac_PI_lt; lia.
  - apply frac_PI_lt; lia.
  - apply frac_PI_lt; lia.
  - specialize (Hn eq_refl). destruct (acos_height nside t Hn ltac:(lia)) as (B & E).
    destruct (acos_height nside t' Hn ltac:(lia)) as (B' & E').
    apply cos_decreasing_0; try lra. rewrite E, E'. apply height_decr; lia.
Qed.
Lemma acos_opp' z : acos (- z) = (PI - acos z)%R.
Proof. apply acos_opp. Qed.
Lemma theta_of_sym s L nside t : s = MWSS \/ s = DH \/ s = HEALPIX -> (s = HEALPIX -> 1 <= nside) -> (s = HEALPIX \/ 1 <= L) ->
  theta_of s L nside (rings s L nside - 1 - t) = (PI - theta_of s L nside t)%R.
Proof.
  intros Hs Hn HL. destruct Hs as [-> | [-> | ->]]; cbn [theta_of rings]; try (destruct HL; [discriminate|]).
  - unfold mwss_theta. replace (L + 1 - 1 - t) with (L - t) by lia. rewrite minus_IZR. field. apply not_0_IZR. lia.
  - unfold dh_theta. replace (2 * (2 * L - 1 - t) + 1) with (4 * L - (2 * t + 1)) by lia. rewrite minus_IZR. field.
    apply not_0_IZR. lia.
  - replace (4 * nside - 1 - 1 - t) with (4 * nside - 2 - t) by lia. rewrite height_opp by auto. apply acos_opp'.
Qed.

(** Gauss-Legendre: acos reverses the order of the nodes, the flip restores it *)
Lemma gl_thetas gl name L nside : denotes name GL -> 
  (forall i, 0 <= i < vlen (gl_nodes gl L) -> (-1 < vat (gl_nodes gl L) i < 1)%R) ->
  (forall i j, 0 <= i < j -> j < vlen (gl_nodes gl L) -> (vat (gl_nodes gl L) i < vat (gl_nodes gl L) j)%R) ->
  exists v, thetas gl (Some L) name nside = Ok v /\ vlen v = vlen (gl_nodes gl L) /\
    (forall t, 0 <= t < vlen v -> (0 < vat v t < PI)%R /\ cos (vat v t) = vat (gl_nodes gl L) (vlen v - 1 - t)) /\
    (forall t t', 0 <= t < t' -> t' < vlen v -> (vat v t < vat v t')%R).
Proof.
  intros Hd B M. unfold thetas. rewrite Hd. cbn. eexists. split; [reflexivity|]. split; [reflexivity|].
  set (n := vlen (gl_nodes gl L)) in *.
  assert (A : forall t, 0 <= t < n -> (0 < acos (vat (gl_nodes gl L) (n - 1 - t)) < PI)%R /\
     cos (acos (vat (gl_nodes gl L) (n - 1 - t))) = vat (gl_nodes gl L) (n - 1 - t)).
  { intros t Ht. assert (B' := B (n - 1 - t) ltac:(lia)). split; [apply acos_bound_lt|apply cos_acos]; lra. }
  split; [exact A|]. cbn. intros t t' Ht Ht'. fold n in Ht' |- *.
  destruct (A t ltac:(lia)) as (B1 & E1), (A t' ltac:(lia)) as (B2 & E2).
  apply cos_decreasing_0; try lra. rewrite E1, E2. apply M; lia.
Qed.

(** ** longitudes *)
Lemma ring_len n t : 1 <= n -> 0 <= t < 4 * n - 1 ->
  ring_length n t = if t + 1 <? n then 4 * (t + 1) else if t + 1 <=? 3 * n then 4 * n else 4 * (4 * n - 1 - t).
Proof.
  intros. unfold ring_length. destruct (Z.ltb_spec (t + 1) n), (Z.leb_spec (t + 1) (3 * n)); lia.
Qed.
Lemma mod2 k : k mod 2 = if Z.even k then 0 else 1.
Proof. rewrite Zmod_even. reflexivity. Qed.

Lemma p2phi_ok n t p : 1 <= n -> 0 <= t < 4 * n - 1 -> p2phi_ring t p n = hp_longitude n t p.
Proof.
  intros Hn Ht. unfold p2phi_ring, hp_longitude, hp_offset. rewrite ring_len by auto.
  assert (N : IZR n <> 0%R) by (apply not_0_IZR; lia).
  destruct (Z.ltb_spec (t + 1) n).
  - repeat zif. rewrite !mult_IZR. field. apply not_0_IZR. lia.
  - destruct (Z.leb_spec (t + 1) (3 * n)).
    + replace ((n <=? t + 1) && true) with true by lia. cbv iota. cbn [andb].
      replace (t - n + 2) with (t + 1 - n + 1) by lia. rewrite mod2, !mult_IZR.
      destruct (Z.even (t + 1 - n + 1)); field; auto.
    + replace ((n <=? t + 1) && false) with false by lia. cbv iota. cbn [andb]. zif. rewrite !mult_IZR.
      replace (4 * n - t - 1) with (4 * n - 1 - t) by lia. field. apply not_0_IZR. lia.
Qed.
Lemma p2phi_rings_ok n t : 1 <= n -> 0 <= t < 4 * n - 1 -> p2phi_rings t n = p2phi_ring t 0 n.
Proof.
  intros Hn Ht. unfold p2phi_rings, p2phi_ring. assert (N : IZR (2 * n) <> 0%R) by (apply not_0_IZR; lia).
  destruct (Z.ltb_spec (t + 1) n).
  - repeat zif. field. apply not_0_IZR. lia.
  - destruct (Z.leb_spec (t + 1) (3 * n)).
    + repeat zif. field. auto.
    + repeat zif. field. apply not_0_IZR. lia.
Qed.

Lemma longitude_bounds n t p : 1 <= n -> 0 <= t < 4 * n - 1 -> 0 <= p < ring_length n t ->
  (0 <= hp_longitude n t p < 2 * PI)%R.
Proof.
  intros Hn Ht Hp. unfold hp_longitude. pose proof PI_RGT_0.
  assert (O : (0 <= hp_offset n t < 1)%R) by (unfold hp_offset; match goal with |- context [if ?b then _ else _] => destruct b end; lra).
  assert (P : (0 <= IZR p)%R) by (apply IZR_le; lia). assert (P' : (IZR p + 1 <= IZR (ring_length n t))%R) by (rewrite <- plus_IZR; apply IZR_le; lia).
  set (m := IZR (ring_length n t)) in *. assert (M : (0 < m)%R) by lra.
  replace (2 * PI / m * (IZR p + hp_offset n t))%R with (2 * PI * ((IZR p + hp_offset n t) / m))%R by (field; lra).
  assert (Q : (0 <= (IZR p + hp_offset n t) / m < 1)%R).
  { split; [apply Rmult_le_pos; [lra|left; now apply Rinv_0_lt_compat]|].
    apply (Rmult_lt_reg_r m); auto. unfold Rdiv. rewrite Rmult_assoc, Rinv_l by lra. lra. }
  nra.
Qed.

Definition shift_sign (forward : bool) : R := if forward then (-1)%R else 1%R.
Lemma phase_shift_ok L n t fwd (reality : bool) : 1 <= L -> 1 <= n -> 0 <= t < 4 * n - 1 ->
  let m0 := if reality then 0 else 1 - L in
  vlen (ring_phase_shift_hp L t n fwd reality) = L - m0 /\
  forall m, m0 <= m < L -> vat (ring_phase_shift_hp L t n fwd reality) (m - m0)
    = cis (shift_sign fwd * (IZR m * hp_longitude n t 0)).
Proof.
  intros HL Hn Ht m0. unfold ring_phase_shift_hp. cbn [vlen vat]. rewrite p2phi_ok by auto.
  split; [unfold m0; destruct reality; lia|]. intros m Hm. f_equal.
  replace ((if reality then 0 else - L + 1) + (m - m0)) with m by (unfold m0; destruct reality; lia).
  unfold shift_sign. ring.
Qed.
Lemma phase_shifts_ok L n fwd (reality : bool) : 1 <= L -> 1 <= n ->
  let m0 := if reality then 0 else 1 - L in
  exists a, ring_phase_shifts_hp L n fwd reality = Ok a /\ 
    is_mat a (4 * n - 1) (L - m0) (fun t i => cis (shift_sign fwd * (IZR (m0 + i) * hp_longitude n t 0))).
Proof.
  intros HL Hn m0. unfold ring_phase_shifts_hp. change (ntheta (Some L) "healpix" (Some n)) with (Ok (4 * n - 1)).
  cbn [bind]. eexists. split; [reflexivity|].
  replace (L - (if reality then 0 else - L + 1)) with (L - m0) by (unfold m0; destruct reality; lia).
  split; [cbn; do 2 f_equal; unfold m0; destruct reality; lia|].
  intros t i Ht Hi. unfold at2. cbn [get mat nth]. f_equal. rewrite p2phi_rings_ok, p2phi_ok by auto.
  replace ((if reality then 0 else - L + 1) + i) with (m0 + i) by (unfold m0; destruct reality; lia).
  unfold shift_sign. ring.
Qed.

Lemma construct_shifts_ok L n fwd : 1 <= L -> 1 <= n ->
  exists a, healpix_phase_shifts L n fwd = Ok a /\
    is_mat a (4 * n - 1) (2 * L - 1) (fun t i => cis (shift_sign fwd * (IZR (1 - L + i) * hp_longitude n t 0))).
Proof.
  intros HL Hn. unfold healpix_phase_shifts. change (ntheta (Some L) "healpix" (Some n)) with (Ok (4 * n - 1)). cbn [bind].
  destruct (foldM_inv (fun t a => is_mat a (4 * n - 1) (2 * L - 1) (fun r i => if r <? t then
      cis (shift_sign fwd * (IZR (1 - L + i) * hp_longitude n r 0)) else RtoC 0))
    (fun a t => row_op (fun _ y => y) a t 0 (2 * L - 1) (ring_phase_shift_hp L t n fwd false))
    0 (4 * n - 1) (mat (4 * n - 1) (2 * L - 1) (fun _ _ => RtoC 0))) as (a & E & H).
  - lia.
  - apply (is_mat_ext _ _ _ (fun _ _ => RtoC 0)); [apply is_mat_mat|]. intros. now zif.
  - intros t a Ht Ha. destruct (phase_shift_ok L n t fwd false HL Hn Ht) as (V1 & V2).
    destruct (row_op_ok (fun _ y => y) a _ _ _ t 0 (2 * L - 1) _ Ha Ht ltac:(lia) ltac:(lia) ltac:(lia)
       ltac:(rewrite V1; lia)) as (a' & E & H').
    exists a'. split; [exact E|]. apply (is_mat_ext _ _ _ _ _ H'). intros r c Hr Hc. cbv beta.
    destruct (Z.eqb_spec r t) as [->|].
    + repeat zif. replace (c - 0) with (1 - L + c - (1 - L)) by lia. now rewrite V2 by lia.
    + replace (r <? t + 1) with (r <? t) by lia. replace (false && (0 <=? c) && (c <? 2 * L - 1)) with false by lia. reflexivity.
  - exists a. split; [exact E|]. apply (is_mat_ext _ _ _ _ _ H). intros. now zif.
Qed.

(** ** equiangular longitudes *)
Lemma equi_phi_ok name s L : denotes name s -> s <> HEALPIX -> 1 <= L ->
  exists v, phis_equiang L name = Ok v /\ vlen v = per_ring s L /\
    forall p, 0 <= p < per_ring s L -> vat v p = equi_longitude s L p.
Proof.
  intros Hd Hs HL. unfold phis_equiang, denotes in *.
  assert (E : nphi_equiang (Some L) name = Ok (per_ring s L)) by (unfold nphi_equiang; rewrite Hd; destruct s; try congruence; reflexivity).
  rewrite E. cbn [bind].
  assert (P : forall p, p2phi_equiang L p name = Ok (equi_longitude s L p)).
  { intros p. unfold p2phi_equiang, equi_longitude. rewrite Hd.
    transitivity (Ok (IZR (2 * p) * PI / IZR (per_ring s L))%R); [destruct s; try congruence; reflexivity|].
    f_equal. rewrite mult_IZR. unfold Rdiv. ring. }
  unfold over_arange. rewrite P. cbn [bind]. eexists. split; [reflexivity|]. split; [reflexivity|].
  intros p _. cbn. now rewrite P.
Qed.
