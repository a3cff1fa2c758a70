(** The sample grids as the transforms see them, and the accumulating loops over them. *)
From Coq Require Import Reals ZifyBool.
From Coquelicot Require Import Complex.
From Verif Require Import Lib.Py Lib.PyFacts Lib.Vec Lib.VecFacts Lib.Sums Lib.Cplx Lib.Arr Lib.ArrFacts Lib.MatFacts
  Model.Index Model.Samples Model.Grids Model.FFT Model.HealpixFFT Model.Turok Model.Spherical
  Spec.SamplesSpec Spec.WignerSpec Spec.SphereSpec Spec.GridSpec Spec.HealpixFFTSpec
  Proofs.SamplesProofs Proofs.GridProofs Proofs.PixelProofs Proofs.TurokProofs.
Open Scope string_scope.
Open Scope Z_scope.

(** ** Accumulation of complex numbers *)
Notation CA := (acc Cplus).
Notation at1 := (one_at (RtoC 0)).
Definition ca_plus := @aplus_acc C _ _ _ _ _ _ C_ring_theory.
Definition ca_bind := @acc_bind C _ _ _ _ _ _ C_ring_theory.
Definition ca_ext := @acc_ext C Cplus.

Lemma ca_ret a : CA (Ok a) a (fun _ => RtoC 0).
Proof. exists a. repeat split. intros. ring. Qed.

Lemma ca_fold (body : ndarray C -> Z -> result (ndarray C)) (c : Z -> list Z -> C) lo hi a :
  (forall a' x, shape a' = shape a -> lo <= x < hi -> CA (body a' x) a' (c x)) ->
  CA (foldM body (zrange lo hi) a) a (fun ix => csum (zrange lo hi) (fun x => c x ix)).
Proof.
  intros H. apply (@acc_foldM C _ _ _ _ _ _ C_ring_theory). intros a' x Hs Hx. apply in_zrange in Hx. auto.
Qed.

Lemma ca_enum {A} (v : vec A) (body : ndarray C -> Z -> A -> result (ndarray C)) c n a :
  vlen v = n ->
  (forall a' i, shape a' = shape a -> 0 <= i < n -> CA (body a' i (vat v i)) a' (c i)) ->
  CA (enum v body a) a (fun ix => csum (zrange 0 n) (fun i => c i ix)).
Proof. intros <- H. unfold enum. now apply ca_fold. Qed.

(** a loop adding to one entry *)
Lemma ca_fold_at (body : ndarray C -> Z -> result (ndarray C)) e (v : Z -> C) lo hi a :
  (forall a' x, shape a' = shape a -> lo <= x < hi -> CA (body a' x) a' (at1 e (v x))) ->
  CA (foldM body (zrange lo hi) a) a (at1 e (csum (zrange lo hi) v)).
Proof.
  intros H. eapply ca_ext; [apply ca_fold; exact H|]. intros ix. cbv beta. unfold one_at.
  destruct (list_eq_dec _ _ _); [reflexivity|]. apply cr_0. reflexivity.
Qed.

Lemma at1_plus e v w ix : (at1 e v ix + at1 e w ix)%C = at1 e (v + w)%C ix.
Proof. unfold one_at. destruct (list_eq_dec _ _ _); [reflexivity|ring]. Qed.
Lemma at1_same e v : at1 e v e = v.
Proof. unfold one_at. now destruct (list_eq_dec _ e e). Qed.
Lemma at1_other e v ix : ix <> e -> at1 e v ix = RtoC 0.
Proof. intros H. unfold one_at. now destruct (list_eq_dec _ ix e). Qed.

Lemma acc_zeros r sh c : CA r (zeros (RtoC 0) sh) c ->
  exists a, r = Ok a /\ shape a = sh /\ forall ix, get a ix = c ix.
Proof.
  intros (a & E & Hs & Hg). exists a. split; [exact E|]. split; [exact Hs|]. intros ix. rewrite Hg. cbn. ring.
Qed.

(** a row slice added to *)
Lemma row_acc a n m r s e (w : vec C) : shape a = [n; m] -> 0 <= r < n -> 0 <= s -> s <= e -> e <= m -> vlen w = e - s ->
  CA (row_op Cplus a r s e w) a (fun ix =>
    if (nth 0 ix 0 =? r) && (s <=? nth 1 ix 0) && (nth 1 ix 0 <? e) then vat w (nth 1 ix 0 - s) else RtoC 0).
Proof.
  intros Ha Hr Hs He Hm Hw. unfold row_op, dim0, dim1. rewrite Ha. cbn [nth].
  rewrite norm_index_in by lia. rewrite !slice_len_in, !slice_lo_in by lia. rewrite Hw, Z.eqb_refl.
  eexists. split; [reflexivity|]. split; [now rewrite Ha|]. intros ix. cbn [get].
  replace (s + (e - s)) with e by lia. destruct (_ && _ && _); [reflexivity|ring].
Qed.

(** ** Grids *)
Record grid := mkGrid { gn : Z; gth : Z -> R; gN : Z -> Z; gph : Z -> Z -> R; ge : Z -> Z -> list Z; gsh : list Z }.

Definition in_grid g t p := 0 <= t < gn g /\ 0 <= p < gN g t.

Record grid_ok (g : grid) (name : string) (nside : option Z) (L : Z) (ths : vec R) : Prop := {
  go_n : vlen ths = gn g;
  go_th : forall t, 0 <= t < gn g -> vat ths t = gth g t;
  go_ph : exists peq, equi_phis L name = Ok peq /\ forall t, 0 <= t < gn g ->
    exists v, ring_phis name nside peq t = Ok v /\ vlen v = gN g t /\ forall p, 0 <= p < gN g t -> vat v p = gph g t p;
  go_e : forall t p, in_grid g t p -> pix_entry name nside t p (gth g t) (gph g t p) = Ok (ge g t p);
  go_sh : forall t p, in_grid g t p -> in_shape (gsh g) (ge g t p);
  go_inj : forall t p t' p', in_grid g t p -> in_grid g t' p' -> ge g t p = ge g t' p' -> t = t' /\ p = p';
  go_cov : forall ix, in_shape (gsh g) ix -> exists t p, in_grid g t p /\ ix = ge g t p }.

Definition equi_grid (s : scheme) (L n : Z) (th : Z -> R) : grid :=
  mkGrid n th (fun _ => per_ring s L) (fun _ p => equi_longitude s L p) (fun t p => [t; p]) [n; per_ring s L].
Definition hp_grid (nside : Z) (th : Z -> R) : grid :=
  mkGrid (4 * nside - 1) th (ring_length nside) (hp_longitude nside)
    (fun t p => [ring_start (ring_length nside) t + p]) [12 * (nside * nside)].

Lemma equi_grid_ok s name nside L n ths th : denotes name s -> s <> HEALPIX -> 1 <= L -> vlen ths = n ->
  (forall t, 0 <= t < n -> vat ths t = th t) -> grid_ok (equi_grid s L n th) name nside L ths.
Proof.
  intros Hd Hs HL Hl Hth.
  assert (NH : is_hp name = false) by (unfold is_hp; unfold denotes in Hd; rewrite Hd; destruct s; try congruence; reflexivity).
  constructor; unfold in_grid; cbn.
  - exact Hl.
  - exact Hth.
  - destruct (equi_phi_ok name s L Hd Hs HL) as (v & E & Hv & Hp). exists v. unfold equi_phis, ring_phis. rewrite NH.
    split; [exact E|]. intros t Ht. exists v. auto.
  - intros t p _. unfold pix_entry. now rewrite NH.
  - intros; lia.
  - intros t p t' p' _ _ E. now injection E.
  - intros ix Hix. destruct ix as [|t [|p [|]]]; cbn in Hix; try tauto. exists t, p. split; [lia|reflexivity].
Qed.

Lemma ring_length_pos n t : 1 <= n -> 0 <= t < 4 * n - 1 -> 0 < ring_length n t.
Proof. unfold ring_length. lia. Qed.

Lemma hp_grid_ok name nside L ths th : denotes name HEALPIX -> 1 <= nside -> vlen ths = 4 * nside - 1 ->
  (forall t, 0 <= t < 4 * nside - 1 -> vat ths t = th t) ->
  (forall t, 0 <= t < 4 * nside - 1 -> cos (th t) = hp_height nside t) ->
  grid_ok (hp_grid nside th) name (Some nside) L ths.
Proof.
  intros Hd Hn Hl Hth Hc.
  assert (NH : is_hp name = true) by (unfold is_hp; unfold denotes in Hd; rewrite Hd; reflexivity).
  assert (BP : forall p, 0 <= p < ring_start (ring_length nside) (4 * nside - 1) -> _)
    by (intros p; apply (blocks_partition (ring_length nside) (4 * nside - 1)); [lia|intros; pose proof (ring_length_pos nside i Hn ltac:(lia)); lia]).
  rewrite ring_start_total in BP by lia.
  assert (IN : forall t p, 0 <= t < 4 * nside - 1 -> 0 <= p < ring_length nside t ->
    0 <= ring_start (ring_length nside) t + p < 12 * (nside * nside)).
  { intros t p Ht Hp. rewrite <- ring_start_total by lia.
    assert (ring_start (ring_length nside) 0 <= ring_start (ring_length nside) t)
      by (apply ring_start_mono; try lia; intros; pose proof (ring_length_pos nside i Hn ltac:(lia)); lia).
    assert (ring_start (ring_length nside) (t + 1) <= ring_start (ring_length nside) (4 * nside - 1))
      by (apply ring_start_mono; try lia; intros; pose proof (ring_length_pos nside i Hn ltac:(lia)); lia).
    rewrite ring_start_0 in H. rewrite ring_start_succ in H0 by lia. lia. }
  constructor; unfold in_grid; cbn [hp_grid gn gth gN gph ge gsh].
  - exact Hl.
  - exact Hth.
  - unfold equi_phis, ring_phis. rewrite NH. eexists. split; [reflexivity|]. intros t Ht. cbn [need bind]. unfold phis_ring.
    assert (EN : nphi_ring t nside = Ok (ring_length nside t)).
    { unfold nphi_ring. rewrite ring_len by auto.
      destruct (Z.ltb_spec (t + 1) nside); [now repeat zif|]. zif.
      destruct (Z.leb_spec (t + 1) (3 * nside)); repeat zif; f_equal; lia. }
    rewrite EN. cbn [bind]. eexists. split; [reflexivity|]. split; [reflexivity|].
    intros p Hp. cbn [vat]. now apply p2phi_ok.
  - intros t p [Ht Hp]. unfold pix_entry. rewrite NH. cbn [need bind].
    now rewrite (centre_lemma nside t p (th t)) by auto.
  - intros t p [Ht Hp]. specialize (IN t p Ht Hp). cbn [in_shape]. tauto.
  - intros t p t' p' [Ht Hp] [Ht' Hp'] E. injection E as E.
    destruct (BP _ (IN t p Ht Hp)) as (t0 & j & _ & U).
    destruct (U t p Ht Hp eq_refl) as [-> ->]. destruct (U t' p' Ht' Hp' E) as [-> ->]. auto.
  - intros ix Hix. destruct ix as [|i [|]]; cbn [in_shape] in Hix; try tauto.
    destruct (BP i ltac:(lia)) as (t & j & (Ht & Hj & ->) & _). exists t, j. auto.
Qed.

(** an array over a grid *)
Definition on_grid (g : grid) (f : ndarray C) (V : Z -> Z -> C) : Prop :=
  shape f = gsh g /\ forall t p, in_grid g t p -> get f (ge g t p) = V t p.

Lemma on_grid_eq g name nside L ths f f' V V' : grid_ok g name nside L ths -> on_grid g f V -> on_grid g f' V' ->
  (forall t p, in_grid g t p -> V t p = V' t p) -> arr_eq f f'.
Proof.
  intros G [S1 H1] [S2 H2] E. split; [congruence|]. rewrite S1. intros ix Hix.
  destruct (go_cov _ _ _ _ _ G ix Hix) as (t & p & Hg & ->). rewrite H1, H2; auto.
Qed.
Lemma on_grid_ext g f V V' : on_grid g f V -> (forall t p, in_grid g t p -> V t p = V' t p) -> on_grid g f V'.
Proof. intros [S1 H1] E. split; [exact S1|]. intros t p Hg. rewrite H1 by auto. auto. Qed.

(** selecting the terms of one sample of the grid *)
Lemma pick_entry g name nside L ths (V : Z -> Z -> C) t0 p0 : grid_ok g name nside L ths -> in_grid g t0 p0 ->
  csum (zrange 0 (gn g)) (fun t => csum (zrange 0 (gN g t)) (fun p => at1 (ge g t p) (V t p) (ge g t0 p0))) = V t0 p0.
Proof.
  intros G Hg. rewrite (cr_ext _ _ _ (fun t => if t =? t0 then V t p0 else RtoC 0)).
  - apply (cr_delta 0 (gn g) t0 (fun t => V t p0)). exact (proj1 Hg).
  - intros t Ht. destruct (Z.eqb_spec t t0) as [->|N].
    + rewrite (cr_ext _ _ _ (fun p => if p =? p0 then V t0 p else RtoC 0)).
      * apply (cr_delta 0 (gN g t0) p0 (V t0)). exact (proj2 Hg).
      * intros p Hp. destruct (Z.eqb_spec p p0) as [->|N]; [apply at1_same|]. apply at1_other. intros E.
        destruct (go_inj _ _ _ _ _ G t0 p0 t0 p Hg (conj Ht Hp) E). congruence.
    + apply cr_0. intros p Hp. apply at1_other. intros E.
      destruct (go_inj _ _ _ _ _ G t0 p0 t p Hg (conj Ht Hp) E). congruence.
Qed.

(** selecting the terms of one entry of a row *)
Lemma pick_row n els (lo hi : Z -> Z) (o : Z) (V : Z -> Z -> Z -> C) t0 c : 0 <= t0 < n ->
  csum (zrange 0 n) (fun t => csum els (fun el => csum (zrange (lo el) (hi el)) (fun m => at1 [t; m + o] (V t el m) [t0; c])))
  = csum els (fun el => if (lo el <=? c - o) && (c - o <? hi el) then V t0 el (c - o) else RtoC 0).
Proof.
  intros Ht0. rewrite (cr_ext _ _ _ (fun t => if t =? t0 then
    csum els (fun el => if (lo el <=? c - o) && (c - o <? hi el) then V t el (c - o) else RtoC 0) else RtoC 0)).
  - apply (cr_delta 0 n t0 (fun t => csum els (fun el => if (lo el <=? c - o) && (c - o <? hi el) then V t el (c - o) else RtoC 0))). exact Ht0.
  - intros t Ht. destruct (Z.eqb_spec t t0) as [->|N].
    + apply cs_ext. intros el _. rewrite (cr_ext _ _ _ (fun m => if m =? c - o then V t0 el m else RtoC 0)).
      * destruct ((lo el <=? c - o) && (c - o <? hi el)) eqn:E.
        -- apply (cr_delta (lo el) (hi el) (c - o) (V t0 el)). lia.
        -- apply cr_0. intros m Hm. zif. reflexivity.
      * intros m Hm. rewrite one_at2, Z.eqb_refl. cbn [andb]. now replace (m + o =? c) with (m =? c - o) by lia.
    + apply cs_0. intros el _. apply cr_0. intros m Hm. rewrite one_at2. now replace (t =? t0) with false by lia.
Qed.

(** the slice of Wigner functions read by the loops *)
Lemma dl_ok theta el L spin (reality : bool) : 0 <= el < L -> Z.abs spin <= el -> turok_angle theta ->
  exists dl, turok_slice theta el L (- spin) reality = Ok dl /\ vlen dl = 2 * L - 1 /\
    forall m, - L < m < L -> (reality = true -> 0 <= m) -> vat dl (m + L - 1) = wigner_d el m (- spin) theta.
Proof.
  intros Hel Hs Hx. destruct (slice_ok theta el L (- spin) reality Hel ltac:(lia) Hx) as (v & E & Hl & Hv).
  exists v. split; [exact E|]. split; [exact Hl|]. intros m Hm Hr. replace (m + L - 1) with (L - 1 + m) by lia.
  rewrite Hv by auto. destruct (reality && (- spin =? 0) && (m <? 0)) eqn:F; [|reflexivity].
  destruct reality; [|discriminate]. specialize (Hr eq_refl). lia.
Qed.
