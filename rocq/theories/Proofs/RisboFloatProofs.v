(** The Risbo recursion in rounded arithmetic: the error grows like the sum of the local errors. *)
From Coq Require Import Reals Lra Lia.
From Verif Require Import Lib.Py Lib.PyFacts Lib.Sums Lib.Cplx Lib.Vec Lib.VecFacts Lib.Arr Lib.ArrFacts.
From Verif Require Import Model.Risbo Model.RisboFloat Spec.WignerSpec Spec.RoundingSpec.
From Verif Require Import Proofs.WignerDh Proofs.WignerCalc Proofs.RisboProofs Proofs.SpectralBound Proofs.RisboRound.
Open Scope R_scope.

(** half_total is linear in the source *)
Lemma half_total_plus f g j C0 S0 q p :
  half_total (fun k i => f k i + g k i) j C0 S0 q p = half_total f j C0 S0 q p + half_total g j C0 S0 q p.
Proof.
  unfold half_total, sel, hv1, hv2, hv3, hv4, Rdiv.
  repeat match goal with |- context [if ?b then _ else _] => destruct b end; ring.
Qed.
Lemma half_total_ext f g j C0 S0 q p : (forall k i, (0 <= k < j)%Z -> (0 <= i < j)%Z -> f k i = g k i) ->
  half_total f j C0 S0 q p = half_total g j C0 S0 q p.
Proof.
  intros H. unfold half_total, sel, hv1, hv2, hv3, hv4.
  f_equal; [f_equal; [f_equal|]|];
  match goal with |- (if ?b then _ else _) = _ => destruct b eqn:B end; try reflexivity; rewrite H by lia; reflexivity.
Qed.

Lemma sq_le1 x : x * x <= 1 -> Rabs x <= 1.
Proof.
  intros H. apply Rabs_le. split; nra.
Qed.
Lemma dh_le1 beta j q p : (0 <= q <= j)%Z -> (0 <= p <= j)%Z -> Rabs (dh (cos (beta / 2)) (sin (beta / 2)) j q p) <= 1.
Proof.
  intros Hq Hp. apply sq_le1. fold (D j q p beta).
  pose proof (D_cols j p p beta Hp Hp) as E. rewrite Z.eqb_refl in E. rewrite <- E.
  rewrite <- (rr_delta 0 (j + 1) q (fun k => D j k p beta * D j k p beta)) by lia.
  apply rr_le. intros k Hk. pose proof (Rle_0_sqr (D j k p beta)) as S. unfold Rsqr in S. destruct (k =? q)%Z; lra.
Qed.

Section Float.
  Variables (A : arith) (u eta : R).
  Hypothesis HA : rounded A u eta.
  Let u0 : 0 <= u := rd_u _ _ _ HA.
  Let e0 : 0 <= eta := rd_eta _ _ _ HA.
  Hypothesis Hu : u <= / 1000.

  Lemma eadd4 : eta <= u -> eadd u eta (21 / 10) 4 <= 26 * u.
  Proof using HA Hu.
    intros He. cbn [eadd INR]. assert (u * u <= u * / 1000) by (apply Rmult_le_compat_l; lra).
    assert (u * eta <= u * / 1000) by (apply Rmult_le_compat_l; lra). 
    assert (U3 : u * (u * u) <= u * / 1000) by (apply Rmult_le_compat_l; nra).
    assert (U4 : u * (u * (u * u)) <= u * / 1000) by (apply Rmult_le_compat_l; [lra|nra]).
    assert (V3 : u * (u * eta) <= u * / 1000) by (apply Rmult_le_compat_l; nra).
    assert (V4 : u * (u * (u * eta)) <= u * / 1000) by (apply Rmult_le_compat_l; [lra|nra]).
    nra.
  Qed.

  Section Half.
    Variables (j : Z) (Hj : (0 < j)%Z) (Hje : IZR j * eta <= u) (beta C0 S0 c' s' : R).
    Hypothesis HCS : C0 * C0 + S0 * S0 = 1.
    Hypothesis Hc : Rabs (c' - C0) <= 8 * u.
    Hypothesis Hs : Rabs (s' - S0) <= 8 * u.
    Variable x : Z -> Z -> R.
    Hypothesis Hx : forall k i, (0 <= k < j)%Z -> (0 <= i < j)%Z -> Rabs (x k i) <= 2.

    Definition fv1 k i := rf_term A (j - i) (j - k) (fdiv A (x k i) (IZR j)) c'.
    Definition fv2 k i := - rf_term A (i + 1) (j - k) (fdiv A (x k i) (IZR j)) s'.
    Definition fv3 k i := rf_term A (j - i) (k + 1) (fdiv A (x k i) (IZR j)) s'.
    Definition fv4 k i := rf_term A (i + 1) (k + 1) (fdiv A (x k i) (IZR j)) c'.

    Lemma trig1 : Rabs C0 <= 1 /\ Rabs S0 <= 1.
    Proof using HCS. split; apply sq_le1; [pose proof (Rle_0_sqr S0)|pose proof (Rle_0_sqr C0)]; unfold Rsqr in *; lra. Qed.

    Lemma fv_err k i : (0 <= k < j)%Z -> (0 <= i < j)%Z ->
      (Rabs (fv1 k i - hv1 x j C0 k i) <= 42 * u /\ Rabs (fv1 k i) <= 21 / 10)
      /\ (Rabs (fv2 k i - hv2 x j S0 k i) <= 42 * u /\ Rabs (fv2 k i) <= 21 / 10)
      /\ (Rabs (fv3 k i - hv3 x j S0 k i) <= 42 * u /\ Rabs (fv3 k i) <= 21 / 10)
      /\ (Rabs (fv4 k i - hv4 x j C0 k i) <= 42 * u /\ Rabs (fv4 k i) <= 21 / 10).
    Proof using HA Hu Hje HCS Hc Hs Hx.
      intros Hk Hi. destruct trig1 as [TC TS]. pose proof (Hx k i Hk Hi) as X.
      assert (G : forall v w, Rabs (v - w) <= 42 * u /\ Rabs w <= 2 -> Rabs (v - w) <= 42 * u /\ Rabs v <= 21 / 10).
      { intros v w [E1 E2]. split; [exact E1|]. pose proof (Rabs_bnd _ _ _ E1). lra. }
      pose proof (term_err A u eta HA Hu j (j - i) (j - k) (x k i) C0 c' ltac:(lia) ltac:(lia) Hje X TC Hc) as T1.
      pose proof (term_err A u eta HA Hu j (i + 1) (j - k) (x k i) S0 s' ltac:(lia) ltac:(lia) Hje X TS Hs) as T2.
      pose proof (term_err A u eta HA Hu j (j - i) (k + 1) (x k i) S0 s' ltac:(lia) ltac:(lia) Hje X TS Hs) as T3.
      pose proof (term_err A u eta HA Hu j (i + 1) (k + 1) (x k i) C0 c' ltac:(lia) ltac:(lia) Hje X TC Hc) as T4.
      split; [apply G; exact T1|]. split; [|split; [apply G; exact T3|apply G; exact T4]].
      apply G. unfold fv2, hv2. rewrite Rabs_Ropp. split; [|apply T2].
      match goal with |- Rabs (- ?a - - ?b) <= _ => replace (- a - - b) with (- (a - b)) by ring end.
      rewrite Rabs_Ropp. apply T2.
    Qed.

    Lemma total_err q p : Rabs (gtotal 0 Rplus j fv1 fv2 fv3 fv4 q p - half_total x j C0 S0 q p) <= 168 * u.
    Proof using HA Hu Hje HCS Hc Hs Hx.
      assert (G : forall (f h : Z -> Z -> R) q p, (forall k i, (0 <= k < j)%Z -> (0 <= i < j)%Z -> Rabs (f k i - h k i) <= 42 * u) ->
        Rabs (gsel 0 j f q p - sel j h q p) <= 42 * u).
      { intros f h a b H. unfold gsel, sel. destruct ((0 <=? a) && (a <? j) && (0 <=? b) && (b <? j))%Z eqn:B.
        - apply H; lia.
        - rewrite Rminus_0_r, Rabs_R0. lra. }
      unfold gtotal, half_total.
      set (a1 := gsel 0 j fv1 q p). set (a2 := gsel 0 j fv2 q (p - 1)). set (a3 := gsel 0 j fv3 (q - 1) p). set (a4 := gsel 0 j fv4 (q - 1) (p - 1)).
      set (b1 := sel j _ q p). set (b2 := sel j _ q (p - 1)). set (b3 := sel j _ (q - 1) p). set (b4 := sel j _ (q - 1) (p - 1)).
      assert (Rabs (a1 - b1) <= 42 * u) by (apply G; intros; now apply fv_err).
      assert (Rabs (a2 - b2) <= 42 * u) by (apply G; intros; now apply fv_err).
      assert (Rabs (a3 - b3) <= 42 * u) by (apply G; intros; now apply fv_err).
      assert (Rabs (a4 - b4) <= 42 * u) by (apply G; intros; now apply fv_err).
      replace (a1 + a2 + a3 + a4 - (b1 + b2 + b3 + b4)) with (((a1 - b1) + (a2 - b2)) + ((a3 - b3) + (a4 - b4))) by ring.
      eapply Rle_trans; [apply Rabs_triang|].
      pose proof (Rabs_triang (a1 - b1) (a2 - b2)). pose proof (Rabs_triang (a3 - b3) (a4 - b4)). lra.
    Qed.

    (** the whole half-step into an array of zeros *)
    Lemma half_float pos a :
      (forall k i q p, pos k i = pos q p -> k = q /\ i = p) ->
      (forall k i, (0 <= k <= j)%Z -> (0 <= i <= j)%Z -> in_shape (shape a) (pos k i)) ->
      (forall ix, in_shape (shape a) ix -> get a ix = 0) ->
      exists b, quad (fadd A) pos fv1 fv2 fv3 fv4 j a = Ok b /\ shape b = shape a
        /\ (forall q p, (0 <= q <= j)%Z -> (0 <= p <= j)%Z -> Rabs (get b (pos q p) - half_total x j C0 S0 q p) <= 200 * u)
        /\ (forall ix, in_shape (shape a) ix -> (forall k i, (0 <= k <= j)%Z -> (0 <= i <= j)%Z -> ix <> pos k i) -> get b ix = 0).
    Proof using HA Hu Hj Hje HCS Hc Hs Hx.
      intros inj Hin Hz. assert (He : eta <= u).
      { assert (1 <= IZR j) by (apply IZR_le; lia). clear - H Hje e0. nra. }
      destruct (rel_quad A u eta (21 / 10) pos fv1 fv2 fv3 fv4 j a HA inj Hin Hz) as (b & E & Sb & Gb & Nb).
      - intros k i Hk Hi. destruct (fv_err k i Hk Hi) as ((_ & ?) & (_ & ?) & (_ & ?) & (_ & ?)). auto.
      - lra.
      - exists b. split; [exact E|]. split; [exact Sb|]. split; [|exact Nb]. intros q p Hq Hp.
        pose proof (Gb q p Hq Hp) as G1. pose proof (total_err q p) as G2. pose proof (eadd4 He).
        match goal with |- Rabs (?g - ?h) <= _ => replace (g - h) with ((g - gtotal 0 Rplus j fv1 fv2 fv3 fv4 q p) + (gtotal 0 Rplus j fv1 fv2 fv3 fv4 q p - h)) by ring end.
        eapply Rle_trans; [apply Rabs_triang|]. lra.
    Qed.
  End Half.

  (** the error matrix of a half-step *)
  Lemma half_error j beta x sg e y : (0 < j)%Z -> 0 <= e -> (sg = 1 \/ sg = -1) ->
    opb j (fun k i => x k i - sg * dh (cos (beta / 2)) (sin (beta / 2)) (j - 1) k i) e ->
    (forall q p, (0 <= q <= j)%Z -> (0 <= p <= j)%Z ->
       Rabs (y q p - half_total x j (- cos (beta / 2)) (sin (beta / 2)) q p) <= 200 * u) ->
    opb (j + 1) (fun q p => y q p - - sg * dh (cos (beta / 2)) (sin (beta / 2)) j q p) (e + 200 * u * IZR (j + 1)).
  Proof using HA.
    intros Hj He Hsg HE Hy. set (c := cos (beta / 2)) in *. set (s := sin (beta / 2)) in *.
    assert (Hcs : c * c + s * s = 1) by apply cs_half.
    assert (Hcs' : - c * - c + s * s = 1) by lra.
    set (E := fun k i => x k i - sg * dh c s (j - 1) k i) in *.
    assert (O1 : opb (j + 1) (half_total E j (- c) s) e) by (apply half_opb; auto).
    assert (O2 : opb (j + 1) (fun q p => y q p - half_total x j (- c) s q p) (200 * u * IZR (j + 1))).
    { apply opb_entries; [lia|lra|]. intros q p Hq Hp. apply Hy; lia. }
    eapply opb_ext; [|exact (opb_plus _ _ _ _ _ O1 O2)]. intros q p Hq Hp. cbv beta.
    assert (X : half_total x j (- c) s q p = - sg * dh c s j q p + half_total E j (- c) s q p).
    { rewrite <- (half_total_dh c s j Hcs Hj q p ltac:(lia) ltac:(lia) (fun k i => sg * dh c s (j - 1) k i) sg) by reflexivity.
      rewrite <- half_total_plus. apply half_total_ext. intros. unfold E. ring. }
    rewrite X. ring.
  Qed.

  Lemma half_size j beta x sg e : (0 < j)%Z -> e <= 1 -> (sg = 1 \/ sg = -1) ->
    opb j (fun k i => x k i - sg * dh (cos (beta / 2)) (sin (beta / 2)) (j - 1) k i) e ->
    forall k i, (0 <= k < j)%Z -> (0 <= i < j)%Z -> Rabs (x k i) <= 2.
  Proof using.
    intros Hj He Hsg H k i Hk Hi. pose proof (opb_entry _ _ _ k i H Hk Hi) as B. cbv beta in B.
    pose proof (dh_le1 beta (j - 1) k i ltac:(lia) ltac:(lia)) as Dh. apply Rabs_bnd in B.
    rewrite Rabs_mult in B. replace (Rabs sg) with 1 in B by (destruct Hsg as [-> | ->]; unfold Rabs; destruct Rcase_abs; lra). lra.
  Qed.

  (** ** The state after degree l *)
  Definition fholds (L l : Z) (beta : R) (a : ndarray R) (e : R) : Prop :=
    shape a = [2 * L - 1; 2 * L - 1]%Z
    /\ (forall m n, (- L < m < L)%Z -> (- L < n < L)%Z -> (l < Z.abs m \/ l < Z.abs n)%Z -> get a [m + L - 1; n + L - 1]%Z = 0)
    /\ opb (2 * l + 1) (fun q p => get a [q - l + L - 1; p - l + L - 1]%Z - dh (cos (beta / 2)) (sin (beta / 2)) (2 * l) q p) e.

  Lemma rf_half1_quad dl L el c s dd : (1 < el < L)%Z -> shape dl = [2 * L - 1; 2 * L - 1]%Z ->
    rf_half1 A dl L el c s dd
    = quad (fadd A) (fun k i => [i; k]) (fv1 (2 * el - 1) c (fun k i => get dl [k - (el - 1) + L - 1; i - (el - 1) + L - 1]%Z))
        (fv2 (2 * el - 1) s (fun k i => get dl [k - (el - 1) + L - 1; i - (el - 1) + L - 1]%Z))
        (fv3 (2 * el - 1) s (fun k i => get dl [k - (el - 1) + L - 1; i - (el - 1) + L - 1]%Z))
        (fv4 (2 * el - 1) c (fun k i => get dl [k - (el - 1) + L - 1; i - (el - 1) + L - 1]%Z)) (2 * el - 1) dd.
  Proof using.
    intros Hel Hs. unfold rf_half1, quad. apply foldM_ext. intros a k Hk. apply in_zrange in Hk.
    apply foldM_ext. intros b i Hi. apply in_zrange in Hi.
    rewrite aread_in by (rewrite Hs; apply in_shape2; lia). reflexivity.
  Qed.
  Lemma rf_half2_quad dd L el c s dl : (1 < el < L)%Z -> shape dd = [2 * el + 2; 2 * el + 2]%Z ->
    rf_half2 A dd L el c s dl
    = quad (fadd A) (fun k i => [k - el + L - 1; i - el + L - 1]%Z) (fv1 (2 * el) c (fun k i => get dd [i; k]))
        (fv2 (2 * el) s (fun k i => get dd [i; k])) (fv3 (2 * el) s (fun k i => get dd [i; k]))
        (fv4 (2 * el) c (fun k i => get dd [i; k])) (2 * el) dl.
  Proof using.
    intros Hel Hs. unfold rf_half2, quad. apply foldM_ext. intros a k Hk. apply in_zrange in Hk.
    apply foldM_ext. intros b i Hi. apply in_zrange in Hi.
    rewrite aread_in by (rewrite Hs; apply in_shape2; lia). reflexivity.
  Qed.

  Lemma in_shape_inv n m ix : in_shape [n; m] ix -> exists r c, ix = [r; c] /\ (0 <= r < n)%Z /\ (0 <= c < m)%Z.
  Proof using.
    destruct ix as [|r [|c [|d ix]]]; cbn [in_shape]; try tauto. intros (H1 & H2 & _). now exists r, c.
  Qed.

  Lemma fstepn L beta l dl e : (1 < l < L)%Z -> Rabs beta <= 5 -> IZR (2 * L) * eta <= u ->
    0 <= e -> e + 200 * u * IZR (4 * l + 1) <= 1 ->
    fholds L (l - 1) beta dl e ->
    exists a, rf_step A dl beta L l = Ok a /\ fholds L l beta a (e + 200 * u * IZR (4 * l + 1)).
  Proof using HA Hu.
    intros Hl Hb HLe He He1 (Hs & Hz & HE). unfold rf_step.
    replace (l =? 0)%Z with false by lia. replace (l =? 1)%Z with false by lia. cbv zeta.
    assert (P : forall k, (0 <= k)%Z -> 0 <= 200 * u * IZR k) by (intros; apply Rmult_le_pos; [lra|apply IZR_le; lia]).
    assert (Hje : forall j, (0 <= j <= 2 * L)%Z -> IZR j * eta <= u).
    { intros j Hj. eapply Rle_trans; [apply Rmult_le_compat_r; [exact e0|apply IZR_le, Hj]|exact HLe]. }
    assert (Hee : eta <= u) by (specialize (Hje 1%Z ltac:(lia)); lra).
    destruct (half_angle A u eta HA Hu beta Hb Hee) as [HC HS].
    set (c := cos (beta / 2)) in *. set (s := sin (beta / 2)) in *.
    set (c' := fcos A (fdiv A beta 2)) in *. set (s' := fsin A (fdiv A beta 2)) in *.
    assert (HC' : Rabs (- c' - - c) <= 8 * u) by (replace (- c' - - c) with (- (c' - c)) by ring; now rewrite Rabs_Ropp).
    assert (Hcs : - c * - c + s * s = 1) by (pose proof (cs_half beta); fold c s in H; lra).
    rewrite rf_half1_quad by assumption.
    set (x := fun k i => get dl [k - (l - 1) + L - 1; i - (l - 1) + L - 1]%Z).
    assert (E1 : opb (2 * l - 1) (fun k i => x k i - 1 * dh c s (2 * l - 1 - 1) k i) e).
    { replace (2 * (l - 1) + 1)%Z with (2 * l - 1)%Z in HE by lia. eapply opb_ext; [|exact HE]. intros. cbv beta.
      unfold x. replace (2 * (l - 1))%Z with (2 * l - 1 - 1)%Z by lia. fold c s. ring. }
    assert (X2 : forall k i, (0 <= k < 2 * l - 1)%Z -> (0 <= i < 2 * l - 1)%Z -> Rabs (x k i) <= 2).
    { apply (half_size (2 * l - 1) beta x 1 e ltac:(lia)); [pose proof (P (4 * l + 1)%Z ltac:(lia)); lra|auto|exact E1]. }
    destruct (half_float (2 * l - 1) ltac:(lia) (Hje (2 * l - 1)%Z ltac:(lia)) (- c) s (- c') s' Hcs HC' HS x X2
      (fun k i => [i; k]) (zeros 0 [2 * l + 2; 2 * l + 2]%Z)) as (dd & Edd & Sdd & Gdd & _).
    { intros k i q p [= -> ->]. auto. }
    { intros. cbn [shape zeros]. apply in_shape2; lia. }
    { reflexivity. }
    rewrite Edd. cbn [bind]. clear Edd. cbn [shape zeros] in Sdd.
    pose proof (half_error (2 * l - 1) beta x 1 e (fun q p => get dd [p; q]) ltac:(lia) He ltac:(auto) E1 Gdd) as E2.
    fold c s in E2. replace (2 * l - 1 + 1)%Z with (2 * l)%Z in E2 by lia.
    rewrite rf_half2_quad by assumption.
    set (e2 := e + 200 * u * IZR (2 * l)) in *.
    assert (Ee2 : e + 200 * u * IZR (4 * l + 1) = e2 + 200 * u * IZR (2 * l + 1)).
    { unfold e2. replace (4 * l + 1)%Z with (2 * l + (2 * l + 1))%Z by lia. rewrite (plus_IZR (2 * l) (2 * l + 1)). ring. }
    set (y := fun k i => get dd [i; k]). 
    assert (E2' : opb (2 * l) (fun k i => y k i - -1 * dh c s (2 * l - 1) k i) e2).
    { eapply opb_ext; [|exact E2]. intros. cbv beta. unfold y. ring. }
    assert (e2 <= 1) by (pose proof (P (2 * l + 1)%Z ltac:(lia)); lra).
    assert (0 <= e2) by (pose proof (P (2 * l)%Z ltac:(lia)); unfold e2; lra).
    assert (Y2 : forall k i, (0 <= k < 2 * l)%Z -> (0 <= i < 2 * l)%Z -> Rabs (y k i) <= 2)
      by (apply (half_size (2 * l) beta y (-1) e2 ltac:(lia)); auto).
    set (dl0 := fill2 _ _ _ _ _ _).
    assert (Hs0 : shape dl0 = [2 * L - 1; 2 * L - 1]%Z) by (now apply fill2_shape).
    destruct (half_float (2 * l) ltac:(lia) (Hje (2 * l)%Z ltac:(lia)) (- c) s (- c') s' Hcs HC' HS y Y2
      (fun k i => [k - l + L - 1; i - l + L - 1]%Z) dl0) as (a & Ea & Sa & Ga & Na).
    { intros k i q p [= H1 H2]. lia. }
    { intros. rewrite Hs0. apply in_shape2; lia. }
    { intros ix Hix. rewrite Hs0 in Hix. apply in_shape_inv in Hix. destruct Hix as (r & t & -> & Hr & Ht).
      unfold dl0. rewrite (fill2_get _ (2 * L - 1)) by (auto; lia).
      match goal with |- (if ?b then _ else _) = _ => destruct b eqn:B end; [reflexivity|].
      replace r with ((r - L + 1) + L - 1)%Z by lia. replace t with ((t - L + 1) + L - 1)%Z by lia. apply Hz; lia. }
    exists a. split; [exact Ea|]. split; [congruence|]. split.
    - intros m n Hm Hn Hmn. apply Na; [rewrite Hs0; apply in_shape2; lia|]. intros k i Hk Hi [= H1 H2]. lia.
    - pose proof (half_error (2 * l) beta y (-1) e2 (fun q p => get a [q - l + L - 1; p - l + L - 1]%Z) ltac:(lia) ltac:(assumption) ltac:(auto) E2' Ga) as E3.
      rewrite Ee2. eapply opb_ext; [|exact E3]. intros. cbv beta. fold c s. ring.
  Qed.

  (** ** Degrees 0 and 1 *)
  Lemma cos_sq_err beta x y : eta <= u -> Rabs (x - y) <= 8 * u -> Rabs y <= 1 -> beta = y ^ 2 -> Rabs (fmul A x x - beta) <= 20 * u.
  Proof using HA Hu.
    intros He Hx Hy ->. pose proof (mul_err y x y x _ _ 1 1 Hx Hx Hy Hy) as E. replace (y ^ 2) with (y * y) by ring.
    pose proof (rd_mul _ _ _ HA x x) as M. pose proof (Rabs_bnd _ _ _ E) as B.
    assert (U2 : u * u <= u * / 1000) by (apply Rmult_le_compat_l; lra).
    assert (Rabs (y * y) <= 1) by (rewrite Rabs_mult; pose proof (Rabs_pos y); nra).
    replace (fmul A x x - y * y) with ((fmul A x x - x * x) + (x * x - y * y)) by ring.
    eapply Rle_trans; [apply Rabs_triang|].
    assert (u * Rabs (x * x) <= u * (1 + 17 * u)) by (apply Rmult_le_compat_l; lra). lra.
  Qed.

  Lemma sin_err x y : eta <= u -> Rabs (x - y) <= 4 * u -> Rabs y <= 1 -> Rabs (fdiv A x (fsqrt A 2) - y / sqrt 2) <= 20 * u.
  Proof using HA Hu.
    intros He Hx Hy. pose proof (rd_sqrt _ _ _ HA 2 ltac:(lra)) as S. set (r := fsqrt A 2) in *.
    assert (S2 : sqrt 2 * sqrt 2 = 2) by (apply sqrt_sqrt; lra). pose proof (sqrt_pos 2) as SP.
    assert (S1 : 1 < sqrt 2 < 3 / 2) by (split; nra).
    assert (SE : Rabs (r - sqrt 2) <= 3 * u) by nra.
    assert (R1 : 1 < r < 2) by (apply Rabs_def2 in S || idtac; pose proof (Rle_abs (r - sqrt 2)); pose proof (Rle_abs (- (r - sqrt 2))); rewrite Rabs_Ropp in *; split; nra).
    pose proof (rd_div _ _ _ HA x r ltac:(lra)) as M.
    assert (E : Rabs (x / r - y / sqrt 2) <= 7 * u).
    { replace (x / r - y / sqrt 2) with ((x - y) / r + y * (sqrt 2 - r) / (r * sqrt 2)) by (field; lra).
      eapply Rle_trans; [apply Rabs_triang|].
      assert (Rabs ((x - y) / r) <= 4 * u).
      { unfold Rdiv. rewrite Rabs_mult. rewrite (Rabs_pos_eq (/ r)) by (left; apply Rinv_0_lt_compat; lra).
        assert (/ r <= 1) by (rewrite <- Rinv_1; apply Rinv_le_contravar; lra).
        assert (0 < / r) by (apply Rinv_0_lt_compat; lra). pose proof (Rabs_pos (x - y)). nra. }
      assert (Rabs (y * (sqrt 2 - r) / (r * sqrt 2)) <= 3 * u).
      { unfold Rdiv. rewrite !Rabs_mult. rewrite (Rabs_minus_sym (sqrt 2) r).
        assert (P : 1 <= r * sqrt 2) by nra.
        rewrite (Rabs_pos_eq (/ (r * sqrt 2))) by (left; apply Rinv_0_lt_compat; lra).
        assert (/ (r * sqrt 2) <= 1) by (rewrite <- Rinv_1; apply Rinv_le_contravar; lra).
        assert (0 < / (r * sqrt 2)) by (apply Rinv_0_lt_compat; lra).
        pose proof (Rabs_pos y). pose proof (Rabs_pos (r - sqrt 2)).
        assert (Rabs y * Rabs (r - sqrt 2) <= 1 * (3 * u)) by (apply Rmult_le_compat; lra).
        apply Rle_trans with (3 * u * 1); [|lra]. apply Rmult_le_compat; try lra. apply Rmult_le_pos; assumption. }
      lra. }
    assert (Y1 : Rabs (y / sqrt 2) <= 1).
    { unfold Rdiv. rewrite Rabs_mult, (Rabs_pos_eq (/ sqrt 2)) by (left; apply Rinv_0_lt_compat; lra).
      assert (/ sqrt 2 <= 1) by (rewrite <- Rinv_1; apply Rinv_le_contravar; lra).
      assert (0 < / sqrt 2) by (apply Rinv_0_lt_compat; lra). pose proof (Rabs_pos y). nra. }
    pose proof (Rabs_bnd _ _ _ E) as B. assert (U2 : u * u <= u * / 1000) by (apply Rmult_le_compat_l; lra).
    replace (fdiv A x r - y / sqrt 2) with ((fdiv A x r - x / r) + (x / r - y / sqrt 2)) by ring.
    eapply Rle_trans; [apply Rabs_triang|].
    assert (u * Rabs (x / r) <= u * (1 + 7 * u)) by (apply Rmult_le_compat_l; lra). lra.
  Qed.

  Lemma fstep1 L beta dl : (1 < L)%Z -> Rabs beta <= 5 -> eta <= u -> fholds L 0 beta dl 0 ->
    exists a, rf_step A dl beta L 1 = Ok a /\ fholds L 1 beta a (200 * u * 5).
  Proof using HA Hu.
    intros HL Hb He (Hs & Hz & _). unfold rf_step. cbn [Z.eqb Pos.eqb]. cbv zeta.
    destruct (half_angle A u eta HA Hu beta Hb He) as [HC HS].
    pose proof (rd_cos _ _ _ HA beta) as HCb. pose proof (rd_sin _ _ _ HA beta) as HSb.
    assert (HSb' : Rabs (- fsin A beta - - sin beta) <= 4 * u)
      by (replace (- fsin A beta - - sin beta) with (- (fsin A beta - sin beta)) by ring; now rewrite Rabs_Ropp).
    assert (T : forall x, Rabs (cos x) <= 1 /\ Rabs (sin x) <= 1 /\ Rabs (- sin x) <= 1).
    { intros x. rewrite Rabs_Ropp. repeat split; apply Rabs_le; [apply COS_bound|apply SIN_bound|apply SIN_bound]. }
    do 8 write_ok Hs. write_ok Hs.
    eexists; split; [reflexivity|]. split; [exact Hs|]. cbn [get]. split.
    - intros m n Hm Hn Hmn. rewrite !ite_upd2.
      repeat match goal with |- context [if ?b then _ else _] => replace b with false by lia end. apply Hz; lia.
    - apply opb_le with (20 * u * IZR (2 * 1 + 1)); [cbn [Z.mul Pos.mul Z.add Pos.add]; lra|].
      apply opb_entries; [lia|lra|]. intros q p Hq Hp. rewrite !ite_upd2.
      replace (dh (cos (beta / 2)) (sin (beta / 2)) (2 * 1) q p) with (wigner_d 1 (q - 1) (p - 1) beta)
        by (rewrite wigner_dh by lia; f_equal; lia).
      assert (q = 0 \/ q = 1 \/ q = 2)%Z as [-> | [-> | ->]] by lia;
      assert (p = 0 \/ p = 1 \/ p = 2)%Z as [-> | [-> | ->]] by lia; cbn [andb Z.eqb Pos.eqb Z.sub Z.add Z.opp Pos.add Z.pos_sub Pos.pred_double];
      rewrite ?wd1_mm, ?wd1_m0, ?wd1_mp, ?wd1_0m, ?wd1_00, ?wd1_0p, ?wd1_pm, ?wd1_p0, ?wd1_pp;
      first [ apply (cos_sq_err _ _ _ He HC (proj1 (T _)) eq_refl) | apply (cos_sq_err _ _ _ He HS (proj1 (proj2 (T _))) eq_refl)
        | apply (sin_err _ _ He HSb (proj1 (proj2 (T _)))) | apply (sin_err _ _ He HSb' (proj2 (proj2 (T _)))) | lra ].
  Qed.
End Float.

Lemma fstep0 A L beta dl : (0 < L)%Z -> shape dl = [2 * L - 1; 2 * L - 1]%Z ->
  (forall m n, (- L < m < L)%Z -> (- L < n < L)%Z -> get dl [m + L - 1; n + L - 1]%Z = 0) ->
  exists a, rf_step A dl beta L 0 = Ok a /\ fholds L 0 beta a 0.
Proof.
  intros HL Hs Hz. unfold rf_step. cbn [Z.eqb].
  rewrite awrite_in by (rewrite Hs; apply in_shape2; lia).
  eexists; split; [reflexivity|]. split; [exact Hs|]. cbn [get]. split.
  - intros m n Hm Hn Hmn. rewrite ite_upd2. replace ((m =? 0) && (n =? 0))%Z with false by lia. now apply Hz.
  - apply opb_le with (0 * IZR (2 * 0 + 1)); [lra|]. apply opb_entries; [lia|lra|]. intros q p Hq Hp.
    assert (q = 0 /\ p = 0)%Z as [-> ->] by lia. rewrite ite_upd2. cbn [andb Z.eqb Z.sub Z.opp Z.add].
    pose proof (wd0 beta 0 0) as W. rewrite wigner_dh in W by lia. cbn [Z.mul Z.add Z.eqb andb] in W. cbn [Z.mul].
    rewrite W, Rminus_eq_0, Rabs_R0. lra.
Qed.

Definition fbound (u : R) (l : Z) : R := 200 * u * IZR (l * (2 * l + 3)).

Lemma fstep_all A u eta L beta l dl : rounded A u eta -> (0 <= l < L)%Z -> fbound u L <= 1 -> IZR (2 * L) * eta <= u ->
  Rabs beta <= 5 ->
  (if (l =? 0)%Z then arr_eq dl (zeros 0 [2 * L - 1; 2 * L - 1]%Z) else fholds L (l - 1) beta dl (fbound u (l - 1))) ->
  exists a, rf_step A dl beta L l = Ok a /\ fholds L l beta a (fbound u l).
Proof.
  intros HA Hl HL He Hb H. pose proof (rd_u _ _ _ HA) as u0. pose proof (rd_eta _ _ _ HA) as e0.
  destruct (Z.eqb_spec l 0) as [->|N0].
  { destruct H as [Hs Hg]. cbn [shape zeros get] in *. unfold fbound. cbn [Z.mul]. rewrite Rmult_0_r.
    apply fstep0; [lia|exact Hs|]. intros m n Hm Hn. apply Hg. rewrite Hs. apply in_shape2; lia. }
  assert (LL : IZR (2 * L) * 1 >= 1) by (rewrite Rmult_1_r; apply Rle_ge, IZR_le; lia).
  assert (Hee : eta <= u) by nra.
  assert (Hu : u <= / 1000).
  { unfold fbound in HL. assert (14 <= IZR (L * (2 * L + 3))) by (apply IZR_le; nia). nra. }
  destruct (Z.eq_dec l 1) as [->|N1].
  { apply fstep1 with (eta := eta); auto; [lia|]. unfold fbound in H. cbn in H. now rewrite Rmult_0_r in H. }
  replace (fbound u l) with (fbound u (l - 1) + 200 * u * IZR (4 * l + 1)).
  2:{ unfold fbound. replace (l * (2 * l + 3))%Z with ((l - 1) * (2 * (l - 1) + 3) + (4 * l + 1))%Z by ring. rewrite (plus_IZR ((l - 1) * (2 * (l - 1) + 3))). ring. }
  apply fstepn with (eta := eta); auto; [lia| |].
  - unfold fbound. apply Rmult_le_pos; [lra|]. apply IZR_le. nia.
  - eapply Rle_trans; [|exact HL]. unfold fbound. rewrite <- Rmult_plus_distr_l, <- plus_IZR.
    apply Rmult_le_compat_l; [lra|]. apply IZR_le. nia.
Qed.

Lemma fpi_range A u eta L beta : rounded A u eta -> (1 <= L)%Z -> fbound u L <= 1 -> eta <= u -> 0 <= beta <= fpi A -> Rabs beta <= 5.
Proof.
  intros HA HL HB He Hb. pose proof (rd_u _ _ _ HA) as u0. pose proof (rd_pi _ _ _ HA) as Hp. pose proof PI_4. pose proof PI_RGT_0.
  assert (Hu : u <= / 1000) by (unfold fbound in HB; assert (5 <= IZR (L * (2 * L + 3))) by (apply IZR_le; nia); nra).
  rewrite Rabs_right by lra. pose proof (Rle_abs (fpi A - PI)). assert (u * PI <= / 1000 * 4) by (apply Rmult_le_compat; lra). lra.
Qed.
Lemma frun A u eta L beta l : rounded A u eta -> (0 <= l < L)%Z -> fbound u L <= 1 -> IZR (2 * L) * eta <= u ->
  0 <= beta <= fpi A -> exists a, rf_run A beta L l = Ok a /\ fholds L l beta a (fbound u l).
Proof.
  intros HA [H0 HL] HB He Hb. assert (Hb5 : Rabs beta <= 5).
  { apply (fpi_range A u eta L beta HA); auto; [lia|]. pose proof (rd_eta _ _ _ HA). assert (2 <= IZR (2 * L)) by (apply IZR_le; lia). nra. }
  revert HL. revert l H0. unfold rf_run.
  assert (K : forall l dl, (0 <= l < L)%Z -> shape dl = [2 * L - 1; 2 * L - 1]%Z -> rf_arg_checks A dl beta L l = Ok tt).
  { intros l dl Hl Hs. destruct (shape_dims _ _ Hs) as [D0 D1]. unfold rf_arg_checks. rewrite D0, D1.
    replace ((0 <=? l) && (l <? L))%Z with true by lia. rewrite !Z.eqb_refl. cbn [negb andb].
    destruct (Rle_dec 0 beta); [|lra]. destruct (Rle_dec beta (fpi A)); [reflexivity|lra]. }
  z_ind.
  - intros HL. rewrite zrange_cons, zrange_nil by lia. cbn [foldM]. unfold rf_full. rewrite K by (auto; lia). cbn [bind].
    destruct (fstep_all A u eta L beta 0 (zeros 0 [2 * L - 1; 2 * L - 1]%Z)) as (a & -> & H); auto; [lia|apply arr_eq_refl|].
    exists a. auto.
  - intros l Hl IH HL. destruct IH as (a & E & Ha); [lia|].
    rewrite <- Z.add_1_r. rewrite zrange_snoc, foldM_app, E by lia. cbn [bind foldM].
    unfold rf_full. rewrite K; [|lia|apply Ha]. cbn [bind].
    destruct (fstep_all A u eta L beta (l + 1) a) as (b & -> & H); auto; [lia| |exists b; auto].
    replace (l + 1 =? 0)%Z with false by lia. now replace (l + 1 - 1)%Z with l by lia.
Qed.

Lemma fholds_entry L l beta a e m n : fholds L l beta a e -> (0 <= l < L)%Z -> (Z.abs m <= l)%Z -> (Z.abs n <= l)%Z ->
  Rabs (get a [m + L - 1; n + L - 1]%Z - wigner_d l m n beta) <= e.
Proof.
  intros (_ & _ & H) Hl Hm Hn. pose proof (opb_entry _ _ _ (l + m) (l + n) H ltac:(lia) ltac:(lia)) as B. cbv beta in B.
  rewrite wigner_dh by lia. replace (m + L - 1)%Z with (l + m - l + L - 1)%Z by lia.
  now replace (n + L - 1)%Z with (l + n - l + L - 1)%Z by lia.
Qed.

(** The vectorised routine, one plane after the other *)
Lemma fvec_step A u eta L l betas : rounded A u eta -> (0 <= l < L)%Z -> fbound u L <= 1 -> IZR (2 * L) * eta <= u ->
  Forall (fun beta => Rabs beta <= 5) betas -> forall dls,
  Forall2 (fun beta dl => if (l =? 0)%Z then arr_eq dl (zeros 0 [2 * L - 1; 2 * L - 1]%Z) else fholds L (l - 1) beta dl (fbound u (l - 1))) betas dls ->
  exists out, rf_full_vec A dls betas L l = Ok out /\ Forall2 (fun beta a => fholds L l beta a (fbound u l)) betas out.
Proof.
  intros HA Hl HB He Hb dls H. induction H as [|beta dl betas dls H1 H IH]; cbn [rf_full_vec].
  - exists []. auto.
  - inversion Hb as [|? ? Hb1 Hb2]; subst.
    destruct (fstep_all A u eta L beta l dl HA Hl HB He Hb1 H1) as (a & -> & Ha). cbn [bind].
    destruct (IH Hb2) as (out & -> & Hout). cbn [bind]. exists (a :: out). auto.
Qed.
Lemma frun_vec A u eta L betas l : rounded A u eta -> (0 <= l < L)%Z -> fbound u L <= 1 -> IZR (2 * L) * eta <= u ->
  Forall (fun beta => Rabs beta <= 5) betas ->
  exists out, rf_run_vec A betas L l = Ok out /\ Forall2 (fun beta a => fholds L l beta a (fbound u l)) betas out.
Proof.
  intros HA [H0 HL] HB He Hb. revert HL. revert l H0. unfold rf_run_vec. z_ind.
  - intros HL. rewrite zrange_cons, zrange_nil by lia. cbn [foldM].
    destruct (fvec_step A u eta L 0 betas HA ltac:(lia) HB He Hb (map (fun _ => zeros 0 [2 * L - 1; 2 * L - 1]%Z) betas)) as (a & -> & H).
    { clear. induction betas; constructor; auto. apply arr_eq_refl. }
    exists a. auto.
  - intros l Hl IH HL. destruct IH as (a & E & Ha); [lia|].
    rewrite <- Z.add_1_r. rewrite zrange_snoc, foldM_app, E by lia. cbn [bind foldM].
    destruct (fvec_step A u eta L (l + 1) betas HA ltac:(lia) HB He Hb a) as (b & -> & H); [|exists b; auto].
    replace (l + 1 =? 0)%Z with false by lia. now replace (l + 1 - 1)%Z with l by lia.
Qed.

(** exact arithmetic *)
Lemma exact_rounded : rounded exact_arith 0 0.
Proof.
  constructor; cbn; intros; try lra; try (unfold Rdiv; ring);
  match goal with |- Rabs (?x - ?y) <= _ => replace (x - y) with 0 by ring; rewrite Rabs_R0; lra end.
Qed.
Lemma rf_exact beta L l : rf_run exact_arith beta L l = risbo_run beta L l.
Proof.
  unfold rf_run, risbo_run. apply foldM_ext. intros dl el _. unfold rf_full, risbo_full.
  change (rf_arg_checks exact_arith dl beta L el) with (risbo_arg_checks dl beta L el).
  destruct (risbo_arg_checks dl beta L el) as [[]|]; cbn [bind]; [|reflexivity].
  unfold rf_step, risbo_step. destruct (el =? 0)%Z; [reflexivity|]. destruct (el =? 1)%Z; [|reflexivity].
  cbv zeta. cbn [fmul fdiv fsqrt fsin fcos exact_arith].
  replace (cos (beta / 2) ^ 2) with (cos (beta / 2) * cos (beta / 2)) by ring.
  replace (sin (beta / 2) ^ 2) with (sin (beta / 2) * sin (beta / 2)) by ring. reflexivity.
Qed.
