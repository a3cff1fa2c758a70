(** C41: the on-the-fly latitudinal steps apply the Wigner d-functions.
    C45: the steps that the JAX transforms register as derivatives of each other are transposes. *)
From Coq Require Import Reals Lra Lia.
From Coquelicot Require Import Complex.
From Verif Require Import Lib.Py Lib.PyFacts Lib.Sums Lib.Cplx Lib.Vec Lib.VecFacts Lib.Arr Lib.MatFacts Lib.Ext Lib.ExtFacts
  Spec.CallSpec.
From Verif Require Import Model.Index Model.Samples Model.Grids Model.PriceMcEwen Model.OTF Spec.WignerSpec Spec.SamplesSpec Spec.OTFSpec.
From Verif Require Import Proofs.WignerGen Proofs.WignerDh Proofs.RisboProofs Proofs.OTFTop Proofs.OTFRegular Proofs.OTFLimit Proofs.OTFAdjoint Proofs.OTFFindings.
Open Scope string_scope.
Open Scope Z_scope.

(** Inverse step (numpy): entry (t, m) is the sum over the degrees from L_lower on of
    d^el_{m,-spin}(beta_t) flm[el, m]; with reality, negative orders are left at zero. *)
Theorem C41_inverse_step : forall th flm L spin s name nside o re Lo beta p, 2 <= L -> 0 <= Lo <= L - 2 -> Z.abs spin < L ->
  denotes name s -> plain_name name s -> (s = HEALPIX -> o = Some nside) ->
  shape flm = [L; 2 * L - 1] -> spin_zero L spin flm ->
  vlen beta = rings s L nside -> numpy_precomps th L spin name o false Lo beta p ->
  exists a, inverse_latitudinal_step th flm beta L spin o name re p Lo = Ok a /\ shape a = [rings s L nside; orders s L] /\
    forall t, 0 <= t < rings s L nside -> regular L Lo (- spin) (vat beta t) ->
      (shift_of s = 1 -> get a [t; 0] = fin (RtoC 0)) /\
      forall m, - L < m < L ->
      get a [t; m + L - 1 + shift_of s] = fin (if re && (m <? 0) then RtoC 0 else latitude_sum L Lo spin flm (vat beta t) m).
Proof.
  intros th flm L spin s name nside o re Lo beta p HL HLo Hs Hd Hp Hn Hf Hz Hb HP.
  destruct (inverse_step th flm L spin s name nside o re Lo beta HL HLo Hs Hd Hp Hn Hf Hz p Hb HP) as (a & E & F & Ha & H).
  exists a. split; [exact E|]. rewrite <- Hb, orders_shift. split; [apply Ha|]. intros t Ht Hr.
  split; [intros Es; refine (eq_trans _ (proj1 (H t Ht Hr) Es)); apply (proj2 Ha); lia|]. intros m Hm.
  refine (eq_trans _ (proj2 (H t Ht Hr) m Hm)). destruct (shift_01 s) as [Es|Es]; apply (proj2 Ha); lia.
Qed.
Print Assumptions C41_inverse_step.

(** Inverse step (JAX): likewise, and the rings at the poles hold the sums at 0 and pi whatever the given angle. *)
Theorem C41_inverse_step_jax : forall th flm L spin s name nside o re Lo beta p, 2 <= L -> 0 <= Lo <= L - 2 -> Z.abs spin < L ->
  denotes name s -> plain_name name s -> (s = HEALPIX -> o = Some nside) ->
  shape flm = [L; 2 * L - 1] -> spin_zero L spin flm ->
  (s = MW -> 1 <= vlen beta) -> (s = MWSS -> 2 <= vlen beta) -> jax_precomps th L spin name o false Lo beta p ->
  exists a, inverse_latitudinal_step_jax th flm beta L spin o name re p Lo = Ok a /\ shape a = [vlen beta; orders s L] /\
    forall t, 0 <= t < vlen beta -> usable_ring s (vlen beta) L Lo spin (vat beta) t ->
      (shift_of s = 1 -> get a [t; 0] = fin (RtoC 0)) /\
      forall m, - L < m < L -> (re = true -> m < 0 -> spin = 0) ->
      get a [t; m + L - 1 + shift_of s] =
        fin (if re && (m <? 0) then RtoC 0 else latitude_sum L Lo spin flm (ring_angle s (vlen beta) (vat beta) t) m).
Proof.
  intros th flm L spin s name nside o re Lo beta p HL HLo Hs Hd Hp Hn Hf Hz H1 H2 HP.
  destruct (inverse_step_jax th flm L spin s name nside o re Lo beta HL HLo Hs Hd Hp Hn Hf Hz p H1 H2 HP) as (a & E & F & Ha & H).
  exists a. split; [exact E|]. rewrite orders_shift. split; [apply Ha|]. intros t Ht Hr.
  split; [intros Es; refine (eq_trans _ (proj1 (H t Ht Hr) Es)); apply (proj2 Ha); lia|]. intros m Hm Hre.
  refine (eq_trans _ (proj2 (H t Ht Hr) m Hm Hre)). destruct (shift_01 s) as [Es|Es]; apply (proj2 Ha); lia.
Qed.
Print Assumptions C41_inverse_step_jax.

(** The numpy transform overwrites the rings at the poles after the step; the result is that of the JAX step. *)
Theorem C41_inverse_agree : forall th flm L spin s name nside o re Lo beta p q, 2 <= L -> 0 <= Lo <= L - 2 -> Z.abs spin < L ->
  denotes name s -> plain_name name s -> (s = HEALPIX -> o = Some nside) ->
  shape flm = [L; 2 * L - 1] -> spin_zero L spin flm ->
  vlen beta = rings s L nside -> numpy_precomps th L spin name o false Lo beta p -> jax_precomps th L spin name o false Lo beta q ->
  exists a b c, inverse_latitudinal_step th flm beta L spin o name re p Lo = Ok a /\ set_poles a flm L spin name Lo = Ok b /\
    inverse_latitudinal_step_jax th flm beta L spin o name re q Lo = Ok c /\ shape b = shape c /\
    forall t m, 0 <= t < vlen beta -> usable_ring s (vlen beta) L Lo spin (vat beta) t -> - L < m < L -> (re = true -> m < 0 -> spin = 0) ->
      get b [t; m + L - 1 + shift_of s] = get c [t; m + L - 1 + shift_of s] /\
      get b [t; m + L - 1 + shift_of s] =
        fin (if re && (m <? 0) then RtoC 0 else latitude_sum L Lo spin flm (ring_angle s (vlen beta) (vat beta) t) m).
Proof.
  intros th flm L spin s name nside o re Lo beta p q HL HLo Hs Hd Hp Hn Hf Hz Hb HP HQ.
  assert (H1 : s = MW -> 1 <= vlen beta) by (intros Es; rewrite Hb, Es; cbn; lia).
  assert (H2 : s = MWSS -> 2 <= vlen beta) by (intros Es; rewrite Hb, Es; cbn; lia).
  destruct (inverse_step th flm L spin s name nside o re Lo beta HL HLo Hs Hd Hp Hn Hf Hz p Hb HP) as (a & Ea & Ia).
  destruct (set_poles_ok flm L spin s name nside o re Lo beta HL HLo Hs Hd Hp Hn Hf Hz a H1 H2 Ia) as (b & Eb & F & Hb' & HB).
  destruct (inverse_step_jax th flm L spin s name nside o re Lo beta HL HLo Hs Hd Hp Hn Hf Hz q H1 H2 HQ) as (c & Ec & G & Hc & HC).
  exists a, b, c. repeat (split; [assumption|]). split; [rewrite (proj1 Hb'), (proj1 Hc); reflexivity|].
  intros t m Ht Hr Hm Hre. pose proof (proj2 (HB t Ht Hr) m Hm Hre) as B. pose proof (proj2 (HC t Ht Hr) m Hm Hre) as C'.
  pose proof (proj2 Hb' t (m + L - 1 + shift_of s)) as B'. pose proof (proj2 Hc t (m + L - 1 + shift_of s)) as D'.
  unfold at2 in B', D'. destruct (shift_01 s) as [Es|Es]; rewrite B', D' by lia; rewrite B, C'; split; reflexivity.
Qed.
Print Assumptions C41_inverse_agree.

(** Forward step (numpy). *)
Theorem C41_forward_step : forall th ftm L spin s name o re Lo beta p, 2 <= L -> 0 <= Lo <= L - 2 -> Z.abs spin < L ->
  denotes name s -> plain_name name s -> shape ftm = [vlen beta; orders s L] ->
  numpy_precomps th L spin name o true Lo beta p -> (forall t, 0 <= t < vlen beta -> regular L Lo (- spin) (vat beta t)) ->
  exists a, forward_latitudinal_step th ftm beta L spin o name re p Lo = Ok a /\ shape a = [L; 2 * L - 1] /\
    forall el m, 0 <= el < L -> - L < m < L ->
      (el < Lo -> get a [el; m + L - 1] = fin (RtoC 0)) /\
      (Lo <= el -> Z.abs spin <= el ->
       get a [el; m + L - 1] = fin (if re && (m <? 0) then RtoC 0 else angle_sum L (shift_of s) spin (vlen beta) ftm (vat beta) el m)).
Proof.
  intros th ftm L spin s name o re Lo beta p HL HLo Hs Hd Hp Hf HP Hr. rewrite orders_shift in Hf.
  destruct (forward_step th ftm L spin s name o re Lo beta HL HLo Hs Hd Hp Hf p HP Hr) as (a & E & F & Ha & H).
  exists a. split; [exact E|]. split; [apply Ha|]. intros el m Hel Hm. pose proof (proj2 Ha el (m + L - 1) Hel ltac:(lia)) as Hg. unfold at2 in Hg.
  rewrite Hg. now apply H.
Qed.
Print Assumptions C41_forward_step.

(** Forward step (JAX): likewise; the rings at the poles enter with the angles 0 and pi. *)
Theorem C41_forward_step_jax : forall th ftm L spin s name o re Lo beta p, 2 <= L -> 0 <= Lo <= L - 2 -> Z.abs spin < L ->
  denotes name s -> plain_name name s -> shape ftm = [vlen beta; orders s L] ->
  1 <= vlen beta -> (s = MWSS -> 2 <= vlen beta) ->
  jax_precomps th L spin name o true Lo (inner_angles s beta) p ->
  (forall t, 0 <= t < vlen beta -> usable_ring s (vlen beta) L Lo spin (vat beta) t) ->
  exists a, forward_latitudinal_step_jax th ftm beta L spin o name re p Lo = Ok a /\ shape a = [L; 2 * L - 1] /\
    forall el m, 0 <= el < L -> - L < m < L ->
      (el < Lo -> get a [el; m + L - 1] = fin (RtoC 0)) /\
      (Lo <= el -> Z.abs spin <= el -> (re = true -> m < 0 -> spin = 0) ->
       get a [el; m + L - 1] = fin (if re && (m <? 0) then RtoC 0 else
         angle_sum L (shift_of s) spin (vlen beta) ftm (ring_angle s (vlen beta) (vat beta)) el m)).
Proof.
  intros th ftm L spin s name o re Lo beta p HL HLo Hs Hd Hp Hf H1 H2 HP Hr. rewrite orders_shift in Hf.
  destruct (forward_step_jax th ftm L spin s name o re Lo beta HL HLo Hs Hd Hp Hf) with (p := p) as (a & E & F & Ha & H); auto.
  { unfold r0, r1. destruct s; try specialize (H2 eq_refl); lia. }
  exists a. split; [exact E|]. split; [apply Ha|]. intros el m Hel Hm. pose proof (proj2 Ha el (m + L - 1) Hel ltac:(lia)) as Hg. unfold at2 in Hg.
  rewrite Hg. now apply H.
Qed.
Print Assumptions C41_forward_step_jax.

(** The angles at which the four theorems apply are dense in (0, pi), for all parameters. *)
Theorem C41_regular_dense : forall L Lo n a b, (0 <= a < b)%R -> (b <= PI)%R -> Z.abs n < L -> exists x, (a < x < b)%R /\ regular L Lo n x.
Proof. exact regular_dense. Qed.
Print Assumptions C41_regular_dense.

(** At angles that approximate given ones the steps approximate the sums at the given ones. *)
Theorem C41_inverse_step_near : forall flm L spin s name nside o re Lo (target : vec R) eps, 2 <= L -> 0 <= Lo <= L - 2 -> Z.abs spin < L ->
  denotes name s -> plain_name name s -> (s = HEALPIX -> o = Some nside) ->
  shape flm = [L; 2 * L - 1] -> spin_zero L spin flm -> vlen target = rings s L nside -> (0 < eps)%R ->
  exists delta, (0 < delta)%R /\ forall th beta p, numpy_precomps th L spin name o false Lo beta p -> vlen beta = vlen target ->
    (forall t, 0 <= t < vlen target -> (Rabs (vat beta t - vat target t) < delta)%R) ->
    exists a, inverse_latitudinal_step th flm beta L spin o name re p Lo = Ok a /\
      forall t m, 0 <= t < vlen target -> regular L Lo (- spin) (vat beta t) -> - L < m < L -> (re = true -> 0 <= m) ->
        exists z, get a [t; m + L - 1 + shift_of s] = fin z /\ (Cmod (z - latitude_sum L Lo spin flm (vat target t) m)%C < eps)%R.
Proof.
  intros flm L spin s name nside o re Lo target eps HL HLo Hs Hd Hp Hn Hf Hz Hb Heps.
  destruct (uniform (zrange 0 (vlen target)) (fun t d => forall m y, - L < m < L -> (Rabs (y - vat target t) < d)%R ->
    (Cmod (latitude_sum L Lo spin flm y m - latitude_sum L Lo spin flm (vat target t) m)%C < eps)%R)) as (d & Hd0 & Hu).
  { intros t _. destruct (uniform (zrange (- L + 1) L) (fun m d => forall y, (Rabs (y - vat target t) < d)%R ->
    (Cmod (latitude_sum L Lo spin flm y m - latitude_sum L Lo spin flm (vat target t) m)%C < eps)%R)) as (d & Hd0 & Hu).
    - intros m _. destruct (latitude_close L Lo spin flm m (vat target t) eps Heps) as (d & Hd0 & Hu). exists d. split; [exact Hd0|].
      intros d' Hd' y Hy. apply Hu. lra.
    - exists d. split; [exact Hd0|]. intros d' Hd' m y Hm Hy. apply (Hu m); [apply in_zrange; lia|lra]. }
  exists d. split; [exact Hd0|]. intros th beta p HP Hlen Hclose.
  destruct (C41_inverse_step th flm L spin s name nside o re Lo beta p) as (a & E & _ & H); auto; [congruence|].
  exists a. split; [exact E|]. intros t m Ht Hr Hm Hre. rewrite Hb in Ht. rewrite (proj2 (H t Ht Hr) m Hm).
  assert (B : re && (m <? 0) = false) by (destruct re; [|reflexivity]; cbn; apply Z.ltb_ge; auto).
  rewrite B. eexists. split; [reflexivity|]. rewrite <- Hb in Ht. apply (Hu t); [apply in_zrange; lia|exact Hm|]. apply Hclose. exact Ht.
Qed.
Print Assumptions C41_inverse_step_near.
Theorem C41_forward_step_near : forall ftm L spin s name o re Lo (target : vec R) eps, 2 <= L -> 0 <= Lo <= L - 2 -> Z.abs spin < L ->
  denotes name s -> plain_name name s -> shape ftm = [vlen target; orders s L] -> (0 < eps)%R ->
  exists delta, (0 < delta)%R /\ forall th beta p, numpy_precomps th L spin name o true Lo beta p -> vlen beta = vlen target ->
    (forall t, 0 <= t < vlen target -> (Rabs (vat beta t - vat target t) < delta)%R /\ regular L Lo (- spin) (vat beta t)) ->
    exists a, forward_latitudinal_step th ftm beta L spin o name re p Lo = Ok a /\
      forall el m, Z.max Lo (Z.abs spin) <= el < L -> - L < m < L -> (re = true -> 0 <= m) ->
        exists z, get a [el; m + L - 1] = fin z /\
          (Cmod (z - angle_sum L (shift_of s) spin (vlen target) ftm (vat target) el m)%C < eps)%R.
Proof.
  intros ftm L spin s name o re Lo target eps HL HLo Hs Hd Hp Hf Heps.
  set (close := fun el m d => forall y, (forall t, 0 <= t < vlen target -> (Rabs (y t - vat target t) < d)%R) ->
    (Cmod (angle_sum L (shift_of s) spin (vlen target) ftm y el m - angle_sum L (shift_of s) spin (vlen target) ftm (vat target) el m)%C < eps)%R).
  destruct (uniform (zrange 0 L) (fun el d => forall m, - L < m < L -> close el m d)) as (d & Hd0 & Hu).
  { intros el _. destruct (uniform (zrange (- L + 1) L) (fun m d => close el m d)) as (d & Hd0 & Hu).
    - intros m _. destruct (angle_close L (shift_of s) spin (vlen target) ftm (vat target) el m eps Heps) as (d & Hd0 & Hu). exists d. split; [exact Hd0|].
      intros d' Hd' y Hy. apply Hu. intros t Ht. specialize (Hy t Ht). lra.
    - exists d. split; [exact Hd0|]. intros d' Hd' m Hm y Hy. apply (Hu m); [apply in_zrange; lia|]. intros t Ht. specialize (Hy t Ht). lra. }
  exists d. split; [exact Hd0|]. intros th beta p HP Hlen Hclose.
  destruct (C41_forward_step th ftm L spin s name o re Lo beta p) as (a & E & _ & H); auto.
  - now rewrite Hlen.
  - intros t Ht. apply Hclose. lia.
  - exists a. split; [exact E|]. intros el m Hel Hm Hre. rewrite (proj2 (H el m ltac:(lia) Hm)) by lia.
    assert (B : re && (m <? 0) = false) by (destruct re; [|reflexivity]; cbn; apply Z.ltb_ge; auto).
    rewrite B, Hlen. eexists. split; [reflexivity|]. apply (Hu el); [apply in_zrange; lia|exact Hm|]. intros t Ht. now apply Hclose.
Qed.
Print Assumptions C41_forward_step_near.

(** Each JAX transform registers the opposite step as the derivative of its own step
    (transforms/spherical.py:303-322, 704-723): with respect to the pairings sum over (t, m) of
    gtm ftm and sum over (el, m) of glm flm the two steps are transposes of each other. *)
Theorem C45_transpose : forall th flm gtm L spin s name nside o re Lo beta p q, 2 <= L -> 0 <= Lo <= L - 2 -> Z.abs spin < L ->
  denotes name s -> plain_name name s -> (s = HEALPIX -> o = Some nside) -> (re = true -> spin = 0) ->
  shape flm = [L; 2 * L - 1] -> spin_zero L spin flm -> shape gtm = [vlen beta; orders s L] ->
  1 <= vlen beta -> (s = MWSS -> 2 <= vlen beta) ->
  jax_precomps th L spin name o false Lo beta p -> jax_precomps th L spin name o true Lo (inner_angles s beta) q ->
  (forall t, 0 <= t < vlen beta -> usable_ring s (vlen beta) L Lo spin (vat beta) t) ->
  exists a b A B, inverse_latitudinal_step_jax th flm beta L spin o name re p Lo = Ok a /\
    forward_latitudinal_step_jax th gtm beta L spin o name re q Lo = Ok b /\
    (forall t c, 0 <= t < vlen beta -> 0 <= c < orders s L -> get a [t; c] = fin (A t c)) /\
    (forall el c, Z.abs spin <= el < L -> 0 <= c < 2 * L - 1 -> get b [el; c] = fin (B el c)) /\
    csum (zrange 0 (vlen beta)) (fun t => csum (zrange 0 (orders s L)) (fun c => get gtm [t; c] * A t c)%C) =
    csum (zrange (Z.abs spin) L) (fun el => csum (zrange 0 (2 * L - 1)) (fun c => B el c * get flm [el; c])%C).
Proof.
  intros th flm gtm L spin s name nside o re Lo beta p q HL HLo Hs Hd Hp Hn Hre Hf Hz Hg H1 H2 HP HQ Hu.
  destruct (C41_inverse_step_jax th flm L spin s name nside o re Lo beta p) as (a & Ea & _ & Ha); auto.
  destruct (C41_forward_step_jax th gtm L spin s name o re Lo beta q) as (b & Eb & _ & Hb); auto.
  exists a, b. eexists. eexists. split; [exact Ea|]. split; [exact Eb|]. rewrite orders_shift. split; [|split].
  - intros t c Ht Hc. destruct (Ha t Ht (Hu t Ht)) as [H0 Hm].
    instantiate (1 := fun t c => if c <? shift_of s then RtoC 0 else if re && (c - shift_of s - (L - 1) <? 0) then RtoC 0
      else latitude_sum L Lo spin flm (ring_angle s (vlen beta) (vat beta) t) (c - shift_of s - (L - 1))). cbn beta.
    destruct (Z.ltb_spec c (shift_of s)) as [Hlt|Hge].
    + destruct (shift_01 s) as [Es|Es]; [lia|]. assert (c = 0) by lia. subst c. auto.
    + rewrite <- (Hm (c - shift_of s - (L - 1))); [|destruct (shift_01 s); lia|auto].
      replace (c - shift_of s - (L - 1) + L - 1 + shift_of s) with c by lia. reflexivity.
  - intros el c Hel Hc. destruct (Hb el (c - (L - 1)) ltac:(lia) ltac:(lia)) as [H0 H3].
    replace (c - (L - 1) + L - 1) with c in H0, H3 by lia.
    instantiate (1 := fun el c => if el <? Lo then RtoC 0 else if re && (c - (L - 1) <? 0) then RtoC 0
      else angle_sum L (shift_of s) spin (vlen beta) gtm (ring_angle s (vlen beta) (vat beta)) el (c - (L - 1))). cbn beta.
    destruct (Z.ltb_spec el Lo); [auto|]. apply H3; auto; lia.
  - cbn beta. apply steps_transpose; auto. apply shift_01.
Qed.
Print Assumptions C45_transpose.

(** ** The hypotheses are met *)
Definition C41_gl : gl_rule := mkGL (fun _ => vconst 0 0%R) (fun _ => vconst 0 0%R).
Definition C41_angles : vec R := mkVec 3 (fun t => (IZR (2 * t + 1) * PI / 5)%R).
Definition C41_flm : ndarray C := mat 3 5 (fun el c => if Z.abs (c - 2) <=? el then (IZR (el + 1), IZR c) else RtoC 0).
Lemma regular3 x : (0 < x < PI)%R -> cos x <> 0%R -> regular 3 0 0 x.
Proof.
  intros Hx Hc. split; [exact Hx|]. intros el m Hel Hm. assert (el = 2) by lia. subst el. intros H.
  assert (Hs : (0 < sin x)%R) by (apply sin_gt_0; lra).
  assert (Hw : (tan (x / 2) ^ 2 = 1)%R).
  { pose proof (wigner_poly 2 m 0 ltac:(lia) ltac:(lia) x Hx H) as Hp. assert (m = 1 \/ m = -1) as [-> | ->] by lia.
    - unfold wpoly in Hp. change (zrange (Z.max 0 (0 - 1)) (Z.min (2 + 0) (2 - 1) + 1)) with [0; 1] in Hp. cbn [map peval] in Hp.
      assert (wcoef 2 1 0 1 = - wcoef 2 1 0 0)%R.
      { unfold wcoef. cbn [Z.add Z.sub Z.opp Pos.add Pos.sub Z.pos_sub Pos.pred_double]. unfold sgn. cbn [Z.even]. change (Z.double 0) with 0. change (Z.succ_double 0) with 1.
        rewrite ?zf2, ?zf_0, ?zf_1. field. }
      pose proof (wcoef_nz 2 1 0 0). nra.
    - unfold wpoly in Hp. change (zrange (Z.max 0 (0 - -1)) (Z.min (2 + 0) (2 - -1) + 1)) with [1; 2] in Hp. cbn [map peval] in Hp.
      assert (wcoef 2 (-1) 0 2 = - wcoef 2 (-1) 0 1)%R.
      { unfold wcoef. cbn [Z.add Z.sub Z.opp Pos.add Pos.sub Z.pos_sub Pos.pred_double]. unfold sgn. cbn [Z.even]. change (Z.double 0) with 0. change (Z.succ_double 0) with 1.
        rewrite ?zf2, ?zf_0, ?zf_1. field. }
      pose proof (wcoef_nz 2 (-1) 0 1). nra. }
  apply Hc. assert (Hh : (0 < cos (x / 2))%R) by (apply cos_gt_0; lra).
  replace x with (2 * (x / 2))%R by field. rewrite cos_2a.
  assert (sin (x / 2) * sin (x / 2) = tan (x / 2) ^ 2 * (cos (x / 2) * cos (x / 2)))%R by (unfold tan; field; lra). rewrite H0, Hw. ring.
Qed.
Example C41_inverse_step_ex : 2 <= 3 /\ 0 <= 0 <= 3 - 2 /\ Z.abs 0 < 3 /\ denotes "mw" MW /\ plain_name "mw" MW /\
  shape C41_flm = [3; 2 * 3 - 1] /\ spin_zero 3 0 C41_flm /\ vlen C41_angles = rings MW 3 0 /\
  numpy_precomps (exact_thetas C41_gl) 3 0 "mw" None false 0 C41_angles None /\
  jax_precomps (exact_thetas C41_gl) 3 0 "mw" None false 0 C41_angles None /\
  regular 3 0 (- 0) (vat C41_angles 0) /\ regular 3 0 (- 0) (vat C41_angles 1) /\
  (forall t, 0 <= t < 3 -> usable_ring MW 3 3 0 0 (vat C41_angles) t) /\
  Z.abs 2 < 5 /\ spin_zero 5 2 (mat 5 9 (fun el c => if 2 <=? el then (1%R, 2%R) else RtoC 0)).
Proof.
  assert (R0 : regular 3 0 0 (vat C41_angles 0)).
  { apply regular3; cbn; [pose proof PI_RGT_0; lra|]. apply Rgt_not_eq. apply cos_gt_0; pose proof PI_RGT_0; lra. }
  assert (R1 : regular 3 0 0 (vat C41_angles 1)).
  { apply regular3; cbn; [pose proof PI_RGT_0; lra|]. apply Rlt_not_eq. apply cos_lt_0; pose proof PI_RGT_0; lra. }
  split; [lia|]. split; [lia|]. split; [lia|]. split; [reflexivity|]. split; [intros [H|H]; discriminate|].
  split; [reflexivity|]. split; [intros el m H1; lia|]. split; [reflexivity|]. split.
  - split; [|left; reflexivity]. reflexivity.
  - split; [left; reflexivity|]. split; [exact R0|]. split; [exact R1|]. split.
    + intros t Ht Hp. assert (t = 0 \/ t = 1 \/ t = 2) as [->|[->| ->]] by lia; [exact R0|exact R1|discriminate Hp].
    + split; [lia|]. intros el m H1 H2 H3. cbn. destruct (Z.leb_spec 2 el); [lia|reflexivity].
Qed.
(** [C45_transpose], with the same data: *)
Example C45_transpose_ex : shape (mat 3 5 (fun t c => (IZR t, IZR c))) = [vlen C41_angles; orders MW 3] /\ 1 <= vlen C41_angles /\
  jax_precomps (exact_thetas C41_gl) 3 0 "mw" None true 0 (inner_angles MW C41_angles) None.
Proof. split; [reflexivity|]. split; [cbn; lia|]. left. reflexivity. Qed.
(** the forward step, with an angle of [C41_regular_dense] for every ring of L = 4, spin 2 *)
Example C41_forward_step_ex : exists th beta, vlen beta = rings MWSS 8 0 - 2 /\ numpy_precomps th 4 2 "mwss" None true 1 beta None /\
  (forall t, 0 <= t < vlen beta -> regular 4 1 (- (2)) (vat beta t)) /\ plain_name "mwss" MWSS /\ denotes "mwss" MWSS.
Proof.
  destruct (C41_regular_dense 4 1 (-2) 0 1) as (x & Hx & Hr); [lra|pose proof PI_4; pose proof PI2_1; lra|lia|].
  exists (fun _ _ _ => Ok (vconst 9 x)), (vslice (vconst 9 x) 1 (-1)). split; [reflexivity|]. split; [split; [reflexivity|left; reflexivity]|].
  split; [intros t Ht; exact Hr|]. split; [intros _; reflexivity|reflexivity].
Qed.

(** ** Findings *)
(** With L_lower = L - 1 a slice starting at -1 takes in the degree below: for L = 2 the entry of
    order 0 is cos(x) (flm[0, 0] + flm[1, 0]) where only flm[1, 0] may count. *)
Theorem C41_lower_refuted : forall th flm beta re p, shape flm = [2; 3] -> vlen beta = 2 ->
  numpy_precomps th 2 0 "mw" None false 1 beta p -> (0 < vat beta 0 < PI)%R -> cos (vat beta 0) <> 0%R -> get flm [0; 1] <> RtoC 0 ->
  exists a, inverse_latitudinal_step th flm beta 2 0 None "mw" re p 1 = Ok a /\
    get a [0; 1] = fin (RtoC (cos (vat beta 0)) * (get flm [0; 1] + get flm [1; 1]))%C /\
    get a [0; 1] <> fin (latitude_sum 2 1 0 flm (vat beta 0) 0).
Proof.
  intros th flm beta re p Hf Hb HP Hx Hc Hg. destruct (lower_two th flm beta re p Hf Hb HP Hx) as (a & E & H).
  exists a. split; [exact E|]. split; [exact H|]. rewrite H. unfold latitude_sum. change (zrange (Z.max 1 (Z.abs 0)) 2) with [1].
  cbn [csum suml fold_right Z.add Z.sub Z.opp Pos.add Z.pos_sub Pos.pred_double]. rewrite wd1_00. intros HH.
  assert (K : (RtoC (cos (vat beta 0)) * (get flm [0; 1] + get flm [1; 1]) = RtoC (cos (vat beta 0)) * get flm [1; 1] + RtoC 0)%C).
  { unfold fin in HH. inversion HH. apply C_eq; assumption. }
  apply Hg. assert (K2 : (RtoC (cos (vat beta 0)) * get flm [0; 1] = RtoC 0)%C).
  { replace (RtoC (cos (vat beta 0)) * get flm [0; 1])%C with (RtoC (cos (vat beta 0)) * (get flm [0; 1] + get flm [1; 1]) - RtoC (cos (vat beta 0)) * get flm [1; 1])%C by ring.
    rewrite K. ring. }
  destruct (Ceq_dec (get flm [0; 1]) (RtoC 0)) as [Hd|Hd]; [exact Hd|]. exfalso.
  apply (Cmult_neq_0 (RtoC (cos (vat beta 0))) (get flm [0; 1])); [intros Hr; apply RtoC_inj in Hr; auto|exact Hd|exact K2].
Qed.
Print Assumptions C41_lower_refuted.
Example C41_lower_refuted_ex : exists th beta, numpy_precomps th 2 0 "mw" None false 1 beta None /\ vlen beta = 2 /\
  (0 < vat beta 0 < PI)%R /\ cos (vat beta 0) <> 0%R.
Proof.
  exists (exact_thetas C41_gl), (mkVec 2 (fun t => (IZR (2 * t + 1) * PI / 3)%R)). pose proof PI_RGT_0. split; [split; [reflexivity|left; reflexivity]|].
  split; [reflexivity|]. cbn. split; [lra|]. apply Rgt_not_eq, cos_gt_0; lra.
Qed.
(** Both numpy steps raise for L = 1, the band-limit of the constant functions. *)
Theorem C41_one_refuted : forall th flm ftm beta s name nside o re p, denotes name s -> plain_name name s -> (s = HEALPIX -> o = Some nside) ->
  shape flm = [1; 1] -> shape ftm = [vlen beta; orders s 1] ->
  (vlen beta = rings s 1 nside -> numpy_precomps th 1 0 name o false 0 beta p ->
   inverse_latitudinal_step th flm beta 1 0 o name re p 0 = Err IndexError) /\
  (numpy_precomps th 1 0 name o true 0 beta p -> forward_latitudinal_step th ftm beta 1 0 o name re p 0 = Err IndexError).
Proof.
  intros th flm ftm beta s name nside o re p Hd Hp Hn Hf Hg. split.
  - intros Hb HP. now apply (inverse_one th flm beta s name nside).
  - intros HP. apply (forward_one th ftm beta s); auto. rewrite Hg, orders_shift. repeat f_equal; lia.
Qed.
Print Assumptions C41_one_refuted.
Example C41_one_refuted_ex : numpy_precomps (exact_thetas C41_gl) 1 0 "mw" None false 0 (mkVec 1 (fun t => (IZR (2 * t + 1) * PI / 1)%R)) None /\
  rings MW 1 0 = 1.
Proof. split; [split; [reflexivity|left; reflexivity]|reflexivity]. Qed.
