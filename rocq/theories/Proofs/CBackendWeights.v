(** The weights the gradients divide by. *)
From Coq Require Import Reals Lra Lia.
From Coquelicot Require Import Coquelicot.
From Verif Require Import Lib.Py Lib.PyFacts Lib.Vec Lib.Sums Lib.Cplx Lib.Arr Model.Samples Model.Grids Model.Quadrature Model.QuadratureJax
  Model.GaussLegendre Model.CBackend Spec.SamplesSpec Spec.SphereSpec Spec.GridSpec Spec.QuadSpec Spec.SphericalSpec Spec.CBackendSpec
  Proofs.GridProofs Proofs.GaussProofs Proofs.NewtonConv Proofs.QuadProofs Proofs.QuadJaxProofs Proofs.CBackendSsht.
Open Scope string_scope.
Open Scope Z_scope.

(** Abel summation: 2 sin(theta) sum_{k < n} sin((2k+1) theta)/(2k+1) >= (1 - cos(2 n theta)) / (2n - 1) *)
Lemma dh_abel x n : 1 <= n ->
  (2 * sin x * rsum (zrange 0 n) (fun k => sin (IZR (2 * k + 1) * x) / IZR (2 * k + 1)) >= (1 - cos (IZR (2 * n) * x)) / IZR (2 * n - 1))%R.
Proof.
  intros Hn. replace n with (Z.of_nat (S (Z.to_nat (n - 1)))) by lia. generalize (Z.to_nat (n - 1)). clear. intros n.
  assert (P : forall k, (2 * sin x * sin (IZR (2 * k + 1) * x) = cos (IZR (2 * k) * x) - cos (IZR (2 * (k + 1)) * x))%R).
  { intros k. replace (IZR (2 * k) * x)%R with (IZR (2 * k + 1) * x - x)%R by (rewrite plus_IZR; ring).
    replace (IZR (2 * (k + 1)) * x)%R with (IZR (2 * k + 1) * x + x)%R by (replace (2 * (k + 1)) with (2 * k + 1 + 1) by lia; rewrite (plus_IZR (2 * k + 1)); ring).
    rewrite cos_minus, cos_plus. ring. }
  induction n as [|n IH].
  - change (Z.of_nat 1) with (0 + 1). rewrite rr_one. change (2 * (0 + 1) - 1) with 1. change (2 * 0 + 1) with 1. rewrite Rdiv_1, Rdiv_1.
    specialize (P 0). change (2 * 0 + 1) with 1 in P. rewrite P. change (2 * 0) with 0. rewrite Rmult_0_l, cos_0. lra.
  - set (N := Z.of_nat (S n)) in *. assert (HN : 1 <= N) by lia. replace (Z.of_nat (S (S n))) with (N + 1) by lia. clearbody N. clear n.
    rewrite rr_snoc by lia. rewrite Rmult_plus_distr_l. replace (2 * sin x * (sin (IZR (2 * N + 1) * x) / IZR (2 * N + 1)))%R with
      ((cos (IZR (2 * N) * x) - cos (IZR (2 * (N + 1)) * x)) / IZR (2 * N + 1))%R by (rewrite <- P; unfold Rdiv; ring).
    replace (2 * (N + 1) - 1) with (2 * N + 1) by lia. set (c := cos (IZR (2 * N) * x)) in *. set (d := cos (IZR (2 * (N + 1)) * x)).
    assert (C1 : (c <= 1)%R) by apply COS_bound.
    assert (A : (0 < / IZR (2 * N + 1))%R) by (apply Rinv_0_lt_compat, IZR_lt; lia).
    assert (B : (/ IZR (2 * N + 1) <= / IZR (2 * N - 1))%R) by (apply Rinv_le_contravar; [apply IZR_lt; lia|apply IZR_le; lia]).
    unfold Rdiv in *. revert IH A B. generalize (/ IZR (2 * N + 1))%R (/ IZR (2 * N - 1))%R. intros u v IH A B.
    assert ((1 - c) * u <= (1 - c) * v)%R by (apply Rmult_le_compat_l; lra). lra.
Qed.
Lemma dh_angle L t : 1 <= L -> 0 <= t < 2 * L -> (0 < dh_theta L t < PI)%R.
Proof.
  intros HL Ht. unfold dh_theta. pose proof PI_RGT_0. assert (A : (0 < IZR (2 * t + 1))%R) by (apply IZR_lt; lia). assert (B : (IZR (2 * t + 1) < IZR (4 * L))%R) by (apply IZR_lt; lia).
  split.
  - apply Rdiv_lt_0_compat; [apply Rmult_lt_0_compat; lra|lra].
  - apply (Rmult_lt_reg_r (IZR (4 * L))); [lra|]. unfold Rdiv. rewrite Rmult_assoc, Rinv_l, Rmult_1_r by lra. rewrite Rmult_comm. apply Rmult_lt_compat_l; lra.
Qed.
Lemma dh_positive L t g : 1 <= L -> 0 <= t < 2 * L -> (0 < library_weight g DH L t)%R.
Proof.
  intros HL Ht. pose proof PI_RGT_0. unfold library_weight. apply Rmult_lt_0_compat.
  { apply Rdiv_lt_0_compat; [lra|apply IZR_lt; lia]. }
  pose proof (dh_abel (dh_theta L t) L HL) as A. assert (N : (0 < IZR L)%R) by (apply IZR_lt; lia).
  replace (cos (IZR (2 * L) * dh_theta L t)) with 0%R in A.
  - assert (0 < (1 - 0) / IZR (2 * L - 1))%R by (apply Rdiv_lt_0_compat; [lra|apply IZR_lt; lia]).
    set (S := rsum _ _) in *. replace (2 / IZR L * sin (dh_theta L t) * S)%R with (/ IZR L * (2 * sin (dh_theta L t) * S))%R by (field; lra).
    apply Rmult_lt_0_compat; [now apply Rinv_0_lt_compat|lra].
  - symmetry. unfold dh_theta. replace (IZR (2 * L) * (IZR (2 * t + 1) * PI / IZR (4 * L)))%R with (IZR t * PI + PI / 2)%R.
    + rewrite cos_plus, cos_PI2, sin_kPI. ring.
    + rewrite plus_IZR, !mult_IZR. field. lra.
Qed.
Lemma dh_code gl turns L : 1 <= L -> exists q, quad_weights_transform_jax gl turns L (lower (method_name DH)) None = Ok q /\ vlen q = rings DH L 0 /\
  forall t g, 0 <= t < rings DH L 0 -> vat q t = library_weight g DH L t /\ (0 < vat q t)%R.
Proof.
  intros HL. rewrite (transform_same gl turns L (lower (method_name DH)) None 0) by (intros E; discriminate E).
  change (quad_weights_transform gl L (lower (method_name DH)) 0 None) with (quad_weights_dh gl L). unfold quad_weights_dh.
  destruct (thetas_ok gl "dh" DH L 1) as (v & Ev & Lv & Gv); try (reflexivity || discriminate || auto).
  assert (E' : thetas gl (Some L) "dh" None = Ok v) by (rewrite <- Ev; reflexivity). rewrite E'. cbn [bind].
  eexists. split; [reflexivity|]. split; [exact Lv|]. intros t g Ht. cbn [vmap vat].
  assert (E : vat v t = dh_theta L t) by (exact (Gv t Ht)). rewrite E.
  assert (X : (quad_weight_dh_theta_only (dh_theta L t) L * 2 * PI / IZR (2 * L - 1))%R = library_weight g DH L t)
    by (unfold library_weight, quad_weight_dh_theta_only, Rdiv; ring).
  split; [exact X|]. rewrite X. now apply dh_positive.
Qed.
Lemma gl_code gl turns L : 1 <= L <= 1000000 -> (50 <= turns)%nat -> gauss_legendre L (gl_nodes gl L) (gl_weights gl L) ->
  exists q, quad_weights_transform_jax gl turns L (lower (method_name GL)) None = Ok q /\ vlen q = rings GL L 0 /\
  forall t, 0 <= t < rings GL L 0 -> (0 < vat q t)%R /\ (Rabs (library_weight (vat (gl_weights gl L)) GL L t / vat q t - 1) <= 2 * (IZR (2 * L + 1) ^ 2 / 10 ^ 14))%R.
Proof.
  intros HL Ht G. destruct (newton_accurate L _ _ turns G ltac:(lia) Ht) as (q & Eq & Lq & Bq). exists q. split; [exact Eq|]. split; [exact Lq|].
  intros t Hr. cbn [rings] in Hr. specialize (Bq t Hr). unfold library_weight. 
  assert (W : (0 < vat (gl_weights gl L) t)%R).
  { destruct (gauss_fixed L _ _ (L - 1 - t) G ltac:(lia)) as (pp & Es & Ew). replace (L - 1 - (L - 1 - t)) with t in Ew by lia. rewrite Ew.
    destruct G as (_ & _ & Hb & _). specialize (Hb (L - 1 - t) ltac:(lia)). set (x := vat (gl_nodes gl L) (L - 1 - t)) in *.
    assert (N : pp <> 0%R).
    { unfold newton_step in Es. destruct (Req_EM_T (x * x - 1) 0); [discriminate|]. destruct (Req_EM_T (newton_pp L x) 0) as [|N]; [discriminate|].
      injection Es as _ <-. exact N. }
    apply Rdiv_lt_0_compat; [lra|]. apply Rmult_lt_0_compat; [nra|]. pose proof (pow2_gt_0 pp N). lra. }
  pose proof PI_RGT_0. assert (P : (0 < 2 * PI / IZR (2 * L - 1))%R) by (apply Rdiv_lt_0_compat; [lra|apply IZR_lt; lia]).
  set (u := (2 * PI / IZR (2 * L - 1))%R) in *. set (e := (IZR (2 * L + 1) ^ 2 / 10 ^ 14)%R) in *.
  assert (E0 : (0 <= e <= / 2)%R).
  { unfold e. split.
    - apply Rmult_le_pos; [apply pow2_ge_0|]. apply Rlt_le, Rinv_0_lt_compat. apply pow_lt. lra.
    - assert (B1 : (IZR (2 * L + 1) <= 2000001)%R) by (apply IZR_le; lia). assert (B0 : (0 <= IZR (2 * L + 1))%R) by (apply IZR_le; lia).
      assert (B2 : (IZR (2 * L + 1) ^ 2 <= 2000001 ^ 2)%R) by (apply pow_incr; lra).
      apply (Rmult_le_reg_r (10 ^ 14)); [apply pow_lt; lra|]. unfold Rdiv. rewrite Rmult_assoc, Rinv_l, Rmult_1_r by (apply pow_nonzero; lra). lra. }
  clearbody e. set (x := (u * vat (gl_weights gl L) t)%R) in *. assert (X : (0 < x)%R) by (unfold x; now apply Rmult_lt_0_compat).
  replace (vat (gl_weights gl L) t * u)%R with x in Bq by (unfold x; ring). clearbody x. apply Rabs_le_between in Bq.
  assert (Qp : (x / 2 <= vat q t)%R) by nra. split; [lra|].
  replace (x / vat q t - 1)%R with ((x - vat q t) / vat q t)%R by (field; lra). unfold Rdiv. rewrite Rabs_mult, (Rabs_pos_eq (/ vat q t)) by (apply Rlt_le, Rinv_0_lt_compat; lra).
  apply (Rmult_le_reg_r (vat q t)); [lra|]. rewrite Rmult_assoc, Rinv_l, Rmult_1_r by lra. apply Rabs_le_between. nra.
Qed.
