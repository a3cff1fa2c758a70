(** C19: quadrature weights. *)
From Coq Require Import Reals Lra Lia ZifyBool.
From Coquelicot Require Import Coquelicot.
From Verif Require Import Lib.Py Lib.PyFacts Lib.Vec Lib.VecFacts Lib.Sums Lib.Cplx Lib.Arr
  Model.Samples Model.Grids Model.Quadrature Spec.SamplesSpec Spec.SphereSpec Spec.GridSpec
  Spec.QuadSpec Proofs.SamplesProofs Proofs.QuadProofs.
Open Scope string_scope.
Open Scope Z_scope.

(** mw and mwss weights for spin s integrate exactly every function of the parity of s that is a
    trigonometric polynomial of degree < L. *)
Theorem C19_mw : forall gl name L spin nside, denotes name MW -> 1 <= L ->
  exists w, quad_weights gl L name spin nside = Ok w /\ vlen w = L /\
    forall a, let g := if Z.even spin then cos_poly L a else sin_poly L a in
      ring_rule L (2 * L - 1) w (mw_theta L) g = sphere_integral g.
Proof.
  intros gl name L spin nside Hd HL. destruct (mw_weights_ok L spin HL) as (q & E & El & _).
  unfold quad_weights, quad_weights_mw, denotes in *. rewrite Hd. change (streq "mw" "mw") with true. cbv iota. rewrite E. cbn [bind].
  eexists. split; [reflexivity|]. split; [exact El|]. intros a. assert (N : IZR (2 * L - 1) <> 0%R) by (apply (IZR_neq _ 0); lia).
  destruct (Z.even spin) eqn:Es; cbv zeta; [apply cos_exact|apply sin_exact]; intros k Hk;
    [rewrite <- (mw_cos_rule L spin q k) by (auto; lia)|rewrite <- (mw_sin_rule L spin q k) by (auto; lia)];
    rewrite <- rs_scal_l; apply rr_ext; intros t _; cbn [vmap vat]; field; auto.
Qed.
Print Assumptions C19_mw.
Theorem C19_mwss : forall gl name L spin nside, denotes name MWSS -> 1 <= L ->
  exists w, quad_weights gl L name spin nside = Ok w /\ vlen w = L + 1 /\
    forall a, let g := if Z.even spin then cos_poly L a else sin_poly L a in
      ring_rule (L + 1) (2 * L) w (mwss_theta L) g = sphere_integral g.
Proof.
  intros gl name L spin nside Hd HL. destruct (mwss_weights_ok L spin HL) as (q & E & El & _).
  unfold quad_weights, quad_weights_mwss, denotes in *. rewrite Hd. change (streq "mwss" "mw") with false. change (streq "mwss" "mwss") with true. cbv iota.
  rewrite E. cbn [bind].
  eexists. split; [reflexivity|]. split; [exact El|]. intros a. assert (N : IZR (2 * L) <> 0%R) by (apply (IZR_neq _ 0); lia).
  destruct (Z.even spin) eqn:Es; cbv zeta; [apply cos_exact|apply sin_exact]; intros k Hk;
    [rewrite <- (mwss_cos L spin q k) by (auto; lia)|rewrite <- (mwss_sin L spin q k) by (auto; lia)];
    rewrite <- rs_scal_l; apply rr_ext; intros t _; cbn [vmap vat]; field; auto.
Qed.
Print Assumptions C19_mwss.
Example C19_mw_ex : denotes "MW" MW /\ denotes "mwSS" MWSS /\ 1 <= 5. Proof. repeat split; lia. Qed.

(** The weights of the forward transforms: rings of the 2L-fold mwss grid, degree < 2L. *)
Theorem C19_transform_mwss : forall gl name L spin nside, denotes name MWSS -> 1 <= L ->
  exists w, quad_weights_transform gl L name spin nside = Ok w /\ vlen w = 2 * L + 1 /\
    forall a, ring_rule (2 * L + 1) (2 * L) w (mwss_theta (2 * L)) (cos_poly (2 * L) a) = sphere_integral (cos_poly (2 * L) a).
Proof.
  intros gl name L spin nside Hd HL. destruct (transform_mwss_ok gl L spin nside HL) as (w & E & El & Hw).
  exists w. split; [|split; [exact El|]].
  - unfold quad_weights_transform, denotes in *. rewrite Hd. exact E.
  - intros a. apply cos_exact. intros k Hk. apply Hw. lia.
Qed.
Print Assumptions C19_transform_mwss.
Example C19_transform_mwss_ex : denotes "mwss" MWSS /\ 1 <= 5. Proof. repeat split; lia. Qed.

Theorem C19_dh : forall gl name L spin nside, denotes name DH -> 1 <= L ->
  exists w, quad_weights_transform gl L name spin nside = Ok w /\ quad_weights gl L name spin nside = Ok w /\ vlen w = 2 * L /\
    forall a, ring_rule (2 * L) (2 * L - 1) w (dh_theta L) (cos_poly (2 * L) a) = sphere_integral (cos_poly (2 * L) a).
Proof.
  intros gl name L spin nside Hd HL. destruct (dh_weights_ok gl L HL) as (w & E & El & Hw).
  unfold quad_weights_transform, quad_weights, denotes in *. rewrite Hd.
  exists w. split; [exact E|]. split; [exact E|]. split; [exact El|]. intros a. apply cos_exact. intros k Hk. apply Hw. lia.
Qed.
Print Assumptions C19_dh.
Example C19_dh_ex : denotes "dh" DH /\ 1 <= 5. Proof. repeat split; lia. Qed.

(** Gauss-Legendre, for exact Gauss-Legendre nodes and weights. *)
Theorem C19_gl : forall gl name L spin nside, denotes name GL -> 1 <= L -> gauss_legendre L (gl_nodes gl L) (gl_weights gl L) ->
  exists w v, quad_weights_transform gl L name spin nside = Ok w /\ quad_weights gl L name spin nside = Ok w /\ vlen w = L /\
    thetas gl (Some L) name nside = Ok v /\ vlen v = L /\
    forall a, ring_rule L (2 * L - 1) w (vat v) (cos_poly (2 * L) a) = sphere_integral (cos_poly (2 * L) a).
Proof.
  intros gl name L spin nside Hd HL HG. destruct (gl_weights_ok gl L HL) as (w & E & El & Hw).
  destruct (gl_exact_thetas gl name L nside Hd HG) as (v & Ev & Lv & _ & Hv).
  destruct HG as (_ & Lw & _). exists w, v.
  unfold quad_weights_transform, quad_weights. unfold denotes in Hd. rewrite Hd.
  split; [exact E|]. split; [exact E|]. split; [congruence|]. split; [exact Ev|]. split; [exact Lv|].
  intros a. apply cos_exact. intros k Hk. apply (Hw L (vat v) Hv). lia.
Qed.
Print Assumptions C19_gl.
(** Two nodes -1/sqrt 3, 1/sqrt 3 with unit weights. *)
Definition gl2 : gl_rule := mkGL (fun _ => mkVec 2 (fun i => if i =? 0 then (- / sqrt 3)%R else (/ sqrt 3)%R)) (fun _ => vconst 2 1%R).
Lemma gl2_exact : gauss_legendre 2 (gl_nodes gl2 2) (gl_weights gl2 2).
Proof.
  assert (S3 : (0 < sqrt 3)%R) by (apply sqrt_lt_R0; lra).
  assert (Q : (sqrt 3 * sqrt 3 = 3)%R) by (apply sqrt_sqrt; lra).
  assert (B : (0 < / sqrt 3 < 1)%R).
  { split; [now apply Rinv_0_lt_compat|]. rewrite <- Rinv_1. apply Rinv_lt_contravar; nra. }
  assert (P : forall j, is_RInt (fun y => (y ^ j)%R) (-1) 1 (1 ^ S j / INR (S j) - (-1) ^ S j / INR (S j))%R).
  { intros j. assert (N : INR (S j) <> 0%R) by (apply not_0_INR; lia).
    apply (RInt_deriv (fun y => (y ^ S j / INR (S j))%R)).
    - intros x. auto_derive; trivial. replace (Init.Nat.pred (S j)) with j by reflexivity. field. auto.
    - intros x. apply (ex_derive_continuous (V := R_NormedModule)). auto_derive. trivial. }
  assert (I : (/ sqrt 3 * / sqrt 3 = / 3)%R) by (rewrite <- Rinv_mult; f_equal; auto).
  split; [reflexivity|]. split; [reflexivity|]. cbn [gl_nodes gl_weights gl2 vconst vat]. split.
  { intros i _. destruct (i =? 0); lra. }
  split. { intros i j Hi Hj. assert (i = 0) as -> by lia. assert (j = 1) as -> by lia. cbn. lra. }
  intros j Hj. rewrite (is_RInt_unique _ _ _ _ (P j)).
  change (zrange 0 2) with [0; 1]. cbn [rsum suml map fold_right Z.eqb Z.sub Z.add Z.opp Z.pos_sub Pos.pred_double].
  match goal with |- ?a = ?b => change (@eq R a b) end. set (y := (/ sqrt 3)%R) in *.
  do 4 (destruct j as [|j]; [cbn; try nra; lra|]). lia.
Qed.
Example C19_gl_ex : denotes "GL" GL /\ 1 <= 2 /\ gauss_legendre 2 (gl_nodes gl2 2) (gl_weights gl2 2).
Proof. split; [reflexivity|]. split; [lia|]. exact gl2_exact. Qed.

(** The total weight is the area of the sphere. *)
Theorem C19_total_weight : forall gl name s L nside, denotes name s -> s <> HEALPIX -> 1 <= L ->
  (s = GL -> gauss_legendre L (gl_nodes gl L) (gl_weights gl L)) ->
  exists w, quad_weights gl L name 0 nside = Ok w /\
    rsum (zrange 0 (rings s L 0)) (fun t => (IZR (per_ring s L) * vat w t)%R) = (4 * PI)%R.
Proof.
  assert (I1 : sphere_integral (cos_poly 1 (fun _ => 1%R)) = (4 * PI)%R).
  { unfold sphere_integral, cos_poly. rewrite (RInt_poly cos).
    - rewrite rr_one. rewrite (is_RInt_unique _ _ _ _ (mw_cos 0)). cbn. field.
    - intros. apply (continuous_mult (K := R_AbsRing)); [apply cont_cos|apply continuous_sin]. }
  assert (I2 : forall K x, 1 <= K -> cos_poly K (fun k => if k =? 0 then 1%R else 0%R) x = cos_poly 1 (fun _ => 1%R) x).
  { intros K x HK. unfold cos_poly. rewrite (rr_shrink 0 K 0 (0 + 1)); try lia.
    - apply rr_ext. intros k Hk. assert (k = 0) as -> by lia. reflexivity.
    - intros k Hk Hk'. destruct (Z.eqb_spec k 0); [lia|ring]. }
  assert (I3 : forall n m w th K, 1 <= K -> (forall a, ring_rule n m w th (cos_poly K a) = sphere_integral (cos_poly K a)) ->
    rsum (zrange 0 n) (fun t => (IZR m * vat w t)%R) = (4 * PI)%R).
  { intros n m w th K HK H. specialize (H (fun k => if k =? 0 then 1%R else 0%R)).
    rewrite <- I1. transitivity (sphere_integral (cos_poly K (fun k => if k =? 0 then 1%R else 0%R))).
    - rewrite <- H. apply rr_ext. intros t _. rewrite I2 by auto. unfold cos_poly. rewrite rr_one.
      change (IZR 0) with 0%R. rewrite Rmult_0_l, cos_0. ring.
    - unfold sphere_integral. f_equal. apply WignerCalc.RInt_extR. intros. now rewrite I2. }
  intros gl name s L nside Hd Hs HL HG. destruct s; try congruence; cbn [rings per_ring].
  - destruct (C19_mw gl name L 0 nside Hd HL) as (w & E & _ & H). exists w. split; [exact E|]. exact (I3 _ _ _ _ L HL H).
  - destruct (C19_mwss gl name L 0 nside Hd HL) as (w & E & _ & H). exists w. split; [exact E|]. exact (I3 _ _ _ _ L HL H).
  - destruct (C19_dh gl name L 0 nside Hd HL) as (w & _ & E & _ & H). exists w. split; [exact E|]. apply (I3 _ _ _ _ (2 * L) ltac:(lia) H).
  - destruct (C19_gl gl name L 0 nside Hd HL (HG eq_refl)) as (w & v & _ & E & _ & _ & _ & H).
    exists w. split; [exact E|]. apply (I3 _ _ _ _ (2 * L) ltac:(lia) H).
Qed.
Print Assumptions C19_total_weight.
Example C19_total_weight_ex : denotes "gl" GL /\ GL <> HEALPIX /\ 1 <= 2 /\
  gauss_legendre 2 (gl_nodes gl2 2) (gl_weights gl2 2).
Proof. split; [reflexivity|]. split; [discriminate|]. split; [lia|]. exact gl2_exact. Qed.

Theorem C19_total_weight_healpix : forall gl name L spin nside, denotes name HEALPIX -> 1 <= nside ->
  exists w, quad_weights gl L name spin (Some nside) = Ok w /\ quad_weights_transform gl L name spin (Some nside) = Ok w /\
    vlen w = 4 * nside - 1 /\
    rsum (zrange 0 (4 * nside - 1)) (fun t => (IZR (ring_length nside t) * vat w t)%R) = (4 * PI)%R.
Proof.
  intros gl name L spin nside Hd Hn. unfold quad_weights, quad_weights_transform, denotes in *. rewrite Hd.
  eexists. split; [reflexivity|]. split; [reflexivity|]. split; [reflexivity|]. cbn [vconst vat].
  rewrite rs_scal_r. 
  assert (E : rsum (zrange 0 (4 * nside - 1)) (fun t => IZR (ring_length nside t)) = IZR (12 * nside ^ 2)).
  { rewrite Z.pow_2_r, <- (ring_start_total nside Hn). unfold ring_start. generalize (zrange 0 (4 * nside - 1)).
    induction l as [|x l IH]; [reflexivity|].
    cbn [map fold_right]. rewrite plus_IZR, <- IH. reflexivity. }
  rewrite E. field. apply (IZR_neq _ 0). nia.
Qed.
Print Assumptions C19_total_weight_healpix.
Example C19_total_weight_healpix_ex : denotes "healpix" HEALPIX /\ 1 <= 8. Proof. repeat split; lia. Qed.

(** Names that the transform weights do not support are rejected: mw has no such weights. *)
Theorem C19_transform_rejects : forall gl name L spin nside,
  ~ denotes name MWSS -> ~ denotes name DH -> ~ denotes name GL -> ~ denotes name HEALPIX ->
  quad_weights_transform gl L name spin nside = Err ValueError.
Proof.
  intros gl name L spin nside H1 H2 H3 H4. unfold quad_weights_transform, streq, denotes in *. cbn [scheme_name] in *.
  repeat match goal with |- context [String.eqb ?x ?y] => destruct (String.eqb_spec x y); [contradiction|] end. reflexivity.
Qed.
Print Assumptions C19_transform_rejects.
Example C19_transform_rejects_ex : ~ denotes "mw" MWSS /\ ~ denotes "mw" DH /\ ~ denotes "mw" GL /\ ~ denotes "mw" HEALPIX.
Proof. repeat split; discriminate. Qed.
