(** C59: the JAX quadrature weights. *)
From Coq Require Import Reals Lra Lia.
From Coquelicot Require Import Coquelicot.
From Verif Require Import Lib.Py Lib.Vec Lib.Sums Lib.Cplx Lib.Arr
  Model.Samples Model.Grids Model.Quadrature Model.QuadratureJax Model.GaussLegendre Spec.SamplesSpec Spec.SphereSpec Spec.GridSpec
  Spec.QuadSpec Proofs.GaussProofs Proofs.QuadJaxProofs Properties.QuadProps.
Open Scope string_scope.
Open Scope Z_scope.

(** C59: for every name other than gl, also the ones that are refused, the JAX weights are the numpy weights for spin 0. *)
Theorem C59_agree : forall gl turns L name nside, ~ denotes name GL ->
  quad_weights_jax gl turns L name nside = quad_weights gl L name 0 nside.
Proof. exact weights_same. Qed.
Theorem C59_transform_agree : forall gl turns L name nside spin, ~ denotes name GL ->
  quad_weights_transform_jax gl turns L name nside = quad_weights_transform gl L name spin nside.
Proof. exact transform_same. Qed.
Example C59_agree_ex : ~ denotes "MW" GL /\ ~ denotes "healpix" GL /\ ~ denotes "glx" GL. Proof. repeat split; discriminate. Qed.

(** C59: mw and mwss weights integrate the even trigonometric polynomials of degree < L exactly. *)
Theorem C59_mw : forall gl turns name L nside, denotes name MW -> 1 <= L ->
  exists w, quad_weights_jax gl turns L name nside = Ok w /\ vlen w = L /\
    forall a, ring_rule L (2 * L - 1) w (mw_theta L) (cos_poly L a) = sphere_integral (cos_poly L a).
Proof.
  intros gl turns name L nside Hd HL. rewrite weights_same by (unfold denotes in *; rewrite Hd; discriminate).
  exact (C19_mw gl name L 0 nside Hd HL).
Qed.
Theorem C59_mwss : forall gl turns name L nside, denotes name MWSS -> 1 <= L ->
  exists w, quad_weights_jax gl turns L name nside = Ok w /\ vlen w = L + 1 /\
    forall a, ring_rule (L + 1) (2 * L) w (mwss_theta L) (cos_poly L a) = sphere_integral (cos_poly L a).
Proof.
  intros gl turns name L nside Hd HL. rewrite weights_same by (unfold denotes in *; rewrite Hd; discriminate).
  exact (C19_mwss gl name L 0 nside Hd HL).
Qed.
(** the weights of the transforms: degree < 2L *)
Theorem C59_transform_mwss : forall gl turns name L nside, denotes name MWSS -> 1 <= L ->
  exists w, quad_weights_transform_jax gl turns L name nside = Ok w /\ vlen w = 2 * L + 1 /\
    forall a, ring_rule (2 * L + 1) (2 * L) w (mwss_theta (2 * L)) (cos_poly (2 * L) a) = sphere_integral (cos_poly (2 * L) a).
Proof.
  intros gl turns name L nside Hd HL. rewrite transform_same with (spin := 0) by (unfold denotes in *; rewrite Hd; discriminate).
  exact (C19_transform_mwss gl name L 0 nside Hd HL).
Qed.
Theorem C59_dh : forall gl turns name L nside, denotes name DH -> 1 <= L ->
  exists w, quad_weights_transform_jax gl turns L name nside = Ok w /\ quad_weights_jax gl turns L name nside = Ok w /\ vlen w = 2 * L /\
    forall a, ring_rule (2 * L) (2 * L - 1) w (dh_theta L) (cos_poly (2 * L) a) = sphere_integral (cos_poly (2 * L) a).
Proof.
  intros gl turns name L nside Hd HL. rewrite transform_same with (spin := 0) by (unfold denotes in *; rewrite Hd; discriminate).
  rewrite weights_same by (unfold denotes in *; rewrite Hd; discriminate). exact (C19_dh gl name L 0 nside Hd HL).
Qed.
Example C59_exact_ex : denotes "mw" MW /\ denotes "MWSS" MWSS /\ denotes "dh" DH /\ 1 <= 5. Proof. repeat split; lia. Qed.

(** C59: the gl weights come from the iteration, stopped at 1e-14: they integrate a trigonometric polynomial of degree < 2L with
    values at most B at the rings up to (2L+1)^2 1e-14 times B times the area of the sphere. *)
Theorem C59_gl : forall gl turns name L nside, denotes name GL -> 1 <= L ->
  gauss_legendre L (gl_nodes gl L) (gl_weights gl L) -> (50 <= turns)%nat ->
  exists q v, quad_weights_jax gl turns L name nside = Ok q /\ quad_weights_transform_jax gl turns L name nside = Ok q /\ vlen q = L /\
    thetas gl (Some L) name nside = Ok v /\ vlen v = L /\
    forall a B, let g := cos_poly (2 * L) a in (forall t, 0 <= t < L -> (Rabs (g (vat v t)) <= B)%R) ->
      (Rabs (ring_rule L (2 * L - 1) q (vat v) g - sphere_integral g) <= IZR (2 * L + 1) ^ 2 / 10 ^ 14 * B * (4 * PI))%R.
Proof. exact (fun gl turns name L nside => gl_close gl turns name L nside). Qed.
Example C59_gl_ex : exists gl, denotes "gl" GL /\ 1 <= 64 /\ gauss_legendre 64 (gl_nodes gl 64) (gl_weights gl 64) /\ (50 <= 50)%nat.
Proof.
  destruct (gauss_exists 64 ltac:(lia)) as (x & w & H). exists (mkGL (fun _ => x) (fun _ => w)).
  split; [reflexivity|]. split; [lia|]. split; [exact H|lia].
Qed.

Print Assumptions C59_agree.
Print Assumptions C59_transform_agree.
Print Assumptions C59_mw.
Print Assumptions C59_mwss.
Print Assumptions C59_transform_mwss.
Print Assumptions C59_dh.
Print Assumptions C59_gl.
