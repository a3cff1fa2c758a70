(** C46, C47, C48: the on-the-fly spherical harmonic transforms (numpy and JAX) synthesise and analyse,
    agree with the reference transforms and invert each other; reality, masks, validation, linearity and
    refinement of the same transforms (C30 - C33, C38). The transforms take their angles from
    s2fft.sampling; [th] is that function, exact or not. *)
From Coq Require Import Reals Lra Lia ZifyBool.
From Coquelicot Require Import Complex.
From Verif Require Import Lib.Py Lib.PyFacts Lib.Sums Lib.Cplx Lib.Vec Lib.VecFacts Lib.Arr Lib.MatFacts Lib.Ext Lib.ExtFacts
  Spec.CallSpec.
From Verif Require Import Model.Index Model.Samples Model.Grids Model.Quadrature Model.Refine Model.Spherical Model.Precompute Model.PriceMcEwen Model.OTF Model.OTFSpherical.
From Verif Require Import Spec.SamplesSpec Spec.WignerSpec Spec.SphereSpec Spec.GridSpec Spec.SphericalSpec Spec.QuadSpec Spec.OTFSpec Spec.OTFSphericalSpec Spec.RefineSpec Spec.HealpixFFTSpec.
From Verif Require Import Proofs.SphGrid Proofs.SphInverse Proofs.SphTop Proofs.SphForwardTop Proofs.SphFacts Proofs.SphMore Proofs.RefineProofs Proofs.OTFTop Proofs.OTFSphForward Proofs.OTFSphNear Proofs.OTFSphTop Proofs.OTFSphMore Proofs.HealpixDFTProofs.
From Verif Require Import Properties.QuadProps Properties.OTFProps Properties.SphericalProps.
From Coq Require Import List.
Import ListNotations.
Open Scope string_scope.
Open Scope Z_scope.

(** ** C46: inverse *)
(** At the given angles (the poles where the scheme has rings there) the result holds the samples of
    the signal with the given coefficients. *)
Theorem C46_synthesis : forall th flm L spin s nside o reality Lo beta method p,
  inverse_call th flm L spin s nside o reality Lo beta method p ->
  exists f, otf_inverse th flm L spin o (scheme_name s) method reality p Lo = Ok f /\
    samples_at (ring_angle s (rings s L nside) (vat beta)) s L nside f (synth L spin (used_coefficients reality spin Lo (stored L flm))).
Proof. exact inverse_call_ok. Qed.
Print Assumptions C46_synthesis.
(** With angles that approximate the colatitudes of the scheme, the result approximates the samples at the colatitudes. *)
Theorem C46_near : forall gl flm L spin s nside reality Lo eps,
  2 <= L -> 0 <= Lo <= L - 2 -> Z.abs spin < L -> spin < 8 -> (s = HEALPIX -> 1 <= nside /\ 2 * nside <= L) ->
  nodes_ok s L (gl_nodes gl L) ->
  shape flm = [L; 2 * L - 1] -> spin_zero L spin flm -> (reality = true -> spin = 0) ->
  (reality = true -> forall el, 0 <= el < L -> is_real (stored L flm el 0)) -> (0 < eps)%R ->
  exists delta, (0 < delta)%R /\ forall th o beta method p, (s = HEALPIX -> o = Some nside) ->
    th L (scheme_name s) o = Ok beta -> angles_near delta (vat (gl_nodes gl L)) s L nside beta ->
    (forall t, 0 <= t < rings s L nside -> usable_ring s (rings s L nside) L Lo spin (vat beta) t) ->
    python_method method s -> method_precomps method th L spin s o false Lo beta p ->
    exists f, otf_inverse th flm L spin o (scheme_name s) method reality p Lo = Ok f /\
      samples_near eps (vat (gl_nodes gl L)) s L nside f (synth L spin (used_coefficients reality spin Lo (stored L flm))).
Proof. intros. apply inverse_near_lemma; auto. Qed.
Print Assumptions C46_near.
(** ... and that of the reference transform, whichever its method. *)
Theorem C46_reference : forall gl flm L spin s nside reality Lo eps rmethod,
  2 <= L -> 0 <= Lo <= L - 2 -> Z.abs spin < L -> spin < 8 -> (s = HEALPIX -> 1 <= nside /\ 2 * nside <= L) ->
  rule_sizes s L (gl_nodes gl L) (gl_weights gl L) -> rings_away (vat (gl_nodes gl L)) s L nside ->
  shape flm = [L; 2 * L - 1] -> spin_zero L spin flm -> (reality = true -> spin = 0) ->
  (reality = true -> forall el, 0 <= el < L -> is_real (stored L flm el 0)) -> sum_method rmethod \/ fft_method rmethod -> (0 < eps)%R ->
  exists f0 delta, inverse_ gl flm L spin (scheme_name s) rmethod (Some nside) reality Lo = Ok f0 /\ (0 < delta)%R /\
    forall th o beta method p, (s = HEALPIX -> o = Some nside) ->
    th L (scheme_name s) o = Ok beta -> angles_near delta (vat (gl_nodes gl L)) s L nside beta ->
    (forall t, 0 <= t < rings s L nside -> usable_ring s (rings s L nside) L Lo spin (vat beta) t) ->
    python_method method s -> method_precomps method th L spin s o false Lo beta p ->
    exists f, otf_inverse th flm L spin o (scheme_name s) method reality p Lo = Ok f /\ arrays_near eps f f0.
Proof. exact reference_inverse_near. Qed.
Print Assumptions C46_reference.
(** numpy and JAX, with or without precomputed coefficients, return the same. *)
Theorem C46_agree : forall th flm L spin s nside o reality Lo beta method method' p p',
  inverse_call th flm L spin s nside o reality Lo beta method p -> inverse_call th flm L spin s nside o reality Lo beta method' p' ->
  same_ok (otf_inverse th flm L spin o (scheme_name s) method reality p Lo) (otf_inverse th flm L spin o (scheme_name s) method' reality p' Lo).
Proof. intros. now apply (inverse_same_call th flm flm L spin s nside o o reality reality Lo beta). Qed.
Print Assumptions C46_agree.
(** Angles as the theorems need them exist arbitrarily close to the colatitudes, for both directions. *)
Theorem C46_angles : forall gl s L nside Lo spin delta, 1 <= L -> (s = HEALPIX -> 1 <= nside) -> Z.abs spin < L -> (0 < delta)%R ->
  exists (th : theta_fn) beta beta', forall o,
    th L (scheme_name s) o = Ok beta /\ angles_near delta (vat (gl_nodes gl L)) s L nside beta /\
    (forall t, 0 <= t < rings s L nside -> usable_ring s (rings s L nside) L Lo spin (vat beta) t) /\
    fwd_angles th s L o = Ok beta' /\ forward_angles_near delta (vat (gl_nodes gl L)) s L nside beta' /\
    (forall t, 0 <= t < vlen beta' -> usable_ring (forward_scheme s) (vlen beta') L Lo spin (vat beta') t) /\
    forall method, method_precomps method th L spin s o false Lo beta None /\
      method_precomps method th L spin s o true Lo (inner_angles (forward_scheme s) beta') None.
Proof. exact angles_exist. Qed.
Print Assumptions C46_angles.

(** ** C47: forward *)
(** On the schemes that are not resampled the coefficients are the weighted sums of the samples at the
    given angles; the real parts count with the reality flag. *)
Theorem C47_sum : forall gl th f L spin s nside o reality Lo beta method p iter, s = DH \/ s = GL \/ s = HEALPIX ->
  forward_call gl th f L spin s nside o reality Lo beta method p iter ->
  (reality = true -> s = HEALPIX -> forall ix, in_shape (shape f) ix -> is_real (get f ix)) ->
  exists w flm, quad_weights_transform gl L (scheme_name s) 0 o = Ok w /\
    otf_forward gl th f L spin o (scheme_name s) method reality p Lo iter = Ok flm /\
    holds_coefficients L flm (fun el m => if Z.max Lo (Z.abs spin) <=? el then
      analysis_sum s L nside spin (vat w) (vat beta)
        (fun t q => let z := get f (sample_index s nside t q) in if reality then RtoC (Re z) else z) el m else RtoC 0).
Proof.
  intros gl th f L spin s nside o reality Lo beta method p iter Hs C1 HR.
  destruct (forward_call_ok gl th f L spin s nside o reality Lo beta method p iter C1) as (w & flm & Ew & E & Hf).
  { intros Q1 Q2. assert (N : nodes_ok s L (gl_nodes gl L)) by (intros Q; congruence). apply real_values_gen; [destruct C1; lia|intros Q; apply C1; auto|exact N|apply C1|].
    pose proof (HR Q1 Q2) as HR'. subst s. exact HR'. }
  exists w, flm. destruct Hs as [->|[->| ->]]; (split; [exact Ew|]); (split; [exact E|]); exact Hf.
Qed.
Print Assumptions C47_sum.
(** The coefficients of a band-limited signal are recovered, from approximate samples and angles approximately. *)
Theorem C47_recover : forall gl f L spin s nside reality Lo eps c,
  2 <= L -> 0 <= Lo <= L - 2 -> Z.abs spin < L -> spin < 8 -> s <> HEALPIX ->
  (s = GL -> gauss_legendre L (gl_nodes gl L) (gl_weights gl L)) ->
  holds_samples (vat (gl_nodes gl L)) s L nside f (synth L spin c) -> (reality = true -> hermitian L c /\ spin = 0) -> (0 < eps)%R ->
  exists delta, (0 < delta)%R /\ forall th o beta method p iter f', arrays_near delta f' f ->
    fwd_angles th s L o = Ok beta -> forward_angles_near delta (vat (gl_nodes gl L)) s L nside beta ->
    (forall t, 0 <= t < vlen beta -> usable_ring (forward_scheme s) (vlen beta) L Lo spin (vat beta) t) ->
    python_method method s -> method_precomps method th L spin s o true Lo (inner_angles (forward_scheme s) beta) p ->
    (iter = None \/ exists k, iter = Some k /\ k <= 0) ->
    exists flm, otf_forward gl th f' L spin o (scheme_name s) method reality p Lo iter = Ok flm /\
      coefficients_near eps L flm (restricted Lo spin c).
Proof. exact recover_near. Qed.
Print Assumptions C47_recover.
(** The result approximates that of the reference transform, for any map and every scheme. *)
Theorem C47_reference : forall gl f L spin s nside reality Lo eps rmethod,
  2 <= L -> 0 <= Lo <= L - 2 -> Z.abs spin < L -> spin < 8 -> (s = HEALPIX -> 1 <= nside /\ 2 * nside <= L) ->
  rule_sizes s L (gl_nodes gl L) (gl_weights gl L) -> forward_rings_away (vat (gl_nodes gl L)) s L nside ->
  shape f = map_shape s L nside -> (reality = true -> spin = 0) -> (reality = true -> real_map (vat (gl_nodes gl L)) s L nside spin f) ->
  sum_method rmethod \/ fft_method rmethod -> (0 < eps)%R ->
  exists flm0 delta, forward_ gl f L spin (scheme_name s) rmethod (Some nside) reality Lo = Ok flm0 /\ (0 < delta)%R /\
    forall th o beta method p iter, (s = HEALPIX -> o = Some nside) -> (s = HEALPIX -> method <> "numpy" -> 2 <= nside) ->
    fwd_angles th s L o = Ok beta -> forward_angles_near delta (vat (gl_nodes gl L)) s L nside beta ->
    (forall t, 0 <= t < vlen beta -> usable_ring (forward_scheme s) (vlen beta) L Lo spin (vat beta) t) ->
    python_method method s -> method_precomps method th L spin s o true Lo (inner_angles (forward_scheme s) beta) p ->
    (iter = None \/ exists k, iter = Some k /\ k <= 0) ->
    exists flm, otf_forward gl th f L spin o (scheme_name s) method reality p Lo iter = Ok flm /\ arrays_near eps flm flm0.
Proof. exact reference_forward_near. Qed.
Print Assumptions C47_reference.
(** numpy and JAX agree. *)
Theorem C47_agree : forall gl th f L spin s nside o reality Lo beta method method' p p' iter iter',
  forward_call gl th f L spin s nside o reality Lo beta method p iter -> forward_call gl th f L spin s nside o reality Lo beta method' p' iter' ->
  nodes_ok s L (gl_nodes gl L) -> (reality = true -> real_map (vat (gl_nodes gl L)) s L nside spin f) ->
  same_ok (otf_forward gl th f L spin o (scheme_name s) method reality p Lo iter) (otf_forward gl th f L spin o (scheme_name s) method' reality p' Lo iter').
Proof. intros. apply (forward_same_call gl th f L spin s nside o reality reality Lo beta); auto. intros Q. rewrite orb_diag in Q. auto. Qed.
Print Assumptions C47_agree.
(** The JAX transform rejects HEALPix maps of nside 1, which the numpy transform accepts. *)
Theorem C47_nside1_refuted : forall gl th f L spin reality p Lo ths, th L "healpix" (Some 1) = Ok ths -> spin < 8 ->
  otf_forward gl th f L spin (Some 1) "healpix" "jax" reality p Lo None = Err ValueError.
Proof.
  intros gl th f L spin reality p Lo ths E H8. unfold otf_forward. change (known_method "jax") with true. cbn [negb].
  replace (8 <=? spin) with false by lia. cbn [andb]. change (is_hp "healpix" && streq "jax" "jax_healpy") with false. cbn [backend_checks bind].
  change (backend_checks "jax" "healpix") with (Ok tt). cbn [bind]. change (0 <? 0) with false. cbn [andb].
  change (run_forward gl th "jax" f L spin (Some 1) "healpix" reality p Lo) with (forward_jax gl th f L spin (Some 1) "healpix" reality p Lo).
  unfold forward_jax, otf_prepare. change (streq (lower "healpix") "mw") with false. change (str_in (lower "healpix") ["mw"; "mwss"]) with false. cbn [bind].
  rewrite E. cbn [bind]. destruct (quad_weights_transform gl L "healpix" 0 (Some 1)) as [w|e] eqn:Ew; [|discriminate Ew]. cbn [bind].
  unfold otf_analysis. change (is_hp "healpix") with true. cbn [need bind backend_name]. now rewrite C12_jax_nside1_lemma.
Qed.
Print Assumptions C47_nside1_refuted.

(** ** C48: round trip *)
Theorem C48_round_trip : forall gl flm L spin s nside reality Lo eps,
  2 <= L -> 0 <= Lo <= L - 2 -> Z.abs spin < L -> spin < 8 -> s <> HEALPIX ->
  (s = GL -> gauss_legendre L (gl_nodes gl L) (gl_weights gl L)) ->
  shape flm = [L; 2 * L - 1] -> spin_zero L spin flm -> (reality = true -> hermitian L (stored L flm) /\ spin = 0) -> (0 < eps)%R ->
  exists delta, (0 < delta)%R /\ forall th o beta beta' minv mfwd p p' iter,
    th L (scheme_name s) o = Ok beta -> angles_near delta (vat (gl_nodes gl L)) s L nside beta ->
    (forall t, 0 <= t < rings s L nside -> usable_ring s (rings s L nside) L Lo spin (vat beta) t) ->
    fwd_angles th s L o = Ok beta' -> forward_angles_near delta (vat (gl_nodes gl L)) s L nside beta' ->
    (forall t, 0 <= t < vlen beta' -> usable_ring (forward_scheme s) (vlen beta') L Lo spin (vat beta') t) ->
    python_method minv s -> method_precomps minv th L spin s o false Lo beta p ->
    python_method mfwd s -> method_precomps mfwd th L spin s o true Lo (inner_angles (forward_scheme s) beta') p' ->
    (iter = None \/ exists k, iter = Some k /\ k <= 0) ->
    exists f flm', otf_inverse th flm L spin o (scheme_name s) minv reality p Lo = Ok f /\
      otf_forward gl th f L spin o (scheme_name s) mfwd reality p' Lo iter = Ok flm' /\
      coefficients_near eps L flm' (restricted Lo spin (stored L flm)).
Proof. exact round_trip_near. Qed.
Print Assumptions C48_round_trip.

(** ** C30, C38: linearity and refinement *)
Theorem C30_otf_inverse : forall th flm1 flm2 flm L spin s nside o reality Lo beta method p x y,
  inverse_call th flm1 L spin s nside o reality Lo beta method p -> inverse_call th flm2 L spin s nside o reality Lo beta method p ->
  inverse_call th flm L spin s nside o reality Lo beta method p -> combination x y flm1 flm2 flm -> (reality = true -> is_real x /\ is_real y) ->
  exists f1 f2 f, otf_inverse th flm1 L spin o (scheme_name s) method reality p Lo = Ok f1 /\ otf_inverse th flm2 L spin o (scheme_name s) method reality p Lo = Ok f2 /\
    otf_inverse th flm L spin o (scheme_name s) method reality p Lo = Ok f /\ combination x y f1 f2 f.
Proof. exact inverse_call_linear. Qed.
Print Assumptions C30_otf_inverse.
Theorem C30_otf_forward : forall gl th f1 f2 f L spin s nside o reality Lo beta method p iter x y,
  forward_call gl th f1 L spin s nside o reality Lo beta method p iter -> forward_call gl th f2 L spin s nside o reality Lo beta method p iter ->
  forward_call gl th f L spin s nside o reality Lo beta method p iter -> combination x y f1 f2 f -> (reality = true -> is_real x /\ is_real y) ->
  (reality = true -> s = HEALPIX -> (forall ix, in_shape (shape f) ix -> is_real (get f1 ix) /\ is_real (get f2 ix))) ->
  exists flm1 flm2 flm, otf_forward gl th f1 L spin o (scheme_name s) method reality p Lo iter = Ok flm1 /\
    otf_forward gl th f2 L spin o (scheme_name s) method reality p Lo iter = Ok flm2 /\
    otf_forward gl th f L spin o (scheme_name s) method reality p Lo iter = Ok flm /\ combination x y flm1 flm2 flm.
Proof. exact forward_call_linear. Qed.
Print Assumptions C30_otf_forward.
(** forward(inverse(flm), iter) differs from flm by (I - F B)^(iter+1) flm. *)
Theorem C38_otf_error : forall gl th flm L spin s nside o reality Lo beta beta' method p n,
  2 <= L -> 0 <= Lo <= L - 2 -> Z.abs spin < L -> spin < 8 -> (s = HEALPIX -> 1 <= nside /\ o = Some nside /\ 2 * nside <= L) ->
  (s = HEALPIX -> method <> "numpy" -> 2 <= nside) -> (s = GL -> vlen (gl_weights gl L) = L) -> (reality = true -> spin = 0) ->
  th L (scheme_name s) o = Ok beta -> vlen beta = rings s L nside ->
  (forall t, 0 <= t < rings s L nside -> usable_ring s (rings s L nside) L Lo spin (vat beta) t) ->
  fwd_angles th s L o = Ok beta' -> vlen beta' = rings (forward_scheme s) (forward_band s L) nside ->
  (forall t, 0 <= t < vlen beta' -> usable_ring (forward_scheme s) (vlen beta') L Lo spin (vat beta') t) ->
  python_method method s -> method_precomps method th L spin s o true Lo (inner_angles (forward_scheme s) beta') p ->
  otf_coefficients L spin reality flm -> 0 <= n ->
  let F := fun g => otf_forward gl th g L spin o (scheme_name s) method reality p Lo None in
  let B := fun flm => otf_inverse th flm L spin o (scheme_name s) method reality None Lo in
  exists f y e, B flm = Ok f /\ otf_forward gl th f L spin o (scheme_name s) method reality p Lo (Some n) = Ok y /\
    difference flm y e /\ defect F B (S (Z.to_nat n)) flm e.
Proof.
  intros gl th flm L spin s nside o reality Lo beta beta' method p n HL HLo Hs H8 Hn Hn2 Hw Hre Eb Lb Ub Eb' Lb' Ub' Hm HP HQ H0 F B.
  assert (LF : linear_map (otf_maps s L nside reality) (otf_coefficients L spin reality) F).
  { apply (maps_linear gl th L spin s nside o reality Lo beta' method p); assumption. }
  assert (LB : linear_map (otf_coefficients L spin reality) (otf_maps s L nside reality) B).
  { apply (coefficients_linear th L spin s nside o reality Lo beta beta' method); assumption. }
  destruct (proj1 LB flm HQ) as (f & E & _).
  destruct (refine_error _ _ _ _ F B (otf_maps_space s L nside reality) (otf_coefficients_space L spin reality) LF LB flm f HQ E n H0) as (y & e & Ey & _ & D & De).
  exists f, y, e. split; [exact E|]. split; [|auto]. rewrite otf_iter by assumption. exact Ey.
Qed.
Print Assumptions C38_otf_error.

(** ** C31: reality *)
Theorem C31_otf_inverse : forall th flm L s nside o Lo beta method method' p p',
  inverse_call th flm L 0 s nside o true Lo beta method p -> inverse_call th flm L 0 s nside o false Lo beta method' p' -> hermitian L (stored L flm) ->
  exists f f', otf_inverse th flm L 0 o (scheme_name s) method true p Lo = Ok f /\ otf_inverse th flm L 0 o (scheme_name s) method' false p' Lo = Ok f' /\
    arr_eq f f' /\ forall ix, in_shape (shape f) ix -> is_real (get f ix).
Proof. exact inverse_call_real. Qed.
Print Assumptions C31_otf_inverse.
Theorem C31_otf_forward : forall gl th f L s nside o Lo beta method method' p p' iter iter',
  forward_call gl th f L 0 s nside o true Lo beta method p iter -> forward_call gl th f L 0 s nside o false Lo beta method' p' iter' ->
  nodes_ok s L (gl_nodes gl L) -> real_map (vat (gl_nodes gl L)) s L nside 0 f ->
  exists flm flm', otf_forward gl th f L 0 o (scheme_name s) method true p Lo iter = Ok flm /\
    otf_forward gl th f L 0 o (scheme_name s) method' false p' Lo iter' = Ok flm' /\ arr_eq flm flm' /\ hermitian L (stored L flm).
Proof.
  intros gl th f L s nside o Lo beta method method' p p' iter iter' C1 C2 Hg HR.
  destruct (forward_same_call gl th f L 0 s nside o true false Lo beta method method' p p' iter iter' C1 C2 Hg) as (flm & flm' & E & E' & Q); [auto|].
  exists flm, flm'. split; [exact E|]. split; [exact E'|]. split; [exact Q|].
  apply (forward_call_herm gl th f L s nside o Lo beta method p iter flm C1); [|exact E]. intros ->. exact HR.
Qed.
Print Assumptions C31_otf_forward.

(** ** C32: masks *)
Theorem C32_otf_inverse : forall th flm flm' L spin s nside o reality Lo beta method p,
  inverse_call th flm L spin s nside o reality Lo beta method p -> inverse_call th flm' L spin s nside o reality Lo beta method p ->
  (forall el m, admissible Lo spin L el m -> stored L flm el m = stored L flm' el m) ->
  same_ok (otf_inverse th flm L spin o (scheme_name s) method reality p Lo) (otf_inverse th flm' L spin o (scheme_name s) method reality p Lo).
Proof. exact inverse_call_mask. Qed.
Print Assumptions C32_otf_inverse.
Theorem C32_otf_forward : forall gl th f L spin s nside o reality Lo beta method p iter,
  forward_call gl th f L spin s nside o reality Lo beta method p iter -> (reality = true -> s = HEALPIX -> forall ix, in_shape (shape f) ix -> is_real (get f ix)) ->
  exists flm, otf_forward gl th f L spin o (scheme_name s) method reality p Lo iter = Ok flm /\ shape flm = [L; 2 * L - 1] /\
    forall el m, 0 <= el < L -> - L < m < L -> ~ admissible Lo spin L el m -> stored L flm el m = RtoC 0.
Proof. exact forward_call_mask. Qed.
Print Assumptions C32_otf_forward.
(** The hypothesis that the degrees below |spin| hold zeros is needed: the sum over the ring at the
    south pole takes them in. *)
Theorem C32_otf_pole_refuted : exists flm flm' L spin, shape flm = [L; 2 * L - 1] /\ shape flm' = [L; 2 * L - 1] /\ Z.abs spin < L /\
  (forall el m, admissible 0 spin L el m -> stored L flm el m = stored L flm' el m) /\
  forall a, shape a = [rings MW L 0; 2 * L - 1] -> exists b b', set_poles a flm L spin "mw" 0 = Ok b /\ set_poles a flm' L spin "mw" 0 = Ok b' /\
    get b [L - 1; L - 1 + spin] <> get b' [L - 1; L - 1 + spin].
Proof.
  exists (mat 2 3 (fun _ _ => RtoC 0)), (mat 2 3 (fun el c => if el =? 0 then RtoC 1 else RtoC 0)), 2, 1.
  split; [reflexivity|]. split; [reflexivity|]. split; [lia|]. split.
  - intros el m [H1 H2]. unfold stored. cbn. assert (el = 1) by lia. subst el. reflexivity.
  - intros a Ha. unfold set_poles. change (str_in (lower "mw") ["mw"; "mwss"]) with true. change (streq (lower "mw") "mwss") with false. change (l_offset "mw") with 0.
    unfold south_pole. change (norm_index (dim1 (mat 2 3 (fun _ _ => RtoC 0))) (2 - 1 + 1)) with (Some 2).
    change (norm_index (dim1 (mat 2 3 (fun el _ : Z => if el =? 0 then RtoC 1 else RtoC 0))) (2 - 1 + 1)) with (Some 2). cbn [bind].
    match goal with |- context [negb ?b] => change (negb b) with false end. cbn iota.
    match goal with |- context [negb ?b] => change (negb b) with false end. cbn iota.
    unfold pole_set. unfold dim0, dim1. rewrite Ha. cbn [nth rings].
    change (norm_index 2 (-1)) with (Some 1). change (norm_index (2 * 2 - 1) (2 - 1 + 1 + 0)) with (Some 2). cbn [bind].
    eexists. eexists. split; [reflexivity|]. split; [reflexivity|]. change (2 - 1) with 1. change (1 + 1) with 2. cbn [get mat nth Z.eqb Pos.eqb].
    change (zrange 0 2) with [0; 1]. unfold csum, suml. cbn. intros Q. injection Q. intros. lra.
Qed.
Print Assumptions C32_otf_pole_refuted.

(** ** C33: validation *)
Theorem C33_otf_method : forall gl th flm f L spin o name method reality p Lo iter,
  ~ In method ["numpy"; "jax"; "jax_cuda"; "jax_ssht"; "jax_healpy"; "torch"] ->
  otf_inverse th flm L spin o name method reality p Lo = Err ValueError /\ otf_forward gl th f L spin o name method reality p Lo iter = Err ValueError.
Proof.
  intros gl th flm f L spin o name method reality p Lo iter H.
  assert (E : known_method method = false).
  { unfold known_method, str_in. apply not_true_iff_false. intros Q. apply existsb_exists in Q. destruct Q as (x & Hx & Ex). apply String.eqb_eq in Ex. subst x. auto. }
  unfold otf_inverse, otf_forward. now rewrite E.
Qed.
Print Assumptions C33_otf_method.
Theorem C33_otf_spin : forall gl th flm f L spin o name method reality p Lo iter,
  In method ["numpy"; "jax"; "jax_cuda"; "torch"] -> 8 <= spin ->
  otf_inverse th flm L spin o name method reality p Lo = Err WarningRaised /\ otf_forward gl th f L spin o name method reality p Lo iter = Err WarningRaised.
Proof.
  intros gl th flm f L spin o name method reality p Lo iter H Hs. unfold otf_inverse, otf_forward. replace (8 <=? spin) with true by lia.
  destruct H as [<-|[<-|[<-|[<-|[]]]]]; cbn; auto.
Qed.
Print Assumptions C33_otf_spin.
Theorem C33_otf_backend : forall gl th flm f L spin o name method reality p Lo iter,
  (method = "jax_healpy" /\ lower name <> "healpix") \/ (method = "jax_ssht" /\ ~ In (lower name) ["mw"; "mwss"; "dh"; "gl"]) ->
  otf_inverse th flm L spin o name method reality p Lo = Err ValueError /\ otf_forward gl th f L spin o name method reality p Lo iter = Err ValueError.
Proof.
  intros gl th flm f L spin o name method reality p Lo iter H.
  assert (E : backend_checks method name = Err ValueError).
  { destruct H as [[-> H]|[-> H]]; unfold backend_checks.
    - unfold is_hp, streq. apply String.eqb_neq in H. now rewrite H.
    - destruct (streq "jax_ssht" "jax_healpy" && negb (is_hp name)) eqn:B; [discriminate|]. destruct (is_hp name); [reflexivity|].
      assert (Q : str_in (lower name) ["mw"; "mwss"; "dh"; "gl"] = false).
      { unfold str_in. apply not_true_iff_false. intros Q. apply existsb_exists in Q. destruct Q as (x & Hx & Ex). apply String.eqb_eq in Ex. subst x. auto. }
      now rewrite Q. }
  unfold otf_inverse, otf_forward. rewrite E. destruct H as [[-> _]|[-> _]]; cbn; rewrite andb_false_r; auto.
Qed.
Print Assumptions C33_otf_backend.
(** Refinement with the SSHT back end, a documented combination, raises KeyError. *)
Theorem C33_ssht_iter_refuted : forall gl th f L spin o s reality p Lo n, s <> HEALPIX -> 0 < n ->
  otf_forward gl th f L spin o (scheme_name s) "jax_ssht" reality p Lo (Some n) = Err KeyError.
Proof.
  intros gl th f L spin o s reality p Lo n Hs Hn. unfold otf_forward. replace (0 <? n) with true by lia.
  destruct s; try congruence; cbn; rewrite andb_false_r; reflexivity.
Qed.
Print Assumptions C33_ssht_iter_refuted.

(** ** The hypotheses are met *)
(** A call with the exact angles of the scheme: mw, L = 3, spin 0. *)
Example C46_ex : inverse_call (exact_thetas C41_gl) C41_flm 3 0 MW 0 None false 0 C41_angles "numpy" None /\
  inverse_call (exact_thetas C41_gl) C41_flm 3 0 MW 0 None false 0 C41_angles "jax" None.
Proof.
  destruct C41_inverse_step_ex as (_ & _ & _ & _ & _ & H1 & H2 & H3 & H4 & H5 & _ & _ & H6 & _).
  unfold inverse_call. assert (E : exact_thetas C41_gl 3 (scheme_name MW) None = Ok C41_angles) by apply H4.
  split; (repeat (split; [first [lia|assumption|discriminate|exact H6]|])); [split; [now left|exact H4]|split; [right; now left|exact H5]].
Qed.
(** Calls of both directions with spin 2, for a mwss and a HEALPix map. *)
Definition C46_flm : ndarray C := mat 5 9 (fun el c => if (2 <=? el) && (Z.abs (c - 4) <=? el) then (IZR (el + 1), IZR c) else RtoC 0).
Example C46_calls_ex : forall s method, (s = MWSS /\ (method = "numpy" \/ method = "jax")) \/ (s = HEALPIX /\ method = "torch") ->
  exists th beta beta' f, inverse_call th C46_flm 5 2 s 2 (Some 2) false 1 beta method None /\
    forward_call C41_gl th f 5 2 s 2 (Some 2) false 1 beta' method None None /\ get f (sample_index s 2 0 0) = Ci.
Proof.
  intros s method H. destruct (C46_angles C41_gl s 5 2 1 2 1) as (th & b & b' & HH); [lia|lia|lia|lra|].
  destruct (HH (Some 2)) as (E & A & U & E' & A' & U' & P). destruct (P method) as [P1 P2].
  exists th, b, b', (mkArr (map_shape s 5 2) (fun _ => Ci)).
  assert (Z2 : spin_zero 5 2 C46_flm). { intros el m H1 H2 H3. cbn. destruct (Z.leb_spec 2 el); [lia|reflexivity]. }
  assert (M : python_method method s) by (unfold python_method; tauto).
  unfold inverse_call, forward_call. split; [|split; [|reflexivity]].
  - repeat (split; [first [lia|assumption|discriminate|reflexivity|apply A|intros _; repeat split; lia]|]). exact P1.
  - repeat (split; [first [lia|assumption|discriminate|reflexivity|apply A'|intros _; repeat split; lia|intros Q; destruct H as [[-> _]|[-> _]]; discriminate Q]|]). now left.
Qed.
(** Data for the theorems on approximations: the node rule of Gauss-Legendre for L = 2, a symmetric array, a map of nside 2. *)
Example C48_ex : gauss_legendre 2 (gl_nodes gl2 2) (gl_weights gl2 2) /\ nodes_ok GL 2 (gl_nodes gl2 2) /\
  hermitian 2 (stored 2 real2) /\ spin_zero 2 0 real2 /\ otf_coefficients 2 0 true real2 /\
  otf_coefficients 5 2 false C46_flm /\ real_map (fun _ => 0%R) HEALPIX 4 2 0 (mkArr [48] (fun ix => RtoC (IZR (nth 0 ix 0)))).
Proof.
  assert (G : gauss_legendre 2 (gl_nodes gl2 2) (gl_weights gl2 2)) by apply C26_ex.
  split; [exact G|]. split; [intros _ i Hi; destruct G as (_ & _ & B & _); specialize (B i Hi); lra|].
  split; [exact real2_hermitian|]. split; [intros el m H1; lia|].
  split; [split; [reflexivity|]; split; [intros el m H1; lia|intros _; exact real2_hermitian]|].
  split; [split; [reflexivity|]; split; [|discriminate]|].
  - intros el m H1 H2 H3. cbn. destruct (Z.leb_spec 2 el); [lia|reflexivity].
  - intros ix _. reflexivity.
Qed.
