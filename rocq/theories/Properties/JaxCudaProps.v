(** C67: the transforms with method "jax_cuda" on HEALPix, through the JAX primitive and the CUDA code behind
    it: synthesis, sums, agreement with numpy, refinement of maps of a real type; complex maps are overwritten. A
    state of the plan cache is [after h], the calls [h] having been made in this process. *)
From Coq Require Import Reals Lra Lia ZifyBool.
From Coquelicot Require Import Complex.
From Verif Require Import Lib.Py Lib.PyFacts Lib.Sums Lib.Cplx Lib.Vec Lib.VecFacts Lib.Arr Lib.MatFacts Lib.Ext Lib.ExtFacts
  Spec.CallSpec.
From Verif Require Import Model.Index Model.Samples Model.Grids Model.FFT Model.HealpixFFT Model.Quadrature Model.Refine Model.Spherical Model.Precompute Model.PriceMcEwen Model.OTF Model.OTFSpherical Model.Cuda Model.JaxCuda.
From Verif Require Import Spec.SamplesSpec Spec.WignerSpec Spec.SphereSpec Spec.GridSpec Spec.SphericalSpec Spec.QuadSpec Spec.OTFSpec Spec.OTFSphericalSpec Spec.RefineSpec Spec.HealpixFFTSpec Spec.CudaSpec Spec.JaxCudaSpec.
From Verif Require Import Proofs.SamplesProofs Proofs.HealpixDFTProofs Proofs.SphInverse Proofs.SphTop Proofs.RefineProofs Proofs.OTFTop Proofs.OTFSphForward Proofs.OTFSphNear Proofs.OTFSphTop Proofs.OTFSphMore Proofs.JaxCudaProofs Proofs.JaxCudaTop Proofs.JaxCudaRefine.
From Verif Require Import Properties.QuadProps Properties.OTFProps Properties.SphericalProps Properties.OTFSphericalProps.
From Coq Require Import List.
Import ListNotations.
Open Scope string_scope.
Open Scope Z_scope.

(** ** The ring transforms *)
(** Forward: whatever calls came before, whether or not an executable exists, every run returns the table of the
    numpy version, without the flag reality; a map of a complex type holds the shifted spectra afterwards. *)
Theorem C67_fft : forall h f d L nside reality compiled out0, Forall call_ok h -> 1 <= nside -> 2 * nside <= L ->
  shape f = [12 * (nside * nside)] -> vlen out0 = (4 * nside - 1) * (2 * L) ->
  exists ftm, healpix_fft_numpy (RtoC 0) fft_bwd rfft_bwd (to_vec f) L nside false = Ok ftm /\
  (exists w' f' r, device_fft f d L nside reality compiled (after h) out0 w' f' r) /\
  forall w' f' r, device_fft f d L nside reality compiled (after h) out0 w' f' r ->
    (exists h', Forall call_ok h' /\ w' = after h') /\
    (if is_complex d then shape f' = shape f /\ overwritten fft_bwd nside (to_vec f) (to_vec f') else f' = f) /\
    exists a, r = Ok a /\ arr_eq a (of_rows (2 * L) ftm).
Proof. exact (fft_cuda_ok Cplus (RtoC 0) fft_bwd ifft_fwd over_n over_sqrt_n rfft_bwd fft_bwd_ext fft_bwd_len). Qed.
Print Assumptions C67_fft.
(** Backward: the map of the numpy version; the table is unchanged. *)
Theorem C67_ifft : forall h ftm d L nside reality compiled out0, Forall call_ok h -> 1 <= nside -> 2 * nside <= L ->
  shape ftm = [4 * nside - 1; 2 * L] -> vlen out0 = 12 * (nside * nside) ->
  exists ftm1 f, healpix_ifft_numpy (RtoC 0) Cplus ifft_fwd irfft_fwd (to_rows ftm) L nside false = Ok (ftm1, f) /\
  (exists w' ftm' r, device_ifft ftm d L nside reality compiled (after h) out0 w' ftm' r) /\
  forall w' ftm' r, device_ifft ftm d L nside reality compiled (after h) out0 w' ftm' r ->
    (exists h', Forall call_ok h' /\ w' = after h') /\ arr_eq ftm' ftm /\ exists a, r = Ok a /\ arr_eq a (of_vec f).
Proof.
  intros h ftm d L nside reality compiled out0 Hh Hn HL S Ho.
  exact (ifft_cuda_ok Cplus (RtoC 0) fft_bwd ifft_fwd over_n over_sqrt_n irfft_fwd ifft_fwd_ext ifft_fwd_len h ftm _ d L nside reality compiled out0 Hh Hn HL
    (is_mat_self ftm _ _ S) Ho).
Qed.
Print Assumptions C67_ifft.

(** ** The transforms *)
(** The inverse returns the samples of the signal with the given coefficients at the angles used. *)
Theorem C67_inverse : forall th flm L spin nside reality Lo beta p h compiled out0,
  inverse_call th flm L spin HEALPIX nside (Some nside) reality Lo beta "jax" p -> Forall call_ok h -> vlen out0 = 12 * (nside * nside) ->
  (exists w' r, otf_inverse_cuda th flm L spin (Some nside) "healpix" reality p Lo compiled (after h) out0 w' r) /\
  forall w' r, otf_inverse_cuda th flm L spin (Some nside) "healpix" reality p Lo compiled (after h) out0 w' r ->
    (exists h', Forall call_ok h' /\ w' = after h') /\
    exists f, r = Ok f /\ samples_at (vat beta) HEALPIX L nside f (synth L spin (used_coefficients reality spin Lo (stored L flm))).
Proof. exact inverse_cuda_call. Qed.
Print Assumptions C67_inverse.
(** The forward transform returns the weighted sums over the samples; nside = 1 included. *)
Theorem C67_forward : forall gl th f d L spin nside reality Lo beta p h compiled out0 iter,
  cuda_forward_call th f L spin nside reality Lo beta p -> Forall call_ok h -> vlen out0 = (4 * nside - 1) * (2 * L) ->
  (iter = None \/ exists k, iter = Some k /\ k <= 0) ->
  (exists w' f' r, otf_forward_cuda gl th f d L spin (Some nside) "healpix" reality p Lo iter compiled (after h) out0 w' f' r) /\
  forall w' f' r, otf_forward_cuda gl th f d L spin (Some nside) "healpix" reality p Lo iter compiled (after h) out0 w' f' r ->
    (exists h', Forall call_ok h' /\ w' = after h') /\
    (if is_complex d then shape f' = shape f /\ overwritten fft_bwd nside (to_vec f) (to_vec f') else f' = f) /\
    exists w flm, quad_weights_transform gl L "healpix" 0 (Some nside) = Ok w /\ r = Ok flm /\
      holds_coefficients L flm (fun el m => if Z.max Lo (Z.abs spin) <=? el then
        analysis_sum HEALPIX L nside spin (vat w) (vat beta) (fun t q => get f (sample_index HEALPIX nside t q)) el m else RtoC 0).
Proof. exact forward_cuda_call. Qed.
Print Assumptions C67_forward.

(** The same results as with method "numpy". *)
Theorem C67_inverse_agree : forall th flm L spin nside reality Lo beta p p' h compiled out0,
  inverse_call th flm L spin HEALPIX nside (Some nside) reality Lo beta "jax" p ->
  inverse_call th flm L spin HEALPIX nside (Some nside) reality Lo beta "numpy" p' -> Forall call_ok h -> vlen out0 = 12 * (nside * nside) ->
  exists y, otf_inverse th flm L spin (Some nside) "healpix" "numpy" reality p' Lo = Ok y /\
  forall w' r, otf_inverse_cuda th flm L spin (Some nside) "healpix" reality p Lo compiled (after h) out0 w' r -> exists a, r = Ok a /\ arr_eq a y.
Proof.
  intros th flm L spin nside reality Lo beta p p' h compiled out0 C1 C2 Hh Ho.
  destruct (inverse_call_ok _ _ _ _ _ _ _ _ _ _ _ _ C2) as (y & E & Hy). exists y. split; [exact E|]. intros w' r R.
  destruct (proj2 (inverse_cuda_call th flm L spin nside reality Lo beta p h compiled out0 C1 Hh Ho) w' r R) as (_ & a & -> & Ha). exists a. split; [reflexivity|].
  eapply (samples_same (vat beta) HEALPIX L nside a y); [destruct C1; lia|intros Q; apply C1; exact Q|exact Ha|exact Hy|reflexivity].
Qed.
Print Assumptions C67_inverse_agree.
(** Forward, also with refinement: for maps of a real type. Without refinement also for maps of a complex type. *)
Theorem C67_forward_agree : forall gl th f d L spin nside reality Lo beta p h compiled out0 iter,
  cuda_forward_call th f L spin nside reality Lo beta p -> Forall call_ok h -> vlen out0 = (4 * nside - 1) * (2 * L) ->
  is_complex d = false \/ iter = None \/ (exists k, iter = Some k /\ k <= 0) ->
  exists y, otf_forward gl th f L spin (Some nside) "healpix" "numpy" reality None Lo iter = Ok y /\
  (exists w' f' r, otf_forward_cuda gl th f d L spin (Some nside) "healpix" reality p Lo iter compiled (after h) out0 w' f' r) /\
  forall w' f' r, otf_forward_cuda gl th f d L spin (Some nside) "healpix" reality p Lo iter compiled (after h) out0 w' f' r ->
    (exists h', Forall call_ok h' /\ w' = after h') /\ exists a, r = Ok a /\ arr_eq a y.
Proof. exact forward_cuda_agree. Qed.
Print Assumptions C67_forward_agree.

(** ** Rejected calls *)
(** A norm given explicitly is rejected, whatever its value, although the signature has the argument. *)
Theorem C67_norm_refuted : forall f d L nside reality norm compiled w (out0 : vec C) w' f' r,
  (healpix_fft_cuda Cplus (RtoC 0) fft_bwd ifft_fwd over_n over_sqrt_n f d L nside reality (Some norm) compiled w out0 w' f' r <->
     w' = w /\ f' = f /\ r = Err TypeError) /\
  (healpix_ifft_cuda Cplus (RtoC 0) fft_bwd ifft_fwd over_n over_sqrt_n f d L nside reality (Some norm) compiled w out0 w' f' r <->
     w' = w /\ f' = f /\ r = Err TypeError).
Proof. intros. split; reflexivity. Qed.
Print Assumptions C67_norm_refuted.
(** Maps and tables of a wrong shape, a band-limit below 2 nside in the backward transform, spins from 8 on. *)
Theorem C67_rejects : forall L nside,
  (forall f d reality compiled w out0 w' f' r, shape f <> [12 * (nside * nside)] ->
     device_fft f d L nside reality compiled w out0 w' f' r -> w' = w /\ r = Err AssertionError) /\
  (forall ftm d reality compiled w out0 w' ftm' r, shape ftm <> [4 * nside - 1; 2 * L] \/ L < 2 * nside ->
     device_ifft ftm d L nside reality compiled w out0 w' ftm' r -> w' = w /\ r = Err AssertionError) /\
  (forall th flm spin o sampling reality p Lo compiled w out0 w' r, 8 <= spin ->
     otf_inverse_cuda th flm L spin o sampling reality p Lo compiled w out0 w' r -> w' = w /\ r = Err WarningRaised) /\
  (forall gl th f d spin o sampling reality p Lo iter compiled w out0 w' f' r, 8 <= spin ->
     otf_forward_cuda gl th f d L spin o sampling reality p Lo iter compiled w out0 w' f' r -> w' = w /\ f' = f /\ r = Err WarningRaised).
Proof. exact cuda_rejects. Qed.
Print Assumptions C67_rejects.

(** ** Refuted *)
(** The forward transform leaves its argument alone: false for complex maps. *)
Theorem C67_pure_refuted : forall h d L nside reality compiled out0, Forall call_ok h -> 1 <= nside -> 2 * nside <= L ->
  is_complex d = true -> vlen out0 = (4 * nside - 1) * (2 * L) -> exists f, shape f = [12 * (nside * nside)] /\
  (exists w' f' r, device_fft f d L nside reality compiled (after h) out0 w' f' r) /\
  forall w' f' r, device_fft f d L nside reality compiled (after h) out0 w' f' r -> get f' [1] <> get f [1].
Proof. exact cuda_impure. Qed.
Print Assumptions C67_pure_refuted.
(** Refinement gives what method "numpy" gives: false for complex maps, where the residual is taken from the
    overwritten map. The coefficient of degree zero is wrong after one round already, whatever nside and L. *)
Theorem C67_refine_refuted : forall gl th L nside beta p d h compiled out0, 2 <= L -> 1 <= nside -> 2 * nside <= L ->
  th L "healpix" (Some nside) = Ok beta -> vlen beta = 4 * nside - 1 ->
  (forall t, 0 <= t < 4 * nside - 1 -> usable_ring HEALPIX (4 * nside - 1) L 0 0 (vat beta) t) ->
  jax_precomps th L 0 "healpix" (Some nside) true 0 beta p ->
  is_complex d = true -> Forall call_ok h -> vlen out0 = (4 * nside - 1) * (2 * L) ->
  exists f, shape f = [12 * (nside * nside)] /\
  (exists w' f' r, otf_forward_cuda gl th f d L 0 (Some nside) "healpix" false p 0 (Some 1) compiled (after h) out0 w' f' r) /\
  forall w' f' r, otf_forward_cuda gl th f d L 0 (Some nside) "healpix" false p 0 (Some 1) compiled (after h) out0 w' f' r ->
    exists a y, r = Ok a /\ otf_forward gl th f L 0 (Some nside) "healpix" "numpy" false None 0 (Some 1) = Ok y /\
      stored L a 0 0 <> stored L y 0 0.
Proof.
  intros gl th L nside beta p d h compiled out0 HL Hn HnL Eb Lb Ub HP Hd Hh Ho. exists (spike nside). split; [reflexivity|].
  now apply (refine_corrupts gl th L nside beta p).
Qed.
Print Assumptions C67_refine_refuted.
(** The primitive can be batched and differentiated: no rule is registered. *)
Theorem C67_rules_refuted : forall t, apply_transformation primitive_rules t = Err OtherError.
Proof. intros []; reflexivity. Qed.
Print Assumptions C67_rules_refuted.

(** ** The hypotheses are met *)
(** Calls of both directions with nside 1, where method "jax" fails, with a real map; of both types. *)
Example C67_ex : exists th beta, let f := mkArr [12] (fun ix => RtoC (IZR (nth 0 ix 0))) in let flm := mat 2 3 (fun el c => RtoC (IZR (el + 1))) in
  cuda_forward_call th f 2 0 1 true 0 beta None /\ cuda_forward_call th f 2 0 1 false 0 beta None /\
  inverse_call th flm 2 0 HEALPIX 1 (Some 1) true 0 beta "jax" None /\ inverse_call th flm 2 0 HEALPIX 1 (Some 1) true 0 beta "numpy" None /\
  Forall call_ok [CallBuild 1 2 true true false true; CallBuild 1 2 false false false true].
Proof.
  destruct (C46_angles C41_gl HEALPIX 2 1 0 0 1) as (th & b & b' & HH); [lia|lia|lia|lra|].
  destruct (HH (Some 1)) as (E & A & U & E' & A' & U' & Q). exists th, b. cbv zeta.
  assert (LA : vlen b = 3) by apply A. assert (N : jax_precomps th 2 0 "healpix" (Some 1) true 0 b None) by now left.
  assert (SZ : spin_zero 2 0 (mat 2 3 (fun el c => RtoC (IZR (el + 1))))) by (intros el m H1 H2 H3; lia).
  split; [|split; [|split; [|split]]].
  - unfold cuda_forward_call. repeat (split; [first [lia|assumption|discriminate|reflexivity|intros; reflexivity]|]). exact N.
  - unfold cuda_forward_call. repeat (split; [first [lia|assumption|discriminate|reflexivity|intros; reflexivity]|]). exact N.
  - unfold inverse_call. repeat (split; [first [lia|assumption|discriminate|reflexivity|intros; reflexivity|intros _; repeat split; lia|right; now left]|]). apply Q.
  - unfold inverse_call. repeat (split; [first [lia|assumption|discriminate|reflexivity|intros; reflexivity|intros _; repeat split; lia|now left]|]). first [apply Q|now left].
  - repeat constructor; cbn; lia.
Qed.
