(** C31: the reality flag together with a spin. The reference and the precomputed transforms drop the flag, the
    on-the-fly transforms do not. *)
From Coq Require Import Reals Lra Lia.
From Coquelicot Require Import Complex.
From Verif Require Import Lib.Py Lib.Vec Lib.Cplx Lib.Arr
  Model.Samples Model.Grids Model.Spherical Model.PriceMcEwen Model.OTF Model.OTFSpherical
  Spec.SamplesSpec Spec.SphereSpec Spec.SphericalSpec Spec.QuadSpec Spec.HealpixFFTSpec Proofs.OTFReality.
From Coq Require Import List.
Import ListNotations.
Open Scope string_scope.
Open Scope Z_scope.

(** Off HEALPix whatever the on-the-fly inverse transform returns under the flag is real, for any spin, angles,
    method and coefficients. *)
Theorem C31_otf_flag_real : forall th method flm L spin o s p Lo f, s <> HEALPIX ->
  otf_inverse th flm L spin o (scheme_name s) method true p Lo = Ok f -> forall i j, is_real (get f [i; j]).
Proof. intros. apply (otf_inverse_flag_real th method flm L spin o (scheme_name s) p Lo); [destruct s; try congruence; reflexivity|assumption]. Qed.
Print Assumptions C31_otf_flag_real.

(** So for every spin but 0, scheme off HEALPix and band-limit there are coefficients of which the reference transform
    returns the signal and the on-the-fly transform, given the same flag, does not. *)
Theorem C31_otf_spin_refuted : forall gl th L spin s o method p Lo, s <> HEALPIX -> spin <> 0 -> Z.abs spin < L -> 0 <= Lo <= Z.abs spin ->
  (s = GL -> gauss_legendre L (gl_nodes gl L) (gl_weights gl L)) -> small_grid (vat (gl_nodes gl L)) s L 0 ->
  exists flm y, shape flm = [L; 2 * L - 1] /\ inverse gl flm L spin (scheme_name s) o true Lo = Ok y /\
    holds_samples (vat (gl_nodes gl L)) s L 0 y (synth L spin (above Lo (stored L flm))) /\
    ~ same_ok (inverse gl flm L spin (scheme_name s) o true Lo) (otf_inverse th flm L spin o (scheme_name s) method true p Lo).
Proof. intros. now apply counter_inverse. Qed.
Print Assumptions C31_otf_spin_refuted.
(** The same for the forward transforms: the on-the-fly one forces the symmetry of the coefficients of real signals. *)
Theorem C31_otf_spin_forward_refuted : forall gl th L spin s o method p Lo, s <> HEALPIX -> spin <> 0 -> Z.abs spin < L -> 0 <= Lo <= Z.abs spin ->
  (s = GL -> gauss_legendre L (gl_nodes gl L) (gl_weights gl L)) -> small_grid (vat (gl_nodes gl L)) s L 0 ->
  exists f c, shape f = map_shape s L 0 /\ holds_samples (vat (gl_nodes gl L)) s L 0 f (synth L spin c) /\
    (exists flm, forward gl f L spin (scheme_name s) o true Lo = Ok flm /\ holds_coefficients L flm (restricted Lo spin c)) /\
    ~ same_ok (forward gl f L spin (scheme_name s) o true Lo) (otf_forward gl th f L spin o (scheme_name s) method true p Lo None).
Proof. intros. now apply counter_forward. Qed.
Print Assumptions C31_otf_spin_forward_refuted.
Example C31_otf_spin_ex : forall gl, MW <> HEALPIX /\ 2 <> 0 /\ Z.abs 2 < 64 /\ 0 <= 1 <= Z.abs 2 /\
  (MW = GL -> gauss_legendre 64 (gl_nodes gl 64) (gl_weights gl 64)) /\ small_grid (vat (gl_nodes gl 64)) MW 64 0.
Proof. intros gl. split; [discriminate|]. split; [lia|]. split; [lia|]. split; [lia|]. split; [discriminate|]. cbn. lia. Qed.
