(** The calls the theorems on the on-the-fly transforms speak about. *)
From Coq Require Import Reals.
From Coquelicot Require Import Complex.
From Verif Require Import Lib.Py Lib.Vec Lib.Cplx Lib.Arr Lib.Ext
  Model.Samples Model.Grids Model.PriceMcEwen Model.OTF Model.OTFSpherical Model.OTFWigner
  Spec.SamplesSpec Spec.SphereSpec Spec.HealpixFFTSpec Spec.SphericalSpec Spec.SO3Spec Spec.OTFSpec Spec.OTFSphericalSpec Spec.OTFWignerSpec.
From Coq Require Import List.
Import ListNotations.
Open Scope string_scope.
Open Scope Z_scope.

(** The recursion coefficients handed to the numpy functions are None or were generated for the same call, whose angles are beta. *)
Definition numpy_precomps (th : theta_fn) (L spin : Z) (name : string) (o : option Z) (forward : bool) (Lo : Z) (beta : vec R)
    (p : option pm_pre) : Prop :=
  pm_thetas th L name o forward = Ok beta /\
  (p = None \/ exists q, p = Some q /\
    (generate_precomputes th L spin name o forward Lo = Ok q \/ generate_precomputes_jax th L spin name o forward Lo None = Ok q)).
(** Those of the JAX functions may also have been generated for the angles beta. *)
Definition jax_precomps (th : theta_fn) (L spin : Z) (name : string) (o : option Z) (forward : bool) (Lo : Z) (beta : vec R)
    (p : option pm_pre) : Prop :=
  p = None \/ (exists q, p = Some q /\ generate_precomputes_jax th L spin name o forward Lo (Some beta) = Ok q) \/
  numpy_precomps th L spin name o forward Lo beta p.
(** The angles without the poles of the scheme *)
Definition inner_angles (s : scheme) (beta : vec R) : vec R :=
  match s with MWSS => vslice beta 1 (-1) | MW => vslice beta 0 (-1) | _ => beta end.
(** The angles a forward transform asks for: mw and mwss maps are resampled to mwss of twice the band-limit. *)
Definition fwd_angles (th : theta_fn) (s : scheme) (L : Z) (o : option Z) : result (vec R) :=
  match s with MW | MWSS => th (2 * L) "mwss" None | _ => th L (scheme_name s) o end.
(** Coefficients as the method takes them *)
Definition method_precomps (method : string) (th : theta_fn) (L spin : Z) (s : scheme) (o : option Z) (forward : bool) (Lo : Z)
    (beta : vec R) (p : option pm_pre) : Prop :=
  if streq method "numpy" then numpy_precomps th L spin (scheme_name s) o forward Lo beta p
  else jax_precomps th L spin (scheme_name s) o forward Lo beta p.
(** Gauss-Legendre nodes are cosines. *)
Definition nodes_ok (s : scheme) (L : Z) (x : vec R) : Prop := s = GL -> forall i, 0 <= i < L -> (-1 <= vat x i <= 1)%R.
(** A call of the inverse transform: band-limit, lower degree and spin in range, an array of coefficients with zeros below the spin, rings whose angles are usable, a method written in Python, and coefficients of the recursion that belong to the call *)
Definition inverse_call (th : theta_fn) (flm : ndarray C) (L spin : Z) (s : scheme) (nside : Z) (o : option Z) (reality : bool) (Lo : Z)
    (beta : vec R) (method : string) (p : option pm_pre) : Prop :=
  2 <= L /\ 0 <= Lo <= L - 2 /\ Z.abs spin < L /\ spin < 8 /\ (s = HEALPIX -> 1 <= nside /\ o = Some nside /\ 2 * nside <= L) /\
  shape flm = [L; 2 * L - 1] /\ spin_zero L spin flm /\ (reality = true -> spin = 0) /\
  (reality = true -> forall el, 0 <= el < L -> is_real (stored L flm el 0)) /\
  th L (scheme_name s) o = Ok beta /\ vlen beta = rings s L nside /\
  (forall t, 0 <= t < rings s L nside -> usable_ring s (rings s L nside) L Lo spin (vat beta) t) /\
  python_method method s /\ method_precomps method th L spin s o false Lo beta p.
(** A call of the forward transform without refinement *)
Definition forward_call (gl : gl_rule) (th : theta_fn) (f : ndarray C) (L spin : Z) (s : scheme) (nside : Z) (o : option Z) (reality : bool) (Lo : Z)
    (beta : vec R) (method : string) (p : option pm_pre) (iter : option Z) : Prop :=
  2 <= L /\ 0 <= Lo <= L - 2 /\ Z.abs spin < L /\ spin < 8 /\ (s = HEALPIX -> 1 <= nside /\ o = Some nside /\ 2 * nside <= L) /\
  (s = HEALPIX -> method <> "numpy" -> 2 <= nside) /\
  shape f = map_shape s L nside /\ (s = GL -> vlen (gl_weights gl L) = L) /\ (reality = true -> spin = 0) /\
  fwd_angles th s L o = Ok beta /\ vlen beta = rings (forward_scheme s) (forward_band s L) nside /\
  (forall t, 0 <= t < vlen beta -> usable_ring (forward_scheme s) (vlen beta) L Lo spin (vat beta) t) /\
  python_method method s /\ method_precomps method th L spin s o true Lo (inner_angles (forward_scheme s) beta) p /\
  (iter = None \/ exists k, iter = Some k /\ k <= 0).
(** Arrays of coefficients, those of a real signal with the reality flag *)
Definition otf_coefficients (L spin : Z) (reality : bool) (flm : ndarray C) : Prop :=
  shape flm = [L; 2 * L - 1] /\ spin_zero L spin flm /\ (reality = true -> hermitian L (stored L flm)).
(** Coefficients of the recursion made by the generator of the method for the same call, or none *)
Definition wigner_precomps (method : string) (th : theta_fn) (L N : Z) (s : scheme) (o : option Z) (forward reality : bool) (Lo : Z)
    (beta : vec R) (p : option wigner_pre) : Prop :=
  pm_thetas th L (scheme_name s) o forward = Ok beta /\
  (p = None \/
   (if streq method "numpy" then exists l, p = Some (PreNumpy l) /\ generate_precomputes_wigner th L N (scheme_name s) o forward reality Lo = Ok l
    else exists w, p = Some (PreJax w) /\ generate_precomputes_wigner_jax th L N (scheme_name s) o forward reality Lo = Ok w)).
(** A call of the inverse Wigner transform *)
Definition wigner_inverse_call (th : theta_fn) (flmn : ndarray C) (L N : Z) (s : scheme) (nside : Z) (o : option Z) (reality : bool) (Lo : Z)
    (beta : vec R) (method : string) (p : option wigner_pre) : Prop :=
  2 <= L /\ 0 <= Lo <= L - 2 /\ 1 <= N <= L /\ N < 8 /\ (s = HEALPIX -> 1 <= nside /\ o = Some nside /\ 2 * nside <= L) /\
  shape flmn = [2 * N - 1; L; 2 * L - 1] /\ wigner_zero L N flmn /\
  (reality = true -> forall l, 0 <= l < L -> is_real (stored3 L N flmn 0 l 0)) /\
  (reality = true -> method <> "numpy" -> hermitian_plane L N flmn) /\
  th L (scheme_name s) o = Ok beta /\ vlen beta = rings s L nside /\ usable_rings3 s (rings s L nside) L Lo N (vat beta) /\
  python_method3 method /\ wigner_precomps method th L N s o false reality Lo beta p.
(** A call of the forward Wigner transform *)
Definition wigner_forward_call (gl : gl_rule) (th : theta_fn) (f : ndarray C) (L N : Z) (s : scheme) (nside : Z) (o : option Z) (reality : bool) (Lo : Z)
    (beta : vec R) (method : string) (p : option wigner_pre) : Prop :=
  2 <= L /\ 0 <= Lo <= L - 2 /\ 1 <= N <= L /\ N < 8 /\ (s = HEALPIX -> 1 <= nside /\ o = Some nside /\ 2 * nside <= L) /\
  (s = HEALPIX -> method <> "numpy" -> 2 <= nside) /\
  shape f = 2 * N - 1 :: map_shape s L nside /\ (s = GL -> vlen (gl_weights gl L) = L) /\
  fwd_angles th s L o = Ok beta /\ vlen beta = rings (forward_scheme s) (forward_band s L) nside /\
  usable_rings3 (forward_scheme s) (vlen beta) L Lo N (vat beta) /\
  python_method3 method /\ wigner_precomps method th L N s o true reality Lo (inner_angles (forward_scheme s) beta) p.
(** A call of the forward transform with method jax_cuda on a HEALPix map *)
Definition cuda_forward_call (th : theta_fn) (f : ndarray C) (L spin nside : Z) (reality : bool) (Lo : Z) (beta : vec R) (p : option pm_pre) : Prop :=
  2 <= L /\ 0 <= Lo <= L - 2 /\ Z.abs spin < L /\ spin < 8 /\ 1 <= nside /\ 2 * nside <= L /\
  shape f = [12 * (nside * nside)] /\ (reality = true -> spin = 0) /\
  (reality = true -> forall i, 0 <= i < 12 * (nside * nside) -> is_real (get f [i])) /\
  th L "healpix" (Some nside) = Ok beta /\ vlen beta = 4 * nside - 1 /\
  (forall t, 0 <= t < 4 * nside - 1 -> usable_ring HEALPIX (4 * nside - 1) L Lo spin (vat beta) t) /\
  jax_precomps th L spin "healpix" (Some nside) true Lo beta p.
