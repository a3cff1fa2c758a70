(** What the on-the-fly transforms return, for given colatitudes of the rings. *)
From Coq Require Import Reals.
From Coquelicot Require Import Complex.
From Verif Require Import Lib.Py Lib.Vec Lib.Arr Lib.Sums Lib.Cplx Spec.SamplesSpec Spec.WignerSpec Spec.SphereSpec Spec.SphericalSpec Spec.OTFSpec.
Open Scope string_scope.
Open Scope Z_scope.

(** f holds the values of F at the longitudes of the scheme on rings at colatitudes x. *)
Definition samples_at (x : Z -> R) (s : scheme) (L nside : Z) (f : ndarray C) (F : R -> R -> C) : Prop :=
  shape f = map_shape s L nside /\
  forall t p, 0 <= t < rings s L nside -> 0 <= p < ring_size s L nside t ->
    get f (sample_index s nside t p) = F (x t) (longitude s L nside t p).

(** f holds the samples of F on the grid of the scheme up to eps. *)
Definition samples_near (eps : R) (nodes : Z -> R) (s : scheme) (L nside : Z) (f : ndarray C) (F : R -> R -> C) : Prop :=
  shape f = map_shape s L nside /\
  forall t p x, 0 <= t < rings s L nside -> 0 <= p < ring_size s L nside t -> colatitude nodes s L nside t x ->
    (Cmod (get f (sample_index s nside t p) - F x (longitude s L nside t p))%C < eps)%R.
(** Two arrays of one shape whose entries differ by less than eps. *)
Definition arrays_near (eps : R) (a b : ndarray C) : Prop :=
  shape a = shape b /\ forall ix, in_shape (shape a) ix -> (Cmod (get a ix - get b ix)%C < eps)%R.
(** Coefficients up to eps. *)
Definition coefficients_near (eps : R) (L : Z) (flm : ndarray C) (c : Z -> Z -> C) : Prop :=
  shape flm = [L; 2 * L - 1] /\
  forall el m, 0 <= el < L -> - L < m < L -> (Cmod (stored L flm el m - c el m)%C < eps)%R.
(** One angle per ring, within delta of its colatitude. *)
Definition angles_near (delta : R) (nodes : Z -> R) (s : scheme) (L nside : Z) (beta : vec R) : Prop :=
  vlen beta = rings s L nside /\
  forall t x, 0 <= t < rings s L nside -> colatitude nodes s L nside t x -> (Rabs (vat beta t - x) < delta)%R.
(** The rings of the forward transform: mw and mwss maps are resampled to the mwss rings of band-limit 2L. *)
Definition forward_scheme (s : scheme) : scheme := match s with MW => MWSS | _ => s end.
Definition forward_band (s : scheme) (L : Z) : Z := match s with MW | MWSS => 2 * L | _ => L end.
Definition forward_angles_near (delta : R) (nodes : Z -> R) (s : scheme) (L nside : Z) (beta : vec R) : Prop :=
  angles_near delta nodes (forward_scheme s) (forward_band s L) nside beta.
(** The values of [method] that run Python code. *)
Definition python_method (method : string) (s : scheme) : Prop :=
  method = "numpy" \/ method = "jax" \/ method = "torch" \/ (method = "jax_cuda" /\ s <> HEALPIX).
(** The quadrature sum over the rings with weights w and angles x of samples v: coefficient (el, m). *)
Definition analysis_sum (s : scheme) (L nside spin : Z) (w x : Z -> R) (v : Z -> Z -> C) (el m : Z) : C :=
  csum (zrange 0 (rings s L nside)) (fun t =>
    (RtoC (w t * sgn spin * sqrt (IZR (2 * el + 1) / (4 * PI)) * wigner_d el m (- spin) (x t)) *
     csum (zrange 0 (ring_size s L nside t)) (fun p => cis (- (IZR m * longitude s L nside t p)) * v t p))%C).
