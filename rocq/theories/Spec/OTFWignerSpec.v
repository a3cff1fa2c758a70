(** What the on-the-fly Wigner transforms return, for given colatitudes of the rings. *)
From Coq Require Import Reals.
From Coquelicot Require Import Complex.
From Verif Require Import Lib.Py Lib.Vec Lib.Arr Lib.Sums Lib.Cplx Spec.SamplesSpec Spec.WignerSpec Spec.SphereSpec Spec.SphericalSpec Spec.SO3Spec Spec.OTFSpec Spec.OTFSphericalSpec.
Open Scope string_scope.
Open Scope Z_scope.

(** f holds the values of F, the rings being at the colatitudes x. *)
Definition so3_at (x : Z -> R) (s : scheme) (L N nside : Z) (f : ndarray C) (F : R -> R -> R -> C) : Prop :=
  shape f = 2 * N - 1 :: map_shape s L nside /\
  forall g t p, 0 <= g < 2 * N - 1 -> 0 <= t < rings s L nside -> 0 <= p < ring_size s L nside t ->
    get f (g :: sample_index s nside t p) = F (longitude s L nside t p) (x t) (2 * PI * IZR g / IZR (2 * N - 1))%R.
(** f holds the samples of F up to eps. *)
Definition so3_near (eps : R) (nodes : Z -> R) (s : scheme) (L N nside : Z) (f : ndarray C) (F : R -> R -> R -> C) : Prop :=
  shape f = 2 * N - 1 :: map_shape s L nside /\
  forall g t p x, 0 <= g < 2 * N - 1 -> 0 <= t < rings s L nside -> 0 <= p < ring_size s L nside t ->
    colatitude nodes s L nside t x ->
    (Cmod (get f (g :: sample_index s nside t p) - F (longitude s L nside t p) x (2 * PI * IZR g / IZR (2 * N - 1))%R)%C < eps)%R.
(** Coefficients up to eps. *)
Definition coefficients3_near (eps : R) (L N : Z) (flmn : ndarray C) (c : Z -> Z -> Z -> C) : Prop :=
  shape flmn = [2 * N - 1; L; 2 * L - 1] /\
  forall n el m, - N < n < N -> 0 <= el < L -> - L < m < L -> (Cmod (stored3 L N flmn n el m - c n el m)%C < eps)%R.
(** Coefficients of degree below |n|, which do not exist, are zero. *)
Definition wigner_zero (L N : Z) (flmn : ndarray C) : Prop :=
  forall n el m, - N < n < N -> 0 <= el < Z.abs n -> el < L -> - L < m < L -> stored3 L N flmn n el m = RtoC 0.
(** The values of [method] that run Python code. *)
Definition python_method3 (method : string) : Prop := method = "numpy" \/ method = "jax" \/ method = "torch".
(** The plane n = 0 is that of a real signal. *)
Definition hermitian_plane (L N : Z) (flmn : ndarray C) : Prop :=
  forall el m, 0 <= el < L -> - el <= m <= el -> stored3 L N flmn 0 el (- m) = (RtoC (sgn m) * Cconj (stored3 L N flmn 0 el m))%C.
(** Every ring away from the poles is usable for every spin in use. *)
Definition usable_rings3 (s : scheme) (n L Lo N : Z) (beta : Z -> R) : Prop :=
  forall k t, - N < k < N -> 0 <= t < n -> usable_ring s n L Lo k beta t.
(** The quadrature sum of the component n of the samples v(g, t, p) in gamma: coefficient (n, el, m). *)
Definition wigner_sum (s : scheme) (L N nside : Z) (w x : Z -> R) (v : Z -> Z -> Z -> C) (n el m : Z) : C :=
  csum (zrange 0 (rings s L nside)) (fun t =>
    (RtoC (w t * wigner_d el m n (x t)) *
     csum (zrange 0 (ring_size s L nside t)) (fun p => cis (- (IZR m * longitude s L nside t p)) *
       (RtoC (2 * PI / IZR (2 * N - 1))%R *
        csum (zrange 0 (2 * N - 1)) (fun g => v g t p * cis (- (IZR n * (2 * PI * IZR g / IZR (2 * N - 1))))%R))))%C).
