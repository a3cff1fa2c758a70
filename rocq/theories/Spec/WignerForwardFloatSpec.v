(** The size of samples on the rotation group. *)
From Coq Require Import Reals.
From Coquelicot Require Import Complex.
From Verif Require Import Lib.Py Lib.Vec Lib.Sums Lib.Arr.
Open Scope R_scope.

(** The absolute values on a ring: p samples, k orientations each. *)
Definition ring_abs3 (k p : Z) (f : ndarray C) (t : Z) : R :=
  rsum (zrange 0 p) (fun j => rsum (zrange 0 k) (fun g => Cmod (get f [g; t; j]))).
(** The quadrature of the absolute value with the weights V for the points of the sphere and
    2 pi / k for the orientations. *)
Definition weighted_size3 (k n p : Z) (V : Z -> R) (f : ndarray C) : R :=
  2 * PI / IZR k * rsum (zrange 0 n) (fun t => V t * ring_abs3 k p f t).
(** The mean of the absolute values of k * n * p samples. *)
Definition mean_abs3 (k n p : Z) (f : ndarray C) : R := rsum (zrange 0 n) (ring_abs3 k p f) / IZR (k * n * p).
