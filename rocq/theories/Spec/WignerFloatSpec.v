(** What is assumed of the two-dimensional Fourier transform the precomputed Wigner transform calls,
    and the size of a signal on the rotation group. *)
From Coq Require Import Reals.
From Coquelicot Require Import Complex.
From Verif Require Import Lib.Py Lib.Vec Lib.Sums Lib.Cplx Lib.Arr.
Open Scope R_scope.

(** The transform of an n x m array without error, norm="forward". *)
Definition dft2 (a : ndarray C) (n m g p : Z) : C :=
  csum (zrange 0 n) (fun k => csum (zrange 0 m) (fun j =>
    (get a [k; j] * cis (2 * PI * IZR k * IZR g / IZR n) * cis (2 * PI * IZR j * IZR p / IZR m))%C)).
(** It is computed with an error of at most eps times the sum of the absolute values of its input. *)
Definition ifft2_accurate (F : ndarray C -> ndarray C) (n m : Z) (eps : R) : Prop :=
  forall a, shape a = [n; m] -> shape (F a) = [n; m] /\ forall g p, (0 <= g < n)%Z -> (0 <= p < m)%Z ->
    Cmod (get (F a) [g; p] - dft2 a n m g p)%C <=
    eps * rsum (zrange 0 n) (fun k => rsum (zrange 0 m) (fun j => Cmod (get a [k; j]))).
Definition exact_ifft2 (a : ndarray C) : ndarray C :=
  mkArr (shape a) (fun ix => dft2 a (nth 0 (shape a) 0%Z) (nth 1 (shape a) 0%Z) (nth 0 ix 0%Z) (nth 1 ix 0%Z)).

(** The coefficients of a signal on the rotation group, each with the largest value its function
    can take. *)
Definition so3_size (L N : Z) (c : Z -> Z -> Z -> C) : R :=
  rsum (zrange (- (N - 1)) N) (fun n => rsum (zrange (Z.abs n) L) (fun l => rsum (zrange (- l) (l + 1)) (fun m =>
    (2 * IZR l + 1) / (8 * PI ^ 2) * Cmod (c n l m)))).
