(** What is assumed of the library functions the precomputed transforms call, and the size of a
    signal the errors are measured by. *)
From Coq Require Import Reals Permutation.
From Coquelicot Require Import Complex.
From Verif Require Import Lib.Py Lib.Vec Lib.Sums Lib.Cplx Lib.Arr Model.FFT Model.RisboFloat Model.PrecomputeFloat Spec.SamplesSpec Spec.SphericalSpec.
Open Scope R_scope.

(** Products with zero and the sum of two zeros are zero. *)
Definition zeros_exact (A : arith) : Prop := (forall x, fmul A 0 x = 0 /\ fmul A x 0 = 0) /\ fadd A 0 0 = 0.

(** The order of summation uses each of the terms 0..n-1 once. *)
Definition sums_all (o : order) (n : Z) : Prop := Permutation (terms o) (zrange 0 n).

(** The Fourier transform of length n is computed with an error of at most eps times the sum of
    the absolute values of its input. *)
Definition ifft_accurate (F : vec C -> vec C) (n : Z) (eps : R) : Prop :=
  forall v, vlen v = n -> vlen (F v) = n /\ forall p, (0 <= p < n)%Z ->
    Cmod (vat (F v) p - csum (zrange 0 n) (fun k => vat v k * cis (2 * PI * IZR k * IZR p / IZR n)))%C <=
    eps * rsum (zrange 0 n) (fun k => Cmod (vat v k)).
(** The same for the transform of length n of a real signal with L frequencies below the highest. *)
Definition irfft_accurate (F : vec C -> Z -> vec R) (L n : Z) (eps : R) : Prop :=
  forall v, vlen v = L -> forall p, (0 <= p < n)%Z ->
    Rabs (vat (F v n) p - (Re (vat v 0) + 2 * rsum (zrange 1 L) (fun k => Re (vat v k * cis (2 * PI * IZR k * IZR p / IZR n))%C))) <=
    eps * (Cmod (vat v 0) + 2 * rsum (zrange 1 L) (fun k => Cmod (vat v k))).
(** The number of equidistant points of the circle the rings of a scheme are among. *)
Definition circle_points (s : scheme) (L : Z) : Z := (match s with MW => 2 * L - 1 | MWSS => 2 * L | _ => 4 * L end)%Z.
(** Powers of the imaginary unit with exponents up to b. *)
Definition ipow_accurate (F : Z -> C) (b : Z) (eps : R) : Prop :=
  forall k, (Z.abs k <= b)%Z -> Cmod (F k - cis (IZR k * (PI / 2)))%C <= eps.

(** Transforms and powers without error. *)
Definition exact_ffts : ffts := mkFfts ifft_fwd
  (fun v n => mkVec n (fun p => Re (vat v 0) + 2 * rsum (zrange 1 (vlen v)) (fun k => Re (vat v k * cis (2 * PI * IZR k * IZR p / IZR n))%C)))
  (fun k => cis (IZR k * (PI / 2))).

(** The coefficients of a spin-s signal, each with the largest value its harmonic can take. *)
Definition signal_size (L s : Z) (c : Z -> Z -> C) : R :=
  rsum (zrange (Z.abs s) L) (fun l => rsum (zrange (- l) (l + 1)) (fun m =>
    sqrt (IZR (2 * l + 1) / (4 * PI)) * Cmod (c l m))).
