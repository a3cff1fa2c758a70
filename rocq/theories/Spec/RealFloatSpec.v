(** What is assumed of the Fourier transform of real data. *)
From Coq Require Import Reals.
From Coquelicot Require Import Complex.
From Verif Require Import Lib.Py Lib.Vec Lib.Sums Lib.Cplx Lib.Arr.
Open Scope R_scope.

(** The transform of n real numbers returns the frequencies 0, ..., n/2 with an error of at most eps times the
    sum of the absolute values of its input. *)
Definition rfft_accurate (G : vec R -> vec C) (n : Z) (eps : R) : Prop :=
  forall v, vlen v = n -> vlen (G v) = (n / 2 + 1)%Z /\ forall k, (0 <= k <= n / 2)%Z ->
    Cmod (vat (G v) k - csum (zrange 0 n) (fun p => RtoC (vat v p) * cis (- (2 * PI * IZR k * IZR p / IZR n))))%C <=
    eps * rsum (zrange 0 n) (fun p => Rabs (vat v p)).
(** The transform without error. *)
Definition exact_rfft (v : vec R) : vec C :=
  mkVec (vlen v / 2 + 1) (fun k => csum (zrange 0 (vlen v)) (fun p => RtoC (vat v p) * cis (- (2 * PI * IZR k * IZR p / IZR (vlen v)))))%C.
(** Real numbers as complex numbers. *)
Definition as_complex (f : ndarray R) : ndarray C := mkArr (shape f) (fun ix => RtoC (get f ix)).
