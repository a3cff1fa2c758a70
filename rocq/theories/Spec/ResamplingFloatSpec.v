(** What is assumed of the Fourier transforms the resampling calls, and the norm the errors are
    measured by. *)
From Coq Require Import Reals.
From Coquelicot Require Import Complex.
From Verif Require Import Lib.Py Lib.Vec Lib.Sums Lib.Cplx Lib.Arr Model.FFT Model.ResamplingFloat.
Open Scope R_scope.

(** The Euclidean norm of n numbers, and of the n x m numbers of a map. *)
Definition l2 (n : Z) (x : Z -> C) : R := sqrt (rsum (zrange 0 n) (fun k => Cmod (x k) * Cmod (x k))).
Definition l2_map (n m : Z) (f : Z -> Z -> C) : R :=
  sqrt (rsum (zrange 0 n) (fun t => rsum (zrange 0 m) (fun p => Cmod (f t p) * Cmod (f t p)))).

(** The Fourier sums of length n with the sign s in the exponent, times c. *)
Definition fourier_sums (s c : R) (n : Z) (x : Z -> C) (k : Z) : C :=
  (RtoC c * csum (zrange 0 n) (fun p => x p * cis (s * (2 * PI * IZR k * IZR p / IZR n))))%C.
(** A computed transform of length n whose error is at most eps times its result, in the Euclidean norm. *)
Definition transform_accurate (F : vec C -> vec C) (s c : R) (n : Z) (eps : R) : Prop :=
  forall v, vlen v = n -> vlen (F v) = n /\
    l2 n (fun k => vat (F v) k - fourier_sums s c n (vat v) k)%C <= eps * l2 n (fourier_sums s c n (vat v)).
(** The four transforms, for one length. *)
Definition transforms_accurate (S : rffts) (n : Z) (eps : R) : Prop :=
  transform_accurate (r_fft S) (-1) 1 n eps /\ transform_accurate (r_fft_fwd S) (-1) (/ IZR n) n eps /\
  transform_accurate (r_ifft S) 1 (/ IZR n) n eps /\ transform_accurate (r_ifft_fwd S) 1 1 n eps.

(** Transforms without error. *)
Definition exact_rffts : rffts := mkRffts fft_bwd fft_fwd ifft_bwd ifft_fwd.
(** The root mean square of a map of n rings with m samples. *)
Definition rms (n m : Z) (f : Z -> Z -> C) : R := l2_map n m f / sqrt (IZR n * IZR m).
