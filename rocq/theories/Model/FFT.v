(** The transforms of numpy.fft / jax.numpy.fft on one axis, by their documented sums, in exact
    complex arithmetic. norm="backward" scales the inverse by 1/n, norm="forward" the forward
    transform. *)
From Coq Require Import Reals.
From Coquelicot Require Import Complex.
From Verif Require Import Lib.Py Lib.Vec Lib.Sums Lib.Cplx.
Open Scope Z_scope.

(** fft(x, norm="backward"): X_k = sum_p x_p exp(-2 pi i k p / n) *)
Definition fft_bwd (x : vec C) : vec C :=
  mkVec (vlen x) (fun k => csum (zrange 0 (vlen x)) (fun p => (vat x p * root (vlen x) (- (k * p)))%C)).
(** ifft(x, norm="forward"): x_p = sum_k X_k exp(2 pi i k p / n) *)
Definition ifft_fwd (x : vec C) : vec C :=
  mkVec (vlen x) (fun p => csum (zrange 0 (vlen x)) (fun k => (vat x k * root (vlen x) (k * p))%C)).
(** fft(x, norm="forward") and ifft(x, norm="backward"): divided by n *)
Definition fft_fwd (x : vec C) : vec C := vmap (fun z => (z / RtoC (IZR (vlen x)))%C) (fft_bwd x).
Definition ifft_bwd (x : vec C) : vec C := vmap (fun z => (z / RtoC (IZR (vlen x)))%C) (ifft_fwd x).

(** rfft(np.real(x), norm="backward"): the first n//2+1 entries of the fft of the real part *)
Definition real_part (x : vec C) : vec C := vmap (fun z => RtoC (Re z)) x.
Definition rfft_bwd (x : vec C) : vec C :=
  mkVec (vlen x / 2 + 1) (vat (fft_bwd (real_part x))).
(** irfft(X, n, norm="forward"): the input is cropped or zero-padded to n//2+1 entries, the
    missing half is filled by conjugation, imaginary parts of the first entry and (n even) of
    the last one are ignored; the result is real. *)
Definition irfft_fwd (x : vec C) (n : Z) : vec C :=
  let X k := if k <? vlen x then vat x k else RtoC 0 in
  mkVec n (fun p => RtoC (
    Re (X 0%Z)
    + 2 * rsum (zrange 1%Z ((n + 1) / 2)%Z) (fun k => Re (X k * root n (k * p)%Z)%C)
    + (if Z.even n then Re (X (n / 2)%Z) * sgn p else 0))%R).
