(** What is assumed of the ring transforms, the weights of the Driscoll-Healy rule and the
    quadrature the forward transform approximates. *)
From Coq Require Import Reals.
From Coquelicot Require Import Complex.
From Verif Require Import Lib.Py Lib.Vec Lib.Sums Lib.Cplx Lib.Arr Spec.WignerSpec.
Open Scope R_scope.

(** The Fourier transform of length n is computed with an error of at most eps times the sum of
    the absolute values of its input. *)
Definition fft_accurate (F : vec C -> vec C) (n : Z) (eps : R) : Prop :=
  forall v, vlen v = n -> vlen (F v) = n /\ forall k, (0 <= k < n)%Z ->
    Cmod (vat (F v) k - csum (zrange 0 n) (fun p => vat v p * cis (- (2 * PI * IZR k * IZR p / IZR n))))%C <=
    eps * rsum (zrange 0 n) (fun p => Cmod (vat v p)).

(** The weight of one sample at colatitude x in the rule of Driscoll and Healy. *)
Definition dh_weight (L : Z) (x : R) : R :=
  2 * PI / IZR (2 * L - 1) *
  (2 / IZR L * sin x * rsum (zrange 0 L) (fun k => sin (IZR (2 * k + 1) * x) / IZR (2 * k + 1))).

(** The quadrature of f against the conjugated harmonic: n rings at the colatitudes x with m
    equidistant samples of weight w each. *)
Definition quadrature_of (n m : Z) (w x : Z -> R) (s l o : Z) (f : ndarray C) : C :=
  csum (zrange 0 n) (fun t => csum (zrange 0 m) (fun p =>
    (RtoC (w t) * get f [t; p] * Cconj (sYlm s l o (x t) (2 * PI * IZR p / IZR m)))%C)).
(** The quadrature of the absolute value with other weights. *)
Definition weighted_size (n m : Z) (V : Z -> R) (f : ndarray C) : R :=
  rsum (zrange 0 n) (fun t => V t * rsum (zrange 0 m) (fun p => Cmod (get f [t; p]))).
(** The mean of the absolute values of a map of n rings with m samples. *)
Definition mean_abs (n m : Z) (f : ndarray C) : R :=
  rsum (zrange 0 n) (fun t => rsum (zrange 0 m) (fun p => Cmod (get f [t; p]))) / IZR (n * m).
