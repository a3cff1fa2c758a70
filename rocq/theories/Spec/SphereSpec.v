(** Signals on the sphere, their sample grids and trigonometric interpolation. *)
From Coq Require Import Reals.
From Coquelicot Require Import Complex.
From Verif Require Import Lib.Py Lib.Vec Lib.Sums Lib.Cplx Spec.WignerSpec.
Open Scope Z_scope.

(** Sample positions of the equiangular schemes (McEwen-Wiaux, its symmetric variant,
    Driscoll-Healy). *)
Definition mw_theta (L t : Z) : R := (IZR (2 * t + 1) * PI / IZR (2 * L - 1))%R.
Definition mw_phi (L p : Z) : R := (2 * PI * IZR p / IZR (2 * L - 1))%R.
Definition mwss_theta (L t : Z) : R := (IZR t * PI / IZR L)%R.
Definition mwss_phi (L p : Z) : R := (2 * PI * IZR p / IZR (2 * L))%R.
Definition dh_theta (L t : Z) : R := (IZR (2 * t + 1) * PI / IZR (4 * L))%R.

(** An n x m array holds the samples of F at colatitudes th and longitudes ph. *)
Definition sampled (f : ndarray C) (n m : Z) (th ph : Z -> R) (F : R -> R -> C) : Prop :=
  shape f = [n; m] /\ forall t p, 0 <= t < n -> 0 <= p < m -> get f [t; p] = F (th t) (ph p).

(** A signal of spin s and band-limit L: a trigonometric polynomial of degree < L in both angles,
    continued over the poles by F(-theta, phi) = (-1)^s F(theta, phi + pi). *)
Definition band_limited (L s : Z) (F : R -> R -> C) : Prop :=
  exists a : Z -> Z -> C,
    (forall k m, - L < k < L -> - L < m < L -> a (- k) m = (RtoC (sgn (m + s)) * a k m)%C) /\
    forall theta phi, F theta phi =
      csum (zrange (- (L - 1)) L) (fun k => csum (zrange (- (L - 1)) L) (fun m =>
        (a k m * cis (IZR k * theta) * cis (IZR m * phi))%C)).

(** The spin-s signal with harmonic coefficients c(l,m), |s| <= l < L. *)
Definition synth (L s : Z) (c : Z -> Z -> C) (theta phi : R) : C :=
  csum (zrange (Z.abs s) L) (fun l => csum (zrange (- l) (l + 1)) (fun m =>
    (c l m * sYlm s l m theta phi)%C)).

(** The trigonometric polynomial of degree < L fitted to n equidistant samples x_0..x_{n-1}
    (the interpolant when n = 2L-1; the one without the alternating component when n = 2L). *)
Definition trig_fit (L n : Z) (x : Z -> C) (phi : R) : C :=
  csum (zrange (- (L - 1)) L) (fun m =>
    (csum (zrange 0 n) (fun q => x q * cis (- (IZR m * (2 * PI * IZR q / IZR n)))) / RtoC (IZR n) * cis (IZR m * phi))%C).

(** Two computations succeed and return arrays with the same shape and entries. *)
Definition same_ok {T} (x y : result (ndarray T)) : Prop := exists a b, x = Ok a /\ y = Ok b /\ arr_eq a b.
