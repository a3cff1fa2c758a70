(** Integrals over the sphere and quadrature rules. *)
From Coq Require Import Reals.
From Coquelicot Require Import Coquelicot.
From Verif Require Import Lib.Py Lib.Vec Lib.Sums.
Open Scope Z_scope.

(** The integral of g(theta) against the surface measure of the sphere: 2 pi int_0^pi g sin. *)
Definition sphere_integral (g : R -> R) : R := (2 * PI * RInt (fun x => g x * sin x) 0 PI)%R.

(** The quadrature sum over n rings with m samples each, w_t being the weight of a sample. *)
Definition ring_rule (n m : Z) (w : vec R) (th : Z -> R) (g : R -> R) : R :=
  rsum (zrange 0 n) (fun t => (IZR m * vat w t * g (th t))%R).

(** Trigonometric polynomials of degree < K, even and odd. *)
Definition cos_poly (K : Z) (a : Z -> R) (x : R) : R := rsum (zrange 0 K) (fun k => (a k * cos (IZR k * x))%R).
Definition sin_poly (K : Z) (a : Z -> R) (x : R) : R := rsum (zrange 0 K) (fun k => (a k * sin (IZR k * x))%R).

(** Nodes x and weights w integrate the polynomials of degree < K over [-1, 1] exactly. *)
Definition gauss_exact (K n : Z) (w x : Z -> R) : Prop :=
  forall j : nat, Z.of_nat j < K ->
    rsum (zrange 0 n) (fun i => (w i * x i ^ j)%R) = RInt (fun y => (y ^ j)%R) (-1) 1.

(** The L-point Gauss-Legendre rule: nodes increasing in (-1, 1), weights listed for decreasing
    nodes, exact for polynomials of degree < 2L. *)
Definition gauss_legendre (L : Z) (x w : vec R) : Prop :=
  vlen x = L /\ vlen w = L /\ (forall i, 0 <= i < L -> (-1 < vat x i < 1)%R) /\
  (forall i j, 0 <= i < j -> j < L -> (vat x i < vat x j)%R) /\
  gauss_exact (2 * L) L (vat w) (fun t => vat x (L - 1 - t)).
