(** Wigner's explicit formula for the d-functions, and the functions built from them. *)
From Coq Require Import Reals ZArith.
From Coquelicot Require Import Complex.
From Verif Require Import Lib.Py Lib.Sums Lib.Cplx.
Open Scope Z_scope.

(** k! for k >= 0. *)
Definition zf (k : Z) : R := INR (fact (Z.to_nat k)).
(** x^k for k >= 0. *)
Definition zpow (x : R) (k : Z) : R := (x ^ Z.to_nat k)%R.

(** d^l_{mn}(beta); t runs over all values for which the four factorials are defined. It is 0
    when |m| > l or |n| > l. *)
Definition wigner_d (l m n : Z) (beta : R) : R :=
  rsum (zrange (Z.max 0 (n - m)) (Z.min (l + n) (l - m) + 1)) (fun t =>
    (sgn (m - n + t)
     * (sqrt (zf (l + m) * zf (l - m) * zf (l + n) * zf (l - n))
        / (zf (l + n - t) * zf t * zf (m - n + t) * zf (l - m - t)))
     * zpow (cos (beta / 2)) (2 * l + n - m - 2 * t)
     * zpow (sin (beta / 2)) (m - n + 2 * t))%R).

(** Spin-weighted spherical harmonic of spin s. *)
Definition sYlm (s l m : Z) (theta phi : R) : C :=
  (RtoC (sgn s * sqrt (IZR (2 * l + 1) / (4 * PI)) * wigner_d l m (- s) theta)%R
   * cis (IZR m * phi))%C.

(** The angles at which the recursion is exact: both poles, and the angles that np.isclose tells
    apart from them. *)
Definition away_from_poles (x : R) : Prop :=
  x = 0%R \/ x = PI \/ (/ 100000000 < x < PI - (/ 100000000 + / 100000 * PI))%R.
