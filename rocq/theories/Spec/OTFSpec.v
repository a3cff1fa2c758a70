(** What the on-the-fly latitudinal steps compute. *)
From Coq Require Import Reals.
From Coquelicot Require Import Complex.
From Verif Require Import Lib.Py Lib.Vec Lib.Arr Lib.Sums Lib.Cplx Spec.WignerSpec Spec.SamplesSpec.
Open Scope Z_scope.

(** Angles at which no intermediate value of the recursion vanishes: the recursion divides by the
    entries d^el_{m,n}(x) with 0 < |m| < el. *)
Definition regular (L Lo n : Z) (x : R) : Prop :=
  (0 < x < PI)%R /\ forall el m, Z.max Lo (Z.abs n) <= el < L -> 0 < Z.abs m < el -> wigner_d el m n x <> 0%R.

(** The sum over the degrees that the inverse step forms for order m at angle x:
    sum over el of d^el_{m,-spin}(x) flm[el, m]. *)
Definition latitude_sum (L Lo spin : Z) (flm : ndarray C) (x : R) (m : Z) : C :=
  csum (zrange (Z.max Lo (Z.abs m)) L) (fun el => (RtoC (wigner_d el m (- spin)%Z x) * get flm [el; m + L - 1]%Z)%C).
(** The sum over the angles that the forward step forms for degree el and order m. *)
Definition angle_sum (L off spin nt : Z) (ftm : ndarray C) (beta : Z -> R) (el m : Z) : C :=
  csum (zrange 0 nt) (fun t => (RtoC (wigner_d el m (- spin)%Z (beta t)) * get ftm [t; m + L - 1 + off]%Z)%C).

(** The rings at the poles: the last ring of mw and mwss, the first ring of mwss. *)
Definition pole_angle (s : scheme) (n t : Z) : option R :=
  match s with
  | MW => if t =? n - 1 then Some PI else None
  | MWSS => if t =? 0 then Some 0%R else if t =? n - 1 then Some PI else None
  | _ => None
  end.
(** The angle a ring stands for: the pole, or the given one. *)
Definition ring_angle (s : scheme) (n : Z) (beta : Z -> R) (t : Z) : R :=
  match pole_angle s n t with Some x => x | None => beta t end.
(** The given angle matters away from the poles only. *)
Definition usable_ring (s : scheme) (n L Lo spin : Z) (beta : Z -> R) (t : Z) : Prop :=
  pole_angle s n t = None -> regular L Lo (- spin) (beta t).
(** Columns before the one of order -(L-1): one on the schemes that store the order -L. *)
Definition shift_of (s : scheme) : Z := match s with MWSS | HEALPIX => 1 | _ => 0 end.
(** Coefficients of degree below |spin|, which do not exist, are zero. *)
Definition spin_zero (L spin : Z) (flm : ndarray C) : Prop :=
  forall el m, 0 <= el < Z.abs spin -> el < L -> - L < m < L -> get flm [el; m + L - 1] = RtoC 0.
(** The name is written as the case-sensitive tests of the code expect. *)
Definition plain_name (name : string) (s : scheme) : Prop :=
  s = MWSS \/ s = HEALPIX -> name = scheme_name s.
