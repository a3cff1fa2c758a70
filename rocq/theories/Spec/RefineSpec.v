(** Linear maps of arrays and powers of I - F B. *)
From Coq Require Import Reals.
From Coquelicot Require Import Complex.
From Verif Require Import Lib.Py Lib.Arr Lib.Cplx Spec.SamplesSpec Spec.GridSpec Spec.SphericalSpec.
Open Scope Z_scope.

(** A space of arrays of one shape, closed under real linear combinations. *)
Definition array_space (sh : list Z) (P : ndarray C -> Prop) : Prop :=
  (forall a, P a -> shape a = sh) /\
  forall x y a b c, P a -> P b -> combination (RtoC x) (RtoC y) a b c -> P c.
(** T maps P into Q and is linear over the reals. *)
Definition linear_map (P Q : ndarray C -> Prop) (T : ndarray C -> result (ndarray C)) : Prop :=
  (forall a, P a -> exists b, T a = Ok b /\ Q b) /\
  forall x y a b c, P a -> P b -> P c -> combination (RtoC x) (RtoC y) a b c ->
    exists a' b' c', T a = Ok a' /\ T b = Ok b' /\ T c = Ok c' /\ combination (RtoC x) (RtoC y) a' b' c'.
Definition difference (a b c : ndarray C) : Prop := combination (RtoC 1) (RtoC (-1)) a b c.
(** e = (I - F B)^k x *)
Inductive defect (F B : ndarray C -> result (ndarray C)) : nat -> ndarray C -> ndarray C -> Prop :=
| defect_O x e : arr_eq x e -> defect F B O x e
| defect_S k x b c y e : B x = Ok b -> F b = Ok c -> difference x c y -> defect F B k y e -> defect F B (S k) x e.
(** The maps and the coefficients of a transform; with the reality flag and spin 0 those of real
    signals. *)
Definition maps_of (nodes : Z -> R) (s : scheme) (L nside spin : Z) (reality : bool) (f : ndarray C) : Prop :=
  shape f = map_shape s L nside /\ (reality = true -> spin = 0 -> real_map nodes s L nside spin f).
Definition coefficients_of (L spin : Z) (reality : bool) (flm : ndarray C) : Prop :=
  shape flm = [L; 2 * L - 1] /\ (reality = true -> spin = 0 -> hermitian L (stored L flm)).
