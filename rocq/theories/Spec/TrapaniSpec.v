(** What the Trapani & Navaza recursion should leave in its array. *)
From Coq Require Import Reals String.
From Verif Require Import Lib.Py Spec.WignerSpec.
Open Scope Z_scope.

(** the array of a band-limit L holds d^l_{m,n}(pi/2) at [m + (L-1), n + (L-1)] *)
Definition holds_quarter_pi (L l : Z) (a : ndarray R) : Prop :=
  shape a = [2 * L - 1; 2 * L - 1] /\
  forall m n, Z.abs m <= l -> Z.abs n <= l -> get a [m + (L - 1); n + (L - 1)] = wigner_d l m n (PI / 2).
(** the names of the implementations: "loop" in any case, the others as they are *)
Definition accepted (name : string) : Prop := lower name = "loop"%string \/ name = "vectorized"%string \/ name = "jax"%string.
