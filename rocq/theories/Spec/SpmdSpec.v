(** Specification of the option spmd. *)
From Verif Require Import Lib.Py.

(** The same outcome: equal arrays, or the same exception. *)
Definition same_result {T} (x y : result (ndarray T)) : Prop :=
  match x, y with Ok a, Ok b => arr_eq a b | Err e, Err e' => e = e' | _, _ => False end.
