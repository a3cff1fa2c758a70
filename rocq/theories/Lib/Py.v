(** Python-level vocabulary shared by the models: exceptions as values, integer
    ranges, monadic loops, and numpy-style arrays with checked indexing. *)
From Coq Require Export ZArith List Lia Bool String Ascii.
From Coq Require Import ZifyBool.
Export ListNotations.
Open Scope Z_scope.

(** Python exceptions that the modelled functions can raise. *)
Inductive exn :=
| ValueError | IndexError | KeyError | TypeError | AttributeError
| AssertionError | WarningRaised | ZeroDivisionError | OverflowError
| MissingDependency | OtherError.

Inductive result (A : Type) :=
| Ok (a : A)
| Err (e : exn).
Arguments Ok {A} _.
Arguments Err {A} _.

Definition bind {A B} (r : result A) (f : A -> result B) : result B :=
  match r with Ok a => f a | Err e => Err e end.
Notation "'let*' x ':=' r 'in' k" := (bind r (fun x => k))
  (at level 200, x pattern, r at level 100, k at level 200, right associativity).

(** Python's range(a, b). *)
Definition zrange (a b : Z) : list Z :=
  map (fun k => a + Z.of_nat k) (seq 0 (Z.to_nat (b - a))).

(** A Python for-loop whose body may raise. *)
Fixpoint foldM {S X} (f : S -> X -> result S) (l : list X) (s : S) : result S :=
  match l with
  | [] => Ok s
  | x :: r => match f s x with Ok s' => foldM f r s' | Err e => Err e end
  end.

(** ** numpy arrays

    [shape] is the tuple of dimensions; [get] gives the entry at an in-range,
    non-negative multi-index. All reads and writes of the models go through
    [aread]/[awrite], which implement numpy's index rules: a negative index counts
    from the end, anything else out of range raises IndexError. *)
Record ndarray (A : Type) := mkArr { shape : list Z; get : list Z -> A }.
Arguments mkArr {A} _ _.
Arguments shape {A} _.
Arguments get {A} _ _.

Definition norm_index (n i : Z) : option Z :=
  if (0 <=? i) && (i <? n) then Some i
  else if (- n <=? i) && (i <? 0) then Some (i + n) else None.

Fixpoint norm_indices (sh idx : list Z) : option (list Z) :=
  match sh, idx with
  | [], [] => Some []
  | n :: sh', i :: idx' =>
      match norm_index n i, norm_indices sh' idx' with
      | Some j, Some js => Some (j :: js)
      | _, _ => None
      end
  | _, _ => None
  end.

Definition aread {A} (a : ndarray A) (idx : list Z) : result A :=
  match norm_indices (shape a) idx with
  | Some j => Ok (get a j)
  | None => Err IndexError
  end.

Definition upd {A} (f : list Z -> A) (i : list Z) (v : A) : list Z -> A :=
  fun j => if list_eq_dec Z.eq_dec j i then v else f j.

Definition awrite {A} (a : ndarray A) (idx : list Z) (v : A) : result (ndarray A) :=
  match norm_indices (shape a) idx with
  | Some j => Ok (mkArr (shape a) (upd (get a) j v))
  | None => Err IndexError
  end.

Definition zeros {A} (zero : A) (sh : list Z) : ndarray A := mkArr sh (fun _ => zero).

(** A multi-index that lies inside the shape. *)
Fixpoint in_shape (sh idx : list Z) : Prop :=
  match sh, idx with
  | [], [] => True
  | n :: sh', i :: idx' => 0 <= i < n /\ in_shape sh' idx'
  | _, _ => False
  end.

(** Two arrays are the same array: equal shape, equal entry at each in-range index. *)
Definition arr_eq {A} (a b : ndarray A) : Prop :=
  shape a = shape b /\ forall idx, in_shape (shape a) idx -> get a idx = get b idx.

(** Python's str.lower() on ASCII. *)
Definition lower_ascii (c : ascii) : ascii :=
  let n := nat_of_ascii c in
  if (Nat.leb 65 n && Nat.leb n 90)%bool then ascii_of_nat (n + 32) else c.
Fixpoint lower (s : string) : string :=
  match s with
  | EmptyString => EmptyString
  | String c r => String (lower_ascii c) (lower r)
  end.
Definition streq (a b : string) : bool := String.eqb a b.
Definition str_in (a : string) (l : list string) : bool := existsb (String.eqb a) l.
