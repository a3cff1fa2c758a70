(** Specification for the Torch wrappers (C42): what a position of a nested structure is, when two
    structures differ only by the library their arrays live in, which value a call gives each
    parameter, and what the gradient of a real loss is. *)
From Coq Require Import Reals String.
From Coquelicot Require Import Complex.
From Verif Require Import Lib.Py Lib.Sums Model.TorchWrapper.
Open Scope Z_scope.

(** a position: a path of list indices and dictionary keys *)
Inductive step := SIdx (n : nat) | SKey (k : string).
Definition child (t : pytree) (s : step) : option pytree :=
  match t, s with
  | PList l, SIdx n => nth_error l n
  | PTuple l, SIdx n => nth_error l n
  | PDict d, SKey k => match List.find (fun e => String.eqb (fst e) k) d with Some e => Some (snd e) | None => None end
  | _, _ => None
  end.
Fixpoint at_path (t : pytree) (p : list step) : option pytree :=
  match p with
  | [] => Some t
  | s :: p => match child t s with Some u => at_path u p | None => None end
  end.
(** a JAX array and a tensor with the same entries *)
Definition same_data (t : tensor) (a : ndarray C) : Prop :=
  t_shape t = shape a /\ forall ix, in_shape (shape a) ix -> t_at t ix = get a ix.
(** two nodes at the same position: the same kind and, for leaves, related by [R] *)
Definition same_node (R : pytree -> pytree -> Prop) (t u : pytree) : Prop :=
  match t with
  | PNone => u = PNone
  | PList l => exists l', u = PList l' /\ List.length l' = List.length l
  | PTuple l => exists l', u = PTuple l' /\ List.length l' = List.length l
  | PDict d => exists d', u = PDict d' /\ List.length d' = List.length d
  | _ => R t u
  end.
(** two structures with the same positions and related leaves *)
Definition converted (R : pytree -> pytree -> Prop) (t u : pytree) : Prop :=
  forall p, match at_path t p with
            | Some x => exists y, at_path u p = Some y /\ same_node R x y
            | None => at_path u p = None
            end.
(** tensors become arrays with the same data, other leaves stay *)
Definition to_jax (t u : pytree) : Prop :=
  match t with PTen x => exists a, u = PArr a /\ same_data x a | _ => u = t end.
(** arrays become tensors with the same data, no gradient and no conjugation flag; other leaves stay *)
Definition to_torch (t u : pytree) : Prop :=
  match t with PArr a => exists x, u = PTen x /\ same_data x a /\ t_grad x = false /\ t_conj x = false | _ => u = t end.

(** the values a call with arguments [args] and keyword arguments [kw] gives to the parameters *)
Definition value_for (p : param) (i : nat) (args : list pytree) (kw : list (string * pytree)) (v : pytree) : Prop :=
  match nth_error args i with
  | Some a => v = a /\ ~ In (p_name p) (map fst kw)
  | None => In (p_name p, v) kw \/ (~ In (p_name p) (map fst kw) /\ p_default p = Some v)
  end.
Definition binds (sig : list param) (args : list pytree) (kw : list (string * pytree)) (vals : list pytree) : Prop :=
  (List.length args <= List.length sig)%nat /\ List.length vals = List.length sig /\
  (forall k, In k (map fst kw) -> In k (map p_name sig)) /\
  forall i p v, nth_error sig i = Some p -> nth_error vals i = Some v -> value_for p i args kw v.

(** the derivative of a function with Jacobian [J] in the direction [v] *)
Definition derivative (J : jacobian) (ins : list (list Z)) (v : nat -> list Z -> C) (j : list Z) : C :=
  csum (combine (seq 0 (List.length ins)) ins) (fun p =>
    csum (indices (snd p)) (fun k => RtoC (Re (v (fst p) k)) * d_re J (fst p) j k + RtoC (Im (v (fst p) k)) * d_im J (fst p) j k)%C).
(** the change of a real loss with gradient [g] (Torch's convention) in the direction [v] *)
Definition pairing (sh : list Z) (g v : list Z -> C) : R := rsum (indices sh) (fun k => Re (Cconj (g k) * v k)%C).
