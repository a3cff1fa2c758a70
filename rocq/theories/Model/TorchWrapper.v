(** s2fft/utils/torch_wrapper.py: conversion of nested arguments and wrapping of JAX functions. *)
From Coq Require Import Reals String.
From Coquelicot Require Import Complex.
From Verif Require Import Lib.Py Lib.Sums.
Open Scope Z_scope.

(** ** Arrays of the two libraries
    A JAX array is an [ndarray C]. A Torch tensor is a strided view of a storage with a lazy
    conjugation bit and a flag for gradients. Data types and devices are not modelled. *)
Record tensor := mkTensor {
  t_shape : list Z; t_store : Z -> C; t_offset : Z; t_strides : list Z; t_conj : bool; t_grad : bool }.
Fixpoint dot (strides ix : list Z) : Z :=
  match strides, ix with s :: strides, i :: ix => s * i + dot strides ix | _, _ => 0 end.
Fixpoint prod (sh : list Z) : Z := match sh with [] => 1 | n :: sh => n * prod sh end.
Fixpoint row_strides (sh : list Z) : list Z := match sh with [] => [] | _ :: sh => prod sh :: row_strides sh end.
Fixpoint unravel (sh : list Z) (i : Z) : list Z :=
  match sh with [] => [] | _ :: sh => i / prod sh :: unravel sh (i mod prod sh) end.
(** the entry of a tensor *)
Definition t_at (t : tensor) (ix : list Z) : C :=
  let z := t_store t (t_offset t + dot (t_strides t) ix) in if t_conj t then Cconj z else z.
Fixpoint zlist_eqb (a b : list Z) : bool :=
  match a, b with [] , [] => true | x :: a, y :: b => (x =? y) && zlist_eqb a b | _, _ => false end.
Definition is_contiguous (t : tensor) : bool := zlist_eqb (t_strides t) (row_strides (t_shape t)).
(** Tensor.contiguous(): the tensor itself, or a row-major copy (Torch ignores the stride of
    axes of length one, for which this makes a copy) *)
Definition contiguous (t : tensor) : tensor :=
  if is_contiguous t then t
  else mkTensor (t_shape t) (fun i => t_store t (t_offset t + dot (t_strides t) (unravel (t_shape t) i))) 0
         (row_strides (t_shape t)) (t_conj t) (t_grad t).
(** Tensor.resolve_conj() *)
Definition resolve_conj (t : tensor) : tensor :=
  if t_conj t then mkTensor (t_shape t) (fun i => Cconj (t_store t i)) (t_offset t) (t_strides t) false (t_grad t) else t.
(** Tensor.detach() *)
Definition detach (t : tensor) : tensor := mkTensor (t_shape t) (t_store t) (t_offset t) (t_strides t) (t_conj t) false.
(** Tensor.conj(): flips the bit *)
Definition conj_tensor (t : tensor) : tensor :=
  mkTensor (t_shape t) (t_store t) (t_offset t) (t_strides t) (negb (t_conj t)) (t_grad t).
(** jax.dlpack.from_dlpack: rejects tensors that require gradients, have the conjugation bit set or
    are not row-major; it sees the storage only *)
Definition from_dlpack (t : tensor) : result (ndarray C) :=
  if t_grad t || t_conj t || negb (is_contiguous t) then Err OtherError
  else Ok (mkArr (t_shape t) (fun ix => t_store t (t_offset t + dot (t_strides t) ix))).

(** torch_wrapper.py:71-87 jax_array_to_torch_tensor *)
Definition jax_array_to_torch_tensor (a : ndarray C) : tensor :=
  mkTensor (shape a) (fun i => get a (unravel (shape a) i)) 0 (row_strides (shape a)) false false.
(** torch_wrapper.py:90-118 torch_tensor_to_jax_array *)
Definition torch_tensor_to_jax_array (t : tensor) : result (ndarray C) :=
  let t := contiguous t in
  let t := resolve_conj t in
  let t := detach t in
  from_dlpack t.

(** ** Nested structures
    Leaves are JAX arrays, Torch tensors and other values; None has no leaves. *)
Inductive atom := AInt (z : Z) | ABool (b : bool) | AStr (s : string).
Inductive pytree :=
| PArr (a : ndarray C) | PTen (t : tensor) | PAtom (a : atom) | PNone
| PList (l : list pytree) | PTuple (l : list pytree) | PDict (d : list (string * pytree)).
(** a dictionary keeps its insertion order; JAX rebuilds it with sorted keys *)
Fixpoint insert_key {T} (k : string) (v : T) (d : list (string * T)) : list (string * T) :=
  match d with
  | [] => [(k, v)]
  | (k', v') :: d' => if String.leb k k' then (k, v) :: d else (k', v') :: insert_key k v d'
  end.
Fixpoint sort_keys {T} (d : list (string * T)) : list (string * T) :=
  match d with [] => [] | (k, v) :: d => insert_key k v (sort_keys d) end.
(** jax.tree_util.tree_map for one tree; the children are mapped before the keys are sorted, which
    only changes which error is raised first *)
Fixpoint tree_map (f : pytree -> result pytree) (t : pytree) : result pytree :=
  let fix go l := match l with [] => Ok [] | x :: l => let* y := tree_map f x in let* ys := go l in Ok (y :: ys) end in
  let fix god d := match d with [] => Ok [] | (k, x) :: d => let* y := tree_map f x in let* ys := god d in Ok ((k, y) :: ys) end in
  match t with
  | PNone => Ok PNone
  | PList l => let* l := go l in Ok (PList l)
  | PTuple l => let* l := go l in Ok (PTuple l)
  | PDict d => let* d := god d in Ok (PDict (sort_keys d))
  | PArr _ | PTen _ | PAtom _ => f t
  end.
(** torch_wrapper.py:121-137 *)
Definition tree_map_jax_array_to_torch_tensor (t : pytree) : result pytree :=
  tree_map (fun t => match t with PArr a => Ok (PTen (jax_array_to_torch_tensor a)) | _ => Ok t end) t.
(** torch_wrapper.py:140-156 *)
Definition tree_map_torch_tensor_to_jax_array (t : pytree) : result pytree :=
  tree_map (fun t => match t with PTen x => let* a := torch_tensor_to_jax_array x in Ok (PArr a) | _ => Ok t end) t.

(** ** Signatures and calls
    Parameters that may be given by position or by name, with the annotation "is a subclass of
    jax.Array" and an optional default. *)
Record param := mkParam { p_name : string; p_array : bool; p_default : option pytree }.
Fixpoint lookup {T} (d : list (string * T)) (k : string) : option T :=
  match d with [] => None | (k', v) :: d => if String.eqb k' k then Some v else lookup d k end.
Fixpoint remove_key {T} (d : list (string * T)) (k : string) : list (string * T) :=
  match d with [] => [] | (k', v) :: d => if String.eqb k' k then remove_key d k else (k', v) :: remove_key d k end.
(** inspect.Signature.bind followed by BoundArguments.apply_defaults *)
Fixpoint bind_args (ps : list param) (args : list pytree) (kw : list (string * pytree)) : result (list (string * pytree)) :=
  match ps, args with
  | [], [] => match kw with [] => Ok [] | _ => Err TypeError end
  | [], _ => Err TypeError
  | p :: ps, a :: args =>
      match lookup kw (p_name p) with
      | Some _ => Err TypeError
      | None => let* r := bind_args ps args kw in Ok ((p_name p, a) :: r)
      end
  | p :: ps, [] =>
      match lookup kw (p_name p), p_default p with
      | Some v, _ => let* r := bind_args ps [] (remove_key kw (p_name p)) in Ok ((p_name p, v) :: r)
      | None, Some v => let* r := bind_args ps [] kw in Ok ((p_name p, v) :: r)
      | None, None => Err TypeError
      end
  end.
(** arguments[key] = value for an existing key *)
Definition set_key {T} (d : list (string * T)) (k : string) (v : T) : list (string * T) :=
  map (fun e => if String.eqb (fst e) k then (k, v) else e) d.
Fixpoint set_keys {T} (d : list (string * T)) (ks : list string) (vs : list T) : list (string * T) :=
  match ks, vs with k :: ks, v :: vs => set_keys (set_key d k v) ks vs | _, _ => d end.

(** torch_wrapper.py:182-193: the names of the differentiable arguments; a name that is not a
    parameter raises *)
Definition argnames (sig : list param) (names : option (list string)) : result (list string) :=
  let names := match names with Some names => names | None => map p_name (filter p_array sig) end in
  if forallb (fun n => existsb (fun p => String.eqb (p_name p) n) sig) names then Ok names else Err ValueError.
Fixpoint pick {T} (d : list (string * T)) (ks : list string) : result (list T) :=
  match ks with
  | [] => Ok []
  | k :: ks => match lookup d k with Some v => let* vs := pick d ks in Ok (v :: vs) | None => Err KeyError end
  end.
(** torch_wrapper.py:159-230 wrap_as_torch_function applied to arguments, forward pass
    (196-230); [jf] takes the values in the order of the signature. jax.vjp evaluates the function
    on the converted arguments; that it rejects arguments that are not floating-point arrays is
    not modelled. *)
Definition torch_forward (available : bool) (sig : list param) (names : list string) (jf : list pytree -> result pytree)
    (args : list pytree) (kw : list (string * pytree)) : result pytree :=
  if negb available then Err MissingDependency else
  let* ba := bind_args sig args kw in
  let* diff := pick ba names in
  let* conv := tree_map_torch_tensor_to_jax_array (PTuple diff) in
  let* vals := match conv with PTuple l => Ok l | _ => Err TypeError end in
  let* out := jf (map snd (set_keys ba names vals)) in
  tree_map_jax_array_to_torch_tensor out.
(** The wrapped function: names are checked when the function is wrapped. *)
Definition torch_call (available : bool) (sig : list param) (names : option (list string)) (jf : list pytree -> result pytree)
    (args : list pytree) (kw : list (string * pytree)) : result pytree :=
  let* names := argnames sig names in
  torch_forward available sig names jf args kw.

(** ** Backward pass
    A function of several arrays with one array result, given by the partial derivatives of
    result entry [j] with respect to the real and the imaginary part of entry [k] of argument [i]. *)
Record jacobian := mkJac { d_re : nat -> list Z -> list Z -> C; d_im : nat -> list Z -> list Z -> C }.
Fixpoint indices (sh : list Z) : list (list Z) :=
  match sh with [] => [[]] | n :: sh => flat_map (fun i => map (cons i) (indices sh)) (zrange 0 n) end.
(** The function returned by jax.vjp, in JAX's convention for complex derivatives: the cotangent
    c + i d is the row vector (c, -d), the result x, y is the number x - i y. It takes one argument. *)
Definition jax_vjp (J : jacobian) (out : list Z) (ins : list (list Z)) (cts : list pytree) : result pytree :=
  match cts with
  | [PArr ct] =>
      Ok (PTuple (map (fun p => PArr (mkArr (snd p) (fun k =>
        (rsum (indices out) (fun j => Re (get ct j) * Re (d_re J (fst p) j k) - Im (get ct j) * Im (d_re J (fst p) j k))%R,
         (- rsum (indices out) (fun j => Re (get ct j) * Re (d_im J (fst p) j k) - Im (get ct j) * Im (d_im J (fst p) j k)))%R))))
        (combine (seq 0 (List.length ins)) ins)))
  | _ => Err TypeError
  end.
(** torch_wrapper.py:218-228 backward *)
Definition torch_backward (vjp : list pytree -> result pytree) (grads : list pytree) : result pytree :=
  let conj t := match t with PTen x => Ok (PTen (conj_tensor x)) | _ => Err AttributeError end in
  let* g := tree_map conj (PTuple grads) in
  let* g := tree_map_torch_tensor_to_jax_array g in
  let* cts := match g with PTuple l => Ok l | _ => Err TypeError end in
  let* r := vjp cts in
  let* r := tree_map_jax_array_to_torch_tensor r in
  tree_map conj r.

(** torch_wrapper.py:262-264: the names a module's public routines are wrapped under *)
Definition wrapped_names (members : list string) : list string :=
  filter (fun n => negb (String.prefix "_" n)) members.
