(** C42: the Torch wrappers convert data, not meaning. *)
From Coq Require Import Reals String Lia Lra.
From Coquelicot Require Import Complex.
From Verif Require Import Lib.Py Lib.Sums Model.TorchWrapper Spec.TorchSpec Proofs.TorchProofs.
Open Scope Z_scope.

(** Every tensor, with any strides, storage offset, conjugation flag or gradient flag, converts to
    the JAX array with the same entries. *)
Theorem C42_tensor_to_array t : exists a, torch_tensor_to_jax_array t = Ok a /\ same_data t a.
Proof. exact (t2j_ok t). Qed.
Print Assumptions C42_tensor_to_array.

(** Every JAX array converts to a tensor with the same entries. *)
Theorem C42_array_to_tensor a : same_data (jax_array_to_torch_tensor a) a.
Proof. exact (proj1 (j2t_ok a)). Qed.
Print Assumptions C42_array_to_tensor.

(** There and back gives the same array. *)
Theorem C42_array_round_trip a : exists b, torch_tensor_to_jax_array (jax_array_to_torch_tensor a) = Ok b /\ arr_eq a b.
Proof.
  destruct (t2j_ok (jax_array_to_torch_tensor a)) as [b [H1 [H2 H3]]]. destruct (j2t_ok a) as [[_ H4] _].
  exists b. split; [exact H1|]. cbn in H2. split; [exact H2|].
  intros ix H. rewrite <- H3, H4; [reflexivity|exact H|now rewrite <- H2].
Qed.
Print Assumptions C42_array_round_trip.

(** Nested tuples, lists and dictionaries: the result has exactly the same positions, with a tensor
    replaced by the array with the same data at each of them, and everything else unchanged. *)
Theorem C42_tree_to_jax t : exists u, tree_map_torch_tensor_to_jax_array t = Ok u /\ converted to_jax t u.
Proof. exact (tree_t2j t). Qed.
Print Assumptions C42_tree_to_jax.
Theorem C42_tree_to_torch t : exists u, tree_map_jax_array_to_torch_tensor t = Ok u /\ converted to_torch t u.
Proof. exact (tree_j2t t). Qed.
Print Assumptions C42_tree_to_torch.

(** A call of the wrapped function is the JAX function on the values the call gives to the
    parameters, those of the differentiable ones converted, followed by converting the result;
    an exception of the JAX function is passed on. *)
Theorem C42_wrapped sig names jf args kw vals :
  NoDup (map p_name sig) -> NoDup (map fst kw) -> (forall n, In n names -> In n (map p_name sig)) ->
  binds sig args kw vals ->
  exists jvals, List.length jvals = List.length vals /\
    (forall i p v w, nth_error sig i = Some p -> nth_error vals i = Some v -> nth_error jvals i = Some w ->
      (In (p_name p) names -> converted to_jax v w) /\ (~ In (p_name p) names -> w = v)) /\
    (forall e, jf jvals = Err e -> torch_call true sig (Some names) jf args kw = Err e) /\
    (forall out, jf jvals = Ok out ->
       exists out', torch_call true sig (Some names) jf args kw = Ok out' /\ converted to_torch out out').
Proof.
  intros Hs Hk Hn B. destruct (forward_ok sig names jf args kw vals Hs Hk Hn B) as [jv H].
  exists jv. unfold torch_call. rewrite argnames_ok by exact Hn. exact H.
Qed.
Print Assumptions C42_wrapped.

(** By default the differentiable parameters are those annotated as JAX arrays. *)
Theorem C42_default_names sig jf args kw :
  torch_call true sig None jf args kw = torch_call true sig (Some (map p_name (filter p_array sig))) jf args kw.
Proof.
  unfold torch_call. rewrite argnames_default. rewrite argnames_ok; [reflexivity|].
  intros n H. apply in_map_iff in H. destruct H as [p [H1 H2]]. apply filter_In in H2. subst. now apply in_map.
Qed.
Print Assumptions C42_default_names.

(** Only the values of the parameters matter, not whether they were given by position, by name or
    by default. *)
Theorem C42_call_style sig names jf args kw args' kw' vals :
  NoDup (map p_name sig) -> NoDup (map fst kw) -> NoDup (map fst kw') ->
  binds sig args kw vals -> binds sig args' kw' vals ->
  torch_call true sig names jf args kw = torch_call true sig names jf args' kw'.
Proof. exact (call_style sig names jf args kw args' kw' vals). Qed.
Print Assumptions C42_call_style.

(** A call that gives no value to some parameter, two to some, or one to an unknown one raises a
    TypeError; an unknown differentiable name a ValueError; without Torch nothing is computed. *)
Theorem C42_rejects_call sig names jf args kw : NoDup (map p_name sig) -> NoDup (map fst kw) ->
  (forall n, In n names -> In n (map p_name sig)) ->
  (forall vals, ~ binds sig args kw vals) -> torch_call true sig (Some names) jf args kw = Err TypeError.
Proof. exact (call_rejects sig names jf args kw). Qed.
Print Assumptions C42_rejects_call.
Theorem C42_rejects_name sig names n jf args kw av : In n names -> ~ In n (map p_name sig) ->
  torch_call av sig (Some names) jf args kw = Err ValueError.
Proof. intros H1 H2. unfold torch_call. now rewrite (argnames_bad sig names n H1 H2). Qed.
Print Assumptions C42_rejects_name.
Theorem C42_rejects_torch sig names jf args kw : (forall n, In n names -> In n (map p_name sig)) ->
  torch_call false sig (Some names) jf args kw = Err MissingDependency.
Proof. intros H. unfold torch_call. now rewrite argnames_ok. Qed.
Print Assumptions C42_rejects_torch.

(** Backward pass of a function with one array result: whatever the Jacobian, the gradients have
    the shapes of the arguments and satisfy the chain rule for every real loss: the change of the
    loss along a direction of the arguments is its change along the derivative of the function. *)
Theorem C42_backward J ins go :
  exists g : nat -> tensor,
    torch_backward (jax_vjp J (t_shape go) ins) [PTen go] = Ok (PTuple (map (fun i => PTen (g i)) (seq 0 (List.length ins)))) /\
    (forall i sh, nth_error ins i = Some sh -> t_shape (g i) = sh) /\
    forall v, rsum (combine (seq 0 (List.length ins)) ins) (fun p => pairing (snd p) (t_at (g (fst p))) (v (fst p)))
              = pairing (t_shape go) (t_at go) (derivative J ins v).
Proof.
  destruct (backward_ok J (t_shape go) ins go eq_refl) as [g [H1 H2]]. exists g. split; [exact H1|]. split.
  - intros i sh Hi. assert (Hin : In (i, sh) (combine (seq 0 (List.length ins)) ins)).
    { apply (nth_error_In _ i). apply nth_error_combine; [|exact Hi]. rewrite <- (Nat.add_0_l i) at 2. 
      assert (Hl : (i < List.length ins)%nat) by (apply nth_error_Some; congruence).
      rewrite (nth_error_nth' _ 0%nat) by (now rewrite seq_length). now rewrite seq_nth. }
    exact (proj1 (H2 _ Hin)).
  - intros v. rewrite <- (adjoint_ok J (t_shape go) ins go v). apply rs_ext. intros p Hp. apply pairing_ext.
    intros k Hk. exact (proj2 (H2 p Hp) k Hk).
Qed.
Print Assumptions C42_backward.

(** For a complex-linear function such as a transform with matrix [M] the gradient is the conjugate
    transpose applied to the output gradient. *)
Theorem C42_backward_linear (M : list Z -> list Z -> C) sh go :
  exists g, torch_backward (jax_vjp (mkJac (fun _ => M) (fun _ j k => Ci * M j k)%C) (t_shape go) [sh]) [PTen go] = Ok (PTuple [PTen g]) /\
    t_shape g = sh /\ forall k, in_shape sh k -> t_at g k = csum (indices (t_shape go)) (fun j => Cconj (M j k) * t_at go j)%C.
Proof.
  destruct (backward_ok (mkJac (fun _ => M) (fun _ j k => Ci * M j k)%C) (t_shape go) [sh] go eq_refl) as [g [H1 H2]].
  exists (g 0%nat). split; [exact H1|]. destruct (H2 (0%nat, sh) (or_introl eq_refl)) as [H3 H4].
  split; [exact H3|]. intros k Hk. cbn [fst snd] in H4. rewrite (H4 k Hk). exact (linear_grad (fun _ => M) go (t_shape go) 0 k).
Qed.
Print Assumptions C42_backward_linear.

(** Exactly the members whose name does not begin with an underscore are wrapped. *)
Theorem C42_namespace members n :
  In n (wrapped_names members) <-> In n members /\ forall rest, n <> String "_" rest.
Proof.
  unfold wrapped_names. rewrite filter_In. split; intros [H1 H2]; split; auto.
  - intros rest ->. cbn in H2. destruct rest; discriminate H2.
  - destruct n as [|c n]; [reflexivity|]. cbn [prefix]. destruct (Ascii.ascii_dec "_" c) as [E|E]; [|reflexivity].
    destruct (H2 n). now subst.
Qed.
Print Assumptions C42_namespace.

(** ** Findings *)
(** Whether the function receives a tensor. *)
Definition sees_tensor (l : list pytree) : result pytree :=
  Ok (PAtom (ABool (existsb (fun t => match t with PTen _ => true | _ => false end) l))).
(** A tensor given for a parameter that is not differentiable reaches the JAX function unconverted. *)
Theorem C42_unconverted_refuted : exists sig args,
  torch_call true sig None sees_tensor args [] = Ok (PAtom (ABool true)).
Proof.
  exists [mkParam "flm" true None; mkParam "precomps" false None].
  exists [PTen (mkTensor [2] (fun i => RtoC (IZR i)) 0 [1] false false); PTen (mkTensor [2] (fun i => RtoC (IZR i)) 0 [1] false false)].
  reflexivity.
Qed.
Print Assumptions C42_unconverted_refuted.

(** The backward pass of a function that returns a pair of arrays always raises. *)
Theorem C42_tuple_output_refuted : exists J out ins g1 g2,
  torch_backward (jax_vjp J out ins) [PTen g1; PTen g2] = Err TypeError.
Proof.
  exists (mkJac (fun _ _ _ => RtoC 1) (fun _ _ _ => Ci)), [2], [[2]].
  exists (mkTensor [2] (fun i => RtoC (IZR i)) 0 [1] false false), (mkTensor [2] (fun i => RtoC (IZR i)) 0 [1] false false).
  apply backward_tuple.
Qed.
Print Assumptions C42_tuple_output_refuted.

(** ** The hypotheses are met *)
(** a transposed, conjugated view with an offset that requires gradients *)
Definition view : tensor := mkTensor [2; 3] (fun i => (IZR i, 1%R)) 5 [1; 2] true true.
Example C42_ex_view : is_contiguous view = false /\ t_at view [1; 2] = (10, -1)%R.
Proof. split; [reflexivity|]. unfold t_at, view, Cconj; cbn. f_equal; lra. Qed.
(** a nested argument with a tensor, a number, None and unsorted keys *)
Definition nested : pytree := PDict [("b"%string, PList [PTen view; PNone]); ("a"%string, PTuple [PAtom (AInt 3); PTen view])].
Example C42_ex_nested : at_path nested [SKey "a"; SIdx 1] = Some (PTen view) /\ at_path nested [SKey "b"; SIdx 2] = None.
Proof. split; reflexivity. Qed.
(** the keys come back sorted *)
Example C42_ex_keys : exists x y, tree_map_torch_tensor_to_jax_array nested = Ok (PDict [("a"%string, x); ("b"%string, y)]).
Proof.
  unfold tree_map_torch_tensor_to_jax_array, nested. cbn [tree_map bind].
  destruct (t2j_ok view) as [a [E _]]. rewrite E. cbn. eauto.
Qed.
(** f(flm, L, precomps=None): flm by position, L by name, the last by default *)
Definition sig3 : list param := [mkParam "flm" true None; mkParam "L" false None; mkParam "precomps" false (Some PNone)].
Example C42_ex_binds : NoDup (map p_name sig3) /\
  binds sig3 [PTen view] [("L"%string, PAtom (AInt 4))] [PTen view; PAtom (AInt 4); PNone] /\
  binds sig3 [PTen view; PAtom (AInt 4); PNone] [] [PTen view; PAtom (AInt 4); PNone].
Proof.
  assert (N : NoDup (map p_name sig3)).
  { cbn. repeat constructor; cbn; intuition discriminate. }
  split; [exact N|].
  assert (G : forall args kw vals, NoDup (map fst kw) -> bind_args sig3 args kw = Ok (combine (map p_name sig3) vals) -> List.length vals = 3%nat -> binds sig3 args kw vals).
  { intros args kw vals Hk H Hl. pose proof (bind_correct sig3 args kw N Hk) as B. rewrite H in B. destruct B as [v' [E B]].
    destruct vals as [|a [|b [|c [|]]]]; try discriminate Hl. pose proof (proj1 (proj2 B)) as Bl.
    destruct v' as [|a' [|b' [|c' [|]]]]; try discriminate Bl. cbn in E. inversion E; subst. exact B. }
  split; apply G; try reflexivity; cbn; repeat constructor; cbn; tauto.
Qed.
(** a call without the second parameter binds nothing *)
Example C42_ex_unbound : forall vals, ~ binds sig3 [PTen view] [] vals.
Proof.
  intros vals [_ [Hl [_ H]]]. destruct vals as [|a [|b [|c [|]]]]; try discriminate Hl.
  destruct (H 1%nat _ _ eq_refl eq_refl) as [[]|[_ E]]. discriminate E.
Qed.
