(** Torch wrappers (C42). *)
From Coq Require Import Reals String Lia Lra.
From Coquelicot Require Import Complex.
From Verif Require Import Lib.Py Lib.PyFacts Lib.Sums Lib.Cplx Lib.MatFacts Model.TorchWrapper Spec.TorchSpec.
Open Scope Z_scope.

(** * Strides *)
Lemma prod_pos sh ix : in_shape sh ix -> 0 < prod sh.
Proof. revert ix; induction sh as [|n sh IH]; intros [|i ix]; cbn; try lia; intros [H1 H2]. specialize (IH _ H2). nia. Qed.
Lemma ravel_range sh ix : in_shape sh ix -> 0 <= dot (row_strides sh) ix < prod sh.
Proof.
  revert ix; induction sh as [|n sh IH]; intros [|i ix]; cbn; try lia; intros [H1 H2].
  specialize (IH _ H2). nia.
Qed.
Lemma unravel_ravel sh ix : in_shape sh ix -> unravel sh (dot (row_strides sh) ix) = ix.
Proof.
  revert ix; induction sh as [|n sh IH]; intros [|i ix]; cbn; try tauto; try reflexivity; intros [H1 H2].
  pose proof (ravel_range _ _ H2). specialize (IH _ H2).
  rewrite (Z.mul_comm (prod sh) i).
  rewrite Z.div_add_l by lia. rewrite Z.div_small by lia.
  rewrite (Z.add_comm (i * prod sh) (dot (row_strides sh) ix)), Z.mod_add by lia. rewrite Z.mod_small by lia.
  rewrite IH. now rewrite Z.add_0_r.
Qed.
Lemma zlist_eqb_eq a b : zlist_eqb a b = true <-> a = b.
Proof.
  revert b; induction a as [|x a IH]; intros [|y b]; cbn; split; intros H; try congruence; try discriminate.
  - apply andb_prop in H. destruct H as [H1 H2]. apply Z.eqb_eq in H1. apply IH in H2. congruence.
  - inversion H; subst. rewrite Z.eqb_refl. cbn. now apply IH.
Qed.
Lemma contiguous_ok t : t_shape (contiguous t) = t_shape t /\ is_contiguous (contiguous t) = true /\
  t_conj (contiguous t) = t_conj t /\ forall ix, in_shape (t_shape t) ix -> t_at (contiguous t) ix = t_at t ix.
Proof.
  unfold contiguous. destruct (is_contiguous t) eqn:E.
  - repeat split; auto.
  - repeat split; cbn; auto.
    + unfold is_contiguous; cbn. now apply zlist_eqb_eq.
    + intros ix H. unfold t_at; cbn. rewrite unravel_ravel by exact H. reflexivity.
Qed.

(** * Conversion of one array *)
Lemma t2j_ok t : exists a, torch_tensor_to_jax_array t = Ok a /\ same_data t a.
Proof.
  unfold torch_tensor_to_jax_array.
  destruct (contiguous_ok t) as [H1 [H2 [H3 H4]]].
  set (u := contiguous t) in *.
  assert (G : let w := detach (resolve_conj u) in
     t_shape w = t_shape u /\ t_strides w = t_strides u /\ t_conj w = false /\ t_grad w = false /\
     forall ix, t_at w ix = t_at u ix).
  { cbn. unfold resolve_conj, t_at. destruct (t_conj u) eqn:Ec; cbn; rewrite ?Ec; repeat split; reflexivity. }
  destruct G as [G1 [G2 [G3 [G4 G5]]]]. set (w := detach (resolve_conj u)) in *.
  unfold from_dlpack. rewrite G3, G4. unfold is_contiguous in *. rewrite G1, G2, H2. cbn.
  eexists. split; [reflexivity|]. split; cbn.
  - now rewrite H1.
  - intros ix Hix. rewrite H1 in Hix. rewrite <- H4, <- G5 by exact Hix. unfold t_at. rewrite G3. try rewrite <- G2. reflexivity.
Qed.
Lemma j2t_ok a : same_data (jax_array_to_torch_tensor a) a /\ t_grad (jax_array_to_torch_tensor a) = false /\
  t_conj (jax_array_to_torch_tensor a) = false.
Proof.
  split; [|split; reflexivity].
  split; [reflexivity|]. intros ix H. unfold t_at; cbn. now rewrite unravel_ravel.
Qed.

(** * Trees *)
Section Tree.
  Variable P : pytree -> Prop.
  Hypothesis Hleaf : forall t, (forall l, t <> PList l) -> (forall l, t <> PTuple l) -> (forall d, t <> PDict d) -> P t.
  Hypothesis Hlist : forall l, Forall P l -> P (PList l).
  Hypothesis Htup : forall l, Forall P l -> P (PTuple l).
  Hypothesis Hdict : forall d, Forall (fun e => P (snd e)) d -> P (PDict d).
  Fixpoint pytree_ind' (t : pytree) : P t.
  Proof.
    destruct t as [a|x|a| |l|l|d]; try (apply Hleaf; discriminate).
    - apply Hlist. induction l as [|x l IH]; constructor; [apply pytree_ind'|exact IH].
    - apply Htup. induction l as [|x l IH]; constructor; [apply pytree_ind'|exact IH].
    - apply Hdict. induction d as [|[k x] d IH]; constructor; [apply pytree_ind'|exact IH].
  Defined.
End Tree.

Definition mapT (f : pytree -> result pytree) := fix mapT (l : list pytree) : result (list pytree) :=
  match l with [] => Ok [] | x :: l => let* y := tree_map f x in let* ys := mapT l in Ok (y :: ys) end.
Definition mapD (f : pytree -> result pytree) := fix mapD (d : list (string * pytree)) : result (list (string * pytree)) :=
  match d with [] => Ok [] | (k, x) :: d => let* y := tree_map f x in let* ys := mapD d in Ok ((k, y) :: ys) end.
Lemma tree_list f l : tree_map f (PList l) = let* l := mapT f l in Ok (PList l).
Proof. reflexivity. Qed.
Lemma tree_tuple f l : tree_map f (PTuple l) = let* l := mapT f l in Ok (PTuple l).
Proof. reflexivity. Qed.
Lemma tree_dict f d : tree_map f (PDict d) = let* d := mapD f d in Ok (PDict (sort_keys d)).
Proof. reflexivity. Qed.

Lemma mapT_spec f l l' : mapT f l = Ok l' <-> Forall2 (fun x y => tree_map f x = Ok y) l l'.
Proof.
  revert l'; induction l as [|x l IH]; intros l'; split; intros H.
  - cbn in H. inversion H; constructor.
  - inversion H; reflexivity.
  - cbn in H. destruct (tree_map f x) as [y|] eqn:E; [|discriminate]. cbn in H.
    destruct (mapT f l) as [ys|] eqn:E2; [|discriminate]. cbn in H. inversion H; subst. constructor; [exact E|]. now apply IH.
  - inversion H as [|? y ? ys H1 H2]; subst. cbn. rewrite H1. cbn. apply IH in H2. rewrite H2. reflexivity.
Qed.
Lemma mapD_spec f d d' : mapD f d = Ok d' <-> Forall2 (fun x y => fst x = fst y /\ tree_map f (snd x) = Ok (snd y)) d d'.
Proof.
  revert d'; induction d as [|[k x] d IH]; intros d'; split; intros H.
  - cbn in H. inversion H; constructor.
  - inversion H; reflexivity.
  - cbn in H. destruct (tree_map f x) as [y|] eqn:E; [|discriminate]. cbn in H.
    destruct (mapD f d) as [ys|] eqn:E2; [|discriminate]. cbn in H. inversion H; subst. constructor; [now split|]. now apply IH.
  - inversion H as [|? [k2 y] ? ys [H1 H1'] H2]; subst. cbn in *. rewrite H1'. cbn. apply IH in H2. rewrite H2. cbn. now subst.
Qed.
Lemma scmp_refl s : String.compare s s = Eq.
Proof. induction s as [|a s IH]; [reflexivity|]. cbn. unfold Ascii.compare. now rewrite N.compare_refl. Qed.
Definition findk {T} (d : list (string * T)) k := List.find (fun e => String.eqb (fst e) k) d.
Lemma findk_insert {T} k (v : T) d k' : findk (insert_key k v d) k' = if String.eqb k k' then Some (k, v) else findk d k'.
Proof.
  induction d as [|[k2 v2] d IH]; cbn; [now destruct (String.eqb k k')|].
  destruct (String.leb k k2) eqn:E.
  - cbn. now destruct (String.eqb k k').
  - cbn. destruct (String.eqb k2 k') eqn:E2.
    + destruct (String.eqb k k') eqn:E3; [|reflexivity].
      apply String.eqb_eq in E2, E3. subst.
      exfalso. unfold String.leb in E. rewrite scmp_refl in E. discriminate.
    + exact IH.
Qed.
Lemma findk_sort {T} (d : list (string * T)) k : findk (sort_keys d) k = findk d k.
Proof.
  induction d as [|[k2 v2] d IH]; [reflexivity|]. cbn [sort_keys]. rewrite findk_insert, IH. reflexivity.
Qed.
Lemma insert_length {T} k (v : T) d : List.length (insert_key k v d) = S (List.length d).
Proof. induction d as [|[k2 v2] d IH]; cbn; [reflexivity|]. destruct (String.leb k k2); cbn; auto. Qed.
Lemma sort_length {T} (d : list (string * T)) : List.length (sort_keys d) = List.length d.
Proof. induction d as [|[k2 v2] d IH]; cbn; [reflexivity|]. now rewrite insert_length, IH. Qed.
Lemma sort_eq (d : list (string * pytree)) k : List.find (fun e => String.eqb (fst e) k) (sort_keys d) = List.find (fun e => String.eqb (fst e) k) d.
Proof. exact (findk_sort d k). Qed.

Lemma Forall2_length {A B} (R : A -> B -> Prop) l l' : Forall2 R l l' -> List.length l = List.length l'.
Proof. induction 1; cbn; auto. Qed.
Lemma Forall2_nth {A B} (R : A -> B -> Prop) l l' : Forall2 R l l' -> forall n,
  match nth_error l n with Some x => exists y, nth_error l' n = Some y /\ R x y | None => nth_error l' n = None end.
Proof.
  induction 1 as [|x y l l' H1 H2 IH]; intros [|n]; cbn; auto.
  - exists y. auto.
  - apply IH.
Qed.
Lemma Forall2_find f (d d' : list (string * pytree)) : Forall2 (fun x y => fst x = fst y /\ tree_map f (snd x) = Ok (snd y)) d d' -> forall k,
  match List.find (fun e => String.eqb (fst e) k) d with
  | Some x => exists y, List.find (fun e => String.eqb (fst e) k) d' = Some y /\ tree_map f (snd x) = Ok (snd y)
  | None => List.find (fun e => String.eqb (fst e) k) d' = None end.
Proof.
  induction 1 as [|x y l l' [H1 H1'] H2 IH]; intros k; cbn; auto.
  rewrite <- H1. destruct (String.eqb (fst x) k); [exists y; auto|apply IH].
Qed.

Section TreeMap.
  Variable f : pytree -> result pytree.
  Lemma child_map t u s : (forall a, f (PArr a) <> Ok t -> True) -> tree_map f t = Ok u ->
    (forall x y, f x = Ok y -> forall s, child y s = None) ->
    match child t s with Some x => exists y, child u s = Some y /\ tree_map f x = Ok y | None => child u s = None end.
  Proof.
    intros _ H Hf.
    destruct t as [a|x|a| |l|l|d]; try (cbn in H; destruct s; cbn; eapply Hf; exact H).
    - inversion H; subst. destruct s; reflexivity.
    - rewrite tree_list in H. destruct (mapT f l) as [l'|] eqn:E; [|discriminate]. inversion H; subst.
      apply mapT_spec in E. destruct s as [n|k]; [|reflexivity]. cbn [child]. exact (Forall2_nth _ _ _ E n).
    - rewrite tree_tuple in H. destruct (mapT f l) as [l'|] eqn:E; [|discriminate]. inversion H; subst.
      apply mapT_spec in E. destruct s as [n|k]; [|reflexivity]. cbn [child]. exact (Forall2_nth _ _ _ E n).
    - rewrite tree_dict in H. destruct (mapD f d) as [d'|] eqn:E; [|discriminate]. inversion H; subst.
      apply mapD_spec in E. destruct s as [n|k]; [reflexivity|]. cbn [child].
      pose proof (Forall2_find _ _ _ E k) as G. rewrite sort_eq.
      destruct (List.find _ d) as [x|].
      + destruct G as [y [G1 G2]]. exists (snd y). rewrite G1. auto.
      + rewrite G. reflexivity.
  Qed.
  Lemma path_map t u p : tree_map f t = Ok u ->
    (forall x y, f x = Ok y -> forall s, child y s = None) ->
    match at_path t p with Some x => exists y, at_path u p = Some y /\ tree_map f x = Ok y | None => at_path u p = None end.
  Proof.
    intros H Hf. revert t u H. induction p as [|s p IH]; intros t u H; cbn [at_path].
    - exists u. auto.
    - pose proof (child_map t u s (fun _ _ => I) H Hf) as G.
      destruct (child t s) as [x|].
      + destruct G as [y [G1 G2]]. rewrite G1. apply IH. exact G2.
      + rewrite G. reflexivity.
  Qed.
  Lemma node_map (R : pytree -> pytree -> Prop) t u : tree_map f t = Ok u ->
    (forall x y, f x = Ok y -> R x y) -> same_node R t u.
  Proof.
    intros H HR. destruct t as [a|x|a| |l|l|d]; try (cbn; apply HR; exact H).
    - inversion H; reflexivity.
    - rewrite tree_list in H. destruct (mapT f l) as [l'|] eqn:E; [|discriminate]. inversion H; subst.
      apply mapT_spec in E. exists l'. split; [reflexivity|]. symmetry. eapply Forall2_length. exact E.
    - rewrite tree_tuple in H. destruct (mapT f l) as [l'|] eqn:E; [|discriminate]. inversion H; subst.
      apply mapT_spec in E. exists l'. split; [reflexivity|]. symmetry. eapply Forall2_length. exact E.
    - rewrite tree_dict in H. destruct (mapD f d) as [d'|] eqn:E; [|discriminate]. inversion H; subst.
      apply mapD_spec in E. exists (sort_keys d'). split; [reflexivity|]. rewrite sort_length. symmetry. eapply Forall2_length. exact E.
  Qed.
  Lemma tree_total t : (forall x, exists y, f x = Ok y) -> exists u, tree_map f t = Ok u.
  Proof.
    intros Hf. induction t as [t H1 H2 H3|l H|l H|d H] using pytree_ind'.
    - destruct t as [a|x|a| |l|l|d]; try (apply (Hf _)); try solve [destruct (H1 _ eq_refl) | destruct (H2 _ eq_refl) | destruct (H3 _ eq_refl)].
      exists PNone. reflexivity.
    - rewrite tree_list. assert (G : exists l', mapT f l = Ok l').
      { induction H as [|x l [y Hy] _ [l' IH]]; [exists []; reflexivity|]. cbn. rewrite Hy, IH. cbn. eauto. }
      destruct G as [l' G]. rewrite G. cbn. eauto.
    - rewrite tree_tuple. assert (G : exists l', mapT f l = Ok l').
      { induction H as [|x l [y Hy] _ [l' IH]]; [exists []; reflexivity|]. cbn. rewrite Hy, IH. cbn. eauto. }
      destruct G as [l' G]. rewrite G. cbn. eauto.
    - rewrite tree_dict. assert (G : exists l', mapD f d = Ok l').
      { induction H as [|[k x] l [y Hy] _ [l' IH]]; [exists []; reflexivity|]. cbn in *. rewrite Hy, IH. cbn. eauto. }
      destruct G as [l' G]. rewrite G. cbn. eauto.
  Qed.
End TreeMap.

(** For a leaf function that is only applied to leaves the results on other nodes do not matter. *)
Definition leafy (t : pytree) : Prop := match t with PArr _ | PTen _ | PAtom _ => True | _ => False end.
Lemma tree_ext f g t : (forall x, leafy x -> f x = g x) -> tree_map f t = tree_map g t.
Proof.
  intros Hf. induction t as [t H1 H2 H3|l H|l H|d H] using pytree_ind'.
  - destruct t as [a|x|a| |l|l|d]; try (apply Hf; exact I); try solve [destruct (H1 _ eq_refl) | destruct (H2 _ eq_refl) | destruct (H3 _ eq_refl)]. reflexivity.
  - rewrite !tree_list. f_equal. induction H as [|x l Hx _ IH]; [reflexivity|]. cbn. now rewrite Hx, IH.
  - rewrite !tree_tuple. f_equal. induction H as [|x l Hx _ IH]; [reflexivity|]. cbn. now rewrite Hx, IH.
  - rewrite !tree_dict. f_equal. induction H as [|[k x] l Hx _ IH]; [reflexivity|]. cbn in *. now rewrite Hx, IH.
Qed.

Lemma tree_j2t t : exists u, tree_map_jax_array_to_torch_tensor t = Ok u /\ converted to_torch t u.
Proof.
  set (g := fun t => match t with PArr a => Ok (PTen (jax_array_to_torch_tensor a)) | PTen _ | PAtom _ => Ok t | _ => Ok PNone end).
  unfold tree_map_jax_array_to_torch_tensor.
  rewrite (tree_ext _ g) by (intros [] H; try contradiction; reflexivity).
  destruct (tree_total g t) as [u Hu]. { intros []; cbn; eauto. }
  exists u. split; [exact Hu|]. intros p.
  pose proof (path_map g t u p Hu) as G.
  assert (Hg : forall x y, g x = Ok y -> forall s, child y s = None).
  { intros [] y H s; cbn in H; inversion H; destruct s; reflexivity. }
  specialize (G Hg). destruct (at_path t p) as [x|]; [|exact G].
  destruct G as [y [G1 G2]]. exists y. split; [exact G1|].
  destruct x as [a|x|a| |l|l|d]; try (exact (node_map g (fun _ _ => True) _ _ G2 (fun _ _ _ => I))).
  - cbn in G2. inversion G2; subst. cbn. eexists. split; [reflexivity|]. destruct (j2t_ok a) as [J1 [J2 J3]]. auto.
  - cbn in G2. inversion G2; subst. reflexivity.
  - cbn in G2. inversion G2; subst. reflexivity.
Qed.
Lemma tree_t2j t : exists u, tree_map_torch_tensor_to_jax_array t = Ok u /\ converted to_jax t u.
Proof.
  set (g := fun t => match t with PTen x => let* a := torch_tensor_to_jax_array x in Ok (PArr a) | PArr _ | PAtom _ => Ok t | _ => Ok PNone end).
  unfold tree_map_torch_tensor_to_jax_array.
  rewrite (tree_ext _ g) by (intros [] H; try contradiction; reflexivity).
  destruct (tree_total g t) as [u Hu]. { intros []; cbn; eauto. destruct (t2j_ok t0) as [a [H _]]. rewrite H. cbn. eauto. }
  exists u. split; [exact Hu|]. intros p.
  pose proof (path_map g t u p Hu) as G.
  assert (Hg : forall x y, g x = Ok y -> forall s, child y s = None).
  { intros [] y H s; cbn in H; try (inversion H; destruct s; reflexivity).
    destruct (t2j_ok t0) as [a [E _]]. rewrite E in H. cbn in H. inversion H; destruct s; reflexivity. }
  specialize (G Hg). destruct (at_path t p) as [x|]; [|exact G].
  destruct G as [y [G1 G2]]. exists y. split; [exact G1|].
  destruct x as [a|x|a| |l|l|d]; try (exact (node_map g (fun _ _ => True) _ _ G2 (fun _ _ _ => I))).
  - cbn in G2. inversion G2; subst. reflexivity.
  - cbn in G2. destruct (t2j_ok x) as [a [E Ha]]. rewrite E in G2. cbn in G2. inversion G2; subst. cbn. eauto.
  - cbn in G2. inversion G2; subst. reflexivity.
Qed.

(** * Calls *)
Lemma lookup_none {T} (d : list (string * T)) k : lookup d k = None <-> ~ In k (map fst d).
Proof.
  induction d as [|[k2 v] d IH]; cbn; [tauto|]. destruct (String.eqb k2 k) eqn:E.
  - apply String.eqb_eq in E. split; [discriminate|tauto].
  - apply String.eqb_neq in E. tauto.
Qed.
Lemma lookup_in {T} (d : list (string * T)) k v : lookup d k = Some v -> In (k, v) d.
Proof.
  induction d as [|[k2 v2] d IH]; cbn; [discriminate|]. destruct (String.eqb k2 k) eqn:E; intros H.
  - apply String.eqb_eq in E. left. congruence.
  - right. auto.
Qed.
Lemma in_lookup {T} (d : list (string * T)) k v : NoDup (map fst d) -> In (k, v) d -> lookup d k = Some v.
Proof.
  induction d as [|[k2 v2] d IH]; cbn; [tauto|]. intros H [E|H2]; inversion H as [|? ? N1 N2]; subst.
  - inversion E; subst. now rewrite String.eqb_refl.
  - destruct (String.eqb k2 k) eqn:E; [|auto]. apply String.eqb_eq in E. subst. exfalso. apply N1. apply in_map_iff. exists (k, v). auto.
Qed.
Lemma remove_in {T} (d : list (string * T)) k k' v : In (k', v) (remove_key d k) <-> In (k', v) d /\ k' <> k.
Proof.
  induction d as [|[k2 v2] d IH]; cbn; [tauto|]. destruct (String.eqb k2 k) eqn:E.
  - apply String.eqb_eq in E. subst. rewrite IH. split; [tauto|]. intros [[H|H] G]; [inversion H; congruence|tauto].
  - apply String.eqb_neq in E. cbn. rewrite IH. split; [|tauto]. intros [H|H]; [inversion H; subst; auto|tauto].
Qed.
Lemma remove_keys {T} (d : list (string * T)) k k' : In k' (map fst (remove_key d k)) <-> In k' (map fst d) /\ k' <> k.
Proof.
  rewrite !in_map_iff. split.
  - intros [[a v] [H1 H2]]. cbn in H1. subst a. apply remove_in in H2. split; [exists (k', v)|]; tauto.
  - intros [[[a v] [H1 H2]] H3]. cbn in H1. subst a. exists (k', v). split; [reflexivity|]. now apply remove_in.
Qed.
Lemma remove_nodup {T} (d : list (string * T)) k : NoDup (map fst d) -> NoDup (map fst (remove_key d k)).
Proof.
  induction d as [|[k2 v2] d IH]; cbn; [auto|]. intros H. inversion H as [|? ? N1 N2]; subst.
  destruct (String.eqb k2 k); [auto|]. cbn. constructor; [|auto]. rewrite remove_keys. tauto.
Qed.

Lemma binds_cons_inv p sig args kw v vals : binds (p :: sig) args kw (v :: vals) -> value_for p 0 args kw v.
Proof. intros [_ [_ [_ H]]]. exact (H 0%nat p v eq_refl eq_refl). Qed.

Lemma bind_correct sig : forall args kw, NoDup (map p_name sig) -> NoDup (map fst kw) ->
  match bind_args sig args kw with
  | Ok r => exists vals, r = combine (map p_name sig) vals /\ binds sig args kw vals
  | Err e => e = TypeError /\ forall vals, ~ binds sig args kw vals
  end.
Proof.
  induction sig as [|p sig IH]; intros args kw Hs Hk.
  - cbn. destruct args as [|a args].
    + destruct kw as [|[k v] kw].
      * exists []. split; [reflexivity|]. repeat split; cbn; auto. intros [|i] ? ? H; discriminate H.
      * split; [reflexivity|]. intros vals [_ [_ [H _]]]. apply (H k). cbn. auto.
    + split; [reflexivity|]. intros vals [H _]. cbn in H. lia.
  - cbn in Hs. inversion Hs as [|? ? Hp Hs']; subst.
    destruct args as [|a args]; cbn [bind_args].
    + destruct (lookup kw (p_name p)) as [v|] eqn:El.
      * pose proof (lookup_in _ _ _ El) as Hin.
        specialize (IH [] (remove_key kw (p_name p)) Hs' (remove_nodup _ _ Hk)).
        destruct (bind_args sig [] (remove_key kw (p_name p))) as [r|e]; cbn.
        -- destruct IH as [vals [-> [B1 [B2 [B3 B4]]]]]. exists (v :: vals). split; [reflexivity|].
           repeat split; cbn; try lia.
           ++ intros k Hkk. destruct (String.eqb_spec (p_name p) k) as [->|Hne]; [auto|]. right. apply B3. apply remove_keys. auto.
           ++ intros [|i] q w; cbn; intros H1 H2.
              { inversion H1; inversion H2; subst. left. exact Hin. }
              { assert (Hne : p_name q <> p_name p).
                { intros E. apply Hp. rewrite <- E. apply in_map. eapply nth_error_In. exact H1. }
                specialize (B4 i q w H1 H2). unfold value_for in *. cbn [nth_error]. rewrite (proj2 (nth_error_None (@nil pytree) i)) in B4 by (cbn; lia).
                destruct B4 as [B4|[B4 B5]]; [left; now apply remove_in in B4|].
                right. split; [|exact B5]. intros G. apply B4. apply remove_keys. auto. }
        -- destruct IH as [-> IH]. split; [reflexivity|]. intros [|w vals] B; [destruct B as [_ [B _]]; discriminate B|].
           apply (IH vals). destruct B as [B1 [B2 [B3 B4]]]. repeat split; cbn in *; try lia.
           ++ intros k G. apply remove_keys in G. destruct G as [G1 G2]. destruct (B3 k G1) as [E|E]; [congruence|exact E].
           ++ intros i q w' H1 H2. specialize (B4 (S i) q w' H1 H2). unfold value_for in *. cbn in B4. rewrite (proj2 (nth_error_None (@nil pytree) i)) by (cbn; lia).
              assert (Hne : p_name q <> p_name p).
              { intros E. apply Hp. rewrite <- E. apply in_map. eapply nth_error_In. exact H1. }
              destruct B4 as [B4|[B4 B5]]; [left; now apply remove_in|]. right. split; [|exact B5]. rewrite remove_keys. tauto.
      * apply lookup_none in El. destruct (p_default p) as [v|] eqn:Ed.
        -- specialize (IH [] kw Hs' Hk). destruct (bind_args sig [] kw) as [r|e]; cbn.
           ++ destruct IH as [vals [-> [B1 [B2 [B3 B4]]]]]. exists (v :: vals). split; [reflexivity|].
              repeat split; cbn; try lia.
              ** intros k Hkk. right. auto.
              ** intros [|i] q w; cbn; intros H1 H2.
                 { inversion H1; inversion H2; subst. right. auto. }
                 { specialize (B4 i q w H1 H2). unfold value_for in *. destruct i; exact B4. }
           ++ destruct IH as [-> IH]. split; [reflexivity|]. intros [|w vals] B; [destruct B as [_ [B _]]; discriminate B|].
              apply (IH vals). destruct B as [B1 [B2 [B3 B4]]]. repeat split; cbn in *; try lia.
              ** intros k G. destruct (B3 k G) as [E|E]; [congruence|exact E].
              ** intros i q w' H1 H2. specialize (B4 (S i) q w' H1 H2). unfold value_for in *. destruct i; exact B4.
        -- split; [reflexivity|]. intros [|w vals] B; [destruct B as [_ [B _]]; discriminate B|].
           apply binds_cons_inv in B. unfold value_for in B. cbn in B. destruct B as [B|[_ B]]; [|congruence].
           apply El. apply in_map_iff. eexists. split; [|exact B]. reflexivity.
    + destruct (lookup kw (p_name p)) as [v|] eqn:El.
      * split; [reflexivity|]. intros [|w vals] B; [destruct B as [_ [B _]]; discriminate B|].
        apply binds_cons_inv in B. cbn in B. destruct B as [_ B]. apply lookup_none in B. congruence.
      * apply lookup_none in El. specialize (IH args kw Hs' Hk). destruct (bind_args sig args kw) as [r|e]; cbn.
        -- destruct IH as [vals [-> [B1 [B2 [B3 B4]]]]]. exists (a :: vals). split; [reflexivity|].
           repeat split; cbn; try lia.
           ++ intros k Hkk. right. auto.
           ++ intros [|i] q w; cbn; intros H1 H2; [|exact (B4 i q w H1 H2)].
              inversion H1; inversion H2; subst. unfold value_for. cbn. auto.
        -- destruct IH as [-> IH]. split; [reflexivity|]. intros [|w vals] B; [destruct B as [_ [B _]]; discriminate B|].
           apply (IH vals). destruct B as [B1 [B2 [B3 B4]]]. repeat split; cbn in *; try lia.
           ++ intros k G. destruct (B3 k G) as [E|E]; [congruence|exact E].
           ++ intros i q w' H1 H2. exact (B4 (S i) q w' H1 H2).
Qed.
Lemma binds_fun sig args kw v1 v2 : NoDup (map fst kw) -> binds sig args kw v1 -> binds sig args kw v2 -> v1 = v2.
Proof.
  intros Hk [_ [A1 [_ A2]]] [_ [B1 [_ B2]]].
  assert (L : List.length v1 = List.length v2) by congruence.
  apply (nth_ext _ _ PNone PNone L). intros n Hn.
  destruct (nth_error sig n) as [p|] eqn:Ep.
  2:{ apply nth_error_None in Ep. lia. }
  specialize (A2 n p (nth n v1 PNone) Ep (nth_error_nth' _ _ Hn)).
  rewrite L in Hn. specialize (B2 n p (nth n v2 PNone) Ep (nth_error_nth' _ _ Hn)).
  unfold value_for in *. destruct (nth_error args n) as [a|]; [destruct A2, B2; congruence|].
  assert (HIn : forall v, In (p_name p, v) kw -> In (p_name p) (map fst kw)).
  { intros v H. apply in_map_iff. exists (p_name p, v). auto. }
  destruct A2 as [A2|[A2 A3]], B2 as [B2|[B2 B3]].
  - apply in_lookup in A2, B2; auto. congruence.
  - destruct B2. eauto.
  - destruct A2. eauto.
  - congruence.
Qed.

Lemma set_keys_map {T} (F : string -> T) names (d : list (string * T)) :
  set_keys d names (map F names) = map (fun e => if existsb (String.eqb (fst e)) names then (fst e, F (fst e)) else e) d.
Proof.
  revert d; induction names as [|n names IH]; intros d; cbn.
  - symmetry. rewrite <- (map_id d) at 2. apply map_ext. now intros.
  - rewrite IH. unfold set_key. rewrite map_map. apply map_ext. intros [k v]. cbn.
    destruct (String.eqb k n) eqn:E; cbn [fst orb].
    + apply String.eqb_eq in E. subst k. now destruct (existsb (String.eqb n) names).
    + reflexivity.
Qed.
Lemma pick_map {T} (dflt : T) (d : list (string * T)) names : (forall n, In n names -> In n (map fst d)) ->
  pick d names = Ok (map (fun n => match lookup d n with Some v => v | None => dflt end) names).
Proof.
  induction names as [|n names IH]; intros H; [reflexivity|]. cbn.
  destruct (lookup d n) eqn:E.
  - rewrite IH by (intros; apply H; now right). reflexivity.
  - apply lookup_none in E. destruct E. apply H. now left.
Qed.
Lemma mapT_total f (F : pytree -> pytree) l : (forall x, tree_map f x = Ok (F x)) -> mapT f l = Ok (map F l).
Proof. intros H. induction l as [|x l IH]; [reflexivity|]. cbn. now rewrite H, IH. Qed.
Definition to_j (t : pytree) : pytree := match tree_map_torch_tensor_to_jax_array t with Ok u => u | Err _ => PNone end.
Lemma to_j_ok t : tree_map_torch_tensor_to_jax_array t = Ok (to_j t) /\ converted to_jax t (to_j t).
Proof. destruct (tree_t2j t) as [u [H1 H2]]. unfold to_j. rewrite H1. auto. Qed.

Lemma combine_nth_in {T} (l : list string) (v : list T) i k : nth_error l i = Some k -> List.length v = List.length l ->
  NoDup l -> lookup (combine l v) k = nth_error v i.
Proof.
  revert v i; induction l as [|x l IH]; intros [|y v] [|i]; cbn; intros H1 H2 H3; try discriminate.
  - inversion H1; subst. now rewrite String.eqb_refl.
  - inversion H3 as [|? ? N1 N2]; subst. destruct (String.eqb x k) eqn:E.
    + apply String.eqb_eq in E. subst. destruct N1. eapply nth_error_In. exact H1.
    + apply IH; auto.
Qed.
Lemma map_fst_combine {A B} (l : list A) (v : list B) : List.length v = List.length l -> map fst (combine l v) = l.
Proof. revert v; induction l as [|x l IH]; intros [|y v]; cbn; intros H; try discriminate; auto. now rewrite IH by lia. Qed.

Lemma nth_error_combine {A B} (l : list A) (v : list B) i a b : nth_error l i = Some a -> nth_error v i = Some b -> nth_error (combine l v) i = Some (a, b).
Proof. revert v i; induction l as [|x l IH]; intros [|y v] [|i]; cbn; intros H1 H2; try discriminate; [congruence|auto]. Qed.

Lemma forward_ok sig names jf args kw vals :
  NoDup (map p_name sig) -> NoDup (map fst kw) -> (forall n, In n names -> In n (map p_name sig)) ->
  binds sig args kw vals ->
  exists jvals, List.length jvals = List.length vals /\
    (forall i p v w, nth_error sig i = Some p -> nth_error vals i = Some v -> nth_error jvals i = Some w ->
      (In (p_name p) names -> converted to_jax v w) /\ (~ In (p_name p) names -> w = v)) /\
    (forall e, jf jvals = Err e -> torch_forward true sig names jf args kw = Err e) /\
    (forall out, jf jvals = Ok out -> exists out', torch_forward true sig names jf args kw = Ok out' /\ converted to_torch out out').
Proof.
  intros Hs Hk Hn B.
  assert (HB : bind_args sig args kw = Ok (combine (map p_name sig) vals)).
  { pose proof (bind_correct sig args kw Hs Hk) as G. destruct (bind_args sig args kw) as [r|e].
    - destruct G as [v [-> G]]. now rewrite (binds_fun _ _ _ _ _ Hk G B).
    - destruct G as [_ G]. destruct (G _ B). }
  destruct B as [_ [Bl _]].
  set (ba := combine (map p_name sig) vals) in *.
  assert (Hfst : map fst ba = map p_name sig). { apply map_fst_combine. now rewrite map_length. }
  set (F := fun n => to_j (match lookup ba n with Some v => v | None => PNone end)).
  set (ba' := map (fun e : string * pytree => if existsb (String.eqb (fst e)) names then (fst e, F (fst e)) else e) ba).
  exists (map snd ba').
  assert (Hlen : List.length ba = List.length vals).
  { unfold ba. rewrite combine_length, map_length. lia. }
  assert (Hfw : torch_forward true sig names jf args kw = let* out := jf (map snd ba') in tree_map_jax_array_to_torch_tensor out).
  { unfold torch_forward. cbn [negb]. rewrite HB. cbn [bind].
    rewrite (pick_map PNone) by (rewrite Hfst; exact Hn). cbn [bind].
    unfold tree_map_torch_tensor_to_jax_array. rewrite tree_tuple.
    rewrite (mapT_total _ to_j) by (intros x; apply (to_j_ok x)). cbn.
    rewrite map_map. rewrite (set_keys_map F). reflexivity. }
  split; [|split; [|split]].
  - unfold ba'. now rewrite !map_length.
  - intros i p v w Hp Hv Hw.
    assert (Hi : nth_error ba i = Some (p_name p, v)).
    { apply nth_error_combine; [|exact Hv]. now apply map_nth_error. }
    assert (Hl : lookup ba (p_name p) = Some v).
    { unfold ba. rewrite (combine_nth_in _ _ i); [exact Hv| |now rewrite map_length|exact Hs]. now apply map_nth_error. }
    pose proof (map_nth_error (fun e : string * pytree => if existsb (String.eqb (fst e)) names then (fst e, F (fst e)) else e) _ _ Hi) as Hi'.
    apply (map_nth_error snd) in Hi'. unfold ba' in Hw. rewrite Hi' in Hw. cbn in Hw. inversion Hw; subst w.
    destruct (existsb (String.eqb (p_name p)) names) eqn:E.
    + split.
      * intros _. cbn. unfold F. rewrite Hl. apply to_j_ok.
      * intros H. destruct H. apply existsb_exists in E. destruct E as [x [E1 E2]]. apply String.eqb_eq in E2. now subst.
    + split; [|reflexivity]. intros H. exfalso.
      assert (G : existsb (String.eqb (p_name p)) names = true) by (apply existsb_exists; exists (p_name p); split; [exact H|apply String.eqb_refl]).
      congruence.
  - intros e He. rewrite Hfw, He. reflexivity.
  - intros out Ho. rewrite Hfw, Ho. cbn. apply tree_j2t.
Qed.
Lemma argnames_ok sig names : (forall n, In n names -> In n (map p_name sig)) -> argnames sig (Some names) = Ok names.
Proof.
  intros H. unfold argnames.
  assert (E : forallb (fun n => existsb (fun p => String.eqb (p_name p) n) sig) names = true).
  { apply forallb_forall. intros n Hn. apply existsb_exists. specialize (H n Hn). apply in_map_iff in H. destruct H as [p [H1 H2]].
    exists p. split; [exact H2|]. subst. apply String.eqb_refl. }
  now rewrite E.
Qed.
Lemma argnames_default sig : argnames sig None = Ok (map p_name (filter p_array sig)).
Proof.
  refine (argnames_ok sig (map p_name (filter p_array sig)) _).
  intros n H. apply in_map_iff in H. destruct H as [p [H1 H2]]. apply filter_In in H2. subst. now apply in_map.
Qed.
Lemma argnames_bad sig names n : In n names -> ~ In n (map p_name sig) -> argnames sig (Some names) = Err ValueError.
Proof.
  intros H1 H2. unfold argnames. destruct (forallb _ names) eqn:E; [|reflexivity].
  exfalso. rewrite forallb_forall in E. specialize (E n H1). apply existsb_exists in E. destruct E as [p [E1 E2]].
  apply H2. apply String.eqb_eq in E2. subst. now apply in_map.
Qed.

(** * Backward pass *)
Lemma indices_in sh ix : In ix (indices sh) <-> in_shape sh ix.
Proof.
  revert ix; induction sh as [|n sh IH]; intros ix; cbn.
  - destruct ix; cbn; [tauto|]. split; [intros [H|[]]; discriminate|tauto].
  - rewrite in_flat_map. split.
    + intros [i [H1 H2]]. apply in_map_iff in H2. destruct H2 as [ix' [<- H2]]. apply in_zrange in H1. apply IH in H2. cbn. tauto.
    + destruct ix as [|i ix]; [cbn; tauto|]. cbn. intros [H1 H2]. exists i. split; [now apply in_zrange|].
      apply in_map_iff. exists ix. split; [reflexivity|]. now apply IH.
Qed.
Lemma t_at_conj x ix : t_at (conj_tensor x) ix = Cconj (t_at x ix).
Proof. unfold t_at, conj_tensor; cbn. destruct (t_conj x); cbn; [now rewrite Cconj_conj|reflexivity]. Qed.

(** the gradient with respect to entry [k] of an argument *)
Definition grad_at (go : tensor) (out : list Z) (J : jacobian) (i : nat) (k : list Z) : C :=
  (rsum (indices out) (fun j => Re (Cconj (t_at go j) * d_re J i j k)%C),
   rsum (indices out) (fun j => Re (Cconj (t_at go j) * d_im J i j k)%C)).
Lemma combine_seq {A B} (h : nat -> A -> B) (d : A) (l : list A) s :
  map (fun p => h (fst p) (snd p)) (combine (seq s (List.length l)) l) = map (fun i => h i (nth (i - s) l d)) (seq s (List.length l)).
Proof.
  revert s; induction l as [|x l IH]; intros s; [reflexivity|]. cbn [List.length seq combine map fst snd].
  rewrite IH. rewrite Nat.sub_diag. cbn [nth]. f_equal. apply map_ext_in. intros i Hi. apply in_seq in Hi.
  replace (i - s)%nat with (S (i - S s)) by lia. reflexivity.
Qed.
Lemma in_combine_seq {A} (d : A) (l : list A) s p : In p (combine (seq s (List.length l)) l) ->
  (s <= fst p < s + List.length l)%nat /\ snd p = nth (fst p - s) l d.
Proof.
  revert s; induction l as [|x l IH]; intros s H; [destruct H|]. cbn in H. destruct H as [<-|H].
  - cbn [fst snd List.length]. rewrite Nat.sub_diag. split; [lia|reflexivity].
  - destruct (IH (S s) H) as [H1 H2]. split; [cbn [List.length]; lia|]. rewrite H2.
    replace (fst p - s)%nat with (S (fst p - S s)) by lia. reflexivity.
Qed.

Lemma backward_ok J out ins go : t_shape go = out ->
  exists g : nat -> tensor,
    torch_backward (jax_vjp J out ins) [PTen go] = Ok (PTuple (map (fun i => PTen (g i)) (seq 0 (List.length ins)))) /\
    forall p, In p (combine (seq 0 (List.length ins)) ins) -> t_shape (g (fst p)) = snd p /\
      forall k, in_shape (snd p) k -> t_at (g (fst p)) k = grad_at go out J (fst p) k.
Proof.
  intros Hs.
  destruct (t2j_ok (conj_tensor go)) as [ct [E [Es Ec]]].
  set (A := fun (i : nat) (sh : list Z) => mkArr sh (fun k =>
        (rsum (indices out) (fun j => Re (get ct j) * Re (d_re J i j k) - Im (get ct j) * Im (d_re J i j k))%R,
         (- rsum (indices out) (fun j => Re (get ct j) * Re (d_im J i j k) - Im (get ct j) * Im (d_im J i j k)))%R))).
  exists (fun i => conj_tensor (jax_array_to_torch_tensor (A i (nth (i - 0) ins [])))).
  split.
  - unfold torch_backward. cbn [tree_map bind].
    unfold tree_map_torch_tensor_to_jax_array. cbn [tree_map bind]. rewrite E. cbn [bind].
    unfold jax_vjp. cbn [bind].
    unfold tree_map_jax_array_to_torch_tensor. rewrite tree_tuple.
    rewrite (combine_seq (fun i sh => PArr (A i sh)) []).
    set (l := seq 0 (List.length ins)). clearbody l.
    assert (G1 : mapT (fun t => match t with PArr a => Ok (PTen (jax_array_to_torch_tensor a)) | _ => Ok t end) (map (fun i => PArr (A i (nth (i - 0) ins []))) l)
       = Ok (map (fun i => PTen (jax_array_to_torch_tensor (A i (nth (i - 0) ins [])))) l)).
    { induction l as [|x l IH]; [reflexivity|]. cbn [map mapT tree_map bind]. rewrite IH. reflexivity. }
    rewrite G1. cbn [bind]. rewrite tree_tuple.
    match goal with |- context [mapT ?f _] => assert (G2 : mapT f (map (fun i => PTen (jax_array_to_torch_tensor (A i (nth (i - 0) ins [])))) l)
       = Ok (map (fun i => PTen (conj_tensor (jax_array_to_torch_tensor (A i (nth (i - 0) ins []))))) l)) end.
    { clear G1. induction l as [|x l IH]; [reflexivity|]. cbn [map mapT tree_map bind]. rewrite IH. reflexivity. }
    rewrite G2. reflexivity.
  - intros p Hp. destruct (in_combine_seq [] _ _ _ Hp) as [_ Hsnd].
    split; [cbn; now rewrite <- Hsnd|]. intros k Hk. rewrite <- Hsnd. rewrite t_at_conj.
    destruct (j2t_ok (A (fst p) (snd p))) as [[_ G] _]. rewrite G by exact Hk.
    assert (Hct : forall j, In j (indices out) -> get ct j = Cconj (t_at go j)).
    { intros j Hj. apply indices_in in Hj. rewrite <- Ec, t_at_conj; [reflexivity|]. rewrite <- Es. cbn. now rewrite Hs. }
    unfold A, grad_at. cbn [get]. unfold Cconj at 1. cbn [fst snd].
    apply C_eq; cbn [fst snd Re Im].
    + apply rs_ext. intros j Hj. rewrite (Hct j Hj). reflexivity.
    + rewrite Ropp_involutive. apply rs_ext. intros j Hj. rewrite (Hct j Hj). reflexivity.
Qed.
Lemma pair_term (go d1 d2 v : C) : Re (Cconj go * (RtoC (Re v) * d1 + RtoC (Im v) * d2))%C = (Re v * Re (Cconj go * d1)%C + Im v * Re (Cconj go * d2)%C)%R.
Proof. destruct go, d1, d2, v. cbn. ring. Qed.
Lemma pair_grad (x y : R) (v : C) : Re (Cconj (x, y) * v)%C = (Re v * x + Im v * y)%R.
Proof. destruct v. cbn. ring. Qed.
Lemma adjoint_ok J out ins go v :
  rsum (combine (seq 0 (List.length ins)) ins) (fun p => pairing (snd p) (grad_at go out J (fst p)) (v (fst p)))
  = pairing out (t_at go) (derivative J ins v).
Proof.
  unfold pairing, derivative, grad_at.
  transitivity (rsum (combine (seq 0 (List.length ins)) ins) (fun p => rsum (indices (snd p)) (fun k => rsum (indices out) (fun j =>
    Re (Cconj (t_at go j) * (RtoC (Re (v (fst p) k)) * d_re J (fst p) j k + RtoC (Im (v (fst p) k)) * d_im J (fst p) j k))%C)))).
  - apply rs_ext. intros p _. apply rs_ext. intros k _. rewrite pair_grad.
    rewrite <- !rs_scal_l, <- rs_plus. apply rs_ext. intros j _. now rewrite pair_term.
  - transitivity (rsum (combine (seq 0 (List.length ins)) ins) (fun p => rsum (indices out) (fun j => rsum (indices (snd p)) (fun k =>
      Re (Cconj (t_at go j) * (RtoC (Re (v (fst p) k)) * d_re J (fst p) j k + RtoC (Im (v (fst p) k)) * d_im J (fst p) j k))%C)))).
    { apply rs_ext. intros p _. apply rs_swap. }
    rewrite rs_swap. apply rs_ext. intros j _.
    rewrite <- cs_scal_l, Re_csum. apply rs_ext. intros p _. rewrite <- cs_scal_l, Re_csum. reflexivity.
Qed.
Lemma pairing_ext sh g g' v : (forall k, in_shape sh k -> g k = g' k) -> pairing sh g v = pairing sh g' v.
Proof. intros H. unfold pairing. apply rs_ext. intros k Hk. apply indices_in in Hk. now rewrite H. Qed.
(** a complex-linear function: the gradient is the conjugate transpose applied to the output gradient *)
Lemma linear_grad (M : nat -> list Z -> list Z -> C) go out i k :
  grad_at go out (mkJac M (fun i j k => Ci * M i j k)%C) i k = csum (indices out) (fun j => Cconj (M i j k) * t_at go j)%C.
Proof.
  unfold grad_at. cbn [d_re d_im]. apply C_eq; cbn [fst snd].
  - change (fst (csum (indices out) (fun j => Cconj (M i j k) * t_at go j)%C)) with (Re (csum (indices out) (fun j => Cconj (M i j k) * t_at go j)%C)).
    rewrite Re_csum. apply rs_ext. intros j _. destruct (M i j k), (t_at go j). cbn. ring.
  - change (snd (csum (indices out) (fun j => Cconj (M i j k) * t_at go j)%C)) with (Im (csum (indices out) (fun j => Cconj (M i j k) * t_at go j)%C)).
    rewrite Im_csum. apply rs_ext. intros j _. destruct (M i j k), (t_at go j). cbn. ring.
Qed.
Lemma backward_tuple vjp_J out ins g1 g2 : torch_backward (jax_vjp vjp_J out ins) [PTen g1; PTen g2] = Err TypeError.
Proof.
  unfold torch_backward. cbn [tree_map bind]. unfold tree_map_torch_tensor_to_jax_array. cbn [tree_map bind].
  destruct (t2j_ok (conj_tensor g1)) as [a1 [E1 _]]. destruct (t2j_ok (conj_tensor g2)) as [a2 [E2 _]].
  rewrite E1, E2. reflexivity.
Qed.
Lemma bind_ok sig args kw vals : NoDup (map p_name sig) -> NoDup (map fst kw) -> binds sig args kw vals ->
  bind_args sig args kw = Ok (combine (map p_name sig) vals).
Proof.
  intros Hs Hk B. pose proof (bind_correct sig args kw Hs Hk) as G. destruct (bind_args sig args kw) as [r|e].
  - destruct G as [v [-> G]]. now rewrite (binds_fun _ _ _ _ _ Hk G B).
  - destruct G as [_ G]. destruct (G _ B).
Qed.
Lemma call_style sig names jf args kw args' kw' vals : NoDup (map p_name sig) -> NoDup (map fst kw) -> NoDup (map fst kw') ->
  binds sig args kw vals -> binds sig args' kw' vals ->
  torch_call true sig names jf args kw = torch_call true sig names jf args' kw'.
Proof.
  intros Hs Hk Hk' B B'. unfold torch_call, torch_forward. now rewrite (bind_ok _ _ _ _ Hs Hk B), (bind_ok _ _ _ _ Hs Hk' B').
Qed.
Lemma call_rejects sig names jf args kw : NoDup (map p_name sig) -> NoDup (map fst kw) ->
  (forall n, In n names -> In n (map p_name sig)) ->
  (forall vals, ~ binds sig args kw vals) -> torch_call true sig (Some names) jf args kw = Err TypeError.
Proof.
  intros Hs Hk Hn B. unfold torch_call. rewrite argnames_ok by exact Hn. cbn [bind]. unfold torch_forward. cbn [negb].
  pose proof (bind_correct sig args kw Hs Hk) as G. destruct (bind_args sig args kw) as [r|e].
  - destruct G as [v [_ G]]. destruct (B _ G).
  - destruct G as [-> _]. reflexivity.
Qed.
