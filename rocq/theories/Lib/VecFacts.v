(** Facts about one-dimensional arrays. *)
From Coq Require Import ZifyBool.
From Verif Require Export Lib.Vec Lib.PyFacts.
Open Scope Z_scope.
Set Default Proof Using "Type".

Lemma vread_in {A} (v : vec A) i : 0 <= i < vlen v -> vread v i = Ok (vat v i).
Proof. intros H. unfold vread. now rewrite norm_index_in. Qed.
Lemma vread_neg {A} (v : vec A) i : - vlen v <= i < 0 -> vread v i = Ok (vat v (i + vlen v)).
Proof.
  intros H. unfold vread, norm_index. destruct ((0 <=? i) && (i <? vlen v)) eqn:E; [lia|].
  destruct ((- vlen v <=? i) && (i <? 0)) eqn:E2; [reflexivity|lia].
Qed.
Lemma vwrite_in {A} (v : vec A) i x :
  0 <= i < vlen v -> vwrite v i x = Ok (mkVec (vlen v) (vupd (vat v) i x)).
Proof. intros H. unfold vwrite. now rewrite norm_index_in. Qed.
Lemma vupd_same {A} (f : Z -> A) i x : vupd f i x i = x.
Proof. unfold vupd. now rewrite Z.eqb_refl. Qed.
Lemma vupd_other {A} (f : Z -> A) i x j : j <> i -> vupd f i x j = f j.
Proof. intros H. unfold vupd. destruct (Z.eqb_spec j i); congruence. Qed.

Lemma slice_lo_in n s : 0 <= s <= n -> slice_lo n s = s.
Proof. intros H. unfold slice_lo, clamp. destruct (s <? 0) eqn:E; lia. Qed.
Lemma slice_len_in n s e : 0 <= s -> s <= e -> e <= n -> slice_len n s e = e - s.
Proof.
  intros. unfold slice_len, clamp. destruct (s <? 0) eqn:E; destruct (e <? 0) eqn:E2; lia.
Qed.
Lemma vslice_in {A} (v : vec A) s e : 0 <= s -> s <= e -> e <= vlen v ->
  vslice v s e = mkVec (e - s) (fun i => vat v (s + i)).
Proof.
  intros. unfold vslice. rewrite slice_len_in, slice_lo_in by lia. reflexivity.
Qed.
Lemma vassign_in {A} (v : vec A) s e w : 0 <= s -> s <= e -> e <= vlen v -> vlen w = e - s ->
  vassign v s e w = Ok (mkVec (vlen v)
     (fun j => if (s <=? j) && (j <? s + (e - s)) then vat w (j - s) else vat v j)).
Proof.
  intros. unfold vassign. rewrite slice_len_in, slice_lo_in by lia.
  rewrite H2, Z.eqb_refl. reflexivity.
Qed.

Lemma veq_refl {A} (a : vec A) : veq a a.
Proof. split; auto. Qed.
Lemma veq_sym {A} (a b : vec A) : veq a b -> veq b a.
Proof. intros [H1 H2]. split; [auto|]. intros; symmetry; apply H2; lia. Qed.
Lemma veq_trans {A} (a b c : vec A) : veq a b -> veq b c -> veq a c.
Proof. intros [H1 H2] [H3 H4]. split; [congruence|]. intros. rewrite H2 by auto. apply H4. lia. Qed.

Lemma even_half n : Z.even n = true -> n = 2 * (n / 2).
Proof. intros H. apply Z.even_spec in H. destruct H as [k ->]. rewrite Z.mul_comm, Z.div_mul; lia. Qed.

(** A loop that writes [val x] at position [tgt x]. *)
Lemma vwrite_loop {A X} (tgt : X -> Z) (val : X -> A) (body : vec A -> X -> result (vec A)) l v :
  (forall v' x, vlen v' = vlen v -> In x l -> body v' x = vwrite v' (tgt x) (val x)) ->
  (forall x, In x l -> 0 <= tgt x < vlen v) -> NoDup l ->
  (forall x y, In x l -> In y l -> tgt x = tgt y -> x = y) ->
  exists v', foldM body l v = Ok v' /\ vlen v' = vlen v /\
    (forall x, In x l -> vat v' (tgt x) = val x) /\
    (forall j, (forall x, In x l -> tgt x <> j) -> vat v' j = vat v j).
Proof.
  revert v; induction l as [|x l IH]; intros v Hb Hin Hnd Hinj.
  - exists v. cbn. repeat split; auto. intros x [].
  - cbn [foldM]. rewrite Hb by (auto; left; reflexivity).
    rewrite vwrite_in by (apply Hin; left; reflexivity).
    inversion Hnd; subst.
    destruct (IH (mkVec (vlen v) (vupd (vat v) (tgt x) (val x)))) as (a' & E & S1 & G1 & G2).
    + intros a' y Ha' Hy. cbn in Ha'. apply Hb; auto. right; auto.
    + cbn. intros; apply Hin; right; auto.
    + auto.
    + intros; apply Hinj; auto; right; auto.
    + exists a'. rewrite E. cbn in S1. repeat split; auto.
      * intros y [<-|Hy]; [|auto].
        rewrite G2; [cbn; apply vupd_same|].
        intros y Hy Heq. apply H1. rewrite <- (Hinj y x); auto; [right; auto|left; auto].
      * intros j Hj. rewrite G2.
        -- cbn. apply vupd_other. intros ->. apply (Hj x); [left; auto|reflexivity].
        -- intros y Hy. apply Hj. right; auto.
Qed.
