(** Facts about accumulating loops. *)
From Coq Require Import Reals.
From Coquelicot Require Import Complex.
From Verif Require Import Lib.Py Lib.PyFacts Lib.Sums Lib.Arr.
Open Scope Z_scope.

Section Acc.
  Context {T : Type} (zero one : T) (add mul sub : T -> T -> T) (opp : T -> T)
    (RT : ring_theory zero one add mul sub opp eq).
  Add Ring TRA : RT.
  Notation S := (suml zero add).
  Infix "+!" := add (at level 50, left associativity).

  (** [acc sh c r a]: the computation r succeeds with a's entries plus c. *)
  Definition acc (r : result (ndarray T)) (a : ndarray T) (c : list Z -> T) : Prop :=
    exists a', r = Ok a' /\ shape a' = shape a /\ forall ix, get a' ix = get a ix +! c ix.

  Definition one_at (tgt : list Z) (v : T) (ix : list Z) : T :=
    if list_eq_dec Z.eq_dec ix tgt then v else zero.

  Lemma aplus_acc a tgt v : in_shape (shape a) tgt -> acc (aplus add a tgt v) a (one_at tgt v).
  Proof using RT.
    intros H. unfold aplus. rewrite aread_in by auto. cbn [bind]. rewrite awrite_in by auto.
    eexists; split; [reflexivity|]. split; [reflexivity|]. intros ix. cbn [get]. unfold upd, one_at.
    destruct (list_eq_dec _ ix tgt) as [->|]; ring.
  Qed.

  Lemma acc_bind a r c k c' :
    acc r a c -> (forall a', shape a' = shape a -> acc (k a') a' c') ->
    acc (bind r k) a (fun ix => c ix +! c' ix).
  Proof using RT.
    intros (a1 & -> & Hs & Hg) Hk. cbn [bind]. destruct (Hk a1 Hs) as (a2 & E & Hs2 & Hg2).
    exists a2. rewrite E. split; [reflexivity|]. split; [congruence|]. intros ix. rewrite Hg2, Hg. ring.
  Qed.

  Lemma acc_foldM {X} (body : ndarray T -> X -> result (ndarray T)) (c : X -> list Z -> T) l a :
    (forall a' x, shape a' = shape a -> In x l -> acc (body a' x) a' (c x)) ->
    acc (foldM body l a) a (fun ix => S l (fun x => c x ix)).
  Proof using RT.
    revert a. induction l as [|x l IH]; intros a H; cbn [foldM].
    - exists a. repeat split. intros ix. rewrite gs_nil. ring.
    - destruct (H a x eq_refl (or_introl eq_refl)) as (a1 & -> & Hs & Hg).
      destruct (IH a1) as (a2 & E & Hs2 & Hg2).
      { intros a' y Ha Hy. apply H; [congruence|now right]. }
      exists a2. split; [exact E|]. split; [congruence|]. intros ix. rewrite Hg2, Hg, gs_cons. ring.
  Qed.

  Lemma acc_ext r a c c' : acc r a c -> (forall ix, c ix = c' ix) -> acc r a c'.
  Proof. intros (a1 & E & Hs & Hg) H. exists a1. repeat split; auto. intros. now rewrite Hg, H. Qed.

  Lemma one_at2 r c v p q : one_at [r; c] v [p; q] = if (r =? p) && (c =? q) then v else zero.
  Proof.
    unfold one_at. destruct (list_eq_dec _ [p; q] [r; c]) as [E|N].
    - injection E as -> ->. now rewrite !Z.eqb_refl.
    - destruct (Z.eqb_spec r p) as [->|]; [|reflexivity]. destruct (Z.eqb_spec c q) as [->|]; [|reflexivity].
      congruence.
  Qed.

  (** selecting one entry of a double sum *)
  Lemma dsum_sel a b c d p q (f : Z -> Z -> T) :
    S (zrange a b) (fun k => S (zrange c d) (fun i => if (k =? p) && (i =? q) then f k i else zero))
    = if (a <=? p) && (p <? b) && (c <=? q) && (q <? d) then f p q else zero.
  Proof using RT.
    destruct ((a <=? p) && (p <? b) && (c <=? q) && (q <? d)) eqn:E.
    - rewrite (gr_ext zero add a b _ (fun k => if k =? p then f k q else zero)).
      + apply (gr_delta _ _ _ _ _ _ RT a b p (fun k => f k q)). lia.
      + intros k Hk. destruct (Z.eqb_spec k p) as [->|].
        * cbn [andb]. apply (gr_delta _ _ _ _ _ _ RT). lia.
        * apply (gr_0 _ _ _ _ _ _ RT). reflexivity.
    - apply (gr_0 _ _ _ _ _ _ RT). intros k Hk. apply (gr_0 _ _ _ _ _ _ RT). intros i Hi.
      destruct (Z.eqb_spec k p); [|reflexivity]. destruct (Z.eqb_spec i q); [|reflexivity]. exfalso. lia.
  Qed.
End Acc.
