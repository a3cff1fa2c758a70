(** Facts about ranges, loops and arrays. *)
From Coq Require Import ZifyBool FinFun.
From Verif Require Export Lib.Py.
Open Scope Z_scope.

(** Induction on a non-negative integer: the goal is [forall n, 0 <= n -> P n]. *)
Ltac z_ind :=
  match goal with
  | |- forall n, 0 <= n -> @?P n => apply (natlike_ind P)
  end.

Lemma in_zrange a b x : In x (zrange a b) <-> a <= x < b.
Proof.
  unfold zrange; rewrite in_map_iff; split.
  - intros (k & <- & Hk). apply in_seq in Hk. lia.
  - intros H. exists (Z.to_nat (x - a)). rewrite in_seq. lia.
Qed.

Lemma zrange_nil a b : b <= a -> zrange a b = [].
Proof. intros H. unfold zrange. replace (Z.to_nat (b - a)) with 0%nat by lia. reflexivity. Qed.

Lemma zrange_snoc a b : a <= b -> zrange a (b + 1) = zrange a b ++ [b].
Proof.
  intros H. unfold zrange.
  replace (Z.to_nat (b + 1 - a)) with (S (Z.to_nat (b - a))) by lia.
  rewrite seq_S, map_app. cbn [map]. f_equal. f_equal. lia.
Qed.

Lemma zrange_cons a b : a < b -> zrange a b = a :: zrange (a + 1) b.
Proof.
  intros H. unfold zrange.
  replace (Z.to_nat (b - a)) with (S (Z.to_nat (b - (a + 1)))) by lia.
  cbn [seq map]. f_equal; [lia|].
  rewrite <- seq_shift, map_map. apply map_ext. intros; lia.
Qed.

Lemma zrange_app a b c : a <= b <= c -> zrange a c = zrange a b ++ zrange b c.
Proof.
  intros [H1 H2]. replace c with (b + (c - b)) by lia.
  assert (H : 0 <= c - b) by lia. revert H. generalize (c - b) as k.
  apply natlike_ind.
  - rewrite Z.add_0_r, (zrange_nil b b), app_nil_r by lia. reflexivity.
  - intros k Hk IH. replace (b + Z.succ k) with (b + k + 1) by lia.
    rewrite !zrange_snoc by lia. rewrite IH, app_assoc. reflexivity.
Qed.

Lemma zrange_length a b : List.length (zrange a b) = Z.to_nat (b - a).
Proof. unfold zrange. now rewrite map_length, seq_length. Qed.

Lemma zrange_NoDup a b : NoDup (zrange a b).
Proof.
  unfold zrange. apply FinFun.Injective_map_NoDup.
  - intros x y; lia.
  - apply seq_NoDup.
Qed.

Lemma foldM_app {S X} (f : S -> X -> result S) l1 l2 s :
  foldM f (l1 ++ l2) s = bind (foldM f l1 s) (foldM f l2).
Proof.
  revert s; induction l1 as [|x l IH]; intros s; cbn [foldM app bind]; [reflexivity|].
  destruct (f s x); [apply IH|reflexivity].
Qed.

(** Nested loops are one loop over the list of pairs. *)
Lemma foldM_nested {S X Y} (f : S -> X -> Y -> result S) (g : X -> list Y) l s :
  foldM (fun s x => foldM (fun s y => f s x y) (g x) s) l s
  = foldM (fun s p => f s (fst p) (snd p))
      (flat_map (fun x => map (fun y => (x, y)) (g x)) l) s.
Proof.
  revert s; induction l as [|x l IH]; intros s; [reflexivity|].
  cbn [flat_map]. rewrite foldM_app. cbn [foldM].
  assert (E : forall s, foldM (fun s y => f s x y) (g x) s
     = foldM (fun s p => f s (fst p) (snd p)) (map (fun y => (x, y)) (g x)) s).
  { clear. induction (g x) as [|y r IH]; intros s; [reflexivity|]. cbn [map foldM fst snd].
    destruct (f s x y); [apply IH|reflexivity]. }
  rewrite E. destruct (foldM _ (map _ (g x)) s); cbn [bind]; [apply IH|reflexivity].
Qed.

Lemma foldM_ext {S X} (f g : S -> X -> result S) l s :
  (forall s x, In x l -> f s x = g s x) -> foldM f l s = foldM g l s.
Proof.
  revert s; induction l as [|x l IH]; intros s H; [reflexivity|].
  cbn [foldM]. rewrite <- H by (left; reflexivity).
  destruct (f s x); [|reflexivity]. apply IH. intros; apply H; right; assumption.
Qed.

Lemma norm_index_in n i : 0 <= i < n -> norm_index n i = Some i.
Proof. intros H. unfold norm_index. destruct ((0 <=? i) && (i <? n)) eqn:E; [reflexivity|lia]. Qed.

Lemma norm_indices_in sh idx : in_shape sh idx -> norm_indices sh idx = Some idx.
Proof.
  revert idx; induction sh as [|n sh IH]; intros [|i idx]; cbn [in_shape norm_indices]; try tauto.
  intros [H1 H2]. rewrite (norm_index_in _ _ H1), (IH _ H2). reflexivity.
Qed.

Lemma aread_in {A} (a : ndarray A) idx : in_shape (shape a) idx -> aread a idx = Ok (get a idx).
Proof. intros H. unfold aread. now rewrite norm_indices_in. Qed.

Lemma awrite_in {A} (a : ndarray A) idx v :
  in_shape (shape a) idx -> awrite a idx v = Ok (mkArr (shape a) (upd (get a) idx v)).
Proof. intros H. unfold awrite. now rewrite norm_indices_in. Qed.

Lemma upd_same {A} (f : list Z -> A) i v : upd f i v i = v.
Proof. unfold upd. destruct (list_eq_dec _ i i); congruence. Qed.
Lemma upd_other {A} (f : list Z -> A) i v j : j <> i -> upd f i v j = f j.
Proof. unfold upd. destruct (list_eq_dec _ j i); congruence. Qed.

Lemma arr_eq_refl {A} (a : ndarray A) : arr_eq a a.
Proof. split; auto. Qed.
Lemma arr_eq_sym {A} (a b : ndarray A) : arr_eq a b -> arr_eq b a.
Proof. intros [H1 H2]. split; [auto|]. intros; symmetry; apply H2; congruence. Qed.
Lemma arr_eq_trans {A} (a b c : ndarray A) : arr_eq a b -> arr_eq b c -> arr_eq a c.
Proof.
  intros [H1 H2] [H3 H4]. split; [congruence|]. intros. rewrite H2 by assumption.
  apply H4. congruence.
Qed.

(** The workhorse: a loop that, for each [x], writes [val x] at [tgt x]. *)
Section WriteLoop.
  Context {A X : Type} (tgt : X -> list Z) (val : X -> A).

  Lemma write_loop (body : ndarray A -> X -> result (ndarray A)) l a :
    (forall a' x, shape a' = shape a -> In x l -> body a' x = awrite a' (tgt x) (val x)) ->
    (forall x, In x l -> in_shape (shape a) (tgt x)) ->
    NoDup l ->
    (forall x y, In x l -> In y l -> tgt x = tgt y -> x = y) ->
    exists a', foldM body l a = Ok a' /\ shape a' = shape a /\
      (forall x, In x l -> get a' (tgt x) = val x) /\
      (forall j, (forall x, In x l -> tgt x <> j) -> get a' j = get a j).
  Proof.
    revert a; induction l as [|x l IH]; intros a Hb Hin Hnd Hinj.
    - exists a. cbn. repeat split; auto. intros x [].
    - cbn [foldM]. rewrite Hb by (auto; left; reflexivity).
      rewrite awrite_in by (apply Hin; left; reflexivity).
      inversion Hnd; subst.
      destruct (IH (mkArr (shape a) (upd (get a) (tgt x) (val x)))) as (a' & E & S1 & G1 & G2).
      + intros a' y Ha' Hy. cbn in Ha'. apply Hb; auto. right; auto.
      + cbn. intros; apply Hin; right; auto.
      + auto.
      + intros; apply Hinj; auto; right; auto.
      + exists a'. rewrite E. cbn in S1. repeat split; auto.
        * intros y [<-|Hy]; [|auto].
          rewrite G2; [cbn; apply upd_same|].
          intros y Hy Heq. apply H1. rewrite <- (Hinj y x); auto; [right; auto|left; auto].
        * intros j Hj. rewrite G2.
          -- cbn. apply upd_other. intros ->. apply (Hj x); [left; auto|reflexivity].
          -- intros y Hy. apply Hj. right; auto.
  Qed.
End WriteLoop.

Lemma NoDup_flat_map_pairs {X Y} (l : list X) (g : X -> list Y) :
  NoDup l -> (forall x, In x l -> NoDup (g x)) ->
  NoDup (flat_map (fun x => map (fun y => (x, y)) (g x)) l).
Proof.
  induction l as [|x l IH]; intros Hl Hg; cbn [flat_map]; [constructor|].
  inversion Hl; subst.
  assert (Hx : NoDup (map (fun y => (x, y)) (g x))).
  { apply FinFun.Injective_map_NoDup; [intros a b E; congruence|apply Hg; left; auto]. }
  assert (Hr : NoDup (flat_map (fun x => map (fun y => (x, y)) (g x)) l))
    by (apply IH; [auto|intros; apply Hg; right; auto]).
  assert (Hd : forall p, In p (map (fun y => (x, y)) (g x)) ->
     ~ In p (flat_map (fun x => map (fun y => (x, y)) (g x)) l)).
  { intros p Hp Hq. apply in_map_iff in Hp. destruct Hp as (y & <- & _).
    apply in_flat_map in Hq. destruct Hq as (x' & Hx' & Hq).
    apply in_map_iff in Hq. destruct Hq as (y' & E & _). injection E; intros; subst. auto. }
  revert Hx Hd. generalize (map (fun y => (x, y)) (g x)) as l1.
  induction l1 as [|p l1 IH1]; intros Hx Hd; cbn [app]; [exact Hr|].
  inversion Hx; subst. constructor.
  - rewrite in_app_iff. intros [Hp|Hp]; [auto|]. apply (Hd p); [left; auto|exact Hp].
  - apply IH1; auto. intros q Hq. apply Hd. right; auto.
Qed.

Lemma in_flat_map_pairs {X Y} (l : list X) (g : X -> list Y) x y :
  In (x, y) (flat_map (fun x => map (fun y => (x, y)) (g x)) l) <-> In x l /\ In y (g x).
Proof.
  rewrite in_flat_map. split.
  - intros (x' & Hx & Hp). apply in_map_iff in Hp. destruct Hp as (y' & E & Hy).
    injection E; intros; subst; auto.
  - intros [Hx Hy]. exists x. split; [auto|]. apply in_map_iff. exists y; auto.
Qed.

(** Loop invariants: [P m s] holds before the iteration m. *)
Lemma foldM_inv {S} (P : Z -> S -> Prop) (f : S -> Z -> result S) a b s :
  a <= b -> P a s ->
  (forall m s, a <= m < b -> P m s -> exists s', f s m = Ok s' /\ P (m + 1) s') ->
  exists s', foldM f (zrange a b) s = Ok s' /\ P b s'.
Proof.
  intros Hab Ha Hs.
  assert (G : forall k, 0 <= k -> a + k <= b -> exists s', foldM f (zrange a (a + k)) s = Ok s' /\ P (a + k) s').
  { z_ind.
    - intros _. exists s. rewrite Z.add_0_r, zrange_nil by lia. auto.
    - intros k Hk IH Hle. destruct IH as (s1 & E1 & H1); [lia|].
      destruct (Hs (a + k) s1) as (s2 & E2 & H2); [lia|exact H1|].
      exists s2. replace (a + Z.succ k) with (a + k + 1) by lia.
      rewrite zrange_snoc, foldM_app, E1 by lia. cbn [bind foldM]. rewrite E2. auto. }
  destruct (G (b - a)) as (s' & E & H); [lia..|]. replace (a + (b - a)) with b in * by lia. exists s'. auto.
Qed.

(** The same when the range may be empty. *)
Lemma foldM_inv' {S} (P : Z -> S -> Prop) (f : S -> Z -> result S) a b s :
  P a s ->
  (forall m s, a <= m < b -> P m s -> exists s', f s m = Ok s' /\ P (m + 1) s') ->
  exists s', foldM f (zrange a b) s = Ok s' /\ P (Z.max a b) s'.
Proof.
  intros Ha Hs. destruct (Z.leb_spec a b).
  - rewrite Z.max_r by lia. now apply foldM_inv.
  - rewrite zrange_nil, Z.max_l by lia. now exists s.
Qed.
