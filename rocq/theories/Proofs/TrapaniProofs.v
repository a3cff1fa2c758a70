(** The Trapani & Navaza recursion computes the Wigner d-matrices at pi/2. *)
From Coq Require Import Reals Lra Lia ZifyBool String.
From Verif Require Import Lib.Py Lib.PyFacts Lib.Sums Lib.Cplx Lib.Vec Lib.VecFacts Lib.Arr Lib.ArrFacts Lib.MatFacts.
From Verif Require Import Model.Trapani Spec.WignerSpec Spec.TrapaniSpec Proofs.RisboProofs Proofs.TrapaniMath.
Open Scope Z_scope.

Definition sq (L : Z) (a : ndarray R) : Prop := shape a = [2 * L - 1; 2 * L - 1].
Definition ent (L : Z) (a : ndarray R) (m n : Z) : R := get a (tcell L m n).
Definition good (L el : Z) (a : ndarray R) (m n : Z) : Prop := ent L a m n = W el m n.
Definition inr (L m : Z) : Prop := - L < m < L.

Lemma tcell_in L m n : inr L m -> inr L n -> in_shape [2 * L - 1; 2 * L - 1] (tcell L m n).
Proof. unfold inr. intros. apply in_shape2; lia. Qed.
Lemma rd L a m n : sq L a -> inr L m -> inr L n -> aread a (tcell L m n) = Ok (ent L a m n).
Proof. intros E Hm Hn. apply aread_in. rewrite E. now apply tcell_in. Qed.
Lemma wr L a m n v : sq L a -> inr L m -> inr L n ->
  exists a', awrite a (tcell L m n) v = Ok a' /\ sq L a' /\ ent L a' m n = v /\
    forall m' n', (m' <> m \/ n' <> n) -> ent L a' m' n' = ent L a m' n'.
Proof.
  intros E Hm Hn. eexists. split; [apply awrite_in; rewrite E; now apply tcell_in|].
  split; [exact E|]. split.
  - apply PyFacts.upd_same.
  - intros m' n' H. unfold ent. cbn [get]. apply PyFacts.upd_other. unfold tcell. intros X. injection X. lia.
Qed.
Lemma wr_good L el a m n v : sq L a -> inr L m -> inr L n -> v = W el m n ->
  exists a', awrite a (tcell L m n) v = Ok a' /\ sq L a' /\ good L el a' m n /\
    forall m' n', good L el a m' n' -> good L el a' m' n'.
Proof.
  intros E Hm Hn Hv. destruct (wr L a m n v E Hm Hn) as (a' & R & S & V & O).
  exists a'. repeat split; auto; [unfold good; congruence|].
  intros m' n' G. unfold good. destruct (Z.eq_dec m' m); [destruct (Z.eq_dec n' n)|].
  - subst. congruence.
  - rewrite O by auto. exact G.
  - rewrite O by auto. exact G.
Qed.
(** rows *)
Lemma row_set L a r k (w : vec R) : sq L a -> inr L r -> 0 <= k < L -> vlen w = k + 1 ->
  exists a', row_op (fun _ y => y) a (r + (L - 1)) (L - 1) (L + k) w = Ok a' /\ sq L a' /\
    (forall n, 0 <= n <= k -> ent L a' r n = vat w n) /\
    (forall m n, inr L m -> inr L n -> m <> r \/ n < 0 \/ k < n -> ent L a' m n = ent L a m n).
Proof.
  intros E Hr Hk Hw. unfold inr in *.
  destruct (row_op_ok (fun _ y => y) a (2 * L - 1) (2 * L - 1) (at2 a) (r + (L - 1)) (L - 1) (L + k) w) as (a' & R & S & V); try lia.
  { split; auto. }
  exists a'. split; [exact R|]. split; [exact S|]. unfold ent, tcell. split.
  - intros n Hn. change (at2 a' (r + (L - 1)) (n + (L - 1)) = vat w n). rewrite V by lia.
    destruct ((r + (L - 1) =? r + (L - 1)) && (L - 1 <=? n + (L - 1)) && (n + (L - 1) <? L + k)) eqn:X; [|lia].
    f_equal. lia.
  - intros m n Hm Hn H. change (at2 a' (m + (L - 1)) (n + (L - 1)) = at2 a (m + (L - 1)) (n + (L - 1))). rewrite V by lia.
    destruct ((m + (L - 1) =? r + (L - 1)) && (L - 1 <=? n + (L - 1)) && (n + (L - 1) <? L + k)) eqn:X; [|reflexivity]. lia.
Qed.
Lemma row_get L a r k : sq L a -> inr L r -> 0 <= k < L ->
  exists v, row_slice a (r + (L - 1)) (L - 1) (L + k) = Ok v /\ vlen v = k + 1 /\
    forall n, 0 <= n <= k -> vat v n = ent L a r n.
Proof.
  intros E Hr Hk. unfold inr in *. unfold row_slice, dim0, dim1. rewrite E. cbn [nth].
  rewrite norm_index_in by lia. eexists. split; [reflexivity|]. unfold vslice, row, dim1. rewrite E. cbn [nth vlen vat].
  split; [rewrite slice_len_in by lia; lia|]. intros n Hn. rewrite E. cbn [nth]. rewrite slice_lo_in by lia.
  unfold ent, tcell, at2. f_equal. f_equal. f_equal. lia.
Qed.

Lemma foldM_map {S X Y} (f : S -> Y -> result S) (g : X -> Y) l s :
  foldM f (map g l) s = foldM (fun s x => f s (g x)) l s.
Proof. revert s. induction l as [|x l IH]; intros s; cbn; [reflexivity|]. destruct (f s (g x)); auto. Qed.

(** the last row *)
Definition top_good (el : Z) (v : vec R) : Prop := forall n, 0 <= n <= el -> vat v n = W el el n.
Lemma dmm_ok L el top a : 1 <= el < L -> el <= top < L -> sq L a ->
  (forall n, 0 <= n <= el - 1 -> ent L a (el - 1) n = W (el - 1) (el - 1) n) ->
  exists v, trapani_dmm a L el top = Ok v /\ vlen v = L /\ top_good el v.
Proof.
  intros Hel Ht E H. unfold trapani_dmm. destruct (el =? 0) eqn:X; [lia|].
  rewrite rd by (auto; unfold inr; lia). cbn [bind]. rewrite vwrite_in by (cbn; lia). cbn [bind vlen vconst vat].
  destruct (foldM_inv (fun k v => vlen v = L /\ forall n, 0 <= n < k -> n <= el -> vat v n = W el el n)
    (fun dmm mm => let* x := aread a (tcell L (el - 1) (mm - 1)) in vwrite dmm mm (fact10 el mm * x)%R) 1 (top + 1)
    {| vlen := L; vat := vupd (fun _ => 0%R) 0 (fact9 el * ent L a (el - 1) 0)%R |}) as (v & R & Hv & V).
  - lia.
  - split; [reflexivity|]. intros n H1 H2. replace n with 0 by lia. cbn [vat]. rewrite vupd_same.
    rewrite H by lia. symmetry. apply W_eq9. lia.
  - intros mm s Hmm (Hs & V). rewrite rd by (auto; unfold inr; lia). cbn [bind]. rewrite vwrite_in by lia.
    eexists. split; [reflexivity|]. split; [exact Hs|]. intros n H1 H2. cbn [vat].
    destruct (Z.eq_dec n mm) as [->|D].
    + rewrite vupd_same. rewrite H by lia. symmetry. apply W_eq10; lia.
    + rewrite vupd_other by auto. apply V; lia.
  - exists v. split; [exact R|]. split; [exact Hv|]. intros n Hn. apply V; lia.
Qed.

Section Step.
  Variables (L el : Z).
  Hypothesis Hel : 1 <= el < L.
  (** the input holds degree el - 1 *)
  Definition holds_prev (a : ndarray R) : Prop := forall n, 0 <= n <= el - 1 -> ent L a (el - 1) n = W (el - 1) (el - 1) n.

  Lemma eighth_ok a : sq L a -> holds_prev a ->
    exists a', compute_eighth a L el = Ok a' /\ sq L a' /\
      forall m n, 0 <= n <= m -> m <= el -> good L el a' m n.
  Proof using Hel.
    intros E H. unfold compute_eighth. destruct (dmm_ok L el el a) as (v & R & Hv & V); auto; try lia.
    rewrite R. cbn [bind].
    destruct (foldM_inv (fun k a => sq L a /\ forall n, 0 <= n < k -> good L el a el n)
      (fun dl mm => let* x := vread v mm in awrite dl (tcell L el mm) x) 0 (el + 1) a) as (a1 & R1 & E1 & G1).
    { lia. } { split; [auto|lia]. }
    { intros mm s Hmm (Es & Gs). rewrite vread_in by lia. cbn [bind].
      destruct (wr_good L el s el mm (vat v mm)) as (a' & Ra & Ea & G & O); auto; try (unfold inr; lia). { apply V; lia. }
      exists a'. split; [exact Ra|]. split; [exact Ea|]. intros n Hn. destruct (Z.eq_dec n mm) as [->|]; [exact G|apply O, Gs; lia]. }
    rewrite R1. cbn [bind].
    set (P := fun k a => sq L a /\ (forall n, 0 <= n <= el -> good L el a el n) /\ (forall m n, 0 <= n < k -> n <= m <= el -> good L el a m n)).
    match goal with |- exists a', foldM ?f _ _ = _ /\ _ => destruct (foldM_inv P f 0 (el + 1) a1) as (a2 & R2 & E2 & T2 & G2) end.
    { lia. }
    { repeat split; auto; try (intros; apply G1; lia). lia. }
    { intros mm s Hmm (Es & Ts & Gs). cbv zeta.
      rewrite rd by (auto; unfold inr; lia). cbn [bind].
      destruct (wr_good L el s (el - 1) mm (2 * IZR mm / t1f el (el - 1) * ent L s (el - 1 + 1) mm)%R) as (b & Rb & Eb & Gb & Ob);
        auto; try (unfold inr; lia).
      { rewrite W_rec1 by lia. f_equal. replace (el - 1 + 1) with el by lia. apply Ts. lia. }
      rewrite Rb. cbn [bind]. unfold down. rewrite foldM_map. replace (el - 2 + 1 - mm) with (el - 1 - mm) by lia.
      set (Q := fun i a => sq L a /\ (forall m, el - 2 - i < m <= el -> good L el a m mm) /\ (forall m n, good L el s m n -> good L el a m n)).
      match goal with |- exists a', foldM ?f _ _ = _ /\ _ => destruct (foldM_inv' Q f 0 (el - 1 - mm) b) as (c & Rc & Ec & Tc & Oc) end.
      { split; [exact Eb|]. split; [|exact Ob]. intros m Hm. destruct (Z.eq_dec m (el - 1)) as [->|]; [exact Gb|].
        replace m with el by lia. apply Ob, Ts. lia. }
      { intros i d Hi (Ed & Td & Od).
        rewrite rd by (auto; unfold inr; lia). cbn [bind]. rewrite rd by (auto; unfold inr; lia). cbn [bind].
        match goal with |- exists s', awrite _ _ ?v = _ /\ _ =>
          destruct (wr_good L el d (el - 2 - i) mm v) as (d' & Rd & Ed' & Gd & Od'); auto; try (unfold inr; lia) end.
        { rewrite (W_rec el (el - 2 - i) mm) by lia. unfold good in Td. rewrite !Td by lia. reflexivity. }
        exists d'. split; [exact Rd|]. split; [exact Ed'|]. split.
        - intros m Hm. destruct (Z.eq_dec m (el - 2 - i)) as [->|]; [exact Gd|]. apply Od', Td. lia.
        - auto. }
      exists c. split; [exact Rc|]. split; [exact Ec|]. split; [intros; apply Oc, Ts; auto|].
      intros m n Hn Hm. destruct (Z.eq_dec n mm) as [->|]; [apply Tc; lia|]. apply Oc, Gs; lia. }
    exists a2. split; [exact R2|]. split; [exact E2|]. intros m n Hn Hm. apply G2; lia.
  Qed.

  Lemma eighth2quarter_ok a : sq L a -> (forall m n, 0 <= n <= m -> m <= el -> good L el a m n) ->
    exists a', fill_eighth2quarter a L el = Ok a' /\ sq L a' /\ forall m n, 0 <= m <= el -> 0 <= n <= el -> good L el a' m n.
  Proof using Hel.
    intros E G. unfold fill_eighth2quarter.
    set (P := fun k a => sq L a /\ (forall m n, 0 <= n <= m -> m <= el -> good L el a m n) /\
       (forall m n, 0 <= m < k -> 0 <= n <= el -> good L el a m n)).
    match goal with |- exists a', foldM ?f _ _ = _ /\ _ => destruct (foldM_inv P f 0 (el + 1) a) as (a2 & R2 & E2 & T2 & G2) end.
    { lia. } { repeat split; auto. lia. }
    { intros m s Hm (Es & Ts & Gs).
      set (Q := fun k a => sq L a /\ (forall n, 0 <= n < k -> good L el a m n) /\ (forall m n, good L el s m n -> good L el a m n)).
      match goal with |- exists a', foldM ?f _ _ = _ /\ _ => destruct (foldM_inv Q f (m + 1) (el + 1) s) as (b & Rb & Eb & Tb & Ob) end.
      { lia. } { repeat split; auto. intros. apply Ts; lia. }
      { intros n d Hn (Ed & Td & Od). rewrite rd by (auto; unfold inr; lia). cbn [bind].
        match goal with |- exists s', awrite _ _ ?v = _ /\ _ =>
          destruct (wr_good L el d m n v) as (d' & Rd & Ed' & Gd & Od'); auto; try (unfold inr; lia) end.
        { rewrite (W_transpose el m n) by lia. f_equal. apply Od, Ts; lia. }
        exists d'. split; [exact Rd|]. split; [exact Ed'|]. split; [|auto].
        intros n' Hn'. destruct (Z.eq_dec n' n) as [->|]; [exact Gd|]. apply Od', Td. lia. }
      exists b. split; [exact Rb|]. split; [exact Eb|]. split; [intros; apply Ob, Ts; auto|].
      intros m' n' Hm' Hn'. destruct (Z.eq_dec m' m) as [->|]; [apply Tb; lia|]. apply Ob, Gs; lia. }
    exists a2. split; [exact R2|]. split; [exact E2|]. intros. apply G2; lia.
  Qed.

  Definition quarter (a : ndarray R) : Prop := forall m n, 0 <= m <= el -> 0 <= n <= el -> good L el a m n.
  Definition half (a : ndarray R) : Prop := forall m n, - el <= m <= el -> 0 <= n <= el -> good L el a m n.
  Definition full (a : ndarray R) : Prop := forall m n, - el <= m <= el -> - el <= n <= el -> good L el a m n.

  Lemma quarter2half_ok a : sq L a -> quarter a -> exists a', fill_quarter2half a L el = Ok a' /\ sq L a' /\ half a'.
  Proof using Hel.
    intros E G. unfold fill_quarter2half.
    set (P := fun k a => sq L a /\ quarter a /\ (forall m n, - el <= m <= el -> 0 <= n < k -> good L el a m n)).
    match goal with |- exists a', foldM ?f _ _ = _ /\ _ => destruct (foldM_inv P f 0 (el + 1) a) as (a2 & R2 & E2 & T2 & G2) end.
    { lia. } { repeat split; auto. lia. }
    { intros n s Hn (Es & Ts & Gs).
      set (Q := fun k a => sq L a /\ (forall m, - el <= m < k -> good L el a m n) /\ (forall m n, good L el s m n -> good L el a m n)).
      match goal with |- exists a', foldM ?f _ _ = _ /\ _ => destruct (foldM_inv Q f (- el) 0 s) as (b & Rb & Eb & Tb & Ob) end.
      { lia. } { repeat split; auto. lia. }
      { intros m d Hm (Ed & Td & Od). rewrite rd by (auto; unfold inr; lia). cbn [bind].
        match goal with |- exists s', awrite _ _ ?v = _ /\ _ =>
          destruct (wr_good L el d m n v) as (d' & Rd & Ed' & Gd & Od'); auto; try (unfold inr; lia) end.
        { pose proof (W_neg_m el (- m) n ltac:(lia) ltac:(lia) ltac:(lia)) as X. rewrite Z.opp_involutive in X. rewrite X.
          f_equal. apply Od, Ts; lia. }
        exists d'. split; [exact Rd|]. split; [exact Ed'|]. split; [|auto].
        intros m' Hm'. destruct (Z.eq_dec m' m) as [->|]; [exact Gd|]. apply Od', Td. lia. }
      exists b. split; [exact Rb|]. split; [exact Eb|]. split; [intros m' n' ? ?; apply Ob, Ts; auto|].
      intros m' n' Hm' Hn'. destruct (Z.eq_dec n' n) as [->|]; [|apply Ob, Gs; lia].
      destruct (Z_lt_dec m' 0); [apply Tb; lia|apply Ob, Ts; lia]. }
    exists a2. split; [exact R2|]. split; [exact E2|]. intros m n ? ?. apply G2; lia.
  Qed.

  Lemma half2full_ok a : sq L a -> half a -> exists a', fill_half2full a L el = Ok a' /\ sq L a' /\ full a'.
  Proof using Hel.
    intros E G. unfold fill_half2full.
    set (P := fun k a => sq L a /\ half a /\ (forall m n, - el <= m <= el -> - el <= n < k -> good L el a m n)).
    match goal with |- exists a', foldM ?f _ _ = _ /\ _ => destruct (foldM_inv P f (- el) 0 a) as (a2 & R2 & E2 & T2 & G2) end.
    { lia. } { repeat split; auto. lia. }
    { intros n s Hn (Es & Ts & Gs).
      set (Q := fun k a => sq L a /\ (forall m, - el <= m < k -> good L el a m n) /\ (forall m n, good L el s m n -> good L el a m n)).
      match goal with |- exists a', foldM ?f _ _ = _ /\ _ => destruct (foldM_inv Q f (- el) (el + 1) s) as (b & Rb & Eb & Tb & Ob) end.
      { lia. } { repeat split; auto. lia. }
      { intros m d Hm (Ed & Td & Od). rewrite rd by (auto; unfold inr; lia). cbn [bind].
        match goal with |- exists s', awrite _ _ ?v = _ /\ _ =>
          destruct (wr_good L el d m n v) as (d' & Rd & Ed' & Gd & Od'); auto; try (unfold inr; lia) end.
        { pose proof (W_neg_n el m (- n) ltac:(lia) ltac:(lia) ltac:(lia)) as X. rewrite Z.opp_involutive in X. rewrite X.
          rewrite !sgn_add, sgn_abs. f_equal. apply Od, Ts; lia. }
        exists d'. split; [exact Rd|]. split; [exact Ed'|]. split; [|auto].
        intros m' Hm'. destruct (Z.eq_dec m' m) as [->|]; [exact Gd|]. apply Od', Td. lia. }
      exists b. split; [exact Rb|]. split; [exact Eb|]. split; [intros m' n' ? ?; apply Ob, Ts; auto|].
      intros m' n' Hm' Hn'. destruct (Z.eq_dec n' n) as [->|]; [|apply Ob, Gs; lia]. apply Tb; lia. }
    exists a2. split; [exact R2|]. split; [exact E2|]. intros m n ? ?.
    destruct (Z_lt_dec n 0); [apply G2; lia|apply T2; lia].
  Qed.

  (** index-array assignments *)
  Lemma eval_all_ok {X} (f : X -> result R) (g : X -> R) l : (forall x, In x l -> f x = Ok (g x)) -> eval_all f l = Ok (map g l).
  Proof. induction l as [|x l IH]; intros H; cbn; [reflexivity|]. rewrite H by (now left). cbn. rewrite IH by (intros; apply H; now right). reflexivity. Qed.
  Lemma cells_write (V : Z -> Z -> R) ix : forall a, sq L a -> (forall p, In p ix -> inr L (fst p) /\ inr L (snd p)) ->
    exists a', foldM (fun dl pv => awrite dl (tcell L (fst (fst pv)) (snd (fst pv))) (snd pv))
        (combine ix (map (fun p => V (fst p) (snd p)) ix)) a = Ok a' /\ sq L a' /\
      (forall m n, In (m, n) ix -> ent L a' m n = V m n) /\ (forall m n, ~ In (m, n) ix -> ent L a' m n = ent L a m n).
  Proof.
    induction ix as [|(m0, n0) ix IH]; intros a E H.
    { exists a. repeat split; auto. intros m n []. }
    cbn [map combine foldM fst snd].
    destruct (wr L a m0 n0 (V m0 n0)) as (b & Rb & Eb & Vb & Ob); auto; try (apply (H (m0, n0)); now left).
    rewrite Rb. cbn [bind]. destruct (IH b Eb) as (c & Rc & Ec & Vc & Oc); [intros; apply H; now right|].
    exists c. split; [exact Rc|]. split; [exact Ec|].
    assert (DEC : forall p, In p ix \/ ~ In p ix).
    { intros p. destruct (in_dec (fun p q : Z * Z => ltac:(decide equality; apply Z.eq_dec)) p ix); auto. }
    split.
    - intros m n [X|X]; [|now apply Vc]. injection X as <- <-. destruct (DEC (m0, n0)); [now apply Vc|]. now rewrite Oc.
    - intros m n X. rewrite Oc by (intros ?; apply X; now right). apply Ob.
      destruct (Z.eq_dec m m0); auto. destruct (Z.eq_dec n n0); auto. subst. exfalso. apply X. now left.
  Qed.
  Lemma in_meshgrid l1 l2 m n : In (m, n) (meshgrid l1 l2) <-> In m l1 /\ In n l2.
  Proof.
    unfold meshgrid. rewrite in_flat_map. split.
    - intros (y & Hy & H). apply in_map_iff in H as (x & X & Hx). injection X as -> ->. auto.
    - intros (H1 & H2). exists n. split; auto. apply in_map_iff. exists m. auto.
  Qed.
  Lemma cells_set_ok a l1 l2 val (V : Z -> Z -> R) : sq L a ->
    (forall m n, In m l1 -> In n l2 -> inr L m /\ inr L n /\ val m n = Ok (V m n)) ->
    exists a', cells_set a L (meshgrid l1 l2) val = Ok a' /\ sq L a' /\
      (forall m n, In m l1 -> In n l2 -> ent L a' m n = V m n) /\
      (forall m n, ~ (In m l1 /\ In n l2) -> ent L a' m n = ent L a m n).
  Proof.
    intros E H. unfold cells_set. rewrite (eval_all_ok _ (fun p => V (fst p) (snd p))).
    2:{ intros (m, n) Hp. apply in_meshgrid in Hp as (H1 & H2). now apply H. }
    cbn [bind]. destruct (cells_write V (meshgrid l1 l2) a E) as (a' & R & E' & VV & O).
    { intros (m, n) Hp. apply in_meshgrid in Hp as (H1 & H2). destruct (H m n) as (? & ? & _); auto. }
    exists a'. split; [exact R|]. split; [exact E'|]. split.
    - intros. apply VV. now apply in_meshgrid.
    - intros m n X. apply O. now rewrite in_meshgrid.
  Qed.

  Lemma quarter2half_grid_ok top a : el <= top < L -> sq L a -> quarter a ->
    exists a', fill_quarter2half_grid top a L el = Ok a' /\ sq L a' /\ half a'.
  Proof using Hel.
    intros Ht E G. unfold fill_quarter2half_grid.
    destruct (cells_set_ok a (zrange (- top) 0) (zrange 0 (top + 1))
      (fun m mm => let* x := aread a (tcell L (- m) mm) in Ok (sgn (el + mm) * x)%R)
      (fun m mm => sgn (el + mm) * ent L a (- m) mm)%R E) as (b & Rb & Eb & Vb & Ob).
    { intros m n Hm Hn. apply in_zrange in Hm, Hn. unfold inr. split; [lia|]. split; [lia|].
      rewrite rd by (auto; unfold inr; lia). reflexivity. }
    exists b. split; [exact Rb|]. split; [exact Eb|]. intros m n Hm Hn. unfold good.
    destruct (Z_lt_dec m 0).
    - rewrite Vb by (apply in_zrange; lia). pose proof (W_neg_m el (- m) n ltac:(lia) ltac:(lia) ltac:(lia)) as X.
      rewrite Z.opp_involutive in X. rewrite X. f_equal. apply G; lia.
    - rewrite Ob by (rewrite !in_zrange; lia). apply G; lia.
  Qed.
  Lemma half2full_grid_ok top a : el <= top < L -> sq L a -> half a ->
    exists a', fill_half2full_grid top a L el = Ok a' /\ sq L a' /\ full a'.
  Proof using Hel.
    intros Ht E G. unfold fill_half2full_grid.
    destruct (cells_set_ok a (zrange (- top) (top + 1)) (zrange (- top) 0)
      (fun m mm => let* x := aread a (tcell L m (- mm)) in Ok (sgn (el + Z.abs m) * x)%R)
      (fun m mm => sgn (el + Z.abs m) * ent L a m (- mm))%R E) as (b & Rb & Eb & Vb & Ob).
    { intros m n Hm Hn. apply in_zrange in Hm, Hn. unfold inr. split; [lia|]. split; [lia|].
      rewrite rd by (auto; unfold inr; lia). reflexivity. }
    exists b. split; [exact Rb|]. split; [exact Eb|]. intros m n Hm Hn. unfold good.
    destruct (Z_lt_dec n 0).
    - rewrite Vb by (apply in_zrange; lia). pose proof (W_neg_n el m (- n) ltac:(lia) ltac:(lia) ltac:(lia)) as X.
      rewrite Z.opp_involutive in X. rewrite X, !sgn_add, sgn_abs. f_equal. apply G; lia.
    - rewrite Ob by (rewrite !in_zrange; lia). apply G; lia.
  Qed.

  Lemma quarter_vec_ok a : sq L a -> holds_prev a ->
    exists a', compute_quarter_vectorized a L el = Ok a' /\ sq L a' /\ quarter a'.
  Proof using Hel.
    intros E H. unfold compute_quarter_vectorized. destruct (dmm_ok L el el a) as (v & R & Hv & V); auto; try lia.
    rewrite R. cbn [bind].
    assert (LS : vlen (vslice v 0 (el + 1)) = el + 1) by (cbn; rewrite slice_len_in by lia; lia).
    destruct (row_set L a el el (vslice v 0 (el + 1)) E ltac:(unfold inr; lia) ltac:(lia) LS) as (a1 & R1 & E1 & V1 & O1).
    rewrite R1. cbn [bind]. cbv zeta.
    destruct (row_get L a1 (el - 1 + 1) el E1 ltac:(unfold inr; lia) ltac:(lia)) as (r & Rr & Lr & Vr).
    rewrite Rr. cbn [bind]. rewrite Lr.
    destruct (row_set L a1 (el - 1) el (mkVec (el + 1) (fun mm => 2 * IZR mm / t1f el (el - 1) * vat r mm)%R) E1
      ltac:(unfold inr; lia) ltac:(lia) eq_refl) as (a2 & R2 & E2 & V2 & O2).
    rewrite R2. cbn [bind].
    assert (T1 : forall n, 0 <= n <= el -> ent L a1 el n = W el el n).
    { intros n Hn. rewrite V1 by auto. cbn. rewrite slice_lo_in by lia. apply V. lia. }
    unfold down. rewrite foldM_map. replace (el - 2 + 1 - 0) with (el - 1) by lia.
    set (Q := fun i a => sq L a /\ (forall m n, el - 2 - i < m <= el -> 0 <= n <= el -> good L el a m n)).
    match goal with |- exists a', foldM ?f _ _ = _ /\ _ => destruct (foldM_inv Q f 0 (el - 1) a2) as (c & Rc & Ec & Tc) end.
    { lia. }
    { split; [exact E2|]. intros m n Hm Hn. unfold good. destruct (Z.eq_dec m (el - 1)) as [->|].
      - rewrite V2 by auto. cbn [vat]. rewrite Vr by auto. replace (el - 1 + 1) with el by lia. rewrite T1 by auto.
        symmetry. apply W_rec1; lia.
      - replace m with el by lia. rewrite O2 by (unfold inr; lia). now apply T1. }
    { intros i d Hi (Ed & Td).
      destruct (row_get L d (el - 2 - i + 1) el Ed ltac:(unfold inr; lia) ltac:(lia)) as (r1 & Rr1 & Lr1 & Vr1).
      destruct (row_get L d (el - 2 - i + 2) el Ed ltac:(unfold inr; lia) ltac:(lia)) as (r2 & Rr2 & Lr2 & Vr2).
      rewrite Rr1. cbn [bind]. rewrite Rr2. cbn [bind]. rewrite Lr1.
      match goal with |- exists s', row_op _ _ _ _ _ ?w = _ /\ _ =>
        destruct (row_set L d (el - 2 - i) el w Ed ltac:(unfold inr; lia) ltac:(lia) eq_refl) as (d' & Rd & Ed' & Vd & Od) end.
      exists d'. split; [exact Rd|]. split; [exact Ed'|]. intros m n Hm Hn. unfold good.
      destruct (Z.eq_dec m (el - 2 - i)) as [->|].
      - rewrite Vd by auto. cbn [vat]. rewrite Vr1, Vr2 by auto. rewrite (W_rec el (el - 2 - i) n) by lia.
        unfold good in Td. rewrite !Td by lia. reflexivity.
      - rewrite Od by (unfold inr; lia). apply Td; lia. }
    exists c. split; [exact Rc|]. split; [exact Ec|]. intros m n Hm Hn. apply Tc; lia.
  Qed.

  Definition fac (m : Z) : R * R := let mc := if m <? 0 then 0 else m in (t1f el mc, t2f el mc).
  Lemma scan_ok k : forall m0 s1 s2 a, sq L a -> m0 < L - 1 -> - L < m0 + 1 - Z.of_nat k -> m0 + 2 <= el ->
    vlen s1 = L ->
    (forall n, 0 <= n <= el -> 0 <= m0 + 1 -> vat s1 n = W el (m0 + 1) n) ->
    (forall n, 0 <= n <= el -> 0 <= m0 + 2 -> vat s2 n = W el (m0 + 2) n) ->
    let ms := map (fun i => m0 - i) (zrange 0 (Z.of_nat k)) in
    exists a', foldM (fun dl p => row_op (fun _ y => y) dl (fst p + (L - 1)) (L - 1) (2 * L - 1) (snd p))
        (combine ms (scan_rows (map fac ms) s1 s2)) a = Ok a' /\ sq L a' /\
      (forall m n, m0 - Z.of_nat k < m <= m0 -> 0 <= m -> 0 <= n <= el -> good L el a' m n) /\
      (forall m n, m0 < m < L -> inr L n -> ent L a' m n = ent L a m n).
  Proof using Hel.
    induction k as [|k IH]; intros m0 s1 s2 a E B1 B2 B3 L1 H1 H2.
    { cbn. exists a. repeat split; auto. lia. }
    rewrite Nat2Z.inj_succ in *. cbv zeta.
    rewrite zrange_cons by lia. cbn [map]. rewrite Z.sub_0_r.
    replace (map (fun i => m0 - i) (zrange (0 + 1) (Z.succ (Z.of_nat k)))) with (map (fun i => (m0 - 1) - i) (zrange 0 (Z.of_nat k))).
    2:{ unfold zrange. rewrite !map_map. replace (Z.succ (Z.of_nat k) - (0 + 1)) with (Z.of_nat k - 0) by lia. apply map_ext. intros; lia. }
    cbn [map]. set (ms := map (fun i => m0 - 1 - i) (zrange 0 (Z.of_nat k))). unfold fac at 1. cbn [scan_rows combine foldM fst snd].
    set (s0 := {| vlen := vlen s1; vat := _ |}).
    replace (2 * L - 1) with (L + (L - 1)) by lia.
    destruct (row_set L a m0 (L - 1) s0 E ltac:(unfold inr; lia) ltac:(lia) ltac:(cbn; lia)) as (b & Rb & Eb & Vb & Ob).
    rewrite Rb. cbn [bind].
    assert (G0 : forall n, 0 <= n <= el -> 0 <= m0 -> vat s0 n = W el m0 n).
    { intros n Hn Hm. unfold s0. cbn [vat]. destruct (m0 <? 0) eqn:X; [lia|]. rewrite H1, H2 by lia.
      symmetry. apply W_rec; lia. }
    destruct (IH (m0 - 1) s0 s1 b Eb) as (c & Rc & Ec & Gc & Oc); try lia.
    { exact L1. }
    { intros n Hn Hm. replace (m0 - 1 + 1) with m0 by lia. apply G0; lia. }
    { intros n Hn Hm. replace (m0 - 1 + 2) with (m0 + 1) by lia. apply H1; lia. }
    replace (2 * L - 1) with (L + (L - 1)) in Rc by lia.
    exists c. split; [exact Rc|]. split; [exact Ec|]. split.
    - intros m n Hm Hm0 Hn. destruct (Z.eq_dec m m0) as [->|]; [|apply Gc; lia].
      unfold good. rewrite Oc by (unfold inr; lia). rewrite Vb by lia. now apply G0.
    - intros m n Hm Hn. rewrite Oc by (auto; lia). apply Ob; unfold inr in *; lia.
  Qed.

  Lemma quarter_jax_ok a : sq L a -> holds_prev a ->
    exists a', compute_quarter_jax a L el = Ok a' /\ sq L a' /\ quarter a'.
  Proof using Hel.
    intros E H. unfold compute_quarter_jax. destruct (dmm_ok L el (L - 1) a) as (v & R & Hv & V); auto; try lia.
    rewrite R. cbn [bind].
    destruct (row_set L a el (L - 1) v E ltac:(unfold inr; lia) ltac:(lia) ltac:(lia)) as (a1 & R1 & E1 & V1 & O1).
    replace (L + (L - 1)) with (2 * L - 1) in R1 by lia.
    rewrite R1. cbn [bind]. cbv zeta.
    destruct (row_get L a1 (el - 1 + 1) (L - 1) E1 ltac:(unfold inr; lia) ltac:(lia)) as (r & Rr & Lr & Vr).
    replace (L + (L - 1)) with (2 * L - 1) in Rr by lia.
    rewrite Rr. cbn [bind]. rewrite Lr.
    destruct (row_set L a1 (el - 1) (L - 1) (mkVec (L - 1 + 1) (fun mm => 2 * IZR mm / t1f el (el - 1) * vat r mm)%R) E1
      ltac:(unfold inr; lia) ltac:(lia) eq_refl) as (a2 & R2 & E2 & V2 & O2).
    replace (L + (L - 1)) with (2 * L - 1) in R2 by lia.
    rewrite R2. cbn [bind].
    assert (T1 : forall n, 0 <= n <= el -> ent L a1 el n = W el el n).
    { intros n Hn. rewrite V1 by lia. apply V. lia. }
    assert (T2 : forall m n, el - 2 < m <= el -> 0 <= n <= el -> good L el a2 m n).
    { intros m n Hm Hn. unfold good. destruct (Z.eq_dec m (el - 1)) as [->|].
      - rewrite V2 by lia. cbn [vat]. rewrite Vr by lia. replace (el - 1 + 1) with el by lia. rewrite T1 by auto.
        symmetry. apply W_rec1; lia.
      - replace m with el by lia. rewrite O2 by (unfold inr; lia). now apply T1. }
    destruct (row_get L a2 (el - 1) (L - 1) E2 ltac:(unfold inr; lia) ltac:(lia)) as (s1 & Rs1 & Ls1 & Vs1).
    destruct (row_get L a2 el (L - 1) E2 ltac:(unfold inr; lia) ltac:(lia)) as (s2 & Rs2 & Ls2 & Vs2).
    replace (L + (L - 1)) with (2 * L - 1) in Rs1, Rs2 by lia.
    rewrite Rs1. cbn [bind]. rewrite Rs2. cbn [bind].
    unfold down. rewrite map_map.
    replace (map (fun x => L - 1 - 2 - x - (L - 1) + el) (zrange 0 (L - 1 - 2 + 1 - 0)))
      with (map (fun i => el - 2 - i) (zrange 0 (Z.of_nat (Z.to_nat (L - 2))))).
    2:{ replace (Z.of_nat (Z.to_nat (L - 2))) with (L - 1 - 2 + 1 - 0) by lia. apply map_ext. intros; lia. }
    destruct (scan_ok (Z.to_nat (L - 2)) (el - 2) s1 s2 a2 E2) as (c & Rc & Ec & Gc & Oc); try lia.
    { intros n Hn Hm. rewrite Vs1 by lia. replace (el - 2 + 1) with (el - 1) by lia. apply T2; lia. }
    { intros n Hn Hm. rewrite Vs2 by lia. replace (el - 2 + 2) with el by lia. apply T2; lia. }
    exists c. split; [exact Rc|]. split; [exact Ec|]. intros m n Hm Hn.
    destruct (Z_le_dec m (el - 2)); [apply Gc; lia|].
    unfold good. rewrite Oc by (unfold inr; lia). apply T2; lia.
  Qed.

  Lemma quarter_ok a : sq L a -> holds_prev a -> exists a', compute_quarter a L el = Ok a' /\ sq L a' /\ quarter a'.
  Proof using Hel.
    intros E H. unfold compute_quarter. destruct (eighth_ok a E H) as (b & Rb & Eb & Gb). rewrite Rb. cbn [bind].
    destruct (eighth2quarter_ok b Eb Gb) as (c & Rc & Ec & Gc). exists c. auto.
  Qed.
  Lemma full_loop_ok a : sq L a -> holds_prev a -> exists a', compute_full_loop a L el = Ok a' /\ sq L a' /\ full a'.
  Proof using Hel.
    intros E H. unfold compute_full_loop. destruct (eighth_ok a E H) as (b & Rb & Eb & Gb). rewrite Rb. cbn [bind].
    destruct (eighth2quarter_ok b Eb Gb) as (c & Rc & Ec & Gc). rewrite Rc. cbn [bind].
    destruct (quarter2half_ok c Ec Gc) as (d & Rd & Ed & Gd). rewrite Rd. cbn [bind].
    apply half2full_ok; auto.
  Qed.
  Lemma full_vec_ok a : sq L a -> holds_prev a -> exists a', compute_full_vectorized a L el = Ok a' /\ sq L a' /\ full a'.
  Proof using Hel.
    intros E H. unfold compute_full_vectorized. destruct (quarter_vec_ok a E H) as (c & Rc & Ec & Gc). rewrite Rc. cbn [bind].
    destruct (quarter2half_grid_ok el c ltac:(lia) Ec Gc) as (d & Rd & Ed & Gd). rewrite Rd. cbn [bind].
    apply half2full_grid_ok; auto. lia.
  Qed.
  Lemma full_jax_ok a : sq L a -> holds_prev a -> exists a', compute_full_jax a L el = Ok a' /\ sq L a' /\ full a'.
  Proof using Hel.
    intros E H. unfold compute_full_jax. destruct (quarter_jax_ok a E H) as (c & Rc & Ec & Gc). rewrite Rc. cbn [bind].
    destruct (quarter2half_grid_ok (L - 1) c ltac:(lia) Ec Gc) as (d & Rd & Ed & Gd). rewrite Rd. cbn [bind].
    apply half2full_grid_ok; auto. lia.
  Qed.
End Step.

(** ** Names and runs *)
Lemma holds_full L l a : holds_quarter_pi L l a <-> sq L a /\ full L l a.
Proof.
  unfold holds_quarter_pi, sq, full, good, ent, tcell, W. split; intros (E & H); (split; [exact E|]); intros m n Hm Hn; apply H; lia.
Qed.
Lemma step_ok L el a name : 1 <= el < L -> accepted name -> sq L a -> holds_prev L el a ->
  exists a', trapani_full a L el name = Ok a' /\ holds_quarter_pi L el a'.
Proof.
  intros Hel Hn E H.
  assert (S : exists a', trapani_full a L el name = Ok a' /\ sq L a' /\ full L el a').
  { unfold trapani_full, streq. destruct (String.eqb_spec (lower name) "loop"%string); [now apply full_loop_ok|].
    destruct (String.eqb_spec name "vectorized"%string); [now apply full_vec_ok|].
    destruct (String.eqb_spec name "jax"%string); [now apply full_jax_ok|]. destruct Hn as [?|[?|?]]; contradiction. }
  destruct S as (a' & R & G). exists a'. split; [exact R|]. now apply holds_full.
Qed.
Lemma init_ok L a name : 1 <= L -> accepted name -> sq L a ->
  exists a', trapani_init a L name = Ok a' /\ holds_quarter_pi L 0 a'.
Proof.
  intros HL Hn E.
  destruct (wr L a 0 0 1%R E ltac:(unfold inr; lia) ltac:(unfold inr; lia)) as (b & Rb & Eb & Vb & _).
  assert (B : trapani_init_body a L = Ok b).
  { unfold trapani_init_body. rewrite <- Rb. unfold tcell. now replace (0 + L - 1) with (0 + (L - 1)) by lia. }
  exists b. split.
  - unfold trapani_init, streq. rewrite B. destruct (String.eqb_spec (lower name) "loop"%string); [reflexivity|].
    destruct (String.eqb_spec name "vectorized"%string); [reflexivity|].
    destruct (String.eqb_spec name "jax"%string); [reflexivity|]. destruct Hn as [?|[?|?]]; contradiction.
  - apply holds_full. split; [exact Eb|]. intros m n Hm Hn'. replace m with 0 by lia. replace n with 0 by lia.
    unfold good. rewrite W_0. exact Vb.
Qed.
Lemma holds_prev_of L el a : 1 <= el -> holds_quarter_pi L (el - 1) a -> holds_prev L el a.
Proof. intros Hel H n Hn. apply holds_full in H as (_ & H). apply H; lia. Qed.
Lemma run_ok L l a name : 0 <= l < L -> accepted name -> sq L a ->
  exists a', trapani_run a L l name = Ok a' /\ holds_quarter_pi L l a'.
Proof.
  intros Hl Hn E. unfold trapani_run. destruct (init_ok L a name) as (b & Rb & Hb); auto; try lia.
  rewrite Rb. cbn [bind].
  destruct (foldM_inv (fun k a => holds_quarter_pi L (k - 1) a) (fun dl el => trapani_full dl L el name) 1 (l + 1) b) as (c & Rc & Hc).
  - lia.
  - exact Hb.
  - intros el d Hel Hd. replace (el + 1 - 1) with el by lia. apply step_ok; auto; try lia.
    + now apply holds_full in Hd.
    + now apply holds_prev_of.
  - exists c. split; [exact Rc|]. now replace (l + 1 - 1) with l in Hc by lia.
Qed.

(** ** Degrees out of range *)
Lemma norm_index_high n i : 0 <= n -> n <= i -> norm_index n i = None.
Proof. intros H0 H. unfold norm_index. destruct ((0 <=? i) && (i <? n)) eqn:E; [lia|]. destruct ((- n <=? i) && (i <? 0)) eqn:E2; [lia|reflexivity]. Qed.
Lemma dmm_big L el a : 1 <= L -> L <= el -> sq L a -> trapani_dmm a L el el = Err IndexError.
Proof.
  intros HL Hel E. unfold trapani_dmm. destruct (el =? 0) eqn:X; [lia|].
  destruct (Z.eq_dec el L) as [->|].
  - rewrite rd by (auto; unfold inr; lia). cbn [bind]. rewrite vwrite_in by (cbn; lia). cbn [bind vlen vconst vat].
    rewrite (zrange_snoc 1 L), foldM_app by lia.
    destruct (foldM_inv (fun k (v : vec R) => vlen v = L)
      (fun dmm mm => let* x := aread a (tcell L (L - 1) (mm - 1)) in vwrite dmm mm (fact10 L mm * x)%R) 1 L
      {| vlen := L; vat := vupd (fun _ => 0%R) 0 (fact9 L * ent L a (L - 1) 0)%R |}) as (v & R & Hv).
    + lia.
    + reflexivity.
    + intros mm s Hmm Hs. rewrite rd by (auto; unfold inr; lia). cbn [bind]. rewrite vwrite_in by lia.
      eexists. split; [reflexivity|]. exact Hs.
    + rewrite R. cbn [bind foldM]. rewrite rd by (auto; unfold inr; lia). cbn [bind].
      unfold vwrite. rewrite norm_index_high by lia. reflexivity.
  - unfold aread. rewrite E. unfold tcell. cbn [norm_indices]. rewrite norm_index_high by lia. reflexivity.
Qed.
