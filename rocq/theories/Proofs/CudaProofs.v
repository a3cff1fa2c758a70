From Coq Require Import ZifyBool Psatz.
From Verif Require Import Lib.Py Lib.Vec Lib.VecFacts Model.Samples Model.HealpixFFT Model.Cuda
  Spec.SamplesSpec Proofs.SamplesProofs Proofs.HealpixFFTProofs.
Open Scope Z_scope.
Set Default Proof Using "Type".

(** ** geometry *)
Lemma computeNphi_spec nside r : 1 <= nside -> 0 <= r < 4 * nside - 1 ->
  computeNphi nside r = (ring_length nside r, ring_start (ring_length nside) r).
Proof.
  intros Hn Hr. unfold computeNphi.
  destruct (Z.ltb_spec r (nside - 1)).
  - rewrite ring_start_north by lia. f_equal; [unfold ring_length; lia|nia].
  - destruct (r >? 3 * nside - 1) eqn:E.
    + pose proof (ring_start_south nside (r - 3 * nside) Hn ltac:(lia) ltac:(lia)) as S.
      replace (3 * nside + (r - 3 * nside)) with r in S by lia. rewrite S.
      assert (E2 : (4 * (4 * nside - 1 - r) =? 0) = false) by lia. rewrite E2.
      f_equal; [unfold ring_length; lia|nia].
    + pose proof (ring_start_equator nside (r - (nside - 1)) Hn ltac:(lia) ltac:(lia)) as S.
      replace (nside - 1 + (r - (nside - 1))) with r in S by lia. rewrite S.
      f_equal; [unfold ring_length; lia|nia].
Qed.

Lemma int32_in z : - 2 ^ 31 <= z < 2 ^ 31 -> int32 z = Some z.
Proof. intros H. unfold int32. now replace ((- 2 ^ 31 <=? z) && (z <? 2 ^ 31)) with true by lia. Qed.

Ltac i32 := unfold iadd at 1, isub at 1, imul at 1; rewrite int32_in;
  [cbn [obind]|try (cbn [Z.pow Z.pow_pos Pos.iter]; nia)].

Lemma computeNphi32_spec nside r : 1 <= nside -> 0 <= r < 4 * nside - 1 ->
  12 * nside * nside < 2 ^ 31 ->
  computeNphi32 nside r = Some (computeNphi nside r).
Proof.
  intros Hn Hr H. change (2 ^ 31) with 2147483648 in H.
  assert (B : nside <= 13377) by nia.
  unfold computeNphi32, computeNphi, iadd, isub, imul.
  assert (I : forall z, - 2147483648 <= z < 2147483648 -> int32 z = Some z)
    by (intros; apply int32_in; lia).
  do 7 (rewrite I by nia; cbn [obind]).
  destruct (Z.ltb_spec r (nside - 1)).
  - do 4 (rewrite I by nia; cbn [obind]). do 2 f_equal; lia.
  - do 2 (rewrite I by nia; cbn [obind]).
    destruct (r >? 3 * nside - 1) eqn:E.
    + do 6 (rewrite I by nia; cbn [obind]). do 2 f_equal; lia.
    + do 5 (rewrite I by nia; cbn [obind]). do 2 f_equal; lia.
Qed.

(** C++ remainder with fix-up is Python's %. *)
Lemma crem_mod a n : 0 < n -> crem a n = a mod n.
Proof.
  intros Hn. unfold crem. pose proof (Z.quot_rem' a n) as Q.
  destruct (Z_le_gt_dec 0 a).
  - pose proof (Z.rem_bound_pos a n ltac:(lia) Hn). replace (Z.rem a n <? 0) with false by lia.
    apply (Z.mod_unique _ _ (Z.quot a n)); lia.
  - pose proof (Z.rem_bound_pos_neg a n Hn ltac:(lia)).
    destruct (Z.ltb_spec (Z.rem a n) 0).
    + apply (Z.mod_unique _ _ (Z.quot a n - 1)); lia.
    + apply (Z.mod_unique _ _ (Z.quot a n)); lia.
Qed.

(** ** the thread machine *)
Section MachineFacts.
  Context {A : Type} (add : A -> A -> A) (zero : A).

  Definition exec_seq (data : vec A) (l : list instr) (s : (A * A) * vec A) : result ((A * A) * vec A) :=
    foldM (fun s c => exec_instr add data c s) l s.

  (** Addresses of the shared output used by an instruction. *)
  Definition out_addr (c : instr) : option Z :=
    match c with
    | LoadOut0 i | LoadOut1 i | Store0 i | Store1 i => Some i
    | LoadData _ | AddRegs => None
    end.

  Lemma exec_seq_app data l1 l2 s :
    exec_seq data (l1 ++ l2)%list s = let* s := exec_seq data l1 s in exec_seq data l2 s.
  Proof. apply foldM_app. Qed.

  (** An instruction only sees and changes its own output address. *)
  Lemma exec_instr_local data c r o1 o2 (F : Z -> Prop) r' o1' :
    vlen o1 = vlen o2 -> (forall i, F i -> vat o1 i = vat o2 i) ->
    (forall i, out_addr c = Some i -> F i) ->
    exec_instr add data c (r, o1) = Ok (r', o1') ->
    exists o2', exec_instr add data c (r, o2) = Ok (r', o2') /\
      vlen o1' = vlen o1 /\ vlen o2' = vlen o2 /\
      (forall i, F i -> vat o1' i = vat o2' i) /\
      (forall i, ~ F i -> vat o2' i = vat o2 i).
  Proof.
    intros Hl Hv Ha. destruct r as [r0 r1].
    destruct c; cbn [exec_instr out_addr] in *; unfold cread, cwrite; rewrite <- ?Hl.
    - destruct ((0 <=? i) && (i <? vlen data)); cbn [bind]; [|discriminate].
      intros [= <- <-]. eexists. split; [reflexivity|]. auto 10.
    - destruct ((0 <=? i) && (i <? vlen o1)); cbn [bind]; [|discriminate].
      intros [= <- <-]. rewrite <- (Hv i) by auto. eexists. split; [reflexivity|]. auto 10.
    - destruct ((0 <=? i) && (i <? vlen o1)); cbn [bind]; [|discriminate].
      intros [= <- <-]. rewrite <- (Hv i) by auto. eexists. split; [reflexivity|]. auto 10.
    - intros [= <- <-]. eexists. split; [reflexivity|]. auto 10.
    - destruct ((0 <=? i) && (i <? vlen o1)); cbn [bind]; [|discriminate].
      intros [= <- <-]. eexists. split; [reflexivity|]. cbn [vlen vat]. repeat split; auto.
      + intros j Hj. unfold vupd. destruct (j =? i); auto.
      + intros j Hj. apply vupd_other. intros ->. auto.
    - destruct ((0 <=? i) && (i <? vlen o1)); cbn [bind]; [|discriminate].
      intros [= <- <-]. eexists. split; [reflexivity|]. cbn [vlen vat]. repeat split; auto.
      + intros j Hj. unfold vupd. destruct (j =? i); auto.
      + intros j Hj. apply vupd_other. intros ->. auto.
  Qed.

  Section Par.
    Context (data out0 : vec A) (P : Z -> list instr) (F : Z -> Z -> Prop)
      (fin : Z -> (A * A) * vec A).
    (** footprints are disjoint, cover the addresses, and every program runs alone *)
    Hypothesis F_cover : forall t c i, In c (P t) -> out_addr c = Some i -> F t i.
    Hypothesis F_disj : forall t t' i, F t i -> F t' i -> t = t'.
    Hypothesis F_solo : forall t, exec_seq data (P t) ((zero, zero), out0) = Ok (fin t).

    Definition start (P : Z -> list instr) : kernel := mkKernel P (fun _ => (zero, zero)) out0.
    Definition inv (k : kernel) : Prop :=
      vlen (k_out k) = vlen out0 /\
      (forall t, exists done o, P t = (done ++ k_prog k t)%list /\
         exec_seq data done ((zero, zero), out0) = Ok (k_regs k t, o) /\ vlen o = vlen out0 /\
         forall i, F t i -> vat o i = vat (k_out k) i) /\
      (forall i, (forall t, ~ F t i) -> vat (k_out k) i = vat out0 i).

    Lemma inv_init : inv (start P).
    Proof.
      split; [reflexivity|]. split; [|reflexivity].
      intros t. exists [], out0. cbn. auto.
    Qed.

    Lemma inv_step k t : inv k -> exists k', kstep add data k t = Ok k' /\ inv k'.
    Proof using F_cover F_disj F_solo.
      intros (I1 & I2 & I3). unfold kstep. destruct (k_prog k t) as [|c rest] eqn:Ep.
      - exists k. split; [reflexivity|]. split; auto.
      - destruct (I2 t) as (done & o & Ed & Es & Eo & Ev). rewrite Ep in Ed.
        assert (S : exists s', exec_instr add data c (k_regs k t, o) = Ok s').
        { pose proof (F_solo t) as Hs. rewrite Ed, exec_seq_app, Es in Hs. cbn [bind exec_seq foldM] in Hs.
          destruct (exec_instr add data c (k_regs k t, o)) as [s'|] eqn:E; [eauto|discriminate]. }
        destruct S as [[r' o'] Hs].
        destruct (exec_instr_local data c (k_regs k t) o (k_out k) (F t) r' o')
          as (ko' & E & V1 & V2 & V3 & V4); auto; try congruence.
        { intros i Hi. apply (F_cover t c); auto. rewrite Ed. apply in_or_app. right; left; auto. }
        rewrite E. cbn [bind]. eexists. split; [reflexivity|].
        split; [cbn; congruence|]. cbn [k_out k_prog k_regs]. split.
        + intros t'. destruct (Z.eq_dec t' t) as [->|Hne].
          * exists (done ++ [c])%list, o'. rewrite !vupd_same. rewrite <- app_assoc. cbn [app].
            split; [auto|]. split; [|split; [congruence|auto]].
            rewrite exec_seq_app, Es. cbn [bind exec_seq foldM]. now rewrite Hs.
          * rewrite !vupd_other by auto. destruct (I2 t') as (d' & o2 & A1 & A2 & A3 & A4).
            exists d', o2. split; [auto|]. split; [auto|]. split; [auto|].
            intros i Hi. rewrite A4 by auto. symmetry. apply V4. intros Hc. apply Hne. eauto.
        + intros i Hi. rewrite V4 by auto. auto.
    Qed.

    Lemma inv_run sched : forall k, inv k -> exists k', krun add data sched k = Ok k' /\ inv k'.
    Proof using F_cover F_disj F_solo.
      induction sched as [|t l IH]; intros k Hk.
      - exists k. split; [reflexivity|auto].
      - destruct (inv_step k t Hk) as (k1 & E & H1). unfold krun in *. cbn [foldM]. rewrite E.
        cbn [bind]. apply IH. auto.
    Qed.

    (** Whatever the schedule, no access is out of bounds, and threads that have finished have
        left in their footprint what they leave when run alone. *)
    Lemma run_result sched : exists k, krun add data sched (start P) = Ok k /\
      vlen (k_out k) = vlen out0 /\
      (forall t, k_prog k t = [] -> forall i, F t i -> vat (k_out k) i = vat (snd (fin t)) i) /\
      (forall i, (forall t, ~ F t i) -> vat (k_out k) i = vat out0 i).
    Proof using F_cover F_disj F_solo.
      destruct (inv_run sched _ inv_init) as (k & E & I1 & I2 & I3).
      exists k. split; [exact E|]. split; [exact I1|]. split; [|exact I3].
      intros t Ht i Hi. destruct (I2 t) as (d & o & A1 & A2 & A3 & A4).
      rewrite Ht, app_nil_r in A1. subst d. rewrite F_solo in A2.
      injection A2 as A2. rewrite A2. symmetry. apply A4; auto.
    Qed.

    (** There is a schedule that finishes: run the threads one after the other. *)
    Lemma finish_thread t : forall n k, inv k -> List.length (k_prog k t) = n ->
      exists s k', krun add data s k = Ok k' /\ inv k' /\ k_prog k' t = [] /\
        forall t', t' <> t -> k_prog k' t' = k_prog k t'.
    Proof using F_cover F_disj F_solo.
      induction n as [|n IH]; intros k Hk Hl.
      - exists [], k. split; [reflexivity|]. split; [auto|]. split; [|auto].
        destruct (k_prog k t); [auto|discriminate].
      - destruct (k_prog k t) as [|c rest] eqn:Ep; [discriminate|].
        destruct (inv_step k t Hk) as (k1 & E & H1).
        assert (Ek : k_prog k1 t = rest /\ forall t', t' <> t -> k_prog k1 t' = k_prog k t').
        { unfold kstep in E. rewrite Ep in E. destruct (exec_instr _ _ _ _) as [[r' o']|]; [|discriminate].
          cbn [bind] in E. injection E as <-. cbn [k_prog]. rewrite vupd_same. split; [auto|].
          intros; now apply vupd_other. }
        destruct Ek as [Ek1 Ek2]. cbn in Hl.
        destruct (IH k1 H1) as (s & k' & R & I' & P1 & P2); [rewrite Ek1; lia|].
        exists (t :: s), k'. split; [unfold krun in *; cbn [foldM]; rewrite E; exact R|].
        split; [auto|]. split; [auto|]. intros t' Ht'. rewrite P2, Ek2; auto.
    Qed.

    Lemma finish_all : forall n, 0 <= n -> exists s k,
      krun add data s (start P) = Ok k /\ inv k /\ kfinished n k.
    Proof using F_cover F_disj F_solo.
      z_ind.
      - exists [], (start P). split; [reflexivity|]. split; [apply inv_init|].
        intros t Ht; lia.
      - intros n Hn (s & k & R & I & Fin).
        destruct (finish_thread n _ k I eq_refl) as (s2 & k2 & R2 & I2 & P1 & P2).
        exists (s ++ s2)%list, k2. split.
        { unfold krun in *. rewrite foldM_app, R. exact R2. }
        split; [auto|]. intros t Ht. destruct (Z.eq_dec t n) as [->|Hne]; [auto|].
        rewrite P2 by auto. apply Fin. lia.
    Qed.
  End Par.

  (** *** straight-line pieces *)
  Lemma cread_in (v : vec A) i : 0 <= i < vlen v -> cread v i = Ok (vat v i).
  Proof. intros H. unfold cread. now replace ((0 <=? i) && (i <? vlen v)) with true by lia. Qed.
  Lemma cwrite_in (v : vec A) i x : 0 <= i < vlen v ->
    cwrite v i x = Ok (mkVec (vlen v) (vupd (vat v) i x)).
  Proof. intros H. unfold cwrite. now replace ((0 <=? i) && (i <? vlen v)) with true by lia. Qed.

  Lemma copies_spec data (dst src : Z -> Z) n : 0 <= n -> forall r o,
    (forall i, 0 <= i < n -> 0 <= dst i < vlen o /\ 0 <= src i < vlen data) ->
    (forall i j, 0 <= i < n -> 0 <= j < n -> dst i = dst j -> i = j) ->
    exists r' o', exec_seq data (flat_map (fun i => copy (dst i) (src i)) (zrange 0 n)) (r, o) = Ok (r', o') /\
      vlen o' = vlen o /\ (forall i, 0 <= i < n -> vat o' (dst i) = vat data (src i)) /\
      (forall j, (forall i, 0 <= i < n -> dst i <> j) -> vat o' j = vat o j).
  Proof.
    revert n. z_ind.
    - intros r o _ _. exists r, o. split; [reflexivity|]. split; [auto|]. split; [intros; lia|auto].
    - intros n Hn IH r o Hb Hinj. replace (Z.succ n) with (n + 1) in * by lia.
      destruct (IH r o) as (r1 & o1 & E & V & G & O); [intros; apply Hb; lia|intros; apply Hinj; lia|].
      rewrite zrange_snoc by lia. rewrite flat_map_app, exec_seq_app, E. cbn [bind flat_map].
      destruct (Hb n ltac:(lia)) as [B1 B2]. destruct r1 as [x y].
      rewrite app_nil_r. unfold copy, exec_seq. cbn [foldM exec_instr].
      rewrite cread_in by auto. cbn [bind foldM exec_instr]. rewrite cwrite_in by lia. cbn [bind foldM exec_instr].
      eexists _, _. split; [reflexivity|]. cbn [vlen vat]. split; [auto|]. split.
      + intros i Hi. destruct (Z.eq_dec i n) as [->|Hne]; [apply vupd_same|].
        rewrite vupd_other; [apply G; lia|]. intros E2. apply Hne. apply Hinj; lia.
      + intros j Hj. rewrite vupd_other by (intros ->; apply (Hj n); lia). apply O.
        intros i Hi. apply Hj. lia.
  Qed.

  Lemma adds_spec data (dst src : Z -> Z) l : forall r o,
    (forall x, In x l -> 0 <= dst x < vlen o /\ 0 <= src x < vlen data) ->
    exists r' o', exec_seq data (flat_map (fun i => add_to (dst i) (src i)) l) (r, o) = Ok (r', o') /\
      vlen o' = vlen o /\
      (forall j, vat o' j = acc add (map (fun x => (dst x, vat data (src x))) l) j (vat o j)).
  Proof.
    induction l as [|x l IH]; intros r o Hb.
    - exists r, o. split; [reflexivity|]. auto.
    - cbn [flat_map]. rewrite exec_seq_app. destruct r as [r0 r1].
      destruct (Hb x) as [B1 B2]; [left; auto|].
      unfold add_to at 1, exec_seq at 1. cbn [foldM exec_instr].
      rewrite cread_in by auto. cbn [bind foldM exec_instr]. rewrite cread_in by auto. cbn [bind foldM exec_instr].
      rewrite cwrite_in by lia. cbn [bind foldM exec_instr].
      match goal with |- context [exec_seq data _ (?r, ?o)] =>
        destruct (IH r o) as (r' & o' & E & V & G) end.
      { cbn [vlen]. intros y Hy. apply Hb. right; auto. }
      exists r', o'. split; [exact E|]. split; [exact V|]. intros j. rewrite G. cbn [vat].
      unfold acc. cbn [map fold_left fst snd]. f_equal.
      destruct (Z.eqb_spec (dst x) j) as [<-|Hne]; [apply vupd_same|apply vupd_other; lia].
  Qed.

  Lemma swaps_spec data off h n : 0 <= n -> n <= h -> forall r o,
    0 <= off -> off + 2 * h <= vlen o ->
    exists r' o', exec_seq data (flat_map (fun i => swap (i + off) (i + off + h)) (zrange 0 n)) (r, o) = Ok (r', o') /\
      vlen o' = vlen o /\
      (forall i, 0 <= i < n -> vat o' (off + i) = vat o (off + i + h)) /\
      (forall i, 0 <= i < n -> vat o' (off + h + i) = vat o (off + i)) /\
      (forall j, ~ (off <= j < off + n) -> ~ (off + h <= j < off + h + n) -> vat o' j = vat o j).
  Proof.
    revert n. z_ind.
    - intros _ r o _ _. exists r, o. split; [reflexivity|]. repeat split; auto; intros; lia.
    - intros n Hn IH Hle r o H0 Hb. replace (Z.succ n) with (n + 1) in * by lia.
      destruct (IH ltac:(lia) r o H0 Hb) as (r1 & o1 & E & V & G1 & G2 & O).
      rewrite zrange_snoc by lia. rewrite flat_map_app, exec_seq_app, E. cbn [bind flat_map].
      destruct r1 as [x y]. rewrite app_nil_r. unfold swap, exec_seq. cbn [foldM exec_instr].
      rewrite cread_in by lia. cbn [bind foldM exec_instr]. rewrite cread_in by lia. cbn [bind foldM exec_instr].
      rewrite cwrite_in by lia. cbn [bind foldM exec_instr]. rewrite cwrite_in by (cbn [vlen]; lia). cbn [bind vlen vat].
      eexists _, _. split; [reflexivity|]. cbn [vlen vat]. split; [auto|].
      repeat split.
      + intros i Hi. rewrite vupd_other by lia. destruct (Z.eq_dec i n) as [->|Hne].
        * replace (n + off) with (off + n) by lia. rewrite vupd_same. apply O; lia.
        * rewrite vupd_other by lia. apply G1; lia.
      + intros i Hi. destruct (Z.eq_dec i n) as [->|Hne].
        * replace (n + off + h) with (off + h + n) by lia. rewrite vupd_same.
          replace (n + off) with (off + n) by lia. apply O; lia.
        * rewrite !vupd_other by lia. apply G2; lia.
      + intros j H1 H2. rewrite !vupd_other by lia. apply O; lia.
  Qed.
End MachineFacts.
