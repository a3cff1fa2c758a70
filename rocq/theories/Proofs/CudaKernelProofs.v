From Coq Require Import ZifyBool Psatz.
From Verif Require Import Lib.Py Lib.Vec Lib.VecFacts Model.Samples Model.HealpixFFT Model.Cuda
  Spec.SamplesSpec Proofs.SamplesProofs Proofs.HealpixFFTProofs Proofs.CudaProofs.
Open Scope Z_scope.
Set Default Proof Using "Type".

Lemma ring_start_bounds nside t : 1 <= nside -> 0 <= t < 4 * nside - 1 ->
  0 <= ring_start (ring_length nside) t /\
  ring_start (ring_length nside) t + ring_length nside t <= 12 * (nside * nside).
Proof.
  intros Hn Ht.
  assert (NN : forall i, 0 <= i < 4 * nside - 1 -> 0 <= ring_length nside i).
  { intros i Hi. pose proof (ring_length_pos nside i Hn ltac:(lia)). lia. }
  split.
  - rewrite <- (ring_start_0 (ring_length nside)). apply ring_start_mono; try lia.
    intros; apply NN; lia.
  - rewrite <- ring_start_succ by lia. rewrite <- ring_start_total by lia.
    apply ring_start_mono; try lia. intros; apply NN; lia.
Qed.

Lemma ring_blocks_disjoint nside t t' i : 1 <= nside ->
  0 <= t < 4 * nside - 1 -> 0 <= t' < 4 * nside - 1 ->
  ring_start (ring_length nside) t <= i < ring_start (ring_length nside) t + ring_length nside t ->
  ring_start (ring_length nside) t' <= i < ring_start (ring_length nside) t' + ring_length nside t' ->
  t = t'.
Proof.
  intros Hn Ht Ht' H H'.
  assert (NN : forall i, 0 <= i < 4 * nside - 1 -> 0 <= ring_length nside i).
  { intros j Hj. pose proof (ring_length_pos nside j Hn ltac:(lia)). lia. }
  destruct (Z.lt_trichotomy t t') as [L|[E|L]]; [exfalso|auto|exfalso].
  - pose proof (ring_start_mono (ring_length nside) (t + 1) t' ltac:(lia) ltac:(lia)) as M.
    rewrite ring_start_succ in M by lia. specialize (M ltac:(intros; apply NN; lia)). lia.
  - pose proof (ring_start_mono (ring_length nside) (t' + 1) t ltac:(lia) ltac:(lia)) as M.
    rewrite ring_start_succ in M by lia. specialize (M ltac:(intros; apply NN; lia)). lia.
Qed.

Lemma acc_shift {A} (add : A -> A -> A) {X} (d : X -> Z) (v : X -> A) l off i : forall a,
  acc add (map (fun x => (d x + off, v x)) l) (off + i) a = acc add (map (fun x => (d x, v x)) l) i a.
Proof.
  unfold acc. induction l as [|x l IH]; intros a; [reflexivity|].
  cbn [map fold_left fst snd]. rewrite IH. f_equal.
  destruct (Z.eqb_spec (d x + off) (off + i)); destruct (Z.eqb_spec (d x) i); auto; lia.
Qed.
Lemma acc_none {A} (add : A -> A -> A) l i : (forall p, In p l -> fst p <> i) ->
  forall a, acc add l i a = a.
Proof.
  unfold acc. induction l as [|x l IH]; intros H a; [reflexivity|].
  cbn [fold_left]. destruct (Z.eqb_spec (fst x) i) as [E|E].
  - exfalso. apply (H x); [left; auto|auto].
  - apply IH. intros p Hp. apply H. right; auto.
Qed.
Lemma map_zrange_shift {X} (f : Z -> X) a b k :
  map f (zrange (a + k) (b + k)) = map (fun i => f (i + k)) (zrange a b).
Proof.
  unfold zrange. replace (b + k - (a + k)) with (b - a) by lia.
  rewrite !map_map. apply map_ext. intros n. f_equal. lia.
Qed.
Lemma launched_ge n : 0 <= n -> n <= launched n.
Proof.
  intros H. unfold launched. rewrite Z.quot_div_nonneg by lia.
  pose proof (Z.div_mod (n + 128 - 1) 128 ltac:(lia)). pose proof (Z.mod_pos_bound (n + 128 - 1) 128 ltac:(lia)). lia.
Qed.

Section Kernels.
  Context {A : Type} (add : A -> A -> A) (zero : A).

  (** Row t of a flat array of Fourier coefficients. *)
  Definition flat_row (data : vec A) (L t : Z) : vec A :=
    mkVec (2 * L) (fun k => vat data (t * (2 * L) + k)).

  Definition ring_block (nside t i : Z) : Prop :=
    0 <= t < 4 * nside - 1 /\
    ring_start (ring_length nside) t <= i < ring_start (ring_length nside) t + ring_length nside t.

  Lemma folding_solo nside L shift data out0 t :
    1 <= nside -> 2 * nside <= L -> vlen data = (4 * nside - 1) * (2 * L) ->
    vlen out0 = 12 * (nside * nside) -> 0 <= t < 4 * nside - 1 ->
    exists r o, exec_seq add data (folding_program nside L shift t) ((zero, zero), out0) = Ok (r, o) /\
      vlen o = vlen out0 /\
      forall i, 0 <= i < ring_length nside t ->
        vat o (ring_start (ring_length nside) t + i)
        = folded add (vat (flat_row data L t)) (ring_length nside t) L
            (if shift then (i + ring_length nside t / 2) mod ring_length nside t else i).
  Proof.
    intros Hn HL Hd Ho Ht. unfold folding_program.
    replace (t >=? 4 * nside - 1) with false by lia.
    rewrite computeNphi_spec by lia.
    pose proof (ring_length_pos nside t Hn Ht) as R1.
    pose proof (ring_length_le nside t) as R2.
    pose proof (nphi_half nside t) as Hev. apply even_half in Hev.
    destruct (ring_start_bounds nside t Hn Ht) as [R3 R4].
    rewrite Z.quot_div_nonneg by lia.
    set (nphi := ring_length nside t) in *. set (off := ring_start (ring_length nside) t) in *.
    set (h := nphi / 2) in *.
    assert (T1 : 0 <= t * (2 * L)) by nia.
    assert (T2 : t * (2 * L) + 2 * L <= vlen data) by nia.
    (* copies *)
    destruct (copies_spec add data (fun i => i + off) (fun i => i + t * (2 * L) + (L - h)) nphi
      ltac:(lia) (zero, zero) out0) as (r1 & o1 & E1 & V1 & G1 & O1); [intros; lia|intros; lia|].
    rewrite exec_seq_app, E1. cbn [bind].
    (* negative orders *)
    destruct (adds_spec add data (fun i => crem (- (1 + i)) nphi + off)
      (fun i => L - h - (1 + i) + t * (2 * L)) (zrange 0 (L - h)) r1 o1) as (r2 & o2 & E2 & V2 & G2).
    { intros x Hx. apply in_zrange in Hx. rewrite crem_mod by lia.
      pose proof (Z.mod_pos_bound (- (1 + x)) nphi ltac:(lia)). lia. }
    rewrite exec_seq_app, E2. cbn [bind].
    destruct (adds_spec add data (fun i => crem i nphi + off)
      (fun i => L - h + nphi + i + t * (2 * L)) (zrange 0 (L - h)) r2 o2) as (r3 & o3 & E3 & V3 & G3).
    { intros x Hx. apply in_zrange in Hx. rewrite crem_mod by lia.
      pose proof (Z.mod_pos_bound x nphi ltac:(lia)). lia. }
    rewrite exec_seq_app, E3. cbn [bind].
    assert (F : forall i, 0 <= i < nphi ->
      vat o3 (off + i) = folded add (vat (flat_row data L t)) nphi L i).
    { intros i Hi. rewrite G3, G2. unfold folded, neg_adds, pos_adds. fold h.
      rewrite (acc_shift add (fun x => crem x nphi)), (acc_shift add (fun x => crem (- (1 + x)) nphi)).
      replace (off + i) with (i + off) by lia. rewrite G1 by lia.
      replace (zrange 1 (L - h + 1)) with (zrange (0 + 1) (L - h + 1)) by reflexivity.
      rewrite map_zrange_shift.
      assert (Q1 : map (fun x => (crem x nphi, vat data (L - h + nphi + x + t * (2 * L)))) (zrange 0 (L - h))
        = map (fun idx => (idx mod nphi, vat (flat_row data L t) (L - h + nphi + idx))) (zrange 0 (L - h))).
      { apply map_ext_in. intros x Hx. rewrite crem_mod by lia. cbn [vat flat_row]. do 2 f_equal. lia. }
      assert (Q2 : map (fun x => (crem (- (1 + x)) nphi, vat data (L - h - (1 + x) + t * (2 * L)))) (zrange 0 (L - h))
        = map (fun i0 => (- (i0 + 1) mod nphi, vat (flat_row data L t) (L - h - (i0 + 1)))) (zrange 0 (L - h))).
      { apply map_ext_in. intros x Hx. rewrite crem_mod by lia. cbn [vat flat_row].
        f_equal; [f_equal; lia|f_equal; lia]. }
      rewrite Q1, Q2. f_equal. f_equal. cbn [vat flat_row]. f_equal. lia. }
    destruct shift.
    - destruct (swaps_spec add data off h h ltac:(lia) ltac:(lia) r3 o3 ltac:(lia) ltac:(lia))
        as (r4 & o4 & E4 & V4 & S1 & S2 & S3).
      exists r4, o4. split; [exact E4|]. split; [lia|]. intros i Hi.
      destruct (Z_lt_dec i h).
      + rewrite S1 by lia. rewrite Z.mod_small by lia.
        replace (off + i + h) with (off + (i + h)) by lia. apply F. lia.
      + replace ((i + h) mod nphi) with (i - h).
        2:{ apply (Z.mod_unique _ _ 1); lia. }
        replace (off + i) with (off + h + (i - h)) by lia. rewrite S2 by lia. apply F. lia.
    - exists r3, o3. split; [reflexivity|]. split; [lia|]. exact F.
  Qed.

  (** Output addresses used by the folding program lie in the ring. *)
  Lemma folding_footprint nside L shift t c i :
    1 <= nside -> 2 * nside <= L -> 0 <= t ->
    In c (folding_program nside L shift t) -> out_addr c = Some i -> ring_block nside t i.
  Proof.
    intros Hn HL Ht0 Hin Ha. unfold folding_program in Hin.
    destruct (t >=? 4 * nside - 1) eqn:Et; [destruct Hin|].
    assert (Ht : 0 <= t < 4 * nside - 1) by lia.
    rewrite computeNphi_spec in Hin by lia.
    pose proof (ring_length_pos nside t Hn Ht) as R1.
    pose proof (nphi_half nside t) as Hev. apply even_half in Hev.
    rewrite Z.quot_div_nonneg in Hin by lia.
    split; [lia|]. set (nphi := ring_length nside t) in *.
    rewrite !in_app_iff in Hin. destruct Hin as [Hin|[Hin|[Hin|Hin]]].
    - apply in_flat_map in Hin. destruct Hin as (x & Hx & [<-|[<-|[]]]); cbn [out_addr] in Ha;
        [discriminate|injection Ha as <-]. apply in_zrange in Hx. lia.
    - apply in_flat_map in Hin. destruct Hin as (x & Hx & Hc). apply in_zrange in Hx.
      rewrite crem_mod in Hc by lia. pose proof (Z.mod_pos_bound (- (1 + x)) nphi ltac:(lia)).
      set (d := (- (1 + x)) mod nphi) in *. clearbody d.
      destruct Hc as [<-|[<-|[<-|[<-|[]]]]]; cbn [out_addr] in Ha; try discriminate; injection Ha as <-; lia.
    - apply in_flat_map in Hin. destruct Hin as (x & Hx & Hc). apply in_zrange in Hx.
      rewrite crem_mod in Hc by lia. pose proof (Z.mod_pos_bound x nphi ltac:(lia)).
      set (d := x mod nphi) in *. clearbody d.
      destruct Hc as [<-|[<-|[<-|[<-|[]]]]]; cbn [out_addr] in Ha; try discriminate; injection Ha as <-; lia.
    - destruct shift; [|destruct Hin].
      apply in_flat_map in Hin. destruct Hin as (x & Hx & Hc). apply in_zrange in Hx.
      destruct Hc as [<-|[<-|[<-|[<-|[]]]]]; cbn [out_addr] in Ha; try discriminate; injection Ha as <-; lia.
  Qed.

  (** What the folding kernel must leave in the output. *)
  Definition folding_output (nside L : Z) (shift : bool) (data out : vec A) : Prop :=
    vlen out = 12 * (nside * nside) /\
    forall t i, 0 <= t < 4 * nside - 1 -> 0 <= i < ring_length nside t ->
      vat out (ring_start (ring_length nside) t + i)
      = folded add (vat (flat_row data L t)) (ring_length nside t) L
          (if shift then (i + ring_length nside t / 2) mod ring_length nside t else i).

  Lemma folding_kernel nside L shift data out0 :
    1 <= nside -> 2 * nside <= L -> vlen data = (4 * nside - 1) * (2 * L) ->
    vlen out0 = 12 * (nside * nside) ->
    let n := launched (4 * nside - 1) in
    let prog := folding_program nside L shift in
    (forall sched, exists k, krun add data sched (klaunch zero n prog out0) = Ok k /\
       (kfinished n k -> folding_output nside L shift data (k_out k))) /\
    (exists sched k, krun add data sched (klaunch zero n prog out0) = Ok k /\
       kfinished n k).
  Proof.
    intros Hn HL Hd Ho n prog0. unfold klaunch.
    set (prog := clip n prog0).
    pose proof (launched_ge (4 * nside - 1) ltac:(lia)) as HLa. fold n in HLa.
    assert (Pin : forall t, 0 <= t < 4 * nside - 1 -> prog t = folding_program nside L shift t).
    { intros t Ht. unfold prog, clip, prog0. now replace ((0 <=? t) && (t <? n)) with true by lia. }
    assert (Pout : forall t, ~ (0 <= t < 4 * nside - 1) -> prog t = []).
    { intros t Ht. unfold prog, clip, prog0, folding_program.
      destruct ((0 <=? t) && (t <? n)) eqn:E; [|auto].
      now replace (t >=? 4 * nside - 1) with true by lia. }
    assert (solo : forall t, exists s, exec_seq add data (prog t) ((zero, zero), out0) = Ok s /\
      (0 <= t < 4 * nside - 1 ->
       forall i, 0 <= i < ring_length nside t ->
        vat (snd s) (ring_start (ring_length nside) t + i)
        = folded add (vat (flat_row data L t)) (ring_length nside t) L
            (if shift then (i + ring_length nside t / 2) mod ring_length nside t else i))).
    { intros t. destruct (Z_le_dec 0 t) as [H0|H0]; [destruct (Z_lt_dec t (4 * nside - 1)) as [H1|H1]|].
      - destruct (folding_solo nside L shift data out0 t) as (r & o & E & V & G); auto; try lia.
        rewrite Pin by lia. exists (r, o). split; [exact E|]. auto.
      - rewrite Pout by lia. eexists. split; [reflexivity|]. lia.
      - rewrite Pout by lia. eexists. split; [reflexivity|]. lia. }
    (* a function from the existence: use the decidable computation itself *)
    set (fin := fun t => match exec_seq add data (prog t) ((zero, zero), out0) with
                         | Ok s => s | Err _ => ((zero, zero), out0) end).
    assert (Hfin : forall t, exec_seq add data (prog t) ((zero, zero), out0) = Ok (fin t)).
    { intros t. unfold fin. destruct (solo t) as (s & -> & _). reflexivity. }
    assert (Hcov : forall t c i, In c (prog t) -> out_addr c = Some i -> ring_block nside t i).
    { intros t c i Hc Hi.
      destruct (Z_le_dec 0 t) as [H0|H0]; [destruct (Z_lt_dec t (4 * nside - 1)) as [H1|H1]|].
      - rewrite Pin in Hc by lia. eapply folding_footprint; eauto.
      - rewrite Pout in Hc by lia. destruct Hc.
      - rewrite Pout in Hc by lia. destruct Hc. }
    assert (Hdis : forall t t' i, ring_block nside t i -> ring_block nside t' i -> t = t').
    { intros t t' i [H1 H2] [H3 H4]. eapply ring_blocks_disjoint; eauto. }
    split.
    - intros sched.
      destruct (run_result add zero data out0 prog (ring_block nside) fin Hcov Hdis Hfin sched)
        as (k & E & V & G & _).
      exists k. split; [exact E|]. intros Hf. split; [congruence|].
      intros t i Ht Hi. rewrite (G t).
      + destruct (solo t) as (s & Es & Gs). rewrite Hfin in Es. injection Es as ->. auto.
      + apply Hf. lia.
      + split; [auto|]. lia.
    - destruct (finish_all add zero data out0 prog (ring_block nside) fin Hcov Hdis Hfin
        n ltac:(lia)) as (s & k & E & _ & F).
      exists s, k. auto.
  Qed.

  (** *** extension *)
  Lemma extension_src nside L t k :
    1 <= nside -> 2 * nside <= L -> 0 <= t < 4 * nside - 1 -> 0 <= k < 2 * L ->
    extension_program nside L (t * (2 * L) + k)
    = copy (t * (2 * L) + k)
        (ring_start (ring_length nside) t
         + (k - (L - ring_length nside t / 2)) mod ring_length nside t).
  Proof.
    intros Hn HL Ht Hk. unfold extension_program.
    assert (B : 0 <= t * (2 * L)) by nia.
    replace (t * (2 * L) + k >=? (4 * nside - 1) * (2 * L)) with false by nia.
    rewrite Z.quot_div_nonneg, Z.rem_mod_nonneg by lia.
    assert (Eq : (t * (2 * L) + k) / (2 * L) = t).
    { symmetry. apply (Z.div_unique _ _ _ k); [left; lia|ring]. }
    assert (Er : (t * (2 * L) + k) mod (2 * L) = k).
    { symmetry. apply (Z.mod_unique _ _ t); [left; lia|ring]. }
    rewrite Eq, Er. rewrite computeNphi_spec by lia.
    pose proof (ring_length_pos nside t Hn Ht) as R1.
    pose proof (ring_length_le nside t) as R2.
    pose proof (nphi_half nside t) as Hev. apply even_half in Hev.
    rewrite !Z.quot_div_nonneg by lia.
    set (nphi := ring_length nside t) in *. set (off := ring_start (ring_length nside) t) in *.
    assert (Hh : (nphi + 1) / 2 = nphi / 2).
    { symmetry. apply (Z.div_unique _ _ _ 1); lia. }
    rewrite Hh. set (h := nphi / 2) in *.
    destruct (Z.ltb_spec k (L - h)).
    - rewrite crem_mod by lia. f_equal. rewrite Z.add_comm. do 2 f_equal. lia.
    - destruct ((k >=? L - h) && (k <? L + h)) eqn:E.
      + rewrite Z.mod_small by lia. f_equal. lia.
      + rewrite crem_mod by lia. f_equal. rewrite Z.add_comm. f_equal.
        replace (L - h - (2 * L - k)) with (k - (L - h) + (-1) * nphi) by lia.
        now rewrite Z_mod_plus_full.
  Qed.

  Definition extension_output (nside L : Z) (data out : vec A) : Prop :=
    vlen out = (4 * nside - 1) * (2 * L) /\
    forall t k, 0 <= t < 4 * nside - 1 -> 0 <= k < 2 * L ->
      vat out (t * (2 * L) + k)
      = vat data (ring_start (ring_length nside) t
          + (k - (L - ring_length nside t / 2)) mod ring_length nside t).

  Lemma extension_kernel nside L data out0 :
    1 <= nside -> 2 * nside <= L -> vlen data = 12 * (nside * nside) ->
    vlen out0 = (4 * nside - 1) * (2 * L) ->
    let n := launched (2 * L * (4 * nside - 1)) in
    let prog := extension_program nside L in
    (forall sched, exists k, krun add data sched (klaunch zero n prog out0) = Ok k /\
       (kfinished n k -> extension_output nside L data (k_out k))) /\
    (exists sched k, krun add data sched (klaunch zero n prog out0) = Ok k /\ kfinished n k).
  Proof.
    intros Hn HL Hd Ho n prog0. unfold klaunch.
    set (prog := clip n prog0).
    pose proof (launched_ge (2 * L * (4 * nside - 1)) ltac:(nia)) as HLa. fold n in HLa.
    set (tot := (4 * nside - 1) * (2 * L)) in *.
    assert (HLb : tot <= n) by (unfold tot; nia). clear HLa.
    assert (Htot : 0 <= tot) by (unfold tot; nia).
    assert (split_tid : forall i, 0 <= i < tot -> exists t k, i = t * (2 * L) + k /\
       0 <= t < 4 * nside - 1 /\ 0 <= k < 2 * L).
    { intros i Hi. exists (i / (2 * L)), (i mod (2 * L)).
      pose proof (Z.div_mod i (2 * L) ltac:(lia)). pose proof (Z.mod_pos_bound i (2 * L) ltac:(lia)).
      unfold tot in Hi. split; [lia|]. split; [|lia]. split; nia. }
    assert (Pin : forall t k, 0 <= t < 4 * nside - 1 -> 0 <= k < 2 * L -> prog (t * (2 * L) + k)
      = copy (t * (2 * L) + k) (ring_start (ring_length nside) t
         + (k - (L - ring_length nside t / 2)) mod ring_length nside t)).
    { intros t k Ht Hk. unfold prog, clip, prog0.
      replace ((0 <=? t * (2 * L) + k) && (t * (2 * L) + k <? n)) with true by (unfold tot in *; nia).
      apply extension_src; auto. }
    assert (Pout : forall t, ~ (0 <= t < tot) -> prog t = []).
    { intros t Ht. unfold prog, clip, prog0, extension_program.
      destruct ((0 <=? t) && (t <? n)) eqn:E; [|auto]. fold tot.
      now replace (t >=? tot) with true by lia. }
    assert (solo : forall i, exists s, exec_seq add data (prog i) ((zero, zero), out0) = Ok s /\
      forall t k, 0 <= t < 4 * nside - 1 -> 0 <= k < 2 * L -> i = t * (2 * L) + k ->
        vat (snd s) i = vat data (ring_start (ring_length nside) t
         + (k - (L - ring_length nside t / 2)) mod ring_length nside t)).
    { intros i. destruct (Z_le_dec 0 i) as [H0|H0]; [destruct (Z_lt_dec i tot) as [H1|H1]|].
      - destruct (split_tid i ltac:(lia)) as (t & k & -> & Ht & Hk). rewrite Pin by auto.
        pose proof (ring_length_pos nside t Hn Ht).
        pose proof (Z.mod_pos_bound (k - (L - ring_length nside t / 2)) (ring_length nside t) ltac:(lia)).
        destruct (ring_start_bounds nside t Hn Ht).
        unfold copy, exec_seq. cbn [foldM exec_instr]. rewrite cread_in by lia. cbn [bind exec_instr].
        rewrite cwrite_in by lia. cbn [bind]. eexists. split; [reflexivity|].
        intros t' k' Ht' Hk' E. assert (t' = t) by nia. subst t'. assert (k' = k) by lia. subst k'.
        cbn [snd vat]. apply vupd_same.
      - rewrite Pout by lia. eexists. split; [reflexivity|]. intros; subst i. unfold tot in *. nia.
      - rewrite Pout by lia. eexists. split; [reflexivity|]. intros; subst i. unfold tot in *. nia. }
    set (fin := fun t => match exec_seq add data (prog t) ((zero, zero), out0) with
                         | Ok s => s | Err _ => ((zero, zero), out0) end).
    assert (Hfin : forall t, exec_seq add data (prog t) ((zero, zero), out0) = Ok (fin t)).
    { intros t. unfold fin. destruct (solo t) as (s & -> & _). reflexivity. }
    assert (Hcov : forall t c i, In c (prog t) -> out_addr c = Some i -> t = i).
    { intros i c j Hc Hj. destruct (Z_le_dec 0 i) as [H0|H0]; [destruct (Z_lt_dec i tot) as [H1|H1]|].
      - destruct (split_tid i ltac:(lia)) as (t & k & -> & Ht & Hk). rewrite Pin in Hc by auto.
        destruct Hc as [<-|[<-|[]]]; cbn [out_addr] in Hj; congruence.
      - rewrite Pout in Hc by lia. destruct Hc.
      - rewrite Pout in Hc by lia. destruct Hc. }
    assert (Hdis : forall t t' i : Z, t = i -> t' = i -> t = t') by congruence.
    split.
    - intros sched.
      destruct (run_result add zero data out0 prog (fun t i => t = i) fin Hcov Hdis Hfin sched)
        as (k & E & V & G & _).
      exists k. split; [exact E|]. intros Hf. split; [rewrite V; exact Ho|].
      intros t j Ht Hj. rewrite (G (t * (2 * L) + j)); auto.
      + destruct (solo (t * (2 * L) + j)) as (s & Es & Gs). rewrite Hfin in Es. assert (E3 : fin (t * (2 * L) + j) = s) by congruence. rewrite E3.
        now apply Gs.
      + apply Hf. unfold tot in HLb. nia.
    - destruct (finish_all add zero data out0 prog (fun t i => t = i) fin Hcov Hdis Hfin n ltac:(lia))
        as (s & k & E & _ & F). exists s, k. auto.
  Qed.
End Kernels.
