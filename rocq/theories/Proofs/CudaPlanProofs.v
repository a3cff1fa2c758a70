From Coq Require Import ZifyBool Psatz.
From Verif Require Import Lib.Py Lib.Vec Lib.VecFacts Model.Samples Model.HealpixFFT Model.Cuda
  Spec.SamplesSpec Proofs.SamplesProofs Proofs.HealpixFFTProofs Proofs.CudaProofs Proofs.CudaKernelProofs.
Open Scope Z_scope.
Set Default Proof Using "Type".

Notation rs nside t := (ring_start (ring_length nside) t).

Lemma init_offsets_spec nside : 1 <= nside ->
  init_offsets nside = (map (fun i => rs nside i) (zrange 0 (nside - 1)),
    map (fun i => rs nside (4 * nside - 2 - i)) (zrange 0 (nside - 1)),
    rs nside (nside - 1), rs nside (3 * nside)).
Proof.
  intros Hn. unfold init_offsets.
  assert (P : forall T, 0 <= T -> T <= nside - 1 ->
    fold_left (fun st i =>
      let '(up, low, s, e) := st in
      ((up ++ [s])%list, (low ++ [e - 4 * (i + 1)])%list, s + 4 * (i + 1), e - 4 * (i + 1)))
      (zrange 0 T) ([], [], 0, 12 * nside * nside)
    = (map (fun i => rs nside i) (zrange 0 T),
       map (fun i => rs nside (4 * nside - 2 - i)) (zrange 0 T),
       rs nside T, rs nside (4 * nside - 1 - T))).
  { z_ind.
    - intros _. rewrite zrange_nil by lia. cbn [fold_left map].
      rewrite Z.sub_0_r, ring_start_total by lia. rewrite ring_start_0. f_equal. ring.
    - intros T HT IH HT2. replace (Z.succ T) with (T + 1) by lia.
      rewrite zrange_snoc, fold_left_app, IH by lia. cbn [fold_left].
      rewrite !map_app. cbn [map].
      assert (RL : ring_length nside T = 4 * (T + 1)) by (unfold ring_length; lia).
      assert (RL2 : ring_length nside (4 * nside - 2 - T) = 4 * (T + 1)) by (unfold ring_length; lia).
      pose proof (ring_start_succ (ring_length nside) T HT) as S1. rewrite RL in S1.
      pose proof (ring_start_succ (ring_length nside) (4 * nside - 2 - T) ltac:(lia)) as S2.
      rewrite RL2 in S2. replace (4 * nside - 2 - T + 1) with (4 * nside - 1 - T) in S2 by lia.
      replace (4 * nside - 1 - (T + 1)) with (4 * nside - 2 - T) by lia.
      replace (rs nside (4 * nside - 1 - T) - 4 * (T + 1)) with (rs nside (4 * nside - 2 - T)) by lia.
      now rewrite S1. }
  rewrite P by lia. replace (4 * nside - 1 - (nside - 1)) with (3 * nside) by lia. reflexivity.
Qed.

Lemma half_shift_inv n j : 0 < n -> 0 <= j < n -> ((j - n / 2) mod n + n / 2) mod n = j.
Proof.
  intros. rewrite Zplus_mod_idemp_l. replace (j - n / 2 + n / 2) with j by lia. now apply Z.mod_small.
Qed.
Lemma half_shift_inj n e e' : 0 < n -> 0 <= e < n -> 0 <= e' < n ->
  (e + n / 2) mod n = (e' + n / 2) mod n -> e = e'.
Proof.
  intros Hn He He' E.
  assert (Q : forall x, 0 <= x < n -> ((x + n / 2) mod n - n / 2) mod n = x).
  { intros x Hx. rewrite Zminus_mod_idemp_l. replace (x + n / 2 - n / 2) with x by lia. now apply Z.mod_small. }
  rewrite <- (Q e), <- (Q e'), E by auto. reflexivity.
Qed.

Lemma fft_shift_spec b e n dist : 0 < n -> n <= dist -> 0 <= e < n -> b = 0 \/ b = 1 ->
  fft_shift (b * dist + e) n dist = b * dist + (e + n / 2) mod n.
Proof.
  intros Hn Hd He Hb. unfold fft_shift. pose proof (Z.div_pos n 2 ltac:(lia) ltac:(lia)).
  rewrite Z.quot_div_nonneg by lia.
  destruct Hb as [-> | ->].
  - replace (0 * dist + e <? dist) with true by lia.
    replace (0 * dist + e - 0 + n / 2) with (e + n / 2) by lia.
    rewrite Z.rem_mod_nonneg by lia. lia.
  - replace (1 * dist + e <? dist) with false by lia.
    replace (1 * dist + e - dist + n / 2) with (e + n / 2) by lia.
    rewrite Z.rem_mod_nonneg by lia. lia.
Qed.
Lemma fft_shift_eq_spec b e n : 0 < n -> 0 <= e < n -> 0 <= b ->
  fft_shift_eq (b * n + e) n = b * n + (e + n / 2) mod n.
Proof.
  intros Hn He Hb. unfold fft_shift_eq. pose proof (Z.div_pos n 2 ltac:(lia) ltac:(lia)).
  assert (0 <= b * n) by nia.
  assert (E1 : Z.quot (b * n + e) n = b).
  { rewrite Z.quot_div_nonneg by lia. symmetry. apply (Z.div_unique _ _ _ e); lia. }
  assert (E2 : Z.rem (b * n + e) n = e).
  { rewrite Z.rem_mod_nonneg by lia. symmetry. apply (Z.mod_unique _ _ b); lia. }
  rewrite E1, E2, Z.quot_div_nonneg by lia. rewrite Z.rem_mod_nonneg by lia.
  replace (b * n + e + n / 2) with (e + n / 2 + b * n) by lia. rewrite Z_mod_plus_full. lia.
Qed.

(** Positions written by a plan. *)
Definition slot (p : plan) (e : Z) : Z := if pl_shift p then (e + pl_n p / 2) mod pl_n p else e.
Definition unslot (p : plan) (j : Z) : Z := if pl_shift p then (j - pl_n p / 2) mod pl_n p else j.
Definition plan_ok (p : plan) : Prop :=
  0 < pl_n p /\ pl_n p <= pl_dist p /\ 0 <= pl_batch p /\
  (if pl_eq p then pl_dist p = pl_n p else pl_batch p <= 2).

Lemma store_index_spec p b e : plan_ok p -> 0 <= b < pl_batch p -> 0 <= e < pl_n p ->
  store_index p (b * pl_dist p + e) = b * pl_dist p + slot p e.
Proof.
  intros (H1 & H2 & H3 & H4) Hb He. unfold store_index, slot. destruct (pl_shift p); [|auto].
  destruct (pl_eq p).
  - rewrite H4. apply fft_shift_eq_spec; lia.
  - apply fft_shift_spec; lia.
Qed.
Lemma slot_bound p e : 0 < pl_n p -> 0 <= e < pl_n p -> 0 <= slot p e < pl_n p.
Proof. intros. unfold slot. destruct (pl_shift p); [apply Z.mod_pos_bound; lia|auto]. Qed.
Lemma slot_unslot p j : 0 < pl_n p -> 0 <= j < pl_n p -> slot p (unslot p j) = j /\ 0 <= unslot p j < pl_n p.
Proof.
  intros. unfold slot, unslot. destruct (pl_shift p); [|auto].
  split; [now apply half_shift_inv|]. apply Z.mod_pos_bound. lia.
Qed.

Section Exec.
  Context {A : Type} (scale1 scale2 : Z -> A -> A).
  Notation scal := (apply_scaling scale1 scale2).

  Lemma exec_plan_spec (dft : vec A -> vec A) p base buf : plan_ok p -> 0 <= base ->
    (0 < pl_batch p -> base + (pl_batch p - 1) * pl_dist p + pl_n p <= vlen buf) ->
    exists out, exec_plan scale1 scale2 dft p base buf = Ok out /\ vlen out = vlen buf /\
      (forall b j, 0 <= b < pl_batch p -> 0 <= j < pl_n p ->
         vat out (base + b * pl_dist p + j)
         = scal (pl_scale p) (pl_n p)
             (vat (dft (mkVec (pl_n p) (fun e => vat buf (base + b * pl_dist p + e)))) (unslot p j))) /\
      (forall i, (forall b, 0 <= b < pl_batch p ->
          ~ (base + b * pl_dist p <= i < base + b * pl_dist p + pl_n p)) -> vat out i = vat buf i).
  Proof.
    intros Hp Hbase Hlen. pose proof Hp as (P1 & P2 & P3 & P4). unfold exec_plan.
    rewrite foldM_nested.
    set (l := flat_map (fun b => map (fun e => (b, e)) (zrange 0 (pl_n p))) (zrange 0 (pl_batch p))).
    assert (Hl : forall b e, In (b, e) l <-> 0 <= b < pl_batch p /\ 0 <= e < pl_n p).
    { intros b e. unfold l. rewrite in_flat_map_pairs, !in_zrange. lia. }
    set (val := fun x : Z * Z => scal (pl_scale p) (pl_n p)
      (vat (dft (mkVec (pl_n p) (fun e => vat buf (base + fst x * pl_dist p + e)))) (snd x))).
    set (tgt := fun x : Z * Z => base + fst x * pl_dist p + slot p (snd x)).
    assert (Htgt : forall x, In x l -> 0 <= tgt x < vlen buf).
    { intros [b e] Hx. apply Hl in Hx. unfold tgt. cbn [fst snd].
      pose proof (slot_bound p e P1 ltac:(lia)). nia. }
    destruct (vwrite_loop tgt val
      (fun out x => cwrite out (base + store_index p (fst x * pl_dist p + snd x))
         (scal (pl_scale p) (pl_n p)
           (vat (dft (mkVec (pl_n p) (fun e => vat buf (base + fst x * pl_dist p + e)))) (snd x))))
      l buf) as (out & E & V & G & O).
    - intros v' [b e] Hv' Hx. apply Hl in Hx as Hx2. cbn [fst snd].
      rewrite store_index_spec by (auto; lia). specialize (Htgt _ Hx). unfold tgt, val in *. cbn [fst snd] in *.
      replace (base + (b * pl_dist p + slot p e)) with (base + b * pl_dist p + slot p e) by lia.
      rewrite cwrite_in, vwrite_in by lia. reflexivity.
    - exact Htgt.
    - apply NoDup_flat_map_pairs; intros; apply zrange_NoDup.
    - intros [b e] [b' e'] H1 H2. apply Hl in H1, H2. unfold tgt. cbn [fst snd]. intros Eq.
      pose proof (slot_bound p e P1 ltac:(lia)). pose proof (slot_bound p e' P1 ltac:(lia)).
      assert (b = b') by nia. subst b'. f_equal.
      assert (Es : slot p e = slot p e') by lia. unfold slot in Es.
      destruct (pl_shift p); [|auto]. eapply half_shift_inj; eauto; lia.
    - exists out. split; [exact E|]. split; [exact V|]. split.
      + intros b j Hb Hj. destruct (slot_unslot p j P1 Hj) as [S1 S2].
        specialize (G (b, unslot p j)). unfold tgt, val in G. cbn [fst snd] in G. rewrite S1 in G.
        apply G. apply Hl. lia.
      + intros i Hi. apply O. intros [b e] Hx. apply Hl in Hx. unfold tgt. cbn [fst snd].
        pose proof (slot_bound p e P1 ltac:(lia)). specialize (Hi b ltac:(lia)). lia.
  Qed.
End Exec.

(** ** the executor a fresh Initialize creates *)
Definition fresh (d : descriptor) : executor := fst (initialize new_executor d).

Definition polar_plan (nside i : Z) (s : scaling) (sh : bool) : plan :=
  mkPlan (4 * (i + 1)) (rs nside (4 * nside - 2 - i) - rs nside i) 2 false sh s.
Definition equator_plan (nside : Z) (s : scaling) (sh : bool) : plan :=
  mkPlan (4 * nside) (4 * nside) (2 * nside + 1) true sh s.

Lemma nth_map_zrange {X} (f : Z -> X) n i d rest : 0 <= i < n ->
  nth (Z.to_nat i) (map f (zrange 0 n) ++ rest)%list d = f i.
Proof.
  intros Hi. rewrite app_nth1 by (rewrite map_length, zrange_length; lia).
  rewrite (nth_indep _ d (f 0)) by (rewrite map_length, zrange_length; lia).
  rewrite map_nth. f_equal. unfold zrange.
  rewrite (nth_indep _ 0 ((fun i => 0 + Z.of_nat i) 0%nat)) by (rewrite map_length, seq_length; lia).
  rewrite (map_nth (fun i => 0 + Z.of_nat i)), seq_nth by lia. lia.
Qed.
Lemma nth_error_map_zrange {X} (f : Z -> X) n i rest : 0 <= i < n ->
  nth_error (map f (zrange 0 n) ++ rest)%list (Z.to_nat i) = Some (f i).
Proof.
  intros Hi. rewrite (nth_error_nth' _ (f 0)).
  - f_equal. now apply nth_map_zrange.
  - rewrite app_length, map_length, zrange_length. lia.
Qed.

Lemma equator_count nside : 1 <= nside ->
  Z.quot (rs nside (3 * nside) - rs nside (nside - 1)) (4 * nside) = 2 * nside + 1.
Proof.
  intros Hn. pose proof (ring_start_equator nside (2 * nside + 1) Hn ltac:(lia) ltac:(lia)) as E.
  pose proof (ring_start_equator nside 0 Hn ltac:(lia) ltac:(lia)) as E0.
  replace (nside - 1 + (2 * nside + 1)) with (3 * nside) in E by lia.
  replace (nside - 1 + 0) with (nside - 1) in E0 by lia.
  replace (rs nside (3 * nside) - rs nside (nside - 1)) with ((2 * nside + 1) * (4 * nside)) by nia.
  apply Z.quot_mul. lia.
Qed.

(** An executor whose vectors start with what a fresh initialisation pushes. *)
Definition good (d : descriptor) (ex : executor) : Prop :=
  let nside := d_nside d in
  let '(fs, fsh) := callback_forward (d_shift d) (d_norm d) in
  let '(bs, bsh) := callback_backward (d_norm d) in
  e_nside ex = nside /\
  (exists r, e_polar ex = (map (fun i => polar_plan nside i fs fsh) (zrange 0 (nside - 1)) ++ r)%list) /\
  (exists r, e_inv_polar ex = (map (fun i => polar_plan nside i bs bsh) (zrange 0 (nside - 1)) ++ r)%list) /\
  e_equator ex = Some (equator_plan nside fs fsh) /\
  e_inv_equator ex = Some (equator_plan nside bs bsh) /\
  e_eq_start ex = rs nside (nside - 1) /\
  (exists r, e_upper ex = (map (fun i => rs nside i) (zrange 0 (nside - 1)) ++ r)%list) /\
  (exists r, e_lower ex = (map (fun i => rs nside (4 * nside - 2 - i)) (zrange 0 (nside - 1)) ++ r)%list).

Lemma initialize_good d ex : 1 <= d_nside d -> ex = new_executor \/ good d ex ->
  good d (fst (initialize ex d)).
Proof.
  intros Hn Hex. unfold initialize. rewrite init_offsets_spec by auto.
  rewrite equator_count by auto.
  unfold good in *. destruct (callback_forward (d_shift d) (d_norm d)) as [fs fsh] eqn:Ef.
  destruct (callback_backward (d_norm d)) as [bs bsh] eqn:Eb.
  set (nside := d_nside d) in *.
  assert (PL : forall up low s sh i, 0 <= i < nside - 1 ->
    (exists r, up = (map (fun i => rs nside i) (zrange 0 (nside - 1)) ++ r)%list) ->
    (exists r, low = (map (fun i => rs nside (4 * nside - 2 - i)) (zrange 0 (nside - 1)) ++ r)%list) ->
    mkPlan (4 * (i + 1)) (nth (Z.to_nat i) low 0 - nth (Z.to_nat i) up 0) 2 false sh s
    = polar_plan nside i s sh).
  { intros up low s sh i Hi [r1 ->] [r2 ->]. unfold polar_plan.
    rewrite !nth_map_zrange by auto. reflexivity. }
  assert (U : exists r, (e_upper ex ++ map (fun i => rs nside i) (zrange 0 (nside - 1)))%list
     = (map (fun i => rs nside i) (zrange 0 (nside - 1)) ++ r)%list).
  { destruct Hex as [->|Hex]; [exists []; cbn; now rewrite app_nil_r|].
    destruct Hex as (_ & _ & _ & _ & _ & _ & [r ->] & _). rewrite <- app_assoc. eauto. }
  assert (W : exists r, (e_lower ex ++ map (fun i => rs nside (4 * nside - 2 - i)) (zrange 0 (nside - 1)))%list
     = (map (fun i => rs nside (4 * nside - 2 - i)) (zrange 0 (nside - 1)) ++ r)%list).
  { destruct Hex as [->|Hex]; [exists []; cbn; now rewrite app_nil_r|].
    destruct Hex as (_ & _ & _ & _ & _ & _ & _ & [r ->]). rewrite <- app_assoc. eauto. }
  cbn [fst e_nside e_polar e_inv_polar e_equator e_inv_equator e_eq_start e_upper e_lower].
  split; [auto|]. split; [|split; [|split; [auto|split; [auto|split; [auto|split; auto]]]]].
  - match goal with |- exists r, (_ ++ map ?f ?l)%list = _ =>
      assert (M : map f l = map (fun i => polar_plan nside i fs fsh) l) end.
    { apply map_ext_in. intros i Hi. apply in_zrange in Hi. apply PL; auto. }
    rewrite M. destruct Hex as [->|Hex]; [exists []; cbn; now rewrite app_nil_r|].
    destruct Hex as (_ & [r ->] & _). rewrite <- app_assoc. eauto.
  - match goal with |- exists r, (_ ++ map ?f ?l)%list = _ =>
      assert (M : map f l = map (fun i => polar_plan nside i bs bsh) l) end.
    { apply map_ext_in. intros i Hi. apply in_zrange in Hi. apply PL; auto. }
    rewrite M. destruct Hex as [->|Hex]; [exists []; cbn; now rewrite app_nil_r|].
    destruct Hex as (_ & _ & [r ->] & _). rewrite <- app_assoc. eauto.
Qed.

Lemma polar_plan_ok nside i s sh : 1 <= nside -> 0 <= i < nside - 1 -> plan_ok (polar_plan nside i s sh).
Proof.
  intros Hn Hi. unfold plan_ok, polar_plan. cbn [pl_n pl_dist pl_batch pl_eq].
  split; [lia|]. split; [|lia].
  assert (M : rs nside (i + 1) <= rs nside (4 * nside - 2 - i)).
  { apply ring_start_mono; try lia. intros j Hj. pose proof (ring_length_pos nside j Hn ltac:(lia)). lia. }
  rewrite ring_start_succ in M by lia.
  replace (ring_length nside i) with (4 * (i + 1)) in M by (unfold ring_length; lia). lia.
Qed.

Section ExecAll.
  Context {A : Type} (scale1 scale2 : Z -> A -> A).
  Notation scal := (apply_scaling scale1 scale2).
  Context (dft : vec A -> vec A).
  Hypothesis dft_ext : forall x y, veq x y -> veq (dft x) (dft y).
  Hypothesis dft_len : forall x, vlen (dft x) = vlen x.

  Definition unshift (sh : bool) (n j : Z) : Z := if sh then (j - n / 2) mod n else j.

  (** Ring-by-ring effect of running all plans. *)
  Definition rings_done (nside : Z) (s : scaling) (sh : bool) (buf out : vec A) (t : Z) : Prop :=
    forall j, 0 <= j < ring_length nside t ->
      vat out (rs nside t + j)
      = scal s (ring_length nside t)
          (vat (dft (ring_of buf nside t)) (unshift sh (ring_length nside t) j)).

  Lemma dft_at (x y : vec A) i : veq x y -> 0 <= i < vlen x -> vat (dft x) i = vat (dft y) i.
  Proof using dft_ext dft_len. intros H Hi. apply (dft_ext _ _ H). now rewrite dft_len. Qed.

  Lemma unshift_bound sh n j : 0 < n -> 0 <= j < n -> 0 <= unshift sh n j < n.
  Proof. intros. unfold unshift. destruct sh; [apply Z.mod_pos_bound; lia|auto]. Qed.

  Lemma exec_all_spec ex polar equator nside s sh buf :
    1 <= nside -> vlen buf = 12 * (nside * nside) ->
    e_nside ex = nside -> e_eq_start ex = rs nside (nside - 1) ->
    (exists r, e_upper ex = (map (fun i => rs nside i) (zrange 0 (nside - 1)) ++ r)%list) ->
    (exists r, polar = (map (fun i => polar_plan nside i s sh) (zrange 0 (nside - 1)) ++ r)%list) ->
    equator = Some (equator_plan nside s sh) ->
    exists out, exec_all scale1 scale2 dft ex polar equator buf = Ok out /\ vlen out = vlen buf /\
      forall t, 0 <= t < 4 * nside - 1 -> rings_done nside s sh buf out t.
  Proof using dft_ext dft_len.
    intros Hn Hb En Es [ru Hu] [rp Hp] ->. unfold exec_all. rewrite En.
    assert (P : forall T, 0 <= T -> T <= nside - 1 -> exists out,
      foldM (fun buf i =>
        match nth_error polar (Z.to_nat i), nth_error (e_upper ex) (Z.to_nat i) with
        | Some p, Some off => exec_plan scale1 scale2 dft p off buf
        | _, _ => Err IndexError
        end) (zrange 0 T) buf = Ok out /\ vlen out = vlen buf /\
      (forall t, 0 <= t < T \/ 4 * nside - 2 - T < t <= 4 * nside - 2 -> rings_done nside s sh buf out t) /\
      (forall t, T <= t <= 4 * nside - 2 - T -> forall j, 0 <= j < ring_length nside t ->
         vat out (rs nside t + j) = vat buf (rs nside t + j))).
    { z_ind.
      - intros _. exists buf. split; [reflexivity|]. split; [auto|]. split; [intros; lia|auto].
      - intros T HT IH HT2. destruct IH as (o & E & V & G & O); [lia|].
        replace (Z.succ T) with (T + 1) by lia.
        rewrite zrange_snoc, foldM_app, E by lia. cbn [bind foldM].
        rewrite Hp, Hu, !nth_error_map_zrange by lia.
        assert (RL : ring_length nside T = 4 * (T + 1)) by (unfold ring_length; lia).
        assert (RL2 : ring_length nside (4 * nside - 2 - T) = 4 * (T + 1)) by (unfold ring_length; lia).
        destruct (ring_start_bounds nside T Hn ltac:(lia)) as [B1 B2].
        destruct (ring_start_bounds nside (4 * nside - 2 - T) Hn ltac:(lia)) as [B3 B4].
        rewrite RL in B2. rewrite RL2 in B4.
        destruct (exec_plan_spec scale1 scale2 dft (polar_plan nside T s sh) (rs nside T) o
          (polar_plan_ok nside T s sh Hn ltac:(lia)) B1) as (o' & E' & V' & G' & O').
        { intros _. cbn [polar_plan pl_batch pl_dist pl_n]. lia. }
        cbn [polar_plan pl_batch pl_dist pl_n pl_shift pl_scale] in G', O'.
        assert (Sl : forall j, unslot (polar_plan nside T s sh) j = unshift sh (4 * (T + 1)) j) by reflexivity.
        rewrite E'. cbn [bind foldM]. exists o'. split; [reflexivity|]. split; [lia|].
        assert (base : forall b, b = 0 \/ b = 1 ->
          rs nside T + b * (rs nside (4 * nside - 2 - T) - rs nside T)
          = rs nside (if b =? 0 then T else 4 * nside - 2 - T)).
        { intros b [-> | ->]; cbn [Z.eqb]; lia. }
        assert (disj : forall t, 0 <= t <= 4 * nside - 2 -> t <> T -> t <> 4 * nside - 2 - T ->
           forall j, 0 <= j < ring_length nside t -> vat o' (rs nside t + j) = vat o (rs nside t + j)).
        { intros t Ht N1 N2 j Hj. apply O'. intros b Hb' Hc.
          rewrite base in Hc by lia. destruct (Z.eqb_spec b 0).
          - apply N1. apply (ring_blocks_disjoint nside t T (rs nside t + j)); try lia.
          - apply N2. apply (ring_blocks_disjoint nside t (4 * nside - 2 - T) (rs nside t + j)); try lia. }
        assert (two : forall b, b = 0 \/ b = 1 ->
           rings_done nside s sh buf o' (if b =? 0 then T else 4 * nside - 2 - T)).
        { intros b Hb' j Hj. pose proof (G' b j) as Gb. rewrite base in Gb by auto.
          assert (RLb : ring_length nside (if b =? 0 then T else 4 * nside - 2 - T) = 4 * (T + 1))
            by (destruct (b =? 0); auto).
          rewrite RLb in *. rewrite Gb by lia. rewrite Sl. f_equal.
          apply dft_at; [|cbn [vlen]; apply unshift_bound; lia].
          split; [cbn [vlen ring_of]; now rewrite RLb|]. cbn [vlen]. intros i Hi.
          cbn [vat ring_of]. apply O; [destruct (b =? 0); lia|]. now rewrite RLb. }
        split.
        + intros t Ht. destruct (Z.eq_dec t T) as [->|N1]; [apply (two 0); auto|].
          destruct (Z.eq_dec t (4 * nside - 2 - T)) as [->|N2]; [apply (two 1); auto|].
          intros j Hj. rewrite disj by lia. apply G; lia.
        + intros t Ht j Hj. rewrite disj by lia. apply O; lia. }
    destruct (P (nside - 1)) as (o & E & V & G & O); [lia|lia|].
    rewrite E. cbn [bind]. rewrite Es.
    pose proof (ring_start_equator nside 0 Hn ltac:(lia) ltac:(lia)) as S0.
    replace (nside - 1 + 0) with (nside - 1) in S0 by lia.
    destruct (exec_plan_spec scale1 scale2 dft (equator_plan nside s sh) (rs nside (nside - 1)) o)
      as (o' & E' & V' & G' & O').
    { unfold plan_ok, equator_plan. cbn [pl_n pl_dist pl_batch pl_eq]. lia. }
    { nia. }
    { intros _. cbn [equator_plan pl_n pl_dist pl_batch]. nia. }
    cbn [equator_plan pl_batch pl_dist pl_n pl_shift pl_scale] in G', O'.
    rewrite E'. exists o'. split; [reflexivity|]. split; [lia|].
    assert (St : forall b, 0 <= b < 2 * nside + 1 ->
      rs nside (nside - 1) + b * (4 * nside) = rs nside (nside - 1 + b)).
    { intros b Hb'. pose proof (ring_start_equator nside b Hn ltac:(lia) ltac:(lia)). lia. }
    assert (RLe : forall b, 0 <= b < 2 * nside + 1 -> ring_length nside (nside - 1 + b) = 4 * nside).
    { intros b Hb'. unfold ring_length. lia. }
    intros t Ht.
    destruct (Z_lt_dec t (nside - 1)) as [H1|H1]; [|destruct (Z_lt_dec t (3 * nside)) as [H2|H2]].
    - intros j Hj. rewrite O'.
      + apply G; [lia|auto].
      + intros b Hb' Hc. rewrite St in Hc by auto.
        assert (t = nside - 1 + b); [|lia].
        apply (ring_blocks_disjoint nside _ _ (rs nside t + j)); try lia. rewrite RLe by auto. lia.
    - intros j Hj. pose proof (G' (t - (nside - 1)) j ltac:(lia)) as Gb.
      rewrite St in Gb by lia. replace (nside - 1 + (t - (nside - 1))) with t in Gb by lia.
      assert (RL : ring_length nside t = 4 * nside) by (unfold ring_length; lia).
      rewrite RL in *. rewrite Gb by lia. f_equal.
      apply dft_at; [|cbn [vlen]; apply unshift_bound; lia].
      split; [cbn [vlen ring_of]; now rewrite RL|]. cbn [vlen]. intros i Hi.
      cbn [vat ring_of]. apply O; [lia|]. now rewrite RL.
    - intros j Hj. rewrite O'.
      + apply G; [lia|auto].
      + intros b Hb' Hc. rewrite St in Hc by auto.
        assert (t = nside - 1 + b); [|lia].
        apply (ring_blocks_disjoint nside _ _ (rs nside t + j)); try lia. rewrite RLe by auto. lia.
  Qed.
End ExecAll.
