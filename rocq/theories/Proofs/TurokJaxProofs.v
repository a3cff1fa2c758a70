(** The JAX version of the Turok & Bucher recursion. *)
From Coq Require Import Reals Lra Lia ZifyBool.
From Verif Require Import Lib.Py Lib.PyFacts Lib.Sums Lib.Cplx Lib.Vec Lib.VecFacts Lib.Ext Lib.ExtFacts.
From Verif Require Import Model.Turok Model.TurokJax Spec.WignerSpec Proofs.WignerGen Proofs.WignerDh Proofs.WignerCalc
  Proofs.WignerFourier Proofs.RisboProofs Proofs.TurokProofs.
Open Scope Z_scope.

Lemma fold_inv {S} (P : Z -> S -> Prop) (f : S -> Z -> S) a b s : a <= b -> P a s ->
  (forall i s, a <= i < b -> P i s -> P (i + 1) (f s i)) -> P b (fold_left f (zrange a b) s).
Proof.
  intros Hab Ha Hs. assert (forall n, 0 <= n -> a + n <= b -> P (a + n) (fold_left f (zrange a (a + n)) s)).
  { intros n. revert n. apply (natlike_ind (fun n => a + n <= b -> P (a + n) (fold_left f (zrange a (a + n)) s))).
    - intros _. rewrite Z.add_0_r, zrange_nil by lia. exact Ha.
    - intros n Hn IH Hb. replace (a + Z.succ n) with (a + n + 1) by lia. rewrite zrange_snoc by lia.
      rewrite fold_left_app. cbn [fold_left]. apply Hs; [lia|]. apply IH. lia. }
  specialize (H (b - a) ltac:(lia) ltac:(lia)). now replace (a + (b - a)) with b in H by lia.
Qed.

(** ** JAX indexing *)
Lemma jidx_pos n i : 0 <= i -> jidx n i = i. Proof. intros. unfold jidx. now replace (i <? 0) with false by lia. Qed.
Lemma jidx_neg n i : i < 0 -> jidx n i = i + n. Proof. intros. unfold jidx. now replace (i <? 0) with true by lia. Qed.
Lemma jget_in {A} (v : vec A) i : 0 <= jidx (vlen v) i < vlen v -> jget v i = vat v (jidx (vlen v) i).
Proof. intros. unfold jget. f_equal. lia. Qed.
Lemma jset_in {A} (v : vec A) i x : 0 <= jidx (vlen v) i < vlen v -> jset v i x = mkVec (vlen v) (vupd (vat v) (jidx (vlen v) i) x).
Proof. intros. unfold jset. now replace ((0 <=? _) && (_ <? _)) with true by lia. Qed.
Lemma jset_len {A} (v : vec A) i x : vlen (jset v i x) = vlen v.
Proof. unfold jset. now destruct (_ && _). Qed.
Lemma jset_other {A} (v : vec A) i x j : j <> jidx (vlen v) i -> vat (jset v i x) j = vat v j.
Proof. intros. unfold jset. destruct (_ && _); [|reflexivity]. cbn [vat]. now apply vupd_other. Qed.
Lemma jset_same {A} (v : vec A) i x : 0 <= jidx (vlen v) i < vlen v -> vat (jset v i x) (jidx (vlen v) i) = x.
Proof. intros. rewrite jset_in by auto. cbn [vat]. apply vupd_same. Qed.

Lemma jmul_ok v idx f a b : a <= b ->
  (forall k k', a <= k < b -> a <= k' < b -> jidx (vlen v) (idx k) = jidx (vlen v) (idx k') -> k = k') ->
  vlen (jmul v idx f (zrange a b)) = vlen v /\
  (forall k, a <= k < b -> 0 <= jidx (vlen v) (idx k) < vlen v ->
     vat (jmul v idx f (zrange a b)) (jidx (vlen v) (idx k)) = emul (vat v (jidx (vlen v) (idx k))) (f k)) /\
  (forall j, (forall k, a <= k < b -> jidx (vlen v) (idx k) <> j) -> vat (jmul v idx f (zrange a b)) j = vat v j).
Proof.
  intros Hab Hinj. unfold jmul.
  destruct (fold_inv (fun i d => vlen d = vlen v /\
     (forall k, a <= k < b -> 0 <= jidx (vlen v) (idx k) < vlen v ->
        vat d (jidx (vlen v) (idx k)) = if k <? i then emul (vat v (jidx (vlen v) (idx k))) (f k) else vat v (jidx (vlen v) (idx k))) /\
     (forall j, (forall k, a <= k < b -> jidx (vlen v) (idx k) <> j) -> vat d j = vat v j))
    (fun v k => jset v (idx k) (emul (jget v (idx k)) (f k))) a b v Hab) as (H1 & H2 & H3).
  - repeat split; auto. intros k Hk _. now replace (k <? a) with false by lia.
  - intros i d Hi (H1 & H2 & H3). split; [now rewrite jset_len|]. split.
    + intros k Hk Hin. destruct (Z.eq_dec k i) as [->|Hne].
      * replace (i <? i + 1) with true by lia. rewrite <- H1 at 1. rewrite jset_same by (rewrite H1; auto).
        rewrite jget_in by (rewrite H1; auto). rewrite H1, H2 by auto. now replace (i <? i) with false by lia.
      * rewrite jset_other. { rewrite H2 by auto. now replace (k <? i + 1) with (k <? i) by lia. }
        rewrite H1. intros E. apply Hne. now apply Hinj.
    + intros j Hj. rewrite jset_other; [auto|]. rewrite H1. intros E. apply (Hj i); [lia|auto].
  - split; [exact H1|]. split; [|exact H3]. intros k Hk Hin. rewrite H2 by auto. now replace (k <? b) with true by lia.
Qed.

(** ** The first row *)
Lemma first_row_ok el L mm x : (0 < x < PI)%R -> 1 <= el < L -> - el <= mm <= el -> forall q, 0 <= q <= el + Z.abs mm ->
  exists r, jget (tj_first_row el L mm (cos (x / 2)) (elog (eabs (Fin (tan (- x / 2)))))) q = Fin r /\ exp r = D (2 * el) 0 q x.
Proof.
  intros Hx Hel Hmm q Hq. destruct (half_pos x Hx) as [Hc Hs]. destruct (tan_half x Hx) as [HT _].
  assert (TP : (0 < Rabs (tan (- x / 2)))%R) by (rewrite HT; apply Rdiv_lt_0_compat; auto).
  unfold tj_first_row. cbn [eabs]. rewrite elog_pos by auto. rewrite (Rabs_pos_eq (cos (x / 2))), elog_pos by lra.
  set (x0 := emul (ez (2 * el)) (Fin (ln (cos (x / 2))))).
  match goal with |- context [fold_left ?f _ ?s0] =>
  destruct (fold_inv (fun i s => vlen (snd s) = 2 * L + 1 /\
     (i <= 2 * el + 1 -> fst s = vat (snd s) (i - 1)) /\
     forall k, 0 <= k <= 2 * el -> k < i -> exists r, vat (snd s) k = Fin r /\ exp r = D (2 * el) 0 k x) f 1 (L + Z.abs mm) s0)
    as (H1 & _ & H2) end.
  - lia.
  - cbn [fst snd]. rewrite jset_len. split; [reflexivity|].
    assert (E : vat (jset (vconst (2 * L + 1) (Fin 0)) 0 x0) 0 = x0).
    { rewrite jset_in by (rewrite jidx_pos; cbn [vlen vconst]; lia). apply vupd_same. }
    split; [intros _; change (1 - 1) with 0; now rewrite E|].
    intros k Hk Hk'. assert (k = 0) as -> by lia. rewrite E. eexists. split; [reflexivity|].
    rewrite exp_mul_ln by (auto; lia).
    unfold D. rewrite dh_first by lia. rewrite Z.sub_0_r, zf_0, zpow_0.
    rewrite !Rmult_1_r. rewrite sqrt_square by (left; apply zf_pos). field. apply zf_neq.
  - intros i (y, v) Hi (H1 & H2 & H3). cbn [fst snd] in *.
    set (y' := eadd _ _). rewrite jset_len. split; [exact H1|].
    assert (E : vat (jset v i y') i = y') by (rewrite jset_in by (rewrite jidx_pos; lia); rewrite jidx_pos by lia; apply vupd_same).
    split. { intros _. replace (i + 1 - 1) with i by lia. now rewrite E. }
    intros k Hk Hk'. destruct (Z.eq_dec k i) as [->|Hne].
    + rewrite E. destruct (H3 (i - 1) ltac:(lia) ltac:(lia)) as (r & Er & Hr). rewrite <- H2 in Er by lia. unfold y'. rewrite Er.
      assert (I0 : (0 < IZR i)%R) by (apply IZR_lt; lia).
      assert (R0 : (0 < IZR (2 * el + 2 - i - 1) / IZR i)%R) by (apply Rdiv_lt_0_compat; [apply IZR_lt; lia|auto]).
      unfold ez. rewrite ediv_fin by lra. rewrite elog_pos by auto. rewrite ediv_fin by lra. cbn [eadd].
      eexists. split; [reflexivity|]. rewrite !exp_plus, Hr, exp_half_ln by auto. rewrite HT, exp_ln by (apply Rdiv_lt_0_compat; auto).
      unfold D. rewrite (dh_first_step _ _ (2 * el) i) by (auto; lia).
      replace (2 * el + 1 - i) with (2 * el + 2 - i - 1) by lia. reflexivity.
    + rewrite jset_other by (rewrite jidx_pos; lia). apply H3; lia.
  - cbn [snd] in *. rewrite jget_in; rewrite jidx_pos by lia; [|lia]. apply H2; lia.
Qed.

(** ** One half slice *)
Lemma cpi_in el L m : 1 <= m <= el -> el < L -> jget (tj_cpi el L) (m - 1) = Fin (cpi_val el m).
Proof.
  intros Hm HL. rewrite jget_in; rewrite jidx_pos by lia; cbn [vlen vat tj_cpi]; [|lia].
  replace (m - 1 <? L) with true by lia. unfold ez. replace ((m - 1 + 1) * (2 * el - (m - 1))) with (m * (2 * el + 1 - m)) by lia.
  assert (0 < IZR (m * (2 * el + 1 - m)))%R by (apply IZR_lt; nia).
  rewrite esqrt_pos by auto. assert (0 < sqrt (IZR (m * (2 * el + 1 - m))))%R by (now apply sqrt_lt_R0).
  now rewrite ediv_fin by lra.
Qed.
Lemma cpi_val_pos el m : 1 <= m <= el -> (0 < cpi_val el m)%R.
Proof. intros. unfold cpi_val. apply Rdiv_lt_0_compat; [lra|]. apply acm_pos; lia. Qed.
Lemma cp2_in el L m : 2 <= m <= el -> el < L -> jget (tj_cp2 (tj_cpi el L)) (m - 1) = Fin (cpi_val el m / cpi_val el (m - 1)).
Proof.
  intros Hm HL. rewrite jget_in; rewrite jidx_pos by lia; cbn [vlen tj_cp2]; [|cbn [vlen tj_cpi tj_cp2]; lia].
  change (vat (tj_cp2 (tj_cpi el L)) (m - 1)) with (if m - 1 =? 0 then Fin 0 else ediv (vat (tj_cpi el L) (m - 1)) (vat (tj_cpi el L) (m - 1 - 1))).
  replace (m - 1 =? 0) with false by lia.
  pose proof (cpi_in el L m ltac:(lia) HL) as A. rewrite jget_in in A; rewrite jidx_pos in * by lia; [|cbn [vlen tj_cpi tj_cp2]; lia]. rewrite A.
  pose proof (cpi_in el L (m - 1) ltac:(lia) HL) as B. rewrite jget_in in B; rewrite jidx_pos in * by lia; [|cbn [vlen tj_cpi tj_cp2]; lia]. rewrite B.
  pose proof (cpi_val_pos el (m - 1) ltac:(lia)). now rewrite ediv_fin by lra.
Qed.

Section HalfSlice.
  Variables (el L n : Z) (x : R).
  Hypothesis Hel : 1 <= el < L.
  Hypothesis Hn : - el <= n <= el.
  Hypothesis Hx : (0 < x < PI)%R.
  Variables (lim sg : Z) (Hsg : lim = 0 /\ sg = 1 \/ lim = -1 /\ sg = -1).

  Definition pos (k : Z) : Z := if sg =? 1 then k else 2 * L - 2 - k.
  Lemma pos_idx k : 0 <= k < L -> jidx (2 * L - 1) (lim + sg * k) = pos k /\ 0 <= pos k < 2 * L - 1.
  Proof using Hsg Hel. intros Hk. unfold pos. destruct Hsg as [[-> ->]|[-> ->]]; cbn [Z.eqb Pos.eqb]; [rewrite jidx_pos by lia|rewrite jidx_neg by lia]; lia. Qed.
  Lemma pos_inj k k' : pos k = pos k' -> k = k'.
  Proof. unfold pos. destruct (sg =? 1); lia. Qed.

  (** entries k < top, k <= el hold the normalised values times e; those of the other half are those of dl0 *)
  Definition hinv (dl0 : vec ext) (top : Z) (e : R) (dl : vec ext) : Prop :=
    vlen dl = 2 * L - 1
    /\ (forall k, 0 <= k <= el -> k < top -> vat dl (pos k) = Fin (FR el n x k * e)%R)
    /\ (forall j, 0 <= j < 2 * L - 1 -> (forall k, 0 <= k < L -> j <> pos k) -> vat dl j = vat dl0 j).

  Lemma tj_rescale_ok dl0 dl e m : 0 <= m < L -> hinv dl0 (m + 1) e dl -> hinv dl0 (m + 1) (e * (1 / big_const)) (tj_rescale dl sg m).
  Proof using Hsg Hel.
    intros Hm (H1 & H2 & H3). unfold tj_rescale. split; [exact H1|]. cbn [vat]. split.
    - intros k Hk Hk'. rewrite H2 by auto. rewrite H1.
      replace (_ <? m + 1) with true; [cbn [emul]; f_equal; ring|].
      unfold pos. destruct Hsg as [[-> ->]|[-> ->]]; cbn [Z.eqb Pos.eqb]; lia.
    - intros j Hj Ho. rewrite <- (H3 j Hj Ho). rewrite H1. replace (_ <? m + 1) with false; [reflexivity|].
      unfold pos in Ho. destruct Hsg as [[-> ->]|[-> ->]]; cbn [Z.eqb Pos.eqb] in *; symmetry; apply Z.ltb_ge.
      + destruct (Z.lt_ge_cases j L); [exfalso; apply (Ho j); lia|lia].
      + destruct (Z.lt_ge_cases (2 * L - 1 - 1 - j) L); [exfalso; apply (Ho (2 * L - 2 - j)); lia|lia].
  Qed.

  Lemma lamb_fin m : tj_lamb el (el + n + 1) m (cos x) (sin x) = Fin (lam el n x m).
  Proof using Hx. unfold tj_lamb. assert (0 < sin x)%R by (apply sin_gt_0; lra). now rewrite ediv_fin by lra. Qed.

  Lemma tj_half_ok dl0 : vlen dl0 = 2 * L - 1 ->
    exists dl lr, tj_half dl0 (tj_cpi el L) (tj_cp2 (tj_cpi el L)) el L (el + n + 1) lim sg (cos x) (sin x) = (dl, Fin lr)
      /\ hinv dl0 L (exp lr) dl.
  Proof using Hel Hn Hx Hsg.
    intros Hl. unfold tj_half.
    destruct (pos_idx 0 ltac:(lia)) as [P0 B0]. replace (lim + sg * 0) with lim in P0 by lia.
    destruct (pos_idx 1 ltac:(lia)) as [P1 B1]. replace (lim + sg * 1) with (lim + sg) in P1 by lia.
    set (d0 := jset dl0 lim (Fin 1)). assert (L0 : vlen d0 = 2 * L - 1) by (unfold d0; now rewrite jset_len).
    assert (E0 : jget d0 lim = Fin 1).
    { rewrite jget_in by (rewrite L0, P0; lia). rewrite L0, P0. unfold d0. rewrite <- P0, <- Hl. apply jset_same. rewrite Hl, P0. lia. }
    rewrite E0. rewrite lamb_fin. pose proof (cpi_in el L 1 ltac:(lia) ltac:(lia)) as C1. change (1 - 1) with 0 in C1. rewrite C1.
    set (w := emul _ _).
    match goal with |- context [fold_left ?f _ ?s0] =>
      pose proof (fold_inv (fun m s => exists lr, snd s = Fin lr /\ hinv dl0 m (exp lr) (fst s)) f 2 L s0) as F end.
    match type of F with _ -> _ -> _ -> ?G => assert (G) as (lr & H1 & H2); [apply F; clear F|] end.
    - lia.
    - exists 0%R. split; [reflexivity|]. cbn [fst]. rewrite exp_0. split; [now rewrite !jset_len|]. split.
      + intros k Hk Hk'. assert (k = 0 \/ k = 1) as [-> | ->] by lia.
        * rewrite jset_other by (rewrite L0, P1; intros E; apply pos_inj in E; lia).
          rewrite FR_0 by (auto; lia). rewrite jget_in in E0 by (rewrite L0, P0; lia). rewrite L0, P0 in E0. rewrite E0. f_equal. ring.
        * rewrite <- P1, <- L0. rewrite jset_same by (rewrite L0, P1; lia). unfold w. cbn [emul]. f_equal.
          rewrite (FR_step el n x) by (auto; lia). change (1 - 1) with 0.
          rewrite (ac_out (2 * el) (1 - 2)) by lia. rewrite FR_0 by (auto; lia). unfold cpi_val. unfold Rdiv. ring.
      + intros j Hj Ho. rewrite jset_other by (rewrite L0, P1; apply Ho; lia). unfold d0.
        rewrite jset_other by (rewrite Hl, P0; apply Ho; lia). reflexivity.
    - intros m (d, lre) Hm (lr & Elr & G1 & G2 & G3). cbn [fst snd] in *. subst lre.
      destruct (pos_idx m ltac:(lia)) as [Pm Bm].
      set (val := esub _ _). set (d' := jset d (lim + sg * m) val).
      assert (L' : vlen d' = 2 * L - 1) by (unfold d'; now rewrite jset_len).
      assert (H : hinv dl0 (m + 1) (exp lr) d').
      { split; [exact L'|]. split.
        - intros k Hk Hk'. destruct (Z.eq_dec k m) as [->|Hne].
          + unfold d'. rewrite <- Pm, <- G1. rewrite jset_same by (rewrite G1, Pm; lia).
            destruct (pos_idx (m - 1) ltac:(lia)) as [Pa Ba]. destruct (pos_idx (m - 2) ltac:(lia)) as [Pb Bb].
            unfold val. rewrite lamb_fin, cpi_in, cp2_in by lia.
            rewrite (jget_in d (lim + sg * (m - 1))) by (rewrite G1, Pa; lia). rewrite G1, Pa, G2 by lia.
            rewrite (jget_in d (lim + sg * (m - 2))) by (rewrite G1, Pb; lia). rewrite G1, Pb, G2 by lia.
            cbn [emul esub eopp eadd]. f_equal. rewrite (FR_step el n x ltac:(lia) Hn Hx m) by lia.
            rewrite cpi_ratio by lia. unfold cpi_val. ring.
          + unfold d'. rewrite jset_other by (rewrite G1, Pm; intros E; apply pos_inj in E; lia). apply G2; lia.
        - intros j Hj Ho. unfold d'. rewrite jset_other by (rewrite G1, Pm; apply Ho; lia). now apply G3. }
      destruct (egt _ _).
      + eexists. split; [reflexivity|]. cbn [fst]. rewrite exp_plus, <- big_inv. now apply tj_rescale_ok; [lia|].
      + exists lr. split; [reflexivity|exact H].
    - destruct (fold_left _ _ _) as (dl, lre) eqn:E. cbn [fst snd] in *. exists dl, lr. split; [now rewrite H1|exact H2].
  Qed.
End HalfSlice.

(** ** The slices *)
Section Slice.
  Variables (el L mm : Z).
  Hypothesis Hel : 0 <= el < L.
  Hypothesis Hmm : - el <= mm <= el.

  Lemma reindex_ok dl : vlen dl = 2 * L - 1 -> vlen (tj_reindex dl el L mm) = 2 * L - 1 /\
    (forall m, - el <= m < 0 -> vat (tj_reindex dl el L mm) (L - 1 + m) = emul (vat dl (el + m)) (Fin (sgn (mm - m)))) /\
    (forall m, 0 <= m <= el -> vat (tj_reindex dl el L mm) (L - 1 + m) = emul (vat dl (2 * L - 2 - el + m)) (Fin (sgn (mm - m)))).
  Proof using Hel.
    clear Hmm. intros Hl. unfold tj_reindex. set (d1 := mkVec (vlen dl) (fun j => if j <? L - 1 then vat (jroll dl (L - el - 1)) j else vat dl j)).
    set (d2 := mkVec (vlen d1) (fun j => if L - 1 <=? j then vat (jroll d1 (- (L - el - 1))) j else vat d1 j)).
    assert (L2 : vlen d2 = 2 * L - 1) by exact Hl.
    destruct (jmul_ok d2 (fun m => L - 1 + m) (fun m => Fin (msign ((mm - m) mod 2))) (- L + 1) (L + 1)) as (H1 & H2 & _).
    - lia.
    - intros k k' Hk Hk'. rewrite !jidx_pos by lia. lia.
    - split; [now rewrite H1|]. rewrite L2 in H2.
      assert (H3 : forall m, - L < m < L -> vat (jmul d2 (fun m => L - 1 + m) (fun m => Fin (msign ((mm - m) mod 2))) (zrange (- L + 1) (L + 1))) (L - 1 + m)
        = emul (vat d2 (L - 1 + m)) (Fin (sgn (mm - m)))).
      { intros m Hm. specialize (H2 m ltac:(lia)). rewrite jidx_pos in H2 by lia. rewrite H2 by lia. now rewrite mod2_sgn. }
      split; intros m Hm; rewrite H3 by lia; f_equal; unfold d2; cbn [vat].
      + replace (L - 1 <=? L - 1 + m) with false by lia. unfold d1. cbn [vat]. replace (L - 1 + m <? L - 1) with true by lia.
        unfold jroll. cbn [vat]. rewrite Hl. f_equal. rewrite Z.mod_small; lia.
      + replace (L - 1 <=? L - 1 + m) with true by lia. unfold jroll. cbn [vat]. change (vlen d1) with (vlen dl). rewrite Hl.
        rewrite Z.mod_small by lia. replace (L - 1 + m - - (L - el - 1)) with (2 * L - 2 - el + m) by lia.
        unfold d1. cbn [vat]. now replace (2 * L - 2 - el + m <? L - 1) with false by lia.
  Qed.

  Lemma tj_sign k t : (t / Rabs t = -1)%R -> t <> 0%R -> (if k mod 2 =? 0 then Fin 1 else ediv (Fin t) (eabs (Fin t))) = Fin (sgn k).
  Proof.
    intros H Ht. cbn [eabs]. rewrite ediv_fin by (now apply Rabs_no_R0). rewrite <- (turok_sign k (t / Rabs t) H).
    now destruct (_ =? _).
  Qed.

  Lemma tj_quarter_ok x : (0 < x < PI)%R -> 1 <= el -> exists q, tj_quarter_slice (vconst (2 * L - 1) (Fin 0)) x el L mm = q /\ vlen q = 2 * L - 1 /\
    (forall m, - el <= m < 0 -> vat q (el + m) = Fin (sgn (mm - m) * wigner_d el m mm x)) /\
    (forall m, 0 <= m <= el -> vat q (2 * L - 2 - el + m) = Fin (sgn (mm - m) * wigner_d el m mm x)).
  Proof using Hel Hmm.
    intros Hx He. unfold tj_quarter_slice. destruct (tan_half x Hx) as [HA HT]. destruct (half_pos x Hx) as [Hc Hs].
    assert (T0 : tan (- x / 2) <> 0%R).
    { intros E. rewrite E, Rabs_R0 in HA. assert (0 < sin (x / 2) / cos (x / 2))%R by (apply Rdiv_lt_0_compat; auto). lra. }
    destruct (tj_half_ok el L mm x ltac:(lia) Hmm Hx 0 1 ltac:(auto) (vconst (2 * L - 1) (Fin 0)) eq_refl) as (d & lr & -> & H1 & H2 & _).
    destruct (first_row_ok el L mm x Hx ltac:(lia) Hmm (el + mm + 1 - 1) ltac:(lia)) as (l0 & -> & E0).
    rewrite tj_sign by auto. cbn [esub eopp eadd eexp emul]. set (r0 := (_ * _)%R).
    destruct (jmul_ok d (fun j => j) (fun _ => Fin r0) 0 (L - 1)) as (J1 & J2 & J3); [lia|intros k k' Hk Hk'; rewrite !jidx_pos by lia; lia|].
    set (d' := jmul _ _ _ _) in *. rewrite H1 in J1.
    destruct (tj_half_ok el L (- mm) x ltac:(lia) ltac:(lia) Hx (-1) (-1) ltac:(auto) d' J1) as (e & lr1 & E1 & G1 & G2 & G3).
    replace (el + - mm + 1) with (el - mm + 1) in E1 by lia. rewrite E1.
    destruct (first_row_ok el L mm x Hx ltac:(lia) Hmm (el - mm + 1 - 1) ltac:(lia)) as (l1 & -> & E2).
    rewrite tj_sign by auto. cbn [esub eopp eadd eexp emul]. set (r1 := (_ * _)%R).
    destruct (jmul_ok e (fun em => - em) (fun em => Fin (msign ((mm - em + el + 1) mod 2) * r1)) 1 (L + 1)) as (K1 & K2 & K3);
      [lia|intros k k' Hk Hk'; rewrite !jidx_neg by lia; lia|].
    set (e' := jmul _ _ _ _) in *. rewrite G1 in K1, K2, K3. eexists. split; [reflexivity|]. split; [exact K1|].
    cbn [vmap vat]. split; intros m Hm.
    - rewrite K3 by (intros k Hk; rewrite jidx_neg by lia; lia).
      rewrite G3 by (try lia; intros k Hk; unfold pos; cbn [Z.eqb]; lia).
      specialize (J2 (el + m) ltac:(lia)). rewrite jidx_pos in J2 by lia. rewrite J2 by lia.
      specialize (H2 (el + m) ltac:(lia) ltac:(lia)). change (pos L 1 (el + m)) with (el + m) in H2. rewrite H2. cbn [emul nan_to_num]. f_equal.
      unfold r0. replace (l0 + - lr)%R with (l0 - lr)%R by ring.
      replace (FR el mm x (el + m) * exp lr * (sgn (el + mm + 1 - 1) * exp (l0 - lr)))%R
        with (sgn (el + mm + 1 - 1) * (FR el mm x (el + m) * exp lr * exp (l0 - lr)))%R by ring.
      rewrite exp_cancel, E0. replace (el + mm + 1 - 1) with (el + mm) by lia. rewrite (FR_D0 el L) by (auto; lia).
      rewrite <- wig_D by lia. rewrite <- Rmult_assoc. f_equal.
      rewrite sgn_sub, !sgn_add. destruct (sgn_cases mm) as [-> | ->], (sgn_cases el) as [-> | ->], (sgn_cases m) as [-> | ->]; ring.
    - specialize (K2 (el - m + 1) ltac:(lia)). rewrite jidx_neg in K2 by lia.
      replace (- (el - m + 1) + (2 * L - 1)) with (2 * L - 2 - el + m) in K2 by lia. rewrite K2 by lia.
      specialize (G2 (el - m) ltac:(lia) ltac:(lia)). replace (pos L (-1) (el - m)) with (2 * L - 2 - el + m) in G2 by (unfold pos; cbn [Z.eqb]; lia).
      rewrite G2. cbn [emul nan_to_num]. f_equal. rewrite mod2_sgn. unfold r1. replace (l1 + - lr1)%R with (l1 - lr1)%R by ring.
      replace (FR el (- mm) x (el - m) * exp lr1 * (sgn (mm - (el - m + 1) + el + 1) * (sgn (el - mm + 1 - 1) * exp (l1 - lr1))))%R
        with (sgn (mm - (el - m + 1) + el + 1) * sgn (el - mm + 1 - 1) * (FR el (- mm) x (el - m) * exp lr1 * exp (l1 - lr1)))%R by ring.
      rewrite exp_cancel, E2. replace (el - mm + 1 - 1) with (el + - mm) by lia.
      rewrite (FR_D0 el L) by (auto; lia). replace (el - m) with (el + - m) by lia. rewrite <- (wig_D el (- m) (- mm)) by lia.
      rewrite wig_flip by lia. replace (mm - (el + - m + 1) + el + 1) with (mm + m) by lia. rewrite <- !Rmult_assoc. f_equal.
      rewrite !sgn_add, !sgn_sub, !sgn_opp.
      destruct (sgn_cases mm) as [-> | ->], (sgn_cases el) as [-> | ->], (sgn_cases m) as [-> | ->]; ring.
  Qed.
End Slice.

Lemma if_lt {A} a b (x y : A) : (a < b)%R -> (if Rlt_dec a b then x else y) = x.
Proof. intros. destruct (Rlt_dec a b); [reflexivity|contradiction]. Qed.
Lemma if_nlt {A} a b (x y : A) : (b <= a)%R -> (if Rlt_dec a b then x else y) = y.
Proof. intros. destruct (Rlt_dec a b); [lra|reflexivity]. Qed.
Lemma jany_set n i r : r <> 0%R -> 0 <= jidx n i < n -> jany (jset (vconst n (Fin 0)) i (Fin r)) = true.
Proof.
  intros Hr Hi. unfold jany. rewrite jset_len. apply existsb_exists. exists (jidx n i). split; [apply in_zrange; cbn [vlen vconst]; lia|].
  rewrite jset_same by (cbn [vlen vconst]; auto). cbn [enonzero]. now destruct (Req_EM_T r 0).
Qed.
Lemma jany_const n : jany (vconst n (Fin 0)) = false.
Proof.
  unfold jany. destruct (existsb _ _) eqn:E; [|reflexivity]. apply existsb_exists in E. destruct E as (j & _ & E). cbn in E.
  destruct (Req_EM_T 0 0); congruence.
Qed.

(** the poles, and the angles at which neither test is true *)
Definition tj_angle (x : R) : Prop := x = 0%R \/ x = PI \/ (tj_tol <= x <= PI - tj_tol)%R.

Lemma tj_tol_pos : (0 < tj_tol < 1)%R. Proof. unfold tj_tol. lra. Qed.

Lemma tj_slice_ok x el L mm : 0 <= el < L -> - el <= mm <= el -> tj_angle x ->
  exists v, tj_slice x el L mm = Ok v /\ vlen v = 2 * L - 1 /\ forall m, - el <= m <= el -> vat v (L - 1 + m) = Fin (wigner_d el m mm x).
Proof.
  intros Hel Hmm Hx. unfold tj_slice. replace (L + 1 - Z.abs mm <? 0) with false by lia. pose proof tj_tol_pos as TP. pose proof PI2_1 as PP.
  eexists. split; [reflexivity|].
  set (dn := if Rlt_dec (Rabs x) tj_tol then _ else _). set (ds := if Rlt_dec (Rabs (x - PI)) tj_tol then _ else _).
  set (de := if el =? 0 then _ else _). set (dq := if jany de then _ else _).
  enough (H : vlen dq = 2 * L - 1 /\ (forall m, - el <= m < 0 -> vat dq (el + m) = Fin (sgn (mm - m) * wigner_d el m mm x)) /\
    (forall m, 0 <= m <= el -> vat dq (2 * L - 2 - el + m) = Fin (sgn (mm - m) * wigner_d el m mm x))).
  { destruct H as (H1 & H2 & H3). destruct (reindex_ok el L mm Hel dq H1) as (R1 & R2 & R3). split; [exact R1|]. intros m Hm.
    destruct (Z.lt_ge_cases m 0); [rewrite R2, H2 by lia|rewrite R3, H3 by lia]; cbn [emul]; f_equal;
      pose proof (sgn_sq (mm - m)) as Q; rewrite Rmult_comm, <- Rmult_assoc, Q; ring. }
  assert (Z0 : el = 0 -> vlen dq = 2 * L - 1 /\ (forall m, - el <= m < 0 -> vat dq (el + m) = Fin (sgn (mm - m) * wigner_d el m mm x)) /\
    (forall m, 0 <= m <= el -> vat dq (2 * L - 2 - el + m) = Fin (sgn (mm - m) * wigner_d el m mm x))).
  { intros E0. assert (mm = 0) as -> by lia. assert (LS : vlen ds = 2 * L - 1).
    { unfold ds, dn, tj_south_pole, tj_north_pole. destruct (Rlt_dec _ _), (Rlt_dec _ _); cbn [Z.ltb Z.compare]; rewrite ?jset_len; cbn [vlen vconst]; rewrite ?jset_len; reflexivity. }
    assert (Ee : de = jset (vconst (2 * L - 1) (Fin 0)) (-1) (Fin 1)).
    { unfold de. rewrite E0. cbn [Z.eqb]. unfold tj_el0. now rewrite LS. }
    assert (Eq : dq = de). { unfold dq. rewrite Ee. rewrite jany_set by (try lra; rewrite jidx_neg by lia; lia). reflexivity. }
    rewrite Eq, Ee, E0. split; [now rewrite jset_len|]. split; [lia|]. intros m Hm. assert (m = 0) as -> by lia.
    replace (2 * L - 2 - 0 + 0) with (jidx (2 * L - 1) (-1)) by (rewrite jidx_neg by lia; lia).
    rewrite (jset_same (vconst (2 * L - 1) (Fin 0))) by (cbn [vlen vconst]; rewrite jidx_neg by lia; lia). f_equal.
    rewrite wig_D by lia. unfold D. rewrite dh_first by lia. cbn [Z.mul Z.add Z.sub Z.opp]. rewrite zf_0, !zpow_0.
    rewrite !Rmult_1_r, sqrt_1, sgn_0. field. }
  destruct (Z.eq_dec el 0) as [E0|E0]; [exact (Z0 E0)|]. clear Z0.
  assert (Ede : de = ds) by (unfold de; now replace (el =? 0) with false by lia).
  destruct Hx as [-> | [-> | Hx]].
  - assert (En : dn = tj_north_pole (vconst (2 * L - 1) (Fin 0)) el L mm).
    { unfold dn. rewrite Rabs_R0. apply if_lt. lra. }
    assert (Es : ds = dn). { unfold ds. rewrite Rminus_0_l, Rabs_Ropp, Rabs_pos_eq by lra. apply if_nlt. lra. }
    unfold tj_north_pole in En. cbn [vlen vconst] in En. set (i := if mm <? 0 then el + mm else 2 * L - 2 - el + mm).
    assert (En' : dn = jset (vconst (2 * L - 1) (Fin 0)) i (Fin 1)) by (unfold i; destruct (mm <? 0); exact En).
    assert (Ji : jidx (2 * L - 1) i = i /\ 0 <= i < 2 * L - 1) by (unfold i; destruct (Z.ltb_spec mm 0); rewrite jidx_pos by lia; lia).
    assert (Eq : dq = dn). { unfold dq. rewrite Ede, Es, En'. rewrite jany_set by (try lra; lia). reflexivity. }
    rewrite Eq, En'. rewrite jset_in by (cbn [vlen vconst]; lia). cbn [vlen vconst vat]. destruct Ji as [-> Bi]. split; [reflexivity|].
    split; intros m Hm; unfold vupd; rewrite wig_0 by lia.
    + replace (el + m =? i) with (m =? mm) by (unfold i; destruct (Z.ltb_spec mm 0); lia).
      destruct (Z.eqb_spec m mm) as [->|]; f_equal; [rewrite Z.sub_diag, sgn_0|]; ring.
    + replace (2 * L - 2 - el + m =? i) with (m =? mm) by (unfold i; destruct (Z.ltb_spec mm 0); lia).
      destruct (Z.eqb_spec m mm) as [->|]; f_equal; [rewrite Z.sub_diag, sgn_0|]; ring.
  - assert (En : dn = vconst (2 * L - 1) (Fin 0)).
    { unfold dn. rewrite Rabs_pos_eq by lra. apply if_nlt. lra. }
    assert (Es : ds = tj_south_pole (vconst (2 * L - 1) (Fin 0)) el L mm).
    { unfold ds. rewrite En, Rminus_diag_eq, Rabs_R0 by reflexivity. apply if_lt. lra. }
    unfold tj_south_pole in Es. cbn [vlen vconst] in Es. set (i := if 0 <? mm then el - mm else 2 * L - 2 - el - mm).
    assert (Es' : ds = jset (vconst (2 * L - 1) (Fin 0)) i (Fin (sgn (el + mm)))) by (unfold i; destruct (0 <? mm); exact Es).
    assert (Ji : jidx (2 * L - 1) i = i /\ 0 <= i < 2 * L - 1) by (unfold i; destruct (Z.ltb_spec 0 mm); rewrite jidx_pos by lia; lia).
    assert (Eq : dq = ds). { unfold dq. rewrite Ede, Es'. rewrite jany_set; [reflexivity| |lia]. destruct (sgn_cases (el + mm)) as [-> | ->]; lra. }
    rewrite Eq, Es'. rewrite jset_in by (cbn [vlen vconst]; lia). cbn [vlen vconst vat]. destruct Ji as [-> Bi]. split; [reflexivity|].
    assert (SS : sgn (mm - - mm) = 1%R) by (replace (mm - - mm) with (mm + mm) by lia; rewrite sgn_add; apply sgn_sq).
    split; intros m Hm; unfold vupd; rewrite wig_PI by lia.
    + replace (el + m =? i) with (m =? - mm) by (unfold i; destruct (Z.ltb_spec 0 mm); lia).
      destruct (Z.eqb_spec m (- mm)) as [->|]; f_equal; [rewrite SS|]; ring.
    + replace (2 * L - 2 - el + m =? i) with (m =? - mm) by (unfold i; destruct (Z.ltb_spec 0 mm); lia).
      destruct (Z.eqb_spec m (- mm)) as [->|]; f_equal; [rewrite SS|]; ring.
  - assert (En : dn = vconst (2 * L - 1) (Fin 0)).
    { unfold dn. rewrite Rabs_pos_eq by lra. apply if_nlt. lra. }
    assert (Es : ds = dn).
    { unfold ds. rewrite Rabs_left by lra. apply if_nlt. lra. }
    assert (Eq : dq = tj_quarter_slice (vconst (2 * L - 1) (Fin 0)) x el L mm).
    { unfold dq. rewrite Ede, Es, En, jany_const. reflexivity. }
    destruct (tj_quarter_ok el L mm Hel Hmm x ltac:(lra) ltac:(lia)) as (q & E & H). rewrite Eq, E. exact H.
Qed.

(** every entry is a number *)
Lemma jmul_sign v idx (s : Z -> R) l : (forall j, exists r, vat v j = Fin r) -> forall j, exists r, vat (jmul v idx (fun k => Fin (s k)) l) j = Fin r.
Proof.
  unfold jmul. revert v. induction l as [|k l IH]; intros v Hv; [exact Hv|]. cbn [fold_left]. apply IH. intros j.
  unfold jset. destruct (_ && _); [|apply Hv]. cbn [vat]. unfold vupd. destruct (_ =? _); [|apply Hv].
  unfold jget. destruct (Hv (Z.max 0 (Z.min (vlen v - 1) (jidx (vlen v) (idx k))))) as (r & ->). cbn [emul]. eauto.
Qed.
Lemma tj_slice_finite x el L mm v : tj_slice x el L mm = Ok v -> forall j, exists r, vat v j = Fin r.
Proof.
  unfold tj_slice. destruct (_ <? 0); [discriminate|]. intros E. apply (f_equal (fun z => match z with Ok u => u | Err _ => v end)) in E. rewrite <- E. clear E v.
  assert (S : forall (d : vec ext) i r, (forall j, exists r, vat d j = Fin r) -> forall j, exists r', vat (jset d i (Fin r)) j = Fin r').
  { intros d i r Hd j. unfold jset. destruct (_ && _); [|apply Hd]. cbn [vat]. unfold vupd. destruct (_ =? _); [eauto|apply Hd]. }
  assert (C : forall n j, exists r, vat (vconst n (Fin 0)) j = Fin r) by (intros; cbn; eauto).
  set (dn := if Rlt_dec (Rabs x) tj_tol then _ else _). set (ds := if Rlt_dec (Rabs (x - PI)) tj_tol then _ else _).
  set (de := if el =? 0 then _ else _). set (dq := if jany de then _ else _).
  assert (Hn : forall j, exists r, vat dn j = Fin r) by (unfold dn, tj_north_pole; destruct (Rlt_dec (Rabs x) tj_tol); [destruct (_ <? _); apply S|]; apply C). clearbody dn.
  assert (Hs : forall j, exists r, vat ds j = Fin r) by (unfold ds, tj_south_pole; destruct (Rlt_dec (Rabs (x - PI)) tj_tol); [destruct (_ <? _); apply S; apply C|exact Hn]). clearbody ds.
  assert (He : forall j, exists r, vat de j = Fin r) by (unfold de, tj_el0; destruct (_ =? _); [apply S; apply C|exact Hs]). clearbody de.
  assert (Hq : forall j, exists r, vat dq j = Fin r).
  { unfold dq. destruct (jany de); [exact He|]. intros j. unfold tj_quarter_slice.
    repeat match goal with |- context [let '(a, b) := ?t in _] => destruct t as [? ?] end. cbn [vmap vat].
    match goal with |- exists r, nan_to_num ?t = _ => destruct t; cbn; eauto end. }
  apply jmul_sign. intros j. cbn [vat]. unfold jroll. cbn [vat]. destruct (_ <=? _); [|destruct (_ <? _); apply Hq].
  destruct (_ <? _); apply Hq.
Qed.

(** at angle 0 the slice is the reordered unit vector *)
Lemma tj_slice_north x el L mm i : (Rabs x < tj_tol)%R -> el <> 0 -> Z.abs mm <= L + 1 ->
  i = (if mm <? 0 then el + mm else 2 * L - 2 - el + mm) -> 0 <= jidx (2 * L - 1) i < 2 * L - 1 ->
  tj_slice x el L mm = Ok (tj_reindex (jset (vconst (2 * L - 1) (Fin 0)) i (Fin 1)) el L mm).
Proof.
  intros Hx He Hm Ei Hi. unfold tj_slice. replace (L + 1 - Z.abs mm <? 0) with false by lia. cbv zeta. rewrite !(if_lt (Rabs x)) by auto.
  pose proof tj_tol_pos. pose proof PI2_1. rewrite !(if_nlt (Rabs (x - PI))).
  2: { pose proof (Rabs_triang_inv PI x) as T. rewrite Rabs_minus_sym in T. rewrite (Rabs_pos_eq PI) in T by lra. lra. }
  replace (el =? 0) with false by lia. unfold tj_north_pole. cbn [vlen vconst].
  assert (E : (if mm <? 0 then jset (vconst (2 * L - 1) (Fin 0)) (el + mm) (Fin 1) else jset (vconst (2 * L - 1) (Fin 0)) (2 * L - 2 - el + mm) (Fin 1))
    = jset (vconst (2 * L - 1) (Fin 0)) i (Fin 1)) by (rewrite Ei; destruct (mm <? 0); reflexivity).
  rewrite E. now rewrite jany_set by (auto; lra).
Qed.
