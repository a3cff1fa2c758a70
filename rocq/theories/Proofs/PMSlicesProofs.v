(** compute_all_slices_jax tabulates the Wigner d-functions of all orders. *)
From Coq Require Import Reals Lra Lia ZifyBool.
From Verif Require Import Lib.Py Lib.PyFacts Lib.Sums Lib.Cplx Lib.Vec Lib.VecFacts Lib.Ext Lib.ExtFacts.
From Verif Require Import Model.Grids Model.Turok Model.PriceMcEwen Model.OTF Model.PMSlices Spec.WignerSpec Spec.OTFSpec
  Proofs.TurokProofs Proofs.PMPre Proofs.PMHalf.
Open Scope Z_scope.

(** ** No infinity is ever handed out *)
Definition tame (x : ext) : Prop := match x with Fin _ | NaN => True | _ => False end.
Definition pre_fin (pre : pm_pre) : Prop :=
  (forall i j k, exists r, pm_lrenorm pre i j k = Fin r) /\ (forall r k, exists c, vat (pm_cpi pre) r k = Fin c) /\
  (forall r k, exists c, vat (pm_cp2 pre) r k = Fin c).
Lemma nan_to_num_fin x : exists r, nan_to_num x = Fin r.
Proof. destruct x; cbn; eauto. Qed.
Lemma generate_jax_fin th L spin sampling nside forward L0 betas pre :
  generate_precomputes_jax th L spin sampling nside forward L0 betas = Ok pre -> pre_fin pre.
Proof.
  unfold generate_precomputes_jax. cbv zeta. destruct (match betas with None => _ | Some b => _ end) as [v|]; [|discriminate]. cbn [bind].
  destruct (pm_cp_jax L L0) as [[cpi cp2]|]; [|discriminate]. cbn [bind]. destruct (pm_lrenorm_jax v L L0 (- spin)); [|discriminate].
  cbn [bind]. intros E. injection E as <-. repeat split; cbn; intros; apply nan_to_num_fin.
Qed.

Section Tame.
  Context {A : Type} (Inv : A -> Prop) (emit : A -> Z -> Z -> Z -> plane -> result A)
    (one : Z -> Z -> pm_pre -> Z -> Z -> Z -> bool) (pre : pm_pre) (beta : vec R) (L L0 mm i stop : Z).
  Hypothesis HL : 2 <= L.
  Hypothesis Hstop : stop <= L.
  Hypothesis Hi : i = 0 \/ i = 1.
  Hypothesis Hpre : pre_good beta L L0 mm pre.
  Hypothesis Hfin : pre_fin pre.
  Hypothesis Hone : forall m j k, one L L0 pre m j k = (k =? L - 1 - m - L0).
  Hypothesis Hemit : forall m acc lo P, 0 <= m < Z.max 2 stop -> (forall j k, (0 < vat beta j < PI)%R -> tame (P j k)) -> Inv acc ->
    exists acc', emit acc (sidx i m) lo (lo + L0) P = Ok acc' /\ Inv acc'.

  Definition fin_state (it0 it1 lr : ext) : Prop := exists a b c, it0 = Fin a /\ it1 = Fin b /\ lr = Fin c.
  Definition tame_cols (m : Z) (dl it0 it1 lr : plane) : Prop := forall j k, (0 < vat beta j < PI)%R ->
    (m <= L - 1 - (L0 + k) -> fin_state (it0 j k) (it1 j k) (lr j k) /\ exists d, dl j k = Fin d) /\
    (fin_state (it0 j k) (it1 j k) (lr j k) \/ it1 j k = NaN).

  Lemma lamb_fin m j k : (0 < vat beta j < PI)%R -> exists r, pm_lamb beta L L0 mm i m j k = Fin r.
  Proof.
    intros Hb. assert (Hs : (0 < sin (vat beta j))%R) by (apply sin_gt_0; lra).
    unfold pm_lamb. cbv zeta. rewrite ediv_fin by lra. cbn [emul]. eauto.
  Qed.
  Lemma tame_next d it1 lr : (exists x, it1 = Fin x) -> (exists x, lr = Fin x) ->
    fin_state (emul (ediv (Fin 1) (eabs (Fin d))) it1) (emul (ediv (Fin 1) (eabs (Fin d))) (Fin d)) (eadd lr (elog (eabs (Fin d))))
    \/ emul (ediv (Fin 1) (eabs (Fin d))) (Fin d) = NaN.
  Proof.
    intros (x & ->) (y & ->). cbn [eabs]. destruct (Req_EM_T d 0) as [->|Hd].
    - right. rewrite Rabs_R0. unfold ediv. destruct (Req_EM_T 0 0); [|lra]. rewrite rsgn_pos by lra. cbn [inf_of emul esign].
      rewrite rsgn_0. reflexivity.
    - left. assert (0 < Rabs d)%R by now apply Rabs_pos_lt. rewrite ediv_fin by lra. rewrite elog_pos by lra. cbn [emul eadd].
      unfold fin_state. eauto 8.
  Qed.

  Lemma pm_half_to_tame acc : Inv acc -> exists acc', pm_half_to stop emit one pre beta L L0 mm i acc = Ok acc' /\ Inv acc'.
  Proof.
    intros I0. destruct Hfin as (FL & FC & FQ). unfold pm_half_to. cbv zeta.
    rewrite vread_in by (rewrite (pg_cpi_len _ _ _ _ _ Hpre); lia). cbn [bind].
    rewrite (pg_vsign _ _ _ _ _ Hpre).
    assert (V0 : vread (pm_vsigns L L0 mm) (if i =? 0 then 0 else -1) = Ok (vat (pm_vsigns L L0 mm) (prow L i 0))).
    { rewrite <- vsign_read by lia. f_equal. lia. }
    assert (V1 : vread (pm_vsigns L L0 mm) ((if i =? 0 then 0 else -1) + (if i =? 0 then 1 else -1)) = Ok (vat (pm_vsigns L L0 mm) (prow L i 1))).
    { rewrite <- vsign_read by lia. f_equal. lia. }
    rewrite V0. cbn [bind].
    set (it1 := fun j k => if slice_lo (L - L0) (L - 1 - L0) <=? k then _ else _).
    assert (F1 : forall j k, (0 < vat beta j < PI)%R -> exists r, it1 j k = Fin r).
    { intros j k Hb. subst it1. cbn beta. destruct (_ <=? k); [|eauto]. destruct (FC 0 k) as (c & ->). destruct (lamb_fin 1 j k Hb) as (r & ->).
      cbn [emul]. eauto. }
    edestruct (Hemit 0 acc (L - 1 - L0) (fun j k => emul (emul (Fin 1) (Fin (vat (pm_vsigns L L0 mm) (prow L i 0) k))) (eexp (pm_lrenorm pre i j k))))
      as (acc1 & E1 & I1); [lia| |exact I0|].
    { intros j k Hb. destruct (FL i j k) as (r & ->). exact Logic.I. }
    unfold sidx in E1. replace ((if i =? 0 then 0 else -1) + (if i =? 0 then 1 else -1) * 0) with (if i =? 0 then 0 else -1) in E1 by lia.
    rewrite E1. cbn [bind]. rewrite V1. cbn [bind].
    edestruct (Hemit 1 acc1 (L - 1 - L0 - 1) (fun j k => emul (emul (it1 j k) (Fin (vat (pm_vsigns L L0 mm) (prow L i 1) k))) (eexp (pm_lrenorm pre i j k))))
      as (acc2 & E2 & I2); [lia| |exact I1|].
    { intros j k Hb. destruct (FL i j k) as (r & ->). destruct (F1 j k Hb) as (r' & ->). exact Logic.I. }
    unfold sidx in E2. rewrite Z.mul_1_r in E2.
    match type of E2 with ?l = _ => match goal with |- context [emit acc1 ?a ?b ?c ?P] => change (emit acc1 a b c P) with l end end. rewrite E2. cbn [bind].
    match goal with |- context [foldM ?f (zrange 2 _) _] => set (body := f) end.
    edestruct (foldM_inv' (fun m (st : A * plane * plane * plane * plane) =>
        let '(acc, dl, it0, it1, lr) := st in Inv acc /\ tame_cols m dl it0 it1 lr) body 2 stop) as (st & E & H).
    3:{ unfold plane in *. rewrite E. cbn [bind]. destruct st as [[[[acc' dl] it0'] it1'] lr']. exists acc'. split; [reflexivity|].
        destruct H as [H _]. exact H. }
    - split; [exact I2|]. intros j k Hb. destruct (F1 j k Hb) as (r & Er). destruct (FL i j k) as (r' & El).
      assert (FS : fin_state (Fin 1) (it1 j k) (pm_lrenorm pre i j k)) by (unfold fin_state; eauto 8).
      split; [intros _; split; [exact FS|eauto]|left; exact FS].
    - intros m [[[[accm dl] it0m] it1m] lrm] Hm (Im & Cm). subst body. cbn beta iota.
      rewrite vread_in by (rewrite (pg_cpi_len _ _ _ _ _ Hpre); lia). cbn [bind].
      rewrite vread_in by (rewrite (pg_cp2_len _ _ _ _ _ Hpre); lia). cbn [bind].
      rewrite vsign_read by lia. cbn [bind].
      set (dl' := fun j k => if one L L0 pre m j k then Fin 1 else _).
      assert (D1 : forall j k, (0 < vat beta j < PI)%R -> fin_state (it0m j k) (it1m j k) (lrm j k) -> exists d, dl' j k = Fin d).
      { intros j k Hb (a & b & c & Ea & Eb & Ec). subst dl'. cbn beta. rewrite Hone, (pg_ind _ _ _ _ _ Hpre), Ea, Eb.
        destruct (lamb_fin m j k Hb) as (r & ->). destruct (FC (m - 1) k) as (p & ->). destruct (FQ (m - 1) k) as (q & ->).
        destruct (Z.eqb_spec k (L - 1 - m - L0)); [eauto|]. destruct (Z.leb_spec (L - m - 1) (L0 + k)); [cbn; eauto|].
        apply (Cm j k Hb). lia. }
      assert (D2 : forall j k, (0 < vat beta j < PI)%R -> L - m - 1 < L0 + k -> it1m j k = NaN -> dl' j k = NaN).
      { intros j k Hb Hk En. subst dl'. cbn beta. rewrite Hone, (pg_ind _ _ _ _ _ Hpre), En.
        destruct (lamb_fin m j k Hb) as (r & ->). destruct (FC (m - 1) k) as (p & ->).
        destruct (Z.eqb_spec k (L - 1 - m - L0)); [lia|]. destruct (Z.leb_spec (L - m - 1) (L0 + k)); [reflexivity|lia]. }
      assert (CC : forall j k, (0 < vat beta j < PI)%R -> (fin_state (it0m j k) (it1m j k) (lrm j k) /\ exists d, dl' j k = Fin d) \/
        (L - m - 1 < L0 + k /\ it1m j k = NaN /\ dl' j k = NaN)).
      { intros j k Hb. destruct (Cm j k Hb) as (C1 & C2). destruct (Z_le_gt_dec m (L - 1 - (L0 + k))) as [Hk|Hk].
        - left. destruct (C1 Hk) as [FS _]. split; [exact FS|auto].
        - destruct C2 as [FS|En]; [left; split; auto|]. right. split; [lia|]. split; [exact En|]. apply D2; auto. lia. }
      edestruct (Hemit m accm 0 (fun j k => emul (emul (dl' j k) (Fin (vat (pm_vsigns L L0 mm) (prow L i m) k))) (eexp (lrm j k))))
        as (acc' & E & I'); [lia| |exact Im|].
      { intros j k Hb. destruct (CC j k Hb) as [((a & b & c & _ & _ & ->) & (d & ->))|(_ & _ & ->)]; [exact Logic.I|].
        cbn [emul esign]. exact Logic.I. }
      unfold sidx in E. rewrite Z.add_0_l in E.
      match type of E with ?l = _ => match goal with |- context [emit accm ?a ?b ?c ?P] => change (emit accm a b c P) with l end end.
      rewrite E. cbn [bind]. eexists. split; [reflexivity|]. cbn beta iota. split; [exact I'|].
      change (tame_cols (m + 1) dl'
          (fun j k => if L - m - 1 <=? pm_indices pre j k then emul (ediv (Fin 1) (eabs (dl' j k))) (it1m j k) else it0m j k)
          (fun j k => if L - m - 1 <=? pm_indices pre j k then emul (ediv (Fin 1) (eabs (dl' j k))) (dl' j k) else it1m j k)
          (fun j k => if L - m - 1 <=? pm_indices pre j k then eadd (lrm j k) (elog (eabs (dl' j k))) else lrm j k)).
      intros j k Hb. rewrite (pg_ind _ _ _ _ _ Hpre). destruct (Z.leb_spec (L - m - 1) (L0 + k)).
      + split; [lia|]. destruct (CC j k Hb) as [((a & b & c & _ & E2' & E3') & (d & ->))|(_ & _ & ->)].
        * apply tame_next; eauto.
        * right. reflexivity.
      + destruct (CC j k Hb) as [(FS & (d & ->))|(Hk & _)]; [|lia]. split; [intros _; split; [exact FS|eauto]|left; exact FS].
  Qed.
End Tame.

(** ** The array of all slices *)
Lemma prow_pord L i m : prow L i m - (L - 1) = pord L i m.
Proof. unfold prow, pord. destruct (i =? 0); lia. Qed.
Section Slices.
  Variables (pre : pm_pre) (beta : vec R) (L mm : Z).
  Hypothesis HL : 2 <= L.
  Hypothesis Hpre : pre_good beta L 0 mm pre.

  Definition written (m lo k : Z) : bool := (slice_lo L lo <=? k) && ((m <? 2) || (L - m - 1 <=? k)).
  Lemma emit_ok i m dl lo rlo P : i = 0 \/ i = 1 -> 0 <= m < L -> vlen dl = 2 * L - 1 ->
    exists dl', slice_emit pre L i dl (sidx i m) lo rlo P = Ok dl' /\ vlen dl' = 2 * L - 1 /\
      (forall r, r <> prow L i m -> vat dl' r = vat dl r) /\
      (forall j k, vat dl' (prow L i m) j k = if written m lo k then P j k else vat dl (prow L i m) j k).
  Proof using HL Hpre.
    intros Hi Hm Hv. unfold slice_emit.
    assert (NI : norm_index (2 * L - 1) (sidx i m) = Some (prow L i m)).
    { unfold norm_index, sidx, prow. destruct Hi as [->| ->]; cbn [Z.eqb].
      - destruct (Z.leb_spec 0 (0 + 1 * m)), (Z.ltb_spec (0 + 1 * m) (2 * L - 1)); cbn [andb]; try lia. f_equal. lia.
      - destruct (Z.leb_spec 0 (-1 + -1 * m)); cbn [andb]; try lia.
        destruct (Z.leb_spec (- (2 * L - 1)) (-1 + -1 * m)), (Z.ltb_spec (-1 + -1 * m) 0); cbn [andb]; try lia. f_equal. lia. }
    unfold vread, vwrite. rewrite Hv, NI. cbn [bind]. eexists. split; [reflexivity|]. cbn [vlen vat]. split; [reflexivity|].
    assert (EM : (if i =? 0 then sidx i m else -1 - sidx i m) = m) by (unfold sidx; destruct Hi as [->| ->]; cbn [Z.eqb]; lia).
    rewrite EM. split.
    - intros r Hr. now rewrite vupd_other.
    - intros j k. rewrite vupd_same. rewrite (pg_ind _ _ _ _ _ Hpre). reflexivity.
  Qed.

  (** entries at regular angles *)
  Definition row_ok (dl : vec plane) (r : Z) : Prop := forall j k, 0 <= j < vlen beta -> 0 <= k < L -> regular L 0 mm (vat beta j) -> Z.abs mm <= k ->
    vat dl r j k = Fin (wigner_d k (r - (L - 1)) mm (vat beta j)).
  Definition row_zero (dl : vec plane) (r : Z) : Prop := forall j k, vat dl r j k = Fin 0.
  Definition tame_all (dl : vec plane) : Prop := vlen dl = 2 * L - 1 /\ forall r j k, (0 < vat beta j < PI)%R -> tame (vat dl r j k).

  Lemma step_ok i m dl lo P : i = 0 \/ i = 1 -> 0 <= m < L -> m <= L - 2 + i -> 0 <= lo < L - 0 ->
    (forall el, 0 <= el < lo + 0 -> el < L - 1 - m) -> good beta L 0 mm i m lo P -> vlen dl = 2 * L - 1 ->
    (m < L - 1 -> row_zero dl (prow L i m)) ->
    exists dl', slice_emit pre L i dl (sidx i m) lo (lo + 0) P = Ok dl' /\ vlen dl' = 2 * L - 1 /\
      (forall r, r <> prow L i m -> vat dl' r = vat dl r) /\ row_ok dl' (prow L i m).
  Proof using HL Hpre.
    intros Hi Hm Hmi Hlo Hlo2 G Hv Hz. destruct (emit_ok i m dl lo (lo + 0) P Hi Hm Hv) as (dl' & E & V & O & S).
    exists dl'. split; [exact E|]. split; [exact V|]. split; [exact O|]. intros j k Hj Hk Hr Hmm. rewrite S, prow_pord. unfold written.
    rewrite slice_lo_in by lia. assert (Hle : lo <= L - 1 - m \/ lo = 0).
    { destruct (Z_le_gt_dec lo (L - 1 - m)); [now left|]. exfalso. specialize (Hlo2 (lo - 1)). lia. }
    destruct ((lo <=? k) && ((m <? 2) || (L - m - 1 <=? k))) eqn:C.
    - rewrite (G ltac:(lia) j k) by (auto; lia). reflexivity.
    - rewrite Hz by lia. f_equal. symmetry. apply wig_out. left. unfold pord. destruct Hi as [->| ->]; cbn [Z.eqb]; lia.
  Qed.
End Slices.

(** both halves with given coefficients *)
Definition both_halves (pre : pm_pre) (beta : vec R) (L mm : Z) : result (vec plane) :=
  let* dl := pm_half_to L (slice_emit pre L 0) one_by_position pre beta L 0 mm 0 (@vconst plane (2 * L - 1) (fun _ _ => Fin 0)) in
  pm_half_to L (slice_emit pre L 1) one_by_position pre beta L 0 mm 1 dl.
Lemma halves_ok pre beta L spin : 2 <= L -> pre_good beta L 0 (- spin) pre ->
  exists dl, both_halves pre beta L (- spin) = Ok dl /\ vlen dl = 2 * L - 1 /\
    (forall r, 0 <= r < 2 * L - 1 -> row_ok beta L (- spin) dl r) /\ (pre_fin pre -> tame_all beta L dl).
Proof.
  intros HL G. unfold both_halves.
  set (dl0 := @vconst plane (2 * L - 1) (fun _ _ => Fin 0)).
  assert (ONE : forall m j k, one_by_position L 0 pre m j k = (k =? L - 1 - m - 0)).
  { intros. unfold one_by_position. lia. }
  (* half 0 *)
  destruct (pm_half_to_ok (fun m dl => vlen dl = 2 * L - 1 /\ (forall r, 0 <= r < Z.min m (L - 1) -> row_ok beta L (- spin) dl r) /\
      (forall r, m <= r -> row_zero dl r)) (slice_emit pre L 0) one_by_position pre beta L 0 (- spin) 0 L HL ltac:(lia) ltac:(lia) ltac:(lia) G ONE) with (acc := dl0)
    as (dl1 & E1 & V1 & R1 & Z1).
  { intros m acc lo P Hm Hlo Hlo0 Hlo2 Gd (V & R & Z0). destruct (Z_le_gt_dec m (L - 2)) as [Hm2|Hm2].
    - destruct (step_ok pre beta L (- spin) HL G 0 m acc lo P ltac:(lia) ltac:(lia) ltac:(lia) Hlo Hlo2 Gd V) as (dl' & E' & V' & O' & R').
      { intros _. apply Z0. unfold prow. cbn [Z.eqb]. lia. }
      unfold prow in *. cbn [Z.eqb] in *. exists dl'. split; [exact E'|]. split; [exact V'|]. split.
      + intros r Hr. destruct (Z.eq_dec r m) as [->|Hne]; [exact R'|]. intros j k Hj Hk Hrg Hmm. rewrite O' by lia. apply (R r); auto. lia.
      + intros r Hr j k. rewrite O' by lia. apply Z0. lia.
    - destruct (emit_ok pre beta L (- spin) HL G 0 m acc lo (lo + 0) P ltac:(lia) ltac:(lia) V) as (dl' & E' & V' & O' & _).
      unfold prow in *. cbn [Z.eqb] in *. exists dl'. split; [exact E'|]. split; [exact V'|]. split.
      + intros r Hr j k Hj Hk Hrg Hmm. rewrite O' by lia. apply (R r); auto. lia.
      + intros r Hr j k. rewrite O' by lia. apply Z0. lia. }
  { split; [reflexivity|]. split; [intros; lia|]. intros r _ j k. reflexivity. }
  assert (T1 : pre_fin pre -> tame_all beta L dl1).
  { intros F.
  destruct (pm_half_to_tame (tame_all beta L) (slice_emit pre L 0) one_by_position pre beta L 0 (- spin) 0 L HL ltac:(lia) ltac:(lia) G F ONE) with (acc := dl0)
    as (dl1' & E1' & T1).
  { intros m acc lo P Hm TP (V & T). destruct (emit_ok pre beta L (- spin) HL G 0 m acc lo (lo + 0) P ltac:(lia) ltac:(lia) V) as (dl' & E' & V' & O' & S').
    exists dl'. split; [exact E'|]. split; [exact V'|]. intros r j k Hb. destruct (Z.eq_dec r (prow L 0 m)) as [->|Hr].
    - rewrite S'. destruct (written L m lo k); auto.
    - rewrite O' by auto. auto. }
  { split; [reflexivity|]. intros r j k _. exact Logic.I. }
  assert (dl1' = dl1) by congruence. now subst dl1'. }
  unfold plane in *. rewrite E1. cbn [bind].
  (* half 1 *)
  destruct (pm_half_to_ok (fun m dl => vlen dl = 2 * L - 1 /\ (forall r, 0 <= r < L - 1 \/ 2 * L - 2 - m < r < 2 * L - 1 -> row_ok beta L (- spin) dl r) /\
      (forall r, L <= r <= 2 * L - 2 - m -> row_zero dl r)) (slice_emit pre L 1) one_by_position pre beta L 0 (- spin) 1 L HL ltac:(lia) ltac:(lia) ltac:(lia) G ONE) with (acc := dl1)
    as (dl2 & E2 & V2 & R2 & _).
  { intros m acc lo P Hm Hlo Hlo0 Hlo2 Gd (V & R & Z0).
    destruct (step_ok pre beta L (- spin) HL G 1 m acc lo P ltac:(lia) ltac:(lia) ltac:(lia) Hlo Hlo2 Gd V) as (dl' & E' & V' & O' & R').
    { intros Hml. apply Z0. unfold prow. cbn [Z.eqb]. lia. }
    unfold prow in *. cbn [Z.eqb] in *. exists dl'. split; [exact E'|]. split; [exact V'|]. split.
    - intros r Hr. destruct (Z.eq_dec r (2 * L - 2 - m)) as [->|Hne]; [exact R'|]. intros j k Hj Hk Hrg Hmm. rewrite O' by lia. apply (R r); auto. lia.
    - intros r Hr j k. rewrite O' by lia. apply Z0. lia. }
  { split; [exact V1|]. split.
    - intros r Hr. apply R1. lia.
    - intros r Hr. apply Z1. lia. }
  exists dl2. split; [exact E2|]. split; [exact V2|]. split; [intros r Hr; apply R2; lia|]. intros F.
  destruct (pm_half_to_tame (tame_all beta L) (slice_emit pre L 1) one_by_position pre beta L 0 (- spin) 1 L HL ltac:(lia) ltac:(lia) G F ONE) with (acc := dl1)
    as (dl2' & E2' & T2).
  { intros m acc lo P Hm TP (V & T). destruct (emit_ok pre beta L (- spin) HL G 1 m acc lo (lo + 0) P ltac:(lia) ltac:(lia) V) as (dl' & E' & V' & O' & S').
    exists dl'. split; [exact E'|]. split; [exact V'|]. intros r j k Hb. destruct (Z.eq_dec r (prow L 1 m)) as [->|Hr].
    - rewrite S'. destruct (written L m lo k); auto.
    - rewrite O' by auto. auto. }
  { exact (T1 F). }
  assert (dl2' = dl2) by congruence. now subst dl2'.
Qed.

Lemma slices_ok th beta L spin sampling forward nside : 2 <= L -> Z.abs spin < L ->
  exists dl, compute_all_slices_jax th beta L spin sampling forward nside None = Ok dl /\ vlen dl = 2 * L - 1 /\
    (forall r, 0 <= r < 2 * L - 1 -> row_ok beta L (- spin) dl r) /\ tame_all beta L dl.
Proof.
  intros HL Hs. destruct (generate_jax_ok th L spin sampling nside forward 0 (Some beta) beta ltac:(lia) ltac:(lia) Hs eq_refl) as (pre & E & G).
  assert (F := generate_jax_fin _ _ _ _ _ _ _ _ _ E). unfold compute_all_slices_jax. cbv zeta. rewrite E. cbn [bind].
  unfold pre_fits. rewrite (pg_nt _ _ _ _ _ G), (pg_nl _ _ _ _ _ G), !Z.eqb_refl. cbn [andb bind].
  destruct (halves_ok pre beta L spin HL G) as (dl & E2 & V & H & T). exists dl. auto.
Qed.

(** the NumPy function, given the coefficients of generate_precomputes and two more arrays *)
Lemma slices_numpy_ok th beta L spin sampling nside forward offset cs : 2 <= L -> Z.abs spin < L ->
  pm_thetas th L sampling nside forward = Ok beta ->
  exists pre dl, generate_precomputes th L spin sampling nside forward 0 = Ok pre /\
    compute_all_slices beta L spin (Some (seven_arrays pre offset cs)) = Ok dl /\ vlen dl = 2 * L - 1 /\
    forall r, 0 <= r < 2 * L - 1 -> row_ok beta L (- spin) dl r.
Proof.
  intros HL Hs Hb. destruct (generate_ok th L spin sampling nside forward 0 beta ltac:(lia) ltac:(lia) Hs Hb) as (pre & E & G).
  destruct (halves_ok pre beta L spin HL G) as (dl & E2 & V & H & _). exists pre, dl. split; [exact E|].
  unfold compute_all_slices. cbn [unpack_seven bind].
  unfold pre_fits. rewrite (pg_nt _ _ _ _ _ G), (pg_nl _ _ _ _ _ G), !Z.eqb_refl. cbn [andb bind]. auto.
Qed.
