(** One half of the Price & McEwen recursion hands out the Wigner d-functions of each order. *)
From Coq Require Import Reals Lra Lia ZifyBool.
From Verif Require Import Lib.Py Lib.PyFacts Lib.Sums Lib.Cplx Lib.Vec Lib.VecFacts Lib.Ext Lib.ExtFacts.
From Verif Require Import Model.Grids Model.Turok Model.PriceMcEwen Model.OTF Spec.WignerSpec Spec.OTFSpec Proofs.WignerGen Proofs.WignerDh Proofs.WignerCalc
  Proofs.WignerFourier Proofs.RisboProofs Proofs.TurokProofs Proofs.PMPre.
Open Scope Z_scope.

Lemma D0_pos' el n x : 0 <= el -> - el <= n <= el -> (0 < x < PI)%R -> (0 < D (2 * el) 0 (el + n) x)%R.
Proof. intros H1 H2 Hx. destruct (half_pos _ Hx). apply dh_first_pos; auto; lia. Qed.
Lemma FR_0' el n x : 0 <= el -> - el <= n <= el -> (0 < x < PI)%R -> FR el n x 0 = 1%R.
Proof. intros H1 H2 Hx. unfold FR. pose proof (D0_pos' el n x H1 H2 Hx). rewrite sgn_0. field. lra. Qed.

(** ** One column *)
Section Col.
  Variables (el n : Z) (x : R).
  Hypothesis Hel : 0 <= el.
  Hypothesis Hn : - el <= n <= el.
  Hypothesis Hx : (0 < x < PI)%R.
  Let D0 := D (2 * el) 0 (el + n) x.

  (** before the q-th own step: the last two entries up to the scale E, whose logarithm is in lr *)
  Definition colinv (q : Z) (it0 it1 lr : ext) : Prop :=
    (q <= 0 -> it0 = Fin 1 /\ it1 = Fin 1 /\ lr = Fin (ln D0)) /\
    (1 <= q -> exists E y, (0 < E)%R /\ it1 = Fin (FR el n x (q - 1) / E) /\ it0 = Fin y /\
       (2 <= q -> y = (FR el n x (q - 2) / E)%R) /\ lr = Fin (ln D0 + ln E)).

  Lemma entry_step q it0 it1 lr cq : 1 <= q <= el -> colinv q it0 it1 lr ->
    cq = Fin (if q =? 1 then 0 else cpi_val el q / cpi_val el (q - 1))%R ->
    exists E, (0 < E)%R /\ lr = Fin (ln D0 + ln E) /\
      esub (emul (Fin (cpi_val el q)) (emul it1 (Fin (lam el n x q)))) (emul cq it0) = Fin (FR el n x q / E) /\
      it1 = Fin (FR el n x (q - 1) / E).
  Proof.
    intros Hq [_ H] ->. destruct (H ltac:(lia)) as (E & y & HE & -> & -> & Hy & ->). exists E. split; [exact HE|]. split; [reflexivity|].
    split; [|reflexivity]. unfold esub. cbn [emul eopp eadd]. f_equal.
    rewrite (FR_step el n x) with (m := q) by (auto; lia). fold (cpi_val el q).
    destruct (Z.eqb_spec q 1) as [->|Hne].
    - replace (ac (2 * el) (1 - 2)) with 0%R; [|symmetry; apply ac_out; lia]. field. lra.
    - rewrite (Hy ltac:(lia)), cpi_ratio by lia. field. lra.
  Qed.

  Lemma colinv_next q E : (0 < E)%R -> 1 <= q -> (FR el n x q <> 0)%R ->
    colinv (q + 1) (emul (ediv (Fin 1) (eabs (Fin (FR el n x q / E)))) (Fin (FR el n x (q - 1) / E)))
      (emul (ediv (Fin 1) (eabs (Fin (FR el n x q / E)))) (Fin (FR el n x q / E)))
      (eadd (Fin (ln D0 + ln E)) (elog (eabs (Fin (FR el n x q / E))))).
  Proof.
    intros HE Hq HF. assert (Ha : (0 < Rabs (FR el n x q))%R) by now apply Rabs_pos_lt.
    assert (Hd : Rabs (FR el n x q / E) = (Rabs (FR el n x q) / E)%R).
    { unfold Rdiv. rewrite Rabs_mult, Rabs_inv. rewrite (Rabs_pos_eq E); lra. }
    cbn [eabs]. rewrite Hd. assert (Hp : (0 < Rabs (FR el n x q) / E)%R) by now apply Rdiv_lt_0_compat.
    rewrite ediv_fin by lra. rewrite elog_pos by exact Hp. cbn [emul eadd]. split; [lia|]. intros _.
    exists (Rabs (FR el n x q)). eexists. split; [exact Ha|]. replace (q + 1 - 1) with q by lia. replace (q + 1 - 2) with (q - 1) by lia.
    split; [f_equal; field; lra|]. split; [reflexivity|]. split; [intros _; field; lra|].
    f_equal. unfold Rdiv. rewrite ln_mult by (auto; now apply Rinv_0_lt_compat). rewrite ln_Rinv by exact HE. ring.
  Qed.

  Lemma colinv_first it1 lr : it1 = Fin 1 -> lr = Fin (ln D0) ->
    colinv 1 (emul (ediv (Fin 1) (eabs (Fin 1))) it1) (emul (ediv (Fin 1) (eabs (Fin 1))) (Fin 1)) (eadd lr (elog (eabs (Fin 1)))).
  Proof.
    intros -> ->. cbn [eabs]. rewrite Rabs_R1. rewrite ediv_fin by lra. rewrite elog_pos by lra. cbn [emul eadd].
    split; [lia|]. intros _. exists 1%R. eexists. split; [lra|]. change (1 - 1) with 0. rewrite (FR_0' el n x) by auto.
    split; [f_equal; field|]. split; [reflexivity|]. split; [lia|]. f_equal. 
  Qed.
End Col.

(** ** The signs *)
Lemma fr_value el n x q : 0 <= el -> - el <= n <= el -> (0 < x < PI)%R ->
  (FR el n x q * D (2 * el) 0 (el + n) x = sgn q * D (2 * el) q (el + n) x)%R.
Proof. intros. pose proof (D0_pos' el n x H H0 H1). unfold FR. field. lra. Qed.

(** order of step m of half i *)
Definition pord (L i m : Z) : Z := if i =? 0 then m - (L - 1) else L - 1 - m.
Definition prow (L i m : Z) : Z := if i =? 0 then m else 2 * L - 2 - m.

Lemma vsign_read L L0 mm i m : 2 <= L -> i = 0 \/ i = 1 -> 0 <= m <= L - 1 ->
  vread (pm_vsigns L L0 mm) ((if i =? 0 then 0 else -1) + (if i =? 0 then 1 else -1) * m) = Ok (vat (pm_vsigns L L0 mm) (prow L i m)).
Proof.
  intros HL [->| ->] Hm; cbn [Z.eqb]; unfold prow; cbn [Z.eqb].
  - rewrite vread_in by (cbn [vlen pm_vsigns]; lia). do 2 f_equal. lia.
  - rewrite vread_neg by (cbn [vlen pm_vsigns]; lia). do 2 f_equal. cbn [vlen pm_vsigns]. lia.
Qed.

Lemma msign_abs k : msign (Z.abs k) = sgn k.
Proof. rewrite msign_sgn. apply sgn_abs. Qed.

(** v = wigner_d / (FR * D0) *)
Lemma sign_value L L0 mm i m k x : 2 <= L -> i = 0 \/ i = 1 -> 0 <= m <= L - 2 + i -> 0 <= L0 -> 0 <= k < L - L0 -> Z.abs mm <= L0 + k ->
  0 <= m - (L - 1 - (L0 + k)) -> (0 < x < PI)%R ->
  (FR (L0 + k) (hn mm i) x (m - (L - 1 - (L0 + k))) * vat (pm_vsigns L L0 mm) (prow L i m) k * D (2 * (L0 + k)) 0 (L0 + k + hn mm i) x)%R
  = wigner_d (L0 + k) (pord L i m) mm x.
Proof.
  intros HL Hi Hm H0 Hk Hmm Hq Hx. set (el := L0 + k) in *. set (q := m - (L - 1 - el)) in *.
  replace (FR el (hn mm i) x q * vat (pm_vsigns L L0 mm) (prow L i m) k * D (2 * el) 0 (el + hn mm i) x)%R
    with (vat (pm_vsigns L L0 mm) (prow L i m) k * (FR el (hn mm i) x q * D (2 * el) 0 (el + hn mm i) x))%R by ring.
  rewrite fr_value; [|lia|unfold hn; destruct (i =? 0); lia|exact Hx].
  unfold pm_vsigns. cbn [vat]. fold el. rewrite !msign_abs. rewrite wig_D by (unfold pord; destruct Hi; subst i; cbn [Z.eqb]; lia).
  destruct Hi as [->| ->]; unfold prow, pord, hn; cbn [Z.eqb].
  - destruct (Z.ltb_spec m (L - 1)); [|lia]. replace (el + (m - (L - 1))) with q by lia.
    replace (sgn m * sgn (mm + el) * sgn (mm + 1 + L) * (sgn q * D (2 * el) q (el + mm) x))%R
      with ((sgn m * sgn (mm + el) * sgn (mm + 1 + L) * sgn q) * D (2 * el) q (el + mm) x)%R by ring.
    rewrite <- !sgn_add. replace (m + (mm + el) + (mm + 1 + L) + q) with (2 * (q + mm + L)) by lia. rewrite sgn_double. ring.
  - destruct (Z.ltb_spec (2 * L - 2 - m) (L - 1)); [lia|]. replace (el + (L - 1 - m)) with (2 * el - q) by lia.
    unfold D. replace (el + mm) with (2 * el - (el + - mm)) by lia. rewrite dh_flip by lia.
    rewrite Rmult_1_l. rewrite <- Rmult_assoc, <- sgn_add. f_equal.
    replace (q - (el + - mm)) with (mm + el + q + 2 * (- el)) by lia. rewrite (sgn_add (mm + el + q)), sgn_double. ring.
Qed.

(** ** The whole half *)
Section Half.
  Context {A : Type} (Inv : Z -> A -> Prop) (emit : A -> Z -> Z -> Z -> plane -> result A)
    (one : Z -> Z -> pm_pre -> Z -> Z -> Z -> bool) (pre : pm_pre) (beta : vec R) (L L0 mm i stop : Z).
  Hypothesis HL : 2 <= L.
  Hypothesis Hstop : stop <= L.
  Hypothesis HL0 : 0 <= L0 <= L - 2.
  Hypothesis Hi : i = 0 \/ i = 1.
  Hypothesis Hpre : pre_good beta L L0 mm pre.
  Hypothesis Hone : forall m j k, one L L0 pre m j k = (k =? L - 1 - m - L0).

  Definition sidx (m : Z) : Z := (if i =? 0 then 0 else -1) + (if i =? 0 then 1 else -1) * m.
  (** the factors handed out for step m *)
  Definition good (m lo : Z) (P : plane) : Prop := m <= L - 2 + i ->
    forall j k, 0 <= j < vlen beta -> lo <= k < L - L0 -> regular L L0 mm (vat beta j) -> Z.abs mm <= L0 + k ->
      P j k = Fin (wigner_d (L0 + k) (pord L i m) mm (vat beta j)).

  Hypothesis Hemit : forall m acc lo P, 0 <= m < Z.max 2 stop -> 0 <= lo < L - L0 -> (2 <= m -> lo = 0) ->
    (forall el, L0 <= el < lo + L0 -> el < L - 1 - m) -> good m lo P -> Inv m acc ->
    exists acc', emit acc (sidx m) lo (lo + L0) P = Ok acc' /\ Inv (m + 1) acc'.

  Definition cols_ok (m : Z) (it0 it1 lr : plane) : Prop := m <= L - 2 + i ->
    forall j k, 0 <= j < vlen beta -> 0 <= k < L - L0 -> regular L L0 mm (vat beta j) -> Z.abs mm <= L0 + k ->
      colinv (L0 + k) (hn mm i) (vat beta j) (m - (L - 1 - (L0 + k))) (it0 j k) (it1 j k) (lr j k).

  Lemma hn_range el : Z.abs mm <= el -> - el <= hn mm i <= el.
  Proof. unfold hn. destruct (i =? 0); lia. Qed.

  Lemma lamb_ok m j k : (0 < vat beta j < PI)%R ->
    pm_lamb beta L L0 mm i m j k = Fin (lam (L0 + k) (hn mm i) (vat beta j) (m - (L - 1 - (L0 + k)))).
  Proof.
    intros Hb. assert (Hs : (0 < sin (vat beta j))%R) by (apply sin_gt_0; lra).
    unfold pm_lamb. cbv zeta. rewrite ediv_fin by lra. cbn [emul]. f_equal. unfold lam. rewrite half_slice_hn.
    replace (m - L + (L0 + k) + 1) with (m - (L - 1 - (L0 + k))) by lia. field. lra.
  Qed.

  (** a factor at an active column *)
  Lemma active_factor m j k (d E : R) lr : 0 <= m <= L - 2 + i -> 0 <= k < L - L0 -> (0 < vat beta j < PI)%R -> Z.abs mm <= L0 + k ->
    0 <= m - (L - 1 - (L0 + k)) -> (0 < E)%R -> lr = Fin (ln (D (2 * (L0 + k)) 0 (L0 + k + hn mm i) (vat beta j)) + ln E) ->
    d = (FR (L0 + k) (hn mm i) (vat beta j) (m - (L - 1 - (L0 + k))) / E)%R ->
    emul (emul (Fin d) (Fin (vat (pm_vsigns L L0 mm) (prow L i m) k))) (eexp lr) = Fin (wigner_d (L0 + k) (pord L i m) mm (vat beta j)).
  Proof.
    intros Hm Hk Hb Hmm Hq HE -> ->. cbn [emul eexp]. f_equal.
    rewrite exp_plus. rewrite !exp_ln; [|exact HE|apply D0_pos'; [lia|apply hn_range; lia|exact Hb]].
    rewrite <- (sign_value L L0 mm i m k (vat beta j)) by (auto; lia). field. lra.
  Qed.

  Lemma fr_nonzero j k q : regular L L0 mm (vat beta j) -> 0 <= k < L - L0 -> Z.abs mm <= L0 + k -> 1 <= q < L0 + k ->
    (FR (L0 + k) (hn mm i) (vat beta j) q <> 0)%R.
  Proof.
    intros [Hb Hr] Hk Hmm Hq H.
    pose proof (sign_value L L0 mm i (q + (L - 1 - (L0 + k))) k (vat beta j)) as S.
    rewrite Z.add_simpl_r in S. rewrite H in S. rewrite !Rmult_0_l in S.
    apply (Hr (L0 + k) (pord L i (q + (L - 1 - (L0 + k))))).
    - lia.
    - unfold pord. destruct Hi as [->| ->]; cbn [Z.eqb]; lia.
    - symmetry. apply S; auto; lia.
  Qed.

  Lemma pm_half_to_ok acc : Inv 0 acc -> exists acc', pm_half_to stop emit one pre beta L L0 mm i acc = Ok acc' /\ Inv (Z.max 2 stop) acc'.
  Proof.
    intros I0. unfold pm_half_to. cbv zeta.
    rewrite vread_in by (rewrite (pg_cpi_len _ _ _ _ _ Hpre); lia). cbn [bind].
    rewrite (pg_vsign _ _ _ _ _ Hpre).
    assert (V0 : vread (pm_vsigns L L0 mm) (if i =? 0 then 0 else -1) = Ok (vat (pm_vsigns L L0 mm) (prow L i 0))).
    { rewrite <- vsign_read by lia. f_equal. lia. }
    assert (V1 : vread (pm_vsigns L L0 mm) ((if i =? 0 then 0 else -1) + (if i =? 0 then 1 else -1)) = Ok (vat (pm_vsigns L L0 mm) (prow L i 1))).
    { rewrite <- vsign_read by lia. f_equal. lia. }
    rewrite V0. cbn [bind].
    set (it1 := fun j k => if slice_lo (L - L0) (L - 1 - L0) <=? k then _ else _).
    (* step 0 *)
    assert (G0 : good 0 (L - 1 - L0) (fun j k => emul (emul (Fin 1) (Fin (vat (pm_vsigns L L0 mm) (prow L i 0) k))) (eexp (pm_lrenorm pre i j k)))).
    { intros Hm j k Hj Hk [Hb Hr] Hmm. rewrite (pg_lr _ _ _ _ _ Hpre) by (auto; lia).
      eapply active_factor with (E := 1%R); [lia|lia|exact Hb|exact Hmm|lia|lra|f_equal; rewrite ln_1; ring|].
      replace (0 - (L - 1 - (L0 + k))) with 0 by lia. rewrite FR_0' by (auto; try lia; apply hn_range; lia). field. }
    destruct (Hemit 0 acc (L - 1 - L0) _ ltac:(lia) ltac:(lia) ltac:(lia) ltac:(intros; lia) G0 I0) as (acc1 & E1 & I1).
    unfold sidx in E1. replace ((if i =? 0 then 0 else -1) + (if i =? 0 then 1 else -1) * 0) with (if i =? 0 then 0 else -1) in E1 by lia.
    rewrite E1. cbn [bind]. rewrite V1. cbn [bind].
    (* it1 *)
    assert (C2 : cols_ok 2 (fun _ _ => Fin 1) it1 (pm_lrenorm pre i)).
    { intros Hm j k Hj Hk [Hb Hr] Hmm. rewrite (pg_lr _ _ _ _ _ Hpre) by (auto; lia). subst it1. cbn beta. rewrite slice_lo_in by lia.
      assert (F0 : FR (L0 + k) (hn mm i) (vat beta j) 0 = 1%R) by (apply FR_0'; auto; try lia; apply hn_range; lia).
      destruct (Z.leb_spec (L - 1 - L0) k).
      - split; [lia|]. intros _. exists 1%R, 1%R. replace (2 - (L - 1 - (L0 + k))) with 2 by lia. change (2 - 1) with 1. change (2 - 2) with 0.
        split; [lra|]. split; [|split; [reflexivity|split; [intros _; rewrite F0; field|f_equal; rewrite ln_1; ring]]].
        rewrite lamb_ok by exact Hb. pose proof (pg_cpi _ _ _ _ _ Hpre 1 k) as Hc. change (1 - 1) with 0 in Hc. rewrite Hc by lia. clear Hc. cbn [emul]. f_equal.
        replace (1 - (L - 1 - (L0 + k))) with 1 by lia.
        rewrite (FR_step _ _ _) with (m := 1) by (auto; try lia; apply hn_range; lia). fold (cpi_val (L0 + k) 1).
        replace (ac (2 * (L0 + k)) (1 - 2)) with 0%R; [|symmetry; apply ac_out; lia]. change (1 - 1) with 0. rewrite F0. field.
      - split.
        + intros _. auto.
        + intros Hq. assert (k = L - 2 - L0) by lia. exists 1%R, 1%R. split; [lra|].
          replace (2 - (L - 1 - (L0 + k))) with 1 by lia. change (1 - 1) with 0. rewrite F0.
          split; [f_equal; field|]. split; [reflexivity|]. split; [lia|]. f_equal. rewrite ln_1. ring. }
    (* step 1 *)
    assert (G1 : good 1 (L - 1 - L0 - 1) (fun j k => emul (emul (it1 j k) (Fin (vat (pm_vsigns L L0 mm) (prow L i 1) k))) (eexp (pm_lrenorm pre i j k)))).
    { intros Hm j k Hj Hk [Hb Hr] Hmm. rewrite (pg_lr _ _ _ _ _ Hpre) by (auto; lia).
      assert (F0 : FR (L0 + k) (hn mm i) (vat beta j) 0 = 1%R) by (apply FR_0'; auto; try lia; apply hn_range; lia).
      subst it1. cbn beta. rewrite slice_lo_in by lia. destruct (Z.leb_spec (L - 1 - L0) k).
      - rewrite lamb_ok by exact Hb. pose proof (pg_cpi _ _ _ _ _ Hpre 1 k) as Hc. change (1 - 1) with 0 in Hc. rewrite Hc by lia. clear Hc. cbn [emul].
        eapply (active_factor 1 j k _ 1%R); [lia|lia|exact Hb|exact Hmm|lia|lra|f_equal; rewrite ln_1; ring|].
        replace (1 - (L - 1 - (L0 + k))) with 1 by lia.
        rewrite (FR_step _ _ _) with (m := 1) by (auto; try lia; apply hn_range; lia). fold (cpi_val (L0 + k) 1).
        replace (ac (2 * (L0 + k)) (1 - 2)) with 0%R; [|symmetry; apply ac_out; lia]. change (1 - 1) with 0. rewrite F0. field.
      - eapply (active_factor 1 j k _ 1%R); [lia|lia|exact Hb|exact Hmm|lia|lra|f_equal; rewrite ln_1; ring|].
        replace (1 - (L - 1 - (L0 + k))) with 0 by lia. rewrite F0. field. }
    destruct (Hemit 1 acc1 (L - 1 - L0 - 1) _ ltac:(lia) ltac:(lia) ltac:(lia) ltac:(intros; lia) G1 I1) as (acc2 & E2 & I2).
    unfold sidx in E2. rewrite Z.mul_1_r in E2.
    match type of E2 with ?l = _ => match goal with |- context [emit acc1 ?a ?b ?c ?P] => change (emit acc1 a b c P) with l end end. rewrite E2. cbn [bind]. clear E1 E2 G0 G1 I1.
    (* the loop *)
    match goal with |- context [foldM ?f (zrange 2 _) _] => set (body := f) end.
    edestruct (foldM_inv' (fun m (st : A * plane * plane * plane * plane) =>
        let '(acc, dl, it0, it1, lr) := st in Inv m acc /\ cols_ok m it0 it1 lr /\
        (forall j k, m <= L - 1 - (L0 + k) -> dl j k = Fin 0)) body 2 stop) as (st & E & H).
    3:{ unfold plane in *. rewrite E. cbn [bind]. destruct st as [[[[acc' dl] it0'] it1'] lr']. exists acc'. split; [reflexivity|].
        destruct H as [H _]. exact H. }
    - split; [exact I2|]. split; [exact C2|]. reflexivity.
    - intros m [[[[accm dl] it0m] it1m] lrm] Hm (Im & Cm & Dm). subst body. cbn beta iota.
      rewrite vread_in by (rewrite (pg_cpi_len _ _ _ _ _ Hpre); lia). cbn [bind].
      rewrite vread_in by (rewrite (pg_cp2_len _ _ _ _ _ Hpre); lia). cbn [bind].
      rewrite vsign_read by lia. cbn [bind].
      set (dl' := fun j k => if one L L0 pre m j k then Fin 1 else _).
      assert (Hout : forall j k, m < L - 1 - (L0 + k) -> dl' j k = Fin 0).
      { intros j k Hk. subst dl'. cbn beta. rewrite Hone. rewrite (pg_ind _ _ _ _ _ Hpre).
        destruct (Z.eqb_spec k (L - 1 - m - L0)); [lia|]. destruct (Z.leb_spec (L - m - 1) (L0 + k)); [lia|]. apply Dm. lia. }
      assert (Hone0 : forall j k, m = L - 1 - (L0 + k) -> dl' j k = Fin 1).
      { intros j k Hk. subst dl'. cbn beta. rewrite Hone. destruct (Z.eqb_spec k (L - 1 - m - L0)); [reflexivity|lia]. }
      assert (Hact : forall j k, 0 <= j < vlen beta -> 0 <= k < L - L0 -> regular L L0 mm (vat beta j) -> Z.abs mm <= L0 + k ->
        1 <= m - (L - 1 - (L0 + k)) -> m <= L - 2 + i ->
        exists E, (0 < E)%R /\ lrm j k = Fin (ln (D (2 * (L0 + k)) 0 (L0 + k + hn mm i) (vat beta j)) + ln E) /\
          dl' j k = Fin (FR (L0 + k) (hn mm i) (vat beta j) (m - (L - 1 - (L0 + k))) / E) /\
          it1m j k = Fin (FR (L0 + k) (hn mm i) (vat beta j) (m - (L - 1 - (L0 + k)) - 1) / E)).
      { intros j k Hj Hk Hreg Hmm Hq Hmi. pose proof Hreg as [Hb _]. pose proof (Cm ltac:(lia) j k Hj Hk Hreg Hmm) as Cjk.
        subst dl'. cbn beta. rewrite Hone, (pg_ind _ _ _ _ _ Hpre).
        destruct (Z.eqb_spec k (L - 1 - m - L0)); [lia|]. destruct (Z.leb_spec (L - m - 1) (L0 + k)); [|lia].
        rewrite lamb_ok by exact Hb. rewrite (pg_cpi _ _ _ _ _ Hpre) by lia.
        destruct (entry_step (L0 + k) (hn mm i) (vat beta j) (hn_range _ Hmm) Hb (m - (L - 1 - (L0 + k))) _ _ _
          (vat (pm_cp2 pre) (m - 1) k) ltac:(lia) Cjk) as (E & HE & HF & HG & HH); [|exists E; auto].
        destruct (Z.eqb_spec (m - (L - 1 - (L0 + k))) 1).
        - apply (pg_cp2_1 _ _ _ _ _ Hpre); lia.
        - apply (pg_cp2 _ _ _ _ _ Hpre); lia. }
      assert (Gm : good m 0 (fun j k => emul (emul (dl' j k) (Fin (vat (pm_vsigns L L0 mm) (prow L i m) k))) (eexp (lrm j k)))).
      { intros Hm' j k Hj Hk Hreg Hmm. pose proof Hreg as [Hb _]. pose proof (Cm ltac:(lia) j k Hj Hk Hreg Hmm) as Cjk.
        destruct (Z.lt_total m (L - 1 - (L0 + k))) as [Hlt|[Heq|Hgt]].
        - rewrite Hout by exact Hlt. destruct (proj1 Cjk ltac:(lia)) as (_ & _ & ->). cbn [emul eexp]. f_equal.
          rewrite wig_out; [ring|]. left. unfold pord. destruct Hi as [->| ->]; cbn [Z.eqb]; lia.
        - rewrite Hone0 by exact Heq. destruct (proj1 Cjk ltac:(lia)) as (_ & _ & ->).
          eapply (active_factor m j k _ 1%R); [lia|lia|exact Hb|exact Hmm|lia|lra|f_equal; rewrite ln_1; ring|].
          replace (m - (L - 1 - (L0 + k))) with 0 by lia. rewrite FR_0' by (auto; try lia; apply hn_range; lia). field.
        - destruct (Hact j k Hj Hk Hreg Hmm ltac:(lia) ltac:(lia)) as (E & HE & HF & HG & _). rewrite HG.
          eapply (active_factor m j k _ E); [lia|lia|exact Hb|exact Hmm|lia|exact HE|exact HF|reflexivity]. }
      destruct (Hemit m accm 0 _ ltac:(lia) ltac:(lia) ltac:(lia) ltac:(intros; lia) Gm Im) as (acc' & E & I').
      unfold sidx in E. rewrite Z.add_0_l in E.
      match type of E with ?l = _ => match goal with |- context [emit accm ?a ?b ?c ?P] => change (emit accm a b c P) with l end end.
      rewrite E. cbn [bind]. eexists. split; [reflexivity|]. cbn beta iota.
      split; [exact I'|]. split.
      + change (cols_ok (m + 1)
          (fun j k => if L - m - 1 <=? pm_indices pre j k then emul (ediv (Fin 1) (eabs (dl' j k))) (it1m j k) else it0m j k)
          (fun j k => if L - m - 1 <=? pm_indices pre j k then emul (ediv (Fin 1) (eabs (dl' j k))) (dl' j k) else it1m j k)
          (fun j k => if L - m - 1 <=? pm_indices pre j k then eadd (lrm j k) (elog (eabs (dl' j k))) else lrm j k)).
        intros Hm' j k Hj Hk Hreg Hmm. pose proof Hreg as [Hb _]. pose proof (Cm ltac:(lia) j k Hj Hk Hreg Hmm) as Cjk.
        rewrite (pg_ind _ _ _ _ _ Hpre). destruct (Z.leb_spec (L - m - 1) (L0 + k)) as [Hle|Hgt].
        * destruct (Z.eq_dec m (L - 1 - (L0 + k))) as [Heq|Hne].
          -- rewrite Hone0 by exact Heq. destruct (proj1 Cjk ltac:(lia)) as (_ & F1 & F2).
             replace (m + 1 - (L - 1 - (L0 + k))) with 1 by lia. apply colinv_first; auto; try lia. apply hn_range; lia.
          -- destruct (Hact j k Hj Hk Hreg Hmm ltac:(lia) ltac:(lia)) as (E' & HE & HF & HG & HH). rewrite HG, HF, HH.
             replace (m + 1 - (L - 1 - (L0 + k))) with (m - (L - 1 - (L0 + k)) + 1) by lia.
             apply colinv_next; auto; try lia. apply fr_nonzero; auto; lia.
        * destruct (proj1 Cjk ltac:(lia)) as (F0 & F1 & F2). split; [auto|]. intros; lia.
      + intros j k Hk. apply Hout. lia.
  Qed.
End Half.

(** the loops of the latitudinal steps *)
Lemma pm_half_ok {A} (Inv : Z -> A -> Prop) emit one pre beta L L0 mm i :
  2 <= L -> 0 <= L0 <= L - 2 -> i = 0 \/ i = 1 -> pre_good beta L L0 mm pre -> (forall m j k, one L L0 pre m j k = (k =? L - 1 - m - L0)) ->
  (forall m acc lo P, 0 <= m < Z.max 2 (L - 1 + i) -> 0 <= lo < L - L0 -> (2 <= m -> lo = 0) ->
    (forall el, L0 <= el < lo + L0 -> el < L - 1 - m) -> good beta L L0 mm i m lo P -> Inv m acc ->
    exists acc', emit acc (sidx i m) lo (lo + L0) P = Ok acc' /\ Inv (m + 1) acc') ->
  forall acc, Inv 0 acc -> exists acc', pm_half emit one pre beta L L0 mm i acc = Ok acc' /\ Inv (Z.max 2 (L - 1 + i)) acc'.
Proof. intros HL HL0 Hi Hpre Hone Hemit acc I. unfold pm_half. apply pm_half_to_ok; auto. lia. Qed.
