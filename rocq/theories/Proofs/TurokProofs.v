(** The Turok & Bucher recursion computes slices of the Wigner d-matrices. *)
From Coq Require Import Reals Lra Lia ZifyBool.
From Verif Require Import Lib.Py Lib.PyFacts Lib.Sums Lib.Cplx Lib.Vec Lib.VecFacts Lib.Arr Lib.ArrFacts.
From Verif Require Import Model.Turok Spec.WignerSpec Proofs.WignerGen Proofs.WignerDh Proofs.WignerCalc
  Proofs.WignerFourier Proofs.RisboProofs.
Open Scope Z_scope.

Lemma msign_sgn k : msign k = sgn k. Proof. reflexivity. Qed.

(** ** The first row: d^l_{-l,n} *)
Lemma dh_first c s j i : 0 <= i <= j ->
  dh c s j 0 i = (sqrt (zf j * zf i * zf (j - i)) * (/ zf i * / zf (j - i)) * zpow c (j - i) * zpow s i)%R.
Proof.
  intros Hi. rewrite dh_expand by lia. rewrite zf_0, Z.sub_0_r, Rmult_1_l.
  rewrite (rr_shrink 0 (i + 1) i (i + 1)) by (try lia; intros; apply term_out; lia).
  rewrite rr_one. unfold term. replace (0 - i + i) with 0 by lia. rewrite sgn_0, Z.sub_diag, !ifac_0.
  rewrite !ifac_pos by lia. rewrite Z.sub_0_r.
  replace (j + i - 0 - 2 * i) with (j - i) by lia. replace (0 - i + 2 * i) with i by lia. ring.
Qed.

Lemma zpow_pos x k : (0 < x)%R -> (0 < zpow x k)%R.
Proof. intros. now apply pow_lt. Qed.

Lemma dh_first_pos c s j i : (0 < c)%R -> (0 < s)%R -> 0 <= i <= j -> (0 < dh c s j 0 i)%R.
Proof.
  intros Hc Hs Hi. rewrite dh_first by lia.
  repeat apply Rmult_lt_0_compat; try (apply Rinv_0_lt_compat; apply zf_pos); try (now apply zpow_pos).
  apply sqrt_lt_R0. repeat apply Rmult_lt_0_compat; apply zf_pos.
Qed.

Lemma dh_first_step c s j i : (0 < c)%R -> (0 < s)%R -> 1 <= i <= j ->
  dh c s j 0 i = (dh c s j 0 (i - 1) * sqrt (IZR (j + 1 - i) / IZR i) * (s / c))%R.
Proof.
  intros Hc Hs Hi. rewrite !dh_first by lia.
  assert (Hi0 : (0 < IZR i)%R) by (apply IZR_lt; lia).
  assert (Hj0 : (0 < IZR (j + 1 - i))%R) by (apply IZR_lt; lia).
  replace (j - (i - 1)) with (j - i + 1) by lia. rewrite (zf_succ (j - i)), (zpow_succ c (j - i)) by lia.
  replace (zpow s i) with (s * zpow s (i - 1))%R by (rewrite <- zpow_succ by lia; f_equal; lia).
  rewrite (zf_pred i) by lia. replace (j - i + 1) with (j + 1 - i) by lia.
  assert (E : (sqrt (zf j * (IZR i * zf (i - 1)) * zf (j - i))
      * IZR (j + 1 - i)
      = sqrt (zf j * zf (i - 1) * (IZR (j + 1 - i) * zf (j - i))) * (IZR i * sqrt (IZR (j + 1 - i) / IZR i)))%R).
  { set (P := (zf j * zf (i - 1) * zf (j - i))%R).
    assert (HP : (0 < P)%R) by (unfold P; repeat apply Rmult_lt_0_compat; apply zf_pos).
    replace (zf j * (IZR i * zf (i - 1)) * zf (j - i))%R with (P * IZR i)%R by (unfold P; ring).
    replace (zf j * zf (i - 1) * (IZR (j + 1 - i) * zf (j - i)))%R with (P * IZR (j + 1 - i))%R by (unfold P; ring).
    rewrite !sqrt_mult, sqrt_div by lra.
    set (a := sqrt (IZR i)). set (b := sqrt (IZR (j + 1 - i))).
    assert (Ha : (0 < a)%R) by (now apply sqrt_lt_R0).
    replace (IZR i) with (a * a)%R by (apply sqrt_sqrt; lra).
    replace (IZR (j + 1 - i)) with (b * b)%R by (apply sqrt_sqrt; lra). field. lra. }
  set (S1 := sqrt (zf j * (IZR i * zf (i - 1)) * zf (j - i))) in *.
  set (S2 := sqrt (zf j * zf (i - 1) * (IZR (j + 1 - i) * zf (j - i)))) in *.
  set (Q := sqrt (IZR (j + 1 - i) / IZR i)) in *.
  pose proof (zf_neq (i - 1)). pose proof (zf_neq (j - i)).
  replace S1 with (S2 * (IZR i * Q) / IZR (j + 1 - i))%R by (rewrite <- E; field; lra).
  field. repeat split; try lra; auto.
Qed.

(** ** The recursion in m *)
Section Rec.
  Variables (el n : Z) (x : R).
  Hypothesis Hel : 1 <= el.
  Hypothesis Hn : - el <= n <= el.
  Hypothesis Hx : (0 < x < PI)%R.

  Definition FR (m : Z) : R := (sgn m * D (2 * el) m (el + n) x / D (2 * el) 0 (el + n) x)%R.

  Lemma half_pos : (0 < cos (x / 2))%R /\ (0 < sin (x / 2))%R.
  Proof using Hx. pose proof PI_RGT_0. split; [apply cos_gt_0; lra|apply sin_gt_0; lra]. Qed.
  Lemma D0_pos : (0 < D (2 * el) 0 (el + n) x)%R.
  Proof using Hel Hn Hx. destruct half_pos. apply dh_first_pos; auto; lia. Qed.

  Lemma FR_0 : FR 0 = 1%R.
  Proof using Hel Hn Hx. unfold FR. rewrite sgn_0. pose proof D0_pos. field. lra. Qed.

  Definition lam (m : Z) : R :=
    ((IZR (el + 1) * (1 - cos x) - IZR (el + n + 1) + IZR m * cos x) / sin x)%R.

  Lemma acm m : ac (2 * el) (m - 1) = sqrt (IZR (m * (2 * el + 1 - m))).
  Proof. unfold ac. f_equal. f_equal. ring. Qed.
  Lemma acm_pos m : 1 <= m <= 2 * el -> (0 < sqrt (IZR (m * (2 * el + 1 - m))))%R.
  Proof using Hel. intros. apply sqrt_lt_R0. apply IZR_lt. nia. Qed.

  (** second term absent for m = 1 *)
  Lemma FR_step m : 1 <= m <= 2 * el ->
    FR m = (lam m * (2 / sqrt (IZR (m * (2 * el + 1 - m)))) * FR (m - 1)
            - (2 / sqrt (IZR (m * (2 * el + 1 - m)))) * (ac (2 * el) (m - 2) / 2) * FR (m - 2))%R.
  Proof using Hel Hn Hx.
    intros Hm. unfold FR.
    pose proof (D_Jz (2 * el) (m - 1) (el + n) x ltac:(lia)) as J.
    replace (m - 1 + 1) with m in J by lia. replace (m - 1 - 1) with (m - 2) in J by lia. rewrite acm in J.
    pose proof (acm_pos m Hm) as HA. set (A := sqrt (IZR (m * (2 * el + 1 - m)))) in *.
    pose proof D0_pos as H0. set (D0 := D (2 * el) 0 (el + n) x) in *.
    replace (sgn (m - 1)) with (- sgn m)%R by (rewrite sgn_sub, sgn_1; ring).
    replace (sgn (m - 2)) with (sgn m) by (rewrite sgn_sub; change (sgn 2) with 1%R; ring).
    assert (Hs : (0 < sin x)%R) by (apply sin_gt_0; lra).
    unfold lam. set (s := sin x) in *. set (c := cos x) in *.
    set (P := D (2 * el) (m - 2) (el + n) x) in *. set (Q := D (2 * el) (m - 1) (el + n) x) in *.
    set (W := D (2 * el) m (el + n) x) in *. set (B := ac (2 * el) (m - 2)) in *.
    replace (IZR (2 * (el + n) - 2 * el)) with (2 * IZR n)%R in J
      by (rewrite <- mult_IZR; f_equal; ring).
    replace (IZR (2 * (m - 1) - 2 * el)) with (2 * (IZR m - IZR el - 1))%R in J
      by (rewrite minus_IZR, !mult_IZR, minus_IZR; ring).
    rewrite !plus_IZR.
    assert (E : W = ((2 * (IZR n - (IZR m - IZR el - 1) * c) * Q / s - B * P) / A)%R).
    { apply (Rmult_eq_reg_l (s * A)); [|apply Rmult_integral_contrapositive_currified; lra].
      replace (s * A * ((2 * (IZR n - (IZR m - IZR el - 1) * c) * Q / s - B * P) / A))%R
        with (2 * IZR n * Q - c * (2 * (IZR m - IZR el - 1)) * Q - s * B * P)%R by (field; lra).
      rewrite J. ring. }
    rewrite E. field. repeat split; lra.
  Qed.
End Rec.

(** exp(log_first_row) *)
Lemma tan_half x : (0 < x < PI)%R -> (Rabs (tan (- x / 2)) = sin (x / 2) / cos (x / 2))%R
  /\ (tan (- x / 2) / Rabs (tan (- x / 2)) = -1)%R.
Proof.
  intros Hx. destruct (half_pos x Hx) as [Hc Hs].
  replace (- x / 2)%R with (- (x / 2))%R by field. unfold tan. rewrite sin_neg, cos_neg.
  assert (P : (0 < sin (x / 2) / cos (x / 2))%R) by (apply Rdiv_lt_0_compat; auto).
  replace (- sin (x / 2) / cos (x / 2))%R with (- (sin (x / 2) / cos (x / 2)))%R by (field; lra).
  rewrite Rabs_Ropp, Rabs_pos_eq by lra. split; [reflexivity|]. field. split; lra.
Qed.

Lemma exp_half_ln r : (0 < r)%R -> exp (ln r / 2) = sqrt r.
Proof.
  intros Hr. apply Rsqr_inj; [left; apply exp_pos|apply sqrt_pos|].
  rewrite Rsqr_sqrt by lra. unfold Rsqr. rewrite <- exp_plus.
  replace (ln r / 2 + ln r / 2)%R with (ln r) by field. now apply exp_ln.
Qed.
Lemma exp_mul_ln c k : (0 < c)%R -> 0 <= k -> exp (IZR k * ln c) = zpow c k.
Proof.
  intros Hc. revert k. z_ind; [rewrite Rmult_0_l; apply exp_0|].
  intros k Hk IH. rewrite <- Z.add_1_r, zpow_succ, plus_IZR by lia.
  replace ((IZR k + 1) * ln c)%R with (ln c + IZR k * ln c)%R by ring.
  rewrite exp_plus, exp_ln by auto. now rewrite IH.
Qed.

Lemma lfr_ok el n top x : (0 < x < PI)%R -> 1 <= el -> 1 <= top <= n -> n <= 2 * el + 1 ->
  exists v, turok_log_first_row el n top (cos (x / 2)) (ln (Rabs (tan (- x / 2)))) = Ok v
    /\ vlen v = n /\ forall q, 0 <= q < top -> exp (vat v q) = D (2 * el) 0 q x.
Proof.
  intros Hx Hel Ht Hn. destruct (half_pos x Hx) as [Hc Hs]. destruct (tan_half x Hx) as [HT _].
  unfold turok_log_first_row. rewrite vwrite_in by (cbn; lia). cbn [bind].
  destruct (foldM_inv (fun i v => vlen v = n /\ forall q, 0 <= q < i - 1 -> exp (vat v q) = D (2 * el) 0 q x)
    (fun v i => let* x0 := vread v (i - 2) in
       vwrite v (i - 1) (x0 + ln (IZR (2 * el + 2 - i) / IZR (i - 1)) / 2 + ln (Rabs (tan (- x / 2))))%R)
    2 (top + 1) (mkVec (vlen (vconst n 0%R)) (vupd (vat (vconst n 0%R)) 0 (2 * IZR el * ln (Rabs (cos (x / 2))))%R)))
    as (v & E & Hl & Hv).
  - lia.
  - split; [reflexivity|]. intros q Hq. assert (q = 0) by lia. subst q. cbn [vat]. rewrite vupd_same.
    rewrite Rabs_pos_eq by lra. rewrite <- mult_IZR, exp_mul_ln by (auto; lia).
    unfold D. rewrite dh_first by lia. rewrite Z.sub_0_r, zf_0, zpow_0.
    rewrite !Rmult_1_r. rewrite sqrt_square by (left; apply zf_pos). field. apply zf_neq.
  - intros i v Hi [Hl Hv]. rewrite vread_in by lia. cbn [bind]. rewrite vwrite_in by lia.
    eexists; split; [reflexivity|]. split; [exact Hl|]. intros q Hq. cbn [vat].
    destruct (Z.eq_dec q (i - 1)) as [->|].
    + rewrite vupd_same. rewrite !exp_plus, Hv by lia.
      assert (R0 : (0 < IZR (2 * el + 2 - i) / IZR (i - 1))%R) by (apply Rdiv_lt_0_compat; apply IZR_lt; lia).
      rewrite exp_half_ln by auto. rewrite HT, exp_ln by (apply Rdiv_lt_0_compat; auto).
      unfold D. rewrite (dh_first_step _ _ (2 * el) (i - 1)) by (auto; lia).
      replace (i - 1 - 1) with (i - 2) by lia. replace (2 * el + 1 - (i - 1)) with (2 * el + 2 - i) by lia.
      reflexivity.
    + rewrite vupd_other by auto. apply Hv. lia.
  - exists v. split; [exact E|]. split; [exact Hl|]. intros q Hq. apply Hv. lia.
Qed.

Definition cpi_val (el m : Z) : R := (2 / sqrt (IZR (m * (2 * el + 1 - m))))%R.

(** cpi[m-1] for 1 <= m <= el, cp2[m-1] for 2 <= m <= el *)
Definition cp_good (el top : Z) (cpi cp2 : vec R) : Prop :=
  (forall m, 1 <= m < top -> vread cpi (m - 1) = Ok (cpi_val el m)) /\
  (forall m, 2 <= m < top -> vread cp2 (m - 1) = Ok (cpi_val el m / cpi_val el (m - 1))%R).

Lemma cp_ok el : 1 <= el -> exists cpi cp2, turok_cp el = Ok (cpi, cp2) /\ cp_good el (el + 1) cpi cp2.
Proof.
  intros Hel. unfold turok_cp. rewrite vwrite_in by (cbn; lia). cbn [bind].
  match goal with |- context [foldM ?f (zrange 2 (el + 1)) ?s0] =>
    destruct (foldM_inv (fun m s => vlen (fst s) = el + 1 /\ vlen (snd s) = el + 1
        /\ (forall k, 1 <= k < m -> vat (fst s) (k - 1) = cpi_val el k)
        /\ (forall k, 2 <= k < m -> vat (snd s) (k - 1) = (cpi_val el k / cpi_val el (k - 1))%R)) f 2 (el + 1) s0)
      as ((cpi & cp2) & E & H1 & H2 & H3 & H4) end.
  - lia.
  - cbn [fst snd vlen vconst]. repeat split; try lia. intros k Hk. assert (k = 1) by lia. subst k.
    cbn [vat]. change (1 - 1) with 0. rewrite vupd_same. unfold cpi_val. do 3 f_equal. lia.
  - intros m (cpi, cp2) Hm (H1 & H2 & H3 & H4). cbn [fst snd] in *.
    rewrite vwrite_in by lia. cbn [bind]. rewrite !vread_in by (cbn [vlen]; lia). cbn [bind vat].
    rewrite vupd_same, vupd_other by lia. rewrite vwrite_in by lia. cbn [bind].
    eexists; split; [reflexivity|]. cbn [fst snd vlen vat]. repeat split; auto.
    + intros k Hk. destruct (Z.eq_dec k m) as [->|]; [now rewrite vupd_same|].
      rewrite vupd_other by lia. apply H3. lia.
    + intros k Hk. destruct (Z.eq_dec k m) as [->|].
      * rewrite vupd_same. replace (m - 2) with (m - 1 - 1) by lia. now rewrite H3 by lia.
      * rewrite vupd_other by lia. apply H4. lia.
  - exists cpi, cp2. split; [exact E|]. cbn [fst snd] in *. split; intros m Hm; rewrite vread_in by lia; f_equal; auto.
Qed.

Lemma cpi_ratio el m : 2 <= m <= 2 * el -> (cpi_val el m / cpi_val el (m - 1) = cpi_val el m * (ac (2 * el) (m - 2) / 2))%R.
Proof.
  intros Hm. replace (m - 2) with (m - 1 - 1) by lia. rewrite acm. unfold cpi_val.
  pose proof (acm_pos el ltac:(lia) (m - 1) ltac:(lia)). pose proof (acm_pos el ltac:(lia) m ltac:(lia)). field. lra.
Qed.

Lemma big_pos : (0 < big_const)%R. Proof. unfold big_const. lra. Qed.
Lemma big_inv : (1 / big_const = exp (- ln big_const))%R.
Proof. pose proof big_pos. rewrite exp_Ropp, exp_ln by auto. field. lra. Qed.

(** ** One half slice *)
Section HalfSlice.
  Variables (el n : Z) (x : R).
  Hypothesis Hel : 1 <= el.
  Hypothesis Hn : - el <= n <= el.
  Hypothesis Hx : (0 < x < PI)%R.
  Variables (lim sg : Z) (Hsg : sg = 1 \/ sg = -1).

  (** entries m < top hold the normalised values times e; all others are those of dl0 *)
  Definition half_inv (dl0 : vec R) (top : Z) (e : R) (dl : vec R) : Prop :=
    vlen dl = vlen dl0
    /\ (forall m, 0 <= m < top -> vat dl (lim + sg * m) = (FR el n x m * e)%R)
    /\ (forall j, (forall m, 0 <= m < top -> j <> lim + sg * m) -> vat dl j = vat dl0 j).

  Lemma rescale_ok dl0 dl e m : (forall k, 0 <= k <= el -> 0 <= lim + sg * k < vlen dl0) -> 0 <= m <= el ->
    half_inv dl0 (m + 1) e dl ->
    exists dl', turok_rescale dl lim sg m = Ok dl' /\ half_inv dl0 (m + 1) (e * (1 / big_const)) dl'.
  Proof using Hsg.
    intros Hb Hm (H1 & H2 & H3). unfold turok_rescale.
    destruct (foldM_inv (fun k dl => vlen dl = vlen dl0
        /\ (forall q, 0 <= q < m + 1 -> vat dl (lim + sg * q)
              = (if q <? k then FR el n x q * (e * (1 / big_const)) else FR el n x q * e)%R)
        /\ (forall j, (forall q, 0 <= q < m + 1 -> j <> lim + sg * q) -> vat dl j = vat dl0 j))
      (fun dl im => let* x := vread dl (lim + sg * im) in vwrite dl (lim + sg * im) (x * (1 / big_const))%R)
      0 (m + 1) dl) as (dl' & E & G1 & G2 & G3).
    - lia.
    - split; [exact H1|]. split; [|exact H3]. intros q Hq. rewrite H2 by lia. now replace (q <? 0) with false by lia.
    - intros k d Hk (G1 & G2 & G3). rewrite vread_in by (rewrite G1; apply Hb; lia). cbn [bind].
      rewrite vwrite_in by (rewrite G1; apply Hb; lia). eexists; split; [reflexivity|]. cbn [vlen vat].
      split; [exact G1|]. split.
      + intros q Hq. destruct (Z.eq_dec q k) as [->|Hne].
        * rewrite vupd_same, G2 by lia. replace (k <? k) with false by lia. replace (k <? k + 1) with true by lia. ring.
        * rewrite vupd_other by (destruct Hsg; subst sg; lia). rewrite G2 by lia.
          now replace (q <? k + 1) with (q <? k) by lia.
      + intros j Hj. rewrite vupd_other by (apply Hj; lia). now apply G3.
    - exists dl'. split; [exact E|]. split; [exact G1|]. split; [|exact G3].
      intros q Hq. rewrite G2 by lia. now replace (q <? m + 1) with true by lia.
  Qed.

  Lemma half_ok dl cpi cp2 : (forall k, 0 <= k <= el -> 0 <= lim + sg * k < vlen dl) ->
    cp_good el (el + 1) cpi cp2 ->
    exists dl' lr, turok_half dl cpi cp2 el (el + n + 1) lim sg (cos x) (sin x) (1 - cos x) = Ok (dl', lr)
      /\ half_inv dl (el + 1) (exp lr) dl'.
  Proof using Hel Hn Hx Hsg.
    intros Hb [Hcpi Hcp2]. unfold turok_half. rewrite vwrite_in by (specialize (Hb 0); lia). cbn [bind].
    rewrite vread_in by (cbn [vlen]; specialize (Hb 0); lia). cbn [bind vat].
    pose proof (Hcpi 1 ltac:(lia)) as C1. change (1 - 1) with 0 in C1. rewrite C1. cbn [bind].
    rewrite vwrite_in by (cbn [vlen]; apply Hb; lia). cbn [bind vlen].
    match goal with |- context [foldM ?f (zrange 2 (el + 1)) ?s0] =>
      destruct (foldM_inv (fun m s => half_inv dl m (exp (snd s)) (fst s)) f 2 (el + 1) s0) as ((dl' & lr) & E & H) end.
    - lia.
    - cbn [fst snd]. rewrite exp_0. split; [reflexivity|]. cbn [vat]. split.
      + intros m Hm. assert (m = 0 \/ m = 1) as [-> | ->] by lia.
        * rewrite vupd_other by (destruct Hsg; subst sg; lia). replace (lim + sg * 0) with lim by lia.
          rewrite vupd_same, FR_0 by auto. ring.
        * rewrite !vupd_same. rewrite (FR_step el n x) by (auto; lia). change (1 - 1) with 0.
          rewrite (ac_out (2 * el) (1 - 2)) by lia. rewrite FR_0 by auto.
          unfold lam, cpi_val. change (IZR 1) with 1%R. unfold Rdiv. ring.
      + intros j Hj. rewrite !vupd_other; [reflexivity| |apply Hj; lia].
        specialize (Hj 0 ltac:(lia)). lia.
    - intros m (d, lr) Hm (G1 & G2 & G3). cbn [fst snd] in *.
      rewrite Hcpi, Hcp2 by lia. cbn [bind].
      rewrite (vread_in d (lim + sg * (m - 1))) by (rewrite G1; apply Hb; lia). cbn [bind].
      rewrite (vread_in d (lim + sg * (m - 2))) by (rewrite G1; apply Hb; lia). cbn [bind].
      rewrite vwrite_in by (rewrite G1; apply Hb; lia). cbn [bind].
      rewrite vread_in by (cbn [vlen]; rewrite G1; apply Hb; lia). cbn [bind vat vlen].
      assert (H : half_inv dl (m + 1) (exp lr) (mkVec (vlen d) (vupd (vat d) (lim + sg * m)
         ((IZR (el + 1) * (1 - cos x) - IZR (el + n + 1) + IZR m * cos x) / sin x * cpi_val el m *
         vat d (lim + sg * (m - 1)) - cpi_val el m / cpi_val el (m - 1) * vat d (lim + sg * (m - 2)))%R))).
      { split; [exact G1|]. cbn [vat]. split.
        - intros k Hk. destruct (Z.eq_dec k m) as [->|].
          + rewrite vupd_same, !G2 by lia. rewrite (FR_step el n x Hel Hn Hx m) by lia.
            rewrite cpi_ratio by lia. unfold lam, cpi_val. ring.
          + rewrite vupd_other by (destruct Hsg; subst sg; lia). apply G2. lia.
        - intros j Hj. rewrite vupd_other by (apply Hj; lia). apply G3. intros; apply Hj; lia. }
      destruct (Rlt_dec _ _).
      + destruct (rescale_ok dl _ (exp lr) m Hb ltac:(lia) H) as (d' & -> & H'). cbn [bind].
        eexists; split; [reflexivity|]. cbn [fst snd]. unfold Rminus. now rewrite exp_plus, <- big_inv.
      + eexists; split; [reflexivity|]. exact H.
    - exists dl', lr. split; [exact E|exact H].
  Qed.
End HalfSlice.

(** ** Scaling loops *)
Lemma scale_ok (idx : Z -> Z) (h : Z -> R -> R) a b dl (body : vec R -> Z -> result (vec R)) : a <= b ->
  (forall v m, body v m = let* x := vread v (idx m) in vwrite v (idx m) (h m x)) ->
  (forall m, a <= m < b -> 0 <= idx m < vlen dl) ->
  (forall m m', a <= m < b -> a <= m' < b -> idx m = idx m' -> m = m') ->
  exists dl', foldM body (zrange a b) dl = Ok dl' /\ vlen dl' = vlen dl
    /\ (forall m, a <= m < b -> vat dl' (idx m) = h m (vat dl (idx m)))
    /\ (forall j, (forall m, a <= m < b -> j <> idx m) -> vat dl' j = vat dl j).
Proof.
  intros Hab Hbody Hin Hinj.
  destruct (foldM_inv (fun k d => vlen d = vlen dl
     /\ (forall m, a <= m < b -> vat d (idx m) = if m <? k then h m (vat dl (idx m)) else vat dl (idx m))
     /\ (forall j, (forall m, a <= m < b -> j <> idx m) -> vat d j = vat dl j)) body a b dl Hab)
    as (d & E & H1 & H2 & H3).
  - repeat split; auto. intros m Hm. now replace (m <? a) with false by lia.
  - intros k d Hk (H1 & H2 & H3). rewrite Hbody, vread_in by (rewrite H1; apply Hin; lia). cbn [bind].
    rewrite vwrite_in by (rewrite H1; apply Hin; lia). eexists; split; [reflexivity|]. cbn [vlen vat].
    repeat split; auto.
    + intros m Hm. destruct (Z.eq_dec m k) as [->|Hne].
      * rewrite vupd_same, H2 by lia. replace (k <? k) with false by lia. now replace (k <? k + 1) with true by lia.
      * rewrite vupd_other by (intros Q; apply Hne; now apply Hinj). rewrite H2 by lia.
        now replace (m <? k + 1) with (m <? k) by lia.
    + intros j Hj. rewrite vupd_other by (apply Hj; lia). auto.
  - exists d. repeat split; auto. intros m Hm. rewrite H2 by lia. now replace (m <? b) with true by lia.
Qed.

(** ** The slices *)
Definition turok_angle (x : R) : Prop :=
  x = 0%R \/ x = PI \/ (atol8 < x < PI - (atol8 + / 100000 * PI))%R.

Lemma atol8_pos : (0 < atol8)%R. Proof. unfold atol8. lra. Qed.
Lemma isclose_0 x : (atol8 < x)%R -> isclose x 0 atol8 = false.
Proof.
  intros H. unfold isclose. destruct (Rle_dec _ _) as [G|]; auto. exfalso. pose proof atol8_pos.
  rewrite Rminus_0_r, Rabs_R0, Rabs_pos_eq in G by lra. lra.
Qed.
Lemma isclose_refl x : isclose x x atol8 = true.
Proof.
  unfold isclose. destruct (Rle_dec _ _) as [|G]; auto. exfalso. apply G. pose proof atol8_pos.
  rewrite Rminus_diag_eq, Rabs_R0 by auto. pose proof (Rabs_pos x). lra.
Qed.
Lemma isclose_PI x : (0 <= x < PI - (atol8 + / 100000 * PI))%R -> isclose x PI atol8 = false.
Proof.
  intros H. unfold isclose. pose proof PI_RGT_0. destruct (Rle_dec _ _) as [G|]; auto. exfalso. pose proof atol8_pos.
  rewrite Rabs_left, (Rabs_pos_eq PI) in G by lra. lra.
Qed.
Lemma isclose_PI_0 : isclose PI 0 atol8 = false.
Proof. apply isclose_0. unfold atol8. pose proof PI2_1. lra. Qed.

Lemma wig_D el m n x : Z.abs m <= el -> Z.abs n <= el -> wigner_d el m n x = D (2 * el) (el + m) (el + n) x.
Proof. intros. now rewrite wigner_dh by lia. Qed.
Lemma wig_out el m n x : el < Z.abs m \/ el < Z.abs n -> wigner_d el m n x = 0%R.
Proof. apply wigner_d_out. Qed.
Lemma wig_0 el m n : Z.abs m <= el -> Z.abs n <= el -> wigner_d el m n 0 = if m =? n then 1%R else 0%R.
Proof.
  intros. rewrite wig_D by lia. rewrite D_0 by lia. now replace (el + m =? el + n) with (m =? n) by lia.
Qed.
Lemma wig_PI el m n : Z.abs m <= el -> Z.abs n <= el ->
  wigner_d el m n PI = if m =? - n then sgn (el + n) else 0%R.
Proof.
  intros. rewrite wig_D by lia. replace PI with (PI - 0)%R by ring. rewrite D_PI_minus, D_0 by lia.
  replace (el + m =? 2 * el - (el + n)) with (m =? - n) by lia. destruct (Z.eqb_spec m (- n)) as [->|]; [|ring].
  rewrite Rmult_1_r, !sgn_add, sgn_opp. reflexivity.
Qed.
Lemma wig_flip el m n x : Z.abs m <= el -> Z.abs n <= el -> wigner_d el (- m) (- n) x = (sgn (m - n) * wigner_d el m n x)%R.
Proof.
  intros. rewrite !wig_D by lia. replace (el + - m) with (2 * el - (el + m)) by lia.
  replace (el + - n) with (2 * el - (el + n)) by lia. rewrite D_flip by lia. do 2 f_equal. lia.
Qed.

Lemma mod2_sgn k : msign (k mod 2) = sgn k.
Proof. rewrite msign_sgn. rewrite Zmod_even. unfold sgn. now destruct (Z.even k). Qed.
Lemma turok_sign k r : (r = -1)%R -> (if k mod 2 =? 0 then 1%R else r) = sgn k.
Proof. intros ->. rewrite Zmod_even. unfold sgn. now destruct (Z.even k). Qed.

Section Slice.
  Variables (el L mm : Z) (x : R).
  Hypothesis Hel : 1 <= el < L.
  Hypothesis Hmm : - el <= mm <= el.
  Hypothesis Hx : (0 < x < PI)%R.

  Lemma FR_D0 n m : - el <= n <= el -> (FR el n x m * D (2 * el) 0 (el + n) x = sgn m * D (2 * el) m (el + n) x)%R.
  Proof using Hel Hx. intros Hn. pose proof (D0_pos el n x ltac:(lia) Hn Hx). unfold FR. field. lra. Qed.

  Lemma exp_cancel f a b : (f * exp b * exp (a - b) = f * exp a)%R.
  Proof. unfold Rminus. rewrite exp_plus. rewrite exp_Ropp. field. apply Rgt_not_eq, exp_pos. Qed.

  Lemma quarter_slice_ok pmo : isclose x 0 atol8 = false -> isclose x PI atol8 = false ->
    exists v, turok_quarter_slice (vconst (2 * L - 1) 0%R) x el L mm pmo = Ok v /\ vlen v = 2 * L - 1
      /\ forall m, - L < m < L -> vat v (L - 1 + m) = if pmo && (m <? 0) then 0%R else wigner_d el m mm x.
  Proof using Hel Hmm Hx.
    intros I0 I1. unfold turok_quarter_slice. rewrite I0, I1. replace (el =? 0) with false by lia.
    destruct (lfr_ok el (2 * el + 1) (Z.max (el + mm + 1) (el - mm + 1)) x Hx ltac:(lia) ltac:(lia) ltac:(lia))
      as (lfr & -> & Hlen & Hlfr). cbn [bind].
    destruct (cp_ok el ltac:(lia)) as (cpi & cp2 & -> & Hcp). cbn [bind].
    destruct (tan_half x Hx) as [_ HT].
    set (dl0 := vconst (2 * L - 1) 0%R).
    (* after half 0 *)
    assert (S0 : exists dl,
      (if pmo then Ok dl0 else
        let* (dl, lrenorm) := turok_half dl0 cpi cp2 el (el + mm + 1) (L - 1 - el) 1 (cos x) (sin x) (1 - cos x) in
        let* l0 := vread lfr (el + mm + 1 - 1) in
        foldM (fun dl m => let* x0 := vread dl (L - 1 - el + 1 * m) in
           vwrite dl (L - 1 - el + 1 * m) (x0 *
             ((if (el + mm + 1 - 1) mod 2 =? 0 then 1 else tan (- x / 2) / Rabs (tan (- x / 2))) * exp (l0 - lrenorm)))%R)
         (zrange 0 el) dl) = Ok dl
      /\ vlen dl = 2 * L - 1
      /\ (forall m, - L < m < 0 -> vat dl (L - 1 + m)
            = if pmo then 0%R else (sgn (mm - m) * wigner_d el m mm x)%R)
      /\ (forall m, el < m < L -> vat dl (L - 1 + m) = 0%R)).
    { destruct pmo; [exists dl0; repeat split; reflexivity|].
      destruct (half_ok el mm x ltac:(lia) Hmm Hx (L - 1 - el) 1 ltac:(auto) dl0 cpi cp2) as (d & lr & -> & H1 & H2 & H3);
        [cbn [vlen dl0 vconst]; lia|exact Hcp|]. cbn [bind].
      rewrite vread_in by lia. cbn [bind].
      edestruct (scale_ok (fun m => L - 1 - el + 1 * m) (fun _ y => (y * ((if (el + mm + 1 - 1) mod 2 =? 0 then 1
         else tan (- x / 2) / Rabs (tan (- x / 2))) * exp (vat lfr (el + mm + 1 - 1) - lr)))%R) 0 el d)
        as (d' & E & G1 & G2 & G3); [lia|reflexivity|rewrite H1; cbn [vlen dl0 vconst]; lia|lia|].
      exists d'. split; [exact E|]. split; [now rewrite G1, H1|]. cbn [andb]. split.
      - intros m Hm. destruct (Z.leb_spec (- el) m).
        + replace (L - 1 + m) with (L - 1 - el + 1 * (el + m)) by lia. rewrite G2, H2 by lia.
          rewrite turok_sign by auto. rewrite Rmult_comm, Rmult_assoc, (Rmult_comm (exp _)), exp_cancel.
          rewrite Hlfr by lia. replace (el + mm + 1 - 1) with (el + mm) by lia.
          rewrite FR_D0 by lia. rewrite wig_D by lia. rewrite <- Rmult_assoc. f_equal.
          rewrite sgn_sub, !sgn_add. destruct (sgn_cases mm) as [-> | ->], (sgn_cases el) as [-> | ->], (sgn_cases m) as [-> | ->]; ring.
        + rewrite wig_out by lia. rewrite Rmult_0_r. rewrite G3 by lia. rewrite H3 by lia. reflexivity.
      - intros m Hm. rewrite G3 by lia. rewrite H3 by lia. reflexivity. }
    destruct S0 as (dl & -> & Hl & Hneg & Hbig). cbn [bind].
    destruct (half_ok el (- mm) x ltac:(lia) ltac:(lia) Hx (L - 1 + el) (-1) ltac:(auto) dl cpi cp2)
      as (d & lr & E1 & H1 & H2 & H3); [rewrite Hl; lia|exact Hcp|].
    replace (el + - mm + 1) with (el - mm + 1) in E1 by lia. rewrite E1. cbn [bind].
    rewrite vread_in by lia. cbn [bind].
    match goal with |- context [foldM ?f (zrange 0 (el + 1)) d] =>
      destruct (scale_ok (fun m => L - 1 + el + -1 * m) (fun m y => (msign ((mm - m + el) mod 2) * y *
         ((if (el - mm + 1 - 1) mod 2 =? 0 then 1
         else tan (- x / 2) / Rabs (tan (- x / 2))) * exp (vat lfr (el - mm + 1 - 1) - lr)))%R) 0 (el + 1) d f)
        as (d1 & E2 & G1 & G2 & G3); [lia|reflexivity|rewrite H1, Hl; lia|lia|] end.
    rewrite E2. cbn [bind].
    assert (A1 : forall m, - L < m < L -> vat d1 (L - 1 + m)
       = if pmo && (m <? 0) then 0%R else (sgn (mm - m) * wigner_d el m mm x)%R).
    { intros m Hm. destruct (Z.ltb_spec m 0) as [Hlt|Hge].
      - rewrite andb_true_r. rewrite G3, H3, Hneg by lia. reflexivity.
      - rewrite andb_false_r. destruct (Z.leb_spec m el).
        + replace (L - 1 + m) with (L - 1 + el + -1 * (el - m)) by lia. rewrite G2, H2 by lia.
          rewrite turok_sign, mod2_sgn by auto.
          replace (sgn (mm - (el - m) + el) * (FR el (- mm) x (el - m) * exp lr)
                   * (sgn (el - mm + 1 - 1) * exp (vat lfr (el - mm + 1 - 1) - lr)))%R
            with (sgn (mm - (el - m) + el) * sgn (el - mm + 1 - 1)
                   * (FR el (- mm) x (el - m) * exp lr * exp (vat lfr (el - mm + 1 - 1) - lr)))%R by ring.
          rewrite exp_cancel, Hlfr by lia. replace (el - mm + 1 - 1) with (el + - mm) by lia.
          rewrite FR_D0 by lia. replace (el - m) with (el + - m) by lia. rewrite <- (wig_D el (- m) (- mm)) by lia.
          rewrite wig_flip by lia. rewrite <- !Rmult_assoc. f_equal.
          rewrite !sgn_add, !sgn_sub, !sgn_add, !sgn_opp.
          destruct (sgn_cases mm) as [-> | ->], (sgn_cases el) as [-> | ->], (sgn_cases m) as [-> | ->]; ring.
        + rewrite wig_out by lia. rewrite Rmult_0_r. rewrite G3, H3, Hbig by lia. reflexivity. }
    match goal with |- context [foldM ?f (zrange ?lo (el + 1)) d1] =>
      destruct (scale_ok (fun m => m + L - 1) (fun m y => (y * msign (Z.abs (mm - m)))%R) lo (el + 1) d1 f)
        as (d2 & E3 & K1 & K2 & K3); [destruct pmo; lia|reflexivity|rewrite G1, H1, Hl; destruct pmo; lia|lia|] end.
    exists d2. split; [exact E3|]. split; [rewrite K1, G1, H1; exact Hl|]. intros m Hm.
    destruct (Z.leb_spec m el) as [Hle|Hgt].
    - destruct (Z.leb_spec (if pmo then 0 else - el) m) as [Hlo|Hlo].
      + replace (L - 1 + m) with (m + L - 1) by lia. rewrite K2 by lia.
        replace (m + L - 1) with (L - 1 + m) by lia. rewrite A1 by lia.
        replace (pmo && (m <? 0)) with false by (destruct pmo; cbn [andb]; [symmetry; apply Z.ltb_ge; lia|reflexivity]).
        change msign with sgn. rewrite sgn_abs. pose proof (sgn_sq (mm - m)) as Q. rewrite Rmult_comm, <- Rmult_assoc, Q. ring.
      + rewrite K3 by (destruct pmo; lia). rewrite A1 by lia.
        destruct pmo; cbn [andb]; [now replace (m <? 0) with true by lia|]. rewrite wig_out by lia. ring.
    - rewrite K3 by lia. rewrite A1 by lia. replace (m <? 0) with false by lia. rewrite andb_false_r, wig_out by lia. ring.
  Qed.
End Slice.

Lemma slice_ok x el L mm pmo : 0 <= el < L -> - el <= mm <= el -> turok_angle x ->
  exists v, turok_slice x el L mm pmo = Ok v /\ vlen v = 2 * L - 1
    /\ forall m, - L < m < L -> vat v (L - 1 + m) = if pmo && (mm =? 0) && (m <? 0) then 0%R else wigner_d el m mm x.
Proof.
  intros Hel Hmm Hx. unfold turok_slice. replace (el <? mm) with false by lia. replace (L <=? el) with false by lia.
  assert (P0 : forall m, - L < m < L -> pmo && (mm =? 0) && (m <? 0) = true -> m <> mm /\ m <> - mm)
    by (intros m Hm; destruct pmo; cbn [andb]; lia).
  destruct Hx as [-> | [-> | [Hx1 Hx2]]].
  - unfold turok_quarter_slice. rewrite isclose_refl. rewrite vwrite_in by (cbn [vlen vconst]; lia).
    eexists; split; [reflexivity|]. split; [reflexivity|]. intros m Hm. cbn [vat vconst]. unfold vupd.
    replace (L - 1 + m =? L - 1 + mm) with (m =? mm) by lia.
    destruct (pmo && (mm =? 0) && (m <? 0)) eqn:E.
    + apply P0 in E; [|lia]. now replace (m =? mm) with false by lia.
    + destruct (Z.leb_spec (Z.abs m) el); [now rewrite wig_0 by lia|].
      rewrite wig_out by lia. now replace (m =? mm) with false by lia.
  - unfold turok_quarter_slice. rewrite isclose_PI_0, isclose_refl. rewrite vwrite_in by (cbn [vlen vconst]; lia).
    eexists; split; [reflexivity|]. split; [reflexivity|]. intros m Hm. cbn [vat vconst]. unfold vupd.
    replace (L - 1 + m =? L - 1 - mm) with (m =? - mm) by lia.
    destruct (pmo && (mm =? 0) && (m <? 0)) eqn:E.
    + apply P0 in E; [|lia]. now replace (m =? - mm) with false by lia.
    + destruct (Z.leb_spec (Z.abs m) el); [now rewrite wig_PI by lia|].
      rewrite wig_out by lia. now replace (m =? - mm) with false by lia.
  - pose proof atol8_pos. pose proof PI_RGT_0.
    destruct (Z.eq_dec el 0) as [->|].
    + unfold turok_quarter_slice. rewrite isclose_0, isclose_PI by lra. cbn [Z.eqb].
      assert (mm = 0) by lia. subst mm. rewrite vwrite_in by (cbn [vlen vconst]; lia).
      eexists; split; [reflexivity|]. split; [reflexivity|]. intros m Hm. cbn [vat vconst]. unfold vupd.
      replace (L - 1 + m =? L - 1) with (m =? 0) by lia.
      destruct (Z.eqb_spec m 0) as [->|].
      * cbn [Z.ltb Z.compare]. rewrite andb_false_r. rewrite wig_D by lia. unfold D. rewrite dh_first by lia.
        cbn [Z.mul Z.add Z.sub Z.opp]. rewrite zf_0, !zpow_0. rewrite !Rmult_1_r, sqrt_1. field.
      * rewrite wig_out by lia. now destruct (_ && _ && _).
    + destruct (quarter_slice_ok el L mm x ltac:(lia) Hmm ltac:(lra) (pmo && (mm =? 0)) (isclose_0 _ Hx1)
        (isclose_PI x ltac:(lra))) as (v & E & Hl & Hv). exists v. split; [exact E|]. split; [exact Hl|].
      exact Hv.
Qed.
