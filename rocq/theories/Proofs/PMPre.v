(** Both generators of the recursion coefficients produce the values the recursion needs. *)
From Coq Require Import Reals Lra Lia ZifyBool.
From Verif Require Import Lib.Py Lib.PyFacts Lib.Sums Lib.Cplx Lib.Vec Lib.VecFacts Lib.Ext Lib.ExtFacts.
From Verif Require Import Model.Grids Model.Turok Model.PriceMcEwen Spec.WignerSpec Proofs.WignerGen Proofs.WignerDh Proofs.WignerCalc
  Proofs.WignerFourier Proofs.RisboProofs Proofs.TurokProofs.
Open Scope Z_scope.

(** the sign of mm in half i *)
Definition hn (mm i : Z) : Z := if i =? 0 then mm else - mm.
Lemma half_slice_hn mm i el : half_slice mm i el = el + hn mm i + 1.
Proof. unfold half_slice, hn. destruct (i =? 0); lia. Qed.

Record pre_good (beta : vec R) (L L0 mm : Z) (pre : pm_pre) : Prop := {
  pg_nt : pm_nt pre = vlen beta;
  pg_nl : pm_nl pre = L - L0;
  pg_vsign : pm_vsign pre = pm_vsigns L L0 mm;
  pg_cpi_len : vlen (pm_cpi pre) = L + 1;
  pg_cp2_len : vlen (pm_cp2 pre) = L + 1;
  pg_cpi : forall m k, 0 <= k < L - L0 -> 1 <= m - (L - 1 - (L0 + k)) <= L0 + k ->
    vat (pm_cpi pre) (m - 1) k = Fin (cpi_val (L0 + k) (m - (L - 1 - (L0 + k))));
  pg_cp2_1 : forall m k, 0 <= k < L - L0 -> m - (L - 1 - (L0 + k)) = 1 -> 1 <= L0 + k -> vat (pm_cp2 pre) (m - 1) k = Fin 0;
  pg_cp2 : forall m k, 0 <= k < L - L0 -> 2 <= m - (L - 1 - (L0 + k)) <= L0 + k ->
    let q := m - (L - 1 - (L0 + k)) in
    vat (pm_cp2 pre) (m - 1) k = Fin (cpi_val (L0 + k) q / cpi_val (L0 + k) (q - 1));
  pg_ind : forall j k, pm_indices pre j k = L0 + k;
  pg_lr : forall i j k, i = 0 \/ i = 1 -> 0 <= j < vlen beta -> 0 <= k < L - L0 -> Z.abs mm <= L0 + k -> (0 < vat beta j < PI)%R ->
    pm_lrenorm pre i j k = Fin (ln (D (2 * (L0 + k)) 0 (L0 + k + hn mm i) (vat beta j)))
}.

(** ** cpi and cp2 *)
Lemma cpi_pos el m : 1 <= m <= 2 * el -> (0 < cpi_val el m)%R.
Proof.
  intros H. unfold cpi_val. apply Rdiv_lt_0_compat; [lra|]. apply sqrt_lt_R0. apply IZR_lt. nia.
Qed.
Lemma pm_cpi_val_ok L0 m k : 1 <= m <= 2 * (L0 + k) -> pm_cpi_val L0 m k = Fin (cpi_val (L0 + k) m).
Proof.
  intros H. unfold pm_cpi_val, ez, cpi_val. assert (0 < m * (2 * (L0 + k) + 1 - m)) by nia.
  rewrite esqrt_pos by (apply IZR_lt; lia). rewrite ediv_fin; [reflexivity|].
  apply Rgt_not_eq. apply sqrt_lt_R0. apply IZR_lt. lia.
Qed.
Lemma pm_cpi0_ok L0 k : 1 <= L0 + k -> ediv (Fin 2) (esqrt (ez (2 * (L0 + k)))) = Fin (cpi_val (L0 + k) 1).
Proof.
  intros H. rewrite <- pm_cpi_val_ok by lia. unfold pm_cpi_val. do 3 f_equal. lia.
Qed.

(** the state of the two loops before step m *)
Definition cp_inv (L L0 m : Z) (s : vec (Z -> ext) * vec (Z -> ext)) : Prop :=
  vlen (fst s) = L + 1 /\ vlen (snd s) = L + 1 /\
  (forall q k, 1 <= q < m -> q <= 2 * (L0 + k) -> vat (fst s) (q - 1) k = Fin (cpi_val (L0 + k) q)) /\
  (forall q k, 2 <= q < m -> q <= 2 * (L0 + k) -> vat (snd s) (q - 1) k = Fin (cpi_val (L0 + k) q / cpi_val (L0 + k) (q - 1))) /\
  (forall r k, m - 1 <= r -> vat (fst s) r k = Fin 0) /\
  (forall r k, m - 1 <= r \/ r <= 0 -> vat (snd s) r k = Fin 0).

Lemma cp_step L L0 m s cp cq : 2 <= m <= L -> cp_inv L L0 m s ->
  cp = (fun k => pm_cpi_val L0 m k) -> (forall k, cq k = ediv (cp k) (vat (fst s) (m - 2) k)) ->
  forall cpi' cp2', vlen cpi' = L + 1 -> vlen cp2' = L + 1 ->
    (forall r k, vat cpi' r k = if r =? m - 1 then cp k else vat (fst s) r k) ->
    (forall r k, vat cp2' r k = if r =? m - 1 then cq k else vat (snd s) r k) ->
    cp_inv L L0 (m + 1) (cpi', cp2').
Proof.
  intros Hm (A & B & C1 & C2 & C3 & C4) -> Hq cpi' cp2' E1 E2 F1 F2. unfold cp_inv. cbn [fst snd].
  split; [exact E1|]. split; [exact E2|]. split; [|split; [|split]].
  - intros q k Hq1 Hq2. rewrite F1. destruct (Z.eqb_spec (q - 1) (m - 1)).
    + replace m with q by lia. apply pm_cpi_val_ok. lia.
    + apply C1; lia.
  - intros q k Hq1 Hq2. rewrite F2. destruct (Z.eqb_spec (q - 1) (m - 1)).
    + rewrite Hq. replace (m - 2) with (q - 1 - 1) by lia. rewrite C1 by lia. replace m with q by lia.
      rewrite pm_cpi_val_ok by lia. rewrite ediv_fin; [reflexivity|]. apply Rgt_not_eq. apply cpi_pos. lia.
    + apply C2; lia.
  - intros r k Hr. rewrite F1. destruct (Z.eqb_spec r (m - 1)); [lia|]. apply C3. lia.
  - intros r k Hr. rewrite F2. destruct (Z.eqb_spec r (m - 1)); [lia|]. apply C4. lia.
Qed.

Lemma cp_start L L0 cpi : 1 <= L -> vlen cpi = L + 1 ->
  (forall r k, vat cpi r k = if r =? 0 then ediv (Fin 2) (esqrt (ez (2 * (L0 + k)))) else Fin 0) ->
  cp_inv L L0 2 (cpi, vconst (L + 1) (fun _ => Fin 0)).
Proof.
  intros HL E F. unfold cp_inv. cbn [fst snd]. split; [exact E|]. split; [reflexivity|]. split; [|split; [|split]].
  - intros q k Hq1 Hq2. replace q with 1 by lia. rewrite F. cbn [Z.eqb Z.sub]. change (1 - 1 =? 0) with true. cbn iota.
    apply pm_cpi0_ok. lia.
  - intros. lia.
  - intros r k Hr. rewrite F. destruct (Z.eqb_spec r 0); [lia|reflexivity].
  - intros. reflexivity.
Qed.

Lemma pm_cp_ok L L0 : 1 <= L -> exists s, pm_cp L L0 = Ok s /\ cp_inv L L0 (L + 1) s.
Proof.
  intros HL. unfold pm_cp. rewrite vwrite_in by (cbn [vlen vconst]; lia). cbn [bind].
  edestruct (foldM_inv (fun m s => cp_inv L L0 m s)) with (a := 2) (b := L + 1) as (s' & E & H).
  4:{ rewrite E. eexists. split; [reflexivity|exact H]. }
  - lia.
  - apply cp_start; [lia|reflexivity|]. intros r k. cbn [vat vconst]. unfold vupd. destruct (r =? 0); reflexivity.
  - intros m [cpi cp2] Hm I. destruct I as (A & B & C1 & C2 & C3 & C4) eqn:EI. cbn [fst snd] in *.
    rewrite vwrite_in by lia. cbn [bind]. rewrite vread_in by (cbn [vlen vconst]; lia). cbn [bind].
    rewrite vread_in by (cbn [vlen vconst]; lia). cbn [bind]. rewrite vwrite_in by lia. cbn [bind].
    eexists. split; [reflexivity|]. cbn [vat vlen].
    eapply cp_step with (s := (cpi, cp2)) (cp := fun k => pm_cpi_val L0 m k);
      [lia|repeat split; eassumption|reflexivity| |exact A|exact B| |].
    2:{ intros r k. cbn [vat fst]. unfold vupd. destruct (r =? m - 1); reflexivity. }
    2:{ intros r k. cbn [vat snd]. unfold vupd at 1. destruct (r =? m - 1); [|reflexivity]. reflexivity. }
    intros k. cbn beta. rewrite vupd_same, vupd_other by lia. reflexivity.
Qed.
Lemma eadd_0 x : eadd (Fin 0) x = x.
Proof. destruct x; cbn; auto. f_equal. ring. Qed.
Lemma pm_cp_jax_ok L L0 : 1 <= L -> exists s, pm_cp_jax L L0 = Ok s /\ cp_inv L L0 (L + 1) s.
Proof.
  intros HL. unfold pm_cp_jax. cbv zeta. rewrite vread_in by (cbn [vlen vconst]; lia). cbn [bind]. rewrite vwrite_in by (cbn [vlen vconst]; lia). cbn [bind].
  edestruct (foldM_inv (fun m s => cp_inv L L0 m s)) with (a := 2) (b := L + 1) as (s' & E & H).
  4:{ rewrite E. eexists. split; [reflexivity|exact H]. }
  - lia.
  - apply cp_start; [lia|reflexivity|]. intros r k. cbn [vat vconst]. unfold vupd. destruct (r =? 0); [apply eadd_0|reflexivity].
  - intros m [cpi cp2] Hm I. destruct I as (A & B & C1 & C2 & C3 & C4) eqn:EI. cbn [fst snd] in *.
    rewrite vread_in by lia. cbn [bind].
    rewrite vwrite_in by lia. cbn [bind]. rewrite vread_in by (cbn [vlen vconst]; lia). cbn [bind].
    rewrite vread_in by (cbn [vlen vconst]; lia). cbn [bind]. rewrite vread_in by lia. cbn [bind]. rewrite vwrite_in by lia. cbn [bind].
    eexists. split; [reflexivity|]. cbn [vat vlen].
    eapply cp_step with (s := (cpi, cp2)) (cp := fun k => pm_cpi_val L0 m k);
      [lia|repeat split; eassumption|reflexivity| |exact A|exact B| |].
    2:{ intros r k. cbn [vat fst]. unfold vupd. destruct (r =? m - 1); [|reflexivity]. rewrite C3 by lia. apply eadd_0. }
    2:{ intros r k. cbn [vat snd]. unfold vupd at 1. destruct (r =? m - 1); [|reflexivity]. rewrite C4 by lia. rewrite eadd_0. reflexivity. }
    intros k. cbn beta. rewrite vupd_same, vupd_other by lia. rewrite C3 by lia. rewrite eadd_0. reflexivity.
Qed.

(** the rolled rows *)
Lemma roll_at L L0 a m k : vlen a = L + 1 -> 0 <= L0 + k < L -> 1 <= m - (L - 1 - (L0 + k)) <= L ->
  vat (pm_roll L L0 a) (m - 1) k = vat a (m - (L - 1 - (L0 + k)) - 1) k.
Proof.
  intros E H1 H2. unfold pm_roll. cbn [vat]. f_equal. rewrite E. rewrite Z.mod_small; lia.
Qed.

(** ** log_first_row *)
Lemma pm_lt_ok beta j : (0 < vat beta j < PI)%R ->
  pm_lt beta j = Fin (ln (sin (vat beta j / 2) / cos (vat beta j / 2))).
Proof.
  intros H. destruct (tan_half _ H) as [E _]. destruct (half_pos _ H). unfold pm_lt. cbn [eabs]. rewrite E. apply elog_pos.
  now apply Rdiv_lt_0_compat.
Qed.
Lemma pm_first_ok beta L0 j k : 0 <= L0 + k -> (0 < vat beta j < PI)%R ->
  pm_first beta L0 j k = Fin (ln (D (2 * (L0 + k)) 0 0 (vat beta j))).
Proof.
  intros Hk H. destruct (half_pos _ H) as [Hc _]. unfold pm_first, pm_logc2. cbn [eabs].
  rewrite Rabs_pos_eq by lra. rewrite elog_pos by exact Hc. cbn [emul ez]. f_equal.
  rewrite <- (ln_exp (IZR (2 * (L0 + k)) * ln (cos (vat beta j / 2)))). f_equal. rewrite exp_mul_ln by (auto; lia).
  unfold D. rewrite dh_first by lia. rewrite Z.sub_0_r.
  change (zf 0) with 1%R. set (z := zf (2 * (L0 + k))). replace (z * 1 * z)%R with (z * z)%R by ring.
  subst z. rewrite sqrt_square by (apply Rlt_le, zf_pos). 
  replace (zpow (sin (vat beta j / 2)) 0) with 1%R by reflexivity. field. apply zf_neq.
Qed.
Lemma pm_row_step beta L0 i j k : 0 <= L0 + k -> 2 <= i <= 2 * (L0 + k) + 1 -> (0 < vat beta j < PI)%R ->
  eadd (eadd (Fin (ln (D (2 * (L0 + k)) 0 (i - 2) (vat beta j)))) (ediv (elog (pm_ratio L0 i k)) (Fin 2))) (pm_lt beta j) =
  Fin (ln (D (2 * (L0 + k)) 0 (i - 1) (vat beta j))).
Proof.
  intros Hk Hi H. destruct (half_pos _ H) as [Hc Hs]. rewrite pm_lt_ok by exact H.
  unfold pm_ratio, ez. rewrite ediv_fin by (apply Rgt_not_eq, IZR_lt; lia).
  assert (Hr : (0 < IZR (2 * (L0 + k) + 2 - i) / IZR (i - 1))%R) by (apply Rdiv_lt_0_compat; apply IZR_lt; lia).
  rewrite elog_pos by exact Hr. rewrite ediv_fin by lra. cbn [eadd]. f_equal.
  rewrite <- (ln_exp (ln _ + _ + _)). f_equal. rewrite !exp_plus. rewrite exp_half_ln by exact Hr.
  rewrite exp_ln by (apply dh_first_pos; auto; lia). rewrite exp_ln by (now apply Rdiv_lt_0_compat).
  unfold D. rewrite (dh_first_step _ _ _ (i - 1)) by (auto; lia).
  replace (i - 1 - 1) with (i - 2) by lia. replace (2 * (L0 + k) + 1 - (i - 1)) with (2 * (L0 + k) + 2 - i) by lia. reflexivity.
Qed.

Definition row_ok (beta : vec R) (L0 q : Z) (p : plane) : Prop :=
  forall j k, 0 <= L0 + k -> q <= 2 * (L0 + k) -> (0 < vat beta j < PI)%R -> p j k = Fin (ln (D (2 * (L0 + k)) 0 q (vat beta j))).

Lemma log_first_row_ok beta L L0 mm : 1 <= L -> Z.abs mm < L -> exists rows, pm_log_first_row beta L L0 mm = Ok rows /\
  vlen rows = 2 * L + 1 /\ forall q, 0 <= q <= L + Z.abs mm -> row_ok beta L0 q (vat rows q).
Proof.
  intros HL Hm. unfold pm_log_first_row. rewrite vwrite_in by (cbn [vlen vconst]; lia). cbn [bind].
  edestruct (foldM_inv (fun i (rows : vec plane) => vlen rows = 2 * L + 1 /\ forall q, 0 <= q < i - 1 -> row_ok beta L0 q (vat rows q)))
    with (a := 2) (b := L + Z.abs mm + 2) as (s' & E & A & B).
  4:{ exists s'. split; [exact E|]. split; [exact A|]. intros q Hq. apply B. lia. }
  - lia.
  - split; [reflexivity|]. intros q Hq. replace q with 0 by lia. cbn [vat]. rewrite vupd_same. intros j k Hk _ Hb. now apply pm_first_ok.
  - intros i rows Hi [A B]. rewrite vread_in by lia. cbn [bind]. rewrite vwrite_in by lia. eexists. split; [reflexivity|].
    cbn [vlen vat]. split; [exact A|]. intros q Hq. destruct (Z.eq_dec q (i - 1)) as [->|Hne].
    + rewrite vupd_same. intros j k Hk Hq2 Hb. rewrite B by (auto; lia). apply pm_row_step; auto; lia.
    + rewrite vupd_other by exact Hne. apply B. lia.
Qed.

Lemma lr_loop rows mm i L0 L : (forall k, L0 <= k < L -> exists p, vread rows (half_slice mm i k - 1) = Ok p) ->
  exists lr : plane, pm_lrenorm_half rows L L0 mm i = Ok lr /\
  forall k p, L0 <= k < L -> vread rows (half_slice mm i k - 1) = Ok p -> forall j, lr j (k - L0) = p j (k - L0).
Proof.
  intros H. unfold pm_lrenorm_half.
  edestruct (foldM_inv' (fun m (lr : plane) => forall k p, L0 <= k < m -> vread rows (half_slice mm i k - 1) = Ok p -> forall j, lr j (k - L0) = p j (k - L0)))
    with (a := L0) (b := L) as (lr & E & B).
  3:{ exists lr. split; [exact E|]. intros k p Hk. apply B. lia. }
  - intros. lia.
  - intros m lr Hm I. destruct (H m Hm) as (p & Ep). rewrite Ep. cbn [bind]. eexists. split; [reflexivity|].
    intros k p' Hk E j. cbn beta. destruct (Z.eqb_spec (k - L0) (m - L0)) as [Hkm|Hkm].
    + assert (k = m) by lia. subst k. rewrite Ep in E. injection E as ->. reflexivity.
    + apply I; auto. lia.
Qed.

Lemma vread_any {A} (v : vec A) i : - vlen v <= i < vlen v -> exists x, vread v i = Ok x.
Proof.
  intros H. destruct (Z.leb_spec 0 i).
  - rewrite vread_in by lia. eauto.
  - rewrite vread_neg by lia. eauto.
Qed.

Lemma generate_ok th L spin sampling nside forward L0 beta : 1 <= L -> 0 <= L0 < L -> Z.abs spin < L ->
  pm_thetas th L sampling nside forward = Ok beta ->
  exists pre, generate_precomputes th L spin sampling nside forward L0 = Ok pre /\ pre_good beta L L0 (- spin) pre.
Proof.
  intros HL H0 Hs Hb. unfold generate_precomputes. cbv zeta. rewrite Hb. cbn [bind].
  destruct (log_first_row_ok beta L L0 (- spin)) as (rows & E & El & Er); [lia|lia|]. rewrite E. cbn [bind].
  destruct (pm_cp_ok L L0 HL) as ([cpi cp2] & Ec & A & B & C1 & C2 & C3 & C4). rewrite Ec. cbn [bind fst snd] in *.
  assert (G : forall i k, L0 <= k < L -> exists p, vread rows (half_slice (- spin) i k - 1) = Ok p).
  { intros i k Hk. apply vread_any. unfold half_slice. rewrite El. destruct (i =? 0); lia. }
  destruct (lr_loop rows (- spin) 0 L0 L (G 0)) as (lr0 & E0 & F0). rewrite E0. cbn [bind].
  destruct (lr_loop rows (- spin) 1 L0 L (G 1)) as (lr1 & E1 & F1). rewrite E1. cbn [bind].
  eexists. split; [reflexivity|].
  constructor; cbn [pm_nt pm_nl pm_vsign pm_cpi pm_cp2 pm_indices pm_lrenorm]; try reflexivity; try exact A; try exact B.
  - intros m k Hk Hq. rewrite roll_at by (auto; lia). apply C1; lia.
  - intros m k Hk Hq H1. rewrite roll_at by (auto; lia). apply C4. lia.
  - intros m k Hk Hq. rewrite roll_at by (auto; lia). apply C2; lia.
  - intros i j k Hi Hj Hk Hmm Hbeta.
    assert (R : forall i, i = 0 \/ i = 1 -> vread rows (half_slice (- spin) i (L0 + k) - 1) = Ok (vat rows (L0 + k + hn (- spin) i))).
    { intros i' Hi'. rewrite half_slice_hn. rewrite vread_in; [do 2 f_equal; lia|]. unfold hn. rewrite El. destruct Hi'; subst i'; cbn [Z.eqb]; lia. }
    destruct Hi as [->| ->]; cbn [Z.eqb].
    + pose proof (F0 (L0 + k) _ ltac:(lia) (R 0 (or_introl eq_refl)) j) as F. replace (L0 + k - L0) with k in F by lia. rewrite F.
      apply Er; auto; unfold hn; cbn [Z.eqb]; lia.
    + pose proof (F1 (L0 + k) _ ltac:(lia) (R 1 (or_intror eq_refl)) j) as F. replace (L0 + k - L0) with k in F by lia. rewrite F.
      apply Er; auto; unfold hn; cbn [Z.eqb]; lia.
Qed.

(** ** The JAX version *)
Lemma lrenorm_jax_ok beta L L0 mm : 1 <= L -> 0 <= L0 -> Z.abs mm < L -> exists lr, pm_lrenorm_jax beta L L0 mm = Ok lr /\
  forall i j k, i = 0 \/ i = 1 -> 0 <= k < L - L0 -> Z.abs mm <= L0 + k -> (0 < vat beta j < PI)%R ->
    lr i j k = Fin (ln (D (2 * (L0 + k)) 0 (L0 + k + hn mm i) (vat beta j))).
Proof.
  intros HL H0 Hm. unfold pm_lrenorm_jax. cbv zeta.
  edestruct (foldM_inv (fun i (s : plane * (Z -> plane)) =>
      row_ok beta L0 (i - 2) (fst s) /\
      forall ind j k, ind = 0 \/ ind = 1 -> 0 <= k < L - L0 -> Z.abs mm <= L0 + k -> (0 < vat beta j < PI)%R ->
        half_slice mm ind (L0 + k) < i -> snd s ind j k = Fin (ln (D (2 * (L0 + k)) 0 (L0 + k + hn mm ind) (vat beta j)))))
    with (a := 2) (b := L + Z.abs mm + 2) as ([it lr] & E & A & B).
  4:{ erewrite E. cbn [bind fst snd] in *. exists lr. split; [reflexivity|]. intros i j k Hi Hk Hmm Hb. apply B; auto.
      rewrite half_slice_hn. unfold hn. destruct (i =? 0); lia. }
  - lia.
  - cbn [fst snd]. split.
    + intros j k Hk _ Hb. apply pm_first_ok; auto.
    + intros ind j k Hi Hk Hmm Hb Hh. rewrite half_slice_hn in *.
      assert (Hz : L0 + k + hn mm ind = 0) by (unfold hn in *; destruct (ind =? 0); lia).
      destruct (Z.eqb_spec 1 (L0 + k + hn mm ind + 1)); [|lia]. rewrite Hz. apply pm_first_ok; auto. lia.
  - intros i [it lr] Hi [A B]. cbn [fst snd] in *. destruct (Z.ltb_spec (2 * L) i); [lia|]. eexists. split; [reflexivity|]. cbn [fst snd].
    assert (A' : row_ok beta L0 (i + 1 - 2) (fun j k => eadd (eadd (it j k) (ediv (elog (pm_ratio L0 i k)) (Fin 2))) (pm_lt beta j))).
    { intros j k Hk Hq Hb. rewrite A by (auto; lia). replace (i + 1 - 2) with (i - 1) by lia. apply pm_row_step; auto. lia. }
    split; [exact A'|]. intros ind j k Hind Hk Hmm Hb Hh. destruct (Z.eqb_spec i (half_slice mm ind (L0 + k))) as [Heq|Hne].
    + rewrite half_slice_hn in Heq. rewrite A'; auto; try lia.
      * replace (i + 1 - 2) with (L0 + k + hn mm ind) by lia. reflexivity.
      * unfold hn in *. destruct (ind =? 0); lia.
    + apply B; auto. lia.
Qed.

Lemma generate_jax_ok th L spin sampling nside forward L0 betas beta : 1 <= L -> 0 <= L0 < L -> Z.abs spin < L ->
  match betas with None => pm_thetas th L sampling nside forward | Some b => Ok b end = Ok beta ->
  exists pre, generate_precomputes_jax th L spin sampling nside forward L0 betas = Ok pre /\ pre_good beta L L0 (- spin) pre.
Proof.
  intros HL H0 Hs Hb. unfold generate_precomputes_jax. cbv zeta. rewrite Hb. cbn [bind].
  destruct (pm_cp_jax_ok L L0 HL) as ([cpi cp2] & Ec & A & B & C1 & C2 & C3 & C4). rewrite Ec. cbn [bind fst snd] in *.
  destruct (lrenorm_jax_ok beta L L0 (- spin)) as (lr & E & F); [lia|lia|lia|]. rewrite E. cbn [bind].
  eexists. split; [reflexivity|].
  constructor; cbn [pm_nt pm_nl pm_vsign pm_cpi pm_cp2 pm_indices pm_lrenorm]; try reflexivity; try exact A; try exact B.
  - intros m k Hk Hq. unfold vmap. cbn [vat]. rewrite roll_at by (auto; lia). rewrite C1 by lia. reflexivity.
  - intros m k Hk Hq H1. unfold vmap. cbn [vat]. rewrite roll_at by (auto; lia). rewrite C4 by lia. reflexivity.
  - intros m k Hk Hq. unfold vmap. cbn [vat]. rewrite roll_at by (auto; lia). rewrite C2 by lia. reflexivity.
  - intros i j k Hi Hj Hk Hmm Hbeta. rewrite F by (auto; lia). reflexivity.
Qed.
