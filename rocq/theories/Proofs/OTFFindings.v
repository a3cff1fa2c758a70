(** Where the on-the-fly steps do not do what is asked of them. *)
From Coq Require Import Reals Lra Lia ZifyBool.
From Coquelicot Require Import Complex.
From Verif Require Import Lib.Py Lib.PyFacts Lib.Sums Lib.Cplx Lib.Vec Lib.VecFacts Lib.Arr Lib.MatFacts Lib.Ext Lib.ExtFacts
  Spec.CallSpec.
From Verif Require Import Model.Index Model.Samples Model.Grids Model.Turok Model.Spherical Model.PriceMcEwen Model.OTF
  Spec.WignerSpec Spec.SamplesSpec Spec.OTFSpec Proofs.WignerDh Proofs.WignerCalc Proofs.SamplesProofs Proofs.RisboProofs Proofs.TurokProofs
  Proofs.PMPre Proofs.PMHalf Proofs.OTFProofs Proofs.OTFTop.
Open Scope Z_scope.

(** ** L = 1 *)
Lemma vread_high {A} (v : vec A) i : vlen v <= i -> vread v i = Err IndexError.
Proof. intros. unfold vread. replace (norm_index (vlen v) i) with (@None Z); [reflexivity|]. unfold norm_index. symmetry. do 2 zif. reflexivity. Qed.
Lemma vread_low {A} (v : vec A) i : i < - vlen v -> 0 <= vlen v -> vread v i = Err IndexError.
Proof. intros. unfold vread. replace (norm_index (vlen v) i) with (@None Z); [reflexivity|]. unfold norm_index. symmetry. do 2 zif. reflexivity. Qed.

Lemma half_one {A} (emit : A -> Z -> Z -> Z -> plane -> result A) one pre beta i acc : i = 0 \/ i = 1 -> pre_good beta 1 0 0 pre ->
  (forall P, exists acc', emit acc (if i =? 0 then 0 else -1) 0 0 P = Ok acc') ->
  pm_half emit one pre beta 1 0 0 i acc = Err IndexError.
Proof.
  intros Hi G He. unfold pm_half, pm_half_to. cbv zeta. rewrite vread_in by (rewrite (pg_cpi_len _ _ _ _ _ G); lia). cbn [bind].
  rewrite (pg_vsign _ _ _ _ _ G).
  assert (exists v, vread (pm_vsigns 1 0 0) (if i =? 0 then 0 else -1) = Ok v) as (v & ->) by (apply vread_any; cbn; destruct Hi as [->| ->]; cbn; lia).
  cbn [bind]. change (1 - 1 - 0) with 0. change (0 + 0) with 0.
  match goal with |- context [emit acc _ 0 0 ?P] => destruct (He P) as (acc' & ->) end. cbn [bind].
  destruct Hi as [->| ->]; cbn [Z.eqb].
  - rewrite vread_high by (cbn; lia). reflexivity.
  - rewrite vread_low by (cbn; lia). reflexivity.
Qed.

Lemma inverse_one th flm beta s name nside o re p : denotes name s -> (s = HEALPIX -> o = Some nside) ->
  shape flm = [1; 1] -> vlen beta = rings s 1 nside -> numpy_precomps th 1 0 name o false 0 beta p ->
  inverse_latitudinal_step th flm beta 1 0 o name re p 0 = Err IndexError.
Proof.
  intros Hd Hn Hf Hb HP. destruct (numpy_pre th 1 0 name o false 0 beta p) as (pre & E & G); auto; try lia.
  unfold inverse_latitudinal_step.
  assert (Es : ftm_shape (Some 1) name o = Ok [vlen beta; 1 + shift_of s]).
  { rewrite Hb. replace (1 + shift_of s) with (orders s 1) by (rewrite orders_shift; lia). unfold ftm_shape, ntheta. rewrite !Hd.
    destruct s; try reflexivity. rewrite Hn by reflexivity. reflexivity. }
  rewrite Es. cbn [bind]. rewrite E. cbn [bind]. rewrite (pre_fits_ok _ _ _ _ _ G). cbn [bind].
  assert (Hoff : forall i, half_offset name i = 0 \/ half_offset name i = 1 /\ i = 0 /\ shift_of s = 1).
  { intros i. unfold half_offset. destruct (str_in name _) eqn:Ei; [|auto]. destruct (Z.eqb_spec i 0); [|auto]. right. split; [reflexivity|]. split; [auto|].
    assert (name = "mwss"%string \/ name = "healpix"%string) as [->| ->].
    { unfold str_in in Ei. cbn [existsb] in Ei. apply orb_true_iff in Ei. destruct Ei as [Ei|Ei]; [left|right].
      - now apply String.eqb_eq in Ei.
      - rewrite orb_false_r in Ei. now apply String.eqb_eq in Ei. }
    - rewrite <- (l_offset_ok _ _ Hd). reflexivity.
    - rewrite <- (l_offset_ok _ _ Hd). reflexivity. }
  assert (He : forall i P, i = 0 \/ i = 1 -> exists acc', inv_emit flm (vlen beta) (1 - 0) (half_offset name i)
     (zeros (fin (RtoC 0)) [vlen beta; 1 + shift_of s]) (if i =? 0 then 0 else -1) 0 0 P = Ok acc').
  { intros i P Hi. unfold inv_emit, dim0, dim1. rewrite Hf. cbn [nth].
    assert (exists c, norm_index 1 (if i =? 0 then 0 else -1) = Some c) as (c & ->) by (destruct Hi as [->| ->]; eexists; reflexivity).
    change (slice_len (1 - 0) 0 (1 - 0)) with 1. change (slice_len 1 0 1) with 1. cbn [blen bind Z.eqb].
    unfold col_set. cbn [dim0 dim1 zeros shape nth vlen].
    assert (exists c, norm_index (1 + shift_of s) ((if i =? 0 then 0 else -1) + half_offset name i) = Some c) as (c' & ->).
    { destruct (Hoff i) as [->|(-> & -> & ->)]; [|eexists; reflexivity]. rewrite Z.add_0_r. destruct Hi as [->| ->]; destruct (shift_01 s) as [->| ->]; eexists; reflexivity. }
    rewrite Z.eqb_refl. eexists. reflexivity. }
  unfold pm_halves. change (- 0) with 0 in *. destruct re.
  - cbn [bind]. apply half_one; [auto|exact G|intros P; apply He; auto].
  - rewrite half_one; [reflexivity|auto|exact G|intros P; apply He; auto].
Qed.

Lemma forward_one th ftm beta s name o re p : denotes name s -> plain_name name s ->
  shape ftm = [vlen beta; 1 + shift_of s] -> numpy_precomps th 1 0 name o true 0 beta p ->
  forward_latitudinal_step th ftm beta 1 0 o name re p 0 = Err IndexError.
Proof.
  intros Hd Hp Hf HP. destruct (numpy_pre th 1 0 name o true 0 beta p) as (pre & E & G); auto; try lia.
  unfold forward_latitudinal_step. rewrite E. cbn [bind]. rewrite (pre_fits_ok _ _ _ _ _ G). cbn [bind].
  assert (He : forall i P, i = 0 \/ i = 1 -> exists acc', fwd_emit ftm (vlen beta) (1 - 0) (half_offset name i)
     (zeros (fin (RtoC 0)) (flm_shape 1)) (if i =? 0 then 0 else -1) 0 0 P = Ok acc').
  { intros i P Hi. unfold fwd_emit, dim0, dim1. rewrite Hf. cbn [nth zeros shape flm_shape]. rewrite (half_offset_ok name s) by auto.
    change (2 * 1 - 1) with 1.
    assert (exists c, norm_index (1 + shift_of s) ((if i =? 0 then 0 else -1) + (if i =? 0 then shift_of s else 0)) = Some c) as (c & ->).
    { destruct Hi as [->| ->]; destruct (shift_01 s) as [->| ->]; eexists; reflexivity. }
    assert (exists c, norm_index 1 (if i =? 0 then 0 else -1) = Some c) as (c' & ->) by (destruct Hi as [->| ->]; eexists; reflexivity).
    rewrite Z.eqb_refl. cbn [negb]. change (slice_len (1 - 0) 0 (1 - 0)) with 1. change (slice_len 1 0 1) with 1. cbn [Z.eqb Pos.eqb orb]. eexists. reflexivity. }
  unfold pm_halves. change (- 0) with 0 in *. destruct re.
  - cbn [bind]. apply half_one; [auto|exact G|intros P; apply He; auto].
  - rewrite half_one; [reflexivity|auto|exact G|intros P; apply He; auto].
Qed.

(** ** L_lower = L - 1, for L = 2 *)
Section Lower.
  Variables (flm : ndarray C) (beta : vec R) (pre : pm_pre).
  Hypothesis Hf : shape flm = [2; 3].
  Hypothesis G : pre_good beta 2 1 0 pre.

  Lemma emit_mat i lo rlo P a F : i = 0 \/ i = -1 \/ i = 1 \/ i = -2 -> (lo = 0 /\ rlo = 1) \/ (lo = -1 /\ rlo = 0) -> is_mat a (vlen beta) 3 F ->
    exists a' H, inv_emit flm (vlen beta) 1 0 a i lo rlo P = Ok a' /\ is_mat a' (vlen beta) 3 H /\
     ((lo = -1 /\ (i = 1 \/ i = -2)) -> forall t z, P t 0 = Fin z -> H t 1 = fin (RtoC z * (get flm [0; 1] + get flm [1; 1]))%C).
  Proof.
    intros Hi Hlo Ha. unfold inv_emit, dim0, dim1. rewrite Hf. cbn [nth].
    assert (exists c, norm_index 3 i = Some c /\ (i = 1 \/ i = -2 -> c = 1)) as (c & Ec & Hc).
    { destruct Hi as [->|[->|[->| ->]]]; eexists; (split; [reflexivity|]); lia. }
    rewrite Ec.
    assert (exists n, blen (slice_len 1 lo 1) (slice_len 2 rlo 2) = Ok n /\ (lo = -1 -> n = 2 /\ slice_len 1 lo 1 = 1 /\ slice_len 2 rlo 2 = 2 /\ slice_lo 1 lo = 0 /\ slice_lo 2 rlo = 0))
      as (n & En & Hn) by (destruct Hlo as [[-> ->]|[-> ->]]; eexists; (split; [reflexivity|]); intros ?; try lia; repeat split).
    rewrite En. cbn [bind]. unfold col_set. rewrite (is_mat_dim0 _ _ _ _ Ha), (is_mat_dim1 _ _ _ _ Ha). rewrite Z.add_0_r, Ec. cbn [vlen].
    rewrite Z.eqb_refl. eexists. eexists. split; [reflexivity|]. split; [apply is_mat_mat|].
    intros [Hl Hi'] t z Hz. cbn beta. rewrite (Hc Hi'). cbn [Z.eqb Pos.eqb vat]. destruct (Hn Hl) as (-> & -> & -> & -> & ->).
    rewrite nansum_fin with (g := fun k => (RtoC z * get flm [k; 1])%C).
    - f_equal. change (zrange 0 2) with [0; 1]. cbn. apply C_eq; cbn; ring.
    - intros k Hk. unfold bidx. cbn [Z.eqb Pos.eqb]. rewrite !Z.add_0_l. rewrite Hz. rewrite escale_fin, cx_nan_fin. reflexivity.
  Qed.

  Lemma half_two i a F : i = 0 \/ i = 1 -> is_mat a (vlen beta) 3 F ->
    exists a' H, pm_half (inv_emit flm (vlen beta) 1 0) one_by_position pre beta 2 1 0 i a = Ok a' /\ is_mat a' (vlen beta) 3 H /\
      (forall t, 0 <= t < vlen beta -> (0 < vat beta t < PI)%R -> H t 1 = fin (RtoC (cos (vat beta t)) * (get flm [0; 1] + get flm [1; 1]))%C \/ i = 0).
  Proof.
    intros Hi Ha. unfold pm_half, pm_half_to. cbv zeta. rewrite vread_in by (rewrite (pg_cpi_len _ _ _ _ _ G); lia). cbn [bind].
    rewrite (pg_vsign _ _ _ _ _ G).
    assert (V0 : vread (pm_vsigns 2 1 0) (if i =? 0 then 0 else -1) = Ok (vat (pm_vsigns 2 1 0) (prow 2 i 0))).
    { rewrite <- vsign_read by lia. f_equal. lia. }
    assert (V1 : vread (pm_vsigns 2 1 0) ((if i =? 0 then 0 else -1) + (if i =? 0 then 1 else -1)) = Ok (vat (pm_vsigns 2 1 0) (prow 2 i 1))).
    { rewrite <- vsign_read by lia. f_equal. lia. }
    rewrite V0. cbn [bind]. change (2 - 1 - 1) with 0. change (0 - 1) with (-1). change (-1 + 1) with 0. change (0 + 1) with 1.
    match goal with |- context [inv_emit flm (vlen beta) 1 0 a ?x ?y ?z ?P] => destruct (emit_mat x y z P a F) as (a1 & F1 & E1 & Ha1 & _) end;
      [destruct Hi as [->| ->]; cbn; lia|lia|exact Ha|].
    rewrite E1. cbn [bind]. rewrite V1. cbn [bind].
    match goal with |- context [inv_emit flm (vlen beta) 1 0 a1 ?x ?y ?z ?P] => set (PP := P); destruct (emit_mat x y z P a1 F1) as (a2 & F2 & E2 & Ha2 & Hv) end;
      [destruct Hi as [->| ->]; cbn; lia|lia|exact Ha1|].
    fold PP in E2. rewrite E2. cbn [bind]. destruct (Z.eq_dec i 0) as [H0|H0].
    - rewrite zrange_nil by lia. cbn [foldM bind]. exists a2, F2. split; [reflexivity|]. split; [exact Ha2|]. auto.
    - assert (i = 1) by lia. subst i. rewrite zrange_nil by lia. cbn [foldM bind]. exists a2, F2. split; [reflexivity|]. split; [exact Ha2|].
      intros t Ht Hx. left. apply Hv; [cbn; lia|]. unfold PP. cbv beta. change (2 - 1) with 1. change (slice_lo 1 0 <=? 0) with true. cbv iota.
      rewrite (lamb_ok beta 2 1 0 1) by exact Hx. rewrite (pg_lr _ _ _ _ _ G) by (auto; lia).
      pose proof (pg_cpi _ _ _ _ _ G 1 0) as Hc. change (1 - 1) with 0 in Hc. rewrite Hc by lia. clear Hc.
      rewrite <- (wd1_00 (vat beta t)). change (wigner_d 1 0 0 (vat beta t)) with (wigner_d (1 + 0) (pord 2 1 1) 0 (vat beta t)).
      cbn [emul eexp]. f_equal. rewrite exp_ln by (apply D0_pos'; [lia|cbn; lia|exact Hx]).
      rewrite <- (sign_value 2 1 0 1 1 0) by (auto; lia). f_equal. f_equal.
      change (1 - (2 - 1 - (1 + 0))) with 1. change (1 + 0) with 1. change (hn 0 1) with 0.
      rewrite (FR_step _ _ _) with (m := 1) by (auto; lia). fold (cpi_val 1 1).
      replace (ac (2 * 1) (1 - 2)) with 0%R; [|symmetry; apply ac_out; lia]. change (1 - 1) with 0. rewrite FR_0' by (auto; lia). field.
  Qed.
End Lower.

Lemma lower_two th flm beta re p : shape flm = [2; 3] -> vlen beta = 2 -> numpy_precomps th 2 0 "mw" None false 1 beta p -> (0 < vat beta 0 < PI)%R ->
  exists a, inverse_latitudinal_step th flm beta 2 0 None "mw" re p 1 = Ok a /\
    get a [0; 1] = fin (RtoC (cos (vat beta 0)) * (get flm [0; 1] + get flm [1; 1]))%C.
Proof.
  intros Hf Hb HP Hx. destruct (numpy_pre th 2 0 "mw" None false 1 beta p) as (pre & E & G); auto; try lia.
  unfold inverse_latitudinal_step. change (ftm_shape (Some 2) "mw" None) with (Ok [2; 3]). cbn [bind]. rewrite E. cbn [bind].
  rewrite (pre_fits_ok _ _ _ _ _ G). cbn [bind]. unfold pm_halves. change (- 0) with 0 in *. change (2 - 1) with 1.
  change (half_offset "mw" 0) with 0. change (half_offset "mw" 1) with 0.
  assert (Ha : is_mat (zeros (fin (RtoC 0)) [2; 3]) (vlen beta) 3 (fun _ _ => fin (RtoC 0))) by (rewrite Hb; apply zeros_mat).
  assert (exists a0 F0, (if re then Ok (zeros (fin (RtoC 0)) [2; 3]) else pm_half (inv_emit flm (vlen beta) 1 0) one_by_position pre beta 2 1 0 0
     (zeros (fin (RtoC 0)) [2; 3])) = Ok a0 /\ is_mat a0 (vlen beta) 3 F0) as (a0 & F0 & E0 & Ha0).
  { destruct re; [eauto|]. destruct (half_two flm beta pre Hf G 0 _ _ (or_introl eq_refl) Ha) as (a' & F' & E' & Ha' & _). eauto. }
  rewrite E0. cbn [bind]. destruct (half_two flm beta pre Hf G 1 _ _ (or_intror eq_refl) Ha0) as (a' & F' & E' & Ha' & Hv).
  exists a'. split; [exact E'|]. destruct (Hv 0 ltac:(lia) Hx) as [Hv'|Hv']; [|lia]. rewrite <- Hv'. apply (proj2 Ha'); lia.
Qed.
