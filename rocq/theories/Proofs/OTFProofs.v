(** The latitudinal steps apply the Wigner d-functions. *)
From Coq Require Import Reals Lra Lia ZifyBool.
From Coquelicot Require Import Complex.
From Verif Require Import Lib.Py Lib.PyFacts Lib.Sums Lib.Cplx Lib.Vec Lib.VecFacts Lib.Arr Lib.MatFacts Lib.Ext Lib.ExtFacts.
From Verif Require Import Model.Index Model.Samples Model.Grids Model.Turok Model.PriceMcEwen Model.OTF Spec.WignerSpec Spec.OTFSpec
  Proofs.TurokProofs Proofs.PMPre Proofs.PMHalf.
Open Scope Z_scope.

Lemma norm_index_neg n i : - n <= i < 0 -> norm_index n i = Some (i + n).
Proof. intros H. unfold norm_index. destruct ((0 <=? i) && (i <? n)) eqn:E; [lia|]. destruct ((- n <=? i) && (i <? 0)) eqn:E2; [reflexivity|lia]. Qed.

Section Steps.
  Variables (L L0 spin mo : Z) (beta : vec R) (pre : pm_pre).
  Hypothesis HL : 2 <= L.
  Hypothesis HL0 : 0 <= L0 <= L - 2.
  Hypothesis Hmo : mo = 0 \/ mo = 1.
  Hypothesis Hpre : pre_good beta L L0 (- spin) pre.
  Let nt := vlen beta.
  Let mc := 2 * L - 1 + mo.
  Let off i := if i =? 0 then mo else 0.

  (** indices of the columns of step m of half i *)
  Lemma idx_flm i m : i = 0 \/ i = 1 -> 0 <= m <= L - 1 -> norm_index (2 * L - 1) (sidx i m) = Some (pord L i m + L - 1).
  Proof.
    intros [->| ->] Hm; unfold sidx, pord; cbn [Z.eqb].
    - rewrite norm_index_in by lia. f_equal. lia.
    - rewrite norm_index_neg by lia. f_equal. lia.
  Qed.
  Lemma idx_ftm i m : i = 0 \/ i = 1 -> 0 <= m <= L - 1 -> norm_index mc (sidx i m + off i) = Some (pord L i m + L - 1 + mo).
  Proof.
    intros [->| ->] Hm; unfold sidx, pord, off, mc; cbn [Z.eqb].
    - rewrite norm_index_in by lia. f_equal. lia.
    - rewrite norm_index_neg by lia. f_equal. lia.
  Qed.

  (** ** Inverse *)
  Section Inverse.
    Variable flm : ndarray C.
    Hypothesis Hflm : shape flm = [L; 2 * L - 1].
    Hypothesis Hz : forall el m, 0 <= el < Z.abs spin -> el < L -> - L < m < L -> get flm [el; m + L - 1] = RtoC 0.

    Lemma inv_emit_ok i m lo P ftm F : i = 0 \/ i = 1 -> 0 <= m <= L - 1 -> 0 <= lo < L - L0 ->
      (forall el, L0 <= el < lo + L0 -> el < L - 1 - m) -> is_mat ftm nt mc F ->
      exists ftm' G, inv_emit flm nt (L - L0) (off i) ftm (sidx i m) lo (lo + L0) P = Ok ftm' /\ is_mat ftm' nt mc G /\
        (forall t c, c <> pord L i m + L - 1 + mo -> G t c = F t c) /\
        (good beta L L0 (- spin) i m lo P -> m <= L - 2 + i -> forall t, 0 <= t < nt -> regular L L0 (- spin) (vat beta t) ->
           G t (pord L i m + L - 1 + mo) = fin (latitude_sum L L0 spin flm (vat beta t) (pord L i m))).
    Proof using HL HL0 Hflm Hz Hmo.
      intros Hi Hm Hlo Hlow Ha. set (o := pord L i m).
      assert (Ho : Z.abs o = L - 1 - m) by (unfold o, pord; destruct Hi as [->| ->]; cbn [Z.eqb]; lia).
      unfold inv_emit, dim0, dim1. rewrite Hflm. cbn [nth]. rewrite idx_flm by auto. fold o.
      rewrite !slice_len_in, !slice_lo_in by lia. unfold blen. rewrite (proj2 (Z.eqb_eq _ _)) by lia. cbn [bind].
      unfold col_set. rewrite (is_mat_dim0 _ _ _ _ Ha), (is_mat_dim1 _ _ _ _ Ha). rewrite idx_ftm by auto. fold o.
      cbn [vlen]. rewrite Z.eqb_refl. eexists. eexists. split; [reflexivity|]. split; [|split].
      - eapply is_mat_ext; [apply is_mat_mat|]. intros r c Hr Hc. cbn beta. cbn [vat]. rewrite (proj2 Ha) by auto. reflexivity.
      - intros t c Hc. cbn beta. rewrite (proj2 (Z.eqb_neq _ _)) by exact Hc. reflexivity.
      - intros HP Hmi t Ht Hreg. cbn beta. rewrite Z.eqb_refl.
        rewrite nansum_fin with (g := fun k => (RtoC (wigner_d (k + (lo + L0))%Z o (- spin)%Z (vat beta t)) * at2 flm (k + (lo + L0))%Z (o + L - 1)%Z)%C).
        + f_equal. rewrite cr_shift with (f := fun el => (RtoC (wigner_d el o (- spin)%Z (vat beta t)) * at2 flm el (o + L - 1)%Z)%C).
          unfold latitude_sum. replace (0 + (lo + L0)) with (lo + L0) by lia. replace (L - L0 - lo + (lo + L0)) with L by lia.
          destruct (Z.le_gt_cases (lo + L0) (Z.max L0 (Z.abs o))) as [Hc|Hc].
          * rewrite (cr_split (lo + L0) (Z.max L0 (Z.abs o)) L) by lia. rewrite (cr_0 (lo + L0)).
            -- rewrite Cplus_0_l. reflexivity.
            -- intros el Hel. rewrite wig_out by lia. ring.
          * exfalso. specialize (Hlow (lo + L0 - 1)). lia.
        + intros k Hk. unfold bidx.
          assert (B : (if L - L0 - lo =? 1 then 0 else k) = k) by (destruct (Z.eqb_spec (L - L0 - lo) 1); lia). rewrite B.
          replace (L - (lo + L0)) with (L - L0 - lo) by lia. rewrite B.
          replace (lo + L0 + k) with (k + (lo + L0)) by lia.
          destruct (Z.le_gt_cases (Z.abs (- spin)) (L0 + (lo + k))).
          * pose proof (HP Hmi t (lo + k) Ht ltac:(lia) Hreg ltac:(lia)) as Pv. rewrite !Pv. clear Pv. rewrite escale_fin, cx_nan_fin. fold o. replace (L0 + (lo + k)) with (k + (lo + L0)) by lia. reflexivity.
          * replace (at2 flm (k + (lo + L0)) (o + L - 1)) with (RtoC 0); [|symmetry; apply Hz; lia].
            rewrite escale_zero. f_equal. ring.
    Qed.

    Definition isum t o := latitude_sum L L0 spin flm (vat beta t) o.
    Definition inv0 (m : Z) (a : ndarray ecx) : Prop := exists F, is_mat a nt mc F /\
      forall t, 0 <= t < nt -> regular L L0 (- spin) (vat beta t) ->
        (forall c, 0 <= c < mo -> F t c = fin (RtoC 0)) /\
        (forall o, - L < o < 0 -> o + L - 1 < m -> F t (o + L - 1 + mo) = fin (isum t o)).
    Definition inv1 (re : bool) (m : Z) (a : ndarray ecx) : Prop := exists F, is_mat a nt mc F /\
      forall t, 0 <= t < nt -> regular L L0 (- spin) (vat beta t) ->
        (forall c, 0 <= c < mo -> F t c = fin (RtoC 0)) /\
        (forall o, - L < o < 0 -> F t (o + L - 1 + mo) = fin (if re then RtoC 0 else isum t o)) /\
        (forall o, 0 <= o < L -> L - 1 - m < o -> F t (o + L - 1 + mo) = fin (isum t o)).

    Lemma inverse_halves re (a0 : ndarray ecx) : is_mat a0 nt mc (fun _ _ => fin (RtoC 0)) ->
      exists a, pm_halves (fun i => inv_emit flm nt (L - L0) (off i)) one_by_position pre beta L L0 (- spin) re a0 = Ok a /\ inv1 re L a.
    Proof using HL HL0 Hflm Hz Hmo Hpre.
      intros Ha0. unfold pm_halves.
      assert (H0 : exists a1, (if re then Ok a0 else pm_half (inv_emit flm nt (L - L0) (off 0)) one_by_position pre beta L L0 (- spin) 0 a0) = Ok a1
        /\ inv1 re 0 a1).
      { destruct re.
        - exists a0. split; [reflexivity|]. eexists. split; [exact Ha0|]. intros t Ht Hr. repeat split; auto. intros; lia.
        - destruct (pm_half_ok inv0 (inv_emit flm nt (L - L0) (off 0)) one_by_position pre beta L L0 (- spin) 0) with (acc := a0) as (a1 & E & I); auto.
          + intros m j k. unfold one_by_position. lia.
          + intros m acc lo P Hm Hlo _ Hlow HP (F & HF & I).
            destruct (inv_emit_ok 0 m lo P acc F) as (a' & G & E & HG & G1 & G2); auto; [lia|].
            exists a'. split; [exact E|]. exists G. split; [exact HG|]. intros t Ht Hr. destruct (I t Ht Hr) as [I1 I2]. split.
            * intros c Hc. rewrite G1; [auto|]. unfold pord. cbn [Z.eqb]. lia.
            * intros o Ho Hom. destruct (Z.eq_dec (o + L - 1) m) as [Heq|Hne].
              -- replace o with (pord L 0 m) by (unfold pord; cbn [Z.eqb]; lia). apply G2; auto. lia.
              -- rewrite G1; [apply I2; lia|]. unfold pord. cbn [Z.eqb]. lia.
          + eexists. split; [exact Ha0|]. intros t Ht Hr. split; auto. intros; lia.
          + exists a1. split; [exact E|]. destruct I as (F & HF & I). exists F. split; [exact HF|]. intros t Ht Hr.
            destruct (I t Ht Hr) as [I1 I2]. split; [exact I1|]. split; [intros; apply I2; lia|intros; lia]. }
      destruct H0 as (a1 & E1 & I1). rewrite E1. cbn [bind].
      destruct (pm_half_ok (inv1 re) (inv_emit flm nt (L - L0) (off 1)) one_by_position pre beta L L0 (- spin) 1) with (acc := a1) as (a & E & I); auto.
      - intros m j k. unfold one_by_position. lia.
      - intros m acc lo P Hm Hlo _ Hlow HP (F & HF & I).
        destruct (inv_emit_ok 1 m lo P acc F) as (a' & G & E & HG & G1 & G2); auto; [lia|].
        exists a'. split; [exact E|]. exists G. split; [exact HG|]. intros t Ht Hr. destruct (I t Ht Hr) as (J1 & J2 & J3). split; [|split].
        + intros c Hc. rewrite G1; [auto|]. unfold pord. cbn [Z.eqb]. lia.
        + intros o Ho. rewrite G1; [auto|]. unfold pord. cbn [Z.eqb]. lia.
        + intros o Ho Hom. destruct (Z.eq_dec o (L - 1 - m)) as [Heq|Hne].
          * replace o with (pord L 1 m) by (unfold pord; cbn [Z.eqb]; lia). apply G2; auto. lia.
          * rewrite G1; [apply J3; lia|]. unfold pord. cbn [Z.eqb]. lia.
      - exists a. split; [exact E|]. replace (Z.max 2 (L - 1 + 1)) with L in I by lia. exact I.
    Qed.
  End Inverse.

  (** ** Forward *)
  Section Forward.
    Variable ftm : ndarray C.
    Hypothesis Hftm : shape ftm = [nt; mc].
    Hypothesis Hreg : forall t, 0 <= t < nt -> regular L L0 (- spin) (vat beta t).
    Variable one : Z -> Z -> pm_pre -> Z -> Z -> Z -> bool.
    Hypothesis Hone : forall m j k, one L L0 pre m j k = (k =? L - 1 - m - L0).

    Definition fsum el o := angle_sum L mo spin nt ftm (vat beta) el o.

    Lemma fwd_emit_ok i m lo P flm F : i = 0 \/ i = 1 -> 0 <= m <= L - 1 -> 0 <= lo < L - L0 -> is_mat flm L (2 * L - 1) F ->
      exists flm' G, fwd_emit ftm nt (L - L0) (off i) flm (sidx i m) lo (lo + L0) P = Ok flm' /\ is_mat flm' L (2 * L - 1) G /\
        (forall el c, c <> pord L i m + L - 1 \/ el < lo + L0 -> G el c = F el c) /\
        (good beta L L0 (- spin) i m lo P -> m <= L - 2 + i -> forall el, lo + L0 <= el < L -> Z.abs spin <= el ->
           G el (pord L i m + L - 1) = fin (fsum el (pord L i m))).
    Proof using HL HL0 Hftm Hreg Hmo.
      intros Hi Hm Hlo Ha. set (o := pord L i m).
      unfold fwd_emit. unfold dim0 at 1, dim1 at 1. rewrite Hftm. cbn [nth]. rewrite idx_ftm by auto. fold o.
      rewrite (is_mat_dim0 _ _ _ _ Ha), (is_mat_dim1 _ _ _ _ Ha). rewrite idx_flm by auto. fold o.
      rewrite Z.eqb_refl. cbn [negb].
      rewrite !slice_len_in, !slice_lo_in by lia. rewrite (proj2 (Z.eqb_eq (L - L0 - lo) _)) by lia. cbn [orb].
      eexists. eexists. split; [reflexivity|]. split; [|split].
      - eapply is_mat_ext; [apply is_mat_mat|]. intros r c Hr Hc. cbn beta. rewrite (proj2 Ha) by auto. reflexivity.
      - intros el c Hc. cbn beta. destruct ((c =? o + L - 1) && (lo + L0 <=? el) && (el <? lo + L0 + (L - (lo + L0)))) eqn:E; [lia|reflexivity].
      - intros HP Hmi el Hel Hs. cbn beta. rewrite Z.eqb_refl. rewrite (proj2 (Z.leb_le _ _)) by lia. rewrite (proj2 (Z.ltb_lt _ _)) by lia. cbn [andb].
        unfold fsum, angle_sum. apply nansum_fin. intros t Ht. unfold bidx.
        assert (B : (if L - L0 - lo =? 1 then 0 else el - (lo + L0)) = el - (lo + L0)) by (destruct (Z.eqb_spec (L - L0 - lo) 1); lia). rewrite B.
        pose proof (HP Hmi t (lo + (el - (lo + L0))) Ht ltac:(lia) (Hreg t Ht) ltac:(lia)) as Pv. rewrite !Pv. clear Pv. rewrite escale_fin, cx_nan_fin. fold o. replace (L0 + (lo + (el - (lo + L0)))) with el by lia. reflexivity.
    Qed.

    Lemma fsum_out el o : el < Z.abs o -> fsum el o = RtoC 0.
    Proof. intros H. unfold fsum, angle_sum. apply cr_0. intros t Ht. rewrite wig_out by auto. ring. Qed.

    Definition fwd0 (m : Z) (a : ndarray ecx) : Prop := exists F, is_mat a L (2 * L - 1) F /\
      forall el, 0 <= el < L ->
        (forall o, - L < o < L -> el < L0 -> F el (o + L - 1) = fin (RtoC 0)) /\
        (forall o, 0 < o < L -> F el (o + L - 1) = fin (RtoC 0)) /\
        (forall o, - L < o < 0 -> m <= o + L - 1 -> F el (o + L - 1) = fin (RtoC 0)) /\
        (forall o, - L < o < 0 -> o + L - 1 < m -> L0 <= el -> Z.abs spin <= el -> F el (o + L - 1) = fin (fsum el o)).
    Definition fwd1 (re : bool) (m : Z) (a : ndarray ecx) : Prop := exists F, is_mat a L (2 * L - 1) F /\
      forall el, 0 <= el < L ->
        (forall o, - L < o < L -> el < L0 -> F el (o + L - 1) = fin (RtoC 0)) /\
        (forall o, - L < o < 0 -> L0 <= el -> Z.abs spin <= el -> F el (o + L - 1) = fin (if re then RtoC 0 else fsum el o)) /\
        (forall o, 0 < o < L -> o <= L - 1 - m -> F el (o + L - 1) = fin (RtoC 0)) /\
        (forall o, 0 <= o < L -> L - 1 - m < o -> L0 <= el -> Z.abs spin <= el -> F el (o + L - 1) = fin (fsum el o)).

    Lemma forward_halves re (a0 : ndarray ecx) : is_mat a0 L (2 * L - 1) (fun _ _ => fin (RtoC 0)) ->
      exists a, pm_halves (fun i => fwd_emit ftm nt (L - L0) (off i)) one pre beta L L0 (- spin) re a0 = Ok a /\ fwd1 re L a.
    Proof using HL HL0 Hftm Hreg Hone Hmo Hpre.
      intros Ha0. unfold pm_halves.
      assert (H0 : exists a1, (if re then Ok a0 else pm_half (fwd_emit ftm nt (L - L0) (off 0)) one pre beta L L0 (- spin) 0 a0) = Ok a1
        /\ fwd1 re 0 a1).
      { destruct re.
        - exists a0. split; [reflexivity|]. eexists. split; [exact Ha0|]. intros el Hel. repeat split; auto. intros; lia.
        - destruct (pm_half_ok fwd0 (fwd_emit ftm nt (L - L0) (off 0)) one pre beta L L0 (- spin) 0) with (acc := a0) as (a1 & E & I); auto.
          + intros m acc lo P Hm Hlo _ Hlow HP (F & HF & I).
            destruct (fwd_emit_ok 0 m lo P acc F) as (a' & G & E & HG & G1 & G2); auto; [lia|].
            exists a'. split; [exact E|]. exists G. split; [exact HG|]. intros el Hel. destruct (I el Hel) as (I1 & I2 & I3 & I4).
            assert (P0 : pord L 0 m = m - (L - 1)) by reflexivity. split; [|split; [|split]].
            * intros o Ho Hel0. rewrite G1; [auto|]. lia.
            * intros o Ho. rewrite G1; [auto|]. lia.
            * intros o Ho Hom. rewrite G1; [apply I3; lia|]. lia.
            * intros o Ho Hom He Hs. destruct (Z.eq_dec (o + L - 1) m) as [Heq|Hne].
              -- assert (o = pord L 0 m) as -> by lia. destruct (Z.le_gt_cases (lo + L0) el).
                 ++ apply G2; auto; lia.
                 ++ rewrite G1 by lia. rewrite fsum_out by (specialize (Hlow el); lia). apply I3; lia.
              -- rewrite G1; [apply I4; lia|]. lia.
          + eexists. split; [exact Ha0|]. intros el Hel. repeat split; auto. intros; lia.
          + exists a1. split; [exact E|]. destruct I as (F & HF & I). exists F. split; [exact HF|]. intros el Hel.
            destruct (I el Hel) as (I1 & I2 & I3 & I4). split; [exact I1|]. split; [intros; apply I4; lia|]. split; [intros; apply I2; lia|intros; lia]. }
      destruct H0 as (a1 & E1 & I1). rewrite E1. cbn [bind].
      destruct (pm_half_ok (fwd1 re) (fwd_emit ftm nt (L - L0) (off 1)) one pre beta L L0 (- spin) 1) with (acc := a1) as (a & E & I); auto.
      - intros m acc lo P Hm Hlo _ Hlow HP (F & HF & I).
        destruct (fwd_emit_ok 1 m lo P acc F) as (a' & G & E & HG & G1 & G2); auto; [lia|].
        exists a'. split; [exact E|]. exists G. split; [exact HG|]. intros el Hel. destruct (I el Hel) as (J1 & J2 & J3 & J4).
        assert (P1 : pord L 1 m = L - 1 - m) by reflexivity. split; [|split; [|split]].
        + intros o Ho Hel0. rewrite G1; [auto|]. lia.
        + intros o Ho H1 H2. rewrite G1; [auto|]. lia.
        + intros o Ho Hom. rewrite G1; [apply J3; lia|]. lia.
        + intros o Ho Hom He Hs. destruct (Z.eq_dec o (L - 1 - m)) as [Heq|Hne].
          * assert (o = pord L 1 m) as -> by lia. destruct (Z.le_gt_cases (lo + L0) el).
            -- apply G2; auto; lia.
            -- rewrite G1 by lia. pose proof (Hlow el ltac:(lia)). rewrite fsum_out by lia. apply J3; lia.
          * rewrite G1; [apply J4; lia|]. lia.
      - exists a. split; [exact E|]. replace (Z.max 2 (L - 1 + 1)) with L in I by lia. exact I.
    Qed.
  End Forward.
End Steps.
