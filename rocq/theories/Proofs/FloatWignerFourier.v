(** The kernel of the precomputed Wigner transforms in rounded arithmetic: the Fourier expansion of
    the d-functions. *)
From Coq Require Import Reals Lra Lia ZifyBool.
From Coquelicot Require Import Coquelicot.
From Verif Require Import Lib.Py Lib.PyFacts Lib.Vec Lib.VecFacts Lib.Sums Lib.Cplx Lib.Arr Lib.ArrFacts Lib.MatFacts Model.Index Model.Samples Model.FFT Model.Risbo
  Model.RisboFloat Model.Resampling Model.Spherical Model.Precompute Model.PrecomputeFloat Model.Wigner Model.FourierWigner Model.PrecomputeWigner Model.WignerFloat
  Spec.SamplesSpec Spec.WignerSpec Spec.SphereSpec Spec.GridSpec Spec.SphericalSpec Spec.SO3Spec Spec.RoundingSpec Spec.PrecomputeFloatSpec Spec.WignerFloatSpec
  Proofs.WignerDh Proofs.WignerCalc Proofs.RisboProofs Proofs.SphereTheory Proofs.SamplesProofs Proofs.SphGrid Proofs.PrecomputeKernel Proofs.SpectralBound Proofs.CBackendBound
  Proofs.RisboFloatProofs Proofs.FloatSums Proofs.FloatKernel Proofs.FloatInverse Proofs.FloatFourier Proofs.FloatTop Proofs.FWArrays Proofs.PWKernel Proofs.FloatWigner.
Open Scope R_scope.

Section Float.
  Variables (A : arith) (u eta : R).
  Hypothesis HA : rounded A u eta.
  Hypothesis HZ : zeros_exact A.
  Hypothesis Hu : u <= / 1000.
  Hypothesis He : 4 * eta <= u.
  Let u0 := rd_u _ _ _ HA.
  Let e0 := rd_eta _ _ _ HA.
  Variables (F : ffts) (L n : Z) (eps : R).
  Hypothesis HL : (1 <= L)%Z.
  Hypothesis Hn : (0 < n)%Z.
  Hypothesis HB : fbound u L <= / 10.
  Hypothesis HE : IZR (2 * L) * eta <= u.
  Hypothesis Heps : 0 <= eps <= / 20.
  Hypothesis HF : irfft_accurate (f_irfft F) L n eps.
  Hypothesis HI : ipow_accurate (f_ipow F) (2 * L) eps.
  Definition wkbound : R := 907 * u * IZR (L * (2 * L + 3)) + (107 / 10) * eps.

  Section Value.
    Variables (l o m : Z) (a : ndarray R) (th0 : R) (t : Z).
    Hypothesis Hl : (0 <= l < L)%Z.
    Hypothesis Hm : (- L < m < L)%Z.
    Hypothesis Ho : (- L < o < L)%Z.
    Hypothesis Ha : fholds L l (fdiv A (fpi A) 2) a (fbound u l).
    Hypothesis Hth : Rabs th0 <= 41 / 10.
    Hypothesis Ht : (0 <= t < n)%Z.
    Let d1 k := get a [k + L - 1; m + L - 1]%Z.
    Let d2 k := get a [k + L - 1; o + L - 1]%Z.
    Definition wterm_f (k : Z) : C :=
      cf_mul A (cf_mul A (cf_mul A (cf_mul A (RtoC (d1 k)) (RtoC (d2 k))) (f_ipow F (- m))) (f_ipow F o)) (pf_exp A k th0).
    Let w1 k := wigner_d l k m (PI / 2).
    Let w2 k := wigner_d l k o (PI / 2).
    Let tau k := (RtoC (w1 k * w2 k) * Precompute.ipow (o - m) * cis (IZR k * th0))%C.
    Let rho := 30 * u + (31 / 10) * eps + 20 * (u * IZR L).
    Lemma wterm_near k : (0 <= k < L)%Z -> Cmod (wterm_f k - RtoC (d1 k * d2 k) * Precompute.ipow (o - m) * cis (IZR k * th0))%C <= rho * Rabs (d1 k * d2 k) + 42 * eta.
    Proof.
      intros Hk. unfold wterm_f. destruct (uL A u eta HA L HL HB) as [UL L1].
      assert (UL0 : 0 <= u * IZR L) by (apply Rmult_le_pos; lra). assert (U1 : u * 1 <= u * IZR L) by (now apply Rmult_le_compat_l).
      assert (TN := term_near A u eta HA Hu (d1 k) (d2 k) eps eps (f_ipow F (- m)) (Precompute.ipow (- m)) (f_ipow F o) (Precompute.ipow o)
        ltac:(lra) ltac:(lra) (Cmod_cis _) (Cmod_cis _) (HI (- m)%Z ltac:(lia)) (HI o ltac:(lia))).
      set (t3 := cf_mul A (cf_mul A (cf_mul A (RtoC (d1 k)) (RtoC (d2 k))) (f_ipow F (- m))) (f_ipow F o)) in *.
      assert (IP : (RtoC (d1 k * d2 k) * Precompute.ipow (- m) * Precompute.ipow o)%C = (RtoC (d1 k * d2 k) * Precompute.ipow (o - m))%C).
      { rewrite <- Cmult_assoc. f_equal. unfold Precompute.ipow. rewrite <- cis_plus. f_equal. rewrite minus_IZR, opp_IZR. ring. }
      rewrite IP in TN. assert (EX := exp_err A u eta HA He L k th0 HL ltac:(lia) Hth).
      set (ex := pf_exp A k th0) in *. set (c := cis (IZR k * th0)) in *. set (v := (RtoC (d1 k * d2 k) * Precompute.ipow (o - m))%C) in *.
      assert (NV : Cmod v = Rabs (d1 k * d2 k)) by (unfold v; rewrite Cmod_mult, Cmod_R; unfold Precompute.ipow; rewrite Cmod_cis; ring).
      set (q := Rabs (d1 k * d2 k)) in *. assert (Q0 : 0 <= q) by apply Rabs_pos.
      assert (UQ : 0 <= u * q) by (apply Rmult_le_pos; lra). assert (UQ2 : u * q <= / 1000 * q) by (apply Rmult_le_compat_r; lra).
      assert (UE : u * eta <= / 1000 * eta) by (apply Rmult_le_compat_r; lra).
      assert (PQ0 : 0 <= eps * q) by (apply Rmult_le_pos; lra). assert (PQ : eps * q <= / 20 * q) by (apply Rmult_le_compat_r; lra).
      assert (NC : Cmod c = 1) by apply Cmod_cis.
      assert (NX : Cmod ex <= 1002 / 1000).
      { replace ex with (c + (ex - c))%C by ring. eapply Rle_trans; [apply Cmod_triangle|]. lra. }
      assert (N3 : Cmod t3 <= (118 / 100) * q + 30 * eta).
      { replace t3 with (v + (t3 - v))%C by ring. eapply Rle_trans; [apply Cmod_triangle|]. rewrite NV. lra. }
      assert (M3 : Cmod t3 * Cmod ex <= ((118 / 100) * q + 30 * eta) * (1002 / 1000)) by (apply Rmult_le_compat; try apply Cmod_ge_0; assumption).
      apply (Rmult_le_compat_l _ _ _ u0) in M3.
      assert (E := cmul_err A u eta HA Hu t3 ex).
      replace (cf_mul A t3 ex - v * c)%C with ((cf_mul A t3 ex - t3 * ex) + (t3 - v) * ex + v * (ex - c))%C by ring.
      eapply Rle_trans; [apply Cmod_triangle|]. eapply Rle_trans; [apply Rplus_le_compat_r, Cmod_triangle|]. rewrite !Cmod_mult, NV.
      assert (M4 : Cmod (t3 - v)%C * Cmod ex <= ((20 * u + 2 * eps + eps) * q + 30 * eta) * (1002 / 1000)) by (apply Rmult_le_compat; try apply Cmod_ge_0; assumption).
      assert (M5 : q * Cmod (ex - c)%C <= q * (20 * (u * IZR L))) by (now apply Rmult_le_compat_l).
      unfold rho. lra.
    Qed.
    Variable v : vec C.
    Hypothesis Hv : vlen v = L.
    Hypothesis Vv : forall k, (0 <= k < L)%Z -> vat v k = wterm_f k.

    Lemma wvalue_near : (Z.abs m <= l)%Z -> (Z.abs o <= l)%Z ->
      Rabs (vat (f_irfft F v n) t - wigner_d l m o (th0 + 2 * PI * IZR t / IZR n)) <= wkbound.
    Proof.
      intros Am As. specialize (HF v Hv t Ht). destruct (uL A u eta HA L HL HB) as [UL L1].
      destruct (half_bound A u eta HA L HL HB HE l Hl) as [KB EB].
      pose proof (ebound_nonneg A u eta HA l ltac:(lia)) as E0. set (e := ebound u l) in *.
      destruct (prod_sums L w1 d1 w2 d2 e E0 (wigner_col L l m (PI / 2) Hl Am) (wigner_col L l o (PI / 2) Hl ltac:(lia))
        (col_err A u eta HA Hu He L l a m Hl Am Ha) (col_err A u eta HA Hu He L l a o Hl ltac:(lia) Ha)) as [Q P].
      assert (UL0 : 0 <= u * IZR L) by (apply Rmult_le_pos; lra). assert (U1 : u * 1 <= u * IZR L) by (now apply Rmult_le_compat_l).
      assert (TN : forall k, (0 <= k < L)%Z -> Cmod (vat v k - RtoC (d1 k * d2 k) * Precompute.ipow (o - m) * cis (IZR k * th0))%C <= rho * Rabs (d1 k * d2 k) + 42 * eta).
      { intros k Hk. rewrite Vv by exact Hk. now apply wterm_near. }
      assert (TT : forall k, (0 <= k < L)%Z -> Cmod (vat v k - tau k)%C <= rho * Rabs (d1 k * d2 k) + 42 * eta + Rabs (d1 k * d2 k - w1 k * w2 k)).
      { intros k Hk. replace (vat v k - tau k)%C with ((vat v k - RtoC (d1 k * d2 k) * Precompute.ipow (o - m) * cis (IZR k * th0))
          + RtoC (d1 k * d2 k - w1 k * w2 k) * Precompute.ipow (o - m) * cis (IZR k * th0))%C by (unfold tau; rewrite RtoC_minus; ring).
        eapply Rle_trans; [apply Cmod_triangle|]. rewrite !Cmod_mult, Cmod_R. unfold Precompute.ipow. rewrite !Cmod_cis. specialize (TN k Hk). unfold Precompute.ipow in TN. lra. }
      assert (TS : forall k, (0 <= k < L)%Z -> Cmod (vat v k) <= (1 + rho) * Rabs (d1 k * d2 k) + 42 * eta).
      { intros k Hk. replace (vat v k) with (RtoC (d1 k * d2 k) * Precompute.ipow (o - m) * cis (IZR k * th0) + (vat v k - RtoC (d1 k * d2 k) * Precompute.ipow (o - m) * cis (IZR k * th0)))%C by ring.
        eapply Rle_trans; [apply Cmod_triangle|]. rewrite !Cmod_mult, Cmod_R. unfold Precompute.ipow at 1. rewrite !Cmod_cis. specialize (TN k Hk). lra. }
      rewrite mult_IZR in HE.
      assert (R0 : 0 <= rho <= 17 / 100) by (unfold rho; lra).
      set (SP := rsum (zrange 0 L) (fun k => Rabs (d1 k * d2 k))) in *.
      assert (SP0 : 0 <= SP) by (apply rs_nonneg; intros; apply Rabs_pos). assert (SP1 : SP <= 124 / 100) by nra.
      assert (SQ : rsum (zrange 0 L) (fun k => Rabs (d1 k * d2 k - w1 k * w2 k)) <= (211 / 100) * e) by nra.
      assert (ST : rsum (zrange 0 L) (fun k => Cmod (vat v k - tau k)%C) <= rho * (124 / 100) + 21 * u + (211 / 100) * e).
      { eapply Rle_trans; [apply rr_le; exact TT|]. rewrite !rs_plus, rs_scal_l, sum_const by lia. fold SP.
        assert (rho * SP <= rho * (124 / 100)) by (apply Rmult_le_compat_l; lra). lra. }
      assert (SS : rsum (zrange 0 L) (fun k => Cmod (vat v k)) <= 15 / 10).
      { eapply Rle_trans; [apply rr_le; exact TS|]. rewrite !rs_plus, rs_scal_l, sum_const by lia. fold SP.
        assert ((1 + rho) * SP <= (117 / 100) * (124 / 100)) by (apply Rmult_le_compat; lra). lra. }
      (* the exact value *)
      set (x := th0 + 2 * PI * IZR t / IZR n).
      assert (EX : wigner_d l m o x = Re (tau 0) + 2 * rsum (zrange 1 L) (fun k => Re (tau k * cis (2 * PI * IZR k * IZR t / IZR n))%C)).
      { assert (XT : forall k, (tau k * cis (2 * PI * IZR k * IZR t / IZR n))%C = wterm l m o x k).
        { intros k. unfold x, tau, wterm, wfc, w1, w2, Precompute.ipow. replace (IZR k * (th0 + 2 * PI * IZR t / IZR n)) with (IZR k * th0 + 2 * PI * IZR k * IZR t / IZR n).
          - rewrite cis_plus. ring.
          - field. apply not_0_IZR. lia. }
        rewrite (wigner_half_sum l m o x L) by lia. f_equal.
        - rewrite <- XT. replace (2 * PI * 0 * IZR t / IZR n) with 0 by (unfold Rdiv; ring). rewrite cis_0, Cmult_1_r. reflexivity.
        - f_equal. apply rr_ext. intros k Hk. rewrite XT. destruct (Z.leb_spec k l); [reflexivity|]. rewrite wterm_out by lia. reflexivity. }
      rewrite EX. set (dv := Re (vat v 0) + 2 * rsum (zrange 1 L) (fun k => Re (vat v k * cis (2 * PI * IZR k * IZR t / IZR n))%C)) in *.
      assert (S1 : Cmod (vat v 0) + 2 * rsum (zrange 1 L) (fun k => Cmod (vat v k)) <= 2 * rsum (zrange 0 L) (fun k => Cmod (vat v k))).
      { rewrite (rr_cons 0 L) by lia. change (0 + 1)%Z with 1%Z. pose proof (Cmod_ge_0 (vat v 0)). lra. }
      set (ev := Re (tau 0) + 2 * rsum (zrange 1 L) (fun k => Re (tau k * cis (2 * PI * IZR k * IZR t / IZR n))%C)).
      assert (S2 : Rabs (dv - ev) <= 2 * rsum (zrange 0 L) (fun k => Cmod (vat v k - tau k)%C)).
      { rewrite (rr_cons 0 L) by lia. change (0 + 1)%Z with 1%Z.
        assert (RE : forall z w : C, Re z - Re w = Re (z - w)%C) by (intros [] []; unfold Cminus, Cplus, Copp; cbn; ring).
        replace (dv - ev) with (Re (vat v 0 - tau 0)%C + 2 * rsum (zrange 1 L) (fun k => Re ((vat v k - tau k) * cis (2 * PI * IZR k * IZR t / IZR n))%C)).
        - eapply Rle_trans; [apply Rabs_triang|]. rewrite (Rabs_mult 2), (Rabs_right 2) by lra. pose proof (Re_le (vat v 0 - tau 0)%C) as W0.
          pose proof (rs_abs (zrange 1 L) (fun k => Re ((vat v k - tau k) * cis (2 * PI * IZR k * IZR t / IZR n))%C)) as W1.
          assert (W2 : rsum (zrange 1 L) (fun k => Rabs (Re ((vat v k - tau k) * cis (2 * PI * IZR k * IZR t / IZR n))%C)) <= rsum (zrange 1 L) (fun k => Cmod (vat v k - tau k)%C)).
          { apply rr_le. intros k Hk. eapply Rle_trans; [apply Re_le|]. rewrite Cmod_mult, Cmod_cis. lra. }
          pose proof (Cmod_ge_0 (vat v 0 - tau 0)%C). lra.
        - unfold dv, ev. rewrite <- RE.
          rewrite (rr_ext 1 L (fun k => Re ((vat v k - tau k) * cis (2 * PI * IZR k * IZR t / IZR n))%C)
             (fun k => Re (vat v k * cis (2 * PI * IZR k * IZR t / IZR n))%C + (-1) * Re (tau k * cis (2 * PI * IZR k * IZR t / IZR n))%C)).
          + rewrite rs_plus, rs_scal_l. ring.
          + intros k Hk. replace ((vat v k - tau k) * cis (2 * PI * IZR k * IZR t / IZR n))%C with (vat v k * cis (2 * PI * IZR k * IZR t / IZR n) - tau k * cis (2 * PI * IZR k * IZR t / IZR n))%C by ring.
            rewrite <- RE. ring. }
      replace (vat (f_irfft F v n) t - ev) with ((vat (f_irfft F v n) t - dv) + (dv - ev)) by ring. eapply Rle_trans; [apply Rabs_triang|].
      assert (S3 : eps * (Cmod (vat v 0) + 2 * rsum (zrange 1 L) (fun k => Cmod (vat v k))) <= eps * 3) by (apply Rmult_le_compat_l; lra).
      unfold wkbound, rho in *. rewrite mult_IZR, plus_IZR, mult_IZR in *.
      assert (X5 : u * IZR L * 5 <= u * (IZR L * (2 * IZR L + 3))) by (rewrite Rmult_assoc; apply Rmult_le_compat_l; nra). lra.
    Qed.
    (** exactly zero where the exact value is *)
    Lemma wvalue_zero : (l < Z.abs m \/ l < Z.abs o)%Z -> vat (f_irfft F v n) t = 0.
    Proof.
      intros Hout. specialize (HF v Hv t Ht). destruct Ha as (_ & HO & _).
      assert (C0 : forall z : C, cf_mul A (RtoC 0) z = RtoC 0).
      { intros z. unfold cf_mul, RtoC. cbn [fst snd]. rewrite !(proj1 (proj1 HZ _)), Ropp_0, (proj2 HZ). reflexivity. }
      assert (C1 : forall z : C, cf_mul A z (RtoC 0) = RtoC 0).
      { intros z. unfold cf_mul, RtoC. cbn [fst snd]. rewrite !(proj2 (proj1 HZ _)), Ropp_0, (proj2 HZ). reflexivity. }
      assert (T0 : forall k, (0 <= k < L)%Z -> vat v k = RtoC 0).
      { intros k Hk. rewrite Vv by exact Hk. unfold wterm_f, d1, d2. destruct (Z_lt_dec l (Z.abs m)).
        - rewrite (HO k m) by lia. now rewrite !C0.
        - rewrite (HO k o) by lia. now rewrite C1, !C0. }
      rewrite T0 in HF by lia. rewrite !(rr_0 1 L) in HF.
      - rewrite Cmod_0 in HF. cbn [Re RtoC fst] in HF. set (z := vat (f_irfft F v n) t) in *.
        assert (Q : Rabs (z - (0 + 2 * 0)) <= 0) by lra. pose proof (Rabs_pos (z - (0 + 2 * 0))) as P.
        assert (R : Rabs (z - (0 + 2 * 0)) = 0) by lra. destruct (Req_dec (z - (0 + 2 * 0)) 0) as [|N]; [lra|]. now apply Rabs_no_R0 in N.
      - intros k Hk. rewrite T0 by lia. apply Cmod_0.
      - intros k Hk. rewrite T0 by lia. rewrite Cmult_0_l. reflexivity.
    Qed.
  End Value.

  Lemma wf_slices_ok delta th0 N : (1 <= N <= L)%Z -> shape delta = [2 * L - 1; 2 * L - 1]%Z ->
    exists temp, wf_slices A F delta th0 L N = Ok temp /\ is_arr3 temp (2 * L - 1) (2 * L - 1) (2 * N - 1) (fun r i k =>
      cf_mul A (cf_mul A (cf_mul A (cf_mul A (RtoC (at2 delta r i)) (RtoC (at2 delta r (L - 1 + (1 - N) + k)%Z))) (f_ipow F (- (i - (L - 1))))) (f_ipow F (1 - N + k)))
        (pf_exp A (r - (L - 1)) th0)).
  Proof.
    intros HN SD. unfold wf_slices.
    destruct (take_last2_ok delta (2 * L - 1) (2 * L - 1) (at2 delta) (L - 1 + (1 - N)) (L - 1 + N) (conj SD (fun _ _ _ _ => eq_refl)) ltac:(lia) ltac:(lia)) as (dn & -> & _ & Hdn).
    cbn [bind]. eexists. split; [reflexivity|]. split; [reflexivity|]. intros r i k Hr Hi Hk. unfold at3. cbn [arr3 get nth]. rewrite Hdn by lia. reflexivity.
  Qed.
  Lemma wf_fourier_near name ths T N : kernel_nsamps name T = n -> vlen ths = T -> (0 < T <= n)%Z -> (1 <= N <= L)%Z ->
    Rabs (vat ths 0) <= 41 / 10 ->
    exists a, wf_fourier A F name ths L N = Ok a /\ wdl_near a N T L (fun t => vat ths 0 + 2 * PI * IZR t / IZR n) wkbound.
  Proof.
    intros EN HV HT HN Hth. unfold wf_fourier. rewrite HV, EN. cbv zeta. destruct (half_pi A u eta HA Hu He) as (_ & HP & HP4). set (b := fdiv A (fpi A) 2) in *.
    assert (HP5 : Rabs b <= 5) by (rewrite Rabs_right by lra; lra).
    assert (HB1 : fbound u L <= 1) by lra.
    destruct (foldM_inv (fun el st =>
        (if (el =? 0)%Z then arr_eq (fst st) (zeros 0%R [2 * L - 1; 2 * L - 1]%Z) else fholds L (el - 1) b (fst st) (fbound u (el - 1))) /\
        shape (snd st) = [2 * N - 1; T; L; 2 * L - 1]%Z /\ forall k t l i, (0 <= k < 2 * N - 1)%Z -> (0 <= t < T)%Z -> (0 <= l < el)%Z -> (0 <= i < 2 * L - 1)%Z ->
          if adm_b (k - (N - 1)) l (i - (L - 1)) then Rabs (at4 (snd st) k t l i - wigner_d l (i - (L - 1)) (k - (N - 1)) (vat ths 0 + 2 * PI * IZR t / IZR n)) <= wkbound
          else at4 (snd st) k t l i = 0)
      (fun st el =>
        let* delta := rf_full A (fst st) b L el in
        let* th0 := vread ths 0 in
        let* temp := wf_slices A F delta th0 L N in
        let* dl := el_set (snd st) el (arr3 (dim2 (planes_from temp (L - 1))) T (dim1 (planes_from temp (L - 1))) (fun k t m =>
           vat (f_irfft F (mkVec (dim0 (planes_from temp (L - 1))) (fun r => at3 (planes_from temp (L - 1)) r m k)) n) t)) in
        Ok (delta, dl)) 0 L (zeros 0%R [2 * L - 1; 2 * L - 1]%Z, zeros 0%R [2 * N - 1; T; L; 2 * L - 1]%Z)) as (st & E & H1 & H2 & H3).
    - lia.
    - cbn [fst snd]. split; [|split; [reflexivity|intros; lia]]. cbn [Z.eqb]. apply arr_eq_refl.
    - intros el [dls dl] Hel (H1 & H2 & H3). cbn [fst snd] in *.
      assert (SH : shape dls = [2 * L - 1; 2 * L - 1]%Z) by (destruct (el =? 0)%Z; exact (proj1 H1)).
      unfold rf_full. destruct (shape_dims _ _ SH) as [D0 D1]. unfold rf_arg_checks. rewrite D0, D1.
      replace ((0 <=? el) && (el <? L))%Z with true by lia. rewrite !Z.eqb_refl. cbn [negb andb].
      destruct (Rle_dec 0 b) as [r1|]; [|lra]. destruct (Rle_dec b (fpi A)) as [r2|]; [|lra]. cbn [bind].
      destruct (fstep_all A u eta L b el dls HA Hel HB1 HE HP5 H1) as (delta & -> & Ho). cbn [bind].
      assert (RD : vread ths 0 = Ok (vat ths 0)) by (unfold vread; rewrite HV, norm_in by lia; reflexivity).
      rewrite RD. cbn [bind]. destruct (wf_slices_ok delta (vat ths 0) N HN (proj1 Ho)) as (temp & -> & MT). cbn [bind].
      assert (M1 := planes_from_ok temp _ _ _ _ (L - 1) MT ltac:(lia)). set (half := planes_from temp (L - 1)) in *.
      destruct (is_arr3_dims _ _ _ _ _ M1) as (Q0 & Q1 & Q2). rewrite Q0, Q1, Q2.
      destruct (el_set_ok dl _ (2 * N - 1) T L (2 * L - 1) _ _ el (conj H2 (fun _ _ _ _ _ _ _ _ => eq_refl))
        (is_arr3_arr3 (2 * N - 1) T (2 * L - 1) (fun k t m => vat (f_irfft F (mkVec (2 * L - 1 - (L - 1)) (fun r => at3 half r m k)) n) t)) Hel) as (dl' & -> & Hd). cbn [bind].
      eexists. split; [reflexivity|]. cbn [fst snd]. split; [|split; [apply Hd|]].
      + replace (el + 1 =? 0)%Z with false by lia. replace (el + 1 - 1)%Z with el by lia. exact Ho.
      + intros k t l i Hk Ht Hl Hi. rewrite (proj2 Hd) by lia. destruct (Z.eqb_spec l el) as [->|].
        * set (v := mkVec (2 * L - 1 - (L - 1)) (fun r => at3 half r i k)).
          assert (VL : vlen v = L) by (cbn [v vlen]; lia).
          assert (VV : forall r, (0 <= r < L)%Z -> vat v r = wterm_f (k - (N - 1)) (i - (L - 1)) delta (vat ths 0) r).
          { intros r Hr. cbn [v vat]. etransitivity; [exact (proj2 M1 r i k ltac:(lia) ltac:(lia) ltac:(lia))|]. cbv beta. unfold wterm_f, at2.
            replace (L - 1 + r)%Z with (r + L - 1)%Z by lia. replace (L - 1 + (1 - N) + k)%Z with (k - (N - 1) + L - 1)%Z by lia.
            replace (1 - N + k)%Z with (k - (N - 1))%Z by lia. replace (i - (L - 1) + L - 1)%Z with i by lia.
            replace (r + L - 1 - (L - 1))%Z with r by lia. reflexivity. }
          destruct (adm_b (k - (N - 1)) el (i - (L - 1))) eqn:EA; unfold adm_b in EA.
          -- apply (wvalue_near el (k - (N - 1)) (i - (L - 1)) delta (vat ths 0) t Hel ltac:(lia) ltac:(lia) Ho Hth ltac:(lia) v VL VV); lia.
          -- apply (wvalue_zero el (k - (N - 1)) (i - (L - 1)) delta (vat ths 0) t Hel ltac:(lia) ltac:(lia) Ho ltac:(lia) v VL VV); lia.
        * apply H3; lia.
    - rewrite E. cbn [bind]. exists (snd st). split; [reflexivity|]. split; [exact H2|]. intros. apply H3; lia.
  Qed.
End Float.

Section Top.
  Variables (A : arith) (u eta : R).
  Hypothesis HA : rounded A u eta.
  Hypothesis HZ : zeros_exact A.
  Let u0 := rd_u _ _ _ HA.
  Let e0 := rd_eta _ _ _ HA.
  Variables (L N : Z) (eps : R).
  Hypothesis HN : (1 <= N <= L)%Z.
  Hypothesis HB : 2000 * u * (IZR L * (2 * IZR L + 3)) <= 1.
  Hypothesis HE : 4 * IZR L * eta <= u.
  Hypothesis Heps : 0 <= eps <= / 20.
  Definition kap4 : R := 960 * u * (IZR L * (2 * IZR L + 3)) + 12 * eps.
  Lemma kap4_range : 0 <= kap4 <= 2.
  Proof.
    assert (L1 : 1 <= IZR L) by (apply IZR_le; lia). assert (0 <= u * (IZR L * (2 * IZR L + 3))) by (apply Rmult_le_pos; [exact u0|]; nra). unfold kap4. lra.
  Qed.
  (** the rings of a scheme are equidistant *)
  Lemma equi_step s nodes t y0 y : s = MW \/ s = MWSS \/ s = DH -> colatitude nodes s L 0 0 y0 -> colatitude nodes s L 0 t y ->
    y = y0 + 2 * PI * IZR t / IZR (circle_points s L).
  Proof.
    assert (N0 : IZR L <> 0) by (apply not_0_IZR; lia). assert (N1 : IZR (2 * L - 1) <> 0) by (apply not_0_IZR; lia).
    intros [->|[->| ->]]; cbn [colatitude is_colatitude circle_points]; intros -> ->.
    - unfold mw_theta. change (2 * 0 + 1)%Z with 1%Z. rewrite plus_IZR, mult_IZR. field. exact N1.
    - unfold mwss_theta. rewrite mult_IZR. field. exact N0.
    - unfold dh_theta. change (2 * 0 + 1)%Z with 1%Z. rewrite plus_IZR, !mult_IZR. field. exact N0.
  Qed.
  Lemma nsamps_circle s : s = MW \/ s = MWSS \/ s = DH -> kernel_nsamps (scheme_name s) (rings s L 0) = circle_points s L /\ (0 < rings s L 0 <= circle_points s L)%Z.
  Proof.
    intros [->|[->| ->]]; cbn [rings]; unfold kernel_nsamps, circle_points; cbn [scheme_name];
      repeat match goal with |- context [streq ?a ?b] => let v := eval compute in (streq a b) in change (streq a b) with v end; cbv iota; lia.
  Qed.
  Lemma wf_kernel_fft_top s nodes gl F : s = MW \/ s = MWSS \/ s = DH -> irfft_accurate (f_irfft F) L (circle_points s L) eps ->
    ipow_accurate (f_ipow F) (2 * L) eps ->
    exists ths K x, pf_thetas A (scheme_name s) L gl = Ok ths /\ wf_kernel_fft A F (scheme_name s) ths L N = Ok K /\
      wk_near K N (rings s L 0) L x kap4 /\ wzero K N (rings s L 0) L /\
      forall t y, (0 <= t < rings s L 0)%Z -> colatitude nodes s L 0 t y -> Rabs (x t - y) <= 13 * u.
  Proof.
    intros Hsch HF HI. destruct (small A u eta HA L 0%Z eps ltac:(lia) HB HE Heps) as (S1 & S2 & S3 & S4 & L1 & S5). pose proof PI_4 as P4. pose proof PI_RGT_0 as P0.
    destruct (wf_thetas A u eta HA L N eps HN HB HE Heps s nodes gl Hsch) as (ths & E1 & E2 & E3). destruct (nsamps_circle s Hsch) as [EN RN].
    assert (C0 : exists y0, colatitude nodes s L 0 0 y0 /\ 0 <= y0 <= PI).
    { assert (I1 : 1 <= IZR (2 * L - 1)) by (apply IZR_le; lia).
      destruct Hsch as [->|[->| ->]]; cbn [colatitude is_colatitude].
      - exists (mw_theta L 0). split; [reflexivity|].
        apply (theta_err A u eta HA L 0%Z eps ltac:(lia) HB HE Heps 1 (2 * L - 1) (mw_theta L 0) ltac:(lia) ltac:(lia) ltac:(lia) eq_refl).
      - exists (mwss_theta L 0). split; [reflexivity|]. unfold mwss_theta. unfold Rdiv. rewrite Rmult_0_l. rewrite ?Rmult_0_l. lra.
      - exists (dh_theta L 0). split; [reflexivity|].
        apply (theta_err A u eta HA L 0%Z eps ltac:(lia) HB HE Heps 1 (4 * L) (dh_theta L 0) ltac:(lia) ltac:(lia) ltac:(lia) eq_refl). }
    destruct C0 as (y0 & C0 & Y0). pose proof (proj2 (E3 0%Z ltac:(lia)) y0 C0) as D0.
    assert (B0 : Rabs (vat ths 0) <= 41 / 10).
    { replace (vat ths 0) with (y0 + (vat ths 0 - y0)) by ring. eapply Rle_trans; [apply Rabs_triang|]. rewrite (Rabs_right y0) by lra. lra. }
    destruct (wf_fourier_near A u eta HA HZ S1 S2 F L (circle_points s L) eps ltac:(lia) ltac:(lia) S3 S4 Heps HF HI (scheme_name s) ths (rings s L 0) N EN E2 RN HN B0) as (a & E4 & H4).
    assert (X5 : 5 <= IZR L * (2 * IZR L + 3)) by nra. assert (U5 : u * 5 <= u * (IZR L * (2 * IZR L + 3))) by (now apply Rmult_le_compat_l).
    destruct (wf_normalise_near A u eta HA HZ S1 S2 a (rings s L 0) L N _ _ kap4 H4) as (K & E5 & H5 & H6).
    { unfold wkbound. rewrite mult_IZR, plus_IZR, mult_IZR. lra. }
    { unfold wkbound, kap4. rewrite mult_IZR, plus_IZR, mult_IZR. lra. }
    exists ths, K, (fun t => vat ths 0 + 2 * PI * IZR t / IZR (circle_points s L)). split; [exact E1|]. split; [|split; [exact H5|split; [exact H6|]]].
    - unfold wf_kernel_fft. destruct Hsch as [->|[->| ->]]; cbn [scheme_name] in *;
        repeat match goal with |- context [str_in ?a ?b] => let v := eval compute in (str_in a b) in change (str_in a b) with v end; cbv iota; rewrite E4; cbn [bind]; exact E5.
    - intros t y Ht C. rewrite (equi_step s nodes t y0 y Hsch C0 C).
      match goal with |- Rabs ?z <= _ => replace z with (vat ths 0 - y0) by ring end. exact D0.
  Qed.
End Top.
