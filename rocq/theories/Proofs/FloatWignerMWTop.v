(** The precomputed forward Wigner transform on the mw and mwss grids in rounded arithmetic, from the samples to the coefficients. *)
From Coq Require Import Reals Lra Lia ZifyBool Permutation List.
From Coquelicot Require Import Rcomplements Complex.
From Verif Require Import Lib.Py Lib.PyFacts Lib.Vec Lib.VecFacts Lib.Sums Lib.Cplx Lib.Arr Lib.ArrFacts Lib.MatFacts Model.Index Model.Samples Model.Quadrature Model.Resampling
  Model.RisboFloat Model.Spherical Model.Precompute Model.PrecomputeFloat Model.ForwardFloat Model.ResamplingFloat Model.ForwardMWFloat
  Model.Wigner Model.FourierWigner Model.PrecomputeWigner Model.WignerFloat Model.WignerForwardFloat Model.WignerForwardMWFloat
  Spec.SamplesSpec Spec.WignerSpec Spec.SphereSpec Spec.GridSpec Spec.SphericalSpec Spec.SO3Spec Spec.RoundingSpec Spec.PrecomputeFloatSpec Spec.ForwardFloatSpec Spec.ResamplingFloatSpec
  Spec.WignerFloatSpec Spec.WignerForwardFloatSpec
  Proofs.QuadProofs Proofs.RisboProofs Proofs.SphGrid Proofs.SpectralBound Proofs.RisboFloatProofs Proofs.FloatKernel Proofs.FloatInverse Proofs.FloatFourier Proofs.CBackendBound
  Proofs.SphereTheory Proofs.ResamplingFacts Proofs.WignerInverse Proofs.PWKernel Proofs.PWForward
  Proofs.FloatTop Proofs.FloatForward Proofs.FloatForwardTop Proofs.FloatMWWeights Proofs.L2Norm Proofs.FloatResampling Proofs.FloatResamplingTop Proofs.FloatMWForward Proofs.FloatMWTop
  Proofs.FloatWigner Proofs.FloatWignerFourier Proofs.FloatWignerForward Proofs.FloatWignerForwardTop Proofs.FloatWignerMW.
Import ListNotations.
Open Scope R_scope.

Section Top.
  Variables (A : arith) (u eta : R).
  Hypothesis HA : rounded A u eta.
  Hypothesis HZ : zeros_exact A.
  Let u0 : 0 <= u := rd_u _ _ _ HA.
  Let e0 : 0 <= eta := rd_eta _ _ _ HA.
  Variables (L N : Z) (eps : R).
  Hypothesis HN : (2 <= N <= L)%Z.
  Hypothesis HB : 2000 * u * (IZR L * (2 * IZR L + 3)) <= 1.
  Hypothesis HE : 4 * IZR L ^ 3 * eta <= u.
  Hypothesis Heps : 0 <= eps <= / 100.
  Let X := IZR L * (2 * IZR L + 3).
  Let T := (2 * L + 1)%Z.
  Let M := sqrt (IZR T * IZR (2 * L)).
  Local Lemma HN1 : (1 <= N <= L)%Z.
  Proof. lia. Qed.
  Local Lemma Heps' : 0 <= eps <= / 20.
  Proof. lra. Qed.

  (** ** The kernel *)
  Lemma xm_thetas gl : exists ths, pf_thetas A "mwss" (2 * L) gl = Ok ths /\ vlen ths = T /\
    forall t, (0 <= t < T)%Z -> Rabs (vat ths t - mwss_theta (2 * L) t) <= 13 * u /\ Rabs (vat ths t) <= 41 / 10.
  Proof.
    destruct (xf_bounds A u eta HA L N HN1 HB HE) as (L1 & UX & U5 & U2 & U1 & UB & Hu & HE2 & HE1 & HE0 & HEN & UL & FB & H2L).
    unfold pf_thetas. repeat match goal with |- context [streq ?a ?b] => let v := eval compute in (streq a b) in change (streq a b) with v end. cbv iota.
    eexists. split; [reflexivity|]. split; [reflexivity|]. cbn [vat]. intros t Ht.
    destruct (theta_err A u eta HA L 0%Z eps ltac:(lia) HB HE1 Heps' (2 * t) (2 * (2 * L)) (mwss_theta (2 * L) t)) as [H1 H2]; unfold T in *; try lia.
    { unfold mwss_theta. rewrite !mult_IZR. field. lra. }
    split; [exact H1|]. set (z := fdiv A _ _) in *. replace z with (mwss_theta (2 * L) t + (z - mwss_theta (2 * L) t)) by ring. eapply Rle_trans; [apply Rabs_triang|].
    rewrite (Rabs_right (mwss_theta (2 * L) t)) by lra. pose proof PI_4. lra.
  Qed.
  Lemma xm_share : eta <= u * (mwss_share L * cN N).
  Proof.
    destruct (xf_bounds A u eta HA L N HN1 HB HE) as (L1 & UX & U5 & U2 & U1 & UB & Hu & HE2 & HE1 & HE0 & HEN & UL & FB & H2L).
    assert (L3 : 0 < IZR L ^ 3) by (apply pow_lt; lra). pose proof PI2_3_2 as P. assert (P1 : 3 < PI) by lra.
    assert (M2 : 0 < IZR (2 * N - 1) <= 2 * IZR L) by (split; [apply IZR_lt; lia|rewrite <- mult_IZR; apply IZR_le; lia]).
    assert (W : / IZR L ^ 3 <= mwss_share L * cN N).
    { unfold mwss_share, cN. replace (9 * PI / (2 * (IZR L * IZR L)) * (2 * PI / IZR (2 * N - 1))) with (9 * (PI * PI) * / (IZR L * IZR L * IZR (2 * N - 1))) by (field; repeat split; lra).
      assert (Q : / (2 * IZR L ^ 3) <= / (IZR L * IZR L * IZR (2 * N - 1))).
      { apply Rinv_le_contravar; [repeat apply Rmult_lt_0_compat; lra|]. replace (2 * IZR L ^ 3) with (IZR L * IZR L * (2 * IZR L)) by ring. apply Rmult_le_compat_l; nra. }
      assert (I0 : 0 < / (2 * IZR L ^ 3)) by (apply Rinv_0_lt_compat; lra).
      replace (/ IZR L ^ 3) with (2 * / (2 * IZR L ^ 3)) by (field; lra). apply Rmult_le_compat; try lra. nra. }
    apply Rle_trans with (u * / IZR L ^ 3); [|now apply Rmult_le_compat_l].
    apply (Rmult_le_reg_r (IZR L ^ 3)); [exact L3|]. rewrite Rmult_assoc, Rinv_l by lra. assert (0 <= IZR L ^ 3 * eta) by (apply Rmult_le_pos; lra). lra.
  Qed.
  Lemma share_nonneg : 0 <= mwss_share L.
  Proof.
    unfold mwss_share. pose proof PI_RGT_0. assert (1 <= IZR L) by (apply IZR_le; lia). apply Rdiv_le_0_compat; [lra|nra].
  Qed.
  Lemma xm_weigh fft a x ths wgl b : fft_accurate fft (4 * L) eps -> wdl_near a N T L x b -> 0 <= b <= / 2 + 11 * eps ->
    (forall t, (0 <= t < T)%Z -> Rabs (x t - mwss_theta (2 * L) t) <= 13 * u) ->
    exists w KW, mf_weights A fft "mwss" L ths wgl = Ok w /\ xf_weigh A a w N = Ok KW /\
      w3_near KW N T L (mwss_theta (2 * L)) (mwss_weight L) (fun _ => mwss_share L) (b + 15 * (u * X) + 28 / 10 * eps).
  Proof.
    intros HFF Ha Hb Hx. destruct (xf_bounds A u eta HA L N HN1 HB HE) as (L1 & UX & U5 & U2 & U1 & UB & Hu & HE2 & HE1 & HE0 & HEN & UL & FB & H2L).
    destruct (mwss_weights_near A u eta HA Hu HE0 fft L eps ths wgl ltac:(lia) HE2 Heps' HFF) as (wf & EW & Wl & W).
    assert (H2 := wdl_move a N T L x (mwss_theta (2 * L)) b (13 * u) Ha ltac:(lia) ltac:(lra) Hx).
    fold X in UX, U5, U2, U1, UB.
    destruct (xf_weigh_near A u eta HA HZ Hu HE0 a N T L (mwss_theta (2 * L)) _ wf (mwss_weight L) (fun _ => mwss_share L) (15 * u + 14 / 10 * eps) H2 ltac:(lia) HEN Wl) as (KW & E & H).
    - split; [|lra]. assert (0 <= IZR L * (13 * u)) by (apply Rmult_le_pos; lra). lra.
    - split; lra.
    - intros t Ht. destruct (W t Ht) as (W1 & W2 & W3). split; [exact W1|]. split; [exact W2|]. split; [exact W3|]. apply xm_share.
    - exists wf, KW. split; [exact EW|]. split; [exact E|]. apply (w3_weaken _ _ _ _ _ _ _ _ _ H); [lia| |intros; apply share_nonneg]. lra.
  Qed.
  Lemma xm_direct fft s gl wgl : mwx s -> fft_accurate fft (4 * L) eps ->
    exists KW, xm_kernel A fft (scheme_name s) gl wgl L N = Ok KW /\
      w3_near KW N T L (mwss_theta (2 * L)) (mwss_weight L) (fun _ => mwss_share L) (215 * (u * X) + 28 / 10 * eps).
  Proof.
    intros Hm HFF. destruct (xf_bounds A u eta HA L N HN1 HB HE) as (L1 & UX & U5 & U2 & U1 & UB & Hu & HE2 & HE1 & HE0 & HEN & UL & FB & H2L).
    destruct (xm_thetas gl) as (ths & E1 & El & Ht). unfold xm_kernel, mf_thetas. rewrite (scheme_in s Hm), E1. cbn [bind].
    destruct (wf_direct_near A u eta HA ths T L N HN1 El ltac:(unfold T; lia) ltac:(lra) H2L ltac:(intros t Ht'; specialize (Ht t Ht'); lra)) as (a & E4 & Sa & Ha).
    assert (Ha' : wdl_near a N T L (vat ths) (200 * (u * X))).
    { split; [exact Sa|]. intros k t l i Hk Ht' Hl Hi. specialize (Ha k t l i Hk Ht' Hl Hi). destruct (adm_b _ _ _); [|exact Ha]. eapply Rle_trans; [exact Ha|].
      unfold X. rewrite <- FB. unfold fbound. apply Rmult_le_compat_l; [lra|]. apply IZR_le. apply Z.mul_le_mono_nonneg; lia. }
    fold X in UX, U5, U2, U1, UB. rewrite E4. cbn [bind].
    destruct (xm_weigh fft a (vat ths) ths wgl _ HFF Ha' ltac:(split; lra) ltac:(intros t Ht'; apply Ht, Ht')) as (w & KW & E5 & E6 & H6).
    rewrite E5. cbn [bind]. exists KW. split; [exact E6|]. apply (w3_weaken _ _ _ _ _ _ _ _ _ H6); [lia|lra|intros; apply share_nonneg].
  Qed.
  Lemma xm_fourier F fft s gl wgl : mwx s -> fft_accurate fft (4 * L) eps -> irfft_accurate (f_irfft F) L (4 * L) eps -> ipow_accurate (f_ipow F) (2 * L) eps ->
    exists KW, xm_kernel_fft A F fft (scheme_name s) gl wgl L N = Ok KW /\
      w3_near KW N T L (mwss_theta (2 * L)) (mwss_weight L) (fun _ => mwss_share L) (922 * (u * X) + 135 / 10 * eps).
  Proof.
    intros Hm HFF HF HI. destruct (xf_bounds A u eta HA L N HN1 HB HE) as (L1 & UX & U5 & U2 & U1 & UB & Hu & HE2 & HE1 & HE0 & HEN & UL & FB & H2L).
    destruct (xm_thetas gl) as (ths & E1 & El & Ht). unfold xm_kernel_fft, mf_thetas. rewrite (scheme_in s Hm), E1.
    replace (str_in (lower (scheme_name s)) ["mw"; "mwss"; "dh"]%string) with true by (destruct Hm as [->| ->]; reflexivity). cbn [bind].
    assert (Hn2 : kernel_nsamps "mwss" T = (4 * L)%Z).
    { unfold kernel_nsamps, T. repeat match goal with |- context [streq ?a ?b] => let v := eval compute in (streq a b) in change (streq a b) with v end. cbv iota. lia. }
    destruct (wf_fourier_near A u eta HA HZ Hu HE0 F L (4 * L) eps ltac:(lia) ltac:(lia) ltac:(lra) H2L Heps' HF HI "mwss" ths T N Hn2 El ltac:(unfold T; lia) HN1
      ltac:(apply Ht; unfold T; lia)) as (a & E4 & H4).
    assert (Ha' : wdl_near a N T L (fun t => vat ths 0 + 2 * PI * IZR t / IZR (4 * L)) (907 * (u * X) + 107 / 10 * eps)).
    { apply (wdl_weaken _ _ _ _ _ _ _ H4). unfold wkbound, X. rewrite mult_IZR, plus_IZR, mult_IZR. lra. }
    fold X in UX, U5, U2, U1, UB. rewrite E4. cbn [bind].
    destruct (xm_weigh fft a _ ths wgl _ HFF Ha' ltac:(split; lra)) as (w & KW & E5 & E6 & H6).
    { intros t Ht'. assert (Q := proj1 (Ht 0%Z ltac:(unfold T; lia))). replace (mwss_theta (2 * L) 0) with 0 in Q by (unfold mwss_theta; field; apply (IZR_neq _ 0); lia).
      replace (vat ths 0 + 2 * PI * IZR t / IZR (4 * L) - mwss_theta (2 * L) t) with (vat ths 0 - 0); [exact Q|]. unfold mwss_theta. rewrite !mult_IZR. field. lra. }
    rewrite E5. cbn [bind]. exists KW. split; [exact E6|]. apply (w3_weaken _ _ _ _ _ _ _ _ _ H6); [lia|lra|intros; apply share_nonneg].
  Qed.

  (** ** The planes *)
  Variable S : rffts.
  Hypothesis HS1 : transforms_accurate S (2 * L - 1) eps.
  Hypothesis HS2 : transforms_accurate S (2 * L) eps.
  Hypothesis HS4 : transforms_accurate S (4 * L) eps.
  Local Lemma HE2 : 4 * (IZR L * IZR L) * eta <= u.
  Proof. destruct (xf_bounds A u eta HA L N HN1 HB HE) as (L1 & UX & U5 & U2 & U1 & UB & Hu & HE2 & _). exact HE2. Qed.
  Let K := IZR (2 * N - 1).

  Lemma one_plane s c a n sz d : mwx s -> (- N < n < N)%Z -> shape a = [rings s L 0; per_ring s L]%Z -> 0 <= sz -> 0 <= d ->
    let G := synth L (- n) (plane_coefs N n (c n)) in
    (forall th phi, Cmod (G th phi) <= sz) ->
    (forall t p, (0 <= t < rings s L 0)%Z -> (0 <= p < per_ring s L)%Z -> Cmod (get a [t; p] - G (mwx_theta s L t) (equi_longitude s L p))%C <= d) ->
    exists g h e', (if streq (scheme_name s) "mw" then rs_mw_to_mwss A S a L (- n) else Ok a) = Ok g /\ shape g = [L + 1; 2 * L]%Z /\
      rs_upsample A S g L (- n) = Ok h /\ shape h = [T; 2 * L]%Z /\
      (forall t p, (0 <= t < T)%Z -> (0 <= p < 2 * L)%Z -> get e' [t; p] = G (mwss_theta (2 * L) t) (2 * PI * IZR p / IZR (2 * L))) /\
      l2_map T (2 * L) (at2 e') <= M * sz /\
      l2_map T (2 * L) (fun t p => at2 h t p - at2 e' t p)%C <= M * (10 * d + (68 * eps + 613 * u) * sz + 192 * (IZR L * eta)).
  Proof.
    intros Hm Hn Ha sz0 d0 G HG Hd. destruct (xf_bounds A u eta HA L N HN1 HB HE) as (L1 & UX & U5 & U2 & U1 & UB & Hu & _ & HE1 & _).
    assert (PR : (0 < rings s L 0)%Z /\ (0 < per_ring s L)%Z) by (destruct Hm as [->| ->]; cbn [rings per_ring]; lia).
    set (e := mat (rings s L 0) (per_ring s L) (fun t p => G (mwx_theta s L t) (equi_longitude s L p))).
    assert (RL : rel a e (rings s L 0) (per_ring s L) (sqrt (IZR (rings s L 0) * IZR (per_ring s L)) * sz) (sqrt (IZR (rings s L 0) * IZR (per_ring s L)) * d)).
    { split; [exact Ha|]. split; [reflexivity|]. split; apply map_sup; try lia; try assumption. intros t p _ _. unfold at2, e. cbn [get mat nth]. apply HG. }
    destruct (resample_near A u eta HA S L (- n) eps ltac:(lia) ltac:(lia) HB HE2 Heps HS1 HS2 HS4 s a e sz d Hm RL sz0 d0) as (h & e' & E1 & E2 & G1 & G2 & G3 & G4).
    assert (SA : sampled e' T (2 * L) (mwss_theta (2 * L)) (mwss_phi L) G).
    { assert (BL : band_limited L (- n) G) by apply synth_band_limited. unfold doubled in E2. destruct Hm as [->| ->]; cbn [scheme_name] in E2.
      - change (streq "mw" "mw") with true in E2. cbv iota in E2.
        destruct (C16_lemma numpy L (- n) G e ltac:(lia) BL) as (e2 & Q2 & Sa2); [split; reflexivity|]. rewrite Q2 in E2. cbn [bind] in E2.
        destruct (C17_lemma numpy L (- n) G e2 ltac:(lia) BL Sa2) as (e3 & Q3 & Sa3). rewrite Q3 in E2. injection E2 as <-. exact Sa3.
      - change (streq "mwss" "mw") with false in E2. cbv iota in E2. cbn [bind] in E2.
        destruct (C17_lemma numpy L (- n) G e ltac:(lia) BL) as (e3 & Q3 & Sa3); [split; reflexivity|]. rewrite Q3 in E2. injection E2 as <-. exact Sa3. }
    destruct SA as [_ SA].
    assert (GG : exists g, (if streq (scheme_name s) "mw" then rs_mw_to_mwss A S a L (- n) else Ok a) = Ok g /\ shape g = [L + 1; 2 * L]%Z).
    { destruct Hm as [->| ->]; cbn [scheme_name].
      - change (streq "mw" "mw") with true. cbv iota. destruct (mw_to_mwss_near A u eta HA Hu S L (- n) eps ltac:(lia) Heps a e _ _ HS1 HS2 HE1 RL) as (g & e2 & Q1 & _ & R2).
        exists g. split; [exact Q1|exact (proj1 R2)].
      - change (streq "mwss" "mw") with false. cbv iota. exists a. split; [reflexivity|exact Ha]. }
    destruct GG as (g & EG & SG). rewrite EG in E1. cbn [bind] in E1. exists g, h, e'. do 4 (split; [assumption|]). split; [|split; [|exact G4]].
    - intros t p Ht Hp. rewrite SA by assumption. reflexivity.
    - apply map_sup; unfold T; try lia; try assumption. intros t p Ht Hp. unfold at2. rewrite SA by assumption. apply HG.
  Qed.

  Lemma xm_core s fftg fftp o f KW kap K1 c d : mwx s -> shape f = [2 * N - 1; rings s L 0; per_ring s L]%Z -> sums_all o T -> 0 <= kap <= 2 ->
    fft_accurate fftg (2 * N - 1) eps -> fft_accurate fftp (2 * L) eps -> (forall t, (0 <= t < T)%Z -> Rabs (mwss_weight L t) <= mwss_share L) ->
    w3_near KW N T L (mwss_theta (2 * L)) (mwss_weight L) (fun _ => mwss_share L) kap -> (203 / 100) * (kap + 9 * (u * X)) + eps <= K1 ->
    (forall g t p, (0 <= g < 2 * N - 1)%Z -> (0 <= t < rings s L 0)%Z -> (0 <= p < per_ring s L)%Z ->
      Cmod (get f [g; t; p] - so3_synth L N c (equi_longitude s L p) (mwx_theta s L t) (2 * PI * IZR g / IZR (2 * N - 1)))%C <= d) ->
    exists flmn, xm_forward A S fftg fftp o f KW L N (scheme_name s) = Ok flmn /\ shape flmn = [2 * N - 1; L; 2 * L - 1]%Z /\
      forall n l m, (- N < n < N)%Z -> (0 <= l < L)%Z -> (- L < m < L)%Z ->
        ((Z.abs m <= l)%Z -> (Z.abs n <= l)%Z -> Cmod (stored3 L N flmn n l m - c n l m)%C <=
          54 * PI ^ 2 * (K1 * (so3_size L N c + (101 / 10 * d + (78 * eps + 123 * (u * X)) * so3_size L N c + 192 * (IZR L * eta))) +
            (101 / 10 * d + (78 * eps + 123 * (u * X)) * so3_size L N c + 192 * (IZR L * eta)) + IZR L * eta)) /\
        ((l < Z.abs m \/ l < Z.abs n)%Z -> stored3 L N flmn n l m = RtoC 0).
  Proof.
    intros Hm Hf Ho Hk HG HP HV HK HK1 Hd. destruct (xf_bounds A u eta HA L N HN1 HB HE) as (L1 & UX & U5 & U2 & U1 & UB & Hu & _ & HE1 & HE0 & HEN & UL & FB & H2L).
    fold X in UX, U5, U2, U1, UB.
    assert (PR : (0 < rings s L 0)%Z /\ (0 < per_ring s L)%Z) by (destruct Hm as [->| ->]; cbn [rings per_ring]; lia).
    set (Sz := so3_size L N c). assert (S0 : 0 <= Sz) by apply so3_size_nonneg.
    assert (d0 : 0 <= d) by (eapply Rle_trans; [apply Cmod_ge_0|apply (Hd 0%Z 0%Z 0%Z); lia]).
    assert (K3 : 3 <= K) by (unfold K; apply IZR_le; lia).
    destruct (gamma_fft fftg N (rings s L 0) (per_ring s L) f eps ltac:(lia) ltac:(lia) ltac:(lia) Hf HG) as (a & EA & Sa & Ga).
    set (dg := K * (eps * (Sz + d) + d)). assert (dg0 : 0 <= dg) by (unfold dg; apply Rmult_le_pos; [lra|]; assert (0 <= eps * (Sz + d)) by (apply Rmult_le_pos; lra); lra).
    assert (KS0 : 0 <= K * Sz) by (apply Rmult_le_pos; lra).
    assert (Gd : forall n t p, (- N < n < N)%Z -> (0 <= t < rings s L 0)%Z -> (0 <= p < per_ring s L)%Z ->
      Cmod (get a [n + N - 1; t; p]%Z - synth L (- n) (plane_coefs N n (c n)) (mwx_theta s L t) (equi_longitude s L p))%C <= dg).
    { intros n t p Hn Ht Hp. rewrite <- plane_synth by lia. set (q := csum _ _). specialize (Ga n t p Hn Ht Hp).
      replace (get a [n + N - 1; t; p]%Z - q)%C with ((get a [n + N - 1; t; p]%Z - gam N f n t p) + (gam N f n t p - q))%C by ring.
      eapply Rle_trans; [apply Cmod_triangle|]. unfold dg. rewrite Rmult_plus_distr_l. apply Rplus_le_compat.
      - eapply Rle_trans; [exact Ga|]. replace (K * (eps * (Sz + d))) with (eps * (K * (Sz + d))) by ring. apply Rmult_le_compat_l; [lra|].
        unfold K. rewrite <- (sum_const (2 * N - 1) (Sz + d)) by lia. apply rr_le. intros g Hg. specialize (Hd g t p Hg Ht Hp).
        set (z := so3_synth L N c _ _ _) in *. replace (get f [g; t; p]) with (z + (get f [g; t; p] - z))%C by ring. eapply Rle_trans; [apply Cmod_triangle|].
        apply Rplus_le_compat; [apply so3_synth_size|exact Hd].
      - unfold gam, q. rewrite <- cs_minus. unfold K. rewrite <- (sum_const (2 * N - 1) d) by lia. apply csum_le. intros g Hg. apply in_zrange in Hg.
        match goal with |- Cmod (?x * ?y - ?z * ?y)%C <= _ => replace (x * y - z * y)%C with ((x - z) * y)%C by ring end. rewrite Cmod_mult, Cmod_cis, Rmult_1_r. now apply Hd. }
    (* the planes *)
    assert (OP : forall k, (0 <= k < 2 * N - 1)%Z -> let n := (k - (N - 1))%Z in exists g h e',
      (if streq (scheme_name s) "mw" then rs_mw_to_mwss A S (pl a k) L (- (1 - N + k)) else Ok (pl a k)) = Ok g /\ shape g = [L + 1; 2 * L]%Z /\
      rs_upsample A S g L (- (1 - N + k)) = Ok h /\ shape h = [T; 2 * L]%Z /\
      (forall t p, (0 <= t < T)%Z -> (0 <= p < 2 * L)%Z -> get e' [t; p] = synth L (- n) (plane_coefs N n (c n)) (mwss_theta (2 * L) t) (2 * PI * IZR p / IZR (2 * L))) /\
      l2_map T (2 * L) (at2 e') <= M * (K * Sz) /\
      l2_map T (2 * L) (fun t p => at2 h t p - at2 e' t p)%C <= M * (10 * dg + (68 * eps + 613 * u) * (K * Sz) + 192 * (IZR L * eta))).
    { intros k Hk' n. replace (- (1 - N + k))%Z with (- n)%Z by (unfold n; lia). apply one_plane; try assumption.
      - unfold n. lia.
      - unfold pl. cbn [shape]. rewrite Sa. reflexivity.
      - intros th phi. apply plane_size; unfold n; lia.
      - intros t p Ht Hp. unfold pl. cbn [get]. replace k with (n + N - 1)%Z by (unfold n; lia). apply Gd; try assumption. unfold n. lia. }
    assert (ST : exists r1 r2, (if streq (lower (scheme_name s)) "mw" then map_planes (fun k p => rs_mw_to_mwss A S p L (- (1 - N + k))) a else Ok a) = Ok r1 /\
      map_planes (fun k p => rs_upsample A S p L (- (1 - N + k))) r1 = Ok r2 /\ shape r2 = [2 * N - 1; T; 2 * L]%Z /\
      forall k, (0 <= k < 2 * N - 1)%Z -> let n := (k - (N - 1))%Z in exists e',
        (forall t p, (0 <= t < T)%Z -> (0 <= p < 2 * L)%Z -> get e' [t; p] = synth L (- n) (plane_coefs N n (c n)) (mwss_theta (2 * L) t) (2 * PI * IZR p / IZR (2 * L))) /\
        l2_map T (2 * L) (at2 e') <= M * (K * Sz) /\
        l2_map T (2 * L) (fun t p => at2 (pl r2 k) t p - at2 e' t p)%C <= M * (10 * dg + (68 * eps + 613 * u) * (K * Sz) + 192 * (IZR L * eta))).
    { assert (R1 : exists r1, (if streq (lower (scheme_name s)) "mw" then map_planes (fun k p => rs_mw_to_mwss A S p L (- (1 - N + k))) a else Ok a) = Ok r1 /\
        shape r1 = [2 * N - 1; L + 1; 2 * L]%Z /\ forall k, (0 <= k < 2 * N - 1)%Z ->
          (if streq (scheme_name s) "mw" then rs_mw_to_mwss A S (pl a k) L (- (1 - N + k)) else Ok (pl a k)) = Ok (pl r1 k)).
      { destruct Hm as [->| ->]; cbn [scheme_name rings per_ring] in *.
        - change (streq (lower "mw") "mw") with true. change (streq "mw" "mw") with true in *. cbv iota in *.
          apply (map_planes_ok (fun k p => rs_mw_to_mwss A S p L (- (1 - N + k))) a (2 * N - 1) [L; 2 * L - 1]%Z [L + 1; 2 * L]%Z Sa ltac:(lia)).
          intros k Hk'. destruct (OP k Hk') as (g & _ & _ & Q1 & Q2 & _). exists g. split; assumption.
        - change (streq (lower "mwss") "mw") with false. change (streq "mwss" "mw") with false. cbv iota. exists a. repeat split; assumption. }
      destruct R1 as (r1 & E1 & Sr1 & Gr1). exists r1.
      destruct (map_planes_ok (fun k p => rs_upsample A S p L (- (1 - N + k))) r1 (2 * N - 1) [L + 1; 2 * L]%Z [T; 2 * L]%Z Sr1 ltac:(lia)) as (r2 & E2 & Sr2 & Gr2).
      { intros k Hk'. destruct (OP k Hk') as (g & h & _ & Q1 & _ & Q3 & Q4 & _). rewrite (Gr1 k Hk') in Q1. injection Q1 as <-. exists h. split; assumption. }
      exists r2. split; [exact E1|]. split; [exact E2|]. split; [exact Sr2|]. intros k Hk' n.
      destruct (OP k Hk') as (g & h & e' & Q1 & _ & Q3 & _ & Q5 & Q6 & Q7). rewrite (Gr1 k Hk') in Q1. injection Q1 as <-. rewrite (Gr2 k Hk') in Q3. injection Q3 as <-.
      exists e'. repeat split; assumption. }
    destruct ST as (r1 & r2 & E1 & E2 & Sr2 & HR).
    assert (SQ : squeeze0 r2 = r2) by (unfold squeeze0, dim0; rewrite Sr2; cbn [nth]; replace (2 * N - 1 =? 1)%Z with false by lia; reflexivity).
    assert (TE : IZR T = 2 * IZR L + 1) by (unfold T; now rewrite plus_IZR, mult_IZR).
    destruct (xm_rings_near A u eta HA HZ Hu fftp o r2 KW L N T (mwss_theta (2 * L)) (mwss_weight L) (fun _ => mwss_share L) kap eps HN1 ltac:(unfold T; lia) Sr2 Ho Hk ltac:(rewrite TE; lra) Heps HP HV HK)
      as (flmn & E3 & Sh & H).
    exists flmn. split.
    { unfold xm_forward. rewrite (scheme_in s Hm). cbn [bind]. rewrite EA. unfold dim0. rewrite Sa. cbn [nth]. rewrite Z.eqb_refl. cbn [bind]. rewrite E1. cbn [bind]. rewrite E2. cbn [bind].
      rewrite SQ. exact E3. }
    split; [exact Sh|]. intros n l m Hn Hl Hmm. destruct (H n l m Hn Hl Hmm) as [H1 H0]. split; [|exact H0]. intros M1 M2.
    destruct (HR (n + N - 1)%Z ltac:(lia)) as (e' & Q5 & Q6 & Q7). cbv zeta in Q5. replace (n + N - 1 - (N - 1))%Z with n in Q5 by lia.
    set (h := pl r2 (n + N - 1)) in *.
    assert (QE := plane_quadrature L N c n l m (mwss_weight L) (mwss_theta (2 * L)) T e' HN1 Hn Hl Hmm M2 M1 (fun k Hk => mwss_weight_exact L k ltac:(lia) Hk) Q5).
    set (D := 101 / 10 * d + (78 * eps + 123 * (u * X)) * Sz + 192 * (IZR L * eta)).
    assert (LE : 0 <= IZR L * eta) by (apply Rmult_le_pos; lra). assert (US : 0 <= u * X * Sz) by (now apply Rmult_le_pos). assert (ES : 0 <= eps * Sz) by (apply Rmult_le_pos; lra).
    assert (D0 : 0 <= D) by (unfold D; lra).
    assert (DD : 10 * dg + (68 * eps + 613 * u) * (K * Sz) + 192 * (IZR L * eta) <= K * D).
    { unfold dg, D. assert (X1 : u * Sz <= 1 / 5 * (u * X * Sz)) by (replace (1 / 5 * (u * X * Sz)) with ((1 / 5 * (u * X)) * Sz) by ring; apply Rmult_le_compat_r; lra).
      assert (X2 : eps * d <= 1 / 100 * d) by (apply Rmult_le_compat_r; lra). assert (X3 : 192 * (IZR L * eta) <= K * (192 * (IZR L * eta))) by nra.
      apply Rle_trans with (K * (10 * (eps * (Sz + d) + d) + (68 * eps + 613 * u) * Sz + 192 * (IZR L * eta))); [lra|]. apply Rmult_le_compat_l; [lra|]. lra. }
    assert (M0 : 0 <= M) by apply sqrt_pos.
    assert (Q7' : l2_map T (2 * L) (fun t p => at2 h t p - at2 e' t p)%C <= M * (K * D)) by (eapply Rle_trans; [exact Q7|]; now apply Rmult_le_compat_l).
    assert (D1 := share_size L 0 ltac:(lia) ltac:(lia) (mkArr [T; 2 * L]%Z (fun ix => get h ix - get e' ix)%C) (K * D) Q7').
    assert (D2 : weighted_size T (2 * L) (fun _ => mwss_share L) h <= 27 * PI * (K * (Sz + D))).
    { apply (share_size L 0 ltac:(lia) ltac:(lia)). fold T M. rewrite Rmult_plus_distr_l, Rmult_plus_distr_l. eapply Rle_trans; [|apply Rplus_le_compat; [exact Q6|exact Q7']]. eapply Rle_trans; [|apply map_triang].
      right. apply map_ext. intros. ring. }
    fold T in D1. set (q := csum (zrange 0 T) (fun t => RtoC (wigner_d l m n (mwss_theta (2 * L) t) * mwss_weight L t * cN N) * dft_of (2 * L) h t m)%C) in *.
    pose proof (cN_pos N ltac:(lia)) as C0.
    assert (E4 : Cmod (q - c n l m)%C <= cN N * (27 * PI * (K * D))).
    { rewrite <- QE. eapply Rle_trans; [|apply Rmult_le_compat_l; [lra|exact D1]]. unfold q. rewrite <- cs_minus. unfold weighted_size. rewrite <- rs_scal_l. apply csum_le. intros t Ht. apply in_zrange in Ht.
      replace (RtoC (wigner_d l m n (mwss_theta (2 * L) t) * mwss_weight L t * cN N) * dft_of (2 * L) h t m - RtoC (wigner_d l m n (mwss_theta (2 * L) t) * mwss_weight L t * cN N) * dft_of (2 * L) e' t m)%C
        with (RtoC (wigner_d l m n (mwss_theta (2 * L) t) * mwss_weight L t * cN N) * (dft_of (2 * L) h t m - dft_of (2 * L) e' t m))%C by ring.
      rewrite Cmod_mult, Cmod_R. rewrite <- Rmult_assoc. apply Rmult_le_compat; [apply Rabs_pos|apply Cmod_ge_0| |].
      - rewrite !Rabs_mult, (Rabs_right (cN N)) by lra. rewrite (Rmult_comm (cN N)). apply Rmult_le_compat_r; [lra|]. pose proof (wigner_le1 l m n (mwss_theta (2 * L) t)).
        rewrite <- (Rmult_1_l (mwss_share L)). apply Rmult_le_compat; try apply Rabs_pos; [assumption|now apply HV].
      - unfold dft_of. rewrite <- cs_minus. apply csum_le. intros p Hp. cbn [get].
        match goal with |- Cmod (?x * ?y - ?z * ?y)%C <= _ => replace (x * y - z * y)%C with ((x - z) * y)%C by ring end. rewrite Cmod_mult, Cmod_cis. lra. }
    assert (CK : cN N * K = 2 * PI) by (unfold cN, K; field; apply (IZR_neq _ 0); lia).
    replace (cN N * (27 * PI * (K * D))) with (54 * PI ^ 2 * D) in E4 by (transitivity (cN N * K * (27 * PI * D)); [rewrite CK; ring|ring]).
    assert (D3 : cN N * weighted_size T (2 * L) (fun _ => mwss_share L) h <= 54 * PI ^ 2 * (Sz + D)).
    { replace (54 * PI ^ 2 * (Sz + D)) with (cN N * (27 * PI * (K * (Sz + D)))) by (transitivity (cN N * K * (27 * PI * (Sz + D))); [ring|rewrite CK; ring]). apply Rmult_le_compat_l; lra. }
    set (w1 := cN N * weighted_size T (2 * L) _ h) in *.
    assert (W0 : 0 <= w1).
    { apply Rmult_le_pos; [lra|]. apply rs_nonneg. intros t Ht. apply Rmult_le_pos; [apply share_nonneg|apply rs_nonneg; intros; apply Cmod_ge_0]. }
    assert (KK : 203 / 100 * (kap + 15 * u * IZR T) + eps <= K1) by (eapply Rle_trans; [|exact HK1]; rewrite TE; lra).
    assert (K10 : 0 <= K1) by (eapply Rle_trans; [|exact HK1]; lra).
    assert (X1 : (203 / 100 * (kap + 15 * u * IZR T) + eps) * w1 <= K1 * (54 * PI ^ 2 * (Sz + D))).
    { apply Rle_trans with (K1 * w1); [now apply Rmult_le_compat_r|now apply Rmult_le_compat_l]. }
    assert (P2 : 1 <= PI ^ 2) by (pose proof PI2_3_2; nra).
    assert (X2 : 12 * IZR T * eta <= 54 * PI ^ 2 * (IZR L * eta)).
    { rewrite TE. apply Rle_trans with (36 * (IZR L * eta)); [|apply Rmult_le_compat_r; lra]. assert (1 * eta <= IZR L * eta) by (apply Rmult_le_compat_r; lra). lra. }
    replace (stored3 L N flmn n l m - c n l m)%C with ((stored3 L N flmn n l m - q) + (q - c n l m))%C by ring.
    eapply Rle_trans; [apply Cmod_triangle|]. fold Sz D. lra.
  Qed.
  (** ** The theorems *)
  Lemma xm_wsize fft : fft_accurate fft (4 * L) eps -> forall t, (0 <= t < T)%Z -> Rabs (mwss_weight L t) <= mwss_share L.
  Proof.
    intros HFF t Ht. destruct (xf_bounds A u eta HA L N HN1 HB HE) as (L1 & UX & U5 & U2 & U1 & UB & Hu & HE3 & HE1 & HE0 & _).
    destruct (mwss_weights_near A u eta HA Hu HE0 fft L eps (mkVec 0 (fun _ => 0)) (mkVec 0 (fun _ => 0)) ltac:(lia) HE3 Heps' HFF) as (wf & _ & _ & W). exact (proj1 (W t Ht)).
  Qed.
  Lemma xm_analysis fftg fftp s o f gl wgl c d : mwx s -> shape f = [2 * N - 1; rings s L 0; per_ring s L]%Z -> sums_all o T ->
    fft_accurate fftg (2 * N - 1) eps -> fft_accurate fftp (2 * L) eps -> fft_accurate fftp (4 * L) eps ->
    (forall g t p, (0 <= g < 2 * N - 1)%Z -> (0 <= t < rings s L 0)%Z -> (0 <= p < per_ring s L)%Z ->
      Cmod (get f [g; t; p] - so3_synth L N c (equi_longitude s L p) (mwx_theta s L t) (2 * PI * IZR g / IZR (2 * N - 1)))%C <= d) ->
    exists KW flmn, xm_kernel A fftp (scheme_name s) gl wgl L N = Ok KW /\ xm_forward A S fftg fftp o f KW L N (scheme_name s) = Ok flmn /\ shape flmn = [2 * N - 1; L; 2 * L - 1]%Z /\
      forall n l m, (- N < n < N)%Z -> (0 <= l < L)%Z -> (- L < m < L)%Z ->
        ((Z.abs m <= l)%Z -> (Z.abs n <= l)%Z -> Cmod (stored3 L N flmn n l m - c n l m)%C <=
          54 * PI ^ 2 * ((617 * (u * X) + 111 * eps) * so3_size L N c + 14 * d + 253 * (IZR L * eta))) /\
        ((l < Z.abs m \/ l < Z.abs n)%Z -> stored3 L N flmn n l m = RtoC 0).
  Proof.
    intros Hm Hf Ho HG HP HF4 Hd. destruct (xf_bounds A u eta HA L N HN1 HB HE) as (L1 & UX & U5 & U2 & U1 & UB & Hu & _ & HE1 & HE0 & HEN & UL & FB & H2L).
    fold X in UX, U5, U2, U1, UB.
    destruct (xm_direct fftp s gl wgl Hm HF4) as (KW & EK & HK).
    destruct (xm_core s fftg fftp o f KW (215 * (u * X) + 28 / 10 * eps) (455 * (u * X) + 8 * eps) c d Hm Hf Ho ltac:(split; lra) HG HP (xm_wsize fftp HF4) HK ltac:(lra) Hd) as (flmn & E & Sh & H).
    exists KW, flmn. split; [exact EK|]. split; [exact E|]. split; [exact Sh|]. intros n l m Hn Hl Hmm. destruct (H n l m Hn Hl Hmm) as [H1 H0]. split; [|exact H0]. intros M1 M2.
    eapply Rle_trans; [exact (H1 M1 M2)|]. apply Rmult_le_compat_l; [pose proof (pow2_ge_0 PI); lra|].
    assert (PR : (0 < rings s L 0)%Z /\ (0 < per_ring s L)%Z) by (destruct Hm as [->| ->]; cbn [rings per_ring]; lia).
    assert (d0 : 0 <= d) by (eapply Rle_trans; [apply Cmod_ge_0|apply (Hd 0%Z 0%Z 0%Z); lia]).
    set (Sz := so3_size L N c). assert (S0 : 0 <= Sz) by apply so3_size_nonneg. set (D := 101 / 10 * d + (78 * eps + 123 * (u * X)) * Sz + 192 * (IZR L * eta)).
    assert (LE : 0 <= IZR L * eta) by (apply Rmult_le_pos; lra). assert (US : 0 <= u * X * Sz) by (now apply Rmult_le_pos). assert (ES : 0 <= eps * Sz) by (apply Rmult_le_pos; lra).
    assert (D0 : 0 <= D) by (unfold D; lra). assert (X1 : (455 * (u * X) + 8 * eps) * D <= (31 / 100) * D) by (apply Rmult_le_compat_r; lra).
    rewrite Rmult_plus_distr_l. unfold D in X1 |- *. lra.
  Qed.
  Lemma xm_analysis_fft F fftg fftp s o f gl wgl c d : mwx s -> shape f = [2 * N - 1; rings s L 0; per_ring s L]%Z -> sums_all o T ->
    fft_accurate fftg (2 * N - 1) eps -> fft_accurate fftp (2 * L) eps -> fft_accurate fftp (4 * L) eps ->
    irfft_accurate (f_irfft F) L (4 * L) eps -> ipow_accurate (f_ipow F) (2 * L) eps ->
    (forall g t p, (0 <= g < 2 * N - 1)%Z -> (0 <= t < rings s L 0)%Z -> (0 <= p < per_ring s L)%Z ->
      Cmod (get f [g; t; p] - so3_synth L N c (equi_longitude s L p) (mwx_theta s L t) (2 * PI * IZR g / IZR (2 * N - 1)))%C <= d) ->
    exists KW flmn, xm_kernel_fft A F fftp (scheme_name s) gl wgl L N = Ok KW /\ xm_forward A S fftg fftp o f KW L N (scheme_name s) = Ok flmn /\ shape flmn = [2 * N - 1; L; 2 * L - 1]%Z /\
      forall n l m, (- N < n < N)%Z -> (0 <= l < L)%Z -> (- L < m < L)%Z ->
        ((Z.abs m <= l)%Z -> (Z.abs n <= l)%Z -> Cmod (stored3 L N flmn n l m - c n l m)%C <=
          54 * PI ^ 2 * ((2166 * (u * X) + 204 * eps) * so3_size L N c + 23 * d + 432 * (IZR L * eta))) /\
        ((l < Z.abs m \/ l < Z.abs n)%Z -> stored3 L N flmn n l m = RtoC 0).
  Proof.
    intros Hm Hf Ho HG HP HF4 HIR HPW Hd. destruct (xf_bounds A u eta HA L N HN1 HB HE) as (L1 & UX & U5 & U2 & U1 & UB & Hu & _ & HE1 & HE0 & HEN & UL & FB & H2L).
    fold X in UX, U5, U2, U1, UB.
    destruct (xm_fourier F fftp s gl wgl Hm HF4 HIR HPW) as (KW & EK & HK).
    destruct (xm_core s fftg fftp o f KW (922 * (u * X) + 135 / 10 * eps) (1890 * (u * X) + 29 * eps) c d Hm Hf Ho ltac:(split; lra) HG HP (xm_wsize fftp HF4) HK ltac:(lra) Hd) as (flmn & E & Sh & H).
    exists KW, flmn. split; [exact EK|]. split; [exact E|]. split; [exact Sh|]. intros n l m Hn Hl Hmm. destruct (H n l m Hn Hl Hmm) as [H1 H0]. split; [|exact H0]. intros M1 M2.
    eapply Rle_trans; [exact (H1 M1 M2)|]. apply Rmult_le_compat_l; [pose proof (pow2_ge_0 PI); lra|].
    assert (PR : (0 < rings s L 0)%Z /\ (0 < per_ring s L)%Z) by (destruct Hm as [->| ->]; cbn [rings per_ring]; lia).
    assert (d0 : 0 <= d) by (eapply Rle_trans; [apply Cmod_ge_0|apply (Hd 0%Z 0%Z 0%Z); lia]).
    set (Sz := so3_size L N c). assert (S0 : 0 <= Sz) by apply so3_size_nonneg. set (D := 101 / 10 * d + (78 * eps + 123 * (u * X)) * Sz + 192 * (IZR L * eta)).
    assert (LE : 0 <= IZR L * eta) by (apply Rmult_le_pos; lra). assert (US : 0 <= u * X * Sz) by (now apply Rmult_le_pos). assert (ES : 0 <= eps * Sz) by (apply Rmult_le_pos; lra).
    assert (D0 : 0 <= D) by (unfold D; lra). assert (X1 : (1890 * (u * X) + 29 * eps) * D <= (124 / 100) * D) by (apply Rmult_le_compat_r; lra).
    rewrite Rmult_plus_distr_l. unfold D in X1 |- *. lra.
  Qed.
  Lemma xm_trip F2 fftg fftp s o o' flmn gl wgl : mwx s -> shape flmn = [2 * N - 1; L; 2 * L - 1]%Z -> sums_all o L -> sums_all o' T -> ifft2_accurate F2 (2 * N - 1) (per_ring s L) eps ->
    fft_accurate fftg (2 * N - 1) eps -> fft_accurate fftp (2 * L) eps -> fft_accurate fftp (4 * L) eps ->
    exists ths K f KW flmn', pf_thetas A (scheme_name s) L gl = Ok ths /\ wf_kernel A ths L N = Ok K /\ wf_inverse A F2 o flmn K L N (scheme_name s) = Ok f /\
      xm_kernel A fftp (scheme_name s) gl wgl L N = Ok KW /\ xm_forward A S fftg fftp o' f KW L N (scheme_name s) = Ok flmn' /\ shape flmn' = [2 * N - 1; L; 2 * L - 1]%Z /\
      forall n l m, (- N < n < N)%Z -> (0 <= l < L)%Z -> (- L < m < L)%Z ->
        ((Z.abs m <= l)%Z -> (Z.abs n <= l)%Z -> Cmod (stored3 L N flmn' n l m - stored3 L N flmn n l m)%C <=
          54 * PI ^ 2 * ((7519 * (u * X) + 125 * eps) * so3_size L N (stored3 L N flmn) + 967 * (IZR N * (IZR L * IZR L)) * eta)) /\
        ((l < Z.abs m \/ l < Z.abs n)%Z -> stored3 L N flmn' n l m = RtoC 0).
  Proof.
    intros Hm Hf Ho Ho' HI HG HP HF4. destruct (xf_bounds A u eta HA L N HN1 HB HE) as (L1 & UX & U5 & U2 & U1 & UB & Hu & _ & HE1 & HE0 & HEN & UL & FB & H2L).
    assert (Hm3 : s = MW \/ s = MWSS \/ s = DH) by (destruct Hm; auto). assert (Hh : s <> HEALPIX) by (destruct Hm as [->| ->]; discriminate).
    destruct (L2_tiny A u eta HA L N HN1) as [T1 T2].
    destruct (wf_thetas A u eta HA L N eps HN1 HB HE1 Heps' s (fun _ => 0) gl Hm3) as (ths & E1 & El & E3).
    destruct (wf_kernel_top A u eta HA HZ L N eps HN1 HB HE1 Heps' ths (rings s L 0) El ltac:(destruct Hm as [->| ->]; cbn [rings]; lia) ltac:(intros t Ht; apply E3, Ht)) as (K0 & E4 & HK' & _).
    destruct (wf_inverse_top A u eta HA HZ L N eps HN1 HB HE1 Heps' s (fun _ => 0) F2 o flmn K0 (vat ths) (13 * u) Hh Hf Ho HI HK') as (f & E5 & Sh & Hb).
    { intros t y Ht Hy. now apply E3. }
    set (Sz := so3_size L N (stored3 L N flmn)) in *. assert (S0 : 0 <= Sz) by apply so3_size_nonneg. fold X in Hb, UX, U5, U2, U1, UB.
    assert (Hb' : forall g t p, (0 <= g < 2 * N - 1)%Z -> (0 <= t < rings s L 0)%Z -> (0 <= p < per_ring s L)%Z ->
      Cmod (get f [g; t; p] - so3_synth L N (stored3 L N flmn) (equi_longitude s L p) (mwx_theta s L t) (2 * PI * IZR g / IZR (2 * N - 1)))%C <=
      (493 * (u * X) + eps) * Sz + 51 * (IZR N * (IZR L * IZR L)) * eta).
    { intros g t p Hg Ht Hp. eapply Rle_trans; [exact (Hb g t p (mwx_theta s L t) Hg Ht Hp ltac:(destruct Hm as [->| ->]; reflexivity))|]. apply Rplus_le_compat_r, Rmult_le_compat_r; [exact S0|]. lra. }
    destruct (xm_analysis fftg fftp s o' f gl wgl (stored3 L N flmn) _ Hm Sh Ho' HG HP HF4 Hb') as (KW & flmn' & E6 & E7 & Sh' & G).
    exists ths, K0, f, KW, flmn'. repeat (split; [assumption|]). intros n l m Hn Hl Hmm. destruct (G n l m Hn Hl Hmm) as [G1 G2]. split; [|exact G2]. intros M1 M2.
    eapply Rle_trans; [exact (G1 M1 M2)|]. apply Rmult_le_compat_l; [pose proof (pow2_ge_0 PI); lra|]. fold Sz.
    assert (US : 0 <= u * X * Sz) by (now apply Rmult_le_pos). assert (ES : 0 <= eps * Sz) by (apply Rmult_le_pos; lra). lra.
  Qed.
  Lemma xm_trip_fft F F2 fftg fftp s o o' flmn gl wgl : mwx s -> shape flmn = [2 * N - 1; L; 2 * L - 1]%Z -> sums_all o L -> sums_all o' T -> ifft2_accurate F2 (2 * N - 1) (per_ring s L) eps ->
    fft_accurate fftg (2 * N - 1) eps -> fft_accurate fftp (2 * L) eps -> fft_accurate fftp (4 * L) eps ->
    irfft_accurate (f_irfft F) L (4 * L) eps -> irfft_accurate (f_irfft F) L (circle_points s L) eps -> ipow_accurate (f_ipow F) (2 * L) eps ->
    exists ths K f KW flmn', pf_thetas A (scheme_name s) L gl = Ok ths /\ wf_kernel_fft A F (scheme_name s) ths L N = Ok K /\ wf_inverse A F2 o flmn K L N (scheme_name s) = Ok f /\
      xm_kernel_fft A F fftp (scheme_name s) gl wgl L N = Ok KW /\ xm_forward A S fftg fftp o' f KW L N (scheme_name s) = Ok flmn' /\ shape flmn' = [2 * N - 1; L; 2 * L - 1]%Z /\
      forall n l m, (- N < n < N)%Z -> (0 <= l < L)%Z -> (- L < m < L)%Z ->
        ((Z.abs m <= l)%Z -> (Z.abs n <= l)%Z -> Cmod (stored3 L N flmn' n l m - stored3 L N flmn n l m)%C <=
          54 * PI ^ 2 * ((48764 * (u * X) + 807 * eps) * so3_size L N (stored3 L N flmn) + 1605 * (IZR N * (IZR L * IZR L)) * eta)) /\
        ((l < Z.abs m \/ l < Z.abs n)%Z -> stored3 L N flmn' n l m = RtoC 0).
  Proof.
    intros Hm Hf Ho Ho' HI HG HP HF4 HIR HIR2 HPW. destruct (xf_bounds A u eta HA L N HN1 HB HE) as (L1 & UX & U5 & U2 & U1 & UB & Hu & _ & HE1 & HE0 & HEN & UL & FB & H2L).
    assert (Hm3 : s = MW \/ s = MWSS \/ s = DH) by (destruct Hm; auto). assert (Hh : s <> HEALPIX) by (destruct Hm as [->| ->]; discriminate).
    destruct (L2_tiny A u eta HA L N HN1) as [T1 T2].
    destruct (wf_kernel_fft_top A u eta HA HZ L N eps HN1 HB HE1 Heps' s (fun _ => 0) gl F Hm3 HIR2 HPW) as (ths & K0 & x & E1 & E4 & HK' & _ & Hx).
    destruct (wf_inverse_gen A u eta HA HZ L N eps HN1 HB HE1 Heps' s (fun _ => 0) F2 o flmn K0 x (13 * u) (kap4 u L eps) Hh Hf Ho ltac:(unfold kap4; split; lra) HI HK' Hx) as (f & E5 & Sh & Hb).
    unfold kap4 in Hb.
    set (Sz := so3_size L N (stored3 L N flmn)) in *. assert (S0 : 0 <= Sz) by apply so3_size_nonneg. fold X in Hb, UX, U5, U2, U1, UB.
    assert (Hb' : forall g t p, (0 <= g < 2 * N - 1)%Z -> (0 <= t < rings s L 0)%Z -> (0 <= p < per_ring s L)%Z ->
      Cmod (get f [g; t; p] - so3_synth L N (stored3 L N flmn) (equi_longitude s L p) (mwx_theta s L t) (2 * PI * IZR g / IZR (2 * N - 1)))%C <=
      (2026 * (u * X) + 262 / 10 * eps) * Sz + 51 * (IZR N * (IZR L * IZR L)) * eta).
    { intros g t p Hg Ht Hp. eapply Rle_trans; [exact (Hb g t p (mwx_theta s L t) Hg Ht Hp ltac:(destruct Hm as [->| ->]; reflexivity))|]. apply Rplus_le_compat_r, Rmult_le_compat_r; [exact S0|]. lra. }
    destruct (xm_analysis_fft F fftg fftp s o' f gl wgl (stored3 L N flmn) _ Hm Sh Ho' HG HP HF4 HIR HPW Hb') as (KW & flmn' & E6 & E7 & Sh' & G).
    exists ths, K0, f, KW, flmn'. repeat (split; [assumption|]). intros n l m Hn Hl Hmm. destruct (G n l m Hn Hl Hmm) as [G1 G2]. split; [|exact G2]. intros M1 M2.
    eapply Rle_trans; [exact (G1 M1 M2)|]. apply Rmult_le_compat_l; [pose proof (pow2_ge_0 PI); lra|]. fold Sz.
    assert (US : 0 <= u * X * Sz) by (now apply Rmult_le_pos). assert (ES : 0 <= eps * Sz) by (apply Rmult_le_pos; lra). lra.
  Qed.
End Top.
