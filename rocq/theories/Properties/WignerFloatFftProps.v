(** C74: the precomputed inverse transform on the rotation group in floating-point arithmetic, with
    the kernel of mode "fft". *)
From Coq Require Import Reals Lra Lia ZifyBool.
From Coquelicot Require Import Complex.
From Flocq Require Import Core.
From Verif Require Import Lib.Py Lib.PyFacts Lib.Vec Lib.Sums Lib.Cplx Lib.Arr Model.Index Model.Samples Model.RisboFloat Model.Spherical Model.Precompute Model.PrecomputeFloat
  Model.PrecomputeWigner Model.WignerFloat Spec.SamplesSpec Spec.WignerSpec Spec.SphereSpec Spec.GridSpec Spec.SphericalSpec Spec.SO3Spec Spec.RoundingSpec Spec.PrecomputeFloatSpec Spec.WignerFloatSpec
  Proofs.RisboFloatProofs Proofs.RisboProofs Proofs.PrecomputeKernel Proofs.PWKernel Proofs.FloatKernel Proofs.FloatInverse Proofs.FloatFourier Proofs.FloatTop Proofs.FloatWigner Proofs.FloatWignerFourier Proofs.Binary64.
Open Scope string_scope.
Open Scope R_scope.

(** The kernel of mode "fft": the d-functions at pi/2 from the rounded recursion, four products per
    Fourier coefficient, a real Fourier transform and powers of the imaginary unit of accuracy eps.
    The function returns, entry (n, t, l, m) is (2 l + 1) / (8 pi^2) d^l_mn at the colatitude of ring
    t to within 963 u L (2 L + 3) + 12 eps of that factor, and exactly zero where the d-function does
    not exist. *)
Theorem C74_fft_kernel : forall A u eta F s L N eps gl, rounded A u eta -> zeros_exact A -> s = MW \/ s = MWSS \/ s = DH ->
  (1 <= N <= L)%Z -> 2000 * u * (IZR L * (2 * IZR L + 3)) <= 1 -> 4 * IZR L * eta <= u -> 0 <= eps <= / 20 ->
  irfft_accurate (f_irfft F) L (circle_points s L) eps -> ipow_accurate (f_ipow F) (2 * L) eps ->
  exists ths K, pf_thetas A (scheme_name s) L gl = Ok ths /\ wf_kernel_fft A F (scheme_name s) ths L N = Ok K /\
    shape K = [2 * N - 1; rings s L 0; L; 2 * L - 1]%Z /\
    forall n t l m x, (- N < n < N)%Z -> (0 <= t < rings s L 0)%Z -> (0 <= l < L)%Z -> (- L < m < L)%Z -> is_colatitude s L 0 t x ->
      Rabs (get K [n + N - 1; t; l; m + L - 1]%Z - (2 * IZR l + 1) / (8 * PI ^ 2) * wigner_d l m n x) <=
        (963 * u * (IZR L * (2 * IZR L + 3)) + 12 * eps) * ((2 * IZR l + 1) / (8 * PI ^ 2)) /\
      ((l < Z.abs m \/ l < Z.abs n)%Z -> get K [n + N - 1; t; l; m + L - 1]%Z = 0).
Proof.
  intros A u eta F s L N eps gl HA HZ Hsch HN HB HE Heps HF HI. pose proof (rd_u _ _ _ HA) as u0.
  destruct (wf_kernel_fft_top A u eta HA HZ L N eps HN HB HE Heps s (fun _ => 0) gl F Hsch HF HI) as (ths & K & x0 & E1 & E4 & [KS HK] & KZ & E3).
  exists ths, K. split; [exact E1|]. split; [exact E4|]. split; [exact KS|]. intros n t l m x Hn Ht Hl Hm Hx.
  assert (C : colatitude (fun _ => 0) s L 0 t x) by (destruct Hsch as [->|[->| ->]]; exact Hx).
  pose proof (E3 t x Ht C) as D.
  specialize (HK (n + N - 1)%Z t l (m + L - 1)%Z ltac:(lia) Ht Hl ltac:(lia)). specialize (KZ (n + N - 1)%Z t l (m + L - 1)%Z ltac:(lia) Ht Hl ltac:(lia)).
  replace (m + L - 1 - (L - 1))%Z with m in HK, KZ by lia. replace (n + N - 1 - (N - 1))%Z with n in HK, KZ by lia.
  unfold at4 in HK, KZ. change ((2 * IZR l + 1) / (8 * PI ^ 2)) with (wfac l).
  pose proof (wfac_lower l ltac:(lia)) as El. set (k := get K [n + N - 1; t; l; m + L - 1]%Z) in *.
  assert (L1 : 1 <= IZR L) by (apply IZR_le; lia). split.
  - pose proof (wigner_lip l m n (x0 t) x ltac:(lia)) as W.
    assert (LL : IZR (l + 1) <= IZR L) by (apply IZR_le; lia). assert (W2 : IZR (l + 1) * Rabs (x0 t - x) <= IZR L * (13 * u)).
    { apply Rmult_le_compat; try lra; [apply IZR_le; lia|apply Rabs_pos]. }
    set (d1 := wigner_d l m n (x0 t)) in *. set (d := wigner_d l m n x) in *.
    replace (k - wfac l * d) with ((k - wfac l * d1) + wfac l * (d1 - d)) by ring. eapply Rle_trans; [apply Rabs_triang|].
    rewrite Rabs_mult, (Rabs_right (wfac l)) by lra.
    assert (W3 : wfac l * Rabs (d1 - d) <= wfac l * (IZR L * (13 * u))) by (apply Rmult_le_compat_l; lra).
    assert (X : u * IZR L * 5 <= u * (IZR L * (2 * IZR L + 3))) by (rewrite Rmult_assoc; apply Rmult_le_compat_l; nra).
    apply (Rmult_le_compat_r (wfac l)) in X; [|lra].
    assert (UL0 : 0 <= u * IZR L * wfac l) by (apply Rmult_le_pos; [apply Rmult_le_pos|]; lra).
    pose proof (proj1 (kap4_range A u eta HA L N eps HN HB Heps)) as K0.
    assert (H' : Rabs (k - wfac l * d1) <= kap4 u L eps * wfac l).
    { eapply Rle_trans; [exact HK|]. apply Rmult_le_compat_l; [exact K0|]. unfold wsize3. destruct (adm_b n l m); lra. }
    unfold kap4 in H'. lra.
  - intros O. apply KZ. unfold adm_b. lia.
Qed.
Print Assumptions C74_fft_kernel.
Example C74_fft_kernel_ex : rounded exact_arith 0 0 /\ zeros_exact exact_arith /\ (1 <= 3 <= 4)%Z /\ 2000 * 0 * (4 * (2 * 4 + 3)) <= 1 /\
  irfft_accurate (f_irfft exact_ffts) 4 (circle_points MW 4) 0 /\ ipow_accurate (f_ipow exact_ffts) (2 * 4) 0 /\
  (- 3 < -2 < 3)%Z /\ is_colatitude MW 4 0 2 (mw_theta 4 2).
Proof.
  split; [exact exact_rounded|]. split; [exact exact_zeros|]. split; [lia|]. split; [lra|]. split; [apply exact_irfft; lra|].
  split; [apply exact_ipow; lra|]. split; [lia|reflexivity].
Qed.

(** The inverse transform with that kernel: the error at every sample of the rotation group is at most
    2030 u L (2 L + 3) + 27 eps of the size of the signal. *)
Theorem C74_fft_inverse : forall A u eta F F2 o s L N eps gl flmn, rounded A u eta -> zeros_exact A -> s = MW \/ s = MWSS \/ s = DH ->
  (1 <= N <= L)%Z -> 2000 * u * (IZR L * (2 * IZR L + 3)) <= 1 -> 4 * IZR L * eta <= u -> 0 <= eps <= / 20 ->
  irfft_accurate (f_irfft F) L (circle_points s L) eps -> ipow_accurate (f_ipow F) (2 * L) eps ->
  ifft2_accurate F2 (2 * N - 1) (per_ring s L) eps -> sums_all o L -> shape flmn = [2 * N - 1; L; 2 * L - 1]%Z ->
  exists ths K f, pf_thetas A (scheme_name s) L gl = Ok ths /\ wf_kernel_fft A F (scheme_name s) ths L N = Ok K /\
    wf_inverse A F2 o flmn K L N (scheme_name s) = Ok f /\ shape f = [2 * N - 1; rings s L 0; per_ring s L]%Z /\
    forall g t p x, (0 <= g < 2 * N - 1)%Z -> (0 <= t < rings s L 0)%Z -> (0 <= p < per_ring s L)%Z -> is_colatitude s L 0 t x ->
      Cmod (get f [g; t; p] - so3_synth L N (stored3 L N flmn) (equi_longitude s L p) x (2 * PI * IZR g / IZR (2 * N - 1)))%C <=
      (2030 * u * (IZR L * (2 * IZR L + 3)) + 27 * eps) * so3_size L N (stored3 L N flmn) + 51 * (IZR N * (IZR L * IZR L)) * eta.
Proof.
  intros A u eta F F2 o s L N eps gl flmn HA HZ Hsch HN HB HE Heps HF HI HF2 Ho Hf. pose proof (rd_u _ _ _ HA) as u0.
  destruct (wf_kernel_fft_top A u eta HA HZ L N eps HN HB HE Heps s (fun _ => 0) gl F Hsch HF HI) as (ths & K & x0 & E1 & E4 & HK & _ & E3).
  assert (NH : s <> HEALPIX) by (destruct Hsch as [->|[->| ->]]; discriminate).
  destruct (wf_inverse_gen A u eta HA HZ L N eps HN HB HE Heps s (fun _ => 0) F2 o flmn K x0 (13 * u) (kap4 u L eps) NH Hf Ho
    (kap4_range A u eta HA L N eps HN HB Heps) HF2 HK E3) as (f & E5 & Sh & Hb).
  exists ths, K, f. split; [exact E1|]. split; [exact E4|]. split; [exact E5|]. split; [exact Sh|]. intros g t p x Hg Ht Hp Hx.
  assert (C : colatitude (fun _ => 0) s L 0 t x) by (destruct Hsch as [->|[->| ->]]; exact Hx).
  eapply Rle_trans; [exact (Hb g t p x Hg Ht Hp C)|]. apply Rplus_le_compat_r. apply Rmult_le_compat_r; [apply so3_size_nonneg|].
  assert (L1 : 1 <= IZR L) by (apply IZR_le; lia).
  assert (X : u * IZR L * 5 <= u * (IZR L * (2 * IZR L + 3))) by (rewrite Rmult_assoc; apply Rmult_le_compat_l; nra).
  assert (0 <= u * IZR L) by (apply Rmult_le_pos; lra). unfold kap4. lra.
Qed.
Print Assumptions C74_fft_inverse.
Example C74_fft_inverse_ex : irfft_accurate (f_irfft exact_ffts) 4 (circle_points MWSS 4) 0 /\ ipow_accurate (f_ipow exact_ffts) (2 * 4) 0 /\
  ifft2_accurate exact_ifft2 (2 * 3 - 1) (per_ring MWSS 4) 0 /\ sums_all (in_turn 4) 4 /\
  shape (zeros (RtoC 1) [5; 4; 7]%Z) = [2 * 3 - 1; 4; 2 * 4 - 1]%Z /\ is_colatitude MWSS 4 0 3 (mwss_theta 4 3).
Proof.
  split; [apply exact_irfft; lra|]. split; [apply exact_ipow; lra|]. split; [apply exact_ifft2_accurate; lra|]. split; [apply in_turn_all; lia|]. split; reflexivity.
Qed.

(** Without rounding and with exact Fourier transforms the model returns the signal itself. *)
Theorem C74_fft_exact : forall s L N gl flmn o, s = MW \/ s = MWSS \/ s = DH -> (1 <= N <= L)%Z ->
  sums_all o L -> shape flmn = [2 * N - 1; L; 2 * L - 1]%Z ->
  exists ths K f, pf_thetas exact_arith (scheme_name s) L gl = Ok ths /\ wf_kernel_fft exact_arith exact_ffts (scheme_name s) ths L N = Ok K /\
    wf_inverse exact_arith exact_ifft2 o flmn K L N (scheme_name s) = Ok f /\ shape f = [2 * N - 1; rings s L 0; per_ring s L]%Z /\
    forall g t p x, (0 <= g < 2 * N - 1)%Z -> (0 <= t < rings s L 0)%Z -> (0 <= p < per_ring s L)%Z -> is_colatitude s L 0 t x ->
      get f [g; t; p] = so3_synth L N (stored3 L N flmn) (equi_longitude s L p) x (2 * PI * IZR g / IZR (2 * N - 1)).
Proof.
  intros s L N gl flmn o Hsch HN Ho Hf.
  destruct (C74_fft_inverse exact_arith 0 0 exact_ffts exact_ifft2 o s L N 0 gl flmn exact_rounded exact_zeros Hsch HN) as (ths & K & f & E1 & E2 & E3 & Sh & H); try assumption.
  - lra.
  - lra.
  - lra.
  - apply exact_irfft. lra.
  - apply exact_ipow. lra.
  - apply exact_ifft2_accurate. lra.
  - exists ths, K, f. repeat (split; [assumption|]). intros g t p x Hg Ht Hp Hx. specialize (H g t p x Hg Ht Hp Hx).
    set (y := so3_synth L N (stored3 L N flmn) (equi_longitude s L p) x (2 * PI * IZR g / IZR (2 * N - 1))) in *.
    set (d := (get f [g; t; p] - y)%C) in *.
    assert (Z0 : Cmod d = 0) by (pose proof (Cmod_ge_0 d); lra). apply Cmod_eq_0 in Z0. unfold d in Z0.
    replace (get f [g; t; p]) with (get f [g; t; p] - y + y)%C by ring. rewrite Z0. ring.
Qed.
Print Assumptions C74_fft_exact.
Example C74_fft_exact_ex : (1 <= 2 <= 3)%Z /\ sums_all (Plus (Term 1) (Plus (Term 2) (Term 0))) 3 /\ (rings DH 3 0 = 6)%Z.
Proof. split; [lia|]. split; [|reflexivity]. unfold sums_all. cbn. change (zrange 0 3) with [0; 1; 2]%Z. apply (Permutation.Permutation_app_comm [1; 2]%Z [0]%Z). Qed.

(** Binary64, up to band-limit a million: with Fourier transforms and powers of relative accuracy
    1e-14 the error is at most 2.3e-13 L (2 L + 3) + 2.7e-13 of the size of the signal. *)
Theorem C74_fft_binary64 : forall F F2 o s L N gl flmn, s = MW \/ s = MWSS \/ s = DH -> (1 <= N <= L)%Z -> (L <= 2 ^ 20)%Z ->
  irfft_accurate (f_irfft F) L (circle_points s L) (/ 10 ^ 14) -> ipow_accurate (f_ipow F) (2 * L) (/ 10 ^ 14) ->
  ifft2_accurate F2 (2 * N - 1) (per_ring s L) (/ 10 ^ 14) -> sums_all o L -> shape flmn = [2 * N - 1; L; 2 * L - 1]%Z ->
  exists ths K f, pf_thetas binary64 (scheme_name s) L gl = Ok ths /\ wf_kernel_fft binary64 F (scheme_name s) ths L N = Ok K /\
    wf_inverse binary64 F2 o flmn K L N (scheme_name s) = Ok f /\ shape f = [2 * N - 1; rings s L 0; per_ring s L]%Z /\
    forall g t p x, (0 <= g < 2 * N - 1)%Z -> (0 <= t < rings s L 0)%Z -> (0 <= p < per_ring s L)%Z -> is_colatitude s L 0 t x ->
      Cmod (get f [g; t; p] - so3_synth L N (stored3 L N flmn) (equi_longitude s L p) x (2 * PI * IZR g / IZR (2 * N - 1)))%C <=
      (23 / 10 ^ 14 * (IZR L * (2 * IZR L + 3)) + 27 / 10 ^ 14) * so3_size L N (stored3 L N flmn) + / 10 ^ 300.
Proof.
  intros F F2 o s L N gl flmn Hsch HN HL2 HF HI HF2 Ho Hf.
  assert (H1 : 1 <= IZR L) by (apply IZR_le; lia). assert (H2 : IZR L <= IZR (2 ^ 20)) by (now apply IZR_le).
  assert (N1 : 1 <= IZR N) by (apply IZR_le; lia). assert (N2 : IZR N <= IZR (2 ^ 20)) by (apply IZR_le; lia).
  assert (E0 : 0 <= eta64) by apply bpow_ge_0.
  destruct (C74_fft_inverse binary64 u64 eta64 F F2 o s L N (/ 10 ^ 14) gl flmn binary64_rounded (ieee_zeros _ _) Hsch HN) as (ths & K & f & E1 & E2 & E3 & Sh & H); try assumption.
  - rewrite u64_value. assert (IZR L * (2 * IZR L + 3) <= IZR (2 ^ 20) * (2 * IZR (2 ^ 20) + 3)) by (apply Rmult_le_compat; lra).
    apply Rle_trans with (2000 * / IZR (2 ^ 53) * (IZR (2 ^ 20) * (2 * IZR (2 ^ 20) + 3))).
    + apply Rmult_le_compat_l; [|assumption]. cbn. lra.
    + cbn. lra.
  - eapply Rle_trans; [|apply (eta64_tiny 22); lia]. apply Rmult_le_compat_r; [exact E0|].
    change (2 ^ 22)%Z with (4 * 2 ^ 20)%Z. rewrite mult_IZR. lra.
  - cbn. lra.
  - exists ths, K, f. repeat (split; [assumption|]). intros g t p x Hg Ht Hp Hx. eapply Rle_trans; [exact (H g t p x Hg Ht Hp Hx)|].
    apply Rplus_le_compat.
    + apply Rmult_le_compat_r; [apply so3_size_nonneg|]. rewrite u64_value. apply Rplus_le_compat; [|unfold Rdiv; lra].
      apply Rmult_le_compat_r; [nra|]. cbn. lra.
    + apply Rle_trans with (IZR (2 ^ 66) * eta64).
      * apply Rmult_le_compat_r; [exact E0|]. assert (L2 : IZR L * IZR L <= IZR (2 ^ 20) * IZR (2 ^ 20)) by (apply Rmult_le_compat; lra).
        assert (L3 : IZR N * (IZR L * IZR L) <= IZR (2 ^ 20) * (IZR (2 ^ 20) * IZR (2 ^ 20))) by (apply Rmult_le_compat; try lra; nra).
        rewrite <- (mult_IZR (2 ^ 20) (2 ^ 20)) in L3. rewrite <- (mult_IZR (2 ^ 20) (2 ^ 20 * 2 ^ 20)) in L3.
        apply Rle_trans with (51 * IZR (2 ^ 20 * (2 ^ 20 * 2 ^ 20))); [lra|]. rewrite <- mult_IZR. apply IZR_le. lia.
      * unfold eta64. change (IZR (2 ^ 66)) with (bpow radix2 66). rewrite <- bpow_plus. change (66 + -1075)%Z with (- (1009))%Z. rewrite bpow_opp.
        apply Rinv_le_contravar; [apply pow_lt; lra|]. rewrite <- (IZR_Zpower radix2) by lia. rewrite pow_IZR. apply IZR_le. vm_compute. discriminate.
Qed.
Print Assumptions C74_fft_binary64.
Example C74_fft_binary64_ex : (1 <= 5 <= 256)%Z /\ (256 <= 2 ^ 20)%Z /\ irfft_accurate (f_irfft exact_ffts) 256 (circle_points MWSS 256) (/ 10 ^ 14) /\
  ipow_accurate (f_ipow exact_ffts) (2 * 256) (/ 10 ^ 14) /\ ifft2_accurate exact_ifft2 (2 * 5 - 1) (per_ring MWSS 256) (/ 10 ^ 14) /\ sums_all (in_turn 256) 256.
Proof.
  assert (0 <= / 10 ^ 14) by (left; apply Rinv_0_lt_compat; cbn; lra). split; [lia|]. split; [lia|]. split; [now apply exact_irfft|]. split; [now apply exact_ipow|].
  split; [now apply exact_ifft2_accurate|]. apply in_turn_all. lia.
Qed.
