(** C80: the precomputed forward transform on the rotation group of real signals (reality=True) on mw and mwss and the
    round trip in floating-point arithmetic. *)
From Coq Require Import Reals Lra Lia ZifyBool.
From Coquelicot Require Import Complex.
From Flocq Require Import Core.
From Verif Require Import Lib.Py Lib.PyFacts Lib.Vec Lib.Sums Lib.Cplx Lib.Arr Model.Index Model.Samples Model.FFT Model.RisboFloat Model.Spherical Model.Precompute Model.PrecomputeFloat Model.ForwardFloat
  Model.ResamplingFloat Model.ForwardMWFloat Model.PrecomputeWigner Model.WignerFloat Model.WignerForwardFloat Model.WignerForwardMWFloat Model.WignerRealFloat Model.WignerRealForwardFloat Model.WignerRealForwardMWFloat
  Spec.SamplesSpec Spec.WignerSpec Spec.SphereSpec Spec.GridSpec Spec.SphericalSpec Spec.SO3Spec Spec.RoundingSpec Spec.PrecomputeFloatSpec Spec.ForwardFloatSpec Spec.ResamplingFloatSpec
  Spec.WignerFloatSpec Spec.WignerForwardFloatSpec Spec.RealFloatSpec
  Proofs.RisboFloatProofs Proofs.RisboProofs Proofs.FloatKernel Proofs.FloatInverse Proofs.FloatFourier Proofs.FloatTop Proofs.FloatForward Proofs.FloatForwardTop Proofs.FloatMWForward Proofs.FloatMWTop
  Proofs.FloatResampling Proofs.FloatResamplingTop Proofs.FloatWigner Proofs.FloatWignerForward Proofs.FloatWignerForwardTop Proofs.FloatWignerMWTop
  Proofs.FloatReal Proofs.FloatRealForward Proofs.FloatWignerReal Proofs.FloatWignerRealForward Proofs.FloatWignerRealMW Proofs.WignerRound Proofs.Binary64
  Properties.ResamplingFloatProps Properties.ForwardMWFloatProps Properties.RealFloatProps Properties.WignerProps Properties.WignerForwardFloatProps Properties.WignerForwardMWFloatProps Properties.WignerRealFloatProps.
Open Scope string_scope.
Open Scope R_scope.

Local Lemma rfft_length G N eps : (1 <= N)%Z -> rfft_accurate G (2 * N - 1) eps -> forall v, vlen v = (2 * N - 1)%Z -> vlen (G v) = N.
Proof. intros HN H v Hv. rewrite (proj1 (H v Hv)). replace ((2 * N - 1) / 2)%Z with (N - 1)%Z by (apply (Z.div_unique _ _ _ 1); lia). lia. Qed.
Local Lemma fft_length F n eps : fft_accurate F n eps -> forall v, vlen v = n -> vlen (F v) = n.
Proof. intros H v Hv. exact (proj1 (H v Hv)). Qed.

(** Samples that differ by at most d from a real band-limited signal: a real Fourier transform along gamma, the planes
    n >= 0 resampled to the doubled grid, half a kernel, and the planes of the negative n filled in by the symmetry.
    All the coefficients of the signal, those planes included, are recovered, and exactly zero is returned where the
    d-function does not exist. *)
Theorem C80_analysis : forall A u eta S G fftp o s L N eps gl wgl f c d, rounded A u eta -> zeros_exact A ->
  (2 <= N <= L)%Z -> 2000 * u * (IZR L * (2 * IZR L + 3)) <= 1 -> 4 * IZR L ^ 3 * eta <= u -> 0 <= eps <= / 100 ->
  transforms_accurate S (2 * L - 1) eps -> transforms_accurate S (2 * L) eps -> transforms_accurate S (4 * L) eps ->
  rfft_accurate G (2 * N - 1) eps -> fft_accurate fftp (2 * L) eps -> fft_accurate fftp (4 * L) eps ->
  s = MW \/ s = MWSS -> sums_all o (2 * L + 1) -> shape f = [2 * N - 1; rings s L 0; per_ring s L]%Z -> hermitian3 L N c ->
  (forall g t p x, (0 <= g < 2 * N - 1)%Z -> (0 <= t < rings s L 0)%Z -> (0 <= p < per_ring s L)%Z -> is_colatitude s L 0 t x ->
    Cmod (get f [g; t; p] - so3_synth L N c (equi_longitude s L p) x (2 * PI * IZR g / IZR (2 * N - 1)))%C <= d) ->
  exists K flmn, xq_kernel A fftp (scheme_name s) gl wgl L N = Ok K /\ xq_forward A S G fftp o f K L N (scheme_name s) = Ok flmn /\
    shape flmn = [2 * N - 1; L; 2 * L - 1]%Z /\ forall n l m, (- N < n < N)%Z -> (0 <= l < L)%Z -> (- L < m < L)%Z ->
      ((Z.abs m <= l)%Z -> (Z.abs n <= l)%Z -> Cmod (stored3 L N flmn n l m - c n l m)%C <=
        54 * PI ^ 2 * ((627 * (u * (IZR L * (2 * IZR L + 3))) + 111 * eps) * so3_size L N c + 15 * d + 254 * (IZR L * eta))) /\
      ((l < Z.abs m \/ l < Z.abs n)%Z -> stored3 L N flmn n l m = RtoC 0).
Proof.
  intros A u eta S G fftp o s L N eps gl wgl f c d HA HZ HN HB HE Heps H1 H2 H4 HG HP HP4 Hs Ho Hf Hc Hd.
  destruct (xf_bounds A u eta HA L N ltac:(lia) HB HE) as (L1 & UX & _ & _ & U5 & UB & U1 & _ & HE1 & _).
  assert (Hd' : forall g t p x, (0 <= g < 2 * N - 1)%Z -> (0 <= t < rings s L 0)%Z -> (0 <= p < per_ring s L)%Z -> is_colatitude s L 0 t x ->
    Cmod (get (areal f) [g; t; p] - so3_synth L N c (equi_longitude s L p) x (2 * PI * IZR g / IZR (2 * N - 1)))%C <= d).
  { intros g t p x Hg Ht Hp Hx. unfold areal. cbn [get]. eapply Rle_trans; [apply Re_closer, so3_synth_real, Hc|]. now apply Hd. }
  destruct (C76_analysis A u eta S (full_fft G) fftp o s L N eps gl wgl (areal f) c d HA HZ HN HB HE Heps H1 H2 H4 (full_accurate G (2 * N - 1) eps ltac:(lia) (proj1 Heps) HG) HP HP4 Hs Ho Hf Hd')
    as (K & flmn0 & E2 & E3 & _ & H).
  destruct (qkernel_half A fftp s gl wgl L N K Hs ltac:(lia) E2) as (Kr & E4 & HH).
  destruct (real_forward_mw A u eta HA U1 S s G fftp o f K Kr L N eps flmn0 Hs HN Heps HE1 H1 H2 H4 Hf Ho (rfft_length G N eps ltac:(lia) HG) (fft_length fftp _ eps HP) HH E3) as (flmn & E5 & Sh & HV).
  set (X := (IZR L * (2 * IZR L + 3))) in *. pose proof (proj1 Heps) as e0. pose proof (rd_eta _ _ _ HA) as eta0.
  assert (D0 : 0 <= d).
  { destruct Hs as [->| ->]; cbn [rings per_ring] in *.
    - eapply Rle_trans; [apply Cmod_ge_0|apply (Hd 0 0 0 (mw_theta L 0))%Z; [lia|lia|lia|reflexivity]].
    - eapply Rle_trans; [apply Cmod_ge_0|apply (Hd 0 0 0 (mwss_theta L 0))%Z; [lia|lia|lia|reflexivity]]. }
  exists Kr, flmn. repeat (split; [assumption|]). intros n l m Hn Hl Hm.
  destruct (real_mw_bound A u eta HA HZ U1 L N flmn0 flmn c (617 * (u * X) + 111 * eps) (14 * d) 253 ltac:(lia) ltac:(lra) HV Hc ltac:(lra) ltac:(lra) ltac:(lra) H n l m Hn Hl Hm) as [V1 V2].
  split; [|exact V2]. intros M1 M2. eapply Rle_trans; [exact (V1 M1 M2)|]. apply Rmult_le_compat_l; [pose proof (pow2_ge_0 PI); lra|].
  assert (LE : 0 <= IZR L * eta) by (apply Rmult_le_pos; lra).
  assert (KS : (617 * (u * X) + 111 * eps + 46 * u) * so3_size L N c <= (627 * (u * X) + 111 * eps) * so3_size L N c) by (apply Rmult_le_compat_r; [apply so3_size_nonneg|lra]). lra.
Qed.
Print Assumptions C80_analysis.
Example C80_analysis_ex : rounded binary64 u64 eta64 /\ zeros_exact binary64 /\ 2000 * u64 * (IZR 3 * (2 * IZR 3 + 3)) <= 1 /\ 4 * IZR 3 ^ 3 * eta64 <= u64 /\
  transforms_accurate exact_rffts (2 * 3 - 1) 0 /\ transforms_accurate exact_rffts (2 * 3) 0 /\ transforms_accurate exact_rffts (4 * 3) 0 /\
  rfft_accurate exact_rfft (2 * 2 - 1) 0 /\ fft_accurate fft_bwd (2 * 3) 0 /\ fft_accurate fft_bwd (4 * 3) 0 /\ sums_all (in_turn 7) (2 * 3 + 1) /\ hermitian3 3 2 (stored3 3 2 flmn3) /\
  stored3 3 2 flmn3 1 1 0 <> RtoC 0 /\ exists f, shape f = [2 * 2 - 1; rings MW 3 0; per_ring MW 3]%Z /\
  forall g t p x, (0 <= g < 2 * 2 - 1)%Z -> (0 <= t < rings MW 3 0)%Z -> (0 <= p < per_ring MW 3)%Z -> is_colatitude MW 3 0 t x ->
    Cmod (get f [g; t; p] - so3_synth 3 2 (stored3 3 2 flmn3) (equi_longitude MW 3 p) x (2 * PI * IZR g / IZR (2 * 2 - 1)))%C <= 0.
Proof.
  split; [exact binary64_rounded|]. split; [apply ieee_zeros|]. split; [rewrite u64_value; cbn; lra|].
  split; [eapply Rle_trans; [|apply (eta64_tiny 14); lia]; apply Rmult_le_compat_r; [apply bpow_ge_0|]; cbn; lra|].
  do 3 (split; [apply exact_transforms; (lia || lra)|]). split; [apply exact_rfft_ok; lra|]. split; [apply exact_fft; lra|]. split; [apply exact_fft; lra|]. split; [apply in_turn_all; lia|].
  split; [apply C34_ex|]. split; [apply C34_ex|].
  exists (mkArr [2 * 2 - 1; rings MW 3 0; per_ring MW 3]%Z (fun ix => so3_synth 3 2 (stored3 3 2 flmn3) (equi_longitude MW 3 (nth 2 ix 0%Z)) (mw_theta 3 (nth 1 ix 0%Z)) (2 * PI * IZR (nth 0 ix 0%Z) / IZR (2 * 2 - 1)))).
  split; [reflexivity|]. intros g t p x _ _ _ Hx. cbn in Hx. subst x. cbn [get nth]. replace (_ - _)%C with (RtoC 0) by ring. rewrite Cmod_0. lra.
Qed.

(** With the kernel of mode "fft". *)
Theorem C80_fft_analysis : forall A u eta F S G fftp o s L N eps gl wgl f c d, rounded A u eta -> zeros_exact A ->
  (2 <= N <= L)%Z -> 2000 * u * (IZR L * (2 * IZR L + 3)) <= 1 -> 4 * IZR L ^ 3 * eta <= u -> 0 <= eps <= / 100 ->
  transforms_accurate S (2 * L - 1) eps -> transforms_accurate S (2 * L) eps -> transforms_accurate S (4 * L) eps ->
  rfft_accurate G (2 * N - 1) eps -> fft_accurate fftp (2 * L) eps -> fft_accurate fftp (4 * L) eps ->
  irfft_accurate (f_irfft F) L (4 * L) eps -> ipow_accurate (f_ipow F) (2 * L) eps ->
  s = MW \/ s = MWSS -> sums_all o (2 * L + 1) -> shape f = [2 * N - 1; rings s L 0; per_ring s L]%Z -> hermitian3 L N c ->
  (forall g t p x, (0 <= g < 2 * N - 1)%Z -> (0 <= t < rings s L 0)%Z -> (0 <= p < per_ring s L)%Z -> is_colatitude s L 0 t x ->
    Cmod (get f [g; t; p] - so3_synth L N c (equi_longitude s L p) x (2 * PI * IZR g / IZR (2 * N - 1)))%C <= d) ->
  exists K flmn, xq_kernel_fft A F fftp (scheme_name s) gl wgl L N = Ok K /\ xq_forward A S G fftp o f K L N (scheme_name s) = Ok flmn /\
    shape flmn = [2 * N - 1; L; 2 * L - 1]%Z /\ forall n l m, (- N < n < N)%Z -> (0 <= l < L)%Z -> (- L < m < L)%Z ->
      ((Z.abs m <= l)%Z -> (Z.abs n <= l)%Z -> Cmod (stored3 L N flmn n l m - c n l m)%C <=
        54 * PI ^ 2 * ((2176 * (u * (IZR L * (2 * IZR L + 3))) + 204 * eps) * so3_size L N c + 24 * d + 433 * (IZR L * eta))) /\
      ((l < Z.abs m \/ l < Z.abs n)%Z -> stored3 L N flmn n l m = RtoC 0).
Proof.
  intros A u eta F S G fftp o s L N eps gl wgl f c d HA HZ HN HB HE Heps H1 H2 H4 HG HP HP4 HIR HPW Hs Ho Hf Hc Hd.
  destruct (xf_bounds A u eta HA L N ltac:(lia) HB HE) as (L1 & UX & _ & _ & U5 & UB & U1 & _ & HE1 & _).
  assert (Hd' : forall g t p x, (0 <= g < 2 * N - 1)%Z -> (0 <= t < rings s L 0)%Z -> (0 <= p < per_ring s L)%Z -> is_colatitude s L 0 t x ->
    Cmod (get (areal f) [g; t; p] - so3_synth L N c (equi_longitude s L p) x (2 * PI * IZR g / IZR (2 * N - 1)))%C <= d).
  { intros g t p x Hg Ht Hp Hx. unfold areal. cbn [get]. eapply Rle_trans; [apply Re_closer, so3_synth_real, Hc|]. now apply Hd. }
  destruct (C76_fft_analysis A u eta F S (full_fft G) fftp o s L N eps gl wgl (areal f) c d HA HZ HN HB HE Heps H1 H2 H4 (full_accurate G (2 * N - 1) eps ltac:(lia) (proj1 Heps) HG) HP HP4 HIR HPW Hs Ho Hf Hd')
    as (K & flmn0 & E2 & E3 & _ & H).
  destruct (qkernel_fft_half A F fftp s gl wgl L N K Hs ltac:(lia) E2) as (Kr & E4 & HH).
  destruct (real_forward_mw A u eta HA U1 S s G fftp o f K Kr L N eps flmn0 Hs HN Heps HE1 H1 H2 H4 Hf Ho (rfft_length G N eps ltac:(lia) HG) (fft_length fftp _ eps HP) HH E3) as (flmn & E5 & Sh & HV).
  set (X := (IZR L * (2 * IZR L + 3))) in *. pose proof (proj1 Heps) as e0. pose proof (rd_eta _ _ _ HA) as eta0.
  assert (D0 : 0 <= d).
  { destruct Hs as [->| ->]; cbn [rings per_ring] in *.
    - eapply Rle_trans; [apply Cmod_ge_0|apply (Hd 0 0 0 (mw_theta L 0))%Z; [lia|lia|lia|reflexivity]].
    - eapply Rle_trans; [apply Cmod_ge_0|apply (Hd 0 0 0 (mwss_theta L 0))%Z; [lia|lia|lia|reflexivity]]. }
  exists Kr, flmn. repeat (split; [assumption|]). intros n l m Hn Hl Hm.
  destruct (real_mw_bound A u eta HA HZ U1 L N flmn0 flmn c (2166 * (u * X) + 204 * eps) (23 * d) 432 ltac:(lia) ltac:(lra) HV Hc ltac:(lra) ltac:(lra) ltac:(lra) H n l m Hn Hl Hm) as [V1 V2].
  split; [|exact V2]. intros M1 M2. eapply Rle_trans; [exact (V1 M1 M2)|]. apply Rmult_le_compat_l; [pose proof (pow2_ge_0 PI); lra|].
  assert (LE : 0 <= IZR L * eta) by (apply Rmult_le_pos; lra).
  assert (KS : (2166 * (u * X) + 204 * eps + 46 * u) * so3_size L N c <= (2176 * (u * X) + 204 * eps) * so3_size L N c) by (apply Rmult_le_compat_r; [apply so3_size_nonneg|lra]). lra.
Qed.
Print Assumptions C80_fft_analysis.
Example C80_fft_analysis_ex : irfft_accurate (f_irfft exact_ffts) 3 (4 * 3) 0 /\ ipow_accurate (f_ipow exact_ffts) (2 * 3) 0 /\ rfft_accurate exact_rfft (2 * 2 - 1) 0 /\
  transforms_accurate exact_rffts (2 * 3 - 1) 0 /\ fft_accurate fft_bwd (4 * 3) 0 /\ sums_all (in_turn 7) (2 * 3 + 1) /\ hermitian3 3 2 (stored3 3 2 flmn3).
Proof.
  split; [apply exact_irfft; lra|]. split; [apply exact_ipow; lra|]. split; [apply exact_rfft_ok; lra|]. split; [apply exact_transforms; (lia || lra)|]. split; [apply exact_fft; lra|].
  split; [apply in_turn_all; lia|apply C34_ex].
Qed.

(** Inverse transform of coefficients with the symmetry of a real signal, then forward transform of the real array it
    returned, both with reality=True. *)
Theorem C80_round_trip : forall A u eta F S G fftp o o' s L N eps gl wgl flmn c, rounded A u eta -> zeros_exact A ->
  (2 <= N <= L)%Z -> 2000 * u * (IZR L * (2 * IZR L + 3)) <= 1 -> 4 * IZR L ^ 3 * eta <= u -> 0 <= eps <= / 100 ->
  transforms_accurate S (2 * L - 1) eps -> transforms_accurate S (2 * L) eps -> transforms_accurate S (4 * L) eps ->
  rfft_accurate G (2 * N - 1) eps -> fft_accurate fftp (2 * L) eps -> fft_accurate fftp (4 * L) eps ->
  s = MW \/ s = MWSS -> ifft_accurate (f_ifft F) (per_ring s L) eps -> irfft_accurate (f_irfft F) N (2 * N - 1) eps ->
  sums_all o L -> sums_all o' (2 * L + 1) -> shape flmn = [2 * N - 1; L; 2 * L - 1]%Z ->
  hermitian3 L N c -> (forall n l m, (0 <= n < N)%Z -> (0 <= l < L)%Z -> (- L < m < L)%Z -> stored3 L N flmn n l m = c n l m) ->
  exists ths K f K' flmn', pf_thetas A (scheme_name s) L gl = Ok ths /\ wr_kernel A ths L N = Ok K /\ wr_inverse A F o flmn K L N (scheme_name s) = Ok f /\
    xq_kernel A fftp (scheme_name s) gl wgl L N = Ok K' /\ xq_forward A S G fftp o' (as_complex f) K' L N (scheme_name s) = Ok flmn' /\
    shape flmn' = [2 * N - 1; L; 2 * L - 1]%Z /\ forall n l m, (- N < n < N)%Z -> (0 <= l < L)%Z -> (- L < m < L)%Z ->
      ((Z.abs m <= l)%Z -> (Z.abs n <= l)%Z -> Cmod (stored3 L N flmn' n l m - c n l m)%C <=
        54 * PI ^ 2 * ((8427 * (u * (IZR L * (2 * IZR L + 3))) + 156 * eps) * so3_size L N c + 1049 * (IZR N * (IZR L * IZR L)) * eta)) /\
      ((l < Z.abs m \/ l < Z.abs n)%Z -> stored3 L N flmn' n l m = RtoC 0).
Proof.
  intros A u eta F S G fftp o o' s L N eps gl wgl flmn c HA HZ HN HB HE Heps H1 H2 H4 HG HP HP4 Hs HF1 HF2 Ho Ho' Hf Hc Hst.
  destruct (xf_bounds A u eta HA L N ltac:(lia) HB HE) as (L1 & UX & _ & _ & _ & UB & U1 & _ & HE1 & _).
  destruct (C78_inverse A u eta F o s L N eps gl flmn c HA HZ ltac:(destruct Hs; auto) ltac:(lia) HB HE1 ltac:(lra) HF1 HF2 Ho Hf Hc Hst) as (ths & K & f & E1 & E2 & E3 & Sf & H).
  set (X := (IZR L * (2 * IZR L + 3))) in *. set (W := IZR N * (IZR L * IZR L)) in *.
  set (d := (520 * u * X + 3 * eps) * so3_size L N c + 53 * W * eta) in *. pose proof (rd_u _ _ _ HA) as u0. pose proof (rd_eta _ _ _ HA) as eta0. pose proof (proj1 Heps) as e0.
  destruct (C80_analysis A u eta S G fftp o' s L N eps gl wgl (as_complex f) c d HA HZ HN HB HE Heps H1 H2 H4 HG HP HP4 Hs Ho' Sf Hc) as (K' & flmn' & E4 & E5 & Sh & HV).
  { intros g t p x Hg Ht Hp Hx. exact (H g t p x Hg Ht Hp Hx). }
  exists ths, K, f, K', flmn'. repeat (split; [assumption|]). intros n l m Hn Hl Hm. destruct (HV n l m Hn Hl Hm) as [V1 V2]. split; [|exact V2]. intros M1 M2.
  eapply Rle_trans; [exact (V1 M1 M2)|]. apply Rmult_le_compat_l; [pose proof (pow2_ge_0 PI); lra|]. fold X.
  assert (WE : IZR L * eta <= W * eta).
  { apply Rmult_le_compat_r; [exact eta0|]. unfold W. assert (1 <= IZR N) by (apply IZR_le; lia). assert (IZR L <= IZR L * IZR L) by nra. nra. }
  assert (LE : 0 <= IZR L * eta) by (apply Rmult_le_pos; lra). unfold d. set (Sz := so3_size L N c). lra.
Qed.
Print Assumptions C80_round_trip.
Example C80_round_trip_ex : rounded exact_arith 0 0 /\ zeros_exact exact_arith /\ ifft_accurate (f_ifft exact_ffts) (per_ring MW 3) 0 /\ irfft_accurate (f_irfft exact_ffts) 2 (2 * 2 - 1) 0 /\
  rfft_accurate exact_rfft (2 * 2 - 1) 0 /\ fft_accurate fft_bwd (2 * 3) 0 /\ sums_all (in_turn 3) 3 /\ sums_all (in_turn 7) (2 * 3 + 1) /\
  shape flmn3 = [2 * 2 - 1; 3; 2 * 3 - 1]%Z /\ hermitian3 3 2 (stored3 3 2 flmn3) /\ stored3 3 2 flmn3 1 1 0 <> RtoC 0.
Proof.
  split; [exact exact_rounded|]. split; [exact exact_zeros|]. split; [apply exact_ifft; [lra|reflexivity]|]. split; [apply exact_irfft; lra|]. split; [apply exact_rfft_ok; lra|].
  split; [apply exact_fft; lra|]. split; [apply in_turn_all; lia|]. split; [apply in_turn_all; lia|]. split; [reflexivity|]. split; apply C34_ex.
Qed.

(** The same with the kernels of mode "fft". *)
Theorem C80_fft_round_trip : forall A u eta F S G fftp o o' s L N eps gl wgl flmn c, rounded A u eta -> zeros_exact A ->
  (2 <= N <= L)%Z -> 2000 * u * (IZR L * (2 * IZR L + 3)) <= 1 -> 4 * IZR L ^ 3 * eta <= u -> 0 <= eps <= / 100 ->
  transforms_accurate S (2 * L - 1) eps -> transforms_accurate S (2 * L) eps -> transforms_accurate S (4 * L) eps ->
  rfft_accurate G (2 * N - 1) eps -> fft_accurate fftp (2 * L) eps -> fft_accurate fftp (4 * L) eps ->
  irfft_accurate (f_irfft F) L (4 * L) eps -> irfft_accurate (f_irfft F) L (circle_points s L) eps -> ipow_accurate (f_ipow F) (2 * L) eps ->
  s = MW \/ s = MWSS -> ifft_accurate (f_ifft F) (per_ring s L) eps -> irfft_accurate (f_irfft F) N (2 * N - 1) eps ->
  sums_all o L -> sums_all o' (2 * L + 1) -> shape flmn = [2 * N - 1; L; 2 * L - 1]%Z ->
  hermitian3 L N c -> (forall n l m, (0 <= n < N)%Z -> (0 <= l < L)%Z -> (- L < m < L)%Z -> stored3 L N flmn n l m = c n l m) ->
  exists ths K f K' flmn', pf_thetas A (scheme_name s) L gl = Ok ths /\ wr_kernel_fft A F (scheme_name s) ths L N = Ok K /\ wr_inverse A F o flmn K L N (scheme_name s) = Ok f /\
    xq_kernel_fft A F fftp (scheme_name s) gl wgl L N = Ok K' /\ xq_forward A S G fftp o' (as_complex f) K' L N (scheme_name s) = Ok flmn' /\
    shape flmn' = [2 * N - 1; L; 2 * L - 1]%Z /\ forall n l m, (- N < n < N)%Z -> (0 <= l < L)%Z -> (- L < m < L)%Z ->
      ((Z.abs m <= l)%Z -> (Z.abs n <= l)%Z -> Cmod (stored3 L N flmn' n l m - c n l m)%C <=
        54 * PI ^ 2 * ((53536 * (u * (IZR L * (2 * IZR L + 3))) + 900 * eps) * so3_size L N c + 1705 * (IZR N * (IZR L * IZR L)) * eta)) /\
      ((l < Z.abs m \/ l < Z.abs n)%Z -> stored3 L N flmn' n l m = RtoC 0).
Proof.
  intros A u eta F S G fftp o o' s L N eps gl wgl flmn c HA HZ HN HB HE Heps H1 H2 H4 HG HP HP4 HIR HIR2 HPW Hs HF1 HF2 Ho Ho' Hf Hc Hst.
  destruct (xf_bounds A u eta HA L N ltac:(lia) HB HE) as (L1 & UX & _ & _ & _ & UB & U1 & _ & HE1 & _).
  destruct (C78_fft_inverse A u eta F o s L N eps gl flmn c HA HZ ltac:(destruct Hs; auto) ltac:(lia) HB HE1 ltac:(lra) HIR2 HPW HF1 HF2 Ho Hf Hc Hst) as (ths & K & f & E1 & E2 & E3 & Sf & H).
  set (X := (IZR L * (2 * IZR L + 3))) in *. set (W := IZR N * (IZR L * IZR L)) in *.
  set (d := (2140 * u * X + 29 * eps) * so3_size L N c + 53 * W * eta) in *. pose proof (rd_u _ _ _ HA) as u0. pose proof (rd_eta _ _ _ HA) as eta0. pose proof (proj1 Heps) as e0.
  destruct (C80_fft_analysis A u eta F S G fftp o' s L N eps gl wgl (as_complex f) c d HA HZ HN HB HE Heps H1 H2 H4 HG HP HP4 HIR HPW Hs Ho' Sf Hc) as (K' & flmn' & E4 & E5 & Sh & HV).
  { intros g t p x Hg Ht Hp Hx. exact (H g t p x Hg Ht Hp Hx). }
  exists ths, K, f, K', flmn'. repeat (split; [assumption|]). intros n l m Hn Hl Hm. destruct (HV n l m Hn Hl Hm) as [V1 V2]. split; [|exact V2]. intros M1 M2.
  eapply Rle_trans; [exact (V1 M1 M2)|]. apply Rmult_le_compat_l; [pose proof (pow2_ge_0 PI); lra|]. fold X.
  assert (WE : IZR L * eta <= W * eta).
  { apply Rmult_le_compat_r; [exact eta0|]. unfold W. assert (1 <= IZR N) by (apply IZR_le; lia). assert (IZR L <= IZR L * IZR L) by nra. nra. }
  assert (LE : 0 <= IZR L * eta) by (apply Rmult_le_pos; lra). unfold d. set (Sz := so3_size L N c). lra.
Qed.
Print Assumptions C80_fft_round_trip.
Example C80_fft_round_trip_ex : irfft_accurate (f_irfft exact_ffts) 3 (4 * 3) 0 /\ irfft_accurate (f_irfft exact_ffts) 3 (circle_points MWSS 3) 0 /\ ipow_accurate (f_ipow exact_ffts) (2 * 3) 0 /\
  ifft_accurate (f_ifft exact_ffts) (per_ring MWSS 3) 0 /\ irfft_accurate (f_irfft exact_ffts) 2 (2 * 2 - 1) 0 /\ hermitian3 3 2 (stored3 3 2 flmn3).
Proof.
  split; [apply exact_irfft; lra|]. split; [apply exact_irfft; lra|]. split; [apply exact_ipow; lra|]. split; [apply exact_ifft; [lra|reflexivity]|]. split; [apply exact_irfft; lra|apply C34_ex].
Qed.

(** Without rounding and with exact Fourier transforms: the coefficients themselves, at every n. *)
Theorem C80_exact : forall s L N gl wgl f c o, (2 <= N <= L)%Z -> s = MW \/ s = MWSS -> sums_all o (2 * L + 1) -> shape f = [2 * N - 1; rings s L 0; per_ring s L]%Z -> hermitian3 L N c ->
  (forall g t p x, (0 <= g < 2 * N - 1)%Z -> (0 <= t < rings s L 0)%Z -> (0 <= p < per_ring s L)%Z -> is_colatitude s L 0 t x ->
    get f [g; t; p] = so3_synth L N c (equi_longitude s L p) x (2 * PI * IZR g / IZR (2 * N - 1))) ->
  exists K flmn, xq_kernel exact_arith fft_bwd (scheme_name s) gl wgl L N = Ok K /\ xq_forward exact_arith exact_rffts exact_rfft fft_bwd o f K L N (scheme_name s) = Ok flmn /\
    shape flmn = [2 * N - 1; L; 2 * L - 1]%Z /\ forall n l m, (- N < n < N)%Z -> (0 <= l < L)%Z -> (- L < m < L)%Z ->
      get flmn [n + N - 1; l; m + L - 1]%Z = if ((Z.abs m <=? l) && (Z.abs n <=? l))%Z then c n l m else RtoC 0.
Proof.
  intros s L N gl wgl f c o HN Hm Ho Hf Hc Hd.
  destruct (C80_analysis exact_arith 0 0 exact_rffts exact_rfft fft_bwd o s L N 0 gl wgl f c 0 exact_rounded exact_zeros HN) as (K & flmn & E1 & E2 & Sh & H); try assumption; try lra;
    try (apply exact_transforms; (lia || lra)); try (apply exact_fft; lra); try (apply exact_rfft_ok; lra); try (apply exact_irfft; lra); try (apply exact_ipow; lra).
  - intros g t p x Hg Ht Hp Hx. rewrite (Hd g t p x Hg Ht Hp Hx). replace (_ - _)%C with (RtoC 0) by ring. rewrite Cmod_0. lra.
  - exists K, flmn. repeat (split; [assumption|]). intros n l m Hn Hl Hmm. destruct (H n l m Hn Hl Hmm) as [H1 H2].
    change (get flmn [n + N - 1; l; m + L - 1]%Z) with (stored3 L N flmn n l m).
    destruct (Z.leb_spec (Z.abs m) l), (Z.leb_spec (Z.abs n) l); cbn [andb]; try (apply H2; lia).
    specialize (H1 ltac:(lia) ltac:(lia)). set (z := (stored3 L N flmn n l m - c n l m)%C) in *.
    assert (Z0 : Cmod z = 0) by (pose proof (Cmod_ge_0 z); lra). apply Cmod_eq_0 in Z0. unfold z in Z0.
    replace (stored3 L N flmn n l m) with (stored3 L N flmn n l m - c n l m + c n l m)%C by ring. rewrite Z0. ring.
Qed.
Print Assumptions C80_exact.
Example C80_exact_ex : exists f, shape f = [2 * 2 - 1; rings MWSS 3 0; per_ring MWSS 3]%Z /\ hermitian3 3 2 (stored3 3 2 flmn3) /\ sums_all (in_turn 7) (2 * 3 + 1) /\
  forall g t p x, is_colatitude MWSS 3 0 t x -> get f [g; t; p] = so3_synth 3 2 (stored3 3 2 flmn3) (equi_longitude MWSS 3 p) x (2 * PI * IZR g / IZR (2 * 2 - 1)).
Proof.
  exists (mkArr [2 * 2 - 1; rings MWSS 3 0; per_ring MWSS 3]%Z (fun ix => so3_synth 3 2 (stored3 3 2 flmn3) (equi_longitude MWSS 3 (nth 2 ix 0%Z)) (mwss_theta 3 (nth 1 ix 0%Z)) (2 * PI * IZR (nth 0 ix 0%Z) / IZR (2 * 2 - 1)))).
  split; [reflexivity|]. split; [apply C34_ex|]. split; [apply in_turn_all; lia|]. intros g t p x Hx. cbn in Hx. subst x. reflexivity.
Qed.

(** The same with the kernel of mode "fft". *)
Theorem C80_fft_exact : forall s L N gl wgl f c o, (2 <= N <= L)%Z -> s = MW \/ s = MWSS -> sums_all o (2 * L + 1) -> shape f = [2 * N - 1; rings s L 0; per_ring s L]%Z -> hermitian3 L N c ->
  (forall g t p x, (0 <= g < 2 * N - 1)%Z -> (0 <= t < rings s L 0)%Z -> (0 <= p < per_ring s L)%Z -> is_colatitude s L 0 t x ->
    get f [g; t; p] = so3_synth L N c (equi_longitude s L p) x (2 * PI * IZR g / IZR (2 * N - 1))) ->
  exists K flmn, xq_kernel_fft exact_arith exact_ffts fft_bwd (scheme_name s) gl wgl L N = Ok K /\ xq_forward exact_arith exact_rffts exact_rfft fft_bwd o f K L N (scheme_name s) = Ok flmn /\
    shape flmn = [2 * N - 1; L; 2 * L - 1]%Z /\ forall n l m, (- N < n < N)%Z -> (0 <= l < L)%Z -> (- L < m < L)%Z ->
      get flmn [n + N - 1; l; m + L - 1]%Z = if ((Z.abs m <=? l) && (Z.abs n <=? l))%Z then c n l m else RtoC 0.
Proof.
  intros s L N gl wgl f c o HN Hm Ho Hf Hc Hd.
  destruct (C80_fft_analysis exact_arith 0 0 exact_ffts exact_rffts exact_rfft fft_bwd o s L N 0 gl wgl f c 0 exact_rounded exact_zeros HN) as (K & flmn & E1 & E2 & Sh & H); try assumption; try lra;
    try (apply exact_transforms; (lia || lra)); try (apply exact_fft; lra); try (apply exact_rfft_ok; lra); try (apply exact_irfft; lra); try (apply exact_ipow; lra).
  - intros g t p x Hg Ht Hp Hx. rewrite (Hd g t p x Hg Ht Hp Hx). replace (_ - _)%C with (RtoC 0) by ring. rewrite Cmod_0. lra.
  - exists K, flmn. repeat (split; [assumption|]). intros n l m Hn Hl Hmm. destruct (H n l m Hn Hl Hmm) as [H1 H2].
    change (get flmn [n + N - 1; l; m + L - 1]%Z) with (stored3 L N flmn n l m).
    destruct (Z.leb_spec (Z.abs m) l), (Z.leb_spec (Z.abs n) l); cbn [andb]; try (apply H2; lia).
    specialize (H1 ltac:(lia) ltac:(lia)). set (z := (stored3 L N flmn n l m - c n l m)%C) in *.
    assert (Z0 : Cmod z = 0) by (pose proof (Cmod_ge_0 z); lra). apply Cmod_eq_0 in Z0. unfold z in Z0.
    replace (stored3 L N flmn n l m) with (stored3 L N flmn n l m - c n l m + c n l m)%C by ring. rewrite Z0. ring.
Qed.
Print Assumptions C80_fft_exact.
Example C80_fft_exact_ex : exists f, shape f = [2 * 2 - 1; rings MW 3 0; per_ring MW 3]%Z /\ hermitian3 3 2 (stored3 3 2 flmn3) /\ sums_all (in_turn 7) (2 * 3 + 1) /\
  forall g t p x, is_colatitude MW 3 0 t x -> get f [g; t; p] = so3_synth 3 2 (stored3 3 2 flmn3) (equi_longitude MW 3 p) x (2 * PI * IZR g / IZR (2 * 2 - 1)).
Proof.
  exists (mkArr [2 * 2 - 1; rings MW 3 0; per_ring MW 3]%Z (fun ix => so3_synth 3 2 (stored3 3 2 flmn3) (equi_longitude MW 3 (nth 2 ix 0%Z)) (mw_theta 3 (nth 1 ix 0%Z)) (2 * PI * IZR (nth 0 ix 0%Z) / IZR (2 * 2 - 1)))).
  split; [reflexivity|]. split; [apply C34_ex|]. split; [apply in_turn_all; lia|]. intros g t p x Hx. cbn in Hx. subst x. reflexivity.
Qed.

(** Binary64 with Fourier transforms of relative accuracy 1e-14, up to band-limit a million. *)
Theorem C80_binary64 : forall F S G fftp o o' s L N gl wgl flmn c, (2 <= N <= L)%Z -> (L <= 2 ^ 20)%Z ->
  transforms_accurate S (2 * L - 1) (/ 10 ^ 14) -> transforms_accurate S (2 * L) (/ 10 ^ 14) -> transforms_accurate S (4 * L) (/ 10 ^ 14) ->
  rfft_accurate G (2 * N - 1) (/ 10 ^ 14) -> fft_accurate fftp (2 * L) (/ 10 ^ 14) -> fft_accurate fftp (4 * L) (/ 10 ^ 14) ->
  s = MW \/ s = MWSS -> ifft_accurate (f_ifft F) (per_ring s L) (/ 10 ^ 14) -> irfft_accurate (f_irfft F) N (2 * N - 1) (/ 10 ^ 14) ->
  sums_all o L -> sums_all o' (2 * L + 1) -> shape flmn = [2 * N - 1; L; 2 * L - 1]%Z ->
  hermitian3 L N c -> (forall n l m, (0 <= n < N)%Z -> (0 <= l < L)%Z -> (- L < m < L)%Z -> stored3 L N flmn n l m = c n l m) ->
  exists ths K f K' flmn', pf_thetas binary64 (scheme_name s) L gl = Ok ths /\ wr_kernel binary64 ths L N = Ok K /\ wr_inverse binary64 F o flmn K L N (scheme_name s) = Ok f /\
    xq_kernel binary64 fftp (scheme_name s) gl wgl L N = Ok K' /\ xq_forward binary64 S G fftp o' (as_complex f) K' L N (scheme_name s) = Ok flmn' /\
    shape flmn' = [2 * N - 1; L; 2 * L - 1]%Z /\ forall n l m, (- N < n < N)%Z -> (0 <= l < L)%Z -> (- L < m < L)%Z ->
      ((Z.abs m <= l)%Z -> (Z.abs n <= l)%Z -> Cmod (stored3 L N flmn' n l m - c n l m)%C <=
        54 * PI ^ 2 * ((94 / 10 ^ 14 * (IZR L * (2 * IZR L + 3)) + 156 / 10 ^ 14) * so3_size L N c + / 10 ^ 300)) /\
      ((l < Z.abs m \/ l < Z.abs n)%Z -> stored3 L N flmn' n l m = RtoC 0).
Proof.
  intros F S G fftp o o' s L N gl wgl flmn c HN HL2 H1 H2 H4 HG HP HP4 Hs HF1 HF2 Ho Ho' Hf Hc Hst. assert (L1 : 1 <= IZR L) by (apply IZR_le; lia).
  destruct (b64_cond L N 1049 ltac:(lia) HL2 ltac:(lia)) as (C1 & C2 & C3).
  destruct (C80_round_trip binary64 u64 eta64 F S G fftp o o' s L N (/ 10 ^ 14) gl wgl flmn c binary64_rounded (ieee_zeros _ _) HN C1 C2) as (ths & K & f & K' & flmn' & E1 & E2 & E3 & E4 & E5 & Sh & H); try assumption.
  - cbn. lra.
  - exists ths, K, f, K', flmn'. repeat (split; [assumption|]). intros n l m Hn Hl Hm. destruct (H n l m Hn Hl Hm) as [V1 V2]. split; [|exact V2]. intros M1 M2.
    eapply Rle_trans; [exact (V1 M1 M2)|]. apply Rmult_le_compat_l; [pose proof (pow2_ge_0 PI); lra|].
    apply Rplus_le_compat; [|exact C3].
    apply Rmult_le_compat_r; [apply so3_size_nonneg|]. rewrite u64_value. apply Rplus_le_compat; [|unfold Rdiv; lra].
    rewrite <- Rmult_assoc. apply Rmult_le_compat_r; [nra|]. cbn. lra.
Qed.
Print Assumptions C80_binary64.
Example C80_binary64_ex : (2 <= 5 <= 256)%Z /\ (256 <= 2 ^ 20)%Z /\ transforms_accurate exact_rffts (2 * 256 - 1) (/ 10 ^ 14) /\ transforms_accurate exact_rffts (4 * 256) (/ 10 ^ 14) /\
  rfft_accurate exact_rfft (2 * 5 - 1) (/ 10 ^ 14) /\ fft_accurate fft_bwd (4 * 256) (/ 10 ^ 14) /\ ifft_accurate (f_ifft exact_ffts) (per_ring MWSS 256) (/ 10 ^ 14) /\
  irfft_accurate (f_irfft exact_ffts) 5 (2 * 5 - 1) (/ 10 ^ 14) /\ sums_all (in_turn (2 * 256 + 1)) (2 * 256 + 1) /\ hermitian3 3 2 (stored3 3 2 flmn3).
Proof.
  assert (0 <= / 10 ^ 14) by (left; apply Rinv_0_lt_compat; cbn; lra). split; [lia|]. split; [lia|]. do 2 (split; [apply exact_transforms; auto; lia|]). split; [now apply exact_rfft_ok|].
  split; [now apply exact_fft|]. split; [now apply exact_ifft|]. split; [now apply exact_irfft|]. split; [apply in_turn_all; lia|apply C34_ex].
Qed.

(** The same with the kernels of mode "fft". *)
Theorem C80_fft_binary64 : forall F S G fftp o o' s L N gl wgl flmn c, (2 <= N <= L)%Z -> (L <= 2 ^ 20)%Z ->
  transforms_accurate S (2 * L - 1) (/ 10 ^ 14) -> transforms_accurate S (2 * L) (/ 10 ^ 14) -> transforms_accurate S (4 * L) (/ 10 ^ 14) ->
  rfft_accurate G (2 * N - 1) (/ 10 ^ 14) -> fft_accurate fftp (2 * L) (/ 10 ^ 14) -> fft_accurate fftp (4 * L) (/ 10 ^ 14) ->
  irfft_accurate (f_irfft F) L (4 * L) (/ 10 ^ 14) -> irfft_accurate (f_irfft F) L (circle_points s L) (/ 10 ^ 14) -> ipow_accurate (f_ipow F) (2 * L) (/ 10 ^ 14) ->
  s = MW \/ s = MWSS -> ifft_accurate (f_ifft F) (per_ring s L) (/ 10 ^ 14) -> irfft_accurate (f_irfft F) N (2 * N - 1) (/ 10 ^ 14) ->
  sums_all o L -> sums_all o' (2 * L + 1) -> shape flmn = [2 * N - 1; L; 2 * L - 1]%Z ->
  hermitian3 L N c -> (forall n l m, (0 <= n < N)%Z -> (0 <= l < L)%Z -> (- L < m < L)%Z -> stored3 L N flmn n l m = c n l m) ->
  exists ths K f K' flmn', pf_thetas binary64 (scheme_name s) L gl = Ok ths /\ wr_kernel_fft binary64 F (scheme_name s) ths L N = Ok K /\ wr_inverse binary64 F o flmn K L N (scheme_name s) = Ok f /\
    xq_kernel_fft binary64 F fftp (scheme_name s) gl wgl L N = Ok K' /\ xq_forward binary64 S G fftp o' (as_complex f) K' L N (scheme_name s) = Ok flmn' /\
    shape flmn' = [2 * N - 1; L; 2 * L - 1]%Z /\ forall n l m, (- N < n < N)%Z -> (0 <= l < L)%Z -> (- L < m < L)%Z ->
      ((Z.abs m <= l)%Z -> (Z.abs n <= l)%Z -> Cmod (stored3 L N flmn' n l m - c n l m)%C <=
        54 * PI ^ 2 * ((595 / 10 ^ 14 * (IZR L * (2 * IZR L + 3)) + 900 / 10 ^ 14) * so3_size L N c + / 10 ^ 300)) /\
      ((l < Z.abs m \/ l < Z.abs n)%Z -> stored3 L N flmn' n l m = RtoC 0).
Proof.
  intros F S G fftp o o' s L N gl wgl flmn c HN HL2 H1 H2 H4 HG HP HP4 HIR HIR2 HPW Hs HF1 HF2 Ho Ho' Hf Hc Hst. assert (L1 : 1 <= IZR L) by (apply IZR_le; lia).
  destruct (b64_cond L N 1705 ltac:(lia) HL2 ltac:(lia)) as (C1 & C2 & C3).
  destruct (C80_fft_round_trip binary64 u64 eta64 F S G fftp o o' s L N (/ 10 ^ 14) gl wgl flmn c binary64_rounded (ieee_zeros _ _) HN C1 C2) as (ths & K & f & K' & flmn' & E1 & E2 & E3 & E4 & E5 & Sh & H); try assumption.
  - cbn. lra.
  - exists ths, K, f, K', flmn'. repeat (split; [assumption|]). intros n l m Hn Hl Hm. destruct (H n l m Hn Hl Hm) as [V1 V2]. split; [|exact V2]. intros M1 M2.
    eapply Rle_trans; [exact (V1 M1 M2)|]. apply Rmult_le_compat_l; [pose proof (pow2_ge_0 PI); lra|].
    apply Rplus_le_compat; [|exact C3].
    apply Rmult_le_compat_r; [apply so3_size_nonneg|]. rewrite u64_value. apply Rplus_le_compat; [|unfold Rdiv; lra].
    rewrite <- Rmult_assoc. apply Rmult_le_compat_r; [nra|]. cbn. lra.
Qed.
Print Assumptions C80_fft_binary64.
Example C80_fft_binary64_ex : irfft_accurate (f_irfft exact_ffts) 256 (4 * 256) (/ 10 ^ 14) /\ irfft_accurate (f_irfft exact_ffts) 256 (circle_points MW 256) (/ 10 ^ 14) /\
  ipow_accurate (f_ipow exact_ffts) (2 * 256) (/ 10 ^ 14) /\ ifft_accurate (f_ifft exact_ffts) (per_ring MW 256) (/ 10 ^ 14).
Proof.
  assert (0 <= / 10 ^ 14) by (left; apply Rinv_0_lt_compat; cbn; lra). split; [now apply exact_irfft|]. split; [now apply exact_irfft|]. split; [now apply exact_ipow|]. now apply exact_ifft.
Qed.
