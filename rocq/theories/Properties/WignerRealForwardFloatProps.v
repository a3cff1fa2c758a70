(** C79: the precomputed forward transform on the rotation group of real signals (reality=True) and the round trip
    in floating-point arithmetic. *)
From Coq Require Import Reals Lra Lia ZifyBool.
From Coquelicot Require Import Complex.
From Flocq Require Import Core.
From Verif Require Import Lib.Py Lib.PyFacts Lib.Vec Lib.Sums Lib.Cplx Lib.Arr Model.Index Model.Samples Model.FFT Model.RisboFloat Model.Spherical Model.Precompute Model.PrecomputeFloat Model.ForwardFloat
  Model.PrecomputeWigner Model.WignerFloat Model.WignerForwardFloat Model.WignerRealFloat Model.WignerRealForwardFloat
  Spec.SamplesSpec Spec.WignerSpec Spec.SphereSpec Spec.GridSpec Spec.QuadSpec Spec.SphericalSpec Spec.SO3Spec Spec.OTFWignerSpec Spec.RoundingSpec Spec.PrecomputeFloatSpec Spec.ForwardFloatSpec
  Spec.WignerFloatSpec Spec.WignerForwardFloatSpec Spec.RealFloatSpec
  Proofs.GaussProofs Proofs.RisboFloatProofs Proofs.RisboProofs Proofs.FloatKernel Proofs.FloatInverse Proofs.FloatFourier Proofs.FloatTop Proofs.FloatForward Proofs.FloatForwardTop Proofs.FloatWigner
  Proofs.FloatWignerForward Proofs.FloatWignerForwardTop Proofs.FloatReal Proofs.FloatWignerReal Proofs.FloatWignerRealForward Proofs.WignerRound Proofs.Binary64
  Properties.WignerProps Properties.WignerForwardFloatProps Properties.WignerRealFloatProps.
Open Scope string_scope.
Open Scope R_scope.

Local Lemma rfft_length G N eps : (1 <= N)%Z -> rfft_accurate G (2 * N - 1) eps -> forall v, vlen v = (2 * N - 1)%Z -> vlen (G v) = N.
Proof. intros HN H v Hv. rewrite (proj1 (H v Hv)). replace ((2 * N - 1) / 2)%Z with (N - 1)%Z by (apply (Z.div_unique _ _ _ 1); lia). lia. Qed.
Local Lemma fft_length F n eps : fft_accurate F n eps -> forall v, vlen v = n -> vlen (F v) = n.
Proof. intros H v Hv. exact (proj1 (H v Hv)). Qed.
Local Lemma thetas_length A L gl ths : pf_thetas A "dh" L gl = Ok ths -> (1 <= L)%Z -> vlen ths = (2 * L)%Z.
Proof. intros E HL. unfold pf_thetas in E. cbn in E. now injection E as <-. Qed.

(** Only the real parts of the samples are read. *)
Theorem C79_real_part : forall A G fftp o f f' K L N sampling, shape f = shape f' -> (forall i t p, Re (get f [i; t; p]) = Re (get f' [i; t; p])) ->
  xr_forward A G fftp o f K L N sampling = xr_forward A G fftp o f' K L N sampling.
Proof.
  intros A G fftp o f f' K L N sampling Hs H. assert (E : xr_gamma G f = xr_gamma G f').
  { unfold xr_gamma, dim0, dim1, dim2. rewrite Hs. f_equal.
    - f_equal. f_equal. unfold vmap. cbn [vlen vat]. f_equal. apply FunctionalExtensionality.functional_extensionality. intros i. apply H.
    - apply FunctionalExtensionality.functional_extensionality. intros k. apply FunctionalExtensionality.functional_extensionality. intros t.
      apply FunctionalExtensionality.functional_extensionality. intros p. do 2 f_equal. unfold vmap. cbn [vlen vat]. f_equal. apply FunctionalExtensionality.functional_extensionality. intros i. apply H. }
  unfold xr_forward. now rewrite E.
Qed.
Print Assumptions C79_real_part.
Example C79_real_part_ex : let f := zeros (1, 2) [3; 6; 5]%Z in let f' := zeros (1, -7) [3; 6; 5]%Z in
  shape f = shape f' /\ (forall i t p, Re (get f [i; t; p]) = Re (get f' [i; t; p])) /\ get f [1; 2; 3]%Z <> get f' [1; 2; 3]%Z.
Proof. intros f f'. split; [reflexivity|]. split; [reflexivity|]. cbn. intros E. injection E. lra. Qed.

(** Samples that differ by at most d from a real band-limited signal, on Driscoll-Healy rings: a real Fourier transform
    along gamma, half a kernel, and the planes of the negative n filled in by the symmetry.  All the coefficients of
    the signal, those planes included, are recovered to within a multiple of (u L^2 + eps) of its size and of d, and
    exactly zero is returned where the d-function does not exist. *)
Theorem C79_analysis : forall A u eta G fftp o L N eps gl wgl f c d, rounded A u eta -> zeros_exact A ->
  (1 <= N <= L)%Z -> 2000 * u * (IZR L * (2 * IZR L + 3)) <= 1 -> 4 * IZR L ^ 3 * eta <= u -> 0 <= eps <= / 20 ->
  rfft_accurate G (2 * N - 1) eps -> fft_accurate fftp (2 * L - 1) eps ->
  sums_all o (2 * L) -> shape f = [2 * N - 1; 2 * L; 2 * L - 1]%Z -> hermitian3 L N c ->
  (forall g t p, (0 <= g < 2 * N - 1)%Z -> (0 <= t < 2 * L)%Z -> (0 <= p < 2 * L - 1)%Z ->
    Cmod (get f [g; t; p] - so3_synth L N c (equi_longitude DH L p) (dh_theta L t) (2 * PI * IZR g / IZR (2 * N - 1)))%C <= d) ->
  exists ths K flmn, pf_thetas A "dh" L gl = Ok ths /\ xr_kernel A "dh" ths wgl L N = Ok K /\ xr_forward A G fftp o f K L N "dh" = Ok flmn /\
    shape flmn = [2 * N - 1; L; 2 * L - 1]%Z /\ forall n l m, (- N < n < N)%Z -> (0 <= l < L)%Z -> (- L < m < L)%Z ->
      ((Z.abs m <= l)%Z -> (Z.abs n <= l)%Z ->
        Cmod (stored3 L N flmn n l m - c n l m)%C <= 16 * PI ^ 2 * ((710 * u * (IZR L * (2 * IZR L + 3)) + 3 * eps) * (so3_size L N c + d) + d + 2 * IZR L * eta)) /\
      ((l < Z.abs m \/ l < Z.abs n)%Z -> stored3 L N flmn n l m = RtoC 0).
Proof.
  intros A u eta G fftp o L N eps gl wgl f c d HA HZ HN HB HE Heps HG HP Ho Hf Hc Hd.
  pose proof (real_samples f L N (2 * L) c _ _ (fun g => 2 * PI * IZR g / IZR (2 * N - 1)) d Hc Hf Hd) as Hd'.
  destruct (C75_analysis A u eta (full_fft G) fftp o L N eps gl wgl (areal f) c d HA HZ HN HB HE Heps (full_accurate G (2 * N - 1) eps ltac:(lia) (proj1 Heps) HG) HP Ho Hf Hd')
    as (ths & K & flmn0 & E1 & E2 & E3 & _ & H).
  destruct (xkernel_half A "dh" ths wgl L N K HN E2) as (Kr & E4 & HH). rewrite (thetas_length A L gl ths E1) in HH by lia.
  destruct (xf_bounds A u eta HA L N HN HB HE) as (L1 & UX & _ & _ & U5 & UB & U1 & _). set (X := (IZR L * (2 * IZR L + 3))) in *.
  assert (D0 : 0 <= d) by (eapply Rle_trans; [apply Cmod_ge_0|apply (Hd 0 0 0)%Z; lia]). pose proof (proj1 Heps) as e0. pose proof (pow2_ge_0 PI) as P0.
  destruct (real_coefficients A u eta HA HZ U1 DH G fftp o f K Kr L N flmn0 c (16 * PI ^ 2) (690 * u * X + 3 * eps) d (or_introl eq_refl) HN Hf Ho
    (rfft_length G N eps ltac:(lia) HG) (fft_length fftp _ eps HP) HH E3 Hc ltac:(lra) ltac:(lra) D0 H) as (flmn & E5 & Sh & HV).
  exists ths, Kr, flmn. repeat (split; [assumption|]). intros n l m Hn Hl Hm. destruct (HV n l m Hn Hl Hm) as [V1 V2]. split; [|exact V2]. intros M1 M2.
  eapply Rle_trans; [exact (V1 M1 M2)|]. apply Rmult_le_compat_l; [lra|]. do 2 apply Rplus_le_compat_r. apply Rmult_le_compat_r; [pose proof (so3_size_nonneg L N c); lra|]. lra.
Qed.
Print Assumptions C79_analysis.
Local Lemma real_signal_ex : let c := stored3 3 2 flmn3 in
  let f := mkArr [2 * 2 - 1; 2 * 3; 2 * 3 - 1]%Z (fun ix => so3_synth 3 2 c (equi_longitude DH 3 (nth 2 ix 0%Z)) (dh_theta 3 (nth 1 ix 0%Z)) (2 * PI * IZR (nth 0 ix 0%Z) / IZR (2 * 2 - 1))) in
  shape f = [2 * 2 - 1; 2 * 3; 2 * 3 - 1]%Z /\ hermitian3 3 2 c /\ c 1%Z 1%Z 0%Z <> RtoC 0 /\ forall g t p, (0 <= g < 2 * 2 - 1)%Z -> (0 <= t < 2 * 3)%Z -> (0 <= p < 2 * 3 - 1)%Z ->
    Cmod (get f [g; t; p] - so3_synth 3 2 c (equi_longitude DH 3 p) (dh_theta 3 t) (2 * PI * IZR g / IZR (2 * 2 - 1)))%C <= 0.
Proof.
  intros c f. split; [reflexivity|]. split; [apply C34_ex|]. split; [apply C34_ex|]. intros g t p _ _ _. unfold f. cbn [get nth]. replace (_ - _)%C with (RtoC 0) by ring. rewrite Cmod_0. lra.
Qed.
Example C79_analysis_ex : rounded binary64 u64 eta64 /\ zeros_exact binary64 /\ 2000 * u64 * (IZR 3 * (2 * IZR 3 + 3)) <= 1 /\ 4 * IZR 3 ^ 3 * eta64 <= u64 /\
  rfft_accurate exact_rfft (2 * 2 - 1) 0 /\ fft_accurate fft_bwd (2 * 3 - 1) 0 /\ sums_all (in_turn 6) (2 * 3) /\ exists f, shape f = [2 * 2 - 1; 2 * 3; 2 * 3 - 1]%Z /\ hermitian3 3 2 (stored3 3 2 flmn3) /\
  forall g t p, (0 <= g < 2 * 2 - 1)%Z -> (0 <= t < 2 * 3)%Z -> (0 <= p < 2 * 3 - 1)%Z ->
    Cmod (get f [g; t; p] - so3_synth 3 2 (stored3 3 2 flmn3) (equi_longitude DH 3 p) (dh_theta 3 t) (2 * PI * IZR g / IZR (2 * 2 - 1)))%C <= 0.
Proof.
  split; [exact binary64_rounded|]. split; [apply ieee_zeros|]. split; [rewrite u64_value; cbn; lra|].
  split; [eapply Rle_trans; [|apply (eta64_tiny 14); lia]; apply Rmult_le_compat_r; [apply bpow_ge_0|]; cbn; lra|].
  split; [apply exact_rfft_ok; lra|]. split; [apply exact_fft; lra|]. split; [apply in_turn_all; lia|].
  destruct real_signal_ex as (H1 & H2 & _ & H4). eexists. split; [|split; [exact H2|exact H4]]. exact H1.
Qed.

(** With the kernel of mode "fft". *)
Theorem C79_fft_analysis : forall A u eta F G fftp o L N eps gl wgl f c d, rounded A u eta -> zeros_exact A ->
  (1 <= N <= L)%Z -> 2000 * u * (IZR L * (2 * IZR L + 3)) <= 1 -> 4 * IZR L ^ 3 * eta <= u -> 0 <= eps <= / 20 ->
  irfft_accurate (f_irfft F) L (4 * L) eps -> ipow_accurate (f_ipow F) (2 * L) eps ->
  rfft_accurate G (2 * N - 1) eps -> fft_accurate fftp (2 * L - 1) eps ->
  sums_all o (2 * L) -> shape f = [2 * N - 1; 2 * L; 2 * L - 1]%Z -> hermitian3 L N c ->
  (forall g t p, (0 <= g < 2 * N - 1)%Z -> (0 <= t < 2 * L)%Z -> (0 <= p < 2 * L - 1)%Z ->
    Cmod (get f [g; t; p] - so3_synth L N c (equi_longitude DH L p) (dh_theta L t) (2 * PI * IZR g / IZR (2 * N - 1)))%C <= d) ->
  exists ths K flmn, pf_thetas A "dh" L gl = Ok ths /\ xr_kernel_fft A F "dh" ths wgl L N = Ok K /\ xr_forward A G fftp o f K L N "dh" = Ok flmn /\
    shape flmn = [2 * N - 1; L; 2 * L - 1]%Z /\ forall n l m, (- N < n < N)%Z -> (0 <= l < L)%Z -> (- L < m < L)%Z ->
      ((Z.abs m <= l)%Z -> (Z.abs n <= l)%Z ->
        Cmod (stored3 L N flmn n l m - c n l m)%C <= 16 * PI ^ 2 * ((2340 * u * (IZR L * (2 * IZR L + 3)) + 27 * eps) * (so3_size L N c + d) + d + 2 * IZR L * eta)) /\
      ((l < Z.abs m \/ l < Z.abs n)%Z -> stored3 L N flmn n l m = RtoC 0).
Proof.
  intros A u eta F G fftp o L N eps gl wgl f c d HA HZ HN HB HE Heps HF HI HG HP Ho Hf Hc Hd.
  pose proof (real_samples f L N (2 * L) c _ _ (fun g => 2 * PI * IZR g / IZR (2 * N - 1)) d Hc Hf Hd) as Hd'.
  destruct (C75_fft_analysis A u eta F (full_fft G) fftp o L N eps gl wgl (areal f) c d HA HZ HN HB HE Heps HF HI (full_accurate G (2 * N - 1) eps ltac:(lia) (proj1 Heps) HG) HP Ho Hf Hd')
    as (ths & K & flmn0 & E1 & E2 & E3 & _ & H).
  destruct (xkernel_fft_half A F "dh" ths wgl L N K HN E2) as (Kr & E4 & HH). rewrite (thetas_length A L gl ths E1) in HH by lia.
  destruct (xf_bounds A u eta HA L N HN HB HE) as (L1 & UX & _ & _ & U5 & UB & U1 & _). set (X := (IZR L * (2 * IZR L + 3))) in *.
  assert (D0 : 0 <= d) by (eapply Rle_trans; [apply Cmod_ge_0|apply (Hd 0 0 0)%Z; lia]). pose proof (proj1 Heps) as e0. pose proof (pow2_ge_0 PI) as P0.
  destruct (real_coefficients A u eta HA HZ U1 DH G fftp o f K Kr L N flmn0 c (16 * PI ^ 2) (2320 * u * X + 27 * eps) d (or_introl eq_refl) HN Hf Ho
    (rfft_length G N eps ltac:(lia) HG) (fft_length fftp _ eps HP) HH E3 Hc ltac:(lra) ltac:(lra) D0 H) as (flmn & E5 & Sh & HV).
  exists ths, Kr, flmn. repeat (split; [assumption|]). intros n l m Hn Hl Hm. destruct (HV n l m Hn Hl Hm) as [V1 V2]. split; [|exact V2]. intros M1 M2.
  eapply Rle_trans; [exact (V1 M1 M2)|]. apply Rmult_le_compat_l; [lra|]. do 2 apply Rplus_le_compat_r. apply Rmult_le_compat_r; [pose proof (so3_size_nonneg L N c); lra|]. lra.
Qed.
Print Assumptions C79_fft_analysis.
Example C79_fft_analysis_ex : irfft_accurate (f_irfft exact_ffts) 3 (4 * 3) 0 /\ ipow_accurate (f_ipow exact_ffts) (2 * 3) 0 /\ rfft_accurate exact_rfft (2 * 2 - 1) 0 /\
  fft_accurate fft_bwd (2 * 3 - 1) 0 /\ sums_all (in_turn 6) (2 * 3) /\ hermitian3 3 2 (stored3 3 2 flmn3).
Proof.
  split; [apply exact_irfft; lra|]. split; [apply exact_ipow; lra|]. split; [apply exact_rfft_ok; lra|]. split; [apply exact_fft; lra|]. split; [apply in_turn_all; lia|apply C34_ex].
Qed.

(** Gauss-Legendre rings, whose colatitudes and weights are given to within delta and dw. *)
Theorem C79_gl : forall A u eta G fftp o L N eps nodes wg gl wgl delta dw f c d, rounded A u eta -> zeros_exact A ->
  (1 <= N <= L)%Z -> 2000 * u * (IZR L * (2 * IZR L + 3)) <= 1 -> 4 * IZR L ^ 4 * eta <= u -> 0 <= eps <= / 20 ->
  gauss_legendre L nodes wg ->
  vlen gl = L -> 0 <= delta /\ IZR L * delta <= / 20 ->
  (forall t, (0 <= t < L)%Z -> Rabs (vat gl t - acos (vat nodes (L - 1 - t))) <= delta) ->
  vlen wgl = L -> 0 <= dw <= / 10 ->
  (forall t, (0 <= t < L)%Z -> let w := 2 * PI * vat wg t / IZR (2 * L - 1) in Rabs (vat wgl t - w) <= dw * w) ->
  rfft_accurate G (2 * N - 1) eps -> fft_accurate fftp (2 * L - 1) eps -> sums_all o L -> shape f = [2 * N - 1; L; 2 * L - 1]%Z -> hermitian3 L N c ->
  (forall g t p, (0 <= g < 2 * N - 1)%Z -> (0 <= t < L)%Z -> (0 <= p < 2 * L - 1)%Z ->
    Cmod (get f [g; t; p] - so3_synth L N c (equi_longitude GL L p) (acos (vat nodes (L - 1 - t))) (2 * PI * IZR g / IZR (2 * N - 1)))%C <= d) ->
  exists K flmn, xr_kernel A "gl" gl wgl L N = Ok K /\ xr_forward A G fftp o f K L N "gl" = Ok flmn /\
    shape flmn = [2 * N - 1; L; 2 * L - 1]%Z /\ forall n l m, (- N < n < N)%Z -> (0 <= l < L)%Z -> (- L < m < L)%Z ->
      ((Z.abs m <= l)%Z -> (Z.abs n <= l)%Z -> Cmod (stored3 L N flmn n l m - c n l m)%C <=
        8 * PI ^ 2 * ((510 * u * (IZR L * (2 * IZR L + 3)) + 3 * eps + 3 * (IZR L * delta) + 5 * dw) * (so3_size L N c + d) + d + 2 * IZR L * eta)) /\
      ((l < Z.abs m \/ l < Z.abs n)%Z -> stored3 L N flmn n l m = RtoC 0).
Proof.
  intros A u eta G fftp o L N eps nodes wg gl wgl delta dw f c d HA HZ HN HB HE Heps HGL Hg1 Hde Hg3 Hw1 Hdw Hw2 HG HP Ho Hf Hc Hd.
  destruct (fourth_tiny A u eta L HA ltac:(lia) HE) as [HE3 _].
  pose proof (real_samples f L N L c _ (fun t => acos (vat nodes (L - 1 - t))) (fun g => 2 * PI * IZR g / IZR (2 * N - 1)) d Hc Hf Hd) as Hd'.
  destruct (C75_gl A u eta (full_fft G) fftp o L N eps nodes wg gl wgl delta dw (areal f) c d HA HZ HN HB HE Heps HGL Hg1 Hde Hg3 Hw1 Hdw Hw2
    (full_accurate G (2 * N - 1) eps ltac:(lia) (proj1 Heps) HG) HP Ho Hf Hd') as (K & flmn0 & E2 & E3 & _ & H).
  destruct (xkernel_half A "gl" gl wgl L N K HN E2) as (Kr & E4 & HH). rewrite Hg1 in HH.
  destruct (xf_bounds A u eta HA L N HN HB HE3) as (L1 & UX & _ & _ & U5 & UB & U1 & _). set (X := (IZR L * (2 * IZR L + 3))) in *.
  assert (D0 : 0 <= d) by (eapply Rle_trans; [apply Cmod_ge_0|apply (Hd 0 0 0)%Z; lia]). pose proof (proj1 Heps) as e0. pose proof (pow2_ge_0 PI) as P0.
  assert (LD : 0 <= IZR L * delta) by (apply Rmult_le_pos; lra).
  destruct (real_coefficients A u eta HA HZ U1 GL G fftp o f K Kr L N flmn0 c (8 * PI ^ 2) (490 * u * X + 3 * eps + 3 * (IZR L * delta) + 5 * dw) d (or_intror eq_refl) HN Hf Ho
    (rfft_length G N eps ltac:(lia) HG) (fft_length fftp _ eps HP) HH E3 Hc ltac:(lra) ltac:(lra) D0 H) as (flmn & E5 & Sh & HV).
  exists Kr, flmn. repeat (split; [assumption|]). intros n l m Hn Hl Hm. destruct (HV n l m Hn Hl Hm) as [V1 V2]. split; [|exact V2]. intros M1 M2.
  eapply Rle_trans; [exact (V1 M1 M2)|]. apply Rmult_le_compat_l; [lra|]. do 2 apply Rplus_le_compat_r. apply Rmult_le_compat_r; [pose proof (so3_size_nonneg L N c); lra|]. lra.
Qed.
Print Assumptions C79_gl.
(** the rule itself, at no distance from itself *)
Example C79_gl_ex : (exists nodes wg gl wgl, gauss_legendre 3 nodes wg /\ vlen gl = 3%Z /\ vlen wgl = 3%Z /\
  (forall t, (0 <= t < 3)%Z -> Rabs (vat gl t - acos (vat nodes (3 - 1 - t))) <= 0) /\
  (forall t, (0 <= t < 3)%Z -> let w := 2 * PI * vat wg t / IZR (2 * 3 - 1) in Rabs (vat wgl t - w) <= 0 * w)) /\
  rfft_accurate exact_rfft (2 * 2 - 1) 0 /\ fft_accurate fft_bwd (2 * 3 - 1) 0 /\ hermitian3 3 2 (stored3 3 2 flmn3).
Proof. split; [apply (C75_gl_ex 3); lia|]. split; [apply exact_rfft_ok; lra|]. split; [apply exact_fft; lra|apply C34_ex]. Qed.

(** Inverse transform of coefficients with the symmetry of a real signal, then forward transform of the real array it
    returned, both with reality=True: all the coefficients, although only those with n >= 0 were read. *)
Theorem C79_round_trip : forall A u eta F G fftp o o' L N eps gl wgl flmn c, rounded A u eta -> zeros_exact A ->
  (1 <= N <= L)%Z -> 2000 * u * (IZR L * (2 * IZR L + 3)) <= 1 -> 4 * IZR L ^ 3 * eta <= u -> 0 <= eps <= / 20 ->
  ifft_accurate (f_ifft F) (2 * L - 1) eps -> irfft_accurate (f_irfft F) N (2 * N - 1) eps -> rfft_accurate G (2 * N - 1) eps -> fft_accurate fftp (2 * L - 1) eps ->
  sums_all o L -> sums_all o' (2 * L) -> shape flmn = [2 * N - 1; L; 2 * L - 1]%Z ->
  hermitian3 L N c -> (forall n l m, (0 <= n < N)%Z -> (0 <= l < L)%Z -> (- L < m < L)%Z -> stored3 L N flmn n l m = c n l m) ->
  exists ths K f K' flmn', pf_thetas A "dh" L gl = Ok ths /\ wr_kernel A ths L N = Ok K /\ wr_inverse A F o flmn K L N "dh" = Ok f /\
    xr_kernel A "dh" ths wgl L N = Ok K' /\ xr_forward A G fftp o' (as_complex f) K' L N "dh" = Ok flmn' /\
    shape flmn' = [2 * N - 1; L; 2 * L - 1]%Z /\ forall n l m, (- N < n < N)%Z -> (0 <= l < L)%Z -> (- L < m < L)%Z ->
      ((Z.abs m <= l)%Z -> (Z.abs n <= l)%Z -> Cmod (stored3 L N flmn' n l m - c n l m)%C <=
        16 * PI ^ 2 * ((1530 * u * (IZR L * (2 * IZR L + 3)) + 8 * eps) * so3_size L N c + 82 * (IZR N * (IZR L * IZR L)) * eta)) /\
      ((l < Z.abs m \/ l < Z.abs n)%Z -> stored3 L N flmn' n l m = RtoC 0).
Proof.
  intros A u eta F G fftp o o' L N eps gl wgl flmn c HA HZ HN HB HE Heps HF1 HF2 HG HP Ho Ho' Hf Hc Hst.
  destruct (xf_bounds A u eta HA L N HN HB HE) as (L1 & UX & _ & _ & _ & UB & U1 & _ & HE1 & _).
  destruct (C78_inverse A u eta F o DH L N eps gl flmn c HA HZ ltac:(auto) HN HB HE1 Heps HF1 HF2 Ho Hf Hc Hst) as (ths & K & f & E1 & E2 & E3 & Sf & H).
  set (X := (IZR L * (2 * IZR L + 3))) in *. pose proof (so3_size_nonneg L N c) as S0. set (S := so3_size L N c) in *. set (W := IZR N * (IZR L * IZR L)) in *.
  set (d := (520 * u * X + 3 * eps) * S + 53 * W * eta) in *. pose proof (rd_u _ _ _ HA) as u0. pose proof (rd_eta _ _ _ HA) as eta0. pose proof (proj1 Heps) as e0.
  destruct (C79_analysis A u eta G fftp o' L N eps gl wgl (as_complex f) c d HA HZ HN HB HE Heps HG HP Ho' Sf Hc) as (ths' & K' & flmn' & E1' & E4 & E5 & Sh & HV).
  { intros g t p Hg Ht Hp. exact (H g t p (dh_theta L t) Hg Ht Hp eq_refl). }
  change (scheme_name DH) with "dh" in E1, E2, E3. rewrite E1 in E1'. injection E1' as <-. exists ths, K, f, K', flmn'. repeat (split; [assumption|]). intros n l m Hn Hl Hm. destruct (HV n l m Hn Hl Hm) as [V1 V2]. split; [|exact V2]. intros M1 M2.
  eapply Rle_trans; [exact (V1 M1 M2)|]. apply Rmult_le_compat_l; [pose proof (pow2_ge_0 PI); lra|]. fold X S.
  assert (WE : IZR L * eta <= W * eta).
  { apply Rmult_le_compat_r; [exact eta0|]. unfold W. assert (1 <= IZR N) by (apply IZR_le; lia). assert (IZR L <= IZR L * IZR L) by nra. nra. }
  assert (LE : 0 <= IZR L * eta) by (apply Rmult_le_pos; lra). set (k := 710 * u * X + 3 * eps). set (j := 520 * u * X + 3 * eps) in *.
  assert (K0 : 0 <= k) by (unfold k; lra). assert (K1 : k <= 710 / 2000 + 3 / 20) by (unfold k; lra). assert (J1 : j <= 520 / 2000 + 3 / 20) by (unfold j; lra).
  assert (JS : j * S <= (520 / 2000 + 3 / 20) * S) by (apply Rmult_le_compat_r; lra).
  assert (KJ : k * (j * S) <= k * ((520 / 2000 + 3 / 20) * S)) by (now apply Rmult_le_compat_l).
  assert (KW : k * (W * eta) <= (710 / 2000 + 3 / 20) * (W * eta)) by (apply Rmult_le_compat_r; lra).
  assert (KS : (k * (1 + (520 / 2000 + 3 / 20)) + j) * S <= (1530 * u * X + 8 * eps) * S) by (apply Rmult_le_compat_r; [exact S0|]; unfold k, j; lra).
  unfold d. lra.
Qed.
Print Assumptions C79_round_trip.
Example C79_round_trip_ex : rounded exact_arith 0 0 /\ zeros_exact exact_arith /\ ifft_accurate (f_ifft exact_ffts) (2 * 3 - 1) 0 /\ irfft_accurate (f_irfft exact_ffts) 2 (2 * 2 - 1) 0 /\
  rfft_accurate exact_rfft (2 * 2 - 1) 0 /\ fft_accurate fft_bwd (2 * 3 - 1) 0 /\ sums_all (in_turn 3) 3 /\ sums_all (in_turn 6) (2 * 3) /\
  shape flmn3 = [2 * 2 - 1; 3; 2 * 3 - 1]%Z /\ hermitian3 3 2 (stored3 3 2 flmn3) /\ stored3 3 2 flmn3 1 1 0 <> RtoC 0.
Proof.
  split; [exact exact_rounded|]. split; [exact exact_zeros|]. split; [apply exact_ifft; [lra|reflexivity]|]. split; [apply exact_irfft; lra|]. split; [apply exact_rfft_ok; lra|].
  split; [apply exact_fft; lra|]. split; [apply in_turn_all; lia|]. split; [apply in_turn_all; lia|]. split; [reflexivity|]. split; apply C34_ex.
Qed.

(** The same with the kernels of mode "fft". *)
Theorem C79_fft_round_trip : forall A u eta F G fftp o o' L N eps gl wgl flmn c, rounded A u eta -> zeros_exact A ->
  (1 <= N <= L)%Z -> 2000 * u * (IZR L * (2 * IZR L + 3)) <= 1 -> 4 * IZR L ^ 3 * eta <= u -> 0 <= eps <= / 20 ->
  irfft_accurate (f_irfft F) L (4 * L) eps -> ipow_accurate (f_ipow F) (2 * L) eps ->
  ifft_accurate (f_ifft F) (2 * L - 1) eps -> irfft_accurate (f_irfft F) N (2 * N - 1) eps -> rfft_accurate G (2 * N - 1) eps -> fft_accurate fftp (2 * L - 1) eps ->
  sums_all o L -> sums_all o' (2 * L) -> shape flmn = [2 * N - 1; L; 2 * L - 1]%Z ->
  hermitian3 L N c -> (forall n l m, (0 <= n < N)%Z -> (0 <= l < L)%Z -> (- L < m < L)%Z -> stored3 L N flmn n l m = c n l m) ->
  exists ths K f K' flmn', pf_thetas A "dh" L gl = Ok ths /\ wr_kernel_fft A F "dh" ths L N = Ok K /\ wr_inverse A F o flmn K L N "dh" = Ok f /\
    xr_kernel_fft A F "dh" ths wgl L N = Ok K' /\ xr_forward A G fftp o' (as_complex f) K' L N "dh" = Ok flmn' /\
    shape flmn' = [2 * N - 1; L; 2 * L - 1]%Z /\ forall n l m, (- N < n < N)%Z -> (0 <= l < L)%Z -> (- L < m < L)%Z ->
      ((Z.abs m <= l)%Z -> (Z.abs n <= l)%Z -> Cmod (stored3 L N flmn' n l m - c n l m)%C <=
        16 * PI ^ 2 * ((10400 * u * (IZR L * (2 * IZR L + 3)) + 125 * eps) * so3_size L N c + 189 * (IZR N * (IZR L * IZR L)) * eta)) /\
      ((l < Z.abs m \/ l < Z.abs n)%Z -> stored3 L N flmn' n l m = RtoC 0).
Proof.
  intros A u eta F G fftp o o' L N eps gl wgl flmn c HA HZ HN HB HE Heps HF HI HF1 HF2 HG HP Ho Ho' Hf Hc Hst.
  destruct (xf_bounds A u eta HA L N HN HB HE) as (L1 & UX & _ & _ & _ & UB & U1 & _ & HE1 & _).
  destruct (C78_fft_inverse A u eta F o DH L N eps gl flmn c HA HZ ltac:(auto) HN HB HE1 Heps HF HI HF1 HF2 Ho Hf Hc Hst) as (ths & K & f & E1 & E2 & E3 & Sf & H).
  set (X := (IZR L * (2 * IZR L + 3))) in *. pose proof (so3_size_nonneg L N c) as S0. set (S := so3_size L N c) in *. set (W := IZR N * (IZR L * IZR L)) in *.
  set (d := (2140 * u * X + 29 * eps) * S + 53 * W * eta) in *. pose proof (rd_u _ _ _ HA) as u0. pose proof (rd_eta _ _ _ HA) as eta0. pose proof (proj1 Heps) as e0.
  destruct (C79_fft_analysis A u eta F G fftp o' L N eps gl wgl (as_complex f) c d HA HZ HN HB HE Heps HF HI HG HP Ho' Sf Hc) as (ths' & K' & flmn' & E1' & E4 & E5 & Sh & HV).
  { intros g t p Hg Ht Hp. exact (H g t p (dh_theta L t) Hg Ht Hp eq_refl). }
  change (scheme_name DH) with "dh" in E1, E2, E3. rewrite E1 in E1'. injection E1' as <-. exists ths, K, f, K', flmn'. repeat (split; [assumption|]). intros n l m Hn Hl Hm. destruct (HV n l m Hn Hl Hm) as [V1 V2]. split; [|exact V2]. intros M1 M2.
  eapply Rle_trans; [exact (V1 M1 M2)|]. apply Rmult_le_compat_l; [pose proof (pow2_ge_0 PI); lra|]. fold X S.
  assert (WE : IZR L * eta <= W * eta).
  { apply Rmult_le_compat_r; [exact eta0|]. unfold W. assert (1 <= IZR N) by (apply IZR_le; lia). assert (IZR L <= IZR L * IZR L) by nra. nra. }
  assert (LE : 0 <= IZR L * eta) by (apply Rmult_le_pos; lra). set (k := 2340 * u * X + 27 * eps). set (j := 2140 * u * X + 29 * eps) in *.
  assert (K0 : 0 <= k) by (unfold k; lra). assert (K1 : k <= 2340 / 2000 + 27 / 20) by (unfold k; lra). assert (J1 : j <= 2140 / 2000 + 29 / 20) by (unfold j; lra).
  assert (JS : j * S <= (2140 / 2000 + 29 / 20) * S) by (apply Rmult_le_compat_r; lra).
  assert (KJ : k * (j * S) <= k * ((2140 / 2000 + 29 / 20) * S)) by (now apply Rmult_le_compat_l).
  assert (KW : k * (W * eta) <= (2340 / 2000 + 27 / 20) * (W * eta)) by (apply Rmult_le_compat_r; lra).
  assert (KS : (k * (1 + (2140 / 2000 + 29 / 20)) + j) * S <= (10400 * u * X + 125 * eps) * S) by (apply Rmult_le_compat_r; [exact S0|]; unfold k, j; lra).
  unfold d. lra.
Qed.
Print Assumptions C79_fft_round_trip.
Example C79_fft_round_trip_ex : irfft_accurate (f_irfft exact_ffts) 3 (4 * 3) 0 /\ ipow_accurate (f_ipow exact_ffts) (2 * 3) 0 /\ ifft_accurate (f_ifft exact_ffts) (2 * 3 - 1) 0 /\
  irfft_accurate (f_irfft exact_ffts) 2 (2 * 2 - 1) 0 /\ rfft_accurate exact_rfft (2 * 2 - 1) 0 /\ fft_accurate fft_bwd (2 * 3 - 1) 0 /\ hermitian3 3 2 (stored3 3 2 flmn3).
Proof.
  split; [apply exact_irfft; lra|]. split; [apply exact_ipow; lra|]. split; [apply exact_ifft; [lra|reflexivity]|]. split; [apply exact_irfft; lra|]. split; [apply exact_rfft_ok; lra|].
  split; [apply exact_fft; lra|apply C34_ex].
Qed.

(** Without rounding and with exact Fourier transforms: the coefficients themselves, at every n. *)
Theorem C79_exact : forall L N gl wgl f c o, (1 <= N <= L)%Z -> sums_all o (2 * L) -> shape f = [2 * N - 1; 2 * L; 2 * L - 1]%Z -> hermitian3 L N c ->
  (forall g t p, (0 <= g < 2 * N - 1)%Z -> (0 <= t < 2 * L)%Z -> (0 <= p < 2 * L - 1)%Z ->
    get f [g; t; p] = so3_synth L N c (equi_longitude DH L p) (dh_theta L t) (2 * PI * IZR g / IZR (2 * N - 1))) ->
  exists ths K flmn, pf_thetas exact_arith "dh" L gl = Ok ths /\ xr_kernel exact_arith "dh" ths wgl L N = Ok K /\
    xr_forward exact_arith exact_rfft fft_bwd o f K L N "dh" = Ok flmn /\
    shape flmn = [2 * N - 1; L; 2 * L - 1]%Z /\ forall n l m, (- N < n < N)%Z -> (0 <= l < L)%Z -> (- L < m < L)%Z ->
      get flmn [n + N - 1; l; m + L - 1]%Z = if ((Z.abs m <=? l) && (Z.abs n <=? l))%Z then c n l m else RtoC 0.
Proof.
  intros L N gl wgl f c o HN Ho Hf Hc Hd.
  destruct (C79_analysis exact_arith 0 0 exact_rfft fft_bwd o L N 0 gl wgl f c 0 exact_rounded exact_zeros HN) as (ths & K & flmn & E1 & E2 & E3 & Sh & H); try assumption; try lra.
  - apply exact_rfft_ok. lra.
  - apply exact_fft. lra.
  - intros g t p Hg Ht Hp. rewrite (Hd g t p Hg Ht Hp). replace (_ - _)%C with (RtoC 0) by ring. rewrite Cmod_0. lra.
  - exists ths, K, flmn. repeat (split; [assumption|]). intros n l m Hn Hl Hm. destruct (H n l m Hn Hl Hm) as [H1 H2].
    change (get flmn [n + N - 1; l; m + L - 1]%Z) with (stored3 L N flmn n l m).
    destruct (Z.leb_spec (Z.abs m) l), (Z.leb_spec (Z.abs n) l); cbn [andb]; try (apply H2; lia).
    specialize (H1 ltac:(lia) ltac:(lia)). set (z := (stored3 L N flmn n l m - c n l m)%C) in *.
    assert (Z0 : Cmod z = 0) by (pose proof (Cmod_ge_0 z); lra). apply Cmod_eq_0 in Z0. unfold z in Z0.
    replace (stored3 L N flmn n l m) with (stored3 L N flmn n l m - c n l m + c n l m)%C by ring. rewrite Z0. ring.
Qed.
Print Assumptions C79_exact.
Example C79_exact_ex : exists f, shape f = [2 * 2 - 1; 2 * 3; 2 * 3 - 1]%Z /\ hermitian3 3 2 (stored3 3 2 flmn3) /\ sums_all (in_turn 6) (2 * 3) /\
  forall g t p, get f [g; t; p] = so3_synth 3 2 (stored3 3 2 flmn3) (equi_longitude DH 3 p) (dh_theta 3 t) (2 * PI * IZR g / IZR (2 * 2 - 1)).
Proof.
  exists (mkArr [2 * 2 - 1; 2 * 3; 2 * 3 - 1]%Z (fun ix => so3_synth 3 2 (stored3 3 2 flmn3) (equi_longitude DH 3 (nth 2 ix 0%Z)) (dh_theta 3 (nth 1 ix 0%Z)) (2 * PI * IZR (nth 0 ix 0%Z) / IZR (2 * 2 - 1)))).
  split; [reflexivity|]. split; [apply C34_ex|]. split; [apply in_turn_all; lia|]. reflexivity.
Qed.

(** Binary64, up to band-limit a million: with Fourier transforms of relative accuracy 1e-14 the round trip returns
    each coefficient to within 16 pi^2 (1.7e-13 L (2 L + 3) + 8e-14) of the size of the signal. *)
Theorem C79_binary64 : forall F G fftp o o' L N gl wgl flmn c, (1 <= N <= L)%Z -> (L <= 2 ^ 20)%Z ->
  ifft_accurate (f_ifft F) (2 * L - 1) (/ 10 ^ 14) -> irfft_accurate (f_irfft F) N (2 * N - 1) (/ 10 ^ 14) -> rfft_accurate G (2 * N - 1) (/ 10 ^ 14) -> fft_accurate fftp (2 * L - 1) (/ 10 ^ 14) ->
  sums_all o L -> sums_all o' (2 * L) -> shape flmn = [2 * N - 1; L; 2 * L - 1]%Z ->
  hermitian3 L N c -> (forall n l m, (0 <= n < N)%Z -> (0 <= l < L)%Z -> (- L < m < L)%Z -> stored3 L N flmn n l m = c n l m) ->
  exists ths K f K' flmn', pf_thetas binary64 "dh" L gl = Ok ths /\ wr_kernel binary64 ths L N = Ok K /\ wr_inverse binary64 F o flmn K L N "dh" = Ok f /\
    xr_kernel binary64 "dh" ths wgl L N = Ok K' /\ xr_forward binary64 G fftp o' (as_complex f) K' L N "dh" = Ok flmn' /\
    shape flmn' = [2 * N - 1; L; 2 * L - 1]%Z /\ forall n l m, (- N < n < N)%Z -> (0 <= l < L)%Z -> (- L < m < L)%Z ->
      ((Z.abs m <= l)%Z -> (Z.abs n <= l)%Z -> Cmod (stored3 L N flmn' n l m - c n l m)%C <=
        16 * PI ^ 2 * ((17 / 10 ^ 14 * (IZR L * (2 * IZR L + 3)) + 8 / 10 ^ 14) * so3_size L N c + / 10 ^ 300)) /\
      ((l < Z.abs m \/ l < Z.abs n)%Z -> stored3 L N flmn' n l m = RtoC 0).
Proof.
  intros F G fftp o o' L N gl wgl flmn c HN HL2 HF1 HF2 HG HP Ho Ho' Hf Hc Hst. assert (H1 : 1 <= IZR L) by (apply IZR_le; lia).
  destruct (b64_cond L N 82 HN HL2 ltac:(lia)) as (C1 & C2 & C3).
  destruct (C79_round_trip binary64 u64 eta64 F G fftp o o' L N (/ 10 ^ 14) gl wgl flmn c binary64_rounded (ieee_zeros _ _) HN C1 C2) as (ths & K & f & K' & flmn' & E1 & E2 & E3 & E4 & E5 & Sh & H); try assumption.
  - cbn. lra.
  - exists ths, K, f, K', flmn'. repeat (split; [assumption|]). intros n l m Hn Hl Hm. destruct (H n l m Hn Hl Hm) as [G1 G2]. split; [|exact G2]. intros M1 M2.
    eapply Rle_trans; [exact (G1 M1 M2)|]. apply Rmult_le_compat_l; [pose proof (pow2_ge_0 PI); lra|].
    apply Rplus_le_compat; [|exact C3].
    apply Rmult_le_compat_r; [apply so3_size_nonneg|]. rewrite u64_value. apply Rplus_le_compat; [|unfold Rdiv; lra].
    apply Rmult_le_compat_r; [nra|]. cbn. lra.
Qed.
Print Assumptions C79_binary64.
Example C79_binary64_ex : (1 <= 5 <= 256)%Z /\ (256 <= 2 ^ 20)%Z /\ ifft_accurate (f_ifft exact_ffts) (2 * 256 - 1) (/ 10 ^ 14) /\ irfft_accurate (f_irfft exact_ffts) 5 (2 * 5 - 1) (/ 10 ^ 14) /\
  rfft_accurate exact_rfft (2 * 5 - 1) (/ 10 ^ 14) /\ fft_accurate fft_bwd (2 * 256 - 1) (/ 10 ^ 14) /\ sums_all (in_turn 256) 256 /\ sums_all (in_turn (2 * 256)) (2 * 256).
Proof.
  assert (0 <= / 10 ^ 14) by (left; apply Rinv_0_lt_compat; cbn; lra). split; [lia|]. split; [lia|]. split; [now apply exact_ifft|]. split; [now apply exact_irfft|].
  split; [now apply exact_rfft_ok|]. split; [now apply exact_fft|]. split; apply in_turn_all; lia.
Qed.

(** The same with the kernels of mode "fft". *)
Theorem C79_fft_binary64 : forall F G fftp o o' L N gl wgl flmn c, (1 <= N <= L)%Z -> (L <= 2 ^ 20)%Z ->
  irfft_accurate (f_irfft F) L (4 * L) (/ 10 ^ 14) -> ipow_accurate (f_ipow F) (2 * L) (/ 10 ^ 14) ->
  ifft_accurate (f_ifft F) (2 * L - 1) (/ 10 ^ 14) -> irfft_accurate (f_irfft F) N (2 * N - 1) (/ 10 ^ 14) -> rfft_accurate G (2 * N - 1) (/ 10 ^ 14) -> fft_accurate fftp (2 * L - 1) (/ 10 ^ 14) ->
  sums_all o L -> sums_all o' (2 * L) -> shape flmn = [2 * N - 1; L; 2 * L - 1]%Z ->
  hermitian3 L N c -> (forall n l m, (0 <= n < N)%Z -> (0 <= l < L)%Z -> (- L < m < L)%Z -> stored3 L N flmn n l m = c n l m) ->
  exists ths K f K' flmn', pf_thetas binary64 "dh" L gl = Ok ths /\ wr_kernel_fft binary64 F "dh" ths L N = Ok K /\ wr_inverse binary64 F o flmn K L N "dh" = Ok f /\
    xr_kernel_fft binary64 F "dh" ths wgl L N = Ok K' /\ xr_forward binary64 G fftp o' (as_complex f) K' L N "dh" = Ok flmn' /\
    shape flmn' = [2 * N - 1; L; 2 * L - 1]%Z /\ forall n l m, (- N < n < N)%Z -> (0 <= l < L)%Z -> (- L < m < L)%Z ->
      ((Z.abs m <= l)%Z -> (Z.abs n <= l)%Z -> Cmod (stored3 L N flmn' n l m - c n l m)%C <=
        16 * PI ^ 2 * ((116 / 10 ^ 14 * (IZR L * (2 * IZR L + 3)) + 125 / 10 ^ 14) * so3_size L N c + / 10 ^ 300)) /\
      ((l < Z.abs m \/ l < Z.abs n)%Z -> stored3 L N flmn' n l m = RtoC 0).
Proof.
  intros F G fftp o o' L N gl wgl flmn c HN HL2 HIR HPW HF1 HF2 HG HP Ho Ho' Hf Hc Hst. assert (H1 : 1 <= IZR L) by (apply IZR_le; lia).
  destruct (b64_cond L N 189 HN HL2 ltac:(lia)) as (C1 & C2 & C3).
  destruct (C79_fft_round_trip binary64 u64 eta64 F G fftp o o' L N (/ 10 ^ 14) gl wgl flmn c binary64_rounded (ieee_zeros _ _) HN C1 C2) as (ths & K & f & K' & flmn' & E1 & E2 & E3 & E4 & E5 & Sh & H); try assumption.
  - cbn. lra.
  - exists ths, K, f, K', flmn'. repeat (split; [assumption|]). intros n l m Hn Hl Hm. destruct (H n l m Hn Hl Hm) as [G1 G2]. split; [|exact G2]. intros M1 M2.
    eapply Rle_trans; [exact (G1 M1 M2)|]. apply Rmult_le_compat_l; [pose proof (pow2_ge_0 PI); lra|].
    apply Rplus_le_compat; [|exact C3].
    apply Rmult_le_compat_r; [apply so3_size_nonneg|]. rewrite u64_value. apply Rplus_le_compat; [|unfold Rdiv; lra].
    apply Rmult_le_compat_r; [nra|]. cbn. lra.
Qed.
Print Assumptions C79_fft_binary64.
Example C79_fft_binary64_ex : irfft_accurate (f_irfft exact_ffts) 256 (4 * 256) (/ 10 ^ 14) /\ ipow_accurate (f_ipow exact_ffts) (2 * 256) (/ 10 ^ 14) /\
  ifft_accurate (f_ifft exact_ffts) (2 * 256 - 1) (/ 10 ^ 14) /\ rfft_accurate exact_rfft (2 * 5 - 1) (/ 10 ^ 14) /\ hermitian3 3 2 (stored3 3 2 flmn3).
Proof.
  assert (0 <= / 10 ^ 14) by (left; apply Rinv_0_lt_compat; cbn; lra). split; [now apply exact_irfft|]. split; [now apply exact_ipow|]. split; [now apply exact_ifft|].
  split; [now apply exact_rfft_ok|apply C34_ex].
Qed.
