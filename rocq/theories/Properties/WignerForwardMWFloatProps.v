(** C76: the precomputed forward transform on the rotation group and the round trip on the mw and mwss grids in floating-point arithmetic. *)
From Coq Require Import Reals Lra Lia ZifyBool.
From Coquelicot Require Import Complex.
From Flocq Require Import Core.
From Verif Require Import Lib.Py Lib.PyFacts Lib.Vec Lib.Sums Lib.Cplx Lib.Arr Model.Index Model.Samples Model.FFT Model.RisboFloat Model.Spherical Model.Precompute Model.PrecomputeFloat Model.ForwardFloat
  Model.ResamplingFloat Model.PrecomputeWigner Model.WignerFloat Model.WignerForwardFloat Model.WignerForwardMWFloat
  Spec.SamplesSpec Spec.WignerSpec Spec.SphereSpec Spec.GridSpec Spec.SphericalSpec Spec.SO3Spec Spec.RoundingSpec Spec.PrecomputeFloatSpec Spec.ForwardFloatSpec
  Spec.ResamplingFloatSpec Spec.WignerFloatSpec
  Proofs.RisboFloatProofs Proofs.FloatKernel Proofs.FloatInverse Proofs.FloatFourier Proofs.FloatTop Proofs.FloatForward Proofs.FloatForwardTop Proofs.FloatResampling Proofs.FloatResamplingTop
  Proofs.FloatMWTop Proofs.FloatWigner Proofs.FloatWignerFourier Proofs.FloatWignerForward Proofs.FloatWignerForwardTop Proofs.FloatWignerMW Proofs.FloatWignerMWTop Proofs.Binary64 Properties.ResamplingFloatProps.
Open Scope string_scope.
Open Scope R_scope.

(** Samples on the grid of the rotation group with mw or mwss rings that differ from a band-limited
    signal by at most d: after the resampling of every plane to the doubled mwss grid the coefficients
    of the signal are recovered to within a multiple of (u L^2 + eps) of its size and of d, whatever the
    order in which einsum adds; they are exactly zero where the d-function does not exist. *)
Theorem C76_analysis : forall A u eta S fftg fftp o s L N eps gl wgl f c d, rounded A u eta -> zeros_exact A ->
  (2 <= N <= L)%Z -> 2000 * u * (IZR L * (2 * IZR L + 3)) <= 1 -> 4 * IZR L ^ 3 * eta <= u -> 0 <= eps <= / 100 ->
  transforms_accurate S (2 * L - 1) eps -> transforms_accurate S (2 * L) eps -> transforms_accurate S (4 * L) eps ->
  fft_accurate fftg (2 * N - 1) eps -> fft_accurate fftp (2 * L) eps -> fft_accurate fftp (4 * L) eps ->
  s = MW \/ s = MWSS -> sums_all o (2 * L + 1) -> shape f = [2 * N - 1; rings s L 0; per_ring s L]%Z ->
  (forall g t p x, (0 <= g < 2 * N - 1)%Z -> (0 <= t < rings s L 0)%Z -> (0 <= p < per_ring s L)%Z -> is_colatitude s L 0 t x ->
    Cmod (get f [g; t; p] - so3_synth L N c (equi_longitude s L p) x (2 * PI * IZR g / IZR (2 * N - 1)))%C <= d) ->
  exists K flmn, xm_kernel A fftp (scheme_name s) gl wgl L N = Ok K /\ xm_forward A S fftg fftp o f K L N (scheme_name s) = Ok flmn /\
    shape flmn = [2 * N - 1; L; 2 * L - 1]%Z /\ forall n l m, (- N < n < N)%Z -> (0 <= l < L)%Z -> (- L < m < L)%Z ->
      ((Z.abs m <= l)%Z -> (Z.abs n <= l)%Z -> Cmod (stored3 L N flmn n l m - c n l m)%C <=
        54 * PI ^ 2 * ((617 * (u * (IZR L * (2 * IZR L + 3))) + 111 * eps) * so3_size L N c + 14 * d + 253 * (IZR L * eta))) /\
      ((l < Z.abs m \/ l < Z.abs n)%Z -> stored3 L N flmn n l m = RtoC 0).
Proof.
  intros A u eta S fftg fftp o s L N eps gl wgl f c d HA HZ HN HB HE He H1 H2 H4 HG HP HP4 Hm Ho Hf Hd.
  apply (xm_analysis A u eta HA HZ L N eps HN HB HE He S H1 H2 H4 fftg fftp s o f gl wgl c d Hm Hf Ho HG HP HP4).
  intros g t p Hg Ht Hp. apply Hd; try assumption. destruct Hm as [->| ->]; reflexivity.
Qed.
Print Assumptions C76_analysis.
Example C76_analysis_ex : rounded binary64 u64 eta64 /\ zeros_exact binary64 /\ 2000 * u64 * (IZR 8 * (2 * IZR 8 + 3)) <= 1 /\ 4 * IZR 8 ^ 3 * eta64 <= u64 /\
  transforms_accurate exact_rffts (2 * 8 - 1) 0 /\ transforms_accurate exact_rffts (2 * 8) 0 /\ transforms_accurate exact_rffts (4 * 8) 0 /\ fft_accurate fft_bwd (2 * 3 - 1) 0 /\
  fft_accurate fft_bwd (4 * 8) 0 /\ irfft_accurate (f_irfft exact_ffts) 8 (4 * 8) 0 /\ ipow_accurate (f_ipow exact_ffts) (2 * 8) 0 /\ sums_all (in_turn 17) (2 * 8 + 1) /\
  shape (zeros (RtoC 1) [5; 8; 15]%Z) = [2 * 3 - 1; rings MW 8 0; per_ring MW 8]%Z /\ shape (zeros (RtoC 1) [5; 9; 16]%Z) = [2 * 3 - 1; rings MWSS 8 0; per_ring MWSS 8]%Z.
Proof.
  split; [exact binary64_rounded|]. split; [apply ieee_zeros|]. split; [rewrite u64_value; cbn; lra|].
  split; [eapply Rle_trans; [|apply (eta64_tiny 14); lia]; apply Rmult_le_compat_r; [apply bpow_ge_0|]; cbn; lra|].
  do 3 (split; [apply exact_transforms; (lia || lra)|]). do 2 (split; [apply exact_fft; lra|]). split; [apply exact_irfft; lra|]. split; [apply exact_ipow; lra|].
  split; [apply in_turn_all; lia|]. split; reflexivity.
Qed.

(** The same with the kernel of mode "fft". *)
Theorem C76_fft_analysis : forall A u eta F S fftg fftp o s L N eps gl wgl f c d, rounded A u eta -> zeros_exact A ->
  (2 <= N <= L)%Z -> 2000 * u * (IZR L * (2 * IZR L + 3)) <= 1 -> 4 * IZR L ^ 3 * eta <= u -> 0 <= eps <= / 100 ->
  transforms_accurate S (2 * L - 1) eps -> transforms_accurate S (2 * L) eps -> transforms_accurate S (4 * L) eps ->
  fft_accurate fftg (2 * N - 1) eps -> fft_accurate fftp (2 * L) eps -> fft_accurate fftp (4 * L) eps ->
  irfft_accurate (f_irfft F) L (4 * L) eps -> ipow_accurate (f_ipow F) (2 * L) eps ->
  s = MW \/ s = MWSS -> sums_all o (2 * L + 1) -> shape f = [2 * N - 1; rings s L 0; per_ring s L]%Z ->
  (forall g t p x, (0 <= g < 2 * N - 1)%Z -> (0 <= t < rings s L 0)%Z -> (0 <= p < per_ring s L)%Z -> is_colatitude s L 0 t x ->
    Cmod (get f [g; t; p] - so3_synth L N c (equi_longitude s L p) x (2 * PI * IZR g / IZR (2 * N - 1)))%C <= d) ->
  exists K flmn, xm_kernel_fft A F fftp (scheme_name s) gl wgl L N = Ok K /\ xm_forward A S fftg fftp o f K L N (scheme_name s) = Ok flmn /\
    shape flmn = [2 * N - 1; L; 2 * L - 1]%Z /\ forall n l m, (- N < n < N)%Z -> (0 <= l < L)%Z -> (- L < m < L)%Z ->
      ((Z.abs m <= l)%Z -> (Z.abs n <= l)%Z -> Cmod (stored3 L N flmn n l m - c n l m)%C <=
        54 * PI ^ 2 * ((2166 * (u * (IZR L * (2 * IZR L + 3))) + 204 * eps) * so3_size L N c + 23 * d + 432 * (IZR L * eta))) /\
      ((l < Z.abs m \/ l < Z.abs n)%Z -> stored3 L N flmn n l m = RtoC 0).
Proof.
  intros A u eta F S fftg fftp o s L N eps gl wgl f c d HA HZ HN HB HE He H1 H2 H4 HG HP HP4 HIR HPW Hm Ho Hf Hd.
  apply (xm_analysis_fft A u eta HA HZ L N eps HN HB HE He S H1 H2 H4 F fftg fftp s o f gl wgl c d Hm Hf Ho HG HP HP4 HIR HPW).
  intros g t p Hg Ht Hp. apply Hd; try assumption. destruct Hm as [->| ->]; reflexivity.
Qed.
Print Assumptions C76_fft_analysis.
Example C76_fft_analysis_ex : rounded binary64 u64 eta64 /\ zeros_exact binary64 /\ 2000 * u64 * (IZR 8 * (2 * IZR 8 + 3)) <= 1 /\ 4 * IZR 8 ^ 3 * eta64 <= u64 /\
  transforms_accurate exact_rffts (2 * 8 - 1) 0 /\ transforms_accurate exact_rffts (2 * 8) 0 /\ transforms_accurate exact_rffts (4 * 8) 0 /\ fft_accurate fft_bwd (2 * 3 - 1) 0 /\
  fft_accurate fft_bwd (4 * 8) 0 /\ irfft_accurate (f_irfft exact_ffts) 8 (4 * 8) 0 /\ ipow_accurate (f_ipow exact_ffts) (2 * 8) 0 /\ sums_all (in_turn 17) (2 * 8 + 1) /\
  shape (zeros (RtoC 1) [5; 8; 15]%Z) = [2 * 3 - 1; rings MW 8 0; per_ring MW 8]%Z /\ shape (zeros (RtoC 1) [5; 9; 16]%Z) = [2 * 3 - 1; rings MWSS 8 0; per_ring MWSS 8]%Z.
Proof.
  split; [exact binary64_rounded|]. split; [apply ieee_zeros|]. split; [rewrite u64_value; cbn; lra|].
  split; [eapply Rle_trans; [|apply (eta64_tiny 14); lia]; apply Rmult_le_compat_r; [apply bpow_ge_0|]; cbn; lra|].
  do 3 (split; [apply exact_transforms; (lia || lra)|]). do 2 (split; [apply exact_fft; lra|]). split; [apply exact_irfft; lra|]. split; [apply exact_ipow; lra|].
  split; [apply in_turn_all; lia|]. split; reflexivity.
Qed.

(** Inverse transform, then forward transform of what it returned. *)
Theorem C76_round_trip : forall A u eta F2 S fftg fftp o o' s L N eps gl wgl flmn, rounded A u eta -> zeros_exact A ->
  (2 <= N <= L)%Z -> 2000 * u * (IZR L * (2 * IZR L + 3)) <= 1 -> 4 * IZR L ^ 3 * eta <= u -> 0 <= eps <= / 100 ->
  transforms_accurate S (2 * L - 1) eps -> transforms_accurate S (2 * L) eps -> transforms_accurate S (4 * L) eps ->
  fft_accurate fftg (2 * N - 1) eps -> fft_accurate fftp (2 * L) eps -> fft_accurate fftp (4 * L) eps ->
  s = MW \/ s = MWSS -> ifft2_accurate F2 (2 * N - 1) (per_ring s L) eps -> sums_all o L -> sums_all o' (2 * L + 1) -> shape flmn = [2 * N - 1; L; 2 * L - 1]%Z ->
  exists ths K f K' flmn', pf_thetas A (scheme_name s) L gl = Ok ths /\ wf_kernel A ths L N = Ok K /\ wf_inverse A F2 o flmn K L N (scheme_name s) = Ok f /\
    xm_kernel A fftp (scheme_name s) gl wgl L N = Ok K' /\ xm_forward A S fftg fftp o' f K' L N (scheme_name s) = Ok flmn' /\
    shape flmn' = [2 * N - 1; L; 2 * L - 1]%Z /\ forall n l m, (- N < n < N)%Z -> (0 <= l < L)%Z -> (- L < m < L)%Z ->
      ((Z.abs m <= l)%Z -> (Z.abs n <= l)%Z -> Cmod (stored3 L N flmn' n l m - stored3 L N flmn n l m)%C <=
        54 * PI ^ 2 * ((7519 * (u * (IZR L * (2 * IZR L + 3))) + 125 * eps) * so3_size L N (stored3 L N flmn) + 967 * (IZR N * (IZR L * IZR L)) * eta)) /\
      ((l < Z.abs m \/ l < Z.abs n)%Z -> stored3 L N flmn' n l m = RtoC 0).
Proof.
  intros A u eta F2 S fftg fftp o o' s L N eps gl wgl flmn HA HZ HN HB HE He H1 H2 H4 HG HP HP4 Hm HI Ho Ho' Hf.
  exact (xm_trip A u eta HA HZ L N eps HN HB HE He S H1 H2 H4 F2 fftg fftp s o o' flmn gl wgl Hm Hf Ho Ho' HI HG HP HP4).
Qed.
Print Assumptions C76_round_trip.
Example C76_round_trip_ex : rounded binary64 u64 eta64 /\ zeros_exact binary64 /\ 2000 * u64 * (IZR 8 * (2 * IZR 8 + 3)) <= 1 /\ 4 * IZR 8 ^ 3 * eta64 <= u64 /\
  transforms_accurate exact_rffts (2 * 8 - 1) 0 /\ transforms_accurate exact_rffts (2 * 8) 0 /\ transforms_accurate exact_rffts (4 * 8) 0 /\
  ifft2_accurate exact_ifft2 (2 * 3 - 1) (per_ring MW 8) 0 /\ irfft_accurate (f_irfft exact_ffts) 8 (circle_points MW 8) 0 /\ sums_all (in_turn 8) 8.
Proof.
  split; [exact binary64_rounded|]. split; [apply ieee_zeros|]. split; [rewrite u64_value; cbn; lra|].
  split; [eapply Rle_trans; [|apply (eta64_tiny 14); lia]; apply Rmult_le_compat_r; [apply bpow_ge_0|]; cbn; lra|].
  do 3 (split; [apply exact_transforms; (lia || lra)|]). split; [apply exact_ifft2_accurate; lra|]. split; [apply exact_irfft; lra|apply in_turn_all; lia].
Qed.

(** The same with the kernels of mode "fft". *)
Theorem C76_fft_round_trip : forall A u eta F F2 S fftg fftp o o' s L N eps gl wgl flmn, rounded A u eta -> zeros_exact A ->
  (2 <= N <= L)%Z -> 2000 * u * (IZR L * (2 * IZR L + 3)) <= 1 -> 4 * IZR L ^ 3 * eta <= u -> 0 <= eps <= / 100 ->
  transforms_accurate S (2 * L - 1) eps -> transforms_accurate S (2 * L) eps -> transforms_accurate S (4 * L) eps ->
  fft_accurate fftg (2 * N - 1) eps -> fft_accurate fftp (2 * L) eps -> fft_accurate fftp (4 * L) eps ->
  irfft_accurate (f_irfft F) L (4 * L) eps -> irfft_accurate (f_irfft F) L (circle_points s L) eps -> ipow_accurate (f_ipow F) (2 * L) eps ->
  s = MW \/ s = MWSS -> ifft2_accurate F2 (2 * N - 1) (per_ring s L) eps -> sums_all o L -> sums_all o' (2 * L + 1) -> shape flmn = [2 * N - 1; L; 2 * L - 1]%Z ->
  exists ths K f K' flmn', pf_thetas A (scheme_name s) L gl = Ok ths /\ wf_kernel_fft A F (scheme_name s) ths L N = Ok K /\ wf_inverse A F2 o flmn K L N (scheme_name s) = Ok f /\
    xm_kernel_fft A F fftp (scheme_name s) gl wgl L N = Ok K' /\ xm_forward A S fftg fftp o' f K' L N (scheme_name s) = Ok flmn' /\
    shape flmn' = [2 * N - 1; L; 2 * L - 1]%Z /\ forall n l m, (- N < n < N)%Z -> (0 <= l < L)%Z -> (- L < m < L)%Z ->
      ((Z.abs m <= l)%Z -> (Z.abs n <= l)%Z -> Cmod (stored3 L N flmn' n l m - stored3 L N flmn n l m)%C <=
        54 * PI ^ 2 * ((48764 * (u * (IZR L * (2 * IZR L + 3))) + 807 * eps) * so3_size L N (stored3 L N flmn) + 1605 * (IZR N * (IZR L * IZR L)) * eta)) /\
      ((l < Z.abs m \/ l < Z.abs n)%Z -> stored3 L N flmn' n l m = RtoC 0).
Proof.
  intros A u eta F F2 S fftg fftp o o' s L N eps gl wgl flmn HA HZ HN HB HE He H1 H2 H4 HG HP HP4 HIR HIR2 HPW Hm HI Ho Ho' Hf.
  exact (xm_trip_fft A u eta HA HZ L N eps HN HB HE He S H1 H2 H4 F F2 fftg fftp s o o' flmn gl wgl Hm Hf Ho Ho' HI HG HP HP4 HIR HIR2 HPW).
Qed.
Print Assumptions C76_fft_round_trip.
Example C76_fft_round_trip_ex : rounded binary64 u64 eta64 /\ zeros_exact binary64 /\ 2000 * u64 * (IZR 8 * (2 * IZR 8 + 3)) <= 1 /\ 4 * IZR 8 ^ 3 * eta64 <= u64 /\
  transforms_accurate exact_rffts (2 * 8 - 1) 0 /\ transforms_accurate exact_rffts (2 * 8) 0 /\ transforms_accurate exact_rffts (4 * 8) 0 /\
  ifft2_accurate exact_ifft2 (2 * 3 - 1) (per_ring MW 8) 0 /\ irfft_accurate (f_irfft exact_ffts) 8 (circle_points MW 8) 0 /\ sums_all (in_turn 8) 8.
Proof.
  split; [exact binary64_rounded|]. split; [apply ieee_zeros|]. split; [rewrite u64_value; cbn; lra|].
  split; [eapply Rle_trans; [|apply (eta64_tiny 14); lia]; apply Rmult_le_compat_r; [apply bpow_ge_0|]; cbn; lra|].
  do 3 (split; [apply exact_transforms; (lia || lra)|]). split; [apply exact_ifft2_accurate; lra|]. split; [apply exact_irfft; lra|apply in_turn_all; lia].
Qed.

(** Without rounding the program returns the coefficients of a band-limited signal. *)
Theorem C76_exact : forall s L N gl wgl f c o, (2 <= N <= L)%Z -> s = MW \/ s = MWSS -> sums_all o (2 * L + 1) -> shape f = [2 * N - 1; rings s L 0; per_ring s L]%Z ->
  (forall g t p x, (0 <= g < 2 * N - 1)%Z -> (0 <= t < rings s L 0)%Z -> (0 <= p < per_ring s L)%Z -> is_colatitude s L 0 t x ->
    get f [g; t; p] = so3_synth L N c (equi_longitude s L p) x (2 * PI * IZR g / IZR (2 * N - 1))) ->
  exists K flmn, xm_kernel exact_arith fft_bwd (scheme_name s) gl wgl L N = Ok K /\ xm_forward exact_arith exact_rffts fft_bwd fft_bwd o f K L N (scheme_name s) = Ok flmn /\
    shape flmn = [2 * N - 1; L; 2 * L - 1]%Z /\ forall n l m, (- N < n < N)%Z -> (0 <= l < L)%Z -> (- L < m < L)%Z ->
      get flmn [n + N - 1; l; m + L - 1]%Z = if ((Z.abs m <=? l) && (Z.abs n <=? l))%Z then c n l m else RtoC 0.
Proof.
  intros s L N gl wgl f c o HN Hm Ho Hf Hd.
  destruct (C76_analysis exact_arith 0 0 exact_rffts fft_bwd fft_bwd o s L N 0 gl wgl f c 0 exact_rounded exact_zeros HN) as (K & flmn & E1 & E2 & Sh & H); try assumption; try lra;
    try (apply exact_transforms; (lia || lra)); try (apply exact_fft; lra).
  - intros g t p x Hg Ht Hp Hx. rewrite (Hd g t p x Hg Ht Hp Hx). replace (_ - _)%C with (RtoC 0) by ring. rewrite Cmod_0. lra.
  - exists K, flmn. repeat (split; [assumption|]). intros n l m Hn Hl Hmm. destruct (H n l m Hn Hl Hmm) as [H1 H2].
    change (get flmn [n + N - 1; l; m + L - 1]%Z) with (stored3 L N flmn n l m).
    destruct (Z.leb_spec (Z.abs m) l), (Z.leb_spec (Z.abs n) l); cbn [andb]; try (apply H2; lia).
    specialize (H1 ltac:(lia) ltac:(lia)). set (z := (stored3 L N flmn n l m - c n l m)%C) in *.
    assert (Z0 : Cmod z = 0) by (pose proof (Cmod_ge_0 z); lra). apply Cmod_eq_0 in Z0. unfold z in Z0.
    replace (stored3 L N flmn n l m) with (stored3 L N flmn n l m - c n l m + c n l m)%C by ring. rewrite Z0. ring.
Qed.
Print Assumptions C76_exact.
Example C76_exact_ex : let c := fun n l m => RtoC (IZR (n * l + m)) in
  let f := mkArr [2 * 2 - 1; 3; 2 * 3 - 1]%Z (fun ix => so3_synth 3 2 c (equi_longitude MW 3 (nth 2 ix 0%Z)) (mw_theta 3 (nth 1 ix 0%Z)) (2 * PI * IZR (nth 0 ix 0%Z) / IZR (2 * 2 - 1))) in
  shape f = [2 * 2 - 1; rings MW 3 0; per_ring MW 3]%Z /\ forall g t p x, (0 <= g < 2 * 2 - 1)%Z -> (0 <= t < rings MW 3 0)%Z -> (0 <= p < per_ring MW 3)%Z -> is_colatitude MW 3 0 t x ->
    get f [g; t; p] = so3_synth 3 2 c (equi_longitude MW 3 p) x (2 * PI * IZR g / IZR (2 * 2 - 1)).
Proof. split; [reflexivity|]. cbn [is_colatitude]. intros g t p x _ _ _ ->. reflexivity. Qed.

(** Without rounding, mode "fft". *)
Theorem C76_fft_exact : forall s L N gl wgl f c o, (2 <= N <= L)%Z -> s = MW \/ s = MWSS -> sums_all o (2 * L + 1) -> shape f = [2 * N - 1; rings s L 0; per_ring s L]%Z ->
  (forall g t p x, (0 <= g < 2 * N - 1)%Z -> (0 <= t < rings s L 0)%Z -> (0 <= p < per_ring s L)%Z -> is_colatitude s L 0 t x ->
    get f [g; t; p] = so3_synth L N c (equi_longitude s L p) x (2 * PI * IZR g / IZR (2 * N - 1))) ->
  exists K flmn, xm_kernel_fft exact_arith exact_ffts fft_bwd (scheme_name s) gl wgl L N = Ok K /\ xm_forward exact_arith exact_rffts fft_bwd fft_bwd o f K L N (scheme_name s) = Ok flmn /\
    shape flmn = [2 * N - 1; L; 2 * L - 1]%Z /\ forall n l m, (- N < n < N)%Z -> (0 <= l < L)%Z -> (- L < m < L)%Z ->
      get flmn [n + N - 1; l; m + L - 1]%Z = if ((Z.abs m <=? l) && (Z.abs n <=? l))%Z then c n l m else RtoC 0.
Proof.
  intros s L N gl wgl f c o HN Hm Ho Hf Hd.
  destruct (C76_fft_analysis exact_arith 0 0 exact_ffts exact_rffts fft_bwd fft_bwd o s L N 0 gl wgl f c 0 exact_rounded exact_zeros HN) as (K & flmn & E1 & E2 & Sh & H); try assumption; try lra;
    try (apply exact_transforms; (lia || lra)); try (apply exact_fft; lra). 
  - apply exact_irfft; lra.
  - apply exact_ipow; lra.
  - intros g t p x Hg Ht Hp Hx. rewrite (Hd g t p x Hg Ht Hp Hx). replace (_ - _)%C with (RtoC 0) by ring. rewrite Cmod_0. lra.
  - exists K, flmn. repeat (split; [assumption|]). intros n l m Hn Hl Hmm. destruct (H n l m Hn Hl Hmm) as [H1 H2].
    change (get flmn [n + N - 1; l; m + L - 1]%Z) with (stored3 L N flmn n l m).
    destruct (Z.leb_spec (Z.abs m) l), (Z.leb_spec (Z.abs n) l); cbn [andb]; try (apply H2; lia).
    specialize (H1 ltac:(lia) ltac:(lia)). set (z := (stored3 L N flmn n l m - c n l m)%C) in *.
    assert (Z0 : Cmod z = 0) by (pose proof (Cmod_ge_0 z); lra). apply Cmod_eq_0 in Z0. unfold z in Z0.
    replace (stored3 L N flmn n l m) with (stored3 L N flmn n l m - c n l m + c n l m)%C by ring. rewrite Z0. ring.
Qed.
Print Assumptions C76_fft_exact.
Example C76_fft_exact_ex : let c := fun n l m => RtoC (IZR (n * l + m)) in
  let f := mkArr [2 * 2 - 1; 3; 2 * 3 - 1]%Z (fun ix => so3_synth 3 2 c (equi_longitude MW 3 (nth 2 ix 0%Z)) (mw_theta 3 (nth 1 ix 0%Z)) (2 * PI * IZR (nth 0 ix 0%Z) / IZR (2 * 2 - 1))) in
  shape f = [2 * 2 - 1; rings MW 3 0; per_ring MW 3]%Z /\ forall g t p x, (0 <= g < 2 * 2 - 1)%Z -> (0 <= t < rings MW 3 0)%Z -> (0 <= p < per_ring MW 3)%Z -> is_colatitude MW 3 0 t x ->
    get f [g; t; p] = so3_synth 3 2 c (equi_longitude MW 3 p) x (2 * PI * IZR g / IZR (2 * 2 - 1)).
Proof. split; [reflexivity|]. cbn [is_colatitude]. intros g t p x _ _ _ ->. reflexivity. Qed.

Lemma b64_cond L N k : (1 <= N <= L)%Z -> (L <= 2 ^ 20)%Z -> (0 <= k < 2048)%Z ->
  2000 * u64 * (IZR L * (2 * IZR L + 3)) <= 1 /\ 4 * IZR L ^ 3 * eta64 <= u64 /\ IZR k * (IZR N * (IZR L * IZR L)) * eta64 <= / 10 ^ 300.
Proof.
  intros HN HL2 Hk. assert (H1 : 1 <= IZR L) by (apply IZR_le; lia). assert (H2 : IZR L <= IZR (2 ^ 20)) by (now apply IZR_le).
  assert (N1 : 1 <= IZR N) by (apply IZR_le; lia). assert (N2 : IZR N <= IZR (2 ^ 20)) by (apply IZR_le; lia). assert (E0 : 0 <= eta64) by apply bpow_ge_0.
  assert (L2 : IZR L * IZR L <= IZR (2 ^ 20) * IZR (2 ^ 20)) by (apply Rmult_le_compat; lra).
  assert (L3 : IZR L ^ 3 <= IZR (2 ^ 20) * (IZR (2 ^ 20) * IZR (2 ^ 20))) by (change (IZR L ^ 3) with (IZR L * (IZR L * (IZR L * 1))); rewrite Rmult_1_r; apply Rmult_le_compat; try lra; nra).
  assert (N3 : IZR N * (IZR L * IZR L) <= IZR (2 ^ 20) * (IZR (2 ^ 20) * IZR (2 ^ 20))) by (apply Rmult_le_compat; try lra; nra).
  rewrite <- (mult_IZR (2 ^ 20) (2 ^ 20)), <- (mult_IZR (2 ^ 20)) in L3, N3.
  split; [|split].
  - rewrite u64_value. assert (IZR L * (2 * IZR L + 3) <= IZR (2 ^ 20) * (2 * IZR (2 ^ 20) + 3)) by (apply Rmult_le_compat; lra).
    apply Rle_trans with (2000 * / IZR (2 ^ 53) * (IZR (2 ^ 20) * (2 * IZR (2 ^ 20) + 3))).
    + apply Rmult_le_compat_l; [|assumption]. cbn. lra.
    + cbn. lra.
  - eapply Rle_trans; [|apply (eta64_tiny 62); lia]. apply Rmult_le_compat_r; [exact E0|].
    change (2 ^ 62)%Z with (4 * (2 ^ 20 * (2 ^ 20 * 2 ^ 20)))%Z. rewrite (mult_IZR 4). apply Rmult_le_compat_l; [lra|exact L3].
  - apply Rle_trans with (IZR (2 ^ 71) * eta64).
    + apply Rmult_le_compat_r; [exact E0|]. change (2 ^ 71)%Z with (2 ^ 11 * (2 ^ 20 * (2 ^ 20 * 2 ^ 20)))%Z. rewrite (mult_IZR (2 ^ 11)).
      apply Rmult_le_compat; [apply IZR_le; lia|nra|apply IZR_le; lia|exact N3].
    + unfold eta64. change (IZR (2 ^ 71)) with (bpow radix2 71). rewrite <- bpow_plus. change (71 + -1075)%Z with (- (1004))%Z. rewrite bpow_opp.
      apply Rinv_le_contravar; [apply pow_lt; lra|]. rewrite <- (IZR_Zpower radix2) by lia. rewrite pow_IZR. apply IZR_le. vm_compute. discriminate.
Qed.

(** Binary64, up to band-limit a million: with Fourier transforms of relative accuracy 1e-14 the
    round trip returns each coefficient to within 54 pi^2 (8.4e-13 L (2 L + 3) + 1.3e-12) of the size of
    the signal. *)
Theorem C76_binary64 : forall F2 S fftg fftp o o' s L N gl wgl flmn, (2 <= N <= L)%Z -> (L <= 2 ^ 20)%Z ->
  transforms_accurate S (2 * L - 1) (/ 10 ^ 14) -> transforms_accurate S (2 * L) (/ 10 ^ 14) -> transforms_accurate S (4 * L) (/ 10 ^ 14) ->
  fft_accurate fftg (2 * N - 1) (/ 10 ^ 14) -> fft_accurate fftp (2 * L) (/ 10 ^ 14) -> fft_accurate fftp (4 * L) (/ 10 ^ 14) ->
  s = MW \/ s = MWSS -> ifft2_accurate F2 (2 * N - 1) (per_ring s L) (/ 10 ^ 14) -> sums_all o L -> sums_all o' (2 * L + 1) -> shape flmn = [2 * N - 1; L; 2 * L - 1]%Z ->
  exists ths K f K' flmn', pf_thetas binary64 (scheme_name s) L gl = Ok ths /\ wf_kernel binary64 ths L N = Ok K /\ wf_inverse binary64 F2 o flmn K L N (scheme_name s) = Ok f /\
    xm_kernel binary64 fftp (scheme_name s) gl wgl L N = Ok K' /\ xm_forward binary64 S fftg fftp o' f K' L N (scheme_name s) = Ok flmn' /\
    shape flmn' = [2 * N - 1; L; 2 * L - 1]%Z /\ forall n l m, (- N < n < N)%Z -> (0 <= l < L)%Z -> (- L < m < L)%Z ->
      ((Z.abs m <= l)%Z -> (Z.abs n <= l)%Z -> Cmod (stored3 L N flmn' n l m - stored3 L N flmn n l m)%C <=
        54 * PI ^ 2 * ((84 / 10 ^ 14 * (IZR L * (2 * IZR L + 3)) + 125 / 10 ^ 14) * so3_size L N (stored3 L N flmn) + / 10 ^ 300)) /\
      ((l < Z.abs m \/ l < Z.abs n)%Z -> stored3 L N flmn' n l m = RtoC 0).
Proof.
  intros F2 S fftg fftp o o' s L N gl wgl flmn HN HL2 H1 H2 H4 HG HP HP4 Hm HI Ho Ho' Hf. assert (L1 : 1 <= IZR L) by (apply IZR_le; lia).
  destruct (b64_cond L N 967 ltac:(lia) HL2 ltac:(lia)) as (C1 & C2 & C3).
  destruct (C76_round_trip binary64 u64 eta64 F2 S fftg fftp o o' s L N (/ 10 ^ 14) gl wgl flmn binary64_rounded (ieee_zeros _ _) HN C1 C2) as (ths & K & f & K' & flmn' & E1 & E2 & E3 & E4 & E5 & Sh & H); try assumption.
  - cbn. lra.
  - exists ths, K, f, K', flmn'. repeat (split; [assumption|]). intros n l m Hn Hl Hmm. destruct (H n l m Hn Hl Hmm) as [G1 G2]. split; [|exact G2]. intros M1 M2.
    eapply Rle_trans; [exact (G1 M1 M2)|]. apply Rmult_le_compat_l; [pose proof (pow2_ge_0 PI); lra|].
    apply Rplus_le_compat; [|exact C3].
    apply Rmult_le_compat_r; [apply so3_size_nonneg|]. rewrite u64_value. apply Rplus_le_compat; [|unfold Rdiv; lra].
    rewrite <- Rmult_assoc. apply Rmult_le_compat_r; [nra|]. cbn. lra.
Qed.
Print Assumptions C76_binary64.
Example C76_binary64_ex : (2 <= 5 <= 256)%Z /\ (256 <= 2 ^ 20)%Z /\ transforms_accurate exact_rffts (2 * 256 - 1) (/ 10 ^ 14) /\ transforms_accurate exact_rffts (4 * 256) (/ 10 ^ 14) /\
  fft_accurate fft_bwd (2 * 5 - 1) (/ 10 ^ 14) /\ fft_accurate fft_bwd (4 * 256) (/ 10 ^ 14) /\
  ifft2_accurate exact_ifft2 (2 * 5 - 1) (per_ring MWSS 256) (/ 10 ^ 14) /\ irfft_accurate (f_irfft exact_ffts) 256 (4 * 256) (/ 10 ^ 14) /\ sums_all (in_turn (2 * 256 + 1)) (2 * 256 + 1).
Proof.
  assert (0 <= / 10 ^ 14) by (left; apply Rinv_0_lt_compat; cbn; lra). split; [lia|]. split; [lia|]. do 2 (split; [apply exact_transforms; auto; lia|]). do 2 (split; [now apply exact_fft|]).
  split; [now apply exact_ifft2_accurate|]. split; [now apply exact_irfft|]. apply in_turn_all. lia.
Qed.

(** The same with the kernels of mode "fft". *)
Theorem C76_fft_binary64 : forall F F2 S fftg fftp o o' s L N gl wgl flmn, (2 <= N <= L)%Z -> (L <= 2 ^ 20)%Z ->
  transforms_accurate S (2 * L - 1) (/ 10 ^ 14) -> transforms_accurate S (2 * L) (/ 10 ^ 14) -> transforms_accurate S (4 * L) (/ 10 ^ 14) ->
  fft_accurate fftg (2 * N - 1) (/ 10 ^ 14) -> fft_accurate fftp (2 * L) (/ 10 ^ 14) -> fft_accurate fftp (4 * L) (/ 10 ^ 14) ->
  irfft_accurate (f_irfft F) L (4 * L) (/ 10 ^ 14) -> irfft_accurate (f_irfft F) L (circle_points s L) (/ 10 ^ 14) -> ipow_accurate (f_ipow F) (2 * L) (/ 10 ^ 14) ->
  s = MW \/ s = MWSS -> ifft2_accurate F2 (2 * N - 1) (per_ring s L) (/ 10 ^ 14) -> sums_all o L -> sums_all o' (2 * L + 1) -> shape flmn = [2 * N - 1; L; 2 * L - 1]%Z ->
  exists ths K f K' flmn', pf_thetas binary64 (scheme_name s) L gl = Ok ths /\ wf_kernel_fft binary64 F (scheme_name s) ths L N = Ok K /\ wf_inverse binary64 F2 o flmn K L N (scheme_name s) = Ok f /\
    xm_kernel_fft binary64 F fftp (scheme_name s) gl wgl L N = Ok K' /\ xm_forward binary64 S fftg fftp o' f K' L N (scheme_name s) = Ok flmn' /\
    shape flmn' = [2 * N - 1; L; 2 * L - 1]%Z /\ forall n l m, (- N < n < N)%Z -> (0 <= l < L)%Z -> (- L < m < L)%Z ->
      ((Z.abs m <= l)%Z -> (Z.abs n <= l)%Z -> Cmod (stored3 L N flmn' n l m - stored3 L N flmn n l m)%C <=
        54 * PI ^ 2 * ((542 / 10 ^ 14 * (IZR L * (2 * IZR L + 3)) + 807 / 10 ^ 14) * so3_size L N (stored3 L N flmn) + / 10 ^ 300)) /\
      ((l < Z.abs m \/ l < Z.abs n)%Z -> stored3 L N flmn' n l m = RtoC 0).
Proof.
  intros F F2 S fftg fftp o o' s L N gl wgl flmn HN HL2 H1 H2 H4 HG HP HP4 HIR HIR2 HPW Hm HI Ho Ho' Hf. assert (L1 : 1 <= IZR L) by (apply IZR_le; lia).
  destruct (b64_cond L N 1605 ltac:(lia) HL2 ltac:(lia)) as (C1 & C2 & C3).
  destruct (C76_fft_round_trip binary64 u64 eta64 F F2 S fftg fftp o o' s L N (/ 10 ^ 14) gl wgl flmn binary64_rounded (ieee_zeros _ _) HN C1 C2) as (ths & K & f & K' & flmn' & E1 & E2 & E3 & E4 & E5 & Sh & H); try assumption.
  - cbn. lra.
  - exists ths, K, f, K', flmn'. repeat (split; [assumption|]). intros n l m Hn Hl Hmm. destruct (H n l m Hn Hl Hmm) as [G1 G2]. split; [|exact G2]. intros M1 M2.
    eapply Rle_trans; [exact (G1 M1 M2)|]. apply Rmult_le_compat_l; [pose proof (pow2_ge_0 PI); lra|].
    apply Rplus_le_compat; [|exact C3].
    apply Rmult_le_compat_r; [apply so3_size_nonneg|]. rewrite u64_value. apply Rplus_le_compat; [|unfold Rdiv; lra].
    rewrite <- Rmult_assoc. apply Rmult_le_compat_r; [nra|]. cbn. lra.
Qed.
Print Assumptions C76_fft_binary64.
Example C76_fft_binary64_ex : (2 <= 5 <= 256)%Z /\ (256 <= 2 ^ 20)%Z /\ transforms_accurate exact_rffts (2 * 256 - 1) (/ 10 ^ 14) /\ transforms_accurate exact_rffts (4 * 256) (/ 10 ^ 14) /\
  fft_accurate fft_bwd (2 * 5 - 1) (/ 10 ^ 14) /\ fft_accurate fft_bwd (4 * 256) (/ 10 ^ 14) /\
  ifft2_accurate exact_ifft2 (2 * 5 - 1) (per_ring MWSS 256) (/ 10 ^ 14) /\ irfft_accurate (f_irfft exact_ffts) 256 (4 * 256) (/ 10 ^ 14) /\ sums_all (in_turn (2 * 256 + 1)) (2 * 256 + 1).
Proof.
  assert (0 <= / 10 ^ 14) by (left; apply Rinv_0_lt_compat; cbn; lra). split; [lia|]. split; [lia|]. do 2 (split; [apply exact_transforms; auto; lia|]). do 2 (split; [now apply exact_fft|]).
  split; [now apply exact_ifft2_accurate|]. split; [now apply exact_irfft|]. apply in_turn_all. lia.
Qed.
