(** C75: the precomputed forward transform on the rotation group and the round trip in floating-point arithmetic. *)
From Coq Require Import Reals Lra Lia ZifyBool.
From Coquelicot Require Import Complex.
From Flocq Require Import Core.
From Verif Require Import Lib.Py Lib.PyFacts Lib.Vec Lib.Sums Lib.Cplx Lib.Arr Model.Index Model.Samples Model.FFT Model.RisboFloat Model.Spherical Model.Precompute Model.PrecomputeFloat Model.ForwardFloat
  Model.PrecomputeWigner Model.WignerFloat Model.WignerForwardFloat
  Spec.SamplesSpec Spec.WignerSpec Spec.SphereSpec Spec.GridSpec Spec.QuadSpec Spec.SphericalSpec Spec.SO3Spec Spec.OTFWignerSpec Spec.RoundingSpec Spec.PrecomputeFloatSpec Spec.ForwardFloatSpec
  Spec.WignerFloatSpec Spec.WignerForwardFloatSpec
  Proofs.GaussProofs Proofs.RisboFloatProofs Proofs.FloatKernel Proofs.FloatInverse Proofs.FloatFourier Proofs.FloatTop Proofs.FloatWeights Proofs.FloatForward Proofs.FloatForwardTop Proofs.FloatWigner Proofs.FloatWignerForward
  Proofs.FloatWignerForwardTop Proofs.Binary64.
Open Scope string_scope.
Open Scope R_scope.

(** Any samples on the grid of the rotation group with Driscoll-Healy rings, whatever the order in
    which einsum adds: the coefficients are those of the exact rule applied to the samples, to within
    a multiple of u L^2 + eps of 16 pi^2 times their mean absolute value, and exactly zero where the
    d-function does not exist. *)
Theorem C75_forward : forall A u eta fftg fftp o L N eps gl wgl f, rounded A u eta -> zeros_exact A ->
  (1 <= N <= L)%Z -> 2000 * u * (IZR L * (2 * IZR L + 3)) <= 1 -> 4 * IZR L ^ 3 * eta <= u -> 0 <= eps <= / 20 ->
  fft_accurate fftg (2 * N - 1) eps -> fft_accurate fftp (2 * L - 1) eps ->
  sums_all o (2 * L) -> shape f = [2 * N - 1; 2 * L; 2 * L - 1]%Z ->
  exists ths K flmn, pf_thetas A "dh" L gl = Ok ths /\ xf_kernel A "dh" ths wgl L N = Ok K /\ xf_forward A fftg fftp o f K L N "dh" = Ok flmn /\
    shape flmn = [2 * N - 1; L; 2 * L - 1]%Z /\ forall n l m, (- N < n < N)%Z -> (0 <= l < L)%Z -> (- L < m < L)%Z ->
      ((Z.abs m <= l)%Z -> (Z.abs n <= l)%Z ->
        Cmod (stored3 L N flmn n l m - wigner_sum DH L N 0 (fun t => dh_weight L (dh_theta L t)) (dh_theta L) (fun g t p => get f [g; t; p]) n l m)%C <=
        (690 * u * (IZR L * (2 * IZR L + 3)) + 3 * eps) * (16 * PI ^ 2 * mean_abs3 (2 * N - 1) (2 * L) (2 * L - 1) f) + 24 * IZR L * eta) /\
      ((l < Z.abs m \/ l < Z.abs n)%Z -> stored3 L N flmn n l m = RtoC 0).
Proof.
  intros A u eta fftg fftp o L N eps gl wgl f HA HZ HN HB HE Heps HG HP Ho Hf.
  destruct (xf_dh_kernel A u eta HA HZ L N eps HN HB HE Heps gl wgl) as (ths & K & E1 & E2 & HK).
  destruct (xf_bounds A u eta HA L N HN HB HE) as (L1 & UX & _ & _ & _ & UB & _). set (X := (IZR L * (2 * IZR L + 3))) in *.
  destruct (xf_dh_forward A u eta HA HZ L N eps HN HB HE Heps fftg fftp o f K (290 * (u * X)) (690 * u * X + 3 * eps) Hf Ho ltac:(split; lra) HG HP HK ltac:(fold X; lra)) as (flmn & E3 & Sh & H).
  exists ths, K, flmn. now repeat (split; [assumption|]).
Qed.
Print Assumptions C75_forward.
Example C75_forward_ex : rounded binary64 u64 eta64 /\ zeros_exact binary64 /\ 2000 * u64 * (IZR 8 * (2 * IZR 8 + 3)) <= 1 /\ 4 * IZR 8 ^ 3 * eta64 <= u64 /\
  fft_accurate fft_bwd (2 * 3 - 1) 0 /\ fft_accurate fft_bwd (2 * 8 - 1) 0 /\ sums_all (in_turn 16) (2 * 8) /\ shape (zeros (RtoC 1) [5; 16; 15]%Z) = [2 * 3 - 1; 2 * 8; 2 * 8 - 1]%Z.
Proof.
  split; [exact binary64_rounded|]. split; [apply ieee_zeros|]. split; [rewrite u64_value; cbn; lra|].
  split; [eapply Rle_trans; [|apply (eta64_tiny 14); lia]; apply Rmult_le_compat_r; [apply bpow_ge_0|]; cbn; lra|].
  split; [apply exact_fft; lra|]. split; [apply exact_fft; lra|]. split; [apply in_turn_all; lia|reflexivity].
Qed.

(** Samples that differ from a band-limited signal by at most d: the coefficients of the signal are
    recovered to within a multiple of (u L^2 + eps) of its size and of d. *)
Theorem C75_analysis : forall A u eta fftg fftp o L N eps gl wgl f c d, rounded A u eta -> zeros_exact A ->
  (1 <= N <= L)%Z -> 2000 * u * (IZR L * (2 * IZR L + 3)) <= 1 -> 4 * IZR L ^ 3 * eta <= u -> 0 <= eps <= / 20 ->
  fft_accurate fftg (2 * N - 1) eps -> fft_accurate fftp (2 * L - 1) eps ->
  sums_all o (2 * L) -> shape f = [2 * N - 1; 2 * L; 2 * L - 1]%Z ->
  (forall g t p, (0 <= g < 2 * N - 1)%Z -> (0 <= t < 2 * L)%Z -> (0 <= p < 2 * L - 1)%Z ->
    Cmod (get f [g; t; p] - so3_synth L N c (equi_longitude DH L p) (dh_theta L t) (2 * PI * IZR g / IZR (2 * N - 1)))%C <= d) ->
  exists ths K flmn, pf_thetas A "dh" L gl = Ok ths /\ xf_kernel A "dh" ths wgl L N = Ok K /\ xf_forward A fftg fftp o f K L N "dh" = Ok flmn /\
    shape flmn = [2 * N - 1; L; 2 * L - 1]%Z /\ forall n l m, (- N < n < N)%Z -> (0 <= l < L)%Z -> (- L < m < L)%Z ->
      ((Z.abs m <= l)%Z -> (Z.abs n <= l)%Z ->
        Cmod (stored3 L N flmn n l m - c n l m)%C <= 16 * PI ^ 2 * ((690 * u * (IZR L * (2 * IZR L + 3)) + 3 * eps) * (so3_size L N c + d) + d + IZR L * eta)) /\
      ((l < Z.abs m \/ l < Z.abs n)%Z -> stored3 L N flmn n l m = RtoC 0).
Proof.
  intros A u eta fftg fftp o L N eps gl wgl f c d HA HZ HN HB HE Heps HG HP Ho Hf Hd.
  destruct (xf_dh_kernel A u eta HA HZ L N eps HN HB HE Heps gl wgl) as (ths & K & E1 & E2 & HK).
  destruct (xf_bounds A u eta HA L N HN HB HE) as (L1 & UX & _ & _ & _ & UB & _). set (X := (IZR L * (2 * IZR L + 3))) in *.
  destruct (xf_dh_analysis A u eta HA HZ L N eps HN HB HE Heps fftg fftp o f K (290 * (u * X)) (690 * u * X + 3 * eps) c d Hf Ho ltac:(split; lra) HG HP HK ltac:(fold X; lra) Hd) as (flmn & E3 & Sh & H).
  exists ths, K, flmn. now repeat (split; [assumption|]).
Qed.
Print Assumptions C75_analysis.
Example C75_analysis_ex : let c := fun n l m => RtoC (IZR (n + 2 * l + m)) in
  let f := mkArr [2 * 2 - 1; 2 * 3; 2 * 3 - 1]%Z (fun ix => so3_synth 3 2 c (equi_longitude DH 3 (nth 2 ix 0%Z)) (dh_theta 3 (nth 1 ix 0%Z)) (2 * PI * IZR (nth 0 ix 0%Z) / IZR (2 * 2 - 1))) in
  shape f = [2 * 2 - 1; 2 * 3; 2 * 3 - 1]%Z /\ forall g t p, (0 <= g < 2 * 2 - 1)%Z -> (0 <= t < 2 * 3)%Z -> (0 <= p < 2 * 3 - 1)%Z ->
    Cmod (get f [g; t; p] - so3_synth 3 2 c (equi_longitude DH 3 p) (dh_theta 3 t) (2 * PI * IZR g / IZR (2 * 2 - 1)))%C <= 0.
Proof. intros c f. split; [reflexivity|]. intros g t p _ _ _. unfold f. cbn [get nth]. replace (_ - _)%C with (RtoC 0) by ring. rewrite Cmod_0. lra. Qed.

(** Inverse transform, then forward transform of what it returned, on the Driscoll-Healy grid. *)
Theorem C75_round_trip : forall A u eta F2 fftg fftp o o' L N eps gl wgl flmn, rounded A u eta -> zeros_exact A ->
  (1 <= N <= L)%Z -> 2000 * u * (IZR L * (2 * IZR L + 3)) <= 1 -> 4 * IZR L ^ 3 * eta <= u -> 0 <= eps <= / 20 ->
  ifft2_accurate F2 (2 * N - 1) (2 * L - 1) eps -> fft_accurate fftg (2 * N - 1) eps -> fft_accurate fftp (2 * L - 1) eps ->
  sums_all o L -> sums_all o' (2 * L) -> shape flmn = [2 * N - 1; L; 2 * L - 1]%Z ->
  exists ths K f K' flmn', pf_thetas A "dh" L gl = Ok ths /\ wf_kernel A ths L N = Ok K /\ wf_inverse A F2 o flmn K L N "dh" = Ok f /\
    xf_kernel A "dh" ths wgl L N = Ok K' /\ xf_forward A fftg fftp o' f K' L N "dh" = Ok flmn' /\
    shape flmn' = [2 * N - 1; L; 2 * L - 1]%Z /\ forall n l m, (- N < n < N)%Z -> (0 <= l < L)%Z -> (- L < m < L)%Z ->
      ((Z.abs m <= l)%Z -> (Z.abs n <= l)%Z -> Cmod (stored3 L N flmn' n l m - stored3 L N flmn n l m)%C <=
        16 * PI ^ 2 * ((1440 * u * (IZR L * (2 * IZR L + 3)) + 5 * eps) * so3_size L N (stored3 L N flmn) + 78 * (IZR N * (IZR L * IZR L)) * eta)) /\
      ((l < Z.abs m \/ l < Z.abs n)%Z -> stored3 L N flmn' n l m = RtoC 0).
Proof.
  intros A u eta F2 fftg fftp o o' L N eps gl wgl flmn HA HZ HN HB HE Heps HI2 HG HP Ho Ho' Hf.
  exact (xf_dh_trip A u eta HA HZ L N eps HN HB HE Heps F2 fftg fftp o o' flmn gl wgl HI2 HG HP Ho Ho' Hf).
Qed.
Print Assumptions C75_round_trip.
Example C75_round_trip_ex : rounded exact_arith 0 0 /\ zeros_exact exact_arith /\ (1 <= 3 <= 5)%Z /\ ifft2_accurate exact_ifft2 (2 * 3 - 1) (2 * 5 - 1) 0 /\
  fft_accurate fft_bwd (2 * 3 - 1) 0 /\ fft_accurate fft_bwd (2 * 5 - 1) 0 /\ sums_all (in_turn 5) 5 /\ sums_all (in_turn 10) (2 * 5) /\ shape (zeros (RtoC 1) [5; 5; 9]%Z) = [2 * 3 - 1; 5; 2 * 5 - 1]%Z.
Proof.
  split; [exact exact_rounded|]. split; [exact exact_zeros|]. split; [lia|]. split; [apply exact_ifft2_accurate; lra|]. split; [apply exact_fft; lra|]. split; [apply exact_fft; lra|].
  split; [apply in_turn_all; lia|]. split; [apply in_turn_all; lia|reflexivity].
Qed.

(** *** Kernels of mode "fft" *)
(** The same three with the kernel of mode "fft". *)
Theorem C75_fft_forward : forall A u eta F fftg fftp o L N eps gl wgl f, rounded A u eta -> zeros_exact A ->
  (1 <= N <= L)%Z -> 2000 * u * (IZR L * (2 * IZR L + 3)) <= 1 -> 4 * IZR L ^ 3 * eta <= u -> 0 <= eps <= / 20 ->
  irfft_accurate (f_irfft F) L (4 * L) eps -> ipow_accurate (f_ipow F) (2 * L) eps ->
  fft_accurate fftg (2 * N - 1) eps -> fft_accurate fftp (2 * L - 1) eps ->
  sums_all o (2 * L) -> shape f = [2 * N - 1; 2 * L; 2 * L - 1]%Z ->
  exists ths K flmn, pf_thetas A "dh" L gl = Ok ths /\ xf_kernel_fft A F "dh" ths wgl L N = Ok K /\ xf_forward A fftg fftp o f K L N "dh" = Ok flmn /\
    shape flmn = [2 * N - 1; L; 2 * L - 1]%Z /\ forall n l m, (- N < n < N)%Z -> (0 <= l < L)%Z -> (- L < m < L)%Z ->
      ((Z.abs m <= l)%Z -> (Z.abs n <= l)%Z ->
        Cmod (stored3 L N flmn n l m - wigner_sum DH L N 0 (fun t => dh_weight L (dh_theta L t)) (dh_theta L) (fun g t p => get f [g; t; p]) n l m)%C <=
        (2320 * u * (IZR L * (2 * IZR L + 3)) + 27 * eps) * (16 * PI ^ 2 * mean_abs3 (2 * N - 1) (2 * L) (2 * L - 1) f) + 24 * IZR L * eta) /\
      ((l < Z.abs m \/ l < Z.abs n)%Z -> stored3 L N flmn n l m = RtoC 0).
Proof.
  intros A u eta F fftg fftp o L N eps gl wgl f HA HZ HN HB HE Heps HF HI HG HP Ho Hf.
  destruct (xf_dh_kernel_fft A u eta HA HZ L N eps HN HB HE Heps F gl wgl HF HI) as (ths & K & E1 & E2 & HK).
  destruct (xf_bounds A u eta HA L N HN HB HE) as (L1 & UX & _ & _ & _ & UB & _). set (X := (IZR L * (2 * IZR L + 3))) in *.
  destruct (xf_dh_forward A u eta HA HZ L N eps HN HB HE Heps fftg fftp o f K (997 * (u * X) + 107 / 10 * eps) (2320 * u * X + 27 * eps) Hf Ho ltac:(split; lra) HG HP HK ltac:(fold X; lra)) as (flmn & E3 & Sh & H).
  exists ths, K, flmn. now repeat (split; [assumption|]).
Qed.
Print Assumptions C75_fft_forward.
Example C75_fft_forward_ex : irfft_accurate (f_irfft exact_ffts) 8 (4 * 8) 0 /\ ipow_accurate (f_ipow exact_ffts) (2 * 8) 0 /\ fft_accurate fft_bwd (2 * 3 - 1) 0 /\
  fft_accurate fft_bwd (2 * 8 - 1) 0 /\ sums_all (in_turn 16) (2 * 8) /\ shape (zeros (RtoC 1) [5; 16; 15]%Z) = [2 * 3 - 1; 2 * 8; 2 * 8 - 1]%Z.
Proof.
  split; [apply exact_irfft; lra|]. split; [apply exact_ipow; lra|]. split; [apply exact_fft; lra|]. split; [apply exact_fft; lra|]. split; [apply in_turn_all; lia|reflexivity].
Qed.

Theorem C75_fft_analysis : forall A u eta F fftg fftp o L N eps gl wgl f c d, rounded A u eta -> zeros_exact A ->
  (1 <= N <= L)%Z -> 2000 * u * (IZR L * (2 * IZR L + 3)) <= 1 -> 4 * IZR L ^ 3 * eta <= u -> 0 <= eps <= / 20 ->
  irfft_accurate (f_irfft F) L (4 * L) eps -> ipow_accurate (f_ipow F) (2 * L) eps ->
  fft_accurate fftg (2 * N - 1) eps -> fft_accurate fftp (2 * L - 1) eps ->
  sums_all o (2 * L) -> shape f = [2 * N - 1; 2 * L; 2 * L - 1]%Z ->
  (forall g t p, (0 <= g < 2 * N - 1)%Z -> (0 <= t < 2 * L)%Z -> (0 <= p < 2 * L - 1)%Z ->
    Cmod (get f [g; t; p] - so3_synth L N c (equi_longitude DH L p) (dh_theta L t) (2 * PI * IZR g / IZR (2 * N - 1)))%C <= d) ->
  exists ths K flmn, pf_thetas A "dh" L gl = Ok ths /\ xf_kernel_fft A F "dh" ths wgl L N = Ok K /\ xf_forward A fftg fftp o f K L N "dh" = Ok flmn /\
    shape flmn = [2 * N - 1; L; 2 * L - 1]%Z /\ forall n l m, (- N < n < N)%Z -> (0 <= l < L)%Z -> (- L < m < L)%Z ->
      ((Z.abs m <= l)%Z -> (Z.abs n <= l)%Z ->
        Cmod (stored3 L N flmn n l m - c n l m)%C <= 16 * PI ^ 2 * ((2320 * u * (IZR L * (2 * IZR L + 3)) + 27 * eps) * (so3_size L N c + d) + d + IZR L * eta)) /\
      ((l < Z.abs m \/ l < Z.abs n)%Z -> stored3 L N flmn n l m = RtoC 0).
Proof.
  intros A u eta F fftg fftp o L N eps gl wgl f c d HA HZ HN HB HE Heps HF HI HG HP Ho Hf Hd.
  destruct (xf_dh_kernel_fft A u eta HA HZ L N eps HN HB HE Heps F gl wgl HF HI) as (ths & K & E1 & E2 & HK).
  destruct (xf_bounds A u eta HA L N HN HB HE) as (L1 & UX & _ & _ & _ & UB & _). set (X := (IZR L * (2 * IZR L + 3))) in *.
  destruct (xf_dh_analysis A u eta HA HZ L N eps HN HB HE Heps fftg fftp o f K (997 * (u * X) + 107 / 10 * eps) (2320 * u * X + 27 * eps) c d Hf Ho ltac:(split; lra) HG HP HK ltac:(fold X; lra) Hd) as (flmn & E3 & Sh & H).
  exists ths, K, flmn. now repeat (split; [assumption|]).
Qed.
Print Assumptions C75_fft_analysis.
Example C75_fft_analysis_ex : let c := fun n l m => RtoC (IZR (n + 2 * l + m)) in
  let f := mkArr [2 * 2 - 1; 2 * 3; 2 * 3 - 1]%Z (fun ix => so3_synth 3 2 c (equi_longitude DH 3 (nth 2 ix 0%Z)) (dh_theta 3 (nth 1 ix 0%Z)) (2 * PI * IZR (nth 0 ix 0%Z) / IZR (2 * 2 - 1))) in
  shape f = [2 * 2 - 1; 2 * 3; 2 * 3 - 1]%Z /\ forall g t p, (0 <= g < 2 * 2 - 1)%Z -> (0 <= t < 2 * 3)%Z -> (0 <= p < 2 * 3 - 1)%Z ->
    Cmod (get f [g; t; p] - so3_synth 3 2 c (equi_longitude DH 3 p) (dh_theta 3 t) (2 * PI * IZR g / IZR (2 * 2 - 1)))%C <= 0.
Proof. intros c f. split; [reflexivity|]. intros g t p _ _ _. unfold f. cbn [get nth]. replace (_ - _)%C with (RtoC 0) by ring. rewrite Cmod_0. lra. Qed.

Theorem C75_fft_round_trip : forall A u eta F F2 fftg fftp o o' L N eps gl wgl flmn, rounded A u eta -> zeros_exact A ->
  (1 <= N <= L)%Z -> 2000 * u * (IZR L * (2 * IZR L + 3)) <= 1 -> 4 * IZR L ^ 3 * eta <= u -> 0 <= eps <= / 20 ->
  irfft_accurate (f_irfft F) L (4 * L) eps -> ipow_accurate (f_ipow F) (2 * L) eps ->
  ifft2_accurate F2 (2 * N - 1) (2 * L - 1) eps -> fft_accurate fftg (2 * N - 1) eps -> fft_accurate fftp (2 * L - 1) eps ->
  sums_all o L -> sums_all o' (2 * L) -> shape flmn = [2 * N - 1; L; 2 * L - 1]%Z ->
  exists ths K f K' flmn', pf_thetas A "dh" L gl = Ok ths /\ wf_kernel_fft A F "dh" ths L N = Ok K /\ wf_inverse A F2 o flmn K L N "dh" = Ok f /\
    xf_kernel_fft A F "dh" ths wgl L N = Ok K' /\ xf_forward A fftg fftp o' f K' L N "dh" = Ok flmn' /\
    shape flmn' = [2 * N - 1; L; 2 * L - 1]%Z /\ forall n l m, (- N < n < N)%Z -> (0 <= l < L)%Z -> (- L < m < L)%Z ->
      ((Z.abs m <= l)%Z -> (Z.abs n <= l)%Z -> Cmod (stored3 L N flmn' n l m - stored3 L N flmn n l m)%C <=
        16 * PI ^ 2 * ((9500 * u * (IZR L * (2 * IZR L + 3)) + 120 * eps) * so3_size L N (stored3 L N flmn) + 181 * (IZR N * (IZR L * IZR L)) * eta)) /\
      ((l < Z.abs m \/ l < Z.abs n)%Z -> stored3 L N flmn' n l m = RtoC 0).
Proof.
  intros A u eta F F2 fftg fftp o o' L N eps gl wgl flmn HA HZ HN HB HE Heps HF HI HI2 HG HP Ho Ho' Hf.
  exact (xf_dh_trip_fft A u eta HA HZ L N eps HN HB HE Heps F F2 fftg fftp o o' flmn gl wgl HF HI HI2 HG HP Ho Ho' Hf).
Qed.
Print Assumptions C75_fft_round_trip.
Example C75_fft_round_trip_ex : rounded exact_arith 0 0 /\ zeros_exact exact_arith /\ (1 <= 3 <= 5)%Z /\ ifft2_accurate exact_ifft2 (2 * 3 - 1) (2 * 5 - 1) 0 /\
  fft_accurate fft_bwd (2 * 3 - 1) 0 /\ fft_accurate fft_bwd (2 * 5 - 1) 0 /\ sums_all (in_turn 5) 5 /\ sums_all (in_turn 10) (2 * 5) /\ shape (zeros (RtoC 1) [5; 5; 9]%Z) = [2 * 3 - 1; 5; 2 * 5 - 1]%Z.
Proof.
  split; [exact exact_rounded|]. split; [exact exact_zeros|]. split; [lia|]. split; [apply exact_ifft2_accurate; lra|]. split; [apply exact_fft; lra|]. split; [apply exact_fft; lra|].
  split; [apply in_turn_all; lia|]. split; [apply in_turn_all; lia|reflexivity].
Qed.

(** *** Consequences *)
(** Without rounding and with exact Fourier transforms the forward transform of this model returns
    the coefficients themselves. *)
Theorem C75_exact : forall L N gl wgl f c o, (1 <= N <= L)%Z -> sums_all o (2 * L) -> shape f = [2 * N - 1; 2 * L; 2 * L - 1]%Z ->
  (forall g t p, (0 <= g < 2 * N - 1)%Z -> (0 <= t < 2 * L)%Z -> (0 <= p < 2 * L - 1)%Z ->
    get f [g; t; p] = so3_synth L N c (equi_longitude DH L p) (dh_theta L t) (2 * PI * IZR g / IZR (2 * N - 1))) ->
  exists ths K flmn, pf_thetas exact_arith "dh" L gl = Ok ths /\ xf_kernel exact_arith "dh" ths wgl L N = Ok K /\
    xf_forward exact_arith fft_bwd fft_bwd o f K L N "dh" = Ok flmn /\
    shape flmn = [2 * N - 1; L; 2 * L - 1]%Z /\ forall n l m, (- N < n < N)%Z -> (0 <= l < L)%Z -> (- L < m < L)%Z ->
      get flmn [n + N - 1; l; m + L - 1]%Z = if ((Z.abs m <=? l) && (Z.abs n <=? l))%Z then c n l m else RtoC 0.
Proof.
  intros L N gl wgl f c o HN Ho Hf Hd.
  destruct (C75_analysis exact_arith 0 0 fft_bwd fft_bwd o L N 0 gl wgl f c 0 exact_rounded exact_zeros HN) as (ths & K & flmn & E1 & E2 & E3 & Sh & H); try assumption; try lra.
  - apply exact_fft. lra.
  - apply exact_fft. lra.
  - intros g t p Hg Ht Hp. rewrite (Hd g t p Hg Ht Hp). replace (_ - _)%C with (RtoC 0) by ring. rewrite Cmod_0. lra.
  - exists ths, K, flmn. repeat (split; [assumption|]). intros n l m Hn Hl Hm. destruct (H n l m Hn Hl Hm) as [H1 H2].
    change (get flmn [n + N - 1; l; m + L - 1]%Z) with (stored3 L N flmn n l m).
    destruct (Z.leb_spec (Z.abs m) l), (Z.leb_spec (Z.abs n) l); cbn [andb]; try (apply H2; lia).
    specialize (H1 ltac:(lia) ltac:(lia)). set (z := (stored3 L N flmn n l m - c n l m)%C) in *.
    assert (Z0 : Cmod z = 0) by (pose proof (Cmod_ge_0 z); lra). apply Cmod_eq_0 in Z0. unfold z in Z0.
    replace (stored3 L N flmn n l m) with (stored3 L N flmn n l m - c n l m + c n l m)%C by ring. rewrite Z0. ring.
Qed.
Print Assumptions C75_exact.
Example C75_exact_ex : let c := fun n l m => RtoC (IZR (n * l + m)) in
  let f := mkArr [2 * 2 - 1; 2 * 3; 2 * 3 - 1]%Z (fun ix => so3_synth 3 2 c (equi_longitude DH 3 (nth 2 ix 0%Z)) (dh_theta 3 (nth 1 ix 0%Z)) (2 * PI * IZR (nth 0 ix 0%Z) / IZR (2 * 2 - 1))) in
  shape f = [2 * 2 - 1; 2 * 3; 2 * 3 - 1]%Z /\ forall g t p, (0 <= g < 2 * 2 - 1)%Z -> (0 <= t < 2 * 3)%Z -> (0 <= p < 2 * 3 - 1)%Z ->
    get f [g; t; p] = so3_synth 3 2 c (equi_longitude DH 3 p) (dh_theta 3 t) (2 * PI * IZR g / IZR (2 * 2 - 1)).
Proof. split; reflexivity. Qed.

Lemma fourth_tiny A u eta L : rounded A u eta -> (1 <= L)%Z -> 4 * IZR L ^ 4 * eta <= u -> 4 * IZR L ^ 3 * eta <= u /\ IZR L ^ 4 * eta <= u.
Proof.
  intros HA HL H. assert (1 <= IZR L) by (apply IZR_le; lia). assert (0 <= eta) by exact (rd_eta _ _ _ HA). assert (0 < IZR L ^ 3) by (apply pow_lt; lra).
  assert (IZR L ^ 3 <= IZR L ^ 4) by (change (IZR L ^ 4) with (IZR L * IZR L ^ 3); nra). assert (0 <= IZR L ^ 4 * eta) by (apply Rmult_le_pos; lra).
  assert (IZR L ^ 3 * eta <= IZR L ^ 4 * eta) by (now apply Rmult_le_compat_r). split; lra.
Qed.
(** Gauss-Legendre rings: colatitudes with error delta and weights with relative error dw are given. *)
Theorem C75_gl : forall A u eta fftg fftp o L N eps nodes wg gl wgl delta dw f c d, rounded A u eta -> zeros_exact A ->
  (1 <= N <= L)%Z -> 2000 * u * (IZR L * (2 * IZR L + 3)) <= 1 -> 4 * IZR L ^ 4 * eta <= u -> 0 <= eps <= / 20 ->
  gauss_legendre L nodes wg ->
  vlen gl = L -> 0 <= delta /\ IZR L * delta <= / 20 ->
  (forall t, (0 <= t < L)%Z -> Rabs (vat gl t - acos (vat nodes (L - 1 - t))) <= delta) ->
  vlen wgl = L -> 0 <= dw <= / 10 ->
  (forall t, (0 <= t < L)%Z -> let w := 2 * PI * vat wg t / IZR (2 * L - 1) in Rabs (vat wgl t - w) <= dw * w) ->
  fft_accurate fftg (2 * N - 1) eps -> fft_accurate fftp (2 * L - 1) eps -> sums_all o L -> shape f = [2 * N - 1; L; 2 * L - 1]%Z ->
  (forall g t p, (0 <= g < 2 * N - 1)%Z -> (0 <= t < L)%Z -> (0 <= p < 2 * L - 1)%Z ->
    Cmod (get f [g; t; p] - so3_synth L N c (equi_longitude GL L p) (acos (vat nodes (L - 1 - t))) (2 * PI * IZR g / IZR (2 * N - 1)))%C <= d) ->
  exists K flmn, xf_kernel A "gl" gl wgl L N = Ok K /\ xf_forward A fftg fftp o f K L N "gl" = Ok flmn /\
    shape flmn = [2 * N - 1; L; 2 * L - 1]%Z /\ forall n l m, (- N < n < N)%Z -> (0 <= l < L)%Z -> (- L < m < L)%Z ->
      ((Z.abs m <= l)%Z -> (Z.abs n <= l)%Z -> Cmod (stored3 L N flmn n l m - c n l m)%C <=
        8 * PI ^ 2 * ((490 * u * (IZR L * (2 * IZR L + 3)) + 3 * eps + 3 * (IZR L * delta) + 5 * dw) * (so3_size L N c + d) + d + IZR L * eta)) /\
      ((l < Z.abs m \/ l < Z.abs n)%Z -> stored3 L N flmn n l m = RtoC 0).
Proof.
  intros A u eta fftg fftp o L N eps nodes wg gl wgl delta dw f c d HA HZ HN HB HE Heps HGL Hg1 Hde Hg3 Hw1 Hdw Hw2 HG HP Ho Hf Hd.
  destruct (fourth_tiny A u eta L HA ltac:(lia) HE) as [HE3 HE4].
  exact (xf_gl_analysis A u eta HA HZ L N eps HN HB HE3 Heps nodes wg gl wgl delta dw HGL Hg1 Hde Hg3 Hw1 Hdw Hw2 HE4 fftg fftp o f c d Hf Ho HG HP Hd).
Qed.
Print Assumptions C75_gl.
(** the rule itself, at no distance from itself *)
Example C75_gl_ex : forall L, (1 <= L)%Z -> exists nodes wg gl wgl, gauss_legendre L nodes wg /\ vlen gl = L /\ vlen wgl = L /\
  (forall t, (0 <= t < L)%Z -> Rabs (vat gl t - acos (vat nodes (L - 1 - t))) <= 0) /\
  (forall t, (0 <= t < L)%Z -> let w := 2 * PI * vat wg t / IZR (2 * L - 1) in Rabs (vat wgl t - w) <= 0 * w).
Proof.
  intros L HL. destruct (gauss_exists L HL) as (x & w & HG). exists x, w, (mkVec L (fun t => acos (vat x (L - 1 - t)))), (mkVec L (fun t => 2 * PI * vat w t / IZR (2 * L - 1))).
  split; [exact HG|]. split; [reflexivity|]. split; [reflexivity|]. cbn [vat].
  split; intros; rewrite Rminus_diag_eq, Rabs_R0 by reflexivity; lra.
Qed.

(** Inverse transform, then forward transform of what it returned, on Gauss-Legendre rings. *)
Theorem C75_gl_round_trip : forall A u eta F2 fftg fftp o o' L N eps nodes wg gl wgl delta dw flmn, rounded A u eta -> zeros_exact A ->
  (1 <= N <= L)%Z -> 2000 * u * (IZR L * (2 * IZR L + 3)) <= 1 -> 4 * IZR L ^ 4 * eta <= u -> 0 <= eps <= / 20 ->
  gauss_legendre L nodes wg ->
  vlen gl = L -> 0 <= delta /\ IZR L * delta <= / 20 ->
  (forall t, (0 <= t < L)%Z -> Rabs (vat gl t - acos (vat nodes (L - 1 - t))) <= delta) ->
  vlen wgl = L -> 0 <= dw <= / 10 ->
  (forall t, (0 <= t < L)%Z -> let w := 2 * PI * vat wg t / IZR (2 * L - 1) in Rabs (vat wgl t - w) <= dw * w) ->
  ifft2_accurate F2 (2 * N - 1) (2 * L - 1) eps -> fft_accurate fftg (2 * N - 1) eps -> fft_accurate fftp (2 * L - 1) eps -> sums_all o L -> sums_all o' L -> shape flmn = [2 * N - 1; L; 2 * L - 1]%Z ->
  exists K f K' flmn', wf_kernel A gl L N = Ok K /\ wf_inverse A F2 o flmn K L N "gl" = Ok f /\
    xf_kernel A "gl" gl wgl L N = Ok K' /\ xf_forward A fftg fftp o' f K' L N "gl" = Ok flmn' /\
    shape flmn' = [2 * N - 1; L; 2 * L - 1]%Z /\ forall n l m, (- N < n < N)%Z -> (0 <= l < L)%Z -> (- L < m < L)%Z ->
      ((Z.abs m <= l)%Z -> (Z.abs n <= l)%Z -> Cmod (stored3 L N flmn' n l m - stored3 L N flmn n l m)%C <=
        8 * PI ^ 2 * ((1500 * u * (IZR L * (2 * IZR L + 3)) + 6 * eps + 6 * (IZR L * delta) + 5 * dw) * so3_size L N (stored3 L N flmn) + 106 * (IZR N * (IZR L * IZR L)) * eta)) /\
      ((l < Z.abs m \/ l < Z.abs n)%Z -> stored3 L N flmn' n l m = RtoC 0).
Proof.
  intros A u eta F2 fftg fftp o o' L N eps nodes wg gl wgl delta dw flmn HA HZ HN HB HE Heps HGL Hg1 Hde Hg3 Hw1 Hdw Hw2 HI HG HP Ho Ho' Hf.
  destruct (fourth_tiny A u eta L HA ltac:(lia) HE) as [HE3 HE4].
  exact (xf_gl_trip A u eta HA HZ L N eps HN HB HE3 Heps nodes wg gl wgl delta dw HGL Hg1 Hde Hg3 Hw1 Hdw Hw2 HE4 F2 fftg fftp o o' flmn HI HG HP Ho Ho' Hf).
Qed.
Print Assumptions C75_gl_round_trip.
Example C75_gl_round_trip_ex : rounded binary64 u64 eta64 /\ zeros_exact binary64 /\ 2000 * u64 * (IZR 8 * (2 * IZR 8 + 3)) <= 1 /\ 4 * IZR 8 ^ 4 * eta64 <= u64 /\
  (exists nodes wg, gauss_legendre 8 nodes wg) /\ ifft2_accurate exact_ifft2 (2 * 3 - 1) (2 * 8 - 1) 0 /\ fft_accurate fft_bwd (2 * 3 - 1) 0 /\ sums_all (in_turn 8) 8.
Proof.
  split; [exact binary64_rounded|]. split; [apply ieee_zeros|]. split; [rewrite u64_value; cbn; lra|].
  split; [eapply Rle_trans; [|apply (eta64_tiny 14); lia]; apply Rmult_le_compat_r; [apply bpow_ge_0|]; cbn; lra|].
  split; [exact (gauss_exists 8 ltac:(lia))|]. split; [apply exact_ifft2_accurate; lra|]. split; [apply exact_fft; lra|apply in_turn_all; lia].
Qed.

Lemma b64_cond L N k : (1 <= N <= L)%Z -> (L <= 2 ^ 20)%Z -> (0 <= k < 256)%Z ->
  2000 * u64 * (IZR L * (2 * IZR L + 3)) <= 1 /\ 4 * IZR L ^ 3 * eta64 <= u64 /\ IZR k * (IZR N * (IZR L * IZR L)) * eta64 <= / 10 ^ 300.
Proof.
  intros HN HL2 Hk. assert (H1 : 1 <= IZR L) by (apply IZR_le; lia). assert (H2 : IZR L <= IZR (2 ^ 20)) by (now apply IZR_le).
  assert (N1 : 1 <= IZR N) by (apply IZR_le; lia). assert (N2 : IZR N <= IZR (2 ^ 20)) by (apply IZR_le; lia). assert (E0 : 0 <= eta64) by apply bpow_ge_0.
  assert (L2 : IZR L * IZR L <= IZR (2 ^ 20) * IZR (2 ^ 20)) by (apply Rmult_le_compat; lra).
  assert (L3 : IZR L ^ 3 <= IZR (2 ^ 20) * (IZR (2 ^ 20) * IZR (2 ^ 20))) by (change (IZR L ^ 3) with (IZR L * (IZR L * (IZR L * 1))); rewrite Rmult_1_r; apply Rmult_le_compat; try lra; nra).
  assert (N3 : IZR N * (IZR L * IZR L) <= IZR (2 ^ 20) * (IZR (2 ^ 20) * IZR (2 ^ 20))) by (apply Rmult_le_compat; try lra; nra).
  rewrite <- (mult_IZR (2 ^ 20) (2 ^ 20)), <- (mult_IZR (2 ^ 20)) in L3, N3.
  split; [|split].
  - rewrite u64_value. assert (IZR L * (2 * IZR L + 3) <= IZR (2 ^ 20) * (2 * IZR (2 ^ 20) + 3)) by (apply Rmult_le_compat; lra).
    apply Rle_trans with (2000 * / IZR (2 ^ 53) * (IZR (2 ^ 20) * (2 * IZR (2 ^ 20) + 3))).
    + apply Rmult_le_compat_l; [|assumption]. cbn. lra.
    + cbn. lra.
  - eapply Rle_trans; [|apply (eta64_tiny 62); lia]. apply Rmult_le_compat_r; [exact E0|].
    change (2 ^ 62)%Z with (4 * (2 ^ 20 * (2 ^ 20 * 2 ^ 20)))%Z. rewrite (mult_IZR 4). apply Rmult_le_compat_l; [lra|exact L3].
  - apply Rle_trans with (IZR (2 ^ 68) * eta64).
    + apply Rmult_le_compat_r; [exact E0|]. change (2 ^ 68)%Z with (2 ^ 8 * (2 ^ 20 * (2 ^ 20 * 2 ^ 20)))%Z. rewrite (mult_IZR (2 ^ 8)).
      apply Rmult_le_compat; [apply IZR_le; lia|nra|apply IZR_le; lia|exact N3].
    + unfold eta64. change (IZR (2 ^ 68)) with (bpow radix2 68). rewrite <- bpow_plus. change (68 + -1075)%Z with (- (1007))%Z. rewrite bpow_opp.
      apply Rinv_le_contravar; [apply pow_lt; lra|]. rewrite <- (IZR_Zpower radix2) by lia. rewrite pow_IZR. apply IZR_le. vm_compute. discriminate.
Qed.
(** Binary64, up to band-limit a million: with Fourier transforms of relative accuracy 1e-14 the
    round trip returns each coefficient to within 16 pi^2 (1.6e-13 L (2 L + 3) + 5e-14) of the size of
    the signal. *)
Theorem C75_binary64 : forall F2 fftg fftp o o' L N gl wgl flmn, (1 <= N <= L)%Z -> (L <= 2 ^ 20)%Z ->
  ifft2_accurate F2 (2 * N - 1) (2 * L - 1) (/ 10 ^ 14) -> fft_accurate fftg (2 * N - 1) (/ 10 ^ 14) -> fft_accurate fftp (2 * L - 1) (/ 10 ^ 14) ->
  sums_all o L -> sums_all o' (2 * L) -> shape flmn = [2 * N - 1; L; 2 * L - 1]%Z ->
  exists ths K f K' flmn', pf_thetas binary64 "dh" L gl = Ok ths /\ wf_kernel binary64 ths L N = Ok K /\ wf_inverse binary64 F2 o flmn K L N "dh" = Ok f /\
    xf_kernel binary64 "dh" ths wgl L N = Ok K' /\ xf_forward binary64 fftg fftp o' f K' L N "dh" = Ok flmn' /\
    shape flmn' = [2 * N - 1; L; 2 * L - 1]%Z /\ forall n l m, (- N < n < N)%Z -> (0 <= l < L)%Z -> (- L < m < L)%Z ->
      ((Z.abs m <= l)%Z -> (Z.abs n <= l)%Z -> Cmod (stored3 L N flmn' n l m - stored3 L N flmn n l m)%C <=
        16 * PI ^ 2 * ((16 / 10 ^ 14 * (IZR L * (2 * IZR L + 3)) + 5 / 10 ^ 14) * so3_size L N (stored3 L N flmn) + / 10 ^ 300)) /\
      ((l < Z.abs m \/ l < Z.abs n)%Z -> stored3 L N flmn' n l m = RtoC 0).
Proof.
  intros F2 fftg fftp o o' L N gl wgl flmn HN HL2 HI2 HG HP Ho Ho' Hf. assert (H1 : 1 <= IZR L) by (apply IZR_le; lia).
  destruct (b64_cond L N 78 HN HL2 ltac:(lia)) as (C1 & C2 & C3).
  destruct (C75_round_trip binary64 u64 eta64 F2 fftg fftp o o' L N (/ 10 ^ 14) gl wgl flmn binary64_rounded (ieee_zeros _ _) HN C1 C2) as (ths & K & f & K' & flmn' & E1 & E2 & E3 & E4 & E5 & Sh & H); try assumption.
  - cbn. lra.
  - exists ths, K, f, K', flmn'. repeat (split; [assumption|]). intros n l m Hn Hl Hm. destruct (H n l m Hn Hl Hm) as [G1 G2]. split; [|exact G2]. intros M1 M2.
    eapply Rle_trans; [exact (G1 M1 M2)|]. apply Rmult_le_compat_l; [pose proof (pow2_ge_0 PI); lra|].
    apply Rplus_le_compat; [|exact C3].
    apply Rmult_le_compat_r; [apply so3_size_nonneg|]. rewrite u64_value. apply Rplus_le_compat; [|unfold Rdiv; lra].
    apply Rmult_le_compat_r; [nra|]. cbn. lra.
Qed.
Print Assumptions C75_binary64.
Example C75_binary64_ex : (1 <= 5 <= 256)%Z /\ (256 <= 2 ^ 20)%Z /\ fft_accurate fft_bwd (2 * 5 - 1) (/ 10 ^ 14) /\ fft_accurate fft_bwd (2 * 256 - 1) (/ 10 ^ 14) /\
  ifft2_accurate exact_ifft2 (2 * 5 - 1) (2 * 256 - 1) (/ 10 ^ 14) /\ irfft_accurate (f_irfft exact_ffts) 256 (4 * 256) (/ 10 ^ 14) /\ sums_all (in_turn (2 * 256)) (2 * 256).
Proof.
  assert (0 <= / 10 ^ 14) by (left; apply Rinv_0_lt_compat; cbn; lra). split; [lia|]. split; [lia|]. split; [now apply exact_fft|]. split; [now apply exact_fft|].
  split; [now apply exact_ifft2_accurate|]. split; [now apply exact_irfft|]. apply in_turn_all. lia.
Qed.

(** The same with the kernels of mode "fft". *)
Theorem C75_fft_binary64 : forall F F2 fftg fftp o o' L N gl wgl flmn, (1 <= N <= L)%Z -> (L <= 2 ^ 20)%Z ->
  irfft_accurate (f_irfft F) L (4 * L) (/ 10 ^ 14) -> ipow_accurate (f_ipow F) (2 * L) (/ 10 ^ 14) ->
  ifft2_accurate F2 (2 * N - 1) (2 * L - 1) (/ 10 ^ 14) -> fft_accurate fftg (2 * N - 1) (/ 10 ^ 14) -> fft_accurate fftp (2 * L - 1) (/ 10 ^ 14) ->
  sums_all o L -> sums_all o' (2 * L) -> shape flmn = [2 * N - 1; L; 2 * L - 1]%Z ->
  exists ths K f K' flmn', pf_thetas binary64 "dh" L gl = Ok ths /\ wf_kernel_fft binary64 F "dh" ths L N = Ok K /\ wf_inverse binary64 F2 o flmn K L N "dh" = Ok f /\
    xf_kernel_fft binary64 F "dh" ths wgl L N = Ok K' /\ xf_forward binary64 fftg fftp o' f K' L N "dh" = Ok flmn' /\
    shape flmn' = [2 * N - 1; L; 2 * L - 1]%Z /\ forall n l m, (- N < n < N)%Z -> (0 <= l < L)%Z -> (- L < m < L)%Z ->
      ((Z.abs m <= l)%Z -> (Z.abs n <= l)%Z -> Cmod (stored3 L N flmn' n l m - stored3 L N flmn n l m)%C <=
        16 * PI ^ 2 * ((106 / 10 ^ 14 * (IZR L * (2 * IZR L + 3)) + 120 / 10 ^ 14) * so3_size L N (stored3 L N flmn) + / 10 ^ 300)) /\
      ((l < Z.abs m \/ l < Z.abs n)%Z -> stored3 L N flmn' n l m = RtoC 0).
Proof.
  intros F F2 fftg fftp o o' L N gl wgl flmn HN HL2 HF HI HI2 HG HP Ho Ho' Hf. assert (H1 : 1 <= IZR L) by (apply IZR_le; lia).
  destruct (b64_cond L N 181 HN HL2 ltac:(lia)) as (C1 & C2 & C3).
  destruct (C75_fft_round_trip binary64 u64 eta64 F F2 fftg fftp o o' L N (/ 10 ^ 14) gl wgl flmn binary64_rounded (ieee_zeros _ _) HN C1 C2) as (ths & K & f & K' & flmn' & E1 & E2 & E3 & E4 & E5 & Sh & H); try assumption.
  - cbn. lra.
  - exists ths, K, f, K', flmn'. repeat (split; [assumption|]). intros n l m Hn Hl Hm. destruct (H n l m Hn Hl Hm) as [G1 G2]. split; [|exact G2]. intros M1 M2.
    eapply Rle_trans; [exact (G1 M1 M2)|]. apply Rmult_le_compat_l; [pose proof (pow2_ge_0 PI); lra|].
    apply Rplus_le_compat; [|exact C3].
    apply Rmult_le_compat_r; [apply so3_size_nonneg|]. rewrite u64_value. apply Rplus_le_compat; [|unfold Rdiv; lra].
    apply Rmult_le_compat_r; [nra|]. cbn. lra.
Qed.
Print Assumptions C75_fft_binary64.
Example C75_fft_binary64_ex : (1 <= 5 <= 256)%Z /\ (256 <= 2 ^ 20)%Z /\ fft_accurate fft_bwd (2 * 5 - 1) (/ 10 ^ 14) /\ fft_accurate fft_bwd (2 * 256 - 1) (/ 10 ^ 14) /\
  ifft2_accurate exact_ifft2 (2 * 5 - 1) (2 * 256 - 1) (/ 10 ^ 14) /\ irfft_accurate (f_irfft exact_ffts) 256 (4 * 256) (/ 10 ^ 14) /\ sums_all (in_turn (2 * 256)) (2 * 256).
Proof.
  assert (0 <= / 10 ^ 14) by (left; apply Rinv_0_lt_compat; cbn; lra). split; [lia|]. split; [lia|]. split; [now apply exact_fft|]. split; [now apply exact_fft|].
  split; [now apply exact_ifft2_accurate|]. split; [now apply exact_irfft|]. apply in_turn_all. lia.
Qed.
