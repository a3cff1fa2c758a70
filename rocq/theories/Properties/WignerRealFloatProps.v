(** C78: the precomputed inverse transform on the rotation group of real signals (reality=True) in
    floating-point arithmetic. *)
From Coq Require Import Reals Lra Lia ZifyBool.
From Coquelicot Require Import Complex.
From Flocq Require Import Core.
From Verif Require Import Lib.Py Lib.PyFacts Lib.Vec Lib.Sums Lib.Cplx Lib.Arr Model.Index Model.Samples Model.RisboFloat Model.Spherical Model.Precompute Model.PrecomputeFloat
  Model.PrecomputeWigner Model.WignerFloat Model.WignerRealFloat Spec.SamplesSpec Spec.WignerSpec Spec.SphereSpec Spec.GridSpec Spec.SphericalSpec Spec.SO3Spec Spec.RoundingSpec Spec.PrecomputeFloatSpec
  Spec.WignerFloatSpec Spec.RealFloatSpec Proofs.RisboFloatProofs Proofs.RisboProofs Proofs.PrecomputeKernel Proofs.PWKernel Proofs.FloatKernel Proofs.FloatInverse Proofs.FloatFourier Proofs.FloatTop
  Proofs.FloatWigner Proofs.FloatWignerFourier Proofs.FloatWignerReal Proofs.Binary64 Properties.WignerProps Properties.WignerFloatProps Properties.WignerFloatFftProps.
Open Scope string_scope.
Open Scope R_scope.

(** The kernels hold only the planes n >= 0.  In any arithmetic with relative error u and underflow
    error eta both modes return, and plane n is (2 l + 1) / (8 pi^2) d^l_mn at the colatitudes of the
    rings, with the errors of the full kernels, and exactly zero where the d-function does not exist. *)
Theorem C78_kernel : forall A u eta s L N gl, rounded A u eta -> zeros_exact A -> s = MW \/ s = MWSS \/ s = DH ->
  (1 <= N <= L)%Z -> 2000 * u * (IZR L * (2 * IZR L + 3)) <= 1 -> 4 * IZR L * eta <= u ->
  exists ths K, pf_thetas A (scheme_name s) L gl = Ok ths /\ wr_kernel A ths L N = Ok K /\
    shape K = [N; rings s L 0; L; 2 * L - 1]%Z /\
    forall n t l m x, (0 <= n < N)%Z -> (0 <= t < rings s L 0)%Z -> (0 <= l < L)%Z -> (- L < m < L)%Z -> is_colatitude s L 0 t x ->
      Rabs (get K [n; t; l; m + L - 1]%Z - (2 * IZR l + 1) / (8 * PI ^ 2) * wigner_d l m n x) <=
        233 * u * (IZR L * (2 * IZR L + 3)) * ((2 * IZR l + 1) / (8 * PI ^ 2)) /\
      ((l < Z.abs m \/ l < n)%Z -> get K [n; t; l; m + L - 1]%Z = 0).
Proof.
  intros A u eta s L N gl HA HZ Hsch HN HB HE.
  destruct (C74_kernel A u eta s L N gl HA HZ Hsch HN HB HE) as (ths & K & E1 & E2 & KS & HK).
  destruct (wf_thetas A u eta HA L N 0 HN HB HE ltac:(lra) s (fun _ => 0) gl Hsch) as (ths' & E1' & EV & _).
  rewrite E1 in E1'. injection E1' as <-.
  destruct (wkernel_half A ths L N K HN E2) as (Kr & E3 & (_ & KSr & HH)). rewrite EV in *.
  exists ths, Kr. split; [exact E1|]. split; [exact E3|]. split; [exact KSr|]. intros n t l m x Hn Ht Hl Hm Hx.
  specialize (HH n t l (m + L - 1)%Z Hn Ht Hl ltac:(lia)). unfold at4 in HH. rewrite HH.
  replace (N - 1 + n)%Z with (n + N - 1)%Z by lia. destruct (HK n t l m x ltac:(lia) Ht Hl Hm Hx) as [H1 H2]. split; [exact H1|].
  intros O. apply H2. lia.
Qed.
Print Assumptions C78_kernel.
Example C78_kernel_ex : rounded exact_arith 0 0 /\ zeros_exact exact_arith /\ (1 <= 3 <= 4)%Z /\ 2000 * 0 * (4 * (2 * 4 + 3)) <= 1 /\
  (0 <= 2 < 3)%Z /\ is_colatitude MW 4 0 2 (mw_theta 4 2).
Proof. split; [exact exact_rounded|]. split; [exact exact_zeros|]. split; [lia|]. split; [lra|]. split; [lia|reflexivity]. Qed.
Theorem C78_fft_kernel : forall A u eta F s L N eps gl, rounded A u eta -> zeros_exact A -> s = MW \/ s = MWSS \/ s = DH ->
  (1 <= N <= L)%Z -> 2000 * u * (IZR L * (2 * IZR L + 3)) <= 1 -> 4 * IZR L * eta <= u -> 0 <= eps <= / 20 ->
  irfft_accurate (f_irfft F) L (circle_points s L) eps -> ipow_accurate (f_ipow F) (2 * L) eps ->
  exists ths K, pf_thetas A (scheme_name s) L gl = Ok ths /\ wr_kernel_fft A F (scheme_name s) ths L N = Ok K /\
    shape K = [N; rings s L 0; L; 2 * L - 1]%Z /\
    forall n t l m x, (0 <= n < N)%Z -> (0 <= t < rings s L 0)%Z -> (0 <= l < L)%Z -> (- L < m < L)%Z -> is_colatitude s L 0 t x ->
      Rabs (get K [n; t; l; m + L - 1]%Z - (2 * IZR l + 1) / (8 * PI ^ 2) * wigner_d l m n x) <=
        (963 * u * (IZR L * (2 * IZR L + 3)) + 12 * eps) * ((2 * IZR l + 1) / (8 * PI ^ 2)) /\
      ((l < Z.abs m \/ l < n)%Z -> get K [n; t; l; m + L - 1]%Z = 0).
Proof.
  intros A u eta F s L N eps gl HA HZ Hsch HN HB HE Heps HF HI.
  destruct (C74_fft_kernel A u eta F s L N eps gl HA HZ Hsch HN HB HE Heps HF HI) as (ths & K & E1 & E2 & KS & HK).
  destruct (wf_thetas A u eta HA L N 0 HN HB HE ltac:(lra) s (fun _ => 0) gl Hsch) as (ths' & E1' & EV & _).
  rewrite E1 in E1'. injection E1' as <-.
  destruct (wkernel_fft_half A F (scheme_name s) ths L N K HN E2) as (Kr & E3 & (_ & KSr & HH)). rewrite EV in *.
  exists ths, Kr. split; [exact E1|]. split; [exact E3|]. split; [exact KSr|]. intros n t l m x Hn Ht Hl Hm Hx.
  specialize (HH n t l (m + L - 1)%Z Hn Ht Hl ltac:(lia)). unfold at4 in HH. rewrite HH.
  replace (N - 1 + n)%Z with (n + N - 1)%Z by lia. destruct (HK n t l m x ltac:(lia) Ht Hl Hm Hx) as [H1 H2]. split; [exact H1|].
  intros O. apply H2. lia.
Qed.
Print Assumptions C78_fft_kernel.

(** The inverse transform of coefficients with the symmetry of a real signal, of which only the planes
    n >= 0 are read: what the array holds in the others does not matter.  Colatitudes, kernel and
    transform in the same arithmetic, whatever the order in which einsum adds, with Fourier transforms
    of relative accuracy eps, which are now one along the longitudes and then a real one along gamma. *)
Theorem C78_inverse : forall A u eta F o s L N eps gl flmn c, rounded A u eta -> zeros_exact A -> s = MW \/ s = MWSS \/ s = DH ->
  (1 <= N <= L)%Z -> 2000 * u * (IZR L * (2 * IZR L + 3)) <= 1 -> 4 * IZR L * eta <= u -> 0 <= eps <= / 20 ->
  ifft_accurate (f_ifft F) (per_ring s L) eps -> irfft_accurate (f_irfft F) N (2 * N - 1) eps -> sums_all o L -> shape flmn = [2 * N - 1; L; 2 * L - 1]%Z ->
  hermitian3 L N c -> (forall n l m, (0 <= n < N)%Z -> (0 <= l < L)%Z -> (- L < m < L)%Z -> stored3 L N flmn n l m = c n l m) ->
  exists ths K f, pf_thetas A (scheme_name s) L gl = Ok ths /\ wr_kernel A ths L N = Ok K /\
    wr_inverse A F o flmn K L N (scheme_name s) = Ok f /\ shape f = [2 * N - 1; rings s L 0; per_ring s L]%Z /\
    forall g t p x, (0 <= g < 2 * N - 1)%Z -> (0 <= t < rings s L 0)%Z -> (0 <= p < per_ring s L)%Z -> is_colatitude s L 0 t x ->
      Cmod (RtoC (get f [g; t; p]) - so3_synth L N c (equi_longitude s L p) x (2 * PI * IZR g / IZR (2 * N - 1)))%C <=
      (520 * u * (IZR L * (2 * IZR L + 3)) + 3 * eps) * so3_size L N c + 53 * (IZR N * (IZR L * IZR L)) * eta.
Proof.
  intros A u eta F o s L N eps gl flmn c HA HZ Hsch HN HB HE Heps HF HF2 Ho Hf Hc Hst. pose proof (rd_u _ _ _ HA) as u0.
  destruct (wf_thetas A u eta HA L N eps HN HB HE Heps s (fun _ => 0) gl Hsch) as (ths & E1 & E2 & E3).
  assert (RN : (0 <= rings s L 0)%Z) by (destruct Hsch as [->|[->| ->]]; cbn [rings]; lia).
  destruct (wf_kernel_top A u eta HA HZ L N eps HN HB HE Heps ths (rings s L 0) E2 RN ltac:(intros t Ht; apply E3, Ht)) as (K & E4 & HK & _).
  destruct (wkernel_half A ths L N K HN E4) as (Kr & E4' & HH). rewrite E2 in HH.
  assert (NH : s <> HEALPIX) by (destruct Hsch as [->|[->| ->]]; discriminate).
  assert (L1 : 1 <= IZR L) by (apply IZR_le; lia).
  assert (X0 : 0 <= u * (IZR L * (2 * IZR L + 3))) by (apply Rmult_le_pos; [exact u0|]; nra).
  destruct (wr_inverse_gen A u eta HA HZ L N eps HN HB HE Heps s (fun _ => 0) F o flmn K Kr (vat ths) (13 * u) (kap3 u L) c NH Hf Ho) as (f & E5 & Sh & Hb); try assumption.
  { unfold kap3. lra. }
  { intros t y Ht C. now apply E3. }
  exists ths, Kr, f. split; [exact E1|]. split; [exact E4'|]. split; [exact E5|]. split; [exact Sh|]. intros g t p x Hg Ht Hp Hx.
  assert (C : colatitude (fun _ => 0) s L 0 t x) by (destruct Hsch as [->|[->| ->]]; exact Hx).
  eapply Rle_trans; [exact (Hb g t p x Hg Ht Hp C)|]. apply Rplus_le_compat_r. apply Rmult_le_compat_r; [apply so3_size_nonneg|].
  assert (X : u * IZR L * 5 <= u * (IZR L * (2 * IZR L + 3))) by (rewrite Rmult_assoc; apply Rmult_le_compat_l; nra).
  assert (0 <= u * IZR L) by (apply Rmult_le_pos; lra). pose proof (proj1 Heps). unfold kap3. lra.
Qed.
Print Assumptions C78_inverse.
Example C78_inverse_ex : ifft_accurate (f_ifft exact_ffts) (per_ring MWSS 3) 0 /\ irfft_accurate (f_irfft exact_ffts) 2 (2 * 2 - 1) 0 /\ sums_all (in_turn 3) 3 /\
  shape flmn3 = [2 * 2 - 1; 3; 2 * 3 - 1]%Z /\ hermitian3 3 2 (stored3 3 2 flmn3) /\ stored3 3 2 flmn3 1 1 0 <> RtoC 0 /\ is_colatitude MWSS 3 0 2 (mwss_theta 3 2).
Proof.
  split; [apply exact_ifft; [lra|reflexivity]|]. split; [apply exact_irfft; lra|]. split; [apply in_turn_all; lia|]. split; [reflexivity|]. split; [apply C34_ex|].
  split; [apply C34_ex|reflexivity].
Qed.

(** With the kernel of mode "fft". *)
Theorem C78_fft_inverse : forall A u eta F o s L N eps gl flmn c, rounded A u eta -> zeros_exact A -> s = MW \/ s = MWSS \/ s = DH ->
  (1 <= N <= L)%Z -> 2000 * u * (IZR L * (2 * IZR L + 3)) <= 1 -> 4 * IZR L * eta <= u -> 0 <= eps <= / 20 ->
  irfft_accurate (f_irfft F) L (circle_points s L) eps -> ipow_accurate (f_ipow F) (2 * L) eps ->
  ifft_accurate (f_ifft F) (per_ring s L) eps -> irfft_accurate (f_irfft F) N (2 * N - 1) eps -> sums_all o L -> shape flmn = [2 * N - 1; L; 2 * L - 1]%Z ->
  hermitian3 L N c -> (forall n l m, (0 <= n < N)%Z -> (0 <= l < L)%Z -> (- L < m < L)%Z -> stored3 L N flmn n l m = c n l m) ->
  exists ths K f, pf_thetas A (scheme_name s) L gl = Ok ths /\ wr_kernel_fft A F (scheme_name s) ths L N = Ok K /\
    wr_inverse A F o flmn K L N (scheme_name s) = Ok f /\ shape f = [2 * N - 1; rings s L 0; per_ring s L]%Z /\
    forall g t p x, (0 <= g < 2 * N - 1)%Z -> (0 <= t < rings s L 0)%Z -> (0 <= p < per_ring s L)%Z -> is_colatitude s L 0 t x ->
      Cmod (RtoC (get f [g; t; p]) - so3_synth L N c (equi_longitude s L p) x (2 * PI * IZR g / IZR (2 * N - 1)))%C <=
      (2140 * u * (IZR L * (2 * IZR L + 3)) + 29 * eps) * so3_size L N c + 53 * (IZR N * (IZR L * IZR L)) * eta.
Proof.
  intros A u eta F o s L N eps gl flmn c HA HZ Hsch HN HB HE Heps HF3 HI HF HF2 Ho Hf Hc Hst. pose proof (rd_u _ _ _ HA) as u0.
  destruct (wf_thetas A u eta HA L N eps HN HB HE Heps s (fun _ => 0) gl Hsch) as (ths' & E1' & E2 & _).
  destruct (wf_kernel_fft_top A u eta HA HZ L N eps HN HB HE Heps s (fun _ => 0) gl F Hsch HF3 HI) as (ths & K & x0 & E1 & E4 & HK & _ & E3).
  rewrite E1' in E1. injection E1 as ->.
  destruct (wkernel_fft_half A F (scheme_name s) ths L N K HN E4) as (Kr & E4' & HH). rewrite E2 in HH.
  assert (NH : s <> HEALPIX) by (destruct Hsch as [->|[->| ->]]; discriminate).
  destruct (wr_inverse_gen A u eta HA HZ L N eps HN HB HE Heps s (fun _ => 0) F o flmn K Kr x0 (13 * u) (kap4 u L eps) c NH Hf Ho
    (kap4_range A u eta HA L N eps HN HB Heps)) as (f & E5 & Sh & Hb); try assumption.
  exists ths, Kr, f. split; [exact E1'|]. split; [exact E4'|]. split; [exact E5|]. split; [exact Sh|]. intros g t p x Hg Ht Hp Hx.
  assert (C : colatitude (fun _ => 0) s L 0 t x) by (destruct Hsch as [->|[->| ->]]; exact Hx).
  eapply Rle_trans; [exact (Hb g t p x Hg Ht Hp C)|]. apply Rplus_le_compat_r. apply Rmult_le_compat_r; [apply so3_size_nonneg|].
  assert (L1 : 1 <= IZR L) by (apply IZR_le; lia).
  assert (X : u * IZR L * 5 <= u * (IZR L * (2 * IZR L + 3))) by (rewrite Rmult_assoc; apply Rmult_le_compat_l; nra).
  assert (0 <= u * IZR L) by (apply Rmult_le_pos; lra). pose proof (proj1 Heps). unfold kap4. lra.
Qed.
Print Assumptions C78_fft_inverse.
Example C78_fft_inverse_ex : irfft_accurate (f_irfft exact_ffts) 3 (circle_points MW 3) 0 /\ ipow_accurate (f_ipow exact_ffts) (2 * 3) 0 /\
  ifft_accurate (f_ifft exact_ffts) (per_ring MW 3) 0 /\ irfft_accurate (f_irfft exact_ffts) 2 (2 * 2 - 1) 0 /\ hermitian3 3 2 (stored3 3 2 flmn3).
Proof.
  split; [apply exact_irfft; lra|]. split; [apply exact_ipow; lra|]. split; [apply exact_ifft; [lra|reflexivity]|]. split; [apply exact_irfft; lra|apply C34_ex].
Qed.

(** Gauss-Legendre rings: the error delta of the given colatitudes enters once, multiplied with the
    band-limit. *)
Theorem C78_gl_inverse : forall A u eta F o L N eps delta nodes gl flmn c, rounded A u eta -> zeros_exact A ->
  (1 <= N <= L)%Z -> 2000 * u * (IZR L * (2 * IZR L + 3)) <= 1 -> 4 * IZR L * eta <= u -> 0 <= eps <= / 20 ->
  vlen gl = L -> (forall t, (0 <= t < L)%Z -> Rabs (vat gl t) <= 5) ->
  (forall t x, (0 <= t < L)%Z -> 0 <= x <= PI -> cos x = nodes (L - 1 - t)%Z -> Rabs (vat gl t - x) <= delta) ->
  ifft_accurate (f_ifft F) (2 * L - 1) eps -> irfft_accurate (f_irfft F) N (2 * N - 1) eps -> sums_all o L -> shape flmn = [2 * N - 1; L; 2 * L - 1]%Z ->
  hermitian3 L N c -> (forall n l m, (0 <= n < N)%Z -> (0 <= l < L)%Z -> (- L < m < L)%Z -> stored3 L N flmn n l m = c n l m) ->
  exists K f, pf_thetas A "gl" L gl = Ok gl /\ wr_kernel A gl L N = Ok K /\
    wr_inverse A F o flmn K L N "gl" = Ok f /\ shape f = [2 * N - 1; L; 2 * L - 1]%Z /\
    forall g t p x, (0 <= g < 2 * N - 1)%Z -> (0 <= t < L)%Z -> (0 <= p < 2 * L - 1)%Z -> 0 <= x <= PI -> cos x = nodes (L - 1 - t)%Z ->
      Cmod (RtoC (get f [g; t; p]) - so3_synth L N c (2 * PI * IZR p / IZR (2 * L - 1)) x (2 * PI * IZR g / IZR (2 * N - 1)))%C <=
      (520 * u * (IZR L * (2 * IZR L + 3)) + 3 * eps + IZR L * delta) * so3_size L N c + 53 * (IZR N * (IZR L * IZR L)) * eta.
Proof.
  intros A u eta F o L N eps delta nodes gl flmn c HA HZ HN HB HE Heps Hg1 Hg2 Hg3 HF HF2 Ho Hf Hc Hst. pose proof (rd_u _ _ _ HA) as u0.
  destruct (wf_kernel_top A u eta HA HZ L N eps HN HB HE Heps gl L Hg1 ltac:(lia) Hg2) as (K & E4 & HK & _).
  destruct (wkernel_half A gl L N K HN E4) as (Kr & E4' & HH). rewrite Hg1 in HH.
  assert (L1 : 1 <= IZR L) by (apply IZR_le; lia).
  assert (X0 : 0 <= u * (IZR L * (2 * IZR L + 3))) by (apply Rmult_le_pos; [exact u0|]; nra).
  destruct (wr_inverse_gen A u eta HA HZ L N eps HN HB HE Heps GL nodes F o flmn K Kr (vat gl) delta (kap3 u L) c ltac:(discriminate) Hf Ho) as (f & E5 & Sh & Hb); try assumption.
  { unfold kap3. lra. }
  { intros t y Ht [C1 C2]. now apply Hg3. }
  exists Kr, f. split; [reflexivity|]. split; [exact E4'|]. split; [exact E5|]. split; [exact Sh|]. intros g t p x Hg Ht Hp Hx1 Hx2.
  eapply Rle_trans; [exact (Hb g t p x Hg Ht Hp (conj Hx1 Hx2))|]. apply Rplus_le_compat_r. apply Rmult_le_compat_r; [apply so3_size_nonneg|]. pose proof (proj1 Heps). unfold kap3. lra.
Qed.
Print Assumptions C78_gl_inverse.

(** Without rounding and with exact Fourier transforms, kernels of either mode: the signal itself. *)
Theorem C78_exact : forall s L N gl flmn c o, s = MW \/ s = MWSS \/ s = DH -> (1 <= N <= L)%Z -> sums_all o L -> shape flmn = [2 * N - 1; L; 2 * L - 1]%Z ->
  hermitian3 L N c -> (forall n l m, (0 <= n < N)%Z -> (0 <= l < L)%Z -> (- L < m < L)%Z -> stored3 L N flmn n l m = c n l m) ->
  exists ths K K' f f', pf_thetas exact_arith (scheme_name s) L gl = Ok ths /\ wr_kernel exact_arith ths L N = Ok K /\
    wr_kernel_fft exact_arith exact_ffts (scheme_name s) ths L N = Ok K' /\
    wr_inverse exact_arith exact_ffts o flmn K L N (scheme_name s) = Ok f /\ wr_inverse exact_arith exact_ffts o flmn K' L N (scheme_name s) = Ok f' /\
    forall g t p x, (0 <= g < 2 * N - 1)%Z -> (0 <= t < rings s L 0)%Z -> (0 <= p < per_ring s L)%Z -> is_colatitude s L 0 t x ->
      RtoC (get f [g; t; p]) = so3_synth L N c (equi_longitude s L p) x (2 * PI * IZR g / IZR (2 * N - 1)) /\
      RtoC (get f' [g; t; p]) = so3_synth L N c (equi_longitude s L p) x (2 * PI * IZR g / IZR (2 * N - 1)).
Proof.
  intros s L N gl flmn c o Hsch HN Ho Hf Hc Hst.
  destruct (C78_inverse exact_arith 0 0 exact_ffts o s L N 0 gl flmn c exact_rounded exact_zeros Hsch HN) as (ths & K & f & E1 & E2 & E3 & Sh & H); try assumption; try lra;
    try (apply exact_ifft; [lra|destruct Hsch as [->|[->| ->]]; cbn [per_ring]; lia]); try (apply exact_irfft; lra).
  destruct (C78_fft_inverse exact_arith 0 0 exact_ffts o s L N 0 gl flmn c exact_rounded exact_zeros Hsch HN) as (ths' & K' & f' & E1' & E2' & E3' & Sh' & H'); try assumption; try lra;
    try (apply exact_ifft; [lra|destruct Hsch as [->|[->| ->]]; cbn [per_ring]; lia]); try (apply exact_irfft; lra); try (apply exact_ipow; lra).
  rewrite E1 in E1'. injection E1' as <-. exists ths, K, K', f, f'. repeat (split; [assumption|]). intros g t p x Hg Ht Hp Hx.
  specialize (H g t p x Hg Ht Hp Hx). specialize (H' g t p x Hg Ht Hp Hx).
  set (y := so3_synth L N c (equi_longitude s L p) x (2 * PI * IZR g / IZR (2 * N - 1))) in *.
  assert (G : forall z, Cmod (z - y)%C <= 0 -> z = y).
  { intros z Hz. assert (Z0 : Cmod (z - y)%C = 0) by (pose proof (Cmod_ge_0 (z - y)%C); lra). apply Cmod_eq_0 in Z0. replace z with (z - y + y)%C by ring. rewrite Z0. ring. }
  split; apply G; lra.
Qed.
Print Assumptions C78_exact.
Example C78_exact_ex : (1 <= 2 <= 3)%Z /\ sums_all (Plus (Term 1) (Plus (Term 2) (Term 0))) 3 /\ shape flmn3 = [2 * 2 - 1; 3; 2 * 3 - 1]%Z /\ hermitian3 3 2 (stored3 3 2 flmn3).
Proof.
  split; [lia|]. split; [|split; [reflexivity|apply C34_ex]]. unfold sums_all. cbn. change (zrange 0 3) with [0; 1; 2]%Z. apply (Permutation.Permutation_app_comm [1; 2]%Z [0]%Z).
Qed.

(** Binary64, up to band-limit a million: with Fourier transforms of relative accuracy 1e-14 the
    error is at most 5.8e-14 L (2 L + 3) + 3e-14 of the size of the signal. *)
Theorem C78_binary64 : forall F o s L N gl flmn c, s = MW \/ s = MWSS \/ s = DH -> (1 <= N <= L)%Z -> (L <= 2 ^ 20)%Z ->
  ifft_accurate (f_ifft F) (per_ring s L) (/ 10 ^ 14) -> irfft_accurate (f_irfft F) N (2 * N - 1) (/ 10 ^ 14) -> sums_all o L -> shape flmn = [2 * N - 1; L; 2 * L - 1]%Z ->
  hermitian3 L N c -> (forall n l m, (0 <= n < N)%Z -> (0 <= l < L)%Z -> (- L < m < L)%Z -> stored3 L N flmn n l m = c n l m) ->
  exists ths K f, pf_thetas binary64 (scheme_name s) L gl = Ok ths /\ wr_kernel binary64 ths L N = Ok K /\
    wr_inverse binary64 F o flmn K L N (scheme_name s) = Ok f /\ shape f = [2 * N - 1; rings s L 0; per_ring s L]%Z /\
    forall g t p x, (0 <= g < 2 * N - 1)%Z -> (0 <= t < rings s L 0)%Z -> (0 <= p < per_ring s L)%Z -> is_colatitude s L 0 t x ->
      Cmod (RtoC (get f [g; t; p]) - so3_synth L N c (equi_longitude s L p) x (2 * PI * IZR g / IZR (2 * N - 1)))%C <=
      (58 / 10 ^ 15 * (IZR L * (2 * IZR L + 3)) + 3 / 10 ^ 14) * so3_size L N c + / 10 ^ 300.
Proof.
  intros F o s L N gl flmn c Hsch HN HL2 HF HF2 Ho Hf Hc Hst.
  assert (H1 : 1 <= IZR L) by (apply IZR_le; lia). assert (H2 : IZR L <= IZR (2 ^ 20)) by (now apply IZR_le).
  assert (N1 : 1 <= IZR N) by (apply IZR_le; lia). assert (N2 : IZR N <= IZR (2 ^ 20)) by (apply IZR_le; lia).
  assert (E0 : 0 <= eta64) by apply bpow_ge_0.
  destruct (C78_inverse binary64 u64 eta64 F o s L N (/ 10 ^ 14) gl flmn c binary64_rounded (ieee_zeros _ _) Hsch HN) as (ths & K & f & E1 & E2 & E3 & Sh & H); try assumption.
  - rewrite u64_value. assert (IZR L * (2 * IZR L + 3) <= IZR (2 ^ 20) * (2 * IZR (2 ^ 20) + 3)) by (apply Rmult_le_compat; lra).
    apply Rle_trans with (2000 * / IZR (2 ^ 53) * (IZR (2 ^ 20) * (2 * IZR (2 ^ 20) + 3))).
    + apply Rmult_le_compat_l; [|assumption]. cbn. lra.
    + cbn. lra.
  - eapply Rle_trans; [|apply (eta64_tiny 22); lia]. apply Rmult_le_compat_r; [exact E0|].
    change (2 ^ 22)%Z with (4 * 2 ^ 20)%Z. rewrite mult_IZR. lra.
  - cbn. lra.
  - exists ths, K, f. repeat (split; [assumption|]). intros g t p x Hg Ht Hp Hx. eapply Rle_trans; [exact (H g t p x Hg Ht Hp Hx)|].
    apply Rplus_le_compat.
    + apply Rmult_le_compat_r; [apply so3_size_nonneg|]. rewrite u64_value. apply Rplus_le_compat; [|unfold Rdiv; lra].
      apply Rmult_le_compat_r; [nra|]. cbn. lra.
    + apply Rle_trans with (IZR (2 ^ 66) * eta64).
      * apply Rmult_le_compat_r; [exact E0|]. assert (L2 : IZR L * IZR L <= IZR (2 ^ 20) * IZR (2 ^ 20)) by (apply Rmult_le_compat; lra).
        assert (L3 : IZR N * (IZR L * IZR L) <= IZR (2 ^ 20) * (IZR (2 ^ 20) * IZR (2 ^ 20))) by (apply Rmult_le_compat; try lra; nra).
        rewrite <- (mult_IZR (2 ^ 20) (2 ^ 20)) in L3. rewrite <- (mult_IZR (2 ^ 20) (2 ^ 20 * 2 ^ 20)) in L3.
        apply Rle_trans with (53 * IZR (2 ^ 20 * (2 ^ 20 * 2 ^ 20))); [lra|]. rewrite <- mult_IZR. apply IZR_le. lia.
      * unfold eta64. change (IZR (2 ^ 66)) with (bpow radix2 66). rewrite <- bpow_plus. change (66 + -1075)%Z with (- (1009))%Z. rewrite bpow_opp.
        apply Rinv_le_contravar; [apply pow_lt; lra|]. rewrite <- (IZR_Zpower radix2) by lia. rewrite pow_IZR. apply IZR_le. vm_compute. discriminate.
Qed.
Print Assumptions C78_binary64.
Example C78_binary64_ex : (1 <= 5 <= 256)%Z /\ (256 <= 2 ^ 20)%Z /\ ifft_accurate (f_ifft exact_ffts) (per_ring MWSS 256) (/ 10 ^ 14) /\
  irfft_accurate (f_irfft exact_ffts) 5 (2 * 5 - 1) (/ 10 ^ 14) /\ sums_all (in_turn 256) 256.
Proof.
  assert (0 <= / 10 ^ 14) by (left; apply Rinv_0_lt_compat; cbn; lra). split; [lia|]. split; [lia|]. split; [now apply exact_ifft|]. split; [now apply exact_irfft|].
  apply in_turn_all. lia.
Qed.

(** The same with the kernel of mode "fft". *)
Theorem C78_fft_binary64 : forall F o s L N gl flmn c, s = MW \/ s = MWSS \/ s = DH -> (1 <= N <= L)%Z -> (L <= 2 ^ 20)%Z ->
  irfft_accurate (f_irfft F) L (circle_points s L) (/ 10 ^ 14) -> ipow_accurate (f_ipow F) (2 * L) (/ 10 ^ 14) ->
  ifft_accurate (f_ifft F) (per_ring s L) (/ 10 ^ 14) -> irfft_accurate (f_irfft F) N (2 * N - 1) (/ 10 ^ 14) -> sums_all o L -> shape flmn = [2 * N - 1; L; 2 * L - 1]%Z ->
  hermitian3 L N c -> (forall n l m, (0 <= n < N)%Z -> (0 <= l < L)%Z -> (- L < m < L)%Z -> stored3 L N flmn n l m = c n l m) ->
  exists ths K f, pf_thetas binary64 (scheme_name s) L gl = Ok ths /\ wr_kernel_fft binary64 F (scheme_name s) ths L N = Ok K /\
    wr_inverse binary64 F o flmn K L N (scheme_name s) = Ok f /\ shape f = [2 * N - 1; rings s L 0; per_ring s L]%Z /\
    forall g t p x, (0 <= g < 2 * N - 1)%Z -> (0 <= t < rings s L 0)%Z -> (0 <= p < per_ring s L)%Z -> is_colatitude s L 0 t x ->
      Cmod (RtoC (get f [g; t; p]) - so3_synth L N c (equi_longitude s L p) x (2 * PI * IZR g / IZR (2 * N - 1)))%C <=
      (238 / 10 ^ 15 * (IZR L * (2 * IZR L + 3)) + 29 / 10 ^ 14) * so3_size L N c + / 10 ^ 300.
Proof.
  intros F o s L N gl flmn c Hsch HN HL2 HIR HPW HF HF2 Ho Hf Hc Hst.
  assert (H1 : 1 <= IZR L) by (apply IZR_le; lia). assert (H2 : IZR L <= IZR (2 ^ 20)) by (now apply IZR_le).
  assert (N1 : 1 <= IZR N) by (apply IZR_le; lia). assert (N2 : IZR N <= IZR (2 ^ 20)) by (apply IZR_le; lia).
  assert (E0 : 0 <= eta64) by apply bpow_ge_0.
  destruct (C78_fft_inverse binary64 u64 eta64 F o s L N (/ 10 ^ 14) gl flmn c binary64_rounded (ieee_zeros _ _) Hsch HN) as (ths & K & f & E1 & E2 & E3 & Sh & H); try assumption.
  - rewrite u64_value. assert (IZR L * (2 * IZR L + 3) <= IZR (2 ^ 20) * (2 * IZR (2 ^ 20) + 3)) by (apply Rmult_le_compat; lra).
    apply Rle_trans with (2000 * / IZR (2 ^ 53) * (IZR (2 ^ 20) * (2 * IZR (2 ^ 20) + 3))).
    + apply Rmult_le_compat_l; [|assumption]. cbn. lra.
    + cbn. lra.
  - eapply Rle_trans; [|apply (eta64_tiny 22); lia]. apply Rmult_le_compat_r; [exact E0|].
    change (2 ^ 22)%Z with (4 * 2 ^ 20)%Z. rewrite mult_IZR. lra.
  - cbn. lra.
  - exists ths, K, f. repeat (split; [assumption|]). intros g t p x Hg Ht Hp Hx. eapply Rle_trans; [exact (H g t p x Hg Ht Hp Hx)|].
    apply Rplus_le_compat.
    + apply Rmult_le_compat_r; [apply so3_size_nonneg|]. rewrite u64_value. apply Rplus_le_compat; [|unfold Rdiv; lra].
      apply Rmult_le_compat_r; [nra|]. cbn. lra.
    + apply Rle_trans with (IZR (2 ^ 66) * eta64).
      * apply Rmult_le_compat_r; [exact E0|]. assert (L2 : IZR L * IZR L <= IZR (2 ^ 20) * IZR (2 ^ 20)) by (apply Rmult_le_compat; lra).
        assert (L3 : IZR N * (IZR L * IZR L) <= IZR (2 ^ 20) * (IZR (2 ^ 20) * IZR (2 ^ 20))) by (apply Rmult_le_compat; try lra; nra).
        rewrite <- (mult_IZR (2 ^ 20) (2 ^ 20)) in L3. rewrite <- (mult_IZR (2 ^ 20) (2 ^ 20 * 2 ^ 20)) in L3.
        apply Rle_trans with (53 * IZR (2 ^ 20 * (2 ^ 20 * 2 ^ 20))); [lra|]. rewrite <- mult_IZR. apply IZR_le. lia.
      * unfold eta64. change (IZR (2 ^ 66)) with (bpow radix2 66). rewrite <- bpow_plus. change (66 + -1075)%Z with (- (1009))%Z. rewrite bpow_opp.
        apply Rinv_le_contravar; [apply pow_lt; lra|]. rewrite <- (IZR_Zpower radix2) by lia. rewrite pow_IZR. apply IZR_le. vm_compute. discriminate.
Qed.
Print Assumptions C78_fft_binary64.
Example C78_fft_binary64_ex : irfft_accurate (f_irfft exact_ffts) 256 (circle_points MW 256) (/ 10 ^ 14) /\ ipow_accurate (f_ipow exact_ffts) (2 * 256) (/ 10 ^ 14) /\
  ifft_accurate (f_ifft exact_ffts) (per_ring MW 256) (/ 10 ^ 14) /\ irfft_accurate (f_irfft exact_ffts) 5 (2 * 5 - 1) (/ 10 ^ 14).
Proof.
  assert (0 <= / 10 ^ 14) by (left; apply Rinv_0_lt_compat; cbn; lra). split; [now apply exact_irfft|]. split; [now apply exact_ipow|]. split; [now apply exact_ifft|now apply exact_irfft].
Qed.
