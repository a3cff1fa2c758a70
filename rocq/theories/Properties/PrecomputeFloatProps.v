(** C69: the precomputed inverse transform in floating-point arithmetic. *)
From Coq Require Import Reals Lra Lia ZifyBool.
From Coquelicot Require Import Complex.
From Flocq Require Import Core.
From Verif Require Import Lib.Py Lib.PyFacts Lib.Vec Lib.Sums Lib.Cplx Lib.Arr Model.Index Model.Samples Model.RisboFloat Model.Spherical Model.Precompute Model.PrecomputeFloat
  Spec.SamplesSpec Spec.WignerSpec Spec.SphereSpec Spec.GridSpec Spec.SphericalSpec Spec.RoundingSpec Spec.PrecomputeFloatSpec
  Proofs.RisboFloatProofs Proofs.RisboProofs Proofs.PrecomputeKernel Proofs.FloatKernel Proofs.FloatInverse Proofs.FloatFourier Proofs.FloatTop Proofs.Binary64.
Open Scope string_scope.
Open Scope R_scope.

(** The kernel of the equidistant schemes: in any arithmetic with relative error u and underflow
    error eta, with Fourier transforms and powers of i of relative accuracy eps, the function
    returns and each entry is the normalised d-function at the ring's colatitude to within a
    multiple of u L^2 + eps of the normalisation, and exactly zero where the d-function does not
    exist. *)
Theorem C69_kernel : forall A u eta F s L spin eps gl, rounded A u eta -> zeros_exact A -> s = MW \/ s = MWSS \/ s = DH ->
  (1 <= L)%Z -> (Z.abs spin < L)%Z -> 2000 * u * (IZR L * (2 * IZR L + 3)) <= 1 -> 4 * IZR L * eta <= u -> 0 <= eps <= / 20 ->
  irfft_accurate (f_irfft F) L (circle_points s L) eps -> ipow_accurate (f_ipow F) (2 * L) eps ->
  exists ths K, pf_thetas A (scheme_name s) L gl = Ok ths /\ pf_kernel A F (scheme_name s) ths L spin = Ok K /\
    shape K = [rings s L 0; L; 2 * L - 1]%Z /\
    forall t l m x, (0 <= t < rings s L 0)%Z -> (0 <= l < L)%Z -> (- L < m < L)%Z -> is_colatitude s L 0 t x ->
      Rabs (get K [t; l; m + L - 1]%Z - sqrt (IZR (2 * l + 1) / (4 * PI)) * wigner_d l m (- spin) x) <=
        (1003 * u * (IZR L * (2 * IZR L + 3)) + 9 * eps) * sqrt (IZR (2 * l + 1) / (4 * PI)) /\
      ((l < Z.abs m \/ l < Z.abs spin)%Z -> get K [t; l; m + L - 1]%Z = 0).
Proof.
  intros A u eta F s L spin eps gl HA HZ Hsch HL Hs HB HE Heps HF HI. pose proof (rd_u _ _ _ HA) as u0.
  assert (EN : kernel_nsamps (scheme_name s) (rings s L 0) = circle_points s L)
    by (destruct Hsch as [->|[->| ->]]; cbn [rings]; unfold kernel_nsamps, circle_points; cbn [scheme_name];
        repeat match goal with |- context [streq ?a ?b] => let v := eval compute in (streq a b) in change (streq a b) with v end; cbv iota; lia).
  rewrite <- EN in HF.
  destruct (equi_kernel A u eta HA HZ F L spin eps HL Hs HB HE Heps s (fun _ => 0) gl Hsch HF HI) as (ths & K & x0 & E1 & _ & E3 & E4 & KS & H).
  exists ths, K. split; [exact E1|]. split; [exact E4|]. split; [exact KS|]. intros t l m x Ht Hl Hm Hx.
  assert (C : colatitude (fun _ => 0) s L 0 t x) by (destruct Hsch as [->|[->| ->]]; exact Hx).
  destruct (E3 t x Ht C) as [_ D]. specialize (H t l (m + L - 1)%Z Ht Hl ltac:(lia)). replace (m + L - 1 - (L - 1))%Z with m in H by lia.
  unfold at3 in H. change (sqrt (IZR (2 * l + 1) / (4 * PI))) with (elfactor l).
  pose proof (elfactor_lower l ltac:(lia)) as El. set (k := get K [t; l; m + L - 1]%Z) in *. unfold wsize, adm_b in H.
  assert (L1 : 1 <= IZR L) by (apply IZR_le; lia).
  split.
  - pose proof (wigner_lip l m (- spin) (x0 t) x ltac:(lia)) as W.
    assert (LL : IZR (l + 1) <= IZR L) by (apply IZR_le; lia). assert (W2 : IZR (l + 1) * Rabs (x0 t - x) <= IZR L * (13 * u)).
    { apply Rmult_le_compat; try lra; [apply IZR_le; lia|apply Rabs_pos]. }
    set (d1 := wigner_d l m (- spin) (x0 t)) in *. set (d := wigner_d l m (- spin) x) in *.
    replace (k - elfactor l * d) with ((k - elfactor l * d1) + elfactor l * (d1 - d)) by ring. eapply Rle_trans; [apply Rabs_triang|].
    rewrite Rabs_mult, (Rabs_right (elfactor l)) by lra.
    assert (W3 : elfactor l * Rabs (d1 - d) <= elfactor l * (IZR L * (13 * u))) by (apply Rmult_le_compat_l; lra).
    assert (X : u * IZR L * 5 <= u * (IZR L * (2 * IZR L + 3))) by (rewrite Rmult_assoc; apply Rmult_le_compat_l; nra).
    apply (Rmult_le_compat_r (elfactor l)) in X; [|lra].
    assert (UL0 : 0 <= u * IZR L * elfactor l) by (repeat apply Rmult_le_pos; lra).
    assert (K0 : 0 <= kap u L eps).
    { unfold kap. assert (0 <= u * (IZR L * (2 * IZR L + 3))) by (apply Rmult_le_pos; [lra|]; nra). lra. }
    assert (H' : Rabs (k - elfactor l * d1) <= kap u L eps * elfactor l).
    { destruct ((Z.abs spin <=? l) && (Z.abs m <=? l))%Z; [exact H|]. rewrite Rmult_0_r in H. assert (0 <= kap u L eps * elfactor l) by (apply Rmult_le_pos; lra). lra. }
    unfold kap in H'. lra.
  - intros O. replace ((Z.abs spin <=? l) && (Z.abs m <=? l))%Z with false in H by lia. rewrite wigner_d_out in H by lia.
    rewrite !Rmult_0_r, Rminus_0_r in H. pose proof (Rabs_pos k). destruct (Req_dec k 0) as [|N]; [assumption|]. apply Rabs_no_R0 in N. lra.
Qed.
Print Assumptions C69_kernel.
Example C69_kernel_ex : rounded exact_arith 0 0 /\ zeros_exact exact_arith /\ (Z.abs (-2) < 4)%Z /\ 2000 * 0 * (4 * (2 * 4 + 3)) <= 1 /\
  irfft_accurate (f_irfft exact_ffts) 4 (circle_points MW 4) 0 /\ ipow_accurate (f_ipow exact_ffts) (2 * 4) 0.
Proof.
  split; [exact exact_rounded|]. split; [exact exact_zeros|]. split; [lia|]. split; [lra|]. split; [apply exact_irfft; lra|apply exact_ipow; lra].
Qed.

(** The inverse transform: colatitudes, kernel and transform in the same arithmetic, whatever the
    order in which einsum adds. The error at every sample is at most a multiple of u L^2 + eps of
    the size of the signal (the sum of the largest values its harmonics take). *)
Theorem C69_inverse : forall A u eta F o s L spin eps gl flm, rounded A u eta -> zeros_exact A -> s = MW \/ s = MWSS \/ s = DH ->
  (1 <= L)%Z -> (Z.abs spin < L)%Z -> 2000 * u * (IZR L * (2 * IZR L + 3)) <= 1 -> 4 * IZR L * eta <= u -> 0 <= eps <= / 20 ->
  irfft_accurate (f_irfft F) L (circle_points s L) eps -> ipow_accurate (f_ipow F) (2 * L) eps ->
  ifft_accurate (f_ifft F) (per_ring s L) eps -> sums_all o L -> shape flm = [L; 2 * L - 1]%Z ->
  exists ths K f, pf_thetas A (scheme_name s) L gl = Ok ths /\ pf_kernel A F (scheme_name s) ths L spin = Ok K /\
    pf_inverse A F o flm K L (scheme_name s) spin = Ok f /\ shape f = [rings s L 0; per_ring s L]%Z /\
    forall t p x, (0 <= t < rings s L 0)%Z -> (0 <= p < per_ring s L)%Z -> is_colatitude s L 0 t x ->
      Cmod (get f [t; p] - synth L spin (stored L flm) x (equi_longitude s L p))%C <=
      (2130 * u * (IZR L * (2 * IZR L + 3)) + 20 * eps) * signal_size L spin (stored L flm) + 51 * (IZR L * IZR L) * eta.
Proof.
  intros A u eta F o s L spin eps gl flm HA HZ Hsch HL Hs HB HE Heps HF HI HFF Ho Hf. pose proof (rd_u _ _ _ HA) as u0.
  assert (EN : kernel_nsamps (scheme_name s) (rings s L 0) = circle_points s L)
    by (destruct Hsch as [->|[->| ->]]; cbn [rings]; unfold kernel_nsamps, circle_points; cbn [scheme_name];
        repeat match goal with |- context [streq ?a ?b] => let v := eval compute in (streq a b) in change (streq a b) with v end; cbv iota; lia).
  rewrite <- EN in HF.
  destruct (equi_kernel A u eta HA HZ F L spin eps HL Hs HB HE Heps s (fun _ => 0) gl Hsch HF HI) as (ths & K & x0 & E1 & _ & E3 & E4 & H).
  assert (NH : s <> HEALPIX) by (destruct Hsch as [->|[->| ->]]; discriminate).
  destruct (inverse_top A u eta HA HZ F L spin eps HL Hs HB HE Heps s (fun _ => 0) o flm K x0 (13 * u) NH Hf Ho ltac:(lra) HFF H) as (f & E5 & Sh & Hb).
  { intros t y Ht C. now apply E3. }
  exists ths, K, f. split; [exact E1|]. split; [exact E4|]. split; [exact E5|]. split; [exact Sh|]. intros t p x Ht Hp Hx.
  assert (C : colatitude (fun _ => 0) s L 0 t x) by (destruct Hsch as [->|[->| ->]]; exact Hx).
  assert (EL : longitude s L 0 t p = equi_longitude s L p) by (destruct Hsch as [->|[->| ->]]; reflexivity).
  specialize (Hb t p x Ht Hp C). rewrite EL in Hb. eapply Rle_trans; [exact Hb|]. apply Rplus_le_compat_r. apply Rmult_le_compat_r; [apply signal_size_nonneg|].
  assert (L1 : 1 <= IZR L) by (apply IZR_le; lia).
  assert (X : u * IZR L * 5 <= u * (IZR L * (2 * IZR L + 3))) by (rewrite Rmult_assoc; apply Rmult_le_compat_l; nra).
  assert (0 <= u * IZR L) by (apply Rmult_le_pos; lra). lra.
Qed.
Print Assumptions C69_inverse.
Example C69_inverse_ex : ifft_accurate (f_ifft exact_ffts) (per_ring MWSS 4) 0 /\ sums_all (in_turn 4) 4 /\
  shape (zeros (RtoC 1) [4; 7]%Z) = [4; 2 * 4 - 1]%Z /\ is_colatitude MWSS 4 0 3 (mwss_theta 4 3).
Proof. split; [apply exact_ifft; [lra|reflexivity]|]. split; [apply in_turn_all; lia|]. split; reflexivity. Qed.

(** Gauss-Legendre rings: the recursion runs at the given colatitudes, whose own error delta
    enters once, multiplied with the band-limit. *)
Theorem C69_gl : forall A u eta F o L spin eps delta nodes gl flm, rounded A u eta -> zeros_exact A ->
  (1 <= L)%Z -> (Z.abs spin < L)%Z -> 2000 * u * (IZR L * (2 * IZR L + 3)) <= 1 -> 4 * IZR L * eta <= u -> 0 <= eps <= / 20 ->
  vlen gl = L -> (forall t, (0 <= t < L)%Z -> Rabs (vat gl t) <= 5) -> 0 <= delta ->
  (forall t x, (0 <= t < L)%Z -> 0 <= x <= PI -> cos x = nodes (L - 1 - t)%Z -> Rabs (vat gl t - x) <= delta) ->
  ifft_accurate (f_ifft F) (2 * L - 1) eps -> sums_all o L -> shape flm = [L; 2 * L - 1]%Z ->
  exists K f, pf_thetas A "gl" L gl = Ok gl /\ pf_kernel A F "gl" gl L spin = Ok K /\
    pf_inverse A F o flm K L "gl" spin = Ok f /\ shape f = [L; 2 * L - 1]%Z /\
    forall t p x, (0 <= t < L)%Z -> (0 <= p < 2 * L - 1)%Z -> 0 <= x <= PI -> cos x = nodes (L - 1 - t)%Z ->
      Cmod (get f [t; p] - synth L spin (stored L flm) x (2 * PI * IZR p / IZR (2 * L - 1)))%C <=
      (2120 * u * (IZR L * (2 * IZR L + 3)) + 20 * eps + IZR L * delta) * signal_size L spin (stored L flm) + 51 * (IZR L * IZR L) * eta.
Proof.
  intros A u eta F o L spin eps delta nodes gl flm HA HZ HL Hs HB HE Heps Hg1 Hg2 Hd Hg3 HFF Ho Hf.
  assert (Hg3' : forall t y, (0 <= t < L)%Z -> colatitude nodes GL L 0 t y -> Rabs (vat gl t - y) <= delta) by (intros t y Ht [C1 C2]; now apply Hg3).
  destruct (gl_kernel A u eta HA HZ F L spin eps HL Hs HB HE Heps nodes gl delta Hg1 Hg2 Hg3') as (K & E4 & H).
  destruct (inverse_top A u eta HA HZ F L spin eps HL Hs HB HE Heps GL nodes o flm K (vat gl) delta ltac:(discriminate) Hf Ho Hd HFF H Hg3') as (f & E5 & Sh & Hb).
  exists K, f. split; [reflexivity|]. split; [exact E4|]. split; [exact E5|]. split; [exact Sh|]. intros t p x Ht Hp Hx1 Hx2.
  exact (Hb t p x Ht Hp (conj Hx1 Hx2)).
Qed.
Print Assumptions C69_gl.
(** the midpoint rule's only node with one degree, at the equator *)
Example C69_gl_ex : let gl := mkVec 1 (fun _ => PI / 2) in vlen gl = 1%Z /\ (forall t, (0 <= t < 1)%Z -> Rabs (vat gl t) <= 5) /\
  forall t x, (0 <= t < 1)%Z -> 0 <= x <= PI -> cos x = (fun _ : Z => 0) (1 - 1 - t)%Z -> Rabs (vat gl t - x) <= 0.
Proof.
  pose proof PI_RGT_0. pose proof PI_4. cbn [vlen vat]. split; [reflexivity|]. split; [intros; rewrite Rabs_right; lra|]. intros t x Ht Hx Hc.
  assert (x = PI / 2) as ->; [|unfold Rminus; rewrite Rplus_opp_r, Rabs_R0; lra]. apply cos_inj; try lra. now rewrite cos_PI2.
Qed.

(** Without rounding and with exact Fourier transforms the model returns the signal itself. *)
Theorem C69_exact : forall s L spin gl flm o, s = MW \/ s = MWSS \/ s = DH -> (1 <= L)%Z -> (Z.abs spin < L)%Z ->
  sums_all o L -> shape flm = [L; 2 * L - 1]%Z ->
  exists ths K f, pf_thetas exact_arith (scheme_name s) L gl = Ok ths /\ pf_kernel exact_arith exact_ffts (scheme_name s) ths L spin = Ok K /\
    pf_inverse exact_arith exact_ffts o flm K L (scheme_name s) spin = Ok f /\ shape f = [rings s L 0; per_ring s L]%Z /\
    forall t p x, (0 <= t < rings s L 0)%Z -> (0 <= p < per_ring s L)%Z -> is_colatitude s L 0 t x ->
      get f [t; p] = synth L spin (stored L flm) x (equi_longitude s L p).
Proof.
  intros s L spin gl flm o Hsch HL Hs Ho Hf.
  destruct (C69_inverse exact_arith 0 0 exact_ffts o s L spin 0 gl flm exact_rounded exact_zeros Hsch HL Hs) as (ths & K & f & E1 & E2 & E3 & Sh & H); try assumption.
  - lra.
  - lra.
  - lra.
  - apply exact_irfft. lra.
  - apply exact_ipow. lra.
  - apply exact_ifft; [lra|]. destruct Hsch as [->|[->| ->]]; cbn [per_ring]; lia.
  - exists ths, K, f. repeat (split; [assumption|]). intros t p x Ht Hp Hx. specialize (H t p x Ht Hp Hx).
    set (d := (get f [t; p] - synth L spin (stored L flm) x (equi_longitude s L p))%C) in *.
    assert (Z0 : Cmod d = 0) by (pose proof (Cmod_ge_0 d); lra). apply Cmod_eq_0 in Z0. unfold d in Z0.
    replace (get f [t; p]) with (get f [t; p] - synth L spin (stored L flm) x (equi_longitude s L p) + synth L spin (stored L flm) x (equi_longitude s L p))%C by ring.
    rewrite Z0. ring.
Qed.
Print Assumptions C69_exact.
Example C69_exact_ex : (Z.abs (-3) < 5)%Z /\ sums_all (Plus (Term 1) (Plus (Term 2) (Term 0))) 3.
Proof. split; [lia|]. unfold sums_all. cbn. change (zrange 0 3) with [0; 1; 2]%Z. apply (Permutation.Permutation_app_comm [1; 2]%Z [0]%Z). Qed.

(** Binary64, up to band-limit a million: with Fourier transforms of relative accuracy 1e-14 the
    error is at most 2.4e-13 L (2 L + 3) + 2e-13 of the size of the signal. *)
Theorem C69_binary64 : forall F o s L spin gl flm, s = MW \/ s = MWSS \/ s = DH ->
  (1 <= L)%Z -> (L <= 2 ^ 20)%Z -> (Z.abs spin < L)%Z ->
  irfft_accurate (f_irfft F) L (circle_points s L) (/ 10 ^ 14) -> ipow_accurate (f_ipow F) (2 * L) (/ 10 ^ 14) ->
  ifft_accurate (f_ifft F) (per_ring s L) (/ 10 ^ 14) -> sums_all o L -> shape flm = [L; 2 * L - 1]%Z ->
  exists ths K f, pf_thetas binary64 (scheme_name s) L gl = Ok ths /\ pf_kernel binary64 F (scheme_name s) ths L spin = Ok K /\
    pf_inverse binary64 F o flm K L (scheme_name s) spin = Ok f /\ shape f = [rings s L 0; per_ring s L]%Z /\
    forall t p x, (0 <= t < rings s L 0)%Z -> (0 <= p < per_ring s L)%Z -> is_colatitude s L 0 t x ->
      Cmod (get f [t; p] - synth L spin (stored L flm) x (equi_longitude s L p))%C <=
      (24 / 10 ^ 14 * (IZR L * (2 * IZR L + 3)) + 2 / 10 ^ 13) * signal_size L spin (stored L flm) + / 10 ^ 300.
Proof.
  intros F o s L spin gl flm Hsch HL HL2 Hs HF HI HFF Ho Hf.
  assert (H1 : 1 <= IZR L) by (apply IZR_le; lia). assert (H2 : IZR L <= IZR (2 ^ 20)) by (now apply IZR_le).
  assert (E0 : 0 <= eta64) by apply bpow_ge_0.
  destruct (C69_inverse binary64 u64 eta64 F o s L spin (/ 10 ^ 14) gl flm binary64_rounded (ieee_zeros _ _) Hsch HL Hs) as (ths & K & f & E1 & E2 & E3 & Sh & H); try assumption.
  - rewrite u64_value. assert (IZR L * (2 * IZR L + 3) <= IZR (2 ^ 20) * (2 * IZR (2 ^ 20) + 3)) by (apply Rmult_le_compat; lra).
    apply Rle_trans with (2000 * / IZR (2 ^ 53) * (IZR (2 ^ 20) * (2 * IZR (2 ^ 20) + 3))).
    + apply Rmult_le_compat_l; [|assumption]. cbn. lra.
    + cbn. lra.
  - eapply Rle_trans; [|apply (eta64_tiny 22); lia]. apply Rmult_le_compat_r; [exact E0|].
    change (2 ^ 22)%Z with (4 * 2 ^ 20)%Z. rewrite mult_IZR. lra.
  - cbn. lra.
  - exists ths, K, f. repeat (split; [assumption|]). intros t p x Ht Hp Hx. eapply Rle_trans; [exact (H t p x Ht Hp Hx)|].
    apply Rplus_le_compat.
    + apply Rmult_le_compat_r; [apply signal_size_nonneg|]. rewrite u64_value. apply Rplus_le_compat; [|cbn; lra].
      apply Rmult_le_compat_r; [nra|]. cbn. lra.
    + apply Rle_trans with (IZR (2 ^ 46) * eta64).
      * apply Rmult_le_compat_r; [exact E0|]. assert (L2 : IZR L * IZR L <= IZR (2 ^ 20) * IZR (2 ^ 20)) by (apply Rmult_le_compat; lra).
        rewrite <- (mult_IZR (2 ^ 20)) in L2. apply Rle_trans with (51 * IZR (2 ^ 20 * 2 ^ 20)); [lra|]. rewrite <- mult_IZR. apply IZR_le. lia.
      * unfold eta64. change (IZR (2 ^ 46)) with (bpow radix2 46). rewrite <- bpow_plus. change (46 + -1075)%Z with (- (1029))%Z. rewrite bpow_opp.
        apply Rinv_le_contravar; [apply pow_lt; lra|]. rewrite <- (IZR_Zpower radix2) by lia. rewrite pow_IZR. apply IZR_le. vm_compute. discriminate.
Qed.
Print Assumptions C69_binary64.
Example C69_binary64_ex : (1 <= 256)%Z /\ (256 <= 2 ^ 20)%Z /\ irfft_accurate (f_irfft exact_ffts) 256 (circle_points MWSS 256) (/ 10 ^ 14) /\
  ifft_accurate (f_ifft exact_ffts) (per_ring MWSS 256) (/ 10 ^ 14) /\ sums_all (in_turn 256) 256.
Proof.
  assert (0 <= / 10 ^ 14) by (left; apply Rinv_0_lt_compat; cbn; lra). split; [lia|]. split; [lia|]. split; [now apply exact_irfft|].
  split; [now apply exact_ifft|]. apply in_turn_all. lia.
Qed.
