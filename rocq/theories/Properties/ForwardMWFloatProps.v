(** C72: the precomputed forward transform and the round trip on the mw and mwss grids in
    floating-point arithmetic. *)
From Coq Require Import Reals Lra Lia ZifyBool.
From Coquelicot Require Import Coquelicot.
From Flocq Require Import Core.
From Verif Require Import Lib.Py Lib.PyFacts Lib.Vec Lib.Sums Lib.Cplx Lib.Arr Model.Index Model.Samples Model.FFT Model.Quadrature Model.Resampling Model.RisboFloat Model.Spherical Model.Precompute
  Model.PrecomputeFloat Model.ForwardFloat Model.ResamplingFloat Model.ForwardMWFloat
  Spec.SamplesSpec Spec.WignerSpec Spec.SphereSpec Spec.GridSpec Spec.QuadSpec Spec.SphericalSpec Spec.RoundingSpec Spec.PrecomputeFloatSpec Spec.ForwardFloatSpec Spec.ResamplingFloatSpec
  Proofs.SpectralBound Proofs.RisboFloatProofs Proofs.FloatKernel Proofs.FloatInverse Proofs.FloatTop Proofs.FloatWeights Proofs.FloatForward Proofs.FloatForwardTop
  Proofs.FloatMWWeights Proofs.L2Norm Proofs.FloatMWForward Proofs.FloatMWTop Proofs.Binary64 Properties.ResamplingFloatProps.
Open Scope string_scope.
Open Scope R_scope.

(** The weights of the doubled mwss rule, which the forward transform uses for both grids: the
    exact ones are at most a share of 9 pi / (2 L^2) each, and the computed ones differ by at most
    15 u + 1.4 eps of that share. *)
Theorem C72_weights : forall A u eta fft gl L eps ths wgl, rounded A u eta -> u <= / 1000 -> (1 <= L)%Z -> 4 * (IZR L * IZR L) * eta <= u -> 0 <= eps <= / 20 ->
  fft_accurate fft (4 * L) eps ->
  exists w wf, quad_weights_transform gl L "mwss" 0 None = Ok w /\ mf_weights A fft "mwss" L ths wgl = Ok wf /\ vlen w = (2 * L + 1)%Z /\ vlen wf = (2 * L + 1)%Z /\
    forall t, (0 <= t < 2 * L + 1)%Z -> Rabs (vat w t) <= 9 * PI / (2 * (IZR L * IZR L)) /\
      Rabs (vat wf t - vat w t) <= (15 * u + 14 / 10 * eps) * (9 * PI / (2 * (IZR L * IZR L))).
Proof.
  intros A u eta fft gl L eps ths wgl HA Hu HL HE He HF. destruct (mwss_weight_model gl L HL) as (w & E & El & Hw).
  assert (H4 : 4 * eta <= u). { assert (1 <= IZR L) by (apply IZR_le; lia). pose proof (rd_eta _ _ _ HA). assert (1 * 1 <= IZR L * IZR L) by (apply Rmult_le_compat; lra). nra. }
  destruct (mwss_weights_near A u eta HA Hu H4 fft L eps ths wgl HL HE He HF) as (wf & E2 & El2 & W).
  exists w, wf. repeat (split; [assumption|]). intros t Ht. destruct (W t Ht) as (W1 & W2 & _). rewrite (Hw t Ht). split; [exact W1|exact W2].
Qed.
Print Assumptions C72_weights.
Example C72_weights_ex : rounded binary64 u64 eta64 /\ u64 <= / 1000 /\ 4 * (64 * 64) * eta64 <= u64 /\ fft_accurate fft_bwd (4 * 64) (/ 10 ^ 14).
Proof.
  split; [exact binary64_rounded|]. split; [rewrite u64_value; cbn; lra|]. split.
  - eapply Rle_trans; [|apply (eta64_tiny 14); lia]. apply Rmult_le_compat_r; [apply bpow_ge_0|]. cbn. lra.
  - apply exact_fft. left. apply Rinv_0_lt_compat. cbn. lra.
Qed.

(** Any map on either grid: the computed coefficients are those of the exact rule applied to the
    exactly resampled map, to within a multiple of u L^2 + eps of the root mean square of the map,
    times the largest value of the harmonic and an area of 27 pi; and they are exactly zero where
    the harmonic does not exist. *)
Theorem C72_forward : forall A u eta F S fft o s L spin eps gr gl wgl f, rounded A u eta -> zeros_exact A ->
  (1 <= L)%Z -> (Z.abs spin < L)%Z -> 2000 * u * (IZR L * (2 * IZR L + 3)) <= 1 -> 4 * (IZR L * IZR L) * eta <= u -> 0 <= eps <= / 100 ->
  transforms_accurate S (2 * L - 1) eps -> transforms_accurate S (2 * L) eps -> transforms_accurate S (4 * L) eps ->
  irfft_accurate (f_irfft F) L (4 * L) eps -> ipow_accurate (f_ipow F) (2 * L) eps -> fft_accurate fft (2 * L) eps -> fft_accurate fft (4 * L) eps ->
  s = MW \/ s = MWSS -> sums_all o (2 * L + 1) -> shape f = [rings s L 0; per_ring s L]%Z ->
  exists K w g e flm, mf_kernel A F fft (scheme_name s) gl wgl L spin = Ok K /\ quad_weights_transform gr L "mwss" 0 None = Ok w /\
    (match s with MW => mw_to_mwss numpy f L spin | _ => Ok f end) = Ok g /\ upsample_by_two_mwss numpy g L spin = Ok e /\ shape e = [2 * L + 1; 2 * L]%Z /\
    mf_forward A S fft o f K L (scheme_name s) spin = Ok flm /\ shape flm = [L; 2 * L - 1]%Z /\
    forall l m, (0 <= l < L)%Z -> (- L < m < L)%Z ->
      ((Z.abs m <= l)%Z -> (Z.abs spin <= l)%Z ->
        Cmod (get flm [l; m + L - 1]%Z - quadrature_of (2 * L + 1) (2 * L) (vat w) (mwss_theta (2 * L)) spin l m e)%C <=
        sqrt (IZR (2 * l + 1) / (4 * PI)) * (27 * PI) *
        ((31700 * u * (IZR L * (2 * IZR L + 3)) + 615 * eps) * rms (rings s L 0) (per_ring s L) (fun t p => get f [t; p]) + 687 * (IZR L * eta))) /\
      ((l < Z.abs m \/ l < Z.abs spin)%Z -> get flm [l; m + L - 1]%Z = RtoC 0).
Proof.
  intros A u eta F S fft o s L spin eps gr gl wgl f HA HZ HL Hs HB HE He H1 H2 H4 HF HI HF2 HF4 Hm Ho Hf.
  destruct (mwx_any A u eta HA HZ F S L spin eps HL Hs HB HE He H1 H2 H4 fft HF HI HF2 HF4 s o f gl wgl Hm Ho Hf) as (K & e & flm & E1 & E2 & E3 & E4 & E5 & H).
  destruct (mwss_weight_model gr L HL) as (w & E & El & Hw).
  assert (X : exists g, (match s with MW => mw_to_mwss numpy f L spin | _ => Ok f end) = Ok g /\ upsample_by_two_mwss numpy g L spin = Ok e).
  { unfold doubled in E2. destruct Hm as [->| ->]; cbn [scheme_name] in E2.
    - change (streq "mw" "mw") with true in E2. cbv iota in E2. destruct (mw_to_mwss numpy f L spin) as [g|]; [|discriminate]. exists g. split; [reflexivity|exact E2].
    - exists f. split; [reflexivity|exact E2]. }
  destruct X as (g & X1 & X2). exists K, w, g, e, flm. repeat (split; [assumption|]). intros l m Hl Hmm. destruct (H l m Hl Hmm) as [G1 G2]. split; [|exact G2].
  intros M1 M2. specialize (G1 M1 M2).
  replace (quadrature_of (2 * L + 1) (2 * L) (vat w) (mwss_theta (2 * L)) spin l m e) with (quadrature_of (2 * L + 1) (2 * L) (mwss_weight L) (mwss_theta (2 * L)) spin l m e).
  - eapply Rle_trans; [exact G1|]. right. unfold elfactor, at2. ring.
  - unfold quadrature_of. apply cr_ext. intros t Ht. now rewrite Hw.
Qed.
Print Assumptions C72_forward.
Example C72_forward_ex : transforms_accurate exact_rffts (2 * 4 - 1) 0 /\ transforms_accurate exact_rffts (4 * 4) 0 /\ irfft_accurate (f_irfft exact_ffts) 4 (4 * 4) 0 /\
  ipow_accurate (f_ipow exact_ffts) (2 * 4) 0 /\ sums_all (in_turn 9) (2 * 4 + 1) /\ shape (zeros (RtoC 1) [4; 7]%Z) = [rings MW 4 0; per_ring MW 4]%Z /\
  shape (zeros (RtoC 1) [5; 8]%Z) = [rings MWSS 4 0; per_ring MWSS 4]%Z.
Proof.
  split; [apply exact_transforms; (lia || lra)|]. split; [apply exact_transforms; (lia || lra)|]. split; [apply exact_irfft; lra|]. split; [apply exact_ipow; lra|].
  split; [apply in_turn_all; lia|]. split; reflexivity.
Qed.

(** A map that differs from a band-limited signal by at most d at each sample: the coefficients
    of the signal are recovered to within a multiple of (u L^2 + eps) of its size and of d. *)
Theorem C72_analysis : forall A u eta F S fft o s L spin eps gl wgl f c d, rounded A u eta -> zeros_exact A ->
  (1 <= L)%Z -> (Z.abs spin < L)%Z -> 2000 * u * (IZR L * (2 * IZR L + 3)) <= 1 -> 4 * (IZR L * IZR L) * eta <= u -> 0 <= eps <= / 100 ->
  transforms_accurate S (2 * L - 1) eps -> transforms_accurate S (2 * L) eps -> transforms_accurate S (4 * L) eps ->
  irfft_accurate (f_irfft F) L (4 * L) eps -> ipow_accurate (f_ipow F) (2 * L) eps -> fft_accurate fft (2 * L) eps -> fft_accurate fft (4 * L) eps ->
  s = MW \/ s = MWSS -> sums_all o (2 * L + 1) -> shape f = [rings s L 0; per_ring s L]%Z ->
  (forall t p x, (0 <= t < rings s L 0)%Z -> (0 <= p < per_ring s L)%Z -> is_colatitude s L 0 t x -> Cmod (get f [t; p] - synth L spin c x (equi_longitude s L p))%C <= d) ->
  exists K flm, mf_kernel A F fft (scheme_name s) gl wgl L spin = Ok K /\ mf_forward A S fft o f K L (scheme_name s) spin = Ok flm /\ shape flm = [L; 2 * L - 1]%Z /\
    forall l m, (0 <= l < L)%Z -> (- L < m < L)%Z ->
      ((Z.abs m <= l)%Z -> (Z.abs spin <= l)%Z -> Cmod (get flm [l; m + L - 1]%Z - c l m)%C <=
        sqrt (IZR (2 * l + 1) / (4 * PI)) * (27 * PI) *
        ((4550 * u * (IZR L * (2 * IZR L + 3)) + 291 * eps) * signal_size L spin c + 36 * d + 687 * (IZR L * eta))) /\
      ((l < Z.abs m \/ l < Z.abs spin)%Z -> get flm [l; m + L - 1]%Z = RtoC 0).
Proof.
  intros A u eta F S fft o s L spin eps gl wgl f c d HA HZ HL Hs HB HE He H1 H2 H4 HF HI HF2 HF4 Hm Ho Hf Hd.
  destruct (mwx_analysis A u eta HA HZ F S L spin eps HL Hs HB HE He H1 H2 H4 fft HF HI HF2 HF4 s o f gl wgl c d Hm Ho Hf) as (K & flm & E1 & E2 & E3 & H).
  { intros t p Ht Hp. apply Hd; auto. destruct Hm as [->| ->]; reflexivity. }
  exists K, flm. repeat (split; [assumption|]). intros l m Hl Hmm. destruct (H l m Hl Hmm) as [G1 G2]. split; [|exact G2].
  intros M1 M2. eapply Rle_trans; [exact (G1 M1 M2)|]. right. unfold elfactor. ring.
Qed.
Print Assumptions C72_analysis.
Example C72_analysis_ex : let c := fun l m => RtoC (IZR (l + 2 * m)) in let f := mat 3 5 (fun t p => synth 3 1 c (mw_theta 3 t) (equi_longitude MW 3 p)) in
  shape f = [rings MW 3 0; per_ring MW 3]%Z /\
  forall t p x, (0 <= t < rings MW 3 0)%Z -> (0 <= p < per_ring MW 3)%Z -> is_colatitude MW 3 0 t x -> Cmod (get f [t; p] - synth 3 1 c x (equi_longitude MW 3 p))%C <= 0.
Proof.
  cbv zeta. split; [reflexivity|]. intros t p x Ht Hp Hx. cbn [is_colatitude] in Hx. subst x. unfold mat. cbn [get nth].
  set (z := synth _ _ _ _ _). replace (z - z)%C with (RtoC 0) by ring. rewrite Cmod_0. lra.
Qed.

(** Inverse transform, then forward transform of what it returned, on either grid. The inverse
    transform needs Fourier transforms of the length of its own rings. *)
Theorem C72_round_trip : forall A u eta F S fft o o' s L spin eps gl wgl flm, rounded A u eta -> zeros_exact A ->
  (1 <= L)%Z -> (Z.abs spin < L)%Z -> 2000 * u * (IZR L * (2 * IZR L + 3)) <= 1 -> 4 * (IZR L * IZR L) * eta <= u -> 0 <= eps <= / 100 ->
  transforms_accurate S (2 * L - 1) eps -> transforms_accurate S (2 * L) eps -> transforms_accurate S (4 * L) eps ->
  irfft_accurate (f_irfft F) L (4 * L) eps -> irfft_accurate (f_irfft F) L (per_ring s L) eps -> ipow_accurate (f_ipow F) (2 * L) eps ->
  ifft_accurate (f_ifft F) (per_ring s L) eps -> fft_accurate fft (2 * L) eps -> fft_accurate fft (4 * L) eps ->
  s = MW \/ s = MWSS -> sums_all o L -> sums_all o' (2 * L + 1) -> shape flm = [L; 2 * L - 1]%Z ->
  exists ths K f K' flm', pf_thetas A (scheme_name s) L gl = Ok ths /\ pf_kernel A F (scheme_name s) ths L spin = Ok K /\ pf_inverse A F o flm K L (scheme_name s) spin = Ok f /\
    mf_kernel A F fft (scheme_name s) gl wgl L spin = Ok K' /\ mf_forward A S fft o' f K' L (scheme_name s) spin = Ok flm' /\ shape flm' = [L; 2 * L - 1]%Z /\
    forall l m, (0 <= l < L)%Z -> (- L < m < L)%Z ->
      ((Z.abs m <= l)%Z -> (Z.abs spin <= l)%Z -> Cmod (get flm' [l; m + L - 1]%Z - get flm [l; m + L - 1]%Z)%C <=
        sqrt (IZR (2 * l + 1) / (4 * PI)) * (27 * PI) *
        ((81000 * u * (IZR L * (2 * IZR L + 3)) + 1011 * eps) * signal_size L spin (stored L flm) + 2530 * (IZR L * IZR L) * eta)) /\
      ((l < Z.abs m \/ l < Z.abs spin)%Z -> get flm' [l; m + L - 1]%Z = RtoC 0).
Proof.
  intros A u eta F S fft o o' s L spin eps gl wgl flm HA HZ HL Hs HB HE He H1 H2 H4 HF HF' HI HIF HF2 HF4 Hm Ho Ho' Hf.
  destruct (mwx_round_trip A u eta HA HZ F S L spin eps HL Hs HB HE He H1 H2 H4 fft HF HI HF2 HF4 s o o' flm gl wgl Hm) as (ths & K & f & K' & flm' & E1 & E2 & E3 & E4 & E5 & E6 & H); auto.
  { replace (kernel_nsamps (scheme_name s) (rings s L 0)) with (per_ring s L); [exact HF'|].
    destruct Hm as [->| ->]; unfold kernel_nsamps; cbn [scheme_name rings per_ring];
      repeat match goal with |- context [streq ?a ?b] => let v := eval compute in (streq a b) in change (streq a b) with v end; cbv iota; lia. }
  exists ths, K, f, K', flm'. repeat (split; [assumption|]). intros l m Hl Hmm. destruct (H l m Hl Hmm) as [G1 G2]. split; [|exact G2].
  intros M1 M2. eapply Rle_trans; [exact (G1 M1 M2)|]. right. unfold elfactor. ring.
Qed.
Print Assumptions C72_round_trip.
Example C72_round_trip_ex : rounded exact_arith 0 0 /\ zeros_exact exact_arith /\ (Z.abs (-2) < 5)%Z /\ ifft_accurate (f_ifft exact_ffts) (per_ring MWSS 5) 0 /\
  irfft_accurate (f_irfft exact_ffts) 5 (per_ring MWSS 5) 0 /\ sums_all (in_turn 5) 5 /\ sums_all (in_turn 11) (2 * 5 + 1) /\ shape (zeros (RtoC 1) [5; 9]%Z) = [5; 2 * 5 - 1]%Z.
Proof.
  split; [exact exact_rounded|]. split; [exact exact_zeros|]. split; [lia|]. split; [apply exact_ifft; [lra|cbn; lia]|]. split; [apply exact_irfft; lra|].
  split; [apply in_turn_all; lia|]. split; [apply in_turn_all; lia|reflexivity].
Qed.

(** Without rounding and with exact Fourier transforms the forward transform of this model
    returns the coefficients themselves. *)
Theorem C72_exact : forall s L spin gl wgl f c o, (1 <= L)%Z -> (Z.abs spin < L)%Z -> s = MW \/ s = MWSS -> sums_all o (2 * L + 1) -> shape f = [rings s L 0; per_ring s L]%Z ->
  (forall t p x, (0 <= t < rings s L 0)%Z -> (0 <= p < per_ring s L)%Z -> is_colatitude s L 0 t x -> get f [t; p] = synth L spin c x (equi_longitude s L p)) ->
  exists K flm, mf_kernel exact_arith exact_ffts fft_bwd (scheme_name s) gl wgl L spin = Ok K /\
    mf_forward exact_arith exact_rffts fft_bwd o f K L (scheme_name s) spin = Ok flm /\ shape flm = [L; 2 * L - 1]%Z /\
    forall l m, (0 <= l < L)%Z -> (- L < m < L)%Z ->
      get flm [l; m + L - 1]%Z = if ((Z.abs m <=? l) && (Z.abs spin <=? l))%Z then c l m else RtoC 0.
Proof.
  intros s L spin gl wgl f c o HL Hs Hm Ho Hf Hd.
  destruct (C72_analysis exact_arith 0 0 exact_ffts exact_rffts fft_bwd o s L spin 0 gl wgl f c 0 exact_rounded exact_zeros HL Hs) as (K & flm & E1 & E2 & Sh & H); try assumption; try lra;
    try (apply exact_transforms; (lia || lra)); try (apply exact_fft; lra).
  - apply exact_irfft. lra.
  - apply exact_ipow. lra.
  - intros t p x Ht Hp Hx. rewrite (Hd t p x Ht Hp Hx). replace (_ - _)%C with (RtoC 0) by ring. rewrite Cmod_0. lra.
  - exists K, flm. repeat (split; [assumption|]). intros l m Hl Hmm. destruct (H l m Hl Hmm) as [H1 H2].
    destruct (Z.leb_spec (Z.abs m) l), (Z.leb_spec (Z.abs spin) l); cbn [andb]; try (apply H2; lia).
    specialize (H1 ltac:(lia) ltac:(lia)). set (z := (get flm [l; m + L - 1]%Z - c l m)%C) in *.
    assert (Z0 : Cmod z = 0) by (pose proof (Cmod_ge_0 z); lra). apply Cmod_eq_0 in Z0. unfold z in Z0.
    replace (get flm [l; m + L - 1]%Z) with (get flm [l; m + L - 1]%Z - c l m + c l m)%C by ring. rewrite Z0. ring.
Qed.
Print Assumptions C72_exact.
Example C72_exact_ex : let c := fun l m => RtoC (IZR (l * m)) in let f := mat 4 6 (fun t p => synth 3 (-1) c (mwss_theta 3 t) (equi_longitude MWSS 3 p)) in
  shape f = [rings MWSS 3 0; per_ring MWSS 3]%Z /\
  forall t p x, (0 <= t < rings MWSS 3 0)%Z -> (0 <= p < per_ring MWSS 3)%Z -> is_colatitude MWSS 3 0 t x -> get f [t; p] = synth 3 (-1) c x (equi_longitude MWSS 3 p).
Proof. cbv zeta. split; [reflexivity|]. intros t p x _ _ Hx. cbn [is_colatitude] in Hx. now subst x. Qed.

(** Binary64, up to band-limit a million: with Fourier transforms of relative accuracy 1e-14 the
    round trip returns each coefficient to within 9e-12 L (2 L + 3) + 1.1e-11 of the size of the
    signal, times the largest value of its harmonic integrated over an area of 27 pi. *)
Theorem C72_binary64 : forall F S fft o o' s L spin gl wgl flm, (1 <= L)%Z -> (L <= 2 ^ 20)%Z -> (Z.abs spin < L)%Z ->
  transforms_accurate S (2 * L - 1) (/ 10 ^ 14) -> transforms_accurate S (2 * L) (/ 10 ^ 14) -> transforms_accurate S (4 * L) (/ 10 ^ 14) ->
  irfft_accurate (f_irfft F) L (4 * L) (/ 10 ^ 14) -> irfft_accurate (f_irfft F) L (per_ring s L) (/ 10 ^ 14) -> ipow_accurate (f_ipow F) (2 * L) (/ 10 ^ 14) ->
  ifft_accurate (f_ifft F) (per_ring s L) (/ 10 ^ 14) -> fft_accurate fft (2 * L) (/ 10 ^ 14) -> fft_accurate fft (4 * L) (/ 10 ^ 14) ->
  s = MW \/ s = MWSS -> sums_all o L -> sums_all o' (2 * L + 1) -> shape flm = [L; 2 * L - 1]%Z ->
  exists ths K f K' flm', pf_thetas binary64 (scheme_name s) L gl = Ok ths /\ pf_kernel binary64 F (scheme_name s) ths L spin = Ok K /\
    pf_inverse binary64 F o flm K L (scheme_name s) spin = Ok f /\
    mf_kernel binary64 F fft (scheme_name s) gl wgl L spin = Ok K' /\ mf_forward binary64 S fft o' f K' L (scheme_name s) spin = Ok flm' /\ shape flm' = [L; 2 * L - 1]%Z /\
    forall l m, (0 <= l < L)%Z -> (- L < m < L)%Z ->
      ((Z.abs m <= l)%Z -> (Z.abs spin <= l)%Z -> Cmod (get flm' [l; m + L - 1]%Z - get flm [l; m + L - 1]%Z)%C <=
        sqrt (IZR (2 * l + 1) / (4 * PI)) * (27 * PI) *
        ((9 / 10 ^ 12 * (IZR L * (2 * IZR L + 3)) + 11 / 10 ^ 12) * signal_size L spin (stored L flm) + / 10 ^ 300)) /\
      ((l < Z.abs m \/ l < Z.abs spin)%Z -> get flm' [l; m + L - 1]%Z = RtoC 0).
Proof.
  intros F S fft o o' s L spin gl wgl flm HL HL2 Hs H1' H2' H4' HF HF' HI HIF HF2 HF4 Hm Ho Ho' Hf.
  assert (H1 : 1 <= IZR L) by (apply IZR_le; lia). assert (H2 : IZR L <= IZR (2 ^ 20)) by (now apply IZR_le).
  assert (E0 : 0 <= eta64) by apply bpow_ge_0.
  assert (L2 : IZR L * IZR L <= IZR (2 ^ 20) * IZR (2 ^ 20)) by (apply Rmult_le_compat; lra). rewrite <- (mult_IZR (2 ^ 20)) in L2.
  destruct (C72_round_trip binary64 u64 eta64 F S fft o o' s L spin (/ 10 ^ 14) gl wgl flm binary64_rounded (ieee_zeros _ _) HL Hs) as (ths & K & f & K' & flm' & E1 & E2 & E3 & E4 & E5 & Sh & H); try assumption.
  - rewrite u64_value. assert (IZR L * (2 * IZR L + 3) <= IZR (2 ^ 20) * (2 * IZR (2 ^ 20) + 3)) by (apply Rmult_le_compat; lra).
    apply Rle_trans with (2000 * / IZR (2 ^ 53) * (IZR (2 ^ 20) * (2 * IZR (2 ^ 20) + 3))).
    + apply Rmult_le_compat_l; [|assumption]. cbn. lra.
    + cbn. lra.
  - eapply Rle_trans; [|apply (eta64_tiny 42); lia]. apply Rmult_le_compat_r; [exact E0|].
    change (2 ^ 42)%Z with (4 * (2 ^ 20 * 2 ^ 20))%Z. rewrite (mult_IZR 4). lra.
  - cbn. lra.
  - exists ths, K, f, K', flm'. repeat (split; [assumption|]). intros l m Hl Hmm. destruct (H l m Hl Hmm) as [G1 G2]. split; [|exact G2]. intros M1 M2.
    eapply Rle_trans; [exact (G1 M1 M2)|]. apply Rmult_le_compat_l.
    { apply Rmult_le_pos; [apply sqrt_pos|]. pose proof PI_RGT_0. lra. }
    apply Rplus_le_compat.
    + apply Rmult_le_compat_r; [apply signal_size_nonneg|]. rewrite u64_value. apply Rplus_le_compat; [|cbn; lra].
      apply Rmult_le_compat_r; [nra|]. cbn. lra.
    + apply Rle_trans with (IZR (2 ^ 52) * eta64).
      * apply Rmult_le_compat_r; [exact E0|]. apply Rle_trans with (2530 * IZR (2 ^ 20 * 2 ^ 20)); [lra|]. rewrite <- mult_IZR. apply IZR_le. lia.
      * unfold eta64. change (IZR (2 ^ 52)) with (bpow radix2 52). rewrite <- bpow_plus. change (52 + -1075)%Z with (- (1023))%Z. rewrite bpow_opp.
        apply Rinv_le_contravar; [apply pow_lt; lra|]. rewrite <- (IZR_Zpower radix2) by lia. rewrite pow_IZR. apply IZR_le. vm_compute. discriminate.
Qed.
Print Assumptions C72_binary64.
Example C72_binary64_ex : (256 <= 2 ^ 20)%Z /\ transforms_accurate exact_rffts (4 * 256) (/ 10 ^ 14) /\ fft_accurate fft_bwd (4 * 256) (/ 10 ^ 14) /\
  ifft_accurate (f_ifft exact_ffts) (per_ring MW 256) (/ 10 ^ 14) /\ irfft_accurate (f_irfft exact_ffts) 256 (per_ring MW 256) (/ 10 ^ 14) /\ sums_all (in_turn (2 * 256 + 1)) (2 * 256 + 1).
Proof.
  assert (0 <= / 10 ^ 14) by (left; apply Rinv_0_lt_compat; cbn; lra). split; [lia|]. split; [apply exact_transforms; auto; lia|]. split; [now apply exact_fft|].
  split; [apply exact_ifft; [assumption|cbn; lia]|]. split; [now apply exact_irfft|]. apply in_turn_all. lia.
Qed.
