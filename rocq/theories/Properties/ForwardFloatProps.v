(** C70: the precomputed forward transform and the round trip in floating-point arithmetic. *)
From Coq Require Import Reals Lra Lia ZifyBool.
From Coquelicot Require Import Coquelicot.
From Flocq Require Import Core.
From Verif Require Import Lib.Py Lib.PyFacts Lib.Vec Lib.Sums Lib.Cplx Lib.Arr Model.Index Model.Samples Model.FFT Model.RisboFloat Model.Spherical Model.Precompute Model.PrecomputeFloat Model.ForwardFloat
  Spec.SamplesSpec Spec.WignerSpec Spec.SphereSpec Spec.GridSpec Spec.QuadSpec Spec.SphericalSpec Spec.RoundingSpec Spec.PrecomputeFloatSpec Spec.ForwardFloatSpec
  Proofs.GaussProofs Proofs.SpectralBound Proofs.RisboFloatProofs Proofs.FloatKernel Proofs.FloatInverse Proofs.FloatTop Proofs.FloatWeights Proofs.FloatForward Proofs.FloatForwardTop Proofs.Binary64.
Open Scope string_scope.
Open Scope R_scope.

(** The weights of the Driscoll-Healy rule in any arithmetic with relative error u and underflow
    error eta: the exact ones lie between 0 and an even share of 8 pi, the computed ones differ by
    at most 81 u L^2 of that share. *)
Theorem C70_weights : forall A u eta L gl wgl, rounded A u eta -> zeros_exact A -> (1 <= L)%Z ->
  2000 * u * (IZR L * (2 * IZR L + 3)) <= 1 -> 4 * (IZR L * IZR L) * eta <= u ->
  exists ths w, pf_thetas A "dh" L gl = Ok ths /\ ff_weights A "dh" L ths wgl = Ok w /\ vlen w = (2 * L)%Z /\
    forall t, (0 <= t < 2 * L)%Z ->
      0 <= dh_weight L (dh_theta L t) <= 8 * PI / IZR (2 * L * (2 * L - 1)) /\
      Rabs (vat w t - dh_weight L (dh_theta L t)) <= 81 * u * (IZR L * IZR L) * (8 * PI / IZR (2 * L * (2 * L - 1))).
Proof.
  intros A u eta L gl wgl HA HZ HL HB HE.
  destruct (dh_kernel A u eta HA HZ exact_ffts L 0 0 HL ltac:(cbn; lia) HB HE ltac:(lra) gl wgl) as (ths & KW & E1 & El & Ht & _); [apply exact_irfft; lra|apply exact_ipow; lra|].
  destruct (dh_weights_near A u eta HA L 0 HL ltac:(cbn; lia) HB HE ths El Ht) as [Wl W]. exists ths, (ff_weights_dh A ths L). split; [exact E1|]. split; [reflexivity|].
  split; [exact Wl|]. assert (SH : dh_share L = 8 * PI / IZR (2 * L * (2 * L - 1))).
  { unfold dh_share. rewrite !mult_IZR. field. split; apply (IZR_neq _ 0); lia. }
  intros t H. rewrite <- SH. split; [now apply dh_weight_size|]. destruct (W t H) as (_ & W2 & _). eapply Rle_trans; [exact W2|]. right. ring.
Qed.
Print Assumptions C70_weights.
Example C70_weights_ex : rounded binary64 u64 eta64 /\ zeros_exact binary64 /\ 2000 * u64 * (64 * (2 * 64 + 3)) <= 1 /\ 4 * (64 * 64) * eta64 <= u64.
Proof.
  split; [exact binary64_rounded|]. split; [apply ieee_zeros|]. split; [rewrite u64_value; cbn; lra|].
  eapply Rle_trans; [|apply (eta64_tiny 14); lia]. apply Rmult_le_compat_r; [apply bpow_ge_0|]. cbn. lra.
Qed.

(** The forward transform of any map of that grid, whatever the order in which einsum adds:
    the coefficients are those of the exact rule applied to the map, to within a multiple of
    u L^2 + eps of the largest value the rule can give for a map with that mean absolute value,
    and exactly zero where the harmonic does not exist. *)
Theorem C70_forward : forall A u eta F fft o L spin eps gl wgl f, rounded A u eta -> zeros_exact A ->
  (1 <= L)%Z -> (Z.abs spin < L)%Z -> 2000 * u * (IZR L * (2 * IZR L + 3)) <= 1 -> 4 * (IZR L * IZR L) * eta <= u -> 0 <= eps <= / 20 ->
  irfft_accurate (f_irfft F) L (4 * L) eps -> ipow_accurate (f_ipow F) (2 * L) eps -> fft_accurate fft (2 * L - 1) eps ->
  sums_all o (2 * L) -> shape f = [2 * L; 2 * L - 1]%Z ->
  exists ths K flm, pf_thetas A "dh" L gl = Ok ths /\ ff_kernel A F "dh" ths wgl L spin = Ok K /\ ff_forward A fft o f K L "dh" spin = Ok flm /\
    shape flm = [L; 2 * L - 1]%Z /\ forall l m, (0 <= l < L)%Z -> (- L < m < L)%Z ->
      ((Z.abs m <= l)%Z -> (Z.abs spin <= l)%Z ->
       Cmod (get flm [l; m + L - 1]%Z - quadrature_of (2 * L) (2 * L - 1) (fun t => dh_weight L (dh_theta L t)) (dh_theta L) spin l m f)%C <=
         (4400 * u * (IZR L * (2 * IZR L + 3)) + 37 * eps) * (sqrt (IZR (2 * l + 1) / (4 * PI)) * (8 * PI) * mean_abs (2 * L) (2 * L - 1) f) + 48 * IZR L * eta) /\
      ((l < Z.abs m \/ l < Z.abs spin)%Z -> get flm [l; m + L - 1]%Z = RtoC 0).
Proof.
  intros A u eta F fft o L spin eps gl wgl f HA HZ HL Hs HB HE Heps HF HI HFF Ho Hf.
  destruct (dh_forward A u eta HA HZ F L spin eps HL Hs HB HE Heps fft o f gl wgl HF HI HFF Ho Hf) as (ths & K & flm & E1 & E2 & E3 & Sh & H).
  exists ths, K, flm. repeat (split; [assumption|]). intros l m Hl Hm. destruct (H l m Hl Hm) as [H1 H2]. split; [|exact H2]. intros M1 M2.
  rewrite wsize_in in H1 by lia. eapply Rle_trans; [exact H1|]. right. f_equal. unfold mean_abs, weighted_size. rewrite rs_scal_l. unfold elfactor, dh_share.
  rewrite mult_IZR, mult_IZR. field. pose proof PI_RGT_0. repeat split; try (apply (IZR_neq _ 0); lia); lra.
Qed.
Print Assumptions C70_forward.
Example C70_forward_ex : fft_accurate fft_bwd (2 * 4 - 1) 0 /\ irfft_accurate (f_irfft exact_ffts) 4 (4 * 4) 0 /\ sums_all (in_turn 8) (2 * 4) /\
  shape (zeros (RtoC 1) [8; 7]%Z) = [2 * 4; 2 * 4 - 1]%Z.
Proof. split; [apply exact_fft; lra|]. split; [apply exact_irfft; lra|]. split; [apply in_turn_all; lia|reflexivity]. Qed.

(** A map that differs from a band-limited signal by at most d at each sample: the coefficients
    of the signal are recovered to within a multiple of (u L^2 + eps) of its size and of d. *)
Theorem C70_analysis : forall A u eta F fft o L spin eps gl wgl f c d, rounded A u eta -> zeros_exact A ->
  (1 <= L)%Z -> (Z.abs spin < L)%Z -> 2000 * u * (IZR L * (2 * IZR L + 3)) <= 1 -> 4 * (IZR L * IZR L) * eta <= u -> 0 <= eps <= / 20 ->
  irfft_accurate (f_irfft F) L (4 * L) eps -> ipow_accurate (f_ipow F) (2 * L) eps -> fft_accurate fft (2 * L - 1) eps ->
  sums_all o (2 * L) -> shape f = [2 * L; 2 * L - 1]%Z ->
  (forall t p, (0 <= t < 2 * L)%Z -> (0 <= p < 2 * L - 1)%Z -> Cmod (get f [t; p] - synth L spin c (dh_theta L t) (equi_longitude DH L p))%C <= d) ->
  exists ths K flm, pf_thetas A "dh" L gl = Ok ths /\ ff_kernel A F "dh" ths wgl L spin = Ok K /\ ff_forward A fft o f K L "dh" spin = Ok flm /\
    shape flm = [L; 2 * L - 1]%Z /\ forall l m, (0 <= l < L)%Z -> (- L < m < L)%Z ->
      ((Z.abs m <= l)%Z -> (Z.abs spin <= l)%Z -> Cmod (get flm [l; m + L - 1]%Z - c l m)%C <=
        sqrt (IZR (2 * l + 1) / (4 * PI)) * (8 * PI) *
        ((4400 * u * (IZR L * (2 * IZR L + 3)) + 37 * eps) * (signal_size L spin c + d) + d + 8 * IZR L * eta)) /\
      ((l < Z.abs m \/ l < Z.abs spin)%Z -> get flm [l; m + L - 1]%Z = RtoC 0).
Proof.
  intros A u eta F fft o L spin eps gl wgl f c d HA HZ HL Hs HB HE Heps HF HI HFF Ho Hf Hd.
  destruct (dh_analysis A u eta HA HZ F L spin eps HL Hs HB HE Heps fft o f gl wgl c d HF HI HFF Ho Hf Hd) as (ths & K & flm & E1 & E2 & E3 & Sh & H).
  exists ths, K, flm. repeat (split; [assumption|]). intros l m Hl Hm. destruct (H l m Hl Hm) as [H1 H2]. split; [|exact H2]. intros M1 M2.
  eapply Rle_trans; [exact (H1 M1 M2)|]. right. unfold elfactor. ring.
Qed.
Print Assumptions C70_analysis.
Example C70_analysis_ex : let f := mkArr [2 * 2; 2 * 2 - 1]%Z (fun ix => synth 2 0 (fun l m => RtoC (IZR (l + m))) (dh_theta 2 (nth 0 ix 0%Z)) (equi_longitude DH 2 (nth 1 ix 0%Z))) in
  forall t p, (0 <= t < 2 * 2)%Z -> (0 <= p < 2 * 2 - 1)%Z -> Cmod (get f [t; p] - synth 2 0 (fun l m => RtoC (IZR (l + m))) (dh_theta 2 t) (equi_longitude DH 2 p))%C <= 0.
Proof. intros f t p _ _. unfold f. cbn [get nth]. replace (_ - _)%C with (RtoC 0) by ring. rewrite Cmod_0. lra. Qed.

(** Inverse transform, then forward transform of what it returned, on the Driscoll-Healy grid. *)
Theorem C70_round_trip : forall A u eta F fft o o' L spin eps gl wgl flm, rounded A u eta -> zeros_exact A ->
  (1 <= L)%Z -> (Z.abs spin < L)%Z -> 2000 * u * (IZR L * (2 * IZR L + 3)) <= 1 -> 4 * (IZR L * IZR L) * eta <= u -> 0 <= eps <= / 20 ->
  irfft_accurate (f_irfft F) L (4 * L) eps -> ipow_accurate (f_ipow F) (2 * L) eps -> ifft_accurate (f_ifft F) (2 * L - 1) eps -> fft_accurate fft (2 * L - 1) eps ->
  sums_all o L -> sums_all o' (2 * L) -> shape flm = [L; 2 * L - 1]%Z ->
  exists ths K f K' flm', pf_thetas A "dh" L gl = Ok ths /\ pf_kernel A F "dh" ths L spin = Ok K /\ pf_inverse A F o flm K L "dh" spin = Ok f /\
    ff_kernel A F "dh" ths wgl L spin = Ok K' /\ ff_forward A fft o' f K' L "dh" spin = Ok flm' /\
    shape flm' = [L; 2 * L - 1]%Z /\ forall l m, (0 <= l < L)%Z -> (- L < m < L)%Z ->
      ((Z.abs m <= l)%Z -> (Z.abs spin <= l)%Z -> Cmod (get flm' [l; m + L - 1]%Z - get flm [l; m + L - 1]%Z)%C <=
        sqrt (IZR (2 * l + 1) / (4 * PI)) * (8 * PI) *
        ((15200 * u * (IZR L * (2 * IZR L + 3)) + 140 * eps) * signal_size L spin (stored L flm) + 270 * (IZR L * IZR L) * eta)) /\
      ((l < Z.abs m \/ l < Z.abs spin)%Z -> get flm' [l; m + L - 1]%Z = RtoC 0).
Proof.
  intros A u eta F fft o o' L spin eps gl wgl flm HA HZ HL Hs HB HE Heps HF HI HIF HFF Ho Ho' Hf.
  destruct (dh_round_trip A u eta HA HZ F L spin eps HL Hs HB HE Heps fft o o' flm gl wgl HF HI HIF HFF Ho Ho' Hf) as (ths & K & f & K' & flm' & E1 & E2 & E3 & E4 & E5 & Sh & H).
  exists ths, K, f, K', flm'. repeat (split; [assumption|]). intros l m Hl Hm. destruct (H l m Hl Hm) as [H1 H2]. split; [|exact H2]. intros M1 M2.
  eapply Rle_trans; [exact (H1 M1 M2)|]. right. unfold elfactor. ring.
Qed.
Print Assumptions C70_round_trip.
Example C70_round_trip_ex : rounded exact_arith 0 0 /\ zeros_exact exact_arith /\ (Z.abs (-2) < 5)%Z /\ ifft_accurate (f_ifft exact_ffts) (2 * 5 - 1) 0 /\
  sums_all (in_turn 5) 5 /\ sums_all (in_turn 10) (2 * 5) /\ shape (zeros (RtoC 1) [5; 9]%Z) = [5; 2 * 5 - 1]%Z.
Proof.
  split; [exact exact_rounded|]. split; [exact exact_zeros|]. split; [lia|]. split; [apply exact_ifft; [lra|lia]|]. split; [apply in_turn_all; lia|].
  split; [apply in_turn_all; lia|reflexivity].
Qed.

(** Without rounding and with exact Fourier transforms the forward transform of this model
    returns the coefficients themselves. *)
Theorem C70_exact : forall L spin gl wgl f c o, (1 <= L)%Z -> (Z.abs spin < L)%Z -> sums_all o (2 * L) -> shape f = [2 * L; 2 * L - 1]%Z ->
  (forall t p, (0 <= t < 2 * L)%Z -> (0 <= p < 2 * L - 1)%Z -> get f [t; p] = synth L spin c (dh_theta L t) (equi_longitude DH L p)) ->
  exists ths K flm, pf_thetas exact_arith "dh" L gl = Ok ths /\ ff_kernel exact_arith exact_ffts "dh" ths wgl L spin = Ok K /\
    ff_forward exact_arith fft_bwd o f K L "dh" spin = Ok flm /\
    shape flm = [L; 2 * L - 1]%Z /\ forall l m, (0 <= l < L)%Z -> (- L < m < L)%Z ->
      get flm [l; m + L - 1]%Z = if ((Z.abs m <=? l) && (Z.abs spin <=? l))%Z then c l m else RtoC 0.
Proof.
  intros L spin gl wgl f c o HL Hs Ho Hf Hd.
  destruct (C70_analysis exact_arith 0 0 exact_ffts fft_bwd o L spin 0 gl wgl f c 0 exact_rounded exact_zeros HL Hs) as (ths & K & flm & E1 & E2 & E3 & Sh & H); try assumption; try lra.
  - apply exact_irfft. lra.
  - apply exact_ipow. lra.
  - apply exact_fft. lra.
  - intros t p Ht Hp. rewrite (Hd t p Ht Hp). replace (_ - _)%C with (RtoC 0) by ring. rewrite Cmod_0. lra.
  - exists ths, K, flm. repeat (split; [assumption|]). intros l m Hl Hm. destruct (H l m Hl Hm) as [H1 H2].
    destruct (Z.leb_spec (Z.abs m) l), (Z.leb_spec (Z.abs spin) l); cbn [andb]; try (apply H2; lia).
    specialize (H1 ltac:(lia) ltac:(lia)). set (z := (get flm [l; m + L - 1]%Z - c l m)%C) in *.
    assert (Z0 : Cmod z = 0) by (pose proof (Cmod_ge_0 z); lra). apply Cmod_eq_0 in Z0. unfold z in Z0.
    replace (get flm [l; m + L - 1]%Z) with (get flm [l; m + L - 1]%Z - c l m + c l m)%C by ring. rewrite Z0. ring.
Qed.
Print Assumptions C70_exact.
Example C70_exact_ex : let f := mkArr [2 * 3; 2 * 3 - 1]%Z (fun ix => synth 3 (-1) (fun l m => RtoC (IZR (l * m))) (dh_theta 3 (nth 0 ix 0%Z)) (equi_longitude DH 3 (nth 1 ix 0%Z))) in
  forall t p, (0 <= t < 2 * 3)%Z -> (0 <= p < 2 * 3 - 1)%Z -> get f [t; p] = synth 3 (-1) (fun l m => RtoC (IZR (l * m))) (dh_theta 3 t) (equi_longitude DH 3 p).
Proof. reflexivity. Qed.

Lemma cube_tiny A u eta L : rounded A u eta -> (1 <= L)%Z -> 4 * IZR L ^ 3 * eta <= u -> 4 * (IZR L * IZR L) * eta <= u /\ IZR L ^ 3 * eta <= u.
Proof.
  intros HA HL H. assert (1 <= IZR L) by (apply IZR_le; lia). assert (0 <= eta) by exact (rd_eta _ _ _ HA).
  assert (IZR L * IZR L <= IZR L ^ 3) by (cbn; nra). assert (0 <= IZR L ^ 3 * eta) by (apply Rmult_le_pos; nra).
  assert (IZR L * IZR L * eta <= IZR L ^ 3 * eta) by (now apply Rmult_le_compat_r). split; lra.
Qed.
(** Gauss-Legendre rings: colatitudes with error delta and weights with relative error dw are
    given; both enter the error once. The weights of the rule are at least 2 / L^2 ([C58_range]),
    so they do not underflow. *)
Theorem C70_gl : forall A u eta F fft o L spin eps nodes wg gl wgl delta dw f c d, rounded A u eta -> zeros_exact A ->
  (1 <= L)%Z -> (Z.abs spin < L)%Z -> 2000 * u * (IZR L * (2 * IZR L + 3)) <= 1 -> 4 * IZR L ^ 3 * eta <= u -> 0 <= eps <= / 20 ->
  gauss_legendre L nodes wg ->
  vlen gl = L -> 0 <= delta /\ IZR L * delta <= / 20 ->
  (forall t, (0 <= t < L)%Z -> Rabs (vat gl t - acos (vat nodes (L - 1 - t))) <= delta) ->
  vlen wgl = L -> 0 <= dw <= / 10 ->
  (forall t, (0 <= t < L)%Z -> let w := 2 * PI * vat wg t / IZR (2 * L - 1) in Rabs (vat wgl t - w) <= dw * w) ->
  fft_accurate fft (2 * L - 1) eps -> sums_all o L -> shape f = [L; 2 * L - 1]%Z ->
  (forall t p, (0 <= t < L)%Z -> (0 <= p < 2 * L - 1)%Z ->
     Cmod (get f [t; p] - synth L spin c (acos (vat nodes (L - 1 - t))) (equi_longitude GL L p))%C <= d) ->
  exists K flm, ff_kernel A F "gl" gl wgl L spin = Ok K /\ ff_forward A fft o f K L "gl" spin = Ok flm /\
    shape flm = [L; 2 * L - 1]%Z /\ forall l m, (0 <= l < L)%Z -> (- L < m < L)%Z ->
      ((Z.abs m <= l)%Z -> (Z.abs spin <= l)%Z -> Cmod (get flm [l; m + L - 1]%Z - c l m)%C <=
        sqrt (IZR (2 * l + 1) / (4 * PI)) * (4 * PI) *
        ((4030 * u * (IZR L * (2 * IZR L + 3)) + 37 * eps + 4 * (IZR L * delta) + 8 * dw) * (signal_size L spin c + d) + d + 8 * IZR L * eta)) /\
      ((l < Z.abs m \/ l < Z.abs spin)%Z -> get flm [l; m + L - 1]%Z = RtoC 0).
Proof.
  intros A u eta F fft o L spin eps nodes wg gl wgl delta dw f c d HA HZ HL Hs HB HE Heps HG Hg1 Hde Hg3 Hw1 Hdw Hw2 HFF Ho Hf Hd.
  destruct (cube_tiny A u eta L HA HL HE) as [HE2 HE3].
  destruct (gl_analysis A u eta HA HZ F L spin eps HL Hs HB HE2 Heps nodes wg gl wgl delta dw HG Hg1 Hde Hg3 Hw1 Hdw Hw2 HE3 fft o f c d HFF Ho Hf Hd) as (K & flm & E1 & E2 & Sh & H).
  exists K, flm. repeat (split; [assumption|]). intros l m Hl Hm. destruct (H l m Hl Hm) as [H1 H2]. split; [|exact H2]. intros M1 M2.
  eapply Rle_trans; [exact (H1 M1 M2)|]. right. unfold elfactor. ring.
Qed.
Print Assumptions C70_gl.
(** the midpoint rule *)
Example C70_gl_ex : let nodes := mkVec 1 (fun _ => 0) in let wg := mkVec 1 (fun _ => 2) in
  gauss_legendre 1 nodes wg /\ (forall t, (0 <= t < 1)%Z -> Rabs (vat (mkVec 1 (fun _ => PI / 2)) t - acos (vat nodes (1 - 1 - t))) <= 0) /\
  (forall t, (0 <= t < 1)%Z -> let w := 2 * PI * vat wg t / IZR (2 * 1 - 1) in Rabs (vat (mkVec 1 (fun _ => 4 * PI)) t - w) <= 0 * w).
Proof.
  intros nodes wg. split; [|split].
  - split; [reflexivity|]. split; [reflexivity|]. split; [intros; cbn; lra|]. split; [intros; lia|]. intros j Hj. change (zrange 0 1) with [0%Z]. cbn [suml map fold_right vat wg nodes].
    assert (j = 0 \/ j = 1)%nat as [->| ->] by lia.
    + rewrite (RInt_ext _ (fun _ => 1)) by (intros; reflexivity). rewrite RInt_const. change (scal (1 - -1) 1) with ((1 - -1) * 1). cbn. lra.
    + assert (E : is_RInt (fun y => y ^ 1) (-1) 1 (1 ^ 2 / 2 - (-1) ^ 2 / 2)).
      { apply (is_RInt_derive (fun y => y ^ 2 / 2)); [intros; auto_derive; [auto|cbn; field]|intros; apply continuity_pt_filterlim, derivable_continuous_pt, derivable_pt_pow]. }
      rewrite (is_RInt_unique _ _ _ _ E). cbn. lra.
  - intros t Ht. cbn [vat nodes]. rewrite acos_0. unfold Rminus. rewrite Rplus_opp_r, Rabs_R0. lra.
  - intros t Ht w. cbn [vat wg] in *. unfold w. change (2 * 1 - 1)%Z with 1%Z. replace (4 * PI - 2 * PI * 2 / 1) with 0 by field. rewrite Rabs_R0. lra.
Qed.

(** Inverse transform, then forward transform of what it returned, on Gauss-Legendre rings. *)
Theorem C70_gl_round_trip : forall A u eta F fft o o' L spin eps nodes wg gl wgl delta dw flm, rounded A u eta -> zeros_exact A ->
  (1 <= L)%Z -> (Z.abs spin < L)%Z -> 2000 * u * (IZR L * (2 * IZR L + 3)) <= 1 -> 4 * IZR L ^ 3 * eta <= u -> 0 <= eps <= / 20 ->
  gauss_legendre L nodes wg ->
  vlen gl = L -> 0 <= delta /\ IZR L * delta <= / 20 ->
  (forall t, (0 <= t < L)%Z -> Rabs (vat gl t - acos (vat nodes (L - 1 - t))) <= delta) ->
  vlen wgl = L -> 0 <= dw <= / 10 ->
  (forall t, (0 <= t < L)%Z -> let w := 2 * PI * vat wg t / IZR (2 * L - 1) in Rabs (vat wgl t - w) <= dw * w) ->
  ifft_accurate (f_ifft F) (2 * L - 1) eps -> fft_accurate fft (2 * L - 1) eps -> sums_all o L -> sums_all o' L -> shape flm = [L; 2 * L - 1]%Z ->
  exists K f K' flm', pf_kernel A F "gl" gl L spin = Ok K /\ pf_inverse A F o flm K L "gl" spin = Ok f /\
    ff_kernel A F "gl" gl wgl L spin = Ok K' /\ ff_forward A fft o' f K' L "gl" spin = Ok flm' /\
    shape flm' = [L; 2 * L - 1]%Z /\ forall l m, (0 <= l < L)%Z -> (- L < m < L)%Z ->
      ((Z.abs m <= l)%Z -> (Z.abs spin <= l)%Z -> Cmod (get flm' [l; m + L - 1]%Z - get flm [l; m + L - 1]%Z)%C <=
        sqrt (IZR (2 * l + 1) / (4 * PI)) * (4 * PI) *
        ((16500 * u * (IZR L * (2 * IZR L + 3)) + 155 * eps + 10 * (IZR L * delta) + 8 * dw) * signal_size L spin (stored L flm) + 308 * (IZR L * IZR L) * eta)) /\
      ((l < Z.abs m \/ l < Z.abs spin)%Z -> get flm' [l; m + L - 1]%Z = RtoC 0).
Proof.
  intros A u eta F fft o o' L spin eps nodes wg gl wgl delta dw flm HA HZ HL Hs HB HE Heps HG Hg1 Hde Hg3 Hw1 Hdw Hw2 HIF HFF Ho Ho' Hf.
  destruct (cube_tiny A u eta L HA HL HE) as [HE2 HE3].
  destruct (gl_round_trip A u eta HA HZ F L spin eps HL Hs HB HE2 Heps nodes wg gl wgl delta dw HG Hg1 Hde Hg3 Hw1 Hdw Hw2 HE3 fft o o' flm HIF HFF Ho Ho' Hf) as (K & f & K' & flm' & E1 & E2 & E3 & E4 & Sh & H).
  exists K, f, K', flm'. repeat (split; [assumption|]). intros l m Hl Hm. destruct (H l m Hl Hm) as [H1 H2]. split; [|exact H2]. intros M1 M2.
  eapply Rle_trans; [exact (H1 M1 M2)|]. right. unfold elfactor. ring.
Qed.
Print Assumptions C70_gl_round_trip.
(** every band-limit has such rings: the rule itself, at no distance from itself *)
Example C70_gl_round_trip_ex : forall L, (1 <= L)%Z -> exists nodes wg gl wgl, gauss_legendre L nodes wg /\ vlen gl = L /\ vlen wgl = L /\
  (forall t, (0 <= t < L)%Z -> Rabs (vat gl t - acos (vat nodes (L - 1 - t))) <= 0) /\
  (forall t, (0 <= t < L)%Z -> let w := 2 * PI * vat wg t / IZR (2 * L - 1) in Rabs (vat wgl t - w) <= 0 * w).
Proof.
  intros L HL. destruct (gauss_exists L HL) as (x & w & HG). exists x, w, (mkVec L (fun t => acos (vat x (L - 1 - t)))), (mkVec L (fun t => 2 * PI * vat w t / IZR (2 * L - 1))).
  split; [exact HG|]. split; [reflexivity|]. split; [reflexivity|]. cbn [vat].
  split; intros; rewrite Rminus_diag_eq, Rabs_R0 by reflexivity; lra.
Qed.

(** Binary64, up to band-limit a million: with Fourier transforms of relative accuracy 1e-14 the
    round trip returns each coefficient to within 1.7e-12 L (2 L + 3) + 1.4e-12 of the size of the
    signal, times the largest value of its harmonic integrated over twice the sphere. *)
Theorem C70_binary64 : forall F fft o o' L spin gl wgl flm, (1 <= L)%Z -> (L <= 2 ^ 20)%Z -> (Z.abs spin < L)%Z ->
  irfft_accurate (f_irfft F) L (4 * L) (/ 10 ^ 14) -> ipow_accurate (f_ipow F) (2 * L) (/ 10 ^ 14) -> ifft_accurate (f_ifft F) (2 * L - 1) (/ 10 ^ 14) ->
  fft_accurate fft (2 * L - 1) (/ 10 ^ 14) -> sums_all o L -> sums_all o' (2 * L) -> shape flm = [L; 2 * L - 1]%Z ->
  exists ths K f K' flm', pf_thetas binary64 "dh" L gl = Ok ths /\ pf_kernel binary64 F "dh" ths L spin = Ok K /\ pf_inverse binary64 F o flm K L "dh" spin = Ok f /\
    ff_kernel binary64 F "dh" ths wgl L spin = Ok K' /\ ff_forward binary64 fft o' f K' L "dh" spin = Ok flm' /\
    shape flm' = [L; 2 * L - 1]%Z /\ forall l m, (0 <= l < L)%Z -> (- L < m < L)%Z ->
      ((Z.abs m <= l)%Z -> (Z.abs spin <= l)%Z -> Cmod (get flm' [l; m + L - 1]%Z - get flm [l; m + L - 1]%Z)%C <=
        sqrt (IZR (2 * l + 1) / (4 * PI)) * (8 * PI) *
        ((17 / 10 ^ 13 * (IZR L * (2 * IZR L + 3)) + 14 / 10 ^ 13) * signal_size L spin (stored L flm) + / 10 ^ 300)) /\
      ((l < Z.abs m \/ l < Z.abs spin)%Z -> get flm' [l; m + L - 1]%Z = RtoC 0).
Proof.
  intros F fft o o' L spin gl wgl flm HL HL2 Hs HF HI HIF HFF Ho Ho' Hf.
  assert (H1 : 1 <= IZR L) by (apply IZR_le; lia). assert (H2 : IZR L <= IZR (2 ^ 20)) by (now apply IZR_le).
  assert (E0 : 0 <= eta64) by apply bpow_ge_0.
  assert (L2 : IZR L * IZR L <= IZR (2 ^ 20) * IZR (2 ^ 20)) by (apply Rmult_le_compat; lra). rewrite <- (mult_IZR (2 ^ 20)) in L2.
  destruct (C70_round_trip binary64 u64 eta64 F fft o o' L spin (/ 10 ^ 14) gl wgl flm binary64_rounded (ieee_zeros _ _) HL Hs) as (ths & K & f & K' & flm' & E1 & E2 & E3 & E4 & E5 & Sh & H); try assumption.
  - rewrite u64_value. assert (IZR L * (2 * IZR L + 3) <= IZR (2 ^ 20) * (2 * IZR (2 ^ 20) + 3)) by (apply Rmult_le_compat; lra).
    apply Rle_trans with (2000 * / IZR (2 ^ 53) * (IZR (2 ^ 20) * (2 * IZR (2 ^ 20) + 3))).
    + apply Rmult_le_compat_l; [|assumption]. cbn. lra.
    + cbn. lra.
  - eapply Rle_trans; [|apply (eta64_tiny 42); lia]. apply Rmult_le_compat_r; [exact E0|].
    change (2 ^ 42)%Z with (4 * (2 ^ 20 * 2 ^ 20))%Z. rewrite (mult_IZR 4). lra.
  - cbn. lra.
  - exists ths, K, f, K', flm'. repeat (split; [assumption|]). intros l m Hl Hm. destruct (H l m Hl Hm) as [G1 G2]. split; [|exact G2]. intros M1 M2.
    eapply Rle_trans; [exact (G1 M1 M2)|]. apply Rmult_le_compat_l.
    { apply Rmult_le_pos; [apply sqrt_pos|]. pose proof PI_RGT_0. lra. }
    apply Rplus_le_compat.
    + apply Rmult_le_compat_r; [apply signal_size_nonneg|]. rewrite u64_value. apply Rplus_le_compat; [|cbn; lra].
      apply Rmult_le_compat_r; [nra|]. cbn. lra.
    + apply Rle_trans with (IZR (2 ^ 49) * eta64).
      * apply Rmult_le_compat_r; [exact E0|]. apply Rle_trans with (270 * IZR (2 ^ 20 * 2 ^ 20)); [lra|]. rewrite <- mult_IZR. apply IZR_le. lia.
      * unfold eta64. change (IZR (2 ^ 49)) with (bpow radix2 49). rewrite <- bpow_plus. change (49 + -1075)%Z with (- (1026))%Z. rewrite bpow_opp.
        apply Rinv_le_contravar; [apply pow_lt; lra|]. rewrite <- (IZR_Zpower radix2) by lia. rewrite pow_IZR. apply IZR_le. vm_compute. discriminate.
Qed.
Print Assumptions C70_binary64.
Example C70_binary64_ex : (256 <= 2 ^ 20)%Z /\ fft_accurate fft_bwd (2 * 256 - 1) (/ 10 ^ 14) /\ ifft_accurate (f_ifft exact_ffts) (2 * 256 - 1) (/ 10 ^ 14) /\
  irfft_accurate (f_irfft exact_ffts) 256 (4 * 256) (/ 10 ^ 14) /\ sums_all (in_turn (2 * 256)) (2 * 256).
Proof.
  assert (0 <= / 10 ^ 14) by (left; apply Rinv_0_lt_compat; cbn; lra). split; [lia|]. split; [now apply exact_fft|]. split; [apply exact_ifft; [assumption|lia]|].
  split; [now apply exact_irfft|]. apply in_turn_all. lia.
Qed.

(** The same on Gauss-Legendre rings. *)
Theorem C70_gl_binary64 : forall F fft o o' L spin nodes wg gl wgl delta dw flm, (1 <= L)%Z -> (L <= 2 ^ 20)%Z -> (Z.abs spin < L)%Z ->
  gauss_legendre L nodes wg ->
  vlen gl = L -> 0 <= delta /\ IZR L * delta <= / 20 ->
  (forall t, (0 <= t < L)%Z -> Rabs (vat gl t - acos (vat nodes (L - 1 - t))) <= delta) ->
  vlen wgl = L -> 0 <= dw <= / 10 ->
  (forall t, (0 <= t < L)%Z -> let w := 2 * PI * vat wg t / IZR (2 * L - 1) in Rabs (vat wgl t - w) <= dw * w) ->
  ifft_accurate (f_ifft F) (2 * L - 1) (/ 10 ^ 14) -> fft_accurate fft (2 * L - 1) (/ 10 ^ 14) -> sums_all o L -> sums_all o' L -> shape flm = [L; 2 * L - 1]%Z ->
  exists K f K' flm', pf_kernel binary64 F "gl" gl L spin = Ok K /\ pf_inverse binary64 F o flm K L "gl" spin = Ok f /\
    ff_kernel binary64 F "gl" gl wgl L spin = Ok K' /\ ff_forward binary64 fft o' f K' L "gl" spin = Ok flm' /\
    shape flm' = [L; 2 * L - 1]%Z /\ forall l m, (0 <= l < L)%Z -> (- L < m < L)%Z ->
      ((Z.abs m <= l)%Z -> (Z.abs spin <= l)%Z -> Cmod (get flm' [l; m + L - 1]%Z - get flm [l; m + L - 1]%Z)%C <=
        sqrt (IZR (2 * l + 1) / (4 * PI)) * (4 * PI) *
        ((19 / 10 ^ 13 * (IZR L * (2 * IZR L + 3)) + 16 / 10 ^ 13 + 10 * (IZR L * delta) + 8 * dw) * signal_size L spin (stored L flm) + / 10 ^ 300)) /\
      ((l < Z.abs m \/ l < Z.abs spin)%Z -> get flm' [l; m + L - 1]%Z = RtoC 0).
Proof.
  intros F fft o o' L spin nodes wg gl wgl delta dw flm HL HL2 Hs HG Hg1 Hde Hg3 Hw1 Hdw Hw2 HIF HFF Ho Ho' Hf.
  assert (H1 : 1 <= IZR L) by (apply IZR_le; lia). assert (H2 : IZR L <= IZR (2 ^ 20)) by (now apply IZR_le).
  assert (E0 : 0 <= eta64) by apply bpow_ge_0.
  assert (L2 : IZR L * IZR L <= IZR (2 ^ 20) * IZR (2 ^ 20)) by (apply Rmult_le_compat; lra).
  assert (L3 : IZR L ^ 3 <= IZR (2 ^ 20) * (IZR (2 ^ 20) * IZR (2 ^ 20))) by (change (IZR L ^ 3) with (IZR L * (IZR L * (IZR L * 1))); rewrite Rmult_1_r; apply Rmult_le_compat; try lra; nra).
  rewrite <- (mult_IZR (2 ^ 20)) in L2. rewrite <- (mult_IZR (2 ^ 20) (2 ^ 20)), <- (mult_IZR (2 ^ 20)) in L3.
  destruct (C70_gl_round_trip binary64 u64 eta64 F fft o o' L spin (/ 10 ^ 14) nodes wg gl wgl delta dw flm binary64_rounded (ieee_zeros _ _) HL Hs) as (K & f & K' & flm' & E1 & E2 & E3 & E4 & Sh & H); try assumption.
  - rewrite u64_value. assert (IZR L * (2 * IZR L + 3) <= IZR (2 ^ 20) * (2 * IZR (2 ^ 20) + 3)) by (apply Rmult_le_compat; lra).
    apply Rle_trans with (2000 * / IZR (2 ^ 53) * (IZR (2 ^ 20) * (2 * IZR (2 ^ 20) + 3))).
    + apply Rmult_le_compat_l; [|assumption]. cbn. lra.
    + cbn. lra.
  - eapply Rle_trans; [|apply (eta64_tiny 62); lia]. apply Rmult_le_compat_r; [exact E0|].
    change (2 ^ 62)%Z with (4 * (2 ^ 20 * (2 ^ 20 * 2 ^ 20)))%Z. rewrite (mult_IZR 4). apply Rmult_le_compat_l; [lra|exact L3].
  - cbn. lra.
  - exists K, f, K', flm'. repeat (split; [assumption|]). intros l m Hl Hm. destruct (H l m Hl Hm) as [G1 G2]. split; [|exact G2]. intros M1 M2.
    eapply Rle_trans; [exact (G1 M1 M2)|]. apply Rmult_le_compat_l.
    { apply Rmult_le_pos; [apply sqrt_pos|]. pose proof PI_RGT_0. lra. }
    apply Rplus_le_compat.
    + apply Rmult_le_compat_r; [apply signal_size_nonneg|]. rewrite u64_value. apply Rplus_le_compat_r, Rplus_le_compat_r. apply Rplus_le_compat; [|cbn; lra].
      apply Rmult_le_compat_r; [nra|]. cbn. lra.
    + apply Rle_trans with (IZR (2 ^ 49) * eta64).
      * apply Rmult_le_compat_r; [exact E0|]. apply Rle_trans with (308 * IZR (2 ^ 20 * 2 ^ 20)); [lra|]. rewrite <- mult_IZR. apply IZR_le. lia.
      * unfold eta64. change (IZR (2 ^ 49)) with (bpow radix2 49). rewrite <- bpow_plus. change (49 + -1075)%Z with (- (1026))%Z. rewrite bpow_opp.
        apply Rinv_le_contravar; [apply pow_lt; lra|]. rewrite <- (IZR_Zpower radix2) by lia. rewrite pow_IZR. apply IZR_le. vm_compute. discriminate.
Qed.
Print Assumptions C70_gl_binary64.
(** one ring, at a colatitude half of the stored pi: its distance from the equator is half the error of the stored pi *)
Example C70_gl_binary64_ex : let gl := mkVec 1 (fun _ => fpi binary64 / 2) in
  forall t, (0 <= t < 1)%Z -> Rabs (vat gl t - acos 0) <= u64 * PI.
Proof.
  intros gl. assert (HP := rd_pi _ _ _ binary64_rounded). assert (T := eta64_tiny 0 ltac:(lia)). change (IZR (2 ^ 0)) with 1 in T.
  assert (U : u64 <= / 10) by (rewrite u64_value; cbn; lra). pose proof PI_RGT_0 as PP. assert (u64 * PI <= / 10 * PI) by (apply Rmult_le_compat_r; lra).
  assert (u64 * 1 <= u64 * PI) by (apply Rmult_le_compat_l; [rewrite u64_value; cbn; lra|pose proof PI2_3_2; lra]).
  cbn [gl vat]. apply Rabs_le_between in HP. intros t Ht. rewrite acos_0. apply Rabs_le. lra.
Qed.
