(** C71: the resampling of the mw and mwss schemes in floating-point arithmetic. *)
From Coq Require Import Reals Lra Lia ZifyBool.
From Coquelicot Require Import Coquelicot.
From Flocq Require Import Core.
From Verif Require Import Lib.Py Lib.PyFacts Lib.Vec Lib.Sums Lib.Cplx Lib.Arr Model.Samples Model.FFT Model.RisboFloat Model.Resampling Model.ResamplingFloat
  Spec.WignerSpec Spec.SphereSpec Spec.RoundingSpec Spec.ResamplingFloatSpec
  Proofs.RisboFloatProofs Proofs.ResamplingFacts Proofs.SphereTheory Proofs.L2Norm Proofs.FloatResampling Proofs.FloatResamplingTop Proofs.Binary64.
Open Scope string_scope.
Open Scope R_scope.

Lemma exact_transforms n eps : (0 < n)%Z -> 0 <= eps -> transforms_accurate exact_rffts n eps.
Proof.
  intros Hn He. assert (G : forall F s c, (forall v, vlen (F v) = vlen v) -> (forall v k, vlen v = n -> vat (F v) k = fourier_sums s c n (vat v) k) -> transform_accurate F s c n eps).
  { intros F s c Hl HF v Hv. split; [now rewrite Hl|]. rewrite !l2_nn, (nn_ext _ _ (fun k => RtoC 0 * fourier_sums s c n (vat v) k)%C).
    - rewrite nn_scal, Cmod_0, Rmult_0_l. apply Rmult_le_pos; [exact He|apply nn_nonneg].
    - intros k _. rewrite HF by exact Hv. ring. }
  repeat split; (eapply G; [|intros v0 k0 Hv0|eassumption || exact H]); try reflexivity; try (apply (exact_sums n v0 k0 Hn Hv0)); auto.
Qed.

(** Any map on the mw grid: the computed periodic extension is the exact one (Model/Resampling.v,
    characterised by C18) to within a multiple of eps + u of the map, in the Euclidean norm. *)
Theorem C71_extension : forall A u eta S L spin eps f, rounded A u eta -> u <= / 1000 -> (1 <= L)%Z -> 0 <= eps <= / 100 ->
  transforms_accurate S (2 * L - 1) eps -> shape f = [L; 2 * L - 1]%Z ->
  exists g h, rs_extension A S f L spin "mw" = Ok g /\ periodic_extension numpy f L spin "mw" = Ok h /\
    shape g = [2 * L - 1; 2 * L - 1]%Z /\ shape h = [2 * L - 1; 2 * L - 1]%Z /\
    l2_map (2 * L - 1) (2 * L - 1) (fun t p => get g [t; p] - get h [t; p])%C <=
      (4 * eps + 31 * u) * l2_map L (2 * L - 1) (fun t p => get f [t; p]) + 17 * sqrt (IZR (2 * L - 1)) * eta.
Proof.
  intros A u eta S L spin eps f HA Hu HL He HS Hf. set (s := l2_map L (2 * L - 1) (fun t p => get f [t; p])).
  assert (R := rel_self f L (2 * L - 1) s Hf (Rle_refl _)).
  destruct (extension_near A u eta HA Hu S L spin eps HL He f f s 0 HS R) as (g & h & E1 & E2 & S1 & S2 & _ & D). exists g, h. repeat (split; [assumption|]).
  eapply Rle_trans; [exact D|]. assert (0 <= eps * s) by (apply Rmult_le_pos; [lra|apply map_nonneg]). lra.
Qed.
Print Assumptions C71_extension.
Example C71_extension_ex : rounded binary64 u64 eta64 /\ u64 <= / 1000 /\ transforms_accurate exact_rffts (2 * 3 - 1) (/ 100) /\
  shape (mat 3 5 (fun r c => RtoC (IZR (r - c)))) = [3; 2 * 3 - 1]%Z.
Proof. split; [exact binary64_rounded|]. split; [rewrite u64_value; cbn; lra|]. split; [apply exact_transforms; [lia|lra]|reflexivity]. Qed.

(** Any map on the mw grid, band-limited or not: the computed conversion to the mwss grid. *)
Theorem C71_mw_to_mwss : forall A u eta S L spin eps f, rounded A u eta -> u <= / 1000 -> (1 <= L)%Z -> 4 * IZR L * eta <= u -> 0 <= eps <= / 100 ->
  transforms_accurate S (2 * L - 1) eps -> transforms_accurate S (2 * L) eps -> shape f = [L; 2 * L - 1]%Z ->
  exists g h, rs_mw_to_mwss A S f L spin = Ok g /\ mw_to_mwss numpy f L spin = Ok h /\
    shape g = [L + 1; 2 * L]%Z /\ shape h = [L + 1; 2 * L]%Z /\
    l2_map (L + 1) (2 * L) (fun t p => get g [t; p] - get h [t; p])%C <=
      (22 * eps + 227 * u) * l2_map L (2 * L - 1) (fun t p => get f [t; p]) + 71 * (IZR L * sqrt (IZR (2 * L - 1))) * eta.
Proof.
  intros A u eta S L spin eps f HA Hu HL HE He HS HS2 Hf. set (s := l2_map L (2 * L - 1) (fun t p => get f [t; p])).
  assert (R := rel_self f L (2 * L - 1) s Hf (Rle_refl _)).
  destruct (mw_to_mwss_near A u eta HA Hu S L spin eps HL He f f s 0 HS HS2 HE R) as (g & h & E1 & E2 & S1 & S2 & _ & D). exists g, h. repeat (split; [assumption|]).
  eapply Rle_trans; [exact D|]. lra.
Qed.
Print Assumptions C71_mw_to_mwss.
Example C71_mw_to_mwss_ex : 4 * IZR 3 * eta64 <= u64 /\ transforms_accurate exact_rffts (2 * 3 - 1) (/ 100) /\ transforms_accurate exact_rffts (2 * 3) (/ 100).
Proof.
  split; [|split; apply exact_transforms; (lia || lra)]. eapply Rle_trans; [|apply (eta64_tiny 4); lia]. apply Rmult_le_compat_r; [apply bpow_ge_0|]. cbn. lra.
Qed.

(** Any map on the mwss grid: the computed doubling of the rings. *)
Theorem C71_upsample : forall A u eta S L spin eps f, rounded A u eta -> u <= / 1000 -> (1 <= L)%Z -> 0 <= eps <= / 100 ->
  transforms_accurate S (2 * L) eps -> transforms_accurate S (4 * L) eps -> shape f = [L + 1; 2 * L]%Z ->
  exists g h, rs_upsample A S f L spin = Ok g /\ upsample_by_two_mwss numpy f L spin = Ok h /\
    shape g = [2 * L + 1; 2 * L]%Z /\ shape h = [2 * L + 1; 2 * L]%Z /\
    l2_map (2 * L + 1) (2 * L) (fun t p => get g [t; p] - get h [t; p])%C <=
      (5 * eps + 24 * u) * l2_map (L + 1) (2 * L) (fun t p => get f [t; p]) + 25 * IZR L * eta.
Proof.
  intros A u eta S L spin eps f HA Hu HL He HS2 HS4 Hf. set (s := l2_map (L + 1) (2 * L) (fun t p => get f [t; p])).
  assert (R := rel_self f (L + 1) (2 * L) s Hf (Rle_refl _)).
  destruct (upsample_near A u eta HA Hu S L spin eps HL He f f s 0 HS2 HS4 R) as (g & h & E1 & E2 & S1 & S2 & _ & D). exists g, h. repeat (split; [assumption|]).
  eapply Rle_trans; [exact D|]. assert (0 <= eps * s) by (apply Rmult_le_pos; [lra|apply map_nonneg]). lra.
Qed.
Print Assumptions C71_upsample.
Example C71_upsample_ex : transforms_accurate exact_rffts (2 * 2) (/ 100) /\ transforms_accurate exact_rffts (4 * 2) (/ 100) /\
  shape (mat 3 4 (fun r c => (RtoC (IZR r) + Ci * RtoC (IZR c))%C)) = [2 + 1; 2 * 2]%Z.
Proof. split; [|split; [|reflexivity]]; apply exact_transforms; (lia || lra). Qed.

(** What the forward transform does with a map on the mw grid: conversion to mwss, then doubling
    of the rings. A map near the samples of a band-limited signal becomes one near the samples of
    that signal on the grid the quadrature uses. *)
Theorem C71_signal : forall A u eta S L spin eps f F d, rounded A u eta -> u <= / 1000 -> (1 <= L)%Z -> 4 * IZR L * eta <= u -> 0 <= eps <= / 100 ->
  transforms_accurate S (2 * L - 1) eps -> transforms_accurate S (2 * L) eps -> transforms_accurate S (4 * L) eps ->
  band_limited L spin F -> shape f = [L; 2 * L - 1]%Z ->
  l2_map L (2 * L - 1) (fun t p => get f [t; p] - F (mw_theta L t) (mw_phi L p))%C <= d ->
  exists g h, rs_mw_to_mwss A S f L spin = Ok g /\ rs_upsample A S g L spin = Ok h /\
    shape g = [L + 1; 2 * L]%Z /\ shape h = [2 * L + 1; 2 * L]%Z /\
    l2_map (L + 1) (2 * L) (fun t p => get g [t; p] - F (mwss_theta L t) (mwss_phi L p))%C <=
      42 / 10 * d + (22 * eps + 227 * u) * l2_map L (2 * L - 1) (fun t p => F (mw_theta L t) (mw_phi L p)) + 71 * (IZR L * sqrt (IZR (2 * L - 1))) * eta /\
    l2_map (2 * L + 1) (2 * L) (fun t p => get h [t; p] - F (mwss_theta (2 * L) t) (mwss_phi L p))%C <=
      10 * d + (68 * eps + 613 * u) * l2_map L (2 * L - 1) (fun t p => F (mw_theta L t) (mw_phi L p)) + 192 * (IZR L * sqrt (IZR (2 * L - 1))) * eta.
Proof.
  intros A u eta S L spin eps f F d HA Hu HL HE He HS HS2 HS4 HF Hf Hd. set (s := l2_map L (2 * L - 1) (fun t p => F (mw_theta L t) (mw_phi L p))).
  set (e := mat L (2 * L - 1) (fun t p => F (mw_theta L t) (mw_phi L p))). assert (He1 : sampled e L (2 * L - 1) (mw_theta L) (mw_phi L) F) by (split; reflexivity).
  assert (R : rel f e L (2 * L - 1) s d) by (split; [exact Hf|]; split; [reflexivity|]; split; [apply Rle_refl|exact Hd]).
  destruct (mw_to_mwss_near A u eta HA Hu S L spin eps HL He f e s d HS HS2 HE R) as (g & e2 & E1 & E2 & R2).
  destruct (upsample_near A u eta HA Hu S L spin eps HL He g e2 _ _ HS2 HS4 R2) as (h & e3 & E3 & E4 & R3).
  destruct (C16_lemma numpy L spin F e HL HF He1) as (e2' & E2' & Sa2). rewrite E2 in E2'. injection E2' as <-.
  destruct (C17_lemma numpy L spin F e2 HL HF Sa2) as (e3' & E3' & Sa3). rewrite E4 in E3'. injection E3' as <-.
  exists g, h. split; [exact E1|]. split; [exact E3|]. destruct R2 as (G1 & _ & _ & D2). destruct R3 as (G2 & _ & _ & D3). split; [exact G1|]. split; [exact G2|].
  assert (s0 : 0 <= s) by apply map_nonneg. assert (d0 : 0 <= d) by (eapply Rle_trans; [apply map_nonneg|exact Hd]).
  assert (u0 := rd_u _ _ _ HA). assert (e0 := rd_eta _ _ _ HA).
  assert (ES : 0 <= eps * s) by (apply Rmult_le_pos; lra). assert (US : 0 <= u * s) by (now apply Rmult_le_pos).
  assert (Q1 : 1 <= sqrt (IZR (2 * L - 1))) by (rewrite <- sqrt_1; apply sqrt_le_1_alt, IZR_le; lia).
  assert (L0 : 0 <= IZR L * eta) by (apply Rmult_le_pos; [apply IZR_le; lia|exact e0]).
  assert (LQ : IZR L * eta <= IZR L * (sqrt (IZR (2 * L - 1)) * eta)).
  { replace (IZR L * (sqrt (IZR (2 * L - 1)) * eta)) with (sqrt (IZR (2 * L - 1)) * (IZR L * eta)) by ring.
    rewrite <- (Rmult_1_l (IZR L * eta)) at 1. now apply Rmult_le_compat_r. }
  split.
  - eapply Rle_trans; [|eapply Rle_trans; [exact D2|]]; [|lra]. right. apply map_ext. intros t p Ht Hp. f_equal. unfold at2. f_equal. symmetry. now apply Sa2.
  - eapply Rle_trans; [|eapply Rle_trans; [exact D3|]]; [|lra]. right. apply map_ext. intros t p Ht Hp. f_equal. unfold at2. f_equal. symmetry. now apply Sa3.
Qed.
Print Assumptions C71_signal.
Example C71_signal_ex : band_limited 2 1 (synth 2 1 (fun l m => if (m =? 0)%Z then Ci else RtoC 3)) /\
  let F := synth 2 1 (fun l m => if (m =? 0)%Z then Ci else RtoC 3) in
  let f := mat 2 3 (fun t p => F (mw_theta 2 t) (mw_phi 2 p)) in
  shape f = [2; 2 * 2 - 1]%Z /\ l2_map 2 (2 * 2 - 1) (fun t p => get f [t; p] - F (mw_theta 2 t) (mw_phi 2 p))%C <= 0.
Proof.
  split; [apply synth_band_limited|]. cbv zeta. split; [reflexivity|]. rewrite (map_ext _ _ _ (fun _ _ => RtoC 0 * RtoC 0)%C).
  - rewrite map_nn, nn_scal, Cmod_0. lra.
  - intros t p _ _. cbn [get mat nth]. ring.
Qed.

(** Without rounding and with exact Fourier transforms both steps return the samples themselves. *)
Theorem C71_exact : forall L spin f F, (1 <= L)%Z -> band_limited L spin F -> sampled f L (2 * L - 1) (mw_theta L) (mw_phi L) F ->
  exists g h, rs_mw_to_mwss exact_arith exact_rffts f L spin = Ok g /\ rs_upsample exact_arith exact_rffts g L spin = Ok h /\
    sampled g (L + 1) (2 * L) (mwss_theta L) (mwss_phi L) F /\ sampled h (2 * L + 1) (2 * L) (mwss_theta (2 * L)) (mwss_phi L) F.
Proof.
  assert (Z0 : forall n m (a b : Z -> Z -> C), l2_map n m (fun t p => a t p - b t p)%C <= 0 -> forall t p, (0 <= t < n)%Z -> (0 <= p < m)%Z -> a t p = b t p).
  { intros n m a b H t p Ht Hp. assert (N := map_nonneg n m (fun t p => a t p - b t p)%C). assert (Q : l2_map n m (fun t p => a t p - b t p)%C = 0) by lra.
    assert (P : nn [(t, p)] (fun q => a (fst q) (snd q) - b (fst q) (snd q))%C <= 0).
    { rewrite map_nn in Q. rewrite <- Q. unfold nn. apply sqrt_le_1_alt. assert (I : In (t, p) (cells n m)) by (now apply in_cells).
      apply in_split in I. destruct I as (l1 & l2 & ->). rewrite !rs_app. assert (P1 := sq_nonneg l1 (fun q => a (fst q) (snd q) - b (fst q) (snd q))%C).
      assert (P2 := sq_nonneg l2 (fun q => a (fst q) (snd q) - b (fst q) (snd q))%C). change ((t, p) :: l2) with ([(t, p)] ++ l2)%list. rewrite rs_app. lra. }
    assert (P0 := nn_nonneg [(t, p)] (fun q => a (fst q) (snd q) - b (fst q) (snd q))%C). assert (P3 := nn_sq [(t, p)] (fun q => a (fst q) (snd q) - b (fst q) (snd q))%C).
    replace (nn [(t, p)] (fun q => a (fst q) (snd q) - b (fst q) (snd q))%C) with 0 in P3 by lra. cbn [suml fst snd fold_right map] in P3.
    set (z := (a t p - b t p)%C) in *. assert (Cmod z = 0). { pose proof (Cmod_ge_0 z). nra. }
    apply Cmod_eq_0 in H0. unfold z in H0. replace (a t p) with (a t p - b t p + b t p)%C by ring. rewrite H0. ring. }
  intros L spin f F HL HF [Hf Hs].
  destruct (C71_signal exact_arith 0 0 exact_rffts L spin 0 f F 0 exact_rounded) as (g & h & E1 & E2 & S1 & S2 & D1 & D2); try assumption; try lra; try (apply exact_transforms; (lia || lra)).
  { rewrite (map_ext _ _ _ (fun _ _ => RtoC 0 * RtoC 0)%C); [rewrite map_nn, nn_scal, Cmod_0; lra|]. intros t p Ht Hp. rewrite Hs by assumption. ring. }
  exists g, h. split; [exact E1|]. split; [exact E2|]. split; (split; [assumption|]); intros t p Ht Hp.
  - apply (Z0 (L + 1)%Z (2 * L)%Z (fun t p => get g [t; p]) (fun t p => F (mwss_theta L t) (mwss_phi L p))); [lra|assumption|assumption].
  - apply (Z0 (2 * L + 1)%Z (2 * L)%Z (fun t p => get h [t; p]) (fun t p => F (mwss_theta (2 * L) t) (mwss_phi L p))); [lra|assumption|assumption].
Qed.
Print Assumptions C71_exact.
Example C71_exact_ex : let F := synth 3 (-1) (fun l m => RtoC (IZR (l * m))) in band_limited 3 (-1) F /\
  sampled (mat 3 5 (fun t p => F (mw_theta 3 t) (mw_phi 3 p))) 3 (2 * 3 - 1) (mw_theta 3) (mw_phi 3) F.
Proof. cbv zeta. split; [apply synth_band_limited|split; reflexivity]. Qed.

(** Binary64 with Fourier transforms of relative accuracy 1e-14, for every band-limit up to a
    million: a map on the mw grid reaches the doubled mwss grid with a relative error of at most
    7.6e-13, plus ten times its own distance to a band-limited signal. *)
Theorem C71_binary64 : forall S L spin f F d, (1 <= L)%Z -> (L <= 2 ^ 20)%Z ->
  transforms_accurate S (2 * L - 1) (/ 10 ^ 14) -> transforms_accurate S (2 * L) (/ 10 ^ 14) -> transforms_accurate S (4 * L) (/ 10 ^ 14) ->
  band_limited L spin F -> shape f = [L; 2 * L - 1]%Z ->
  l2_map L (2 * L - 1) (fun t p => get f [t; p] - F (mw_theta L t) (mw_phi L p))%C <= d ->
  exists g h, rs_mw_to_mwss binary64 S f L spin = Ok g /\ rs_upsample binary64 S g L spin = Ok h /\ shape h = [2 * L + 1; 2 * L]%Z /\
    l2_map (2 * L + 1) (2 * L) (fun t p => get h [t; p] - F (mwss_theta (2 * L) t) (mwss_phi L p))%C <=
      10 * d + 76 / 10 ^ 14 * l2_map L (2 * L - 1) (fun t p => F (mw_theta L t) (mw_phi L p)) + / 10 ^ 300.
Proof.
  intros S L spin f F d HL HL2 HS HS2 HS4 HF Hf Hd. assert (H1 : 1 <= IZR L) by (apply IZR_le; lia). assert (H2 : IZR L <= IZR (2 ^ 20)) by (now apply IZR_le).
  assert (E0 : 0 <= eta64) by apply bpow_ge_0.
  destruct (C71_signal binary64 u64 eta64 S L spin (/ 10 ^ 14) f F d binary64_rounded) as (g & h & E1 & E2 & _ & Sh & _ & D); try assumption.
  - rewrite u64_value. cbn. lra.
  - eapply Rle_trans; [|apply (eta64_tiny 22); lia]. apply Rmult_le_compat_r; [exact E0|]. change (2 ^ 22)%Z with (4 * 2 ^ 20)%Z. rewrite (mult_IZR 4). lra.
  - cbn. lra.
  - exists g, h. repeat (split; [assumption|]). eapply Rle_trans; [exact D|]. apply Rplus_le_compat; [apply Rplus_le_compat_l, Rmult_le_compat_r|].
    + apply map_nonneg.
    + rewrite u64_value. cbn. lra.
    + assert (Q : sqrt (IZR (2 * L - 1)) <= IZR (2 ^ 21)).
      { rewrite <- (sqrt_square (IZR (2 ^ 21))) by (apply IZR_le; lia). apply sqrt_le_1_alt. rewrite <- mult_IZR. apply IZR_le. lia. }
      assert (Q0 := sqrt_pos (IZR (2 * L - 1))). assert (LQ : IZR L * sqrt (IZR (2 * L - 1)) <= IZR (2 ^ 20) * IZR (2 ^ 21)) by (apply Rmult_le_compat; lra).
      apply Rle_trans with (IZR (2 ^ 49) * eta64).
      * apply Rmult_le_compat_r; [exact E0|]. change (2 ^ 49)%Z with (256 * (2 ^ 20 * 2 ^ 21))%Z. rewrite (mult_IZR 256), (mult_IZR (2 ^ 20)).
        assert (0 <= IZR (2 ^ 20) * IZR (2 ^ 21)) by (rewrite <- mult_IZR; apply IZR_le; lia). lra.
      * unfold eta64. change (IZR (2 ^ 49)) with (bpow radix2 49). rewrite <- bpow_plus. change (49 + -1075)%Z with (- (1026))%Z. rewrite bpow_opp.
        apply Rinv_le_contravar; [apply pow_lt; lra|]. rewrite <- (IZR_Zpower radix2) by lia. rewrite pow_IZR. apply IZR_le. vm_compute. discriminate.
Qed.
Print Assumptions C71_binary64.
Example C71_binary64_ex : (256 <= 2 ^ 20)%Z /\ transforms_accurate exact_rffts (2 * 256 - 1) (/ 10 ^ 14) /\ transforms_accurate exact_rffts (4 * 256) (/ 10 ^ 14).
Proof. assert (0 <= / 10 ^ 14) by (left; apply Rinv_0_lt_compat; cbn; lra). split; [lia|]. split; apply exact_transforms; auto; lia. Qed.
