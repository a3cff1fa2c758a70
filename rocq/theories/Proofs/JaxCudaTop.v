(** The transforms through the primitive. *)
From Coq Require Import Reals ZifyBool Lra.
From Coquelicot Require Import Complex.
From Verif Require Import Lib.Py Lib.PyFacts Lib.Vec Lib.VecFacts Lib.Sums Lib.Cplx Lib.Arr Lib.ArrFacts Lib.MatFacts Lib.Ext Lib.ExtFacts
  Model.Index Model.Samples Model.Grids Model.FFT Model.HealpixFFT Model.Turok Model.Risbo Model.Resampling Model.Quadrature
  Model.Spherical Model.Precompute Model.PriceMcEwen Model.OTF Model.OTFSpherical Model.Cuda Model.JaxCuda
  Spec.SamplesSpec Spec.WignerSpec Spec.SphereSpec Spec.GridSpec Spec.HealpixFFTSpec Spec.SphericalSpec Spec.OTFSpec Spec.OTFSphericalSpec Spec.CudaSpec Spec.JaxCudaSpec
  Proofs.SamplesProofs Proofs.GridProofs Proofs.TurokProofs Proofs.HealpixDFTProofs Proofs.SphGrid Proofs.SphInverse Proofs.SphTop Proofs.SphForward Proofs.SphForwardTop
  Proofs.SphFacts Proofs.PrecomputeSph Proofs.PMPre Proofs.OTFProofs Proofs.OTFTop Proofs.OTFSphInverse Proofs.OTFSphForward Proofs.OTFSphNear Proofs.OTFSphTop
  Proofs.JaxCudaProofs
  Spec.CallSpec.
From Coq Require Import List.
Import ListNotations.
Open Scope string_scope.
Open Scope Z_scope.

(** ** Inverse *)
Section CInv.
  Variables (th : theta_fn) (flm : ndarray C) (L spin nside : Z) (reality : bool) (Lo : Z) (beta : vec R).
  Hypothesis HL : 2 <= L.
  Hypothesis HLo : 0 <= Lo <= L - 2.
  Hypothesis Hs : Z.abs spin < L.
  Hypothesis Hn : 1 <= nside.
  Hypothesis HnL : 2 * nside <= L.
  Hypothesis Hf : shape flm = [L; 2 * L - 1].
  Hypothesis Hz : spin_zero L spin flm.
  Hypothesis Hre : reality = true -> spin = 0.
  Hypothesis Hre0 : reality = true -> forall el, 0 <= el < L -> is_real (stored L flm el 0).
  Hypothesis Eth : th L "healpix" (Some nside) = Ok beta.
  Hypothesis Hb : vlen beta = 4 * nside - 1.
  Hypothesis Hu : forall t, 0 <= t < 4 * nside - 1 -> usable_ring HEALPIX (4 * nside - 1) L Lo spin (vat beta) t.
  Let x := ring_angle HEALPIX (4 * nside - 1) (vat beta).
  Let g := agrid HEALPIX L nside x.
  Let A := SphInverse.A flm L spin reality Lo g.
  Let HnH : HEALPIX = HEALPIX -> 1 <= nside /\ Some nside = Some nside /\ 2 * nside <= L.
  Proof. auto. Qed.

  Lemma rows_ok p : jax_precomps th L spin "healpix" (Some nside) false Lo beta p ->
    exists ftm, inverse_rows th flm L spin (Some nside) "healpix" reality p Lo = Ok ftm /\
      ftm_ok HEALPIX L nside (4 * nside - 1) false A ftm.
  Proof using All.
    intros HP. destruct (flm_norm flm L spin HEALPIX nside reality Lo HLo Hf Hz Hre Hre0) as (flm' & E1 & Hf' & Hz' & HM).
    unfold inverse_rows. rewrite Eth. cbn [bind]. rewrite E1. cbn [bind].
    destruct (inverse_step_jax th flm' L spin HEALPIX "healpix" nside (Some nside) reality Lo beta HL HLo Hs (denotes_name HEALPIX) (plain_scheme HEALPIX) ltac:(auto) Hf' Hz' p) as (a & -> & Ia); cbn [bind];
      [intros; discriminate|intros; discriminate|exact HP|].
    destruct (rows_lemma th flm L spin HEALPIX nside (Some nside) reality Lo beta HL HLo Hs HnH Hre Hre0 Eth Hb Hu flm' a (Z.abs spin) HM Ia (m1_abs spin)) as (b & c & -> & E3 & Hc). cbn [bind].
    change (l_offset "healpix") with 1. cbn [scheme_name mo_of] in E3. rewrite E3. cbn [bind].
    set (ftm := mscal _ c) in *. clearbody ftm.
    destruct (half_rows flm L spin HEALPIX nside reality Lo beta Hre Hre0 _ Hc) as (F & HF & HFv). clear Hc.
    assert (SYM : reality = true -> forall t m, 0 <= m < L -> A t (- m) = Cconj (A t m))
      by (intros; now apply (A_sym0 flm L spin HEALPIX nside reality Lo beta)).
    destruct (Sumbool.sumbool_of_bool reality) as [Hr|Hr]; rewrite Hr.
    - apply (mirror_ok HEALPIX L nside (4 * nside - 1) A ftm); [lia|lia|right|intros; apply SYM; auto].
      exists F. split; [exact HF|]. intros t Ht. destruct (HFv t Ht) as [Q1 Q2]. split; [exact Q1|]. intros m Hm. apply Q2; lia.
    - exists ftm. split; [reflexivity|]. exists F. split; [exact HF|]. intros t Ht. destruct (HFv t Ht) as [Q1 Q2]. split; [exact Q1|].
      intros m Hm Hm'. apply Q2; auto. intros; congruence.
  Qed.

  Lemma inverse_cuda_lemma p h compiled out0 : jax_precomps th L spin "healpix" (Some nside) false Lo beta p ->
    Forall call_ok h -> vlen out0 = 12 * (nside * nside) ->
    (exists w' r, inverse_jax_cuda th flm L spin (Some nside) "healpix" reality p Lo compiled (after h) out0 w' r) /\
    forall w' r, inverse_jax_cuda th flm L spin (Some nside) "healpix" reality p Lo compiled (after h) out0 w' r ->
      (exists h', Forall call_ok h' /\ w' = after h') /\
      exists f, r = Ok f /\ samples_at x HEALPIX L nside f (synth L spin (used_coefficients reality spin Lo (stored L flm))).
  Proof using All.
    intros HP Hh Ho. destruct (rows_ok p HP) as (ftm & E & FO). pose proof FO as (F & HF & _).
    unfold inverse_jax_cuda. change (is_hp "healpix") with true. cbv iota. rewrite E.
    destruct (ifft_cuda_ok Cplus (RtoC 0) fft_bwd ifft_fwd over_n over_sqrt_n irfft_fwd ifft_fwd_ext ifft_fwd_len h ftm F Complex128 L nside false compiled out0
      Hh Hn HnL HF Ho) as (ftm1 & f & EF & (w1 & ftm' & r1 & R) & U).
    split; [exists w1, r1, ftm'; exact R|]. intros w' r (ftm2 & R2). destruct (U _ _ _ R2) as (U1 & _ & a & -> & Ua). split; [exact U1|].
    exists a. split; [reflexivity|].
    destruct (numpy_synthesis HEALPIX L nside (Some nside) false A ftm x ltac:(lia) HnH FO ltac:(discriminate) numpy) as (f5 & E5 & Hf5).
    unfold pre_synthesis in E5. change (is_hp (scheme_name HEALPIX)) with true in E5. cbv iota in E5. cbn [need bind] in E5.
    unfold healpix_ifft in E5. replace (negb (2 * nside <=? L)) with false in E5 by lia. change (streq (backend_name numpy) "numpy") with true in E5. cbv iota in E5.
    rewrite EF in E5. cbn [bind] in E5. injection E5 as <-.
    pose proof (on_samples flm L spin HEALPIX nside reality Lo beta HLo Hre Hre0 _ Hf5) as [S1 S2].
    destruct Ua as [Ua1 Ua2]. split; [now rewrite Ua1|]. intros t q Ht Hq. rewrite Ua2; [now apply S2|].
    rewrite Ua1, S1. cbn [map_shape sample_index in_shape]. cbn [rings] in Ht. cbn [ring_size] in Hq. pose proof (CudaKernelProofs.ring_start_bounds nside t Hn Ht). lia.
  Qed.
End CInv.

(** ** Forward *)

Lemma fta_ok_eq s L nside g f reality a b : fta_ok s L nside g f false a -> arr_eq b a -> fta_ok s L nside g f reality b.
Proof.
  intros [S1 S2] [E1 E2]. split; [now rewrite E1|]. intros t m Ht Hm _. rewrite <- S2 by (auto; discriminate). f_equal.
  unfold at2. apply E2. rewrite E1, S1. cbn [in_shape]. unfold orders. destruct s; cbn [mo_of] in *; lia.
Qed.

Lemma forward_rest_ok gl th f L spin nside reality Lo beta p a w x :
  cuda_forward_call th f L spin nside reality Lo beta p -> quad_weights_transform gl L "healpix" 0 (Some nside) = Ok w -> vlen w = 4 * nside - 1 ->
  fta_ok HEALPIX L nside (hp_grid nside x) f reality a ->
  exists flm, forward_rest th a beta w L spin (Some nside) "healpix" reality p Lo = Ok flm /\
    holds_coefficients L flm (fun el m => if Z.max Lo (Z.abs spin) <=? el then
      analysis_sum HEALPIX L nside spin (vat w) (vat beta) (fun t q => get f (sample_index HEALPIX nside t q)) el m else RtoC 0).
Proof.
  intros (HL & HLo & Hs & H8 & Hn & HnL & Hf & Hre & HR & Eth & Hb & Hu & HP) Ew Lw [SA VA].
  set (g := hp_grid nside (vat beta)). set (v := fun t q => get f (sample_index HEALPIX nside t q)).
  cbn [hp_grid gn] in SA, VA. assert (M1 := is_mat_self a _ _ SA).
  destruct (weigh_ok a _ _ _ w M1 Lw) as (ftm2 & EW & M2).
  destruct (shift_rings_ok HEALPIX L nside (Some nside) reality ftm2 _ ltac:(lia) ltac:(auto) true (4 * nside - 1) ltac:(reflexivity) M2) as (ftm & ES & M3).
  assert (HV : forall t m, 0 <= t < gn g -> - L < m < L -> (reality = true -> 0 <= m) ->
    get ftm [t; m + L - 1 + shift_of HEALPIX] = (RtoC (vat w t) * csum (zrange 0 (gN g t)) (fun p => cis (- (IZR m * gph g t p)) * v t p))%C).
  { intros t m Ht Hm Hr. cbn [g hp_grid gn] in Ht. change (shift_of HEALPIX) with 1.
    change (get ftm [t; m + L - 1 + 1]) with (at2 ftm t (m + L - 1 + 1)). rewrite (proj2 M3) by (cbn [orders] in *; lia). cbn [mo_of].
    assert (Hms : (if reality then L - 1 else 0) + 1 <=? m + L - 1 + 1 = true) by (destruct reality; [specialize (Hr eq_refl)|]; lia).
    rewrite Hms. replace (m + L - 1 + 1 - 1 - (L - 1)) with m by lia.
    transitivity (RtoC (vat w t) * (at2 a t (m + L - 1 + mo_of HEALPIX) * Cconj (phase_of HEALPIX nside t m)))%C; [cbn [mo_of]; ring|]. f_equal.
    rewrite VA by auto. reflexivity. }
  destruct (forward_step_jax th ftm L spin HEALPIX "healpix" (Some nside) reality Lo beta HL HLo Hs (denotes_name HEALPIX) (plain_scheme HEALPIX)
    ltac:(rewrite Hb, <- orders_shift; exact (proj1 M3)) ltac:(unfold r0, r1; lia) p) as (b & Eb & Ib); [exact HP|lia|rewrite Hb; exact Hu|].
  assert (Hgn : gn g = vlen beta) by (rewrite Hb; reflexivity).
  assert (Hgth : forall t, gth g t = ring_angle HEALPIX (vlen beta) (vat beta) t) by reflexivity.
  assert (Hrv : reality = true -> forall t q, in_grid g t q -> is_real (v t q)).
  { intros Hr t q [Ht Hq]. apply (HR Hr). cbn [g hp_grid gn gN] in Ht, Hq.
    pose proof (CudaKernelProofs.ring_start_bounds nside t Hn Ht). lia. }
  destruct (finish_ok HEALPIX L spin reality Lo beta ftm g w v HL HLo Hre Hgn Hgth HV Hrv
     b (Z.abs spin) (Z.abs spin) Ib ltac:(auto) (m1_abs spin)) as (flm & EF & HF).
  exists flm. split; [|exact HF]. unfold forward_rest. change (m_offset "healpix") with 1. rewrite EW. cbn [bind]. cbn [scheme_name mo_of] in ES. rewrite ES. cbn [bind].
  rewrite Eb. cbn [bind]. exact EF.
Qed.

Lemma hp_weights gl L nside : 1 <= nside -> 1 <= L -> exists w, quad_weights_transform gl L "healpix" 0 (Some nside) = Ok w /\ vlen w = 4 * nside - 1.
Proof.
  intros Hn HL. destruct (weights_ok gl "healpix" HEALPIX L nside (Some nside) (denotes_name HEALPIX) ltac:(lia) ltac:(auto) ltac:(discriminate)) as (w & Ew & Lw).
  exists w. split; [exact Ew|]. rewrite Lw. reflexivity.
Qed.

Lemma forward_cuda_lemma gl th f d L spin nside reality Lo beta p h compiled out0 :
  cuda_forward_call th f L spin nside reality Lo beta p -> Forall call_ok h -> vlen out0 = (4 * nside - 1) * (2 * L) ->
  (exists w' f' r, forward_jax_cuda gl th f d L spin (Some nside) "healpix" reality p Lo compiled (after h) out0 w' f' r) /\
  forall w' f' r, forward_jax_cuda gl th f d L spin (Some nside) "healpix" reality p Lo compiled (after h) out0 w' f' r ->
    (exists h', Forall call_ok h' /\ w' = after h') /\
    (if is_complex d then shape f' = shape f /\ overwritten fft_bwd nside (to_vec f) (to_vec f') else f' = f) /\
    exists w flm, quad_weights_transform gl L "healpix" 0 (Some nside) = Ok w /\ r = Ok flm /\
      holds_coefficients L flm (fun el m => if Z.max Lo (Z.abs spin) <=? el then
        analysis_sum HEALPIX L nside spin (vat w) (vat beta) (fun t q => get f (sample_index HEALPIX nside t q)) el m else RtoC 0).
Proof.
  intros HC Hh Ho. pose proof HC as (HL & HLo & Hs & H8 & Hn & HnL & Hf & Hre & HR & Eth & Hb & Hu & HP).
  destruct (hp_weights gl L nside Hn ltac:(lia)) as (w & Ew & Lw).
  unfold forward_jax_cuda. change (is_hp "healpix") with true. cbv iota.
  rewrite Eth. cbn [bind]. rewrite Ew. cbn [need bind].
  destruct (fft_cuda_ok Cplus (RtoC 0) fft_bwd ifft_fwd over_n over_sqrt_n rfft_bwd fft_bwd_ext fft_bwd_len h f d L nside reality compiled out0 Hh Hn HnL Hf Ho)
    as (ftm & EF & (w1 & f1 & r1 & R) & U).
  destruct (otf_hp_analysis numpy L nside false f (vat beta) ltac:(lia) Hn ltac:(discriminate) HnL Hf ltac:(discriminate)) as (ftn & EA & FA).
  unfold otf_analysis in EA. change (is_hp "healpix") with true in EA. cbv iota in EA. cbn [need bind] in EA. unfold healpix_fft in EA.
  change (streq (backend_name numpy) "numpy") with true in EA. cbv iota in EA. rewrite EF in EA. cbn [bind] in EA. injection EA as <-.
  split; [exists w1, f1; eexists; exists r1; split; [exact R|reflexivity]|].
  intros w' f' r (r2 & R2 & ->). destruct (U _ _ _ R2) as (U1 & U2 & a & -> & Ua). split; [exact U1|]. split; [exact U2|].
  cbn [bind]. destruct (forward_rest_ok gl th f L spin nside reality Lo beta p a w (vat beta) HC Ew Lw (fta_ok_eq _ _ _ _ _ _ _ _ FA Ua)) as (flm & E & HF).
  exists w, flm. auto.
Qed.

Lemma forward_cuda_call gl th f d L spin nside reality Lo beta p h compiled out0 iter :
  cuda_forward_call th f L spin nside reality Lo beta p -> Forall call_ok h -> vlen out0 = (4 * nside - 1) * (2 * L) ->
  (iter = None \/ exists k, iter = Some k /\ k <= 0) ->
  (exists w' f' r, otf_forward_cuda gl th f d L spin (Some nside) "healpix" reality p Lo iter compiled (after h) out0 w' f' r) /\
  forall w' f' r, otf_forward_cuda gl th f d L spin (Some nside) "healpix" reality p Lo iter compiled (after h) out0 w' f' r ->
    (exists h', Forall call_ok h' /\ w' = after h') /\
    (if is_complex d then shape f' = shape f /\ overwritten fft_bwd nside (to_vec f) (to_vec f') else f' = f) /\
    exists w flm, quad_weights_transform gl L "healpix" 0 (Some nside) = Ok w /\ r = Ok flm /\
      holds_coefficients L flm (fun el m => if Z.max Lo (Z.abs spin) <=? el then
        analysis_sum HEALPIX L nside spin (vat w) (vat beta) (fun t q => get f (sample_index HEALPIX nside t q)) el m else RtoC 0).
Proof.
  intros HC Hh Ho Hi. pose proof HC as (_ & _ & _ & H8 & _).
  unfold otf_forward_cuda. replace (8 <=? spin) with false by lia. cbv zeta.
  replace (0 <? match iter with Some n => n | None => 0 end) with false by (destruct Hi as [->|(k & -> & Hk)]; lia).
  exact (forward_cuda_lemma gl th f d L spin nside reality Lo beta p h compiled out0 HC Hh Ho).
Qed.

Lemma inverse_cuda_call th flm L spin nside reality Lo beta p h compiled out0 :
  inverse_call th flm L spin HEALPIX nside (Some nside) reality Lo beta "jax" p -> Forall call_ok h -> vlen out0 = 12 * (nside * nside) ->
  (exists w' r, otf_inverse_cuda th flm L spin (Some nside) "healpix" reality p Lo compiled (after h) out0 w' r) /\
  forall w' r, otf_inverse_cuda th flm L spin (Some nside) "healpix" reality p Lo compiled (after h) out0 w' r ->
    (exists h', Forall call_ok h' /\ w' = after h') /\
    exists f, r = Ok f /\ samples_at (vat beta) HEALPIX L nside f (synth L spin (used_coefficients reality spin Lo (stored L flm))).
Proof.
  intros (H1 & H2 & H3 & H4 & H5 & H6 & H7 & H8 & H9 & H10 & H11 & H12 & H13 & H14) Hh Ho. destruct (H5 eq_refl) as (N1 & _ & N2).
  unfold otf_inverse_cuda. replace (8 <=? spin) with false by lia. apply inverse_cuda_lemma; auto.
Qed.
