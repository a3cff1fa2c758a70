(** Iterative refinement on the device. *)
From Coq Require Import Reals ZifyBool Lra.
From Coquelicot Require Import Complex.
From Verif Require Import Lib.Py Lib.PyFacts Lib.Vec Lib.VecFacts Lib.Sums Lib.Cplx Lib.Arr Lib.ArrFacts Lib.MatFacts Lib.Ext Lib.ExtFacts
  Model.Index Model.Samples Model.Grids Model.FFT Model.HealpixFFT Model.Turok Model.Risbo Model.Resampling Model.Quadrature
  Model.Spherical Model.Precompute Model.Refine Model.PriceMcEwen Model.OTF Model.OTFSpherical Model.Cuda Model.JaxCuda
  Spec.SamplesSpec Spec.WignerSpec Spec.SphereSpec Spec.GridSpec Spec.HealpixFFTSpec Spec.SphericalSpec Spec.OTFSpec Spec.OTFSphericalSpec Spec.RefineSpec Spec.CudaSpec Spec.JaxCudaSpec
  Proofs.SamplesProofs Proofs.GridProofs Proofs.TurokProofs Proofs.HealpixDFTProofs Proofs.SphGrid Proofs.SphInverse Proofs.SphTop Proofs.SphForward Proofs.SphForwardTop
  Proofs.SphFacts Proofs.SphRefuted Proofs.SphMore Proofs.PrecomputeSph Proofs.PMPre Proofs.OTFProofs Proofs.OTFTop Proofs.OTFSphInverse Proofs.OTFSphForward Proofs.OTFSphNear Proofs.OTFSphTop
  Proofs.RefineProofs Proofs.WignerInverse Proofs.OTFSphMore Proofs.JaxCudaProofs Proofs.JaxCudaTop
  Spec.CallSpec.
From Coq Require Import List.
Import ListNotations.
Open Scope string_scope.
Open Scope Z_scope.

Lemma lowering_total d L nside reality (forward : bool) w : exists x, lowering (promote_complex d) L nside reality (if forward then "forward" else "backward") (if forward then "backward" else "forward") w = Ok x.
Proof. destruct d, forward; eexists; reflexivity. Qed.

(** The buffers of a run have the size of the result. *)
Lemma fft_buffer f d L nside reality compiled w out0 w' f' r : shape f = [12 * (nside * nside)] ->
  device_fft f d L nside reality compiled w out0 w' f' r -> vlen out0 = (4 * nside - 1) * (2 * L).
Proof.
  intros Sf. unfold device_fft, healpix_fft_on_device, healpix_fft_cuda, device_call, bind_primitive, abstract_eval.
  change (streq "forward" "forward") with true. cbv iota.
  replace (zlist_eqb (shape f) [nside * nside * 12]) with true by (symmetry; apply zlist_eqb_spec; rewrite Sf; f_equal; lia). cbv iota.
  destruct (lowering_total d L nside reality true w) as ([desc wb] & E). cbv iota in E. rewrite E.
  intros (buf & (out & V & _) & _). rewrite V. cbn [fold_right]. lia.
Qed.
Lemma ifft_buffer f d L nside reality compiled w out0 w' f' r : shape f = [4 * nside - 1; 2 * L] -> 2 * nside <= L ->
  device_ifft f d L nside reality compiled w out0 w' f' r -> vlen out0 = 12 * (nside * nside).
Proof.
  intros Sf HL. unfold device_ifft, healpix_ifft_on_device. replace (negb (2 * nside <=? L)) with false by lia.
  unfold healpix_ifft_cuda, device_call, bind_primitive, abstract_eval.
  change (streq "backward" "forward") with false. change (streq "backward" "backward") with true. cbv iota.
  replace (zlist_eqb (shape f) [4 * nside - 1; 2 * L]) with true by (symmetry; apply zlist_eqb_spec; exact Sf). cbv iota.
  destruct (lowering_total d L nside reality false w) as ([desc wb] & E). cbv iota in E. rewrite E.
  intros (buf & (out & V & _) & _). rewrite V. cbn [fold_right]. lia.
Qed.

Section Refine.
  Variables (gl : gl_rule) (th : theta_fn) (L spin nside : Z) (reality : bool) (Lo : Z) (beta : vec R) (p : option pm_pre).
  Hypothesis HL : 2 <= L.
  Hypothesis HLo : 0 <= Lo <= L - 2.
  Hypothesis Hs : Z.abs spin < L.
  Hypothesis H8 : spin < 8.
  Hypothesis Hn : 1 <= nside.
  Hypothesis HnL : 2 * nside <= L.
  Hypothesis Hre : reality = true -> spin = 0.
  Hypothesis Eb : th L "healpix" (Some nside) = Ok beta.
  Hypothesis Lb : vlen beta = 4 * nside - 1.
  Hypothesis Ub : forall t, 0 <= t < 4 * nside - 1 -> usable_ring HEALPIX (4 * nside - 1) L Lo spin (vat beta) t.
  Hypothesis HP : jax_precomps th L spin "healpix" (Some nside) true Lo beta p.

  Let P := otf_maps HEALPIX L nside reality.
  Let Q := otf_coefficients L spin reality.
  Let F := fun g => otf_forward gl th g L spin (Some nside) "healpix" "numpy" reality None Lo None.
  Let B := fun flm => otf_inverse th flm L spin (Some nside) "healpix" "numpy" reality None Lo.
  Let reach (w : world) := exists h, Forall call_ok h /\ w = after h.

  Let HnH : HEALPIX = HEALPIX -> 1 <= nside /\ Some nside = Some nside /\ 2 * nside <= L.
  Proof. auto. Qed.
  Let Ub' : forall t, 0 <= t < vlen beta -> usable_ring (forward_scheme HEALPIX) (vlen beta) L Lo spin (vat beta) t.
  Proof. rewrite Lb. exact Ub. Qed.
  Let HPn : method_precomps "numpy" th L spin HEALPIX (Some nside) true Lo (inner_angles (forward_scheme HEALPIX) beta) None.
  Proof. unfold method_precomps. change (streq "numpy" "numpy") with true. cbv iota. split; [exact Eb|now left]. Qed.

  Lemma dev_LF : linear_map P Q F.
  Proof using HL HLo Hs H8 Hn HnL Hre Eb Lb Ub.
    apply (maps_linear gl th L spin HEALPIX nside (Some nside) reality Lo beta "numpy" None); auto; try discriminate; try congruence. now left.
  Qed.
  Lemma dev_LB : linear_map Q P B.
  Proof using HL HLo Hs H8 Hn HnL Hre Eb Lb Ub.
    apply (coefficients_linear th L spin HEALPIX nside (Some nside) reality Lo beta beta "numpy"); auto; try discriminate. now left.
  Qed.
  Lemma dev_call f : P f -> cuda_forward_call th f L spin nside reality Lo beta p.
  Proof using All.
    intros [S R]. unfold cuda_forward_call. repeat (split; [assumption|]). split; [|auto 10].
    intros Q1 i Hi. apply (R Q1). rewrite S. cbn [map_shape in_shape]. lia.
  Qed.

  Lemma dev_coef f a w : P f -> quad_weights_transform gl L "healpix" 0 (Some nside) = Ok w ->
    holds_coefficients L a (fun el m => if Z.max Lo (Z.abs spin) <=? el then
        analysis_sum HEALPIX L nside spin (vat w) (vat beta) (fun t q => get f (sample_index HEALPIX nside t q)) el m else RtoC 0) ->
    exists c, F f = Ok c /\ arr_eq a c.
  Proof using HL HLo Hs H8 Hn HnL Hre Eb Lb Ub.
    intros Pf Ew [Sa Ha].
    assert (C1 : forward_call gl th f L spin HEALPIX nside (Some nside) reality Lo beta "numpy" None None).
    { apply (maps_call gl th L spin HEALPIX nside (Some nside) reality Lo beta "numpy" None); auto; try discriminate; try congruence. now left. }
    destruct (forward_call_ok gl th f L spin HEALPIX nside (Some nside) reality Lo beta "numpy" None None C1) as (w0 & c & Ew0 & E & Sc & Hc).
    { intros Q1 Q2. apply real_values_gen; [lia|auto|intros Q3; discriminate Q3|apply C1|exact (proj2 Pf Q1)]. }
    change (scheme_name (fscheme HEALPIX)) with "healpix" in Ew0. assert (w0 = w) by congruence. subst w0.
    exists c. split; [exact E|]. split; [congruence|]. intros ix Hix. rewrite Sa in Hix.
    destruct ix as [|el [|j [|? ?]]]; try (cbn [in_shape] in Hix; tauto). cbn [in_shape] in Hix.
    specialize (Ha el (j - (L - 1)) ltac:(lia) ltac:(lia)). specialize (Hc el (j - (L - 1)) ltac:(lia) ltac:(lia)).
    unfold stored in Ha, Hc. replace (j - (L - 1) + L - 1) with j in Ha, Hc by lia. rewrite Ha, Hc. destruct (Z.max Lo (Z.abs spin) <=? el); [|reflexivity].
    unfold SphForwardTop.fsum, analysis_sum. cbn [ogrid agrid hp_grid gn gN gth gph rings ring_size].
    apply cr_ext. intros t Ht. f_equal. apply cr_ext. intros q Hq. f_equal. unfold uvals. destruct reality eqn:R; [|reflexivity].
    destruct Pf as [Sf Rf]. symmetry. apply real_Re. apply (Rf eq_refl). rewrite Sf. cbn [map_shape in_shape sample_index].
    pose proof (CudaKernelProofs.ring_start_bounds nside t Hn Ht). lia.
  Qed.

  Lemma dev_forward f f0 d h : P f0 -> arr_eq f f0 -> Forall call_ok h -> exists c, F f0 = Ok c /\
    (forall compiled, exists out0 w' f' r, forward_jax_cuda gl th f d L spin (Some nside) "healpix" reality p Lo compiled (after h) out0 w' f' r) /\
    forall compiled out0 w' f' r, forward_jax_cuda gl th f d L spin (Some nside) "healpix" reality p Lo compiled (after h) out0 w' f' r ->
      reach w' /\ (if is_complex d then shape f' = shape f /\ overwritten fft_bwd nside (to_vec f) (to_vec f') else f' = f) /\
      exists a, r = Ok a /\ arr_eq a c.
  Proof using All.
    intros P0 Ef Hh.
    assert (Pf : P f) by (apply (proj2 (otf_maps_space HEALPIX L nside reality) 1%R 0%R f0 f0); auto; apply same_comb; now apply arr_eq_sym).
    pose proof (dev_call f Pf) as HC. pose proof HC as (_ & _ & _ & _ & _ & _ & Sf & _).
    destruct (proj1 dev_LF f0 P0) as (c & Ec & _). exists c. split; [exact Ec|]. split.
    - intros compiled. exists (vconst ((4 * nside - 1) * (2 * L)) (RtoC 0)).
      exact (proj1 (forward_cuda_lemma gl th f d L spin nside reality Lo beta p h compiled (vconst ((4 * nside - 1) * (2 * L)) (RtoC 0)) HC Hh eq_refl)).
    - intros compiled out0 w' f' r Run.
      assert (Ho : vlen out0 = (4 * nside - 1) * (2 * L)).
      { pose proof Run as Run'. unfold forward_jax_cuda in Run'. change (is_hp "healpix") with true in Run'. cbv iota in Run'. rewrite Eb in Run'. cbn [bind] in Run'.
        destruct (hp_weights gl L nside Hn ltac:(lia)) as (w & Ew & _). rewrite Ew in Run'. cbn [need bind] in Run'.
        destruct Run' as (r1 & Run' & _). eapply fft_buffer; [exact Sf|exact Run']. }
      destruct (forward_cuda_lemma gl th f d L spin nside reality Lo beta p h compiled out0 HC Hh Ho) as [_ U].
      destruct (U _ _ _ Run) as (U1 & U2 & w & a & Ew & -> & Ha). split; [exact U1|]. split; [exact U2|]. exists a. split; [reflexivity|].
      destruct (dev_coef f a w Pf Ew Ha) as (c1 & E1 & A1).
      destruct (F_eq _ P Q F (otf_maps_space HEALPIX L nside reality) dev_LF f f0 c1 Pf Ef E1) as (c2 & E2 & A2).
      assert (c2 = c) by congruence. subst c2. eapply arr_eq_trans; eauto.
  Qed.

  Lemma dev_inverse y y0 h : Q y0 -> arr_eq y y0 -> Forall call_ok h -> exists b, B y0 = Ok b /\
    (exists compiled out0 w' r, inverse_jax_cuda th y L spin (Some nside) "healpix" reality None Lo compiled (after h) out0 w' r) /\
    forall compiled out0 w' r, inverse_jax_cuda th y L spin (Some nside) "healpix" reality None Lo compiled (after h) out0 w' r ->
      reach w' /\ exists a, r = Ok a /\ arr_eq a b.
  Proof using HL HLo Hs H8 Hn HnL Hre Eb Lb Ub.
    intros Q0 Ey Hh.
    assert (Qy : Q y) by (apply (proj2 (otf_coefficients_space L spin reality) 1%R 0%R y0 y0); auto; apply same_comb; now apply arr_eq_sym).
    destruct (proj1 dev_LB y0 Q0) as (b & E & _). exists b. split; [exact E|].
    assert (C1 : forall method, python_method method HEALPIX -> inverse_call th y L spin HEALPIX nside (Some nside) reality Lo beta method None).
    { intros method Hm. apply (coefficients_call th L spin HEALPIX nside (Some nside) reality Lo beta beta method); auto. }
    pose proof (C1 "numpy" ltac:(now left)) as Cn. pose proof (C1 "jax" ltac:(right; now left)) as Cj.
    assert (J : forall compiled out0 w' r, otf_inverse_cuda th y L spin (Some nside) "healpix" reality None Lo compiled (after h) out0 w' r
      <-> inverse_jax_cuda th y L spin (Some nside) "healpix" reality None Lo compiled (after h) out0 w' r).
    { intros. unfold otf_inverse_cuda. replace (8 <=? spin) with false by lia. reflexivity. }
    split.
    - destruct (inverse_cuda_call th y L spin nside reality Lo beta None h true (vconst (12 * (nside * nside)) (RtoC 0)) Cj Hh eq_refl) as [(w' & r & R) _].
      exists true. eexists. exists w', r. apply J. exact R.
    - intros compiled out0 w' r Run.
      assert (Ho : vlen out0 = 12 * (nside * nside)).
      { pose proof Run as Run'. unfold inverse_jax_cuda in Run'. change (is_hp "healpix") with true in Run'. cbv iota in Run'.
        destruct Cj as (K1 & K2 & K3 & K4 & K5 & K6 & K7 & K8 & K9 & K10 & K11 & K12 & K13 & K14).
        destruct (rows_ok th y L spin nside reality Lo beta HL HLo Hs Hn HnL K6 K7 Hre K9 Eb Lb Ub None) as (ftm & Er & FO); [now left|].
        rewrite Er in Run'. destruct FO as (G & HG & _). destruct Run' as (ftm' & Run'). eapply ifft_buffer; [|exact HnL|exact Run']. exact (proj1 HG). }
      destruct (inverse_cuda_call th y L spin nside reality Lo beta None h compiled out0 Cj Hh Ho) as [_ U].
      destruct (U w' r (proj2 (J _ _ _ _) Run)) as (U1 & a & -> & Ha). split; [exact U1|]. exists a. split; [reflexivity|].
      destruct (inverse_call_ok _ _ _ _ _ _ _ _ _ _ _ _ Cn) as (b1 & E1 & Hb1).
      destruct (B_eq _ P Q B (otf_coefficients_space L spin reality) dev_LB y y0 b1 Qy Ey E1) as (b2 & E2 & A2).
      assert (b2 = b) by congruence. subst b2. eapply arr_eq_trans; [|exact A2].
      apply (samples_same (vat beta) HEALPIX L nside a b1 _ _ ltac:(lia) ltac:(auto) Ha Hb1). reflexivity.
  Qed.

  Lemma asub_eq a b a' b' c : arr_eq a a' -> arr_eq b b' -> asub a' b' = Ok c -> exists e, asub a b = Ok e /\ arr_eq e c.
  Proof using.
    clear. intros [S1 G1] [S2 G2]. unfold asub. rewrite S1, S2. destruct (shape_is (shape a') (shape b')) eqn:E; [|discriminate]. intros H. injection H as <-.
    eexists. split; [reflexivity|]. split; [reflexivity|]. cbn [shape get]. intros ix Hix. rewrite G1 by congruence. rewrite G2; [reflexivity|].
    rewrite S2. apply WignerInverse.shape_is_eq in E. congruence.
  Qed.
  Lemma aadd_eq a b a' b' c : arr_eq a a' -> arr_eq b b' -> aadd a' b' = Ok c -> exists e, aadd a b = Ok e /\ arr_eq e c.
  Proof using.
    clear. intros [S1 G1] [S2 G2]. unfold aadd. rewrite S1, S2. destruct (shape_is (shape a') (shape b')) eqn:E; [|discriminate]. intros H. injection H as <-.
    eexists. split; [reflexivity|]. split; [reflexivity|]. cbn [shape get]. intros ix Hix. rewrite G1 by congruence. rewrite G2; [reflexivity|].
    rewrite S2. apply WignerInverse.shape_is_eq in E. congruence.
  Qed.

  Lemma refine_loop f f0 : P f0 -> arr_eq f f0 -> forall (l : list Z) y y0 h, Q y0 -> arr_eq y y0 -> Forall call_ok h ->
    exists z, foldM (fun flm (_ : Z) => refine_step f0 F B flm) l y0 = Ok z /\
    (exists w' r, refine_device gl th f L spin (Some nside) "healpix" reality p Lo (length l) y (after h) w' r) /\
    forall w' r, refine_device gl th f L spin (Some nside) "healpix" reality p Lo (length l) y (after h) w' r ->
      reach w' /\ exists a, r = Ok a /\ arr_eq a z.
  Proof using All.
    intros P0 Ef l. induction l as [|i l IH]; intros y y0 h Q0 Ey Hh.
    - exists y0. cbn [foldM length refine_device]. split; [reflexivity|]. split; [eauto|]. intros w' r [-> ->]. split; [exists h; auto|eauto].
    - destruct (step_ok _ _ P Q F B (otf_maps_space HEALPIX L nside reality) (otf_coefficients_space L spin reality) dev_LF dev_LB f0 y0 P0 Q0)
        as (b & e & d & y1 & Eb1 & Pb & De & Pe & Ed & Qd & Cy & Qy & ES).
      cbn [foldM length refine_device]. rewrite ES. cbn [bind].
      assert (ES' := ES). unfold refine_step in ES'. rewrite Eb1 in ES'. cbn [bind] in ES'.
      destruct (asub f0 b) as [e1|] eqn:Ee; cbn [bind] in ES'; [|discriminate]. destruct (F e1) as [d1|] eqn:Ed1; cbn [bind] in ES'; [|discriminate].
      assert (Pe1 : P e1).
      { apply (proj2 (otf_maps_space HEALPIX L nside reality) 1%R (-1)%R f0 b e1 P0 Pb). unfold asub in Ee. destruct (shape_is (shape f0) (shape b)) eqn:E; [|discriminate].
        injection Ee as <-. apply WignerInverse.shape_is_eq in E. split; [reflexivity|]. split; [cbn; congruence|]. intros ix _. cbn [get]. unfold Cminus. rewrite RtoC_m1. ring. }
      destruct (dev_inverse y y0 h Q0 Ey Hh) as (b' & Eb2 & (c1 & o1 & w1 & r1 & R1) & U1). assert (b' = b) by congruence. subst b'.
      assert (K : forall c1 o1 w1 r1, inverse_jax_cuda th y L spin (Some nside) "healpix" reality None Lo c1 (after h) o1 w1 r1 ->
        exists h1 e2, Forall call_ok h1 /\ w1 = after h1 /\ (let* f_recov := r1 in asub f f_recov) = Ok e2 /\ arr_eq e2 e1).
      { intros c0 o0 w0 r0 R0. destruct (U1 _ _ _ _ R0) as ((h1 & Hh1 & ->) & a & -> & Ha). cbn [bind].
        destruct (asub_eq f a f0 b e1 Ef Ha Ee) as (e2 & E2 & A2). exists h1, e2. auto. }
      assert (K2 : forall h1 e2 c2 o2 w2 e' r2, Forall call_ok h1 -> arr_eq e2 e1 ->
        forward_jax_cuda gl th e2 Complex128 L spin (Some nside) "healpix" reality p Lo c2 (after h1) o2 w2 e' r2 ->
        exists h2 y2, Forall call_ok h2 /\ w2 = after h2 /\ (let* d := r2 in aadd y d) = Ok y2 /\ arr_eq y2 y1).
      { intros h1 e2 c2 o2 w2 e' r2 Hh1 A2 R2. destruct (dev_forward e2 e1 Complex128 h1 Pe1 A2 Hh1) as (d2 & E2 & _ & U2). assert (d2 = d1) by congruence. subst d2.
        destruct (U2 _ _ _ _ _ R2) as ((h2 & Hh2 & ->) & _ & a & -> & Ha). cbn [bind]. destruct (aadd_eq y a y0 d1 y1 Ey Ha ES') as (y2 & E3 & A3). exists h2, y2. auto. }
      destruct (IH y1 y1 h Qy (arr_eq_refl _) Hh) as (z & Ez & _). exists z. split; [exact Ez|]. split.
      + destruct (K _ _ _ _ R1) as (h1 & e2 & Hh1 & -> & E2 & A2).
        destruct (dev_forward e2 e1 Complex128 h1 Pe1 A2 Hh1) as (_ & _ & X2 & _). destruct (X2 true) as (o2 & w2 & e' & r2 & R2).
        destruct (K2 _ _ _ _ _ _ _ Hh1 A2 R2) as (h2 & y2 & Hh2 & -> & E3 & A3).
        destruct (IH y2 y1 h2 Qy A3 Hh2) as (z' & _ & (w' & r & R3) & _).
        exists w', r, c1, o1, (after h1), r1. split; [exact R1|]. rewrite E2. exists true, o2, (after h2), e', r2. split; [exact R2|]. rewrite E3. exact R3.
      + intros w' r (c0 & o0 & w0 & r0 & R0 & R). destruct (K _ _ _ _ R0) as (h1 & e2 & Hh1 & -> & E2 & A2). rewrite E2 in R.
        destruct R as (c2 & o2 & w2 & e' & r2 & R2 & R). destruct (K2 _ _ _ _ _ _ _ Hh1 A2 R2) as (h2 & y2 & Hh2 & -> & E3 & A3). rewrite E3 in R.
        destruct (IH y2 y1 h2 Qy A3 Hh2) as (z' & Ez' & _ & U). assert (z' = z) by congruence. subst z'. apply U. exact R.
  Qed.

  (** What the caller's array holds decides: [g] is [f] for a real type and the overwritten map for a complex one. *)
  Lemma refine_cuda f d n h compiled out0 : P f -> 0 < n -> (is_complex d = true -> reality = false) -> Forall call_ok h -> vlen out0 = (4 * nside - 1) * (2 * L) ->
    exists y, F f = Ok y /\
    (exists w' f' r, otf_forward_cuda gl th f d L spin (Some nside) "healpix" reality p Lo (Some n) compiled (after h) out0 w' f' r) /\
    forall w' f' r, otf_forward_cuda gl th f d L spin (Some nside) "healpix" reality p Lo (Some n) compiled (after h) out0 w' f' r ->
      reach w' /\ (if is_complex d then shape f' = shape f /\ overwritten fft_bwd nside (to_vec f) (to_vec f') else f' = f) /\
      exists z a, foldM (fun flm _ => refine_step f' F B flm) (zrange 0 n) y = Ok z /\ r = Ok a /\ arr_eq a z.
  Proof using All.
    intros Pf Hn0 Hcr Hh Ho. unfold otf_forward_cuda. replace (8 <=? spin) with false by lia. cbv zeta. replace (0 <? n) with true by lia.
    replace (Z.to_nat n) with (length (zrange 0 n)) by (rewrite zrange_length; f_equal; lia).
    destruct (dev_forward f f d h Pf (arr_eq_refl _) Hh) as (c & Ec & _ & U). exists c. split; [exact Ec|].
    destruct (proj1 dev_LF f Pf) as (c' & Ec' & Qc). assert (c' = c) by congruence. subst c'.
    pose proof (dev_call f Pf) as HC.
    assert (G : forall f', (if is_complex d then shape f' = shape f /\ overwritten fft_bwd nside (to_vec f) (to_vec f') else f' = f) -> P f').
    { intros f' H. destruct (is_complex d) eqn:E; [|now subst f']. split; [rewrite (proj1 H); apply Pf|]. intros Hr. rewrite (Hcr eq_refl) in Hr. discriminate. }
    split.
    - destruct (proj1 (forward_cuda_lemma gl th f d L spin nside reality Lo beta p h compiled out0 HC Hh Ho)) as (w1 & f' & r1 & R1).
      destruct (U _ _ _ _ _ R1) as ((h1 & Hh1 & ->) & H & a & -> & Ha).
      destruct (refine_loop f' f' (G _ H) (arr_eq_refl _) (zrange 0 n) a c h1 Qc Ha Hh1) as (z & _ & (w' & r & R) & _).
      exists w', f', r, (after h1), (Ok a). auto.
    - intros w' f' r (w1 & r1 & R1 & R). destruct (U _ _ _ _ _ R1) as ((h1 & Hh1 & ->) & H & a & -> & Ha).
      destruct (refine_loop f' f' (G _ H) (arr_eq_refl _) (zrange 0 n) a c h1 Qc Ha Hh1) as (z & Ez & _ & V).
      destruct (V _ _ R) as (V1 & b & -> & Hb). split; [exact V1|]. split; [exact H|]. exists z, b. auto.
  Qed.
End Refine.

(** ** A complex map is overwritten before the residual is taken *)
Definition spike (nside : Z) : ndarray C := mkArr [12 * (nside * nside)] (fun ix => if nth 0 ix 0 =? 0 then RtoC 1 else RtoC 0).

Lemma spike_ring nside t q : 1 <= nside -> 0 <= t < 4 * nside - 1 -> 0 <= q < ring_length nside t ->
  get (spike nside) [ring_start (ring_length nside) t + q] = if (t =? 0) && (q =? 0) then RtoC 1 else RtoC 0.
Proof.
  intros Hn Ht Hq. cbn [spike get nth].
  replace (ring_start (ring_length nside) t + q =? 0) with ((t =? 0) && (q =? 0)); [reflexivity|].
  destruct (Z.eqb_spec t 0) as [->|H].
  - rewrite ring_start_0. cbn [andb]. reflexivity.
  - cbn [andb]. symmetry. apply Z.eqb_neq.
    pose proof (ring_start_mono (ring_length nside) 1 t ltac:(lia) ltac:(lia)) as M.
    pose proof (ring_length_pos nside 0 Hn ltac:(lia)). pose proof (ring_start_succ (ring_length nside) 0 ltac:(lia)) as S1. rewrite ring_start_0 in S1.
    change (0 + 1) with 1 in S1. assert (0 <= ring_length nside 0) by lia.
    specialize (M ltac:(intros i Hi; pose proof (ring_length_pos nside i Hn ltac:(lia)); lia)). lia.
Qed.

Lemma spike_overwritten nside f' : 1 <= nside -> overwritten fft_bwd nside (to_vec (spike nside)) (to_vec f') ->
  forall t q, 0 <= t < 4 * nside - 1 -> 0 <= q < ring_length nside t ->
    get f' [ring_start (ring_length nside) t + q] = if t =? 0 then RtoC 1 else RtoC 0.
Proof.
  intros Hn [_ H] t q Ht Hq. specialize (H t q Ht Hq). cbn [to_vec vat] in H. rewrite H. clear H. cbn [fft_bwd vat pixels_of_ring vlen].
  set (k := (q - _) mod _). transitivity (suml (RtoC 0) Cplus (zrange 0 (ring_length nside t)) (fun p => if p =? 0 then (if t =? 0 then RtoC 1 else RtoC 0) else RtoC 0)).
  - apply cr_ext. intros p Hp. pose proof (spike_ring nside t p Hn Ht Hp) as SR. cbn [to_vec vat]. rewrite SR. destruct (Z.eqb_spec p 0) as [->|].
    + rewrite andb_true_r, Z.mul_0_r, Z.opp_0, root_0. ring.
    + rewrite andb_false_r. ring.
  - apply (cr_delta 0 (ring_length nside t) 0 (fun _ => if t =? 0 then RtoC 1 else RtoC 0)). lia.
Qed.

Section Corrupts.
  Variables (gl : gl_rule) (th : theta_fn) (L nside : Z) (beta : vec R) (p : option pm_pre).
  Hypothesis HL : 2 <= L.
  Hypothesis Hn : 1 <= nside.
  Hypothesis HnL : 2 * nside <= L.
  Hypothesis Eb : th L "healpix" (Some nside) = Ok beta.
  Hypothesis Lb : vlen beta = 4 * nside - 1.
  Hypothesis Ub : forall t, 0 <= t < 4 * nside - 1 -> usable_ring HEALPIX (4 * nside - 1) L 0 0 (vat beta) t.
  Hypothesis HP : jax_precomps th L 0 "healpix" (Some nside) true 0 beta p.

  Let F := fun g => otf_forward gl th g L 0 (Some nside) "healpix" "numpy" false None 0 None.
  Let B := fun flm => otf_inverse th flm L 0 (Some nside) "healpix" "numpy" false None 0.
  Let P := otf_maps HEALPIX L nside false.
  Let Q := otf_coefficients L 0 false.
  Let LF : linear_map P Q F.
  Proof. apply (dev_LF gl th L 0 nside false 0 beta); auto; try lia. Qed.
  Let LB : linear_map Q P B.
  Proof. apply (dev_LB th L 0 nside false 0 beta); auto; try lia. Qed.

  Lemma dev_mean g c : P g -> F g = Ok c ->
    stored L c 0 0 = (RtoC (4 * PI / IZR (12 * nside ^ 2) * sqrt (1 / (4 * PI))) *
      suml (RtoC 0) Cplus (zrange 0 (4 * nside - 1)%Z) (fun t => suml (RtoC 0) Cplus (zrange 0 (ring_length nside t)) (fun q => get g [(ring_start (ring_length nside) t + q)%Z])))%C.
  Proof using HL Hn HnL Eb Lb Ub.
    intros Pg Ec. assert (NP : jax_precomps th L 0 "healpix" (Some nside) true 0 beta None) by now left.
    assert (HC : cuda_forward_call th g L 0 nside false 0 beta None) by (apply (dev_call gl th L 0 nside false 0 beta None); auto; lia).
    destruct (forward_cuda_lemma gl th g Float64 L 0 nside false 0 beta None [] true (vconst ((4 * nside - 1) * (2 * L)) (RtoC 0)) HC ltac:(constructor) eq_refl)
      as [(w' & f' & r & R) U]. destruct (U _ _ _ R) as (_ & _ & w & a & Ew & _ & Ha).
    assert (DC : exists c', F g = Ok c' /\ arr_eq a c') by (apply (dev_coef gl th L 0 nside false 0 beta) with (w := w); auto; lia). destruct DC as (c' & Ec' & A).
    assert (c' = c) by congruence. subst c'. destruct Ha as [Sa Ha]. specialize (Ha 0 0 ltac:(lia) ltac:(lia)).
    transitivity (stored L a 0 0). { unfold stored. symmetry. apply (proj2 A). rewrite Sa. cbn [in_shape]. lia. }
    rewrite Ha. change (Z.max 0 (Z.abs 0) <=? 0) with true. cbv iota.
    assert (Vw : forall t, vat w t = (4 * PI / IZR (12 * nside ^ 2))%R).
    { intros t. unfold quad_weights_transform in Ew. cbn in Ew. injection Ew as <-. reflexivity. }
    unfold analysis_sum. cbn [rings ring_size sample_index]. rewrite <- cs_scal_l. apply cr_ext. intros t Ht.
    rewrite Vw. change (- 0) with 0. rewrite wig_00. change (sgn 0) with 1%R. f_equal; [f_equal; change (2 * 0 + 1) with 1; ring|].
    apply cr_ext. intros q Hq. rewrite Rmult_0_l, Ropp_0, cis_0. ring.
  Qed.

  Lemma refine_corrupts d h compiled out0 : is_complex d = true -> Forall call_ok h -> vlen out0 = (4 * nside - 1) * (2 * L) ->
    (exists w' f' r, otf_forward_cuda gl th (spike nside) d L 0 (Some nside) "healpix" false p 0 (Some 1) compiled (after h) out0 w' f' r) /\
    forall w' f' r, otf_forward_cuda gl th (spike nside) d L 0 (Some nside) "healpix" false p 0 (Some 1) compiled (after h) out0 w' f' r ->
      exists a y, r = Ok a /\ otf_forward gl th (spike nside) L 0 (Some nside) "healpix" "numpy" false None 0 (Some 1) = Ok y /\
        stored L a 0 0 <> stored L y 0 0.
  Proof using All.
    intros Hd Hh Ho. assert (Pf : P (spike nside)) by (split; [reflexivity|discriminate]).
    pose proof (refine_cuda gl th L 0 nside false 0 beta p) as RC.
    destruct (fun a1 a2 a3 a4 a5 a6 a7 => RC a1 a2 a3 a4 a5 a6 a7 Eb Lb Ub HP (spike nside) d 1 h compiled out0 Pf) as (c & Ec & X & U); auto; try lia; try discriminate. clear RC. split; [exact X|].
    intros w' f' r R. destruct (U _ _ _ R) as (_ & Hf & z & a & Ez & -> & Aa). rewrite Hd in Hf. destruct Hf as [Sf Hf].
    assert (Pf' : P f') by (split; [rewrite Sf; reflexivity|discriminate]).
    destruct (proj1 LF _ Pf) as (c' & Ec' & Qc). assert (c' = c) by (unfold F in Ec'; congruence). subst c'.
    pose proof (otf_maps_space HEALPIX L nside false) as SP. pose proof (otf_coefficients_space L 0 false) as SQ.
    destruct (step_ok _ _ P Q F B SP SQ LF LB (spike nside) c Pf Qc) as (b & e & u & y & Eb1 & Pb & De & Pe & Eu & Qu & Cy & Qy & Sy).
    destruct (step_ok _ _ P Q F B SP SQ LF LB f' c Pf' Qc) as (b2 & e2 & u2 & y2 & Eb2 & Pb2 & De2 & Pe2 & Eu2 & Qu2 & Cy2 & Qy2 & Sy2).
    assert (b2 = b) by congruence. subst b2.
    exists a, y. split; [reflexivity|]. split.
    { change "healpix" with (scheme_name HEALPIX). rewrite otf_iter by (try lia; now left). unfold refine. change (scheme_name HEALPIX) with "healpix".
      change (F (spike nside)) with (F (spike nside)). fold F B. rewrite Ec. cbn [bind]. change (zrange 0 1) with [0]. cbn [foldM]. rewrite Sy. reflexivity. }
    change (zrange 0 1) with [0] in Ez. cbn [foldM] in Ez. fold F B in Ez. rewrite Sy2 in Ez. cbn [bind] in Ez. injection Ez as <-.
    set (g := mkArr [12 * (nside * nside)] (fun ix => (get f' ix - get (spike nside) ix)%C)).
    assert (Pg : P g) by (split; [reflexivity|discriminate]).
    assert (Cg : combination (RtoC 1) (RtoC (-1)) e2 e g).
    { destruct De as (D1 & D2 & D3). destruct De2 as (D4 & D5 & D6).
      assert (S1 : shape e = [12 * (nside * nside)]) by (rewrite <- D1; reflexivity). assert (S2 : shape e2 = [12 * (nside * nside)]) by (rewrite <- D4, Sf; reflexivity).
      split; [exact S2|]. split; [exact S1|]. intros ix Hix. change (shape g) with [12 * (nside * nside)] in Hix. rewrite D3, D6 by (rewrite ?S1, ?S2; exact Hix). cbn [g get]. rewrite RtoC_m1. ring. }
    destruct (proj2 LF 1%R (-1)%R e2 e g Pe2 Pe Pg Cg) as (u2' & u' & v & E1 & E2 & Ev & Cv).
    assert (u2' = u2) by congruence. assert (u' = u) by congruence. subst u' u2'.
    assert (SQ' : forall k, Q k -> shape k = [L; 2 * L - 1]) by (intros k Hk; apply Hk).
    assert (I0 : in_shape [L; 2 * L - 1] [0; 0 + L - 1]) by (cbn [in_shape]; lia).
    assert (V : stored L v 0 0 = (stored L y2 0 0 - stored L y 0 0)%C).
    { unfold stored. destruct Cv as (W1 & W2 & W3). destruct Cy as (Y1 & Y2 & Y3). destruct Cy2 as (Z1 & Z2 & Z3).
      rewrite W3 by (rewrite <- W1, (SQ' _ Qu2); exact I0). rewrite Y3 by (rewrite (SQ' _ Qy); exact I0). rewrite Z3 by (rewrite (SQ' _ Qy2); exact I0). rewrite RtoC_m1. ring. }
    intros EQ. assert (stored L a 0 0 = stored L y2 0 0) as EA by (unfold stored; apply (proj2 Aa); rewrite (proj1 Aa), (SQ' _ Qy2); exact I0).
    rewrite (dev_mean g v Pg Ev) in V. rewrite <- EA, EQ in V.
    assert (SUM : suml (RtoC 0) Cplus (zrange 0 (4 * nside - 1)) (fun t => suml (RtoC 0) Cplus (zrange 0 (ring_length nside t)) (fun q => get g [ring_start (ring_length nside) t + q])) = RtoC 3).
    { transitivity (suml (RtoC 0) Cplus (zrange 0 (4 * nside - 1)) (fun t => if t =? 0 then RtoC 3 else RtoC 0)); [|apply (cr_delta 0 (4 * nside - 1) 0 (fun _ => RtoC 3)); lia].
      apply cr_ext. intros t Ht.
      assert (GV : forall q, 0 <= q < ring_length nside t -> get g [ring_start (ring_length nside) t + q] = if (t =? 0) && (1 <=? q) then RtoC 1 else RtoC 0).
      { intros q Hq. cbn [g get]. rewrite (spike_overwritten nside f' Hn Hf t q Ht Hq), (spike_ring nside t q Hn Ht Hq).
        destruct (t =? 0); cbn [andb]; [|ring]. destruct (Z.eqb_spec q 0); [|replace (1 <=? q) with true by lia; ring]. subst q. change (1 <=? 0) with false. cbv iota. ring. }
      destruct (Z.eqb_spec t 0) as [->|N].
      - assert (N4 : ring_length nside 0 = 4) by (unfold ring_length; lia). rewrite N4 in *. change (zrange 0 4) with [0; 1; 2; 3].
        cbn [suml fold_right map]. rewrite (GV 0), (GV 1), (GV 2), (GV 3) by lia. change (0 =? 0) with true. change (1 <=? 0) with false. change (1 <=? 1) with true. change (1 <=? 2) with true. change (1 <=? 3) with true. cbn [andb]. unfold RtoC, Cplus; cbn [fst snd]; f_equal; ring.
      - apply cr_0. intros q Hq. rewrite GV by auto. replace (t =? 0) with false by lia. reflexivity. }
    rewrite SUM in V. apply (f_equal Re) in V. rewrite <- RtoC_mult in V. unfold Cminus in V. rewrite Cplus_opp_r in V. unfold Re in V; cbn [fst RtoC] in V.
    assert (N0 : (0 < IZR (12 * nside ^ 2))%R) by (apply IZR_lt; rewrite Z.pow_2_r; nia).
    assert (0 < 4 * PI / IZR (12 * nside ^ 2) * sqrt (1 / (4 * PI)) * 3)%R; [|lra].
    pose proof PI_RGT_0. apply Rmult_lt_0_compat; [|lra]. apply Rmult_lt_0_compat; [apply Rdiv_lt_0_compat; lra|]. apply sqrt_lt_R0. apply Rdiv_lt_0_compat; lra.
  Qed.
End Corrupts.

(** ** For the property file *)
Lemma foldM_step_eq f f' F B (l : list Z) y : (forall x, refine_step f F B x = refine_step f' F B x) ->
  foldM (fun flm (_ : Z) => refine_step f F B flm) l y = foldM (fun flm (_ : Z) => refine_step f' F B flm) l y.
Proof. intros H. revert y. induction l; intros y; cbn [foldM]; [reflexivity|]. rewrite H. destruct (refine_step f' F B y); cbn [bind]; auto. Qed.

Lemma forward_cuda_agree gl th f d L spin nside reality Lo beta p h compiled out0 iter :
  cuda_forward_call th f L spin nside reality Lo beta p -> Forall call_ok h -> vlen out0 = (4 * nside - 1) * (2 * L) ->
  is_complex d = false \/ iter = None \/ (exists k, iter = Some k /\ k <= 0) ->
  exists y, otf_forward gl th f L spin (Some nside) "healpix" "numpy" reality None Lo iter = Ok y /\
  (exists w' f' r, otf_forward_cuda gl th f d L spin (Some nside) "healpix" reality p Lo iter compiled (after h) out0 w' f' r) /\
  forall w' f' r, otf_forward_cuda gl th f d L spin (Some nside) "healpix" reality p Lo iter compiled (after h) out0 w' f' r ->
    (exists h', Forall call_ok h' /\ w' = after h') /\ exists a, r = Ok a /\ arr_eq a y.
Proof.
  intros HC Hh Ho Hd. pose proof HC as (HL & HLo & Hs & H8 & Hn & HnL & Sf & Hre & Hrf & Eb & Lb & Ub & HP).
  assert (Pf : otf_maps HEALPIX L nside reality f).
  { split; [exact Sf|]. intros R ix Hix. rewrite Sf in Hix. destruct ix as [|i [|? ?]]; try (cbn [in_shape] in Hix; tauto). cbn [in_shape] in Hix. apply (Hrf R). lia. }
  set (F := fun g => otf_forward gl th g L spin (Some nside) "healpix" "numpy" reality None Lo None).
  assert (DF : exists c, F f = Ok c /\ (exists w' f' r, otf_forward_cuda gl th f d L spin (Some nside) "healpix" reality p Lo None compiled (after h) out0 w' f' r) /\
    forall w' f' r, otf_forward_cuda gl th f d L spin (Some nside) "healpix" reality p Lo None compiled (after h) out0 w' f' r ->
      (exists h', Forall call_ok h' /\ w' = after h') /\ exists a, r = Ok a /\ arr_eq a c).
  { destruct (dev_forward gl th L spin nside reality Lo beta p HL HLo Hs H8 Hn HnL Hre Eb Lb Ub HP f f d h Pf (arr_eq_refl _) Hh) as (c & Ec & _ & U).
    exists c. split; [exact Ec|]. unfold otf_forward_cuda. replace (8 <=? spin) with false by lia. cbv zeta. change (0 <? 0) with false. cbv iota. split.
    - exact (proj1 (forward_cuda_lemma gl th f d L spin nside reality Lo beta p h compiled out0 HC Hh Ho)).
    - intros w' f' r R. destruct (U _ _ _ _ _ R) as (U1 & _ & U2). auto. }
  assert (NONPOS : forall k, k <= 0 -> (forall w' f' r, otf_forward_cuda gl th f d L spin (Some nside) "healpix" reality p Lo (Some k) compiled (after h) out0 w' f' r =
     otf_forward_cuda gl th f d L spin (Some nside) "healpix" reality p Lo None compiled (after h) out0 w' f' r) /\
     otf_forward gl th f L spin (Some nside) "healpix" "numpy" reality None Lo (Some k) = F f).
  { intros k Hk. split.
    - intros. unfold otf_forward_cuda. destruct (8 <=? spin); [reflexivity|]. cbv zeta. replace (0 <? k) with false by lia. reflexivity.
    - change "healpix" with (scheme_name HEALPIX). rewrite otf_iter by (try lia; now left). rewrite refine_0 by lia. reflexivity. }
  destruct iter as [k|]; [|exact DF]. destruct (Z.leb_spec k 0) as [Hk|Hk].
  - destruct (NONPOS k Hk) as [N1 N2]. rewrite N2. destruct DF as (c & Ec & (w' & f' & r & X) & U). exists c. split; [exact Ec|]. split.
    + exists w', f', r. now rewrite N1.
    + intros w1 f1 r1. rewrite N1. apply U.
  - assert (Hd' : is_complex d = false) by (destruct Hd as [H|[H|(k' & H & Hk')]]; [exact H|discriminate|injection H as <-; lia]). clear Hd DF NONPOS.
    destruct (refine_cuda gl th L spin nside reality Lo beta p HL HLo Hs H8 Hn HnL Hre Eb Lb Ub HP f d k h compiled out0 Pf Hk) as (c & Ec & X & U); auto; [congruence|].
    change "healpix" with (scheme_name HEALPIX) at 1. rewrite otf_iter by (try lia; now left). unfold refine. change (scheme_name HEALPIX) with "healpix". rewrite Ec. cbn [bind].
    destruct X as (w0 & f0 & r0 & X). destruct (U _ _ _ X) as (_ & H0 & z & _ & Ez & _ & _). rewrite Hd' in H0. subst f0. exists z. split; [exact Ez|].
    split; [exists w0, f, r0; exact X|]. intros w' f' r R. destruct (U _ _ _ R) as (U1 & H1 & z' & a & Ez' & -> & Ha). rewrite Hd' in H1. subst f'.
    split; [exact U1|]. exists a. split; [reflexivity|]. assert (z' = z) by congruence. now subst z'.
Qed.

Lemma cuda_rejects L nside :
  (forall f d reality compiled w out0 w' f' r, shape f <> [12 * (nside * nside)] ->
     device_fft f d L nside reality compiled w out0 w' f' r -> w' = w /\ r = Err AssertionError) /\
  (forall ftm d reality compiled w out0 w' ftm' r, shape ftm <> [4 * nside - 1; 2 * L] \/ L < 2 * nside ->
     device_ifft ftm d L nside reality compiled w out0 w' ftm' r -> w' = w /\ r = Err AssertionError) /\
  (forall th flm spin o sampling reality p Lo compiled w out0 w' r, 8 <= spin ->
     otf_inverse_cuda th flm L spin o sampling reality p Lo compiled w out0 w' r -> w' = w /\ r = Err WarningRaised) /\
  (forall gl th f d spin o sampling reality p Lo iter compiled w out0 w' f' r, 8 <= spin ->
     otf_forward_cuda gl th f d L spin o sampling reality p Lo iter compiled w out0 w' f' r -> w' = w /\ f' = f /\ r = Err WarningRaised).
Proof.
  split; [|split; [|split]].
  - intros f d reality compiled w out0 w' f' r Sf.
    unfold device_fft, healpix_fft_on_device, healpix_fft_cuda, device_call, bind_primitive, abstract_eval. change (streq "forward" "forward") with true. cbv iota.
    destruct (zlist_eqb (shape f) [nside * nside * 12]) eqn:E.
    + apply zlist_eqb_spec in E. exfalso. apply Sf. rewrite E. f_equal. lia.
    + intros (buf & (-> & _ & ->) & _). auto.
  - intros f d reality compiled w out0 w' f' r H. unfold device_ifft, healpix_ifft_on_device. destruct (Z.leb_spec (2 * nside) L); cbn [negb]; [|intros (-> & _ & ->); auto].
    unfold healpix_ifft_cuda, device_call, bind_primitive, abstract_eval. change (streq "backward" "forward") with false. change (streq "backward" "backward") with true. cbv iota.
    destruct (zlist_eqb (shape f) [4 * nside - 1; 2 * L]) eqn:E.
    + apply zlist_eqb_spec in E. destruct H; [contradiction|lia].
    + intros (buf & (-> & _ & ->) & _). auto.
  - intros. unfold otf_inverse_cuda in *. replace (8 <=? spin) with true in * by lia. assumption.
  - intros. unfold otf_forward_cuda in *. replace (8 <=? spin) with true in * by lia. assumption.
Qed.

Lemma cuda_impure h d L nside reality compiled out0 : Forall call_ok h -> 1 <= nside -> 2 * nside <= L ->
  is_complex d = true -> vlen out0 = (4 * nside - 1) * (2 * L) -> exists f, shape f = [12 * (nside * nside)] /\
  (exists w' f' r, device_fft f d L nside reality compiled (after h) out0 w' f' r) /\
  forall w' f' r, device_fft f d L nside reality compiled (after h) out0 w' f' r -> get f' [1] <> get f [1].
Proof.
  intros Hh Hn HL Hd Ho. exists (spike nside). split; [reflexivity|].
  destruct (fft_cuda_ok Cplus (RtoC 0) fft_bwd ifft_fwd over_n over_sqrt_n rfft_bwd fft_bwd_ext fft_bwd_len h (spike nside) d L nside reality compiled out0 Hh Hn HL eq_refl Ho)
    as (ftm & _ & X & U). split; [exact X|]. intros w' f' r R. destruct (U _ _ _ R) as (_ & H & _). rewrite Hd in H.
  pose proof (SamplesProofs.ring_length_pos nside 0 Hn ltac:(lia)).
  pose proof (spike_overwritten nside f' Hn (proj2 H) 0 1 ltac:(lia) ltac:(lia)) as E1. rewrite ring_start_0 in E1. change (0 + 1) with 1 in E1. rewrite E1.
  cbn [spike get nth]. change (0 =? 0) with true. change (1 =? 0) with false. cbv iota. intros Q. apply RtoC_inj in Q. lra.
Qed.
