(** C77: the precomputed transforms of real signals (reality=True, spin 0) in floating-point arithmetic. *)
From Coq Require Import Reals Lra Lia ZifyBool.
From Coquelicot Require Import Coquelicot.
From Flocq Require Import Core.
From Verif Require Import Lib.Py Lib.PyFacts Lib.Vec Lib.Sums Lib.Cplx Lib.Arr Model.Index Model.Samples Model.FFT Model.RisboFloat Model.Spherical Model.Precompute
  Model.PrecomputeFloat Model.ForwardFloat Model.ResamplingFloat Model.ForwardMWFloat Model.RealFloat
  Spec.SamplesSpec Spec.WignerSpec Spec.SphereSpec Spec.GridSpec Spec.QuadSpec Spec.SphericalSpec Spec.RoundingSpec Spec.PrecomputeFloatSpec Spec.ForwardFloatSpec Spec.ResamplingFloatSpec Spec.RealFloatSpec
  Proofs.SpectralBound Proofs.RisboFloatProofs Proofs.FloatKernel Proofs.FloatInverse Proofs.FloatTop Proofs.FloatForward Proofs.FloatForwardTop
  Proofs.FloatMWForward Proofs.FloatMWTop Proofs.FloatReal Proofs.FloatRealInverse Proofs.FloatRealForward Proofs.Binary64 Properties.ResamplingFloatProps Properties.ForwardFloatProps.
Open Scope string_scope.
Open Scope R_scope.

Lemma circle_nsamps s L : s = MW \/ s = MWSS \/ s = DH -> kernel_nsamps (scheme_name s) (rings s L 0) = circle_points s L.
Proof.
  intros [->|[->| ->]]; cbn [rings]; unfold kernel_nsamps, circle_points; cbn [scheme_name];
    repeat match goal with |- context [streq ?a ?b] => let v := eval compute in (streq a b) in change (streq a b) with v end; cbv iota; lia.
Qed.
Lemma tiny_square A u eta L : rounded A u eta -> (1 <= L)%Z -> 4 * (IZR L * IZR L) * eta <= u -> 4 * IZR L * eta <= u.
Proof.
  intros HA HL H. assert (1 <= IZR L) by (apply IZR_le; lia). assert (0 <= eta) by exact (rd_eta _ _ _ HA).
  assert (IZR L * eta <= IZR L * IZR L * eta) by (apply Rmult_le_compat_r; nra). lra.
Qed.
(** Coefficients of a real signal. *)
Definition ex_c (l m : Z) : C := if Z.even m then RtoC (IZR (l + m * m)) else (0, IZR (l + m * m)).
Lemma ex_herm L : hermitian L ex_c.
Proof.
  intros l m _ _. unfold ex_c. rewrite Z.even_opp. replace (- m * - m)%Z with (m * m)%Z by ring. unfold sgn. destruct (Z.even m); unfold Cconj, RtoC, Cmult; cbn; f_equal; ring.
Qed.

(** The kernel for real signals: the columns of the orders 0..L-1 of the kernel for complex ones, entry by
    entry the same numbers, and so with the same error. *)
Theorem C77_kernel : forall A F name ths L spin K, (1 <= L)%Z -> pf_kernel A F name ths L spin = Ok K ->
  exists Kr, pr_kernel A F name ths L spin = Ok Kr /\ shape Kr = [vlen ths; L; L]%Z /\
    forall t l m, (0 <= t < vlen ths)%Z -> (0 <= l < L)%Z -> (0 <= m < L)%Z -> get Kr [t; l; m] = get K [t; l; m + L - 1]%Z.
Proof.
  intros A F name ths L spin K HL E. destruct (kernel_half A F name ths L spin K HL E) as (Kr & E2 & (_ & S2 & H)). exists Kr. split; [exact E2|]. split; [exact S2|].
  intros t l m Ht Hl Hm. specialize (H t l m Ht Hl Hm). unfold at3 in H. rewrite H. do 4 f_equal. lia.
Qed.
Print Assumptions C77_kernel.
Example C77_kernel_ex : exists K, pf_kernel exact_arith exact_ffts "gl" (mkVec 3 (fun t => IZR t)) 3 0 = Ok K.
Proof.
  destruct (gl_kernel exact_arith 0 0 exact_rounded exact_zeros exact_ffts 3 0 0 ltac:(lia) ltac:(cbn; lia) ltac:(lra) ltac:(lra) ltac:(lra) (fun i => cos (IZR (2 - i))) (mkVec 3 (fun t => IZR t)) 10 eq_refl) as (K & E & _).
  - intros t Ht. cbn [vat]. rewrite Rabs_pos_eq by (apply IZR_le; lia). apply IZR_le. lia.
  - intros t y Ht [H1 _]. cbn [vat]. pose proof PI_4. assert (0 <= IZR t <= 3) by (split; apply IZR_le; lia). apply Rabs_le. lra.
  - now exists K.
Qed.

(** The inverse transform, whatever the order in which einsum adds: each sample is the real part of the sum of
    the harmonics, with the coefficients of negative order given by those of positive order, to within a multiple of
    u L^2 + eps of the size of the signal. Nothing is assumed of the columns of negative order. *)
Theorem C77_inverse : forall A u eta F o s L eps gl flm, rounded A u eta -> zeros_exact A -> s = MW \/ s = MWSS \/ s = DH ->
  (1 <= L)%Z -> 2000 * u * (IZR L * (2 * IZR L + 3)) <= 1 -> 4 * (IZR L * IZR L) * eta <= u -> 0 <= eps <= / 20 ->
  irfft_accurate (f_irfft F) L (circle_points s L) eps -> ipow_accurate (f_ipow F) (2 * L) eps ->
  irfft_accurate (f_irfft F) L (per_ring s L) eps -> sums_all o L -> shape flm = [L; 2 * L - 1]%Z ->
  exists ths K f, pf_thetas A (scheme_name s) L gl = Ok ths /\ pr_kernel A F (scheme_name s) ths L 0 = Ok K /\
    pr_inverse A F o flm K L (scheme_name s) 0 = Ok f /\ shape f = [rings s L 0; per_ring s L]%Z /\
    forall t p x, (0 <= t < rings s L 0)%Z -> (0 <= p < per_ring s L)%Z -> is_colatitude s L 0 t x ->
      Rabs (get f [t; p] - Re (synth L 0 (real_extension (stored L flm)) x (equi_longitude s L p))) <=
      (2130 * u * (IZR L * (2 * IZR L + 3)) + 20 * eps) * signal_size L 0 (real_extension (stored L flm)) + 51 * (IZR L * IZR L) * eta.
Proof.
  intros A u eta F o s L eps gl flm HA HZ Hsc HL HB HE Heps HF HI HF2 Ho Hf. rewrite <- (circle_nsamps s L Hsc) in HF.
  destruct (real_inverse_equi A u eta HA HZ F L eps HL HB HE HI s gl o flm Hsc Heps HF HF2 Ho Hf) as (ths & K & f & E1 & E2 & E3 & Sh & H).
  exists ths, K, f. repeat (split; [assumption|]). intros t p x Ht Hp Hx.
  assert (C : colatitude (fun _ => 0) s L 0 t x) by (destruct Hsc as [->|[->| ->]]; exact Hx).
  assert (EL : longitude s L 0 t p = equi_longitude s L p) by (destruct Hsc as [->|[->| ->]]; reflexivity).
  specialize (H t p x Ht Hp C). rewrite EL in H. eapply Rle_trans; [exact H|]. apply Rplus_le_compat_r, Rmult_le_compat_r; [apply signal_size_nonneg|].
  pose proof (rd_u _ _ _ HA) as u0. assert (1 <= IZR L) by (apply IZR_le; lia). assert (0 <= u * (IZR L * (2 * IZR L + 3))) by (apply Rmult_le_pos; nra). lra.
Qed.
Print Assumptions C77_inverse.
Example C77_inverse_ex : irfft_accurate (f_irfft exact_ffts) 4 (per_ring MWSS 4) 0 /\ sums_all (in_turn 4) 4 /\
  shape (mat 4 7 (fun l i => ex_c l (i - 3))) = [4; 2 * 4 - 1]%Z /\ is_colatitude MWSS 4 0 3 (mwss_theta 4 3) /\ rounded exact_arith 0 0.
Proof. split; [apply exact_irfft; lra|]. split; [apply in_turn_all; lia|]. split; [reflexivity|]. split; [reflexivity|exact exact_rounded]. Qed.

(** The same for Gauss-Legendre rings, whose colatitudes are given with an error of at most delta. *)
Theorem C77_gl_inverse : forall A u eta F o L eps delta nodes gl flm, rounded A u eta -> zeros_exact A ->
  (1 <= L)%Z -> 2000 * u * (IZR L * (2 * IZR L + 3)) <= 1 -> 4 * (IZR L * IZR L) * eta <= u -> 0 <= eps <= / 20 ->
  vlen gl = L -> (forall t, (0 <= t < L)%Z -> Rabs (vat gl t) <= 5) -> 0 <= delta ->
  (forall t x, (0 <= t < L)%Z -> 0 <= x <= PI -> cos x = nodes (L - 1 - t)%Z -> Rabs (vat gl t - x) <= delta) ->
  irfft_accurate (f_irfft F) L (2 * L - 1) eps -> sums_all o L -> shape flm = [L; 2 * L - 1]%Z ->
  exists K f, pr_kernel A F "gl" gl L 0 = Ok K /\ pr_inverse A F o flm K L "gl" 0 = Ok f /\ shape f = [L; 2 * L - 1]%Z /\
    forall t p x, (0 <= t < L)%Z -> (0 <= p < 2 * L - 1)%Z -> 0 <= x <= PI -> cos x = nodes (L - 1 - t)%Z ->
      Rabs (get f [t; p] - Re (synth L 0 (real_extension (stored L flm)) x (2 * PI * IZR p / IZR (2 * L - 1)))) <=
      (2120 * u * (IZR L * (2 * IZR L + 3)) + 20 * eps + IZR L * delta) * signal_size L 0 (real_extension (stored L flm)) + 51 * (IZR L * IZR L) * eta.
Proof.
  intros A u eta F o L eps delta nodes gl flm HA HZ HL HB HE Heps Hg1 Hg2 Hd Hg3 HF2 Ho Hf. pose proof (tiny_square A u eta L HA HL HE) as HE'.
  assert (Hg3' : forall t y, (0 <= t < L)%Z -> colatitude nodes GL L 0 t y -> Rabs (vat gl t - y) <= delta) by (intros t y Ht [C1 C2]; now apply Hg3).
  destruct (gl_kernel A u eta HA HZ F L 0 eps HL ltac:(cbn; lia) HB HE' Heps nodes gl delta Hg1 Hg2 Hg3') as (K & EK & HK).
  destruct (kernel_half A F "gl" gl L 0 K HL EK) as (Kr & EKr & HH). rewrite Hg1 in HH.
  destruct (real_inverse_top A u eta HA HZ F L eps HL HB HE' Heps GL nodes o flm K Kr (vat gl) delta ltac:(discriminate) Hf Ho Hd HF2 HK HH Hg3') as (f & E5 & Sh & Hb).
  exists Kr, f. split; [exact EKr|]. split; [exact E5|]. split; [exact Sh|]. intros t p x Ht Hp H1 H2. apply (Hb t p x Ht Hp). now split.
Qed.
Print Assumptions C77_gl_inverse.
Example C77_gl_inverse_ex : let gl := mkVec 2 (fun t => IZR (t + 1)) in let nodes := fun i => cos (IZR (2 - i)) in
  vlen gl = 2%Z /\ (forall t, (0 <= t < 2)%Z -> Rabs (vat gl t) <= 5) /\
  forall t x, (0 <= t < 2)%Z -> 0 <= x <= PI -> cos x = nodes (2 - 1 - t)%Z -> Rabs (vat gl t - x) <= 0.
Proof.
  cbv zeta. split; [reflexivity|]. cbn [vat]. split.
  - intros t Ht. rewrite Rabs_pos_eq by (apply IZR_le; lia). apply IZR_le. lia.
  - intros t x Ht Hx. replace (2 - (2 - 1 - t))%Z with (t + 1)%Z by lia. intros E. pose proof PI2_3_2. assert (0 <= IZR (t + 1) <= 2) by (split; apply IZR_le; lia).
    apply cos_inj in E; [|lra|lra]. rewrite E. rewrite Rminus_eq_0, Rabs_R0. lra.
Qed.

(** A map on the Driscoll-Healy grid that differs by at most d at each sample from a real band-limited signal: its
    coefficients are recovered, those of negative order by conjugation. Imaginary parts of the samples are ignored. *)
Theorem C77_analysis : forall A u eta F S fft G o L eps gl wgl f c d, rounded A u eta -> zeros_exact A ->
  (1 <= L)%Z -> 2000 * u * (IZR L * (2 * IZR L + 3)) <= 1 -> 4 * (IZR L * IZR L) * eta <= u -> 0 <= eps <= / 20 ->
  irfft_accurate (f_irfft F) L (4 * L) eps -> ipow_accurate (f_ipow F) (2 * L) eps -> rfft_accurate G (2 * L - 1) eps ->
  sums_all o (2 * L) -> shape f = [2 * L; 2 * L - 1]%Z -> hermitian L c ->
  (forall t p, (0 <= t < 2 * L)%Z -> (0 <= p < 2 * L - 1)%Z -> Cmod (get f [t; p] - synth L 0 c (dh_theta L t) (equi_longitude DH L p))%C <= d) ->
  exists K flm, pr_kernel_forward A F fft "dh" gl wgl L 0 = Ok K /\ pr_forward A S G o f K L "dh" 0 = Ok flm /\
    shape flm = [L; 2 * L - 1]%Z /\ forall l m, (0 <= l < L)%Z -> (- L < m < L)%Z ->
      ((Z.abs m <= l)%Z -> Cmod (get flm [l; m + L - 1]%Z - c l m)%C <=
        sqrt (IZR (2 * l + 1) / (4 * PI)) * (8 * PI) *
        ((4420 * u * (IZR L * (2 * IZR L + 3)) + 37 * eps) * (signal_size L 0 c + d) + d + 18 * IZR L * eta)) /\
      ((l < Z.abs m)%Z -> get flm [l; m + L - 1]%Z = RtoC 0).
Proof.
  intros A u eta F S fft G o L eps gl wgl f c d HA HZ HL HB HE Heps HF HI HG Ho Hf Hc Hd.
  destruct (real_dh A u eta HA HZ F S L eps HL HB HE fft G HF HI o f gl wgl c d Heps HG Ho Hf Hc Hd) as (K & flm & E1 & E2 & Sh & H).
  exists K, flm. repeat (split; [assumption|]). intros l m Hl Hm. destruct (H l m Hl Hm) as [H1 H2]. split; [|exact H2]. intros Hml.
  eapply Rle_trans; [exact (H1 Hml)|]. right. unfold elfactor. ring.
Qed.
Print Assumptions C77_analysis.
Example C77_analysis_ex : let f := mkArr [2 * 3; 2 * 3 - 1]%Z (fun ix => synth 3 0 ex_c (dh_theta 3 (nth 0 ix 0%Z)) (equi_longitude DH 3 (nth 1 ix 0%Z))) in
  hermitian 3 ex_c /\ ex_c 2 1 <> RtoC 0 /\ rfft_accurate exact_rfft (2 * 3 - 1) 0 /\
  forall t p, (0 <= t < 2 * 3)%Z -> (0 <= p < 2 * 3 - 1)%Z -> Cmod (get f [t; p] - synth 3 0 ex_c (dh_theta 3 t) (equi_longitude DH 3 p))%C <= 0.
Proof.
  cbv zeta. split; [apply ex_herm|]. split; [intros E; injection E as E; lra|]. split; [apply exact_rfft_ok; lra|].
  intros t p _ _. cbn [get nth]. replace (_ - _)%C with (RtoC 0) by ring. rewrite Cmod_0. lra.
Qed.

(** The same on the Gauss-Legendre grid. *)
Theorem C77_gl_analysis : forall A u eta F S fft G o L eps nodes wg gl wgl delta dw f c d, rounded A u eta -> zeros_exact A ->
  (1 <= L)%Z -> 2000 * u * (IZR L * (2 * IZR L + 3)) <= 1 -> 4 * IZR L ^ 3 * eta <= u -> 0 <= eps <= / 20 ->
  gauss_legendre L nodes wg -> vlen gl = L -> 0 <= delta /\ IZR L * delta <= / 20 ->
  (forall t, (0 <= t < L)%Z -> Rabs (vat gl t - acos (vat nodes (L - 1 - t))) <= delta) ->
  vlen wgl = L -> 0 <= dw <= / 10 ->
  (forall t, (0 <= t < L)%Z -> let w := 2 * PI * vat wg t / IZR (2 * L - 1) in Rabs (vat wgl t - w) <= dw * w) ->
  rfft_accurate G (2 * L - 1) eps -> sums_all o L -> shape f = [L; 2 * L - 1]%Z -> hermitian L c ->
  (forall t p, (0 <= t < L)%Z -> (0 <= p < 2 * L - 1)%Z ->
     Cmod (get f [t; p] - synth L 0 c (acos (vat nodes (L - 1 - t))) (2 * PI * IZR p / IZR (2 * L - 1)))%C <= d) ->
  exists K flm, pr_kernel_forward A F fft "gl" gl wgl L 0 = Ok K /\ pr_forward A S G o f K L "gl" 0 = Ok flm /\
    shape flm = [L; 2 * L - 1]%Z /\ forall l m, (0 <= l < L)%Z -> (- L < m < L)%Z ->
      ((Z.abs m <= l)%Z -> Cmod (get flm [l; m + L - 1]%Z - c l m)%C <=
        sqrt (IZR (2 * l + 1) / (4 * PI)) * (4 * PI) *
        ((4060 * u * (IZR L * (2 * IZR L + 3)) + 37 * eps + 4 * (IZR L * delta) + 8 * dw) * (signal_size L 0 c + d) + d + 18 * IZR L * eta)) /\
      ((l < Z.abs m)%Z -> get flm [l; m + L - 1]%Z = RtoC 0).
Proof.
  intros A u eta F S fft G o L eps nodes wg gl wgl delta dw f c d HA HZ HL HB HE Heps HGL Hg1 Hdl Hg3 Hw1 Hdw Hw2 HG Ho Hf Hc Hd.
  destruct (cube_tiny A u eta L HA HL HE) as [HE2 HE3].
  destruct (real_gl A u eta HA HZ F S L eps HL HB HE2 fft G nodes wg gl wgl delta dw Heps HGL Hg1 Hdl Hg3 Hw1 Hdw Hw2 HE3 o f c d HG Ho Hf Hc Hd) as (K & flm & E1 & E2 & Sh & H).
  exists K, flm. repeat (split; [assumption|]). intros l m Hl Hm. destruct (H l m Hl Hm) as [H1 H2]. split; [|exact H2]. intros Hml.
  eapply Rle_trans; [exact (H1 Hml)|]. right. unfold elfactor. ring.
Qed.
Print Assumptions C77_gl_analysis.
Example C77_gl_analysis_ex : exists nodes wg, gauss_legendre 3 nodes wg /\ let gl := mkVec 3 (fun t => acos (vat nodes (3 - 1 - t))) in let wgl := mkVec 3 (fun t => 2 * PI * vat wg t / IZR (2 * 3 - 1)) in
  (forall t, (0 <= t < 3)%Z -> Rabs (vat gl t - acos (vat nodes (3 - 1 - t))) <= 0) /\
  (forall t, (0 <= t < 3)%Z -> let w := 2 * PI * vat wg t / IZR (2 * 3 - 1) in Rabs (vat wgl t - w) <= 0 * w).
Proof.
  destruct (GaussProofs.gauss_exists 3 ltac:(lia)) as (nodes & wg & H). exists nodes, wg. split; [exact H|]. cbv zeta. cbn [vat]. split; intros t Ht.
  - rewrite Rminus_eq_0, Rabs_R0. lra.
  - rewrite Rminus_eq_0, Rabs_R0, Rmult_0_l. lra.
Qed.

(** The same on the mw and mwss grids, with the doubling of the map before the quadrature. *)
Theorem C77_mw_analysis : forall A u eta F S fft G o s L eps gl wgl f c d, rounded A u eta -> zeros_exact A ->
  (1 <= L)%Z -> 2000 * u * (IZR L * (2 * IZR L + 3)) <= 1 -> 4 * (IZR L * IZR L) * eta <= u -> 0 <= eps <= / 100 ->
  transforms_accurate S (2 * L - 1) eps -> transforms_accurate S (2 * L) eps -> transforms_accurate S (4 * L) eps ->
  irfft_accurate (f_irfft F) L (4 * L) eps -> ipow_accurate (f_ipow F) (2 * L) eps -> fft_accurate fft (4 * L) eps -> rfft_accurate G (2 * L) eps ->
  s = MW \/ s = MWSS -> sums_all o (2 * L + 1) -> shape f = [rings s L 0; per_ring s L]%Z -> hermitian L c ->
  (forall t p x, (0 <= t < rings s L 0)%Z -> (0 <= p < per_ring s L)%Z -> is_colatitude s L 0 t x -> Cmod (get f [t; p] - synth L 0 c x (equi_longitude s L p))%C <= d) ->
  exists K flm, pr_kernel_forward A F fft (scheme_name s) gl wgl L 0 = Ok K /\ pr_forward A S G o f K L (scheme_name s) 0 = Ok flm /\ shape flm = [L; 2 * L - 1]%Z /\
    forall l m, (0 <= l < L)%Z -> (- L < m < L)%Z ->
      ((Z.abs m <= l)%Z -> Cmod (get flm [l; m + L - 1]%Z - c l m)%C <=
        sqrt (IZR (2 * l + 1) / (4 * PI)) * (27 * PI) *
        ((4570 * u * (IZR L * (2 * IZR L + 3)) + 291 * eps) * signal_size L 0 c + 37 * d + 700 * (IZR L * eta))) /\
      ((l < Z.abs m)%Z -> get flm [l; m + L - 1]%Z = RtoC 0).
Proof.
  intros A u eta F S fft G o s L eps gl wgl f c d HA HZ HL HB HE Heps H1 H2 H4 HF HI HF4 HG Hm Ho Hf Hc Hd.
  destruct (real_mwx A u eta HA HZ F S L eps HL HB HE fft G HF HI s o f gl wgl c d Heps H1 H2 H4 HF4 HG Hm Ho Hf Hc) as (K & flm & E1 & E2 & Sh & H).
  { intros t p Ht Hp. apply Hd; auto. destruct Hm as [->| ->]; reflexivity. }
  exists K, flm. repeat (split; [assumption|]). intros l m Hl Hmm. destruct (H l m Hl Hmm) as [G1 G2]. split; [|exact G2]. intros Hml.
  eapply Rle_trans; [exact (G1 Hml)|]. right. unfold elfactor. ring.
Qed.
Print Assumptions C77_mw_analysis.
Example C77_mw_analysis_ex : let f := mat 3 5 (fun t p => synth 3 0 ex_c (mw_theta 3 t) (equi_longitude MW 3 p)) in
  shape f = [rings MW 3 0; per_ring MW 3]%Z /\ hermitian 3 ex_c /\ rfft_accurate exact_rfft (2 * 3) 0 /\
  forall t p x, (0 <= t < rings MW 3 0)%Z -> (0 <= p < per_ring MW 3)%Z -> is_colatitude MW 3 0 t x -> Cmod (get f [t; p] - synth 3 0 ex_c x (equi_longitude MW 3 p))%C <= 0.
Proof.
  cbv zeta. split; [reflexivity|]. split; [apply ex_herm|]. split; [apply exact_rfft_ok; lra|]. intros t p x Ht Hp Hx. cbn [is_colatitude] in Hx. subst x. unfold mat. cbn [get nth].
  set (z := synth _ _ _ _ _). replace (z - z)%C with (RtoC 0) by ring. rewrite Cmod_0. lra.
Qed.

(** Inverse transform, then forward transform of what it returned, on the Driscoll-Healy grid. *)
Theorem C77_round_trip : forall A u eta F S fft G o o' L eps gl wgl flm, rounded A u eta -> zeros_exact A ->
  (1 <= L)%Z -> 2000 * u * (IZR L * (2 * IZR L + 3)) <= 1 -> 4 * (IZR L * IZR L) * eta <= u -> 0 <= eps <= / 20 ->
  irfft_accurate (f_irfft F) L (4 * L) eps -> ipow_accurate (f_ipow F) (2 * L) eps -> irfft_accurate (f_irfft F) L (2 * L - 1) eps -> rfft_accurate G (2 * L - 1) eps ->
  sums_all o L -> sums_all o' (2 * L) -> shape flm = [L; 2 * L - 1]%Z -> hermitian L (stored L flm) ->
  exists ths K f K' flm', pf_thetas A "dh" L gl = Ok ths /\ pr_kernel A F "dh" ths L 0 = Ok K /\ pr_inverse A F o flm K L "dh" 0 = Ok f /\
    pr_kernel_forward A F fft "dh" gl wgl L 0 = Ok K' /\ pr_forward A S G o' (as_complex f) K' L "dh" 0 = Ok flm' /\
    shape flm' = [L; 2 * L - 1]%Z /\ forall l m, (0 <= l < L)%Z -> (- L < m < L)%Z ->
      ((Z.abs m <= l)%Z -> Cmod (get flm' [l; m + L - 1]%Z - get flm [l; m + L - 1]%Z)%C <=
        sqrt (IZR (2 * l + 1) / (4 * PI)) * (8 * PI) *
        ((15200 * u * (IZR L * (2 * IZR L + 3)) + 140 * eps) * signal_size L 0 (stored L flm) + 277 * (IZR L * IZR L) * eta)) /\
      ((l < Z.abs m)%Z -> get flm' [l; m + L - 1]%Z = RtoC 0).
Proof.
  intros A u eta F S fft G o o' L eps gl wgl flm HA HZ HL HB HE Heps HF HI HF2 HG Ho Ho' Hf Hc.
  destruct (real_dh_round_trip A u eta HA HZ F S L eps HL HB HE fft G HF HI o o' flm gl wgl Heps HF2 HG Ho Ho' Hf Hc) as (ths & K & f & K' & flm' & E1 & E2 & E3 & E4 & E5 & Sh & H).
  exists ths, K, f, K', flm'. repeat (split; [assumption|]). intros l m Hl Hm. destruct (H l m Hl Hm) as [H1 H2]. split; [|exact H2]. intros Hml.
  eapply Rle_trans; [exact (H1 Hml)|]. right. unfold elfactor. ring.
Qed.
Print Assumptions C77_round_trip.
Example C77_round_trip_ex : let flm := mat 3 5 (fun l i => ex_c l (i - 2)) in shape flm = [3; 2 * 3 - 1]%Z /\ hermitian 3 (stored 3 flm) /\ stored 3 flm 2 1 <> RtoC 0 /\
  irfft_accurate (f_irfft exact_ffts) 3 (2 * 3 - 1) 0 /\ sums_all (in_turn 3) 3 /\ sums_all (in_turn 6) (2 * 3).
Proof.
  cbv zeta. split; [reflexivity|]. assert (E : forall l m, stored 3 (mat 3 5 (fun l i => ex_c l (i - 2))) l m = ex_c l m) by (intros l m; unfold stored, mat; cbn [get nth]; f_equal; lia).
  split; [|split; [rewrite E; intros Q; injection Q as Q; lra|split; [apply exact_irfft; lra|split; apply in_turn_all; lia]]].
  intros l m Hl Hm. rewrite !E. now apply (ex_herm 3).
Qed.

(** The same on the mw and mwss grids. *)
Theorem C77_mw_round_trip : forall A u eta F S fft G o o' s L eps gl wgl flm, rounded A u eta -> zeros_exact A ->
  (1 <= L)%Z -> 2000 * u * (IZR L * (2 * IZR L + 3)) <= 1 -> 4 * (IZR L * IZR L) * eta <= u -> 0 <= eps <= / 100 ->
  transforms_accurate S (2 * L - 1) eps -> transforms_accurate S (2 * L) eps -> transforms_accurate S (4 * L) eps ->
  irfft_accurate (f_irfft F) L (4 * L) eps -> irfft_accurate (f_irfft F) L (per_ring s L) eps -> ipow_accurate (f_ipow F) (2 * L) eps ->
  fft_accurate fft (4 * L) eps -> rfft_accurate G (2 * L) eps ->
  s = MW \/ s = MWSS -> sums_all o L -> sums_all o' (2 * L + 1) -> shape flm = [L; 2 * L - 1]%Z -> hermitian L (stored L flm) ->
  exists ths K f K' flm', pf_thetas A (scheme_name s) L gl = Ok ths /\ pr_kernel A F (scheme_name s) ths L 0 = Ok K /\ pr_inverse A F o flm K L (scheme_name s) 0 = Ok f /\
    pr_kernel_forward A F fft (scheme_name s) gl wgl L 0 = Ok K' /\ pr_forward A S G o' (as_complex f) K' L (scheme_name s) 0 = Ok flm' /\ shape flm' = [L; 2 * L - 1]%Z /\
    forall l m, (0 <= l < L)%Z -> (- L < m < L)%Z ->
      ((Z.abs m <= l)%Z -> Cmod (get flm' [l; m + L - 1]%Z - get flm [l; m + L - 1]%Z)%C <=
        sqrt (IZR (2 * l + 1) / (4 * PI)) * (27 * PI) *
        ((83200 * u * (IZR L * (2 * IZR L + 3)) + 1031 * eps) * signal_size L 0 (stored L flm) + 2600 * (IZR L * IZR L) * eta)) /\
      ((l < Z.abs m)%Z -> get flm' [l; m + L - 1]%Z = RtoC 0).
Proof.
  intros A u eta F S fft G o o' s L eps gl wgl flm HA HZ HL HB HE Heps H1 H2 H4 HF HF2 HI HF4 HG Hm Ho Ho' Hf Hc.
  assert (HF1 : irfft_accurate (f_irfft F) L (kernel_nsamps (scheme_name s) (rings s L 0)) eps).
  { rewrite circle_nsamps by (destruct Hm; auto). replace (circle_points s L) with (per_ring s L) by (destruct Hm as [->| ->]; reflexivity). exact HF2. }
  destruct (real_mwx_round_trip A u eta HA HZ F S L eps HL HB HE fft G HF HI s o o' flm gl wgl Heps H1 H2 H4 HF4 HG Hm HF1 HF2 Ho Ho' Hf Hc) as (ths & K & f & K' & flm' & E1 & E2 & E3 & E4 & E5 & Sh & H).
  exists ths, K, f, K', flm'. repeat (split; [assumption|]). intros l m Hl Hmm. destruct (H l m Hl Hmm) as [G1 G2]. split; [|exact G2]. intros Hml.
  eapply Rle_trans; [exact (G1 Hml)|]. right. unfold elfactor. ring.
Qed.
Print Assumptions C77_mw_round_trip.
Example C77_mw_round_trip_ex : rounded exact_arith 0 0 /\ zeros_exact exact_arith /\ transforms_accurate exact_rffts (4 * 5) 0 /\ rfft_accurate exact_rfft (2 * 5) 0 /\
  irfft_accurate (f_irfft exact_ffts) 5 (per_ring MWSS 5) 0 /\ sums_all (in_turn 5) 5 /\ sums_all (in_turn 11) (2 * 5 + 1) /\
  hermitian 5 (stored 5 (mat 5 9 (fun l i => ex_c l (i - 4)))).
Proof.
  split; [exact exact_rounded|]. split; [exact exact_zeros|]. split; [apply exact_transforms; (lia || lra)|]. split; [apply exact_rfft_ok; lra|]. split; [apply exact_irfft; lra|].
  split; [apply in_turn_all; lia|]. split; [apply in_turn_all; lia|]. intros l m Hl Hm. unfold stored, mat. cbn [get nth].
  replace (- m + 5 - 1 - 4)%Z with (- m)%Z by lia. replace (m + 5 - 1 - 4)%Z with m by lia. now apply (ex_herm 5).
Qed.

(** Without rounding and with exact Fourier transforms this model returns the samples and the coefficients themselves. *)
Theorem C77_exact : forall s L gl wgl f c o o', (1 <= L)%Z -> s = MW \/ s = MWSS -> sums_all o (2 * L + 1) -> sums_all o' L -> shape f = [rings s L 0; per_ring s L]%Z -> hermitian L c ->
  (forall t p x, (0 <= t < rings s L 0)%Z -> (0 <= p < per_ring s L)%Z -> is_colatitude s L 0 t x -> get f [t; p] = synth L 0 c x (equi_longitude s L p)) ->
  exists K flm ths K' f', pr_kernel_forward exact_arith exact_ffts fft_bwd (scheme_name s) gl wgl L 0 = Ok K /\
    pr_forward exact_arith exact_rffts exact_rfft o f K L (scheme_name s) 0 = Ok flm /\ shape flm = [L; 2 * L - 1]%Z /\
    (forall l m, (0 <= l < L)%Z -> (- L < m < L)%Z -> get flm [l; m + L - 1]%Z = if (Z.abs m <=? l)%Z then c l m else RtoC 0) /\
    pf_thetas exact_arith (scheme_name s) L gl = Ok ths /\ pr_kernel exact_arith exact_ffts (scheme_name s) ths L 0 = Ok K' /\
    pr_inverse exact_arith exact_ffts o' flm K' L (scheme_name s) 0 = Ok f' /\ shape f' = [rings s L 0; per_ring s L]%Z /\
    forall t p, (0 <= t < rings s L 0)%Z -> (0 <= p < per_ring s L)%Z -> RtoC (get f' [t; p]) = get f [t; p].
Proof.
  intros s L gl wgl f c o o' HL Hm Ho Ho' Hf Hc Hd.
  destruct (C77_mw_analysis exact_arith 0 0 exact_ffts exact_rffts fft_bwd exact_rfft o s L 0 gl wgl f c 0 exact_rounded exact_zeros HL) as (K & flm & E1 & E2 & Sh & H); try assumption; try lra;
    try (apply exact_transforms; (lia || lra)); try (apply exact_fft; lra); try (apply exact_rfft_ok; lra); try (apply exact_irfft; lra); try (apply exact_ipow; lra).
  { intros t p x Ht Hp Hx. rewrite (Hd t p x Ht Hp Hx). replace (_ - _)%C with (RtoC 0) by ring. rewrite Cmod_0. lra. }
  assert (CE : forall l m, (0 <= l < L)%Z -> (- L < m < L)%Z -> get flm [l; m + L - 1]%Z = if (Z.abs m <=? l)%Z then c l m else RtoC 0).
  { intros l m Hl Hmm. destruct (H l m Hl Hmm) as [H1 H2]. destruct (Z.leb_spec (Z.abs m) l); [|apply H2; lia].
    specialize (H1 ltac:(lia)). set (z := (get flm [l; m + L - 1]%Z - c l m)%C) in *.
    assert (Z0 : Cmod z = 0) by (pose proof (Cmod_ge_0 z); lra). apply Cmod_eq_0 in Z0. unfold z in Z0.
    replace (get flm [l; m + L - 1]%Z) with (get flm [l; m + L - 1]%Z - c l m + c l m)%C by ring. rewrite Z0. ring. }
  destruct (C77_inverse exact_arith 0 0 exact_ffts o' s L 0 gl flm exact_rounded exact_zeros ltac:(destruct Hm; auto) HL) as (ths & K' & f' & E3 & E4 & E5 & Sh' & Hb); try assumption; try lra;
    try (apply exact_irfft; lra); try (apply exact_ipow; lra).
  exists K, flm, ths, K', f'. repeat (split; [assumption|]). intros t p Ht Hp.
  assert (CS : forall l m, (Z.abs 0 <= l < L)%Z -> (- l <= m <= l)%Z -> stored L flm l m = c l m).
  { intros l m Hl Hlm. unfold stored. rewrite CE by lia. now replace (Z.abs m <=? l)%Z with true by lia. }
  assert (HS : hermitian L (stored L flm)) by (intros l m Hl Hlm; rewrite !CS by (cbn; lia); apply Hc; lia).
  assert (Hx : is_colatitude s L 0 t (mwx_theta s L t)) by (destruct Hm as [->| ->]; reflexivity).
  specialize (Hb t p _ Ht Hp Hx). rewrite (Hd t p _ Ht Hp Hx). apply (herm_near L flm _ _ _ _ HS) in Hb. rewrite (SphFacts.synth_ext L 0 (stored L flm) c) in Hb by exact CS.
  set (w := synth L 0 c _ _) in *. assert (Z0 : Cmod (RtoC (get f' [t; p]) - w)%C = 0) by (pose proof (Cmod_ge_0 (RtoC (get f' [t; p]) - w)%C); lra). apply Cmod_eq_0 in Z0.
  replace (RtoC (get f' [t; p])) with (RtoC (get f' [t; p]) - w + w)%C by ring. rewrite Z0. ring.
Qed.
Print Assumptions C77_exact.
Example C77_exact_ex : let f := mat 4 6 (fun t p => synth 3 0 ex_c (mwss_theta 3 t) (equi_longitude MWSS 3 p)) in
  shape f = [rings MWSS 3 0; per_ring MWSS 3]%Z /\ hermitian 3 ex_c /\
  forall t p x, (0 <= t < rings MWSS 3 0)%Z -> (0 <= p < per_ring MWSS 3)%Z -> is_colatitude MWSS 3 0 t x -> get f [t; p] = synth 3 0 ex_c x (equi_longitude MWSS 3 p).
Proof. cbv zeta. split; [reflexivity|]. split; [apply ex_herm|]. intros t p x _ _ Hx. cbn [is_colatitude] in Hx. now subst x. Qed.

(** Binary64, up to band-limit a million, with Fourier transforms of relative accuracy 1e-14. *)
Theorem C77_binary64 : forall F S fft G o o' s L gl wgl flm, (1 <= L)%Z -> (L <= 2 ^ 20)%Z ->
  transforms_accurate S (2 * L - 1) (/ 10 ^ 14) -> transforms_accurate S (2 * L) (/ 10 ^ 14) -> transforms_accurate S (4 * L) (/ 10 ^ 14) ->
  irfft_accurate (f_irfft F) L (4 * L) (/ 10 ^ 14) -> irfft_accurate (f_irfft F) L (per_ring s L) (/ 10 ^ 14) -> ipow_accurate (f_ipow F) (2 * L) (/ 10 ^ 14) ->
  fft_accurate fft (4 * L) (/ 10 ^ 14) -> rfft_accurate G (2 * L) (/ 10 ^ 14) ->
  s = MW \/ s = MWSS -> sums_all o L -> sums_all o' (2 * L + 1) -> shape flm = [L; 2 * L - 1]%Z -> hermitian L (stored L flm) ->
  exists ths K f K' flm', pf_thetas binary64 (scheme_name s) L gl = Ok ths /\ pr_kernel binary64 F (scheme_name s) ths L 0 = Ok K /\
    pr_inverse binary64 F o flm K L (scheme_name s) 0 = Ok f /\
    pr_kernel_forward binary64 F fft (scheme_name s) gl wgl L 0 = Ok K' /\ pr_forward binary64 S G o' (as_complex f) K' L (scheme_name s) 0 = Ok flm' /\ shape flm' = [L; 2 * L - 1]%Z /\
    forall l m, (0 <= l < L)%Z -> (- L < m < L)%Z ->
      ((Z.abs m <= l)%Z -> Cmod (get flm' [l; m + L - 1]%Z - get flm [l; m + L - 1]%Z)%C <=
        sqrt (IZR (2 * l + 1) / (4 * PI)) * (27 * PI) *
        ((93 / 10 ^ 13 * (IZR L * (2 * IZR L + 3)) + 11 / 10 ^ 12) * signal_size L 0 (stored L flm) + / 10 ^ 300)) /\
      ((l < Z.abs m)%Z -> get flm' [l; m + L - 1]%Z = RtoC 0).
Proof.
  intros F S fft G o o' s L gl wgl flm HL HL2 H1' H2' H4' HF HF' HI HF4 HG Hm Ho Ho' Hf Hc.
  assert (H1 : 1 <= IZR L) by (apply IZR_le; lia). assert (H2 : IZR L <= IZR (2 ^ 20)) by (now apply IZR_le).
  assert (E0 : 0 <= eta64) by apply bpow_ge_0.
  assert (L2 : IZR L * IZR L <= IZR (2 ^ 20) * IZR (2 ^ 20)) by (apply Rmult_le_compat; lra). rewrite <- (mult_IZR (2 ^ 20)) in L2.
  destruct (C77_mw_round_trip binary64 u64 eta64 F S fft G o o' s L (/ 10 ^ 14) gl wgl flm binary64_rounded (ieee_zeros _ _) HL) as (ths & K & f & K' & flm' & E1 & E2 & E3 & E4 & E5 & Sh & H); try assumption.
  - rewrite u64_value. assert (IZR L * (2 * IZR L + 3) <= IZR (2 ^ 20) * (2 * IZR (2 ^ 20) + 3)) by (apply Rmult_le_compat; lra).
    apply Rle_trans with (2000 * / IZR (2 ^ 53) * (IZR (2 ^ 20) * (2 * IZR (2 ^ 20) + 3))).
    + apply Rmult_le_compat_l; [|assumption]. cbn. lra.
    + cbn. lra.
  - eapply Rle_trans; [|apply (eta64_tiny 42); lia]. apply Rmult_le_compat_r; [exact E0|].
    change (2 ^ 42)%Z with (4 * (2 ^ 20 * 2 ^ 20))%Z. rewrite (mult_IZR 4). lra.
  - cbn. lra.
  - exists ths, K, f, K', flm'. repeat (split; [assumption|]). intros l m Hl Hmm. destruct (H l m Hl Hmm) as [G1 G2]. split; [|exact G2]. intros Hml.
    eapply Rle_trans; [exact (G1 Hml)|]. apply Rmult_le_compat_l.
    { apply Rmult_le_pos; [apply sqrt_pos|]. pose proof PI_RGT_0. lra. }
    apply Rplus_le_compat.
    + apply Rmult_le_compat_r; [apply signal_size_nonneg|]. rewrite u64_value. apply Rplus_le_compat; [|cbn; lra].
      apply Rmult_le_compat_r; [nra|]. cbn. lra.
    + apply Rle_trans with (IZR (2 ^ 52) * eta64).
      * apply Rmult_le_compat_r; [exact E0|]. apply Rle_trans with (2600 * IZR (2 ^ 20 * 2 ^ 20)); [lra|]. rewrite <- mult_IZR. apply IZR_le. lia.
      * unfold eta64. change (IZR (2 ^ 52)) with (bpow radix2 52). rewrite <- bpow_plus. change (52 + -1075)%Z with (- (1023))%Z. rewrite bpow_opp.
        apply Rinv_le_contravar; [apply pow_lt; lra|]. rewrite <- (IZR_Zpower radix2) by lia. rewrite pow_IZR. apply IZR_le. vm_compute. discriminate.
Qed.
Print Assumptions C77_binary64.
Example C77_binary64_ex : (256 <= 2 ^ 20)%Z /\ transforms_accurate exact_rffts (4 * 256) (/ 10 ^ 14) /\ fft_accurate fft_bwd (4 * 256) (/ 10 ^ 14) /\
  rfft_accurate exact_rfft (2 * 256) (/ 10 ^ 14) /\ irfft_accurate (f_irfft exact_ffts) 256 (per_ring MW 256) (/ 10 ^ 14) /\ sums_all (in_turn (2 * 256 + 1)) (2 * 256 + 1).
Proof.
  assert (0 <= / 10 ^ 14) by (left; apply Rinv_0_lt_compat; cbn; lra). split; [lia|]. split; [apply exact_transforms; auto; lia|]. split; [now apply exact_fft|].
  split; [now apply exact_rfft_ok|]. split; [now apply exact_irfft|]. apply in_turn_all. lia.
Qed.
