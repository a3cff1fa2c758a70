(** The forward transform and the round trip on the mw and mwss grids in rounded arithmetic. *)
From Coq Require Import Reals Lra Lia ZifyBool Permutation.
From Coquelicot Require Import Coquelicot.
From Verif Require Import Lib.Py Lib.PyFacts Lib.Vec Lib.VecFacts Lib.Sums Lib.Cplx Lib.Arr Lib.ArrFacts Lib.MatFacts Model.Index Model.Samples Model.Quadrature Model.Resampling
  Model.RisboFloat Model.Spherical Model.Precompute Model.PrecomputeFloat Model.ForwardFloat Model.ResamplingFloat Model.ForwardMWFloat
  Spec.SamplesSpec Spec.WignerSpec Spec.SphereSpec Spec.GridSpec Spec.SphericalSpec Spec.RoundingSpec Spec.PrecomputeFloatSpec Spec.ForwardFloatSpec Spec.ResamplingFloatSpec
  Proofs.SphereTheory Proofs.ResamplingFacts Proofs.SpectralBound Proofs.FloatKernel Proofs.FloatTop Proofs.FloatForward Proofs.FloatForwardTop Proofs.FloatMWWeights Proofs.L2Norm
  Proofs.FloatResampling Proofs.FloatResamplingTop Proofs.FloatMWForward.
Open Scope R_scope.

(** the maps of the exact model *)
Definition doubled (s : scheme) (f : ndarray C) (L spin : Z) : result (ndarray C) :=
  let* f := if streq (scheme_name s) "mw" then mw_to_mwss numpy f L spin else Ok f in upsample_by_two_mwss numpy f L spin.
Lemma map_sup n m f d : (0 <= n)%Z -> (0 <= m)%Z -> 0 <= d -> (forall t p, (0 <= t < n)%Z -> (0 <= p < m)%Z -> Cmod (f t p) <= d) -> l2_map n m f <= sqrt (IZR n * IZR m) * d.
Proof.
  intros Hn Hm Hd H. rewrite <- map_one by assumption. assert (Q := map_comb n m f (fun _ _ => RtoC 1) (fun _ _ => RtoC 1) d 0 Hd (Rle_refl 0)). rewrite Rmult_0_l, Rplus_0_r in Q. rewrite Rmult_comm.
  apply Q. intros t p Ht Hp. rewrite Cmod_1. specialize (H t p Ht Hp). lra.
Qed.
Definition mwx (s : scheme) : Prop := s = MW \/ s = MWSS.
Definition mwx_theta (s : scheme) (L t : Z) : R := match s with MW => mw_theta L t | _ => mwss_theta L t end.

Section Float.
  Variables (A : arith) (u eta : R).
  Hypothesis HA : rounded A u eta.
  Hypothesis HZ : zeros_exact A.
  Let u0 : 0 <= u := rd_u _ _ _ HA.
  Let e0 : 0 <= eta := rd_eta _ _ _ HA.
  Variables (F : ffts) (S : rffts) (L spin : Z) (eps : R).
  Hypothesis HL : (1 <= L)%Z.
  Hypothesis Hs : (Z.abs spin < L)%Z.
  Let N := (IZR L * (2 * IZR L + 3)).
  Hypothesis HB : 2000 * u * N <= 1.
  Hypothesis HE : 4 * (IZR L * IZR L) * eta <= u.
  Hypothesis Heps : 0 <= eps <= / 100.
  Hypothesis HS1 : transforms_accurate S (2 * L - 1) eps.
  Hypothesis HS2 : transforms_accurate S (2 * L) eps.
  Hypothesis HS4 : transforms_accurate S (4 * L) eps.
  Let T := (2 * L + 1)%Z.
  Let M := sqrt (IZR T * IZR (2 * L)).

  Lemma forward_parts s fft o f h K : mwx s ->
    (let* g := if streq (scheme_name s) "mw" then rs_mw_to_mwss A S f L spin else Ok f in rs_upsample A S g L spin) = Ok h ->
    mf_forward A S fft o f K L (scheme_name s) spin = rings_part A fft o h K L 1 spin.
  Proof.
    intros [->| ->]; cbn [scheme_name]; unfold mf_forward;
      repeat match goal with |- context [streq ?a ?b] => let v := eval compute in (streq a b) in change (streq a b) with v end; cbv iota; cbn [bind].
    - destruct (rs_mw_to_mwss A S f L spin) as [g|]; cbn [bind]; [|discriminate].
      change (str_in (lower "mw") ["mw"; "mwss"]) with true. cbv iota. intros ->. cbn [bind]. reflexivity.
    - change (str_in (lower "mwss") ["mw"; "mwss"]) with true. cbv iota. intros ->. cbn [bind]. reflexivity.
  Qed.
  Let R1 s := sqrt (IZR (rings s L 0) * IZR (per_ring s L)).
  Lemma sizes s : mwx s -> 0 < R1 s <= M /\ 1 <= M /\ sqrt (IZR (2 * L - 1)) <= M.
  Proof.
    intros H. assert (P : (0 < rings s L 0 * per_ring s L <= T * (2 * L))%Z) by (destruct H as [->| ->]; cbn [rings per_ring]; unfold T; nia).
    unfold R1, M. rewrite <- !mult_IZR. split; [split|split].
    - apply sqrt_lt_R0, IZR_lt. lia.
    - apply sqrt_le_1_alt, IZR_le. lia.
    - rewrite <- sqrt_1. apply sqrt_le_1_alt, IZR_le. unfold T. nia.
    - apply sqrt_le_1_alt, IZR_le. unfold T. nia.
  Qed.
  Lemma resample_near s f e sz d : mwx s -> rel f e (rings s L 0) (per_ring s L) (R1 s * sz) (R1 s * d) -> 0 <= sz -> 0 <= d ->
    exists h e', (let* g := if streq (scheme_name s) "mw" then rs_mw_to_mwss A S f L spin else Ok f in rs_upsample A S g L spin) = Ok h /\ doubled s e L spin = Ok e' /\
      rel h e' T (2 * L) (M * (76 / 10 * sz)) (M * (10 * d + (68 * eps + 613 * u) * sz + 192 * (IZR L * eta))).
  Proof.
    intros Hm R sz0 d0. destruct (ff_bounds A u eta HA L spin HL HB HE) as (L1 & UN & U5 & U2 & U1 & UB & Hu & HE' & U3).
    destruct (sizes s Hm) as ([R0 RM] & M1 & MQ). unfold doubled.
    assert (P1 : R1 s * sz <= M * sz) by (now apply Rmult_le_compat_r). assert (P2 : R1 s * d <= M * d) by (now apply Rmult_le_compat_r).
    assert (P3 : 0 <= R1 s * sz) by (apply Rmult_le_pos; lra).
    assert (Q1 : eps * (R1 s * sz) <= eps * (M * sz)) by (apply Rmult_le_compat_l; lra). assert (Q2 : u * (R1 s * sz) <= u * (M * sz)) by (now apply Rmult_le_compat_l).
    assert (Q3 : 0 <= eps * (R1 s * sz)) by (apply Rmult_le_pos; lra). assert (Q4 : 0 <= u * (R1 s * sz)) by (now apply Rmult_le_pos).
    assert (LE : 0 <= IZR L * eta) by (apply Rmult_le_pos; lra).
    assert (Q5 : IZR L * eta <= M * (IZR L * eta)) by (rewrite <- (Rmult_1_l (IZR L * eta)) at 1; now apply Rmult_le_compat_r).
    assert (Q6 : IZR L * (sqrt (IZR (2 * L - 1)) * eta) <= M * (IZR L * eta)).
    { replace (IZR L * (sqrt (IZR (2 * L - 1)) * eta)) with (sqrt (IZR (2 * L - 1)) * (IZR L * eta)) by ring. now apply Rmult_le_compat_r. }
    assert (D0 : 0 <= R1 s * d) by (apply Rmult_le_pos; lra).
    destruct Hm as [->| ->]; cbn [scheme_name rings per_ring] in *.
    - change (streq "mw" "mw") with true. cbv iota.
      destruct (mw_to_mwss_near A u eta HA Hu S L spin eps HL Heps f e _ _ HS1 HS2 HE' R) as (g & e2 & E1 & E2 & R2).
      destruct (upsample_near A u eta HA Hu S L spin eps HL Heps g e2 _ _ HS2 HS4 R2) as (h & e3 & E3 & E4 & R3).
      exists h, e3. rewrite E1, E2. cbn [bind]. split; [exact E3|]. split; [exact E4|]. destruct R3 as (G1 & G2 & G3 & G4). split; [exact G1|]. split; [exact G2|].
      split; [eapply Rle_trans; [exact G3|]; lra|]. eapply Rle_trans; [exact G4|]. lra.
    - change (streq "mwss" "mw") with false. cbv iota. cbn [bind].
      destruct (upsample_near A u eta HA Hu S L spin eps HL Heps f e _ _ HS2 HS4 R) as (h & e3 & E3 & E4 & R3).
      exists h, e3. split; [exact E3|]. split; [exact E4|]. destruct R3 as (G1 & G2 & G3 & G4). split; [exact G1|]. split; [exact G2|].
      split; [eapply Rle_trans; [exact G3|]; lra|]. eapply Rle_trans; [exact G4|]. lra.
  Qed.

  Lemma weight_size fft ths wgl : fft_accurate fft (4 * L) eps -> mf_weights A fft "mwss" L ths wgl = mf_weights A fft "mwss" L ths wgl ->
    forall t, (0 <= t < T)%Z -> Rabs (mwss_weight L t) <= mwss_share L.
  Proof.
    intros HFF _ t Ht. destruct (ff_bounds A u eta HA L spin HL HB HE) as (L1 & UN & U5 & U2 & U1 & UB & Hu & HE' & U3).
    assert (H4 : 4 * eta <= u) by nra.
    destruct (mwss_weights_near A u eta HA Hu H4 fft L eps ths wgl HL HE ltac:(lra) HFF) as (wf & _ & _ & W). exact (proj1 (W t Ht)).
  Qed.

  Lemma scheme_in s : mwx s -> str_in (lower (scheme_name s)) ["mw"; "mwss"] = true.
  Proof. intros [->| ->]; reflexivity. Qed.

  Variable fft : vec C -> vec C.
  Hypothesis HF : irfft_accurate (f_irfft F) L (4 * L) eps.
  Hypothesis HI : ipow_accurate (f_ipow F) (2 * L) eps.
  Hypothesis HF2 : fft_accurate fft (2 * L) eps.
  Hypothesis HF4 : fft_accurate fft (4 * L) eps.

  Lemma mwx_any s o f gl wgl : mwx s -> sums_all o T -> shape f = [rings s L 0; per_ring s L]%Z ->
    exists K e flm, mf_kernel A F fft (scheme_name s) gl wgl L spin = Ok K /\ doubled s f L spin = Ok e /\ shape e = [T; 2 * L]%Z /\
      mf_forward A S fft o f K L (scheme_name s) spin = Ok flm /\
      shape flm = [L; 2 * L - 1]%Z /\ forall l m, (0 <= l < L)%Z -> (- L < m < L)%Z ->
        ((Z.abs m <= l)%Z -> (Z.abs spin <= l)%Z ->
          Cmod (get flm [l; m + L - 1]%Z - quadrature_of T (2 * L) (mwss_weight L) (mwss_theta (2 * L)) spin l m e)%C <=
          elfactor l * (27 * PI) * ((31700 * (u * N) + 615 * eps) * rms (rings s L 0) (per_ring s L) (at2 f) + 687 * (IZR L * eta))) /\
        ((l < Z.abs m \/ l < Z.abs spin)%Z -> get flm [l; m + L - 1]%Z = RtoC 0).
  Proof.
    intros Hm Ho Hf. destruct (ff_bounds A u eta HA L spin HL HB HE) as (L1 & UN & U5 & U2 & U1 & UB & Hu & HE' & U3). fold N in UN, U5, U2, UB.
    destruct (sizes s Hm) as ([R0 RM] & M1 & MQ).
    destruct (mwss_kernel A u eta HA HZ F L spin eps HL Hs HB HE Heps fft (scheme_name s) gl wgl (scheme_in s Hm) HF HI HF4) as (K & EK & HK).
    set (r := rms (rings s L 0) (per_ring s L) (at2 f)).
    assert (RR : R1 s * r = l2_map (rings s L 0) (per_ring s L) (at2 f)) by (unfold r, rms; fold (R1 s); field; lra).
    assert (r0 : 0 <= r) by (unfold r, rms; fold (R1 s); apply Rdiv_le_0_compat; [apply map_nonneg|exact R0]).
    destruct (resample_near s f f r 0 Hm) as (h & e & E1 & E2 & G1 & G2 & G3 & G4).
    { rewrite RR, Rmult_0_r. split; [exact Hf|]. split; [exact Hf|]. split; [apply Rle_refl|]. rewrite (map_ext _ _ _ (fun _ _ => RtoC 0 * RtoC 0)%C) by (intros; ring).
      rewrite map_nn, nn_scal, Cmod_0. lra. }
    { exact r0. } { lra. }
    destruct (tail_near A u eta HA HZ L spin eps HL Hs HB HE Heps fft o h e K _ _ HF2 Ho G1 HK (weight_size fft gl wgl HF4 eq_refl) G3 G4) as (flm & E3 & Sh & H).
    exists K, e, flm. split; [exact EK|]. split; [exact E2|]. split; [exact G2|]. split; [rewrite (forward_parts s fft o f h K Hm E1); exact E3|]. split; [exact Sh|].
    intros l m Hl Hmm. destruct (H l m Hl Hmm) as [H1 H2]. split; [|exact H2]. intros A1 A2. eapply Rle_trans; [exact (H1 A1 A2)|]. fold N.
    apply Rmult_le_compat_l; [apply Rmult_le_pos; [apply sqrt_pos|pose proof PI_RGT_0; lra]|].
    set (Kc := 4110 * (u * N) + 49 * eps). set (D := 10 * 0 + (68 * eps + 613 * u) * r + 192 * (IZR L * eta)).
    assert (K0 : 0 <= Kc <= 255 / 100) by (unfold Kc; lra). assert (LE : 0 <= IZR L * eta) by (apply Rmult_le_pos; lra).
    assert (D0 : 0 <= D) by (unfold D; assert (0 <= (68 * eps + 613 * u) * r) by (apply Rmult_le_pos; lra); lra).
    assert (X1 : Kc * D <= 255 / 100 * D) by (apply Rmult_le_compat_r; lra).
    assert (Y1 : u * r <= 1 / 5 * (u * N * r)) by (replace (1 / 5 * (u * N * r)) with ((1 / 5 * (u * N)) * r) by ring; apply Rmult_le_compat_r; lra).
    assert (Y2 : 0 <= eps * r) by (apply Rmult_le_pos; lra). assert (Y3 : 0 <= u * N * r) by (apply Rmult_le_pos; lra).
    replace (Kc * (76 / 10 * r + D)) with (76 / 10 * (Kc * r) + Kc * D) by ring. unfold Kc at 1. unfold D in X1 |- *. lra.
  Qed.

  Lemma mwx_analysis s o f gl wgl c d : mwx s -> sums_all o T -> shape f = [rings s L 0; per_ring s L]%Z ->
    (forall t p, (0 <= t < rings s L 0)%Z -> (0 <= p < per_ring s L)%Z -> Cmod (get f [t; p] - synth L spin c (mwx_theta s L t) (equi_longitude s L p))%C <= d) ->
    exists K flm, mf_kernel A F fft (scheme_name s) gl wgl L spin = Ok K /\ mf_forward A S fft o f K L (scheme_name s) spin = Ok flm /\
      shape flm = [L; 2 * L - 1]%Z /\ forall l m, (0 <= l < L)%Z -> (- L < m < L)%Z ->
        ((Z.abs m <= l)%Z -> (Z.abs spin <= l)%Z -> Cmod (get flm [l; m + L - 1]%Z - c l m)%C <=
          elfactor l * (27 * PI) * ((4550 * (u * N) + 291 * eps) * signal_size L spin c + 36 * d + 687 * (IZR L * eta))) /\
        ((l < Z.abs m \/ l < Z.abs spin)%Z -> get flm [l; m + L - 1]%Z = RtoC 0).
  Proof.
    intros Hm Ho Hf Hd. destruct (ff_bounds A u eta HA L spin HL HB HE) as (L1 & UN & U5 & U2 & U1 & UB & Hu & HE' & U3). fold N in UN, U5, U2, UB.
    destruct (sizes s Hm) as ([R0 RM] & M1 & MQ).
    destruct (mwss_kernel A u eta HA HZ F L spin eps HL Hs HB HE Heps fft (scheme_name s) gl wgl (scheme_in s Hm) HF HI HF4) as (K & EK & HK).
    set (Sz := signal_size L spin c). assert (r0 : 0 <= Sz) by apply signal_size_nonneg.
    assert (PR : (0 < rings s L 0)%Z /\ (0 < per_ring s L)%Z) by (destruct Hm as [->| ->]; cbn [rings per_ring]; lia).
    assert (d0 : 0 <= d) by (eapply Rle_trans; [apply Cmod_ge_0|apply (Hd 0%Z 0%Z); lia]).
    set (G := synth L spin c). set (e := mat (rings s L 0) (per_ring s L) (fun t p => G (mwx_theta s L t) (equi_longitude s L p))).
    destruct (resample_near s f e Sz d Hm) as (h & e' & E1 & E2 & G1 & G2 & G3 & G4); try assumption.
    { split; [exact Hf|]. split; [reflexivity|]. split; apply map_sup; try lia; try assumption.
      intros t p _ _. unfold at2, e. cbn [get mat nth]. apply synth_size. }
    assert (SA : sampled e' T (2 * L) (mwss_theta (2 * L)) (mwss_phi L) G).
    { assert (BL : band_limited L spin G) by apply synth_band_limited. unfold doubled in E2. destruct Hm as [->| ->]; cbn [scheme_name] in E2.
      - change (streq "mw" "mw") with true in E2. cbv iota in E2.
        destruct (C16_lemma numpy L spin G e HL BL) as (e2 & Q2 & Sa2); [split; reflexivity|]. rewrite Q2 in E2. cbn [bind] in E2.
        destruct (C17_lemma numpy L spin G e2 HL BL Sa2) as (e3 & Q3 & Sa3). rewrite Q3 in E2. injection E2 as <-. exact Sa3.
      - change (streq "mwss" "mw") with false in E2. cbv iota in E2. cbn [bind] in E2.
        destruct (C17_lemma numpy L spin G e HL BL) as (e3 & Q3 & Sa3); [split; reflexivity|]. rewrite Q3 in E2. injection E2 as <-. exact Sa3. }
    destruct SA as [_ SA].
    assert (G3' : l2_map T (2 * L) (at2 e') <= M * Sz).
    { apply map_sup; unfold T; try lia; try assumption. intros t p Ht Hp. unfold at2. rewrite SA by assumption. apply synth_size. }
    destruct (tail_near A u eta HA HZ L spin eps HL Hs HB HE Heps fft o h e' K _ _ HF2 Ho G1 HK (weight_size fft gl wgl HF4 eq_refl) G3' G4) as (flm & E3 & Sh & H).
    exists K, flm. split; [exact EK|]. split; [rewrite (forward_parts s fft o f h K Hm E1); exact E3|]. split; [exact Sh|].
    intros l m Hl Hmm. destruct (H l m Hl Hmm) as [H1 H2]. split; [|exact H2]. intros A1 A2. specialize (H1 A1 A2).
    assert (QE : quadrature_of T (2 * L) (mwss_weight L) (mwss_theta (2 * L)) spin l m e' = c l m).
    { rewrite <- (quadrature_same L spin c l m (mwss_weight L) (mwss_theta (2 * L)) T HL Hl Hmm A2 A1 (fun k Hk => mwss_weight_exact L k HL Hk)).
      unfold quadrature_of. apply cr_ext. intros t Ht. apply cr_ext. intros p Hp. do 2 f_equal. rewrite SA by assumption. unfold mat. cbn [get nth]. reflexivity. }
    fold T in H1. rewrite QE in H1. eapply Rle_trans; [exact H1|]. fold N.
    apply Rmult_le_compat_l; [apply Rmult_le_pos; [apply sqrt_pos|pose proof PI_RGT_0; lra]|].
    set (Kc := 4110 * (u * N) + 49 * eps). set (D := 10 * d + (68 * eps + 613 * u) * Sz + 192 * (IZR L * eta)).
    assert (K0 : 0 <= Kc <= 255 / 100) by (unfold Kc; lra). assert (LE : 0 <= IZR L * eta) by (apply Rmult_le_pos; lra).
    assert (D0 : 0 <= D) by (unfold D; assert (0 <= (68 * eps + 613 * u) * Sz) by (apply Rmult_le_pos; lra); lra).
    assert (X1 : Kc * D <= 255 / 100 * D) by (apply Rmult_le_compat_r; lra).
    assert (Y1 : u * Sz <= 1 / 5 * (u * N * Sz)) by (replace (1 / 5 * (u * N * Sz)) with ((1 / 5 * (u * N)) * Sz) by ring; apply Rmult_le_compat_r; lra).
    assert (Y2 : 0 <= eps * Sz) by (apply Rmult_le_pos; lra). assert (Y3 : 0 <= u * N * Sz) by (apply Rmult_le_pos; lra).
    replace (Kc * (Sz + D)) with (Kc * Sz + Kc * D) by ring. unfold Kc at 1. unfold D in X1 |- *. lra.
  Qed.

  Lemma mwx_round_trip s o o' flm gl wgl : mwx s -> irfft_accurate (f_irfft F) L (kernel_nsamps (scheme_name s) (rings s L 0)) eps ->
    ifft_accurate (f_ifft F) (per_ring s L) eps -> sums_all o L -> sums_all o' T -> shape flm = [L; 2 * L - 1]%Z ->
    exists ths K f KW flm', pf_thetas A (scheme_name s) L gl = Ok ths /\ pf_kernel A F (scheme_name s) ths L spin = Ok K /\ pf_inverse A F o flm K L (scheme_name s) spin = Ok f /\
      mf_kernel A F fft (scheme_name s) gl wgl L spin = Ok KW /\ mf_forward A S fft o' f KW L (scheme_name s) spin = Ok flm' /\
      shape flm' = [L; 2 * L - 1]%Z /\ forall l m, (0 <= l < L)%Z -> (- L < m < L)%Z ->
        ((Z.abs m <= l)%Z -> (Z.abs spin <= l)%Z -> Cmod (get flm' [l; m + L - 1]%Z - stored L flm l m)%C <=
          elfactor l * (27 * PI) * ((81000 * (u * N) + 1011 * eps) * signal_size L spin (stored L flm) + 2530 * (IZR L * IZR L) * eta)) /\
        ((l < Z.abs m \/ l < Z.abs spin)%Z -> get flm' [l; m + L - 1]%Z = RtoC 0).
  Proof.
    intros Hm HF' HIF Ho Ho' Hf. destruct (ff_bounds A u eta HA L spin HL HB HE) as (L1 & UN & U5 & U2 & U1 & UB & Hu & HE' & U3). fold N in UN, U5, U2, UB.
    assert (Heps' : 0 <= eps <= / 20) by lra.
    destruct (equi_kernel A u eta HA HZ F L spin eps HL Hs HB HE' Heps' s (fun _ => 0) gl) as (ths & K & x & E1 & El & E3 & E4 & H); auto.
    { destruct Hm; auto. }
    destruct (inverse_top A u eta HA HZ F L spin eps HL Hs HB HE' Heps' s (fun _ => 0) o flm K x (13 * u) ltac:(destruct Hm as [->| ->]; discriminate) Hf Ho ltac:(lra) HIF H) as (f & E5 & Sh & Hb).
    { intros t y Ht C. now apply E3. }
    set (Sz := signal_size L spin (stored L flm)) in *. fold N in Hb. assert (S0 : 0 <= Sz) by apply signal_size_nonneg.
    assert (Hb' : forall t p, (0 <= t < rings s L 0)%Z -> (0 <= p < per_ring s L)%Z -> Cmod (get f [t; p] - synth L spin (stored L flm) (mwx_theta s L t) (equi_longitude s L p))%C <=
      (2123 * (u * N) + 20 * eps) * Sz + 51 * (IZR L * IZR L) * eta).
    { intros t p Ht Hp. specialize (Hb t p (mwx_theta s L t) Ht Hp ltac:(destruct Hm as [->| ->]; reflexivity)).
      replace (longitude s L 0 t p) with (equi_longitude s L p) in Hb by (destruct Hm as [->| ->]; reflexivity).
      eapply Rle_trans; [exact Hb|]. apply Rplus_le_compat_r, Rmult_le_compat_r; [exact S0|]. lra. }
    destruct (mwx_analysis s o' f gl wgl (stored L flm) _ Hm Ho' Sh Hb') as (KW & flm' & E6 & E7 & Sh' & G).
    exists ths, K, f, KW, flm'. repeat (split; [assumption|]). intros l m Hl Hmm. destruct (G l m Hl Hmm) as [G1 G2]. split; [|exact G2].
    intros M1 M2. eapply Rle_trans; [exact (G1 M1 M2)|]. apply Rmult_le_compat_l.
    { apply Rmult_le_pos; [apply sqrt_pos|]. pose proof PI_RGT_0. lra. }
    fold Sz. assert (Q0 : 0 <= IZR L * IZR L * eta) by (repeat apply Rmult_le_pos; lra).
    assert (X2 : IZR L * eta <= IZR L * IZR L * eta) by (apply Rmult_le_compat_r; nra).
    assert (US : 0 <= u * N * Sz) by (now apply Rmult_le_pos). assert (ES : 0 <= eps * Sz) by (apply Rmult_le_pos; lra). lra.
  Qed.
End Float.
