(** The precomputed forward Wigner transform in rounded arithmetic, from the colatitudes to the coefficients. *)
From Coq Require Import Reals Lra Lia ZifyBool.
From Coquelicot Require Import Complex.
From Verif Require Import Lib.Py Lib.PyFacts Lib.Vec Lib.VecFacts Lib.Sums Lib.Cplx Lib.Arr Lib.ArrFacts Lib.MatFacts Model.Index Model.Samples Model.FFT Model.Quadrature
  Model.RisboFloat Model.Spherical Model.Precompute Model.PrecomputeFloat Model.ForwardFloat Model.Wigner Model.FourierWigner Model.PrecomputeWigner Model.WignerFloat Model.WignerForwardFloat
  Spec.SamplesSpec Spec.WignerSpec Spec.SphereSpec Spec.GridSpec Spec.QuadSpec Spec.SphericalSpec Spec.SO3Spec Spec.OTFWignerSpec Spec.RoundingSpec Spec.PrecomputeFloatSpec Spec.ForwardFloatSpec
  Spec.WignerFloatSpec Spec.WignerForwardFloatSpec
  Proofs.QuadProofs Proofs.RisboProofs Proofs.SphGrid Proofs.SpectralBound Proofs.RisboFloatProofs Proofs.FloatKernel Proofs.FloatInverse Proofs.FloatFourier Proofs.FloatTop Proofs.FloatWeights
  Proofs.WignerInverse Proofs.WignerForward Proofs.WignerRound Proofs.PWKernel Proofs.FloatForward Proofs.FloatForwardTop Proofs.FloatWigner Proofs.FloatWignerFourier Proofs.FloatWignerForward Proofs.CBackendBound Proofs.GaussBounds.
Open Scope R_scope.

Lemma so3_synth_size L N c alpha beta gamma : Cmod (so3_synth L N c alpha beta gamma) <= so3_size L N c.
Proof.
  unfold so3_synth, so3_size. apply csum_le. intros n _. apply csum_le. intros l Hl. apply in_zrange in Hl. apply csum_le. intros m _.
  fold (wfac l). pose proof (wfac_lower l ltac:(lia)) as E. unfold Dconj. rewrite !Cmod_mult, !Cmod_cis, !Cmod_R, (Rabs_right (wfac l)) by lra.
  pose proof (wigner_le1 l m n beta). pose proof (Cmod_ge_0 (c n l m)). rewrite <- (Rmult_1_r (wfac l * Cmod (c n l m))) at 2.
  apply Rmult_le_compat_l; [apply Rmult_le_pos; lra|]. lra.
Qed.

(** ** Band-limited signals *)
Lemma wigner_sum_exact s L N w th c n l m : s = DH \/ s = GL -> (1 <= N <= L)%Z -> (- N < n < N)%Z -> (0 <= l < L)%Z -> (- L < m < L)%Z -> (Z.abs n <= l)%Z -> (Z.abs m <= l)%Z ->
  (forall k, (- (2 * L) < k < 2 * L)%Z -> rsum (zrange 0 (rings s L 0)) (fun t => IZR (2 * L - 1) * w t * cos (IZR k * th t)) = 2 * PI * Re (mw_weights k)) ->
  wigner_sum s L N 0 w th (fun g t p => so3_synth L N c (2 * PI * IZR p / IZR (2 * L - 1)) (th t) (2 * PI * IZR g / IZR (2 * N - 1))) n l m = c n l m.
Proof.
  intros Hs HN Hn Hl Hm N1 M1 HQ. set (T := rings s L 0) in *.
  assert (QE := quadrature_exact L T w th (- n) (fun l m => RtoC (so3_scale l) * c n l m)%C l m ltac:(lia) Hl Hm ltac:(lia) M1 HQ).
  rewrite quadrature_rings in QE. rewrite Z.opp_involutive in QE.
  assert (E0 : elfactor l <> 0) by (pose proof (elfactor_lower l ltac:(lia)); lra).
  assert (NE : norm3 l * elfactor l = 1).
  { unfold norm3, elfactor. rewrite <- sqrt_mult_alt.
    - rewrite <- sqrt_1. f_equal. field. split; [pose proof PI_RGT_0; lra|apply (IZR_neq _ 0); lia].
    - apply Rmult_le_pos; [pose proof PI_RGT_0; lra|]. left. apply Rinv_0_lt_compat, IZR_lt. lia. }
  transitivity (RtoC (2 * PI * norm3 l) * (RtoC (so3_scale l) * c n l m))%C.
  2:{ rewrite Cmult_assoc, <- RtoC_mult. replace (2 * PI * norm3 l * so3_scale l) with (2 * PI * so3_scale l * norm3 l) by ring. rewrite scale_norm by lia. ring. }
  rewrite <- QE. rewrite <- !cs_scal_l. unfold wigner_sum. fold T. apply cr_ext. intros t Ht.
  assert (ring_size s L 0 t = 2 * L - 1)%Z as -> by (destruct Hs as [->| ->]; reflexivity).
  unfold ring_dft. rewrite <- !cs_scal_l. apply cr_ext. intros p Hp. cbn [mat get nth].
  replace (longitude s L 0 t p) with (2 * PI * IZR p / IZR (2 * L - 1)) by (destruct Hs as [->| ->]; reflexivity). set (phi := 2 * PI * IZR p / IZR (2 * L - 1)).
  set (f := mkArr [2 * N - 1]%Z (fun ix => so3_synth L N c phi (th t) (2 * PI * IZR (nth 0 ix 0%Z) / IZR (2 * N - 1)))).
  assert (CF : comp N f n [] = (RtoC (2 * PI) * part3 L n (c n) phi (th t))%C).
  { apply (comp_fourier N f n [] (fun k => part3 L k (c k) phi (th t)) ltac:(lia) Hn). intros g Hg. unfold f. cbn [get nth]. rewrite so3_synth_parts.
    apply cr_ext. intros k Hk. now rewrite gamma_root by lia. }
  assert (CE : (RtoC (2 * PI / IZR (2 * N - 1)) * csum (zrange 0 (2 * N - 1)) (fun g => so3_synth L N c phi (th t) (2 * PI * IZR g / IZR (2 * N - 1)) * cis (- (IZR n * (2 * PI * IZR g / IZR (2 * N - 1)))))%C)%C
    = (RtoC (2 * PI) * part3 L n (c n) phi (th t))%C).
  { rewrite <- CF. unfold comp. f_equal. apply cr_ext. intros g Hg. unfold f. cbn [get nth]. f_equal.
    replace (- (n * g))%Z with ((- n) * g)%Z by lia. rewrite <- gamma_root by lia. f_equal. rewrite opp_IZR. ring. }
  rewrite CE, <- component. rewrite sgn_opp.
  replace (RtoC (2 * PI * norm3 l)) with (RtoC (2 * PI) * RtoC (norm3 l))%C by (now rewrite <- RtoC_mult). rewrite !RtoC_mult.
  transitivity (RtoC (2 * PI) * (RtoC (norm3 l) * RtoC (elfactor l)) * RtoC (sgn n) * (RtoC (w t) * RtoC (wigner_d l m n (th t)) *
    (synth L (- n) (fun l m => RtoC (so3_scale l) * c n l m) (th t) phi * cis (- (IZR m * phi)))))%C.
  - rewrite <- (RtoC_mult (norm3 l)), NE. rewrite !RtoC_mult. ring.
  - rewrite !RtoC_mult. ring.
Qed.
Lemma wigner_sum_diff s L N w V th v v' n l m d : s = DH \/ s = GL -> (1 <= N <= L)%Z -> (forall t, (0 <= t < rings s L 0)%Z -> Rabs (w t) <= V t) ->
  (forall g t p, (0 <= g < 2 * N - 1)%Z -> (0 <= t < rings s L 0)%Z -> (0 <= p < 2 * L - 1)%Z -> Cmod (v g t p - v' g t p)%C <= d) ->
  Cmod (wigner_sum s L N 0 w th v n l m - wigner_sum s L N 0 w th v' n l m)%C <= rsum (zrange 0 (rings s L 0)) V * IZR (2 * L - 1) * (2 * PI) * d.
Proof.
  intros Hs HN HV H. set (T := rings s L 0) in *. pose proof (cN_pos N ltac:(lia)) as C0.
  replace (rsum (zrange 0 T) V * IZR (2 * L - 1) * (2 * PI) * d) with (rsum (zrange 0 T) (fun t => V t * (IZR (2 * L - 1) * (2 * PI) * d))) by (rewrite rs_scal_r; ring).
  unfold wigner_sum. fold T. rewrite <- cs_minus. apply csum_le. intros t Ht. apply in_zrange in Ht.
  assert (ring_size s L 0 t = 2 * L - 1)%Z as -> by (destruct Hs as [->| ->]; reflexivity).
  match goal with |- Cmod (RtoC ?a * ?b - RtoC ?a * ?c)%C <= _ => replace (RtoC a * b - RtoC a * c)%C with (RtoC a * (b - c))%C by ring end.
  rewrite Cmod_mult, Cmod_R. apply Rmult_le_compat; try apply Rabs_pos; try apply Cmod_ge_0.
  { rewrite Rabs_mult. pose proof (wigner_le1 l m n (th t)). rewrite <- (Rmult_1_r (V t)). apply Rmult_le_compat; try apply Rabs_pos; [now apply HV|assumption]. }
  rewrite <- cs_minus. replace (IZR (2 * L - 1) * (2 * PI) * d) with (rsum (zrange 0 (2 * L - 1)) (fun _ => 2 * PI * d)) by (rewrite sum_const by lia; ring).
  apply csum_le. intros p Hp. apply in_zrange in Hp. fold (cN N).
  match goal with |- Cmod (?a * (?b * ?c) - ?a * (?b * ?c'))%C <= _ => replace (a * (b * c) - a * (b * c'))%C with (a * b * (c - c'))%C by ring end.
  rewrite !Cmod_mult, Cmod_cis, Cmod_R, (Rabs_right (cN N)), Rmult_1_l by lra. rewrite <- cs_minus.
  apply Rle_trans with (cN N * (IZR (2 * N - 1) * d)).
  - apply Rmult_le_compat_l; [lra|]. rewrite <- (sum_const (2 * N - 1) d) by lia. apply csum_le. intros g Hg. apply in_zrange in Hg.
    match goal with |- Cmod (?a * ?c - ?b * ?c)%C <= _ => replace (a * c - b * c)%C with ((a - b) * c)%C by ring end. rewrite Cmod_mult, Cmod_cis, Rmult_1_r. now apply H.
  - right. unfold cN. field. apply (IZR_neq _ 0). lia.
Qed.
Lemma weighted_le3 N T P V f B : (1 <= N)%Z -> (0 <= P)%Z -> (forall t, (0 <= t < T)%Z -> 0 <= V t) ->
  (forall g t p, (0 <= g < 2 * N - 1)%Z -> (0 <= t < T)%Z -> (0 <= p < P)%Z -> Cmod (get f [g; t; p]) <= B) ->
  weighted_size3 (2 * N - 1) T P V f <= rsum (zrange 0 T) V * IZR P * (2 * PI) * B.
Proof.
  intros HN HP HV H. unfold weighted_size3. fold (cN N). pose proof (cN_pos N HN) as C0.
  replace (rsum (zrange 0 T) V * IZR P * (2 * PI) * B) with (cN N * rsum (zrange 0 T) (fun t => V t * (IZR P * (IZR (2 * N - 1) * B)))).
  2:{ rewrite rs_scal_r. unfold cN. field. apply (IZR_neq _ 0). lia. }
  apply Rmult_le_compat_l; [lra|]. apply rr_le. intros t Ht. apply Rmult_le_compat_l; [now apply HV|]. unfold ring_abs3.
  rewrite <- (sum_const P (IZR (2 * N - 1) * B)) by exact HP. apply rr_le. intros p Hp. rewrite <- (sum_const (2 * N - 1) B) by lia. apply rr_le. intros g Hg. now apply H.
Qed.
Lemma weighted_nonneg3 N T P V f : (1 <= N)%Z -> (forall t, (0 <= t < T)%Z -> 0 <= V t) -> 0 <= weighted_size3 (2 * N - 1) T P V f.
Proof.
  intros HN HV. unfold weighted_size3. fold (cN N). pose proof (cN_pos N HN) as C0. apply Rmult_le_pos; [lra|]. apply rs_nonneg. intros t Ht. apply in_zrange in Ht.
  apply Rmult_le_pos; [now apply HV|]. apply rs_nonneg. intros. apply rs_nonneg. intros. apply Cmod_ge_0.
Qed.
Lemma weighted_const3 N L T V f : (1 <= N <= L)%Z -> (1 <= T)%Z ->
  weighted_size3 (2 * N - 1) T (2 * L - 1) (fun _ => V) f = rsum (zrange 0 T) (fun _ => V) * IZR (2 * L - 1) * (2 * PI) * mean_abs3 (2 * N - 1) T (2 * L - 1) f.
Proof.
  intros HN HT. unfold weighted_size3, mean_abs3. rewrite rs_scal_l, sum_const by lia. rewrite !mult_IZR. field.
  repeat split; apply (IZR_neq _ 0); lia.
Qed.
Lemma wdl_weaken a N T L x b b' : wdl_near a N T L x b -> b <= b' -> wdl_near a N T L x b'.
Proof.
  intros [S H] Hb. split; [exact S|]. intros k t l i Hk Ht Hl Hi. specialize (H k t l i Hk Ht Hl Hi). destruct (adm_b _ _ _); [lra|exact H].
Qed.
Lemma w3_weaken K N T L y w V kap kap' : w3_near K N T L y w V kap -> (1 <= N)%Z -> kap <= kap' -> (forall t, (0 <= t < T)%Z -> 0 <= V t) -> w3_near K N T L y w V kap'.
Proof.
  intros [S H] HN Hk HV. split; [exact S|]. intros k t l i Hk' Ht Hl Hi. specialize (H k t l i Hk' Ht Hl Hi). destruct (adm_b _ _ _); [|exact H].
  eapply Rle_trans; [exact H|]. apply Rmult_le_compat_r; [|exact Hk]. apply Rmult_le_pos; [now apply HV|]. left. now apply cN_pos.
Qed.

Section Top.
  Variables (A : arith) (u eta : R).
  Hypothesis HA : rounded A u eta.
  Hypothesis HZ : zeros_exact A.
  Let u0 : 0 <= u := rd_u _ _ _ HA.
  Let e0 : 0 <= eta := rd_eta _ _ _ HA.
  Variables (L N : Z) (eps : R).
  Hypothesis HN : (1 <= N <= L)%Z.
  Hypothesis HB : 2000 * u * (IZR L * (2 * IZR L + 3)) <= 1.
  Hypothesis HE : 4 * IZR L ^ 3 * eta <= u.
  Hypothesis Heps : 0 <= eps <= / 20.
  Let X := IZR L * (2 * IZR L + 3).

  Lemma xf_bounds : 1 <= IZR L /\ 0 <= u * X /\ 5 * (u * IZR L) <= u * X /\ 2 * (u * (IZR L * IZR L)) <= u * X /\ 5 * u <= u * X /\ 2000 * (u * X) <= 1 /\ u <= / 1000 /\
    4 * (IZR L * IZR L) * eta <= u /\ 4 * IZR L * eta <= u /\ 4 * eta <= u /\ IZR N * eta <= u /\ 0 <= u * IZR L /\ fbound u L = 200 * (u * X) /\ IZR (2 * L) * eta <= u.
  Proof.
    assert (L1 : 1 <= IZR L) by (apply IZR_le; lia). assert (N1 : IZR N <= IZR L) by (apply IZR_le; lia). unfold X.
    assert (U0 : 0 <= u * IZR L) by (apply Rmult_le_pos; lra). assert (U2 : 0 <= u * (IZR L * IZR L)) by (apply Rmult_le_pos; nra).
    assert (U1 : u * 1 <= u * IZR L) by (apply Rmult_le_compat_l; lra). assert (U3 : u * IZR L * 1 <= u * IZR L * IZR L) by (apply Rmult_le_compat_l; lra).
    assert (T0 : 0 <= IZR L * eta) by (apply Rmult_le_pos; lra). assert (T1 : 1 * eta <= IZR L * eta) by (apply Rmult_le_compat_r; lra).
    assert (T2 : 1 * (IZR L * eta) <= IZR L * (IZR L * eta)) by (apply Rmult_le_compat_r; lra).
    assert (T3 : 1 * (IZR L * (IZR L * eta)) <= IZR L * (IZR L * (IZR L * eta))) by (apply Rmult_le_compat_r; [apply Rmult_le_pos; lra|lra]).
    assert (T4 : IZR N * eta <= IZR L * eta) by (apply Rmult_le_compat_r; lra).
    cbn [pow] in HE. unfold fbound. rewrite !mult_IZR, plus_IZR, mult_IZR. repeat split; lra.
  Qed.

  (** *** Any rule *)
  Lemma xf_analysis s fftg fftp o f KW y w V kap K1 B c d : s = DH \/ s = GL -> shape f = [2 * N - 1; rings s L 0; 2 * L - 1]%Z ->
    sums_all o (rings s L 0) -> 0 <= kap <= 2 -> 6 * u * IZR (rings s L 0) <= 1 -> fft_accurate fftg (2 * N - 1) eps -> fft_accurate fftp (2 * L - 1) eps ->
    (forall t, (0 <= t < rings s L 0)%Z -> Rabs (w t) <= V t) -> w3_near KW N (rings s L 0) L y w V kap ->
    (forall k, (- (2 * L) < k < 2 * L)%Z -> rsum (zrange 0 (rings s L 0)) (fun t => IZR (2 * L - 1) * w t * cos (IZR k * y t)) = 2 * PI * Re (mw_weights k)) ->
    rsum (zrange 0 (rings s L 0)) V * IZR (2 * L - 1) = B -> (23 / 10) * (kap + 15 * u * IZR (rings s L 0)) + (21 / 10) * eps <= K1 ->
    (forall g t p, (0 <= g < 2 * N - 1)%Z -> (0 <= t < rings s L 0)%Z -> (0 <= p < 2 * L - 1)%Z ->
      Cmod (get f [g; t; p] - so3_synth L N c (2 * PI * IZR p / IZR (2 * L - 1)) (y t) (2 * PI * IZR g / IZR (2 * N - 1)))%C <= d) ->
    exists flmn, xf_forward A fftg fftp o f KW L N (scheme_name s) = Ok flmn /\ shape flmn = [2 * N - 1; L; 2 * L - 1]%Z /\
      forall n l m, (- N < n < N)%Z -> (0 <= l < L)%Z -> (- L < m < L)%Z ->
        ((Z.abs m <= l)%Z -> (Z.abs n <= l)%Z -> Cmod (stored3 L N flmn n l m - c n l m)%C <= B * (2 * PI) * (K1 * (so3_size L N c + d) + d) + 12 * IZR (rings s L 0) * eta) /\
        ((l < Z.abs m \/ l < Z.abs n)%Z -> stored3 L N flmn n l m = RtoC 0).
  Proof.
    intros Hs Hf Ho Hk HuT HG HP HV HK HQ EB HK1 Hd. destruct xf_bounds as (L1 & UX & U5 & U2 & U1 & UB & Hu & HE2 & HE1 & HE0 & HEN & UL & _).
    destruct (xf_forward_near A u eta HA HZ Hu s fftg fftp o f KW L N y w V kap eps Hs HN Hf Ho Hk HuT Heps HG HP HV HK) as (flmn & E1 & Sh & H).
    set (T := rings s L 0) in *. assert (V0 : forall t, (0 <= t < T)%Z -> 0 <= V t) by (intros t Ht; specialize (HV t Ht); pose proof (Rabs_pos (w t)); lra).
    exists flmn. split; [exact E1|]. split; [exact Sh|]. intros n l m Hn Hl Hm. destruct (H n l m Hn Hl Hm) as [H1 H0]. split; [|exact H0]. intros M1 M2.
    assert (D := wigner_sum_diff s L N w V y (fun g t p => get f [g; t; p])
      (fun g t p => so3_synth L N c (2 * PI * IZR p / IZR (2 * L - 1)) (y t) (2 * PI * IZR g / IZR (2 * N - 1))) n l m d Hs HN HV Hd).
    rewrite (wigner_sum_exact s L N w y c n l m Hs HN Hn Hl Hm M2 M1 HQ) in D. fold T in D. rewrite EB in D.
    assert (SB : weighted_size3 (2 * N - 1) T (2 * L - 1) V f <= B * (2 * PI) * (so3_size L N c + d)).
    { rewrite <- EB. apply weighted_le3; [lia|lia|exact V0|]. intros g t p Hg Ht Hp. specialize (Hd g t p Hg Ht Hp).
      set (z := so3_synth L N c _ _ _) in *. replace (get f [g; t; p]) with (z + (get f [g; t; p] - z))%C by ring. eapply Rle_trans; [apply Cmod_triangle|].
      apply Rplus_le_compat; [apply so3_synth_size|exact Hd]. }
    pose proof (weighted_nonneg3 N T (2 * L - 1) V f ltac:(lia) V0) as W0.
    set (q := wigner_sum s L N 0 w y (fun g t p => get f [g; t; p]) n l m) in *. replace (stored3 L N flmn n l m - c n l m)%C with ((stored3 L N flmn n l m - q) + (q - c n l m))%C by ring.
    eapply Rle_trans; [apply Cmod_triangle|].
    assert (K0 : 0 <= (23 / 10) * (kap + 15 * u * IZR T) + (21 / 10) * eps).
    { assert (0 <= u * IZR T) by (apply Rmult_le_pos; [exact u0|]; apply IZR_le; unfold T; destruct Hs as [->| ->]; cbn [rings]; lia). lra. }
    set (WS := weighted_size3 (2 * N - 1) T (2 * L - 1) V f) in *.
    assert (X1 : ((23 / 10) * (kap + 15 * u * IZR T) + (21 / 10) * eps) * WS <= K1 * (B * (2 * PI) * (so3_size L N c + d))) by (apply Rmult_le_compat; assumption).
    lra.
  Qed.

  (** *** Driscoll-Healy rings *)
  Lemma dh_cN t : eta <= u * (dh_share L * cN N) /\ 0 <= dh_share L /\ (0 <= t < 2 * L)%Z = (0 <= t < rings DH L 0)%Z.
  Proof.
    destruct xf_bounds as (L1 & UX & U5 & U2 & U1 & UB & Hu & HE2 & HE1 & HE0 & HEN & UL & _). destruct (dh_weight_size L 0 ltac:(lia)) as [D1 D2].
    split; [|split; [lra|reflexivity]]. assert (N1 : 1 <= IZR N) by (apply IZR_le; lia). assert (NL : IZR N <= IZR L) by (apply IZR_le; lia).
    assert (L3 : 0 < IZR L ^ 3) by (apply pow_lt; lra).
    assert (W : / IZR L ^ 3 <= dh_share L * cN N).
    { unfold dh_share, cN. pose proof PI2_3_2 as P. assert (P1 : 3 < PI) by lra.
      assert (M1 : 0 < IZR (2 * L - 1) <= 2 * IZR L) by (split; [apply IZR_lt; lia|rewrite <- mult_IZR; apply IZR_le; lia]).
      assert (M2 : 0 < IZR (2 * N - 1) <= 2 * IZR L) by (split; [apply IZR_lt; lia|rewrite <- mult_IZR; apply IZR_le; lia]).
      replace (4 * PI / (IZR L * IZR (2 * L - 1)) * (2 * PI / IZR (2 * N - 1))) with (8 * (PI * PI) * / (IZR L * (IZR (2 * L - 1) * IZR (2 * N - 1)))) by (field; repeat split; lra).
      apply Rle_trans with (8 * (PI * PI) * / (IZR L * (2 * IZR L * (2 * IZR L)))).
      - replace (8 * (PI * PI) * / (IZR L * (2 * IZR L * (2 * IZR L)))) with (2 * (PI * PI) * / IZR L ^ 3) by (field; lra).
        assert (0 < / IZR L ^ 3) by (now apply Rinv_0_lt_compat). rewrite <- (Rmult_1_l (/ IZR L ^ 3)) at 1. apply Rmult_le_compat_r; [lra|]. nra.
      - apply Rmult_le_compat_l; [nra|]. apply Rinv_le_contravar.
        + apply Rmult_lt_0_compat; [lra|]. apply Rmult_lt_0_compat; lra.
        + apply Rmult_le_compat_l; [lra|]. apply Rmult_le_compat; lra. }
    apply Rle_trans with (u * / IZR L ^ 3); [|now apply Rmult_le_compat_l].
    apply (Rmult_le_reg_l (IZR L ^ 3)); [exact L3|]. replace (IZR L ^ 3 * (u * / IZR L ^ 3)) with u by (field; lra).
    assert (0 <= IZR L ^ 3 * eta) by (apply Rmult_le_pos; lra). lra.
  Qed.
  Lemma xf_dh_weigh a ths x b : wdl_near a N (2 * L) L x b -> 0 <= b -> b + 26 / 10 * (u * X) <= 1 ->
    (forall t, (0 <= t < 2 * L)%Z -> Rabs (x t - dh_theta L t) <= 13 * u) ->
    vlen ths = (2 * L)%Z -> (forall t, (0 <= t < 2 * L)%Z -> Rabs (vat ths t - dh_theta L t) <= 13 * u) ->
    exists KW, xf_weigh A a (ff_weights_dh A ths L) N = Ok KW /\
      w3_near KW N (2 * L) L (dh_theta L) (fun t => dh_weight L (dh_theta L t)) (fun _ => dh_share L) (b + 90 * (u * X)).
  Proof.
    intros Ha Hb Hb' Hx El Ht. destruct xf_bounds as (L1 & UX & U5 & U2 & U1 & UB & Hu & HE2 & HE1 & HE0 & HEN & UL & _).
    assert (H2 := wdl_move a N (2 * L) L x (dh_theta L) b (13 * u) Ha ltac:(lia) ltac:(lra) Hx).
    destruct (dh_weights_near A u eta HA L 0 ltac:(lia) ltac:(cbn; lia) HB HE2 ths El Ht) as [Wl W].
    assert (U4 : 0 <= u * (IZR L * IZR L)) by (apply Rmult_le_pos; nra). destruct (dh_cN 0) as (DC & D0 & _).
    destruct (xf_weigh_near A u eta HA HZ Hu HE0 a N (2 * L) L (dh_theta L) _ (ff_weights_dh A ths L) (fun t => dh_weight L (dh_theta L t)) (fun _ => dh_share L)
      (81 * (u * (IZR L * IZR L))) H2 ltac:(lia) HEN Wl) as (KW & EW & HW).
    - split; lra.
    - split; lra.
    - intros t Ht'. destruct (W t Ht') as (W1 & W2 & W3). repeat split; assumption.
    - exists KW. split; [exact EW|]. apply (w3_weaken _ _ _ _ _ _ _ _ _ HW); [lia| |intros; exact D0]. lra.
  Qed.
  Lemma xf_dh_kernel gl wgl : exists ths KW, pf_thetas A "dh" L gl = Ok ths /\ xf_kernel A "dh" ths wgl L N = Ok KW /\
    w3_near KW N (2 * L) L (dh_theta L) (fun t => dh_weight L (dh_theta L t)) (fun _ => dh_share L) (290 * (u * X)).
  Proof.
    destruct xf_bounds as (L1 & UX & U5 & U2 & U1 & UB & Hu & HE2 & HE1 & HE0 & HEN & UL & FB & H2L).
    destruct (wf_thetas A u eta HA L N eps HN HB HE1 Heps DH (fun _ => 0) gl ltac:(tauto)) as (ths & E1 & El & E3). cbn [rings scheme_name] in *.
    assert (Ht : forall t, (0 <= t < 2 * L)%Z -> Rabs (vat ths t - dh_theta L t) <= 13 * u) by (intros t Ht; exact (proj2 (E3 t Ht) _ eq_refl)).
    destruct (wf_direct_near A u eta HA ths (2 * L) L N HN El ltac:(lia) ltac:(lra) H2L ltac:(intros t Ht'; apply E3, Ht')) as (a & E4 & Sa & Ha).
    assert (Ha' : wdl_near a N (2 * L) L (vat ths) (200 * (u * X))).
    { split; [exact Sa|]. intros k t l i Hk Ht' Hl Hi. specialize (Ha k t l i Hk Ht' Hl Hi). destruct (adm_b _ _ _); [|exact Ha]. eapply Rle_trans; [exact Ha|].
      rewrite <- FB. unfold fbound. apply Rmult_le_compat_l; [lra|]. apply IZR_le. apply Z.mul_le_mono_nonneg; lia. }
    destruct (xf_dh_weigh a ths (vat ths) _ Ha' ltac:(lra) ltac:(lra) Ht El Ht) as (KW & E5 & H5).
    exists ths, KW. split; [exact E1|]. split.
    - unfold xf_kernel. rewrite E4. cbn [bind]. unfold ff_weights. change (streq (lower "dh") "dh") with true. cbn [bind]. exact E5.
    - apply (w3_weaken _ _ _ _ _ _ _ _ _ H5); [lia|lra|intros; apply (dh_cN 0)].
  Qed.
  Lemma xf_dh_kernel_fft F gl wgl : irfft_accurate (f_irfft F) L (4 * L) eps -> ipow_accurate (f_ipow F) (2 * L) eps ->
    exists ths KW, pf_thetas A "dh" L gl = Ok ths /\ xf_kernel_fft A F "dh" ths wgl L N = Ok KW /\
    w3_near KW N (2 * L) L (dh_theta L) (fun t => dh_weight L (dh_theta L t)) (fun _ => dh_share L) (997 * (u * X) + 107 / 10 * eps).
  Proof.
    intros HF HI. destruct xf_bounds as (L1 & UX & U5 & U2 & U1 & UB & Hu & HE2 & HE1 & HE0 & HEN & UL & FB & H2L).
    destruct (wf_thetas A u eta HA L N eps HN HB HE1 Heps DH (fun _ => 0) gl ltac:(tauto)) as (ths & E1 & El & E3). cbn [rings scheme_name] in *.
    assert (Ht : forall t, (0 <= t < 2 * L)%Z -> Rabs (vat ths t - dh_theta L t) <= 13 * u) by (intros t Ht; exact (proj2 (E3 t Ht) _ eq_refl)).
    assert (T0 : forall t, dh_theta L t = dh_theta L 0 + 2 * PI * IZR t / IZR (4 * L)).
    { intros t. exact (equi_step L N HN DH (fun _ => 0) t (dh_theta L 0) (dh_theta L t) ltac:(tauto) eq_refl eq_refl). }
    assert (B0 : Rabs (vat ths 0) <= 41 / 10).
    { pose proof (Ht 0%Z ltac:(lia)) as Q. destruct (theta_err A u eta HA L 0%Z eps ltac:(lia) HB HE1 Heps 1 (4 * L) (dh_theta L 0) ltac:(lia) ltac:(lia) ltac:(lia) eq_refl) as [_ Y0].
      pose proof PI_4. replace (vat ths 0) with (dh_theta L 0 + (vat ths 0 - dh_theta L 0)) by ring. eapply Rle_trans; [apply Rabs_triang|]. rewrite (Rabs_right (dh_theta L 0)) by lra. lra. }
    destruct (wf_fourier_near A u eta HA HZ Hu HE0 F L (4 * L) eps ltac:(lia) ltac:(lia) ltac:(lra) H2L Heps HF HI "dh" ths (2 * L) N (dh_points L) El ltac:(lia) HN B0) as (a & E4 & H4).
    destruct (xf_dh_weigh a ths (fun t => vat ths 0 + 2 * PI * IZR t / IZR (4 * L)) (907 * (u * X) + 107 / 10 * eps)) as (KW & E5 & H5).
    - apply (wdl_weaken _ _ _ _ _ _ _ H4). unfold wkbound, X. rewrite mult_IZR, plus_IZR, mult_IZR. lra.
    - lra.
    - lra.
    - intros t Ht'. rewrite (T0 t). match goal with |- Rabs ?z <= _ => replace z with (vat ths 0 - dh_theta L 0) by ring end. apply Ht. lia.
    - exact El.
    - exact Ht.
    - exists ths, KW. split; [exact E1|]. split.
      + unfold xf_kernel_fft. change (str_in (lower "dh") ["mw"; "mwss"; "dh"]%string) with true. cbv iota. rewrite E4. cbn [bind]. unfold ff_weights.
        change (streq (lower "dh") "dh") with true. cbn [bind]. exact E5.
      + apply (w3_weaken _ _ _ _ _ _ _ _ _ H5); [lia|lra|intros; apply (dh_cN 0)].
  Qed.

  Lemma dh_16 : 8 * PI * (2 * PI) = 16 * PI ^ 2.
  Proof. ring. Qed.
  Lemma dh_w t : (0 <= t < rings DH L 0)%Z -> Rabs (dh_weight L (dh_theta L t)) <= dh_share L.
  Proof. intros _. destruct (dh_weight_size L (dh_theta L t) ltac:(lia)). rewrite Rabs_right; lra. Qed.
  Lemma xf_dh_forward fftg fftp o f KW kap K1 : shape f = [2 * N - 1; 2 * L; 2 * L - 1]%Z -> sums_all o (2 * L) -> 0 <= kap <= 2 ->
    fft_accurate fftg (2 * N - 1) eps -> fft_accurate fftp (2 * L - 1) eps ->
    w3_near KW N (2 * L) L (dh_theta L) (fun t => dh_weight L (dh_theta L t)) (fun _ => dh_share L) kap -> (23 / 10) * (kap + 6 * (u * X)) + (21 / 10) * eps <= K1 ->
    exists flmn, xf_forward A fftg fftp o f KW L N "dh" = Ok flmn /\ shape flmn = [2 * N - 1; L; 2 * L - 1]%Z /\
      forall n l m, (- N < n < N)%Z -> (0 <= l < L)%Z -> (- L < m < L)%Z ->
        ((Z.abs m <= l)%Z -> (Z.abs n <= l)%Z ->
          Cmod (stored3 L N flmn n l m - wigner_sum DH L N 0 (fun t => dh_weight L (dh_theta L t)) (dh_theta L) (fun g t p => get f [g; t; p]) n l m)%C <=
            K1 * (16 * PI ^ 2 * mean_abs3 (2 * N - 1) (2 * L) (2 * L - 1) f) + 24 * IZR L * eta) /\
        ((l < Z.abs m \/ l < Z.abs n)%Z -> stored3 L N flmn n l m = RtoC 0).
  Proof.
    intros Hf Ho Hk HG HP HK HK1. destruct xf_bounds as (L1 & UX & U5 & U2 & U1 & UB & Hu & HE2 & HE1 & HE0 & HEN & UL & _).
    assert (E2 : IZR (2 * L) = 2 * IZR L) by apply mult_IZR.
    destruct (xf_forward_near A u eta HA HZ Hu DH fftg fftp o f KW L N (dh_theta L) (fun t => dh_weight L (dh_theta L t)) (fun _ => dh_share L) kap eps ltac:(tauto) HN Hf Ho Hk
      ltac:(cbn [rings]; rewrite E2; lra) Heps HG HP dh_w HK) as (flmn & E1 & Sh & H). cbn [rings scheme_name] in *.
    exists flmn. split; [exact E1|]. split; [exact Sh|]. intros n l m Hn Hl Hm. destruct (H n l m Hn Hl Hm) as [H1 H0]. split; [|exact H0]. intros _ _.
    rewrite weighted_const3, (dh_total L 0), dh_16, E2 in H1 by lia. eapply Rle_trans; [exact H1|].
    assert (M0 : 0 <= 16 * PI ^ 2 * mean_abs3 (2 * N - 1) (2 * L) (2 * L - 1) f).
    { rewrite <- dh_16, <- (dh_total L 0) by lia. rewrite <- weighted_const3 by lia. apply weighted_nonneg3; [lia|]. intros. apply (dh_cN 0). }
    replace (12 * (2 * IZR L) * eta) with (24 * IZR L * eta) by ring. apply Rplus_le_compat_r. apply Rmult_le_compat_r; [exact M0|]. lra.
  Qed.
  Lemma xf_dh_analysis fftg fftp o f KW kap K1 c d : shape f = [2 * N - 1; 2 * L; 2 * L - 1]%Z -> sums_all o (2 * L) -> 0 <= kap <= 2 ->
    fft_accurate fftg (2 * N - 1) eps -> fft_accurate fftp (2 * L - 1) eps ->
    w3_near KW N (2 * L) L (dh_theta L) (fun t => dh_weight L (dh_theta L t)) (fun _ => dh_share L) kap -> (23 / 10) * (kap + 6 * (u * X)) + (21 / 10) * eps <= K1 ->
    (forall g t p, (0 <= g < 2 * N - 1)%Z -> (0 <= t < 2 * L)%Z -> (0 <= p < 2 * L - 1)%Z ->
      Cmod (get f [g; t; p] - so3_synth L N c (2 * PI * IZR p / IZR (2 * L - 1)) (dh_theta L t) (2 * PI * IZR g / IZR (2 * N - 1)))%C <= d) ->
    exists flmn, xf_forward A fftg fftp o f KW L N "dh" = Ok flmn /\ shape flmn = [2 * N - 1; L; 2 * L - 1]%Z /\
      forall n l m, (- N < n < N)%Z -> (0 <= l < L)%Z -> (- L < m < L)%Z ->
        ((Z.abs m <= l)%Z -> (Z.abs n <= l)%Z -> Cmod (stored3 L N flmn n l m - c n l m)%C <= 16 * PI ^ 2 * (K1 * (so3_size L N c + d) + d + IZR L * eta)) /\
        ((l < Z.abs m \/ l < Z.abs n)%Z -> stored3 L N flmn n l m = RtoC 0).
  Proof.
    intros Hf Ho Hk HG HP HK HK1 Hd. destruct xf_bounds as (L1 & UX & U5 & U2 & U1 & UB & Hu & HE2 & HE1 & HE0 & HEN & UL & _).
    assert (E2 : IZR (2 * L) = 2 * IZR L) by apply mult_IZR.
    destruct (xf_analysis DH fftg fftp o f KW (dh_theta L) (fun t => dh_weight L (dh_theta L t)) (fun _ => dh_share L) kap K1 (8 * PI) c d ltac:(tauto) Hf Ho Hk
      ltac:(cbn [rings]; rewrite E2; lra) HG HP dh_w HK (dh_exact L 0 ltac:(lia)) (dh_total L 0 ltac:(lia) ltac:(lia)) ltac:(cbn [rings]; rewrite E2; lra) Hd) as (flmn & E1 & Sh & H). cbn [rings scheme_name] in *.
    exists flmn. split; [exact E1|]. split; [exact Sh|]. intros n l m Hn Hl Hm. destruct (H n l m Hn Hl Hm) as [H1 H0]. split; [|exact H0]. intros M1 M2.
    specialize (H1 M1 M2). rewrite dh_16, E2 in H1. pose proof PI2_3_2. assert (0 <= IZR L * eta) by (apply Rmult_le_pos; lra).
    assert (P9 : 9 <= PI ^ 2) by nra. assert (24 * (IZR L * eta) <= 16 * PI ^ 2 * (IZR L * eta)) by (apply Rmult_le_compat_r; lra). lra.
  Qed.
  Lemma trip_arith Kx Ke a b p q S T : 0 <= a -> 0 <= b -> 0 <= S -> 0 <= T -> 0 <= Kx -> 0 <= Ke -> 0 <= p -> 0 <= q ->
    forall r, Kx * a + Ke * b <= r -> (Kx * a + Ke * b) * (S + ((p * a + q * b) * S + T)) + ((p * a + q * b) * S + T) <= ((Kx + (1 + r) * p) * a + (Ke + (1 + r) * q) * b) * S + (1 + r) * T.
  Proof.
    intros a0 b0 S0 T0 K0 K0' p0 q0 r Hr. set (d := (p * a + q * b) * S + T).
    assert (d0 : 0 <= d).
    { unfold d. assert (0 <= (p * a + q * b) * S); [|lra]. apply Rmult_le_pos; [|exact S0]. assert (0 <= p * a) by now apply Rmult_le_pos. assert (0 <= q * b) by now apply Rmult_le_pos. lra. }
    assert (Z : (Kx * a + Ke * b) * d <= r * d) by (now apply Rmult_le_compat_r).
    replace ((Kx * a + Ke * b) * (S + d) + d) with ((Kx * a + Ke * b) * S + (Kx * a + Ke * b) * d + d) by ring.
    apply Rle_trans with ((Kx * a + Ke * b) * S + r * d + d); [lra|]. right. unfold d. ring.
  Qed.
  Lemma L2_tiny : IZR L * eta <= IZR N * (IZR L * IZR L) * eta /\ 0 <= IZR N * (IZR L * IZR L) * eta.
  Proof.
    assert (L1 : 1 <= IZR L) by (apply IZR_le; lia). assert (N1 : 1 <= IZR N) by (apply IZR_le; lia).
    assert (Q : 1 * IZR L <= IZR N * (IZR L * IZR L)) by (apply Rmult_le_compat; nra). split.
    - apply Rmult_le_compat_r; lra.
    - apply Rmult_le_pos; [lra|exact e0].
  Qed.
  Lemma trip_end c d K1 x S n b : K1 * (S + d) + d + IZR L * eta <= x -> Cmod (n - c)%C <= 16 * PI ^ 2 * (K1 * (S + d) + d + IZR L * eta) -> x <= b -> Cmod (n - c)%C <= 16 * PI ^ 2 * b.
  Proof.
    intros H1 H2 H3. eapply Rle_trans; [exact H2|]. apply Rmult_le_compat_l; [|lra]. pose proof (pow2_ge_0 PI). lra.
  Qed.
  Lemma xf_dh_trip F2 fftg fftp o o' flmn gl wgl : ifft2_accurate F2 (2 * N - 1) (2 * L - 1) eps -> fft_accurate fftg (2 * N - 1) eps -> fft_accurate fftp (2 * L - 1) eps ->
    sums_all o L -> sums_all o' (2 * L) -> shape flmn = [2 * N - 1; L; 2 * L - 1]%Z ->
    exists ths K f KW flmn', pf_thetas A "dh" L gl = Ok ths /\ wf_kernel A ths L N = Ok K /\ wf_inverse A F2 o flmn K L N "dh" = Ok f /\
      xf_kernel A "dh" ths wgl L N = Ok KW /\ xf_forward A fftg fftp o' f KW L N "dh" = Ok flmn' /\ shape flmn' = [2 * N - 1; L; 2 * L - 1]%Z /\
      forall n l m, (- N < n < N)%Z -> (0 <= l < L)%Z -> (- L < m < L)%Z ->
        ((Z.abs m <= l)%Z -> (Z.abs n <= l)%Z -> Cmod (stored3 L N flmn' n l m - stored3 L N flmn n l m)%C <=
          16 * PI ^ 2 * ((1440 * u * X + 5 * eps) * so3_size L N (stored3 L N flmn) + 78 * (IZR N * (IZR L * IZR L)) * eta)) /\
        ((l < Z.abs m \/ l < Z.abs n)%Z -> stored3 L N flmn' n l m = RtoC 0).
  Proof.
    intros HI HG HP Ho Ho' Hf. destruct xf_bounds as (L1 & UX & U5 & U2 & U1 & UB & Hu & HE2 & HE1 & HE0 & HEN & UL & _). destruct L2_tiny as [T1 T2].
    destruct (xf_dh_kernel gl wgl) as (ths & KW & E1 & EK & HK).
    destruct (wf_thetas A u eta HA L N eps HN HB HE1 Heps DH (fun _ => 0) gl ltac:(tauto)) as (ths' & E1' & El & E3). cbn [rings scheme_name] in *. rewrite E1 in E1'. injection E1' as <-.
    destruct (wf_kernel_top A u eta HA HZ L N eps HN HB HE1 Heps ths (2 * L) El ltac:(lia) ltac:(intros t Ht; apply E3, Ht)) as (K & E4 & HK' & _).
    destruct (wf_inverse_top A u eta HA HZ L N eps HN HB HE1 Heps DH (fun _ => 0) F2 o flmn K (vat ths) (13 * u) ltac:(discriminate) Hf Ho HI HK') as (f & E5 & Sh & Hb).
    { intros t y Ht Hy. now apply E3. }
    cbn [rings scheme_name per_ring] in *. set (S := so3_size L N (stored3 L N flmn)) in *. assert (S0 : 0 <= S) by apply so3_size_nonneg. fold X in Hb.
    assert (Hb' : forall g t p, (0 <= g < 2 * N - 1)%Z -> (0 <= t < 2 * L)%Z -> (0 <= p < 2 * L - 1)%Z ->
      Cmod (get f [g; t; p] - so3_synth L N (stored3 L N flmn) (2 * PI * IZR p / IZR (2 * L - 1)) (dh_theta L t) (2 * PI * IZR g / IZR (2 * N - 1)))%C <=
      (493 * (u * X) + 1 * eps) * S + 51 * (IZR N * (IZR L * IZR L)) * eta).
    { intros g t p Hg Ht Hp. eapply Rle_trans; [exact (Hb g t p (dh_theta L t) Hg Ht Hp eq_refl)|]. apply Rplus_le_compat_r, Rmult_le_compat_r; [exact S0|]. lra. }
    destruct (xf_dh_analysis fftg fftp o' f KW (290 * (u * X)) (690 * (u * X) + 3 * eps) _ _ Sh Ho' ltac:(split; lra) HG HP HK ltac:(lra) Hb') as (flmn' & E6 & Sh' & G).
    exists ths, K, f, KW, flmn'. repeat (split; [assumption|]). intros n l m Hn Hl Hm. destruct (G n l m Hn Hl Hm) as [G1 G2]. split; [|exact G2]. intros M1 M2.
    fold S in G1. eapply trip_end; [|exact (G1 M1 M2)|apply Rle_refl].
    assert (TA := trip_arith 690 3 (u * X) eps 493 1 S (51 * (IZR N * (IZR L * IZR L)) * eta) UX ltac:(lra) S0 ltac:(lra) ltac:(lra) ltac:(lra) ltac:(lra) ltac:(lra) (495 / 1000) ltac:(lra)).
    assert (US : 0 <= u * X * S) by (now apply Rmult_le_pos). assert (ES : 0 <= eps * S) by (apply Rmult_le_pos; lra). lra.
  Qed.
  Lemma xf_dh_trip_fft F F2 fftg fftp o o' flmn gl wgl : irfft_accurate (f_irfft F) L (4 * L) eps -> ipow_accurate (f_ipow F) (2 * L) eps ->
    ifft2_accurate F2 (2 * N - 1) (2 * L - 1) eps -> fft_accurate fftg (2 * N - 1) eps -> fft_accurate fftp (2 * L - 1) eps ->
    sums_all o L -> sums_all o' (2 * L) -> shape flmn = [2 * N - 1; L; 2 * L - 1]%Z ->
    exists ths K f KW flmn', pf_thetas A "dh" L gl = Ok ths /\ wf_kernel_fft A F "dh" ths L N = Ok K /\ wf_inverse A F2 o flmn K L N "dh" = Ok f /\
      xf_kernel_fft A F "dh" ths wgl L N = Ok KW /\ xf_forward A fftg fftp o' f KW L N "dh" = Ok flmn' /\ shape flmn' = [2 * N - 1; L; 2 * L - 1]%Z /\
      forall n l m, (- N < n < N)%Z -> (0 <= l < L)%Z -> (- L < m < L)%Z ->
        ((Z.abs m <= l)%Z -> (Z.abs n <= l)%Z -> Cmod (stored3 L N flmn' n l m - stored3 L N flmn n l m)%C <=
          16 * PI ^ 2 * ((9500 * u * X + 120 * eps) * so3_size L N (stored3 L N flmn) + 181 * (IZR N * (IZR L * IZR L)) * eta)) /\
        ((l < Z.abs m \/ l < Z.abs n)%Z -> stored3 L N flmn' n l m = RtoC 0).
  Proof.
    intros HF HPW HI HG HP Ho Ho' Hf. destruct xf_bounds as (L1 & UX & U5 & U2 & U1 & UB & Hu & HE2 & HE1 & HE0 & HEN & UL & _). destruct L2_tiny as [T1 T2].
    destruct (xf_dh_kernel_fft F gl wgl HF HPW) as (ths & KW & E1 & EK & HK).
    destruct (wf_kernel_fft_top A u eta HA HZ L N eps HN HB HE1 Heps DH (fun _ => 0) gl F ltac:(tauto) HF HPW) as (ths' & K & x & E1' & E4 & HK' & _ & Hx).
    cbn [rings scheme_name] in *. rewrite E1 in E1'. injection E1' as <-.
    destruct (wf_inverse_gen A u eta HA HZ L N eps HN HB HE1 Heps DH (fun _ => 0) F2 o flmn K x (13 * u) (kap4 u L eps) ltac:(discriminate) Hf Ho ltac:(unfold kap4; fold X; split; lra) HI HK' Hx) as (f & E5 & Sh & Hb).
    cbn [rings scheme_name per_ring] in *. set (S := so3_size L N (stored3 L N flmn)) in *. assert (S0 : 0 <= S) by apply so3_size_nonneg. unfold kap4 in Hb. fold X in Hb.
    assert (Hb' : forall g t p, (0 <= g < 2 * N - 1)%Z -> (0 <= t < 2 * L)%Z -> (0 <= p < 2 * L - 1)%Z ->
      Cmod (get f [g; t; p] - so3_synth L N (stored3 L N flmn) (2 * PI * IZR p / IZR (2 * L - 1)) (dh_theta L t) (2 * PI * IZR g / IZR (2 * N - 1)))%C <=
      (2026 * (u * X) + 262 / 10 * eps) * S + 51 * (IZR N * (IZR L * IZR L)) * eta).
    { intros g t p Hg Ht Hp. eapply Rle_trans; [exact (Hb g t p (dh_theta L t) Hg Ht Hp eq_refl)|]. apply Rplus_le_compat_r, Rmult_le_compat_r; [exact S0|]. lra. }
    destruct (xf_dh_analysis fftg fftp o' f KW (997 * (u * X) + 107 / 10 * eps) (2320 * (u * X) + 27 * eps) _ _ Sh Ho' ltac:(split; lra) HG HP HK ltac:(lra) Hb') as (flmn' & E6 & Sh' & G).
    exists ths, K, f, KW, flmn'. repeat (split; [assumption|]). intros n l m Hn Hl Hm. destruct (G n l m Hn Hl Hm) as [G1 G2]. split; [|exact G2]. intros M1 M2.
    fold S in G1. eapply trip_end; [|exact (G1 M1 M2)|apply Rle_refl].
    assert (TA := trip_arith 2320 27 (u * X) eps 2026 (262 / 10) S (51 * (IZR N * (IZR L * IZR L)) * eta) UX ltac:(lra) S0 ltac:(lra) ltac:(lra) ltac:(lra) ltac:(lra) ltac:(lra) (251 / 100) ltac:(lra)).
    assert (US : 0 <= u * X * S) by (now apply Rmult_le_pos). assert (ES : 0 <= eps * S) by (apply Rmult_le_pos; lra). lra.
  Qed.

  (** *** Gauss-Legendre rings *)
  Section Gl.
    Variables (nodes wg gl wgl : vec R) (delta dw : R).
    Hypothesis HGL : gauss_legendre L nodes wg.
    Hypothesis Hg1 : vlen gl = L.
    Hypothesis Hd : 0 <= delta /\ IZR L * delta <= / 20.
    Hypothesis Hg3 : forall t, (0 <= t < L)%Z -> Rabs (vat gl t - acos (vat nodes (L - 1 - t))) <= delta.
    Hypothesis Hw1 : vlen wgl = L.
    Hypothesis Hdw : 0 <= dw <= / 10.
    Let w t := 2 * PI * vat wg t / IZR (2 * L - 1).
    Hypothesis Hw2 : forall t, (0 <= t < L)%Z -> Rabs (vat wgl t - w t) <= dw * w t.
    Hypothesis HE4 : IZR L ^ 4 * eta <= u.
    Let th t := acos (vat nodes (L - 1 - t)).

    Lemma xg_tiny t : (0 <= t < L)%Z -> eta <= u * (w t * cN N) /\ eta <= u * w t.
    Proof.
      intros Ht. destruct (gauss_range L nodes wg t HGL Ht) as [H _]. assert (L1 : 1 <= IZR L) by (apply IZR_le; lia).
      assert (M1 : 0 < IZR (2 * L - 1) <= 2 * IZR L) by (split; [apply IZR_lt; lia|rewrite <- mult_IZR; apply IZR_le; lia]).
      assert (M2 : 0 < IZR (2 * N - 1) <= 2 * IZR L) by (split; [apply IZR_lt; lia|rewrite <- mult_IZR; apply IZR_le; lia]).
      assert (H' : 2 / (IZR L * IZR L) <= vat wg t) by exact H.
      assert (P := PI2_3_2). assert (P1 : 3 < PI) by lra. assert (I0 : 0 < / IZR L) by (apply Rinv_0_lt_compat; lra).
      assert (G0 : 0 <= 2 / (IZR L * IZR L)) by (apply Rmult_le_pos; [lra|]; left; apply Rinv_0_lt_compat; nra).
      assert (H3 : / (2 * IZR L) <= / IZR (2 * L - 1)) by (apply Rinv_le_contravar; lra).
      assert (H4 : / (2 * IZR L) <= / IZR (2 * N - 1)) by (apply Rinv_le_contravar; lra).
      assert (I2 : 0 < / (2 * IZR L)) by (apply Rinv_0_lt_compat; lra).
      assert (W3 : / IZR L ^ 3 <= w t).
      { apply Rle_trans with (2 * 1 * (2 / (IZR L * IZR L)) * / (2 * IZR L)).
        - replace (2 * 1 * (2 / (IZR L * IZR L)) * / (2 * IZR L)) with (2 * / IZR L ^ 3) by (field; lra).
          assert (0 < / IZR L ^ 3) by (apply Rinv_0_lt_compat, pow_lt; lra). lra.
        - unfold w, Rdiv at 2. apply Rmult_le_compat; try lra. apply Rmult_le_compat; lra. }
      assert (C1 : / IZR L <= cN N).
      { unfold cN. apply Rle_trans with (2 * PI * / (2 * IZR L)); [|unfold Rdiv; apply Rmult_le_compat_l; lra].
        replace (2 * PI * / (2 * IZR L)) with (PI * / IZR L) by (field; lra). nra. }
      assert (J3 : 0 < / IZR L ^ 3) by (apply Rinv_0_lt_compat, pow_lt; lra).
      assert (W4 : / IZR L ^ 4 <= w t * cN N).
      { replace (/ IZR L ^ 4) with (/ IZR L ^ 3 * / IZR L) by (field; lra). apply Rmult_le_compat; lra. }
      assert (L4 : 0 < IZR L ^ 4) by (apply pow_lt; lra).
      assert (Q : eta <= u * / IZR L ^ 4).
      { apply (Rmult_le_reg_l (IZR L ^ 4)); [exact L4|]. replace (IZR L ^ 4 * (u * / IZR L ^ 4)) with u by (field; lra). exact HE4. }
      assert (J4 : / IZR L ^ 4 <= / IZR L ^ 3).
      { replace (/ IZR L ^ 4) with (/ IZR L ^ 3 * / IZR L) by (field; lra). rewrite <- (Rmult_1_r (/ IZR L ^ 3)) at 2. apply Rmult_le_compat_l; [lra|].
        rewrite <- Rinv_1. apply Rinv_le_contravar; lra. }
      split; (eapply Rle_trans; [exact Q|]; apply Rmult_le_compat_l; [exact u0|lra]).
    Qed.
    Lemma xg_w t : (0 <= t < L)%Z -> Rabs (w t) <= w t.
    Proof. intros Ht. rewrite Rabs_right; [lra|]. apply Rle_ge. exact (gl_w0 L 0 ltac:(lia) ltac:(lia) nodes wg HGL t Ht). Qed.
    Lemma xf_gl_kernel : exists KW, xf_kernel A "gl" gl wgl L N = Ok KW /\ w3_near KW N L L th w w (207 * (u * X) + IZR L * delta + 2 * dw).
    Proof.
      destruct xf_bounds as (L1 & UX & U5 & U2 & U1 & UB & Hu & HE2 & HE1 & HE0 & HEN & UL & FB & H2L).
      assert (Hg2 := Hg2 L 0 ltac:(lia) nodes gl delta Hd Hg3). assert (D0 : 0 <= IZR L * delta) by (apply Rmult_le_pos; lra).
      destruct (wf_direct_near A u eta HA gl L L N HN Hg1 ltac:(lia) ltac:(lra) H2L Hg2) as (a & E4 & Sa & Ha).
      assert (Ha' : wdl_near a N L L (vat gl) (200 * (u * X))).
      { split; [exact Sa|]. intros k t l i Hk Ht' Hl Hi. specialize (Ha k t l i Hk Ht' Hl Hi). destruct (adm_b _ _ _); [|exact Ha]. eapply Rle_trans; [exact Ha|].
        rewrite <- FB. unfold fbound. apply Rmult_le_compat_l; [lra|]. apply IZR_le. apply Z.mul_le_mono_nonneg; lia. }
      assert (H2 := wdl_move a N L L (vat gl) th _ delta Ha' ltac:(lia) (proj1 Hd) Hg3).
      destruct (xf_weigh_near A u eta HA HZ Hu HE0 a N L L th _ wgl w w dw H2 ltac:(lia) HEN Hw1) as (KW & EW & HW).
      - split; lra.
      - split; lra.
      - intros t Ht. destruct (xg_tiny t Ht). repeat split; [now apply xg_w|now apply Hw2|assumption|assumption].
      - exists KW. split.
        + unfold xf_kernel. rewrite E4. cbn [bind]. unfold ff_weights. change (streq (lower "gl") "dh") with false. change (streq (lower "gl") "gl") with true. cbn [bind]. exact EW.
        + apply (w3_weaken _ _ _ _ _ _ _ _ _ HW); [lia|lra|]. intros t Ht. pose proof (xg_w t Ht). pose proof (Rabs_pos (w t)). lra.
    Qed.
    Lemma xf_gl_analysis fftg fftp o f c d : shape f = [2 * N - 1; L; 2 * L - 1]%Z -> sums_all o L ->
      fft_accurate fftg (2 * N - 1) eps -> fft_accurate fftp (2 * L - 1) eps ->
      (forall g t p, (0 <= g < 2 * N - 1)%Z -> (0 <= t < L)%Z -> (0 <= p < 2 * L - 1)%Z ->
        Cmod (get f [g; t; p] - so3_synth L N c (2 * PI * IZR p / IZR (2 * L - 1)) (th t) (2 * PI * IZR g / IZR (2 * N - 1)))%C <= d) ->
      exists KW flmn, xf_kernel A "gl" gl wgl L N = Ok KW /\ xf_forward A fftg fftp o f KW L N "gl" = Ok flmn /\ shape flmn = [2 * N - 1; L; 2 * L - 1]%Z /\
        forall n l m, (- N < n < N)%Z -> (0 <= l < L)%Z -> (- L < m < L)%Z ->
          ((Z.abs m <= l)%Z -> (Z.abs n <= l)%Z -> Cmod (stored3 L N flmn n l m - c n l m)%C <=
            8 * PI ^ 2 * ((490 * u * X + 3 * eps + 3 * (IZR L * delta) + 5 * dw) * (so3_size L N c + d) + d + IZR L * eta)) /\
          ((l < Z.abs m \/ l < Z.abs n)%Z -> stored3 L N flmn n l m = RtoC 0).
    Proof.
      intros Hf Ho HG HP Hfd. destruct xf_bounds as (L1 & UX & U5 & U2 & U1 & UB & Hu & HE2 & HE1 & HE0 & HEN & UL & _). destruct xf_gl_kernel as (KW & EK & HK).
      assert (D0 : 0 <= IZR L * delta) by (apply Rmult_le_pos; lra).
      destruct (xf_analysis GL fftg fftp o f KW th w w (207 * (u * X) + IZR L * delta + 2 * dw) (490 * u * X + 3 * eps + 3 * (IZR L * delta) + 5 * dw) (4 * PI) c d ltac:(tauto) Hf Ho ltac:(split; lra)
        ltac:(cbn [rings]; lra) HG HP xg_w HK (gl_exact L 0 ltac:(lia) nodes wg HGL) (gl_total L 0 ltac:(lia) nodes wg HGL) ltac:(cbn [rings]; lra) Hfd) as (flmn & E1 & Sh & H). cbn [rings scheme_name] in *.
      exists KW, flmn. split; [exact EK|]. split; [exact E1|]. split; [exact Sh|]. intros n l m Hn Hl Hm. destruct (H n l m Hn Hl Hm) as [H1 H0]. split; [|exact H0]. intros M1 M2.
      specialize (H1 M1 M2). replace (4 * PI * (2 * PI)) with (8 * PI ^ 2) in H1 by ring. pose proof PI2_3_2. assert (0 <= IZR L * eta) by (apply Rmult_le_pos; lra).
      assert (P9 : 9 <= PI ^ 2) by nra. assert (12 * (IZR L * eta) <= 8 * PI ^ 2 * (IZR L * eta)) by (apply Rmult_le_compat_r; lra). lra.
    Qed.
    Lemma xf_gl_trip F2 fftg fftp o o' flmn : ifft2_accurate F2 (2 * N - 1) (2 * L - 1) eps -> fft_accurate fftg (2 * N - 1) eps -> fft_accurate fftp (2 * L - 1) eps ->
      sums_all o L -> sums_all o' L -> shape flmn = [2 * N - 1; L; 2 * L - 1]%Z ->
      exists K f KW flmn', wf_kernel A gl L N = Ok K /\ wf_inverse A F2 o flmn K L N "gl" = Ok f /\
        xf_kernel A "gl" gl wgl L N = Ok KW /\ xf_forward A fftg fftp o' f KW L N "gl" = Ok flmn' /\ shape flmn' = [2 * N - 1; L; 2 * L - 1]%Z /\
        forall n l m, (- N < n < N)%Z -> (0 <= l < L)%Z -> (- L < m < L)%Z ->
          ((Z.abs m <= l)%Z -> (Z.abs n <= l)%Z -> Cmod (stored3 L N flmn' n l m - stored3 L N flmn n l m)%C <=
            8 * PI ^ 2 * ((1500 * u * X + 6 * eps + 6 * (IZR L * delta) + 5 * dw) * so3_size L N (stored3 L N flmn) + 106 * (IZR N * (IZR L * IZR L)) * eta)) /\
          ((l < Z.abs m \/ l < Z.abs n)%Z -> stored3 L N flmn' n l m = RtoC 0).
    Proof.
      intros HI HG HP Ho Ho' Hf. destruct xf_bounds as (L1 & UX & U5 & U2 & U1 & UB & Hu & HE2 & HE1 & HE0 & HEN & UL & _). destruct L2_tiny as [T1 T2].
      assert (D0 : 0 <= IZR L * delta) by (apply Rmult_le_pos; lra).
      assert (Hg3' : forall t y, (0 <= t < L)%Z -> colatitude (vat nodes) GL L 0 t y -> Rabs (vat gl t - y) <= delta).
      { intros t y Ht [C1 C2]. replace y with (acos (vat nodes (L - 1 - t))); [now apply Hg3|]. rewrite <- C2. apply acos_cos. exact C1. }
      destruct (wf_kernel_top A u eta HA HZ L N eps HN HB HE1 Heps gl L Hg1 ltac:(lia) (Hg2 L 0 ltac:(lia) nodes gl delta Hd Hg3)) as (K & E4 & HK' & _).
      destruct (wf_inverse_top A u eta HA HZ L N eps HN HB HE1 Heps GL (vat nodes) F2 o flmn K (vat gl) delta ltac:(discriminate) Hf Ho HI HK' Hg3') as (f & E5 & Sh & Hb).
      cbn [rings scheme_name per_ring] in *. set (S := so3_size L N (stored3 L N flmn)) in *. assert (S0 : 0 <= S) by apply so3_size_nonneg. fold X in Hb.
      set (d := (490 * (u * X) + 1 * (eps + IZR L * delta)) * S + 51 * (IZR N * (IZR L * IZR L)) * eta).
      assert (Hb' : forall g t p, (0 <= g < 2 * N - 1)%Z -> (0 <= t < L)%Z -> (0 <= p < 2 * L - 1)%Z ->
        Cmod (get f [g; t; p] - so3_synth L N (stored3 L N flmn) (2 * PI * IZR p / IZR (2 * L - 1)) (th t) (2 * PI * IZR g / IZR (2 * N - 1)))%C <= d).
      { intros g t p Hg Ht Hp. assert (Cx : colatitude (vat nodes) GL L 0 t (th t)).
        { split; [apply acos_bound|]. apply cos_acos. destruct HGL as (_ & _ & Hbn & _). specialize (Hbn (L - 1 - t)%Z ltac:(lia)). lra. }
        eapply Rle_trans; [exact (Hb g t p (th t) Hg Ht Hp Cx)|]. unfold d. apply Rplus_le_compat_r, Rmult_le_compat_r; [exact S0|]. lra. }
      destruct (xf_gl_analysis fftg fftp o' f _ d Sh Ho' HG HP Hb') as (KW & flmn' & EK & E6 & Sh' & G).
      exists K, f, KW, flmn'. repeat (split; [assumption|]). intros n l m Hn Hl Hm. destruct (G n l m Hn Hl Hm) as [G1 G2]. split; [|exact G2]. intros M1 M2.
      fold S in G1. eapply Rle_trans; [exact (G1 M1 M2)|]. apply Rmult_le_compat_l; [pose proof (pow2_ge_0 PI); lra|].
      set (K1 := 490 * u * X + 3 * eps + 3 * (IZR L * delta) + 5 * dw). assert (K1b : 0 <= K1 <= 1045 / 1000) by (unfold K1; lra).
      assert (US : 0 <= u * X * S) by (now apply Rmult_le_pos). assert (ES : 0 <= eps * S) by (apply Rmult_le_pos; lra). assert (DS : 0 <= IZR L * delta * S) by (now apply Rmult_le_pos).
      assert (d0 : 0 <= d) by (unfold d; lra). assert (X1 : K1 * d <= 1045 / 1000 * d) by (apply Rmult_le_compat_r; lra).
      replace (K1 * (S + d)) with (K1 * S + K1 * d) by ring. unfold K1 at 1. unfold d in *. lra.
    Qed.
  End Gl.
End Top.
