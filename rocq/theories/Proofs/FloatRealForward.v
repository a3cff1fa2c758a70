(** The precomputed forward transform with reality in rounded arithmetic, and the round trip. *)
From Coq Require Import Reals Lra Lia ZifyBool Permutation.
From Coquelicot Require Import Coquelicot.
From Verif Require Import Lib.Py Lib.PyFacts Lib.Vec Lib.VecFacts Lib.Sums Lib.Cplx Lib.Arr Lib.ArrFacts Lib.MatFacts Model.Index Model.Samples Model.Quadrature Model.Resampling
  Model.RisboFloat Model.Spherical Model.Precompute Model.PrecomputeFloat Model.ForwardFloat Model.ResamplingFloat Model.ForwardMWFloat Model.RealFloat
  Spec.SamplesSpec Spec.WignerSpec Spec.SphereSpec Spec.GridSpec Spec.QuadSpec Spec.HealpixFFTSpec Spec.SphericalSpec Spec.RoundingSpec Spec.PrecomputeFloatSpec Spec.ForwardFloatSpec Spec.ResamplingFloatSpec Spec.RealFloatSpec
  Proofs.SphereTheory Proofs.ResamplingFacts Proofs.SpectralBound Proofs.FloatSums Proofs.FloatKernel Proofs.FloatInverse Proofs.FloatFourier Proofs.FloatTop Proofs.FloatForward Proofs.FloatForwardTop Proofs.FloatMWWeights Proofs.L2Norm
  Proofs.FloatResampling Proofs.FloatResamplingTop Proofs.FloatMWForward Proofs.FloatMWTop Proofs.FloatReal Proofs.FloatRealInverse.
From Verif Require Proofs.SphFacts Proofs.TurokProofs.
Open Scope string_scope.
Open Scope R_scope.

Lemma Re_closer z w : is_real w -> Cmod (RtoC (Re z) - w)%C <= Cmod (z - w)%C.
Proof.
  intros H. replace (RtoC (Re z) - w)%C with (RtoC (Re (z - w)%C)).
  - rewrite Cmod_R. apply Re_le.
  - destruct z as [a b], w as [x y]. unfold is_real, Im in H. cbn [snd] in H. subst y. unfold RtoC, Cminus, Cplus, Copp. cbn. f_equal; ring.
Qed.
Lemma rr_term a b x (f : Z -> R) : (forall y, (a <= y < b)%Z -> 0 <= f y) -> (a <= x < b)%Z -> f x <= rsum (zrange a b) f.
Proof.
  intros H Hx. rewrite (rr_split a x b), (rr_cons x b) by lia.
  assert (0 <= rsum (zrange a x) f) by (apply rs_nonneg; intros y Hy; apply in_zrange in Hy; apply H; lia).
  assert (0 <= rsum (zrange (x + 1) b) f) by (apply rs_nonneg; intros y Hy; apply in_zrange in Hy; apply H; lia). lra.
Qed.
Lemma coefficient_size L c l m : (0 <= l < L)%Z -> (Z.abs m <= l)%Z -> Cmod (c l m) <= elfactor l * (4 * PI) * signal_size L 0 c.
Proof.
  intros Hl Hm. assert (E : elfactor l * Cmod (c l m) <= signal_size L 0 c).
  { unfold signal_size. change (Z.abs 0) with 0%Z. eapply Rle_trans; [|apply (rr_term 0 L l)]; [|intros; apply rs_nonneg; intros; apply Rmult_le_pos; [apply sqrt_pos|apply Cmod_ge_0]|lia].
    cbv beta. apply (rr_term (- l) (l + 1) m (fun m => sqrt (IZR (2 * l + 1) / (4 * PI)) * Cmod (c l m))); [|lia]. intros; apply Rmult_le_pos; [apply sqrt_pos|apply Cmod_ge_0]. }
  assert (E2 : elfactor l * elfactor l * (4 * PI) = IZR (2 * l + 1)).
  { pose proof PI_RGT_0. unfold elfactor. rewrite sqrt_sqrt; [field; lra|]. apply Rle_div_r; [lra|]. rewrite Rmult_0_l. apply IZR_le. lia. }
  assert (E3 : 1 <= IZR (2 * l + 1)) by (apply IZR_le; lia). assert (E0 : 0 <= elfactor l) by apply sqrt_pos.
  apply (Rmult_le_compat_l (elfactor l * (4 * PI))) in E; [|apply Rmult_le_pos; [exact E0|pose proof PI_RGT_0; lra]].
  eapply Rle_trans; [|exact E]. replace (elfactor l * (4 * PI) * (elfactor l * Cmod (c l m))) with (IZR (2 * l + 1) * Cmod (c l m)) by (rewrite <- E2; ring).
  rewrite <- (Rmult_1_l (Cmod (c l m))) at 1. apply Rmult_le_compat_r; [apply Cmod_ge_0|exact E3].
Qed.

Section Float.
  Variables (A : arith) (u eta : R).
  Hypothesis HA : rounded A u eta.
  Hypothesis HZ : zeros_exact A.
  Hypothesis Hu : u <= / 1000.
  Let u0 : 0 <= u := rd_u _ _ _ HA.
  Let e0 : 0 <= eta := rd_eta _ _ _ HA.

  Lemma cf_mul_zero_r (z : C) : cf_mul A z (RtoC 0) = RtoC 0.
  Proof. unfold cf_mul, RtoC. cbn [fst snd]. rewrite !(proj2 (proj1 HZ _)). rewrite Ropp_0, (proj2 HZ). reflexivity. Qed.
  Lemma neg_order m e q B : Cmod (cf_mul A e (RtoC 1) - q)%C <= B ->
    Cmod (cf_mul A (cf_mul A (RtoC (sgn m)) (Cconj e)) (RtoC 1) - RtoC (sgn m) * Cconj q)%C <= B + 16 * u * (B + Cmod q) + 25 * eta.
  Proof.
    intros H. set (z := cf_mul A e (RtoC 1)) in *. set (y := cf_mul A (RtoC (sgn m)) (Cconj e)). set (y2 := cf_mul A y (RtoC 1)).
    pose proof (cmul_err A u eta HA Hu e (RtoC 1)) as P1. pose proof (cmul_err A u eta HA Hu (RtoC (sgn m)) (Cconj e)) as P2. pose proof (cmul_err A u eta HA Hu y (RtoC 1)) as P3.
    fold z in P1. fold y in P2. fold y2 in P3. rewrite Cmod_1, Rmult_1_r, Cmult_1_r in P1, P3.
    assert (SG : Cmod (RtoC (sgn m)) = 1) by (rewrite Cmod_R; unfold sgn, Rabs; destruct (Z.even m); destruct (Rcase_abs _); lra).
    rewrite SG, Rmult_1_l, Cmod_Cconj in P2.
    assert (W1 : Cmod e <= Cmod z + Cmod (z - e)%C).
    { replace e with (z - (z - e))%C at 1 by ring. eapply Rle_trans; [apply Cmod_triangle|]. rewrite Cmod_opp. lra. }
    assert (W2 : Cmod z <= B + Cmod q).
    { replace z with ((z - q) + q)%C by ring. eapply Rle_trans; [apply Cmod_triangle|]. lra. }
    assert (W3 : Cmod y <= Cmod e + Cmod (y - RtoC (sgn m) * Cconj e)%C).
    { replace y with (RtoC (sgn m) * Cconj e + (y - RtoC (sgn m) * Cconj e))%C at 1 by ring. eapply Rle_trans; [apply Cmod_triangle|]. rewrite Cmod_mult, SG, Cmod_Cconj. lra. }
    assert (W4 : Cmod (RtoC (sgn m) * Cconj e - RtoC (sgn m) * Cconj q)%C <= Cmod (z - e)%C + B).
    { replace (RtoC (sgn m) * Cconj e - RtoC (sgn m) * Cconj q)%C with (RtoC (sgn m) * (Cconj e - Cconj q))%C by ring. rewrite <- Cconj_minus', Cmod_mult, SG, Cmod_Cconj, Rmult_1_l.
      replace (e - q)%C with ((z - q) + - (z - e))%C by ring. eapply Rle_trans; [apply Cmod_triangle|]. rewrite Cmod_opp. lra. }
    replace (y2 - RtoC (sgn m) * Cconj q)%C with ((y2 - y) + ((y - RtoC (sgn m) * Cconj e) + (RtoC (sgn m) * Cconj e - RtoC (sgn m) * Cconj q)))%C by ring.
    eapply Rle_trans; [apply Cmod_triangle|]. eapply Rle_trans; [apply Rplus_le_compat_l, Cmod_triangle|].
    pose proof (Cmod_ge_0 e) as E0. set (ae := Cmod e) in *. set (ay := Cmod y) in *. set (az := Cmod z) in *.
    assert (ue : 5 * u * ae <= / 200 * ae) by (apply Rmult_le_compat_r; lra).
    assert (AE : ae <= 101 / 100 * (B + Cmod q) + 9 * eta) by lra.
    assert (AY : ay <= 1005 / 1000 * ae + 8 * eta) by lra.
    apply (Rmult_le_compat_l (5 * u)) in AY; [|lra].
    assert (UE : u * eta <= / 1000 * eta) by (apply Rmult_le_compat_r; lra).
    assert (AE2 : u * ae <= u * (101 / 100 * (B + Cmod q) + 9 * eta)) by (apply Rmult_le_compat_l; lra).
    assert (BQ : 0 <= u * (B + Cmod q)) by (apply Rmult_le_pos; [exact u0|]; pose proof (Cmod_ge_0 z); unfold az in *; lra).
    lra.
  Qed.

  (** from the complex program on the real parts to the program for real signals *)
  Lemma real_part G o f KW KWr L mo T n c (Bd : Z -> R) : (1 <= L)%Z -> (1 <= T)%Z -> (mo = 0 /\ n = 2 * L - 1 \/ mo = 1 /\ n = 2 * L)%Z ->
    half_of KW KWr T L -> shape f = [T; n]%Z -> (forall v, vlen v = n -> vlen (G v) = (n / 2 + 1)%Z) -> sums_all o T -> hermitian L c ->
    (forall t l m, (0 <= t < T)%Z -> (0 <= l < L)%Z -> (l < m < L)%Z -> at3 KW t l (m + L - 1) = 0) ->
    (exists flm0, rings_part A (full_fft G) o (areal f) KW L mo 0 = Ok flm0 /\
       forall l m, (0 <= l < L)%Z -> (0 <= m <= l)%Z -> Cmod (get flm0 [l; m + L - 1]%Z - c l m)%C <= Bd l) ->
    exists flm, pr_rings A G o f KWr L mo 0 = Ok flm /\ shape flm = [L; 2 * L - 1]%Z /\ forall l m, (0 <= l < L)%Z -> (- L < m < L)%Z ->
      ((Z.abs m <= l)%Z -> Cmod (get flm [l; m + L - 1]%Z - c l m)%C <= Bd l + 16 * u * (Bd l + Cmod (c l m)) + 25 * eta) /\
      ((l < Z.abs m)%Z -> get flm [l; m + L - 1]%Z = RtoC 0).
  Proof.
    intros HL HT Hmo HK Hf HG Ho Hc H0 (flm0 & E0 & B0).
    destruct (full_rings A G o f KW KWr L mo T n HL HT Hmo HK Hf Ho) as (flm0' & E0' & _ & F0). rewrite E0 in E0'. injection E0' as <-.
    destruct (half_rings A G o f KW KWr L mo T n HL HT Hmo HK Hf HG Ho) as (flm & E1 & Sh & F1).
    exists flm. split; [exact E1|]. split; [exact Sh|]. intros l m Hl Hm.
    assert (SB : forall k, (0 <= k < L)%Z -> (l < k)%Z -> half_entry A G o f KWr l k = RtoC 0).
    { intros k Hk Hk2. apply (half_entry_zero A G o f KW KWr L T HZ HK Ho l k Hl Hk). intros t Ht. apply H0; lia. }
    destruct (Z_lt_ge_dec m 0) as [Hm0|Hm0].
    - destruct (F1 l (- m)%Z Hl ltac:(lia)) as [_ F2]. specialize (F2 ltac:(lia)). rewrite Z.opp_involutive in F2. rewrite F2. split.
      + intros Hml. specialize (B0 l (- m)%Z Hl ltac:(lia)). rewrite F0 in B0 by lia.
        pose proof (Hc l (- m)%Z Hl ltac:(lia)) as C1. rewrite Z.opp_involutive in C1. rewrite C1. eapply Rle_trans; [apply (neg_order (- m) _ _ _ B0)|].
        right. do 3 f_equal. rewrite Cmod_mult, Cmod_R, Cmod_Cconj. unfold sgn, Rabs. destruct (Z.even (- m)); destruct (Rcase_abs _); lra.
      + intros Hml. rewrite SB by lia. replace (Cconj (RtoC 0)) with (RtoC 0) by (unfold Cconj, RtoC; cbn; f_equal; ring).
        rewrite cf_mul_zero_r. apply (cf_mul_zero_l A HZ).
    - destruct (F1 l m Hl ltac:(lia)) as [F2 _]. rewrite F2. split.
      + intros Hml. specialize (B0 l m Hl ltac:(lia)). rewrite F0 in B0 by lia. eapply Rle_trans; [exact B0|].
        assert (0 <= Bd l) by (eapply Rle_trans; [apply Cmod_ge_0|exact B0]). assert (0 <= 16 * u * (Bd l + Cmod (c l m))) by (apply Rmult_le_pos; [lra|]; pose proof (Cmod_ge_0 (c l m)); lra). lra.
      + intros Hml. rewrite SB by lia. apply (cf_mul_zero_l A HZ).
  Qed.
  Lemma finish E b S c : 3 <= E -> 0 <= b -> c <= E * S -> E * b + 16 * u * (E * b + c) + 25 * eta <= E * (b + 16 * (u * b) + 16 * (u * S) + 9 * eta).
  Proof.
    intros HE Hb Hc. apply (Rmult_le_compat_l (16 * u)) in Hc; [|lra].
    assert (3 * (9 * eta) <= E * (9 * eta)) by (apply Rmult_le_compat_r; lra). lra.
  Qed.
  Lemma forward_half F fft name gl wgl L spin KW T : (1 <= L)%Z -> mf_kernel A F fft name gl wgl L spin = Ok KW -> shape KW = [T; L; 2 * L - 1]%Z ->
    exists KWr, pr_kernel_forward A F fft name gl wgl L spin = Ok KWr /\ half_of KW KWr T L.
  Proof.
    intros HL E Sh. unfold mf_kernel in E. unfold pr_kernel_forward. destruct (mf_thetas A name L gl) as [[nm ths]|]; [|discriminate]. cbn [bind] in *.
    destruct (pf_kernel A F nm ths L spin) as [K|] eqn:EK; [|discriminate]. cbn [bind] in E.
    destruct (kernel_half A F nm ths L spin K HL EK) as (Kr & -> & HK). cbn [bind].
    destruct (mf_weights A fft nm L ths wgl) as [w|]; [|discriminate]. cbn [bind] in *.
    destruct (weigh_half A K Kr w _ L KW HK E) as (KWr & E2 & HW). exists KWr. split; [exact E2|].
    assert (vlen ths = T) as <-; [|exact HW]. destruct HW as [S2 _]. rewrite Sh in S2. now injection S2.
  Qed.
  Lemma near_zero KW T L y w V kap : weighted_near KW T L 0 y w V kap ->
    forall t l m, (0 <= t < T)%Z -> (0 <= l < L)%Z -> (l < m < L)%Z -> at3 KW t l (m + L - 1) = 0.
  Proof.
    intros [_ H] t l m Ht Hl Hm. specialize (H t l (m + L - 1)%Z Ht Hl ltac:(lia)). replace (m + L - 1 - (L - 1))%Z with m in H by lia.
    rewrite wsize_out, TurokProofs.wig_out in H by lia. rewrite Rmult_0_l, !Rmult_0_r, Rmult_0_l, Rminus_0_r in H.
    pose proof (Rabs_pos (at3 KW t l (m + L - 1))). destruct (Req_dec (at3 KW t l (m + L - 1)) 0) as [|N]; [assumption|]. apply Rabs_pos_lt in N. lra.
  Qed.
End Float.

(** ** From the samples to the coefficients *)
Section Top.
  Variables (A : arith) (u eta : R).
  Hypothesis HA : rounded A u eta.
  Hypothesis HZ : zeros_exact A.
  Let u0 : 0 <= u := rd_u _ _ _ HA.
  Let e0 : 0 <= eta := rd_eta _ _ _ HA.
  Variables (F : ffts) (S : rffts) (L : Z) (eps : R).
  Hypothesis HL : (1 <= L)%Z.
  Let N := (IZR L * (2 * IZR L + 3)).
  Hypothesis HB : 2000 * u * N <= 1.
  Hypothesis HE : 4 * (IZR L * IZR L) * eta <= u.
  Variable (fft : vec C -> vec C) (G : vec R -> vec C).
  Hypothesis HF : irfft_accurate (f_irfft F) L (4 * L) eps.
  Hypothesis HI : ipow_accurate (f_ipow F) (2 * L) eps.

  (** *** Driscoll-Healy rings *)
  Lemma real_dh o f gl wgl c d : 0 <= eps <= / 20 -> rfft_accurate G (2 * L - 1) eps -> sums_all o (2 * L) -> shape f = [2 * L; 2 * L - 1]%Z -> hermitian L c ->
    (forall t p, (0 <= t < 2 * L)%Z -> (0 <= p < 2 * L - 1)%Z -> Cmod (get f [t; p] - synth L 0 c (dh_theta L t) (2 * PI * IZR p / IZR (2 * L - 1)))%C <= d) ->
    exists KW flm, pr_kernel_forward A F fft "dh" gl wgl L 0 = Ok KW /\ pr_forward A S G o f KW L "dh" 0 = Ok flm /\
      shape flm = [L; 2 * L - 1]%Z /\ forall l m, (0 <= l < L)%Z -> (- L < m < L)%Z ->
        ((Z.abs m <= l)%Z -> Cmod (get flm [l; m + L - 1]%Z - c l m)%C <=
          elfactor l * (8 * PI) * ((4420 * (u * N) + 37 * eps) * (signal_size L 0 c + d) + d + 18 * IZR L * eta)) /\
        ((l < Z.abs m)%Z -> get flm [l; m + L - 1]%Z = RtoC 0).
  Proof.
    intros Heps HG Ho Hf Hc Hd. assert (Hs : (Z.abs 0 < L)%Z) by (cbn; lia).
    destruct (ff_bounds A u eta HA L 0 HL HB HE) as (L1 & UN & U5 & U2 & U1 & UB & Hu & HE' & U3). fold N in UN, U5, U2, UB.
    destruct (dh_kernel A u eta HA HZ F L 0 eps HL Hs HB HE Heps gl wgl HF HI) as (ths & KW & E1 & Vl & _ & E2 & HK).
    assert (Hd' : forall t p, (0 <= t < 2 * L)%Z -> (0 <= p < 2 * L - 1)%Z -> Cmod (get (areal f) [t; p] - synth L 0 c (dh_theta L t) (2 * PI * IZR p / IZR (2 * L - 1)))%C <= d).
    { intros t p Ht Hp. eapply Rle_trans; [|exact (Hd t p Ht Hp)]. apply Re_closer. now apply SphFacts.synth_real. }
    destruct (dh_analysis A u eta HA HZ F L 0 eps HL Hs HB HE Heps (full_fft G) o (areal f) gl wgl c d HF HI (full_accurate G (2 * L - 1) eps ltac:(lia) (proj1 Heps) HG) Ho Hf Hd')
      as (ths' & KW' & flm0 & E1' & E2' & E3 & _ & H0). rewrite E1 in E1'. injection E1' as <-. rewrite E2 in E2'. injection E2' as <-.
    assert (EK : mf_kernel A F fft "dh" gl wgl L 0 = Ok KW).
    { unfold mf_kernel, mf_thetas. change (str_in (lower "dh") ["mw"; "mwss"]) with false. cbv iota. rewrite E1. cbn [bind].
      unfold ff_kernel in E2. destruct (pf_kernel A F "dh" ths L 0); [|discriminate]. cbn [bind] in *. exact E2. }
    destruct (forward_half A F fft "dh" gl wgl L 0 KW (2 * L) HL EK (proj1 HK)) as (KWr & EKr & HH).
    set (Bd := fun l => elfactor l * (8 * PI) * ((4400 * (u * N) + 37 * eps) * (signal_size L 0 c + d) + d + 8 * IZR L * eta)).
    destruct (real_part A u eta HA HZ Hu G o f KW KWr L 0 (2 * L) (2 * L - 1) c Bd HL ltac:(lia) ltac:(lia) HH Hf (fun v Hv => proj1 (HG v Hv)) Ho Hc (near_zero KW (2 * L) L _ _ _ _ HK)) as (flm & E4 & Sh & H).
    { exists flm0. split; [exact E3|]. intros l m Hl Hm. apply (H0 l m Hl); lia. }
    exists KWr, flm. split; [exact EKr|]. split; [exact E4|]. split; [exact Sh|]. intros l m Hl Hm. destruct (H l m Hl Hm) as [H1 H2]. split; [|exact H2].
    intros Hml. eapply Rle_trans; [exact (H1 Hml)|]. unfold Bd.
    assert (Z1 : forall t p, (0 <= t < 2 * L)%Z -> (0 <= p < 2 * L - 1)%Z -> 0 <= d) by (intros t p Ht Hp; eapply Rle_trans; [apply Cmod_ge_0|exact (Hd t p Ht Hp)]).
    assert (d0 : 0 <= d) by (apply (Z1 0%Z 0%Z); lia). clear Z1. pose proof (signal_size_nonneg L 0 c) as S0. pose proof (elfactor_lower l ltac:(lia)) as EL. pose proof PI2_3_2 as P3.
    pose proof (coefficient_size L c l m Hl Hml) as CS.
    set (E := elfactor l * (8 * PI)). set (Sz := signal_size L 0 c) in *. set (X := 4400 * (u * N) + 37 * eps). set (b := X * (Sz + d) + d + 8 * IZR L * eta).
    assert (X0 : 0 <= X <= 406 / 100) by (unfold X; lra). assert (LE : 0 <= IZR L * eta) by (apply Rmult_le_pos; lra).
    assert (XS : X * (Sz + d) <= 406 / 100 * (Sz + d)) by (apply Rmult_le_compat_r; lra). assert (XS0 : 0 <= X * (Sz + d)) by (apply Rmult_le_pos; lra).
    assert (b0 : 0 <= b) by (unfold b; lra).
    eapply Rle_trans; [apply (finish A u eta HA E b Sz)|].
    - unfold E. nra.
    - exact b0.
    - eapply Rle_trans; [exact CS|]. apply Rmult_le_compat_r; [exact S0|]. unfold E. apply Rmult_le_compat_l; lra.
    - apply Rmult_le_compat_l; [unfold E; nra|]. unfold b at 1.
      assert (UB2 : u * b <= u * (506 / 100 * (Sz + d) + 8 * IZR L * eta)) by (apply Rmult_le_compat_l; [exact u0|]; unfold b; lra).
      assert (UL : u * (IZR L * eta) <= / 1000 * (IZR L * eta)) by (apply Rmult_le_compat_r; lra).
      assert (NS : 0 <= u * N * (Sz + d)) by (apply Rmult_le_pos; lra).
      assert (US : u * (Sz + d) <= / 5 * (u * N) * (Sz + d)) by (apply Rmult_le_compat_r; lra).
      assert (UD : 0 <= u * d) by (apply Rmult_le_pos; lra). assert (L1e : eta <= IZR L * eta) by (rewrite <- (Rmult_1_l eta) at 1; apply Rmult_le_compat_r; lra).
      unfold X. lra.
  Qed.

  Lemma real_mwx s o f gl wgl c d : 0 <= eps <= / 100 -> transforms_accurate S (2 * L - 1) eps -> transforms_accurate S (2 * L) eps -> transforms_accurate S (4 * L) eps ->
    fft_accurate fft (4 * L) eps -> rfft_accurate G (2 * L) eps -> mwx s -> sums_all o (2 * L + 1) -> shape f = [rings s L 0; per_ring s L]%Z -> hermitian L c ->
    (forall t p, (0 <= t < rings s L 0)%Z -> (0 <= p < per_ring s L)%Z -> Cmod (get f [t; p] - synth L 0 c (mwx_theta s L t) (equi_longitude s L p))%C <= d) ->
    exists KW flm, pr_kernel_forward A F fft (scheme_name s) gl wgl L 0 = Ok KW /\ pr_forward A S G o f KW L (scheme_name s) 0 = Ok flm /\
      shape flm = [L; 2 * L - 1]%Z /\ forall l m, (0 <= l < L)%Z -> (- L < m < L)%Z ->
        ((Z.abs m <= l)%Z -> Cmod (get flm [l; m + L - 1]%Z - c l m)%C <=
          elfactor l * (27 * PI) * ((4570 * (u * N) + 291 * eps) * signal_size L 0 c + 37 * d + 700 * (IZR L * eta))) /\
        ((l < Z.abs m)%Z -> get flm [l; m + L - 1]%Z = RtoC 0).
  Proof.
    intros Heps HS1 HS2 HS4 HF4 HG Hm Ho Hf Hc Hd. assert (Hs : (Z.abs 0 < L)%Z) by (cbn; lia).
    set (T := (2 * L + 1)%Z) in *. set (M := sqrt (IZR T * IZR (2 * L))).
    destruct (ff_bounds A u eta HA L 0 HL HB HE) as (L1 & UN & U5 & U2 & U1 & UB & Hu & HE' & U3). fold N in UN, U5, U2, UB.
    destruct (sizes L 0 HL Hs s Hm) as ([R0 RM] & M1 & MQ).
    destruct (mwss_kernel A u eta HA HZ F L 0 eps HL Hs HB HE Heps fft (scheme_name s) gl wgl (scheme_in s Hm) HF HI HF4) as (K & EK & HK).
    set (Sz := signal_size L 0 c). assert (r0 : 0 <= Sz) by apply signal_size_nonneg.
    assert (PR : (0 < rings s L 0)%Z /\ (0 < per_ring s L)%Z) by (destruct Hm as [->| ->]; cbn [rings per_ring]; lia).
    assert (d0 : 0 <= d) by (eapply Rle_trans; [apply Cmod_ge_0|apply (Hd 0%Z 0%Z); lia]).
    set (Gf := synth L 0 c). set (e := mat (rings s L 0) (per_ring s L) (fun t p => Gf (mwx_theta s L t) (equi_longitude s L p))).
    destruct (resample_near A u eta HA S L 0 eps HL Hs HB HE Heps HS1 HS2 HS4 s f e Sz d Hm) as (h & e' & E1 & E2 & G1 & G2 & G3 & G4); try assumption.
    { split; [exact Hf|]. split; [reflexivity|]. split; apply map_sup; try lia; try assumption.
      intros t p _ _. unfold at2, e. cbn [get mat nth]. apply synth_size. }
    assert (SA : sampled e' T (2 * L) (mwss_theta (2 * L)) (mwss_phi L) Gf).
    { assert (BL : band_limited L 0 Gf) by apply synth_band_limited. unfold doubled in E2. destruct Hm as [->| ->]; cbn [scheme_name] in E2.
      - change (streq "mw" "mw") with true in E2. cbv iota in E2.
        destruct (C16_lemma numpy L 0 Gf e HL BL) as (e2 & Q2 & Sa2); [split; reflexivity|]. rewrite Q2 in E2. cbn [bind] in E2.
        destruct (C17_lemma numpy L 0 Gf e2 HL BL Sa2) as (e3 & Q3 & Sa3). rewrite Q3 in E2. injection E2 as <-. exact Sa3.
      - change (streq "mwss" "mw") with false in E2. cbv iota in E2. cbn [bind] in E2.
        destruct (C17_lemma numpy L 0 Gf e HL BL) as (e3 & Q3 & Sa3); [split; reflexivity|]. rewrite Q3 in E2. injection E2 as <-. exact Sa3. }
    destruct SA as [_ SA].
    assert (G3' : l2_map T (2 * L) (at2 e') <= M * Sz).
    { apply map_sup; unfold T; try lia; try assumption. intros t p Ht Hp. unfold at2. rewrite SA by assumption. apply synth_size. }
    set (D := 10 * d + (68 * eps + 613 * u) * Sz + 192 * (IZR L * eta)) in *.
    assert (G4' : l2_map T (2 * L) (fun t p => at2 (areal h) t p - at2 e' t p)%C <= M * D).
    { eapply Rle_trans; [|exact G4]. fold T.
      assert (Q := map_comb T (2 * L) (fun t p => at2 (areal h) t p - at2 e' t p)%C (fun t p => at2 h t p - at2 e' t p)%C (fun t p => at2 h t p - at2 e' t p)%C 1 0 ltac:(lra) ltac:(lra)).
      rewrite Rmult_1_l, Rmult_0_l, Rplus_0_r in Q. apply Q. intros r cc Hr Hcc. rewrite Rmult_1_l, Rmult_0_l, Rplus_0_r. unfold at2, areal. cbn [get].
      apply Re_closer. rewrite SA by assumption. now apply SphFacts.synth_real. }
    destruct (tail_near A u eta HA HZ L 0 eps HL Hs HB HE Heps (full_fft G) o (areal h) e' K _ _ (full_accurate G (2 * L) eps ltac:(lia) (proj1 Heps) HG) Ho G1 HK
      (weight_size A u eta HA L 0 eps HL HB HE Heps fft gl wgl HF4 eq_refl) G3' G4') as (flm0 & E3 & _ & H0).
    destruct (forward_half A F fft (scheme_name s) gl wgl L 0 K T HL EK (proj1 HK)) as (KWr & EKr & HH).
    set (Bd := fun l => elfactor l * (27 * PI) * ((4550 * (u * N) + 291 * eps) * Sz + 36 * d + 687 * (IZR L * eta))).
    assert (LE : 0 <= IZR L * eta) by (apply Rmult_le_pos; lra).
    destruct (real_part A u eta HA HZ Hu G o h K KWr L 1 T (2 * L) c Bd HL ltac:(unfold T; lia) ltac:(lia) HH G1 (fun v Hv => proj1 (HG v Hv)) Ho Hc (near_zero K T L _ _ _ _ HK)) as (flm & E4 & Sh & H).
    { exists flm0. split; [exact E3|]. intros l m Hl Hmm. destruct (H0 l m Hl ltac:(lia)) as [H1 _]. specialize (H1 ltac:(lia) ltac:(lia)).
      assert (QE : quadrature_of T (2 * L) (mwss_weight L) (mwss_theta (2 * L)) 0 l m e' = c l m).
      { rewrite <- (quadrature_same L 0 c l m (mwss_weight L) (mwss_theta (2 * L)) T HL Hl ltac:(lia) ltac:(cbn; lia) ltac:(lia) (fun k Hk => mwss_weight_exact L k HL Hk)).
        unfold quadrature_of. apply cr_ext. intros t Ht. apply cr_ext. intros p Hp. do 2 f_equal. rewrite SA by assumption. unfold mat. cbn [get nth]. reflexivity. }
      fold T in H1. rewrite QE in H1. eapply Rle_trans; [exact H1|]. fold N. unfold Bd.
      apply Rmult_le_compat_l; [apply Rmult_le_pos; [apply sqrt_pos|pose proof PI_RGT_0; lra]|].
      set (Kc := 4110 * (u * N) + 49 * eps).
      assert (K0 : 0 <= Kc <= 255 / 100) by (unfold Kc; lra).
      assert (D0 : 0 <= D) by (unfold D; assert (0 <= (68 * eps + 613 * u) * Sz) by (apply Rmult_le_pos; lra); lra).
      assert (X1 : Kc * D <= 255 / 100 * D) by (apply Rmult_le_compat_r; lra).
      assert (Y1 : u * Sz <= 1 / 5 * (u * N * Sz)) by (replace (1 / 5 * (u * N * Sz)) with ((1 / 5 * (u * N)) * Sz) by ring; apply Rmult_le_compat_r; lra).
      assert (Y2 : 0 <= eps * Sz) by (apply Rmult_le_pos; lra). assert (Y3 : 0 <= u * N * Sz) by (apply Rmult_le_pos; lra).
      replace (Kc * (Sz + D)) with (Kc * Sz + Kc * D) by ring. unfold Kc at 1. unfold D in X1 |- *. lra. }
    exists KWr, flm. split; [exact EKr|]. split.
    { destruct Hm as [->| ->]; cbn [scheme_name] in *; unfold pr_forward;
        repeat match goal with |- context [streq ?a ?b] => let v := eval compute in (streq a b) in change (streq a b) with v end; cbv iota; cbn [bind].
      - change (streq "mw" "mw") with true in E1. cbv iota in E1. destruct (rs_mw_to_mwss A S f L 0) as [g|]; cbn [bind] in *; [|discriminate].
        change (str_in (lower "mw") ["mw"; "mwss"]) with true. cbv iota. rewrite E1. cbn [bind]. exact E4.
      - change (streq "mwss" "mw") with false in E1. cbv iota in E1. cbn [bind] in E1. change (str_in (lower "mwss") ["mw"; "mwss"]) with true. cbv iota. rewrite E1. cbn [bind]. exact E4. }
    split; [exact Sh|]. intros l m Hl Hmm. destruct (H l m Hl Hmm) as [H1 H2]. split; [|exact H2].
    intros Hml. eapply Rle_trans; [exact (H1 Hml)|]. unfold Bd.
    pose proof (elfactor_lower l ltac:(lia)) as EL. pose proof PI2_3_2 as P3.
    pose proof (coefficient_size L c l m Hl Hml) as CS. fold Sz in CS.
    set (E := elfactor l * (27 * PI)). set (X := 4550 * (u * N) + 291 * eps). set (b := X * Sz + 36 * d + 687 * (IZR L * eta)).
    assert (X0 : 0 <= X <= 52 / 10) by (unfold X; lra).
    assert (XS : X * Sz <= 52 / 10 * Sz) by (apply Rmult_le_compat_r; lra). assert (XS0 : 0 <= X * Sz) by (apply Rmult_le_pos; lra).
    assert (b0 : 0 <= b) by (unfold b; lra).
    eapply Rle_trans; [apply (finish A u eta HA E b Sz)|].
    - unfold E. nra.
    - exact b0.
    - eapply Rle_trans; [exact CS|]. apply Rmult_le_compat_r; [exact r0|]. unfold E. apply Rmult_le_compat_l; lra.
    - apply Rmult_le_compat_l; [unfold E; nra|]. unfold b at 1.
      assert (U4 : u <= / 10000) by lra.
      assert (UB2 : u * b <= u * (52 / 10 * Sz) + / 10000 * (36 * d + 687 * (IZR L * eta))).
      { unfold b. rewrite Rplus_assoc, Rmult_plus_distr_l. apply Rplus_le_compat; [apply Rmult_le_compat_l; lra|apply Rmult_le_compat_r; lra]. }
      assert (NS : 0 <= u * N * Sz) by (apply Rmult_le_pos; lra).
      assert (US : u * Sz <= / 5 * (u * N) * Sz) by (apply Rmult_le_compat_r; lra).
      assert (L1e : eta <= IZR L * eta) by (rewrite <- (Rmult_1_l eta) at 1; apply Rmult_le_compat_r; lra).
      unfold X. lra.
  Qed.

  (** *** Gauss-Legendre rings *)
  Section Gl.
    Variables (nodes wg gl wgl : vec R) (delta dw : R).
    Hypothesis Heps : 0 <= eps <= / 20.
    Hypothesis HGL : gauss_legendre L nodes wg.
    Hypothesis Hg1 : vlen gl = L.
    Hypothesis Hdl : 0 <= delta /\ IZR L * delta <= / 20.
    Hypothesis Hg3 : forall t, (0 <= t < L)%Z -> Rabs (vat gl t - acos (vat nodes (L - 1 - t))) <= delta.
    Hypothesis Hw1 : vlen wgl = L.
    Hypothesis Hdw : 0 <= dw <= / 10.
    Hypothesis Hw2 : forall t, (0 <= t < L)%Z -> Rabs (vat wgl t - 2 * PI * vat wg t / IZR (2 * L - 1)) <= dw * (2 * PI * vat wg t / IZR (2 * L - 1)).
    Hypothesis HE3 : IZR L ^ 3 * eta <= u.
    Lemma gl_angle t : (0 <= t < L)%Z -> Rabs (vat gl t) <= 5.
    Proof.
      intros Ht. specialize (Hg3 t Ht). pose proof (acos_bound (vat nodes (L - 1 - t))) as [B1 B2]. pose proof PI_4. assert (1 <= IZR L) by (apply IZR_le; lia).
      assert (delta <= / 20) by nra. apply Rabs_le. apply Rabs_le_between in Hg3. lra.
    Qed.
    Lemma gl_half : exists K Kr, pf_kernel A F "gl" gl L 0 = Ok K /\ pr_kernel A F "gl" gl L 0 = Ok Kr /\ kernel_near K L L 0 (vat gl) (kap u L eps) /\ half_of K Kr L L.
    Proof.
      destruct (ff_bounds A u eta HA L 0 HL HB HE) as (L1 & UN & U5 & U2 & U1 & UB & Hu & HE' & U3).
      destruct (gl_kernel A u eta HA HZ F L 0 eps HL ltac:(cbn; lia) HB HE' Heps (fun i => vat nodes i) gl delta Hg1 gl_angle) as (K & EK & HK).
      { intros t y Ht [Hy1 Hy2]. rewrite <- (acos_cos y Hy1), Hy2. now apply Hg3. }
      destruct (kernel_half A F "gl" gl L 0 K HL EK) as (Kr & EKr & HH). rewrite Hg1 in HH. exists K, Kr. auto.
    Qed.
    Lemma real_gl o f c d : rfft_accurate G (2 * L - 1) eps -> sums_all o L -> shape f = [L; 2 * L - 1]%Z -> hermitian L c ->
      (forall t p, (0 <= t < L)%Z -> (0 <= p < 2 * L - 1)%Z -> Cmod (get f [t; p] - synth L 0 c (acos (vat nodes (L - 1 - t))) (2 * PI * IZR p / IZR (2 * L - 1)))%C <= d) ->
      exists KW flm, pr_kernel_forward A F fft "gl" gl wgl L 0 = Ok KW /\ pr_forward A S G o f KW L "gl" 0 = Ok flm /\
        shape flm = [L; 2 * L - 1]%Z /\ forall l m, (0 <= l < L)%Z -> (- L < m < L)%Z ->
          ((Z.abs m <= l)%Z -> Cmod (get flm [l; m + L - 1]%Z - c l m)%C <=
            elfactor l * (4 * PI) * ((4060 * (u * N) + 37 * eps + 4 * (IZR L * delta) + 8 * dw) * (signal_size L 0 c + d) + d + 18 * IZR L * eta)) /\
          ((l < Z.abs m)%Z -> get flm [l; m + L - 1]%Z = RtoC 0).
    Proof.
      intros HG Ho Hf Hc Hd. assert (Hs : (Z.abs 0 < L)%Z) by (cbn; lia).
      destruct (ff_bounds A u eta HA L 0 HL HB HE) as (L1 & UN & U5 & U2 & U1 & UB & Hu & HE' & U3). fold N in UN, U5, U2, UB.
      assert (Hd' : forall t p, (0 <= t < L)%Z -> (0 <= p < 2 * L - 1)%Z -> Cmod (get (areal f) [t; p] - synth L 0 c (acos (vat nodes (L - 1 - t))) (2 * PI * IZR p / IZR (2 * L - 1)))%C <= d).
      { intros t p Ht Hp. eapply Rle_trans; [|exact (Hd t p Ht Hp)]. apply Re_closer. now apply SphFacts.synth_real. }
      destruct (gl_analysis A u eta HA HZ F L 0 eps HL Hs HB HE Heps nodes wg gl wgl delta dw HGL Hg1 Hdl Hg3 Hw1 Hdw Hw2 HE3 (full_fft G) o (areal f) c d
        (full_accurate G (2 * L - 1) eps ltac:(lia) (proj1 Heps) HG) Ho Hf Hd') as (KW & flm0 & E2 & E3 & _ & H0).
      assert (EK : mf_kernel A F fft "gl" gl wgl L 0 = Ok KW).
      { unfold mf_kernel, mf_thetas. change (str_in (lower "gl") ["mw"; "mwss"]) with false. cbv iota. change (pf_thetas A "gl" L gl) with (Ok gl). cbn [bind].
        unfold ff_kernel in E2. destruct (pf_kernel A F "gl" gl L 0); [|discriminate]. cbn [bind] in *. exact E2. }
      destruct gl_half as (K & Kr & EK1 & _ & [KS KN] & _).
      assert (KZ : shape KW = [L; L; 2 * L - 1]%Z /\ forall t l m, (0 <= t < L)%Z -> (0 <= l < L)%Z -> (l < m < L)%Z -> at3 KW t l (m + L - 1) = 0).
      { unfold ff_kernel in E2. rewrite EK1 in E2. cbn [bind] in E2. change (ff_weights A "gl" L gl wgl) with (Ok wgl) in E2. cbn [bind] in E2. unfold ff_weigh in E2.
        assert (A0 : dim0 K = L) by (unfold dim0; now rewrite KS). assert (A1 : dim1 K = L) by (unfold dim1; now rewrite KS). assert (A2 : dim2 K = (2 * L - 1)%Z) by (unfold dim2; now rewrite KS).
        rewrite A0, A1, A2, Hw1, Z.eqb_refl in E2. injection E2 as <-. split; [reflexivity|]. intros t l m Ht Hl Hm. rewrite at3_arr3.
        specialize (KN t l (m + L - 1)%Z Ht Hl ltac:(lia)). replace (m + L - 1 - (L - 1))%Z with m in KN by lia.
        rewrite wsize_out, TurokProofs.wig_out in KN by lia. rewrite !Rmult_0_r, Rminus_0_r in KN.
        assert (Z0 : at3 K t l (m + L - 1) = 0) by (destruct (Req_dec (at3 K t l (m + L - 1)) 0) as [|Q]; [assumption|]; apply Rabs_pos_lt in Q; lra).
        rewrite Z0. apply (proj1 (proj1 HZ _)). }
      destruct KZ as [KS2 KZ].
      destruct (forward_half A F fft "gl" gl wgl L 0 KW L HL EK KS2) as (KWr & EKr & HH).
      set (Bd := fun l => elfactor l * (4 * PI) * ((4030 * (u * N) + 37 * eps + 4 * (IZR L * delta) + 8 * dw) * (signal_size L 0 c + d) + d + 8 * IZR L * eta)).
      destruct (real_part A u eta HA HZ Hu G o f KW KWr L 0 L (2 * L - 1) c Bd HL ltac:(lia) ltac:(lia) HH Hf (fun v Hv => proj1 (HG v Hv)) Ho Hc KZ) as (flm & E4 & Sh & H).
      { exists flm0. split; [exact E3|]. intros l m Hl Hm. apply (H0 l m Hl); lia. }
      exists KWr, flm. split; [exact EKr|]. split; [exact E4|]. split; [exact Sh|]. intros l m Hl Hm. destruct (H l m Hl Hm) as [H1 H2]. split; [|exact H2].
      intros Hml. eapply Rle_trans; [exact (H1 Hml)|]. unfold Bd.
      assert (Z1 : forall t p, (0 <= t < L)%Z -> (0 <= p < 2 * L - 1)%Z -> 0 <= d) by (intros t p Ht Hp; eapply Rle_trans; [apply Cmod_ge_0|exact (Hd t p Ht Hp)]).
      assert (d0 : 0 <= d) by (apply (Z1 0%Z 0%Z); lia). clear Z1. pose proof (signal_size_nonneg L 0 c) as S0. pose proof (elfactor_lower l ltac:(lia)) as EL. pose proof PI2_3_2 as P3.
      pose proof (coefficient_size L c l m Hl Hml) as CS. assert (ld : 0 <= IZR L * delta) by (apply Rmult_le_pos; lra).
      set (E := elfactor l * (4 * PI)) in *. set (Sz := signal_size L 0 c) in *. set (X := 4030 * (u * N) + 37 * eps + 4 * (IZR L * delta) + 8 * dw). set (b := X * (Sz + d) + d + 8 * IZR L * eta).
      assert (X0 : 0 <= X <= 49 / 10) by (unfold X; lra). assert (LE : 0 <= IZR L * eta) by (apply Rmult_le_pos; lra).
      assert (XS : X * (Sz + d) <= 49 / 10 * (Sz + d)) by (apply Rmult_le_compat_r; lra). assert (XS0 : 0 <= X * (Sz + d)) by (apply Rmult_le_pos; lra).
      assert (b0 : 0 <= b) by (unfold b; lra).
      eapply Rle_trans; [apply (finish A u eta HA E b Sz)|].
      - unfold E. nra.
      - exact b0.
      - exact CS.
      - apply Rmult_le_compat_l; [unfold E; nra|]. unfold b at 1.
        assert (UB2 : u * b <= u * (59 / 10 * (Sz + d) + 8 * IZR L * eta)) by (apply Rmult_le_compat_l; [exact u0|]; unfold b; lra).
        assert (UL : u * (IZR L * eta) <= / 1000 * (IZR L * eta)) by (apply Rmult_le_compat_r; lra).
        assert (NS : 0 <= u * N * (Sz + d)) by (apply Rmult_le_pos; lra).
        assert (US : u * (Sz + d) <= / 5 * (u * N) * (Sz + d)) by (apply Rmult_le_compat_r; lra).
        assert (UD : 0 <= u * d) by (apply Rmult_le_pos; lra). assert (L1e : eta <= IZR L * eta) by (rewrite <- (Rmult_1_l eta) at 1; apply Rmult_le_compat_r; lra).
        unfold X. lra.
    Qed.
  End Gl.

  (** *** Inverse, then forward *)
  Lemma real_inverse_equi s gl o flm : s = MW \/ s = MWSS \/ s = DH -> 0 <= eps <= / 20 -> irfft_accurate (f_irfft F) L (kernel_nsamps (scheme_name s) (rings s L 0)) eps ->
    irfft_accurate (f_irfft F) L (per_ring s L) eps -> sums_all o L -> shape flm = [L; 2 * L - 1]%Z ->
    exists ths K f, pf_thetas A (scheme_name s) L gl = Ok ths /\ pr_kernel A F (scheme_name s) ths L 0 = Ok K /\ pr_inverse A F o flm K L (scheme_name s) 0 = Ok f /\
      shape f = [rings s L 0; per_ring s L]%Z /\ forall t p y, (0 <= t < rings s L 0)%Z -> (0 <= p < per_ring s L)%Z -> colatitude (fun _ => 0) s L 0 t y ->
        Rabs (get f [t; p] - Re (synth L 0 (real_extension (stored L flm)) y (longitude s L 0 t p))) <=
        (2123 * (u * N) + 20 * eps) * signal_size L 0 (real_extension (stored L flm)) + 51 * (IZR L * IZR L) * eta.
  Proof.
    intros Hsc Heps HF1 HF2 Ho Hf. destruct (ff_bounds A u eta HA L 0 HL HB HE) as (L1 & UN & U5 & U2 & U1 & UB & Hu & HE' & U3). fold N in UN, U5, U2, UB.
    destruct (equi_kernel A u eta HA HZ F L 0 eps HL ltac:(cbn; lia) HB HE' Heps s (fun _ => 0) gl Hsc HF1 HI) as (ths & K & x & E1 & El & E3 & E4 & HK).
    destruct (kernel_half A F (scheme_name s) ths L 0 K HL E4) as (Kr & EKr & HH). rewrite El in HH.
    destruct (real_inverse_top A u eta HA HZ F L eps HL HB HE' Heps s (fun _ => 0) o flm K Kr x (13 * u) ltac:(destruct Hsc as [->|[->| ->]]; discriminate) Hf Ho ltac:(lra) HF2 HK HH) as (f & E5 & Sh & Hb).
    { intros t y Ht C. now apply E3. }
    exists ths, Kr, f. repeat (split; [assumption|]). intros t p y Ht Hp C. eapply Rle_trans; [exact (Hb t p y Ht Hp C)|]. fold N.
    apply Rplus_le_compat_r, Rmult_le_compat_r; [apply signal_size_nonneg|]. lra.
  Qed.
  Lemma herm_near flm (x phi v B : R) : hermitian L (stored L flm) -> Rabs (v - Re (synth L 0 (real_extension (stored L flm)) x phi)) <= B ->
    Cmod (RtoC v - synth L 0 (stored L flm) x phi)%C <= B.
  Proof.
    intros Hc H. rewrite (SphFacts.synth_ext L 0 (real_extension (stored L flm)) (stored L flm)) in H by (intros l m Hl Hm; apply (SphFacts.real_ext_id L); [exact Hc|cbn in Hl; lia|lia]).
    pose proof (SphFacts.synth_real L (stored L flm) x phi Hc) as RS. set (w := synth L 0 (stored L flm) x phi) in *.
    replace (RtoC v - w)%C with (RtoC (v - Re w)); [now rewrite Cmod_R|]. destruct w as [a b]. unfold is_real, Im in RS. cbn [snd] in RS. subst b. unfold RtoC, Cminus, Cplus, Copp. cbn. f_equal; ring.
  Qed.
  Lemma herm_size c : hermitian L c -> signal_size L 0 (real_extension c) = signal_size L 0 c.
  Proof. intros Hc. unfold signal_size. apply rr_ext. intros l Hl. apply rr_ext. intros m Hm. rewrite (SphFacts.real_ext_id L c l m Hc); [reflexivity|cbn in Hl; lia|lia]. Qed.

  Lemma real_dh_round_trip o o' flm gl wgl : 0 <= eps <= / 20 -> irfft_accurate (f_irfft F) L (2 * L - 1) eps -> rfft_accurate G (2 * L - 1) eps ->
    sums_all o L -> sums_all o' (2 * L) -> shape flm = [L; 2 * L - 1]%Z -> hermitian L (stored L flm) ->
    exists ths K f KW flm', pf_thetas A "dh" L gl = Ok ths /\ pr_kernel A F "dh" ths L 0 = Ok K /\ pr_inverse A F o flm K L "dh" 0 = Ok f /\
      pr_kernel_forward A F fft "dh" gl wgl L 0 = Ok KW /\ pr_forward A S G o' (as_complex f) KW L "dh" 0 = Ok flm' /\
      shape flm' = [L; 2 * L - 1]%Z /\ forall l m, (0 <= l < L)%Z -> (- L < m < L)%Z ->
        ((Z.abs m <= l)%Z -> Cmod (get flm' [l; m + L - 1]%Z - stored L flm l m)%C <=
          elfactor l * (8 * PI) * ((15200 * (u * N) + 140 * eps) * signal_size L 0 (stored L flm) + 277 * (IZR L * IZR L) * eta)) /\
        ((l < Z.abs m)%Z -> get flm' [l; m + L - 1]%Z = RtoC 0).
  Proof.
    intros Heps HF2 HG Ho Ho' Hf Hc. destruct (ff_bounds A u eta HA L 0 HL HB HE) as (L1 & UN & U5 & U2 & U1 & UB & Hu & HE' & U3). fold N in UN, U5, U2, UB.
    destruct (real_inverse_equi DH gl o flm ltac:(auto) Heps) as (ths & K & f & E1 & E2 & E3 & Sh & Hb); try assumption.
    { cbn [scheme_name rings]. rewrite dh_points. exact HF. }
    rewrite (herm_size _ Hc) in Hb. set (Sz := signal_size L 0 (stored L flm)) in *. assert (S0 : 0 <= Sz) by apply signal_size_nonneg.
    destruct (real_dh o' (as_complex f) gl wgl (stored L flm) ((2123 * (u * N) + 20 * eps) * Sz + 51 * (IZR L * IZR L) * eta) Heps HG Ho' Sh Hc) as (KW & flm' & E6 & E7 & Sh' & H).
    { intros t p Ht Hp. unfold as_complex. cbn [get]. apply herm_near; [exact Hc|]. apply (Hb t p (dh_theta L t) Ht Hp). reflexivity. }
    exists ths, K, f, KW, flm'. repeat (split; [assumption|]). intros l m Hl Hm. destruct (H l m Hl Hm) as [H1 H2]. split; [|exact H2]. intros Hml.
    eapply Rle_trans; [exact (H1 Hml)|]. apply Rmult_le_compat_l; [apply Rmult_le_pos; [apply sqrt_pos|pose proof PI_RGT_0; lra]|]. fold Sz.
    assert (Q0 : 0 <= IZR L * IZR L * eta) by (repeat apply Rmult_le_pos; lra). assert (X2 : IZR L * eta <= IZR L * IZR L * eta) by (apply Rmult_le_compat_r; nra).
    assert (US : 0 <= u * N * Sz) by (now apply Rmult_le_pos). assert (ES : 0 <= eps * Sz) by (apply Rmult_le_pos; lra).
    set (d := (2123 * (u * N) + 20 * eps) * Sz + 51 * (IZR L * IZR L) * eta). assert (d0 : 0 <= d) by (unfold d; lra).
    assert (Q : (4420 * (u * N) + 37 * eps) * d <= 407 / 100 * d) by (apply Rmult_le_compat_r; lra).
    replace ((4420 * (u * N) + 37 * eps) * (Sz + d)) with ((4420 * (u * N) + 37 * eps) * Sz + (4420 * (u * N) + 37 * eps) * d) by ring. unfold d in Q |- *. lra.
  Qed.
  Lemma real_mwx_round_trip s o o' flm gl wgl : 0 <= eps <= / 100 -> transforms_accurate S (2 * L - 1) eps -> transforms_accurate S (2 * L) eps -> transforms_accurate S (4 * L) eps ->
    fft_accurate fft (4 * L) eps -> rfft_accurate G (2 * L) eps -> mwx s -> irfft_accurate (f_irfft F) L (kernel_nsamps (scheme_name s) (rings s L 0)) eps ->
    irfft_accurate (f_irfft F) L (per_ring s L) eps -> sums_all o L -> sums_all o' (2 * L + 1) -> shape flm = [L; 2 * L - 1]%Z -> hermitian L (stored L flm) ->
    exists ths K f KW flm', pf_thetas A (scheme_name s) L gl = Ok ths /\ pr_kernel A F (scheme_name s) ths L 0 = Ok K /\ pr_inverse A F o flm K L (scheme_name s) 0 = Ok f /\
      pr_kernel_forward A F fft (scheme_name s) gl wgl L 0 = Ok KW /\ pr_forward A S G o' (as_complex f) KW L (scheme_name s) 0 = Ok flm' /\
      shape flm' = [L; 2 * L - 1]%Z /\ forall l m, (0 <= l < L)%Z -> (- L < m < L)%Z ->
        ((Z.abs m <= l)%Z -> Cmod (get flm' [l; m + L - 1]%Z - stored L flm l m)%C <=
          elfactor l * (27 * PI) * ((83200 * (u * N) + 1031 * eps) * signal_size L 0 (stored L flm) + 2600 * (IZR L * IZR L) * eta)) /\
        ((l < Z.abs m)%Z -> get flm' [l; m + L - 1]%Z = RtoC 0).
  Proof.
    intros Heps HS1 HS2 HS4 HF4 HG Hm HF1 HF2 Ho Ho' Hf Hc. destruct (ff_bounds A u eta HA L 0 HL HB HE) as (L1 & UN & U5 & U2 & U1 & UB & Hu & HE' & U3). fold N in UN, U5, U2, UB.
    destruct (real_inverse_equi s gl o flm ltac:(destruct Hm; auto) ltac:(lra) HF1 HF2 Ho Hf) as (ths & K & f & E1 & E2 & E3 & Sh & Hb).
    rewrite (herm_size _ Hc) in Hb. set (Sz := signal_size L 0 (stored L flm)) in *. assert (S0 : 0 <= Sz) by apply signal_size_nonneg.
    destruct (real_mwx s o' (as_complex f) gl wgl (stored L flm) ((2123 * (u * N) + 20 * eps) * Sz + 51 * (IZR L * IZR L) * eta) Heps HS1 HS2 HS4 HF4 HG Hm Ho' Sh Hc) as (KW & flm' & E6 & E7 & Sh' & H).
    { intros t p Ht Hp. unfold as_complex. cbn [get]. apply herm_near; [exact Hc|]. specialize (Hb t p (mwx_theta s L t) Ht Hp ltac:(destruct Hm as [->| ->]; reflexivity)).
      replace (longitude s L 0 t p) with (equi_longitude s L p) in Hb by (destruct Hm as [->| ->]; reflexivity). exact Hb. }
    exists ths, K, f, KW, flm'. repeat (split; [assumption|]). intros l m Hl Hmm. destruct (H l m Hl Hmm) as [H1 H2]. split; [|exact H2]. intros Hml.
    eapply Rle_trans; [exact (H1 Hml)|]. apply Rmult_le_compat_l; [apply Rmult_le_pos; [apply sqrt_pos|pose proof PI_RGT_0; lra]|]. fold Sz.
    assert (Q0 : 0 <= IZR L * IZR L * eta) by (repeat apply Rmult_le_pos; lra). assert (X2 : IZR L * eta <= IZR L * IZR L * eta) by (apply Rmult_le_compat_r; nra).
    assert (US : 0 <= u * N * Sz) by (now apply Rmult_le_pos). assert (ES : 0 <= eps * Sz) by (apply Rmult_le_pos; lra). lra.
  Qed.
End Top.
