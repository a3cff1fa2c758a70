(** The precomputed forward transform of the mw and mwss schemes in rounded arithmetic. *)
From Coq Require Import Reals Lra Lia ZifyBool Permutation.
From Coquelicot Require Import Coquelicot.
From Verif Require Import Lib.Py Lib.PyFacts Lib.Vec Lib.VecFacts Lib.Sums Lib.Cplx Lib.Arr Lib.ArrFacts Lib.MatFacts Model.Index Model.Samples Model.Quadrature Model.Resampling
  Model.RisboFloat Model.Spherical Model.Precompute Model.PrecomputeFloat Model.ForwardFloat Model.ResamplingFloat Model.ForwardMWFloat
  Spec.SamplesSpec Spec.WignerSpec Spec.SphereSpec Spec.GridSpec Spec.SphericalSpec Spec.RoundingSpec Spec.PrecomputeFloatSpec Spec.ForwardFloatSpec Spec.ResamplingFloatSpec
  Proofs.QuadProofs Proofs.RisboProofs Proofs.SphGrid Proofs.SphForwardTop Proofs.SphFacts Proofs.PrecomputeKernel Proofs.PrecomputeSph Proofs.SpectralBound Proofs.FloatSums Proofs.FloatKernel Proofs.FloatInverse Proofs.FloatFourier
  Proofs.FloatTop Proofs.FloatForward Proofs.FloatForwardTop Proofs.FloatMWWeights Proofs.L2Norm Proofs.FloatResampling Proofs.FloatResamplingTop Proofs.CBackendBound.
Open Scope R_scope.

(** ** Rings of n samples *)
Definition dft_of (n : Z) (f : ndarray C) (t m : Z) : C :=
  csum (zrange 0 n) (fun p => get f [t; p] * cis (- (IZR m * (2 * PI * IZR p / IZR n))))%C.
Definition abs_of (n : Z) (f : ndarray C) (t : Z) : R := rsum (zrange 0 n) (fun p => Cmod (get f [t; p])).
Lemma dft_of_size n f t m : Cmod (dft_of n f t m) <= abs_of n f t.
Proof. unfold dft_of, abs_of. apply csum_le. intros p Hp. rewrite Cmod_mult, Cmod_cis. lra. Qed.
Lemma dft_of_fft fft n eps (v : vec C) f t m : (1 <= n)%Z -> fft_accurate fft n eps -> vlen v = n ->
  (forall p, (0 <= p < n)%Z -> vat v p = get f [t; p]) ->
  Cmod (vat (fft v) (m mod n) - dft_of n f t m)%C <= eps * abs_of n f t.
Proof.
  intros Hn HF Hv Hvf. destruct (HF v Hv) as [_ H].
  specialize (H (m mod n)%Z ltac:(apply Z.mod_pos_bound; lia)). eapply Rle_trans; [|eapply Rle_trans; [exact H|]].
  - right. do 2 f_equal. unfold dft_of. apply cr_ext. intros p Hp. rewrite Hvf by exact Hp. f_equal.
    assert (N0 : n <> 0%Z) by lia.
    assert (E := root_congr n (- (m * p)) (- ((m mod n) * p)) N0).
    assert (G : forall k, cis (- (IZR k * (2 * PI * IZR p / IZR n))) = root n (- (k * p))).
    { intros k. unfold root. f_equal. rewrite opp_IZR, mult_IZR. field. apply (IZR_neq n 0). exact N0. }
    rewrite G. rewrite E.
    + rewrite <- G. f_equal. field. apply (IZR_neq n 0). exact N0.
    + rewrite <- !Z.mul_opp_r. rewrite Zmult_mod_idemp_l. reflexivity.
  - right. f_equal. unfold abs_of. apply rr_ext. intros p Hp. now rewrite Hvf.
Qed.
Lemma quadrature_dft T n w y spin l m f :
  quadrature_of T n w y spin l m f =
  (RtoC (sgn spin) * csum (zrange 0 T) (fun t => RtoC (elfactor l * wigner_d l m (- spin) (y t) * w t) * dft_of n f t m))%C.
Proof.
  unfold quadrature_of. rewrite <- cs_scal_l. apply cr_ext. intros t Ht. unfold dft_of. rewrite <- !cs_scal_l. apply cr_ext. intros p Hp.
  unfold sYlm. rewrite Cconj_mult, Cconj_R, cis_conj. fold (elfactor l). rewrite !RtoC_mult. ring.
Qed.
(** maps that differ by d in the quadrature of the absolute values *)
Lemma quad_diff_sum T n w V y spin l m f g : (forall t, (0 <= t < T)%Z -> Rabs (w t) <= V t) ->
  Cmod (quadrature_of T n w y spin l m f - quadrature_of T n w y spin l m g)%C <=
  wsize spin l m * weighted_size T n V (mkArr [T; n] (fun ix => get f ix - get g ix)%C).
Proof.
  intros HV. unfold quadrature_of, weighted_size. rewrite <- cs_minus, <- rs_scal_l. apply csum_le. intros t Ht. apply in_zrange in Ht. rewrite <- cs_minus.
  rewrite <- Rmult_assoc, <- rs_scal_l. apply csum_le. intros p Hp. cbn [get].
  set (h := Cconj _). assert (HS : Cmod h <= wsize spin l m) by apply harmonic_size.
  replace (RtoC (w t) * get f [t; p] * h - RtoC (w t) * get g [t; p] * h)%C with (h * RtoC (w t) * (get f [t; p] - get g [t; p]))%C by ring.
  rewrite !Cmod_mult, Cmod_R. apply Rmult_le_compat_r; [apply Cmod_ge_0|]. apply Rmult_le_compat; [apply Cmod_ge_0|apply Rabs_pos|exact HS|now apply HV].
Qed.
(** sums of absolute values and Euclidean norms *)
Lemma abs_l2 n m (f : Z -> Z -> C) : (0 <= n)%Z -> (0 <= m)%Z ->
  rsum (zrange 0 n) (fun t => rsum (zrange 0 m) (fun p => Cmod (f t p))) <= sqrt (IZR n * IZR m) * l2_map n m f.
Proof.
  intros Hn Hm. eapply Rle_trans; [right; symmetry; exact (prod_sum (zrange 0 n) (zrange 0 m) (fun q => Cmod (f (fst q) (snd q))))|]. fold (cells n m).
  rewrite map_nn. rewrite <- map_one by assumption. rewrite map_nn. unfold nn.
  eapply Rle_trans; [apply Rle_abs|]. eapply Rle_trans; [|apply (cauchy (cells n m) (fun q => Cmod (RtoC 1)) (fun q => Cmod (f (fst q) (snd q))))].
  right. f_equal. apply rs_ext. intros q _. rewrite Cmod_1. ring.
Qed.
Lemma quadrature_same L spin c l m w (th : Z -> R) T : (1 <= L)%Z -> (0 <= l < L)%Z -> (- L < m < L)%Z -> (Z.abs spin <= l)%Z -> (Z.abs m <= l)%Z ->
  (forall k, (- (2 * L) < k < 2 * L)%Z -> rsum (zrange 0 T) (fun t => IZR (2 * L) * w t * cos (IZR k * th t)) = 2 * PI * Re (mw_weights k)) ->
  quadrature_of T (2 * L) w th spin l m (mat T (2 * L) (fun t p => synth L spin c (th t) (2 * PI * IZR p / IZR (2 * L)))) = c l m.
Proof.
  intros HL Hl Hm H1 H2 HQ. assert (E := fsum_round MWSS L spin 0 T th (mkVec T w) (fun t p => synth L spin c (th t) (equi_longitude MWSS L p)) c HL ltac:(discriminate) ltac:(lia)
    ltac:(intros; reflexivity) HQ l m Hl Hm). unfold restricted in E.
  replace (Z.max 0 (Z.abs spin) <=? l)%Z with true in E by lia. replace (Z.abs m <=? l)%Z with true in E by lia. cbn [andb] in E. rewrite <- E.
  rewrite quadrature_dft. unfold fsum. cbn [equi_grid gn gN gth gph per_ring vat]. rewrite <- cs_scal_l. apply cr_ext. intros t Ht.
  unfold dft_of. rewrite !RtoC_mult. rewrite (cr_ext 0 (2 * L) (fun p => cis _ * _)%C
    (fun p => (synth L spin c (th t) (2 * PI * IZR p / IZR (2 * L)) * cis (- (IZR m * (2 * PI * IZR p / IZR (2 * L)))))%C)).
  - unfold mat. cbn [get nth]. ring.
  - intros p Hp. unfold equi_longitude. cbn [per_ring]. ring.
Qed.

(** the weights of one sample in the exact rule *)
Definition mwss_weight (L t : Z) : R := mwss_exact (2 * L) t * 2 * PI / IZR (2 * L).
Lemma mwss_weight_model gl L : (1 <= L)%Z -> exists w, quad_weights_transform gl L "mwss" 0 None = Ok w /\ vlen w = (2 * L + 1)%Z /\
  forall t, (0 <= t < 2 * L + 1)%Z -> vat w t = mwss_weight L t.
Proof.
  intros HL. destruct (mwss_weights_ok (2 * L) 0 ltac:(lia)) as (q & E & El & Hq). unfold quad_weights_transform.
  change (streq (lower "mwss") "mwss") with true. cbv iota. rewrite E. cbn [bind]. eexists. split; [reflexivity|]. split; [exact El|].
  intros t Ht. cbn [vmap vat]. rewrite Hq by lia. unfold mwss_weight, mwss_exact. change (sgn 0) with 1. destruct ((1 <=? t) && (t <? 2 * L))%Z; [now rewrite Rmult_1_l|reflexivity].
Qed.
Lemma mwss_weight_exact L k : (1 <= L)%Z -> (- (2 * L) < k < 2 * L)%Z ->
  rsum (zrange 0 (2 * L + 1)) (fun t => IZR (2 * L) * mwss_weight L t * cos (IZR k * mwss_theta (2 * L) t)) = 2 * PI * Re (mw_weights k).
Proof.
  intros HL Hk. set (gl := Grids.mkGL (fun _ => mkVec 0 (fun _ => 0)) (fun _ => mkVec 0 (fun _ => 0))).
  destruct (mwss_weight_model gl L HL) as (w & E & _ & Hw). destruct (transform_mwss_ok gl L 0 None HL) as (w' & E' & _ & H').
  rewrite E in E'. injection E' as <-. rewrite <- (H' k Hk). apply rr_ext. intros t Ht. rewrite Hw by lia. reflexivity.
Qed.

Section Float.
  Variables (A : arith) (u eta : R).
  Hypothesis HA : rounded A u eta.
  Hypothesis HZ : zeros_exact A.
  Let u0 : 0 <= u := rd_u _ _ _ HA.
  Let e0 : 0 <= eta := rd_eta _ _ _ HA.

  (** the part of the transform after the resampling *)
  Definition rings_part (fft : vec C -> vec C) (o : order) (f : ndarray C) (kernel : ndarray R) (L mo spin : Z) : result (ndarray C) :=
    let ftm := map_rows fft f in
    let ftm := map_rows fftshift ftm in
    let ftm := slice2 ftm 0 (dim0 ftm) mo (dim1 ftm) in
    let flm := zeros (RtoC 0) (flm_shape L) in
    let* e := ff_einsum A o kernel ftm in
    let* flm := slice2_set flm 0 (dim0 flm) 0 (dim1 flm) e in
    Ok (mscal (fun z => cf_mul A z (RtoC (m1 spin))) flm).

  Lemma rings_near (Hu : u <= / 1000) fft o f KW L T spin y w V kap eps : (1 <= L)%Z -> (1 <= T)%Z -> shape f = [T; 2 * L]%Z ->
    sums_all o T -> 0 <= kap <= 2 -> 6 * u * IZR T <= 1 -> 0 <= eps <= 1 -> fft_accurate fft (2 * L) eps ->
    (forall t, (0 <= t < T)%Z -> Rabs (w t) <= V t) -> weighted_near KW T L spin y w V kap ->
    exists flm, rings_part fft o f KW L 1 spin = Ok flm /\ shape flm = [L; 2 * L - 1]%Z /\
      forall l m, (0 <= l < L)%Z -> (- L < m < L)%Z ->
        Cmod (get flm [l; m + L - 1]%Z - quadrature_of T (2 * L) w y spin l m f)%C <=
          (4 * (kap + 27 * u * IZR T) + eps) * (wsize spin l m * weighted_size T (2 * L) V f) + 24 * IZR T * eta /\
        ((l < Z.abs m \/ l < Z.abs spin)%Z -> get flm [l; m + L - 1]%Z = RtoC 0).
  Proof.
    intros HL T1 Hf Ho Hk HuT Heps HF HV [KS HK].
    unfold rings_part. set (n := (2 * L)%Z) in *. assert (N2 : (n / 2 = L)%Z) by (unfold n; rewrite Z.mul_comm; apply Z.div_mul; lia).
    assert (MF := is_mat_self f T n Hf). assert (RV : forall t, vlen (row f t) = n) by (intros t; exact (is_mat_dim1 _ _ _ _ MF)).
    assert (M1 : is_mat (map_rows fft f) T n (fun t c => vat (fft (row f t)) c)).
    { unfold map_rows. rewrite (is_mat_dim0 _ _ _ _ MF). rewrite (proj1 (HF (row f 0) (RV 0%Z))). apply is_mat_mat. }
    set (f1 := map_rows fft f) in *. clearbody f1.
    assert (M2 : is_mat (map_rows fftshift f1) T n (fun t c => vat (fft (row f t)) ((c - L) mod n))).
    { unfold map_rows. rewrite (is_mat_dim0 _ _ _ _ M1). replace (vlen (fftshift (row f1 0))) with n by (cbn [fftshift vlen row]; now rewrite (is_mat_dim1 _ _ _ _ M1)).
      apply (is_mat_ext _ _ _ _ _ (is_mat_mat _ _ _)). intros t c Ht Hc. cbn [fftshift vat vlen row]. rewrite (is_mat_dim1 _ _ _ _ M1).
      rewrite (proj2 M1); [rewrite N2; reflexivity|exact Ht|]. apply Z.mod_pos_bound. unfold n. lia. }
    set (f2 := map_rows fftshift f1) in *. clearbody f2. rewrite (is_mat_dim0 _ _ _ _ M2), (is_mat_dim1 _ _ _ _ M2).
    assert (M3 := MatFacts.slice2_ok _ _ _ _ 0 T 1 n M2 ltac:(lia) ltac:(lia) ltac:(lia) ltac:(lia) ltac:(unfold n; lia) ltac:(lia)).
    set (f3 := slice2 f2 0 T 1 n) in *. clearbody f3.
    unfold ff_einsum. rewrite (is_mat_dim0 _ _ _ _ M3), (is_mat_dim1 _ _ _ _ M3).
    assert (D0 : dim0 KW = T) by (unfold dim0; now rewrite KS). assert (D1 : dim1 KW = L) by (unfold dim1; now rewrite KS).
    assert (D2 : dim2 KW = (2 * L - 1)%Z) by (unfold dim2; now rewrite KS). rewrite D0, D1, D2. set (nk := (2 * L - 1)%Z) in *.
    replace ((T =? T - 0) && (nk =? n - 1))%Z with true by (unfold n, nk; lia). cbn [bind].
    set (h := fun l i => cf_sum A o (fun t => cf_mul A (RtoC (at3 KW t l i)) (at2 f3 t i))).
    assert (MZ : is_mat (zeros (RtoC 0) (flm_shape L)) L nk (fun _ _ => RtoC 0)) by (split; reflexivity).
    rewrite (is_mat_dim0 _ _ _ _ MZ), (is_mat_dim1 _ _ _ _ MZ).
    assert (ME : is_mat (mat L nk h) (L - 0) (nk - 0) h) by (rewrite !Z.sub_0_r; apply is_mat_mat).
    destruct (PrecomputeSph.slice2_set_ok _ _ _ _ _ _ 0 L 0 nk MZ ME ltac:(lia) ltac:(lia) ltac:(lia) ltac:(lia) ltac:(unfold nk; lia) ltac:(lia)) as (flm & -> & Hflm). cbn [bind].
    assert (M4 : is_mat (mscal (fun z => cf_mul A z (RtoC (m1 spin))) flm) L nk (fun l i => cf_mul A (h l i) (RtoC (sgn spin)))).
    { apply (is_mat_ext _ _ _ _ _ (mscal_ok (fun z => cf_mul A z (RtoC (m1 spin))) _ _ _ _ Hflm)). intros l i Hl Hi. cbv beta.
      change (m1 spin) with (sgn spin). replace ((0 <=? l) && (l <? L) && (0 <=? i) && (i <? nk))%Z with true by lia. rewrite !Z.sub_0_r. reflexivity. }
    eexists. split; [reflexivity|]. split; [exact (proj1 M4)|]. intros l m Hl Hm.
    set (i := (m + L - 1)%Z). assert (Hi : (0 <= i < nk)%Z) by (unfold i, nk; lia).
    assert (G1 := proj2 M4 l i Hl Hi). unfold at2 in G1. cbv beta in G1.
    assert (IM : (i - (L - 1) = m)%Z) by (unfold i; lia).
    assert (HK1 : forall t, (0 <= t < T)%Z -> Rabs (at3 KW t l i - elfactor l * wigner_d l m (- spin) (y t) * w t) <= kap * (wsize spin l m * V t)).
    { intros t Ht. specialize (HK t l i Ht Hl Hi). now rewrite IM in HK. }
    split.
    2:{ intros O. rewrite G1. unfold h. rewrite (cf_sum_zero A HZ); [apply cf_mul_zero; exact HZ|]. intros t Ht. apply (Permutation_in _ Ho), in_zrange in Ht.
        specialize (HK1 t Ht). rewrite wsize_out, wigner_d_out in HK1 by lia. rewrite !Rmult_0_l, Rmult_0_r, Rmult_0_l, Rmult_0_r, Rminus_0_r in HK1.
        assert (at3 KW t l i = 0) as -> by (pose proof (Rabs_pos (at3 KW t l i)); destruct (Req_dec (at3 KW t l i) 0) as [|N]; [assumption|]; apply Rabs_no_R0 in N; lra).
        apply (cf_mul_zero_l A HZ). }
    rewrite G1. clear G1. unfold h. rewrite quadrature_dft. set (k := fun t => elfactor l * wigner_d l m (- spin) (y t) * w t).
    set (W := fun t => wsize spin l m * V t). set (G := fun t => at2 f3 t i).
    assert (W0 := wsize_nonneg spin l m).
    assert (V0 : forall t, (0 <= t < T)%Z -> 0 <= V t) by (intros t Ht; specialize (HV t Ht); pose proof (Rabs_pos (w t)); lra).
    assert (KW2 : forall t, (0 <= t < T)%Z -> Rabs (k t) <= W t /\ Rabs (at3 KW t l i - k t) <= kap * W t).
    { intros t Ht. split; [|apply HK1, Ht]. unfold k, W. rewrite Rabs_mult. apply Rmult_le_compat; try apply Rabs_pos; [apply kernel_size|now apply HV]. }
    assert (E1 := dot_err A u eta HA HZ Hu T o (fun t => at3 KW t l i) k W kap G spin T1 Ho Hk HuT KW2). cbv beta in E1.
    assert (GE : forall t, (0 <= t < T)%Z -> Cmod (G t - dft_of n f t m)%C <= eps * abs_of n f t).
    { intros t Ht. unfold G. rewrite (proj2 M3) by (unfold nk, n in *; lia). rewrite !Z.add_0_l. replace (1 + i - L)%Z with m by (unfold i; lia).
      apply dft_of_fft; auto. unfold n. lia. }
    assert (A0 : forall t, 0 <= abs_of n f t) by (intros t; apply rs_nonneg; intros; apply Cmod_ge_0).
    set (WS := wsize spin l m * weighted_size T n V f).
    assert (WE : rsum (zrange 0 T) (fun t => W t * abs_of n f t) = WS).
    { unfold WS, weighted_size, W. rewrite <- rs_scal_l. apply rr_ext. intros t Ht. unfold abs_of. ring. }
    assert (E2 : rsum (zrange 0 T) (fun t => W t * Cmod (G t)) <= 2 * WS).
    { rewrite <- WE, <- rs_scal_l. apply rr_le. intros t Ht.
      assert (B : Cmod (G t) <= 2 * abs_of n f t).
      { replace (G t) with ((G t - dft_of n f t m) + dft_of n f t m)%C by ring. eapply Rle_trans; [apply Cmod_triangle|].
        pose proof (GE t Ht). pose proof (dft_of_size n f t m). pose proof (A0 t). nra. }
      assert (0 <= W t) by (apply Rmult_le_pos; [exact W0|now apply V0]). replace (2 * (W t * abs_of n f t)) with (W t * (2 * abs_of n f t)) by ring. now apply Rmult_le_compat_l. }
    set (z := cf_mul A _ _) in *. set (s1 := csum (zrange 0 T) (fun t => RtoC (k t) * G t)%C) in *.
    set (s2 := csum (zrange 0 T) (fun t => RtoC (k t) * dft_of n f t m)%C).
    assert (E3 : Cmod (s1 - s2)%C <= eps * WS).
    { replace (s1 - s2)%C with (csum (zrange 0 T) (fun t => RtoC (k t) * (G t - dft_of n f t m))%C).
      - rewrite <- WE, <- rs_scal_l. apply csum_le. intros t Ht. apply in_zrange in Ht. rewrite Cmod_mult, Cmod_R.
        replace (eps * (W t * abs_of n f t)) with (W t * (eps * abs_of n f t)) by ring.
        apply Rmult_le_compat; [apply Rabs_pos|apply Cmod_ge_0|now apply KW2|now apply GE].
      - unfold s1, s2. rewrite <- cs_minus. apply cr_ext. intros. ring. }
    assert (SG : Cmod (RtoC (sgn spin)) = 1).
    { rewrite Cmod_R. assert (Q := sgn_sq spin). unfold Rabs. destruct (Rcase_abs (sgn spin)); nra. }
    match goal with |- Cmod ?a <= _ => change a with (z - RtoC (sgn spin) * s2)%C end.
    replace (z - RtoC (sgn spin) * s2)%C with ((z - RtoC (sgn spin) * s1) + RtoC (sgn spin) * (s1 - s2))%C by ring.
    eapply Rle_trans; [apply Cmod_triangle|]. rewrite (Cmod_mult (RtoC (sgn spin))), SG, Rmult_1_l.
    assert (K0 : 0 <= kap + 27 * u * IZR T) by (assert (0 <= u * IZR T) by (apply Rmult_le_pos; [exact u0|apply IZR_le; lia]); lra).
    apply (Rmult_le_compat_l _ _ _ K0) in E2. lra.
  Qed.

  Variables (F : ffts) (L spin : Z) (eps : R).
  Hypothesis HL : (1 <= L)%Z.
  Hypothesis Hs : (Z.abs spin < L)%Z.
  Let N := (IZR L * (2 * IZR L + 3)).
  Hypothesis HB : 2000 * u * N <= 1.
  Hypothesis HE : 4 * (IZR L * IZR L) * eta <= u.
  Hypothesis Heps : 0 <= eps <= / 100.
  Let Heps' : 0 <= eps <= / 20.
  Proof. lra. Qed.
  Let T := (2 * L + 1)%Z.

  Lemma mwss_kernel fft name gl wgl : str_in (lower name) ["mw"; "mwss"] = true ->
    irfft_accurate (f_irfft F) L (4 * L) eps -> ipow_accurate (f_ipow F) (2 * L) eps -> fft_accurate fft (4 * L) eps ->
    exists KW, mf_kernel A F fft name gl wgl L spin = Ok KW /\
      weighted_near KW T L spin (mwss_theta (2 * L)) (mwss_weight L) (fun _ => mwss_share L) (1011 * (u * N) + 12 * eps).
  Proof.
    intros Hn HF HI HFF. destruct (ff_bounds A u eta HA L spin HL HB HE) as (L1 & UN & U5 & U2 & U1 & UB & Hu & HE' & U3). fold N in UN, U5, U2, UB.
    destruct (small A u eta HA L spin eps HL HB HE' Heps') as (S1 & S2 & S3 & S4 & _ & S5).
    unfold mf_kernel, mf_thetas. rewrite Hn.
    assert (TH : exists ths, pf_thetas A "mwss" (2 * L) gl = Ok ths /\ vlen ths = T /\ (forall t, (0 <= t < T)%Z -> Rabs (vat ths t - mwss_theta (2 * L) t) <= 13 * u)).
    { unfold pf_thetas. repeat match goal with |- context [streq ?a ?b] => let v := eval compute in (streq a b) in change (streq a b) with v end. cbv iota.
      eexists. split; [reflexivity|]. split; [reflexivity|]. cbn [vat]. intros t Ht. apply (theta_err A u eta HA L spin eps HL HB HE' Heps' (2 * t) (2 * (2 * L))); unfold T in *; try lia.
      unfold mwss_theta. rewrite !mult_IZR. field. lra. }
    destruct TH as (ths & -> & El & E3). cbn [bind].
    assert (B0 : Rabs (vat ths 0) <= 41 / 10).
    { specialize (E3 0%Z ltac:(unfold T; lia)). replace (mwss_theta (2 * L) 0) with 0 in E3 by (unfold mwss_theta; field; apply (IZR_neq _ 0); lia). rewrite Rminus_0_r in E3. lra. }
    assert (Hn2 : kernel_nsamps "mwss" T = (4 * L)%Z).
    { unfold kernel_nsamps, T. repeat match goal with |- context [streq ?a ?b] => let v := eval compute in (streq a b) in change (streq a b) with v end. cbv iota. lia. }
    destruct (fourier_near A u eta HA HZ S1 S2 F L (4 * L) eps HL ltac:(lia) S3 S4 Heps' HF HI "mwss" ths T spin Hn2 El ltac:(unfold T; lia) Hs B0) as (dl & E5 & H5).
    destruct (normalise_near A u eta HA S1 S2 HZ dl T L spin _ _ (kap u L eps) H5 HL) as (K & E6 & H6).
    { intros l Hl. unfold kbound, kap. fold N. rewrite mult_IZR, plus_IZR, mult_IZR. fold N. lra. }
    assert (E4 : pf_kernel A F "mwss" ths L spin = Ok K).
    { unfold pf_kernel. repeat match goal with |- context [streq ?a ?b] => let v := eval compute in (streq a b) in change (streq a b) with v end.
      repeat match goal with |- context [str_in ?a ?b] => let v := eval compute in (str_in a b) in change (str_in a b) with v end. cbv iota. rewrite E5. cbn [bind]. exact E6. }
    rewrite E4. cbn [bind].
    assert (H2 := kernel_move K T L spin _ (mwss_theta (2 * L)) _ (13 * u) H6 HL ltac:(lra)). cbv beta in H2.
    destruct (mwss_weights_near A u eta HA ltac:(lra) ltac:(lra) fft L eps ths wgl HL HE Heps' HFF) as (wf & -> & Wl & W). cbn [bind].
    match type of H2 with ?P -> _ => assert (HM : P) end.
    { intros t Ht. specialize (E3 0%Z ltac:(unfold T; lia)). replace (mwss_theta (2 * L) 0) with 0 in E3 by (unfold mwss_theta; field; apply (IZR_neq _ 0); lia).
      replace (vat ths 0 + 2 * PI * IZR t / IZR (4 * L) - mwss_theta (2 * L) t) with (vat ths 0 - 0); [exact E3|].
      unfold mwss_theta. rewrite !mult_IZR. field. lra. }
    specialize (H2 HM). clear HM. rename H2 into HM.
    destruct (weigh_near A u eta HA HZ K T L spin (mwss_theta (2 * L)) _ wf (mwss_weight L) (fun _ => mwss_share L) (15 * u + 14 / 10 * eps) HM Wl) as (KW & EW & HW).
    - unfold kap. fold N. split; lra.
    - split; lra.
    - exact W.
    - exists KW. split; [exact EW|]. destruct HW as [KS HW]. split; [exact KS|]. intros t l i Ht' Hl Hi. eapply Rle_trans; [exact (HW t l i Ht' Hl Hi)|].
      apply Rmult_le_compat_r.
      + apply Rmult_le_pos; [apply wsize_nonneg|]. destruct (W t Ht') as (W1 & _). pose proof (Rabs_pos (mwss_exact (2 * L) t * 2 * PI / IZR (2 * L))). lra.
      + unfold kap. fold N. lra.
  Qed.

  Let M := sqrt (IZR T * IZR (2 * L)).
  Lemma share_total : mwss_share L * (M * M) <= 27 * PI.
  Proof.
    assert (L1 : 1 <= IZR L) by (apply IZR_le; lia). unfold M. rewrite sqrt_sqrt by (apply Rmult_le_pos; apply IZR_le; unfold T; lia).
    unfold T, mwss_share. rewrite plus_IZR, mult_IZR. pose proof PI_RGT_0.
    replace (9 * PI / (2 * (IZR L * IZR L)) * ((2 * IZR L + 1) * (2 * IZR L))) with (9 * PI * (2 + / IZR L)) by (field; lra).
    assert (/ IZR L <= 1) by (rewrite <- Rinv_1; apply Rinv_le_contravar; lra). nra.
  Qed.
  Lemma share_size (f : ndarray C) s : l2_map T (2 * L) (at2 f) <= M * s -> weighted_size T (2 * L) (fun _ => mwss_share L) f <= 27 * PI * s.
  Proof.
    intros H. assert (S0 : 0 <= mwss_share L).
    { unfold mwss_share. pose proof PI_RGT_0. assert (1 <= IZR L) by (apply IZR_le; lia). apply Rdiv_le_0_compat; [lra|nra]. }
    assert (M0 : 0 <= M) by apply sqrt_pos.
    assert (s0 : 0 <= s).
    { assert (0 < M) by (apply sqrt_lt_R0, Rmult_lt_0_compat; apply IZR_lt; unfold T; lia). pose proof (map_nonneg T (2 * L) (at2 f)). destruct (Rle_lt_dec 0 s); [assumption|nra]. }
    unfold weighted_size. rewrite rs_scal_l. eapply Rle_trans.
    - apply Rmult_le_compat_l; [exact S0|]. exact (abs_l2 T (2 * L) (at2 f) ltac:(unfold T; lia) ltac:(lia)).
    - fold M. apply Rle_trans with (mwss_share L * (M * (M * s))).
      + apply Rmult_le_compat_l; [exact S0|]. now apply Rmult_le_compat_l.
      + replace (mwss_share L * (M * (M * s))) with (mwss_share L * (M * M) * s) by ring. apply Rmult_le_compat_r; [exact s0|apply share_total].
  Qed.

  (** the doubled map h known to within D of e *)
  Let Kc := 4110 * (u * N) + 49 * eps.
  Lemma tail_near fft o h e KW s D : fft_accurate fft (2 * L) eps -> sums_all o T -> shape h = [T; 2 * L]%Z ->
    weighted_near KW T L spin (mwss_theta (2 * L)) (mwss_weight L) (fun _ => mwss_share L) (1011 * (u * N) + 12 * eps) ->
    (forall t, (0 <= t < T)%Z -> Rabs (mwss_weight L t) <= mwss_share L) ->
    l2_map T (2 * L) (at2 e) <= M * s -> l2_map T (2 * L) (fun t p => at2 h t p - at2 e t p)%C <= M * D ->
    exists flm, rings_part fft o h KW L 1 spin = Ok flm /\ shape flm = [L; 2 * L - 1]%Z /\
      forall l m, (0 <= l < L)%Z -> (- L < m < L)%Z ->
        ((Z.abs m <= l)%Z -> (Z.abs spin <= l)%Z ->
          Cmod (get flm [l; m + L - 1]%Z - quadrature_of T (2 * L) (mwss_weight L) (mwss_theta (2 * L)) spin l m e)%C <=
          elfactor l * (27 * PI) * (Kc * (s + D) + D + 4 * IZR L * eta)) /\
        ((l < Z.abs m \/ l < Z.abs spin)%Z -> get flm [l; m + L - 1]%Z = RtoC 0).
  Proof.
    intros HFF Ho Hh HW HV Hes HD. destruct (ff_bounds A u eta HA L spin HL HB HE) as (L1 & UN & U5 & U2 & U1 & UB & Hu & HE' & U3). fold N in UN, U5, U2, UB.
    assert (TE : IZR T = 2 * IZR L + 1) by (unfold T; now rewrite plus_IZR, mult_IZR).
    destruct (rings_near Hu fft o h KW L T spin (mwss_theta (2 * L)) (mwss_weight L) (fun _ => mwss_share L) (1011 * (u * N) + 12 * eps) eps HL ltac:(unfold T; lia) Hh Ho) as (flm & E & Sh & H); try assumption.
    - split; lra.
    - rewrite TE. lra.
    - lra.
    - exists flm. split; [exact E|]. split; [exact Sh|]. intros l m Hl Hm. destruct (H l m Hl Hm) as [H1 H2]. split; [|exact H2]. intros M1 M2.
      assert (Q := quad_diff_sum T (2 * L) (mwss_weight L) (fun _ => mwss_share L) (mwss_theta (2 * L)) spin l m h e HV).
      rewrite wsize_in in H1, Q by lia.
      assert (D1 := share_size (mkArr [T; 2 * L]%Z (fun ix => get h ix - get e ix)%C) D HD).
      assert (D2 : weighted_size T (2 * L) (fun _ => mwss_share L) h <= 27 * PI * (s + D)).
      { apply share_size. rewrite Rmult_plus_distr_l. eapply Rle_trans; [|apply Rplus_le_compat; [exact Hes|exact HD]]. eapply Rle_trans; [|apply map_triang].
        right. apply map_ext. intros. ring. }
      set (q := quadrature_of _ _ _ _ _ _ _ h) in *. set (q2 := quadrature_of _ _ _ _ _ _ _ e) in *.
      replace (get flm [l; m + L - 1]%Z - q2)%C with ((get flm [l; m + L - 1]%Z - q) + (q - q2))%C by ring.
      eapply Rle_trans; [apply Cmod_triangle|]. pose proof (elfactor_lower l ltac:(lia)) as EL. set (E0 := elfactor l) in *.
      assert (W0 : 0 <= weighted_size T (2 * L) (fun _ => mwss_share L) h).
      { apply rs_nonneg. intros t Ht. apply in_zrange in Ht. apply Rmult_le_pos; [|apply rs_nonneg; intros; apply Cmod_ge_0].
        specialize (HV t Ht). pose proof (Rabs_pos (mwss_weight L t)). lra. }
      set (w1 := weighted_size T (2 * L) _ h) in *. set (w2 := weighted_size T (2 * L) _ (mkArr _ _)) in *.
      assert (X0 : 4 * (1011 * (u * N) + 12 * eps + 27 * u * IZR T) + eps <= Kc) by (unfold Kc; rewrite TE; lra).
      assert (Y0 : 0 <= Kc) by (unfold Kc; lra).
      assert (X1 : (4 * (1011 * (u * N) + 12 * eps + 27 * u * IZR T) + eps) * (E0 * w1) <= Kc * (E0 * (27 * PI * (s + D)))).
      { apply Rle_trans with (Kc * (E0 * w1)).
        - apply Rmult_le_compat_r; [apply Rmult_le_pos; lra|exact X0].
        - apply Rmult_le_compat_l; [exact Y0|]. apply Rmult_le_compat_l; lra. }
      assert (X3 : E0 * w2 <= E0 * (27 * PI * D)) by (apply Rmult_le_compat_l; lra).
      assert (X2 : 24 * IZR T * eta <= E0 * (27 * PI) * (4 * IZR L * eta)).
      { rewrite TE. assert (18 <= E0 * (27 * PI)) by (pose proof PI2_3_2; nra). assert (0 <= 4 * IZR L * eta) by (apply Rmult_le_pos; lra).
        assert (eta <= IZR L * eta) by nra.
        apply Rle_trans with (18 * (4 * IZR L * eta)); [lra|]. now apply Rmult_le_compat_r. }
      lra.
  Qed.
End Float.
