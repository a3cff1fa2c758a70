(** The precomputed forward Wigner transform in rounded arithmetic. *)
From Coq Require Import Reals Lra Lia ZifyBool Permutation.
From Coquelicot Require Import Complex.
From Verif Require Import Lib.Py Lib.PyFacts Lib.Vec Lib.VecFacts Lib.Sums Lib.Cplx Lib.Arr Lib.ArrFacts Lib.MatFacts Model.Index Model.Samples
  Model.RisboFloat Model.Spherical Model.Precompute Model.PrecomputeFloat Model.ForwardFloat Model.Wigner Model.FourierWigner Model.PrecomputeWigner Model.WignerFloat Model.WignerForwardFloat
  Spec.SamplesSpec Spec.WignerSpec Spec.SphereSpec Spec.GridSpec Spec.SphericalSpec Spec.SO3Spec Spec.OTFWignerSpec Spec.RoundingSpec Spec.PrecomputeFloatSpec Spec.ForwardFloatSpec
  Spec.WignerFloatSpec Spec.WignerForwardFloatSpec
  Proofs.RisboProofs Proofs.PrecomputeKernel Proofs.PrecomputeSph Proofs.SpectralBound Proofs.FloatSums Proofs.FloatKernel Proofs.FloatInverse Proofs.FloatFourier Proofs.CBackendBound
  Proofs.SphGrid Proofs.WignerInverse Proofs.WignerForward Proofs.WignerRound Proofs.FWArrays Proofs.PWKernel Proofs.PWInverse Proofs.PWForward Proofs.FloatForward Proofs.FloatWigner.
Open Scope R_scope.

Definition cN (N : Z) : R := 2 * PI / IZR (2 * N - 1).
Lemma cN_pos N : (1 <= N)%Z -> 0 < cN N.
Proof. intros H. unfold cN. apply Rdiv_lt_0_compat; [pose proof PI_RGT_0; lra|]. apply IZR_lt. lia. Qed.

(** ** The quadrature, ring by ring *)
Definition dft3 (L N : Z) (f : ndarray C) (n t m : Z) : C :=
  csum (zrange 0 (2 * L - 1)) (fun p => csum (zrange 0 (2 * N - 1)) (fun g => get f [g; t; p] * cis (- (IZR n * (2 * PI * IZR g / IZR (2 * N - 1))))) *
    cis (- (IZR m * (2 * PI * IZR p / IZR (2 * L - 1)))))%C.
Lemma dft3_size L N f n t m : Cmod (dft3 L N f n t m) <= ring_abs3 (2 * N - 1) (2 * L - 1) f t.
Proof.
  unfold dft3, ring_abs3. apply csum_le. intros p Hp. rewrite Cmod_mult, Cmod_cis, Rmult_1_r. apply csum_le. intros g Hg. rewrite Cmod_mult, Cmod_cis. lra.
Qed.
Lemma wigner_sum_rings s L N w y f n l m : s = DH \/ s = GL ->
  wigner_sum s L N 0 w y (fun g t p => get f [g; t; p]) n l m =
  csum (zrange 0 (rings s L 0)) (fun t => RtoC (wigner_d l m n (y t) * w t * cN N) * dft3 L N f n t m)%C.
Proof.
  intros Hs. unfold wigner_sum. apply cr_ext. intros t Ht. rewrite (Rmult_comm (w t)). rewrite (RtoC_mult (_ * _) (cN N)). rewrite <- Cmult_assoc. f_equal.
  assert (ring_size s L 0 t = 2 * L - 1)%Z as -> by (destruct Hs as [->| ->]; reflexivity).
  unfold dft3. rewrite <- cs_scal_l. apply cr_ext. intros p Hp.
  replace (longitude s L 0 t p) with (2 * PI * IZR p / IZR (2 * L - 1)) by (destruct Hs as [->| ->]; reflexivity). fold (cN N). ring.
Qed.

(** ** The two Fourier transforms *)
Lemma spectrum3 fftg fftp N L T f eps : (1 <= N)%Z -> (1 <= L)%Z -> shape f = [2 * N - 1; T; 2 * L - 1]%Z -> 0 <= eps <= / 20 ->
  fft_accurate fftg (2 * N - 1) eps -> fft_accurate fftp (2 * L - 1) eps ->
  exists G, is_arr3 (last_from (map3_2 fftshift (map3_2 fftp (map3_0 fftshift (map3_0 fftg f)))) 0) (2 * N - 1) T (2 * L - 1) G /\
    forall n t m, (- N < n < N)%Z -> (0 <= t < T)%Z -> (- L < m < L)%Z ->
      Cmod (G (n + N - 1)%Z t (m + L - 1)%Z - dft3 L N f n t m)%C <= (21 / 10) * eps * ring_abs3 (2 * N - 1) (2 * L - 1) f t.
Proof.
  intros HN HL Hf Heps HG HP.
  assert (D0 : dim0 f = (2 * N - 1)%Z) by (unfold dim0; now rewrite Hf). assert (D1 : dim1 f = T) by (unfold dim1; now rewrite Hf).
  assert (D2 : dim2 f = (2 * L - 1)%Z) by (unfold dim2; now rewrite Hf).
  set (v1 := fun t p => mkVec (2 * N - 1) (fun g => at3 f g t p)).
  assert (M1 : is_arr3 (map3_0 fftg f) (2 * N - 1) T (2 * L - 1) (fun k t p => vat (fftg (v1 t p)) k)).
  { unfold map3_0. rewrite D0, D1, D2. rewrite (proj1 (HG (mkVec (2 * N - 1) (fun i => at3 f i 0 0)) eq_refl)). apply is_arr3_arr3. }
  assert (M2 := map3_0_ok fftshift _ _ _ _ (2 * N - 1)%Z _ M1 vext_fftshift ltac:(intros v Hv; exact Hv)). clear M1.
  set (a1 := map3_0 fftshift (map3_0 fftg f)) in *. clearbody a1. cbn [fftshift vat vlen] in M2.
  destruct (is_arr3_dims _ _ _ _ _ M2) as (Q0 & Q1 & Q2).
  set (v2 := fun k t => mkVec (2 * L - 1) (fun p => at3 a1 k t p)).
  assert (M3 : is_arr3 (map3_2 fftp a1) (2 * N - 1) T (2 * L - 1) (fun k t i => vat (fftp (v2 k t)) i)).
  { unfold map3_2. rewrite Q0, Q1, Q2. rewrite (proj1 (HP (mkVec (2 * L - 1) (fun i => at3 a1 0 0 i)) eq_refl)). apply is_arr3_arr3. }
  assert (M4 := map3_2_ok fftshift _ _ _ _ (2 * L - 1)%Z _ M3 vext_fftshift ltac:(intros v Hv; exact Hv)). clear M3.
  assert (M5 := last_from_ok _ _ _ _ _ 0 M4 ltac:(lia)). clear M4. rewrite Z.sub_0_r in M5. cbn [fftshift vat vlen] in M5.
  eexists. split; [exact M5|]. intros n t m Hn Ht Hm. cbv beta. rewrite Z.add_0_l.
  set (k := (n + N - 1)%Z). assert (Hk : (0 <= k < 2 * N - 1)%Z) by (unfold k; lia).
  (* first axis *)
  set (h := fun p => csum (zrange 0 (2 * N - 1)) (fun g => get f [g; t; p] * cis (- (IZR n * (2 * PI * IZR g / IZR (2 * N - 1)))))%C).
  set (q := fun p => rsum (zrange 0 (2 * N - 1)) (fun g => Cmod (get f [g; t; p]))).
  assert (E1 : forall p, (0 <= p < 2 * L - 1)%Z -> Cmod (vat (v2 k t) p - h p)%C <= eps * q p).
  { intros p Hp. unfold v2. cbn [vat]. rewrite (proj2 M2) by assumption.
    exact (ring_fft fftg N eps (v1 t p) (mat 1 (2 * N - 1) (fun _ g => get f [g; t; p])) 0 n HN HG eq_refl ltac:(intros g Hg; reflexivity) Hn). }
  (* second axis *)
  assert (E2 := ring_fft fftp L eps (v2 k t) (mat 1 (2 * L - 1) (fun _ p => vat (v2 k t) p)) 0 m HL HP eq_refl ltac:(intros p Hp; reflexivity) Hm).
  set (z := vat (fftp (v2 k t)) _) in *. unfold ring_dft, ring_abs in E2. cbn [mat get nth] in E2.
  set (S := ring_abs3 (2 * N - 1) (2 * L - 1) f t). assert (SE : rsum (zrange 0 (2 * L - 1)) q = S) by reflexivity.
  assert (q0 : forall p, 0 <= q p) by (intros p; apply rs_nonneg; intros; apply Cmod_ge_0).
  assert (S0 : 0 <= S) by (rewrite <- SE; apply rs_nonneg; intros; apply q0).
  assert (B1 : rsum (zrange 0 (2 * L - 1)) (fun p => Cmod (vat (v2 k t) p)) <= (1 + eps) * S).
  { rewrite <- SE, <- rs_scal_l. apply rr_le. intros p Hp. replace (vat (v2 k t) p) with ((vat (v2 k t) p - h p) + h p)%C by ring.
    eapply Rle_trans; [apply Cmod_triangle|]. assert (Cmod (h p) <= q p) by (unfold h, q; apply csum_le; intros g Hg; rewrite Cmod_mult, Cmod_cis; lra).
    pose proof (E1 p Hp). lra. }
  set (zc := csum (zrange 0 (2 * L - 1)) (fun p => vat (v2 k t) p * cis (- (IZR m * (2 * PI * IZR p / IZR (2 * L - 1)))))%C) in *.
  assert (E3 : Cmod (zc - dft3 L N f n t m)%C <= eps * S).
  { rewrite <- SE, <- rs_scal_l. unfold zc, dft3. rewrite <- cs_minus. apply csum_le. intros p Hp. apply in_zrange in Hp. fold (h p).
    replace (vat (v2 k t) p * cis (- (IZR m * (2 * PI * IZR p / IZR (2 * L - 1)))) - h p * cis (- (IZR m * (2 * PI * IZR p / IZR (2 * L - 1)))))%C
      with ((vat (v2 k t) p - h p) * cis (- (IZR m * (2 * PI * IZR p / IZR (2 * L - 1)))))%C by ring. rewrite Cmod_mult, Cmod_cis, Rmult_1_r. now apply E1. }
  replace (z - dft3 L N f n t m)%C with ((z - zc) + (zc - dft3 L N f n t m))%C by ring. eapply Rle_trans; [apply Cmod_triangle|].
  assert (eps * rsum (zrange 0 (2 * L - 1)) (fun p => Cmod (vat (v2 k t) p)) <= eps * ((1 + eps) * S)) by (apply Rmult_le_compat_l; lra).
  assert (0 <= eps * S) by (apply Rmult_le_pos; lra). assert (eps * (eps * S) <= / 20 * (eps * S)) by (apply Rmult_le_compat_r; lra).
  lra.
Qed.

(** ** The kernel with the quadrature weights *)
Definition w3_near (K : ndarray R) (N T L : Z) (y w V : Z -> R) (kap : R) : Prop :=
  shape K = [2 * N - 1; T; L; 2 * L - 1]%Z /\
  forall k t l i, (0 <= k < 2 * N - 1)%Z -> (0 <= t < T)%Z -> (0 <= l < L)%Z -> (0 <= i < 2 * L - 1)%Z ->
    if adm_b (k - (N - 1)) l (i - (L - 1)) then Rabs (at4 K k t l i - wigner_d l (i - (L - 1)) (k - (N - 1)) (y t) * w t * cN N) <= kap * (V t * cN N) else at4 K k t l i = 0.
Lemma wdl_move a N T L x y b d : wdl_near a N T L x b -> (1 <= L)%Z -> 0 <= d ->
  (forall t, (0 <= t < T)%Z -> Rabs (x t - y t) <= d) -> wdl_near a N T L y (b + IZR L * d).
Proof.
  intros [S H] HL Hd Hxy. split; [exact S|]. intros k t l i Hk Ht Hl Hi. specialize (H k t l i Hk Ht Hl Hi).
  destruct (adm_b _ _ _); [|exact H]. set (n := (k - (N - 1))%Z) in *. set (m := (i - (L - 1))%Z) in *.
  replace (at4 a k t l i - wigner_d l m n (y t)) with ((at4 a k t l i - wigner_d l m n (x t)) + (wigner_d l m n (x t) - wigner_d l m n (y t))) by ring.
  eapply Rle_trans; [apply Rabs_triang|]. apply Rplus_le_compat; [exact H|]. eapply Rle_trans; [apply wigner_lip; lia|].
  apply Rmult_le_compat; [apply IZR_le; lia|apply Rabs_pos|apply IZR_le; lia|now apply Hxy].
Qed.

Section Float.
  Variables (A : arith) (u eta : R).
  Hypothesis HA : rounded A u eta.
  Hypothesis HZ : zeros_exact A.
  Hypothesis Hu : u <= / 1000.
  Hypothesis He : 4 * eta <= u.
  Let u0 : 0 <= u := rd_u _ _ _ HA.
  Let e0 : 0 <= eta := rd_eta _ _ _ HA.

  Lemma xf_scale_err N : (1 <= N)%Z -> IZR N * eta <= u -> Rabs (xf_scale A N - cN N) <= 5 * u * cN N.
  Proof.
    intros HN HE. pose proof PI_4 as P4. pose proof PI2_3_2 as P3. assert (P3' : 3 < PI) by lra. clear P3.
    unfold xf_scale, cN. set (M := IZR (2 * N - 1)). assert (N1 : 1 <= IZR N) by (apply IZR_le; lia).
    assert (M1 : 1 <= M <= 2 * IZR N) by (unfold M; rewrite minus_IZR, mult_IZR; lra).
    pose proof (rd_pi _ _ _ HA) as Rp. pose proof (rd_mul _ _ _ HA 2 (fpi A)) as Rm. set (pf := fpi A) in *. set (p := fmul A 2 pf) in *.
    assert (U4 : u * PI <= / 1000 * PI) by (apply Rmult_le_compat_r; lra). assert (U0 : 0 <= u * PI) by (apply Rmult_le_pos; lra).
    assert (U3 : u * 3 <= u * PI) by (apply Rmult_le_compat_l; lra).
    assert (B1 : Rabs pf <= 101 / 100 * PI).
    { replace pf with ((pf - PI) + PI) by ring. eapply Rle_trans; [apply Rabs_triang|]. rewrite (Rabs_right PI) by lra. lra. }
    assert (B2 : Rabs (p - 2 * PI) <= 5 * (u * PI)).
    { replace (p - 2 * PI) with ((p - 2 * pf) + 2 * (pf - PI)) by ring. eapply Rle_trans; [apply Rabs_triang|]. rewrite !Rabs_mult in *.
      rewrite (Rabs_right 2) in * by lra. assert (u * (2 * Rabs pf) <= u * (2 * (101 / 100 * PI))) by (apply Rmult_le_compat_l; lra). lra. }
    pose proof (rd_div _ _ _ HA p M ltac:(lra)) as Rd. set (r := fdiv A p M) in *.
    assert (IM : 0 < / M) by (apply Rinv_0_lt_compat; lra).
    assert (B3 : Rabs (p / M) <= 202 / 100 * PI * / M).
    { unfold Rdiv. rewrite Rabs_mult, (Rabs_right (/ M)) by lra. apply Rmult_le_compat_r; [lra|]. replace p with ((p - 2 * PI) + 2 * PI) by ring.
      eapply Rle_trans; [apply Rabs_triang|]. rewrite (Rabs_right (2 * PI)) by lra. lra. }
    assert (B4 : eta <= u * PI * / M).
    { apply (Rmult_le_reg_r M); [lra|]. rewrite Rmult_assoc, Rinv_l by lra. assert (eta * M <= eta * (2 * IZR N)) by (apply Rmult_le_compat_l; lra). lra. }
    replace (r - 2 * PI / M) with ((r - p / M) + (p - 2 * PI) * / M) by (unfold Rdiv; ring). eapply Rle_trans; [apply Rabs_triang|].
    rewrite (Rabs_mult (p - 2 * PI)), (Rabs_right (/ M)) by lra.
    assert (X1 : Rabs (p - 2 * PI) * / M <= 5 * (u * PI) * / M) by (apply Rmult_le_compat_r; lra).
    assert (X2 : u * Rabs (p / M) <= u * (202 / 100 * PI * / M)) by (now apply Rmult_le_compat_l).
    assert (X3 : 0 <= u * PI * / M) by (apply Rmult_le_pos; lra). unfold Rdiv. lra.
  Qed.

  Lemma xf_weigh_near a N T L y b (wf : vec R) (w V : Z -> R) dw : wdl_near a N T L y b -> (1 <= N)%Z -> IZR N * eta <= u -> vlen wf = T -> 0 <= b <= 1 -> 0 <= dw <= 1 ->
    (forall t, (0 <= t < T)%Z -> Rabs (w t) <= V t /\ Rabs (vat wf t - w t) <= dw * V t /\ eta <= u * V t /\ eta <= u * (V t * cN N)) ->
    exists KW, xf_weigh A a wf N = Ok KW /\ w3_near KW N T L y w V (b + 2 * dw + 31 * u).
  Proof.
    intros [KS H] HN HE Hw Hb Hd HW. unfold xf_weigh. assert (D0 : dim0 a = (2 * N - 1)%Z) by (unfold dim0; now rewrite KS). assert (D1 : dim1 a = T) by (unfold dim1; now rewrite KS).
    assert (D2 : dim2 a = L) by (unfold dim2; now rewrite KS). assert (D3 : dim3 a = (2 * L - 1)%Z) by (unfold dim3; now rewrite KS).
    rewrite D0, D1, D2, D3, Hw, Z.eqb_refl. eexists. split; [reflexivity|].
    split; [reflexivity|]. intros k t l i Hk Ht Hl Hi.
    match goal with |- context [at4 (arr4 ?p ?q ?r ?s ?F) k t l i] => change (at4 (arr4 p q r s F) k t l i) with (F k t l i) end. cbv beta.
    specialize (H k t l i Hk Ht Hl Hi). destruct (HW t Ht) as (W1 & W2 & W3 & W4). set (m := (i - (L - 1))%Z) in *. set (n := (k - (N - 1))%Z) in *.
    set (e := at4 a k t l i) in *. set (g := vat wf t) in *. set (v := V t) in *. set (D := wigner_d l m n (y t)) in *.
    destruct (adm_b n l m).
    2:{ rewrite H, (proj1 (proj1 HZ g)). apply (proj1 HZ). }
    pose proof (wigner_le1 l m n (y t)) as DB. fold D in DB. pose proof (Rabs_pos (w t)) as V0. assert (v0 : 0 <= v) by lra.
    pose proof (xf_scale_err N HN HE) as SE. pose proof (cN_pos N HN) as C0. set (c := cN N) in *. set (s := xf_scale A N) in *.
    pose proof (rd_mul _ _ _ HA e g) as M1. set (p := fmul A e g) in *. pose proof (rd_mul _ _ _ HA p s) as M2.
    assert (EB : Rabs e <= 2). { replace e with ((e - D) + D) by ring. eapply Rle_trans; [apply Rabs_triang|]. lra. }
    assert (GB : Rabs g <= 2 * v). { replace g with ((g - w t) + w t) by ring. eapply Rle_trans; [apply Rabs_triang|]. nra. }
    assert (X1 : Rabs (e * g) <= 4 * v).
    { rewrite Rabs_mult. replace (4 * v) with (2 * (2 * v)) by ring. apply Rmult_le_compat; try apply Rabs_pos; assumption. }
    assert (X4 : u * Rabs (e * g) <= u * (4 * v)) by (now apply Rmult_le_compat_l).
    assert (X2 : Rabs (e * (g - w t)) <= 2 * (dw * v)) by (rewrite Rabs_mult; apply Rmult_le_compat; try apply Rabs_pos; assumption).
    assert (X3 : Rabs ((e - D) * w t) <= b * v) by (rewrite Rabs_mult; apply Rmult_le_compat; try apply Rabs_pos; assumption).
    assert (P1 : Rabs (p - D * w t) <= (5 * u + 2 * dw + b) * v).
    { replace (p - D * w t) with ((p - e * g) + e * (g - w t) + (e - D) * w t) by ring.
      eapply Rle_trans; [apply Rabs_triang|]. eapply Rle_trans; [apply Rplus_le_compat_r, Rabs_triang|]. lra. }
    assert (UV : u * v <= / 1000 * v) by (apply Rmult_le_compat_r; lra).
    assert (P2 : Rabs p <= 41 / 10 * v).
    { replace p with ((p - e * g) + e * g) by ring. eapply Rle_trans; [apply Rabs_triang|]. lra. }
    assert (UC : 0 <= u * c) by (apply Rmult_le_pos; lra). assert (UC2 : u * c <= / 1000 * c) by (apply Rmult_le_compat_r; lra).
    assert (SB : Rabs s <= 101 / 100 * c).
    { replace s with ((s - c) + c) by ring. eapply Rle_trans; [apply Rabs_triang|]. rewrite (Rabs_right c) by lra. lra. }
    assert (VC0 : 0 <= v * c) by (apply Rmult_le_pos; lra).
    assert (Y1 : Rabs (p * s) <= 42 / 10 * (v * c)).
    { rewrite Rabs_mult. apply Rle_trans with ((41 / 10 * v) * (101 / 100 * c)); [|lra]. apply Rmult_le_compat; try apply Rabs_pos; assumption. }
    assert (Y2 : u * Rabs (p * s) <= u * (42 / 10 * (v * c))) by (now apply Rmult_le_compat_l).
    assert (Y3 : Rabs (p * (s - c)) <= (41 / 10 * v) * (5 * u * c)) by (rewrite Rabs_mult; apply Rmult_le_compat; try apply Rabs_pos; assumption).
    assert (Y4 : Rabs ((p - D * w t) * c) <= (5 * u + 2 * dw + b) * v * c) by (rewrite Rabs_mult, (Rabs_right c) by lra; apply Rmult_le_compat_r; lra).
    assert (UVC : 0 <= u * (v * c)) by (now apply Rmult_le_pos).
    replace (fmul A p s - D * w t * c) with ((fmul A p s - p * s) + p * (s - c) + (p - D * w t) * c) by ring.
    eapply Rle_trans; [apply Rabs_triang|]. eapply Rle_trans; [apply Rplus_le_compat_r, Rabs_triang|]. lra.
  Qed.

  Lemma xf_forward_near s fftg fftp o f KW L N y w V kap eps : s = DH \/ s = GL -> (1 <= N <= L)%Z -> shape f = [2 * N - 1; rings s L 0; 2 * L - 1]%Z ->
    sums_all o (rings s L 0) -> 0 <= kap <= 2 -> 6 * u * IZR (rings s L 0) <= 1 -> 0 <= eps <= / 20 ->
    fft_accurate fftg (2 * N - 1) eps -> fft_accurate fftp (2 * L - 1) eps ->
    (forall t, (0 <= t < rings s L 0)%Z -> Rabs (w t) <= V t) -> w3_near KW N (rings s L 0) L y w V kap ->
    exists flmn, xf_forward A fftg fftp o f KW L N (scheme_name s) = Ok flmn /\ shape flmn = [2 * N - 1; L; 2 * L - 1]%Z /\
      forall n l m, (- N < n < N)%Z -> (0 <= l < L)%Z -> (- L < m < L)%Z ->
        Cmod (stored3 L N flmn n l m - wigner_sum s L N 0 w y (fun g t p => get f [g; t; p]) n l m)%C <=
          ((23 / 10) * (kap + 15 * u * IZR (rings s L 0)) + (21 / 10) * eps) * weighted_size3 (2 * N - 1) (rings s L 0) (2 * L - 1) V f + 12 * IZR (rings s L 0) * eta /\
        ((l < Z.abs m \/ l < Z.abs n)%Z -> stored3 L N flmn n l m = RtoC 0).
  Proof.
    intros Hsch HN Hf Ho Hk HuT Heps HG HP HV [KS HK]. set (T := rings s L 0) in *. assert (T1 : (1 <= T)%Z) by (unfold T; destruct Hsch as [->| ->]; cbn [rings]; lia).
    unfold xf_forward. replace (str_in (lower (scheme_name s)) ["dh"; "gl"]%string) with true by (destruct Hsch as [->| ->]; reflexivity). cbn [bind].
    replace (wm_offset (scheme_name s)) with 0%Z by (destruct Hsch as [->| ->]; reflexivity).
    destruct (spectrum3 fftg fftp N L T f eps ltac:(lia) ltac:(lia) Hf Heps HG HP) as (G & MG & GE).
    set (fb := last_from _ 0) in *. clearbody fb. destruct (is_arr3_dims _ _ _ _ _ MG) as (Q0 & Q1 & Q2).
    unfold xf_einsum. rewrite Q0, Q1, Q2.
    assert (D0 : dim0 KW = (2 * N - 1)%Z) by (unfold dim0; now rewrite KS). assert (D1 : dim1 KW = T) by (unfold dim1; now rewrite KS).
    assert (D2 : dim2 KW = L) by (unfold dim2; now rewrite KS). assert (D3 : dim3 KW = (2 * L - 1)%Z) by (unfold dim3; now rewrite KS).
    rewrite D0, D1, D2, D3, !Z.eqb_refl. cbn [andb bind].
    set (h := fun k l i => cf_sum A o (fun t => cf_mul A (RtoC (at4 KW k t l i)) (at3 fb k t i))).
    assert (ME : is_arr3 (arr3 (2 * N - 1) L (2 * L - 1) h) (2 * N - 1 - 0) L (2 * L - 1 - 0) h) by (rewrite !Z.sub_0_r; apply is_arr3_arr3).
    change (flmn_shape L N) with [2 * N - 1; L; 2 * L - 1]%Z.
    destruct (tail_set_ok (zeros (RtoC 0) [2 * N - 1; L; 2 * L - 1]%Z) _ _ _ _ _ _ 0%Z 0%Z (zeros3 _ _ _ _) ME ltac:(lia) ltac:(lia)) as (flmn & -> & Hfl).
    exists flmn. split; [reflexivity|]. split; [exact (proj1 Hfl)|]. intros n l m Hn Hl Hm.
    set (k := (n + N - 1)%Z). set (i := (m + L - 1)%Z). assert (Hk' : (0 <= k < 2 * N - 1)%Z) by (unfold k; lia). assert (Hi : (0 <= i < 2 * L - 1)%Z) by (unfold i; lia).
    assert (G1 := proj2 Hfl k l i Hk' Hl Hi). cbv beta in G1. replace ((0 <=? k) && (0 <=? i))%Z with true in G1 by lia. rewrite !Z.sub_0_r in G1. unfold at3 in G1 at 1.
    unfold stored3. fold k i. rewrite G1. clear G1.
    assert (NK : (k - (N - 1) = n)%Z) by (unfold k; lia). assert (IM : (i - (L - 1) = m)%Z) by (unfold i; lia).
    assert (HK1 : forall t, (0 <= t < T)%Z ->
      if adm_b n l m then Rabs (at4 KW k t l i - wigner_d l m n (y t) * w t * cN N) <= kap * (V t * cN N) else at4 KW k t l i = 0).
    { intros t Ht. specialize (HK k t l i Hk' Ht Hl Hi). now rewrite NK, IM in HK. }
    split.
    2:{ intros O. unfold h. apply cf_sum_zero; [exact HZ|]. intros t Ht. apply (Permutation_in _ Ho), in_zrange in Ht. specialize (HK1 t Ht).
        replace (adm_b n l m) with false in HK1 by (unfold adm_b; lia). rewrite HK1. now apply cf_mul_zero_l. }
    rewrite wigner_sum_rings by exact Hsch. fold T. pose proof (cN_pos N ltac:(lia)) as C0.
    set (e := fun t => wigner_d l m n (y t) * w t * cN N). set (W := fun t => V t * cN N).
    assert (V0 : forall t, (0 <= t < T)%Z -> 0 <= V t) by (intros t Ht; specialize (HV t Ht); pose proof (Rabs_pos (w t)); lra).
    assert (W0 : forall t, (0 <= t < T)%Z -> 0 <= W t) by (intros t Ht; apply Rmult_le_pos; [now apply V0|lra]).
    assert (KW2 : forall t, (0 <= t < T)%Z -> Rabs (e t) <= W t /\ Rabs (at4 KW k t l i - e t) <= kap * W t).
    { intros t Ht. split.
      - unfold e, W. rewrite Rabs_mult, (Rabs_right (cN N)) by lra. apply Rmult_le_compat_r; [lra|]. rewrite Rabs_mult.
        pose proof (wigner_le1 l m n (y t)). rewrite <- (Rmult_1_l (V t)). apply Rmult_le_compat; try apply Rabs_pos; [assumption|now apply HV].
      - specialize (HK1 t Ht). destruct (adm_b n l m) eqn:AD; [exact HK1|]. rewrite HK1. unfold e. rewrite wigner_d_out by (unfold adm_b in AD; lia).
        rewrite !Rmult_0_l, Rminus_0_r, Rabs_R0. apply Rmult_le_pos; [lra|now apply W0]. }
    assert (E1 := dot3_err A u eta HA HZ Hu T o (fun t => at4 KW k t l i) e W kap (fun t => at3 fb k t i) T1 Ho Hk HuT KW2). cbv beta in E1.
    assert (GE' : forall t, (0 <= t < T)%Z -> Cmod (at3 fb k t i - dft3 L N f n t m)%C <= (21 / 10) * eps * ring_abs3 (2 * N - 1) (2 * L - 1) f t).
    { intros t Ht. rewrite (proj2 MG) by assumption. now apply GE. }
    set (S := fun t => ring_abs3 (2 * N - 1) (2 * L - 1) f t) in *.
    assert (S0 : forall t, 0 <= S t) by (intros t; apply rs_nonneg; intros; apply rs_nonneg; intros; apply Cmod_ge_0).
    set (WS := weighted_size3 (2 * N - 1) T (2 * L - 1) V f).
    assert (WE : rsum (zrange 0 T) (fun t => W t * S t) = WS).
    { unfold WS, weighted_size3, W, S. fold (cN N). rewrite <- rs_scal_l. apply rr_ext. intros t Ht. ring. }
    assert (WS0 : 0 <= WS) by (rewrite <- WE; apply rs_nonneg; intros t Ht; apply in_zrange in Ht; apply Rmult_le_pos; [now apply W0|apply S0]).
    assert (E2 : rsum (zrange 0 T) (fun t => W t * Cmod (at3 fb k t i)) <= (115 / 100) * WS).
    { rewrite <- WE, <- rs_scal_l. apply rr_le. intros t Ht.
      assert (B : Cmod (at3 fb k t i) <= (115 / 100) * S t).
      { replace (at3 fb k t i) with ((at3 fb k t i - dft3 L N f n t m) + dft3 L N f n t m)%C by ring. eapply Rle_trans; [apply Cmod_triangle|].
        pose proof (GE' t Ht) as Q. pose proof (dft3_size L N f n t m). fold (S t) in *. pose proof (S0 t).
        assert (21 / 10 * eps * S t <= 15 / 100 * S t) by (apply Rmult_le_compat_r; lra). lra. }
      replace (115 / 100 * (W t * S t)) with (W t * (115 / 100 * S t)) by ring. apply Rmult_le_compat_l; [now apply W0|exact B]. }
    set (z := h k l i). set (s1 := csum (zrange 0 T) (fun t => RtoC (e t) * at3 fb k t i)%C) in *.
    set (s2 := csum (zrange 0 T) (fun t => RtoC (e t) * dft3 L N f n t m)%C).
    assert (E3 : Cmod (s1 - s2)%C <= (21 / 10) * eps * WS).
    { unfold s1, s2. rewrite <- cs_minus, <- WE, <- rs_scal_l. apply csum_le. intros t Ht. apply in_zrange in Ht.
      replace (RtoC (e t) * at3 fb k t i - RtoC (e t) * dft3 L N f n t m)%C with (RtoC (e t) * (at3 fb k t i - dft3 L N f n t m))%C by ring. rewrite Cmod_mult, Cmod_R.
      replace (21 / 10 * eps * (W t * S t)) with (W t * (21 / 10 * eps * S t)) by ring.
      apply Rmult_le_compat; [apply Rabs_pos|apply Cmod_ge_0|now apply KW2|now apply GE']. }
    change (Cmod (z - s1)%C <= 2 * ((kap + 15 * u * IZR T) * rsum (zrange 0 T) (fun t => W t * Cmod (at3 fb k t i)) + 6 * IZR T * eta)) in E1.
    match goal with |- Cmod ?a <= _ => change a with (z - s2)%C end.
    replace (z - s2)%C with ((z - s1) + (s1 - s2))%C by ring. eapply Rle_trans; [apply Cmod_triangle|].
    assert (K0 : 0 <= kap + 15 * u * IZR T) by (assert (0 <= u * IZR T) by (apply Rmult_le_pos; [exact u0|apply IZR_le; lia]); lra).
    apply (Rmult_le_compat_l _ _ _ K0) in E2. lra.
  Qed.
End Float.
