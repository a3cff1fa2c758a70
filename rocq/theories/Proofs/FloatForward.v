(** The precomputed forward transform in rounded arithmetic. *)
From Coq Require Import Reals Lra Lia ZifyBool Permutation.
From Coquelicot Require Import Complex.
From Verif Require Import Lib.Py Lib.PyFacts Lib.Vec Lib.VecFacts Lib.Sums Lib.Cplx Lib.Arr Lib.ArrFacts Lib.MatFacts Model.Index Model.Samples
  Model.RisboFloat Model.Spherical Model.Precompute Model.PrecomputeFloat Model.ForwardFloat
  Spec.SamplesSpec Spec.WignerSpec Spec.SphereSpec Spec.GridSpec Spec.SphericalSpec Spec.RoundingSpec Spec.PrecomputeFloatSpec Spec.ForwardFloatSpec
  Proofs.RisboProofs Proofs.PrecomputeKernel Proofs.PrecomputeSph Proofs.SpectralBound Proofs.FloatSums Proofs.FloatKernel Proofs.FloatInverse Proofs.FloatFourier Proofs.CBackendBound.
Open Scope R_scope.

Lemma at3_arr3 {T} a b c (F : Z -> Z -> Z -> T) t l i : at3 (arr3 a b c F) t l i = F t l i.
Proof. reflexivity. Qed.

(** the kernel at colatitudes close to those it was computed for *)
Lemma kernel_move K T L spin x y kap d : kernel_near K T L spin x kap -> (1 <= L)%Z -> 0 <= d ->
  (forall t, (0 <= t < T)%Z -> Rabs (x t - y t) <= d) -> kernel_near K T L spin y (kap + IZR L * d).
Proof.
  intros [KS H] HL Hd Hxy. split; [exact KS|]. intros t l i Ht Hl Hi. specialize (H t l i Ht Hl Hi). set (m := (i - (L - 1))%Z) in *.
  set (k := at3 K t l i) in *. replace (k - elfactor l * wigner_d l m (- spin) (y t))
    with ((k - elfactor l * wigner_d l m (- spin) (x t)) + elfactor l * (wigner_d l m (- spin) (x t) - wigner_d l m (- spin) (y t))) by ring.
  eapply Rle_trans; [apply Rabs_triang|]. rewrite Rmult_plus_distr_r. apply Rplus_le_compat; [exact H|]. rewrite Rabs_mult.
  assert (E0 : 0 <= elfactor l) by apply sqrt_pos. rewrite (Rabs_right (elfactor l)) by lra.
  assert (WL := wigner_lip l m (- spin) (x t) (y t) ltac:(lia)). specialize (Hxy t Ht). set (D := wigner_d l m (- spin) (x t) - wigner_d l m (- spin) (y t)) in *.
  assert (B : Rabs D <= IZR L * d).
  { eapply Rle_trans; [exact WL|]. apply Rmult_le_compat; try lra; [apply IZR_le; lia|apply Rabs_pos|apply IZR_le; lia]. }
  destruct (Z_le_dec (Z.abs spin) l); [destruct (Z_le_dec (Z.abs m) l)|].
  - rewrite wsize_in by lia. rewrite Rmult_comm. now apply Rmult_le_compat_r.
  - unfold D. rewrite !wigner_d_out by lia. unfold Rminus. rewrite Ropp_0, Rplus_0_r, Rabs_R0, Rmult_0_r. apply Rmult_le_pos; [|apply wsize_nonneg]. apply Rmult_le_pos; [apply IZR_le; lia|lra].
  - unfold D. rewrite !wigner_d_out by lia. unfold Rminus. rewrite Ropp_0, Rplus_0_r, Rabs_R0, Rmult_0_r. apply Rmult_le_pos; [|apply wsize_nonneg]. apply Rmult_le_pos; [apply IZR_le; lia|lra].
Qed.

(** the kernel with the quadrature weights *)
Definition weighted_near (K : ndarray R) (T L spin : Z) (y w V : Z -> R) (kap : R) : Prop :=
  shape K = [T; L; 2 * L - 1]%Z /\ forall t l i, (0 <= t < T)%Z -> (0 <= l < L)%Z -> (0 <= i < 2 * L - 1)%Z ->
    Rabs (at3 K t l i - elfactor l * wigner_d l (i - (L - 1)) (- spin) (y t) * w t) <= kap * (wsize spin l (i - (L - 1)) * V t).

Section Float.
  Variables (A : arith) (u eta : R).
  Hypothesis HA : rounded A u eta.
  Hypothesis HZ : zeros_exact A.
  Hypothesis Hu : u <= / 1000.
  Let u0 : 0 <= u := rd_u _ _ _ HA.
  Let e0 : 0 <= eta := rd_eta _ _ _ HA.

  Lemma weigh_near K T L spin y kap (wf : vec R) (w V : Z -> R) dw : kernel_near K T L spin y kap -> vlen wf = T -> (0 <= kap <= 1) -> 0 <= dw <= 1 ->
    (forall t, (0 <= t < T)%Z -> Rabs (w t) <= V t /\ Rabs (vat wf t - w t) <= dw * V t /\ eta <= u * V t) ->
    exists KW, ff_weigh A K wf = Ok KW /\ weighted_near KW T L spin y w V (kap + 2 * dw + 8 * u).
  Proof.
    intros [KS H] Hw Hk Hd HW. unfold ff_weigh. assert (D0 : dim0 K = T) by (unfold dim0; now rewrite KS). assert (D1 : dim1 K = L) by (unfold dim1; now rewrite KS).
    assert (D2 : dim2 K = (2 * L - 1)%Z) by (unfold dim2; now rewrite KS). rewrite D0, D1, D2, Hw, Z.eqb_refl. eexists. split; [reflexivity|].
    split; [reflexivity|]. intros t l i Ht Hl Hi. rewrite at3_arr3. specialize (H t l i Ht Hl Hi). destruct (HW t Ht) as (W1 & W2 & W3). set (m := (i - (L - 1))%Z) in *.
    set (k := at3 K t l i) in *. set (g := vat wf t) in *. set (v := V t) in *. pose proof (Rabs_pos (w t)) as V0.
    destruct (Z_le_dec (Z.abs spin) l) as [Q1|Q1]; [destruct (Z_le_dec (Z.abs m) l) as [Q2|Q2]|].
    2,3: rewrite wsize_out in * by lia; rewrite wigner_d_out in * by lia; rewrite !Rmult_0_r, Rminus_0_r in H;
      assert (k = 0) as -> by (pose proof (Rabs_pos k); destruct (Req_dec k 0) as [|N]; [assumption|]; apply Rabs_no_R0 in N; lra);
      rewrite (proj1 (proj1 HZ g)), !Rmult_0_r, !Rmult_0_l, Rminus_0_r, Rabs_R0; lra.
    pose proof (kernel_size l m spin (y t)) as KZ. rewrite wsize_in in * by lia. pose proof (elfactor_lower l ltac:(lia)) as EL. set (E := elfactor l) in *.
    set (e := E * wigner_d l m (- spin) (y t)) in *.
    pose proof (rd_mul _ _ _ HA k g) as M.
    assert (KB : Rabs k <= 2 * E). { replace k with ((k - e) + e) by ring. eapply Rle_trans; [apply Rabs_triang|]. nra. }
    assert (GB : Rabs g <= 2 * v). { replace g with ((g - w t) + w t) by ring. eapply Rle_trans; [apply Rabs_triang|]. nra. }
    assert (EV : v <= 4 * (E * v)) by nra. assert (EV0 : 0 <= E * v) by (apply Rmult_le_pos; lra).
    assert (X1 : Rabs (k * g) <= 4 * (E * v)).
    { rewrite Rabs_mult. replace (4 * (E * v)) with ((2 * E) * (2 * v)) by ring. apply Rmult_le_compat; try apply Rabs_pos; assumption. }
    assert (X2 : Rabs (k * (g - w t)) <= 2 * E * (dw * v)) by (rewrite Rabs_mult; apply Rmult_le_compat; try apply Rabs_pos; assumption).
    assert (X3 : Rabs ((k - e) * w t) <= kap * E * v) by (rewrite Rabs_mult; apply Rmult_le_compat; try apply Rabs_pos; assumption).
    assert (X4 : u * Rabs (k * g) <= u * (4 * (E * v))) by (now apply Rmult_le_compat_l).
    assert (X5 : u * v <= u * (4 * (E * v))) by (now apply Rmult_le_compat_l).
    replace (fmul A k g - e * w t) with ((fmul A k g - k * g) + k * (g - w t) + (k - e) * w t) by ring.
    eapply Rle_trans; [apply Rabs_triang|]. eapply Rle_trans; [apply Rplus_le_compat_r, Rabs_triang|]. lra.
  Qed.

  Lemma cf_mul_zero_l (z : C) : cf_mul A (RtoC 0) z = RtoC 0.
  Proof. unfold cf_mul, RtoC. cbn [fst snd]. rewrite !(proj1 (proj1 HZ _)). rewrite Ropp_0, (proj2 HZ). reflexivity. Qed.
  Lemma cf_sum_zero o (x : Z -> C) : (forall i, In i (terms o) -> x i = RtoC 0) -> cf_sum A o x = RtoC 0.
  Proof.
    induction o as [i|a IHa b IHb]; cbn [terms cf_sum]; intros H; [apply H; now left|]. rewrite IHa, IHb by (intros; apply H, in_or_app; auto).
    unfold cf_add, RtoC. cbn [fst snd]. now rewrite (proj2 HZ).
  Qed.

  (** the frequencies of the shifted ring transform *)
  Definition ring_dft (L : Z) (f : ndarray C) (t m : Z) : C :=
    csum (zrange 0 (2 * L - 1)) (fun p => get f [t; p] * cis (- (IZR m * (2 * PI * IZR p / IZR (2 * L - 1)))))%C.
  Definition ring_abs (L : Z) (f : ndarray C) (t : Z) : R := rsum (zrange 0 (2 * L - 1)) (fun p => Cmod (get f [t; p])).
  Lemma ring_dft_size L f t m : Cmod (ring_dft L f t m) <= ring_abs L f t.
  Proof. unfold ring_dft, ring_abs. apply csum_le. intros p Hp. rewrite Cmod_mult, Cmod_cis. lra. Qed.
  Lemma ring_fft fft L eps (v : vec C) f t m : (1 <= L)%Z -> fft_accurate fft (2 * L - 1) eps -> vlen v = (2 * L - 1)%Z ->
    (forall p, (0 <= p < 2 * L - 1)%Z -> vat v p = get f [t; p]) -> (- L < m < L)%Z ->
    Cmod (vat (fft v) ((m + L - 1 - (2 * L - 1) / 2) mod (2 * L - 1)) - ring_dft L f t m)%C <= eps * ring_abs L f t.
  Proof.
    intros HL HF Hv Hvf Hm. set (n := (2 * L - 1)%Z) in *. destruct (HF v Hv) as [_ H].
    replace (m + L - 1 - n / 2)%Z with m by (unfold n; pose proof (Z.div_mod (2 * L - 1) 2 ltac:(lia)); pose proof (Z.mod_pos_bound (2 * L - 1) 2 ltac:(lia)); lia).
    specialize (H (m mod n)%Z ltac:(apply Z.mod_pos_bound; unfold n; lia)). eapply Rle_trans; [|eapply Rle_trans; [exact H|]].
    - right. do 2 f_equal. unfold ring_dft. fold n. apply cr_ext. intros p Hp. rewrite Hvf by exact Hp. f_equal.
      assert (N0 : n <> 0%Z) by (unfold n; lia).
      assert (E := root_congr n (- (m * p)) (- ((m mod n) * p)) N0).
      assert (G : forall k, cis (- (IZR k * (2 * PI * IZR p / IZR n))) = root n (- (k * p))).
      { intros k. unfold root. f_equal. rewrite opp_IZR, mult_IZR. field. apply (IZR_neq n 0). exact N0. }
      rewrite G. rewrite E.
      + rewrite <- G. f_equal. field. apply (IZR_neq n 0). exact N0.
      + rewrite <- !Z.mul_opp_r. rewrite Zmult_mod_idemp_l. reflexivity.
    - right. f_equal. unfold ring_abs. apply rr_ext. intros p Hp. now rewrite Hvf.
  Qed.

  (** the quadrature, ring by ring *)
  Lemma quadrature_rings T L w y spin l m f :
    quadrature_of T (2 * L - 1) w y spin l m f =
    (RtoC (sgn spin) * csum (zrange 0 T) (fun t => RtoC (elfactor l * wigner_d l m (- spin) (y t) * w t) * ring_dft L f t m))%C.
  Proof.
    unfold quadrature_of. rewrite <- cs_scal_l. apply cr_ext. intros t Ht. unfold ring_dft. rewrite <- !cs_scal_l. apply cr_ext. intros p Hp.
    unfold sYlm. rewrite Cconj_mult, Cconj_R, cis_conj. fold (elfactor l). rewrite !RtoC_mult. ring.
  Qed.

  Lemma forward_near s fft o f KW L spin y w V kap eps : s = DH \/ s = GL -> (1 <= L)%Z -> shape f = [rings s L 0; 2 * L - 1]%Z ->
    sums_all o (rings s L 0) -> 0 <= kap <= 2 -> 6 * u * IZR (rings s L 0) <= 1 -> 0 <= eps <= 1 -> fft_accurate fft (2 * L - 1) eps ->
    (forall t, (0 <= t < rings s L 0)%Z -> Rabs (w t) <= V t) -> weighted_near KW (rings s L 0) L spin y w V kap ->
    exists flm, ff_forward A fft o f KW L (scheme_name s) spin = Ok flm /\ shape flm = [L; 2 * L - 1]%Z /\
      forall l m, (0 <= l < L)%Z -> (- L < m < L)%Z ->
        Cmod (get flm [l; m + L - 1]%Z - quadrature_of (rings s L 0) (2 * L - 1) w y spin l m f)%C <=
          (4 * (kap + 27 * u * IZR (rings s L 0)) + eps) * (wsize spin l m * weighted_size (rings s L 0) (2 * L - 1) V f) + 24 * IZR (rings s L 0) * eta /\
        ((l < Z.abs m \/ l < Z.abs spin)%Z -> get flm [l; m + L - 1]%Z = RtoC 0).
  Proof.
    intros Hsch HL Hf Ho Hk HuT Heps HF HV [KS HK]. set (T := rings s L 0) in *. assert (T1 : (1 <= T)%Z) by (unfold T; destruct Hsch as [->| ->]; cbn [rings]; lia).
    unfold ff_forward. replace (str_in (lower (scheme_name s)) ["dh"; "gl"]%string) with true by (destruct Hsch as [->| ->]; reflexivity). cbn [bind].
    replace (m_offset (scheme_name s)) with 0%Z by (destruct Hsch as [->| ->]; reflexivity).
    set (n := (2 * L - 1)%Z) in *.
    assert (MF := is_mat_self f T n Hf). assert (RV : forall t, vlen (row f t) = n) by (intros t; exact (is_mat_dim1 _ _ _ _ MF)).
    assert (M1 : is_mat (map_rows fft f) T n (fun t c => vat (fft (row f t)) c)).
    { unfold map_rows. rewrite (is_mat_dim0 _ _ _ _ MF). rewrite (proj1 (HF (row f 0) (RV 0%Z))). apply is_mat_mat. }
    set (f1 := map_rows fft f) in *. clearbody f1.
    assert (M2 : is_mat (map_rows fftshift f1) T n (fun t c => vat (fft (row f t)) ((c - n / 2) mod n))).
    { unfold map_rows. rewrite (is_mat_dim0 _ _ _ _ M1). replace (vlen (fftshift (row f1 0))) with n by (cbn [fftshift vlen row]; now rewrite (is_mat_dim1 _ _ _ _ M1)).
      apply (is_mat_ext _ _ _ _ _ (is_mat_mat _ _ _)). intros t c Ht Hc. cbn [fftshift vat vlen row]. rewrite (is_mat_dim1 _ _ _ _ M1).
      rewrite (proj2 M1); [reflexivity|exact Ht|]. apply Z.mod_pos_bound. unfold n. lia. }
    set (f2 := map_rows fftshift f1) in *. clearbody f2. rewrite (is_mat_dim0 _ _ _ _ M2), (is_mat_dim1 _ _ _ _ M2).
    assert (M3 := MatFacts.slice2_ok _ _ _ _ 0 T 0 n M2 ltac:(lia) ltac:(lia) ltac:(lia) ltac:(lia) ltac:(unfold n; lia) ltac:(lia)).
    set (f3 := slice2 f2 0 T 0 n) in *. clearbody f3.
    unfold ff_einsum. rewrite (is_mat_dim0 _ _ _ _ M3), (is_mat_dim1 _ _ _ _ M3).
    assert (D0 : dim0 KW = T) by (unfold dim0; now rewrite KS). assert (D1 : dim1 KW = L) by (unfold dim1; now rewrite KS).
    assert (D2 : dim2 KW = n) by (unfold dim2; now rewrite KS). rewrite D0, D1, D2. replace ((T =? T - 0) && (n =? n - 0))%Z with true by lia. cbn [bind].
    set (h := fun l i => cf_sum A o (fun t => cf_mul A (RtoC (at3 KW t l i)) (at2 f3 t i))).
    assert (MZ : is_mat (zeros (RtoC 0) (flm_shape L)) L n (fun _ _ => RtoC 0)) by (split; reflexivity).
    rewrite (is_mat_dim0 _ _ _ _ MZ), (is_mat_dim1 _ _ _ _ MZ).
    assert (ME : is_mat (mat L n h) (L - 0) (n - 0) h) by (rewrite !Z.sub_0_r; apply is_mat_mat).
    destruct (PrecomputeSph.slice2_set_ok _ _ _ _ _ _ 0 L 0 n MZ ME ltac:(lia) ltac:(lia) ltac:(lia) ltac:(lia) ltac:(unfold n; lia) ltac:(lia)) as (flm & -> & Hflm). cbn [bind].
    assert (M4 : is_mat (mscal (fun z => cf_mul A z (RtoC (m1 spin))) flm) L n (fun l i => cf_mul A (h l i) (RtoC (sgn spin)))).
    { apply (is_mat_ext _ _ _ _ _ (mscal_ok (fun z => cf_mul A z (RtoC (m1 spin))) _ _ _ _ Hflm)). intros l i Hl Hi. cbv beta.
      change (m1 spin) with (sgn spin). replace ((0 <=? l) && (l <? L) && (0 <=? i) && (i <? n))%Z with true by lia. rewrite !Z.sub_0_r. reflexivity. }
    eexists. split; [reflexivity|]. split; [exact (proj1 M4)|]. intros l m Hl Hm.
    set (i := (m + L - 1)%Z). assert (Hi : (0 <= i < n)%Z) by (unfold i, n; lia).
    assert (G1 := proj2 M4 l i Hl Hi). unfold at2 in G1. cbv beta in G1.
    assert (IM : (i - (L - 1) = m)%Z) by (unfold i; lia).
    assert (HK1 : forall t, (0 <= t < T)%Z -> Rabs (at3 KW t l i - elfactor l * wigner_d l m (- spin) (y t) * w t) <= kap * (wsize spin l m * V t)).
    { intros t Ht. specialize (HK t l i Ht Hl Hi). now rewrite IM in HK. }
    split.
    2:{ intros O. rewrite G1. unfold h. rewrite cf_sum_zero; [apply cf_mul_zero; exact HZ|]. intros t Ht. apply (Permutation_in _ Ho), in_zrange in Ht.
        specialize (HK1 t Ht). rewrite wsize_out, wigner_d_out in HK1 by lia. rewrite !Rmult_0_l, Rmult_0_r, Rmult_0_l, Rmult_0_r, Rminus_0_r in HK1.
        assert (at3 KW t l i = 0) as -> by (pose proof (Rabs_pos (at3 KW t l i)); destruct (Req_dec (at3 KW t l i) 0) as [|N]; [assumption|]; apply Rabs_no_R0 in N; lra).
        apply cf_mul_zero_l. }
    rewrite G1. clear G1. unfold h. unfold n at 1. rewrite quadrature_rings. set (k := fun t => elfactor l * wigner_d l m (- spin) (y t) * w t).
    set (W := fun t => wsize spin l m * V t). set (G := fun t => at2 f3 t i).
    assert (W0 := wsize_nonneg spin l m).
    assert (V0 : forall t, (0 <= t < T)%Z -> 0 <= V t) by (intros t Ht; specialize (HV t Ht); pose proof (Rabs_pos (w t)); lra).
    assert (KW2 : forall t, (0 <= t < T)%Z -> Rabs (k t) <= W t /\ Rabs (at3 KW t l i - k t) <= kap * W t).
    { intros t Ht. split; [|apply HK1, Ht]. unfold k, W. rewrite Rabs_mult. apply Rmult_le_compat; try apply Rabs_pos; [apply kernel_size|now apply HV]. }
    assert (E1 := dot_err A u eta HA HZ Hu T o (fun t => at3 KW t l i) k W kap G spin T1 Ho Hk HuT KW2). cbv beta in E1.
    assert (GE : forall t, (0 <= t < T)%Z -> Cmod (G t - ring_dft L f t m)%C <= eps * ring_abs L f t).
    { intros t Ht. unfold G. rewrite (proj2 M3) by lia. rewrite !Z.add_0_l. unfold i, n. apply ring_fft; auto. }
    assert (A0 : forall t, 0 <= ring_abs L f t) by (intros t; apply rs_nonneg; intros; apply Cmod_ge_0).
    set (WS := wsize spin l m * weighted_size T n V f).
    assert (WE : rsum (zrange 0 T) (fun t => W t * ring_abs L f t) = WS).
    { unfold WS, weighted_size, W. rewrite <- rs_scal_l. apply rr_ext. intros t Ht. unfold ring_abs. fold n. ring. }
    assert (E2 : rsum (zrange 0 T) (fun t => W t * Cmod (G t)) <= 2 * WS).
    { rewrite <- WE, <- rs_scal_l. apply rr_le. intros t Ht.
      assert (B : Cmod (G t) <= 2 * ring_abs L f t).
      { replace (G t) with ((G t - ring_dft L f t m) + ring_dft L f t m)%C by ring. eapply Rle_trans; [apply Cmod_triangle|].
        pose proof (GE t Ht). pose proof (ring_dft_size L f t m). pose proof (A0 t). nra. }
      assert (0 <= W t) by (apply Rmult_le_pos; [exact W0|now apply V0]). replace (2 * (W t * ring_abs L f t)) with (W t * (2 * ring_abs L f t)) by ring. now apply Rmult_le_compat_l. }
    set (z := cf_mul A _ _) in *. set (s1 := csum (zrange 0 T) (fun t => RtoC (k t) * G t)%C) in *.
    set (s2 := csum (zrange 0 T) (fun t => RtoC (k t) * ring_dft L f t m)%C).
    assert (E3 : Cmod (s1 - s2)%C <= eps * WS).
    { replace (s1 - s2)%C with (csum (zrange 0 T) (fun t => RtoC (k t) * (G t - ring_dft L f t m))%C).
      - rewrite <- WE, <- rs_scal_l. apply csum_le. intros t Ht. apply in_zrange in Ht. rewrite Cmod_mult, Cmod_R.
        replace (eps * (W t * ring_abs L f t)) with (W t * (eps * ring_abs L f t)) by ring.
        apply Rmult_le_compat; [apply Rabs_pos|apply Cmod_ge_0|now apply KW2|now apply GE].
      - unfold s1, s2. rewrite <- cs_minus. apply cr_ext. intros. ring. }
    assert (SG : Cmod (RtoC (sgn spin)) = 1).
    { rewrite Cmod_R. assert (Q := sgn_sq spin). unfold Rabs. destruct (Rcase_abs (sgn spin)); nra. }
    match goal with |- Cmod ?a <= _ => change a with (z - RtoC (sgn spin) * s2)%C end.
    replace (z - RtoC (sgn spin) * s2)%C with ((z - RtoC (sgn spin) * s1) + RtoC (sgn spin) * (s1 - s2))%C by ring.
    eapply Rle_trans; [apply Cmod_triangle|]. rewrite (Cmod_mult (RtoC (sgn spin))), SG, Rmult_1_l.
    assert (K0 : 0 <= kap + 27 * u * IZR T) by (assert (0 <= u * IZR T) by (apply Rmult_le_pos; [exact u0|apply IZR_le; lia]); lra).
    apply (Rmult_le_compat_l _ _ _ K0) in E2. lra.
  Qed.
End Float.
