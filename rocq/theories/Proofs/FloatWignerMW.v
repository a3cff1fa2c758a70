(** The precomputed forward Wigner transform on the mw and mwss grids in rounded arithmetic. *)
From Coq Require Import Reals Lra Lia ZifyBool Permutation List.
From Coquelicot Require Import Complex.
From Verif Require Import Lib.Py Lib.PyFacts Lib.Vec Lib.VecFacts Lib.Sums Lib.Cplx Lib.Arr Lib.ArrFacts Lib.MatFacts Model.Index Model.Samples Model.Quadrature Model.Resampling
  Model.RisboFloat Model.Spherical Model.Precompute Model.PrecomputeFloat Model.ForwardFloat Model.ResamplingFloat Model.ForwardMWFloat
  Model.Wigner Model.FourierWigner Model.PrecomputeWigner Model.WignerFloat Model.WignerForwardFloat Model.WignerForwardMWFloat
  Spec.SamplesSpec Spec.WignerSpec Spec.SphereSpec Spec.GridSpec Spec.SphericalSpec Spec.SO3Spec Spec.RoundingSpec Spec.PrecomputeFloatSpec Spec.ForwardFloatSpec Spec.ResamplingFloatSpec
  Spec.WignerFloatSpec Spec.WignerForwardFloatSpec
  Proofs.QuadProofs Proofs.RisboProofs Proofs.SphGrid Proofs.PrecomputeKernel Proofs.PrecomputeSph Proofs.SpectralBound Proofs.FloatSums Proofs.FloatKernel Proofs.FloatInverse Proofs.FloatFourier
  Proofs.CBackendBound Proofs.SphereTheory Proofs.ResamplingFacts Proofs.WignerInverse Proofs.WignerForward Proofs.WignerRound Proofs.FWArrays Proofs.PWKernel Proofs.PWInverse Proofs.PWForward
  Proofs.FloatTop Proofs.FloatForward Proofs.FloatForwardTop Proofs.FloatMWWeights Proofs.L2Norm Proofs.FloatResampling Proofs.FloatResamplingTop Proofs.FloatMWForward Proofs.FloatMWTop
  Proofs.FloatWigner Proofs.FloatWignerFourier Proofs.FloatWignerForward Proofs.FloatWignerForwardTop.
Import ListNotations.
Open Scope R_scope.

(** ** The plane of one n of a band-limited signal *)
Definition gam (N : Z) (f : ndarray C) (n t p : Z) : C :=
  csum (zrange 0 (2 * N - 1)) (fun g => get f [g; t; p] * cis (- (IZR n * (2 * PI * IZR g / IZR (2 * N - 1)))))%C.
Definition plane_coefs (N n : Z) (c : Z -> Z -> C) (l m : Z) : C := (RtoC (sgn n * IZR (2 * N - 1)) * (RtoC (so3_scale l) * c l m))%C.
Lemma plane_synth L N c n phi th : (1 <= N)%Z -> (- N < n < N)%Z ->
  csum (zrange 0 (2 * N - 1)) (fun g => so3_synth L N c phi th (2 * PI * IZR g / IZR (2 * N - 1)) * cis (- (IZR n * (2 * PI * IZR g / IZR (2 * N - 1)))))%C =
  synth L (- n) (plane_coefs N n (c n)) th phi.
Proof.
  intros HN Hn.
  set (f := mkArr [2 * N - 1]%Z (fun ix => so3_synth L N c phi th (2 * PI * IZR (nth 0 ix 0%Z) / IZR (2 * N - 1)))).
  assert (CF : comp N f n [] = (RtoC (2 * PI) * part3 L n (c n) phi th)%C).
  { apply (comp_fourier N f n [] (fun k => part3 L k (c k) phi th) HN Hn). intros g Hg. unfold f. cbn [get nth]. rewrite so3_synth_parts.
    apply cr_ext. intros k Hk. now rewrite gamma_root by lia. }
  set (s := csum _ _). assert (CE : (RtoC (2 * PI / IZR (2 * N - 1)) * s)%C = (RtoC (2 * PI) * part3 L n (c n) phi th)%C).
  { rewrite <- CF. unfold comp, s. f_equal. apply cr_ext. intros g Hg. unfold f. cbn [get nth]. f_equal.
    replace (- (n * g))%Z with ((- n) * g)%Z by lia. rewrite <- gamma_root by lia. f_equal. rewrite opp_IZR. ring. }
  assert (N0 : IZR (2 * N - 1) <> 0) by (apply (IZR_neq _ 0); lia). pose proof PI_RGT_0 as P.
  transitivity (RtoC (IZR (2 * N - 1)) * part3 L n (c n) phi th)%C.
  - transitivity (RtoC (IZR (2 * N - 1) / (2 * PI)) * (RtoC (2 * PI / IZR (2 * N - 1)) * s))%C.
    + rewrite Cmult_assoc, <- RtoC_mult. replace (IZR (2 * N - 1) / (2 * PI) * (2 * PI / IZR (2 * N - 1))) with 1 by (field; split; first [exact N0|lra]). ring.
    + rewrite CE, Cmult_assoc, <- RtoC_mult. do 2 f_equal. field. lra.
  - rewrite <- component. unfold synth. rewrite <- !cs_scal_l. apply cr_ext. intros l Hl. rewrite <- !cs_scal_l. apply cr_ext. intros m Hm.
    unfold plane_coefs. rewrite RtoC_mult. ring.
Qed.
Lemma plane_size L N c n phi th : (1 <= N)%Z -> (- N < n < N)%Z -> Cmod (synth L (- n) (plane_coefs N n (c n)) th phi) <= IZR (2 * N - 1) * so3_size L N c.
Proof.
  intros HN Hn. rewrite <- plane_synth by assumption. rewrite <- (sum_const (2 * N - 1) (so3_size L N c)) by lia. apply csum_le. intros g Hg.
  rewrite Cmod_mult, Cmod_cis, Rmult_1_r. apply so3_synth_size.
Qed.
(** what the quadrature makes of it *)
Lemma plane_quadrature L N c n l m w th T e : (1 <= N <= L)%Z -> (- N < n < N)%Z -> (0 <= l < L)%Z -> (- L < m < L)%Z -> (Z.abs n <= l)%Z -> (Z.abs m <= l)%Z ->
  (forall k, (- (2 * L) < k < 2 * L)%Z -> rsum (zrange 0 T) (fun t => IZR (2 * L) * w t * cos (IZR k * th t)) = 2 * PI * Re (mw_weights k)) ->
  (forall t p, (0 <= t < T)%Z -> (0 <= p < 2 * L)%Z -> get e [t; p] = synth L (- n) (plane_coefs N n (c n)) (th t) (2 * PI * IZR p / IZR (2 * L))) ->
  csum (zrange 0 T) (fun t => RtoC (wigner_d l m n (th t) * w t * cN N) * dft_of (2 * L) e t m)%C = c n l m.
Proof.
  intros HN Hn Hl Hm H1 H2 HQ He.
  assert (QE := quadrature_same L (- n) (plane_coefs N n (c n)) l m w th T ltac:(lia) Hl Hm ltac:(lia) H2 HQ).
  set (e' := mat T (2 * L) (fun t p => synth L (- n) (plane_coefs N n (c n)) (th t) (2 * PI * IZR p / IZR (2 * L)))) in *.
  rewrite quadrature_dft, Z.opp_involutive, sgn_opp in QE.
  set (s := csum (zrange 0 T) (fun t => RtoC (elfactor l * wigner_d l m n (th t) * w t) * dft_of (2 * L) e' t m)%C) in *.
  assert (E0 : elfactor l <> 0) by (pose proof (elfactor_lower l ltac:(lia)); lra).
  assert (NE : norm3 l * elfactor l = 1).
  { unfold norm3, elfactor. rewrite <- sqrt_mult_alt.
    - rewrite <- sqrt_1. f_equal. field. split; [pose proof PI_RGT_0; lra|apply (IZR_neq _ 0); lia].
    - apply Rmult_le_pos; [pose proof PI_RGT_0; lra|]. left. apply Rinv_0_lt_compat, IZR_lt. lia. }
  transitivity (RtoC (cN N * norm3 l) * s)%C.
  - unfold s. rewrite <- cs_scal_l. apply cr_ext. intros t Ht. rewrite Cmult_assoc, <- RtoC_mult. f_equal.
    + f_equal. transitivity (wigner_d l m n (th t) * w t * cN N * (norm3 l * elfactor l)); [rewrite NE; ring|ring].
    + unfold dft_of. apply cr_ext. intros p Hp. rewrite He by assumption. unfold e', mat. cbn [get nth]. reflexivity.
  - assert (QS : s = (RtoC (sgn n) * plane_coefs N n (c n) l m)%C) by (rewrite <- QE, Cmult_assoc, <- RtoC_mult, sgn_sq; ring).
    rewrite QS. unfold plane_coefs. transitivity (RtoC (sgn n * sgn n * (cN N * IZR (2 * N - 1) * so3_scale l * norm3 l)) * c n l m)%C.
    + rewrite !RtoC_mult. ring.
    + rewrite sgn_sq. replace (cN N * IZR (2 * N - 1)) with (2 * PI) by (unfold cN; field; apply (IZR_neq _ 0); lia). rewrite scale_norm by lia. rewrite Rmult_1_l. ring.
Qed.

(** ** The transform along the first axis *)
Lemma gamma_fft fftg N T P f eps : (1 <= N)%Z -> (1 <= T)%Z -> (1 <= P)%Z -> shape f = [2 * N - 1; T; P]%Z -> fft_accurate fftg (2 * N - 1) eps ->
  exists a, map3_0 fftshift (map3_0 fftg f) = a /\ shape a = [2 * N - 1; T; P]%Z /\
    forall n t p, (- N < n < N)%Z -> (0 <= t < T)%Z -> (0 <= p < P)%Z ->
      Cmod (get a [n + N - 1; t; p]%Z - gam N f n t p)%C <= eps * rsum (zrange 0 (2 * N - 1)) (fun g => Cmod (get f [g; t; p])).
Proof.
  intros HN HT HP Hf HG.
  assert (D0 : dim0 f = (2 * N - 1)%Z) by (unfold dim0; now rewrite Hf). assert (D1 : dim1 f = T) by (unfold dim1; now rewrite Hf).
  assert (D2 : dim2 f = P) by (unfold dim2; now rewrite Hf).
  set (v1 := fun t p => mkVec (2 * N - 1) (fun g => at3 f g t p)).
  assert (M1 : is_arr3 (map3_0 fftg f) (2 * N - 1) T P (fun k t p => vat (fftg (v1 t p)) k)).
  { unfold map3_0. rewrite D0, D1, D2. rewrite (proj1 (HG (mkVec (2 * N - 1) (fun i => at3 f i 0 0)) eq_refl)). apply is_arr3_arr3. }
  assert (M2 := map3_0_ok fftshift _ _ _ _ (2 * N - 1)%Z _ M1 vext_fftshift ltac:(intros v Hv; exact Hv)). clear M1.
  eexists. split; [reflexivity|]. set (a := map3_0 fftshift _) in *. clearbody a. cbn [fftshift vat vlen] in M2. split; [exact (proj1 M2)|].
  intros n t p Hn Ht Hp. assert (G := proj2 M2 (n + N - 1)%Z t p ltac:(lia) Ht Hp). unfold at3 in G at 1. rewrite G. cbv beta. clear G.
  rewrite half_odd. replace (n + N - 1 - (N - 1))%Z with n by lia.
  assert (Q := dft_of_fft fftg (2 * N - 1) eps (v1 t p) (mkArr [T; 2 * N - 1]%Z (fun ix => get f [nth 1 ix 0; t; p]%Z)) t n ltac:(lia) HG eq_refl ltac:(intros; reflexivity)).
  exact Q.
Qed.

Section Float.
  Variables (A : arith) (u eta : R).
  Hypothesis HA : rounded A u eta.
  Hypothesis HZ : zeros_exact A.
  Let u0 : 0 <= u := rd_u _ _ _ HA.
  Let e0 : 0 <= eta := rd_eta _ _ _ HA.

  (** ** The rings *)
  Lemma xm_rings_near (Hu : u <= / 1000) fftp o b KW L N T y w V kap eps : (1 <= N <= L)%Z -> (1 <= T)%Z -> shape b = [2 * N - 1; T; 2 * L]%Z ->
    sums_all o T -> 0 <= kap <= 2 -> 6 * u * IZR T <= 1 -> 0 <= eps <= / 100 -> fft_accurate fftp (2 * L) eps ->
    (forall t, (0 <= t < T)%Z -> Rabs (w t) <= V t) -> w3_near KW N T L y w V kap ->
    exists flmn, xm_rings A fftp o b KW L N = Ok flmn /\ shape flmn = [2 * N - 1; L; 2 * L - 1]%Z /\
      forall n l m, (- N < n < N)%Z -> (0 <= l < L)%Z -> (- L < m < L)%Z ->
        Cmod (stored3 L N flmn n l m - csum (zrange 0 T) (fun t => RtoC (wigner_d l m n (y t) * w t * cN N) * dft_of (2 * L) (pl b (n + N - 1)) t m))%C <=
          ((203 / 100) * (kap + 15 * u * IZR T) + eps) * (cN N * weighted_size T (2 * L) V (pl b (n + N - 1))) + 12 * IZR T * eta /\
        ((l < Z.abs m \/ l < Z.abs n)%Z -> stored3 L N flmn n l m = RtoC 0).
  Proof.
    intros HN T1 Hb Ho Hk HuT Heps HP HV [KS HK]. unfold xm_rings. rewrite Hb. cbn [length]. change (Z.of_nat 3 =? 3)%Z with true. cbn [negb].
    change (wm_offset "mwss") with 1%Z. assert (Q0 : dim0 b = (2 * N - 1)%Z) by (unfold dim0; now rewrite Hb). assert (Q1 : dim1 b = T) by (unfold dim1; now rewrite Hb).
    assert (Q2 : dim2 b = (2 * L)%Z) by (unfold dim2; now rewrite Hb).
    set (v2 := fun k t => mkVec (2 * L) (fun p => at3 b k t p)).
    assert (M3 : is_arr3 (map3_2 fftp b) (2 * N - 1) T (2 * L) (fun k t i => vat (fftp (v2 k t)) i)).
    { unfold map3_2. rewrite Q0, Q1, Q2. rewrite (proj1 (HP (mkVec (2 * L) (fun i => at3 b 0 0 i)) eq_refl)). apply is_arr3_arr3. }
    assert (M4 := map3_2_ok fftshift _ _ _ _ (2 * L)%Z _ M3 vext_fftshift ltac:(intros v Hv; exact Hv)). clear M3.
    assert (M5 := last_from_ok _ _ _ _ _ 1 M4 ltac:(lia)). clear M4. cbn [fftshift vat vlen] in M5.
    replace (2 * L / 2)%Z with L in M5 by (rewrite Z.mul_comm; symmetry; apply Z.div_mul; lia).
    set (fb := last_from _ 1) in *. clearbody fb. destruct (is_arr3_dims _ _ _ _ _ M5) as (P0 & P1 & P2).
    unfold xf_einsum. rewrite P0, P1, P2.
    assert (D0 : dim0 KW = (2 * N - 1)%Z) by (unfold dim0; now rewrite KS). assert (D1 : dim1 KW = T) by (unfold dim1; now rewrite KS).
    assert (D2 : dim2 KW = L) by (unfold dim2; now rewrite KS). assert (D3 : dim3 KW = (2 * L - 1)%Z) by (unfold dim3; now rewrite KS).
    rewrite D0, D1, D2, D3, !Z.eqb_refl. cbn [andb bind].
    set (h := fun k l i => cf_sum A o (fun t => cf_mul A (RtoC (at4 KW k t l i)) (at3 fb k t i))).
    assert (ME : is_arr3 (arr3 (2 * N - 1) L (2 * L - 1) h) (2 * N - 1 - 0) L (2 * L - 1 - 0) h) by (rewrite !Z.sub_0_r; apply is_arr3_arr3).
    change (flmn_shape L N) with [2 * N - 1; L; 2 * L - 1]%Z.
    destruct (tail_set_ok (zeros (RtoC 0) [2 * N - 1; L; 2 * L - 1]%Z) _ _ _ _ _ _ 0%Z 0%Z (zeros3 _ _ _ _) ME ltac:(lia) ltac:(lia)) as (flmn & -> & Hfl).
    exists flmn. split; [reflexivity|]. split; [exact (proj1 Hfl)|]. intros n l m Hn Hl Hm.
    set (k := (n + N - 1)%Z). set (i := (m + L - 1)%Z). assert (Hk' : (0 <= k < 2 * N - 1)%Z) by (unfold k; lia). assert (Hi : (0 <= i < 2 * L - 1)%Z) by (unfold i; lia).
    assert (G1 := proj2 Hfl k l i Hk' Hl Hi). cbv beta in G1. replace ((0 <=? k) && (0 <=? i))%Z with true in G1 by lia. rewrite !Z.sub_0_r in G1. unfold at3 in G1 at 1.
    unfold stored3. fold k i. rewrite G1. clear G1.
    assert (NK : (k - (N - 1) = n)%Z) by (unfold k; lia). assert (IM : (i - (L - 1) = m)%Z) by (unfold i; lia).
    assert (HK1 : forall t, (0 <= t < T)%Z ->
      if adm_b n l m then Rabs (at4 KW k t l i - wigner_d l m n (y t) * w t * cN N) <= kap * (V t * cN N) else at4 KW k t l i = 0).
    { intros t Ht. specialize (HK k t l i Hk' Ht Hl Hi). now rewrite NK, IM in HK. }
    split.
    2:{ intros O. unfold h. apply cf_sum_zero; [exact HZ|]. intros t Ht. apply (Permutation_in _ Ho), in_zrange in Ht. specialize (HK1 t Ht).
        replace (adm_b n l m) with false in HK1 by (unfold adm_b; lia). rewrite HK1. now apply cf_mul_zero_l. }
    pose proof (cN_pos N ltac:(lia)) as C0.
    set (e := fun t => wigner_d l m n (y t) * w t * cN N). set (W := fun t => V t * cN N).
    assert (V0 : forall t, (0 <= t < T)%Z -> 0 <= V t) by (intros t Ht; specialize (HV t Ht); pose proof (Rabs_pos (w t)); lra).
    assert (W0 : forall t, (0 <= t < T)%Z -> 0 <= W t) by (intros t Ht; apply Rmult_le_pos; [now apply V0|lra]).
    assert (KW2 : forall t, (0 <= t < T)%Z -> Rabs (e t) <= W t /\ Rabs (at4 KW k t l i - e t) <= kap * W t).
    { intros t Ht. split.
      - unfold e, W. rewrite Rabs_mult, (Rabs_right (cN N)) by lra. apply Rmult_le_compat_r; [lra|]. rewrite Rabs_mult.
        pose proof (wigner_le1 l m n (y t)). rewrite <- (Rmult_1_l (V t)). apply Rmult_le_compat; try apply Rabs_pos; [assumption|now apply HV].
      - specialize (HK1 t Ht). destruct (adm_b n l m) eqn:AD; [exact HK1|]. rewrite HK1. unfold e. rewrite wigner_d_out by (unfold adm_b in AD; lia).
        rewrite !Rmult_0_l, Rminus_0_r, Rabs_R0. apply Rmult_le_pos; [lra|now apply W0]. }
    assert (E1 := dot3_err A u eta HA HZ Hu T o (fun t => at4 KW k t l i) e W kap (fun t => at3 fb k t i) T1 Ho Hk HuT KW2). cbv beta in E1.
    set (G := fun t => dft_of (2 * L) (pl b k) t m). set (S := fun t => abs_of (2 * L) (pl b k) t).
    assert (GE' : forall t, (0 <= t < T)%Z -> Cmod (at3 fb k t i - G t)%C <= eps * S t).
    { intros t Ht. rewrite (proj2 M5) by lia. cbv beta. replace (1 + i - L)%Z with m by (unfold i; lia).
      apply dft_of_fft; try assumption; try lia; reflexivity. }
    assert (S0 : forall t, 0 <= S t) by (intros t; apply rs_nonneg; intros; apply Cmod_ge_0).
    set (WS := cN N * weighted_size T (2 * L) V (pl b k)).
    assert (WE : rsum (zrange 0 T) (fun t => W t * S t) = WS).
    { unfold WS, weighted_size, W, S. rewrite <- rs_scal_l. apply rr_ext. intros t Ht. unfold abs_of. ring. }
    assert (WS0 : 0 <= WS) by (rewrite <- WE; apply rs_nonneg; intros t Ht; apply in_zrange in Ht; apply Rmult_le_pos; [now apply W0|apply S0]).
    assert (E2 : rsum (zrange 0 T) (fun t => W t * Cmod (at3 fb k t i)) <= (101 / 100) * WS).
    { rewrite <- WE, <- rs_scal_l. apply rr_le. intros t Ht.
      assert (B : Cmod (at3 fb k t i) <= (101 / 100) * S t).
      { replace (at3 fb k t i) with ((at3 fb k t i - G t) + G t)%C by ring. eapply Rle_trans; [apply Cmod_triangle|].
        pose proof (GE' t Ht) as Q. pose proof (dft_of_size (2 * L) (pl b k) t m). fold (S t) in *. fold (G t) in *. pose proof (S0 t).
        assert (eps * S t <= 1 / 100 * S t) by (apply Rmult_le_compat_r; lra). lra. }
      replace (101 / 100 * (W t * S t)) with (W t * (101 / 100 * S t)) by ring. apply Rmult_le_compat_l; [now apply W0|exact B]. }
    set (z := h k l i). set (s1 := csum (zrange 0 T) (fun t => RtoC (e t) * at3 fb k t i)%C) in *.
    set (s2 := csum (zrange 0 T) (fun t => RtoC (e t) * G t)%C).
    assert (E3 : Cmod (s1 - s2)%C <= eps * WS).
    { unfold s1, s2. rewrite <- cs_minus, <- WE, <- rs_scal_l. apply csum_le. intros t Ht. apply in_zrange in Ht.
      replace (RtoC (e t) * at3 fb k t i - RtoC (e t) * G t)%C with (RtoC (e t) * (at3 fb k t i - G t))%C by ring. rewrite Cmod_mult, Cmod_R.
      replace (eps * (W t * S t)) with (W t * (eps * S t)) by ring.
      apply Rmult_le_compat; [apply Rabs_pos|apply Cmod_ge_0|now apply KW2|now apply GE']. }
    change (Cmod (z - s1)%C <= 2 * ((kap + 15 * u * IZR T) * rsum (zrange 0 T) (fun t => W t * Cmod (at3 fb k t i)) + 6 * IZR T * eta)) in E1.
    match goal with |- Cmod ?a <= _ => change a with (z - s2)%C end.
    replace (z - s2)%C with ((z - s1) + (s1 - s2))%C by ring. eapply Rle_trans; [apply Cmod_triangle|].
    assert (K0 : 0 <= kap + 15 * u * IZR T) by (assert (0 <= u * IZR T) by (apply Rmult_le_pos; [exact u0|apply IZR_le; lia]); lra).
    apply (Rmult_le_compat_l _ _ _ K0) in E2. assert (KW0 : 0 <= (kap + 15 * u * IZR T) * WS) by (now apply Rmult_le_pos). lra.
  Qed.
End Float.
