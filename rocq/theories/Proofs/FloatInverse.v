(** The precomputed inverse transform in rounded arithmetic with a kernel of given accuracy. *)
From Coq Require Import Reals Lra Lia ZifyBool Permutation.
From Coquelicot Require Import Complex.
From Verif Require Import Lib.Py Lib.PyFacts Lib.Vec Lib.VecFacts Lib.Sums Lib.Cplx Lib.Arr Lib.ArrFacts Lib.MatFacts Model.Index Model.Samples Model.Grids
  Model.FFT Model.HealpixFFT Model.Turok Model.Risbo Model.Resampling Model.Quadrature
  Model.RisboFloat Model.Spherical Model.Precompute Model.PrecomputeFloat
  Spec.SamplesSpec Spec.WignerSpec Spec.SphereSpec Spec.GridSpec Spec.SphericalSpec Spec.RoundingSpec Spec.PrecomputeFloatSpec
  Proofs.WignerDh Proofs.WignerCalc Proofs.RisboProofs Proofs.TurokProofs Proofs.SamplesProofs Proofs.SphGrid Proofs.SphInverse Proofs.SphTop Proofs.PrecomputeKernel Proofs.PrecomputeSph Proofs.SpectralBound Proofs.FloatSums Proofs.FloatKernel Proofs.CBackendBound.
Open Scope R_scope.

Lemma Cmod_parts (z : C) : Cmod z <= Rabs (fst z) + Rabs (snd z).
Proof.
  replace z with (RtoC (fst z) + (0, snd z))%C at 1 by (destruct z; unfold Cplus, RtoC; cbn; f_equal; ring).
  eapply Rle_trans; [apply Cmod_triangle|]. rewrite Cmod_R. apply Rplus_le_compat_l.
  unfold Cmod. cbn [fst snd]. replace (0 ^ 2 + snd z ^ 2) with (snd z * snd z) by ring. rewrite <- (sqrt_Rsqr_abs (snd z)). apply Rle_refl.
Qed.
Lemma part_le (z : C) : Rabs (fst z) <= Cmod z /\ Rabs (snd z) <= Cmod z.
Proof. pose proof (Rmax_Cmod z) as H. split; (eapply Rle_trans; [|exact H]); [apply Rmax_l|apply Rmax_r]. Qed.
Lemma Cmod_cis x : Cmod (cis x) = 1.
Proof.
  unfold Cmod, cis. cbn [fst snd]. pose proof (sin2_cos2 x) as H. unfold Rsqr in H.
  replace (cos x ^ 2 + sin x ^ 2) with 1 by (rewrite <- H; ring). apply sqrt_1.
Qed.
Lemma fst_csum {X} (l : list X) f : fst (csum l f) = rsum l (fun x => fst (f x)).
Proof. exact (Re_csum l f). Qed.
Lemma snd_csum {X} (l : list X) f : snd (csum l f) = rsum l (fun x => snd (f x)).
Proof. exact (Im_csum l f). Qed.
Lemma rs_sub_le a b f g c : (forall x, (a <= x < b)%Z -> f x <= g x) -> rsum (zrange a b) g <= c -> rsum (zrange a b) f <= c.
Proof. intros H1 H2. eapply Rle_trans; [apply rr_le, H1|exact H2]. Qed.

(** sums over degrees and orders *)
Lemma rtri_rect L s (G : Z -> Z -> R) : (Z.abs s <= L)%Z ->
  (forall l m, (l < Z.abs s \/ l < Z.abs m)%Z -> G l m = 0) ->
  rsum (zrange (Z.abs s) L) (fun l => rsum (zrange (- l) (l + 1)) (fun m => G l m))
  = rsum (zrange (- (L - 1)) L) (fun m => rsum (zrange 0 L) (fun l => G l m)).
Proof.
  intros Hs HG. rewrite <- (rs_swap (zrange 0 L)). rewrite (rr_shrink 0 L (Z.abs s) L) by (try lia; intros; apply rr_0; intros; apply HG; lia).
  apply rr_ext. intros l Hl. symmetry. apply rr_shrink; try lia. intros; apply HG; lia.
Qed.
Lemma ctri_rect L s (G : Z -> Z -> C) : (Z.abs s <= L)%Z ->
  (forall l m, (l < Z.abs s \/ l < Z.abs m)%Z -> G l m = RtoC 0) ->
  csum (zrange (Z.abs s) L) (fun l => csum (zrange (- l) (l + 1)) (fun m => G l m))
  = csum (zrange (- (L - 1)) L) (fun m => csum (zrange 0 L) (fun l => G l m)).
Proof.
  intros Hs HG. rewrite <- (cs_swap (zrange 0 L)). rewrite (cr_shrink 0 L (Z.abs s) L) by (try lia; intros; apply cr_0; intros; apply HG; lia).
  apply cr_ext. intros l Hl. symmetry. apply cr_shrink; try lia. intros; apply HG; lia.
Qed.
Lemma wsize_out s l m : (l < Z.abs s \/ l < Z.abs m)%Z -> wsize s l m = 0.
Proof. intros H. unfold wsize, adm_b. replace ((Z.abs s <=? l) && (Z.abs m <=? l))%Z with false by lia. reflexivity. Qed.
Lemma wsize_in s l m : (Z.abs s <= l)%Z -> (Z.abs m <= l)%Z -> wsize s l m = elfactor l.
Proof. intros H1 H2. unfold wsize, adm_b. replace ((Z.abs s <=? l) && (Z.abs m <=? l))%Z with true by lia. reflexivity. Qed.
Lemma wsize_nonneg s l m : 0 <= wsize s l m.
Proof. unfold wsize. destruct (adm_b s l m); [apply sqrt_pos|lra]. Qed.
Lemma signal_size_orders L s c : (Z.abs s <= L)%Z ->
  rsum (zrange (- (L - 1)) L) (fun m => rsum (zrange 0 L) (fun l => wsize s l m * Cmod (c l m))) = signal_size L s c.
Proof.
  intros Hs. unfold signal_size. rewrite <- (rtri_rect L s (fun l m => wsize s l m * Cmod (c l m))).
  - apply rr_ext. intros l Hl. apply rr_ext. intros m Hm. rewrite wsize_in by lia. reflexivity.
  - exact Hs.
  - intros l m H. rewrite wsize_out by exact H. ring.
Qed.
(** the exact transform, order by order *)
Definition exact_order (L s : Z) (c : Z -> Z -> C) (x : R) (m : Z) : C :=
  (RtoC (sgn s) * csum (zrange 0 L) (fun l => RtoC (elfactor l * wigner_d l m (- s) x) * c l m))%C.
Lemma synth_orders L s c x phi : (Z.abs s <= L)%Z ->
  synth L s c x phi = csum (zrange (- (L - 1)) L) (fun m => exact_order L s c x m * cis (IZR m * phi))%C.
Proof.
  intros Hs. unfold synth. rewrite (ctri_rect L s (fun l m => c l m * sYlm s l m x phi)%C).
  - apply cr_ext. intros m Hm. unfold exact_order. rewrite <- Cmult_assoc, <- cs_scal_r, <- cs_scal_l. apply cr_ext. intros l Hl.
    unfold sYlm, elfactor. rewrite !RtoC_mult. ring.
  - exact Hs.
  - intros l m H. unfold sYlm. rewrite wigner_d_out by lia. rewrite Rmult_0_r. ring.
Qed.

Section Float.
  Variables (A : arith) (u eta : R).
  Hypothesis HA : rounded A u eta.
  Hypothesis HZ : zeros_exact A.
  Hypothesis Hu : u <= / 1000.
  Let u0 : 0 <= u := rd_u _ _ _ HA.
  Let e0 : 0 <= eta := rd_eta _ _ _ HA.

  Lemma cf_mul_zero (x : R) : cf_mul A (RtoC 0) (RtoC x) = RtoC 0.
  Proof.
    unfold cf_mul, RtoC. cbn [fst snd]. rewrite !(proj1 (proj1 HZ _)). rewrite Ropp_0, (proj2 HZ). reflexivity.
  Qed.

  (** a sum of products with a computed kernel, times a sign *)
  Lemma dot_err n o (kc k W : Z -> R) kap (f : Z -> C) sg : (1 <= n)%Z -> sums_all o n -> 0 <= kap <= 2 -> 6 * u * IZR n <= 1 ->
    (forall l, (0 <= l < n)%Z -> Rabs (k l) <= W l /\ Rabs (kc l - k l) <= kap * W l) ->
    Cmod (cf_mul A (cf_sum A o (fun l => cf_mul A (RtoC (kc l)) (f l))) (RtoC (sgn sg))
          - RtoC (sgn sg) * csum (zrange 0 n) (fun l => RtoC (k l) * f l))%C
    <= 2 * ((kap + 27 * u * IZR n) * rsum (zrange 0 n) (fun l => W l * Cmod (f l)) + 12 * IZR n * eta).
  Proof.
    intros HL Ho Hk HuL HW.
    assert (W0 : forall l, (0 <= l < n)%Z -> 0 <= W l) by (intros l Hl; destruct (HW l Hl) as [H _]; pose proof (Rabs_pos (k l)); lra).
    assert (SG : Rabs (sgn sg) = 1).
    { assert (Q := sgn_sq sg). assert (Q2 : sgn sg = 1 \/ sgn sg = -1) by (assert ((sgn sg - 1) * (sgn sg + 1) = 0) as P by lra; apply Rmult_integral in P; lra).
      destruct Q2 as [->| ->]; unfold Rabs; [destruct (Rcase_abs 1)|destruct (Rcase_abs (-1))]; lra. }
    set (g := fun l => cf_mul A (RtoC (kc l)) (f l)).
    set (S := rsum (zrange 0 n) (fun l => W l * Cmod (f l))).
    set (z := cf_sum A o g). set (r := cf_mul A z (RtoC (sgn sg))).
    assert (P1 := part_err A u eta HA Hu n o kc k W kap (fun l => fst (f l)) (fun l => fst (g l)) HL Ho HW Hk HuL
      (fun l _ => cmul_real_fst A u eta HA HZ Hu (kc l) (f l)) (sgn sg) (fst r) (201 / 100) SG ltac:(lra)).
    assert (P2 := part_err A u eta HA Hu n o kc k W kap (fun l => snd (f l)) (fun l => snd (g l)) HL Ho HW Hk HuL
      (fun l _ => cmul_real_snd A u eta HA HZ Hu (kc l) (f l)) (sgn sg) (snd r) 3 SG ltac:(lra)).
    rewrite <- cf_sum_fst in P1. rewrite <- cf_sum_snd in P2. fold z in P1, P2.
    specialize (P1 (cmul_realr_fst A u eta HA HZ Hu (sgn sg) z)). specialize (P2 (cmul_realr_snd A u eta HA HZ Hu (sgn sg) z)).
    assert (L1 : 1 <= IZR n) by (apply IZR_le; lia). assert (K0 : 0 <= kap + 27 * u * IZR n) by nra.
    assert (S1 : rsum (zrange 0 n) (fun l => W l * Rabs (fst (f l))) <= S).
    { apply rr_le. intros l Hl. apply Rmult_le_compat_l; [now apply W0|]. apply part_le. }
    assert (S2 : rsum (zrange 0 n) (fun l => W l * Rabs (snd (f l))) <= S).
    { apply rr_le. intros l Hl. apply Rmult_le_compat_l; [now apply W0|]. apply part_le. }
    apply (Rmult_le_compat_l _ _ _ K0) in S1. apply (Rmult_le_compat_l _ _ _ K0) in S2.
    eapply Rle_trans; [apply Cmod_parts|].
    match goal with |- Rabs (fst ?Z) + _ <= _ => set (w := Z) end.
    assert (F1 : fst w = fst r - sgn sg * rsum (zrange 0 n) (fun l => k l * fst (f l))).
    { unfold w, Cminus, Cplus, Copp, Cmult. cbn [fst snd RtoC]. rewrite fst_csum. rewrite Rmult_0_l, Rminus_0_r. unfold Rminus. do 2 f_equal. f_equal.
      apply rr_ext. intros l Hl. cbn [fst snd RtoC]. ring. }
    assert (F2 : snd w = snd r - sgn sg * rsum (zrange 0 n) (fun l => k l * snd (f l))).
    { unfold w, Cminus, Cplus, Copp, Cmult. cbn [fst snd RtoC]. rewrite snd_csum. rewrite Rmult_0_l, Rplus_0_r. unfold Rminus. do 2 f_equal. f_equal.
      apply rr_ext. intros l Hl. cbn [fst snd RtoC]. ring. }
    rewrite F1, F2. lra.
  Qed.
  Lemma kernel_size l m spin x : Rabs (elfactor l * wigner_d l m (- spin) x) <= wsize spin l m.
  Proof.
    pose proof (wigner_le1 l m (- spin) x) as W1. assert (E0 : 0 <= elfactor l) by apply sqrt_pos.
    destruct (Z_le_dec (Z.abs spin) l); [destruct (Z_le_dec (Z.abs m) l)|].
    - rewrite wsize_in by lia. rewrite Rabs_mult, (Rabs_right (elfactor l)) by lra. nra.
    - rewrite wigner_d_out by lia. rewrite Rmult_0_r, Rabs_R0. apply wsize_nonneg.
    - rewrite wigner_d_out by lia. rewrite Rmult_0_r, Rabs_R0. apply wsize_nonneg.
  Qed.
  (** one order of one ring *)
  Lemma order_err L o spin m (x : R) (kc : Z -> R) kap (f : Z -> C) : (1 <= L)%Z -> sums_all o L -> 0 <= kap <= 2 -> 6 * u * IZR L <= 1 ->
    (forall l, (0 <= l < L)%Z -> Rabs (kc l - elfactor l * wigner_d l m (- spin) x) <= kap * wsize spin l m) ->
    Cmod (cf_mul A (cf_sum A o (fun l => cf_mul A (RtoC (kc l)) (f l))) (RtoC (sgn spin))
          - RtoC (sgn spin) * csum (zrange 0 L) (fun l => RtoC (elfactor l * wigner_d l m (- spin) x) * f l))%C
    <= 2 * ((kap + 27 * u * IZR L) * rsum (zrange 0 L) (fun l => wsize spin l m * Cmod (f l)) + 12 * IZR L * eta).
  Proof.
    intros HL Ho Hk HuL HK. apply (dot_err L o kc (fun l => elfactor l * wigner_d l m (- spin) x) (fun l => wsize spin l m) kap f spin HL Ho Hk HuL).
    intros l Hl. split; [apply kernel_size|apply HK, Hl].
  Qed.

  Lemma row_abs_sum (v : vec C) n : (0 < n)%Z -> vlen v = n ->
    rsum (zrange 0 n) (fun k => Cmod (vat (ifftshift v) k)) = rsum (zrange 0 n) (fun k => Cmod (vat v k)).
  Proof.
    intros Hn Hv. cbn [ifftshift vat]. rewrite Hv. apply (rr_perm 0 n 0 n (fun i => (i + n / 2) mod n)%Z (fun k => Cmod (vat v k))).
    - intros. apply Z.mod_pos_bound. lia.
    - intros x y Hx Hy E. apply (f_equal (fun z => (z - n / 2) mod n)%Z) in E. rewrite !Zminus_mod_idemp_l in E.
      replace (x + n / 2 - n / 2)%Z with x in E by lia. replace (y + n / 2 - n / 2)%Z with y in E by lia.
      now rewrite !Z.mod_small in E by lia.
    - lia.
  Qed.

  Lemma inverse_near s F o flm K L spin x kap eps : s <> HEALPIX -> (1 <= L)%Z -> (Z.abs spin <= L)%Z -> shape flm = [L; 2 * L - 1]%Z ->
    sums_all o L -> 0 <= kap <= 2 -> 6 * u * IZR L <= 1 -> 0 <= eps -> ifft_accurate (f_ifft F) (per_ring s L) eps ->
    kernel_near K (rings s L 0) L spin x kap ->
    exists f, pf_inverse A F o flm K L (scheme_name s) spin = Ok f /\ shape f = [rings s L 0; per_ring s L]%Z /\
      forall t p, (0 <= t < rings s L 0)%Z -> (0 <= p < per_ring s L)%Z ->
        Cmod (get f [t; p] - synth L spin (stored L flm) (x t) (longitude s L 0 t p))%C <=
        (eps + (1 + eps) * (2 * (kap + 27 * u * IZR L))) * signal_size L spin (stored L flm) + (1 + eps) * (48 * (IZR L * IZR L) * eta).
  Proof.
    intros Hs HL Hsp Hf Ho Hk HuL Heps HF [KS HK].
    assert (RN : (0 < rings s L 0)%Z) by (destruct s; cbn [rings]; try lia; congruence).
    assert (M01 : mo_of s = 0%Z \/ mo_of s = 1%Z) by (destruct s; cbn [mo_of]; lia).
    assert (EO : orders s L = (2 * L - 1 + mo_of s)%Z) by (destruct s; cbn [orders mo_of]; lia).
    assert (EP : per_ring s L = orders s L) by (destruct s; try reflexivity; congruence).
    unfold pf_inverse. rewrite m_offset_name. assert (DN : denotes (scheme_name s) s) by (now destruct s).
    rewrite (ftm_shape_ok _ s L 0 None DN) by (intros Q; congruence). cbn [bind].
    assert (MF := is_mat_self flm L (2 * L - 1) Hf).
    assert (M1 := MatFacts.slice2_ok _ _ _ _ 0 L 0 (2 * L - 1) MF ltac:(lia) ltac:(lia) ltac:(lia) ltac:(lia) ltac:(lia) ltac:(lia)).
    rewrite (is_mat_dim0 _ _ _ _ MF), (is_mat_dim1 _ _ _ _ MF).
    set (fl := slice2 flm 0 L 0 (2 * L - 1)) in *.
    unfold pf_einsum. rewrite (is_mat_dim0 _ _ _ _ M1), (is_mat_dim1 _ _ _ _ M1).
    assert (D0 : dim0 K = rings s L 0) by (unfold dim0; now rewrite KS). assert (D1 : dim1 K = L) by (unfold dim1; now rewrite KS).
    assert (D2 : dim2 K = (2 * L - 1)%Z) by (unfold dim2; now rewrite KS). rewrite D0, D1, D2. replace ((L =? L - 0) && (2 * L - 1 =? 2 * L - 1 - 0))%Z with true by lia. cbn [bind].
    set (h := fun t i => cf_sum A o (fun l => cf_mul A (RtoC (at3 K t l i)) (at2 fl l i))).
    assert (MZ : is_mat (zeros (RtoC 0) [rings s L 0; orders s L]%Z) (rings s L 0) (orders s L) (fun _ _ => RtoC 0)) by (split; reflexivity).
    rewrite (is_mat_dim0 _ _ _ _ MZ), (is_mat_dim1 _ _ _ _ MZ).
    assert (ME : is_mat (mat (rings s L 0) (2 * L - 1) h) (rings s L 0 - 0) (orders s L - mo_of s) h).
    { replace (rings s L 0 - 0)%Z with (rings s L 0) by lia. replace (orders s L - mo_of s)%Z with (2 * L - 1)%Z by lia. apply is_mat_mat. }
    destruct (PrecomputeSph.slice2_set_ok _ _ _ _ _ _ 0 (rings s L 0) (mo_of s) (orders s L) MZ ME ltac:(lia) ltac:(lia) ltac:(lia) ltac:(lia) ltac:(lia) ltac:(lia))
      as (ftm & -> & Hftm). cbn [bind].
    set (a := fun t m => cf_mul A (h t (m + (L - 1))%Z) (RtoC (sgn spin))).
    assert (M2 : is_mat (mscal (fun z => cf_mul A z (RtoC (m1 spin))) ftm) (rings s L 0) (orders s L)
       (fun t c => if (mo_of s <=? c)%Z then a t (c - mo_of s - (L - 1))%Z else RtoC 0)).
    { apply (is_mat_ext _ _ _ _ _ (mscal_ok (fun z => cf_mul A z (RtoC (m1 spin))) _ _ _ _ Hftm)). intros t c Ht Hc. cbv beta.
      change (m1 spin) with (sgn spin). destruct (Z.leb_spec (mo_of s) c).
      - replace ((0 <=? t) && (t <? rings s L 0) && true && (c <? orders s L))%Z with true by lia.
        unfold a. do 2 f_equal; lia.
      - rewrite !andb_false_r. cbn [andb]. apply cf_mul_zero. }
    set (ftm1 := mscal (fun z => cf_mul A z (RtoC (m1 spin))) ftm) in *. clearbody ftm1.
    set (c := stored L flm).
    assert (OE : forall t m, (0 <= t < rings s L 0)%Z -> (- L < m < L)%Z ->
      Cmod (a t m - exact_order L spin c (x t) m)%C <= 2 * ((kap + 27 * u * IZR L) * rsum (zrange 0 L) (fun l => wsize spin l m * Cmod (c l m)) + 12 * IZR L * eta)).
    { intros t m Ht Hm. unfold a, exact_order, h. set (kc := fun l => at3 K t l (m + (L - 1))).
      assert (E := order_err L o spin m (x t) kc kap (fun l => at2 fl l (m + (L - 1))) HL Ho Hk HuL).
      assert (FE : forall l, (0 <= l < L)%Z -> at2 fl l (m + (L - 1)) = c l m).
      { intros l Hl. rewrite (proj2 M1) by lia. unfold at2, c, stored. do 2 f_equal. f_equal. lia. }
      rewrite (cr_ext 0 L (fun l => RtoC (elfactor l * wigner_d l m (- spin) (x t)) * c l m)%C
                 (fun l => RtoC (elfactor l * wigner_d l m (- spin) (x t)) * at2 fl l (m + (L - 1)))%C) by (intros l Hl; now rewrite FE).
      rewrite (rr_ext 0 L (fun l => wsize spin l m * Cmod (c l m)) (fun l => wsize spin l m * Cmod (at2 fl l (m + (L - 1))%Z))) by (intros l Hl; now rewrite FE).
      apply E. intros l Hl. specialize (HK t l (m + (L - 1))%Z Ht Hl ltac:(lia)). replace (m + (L - 1) - (L - 1))%Z with m in HK by lia. exact HK. }
    eexists. split; [reflexivity|].
    assert (LR : forall t, vlen (row ftm1 t) = per_ring s L) by (intros t; rewrite EP; exact (is_mat_dim1 _ _ _ _ M2)).
    split.
    { unfold map_rows. cbn [mat shape]. rewrite (is_mat_dim0 _ _ _ _ M2). f_equal. f_equal. apply (HF (ifftshift (row ftm1 0))). cbn [ifftshift vlen]. apply LR. }
    intros t p Ht Hp.
    (* the transform with the exact Fourier transform *)
    assert (FT : ftm_ok s L 0 (rings s L 0) false a ftm1).
    { eexists. split; [exact M2|]. intros t' Ht'. split.
      - intros Q. rewrite Q. reflexivity.
      - intros m Hm _. replace (mo_of s <=? m + L - 1 + mo_of s)%Z with true by lia.
        replace (m + L - 1 + mo_of s - mo_of s - (L - 1))%Z with m by lia. replace (phase_of s 0 t' m) with (RtoC 1) by (destruct s; try reflexivity; congruence).
        ring. }
    destruct (numpy_synthesis s L 0 None false a ftm1 x HL ltac:(intros Q; congruence) FT ltac:(discriminate) numpy) as (f0 & E0 & G0 & H0).
    assert (E0' : f0 = map_rows (fun r => ifft_fwd (ifftshift r)) ftm1).
    { revert E0. unfold pre_synthesis. rewrite is_hp_name. destruct s; try congruence; intros Q; injection Q as <-; reflexivity. }
    assert (IG : in_grid (agrid s L 0 x) t p).
    { split; [rewrite agrid_n; exact Ht|]. rewrite agrid_N. unfold ring_size. destruct s; try exact Hp; congruence. }
    specialize (H0 t p IG). rewrite agrid_e in H0. unfold sample_index in H0.
    assert (H0' : csum (zrange 0 (per_ring s L)) (fun k => vat (ifftshift (row ftm1 t)) k * cis (2 * PI * IZR k * IZR p / IZR (per_ring s L)))%C
      = csum (zrange (- (L - 1)) L) (fun m => a t m * cis (IZR m * longitude s L 0 t p))%C).
    { transitivity (get f0 [t; p]).
      - rewrite E0'. cbn [map_rows mat get nth]. cbn [ifft_fwd vat]. replace (vlen (ifftshift (row ftm1 t))) with (per_ring s L) by (symmetry; apply LR).
        apply cr_ext. intros k Hk'. f_equal. unfold root. rewrite mult_IZR. f_equal. f_equal. ring.
      - destruct s; try congruence; rewrite H0; unfold order_sum; apply cr_ext; intros m Hm; now rewrite agrid_ph. }
    destruct (HF (ifftshift (row ftm1 t)) (LR t)) as [_ HF']. specialize (HF' p Hp). rewrite H0' in HF'.
    rewrite (row_abs_sum (row ftm1 t) (per_ring s L) ltac:(lia) (LR t)) in HF'.
    assert (RS : rsum (zrange 0 (per_ring s L)) (fun k => Cmod (vat (row ftm1 t) k)) = rsum (zrange (- (L - 1)) L) (fun m => Cmod (a t m))).
    { rewrite EP. rewrite (rr_ext 0 (orders s L) (fun k => Cmod (vat (row ftm1 t) k))
        (fun k => Cmod (if (mo_of s <=? k)%Z then a t (k - mo_of s - (L - 1))%Z else RtoC 0)))
        by (intros k Hk'; f_equal; exact (proj2 M2 t k Ht Hk')).
      rewrite (rr_shrink 0 (orders s L) (mo_of s) (orders s L)).
      - rewrite <- (rr_perm (- (L - 1)) L (mo_of s) (orders s L) (fun m => m + (L - 1) + mo_of s)%Z) by lia.
        apply rr_ext. intros m Hm. replace (mo_of s <=? m + (L - 1) + mo_of s)%Z with true by lia. do 2 f_equal. lia.
      - lia.
      - lia.
      - lia.
      - intros k H1 H2. replace (mo_of s <=? k)%Z with false by lia. apply Cmod_0. }
    rewrite RS in HF'. clear RS.
    assert (L1 : 1 <= IZR L) by (apply IZR_le; lia).
    set (S := signal_size L spin c). set (kk := kap + 27 * u * IZR L) in *.
    assert (SE := signal_size_orders L spin c Hsp). fold S in SE.
    assert (D : rsum (zrange (- (L - 1)) L) (fun m => Cmod (a t m - exact_order L spin c (x t) m)%C) <= 2 * kk * S + 48 * (IZR L * IZR L) * eta).
    { eapply rs_sub_le; [intros m Hm; apply OE; lia|].
      rewrite (rr_ext _ _ _ (fun m => 2 * kk * rsum (zrange 0 L) (fun l => wsize spin l m * Cmod (c l m)) + 24 * IZR L * eta)) by (intros; ring).
      rewrite rs_plus, rs_scal_l, SE. apply Rplus_le_compat_l.
      rewrite (rr_shift (- (L - 1)) L (L - 1) (fun _ => 24 * IZR L * eta)). replace (- (L - 1) + (L - 1))%Z with 0%Z by lia.
      rewrite sum_const by lia. rewrite plus_IZR, minus_IZR. assert (0 <= IZR L * eta) by nra. nra. }
    assert (EX : rsum (zrange (- (L - 1)) L) (fun m => Cmod (exact_order L spin c (x t) m)) <= S).
    { rewrite <- SE. apply rr_le. intros m Hm. unfold exact_order. rewrite Cmod_mult, Cmod_R.
      replace (Rabs (sgn spin)) with 1.
      2:{ assert (Q := sgn_sq spin). symmetry. unfold Rabs. destruct (Rcase_abs (sgn spin)); nra. }
      rewrite Rmult_1_l. apply csum_le. intros l Hl. apply in_zrange in Hl. rewrite Cmod_mult, Cmod_R.
      apply Rmult_le_compat_r; [apply Cmod_ge_0|]. pose proof (wigner_le1 l m (- spin) (x t)) as W1.
      assert (E1 : 0 <= elfactor l) by apply sqrt_pos.
      destruct (Z_le_dec (Z.abs spin) l); [destruct (Z_le_dec (Z.abs m) l)|].
      - rewrite wsize_in by lia. rewrite Rabs_mult, (Rabs_right (elfactor l)) by lra. nra.
      - rewrite wigner_d_out by lia. rewrite Rmult_0_r, Rabs_R0. apply wsize_nonneg.
      - rewrite wigner_d_out by lia. rewrite Rmult_0_r, Rabs_R0. apply wsize_nonneg. }
    set (Dv := rsum (zrange (- (L - 1)) L) (fun m => Cmod (a t m - exact_order L spin c (x t) m)%C)) in *.
    assert (AS : rsum (zrange (- (L - 1)) L) (fun m => Cmod (a t m)) <= S + Dv).
    { eapply Rle_trans; [|apply Rplus_le_compat_r, EX]. unfold Dv. rewrite <- rs_plus. apply rr_le. intros m Hm.
      replace (a t m) with (exact_order L spin c (x t) m + (a t m - exact_order L spin c (x t) m))%C at 1 by ring. apply Cmod_triangle. }
    rewrite (synth_orders L spin c (x t) (longitude s L 0 t p) Hsp).
    replace (get (map_rows (fun r => f_ifft F (ifftshift r)) ftm1) [t; p]) with (vat (f_ifft F (ifftshift (row ftm1 t))) p) by reflexivity.
    set (v := vat (f_ifft F (ifftshift (row ftm1 t))) p) in *.
    set (sa := csum (zrange (- (L - 1)) L) (fun m => a t m * cis (IZR m * longitude s L 0 t p))%C) in *.
    set (se := csum (zrange (- (L - 1)) L) (fun m => exact_order L spin c (x t) m * cis (IZR m * longitude s L 0 t p))%C).
    assert (SD : Cmod (sa - se)%C <= Dv).
    { replace (sa - se)%C with (csum (zrange (- (L - 1)) L) (fun m => (a t m - exact_order L spin c (x t) m) * cis (IZR m * longitude s L 0 t p))%C).
      - unfold Dv. apply csum_le. intros m Hm. rewrite Cmod_mult, Cmod_cis. lra.
      - unfold sa, se. rewrite (cr_ext _ _ _ (fun m => a t m * cis (IZR m * longitude s L 0 t p) + (- RtoC 1) * (exact_order L spin c (x t) m * cis (IZR m * longitude s L 0 t p)))%C) by (intros; ring).
        rewrite cs_plus, cs_scal_l. ring. }
    replace (v - se)%C with ((v - sa) + (sa - se))%C by ring. eapply Rle_trans; [apply Cmod_triangle|].
    assert (Q1 : eps * rsum (zrange (- (L - 1)) L) (fun m => Cmod (a t m)) <= eps * (S + Dv)) by (now apply Rmult_le_compat_l).
    assert (Q2 : (1 + eps) * Dv <= (1 + eps) * (2 * kk * S + 48 * (IZR L * IZR L) * eta)) by (apply Rmult_le_compat_l; lra).
    lra.
  Qed.
End Float.
