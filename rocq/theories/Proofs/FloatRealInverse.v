(** The precomputed inverse transform with reality in rounded arithmetic. *)
From Coq Require Import Reals Lra Lia ZifyBool.
From Coquelicot Require Import Complex.
From Verif Require Import Lib.Py Lib.PyFacts Lib.Vec Lib.VecFacts Lib.Sums Lib.Cplx Lib.Arr Lib.ArrFacts Lib.MatFacts Model.Index Model.Samples Model.Grids Model.FFT
  Model.RisboFloat Model.Spherical Model.Precompute Model.PrecomputeFloat Model.RealFloat
  Spec.SamplesSpec Spec.WignerSpec Spec.SphereSpec Spec.GridSpec Spec.SphericalSpec Spec.RoundingSpec Spec.PrecomputeFloatSpec
  Proofs.WignerCalc Proofs.RisboProofs Proofs.TurokProofs Proofs.SamplesProofs Proofs.SphGrid Proofs.SphInverse Proofs.SphTop Proofs.PrecomputeKernel Proofs.PrecomputeSph Proofs.SpectralBound Proofs.FloatSums Proofs.FloatKernel Proofs.FloatInverse
  Proofs.FloatTop Proofs.CBackendBound Proofs.FloatReal.
Open Scope R_scope.

Lemma rfold_pairs (T : Z -> R) n : (0 <= n)%Z -> (forall m, (0 < m <= n)%Z -> T (- m)%Z = T m) ->
  rsum (zrange (- n) (n + 1)) T = T 0%Z + 2 * rsum (zrange 1 (n + 1)) T.
Proof.
  intros Hn H. rewrite (rr_split (- n) 0 (n + 1)) by lia. rewrite (rr_cons 0 (n + 1)) by lia. change (0 + 1)%Z with 1%Z.
  rewrite <- (rr_perm 1 (n + 1) (- n) 0 Z.opp T) by lia.
  rewrite (rr_ext 1 (n + 1) (fun x => T (- x)%Z) T) by (intros; apply H; lia). ring.
Qed.
Lemma Re_csum {X} (l : list X) f : Re (csum l f) = rsum l (fun x => Re (f x)).
Proof. exact (fst_csum l f). Qed.
Lemma Re_le z : Rabs (Re z) <= Cmod z.
Proof. exact (proj1 (part_le z)). Qed.

(** the exact transform of a real signal, by the orders that are not negative *)
Lemma order_flip L c x m : (0 < m < L)%Z -> exact_order L 0 (real_extension c) x (- m) = Cconj (exact_order L 0 c x m).
Proof.
  intros Hm. unfold exact_order. change (sgn 0) with 1. change (- 0)%Z with 0%Z. rewrite Cconj_mult, csum_conj. f_equal; [unfold Cconj, RtoC; cbn; f_equal; ring|].
  apply cr_ext. intros l Hl. unfold real_extension. replace (- m <? 0)%Z with true by lia. rewrite Z.opp_involutive, Cconj_mult.
  assert (D : wigner_d l (- m) 0 x = sgn m * wigner_d l m 0 x).
  { destruct (Z_le_gt_dec m l); [|rewrite !wig_out by lia; ring]. rewrite <- (Z.opp_0) at 1. rewrite wig_flip by lia. now rewrite Z.sub_0_r. }
  rewrite D. assert (S2 : sgn (- m) = sgn m) by (unfold sgn; now rewrite Z.even_opp). rewrite S2.
  replace (Cconj (RtoC (elfactor l * wigner_d l m 0 x))) with (RtoC (elfactor l * wigner_d l m 0 x)) by (unfold Cconj, RtoC; cbn; f_equal; ring).
  replace (elfactor l * (sgn m * wigner_d l m 0 x)) with (sgn m * (elfactor l * wigner_d l m 0 x)) by ring. rewrite RtoC_mult.
  assert (Q : (RtoC (sgn m) * RtoC (sgn m) = 1)%C) by (rewrite <- RtoC_mult; f_equal; unfold sgn; destruct (Z.even m); ring).
  transitivity (RtoC (sgn m) * RtoC (sgn m) * (RtoC (elfactor l * wigner_d l m 0 x) * Cconj (c l m)))%C; [ring|]. rewrite Q. ring.
Qed.
Lemma order_pos L c x m : (0 <= m)%Z -> exact_order L 0 (real_extension c) x m = exact_order L 0 c x m.
Proof. intros Hm. unfold exact_order. f_equal. apply cr_ext. intros l Hl. unfold real_extension. now replace (m <? 0)%Z with false by lia. Qed.
Lemma synth_half L c x phi : (1 <= L)%Z ->
  Re (synth L 0 (real_extension c) x phi) = Re (exact_order L 0 c x 0) + 2 * rsum (zrange 1 L) (fun m => Re (exact_order L 0 c x m * cis (IZR m * phi))%C).
Proof.
  intros HL. rewrite synth_orders by (cbn; lia).
  assert (F := fold_pairs (fun m => exact_order L 0 (real_extension c) x m * cis (IZR m * phi))%C (L - 1) ltac:(lia)).
  replace (L - 1 + 1)%Z with L in F by lia. rewrite F.
  - cbv beta. replace (IZR 0 * phi) with 0 by ring. rewrite cis_0. rewrite order_pos by lia. rewrite Cmult_1_r. unfold Re at 1. cbn [fst Cplus]. f_equal.
    change (fst ?z) with (Re z). rewrite Re_csum, <- rs_scal_l. apply rr_ext. intros m Hm. rewrite order_pos by lia. rewrite plus_conj. reflexivity.
  - intros m Hm. rewrite order_flip by lia. rewrite order_pos by lia. rewrite Cconj_mult, cis_conj. do 2 f_equal. rewrite opp_IZR. ring.
Qed.
Lemma wsize_opp s l m : wsize s l (- m) = wsize s l m.
Proof.
  destruct (Z_lt_ge_dec l (Z.abs s)); [rewrite !wsize_out by lia; reflexivity|]. destruct (Z_lt_ge_dec l (Z.abs m)); [rewrite !wsize_out by lia; reflexivity|].
  rewrite !wsize_in by lia. reflexivity.
Qed.
Lemma size_half L c : (1 <= L)%Z -> let S := fun m => rsum (zrange 0 L) (fun l => wsize 0 l m * Cmod (c l m)) in
  signal_size L 0 (real_extension c) = S 0%Z + 2 * rsum (zrange 1 L) S.
Proof.
  intros HL S. rewrite <- signal_size_orders by (cbn; lia).
  assert (F := rfold_pairs (fun m => rsum (zrange 0 L) (fun l => wsize 0 l m * Cmod (real_extension c l m))) (L - 1) ltac:(lia)).
  replace (L - 1 + 1)%Z with L in F by lia.
  assert (P : forall m, (0 <= m)%Z -> rsum (zrange 0 L) (fun l => wsize 0 l m * Cmod (real_extension c l m)) = S m).
  { intros m Hm. apply rr_ext. intros l Hl. unfold real_extension. now replace (m <? 0)%Z with false by lia. }
  rewrite F.
  - cbv beta. rewrite P by lia. do 2 f_equal. apply rr_ext. intros m Hm. apply P. lia.
  - intros m Hm. apply rr_ext. intros l Hl. rewrite wsize_opp. f_equal. unfold real_extension. replace (- m <? 0)%Z with true by lia. replace (m <? 0)%Z with false by lia.
    rewrite Z.opp_involutive, Cmod_mult, Cmod_R. replace (Rabs (sgn (- m))) with 1; [|unfold sgn; destruct (Z.even _); unfold Rabs; destruct (Rcase_abs _); lra].
    rewrite Rmult_1_l. unfold Cmod, Cconj. cbn [fst snd]. f_equal. ring.
Qed.

Section Float.
  Variables (A : arith) (u eta : R).
  Hypothesis HA : rounded A u eta.
  Hypothesis HZ : zeros_exact A.
  Let u0 : 0 <= u := rd_u _ _ _ HA.
  Let e0 : 0 <= eta := rd_eta _ _ _ HA.

  Lemma real_inverse_near s F o flm K Kr L x kap eps : u <= / 1000 -> s <> HEALPIX -> (1 <= L)%Z -> shape flm = [L; 2 * L - 1]%Z ->
    sums_all o L -> 0 <= kap <= 2 -> 6 * u * IZR L <= 1 -> 0 <= eps -> irfft_accurate (f_irfft F) L (per_ring s L) eps ->
    kernel_near K (rings s L 0) L 0 x kap -> half_of K Kr (rings s L 0) L ->
    exists f, pr_inverse A F o flm Kr L (scheme_name s) 0 = Ok f /\ shape f = [rings s L 0; per_ring s L]%Z /\
      forall t p, (0 <= t < rings s L 0)%Z -> (0 <= p < per_ring s L)%Z ->
        Rabs (get f [t; p] - Re (synth L 0 (real_extension (stored L flm)) (x t) (longitude s L 0 t p))) <=
        (eps + (1 + eps) * (2 * (kap + 27 * u * IZR L))) * signal_size L 0 (real_extension (stored L flm)) + (1 + eps) * (48 * (IZR L * IZR L) * eta).
  Proof.
    intros Hu Hs HL Hf Ho Hk HuL Heps HF [KS HK] (_ & KSr & HKr).
    assert (RN : (0 < rings s L 0)%Z) by (destruct s; cbn [rings]; try lia; congruence).
    assert (M01 : mo_of s = 0%Z \/ mo_of s = 1%Z) by (destruct s; cbn [mo_of]; lia).
    assert (EO : orders s L = (2 * L - 1 + mo_of s)%Z) by (destruct s; cbn [orders mo_of]; lia).
    unfold pr_inverse. rewrite m_offset_name. assert (DN : denotes (scheme_name s) s) by (now destruct s).
    rewrite (ftm_shape_ok _ s L 0 None DN) by (intros Q; congruence). cbn [bind].
    assert (MF := is_mat_self flm L (2 * L - 1) Hf).
    assert (M1 := MatFacts.slice2_ok _ _ _ _ 0 L (L - 1) (2 * L - 1) MF ltac:(lia) ltac:(lia) ltac:(lia) ltac:(lia) ltac:(lia) ltac:(lia)).
    rewrite (is_mat_dim0 _ _ _ _ MF), (is_mat_dim1 _ _ _ _ MF).
    set (fl := slice2 flm 0 L (L - 1) (2 * L - 1)) in *.
    unfold pf_einsum. rewrite (is_mat_dim0 _ _ _ _ M1), (is_mat_dim1 _ _ _ _ M1).
    assert (D0 : dim0 Kr = rings s L 0) by (unfold dim0; now rewrite KSr). assert (D1 : dim1 Kr = L) by (unfold dim1; now rewrite KSr).
    assert (D2 : dim2 Kr = L) by (unfold dim2; now rewrite KSr). rewrite D0, D1, D2. replace ((L =? L - 0) && (L =? 2 * L - 1 - (L - 1)))%Z with true by lia. cbn [bind].
    set (h := fun t i => cf_sum A o (fun l => cf_mul A (RtoC (at3 Kr t l i)) (at2 fl l i))).
    assert (MZ : is_mat (zeros (RtoC 0) [rings s L 0; orders s L]%Z) (rings s L 0) (orders s L) (fun _ _ => RtoC 0)) by (split; reflexivity).
    rewrite (is_mat_dim0 _ _ _ _ MZ), (is_mat_dim1 _ _ _ _ MZ).
    assert (ME : is_mat (mat (rings s L 0) L h) (rings s L 0 - 0) (orders s L - (L - 1 + mo_of s)) h).
    { replace (rings s L 0 - 0)%Z with (rings s L 0) by lia. replace (orders s L - (L - 1 + mo_of s))%Z with L by lia. apply is_mat_mat. }
    destruct (PrecomputeSph.slice2_set_ok _ _ _ _ _ _ 0 (rings s L 0) (L - 1 + mo_of s) (orders s L) MZ ME ltac:(lia) ltac:(lia) ltac:(lia) ltac:(lia) ltac:(lia) ltac:(lia))
      as (ftm & -> & Hftm). cbn [bind].
    rewrite (nphi_spec _ s L DN Hs). cbn [bind].
    set (a := fun t m => cf_mul A (h t m) (RtoC (sgn 0))).
    assert (M2 := mscal_ok (fun z => cf_mul A z (RtoC (m1 0))) _ _ _ _ Hftm).
    set (ftm1 := mscal (fun z => cf_mul A z (RtoC (m1 0))) ftm) in *. clearbody ftm1.
    rewrite (is_mat_dim0 _ _ _ _ M2), (is_mat_dim1 _ _ _ _ M2).
    assert (M3 := MatFacts.slice2_ok _ _ _ _ 0 (rings s L 0) (L - 1 + mo_of s) (orders s L) M2 ltac:(lia) ltac:(lia) ltac:(lia) ltac:(lia) ltac:(lia) ltac:(lia)).
    set (hh := slice2 ftm1 0 (rings s L 0) (L - 1 + mo_of s) (orders s L)) in *. clearbody hh.
    replace (rings s L 0 - 0)%Z with (rings s L 0) in M3 by lia. replace (orders s L - (L - 1 + mo_of s))%Z with L in M3 by lia.
    rewrite (is_mat_dim0 _ _ _ _ M3).
    assert (RW : forall t m, (0 <= t < rings s L 0)%Z -> (0 <= m < L)%Z -> vat (row hh t) m = a t m).
    { intros t m Ht Hm. change (vat (row hh t) m) with (at2 hh t m). rewrite (proj2 M3) by lia. cbv beta.
      match goal with |- context [if ?b then _ else _] => replace b with true by lia end. unfold a. do 2 f_equal; lia. }
    set (c := stored L flm).
    assert (OE : forall t m, (0 <= t < rings s L 0)%Z -> (0 <= m < L)%Z ->
      Cmod (a t m - exact_order L 0 c (x t) m)%C <= 2 * ((kap + 27 * u * IZR L) * rsum (zrange 0 L) (fun l => wsize 0 l m * Cmod (c l m)) + 12 * IZR L * eta)).
    { intros t m Ht Hm. unfold a, exact_order, h. set (kc := fun l => at3 Kr t l m).
      assert (E := order_err A u eta HA HZ Hu L o 0 m (x t) kc kap (fun l => at2 fl l m) HL Ho Hk HuL).
      assert (FE : forall l, (0 <= l < L)%Z -> at2 fl l m = c l m).
      { intros l Hl. rewrite (proj2 M1) by lia. unfold at2, c, stored. do 2 f_equal. f_equal. lia. }
      rewrite (cr_ext 0 L (fun l => RtoC (elfactor l * wigner_d l m (- 0) (x t)) * c l m)%C
                 (fun l => RtoC (elfactor l * wigner_d l m (- 0) (x t)) * at2 fl l m)%C) by (intros l Hl; now rewrite FE).
      rewrite (rr_ext 0 L (fun l => wsize 0 l m * Cmod (c l m)) (fun l => wsize 0 l m * Cmod (at2 fl l m))) by (intros l Hl; now rewrite FE).
      apply E. intros l Hl. unfold kc. rewrite HKr by lia. specialize (HK t l (L - 1 + m)%Z Ht Hl ltac:(lia)). replace (L - 1 + m - (L - 1))%Z with m in HK by lia. exact HK. }
    eexists. split; [reflexivity|]. split; [reflexivity|]. intros t p Ht Hp. cbn [mat get nth].
    assert (LR : vlen (row hh t) = L) by exact (is_mat_dim1 _ _ _ _ M3).
    specialize (HF (row hh t) LR p Hp). rewrite RW in HF by lia.
    rewrite (rr_ext 1 L (fun k => Re (vat (row hh t) k * cis (2 * PI * IZR k * IZR p / IZR (per_ring s L)))%C)
      (fun m => Re (a t m * cis (IZR m * longitude s L 0 t p))%C)) in HF.
    2:{ intros m Hm. rewrite RW by lia. do 2 f_equal. f_equal. replace (longitude s L 0 t p) with (equi_longitude s L p) by (destruct s; try reflexivity; congruence). unfold equi_longitude, Rdiv. ring. }
    rewrite (rr_ext 1 L (fun k => Cmod (vat (row hh t) k)) (fun m => Cmod (a t m))) in HF by (intros m Hm; rewrite RW by lia; reflexivity).
    set (ph := longitude s L 0 t p) in *. rewrite synth_half by exact HL. rewrite size_half by exact HL. cbv zeta.
    set (Sm := fun m => rsum (zrange 0 L) (fun l => wsize 0 l m * Cmod (c l m))). set (kk := kap + 27 * u * IZR L) in *.
    set (e := fun m => exact_order L 0 c (x t) m) in *.
    assert (L1 : 1 <= IZR L) by (apply IZR_le; lia).
    assert (EB : forall m, Cmod (e m) <= Sm m).
    { intros m. unfold e, exact_order. rewrite Cmod_mult, Cmod_R. change (sgn 0) with 1. rewrite Rabs_R1, Rmult_1_l. apply csum_le. intros l Hl. rewrite Cmod_mult, Cmod_R. apply Rmult_le_compat_r; [apply Cmod_ge_0|]. apply kernel_size. }
    assert (AB : forall m, (0 <= m < L)%Z -> Cmod (a t m) <= Sm m + (2 * kk * Sm m + 24 * IZR L * eta)).
    { intros m Hm. specialize (OE t m Ht Hm). fold (Sm m) in OE. replace (a t m) with (e m + (a t m - e m))%C by ring. eapply Rle_trans; [apply Cmod_triangle|].
      apply Rplus_le_compat; [apply EB|]. unfold e. lra. }
    assert (DB : forall m, (0 <= m < L)%Z -> Cmod (a t m - e m)%C <= 2 * kk * Sm m + 24 * IZR L * eta).
    { intros m Hm. specialize (OE t m Ht Hm). fold (Sm m) in OE. unfold e. lra. }
    assert (CN : rsum (zrange 1 L) (fun _ => 24 * IZR L * eta) = (IZR L - 1) * (24 * IZR L * eta)).
    { rewrite (rr_shift 1 L (-1) (fun _ => 24 * IZR L * eta)). change (1 + -1)%Z with 0%Z. rewrite sum_const by lia. rewrite plus_IZR. ring. }
    set (RS := rsum (zrange 1 L) Sm) in *.
    assert (SA : rsum (zrange 1 L) (fun m => Cmod (a t m)) <= RS + 2 * kk * RS + (IZR L - 1) * (24 * IZR L * eta)).
    { eapply Rle_trans; [apply rr_le; intros m Hm; apply AB; lia|]. rewrite !rs_plus, rs_scal_l, CN. fold RS. lra. }
    assert (SD : Rabs (rsum (zrange 1 L) (fun m => Re (a t m * cis (IZR m * ph))%C) - rsum (zrange 1 L) (fun m => Re (e m * cis (IZR m * ph))%C)) <= 2 * kk * RS + (IZR L - 1) * (24 * IZR L * eta)).
    { rewrite <- rs_minus. eapply Rle_trans; [apply rs_abs|].
      eapply Rle_trans; [apply rr_le; intros m Hm|].
      - replace (Re (a t m * cis (IZR m * ph))%C - Re (e m * cis (IZR m * ph))%C) with (Re ((a t m - e m) * cis (IZR m * ph))%C) by (cbn; ring).
        eapply Rle_trans; [apply Re_le|]. rewrite Cmod_mult, Cmod_cis, Rmult_1_r. apply DB. lia.
      - rewrite rs_plus, rs_scal_l, CN. fold RS. lra. }
    assert (S0D : Rabs (Re (a t 0%Z) - Re (e 0%Z)) <= 2 * kk * Sm 0%Z + 24 * IZR L * eta).
    { replace (Re (a t 0%Z) - Re (e 0%Z)) with (Re (a t 0%Z - e 0%Z)%C) by (cbn; ring). eapply Rle_trans; [apply Re_le|]. apply DB. lia. }
    assert (A0 := AB 0%Z ltac:(lia)).
    assert (LE : 0 <= IZR L * eta <= IZR L * IZR L * eta) by (split; [|apply Rmult_le_compat_r]; nra).
    set (S := Sm 0%Z + 2 * RS).
    set (ra := rsum (zrange 1 L) (fun m => Re (a t m * cis (IZR m * ph))%C)) in *. set (re := rsum (zrange 1 L) (fun m => Re (e m * cis (IZR m * ph))%C)) in *.
    change (exact_order L 0 c (x t) 0) with (e 0%Z). change (rsum (zrange 1 L) (fun m => Re (exact_order L 0 c (x t) m * cis (IZR m * ph))%C)) with re.
    set (sa := rsum (zrange 1 L) (fun m => Cmod (a t m))) in *.
    assert (TA : Cmod (a t 0%Z) + 2 * sa <= S + 2 * kk * S + 48 * (IZR L * IZR L) * eta) by (unfold S; lra).
    apply (Rmult_le_compat_l eps) in TA; [|exact Heps].
    match goal with |- Rabs (?v - _) <= _ => set (fv := v) in * end.
    replace (fv - (Re (e 0%Z) + 2 * re)) with ((fv - (Re (a t 0%Z) + 2 * ra)) + ((Re (a t 0%Z) - Re (e 0%Z)) + 2 * (ra - re))) by ring.
    eapply Rle_trans; [apply Rabs_triang|]. eapply Rle_trans; [apply Rplus_le_compat_l, Rabs_triang|]. rewrite (Rabs_mult 2), (Rabs_pos_eq 2) by lra.
    fold (kk). fold S. unfold S in *. change (suml 0 Rplus (zrange 0 L) (fun l : Z => wsize 0 l 0 * Cmod (c l 0%Z))) with (Sm 0%Z). lra.
  Qed.

  Variables (F : ffts) (L : Z) (eps : R).
  Hypothesis HL : (1 <= L)%Z.
  Hypothesis HB : 2000 * u * (IZR L * (2 * IZR L + 3)) <= 1.
  Hypothesis HE : 4 * IZR L * eta <= u.
  Hypothesis Heps : 0 <= eps <= / 20.
  Lemma real_inverse_top s nodes o flm K Kr x delta : s <> HEALPIX -> shape flm = [L; 2 * L - 1]%Z -> sums_all o L -> 0 <= delta ->
    irfft_accurate (f_irfft F) L (per_ring s L) eps -> kernel_near K (rings s L 0) L 0 x (kap u L eps) -> half_of K Kr (rings s L 0) L ->
    (forall t y, (0 <= t < rings s L 0)%Z -> colatitude nodes s L 0 t y -> Rabs (x t - y) <= delta) ->
    exists f, pr_inverse A F o flm Kr L (scheme_name s) 0 = Ok f /\ shape f = [rings s L 0; per_ring s L]%Z /\
      forall t p y, (0 <= t < rings s L 0)%Z -> (0 <= p < per_ring s L)%Z -> colatitude nodes s L 0 t y ->
        Rabs (get f [t; p] - Re (synth L 0 (real_extension (stored L flm)) y (longitude s L 0 t p))) <=
        (2120 * u * (IZR L * (2 * IZR L + 3)) + 20 * eps + IZR L * delta) * signal_size L 0 (real_extension (stored L flm)) + 51 * (IZR L * IZR L) * eta.
  Proof.
    intros Hh Hf Ho Hd HF HK HK2 Hx. destruct (small A u eta HA L 0%Z eps HL HB HE Heps) as (S1 & S2 & S3 & S4 & L1 & S5).
    assert (KP : 0 <= kap u L eps <= 2).
    { unfold kap. assert (0 <= u * (IZR L * (2 * IZR L + 3))) by (apply Rmult_le_pos; [lra|]; nra). lra. }
    destruct (real_inverse_near s F o flm K Kr L x (kap u L eps) eps S1 Hh HL Hf Ho KP ltac:(lra) ltac:(lra) HF HK HK2) as (f & E & Sh & H).
    exists f. split; [exact E|]. split; [exact Sh|]. intros t p y Ht Hp C. specialize (H t p Ht Hp). specialize (Hx t y Ht C).
    set (c := real_extension (stored L flm)) in *. set (ph := longitude s L 0 t p) in *. pose proof (synth_lip L 0 c (x t) y ph HL ltac:(cbn; lia)) as W.
    pose proof (signal_size_nonneg L 0 c) as SN. set (SS := signal_size L 0 c) in *.
    replace (get f [t; p] - Re (synth L 0 c y ph)) with ((get f [t; p] - Re (synth L 0 c (x t) ph)) + Re (synth L 0 c (x t) ph - synth L 0 c y ph)%C) by (unfold Re; cbn [fst Cminus Cplus Copp]; ring).
    eapply Rle_trans; [apply Rabs_triang|]. pose proof (Re_le (synth L 0 c (x t) ph - synth L 0 c y ph)%C) as W3.
    assert (W2 : IZR L * Rabs (x t - y) * SS <= IZR L * delta * SS) by (apply Rmult_le_compat_r; [lra|]; apply Rmult_le_compat_l; lra).
    set (X := u * (IZR L * (2 * IZR L + 3))) in *. assert (X1 : u * IZR L * 5 <= X) by (unfold X; rewrite Rmult_assoc; apply Rmult_le_compat_l; nra).
    assert (X0 : 0 <= u * IZR L) by (apply Rmult_le_pos; lra).
    assert (G : eps + (1 + eps) * (2 * (kap u L eps + 27 * u * IZR L)) <= 2120 * X + 20 * eps).
    { replace (kap u L eps) with (1000 * X + 9 * eps) by (unfold kap, X; ring).
      assert (Q : (1 + eps) * (2 * (1000 * X + 9 * eps + 27 * u * IZR L)) <= (21 / 20) * (2 * (1000 * X + 9 * eps + 27 * u * IZR L))) by (apply Rmult_le_compat_r; lra). lra. }
    apply (Rmult_le_compat_r SS) in G; [|lra].
    assert (E2 : 0 <= IZR L * IZR L * eta) by (apply Rmult_le_pos; [|lra]; nra).
    assert (Q : (1 + eps) * (48 * (IZR L * IZR L) * eta) <= (21 / 20) * (48 * (IZR L * IZR L) * eta)) by (apply Rmult_le_compat_r; lra).
    replace (2120 * u * (IZR L * (2 * IZR L + 3))) with (2120 * X) by (unfold X; ring). lra.
  Qed.
End Float.
