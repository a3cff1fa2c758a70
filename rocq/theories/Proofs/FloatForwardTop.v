(** The precomputed forward transform in rounded arithmetic, from the colatitudes to the coefficients. *)
From Coq Require Import Reals Lra Lia ZifyBool.
From Coquelicot Require Import Coquelicot.
From Verif Require Import Proofs.GaussBounds Lib.Py Lib.PyFacts Lib.Vec Lib.VecFacts Lib.Sums Lib.Cplx Lib.Arr Lib.ArrFacts Lib.MatFacts Model.Index Model.Samples Model.Grids Model.FFT Model.Quadrature Model.Resampling Model.Risbo
  Model.RisboFloat Model.Spherical Model.Precompute Model.PrecomputeFloat Model.ForwardFloat
  Spec.SamplesSpec Spec.WignerSpec Spec.SphereSpec Spec.GridSpec Spec.QuadSpec Spec.SphericalSpec Spec.RoundingSpec Spec.PrecomputeFloatSpec Spec.ForwardFloatSpec
  Proofs.QuadProofs Proofs.RisboProofs Proofs.SphGrid Proofs.SphForwardTop Proofs.SphFacts Proofs.SpectralBound Proofs.FloatKernel Proofs.FloatInverse Proofs.FloatFourier Proofs.FloatTop Proofs.FloatWeights Proofs.FloatForward Proofs.CBackendBound.
Open Scope R_scope.

Lemma dh_points L : kernel_nsamps "dh" (2 * L) = (4 * L)%Z.
Proof.
  unfold kernel_nsamps. repeat match goal with |- context [streq ?a ?b] => let v := eval compute in (streq a b) in change (streq a b) with v end. cbv iota. lia.
Qed.

(** ** The quadrature itself *)
Lemma Cmod_Cconj z : Cmod (Cconj z) = Cmod z.
Proof. unfold Cmod, Cconj. cbn [fst snd]. f_equal. ring. Qed.
Lemma harmonic_size spin l m x phi : Cmod (Cconj (sYlm spin l m x phi)) <= wsize spin l m.
Proof.
  rewrite Cmod_Cconj. unfold sYlm. rewrite Cmod_mult, Cmod_cis, Rmult_1_r, Cmod_R. rewrite Rmult_assoc, Rabs_mult.
  fold (elfactor l). eapply Rle_trans; [|exact (kernel_size l m spin x)]. right.
  assert (Q := sgn_sq spin). assert (Rabs (sgn spin) = 1) as -> by (unfold Rabs; destruct (Rcase_abs (sgn spin)); nra). ring.
Qed.
Lemma quad_diff T n w V y spin l m f g d : (0 <= n)%Z -> (forall t, (0 <= t < T)%Z -> Rabs (w t) <= V t) ->
  (forall t p, (0 <= t < T)%Z -> (0 <= p < n)%Z -> Cmod (get f [t; p] - g t p)%C <= d) ->
  Cmod (quadrature_of T n w y spin l m f - quadrature_of T n w y spin l m (mat T n g))%C <= wsize spin l m * (rsum (zrange 0 T) V * IZR n) * d.
Proof.
  intros Hn HV H. unfold quadrature_of. rewrite <- cs_minus.
  replace (wsize spin l m * (rsum (zrange 0 T) V * IZR n) * d) with (rsum (zrange 0 T) (fun t => V t * (wsize spin l m * IZR n * d))).
  2:{ rewrite rs_scal_r. ring. }
  apply csum_le. intros t Ht. apply in_zrange in Ht. rewrite <- cs_minus.
  replace (V t * (wsize spin l m * IZR n * d)) with (rsum (zrange 0 n) (fun _ => V t * d * wsize spin l m)).
  2:{ rewrite sum_const by exact Hn. ring. }
  apply csum_le. intros p Hp. apply in_zrange in Hp. specialize (H t p Ht Hp). unfold mat. cbn [get nth].
  set (h := Cconj _). assert (HS : Cmod h <= wsize spin l m) by apply harmonic_size.
  replace (RtoC (w t) * get f [t; p] * h - RtoC (w t) * g t p * h)%C with (RtoC (w t) * (get f [t; p] - g t p) * h)%C by ring.
  rewrite !Cmod_mult, Cmod_R. apply Rmult_le_compat; try apply Cmod_ge_0; [| |exact HS].
  - apply Rmult_le_pos; [apply Rabs_pos|apply Cmod_ge_0].
  - apply Rmult_le_compat; [apply Rabs_pos|apply Cmod_ge_0|now apply HV|exact H].
Qed.
Lemma quadrature_exact L T w th spin c l m : (1 <= L)%Z -> (0 <= l < L)%Z -> (- L < m < L)%Z -> (Z.abs spin <= l)%Z -> (Z.abs m <= l)%Z ->
  (forall k, (- (2 * L) < k < 2 * L)%Z -> rsum (zrange 0 T) (fun t => IZR (2 * L - 1) * w t * cos (IZR k * th t)) = 2 * PI * Re (mw_weights k)) ->
  quadrature_of T (2 * L - 1) w th spin l m (mat T (2 * L - 1) (fun t p => synth L spin c (th t) (2 * PI * IZR p / IZR (2 * L - 1)))) = c l m.
Proof.
  intros HL Hl Hm H1 H2 HQ. assert (E := fsum_round DH L spin 0 T th (mkVec T w) (fun t p => synth L spin c (th t) (equi_longitude DH L p)) c HL ltac:(discriminate) ltac:(lia)
    ltac:(intros; reflexivity) HQ l m Hl Hm). unfold restricted in E.
  replace (Z.max 0 (Z.abs spin) <=? l)%Z with true in E by lia. replace (Z.abs m <=? l)%Z with true in E by lia. cbn [andb] in E. rewrite <- E.
  rewrite quadrature_rings. unfold fsum. cbn [equi_grid gn gN gth gph per_ring vat]. rewrite <- cs_scal_l. apply cr_ext. intros t Ht.
  unfold ring_dft. rewrite !RtoC_mult. rewrite (cr_ext 0 (2 * L - 1) (fun p => cis _ * _)%C
    (fun p => (synth L spin c (th t) (2 * PI * IZR p / IZR (2 * L - 1)) * cis (- (IZR m * (2 * PI * IZR p / IZR (2 * L - 1)))))%C)).
  - unfold mat. cbn [get nth]. ring.
  - intros p Hp. unfold equi_longitude. cbn [per_ring]. ring.
Qed.
Lemma synth_size L s c x phi : Cmod (synth L s c x phi) <= signal_size L s c.
Proof.
  unfold synth, signal_size. apply csum_le. intros l Hl. apply csum_le. intros m Hm. rewrite Cmod_mult, Rmult_comm. apply Rmult_le_compat_r; [apply Cmod_ge_0|].
  pose proof (harmonic_size s l m x phi) as H. rewrite Cmod_Cconj in H. eapply Rle_trans; [exact H|]. unfold wsize. destruct (adm_b s l m); [apply Rle_refl|apply sqrt_pos].
Qed.
Lemma weighted_le T n V f B : (0 <= n)%Z -> (forall t, (0 <= t < T)%Z -> 0 <= V t) ->
  (forall t p, (0 <= t < T)%Z -> (0 <= p < n)%Z -> Cmod (get f [t; p]) <= B) -> weighted_size T n V f <= rsum (zrange 0 T) V * IZR n * B.
Proof.
  intros Hn HV H. unfold weighted_size. replace (rsum (zrange 0 T) V * IZR n * B) with (rsum (zrange 0 T) (fun t => V t * (IZR n * B))) by (rewrite rs_scal_r; ring).
  apply rr_le. intros t Ht. apply Rmult_le_compat_l; [now apply HV|].
  replace (IZR n * B) with (rsum (zrange 0 n) (fun _ => B)) by (rewrite sum_const by exact Hn; ring). apply rr_le. intros p Hp. now apply H.
Qed.

Lemma exact_fft n eps : 0 <= eps -> fft_accurate fft_bwd n eps.
Proof.
  intros He v Hv. unfold fft_bwd. cbn [vlen vat]. split; [exact Hv|]. intros p Hp. rewrite Hv.
  match goal with |- Cmod ?z <= _ => replace z with (RtoC 0) end.
  - rewrite Cmod_0. apply Rmult_le_pos; [exact He|]. apply rs_nonneg. intros. apply Cmod_ge_0.
  - symmetry. match goal with |- (?a - ?b)%C = _ => replace a with b; [ring|] end. apply cr_ext. intros k Hk. unfold root. rewrite opp_IZR, mult_IZR. do 2 f_equal. unfold Rdiv. ring.
Qed.

Section Float.
  Variables (A : arith) (u eta : R).
  Hypothesis HA : rounded A u eta.
  Hypothesis HZ : zeros_exact A.
  Let u0 : 0 <= u := rd_u _ _ _ HA.
  Let e0 : 0 <= eta := rd_eta _ _ _ HA.
  Variables (F : ffts) (L spin : Z) (eps : R).
  Hypothesis HL : (1 <= L)%Z.
  Hypothesis Hs : (Z.abs spin < L)%Z.
  Hypothesis HB : 2000 * u * (IZR L * (2 * IZR L + 3)) <= 1.
  Hypothesis HE : 4 * (IZR L * IZR L) * eta <= u.
  Hypothesis Heps : 0 <= eps <= / 20.
  Let N := IZR L * (2 * IZR L + 3).

  Lemma ff_bounds : 1 <= IZR L /\ 0 <= u * N /\ 5 * (u * IZR L) <= u * N /\ 2 * (u * (IZR L * IZR L)) <= u * N /\ u <= u * IZR L /\ 2000 * (u * N) <= 1 /\ u <= / 1000 /\ 4 * IZR L * eta <= u /\ 0 <= u * (IZR L * IZR L).
  Proof.
    assert (L1 : 1 <= IZR L) by (apply IZR_le; lia).
    assert (N5 : 5 * IZR L <= N) by (unfold N; nra). assert (N2 : 2 * (IZR L * IZR L) <= N) by (unfold N; nra).
    assert (A1 : u * (5 * IZR L) <= u * N) by (now apply Rmult_le_compat_l). assert (A2 : u * (2 * (IZR L * IZR L)) <= u * N) by (now apply Rmult_le_compat_l).
    assert (A3 : u * 1 <= u * IZR L) by (now apply Rmult_le_compat_l). assert (A4 : IZR L * eta <= IZR L * IZR L * eta) by (apply Rmult_le_compat_r; nra).
    fold N in HB. assert (2000 * (u * N) <= 1) by lra. assert (0 <= u * (IZR L * IZR L)) by (apply Rmult_le_pos; nra). repeat split; lra.
  Qed.

  (** *** Driscoll-Healy rings *)
  Lemma dh_weights_near ths : vlen ths = (2 * L)%Z -> (forall t, (0 <= t < 2 * L)%Z -> Rabs (vat ths t - dh_theta L t) <= 13 * u) ->
    vlen (ff_weights_dh A ths L) = (2 * L)%Z /\ forall t, (0 <= t < 2 * L)%Z ->
      Rabs (dh_weight L (dh_theta L t)) <= dh_share L /\
      Rabs (vat (ff_weights_dh A ths L) t - dh_weight L (dh_theta L t)) <= 81 * (u * (IZR L * IZR L)) * dh_share L /\ eta <= u * dh_share L.
  Proof.
    intros Hl Ht. split; [exact Hl|]. intros t H. assert (W := dh_weight_size L (dh_theta L t) HL).
    split; [rewrite Rabs_right by lra; lra|].
    unfold ff_weights_dh. cbn [vmap vat]. apply (dh_weight_err A u eta HA L HL HB HE _ _ (Ht t H)).
    unfold dh_theta. assert (P := PI_4). assert (P0 := PI_RGT_0).
    assert (0 < IZR (4 * L)) by (apply IZR_lt; lia). assert (0 <= IZR (2 * t + 1) <= IZR (4 * L)) by (split; apply IZR_le; lia).
    assert (0 <= / IZR (4 * L)) by (left; now apply Rinv_0_lt_compat). assert (IZR (4 * L) * / IZR (4 * L) = 1) by (apply Rinv_r; lra).
    assert (Q : 0 <= IZR (2 * t + 1) * / IZR (4 * L) <= 1) by (split; [apply Rmult_le_pos; lra|rewrite <- H3; apply Rmult_le_compat_r; lra]).
    match goal with |- Rabs ?z <= 4 => replace z with (IZR (2 * t + 1) * / IZR (4 * L) * PI) by (unfold Rdiv; ring) end.
    rewrite Rabs_right; nra.
  Qed.

  Lemma dh_kernel gl wgl : irfft_accurate (f_irfft F) L (4 * L) eps -> ipow_accurate (f_ipow F) (2 * L) eps ->
    exists ths KW, pf_thetas A "dh" L gl = Ok ths /\ vlen ths = (2 * L)%Z /\ (forall t, (0 <= t < 2 * L)%Z -> Rabs (vat ths t - dh_theta L t) <= 13 * u) /\
      ff_kernel A F "dh" ths wgl L spin = Ok KW /\
      weighted_near KW (2 * L) L spin (dh_theta L) (fun t => dh_weight L (dh_theta L t)) (fun _ => dh_share L) (1086 * (u * N) + 9 * eps).
  Proof.
    intros HF HI. destruct ff_bounds as (L1 & UN & U5 & U2 & U1 & UB & Hu & HE' & U3).
    destruct (equi_kernel A u eta HA HZ F L spin eps HL Hs HB HE' Heps DH (fun _ => 0) gl) as (ths & K & x & E1 & El & E3 & E4 & H); auto.
    { cbn [rings scheme_name]. now rewrite dh_points. }
    cbn [rings scheme_name] in *.
    assert (H2 := kernel_move K (2 * L) L spin x (dh_theta L) _ (13 * u) H HL ltac:(lra) (fun t Ht => proj2 (E3 t _ Ht eq_refl))).
    assert (Ht : forall t, (0 <= t < 2 * L)%Z -> Rabs (vat ths t - dh_theta L t) <= 13 * u) by (intros t Ht; exact (proj1 (E3 t _ Ht eq_refl))).
    destruct (dh_weights_near ths El Ht) as [Wl W].
    destruct (weigh_near A u eta HA HZ K (2 * L) L spin (dh_theta L) _ (ff_weights_dh A ths L) (fun t => dh_weight L (dh_theta L t)) (fun _ => dh_share L)
      (81 * (u * (IZR L * IZR L))) H2 Wl) as (KW & EW & HW).
    - unfold kap. fold N. split; lra.
    - split; lra.
    - exact W.
    - exists ths, KW. split; [exact E1|]. split; [exact El|]. split; [exact Ht|]. split.
      + unfold ff_kernel. rewrite E4. cbn [bind]. unfold ff_weights. change (streq (lower "dh") "dh") with true. cbn [bind]. exact EW.
      + destruct HW as [KS HW]. split; [exact KS|]. intros t l i Ht' Hl Hi. eapply Rle_trans; [exact (HW t l i Ht' Hl Hi)|].
        apply Rmult_le_compat_r.
        * apply Rmult_le_pos; [apply wsize_nonneg|]. destruct (dh_weight_size L 0 HL). lra.
        * unfold kap. fold N. lra.
  Qed.

  Lemma dh_total : rsum (zrange 0 (2 * L)) (fun _ => dh_share L) * IZR (2 * L - 1) = 8 * PI.
  Proof.
    rewrite sum_const by lia. unfold dh_share. rewrite mult_IZR. field. split; apply (IZR_neq _ 0); lia.
  Qed.

  Lemma dh_forward fft o f gl wgl : irfft_accurate (f_irfft F) L (4 * L) eps -> ipow_accurate (f_ipow F) (2 * L) eps ->
    fft_accurate fft (2 * L - 1) eps -> sums_all o (2 * L) -> shape f = [2 * L; 2 * L - 1]%Z ->
    exists ths KW flm, pf_thetas A "dh" L gl = Ok ths /\ ff_kernel A F "dh" ths wgl L spin = Ok KW /\ ff_forward A fft o f KW L "dh" spin = Ok flm /\
      shape flm = [L; 2 * L - 1]%Z /\ forall l m, (0 <= l < L)%Z -> (- L < m < L)%Z ->
        Cmod (get flm [l; m + L - 1]%Z - quadrature_of (2 * L) (2 * L - 1) (fun t => dh_weight L (dh_theta L t)) (dh_theta L) spin l m f)%C <=
          (4400 * (u * N) + 37 * eps) * (wsize spin l m * weighted_size (2 * L) (2 * L - 1) (fun _ => dh_share L) f) + 48 * IZR L * eta /\
        ((l < Z.abs m \/ l < Z.abs spin)%Z -> get flm [l; m + L - 1]%Z = RtoC 0).
  Proof.
    intros HF HI HFF Ho Hf. destruct ff_bounds as (L1 & UN & U5 & U2 & U1 & UB & Hu & HE' & U3).
    destruct (dh_kernel gl wgl HF HI) as (ths & KW & E1 & _ & _ & E2 & HW).
    assert (T2 : IZR (rings DH L 0) = 2 * IZR L) by (cbn [rings]; now rewrite mult_IZR).
    destruct (forward_near A u eta HA HZ Hu DH fft o f KW L spin (dh_theta L) (fun t => dh_weight L (dh_theta L t)) (fun _ => dh_share L)
      (1086 * (u * N) + 9 * eps) eps (or_introl eq_refl) HL Hf Ho) as (flm & E3 & Sh & H); try assumption.
    - split; lra.
    - rewrite T2. lra.
    - split; lra.
    - intros t Ht. rewrite Rabs_right; apply Rle_ge || idtac; apply dh_weight_size; exact HL.
    - exists ths, KW, flm. repeat (split; [assumption|]). intros l m Hl Hm. specialize (H l m Hl Hm). destruct H as [H H0]. split; [|exact H0].
      cbn [rings] in *. eapply Rle_trans; [exact H|]. rewrite T2. apply Rplus_le_compat; [|lra].
      apply Rmult_le_compat_r.
      + apply Rmult_le_pos; [apply wsize_nonneg|]. apply rs_nonneg. intros t Ht. apply Rmult_le_pos; [destruct (dh_weight_size L 0 HL); lra|]. apply rs_nonneg. intros. apply Cmod_ge_0.
      + lra.
  Qed.

  Lemma dh_exact k : (- (2 * L) < k < 2 * L)%Z ->
    rsum (zrange 0 (2 * L)) (fun t => IZR (2 * L - 1) * dh_weight L (dh_theta L t) * cos (IZR k * dh_theta L t)) = 2 * PI * Re (mw_weights k).
  Proof.
    intros Hk. rewrite <- (dh_cos L k) by auto. rewrite <- rs_scal_l. apply rr_ext. intros t Ht. unfold dh_weight, quad_weight_dh_theta_only.
    field. split; apply (IZR_neq _ 0); lia.
  Qed.

  Lemma dh_analysis fft o f gl wgl c d : irfft_accurate (f_irfft F) L (4 * L) eps -> ipow_accurate (f_ipow F) (2 * L) eps ->
    fft_accurate fft (2 * L - 1) eps -> sums_all o (2 * L) -> shape f = [2 * L; 2 * L - 1]%Z ->
    (forall t p, (0 <= t < 2 * L)%Z -> (0 <= p < 2 * L - 1)%Z -> Cmod (get f [t; p] - synth L spin c (dh_theta L t) (2 * PI * IZR p / IZR (2 * L - 1)))%C <= d) ->
    exists ths KW flm, pf_thetas A "dh" L gl = Ok ths /\ ff_kernel A F "dh" ths wgl L spin = Ok KW /\ ff_forward A fft o f KW L "dh" spin = Ok flm /\
      shape flm = [L; 2 * L - 1]%Z /\ forall l m, (0 <= l < L)%Z -> (- L < m < L)%Z ->
        ((Z.abs m <= l)%Z -> (Z.abs spin <= l)%Z -> Cmod (get flm [l; m + L - 1]%Z - c l m)%C <=
          elfactor l * (8 * PI) * ((4400 * (u * N) + 37 * eps) * (signal_size L spin c + d) + d + 8 * IZR L * eta)) /\
        ((l < Z.abs m \/ l < Z.abs spin)%Z -> get flm [l; m + L - 1]%Z = RtoC 0).
  Proof.
    intros HF HI HFF Ho Hf Hd. destruct ff_bounds as (L1 & UN & U5 & U2 & U1 & UB & Hu & HE' & U3).
    destruct (dh_forward fft o f gl wgl HF HI HFF Ho Hf) as (ths & KW & flm & E1 & E2 & E3 & Sh & H).
    exists ths, KW, flm. repeat (split; [assumption|]). intros l m Hl Hm. destruct (H l m Hl Hm) as [H1 H0]. split; [|exact H0]. intros M1 M2.
    rewrite wsize_in in H1 by lia. set (g := fun t p => synth L spin c (dh_theta L t) (2 * PI * IZR p / IZR (2 * L - 1))).
    assert (D := quad_diff (2 * L) (2 * L - 1) (fun t => dh_weight L (dh_theta L t)) (fun _ => dh_share L) (dh_theta L) spin l m f g d ltac:(lia)).
    rewrite wsize_in in D by lia. rewrite dh_total in D. unfold g in D at 2. rewrite (quadrature_exact L (2 * L) _ (dh_theta L) spin c l m HL Hl Hm M2 M1 dh_exact) in D.
    assert (D' := D (fun t Ht => ltac:(rewrite Rabs_right; apply Rle_ge || idtac; apply dh_weight_size; exact HL)) Hd). clear D.
    assert (SB : weighted_size (2 * L) (2 * L - 1) (fun _ => dh_share L) f <= 8 * PI * (signal_size L spin c + d)).
    { rewrite <- dh_total. apply weighted_le; [lia|intros; destruct (dh_weight_size L 0 HL); lra|]. intros t p Ht Hp. specialize (Hd t p Ht Hp).
      set (z := synth L spin c _ _) in *. replace (get f [t; p]) with (z + (get f [t; p] - z))%C by ring. eapply Rle_trans; [apply Cmod_triangle|].
      apply Rplus_le_compat; [apply synth_size|exact Hd]. }
    set (q := quadrature_of _ _ _ _ _ _ _ f) in *. replace (get flm [l; m + L - 1]%Z - c l m)%C with ((get flm [l; m + L - 1]%Z - q) + (q - c l m))%C by ring.
    eapply Rle_trans; [apply Cmod_triangle|]. pose proof (elfactor_lower l ltac:(lia)) as EL. set (E := elfactor l) in *.
    assert (X0 : 0 <= 4400 * (u * N) + 37 * eps) by lra.
    assert (X1 : E * weighted_size (2 * L) (2 * L - 1) (fun _ => dh_share L) f <= E * (8 * PI * (signal_size L spin c + d))) by (apply Rmult_le_compat_l; lra).
    apply (Rmult_le_compat_l _ _ _ X0) in X1.
    assert (X2 : 48 * IZR L * eta <= E * (8 * PI) * (8 * IZR L * eta)).
    { assert (6 <= E * (8 * PI)) by (pose proof PI2_3_2; nra). assert (0 <= 8 * IZR L * eta) by (apply Rmult_le_pos; lra).
      replace (48 * IZR L * eta) with (6 * (8 * IZR L * eta)) by ring. now apply Rmult_le_compat_r. }
    lra.
  Qed.

  (** inverse, then forward *)
  Lemma dh_round_trip fft o o' flm gl wgl : irfft_accurate (f_irfft F) L (4 * L) eps -> ipow_accurate (f_ipow F) (2 * L) eps -> ifft_accurate (f_ifft F) (2 * L - 1) eps ->
    fft_accurate fft (2 * L - 1) eps -> sums_all o L -> sums_all o' (2 * L) -> shape flm = [L; 2 * L - 1]%Z ->
    exists ths K f KW flm', pf_thetas A "dh" L gl = Ok ths /\ pf_kernel A F "dh" ths L spin = Ok K /\ pf_inverse A F o flm K L "dh" spin = Ok f /\
      ff_kernel A F "dh" ths wgl L spin = Ok KW /\ ff_forward A fft o' f KW L "dh" spin = Ok flm' /\
      shape flm' = [L; 2 * L - 1]%Z /\ forall l m, (0 <= l < L)%Z -> (- L < m < L)%Z ->
        ((Z.abs m <= l)%Z -> (Z.abs spin <= l)%Z -> Cmod (get flm' [l; m + L - 1]%Z - stored L flm l m)%C <=
          elfactor l * (8 * PI) * ((15200 * (u * N) + 140 * eps) * signal_size L spin (stored L flm) + 270 * (IZR L * IZR L) * eta)) /\
        ((l < Z.abs m \/ l < Z.abs spin)%Z -> get flm' [l; m + L - 1]%Z = RtoC 0).
  Proof.
    intros HF HI HIF HFF Ho Ho' Hf. destruct ff_bounds as (L1 & UN & U5 & U2 & U1 & UB & Hu & HE' & U3).
    destruct (equi_kernel A u eta HA HZ F L spin eps HL Hs HB HE' Heps DH (fun _ => 0) gl) as (ths & K & x & E1 & El & E3 & E4 & H); auto.
    { cbn [rings scheme_name]. now rewrite dh_points. }
    destruct (inverse_top A u eta HA HZ F L spin eps HL Hs HB HE' Heps DH (fun _ => 0) o flm K x (13 * u) ltac:(discriminate) Hf Ho ltac:(lra) HIF H) as (f & E5 & Sh & Hb).
    { intros t y Ht C. now apply E3. }
    cbn [rings scheme_name per_ring] in *. set (S := signal_size L spin (stored L flm)) in *. fold N in Hb.
    assert (S0 : 0 <= S) by apply signal_size_nonneg.
    assert (Hb' : forall t p, (0 <= t < 2 * L)%Z -> (0 <= p < 2 * L - 1)%Z -> Cmod (get f [t; p] - synth L spin (stored L flm) (dh_theta L t) (2 * PI * IZR p / IZR (2 * L - 1)))%C <=
      (2123 * (u * N) + 20 * eps) * S + 51 * (IZR L * IZR L) * eta).
    { intros t p Ht Hp. specialize (Hb t p (dh_theta L t) Ht Hp eq_refl). eapply Rle_trans; [exact Hb|]. apply Rplus_le_compat_r, Rmult_le_compat_r; [exact S0|]. lra. }
    destruct (dh_analysis fft o' f gl wgl (stored L flm) _ HF HI HFF Ho' Sh Hb') as (ths' & KW & flm' & E1' & E6 & E7 & Sh' & G).
    rewrite E1 in E1'. injection E1' as <-. exists ths, K, f, KW, flm'. repeat (split; [assumption|]). intros l m Hl Hm. destruct (G l m Hl Hm) as [G1 G2]. split; [|exact G2].
    intros M1 M2. eapply Rle_trans; [exact (G1 M1 M2)|]. apply Rmult_le_compat_l.
    { apply Rmult_le_pos; [apply sqrt_pos|]. pose proof PI_RGT_0. lra. }
    fold S. set (d := (2123 * (u * N) + 20 * eps) * S + 51 * (IZR L * IZR L) * eta). set (K1 := 4400 * (u * N) + 37 * eps).
    assert (K1b : 0 <= K1 <= 405 / 100) by (unfold K1; lra).
    assert (Q0 : 0 <= IZR L * IZR L * eta) by (repeat apply Rmult_le_pos; lra).
    assert (d0 : 0 <= d) by (unfold d; assert (0 <= (2123 * (u * N) + 20 * eps) * S) by (apply Rmult_le_pos; lra); lra).
    assert (X1 : K1 * d <= 405 / 100 * d) by (apply Rmult_le_compat_r; lra).
    assert (X2 : IZR L * eta <= IZR L * IZR L * eta) by (apply Rmult_le_compat_r; nra).
    replace (K1 * (S + d)) with (K1 * S + K1 * d) by ring.
    assert (US : 0 <= u * N * S) by (now apply Rmult_le_pos). assert (ES : 0 <= eps * S) by (apply Rmult_le_pos; lra).
    unfold K1 at 1. unfold d in *. lra.
  Qed.

  (** *** Gauss-Legendre rings: colatitudes and weights are given *)
  Section Gl.
    Variables (nodes wg gl wgl : vec R) (delta dw : R).
    Hypothesis HG : gauss_legendre L nodes wg.
    Hypothesis Hg1 : vlen gl = L.
    Hypothesis Hd : 0 <= delta /\ IZR L * delta <= / 20.
    Hypothesis Hg3 : forall t, (0 <= t < L)%Z -> Rabs (vat gl t - acos (vat nodes (L - 1 - t))) <= delta.
    Lemma Hg2 t : (0 <= t < L)%Z -> Rabs (vat gl t) <= 5.
    Proof.
      intros Ht. specialize (Hg3 t Ht). pose proof (acos_bound (vat nodes (L - 1 - t))) as B. pose proof PI_4 as P. assert (1 <= IZR L) by (apply IZR_le; lia).
      assert (D : delta <= / 20) by nra. set (y := acos (vat nodes (L - 1 - t))) in *. apply Rabs_le_between in Hg3. apply Rabs_le. lra.
    Qed.
    Hypothesis Hw1 : vlen wgl = L.
    Hypothesis Hdw : 0 <= dw <= / 10.
    Let w t := 2 * PI * vat wg t / IZR (2 * L - 1).
    Hypothesis Hw2 : forall t, (0 <= t < L)%Z -> Rabs (vat wgl t - w t) <= dw * w t.
    Hypothesis HE3 : IZR L ^ 3 * eta <= u.
    Let th t := acos (vat nodes (L - 1 - t)).

    Lemma gl_pos t : (0 <= t < L)%Z -> 0 <= vat wg t.
    Proof.
      intros Ht. destruct (gauss_range L nodes wg t HG Ht) as [H _]. assert (1 <= IZR L) by (apply IZR_le; lia).
      eapply Rle_trans; [|exact H]. apply Rmult_le_pos; [lra|]. left. apply Rinv_0_lt_compat. nra.
    Qed.
    Lemma gl_tiny t : (0 <= t < L)%Z -> eta <= u * w t.
    Proof.
      intros Ht. destruct (gauss_range L nodes wg t HG Ht) as [H _]. assert (L1 : 1 <= IZR L) by (apply IZR_le; lia). unfold w.
      assert (M : 0 < IZR (2 * L - 1) <= 2 * IZR L) by (split; [apply IZR_lt; lia|rewrite <- mult_IZR; apply IZR_le; lia]).
      assert (U0 : 0 <= u) by (destruct ff_bounds as (_ & _ & _ & _ & _ & _ & ? & _); lra).
      assert (W : / IZR L ^ 3 <= 2 * PI * vat wg t / IZR (2 * L - 1)).
      { pose proof PI2_3_2. apply Rle_trans with (2 * 1 * (2 / (IZR L * IZR L)) / (2 * IZR L)).
        - replace (2 * 1 * (2 / (IZR L * IZR L)) / (2 * IZR L)) with (2 * / IZR L ^ 3) by (field; lra).
          assert (0 < / IZR L ^ 3) by (apply Rinv_0_lt_compat, pow_lt; lra). lra.
        - assert (G0 : 0 <= 2 / (IZR L * IZR L)) by (apply Rmult_le_pos; [lra|]; left; apply Rinv_0_lt_compat; nra).
          unfold Rdiv at 1 3. apply Rmult_le_compat; [lra|left; apply Rinv_0_lt_compat; lra| |apply Rinv_le_contravar; lra].
          apply Rmult_le_compat; lra. }
      apply Rle_trans with (u * / IZR L ^ 3); [|now apply Rmult_le_compat_l].
      assert (L3 : 0 < IZR L ^ 3) by (apply pow_lt; lra). apply (Rmult_le_reg_l (IZR L ^ 3)); [exact L3|].
      replace (IZR L ^ 3 * (u * / IZR L ^ 3)) with u by (field; lra). exact HE3.
    Qed.
    Lemma gl_w0 t : (0 <= t < L)%Z -> 0 <= w t.
    Proof.
      intros Ht. unfold w. assert (0 < IZR (2 * L - 1)) by (apply IZR_lt; lia). apply Rmult_le_pos; [|left; now apply Rinv_0_lt_compat].
      apply Rmult_le_pos; [pose proof PI_RGT_0; lra|now apply gl_pos].
    Qed.
    Lemma gl_total : rsum (zrange 0 L) w * IZR (2 * L - 1) = 4 * PI.
    Proof.
      destruct HG as (_ & _ & _ & _ & Q). assert (Q0 := Q 0%nat ltac:(lia)). cbn [pow] in Q0. rewrite RInt_const in Q0.
      rewrite (rr_ext 0 L _ (vat wg)) in Q0 by (intros; ring). rewrite (rr_ext 0 L w (fun t => vat wg t * (2 * PI / IZR (2 * L - 1)))) by (intros; unfold w; unfold Rdiv; ring).
      rewrite rs_scal_r, Q0. change (scal (1 - -1) 1) with ((1 - -1) * 1). field. apply (IZR_neq _ 0). lia.
    Qed.
    Lemma gl_exact k : (- (2 * L) < k < 2 * L)%Z ->
      rsum (zrange 0 L) (fun t => IZR (2 * L - 1) * w t * cos (IZR k * th t)) = 2 * PI * Re (mw_weights k).
    Proof.
      intros Hk. destruct (gl_weights_ok (mkGL (fun _ => nodes) (fun _ => wg)) L HL) as (v & Ev & _ & H).
      injection Ev as <-. assert (GE : gauss_exact (2 * L) L (vat wg) (fun t => cos (th t))).
      { destruct HG as (Lx & Lw & Hb & Hi & Q). intros j Hj. rewrite <- Q by auto. apply rr_ext. intros t Ht. do 2 f_equal.
        apply cos_acos. specialize (Hb (L - 1 - t)%Z ltac:(lia)). lra. }
      rewrite <- (H L th GE k Hk). apply rr_ext. intros t Ht. transitivity (IZR (2 * L - 1) * (vat wg t * 2 * PI / IZR (2 * L - 1)) * cos (IZR k * th t)); [unfold w, Rdiv; ring|reflexivity].
    Qed.

    Lemma gl_analysis fft o f c d : fft_accurate fft (2 * L - 1) eps -> sums_all o L -> shape f = [L; 2 * L - 1]%Z ->
      (forall t p, (0 <= t < L)%Z -> (0 <= p < 2 * L - 1)%Z -> Cmod (get f [t; p] - synth L spin c (th t) (2 * PI * IZR p / IZR (2 * L - 1)))%C <= d) ->
      exists KW flm, ff_kernel A F "gl" gl wgl L spin = Ok KW /\ ff_forward A fft o f KW L "gl" spin = Ok flm /\
        shape flm = [L; 2 * L - 1]%Z /\ forall l m, (0 <= l < L)%Z -> (- L < m < L)%Z ->
          ((Z.abs m <= l)%Z -> (Z.abs spin <= l)%Z -> Cmod (get flm [l; m + L - 1]%Z - c l m)%C <=
            elfactor l * (4 * PI) * ((4030 * (u * N) + 37 * eps + 4 * (IZR L * delta) + 8 * dw) * (signal_size L spin c + d) + d + 8 * IZR L * eta)) /\
          ((l < Z.abs m \/ l < Z.abs spin)%Z -> get flm [l; m + L - 1]%Z = RtoC 0).
    Proof.
      intros HFF Ho Hf Hfd. destruct ff_bounds as (L1 & UN & U5 & U2 & U1 & UB & Hu & HE' & U3).
      destruct HG as (Lx & Lw & Hb & _ & _).
      destruct (gl_kernel A u eta HA HZ F L spin eps HL Hs HB HE' Heps (vat nodes) gl delta Hg1 Hg2) as (K & E4 & H).
      { intros t y Ht [C1 C2]. replace y with (acos (vat nodes (L - 1 - t))); [now apply Hg3|]. rewrite <- C2. apply acos_cos. exact C1. }
      assert (H2 := kernel_move K L L spin (vat gl) th _ delta H HL (proj1 Hd) Hg3).
      destruct (weigh_near A u eta HA HZ K L L spin th _ wgl w w dw H2 Hw1) as (KW & EW & HW).
      { unfold kap. fold N. assert (0 <= IZR L * delta) by (apply Rmult_le_pos; lra). split; lra. }
      { lra. }
      { intros t Ht. split; [rewrite Rabs_right; [lra|apply Rle_ge, gl_w0, Ht]|]. split; [now apply Hw2|now apply gl_tiny]. }
      assert (D0 : 0 <= IZR L * delta) by (apply Rmult_le_pos; lra).
      destruct (forward_near A u eta HA HZ Hu GL fft o f KW L spin th w w (kap u L eps + IZR L * delta + 2 * dw + 8 * u) eps (or_intror eq_refl) HL Hf Ho) as (flm & E3 & Sh & G); try assumption.
      { unfold kap. fold N. split; lra. }
      { cbn [rings]. lra. }
      { split; lra. }
      { cbn [rings]. intros t Ht. rewrite Rabs_right; [lra|apply Rle_ge, gl_w0, Ht]. }
      exists KW, flm. split. { unfold ff_kernel. rewrite E4. exact EW. } split; [exact E3|]. split; [exact Sh|].
      cbn [rings] in G. intros l m Hl Hm. destruct (G l m Hl Hm) as [H1 H0]. split; [|exact H0]. intros M1 M2.
      rewrite wsize_in in H1 by lia. set (g := fun t p => synth L spin c (th t) (2 * PI * IZR p / IZR (2 * L - 1))).
      assert (D := quad_diff L (2 * L - 1) w w th spin l m f g d ltac:(lia)).
      rewrite wsize_in in D by lia. rewrite gl_total in D. unfold g in D at 2. rewrite (quadrature_exact L L _ th spin c l m HL Hl Hm M2 M1 gl_exact) in D.
      assert (D' := D (fun t Ht => ltac:(rewrite Rabs_right; [lra|apply Rle_ge, gl_w0, Ht])) Hfd). clear D.
      assert (SB : weighted_size L (2 * L - 1) w f <= 4 * PI * (signal_size L spin c + d)).
      { rewrite <- gl_total. apply weighted_le; [lia|exact gl_w0|]. intros t p Ht Hp. specialize (Hfd t p Ht Hp).
        set (z := synth L spin c _ _) in *. replace (get f [t; p]) with (z + (get f [t; p] - z))%C by ring. eapply Rle_trans; [apply Cmod_triangle|].
        apply Rplus_le_compat; [apply synth_size|exact Hfd]. }
      set (q := quadrature_of _ _ _ _ _ _ _ f) in *. replace (get flm [l; m + L - 1]%Z - c l m)%C with ((get flm [l; m + L - 1]%Z - q) + (q - c l m))%C by ring.
      eapply Rle_trans; [apply Cmod_triangle|]. pose proof (elfactor_lower l ltac:(lia)) as EL. set (E := elfactor l) in *.
      set (X := 4030 * (u * N) + 37 * eps + 4 * (IZR L * delta) + 8 * dw).
      assert (XX : 4 * (kap u L eps + IZR L * delta + 2 * dw + 8 * u + 27 * u * IZR L) + eps <= X) by (unfold X, kap; fold N; lra).
      assert (X0 : 0 <= X) by (unfold X; lra).
      assert (W0 : 0 <= E * weighted_size L (2 * L - 1) w f).
      { apply Rmult_le_pos; [lra|]. apply rs_nonneg. intros t Ht. apply in_zrange in Ht. apply Rmult_le_pos; [now apply gl_w0|]. apply rs_nonneg. intros. apply Cmod_ge_0. }
      apply (Rmult_le_compat_r _ _ _ W0) in XX.
      assert (X1 : E * weighted_size L (2 * L - 1) w f <= E * (4 * PI * (signal_size L spin c + d))) by (apply Rmult_le_compat_l; lra).
      apply (Rmult_le_compat_l _ _ _ X0) in X1.
      assert (X2 : 24 * IZR L * eta <= E * (4 * PI) * (8 * IZR L * eta)).
      { assert (3 <= E * (4 * PI)) by (pose proof PI2_3_2; nra). assert (0 <= 8 * IZR L * eta) by (apply Rmult_le_pos; lra).
        replace (24 * IZR L * eta) with (3 * (8 * IZR L * eta)) by ring. now apply Rmult_le_compat_r. }
      lra.
    Qed.

    (** inverse, then forward *)
    Lemma gl_round_trip fft o o' flm : ifft_accurate (f_ifft F) (2 * L - 1) eps -> fft_accurate fft (2 * L - 1) eps -> sums_all o L -> sums_all o' L ->
      shape flm = [L; 2 * L - 1]%Z ->
      exists K f KW flm', pf_kernel A F "gl" gl L spin = Ok K /\ pf_inverse A F o flm K L "gl" spin = Ok f /\
        ff_kernel A F "gl" gl wgl L spin = Ok KW /\ ff_forward A fft o' f KW L "gl" spin = Ok flm' /\
        shape flm' = [L; 2 * L - 1]%Z /\ forall l m, (0 <= l < L)%Z -> (- L < m < L)%Z ->
          ((Z.abs m <= l)%Z -> (Z.abs spin <= l)%Z -> Cmod (get flm' [l; m + L - 1]%Z - stored L flm l m)%C <=
            elfactor l * (4 * PI) * ((16500 * (u * N) + 155 * eps + 10 * (IZR L * delta) + 8 * dw) * signal_size L spin (stored L flm) + 308 * (IZR L * IZR L) * eta)) /\
          ((l < Z.abs m \/ l < Z.abs spin)%Z -> get flm' [l; m + L - 1]%Z = RtoC 0).
    Proof.
      intros HIF HFF Ho Ho' Hf. destruct ff_bounds as (L1 & UN & U5 & U2 & U1 & UB & Hu & HE' & U3).
      assert (Hg3' : forall t y, (0 <= t < L)%Z -> colatitude (vat nodes) GL L 0 t y -> Rabs (vat gl t - y) <= delta).
      { intros t y Ht [C1 C2]. replace y with (acos (vat nodes (L - 1 - t))); [now apply Hg3|]. rewrite <- C2. apply acos_cos. exact C1. }
      destruct (gl_kernel A u eta HA HZ F L spin eps HL Hs HB HE' Heps (vat nodes) gl delta Hg1 Hg2 Hg3') as (K & E4 & H).
      destruct (inverse_top A u eta HA HZ F L spin eps HL Hs HB HE' Heps GL (vat nodes) o flm K (vat gl) delta ltac:(discriminate) Hf Ho (proj1 Hd) HIF H Hg3') as (f & E5 & Sh & Hb).
      cbn [rings scheme_name per_ring] in *. set (S := signal_size L spin (stored L flm)) in *. fold N in Hb.
      assert (S0 : 0 <= S) by apply signal_size_nonneg.
      assert (D0 : 0 <= IZR L * delta) by (apply Rmult_le_pos; lra).
      assert (Hb' : forall t p, (0 <= t < L)%Z -> (0 <= p < 2 * L - 1)%Z -> Cmod (get f [t; p] - synth L spin (stored L flm) (th t) (2 * PI * IZR p / IZR (2 * L - 1)))%C <=
        (2120 * (u * N) + 20 * eps + IZR L * delta) * S + 51 * (IZR L * IZR L) * eta).
      { intros t p Ht Hp. assert (Cx : colatitude (vat nodes) GL L 0 t (th t)).
        { split; [apply acos_bound|]. apply cos_acos. destruct HG as (_ & _ & Hbn & _). specialize (Hbn (L - 1 - t)%Z ltac:(lia)). lra. }
        specialize (Hb t p (th t) Ht Hp Cx). eapply Rle_trans; [exact Hb|]. apply Rplus_le_compat_r, Rmult_le_compat_r; [exact S0|]. lra. }
      destruct (gl_analysis fft o' f (stored L flm) _ HFF Ho' Sh Hb') as (KW & flm' & E6 & E7 & Sh' & G).
      exists K, f, KW, flm'. repeat (split; [assumption|]). intros l m Hl Hm. destruct (G l m Hl Hm) as [G1 G2]. split; [|exact G2].
      intros M1 M2. eapply Rle_trans; [exact (G1 M1 M2)|]. apply Rmult_le_compat_l.
      { apply Rmult_le_pos; [apply sqrt_pos|]. pose proof PI_RGT_0. lra. }
      fold S. set (d := (2120 * (u * N) + 20 * eps + IZR L * delta) * S + 51 * (IZR L * IZR L) * eta). set (K1 := 4030 * (u * N) + 37 * eps + 4 * (IZR L * delta) + 8 * dw).
      assert (K1b : 0 <= K1 <= 4865 / 1000) by (unfold K1; lra).
      assert (Q0 : 0 <= IZR L * IZR L * eta) by (repeat apply Rmult_le_pos; lra).
      assert (d0 : 0 <= d) by (unfold d; assert (0 <= (2120 * (u * N) + 20 * eps + IZR L * delta) * S) by (apply Rmult_le_pos; lra); lra).
      assert (X1 : K1 * d <= 4865 / 1000 * d) by (apply Rmult_le_compat_r; lra).
      assert (X2 : IZR L * eta <= IZR L * IZR L * eta) by (apply Rmult_le_compat_r; nra).
      replace (K1 * (S + d)) with (K1 * S + K1 * d) by ring.
      assert (US : 0 <= u * N * S) by (now apply Rmult_le_pos). assert (ES : 0 <= eps * S) by (apply Rmult_le_pos; lra).
      assert (DS : 0 <= IZR L * delta * S) by (now apply Rmult_le_pos).
      unfold K1 at 1. unfold d in *. lra.
    Qed.
  End Gl.
End Float.
