(** The transforms of batches of spin signals: synthesis, recovery and the transform of signals on the rotation group. *)
From Coq Require Import Reals ZifyBool Lra FunctionalExtensionality.
From Coquelicot Require Import Coquelicot.
From Verif Require Import Lib.Py Lib.PyFacts Lib.Vec Lib.VecFacts Lib.Sums Lib.Cplx Lib.Arr Lib.ArrFacts Lib.MatFacts
  Model.Samples Model.FFT Model.HealpixFFT Model.Risbo Model.Resampling Model.Quadrature Model.Spherical Model.Precompute Model.Wigner
  Model.FourierWigner Model.PrecomputeWigner Model.CustomOps Spec.WignerSpec Spec.SamplesSpec Spec.SphereSpec Spec.GridSpec Spec.HealpixFFTSpec
  Spec.SphericalSpec Spec.SO3Spec Spec.FourierWignerSpec Spec.CustomOpsSpec
  Proofs.RisboProofs Proofs.TurokProofs Proofs.QuadProofs Proofs.WignerCalc Proofs.SphereTheory Proofs.SphInverse Proofs.PrecomputeKernel Proofs.ResamplingProofs
  Proofs.WignerInverse Proofs.WignerRound Proofs.FWArrays Proofs.FWInverse Proofs.FWForward Proofs.SphRefuted Proofs.CustomOpsProofs.
Open Scope string_scope.
Open Scope Z_scope.

Lemma spin_part3 L n c theta phi : spin_signal L n c theta phi = part3 L n c phi theta.
Proof.
  unfold spin_signal, part3. apply cr_ext. intros l Hl. apply cr_ext. intros m Hm. f_equal. unfold Dconj. rewrite Rmult_0_r, cis_0. ring.
Qed.
Lemma fw_rings s L : fw_scheme s -> rings s L 0 = L + mo_of s.
Proof. intros [-> | ->]; cbn [rings mo_of]; lia. Qed.
Lemma fw_per s L : fw_scheme s -> per_ring s L = 2 * L - 1 + mo_of s.
Proof. intros [-> | ->]; cbn [per_ring mo_of]; lia. Qed.
Lemma fw_colat s L t : fw_scheme s -> is_colatitude s L 0 t (theta s L t).
Proof. intros [-> | ->]; reflexivity. Qed.
Lemma fw_colat_eq s L t x : fw_scheme s -> is_colatitude s L 0 t x -> x = theta s L t.
Proof. intros [-> | ->]; auto. Qed.

Lemma subset_inverse s name L flmn spins DW B Ch :
  fw_scheme s -> denotes name s -> 1 <= L -> quarter_matrices L (fst DW) -> spins_below L spins ->
  shape flmn = [B; vlen spins; L; 2 * L - 1; Ch] ->
  exists f, wigner_subset_to_s2 flmn spins DW L name = Ok f /\
    holds_signals s L B (vlen spins) Ch f (fun b i c => spin_signal L (- vat spins i) (plane L flmn b i c)).
Proof.
  intros Hs Hd HL Hq Hsp Hf. destruct DW as [delta q]. cbn [fst] in Hq.
  destruct (inverse5 s L Hs HL name flmn spins delta q B Ch (fun b i l m c => get flmn [b; i; l; m; c]) (at3 delta) Hd) as (f & E & H1 & H2).
  - split; [exact Hf|reflexivity].
  - split; [apply (proj1 Hq)|reflexivity].
  - apply below_in; auto.
  - exists f. split; [exact E|]. split; [now rewrite H1, fw_rings, fw_per|].
    intros b i c t p x Hb Hi Hc Ht Hp Hx. rewrite fw_rings in Ht by auto. rewrite fw_per in Hp by auto. apply fw_colat_eq in Hx; auto. subst x.
    pose proof (H2 b i t p c Hb Hi Ht Hp Hc) as H. unfold at5 in H. rewrite H. rewrite spin_part3.
    rewrite <- (I3_synth s L Hs HL delta (- vat spins i) (plane L flmn b i c) t p Hq) by (specialize (Hsp i Hi); lia).
    f_equal. extensionality l. extensionality m. unfold plane. f_equal. f_equal. f_equal. f_equal. f_equal. lia.
Qed.

Lemma subset_forward s name L fs spins DW B Ch cf :
  fw_scheme s -> denotes name s -> 1 <= L -> (s = MWSS -> 2 <= L) -> quarter_matrices L (fst DW) -> upsampled_weights L (snd DW) -> spins_below L spins ->
  holds_signals s L B (vlen spins) Ch fs (fun b i c => spin_signal L (- vat spins i) (cf b i c)) ->
  exists flmn, s2_to_wigner_subset fs spins DW L name = Ok flmn /\ shape flmn = [B; vlen spins; L; 2 * L - 1; Ch] /\
    forall b i c l m, 0 <= b < B -> 0 <= i < vlen spins -> 0 <= c < Ch -> 0 <= l < L -> - L < m < L ->
      plane L flmn b i c l m = supported L (- vat spins i) (cf b i c) l m.
Proof.
  intros Hs Hd HL HL2 Hq Hw Hsp [Hf1 Hf2]. destruct DW as [delta q]. cbn [fst snd] in *. rewrite fw_rings, fw_per in * by auto.
  destruct (forward5 s L Hs HL name fs spins delta q B Ch (fun b i t p c => get fs [b; i; t; p; c]) (at3 delta) Hd HL2) as (r & E & H1 & H2).
  - split; [exact Hf1|reflexivity].
  - split; [apply (proj1 Hq)|reflexivity].
  - apply (proj1 Hw).
  - apply below_in; auto.
  - exists r. split; [exact E|]. split; [exact H1|]. intros b i c l m Hb Hi Hc Hl Hm.
    pose proof (H2 b i l (m + L - 1) c Hb Hi Hl ltac:(lia) Hc) as H. unfold at5 in H. unfold plane. rewrite H.
    rewrite (A7_coefficients s L Hs HL delta q (- vat spins i) (cf b i c)); auto; try lia.
    + f_equal. lia.
    + specialize (Hsp i Hi). lia.
    + intros t p Ht Hp. rewrite (Hf2 b i c t p (theta s L t)) by (auto using fw_colat). apply spin_part3.
Qed.

(** ** Plane by plane *)
Definition clip (L M : Z) (f : Z -> Z -> C) (t p : Z) : C := if (0 <=? t) && (t <? L) && (0 <=? p) && (p <? M) then f t p else RtoC 0.
Lemma clip_in L M f t p : 0 <= t < L -> 0 <= p < M -> clip L M f t p = f t p.
Proof.
  intros Ht Hp. unfold clip. replace ((0 <=? t) && (t <? L) && (0 <=? p) && (p <? M)) with true by lia. reflexivity.
Qed.
Lemma clip_ext L M f g : (forall t p, 0 <= t < L -> 0 <= p < M -> f t p = g t p) -> clip L M f = clip L M g.
Proof.
  intros H. extensionality t. extensionality p. unfold clip. destruct ((0 <=? t) && (t <? L) && (0 <=? p) && (p <? M)) eqn:E; [|reflexivity].
  apply H; lia.
Qed.
Lemma clipped (f : ndarray C) B S T M Ch : shape f = [B; S; T; M; Ch] ->
  is_arr5 f B S T M Ch (fun b i t p c => clip T M (fun t p => get f [b; i; t; p; c]) t p).
Proof. intros H. split; [exact H|]. intros b i t p c Hb Hi Ht Hp Hc. now rewrite clip_in. Qed.

Lemma quarter_is L (delta : ndarray R) : shape delta = [L; 2 * L - 1; 2 * L - 1] -> is_arr3 delta L (2 * L - 1) (2 * L - 1) (at3 delta).
Proof. intros H. split; [exact H|reflexivity]. Qed.

Lemma subset_inverse_plane s name name' L flmn flmn' spins spins' delta q q' B Ch B' Ch' b i c b' i' c' :
  fw_scheme s -> denotes name s -> denotes name' s -> 1 <= L -> shape delta = [L; 2 * L - 1; 2 * L - 1] -> spins_in L spins -> spins_in L spins' ->
  shape flmn = [B; vlen spins; L; 2 * L - 1; Ch] -> shape flmn' = [B'; vlen spins'; L; 2 * L - 1; Ch'] ->
  0 <= b < B -> 0 <= i < vlen spins -> 0 <= c < Ch -> 0 <= b' < B' -> 0 <= i' < vlen spins' -> 0 <= c' < Ch' ->
  vat spins i = vat spins' i' ->
  (forall l m, 0 <= l < L -> 0 <= m < 2 * L - 1 -> get flmn [b; i; l; m; c] = get flmn' [b'; i'; l; m; c']) ->
  exists f f', wigner_subset_to_s2 flmn spins (delta, q) L name = Ok f /\ wigner_subset_to_s2 flmn' spins' (delta, q') L name' = Ok f' /\
    forall t p, 0 <= t < rings s L 0 -> 0 <= p < per_ring s L -> get f [b; i; t; p; c] = get f' [b'; i'; t; p; c'].
Proof.
  intros Hs Hd Hd' HL HD Hsp Hsp' Hf Hf' Hb Hi Hc Hb' Hi' Hc' Es Ep.
  destruct (inverse5 s L Hs HL name flmn spins delta q B Ch _ _ Hd (clipped _ _ _ _ _ _ Hf) (quarter_is _ _ HD) Hsp) as (f & E & H1 & H2).
  destruct (inverse5 s L Hs HL name' flmn' spins' delta q' B' Ch' _ _ Hd' (clipped _ _ _ _ _ _ Hf') (quarter_is _ _ HD) Hsp') as (f' & E' & H1' & H2').
  exists f, f'. split; [exact E|]. split; [exact E'|]. intros t p Ht Hp. rewrite fw_rings in Ht by auto. rewrite fw_per in Hp by auto.
  pose proof (H2 b i t p c Hb Hi Ht Hp Hc) as G. pose proof (H2' b' i' t p c' Hb' Hi' Ht Hp Hc') as G'. unfold at5 in G, G'. rewrite G, G', Es.
  f_equal. exact (clip_ext L (2 * L - 1) (fun l m => get flmn [b; i; l; m; c]) (fun l m => get flmn' [b'; i'; l; m; c']) Ep).
Qed.
Lemma subset_forward_plane s name name' L fs fs' spins spins' delta q B Ch B' Ch' b i c b' i' c' :
  fw_scheme s -> denotes name s -> denotes name' s -> 1 <= L -> (s = MWSS -> 2 <= L) -> shape delta = [L; 2 * L - 1; 2 * L - 1] -> vlen q = 4 * L - 3 ->
  spins_in L spins -> spins_in L spins' ->
  shape fs = [B; vlen spins; rings s L 0; per_ring s L; Ch] -> shape fs' = [B'; vlen spins'; rings s L 0; per_ring s L; Ch'] ->
  0 <= b < B -> 0 <= i < vlen spins -> 0 <= c < Ch -> 0 <= b' < B' -> 0 <= i' < vlen spins' -> 0 <= c' < Ch' ->
  vat spins i = vat spins' i' ->
  (forall t p, 0 <= t < rings s L 0 -> 0 <= p < per_ring s L -> get fs [b; i; t; p; c] = get fs' [b'; i'; t; p; c']) ->
  exists r r', s2_to_wigner_subset fs spins (delta, q) L name = Ok r /\ s2_to_wigner_subset fs' spins' (delta, q) L name' = Ok r' /\
    forall l m, 0 <= l < L -> 0 <= m < 2 * L - 1 -> get r [b; i; l; m; c] = get r' [b'; i'; l; m; c'].
Proof.
  intros Hs Hd Hd' HL HL2 HD Hq Hsp Hsp' Hf Hf' Hb Hi Hc Hb' Hi' Hc' Es Ep. rewrite fw_rings, fw_per in * by auto.
  destruct (forward5 s L Hs HL name fs spins delta q B Ch _ _ Hd HL2 (clipped _ _ _ _ _ _ Hf) (quarter_is _ _ HD) Hq Hsp) as (f & E & H1 & H2).
  destruct (forward5 s L Hs HL name' fs' spins' delta q B' Ch' _ _ Hd' HL2 (clipped _ _ _ _ _ _ Hf') (quarter_is _ _ HD) Hq Hsp') as (f' & E' & H1' & H2').
  exists f, f'. split; [exact E|]. split; [exact E'|]. intros l m Hl Hm.
  pose proof (H2 b i l m c Hb Hi Hl Hm Hc) as G. pose proof (H2' b' i' l m c' Hb' Hi' Hl Hm Hc') as G'. unfold at5 in G, G'. rewrite G, G', Es.
  f_equal. exact (clip_ext (L + mo_of s) (2 * L - 1 + mo_of s) (fun l m => get fs [b; i; l; m; c]) (fun l m => get fs' [b'; i'; l; m; c']) Ep).
Qed.

(** ** Signals on the rotation group *)
Lemma gamma_component N (A : Z -> C) n : 1 <= N -> - N < n < N ->
  (csum (zrange 0 (2 * N - 1)) (fun g => csum (zrange (- (N - 1)) N) (fun k => A k * cis (IZR k * (2 * PI * IZR g / IZR (2 * N - 1))))
      * cis (-2 * PI * (IZR g / IZR (2 * N - 1) * IZR n))) / RtoC (IZR (2 * N - 1)))%C = A n.
Proof.
  intros HN Hn. assert (E : (2 * N - 1) / 2 = N - 1) by (symmetry; apply Z.div_unique with 1; lia).
  set (v := mkVec (2 * N - 1) (fun g => csum (zrange (- (N - 1)) N) (fun k => (A k * root (2 * N - 1) (k * g))%C))).
  pose proof (shift_fft_fwd v A (2 * N - 1) ltac:(lia) eq_refl) as H. rewrite E in H. replace (- (N - 1) + (2 * N - 1)) with N in H by lia.
  specialize (H ltac:(intros p Hp; reflexivity) (n + (N - 1)) ltac:(lia)). replace (n + (N - 1) - (N - 1)) with n in H by lia. rewrite <- H.
  rewrite (shift_fft_sum v (2 * N - 1)) by (auto; lia). rewrite E. replace (n + (N - 1) - (N - 1)) with n by lia. f_equal. apply cr_ext. intros g Hg.
  assert (D : IZR (2 * N - 1) <> 0%R) by (apply not_0_IZR; lia). f_equal.
  - cbn [v vat]. apply cr_ext. intros k Hk. f_equal. unfold root. f_equal. rewrite mult_IZR. field. exact D.
  - unfold root. f_equal. rewrite opp_IZR, mult_IZR. field. exact D.
Qed.

Lemma gamma_dft_signals s L N f spins B Ch c3 :
  1 <= N -> spins_below N spins -> holds_so3 s L N B Ch f (fun b c => so3_synth L N (c3 b c)) ->
  holds_signals s L B (vlen spins) Ch (gamma_dft f spins) (fun b i c => spin_signal L (- vat spins i) (c3 b c (- vat spins i)%Z)).
Proof.
  intros HN Hsp [H1 H2]. unfold gamma_dft. unfold dim0, dim1, dim2, dim3, dim4. rewrite H1. cbn [nth]. split; [reflexivity|].
  intros b i c t p x Hb Hi Hc Ht Hp Hx. cbn [arr5 get nth]. rewrite spin_part3.
  rewrite <- (gamma_component N (fun n => part3 L n (c3 b c n) (equi_longitude s L p) x) (- vat spins i) HN) by (specialize (Hsp i Hi); lia).
  f_equal. apply cr_ext. intros g Hg. unfold at5. rewrite (H2 b c g t p x) by auto. rewrite so3_synth_parts, opp_IZR. reflexivity.
Qed.

(** ** Rejections *)
Lemma take_cols_out {T} (a : ndarray T) L ix : dim2 a = 2 * L - 1 ->
  (exists i, 0 <= i < vlen ix /\ ~ (- (2 * L - 1) <= vat ix i < 2 * L - 1)) -> take_cols a ix = Err IndexError.
Proof.
  intros Hd (i & Hi & Ho). unfold take_cols. rewrite Hd.
  replace (forallb _ _) with false; [reflexivity|]. symmetry. apply Bool.not_true_is_false. intros H. rewrite forallb_forall in H.
  specialize (H i ltac:(apply in_zrange; lia)). unfold norm_index in H.
  replace ((0 <=? vat ix i) && (vat ix i <? 2 * L - 1)) with false in H by lia.
  replace ((- (2 * L - 1) <=? vat ix i) && (vat ix i <? 0)) with false in H by lia. discriminate.
Qed.

(** ** Findings *)
(** band-limit 1 and spin 1: the column of spin 0 is used *)
Lemma wrapped_value delta : quarter_matrices 1 delta ->
  I3 MW 1 (at3 delta) (column 1 (1 - 1 + - 1)) (- 1) (fun _ _ => RtoC 1) 0 0 = (- Ci * RtoC (/ (8 * PI ^ 2)))%C.
Proof.
  intros Hq. pose proof (proj2 Hq 0 0 0 ltac:(lia) ltac:(lia) ltac:(lia)) as H0. change (get delta [0; 0 + 1 - 1; 0 + 1 - 1]) with (at3 delta 0 0 0) in H0.
  pose proof (wig_00 (PI / 2)) as HW.
  assert (HI : I2 MW 1 (at3 delta) (column 1 (1 - 1 + - 1)) (- 1) (fun _ _ => RtoC 1) 0 0 = (- Ci * RtoC (/ (8 * PI ^ 2)))%C).
  { unfold I2, I1. cbn [mo_of]. change ((0 <=? 0) && (0 <=? 0)) with true. cbv iota. change (zrange 0 1) with [0]. unfold suml; cbn [fold_right map fold_left].
    change (column 1 (1 - 1 + - 1)) with 0. change (0 - 0) with 0. rewrite H0, HW. change (0 - (1 - 1 + 0)) with 0. change (- 0) with 0.
    change (ipow 0) with (RtoC 1). change (ipow (- 1)) with (- Ci)%C. rewrite Rmult_0_l, cis_0. unfold sc. change (2 * 0 + 1) with 1.
    replace (1 / (8 * PI ^ 2))%R with (/ (8 * PI ^ 2))%R by (unfold Rdiv; ring). ring. }
  unfold I3. cbn [mo_of]. change ((2 * 1 - 1 + 0) / 2) with 0. change (zrange (- 0) (- 0 + (2 * 1 - 1 + 0))) with [0]. unfold suml; cbn [fold_right map fold_left].
  change (0 + 0) with 0. rewrite HI. change (0 * 0) with 0. rewrite root_0. ring.
Qed.
(** band-limits L = 2, N = 1: the component with n = 0 is analysed as a component with n = -1 *)
Definition alias_c (n l m : Z) : C := if (n =? 0) && (l =? 1) && (m =? -1) then RtoC 1 else RtoC 0.
Definition alias_f : ndarray C :=
  mkArr [1; 1; 2; 3; 1] (fun ix => so3_synth 2 1 alias_c (equi_longitude MW 2 (nth 3 ix 0)) (mw_theta 2 (nth 2 ix 0)) 0).
Definition alias_k : R := (sin (PI / 3) / sqrt 2 / (cos (PI / 6) ^ 2))%R.
Lemma alias_k_pos : (0 < alias_k)%R.
Proof.
  unfold alias_k. pose proof PI_RGT_0 as HP. assert (0 < sin (PI / 3))%R by (apply sin_gt_0; lra). assert (0 < cos (PI / 6))%R by (apply cos_gt_0; lra).
  assert (0 < sqrt 2)%R by (apply sqrt_lt_R0; lra). apply Rdiv_lt_0_compat; [now apply Rdiv_lt_0_compat|]. now apply pow_lt.
Qed.
Lemma alias_holds : holds_so3 MW 2 1 1 1 alias_f (fun _ _ => so3_synth 2 1 alias_c).
Proof.
  split; [reflexivity|]. intros b c g t p x Hb Hc Hg Ht Hp Hx. cbn in Hx. subst x. unfold alias_f. cbn [get nth]. f_equal.
  replace g with 0 by lia. cbn -[Rmult Rdiv]. unfold Rdiv. ring.
Qed.
Lemma alias_part n c alpha beta : n = 0 \/ n = -1 -> c 0 0 = RtoC 0 -> c 1 0 = RtoC 0 -> c 1 1 = RtoC 0 ->
  part3 2 n c alpha beta = (RtoC ((2 * IZR 1 + 1) / (8 * PI ^ 2)) * c 1 (-1) * (cis (IZR (-1) * alpha) * RtoC (wigner_d 1 (-1) n beta)))%C.
Proof.
  intros Hn H0 H1 H2. unfold part3. destruct Hn as [-> | ->].
  - change (zrange (Z.abs 0) 2) with [0; 1]. unfold suml; cbn [fold_right map fold_left]. change (zrange (- 0) (0 + 1)) with [0]. change (zrange (- (1)) (1 + 1)) with [-1; 0; 1]. unfold suml; cbn [fold_right map fold_left].
    rewrite H0, H1, H2. ring.
  - change (zrange (Z.abs (-1)) 2) with [1]. unfold suml; cbn [fold_right map fold_left]. change (zrange (- (1)) (1 + 1)) with [-1; 0; 1]. unfold suml; cbn [fold_right map fold_left].
    rewrite H1, H2. ring.
Qed.
Lemma alias_signals : holds_signals MW 2 1 1 1 (gamma_dft alias_f (mkVec 1 (fun _ => 1)))
  (fun _ i _ => spin_signal 2 (- vat (mkVec 1 (fun _ => 1)) i) (fun l m => RtoC alias_k * alias_c 0 l m)%C).
Proof.
  split; [reflexivity|]. intros b i c t p x Hb Hi Hc Ht Hp Hx. cbn in Hx. subst x. cbn [vat]. rewrite spin_part3.
  transitivity (part3 2 0 (alias_c 0) (equi_longitude MW 2 p) (mw_theta 2 t)).
  - unfold gamma_dft. unfold dim0, dim1, dim2, dim3, dim4. cbn [alias_f shape arr5 get nth]. change (zrange 0 1) with [0]. unfold suml; cbn [fold_right map fold_left].
    unfold at5, alias_f. cbn [get nth]. rewrite so3_synth_parts. change (zrange (- (1 - 1)) 1) with [0]. unfold suml; cbn [fold_right map fold_left vat].
    replace (-2 * PI * (IZR 0 / IZR 1 * - IZR 1))%R with 0%R by (unfold Rdiv; ring). rewrite !Rmult_0_l, cis_0. field.
    intros E. injection E. lra.
  - rewrite !alias_part by (auto; cbn; ring). cbn [Z.eqb andb alias_c]. rewrite wd1_m0, wd1_mm.
    cbn in Ht. assert (Hc2 : t = 0 \/ t = 1) by lia. 
    assert (E : (sin (mw_theta 2 t) / sqrt 2 = alias_k * cos (mw_theta 2 t / 2) ^ 2)%R).
    { pose proof PI_RGT_0 as HP. unfold mw_theta. destruct Hc2 as [-> | ->].
      - replace (IZR (2 * 0 + 1) * PI / IZR (2 * 2 - 1))%R with (PI / 3)%R by (cbn; field). replace (PI / 3 / 2)%R with (PI / 6)%R by field.
        unfold alias_k. assert (0 < cos (PI / 6))%R by (apply cos_gt_0; lra). assert (0 < sqrt 2)%R by (apply sqrt_lt_R0; lra). field. lra.
      - replace (IZR (2 * 1 + 1) * PI / IZR (2 * 2 - 1))%R with PI by (cbn; field). rewrite sin_PI, cos_PI2. unfold Rdiv. ring. }
    rewrite E, RtoC_mult. ring.
Qed.
