(** C55-C57: the transforms of batches of spin signals and of subsets of Wigner coefficients. *)
From Coq Require Import Reals Lra ZifyBool.
From Coquelicot Require Import Complex.
From Verif Require Import Lib.Py Lib.PyFacts Lib.Vec Lib.Sums Lib.Cplx Lib.Arr Lib.ArrFacts
  Model.Samples Model.Grids Model.Resampling Model.Quadrature Model.Spherical Model.Precompute Model.Wigner Model.FourierWigner Model.PrecomputeWigner Model.CustomOps
  Spec.SamplesSpec Spec.WignerSpec Spec.SphereSpec Spec.GridSpec Spec.HealpixFFTSpec Spec.SphericalSpec Spec.SO3Spec Spec.FourierWignerSpec Spec.CustomOpsSpec
  Proofs.RisboProofs Proofs.SphereTheory Proofs.SphInverse Proofs.PrecomputeKernel Proofs.WignerInverse Proofs.FWArrays Proofs.FWInverse Proofs.FWForward Proofs.CustomOpsProofs Proofs.CustomOpsTop Properties.FourierWignerProps.
Open Scope string_scope.
Open Scope Z_scope.

(** wigner_subset_to_s2 samples, for every item, spin and channel, the signal of that spin. *)
Theorem C55_synthesis s name flmn spins DW L B Ch :
  fw_scheme s -> denotes name s -> 1 <= L -> quarter_matrices L (fst DW) -> spins_below L spins ->
  shape flmn = [B; vlen spins; L; 2 * L - 1; Ch] ->
  exists f, wigner_subset_to_s2 flmn spins DW L name = Ok f /\
    holds_signals s L B (vlen spins) Ch f (fun b i c => spin_signal L (- vat spins i) (plane L flmn b i c)).
Proof. intros. now apply subset_inverse. Qed.
Print Assumptions C55_synthesis.

(** The signal of an item, spin and channel depends on the coefficients of that item, spin and channel only, whatever
    the other ones and their number are. *)
Theorem C55_independent s name name' flmn flmn' spins spins' delta q q' L B Ch B' Ch' b i c b' i' c' :
  fw_scheme s -> denotes name s -> denotes name' s -> 1 <= L -> shape delta = [L; 2 * L - 1; 2 * L - 1] -> spins_below L spins -> spins_below L spins' ->
  shape flmn = [B; vlen spins; L; 2 * L - 1; Ch] -> shape flmn' = [B'; vlen spins'; L; 2 * L - 1; Ch'] ->
  0 <= b < B -> 0 <= i < vlen spins -> 0 <= c < Ch -> 0 <= b' < B' -> 0 <= i' < vlen spins' -> 0 <= c' < Ch' ->
  vat spins i = vat spins' i' ->
  (forall l m, 0 <= l < L -> 0 <= m < 2 * L - 1 -> get flmn [b; i; l; m; c] = get flmn' [b'; i'; l; m; c']) ->
  exists f f', wigner_subset_to_s2 flmn spins (delta, q) L name = Ok f /\ wigner_subset_to_s2 flmn' spins' (delta, q') L name' = Ok f' /\
    forall t p, 0 <= t < rings s L 0 -> 0 <= p < per_ring s L -> get f [b; i; t; p; c] = get f' [b'; i'; t; p; c'].
Proof. intros. eapply subset_inverse_plane; eauto using below_in. Qed.
Print Assumptions C55_independent.

(** Transforming all spins below N and summing over gamma gives the Fourier-Wigner inverse transform. *)
Theorem C55_assembles bk s name name' flmn flmn5 spins DW L N precomps :
  fw_scheme s -> denotes name s -> denotes name' s -> 1 <= N <= L -> quarter_matrices L (fst DW) -> fw_inputs L precomps ->
  shape flmn = [2 * N - 1; L; 2 * L - 1] -> shape flmn5 = [1; 2 * N - 1; L; 2 * L - 1; 1] ->
  (forall i l m, 0 <= i < 2 * N - 1 -> 0 <= l < L -> 0 <= m < 2 * L - 1 -> get flmn5 [0; i; l; m; 0] = get flmn [i; l; m]) ->
  vlen spins = 2 * N - 1 -> (forall i, 0 <= i < 2 * N - 1 -> vat spins i = N - 1 - i) ->
  exists f f5, fw_inverse bk flmn L N precomps false name = Ok f /\ wigner_subset_to_s2 flmn5 spins DW L name' = Ok f5 /\
    forall g t p, 0 <= g < 2 * N - 1 -> 0 <= t < rings s L 0 -> 0 <= p < per_ring s L ->
      get f [g; t; p] = csum (zrange (- (N - 1)) N) (fun n => (get f5 [0; n + N - 1; t; p; 0]%Z * cis (IZR n * (2 * PI * IZR g / IZR (2 * N - 1))))%C).
Proof.
  intros Hs Hd Hd' HN Hq Hp H1 H5 He Hl Hv.
  destruct (fw_inverse_lemma bk s name L N flmn precomps false (fun _ => 0%R) 0) as (f & E & S1 & G1); auto.
  { destruct precomps as [[d w]|]; [apply Hp|exact I]. }
  { discriminate. }
  destruct (subset_inverse s name' L flmn5 spins DW 1 1 Hs Hd') as (f5 & E5 & S5 & G5); auto; try lia.
  { intros i Hi. rewrite Hv by lia. lia. }
  { now rewrite Hl. }
  exists f, f5. split; [exact E|]. split; [exact E5|]. intros g t p Hg Ht Hpp.
  assert (Ec : colatitude (fun _ => 0%R) s L 0 t (theta s L t)) by (destruct Hs as [-> | ->]; reflexivity).
  assert (Er : ring_size s L 0 t = per_ring s L) by (destruct Hs as [-> | ->]; reflexivity).
  assert (Es : sample_index s 0 t p = [t; p]) by (destruct Hs as [-> | ->]; reflexivity).
  assert (El : longitude s L 0 t p = equi_longitude s L p) by (destruct Hs as [-> | ->]; reflexivity).
  rewrite <- Es, (G1 g t p (theta s L t) Hg Ht ltac:(lia) Ec), El, so3_synth_parts. apply cr_ext. intros n Hn. f_equal.
  rewrite (G5 0 (n + N - 1) 0 t p (theta s L t)); auto using fw_colat; try lia. rewrite spin_part3, Hv by lia.
  replace (- (N - 1 - (n + N - 1))) with n by lia. apply part3_ext. intros l m Hl' Hm. unfold stored3, plane. rewrite He by lia. reflexivity.
Qed.
Print Assumptions C55_assembles.

(** Rejected: other samplings, a number of spins that differs from the number of planes, indices beyond the matrices. *)
Theorem C55_rejects s name flmn spins delta q L : denotes name s ->
  (~ fw_scheme s -> wigner_subset_to_s2 flmn spins (delta, q) L name = Err ValueError) /\
  (nth 1 (shape flmn) 0 <> vlen spins -> wigner_subset_to_s2 flmn spins (delta, q) L name = Err ValueError) /\
  (fw_scheme s -> nth 1 (shape flmn) 0 = vlen spins -> nth 2 (shape delta) 0 = 2 * L - 1 ->
   (exists i, 0 <= i < vlen spins /\ (vat spins i <= - L \/ 3 * L - 2 < vat spins i)) ->
   wigner_subset_to_s2 flmn spins (delta, q) L name = Err IndexError).
Proof.
  intros Hd. unfold wigner_subset_to_s2. rewrite Hd. change (nth 1 (shape flmn) 0) with (dim1 flmn). split; [|split].
  - intros Hs. destruct s; try reflexivity; exfalso; apply Hs; [now left|now right].
  - intros Hn. replace (dim1 flmn =? vlen spins) with false by lia. destruct (negb _); reflexivity.
  - intros Hs En ED (i & Hi & Ho). rewrite En, Z.eqb_refl. replace (negb (str_in _ _)) with false by (destruct Hs as [-> | ->]; reflexivity).
    cbn [negb fst]. cbv zeta. rewrite (take_cols_out delta L); [reflexivity|exact ED|]. exists i. cbn [vmap vlen vat]. split; [exact Hi|]. lia.
Qed.
Print Assumptions C55_rejects.

(** A spin that is not below the band-limit has no coefficient, so that its signal is 0; instead of an error or 0 the
    function returns another signal, because the index of the column of the matrices wraps around. *)
Theorem C55_spin_refuted : exists flmn spins L, shape flmn = [1; 1; L; 2 * L - 1; 1] /\ vlen spins = 1 /\ vat spins 0 = L /\
  (forall c theta phi, spin_signal L (- vat spins 0) c theta phi = RtoC 0) /\
  forall delta q, quarter_matrices L delta -> exists f, wigner_subset_to_s2 flmn spins (delta, q) L "mw" = Ok f /\ get f [0; 0; 0; 0; 0] <> RtoC 0.
Proof.
  exists (mkArr [1; 1; 1; 1; 1] (fun _ => RtoC 1)), (mkVec 1 (fun _ => 1)), 1. repeat split.
  intros delta q Hq. assert (Hs : fw_scheme MW) by now left.
  destruct (inverse5 MW 1 Hs ltac:(lia) "mw" (mkArr [1; 1; 1; 1; 1] (fun _ => RtoC 1)) (mkVec 1 (fun _ => 1)) delta q 1 1 (fun _ _ _ _ _ => RtoC 1) (at3 delta)) as (f & E & S1 & G1).
  - reflexivity.
  - split; reflexivity.
  - apply quarter_is, (proj1 Hq).
  - intros i Hi. cbn. lia.
  - exists f. split; [exact E|]. specialize (G1 0 0 0 0 0). unfold at5 in G1. rewrite G1 by (cbn; lia).
    change (I3 MW 1 (at3 delta) (column 1 (1 - 1 + - 1)) (- 1) (fun _ _ => RtoC 1) 0 0 <> RtoC 0).
    rewrite (wrapped_value delta Hq). intros H. apply (f_equal Im) in H. cbn in H. pose proof PI_RGT_0 as HP.
    assert (0 < / (8 * PI ^ 2))%R by (apply Rinv_0_lt_compat; nra). cbn in *. lra.
Qed.
Print Assumptions C55_spin_refuted.

(** s2_to_wigner_subset recovers the coefficients of each signal; those that do not exist are 0. *)
Theorem C56_recover s name fs spins DW L B Ch cf :
  fw_scheme s -> denotes name s -> 1 <= L -> (s = MWSS -> 2 <= L) -> quarter_matrices L (fst DW) -> upsampled_weights L (snd DW) -> spins_below L spins ->
  holds_signals s L B (vlen spins) Ch fs (fun b i c => spin_signal L (- vat spins i) (cf b i c)) ->
  exists flmn, s2_to_wigner_subset fs spins DW L name = Ok flmn /\ shape flmn = [B; vlen spins; L; 2 * L - 1; Ch] /\
    forall b i c l m, 0 <= b < B -> 0 <= i < vlen spins -> 0 <= c < Ch -> 0 <= l < L -> - L < m < L ->
      plane L flmn b i c l m = supported L (- vat spins i) (cf b i c) l m.
Proof. intros. now apply (subset_forward s). Qed.
Print Assumptions C56_recover.

(** The round trip returns the coefficients. *)
Theorem C56_round_trip s name name' flmn spins DW L B Ch :
  fw_scheme s -> denotes name s -> denotes name' s -> 1 <= L -> (s = MWSS -> 2 <= L) ->
  quarter_matrices L (fst DW) -> upsampled_weights L (snd DW) -> spins_below L spins -> shape flmn = [B; vlen spins; L; 2 * L - 1; Ch] ->
  exists f flmn', wigner_subset_to_s2 flmn spins DW L name = Ok f /\ s2_to_wigner_subset f spins DW L name' = Ok flmn' /\
    shape flmn' = shape flmn /\
    forall b i c l m, 0 <= b < B -> 0 <= i < vlen spins -> 0 <= c < Ch -> 0 <= l < L -> - L < m < L ->
      plane L flmn' b i c l m = supported L (- vat spins i) (plane L flmn b i c) l m.
Proof.
  intros Hs Hd Hd' HL HL2 Hq Hw Hsp Hf. destruct (subset_inverse s name L flmn spins DW B Ch) as (f & E & Hh); auto.
  destruct (subset_forward s name' L f spins DW B Ch (fun b i c => plane L flmn b i c)) as (r & E' & Hr & Hp); auto.
  exists f, r. split; [exact E|]. split; [exact E'|]. split; [congruence|exact Hp].
Qed.
Print Assumptions C56_round_trip.

(** The coefficients of an item, spin and channel depend on the samples of that item, spin and channel only. The
    samples need not be those of band-limited signals, and the weights need not be the right ones. *)
Theorem C56_independent s name name' fs fs' spins spins' delta q L B Ch B' Ch' b i c b' i' c' :
  fw_scheme s -> denotes name s -> denotes name' s -> 1 <= L -> (s = MWSS -> 2 <= L) -> shape delta = [L; 2 * L - 1; 2 * L - 1] -> vlen q = 4 * L - 3 ->
  spins_below L spins -> spins_below L spins' ->
  shape fs = [B; vlen spins; rings s L 0; per_ring s L; Ch] -> shape fs' = [B'; vlen spins'; rings s L 0; per_ring s L; Ch'] ->
  0 <= b < B -> 0 <= i < vlen spins -> 0 <= c < Ch -> 0 <= b' < B' -> 0 <= i' < vlen spins' -> 0 <= c' < Ch' ->
  vat spins i = vat spins' i' ->
  (forall t p, 0 <= t < rings s L 0 -> 0 <= p < per_ring s L -> get fs [b; i; t; p; c] = get fs' [b'; i'; t; p; c']) ->
  exists r r', s2_to_wigner_subset fs spins (delta, q) L name = Ok r /\ s2_to_wigner_subset fs' spins' (delta, q) L name' = Ok r' /\
    forall l m, 0 <= l < L -> - L < m < L -> plane L r b i c l m = plane L r' b' i' c' l m.
Proof.
  intros. destruct (subset_forward_plane s name name' L fs fs' spins spins' delta q B Ch B' Ch' b i c b' i' c') as (r & r' & E & E' & G); auto using below_in.
  exists r, r'. split; [exact E|]. split; [exact E'|]. intros l m Hl Hm. unfold plane. apply G; lia.
Qed.
Print Assumptions C56_independent.

Theorem C56_rejects s name f fs spins DW L N : denotes name s -> ~ fw_scheme s ->
  s2_to_wigner_subset fs spins DW L name = Err ValueError /\ so3_to_wigner_subset f spins DW L N name = Err ValueError.
Proof.
  intros Hd Hs. unfold so3_to_wigner_subset, s2_to_wigner_subset. rewrite Hd.
  destruct s; try (split; reflexivity); exfalso; apply Hs; [now left|now right].
Qed.
Print Assumptions C56_rejects.

(** With mwss and L = 1 the inverse transform works and the forward transform rejects all signals, because the
    width of the padding is negative. *)
Theorem C56_one_refuted : (forall delta q flmn spins B Ch, quarter_matrices 1 delta -> spins_below 1 spins -> shape flmn = [B; vlen spins; 1; 1; Ch] ->
    exists f, wigner_subset_to_s2 flmn spins (delta, q) 1 "mwss" = Ok f) /\
  forall fs spins DW B Ch, shape fs = [B; vlen spins; 2; 2; Ch] -> s2_to_wigner_subset fs spins DW 1 "mwss" = Err ValueError.
Proof.
  split.
  - intros delta q flmn spins B Ch Hq Hsp Hf. destruct (subset_inverse MWSS "mwss" 1 flmn spins (delta, q) B Ch) as (f & E & _); auto; try lia; [now right|reflexivity|].
    now exists f.
  - intros fs spins DW B Ch Hf. assert (Hs : fw_scheme MWSS) by now right.
    destruct (forward_start MWSS 1 Hs ltac:(lia) "mwss" fs spins B Ch (fun b i t p c => get fs [b; i; t; p; c])) as (temp & x2 & x3 & E1 & E2 & E3 & _).
    + reflexivity.
    + split; [exact Hf|reflexivity].
    + unfold s2_to_wigner_subset. change (negb (str_in (lower "mwss") ["mw"; "mwss"])) with false. cbv iota zeta.
      change (if streq (lower "mwss") "mwss" then 1 else 0) with (mo_of MWSS). rewrite E1. cbn [bind]. rewrite E2. cbn [bind]. rewrite E3. cbn [bind]. reflexivity.
Qed.
Print Assumptions C56_one_refuted.

(** so3_to_wigner_subset returns, for each spin of absolute value below N, the coefficients with n = -spin. *)
Theorem C57_recover s name f spins DW L N B Ch c3 :
  fw_scheme s -> denotes name s -> 1 <= N <= L -> (s = MWSS -> 2 <= L) -> quarter_matrices L (fst DW) -> upsampled_weights L (snd DW) -> spins_below N spins ->
  holds_so3 s L N B Ch f (fun b c => so3_synth L N (c3 b c)) ->
  exists flmn, so3_to_wigner_subset f spins DW L N name = Ok flmn /\ shape flmn = [B; vlen spins; L; 2 * L - 1; Ch] /\
    forall b i c l m, 0 <= b < B -> 0 <= i < vlen spins -> 0 <= c < Ch -> 0 <= l < L -> - L < m < L ->
      plane L flmn b i c l m = supported L (- vat spins i) (c3 b c (- vat spins i)%Z) l m.
Proof.
  intros Hs Hd HN HL2 Hq Hw Hsp Hf. unfold so3_to_wigner_subset.
  apply (subset_forward s name L (gamma_dft f spins) spins DW B Ch (fun b i c => c3 b c (- vat spins i)%Z)); auto; try lia.
  - intros i Hi. specialize (Hsp i Hi). lia.
  - now apply (gamma_dft_signals s L N).
Qed.
Print Assumptions C57_recover.

(** They are the planes that the Fourier-Wigner forward transform returns. *)
Theorem C57_agrees bk s name name' f f5 spins DW precomps L N c :
  fw_scheme s -> denotes name s -> denotes name' s -> 1 <= N <= L -> (s = MWSS -> 2 <= L) ->
  quarter_matrices L (fst DW) -> upsampled_weights L (snd DW) -> fw_inputs L precomps -> spins_below N spins ->
  so3_holds (fun _ => 0%R) s L N 0 f (so3_synth L N c) ->
  shape f5 = [1; 2 * N - 1; rings s L 0; per_ring s L; 1] ->
  (forall g t p, 0 <= g < 2 * N - 1 -> 0 <= t < rings s L 0 -> 0 <= p < per_ring s L -> get f5 [0; g; t; p; 0] = get f [g; t; p]) ->
  exists flmn flmn5, fw_forward bk f L N precomps false name = Ok flmn /\ so3_to_wigner_subset f5 spins DW L N name' = Ok flmn5 /\
    forall i l m, 0 <= i < vlen spins -> 0 <= l < L -> - L < m < L -> plane L flmn5 0 i 0 l m = stored3 L N flmn (- vat spins i) l m.
Proof.
  intros Hs Hd Hd' HN HL2 Hq Hw Hp Hsp Hf H5 He.
  destruct (fw_forward_lemma bk s name L N c f precomps false (fun _ => 0%R) 0) as (flmn & E & _ & G); auto; [discriminate|].
  destruct (C57_recover s name' f5 spins DW L N 1 1 (fun _ _ => c)) as (r & E' & _ & G'); auto.
  { split; [exact H5|]. intros b ch g t p x Hb Hc Hg Ht Hpp Hx. replace b with 0 by lia. replace ch with 0 by lia. rewrite He by auto.
    assert (Es : sample_index s 0 t p = [t; p]) by (destruct Hs as [-> | ->]; reflexivity).
    assert (Ec : colatitude (fun _ => 0%R) s L 0 t x) by (destruct Hs as [-> | ->]; exact Hx).
    assert (Er : ring_size s L 0 t = per_ring s L) by (destruct Hs as [-> | ->]; reflexivity).
    assert (El : longitude s L 0 t p = equi_longitude s L p) by (destruct Hs as [-> | ->]; reflexivity).
    destruct Hf as [_ Hf]. specialize (Hf g t p x Hg Ht ltac:(lia) Ec). rewrite Es, El in Hf. exact Hf. }
  exists flmn, r. split; [exact E|]. split; [exact E'|]. intros i l m Hi Hl Hm. rewrite G' by lia. rewrite G by (specialize (Hsp i Hi); lia).
  unfold supported, restricted3. rewrite Z.max_r by lia. reflexivity.
Qed.
Print Assumptions C57_agrees.

(** The documentation allows spins of absolute value N as well: the signal has no such coefficients, and those of
    another n are returned in their place. *)
Theorem C57_limit_refuted : exists c f, (forall n l m, n <> 0 -> c n l m = RtoC 0) /\ holds_so3 MW 2 1 1 1 f (fun _ _ => so3_synth 2 1 c) /\
  forall DW, quarter_matrices 2 (fst DW) -> upsampled_weights 2 (snd DW) ->
    exists flmn, so3_to_wigner_subset f (mkVec 1 (fun _ => 1)) DW 2 1 "mw" = Ok flmn /\ plane 2 flmn 0 0 0 1 (-1) <> RtoC 0.
Proof.
  exists alias_c, alias_f. split; [|split; [exact alias_holds|]].
  - intros n l m Hn. unfold alias_c. replace (n =? 0) with false by lia. reflexivity.
  - intros DW Hq Hw. unfold so3_to_wigner_subset.
    destruct (subset_forward MW "mw" 2 (gamma_dft alias_f (mkVec 1 (fun _ => 1))) (mkVec 1 (fun _ => 1)) DW 1 1 (fun _ _ _ l m => RtoC alias_k * alias_c 0 l m)%C)
      as (r & E & _ & G); auto; try lia; [now left|reflexivity| |exact alias_signals|].
    + intros i Hi. cbn. lia.
    + exists r. split; [exact E|]. rewrite G by (cbn; lia). cbn -[alias_k]. pose proof alias_k_pos. intros H'. apply (f_equal Re) in H'. cbn -[alias_k] in H'. lra.
Qed.
Print Assumptions C57_limit_refuted.

(** L = 3: two items, three signals of spins 1, -2 and 1, one channel; all coefficients differ. *)
Definition spins3 : vec Z := mkVec 3 (fun i => if i =? 1 then -2 else 1).
Definition flm5 : ndarray C := mkArr [2; 3; 3; 5; 1]
  (fun ix => (IZR (1 + nth 3 ix 0 + 5 * (nth 2 ix 0 + 3 * (nth 1 ix 0 + 3 * nth 0 ix 0))), 1%R)).
Example C55_ex : exists DW f flmn', quarter_matrices 3 (fst DW) /\ upsampled_weights 3 (snd DW) /\ spins_below 3 spins3 /\
  fw_scheme MW /\ denotes "MW" MW /\ fw_scheme MWSS /\ ~ fw_scheme GL /\ shape flm5 = [2; vlen spins3; 3; 2 * 3 - 1; 1] /\
  wigner_subset_to_s2 flm5 spins3 DW 3 "mwss" = Ok f /\
  holds_signals MWSS 3 2 3 1 f (fun b i c => spin_signal 3 (- vat spins3 i) (plane 3 flm5 b i c)) /\
  s2_to_wigner_subset f spins3 DW 3 "MWSS" = Ok flmn' /\ plane 3 flmn' 1 0 0 2 (-2) = (56%R, 1%R) /\ plane 3 flmn' 1 1 0 1 1 = RtoC 0.
Proof.
  destruct (C37_kernel numpy 3 ltac:(lia)) as (delta & q & _ & H1 & H2). exists (delta, q).
  assert (Hsp : spins_below 3 spins3) by (intros i Hi; unfold spins3; cbn [vat]; destruct (i =? 1); lia).
  assert (H5 : shape flm5 = [2; vlen spins3; 3; 2 * 3 - 1; 1]) by reflexivity.
  assert (Hs : fw_scheme MWSS) by now right.
  destruct (C55_synthesis MWSS "mwss" flm5 spins3 (delta, q) 3 2 1 Hs eq_refl ltac:(lia) H1 Hsp H5) as (f & E & Hf).
  destruct (C56_recover MWSS "MWSS" f spins3 (delta, q) 3 2 1 (fun b i c => plane 3 flm5 b i c) Hs eq_refl ltac:(lia) ltac:(lia) H1 H2 Hsp Hf) as (r & E' & _ & G).
  exists f, r. split; [exact H1|]. split; [exact H2|]. split; [exact Hsp|]. split; [now left|]. split; [reflexivity|]. split; [exact Hs|].
  split; [intros [H|H]; discriminate|]. split; [exact H5|]. split; [exact E|]. split; [exact Hf|]. split; [exact E'|].
  split; rewrite G by (cbn; lia); reflexivity.
Qed.
(** L = 3, N = 2: a signal on the rotation group with coefficients that all differ, and the spins 0, 1 and -1. *)
Definition c57 (n l m : Z) : C := (IZR (n + 10 * l + 100 * m), 2%R).
Definition f57 : ndarray C := mkArr [1; 3; 3; 5; 1]
  (fun ix => so3_synth 3 2 c57 (equi_longitude MW 3 (nth 3 ix 0)) (mw_theta 3 (nth 2 ix 0)) (2 * PI * IZR (nth 1 ix 0%Z) / IZR 3)%R).
Definition spins57 : vec Z := mkVec 3 (fun i => if i =? 2 then -1 else i).
Example C57_ex : spins_below 2 spins57 /\ holds_so3 MW 3 2 1 1 f57 (fun _ _ => so3_synth 3 2 c57) /\
  so3_holds (fun _ => 0%R) MW 3 2 0 (mkArr [3; 3; 5] (fun ix => get f57 [0; nth 0 ix 0; nth 1 ix 0; nth 2 ix 0; 0])) (so3_synth 3 2 c57) /\
  exists DW flmn, quarter_matrices 3 (fst DW) /\ upsampled_weights 3 (snd DW) /\ so3_to_wigner_subset f57 spins57 DW 3 2 "mw" = Ok flmn /\
    plane 3 flmn 0 1 0 2 (-2) = ((-181)%R, 2%R).
Proof.
  assert (Hsp : spins_below 2 spins57) by (intros i Hi; unfold spins57 in *; cbn [vat vlen] in *; destruct (Z.eqb_spec i 2); lia).
  assert (Hf : holds_so3 MW 3 2 1 1 f57 (fun _ _ => so3_synth 3 2 c57)).
  { split; [reflexivity|]. intros b c g t p x Hb Hc Hg Ht Hp Hx. cbn in Hx. subst x. reflexivity. }
  split; [exact Hsp|]. split; [exact Hf|]. split.
  { split; [reflexivity|]. intros g t p x Hg Ht Hp Hx. cbn in Hx. subst x. reflexivity. }
  destruct (C37_kernel numpy 3 ltac:(lia)) as (delta & q & _ & H1 & H2). exists (delta, q).
  assert (Hs : fw_scheme MW) by now left.
  destruct (C57_recover MW "mw" f57 spins57 (delta, q) 3 2 1 1 (fun _ _ => c57) Hs eq_refl ltac:(lia) ltac:(discriminate) H1 H2 Hsp Hf) as (r & E & _ & G).
  exists r. split; [exact H1|]. split; [exact H2|]. split; [exact E|]. rewrite G by (cbn; lia). reflexivity.
Qed.
