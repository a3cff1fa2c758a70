(** Resampling in rounded arithmetic: the functions. *)
From Coq Require Import Reals Lra Lia ZifyBool.
From Coquelicot Require Import Coquelicot.
From Verif Require Import Lib.Py Lib.PyFacts Lib.Vec Lib.VecFacts Lib.Sums Lib.Cplx Lib.Arr Lib.ArrFacts Lib.MatFacts Model.FFT Model.Samples Model.RisboFloat
  Model.Resampling Model.PrecomputeFloat Model.ResamplingFloat Spec.RoundingSpec Spec.PrecomputeFloatSpec Spec.ResamplingFloatSpec
  Proofs.SpectralBound Proofs.ResamplingProofs Proofs.FloatInverse Proofs.FloatFourier Proofs.L2Norm Proofs.FloatResampling.
Open Scope R_scope.

(** rows L..2L-2 become the mirrored rows L-2..0 *)
Lemma rel_flip a e L s d : (1 <= L)%Z -> rel a e (2 * L - 1) (2 * L - 1) s d ->
  exists a' e', slice2_set a L (2 * L - 1) 0 (2 * L - 1) (flip0 (slice2 a 0 (L - 1) 0 (2 * L - 1))) = Ok a' /\
    slice2_set e L (2 * L - 1) 0 (2 * L - 1) (flip0 (slice2 e 0 (L - 1) 0 (2 * L - 1))) = Ok e' /\
    rel a' e' (2 * L - 1) (2 * L - 1) (3 / 2 * s) (3 / 2 * d).
Proof.
  intros HL R. destruct (rel_mat _ _ _ _ _ _ R) as [MA ME]. destruct R as (_ & _ & R1 & R2). set (n := (2 * L - 1)%Z) in *.
  assert (M : forall x : ndarray C, is_mat x n n (at2 x) -> exists x', slice2_set x L n 0 n (flip0 (slice2 x 0 (L - 1) 0 n)) = Ok x' /\
    is_mat x' n n (fun r c => if (r <? L)%Z then at2 x r c else at2 x (2 * L - 2 - r)%Z c)).
  { intros x MX. assert (P := flip0_ok _ _ _ _ (slice2_ok x n n _ 0 (L - 1) 0 n MX ltac:(lia) ltac:(lia) ltac:(lia) ltac:(lia) ltac:(lia) ltac:(lia))).
    replace (L - 1 - 0)%Z with (n - L)%Z in P by lia.
    destruct (slice2_set_ok x _ n n _ _ L n 0 n MX P) as (x' & Ex & Hx); try lia. exists x'. split; [exact Ex|].
    apply (is_mat_ext _ _ _ _ _ Hx). intros r c Hr Hc. cbv beta. destruct (Z.ltb_spec r L); repeat zif; [reflexivity|]. f_equal; lia. }
  destruct (M a MA) as (a' & Ea & Ha). destruct (M e ME) as (e' & Ee & He). exists a', e'. split; [exact Ea|]. split; [exact Ee|].
  assert (B : forall (F : Z -> Z -> C) t, l2_map n n F <= t -> l2_map n n (fun r c => if (r <? L)%Z then F r c else F (2 * L - 2 - r)%Z c) <= 3 / 2 * t).
  { intros F t Ht. eapply Rle_trans; [apply (sq2_mirror n n L F (fun r => (2 * L - 2 - r)%Z) (fun _ c => c)); try lia; intros; lia || reflexivity|].
    apply Rmult_le_compat_l; [lra|]. eapply Rle_trans; [|exact Ht].
    assert (Q := sq2_part n n 0 L 0 n F ltac:(lia) ltac:(lia) ltac:(lia) ltac:(lia) ltac:(lia) ltac:(lia)). rewrite !Z.sub_0_r in Q. exact Q. }
  apply (rel_intro _ _ _ _ _ _ _ _ Ha He); [now apply B|].
  rewrite (map_ext n n _ (fun r c => if (r <? L)%Z then (at2 a r c - at2 e r c)%C else (at2 a (2 * L - 2 - r)%Z c - at2 e (2 * L - 2 - r)%Z c)%C)).
  - exact (B (fun r c => at2 a r c - at2 e r c)%C d R2).
  - intros r c _ _. destruct (r <? L)%Z; reflexivity.
Qed.

Section Float.
  Variables (A : arith) (u eta : R).
  Hypothesis HA : rounded A u eta.
  Let u0 : 0 <= u := rd_u _ _ _ HA.
  Let e0 : 0 <= eta := rd_eta _ _ _ HA.
  Hypothesis Hu : u <= / 1000.
  Variables (S : rffts) (L spin : Z) (eps : R).
  Hypothesis HL : (1 <= L)%Z.
  Hypothesis Heps : 0 <= eps <= / 100.
  Let n := (2 * L - 1)%Z.
  Let q := sqrt (IZR n).

  Lemma n_pos : (0 < n)%Z. Proof. unfold n. lia. Qed.
  Lemma pow_m1_unit k : Cmod (pow_m1 k) = 1.
  Proof. unfold pow_m1. rewrite Cmod_R. destruct (sgn_cases (Z.abs k)) as [->| ->]; unfold Rabs; destruct (Rcase_abs _); lra. Qed.
  Lemma self_dist (z : C) t : 0 <= t -> Cmod (z - z)%C <= t.
  Proof. intros. replace (z - z)%C with (RtoC 0) by ring. now rewrite Cmod_0. Qed.
  Lemma square_nn k : (0 <= k)%Z -> sqrt (IZR k * IZR k) = IZR k.
  Proof. intros. apply sqrt_square. now apply IZR_le. Qed.

  Lemma extension_near a e s d : transforms_accurate S n eps -> rel a e L n s d ->
    exists a' e', rs_extension A S a L spin "mw" = Ok a' /\ periodic_extension numpy e L spin "mw" = Ok e' /\
      rel a' e' n n (3 / 2 * s) (16 / 10 * d + 305 / 100 * (eps * s) + 31 * (u * s) + 17 * (eta * q)).
  Proof.
    intros HS R. destruct (rel_nonneg _ _ _ _ _ _ R) as [s0 d0]. destruct (q_pos n n_pos) as [Q1 Q2]. fold q in Q1, Q2.
    unfold rs_extension, periodic_extension. change (ntheta (Some L) "mw" None) with (@Ok Z L). change (nphi_equiang (Some L) "mw") with (@Ok Z n).
    change (ntheta_extension L "mw") with (@Ok Z n). cbn [bind]. change (streq "mw" "mwss") with false. cbv iota. rewrite !Z.add_0_r. fold n.
    assert (R0 := rel_part a e L n s d 0 L 0 n R ltac:(lia) ltac:(lia) ltac:(lia) ltac:(lia) ltac:(unfold n; lia) ltac:(lia)).
    destruct (rel_pad _ _ n n s d 0 L 0 n R0 ltac:(lia) ltac:(lia) ltac:(unfold n; lia) ltac:(lia) ltac:(unfold n; lia) ltac:(lia)) as (a1 & e1 & -> & -> & R1'). cbn [bind].
    assert (R2' := trans_rows _ _ n n q eps _ _ _ _ (t_fft S n eps n_pos HS) ltac:(lra) ltac:(lra) n_pos R1').
    destruct (rel_flip _ _ L _ _ HL R2') as (a3 & e3 & E3a & E3e & R3'). fold n in E3a, E3e, R3'. rewrite E3a, E3e. cbn [bind]. clear E3a E3e.
    destruct (rel_scale A u eta HA Hu _ _ n n _ _ L n 0 n (fun _ c => pow_m1 (- (L - 1) + c)) (fun _ c => pow_m1 (- (L - 1) + c)) 0 R3') as (a4 & e4 & E4a & E4e & R4');
      try (unfold n; lia); try lra.
    { intros. split; [apply pow_m1_unit|apply self_dist; lra]. }
    rewrite E4a, E4e. cbn [bind]. clear E4a E4e.
    destruct (rel_scale A u eta HA Hu _ _ n n _ _ L n 0 n (fun _ _ => pow_m1 spin) (fun _ _ => pow_m1 spin) 0 R4') as (a5 & e5 & E5a & E5e & R5');
      try (unfold n; lia); try lra.
    { intros. split; [apply pow_m1_unit|apply self_dist; lra]. }
    rewrite E5a, E5e. cbn [bind]. clear E5a E5e.
    assert (IQ : 0 < / q) by (now apply Rinv_0_lt_compat).
    assert (R6' := trans_rows _ _ n n (/ q) eps _ _ _ _ (t_ifft S n eps n_pos HS) ltac:(lra) ltac:(lra) n_pos R5').
    eexists. eexists. split; [reflexivity|]. split; [reflexivity|]. apply (rel_le _ _ _ _ _ _ _ _ R6').
    - right. field. lra.
    - rewrite square_nn by (unfold n; lia). rewrite <- Q2.
      set (D2 := (1 + eps) * d + eps * s). set (X := 3 / 2 * s). set (D3 := 3 / 2 * D2). set (D4 := D3 + (10 * u * (X + D3) + 8 * eta * q)). set (D5 := D4 + (10 * u * (X + D4) + 8 * eta * q)).
      match goal with |- ?x <= _ => replace x with ((1 + eps) * D5 + eps * X) end.
      2:{ unfold D5, D4, D3, X, D2. field. lra. }
      assert (ES : 0 <= eps * s) by (apply Rmult_le_pos; lra). assert (US : 0 <= u * s) by (now apply Rmult_le_pos). assert (EQ : 0 <= eta * q) by (apply Rmult_le_pos; lra).
      assert (B2 : D2 <= 101 / 100 * d + eps * s) by (unfold D2; assert (eps * d <= / 100 * d) by (apply Rmult_le_compat_r; lra); lra).
      assert (D20 : 0 <= D2) by (unfold D2; assert (0 <= eps * d) by (apply Rmult_le_pos; lra); lra).
      assert (UD3 : u * D3 <= / 1000 * D3) by (apply Rmult_le_compat_r; unfold D3; lra).
      assert (B4 : D4 <= 101 / 100 * D3 + 15 * (u * s) + 8 * (eta * q)) by (unfold D4, X; lra).
      assert (D40 : 0 <= D4) by (unfold D4, D3, X; assert (0 <= u * D2) by (now apply Rmult_le_pos); lra).
      assert (UD4 : u * D4 <= / 1000 * D4) by (now apply Rmult_le_compat_r).
      assert (B5 : D5 <= 101 / 100 * D4 + 15 * (u * s) + 8 * (eta * q)) by (unfold D5, X; lra).
      assert (D50 : 0 <= D5) by (unfold D5, X; assert (0 <= u * D4) by (now apply Rmult_le_pos); lra).
      assert (ED5 : eps * D5 <= / 100 * D5) by (apply Rmult_le_compat_r; lra). unfold D3, X in *.
      lra.
  Qed.

  Lemma two_L : 0 < sqrt (IZR (2 * L)) /\ sqrt (IZR (2 * L)) <= 3 / 2 * q /\ sqrt (IZR (2 * L)) * sqrt (IZR (2 * L)) = IZR (2 * L) /\ q <= sqrt (IZR (2 * L)).
  Proof.
    destruct (q_pos (2 * L) ltac:(lia)) as [W1 W2]. destruct (q_pos n n_pos) as [Q1 Q2]. fold q in Q1, Q2. split; [exact W1|]. split; [|split; [exact W2|]].
    - apply Rsqr_incr_0_var; [|lra]. unfold Rsqr. rewrite W2. replace (3 / 2 * q * (3 / 2 * q)) with (9 / 4 * (q * q)) by field. rewrite Q2. unfold n.
      rewrite minus_IZR. assert (2 <= IZR (2 * L)) by (apply IZR_le; lia). lra.
    - apply sqrt_le_1_alt, IZR_le. unfold n. lia.
  Qed.

  Lemma theta_near a e s d : transforms_accurate S n eps -> transforms_accurate S (2 * L) eps -> 4 * IZR L * eta <= u -> rel a e L n s d ->
    exists a' e', rs_theta A S a L spin = Ok a' /\ mw_to_mwss_theta numpy e L spin = Ok e' /\
      rel a' e' (L + 1) n (9 / 4 * s) (27 / 10 * d + 98 / 10 * (eps * s) + 147 * (u * s) + 46 * (IZR L * (q * eta))).
  Proof.
    intros HS HS2 HE R. destruct (rel_nonneg _ _ _ _ _ _ R) as [s0 d0]. destruct (q_pos n n_pos) as [Q1 Q2]. fold q in Q1, Q2. destruct two_L as (W1 & W2 & W3 & W4).
    set (w := sqrt (IZR (2 * L))) in *. assert (IQ : 0 < / q) by (now apply Rinv_0_lt_compat).
    unfold rs_theta, mw_to_mwss_theta. destruct (extension_near a e s d HS R) as (a1 & e1 & -> & -> & R1'). cbn [bind]. cbn [dim0 dim1 mat shape nth].
    assert (R2' := trans_cols _ _ n n (/ q) eps _ _ _ _ (t_fft_fwd S n eps n_pos HS) ltac:(lra) ltac:(lra) n_pos R1').
    assert (R2 : rel (map_cols (fun v => fftshift (r_fft_fwd S v)) a1) (map_cols (fun v => fftshift (fft_fwd v)) e1) (2 * L - 1) (n - 0) (/ q * (3 / 2 * s))
      (/ q * ((1 + eps) * (16 / 10 * d + 305 / 100 * (eps * s) + 31 * (u * s) + 17 * (eta * q)) + eps * (3 / 2 * s)))) by (rewrite Z.sub_0_r; exact R2'). clear R2'.
    fold n in R2 |- *. change n with (2 * L - 1)%Z in R2 at 1.
    destruct (rel_pad _ _ (2 * L) n _ _ 1 (2 * L) 0 n R2) as (a3 & e3 & -> & -> & R3'); try (unfold n; lia). cbn [bind].
    destruct (rel_mat _ _ _ _ _ _ R3') as [MA ME]. rewrite (is_mat_dim0 _ _ _ _ MA), (is_mat_dim1 _ _ _ _ MA), (is_mat_dim0 _ _ _ _ ME), (is_mat_dim1 _ _ _ _ ME).
    destruct (rel_scale A u eta HA Hu _ _ (2 * L) n _ _ 1 (2 * L) 0 n (fun r _ => rs_exp A (- (L - 1) + r) n) (fun r _ => cis (- IZR (- (L - 1) + r) * PI / IZR n)) (30 * u) R3')
      as (a4 & e4 & E4a & E4e & R4'); try (unfold n; lia); try lra.
    { intros r c Hr Hc. split; [apply Cmod_cis|]. apply (rs_exp_err A u eta HA Hu); try (unfold n; lia). eapply Rle_trans; [|exact HE]. apply Rmult_le_compat_r; [exact e0|].
      unfold n. rewrite minus_IZR, mult_IZR. lra. }
    rewrite E4a, E4e. cbn [bind]. clear E4a E4e.
    assert (R5' := trans_cols _ _ (2 * L) n w eps _ _ _ _ (t_ifft_fwd S (2 * L) eps ltac:(lia) HS2) ltac:(lra) ltac:(lra) n_pos R4').
    unfold unextend. change (str_in (lower "mwss") ["mw"; "mwss"]%string) with true. change (ntheta_extension L "mwss") with (@Ok Z (2 * L)%Z). cbn [negb bind].
    assert (R5 := R5'). destruct (rel_mat _ _ _ _ _ _ R5') as [MA5 ME5].
    match type of MA5 with is_mat ?x _ _ _ => rewrite (is_mat_dim0 x _ _ _ MA5), (is_mat_dim1 x _ _ _ MA5) end.
    match type of ME5 with is_mat ?x _ _ _ => change (map_cols (inv_fft_shift numpy) e4) with x; rewrite (is_mat_dim0 x _ _ _ ME5), (is_mat_dim1 x _ _ _ ME5) end.
    rewrite Z.eqb_refl. cbn [negb]. change (streq (lower "mwss") "mw") with false. change (streq (lower "mwss") "mwss") with true. cbv iota.
    eexists. eexists. split; [reflexivity|]. split; [reflexivity|].
    assert (R6 := rel_part _ _ (2 * L) n _ _ 0 (L + 1) 0 n R5 ltac:(lia) ltac:(lia) ltac:(lia) ltac:(lia) ltac:(unfold n; lia) ltac:(lia)).
    rewrite !Z.sub_0_r in R6. apply (rel_le _ _ _ _ _ _ _ _ R6).
    - assert (WQ : w * / q <= 3 / 2) by (apply (Rmult_le_compat_r (/ q)) in W2; [|lra]; replace (3 / 2 * q * / q) with (3 / 2) in W2 by (field; lra); exact W2).
      replace (w * (/ q * (3 / 2 * s))) with ((w * / q) * (3 / 2 * s)) by ring. replace (9 / 4 * s) with (3 / 2 * (3 / 2 * s)) by field. apply Rmult_le_compat_r; lra.
    - assert (SQ : sqrt (IZR (2 * L) * IZR n) = w * q) by (rewrite sqrt_mult_alt; [reflexivity|apply IZR_le; lia]). rewrite SQ.
      set (X := 3 / 2 * s). set (Y := 16 / 10 * d + 305 / 100 * (eps * s) + 31 * (u * s) + 17 * (eta * q)).
      set (Z1 := (1 + eps) * Y + eps * X). set (Z2 := Z1 + 40 * u * (X + Z1)).
      match goal with |- ?x <= _ => replace x with ((w * / q) * ((1 + eps) * Z2 + eps * X) + (1 + eps) * (8 * eta * ((w * w) * q))) end.
      2:{ unfold Z2, Z1, X, Y. field. lra. }
      rewrite W3, mult_IZR.
      assert (WQ : w * / q <= 3 / 2) by (apply (Rmult_le_compat_r (/ q)) in W2; [|lra]; replace (3 / 2 * q * / q) with (3 / 2) in W2 by (field; lra); exact W2).
      assert (ES : 0 <= eps * s) by (apply Rmult_le_pos; lra). assert (US : 0 <= u * s) by (now apply Rmult_le_pos). assert (EQ : 0 <= eta * q) by (apply Rmult_le_pos; lra).
      assert (Y0 : 0 <= Y) by (unfold Y; lra). assert (X0 : 0 <= X) by (unfold X; lra).
      assert (EY : 0 <= eps * Y <= / 100 * Y) by (split; [apply Rmult_le_pos|apply Rmult_le_compat_r]; lra).
      assert (B1 : Z1 <= 101 / 100 * Y + 3 / 2 * (eps * s)) by (unfold Z1, X; lra). assert (Z10 : 0 <= Z1) by (unfold Z1, X; lra).
      assert (UZ : 0 <= u * Z1 <= / 1000 * Z1) by (split; [apply Rmult_le_pos|apply Rmult_le_compat_r]; lra).
      assert (B2 : Z2 <= 104 / 100 * Z1 + 60 * (u * s)) by (unfold Z2, X; lra). assert (Z20 : 0 <= Z2) by (unfold Z2, X; lra).
      assert (EZ : 0 <= eps * Z2 <= / 100 * Z2) by (split; [apply Rmult_le_pos|apply Rmult_le_compat_r]; lra).
      assert (B3 : (1 + eps) * Z2 + eps * X <= 101 / 100 * Z2 + 3 / 2 * (eps * s)) by (unfold X; lra).
      assert (B4 : w * / q * ((1 + eps) * Z2 + eps * X) <= 3 / 2 * (101 / 100 * Z2 + 3 / 2 * (eps * s))).
      { apply Rmult_le_compat; [apply Rmult_le_pos; lra|unfold X; lra|exact WQ|exact B3]. }
      assert (L1 : 1 <= IZR L) by (apply IZR_le; lia).
      assert (LQ : eta * q <= IZR L * (q * eta)) by (replace (eta * q) with (1 * (q * eta)) by ring; apply Rmult_le_compat_r; lra).
      assert (B5 : (1 + eps) * (8 * eta * (2 * IZR L * q)) <= 165 / 10 * (IZR L * (q * eta))).
      { replace ((1 + eps) * (8 * eta * (2 * IZR L * q))) with (16 * (1 + eps) * (IZR L * (q * eta))) by ring. apply Rmult_le_compat_r; lra. }
      unfold Y in *. lra.
  Qed.

  Lemma phi_near a e s d : transforms_accurate S n eps -> transforms_accurate S (2 * L) eps -> rel a e (L + 1) n s d ->
    exists a' e', rs_phi S a L = Ok a' /\ mw_to_mwss_phi numpy e L = Ok e' /\
      rel a' e' (L + 1) (2 * L) (3 / 2 * s) (154 / 100 * d + 302 / 100 * (eps * s)).
  Proof.
    intros HS HS2 R. destruct (rel_nonneg _ _ _ _ _ _ R) as [s0 d0]. destruct (q_pos n n_pos) as [Q1 Q2]. fold q in Q1, Q2. destruct two_L as (W1 & W2 & W3 & W4).
    set (w := sqrt (IZR (2 * L))) in *. assert (IQ : 0 < / q) by (now apply Rinv_0_lt_compat).
    unfold rs_phi, mw_to_mwss_phi. cbn [dim0 dim1 mat shape nth].
    assert (R2' := trans_rows _ _ (L + 1) n (/ q) eps _ _ _ _ (t_fft_fwd S n eps n_pos HS) ltac:(lra) ltac:(lra) ltac:(lia) R).
    assert (R2 : rel (map_rows (fun v => fftshift (r_fft_fwd S v)) a) (map_rows (fun v => fftshift (fft_fwd v)) e) (L + 1 - 0) (2 * L - 1) (/ q * s)
      (/ q * ((1 + eps) * d + eps * s))) by (rewrite Z.sub_0_r; exact R2'). clear R2'.
    destruct (rel_pad _ _ (L + 1) (2 * L) _ _ 0 (L + 1) 1 (2 * L) R2) as (a3 & e3 & -> & -> & R3'); try lia. cbn [bind].
    assert (R5' := trans_rows _ _ (L + 1) (2 * L) w eps _ _ _ _ (t_ifft_fwd S (2 * L) eps ltac:(lia) HS2) ltac:(lra) ltac:(lra) ltac:(lia) R3').
    eexists. eexists. split; [reflexivity|]. split; [reflexivity|].
    assert (WQ : 0 <= w * / q <= 3 / 2).
    { split; [apply Rmult_le_pos; lra|]. apply (Rmult_le_compat_r (/ q)) in W2; [|lra]. replace (3 / 2 * q * / q) with (3 / 2) in W2 by (field; lra). exact W2. }
    apply (rel_le _ _ _ _ _ _ _ _ R5').
    - rewrite <- Rmult_assoc. apply Rmult_le_compat_r; lra.
    - set (Z1 := (1 + eps) * d + eps * s).
      match goal with |- ?x <= _ => replace x with ((w * / q) * ((1 + eps) * Z1 + eps * s)) by (unfold Z1; ring) end.
      assert (ES : 0 <= eps * s) by (apply Rmult_le_pos; lra). assert (ED : 0 <= eps * d <= / 100 * d) by (split; [apply Rmult_le_pos|apply Rmult_le_compat_r]; lra).
      assert (B1 : Z1 <= 101 / 100 * d + eps * s) by (unfold Z1; lra). assert (Z10 : 0 <= Z1) by (unfold Z1; lra).
      assert (EZ : 0 <= eps * Z1 <= / 100 * Z1) by (split; [apply Rmult_le_pos|apply Rmult_le_compat_r]; lra).
      assert (B3 : w * / q * ((1 + eps) * Z1 + eps * s) <= 3 / 2 * (101 / 100 * Z1 + eps * s)) by (apply Rmult_le_compat; lra). lra.
  Qed.

  Lemma mw_to_mwss_near a e s d : transforms_accurate S n eps -> transforms_accurate S (2 * L) eps -> 4 * IZR L * eta <= u -> rel a e L n s d ->
    exists a' e', rs_mw_to_mwss A S a L spin = Ok a' /\ mw_to_mwss numpy e L spin = Ok e' /\
      rel a' e' (L + 1) (2 * L) (27 / 8 * s) (42 / 10 * d + 22 * (eps * s) + 227 * (u * s) + 71 * (IZR L * (q * eta))).
  Proof.
    intros HS HS2 HE R. destruct (rel_nonneg _ _ _ _ _ _ R) as [s0 d0]. unfold rs_mw_to_mwss, mw_to_mwss.
    destruct (theta_near a e s d HS HS2 HE R) as (a1 & e1 & -> & -> & R1'). cbn [bind].
    destruct (phi_near _ _ _ _ HS HS2 R1') as (a2 & e2 & E1 & E2 & R2'). exists a2, e2. split; [exact E1|]. split; [exact E2|].
    apply (rel_le _ _ _ _ _ _ _ _ R2'); [lra|]. assert (ES : 0 <= eps * s) by (apply Rmult_le_pos; lra). assert (US : 0 <= u * s) by (now apply Rmult_le_pos).
    assert (0 <= IZR L * (q * eta)) by (repeat apply Rmult_le_pos; try lra; [apply IZR_le; lia|apply sqrt_pos]). lra.
  Qed.

  (** the spatial extension, with any operation in place of the product with the sign *)
  Lemma spatial_any (op : C -> C) (f : ndarray C) F : is_mat f (L + 1) (2 * L) F ->
    exists g, (let* f_ext := slice2_set (czeros (2 * L) (2 * L)) 0 (L + 1) 0 (2 * L) (slice2 f 0 (L + 1) 0 (2 * L)) in
      slice2_set f_ext (L + 1) (dim0 f_ext) 0 (2 * L) (mscal op (map_rows fftshift (flip0 (slice2 f 1 (L + 1 - 1) 0 (2 * L)))))) = Ok g /\
      is_mat g (2 * L) (2 * L) (fun r p => if (r <? L + 1)%Z then F r p else op (F (2 * L - r)%Z ((p - L) mod (2 * L))%Z)).
  Proof.
    intros Hf.
    destruct (slice2_set_ok (czeros (2 * L) (2 * L)) (slice2 f 0 (L + 1) 0 (2 * L)) (2 * L) (2 * L) (fun _ _ => RtoC 0)
      (fun r c => F (0 + r) (0 + c))%Z 0 (L + 1) 0 (2 * L)) as (g1 & E1 & H1); try lia.
    { apply is_mat_mat. } { apply (slice2_ok f (L + 1) (2 * L) F); auto; lia. }
    rewrite E1. cbn [bind]. clear E1. rewrite (is_mat_dim0 _ _ _ _ H1).
    assert (H2 := slice2_ok f (L + 1) (2 * L) F 1 (L + 1 - 1) 0 (2 * L) Hf ltac:(lia) ltac:(lia) ltac:(lia) ltac:(lia) ltac:(lia) ltac:(lia)).
    apply flip0_ok in H2.
    assert (H3 : is_mat (map_rows fftshift (flip0 (slice2 f 1 (L + 1 - 1) 0 (2 * L)))) (2 * L - (L + 1)) (2 * L - 0)
      (fun r c => F (2 * L - (L + 1 + r)) ((c - L) mod (2 * L)))%Z).
    { replace (2 * L - (L + 1))%Z with (L + 1 - 1 - 1)%Z by lia. destruct (Z.eq_dec L 1) as [L1|].
      - split; [|intros; lia]. unfold map_rows. cbn [shape mat]. rewrite (is_mat_dim0 _ _ _ _ H2). cbn [vlen fftshift row]. rewrite (is_mat_dim1 _ _ _ _ H2). reflexivity.
      - eapply map_rows_ok; [exact H2|apply vext_fftshift|reflexivity| |lia].
        intros r c Hr Hc. cbn [fftshift vlen vat]. rewrite Z.sub_0_r, half2. f_equal; lia. }
    destruct (slice2_set_ok g1 _ (2 * L) (2 * L) _ _ (L + 1) (2 * L) 0 (2 * L) H1 (mscal_ok op _ _ _ _ H3)) as (g & E & Hg); try lia.
    exists g. split; [exact E|]. apply (is_mat_ext _ _ _ _ _ Hg). intros r c Hr Hc. cbv beta.
    destruct (Z.ltb_spec r (L + 1)); repeat zif; [f_equal; lia|]. f_equal. f_equal; [lia|]. f_equal. lia.
  Qed.

  Lemma mirror_bound F t : l2_map (L + 1) (2 * L) F <= t ->
    l2_map (2 * L) (2 * L) (fun r c => if (r <? L + 1)%Z then F r c else F (2 * L - r)%Z ((c - L) mod (2 * L))%Z) <= 3 / 2 * t.
  Proof.
    intros Ht. eapply Rle_trans; [apply (sq2_mirror (2 * L) (2 * L) (L + 1) F (fun r => (2 * L - r)%Z) (fun _ c => ((c - L) mod (2 * L))%Z)); try lia; try (intros; lia)|].
    - intros r Hr. assert (P := shift_perm (2 * L) L (F (2 * L - r)%Z) ltac:(lia)). rewrite !l2_nn in P.
      assert (Q1 := nn_sq (zrange 0 (2 * L)) (fun i => F (2 * L - r)%Z ((i - L) mod (2 * L))%Z)). assert (Q2 := nn_sq (zrange 0 (2 * L)) (F (2 * L - r)%Z)).
      rewrite P in Q1. rewrite <- Q1, Q2. reflexivity.
    - apply Rmult_le_compat_l; [lra|exact Ht].
  Qed.

  Lemma spatial_near a e s d : rel a e (L + 1) (2 * L) s d ->
    exists a' e', rs_spatial A a L spin = Ok a' /\ periodic_extension_spatial_mwss e L spin = Ok e' /\
      rel a' e' (2 * L) (2 * L) (3 / 2 * s) (152 / 100 * d + 15 * (u * s) + 16 * (IZR L * eta)).
  Proof.
    intros R. destruct (rel_nonneg _ _ _ _ _ _ R) as [s0 d0]. assert (SA := rel_size _ _ _ _ _ _ R). destruct (rel_mat _ _ _ _ _ _ R) as [MA ME]. destruct R as (_ & _ & R1 & R2).
    destruct (spatial_any (fun z => cf_mul A (pow_m1 spin) z) a _ MA) as (a' & Ea & Ha). destruct (spatial_any (fun z => (pow_m1 spin * z)%C) e _ ME) as (e' & Ee & He).
    exists a', e'. split; [exact Ea|]. split; [exact Ee|]. apply (rel_intro _ _ _ _ _ _ _ _ Ha He).
    - eapply Rle_trans; [|exact (mirror_bound _ _ R1)]. rewrite !map_nn. apply nn_le. intros [r c] _. cbn [fst snd]. destruct (r <? L + 1)%Z; [apply Rle_refl|].
      rewrite Cmod_mult, pow_m1_unit. lra.
    - assert (M1 := mirror_bound (fun r c => at2 a r c - at2 e r c)%C d R2). assert (M2 := mirror_bound (at2 a) _ SA). cbv beta in M1.
      eapply Rle_trans; [apply (map_move A u eta HA (2 * L) (2 * L) _ _ _ (10 * u) _ _ ltac:(lia) ltac:(lia) ltac:(lra) M1 M2)|].
      + intros r c Hr Hc. cbv beta. destruct (r <? L + 1)%Z.
        * pose proof (Rmult_le_pos (10 * u) (Cmod (at2 a r c)) ltac:(lra) (Cmod_ge_0 _)). lra.
        * set (z' := at2 a _ _). set (z := at2 e _ _).
          assert (CM : forall x y, Cmod (cf_mul A x y - x * y)%C <= 5 * u * (Cmod x * Cmod y) + 8 * eta) by (intros; apply (cmul_err A u eta HA Hu)).
          specialize (CM (pow_m1 spin) z'). rewrite pow_m1_unit in CM.
          replace (cf_mul A (pow_m1 spin) z' - pow_m1 spin * z)%C with ((cf_mul A (pow_m1 spin) z' - pow_m1 spin * z') + pow_m1 spin * (z' - z))%C by ring.
          eapply Rle_trans; [apply Cmod_triangle|]. rewrite (Cmod_mult (pow_m1 spin)), pow_m1_unit. pose proof (Rmult_le_pos u (Cmod z') u0 (Cmod_ge_0 _)). lra.
      + rewrite square_nn by lia. rewrite mult_IZR. assert (u * d <= / 1000 * d) by (now apply Rmult_le_compat_r). lra.
  Qed.

  Lemma upsample_near a e s d : transforms_accurate S (2 * L) eps -> transforms_accurate S (4 * L) eps -> rel a e (L + 1) (2 * L) s d ->
    exists a' e', rs_upsample A S a L spin = Ok a' /\ upsample_by_two_mwss numpy e L spin = Ok e' /\
      rel a' e' (2 * L + 1) (2 * L) (9 / 4 * s) (234 / 100 * d + 46 / 10 * (eps * s) + 24 * (u * s) + 25 * (IZR L * eta)).
  Proof.
    intros HS2 HS4 R. destruct (rel_nonneg _ _ _ _ _ _ R) as [s0 d0]. destruct two_L as (W1 & _ & W3 & _). set (w := sqrt (IZR (2 * L))) in *.
    destruct (q_pos (4 * L) ltac:(lia)) as [V1 V2]. set (v := sqrt (IZR (4 * L))) in *.
    assert (VW : v <= 3 / 2 * w).
    { apply Rsqr_incr_0_var; [|lra]. unfold Rsqr. rewrite V2. replace (3 / 2 * w * (3 / 2 * w)) with (9 / 4 * (w * w)) by field. rewrite W3, !mult_IZR.
      assert (1 <= IZR L) by (apply IZR_le; lia). lra. }
    assert (IW : 0 < / w) by (now apply Rinv_0_lt_compat).
    unfold rs_upsample, upsample_by_two_mwss. destruct (spatial_near a e s d R) as (a1 & e1 & -> & -> & R1'). cbn [bind].
    unfold rs_upsample_ext, upsample_by_two_mwss_ext.
    assert (R2' := trans_cols _ _ (2 * L) (2 * L) (/ w) eps _ _ _ _ (t_fft_fwd S (2 * L) eps ltac:(lia) HS2) ltac:(lra) ltac:(lra) ltac:(lia) R1').
    assert (R3' := rel_part _ _ (2 * L) (2 * L) _ _ 0 (2 * L) 0 (2 * L) R2' ltac:(lia) ltac:(lia) ltac:(lia) ltac:(lia) ltac:(lia) ltac:(lia)).
    replace (2 * L - 0)%Z with (2 * L + L - L)%Z in R3' at 1 by lia.
    destruct (rel_pad _ _ (2 * (2 * L)) (2 * L) _ _ L (2 * L + L) 0 (2 * L) R3') as (a4 & e4 & -> & -> & R4'); try lia. cbn [bind].
    replace (2 * (2 * L))%Z with (4 * L)%Z in R4' by lia.
    assert (R5' := trans_cols _ _ (4 * L) (2 * L) v eps _ _ _ _ (t_ifft_fwd S (4 * L) eps ltac:(lia) HS4) ltac:(lra) ltac:(lra) ltac:(lia) R4').
    unfold unextend. change (str_in (lower "mwss") ["mw"; "mwss"]%string) with true. change (ntheta_extension (2 * L)%Z "mwss") with (@Ok Z (2 * (2 * L))%Z). cbn [negb bind].
    destruct (rel_mat _ _ _ _ _ _ R5') as [MA5 ME5].
    match type of MA5 with is_mat ?x _ _ _ => rewrite (is_mat_dim0 x _ _ _ MA5), (is_mat_dim1 x _ _ _ MA5) end.
    match type of ME5 with is_mat ?x _ _ _ => change (map_cols (inv_fft_shift numpy) e4) with x; rewrite (is_mat_dim0 x _ _ _ ME5), (is_mat_dim1 x _ _ _ ME5) end.
    replace (4 * L =? 2 * (2 * L))%Z with true by lia. cbn [negb]. change (streq (lower "mwss") "mw") with false. change (streq (lower "mwss") "mwss") with true. cbv iota.
    eexists. eexists. split; [reflexivity|]. split; [reflexivity|].
    assert (R6 := rel_part _ _ (4 * L) (2 * L) _ _ 0 (2 * L + 1) 0 (2 * L) R5' ltac:(lia) ltac:(lia) ltac:(lia) ltac:(lia) ltac:(lia) ltac:(lia)).
    rewrite !Z.sub_0_r in R6.
    assert (WQ : 0 <= v * / w <= 3 / 2).
    { split; [apply Rmult_le_pos; lra|]. apply (Rmult_le_compat_r (/ w)) in VW; [|lra]. replace (3 / 2 * w * / w) with (3 / 2) in VW by (field; lra). exact VW. }
    apply (rel_le _ _ _ _ _ _ _ _ R6).
    - rewrite <- Rmult_assoc. replace (9 / 4 * s) with (3 / 2 * (3 / 2 * s)) by field. apply Rmult_le_compat_r; lra.
    - set (X := 3 / 2 * s). set (Y := 152 / 100 * d + 15 * (u * s) + 16 * (IZR L * eta)). set (Z1 := (1 + eps) * Y + eps * X).
      match goal with |- ?x <= _ => replace x with ((v * / w) * ((1 + eps) * Z1 + eps * X)) by (unfold Z1, Y, X; ring) end.
      assert (ES : 0 <= eps * s) by (apply Rmult_le_pos; lra). assert (US : 0 <= u * s) by (now apply Rmult_le_pos).
      assert (LE : 0 <= IZR L * eta) by (apply Rmult_le_pos; [apply IZR_le; lia|exact e0]).
      assert (Y0 : 0 <= Y) by (unfold Y; lra). assert (X0 : 0 <= X) by (unfold X; lra).
      assert (EY : 0 <= eps * Y <= / 100 * Y) by (split; [apply Rmult_le_pos|apply Rmult_le_compat_r]; lra).
      assert (B1 : Z1 <= 101 / 100 * Y + 3 / 2 * (eps * s)) by (unfold Z1, X; lra). assert (Z10 : 0 <= Z1) by (unfold Z1, X; lra).
      assert (EZ : 0 <= eps * Z1 <= / 100 * Z1) by (split; [apply Rmult_le_pos|apply Rmult_le_compat_r]; lra).
      assert (B3 : v * / w * ((1 + eps) * Z1 + eps * X) <= 3 / 2 * (101 / 100 * Z1 + 3 / 2 * (eps * s))).
      { apply Rmult_le_compat; [lra|unfold X; lra|lra|unfold X; lra]. }
      unfold Y in *. lra.
  Qed.
End Float.
