(** The precomputed inverse Wigner transform in rounded arithmetic. *)
From Coq Require Import Reals Lra Lia ZifyBool.
From Coquelicot Require Import Complex.
From Verif Require Import Lib.Py Lib.PyFacts Lib.Vec Lib.VecFacts Lib.Sums Lib.Cplx Lib.Arr Lib.ArrFacts Lib.MatFacts Model.Index Model.Samples Model.FFT Model.Risbo
  Model.RisboFloat Model.Resampling Model.Spherical Model.Precompute Model.PrecomputeFloat Model.Wigner Model.FourierWigner Model.PrecomputeWigner Model.WignerFloat
  Spec.SamplesSpec Spec.WignerSpec Spec.SphereSpec Spec.GridSpec Spec.SphericalSpec Spec.SO3Spec Spec.RoundingSpec Spec.PrecomputeFloatSpec Spec.WignerFloatSpec
  Proofs.WignerCalc Proofs.RisboProofs Proofs.SamplesProofs Proofs.SphGrid Proofs.SphInverse Proofs.PrecomputeKernel Proofs.SpectralBound Proofs.CBackendBound Proofs.HealpixDFTProofs
  Proofs.RisboFloatProofs Proofs.FloatSums Proofs.FloatKernel Proofs.FloatInverse Proofs.FloatFourier Proofs.FloatTop Proofs.WignerInverse Proofs.FWArrays Proofs.PWKernel Proofs.PWInverse.
Open Scope R_scope.

(** the normalisation, where the function exists *)
Definition wfac (l : Z) : R := (2 * IZR l + 1) / (8 * PI ^ 2).
Definition wsize3 (n l m : Z) : R := if adm_b n l m then wfac l else 0.
Definition wk_near (K : ndarray R) (N T L : Z) (x : Z -> R) (kap : R) : Prop :=
  shape K = [2 * N - 1; T; L; 2 * L - 1]%Z /\
  forall k t l i, (0 <= k < 2 * N - 1)%Z -> (0 <= t < T)%Z -> (0 <= l < L)%Z -> (0 <= i < 2 * L - 1)%Z ->
    Rabs (at4 K k t l i - wfac l * wigner_d l (i - (L - 1)) (k - (N - 1)) (x t)) <= kap * wsize3 (k - (N - 1)) l (i - (L - 1)).

Lemma wfac_lower l : (0 <= l)%Z -> / 128 <= wfac l.
Proof.
  intros Hl. unfold wfac. pose proof PI_4. pose proof PI2_3_2. assert (0 <= IZR l) by (apply IZR_le; lia).
  assert (Q : 8 * PI ^ 2 <= 128) by (cbn; nra). assert (Q0 : 0 < 8 * PI ^ 2) by (cbn; nra).
  apply Rle_trans with (/ (8 * PI ^ 2)); [apply Rinv_le_contravar; lra|]. unfold Rdiv. rewrite <- (Rmult_1_l (/ (8 * PI ^ 2))) at 1.
  apply Rmult_le_compat_r; [left; now apply Rinv_0_lt_compat|lra].
Qed.
Lemma wsize3_nonneg n l m : (0 <= l)%Z -> 0 <= wsize3 n l m.
Proof. intros Hl. unfold wsize3. pose proof (wfac_lower l Hl). destruct (adm_b n l m); lra. Qed.
Lemma wsize3_in n l m : (Z.abs n <= l)%Z -> (Z.abs m <= l)%Z -> wsize3 n l m = wfac l.
Proof. intros. unfold wsize3, adm_b. now replace ((Z.abs n <=? l) && (Z.abs m <=? l))%Z with true by lia. Qed.
Lemma wsize3_out n l m : (l < Z.abs n \/ l < Z.abs m)%Z -> wsize3 n l m = 0.
Proof. intros. unfold wsize3, adm_b. now replace ((Z.abs n <=? l) && (Z.abs m <=? l))%Z with false by lia. Qed.

(** ** Sums over the two circles *)
Lemma shift_inj n x y : (0 < n)%Z -> (0 <= x < n)%Z -> (0 <= y < n)%Z -> ((x + n / 2) mod n = (y + n / 2) mod n)%Z -> x = y.
Proof.
  intros Hn Hx Hy E. apply (f_equal (fun z => (z - n / 2) mod n)%Z) in E. rewrite !Zminus_mod_idemp_l in E.
  replace (x + n / 2 - n / 2)%Z with x in E by lia. replace (y + n / 2 - n / 2)%Z with y in E by lia.
  now rewrite !Z.mod_small in E by lia.
Qed.
Lemma shift_csum n (h : Z -> C) g : (0 < n)%Z ->
  csum (zrange 0 n) (fun k => h ((k + n / 2) mod n)%Z * root n (k * g))%C = csum (zrange 0 n) (fun i => h i * root n ((i - n / 2) * g))%C.
Proof.
  intros Hn. rewrite <- (cr_perm 0 n 0 n (fun i => (i + n / 2) mod n)%Z (fun i => h i * root n ((i - n / 2) * g))%C).
  - apply cr_ext. intros k Hk. f_equal. apply root_congr; [lia|].
    rewrite (Zmult_mod (_ - _) g), Zminus_mod_idemp_l, <- Zmult_mod. f_equal. f_equal. lia.
  - intros. apply Z.mod_pos_bound. lia.
  - intros. now apply (shift_inj n).
  - lia.
Qed.
Lemma shift_rsum n (h : Z -> R) : (0 < n)%Z ->
  rsum (zrange 0 n) (fun k => h ((k + n / 2) mod n)%Z) = rsum (zrange 0 n) h.
Proof.
  intros Hn. apply (rr_perm 0 n 0 n (fun i => (i + n / 2) mod n)%Z h).
  - intros. apply Z.mod_pos_bound. lia.
  - intros. now apply (shift_inj n).
  - lia.
Qed.
(** orders m at m + L - 1 + mo, the column before them zero *)
Lemma half_width L mo : (mo = 0 \/ mo = 1)%Z -> ((2 * L - 1 + mo) / 2 = L - 1 + mo)%Z.
Proof. intros [->| ->]; symmetry; [apply Z.div_unique with 1%Z|apply Z.div_unique with 0%Z]; lia. Qed.
Lemma centred_csum L mo (h : Z -> C) p : (1 <= L)%Z -> (mo = 0 \/ mo = 1)%Z ->
  csum (zrange 0 (2 * L - 1 + mo)) (fun c => (if (mo <=? c)%Z then h (c - mo - (L - 1))%Z else RtoC 0) * root (2 * L - 1 + mo) ((c - (2 * L - 1 + mo) / 2) * p))%C
  = csum (zrange (- (L - 1)) L) (fun m => h m * root (2 * L - 1 + mo) (m * p))%C.
Proof.
  intros HL Hmo. rewrite (half_width L mo Hmo). rewrite (cr_shrink 0 (2 * L - 1 + mo) mo (2 * L - 1 + mo)).
  - rewrite <- (cr_perm (- (L - 1)) L mo (2 * L - 1 + mo) (fun m => m + (L - 1) + mo)%Z) by lia.
    apply cr_ext. intros m Hm. replace (mo <=? m + (L - 1) + mo)%Z with true by lia. f_equal; f_equal; [lia|]. f_equal. lia.
  - lia.
  - lia.
  - lia.
  - intros c H1 H2. replace (mo <=? c)%Z with false by lia. ring.
Qed.
Lemma centred_rsum L mo (h : Z -> C) : (1 <= L)%Z -> (mo = 0 \/ mo = 1)%Z ->
  rsum (zrange 0 (2 * L - 1 + mo)) (fun c => Cmod (if (mo <=? c)%Z then h (c - mo - (L - 1))%Z else RtoC 0)) = rsum (zrange (- (L - 1)) L) (fun m => Cmod (h m)).
Proof.
  intros HL Hmo. rewrite (rr_shrink 0 (2 * L - 1 + mo) mo (2 * L - 1 + mo)).
  - rewrite <- (rr_perm (- (L - 1)) L mo (2 * L - 1 + mo) (fun m => m + (L - 1) + mo)%Z) by lia.
    apply rr_ext. intros m Hm. replace (mo <=? m + (L - 1) + mo)%Z with true by lia. do 2 f_equal. lia.
  - lia.
  - lia.
  - lia.
  - intros c H1 H2. replace (mo <=? c)%Z with false by lia. apply Cmod_0.
Qed.
(** the same for the other axis *)
Lemma centred_n N (h : Z -> C) g : (1 <= N)%Z ->
  csum (zrange 0 (2 * N - 1)) (fun k => h (k - (N - 1))%Z * root (2 * N - 1) ((k - (2 * N - 1) / 2) * g))%C
  = csum (zrange (- (N - 1)) N) (fun n => h n * root (2 * N - 1) (n * g))%C.
Proof.
  intros HN. replace ((2 * N - 1) / 2)%Z with (N - 1)%Z by (apply Z.div_unique with 1%Z; lia).
  rewrite <- (cr_perm (- (N - 1)) N 0 (2 * N - 1) (fun n => n + (N - 1))%Z) by lia.
  apply cr_ext. intros n Hn. now replace (n + (N - 1) - (N - 1))%Z with n by lia.
Qed.
Lemma centred_n_rsum N (h : Z -> R) : (1 <= N)%Z ->
  rsum (zrange 0 (2 * N - 1)) (fun k => h (k - (N - 1))%Z) = rsum (zrange (- (N - 1)) N) h.
Proof.
  intros HN. rewrite <- (rr_perm (- (N - 1)) N 0 (2 * N - 1) (fun n => n + (N - 1))%Z) by lia.
  apply rr_ext. intros n Hn. now replace (n + (N - 1) - (N - 1))%Z with n by lia.
Qed.

(** ** The signal, order by order *)
Definition exact3 (L : Z) (c : Z -> Z -> Z -> C) (x : R) (n m : Z) : C :=
  csum (zrange 0 L) (fun l => RtoC (wfac l * wigner_d l m n x) * c n l m)%C.
Lemma so3_synth_orders L N c alpha beta gamma : (1 <= N <= L)%Z ->
  so3_synth L N c alpha beta gamma =
  csum (zrange (- (N - 1)) N) (fun n => csum (zrange (- (L - 1)) L) (fun m => exact3 L c beta n m * cis (IZR m * alpha)) * cis (IZR n * gamma))%C.
Proof.
  intros HN. rewrite so3_synth_parts. apply cr_ext. intros n Hn. f_equal. unfold part3.
  rewrite (ctri_rect L n (fun l m => RtoC ((2 * IZR l + 1) / (8 * PI ^ 2)) * c n l m * (cis (IZR m * alpha) * RtoC (wigner_d l m n beta)))%C).
  - apply cr_ext. intros m Hm. unfold exact3. rewrite <- cs_scal_r. apply cr_ext. intros l Hl. unfold wfac. rewrite RtoC_mult. ring.
  - lia.
  - intros l m H. rewrite wigner_d_out by lia. ring.
Qed.
Lemma so3_size_orders L N c : (1 <= N <= L)%Z ->
  rsum (zrange (- (N - 1)) N) (fun n => rsum (zrange (- (L - 1)) L) (fun m => rsum (zrange 0 L) (fun l => wsize3 n l m * Cmod (c n l m)))) = so3_size L N c.
Proof.
  intros HN. unfold so3_size. apply rr_ext. intros n Hn. rewrite <- (rtri_rect L n (fun l m => wsize3 n l m * Cmod (c n l m))).
  - apply rr_ext. intros l Hl. apply rr_ext. intros m Hm. rewrite wsize3_in by lia. reflexivity.
  - lia.
  - intros l m H. rewrite wsize3_out by lia. ring.
Qed.
Lemma so3_size_nonneg L N c : 0 <= so3_size L N c.
Proof.
  apply rs_nonneg. intros n _. apply rs_nonneg. intros l Hl. apply in_zrange in Hl. apply rs_nonneg. intros m _.
  apply Rmult_le_pos; [|apply Cmod_ge_0]. pose proof (wfac_lower l ltac:(lia)). unfold wfac in *. lra.
Qed.
Lemma so3_lip L N c alpha x y gamma : (1 <= L)%Z ->
  Cmod (so3_synth L N c alpha x gamma - so3_synth L N c alpha y gamma)%C <= IZR L * Rabs (x - y) * so3_size L N c.
Proof.
  intros HL. unfold so3_synth, so3_size. rewrite <- cs_minus, <- rs_scal_l. apply csum_le. intros n _.
  rewrite <- cs_minus, <- rs_scal_l. apply csum_le. intros l Hl. apply in_zrange in Hl.
  rewrite <- cs_minus, <- rs_scal_l. apply csum_le. intros m _. unfold Dconj. fold (wfac l). pose proof (wfac_lower l ltac:(lia)) as E.
  replace (RtoC (wfac l) * c n l m * (cis (IZR m * alpha) * RtoC (wigner_d l m n x) * cis (IZR n * gamma)) -
           RtoC (wfac l) * c n l m * (cis (IZR m * alpha) * RtoC (wigner_d l m n y) * cis (IZR n * gamma)))%C
    with (RtoC (wfac l) * c n l m * (RtoC (wigner_d l m n x - wigner_d l m n y) * (cis (IZR m * alpha) * cis (IZR n * gamma))))%C by (rewrite RtoC_minus; ring).
  rewrite !Cmod_mult, !Cmod_cis, !Cmod_R, (Rabs_right (wfac l)) by lra.
  pose proof (wigner_lip l m n x y ltac:(lia)) as W. assert (W2 : IZR (l + 1) <= IZR L) by (apply IZR_le; lia).
  pose proof (Rabs_pos (x - y)) as P. pose proof (Cmod_ge_0 (c n l m)) as C0.
  assert (W3 : Rabs (wigner_d l m n x - wigner_d l m n y) <= IZR L * Rabs (x - y)) by (eapply Rle_trans; [exact W|]; now apply Rmult_le_compat_r).
  replace (IZR L * Rabs (x - y) * (wfac l * Cmod (c n l m))) with (wfac l * Cmod (c n l m) * (IZR L * Rabs (x - y) * (1 * 1))) by ring.
  apply Rmult_le_compat_l; [apply Rmult_le_pos; lra|]. apply Rmult_le_compat_r; [lra|exact W3].
Qed.

Section Float.
  Variables (A : arith) (u eta : R).
  Hypothesis HA : rounded A u eta.
  Hypothesis HZ : zeros_exact A.
  Hypothesis Hu : u <= / 1000.
  Hypothesis He : 4 * eta <= u.
  Let u0 : 0 <= u := rd_u _ _ _ HA.
  Let e0 : 0 <= eta := rd_eta _ _ _ HA.

  Lemma wf_factor_err l : (0 <= l)%Z -> Rabs (wf_factor A l - wfac l) <= 40 * u * wfac l.
  Proof.
    intros Hl. pose proof PI_4 as P4. pose proof PI2_3_2 as P3. pose proof (wfac_lower l Hl) as W0. unfold wf_factor.
    replace (IZR (2 * l + 1)) with (2 * IZR l + 1) by (rewrite plus_IZR, mult_IZR; reflexivity).
    set (n := 2 * IZR l + 1). assert (N1 : 1 <= n) by (unfold n; assert (0 <= IZR l) by (apply IZR_le; lia); lra).
    set (x := wfac l) in *. assert (Ex : x = n / (8 * (PI * PI))) by (unfold x, wfac, n; f_equal; ring).
    pose proof (rd_pi _ _ _ HA) as R1. set (p := fpi A) in *.
    assert (UP : 0 <= u * PI) by (apply Rmult_le_pos; lra).
    assert (D1 : Rabs (p - PI) <= (11 / 10) * u * PI).
    { assert (u * 3 <= u * PI) by (apply Rmult_le_compat_l; lra). lra. } clear R1.
    assert (UP2 : u * PI <= / 1000 * PI) by (apply Rmult_le_compat_r; lra).
    assert (Pp : Rabs p <= PI * (1002 / 1000)).
    { replace p with (PI + (p - PI)) by ring. eapply Rle_trans; [apply Rabs_triang|]. rewrite (Rabs_right PI) by lra. lra. }
    set (S := PI * PI). assert (S9 : 9 <= S) by (unfold S; nra). assert (US : 0 <= u * S) by (apply Rmult_le_pos; lra).
    assert (US2 : u * 9 <= u * S) by (apply Rmult_le_compat_l; lra). assert (US3 : u * S <= / 1000 * S) by (apply Rmult_le_compat_r; lra).
    assert (PP : Rabs (p * p) <= S * (1005 / 1000)).
    { rewrite Rabs_mult. apply Rle_trans with (PI * (1002 / 1000) * (PI * (1002 / 1000))).
      - apply Rmult_le_compat; try apply Rabs_pos; assumption.
      - replace (PI * (1002 / 1000) * (PI * (1002 / 1000))) with (S * (1002 / 1000 * (1002 / 1000))) by (unfold S; ring). nra. }
    pose proof (rd_mul _ _ _ HA p p) as R2. set (q := fmul A p p) in *.
    assert (DP : Rabs (p * p - S) <= (2203 / 1000) * u * S).
    { replace (p * p - S) with ((p - PI) * p + PI * (p - PI)) by (unfold S; ring). eapply Rle_trans; [apply Rabs_triang|].
      rewrite !Rabs_mult, (Rabs_right PI) by lra.
      assert (Rabs (p - PI) * Rabs p <= 11 / 10 * u * PI * (PI * (1002 / 1000))) by (apply Rmult_le_compat; try apply Rabs_pos; assumption).
      assert (PI * Rabs (p - PI) <= PI * (11 / 10 * u * PI)) by (apply Rmult_le_compat_l; lra). unfold S in *. lra. }
    assert (D2 : Rabs (q - S) <= (325 / 100) * u * S).
    { replace (q - S) with ((q - p * p) + (p * p - S)) by ring. eapply Rle_trans; [apply Rabs_triang|].
      assert (u * Rabs (p * p) <= u * (S * (1005 / 1000))) by (now apply Rmult_le_compat_l). lra. }
    assert (Pq : Rabs (8 * q) <= 8 * S * (1004 / 1000)).
    { rewrite Rabs_mult, (Rabs_right 8) by lra. assert (Rabs q <= S * (1004 / 1000)); [|lra].
      replace q with (S + (q - S)) by ring. eapply Rle_trans; [apply Rabs_triang|]. rewrite (Rabs_right S) by lra. lra. }
    pose proof (rd_mul _ _ _ HA 8 q) as R3. set (r := fmul A 8 q) in *.
    assert (D3 : Rabs (r - 8 * S) <= (43 / 10) * u * (8 * S)).
    { replace (r - 8 * S) with ((r - 8 * q) + 8 * (q - S)) by ring. eapply Rle_trans; [apply Rabs_triang|].
      rewrite (Rabs_mult 8), (Rabs_right 8) by lra.
      assert (u * Rabs (8 * q) <= u * (8 * S * (1004 / 1000))) by (now apply Rmult_le_compat_l). lra. }
    assert (R0 : (8 * S) * (995 / 1000) <= r) by (unfold Rabs in D3; destruct (Rcase_abs (r - 8 * S)); lra).
    assert (Rn : r <> 0) by lra.
    pose proof (rd_div _ _ _ HA n r Rn) as R4. set (f := fdiv A n r) in *. fold S in Ex.
    assert (D4 : Rabs (n / r - x) <= (435 / 100) * u * x).
    { replace (n / r - x) with (x * ((8 * S - r) / r)) by (rewrite Ex; field; split; lra).
      rewrite Rabs_mult, (Rabs_right x) by lra. rewrite (Rmult_comm x). apply Rmult_le_compat_r; [lra|].
      unfold Rdiv. rewrite Rabs_mult, Rabs_inv, (Rabs_right r) by lra. apply (Rmult_le_reg_r r); [lra|].
      rewrite Rmult_assoc, Rinv_l, Rmult_1_r by assumption. rewrite Rabs_minus_sym. eapply Rle_trans; [exact D3|].
      apply Rle_trans with (435 / 100 * u * (8 * S * (995 / 1000))); [lra|]. apply Rmult_le_compat_l; lra. }
    assert (UX : 0 <= u * x) by (apply Rmult_le_pos; lra).
    assert (UX2 : u * x <= / 1000 * x) by (apply Rmult_le_compat_r; lra).
    assert (UX3 : u * / 128 <= u * x) by (apply Rmult_le_compat_l; lra).
    assert (B4 : Rabs (n / r) <= (1005 / 1000) * x).
    { replace (n / r) with (x + (n / r - x)) by ring. eapply Rle_trans; [apply Rabs_triang|]. rewrite (Rabs_right x) by lra. lra. }
    assert (u * Rabs (n / r) <= u * (1005 / 1000 * x)) by (now apply Rmult_le_compat_l).
    replace (f - x) with ((f - n / r) + (n / r - x)) by ring. eapply Rle_trans; [apply Rabs_triang|]. lra.
  Qed.

  (** the recursion at the given colatitudes *)
  Lemma wf_take_ok dls (ths : vec R) T L N l : (0 <= l < L)%Z -> (0 <= T)%Z -> (1 <= N <= L)%Z ->
    Forall2 (fun beta a => fholds L l beta a (fbound u l)) (map (vat ths) (zrange 0 T)) dls ->
    exists c, wf_take dls L (L - 1 + (1 - N)) (L - 1 + N) = Ok c /\ shape c = [2 * N - 1; T; 2 * L - 1]%Z /\
      forall k t i, (0 <= k < 2 * N - 1)%Z -> (0 <= t < T)%Z -> (0 <= i < 2 * L - 1)%Z ->
        if adm_b (k - (N - 1)) l (i - (L - 1)) then Rabs (at3 c k t i - wigner_d l (i - (L - 1)) (k - (N - 1)) (vat ths t)) <= fbound u l else at3 c k t i = 0.
  Proof.
    intros Hl HT HN H. unfold wf_take. replace (forallb _ (zrange _ _)) with true.
    2: { symmetry. apply forallb_forall. intros i Hi. apply in_zrange in Hi. rewrite norm_in by lia. reflexivity. }
    eexists. split; [reflexivity|].
    assert (EL : Z.of_nat (List.length dls) = T).
    { rewrite <- (Forall2_len _ _ _ H), map_length. apply zrange_length. lia. }
    rewrite EL. replace (L - 1 + N - (L - 1 + (1 - N)))%Z with (2 * N - 1)%Z by lia.
    split; [reflexivity|]. intros k t i Hk Ht Hi. unfold at3. cbn [arr3 get nth]. rewrite norm_in by lia. unfold at2.
    pose proof (Forall2_nth _ _ _ 0%R (zeros 0%R []) (Z.to_nat t) H) as P. rewrite map_length in P.
    pose proof (zrange_length T HT). specialize (P ltac:(lia)).
    rewrite (nth_indep _ 0%R (vat ths 0)) in P by (rewrite map_length; lia). rewrite map_nth, zrange_nth in P by lia.
    set (a := nth (Z.to_nat t) dls (zeros 0%R [])) in *.
    replace (get a [i; L - 1 + (1 - N) + k]%Z) with (get a [i - (L - 1) + L - 1; k - (N - 1) + L - 1]%Z) by (do 2 f_equal; [lia|f_equal; lia]).
    destruct (adm_b (k - (N - 1)) l (i - (L - 1))) eqn:E; unfold adm_b in E.
    - apply (fholds_entry L l); auto; lia.
    - apply P; lia.
  Qed.
  Lemma wf_direct_near ths T L N : (1 <= N <= L)%Z -> vlen ths = T -> (0 <= T)%Z ->
    fbound u L <= 1 -> IZR (2 * L) * eta <= u -> (forall t, (0 <= t < T)%Z -> Rabs (vat ths t) <= 5) ->
    exists a, wf_direct A ths L N = Ok a /\ shape a = [2 * N - 1; T; L; 2 * L - 1]%Z /\
      forall k t l i, (0 <= k < 2 * N - 1)%Z -> (0 <= t < T)%Z -> (0 <= l < L)%Z -> (0 <= i < 2 * L - 1)%Z ->
        if adm_b (k - (N - 1)) l (i - (L - 1)) then Rabs (at4 a k t l i - wigner_d l (i - (L - 1)) (k - (N - 1)) (vat ths t)) <= fbound u l else at4 a k t l i = 0.
  Proof.
    intros HN HV HT HB HE Hth. unfold wf_direct. rewrite HV. cbv zeta. set (betas := map (vat ths) (zrange 0 T)).
    assert (FB : Forall (fun beta => Rabs beta <= 5) betas).
    { unfold betas. apply Forall_forall. intros b Hb. apply in_map_iff in Hb. destruct Hb as (t & <- & Ht). apply in_zrange in Ht. apply Hth. lia. }
    destruct (foldM_inv (fun el st =>
        Forall2 (fun beta dl => if (el =? 0)%Z then arr_eq dl (zeros 0%R [2 * L - 1; 2 * L - 1]%Z) else fholds L (el - 1) beta dl (fbound u (el - 1))) betas (fst st) /\
        shape (snd st) = [2 * N - 1; T; L; 2 * L - 1]%Z /\ forall k t l i, (0 <= k < 2 * N - 1)%Z -> (0 <= t < T)%Z -> (0 <= l < el)%Z -> (0 <= i < 2 * L - 1)%Z ->
          if adm_b (k - (N - 1)) l (i - (L - 1)) then Rabs (at4 (snd st) k t l i - wigner_d l (i - (L - 1)) (k - (N - 1)) (vat ths t)) <= fbound u l
          else at4 (snd st) k t l i = 0)
      (fun st el =>
        let* delta := rf_full_vec A (fst st) betas L el in
        let* c := wf_take delta L (L - 1 + (1 - N)) (L - 1 + N) in
        let* dl := el_set (snd st) el c in
        Ok (delta, dl)) 0 L (map (fun _ => zeros 0%R [2 * L - 1; 2 * L - 1]%Z) betas, zeros 0%R [2 * N - 1; T; L; 2 * L - 1]%Z)) as (st & E & H1 & H2 & H3).
    - lia.
    - cbn [fst snd]. split; [|split; [reflexivity|intros; lia]]. apply Forall2_map_const. intros. cbn [Z.eqb]. apply arr_eq_refl.
    - intros el [dls dl] Hel (H1 & H2 & H3). cbn [fst snd] in *.
      destruct (fvec_step A u eta L el betas HA Hel HB HE FB dls H1) as (out & -> & Ho). cbn [bind].
      destruct (wf_take_ok out ths T L N el Hel HT HN Ho) as (c & -> & Sc & Hc). cbn [bind].
      destruct (el_set_ok dl c (2 * N - 1) T L (2 * L - 1) _ _ el (conj H2 (fun _ _ _ _ _ _ _ _ => eq_refl)) (conj Sc (fun _ _ _ _ _ _ => eq_refl)) Hel) as (dl' & -> & Hd). cbn [bind].
      eexists. split; [reflexivity|]. cbn [fst snd]. split; [|split; [apply Hd|]].
      + replace (el + 1 =? 0)%Z with false by lia. replace (el + 1 - 1)%Z with el by lia. exact Ho.
      + intros k t l i Hk Ht Hl Hi. rewrite (proj2 Hd) by lia. destruct (Z.eqb_spec l el) as [->|].
        * apply Hc; lia.
        * apply H3; lia.
    - rewrite E. cbn [bind]. exists (snd st). split; [reflexivity|]. split; [exact H2|]. intros. apply H3; lia.
  Qed.

  Definition wdl_near (a : ndarray R) (N T L : Z) (x : Z -> R) (b : R) : Prop :=
    shape a = [2 * N - 1; T; L; 2 * L - 1]%Z /\
    forall k t l i, (0 <= k < 2 * N - 1)%Z -> (0 <= t < T)%Z -> (0 <= l < L)%Z -> (0 <= i < 2 * L - 1)%Z ->
      if adm_b (k - (N - 1)) l (i - (L - 1)) then Rabs (at4 a k t l i - wigner_d l (i - (L - 1)) (k - (N - 1)) (x t)) <= b else at4 a k t l i = 0.
  Definition wzero (K : ndarray R) (N T L : Z) : Prop :=
    forall k t l i, (0 <= k < 2 * N - 1)%Z -> (0 <= t < T)%Z -> (0 <= l < L)%Z -> (0 <= i < 2 * L - 1)%Z ->
      adm_b (k - (N - 1)) l (i - (L - 1)) = false -> at4 K k t l i = 0.
  Lemma wf_normalise_near a T L N x b kap : wdl_near a N T L x b -> 0 <= b <= 1 -> (104 / 100) * b + 75 * u <= kap ->
    exists K, wf_normalise A a L = Ok K /\ wk_near K N T L x kap /\ wzero K N T L.
  Proof.
    intros [Sa H] Hb Hk. unfold wf_normalise, dim0, dim1, dim2, dim3. rewrite Sa. cbn [nth]. rewrite Z.eqb_refl.
    eexists. split; [reflexivity|]. unfold wk_near. split; [split; [reflexivity|]|].
    2:{ intros k t l i Hk' Ht Hl Hi E. specialize (H k t l i Hk' Ht Hl Hi). rewrite E in H. unfold at4 at 1. cbn [arr4 get nth]. rewrite H. apply (proj1 HZ). }
    intros k t l i Hk' Ht Hl Hi. unfold at4 at 1. cbn [arr4 get nth]. specialize (H k t l i Hk' Ht Hl Hi). unfold wsize3.
    destruct (adm_b (k - (N - 1)) l (i - (L - 1))) eqn:E.
    - pose proof (wf_factor_err l ltac:(lia)) as EE. pose proof (wfac_lower l ltac:(lia)) as EL.
      pose proof (wigner_le1 l (i - (L - 1)) (k - (N - 1)) (x t)) as W1.
      set (d := wigner_d l (i - (L - 1)) (k - (N - 1)) (x t)) in *. set (dh := at4 a k t l i) in *. set (e := wfac l) in *. set (eh := wf_factor A l) in *.
      pose proof (rd_mul _ _ _ HA dh eh) as R1.
      assert (UE : 0 <= u * e) by (apply Rmult_le_pos; lra). assert (UE2 : u * e <= / 1000 * e) by (apply Rmult_le_compat_r; lra).
      assert (UE3 : u * / 128 <= u * e) by (apply Rmult_le_compat_l; lra).
      assert (Eh : Rabs eh <= (104 / 100) * e).
      { replace eh with (e + (eh - e)) by ring. eapply Rle_trans; [apply Rabs_triang|]. rewrite (Rabs_right e) by lra. lra. }
      assert (Dh : Rabs dh <= 2).
      { replace dh with (d + (dh - d)) by ring. eapply Rle_trans; [apply Rabs_triang|]. lra. }
      assert (M1 : Rabs (dh * eh) <= 2 * (104 / 100 * e)) by (rewrite Rabs_mult; apply Rmult_le_compat; try apply Rabs_pos; assumption).
      assert (M2 : Rabs ((dh - d) * eh) <= b * (104 / 100 * e)) by (rewrite Rabs_mult; apply Rmult_le_compat; try apply Rabs_pos; assumption).
      assert (M3 : Rabs (d * (eh - e)) <= 1 * (40 * u * e)) by (rewrite Rabs_mult; apply Rmult_le_compat; try apply Rabs_pos; assumption).
      assert (u * Rabs (dh * eh) <= u * (2 * (104 / 100 * e))) by (now apply Rmult_le_compat_l).
      replace (fmul A dh eh - e * d) with ((fmul A dh eh - dh * eh) + (dh - d) * eh + d * (eh - e)) by ring.
      eapply Rle_trans; [apply Rabs_triang|]. eapply Rle_trans; [apply Rplus_le_compat_r, Rabs_triang|].
      apply Rle_trans with ((104 / 100 * b + 75 * u) * e); [lra|]. apply Rmult_le_compat_r; lra.
    - rewrite H, (proj1 (proj1 HZ _)). rewrite wigner_d_out by (unfold adm_b in E; lia). rewrite Rmult_0_r, Rminus_0_r, Rabs_R0. lra.
  Qed.
  Lemma wf_kernel_near ths T L N kap : (1 <= N <= L)%Z -> vlen ths = T -> (0 <= T)%Z ->
    fbound u L <= 1 -> IZR (2 * L) * eta <= u -> (forall t, (0 <= t < T)%Z -> Rabs (vat ths t) <= 5) ->
    (104 / 100) * fbound u L + 75 * u <= kap ->
    exists K, wf_kernel A ths L N = Ok K /\ wk_near K N T L (vat ths) kap /\ wzero K N T L.
  Proof.
    intros HN HV HT HB HE Hth Hk. unfold wf_kernel. destruct (wf_direct_near ths T L N HN HV HT HB HE Hth) as (a & -> & Sa & H). cbn [bind].
    apply (wf_normalise_near a T L N (vat ths) (fbound u L) kap).
    - split; [exact Sa|]. intros k t l i Hk' Ht Hl Hi. specialize (H k t l i Hk' Ht Hl Hi). destruct (adm_b _ _ _); [|exact H]. eapply Rle_trans; [exact H|].
      unfold fbound. apply Rmult_le_compat_l; [lra|]. apply IZR_le. nia.
    - split; [|exact HB]. unfold fbound. apply Rmult_le_pos; [lra|]. apply IZR_le. nia.
    - exact Hk.
  Qed.

  (** a sum of products with a computed kernel *)
  Lemma dot3_err n o (kc k W : Z -> R) kap (f : Z -> C) : (1 <= n)%Z -> sums_all o n -> 0 <= kap <= 2 -> 6 * u * IZR n <= 1 ->
    (forall l, (0 <= l < n)%Z -> Rabs (k l) <= W l /\ Rabs (kc l - k l) <= kap * W l) ->
    Cmod (cf_sum A o (fun l => cf_mul A (RtoC (kc l)) (f l)) - csum (zrange 0 n) (fun l => RtoC (k l) * f l))%C
    <= 2 * ((kap + 15 * u * IZR n) * rsum (zrange 0 n) (fun l => W l * Cmod (f l)) + 6 * IZR n * eta).
  Proof.
    intros HL Ho Hk HuL HW.
    assert (W0 : forall l, (0 <= l < n)%Z -> 0 <= W l) by (intros l Hl; destruct (HW l Hl) as [H _]; pose proof (Rabs_pos (k l)); lra).
    set (g := fun l => cf_mul A (RtoC (kc l)) (f l)).
    set (S := rsum (zrange 0 n) (fun l => W l * Cmod (f l))).
    assert (P1 := part_sum_err A u eta HA Hu n o kc k W kap (fun l => fst (f l)) (fun l => fst (g l)) HL Ho HW Hk HuL
      (fun l _ => cmul_real_fst A u eta HA HZ Hu (kc l) (f l))).
    assert (P2 := part_sum_err A u eta HA Hu n o kc k W kap (fun l => snd (f l)) (fun l => snd (g l)) HL Ho HW Hk HuL
      (fun l _ => cmul_real_snd A u eta HA HZ Hu (kc l) (f l))).
    rewrite <- cf_sum_fst in P1. rewrite <- cf_sum_snd in P2.
    assert (L1 : 1 <= IZR n) by (apply IZR_le; lia). assert (K0 : 0 <= kap + 15 * u * IZR n) by nra.
    assert (S1 : rsum (zrange 0 n) (fun l => W l * Rabs (fst (f l))) <= S).
    { apply rr_le. intros l Hl. apply Rmult_le_compat_l; [now apply W0|]. apply part_le. }
    assert (S2 : rsum (zrange 0 n) (fun l => W l * Rabs (snd (f l))) <= S).
    { apply rr_le. intros l Hl. apply Rmult_le_compat_l; [now apply W0|]. apply part_le. }
    apply (Rmult_le_compat_l _ _ _ K0) in S1. apply (Rmult_le_compat_l _ _ _ K0) in S2.
    eapply Rle_trans; [apply Cmod_parts|].
    match goal with |- Rabs (fst ?Z) + _ <= _ => set (w := Z) end.
    assert (F1 : fst w = fst (cf_sum A o g) - rsum (zrange 0 n) (fun l => k l * fst (f l))).
    { unfold w, Cminus, Cplus, Copp. cbn [fst snd]. rewrite fst_csum. unfold Rminus. do 2 f_equal.
      apply rr_ext. intros l Hl. unfold Cmult. cbn [fst snd RtoC]. ring. }
    assert (F2 : snd w = snd (cf_sum A o g) - rsum (zrange 0 n) (fun l => k l * snd (f l))).
    { unfold w, Cminus, Cplus, Copp. cbn [fst snd]. rewrite snd_csum. unfold Rminus. do 2 f_equal.
      apply rr_ext. intros l Hl. unfold Cmult. cbn [fst snd RtoC]. ring. }
    rewrite F1, F2. lra.
  Qed.
  Lemma kernel3_size l m n x : (0 <= l)%Z -> Rabs (wfac l * wigner_d l m n x) <= wsize3 n l m.
  Proof.
    intros Hl. pose proof (wigner_le1 l m n x) as W1. pose proof (wfac_lower l Hl) as E0.
    destruct (Z_le_dec (Z.abs n) l); [destruct (Z_le_dec (Z.abs m) l)|].
    - rewrite wsize3_in by lia. rewrite Rabs_mult, (Rabs_right (wfac l)) by lra. nra.
    - rewrite wigner_d_out by lia. rewrite Rmult_0_r, Rabs_R0. now apply wsize3_nonneg.
    - rewrite wigner_d_out by lia. rewrite Rmult_0_r, Rabs_R0. now apply wsize3_nonneg.
  Qed.

  Lemma wf_inverse_near s F o flmn K L N x kap eps : s <> HEALPIX -> (1 <= N <= L)%Z -> shape flmn = [2 * N - 1; L; 2 * L - 1]%Z ->
    sums_all o L -> 0 <= kap <= 2 -> 6 * u * IZR L <= 1 -> 0 <= eps -> ifft2_accurate F (2 * N - 1) (per_ring s L) eps ->
    wk_near K N (rings s L 0) L x kap ->
    exists f, wf_inverse A F o flmn K L N (scheme_name s) = Ok f /\ shape f = [2 * N - 1; rings s L 0; per_ring s L]%Z /\
      forall g t p, (0 <= g < 2 * N - 1)%Z -> (0 <= t < rings s L 0)%Z -> (0 <= p < per_ring s L)%Z ->
        Cmod (get f [g; t; p] - so3_synth L N (stored3 L N flmn) (equi_longitude s L p) (x t) (2 * PI * IZR g / IZR (2 * N - 1)))%C <=
        (eps + (1 + eps) * (2 * (kap + 15 * u * IZR L))) * so3_size L N (stored3 L N flmn) + (1 + eps) * (48 * (IZR N * (IZR L * IZR L)) * eta).
  Proof.
    intros Hs HN Hf Ho Hk HuL Heps HF [KS HK].
    assert (HL : (1 <= L)%Z) by lia.
    assert (M01 : mo_of s = 0%Z \/ mo_of s = 1%Z) by (destruct s; cbn [mo_of]; lia).
    assert (EO : orders s L = (2 * L - 1 + mo_of s)%Z) by (destruct s; cbn [orders mo_of]; lia).
    assert (EP : per_ring s L = (2 * L - 1 + mo_of s)%Z) by (destruct s; cbn [per_ring mo_of]; try lia; congruence).
    set (T := rings s L 0) in *. set (P := per_ring s L) in *. set (mo := mo_of s) in *. set (c := stored3 L N flmn).
    unfold wf_inverse. cbv zeta. rewrite wm_offset_name, in_healpix_name.
    assert (ST : setting (scheme_name s) s L 0 None) by (split; [now destruct s|]; split; [lia|intros Q; congruence]).
    rewrite (fnab_shape_ok s L N 0 None ST). cbn [bind]. fold T mo. rewrite EO, <- EP.
    assert (FA : is_arr3 flmn (2 * N - 1) L (2 * L - 1) (fun i el k => c (i - (N - 1)) el (k - (L - 1)))%Z).
    { split; [exact Hf|]. intros i el k Hi Hel Hk'. unfold c, stored3, at3. do 2 f_equal; [lia|]. do 2 f_equal. lia. }
    assert (FP := planes_from_ok flmn _ _ _ _ 0%Z FA ltac:(lia)). rewrite Z.sub_0_r in FP.
    set (fl := planes_from flmn 0) in *.
    unfold wf_einsum. destruct (is_arr3_dims _ _ _ _ _ FP) as (-> & -> & ->).
    assert (D0 : dim0 K = (2 * N - 1)%Z) by (unfold dim0; now rewrite KS). assert (D1 : dim1 K = T) by (unfold dim1; now rewrite KS).
    assert (D2 : dim2 K = L) by (unfold dim2; now rewrite KS). assert (D3 : dim3 K = (2 * L - 1)%Z) by (unfold dim3; now rewrite KS).
    rewrite D0, D1, D2, D3, !Z.eqb_refl. cbn [andb bind].
    set (h := fun k t i => cf_sum A o (fun l => cf_mul A (RtoC (at4 K k t l i)) (at3 fl k l i))).
    assert (Hei : is_arr3 (arr3 (2 * N - 1) T (2 * L - 1) h) (2 * N - 1 - 0) T (P - mo) h).
    { rewrite Z.sub_0_r. replace (P - mo)%Z with (2 * L - 1)%Z by lia. apply is_arr3_arr3. }
    destruct (tail_set_ok (zeros (RtoC 0) [2 * N - 1; T; P]%Z) _ _ _ _ _ _ 0%Z mo (zeros3 _ _ _ _) Hei ltac:(lia) ltac:(lia)) as (fnab & -> & Hfn).
    cbn [bind]. replace (match s with HEALPIX => true | _ => false end) with false by (destruct s; congruence).
    set (a := fun t n m => h (n + (N - 1))%Z t (m + (L - 1))%Z).
    assert (Hfn' : is_arr3 fnab (2 * N - 1) T P (fun k t j => if (mo <=? j)%Z then a t (k - (N - 1))%Z (j - mo - (L - 1))%Z else RtoC 0)).
    { eapply is_arr3_ext; [exact Hfn|]. intros k t j Hk' Ht Hj. cbv beta. replace (0 <=? k)%Z with true by lia. cbn [andb].
      destruct (Z.leb_spec mo j); [|reflexivity]. unfold a. f_equal; lia. }
    clear Hfn.
    assert (M1 := map3_2_ok ifftshift fnab _ _ _ P _ Hfn' vext_ifftshift ltac:(intros v Hv; exact Hv)).
    assert (M2 := map3_0_ok ifftshift _ _ _ _ (2 * N - 1)%Z _ M1 vext_ifftshift ltac:(intros v Hv; exact Hv)).
    set (q := map3_0 ifftshift (map3_2 ifftshift fnab)) in *. clearbody q. cbn [ifftshift vat vlen] in M2.
    set (b := fun t k j => if (mo <=? j)%Z then a t (k - (N - 1))%Z (j - mo - (L - 1))%Z else RtoC 0).
    assert (GQ : forall k t j, (0 <= k < 2 * N - 1)%Z -> (0 <= t < T)%Z -> (0 <= j < P)%Z ->
      at3 q k t j = b t ((k + (2 * N - 1) / 2) mod (2 * N - 1))%Z ((j + P / 2) mod P)%Z) by (intros; now apply (proj2 M2)).
    destruct (is_arr3_dims _ _ _ _ _ M2) as (Q0 & Q1 & Q2). clear M1 M2 Hfn'.
    eexists. split; [reflexivity|]. unfold wf_ifft2. rewrite Q0, Q1, Q2.
    set (pl := fun t => mat (2 * N - 1) P (fun n m => at3 q n t m)).
    assert (HP : forall t, shape (F (pl t)) = [2 * N - 1; P]%Z) by (intros t; now apply HF).
    split; [transitivity [dim0 (F (pl 0%Z)); T; dim1 (F (pl 0%Z))]; [reflexivity|]; unfold dim0, dim1; now rewrite (HP 0%Z)|].
    intros g t p Hg Ht Hp. match goal with |- Cmod (?z - _)%C <= _ => change z with (get (F (pl t)) [g; p]) end.
    destruct (HF (pl t) eq_refl) as [_ HF']. specialize (HF' g p Hg Hp).
    (* the exact transform of the computed orders *)
    assert (DF : dft2 (pl t) (2 * N - 1) P g p =
      csum (zrange (- (N - 1)) N) (fun n => csum (zrange (- (L - 1)) L) (fun m => a t n m * cis (IZR m * equi_longitude s L p)) * cis (IZR n * (2 * PI * IZR g / IZR (2 * N - 1))))%C).
    { unfold dft2. set (H1 := fun k => csum (zrange 0 P) (fun j => b t k j * root P ((j - P / 2) * p))%C).
      transitivity (csum (zrange 0 (2 * N - 1)) (fun k => H1 ((k + (2 * N - 1) / 2) mod (2 * N - 1))%Z * root (2 * N - 1) (k * g))%C).
      - apply cr_ext. intros k Hk'. unfold H1. rewrite <- (shift_csum P) by lia. rewrite <- cs_scal_r. apply cr_ext. intros j Hj.
        unfold pl. cbn [mat get nth]. rewrite GQ by lia. unfold root. rewrite !mult_IZR.
        replace (2 * PI * IZR k * IZR g / IZR (2 * N - 1)) with (2 * PI * (IZR k * IZR g) / IZR (2 * N - 1)) by (unfold Rdiv; ring).
        replace (2 * PI * IZR j * IZR p / IZR P) with (2 * PI * (IZR j * IZR p) / IZR P) by (unfold Rdiv; ring). ring.
      - rewrite shift_csum by lia.
        rewrite (cr_ext 0 (2 * N - 1) _ (fun k => csum (zrange (- (L - 1)) L) (fun m => a t (k - (N - 1))%Z m * root P (m * p)) * root (2 * N - 1) ((k - (2 * N - 1) / 2) * g))%C).
        + rewrite (centred_n N (fun n => csum (zrange (- (L - 1)) L) (fun m => a t n m * root P (m * p))%C)) by lia.
          apply cr_ext. intros n Hn. rewrite gamma_root by lia. f_equal. apply cr_ext. intros m Hm. unfold P. now rewrite root_lon by lia.
        + intros k Hk'. f_equal. unfold H1, b. rewrite EP. apply (centred_csum L mo (a t (k - (N - 1))%Z)); auto. }
    assert (AB : rsum (zrange 0 (2 * N - 1)) (fun k => rsum (zrange 0 P) (fun j => Cmod (get (pl t) [k; j]))) =
      rsum (zrange (- (N - 1)) N) (fun n => rsum (zrange (- (L - 1)) L) (fun m => Cmod (a t n m)))).
    { set (H1 := fun k => rsum (zrange 0 P) (fun j => Cmod (b t k j))).
      transitivity (rsum (zrange 0 (2 * N - 1)) (fun k => H1 ((k + (2 * N - 1) / 2) mod (2 * N - 1))%Z)).
      - apply rr_ext. intros k Hk'. unfold H1. rewrite <- (shift_rsum P (fun j => Cmod (b t ((k + (2 * N - 1) / 2) mod (2 * N - 1))%Z j))) by lia. apply rr_ext. intros j Hj.
        unfold pl. cbn [mat get nth]. now rewrite GQ by lia.
      - rewrite (shift_rsum (2 * N - 1) H1) by lia. rewrite <- (centred_n_rsum N (fun n => rsum (zrange (- (L - 1)) L) (fun m => Cmod (a t n m)))) by lia. apply rr_ext. intros k Hk'. unfold H1, b. rewrite EP.
        apply (centred_rsum L mo (a t (k - (N - 1))%Z)); auto. }
    rewrite DF, AB in HF'. clear DF AB.
    assert (OE : forall n m, (- N < n < N)%Z -> (- L < m < L)%Z ->
      Cmod (a t n m - exact3 L c (x t) n m)%C <= 2 * ((kap + 15 * u * IZR L) * rsum (zrange 0 L) (fun l => wsize3 n l m * Cmod (c n l m)) + 6 * IZR L * eta)).
    { intros n m Hn Hm. unfold a, h, exact3.
      assert (FE : forall l, (0 <= l < L)%Z -> at3 fl (n + (N - 1)) l (m + (L - 1)) = c n l m).
      { intros l Hl. rewrite (proj2 FP) by lia. f_equal; lia. }
      assert (E := dot3_err L o (fun l => at4 K (n + (N - 1)) t l (m + (L - 1))) (fun l => wfac l * wigner_d l m n (x t)) (fun l => wsize3 n l m) kap
        (fun l => at3 fl (n + (N - 1)) l (m + (L - 1))) HL Ho Hk HuL).
      rewrite (cr_ext 0 L (fun l => RtoC (wfac l * wigner_d l m n (x t)) * c n l m)%C
                 (fun l => RtoC (wfac l * wigner_d l m n (x t)) * at3 fl (n + (N - 1)) l (m + (L - 1)))%C) by (intros l Hl; now rewrite FE).
      rewrite (rr_ext 0 L (fun l => wsize3 n l m * Cmod (c n l m)) (fun l => wsize3 n l m * Cmod (at3 fl (n + (N - 1)) l (m + (L - 1))%Z))) by (intros l Hl; now rewrite FE).
      apply E. intros l Hl. split; [apply kernel3_size; lia|].
      specialize (HK (n + (N - 1))%Z t l (m + (L - 1))%Z ltac:(lia) Ht Hl ltac:(lia)).
      replace (m + (L - 1) - (L - 1))%Z with m in HK by lia. replace (n + (N - 1) - (N - 1))%Z with n in HK by lia. exact HK. }
    assert (L1 : 1 <= IZR L) by (apply IZR_le; lia). assert (N1 : 1 <= IZR N) by (apply IZR_le; lia).
    set (S := so3_size L N c). set (kk := kap + 15 * u * IZR L) in *.
    assert (SE := so3_size_orders L N c HN). fold S in SE.
    set (al := equi_longitude s L p). set (ga := 2 * PI * IZR g / IZR (2 * N - 1)).
    set (Dv := rsum (zrange (- (N - 1)) N) (fun n => rsum (zrange (- (L - 1)) L) (fun m => Cmod (a t n m - exact3 L c (x t) n m)%C))).
    assert (D : Dv <= 2 * kk * S + 48 * (IZR N * (IZR L * IZR L)) * eta).
    { unfold Dv. eapply Rle_trans.
      - apply rr_le. intros n Hn. apply rr_le. intros m Hm. apply OE; lia.
      - rewrite (rr_ext _ _ _ (fun n => 2 * kk * rsum (zrange (- (L - 1)) L) (fun m => rsum (zrange 0 L) (fun l => wsize3 n l m * Cmod (c n l m))) + IZR (2 * L - 1) * (12 * IZR L * eta))).
        + rewrite rs_plus, rs_scal_l, SE. apply Rplus_le_compat_l.
          rewrite (rr_shift (- (N - 1)) N (N - 1) (fun _ => IZR (2 * L - 1) * (12 * IZR L * eta))). replace (- (N - 1) + (N - 1))%Z with 0%Z by lia.
          rewrite sum_const by lia.
          assert (X0 : 0 <= IZR L * eta) by (apply Rmult_le_pos; lra).
          assert (X1 : 0 <= IZR (N + (N - 1)) <= 2 * IZR N) by (rewrite plus_IZR, minus_IZR; lra).
          assert (X2 : 0 <= IZR (2 * L - 1) <= 2 * IZR L) by (rewrite minus_IZR, mult_IZR; lra).
          apply Rle_trans with (2 * IZR N * (2 * IZR L * (12 * IZR L * eta))); [|right; ring].
          apply Rmult_le_compat; try lra; [apply Rmult_le_pos; lra|]. apply Rmult_le_compat_r; lra.
        + intros n Hn. rewrite (rr_ext _ _ _ (fun m => 2 * kk * rsum (zrange 0 L) (fun l => wsize3 n l m * Cmod (c n l m)) + 12 * IZR L * eta)) by (intros; ring).
          rewrite rs_plus, rs_scal_l. f_equal. rewrite (rr_shift (- (L - 1)) L (L - 1) (fun _ => 12 * IZR L * eta)). replace (- (L - 1) + (L - 1))%Z with 0%Z by lia.
          rewrite sum_const by lia. f_equal. f_equal. lia. }
    assert (EX : rsum (zrange (- (N - 1)) N) (fun n => rsum (zrange (- (L - 1)) L) (fun m => Cmod (exact3 L c (x t) n m))) <= S).
    { rewrite <- SE. apply rr_le. intros n Hn. apply rr_le. intros m Hm. unfold exact3. apply csum_le. intros l Hl. apply in_zrange in Hl. rewrite Cmod_mult, Cmod_R.
      apply Rmult_le_compat_r; [apply Cmod_ge_0|]. apply kernel3_size. lia. }
    assert (AS : rsum (zrange (- (N - 1)) N) (fun n => rsum (zrange (- (L - 1)) L) (fun m => Cmod (a t n m))) <= S + Dv).
    { eapply Rle_trans; [|apply Rplus_le_compat_r, EX]. unfold Dv. rewrite <- rs_plus. apply rr_le. intros n Hn. rewrite <- rs_plus. apply rr_le. intros m Hm.
      replace (a t n m) with (exact3 L c (x t) n m + (a t n m - exact3 L c (x t) n m))%C at 1 by ring. apply Cmod_triangle. }
    rewrite (so3_synth_orders L N c al (x t) ga HN). fold al ga in HF'.
    set (v := get (F (pl t)) [g; p]) in *.
    set (sa := csum (zrange (- (N - 1)) N) (fun n => csum (zrange (- (L - 1)) L) (fun m => a t n m * cis (IZR m * al)) * cis (IZR n * ga))%C) in *.
    set (se := csum (zrange (- (N - 1)) N) (fun n => csum (zrange (- (L - 1)) L) (fun m => exact3 L c (x t) n m * cis (IZR m * al)) * cis (IZR n * ga))%C).
    assert (SD : Cmod (sa - se)%C <= Dv).
    { unfold sa, se, Dv. rewrite <- cs_minus. apply csum_le. intros n Hn.
      replace (csum (zrange (- (L - 1)) L) (fun m => a t n m * cis (IZR m * al)) * cis (IZR n * ga) - csum (zrange (- (L - 1)) L) (fun m => exact3 L c (x t) n m * cis (IZR m * al)) * cis (IZR n * ga))%C
        with (csum (zrange (- (L - 1)) L) (fun m => (a t n m - exact3 L c (x t) n m) * cis (IZR m * al)) * cis (IZR n * ga))%C.
      - rewrite Cmod_mult, Cmod_cis, Rmult_1_r. apply csum_le. intros m Hm. rewrite Cmod_mult, Cmod_cis. lra.
      - rewrite (cr_ext _ _ (fun m => (a t n m - exact3 L c (x t) n m) * cis (IZR m * al))%C (fun m => a t n m * cis (IZR m * al) - exact3 L c (x t) n m * cis (IZR m * al))%C) by (intros; ring).
        rewrite cs_minus. ring. }
    replace (v - se)%C with ((v - sa) + (sa - se))%C by ring. eapply Rle_trans; [apply Cmod_triangle|].
    assert (R1 : eps * rsum (zrange (- (N - 1)) N) (fun n => rsum (zrange (- (L - 1)) L) (fun m => Cmod (a t n m))) <= eps * (S + Dv)) by (now apply Rmult_le_compat_l).
    assert (R2 : (1 + eps) * Dv <= (1 + eps) * (2 * kk * S + 48 * (IZR N * (IZR L * IZR L)) * eta)) by (apply Rmult_le_compat_l; lra).
    lra.
  Qed.
End Float.

(** ** From the colatitudes to the samples *)
Section Top.
  Variables (A : arith) (u eta : R).
  Hypothesis HA : rounded A u eta.
  Hypothesis HZ : zeros_exact A.
  Let u0 : 0 <= u := rd_u _ _ _ HA.
  Let e0 : 0 <= eta := rd_eta _ _ _ HA.
  Variables (L N : Z) (eps : R).
  Hypothesis HN : (1 <= N <= L)%Z.
  Hypothesis HB : 2000 * u * (IZR L * (2 * IZR L + 3)) <= 1.
  Hypothesis HE : 4 * IZR L * eta <= u.
  Hypothesis Heps : 0 <= eps <= / 20.
  Definition kap3 : R := 230 * u * (IZR L * (2 * IZR L + 3)).
  Lemma wf_kernel_top ths T : vlen ths = T -> (0 <= T)%Z -> (forall t, (0 <= t < T)%Z -> Rabs (vat ths t) <= 5) ->
    exists K, wf_kernel A ths L N = Ok K /\ wk_near K N T L (vat ths) kap3 /\ wzero K N T L.
  Proof.
    intros HV HT Hth. destruct (small A u eta HA L 0%Z eps ltac:(lia) HB HE Heps) as (S1 & S2 & S3 & S4 & L1 & S5).
    apply (wf_kernel_near A u eta HA HZ S1 S2 ths T L N kap3 HN HV HT ltac:(lra) S4 Hth).
    unfold fbound, kap3. rewrite mult_IZR, plus_IZR, mult_IZR. assert (5 <= IZR L * (2 * IZR L + 3)) by nra.
    assert (u * 5 <= u * (IZR L * (2 * IZR L + 3))) by (now apply Rmult_le_compat_l). lra.
  Qed.
  Lemma wf_thetas s nodes gl : s = MW \/ s = MWSS \/ s = DH ->
    exists ths, pf_thetas A (scheme_name s) L gl = Ok ths /\ vlen ths = rings s L 0 /\
      forall t, (0 <= t < rings s L 0)%Z -> Rabs (vat ths t) <= 5 /\ forall y, colatitude nodes s L 0 t y -> Rabs (vat ths t - y) <= 13 * u.
  Proof.
    intros Hsch. destruct (small A u eta HA L 0%Z eps ltac:(lia) HB HE Heps) as (S1 & S2 & S3 & S4 & L1 & S5). pose proof PI_4 as P4.
    assert (N0 : IZR L <> 0) by lra.
    assert (G : forall z y, Rabs (z - y) <= 13 * u /\ 0 <= y <= PI -> Rabs z <= 5).
    { intros z y [H1 H2]. replace z with (y + (z - y)) by ring. eapply Rle_trans; [apply Rabs_triang|]. rewrite (Rabs_right y) by lra. lra. }
    destruct Hsch as [->|[->| ->]]; unfold pf_thetas; cbn [scheme_name rings];
      repeat match goal with |- context [streq ?a ?b] => let v := eval compute in (streq a b) in change (streq a b) with v end; cbv iota;
      (eexists; split; [reflexivity|]); (split; [reflexivity|]); cbn [vat colatitude is_colatitude]; intros t Ht.
    - assert (Q := theta_err A u eta HA L 0%Z eps ltac:(lia) HB HE Heps (2 * t + 1) (2 * L - 1) (mw_theta L t) ltac:(lia) ltac:(lia) ltac:(lia) eq_refl).
      split; [exact (G _ _ Q)|]. intros y ->. apply Q.
    - assert (Q := theta_err A u eta HA L 0%Z eps ltac:(lia) HB HE Heps (2 * t) (2 * L) (mwss_theta L t) ltac:(lia) ltac:(lia) ltac:(lia)
        ltac:(unfold mwss_theta; rewrite !mult_IZR; field; exact N0)).
      split; [exact (G _ _ Q)|]. intros y ->. apply Q.
    - assert (Q := theta_err A u eta HA L 0%Z eps ltac:(lia) HB HE Heps (2 * t + 1) (4 * L) (dh_theta L t) ltac:(lia) ltac:(lia) ltac:(lia) eq_refl).
      split; [exact (G _ _ Q)|]. intros y ->. apply Q.
  Qed.
  Lemma wf_inverse_gen s nodes F o flmn K x delta kap : s <> HEALPIX -> shape flmn = [2 * N - 1; L; 2 * L - 1]%Z ->
    sums_all o L -> 0 <= kap <= 2 -> ifft2_accurate F (2 * N - 1) (per_ring s L) eps -> wk_near K N (rings s L 0) L x kap ->
    (forall t y, (0 <= t < rings s L 0)%Z -> colatitude nodes s L 0 t y -> Rabs (x t - y) <= delta) ->
    exists f, wf_inverse A F o flmn K L N (scheme_name s) = Ok f /\ shape f = [2 * N - 1; rings s L 0; per_ring s L]%Z /\
      forall g t p y, (0 <= g < 2 * N - 1)%Z -> (0 <= t < rings s L 0)%Z -> (0 <= p < per_ring s L)%Z -> colatitude nodes s L 0 t y ->
        Cmod (get f [g; t; p] - so3_synth L N (stored3 L N flmn) (equi_longitude s L p) y (2 * PI * IZR g / IZR (2 * N - 1)))%C <=
        (eps + (21 / 10) * (kap + 3 * u * (IZR L * (2 * IZR L + 3))) + IZR L * delta) * so3_size L N (stored3 L N flmn) + 51 * (IZR N * (IZR L * IZR L)) * eta.
  Proof.
    intros Hs Hf Ho Hk HF HK Hx. destruct (small A u eta HA L 0%Z eps ltac:(lia) HB HE Heps) as (S1 & S2 & S3 & S4 & L1 & S5).
    assert (X : u * IZR L * 5 <= u * (IZR L * (2 * IZR L + 3))) by (rewrite Rmult_assoc; apply Rmult_le_compat_l; nra).
    assert (X0 : 0 <= u * IZR L) by (apply Rmult_le_pos; lra).
    destruct (wf_inverse_near A u eta HA HZ S1 s F o flmn K L N x kap eps Hs HN Hf Ho Hk) as (f & E & Sh & H); try assumption; try lra.
    exists f. split; [exact E|]. split; [exact Sh|]. intros g t p y Hg Ht Hp Hy. specialize (H g t p Hg Ht Hp).
    set (c := stored3 L N flmn) in *. set (al := equi_longitude s L p) in *. set (ga := 2 * PI * IZR g / IZR (2 * N - 1)) in *.
    pose proof (so3_lip L N c al (x t) y ga ltac:(lia)) as W. pose proof (so3_size_nonneg L N c) as Z0. set (S := so3_size L N c) in *.
    assert (W2 : IZR L * Rabs (x t - y) * S <= IZR L * delta * S).
    { apply Rmult_le_compat_r; [exact Z0|]. apply Rmult_le_compat_l; [lra|]. now apply Hx. }
    replace (get f [g; t; p] - so3_synth L N c al y ga)%C with ((get f [g; t; p] - so3_synth L N c al (x t) ga) + (so3_synth L N c al (x t) ga - so3_synth L N c al y ga))%C by ring.
    eapply Rle_trans; [apply Cmod_triangle|].
    assert (N1 : 1 <= IZR N) by (apply IZR_le; lia).
    assert (Y0 : 0 <= IZR N * (IZR L * IZR L) * eta) by (apply Rmult_le_pos; [|lra]; apply Rmult_le_pos; nra).
    set (Y := IZR N * (IZR L * IZR L) * eta) in *.
    assert (T1 : (1 + eps) * (48 * (IZR N * (IZR L * IZR L)) * eta) <= 51 * Y).
    { replace (48 * (IZR N * (IZR L * IZR L)) * eta) with (48 * Y) by (unfold Y; ring). nra. }
    replace (51 * (IZR N * (IZR L * IZR L)) * eta) with (51 * Y) by (unfold Y; ring).
    set (V := u * (IZR L * (2 * IZR L + 3))) in *.
    replace (3 * u * (IZR L * (2 * IZR L + 3))) with (3 * V) by (unfold V; ring).
    assert (T2 : eps + (1 + eps) * (2 * (kap + 15 * u * IZR L)) <= eps + (21 / 10) * (kap + 3 * V)).
    { assert (0 <= 2 * (kap + 15 * u * IZR L) <= 2 * (kap + 3 * V)) by lra. nra. }
    apply (Rmult_le_compat_r S) in T2; [|exact Z0]. lra.
  Qed.
  Lemma wf_inverse_top s nodes F o flmn K x delta : s <> HEALPIX -> shape flmn = [2 * N - 1; L; 2 * L - 1]%Z ->
    sums_all o L -> ifft2_accurate F (2 * N - 1) (per_ring s L) eps -> wk_near K N (rings s L 0) L x kap3 ->
    (forall t y, (0 <= t < rings s L 0)%Z -> colatitude nodes s L 0 t y -> Rabs (x t - y) <= delta) ->
    exists f, wf_inverse A F o flmn K L N (scheme_name s) = Ok f /\ shape f = [2 * N - 1; rings s L 0; per_ring s L]%Z /\
      forall g t p y, (0 <= g < 2 * N - 1)%Z -> (0 <= t < rings s L 0)%Z -> (0 <= p < per_ring s L)%Z -> colatitude nodes s L 0 t y ->
        Cmod (get f [g; t; p] - so3_synth L N (stored3 L N flmn) (equi_longitude s L p) y (2 * PI * IZR g / IZR (2 * N - 1)))%C <=
        (490 * u * (IZR L * (2 * IZR L + 3)) + eps + IZR L * delta) * so3_size L N (stored3 L N flmn) + 51 * (IZR N * (IZR L * IZR L)) * eta.
  Proof.
    intros Hs Hf Ho HF HK Hx. assert (L1 : 1 <= IZR L) by (apply IZR_le; lia).
    assert (X0 : 0 <= u * (IZR L * (2 * IZR L + 3))) by (apply Rmult_le_pos; [exact u0|]; nra).
    destruct (wf_inverse_gen s nodes F o flmn K x delta kap3 Hs Hf Ho ltac:(unfold kap3; lra) HF HK Hx) as (f & E & Sh & H).
    exists f. split; [exact E|]. split; [exact Sh|]. intros g t p y Hg Ht Hp Hy. eapply Rle_trans; [exact (H g t p y Hg Ht Hp Hy)|].
    apply Rplus_le_compat_r. apply Rmult_le_compat_r; [apply so3_size_nonneg|]. unfold kap3. lra.
  Qed.
End Top.

Lemma exact_ifft2_accurate n m eps : 0 <= eps -> ifft2_accurate exact_ifft2 n m eps.
Proof.
  intros He a Ha. unfold exact_ifft2. rewrite Ha. split; [reflexivity|]. intros g p _ _. cbn [get nth].
  unfold Cminus. rewrite Cplus_opp_r, Cmod_0. apply Rmult_le_pos; [exact He|]. apply rs_nonneg. intros. apply rs_nonneg. intros. apply Cmod_ge_0.
Qed.
