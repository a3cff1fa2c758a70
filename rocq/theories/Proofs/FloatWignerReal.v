(** The precomputed inverse Wigner transform of real signals in rounded arithmetic. *)
From Coq Require Import Reals Lra Lia ZifyBool FunctionalExtensionality.
From Coquelicot Require Import Complex.
From Verif Require Import Proofs.FloatForwardTop Spec.HealpixFFTSpec.
From Verif Require Import Lib.Py Lib.PyFacts Lib.Vec Lib.VecFacts Lib.Sums Lib.Cplx Lib.Arr Lib.ArrFacts Lib.MatFacts Model.Index Model.Samples Model.FFT Model.Risbo
  Model.RisboFloat Model.Resampling Model.Spherical Model.Precompute Model.PrecomputeFloat Model.Wigner Model.FourierWigner Model.PrecomputeWigner Model.WignerFloat Model.WignerRealFloat
  Spec.SamplesSpec Spec.WignerSpec Spec.SphereSpec Spec.GridSpec Spec.SphericalSpec Spec.SO3Spec Spec.RoundingSpec Spec.PrecomputeFloatSpec Spec.WignerFloatSpec
  Proofs.WignerCalc Proofs.RisboProofs Proofs.SamplesProofs Proofs.SphGrid Proofs.SphInverse Proofs.PrecomputeKernel Proofs.SpectralBound Proofs.CBackendBound Proofs.HealpixDFTProofs
  Proofs.RisboFloatProofs Proofs.FloatSums Proofs.FloatKernel Proofs.FloatInverse Proofs.FloatFourier Proofs.FloatTop Proofs.WignerInverse Proofs.WignerRound Proofs.FWArrays Proofs.PWKernel Proofs.PWInverse
  Proofs.FloatForward Proofs.FloatReal Proofs.FloatRealInverse Proofs.FloatWigner Proofs.FloatWignerFourier.
Open Scope R_scope.

(** ** The half kernel *)
Definition half3 (K Kr : ndarray R) (N T L : Z) : Prop :=
  shape K = [2 * N - 1; T; L; 2 * L - 1]%Z /\ shape Kr = [N; T; L; 2 * L - 1]%Z /\
  forall k t l i, (0 <= k < N)%Z -> (0 <= t < T)%Z -> (0 <= l < L)%Z -> (0 <= i < 2 * L - 1)%Z -> at4 Kr k t l i = at4 K (N - 1 + k) t l i.
Lemma el_set_half K Kr N T L el b br K' : (1 <= N)%Z -> half3 K Kr N T L -> (0 <= el < L)%Z -> dim0 br = N -> dim1 br = dim1 b -> dim2 br = dim2 b ->
  (forall k t i, (0 <= k < N)%Z -> (0 <= t < T)%Z -> (0 <= i < 2 * L - 1)%Z -> at3 br k t i = at3 b (N - 1 + k) t i) ->
  el_set K el b = Ok K' -> exists Kr', el_set Kr el br = Ok Kr' /\ half3 K' Kr' N T L.
Proof.
  intros HN (S1 & S2 & H) Hel D0 D1 D2 Hb. unfold el_set, dim0, dim1, dim2, dim3 in *. rewrite S1, S2 in *. cbn [nth] in *.
  rewrite D0, D1, D2, norm_in by exact Hel. rewrite Z.eqb_refl. cbn [andb].
  destruct (nth 0 (shape b) 0 =? 2 * N - 1)%Z; [|discriminate]. cbn [andb].
  destruct (_ && _)%bool; [|discriminate]. intros E. injection E as <-. eexists. split; [reflexivity|].
  split; [reflexivity|]. split; [reflexivity|]. intros k t l i Hk Ht Hl Hi. unfold at4. cbn [arr4 get nth].
  destruct (l =? el)%Z; [apply Hb; lia|apply H; lia].
Qed.
Lemma wdirect_half A ths L N K : (1 <= N <= L)%Z -> wf_direct A ths L N = Ok K -> exists Kr, wr_direct A ths L N = Ok Kr /\ half3 K Kr N (vlen ths) L.
Proof.
  intros HN. unfold wf_direct, wr_direct. cbv zeta. set (betas := map (vat ths) (zrange 0 (vlen ths))).
  match goal with |- (let* st := foldM ?f ?l ?s in _) = _ -> exists _, (let* st := foldM ?f' _ ?s' in _) = _ /\ _ =>
    assert (P := foldM_pair (fun a a' : list (ndarray R) * ndarray R => fst a = fst a' /\ half3 (snd a) (snd a') N (vlen ths) L) f f' l) end.
  match type of P with (?h -> _) => assert (Q : h) end.
  { intros el [dls dl] [dls' dl'] b Hel [E1 E2] E. apply in_zrange in Hel. cbn [fst snd] in *. subst dls'.
    destruct (rf_full_vec A dls betas L el) as [delta|]; [|discriminate]. cbn [bind] in *. unfold wf_take in *.
    destruct (forallb _ (zrange (L - 1 + (1 - N)) (L - 1 + N))); [|discriminate]. cbn [bind] in E.
    replace (forallb _ (zrange (L - 1) (L - 1 + N))) with true.
    2: { symmetry. apply forallb_forall. intros i Hi. apply in_zrange in Hi. rewrite norm_in by lia. reflexivity. }
    cbn [bind].
    match type of E with (let* dl := el_set _ _ ?m in _) = _ => set (b1 := m) in * end. destruct (el_set dl el b1) as [K1|] eqn:EM; [|discriminate]. cbn [bind] in E. injection E as <-.
    match goal with |- context [el_set dl' el ?m] => destruct (el_set_half dl dl' N (vlen ths) L el b1 m K1 ltac:(lia) E2 Hel) as (K2 & -> & Hh) end; try exact EM; try reflexivity.
    - unfold arr3, dim0. cbn [shape nth]. lia.
    - intros k t i Hk Ht Hi. unfold b1. rewrite !at3_arr3. do 2 f_equal. replace (L - 1 + (1 - N) + (N - 1 + k))%Z with (L - 1 + k)%Z by lia. reflexivity.
    - cbn [bind]. eexists. split; [reflexivity|]. cbn [fst snd]. now split. }
  specialize (P Q). intros E. destruct (foldM _ _ _) as [st|] eqn:EF in E; [|discriminate]. cbn [bind] in E. injection E as <-.
  destruct (P (map (fun _ => zeros 0%R [2 * L - 1; 2 * L - 1]%Z) betas, zeros 0%R [2 * N - 1; vlen ths; L; 2 * L - 1]%Z) (map (fun _ => zeros 0%R [2 * L - 1; 2 * L - 1]%Z) betas, zeros 0%R [N; vlen ths; L; 2 * L - 1]%Z) st) as (st' & ES & _ & H); [|exact EF|].
  { cbn [fst snd]. split; [reflexivity|]. split; [reflexivity|]. split; [reflexivity|]. reflexivity. }
  rewrite ES. cbn [bind]. eexists. split; [reflexivity|exact H].
Qed.
Lemma sub_forallb (P : Z -> bool) a b c : (a <= b)%Z -> forallb P (zrange a c) = true -> forallb P (zrange b c) = true.
Proof. intros H Q. rewrite forallb_forall in *. intros i Hi. apply Q. apply in_zrange in Hi. apply in_zrange. lia. Qed.
Lemma wslices_half A F delta th0 L N t : (1 <= N <= L)%Z -> wf_slices A F delta th0 L N = Ok t ->
  exists tr, wr_slices A F delta th0 L N = Ok tr /\ shape t = [2 * L - 1; 2 * L - 1; 2 * N - 1]%Z /\ shape tr = [2 * L - 1; 2 * L - 1; N]%Z /\
    forall a m n, get tr [a; m; n] = get t [a; m; N - 1 + n]%Z.
Proof.
  intros HN. unfold wf_slices, wr_slices, take_last2. remember (1 - N)%Z as q eqn:Hq. destruct (forallb _ (zrange (L - 1 + q) (L - 1 + N))) eqn:EB; [|discriminate]. cbn [bind].
  rewrite (sub_forallb _ (L - 1 + q) (L - 1) (L - 1 + N) ltac:(lia) EB).
  cbn [bind]. intros E. injection E as <-. eexists. split; [reflexivity|]. split; [reflexivity|]. split; [reflexivity|].
  intros a m n. unfold at3. cbn [arr3 get nth]. unfold at2, mat. cbn [get nth].
  replace (L - 1 + q + (N - 1 + n))%Z with (L - 1 + n)%Z by lia. replace (q + (N - 1 + n))%Z with n by lia. reflexivity.
Qed.
Lemma wfourier_half A F name ths L N K : (1 <= N <= L)%Z -> wf_fourier A F name ths L N = Ok K -> exists Kr, wr_fourier A F name ths L N = Ok Kr /\ half3 K Kr N (vlen ths) L.
Proof.
  intros HN. unfold wf_fourier, wr_fourier. cbv zeta. set (nsamps := kernel_nsamps name (vlen ths)).
  match goal with |- (let* st := foldM ?f ?l ?s in _) = _ -> exists _, (let* st := foldM ?f' _ ?s' in _) = _ /\ _ =>
    assert (P := foldM_pair (fun a a' : ndarray R * ndarray R => fst a = fst a' /\ half3 (snd a) (snd a') N (vlen ths) L) f f' l) end.
  match type of P with (?h -> _) => assert (Q : h) end.
  { intros el [dls dl] [dls' dl'] b Hel [E1 E2] E. apply in_zrange in Hel. cbn [fst snd] in *. subst dls'.
    destruct (rf_full A dls (fdiv A (fpi A) 2) L el) as [delta|]; [|discriminate]. cbn [bind] in *.
    destruct (vread ths 0) as [th0|]; [|discriminate]. cbn [bind] in *.
    destruct (wf_slices A F delta th0 L N) as [t0|] eqn:ES; [|discriminate]. cbn [bind] in *.
    destruct (wslices_half A F delta th0 L N t0 HN ES) as (tr & -> & S0 & Sr & HC). cbn [bind].
    match type of E with (let* dl := el_set _ _ ?m in _) = _ => set (b1 := m) in * end. destruct (el_set dl el b1) as [K1|] eqn:EM; [|discriminate]. cbn [bind] in E. injection E as <-.
    assert (DR : forall k m n, at3 (planes_from tr (L - 1)) k m n = at3 (planes_from t0 (L - 1)) k m (N - 1 + n)).
    { intros k m n. unfold at3, planes_from. rewrite S0, Sr. cbn [hd tl get]. apply HC. }
    assert (D0 : dim0 (planes_from tr (L - 1)) = dim0 (planes_from t0 (L - 1))) by (unfold dim0, planes_from; rewrite S0, Sr; reflexivity).
    assert (D1 : dim1 (planes_from tr (L - 1)) = dim1 (planes_from t0 (L - 1))) by (unfold dim1, planes_from; rewrite S0, Sr; reflexivity).
    assert (D2 : dim2 (planes_from tr (L - 1)) = N) by (unfold dim2, planes_from; rewrite Sr; reflexivity).
    match goal with |- context [el_set dl' el ?m] => destruct (el_set_half dl dl' N (vlen ths) L el b1 m K1 ltac:(lia) E2 Hel) as (K2 & -> & Hh) end; try exact EM; try reflexivity.
    - exact D2.
    - exact D1.
    - intros k t i Hk Ht Hi. unfold b1. rewrite !at3_arr3. rewrite D0. do 3 f_equal. apply functional_extensionality. intros j. apply DR.
    - cbn [bind]. eexists. split; [reflexivity|]. cbn [fst snd]. now split. }
  specialize (P Q). intros E. destruct (foldM _ _ _) as [st|] eqn:EF in E; [|discriminate]. cbn [bind] in E. injection E as <-.
  destruct (P (zeros 0%R [2 * L - 1; 2 * L - 1]%Z, zeros 0%R [2 * N - 1; vlen ths; L; 2 * L - 1]%Z) (zeros 0%R [2 * L - 1; 2 * L - 1]%Z, zeros 0%R [N; vlen ths; L; 2 * L - 1]%Z) st) as (st' & ES & _ & H); [|exact EF|].
  { cbn [fst snd]. split; [reflexivity|]. split; [reflexivity|]. split; [reflexivity|]. reflexivity. }
  rewrite ES. cbn [bind]. eexists. split; [reflexivity|exact H].
Qed.
Lemma normalise_half A K Kr N T L K' : half3 K Kr N T L -> wf_normalise A K L = Ok K' -> (1 <= N)%Z -> exists Kr', wf_normalise A Kr L = Ok Kr' /\ half3 K' Kr' N T L.
Proof.
  intros (S1 & S2 & H) E HN. unfold wf_normalise, dim0, dim1, dim2, dim3 in *. rewrite S1, S2 in *. cbn [nth] in *. rewrite Z.eqb_refl in *. injection E as <-.
  eexists. split; [reflexivity|]. split; [reflexivity|]. split; [reflexivity|]. intros k t l i Hk Ht Hl Hi. unfold at4 at 1 3. cbn [arr4 get nth]. now rewrite H by lia.
Qed.
Lemma wkernel_half A ths L N K : (1 <= N <= L)%Z -> wf_kernel A ths L N = Ok K -> exists Kr, wr_kernel A ths L N = Ok Kr /\ half3 K Kr N (vlen ths) L.
Proof.
  intros HN. unfold wf_kernel, wr_kernel. destruct (wf_direct A ths L N) as [d|] eqn:E; [|discriminate]. cbn [bind].
  destruct (wdirect_half A ths L N d HN E) as (dr & -> & H). cbn [bind]. intros E2. now apply (normalise_half A d); [| |lia].
Qed.
Lemma wkernel_fft_half A F name ths L N K : (1 <= N <= L)%Z -> wf_kernel_fft A F name ths L N = Ok K -> exists Kr, wr_kernel_fft A F name ths L N = Ok Kr /\ half3 K Kr N (vlen ths) L.
Proof.
  intros HN. unfold wf_kernel_fft, wr_kernel_fft. destruct (str_in _ _); [|discriminate]. destruct (wf_fourier A F name ths L N) as [d|] eqn:E; [|discriminate]. cbn [bind].
  destruct (wfourier_half A F name ths L N d HN E) as (dr & -> & H). cbn [bind]. intros E2. now apply (normalise_half A d); [| |lia].
Qed.

(** ** A real signal by its planes that are not negative *)
Definition order3 (L : Z) (c : Z -> Z -> Z -> C) (x al : R) (n : Z) : C := csum (zrange (- (L - 1)) L) (fun m => exact3 L c x n m * cis (IZR m * al))%C.
Definition size3 (L : Z) (c : Z -> Z -> Z -> C) (n : Z) : R := rsum (zrange (- (L - 1)) L) (fun m => rsum (zrange 0 L) (fun l => wsize3 n l m * Cmod (c n l m))).
Lemma exact3_conj L N c x n m : hermitian3 L N c -> (- N < n < N)%Z -> exact3 L c x (- n) (- m) = Cconj (exact3 L c x n m).
Proof.
  intros H Hn. unfold exact3. rewrite csum_conj. apply cr_ext. intros l Hl.
  destruct (Z_le_dec (Z.abs n) l); [destruct (Z_le_dec (Z.abs m) l)|].
  - rewrite H by lia. rewrite TurokProofs.wig_flip by lia. rewrite Cconj_mult, Cconj_R.
    replace (sgn (m + n)) with (sgn (m - n)) by (unfold sgn; replace (m + n)%Z with (m - n + 2 * n)%Z by ring; now rewrite Z.even_add_mul_2).
    rewrite !RtoC_mult. transitivity (RtoC (sgn (m - n)) * RtoC (sgn (m - n)) * (RtoC (wfac l) * RtoC (wigner_d l m n x) * Cconj (c n l m)))%C; [ring|].
    rewrite <- RtoC_mult, sgn_sq. ring.
  - rewrite !wigner_d_out by lia. rewrite Cconj_mult, Cconj_R, !Rmult_0_r. ring.
  - rewrite !wigner_d_out by lia. rewrite Cconj_mult, Cconj_R, !Rmult_0_r. ring.
Qed.
Lemma order3_conj L N c x al n : hermitian3 L N c -> (- N < n < N)%Z -> order3 L c x al (- n) = Cconj (order3 L c x al n).
Proof.
  intros H Hn. unfold order3. rewrite csum_conj. rewrite <- (cr_perm (- (L - 1)) L (- (L - 1)) L Z.opp) by lia. apply cr_ext. intros m Hm.
  rewrite (exact3_conj L N) by auto. rewrite Cconj_mult, cis_conj, opp_IZR. do 2 f_equal. ring.
Qed.
Lemma so3_half L N c al x ga : hermitian3 L N c -> (1 <= N <= L)%Z ->
  Re (so3_synth L N c al x ga) = Re (order3 L c x al 0) + 2 * rsum (zrange 1 N) (fun n => Re (order3 L c x al n * cis (IZR n * ga))%C).
Proof.
  intros H HN. rewrite so3_synth_orders by auto. fold (order3 L c x al). rewrite Re_csum.
  assert (P := rfold_pairs (fun n => Re (order3 L c x al n * cis (IZR n * ga))%C) (N - 1) ltac:(lia)). replace (N - 1 + 1)%Z with N in P by lia. unfold order3 in *.
  rewrite P.
  - f_equal. rewrite Rmult_0_l, cis_0. f_equal. ring.
  - intros n Hn. fold (order3 L c x al (- n)). fold (order3 L c x al n). rewrite (order3_conj L N) by (auto; lia). rewrite opp_IZR.
    replace (- IZR n * ga) with (- (IZR n * ga)) by ring. rewrite <- cis_conj, <- Cconj_mult. reflexivity.
Qed.
Lemma wsize3_opp n l m : wsize3 (- n) l (- m) = wsize3 n l m.
Proof. unfold wsize3, adm_b. rewrite !Z.abs_opp. reflexivity. Qed.
Lemma size3_opp L N c n : hermitian3 L N c -> (- N < n < N)%Z -> size3 L c (- n) = size3 L c n.
Proof.
  intros H Hn. unfold size3. rewrite <- (rr_perm (- (L - 1)) L (- (L - 1)) L Z.opp) by lia. apply rr_ext. intros m Hm. apply rr_ext. intros l Hl. rewrite wsize3_opp.
  destruct (Z_le_dec (Z.abs n) l); [destruct (Z_le_dec (Z.abs m) l)|].
  - rewrite H by lia. rewrite Cmod_mult, Cmod_R, Cmod_Cconj. f_equal. replace (Rabs (sgn (m + n))) with 1; [ring|]. unfold sgn. destruct (Z.even (m + n)); [now rewrite Rabs_R1|now rewrite (Rabs_left (-1)) by lra; lra].
  - rewrite wsize3_out by lia. ring.
  - rewrite wsize3_out by lia. ring.
Qed.
Lemma so3_size_half L N c : hermitian3 L N c -> (1 <= N <= L)%Z -> so3_size L N c = size3 L c 0 + 2 * rsum (zrange 1 N) (size3 L c).
Proof.
  intros H HN. rewrite <- so3_size_orders by auto. fold (size3 L c).
  assert (P := rfold_pairs (size3 L c) (N - 1) ltac:(lia)). replace (N - 1 + 1)%Z with N in P by lia. unfold size3 in *. apply P.
  intros n Hn. apply (size3_opp L N); auto. lia.
Qed.

(** ** The transform *)
Section Float.
  Variables (A : arith) (u eta : R).
  Hypothesis HA : rounded A u eta.
  Hypothesis HZ : zeros_exact A.
  Hypothesis Hu : u <= / 1000.
  Let u0 : 0 <= u := rd_u _ _ _ HA.
  Let e0 : 0 <= eta := rd_eta _ _ _ HA.

  Lemma wr_inverse_near s F o flmn K Kr L N x kap eps c : s <> HEALPIX -> (1 <= N <= L)%Z -> shape flmn = [2 * N - 1; L; 2 * L - 1]%Z ->
    sums_all o L -> 0 <= kap <= 2 -> 6 * u * IZR L <= 1 -> 0 <= eps -> ifft_accurate (f_ifft F) (per_ring s L) eps -> irfft_accurate (f_irfft F) N (2 * N - 1) eps ->
    wk_near K N (rings s L 0) L x kap -> half3 K Kr N (rings s L 0) L ->
    hermitian3 L N c -> (forall n l m, (0 <= n < N)%Z -> (0 <= l < L)%Z -> (- L < m < L)%Z -> stored3 L N flmn n l m = c n l m) ->
    exists f, wr_inverse A F o flmn Kr L N (scheme_name s) = Ok f /\ shape f = [2 * N - 1; rings s L 0; per_ring s L]%Z /\
      forall g t p, (0 <= g < 2 * N - 1)%Z -> (0 <= t < rings s L 0)%Z -> (0 <= p < per_ring s L)%Z ->
        Rabs (get f [g; t; p] - Re (so3_synth L N c (equi_longitude s L p) (x t) (2 * PI * IZR g / IZR (2 * N - 1)))) <=
        (eps + (1 + eps) * (eps + (1 + eps) * (2 * (kap + 15 * u * IZR L)))) * so3_size L N c + (1 + eps) * ((1 + eps) * (48 * (IZR N * (IZR L * IZR L)) * eta)).
  Proof.
    intros Hs HN Hf Ho Hk HuL Heps HF HF2 [KS HK] (_ & KSr & HH) Hc Hst.
    assert (HL : (1 <= L)%Z) by lia.
    assert (M01 : mo_of s = 0%Z \/ mo_of s = 1%Z) by (destruct s; cbn [mo_of]; lia).
    assert (EO : orders s L = (2 * L - 1 + mo_of s)%Z) by (destruct s; cbn [orders mo_of]; lia).
    assert (EP : per_ring s L = (2 * L - 1 + mo_of s)%Z) by (destruct s; cbn [per_ring mo_of]; try lia; congruence).
    set (T := rings s L 0) in *. set (P := per_ring s L) in *. set (mo := mo_of s) in *.
    unfold wr_inverse. cbv zeta. rewrite wm_offset_name, in_healpix_name.
    assert (ST : setting (scheme_name s) s L 0 None) by (split; [now destruct s|]; split; [lia|intros Q; congruence]).
    rewrite (fnab_shape_ok s L N 0 None ST). cbn [bind]. fold T mo. rewrite EO, <- EP.
    assert (FA : is_arr3 flmn (2 * N - 1) L (2 * L - 1) (fun i el k => stored3 L N flmn (i - (N - 1)) el (k - (L - 1)))%Z).
    { split; [exact Hf|]. intros i el k Hi Hel Hk'. unfold stored3, at3. do 2 f_equal; [lia|]. do 2 f_equal. lia. }
    assert (FP := planes_from_ok flmn _ _ _ _ (N - 1)%Z FA ltac:(lia)). replace (2 * N - 1 - (N - 1))%Z with N in FP by lia.
    set (fl := planes_from flmn (N - 1)) in *.
    unfold wf_einsum. destruct (is_arr3_dims _ _ _ _ _ FP) as (-> & -> & ->).
    assert (D0 : dim0 Kr = N) by (unfold dim0; now rewrite KSr). assert (D1 : dim1 Kr = T) by (unfold dim1; now rewrite KSr).
    assert (D2 : dim2 Kr = L) by (unfold dim2; now rewrite KSr). assert (D3 : dim3 Kr = (2 * L - 1)%Z) by (unfold dim3; now rewrite KSr).
    rewrite D0, D1, D2, D3, !Z.eqb_refl. cbn [andb bind].
    set (h := fun k t i => cf_sum A o (fun l => cf_mul A (RtoC (at4 Kr k t l i)) (at3 fl k l i))).
    assert (Hei : is_arr3 (arr3 N T (2 * L - 1) h) (2 * N - 1 - (N - 1)) T (P - mo) h).
    { replace (2 * N - 1 - (N - 1))%Z with N by lia. replace (P - mo)%Z with (2 * L - 1)%Z by lia. apply is_arr3_arr3. }
    destruct (tail_set_ok (zeros (RtoC 0) [2 * N - 1; T; P]%Z) _ _ _ _ _ _ (N - 1)%Z mo (zeros3 _ _ _ _) Hei ltac:(lia) ltac:(lia)) as (fnab & -> & Hfn).
    cbn [bind]. replace (match s with HEALPIX => true | _ => false end) with false by (destruct s; congruence).
    set (a := fun t n m => h n t (m + (L - 1))%Z).
    assert (Hfn' : is_arr3 fnab (2 * N - 1) T P (fun k t j => if (N - 1 <=? k)%Z then if (mo <=? j)%Z then a t (k - (N - 1))%Z (j - mo - (L - 1))%Z else RtoC 0 else RtoC 0)).
    { eapply is_arr3_ext; [exact Hfn|]. intros k t j Hk' Ht Hj. cbv beta. destruct (Z.leb_spec (N - 1) k); cbn [andb]; [|reflexivity].
      destruct (Z.leb_spec mo j); [|reflexivity]. unfold a. f_equal; lia. }
    clear Hfn.
    assert (M1 := map3_2_ok ifftshift fnab _ _ _ P _ Hfn' vext_ifftshift ltac:(intros v Hv; exact Hv)).
    set (q := map3_2 ifftshift fnab) in *. clearbody q. cbn [ifftshift vat vlen] in M1.
    set (b := fun t n j => if (mo <=? j)%Z then a t n (j - mo - (L - 1))%Z else RtoC 0).
    assert (GQ : forall n t j, (0 <= n < N)%Z -> (0 <= t < T)%Z -> (0 <= j < P)%Z -> at3 q (N - 1 + n) t j = b t n ((j + P / 2) mod P)%Z).
    { intros n t j Hn Ht Hj. rewrite (proj2 M1) by lia. replace (N - 1 <=? N - 1 + n)%Z with true by lia. unfold b. replace (N - 1 + n - (N - 1))%Z with n by lia. reflexivity. }
    destruct (is_arr3_dims _ _ _ _ _ M1) as (Q0 & Q1 & Q2). clear M1 Hfn'.
    (* the longitudes *)
    set (row3 := fun i t => mkVec P (fun k => at3 q i t k)).
    assert (VL : forall i t, vlen (f_ifft F (row3 i t)) = P) by (intros i t; now apply HF).
    set (r := map3_2 (f_ifft F) q).
    assert (Er : is_arr3 r (2 * N - 1) T P (fun i t p => vat (f_ifft F (row3 i t)) p)).
    { unfold r, map3_2. rewrite Q0, Q1, Q2. fold (row3 0%Z 0%Z). rewrite VL. apply is_arr3_arr3. }
    assert (RP := planes_from_ok r _ _ _ _ (N - 1)%Z Er ltac:(lia)). replace (2 * N - 1 - (N - 1))%Z with N in RP by lia.
    set (hh := planes_from r (N - 1)) in *. destruct (is_arr3_dims _ _ _ _ _ RP) as (H0 & H1 & H2). rewrite H0, H1, H2.
    eexists. split; [reflexivity|]. split; [reflexivity|]. intros g t p Hg Ht Hp.
    match goal with |- Rabs (?z - _) <= _ => change z with (vat (f_irfft F (mkVec N (fun n => at3 hh n t p)) (2 * N - 1)) g) end.
    set (al := equi_longitude s L p). set (ga := 2 * PI * IZR g / IZR (2 * N - 1)).
    set (B := fun n => vat (f_ifft F (row3 (N - 1 + n)%Z t)) p).
    assert (HB : forall n, (0 <= n < N)%Z -> at3 hh n t p = B n) by (intros n Hn; now rewrite (proj2 RP) by lia).
    assert (I := HF2 (mkVec N (fun n => at3 hh n t p)) eq_refl g Hg). cbn [vat] in I. rewrite HB in I by lia.
    rewrite (rr_ext 1 N (fun k => Re (at3 hh k t p * cis (2 * PI * IZR k * IZR g / IZR (2 * N - 1)))%C) (fun n => Re (B n * cis (IZR n * ga))%C)) in I.
    2: { intros n Hn. rewrite HB by lia. do 3 f_equal. unfold ga, Rdiv. ring. }
    rewrite (rr_ext 1 N (fun k => Cmod (at3 hh k t p)) (fun n => Cmod (B n))) in I by (intros n Hn; now rewrite HB by lia).
    set (v := vat (f_irfft F _ _) g) in *.
    (* one plane *)
    assert (L1 : 1 <= IZR L) by (apply IZR_le; lia). assert (N1 : 1 <= IZR N) by (apply IZR_le; lia).
    set (kk := kap + 15 * u * IZR L) in *. assert (kk0 : 0 <= kk) by (unfold kk; nra).
    assert (OE : forall n m, (0 <= n < N)%Z -> (- L < m < L)%Z ->
      Cmod (a t n m - exact3 L c (x t) n m)%C <= 2 * (kk * rsum (zrange 0 L) (fun l => wsize3 n l m * Cmod (c n l m)) + 6 * IZR L * eta)).
    { intros n m Hn Hm. unfold a, h, exact3.
      assert (FE : forall l, (0 <= l < L)%Z -> at3 fl n l (m + (L - 1)) = c n l m).
      { intros l Hl. rewrite (proj2 FP) by lia. rewrite <- Hst by lia. f_equal; lia. }
      assert (E := dot3_err A u eta HA HZ Hu L o (fun l => at4 Kr n t l (m + (L - 1))) (fun l => wfac l * wigner_d l m n (x t)) (fun l => wsize3 n l m) kap
        (fun l => at3 fl n l (m + (L - 1))) HL Ho Hk HuL).
      rewrite (cr_ext 0 L (fun l => RtoC (wfac l * wigner_d l m n (x t)) * c n l m)%C
                 (fun l => RtoC (wfac l * wigner_d l m n (x t)) * at3 fl n l (m + (L - 1)))%C) by (intros l Hl; now rewrite FE).
      rewrite (rr_ext 0 L (fun l => wsize3 n l m * Cmod (c n l m)) (fun l => wsize3 n l m * Cmod (at3 fl n l (m + (L - 1))%Z))) by (intros l Hl; now rewrite FE).
      apply E. intros l Hl. split; [apply (kernel3_size A u eta HA Hu); lia|].
      rewrite HH by lia. specialize (HK (N - 1 + n)%Z t l (m + (L - 1))%Z ltac:(lia) Ht Hl ltac:(lia)).
      replace (m + (L - 1) - (L - 1))%Z with m in HK by lia. replace (N - 1 + n - (N - 1))%Z with n in HK by lia. exact HK. }
    set (bb := 24 * (IZR L * IZR L) * eta).
    assert (bb0 : 0 <= bb) by (unfold bb; apply Rmult_le_pos; nra).
    set (a1 := 2 * kk).
    assert (S0 : forall n, 0 <= size3 L c n).
    { intros n. unfold size3. apply rs_nonneg. intros m Hm. apply rs_nonneg. intros l Hl. apply in_zrange in Hl. apply Rmult_le_pos; [apply wsize3_nonneg; lia|apply Cmod_ge_0]. }
    assert (DV : forall n, (0 <= n < N)%Z -> rsum (zrange (- (L - 1)) L) (fun m => Cmod (a t n m - exact3 L c (x t) n m)%C) <= a1 * size3 L c n + bb).
    { intros n Hn. eapply Rle_trans; [apply rr_le; intros m Hm; apply OE; lia|].
      rewrite (rr_ext _ _ _ (fun m => a1 * rsum (zrange 0 L) (fun l => wsize3 n l m * Cmod (c n l m)) + 12 * IZR L * eta)) by (intros; unfold a1; ring).
      rewrite rs_plus, rs_scal_l. fold (size3 L c n). apply Rplus_le_compat_l.
      rewrite (rr_shift (- (L - 1)) L (L - 1) (fun _ => 12 * IZR L * eta)). replace (- (L - 1) + (L - 1))%Z with 0%Z by lia.
      rewrite sum_const by lia. unfold bb. assert (X0 : 0 <= IZR L * eta) by (apply Rmult_le_pos; lra).
      assert (X2 : IZR (L + (L - 1)) <= 2 * IZR L) by (rewrite plus_IZR, minus_IZR; lra). nra. }
    assert (EX : forall n, rsum (zrange (- (L - 1)) L) (fun m => Cmod (exact3 L c (x t) n m)) <= size3 L c n).
    { intros n. unfold size3. apply rr_le. intros m Hm. unfold exact3. apply csum_le. intros l Hl. apply in_zrange in Hl. rewrite Cmod_mult, Cmod_R.
      apply Rmult_le_compat_r; [apply Cmod_ge_0|]. apply (kernel3_size A u eta HA Hu); lia. }
    assert (XS : forall n, Cmod (order3 L c (x t) al n) <= size3 L c n).
    { intros n. eapply Rle_trans; [|apply EX]. unfold order3. apply csum_le. intros m Hm. rewrite Cmod_mult, Cmod_cis. lra. }
    set (a2 := eps + (1 + eps) * a1). set (b2 := (1 + eps) * bb).
    assert (BE : forall n, (0 <= n < N)%Z -> Cmod (B n - order3 L c (x t) al n)%C <= a2 * size3 L c n + b2).
    { intros n Hn. destruct (HF (row3 (N - 1 + n)%Z t) eq_refl) as [_ J]. specialize (J p Hp). fold (B n) in J. cbn [row3 vat] in J.
      assert (DF : csum (zrange 0 P) (fun k => at3 q (N - 1 + n) t k * cis (2 * PI * IZR k * IZR p / IZR P))%C = csum (zrange (- (L - 1)) L) (fun m => a t n m * cis (IZR m * al))%C).
      { transitivity (csum (zrange 0 P) (fun k => b t n ((k + P / 2) mod P)%Z * root P (k * p))%C).
        - apply cr_ext. intros k Hk'. rewrite GQ by lia. unfold root. rewrite mult_IZR. do 2 f_equal. unfold Rdiv. ring.
        - rewrite shift_csum by lia. unfold b. rewrite EP. rewrite (centred_csum L mo (a t n)) by auto. apply cr_ext. intros m Hm. unfold al. rewrite <- EP. unfold P. now rewrite root_lon by lia. }
      assert (AB : rsum (zrange 0 P) (fun k => Cmod (at3 q (N - 1 + n) t k)) = rsum (zrange (- (L - 1)) L) (fun m => Cmod (a t n m))).
      { transitivity (rsum (zrange 0 P) (fun k => Cmod (b t n ((k + P / 2) mod P)%Z))); [apply rr_ext; intros k Hk'; now rewrite GQ by lia|].
        rewrite (shift_rsum P (fun j => Cmod (b t n j))) by lia. unfold b. rewrite EP. now apply (centred_rsum L mo (a t n)). }
      rewrite DF, AB in J. clear DF AB. specialize (DV n Hn). set (Dv := rsum _ _) in DV.
      assert (AS : rsum (zrange (- (L - 1)) L) (fun m => Cmod (a t n m)) <= size3 L c n + Dv).
      { eapply Rle_trans; [|apply Rplus_le_compat_r, EX]. unfold Dv. rewrite <- rs_plus. apply rr_le. intros m Hm.
        replace (a t n m) with (exact3 L c (x t) n m + (a t n m - exact3 L c (x t) n m))%C at 1 by ring. apply Cmod_triangle. }
      set (sa := csum _ _) in J.
      assert (SD : Cmod (sa - order3 L c (x t) al n)%C <= Dv).
      { unfold sa, order3, Dv. rewrite <- cs_minus. apply csum_le. intros m Hm.
        replace (a t n m * cis (IZR m * al) - exact3 L c (x t) n m * cis (IZR m * al))%C with ((a t n m - exact3 L c (x t) n m) * cis (IZR m * al))%C by ring.
        rewrite Cmod_mult, Cmod_cis. lra. }
      replace (B n - order3 L c (x t) al n)%C with ((B n - sa) + (sa - order3 L c (x t) al n))%C by ring. eapply Rle_trans; [apply Cmod_triangle|].
      assert (R1 : eps * rsum (zrange (- (L - 1)) L) (fun m => Cmod (a t n m)) <= eps * (size3 L c n + Dv)) by (now apply Rmult_le_compat_l).
      assert (R2 : (1 + eps) * Dv <= (1 + eps) * (a1 * size3 L c n + bb)) by (apply Rmult_le_compat_l; lra).
      unfold a2, b2. lra. }
    (* the planes *)
    rewrite (so3_half L N c al (x t) ga Hc HN), (so3_size_half L N c Hc HN).
    set (X := order3 L c (x t) al) in *. set (S := size3 L c) in *.
    set (E0 := Cmod (B 0%Z - X 0%Z)%C). set (E1 := rsum (zrange 1 N) (fun n => Cmod (B n - X n)%C)).
    assert (EE : E0 + 2 * E1 <= a2 * (S 0%Z + 2 * rsum (zrange 1 N) S) + 2 * IZR N * b2).
    { assert (b20 : 0 <= b2) by (unfold b2; apply Rmult_le_pos; lra).
      assert (Q1' : E1 <= a2 * rsum (zrange 1 N) S + (IZR N - 1) * b2).
      { unfold E1. eapply Rle_trans; [apply rr_le; intros n Hn; apply BE; lia|]. rewrite rs_plus, rs_scal_l. apply Rplus_le_compat_l.
        rewrite (rr_shift 1 N (-1) (fun _ => b2)). change (1 + -1)%Z with 0%Z. rewrite sum_const by lia. rewrite plus_IZR. right. ring. }
      assert (Q2' : E0 <= a2 * S 0%Z + b2) by (apply BE; lia). lra. }
    assert (MX : Cmod (B 0%Z) + 2 * rsum (zrange 1 N) (fun n => Cmod (B n)) <= S 0%Z + 2 * rsum (zrange 1 N) S + (E0 + 2 * E1)).
    { assert (G0 : forall n, Cmod (B n) <= S n + Cmod (B n - X n)%C).
      { intros n. replace (B n) with (X n + (B n - X n))%C at 1 by ring. eapply Rle_trans; [apply Cmod_triangle|]. apply Rplus_le_compat_r, XS. }
      assert (G1 : rsum (zrange 1 N) (fun n => Cmod (B n)) <= rsum (zrange 1 N) S + E1).
      { unfold E1. rewrite <- rs_plus. apply rr_le. intros n Hn. apply G0. }
      pose proof (G0 0%Z) as G2. fold E0 in G2. lra. }
    set (VB := Re (B 0%Z) + 2 * rsum (zrange 1 N) (fun n => Re (B n * cis (IZR n * ga))%C)) in *.
    set (VX := Re (X 0%Z) + 2 * rsum (zrange 1 N) (fun n => Re (X n * cis (IZR n * ga))%C)).
    assert (DD : Rabs (VB - VX) <= E0 + 2 * E1).
    { replace (VB - VX) with (Re (B 0%Z - X 0%Z)%C + 2 * rsum (zrange 1 N) (fun n => Re ((B n - X n) * cis (IZR n * ga))%C)).
      - eapply Rle_trans; [apply Rabs_triang|]. apply Rplus_le_compat; [apply Re_le|]. rewrite Rabs_mult, (Rabs_right 2) by lra. apply Rmult_le_compat_l; [lra|].
        eapply Rle_trans; [apply rs_abs|]. unfold E1. apply rr_le. intros n Hn. eapply Rle_trans; [apply Re_le|]. rewrite Cmod_mult, Cmod_cis. lra.
      - unfold VB, VX.
        rewrite (rr_ext 1 N (fun n => Re ((B n - X n) * cis (IZR n * ga))%C) (fun n => Re (B n * cis (IZR n * ga))%C - Re (X n * cis (IZR n * ga))%C)).
        + rewrite rs_minus. unfold Re, Cminus, Cplus, Copp. cbn [fst]. ring.
        + intros n Hn. unfold Re, Cminus, Cplus, Copp, Cmult. cbn [fst snd]. ring. }
    replace (v - VX) with ((v - VB) + (VB - VX)) by ring. eapply Rle_trans; [apply Rabs_triang|].
    set (SS := S 0%Z + 2 * rsum (zrange 1 N) S) in *. set (ET := E0 + 2 * E1) in *.
    assert (R1 : eps * (Cmod (B 0%Z) + 2 * rsum (zrange 1 N) (fun n => Cmod (B n))) <= eps * (SS + ET)) by (now apply Rmult_le_compat_l).
    assert (R2 : (1 + eps) * ET <= (1 + eps) * (a2 * SS + 2 * IZR N * b2)) by (apply Rmult_le_compat_l; lra).
    replace ((1 + eps) * ((1 + eps) * (48 * (IZR N * (IZR L * IZR L)) * eta))) with ((1 + eps) * (2 * IZR N * b2)) by (unfold b2, bb; ring).
    fold kk. fold a1. fold a2. lra.
  Qed.
End Float.
Section Top.
  Variables (A : arith) (u eta : R).
  Hypothesis HA : rounded A u eta.
  Hypothesis HZ : zeros_exact A.
  Let u0 : 0 <= u := rd_u _ _ _ HA.
  Let e0 : 0 <= eta := rd_eta _ _ _ HA.
  Variables (L N : Z) (eps : R).
  Hypothesis HN : (1 <= N <= L)%Z.
  Hypothesis HB : 2000 * u * (IZR L * (2 * IZR L + 3)) <= 1.
  Hypothesis HE : 4 * IZR L * eta <= u.
  Hypothesis Heps : 0 <= eps <= / 20.
  Lemma wr_inverse_gen s nodes F o flmn K Kr x delta kap c : s <> HEALPIX -> shape flmn = [2 * N - 1; L; 2 * L - 1]%Z ->
    sums_all o L -> 0 <= kap <= 2 -> ifft_accurate (f_ifft F) (per_ring s L) eps -> irfft_accurate (f_irfft F) N (2 * N - 1) eps ->
    wk_near K N (rings s L 0) L x kap -> half3 K Kr N (rings s L 0) L ->
    hermitian3 L N c -> (forall n l m, (0 <= n < N)%Z -> (0 <= l < L)%Z -> (- L < m < L)%Z -> stored3 L N flmn n l m = c n l m) ->
    (forall t y, (0 <= t < rings s L 0)%Z -> colatitude nodes s L 0 t y -> Rabs (x t - y) <= delta) ->
    exists f, wr_inverse A F o flmn Kr L N (scheme_name s) = Ok f /\ shape f = [2 * N - 1; rings s L 0; per_ring s L]%Z /\
      forall g t p y, (0 <= g < 2 * N - 1)%Z -> (0 <= t < rings s L 0)%Z -> (0 <= p < per_ring s L)%Z -> colatitude nodes s L 0 t y ->
        Cmod (RtoC (get f [g; t; p]) - so3_synth L N c (equi_longitude s L p) y (2 * PI * IZR g / IZR (2 * N - 1)))%C <=
        ((205 / 100) * eps + (221 / 100) * (kap + 3 * u * (IZR L * (2 * IZR L + 3))) + IZR L * delta) * so3_size L N c + 53 * (IZR N * (IZR L * IZR L)) * eta.
  Proof.
    intros Hs Hf Ho Hk HF HF2 HK HH Hc Hst Hx. destruct (small A u eta HA L 0%Z eps ltac:(lia) HB HE Heps) as (S1 & S2 & S3 & S4 & L1 & S5).
    assert (X : u * IZR L * 5 <= u * (IZR L * (2 * IZR L + 3))) by (rewrite Rmult_assoc; apply Rmult_le_compat_l; nra).
    assert (X0 : 0 <= u * IZR L) by (apply Rmult_le_pos; lra).
    destruct (wr_inverse_near A u eta HA HZ S1 s F o flmn K Kr L N x kap eps c Hs HN Hf Ho Hk) as (f & E & Sh & H); try assumption; try lra.
    exists f. split; [exact E|]. split; [exact Sh|]. intros g t p y Hg Ht Hp Hy. specialize (H g t p Hg Ht Hp).
    set (al := equi_longitude s L p) in *. set (ga := 2 * PI * IZR g / IZR (2 * N - 1)) in *.
    pose proof (so3_synth_real L N c al (x t) ga Hc) as RR. set (w := so3_synth L N c al (x t) ga) in *.
    assert (H' : Cmod (RtoC (get f [g; t; p]) - w)%C = Rabs (get f [g; t; p] - Re w)).
    { rewrite <- Cmod_R. f_equal. destruct w as [w1 w2]. unfold HealpixFFTSpec.is_real, Im in RR. cbn [snd] in RR. subst w2. unfold RtoC, Re, Cminus, Cplus, Copp. cbn [fst snd]. f_equal; ring. }
    rewrite <- H' in H. clear H'.
    pose proof (so3_lip L N c al (x t) y ga ltac:(lia)) as W. fold w in W. pose proof (so3_size_nonneg L N c) as Z0. set (S := so3_size L N c) in *.
    assert (W2 : IZR L * Rabs (x t - y) * S <= IZR L * delta * S).
    { apply Rmult_le_compat_r; [exact Z0|]. apply Rmult_le_compat_l; [lra|]. now apply Hx. }
    replace (RtoC (get f [g; t; p]) - so3_synth L N c al y ga)%C with ((RtoC (get f [g; t; p]) - w) + (w - so3_synth L N c al y ga))%C by ring.
    eapply Rle_trans; [apply Cmod_triangle|].
    assert (N1 : 1 <= IZR N) by (apply IZR_le; lia).
    assert (Y0 : 0 <= IZR N * (IZR L * IZR L) * eta) by (apply Rmult_le_pos; [|lra]; apply Rmult_le_pos; nra).
    set (Y := IZR N * (IZR L * IZR L) * eta) in *.
    assert (E2 : (1 + eps) * (1 + eps) <= 11025 / 10000) by nra.
    assert (T1 : (1 + eps) * ((1 + eps) * (48 * (IZR N * (IZR L * IZR L)) * eta)) <= 53 * Y).
    { replace (48 * (IZR N * (IZR L * IZR L)) * eta) with (48 * Y) by (unfold Y; ring). rewrite <- Rmult_assoc.
      apply (Rmult_le_compat_r (48 * Y)) in E2; [|lra]. lra. }
    replace (53 * (IZR N * (IZR L * IZR L)) * eta) with (53 * Y) by (unfold Y; ring).
    set (V := u * (IZR L * (2 * IZR L + 3))) in *.
    replace (3 * u * (IZR L * (2 * IZR L + 3))) with (3 * V) by (unfold V; ring).
    assert (T2 : eps + (1 + eps) * (eps + (1 + eps) * (2 * (kap + 15 * u * IZR L))) <= (205 / 100) * eps + (221 / 100) * (kap + 3 * V)).
    { assert (B0 : 0 <= 2 * (kap + 15 * u * IZR L) <= 2 * (kap + 3 * V)) by lra. set (bb := 2 * (kap + 15 * u * IZR L)) in *.
      replace (eps + (1 + eps) * (eps + (1 + eps) * bb)) with (eps + (eps + eps * eps) + (1 + eps) * (1 + eps) * bb) by ring.
      apply (Rmult_le_compat_r bb) in E2; [|lra]. assert (eps * eps <= 5 / 100 * eps) by nra. lra. }
    apply (Rmult_le_compat_r S) in T2; [|exact Z0]. lra.
  Qed.
End Top.
