(** The precomputed transforms with reality in rounded arithmetic: the half kernel, and how the two programs are related. *)
From Coq Require Import Reals Lra Lia ZifyBool Permutation FunctionalExtensionality.
From Coquelicot Require Import Complex.
From Verif Require Import Lib.Py Lib.PyFacts Lib.Vec Lib.VecFacts Lib.Sums Lib.Cplx Lib.Arr Lib.ArrFacts Lib.MatFacts Model.Index Model.Samples Model.FFT
  Model.RisboFloat Model.Spherical Model.Precompute Model.PrecomputeFloat Model.ForwardFloat Model.ResamplingFloat Model.ForwardMWFloat Model.RealFloat
  Spec.SamplesSpec Spec.WignerSpec Spec.SphereSpec Spec.GridSpec Spec.SphericalSpec Spec.RoundingSpec Spec.PrecomputeFloatSpec Spec.ForwardFloatSpec Spec.RealFloatSpec
  Proofs.RisboProofs Proofs.PrecomputeKernel Proofs.PrecomputeSph Proofs.SpectralBound Proofs.FloatSums Proofs.FloatKernel Proofs.FloatInverse Proofs.FloatFourier
  Proofs.FloatForward Proofs.FloatForwardTop Proofs.FloatMWForward.
Open Scope R_scope.

Lemma foldM_pair {S S' X} (R : S -> S' -> Prop) (f : S -> X -> result S) (f' : S' -> X -> result S') l :
  (forall x a a' b, In x l -> R a a' -> f a x = Ok b -> exists b', f' a' x = Ok b' /\ R b b') ->
  forall s s' r, R s s' -> foldM f l s = Ok r -> exists r', foldM f' l s' = Ok r' /\ R r r'.
Proof.
  induction l as [|x l IH]; intros H s s' r H0 E; cbn [foldM] in *; [injection E as <-; now exists s'|].
  destruct (f s x) as [b|] eqn:Eb; [|discriminate]. cbn [bind] in E.
  destruct (H x s s' b (or_introl eq_refl) H0 Eb) as (b' & -> & Hb). cbn [bind].
  apply (IH (fun y => fun a a' b I => H y a a' b (or_intror I)) b b' r Hb E).
Qed.

(** the columns of the orders that are not negative *)
Definition half_of (K Kr : ndarray R) (T L : Z) : Prop :=
  shape K = [T; L; 2 * L - 1]%Z /\ shape Kr = [T; L; L]%Z /\
  forall t l i, (0 <= t < T)%Z -> (0 <= l < L)%Z -> (0 <= i < L)%Z -> at3 Kr t l i = at3 K t l (L - 1 + i).

Lemma mid_set_half K Kr T L el b br K' : half_of K Kr T L -> (0 <= el < L)%Z -> dim0 br = dim0 b -> dim1 br = L ->
  (forall t i, (0 <= t < T)%Z -> (0 <= i < L)%Z -> at2 br t i = at2 b t (L - 1 + i)) ->
  mid_set K el b = Ok K' -> exists Kr', mid_set Kr el br = Ok Kr' /\ half_of K' Kr' T L.
Proof.
  intros (S1 & S2 & H) Hel D0 D1 Hb. unfold mid_set.
  assert (A0 : dim0 K = T) by (unfold dim0; now rewrite S1). assert (A1 : dim1 K = L) by (unfold dim1; now rewrite S1). assert (A2 : dim2 K = (2 * L - 1)%Z) by (unfold dim2; now rewrite S1).
  assert (B0 : dim0 Kr = T) by (unfold dim0; now rewrite S2). assert (B1 : dim1 Kr = L) by (unfold dim1; now rewrite S2). assert (B2 : dim2 Kr = L) by (unfold dim2; now rewrite S2).
  rewrite A0, A1, A2, B0, B1, B2, D0, D1, norm_in by exact Hel. destruct (Z.eqb_spec (dim0 b) T) as [E0|]; [|discriminate]. cbn [andb].
  destruct (dim1 b =? 2 * L - 1)%Z; [|discriminate]. rewrite Z.eqb_refl. intros E. injection E as <-. eexists. split; [reflexivity|].
  split; [reflexivity|]. split; [reflexivity|]. intros t l i Ht Hl Hi. rewrite !at3_arr3. destruct (l =? el)%Z; [apply Hb; lia|apply H; lia].
Qed.

Lemma direct_half A ths L spin K : (1 <= L)%Z -> pf_direct A ths L spin 0 (2 * L - 1) = Ok K ->
  exists Kr, pf_direct A ths L spin (L - 1) L = Ok Kr /\ half_of K Kr (vlen ths) L.
Proof.
  intros HL. unfold pf_direct. cbv zeta. set (betas := map (vat ths) (zrange 0 (vlen ths))).
  match goal with |- (let* st := foldM ?f ?l ?s in _) = _ -> exists _, (let* st := foldM ?f' _ ?s' in _) = _ /\ _ =>
    assert (P := foldM_pair (fun a a' : list (ndarray R) * ndarray R => fst a = fst a' /\ half_of (snd a) (snd a') (vlen ths) L) f f' l) end.
  match type of P with (?h -> _) => assert (Q : h) end.
  { intros el [dls dl] [dls' dl'] b Hel [E1 E2] E. apply in_zrange in Hel. cbn [fst snd] in *. subst dls'.
    destruct (rf_full_vec A dls betas L el) as [delta|]; [|discriminate]. cbn [bind] in *. unfold pf_col in *.
    destruct (norm_index (2 * L - 1) (L - 1 - spin)) as [c|]; [|discriminate]. cbn [bind] in *.
    match type of E with (let* dl := mid_set _ _ ?m in _) = _ => set (b1 := m) in * end. destruct (mid_set dl el b1) as [K1|] eqn:EM; [|discriminate]. cbn [bind] in E. injection E as <-.
    match goal with |- context [mid_set dl' el ?m] => destruct (mid_set_half dl dl' (vlen ths) L el b1 m K1 E2 Hel) as (K2 & -> & Hh) end; try exact EM; try reflexivity.
    - unfold mat, dim1. cbn [shape nth]. rewrite slice_len_in by lia. lia.
    - intros t i Ht Hi. unfold b1, at2, mat. cbn [get nth]. rewrite !slice_lo_in by lia. do 2 f_equal.
    - cbn [bind]. eexists. split; [reflexivity|]. cbn [fst snd]. now split. }
  specialize (P Q). intros E. destruct (foldM _ _ _) as [st|] eqn:EF in E; [|discriminate]. cbn [bind] in E. injection E as <-.
  destruct (P (map (fun _ => zeros 0%R [2 * L - 1; 2 * L - 1]%Z) betas, zeros 0%R [vlen ths; L; 2 * L - 1]%Z) (map (fun _ => zeros 0%R [2 * L - 1; 2 * L - 1]%Z) betas, zeros 0%R [vlen ths; L; L]%Z) st) as (st' & ES & _ & H); [|exact EF|].
  { cbn [fst snd]. split; [reflexivity|]. split; [reflexivity|]. split; [reflexivity|]. reflexivity. }
  rewrite ES. cbn [bind]. eexists. split; [reflexivity|exact H].
Qed.

Lemma slice_half A F delta th0 L spin t : (1 <= L)%Z -> pf_slice A F delta th0 L spin 0 (2 * L - 1) = Ok t ->
  exists tr, pf_slice A F delta th0 L spin (L - 1) L = Ok tr /\ dim1 (slice2 tr (L - 1) (dim0 tr) 0 (dim1 tr)) = L /\
    forall i, (0 <= i)%Z -> col (slice2 tr (L - 1) (dim0 tr) 0 (dim1 tr)) i = col (slice2 t (L - 1) (dim0 t) 0 (dim1 t)) (L - 1 + i).
Proof.
  intros HL. unfold pf_slice. remember (2 * L - 1)%Z as n eqn:En. destruct (norm_index n (L - 1 - spin)) as [c|]; [|discriminate]. cbv zeta.
  set (g := fun a i => cf_mul A (cf_mul A (cf_mul A (RtoC (at2 delta a i)) (RtoC (at2 delta a c))) (f_ipow F (- spin - (i - (L - 1))))) (pf_exp A (a - (L - 1)) th0)).
  intros E. injection E as <-. eexists. split; [reflexivity|].
  change (mat n L _) with (mat n L (fun a i => g a (L - 1 + i)%Z)). change (mat n n _) with (mat n n (fun a i => g a (0 + i)%Z)).
  clearbody g. unfold col, slice2, at2, mat, dim0, dim1. cbn [get nth shape]. rewrite !slice_len_in, !slice_lo_in by lia. split; [lia|].
  intros i Hi. reflexivity.
Qed.

Lemma fourier_half A F name ths L spin K : (1 <= L)%Z -> pf_fourier A F name ths L spin 0 (2 * L - 1) = Ok K ->
  exists Kr, pf_fourier A F name ths L spin (L - 1) L = Ok Kr /\ half_of K Kr (vlen ths) L.
Proof.
  intros HL. unfold pf_fourier. cbv zeta. set (n := kernel_nsamps name (vlen ths)).
  match goal with |- (let* st := foldM ?f ?l ?s in _) = _ -> exists _, (let* st := foldM ?f' _ ?s' in _) = _ /\ _ =>
    assert (P := foldM_pair (fun a a' : ndarray R * ndarray R => fst a = fst a' /\ half_of (snd a) (snd a') (vlen ths) L) f f' l) end.
  match type of P with (?h -> _) => assert (Q : h) end.
  { intros el [dls dl] [dls' dl'] b Hel [E1 E2] E. apply in_zrange in Hel. cbn [fst snd] in *. subst dls'.
    destruct (rf_full A dls (fdiv A (fpi A) 2) L el) as [delta|]; [|discriminate]. cbn [bind] in *.
    destruct (vread ths 0) as [th0|]; [|discriminate]. cbn [bind] in *.
    destruct (pf_slice A F delta th0 L spin 0 (2 * L - 1)) as [t0|] eqn:ES; [|discriminate]. cbn [bind] in *.
    destruct (slice_half A F delta th0 L spin t0 HL ES) as (tr & -> & D & HC). cbn [bind].
    set (hf := slice2 t0 (L - 1) (dim0 t0) 0 (dim1 t0)) in *. set (hr := slice2 tr (L - 1) (dim0 tr) 0 (dim1 tr)) in *. clearbody hf hr.
    match type of E with (let* dl := mid_set _ _ ?m in _) = _ => set (b1 := m) in * end. destruct (mid_set dl el b1) as [K1|] eqn:EM; [|discriminate]. cbn [bind] in E. injection E as <-.
    match goal with |- context [mid_set dl' el ?m] => destruct (mid_set_half dl dl' (vlen ths) L el b1 m K1 E2 Hel) as (K2 & -> & Hh) end; try exact EM; try reflexivity.
    - exact D.
    - intros t i Ht Hi. unfold b1, at2, mat. cbn [get nth]. now rewrite HC by lia.
    - cbn [bind]. eexists. split; [reflexivity|]. cbn [fst snd]. now split. }
  specialize (P Q). intros E. destruct (foldM _ _ _) as [st|] eqn:EF in E; [|discriminate]. cbn [bind] in E. injection E as <-.
  destruct (P (zeros 0%R [2 * L - 1; 2 * L - 1]%Z, zeros 0%R [vlen ths; L; 2 * L - 1]%Z) (zeros 0%R [2 * L - 1; 2 * L - 1]%Z, zeros 0%R [vlen ths; L; L]%Z) st) as (st' & ES & _ & H); [|exact EF|].
  { cbn [fst snd]. split; [reflexivity|]. split; [reflexivity|]. split; [reflexivity|]. reflexivity. }
  rewrite ES. cbn [bind]. eexists. split; [reflexivity|exact H].
Qed.

Lemma kernel_half A F name ths L spin K : (1 <= L)%Z -> pf_kernel A F name ths L spin = Ok K ->
  exists Kr, pr_kernel A F name ths L spin = Ok Kr /\ half_of K Kr (vlen ths) L.
Proof.
  intros HL. unfold pf_kernel, pr_kernel.
  assert (G : forall x xr, (forall K0, x = Ok K0 -> exists Kr, xr = Ok Kr /\ half_of K0 Kr (vlen ths) L) -> (let* dl := x in pf_normalise A dl L) = Ok K ->
    exists Kr, (let* dl := xr in pf_normalise A dl L) = Ok Kr /\ half_of K Kr (vlen ths) L).
  { intros x xr H E. destruct x as [K0|]; [|discriminate]. destruct (H K0 eq_refl) as (Kr & -> & S1 & S2 & Hh). cbn [bind] in *. unfold pf_normalise in *.
    assert (B0 : dim0 Kr = vlen ths) by (unfold dim0; now rewrite S2). assert (B1 : dim1 Kr = L) by (unfold dim1; now rewrite S2). assert (B2 : dim2 Kr = L) by (unfold dim2; now rewrite S2).
    destruct (dim1 K0 =? L)%Z; [|discriminate]. injection E as <-. rewrite B1, Z.eqb_refl. eexists. split; [reflexivity|].
    split; [unfold arr3, dim0, dim1, dim2; cbn [shape]; now rewrite S1|]. split; [cbn [arr3 shape]; now rewrite B0, B2|].
    intros t l i Ht Hl Hi. rewrite !at3_arr3. now rewrite Hh. }
  destruct (streq (lower name) "gl"); [apply G; intros; now apply direct_half|].
  destruct (str_in (lower name) ["mw"; "mwss"; "dh"]%string); [apply G; intros; now apply fourier_half|discriminate].
Qed.

Lemma weigh_half A K Kr w T L KW : half_of K Kr T L -> ff_weigh A K w = Ok KW -> exists KWr, ff_weigh A Kr w = Ok KWr /\ half_of KW KWr T L.
Proof.
  intros (S1 & S2 & H). unfold ff_weigh.
  assert (A0 : dim0 K = T) by (unfold dim0; now rewrite S1). assert (A1 : dim1 K = L) by (unfold dim1; now rewrite S1). assert (A2 : dim2 K = (2 * L - 1)%Z) by (unfold dim2; now rewrite S1).
  assert (B0 : dim0 Kr = T) by (unfold dim0; now rewrite S2). assert (B1 : dim1 Kr = L) by (unfold dim1; now rewrite S2). assert (B2 : dim2 Kr = L) by (unfold dim2; now rewrite S2).
  rewrite A0, A1, A2, B0, B1, B2. destruct (T =? vlen w)%Z; [|discriminate]. intros E. injection E as <-. eexists. split; [reflexivity|].
  split; [reflexivity|]. split; [reflexivity|]. intros t l i Ht Hl Hi. rewrite !at3_arr3. now rewrite H.
Qed.

(** ** The transform of real data as a transform of complex data *)
Definition real_vec (v : vec C) : bool := forallb (fun p => if Req_EM_T (Im (vat v p)) 0 then true else false) (zrange 0 (vlen v)).
Definition full_fft (G : vec R -> vec C) (v : vec C) : vec C :=
  if real_vec v then mkVec (vlen v) (fun k => if (k <=? vlen v / 2)%Z then vat (G (vmap Re v)) k else Cconj (vat (G (vmap Re v)) (vlen v - k)%Z)) else fft_bwd v.
Lemma Cconj_minus' a b : Cconj (a - b)%C = (Cconj a - Cconj b)%C.
Proof. unfold Cconj, Cminus, Cplus, Copp. destruct a, b. cbn. f_equal. ring. Qed.
Lemma real_vec_spec v : real_vec v = true <-> forall p, (0 <= p < vlen v)%Z -> Im (vat v p) = 0.
Proof.
  unfold real_vec. rewrite forallb_forall. split; intros H p Hp.
  - specialize (H p ltac:(now apply in_zrange)). destruct (Req_EM_T (Im (vat v p)) 0); [assumption|discriminate].
  - apply in_zrange in Hp. destruct (Req_EM_T (Im (vat v p)) 0) as [|n]; [reflexivity|]. now rewrite H in n.
Qed.
Lemma RtoC_Re z : Im z = 0 -> RtoC (Re z) = z.
Proof. destruct z as [a b]. cbn. intros ->. reflexivity. Qed.
Lemma exact_rfft_ok n eps : 0 <= eps -> rfft_accurate exact_rfft n eps.
Proof.
  intros He v Hv. unfold exact_rfft. cbn [vlen vat]. rewrite Hv. split; [reflexivity|]. intros k Hk. replace (_ - _)%C with (RtoC 0) by ring. rewrite Cmod_0.
  apply Rmult_le_pos; [exact He|]. apply rs_nonneg. intros. apply Rabs_pos.
Qed.
Lemma full_accurate G n eps : (0 < n)%Z -> 0 <= eps -> rfft_accurate G n eps -> fft_accurate (full_fft G) n eps.
Proof.
  intros Hn He HG v Hv. unfold full_fft. destruct (real_vec v) eqn:ER.
  - rewrite real_vec_spec in ER. cbn [vlen vat]. rewrite Hv in *. split; [reflexivity|]. intros k Hk.
    destruct (HG (vmap Re v) ltac:(cbn [vmap vlen]; exact Hv)) as [_ H].
    assert (SA : rsum (zrange 0 n) (fun p => Rabs (vat (vmap Re v) p)) = rsum (zrange 0 n) (fun p => Cmod (vat v p))).
    { apply rr_ext. intros p Hp. cbn [vmap vat]. rewrite <- Cmod_R. now rewrite RtoC_Re by (apply ER; lia). }
    rewrite SA in H. clear SA.
    assert (N0 : IZR n <> 0) by (apply (IZR_neq _ 0); lia).
    destruct (Z.leb_spec k (n / 2)).
    + specialize (H k ltac:(lia)). erewrite cr_ext; [exact H|]. intros p Hp. cbn [vmap vat]. now rewrite RtoC_Re by (apply ER; lia).
    + pose proof (Z.div_mod n 2 ltac:(lia)). pose proof (Z.mod_pos_bound n 2 ltac:(lia)). specialize (H (n - k)%Z ltac:(lia)).
      rewrite <- Cmod_Cconj, Cconj_minus', csum_conj in H. erewrite cr_ext; [exact H|]. intros p Hp. cbv beta.
      rewrite Cconj_mult, Cconj_R, cis_conj. cbn [vmap vat]. rewrite RtoC_Re by (apply ER; lia). f_equal. rewrite Ropp_involutive.
      rewrite minus_IZR. replace (2 * PI * (IZR n - IZR k) * IZR p / IZR n) with (- (2 * PI * IZR k * IZR p / IZR n) + 2 * PI * IZR p) by (field; exact N0).
      now rewrite cis_period.
  - apply exact_fft; assumption.
Qed.

(** ** The two programs after the resampling *)
Lemma cf_sum_ext A o (x y : Z -> C) : (forall i, In i (terms o) -> x i = y i) -> cf_sum A o x = cf_sum A o y.
Proof. induction o as [i|a IHa b IHb]; cbn [terms cf_sum]; intros H; [apply H; now left|]. rewrite IHa, IHb by (intros; apply H, in_or_app; auto). reflexivity. Qed.

Section Rings.
  Variables (A : arith) (G : vec R -> vec C) (o : order) (f : ndarray C) (KW KWr : ndarray R) (L mo T n : Z).
  Hypothesis HZ : zeros_exact A.
  Hypothesis HL : (1 <= L)%Z.
  Hypothesis HT : (1 <= T)%Z.
  Hypothesis Hmo : (mo = 0 /\ n = 2 * L - 1 \/ mo = 1 /\ n = 2 * L)%Z.
  Hypothesis HK : half_of KW KWr T L.
  Hypothesis Hf : shape f = [T; n]%Z.
  Hypothesis HG : forall v, vlen v = n -> vlen (G v) = (n / 2 + 1)%Z.
  Hypothesis Ho : sums_all o T.
  Let g t m := vat (G (vmap Re (row f t))) m.
  Definition half_entry (l m : Z) : C := cf_sum A o (fun t => cf_mul A (RtoC (at3 KWr t l m)) (g t m)).

  Local Lemma half_n : (n / 2 = L - 1 + mo)%Z /\ (L <= n)%Z /\ (0 < n)%Z.
  Proof. pose proof (Z.div_mod n 2 ltac:(lia)). pose proof (Z.mod_pos_bound n 2 ltac:(lia)). lia. Qed.

  Lemma half_entry_zero l m : (0 <= l < L)%Z -> (0 <= m < L)%Z -> (forall t, (0 <= t < T)%Z -> at3 KW t l (m + L - 1) = 0) -> half_entry l m = RtoC 0.
  Proof.
    intros Hl Hm H. unfold half_entry. apply cf_sum_zero; [exact HZ|]. intros t Ht. apply (Permutation_in _ Ho), in_zrange in Ht.
    rewrite (proj2 (proj2 HK)) by lia. replace (L - 1 + m)%Z with (m + L - 1)%Z by lia. rewrite H by exact Ht. now apply cf_mul_zero_l.
  Qed.

  (** the complex program on the real part *)
  Lemma full_rings : exists flm0, rings_part A (full_fft G) o (areal f) KW L mo 0 = Ok flm0 /\ shape flm0 = [L; 2 * L - 1]%Z /\
    forall l m, (0 <= l < L)%Z -> (0 <= m < L)%Z -> get flm0 [l; m + L - 1]%Z = cf_mul A (half_entry l m) (RtoC 1).
  Proof.
    destruct half_n as (N2 & NL & N0). destruct HK as (KS & KSr & HKr). unfold rings_part. set (fr := areal f).
    assert (Hfr : shape fr = [T; n]%Z) by exact Hf.
    assert (MF := is_mat_self fr T n Hfr). assert (RV : forall t, vlen (row fr t) = n) by (intros t; exact (is_mat_dim1 _ _ _ _ MF)).
    assert (FL : forall v, vlen v = n -> vlen (full_fft G v) = n).
    { intros v Hv. unfold full_fft. destruct (real_vec v); [exact Hv|]. unfold fft_bwd. exact Hv. }
    assert (M1 : is_mat (map_rows (full_fft G) fr) T n (fun t c => vat (full_fft G (row fr t)) c)).
    { unfold map_rows. rewrite (is_mat_dim0 _ _ _ _ MF), FL by apply RV. apply is_mat_mat. }
    set (f1 := map_rows (full_fft G) fr) in *. clearbody f1.
    assert (M2 : is_mat (map_rows fftshift f1) T n (fun t c => vat (full_fft G (row fr t)) ((c - n / 2) mod n))).
    { unfold map_rows. rewrite (is_mat_dim0 _ _ _ _ M1). replace (vlen (fftshift (row f1 0))) with n by (cbn [fftshift vlen row]; now rewrite (is_mat_dim1 _ _ _ _ M1)).
      apply (is_mat_ext _ _ _ _ _ (is_mat_mat _ _ _)). intros t c Ht Hc. cbn [fftshift vat vlen row]. rewrite (is_mat_dim1 _ _ _ _ M1).
      rewrite (proj2 M1); [reflexivity|exact Ht|]. apply Z.mod_pos_bound. exact N0. }
    set (f2 := map_rows fftshift f1) in *. clearbody f2. rewrite (is_mat_dim0 _ _ _ _ M2), (is_mat_dim1 _ _ _ _ M2).
    assert (M3 := MatFacts.slice2_ok _ _ _ _ 0 T mo n M2 ltac:(lia) ltac:(lia) ltac:(lia) ltac:(lia) ltac:(lia) ltac:(lia)).
    set (f3 := slice2 f2 0 T mo n) in *. clearbody f3.
    unfold ff_einsum. rewrite (is_mat_dim0 _ _ _ _ M3), (is_mat_dim1 _ _ _ _ M3).
    assert (D0 : dim0 KW = T) by (unfold dim0; now rewrite KS). assert (D1 : dim1 KW = L) by (unfold dim1; now rewrite KS).
    assert (D2 : dim2 KW = (2 * L - 1)%Z) by (unfold dim2; now rewrite KS). rewrite D0, D1, D2. replace ((T =? T - 0) && (2 * L - 1 =? n - mo))%Z with true by lia. cbn [bind].
    set (h := fun l i => cf_sum A o (fun t => cf_mul A (RtoC (at3 KW t l i)) (at2 f3 t i))).
    assert (MZ : is_mat (zeros (RtoC 0) (flm_shape L)) L (2 * L - 1) (fun _ _ => RtoC 0)) by (split; reflexivity).
    rewrite (is_mat_dim0 _ _ _ _ MZ), (is_mat_dim1 _ _ _ _ MZ).
    assert (ME : is_mat (mat L (2 * L - 1) h) (L - 0) (2 * L - 1 - 0) h) by (rewrite !Z.sub_0_r; apply is_mat_mat).
    destruct (PrecomputeSph.slice2_set_ok _ _ _ _ _ _ 0 L 0 (2 * L - 1) MZ ME ltac:(lia) ltac:(lia) ltac:(lia) ltac:(lia) ltac:(lia) ltac:(lia)) as (flm & -> & Hflm). cbn [bind].
    assert (M4 : is_mat (mscal (fun z => cf_mul A z (RtoC (m1 0))) flm) L (2 * L - 1) (fun l i => cf_mul A (h l i) (RtoC 1))).
    { apply (is_mat_ext _ _ _ _ _ (mscal_ok (fun z => cf_mul A z (RtoC (m1 0))) _ _ _ _ Hflm)). intros l i Hl Hi. cbv beta.
      change (m1 0) with 1%R. replace ((0 <=? l) && (l <? L) && (0 <=? i) && (i <? 2 * L - 1))%Z with true by lia. rewrite !Z.sub_0_r. reflexivity. }
    eexists. split; [reflexivity|]. split; [exact (proj1 M4)|]. intros l m Hl Hm.
    assert (G1 := proj2 M4 l (m + L - 1)%Z Hl ltac:(lia)). unfold at2 in G1. cbv beta in G1. rewrite G1. f_equal. unfold h, half_entry. apply cf_sum_ext.
    intros t Ht. apply (Permutation_in _ Ho), in_zrange in Ht. rewrite HKr by lia. replace (L - 1 + m)%Z with (m + L - 1)%Z by lia. f_equal.
    rewrite (proj2 M3) by lia. rewrite Z.add_0_l. replace (mo + (m + L - 1) - n / 2)%Z with m by lia. rewrite Z.mod_small by lia.
    unfold full_fft. replace (real_vec (row fr t)) with true.
    - cbn [vat]. rewrite RV. replace (m <=? n / 2)%Z with true by lia. reflexivity.
    - symmetry. apply real_vec_spec. reflexivity.
  Qed.

  Lemma half_rings : exists flm, pr_rings A G o f KWr L mo 0 = Ok flm /\ shape flm = [L; 2 * L - 1]%Z /\
    forall l m, (0 <= l < L)%Z -> (0 <= m < L)%Z ->
      get flm [l; m + L - 1]%Z = cf_mul A (half_entry l m) (RtoC 1) /\
      ((0 < m)%Z -> get flm [l; - m + L - 1]%Z = cf_mul A (cf_mul A (RtoC (sgn m)) (Cconj (half_entry l m))) (RtoC 1)).
  Proof.
    destruct half_n as (N2 & NL & N0). destruct HK as (KS & KSr & HKr). unfold pr_rings.
    assert (MF := is_mat_self f T n Hf). assert (RV : forall t, vlen (vmap Re (row f t)) = n) by (intros t; exact (is_mat_dim1 _ _ _ _ MF)).
    rewrite (is_mat_dim0 _ _ _ _ MF), HG by apply RV.
    assert (M1 : is_mat (mat T (n / 2 + 1) g) T (n / 2 + 1) g) by apply is_mat_mat.
    change (fun t k => vat (G (vmap Re (row f t))) k) with g. set (f1 := mat T (n / 2 + 1) g) in *. clearbody f1.
    assert (M3 : is_mat (if negb (mo =? 0)%Z then slice2 f1 0 (dim0 f1) 0 (-1) else f1) T L g).
    { destruct Hmo as [[-> En]|[-> En]]; cbn [Z.eqb negb].
      - replace L with (n / 2 + 1)%Z by lia. exact M1.
      - rewrite (is_mat_dim0 _ _ _ _ M1). replace (slice2 f1 0 T 0 (-1)) with (slice2 f1 0 T 0 L).
        + apply (is_mat_ext _ T L (fun r c => g (0 + r)%Z (0 + c)%Z)); [|reflexivity].
          assert (Q := MatFacts.slice2_ok _ _ _ _ 0 T 0 L M1 ltac:(lia) ltac:(lia) ltac:(lia) ltac:(lia) ltac:(lia) ltac:(lia)). rewrite !Z.sub_0_r in Q. exact Q.
        + unfold slice2. f_equal. rewrite (is_mat_dim1 _ _ _ _ M1). unfold slice_len. f_equal. f_equal. unfold clamp.
          replace (L <? 0)%Z with false by lia. cbn [Z.ltb Z.compare]. lia. }
    set (f3 := if negb (mo =? 0)%Z then _ else _) in *. clearbody f3.
    unfold ff_einsum. rewrite (is_mat_dim0 _ _ _ _ M3), (is_mat_dim1 _ _ _ _ M3).
    assert (D0 : dim0 KWr = T) by (unfold dim0; now rewrite KSr). assert (D1 : dim1 KWr = L) by (unfold dim1; now rewrite KSr).
    assert (D2 : dim2 KWr = L) by (unfold dim2; now rewrite KSr). rewrite D0, D1, D2, !Z.eqb_refl. cbn [andb bind].
    assert (ME : is_mat (mat L L (fun l m => cf_sum A o (fun t => cf_mul A (RtoC (at3 KWr t l m)) (at2 f3 t m)))) (L - 0) (2 * L - 1 - (L - 1)) half_entry).
    { replace (L - 0)%Z with L by lia. replace (2 * L - 1 - (L - 1))%Z with L by lia. apply (is_mat_ext _ _ _ _ _ (is_mat_mat _ _ _)). intros l m Hl Hm.
      unfold half_entry. apply cf_sum_ext. intros t Ht. apply (Permutation_in _ Ho), in_zrange in Ht. now rewrite (proj2 M3) by lia. }
    assert (MZ : is_mat (zeros (RtoC 0) (flm_shape L)) L (2 * L - 1) (fun _ _ => RtoC 0)) by (split; reflexivity).
    rewrite (is_mat_dim0 _ _ _ _ MZ), (is_mat_dim1 _ _ _ _ MZ).
    destruct (PrecomputeSph.slice2_set_ok _ _ _ _ _ _ 0 L (L - 1) (2 * L - 1) MZ ME ltac:(lia) ltac:(lia) ltac:(lia) ltac:(lia) ltac:(lia) ltac:(lia)) as (flm & -> & Hflm). cbn [bind].
    rewrite (is_mat_dim0 _ _ _ _ Hflm), (is_mat_dim1 _ _ _ _ Hflm).
    assert (MV := MatFacts.slice2_ok _ _ _ _ 0 L (L - 1 + 1) (2 * L - 1) Hflm ltac:(lia) ltac:(lia) ltac:(lia) ltac:(lia) ltac:(lia) ltac:(lia)).
    set (v := slice2 flm 0 L (L - 1 + 1) (2 * L - 1)) in *. rewrite (is_mat_dim0 _ _ _ _ MV), (is_mat_dim1 _ _ _ _ MV).
    replace (L - 0)%Z with L by lia. replace (2 * L - 1 - (L - 1 + 1))%Z with (L - 1)%Z in * by lia.
    assert (MV2 : is_mat (mat L (L - 1) (fun l j => cf_mul A (RtoC (m1 ((1 + j) mod 2))) (Cconj (at2 v l j)))) L (L - 1)
       (fun l j => cf_mul A (RtoC (sgn (j + 1))) (Cconj (half_entry l (j + 1))))).
    { apply (is_mat_ext _ _ _ _ _ (is_mat_mat _ _ _)). intros l j Hl Hj. cbv beta. rewrite (proj2 MV) by lia. cbv beta.
      match goal with |- context [if ?b then _ else _] => replace b with true by lia end.
      f_equal; [f_equal|do 2 f_equal; lia]. unfold m1, sgn. rewrite (Z.add_comm 1 j).
      replace (Z.even ((j + 1) mod 2)) with (Z.even (j + 1)); [reflexivity|]. rewrite (Z.div_mod (j + 1) 2) at 1 by lia. rewrite Z.even_add, Z.even_mul. cbn [Z.even orb]. now destruct (Z.even _). }
    assert (MV3 := PrecomputeSph.flip1_ok _ _ _ _ MV2). set (v3 := flip1 _) in *. clearbody v3.
    assert (MV4 : is_mat v3 (L - 0) (L - 1 - 0) (fun l c => cf_mul A (RtoC (sgn (L - 1 - c))) (Cconj (half_entry l (L - 1 - c))))).
    { rewrite !Z.sub_0_r. apply (is_mat_ext _ _ _ _ _ MV3). intros l c Hl Hc. cbv beta. replace (L - 1 - 1 - c + 1)%Z with (L - 1 - c)%Z by lia. reflexivity. }
    destruct (PrecomputeSph.slice2_set_ok _ _ _ _ _ _ 0 L 0 (L - 1) Hflm MV4 ltac:(lia) ltac:(lia) ltac:(lia) ltac:(lia) ltac:(lia) ltac:(lia)) as (flm1 & -> & Hflm1). cbn [bind].
    assert (M4 := mscal_ok (fun z => cf_mul A z (RtoC (m1 0))) _ _ _ _ Hflm1). eexists. split; [reflexivity|]. split; [exact (proj1 M4)|]. intros l m Hl Hm.
    change (m1 0) with 1%R in *. split.
    - assert (G1 := proj2 M4 l (m + L - 1)%Z Hl ltac:(lia)). unfold at2 in G1. cbv beta in G1. rewrite G1. f_equal.
      replace ((0 <=? l) && (l <? L) && (0 <=? m + L - 1) && (m + L - 1 <? L - 1))%Z with false by lia.
      match goal with |- context [if ?b then _ else _] => replace b with true by lia end. f_equal; lia.
    - intros Hm0. assert (G1 := proj2 M4 l (- m + L - 1)%Z Hl ltac:(lia)). unfold at2 in G1. cbv beta in G1. rewrite G1. f_equal.
      replace ((0 <=? l) && (l <? L) && (0 <=? - m + L - 1) && (- m + L - 1 <? L - 1))%Z with true by lia.
      rewrite !Z.sub_0_r. replace (L - 1 - (- m + L - 1))%Z with m by lia. reflexivity.
  Qed.
End Rings.
