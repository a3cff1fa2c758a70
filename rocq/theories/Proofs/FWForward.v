(** The Fourier-Wigner forward transform recovers the coefficients. *)
From Coq Require Import Reals ZifyBool Lra.
From Coquelicot Require Import Coquelicot.
From Verif Require Import Lib.Py Lib.PyFacts Lib.Vec Lib.VecFacts Lib.Sums Lib.Cplx Lib.Arr Lib.ArrFacts Lib.MatFacts
  Model.Samples Model.FFT Model.HealpixFFT Model.Risbo Model.Resampling Model.Quadrature Model.Spherical Model.Precompute Model.Wigner
  Model.FourierWigner Spec.WignerSpec Spec.SamplesSpec Spec.SphereSpec Spec.GridSpec Spec.HealpixFFTSpec Spec.SphericalSpec Spec.SO3Spec Spec.FourierWignerSpec
  Proofs.RisboProofs Proofs.TurokProofs Proofs.QuadProofs Proofs.WignerCalc Proofs.SphereTheory Proofs.SphInverse Proofs.PrecomputeKernel Proofs.ResamplingProofs
  Proofs.WignerInverse Proofs.WignerRound Proofs.FWArrays Proofs.FWInverse.
Open Scope string_scope.
Open Scope Z_scope.

Lemma RInt_extR (f g : R -> R) a b : (forall x, f x = g x) -> RInt f a b = RInt g a b.
Proof. intros H. apply RInt_ext. intros x _. apply H. Qed.
Lemma RInt_0 a b : RInt (fun _ => 0%R) a b = 0%R.
Proof. rewrite RInt_const. apply Rmult_0_r. Qed.

(** ** Orthogonality through the Fourier coefficients *)
Definition Vq (j : Z) : C := (RInt (fun x => (cos (IZR j * x) * sin x)%R) 0 PI, RInt (fun x => (sin (IZR j * x) * sin x)%R) 0 PI).
Definition dd (l m n a : Z) : R := (wigner_d l a m (PI / 2) * wigner_d l a n (PI / 2))%R.
Lemma ex_cs (u : R -> R) j : (forall x, continuous u x) -> ex_RInt (fun x => (u (IZR j * x) * sin x)%R) 0 PI.
Proof.
  intros H. apply (ex_RInt_continuous (V := R_CompleteNormedModule)). intros x _.
  apply (continuous_mult (K := R_AbsRing)); [|apply continuous_sin].
  apply (continuous_comp (fun x => (IZR j * x)%R) u); [|apply H].
  apply (continuous_mult (K := R_AbsRing)); [apply continuous_const|apply continuous_id].
Qed.
Lemma RInt_double (r : Z -> Z -> R) (u : R -> R) a b : (forall x, continuous u x) ->
  rsum (zrange a b) (fun i => rsum (zrange a b) (fun j => (r i j * RInt (fun x => (u (IZR (i - j) * x) * sin x)%R) 0 PI)%R))
  = RInt (fun x => (rsum (zrange a b) (fun i => rsum (zrange a b) (fun j => (r i j * u (IZR (i - j) * x)%R)%R)) * sin x)%R) 0 PI.
Proof.
  intros Hu. symmetry. apply is_RInt_unique.
  assert (Ex : forall i j, ex_RInt (fun x => (r i j * (u (IZR (i - j) * x) * sin x))%R) 0 PI)
    by (intros i j; apply (ex_RInt_scal (V := R_NormedModule)), ex_cs, Hu).
  pose proof (RInt_rsum (fun i x => rsum (zrange a b) (fun j => (r i j * (u (IZR (i - j) * x) * sin x))%R)) (zrange a b) 0 PI) as H.
  assert (Hi : forall i, is_RInt (fun x => rsum (zrange a b) (fun j => (r i j * (u (IZR (i - j) * x) * sin x))%R)) 0 PI
     (rsum (zrange a b) (fun j => (r i j * RInt (fun x => (u (IZR (i - j) * x) * sin x)%R) 0 PI)%R))).
  { intros i. pose proof (RInt_rsum (fun j x => (r i j * (u (IZR (i - j) * x) * sin x))%R) (zrange a b) 0 PI (fun j _ => Ex i j)) as K.
    replace (rsum (zrange a b) (fun j => (r i j * RInt (fun x => (u (IZR (i - j) * x) * sin x)%R) 0 PI)%R))
      with (rsum (zrange a b) (fun j => RInt (fun x => (r i j * (u (IZR (i - j) * x) * sin x))%R) 0 PI)); [exact K|].
    apply rr_ext. intros j Hj. apply (RInt_scal (V := R_CompleteNormedModule)). apply ex_cs, Hu. }
  assert (H2 := H (fun i _ => ex_intro _ _ (Hi i))). clear H.
  replace (rsum (zrange a b) (fun i => rsum (zrange a b) (fun j => (r i j * RInt (fun x => (u (IZR (i - j) * x) * sin x)%R) 0 PI)%R)))
    with (rsum (zrange a b) (fun i => RInt (fun x => rsum (zrange a b) (fun j => (r i j * (u (IZR (i - j) * x) * sin x))%R)) 0 PI)).
  - eapply is_RInt_ext; [|exact H2]. intros x _. cbv beta. rewrite <- rs_scal_r. apply rr_ext. intros i Hi'. rewrite <- rs_scal_r.
    apply rr_ext. intros j Hj. ring.
  - apply rr_ext. intros i Hi'. apply is_RInt_unique, Hi.
Qed.
Lemma csum_re {A} (l : list A) (f : A -> C) : fst (csum l f) = rsum l (fun x => fst (f x)).
Proof. exact (Re_csum l f). Qed.
Lemma csum_im {A} (l : list A) (f : A -> C) : snd (csum l f) = rsum l (fun x => snd (f x)).
Proof. exact (Im_csum l f). Qed.

Lemma dd_point L l l' m n x : 0 <= l < L -> 0 <= l' < L ->
  csum (zrange (- (L - 1)) L) (fun a => csum (zrange (- (L - 1)) L) (fun a' => (RtoC (dd l m n a * dd l' m n a') * cis (IZR (a - a') * x))%C))
  = RtoC (wigner_d l m n x * wigner_d l' m n x).
Proof.
  intros Hl Hl'.
  transitivity ((ipow (m - n) * RtoC (wigner_d l m n x)) * (ipow (m - n) * Cconj (ipow (m - n)) * (ipow (n - m) * RtoC (wigner_d l' m n x))))%C.
  - rewrite <- (wigner_fourier_ext L l m n x Hl). rewrite <- cs_scal_r. apply cr_ext. intros a Ha.
    transitivity (RtoC (dd l m n a) * cis (IZR a * x) * Cconj (ipow (m - n) * RtoC (wigner_d l' m n x)))%C.
    + rewrite <- (wigner_fourier_ext L l' m n x Hl'). rewrite csum_conj, <- cs_scal_l. apply cr_ext. intros a' Ha'.
      rewrite !Cconj_mult, !Cconj_R, cis_conj. unfold dd. rewrite !RtoC_mult. rewrite minus_IZR.
      replace ((IZR a - IZR a') * x)%R with (IZR a * x + - (IZR a' * x))%R by ring. rewrite cis_plus. ring.
    + rewrite Cconj_mult, Cconj_R. unfold dd. rewrite RtoC_mult.
      replace (ipow (n - m)) with (ipow (- (m - n))) by (f_equal; lia).
      transitivity (RtoC (wigner_d l a m (PI / 2)) * RtoC (wigner_d l a n (PI / 2)) * cis (IZR a * x) *
        (Cconj (ipow (m - n)) * (ipow (m - n) * ipow (- (m - n))) * RtoC (wigner_d l' m n x)))%C; [rewrite ipow_inv; ring|ring].
  - replace (Cconj (ipow (m - n))) with (ipow (- (m - n))).
    + replace (ipow (n - m)) with (ipow (- (m - n))) by (f_equal; lia). rewrite ipow_inv.
      transitivity ((ipow (m - n) * ipow (- (m - n))) * (RtoC (wigner_d l m n x) * RtoC (wigner_d l' m n x)))%C; [ring|].
      rewrite ipow_inv, RtoC_mult. ring.
    + rewrite !ipow_cis. rewrite cis_conj. f_equal. rewrite opp_IZR. ring.
Qed.

Lemma dd_integral L l l' m n : 0 <= l < L -> 0 <= l' < L ->
  csum (zrange (- (L - 1)) L) (fun a => csum (zrange (- (L - 1)) L) (fun a' => (RtoC (dd l m n a * dd l' m n a') * Vq (a - a'))%C))
  = RtoC (if (l =? l') && (Z.abs m <=? l) && (Z.abs n <=? l) then 2 / IZR (2 * l + 1) else 0).
Proof.
  intros Hl Hl'.
  assert (E : forall (x : R) (z : C), (RtoC x * z)%C = (x * fst z, x * snd z)%R) by (intros x [u v]; apply C_eq; cbn; ring).
  apply C_eq.
  - rewrite csum_re. erewrite rr_ext; [|intros a Ha; rewrite csum_re; apply rr_ext; intros a' Ha'; rewrite E; cbn [fst Vq]; reflexivity].
    rewrite (RInt_double (fun a a' => dd l m n a * dd l' m n a')%R cos) by (intros; apply continuous_cos).
    transitivity (RInt (fun x => (wigner_d l m n x * wigner_d l' m n x * sin x)%R) 0 PI).
    + apply RInt_extR. intros x. f_equal. pose proof (f_equal fst (dd_point L l l' m n x Hl Hl')) as H. rewrite csum_re in H. cbn [fst RtoC] in H.
      rewrite <- H. apply rr_ext. intros a Ha. rewrite csum_re. apply rr_ext. intros a' Ha'. rewrite E. reflexivity.
    + cbn [fst RtoC].
      assert (Hz : (Z.abs m <=? l) && (Z.abs n <=? l) = false \/ (Z.abs m <=? l') && (Z.abs n <=? l') = false ->
        RInt (fun x => (wigner_d l m n x * wigner_d l' m n x * sin x)%R) 0 PI = 0%R).
      { intros H. transitivity (RInt (fun _ => 0%R) 0 PI).
        - apply RInt_extR. intros x. destruct H as [H|H].
          + rewrite (wigner_d_out l m n) by lia. ring.
          + rewrite (wigner_d_out l' m n) by lia. ring.
        - apply RInt_0. }
      destruct ((Z.abs m <=? l) && (Z.abs n <=? l)) eqn:E1; [destruct ((Z.abs m <=? l') && (Z.abs n <=? l')) eqn:E2|].
      * transitivity (IP l l' m n).
        -- unfold IP. apply RInt_extR. intros x. rewrite !wig_D by lia. reflexivity.
        -- destruct (Z.eqb_spec l l') as [->|Hne].
           ++ rewrite IP_same by lia. rewrite <- andb_assoc, E2. reflexivity.
           ++ rewrite IP_diff by lia. reflexivity.
      * rewrite Hz by auto. destruct (Z.eqb_spec l l') as [->|Hne]; [congruence|reflexivity].
      * rewrite Hz by auto. rewrite <- andb_assoc, E1, andb_false_r. reflexivity.
  - rewrite csum_im. erewrite rr_ext; [|intros a Ha; rewrite csum_im; apply rr_ext; intros a' Ha'; rewrite E; cbn [snd Vq]; reflexivity].
    rewrite (RInt_double (fun a a' => dd l m n a * dd l' m n a')%R sin) by (intros; apply continuous_sin).
    cbn [snd RtoC]. transitivity (RInt (fun _ => 0%R) 0 PI).
    + apply RInt_extR. intros x. pose proof (f_equal snd (dd_point L l l' m n x Hl Hl')) as H. rewrite csum_im in H. cbn [snd RtoC] in H.
      transitivity (0 * sin x)%R; [|ring]. f_equal.
      refine (eq_trans _ H). apply rr_ext. intros a Ha. rewrite csum_im. apply rr_ext. intros a' Ha'. rewrite E. reflexivity.
    + apply RInt_0.
Qed.

(** ** The components of the signal *)
Section Parts.
  Variables (L N : Z) (c : Z -> Z -> Z -> C).
  Definition Xf (n m : Z) (x : R) : C := csum (zrange 0 L) (fun l => (c n l m * RtoC (sc l) * RtoC (wigner_d l m n x))%C).
  Definition Ya (n m a : Z) : C := csum (zrange 0 L) (fun l => (c n l m * RtoC (sc l) * (ipow (n - m) * RtoC (dd l m n a)))%C).
  Lemma Xf_out n m x : L <= Z.abs m \/ L <= Z.abs n -> Xf n m x = RtoC 0.
  Proof. intros H. apply cr_0. intros l Hl. rewrite (wigner_d_out l m n) by lia. ring. Qed.
  Lemma Ya_out n m a : L <= Z.abs a -> Ya n m a = RtoC 0.
  Proof. intros H. apply cr_0. intros l Hl. unfold dd. rewrite (wigner_d_out l a n) by lia. rewrite Rmult_0_r. ring. Qed.
  Lemma Xf_fourier n m x : Xf n m x = csum (zrange (- (L - 1)) L) (fun a => (Ya n m a * cis (IZR a * x))%C).
  Proof.
    unfold Xf, Ya. transitivity (csum (zrange (- (L - 1)) L) (fun a => csum (zrange 0 L) (fun l =>
      (c n l m * RtoC (sc l) * ipow (n - m) * (RtoC (wigner_d l a m (PI / 2)) * RtoC (wigner_d l a n (PI / 2)) * cis (IZR a * x)))%C))).
    - rewrite cs_swap. apply cr_ext. intros l Hl. rewrite cs_scal_l, wigner_fourier_ext by auto.
      replace (ipow (n - m)) with (ipow (- (m - n))) by (f_equal; lia).
      transitivity (c n l m * RtoC (sc l) * (ipow (m - n) * ipow (- (m - n))) * RtoC (wigner_d l m n x))%C; [rewrite ipow_inv; ring|ring].
    - apply cr_ext. intros a Ha. rewrite <- cs_scal_r. apply cr_ext. intros l Hl. unfold dd. rewrite RtoC_mult. ring.
  Qed.
  Lemma dd_flip l m n a : dd l m n (- a) = (sgn (m + n) * dd l m n a)%R.
  Proof.
    unfold dd. destruct (Z_le_dec (Z.abs a) l) as [Ha|Ha].
    - destruct (Z_le_dec (Z.abs m) l) as [Hm|Hm]; [destruct (Z_le_dec (Z.abs n) l) as [Hn|Hn]|].
      + rewrite !half_flip by lia. rewrite !sgn_add.
        transitivity (sgn l * sgn l * (sgn m * sgn n * (wigner_d l a m (PI / 2) * wigner_d l a n (PI / 2))))%R; [ring|]. rewrite sgn_sq. ring.
      + rewrite !(wigner_d_out l _ n) by lia. ring.
      + rewrite !(wigner_d_out l _ m) by lia. ring.
    - rewrite !(wigner_d_out l _ n) by lia. ring.
  Qed.
  Lemma Xf_reflect n m x : Xf n m (2 * PI - x) = (RtoC (sgn (m + n)) * Xf n m x)%C.
  Proof.
    rewrite !Xf_fourier. rewrite <- (cr_perm (- (L - 1)) L (- (L - 1)) L Z.opp) by lia. rewrite <- cs_scal_l. apply cr_ext. intros a Ha.
    rewrite cis_reflect, cis_conj. rewrite opp_IZR. replace (- (- IZR a * x))%R with (IZR a * x)%R by ring.
    replace (Ya n m (- a)) with (RtoC (sgn (m + n)) * Ya n m a)%C; [ring|].
    unfold Ya. rewrite <- cs_scal_l. apply cr_ext. intros l Hl. rewrite dd_flip, RtoC_mult. ring.
  Qed.
  Lemma part3_Xf n alpha beta : Z.abs n < L -> part3 L n (c n) alpha beta = csum (zrange (- (L - 1)) L) (fun m => (Xf n m beta * cis (IZR m * alpha))%C).
  Proof.
    intros Hn. unfold Xf, part3.
    transitivity (csum (zrange (- (L - 1)) L) (fun m => csum (zrange 0 L) (fun l => (c n l m * RtoC (sc l) * RtoC (wigner_d l m n beta) * cis (IZR m * alpha))%C))).
    - rewrite cs_swap. rewrite (cr_shrink 0 L (Z.abs n) L) by (try lia; intros l Hl Ho; apply cr_0; intros m Hm; rewrite (wigner_d_out l m n) by lia; ring).
      apply cr_ext. intros l Hl. rewrite (cr_shrink (- (L - 1)) L (- l) (l + 1)) by (try lia; intros m Hm Ho; rewrite (wigner_d_out l m n) by lia; ring).
      apply cr_ext. intros m Hm. replace (sc l) with ((2 * IZR l + 1) / (8 * PI ^ 2))%R by (unfold sc; now rewrite plus_IZR, mult_IZR). ring.
    - apply cr_ext. intros m Hm. now rewrite cs_scal_r.
  Qed.
  (** the weighted projections give the coefficients back *)
  Lemma project n l m : 0 <= l < L -> - L < m < L ->
    (csum (zrange (- (L - 1)) L) (fun a' => csum (zrange (- (L - 1)) L) (fun a => Ya n m a * Vq (a - a')) * RtoC (dd l m n a'))
      * ipow m * ipow (- n) * RtoC ((2 * PI) ^ 2))%C = restricted3 0 c n l m.
  Proof.
    intros Hl Hm.
    transitivity (csum (zrange 0 L) (fun l' => (c n l' m * RtoC (sc l') * (ipow (n - m) * ipow m * ipow (- n)) * RtoC ((2 * PI) ^ 2) *
      csum (zrange (- (L - 1)) L) (fun a => csum (zrange (- (L - 1)) L) (fun a' => RtoC (dd l' m n a * dd l m n a') * Vq (a - a'))))%C)).
    - transitivity (csum (zrange (- (L - 1)) L) (fun a' => csum (zrange (- (L - 1)) L) (fun a => csum (zrange 0 L) (fun l' =>
        (c n l' m * RtoC (sc l') * (ipow (n - m) * ipow m * ipow (- n)) * RtoC ((2 * PI) ^ 2) * (RtoC (dd l' m n a * dd l m n a') * Vq (a - a')))%C)))).
      + rewrite <- !cs_scal_r. apply cr_ext. intros a' Ha'. rewrite <- !cs_scal_r. apply cr_ext. intros a Ha.
        unfold Ya. rewrite <- !cs_scal_r. apply cr_ext. intros l' Hl'. rewrite RtoC_mult. ring.
      + rewrite cs_swap. erewrite cr_ext; [|intros a Ha; apply cs_swap]. rewrite cs_swap. apply cr_ext. intros l' Hl'.
        rewrite <- cs_scal_l. apply cr_ext. intros a Ha. now rewrite cs_scal_l.
    - assert (E : (ipow (n - m) * ipow m * ipow (- n))%C = RtoC 1).
      { rewrite <- !ipow_add. replace (n - m + m + - n) with 0 by lia. rewrite ipow_cis. replace (IZR 0 * (PI / 2))%R with 0%R by ring. apply cis_0. }
      rewrite E. erewrite cr_ext; [|intros l' Hl'; rewrite (dd_integral L l' l m n Hl' Hl); reflexivity].
      rewrite (cr_shrink 0 L l (l + 1)) by first [lia|intros l' Hl' Ho; replace (l' =? l) with false by lia; cbn [andb]; ring].
      rewrite cr_one. rewrite Z.eqb_refl. cbn [andb]. unfold restricted3. rewrite Z.max_r by lia. rewrite andb_comm.
      destruct ((Z.abs n <=? l) && (Z.abs m <=? l)); [|ring].
      transitivity (c n l m * RtoC (sc l * (2 * PI) ^ 2 * (2 / IZR (2 * l + 1))))%C; [rewrite !RtoC_mult; ring|].
      replace (sc l * (2 * PI) ^ 2 * (2 / IZR (2 * l + 1)))%R with 1%R; [ring|].
      unfold sc. pose proof PI_neq0. assert (IZR (2 * l + 1) <> 0%R) by (apply not_0_IZR; lia).
      field. repeat split; auto.
  Qed.
End Parts.

(** ** Discrete Fourier transforms of trigonometric sums *)
Lemma fft_coef (v : vec C) N (A : Z -> C) n : 1 <= N -> vlen v = 2 * N - 1 ->
  (forall p, 0 <= p < 2 * N - 1 -> vat v p = csum (zrange (- (N - 1)) N) (fun k => (A k * root (2 * N - 1) (k * p))%C)) ->
  0 <= n < N -> vat (fft_fwd v) n = A n.
Proof.
  intros HN Hv HA Hn. assert (E : (2 * N - 1) / 2 = N - 1) by (symmetry; apply Z.div_unique with 1; lia).
  pose proof (shift_fft_fwd v A (2 * N - 1) ltac:(lia) Hv) as H. rewrite E in H. replace (- (N - 1) + (2 * N - 1)) with N in H by lia.
  specialize (H HA (n + (N - 1)) ltac:(lia)). replace (n + (N - 1) - (N - 1)) with n in H by lia. rewrite <- H.
  unfold fftshift. cbn [vat]. change (vlen (fft_fwd v)) with (vlen v). rewrite Hv, E. f_equal.
  replace (n + (N - 1) - (N - 1)) with n by lia. rewrite Z.mod_small by lia. reflexivity.
Qed.
Lemma rfft_coef (v : vec C) N (A : Z -> C) n : 1 <= N -> vlen v = 2 * N - 1 ->
  (forall p, 0 <= p < 2 * N - 1 -> is_real (vat v p)) ->
  (forall p, 0 <= p < 2 * N - 1 -> vat v p = csum (zrange (- (N - 1)) N) (fun k => (A k * root (2 * N - 1) (k * p))%C)) ->
  0 <= n < N -> vat (rfft_fwd v) n = A n.
Proof.
  intros HN Hv Hr HA Hn. rewrite <- (fft_coef v N A n HN Hv HA Hn). unfold rfft_fwd, rfft_bwd, fft_fwd. cbn [vmap vat vlen].
  f_equal. unfold fft_bwd, real_part. cbn [vmap vat vlen]. apply cr_ext. intros p Hp. f_equal. rewrite Hv in Hp. specialize (Hr p Hp).
  apply C_eq; [reflexivity|]. cbn. symmetry. exact Hr.
Qed.
Lemma shift_fft_sum (v : vec C) n j : 0 < n -> vlen v = n ->
  vat (fftshift (fft_fwd v)) j = (csum (zrange 0 n) (fun p => vat v p * root n (- ((j - n / 2) * p))) / RtoC (IZR n))%C.
Proof.
  intros Hn Hv. subst n. pose proof (shift_fft_dft (vlen v) (vat v) j Hn) as H. unfold fftshift, fft_fwd in *. cbn [vmap vat vlen] in *.
  f_equal. destruct v as [n x]. cbn [vlen vat] in *. exact H.
Qed.

(** ** The stages *)
Section Fwd.
  Variables (s : scheme) (L N : Z) (c : Z -> Z -> Z -> C) (f : ndarray C) (reality : bool) (nodes : Z -> R) (nside : Z).
  Hypothesis (Hs : fw_scheme s) (HN : 1 <= N <= L) (Hr : reality = true -> hermitian3 L N c)
    (Hf : so3_holds nodes s L N nside f (so3_synth L N c)).
  Notation mo := (mo_of s).
  Notation n0 := (if reality then 0 else - (N - 1)).
  Notation size := (2 * L - 1 + mo).
  Notation th := (theta s L).
  Lemma mo_in : 0 <= mo <= 1.
  Proof using. clear. destruct s; cbn [mo_of]; lia. Qed.
  Lemma fsize_half : size / 2 = L - 1 + mo.
  Proof using Hs. clear - Hs. destruct Hs as [-> | ->]; cbn [mo_of]; symmetry; [apply Z.div_unique with 1|apply Z.div_unique with 0]; lia. Qed.
  Lemma fsize_ring : size = per_ring s L.
  Proof using Hs. clear - Hs. destruct Hs as [-> | ->]; cbn [mo_of per_ring]; lia. Qed.
  Definition An (n t p : Z) : C := csum (zrange (- (L - 1 + mo)) (- (L - 1 + mo) + size)) (fun m => (Xf L c n m (th t) * root size (m * p))%C).
  Lemma f_arr : is_arr3 f (2 * N - 1) (L + mo) size (fun g t p => csum (zrange (- (N - 1)) N) (fun n => (An n t p * root (2 * N - 1) (n * g))%C)).
  Proof using Hs HN Hf.
    clear Hr reality.
    destruct Hf as [H1 H2]. pose proof mo_in as Hm. split.
    - rewrite H1. assert (E1 : L + mo = rings s L nside) by (destruct Hs as [-> | ->]; cbn [rings mo_of]; lia).
      rewrite E1, fsize_ring. destruct Hs as [-> | ->]; reflexivity.
    - intros g t p Hg Ht Hp. unfold at3.
      assert (E1 : rings s L nside = L + mo) by (destruct Hs as [-> | ->]; cbn [rings mo_of]; lia).
      assert (E2 : ring_size s L nside t = size) by (rewrite fsize_ring; destruct Hs as [-> | ->]; reflexivity).
      assert (E3 : colatitude nodes s L nside t (th t)) by (destruct Hs as [-> | ->]; reflexivity).
      assert (E4 : longitude s L nside t p = equi_longitude s L p) by (destruct Hs as [-> | ->]; reflexivity).
      assert (E5 : sample_index s nside t p = [t; p]) by (destruct Hs as [-> | ->]; reflexivity).
      rewrite <- E5, (H2 g t p (th t)) by (auto; lia). rewrite so3_synth_parts, E4. apply cr_ext. intros n Hn. rewrite gamma_root by lia. f_equal.
      rewrite part3_Xf by lia. unfold An.
      rewrite (cr_shrink (- (L - 1 + mo)) (- (L - 1 + mo) + size) (- (L - 1)) L) by first [lia|intros m Hm' Ho; rewrite Xf_out by lia; ring].
      apply cr_ext. intros m Hm'. f_equal. rewrite fsize_ring, root_lon by lia. reflexivity.
  Qed.
  Lemma f_real g t p : hermitian3 L N c -> 0 <= g < 2 * N - 1 -> 0 <= t < L + mo -> 0 <= p < size ->
    is_real (csum (zrange (- (N - 1)) N) (fun n => (An n t p * root (2 * N - 1) (n * g))%C)).
  Proof using Hs HN Hf.
    clear Hr reality.
    intros Ht Hg Htt Hp. destruct f_arr as [_ Ha]. rewrite <- Ha by auto. destruct Hf as [H1 H2].
    assert (E1 : rings s L nside = L + mo) by (destruct Hs as [-> | ->]; cbn [rings mo_of]; lia).
    assert (E2 : ring_size s L nside t = size) by (rewrite fsize_ring; destruct Hs as [-> | ->]; reflexivity).
    assert (E3 : colatitude nodes s L nside t (th t)) by (destruct Hs as [-> | ->]; reflexivity).
    assert (E5 : sample_index s nside t p = [t; p]) by (destruct Hs as [-> | ->]; reflexivity).
    unfold at3. rewrite <- E5, (H2 g t p (th t)) by (auto; lia). apply so3_synth_real. auto.
  Qed.

  (** gamma and alpha *)
  Lemma stage1 : is_arr3 (map3_2 (fun v => vslice v mo (vlen v))
      (if reality then map3_2 fftshift (map3_2 fft_fwd (map3_0 rfft_fwd f))
       else map3_2 fftshift (map3_0 fftshift (map3_0 fft_fwd (map3_2 fft_fwd f)))))
    (N - n0) (L + mo) (2 * L - 1) (fun n t m => Xf L c (n0 + n) (m - (L - 1)) (th t)).
  Proof.
    pose proof mo_in as Hmo. assert (Hsz : 0 < size) by lia.
    set (y := if reality then _ else _).
    assert (Hy : is_arr3 y (N - n0) (L + mo) size (fun n t m => Xf L c (n0 + n) (m - (L - 1 + mo)) (th t))).
    { subst y. destruct reality.
      - pose proof (map3_2_ok fftshift _ _ _ _ size _ (map3_2_ok fft_fwd _ _ _ _ size _ (map3_0_ok rfft_fwd _ _ _ _ N _ f_arr vext_rfft_fwd
          ltac:(intros v Hv; unfold rfft_fwd, rfft_bwd; cbn [vmap vlen]; rewrite Hv; replace (2 * N - 1) with (1 + (N - 1) * 2) by lia; rewrite Z.div_add by lia; change (1 / 2) with 0; lia))
          vext_fft_fwd ltac:(intros v Hv; exact Hv)) vext_fftshift ltac:(intros v Hv; exact Hv)) as H.
        replace (N - 0) with N by lia.
        eapply is_arr3_ext; [exact H|]. intros n t m Hn Ht Hm. cbv beta.
        transitivity (vat (fftshift (fft_fwd (mkVec size (fun p => vat (rfft_fwd (mkVec (2 * N - 1) (fun g => csum (zrange (- (N - 1)) N) (fun k => (An k t p * root (2 * N - 1) (k * g))%C)))) n)))) m); [reflexivity|].
        rewrite (shift_fft_fwd _ (fun m => Xf L c n m (th t)) size Hsz); [rewrite fsize_half; reflexivity|reflexivity| |auto].
        intros p Hp. cbn [vat]. rewrite (rfft_coef _ N (fun k => An k t p)); auto; try lia.
        + unfold An. rewrite fsize_half. reflexivity.
        + intros g Hg. cbn [vat]. apply f_real; auto.
      - pose proof (map3_2_ok fftshift _ _ _ _ size _ (map3_0_ok fftshift _ _ _ _ (2 * N - 1) _ (map3_0_ok fft_fwd _ _ _ _ (2 * N - 1) _ (map3_2_ok fft_fwd _ _ _ _ size _ f_arr
          vext_fft_fwd ltac:(intros v Hv; exact Hv)) vext_fft_fwd ltac:(intros v Hv; exact Hv)) vext_fftshift ltac:(intros v Hv; exact Hv)) vext_fftshift ltac:(intros v Hv; exact Hv)) as H.
        replace (N - - (N - 1)) with (2 * N - 1) by lia.
        eapply is_arr3_ext; [exact H|]. intros n t m Hn Ht Hm. cbv beta.
        transitivity (vat (fftshift (fft_fwd (mkVec (2 * N - 1) (fun g => vat (fftshift (fft_fwd (mkVec size (fun p =>
          csum (zrange (- (N - 1)) N) (fun k => (An k t p * root (2 * N - 1) (k * g))%C))))) m)))) n); [reflexivity|].
        assert (EN : (2 * N - 1) / 2 = N - 1) by (symmetry; apply Z.div_unique with 1; lia).
        rewrite (shift_fft_fwd _ (fun n => Xf L c n (m - (L - 1 + mo)) (th t)) (2 * N - 1) ltac:(lia)); [rewrite EN; f_equal; lia|reflexivity| |auto].
        intros g Hg. cbn [vat]. rewrite EN. replace (- (N - 1) + (2 * N - 1)) with N by lia.
        rewrite (shift_fft_fwd _ (fun m => csum (zrange (- (N - 1)) N) (fun n => (Xf L c n m (th t) * root (2 * N - 1) (n * g))%C)) size Hsz);
          [rewrite fsize_half; reflexivity|reflexivity| |auto].
        intros p Hp. cbn [vat]. unfold An. rewrite fsize_half.
        erewrite cr_ext; [|intros n' Hn'; rewrite <- cs_scal_r; reflexivity]. rewrite cs_swap. apply cr_ext. intros m' Hm'. rewrite <- cs_scal_r.
        apply cr_ext. intros n' Hn'. ring. }
    clearbody y.
    pose proof (map3_2_ok (fun v => vslice v mo (vlen v)) _ _ _ _ (2 * L - 1) _ Hy) as H.
    eapply is_arr3_ext; [apply H|].
    - intros v w (El & E). unfold vslice. split; cbn [vlen]; [now rewrite El|]. intros i Hi. cbn [vat]. rewrite <- El. apply E.
      unfold slice_lo, clamp. unfold slice_len, clamp in Hi. lia.
    - intros v Hv. unfold vslice. cbn [vlen]. rewrite slice_len_in by lia. lia.
    - intros n t m Hn Ht Hm. cbv beta. rewrite vslice_in by (cbn [vlen]; lia). cbn [vat]. f_equal. lia.
  Qed.

  (** the extension to the circle *)
  Lemma th_reflect t : th (2 * (L + mo) - 2 - t) = (2 * PI - th t)%R.
  Proof using Hs HN.
    clear - Hs HN. destruct Hs as [-> | ->]; cbn [mo_of theta].
    - replace (2 * (L + 0) - 2 - t) with (2 * L - 2 - t) by lia. apply mw_reflect. lia.
    - replace (2 * (L + 1) - 2 - t) with (2 * L - t) by lia. apply mwss_reflect. lia.
  Qed.
  Lemma stage2 x : is_arr3 x (N - n0) (L + mo) (2 * L - 1) (fun n t m => Xf L c (n0 + n) (m - (L - 1)) (th t)) ->
    exists temp y, einsum_ntm_m_n x (abs_signs (- L + 1) L) (abs_signs n0 N) = Ok temp /\
      concat1 x (map3_1 (fun v => vslice (vrev v) 1 L) temp) = Ok y /\
      is_arr3 y (N - n0) size (2 * L - 1) (fun n t m => Xf L c (n0 + n) (m - (L - 1)) (th t)).
  Proof using Hs HN.
    intros Hx. clear Hr Hf. pose proof mo_in as Hmo.
    destruct (ntm_m_n_ok x (abs_signs (- L + 1) L) (abs_signs n0 N) _ _ _ _ Hx) as (temp & E & Ht); try (cbn [abs_signs vlen]; lia).
    pose proof (map3_1_ok (fun v => vslice (vrev v) 1 L) _ _ _ _ (L - 1) _ Ht (vext_slice _ _ _ vext_vrev)) as H1.
    destruct (concat1_ok x _ _ _ _ _ _ _ Hx (H1 ltac:(intros v Hv; unfold vslice; cbn [vlen vrev]; rewrite slice_len_in by lia; lia))) as (y & E' & Hy).
    exists temp, y. split; [exact E|]. split; [exact E'|]. replace (L + mo + (L - 1)) with size in Hy by lia.
    eapply is_arr3_ext; [exact Hy|]. intros n t m Hn Htt Hm. cbv beta. destruct (Z.ltb_spec t (L + mo)); [reflexivity|].
    rewrite vslice_in by (cbn [vlen vrev]; lia). cbn [vat vlen vrev abs_signs].
    replace (L + mo - 1 - (1 + (t - (L + mo)))) with (2 * (L + mo) - 2 - t) by lia. rewrite th_reflect, Xf_reflect.
    rewrite !sgn_abs. replace (- L + 1 + m) with (m - (L - 1)) by lia. rewrite sgn_add, RtoC_mult.
    transitivity (RtoC (sgn (m - (L - 1)) * sgn (m - (L - 1))) * RtoC (sgn (n0 + n) * sgn (n0 + n)) * Xf L c (n0 + n) (m - (L - 1)) (th t))%C;
      [rewrite !RtoC_mult; ring|]. rewrite !sgn_sq. ring.
  Qed.

  (** the frequencies in beta *)
  Lemma stage3 y name : denotes name s ->
    is_arr3 y (N - n0) size (2 * L - 1) (fun n t m => Xf L c (n0 + n) (m - (L - 1)) (th t)) ->
    exists z, (if streq (lower name) "mw"
            then einsum_tlm_l (map3_1 (fun v => fftshift (fft_fwd v)) y) (mkVec (2 * L - 1) (fun i => cis (- IZR (- L + 1 + i) * PI / IZR (2 * L - 1))))
            else Ok (map3_1 (fun v => fftshift (fft_fwd v)) y)) = Ok z /\
      is_arr3 z (N - n0) size (2 * L - 1) (fun n a m => Ya L c (n0 + n) (m - (L - 1)) (a - (L - 1 + mo))).
  Proof using Hs HN.
    intros Hd Hy. clear Hr Hf. pose proof mo_in as Hmo. assert (Hsz : 0 < size) by lia.
    pose proof (map3_1_ok (fun v => fftshift (fft_fwd v)) _ _ _ _ size _ Hy vext_shift_fft_fwd ltac:(intros v Hv; exact Hv)) as H1.
    assert (H2 : is_arr3 (map3_1 (fun v => fftshift (fft_fwd v)) y) (N - n0) size (2 * L - 1)
      (fun n a m => (Ya L c (n0 + n) (m - (L - 1)) (a - (L - 1 + mo)) * cis (IZR (a - (L - 1 + mo)) * th0 s L))%C)).
    { eapply is_arr3_ext; [exact H1|]. intros n a m Hn Ha Hm. cbv beta.
      rewrite (shift_fft_fwd _ (fun a => (Ya L c (n0 + n) (m - (L - 1)) a * cis (IZR a * th0 s L))%C) size Hsz); [rewrite fsize_half; reflexivity|reflexivity| |auto].
      intros t Ht. cbn [vat]. rewrite Xf_fourier, fsize_half.
      rewrite (cr_shrink (- (L - 1 + mo)) (- (L - 1 + mo) + size) (- (L - 1)) L) by first [lia|intros a' Ha' Ho; rewrite Ya_out by lia; ring].
      apply cr_ext. intros a' Ha'. rewrite <- Cmult_assoc. f_equal. symmetry. pose proof (theta_root s L N Hs HN a' t) as T. clear - T Hs HN.
      destruct Hs as [-> | ->]; exact T. }
    clear H1. unfold denotes in Hd. rewrite Hd. destruct Hs as [-> | ->]; cbn [mo_of] in *.
    - change (streq (scheme_name MW) "mw") with true. cbv iota.
      replace (2 * L - 1 + 0) with (2 * L - 1) in * by lia.
      destruct (einsum_tlm_l_ok _ _ _ _ _ (mkVec (2 * L - 1) (fun i => cis (- IZR (- L + 1 + i) * PI / IZR (2 * L - 1)))) H2 eq_refl) as (z & E & Hz).
      exists z. split; [exact E|]. eapply is_arr3_ext; [exact Hz|]. intros n a m Hn Ha Hm. cbv beta. cbn [vat th0].
      rewrite <- Cmult_assoc, <- cis_plus. replace (- L + 1 + a) with (a - (L - 1 + 0)) by lia.
      replace (IZR (a - (L - 1 + 0)) * (PI / IZR (2 * L - 1)) + - IZR (a - (L - 1 + 0)) * PI / IZR (2 * L - 1))%R with 0%R by (unfold Rdiv; ring).
      rewrite cis_0. ring.
    - change (streq (scheme_name MWSS) "mw") with false. cbv iota. eexists. split; [reflexivity|].
      eapply is_arr3_ext; [exact H2|]. intros n a m Hn Ha Hm. cbv beta. cbn [th0]. rewrite Rmult_0_r, cis_0. ring.
  Qed.

  (** zero-padding to 4L - 3 frequencies *)
  Lemma stage4 z : mo <= L - 1 -> is_arr3 z (N - n0) size (2 * L - 1) (fun n a m => Ya L c (n0 + n) (m - (L - 1)) (a - (L - 1 + mo))) ->
    exists w, pad1 z (L - 1 - mo) (L - 1) = Ok w /\
      is_arr3 w (N - n0) (4 * L - 3) (2 * L - 1) (fun n a m => Ya L c (n0 + n) (m - (L - 1)) (a - 2 * (L - 1))).
  Proof using HN.
    intros HL Hz. clear Hr Hf. pose proof mo_in as Hmo. unfold pad1. replace ((L - 1 - mo <? 0) || (L - 1 <? 0)) with false by lia. eexists. split; [reflexivity|].
    eapply is_arr3_ext; [apply (map3_1_ok (vpad (L - 1 - mo) (L - 1)) _ _ _ _ (4 * L - 3) _ Hz)|].
    - apply vext_pad. lia.
    - intros v Hv. cbn [vpad vlen]. lia.
    - intros n a m Hn Ha Hm. cbv beta. cbn [vpad vlen vat].
      destruct ((L - 1 - mo <=? a) && (a <? L - 1 - mo + size)) eqn:E; [f_equal; lia|]. rewrite Ya_out by lia. reflexivity.
  Qed.

  (** the weights on the upsampled circle *)
  Lemma stage5 w q : upsampled_weights L q ->
    is_arr3 w (N - n0) (4 * L - 3) (2 * L - 1) (fun n a m => Ya L c (n0 + n) (m - (L - 1)) (a - 2 * (L - 1))) ->
    exists u, einsum_tlm_l (map3_1 (fun v => ifft_fwd (ifftshift v)) w) q = Ok u /\
      is_arr3 (map3_1 (fun v => vslice (fftshift (fft_fwd v)) (L - 1) (3 * L - 2)) u) (N - n0) (2 * L - 1) (2 * L - 1)
        (fun n a m => csum (zrange (- (L - 1)) L) (fun a' => (Ya L c (n0 + n) (m - (L - 1)) a' * Vq (a' - (a - (L - 1))))%C)).
  Proof using HN.
    intros [Hq1 Hq2] Hw. clear Hr Hf. assert (Hsz : 0 < 4 * L - 3) by lia.
    assert (EH : (4 * L - 3) / 2 = 2 * (L - 1)) by (symmetry; apply Z.div_unique with 1; lia).
    pose proof (map3_1_ok (fun v => ifft_fwd (ifftshift v)) _ _ _ _ (4 * L - 3) _ Hw (vext_comp ifft_fwd ifftshift vext_ifft_fwd vext_ifftshift)
      ltac:(intros v Hv; exact Hv)) as H1.
    destruct (einsum_tlm_l_ok _ _ _ _ _ q H1 Hq1) as (u & E & Hu). exists u. split; [exact E|].
    pose proof (map3_1_ok (fun v => vslice (fftshift (fft_fwd v)) (L - 1) (3 * L - 2)) _ _ _ _ (2 * L - 1) _ Hu (vext_slice _ _ _ vext_shift_fft_fwd)) as H2.
    eapply is_arr3_ext; [apply H2|].
    - intros v Hv. unfold vslice. cbn [vlen]. change (vlen (fftshift (fft_fwd v))) with (vlen v). rewrite slice_len_in by lia. lia.
    - intros n a m Hn Ha Hm. cbv beta.
      match goal with |- vat (vslice (fftshift (fft_fwd ?v)) _ _) _ = _ => set (V := v) end.
      rewrite vslice_in by (try lia; change (vlen (fftshift (fft_fwd V))) with (4 * L - 3); lia). cbn [vat].
      rewrite (shift_fft_sum V (4 * L - 3)) by (auto; lia). rewrite EH. replace (L - 1 + a - 2 * (L - 1)) with (a - (L - 1)) by lia.
      set (y := Ya L c (n0 + n) (m - (L - 1))).
      transitivity (csum (zrange (- (L - 1)) L) (fun a' => (y a' *
        (csum (zrange 0 (4 * L - 3)) (fun k => vat q k * cis (IZR (a' - (a - (L - 1))) * (2 * PI * IZR k / IZR (4 * L - 3)))) / RtoC (IZR (4 * L - 3))))%C)).
      + unfold Cdiv.
        transitivity (csum (zrange (- (L - 1)) L) (fun a' => csum (zrange 0 (4 * L - 3)) (fun k =>
          (y a' * (vat q k * cis (IZR (a' - (a - (L - 1))) * (2 * PI * IZR k / IZR (4 * L - 3)))) * / RtoC (IZR (4 * L - 3)))%C))).
        * rewrite cs_swap. rewrite <- cs_scal_r. apply cr_ext. intros k Hk. unfold V. cbn [vat].
          rewrite (ifft_ifftshift _ (4 * L - 3)) by (cbn [vlen]; lia). rewrite EH.
          rewrite (cr_shrink (- (2 * (L - 1))) (- (2 * (L - 1)) + (4 * L - 3)) (- (L - 1)) L) by first [lia|intros a' Ha' Ho; cbn [vat]; rewrite Ya_out by lia; ring].
          rewrite <- !cs_scal_r. apply cr_ext. intros a' Ha'. cbn [vat]. fold y. replace (a' + 2 * (L - 1) - 2 * (L - 1)) with a' by lia.
          replace (cis (IZR (a' - (a - (L - 1))) * (2 * PI * IZR k / IZR (4 * L - 3)))) with (root (4 * L - 3) (a' * k) * root (4 * L - 3) (- ((a - (L - 1)) * k)))%C; [ring|].
          rewrite <- root_add. unfold root. f_equal. replace (a' * k + - ((a - (L - 1)) * k)) with ((a' - (a - (L - 1))) * k) by ring.
          rewrite (mult_IZR _ k). field. apply not_0_IZR. lia.
        * apply cr_ext. intros a' Ha'. rewrite <- cs_scal_r, <- cs_scal_l. apply cr_ext. intros k Hk. ring.
      + apply cr_ext. intros a' Ha'. f_equal. apply Hq2. lia.
  Qed.

  (** the projections on the d-functions *)
  Definition Gs (n a m : Z) : C := (csum (zrange (- (L - 1)) L) (fun a' => (Ya L c (n0 + n) (m - (L - 1)) a' * Vq (a' - (a - (L - 1))))%C)).
  Definition S6 (n l m : Z) : C := (csum (zrange 0 (2 * L - 1)) (fun a => (Gs n a m * RtoC (wigner_d l (a - (L - 1)) (m - (L - 1)) (PI / 2)) *
        RtoC (wigner_d l (a - (L - 1)) (L - 1 + n0 + n - (L - 1)) (PI / 2)))%C)).
  Lemma stage6_precomp x delta : quarter_matrices L delta ->
    is_arr3 x (N - n0) (2 * L - 1) (2 * L - 1) Gs ->
    exists dn y, take_last3 delta (L - 1 + n0) (L - 1 + N) = Ok dn /\ einsum_nam_lam_lan x delta dn = Ok y /\
      is_arr3 y (N - n0) L (2 * L - 1) S6.
  Proof using HN.
    intros Hd Hx. clear Hr Hf. apply quarter_arr3 in Hd.
    destruct (take_last3_ok delta _ _ _ _ (L - 1 + n0) (L - 1 + N) Hd) as (dn & E & Hdn); [destruct reality; lia|lia|].
    replace (L - 1 + N - (L - 1 + n0)) with (N - n0) in Hdn by lia.
    destruct (nam_lam_lan_ok x delta dn _ _ _ _ _ _ _ Hx Hd Hdn) as (y & E' & Hy). exists dn, y. auto.
  Qed.
  Lemma stage6_otf b x : is_arr3 x (N - n0) (2 * L - 1) (2 * L - 1) Gs ->
    exists st, foldM (fun st el =>
            let* d := fw_risbo b (snd st) L el in
            let* dn := take_last2 d (L - 1 + n0) (L - 1 + N) in
            let* y := einsum_nam_am_an x d dn in
            let* xx := mid_set (fst st) el y in
            Ok (xx, d))
          (zrange 0 L) (zeros (RtoC 0) [dim0 x; L; dim2 x], zeros 0%R [2 * L - 1; 2 * L - 1]) = Ok st /\
      is_arr3 (fst st) (N - n0) L (2 * L - 1) S6.
  Proof using HN.
    intros Hx. clear Hr Hf. destruct (is_arr3_dims _ _ _ _ _ Hx) as (E0 & E1 & E2). rewrite E0, E2.
    destruct (fw_loop b L (fun k y => is_arr3 y (N - n0) L (2 * L - 1) (fun n l m => if l <? k then S6 n l m else RtoC 0))
      (fun st el =>
            let* d := fw_risbo b (snd st) L el in
            let* dn := take_last2 d (L - 1 + n0) (L - 1 + N) in
            let* y := einsum_nam_am_an x d dn in
            let* xx := mid_set (fst st) el y in
            Ok (xx, d)) (zeros (RtoC 0) [N - n0; L; 2 * L - 1])) as (st & E & HP).
    - lia.
    - eapply is_arr3_ext; [apply zeros3|]. intros n l m _ Hl _. replace (l <? 0) with false by lia. reflexivity.
    - intros el st d Hel HP E Hdd. rewrite E. cbn [bind]. clear E. pose proof (holds_mat _ _ _ _ Hdd) as Hm.
      destruct (take_last2_ok d (2 * L - 1) (2 * L - 1) _ (L - 1 + n0) (L - 1 + N) Hm) as (dn & -> & Hdn);
        [destruct reality; lia|lia|]. cbn [bind]. replace (L - 1 + N - (L - 1 + n0)) with (N - n0) in Hdn by lia.
      destruct (nam_am_an_ok _ _ _ _ _ _ _ _ _ Hx Hm Hdn) as (y & -> & Hy). cbn [bind].
      destruct (mid_set_ok _ _ _ _ _ _ _ _ HP Hy Hel) as (xx & -> & Hxx). cbn [bind]. exists xx. split; [reflexivity|].
      eapply is_arr3_ext; [exact Hxx|]. intros n l m Hn Hl Hm'. cbv beta. destruct (Z.eqb_spec l el) as [->|Hne].
      + replace (el <? el + 1) with true by lia. reflexivity.
      + replace (l <? el + 1) with (l <? el) by lia. reflexivity.
    - exists st. split; [exact E|]. eapply is_arr3_ext; [exact HP|]. intros n l m Hn Hl Hm. cbv beta. replace (l <? L) with true by lia. reflexivity.
  Qed.
  Lemma stage7 y : is_arr3 y (N - n0) L (2 * L - 1) S6 ->
    exists z, einsum_ntm_m_n y (mkVec (2 * L - 1) (fun i => ipow (- L + 1 + i))) (mkVec (N - n0) (fun i => ipow (- (n0 + i)))) = Ok z /\
      is_arr3 z (N - n0) L (2 * L - 1) (fun n l m => (restricted3 0 c (n0 + n) l (m - (L - 1)) / RtoC ((2 * PI) ^ 2))%C).
  Proof using HN.
    intros Hy. clear Hr Hf.
    destruct (ntm_m_n_ok y (mkVec (2 * L - 1) (fun i => ipow (- L + 1 + i))) (mkVec (N - n0) (fun i => ipow (- (n0 + i)))) _ _ _ _ Hy) as (z & E & Hz); try reflexivity.
    exists z. split; [exact E|]. eapply is_arr3_ext; [exact Hz|]. intros n l m Hn Hl Hm. cbv beta. cbn [vat].
    rewrite <- (project L c (n0 + n) l (m - (L - 1))) by lia.
    replace (- L + 1 + m) with (m - (L - 1)) by lia.
    assert (P : RtoC ((2 * PI) ^ 2) <> RtoC 0) by (intros H; apply (f_equal fst) in H; cbn in H; pose proof PI_RGT_0; nra).
    match goal with |- (?A * _ * _)%C = _ => replace A with (csum (zrange (- (L - 1)) L) (fun a' =>
      (csum (zrange (- (L - 1)) L) (fun a => Ya L c (n0 + n) (m - (L - 1)) a * Vq (a - a')) * RtoC (dd l (m - (L - 1)) (n0 + n) a'))%C)) end.
    - field. exact P.
    - replace (zrange (- (L - 1)) L) with (zrange (0 + - (L - 1)) (2 * L - 1 + - (L - 1))) at 1 by (f_equal; lia). rewrite <- cr_shift.
      apply cr_ext. intros a Ha. unfold dd, Gs. rewrite RtoC_mult.
      replace (a + - (L - 1)) with (a - (L - 1)) by lia. replace (L - 1 + n0 + n - (L - 1)) with (n0 + n) by lia. ring.
  Qed.
End Fwd.

Lemma restricted_conj L N c n l m : hermitian3 L N c -> - N < n < N -> 0 <= l < L ->
  restricted3 0 c (- n) l (- m) = (RtoC (sgn (m + n)) * Cconj (restricted3 0 c n l m))%C.
Proof.
  intros H Hn Hl. unfold restricted3. rewrite !Z.abs_opp. destruct ((Z.max 0 (Z.abs n) <=? l) && (Z.abs m <=? l)) eqn:E.
  - apply H; lia.
  - rewrite Cconj_R. ring.
Qed.

Lemma fw_forward_lemma b s name L N c f precomps reality nodes nside :
  fw_scheme s -> denotes name s -> 1 <= N <= L -> (s = MWSS -> 2 <= L) -> fw_inputs L precomps ->
  (reality = true -> hermitian3 L N c) ->
  so3_holds nodes s L N nside f (so3_synth L N c) ->
  exists flmn, fw_forward b f L N precomps reality name = Ok flmn /\ holds_coefficients3 L N flmn (restricted3 0 c).
Proof.
  intros Hs Hd HN HL Hp Hr Hf.
  assert (E0 : negb (str_in (lower name) ["mw"; "mwss"]) = false) by (rewrite Hd; destruct Hs as [-> | ->]; reflexivity).
  assert (E1 : (if streq (lower name) "mwss" then 1 else 0) = mo_of s) by (rewrite Hd; destruct Hs as [-> | ->]; reflexivity).
  assert (E2 : (if streq (lower name) "mwss" then L - 2 else L - 1) = L - 1 - mo_of s) by (rewrite Hd; destruct Hs as [-> | ->]; cbn -[Z.sub]; lia).
  assert (E6 : (if reality then N - 1 else 0) - N + 1 = (if reality then 0 else - (N - 1))) by (destruct reality; lia).
  assert (HmL : mo_of s <= L - 1) by (destruct Hs as [-> | ->]; cbn [mo_of]; [lia|specialize (HL eq_refl); lia]).
  unfold fw_forward. cbv zeta. rewrite E0, E1, E2, E6. clear E0 E1 E2 E6.
  pose proof (stage1 s L N c f reality nodes nside Hs HN Hr Hf) as H1.
  destruct (stage2 s L N c reality Hs HN _ H1) as (temp & y & -> & E & H2). cbn [bind]. rewrite E. cbn [bind]. clear E H1.
  destruct (stage3 s L N c reality Hs HN y name Hd H2) as (z & -> & H3). cbn [bind]. clear H2.
  destruct (stage4 s L N c reality HN z HmL H3) as (w & -> & H4). cbn [bind]. clear H3.
  assert (HQ : exists q, match precomps with Some (_, q) => Ok q | None => fw_weights L end = Ok q /\ upsampled_weights L q).
  { destruct precomps as [[delta q]|]; [exists q; split; [reflexivity|apply Hp]|apply fw_weights_ok; lia]. }
  destruct HQ as (q & -> & Hq). cbn [bind].
  destruct (stage5 L N c reality HN w q Hq H4) as (u & -> & H5). cbn [bind]. clear H4. set (x5 := map3_1 _ u) in *. clearbody x5.
  set (n0 := if reality then 0 else - (N - 1)) in *.
  assert (H6 : exists y, match precomps with
    | Some (delta, _) =>
        let* dn := take_last3 delta (L - 1 + n0) (L - 1 + N) in
        einsum_nam_lam_lan x5 delta dn
    | None =>
        let* st := foldM (fun st el =>
            let* d := fw_risbo b (snd st) L el in
            let* dn := take_last2 d (L - 1 + n0) (L - 1 + N) in
            let* y := einsum_nam_am_an x5 d dn in
            let* xx := mid_set (fst st) el y in
            Ok (xx, d))
          (zrange 0 L) (zeros (RtoC 0) [dim0 x5; L; dim2 x5], zeros 0%R [2 * L - 1; 2 * L - 1]) in
        Ok (fst st)
    end = Ok y /\ is_arr3 y (N - n0) L (2 * L - 1) (S6 L N c reality)).
  { destruct precomps as [[delta q']|].
    - destruct (stage6_precomp L N c reality HN x5 delta (proj1 Hp) H5) as (dn & y6 & E & E' & H6). exists y6. unfold n0. rewrite E. cbn [bind]. auto.
    - destruct (stage6_otf L N c reality HN b x5 H5) as (st & E & H6). exists (fst st). unfold n0. rewrite E. auto. }
  destruct H6 as (y6 & -> & H6). cbn [bind]. clear H5.
  destruct (stage7 L N c reality HN y6 H6) as (z7 & E7 & H7). fold n0 in E7, H7. rewrite E7. cbn [bind]. clear H6 E7.
  assert (P : RtoC ((2 * PI) ^ 2) <> RtoC 0) by (intros H; apply (f_equal fst) in H; cbn in H; pose proof PI_RGT_0; nra).
  assert (H8 : exists x, (if reality then
      let* temp := einsum_ntm_m_n (amap Cconj (map3_2 vrev (map3_0 vrev (planes_from z7 1)))) (abs_signs (- L + 1) L) (abs_signs (- N + 1) 0) in
      concat0 temp z7 else Ok z7) = Ok x /\
      is_arr3 x (2 * N - 1) L (2 * L - 1) (fun n l m => (restricted3 0 c (n - (N - 1)) l (m - (L - 1)) / RtoC ((2 * PI) ^ 2))%C)).
  { subst n0. destruct reality.
    - replace (N - 0) with N in H7 by lia.
      pose proof (amap3_ok Cconj _ _ _ _ _ (map3_2_ok vrev _ _ _ _ (2 * L - 1) _ (map3_0_ok vrev _ _ _ _ (N - 1) _ (planes_from_ok z7 _ _ _ _ 1 H7 ltac:(lia))
        vext_vrev ltac:(intros v Hv; exact Hv)) vext_vrev ltac:(intros v Hv; exact Hv))) as H8.
      destruct (ntm_m_n_ok _ (abs_signs (- L + 1) L) (abs_signs (- N + 1) 0) _ _ _ _ H8) as (t8 & -> & Ht); try (cbn [abs_signs vlen]; lia). cbn [bind].
      destruct (concat0_ok t8 z7 _ _ _ _ _ _ Ht H7) as (x & -> & Hx). exists x. split; [reflexivity|].
      replace (N - 1 + N) with (2 * N - 1) in Hx by lia. eapply is_arr3_ext; [exact Hx|]. intros n l m Hn Hl Hm. cbv beta.
      destruct (Z.ltb_spec n (N - 1)).
      + cbn [vat vrev vlen abs_signs]. rewrite !sgn_abs. unfold Cdiv. rewrite Cconj_mult, <- RtoC_inv, Cconj_R by (intros E; apply P; now rewrite E).
        replace (0 + (1 + (N - 1 - 1 - n))) with (- (n - (N - 1))) by lia. replace (2 * L - 1 - 1 - m - (L - 1)) with (- (m - (L - 1))) by lia.
        rewrite (restricted_conj L N c _ _ _ (Hr eq_refl)) by lia. rewrite Cconj_mult, Cconj_conj, Cconj_R.
        replace (- L + 1 + m) with (m - (L - 1)) by lia. replace (- N + 1 + n) with (n - (N - 1)) by lia. rewrite sgn_add, RtoC_mult.
        transitivity (RtoC (sgn (m - (L - 1)) * sgn (m - (L - 1))) * RtoC (sgn (n - (N - 1)) * sgn (n - (N - 1))) *
          (restricted3 0 c (n - (N - 1)) l (m - (L - 1)) * RtoC (/ (2 * PI) ^ 2)))%C; [rewrite !RtoC_mult; ring|]. rewrite !sgn_sq. ring.
      + replace (0 + (n - (N - 1))) with (n - (N - 1)) by lia. reflexivity.
    - exists z7. split; [reflexivity|]. replace (N - - (N - 1)) with (2 * N - 1) in H7 by lia. eapply is_arr3_ext; [exact H7|].
      intros n l m Hn Hl Hm. cbv beta. replace (- (N - 1) + n) with (n - (N - 1)) by lia. reflexivity. }
  destruct H8 as (x & -> & H8). cbn [bind]. eexists. split; [reflexivity|]. apply (amap3_ok (fun z => (z * RtoC ((2 * PI) ^ 2))%C)) in H8.
  destruct H8 as [G1 G2]. split; [exact G1|]. intros n l m Hn Hl Hm. unfold stored3. pose proof (G2 (n + N - 1) l (m + L - 1)) as G. unfold at3 in G.
  rewrite G by lia. replace (n + N - 1 - (N - 1)) with n by lia. replace (m + L - 1 - (L - 1)) with m by lia. field. exact P.
Qed.

(** With L = 1 the symmetric sampling needs a negative padding. *)
Lemma fw_forward_single b f c precomps reality nodes nside :
  (reality = true -> hermitian3 1 1 c) -> so3_holds nodes MWSS 1 1 nside f (so3_synth 1 1 c) ->
  fw_forward b f 1 1 precomps reality "mwss" = Err ValueError.
Proof.
  intros Hr Hf. assert (Hs : fw_scheme MWSS) by (right; reflexivity). assert (HN : 1 <= 1 <= 1) by lia.
  unfold fw_forward. cbv zeta. change (str_in (lower "mwss") ["mw"; "mwss"]) with true. change (streq (lower "mwss") "mwss") with true. cbn [negb].
  cbv iota.
  assert (E6 : (if reality then 1 - 1 else 0) - 1 + 1 = (if reality then 0 else - (1 - 1))) by (destruct reality; lia). rewrite E6.
  pose proof (stage1 MWSS 1 1 c f reality nodes nside Hs HN Hr Hf) as H1. change (mo_of MWSS) with 1 in H1.
  destruct (stage2 MWSS 1 1 c reality Hs HN _ H1) as (temp & y & -> & E & H2). cbn [bind]. rewrite E. cbn [bind].
  destruct (stage3 MWSS 1 1 c reality Hs HN y "mwss" eq_refl H2) as (z & -> & H3). cbn [bind]. reflexivity.
Qed.
