(** The inverse Wigner transform synthesises Wigner D-functions. *)
From Coq Require Import Reals ZifyBool Lra.
From Coquelicot Require Import Complex.
From Verif Require Import Lib.Py Lib.PyFacts Lib.Vec Lib.VecFacts Lib.Sums Lib.Cplx Lib.Arr Lib.ArrFacts Lib.MatFacts
  Model.Index Model.Samples Model.Grids Model.FFT Model.HealpixFFT Model.Turok Model.Resampling Model.Quadrature Model.Spherical Model.Wigner
  Spec.SamplesSpec Spec.WignerSpec Spec.SphereSpec Spec.GridSpec Spec.HealpixFFTSpec Spec.SphericalSpec Spec.QuadSpec Spec.SO3Spec
  Proofs.SamplesProofs Proofs.GridProofs Proofs.PixelProofs Proofs.TurokProofs Proofs.HealpixDFTProofs Proofs.SphGrid
  Proofs.WignerCalc Proofs.SphereTheory Proofs.SphInverse Proofs.SphTop Proofs.SphForward Proofs.SphForwardTop Proofs.SphRound Proofs.SphFacts.
Open Scope string_scope.
Open Scope Z_scope.

(** ** Planes *)
Lemma shape_is_eq sh sh' : shape_is sh sh' = true <-> sh = sh'.
Proof. unfold shape_is. destruct (list_eq_dec Z.eq_dec sh sh'); split; auto; discriminate. Qed.
Lemma plane_ok {T} (a : ndarray T) n sh k : shape a = n :: sh -> 0 <= k < n ->
  plane a k = Ok (mkArr sh (fun ix => get a (k :: ix))).
Proof. intros H Hk. unfold plane. rewrite H. now rewrite norm_index_in. Qed.
Lemma plane_set_ok {T} (a b : ndarray T) n sh k : shape a = n :: sh -> shape b = sh -> 0 <= k < n ->
  exists a', plane_set a k b = Ok a' /\ shape a' = n :: sh /\
    forall j ix, get a' (j :: ix) = if j =? k then get b ix else get a (j :: ix).
Proof.
  intros H Hb Hk. unfold plane_set. rewrite H, norm_index_in by auto.
  rewrite (proj2 (shape_is_eq _ _) Hb). eexists. split; [reflexivity|]. split; [reflexivity|]. reflexivity.
Qed.
Lemma map_axis0_ok {T} (g : vec T -> vec T) (a : ndarray T) n sh n' (P : list Z -> Prop) (V : list Z -> vec T) : shape a = n :: sh -> vext g ->
  (forall v, vlen v = n -> vlen (g v) = n') ->
  (forall ix, P ix -> veq (line0 a ix) (V ix)) ->
  shape (map_axis0 g a) = n' :: sh /\ forall k ix, P ix -> 0 <= k < n' -> get (map_axis0 g a) (k :: ix) = vat (g (V ix)) k.
Proof.
  intros H Hg Hl HV. unfold map_axis0. cbn [shape get hd tl]. rewrite H. cbn [tl]. rewrite Hl by (cbn [line0 vlen]; rewrite H; reflexivity).
  split; [reflexivity|]. intros k ix Hix Hk. apply (Hg _ _ (HV ix Hix)). rewrite Hl; [exact Hk|]. cbn [line0 vlen]. now rewrite H.
Qed.

(** ** Components *)
Definition part3 (L n : Z) (c : Z -> Z -> C) (alpha beta : R) : C :=
  csum (zrange (Z.abs n) L) (fun l => csum (zrange (- l) (l + 1)) (fun m =>
    (RtoC ((2 * IZR l + 1) / (8 * PI ^ 2)) * c l m * (cis (IZR m * alpha) * RtoC (wigner_d l m n beta)))%C)).
Definition so3_scale (l : Z) : R := sqrt (IZR (2 * l + 1) / (16 * PI ^ 3)).
Lemma scale_prod l : 0 <= l -> (so3_scale l * sqrt (IZR (2 * l + 1) / (4 * PI)) = (2 * IZR l + 1) / (8 * PI ^ 2))%R.
Proof.
  intros Hl. assert (P := PI_RGT_0). unfold so3_scale. assert (E : IZR (2 * l + 1) = (2 * IZR l + 1)%R) by (rewrite plus_IZR, mult_IZR; ring).
  assert (Hl' : (0 <= IZR l)%R) by now apply IZR_le.
  rewrite E, <- sqrt_mult_alt.
  - rewrite <- (sqrt_Rsqr ((2 * IZR l + 1) / (8 * PI ^ 2))%R).
    + f_equal. unfold Rsqr. field. lra.
    + apply Rmult_le_pos; [lra|]. left. apply Rinv_0_lt_compat. apply Rmult_lt_0_compat; [lra|]. apply pow_lt. lra.
  - apply Rmult_le_pos; [lra|]. left. apply Rinv_0_lt_compat. apply Rmult_lt_0_compat; [lra|]. apply pow_lt. lra.
Qed.
Lemma component L n c alpha beta :
  (RtoC (sgn n) * synth L (- n) (fun l m => RtoC (so3_scale l) * c l m) beta alpha)%C = part3 L n c alpha beta.
Proof.
  unfold synth, part3. rewrite Z.abs_opp, <- cs_scal_l. apply cr_ext. intros l Hl. rewrite <- cs_scal_l. apply cr_ext. intros m Hm.
  unfold sYlm. rewrite Z.opp_involutive, sgn_opp, <- scale_prod by lia.
  transitivity ((RtoC (sgn n * sgn n) * RtoC (so3_scale l * sqrt (IZR (2 * l + 1) / (4 * PI)))) * c l m * (cis (IZR m * alpha) * RtoC (wigner_d l m n beta)))%C.
  - rewrite !RtoC_mult. ring.
  - rewrite sgn_sq. ring.
Qed.
Lemma part3_ext L n c c' alpha beta : (forall l m, Z.abs n <= l < L -> - l <= m <= l -> c l m = c' l m) ->
  part3 L n c alpha beta = part3 L n c' alpha beta.
Proof. intros H. apply cr_ext. intros l Hl. apply cr_ext. intros m Hm. rewrite H by lia. reflexivity. Qed.
Lemma so3_synth_parts L N c alpha beta gamma :
  so3_synth L N c alpha beta gamma = csum (zrange (- (N - 1)) N) (fun n => (part3 L n (c n) alpha beta * cis (IZR n * gamma))%C).
Proof.
  apply cr_ext. intros n Hn. unfold part3. rewrite <- cs_scal_r. apply cr_ext. intros l Hl. rewrite <- cs_scal_r. apply cr_ext. intros m Hm.
  unfold Dconj. ring.
Qed.
(** symmetry of the parts of a real signal *)
Lemma part3_conj L n c c' alpha beta :
  (forall l m, Z.abs n <= l < L -> - l <= m <= l -> c' l (- m)%Z = (RtoC (sgn (m + n)) * Cconj (c l m))%C) ->
  part3 L (- n) c' alpha beta = Cconj (part3 L n c alpha beta).
Proof.
  intros H. unfold part3. rewrite csum_conj, Z.abs_opp. apply cr_ext. intros l Hl. rewrite csum_conj.
  rewrite <- (cr_perm (- l) (l + 1) (- l) (l + 1) Z.opp) by lia. apply cr_ext. intros m Hm.
  rewrite H by lia. rewrite wig_flip by lia. rewrite !Cconj_mult, !Cconj_R, cis_conj, opp_IZR.
  replace (- IZR m * alpha)%R with (- (IZR m * alpha))%R by ring. rewrite (sgn_sub m n), sgn_add.
  transitivity (RtoC (sgn m * sgn m) * RtoC (sgn n * sgn n) * (RtoC ((2 * IZR l + 1) / (8 * PI ^ 2)) * Cconj (c l m) * (cis (- (IZR m * alpha)) * RtoC (wigner_d l m n beta))))%C.
  - rewrite !RtoC_mult. ring.
  - rewrite !sgn_sq. ring.
Qed.
Lemma gamma_root N n g : 1 <= N -> cis (IZR n * (2 * PI * IZR g / IZR (2 * N - 1))) = root (2 * N - 1) (n * g).
Proof. intros H. unfold root. f_equal. rewrite mult_IZR. field. apply not_0_IZR. lia. Qed.
(** the real inverse DFT of odd length *)
Lemma irfft_odd (v : vec C) N (T : Z -> C) g : 1 <= N -> vlen v = N ->
  (forall n, 0 <= n < N -> T n = (vat v n * root (2 * N - 1) (n * g))%C) ->
  (forall n, 0 <= n < N -> T (- n)%Z = Cconj (T n)) ->
  vat (irfft_fwd v (2 * N - 1)) g = csum (zrange (- (N - 1)) N) T.
Proof.
  intros HN Hv HT HC. replace (zrange (- (N - 1)) N) with (zrange (- (N - 1)) (N - 1 + 1)) by (f_equal; lia).
  rewrite fold_pairs by (try lia; intros; apply HC; lia). unfold irfft_fwd. cbn [vat]. rewrite Hv.
  replace (Z.even (2 * N - 1)) with false by (rewrite Z.even_sub, Z.even_mul; reflexivity).
  replace ((2 * N - 1 + 1) / 2) with (N - 1 + 1) by (replace (2 * N - 1 + 1) with (N * 2) by lia; rewrite Z.div_mul; lia).
  zif. assert (E0 : T 0 = RtoC (Re (vat v 0))).
  { assert (Q : T 0 = vat v 0) by (rewrite HT by lia; rewrite Z.mul_0_l, root_0; ring).
    pose proof (HC 0 ltac:(lia)) as R. change (- 0) with 0 in R. rewrite Q in R |- *.
    destruct (vat v 0) as [x y]. unfold Cconj, RtoC in *. cbn in *. injection R as R. f_equal. lra. }
  rewrite E0. rewrite !RtoC_plus, Cplus_0_r || rewrite Rplus_0_r, RtoC_plus. f_equal.
  rewrite RtoC_mult, <- csum_RtoC, <- cs_scal_l. apply cr_ext. intros k Hk. zif. rewrite HT by lia.
  set (z := (vat v k * root (2 * N - 1) (k * g))%C). destruct z as [x y]. unfold Cconj, RtoC, Cmult, Cplus, Re. cbn. f_equal; ring.
Qed.

(** ** The loop over n *)
Lemma im_scal r z : Im (RtoC r * z)%C = (r * Im z)%R.
Proof. destruct z. unfold Im, RtoC, Cmult. cbn. ring. Qed.
Lemma so3_shape s L N nside o : setting (scheme_name s) s L nside o ->
  so3_f_shape L N (scheme_name s) o = Ok (2 * N - 1 :: map_shape s L nside).
Proof.
  intros (_ & _ & Hn). destruct s; try reflexivity. destruct (Hn eq_refl) as (_ & ->). unfold so3_f_shape. cbn -[Z.mul Z.sub Z.pow]. rewrite Z.pow_2_r. reflexivity.
Qed.
Lemma scaled_ok L N flmn : shape flmn = [2 * N - 1; L; 2 * L - 1] -> exists a,
  einsum_nlm_l flmn (mkVec L (fun l => RtoC (so3_scale l))) = Ok a /\ shape a = [2 * N - 1; L; 2 * L - 1] /\
  forall n l m, get a [n; l; m] = (get flmn [n; l; m] * RtoC (so3_scale l))%C.
Proof.
  intros H. unfold einsum_nlm_l, dim1. rewrite H. cbn [nth vlen]. rewrite Z.eqb_refl. eexists. split; [reflexivity|]. split; [reflexivity|]. reflexivity.
Qed.
Lemma used3_part (reality : bool) Lo L N flmn n l m : (reality = true -> 0 <= n) ->
  used_coefficients reality (- n) Lo (fun l m => RtoC (so3_scale l) * stored3 L N flmn n l m)%C l m
  = (RtoC (so3_scale l) * used3 reality Lo (stored3 L N flmn) n l m)%C.
Proof.
  intros Hn. unfold used_coefficients, above, used3. destruct (l <? Lo); [now rewrite Cmult_0_r|]. destruct reality; cbn [andb]; [|reflexivity].
  specialize (Hn eq_refl). unfold real_extension3, real_extension. replace (n <? 0) with false by lia. cbn [orb].
  replace (- n =? 0) with (n =? 0) by lia. destruct (Z.eqb_spec n 0) as [->|H]; cbn [andb]; [|reflexivity].
  destruct (m <? 0); [|reflexivity]. rewrite Cconj_mult, Cconj_R. rewrite Z.add_0_r. change (- 0) with 0. ring.
Qed.
Section Inv.
  Variables (gl : gl_rule) (s : scheme) (L N Lo nside : Z) (o : option Z) (reality : bool) (flmn : ndarray C).
  Hypothesis (S : setting (scheme_name s) s L nside o) (HN : 1 <= N) (HLo : 0 <= Lo < L) (Hf : shape flmn = [2 * N - 1; L; 2 * L - 1])
    (Hg : s = GL -> vlen (gl_nodes gl L) = L) (Hh : s = HEALPIX -> 2 * nside <= L) (Ha : rings_away (vat (gl_nodes gl L)) s L nside)
    (Hr : reality = true -> forall l, 0 <= l < L -> is_real (stored3 L N flmn 0 l 0)).
  Notation n0 := (if reality then 0 else - N + 1).
  Definition C3 := used3 reality Lo (stored3 L N flmn).

  Lemma inverse_plane n a : n0 <= n < N -> shape a = [2 * N - 1; L; 2 * L - 1] ->
    (forall n l m, get a [n; l; m] = (get flmn [n; l; m] * RtoC (so3_scale l))%C) ->
    exists p g, plane a (N - 1 + n) = Ok p /\ inverse gl p L (- n) (scheme_name s) o reality Lo = Ok g /\
      holds_samples (vat (gl_nodes gl L)) s L nside (amap (fun z => (RtoC (m1 n) * z)%C) g) (fun beta alpha => part3 L n (C3 n) alpha beta).
  Proof.
    intros Hn Sa Ga. pose proof S as (Hd & HL & Hns). rewrite (plane_ok a (2 * N - 1) [L; 2 * L - 1]) by (auto; destruct reality; lia).
    eexists. 
    destruct (synthesis_lemma gl (scheme_name s) s (mkArr [L; 2 * L - 1] (fun ix => get a (N - 1 + n :: ix))) L (- n) "sov_fft_vectorized" nside o reality Lo)
      as (g & E & HS & HG); auto.
    { right. split; [right; reflexivity|]. split; [reflexivity|]. split; [exact Hh|]. intros Q1 Q2 el Hel.
      unfold stored. cbn [get]. rewrite Ga. specialize (Hr Q1 el Hel). unfold stored3 in Hr.
      replace (N - 1 + n) with (0 + N - 1) by lia. unfold is_real in *. rewrite Cmult_comm, im_scal, Hr. ring. }
    exists g. split; [reflexivity|]. split; [exact E|]. split; [exact HS|].
    intros t p x Ht Hp Hx. cbn [amap get]. rewrite (HG t p x Ht Hp Hx). rewrite <- component. unfold msign, sgn. f_equal.
    apply synth_ext. intros l m Hl Hm. unfold C3. rewrite <- used3_part by (intros Q; rewrite Q in Hn; lia).
    unfold used_coefficients, above, real_extension, stored, stored3. destruct (l <? Lo); [reflexivity|]. destruct (reality && _).
    - destruct (m <? 0).
      + rewrite !Cconj_mult, Cconj_R. cbn [get]. rewrite Ga, !Cconj_mult, Cconj_R. replace (N - 1 + n) with (n + N - 1) by lia. ring.
      + cbn [get]. rewrite Ga. replace (N - 1 + n) with (n + N - 1) by lia. ring.
    - cbn [get]. rewrite Ga. replace (N - 1 + n) with (n + N - 1) by lia. ring.
  Qed.
  Lemma inverse_loop a fban : shape a = [2 * N - 1; L; 2 * L - 1] ->
    (forall n l m, get a [n; l; m] = (get flmn [n; l; m] * RtoC (so3_scale l))%C) -> shape fban = 2 * N - 1 :: map_shape s L nside ->
    exists fban', foldM (fun fban n =>
      let* p := plane a (N - 1 + n) in
      let* g := inverse gl p L (- n) (scheme_name s) o reality Lo in
      plane_set fban (N - 1 + n) (amap (fun z => (RtoC (m1 n) * z)%C) g)) (zrange n0 N) fban = Ok fban' /\
    shape fban' = 2 * N - 1 :: map_shape s L nside /\
    forall n t p x, n0 <= n < N -> 0 <= t < rings s L nside -> 0 <= p < ring_size s L nside t -> colatitude (vat (gl_nodes gl L)) s L nside t x ->
      get fban' (N - 1 + n :: sample_index s nside t p) = part3 L n (C3 n) (longitude s L nside t p) x.
  Proof.
    intros Sa Ga Sf. apply (foldM_inv (fun k fban => shape fban = 2 * N - 1 :: map_shape s L nside /\
      forall n t p x, n0 <= n < k -> 0 <= t < rings s L nside -> 0 <= p < ring_size s L nside t -> colatitude (vat (gl_nodes gl L)) s L nside t x ->
      get fban (N - 1 + n :: sample_index s nside t p) = part3 L n (C3 n) (longitude s L nside t p) x)).
    - destruct reality; lia.
    - split; [exact Sf|]. intros; lia.
    - intros n fb Hn (Sb & Gb). destruct (inverse_plane n a Hn Sa Ga) as (p & g & -> & E2 & HS & HG). cbn [bind]. rewrite E2. cbn [bind].
      destruct (plane_set_ok fb (amap (fun z => (RtoC (m1 n) * z)%C) g) (2 * N - 1) (map_shape s L nside) (N - 1 + n)) as (fb' & -> & S' & G'); auto.
      { destruct reality; lia. }
      exists fb'. split; [reflexivity|]. split; [exact S'|]. intros k t q x Hk Ht Hq Hx. rewrite G'.
      destruct (Z.eqb_spec (N - 1 + k) (N - 1 + n)) as [Q|Q].
      + replace k with n by lia. now apply HG.
      + apply Gb; auto; lia.
  Qed.
  Lemma wigner_inverse_lemma : exists f, wigner_inverse gl flmn L N Lo (scheme_name s) reality o = Ok f /\
    so3_holds (vat (gl_nodes gl L)) s L N nside f (so3_synth L N C3).
  Proof.
    unfold wigner_inverse. assert (E0 : shape_is (shape flmn) (flmn_shape L N) = true) by (apply shape_is_eq; exact Hf).
    rewrite E0. cbn [assert_ bind]. rewrite (so3_shape s L N nside o S). cbn [bind].
    destruct (scaled_ok L N flmn Hf) as (a & Ea & Sa & Ga). unfold so3_scale in Ea. rewrite Ea. cbn [bind].
    destruct (inverse_loop a (zeros (RtoC 0) (2 * N - 1 :: map_shape s L nside)) Sa Ga eq_refl) as (fb & -> & Sb & Gb). cbn [bind].
    eexists. split; [reflexivity|].
    assert (T : forall t p, 0 <= t < rings s L nside -> 0 <= p < ring_size s L nside t -> True) by auto.
    destruct reality eqn:ER.
    - assert (Sp : shape (planes_from fb (N - 1)) = N :: map_shape s L nside).
      { unfold planes_from. cbn [shape]. rewrite Sb. cbn [hd tl]. rewrite slice_len_in by lia. f_equal. lia. }
      set (P := fun ix => exists t p, 0 <= t < rings s L nside /\ 0 <= p < ring_size s L nside t /\ ix = sample_index s nside t p).
      destruct (map_axis0_ok (fun v => irfft_fwd v (2 * N - 1)) (planes_from fb (N - 1)) N (map_shape s L nside) (2 * N - 1) P
        (fun ix => mkVec N (fun n => get fb (N - 1 + n :: ix))) Sp) as (M1 & M2).
      { apply vext_irfft. }
      { reflexivity. }
      { intros ix _. split; cbn [line0 vlen]; rewrite Sp; [reflexivity|]. intros k Hk. cbn [hd] in Hk. cbn [vat]. unfold planes_from. cbn [get hd tl].
        rewrite Sb. cbn [hd]. rewrite slice_lo_in by lia. reflexivity. }
      split; [exact M1|]. intros g t p x Hg' Ht Hp Hx. rewrite M2; [|exists t, p; auto|exact Hg'].
      rewrite so3_synth_parts. apply irfft_odd; auto.
      + intros n Hn. cbn [vat]. rewrite (Gb n t p x) by (auto; lia). rewrite gamma_root by lia. reflexivity.
      + intros n Hn. rewrite Cconj_mult, cis_conj, opp_IZR. f_equal.
        * apply part3_conj. intros l m Hl Hm. unfold C3, used3. rewrite ER. destruct (l <? Lo); [rewrite Cconj_R; ring|].
          unfold real_extension3. destruct (Z.eq_dec n 0) as [->|Hn0].
          -- change (- 0) with 0. replace (0 <? 0) with false by lia. cbn [orb]. change (0 =? 0) with true. cbn [andb].
             destruct (Z_lt_dec m 0) as [Q|Q].
             ++ replace (m <? 0) with true by lia. replace (- m <? 0) with false by lia.
                rewrite Cconj_mult, Cconj_conj, Cconj_R. rewrite Cmult_assoc, <- RtoC_mult, sgn_sq. ring.
             ++ destruct (Z.eq_dec m 0) as [->|].
                ** change (- 0) with 0. replace (0 <? 0) with false by lia. rewrite (real_conj (stored3 L N flmn 0 l 0)) by (apply Hr; auto; lia).
                   change (sgn (0 + 0)) with 1%R. ring.
                ** replace (m <? 0) with false by lia. replace (- m <? 0) with true by lia. rewrite Z.opp_involutive, !Z.add_0_r, sgn_opp. reflexivity.
          -- replace (- n <? 0) with true by lia. cbn [orb]. replace (n <? 0) with false by lia. cbn [orb]. replace (n =? 0) with false by lia. cbn [andb].
             rewrite !Z.opp_involutive. f_equal. f_equal. rewrite <- sgn_opp. f_equal. lia.
        * f_equal. ring.
    - set (P := fun ix => exists t p, 0 <= t < rings s L nside /\ 0 <= p < ring_size s L nside t /\ ix = sample_index s nside t p).
      destruct (map_axis0_ok (fun v => ifft_fwd (ifftshift v)) fb (2 * N - 1) (map_shape s L nside) (2 * N - 1) P
        (fun ix => mkVec (2 * N - 1) (fun n => get fb (n :: ix))) Sb) as (M1 & M2).
      { apply (vext_comp ifft_fwd ifftshift); [apply vext_ifft_fwd|apply vext_ifftshift]. }
      { intros v Hv. exact Hv. }
      { intros ix _. split; cbn [line0 vlen]; rewrite Sb; [reflexivity|]. reflexivity. }
      split; [exact M1|]. intros g t p x Hg' Ht Hp Hx. rewrite M2; [|exists t, p; auto|exact Hg'].
      rewrite so3_synth_parts. rewrite (ifft_ifftshift _ (2 * N - 1)) by (try reflexivity; lia).
      replace ((2 * N - 1) / 2) with (N - 1) by (apply Z.div_unique with 1; lia).
      replace (- (N - 1) + (2 * N - 1)) with N by lia. apply cr_ext. intros n Hn. cbn [vat].
      replace (n + (N - 1)) with (N - 1 + n) by lia. rewrite (Gb n t p x) by (auto; lia). rewrite gamma_root by lia. reflexivity.
  Qed.
End Inv.
