(** The inverse Wigner transform with a precomputed kernel synthesises Wigner D-functions. *)
From Coq Require Import Reals ZifyBool Lra.
From Coquelicot Require Import Complex.
From Verif Require Import Lib.Py Lib.PyFacts Lib.Vec Lib.VecFacts Lib.Sums Lib.Cplx Lib.Arr Lib.ArrFacts Lib.MatFacts
  Model.Index Model.Samples Model.Grids Model.FFT Model.HealpixFFT Model.Turok Model.Risbo Model.Resampling Model.Quadrature
  Model.Spherical Model.PriceMcEwen Model.Precompute Model.Wigner Model.FourierWigner Model.PrecomputeWigner
  Spec.SamplesSpec Spec.WignerSpec Spec.SphereSpec Spec.GridSpec Spec.HealpixFFTSpec Spec.SphericalSpec Spec.QuadSpec Spec.SO3Spec Spec.OTFWignerSpec
  Spec.PrecomputeSpec Spec.PrecomputeWignerSpec
  Proofs.SamplesProofs Proofs.GridProofs Proofs.TurokProofs Proofs.RisboProofs Proofs.HealpixDFTProofs Proofs.SphereTheory Proofs.SphGrid
  Proofs.SphInverse Proofs.SphTop Proofs.SphForward Proofs.SphForwardTop Proofs.SphFacts Proofs.ResamplingProofs Proofs.PrecomputeKernel Proofs.PrecomputeSph
  Proofs.WignerInverse Proofs.WignerForward Proofs.WignerRound Proofs.WignerReal Proofs.FWArrays Proofs.OTFWignerLoop Proofs.PrecomputeTop Proofs.PWKernel.
Open Scope string_scope.
Open Scope Z_scope.

(** ** Arrays *)
Lemma tail_set_ok {T} (a b : ndarray T) n l m F G s c : is_arr3 a n l m F -> is_arr3 b (n - s) l (m - c) G -> 0 <= s <= n -> 0 <= c <= m ->
  exists a', tail_set a s c b = Ok a' /\
    is_arr3 a' n l m (fun i j k => if (s <=? i) && (c <=? k) then G (i - s) j (k - c) else F i j k).
Proof.
  intros Ha Hb Hs Hc. unfold tail_set. destruct (is_arr3_dims _ _ _ _ _ Ha) as (-> & -> & ->). destruct (is_arr3_dims _ _ _ _ _ Hb) as (-> & -> & ->).
  rewrite !slice_len_in, !slice_lo_in by lia. replace (Z.max 0 (n - s)) with (n - s) by lia.
  replace (Z.max 0 (m - c)) with (m - c) by lia. rewrite !Z.eqb_refl. cbn [andb]. eexists. split; [reflexivity|].
  eapply is_arr3_ext; [apply is_arr3_arr3|]. intros i j k Hi Hj Hk. cbv beta zeta.
  replace (0 <=? i - s) with (s <=? i) by lia. replace (0 <=? k - c) with (c <=? k) by lia.
  destruct (Z.leb_spec s i), (Z.leb_spec c k); cbn [andb]; try (apply (proj2 Ha); lia). apply (proj2 Hb); lia.
Qed.
Lemma fnab_shape_ok s L N nside o : setting (scheme_name s) s L nside o ->
  fnab_shape L N (scheme_name s) o = Ok [2 * N - 1; rings s L nside; orders s L].
Proof.
  intros (Hd & HL & Hn). unfold fnab_shape. destruct s; try reflexivity. destruct (Hn eq_refl) as (_ & ->). reflexivity.
Qed.
Lemma wm_offset_name s : wm_offset (scheme_name s) = mo_of s.
Proof. now destruct s. Qed.
Lemma in_healpix_name s : in_healpix (scheme_name s) = match s with HEALPIX => true | _ => false end.
Proof. now destruct s. Qed.

(** ** The axis of gamma *)
Lemma irfft_odd_mean (v : vec C) N (T : Z -> C) g : 1 <= N -> vlen v = N ->
  T 0 = RtoC (Re (vat v 0)) ->
  (forall n, 0 < n < N -> T n = (vat v n * root (2 * N - 1) (n * g))%C /\ T (- n)%Z = Cconj (T n)) ->
  vat (irfft_fwd v (2 * N - 1)) g = csum (zrange (- (N - 1)) N) T.
Proof.
  intros HN Hv E0 HT. replace (zrange (- (N - 1)) N) with (zrange (- (N - 1)) (N - 1 + 1)) by (f_equal; lia).
  assert (HC : forall n, 0 <= n <= N - 1 -> T (- n) = Cconj (T n)).
  { intros n Hn. destruct (Z.eq_dec n 0) as [->|]; [|apply HT; lia]. change (- 0) with 0. rewrite E0. now rewrite Cconj_R. }
  rewrite fold_pairs by (try lia; intros; apply HC; lia). unfold irfft_fwd. cbn [vat]. rewrite Hv.
  replace (Z.even (2 * N - 1)) with false by (rewrite Z.even_sub, Z.even_mul; reflexivity).
  replace ((2 * N - 1 + 1) / 2) with (N - 1 + 1) by (replace (2 * N - 1 + 1) with (N * 2) by lia; rewrite Z.div_mul; lia).
  zif. rewrite E0. rewrite Rplus_0_r, RtoC_plus. f_equal.
  rewrite RtoC_mult, <- csum_RtoC, <- cs_scal_l. apply cr_ext. intros k Hk. zif. rewrite (proj1 (HT k ltac:(lia))).
  set (z := (vat v k * root (2 * N - 1) (k * g))%C). destruct z as [x y]. unfold Cconj, RtoC, Cmult, Cplus, Re. cbn. f_equal; ring.
Qed.
Section Gamma.
  Variables (s : scheme) (L N nside : Z) (reality : bool) (b : backend).
  Hypothesis HN : 1 <= N.
  Notation n0 := (n_low N reality).
  Lemma gamma_axis_ok fb (V W : Z -> Z -> Z -> C) : shape fb = 2 * N - 1 :: map_shape s L nside ->
    (forall n t p, n0 <= n < N -> 0 <= t < rings s L nside -> 0 <= p < ring_size s L nside t -> get fb (N - 1 + n :: sample_index s nside t p) = V n t p) ->
    (forall n t p, n0 <= n < N -> (reality = true -> n <> 0) -> W n t p = V n t p) ->
    (reality = true -> forall t p, W 0 t p = RtoC (Re (V 0 t p))) ->
    (reality = true -> forall n t p, 0 < n < N -> W (- n) t p = Cconj (V n t p)) ->
    let f := if reality then map_axis0 (fun v => irfft_fwd v (2 * N - 1)) (planes_from fb (if reality then N - 1 else 0))
             else map_axis0 (inv_fft_shift b) fb in
    shape f = 2 * N - 1 :: map_shape s L nside /\
    forall g t p, 0 <= g < 2 * N - 1 -> 0 <= t < rings s L nside -> 0 <= p < ring_size s L nside t ->
      get f (g :: sample_index s nside t p) = csum (zrange (- (N - 1)) N) (fun n => W n t p * root (2 * N - 1) (n * g))%C.
  Proof.
    intros Sb Gb W1 W2 W3. unfold n_low in *. cbv zeta.
    set (P := fun ix => exists t p, 0 <= t < rings s L nside /\ 0 <= p < ring_size s L nside t /\ ix = sample_index s nside t p).
    destruct reality eqn:ER.
    - assert (Sp : shape (planes_from fb (N - 1)) = N :: map_shape s L nside).
      { unfold planes_from. cbn [shape]. rewrite Sb. cbn [hd tl]. rewrite slice_len_in by lia. f_equal. lia. }
      destruct (map_axis0_ok (fun v => irfft_fwd v (2 * N - 1)) (planes_from fb (N - 1)) N (map_shape s L nside) (2 * N - 1) P
        (fun ix => mkVec N (fun n => get fb (N - 1 + n :: ix))) Sp) as (M1 & M2).
      { apply SphInverse.vext_irfft. }
      { reflexivity. }
      { intros ix _. split; cbn [line0 vlen]; rewrite Sp; [reflexivity|]. intros k Hk. cbn [hd] in Hk. cbn [vat]. unfold planes_from. cbn [get hd tl].
        rewrite Sb. cbn [hd]. rewrite slice_lo_in by lia. reflexivity. }
      split; [exact M1|]. intros g t p Hg' Ht Hp. rewrite M2; [|exists t, p; auto|exact Hg'].
      apply irfft_odd_mean; auto.
      + cbn [vat]. rewrite Z.mul_0_l, root_0, W2 by auto. rewrite (Gb 0 t p) by (auto; lia). ring.
      + intros n Hn. cbn [vat]. rewrite (Gb n t p) by (auto; lia). rewrite (W1 n) by (auto; lia). split; [reflexivity|].
        rewrite Cconj_mult, W3 by auto. f_equal. rewrite <- root_opp. f_equal. lia.
    - destruct (map_axis0_ok (inv_fft_shift b) fb (2 * N - 1) (map_shape s L nside) (2 * N - 1) P
        (fun ix => mkVec (2 * N - 1) (fun n => get fb (n :: ix))) Sb) as (M1 & M2).
      { apply vext_inv_fft_shift. }
      { intros v Hv. destruct b; exact Hv. }
      { intros ix _. split; cbn [line0 vlen]; rewrite Sb; [reflexivity|]. reflexivity. }
      split; [exact M1|]. intros g t p Hg' Ht Hp. rewrite M2; [|exists t, p; auto|exact Hg'].
      rewrite (inv_fft_shift_ok b _ (2 * N - 1)) by (try reflexivity; lia).
      replace ((2 * N - 1) / 2) with (N - 1) by (apply Z.div_unique with 1; lia).
      replace (- (N - 1) + (2 * N - 1)) with N by lia. apply cr_ext. intros n Hn. cbn [vat].
      replace (n + (N - 1)) with (N - 1 + n) by lia. rewrite (Gb n t p) by (auto; lia). rewrite (W1 n) by (discriminate || lia). reflexivity.
  Qed.
End Gamma.

(** ** One plane *)
Definition Apl (L N : Z) (flmn : ndarray C) (x : Z -> R) (n t m : Z) : C :=
  csum (zrange 0 L) (fun el => RtoC (wigner_d el m n (x t) * (IZR (2 * el + 1) / (8 * PI ^ 2))) * stored3 L N flmn n el m)%C.
Lemma Apl_part s L N nside flmn x n t p : - L < n < L ->
  order_sum (agrid s L nside x) L (Apl L N flmn x n) t p = part3 L n (stored3 L N flmn n) (longitude s L nside t p) (x t).
Proof.
  intros Hn. unfold order_sum, Apl, part3. rewrite agrid_ph.
  rewrite (cr_ext (- (L - 1)) L _ (fun m => csum (zrange 0 L) (fun el => RtoC (wigner_d el m n (x t) * (IZR (2 * el + 1) / (8 * PI ^ 2))) * stored3 L N flmn n el m * cis (IZR m * longitude s L nside t p))%C))
    by (intros m Hm; now rewrite <- cs_scal_r).
  rewrite cs_swap. rewrite (cr_shrink 0 L (Z.abs n) L) by (try lia; intros el Hel Ho; apply cr_0; intros m Hm; rewrite wig_out by lia; rewrite Rmult_0_l; ring).
  apply cr_ext. intros el Hel.
  rewrite (cr_shrink (- (L - 1)) L (- el) (el + 1)) by (try lia; intros m Hm Ho; rewrite wig_out by lia; rewrite Rmult_0_l; ring).
  apply cr_ext. intros m Hm. rewrite plus_IZR, mult_IZR, RtoC_mult. ring.
Qed.
(** the mean of plane 0 *)
Lemma part3_lin L n c c' x y alpha beta :
  part3 L n (fun l m => (x * c l m + y * c' l m)%C) alpha beta = (x * part3 L n c alpha beta + y * part3 L n c' alpha beta)%C.
Proof.
  unfold part3. rewrite <- !cs_scal_l, <- cs_plus. apply cr_ext. intros l Hl. rewrite <- !cs_scal_l, <- cs_plus. apply cr_ext. intros m Hm. ring.
Qed.
Lemma part3_mean L c alpha beta : part3 L 0 (real_mean3 c 0) alpha beta = RtoC (Re (part3 L 0 (c 0) alpha beta)).
Proof.
  transitivity (part3 L 0 (fun l m => RtoC (/ 2) * c 0%Z l m + RtoC (/ 2) * (RtoC (sgn m) * Cconj (c 0%Z l (- m)%Z)))%C alpha beta).
  - apply part3_ext. intros l m _ _. unfold real_mean3. change (0 <? 0) with false. change (0 =? 0) with true. cbv iota.
    rewrite RtoC_inv by lra. field. intros Q. apply RtoC_inj in Q. lra.
  - rewrite part3_lin. rewrite (part3_conj L 0 (c 0) (fun l m => RtoC (sgn m) * Cconj (c 0%Z l (- m)%Z))%C).
    + destruct (part3 L 0 (c 0) alpha beta) as [u v]. unfold Cconj, RtoC, Cplus, Cmult, Re. cbn. f_equal; lra.
    + intros l m _ _. rewrite Z.opp_involutive, Z.add_0_r, sgn_opp. reflexivity.
Qed.
Lemma part3_neg L n c alpha beta : 0 < n -> part3 L (- n) (real_mean3 c (- n)) alpha beta = Cconj (part3 L n (c n) alpha beta).
Proof.
  intros Hn. apply part3_conj. intros l m _ _. unfold real_mean3. replace (- n <? 0) with true by lia. rewrite !Z.opp_involutive.
  replace (- m + - n) with (- (m + n)) by lia. now rewrite sgn_opp.
Qed.

Section Inv.
  Variables (b : backend) (x : Z -> R) (s : scheme) (L N nside : Z) (o : option Z) (reality : bool) (flmn K : ndarray C).
  Hypothesis (S : setting (scheme_name s) s L nside o) (HN : 1 <= N <= L) (Hf : shape flmn = [2 * N - 1; L; 2 * L - 1])
    (Hh : s = HEALPIX -> 2 * nside <= L)
    (HK : is_arr4 K (n_dim N reality) (rings s L nside) L (2 * L - 1)
       (fun k t el i => RtoC (wigner_d el (i - (L - 1)) (n_low N reality + k) (x t) * (IZR (2 * el + 1) / (8 * PI ^ 2))) * phase_of s nside t (i - (L - 1)))%C).
  Notation n0 := (n_low N reality).
  Lemma pw_inverse_at : exists f, pw_inverse_transform b flmn K L N (scheme_name s) reality o = Ok f /\
    so3_at x s L N nside f (so3_synth L N (mean3 reality (stored3 L N flmn))).
  Proof.
    pose proof S as (Hd & HL & Hn). unfold pw_inverse_transform. cbv zeta. rewrite wm_offset_name, in_healpix_name, (fnab_shape_ok s L N nside o S). cbn [bind].
    assert (Hst : (if reality then N - 1 else 0) = N - 1 + n0) by (unfold n_low; destruct reality; lia).
    assert (Hn0 : 1 - N <= n0 < N) by (unfold n_low; destruct reality; lia).
    assert (Hnd : n_dim N reality = 2 * N - 1 - (N - 1 + n0)) by (unfold n_low, n_dim; destruct reality; lia).
    assert (EO : orders s L = 2 * L - 1 + mo_of s) by (destruct s; cbn [orders mo_of]; lia).
    assert (M01 : mo_of s = 0 \/ mo_of s = 1) by (destruct s; cbn [mo_of]; lia).
    rewrite Hst.
    assert (FA : is_arr3 flmn (2 * N - 1) L (2 * L - 1) (fun i el k => stored3 L N flmn (i - (N - 1)) el (k - (L - 1)))).
    { split; [exact Hf|]. intros i el k Hi Hel Hk. unfold stored3, at3. do 2 f_equal; [lia|]. do 2 f_equal. lia. }
    assert (FP := planes_from_ok flmn _ _ _ _ (N - 1 + n0) FA ltac:(lia)). rewrite <- Hnd in FP.
    destruct (ntlm_nlm_ok K _ _ _ _ _ _ _ HK FP) as (e & -> & He). cbn [bind].
    rewrite Hnd in He. replace (2 * L - 1) with (orders s L - mo_of s) in He by lia.
    destruct (tail_set_ok (zeros (RtoC 0) [2 * N - 1; rings s L nside; orders s L]) e _ _ _ _ _ _ _ (zeros3 _ _ _ _) He ltac:(lia) ltac:(lia)) as (fnab & -> & Hfn).
    cbn [bind].
    assert (FO : forall n, n0 <= n < N -> ftm_ok s L nside (rings s L nside) false (Apl L N flmn x n)
      (mkArr [rings s L nside; orders s L] (fun ix => get fnab (N - 1 + n :: ix)))).
    { intros n Hk. exists (fun t c => at3 fnab (N - 1 + n) t c). split; [split; [reflexivity|reflexivity]|]. intros t Ht. split.
      - intros M. rewrite (proj2 Hfn) by lia. rewrite M. replace (1 <=? 0) with false by lia. rewrite andb_false_r. reflexivity.
      - intros m Hm _. rewrite (proj2 Hfn) by lia. replace (N - 1 + n0 <=? N - 1 + n) with true by lia.
        replace (mo_of s <=? m + L - 1 + mo_of s) with true by lia. cbn [andb]. unfold Apl. rewrite <- cs_scal_l. apply cr_ext. intros el Hel.
        replace (m + L - 1 + mo_of s - mo_of s - (L - 1)) with m by lia.
        replace (n0 + (N - 1 + n - (N - 1 + n0))) with n by lia.
        replace (N - 1 + n0 + (N - 1 + n - (N - 1 + n0)) - (N - 1)) with n by lia. ring. }
    assert (SY : forall n, n0 <= n < N -> exists f, pre_synthesis b (mkArr [rings s L nside; orders s L] (fun ix => get fnab (N - 1 + n :: ix))) L (scheme_name s) o false = Ok f /\
      shape f = map_shape s L nside /\ forall t p, 0 <= t < rings s L nside -> 0 <= p < ring_size s L nside t ->
        get f (sample_index s nside t p) = part3 L n (stored3 L N flmn n) (longitude s L nside t p) (x t)).
    { intros n Hk. destruct (numpy_synthesis s L nside o false _ _ x HL ltac:(intros Q; destruct (Hn Q); auto) (FO n Hk) ltac:(discriminate) b) as (f & E & HF1 & HF2).
      exists f. split; [exact E|]. rewrite agrid_sh in HF1. split; [exact HF1|]. intros t p Ht Hp.
      rewrite <- Apl_part by lia. rewrite <- HF2; [now rewrite agrid_e|]. split; [now rewrite agrid_n|now rewrite agrid_N]. }
    set (V := fun n t p => part3 L n (stored3 L N flmn n) (longitude s L nside t p) (x t)).
    assert (FB : exists fb, (if match s with HEALPIX => true | _ => false end then
        let* sh := so3_f_shape L N (scheme_name s) o in
        let* ns := need o in
        foldM (fun f n =>
          let* p := plane fnab (N - 1 + n) in
          let* (_, v) := healpix_ifft (RtoC 0) Cplus ifft_fwd irfft_fwd (to_rows p) L ns (backend_name b) false in
          plane_set f (N - 1 + n) (of_vec v)) (zrange (N - 1 + n0 - N + 1) N) (zeros (RtoC 0) sh)
        else Ok (map3_2 (inv_fft_shift b) fnab)) = Ok fb /\ shape fb = 2 * N - 1 :: map_shape s L nside /\
      forall n t p, n0 <= n < N -> 0 <= t < rings s L nside -> 0 <= p < ring_size s L nside t -> get fb (N - 1 + n :: sample_index s nside t p) = V n t p).
    { assert (D : s = HEALPIX \/ s <> HEALPIX) by (destruct s; auto; right; discriminate). destruct D as [D|D].
      - subst s. destruct (Hn eq_refl) as (Hn1 & Ho). subst o. rewrite (so3_shape HEALPIX L N nside (Some nside) S). cbn [need bind].
        replace (N - 1 + n0 - N + 1) with n0 by lia.
        set (Q := fun n g => forall t p, 0 <= t < rings HEALPIX L nside -> 0 <= p < ring_size HEALPIX L nside t -> get g (sample_index HEALPIX nside t p) = V n t p).
        match goal with |- context [foldM ?F _ ?z] => destruct (plane_loop N n0 (map_shape HEALPIX L nside) Q F z ltac:(lia) ltac:(lia) eq_refl) as (fb & -> & Sb & Gb & _) end.
        + intros n Hk. destruct (SY n Hk) as (f & E & Sf & Gf). exists f. split; [|split; [exact Sf|exact Gf]]. intros a.
          rewrite (plane_ok fnab (2 * N - 1) [rings HEALPIX L nside; orders HEALPIX L]) by (exact (proj1 Hfn) || lia). cbn [bind].
          unfold pre_synthesis in E. change (is_hp (scheme_name HEALPIX)) with true in E. cbv iota in E. cbn [need bind] in E.
          destruct (healpix_ifft _ _ _ _ _ _ _ _ _) as [[u v]|]; [|discriminate E]. cbn [bind] in E |- *. injection E as <-. reflexivity.
        + intros n g g' _ E Hg t p Ht Hp. rewrite <- E. now apply Hg.
        + exists fb. split; [reflexivity|]. split; [exact Sb|]. intros n t p Hk Ht Hp. exact (Gb n Hk t p Ht Hp).
      - replace (match s with HEALPIX => true | _ => false end) with false by (destruct s; congruence). eexists. split; [reflexivity|].
        assert (FN : is_arr3 fnab (2 * N - 1) (rings s L nside) (orders s L) (fun i j k => get fnab [i; j; k])) by (split; [exact (proj1 Hfn)|reflexivity]).
        destruct (map3_2_ok (inv_fft_shift b) fnab _ _ _ (orders s L) _ FN (vext_inv_fft_shift b) ltac:(intros v Hv; destruct b; exact Hv)) as (M1 & M2).
        assert (EP : map_shape s L nside = [rings s L nside; orders s L]) by (destruct s; congruence || reflexivity).
        assert (EI : forall t p, sample_index s nside t p = [t; p]) by (intros; destruct s; congruence || reflexivity).
        assert (ES : forall t, ring_size s L nside t = orders s L) by (intros; destruct s; congruence || reflexivity).
        split; [now rewrite EP|]. intros n t p Hk Ht Hp. rewrite ES in Hp. rewrite EI.
        pose proof (M2 (N - 1 + n) t p ltac:(lia) Ht Hp) as Q. unfold at3 in Q. rewrite Q.
        destruct (SY n Hk) as (f & E & Sf & Gf). unfold pre_synthesis in E. rewrite is_hp_name in E.
        replace (match s with HEALPIX => true | _ => false end) with false in E by (destruct s; congruence). injection E as <-.
        unfold V. rewrite <- Gf by (auto; rewrite ES; auto). rewrite EI. rewrite inv_fft_shift_eq. reflexivity. }
    destruct FB as (fb & EB & Sb & Gb). cbv zeta in EB. rewrite EB. cbn [bind]. eexists. split; [reflexivity|].
    destruct (gamma_axis_ok s L N nside reality b ltac:(lia) fb V (fun n t p => part3 L n (mean3 reality (stored3 L N flmn) n) (longitude s L nside t p) (x t)) Sb Gb) as (S1 & G1).
    - intros n t p Hk Hr. unfold V, mean3. destruct reality; [|reflexivity]. specialize (Hr eq_refl). unfold n_low in Hk. apply part3_ext. intros l m _ _.
      unfold real_mean3. replace (n <? 0) with false by lia. replace (n =? 0) with false by lia. reflexivity.
    - intros Q t p. unfold mean3, V. rewrite Q. apply part3_mean.
    - intros Q n t p Hk. unfold mean3, V. rewrite Q. now apply part3_neg.
    - replace (N - 1 + n0) with (if reality then N - 1 else 0) by exact Hst.
      split; [exact S1|]. intros g t p Hg Ht Hp. rewrite G1 by auto. rewrite so3_synth_parts. apply cr_ext. intros n Hk. now rewrite gamma_root by lia.
  Qed.
End Inv.

(** ** The entry point *)
Lemma given_wkernel gl b name s L N nside o forward reality kernel : setting name s L nside o -> 1 <= N <= L ->
  (s = GL -> vlen (gl_nodes gl L) = L /\ (forward = true -> vlen (gl_weights gl L) = L)) ->
  wkernel_given gl L N reality s name o forward kernel ->
  exists K w, match kernel with None => wigner_kernel b gl L N reality name o forward "auto" | Some k => Ok k end = Ok K /\
    (forward = true -> quad_weights_transform gl L (fname name s) 0 o = Ok w) /\
    is_arr4 K (n_dim N reality) (gn (kgrid gl s L nside forward)) L (2 * L - 1)
      (fun k t el i => wkval (kgrid gl s L nside forward) N forward w (kphase s nside forward) (n_low N reality + k) t el (i - (L - 1))).
Proof.
  intros S HN Hg [[-> H]|(b' & mode & K & -> & H & E)].
  - now apply wigner_kernel_lemma.
  - destruct (wigner_kernel_lemma b' gl name s L N nside o forward reality mode S HN Hg H) as (K' & w & E' & E2 & E3).
    exists K, w. rewrite E in E'. injection E' as <-. auto.
Qed.
Lemma pw_inverse_lemma gl method b s flmn L N kernel nside o reality :
  setting (scheme_name s) s L nside o -> 1 <= N <= L -> shape flmn = [2 * N - 1; L; 2 * L - 1] -> (s = GL -> vlen (gl_nodes gl L) = L) ->
  (s = HEALPIX -> 2 * nside <= L) -> runs_on method b -> wkernel_given gl L N reality s (scheme_name s) o false kernel ->
  exists f, pw_inverse gl flmn L N kernel (scheme_name s) reality method o = Ok f /\
    so3_holds (vat (gl_nodes gl L)) s L N nside f (so3_synth L N (mean3 reality (stored3 L N flmn))).
Proof.
  intros S HN Hf Hg Hh Hb HK. pose proof S as (Hd & HL & Hn). assert (Hn1 : s = HEALPIX -> 1 <= nside) by (intros Q; apply (Hn Q)).
  destruct (given_wkernel gl b (scheme_name s) s L N nside o false reality kernel S HN ltac:(intros Q; split; [auto|discriminate]) HK) as (K & w & EK & _ & HK').
  unfold pw_inverse. rewrite (runs_backend _ _ Hb). cbn [bind]. rewrite EK. cbn [bind].
  cbn [kgrid] in HK'. rewrite the_grid_n in HK'.
  destruct (pw_inverse_at b (th_of gl s L nside) s L N nside o reality flmn K S HN Hf Hh) as (f & E & Sf & Gf).
  - apply (is_arr4_ext _ _ _ _ _ _ _ HK'). intros k t el i _ _ _ _. unfold wkval, kphase. now rewrite the_grid_th.
  - exists f. split; [exact E|]. split; [exact Sf|]. intros g t p x Hg' Ht Hp Hx. rewrite (colat_unique gl s L nside t x) by auto. now apply Gf.
Qed.
(** the coefficients of the plane n = 0 of a real signal *)
Lemma mean3_used L N flmn reality n l m : (reality = true -> hermitian_plane L N flmn) -> 0 <= l < L -> - l <= m <= l ->
  mean3 reality (stored3 L N flmn) n l m = used3 reality 0 (stored3 L N flmn) n l m.
Proof.
  intros H Hl Hm. unfold mean3, used3. replace (l <? 0) with false by lia. destruct reality; [|reflexivity]. specialize (H eq_refl).
  unfold real_mean3, real_extension3. destruct (Z.ltb_spec n 0); cbn [orb]; [reflexivity|]. destruct (Z.eqb_spec n 0) as [->|]; cbn [andb]; [|reflexivity].
  rewrite (H l m Hl Hm). rewrite Cconj_mult, Cconj_R, Cconj_conj, Cmult_assoc, <- RtoC_mult, sgn_sq.
  assert (Q : ((stored3 L N flmn 0 l m + RtoC 1 * stored3 L N flmn 0 l m) / RtoC 2)%C = stored3 L N flmn 0 l m).
  { destruct (stored3 L N flmn 0 l m) as [u v]. unfold Cdiv, Cinv, Cmult, Cplus, RtoC. cbn. f_equal; field. }
  rewrite Q. destruct (m <? 0); [|reflexivity]. change (- 0) with 0. rewrite Z.add_0_r, (H l m Hl Hm), Cconj_mult, Cconj_R, Cconj_conj, Cmult_assoc, <- RtoC_mult, sgn_sq. ring.
Qed.
Lemma hermitian_plane_real L N flmn : hermitian_plane L N flmn -> forall l, 0 <= l < L -> is_real (stored3 L N flmn 0 l 0).
Proof.
  intros H l Hl. pose proof (H l 0 Hl ltac:(lia)) as Q. change (- 0) with 0 in Q. change (sgn 0) with 1%R in Q.
  destruct (stored3 L N flmn 0 l 0) as [u v]. unfold is_real, Cconj, RtoC, Cmult in *. cbn in *. injection Q as Q. lra.
Qed.
Lemma pw_inverse_real gl method b s flmn L N kernel nside o reality :
  setting (scheme_name s) s L nside o -> 1 <= N <= L -> shape flmn = [2 * N - 1; L; 2 * L - 1] -> (s = GL -> vlen (gl_nodes gl L) = L) ->
  (s = HEALPIX -> 2 * nside <= L) -> runs_on method b -> wkernel_given gl L N reality s (scheme_name s) o false kernel ->
  (reality = true -> hermitian_plane L N flmn) ->
  exists f, pw_inverse gl flmn L N kernel (scheme_name s) reality method o = Ok f /\
    so3_holds (vat (gl_nodes gl L)) s L N nside f (so3_synth L N (used3 reality 0 (stored3 L N flmn))).
Proof.
  intros S HN Hf Hg Hh Hb HK Hr. destruct (pw_inverse_lemma gl method b s flmn L N kernel nside o reality S HN Hf Hg Hh Hb HK) as (f & E & Sf & Gf).
  exists f. split; [exact E|]. split; [exact Sf|]. intros g t p x Hg' Ht Hp Hx. rewrite (Gf g t p x) by auto.
  apply so3_synth_ext. intros n l m Hk Hl Hm. apply mean3_used; auto. lia.
Qed.
Lemma pw_inverse_same gl method b s flmn L N kernel nside o reality :
  setting (scheme_name s) s L nside o -> 1 <= N <= L -> shape flmn = [2 * N - 1; L; 2 * L - 1] -> (s = GL -> vlen (gl_nodes gl L) = L) ->
  (s = HEALPIX -> 2 * nside <= L) -> runs_on method b -> wkernel_given gl L N reality s (scheme_name s) o false kernel ->
  rings_away (vat (gl_nodes gl L)) s L nside -> (reality = true -> hermitian_plane L N flmn) ->
  same_ok (pw_inverse gl flmn L N kernel (scheme_name s) reality method o) (wigner_inverse gl flmn L N 0 (scheme_name s) reality o).
Proof.
  intros S HN Hf Hg Hh Hb HK Ha Hr. destruct (pw_inverse_real gl method b s flmn L N kernel nside o reality S HN Hf Hg Hh Hb HK Hr) as (f & E & HF).
  destruct (wigner_inverse_lemma gl s L N 0 nside o reality flmn S ltac:(lia) ltac:(lia) Hf Hg Hh Ha) as (f' & E' & HF').
  { intros Q. now apply hermitian_plane_real, Hr. }
  exists f, f'. split; [exact E|]. split; [exact E'|]. apply (so3_holds_eq gl s L N nside o f f' _ _ S Ha HF HF'). reflexivity.
Qed.
