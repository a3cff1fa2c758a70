(** The kernels of the precomputed Wigner transforms hold the Wigner d-functions, whatever the mode. *)
From Coq Require Import Reals ZifyBool Lra.
From Coquelicot Require Import Complex.
From Verif Require Import Lib.Py Lib.PyFacts Lib.Vec Lib.VecFacts Lib.Sums Lib.Cplx Lib.Arr Lib.ArrFacts Lib.MatFacts
  Model.Index Model.Samples Model.Grids Model.FFT Model.HealpixFFT Model.Turok Model.Risbo Model.Resampling Model.Quadrature
  Model.Spherical Model.PriceMcEwen Model.Precompute Model.Wigner Model.FourierWigner Model.PrecomputeWigner
  Spec.SamplesSpec Spec.WignerSpec Spec.SphereSpec Spec.GridSpec Spec.HealpixFFTSpec Spec.SphericalSpec Spec.QuadSpec Spec.PrecomputeSpec Spec.PrecomputeWignerSpec
  Proofs.SamplesProofs Proofs.GridProofs Proofs.TurokProofs Proofs.RisboProofs Proofs.HealpixDFTProofs Proofs.SphereTheory Proofs.SphGrid
  Proofs.SphInverse Proofs.SphTop Proofs.SphForward Proofs.SphForwardTop Proofs.SphFacts Proofs.PrecomputeKernel Proofs.PrecomputeSph Proofs.WignerInverse Proofs.FWArrays.
Open Scope string_scope.
Open Scope Z_scope.

(** ** Arrays with four axes *)
Definition is_arr4 {T} (a : ndarray T) (n t l m : Z) (F : Z -> Z -> Z -> Z -> T) : Prop :=
  shape a = [n; t; l; m] /\ forall i j k p, 0 <= i < n -> 0 <= j < t -> 0 <= k < l -> 0 <= p < m -> at4 a i j k p = F i j k p.
Lemma is_arr4_arr4 {T} n t l m (F : Z -> Z -> Z -> Z -> T) : is_arr4 (arr4 n t l m F) n t l m F.
Proof. split; reflexivity. Qed.
Lemma is_arr4_ext {T} (a : ndarray T) n t l m F G : is_arr4 a n t l m F ->
  (forall i j k p, 0 <= i < n -> 0 <= j < t -> 0 <= k < l -> 0 <= p < m -> F i j k p = G i j k p) -> is_arr4 a n t l m G.
Proof. intros [H1 H2] H. split; [exact H1|]. intros. rewrite H2 by auto. now apply H. Qed.
Lemma is_arr4_dims {T} (a : ndarray T) n t l m F : is_arr4 a n t l m F -> dim0 a = n /\ dim1 a = t /\ dim2 a = l /\ dim3 a = m.
Proof. intros [H _]. unfold dim0, dim1, dim2, dim3. rewrite H. repeat split. Qed.
Lemma el_set_ok {T} (a b : ndarray T) n t l m F G el : is_arr4 a n t l m F -> is_arr3 b n t m G -> 0 <= el < l ->
  exists a', el_set a el b = Ok a' /\ is_arr4 a' n t l m (fun i j k p => if k =? el then G i j p else F i j k p).
Proof.
  intros Ha Hb He. unfold el_set. destruct (is_arr4_dims _ _ _ _ _ _ Ha) as (-> & -> & -> & ->). destruct (is_arr3_dims _ _ _ _ _ Hb) as (-> & -> & ->).
  rewrite norm_in, !Z.eqb_refl by auto. cbn [andb]. eexists. split; [reflexivity|]. eapply is_arr4_ext; [apply is_arr4_arr4|].
  intros i j k p Hi Hj Hk Hp. cbv beta. destruct (k =? el); [now apply (proj2 Hb)|now apply (proj2 Ha)].
Qed.
Lemma ntlm_t_ok a n t l m F (w : vec C) : is_arr4 a n t l m F -> vlen w = t ->
  exists r, einsum_ntlm_t a w = Ok r /\ is_arr4 r n t l m (fun i j k p => (F i j k p * vat w j)%C).
Proof.
  intros Ha Hw. unfold einsum_ntlm_t. destruct (is_arr4_dims _ _ _ _ _ _ Ha) as (-> & -> & -> & ->). rewrite Hw, Z.eqb_refl.
  eexists. split; [reflexivity|]. eapply is_arr4_ext; [apply is_arr4_arr4|]. intros. cbv beta. now rewrite (proj2 Ha).
Qed.
Lemma ntlm_l_ok a n t l m F (w : vec C) : is_arr4 a n t l m F -> vlen w = l ->
  exists r, einsum_ntlm_l a w = Ok r /\ is_arr4 r n t l m (fun i j k p => (F i j k p * vat w k)%C).
Proof.
  intros Ha Hw. unfold einsum_ntlm_l. destruct (is_arr4_dims _ _ _ _ _ _ Ha) as (-> & -> & -> & ->). rewrite Hw, Z.eqb_refl.
  eexists. split; [reflexivity|]. eapply is_arr4_ext; [apply is_arr4_arr4|]. intros. cbv beta. now rewrite (proj2 Ha).
Qed.
Lemma ntlm_tm_ok a b n t l m F G : is_arr4 a n t l m F -> is_mat b t m G ->
  exists r, einsum_ntlm_tm a b = Ok r /\ is_arr4 r n t l m (fun i j k p => (F i j k p * G j p)%C).
Proof.
  intros Ha Hb. unfold einsum_ntlm_tm. destruct (is_arr4_dims _ _ _ _ _ _ Ha) as (-> & -> & -> & ->).
  rewrite (is_mat_dim0 _ _ _ _ Hb), (is_mat_dim1 _ _ _ _ Hb), !Z.eqb_refl. cbn [andb].
  eexists. split; [reflexivity|]. eapply is_arr4_ext; [apply is_arr4_arr4|]. intros. cbv beta. rewrite (proj2 Ha) by auto. f_equal. now apply (proj2 Hb).
Qed.
Lemma ntlm_nlm_ok k a n t l m F G : is_arr4 k n t l m F -> is_arr3 a n l m G ->
  exists r, einsum_ntlm_nlm k a = Ok r /\ is_arr3 r n t m (fun i j p => csum (zrange 0 l) (fun q => (F i j q p * G i q p)%C)).
Proof.
  intros Ha Hb. unfold einsum_ntlm_nlm. destruct (is_arr4_dims _ _ _ _ _ _ Ha) as (-> & -> & -> & ->). destruct (is_arr3_dims _ _ _ _ _ Hb) as (-> & -> & ->).
  rewrite !Z.eqb_refl. cbn [andb]. eexists. split; [reflexivity|]. eapply is_arr3_ext; [apply is_arr3_arr3|].
  intros i j p Hi Hj Hp. cbv beta. apply cr_ext. intros q Hq. rewrite (proj2 Ha) by auto. f_equal. now apply (proj2 Hb).
Qed.
Lemma ntlm_ntm_ok k a n t l m F G : is_arr4 k n t l m F -> is_arr3 a n t m G ->
  exists r, einsum_ntlm_ntm k a = Ok r /\ is_arr3 r n l m (fun i q p => csum (zrange 0 t) (fun j => (F i j q p * G i j p)%C)).
Proof.
  intros Ha Hb. unfold einsum_ntlm_ntm. destruct (is_arr4_dims _ _ _ _ _ _ Ha) as (-> & -> & -> & ->). destruct (is_arr3_dims _ _ _ _ _ Hb) as (-> & -> & ->).
  rewrite !Z.eqb_refl. cbn [andb]. eexists. split; [reflexivity|]. eapply is_arr3_ext; [apply is_arr3_arr3|].
  intros i q p Hi Hq Hp. cbv beta. apply cr_ext. intros j Hj. rewrite (proj2 Ha) by auto. f_equal. now apply (proj2 Hb).
Qed.
Lemma amap4_ok {T} (g : T -> T) (a : ndarray T) n t l m F : is_arr4 a n t l m F -> is_arr4 (amap g a) n t l m (fun i j k p => g (F i j k p)).
Proof. intros [Hs Hg]. split; [exact Hs|]. intros. unfold amap, at4. cbn [get]. f_equal. now apply Hg. Qed.

(** ** The two ways to the d-functions *)
Section Modes.
  Variables (b : backend) (ths : vec R) (T L N n0 nd : Z).
  Hypothesis (HL : 1 <= L) (HT : vlen ths = T) (HN : N <= L) (Hn0 : - L < n0) (Hnd : nd = N - n0) (HNn : n0 < N).
  Definition wdval (k t el i : Z) : R := wigner_d el (i - (L - 1)) (n0 + k) (vat ths t).

  Lemma planes_take_ok dls l : 0 <= l < L -> 0 <= T -> Forall2 (holds L l) (map (vat ths) (zrange 0 T)) dls ->
    exists c, planes_take dls L (L - 1 + n0) (L - 1 + N) = Ok c /\ is_arr3 c nd T (2 * L - 1) (fun k t i => RtoC (wdval k t l i)).
  Proof using HL HT HN Hn0 Hnd HNn.
    intros Hl HT0 H. unfold planes_take. replace (forallb _ (zrange _ _)) with true.
    2: { symmetry. apply forallb_forall. intros i Hi. apply in_zrange in Hi. rewrite norm_in by lia. reflexivity. }
    eexists. split; [reflexivity|].
    assert (EL : Z.of_nat (List.length dls) = T) by (rewrite <- (Forall2_len _ _ _ H), map_length; apply zrange_length; lia).
    rewrite EL. replace (L - 1 + N - (L - 1 + n0)) with nd by lia.
    eapply is_arr3_ext; [apply is_arr3_arr3|]. intros k t i Hk Ht Hi. cbv beta. f_equal. rewrite norm_in by lia. unfold at2.
    pose proof (Forall2_nth _ _ _ 0%R (zeros 0%R []) (Z.to_nat t) H) as P. rewrite map_length in P.
    pose proof (zrange_length T HT0). specialize (P ltac:(lia)). destruct P as [_ P].
    rewrite (nth_indep _ 0%R (vat ths 0)) in P by (rewrite map_length; lia). rewrite map_nth, zrange_nth in P by lia.
    unfold wdval. rewrite <- (P (i - (L - 1)) (n0 + k)) by lia.
    replace (i - (L - 1) + L - 1) with i by lia. replace (n0 + k + L - 1) with (L - 1 + n0 + k) by lia. reflexivity.
  Qed.

  Lemma wkernel_direct_ok : 0 <= T ->
    exists a, wkernel_direct b ths L N n0 nd = Ok a /\ is_arr4 a nd T L (2 * L - 1) (fun k t el i => RtoC (wdval k t el i)).
  Proof using HL HT HN Hn0 Hnd HNn.
    intros HT0. unfold wkernel_direct. rewrite HT. cbv zeta.
    set (betas := map (vat ths) (zrange 0 T)).
    destruct (foldM_inv (fun el st =>
        Forall2 (fun beta dl => if el =? 0 then arr_eq dl (zeros 0%R [2 * L - 1; 2 * L - 1]) else holds L (el - 1) beta dl) betas (fst st) /\
        is_arr4 (snd st) nd T L (2 * L - 1) (fun k t j i => if j <? el then RtoC (wdval k t j i) else RtoC 0))
      (fun st el =>
        let* delta := risbo_planes b (fst st) betas L el in
        let* c := planes_take delta L (L - 1 + n0) (L - 1 + N) in
        let* dl := el_set (snd st) el c in
        Ok (delta, dl)) 0 L (map (fun _ => zeros 0%R [2 * L - 1; 2 * L - 1]) betas, zeros (RtoC 0) [nd; T; L; 2 * L - 1])) as (st & E & H1 & H2).
    - lia.
    - cbn [fst snd]. split.
      + apply Forall2_map_const. intros. cbn [Z.eqb]. apply arr_eq_refl.
      + split; [reflexivity|]. intros. cbv beta. now zif.
    - intros el [dls dl] Hel [H1 H2]. cbn [fst snd] in *.
      destruct (risbo_planes_ok b L el betas dls Hel H1) as (out & -> & Ho). cbn [bind].
      destruct (planes_take_ok out el Hel HT0 Ho) as (c & -> & Hc). cbn [bind].
      destruct (el_set_ok dl c _ _ _ _ _ _ el H2 Hc Hel) as (dl' & -> & Hd). cbn [bind]. eexists. split; [reflexivity|]. cbn [fst snd].
      split.
      + replace (el + 1 =? 0) with false by lia. replace (el + 1 - 1) with el by lia. exact Ho.
      + apply (is_arr4_ext _ _ _ _ _ _ _ Hd). intros k t j i Hk Ht Hj Hi. cbv beta.
        destruct (Z.eqb_spec j el); [subst j; now zif|]. replace (j <? el + 1) with (j <? el) by lia. reflexivity.
    - rewrite E. cbn [bind]. exists (snd st). split; [reflexivity|]. apply (is_arr4_ext _ _ _ _ _ _ _ H2).
      intros. cbv beta. now zif.
  Qed.

  Lemma fourier_slices_ok delta th0 l : 0 <= l < L -> holds L l (PI / 2) delta ->
    exists a, fourier_slices delta th0 L N n0 = Ok a /\
      is_arr3 a (2 * L - 1) (2 * L - 1) nd (fun r i k => xterm L l (- (n0 + k)) (i - (L - 1)) th0 (r - (L - 1))).
  Proof using HL HN Hn0 Hnd HNn.
    intros Hl HD. apply holds_mat in HD. unfold fourier_slices.
    destruct (take_last2_ok delta _ _ _ (L - 1 + n0) (L - 1 + N) HD ltac:(lia) ltac:(lia)) as (dn & -> & Hdn). cbn [bind].
    rewrite (is_mat_dim0 _ _ _ _ HD), (is_mat_dim1 _ _ _ _ HD), !Z.eqb_refl. cbn [andb]. cbv zeta. eexists. split; [reflexivity|].
    cbn [dim0 dim1 dim2 arr3 shape nth]. rewrite <- Hnd. eapply is_arr3_ext; [apply is_arr3_arr3|]. intros r i k Hr Hi Hk. cbv beta.
    unfold at3. cbn [get arr3 nth]. rewrite (proj2 HD) by auto. rewrite (proj2 Hdn) by lia. unfold xterm.
    rewrite Z.opp_involutive. replace (L - 1 + n0 + k - (L - 1)) with (n0 + k) by lia.
    replace (n0 + k - (i - (L - 1))) with (- (i - (L - 1)) + (n0 + k)) by lia. unfold Precompute.ipow.
    rewrite (plus_IZR (- (i - (L - 1)))), Rmult_plus_distr_r, cis_plus. ring.
  Qed.

  Lemma wkernel_fourier_ok name : equidistant L (kernel_nsamps name T) T (vat ths) ->
    exists a, wkernel_fourier b name ths L N n0 nd = Ok a /\ is_arr4 a nd T L (2 * L - 1) (fun k t el i => RtoC (wdval k t el i)).
  Proof using HL HT HN Hn0 Hnd HNn.
    intros EQ. unfold wkernel_fourier. rewrite HT. cbv zeta. pose proof (eq_le _ _ _ _ EQ) as HTn.
    set (n := kernel_nsamps name T) in *.
    destruct (foldM_inv (fun el st =>
        (if el =? 0 then arr_eq (fst st) (zeros 0%R [2 * L - 1; 2 * L - 1]) else holds L (el - 1) (PI / 2) (fst st)) /\
        is_arr4 (snd st) nd T L (2 * L - 1) (fun k t j i => if j <? el then RtoC (wdval k t j i) else RtoC 0))
      (fun st el =>
        let* delta := risbo_plane b (fst st) (PI / 2) L el in
        let* th0 := vread ths 0 in
        let* temp := fourier_slices delta th0 L N n0 in
        let* dl := el_set (snd st) el
          (arr3 (dim2 (map3_0 (fun v => vslice v 0 T) (map3_0 (fun v => irfft_fwd v n) (planes_from temp (L - 1)))))
                (dim0 (map3_0 (fun v => vslice v 0 T) (map3_0 (fun v => irfft_fwd v n) (planes_from temp (L - 1)))))
                (dim1 (map3_0 (fun v => vslice v 0 T) (map3_0 (fun v => irfft_fwd v n) (planes_from temp (L - 1)))))
                (fun n' t m => at3 (map3_0 (fun v => vslice v 0 T) (map3_0 (fun v => irfft_fwd v n) (planes_from temp (L - 1)))) t m n')) in
        Ok (delta, dl)) 0 L (zeros 0%R [2 * L - 1; 2 * L - 1], zeros (RtoC 0) [nd; T; L; 2 * L - 1])) as (st & E & H1 & H2).
    - lia.
    - cbn [fst snd]. split.
      + cbn [Z.eqb]. apply arr_eq_refl.
      + split; [reflexivity|]. intros. cbv beta. now zif.
    - intros el [dls dl] Hel [H1 H2]. cbn [fst snd] in *.
      destruct (risbo_plane_ok b L el dls Hel H1) as (delta & -> & Ho). cbn [bind].
      assert (RD : vread ths 0 = Ok (vat ths 0)) by (unfold vread; rewrite HT, norm_in by lia; reflexivity).
      rewrite RD. cbn [bind].
      destruct (fourier_slices_ok delta (vat ths 0) el Hel Ho) as (temp & -> & Ht). cbn [bind].
      assert (M1 := planes_from_ok _ _ _ _ _ (L - 1) Ht ltac:(lia)). replace (2 * L - 1 - (L - 1)) with L in M1 by lia.
      assert (M2 : is_arr3 (map3_0 (fun v => irfft_fwd v n) (planes_from temp (L - 1))) n (2 * L - 1) nd
        (fun t i k => vat (irfft_fwd (mkVec L (xterm L el (- (n0 + k)) (i - (L - 1)) (vat ths 0))) n) t)).
      { eapply is_arr3_ext; [eapply map3_0_ok; [exact M1|apply SphInverse.vext_irfft|reflexivity]|]. intros t i k Ht' Hi Hk. cbv beta.
        assert (VE : veq (mkVec L (fun r => xterm L el (- (n0 + k)) (i - (L - 1)) (vat ths 0) (L - 1 + r - (L - 1))))
                         (mkVec L (xterm L el (- (n0 + k)) (i - (L - 1)) (vat ths 0)))).
        { split; [reflexivity|]. cbn [vat]. intros r _. f_equal; lia. }
        destruct (SphInverse.vext_irfft n _ _ VE) as [_ VV]. apply VV. exact Ht'. }
      assert (M3 := map3_0_ok (fun v => vslice v 0 T) _ _ _ _ T _ M2 (vext_slice (fun v => v) 0 T ltac:(intros v w Q; exact Q))
        ltac:(intros v Hv; cbn [vslice vlen]; rewrite Hv; unfold slice_len, slice_lo, clamp; repeat zif; lia)).
      set (r := map3_0 (fun v => vslice v 0 T) _) in *. clearbody r. destruct (is_arr3_dims _ _ _ _ _ M3) as (-> & -> & ->).
      assert (M4 : is_arr3 (arr3 nd T (2 * L - 1) (fun n' t m => at3 r t m n')) nd T (2 * L - 1) (fun k t i => RtoC (wdval k t el i))).
      { eapply is_arr3_ext; [apply is_arr3_arr3|]. intros k t i Hk Ht' Hi. cbv beta. rewrite (proj2 M3) by auto. cbn [vslice vat vlen].
        replace (slice_lo n 0) with 0 by (unfold slice_lo, clamp; repeat zif; lia). rewrite Z.add_0_l.
        rewrite (fourier_value L el (- (n0 + k)) _ n T) by auto. unfold wdval. now rewrite Z.opp_involutive. }
      destruct (el_set_ok dl _ _ _ _ _ _ _ el H2 M4 Hel) as (dl' & -> & Hd). cbn [bind]. eexists. split; [reflexivity|]. cbn [fst snd].
      split.
      + replace (el + 1 =? 0) with false by lia. replace (el + 1 - 1) with el by lia. exact Ho.
      + apply (is_arr4_ext _ _ _ _ _ _ _ Hd). intros k t j i Hk Ht' Hj Hi. cbv beta.
        destruct (Z.eqb_spec j el); [subst j; now zif|]. replace (j <? el + 1) with (j <? el) by lia. reflexivity.
    - rewrite E. cbn [bind]. exists (snd st). split; [reflexivity|]. apply (is_arr4_ext _ _ _ _ _ _ _ H2).
      intros. cbv beta. now zif.
  Qed.
End Modes.

(** ** The kernels *)
Definition n_dim (N : Z) (reality : bool) : Z := if reality then N else 2 * N - 1.
Definition n_low (N : Z) (reality : bool) : Z := if reality then 0 else 1 - N.
(** the entry of the kernel for the ring t and (n, l, m) *)
Definition wkval (g : grid) (N : Z) (forward : bool) (w : vec R) (ph : Z -> Z -> C) (n t el m : Z) : C :=
  (RtoC (wigner_d el m n (gth g t) * (if forward then vat w t * (2 * PI / IZR (2 * N - 1)) else IZR (2 * el + 1) / (8 * PI ^ 2))) * ph t m)%C.

Lemma wigner_mode_ok name s L nside o N mode : setting name s L nside o -> mode_ok mode s L ->
  exists m', wigner_mode mode name L N = Ok m' /\ (lower m' = "direct" \/ (lower m' = "fft" /\ uniform_rings s)).
Proof.
  intros (Hd & HL & Hn) HM. unfold wigner_mode. unfold denotes in Hd. rewrite Hd.
  assert (U : str_in (scheme_name s) ["mw"; "mwss"; "dh"] = match s with MW | MWSS | DH => true | _ => false end) by (now destruct s).
  rewrite U. destruct HM as [H|[(H & HU)|(H & HU)]]; rewrite H.
  - change (streq "direct" "fft") with false. change (streq "direct" "auto") with false. cbn [andb]. exists mode. auto.
  - change (streq "fft" "fft") with true. change (streq "fft" "auto") with false. exists mode. split; [|auto].
    destruct HU as [->|[->| ->]]; reflexivity.
  - change (streq "auto" "fft") with false. change (streq "auto" "auto") with true. cbn [andb]. cbv iota.
    destruct s eqn:ES;
      try (eexists; split; [reflexivity|]; left; reflexivity);
      (destruct HU as [HU|HU]; [|exfalso; apply HU; unfold uniform_rings; tauto]);
      (replace (L =? 1) with false by lia);
      (eexists; split; [reflexivity|]); destruct (Rle_dec _ _); [right; split; [reflexivity|unfold uniform_rings; tauto]|left; reflexivity
      |right; split; [reflexivity|unfold uniform_rings; tauto]|left; reflexivity|right; split; [reflexivity|unfold uniform_rings; tauto]|left; reflexivity].
Qed.

Lemma wigner_kernel_lemma b gl name s L N nside o forward reality mode : setting name s L nside o -> 1 <= N <= L ->
  (s = GL -> vlen (gl_nodes gl L) = L /\ (forward = true -> vlen (gl_weights gl L) = L)) -> mode_ok mode s L ->
  exists K w, wigner_kernel b gl L N reality name o forward mode = Ok K /\
    (forward = true -> quad_weights_transform gl L (fname name s) 0 o = Ok w) /\
    is_arr4 K (n_dim N reality) (gn (kgrid gl s L nside forward)) L (2 * L - 1)
      (fun k t el i => wkval (kgrid gl s L nside forward) N forward w (kphase s nside forward) (n_low N reality + k) t el (i - (L - 1))).
Proof.
  intros S HN Hg HM. assert (S' := S). destruct S' as (Hd & HL & Hn).
  destruct (kernel_thetas_ok gl name s L nside o forward S ltac:(intros Q; apply (Hg Q))) as (ths & ET & HV & HT).
  assert (GN := kgrid_n gl s L nside forward HL ltac:(intros Q; apply (Hn Q))).
  destruct (wigner_mode_ok name s L nside o N mode S HM) as (m' & EM & HM').
  unfold wigner_kernel. rewrite EM. cbn [bind]. rewrite ET. cbn [bind]. cbv zeta.
  replace ((if reality then N - 1 else 0) - N + 1) with (n_low N reality) by (unfold n_low; destruct reality; lia).
  fold (n_dim N reality). set (T := gn (kgrid gl s L nside forward)) in *.
  assert (Hlo : - L < n_low N reality) by (unfold n_low; destruct reality; lia).
  assert (Hhi : n_low N reality < N) by (unfold n_low; destruct reality; lia).
  assert (Hnd : n_dim N reality = N - n_low N reality) by (unfold n_low, n_dim; destruct reality; lia).
  assert (DL : exists dl, (if streq (lower m') "direct" then wkernel_direct b ths L N (n_low N reality) (n_dim N reality)
      else if streq (lower m') "fft" then wkernel_fourier b (kname name s forward) ths L N (n_low N reality) (n_dim N reality) else Err ValueError) = Ok dl /\
      is_arr4 dl (n_dim N reality) T L (2 * L - 1) (fun k t el i => RtoC (wigner_d el (i - (L - 1)) (n_low N reality + k) (gth (kgrid gl s L nside forward) t)))).
  { assert (W : forall dl, is_arr4 dl (n_dim N reality) T L (2 * L - 1) (fun k t el i => RtoC (wdval ths L (n_low N reality) k t el i)) ->
       is_arr4 dl (n_dim N reality) T L (2 * L - 1) (fun k t el i => RtoC (wigner_d el (i - (L - 1)) (n_low N reality + k) (gth (kgrid gl s L nside forward) t)))).
    { intros dl H. apply (is_arr4_ext _ _ _ _ _ _ _ H). intros k t el i Hk Ht Hel Hi. unfold wdval. now rewrite HT. }
    destruct HM' as [HM'|(HM' & HU)]; rewrite HM'.
    - change (streq "direct" "direct") with true. cbv iota.
      destruct (wkernel_direct_ok b ths T L N (n_low N reality) (n_dim N reality)) as (dl & E & H); try lia; auto. exists dl. auto.
    - change (streq "fft" "direct") with false. change (streq "fft" "fft") with true. cbv iota.
      destruct (wkernel_fourier_ok b ths T L N (n_low N reality) (n_dim N reality) HL HV) with (name := kname name s forward) as (dl & E & H); try lia.
      + pose proof (kgrid_equi gl name s L nside o forward S HU) as [Q1 Q2 Q3 Q4 Q5]. split; auto. intros t Ht.
        rewrite !HT by (unfold T in *; lia). now apply Q5.
      + exists dl. auto. }
  destruct DL as (dl & EDL & HDL). cbv zeta in EDL. rewrite EDL. cbn [bind]. clear EDL.
  assert (HW : exists w dl', (if forward then let* w := quad_weights_transform gl L (kname name s forward) 0 o in
         let* dl := einsum_ntlm_t dl (vmap RtoC w) in Ok (amap (fun z => (z * RtoC (2 * PI / IZR (2 * N - 1)))%C) dl)
      else einsum_ntlm_l dl (mkVec L (fun l => RtoC (IZR (2 * l + 1) / (8 * PI ^ 2))))) = Ok dl' /\
    (forward = true -> quad_weights_transform gl L (fname name s) 0 o = Ok w) /\
    is_arr4 dl' (n_dim N reality) T L (2 * L - 1) (fun k t el i =>
      RtoC (wigner_d el (i - (L - 1)) (n_low N reality + k) (gth (kgrid gl s L nside forward) t) *
            (if forward then vat w t * (2 * PI / IZR (2 * N - 1)) else IZR (2 * el + 1) / (8 * PI ^ 2))))).
  { destruct forward.
    - destruct (weights_ok gl name s L nside o Hd HL Hn ltac:(intros Q; apply (Hg Q); reflexivity)) as (w & E & Hw). cbn [kname]. rewrite E. cbn [bind].
      destruct (ntlm_t_ok dl _ _ _ _ _ (vmap RtoC w) HDL Hw) as (dl' & E' & HA). rewrite E'. cbn [bind]. exists w. eexists. split; [reflexivity|].
      split; [auto|]. eapply is_arr4_ext; [apply amap4_ok; exact HA|]. intros. cbv beta. cbn [vmap vat]. rewrite <- !RtoC_mult. f_equal. ring.
    - destruct (ntlm_l_ok dl _ _ _ _ _ (mkVec L (fun l => RtoC (IZR (2 * l + 1) / (8 * PI ^ 2)))) HDL eq_refl) as (dl' & E' & HA).
      exists (vconst 0 0%R), dl'. split; [exact E'|]. split; [discriminate|]. apply (is_arr4_ext _ _ _ _ _ _ _ HA).
      intros. cbv beta. cbn [vat]. now rewrite <- RtoC_mult. }
  destruct HW as (w & dl' & EW & Hw & HA). rewrite EW. cbn [bind]. clear EW.
  assert (IH : is_hp (kname name s forward) = match s with HEALPIX => true | _ => false end).
  { unfold is_hp. replace (lower (kname name s forward)) with (scheme_name (kscheme s forward)).
    - destruct forward, s; reflexivity.
    - symmetry. unfold denotes in Hd. destruct forward; [|exact Hd]. destruct s; try exact Hd; reflexivity. }
  rewrite IH. assert (D : s = HEALPIX \/ s <> HEALPIX) by (destruct s; auto; right; discriminate).
  destruct D as [D|D].
  - destruct (Hn D) as [Hn1 Hn2]. subst s o. cbn [need bind].
    destruct (construct_shifts_ok L nside forward HL Hn1) as (ph & -> & Hph). cbn [bind].
    assert (GE : T = 4 * nside - 1) by (unfold T; destruct forward; reflexivity). rewrite GE in *.
    destruct (ntlm_tm_ok dl' _ _ _ _ _ _ _ HA Hph) as (K & -> & HK). exists K, w. split; [reflexivity|]. split; [exact Hw|].
    apply (is_arr4_ext _ _ _ _ _ _ _ HK). intros k t el i Hk Ht Hel Hi. unfold wkval. f_equal.
    unfold kphase. cbn [phase_of]. replace (1 - L + i) with (i - (L - 1)) by lia. unfold shift_sign.
    destruct forward; [rewrite cis_conj|]; f_equal; ring.
  - replace (match s with HEALPIX => true | _ => false end) with false by (destruct s; congruence).
    exists dl', w. split; [reflexivity|]. split; [exact Hw|].
    apply (is_arr4_ext _ _ _ _ _ _ _ HA). intros k t el i Hk Ht Hel Hi. unfold wkval.
    replace (kphase s nside forward t (i - (L - 1))) with (RtoC 1); [ring|].
    unfold kphase. destruct s; try congruence; cbn [phase_of]; destruct forward; try rewrite Cconj_R; reflexivity.
Qed.
