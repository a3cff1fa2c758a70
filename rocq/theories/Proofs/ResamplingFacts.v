(** C16-C18, C20: consequences for signals, arbitrary arrays and both back ends. *)
From Coq Require Import Reals Lra Lia ZifyBool.
From Coquelicot Require Import Complex.
From Verif Require Import Lib.Py Lib.PyFacts Lib.Vec Lib.VecFacts Lib.Sums Lib.Cplx Lib.Arr Lib.MatFacts
  Model.Samples Model.FFT Model.Resampling Spec.WignerSpec Spec.SphereSpec Proofs.ResamplingProofs.
Open Scope Z_scope.

Lemma band_limited_F2 L s F : band_limited L s F ->
  exists a, (forall k m, - L < k < L -> - L < m < L -> a (- k) m = (RtoC (sgn (m + s)) * a k m)%C) /\
    forall theta phi, F theta phi = F2 L a theta phi.
Proof.
  intros (a & Hp & HF). exists a. split; [exact Hp|]. intros. rewrite HF, F2_k.
  apply cr_ext. intros k _. unfold Fk. rewrite <- cs_scal_r. apply cr_ext. intros m _. ring.
Qed.

Lemma sampled_is_mat f n m th ph F : sampled f n m th ph F <-> is_mat f n m (fun t p => F (th t) (ph p)).
Proof. reflexivity. Qed.

Lemma sampled_ext f n m th ph F G : (forall x y, F x y = G x y) -> sampled f n m th ph F -> sampled f n m th ph G.
Proof. intros E (H & H'). split; auto. intros. now rewrite <- E, H'. Qed.

Lemma C16_lemma b L s F f : 1 <= L -> band_limited L s F ->
  sampled f L (2 * L - 1) (mw_theta L) (mw_phi L) F ->
  exists g, mw_to_mwss b f L s = Ok g /\ sampled g (L + 1) (2 * L) (mwss_theta L) (mwss_phi L) F.
Proof.
  intros HL HF Hf. destruct (band_limited_F2 L s F HF) as (a & Hp & E).
  apply (sampled_ext _ _ _ _ _ _ _ E) in Hf.
  destruct (mw_to_mwss_ok L s a HL Hp b f Hf) as (g & Eg & Hg). exists g. split; [exact Eg|].
  apply (sampled_ext _ _ _ _ _ (F2 L a)); [now intros; rewrite E|exact Hg].
Qed.

Lemma C17_lemma b L s F f : 1 <= L -> band_limited L s F ->
  sampled f (L + 1) (2 * L) (mwss_theta L) (mwss_phi L) F ->
  exists g, upsample_by_two_mwss b f L s = Ok g /\ sampled g (2 * L + 1) (2 * L) (mwss_theta (2 * L)) (mwss_phi L) F.
Proof.
  intros HL HF Hf. destruct (band_limited_F2 L s F HF) as (a & Hp & E).
  apply (sampled_ext _ _ _ _ _ _ _ E) in Hf.
  destruct (upsample_ok L s a HL Hp b f Hf) as (g & Eg & Hg). exists g. split; [exact Eg|].
  apply (sampled_ext _ _ _ _ _ (F2 L a)); [now intros; rewrite E|exact Hg].
Qed.

Lemma C17_down_lemma b L f : 1 <= L -> shape f = [2 * L; 2 * L] ->
  exists u g, upsample_by_two_mwss_ext b f L = Ok u /\ shape u = [4 * L; 2 * L] /\
    downsample_by_two_mwss u (2 * L) = Ok g /\ arr_eq g f.
Proof.
  intros HL Hs. destruct (upsample_ext_ok b f L _ HL (is_mat_self f _ _ Hs)) as (u & E & Hu).
  exists u. unfold downsample_by_two_mwss. replace (2 * L mod 2 =? 0) with true.
  2:{ symmetry. apply Z.eqb_eq. rewrite Z.mul_comm. now apply Z.mod_mul. }
  cbn [negb]. eexists. split; [exact E|]. split; [exact (proj1 Hu)|]. split; [reflexivity|].
  rewrite (is_mat_dim0 _ _ _ _ Hu), (is_mat_dim1 _ _ _ _ Hu).
  replace (4 * L / 2) with (2 * L) by (replace (4 * L) with (2 * L * 2) by lia; now rewrite Z.div_mul).
  apply (is_mat_eq _ _ (2 * L) (2 * L) (at2 f)); [|now apply is_mat_self].
  split; [reflexivity|]. intros r c Hr Hc. change (at2 u (2 * r) c = at2 f r c).
  rewrite (proj2 Hu) by lia. apply upsample_even; auto.
Qed.

(** on the [0, pi] domain downsampling loses the last ring *)
Lemma C17_down_half_lemma b L s f : 1 <= L -> shape f = [L + 1; 2 * L] ->
  exists u g, upsample_by_two_mwss b f L s = Ok u /\ downsample_by_two_mwss u (2 * L) = Ok g /\ shape g = [L; 2 * L].
Proof.
  intros HL Hs. unfold upsample_by_two_mwss.
  destruct (spatial_ok f L s _ HL (is_mat_self f _ _ Hs)) as (g1 & -> & H1). cbn [bind].
  destruct (upsample_ext_ok b g1 L _ HL H1) as (g2 & -> & H2). cbn [bind].
  replace (4 * L) with (2 * (2 * L)) in H2 at 1 by lia.
  destruct (unextend_mwss_ok b g2 (2 * L) (2 * L) _ ltac:(lia) ltac:(lia) ltac:(lia) H2) as (u & -> & Hu).
  exists u. unfold downsample_by_two_mwss. replace (2 * L mod 2 =? 0) with true.
  2:{ symmetry. apply Z.eqb_eq. rewrite Z.mul_comm. now apply Z.mod_mul. }
  cbn [negb]. eexists. split; [reflexivity|]. split; [reflexivity|].
  rewrite (is_mat_dim0 _ _ _ _ Hu), (is_mat_dim1 _ _ _ _ Hu). cbn [shape mat].
  replace ((2 * L + 1) / 2) with L; [reflexivity|].
  rewrite Z.add_comm, (Z.mul_comm 2 L), Z.div_add by lia. reflexivity.
Qed.

(** ** periodic extension *)
Lemma ext_mw b (f : ndarray C) L s F : 1 <= L -> is_mat f L (2 * L - 1) F ->
  exists g, periodic_extension b f L s "mw" = Ok g /\ is_mat g (2 * L - 1) (2 * L - 1) (ext_rows L s 0 (2 * L - 1) F).
Proof.
  intros HL Hf. apply extension_ok; auto; try lia; rewrite Z.add_0_r; auto.
Qed.
Lemma ext_mwss b (f : ndarray C) L s F : 1 <= L -> is_mat f (L + 1) (2 * L) F ->
  exists g, periodic_extension b f L s "mwss" = Ok g /\ is_mat g (2 * L) (2 * L) (ext_rows L s 1 (2 * L) F).
Proof. intros HL Hf. apply extension_ok; auto; lia. Qed.

Lemma ext_rows_lo L s mo n F r p : r < L + mo -> ext_rows L s mo n F r p = F r p.
Proof. intros. unfold ext_rows. now zif. Qed.

Lemma cis_half_root n m q : cis (- (IZR m * (2 * PI * IZR q / IZR n))) = root n (- (m * q)).
Proof. unfold root. f_equal. rewrite opp_IZR, mult_IZR. unfold Rdiv. ring. Qed.

Lemma ext_rows_hi L s mo n F r p : 0 < n -> L + mo <= r ->
  ext_rows L s mo n F r p = (RtoC (sgn s) * trig_fit L n (F (2 * L - 2 + 2 * mo - r)%Z) (2 * PI * IZR p / IZR n + PI))%C.
Proof.
  intros Hn Hr. unfold ext_rows. zif. unfold trig_fit, Cdiv. rewrite <- cs_scal_r, <- cs_scal_l. apply cr_ext. intros m Hm.
  rewrite Rmult_plus_distr_l, cis_plus, cis_kPI, cis_root, sgn_add, RtoC_mult.
  replace (csum (zrange 0 n) (fun q => (F (2 * L - 2 + 2 * mo - r)%Z q * cis (- (IZR m * (2 * PI * IZR q / IZR n))))%C))
    with (dft n (F (2 * L - 2 + 2 * mo - r)) m); [ring|].
  unfold dft. apply cr_ext. intros q Hq. now rewrite cis_half_root.
Qed.

Lemma C18_mw_lemma b L s f : 1 <= L -> shape f = [L; 2 * L - 1] ->
  exists g, periodic_extension b f L s "mw" = Ok g /\ shape g = [2 * L - 1; 2 * L - 1] /\
    (forall t p, 0 <= t < L -> 0 <= p < 2 * L - 1 -> get g [t; p] = get f [t; p]) /\
    (forall t p, L <= t < 2 * L - 1 -> 0 <= p < 2 * L - 1 -> get g [t; p] =
      (RtoC (sgn s) * trig_fit L (2 * L - 1) (fun q => get f [(2 * L - 2 - t)%Z; q]) (mw_phi L p + PI))%C).
Proof.
  intros HL Hs. destruct (ext_mw b f L s _ HL (is_mat_self f _ _ Hs)) as (g & E & Hg).
  exists g. split; [exact E|]. split; [exact (proj1 Hg)|]. pose proof (proj2 Hg) as Hv. unfold at2 at 1 in Hv. split; intros t p Ht Hp.
  - rewrite Hv, ext_rows_lo by lia. reflexivity.
  - rewrite Hv, ext_rows_hi by lia. do 2 f_equal.
    now replace (2 * L - 2 + 2 * 0 - t) with (2 * L - 2 - t) by lia.
Qed.
Lemma C18_mwss_lemma b L s f : 1 <= L -> shape f = [L + 1; 2 * L] ->
  exists g, periodic_extension b f L s "mwss" = Ok g /\ shape g = [2 * L; 2 * L] /\
    (forall t p, 0 <= t < L + 1 -> 0 <= p < 2 * L -> get g [t; p] = get f [t; p]) /\
    (forall t p, L + 1 <= t < 2 * L -> 0 <= p < 2 * L -> get g [t; p] =
      (RtoC (sgn s) * trig_fit L (2 * L) (fun q => get f [(2 * L - t)%Z; q]) (mwss_phi L p + PI))%C).
Proof.
  intros HL Hs. destruct (ext_mwss b f L s _ HL (is_mat_self f _ _ Hs)) as (g & E & Hg).
  exists g. split; [exact E|]. split; [exact (proj1 Hg)|]. pose proof (proj2 Hg) as Hv. unfold at2 at 1 in Hv. split; intros t p Ht Hp.
  - rewrite Hv, ext_rows_lo by lia. reflexivity.
  - rewrite Hv, ext_rows_hi by lia. do 2 f_equal.
    now replace (2 * L - 2 + 2 * 1 - t) with (2 * L - t) by lia.
Qed.

(** band-limited signals: the samples on the whole circle *)
Lemma C18_signal_mw_lemma b L s F f : 1 <= L -> band_limited L s F ->
  sampled f L (2 * L - 1) (mw_theta L) (mw_phi L) F ->
  exists g, periodic_extension b f L s "mw" = Ok g /\
    sampled g (2 * L - 1) (2 * L - 1) (mw_theta L) (mw_phi L) F.
Proof.
  intros HL HF Hf. destruct (band_limited_F2 L s F HF) as (a & Hp & E).
  destruct (ext_mw b f L s _ HL Hf) as (g & Eg & Hg). exists g. split; [exact Eg|].
  apply (is_mat_ext _ _ _ _ _ Hg). intros r c Hr Hc. rewrite E.
  apply (ext_F2 L s a HL Hp 0 (2 * L - 1) (mw_theta L)); auto; try lia.
  intros. now apply mw_theta_mirror.
Qed.
Lemma C18_signal_mwss_lemma b L s F f : 1 <= L -> band_limited L s F ->
  sampled f (L + 1) (2 * L) (mwss_theta L) (mwss_phi L) F ->
  exists g, periodic_extension b f L s "mwss" = Ok g /\
    sampled g (2 * L) (2 * L) (mwss_theta L) (mwss_phi L) F.
Proof.
  intros HL HF Hf. destruct (band_limited_F2 L s F HF) as (a & Hp & E).
  destruct (ext_mwss b f L s _ HL Hf) as (g & Eg & Hg). exists g. split; [exact Eg|].
  apply (is_mat_ext _ _ _ _ _ Hg). intros r c Hr Hc. rewrite E.
  apply (ext_F2 L s a HL Hp 1 (2 * L) (mwss_theta L)); auto; try lia.
  intros. now apply mwss_theta_mirror.
Qed.

Lemma C18_unextend_lemma b L s f sampling n m : 1 <= L ->
  (sampling = "mw"%string /\ n = L /\ m = 2 * L - 1) \/ (sampling = "mwss"%string /\ n = L + 1 /\ m = 2 * L) ->
  shape f = [n; m] ->
  exists g f', periodic_extension b f L s sampling = Ok g /\ unextend b g L sampling = Ok f' /\ arr_eq f' f.
Proof.
  intros HL [(-> & -> & ->)|(-> & -> & ->)] Hs.
  - destruct (ext_mw b f L s _ HL (is_mat_self f _ _ Hs)) as (g & E & Hg).
    destruct (unextend_mw_ok b g L (2 * L - 1) _ HL ltac:(lia) Hg) as (f' & E' & Hf').
    exists g, f'. repeat split; auto; apply (is_mat_eq _ _ L (2 * L - 1) (at2 f)); try apply is_mat_self; auto;
    apply (is_mat_ext _ _ _ _ _ Hf'); intros; apply ext_rows_lo; lia.
  - destruct (ext_mwss b f L s _ HL (is_mat_self f _ _ Hs)) as (g & E & Hg).
    destruct (unextend_mwss_ok b g L (2 * L) _ ltac:(lia) ltac:(lia) ltac:(lia) Hg) as (f' & E' & Hf').
    exists g, f'. repeat split; auto; apply (is_mat_eq _ _ (L + 1) (2 * L) (at2 f)); try apply is_mat_self; auto;
    apply (is_mat_ext _ _ _ _ _ Hf'); intros; apply ext_rows_lo; lia.
Qed.

Lemma C18_spatial_lemma L s f : 1 <= L -> shape f = [L + 1; 2 * L] ->
  exists g, periodic_extension_spatial_mwss f L s = Ok g /\ shape g = [2 * L; 2 * L] /\
    (forall t p, 0 <= t < L + 1 -> 0 <= p < 2 * L -> get g [t; p] = get f [t; p]) /\
    (forall t p, 1 <= t < L -> 0 <= p < 2 * L ->
      get g [2 * L - t; (p + L) mod (2 * L)] = (RtoC (sgn s) * get f [t; p])%C).
Proof.
  intros HL Hs. destruct (spatial_ok f L s _ HL (is_mat_self f _ _ Hs)) as (g & E & Hg).
  exists g. split; [exact E|]. split; [exact (proj1 Hg)|]. pose proof (proj2 Hg) as Hv. unfold at2 at 1 in Hv. split; intros t p Ht Hp.
  - rewrite Hv by lia. unfold spatial_rows. now zif.
  - pose proof (Z.mod_pos_bound (p + L) (2 * L) ltac:(lia)). rewrite Hv by lia. unfold spatial_rows. zif.
    unfold at2. replace (2 * L - (2 * L - t)) with t by lia. do 4 f_equal. rewrite Zminus_mod_idemp_l. replace (p + L - L) with p by lia.
    now rewrite Z.mod_small.
Qed.

(** the two versions agree on rows without an alternating component *)
Lemma C18_agree_lemma b L s f : 1 <= L -> shape f = [L + 1; 2 * L] ->
  (forall t, 1 <= t < L -> csum (zrange 0 (2 * L)) (fun q => (RtoC (sgn q) * get f [t; q])%C) = RtoC 0) ->
  exists g h, periodic_extension b f L s "mwss" = Ok g /\ periodic_extension_spatial_mwss f L s = Ok h /\ arr_eq g h.
Proof.
  intros HL Hs HN. destruct (spatial_ok f L s _ HL (is_mat_self f _ _ Hs)) as (h & Eh & Hh).
  destruct (ext_mwss b f L s _ HL (is_mat_self f _ _ Hs)) as (g & E & Hg).
  exists g, h. split; [exact E|]. split; [exact Eh|]. apply (is_mat_eq _ _ _ _ _ Hg).
  apply (is_mat_ext _ _ _ _ _ Hh). intros r p Hr Hp. unfold ext_rows, spatial_rows.
  destruct (Z.ltb_spec r (L + 1)); [reflexivity|]. symmetry.
  replace (2 * L - 2 + 2 * 1 - r) with (2 * L - r) by lia. set (x := at2 f (2 * L - r)).
  pose proof (Z.mod_pos_bound (p - L) (2 * L) ltac:(lia)) as B.
  rewrite <- (idft_dft (2 * L) x ((p - L) mod (2 * L)) (- L)) by lia.
  replace (- L + 2 * L) with L by lia. unfold Cdiv. rewrite Cmult_assoc. f_equal.
  rewrite <- cs_scal_l.
  symmetry. rewrite (cr_shrink (- L) L (- (L - 1)) L); try lia.
  - apply cr_ext. intros m Hm.
    replace (root (2 * L) (m * ((p - L) mod (2 * L)))) with (root (2 * L) (m * p + L * m)).
    + rewrite root_add. destruct (root_half L m) as [->|]; [|lia]. rewrite sgn_add, RtoC_mult. ring.
    + apply root_congr; [lia|]. rewrite Zmult_mod_idemp_r.
      replace (m * p + L * m) with (m * (p - L) + m * (2 * L)) by ring. apply Z.mod_add. lia.
  - intros m Hm Hout. assert (m = - L) by lia. subst m.
    replace (dft (2 * L) x (- L)) with (RtoC 0); [ring|]. symmetry.
    rewrite <- (HN (2 * L - r) ltac:(lia)). unfold dft. apply cr_ext. intros q Hq.
    replace (- (- L * q)) with (L * q) by ring. destruct (root_half L q) as [->|]; [|lia]. unfold x, at2. ring.
Qed.

(** ** The two back ends *)
Lemma inv_cols b (a : ndarray C) n m F : 0 < n -> 0 < m -> is_mat a n m F ->
  is_mat (map_cols (inv_fft_shift b) a) n m
    (fun r c => vat (inv_fft_shift numpy (mkVec n (fun r => F r c))) r).
Proof.
  intros Hn Hm Ha. eapply map_cols_ok; [exact Ha|apply vext_inv_fft_shift|intros; destruct b; reflexivity| |lia].
  intros r c Hr Hc. apply inv_fft_shift_eq.
Qed.
Lemma inv_rows b (a : ndarray C) n m F : 0 < n -> 0 < m -> is_mat a n m F ->
  is_mat (map_rows (inv_fft_shift b) a) n m (fun r c => vat (inv_fft_shift numpy (mkVec m (F r))) c).
Proof.
  intros Hn Hm Ha. eapply map_rows_ok; [exact Ha|apply vext_inv_fft_shift|intros; destruct b; reflexivity| |lia].
  intros r c Hr Hc. apply inv_fft_shift_eq.
Qed.

Lemma theta_any (f : ndarray C) L s : 1 <= L -> shape f = [L; 2 * L - 1] ->
  exists G, forall b, exists g, mw_to_mwss_theta b f L s = Ok g /\ is_mat g (L + 1) (2 * L - 1) G.
Proof.
  intros HL Hs. eexists. intros b. unfold mw_to_mwss_theta.
  destruct (ext_mw b f L s _ HL (is_mat_self f _ _ Hs)) as (g1 & E1 & H1).
  rewrite E1. cbn [bind]. clear E1. cbn [dim0 dim1 mat shape nth].
  assert (H2 : is_mat (map_cols (fun c => fftshift (fft_fwd c)) g1) (2 * L - 1) (2 * L - 1)
     (fun j p => vat (fftshift (fft_fwd (mkVec (2 * L - 1) (fun r => ext_rows L s 0 (2 * L - 1) (at2 f) r p)))) j)).
  { eapply map_cols_ok; [exact H1|apply vext_shift_fft_fwd|reflexivity|reflexivity|lia]. }
  destruct (slice2_set_ok (czeros (2 * L) (2 * L - 1)) (map_cols (fun c => fftshift (fft_fwd c)) g1) (2 * L) (2 * L - 1)
      (fun _ _ => RtoC 0) _ 1 (2 * L) 0 (2 * L - 1) (is_mat_mat _ _ _)
      ltac:(replace (2 * L - 1 - 0) with (2 * L - 1) by lia; exact H2)) as (g2 & E2 & H3); try lia.
  rewrite E2. cbn [bind]. clear E2. rewrite (is_mat_dim0 _ _ _ _ H3), (is_mat_dim1 _ _ _ _ H3).
  destruct (slice2_scale_ok g2 (2 * L) (2 * L - 1) _ (fun r _ => cis (- IZR (- (L - 1) + r) * PI / IZR (2 * L - 1)))
      1 (2 * L) 0 (2 * L - 1) H3) as (g3 & E3 & H4); try lia.
  rewrite E3. cbn [bind]. clear E3.
  apply (inv_cols b) in H4; try lia.
  eapply unextend_mwss_ok; try exact H4; lia.
Qed.

Lemma phi_any G L : 1 <= L ->
  exists H, forall b f, is_mat f (L + 1) (2 * L - 1) G ->
    exists g, mw_to_mwss_phi b f L = Ok g /\ is_mat g (L + 1) (2 * L) H.
Proof.
  intros HL. eexists. intros b f Hf. unfold mw_to_mwss_phi. cbn [dim0 dim1 mat shape nth].
  assert (H2 : is_mat (map_rows (fun c => fftshift (fft_fwd c)) f) (L + 1) (2 * L - 1)
     (fun t j => vat (fftshift (fft_fwd (mkVec (2 * L - 1) (G t)))) j)).
  { eapply map_rows_ok; [exact Hf|apply vext_shift_fft_fwd|reflexivity|reflexivity|lia]. }
  destruct (slice2_set_ok (czeros (L + 1) (2 * L)) (map_rows (fun c => fftshift (fft_fwd c)) f) (L + 1) (2 * L)
      (fun _ _ => RtoC 0) _ 0 (L + 1) 1 (2 * L) (is_mat_mat _ _ _)
      ltac:(replace (L + 1 - 0) with (L + 1) by lia; exact H2)) as (g2 & E2 & H3); try lia.
  rewrite E2. cbn [bind]. clear E2. eexists; split; [reflexivity|].
  apply inv_rows; try lia. exact H3.
Qed.

Lemma C20_resampling_lemma L s f f' g g' : 1 <= L ->
  shape f = [L; 2 * L - 1] -> shape f' = [L + 1; 2 * L] -> shape g = [2 * L; 2 * L] -> shape g' = [2 * L - 1; 2 * L - 1] ->
  same_ok (periodic_extension numpy f L s "mw") (periodic_extension jax f L s "mw") /\
  same_ok (periodic_extension numpy f' L s "mwss") (periodic_extension jax f' L s "mwss") /\
  same_ok (upsample_by_two_mwss numpy f' L s) (upsample_by_two_mwss jax f' L s) /\
  same_ok (upsample_by_two_mwss_ext numpy g L) (upsample_by_two_mwss_ext jax g L) /\
  same_ok (unextend numpy g L "mwss") (unextend jax g L "mwss") /\
  same_ok (unextend numpy g' L "mw") (unextend jax g' L "mw") /\
  same_ok (mw_to_mwss_theta numpy f L s) (mw_to_mwss_theta jax f L s) /\
  same_ok (mw_to_mwss numpy f L s) (mw_to_mwss jax f L s).
Proof.
  intros HL Hf Hf' Hg Hg'. unfold same_ok.
  assert (P : forall (op : backend -> result (ndarray C)) n m G, (forall b, exists x, op b = Ok x /\ is_mat x n m G) ->
    exists x y, op numpy = Ok x /\ op jax = Ok y /\ arr_eq x y).
  { intros op n m G H. destruct (H numpy) as (x & Ex & Hx), (H jax) as (y & Ey & Hy).
    exists x, y. repeat split; auto; now apply (is_mat_eq x y n m G). }
  pose proof (is_mat_self _ _ _ Hf) as If. pose proof (is_mat_self _ _ _ Hf') as If'.
  pose proof (is_mat_self _ _ _ Hg) as Ig. pose proof (is_mat_self _ _ _ Hg') as Ig'.
  split; [apply (P (fun b => periodic_extension b f L s "mw") (2 * L - 1) (2 * L - 1) (ext_rows L s 0 (2 * L - 1) (at2 f)));
    intros; now apply ext_mw|].
  split; [apply (P (fun b => periodic_extension b f' L s "mwss") (2 * L) (2 * L) (ext_rows L s 1 (2 * L) (at2 f')));
    intros; now apply ext_mwss|].
  assert (U := fun b => upsample_ext_ok b g L _ HL Ig).
  split.
  { destruct (spatial_ok f' L s _ HL If') as (g1 & E1 & H1).
    eapply (P (fun b => upsample_by_two_mwss b f' L s) (2 * L + 1) (2 * L)). intros b. unfold upsample_by_two_mwss.
    rewrite E1. cbn [bind]. destruct (upsample_ext_ok b g1 L _ HL H1) as (g2 & -> & H2). cbn [bind].
    replace (4 * L) with (2 * (2 * L)) in H2 at 1 by lia.
    apply (unextend_mwss_ok b g2 (2 * L) (2 * L)); try lia. exact H2. }
  split; [eapply (P (fun b => upsample_by_two_mwss_ext b g L)); exact U|].
  split; [apply (P (fun b => unextend b g L "mwss") (L + 1) (2 * L) (at2 g)); intros; apply unextend_mwss_ok; auto; lia|].
  split; [apply (P (fun b => unextend b g' L "mw") L (2 * L - 1) (at2 g')); intros; apply unextend_mw_ok; auto; lia|].
  destruct (theta_any f L s HL Hf) as (G & HG).
  split; [exact (P (fun b => mw_to_mwss_theta b f L s) _ _ _ HG)|].
  destruct (phi_any G L HL) as (H & HH).
  apply (P (fun b => mw_to_mwss b f L s) (L + 1) (2 * L) H). intros b. unfold mw_to_mwss.
  destruct (HG b) as (x & -> & Hx). cbn [bind]. now apply HH.
Qed.

(** ** The sampling name is compared case-sensitively *)
Lemma C18_case_lemma b : exists f g f', shape f = [3; 4] /\ periodic_extension b f 2 0 "MWSS" = Ok g /\
  unextend b g 2 "MWSS" = Ok f' /\ get f' [2; 0] <> get f [2; 0].
Proof.
  set (F := fun r (_ : Z) => if r =? 2 then RtoC 1 else RtoC 0). exists (mat 3 4 F).
  unfold periodic_extension.
  change (ntheta (Some 2) "MWSS" None) with (Ok 3). change (nphi_equiang (Some 2) "MWSS") with (Ok 4).
  change (ntheta_extension 2 "MWSS") with (Ok 4). change (streq "MWSS" "mwss") with false. cbn [bind]. cbv iota.
  destruct (slice2_set_ok (czeros 4 4) (slice2 (mat 3 4 F) 0 3 0 4) 4 4 (fun _ _ => RtoC 0)
              (fun r c => F (0 + r) (0 + c)) 0 3 0 4) as (f1 & E1 & H1); try lia.
  { apply is_mat_mat. } { apply (slice2_ok (mat 3 4 F) 3 4 F); try lia. apply is_mat_mat. }
  rewrite E1. cbn [bind]. clear E1.
  assert (H2 : is_mat (map_rows (fun r => fftshift (fft_bwd r)) f1) 4 4
                 (fun r c => if (r =? 2) then dft 4 (fun _ => RtoC 1) (c - 2) else RtoC 0)).
  { eapply map_rows_ok; [exact H1|apply vext_shift_fft_bwd|reflexivity| |lia].
    intros r c Hr Hc. cbv beta. rewrite shift_fft_dft by lia. change (4 / 2) with 2. destruct (Z.eqb_spec r 2).
    - subst r. apply dft_ext. intros q Hq. repeat zif. unfold F. now repeat zif.
    - unfold dft. apply cr_0. intros q Hq. destruct (Z.eqb_spec r 3); [repeat zif; ring|].
      repeat zif. unfold F. repeat zif. ring. }
  clear H1. set (f2 := map_rows _ f1) in *.
  change (2 + 0) with 2. change (2 * 2 - 1 + 0) with 3. change (2 - 1 + 0) with 1.
  destruct (slice2_set_ok f2 (flip0 (slice2 f2 0 1 0 3)) 4 4 _ (fun r c => RtoC 0) 2 3 0 3 H2)
    as (f3 & E3 & H3); try lia.
  { eapply is_mat_ext; [apply flip0_ok; apply (slice2_ok f2 4 4 _ 0 1 0 3 H2); lia|].
    intros r c Hr Hc. cbv beta. now zif. }
  rewrite E3. cbn [bind]. clear E3.
  destruct (slice2_scale_ok f3 4 4 _ (fun _ c => pow_m1 (- (2 - 1) + c)) 2 3 0 3 H3) as (f4 & E4 & H4); try lia.
  rewrite E4. cbn [bind]. clear E4.
  destruct (slice2_scale_ok f4 4 4 _ (fun _ _ => pow_m1 0) 2 3 0 3 H4) as (f5 & E5 & H5); try lia.
  rewrite E5. cbn [bind]. clear E5.
  assert (H6 : is_mat (map_rows (inv_fft_n_shift b 4) f5) 4 4 (fun r c => if r =? 2 then RtoC 0 else
     vat (inv_fft_n_shift b 4 (mkVec 4 (at2 f5 r))) c)).
  { eapply map_rows_ok; [apply is_mat_self; exact (proj1 H5)|apply vext_inv_fft_n_shift|intros; destruct b; reflexivity| |lia].
    intros r c Hr Hc. destruct (Z.eqb_spec r 2); [subst r|reflexivity].
    rewrite (inv_fft_n_shift_ok b 4) by (auto; lia). cbn [vat].
    rewrite cr_0; [unfold Cdiv; ring|]. intros m Hm. change (4 / 2) with 2 in *. rewrite (proj2 H5) by lia.
    destruct (Z.eqb_spec m 1) as [->|].
    - repeat zif. change (1 + 2 - 2) with 1. unfold dft.
      rewrite (cr_ext 0 4 _ (fun q => root 4 (- (1) * q))) by (intros; replace (- (1 * x)) with (- (1) * x) by lia; ring).
      rewrite root_sum by lia. replace (- (1) mod 4 =? 0) with false by reflexivity. ring.
    - repeat zif. ring. }
  eexists. eexists. split; [reflexivity|]. split; [reflexivity|].
  unfold unextend. change (negb (str_in (lower "MWSS") ["mw"%string; "mwss"%string])) with false.
  change (ntheta_extension 2 "MWSS") with (Ok 4). change (streq (lower "MWSS") "mw") with false.
  change (streq (lower "MWSS") "mwss") with true. cbn [bind]. cbv iota.
  rewrite (is_mat_dim0 _ _ _ _ H6). change (negb (4 =? 4)) with false.
  replace (match b with numpy => false | jax => false end) with false by (destruct b; reflexivity). cbv iota.
  split; [reflexivity|]. rewrite (is_mat_dim1 _ _ _ _ H6).
  change (get ?a [2; 0]) with (at2 a 2 0).
  rewrite (proj2 (slice2_ok _ _ _ _ 0 (2 + 1) 0 4 H6 ltac:(lia) ltac:(lia) ltac:(lia) ltac:(lia) ltac:(lia) ltac:(lia))) by lia.
  change (0 + 2 =? 2) with true. cbv iota. change (get (mat 3 4 F) [2; 0]) with (RtoC 1). intros E. apply RtoC_inj in E. lra.
Qed.
