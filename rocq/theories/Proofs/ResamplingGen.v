(** Resampling of arbitrary maps: the operations are total on maps of the right shape, and linear. *)
From Coq Require Import Reals Lra ZifyBool.
From Coquelicot Require Import Complex.
From Verif Require Import Lib.Py Lib.PyFacts Lib.Vec Lib.VecFacts Lib.Sums Lib.Cplx Lib.Arr Lib.MatFacts
  Model.FFT Model.Samples Model.Resampling Spec.SphereSpec Proofs.ResamplingProofs.
Open Scope Z_scope.

Definition th_op (L s : Z) (F : Z -> Z -> C) (t p : Z) : C :=
  csum (zrange (- (L - 1)) L) (fun k => (dft (2 * L - 1) (fun r => ext_rows L s 0 (2 * L - 1) F r p) k / RtoC (IZR (2 * L - 1))
    * cis (- IZR k * PI / IZR (2 * L - 1)) * root (2 * L) (k * t))%C).
Definition ph_op (L : Z) (F : Z -> Z -> C) (t p : Z) : C :=
  csum (zrange (- (L - 1)) L) (fun m => (dft (2 * L - 1) (F t) m / RtoC (IZR (2 * L - 1)) * root (2 * L) (m * p))%C).
Definition up_op (L s : Z) (F : Z -> Z -> C) (t p : Z) : C :=
  csum (zrange (- L) L) (fun k => (dft (2 * L) (fun r => spatial_rows L s F r p) k / RtoC (IZR (2 * L)) * root (4 * L) (k * t))%C).

Section Gen.
  Context (L s : Z) (HL : 1 <= L) (b : backend).

  Lemma half_odd : (2 * L - 1) / 2 = L - 1.
  Proof using HL. replace (2 * L - 1) with ((L - 1) * 2 + 1) by lia; rewrite Z.div_add_l by lia; change (1 / 2) with 0; lia. Qed.

  Lemma th_op_ok (f : ndarray C) F : is_mat f L (2 * L - 1) F ->
    exists g, mw_to_mwss_theta b f L s = Ok g /\ is_mat g (L + 1) (2 * L - 1) (th_op L s F).
  Proof using HL.
    intros Hf. unfold mw_to_mwss_theta.
    destruct (extension_ok b f L s "mw" 0 (2 * L - 1) F) as (g1 & E1 & H1); auto; try lia.
    { now rewrite Z.add_0_r. } { now rewrite Z.add_0_r. }
    rewrite E1. cbn [bind]. clear E1.
    pose proof half_odd as Hn.
    set (X := fun j p => (dft (2 * L - 1) (fun r => ext_rows L s 0 (2 * L - 1) F r p) (j - (L - 1)) / RtoC (IZR (2 * L - 1)))%C).
    assert (H2 : is_mat (map_cols (fun c => fftshift (fft_fwd c)) g1) (2 * L - 1) (2 * L - 1) X).
    { eapply map_cols_ok; [exact H1|apply vext_shift_fft_fwd|reflexivity| |lia].
      intros j p Hj Hp. unfold X. rewrite <- Hn. rewrite <- shift_fft_dft by lia. reflexivity. }
    cbn [dim0 dim1 mat shape nth].
    destruct (slice2_set_ok (czeros (2 * L) (2 * L - 1)) (map_cols (fun c => fftshift (fft_fwd c)) g1) (2 * L) (2 * L - 1)
      (fun _ _ => RtoC 0) X 1 (2 * L) 0 (2 * L - 1)) as (g2 & E2 & H3); try lia.
    { apply is_mat_mat. }
    { replace (2 * L - 1 - 0) with (2 * L - 1) by lia. exact H2. }
    rewrite E2. cbn [bind]. clear E2. rewrite (is_mat_dim0 _ _ _ _ H3), (is_mat_dim1 _ _ _ _ H3).
    destruct (slice2_scale_ok g2 (2 * L) (2 * L - 1) _ (fun r _ => cis (- IZR (- (L - 1) + r) * PI / IZR (2 * L - 1)))
      1 (2 * L) 0 (2 * L - 1) H3) as (g3 & E3 & H4); try lia.
    rewrite E3. cbn [bind]. clear E3.
    assert (H5 : is_mat (map_cols (inv_fft_shift b) g3) (2 * L) (2 * L - 1) (th_op L s F)).
    { eapply map_cols_ok; [exact H4|apply vext_inv_fft_shift|destruct b; reflexivity| |lia].
      intros t p Ht Hp. cbv beta. unfold th_op.
      rewrite (inv_fft_shift_trig L HL b (2 * L) _ (fun k => (X (k + (L - 1))%Z p * cis (- IZR k * PI / IZR (2 * L - 1)))%C)); try lia; try reflexivity.
      - apply cr_ext. intros k _. unfold X. now replace (k + (L - 1) - (L - 1)) with k by lia.
      - now rewrite Z.even_mul.
      - intros i Hi. cbn [vat]. rewrite half2.
        destruct (Z.leb_spec 1 i).
        + repeat zif. replace (i - L + (L - 1)) with (i - 1) by lia.
          replace (- (L - 1) + (i - 1)) with (i - L) by lia. rewrite Z.sub_0_r. reflexivity.
        + repeat zif. reflexivity. }
    apply unextend_mwss_ok; auto; lia.
  Qed.

  Lemma ph_op_ok (f : ndarray C) F : is_mat f (L + 1) (2 * L - 1) F ->
    exists g, mw_to_mwss_phi b f L = Ok g /\ is_mat g (L + 1) (2 * L) (ph_op L F).
  Proof using HL.
    intros Hf. unfold mw_to_mwss_phi. cbn [dim0 dim1 mat shape nth]. pose proof half_odd as Hn.
    set (X := fun t j => (dft (2 * L - 1) (F t) (j - (L - 1)) / RtoC (IZR (2 * L - 1)))%C).
    assert (H2 : is_mat (map_rows (fun c => fftshift (fft_fwd c)) f) (L + 1) (2 * L - 1) X).
    { eapply map_rows_ok; [exact Hf|apply vext_shift_fft_fwd|reflexivity| |lia].
      intros t j Ht Hj. unfold X. rewrite <- Hn. rewrite <- shift_fft_dft by lia. reflexivity. }
    destruct (slice2_set_ok (czeros (L + 1) (2 * L)) (map_rows (fun c => fftshift (fft_fwd c)) f) (L + 1) (2 * L)
      (fun _ _ => RtoC 0) X 0 (L + 1) 1 (2 * L)) as (g2 & E2 & H3); try lia.
    { apply is_mat_mat. }
    { replace (L + 1 - 0) with (L + 1) by lia. exact H2. }
    rewrite E2. cbn [bind]. clear E2. eexists; split; [reflexivity|].
    eapply map_rows_ok; [exact H3|apply vext_inv_fft_shift|destruct b; reflexivity| |lia].
    intros t p Ht Hp. cbv beta. unfold ph_op.
    rewrite (inv_fft_shift_trig L HL b (2 * L) _ (fun m => X t (m + (L - 1))%Z)); try lia; try reflexivity.
    - apply cr_ext. intros m _. unfold X. now replace (m + (L - 1) - (L - 1)) with m by lia.
    - now rewrite Z.even_mul.
    - intros i Hi. cbn [vat]. rewrite half2. destruct (Z.leb_spec 1 i).
      + repeat zif. rewrite Z.sub_0_r. f_equal. lia.
      + repeat zif. reflexivity.
  Qed.

  Lemma up_op_ok (f : ndarray C) F : is_mat f (L + 1) (2 * L) F ->
    exists g, upsample_by_two_mwss b f L s = Ok g /\ is_mat g (2 * L + 1) (2 * L) (up_op L s F).
  Proof using HL.
    intros Hf. unfold upsample_by_two_mwss. destruct (spatial_ok f L s _ HL Hf) as (g1 & -> & H1). cbn [bind].
    destruct (upsample_ext_ok b g1 L _ HL H1) as (g2 & -> & H2). cbn [bind].
    replace (4 * L) with (2 * (2 * L)) in H2 at 1 by lia.
    apply (unextend_mwss_ok b g2 (2 * L) (2 * L)); try lia. exact H2.
  Qed.

  Lemma mw_op_ok (f : ndarray C) F : is_mat f L (2 * L - 1) F ->
    exists g, mw_to_mwss b f L s = Ok g /\ is_mat g (L + 1) (2 * L) (ph_op L (th_op L s F)).
  Proof using HL.
    intros Hf. unfold mw_to_mwss. destruct (th_op_ok f F Hf) as (g & -> & Hg). cbn [bind]. now apply ph_op_ok.
  Qed.
End Gen.

(** ** Linearity *)
Section Lin.
  Context (x y : C).
  Definition comb {A} (u v : A -> C) (a : A) : C := (x * u a + y * v a)%C.
  Definition comb2 (F G : Z -> Z -> C) (t p : Z) : C := (x * F t p + y * G t p)%C.

  Lemma dft_lin n (u v w : Z -> C) m : (forall q, w q = (x * u q + y * v q)%C) -> dft n w m = (x * dft n u m + y * dft n v m)%C.
  Proof using Type. intros H. unfold dft. rewrite <- !cs_scal_l, <- cs_plus. apply cs_ext. intros q _. rewrite H. ring. Qed.

  Lemma ext_rows_lin L s mo n F G r p :
    ext_rows L s mo n (comb2 F G) r p = (x * ext_rows L s mo n F r p + y * ext_rows L s mo n G r p)%C.
  Proof using Type.
    unfold ext_rows. destruct (_ <? _); [reflexivity|]. unfold Cdiv. rewrite <- !cs_scal_r, <- !cs_scal_l, <- cs_plus.
    apply cs_ext. intros m _. rewrite (dft_lin n (F (2 * L - 2 + 2 * mo - r)) (G (2 * L - 2 + 2 * mo - r))) by reflexivity. ring.
  Qed.
  Lemma spatial_rows_lin L s F G r p :
    spatial_rows L s (comb2 F G) r p = (x * spatial_rows L s F r p + y * spatial_rows L s G r p)%C.
  Proof using Type. unfold spatial_rows, comb2. destruct (_ <? _); ring. Qed.
  Lemma th_op_lin L s F G t p : th_op L s (comb2 F G) t p = (x * th_op L s F t p + y * th_op L s G t p)%C.
  Proof using Type.
    unfold th_op. rewrite <- !cs_scal_l, <- cs_plus. apply cs_ext. intros k _.
    rewrite (dft_lin _ (fun r => ext_rows L s 0 (2 * L - 1) F r p) (fun r => ext_rows L s 0 (2 * L - 1) G r p)) by (intros; apply ext_rows_lin).
    unfold Cdiv. ring.
  Qed.
  Lemma ph_op_ext L F G t p : (forall t p, F t p = G t p) -> ph_op L F t p = ph_op L G t p.
  Proof using Type. intros H. unfold ph_op. apply cs_ext. intros m _. do 2 f_equal. apply dft_ext. intros. apply H. Qed.
  Lemma ph_op_lin L F G t p : ph_op L (comb2 F G) t p = (x * ph_op L F t p + y * ph_op L G t p)%C.
  Proof using Type.
    unfold ph_op. rewrite <- !cs_scal_l, <- cs_plus. apply cs_ext. intros k _.
    rewrite (dft_lin _ (F t) (G t)) by reflexivity. unfold Cdiv. ring.
  Qed.
  Lemma up_op_lin L s F G t p : up_op L s (comb2 F G) t p = (x * up_op L s F t p + y * up_op L s G t p)%C.
  Proof using Type.
    unfold up_op. rewrite <- !cs_scal_l, <- cs_plus. apply cs_ext. intros k _.
    rewrite (dft_lin _ (fun r => spatial_rows L s F r p) (fun r => spatial_rows L s G r p)) by (intros; apply spatial_rows_lin).
    unfold Cdiv. ring.
  Qed.
  Lemma up_op_ext L s F G t p : (forall t p, F t p = G t p) -> up_op L s F t p = up_op L s G t p.
  Proof using Type.
    intros H. unfold up_op. apply cs_ext. intros m _. do 2 f_equal. apply dft_ext. intros. unfold spatial_rows. destruct (_ <? _); now rewrite H.
  Qed.
End Lin.
