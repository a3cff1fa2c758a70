(** The primitive on the device computes what the NumPy ring transforms compute. *)
From Coq Require Import Reals ZifyBool Psatz.
From Verif Require Import Lib.Py Lib.PyFacts Lib.Vec Lib.VecFacts Lib.Arr Lib.ArrFacts Lib.MatFacts Model.Samples Model.HealpixFFT Model.Cuda Model.JaxCuda
  Spec.SamplesSpec Spec.CudaSpec Spec.JaxCudaSpec Proofs.SamplesProofs Proofs.HealpixFFTProofs Proofs.CudaProofs
  Proofs.CudaKernelProofs Proofs.CudaPlanProofs Proofs.CudaCacheProofs Proofs.CudaPropsProofs.
From Coq Require Import List.
Import ListNotations.
Open Scope string_scope.
Open Scope Z_scope.

Lemma zlist_eqb_spec a b : zlist_eqb a b = true <-> a = b.
Proof.
  revert b. induction a as [|x a IH]; intros [|y b]; cbn [zlist_eqb]; split; intros H; try discriminate; auto.
  - apply andb_true_iff in H as [H1 H2]. f_equal; [lia|now apply IH].
  - injection H as -> ->. apply andb_true_iff. split; [lia|now apply IH].
Qed.

Lemma after_snoc h c : after (h ++ [c])%list = after_call (after h) c.
Proof. unfold after. now rewrite fold_left_app. Qed.

Lemma is_flat_ravel {A} (a : ndarray A) n m F : is_mat a n m F -> 0 < m -> is_flat n m (to_rows a) (ravel a).
Proof.
  intros [Sa Ga] Hm. unfold ravel. rewrite Sa. split; [cbn [to_rows vlen]; unfold dim0; now rewrite Sa|].
  split; [reflexivity|]. intros t Ht. cbn [to_rows vat row vlen]. split; [unfold dim1; now rewrite Sa|].
  intros k Hk. cbn [vat]. unfold at2. replace ((t * m + k) / m) with t by (apply Z.div_unique with k; lia).
  replace ((t * m + k) mod m) with k by (apply Z.mod_unique with t; lia). reflexivity.
Qed.

Section Dev.
  Context {A : Type} (add : A -> A -> A) (zero : A) (dft_fwd dft_inv : vec A -> vec A) (scale1 scale2 : Z -> A -> A).
  Context (rfft : vec A -> vec A) (irfft : vec A -> Z -> vec A).
  Hypothesis fwd_ext : extensional dft_fwd.
  Hypothesis fwd_len : length_preserving dft_fwd.
  Hypothesis inv_ext : extensional dft_inv.
  Hypothesis inv_len : length_preserving dft_inv.

  Lemma fwd_world d h f out0 w' f' out :
    cuda_forward add zero dft_fwd scale1 scale2 d (after h) f out0 w' f' out -> w' = after (h ++ [CallTransform d]).
  Proof.
    unfold cuda_forward. rewrite after_snoc. cbn [after_call]. destruct (get_exec d (after h)) as [id w1]. intros [-> _]. reflexivity.
  Qed.
  Lemma bwd_world d h f out0 w' out :
    cuda_backward add zero dft_inv scale1 scale2 d (after h) f out0 w' out -> w' = after (h ++ [CallTransform d]).
  Proof.
    unfold cuda_backward. rewrite after_snoc. cbn [after_call]. destruct (get_exec d (after h)) as [id w1]. intros [-> _]. reflexivity.
  Qed.

  Lemma fwd_buffer d h f out0 w' f' out : Forall call_ok h -> 1 <= d_nside d -> d_shift d = true -> d_norm d = BACKWARD ->
    vlen f = 12 * (d_nside d * d_nside d) ->
    cuda_forward add zero dft_fwd scale1 scale2 d (after h) f out0 w' f' out -> overwritten dft_fwd (d_nside d) f f'.
  Proof using fwd_ext fwd_len.
    intros Hf Hn Hs HN Hlf. pose proof (get_exec_spec d (after h) (cinv_after h Hf) Hn) as G.
    unfold cuda_forward. destruct (get_exec d (after h)) as [id w1]. destruct G as (_ & _ & ex & E & G).
    destruct (exec_forward_good dft_fwd scale1 scale2 fwd_ext fwd_len d ex f Hn G Hlf) as (o & Eo & Vo & Go).
    intros (_ & ex2 & E2 & Eo2 & _). assert (ex2 = ex) by congruence. subst ex2. assert (f' = o) by congruence. subst o.
    split; [exact Vo|]. intros t j Ht Hj. pose proof (Go t Ht j Hj) as Q. rewrite Hs, HN in Q. exact Q.
  Qed.

  Lemma fft_cuda_ok h f d L nside reality compiled out0 : Forall call_ok h -> 1 <= nside -> 2 * nside <= L ->
    shape f = [12 * (nside * nside)] -> vlen out0 = (4 * nside - 1) * (2 * L) ->
    exists ftm, healpix_fft_numpy zero dft_fwd rfft (to_vec f) L nside false = Ok ftm /\
    (exists w' f' r, healpix_fft_on_device add zero dft_fwd dft_inv scale1 scale2 f d L nside reality compiled (after h) out0 w' f' r) /\
    forall w' f' r, healpix_fft_on_device add zero dft_fwd dft_inv scale1 scale2 f d L nside reality compiled (after h) out0 w' f' r ->
      (exists h', Forall call_ok h' /\ w' = after h') /\
      (if is_complex d then shape f' = shape f /\ overwritten dft_fwd nside (to_vec f) (to_vec f') else f' = f) /\
      exists a, r = Ok a /\ arr_eq a (of_rows (2 * L) ftm).
  Proof using fwd_ext fwd_len.
    intros Hh Hn HL Sf Ho.
    assert (Vf : vlen (to_vec f) = 12 * (nside * nside)) by (cbn [to_vec vlen]; unfold dim0; now rewrite Sf).
    destruct (healpix_fft_numpy_spec zero dft_fwd rfft fwd_len (to_vec f) L nside Hn ltac:(lia) Vf) as (ftm & E & V & G).
    exists ftm. split; [exact E|].
    unfold healpix_fft_on_device, healpix_fft_cuda, device_call, bind_primitive, abstract_eval.
    change (streq "forward" "forward") with true. cbv iota.
    replace (zlist_eqb (shape f) [nside * nside * 12]) with true by (symmetry; apply zlist_eqb_spec; rewrite Sf; f_equal; lia).
    cbv iota. unfold lowering.
    assert (ED : exists db, (match promote_complex d with Complex64 => Ok false | Complex128 => Ok true | _ => Err ValueError end) = Ok db)
      by (destruct d; eexists; reflexivity). destruct ED as (db & ->). cbn [bind].
    change (streq "forward" "forward") with true. change (normalize_flag true "backward") with (@Ok bool false). cbn [bind].
    rewrite build_after. set (desc := mkDesc nside L reality true (build_norm true false) true db).
    replace (if compiled then after h else after (h ++ [CallBuild nside L reality true false db]))
      with (after (if compiled then h else h ++ [CallBuild nside L reality true false db])) by (destruct compiled; reflexivity).
    set (h1 := if compiled then h else _).
    assert (Hh1 : Forall call_ok h1) by (unfold h1; destruct compiled; [exact Hh|apply Forall_snoc_call; auto]).
    unfold custom_call. change (d_forward desc) with true. cbv iota.
    replace (ravel f) with (to_vec f) by (unfold ravel; rewrite Sf; reflexivity).
    destruct (cuda_forward_spec add zero dft_fwd scale1 scale2 fwd_ext fwd_len h1 desc (to_vec f) out0 Hh1 Hn HL eq_refl Vf Ho) as [C1 C2].
    split.
    - destruct C1 as (w' & buf & out & R). eexists w', _, _, buf. split; [|reflexivity]. exists out. split; [cbn [fold_right]; rewrite Ho; lia|].
      split; [exact R|reflexivity].
    - intros w' f' r (buf & (out & Hv & R & ->) & ->). split; [|split].
      + exists (h1 ++ [CallTransform desc])%list. split; [apply Forall_snoc_call; auto|]. exact (fwd_world _ _ _ _ _ _ _ R).
      + pose proof (fwd_buffer desc h1 _ _ _ _ _ Hh1 Hn eq_refl eq_refl Vf R) as [O1 O2]. destruct (is_complex d); [|reflexivity].
        rewrite Sf. cbn [unravel]. split; [reflexivity|]. split.
        * rewrite Vf. reflexivity.
        * intros t j Ht Hj. cbn [to_vec vat get nth]. exact (O2 t j Ht Hj).
      + eexists. split; [reflexivity|]. destruct (C2 _ _ _ R) as [Vo Go]. cbn [unravel of_rows].
        apply (is_mat_eq _ _ (4 * nside - 1) (2 * L) (fun t k => vat out (t * (2 * L) + k))); [apply is_mat_mat|].
        unfold of_rows. rewrite V. eapply is_mat_ext; [apply is_mat_mat|].
        intros t k Ht Hk. cbv beta. destruct (G t Ht) as [_ Gt]. rewrite Gt by auto. symmetry. etransitivity; [exact (Go t k Ht Hk)|]. reflexivity.
  Qed.

  Lemma ifft_cuda_ok h ftm F d L nside reality compiled out0 : Forall call_ok h -> 1 <= nside -> 2 * nside <= L ->
    is_mat ftm (4 * nside - 1) (2 * L) F -> vlen out0 = 12 * (nside * nside) ->
    exists ftm1 f, healpix_ifft_numpy zero add dft_inv irfft (to_rows ftm) L nside false = Ok (ftm1, f) /\
    (exists w' ftm' r, healpix_ifft_on_device add zero dft_fwd dft_inv scale1 scale2 ftm d L nside reality compiled (after h) out0 w' ftm' r) /\
    forall w' ftm' r, healpix_ifft_on_device add zero dft_fwd dft_inv scale1 scale2 ftm d L nside reality compiled (after h) out0 w' ftm' r ->
      (exists h', Forall call_ok h' /\ w' = after h') /\ arr_eq ftm' ftm /\
      exists a, r = Ok a /\ arr_eq a (of_vec f).
  Proof using inv_ext inv_len.
    clear rfft. intros Hh Hn HL HM Ho. pose proof HM as [Sf _].
    pose proof (is_flat_ravel ftm _ _ _ HM ltac:(lia)) as Hflat. pose proof Hflat as (F1 & F2 & F3).
    destruct (healpix_ifft_numpy_spec zero add dft_inv irfft inv_len inv_ext (to_rows ftm) L nside Hn HL F1
      (fun t Ht => proj1 (F3 t Ht))) as (ftm1 & f & E & V & G & _).
    exists ftm1, f. split; [exact E|].
    unfold healpix_ifft_on_device. replace (negb (2 * nside <=? L)) with false by lia. cbv iota.
    unfold healpix_ifft_cuda, device_call, bind_primitive, abstract_eval.
    change (streq "backward" "forward") with false. change (streq "backward" "backward") with true. cbv iota.
    replace (zlist_eqb (shape ftm) [4 * nside - 1; 2 * L]) with true by (symmetry; apply zlist_eqb_spec; exact Sf).
    cbv iota. unfold lowering.
    assert (ED : exists db, (match promote_complex d with Complex64 => Ok false | Complex128 => Ok true | _ => Err ValueError end) = Ok db)
      by (destruct d; eexists; reflexivity). destruct ED as (db & ->). cbn [bind].
    change (streq "backward" "forward") with false. change (normalize_flag false "forward") with (@Ok bool false). cbn [bind].
    rewrite build_after. set (desc := mkDesc nside L reality false (build_norm false false) true db).
    replace (if compiled then after h else after (h ++ [CallBuild nside L reality false false db]))
      with (after (if compiled then h else h ++ [CallBuild nside L reality false false db])) by (destruct compiled; reflexivity).
    set (h1 := if compiled then h else _).
    assert (Hh1 : Forall call_ok h1) by (unfold h1; destruct compiled; [exact Hh|apply Forall_snoc_call; auto]).
    unfold custom_call. change (d_forward desc) with false. cbv iota.
    destruct (cuda_backward_spec add zero dft_inv scale1 scale2 inv_ext inv_len h1 desc (ravel ftm) out0 Hh1 Hn HL eq_refl F2 Ho) as [C1 C2].
    split.
    - destruct C1 as (w' & out & R). exists w'. eexists. eexists. exists (ravel ftm). split; [|reflexivity]. exists out. split; [cbn [fold_right]; rewrite Ho; lia|].
      split; [split; [reflexivity|exact R]|reflexivity].
    - intros w' f' r (buf & (out & Hv & (-> & R) & ->) & ->). split; [|split].
      + exists (h1 ++ [CallTransform desc])%list. split; [apply Forall_snoc_call; auto|]. exact (bwd_world _ _ _ _ _ _ R).
      + destruct (is_complex d); [|apply arr_eq_refl]. rewrite Sf. cbn [unravel].
        eapply is_mat_eq; [|exact HM]. eapply is_mat_ext; [apply is_mat_mat|]. intros t k Ht Hk.
        destruct (F3 t Ht) as [_ Q]. rewrite Q by auto. cbn [to_rows vat row]. rewrite (proj2 HM) by auto. reflexivity.
      + eexists. split; [reflexivity|]. destruct (C2 _ _ R) as [Vo Go]. change (d_nside desc) with nside in *. change (d_L desc) with L in *.
        cbn [unravel]. split; [cbn [shape of_vec]; rewrite V; f_equal; lia|].
        cbn [shape]. intros ix Hix. destruct ix as [|i [|? ?]]; try (cbn [in_shape] in Hix; tauto). cbn [in_shape] in Hix.
        cbn [get of_vec nth].
        destruct (blocks_partition (ring_length nside) (4 * nside - 1) i) as (t & p & H & _); try lia.
        { intros j Hj. pose proof (ring_length_pos nside j Hn Hj). lia. }
        { rewrite ring_start_total by lia. lia. }
        destruct H as (Ht & Hp & ->). rewrite (G t Ht p Hp). etransitivity; [exact (Go t p Ht Hp)|].
        cbn [build_norm callback_backward fst d_norm desc apply_scaling].
        apply (dft_at dft_inv inv_ext inv_len).
        * split; [reflexivity|]. cbn [vlen ring_spectrum vat]. intros j Hj. 
          pose proof (ring_length_pos nside t Hn Ht). pose proof (ring_length_le nside t). pose proof (nphi_half nside t).
          apply folded_ext; auto; try lia. { apply Z.mod_pos_bound; lia. }
          intros k Hk. eapply is_flat_row; eauto.
        * cbn [vlen ring_spectrum]. exact Hp.
  Qed.
End Dev.
