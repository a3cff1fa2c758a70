(** The forward Wigner transform with a precomputed kernel. *)
From Coq Require Import Reals ZifyBool Lra.
From Coquelicot Require Import Complex.
From Verif Require Import Lib.Py Lib.PyFacts Lib.Vec Lib.VecFacts Lib.Sums Lib.Cplx Lib.Arr Lib.ArrFacts Lib.MatFacts
  Model.Index Model.Samples Model.Grids Model.FFT Model.HealpixFFT Model.Turok Model.Risbo Model.Resampling Model.Quadrature
  Model.Spherical Model.PriceMcEwen Model.Precompute Model.Wigner Model.FourierWigner Model.OTFWigner Model.PrecomputeWigner
  Spec.SamplesSpec Spec.WignerSpec Spec.SphereSpec Spec.GridSpec Spec.HealpixFFTSpec Spec.SphericalSpec Spec.QuadSpec Spec.SO3Spec Spec.OTFWignerSpec
  Spec.PrecomputeSpec Spec.PrecomputeWignerSpec
  Proofs.SamplesProofs Proofs.GridProofs Proofs.TurokProofs Proofs.RisboProofs Proofs.HealpixDFTProofs Proofs.SphereTheory Proofs.SphGrid
  Proofs.SphInverse Proofs.SphTop Proofs.SphForward Proofs.SphForwardTop Proofs.SphFacts Proofs.ResamplingProofs Proofs.ResamplingGen Proofs.PrecomputeKernel Proofs.PrecomputeSph
  Proofs.WignerInverse Proofs.WignerForward Proofs.WignerRound Proofs.WignerReal Proofs.FWArrays Proofs.OTFWignerLoop Proofs.OTFWignerForward Proofs.OTFWignerFwdTop
  Proofs.OTFSphNear Proofs.OTFSphTop Proofs.OTFSphForward Proofs.PrecomputeTop Proofs.PWKernel Proofs.PWInverse
  Spec.CallSpec.
From Coq Require Import List.
Import ListNotations.
Open Scope string_scope.
Open Scope Z_scope.

(** ** Planes *)
Definition pl {T} (a : ndarray T) (k : Z) : ndarray T := mkArr (tl (shape a)) (fun ix => get a (k :: ix)).
Lemma plane_pl {T} (a : ndarray T) n sh k : shape a = n :: sh -> 0 <= k < n -> plane a k = Ok (pl a k).
Proof. intros H Hk. rewrite (plane_ok a n sh) by auto. unfold pl. now rewrite H. Qed.
Lemma map_planes_ok g (a : ndarray C) n sh sh' : shape a = n :: sh -> 1 <= n ->
  (forall k, 0 <= k < n -> exists q, g k (pl a k) = Ok q /\ shape q = sh') ->
  exists r, map_planes g a = Ok r /\ shape r = n :: sh' /\ forall k, 0 <= k < n -> g k (pl a k) = Ok (pl r k).
Proof.
  intros Ha Hn Hg. unfold map_planes, dim0. rewrite Ha. cbn [nth].
  destruct (foldM_inv (fun j ps => Z.of_nat (length ps) = j /\ forall k, 0 <= k < j -> exists q, nth_error ps (Z.to_nat k) = Some q /\ g k (pl a k) = Ok q /\ shape q = sh')
    (fun ps k => let* p := plane a k in let* q := g k p in Ok (ps ++ [q])%list) 0 n []) as (ps & E & H1 & H2).
  - lia.
  - split; [reflexivity|]. intros; lia.
  - intros k ps Hk (H1 & H2). rewrite (plane_pl a n sh) by auto. cbn [bind]. destruct (Hg k Hk) as (q & Eq & Sq). rewrite Eq. cbn [bind].
    eexists. split; [reflexivity|]. rewrite app_length. cbn [length]. split; [lia|]. intros j Hj. destruct (Z.eq_dec j k) as [->|Q].
    + exists q. split; [|auto]. rewrite nth_error_app2 by lia. replace (Z.to_nat k - length ps)%nat with 0%nat by lia. reflexivity.
    + destruct (H2 j ltac:(lia)) as (q' & E1 & E2). exists q'. split; [|exact E2]. rewrite nth_error_app1 by lia. exact E1.
  - rewrite E. cbn [bind]. eexists. split; [reflexivity|].
    assert (NE : forall k, 0 <= k < n -> g k (pl a k) = Ok (nth (Z.to_nat k) ps (zeros (RtoC 0) [])) /\ shape (nth (Z.to_nat k) ps (zeros (RtoC 0) [])) = sh').
    { intros k Hk. destruct (H2 k Hk) as (q & E1 & E2 & E3). rewrite (nth_error_nth _ _ _ E1). auto. }
    assert (SH : shape (nth 0 ps (zeros (RtoC 0) [])) = sh') by (apply (NE 0); lia).
    unfold stack. cbn [shape]. rewrite H1, SH. split; [reflexivity|]. intros k Hk. destruct (NE k Hk) as (E1 & E2). rewrite E1. f_equal.
    unfold pl. cbn [shape get hd tl]. destruct (nth (Z.to_nat k) ps (zeros (RtoC 0) [])) as [s' g']. cbn [shape get] in *. rewrite E2. reflexivity.
Qed.
Lemma head_set_ok {T} (a b : ndarray T) n l m F G s : is_arr3 a n l m F -> is_arr3 b s l m G -> 0 <= s <= n ->
  exists a', head_set a s b = Ok a' /\ is_arr3 a' n l m (fun i j k => if i <? s then G i j k else F i j k).
Proof.
  intros Ha Hb Hs. unfold head_set. destruct (is_arr3_dims _ _ _ _ _ Ha) as (-> & -> & ->). destruct (is_arr3_dims _ _ _ _ _ Hb) as (-> & -> & ->).
  rewrite !slice_len_in by lia. replace (Z.max 0 (s - 0)) with s by lia. replace (s - 0) with s by lia. rewrite !Z.eqb_refl. cbn [andb]. eexists. split; [reflexivity|].
  eapply is_arr3_ext; [apply is_arr3_arr3|]. intros i j k Hi Hj Hk. cbv beta.
  destruct (Z.ltb_spec i s); [apply (proj2 Hb); lia|apply (proj2 Ha); lia].
Qed.
Lemma last_from_ok {T} (a : ndarray T) n l m F c : is_arr3 a n l m F -> 0 <= c <= m -> is_arr3 (last_from a c) n l (m - c) (fun i j k => F i j (c + k)).
Proof.
  intros Ha Hc. eapply is_arr3_ext.
  - apply (map3_2_ok (fun v => vslice v c (vlen v)) a n l m (m - c) F Ha).
    + intros v w Q. destruct Q as (Q1 & Q2). split; cbn [vslice vlen]; [now rewrite Q1|]. intros i Hi. cbn [vslice vat]. rewrite <- Q1. apply Q2.
      destruct (Z_le_dec c (vlen v)).
      * rewrite slice_len_in in Hi by lia. rewrite slice_lo_in by lia. lia.
      * unfold slice_len, slice_lo, clamp in *. destruct (c <? 0) eqn:E1; destruct (vlen v <? 0) eqn:E2; lia.
    + intros v Hv. cbn [vslice vlen]. rewrite Hv, slice_len_in by lia. lia.
  - intros i j k Hi Hj Hk. cbv beta. cbn [vslice vat vlen]. now rewrite slice_lo_in by lia.
Qed.

(** ** The ring transforms of the planes *)
Section Fwd.
  Variables (b : backend) (gl : gl_rule) (s : scheme) (L N nside : Z) (o : option Z) (reality : bool) (f : ndarray C).
  Hypothesis (S : setting (scheme_name s) s L nside o) (HN : 1 <= N <= L) (Hf : shape f = 2 * N - 1 :: map_shape s L nside)
    (Hh : s = HEALPIX -> 2 * nside <= L /\ (b = jax -> 2 <= nside)) (HM : s = MW \/ s = MWSS -> 2 <= N).
  Notation n0 := (n_low N reality).
  Notation g := (fgrid gl s L nside).
  Definition gam : ndarray C := if reality then map_axis0 rfft_bwd f else map_axis0 (fun v => fftshift (fft_bwd v)) f.
  Lemma gam_shape : shape gam = N - n0 :: map_shape s L nside.
  Proof.
    unfold gam, n_low. destruct reality; unfold map_axis0; cbn [shape line0 rfft_bwd fftshift fft_bwd vlen]; rewrite Hf; cbn [hd tl]; [rewrite half_odd|]; f_equal; lia.
  Qed.
  Lemma gam_comp n ix : n0 <= n < N -> sample_ix s L nside ix ->
    (RtoC (2 * PI / IZR (2 * N - 1)) * get (pl gam (n - n0)) ix)%C = get (compA s L N nside (seen reality f) n) ix.
  Proof.
    intros Hn Hix. assert (E : n_start N reality = n0) by (unfold n_start, n_low; destruct reality; lia).
    destruct (gamma_analysis_plane s L N nside reality f n Hf) as (p & Ep & Sp & Gp); [rewrite E; exact Hn|].
    rewrite E in Ep. cbn [compA get]. rewrite <- Gp by exact Hix.
    rewrite (plane_pl (gamma_analysis f N reality) (N - n0) (map_shape s L nside)) in Ep by (lia || (unfold gamma_analysis; cbn [amap shape]; apply gam_shape)).
    injection Ep as <-. unfold gamma_analysis. fold gam. cbn [pl amap get]. apply Cmult_comm.
  Qed.
  Lemma gam_fvals n t p : n0 <= n < N -> in_grid g t p ->
    fvals s L nside (- n) (compA s L N nside (seen reality f) n) t p = (RtoC (2 * PI / IZR (2 * N - 1)) * fvals s L nside (- n) (pl gam (n - n0)) t p)%C.
  Proof.
    intros Hn Hg. pose proof S as (Hd & HL & Hns). assert (Hn1 : s = HEALPIX -> 1 <= nside) by (intros Q; apply (Hns Q)).
    assert (SP : shape (pl gam (n - n0)) = map_shape s L nside) by (unfold pl; cbn [shape]; now rewrite gam_shape).
    rewrite (fvals_ext gl s L nside (- n) (compA s L N nside (seen reality f) n) (amap (fun z => RtoC (2 * PI / IZR (2 * N - 1)) * z)%C (pl gam (n - n0))) t p); auto.
    - rewrite (fvals_lin gl s L nside (- n) (RtoC (2 * PI / IZR (2 * N - 1))) (RtoC 0) (pl gam (n - n0)) (pl gam (n - n0)) _ t p); auto; [ring|].
      split; [reflexivity|]. split; [reflexivity|]. intros ix _. cbn [amap get]. ring.
    - intros ix Hix. cbn [amap get]. symmetry. now apply gam_comp.
  Qed.

  (** what happens to the planes up to the sum over the rings *)
  Definition plane_values (ft : ndarray C) : Prop :=
    shape ft = [N - n0; gn g; 2 * L - 1] /\ forall n t m, n0 <= n < N -> 0 <= t < gn g -> - L < m < L ->
      (at3 ft (n - n0) t (m + L - 1) * Cconj (phase_of s nside t m))%C =
      csum (zrange 0 (gN g t)) (fun p => (cis (- (IZR m * gph g t p)) * fvals s L nside (- n) (pl gam (n - n0)) t p)%C).
  Lemma one_plane n : n0 <= n < N -> exists f1 f2 ftm,
    (if streq (lower (scheme_name s)) "mw" then mw_to_mwss b (pl gam (n - n0)) L (- n) else Ok (pl gam (n - n0))) = Ok f1 /\
    (if str_in (lower (scheme_name s)) ["mw"; "mwss"] then upsample_by_two_mwss b f1 L (- n) else Ok f1) = Ok f2 /\
    shape f2 = gsh g /\ pre_analysis b f2 L (scheme_name (fscheme s)) o false = Ok ftm /\ shape ftm = [gn g; 2 * L - 1] /\
    forall t m, 0 <= t < gn g -> - L < m < L -> (at2 ftm t (m + L - 1) * Cconj (phase_of s nside t m))%C =
      csum (zrange 0 (gN g t)) (fun p => (cis (- (IZR m * gph g t p)) * fvals s L nside (- n) (pl gam (n - n0)) t p)%C).
  Proof.
    intros Hn. pose proof S as (Hd & HL & Hns).
    assert (SP : shape (pl gam (n - n0)) = map_shape s L nside) by (unfold pl; cbn [shape]; now rewrite gam_shape).
    destruct (pre_resample b gl s (pl gam (n - n0)) L (- n) nside HL SP) as (f1 & f2 & E1 & E2 & S2 & _).
    destruct (pre_analysis_ok b gl s (pl gam (n - n0)) L (- n) nside o false HL SP) as (ftm & E & F & HF & HV).
    - intros Q. destruct (Hns Q), (Hh Q). auto.
    - discriminate.
    - rewrite E1 in E. cbn [bind] in E. rewrite E2 in E. cbn [bind] in E. exists f1, f2, ftm. split; [exact E1|]. split.
      { destruct (str_in _ _); [|injection E2 as -> _; reflexivity]. destruct (upsample_by_two_mwss b f1 L (- n)) as [q|]; [|discriminate E2]. cbn [bind] in E2.
        injection E2 as -> _. reflexivity. }
      split; [exact S2|]. split; [exact E|]. split; [exact (proj1 HF)|]. intros t m Ht Hm. rewrite (proj2 HF) by (cbn [md_of]; lia).
      specialize (HV t (m + L - 1) Ht ltac:(cbn [md_of]; lia)). cbv zeta in HV. cbn [ms_of] in HV. replace (m + L - 1 + 0 - (L - 1)) with m in HV by lia.
      exact HV.
  Qed.

  (** the rows of one plane are those of the array with all planes *)
  Lemma equi_rows r n ftm : s <> HEALPIX -> shape r = N - n0 :: gsh g -> n0 <= n < N ->
    pre_analysis b (pl r (n - n0)) L (scheme_name (fscheme s)) o false = Ok ftm ->
    forall t i, 0 <= t < gn g -> 0 <= i < 2 * L - 1 ->
      at3 (last_from (map3_2 (fun v => fftshift (fft_bwd v)) r) (mo_of (fscheme s))) (n - n0) t i = at2 ftm t i.
  Proof.
    intros D Sr Hn E t i Ht Hi. pose proof S as (_ & HL & _).
    assert (D' : fscheme s <> HEALPIX) by (destruct s; cbn [fscheme]; congruence).
    assert (EG : gsh g = [gn g; per_ring (fscheme s) L]) by (destruct s; congruence || reflexivity).
    assert (EP : per_ring (fscheme s) L = 2 * L - 1 + mo_of (fscheme s)) by (destruct s; cbn [fscheme per_ring mo_of]; try congruence; lia).
    assert (M01 : mo_of (fscheme s) = 0 \/ mo_of (fscheme s) = 1) by (destruct s; cbn [fscheme mo_of]; lia).
    assert (R3 : is_arr3 r (N - n0) (gn g) (per_ring (fscheme s) L) (at3 r)) by (split; [now rewrite Sr, EG|reflexivity]).
    assert (VE := vext_comp fftshift fft_bwd vext_fftshift vext_fft_bwd).
    assert (M3 := map3_2_ok (fun v => fftshift (fft_bwd v)) r _ _ _ (per_ring (fscheme s) L) _ R3 VE ltac:(intros v Hv; exact Hv)).
    assert (M4 := last_from_ok _ _ _ _ _ (mo_of (fscheme s)) M3 ltac:(lia)). rewrite (proj2 M4) by lia.
    assert (R2 : is_mat (pl r (n - n0)) (gn g) (per_ring (fscheme s) L) (fun t p => at3 r (n - n0) t p)) by (split; [unfold pl; cbn [shape]; now rewrite Sr, EG|reflexivity]).
    unfold pre_analysis in E. rewrite is_hp_name, m_offset_name in E.
    replace (match fscheme s with HEALPIX => true | _ => false end) with false in E by (destruct (fscheme s); congruence).
    assert (M1 : is_mat (map_rows (fun v => fftshift (fft_bwd v)) (pl r (n - n0))) (gn g) (per_ring (fscheme s) L)
      (fun t j => vat (fftshift (fft_bwd (mkVec (per_ring (fscheme s) L) (fun p => at3 r (n - n0) t p)))) j)).
    { eapply map_rows_ok; [exact R2|exact VE|reflexivity|reflexivity|lia]. }
    cbv zeta in E. injection E as <-.
    assert (S2 := MatFacts.slice2_ok _ _ _ _ 0 (gn g) (mo_of (fscheme s)) (per_ring (fscheme s) L) M1 ltac:(lia) ltac:(lia) ltac:(lia) ltac:(lia) ltac:(lia) ltac:(lia)).
    rewrite (is_mat_dim0 _ _ _ _ M1), (is_mat_dim1 _ _ _ _ M1). rewrite (proj2 S2) by lia. reflexivity.
  Qed.
  Definition ring_part (n_start_ind : Z) : result (ndarray C) :=
    let n0 := n_start_ind - N + 1 in
    let* fban := (if str_in (lower (scheme_name s)) ["mw"; "mwss"] && negb (dim0 gam =? N - n0) then Err ValueError else Ok gam) in
    let* fban := (if streq (lower (scheme_name s)) "mw" then map_planes (fun k p => mw_to_mwss b p L (- (n0 + k))) fban else Ok fban) in
    let* (fban, sampling) := (if str_in (lower (scheme_name s)) ["mw"; "mwss"]
                              then let* g := map_planes (fun k p => upsample_by_two_mwss b p L (- (n0 + k))) fban in
                                   Ok (squeeze0 g, "mwss")
                              else Ok (fban, scheme_name s)) in
    let mo := wm_offset sampling in
    if in_healpix sampling then
      let* sh := fnab_shape L N sampling o in
      let* ns := need o in
      let* temp := foldM (fun temp n =>
          let* p := plane fban (if reality then n else N - 1 + n) in
          let* rows := healpix_fft (RtoC 0) fft_bwd rfft_bwd (to_vec p) L ns (backend_name b) false in
          plane_set temp (N - 1 + n) (of_rows (2 * L) rows))
        (zrange n0 N) (zeros (RtoC 0) sh) in
      Ok (last_from (planes_from temp n_start_ind) mo)
    else if negb (Z.of_nat (List.length (shape fban)) =? 3) then Err IndexError
    else Ok (last_from (map3_2 (fun v => fftshift (fft_bwd v)) fban) mo).
  Lemma ring_part_ok : exists ft, ring_part (N - 1 + n0) = Ok ft /\ plane_values ft.
  Proof.
    pose proof S as (Hd & HL & Hns). unfold ring_part. replace (N - 1 + n0 - N + 1) with n0 by lia. cbv zeta.
    assert (Hn0 : 1 - N <= n0 < N) by (unfold n_low; destruct reality; lia).
    assert (DM : dim0 gam = N - n0) by (unfold dim0; now rewrite gam_shape). rewrite DM, Z.eqb_refl. cbn [negb]. rewrite andb_false_r. cbn [bind].
    assert (D : s = HEALPIX \/ s <> HEALPIX) by (destruct s; auto; right; discriminate). destruct D as [D|D].
    - destruct (Hns D) as (Hn1 & Ho). destruct (Hh D) as (Hh1 & Hh2).
      assert (E1 : streq (lower (scheme_name s)) "mw" = false) by now rewrite D. assert (E2 : str_in (lower (scheme_name s)) ["mw"; "mwss"] = false) by now rewrite D.
      rewrite E1, E2. cbn [bind]. rewrite in_healpix_name, wm_offset_name. rewrite (fnab_shape_ok s L N nside o S), Ho. replace (match s with HEALPIX => true | _ => false end) with true by now rewrite D.
      cbn [need bind].
      set (Q := fun n (q : ndarray C) => forall t m, 0 <= t < gn g -> - L < m < L -> (at2 q t (m + L) * Cconj (phase_of s nside t m))%C =
        csum (zrange 0 (gN g t)) (fun p => (cis (- (IZR m * gph g t p)) * fvals s L nside (- n) (pl gam (n - n0)) t p)%C)).
      match goal with |- context [foldM ?F _ ?z] => destruct (plane_loop N n0 [rings s L nside; orders s L] Q F z ltac:(lia) ltac:(lia) eq_refl) as (tb & -> & Sb & Gb & _) end.
      + intros n Hn. destruct (one_plane n Hn) as (f1 & f2 & ftm & P1 & P2 & P3 & P4 & P5 & P6). rewrite E1 in P1. rewrite E2 in P2. injection P1 as <-. injection P2 as <-.
        unfold pre_analysis in P4. rewrite is_hp_name, m_offset_name in P4. rewrite D in P4. cbn [fscheme mo_of] in P4. rewrite Ho in P4. cbn [need bind] in P4.
        assert (EPl : plane gam (if reality then n else N - 1 + n) = Ok (pl gam (n - n0))).
        { replace (if reality then n else N - 1 + n) with (n - n0) by (unfold n_low; destruct reality; lia).
          apply (plane_pl gam (N - n0) (map_shape s L nside)); [apply gam_shape|lia]. }
        destruct (healpix_fft (RtoC 0) fft_bwd rfft_bwd (to_vec (pl gam (n - n0))) L nside (backend_name b) false) as [rows|] eqn:EH; [|discriminate P4].
        cbn [bind] in P4. cbv zeta in P4. apply (f_equal (fun z => match z with Ok u => u | Err _ => ftm end)) in P4.
        assert (HB : backend_name b = "numpy" \/ backend_name b = "jax" /\ 2 <= nside) by (destruct b; auto).
        destruct (C12_lemma nside L (to_vec (pl gam (n - n0))) (backend_name b) Hn1 ltac:(lia)) as (rows' & EH' & [T1 T2] & _); [|exact HB|].
        { cbn [to_vec vlen]. unfold dim0, pl. cbn [shape]. rewrite gam_shape, D. reflexivity. }
        rewrite EH in EH'. injection EH' as <-.
        assert (M0 : is_mat (of_rows (2 * L) rows) (4 * nside - 1) (2 * L) (fun t k => vat (vat rows t) k)).
        { split; [cbn [of_rows mat shape]; now rewrite T1|]. intros; reflexivity. }
        exists (of_rows (2 * L) rows). split; [|split].
        * intros a. rewrite EPl. cbn [bind]. rewrite EH. reflexivity.
        * rewrite (proj1 M0), D. reflexivity.
        * intros t m Ht Hm. rewrite <- (P6 t m Ht Hm). f_equal. rewrite <- P4.
          assert (GN : gn g = 4 * nside - 1) by now rewrite D. rewrite GN in Ht.
          assert (M1 := MatFacts.slice2_ok _ _ _ _ 0 (4 * nside - 1) 1 (2 * L) M0 ltac:(lia) ltac:(lia) ltac:(lia) ltac:(lia) ltac:(lia) ltac:(lia)).
          rewrite (is_mat_dim0 _ _ _ _ M0), (is_mat_dim1 _ _ _ _ M0). rewrite (proj2 M1), (proj2 M0) by lia. f_equal; lia.
      + intros n q q' _ E HQ t m Ht Hm. unfold at2. rewrite <- E. now apply HQ.
      + cbn [bind]. eexists. split; [reflexivity|].
        assert (EO : orders s L = 2 * L /\ mo_of s = 1 /\ rings s L nside = gn g) by (rewrite D; auto). destruct EO as (EO & EM & ER).
        assert (TB : is_arr3 tb (2 * N - 1) (rings s L nside) (orders s L) (at3 tb)) by (split; [exact Sb|reflexivity]).
        assert (TP := planes_from_ok tb _ _ _ _ (N - 1 + n0) TB ltac:(lia)).
        assert (TL := last_from_ok _ _ _ _ _ (mo_of s) TP ltac:(lia)). split.
        * rewrite (proj1 TL), ER, EO, EM. f_equal; lia.
        * intros n t m Hn Ht Hm. rewrite (proj2 TL) by lia. specialize (Gb n Hn t m Ht Hm). rewrite <- Gb. f_equal. unfold at2, at3. cbn [get].
          rewrite EM. f_equal. f_equal; [lia|]. do 2 f_equal. lia.
    - assert (R : exists r, (let* fban := (if streq (lower (scheme_name s)) "mw" then map_planes (fun k p => mw_to_mwss b p L (- (n0 + k))) gam else Ok gam) in
          let* (fban, sampling) := (if str_in (lower (scheme_name s)) ["mw"; "mwss"]
                              then let* g := map_planes (fun k p => upsample_by_two_mwss b p L (- (n0 + k))) fban in
                                   Ok (squeeze0 g, "mwss")
                              else Ok (fban, scheme_name s)) in Ok (fban, sampling)) = Ok (r, scheme_name (fscheme s)) /\ shape r = N - n0 :: gsh g /\
          forall n, n0 <= n < N -> exists ftm, pre_analysis b (pl r (n - n0)) L (scheme_name (fscheme s)) o false = Ok ftm /\
            forall t m, 0 <= t < gn g -> - L < m < L -> (at2 ftm t (m + L - 1) * Cconj (phase_of s nside t m))%C =
              csum (zrange 0 (gN g t)) (fun p => (cis (- (IZR m * gph g t p)) * fvals s L nside (- n) (pl gam (n - n0)) t p)%C)).
      { assert (D2 : (s = MW \/ s = MWSS) \/ str_in (lower (scheme_name s)) ["mw"; "mwss"] = false /\ streq (lower (scheme_name s)) "mw" = false /\ fscheme s = s /\ gsh g = map_shape s L nside)
          by (destruct s; try congruence; auto; right; auto).
        destruct D2 as [D2|(E1 & E2 & E3 & E4)].
        - set (U := fun k p => if streq (lower (scheme_name s)) "mw" then mw_to_mwss b p L (- (n0 + k)) else Ok p).
          assert (R1 : exists r1, (if streq (lower (scheme_name s)) "mw" then map_planes (fun k p => mw_to_mwss b p L (- (n0 + k))) gam else Ok gam) = Ok r1 /\
            shape r1 = N - n0 :: [L + 1; 2 * L] /\ forall k, 0 <= k < N - n0 -> U k (pl gam k) = Ok (pl r1 k)).
          { destruct D2 as [D2|D2].
            - unfold U. replace (streq (lower (scheme_name s)) "mw") with true by now rewrite D2.
              apply (map_planes_ok (fun k p => mw_to_mwss b p L (- (n0 + k))) gam (N - n0) (map_shape s L nside)); [apply gam_shape|lia|]. intros k Hk.
              destruct (mw_op_ok L (- (n0 + k)) HL b (pl gam k) (at2 (pl gam k))) as (q & Eq & Hq).
              + split; [|reflexivity]. unfold pl. cbn [shape]. rewrite gam_shape, D2. reflexivity.
              + exists q. split; [exact Eq|exact (proj1 Hq)].
            - unfold U. replace (streq (lower (scheme_name s)) "mw") with false by now rewrite D2. exists gam. split; [reflexivity|].
              split; [rewrite gam_shape, D2; reflexivity|auto]. }
          destruct R1 as (r1 & -> & S1 & G1). cbn [bind].
          assert (E2 : str_in (lower (scheme_name s)) ["mw"; "mwss"] = true) by (destruct D2 as [-> | ->]; reflexivity). rewrite E2.
          assert (EF : scheme_name (fscheme s) = "mwss") by (destruct D2 as [-> | ->]; reflexivity).
          destruct (map_planes_ok (fun k p => upsample_by_two_mwss b p L (- (n0 + k))) r1 (N - n0) [L + 1; 2 * L] (gsh g) S1 ltac:(lia)) as (r2 & -> & S2 & G2).
          { intros k Hk. destruct (one_plane (n0 + k) ltac:(lia)) as (f1 & f2 & ftm & P1 & P2 & P3 & _). replace (n0 + k - n0) with k in P1 by lia.
            rewrite E2 in P2. specialize (G1 k Hk). unfold U in G1. rewrite P1 in G1. injection G1 as <-. exists f2. auto. }
          cbn [bind]. exists r2. split.
          { rewrite EF. do 2 f_equal. unfold squeeze0, dim0. rewrite S2. cbn [nth]. replace (N - n0 =? 1) with false; [reflexivity|].
            specialize (HM D2). unfold n_low. destruct reality; lia. }
          split; [exact S2|]. intros n Hn. destruct (one_plane n Hn) as (f1 & f2 & ftm & P1 & P2 & P3 & P4 & P5 & P6). exists ftm. split; [|exact P6].
          specialize (G1 (n - n0) ltac:(lia)). specialize (G2 (n - n0) ltac:(lia)). cbv beta in G2. unfold U in G1. replace (n0 + (n - n0)) with n in G1, G2 by lia. rewrite P1 in G1. injection G1 as ->.
          rewrite E2 in P2. rewrite P2 in G2. injection G2 as <-. exact P4.
        - rewrite E1, E2. cbn [bind]. exists gam. rewrite E3. split; [reflexivity|]. split; [rewrite gam_shape, E4; reflexivity|].
          intros n Hn. destruct (one_plane n Hn) as (f1 & f2 & ftm & P1 & P2 & P3 & P4 & P5 & P6). rewrite E2 in P1. rewrite E1 in P2. injection P1 as <-. injection P2 as <-.
          exists ftm. rewrite E3 in P4. auto. }
      destruct R as (r & ER & Sr & Hr). destruct (if streq (lower (scheme_name s)) "mw" then _ else _) as [r1|]; [|discriminate ER]. cbn [bind] in ER |- *.
      destruct (if str_in (lower (scheme_name s)) _ then _ else _) as [[r2 nm]|]; [|discriminate ER]. cbn [bind] in ER |- *. injection ER as -> ->.
      rewrite in_healpix_name, wm_offset_name.
      assert (D' : fscheme s <> HEALPIX) by (destruct s; cbn [fscheme]; congruence).
      replace (match fscheme s with HEALPIX => true | _ => false end) with false by (destruct (fscheme s); congruence).
      assert (EG : gsh g = [gn g; per_ring (fscheme s) L]) by (destruct s; congruence || reflexivity).
      assert (EP : per_ring (fscheme s) L = 2 * L - 1 + mo_of (fscheme s)) by (destruct s; cbn [fscheme per_ring mo_of]; try congruence; lia).
      assert (M01 : mo_of (fscheme s) = 0 \/ mo_of (fscheme s) = 1) by (destruct s; cbn [fscheme mo_of]; lia).
      rewrite Sr, EG. cbn [List.length Z.of_nat Pos.of_succ_nat Pos.succ Z.eqb Pos.eqb negb]. eexists. split; [reflexivity|].
      assert (R3 : is_arr3 r (N - n0) (gn g) (per_ring (fscheme s) L) (at3 r)) by (split; [now rewrite Sr, EG|reflexivity]).
      assert (VE := vext_comp fftshift fft_bwd vext_fftshift vext_fft_bwd).
      assert (M3 := map3_2_ok (fun v => fftshift (fft_bwd v)) r _ _ _ (per_ring (fscheme s) L) _ R3 VE ltac:(intros v Hv; exact Hv)).
      assert (M4 := last_from_ok _ _ _ _ _ (mo_of (fscheme s)) M3 ltac:(lia)). split.
      + rewrite (proj1 M4). do 3 f_equal. lia.
      + intros n t m Hn Ht Hm. destruct (Hr n Hn) as (ftm & E & H). rewrite <- H by auto. f_equal. apply equi_rows; auto. lia.
  Qed.

  Variables (K : ndarray C) (w : vec R).
  Hypothesis HK : is_arr4 K (n_dim N reality) (gn g) L (2 * L - 1)
    (fun k t el i => wkval g N true w (fun t m => Cconj (phase_of s nside t m)) (n0 + k) t el (i - (L - 1))).
  Lemma kernel_fsum ft n el m : plane_values ft -> n0 <= n < N -> 0 <= el < L -> - L < m < L ->
    csum (zrange 0 (gn g)) (fun t => (wkval g N true w (fun t m => Cconj (phase_of s nside t m)) n t el m * at3 ft (n - n0) t (m + L - 1))%C) =
    (X3 gl s L N 0 nside (seen reality f) w n el m * RtoC (norm3 el))%C.
  Proof.
    intros (_ & HV) Hn Hel Hm. unfold X3. assert (Hn0 : 1 - N <= n0) by (unfold n_low; destruct reality; lia).
    transitivity ((if Z.max 0 (Z.abs n) <=? el then RtoC (sgn n) * fsum g (- n) w (fvals s L nside (- n) (compA s L N nside (seen reality f) n)) el m else RtoC 0) * RtoC (norm3 el))%C.
    2:{ destruct (_ <=? el); [reflexivity|ring]. }
    destruct (Z.leb_spec (Z.max 0 (Z.abs n)) el) as [Hl|Hl].
    - unfold fsum. rewrite <- cs_scal_l, <- cs_scal_r. apply cr_ext. intros t Ht. unfold wkval.
      transitivity (RtoC (wigner_d el m n (gth g t) * (vat w t * (2 * PI / IZR (2 * N - 1)))) * (at3 ft (n - n0) t (m + L - 1) * Cconj (phase_of s nside t m)))%C; [ring|].
      rewrite (HV n t m Hn Ht Hm).
      rewrite (cr_ext _ _ (fun p => (cis (- (IZR m * gph g t p)) * fvals s L nside (- n) (compA s L N nside (seen reality f) n) t p)%C)
        (fun p => (RtoC (2 * PI / IZR (2 * N - 1)) * (cis (- (IZR m * gph g t p)) * fvals s L nside (- n) (pl gam (n - n0)) t p))%C)).
      2:{ intros p Hp. rewrite gam_fvals by (auto; split; auto). ring. }
      rewrite cs_scal_l, Z.opp_involutive, sgn_opp.
      set (I := csum _ _). rewrite !Cmult_assoc, <- !RtoC_mult. rewrite (Cmult_comm _ (RtoC (norm3 el))), !Cmult_assoc, <- !RtoC_mult. f_equal. f_equal.
      replace (norm3 el * (sgn n * (vat w t * sgn n * elfactor el * wigner_d el m n (gth g t)) * (2 * PI / IZR (2 * N - 1))))%R
        with ((elfactor el * norm3 el) * (sgn n * sgn n) * (wigner_d el m n (gth g t) * (vat w t * (2 * PI / IZR (2 * N - 1)))))%R by ring.
      rewrite elfactor_norm, sgn_sq by lia. ring.
    - rewrite Cmult_0_l. apply cr_0. intros t Ht. unfold wkval. rewrite wig_out by lia. rewrite Rmult_0_l. ring.
  Qed.
  Lemma pw_forward_at : exists flmn, pw_forward_transform b f K L N (scheme_name s) reality o = Ok flmn /\
    holds_coefficients3 L N flmn (fun n el m => (out3 reality (X3 gl s L N 0 nside (seen reality f) w) n el m * RtoC (norm3 el))%C).
  Proof.
    unfold pw_forward_transform. pose proof S as (Hd & HL & Hns).
    assert (EL : Z.of_nat (List.length (shape f)) = if streq (lower (scheme_name s)) "healpix" then 2 else 3) by (rewrite Hf; destruct s; reflexivity).
    rewrite EL, Z.eqb_refl. cbn [negb]. fold gam.
    assert (Hst : (if reality then N - 1 else 0) = N - 1 + n0) by (unfold n_low; destruct reality; lia). rewrite Hst.
    assert (Hn0 : 1 - N <= n0 < N) by (unfold n_low; destruct reality; lia).
    assert (Hnd : n_dim N reality = N - n0) by (unfold n_low, n_dim; destruct reality; lia).
    destruct ring_part_ok as (ft & ER & HV). assert (Sft := proj1 HV). unfold ring_part in ER. cbv zeta in ER |- *.
    destruct (if _ && _ then Err ValueError else Ok gam) as [r1|]; [|discriminate ER]. cbn [bind] in ER |- *.
    destruct (if streq (lower (scheme_name s)) "mw" then _ else _) as [r2|]; [|discriminate ER]. cbn [bind] in ER |- *.
    destruct (if str_in (lower (scheme_name s)) _ then _ else _) as [[r3 nm]|]; [|discriminate ER]. cbn [bind] in ER |- *.
    rewrite ER. cbn [bind].
    assert (F3 : is_arr3 ft (n_dim N reality) (gn g) (2 * L - 1) (at3 ft)) by (split; [now rewrite Hnd|reflexivity]).
    destruct (ntlm_ntm_ok K ft _ _ _ _ _ _ HK F3) as (e & -> & He). cbn [bind].
    assert (He' : is_arr3 e (2 * N - 1 - (N - 1 + n0)) L (2 * L - 1 - 0) (fun k el i => (X3 gl s L N 0 nside (seen reality f) w (n0 + k) el (i - (L - 1)) * RtoC (norm3 el))%C)).
    { replace (2 * N - 1 - (N - 1 + n0)) with (n_dim N reality) by lia. replace (2 * L - 1 - 0) with (2 * L - 1) by lia.
      eapply is_arr3_ext; [exact He|]. intros k el i Hk Hel Hi. cbv beta. rewrite <- (kernel_fsum ft) by (auto; lia). apply cr_ext. intros t Ht.
      replace (n0 + k - n0) with k by lia. replace (i - (L - 1) + L - 1) with i by lia. reflexivity. }
    destruct (tail_set_ok (zeros (RtoC 0) (flmn_shape L N)) e _ _ _ _ _ (N - 1 + n0) 0 (zeros3 (RtoC 0) (2 * N - 1) L (2 * L - 1)) He' ltac:(lia) ltac:(lia)) as (a & -> & Ha). cbn [bind].
    set (X := X3 gl s L N 0 nside (seen reality f) w) in *.
    destruct (Sumbool.sumbool_of_bool reality) as [Hr|Hr].
    - assert (N0 : n0 = 0) by (unfold n_low; now rewrite Hr). rewrite N0 in *. rewrite Hr. unfold reality_fill. replace (N - 1 + 0) with (N - 1) in * by lia.
      pose proof (amap3_ok Cconj _ _ _ _ _ (map3_2_ok vrev _ _ _ _ (2 * L - 1) _ (map3_0_ok vrev _ _ _ _ (2 * N - 1 - (N - 1 + 1)) _ (planes_from_ok a _ _ _ _ (N - 1 + 1) Ha ltac:(lia))
        vext_vrev ltac:(intros v Hv; exact Hv)) vext_vrev ltac:(intros v Hv; exact Hv))) as H8.
      replace (2 * N - 1 - (N - 1 + 1)) with (N - 1) in H8 by lia.
      destruct (ntm_m_n_ok _ (abs_signs (- L + 1) L) (abs_signs (- N + 1) 0) _ _ _ _ H8) as (t8 & E8 & Ht); try (cbn [abs_signs vlen]; lia).
      cbv zeta. rewrite E8. cbn [bind].
      destruct (head_set_ok a t8 _ _ _ _ _ (N - 1) Ha Ht ltac:(lia)) as (x & -> & Hx). exists x. split; [reflexivity|]. split; [exact (proj1 Hx)|].
      intros n el m Hn Hel Hm. unfold stored3. pose proof (proj2 Hx (n + N - 1) el (m + L - 1) ltac:(lia) ltac:(lia) ltac:(lia)) as Q. unfold at3 in Q.
      match goal with |- get x ?ix = _ => replace ix with [n + N - 1; el; m + L - 1] by (do 2 f_equal; lia) end. rewrite Q. clear Q. unfold out3. cbn [andb].
      destruct (Z.ltb_spec n 0).
      + replace (n + N - 1 <? N - 1) with true by lia. cbn [vat vrev vlen abs_signs].
        match goal with |- context [if ?c then _ else _] => replace c with true by lia end. cbv iota.
        rewrite !sgn_abs. rewrite Cconj_mult, Cconj_R. replace (- L + 1 + (m + L - 1)) with m by lia. replace (- N + 1 + (n + N - 1)) with n by lia.
        match goal with |- (Cconj (X ?u el ?v) * _ * _ * _)%C = _ => replace u with (- n) by lia; replace v with (- m) by lia end.
        rewrite sgn_add, RtoC_mult. ring.
      + replace (n + N - 1 <? N - 1) with false by lia. replace ((N - 1 <=? n + N - 1) && (0 <=? m + L - 1)) with true by lia.
        do 2 f_equal; lia.
    - assert (N0 : n0 = 1 - N) by (unfold n_low; now rewrite Hr). rewrite N0 in *. rewrite Hr. exists a. split; [reflexivity|]. split; [exact (proj1 Ha)|].
      intros n el m Hn Hel Hm. unfold stored3. pose proof (proj2 Ha (n + N - 1) el (m + L - 1) ltac:(lia) ltac:(lia) ltac:(lia)) as Q. unfold at3 in Q.
      match goal with |- get a ?ix = _ => replace ix with [n + N - 1; el; m + L - 1] by (do 2 f_equal; lia) end. rewrite Q. clear Q. unfold out3. cbn [andb].
      replace ((N - 1 + (1 - N) <=? n + N - 1) && (0 <=? m + L - 1)) with true by lia. do 2 f_equal; lia.
  Qed.
End Fwd.

(** ** The entry point *)
Lemma X3_ogrid gl s L N Lo nside f w n el m :
  X3 gl s L N Lo nside f w n el m = X3o (ogrid s L nside (th_of gl (fscheme s) (match s with MW | MWSS => 2 * L | _ => L end) nside)) s L N nside Lo f w false n el m.
Proof. rewrite ogrid_exact. reflexivity. Qed.
Lemma X3_T3 gl s L N Lo nside f w n el m : X3 gl s L N Lo nside f w n el m = T3 gl s L N nside Lo f w false n el m.
Proof. unfold X3, T3, coeffs. rewrite Z.abs_opp. reflexivity. Qed.

Lemma pw_forward_lemma gl method b s f L N kernel nside o reality :
  pw_forward_hyps gl b s f L N nside o -> runs_on method b -> wkernel_given gl L N reality s (scheme_name s) o true kernel ->
  exists w flmn, quad_weights_transform gl L (scheme_name (fscheme s)) 0 o = Ok w /\ pw_forward gl f L N kernel (scheme_name s) reality method o = Ok flmn /\
    holds_coefficients3 L N flmn (fun n el m => (out3 reality (X3 gl s L N 0 nside (seen reality f) w) n el m * RtoC (norm3 el))%C).
Proof.
  intros (S & HN & Hf & Hg & Hh & HM) Hb HK.
  destruct (given_wkernel gl b (scheme_name s) s L N nside o true reality kernel S HN ltac:(intros Q; destruct (Hg Q); auto) HK) as (K & w & EK & Ew & HK').
  specialize (Ew eq_refl). replace (fname (scheme_name s) s) with (scheme_name (fscheme s)) in Ew by (destruct s; reflexivity). exists w.
  unfold pw_forward. rewrite (runs_backend _ _ Hb). cbn [bind]. rewrite EK. cbn [bind].
  destruct (pw_forward_at b gl s L N nside o reality f S HN Hf Hh HM K w HK') as (flmn & E & H). exists flmn. auto.
Qed.
Lemma seen_idem reality f : seen reality (seen reality f) = seen reality f.
Proof. destruct reality; [|reflexivity]. unfold seen, amap. cbn [shape get]. f_equal. Qed.

(** the quadrature sum, on the schemes that are not resampled *)
Lemma pw_forward_sum gl method b s f L N kernel nside o reality x : s = DH \/ s = GL \/ s = HEALPIX ->
  pw_forward_hyps gl b s f L N nside o -> runs_on method b -> wkernel_given gl L N reality s (scheme_name s) o true kernel ->
  (forall t, 0 <= t < rings s L nside -> colatitude (vat (gl_nodes gl L)) s L nside t (x t)) ->
  exists w flmn, quad_weights_transform gl L (scheme_name s) 0 o = Ok w /\ pw_forward gl f L N kernel (scheme_name s) reality method o = Ok flmn /\
    holds_coefficients3 L N flmn (wigner_sum s L N nside (vat w) x (fun g t p => let z := get f (g :: sample_index s nside t p) in if reality then RtoC (Re z) else z)).
Proof.
  intros Hs H Hb HK Hx. destruct (pw_forward_lemma gl method b s f L N kernel nside o reality H Hb HK) as (w & flmn & Ew & E & S1 & H1).
  destruct H as (S & HN & Hf & _). pose proof S as (Hd & HL & Hns). assert (Hn1 : s = HEALPIX -> 1 <= nside) by (intros Q; apply (Hns Q)).
  exists w, flmn. split; [destruct Hs as [->|[->| ->]]; exact Ew|]. split; [exact E|]. split; [exact S1|]. intros n el m Hk Hel Hm. rewrite H1 by auto.
  set (y := th_of gl (fscheme s) (match s with MW | MWSS => 2 * L | _ => L end) nside).
  assert (Y : forall t, 0 <= t < rings s L nside -> y t = x t).
  { intros t Ht. rewrite (colat_unique gl s L nside t (x t)) by auto. unfold y. destruct Hs as [->|[->| ->]]; reflexivity. }
  rewrite (out3_ext reality _ (X3o (ogrid s L nside y) s L N nside 0 (seen reality f) w false)) by apply X3_ogrid.
  assert (EX : out3 reality (X3o (ogrid s L nside y) s L N nside 0 (seen reality f) w false) n el m = X3o (ogrid s L nside y) s L N nside 0 (seen reality f) w false n el m).
  { destruct reality; [|reflexivity]. apply (X3o_out gl); [|exact Hk]. intros k t q _ _. destruct (plain_grid s L nside y Hs) as (_ & _ & _ & G4). rewrite !G4. cbn [compA get].
    apply comp_real. reflexivity. }
  rewrite EX, X3o_sum by (auto; lia).
  transitivity (wigner_sum s L N nside (vat w) y (fun g t p => get (seen reality f) (g :: sample_index s nside t p)) n el m).
  - destruct (Z.leb_spec (Z.max 0 (Z.abs n)) el); [reflexivity|]. symmetry. apply cr_0. intros t Ht. rewrite wig_out by lia. rewrite Rmult_0_r. ring.
  - unfold wigner_sum. apply cr_ext. intros t Ht. rewrite Y by auto. f_equal. apply cr_ext. intros q Hq. f_equal. f_equal. apply cr_ext. intros g Hg'. f_equal.
    unfold seen. destruct reality; reflexivity.
Qed.

(** the coefficients of real signals do not depend on the flag *)
Lemma pw_forward_real gl method b s f L N kernel nside o reality : nodes_ok s L (gl_nodes gl L) ->
  pw_forward_hyps gl b s f L N nside o -> runs_on method b -> wkernel_given gl L N reality s (scheme_name s) o true kernel ->
  (reality = true -> so3_real_map (vat (gl_nodes gl L)) s L N nside f) ->
  exists w flmn, quad_weights_transform gl L (scheme_name (fscheme s)) 0 o = Ok w /\ pw_forward gl f L N kernel (scheme_name s) reality method o = Ok flmn /\
    holds_coefficients3 L N flmn (fun n el m => (X3 gl s L N 0 nside f w n el m * RtoC (norm3 el))%C).
Proof.
  intros Hno H Hb HK HR. destruct (pw_forward_lemma gl method b s f L N kernel nside o reality H Hb HK) as (w & flmn & Ew & E & S1 & H1).
  destruct H as (S & HN & Hf & _). pose proof S as (Hd & HL & Hns). assert (Hn1 : s = HEALPIX -> 1 <= nside) by (intros Q; apply (Hns Q)).
  exists w, flmn. split; [exact Ew|]. split; [exact E|]. split; [exact S1|]. intros n el m Hk Hel Hm. rewrite H1 by auto. f_equal.
  destruct reality; [|reflexivity]. specialize (HR eq_refl).
  assert (CC := comp_conj_gen gl s L N nside (seen true f) HL ltac:(lia) Hn1 Hno Hf (real_map_seen _ _ _ _ _ _ HR)).
  rewrite (out3_ext true _ (X3o (ogrid s L nside (th_of gl (fscheme s) (match s with MW | MWSS => 2 * L | _ => L end) nside)) s L N nside 0 (seen true f) w false)) by apply X3_ogrid.
  rewrite (X3o_out gl) by auto. rewrite <- X3_ogrid. unfold X3. f_equal. destruct (_ <=? el); [|reflexivity]. apply fsum_ext. intros t q IG.
  apply (fvals_ext gl); auto. intros ix Hix. apply (seen_comp gl); auto. apply (real_samples_gen gl s L N nside f); auto.
Qed.
Lemma pw_forward_agree gl method b method' b' s f L N kernel kernel' nside o reality reality' : nodes_ok s L (gl_nodes gl L) ->
  pw_forward_hyps gl b s f L N nside o -> pw_forward_hyps gl b' s f L N nside o -> runs_on method b -> runs_on method' b' ->
  wkernel_given gl L N reality s (scheme_name s) o true kernel -> wkernel_given gl L N reality' s (scheme_name s) o true kernel' ->
  (reality || reality' = true -> so3_real_map (vat (gl_nodes gl L)) s L N nside f) ->
  same_ok (pw_forward gl f L N kernel (scheme_name s) reality method o) (pw_forward gl f L N kernel' (scheme_name s) reality' method' o).
Proof.
  intros Hno H H' Hb Hb' HK HK' HR. destruct (pw_forward_real gl method b s f L N kernel nside o reality Hno H Hb HK) as (w & a & Ew & E & Ha); [intros ->; now apply HR|].
  destruct (pw_forward_real gl method' b' s f L N kernel' nside o reality' Hno H' Hb' HK') as (w' & a' & Ew' & E' & Ha'); [intros ->; apply HR, orb_true_r|].
  rewrite Ew in Ew'. injection Ew' as <-. exists a, a'. split; [exact E|]. split; [exact E'|]. eapply holds_same3; eauto.
Qed.
Lemma pw_forward_hermitian gl method b s f L N kernel nside o reality flmn : nodes_ok s L (gl_nodes gl L) ->
  pw_forward_hyps gl b s f L N nside o -> runs_on method b -> wkernel_given gl L N reality s (scheme_name s) o true kernel ->
  so3_real_map (vat (gl_nodes gl L)) s L N nside f -> pw_forward gl f L N kernel (scheme_name s) reality method o = Ok flmn -> hermitian3 L N (stored3 L N flmn).
Proof.
  intros Hno H Hb HK HR E. destruct (pw_forward_real gl method b s f L N kernel nside o reality Hno H Hb HK ltac:(auto)) as (w & a & Ew & E' & Sa & Ha).
  rewrite E in E'. injection E' as <-. destruct H as (S & HN & Hf & _). pose proof S as (Hd & HL & Hns). assert (Hn1 : s = HEALPIX -> 1 <= nside) by (intros Q; apply (Hns Q)).
  assert (CC := comp_conj_gen gl s L N nside f HL ltac:(lia) Hn1 Hno Hf HR).
  intros n l m Hk Hl Hm. rewrite !Ha by lia. rewrite !X3_ogrid. rewrite (X3o_conj gl) by auto. rewrite Cconj_mult, Cconj_R. ring.
Qed.
(** the reference transform returns the same *)
Lemma pw_forward_same gl method b s f L N kernel nside o reality :
  pw_forward_hyps gl b s f L N nside o -> runs_on method b -> wkernel_given gl L N reality s (scheme_name s) o true kernel ->
  forward_rings_away (vat (gl_nodes gl L)) s L nside -> (reality = true -> so3_real_map (vat (gl_nodes gl L)) s L N nside f) ->
  same_ok (pw_forward gl f L N kernel (scheme_name s) reality method o) (wigner_forward gl f L N 0 (scheme_name s) reality o).
Proof.
  intros H Hb HK Ha HR.
  assert (HG : nodes_ok s L (gl_nodes gl L)).
  { intros -> i Hi. destruct (Ha (L - 1 - i)) as (x & [_ Q] & _); [cbn; lia|]. replace (L - 1 - (L - 1 - i)) with i in Q by lia. rewrite <- Q. apply COS_bound. }
  destruct (pw_forward_real gl method b s f L N kernel nside o reality HG H Hb HK HR) as (w & a & Ew & E & Haa).
  destruct H as (S & HN & Hf & Hg & Hh & _). pose proof S as (Hd & HL & Hns). assert (Hn1 : s = HEALPIX -> 1 <= nside) by (intros Q; apply (Hns Q)).
  assert (CC : reality = true -> _) by (intros Q; exact (comp_conj_gen gl s L N nside f HL ltac:(lia) Hn1 HG Hf (HR Q))).
  assert (RS : reality = true -> forall ix, in_shape (shape f) ix -> is_real (get f ix)) by (intros Q; apply (real_samples_gen gl s L N nside f); auto).
  replace (scheme_name (fscheme s)) with (fname (scheme_name s) s) in Ew by (destruct s; reflexivity).
  destruct (wigner_analysis gl s L N 0 nside o f S ltac:(lia) ltac:(lia) Hg Ha ltac:(intros Q; apply (Hh Q)) Hf reality w Ew) as (c & Ec & Hc).
  { intros Q g ix Hgg Hix. apply RS; auto. rewrite Hf. split; [exact Hgg|]. apply (sample_in gl); auto. }
  { intros Q t p IG. apply (comp0_fvals gl s L N nside f (CC Q)); auto. lia. }
  exists a, c. split; [exact E|]. split; [exact Ec|]. apply (holds_same3 L N a c _ Haa). destruct Hc as (Sc & Hc). split; [exact Sc|].
  intros n el m Hk Hel Hm. rewrite Hc by auto. f_equal. destruct reality; [|reflexivity]. rewrite (out3_ext true _ (X3o (ogrid s L nside (th_of gl (fscheme s) (match s with MW | MWSS => 2 * L | _ => L end) nside)) s L N nside 0 f w false)) by apply X3_ogrid.
  rewrite (X3o_out gl) by auto. now rewrite <- X3_ogrid.
Qed.

(** recovery of the coefficients *)
Lemma pw_recover gl method b s f L N kernel nside o reality c : s <> HEALPIX -> 2 <= L ->
  pw_forward_hyps gl b s f L N nside o -> runs_on method b -> wkernel_given gl L N reality s (scheme_name s) o true kernel ->
  (s = GL -> gauss_legendre L (gl_nodes gl L) (gl_weights gl L)) -> (reality = true -> hermitian3 L N c) ->
  so3_holds (vat (gl_nodes gl L)) s L N nside f (so3_synth L N c) ->
  exists flmn, pw_forward gl f L N kernel (scheme_name s) reality method o = Ok flmn /\ holds_coefficients3 L N flmn (restricted3 0 c).
Proof.
  intros Hs HL2 H Hb HK HG Hr HF. destruct (pw_forward_lemma gl method b s f L N kernel nside o reality H Hb HK) as (w & flmn & Ew & E & S1 & H1).
  destruct H as (S & HN & Hf & _). exists flmn. split; [exact E|]. split; [exact S1|]. intros n el m Hk Hel Hm. rewrite H1 by auto.
  assert (Ew' : quad_weights_transform gl L (scheme_name (fscheme s)) 0 (Some nside) = Ok w) by (rewrite <- Ew; destruct s; try congruence; reflexivity).
  assert (XV : forall n m, - N < n < N -> - L < m < L -> (X3 gl s L N 0 nside (seen reality f) w n el m * RtoC (norm3 el) = restricted3 0 c n el m)%C).
  { intros k q Hkk Hq. rewrite X3_T3. apply T3_exact; auto; try lia; try discriminate. }
  unfold out3. destruct (reality && (n <? 0)) eqn:Q; [|now apply XV]. apply andb_prop in Q. destruct Q as (Q1 & Q2).
  transitivity (RtoC (sgn (m + n)) * Cconj (X3 gl s L N 0 nside (seen reality f) w (- n)%Z el (- m)%Z * RtoC (norm3 el)))%C; [rewrite Cconj_mult, Cconj_R; ring|].
  rewrite XV by lia. unfold restricted3. rewrite !Z.abs_opp. destruct ((Z.max 0 (Z.abs n) <=? el) && (Z.abs m <=? el)) eqn:B; [|rewrite Cconj_R; ring].
  rewrite (Hr Q1 n el m) by lia. rewrite Cconj_mult, Cconj_R, Cconj_conj, Cmult_assoc, <- RtoC_mult, sgn_sq. ring.
Qed.
Lemma pw_round_trip gl minv binv mfwd bfwd s flmn L N kinv kfwd nside o reality : s <> HEALPIX -> 2 <= L ->
  setting (scheme_name s) s L nside o -> 1 <= N <= L -> (s = MW \/ s = MWSS -> 2 <= N) -> shape flmn = [2 * N - 1; L; 2 * L - 1] ->
  (s = GL -> gauss_legendre L (gl_nodes gl L) (gl_weights gl L)) -> runs_on minv binv -> runs_on mfwd bfwd ->
  wkernel_given gl L N reality s (scheme_name s) o false kinv -> wkernel_given gl L N reality s (scheme_name s) o true kfwd ->
  (reality = true -> hermitian3 L N (stored3 L N flmn)) ->
  exists f flmn', pw_inverse gl flmn L N kinv (scheme_name s) reality minv o = Ok f /\
    pw_forward gl f L N kfwd (scheme_name s) reality mfwd o = Ok flmn' /\ holds_coefficients3 L N flmn' (restricted3 0 (stored3 L N flmn)).
Proof.
  intros Hs HL2 S HN HM Hf HG Hb1 Hb2 K1 K2 Hr.
  assert (Hp : reality = true -> hermitian_plane L N flmn).
  { intros Q el m Hel Hm. pose proof (Hr Q 0 el m ltac:(lia) ltac:(lia) ltac:(lia)) as P. change (- 0) with 0 in P. now rewrite Z.add_0_r in P. }
  destruct (pw_inverse_lemma gl minv binv s flmn L N kinv nside o reality S HN Hf ltac:(intros Q; apply (HG Q)) ltac:(congruence) Hb1 K1) as (f & E & HF).
  assert (HS : so3_holds (vat (gl_nodes gl L)) s L N nside f (so3_synth L N (stored3 L N flmn))).
  { destruct HF as (Sf & Gf). split; [exact Sf|]. intros g t p x Hg Ht Hpp Hx. rewrite (Gf g t p x) by auto. apply so3_synth_ext. intros n l m Hk Hl Hm.
    rewrite mean3_used by (auto; lia). unfold used3. replace (l <? 0) with false by lia. destruct reality; [|reflexivity]. apply (real_ext3 L N); auto. }
  destruct (pw_recover gl mfwd bfwd s f L N kfwd nside o reality (stored3 L N flmn) Hs HL2) as (a & Ea & Haa); auto.
  - split; [exact S|]. split; [exact HN|]. split; [apply HS|]. split; [intros Q; destruct (HG Q) as (G1 & G2 & _); auto|]. split; [congruence|exact HM].
  - exists f, a. auto.
Qed.
