(** The reference forward transforms compute the quadrature sums over their grid. *)
From Coq Require Import Reals ZifyBool Lra.
From Coquelicot Require Import Complex.
From Verif Require Import Lib.Py Lib.PyFacts Lib.Vec Lib.VecFacts Lib.Sums Lib.Cplx Lib.Arr Lib.ArrFacts Lib.MatFacts
  Model.Index Model.Samples Model.Grids Model.FFT Model.HealpixFFT Model.Turok Model.Resampling Model.Spherical
  Spec.SamplesSpec Spec.WignerSpec Spec.SphereSpec Spec.GridSpec Spec.HealpixFFTSpec
  Proofs.SamplesProofs Proofs.GridProofs Proofs.PixelProofs Proofs.TurokProofs Proofs.HealpixDFTProofs Proofs.SphGrid
  Proofs.SphInverse.
Open Scope string_scope.
Open Scope Z_scope.

Lemma pairs_sum (T : Z -> C) n : 0 <= n ->
  csum (zrange (- n) (n + 1)) T = (T 0%Z + csum (zrange 1 (n + 1)) (fun m => (T m + T (- m)%Z)%C))%C.
Proof.
  intros Hn. rewrite (cr_split (- n) 0 (n + 1)) by lia. rewrite (cr_cons 0 (n + 1)) by lia.
  rewrite (cs_plus (zrange 1 (n + 1)) T). change (0 + 1) with 1.
  rewrite <- (cr_perm 1 (n + 1) (- n) 0 Z.opp T) by lia. ring.
Qed.

Lemma at1_sum {X} (l : list X) e (v : X -> C) ix : csum l (fun x => at1 e (v x) ix) = at1 e (csum l v) ix.
Proof. unfold one_at. destruct (list_eq_dec _ _ _); [reflexivity|]. apply cs_0. reflexivity. Qed.

(** the orders of each ring, as the FFT methods hold them *)
Definition fts (g : grid) (f : ndarray C) (t m : Z) : C :=
  csum (zrange 0 (gN g t)) (fun p => (cis (- (IZR m * gph g t p)) * get f (ge g t p))%C).

Definition fta_ok (s : scheme) (L nside : Z) (g : grid) (f : ndarray C) (reality : bool) (ftm : ndarray C) : Prop :=
  shape ftm = [gn g; orders s L] /\ forall t m, 0 <= t < gn g -> - L < m < L -> (reality = true -> 0 <= m) ->
    (at2 ftm t (m + L - 1 + mo_of s) * Cconj (phase_of s nside t m))%C = fts g f t m.

Lemma real_conj (z : C) : is_real z -> Cconj z = z.
Proof. destruct z as [x y]. unfold is_real, Cconj. cbn. intros ->. f_equal. ring. Qed.
Lemma real_Re (z : C) : is_real z -> RtoC (Re z) = z.
Proof. intros H. apply Re_R, real_conj, H. Qed.

Lemma vext_rfft : vext rfft_bwd.
Proof.
  intros v w E. pose proof (proj1 E) as El. split; [cbn [rfft_bwd vlen]; now rewrite El|].
  cbn [rfft_bwd vlen vat]. intros i Hi.
  cbn [fft_bwd real_part vmap vlen vat]. rewrite El. apply cr_ext. intros p Hp. rewrite (proj2 E) by lia. reflexivity.
Qed.

Lemma equi_analysis_ok s L nside n reality f th : s <> HEALPIX -> 1 <= L -> 0 < n ->
  shape f = [n; per_ring s L] ->
  (reality = true -> forall t p, 0 <= t < n -> 0 <= p < per_ring s L -> is_real (get f [t; p])) ->
  exists ftm, ring_analysis f L (scheme_name s) nside reality = Ok ftm /\
    fta_ok s L 0 (equi_grid s L n th) f reality ftm.
Proof.
  intros Hs HL Hn Hf HR. unfold ring_analysis. rewrite is_hp_name, m_offset_name.
  replace (match s with HEALPIX => true | _ => false end) with false by (destruct s; congruence).
  assert (EO : orders s L = 2 * L - 1 + mo_of s) by (destruct s; cbn [orders mo_of]; lia).
  assert (EP : per_ring s L = 2 * L - 1 + mo_of s) by (destruct s; try congruence; cbn [per_ring mo_of]; lia).
  assert (M01 : mo_of s = 0 \/ mo_of s = 1) by (destruct s; cbn [mo_of]; lia).
  assert (PH : forall t m, Cconj (phase_of s 0 t m) = RtoC 1) by (intros; destruct s; try congruence; cbn [phase_of]; apply Cconj_R).
  assert (MF := is_mat_self f n (per_ring s L) Hf).
  assert (H2 : per_ring s L / 2 = L - 1 + mo_of s).
  { destruct M01 as [M|M]; rewrite EP, M; [symmetry; apply (Z.div_unique _ 2 _ 1); lia|].
    symmetry; apply (Z.div_unique _ 2 _ 0); lia. }
  assert (FTS : forall t m, fts (equi_grid s L n th) f t m = csum (zrange 0 (per_ring s L)) (fun p => (at2 f t p * root (per_ring s L) (- (m * p)))%C)).
  { intros t m. unfold fts. cbn [equi_grid gN gph ge]. apply cr_ext. intros p Hp. rewrite <- Z.mul_opp_l, root_lon by lia.
    rewrite Cmult_comm. unfold at2. f_equal. f_equal. rewrite opp_IZR. ring. }
  destruct (Sumbool.sumbool_of_bool reality) as [Hr|Hr]; rewrite Hr; cbv iota.
  - assert (M1 : is_mat (map_rows rfft_bwd f) n (L + mo_of s) (fun t k => fts (equi_grid s L n th) f t k)).
    { eapply map_rows_ok; [exact MF|apply vext_rfft| | |exact Hn].
      - intros r. cbn [rfft_bwd vlen]. lia.
      - intros t k Ht Hk. rewrite FTS. cbn [rfft_bwd vlen vat fft_bwd real_part vmap]. apply cr_ext. intros p Hp.
        rewrite real_Re by (apply HR; auto). reflexivity. }
    assert (M2 : is_mat (if negb (mo_of s =? 0) then slice2 (map_rows rfft_bwd f) 0 (dim0 (map_rows rfft_bwd f)) 0 (-1) else map_rows rfft_bwd f)
       n L (fun t k => fts (equi_grid s L n th) f t k)).
    { destruct M01 as [M|M]; rewrite M; cbn [Z.eqb negb].
      - rewrite M, Z.add_0_r in M1. exact M1.
      - rewrite M in M1. rewrite (is_mat_dim0 _ _ _ _ M1).
        assert (E : slice2 (map_rows rfft_bwd f) 0 n 0 (-1) = slice2 (map_rows rfft_bwd f) 0 n 0 L).
        { unfold slice2. rewrite (is_mat_dim1 _ _ _ _ M1). f_equal. unfold slice_len, slice_lo, clamp. repeat zif. lia. }
        rewrite E. apply (is_mat_ext _ _ _ (fun r c => fts (equi_grid s L n th) f (0 + r) (0 + c)));
          [|reflexivity].
        assert (S2 := slice2_ok _ _ _ _ 0 n 0 L M1 ltac:(lia) ltac:(lia) ltac:(lia) ltac:(lia) ltac:(lia) ltac:(lia)).
        replace (n - 0) with n in S2 by lia. replace (L - 0) with L in S2 by lia. exact S2. }
    unfold slice2_set. rewrite (is_mat_dim0 _ _ _ _ MF), (is_mat_dim1 _ _ _ _ MF).
    assert (MZ : is_mat (czeros n (per_ring s L)) n (per_ring s L) (fun _ _ => RtoC 0)) by (split; reflexivity).
    cbv zeta. revert M2. generalize (if negb (mo_of s =? 0) then slice2 (map_rows rfft_bwd f) 0 (dim0 (map_rows rfft_bwd f)) 0 (-1) else map_rows rfft_bwd f).
    intros tmp M2.
    assert (M3 : is_mat tmp (n - 0) (per_ring s L - (L - 1 + mo_of s)) (fun t k => fts (equi_grid s L n th) f t k))
      by (replace (n - 0) with n by lia; replace (per_ring s L - (L - 1 + mo_of s)) with L by lia; exact M2).
    destruct (slice2_add_ok (fun _ y : C => y) (czeros n (per_ring s L)) tmp n (per_ring s L) _ (fun t k => fts (equi_grid s L n th) f t k) 0 n
      (L - 1 + mo_of s) (per_ring s L) MZ M3) as (ftm & E & MFT); try lia.
    exists ftm. split; [exact E|]. split; [rewrite (proj1 MFT); cbn [equi_grid gn]; now rewrite EO, EP|].
    cbn [equi_grid gn]. intros t m Ht Hm Hm0. rewrite PH, Cmult_1_r. specialize (Hm0 eq_refl).
    rewrite (proj2 MFT) by lia. replace ((0 <=? t) && (t <? n) && (L - 1 + mo_of s <=? m + L - 1 + mo_of s) && (m + L - 1 + mo_of s <? per_ring s L)) with true by lia.
    f_equal; lia.
  - eexists. split; [reflexivity|].
    assert (M1 : is_mat (map_rows (fun r => fftshift (fft_bwd r)) f) n (per_ring s L) (fun t j => fts (equi_grid s L n th) f t (j - (L - 1 + mo_of s)))).
    { eapply map_rows_ok; [exact MF|apply (vext_comp fftshift fft_bwd vext_fftshift vext_fft_bwd)| | |exact Hn].
      - reflexivity.
      - intros t j Ht Hj. rewrite FTS. cbn [fftshift fft_bwd vlen vat]. apply cr_ext. intros p Hp. f_equal. rewrite H2.
        apply root_congr; [lia|]. rewrite <- !Z.mul_opp_l. rewrite Z.mul_mod by lia.
        rewrite (Z.mul_mod (- (j - _))) by lia. f_equal. f_equal.
        rewrite <- (Z.sub_0_l (_ mod _)), Zminus_mod_idemp_r. now rewrite Z.sub_0_l. }
    split; [rewrite (proj1 M1); cbn [equi_grid gn]; now rewrite EO, EP|].
    cbn [equi_grid gn]. intros t m Ht Hm _. rewrite PH, Cmult_1_r. rewrite (proj2 M1) by lia. f_equal. lia.
Qed.

Lemma hp_analysis_ok L nside reality f th : 1 <= L -> 1 <= nside -> 2 * nside <= L ->
  shape f = [12 * (nside * nside)] ->
  (reality = true -> forall i, 0 <= i < 12 * (nside * nside) -> is_real (get f [i])) ->
  exists ftm, ring_analysis f L "healpix" (Some nside) reality = Ok ftm /\
    fta_ok HEALPIX L nside (hp_grid nside th) f reality ftm.
Proof.
  intros HL Hn HnL Hf HR. unfold ring_analysis. change (is_hp "healpix") with true. cbv iota. cbn [need bind].
  assert (VL : vlen (to_vec f) = 12 * (nside * nside)) by (cbn [to_vec vlen]; unfold dim0; now rewrite Hf).
  assert (E : exists ftm, healpix_fft (RtoC 0) fft_bwd rfft_bwd (to_vec f) L nside "numpy" reality = Ok ftm /\
    ftm_table nside L ftm /\
    forall t k, 0 <= t < 4 * nside - 1 -> L <= k < 2 * L \/ (reality = false /\ 0 <= k < L) ->
      vat (vat ftm t) k = ring_coefficient (fun p => pixel nside t p (to_vec f)) (ring_length nside t) (k - L)).
  { destruct reality.
    - destruct (C12_real_lemma nside L (to_vec f) "numpy" Hn ltac:(lia) VL (HR eq_refl) (or_introl eq_refl)) as (ftm & E & T & H).
      exists ftm. split; [exact E|]. split; [exact T|]. intros t k Ht Hk. rewrite H by (auto; lia).
      replace ((ring_length nside t =? 2 * L) && (k <? L)) with false; [reflexivity|].
      replace (k <? L) with false by (destruct Hk as [|[]]; [lia|discriminate]). now rewrite andb_false_r.
    - destruct (C12_lemma nside L (to_vec f) "numpy" Hn ltac:(lia) VL (or_introl eq_refl)) as (ftm & E & T & H).
      exists ftm. split; [exact E|]. split; [exact T|]. intros t k Ht Hk. apply H; auto. lia. }
  destruct E as (ftm & -> & [T1 T2] & H). cbn [bind]. eexists. split; [reflexivity|].
  split; [cbn [of_rows mat shape hp_grid gn orders]; now rewrite T1|].
  cbn [hp_grid gn mo_of]. intros t m Ht Hm Hr. unfold at2. cbn [of_rows mat get nth].
  rewrite H; [|auto|destruct reality; [left; specialize (Hr eq_refl); lia|destruct (Z_lt_dec m 0); [right|left]; lia]].
  unfold fts. cbn [hp_grid gN gph ge phase_of]. unfold ring_coefficient. rewrite <- cs_scal_r. apply cr_ext. intros p Hp.
  rewrite cis_conj. unfold pixel. cbn [to_vec vat]. replace (m + L - 1 + 1 - L) with m by lia.
  replace (- (IZR m * hp_longitude nside t p))%R with (- IZR m * (2 * PI * IZR p / IZR (ring_length nside t)) + - (IZR m * hp_longitude nside t 0))%R.
  - rewrite cis_plus. ring.
  - unfold hp_longitude. pose proof (ring_length_pos nside t Hn Ht). field. apply not_0_IZR. lia.
Qed.

Set Default Proof Using "All".
Section Fwd.
  Variables (f : ndarray C) (L spin : Z) (name : string) (nside : option Z) (reality : bool) (Lo : Z)
    (g : grid) (ths weights : vec R).
  Hypotheses (HL : 1 <= L) (HLo : 0 <= Lo) (Hf : shape f = gsh g) (G : grid_ok g name nside L ths)
    (Hang : forall t, 0 <= t < gn g -> turok_angle (gth g t)) (Hw : vlen weights = gn g)
    (Hre : reality = true -> spin = 0) (HreF : reality = true -> forall t p, in_grid g t p -> is_real (get f (ge g t p))).

  Definition Bc t el m : R := (vat weights t * sgn spin * elfactor el * wigner_d el m (- spin) (gth g t))%R.
  Definition vs t el p m : C := (RtoC (Bc t el m) * cis (- (IZR m * gph g t p)) * get f (ge g t p))%C.
  Definition vt t el m : C := (RtoC (Bc t el m) * fts g f t m)%C.
  Definition U el m : C := csum (zrange 0 (gn g)) (fun t => vt t el m).

  Definition fwd_ok (flm : ndarray C) : Prop :=
    shape flm = [L; 2 * L - 1] /\ forall el m, 0 <= el < L -> - L < m < L ->
      get flm [el; m + L - 1] = if Z.max Lo (Z.abs spin) <=? el then U el m else RtoC 0.

  Lemma Bc_out t el m : el < Z.abs m -> Bc t el m = 0%R.
  Proof. intros H. unfold Bc. rewrite wig_out by lia. ring. Qed.
  Lemma Bc_neg t el m : reality = true -> Bc t el (- m) = (sgn m * Bc t el m)%R.
  Proof.
    intros Hr. destruct (Z_le_dec (Z.abs m) el) as [B|B].
    - assert (0 <= el) by lia. unfold Bc. rewrite (Hre Hr). change (- 0) with 0.
      assert (W := wig_flip el m 0 (gth g t) ltac:(lia) ltac:(lia)). change (- 0) with 0 in W. rewrite W.
      rewrite Z.sub_0_r. ring.
    - rewrite !Bc_out by lia. ring.
  Qed.
  Lemma vt_sum t el m : vt t el m = csum (zrange 0 (gN g t)) (fun p => vs t el p m).
  Proof. unfold vt, fts. rewrite <- cs_scal_l. apply cs_ext. intros p _. unfold vs. ring. Qed.
  Lemma vs_neg t el p m : reality = true -> in_grid g t p ->
    (RtoC (sgn m) * Cconj (vs t el p m))%C = vs t el p (- m).
  Proof.
    intros Hr IG. unfold vs. rewrite !Cconj_mult, Cconj_R, cis_conj, (real_conj _ (HreF Hr t p IG)), (Bc_neg t el m Hr), RtoC_mult.
    rewrite opp_IZR. replace (- - (IZR m * gph g t p))%R with (- (- IZR m * gph g t p))%R by ring. ring.
  Qed.
  Lemma vt_neg t el m : reality = true -> 0 <= t < gn g -> (RtoC (sgn m) * Cconj (vt t el m))%C = vt t el (- m).
  Proof.
    intros Hr Ht. rewrite !vt_sum, csum_conj, <- cs_scal_l. apply cr_ext. intros p Hp. apply vs_neg; [auto|now split].
  Qed.
  Lemma vt_out t el m : el < Z.abs m -> vt t el m = RtoC 0.
  Proof. intros H. unfold vt. rewrite Bc_out by auto. ring. Qed.
  Lemma vs_out t el p m : el < Z.abs m -> vs t el p m = RtoC 0.
  Proof. intros H. unfold vs. rewrite Bc_out by auto. ring. Qed.

  (** the loops over the orders of one degree *)
  Definition Wl (el : Z) (v : Z -> C) (ix : list Z) : C := csum (zrange (- el) (el + 1)) (fun m => at1 [el; m + (L - 1)] (v m) ix).

  Lemma in_flm (a : ndarray C) el c : shape a = [L; 2 * L - 1] -> 0 <= el < L -> 0 <= c < 2 * L - 1 -> in_shape (shape a) [el; c].
  Proof. intros -> H1 H2. cbn [in_shape]. lia. Qed.

  Lemma real_loop (v : Z -> C) el a (body : ndarray C -> Z -> result (ndarray C)) v0 : shape a = [L; 2 * L - 1] -> 0 <= el < L ->
    (forall m, 0 < m <= el -> (RtoC (sgn m) * Cconj (v m))%C = v (- m)) -> v0 = v 0 ->
    (forall a' m, 1 <= m < el + 1 -> body a' m =
       (let* x := caplus a' [el; m + L - 1] (v m) in caplus x [el; - m + L - 1] (RtoC (m1 m) * Cconj (v m))%C)) ->
    CA (let* a1 := caplus a [el; L - 1] v0 in foldM body (zrange 1 (el + 1)) a1) a (Wl el v).
  Proof.
    intros Ha Hel Hv -> Hb. eapply ca_ext.
    - apply ca_bind; [apply ca_plus, in_flm; auto; lia|]. intros a1 Ha1. apply ca_fold. intros a2 m Ha2 Hm.
      rewrite Hb by auto. apply ca_bind; [apply ca_plus, in_flm; try lia; congruence|].
      intros a3 Ha3. apply ca_plus, in_flm; try lia. congruence.
    - intros ix. cbv beta. unfold Wl. rewrite pairs_sum by lia. f_equal. apply cr_ext. intros m Hm. f_equal.
      + f_equal. f_equal. f_equal. lia.
      + change m1 with sgn. rewrite Hv by lia. f_equal. f_equal. f_equal. lia.
  Qed.

  Lemma cplx_loop (v : Z -> C) el a (body : ndarray C -> Z -> result (ndarray C)) : shape a = [L; 2 * L - 1] -> 0 <= el < L ->
    (forall a' m, - el <= m < el + 1 -> body a' m = caplus a' [el; m + L - 1] (v m)) ->
    CA (foldM body (zrange (- el) (el + 1)) a) a (Wl el v).
  Proof.
    intros Ha Hel Hb. apply ca_fold. intros a1 m Ha1 Hm. rewrite Hb by auto.
    replace (m + L - 1) with (m + (L - 1)) by lia. apply ca_plus, in_flm; try lia. congruence.
  Qed.

  Lemma Wl_at el v e0 m0 : (forall m, el < Z.abs m -> v m = RtoC 0) -> Wl el v [e0; m0 + L - 1] = if el =? e0 then v m0 else RtoC 0.
  Proof.
    intros Hv. unfold Wl. destruct (Z.eqb_spec el e0) as [->|N].
    - rewrite (cs_ext _ _ (fun m => if m =? m0 then v m else RtoC 0)).
      + destruct (Z_le_dec (Z.abs m0) e0); [apply (cr_delta _ _ m0 v); lia|].
        rewrite Hv by lia. apply cr_0. intros m Hm. now replace (m =? m0) with false by lia.
      + intros m _. rewrite one_at2, Z.eqb_refl. cbn [andb]. now replace (m + (L - 1) =? m0 + L - 1) with (m =? m0) by lia.
    - apply cs_0. intros m _. rewrite one_at2. now replace (el =? e0) with false by lia.
  Qed.

  (** summed over the rings and the degrees *)
  Lemma finish_flm (W : Z -> Z -> list Z -> C) r :
    CA r (zeros (RtoC 0) (flm_shape L)) (fun ix => csum (zrange 0 (gn g)) (fun t => csum (el_range Lo spin L) (fun el => W t el ix))) ->
    (forall t el e0 m0, 0 <= t < gn g -> W t el [e0; m0 + L - 1] = if el =? e0 then vt t el m0 else RtoC 0) ->
    exists flm, r = Ok flm /\ fwd_ok flm.
  Proof.
    intros A HW. destruct (acc_zeros _ _ _ A) as (flm & E & Hs & Hg). exists flm. split; [exact E|]. split; [exact Hs|].
    intros el m Hel Hm. rewrite Hg. unfold el_range.
    rewrite (cr_ext _ _ _ (fun t => if Z.max Lo (Z.abs spin) <=? el then vt t el m else RtoC 0)).
    - destruct (_ <=? el); [reflexivity|]. apply cr_0. reflexivity.
    - intros t Ht. rewrite (cs_ext _ _ (fun el' => if el' =? el then vt t el' m else RtoC 0)) by (intros; now apply HW).
      destruct (Z.leb_spec (Z.max Lo (Z.abs spin)) el) as [B|B].
      + apply (cr_delta _ _ el (fun el' => vt t el' m)). lia.
      + apply cr_0. intros el' Hel'. now replace (el' =? el) with false by lia.
  Qed.

  Lemma read_w t : 0 <= t < gn g -> vread weights t = Ok (vat weights t).
  Proof. intros Ht. apply vread_in. lia. Qed.
  Lemma rdl dl el m t : vlen dl = 2 * L - 1 ->
    (forall m, - L < m < L -> (reality = true -> 0 <= m) -> vat dl (m + L - 1) = wigner_d el m (- spin) (gth g t)) ->
    - L < m < L -> (reality = true -> 0 <= m) -> vread dl (m + L - 1) = Ok (wigner_d el m (- spin) (gth g t)).
  Proof. intros Hl Hd Hm Hr. rewrite vread_in by lia. now rewrite Hd. Qed.
  Lemma read_f t p : in_grid g t p -> aread f (ge g t p) = Ok (get f (ge g t p)).
  Proof. intros IG. apply aread_in. rewrite Hf. apply (go_sh _ _ _ _ _ G t p IG). Qed.

  Lemma forward_direct_ok : exists flm, forward_direct f L spin name ths weights nside reality Lo = Ok flm /\ fwd_ok flm.
  Proof.
    unfold forward_direct. destruct (go_ph _ _ _ _ _ G) as (peq & -> & Hph). cbn [bind].
    apply (finish_flm (fun t el ix => csum (zrange 0 (gN g t)) (fun p => Wl el (vs t el p) ix))).
    - apply ca_enum; [exact (go_n _ _ _ _ _ G)|]. intros a t Ha Ht. destruct (Hph t Ht) as (phis & -> & Hpl & Hp). cbn [bind].
      rewrite (go_th _ _ _ _ _ G t Ht). apply ca_fold. intros a1 el Ha1 Hel0.
      assert (Hel : 0 <= el < L /\ Z.abs spin <= el) by lia. destruct Hel as [Hel Hsp].
      destruct (dl_ok (gth g t) el L spin reality Hel Hsp (Hang t Ht)) as (dl & -> & Hdl & Hd). cbn [bind].
      apply ca_enum; [exact Hpl|]. intros a2 p Ha2 Hp2. rewrite (Hp p Hp2).
      assert (IG : in_grid g t p) by (split; assumption).
      rewrite (go_e _ _ _ _ _ G t p IG). cbn [bind]. rewrite read_w by auto. cbn [bind].
      assert (Ha2' : shape a2 = [L; 2 * L - 1]) by (rewrite Ha2, Ha1, Ha; reflexivity).
      assert (VS : forall m, (RtoC (vat weights t * m1 spin * elfactor el) * cexp_m (-1) m (gph g t p) * RtoC (wigner_d el m (- spin) (gth g t)) * get f (ge g t p))%C = vs t el p m).
      { intros m. unfold vs, Bc, cexp_m. change m1 with sgn. replace (-1 * IZR m * gph g t p)%R with (- (IZR m * gph g t p))%R by ring. rewrite !RtoC_mult. ring. }
      destruct (Sumbool.sumbool_of_bool reality) as [Hr|Hr]; rewrite Hr; cbv iota.
      + assert (R0 : vread dl (L - 1) = Ok (wigner_d el 0 (- spin) (gth g t))) by (apply (rdl dl el 0 t); auto; lia).
        rewrite R0. cbn [bind]. rewrite read_f by auto. cbn [bind]. apply real_loop; auto.
        * intros m Hm. now apply vs_neg.
        * rewrite <- VS. unfold cexp_m. rewrite Rmult_0_r, Rmult_0_l, cis_0, !RtoC_mult. ring.
        * intros a' m Hm. rewrite (rdl dl el m t) by (auto; lia). cbn [bind]. cbv zeta.
          rewrite VS. reflexivity.
      + apply cplx_loop; auto. intros a' m Hm. rewrite (rdl dl el m t) by (try congruence; auto; lia). cbn [bind]. rewrite read_f by auto. cbn [bind].
        rewrite VS. reflexivity.
    - intros t el e0 m0 Ht. rewrite (cs_ext _ _ (fun p => if el =? e0 then vs t el p m0 else RtoC 0))
        by (intros p _; apply Wl_at; intros; now apply vs_out).
      destruct (el =? e0); [now rewrite vt_sum|]. apply cs_0. reflexivity.
  Qed.

  Lemma forward_sov_ok : exists flm, forward_sov f L spin name ths weights nside reality Lo = Ok flm /\ fwd_ok flm.
  Proof.
    unfold forward_sov. destruct (go_ph _ _ _ _ _ G) as (peq & -> & Hph). cbn [bind]. rewrite (go_n _ _ _ _ _ G).
    assert (S1 : CA (enum ths (fun ftm t theta =>
        let* phis := ring_phis name nside peq t in
        enum phis (fun ftm p phi =>
          let* entry := pix_entry name nside t p theta phi in
          foldM (fun ftm m =>
            let* x := aread f entry in
            caplus ftm [t; m + L - 1] (cexp_m (-1) m phi * x)%C)
            (zrange (if reality then 0 else - L + 1) L) ftm) ftm) (zeros (RtoC 0) [gn g; 2 * L - 1]))
      (zeros (RtoC 0) [gn g; 2 * L - 1])
      (fun ix => csum (zrange 0 (gn g)) (fun t => csum (zrange 0 (gN g t)) (fun p =>
         csum (zrange (if reality then 0 else - L + 1) L) (fun m => at1 [t; m + (L - 1)] (cis (- (IZR m * gph g t p)) * get f (ge g t p))%C ix))))).
    { apply ca_enum; [exact (go_n _ _ _ _ _ G)|]. intros a t Ha Ht. destruct (Hph t Ht) as (phis & -> & Hpl & Hp). cbn [bind].
      rewrite (go_th _ _ _ _ _ G t Ht). apply ca_enum; [exact Hpl|]. intros a2 p Ha2 Hp2. rewrite (Hp p Hp2).
      assert (IG : in_grid g t p) by (split; assumption).
      rewrite (go_e _ _ _ _ _ G t p IG). cbn [bind]. apply ca_fold. intros a3 m Ha3 Hm. rewrite read_f by auto. cbn [bind].
      replace (cexp_m (-1) m (gph g t p)) with (cis (- (IZR m * gph g t p))) by (unfold cexp_m; f_equal; ring).
      replace (m + L - 1) with (m + (L - 1)) by lia. apply ca_plus. rewrite Ha3, Ha2, Ha. cbn [zeros shape in_shape].
      destruct reality; lia. }
    destruct (acc_zeros _ _ _ S1) as (ftm & -> & Hfs & Hfg). cbn [bind].
    assert (FV : forall t m, 0 <= t < gn g -> - L < m < L -> (reality = true -> 0 <= m) -> aread ftm [t; m + L - 1] = Ok (fts g f t m)).
    { intros t m Ht Hm Hr. rewrite aread_in by (rewrite Hfs; cbn [in_shape]; lia). rewrite Hfg. f_equal.
      rewrite (cr_ext _ _ _ (fun t' => if t' =? t then fts g f t' m else RtoC 0)); [now apply (cr_delta 0 (gn g) t (fun t' => fts g f t' m))|].
      intros t' Ht'. destruct (Z.eqb_spec t' t) as [->|N].
      - unfold fts. apply cs_ext. intros p _.
        rewrite (cr_ext _ _ _ (fun m' => if m' =? m then (cis (- (IZR m' * gph g t p)) * get f (ge g t p))%C else RtoC 0)).
        + apply (cr_delta _ _ m (fun m' => (cis (- (IZR m' * gph g t p)) * get f (ge g t p))%C)). destruct reality; [specialize (Hr eq_refl)|]; lia.
        + intros m' Hm'. rewrite one_at2, Z.eqb_refl. cbn [andb]. now replace (m' + (L - 1) =? m + L - 1) with (m' =? m) by lia.
      - apply cs_0. intros p _. apply cs_0. intros m' _. rewrite one_at2. now replace (t' =? t) with false by lia. }
    apply (finish_flm (fun t el ix => Wl el (vt t el) ix)).
    - apply ca_enum; [exact (go_n _ _ _ _ _ G)|]. intros a t Ha Ht.
      rewrite (go_th _ _ _ _ _ G t Ht). apply ca_fold. intros a1 el Ha1 Hel0.
      assert (Hel : 0 <= el < L /\ Z.abs spin <= el) by lia. destruct Hel as [Hel Hsp].
      destruct (dl_ok (gth g t) el L spin reality Hel Hsp (Hang t Ht)) as (dl & -> & Hdl & Hd). cbn [bind].
      rewrite read_w by auto. cbn [bind].
      assert (Ha1' : shape a1 = [L; 2 * L - 1]) by (rewrite Ha1, Ha; reflexivity).
      assert (VT : forall m, (RtoC (vat weights t * m1 spin * elfactor el * wigner_d el m (- spin) (gth g t)) * fts g f t m)%C = vt t el m) by reflexivity.
      destruct (Sumbool.sumbool_of_bool reality) as [Hr|Hr]; rewrite Hr; cbv iota.
      + assert (R0 : vread dl (L - 1) = Ok (wigner_d el 0 (- spin) (gth g t))) by (apply (rdl dl el 0 t); auto; lia).
        assert (X0 : aread ftm [t; L - 1] = Ok (fts g f t 0)) by (apply (FV t 0); auto; lia).
        rewrite R0. cbn [bind]. rewrite X0. cbn [bind]. apply real_loop; auto.
        * intros m Hm. now apply vt_neg.
        * intros a' m Hm. rewrite (rdl dl el m t) by (auto; lia). cbn [bind]. rewrite (FV t m) by (auto; lia). cbn [bind]. cbv zeta.
          rewrite VT. reflexivity.
      + apply cplx_loop; auto. intros a' m Hm. rewrite (rdl dl el m t) by (try congruence; auto; lia). cbn [bind].
        rewrite (FV t m) by (try congruence; auto; lia). cbn [bind]. rewrite VT. reflexivity.
    - intros t el e0 m0 Ht. apply Wl_at. intros. now apply vt_out.
  Qed.

  (** ** FFT methods *)
  Variables (s : scheme) (ns : Z).
  Hypotheses (Hname : name = scheme_name s)
    (Hhp : s = HEALPIX -> nside = Some ns /\ 1 <= ns /\ gn g = 4 * ns - 1)
    (Hana : exists ftm, ring_analysis f L name nside reality = Ok ftm /\ fta_ok s L ns g f reality ftm).

  Lemma mo01' : mo_of s = 0 \/ mo_of s = 1. Proof. clear. destruct s; cbn; auto. Qed.
  Lemma ord_mo' : orders s L = 2 * L - 1 + mo_of s. Proof. clear. destruct s; cbn [orders mo_of]; lia. Qed.
  Lemma isH_name' : is_hp name = isH s. Proof. rewrite Hname. apply is_hp_name. Qed.

  Lemma forward_sov_fft_ok : exists flm, forward_sov_fft f L spin name ths weights nside reality Lo = Ok flm /\ fwd_ok flm.
  Proof.
    unfold forward_sov_fft. destruct Hana as (ftm & -> & Hfs & HF). cbn [bind].
    assert (MO : m_offset name = mo_of s) by (rewrite Hname; apply m_offset_name).
    rewrite MO. pose proof mo01' as M01. pose proof ord_mo' as OM.
    apply (finish_flm (fun t el ix => Wl el (vt t el) ix)).
    - apply ca_enum; [exact (go_n _ _ _ _ _ G)|]. intros a t Ha Ht.
      assert (PH : exists po, (if is_hp name then let* n := need nside in Ok (p2phi_ring t 0 n) else Ok 0%R) = Ok po /\
         forall m, (if is_hp name then cexp_m (-1) m po else RtoC 1) = Cconj (phase_of s ns t m)).
      { rewrite isH_name'. unfold isH, phase_of. destruct s eqn:Es; try (eexists; split; [reflexivity|]; intros; now rewrite Cconj_R).
        destruct (Hhp eq_refl) as (-> & H1 & H2). cbn [need bind]. eexists. split; [reflexivity|]. intros m. cbv beta.
        unfold cexp_m. rewrite p2phi_ok by lia. rewrite cis_conj. f_equal. ring. }
      destruct PH as (po & -> & PH). cbn [bind].
      rewrite (go_th _ _ _ _ _ G t Ht). apply ca_fold. intros a1 el Ha1 Hel0.
      assert (Hel : 0 <= el < L /\ Z.abs spin <= el) by lia. destruct Hel as [Hel Hsp].
      destruct (dl_ok (gth g t) el L spin reality Hel Hsp (Hang t Ht)) as (dl & -> & Hdl & Hd). cbn [bind].
      rewrite read_w by auto. cbn [bind].
      assert (Ha1' : shape a1 = [L; 2 * L - 1]) by (rewrite Ha1, Ha; reflexivity).
      assert (RF : forall m, - L < m < L -> aread ftm [t; m + L - 1 + mo_of s] = Ok (at2 ftm t (m + L - 1 + mo_of s)))
        by (intros m Hm; apply aread_in; rewrite Hfs; cbn [in_shape]; lia).
      assert (VT : forall m, - L < m < L -> (reality = true -> 0 <= m) ->
        (RtoC (vat weights t * m1 spin * elfactor el * wigner_d el m (- spin) (gth g t)) * at2 ftm t (m + L - 1 + mo_of s) *
          (if is_hp name then cexp_m (-1) m po else RtoC 1))%C = vt t el m).
      { intros m Hm Hr. rewrite PH, <- Cmult_assoc, HF by auto. reflexivity. }
      destruct (Sumbool.sumbool_of_bool reality) as [Hr|Hr]; rewrite Hr; cbv iota.
      + assert (R0 : vread dl (L - 1) = Ok (wigner_d el 0 (- spin) (gth g t))) by (apply (rdl dl el 0 t); auto; lia).
        assert (X0 : aread ftm [t; L - 1 + mo_of s] = Ok (at2 ftm t (0 + L - 1 + mo_of s))) by (apply (RF 0); lia).
        rewrite R0. cbn [bind]. rewrite X0. cbn [bind]. apply real_loop; auto.
        * intros m Hm. now apply vt_neg.
        * rewrite <- VT by (auto; lia). rewrite PH. assert (P0 : Cconj (phase_of s ns t 0) = RtoC 1).
          { unfold phase_of. destruct s; try apply Cconj_R. rewrite Rmult_0_l, cis_0. apply Cconj_R. }
          rewrite P0, Cmult_1_r. reflexivity.
        * intros a' m Hm. cbv zeta. rewrite (rdl dl el m t) by (auto; lia). cbn [bind]. rewrite (RF m) by lia. cbn [bind]. cbv zeta.
          rewrite VT by lia. reflexivity.
      + apply cplx_loop; auto. intros a' m Hm. cbv zeta. rewrite (rdl dl el m t) by (try congruence; auto; lia). cbn [bind].
        rewrite (RF m) by lia. cbn [bind]. rewrite VT by (try congruence; lia). reflexivity.
    - intros t el e0 m0 Ht. apply Wl_at. intros. now apply vt_out.
  Qed.
  (** the vectorised method overwrites the negative orders after each addition *)
  Definition msf := if reality then L - 1 else 0.
  Definition mx := Z.max Lo (Z.abs spin).
  Definition v1 t e c : C := (vt t e (c - (L - 1)) * RtoC (sgn spin))%C.
  Definition S1 t e c : C := csum (zrange 0 t) (fun t' => v1 t' e c).
  Definition FV t el e c : C := if mx <=? e then (S1 t e c + (if e <? el then v1 t e c else RtoC 0))%C else RtoC 0.

  Lemma v1_neg t e c : reality = true -> 0 <= t < gn g -> (RtoC (sgn (L - 1 - c)) * Cconj (v1 t e (2 * L - 2 - c)))%C = v1 t e c.
  Proof.
    intros Hr Ht. unfold v1. rewrite Cconj_mult, Cconj_R. replace (2 * L - 2 - c - (L - 1)) with (L - 1 - c) by lia.
    rewrite Cmult_assoc, vt_neg by auto. do 2 f_equal. lia.
  Qed.
  Lemma S1_neg t e c : reality = true -> 0 <= t <= gn g -> (RtoC (sgn (L - 1 - c)) * Cconj (S1 t e (2 * L - 2 - c)))%C = S1 t e c.
  Proof. intros Hr Ht. unfold S1. rewrite csum_conj, <- cs_scal_l. apply cr_ext. intros t' Ht'. apply v1_neg; auto. lia. Qed.

  Lemma forward_vectorized_ok : exists flm, forward_sov_fft_vectorized f L spin name ths weights nside reality Lo = Ok flm /\ fwd_ok flm.
  Proof.
    unfold forward_sov_fft_vectorized. destruct Hana as (ftm & -> & Hfs & HF). cbn [bind].
    assert (MO : m_offset name = mo_of s) by (rewrite Hname; apply m_offset_name).
    rewrite MO. pose proof mo01' as M01. pose proof ord_mo' as OM.
    assert (MB : 0 <= msf <= L - 1) by (unfold msf; destruct reality; lia).
    cbv zeta. fold msf. fold mx. unfold enum. rewrite (go_n _ _ _ _ _ G). unfold el_range. fold mx.
    match goal with |- exists flm, (let* x := foldM ?body _ _ in _) = _ /\ _ =>
      destruct (foldM_inv' (fun t flm => is_mat flm L (2 * L - 1) (FV t 0)) body 0 (gn g) (zeros (RtoC 0) (flm_shape L))) as (flm & E & H) end.
    - split; [reflexivity|]. intros e c He Hc. unfold FV, S1. rewrite cr_nil by lia. replace (e <? 0) with false by lia.
      destruct (_ <=? _); cbn; [ring|reflexivity].
    - intros t flm Ht Hm. cbv beta.
      assert (PH : exists po, ring_phase L t name nside true reality = Ok po /\
        forall v : vec C, vlen v = 2 * L - 1 - msf -> exists w, vrphase v po = Ok w /\ vlen w = vlen v /\
          forall i, 0 <= i < vlen v -> vat w i = (vat v i * Cconj (phase_of s ns t (i + msf - (L - 1))))%C).
      { unfold ring_phase. rewrite isH_name'. unfold isH, phase_of. destruct s eqn:Es.
        1-4: exists None; split; [reflexivity|]; intros v Hv; exists v; split; [reflexivity|]; split; [reflexivity|]; intros; rewrite Cconj_R; ring.
        destruct (Hhp eq_refl) as (-> & H1 & H2). cbn [need bind]. eexists. split; [reflexivity|].
        intros v Hv. destruct (phase_shift_ok L ns t true reality HL H1 ltac:(lia)) as [Hpl Hpv]. cbn zeta in Hpl, Hpv.
        unfold vrphase, vmul. assert (EL : vlen v = vlen (ring_phase_shift_hp L t ns true reality)) by (rewrite Hpl, Hv; unfold msf; destruct reality; lia).
        rewrite EL, Z.eqb_refl. eexists. split; [reflexivity|]. cbn [vlen vat]. split; [reflexivity|]. intros i Hi. f_equal.
        rewrite Hpl in Hi. replace i with (i + msf - (L - 1) - (if reality then 0 else 1 - L)) at 1 by (unfold msf; destruct reality; lia).
        rewrite Hpv by (unfold msf; destruct reality; lia). rewrite cis_conj. f_equal. unfold shift_sign. ring. }
      destruct PH as (po & -> & PH). cbn [bind]. rewrite (go_th _ _ _ _ _ G t Ht).
      match goal with |- exists s', foldM ?body _ _ = _ /\ _ =>
        destruct (foldM_inv' (fun el flm => is_mat flm L (2 * L - 1) (FV t el)) body mx L flm) as (flm' & E & H) end.
      + eapply is_mat_ext; [exact Hm|]. intros e c He Hc. unfold FV. destruct (Z.leb_spec mx e); [|reflexivity].
        replace (e <? 0) with false by lia. replace (e <? mx) with false by lia. reflexivity.
      + intros el fl Hel0 Hfl. cbv beta. assert (Hel : 0 <= el < L /\ Z.abs spin <= el) by (unfold mx in Hel0; lia).
        destruct Hel as [Hel Hsp].
        destruct (dl_ok (gth g t) el L spin reality Hel Hsp (Hang t Ht)) as (dl & -> & Hdl & Hd). cbn [bind].
        rewrite read_w by auto. cbn [bind]. unfold row_slice at 1, dim0. rewrite Hfs. cbn [nth]. rewrite norm_index_in by lia. cbn [bind].
        assert (RL : vlen (row ftm t) = orders s L) by (cbn [row vlen]; unfold dim1; rewrite Hfs; reflexivity).
        rewrite (vslice_in dl msf (vlen dl)), (vslice_in (row ftm t) (msf + mo_of s) (2 * L - 1 + mo_of s)) by lia.
        unfold vmul at 1. cbn [vmap vlen]. rewrite Hdl. replace (2 * L - 1 - msf =? 2 * L - 1 + mo_of s - (msf + mo_of s)) with true by lia. cbn [bind].
        edestruct PH as (val & -> & HVL & HV); [reflexivity|]. cbn [vmap vlen vat] in HVL, HV. cbn [bind].
        assert (VV : forall i, 0 <= i < 2 * L - 1 - msf -> vat val i = v1 t el (i + msf)).
        { intros i Hi. rewrite HV by auto. cbn [vmap vat].
          replace (msf + i) with (i + msf - (L - 1) + L - 1) by lia. rewrite Hd by (unfold msf in *; destruct reality; intros; lia).
          unfold v1, vt. rewrite <- HF by (try (unfold msf in *; destruct reality; intros; lia)).
          unfold row, at2. cbn [vat]. unfold Bc.
          replace (msf + mo_of s + i) with (i + msf - (L - 1) + L - 1 + mo_of s) by lia.
          transitivity (RtoC (vat weights t * elfactor el * wigner_d el (i + msf - (L - 1)) (- spin) (gth g t)) *
             get ftm [t; i + msf - (L - 1) + L - 1 + mo_of s]%Z * Cconj (phase_of s ns t (i + msf - (L - 1))) * RtoC (sgn spin * sgn spin))%C;
            [rewrite sgn_sq, !RtoC_mult; ring|rewrite !RtoC_mult; ring]. }
        rewrite (is_mat_dim1 _ _ _ _ Hfl).
        destruct (row_op_ok Cplus fl _ _ _ el msf (2 * L - 1) val Hfl Hel ltac:(lia) ltac:(lia) ltac:(lia) ltac:(lia)) as (fl1 & -> & Hfl1).
        cbn [bind].
        assert (FE : forall c, FV t (el + 1) el c = (S1 t el c + v1 t el c)%C)
          by (intros c; unfold FV; replace (mx <=? el) with true by lia; now replace (el <? el + 1) with true by lia).
        assert (FE0 : forall c, FV t el el c = S1 t el c)
          by (intros c; unfold FV; replace (mx <=? el) with true by lia; replace (el <? el) with false by lia; ring).
        assert (FO : forall e c, e <> el -> FV t (el + 1) e c = FV t el e c)
          by (intros e c Ne; unfold FV; now replace (e <? el + 1) with (e <? el) by lia).
        destruct (Sumbool.sumbool_of_bool reality) as [Hr|Hr]; rewrite Hr; cbv iota.
        * assert (MS : msf = L - 1) by (unfold msf; now rewrite Hr).
          unfold row_slice, dim1 at 1, dim0. rewrite (proj1 Hfl1). cbn [nth]. rewrite norm_index_in by lia. cbn [bind].
          assert (RL1 : vlen (row fl1 el) = 2 * L - 1) by (cbn [row vlen]; unfold dim1; rewrite (proj1 Hfl1); reflexivity).
          rewrite (vslice_in (row fl1 el) (msf + 1) (2 * L - 1)) by lia.
          unfold vmul. cbn [vmap vlen]. replace (Z.max 0 (L - 1) =? 2 * L - 1 - (msf + 1)) with true by lia. cbn [bind].
          match goal with |- exists s', row_op _ _ _ _ _ ?w = _ /\ _ => 
            destruct (row_op_ok (fun _ y => y) fl1 _ _ _ el 0 msf w Hfl1 Hel ltac:(lia) ltac:(lia) ltac:(lia)) as (fl2 & -> & Hfl2) end.
          { cbn [vrev vlen]. lia. }
          eexists. split; [reflexivity|]. eapply is_mat_ext; [exact Hfl2|]. intros e c He Hc. cbv beta.
          destruct (Z.eqb_spec e el) as [->|Ne]; [|cbn [andb]; now rewrite FO]. cbn [andb].
          replace (0 <=? c) with true by lia. cbn [andb]. rewrite FE, FE0. rewrite MS.
          destruct (Z.ltb_spec c (L - 1)) as [B|B].
          -- cbn [vrev vlen vat vmap row]. replace (Z.max 0 (L - 1)) with (L - 1) by lia.
             replace (L - 1 - 1 - (c - 0)) with (L - 2 - c) by lia. replace (L - 1 + 1 + (L - 2 - c)) with (2 * L - 2 - c) by lia.
             change (get fl1 [el; 2 * L - 2 - c]) with (at2 fl1 el (2 * L - 2 - c)).
             rewrite (proj2 Hfl1) by lia. rewrite Z.eqb_refl, MS. replace ((L - 1 <=? 2 * L - 2 - c) && (2 * L - 2 - c <? 2 * L - 1)) with true by lia.
             replace (true && (L - 1 <=? 2 * L - 2 - c) && (2 * L - 2 - c <? 2 * L - 1)) with true by lia.
             rewrite FE0, VV by lia. rewrite MS. replace (2 * L - 2 - c - (L - 1) + (L - 1)) with (2 * L - 2 - c) by lia.
             rewrite Cconj_plus. change m1 with sgn.
             assert (SG : sgn ((1 + (L - 2 - c)) mod 2) = sgn (L - 1 - c)).
             { replace (1 + (L - 2 - c)) with (L - 1 - c) by lia. rewrite (Z_div_mod_eq_full (L - 1 - c) 2) at 2. rewrite sgn_add, sgn_double. ring. }
             rewrite SG, Cmult_plus_distr_l, S1_neg, v1_neg by (auto; lia). reflexivity.
          -- replace ((L - 1 <=? c) && (c <? 2 * L - 1)) with true by lia. rewrite VV by lia. rewrite MS.
             do 2 f_equal. lia.
        * assert (MS : msf = 0) by (unfold msf; now rewrite Hr).
          eexists. split; [reflexivity|]. eapply is_mat_ext; [exact Hfl1|]. intros e c He Hc. cbv beta.
          destruct (Z.eqb_spec e el) as [->|Ne]; [|cbn [andb]; now rewrite FO]. cbn [andb]. rewrite MS.
          replace ((0 <=? c) && (c <? 2 * L - 1)) with true by lia. rewrite FE, FE0, VV by lia. do 2 f_equal. lia.
      + exists flm'. split; [exact E|]. eapply is_mat_ext; [exact H|]. intros e c He Hc. unfold FV.
        destruct (mx <=? e); [|reflexivity]. replace (e <? Z.max mx L) with true by lia. replace (e <? 0) with false by lia.
        unfold S1. rewrite (cr_snoc 0 t) by lia. ring.
    - rewrite E. cbn [bind]. eexists. split; [reflexivity|].
      pose proof (mscal_ok (fun z => (z * RtoC (m1 spin))%C) flm _ _ _ H) as M. split; [exact (proj1 M)|].
      intros el m Hel Hm. etransitivity; [exact (proj2 M el (m + L - 1) Hel ltac:(lia))|]. cbv beta. unfold FV. fold mx.
      destruct (mx <=? el); [|ring]. replace (el <? 0) with false by lia. rewrite Cplus_0_r. unfold S1, U. rewrite <- cs_scal_r.
      transitivity (csum (zrange 0 (gn g)) (fun t => (v1 t el (m + L - 1) * RtoC (m1 spin))%C));
        [destruct (Z_le_dec 0 (gn g)); [now rewrite Z.max_r by lia|now rewrite !cr_nil by lia]|].
      apply cs_ext. intros t _. unfold v1. change m1 with sgn. rewrite <- Cmult_assoc, <- RtoC_mult, sgn_sq.
      replace (m + L - 1 - (L - 1)) with m by lia. ring.
  Qed.
End Fwd.
