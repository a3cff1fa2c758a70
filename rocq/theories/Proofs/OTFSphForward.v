(** The on-the-fly forward transforms form the quadrature sums of the reference transform, at the
    given colatitudes. *)
From Coq Require Import Reals ZifyBool Lra.
From Coquelicot Require Import Complex.
From Verif Require Import Lib.Py Lib.PyFacts Lib.Vec Lib.VecFacts Lib.Sums Lib.Cplx Lib.Arr Lib.ArrFacts Lib.MatFacts Lib.Ext Lib.ExtFacts
  Model.Index Model.Samples Model.Grids Model.FFT Model.HealpixFFT Model.Turok Model.Risbo Model.Resampling Model.Quadrature
  Model.Spherical Model.Precompute Model.PriceMcEwen Model.OTF Model.OTFSpherical
  Spec.SamplesSpec Spec.WignerSpec Spec.SphereSpec Spec.GridSpec Spec.HealpixFFTSpec Spec.SphericalSpec Spec.OTFSpec Spec.OTFSphericalSpec
  Proofs.SamplesProofs Proofs.GridProofs Proofs.TurokProofs Proofs.HealpixDFTProofs Proofs.SphGrid Proofs.SphInverse Proofs.SphTop Proofs.SphForward Proofs.SphForwardTop
  Proofs.SphFacts Proofs.PrecomputeSph Proofs.PMPre Proofs.OTFProofs Proofs.OTFTop Proofs.OTFSphInverse
  Spec.CallSpec.
Open Scope string_scope.
Open Scope Z_scope.


Lemma otf_equi_analysis b s L o n reality f x : s <> HEALPIX -> 1 <= L -> 0 < n ->
  shape f = [n; per_ring s L] ->
  exists ftm, otf_analysis b f L (scheme_name s) o reality = Ok ftm /\
    forall nside, fta_ok s L nside (equi_grid s L n x) (used_map reality f) reality ftm.
Proof.
  intros Hs HL Hn Hf. destruct reality.
  - destruct (equi_analysis_ok s L o n true (areal f) x Hs HL Hn Hf) as (ftm & E & H).
    { intros _ t p Ht Hp. reflexivity. }
    exists ftm. split.
    + rewrite <- E. unfold otf_analysis, ring_analysis. rewrite is_hp_name. destruct s; try congruence; reflexivity.
    + intros nside. destruct H as [H1 H2]. split; [exact H1|]. intros t m Ht Hm Hr.
      replace (phase_of s nside t m) with (phase_of s 0 t m) by (destruct s; try congruence; reflexivity). now apply H2.
  - destruct (equi_analysis_ok s L o n false f x Hs HL Hn Hf ltac:(discriminate)) as (ftm & E & H).
    exists ftm. split.
    + rewrite <- E. unfold otf_analysis, ring_analysis. rewrite is_hp_name. destruct s; try congruence; reflexivity.
    + intros nside. destruct H as [H1 H2]. split; [exact H1|]. intros t m Ht Hm Hr.
      replace (phase_of s nside t m) with (phase_of s 0 t m) by (destruct s; try congruence; reflexivity). now apply H2.
Qed.

Lemma otf_hp_analysis b L nside reality f x : 1 <= L -> 1 <= nside -> (b = jax -> 2 <= nside) -> 2 * nside <= L ->
  shape f = [12 * (nside * nside)] ->
  (reality = true -> forall i, 0 <= i < 12 * (nside * nside) -> is_real (get f [i])) ->
  exists ftm, otf_analysis b f L "healpix" (Some nside) reality = Ok ftm /\
    fta_ok HEALPIX L nside (hp_grid nside x) f reality ftm.
Proof.
  intros HL Hn Hb HnL Hf HR. unfold otf_analysis. change (is_hp "healpix") with true. cbv iota. cbn [need bind].
  assert (VL : vlen (to_vec f) = 12 * (nside * nside)) by (cbn [to_vec vlen]; unfold dim0; now rewrite Hf).
  assert (HB : backend_name b = "numpy" \/ backend_name b = "jax" /\ 2 <= nside) by (destruct b; auto).
  assert (E : exists ftm, healpix_fft (RtoC 0) fft_bwd rfft_bwd (to_vec f) L nside (backend_name b) reality = Ok ftm /\
    ftm_table nside L ftm /\
    forall t k, 0 <= t < 4 * nside - 1 -> L <= k < 2 * L \/ (reality = false /\ 0 <= k < L) ->
      vat (vat ftm t) k = ring_coefficient (fun p => pixel nside t p (to_vec f)) (ring_length nside t) (k - L)).
  { destruct reality.
    - destruct (C12_real_lemma nside L (to_vec f) (backend_name b) Hn ltac:(lia) VL (HR eq_refl) HB) as (ftm & E & T & H).
      exists ftm. split; [exact E|]. split; [exact T|]. intros t k Ht Hk. rewrite H by (auto; lia).
      replace ((ring_length nside t =? 2 * L) && (k <? L)) with false; [reflexivity|].
      replace (k <? L) with false by (destruct Hk as [|[]]; [lia|discriminate]). now rewrite andb_false_r.
    - destruct (C12_lemma nside L (to_vec f) (backend_name b) Hn ltac:(lia) VL HB) as (ftm & E & T & H).
      exists ftm. split; [exact E|]. split; [exact T|]. intros t k Ht Hk. apply H; auto. lia. }
  destruct E as (ftm & -> & [T1 T2] & H). cbn [bind].
  eexists. split; [reflexivity|]. split; [cbn [of_rows mat shape hp_grid gn orders]; now rewrite T1|].
  intros t m Ht Hm Hr. cbn [hp_grid gn] in Ht. cbn [mo_of]. unfold at2, of_rows, mat. cbn [get nth].
  rewrite H; [|auto|destruct reality; [left; specialize (Hr eq_refl); lia|destruct (Z_lt_dec m 0); [right|left]; lia]].
  unfold fts. cbn [hp_grid gN gph ge phase_of]. unfold ring_coefficient. rewrite <- cs_scal_r. apply cr_ext. intros p Hp.
  rewrite cis_conj. unfold pixel. cbn [to_vec vat]. replace (m + L - 1 + 1 - L) with m by lia.
  replace (- (IZR m * hp_longitude nside t p))%R with (- IZR m * (2 * PI * IZR p / IZR (ring_length nside t)) + - (IZR m * hp_longitude nside t 0))%R.
  - rewrite cis_plus. ring.
  - unfold hp_longitude. pose proof (SphGrid.ring_length_pos nside t Hn Ht). field. apply not_0_IZR. lia.
Qed.

Lemma weigh_ok (a : ndarray C) n m F w : is_mat a n m F -> vlen w = n ->
  exists b, weigh a w = Ok b /\ is_mat b n m (fun t c => (F t c * RtoC (vat w t))%C).
Proof.
  intros Ha Hw. unfold weigh. rewrite (is_mat_dim0 _ _ _ _ Ha), (is_mat_dim1 _ _ _ _ Ha), Hw, Z.eqb_refl.
  eexists. split; [reflexivity|]. eapply is_mat_ext; [apply is_mat_mat|]. intros. cbn beta. now rewrite (proj2 Ha).
Qed.

Lemma pole_neg0 ftm L spin s x t el m : x = 0%R \/ x = PI -> spin = 0 -> m < 0 -> pole_sum ftm L spin s x t el m = RtoC 0.
Proof.
  intros Hx H0 Hm. unfold pole_sum. destruct (Z.le_gt_cases (Z.abs m) el).
  - destruct (Z_le_dec (Z.abs spin) el); [|rewrite wig_out by lia; ring].
    destruct Hx as [->| ->]; [rewrite wig_0 by lia|rewrite wig_PI by lia]; rewrite (proj2 (Z.eqb_neq _ _)) by lia; ring.
  - rewrite wig_out by lia. ring.
Qed.

(** adding the poles to the numpy step *)
Section NumpyFwd.
  Variables (th : theta_fn) (ftm : ndarray C) (L spin : Z) (s : scheme) (o : option Z) (re : bool) (Lo : Z) (beta : vec R).
  Hypothesis HL : 2 <= L.
  Hypothesis HLo : 0 <= Lo <= L - 2.
  Hypothesis Hs : Z.abs spin < L.
  Hypothesis Hmw : s <> MW.
  Hypothesis Hf : shape ftm = [vlen beta; 2 * L - 1 + shift_of s].
  Hypothesis Hn : 1 <= vlen beta.
  Hypothesis Hn2 : s = MWSS -> 2 <= vlen beta.

  Lemma numpy_fwd_rings p : numpy_precomps th L spin (scheme_name s) o true Lo (inner_angles s beta) p ->
    (forall t, 0 <= t < vlen beta -> usable_ring s (vlen beta) L Lo spin (vat beta) t) ->
    exists a, (let* flm := (if streq (lower (scheme_name s)) "mwss"
               then forward_latitudinal_step th (slice2 ftm 1 (-1) 0 (dim1 ftm)) (vslice beta 1 (-1)) L spin o (scheme_name s)
                      re p Lo
               else forward_latitudinal_step th ftm beta L spin o (scheme_name s) re p Lo) in
      if streq (lower (scheme_name s)) "mwss"
      then let* flm := add_south flm ftm L spin (shift_of s) Lo in add_north flm ftm L spin (shift_of s) Lo
      else Ok flm) = Ok a /\ all_rings_fwd ftm L spin s re Lo beta a.
  Proof.
    intros HP Hu.
    assert (Hr : r0 s <= r1 s beta /\ 0 <= r1 s beta) by (unfold r0, r1; destruct s; try specialize (Hn2 eq_refl); lia).
    destruct (sliced ftm L s (scheme_name s) beta HL (denotes_name s) (plain_scheme s) Hf Hr) as (ft & be & Esl & Ebe & Hlb & Hvb & Hft).
    assert (Hreg : forall t, 0 <= t < vlen be -> regular L Lo (- spin) (vat be t)).
    { intros t Ht. rewrite Hlb in Ht. rewrite Hvb by lia. apply (inner_usable ftm L spin s (scheme_name s) Lo beta (denotes_name s) (plain_scheme s) Hf Hr); auto; lia. }
    assert (Hft' : shape ft = [vlen be; 2 * L - 1 + shift_of s]) by (rewrite Hlb; apply Hft).
    rewrite <- Ebe in HP.
    destruct (forward_step th ft L spin s (scheme_name s) o re Lo be HL HLo Hs (denotes_name s) (plain_scheme s) Hft' p HP Hreg) as (a & Ea & F & HF & HFv).
    rewrite Hlb in HFv.
    assert (IS := fun el m (Hm : - L < m < L) => inner_sum ftm L spin s beta ft (vat be) el m Hvb Hm Hft).
    assert (Ang : forall el m, angle_sum L (shift_of s) spin (vlen beta) ftm (ring_angle s (vlen beta) (vat beta)) el m
       = csum (zrange 0 (vlen beta)) (fun t => pole_sum ftm L spin s (ring_angle s (vlen beta) (vat beta) t) t el m)) by reflexivity.
    set (nt := vlen beta) in *.
    assert (D : s = MWSS \/ (s = DH \/ s = GL \/ s = HEALPIX)) by (clear - Hmw; destruct s; auto; congruence). destruct D as [Es|Es].
    - rewrite lower_name in Esl |- *. replace (streq (scheme_name s) "mwss") with true in * by (rewrite Es; reflexivity).
      injection Esl as -> ->. rewrite Ea. cbn [bind].
      destruct (add_south_ok ftm L spin s Lo beta HLo Hs Hf a F Hn HF) as (b & B & E1 & HB & B1 & B2). rewrite E1. cbn [bind].
      destruct (add_north_ok ftm L spin s Lo beta HLo Hs Hf b B Hn HB) as (c & D & E2 & HD & D1 & D2). rewrite E2. exists c. split; [reflexivity|].
      exists D. split; [exact HD|]. intros el m Hel Hm. destruct (HFv el m Hel Hm) as [V1 V2]. split.
      + intros H. rewrite D1, B1 by auto. auto.
      + intros H1 H2 H3. erewrite D2; [|auto|auto|auto|auto|eapply B2; [auto|auto|auto|auto|apply V2; auto]]. f_equal.
        destruct (re && (m <? 0)) eqn:Er.
        * apply andb_prop in Er. assert (S0 : spin = 0) by (apply H3; tauto || lia). rewrite !pole_neg0 by (auto; lia). ring.
        * assert (Hr' : 2 <= nt) by (apply Hn2, Es).
          rewrite IS, Ang by auto. unfold r0, r1. fold nt. rewrite Es. rewrite (cr_last nt) by lia.
          rewrite (cr_cons 0) by lia. rewrite Z.add_0_l.
          unfold ring_angle at 1, pole_angle. cbn [Z.eqb].
          unfold ring_angle at 2, pole_angle. rewrite (proj2 (Z.eqb_neq (nt - 1) 0)) by lia. rewrite Z.eqb_refl.
          rewrite (cr_ext 1 _ (fun t => pole_sum ftm L spin MWSS (ring_angle MWSS nt (vat beta) t) t el m) (fun t => pole_sum ftm L spin MWSS (vat beta t) t el m)); [ring|].
          intros t Ht. unfold ring_angle, pole_angle. rewrite !(proj2 (Z.eqb_neq _ _)) by lia. reflexivity.
    - assert (Ep : forall t, pole_angle s nt t = None) by (intros t; destruct Es as [Es|[Es|Es]]; rewrite Es; reflexivity).
      rewrite lower_name in Esl |- *. replace (streq (scheme_name s) "mwss") with false in * by (destruct Es as [Es|[Es|Es]]; rewrite Es; reflexivity).
      replace (streq (scheme_name s) "mw") with false in * by (destruct Es as [Es|[Es|Es]]; rewrite Es; reflexivity).
      injection Esl as <- <-. rewrite Ea. cbn [bind]. exists a. split; [reflexivity|].
      exists F. split; [exact HF|]. intros el m Hel Hm. destruct (HFv el m Hel Hm) as [V1 V2].
      split; [exact V1|]. intros H1 H2 H3. rewrite V2 by auto. destruct (re && (m <? 0)); [reflexivity|]. f_equal. fold nt. rewrite IS, Ang by auto.
      replace (r0 s) with 0 by (unfold r0; destruct Es as [Es|[Es|Es]]; rewrite Es; reflexivity).
      replace (r1 s beta) with nt by (unfold r1; destruct Es as [Es|[Es|Es]]; rewrite Es; reflexivity).
      apply cr_ext. intros t Ht. unfold ring_angle. now rewrite Ep.
  Qed.
End NumpyFwd.

Lemma rscale_fin r z : rscale r (fin z) = fin (RtoC r * z)%C.
Proof. destruct z as [a b]. unfold rscale, fin, emul, Re, Im, Cmult, RtoC. cbn [fst snd]. f_equal; f_equal; lra. Qed.
Lemma econj_fin z : econj (fin z) = fin (Cconj z).
Proof. now destruct z. Qed.

Section Finish.
  Variables (s : scheme) (L spin : Z) (reality : bool) (Lo : Z) (beta : vec R) (ftm : ndarray C) (g : grid) (w : vec R) (v : Z -> Z -> C).
  Hypothesis HL : 2 <= L.
  Hypothesis HLo : 0 <= Lo <= L - 2.
  Hypothesis Hs : Z.abs spin < L.
  Hypothesis Hre : reality = true -> spin = 0.
  Hypothesis Hg : gn g = vlen beta.
  Hypothesis Hth : forall t, gth g t = ring_angle s (vlen beta) (vat beta) t.
  Hypothesis Hft : forall t m, 0 <= t < gn g -> - L < m < L -> (reality = true -> 0 <= m) ->
    get ftm [t; m + L - 1 + shift_of s] = (RtoC (vat w t) * csum (zrange 0 (gN g t)) (fun p => cis (- (IZR m * gph g t p)) * v t p))%C.
  Hypothesis Hv : reality = true -> forall t p, in_grid g t p -> is_real (v t p).

  Lemma finish_ok a k sg : all_rings_fwd ftm L spin s reality Lo beta a ->
    k = Z.abs spin \/ k = Z.max (Z.abs spin) Lo -> m1 sg = m1 spin ->
    exists flm, (let* flm := normalise rscale a L Lo in
      let* flm := (if reality then mirror_real flm L (if reality then L - 1 else 0) else Ok flm) in
      let flm := clear_rows flm k in
      let* flm := finite2 flm in
      Ok (mscal (fun z => (z * RtoC (m1 sg))%C) flm)) = Ok flm /\
    holds_coefficients L flm (fun el m => if Z.max Lo (Z.abs spin) <=? el then SphForwardTop.fsum g spin w v el m else RtoC 0).
  Proof.
    intros (F & HF & H) Hk Hsg.
    set (B := fun el m => (RtoC (sgn spin) * SphForwardTop.fsum g spin w v el m)%C).
    assert (AS : forall el m, 0 <= el < L -> - L < m < L -> (reality = true -> 0 <= m) ->
       (RtoC (elfactor el) * angle_sum L (shift_of s) spin (vlen beta) ftm (ring_angle s (vlen beta) (vat beta)) el m)%C = B el m).
    { intros el m Hel Hm Hr. unfold B, angle_sum, SphForwardTop.fsum. rewrite <- Hg, <- !cs_scal_l. apply cr_ext. intros t Ht. rewrite Hft by auto.
      replace (ring_angle s (gn g) (vat beta) t) with (gth g t) by (rewrite Hth, Hg; reflexivity).
      rewrite !RtoC_mult. transitivity (RtoC (sgn spin * sgn spin) * (RtoC (elfactor el) * (RtoC (wigner_d el m (- spin)%Z (gth g t)) *
        (RtoC (vat w t) * csum (zrange 0 (gN g t)) (fun p => cis (- (IZR m * gph g t p)) * v t p)))))%C; [rewrite sgn_sq; ring|rewrite RtoC_mult; ring]. }
    destruct (normalise_ok rscale a L (2 * L - 1) F Lo HF ltac:(lia)) as (a1 & -> & H1). cbn [bind].
    assert (V1 : forall el m, 0 <= el < L -> - L < m < L -> Z.abs spin <= el -> (reality = true -> 0 <= m) ->
      at2 a1 el (m + L - 1) = fin (if Lo <=? el then B el m else RtoC 0)).
    { intros el m Hel Hm Hsp Hr. rewrite (proj2 H1) by lia. destruct (H el m Hel Hm) as [Q1 Q2]. destruct (Z.leb_spec Lo el).
      - rewrite Q2 by auto. rewrite rscale_fin. f_equal. replace (reality && (m <? 0)) with false; [now apply AS|].
        destruct reality; [specialize (Hr eq_refl); lia|reflexivity].
      - now apply Q1. }
    assert (HM : exists a2, (if reality then mirror_real a1 L (if reality then L - 1 else 0) else Ok a1) = Ok a2 /\ shape a2 = [L; 2 * L - 1] /\
      forall el m, 0 <= el < L -> - L < m < L -> Z.abs spin <= el -> at2 a2 el (m + L - 1) = fin (if Lo <=? el then B el m else RtoC 0)).
    { destruct (Sumbool.sumbool_of_bool reality) as [Hr|Hr]; rewrite Hr.
      - assert (M1 := is_mat_self a1 L (2 * L - 1) (proj1 H1)).
        unfold mirror_real. rewrite (is_mat_dim0 _ _ _ _ M1), (is_mat_dim1 _ _ _ _ M1).
        assert (M3 := MatFacts.slice2_ok _ _ _ _ 0 L (L - 1 + 1) (2 * L - 1) M1 ltac:(lia) ltac:(lia) ltac:(lia) ltac:(lia) ltac:(lia) ltac:(lia)).
        rewrite (is_mat_dim0 _ _ _ _ M3), (is_mat_dim1 _ _ _ _ M3). rewrite Z.max_r by lia.
        replace (2 * L - 1 - (L - 1 + 1) =? L - 1) with true by lia. cbn [negb].
        set (u := mat _ _ _). assert (M5 : is_mat u (L - 0) (L - 1 - 0) (fun el i => rscale (m1 ((1 + i) mod 2)) (econj (at2 a1 (0 + el) (L - 1 + 1 + i))))).
        { replace (L - 1 - 0) with (2 * L - 1 - (L - 1 + 1)) by lia. eapply is_mat_ext; [apply is_mat_mat|]. intros el i Hel Hi. cbn beta.
          now rewrite (proj2 M3) by lia. }
        destruct (slice2_set_ok _ _ _ _ _ _ 0 L 0 (L - 1) M1 (flip1_ok _ _ _ _ M5) ltac:(lia) ltac:(lia) ltac:(lia) ltac:(lia) ltac:(lia) ltac:(lia))
          as (a2 & E & H2). exists a2. split; [exact E|]. split; [apply H2|]. intros el m Hel Hm Hsp. rewrite (proj2 H2) by lia.
        destruct (Z.ltb_spec m 0).
        + replace ((0 <=? el) && (el <? L) && (0 <=? m + L - 1) && (m + L - 1 <? L - 1)) with true by lia.
          replace (1 + (L - 1 - 0 - 1 - (m + L - 1 - 0))) with (- m) by lia.
          replace (L - 1 + 1 + (L - 1 - 0 - 1 - (m + L - 1 - 0))) with (- m + L - 1) by lia. rewrite Z.sub_0_r, Z.add_0_l.
          rewrite V1 by lia. rewrite econj_fin, rscale_fin. f_equal. destruct (Lo <=? el); [|rewrite Cconj_R; ring].
          unfold B. rewrite (Hre Hr). change (sgn 0) with 1%R. rewrite !Cmult_1_l. rewrite <- (Z.opp_involutive m) at 3.
          rewrite (fsum_conj g w v el (- m) (Hv Hr)). f_equal. f_equal. apply mod2_sgn.
        + replace ((0 <=? el) && (el <? L) && (0 <=? m + L - 1) && (m + L - 1 <? L - 1)) with false by lia. apply V1; auto.
      - exists a1. split; [reflexivity|]. split; [apply H1|]. intros. apply V1; auto. congruence. }
    destruct HM as (a2 & -> & S2 & V2). cbn [bind]. cbv zeta.
    assert (M2 := is_mat_self a2 L (2 * L - 1) S2).
    destruct (finite2_ok (clear_rows a2 k) L (2 * L - 1) (fun el j => if el <? k then fin (RtoC 0) else at2 a2 el j)
      (fun el j => if Z.max Lo (Z.abs spin) <=? el then B el (j - (L - 1)) else RtoC 0)) as (c & Ec & Hc).
    { unfold clear_rows. rewrite (is_mat_dim0 _ _ _ _ M2), (is_mat_dim1 _ _ _ _ M2). apply is_mat_mat. }
    { intros el j Hel Hj. cbn beta. destruct (Z.ltb_spec el k).
      - replace (Z.max Lo (Z.abs spin) <=? el) with false by lia. reflexivity.
      - replace j with (j - (L - 1) + L - 1) at 1 by lia. rewrite V2 by lia. f_equal.
        replace (Lo <=? el) with (Z.max Lo (Z.abs spin) <=? el) by lia. reflexivity. }
    rewrite Ec. cbn [bind]. eexists. split; [reflexivity|]. assert (H3 := mscal_ok (fun z => (z * RtoC (m1 sg))%C) _ _ _ _ Hc).
    split; [exact (proj1 H3)|]. intros el m Hel Hm. unfold stored. refine (eq_trans (proj2 H3 el (m + L - 1) ltac:(lia) ltac:(lia)) _).
    rewrite Hsg. replace (m + L - 1 - (L - 1)) with m by lia. destruct (_ <=? _); [|ring]. unfold B. change (m1 spin) with (sgn spin).
    transitivity (RtoC (sgn spin * sgn spin) * SphForwardTop.fsum g spin w v el m)%C; [rewrite RtoC_mult; ring|]. rewrite sgn_sq. ring.
  Qed.
End Finish.

(** ** The transforms *)

Lemma fwd_precomps_name th s L spin o Lo beta p :
  numpy_precomps th L spin (scheme_name s) o true Lo beta p -> numpy_precomps th L spin (scheme_name (fscheme s)) o true Lo beta p.
Proof. destruct s; auto. Qed.
Lemma fwd_precomps_name_jax th s L spin o Lo beta p :
  jax_precomps th L spin (scheme_name s) o true Lo beta p -> jax_precomps th L spin (scheme_name (fscheme s)) o true Lo beta p.
Proof. destruct s; auto. Qed.

Section OFwd.
  Variables (gl : gl_rule) (th : theta_fn) (f : ndarray C) (L spin : Z) (s : scheme) (nside : Z) (o : option Z) (reality : bool) (Lo : Z) (beta : vec R).
  Hypothesis HL : 2 <= L.
  Hypothesis HLo : 0 <= Lo <= L - 2.
  Hypothesis Hs : Z.abs spin < L.
  Hypothesis Hn : s = HEALPIX -> 1 <= nside /\ o = Some nside /\ 2 * nside <= L.
  Hypothesis Hf : shape f = map_shape s L nside.
  Hypothesis Hgw : s = GL -> vlen (gl_weights gl L) = L.
  Hypothesis Hre : reality = true -> spin = 0.
  Hypothesis Hreal : reality = true -> s = HEALPIX -> real_values gl s L nside spin f.
  Hypothesis Eth : fwd_angles th s L o = Ok beta.
  Let g0 := fgrid gl s L nside.
  Let s' := fscheme s.
  Hypothesis Hb : vlen beta = gn g0.
  Let x := ring_angle s' (vlen beta) (vat beta).
  Let g := ogrid s L nside x.
  Let v := uvals reality s L nside spin f.
  Hypothesis Hu : forall t, 0 <= t < vlen beta -> usable_ring s' (vlen beta) L Lo spin (vat beta) t.

  Lemma front_ok b : (s = HEALPIX -> b = jax -> 2 <= nside) ->
    exists f2 w ftm1 ftm2 ftm, otf_prepare b th f L spin (scheme_name s) o = Ok (f2, scheme_name s', beta) /\
      quad_weights_transform gl L (scheme_name s') 0 o = Ok w /\
      otf_analysis b f2 L (scheme_name s') o reality = Ok ftm1 /\ weigh ftm1 w = Ok ftm2 /\
      shift_rings ftm2 L (scheme_name s') o true reality ((if reality then L - 1 else 0) + m_offset (scheme_name s')) = Ok ftm /\
      shape ftm = [vlen beta; 2 * L - 1 + shift_of s'] /\
      forall t m, 0 <= t < gn g -> - L < m < L -> (reality = true -> 0 <= m) ->
        get ftm [t; m + L - 1 + shift_of s'] = (RtoC (vat w t) * csum (zrange 0 (gN g t)) (fun p => cis (- (IZR m * gph g t p)) * v t p))%C.
  Proof.
    intros Hj. destruct (pre_resample b gl s f L spin nside ltac:(lia) Hf) as (f1 & f2 & E1 & E2 & Sf & HV).
    fold g0 in Sf, HV.
    assert (EP : otf_prepare b th f L spin (scheme_name s) o = Ok (f2, scheme_name s', beta)).
    { unfold otf_prepare. rewrite E1. cbn [bind]. rewrite lower_name in *. revert E2. unfold fwd_angles in Eth.
      assert (D : (s = MW \/ s = MWSS) \/ (s = DH \/ s = GL \/ s = HEALPIX)) by (destruct s; auto). destruct D as [D|D].
      - replace (str_in (scheme_name s) ["mw"; "mwss"]) with true by (destruct D as [D|D]; rewrite D; reflexivity).
        destruct (upsample_by_two_mwss b f1 L spin) as [f3|]; cbn [bind]; [|discriminate]. intros E2.
        replace (th (2 * L) "mwss" None) with (@Ok (vec R) beta) by (destruct D as [D|D]; rewrite D in Eth; now rewrite Eth). cbn [bind].
        injection E2 as -> E3. unfold s'. now rewrite <- E3.
      - replace (str_in (scheme_name s) ["mw"; "mwss"]) with false by (destruct D as [D|[D|D]]; rewrite D; reflexivity).
        intros E2. replace (th L (scheme_name s) o) with (@Ok (vec R) beta) by (destruct D as [D|[D|D]]; rewrite D in Eth |- *; now rewrite Eth).
        cbn [bind]. injection E2 as -> E3. unfold s'. now rewrite <- E3. }
    destruct (weights_ok gl (scheme_name s) s L nside o (denotes_name s) ltac:(lia) ltac:(intros Q; destruct (Hn Q) as (? & ? & ?); auto) Hgw) as (w & Ew & Lw).
    fold g0 in Lw. replace (fname (scheme_name s) s) with (scheme_name s') in Ew by (unfold s'; destruct s; reflexivity).
    assert (HVg : forall t p, in_grid g t p -> get (used_map reality f2) (ge g t p) = v t p).
    { intros t p [H1 H2]. rewrite used_map_get. unfold v, uvals, g in *. rewrite (ogrid_n gl) in H1. rewrite (ogrid_N gl) in H2. rewrite (ogrid_e gl).
      rewrite HV by now split. reflexivity. }
    assert (K : exists ftm1, otf_analysis b f2 L (scheme_name s') o reality = Ok ftm1 /\ fta_ok s' L nside g (used_map reality f2) reality ftm1).
    { assert (D : s = HEALPIX \/ s <> HEALPIX) by (destruct s; auto; right; discriminate). destruct D as [D|D].
      - destruct (Hn D) as (H1 & H2 & H3). specialize (Hj D). unfold s', g. rewrite D, H2. cbn [fscheme ogrid agrid scheme_name].
        assert (RV : reality = true -> forall i, 0 <= i < 12 * (nside * nside) -> is_real (get f2 [i])).
        { intros Hr i Hi. destruct (hp_pixel_ring nside i H1 Hi) as (t & p & Ht & Hp & ->).
          assert (IG : in_grid g0 t p) by (unfold g0; rewrite D; split; assumption). specialize (HV t p IG).
          replace (ge g0 t p) with [ring_start (ring_length nside) t + p] in HV by (unfold g0; rewrite D; reflexivity).
          rewrite HV. apply (Hreal Hr D); auto. }
        destruct (otf_hp_analysis b L nside reality f2 x ltac:(lia) H1 Hj H3) as (ftm & E & H4 & H5); [rewrite Sf; unfold g0; rewrite D; reflexivity|exact RV|].
        exists ftm. split; [exact E|]. split; [exact H4|]. intros t m Ht Hm Hr. rewrite H5 by auto. unfold fts. apply cr_ext. intros p Hp. f_equal.
        rewrite used_map_get. destruct reality; [|reflexivity]. symmetry. apply real_Re. cbn [hp_grid ge gn gN] in *.
        assert (IG : in_grid g0 t p) by (unfold g0; rewrite D; split; assumption). specialize (HV t p IG).
        replace (ge g0 t p) with [ring_start (ring_length nside) t + p] in HV by (unfold g0; rewrite D; reflexivity).
        rewrite HV. apply (Hreal eq_refl D); auto.
      - assert (EG : exists n, g = equi_grid s' L n x /\ 0 < n /\ gsh g0 = [n; per_ring s' L])
          by (unfold g, s', x, g0; clear - D HL; destruct s; try congruence; cbn [ogrid agrid fscheme fgrid the_grid]; eexists; (split; [reflexivity|cbn [rings]; split; [lia|reflexivity]])).
        destruct EG as (n & EG & Hn0 & Esh). assert (D' : s' <> HEALPIX) by (unfold s'; destruct s; cbn [fscheme]; congruence).
        destruct (otf_equi_analysis b s' L o n reality f2 x D' ltac:(lia) Hn0) as (ftm & E & H); [rewrite Sf; exact Esh|].
        exists ftm. split; [exact E|]. rewrite EG. apply H. }
    destruct K as (ftm1 & EA & SA & VA).
    assert (Gn : gn g = vlen beta) by (rewrite Hb; unfold g; now rewrite (ogrid_n gl)).
    rewrite Gn in SA. assert (M1 := is_mat_self ftm1 _ _ SA).
    destruct (weigh_ok ftm1 _ _ _ w M1 ltac:(rewrite Lw; auto)) as (ftm2 & EW & M2).
    destruct (shift_rings_ok s' L nside o reality ftm2 _ ltac:(lia) ltac:(unfold s'; destruct s; try discriminate; cbn [fscheme]; intros _; destruct (Hn eq_refl) as (? & ? & ?); auto)
       true (vlen beta) ltac:(unfold s', g0 in *; clear - Hb; destruct s; try discriminate; intros _; rewrite Hb; reflexivity) M2) as (ftm & ES & M3).
    exists f2, w, ftm1, ftm2, ftm. split; [exact EP|]. split; [exact Ew|]. split; [exact EA|]. split; [exact EW|].
    split; [unfold s' in *; rewrite m_offset_name; exact ES|]. split; [rewrite <- orders_shift; apply M3|].
    intros t m Ht Hm Hr. rewrite <- (mo_shift s').
    assert (B01 : mo_of s' = 0 \/ mo_of s' = 1) by (rewrite mo_shift; apply shift_01).
    change (get ftm [t; m + L - 1 + mo_of s']) with (at2 ftm t (m + L - 1 + mo_of s')). rewrite (proj2 M3).
    - assert (Hms : (if reality then L - 1 else 0) + mo_of s' <=? m + L - 1 + mo_of s' = true) by (destruct reality; [specialize (Hr eq_refl)|]; lia).
      rewrite Hms. replace (m + L - 1 + mo_of s' - mo_of s' - (L - 1)) with m by lia.
      transitivity (RtoC (vat w t) * (at2 ftm1 t (m + L - 1 + mo_of s') * Cconj (phase_of s' nside t m)))%C; [ring|]. f_equal.
      rewrite VA by auto. unfold fts. apply cr_ext. intros p Hp. rewrite HVg by (split; auto). reflexivity.
    - lia.
    - rewrite orders_shift. rewrite mo_shift in *. lia.
  Qed.

  Lemma grid_n : gn g = vlen beta.
  Proof. rewrite Hb. unfold g. apply ogrid_n. Qed.
  Lemma grid_real : reality = true -> forall t p, in_grid g t p -> is_real (v t p).
  Proof.
    intros Hr t p _. unfold v, uvals. rewrite Hr. reflexivity.
  Qed.
  Lemma beta_pos : 1 <= vlen beta /\ (s' = MWSS -> 2 <= vlen beta).
  Proof.
    rewrite Hb. unfold g0, s'. clear - HL Hn. destruct s; cbn [fgrid the_grid equi_grid hp_grid gn rings fscheme];
      (split; [try lia; destruct (Hn eq_refl); lia|intros; try discriminate; lia]).
  Qed.

  Lemma forward_numpy_lemma p : numpy_precomps th L spin (scheme_name s) o true Lo (inner_angles s' beta) p ->
    exists w flm, quad_weights_transform gl L (scheme_name s') 0 o = Ok w /\
      forward_numpy gl th f L spin o (scheme_name s) reality p Lo = Ok flm /\
      holds_coefficients L flm (fun el m => if Z.max Lo (Z.abs spin) <=? el then SphForwardTop.fsum g spin w v el m else RtoC 0).
  Proof.
    intros HP. destruct (front_ok numpy) as (f2 & w & ftm1 & ftm2 & ftm & EP & Ew & EA & EW & ES & Sh & HV); [discriminate|].
    destruct beta_pos as [B1 B2].
    assert (Hmw : s' <> MW) by (unfold s'; destruct s; discriminate).
    destruct (numpy_fwd_rings th ftm L spin s' o reality Lo beta HL HLo Hs Hmw Sh B1 B2 p) as (a & Ea & Ha); [apply fwd_precomps_name, HP|exact Hu|].
    destruct (finish_ok s' L spin reality Lo beta ftm g w v HL HLo Hre grid_n ltac:(intros; unfold g; apply ogrid_th) HV grid_real
      a (Z.max (Z.abs spin) Lo) spin Ha ltac:(auto) eq_refl) as (flm & EF & HF).
    exists w, flm. split; [exact Ew|]. split; [|exact HF].
    unfold forward_numpy. rewrite EP. cbn [bind]. rewrite Ew. cbn [bind]. cbv zeta. rewrite EA. cbn [bind]. rewrite EW. cbn [bind].
    rewrite ES. cbn [bind]. rewrite <- EF.
    rewrite m_offset_name, mo_shift. revert Ea.
    destruct (if streq (lower (scheme_name s')) "mwss" then forward_latitudinal_step th (slice2 ftm 1 (-1) 0 (dim1 ftm)) _ _ _ _ _ _ _ _ else _) as [b|]; cbn [bind];
      [|discriminate]. intros ->. cbn [bind]. reflexivity.
  Qed.

  (** forward_jax with any latitudinal step that returns the array of the JAX step *)
  Definition forward_with (step : ndarray C -> vec R -> string -> result (ndarray ecx)) : result (ndarray C) :=
    let* (fs, ths) := otf_prepare jax th f L spin (scheme_name s) o in
    let '(f, sampling) := fs in
    let* weights := quad_weights_transform gl L sampling 0 o in
    let mo := m_offset sampling in
    let ms := if reality then L - 1 else 0 in
    let* ftm := otf_analysis jax f L sampling o reality in
    let* ftm := weigh ftm weights in
    let* ftm := shift_rings ftm L sampling o true reality (ms + mo) in
    let* flm := step ftm ths sampling in
    let* flm := normalise rscale flm L Lo in
    let* flm := (if reality then mirror_real flm L ms else Ok flm) in
    let flm := clear_rows flm (Z.abs spin) in
    let* flm := finite2 flm in
    Ok (mscal (fun z => (z * RtoC (m1 (Z.abs spin)))%C) flm).
  Lemma forward_with_lemma step p : (s = HEALPIX -> 2 <= nside) -> jax_precomps th L spin (scheme_name s) o true Lo (inner_angles s' beta) p ->
    (forall ftm a, forward_latitudinal_step_jax th ftm beta L spin o (scheme_name s') reality p Lo = Ok a -> shape a = [L; 2 * L - 1] ->
       exists b, step ftm beta (scheme_name s') = Ok b /\ is_mat b L (2 * L - 1) (at2 a)) ->
    exists w flm, quad_weights_transform gl L (scheme_name s') 0 o = Ok w /\
      forward_with step = Ok flm /\
      holds_coefficients L flm (fun el m => if Z.max Lo (Z.abs spin) <=? el then SphForwardTop.fsum g spin w v el m else RtoC 0).
  Proof.
    intros Hj HP HS. destruct (front_ok jax) as (f2 & w & ftm1 & ftm2 & ftm & EP & Ew & EA & EW & ES & Sh & HV); [auto|].
    destruct beta_pos as [B1 B2].
    assert (Hr : r0 s' <= r1 s' beta /\ 0 <= r1 s' beta).
    { clear - B1 B2. unfold r0, r1. destruct s'; try (specialize (B2 eq_refl)); lia. }
    destruct (forward_step_jax th ftm L spin s' (scheme_name s') o reality Lo beta HL HLo Hs (denotes_name s') (plain_scheme s') Sh Hr p) as (a0 & Ea & Ha0);
      [apply fwd_precomps_name_jax, HP|exact B1|exact Hu|].
    destruct (HS ftm a0 Ea) as (a & Eb & Hb'); [destruct Ha0 as (F & HF & _); apply HF|].
    assert (Ha : all_rings_fwd ftm L spin s' reality Lo beta a).
    { destruct Ha0 as (F & HF & HFv). exists F. split; [|exact HFv]. eapply is_mat_ext; [exact Hb'|]. intros. now apply (proj2 HF). }
    destruct (finish_ok s' L spin reality Lo beta ftm g w v HL HLo Hre grid_n ltac:(intros; unfold g; apply ogrid_th) HV grid_real
      a (Z.abs spin) (Z.abs spin) Ha ltac:(auto) (m1_abs spin)) as (flm & EF & HF).
    exists w, flm. split; [exact Ew|]. split; [|exact HF].
    unfold forward_with. rewrite EP. cbn [bind]. rewrite Ew. cbn [bind]. cbv zeta. rewrite EA. cbn [bind]. rewrite EW. cbn [bind].
    rewrite ES. cbn [bind]. rewrite Eb. cbn [bind]. exact EF.
  Qed.
  Lemma forward_jax_lemma p : (s = HEALPIX -> 2 <= nside) -> jax_precomps th L spin (scheme_name s) o true Lo (inner_angles s' beta) p ->
    exists w flm, quad_weights_transform gl L (scheme_name s') 0 o = Ok w /\
      forward_jax gl th f L spin o (scheme_name s) reality p Lo = Ok flm /\
      holds_coefficients L flm (fun el m => if Z.max Lo (Z.abs spin) <=? el then SphForwardTop.fsum g spin w v el m else RtoC 0).
  Proof.
    intros Hj HP. apply (forward_with_lemma (fun ftm ths sampling => forward_latitudinal_step_jax th ftm ths L spin o sampling reality p Lo) p Hj HP).
    intros ftm a E Sh. exists a. split; [exact E|]. now apply is_mat_self.
  Qed.
End OFwd.
