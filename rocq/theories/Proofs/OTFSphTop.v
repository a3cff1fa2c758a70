(** Consequences: agreement, reality, masks, reference transforms, round trips, existence of angles. *)
From Coq Require Import Reals ZifyBool Lra.
From Coquelicot Require Import Complex.
From Verif Require Import Lib.Py Lib.PyFacts Lib.Vec Lib.VecFacts Lib.Sums Lib.Cplx Lib.Arr Lib.ArrFacts Lib.MatFacts Lib.Ext Lib.ExtFacts Lib.Lim
  Model.Index Model.Samples Model.Grids Model.FFT Model.HealpixFFT Model.Turok Model.Risbo Model.Resampling Model.Quadrature
  Model.Spherical Model.Precompute Model.PriceMcEwen Model.OTF Model.OTFSpherical
  Spec.SamplesSpec Spec.WignerSpec Spec.SphereSpec Spec.GridSpec Spec.HealpixFFTSpec Spec.SphericalSpec Spec.QuadSpec Spec.OTFSpec Spec.OTFSphericalSpec
  Proofs.SamplesProofs Proofs.GridProofs Proofs.TurokProofs Proofs.HealpixDFTProofs Proofs.SphereTheory Proofs.SphGrid Proofs.SphInverse Proofs.SphTop Proofs.SphForward Proofs.SphForwardTop
  Proofs.SphFacts Proofs.PrecomputeSph Proofs.PMPre Proofs.OTFProofs Proofs.OTFTop Proofs.OTFRegular Proofs.OTFLimit Proofs.OTFSphInverse Proofs.OTFSphForward Proofs.OTFSphNear
  Spec.CallSpec.
From Coq Require Import List.
Import ListNotations.
Open Scope string_scope.
Open Scope Z_scope.

(** every index of a map is a sample *)
Lemma sample_cover s L nside ix : 1 <= L -> (s = HEALPIX -> 1 <= nside) -> in_shape (map_shape s L nside) ix ->
  exists t p, 0 <= t < rings s L nside /\ 0 <= p < ring_size s L nside t /\ ix = sample_index s nside t p.
Proof.
  intros HL Hn Hix. assert (D : s = HEALPIX \/ s <> HEALPIX) by (destruct s; auto; right; discriminate). destruct D as [->|D].
  - cbn [map_shape in_shape] in Hix. destruct ix as [|i [|]]; cbn in Hix; try tauto. destruct (hp_pixel_ring nside i (Hn eq_refl) (proj1 Hix)) as (t & p & Ht & Hp & ->).
    exists t, p. auto.
  - assert (E : map_shape s L nside = [rings s L nside; per_ring s L]) by (destruct s; try congruence; reflexivity). rewrite E in Hix.
    destruct ix as [|t [|p [|]]]; cbn in Hix; try tauto. exists t, p. split; [tauto|]. split; [destruct s; try congruence; tauto|]. destruct s; try congruence; reflexivity.
Qed.

Lemma samples_same x s L nside f g F G : 1 <= L -> (s = HEALPIX -> 1 <= nside) -> samples_at x s L nside f F -> samples_at x s L nside g G ->
  (forall theta phi, F theta phi = G theta phi) -> arr_eq f g.
Proof.
  intros HL Hn [S1 H1] [S2 H2] E. split; [congruence|]. intros ix Hix. rewrite S1 in Hix.
  destruct (sample_cover s L nside ix HL Hn Hix) as (t & p & Ht & Hp & ->). rewrite H1, H2 by auto. apply E.
Qed.


Lemma inverse_call_ok th flm L spin s nside o reality Lo beta method p : inverse_call th flm L spin s nside o reality Lo beta method p ->
  exists f, otf_inverse th flm L spin o (scheme_name s) method reality p Lo = Ok f /\
    samples_at (ring_angle s (rings s L nside) (vat beta)) s L nside f (synth L spin (used_coefficients reality spin Lo (stored L flm))).
Proof. intros (H1 & H2 & H3 & H4 & H5 & H6 & H7 & H8 & H9 & H10 & H11 & H12 & H13 & H14). apply otf_inverse_lemma; auto. Qed.

Lemma forward_call_ok gl th f L spin s nside o reality Lo beta method p iter :
  forward_call gl th f L spin s nside o reality Lo beta method p iter ->
  (reality = true -> s = HEALPIX -> real_values gl s L nside spin f) ->
  exists w flm, quad_weights_transform gl L (scheme_name (fscheme s)) 0 o = Ok w /\
    otf_forward gl th f L spin o (scheme_name s) method reality p Lo iter = Ok flm /\
    holds_coefficients L flm (fun el m => if Z.max Lo (Z.abs spin) <=? el then
      SphForwardTop.fsum (ogrid s L nside (ring_angle (fscheme s) (vlen beta) (vat beta))) spin w (uvals reality s L nside spin f) el m else RtoC 0).
Proof.
  intros (H1 & H2 & H3 & H4 & H5 & H6 & H7 & H8 & H9 & H10 & H11 & H12 & H13 & H14 & H15) HR. apply otf_forward_lemma; auto. now rewrite fwd_rings.
Qed.

(** two calls that differ in the method, the coefficients of no consequence and, for real signals, the flag *)
Lemma inverse_same_call th flm flm' L spin s nside o o' reality reality' Lo beta method method' p p' :
  inverse_call th flm L spin s nside o reality Lo beta method p -> inverse_call th flm' L spin s nside o' reality' Lo beta method' p' ->
  (forall l m, Z.abs spin <= l < L -> - l <= m <= l ->
     used_coefficients reality spin Lo (stored L flm) l m = used_coefficients reality' spin Lo (stored L flm') l m) ->
  same_ok (otf_inverse th flm L spin o (scheme_name s) method reality p Lo) (otf_inverse th flm' L spin o' (scheme_name s) method' reality' p' Lo).
Proof.
  intros C1 C2 E. destruct (inverse_call_ok _ _ _ _ _ _ _ _ _ _ _ _ C1) as (f & Ef & Hf). destruct (inverse_call_ok _ _ _ _ _ _ _ _ _ _ _ _ C2) as (g & Eg & Hg).
  exists f, g. split; [exact Ef|]. split; [exact Eg|]. destruct C1 as (HL & _ & _ & _ & Hn & _).
  refine (samples_same _ s L nside f g _ _ _ _ Hf Hg _); [lia|intros Q; apply (Hn Q)|]. intros theta phi. now apply synth_ext.
Qed.

Lemma real_values_gen gl s L nside spin f : 1 <= L -> (s = HEALPIX -> 1 <= nside) -> nodes_ok s L (gl_nodes gl L) -> shape f = map_shape s L nside ->
  real_map (vat (gl_nodes gl L)) s L nside spin f -> real_values gl s L nside spin f.
Proof.
  intros HL Hn Hg Hsh H t p IG.
  assert (M : s = MW \/ s = MWSS -> is_real (fvals s L nside spin f t p)).
  { intros Q. assert (H' : exists F, represented (vat (gl_nodes gl L)) s L nside spin f F /\ forall theta phi, is_real (F theta phi))
      by (destruct Q as [-> | ->]; exact H). destruct H' as (F & HF & HR). rewrite (fvals_signal_gen gl s L nside spin f F); auto.
    intros N1 N2. destruct Q; congruence. }
  assert (N : s <> MW -> s <> MWSS -> is_real (fvals s L nside spin f t p)).
  { intros N1 N2. assert (E : fvals s L nside spin f t p = get f (sample_index s nside t p)) by (destruct s; try congruence; reflexivity). rewrite E.
    assert (H' : forall ix, in_shape (shape f) ix -> is_real (get f ix)) by (destruct s; try congruence; exact H). apply H'.
    assert (GE : fgrid gl s L nside = the_grid gl s L nside) by (destruct s; try congruence; reflexivity). rewrite GE in *.
    rewrite Hsh, <- (the_grid_sh gl s L nside), <- (the_grid_e gl s L nside). eapply go_sh; [|exact IG].
    apply (the_grid_ok gl (scheme_name s) s L nside (Some nside) (mkVec (rings s L nside) (th_of gl s L nside))); auto. now destruct s. }
  destruct s; (apply M; auto; fail) || (apply N; discriminate).
Qed.

Lemma ogrid_in gl s L nside x t p : in_grid (ogrid s L nside x) t p -> in_grid (fgrid gl s L nside) t p.
Proof. intros [H1 H2]. rewrite (ogrid_n gl) in H1. rewrite (ogrid_N gl) in H2. now split. Qed.

Lemma forward_same_call gl th f L spin s nside o reality reality' Lo beta method method' p p' iter iter' :
  forward_call gl th f L spin s nside o reality Lo beta method p iter -> forward_call gl th f L spin s nside o reality' Lo beta method' p' iter' ->
  nodes_ok s L (gl_nodes gl L) -> (reality || reality' = true -> real_map (vat (gl_nodes gl L)) s L nside spin f) ->
  same_ok (otf_forward gl th f L spin o (scheme_name s) method reality p Lo iter) (otf_forward gl th f L spin o (scheme_name s) method' reality' p' Lo iter').
Proof.
  intros C1 C2 Hg HR.
  assert (HL : 2 <= L) by apply C1. assert (Hn : s = HEALPIX -> 1 <= nside) by (intros Q; apply (proj1 (proj2 (proj2 (proj2 (proj2 C1)))) Q)).
  assert (Hsh : shape f = map_shape s L nside) by apply C1.
  assert (RV : reality || reality' = true -> real_values gl s L nside spin f) by (intros Q; apply real_values_gen; auto; lia).
  destruct (forward_call_ok _ _ _ _ _ _ _ _ _ _ _ _ _ _ C1) as (w & flm & Ew & E1 & H1); [intros -> _; now apply RV|].
  destruct (forward_call_ok _ _ _ _ _ _ _ _ _ _ _ _ _ _ C2) as (w' & flm' & Ew' & E2 & H2); [intros -> _; apply RV; now destruct reality|].
  exists flm, flm'. split; [exact E1|]. split; [exact E2|]. rewrite Ew in Ew'. injection Ew' as <-.
  eapply holds_same; [|exact H1|]; [lia|]. split; [apply H2|]. intros el m Hel Hm. rewrite (proj2 H2) by auto. destruct (_ <=? _); [|reflexivity].
  apply fsum_ext. intros t q IG. apply (ogrid_in gl) in IG. unfold uvals.
  assert (Q : reality || reality' = true -> RtoC (Re (fvals s L nside spin f t q)) = fvals s L nside spin f t q) by (intros Q; apply real_Re; now apply RV).
  destruct reality, reality'; auto. symmetry. auto.
Qed.

(** ** The reference transforms *)
Lemma reference_inverse_near gl flm L spin s nside reality Lo eps rmethod :
  2 <= L -> 0 <= Lo <= L - 2 -> Z.abs spin < L -> spin < 8 -> (s = HEALPIX -> 1 <= nside /\ 2 * nside <= L) ->
  rule_sizes s L (gl_nodes gl L) (gl_weights gl L) -> rings_away (vat (gl_nodes gl L)) s L nside ->
  shape flm = [L; 2 * L - 1] -> spin_zero L spin flm -> (reality = true -> spin = 0) ->
  (reality = true -> forall el, 0 <= el < L -> is_real (stored L flm el 0)) -> sum_method rmethod \/ fft_method rmethod -> (0 < eps)%R ->
  exists f0 delta, inverse_ gl flm L spin (scheme_name s) rmethod (Some nside) reality Lo = Ok f0 /\ (0 < delta)%R /\
    forall th o beta method p, (s = HEALPIX -> o = Some nside) ->
    th L (scheme_name s) o = Ok beta -> angles_near delta (vat (gl_nodes gl L)) s L nside beta ->
    (forall t, 0 <= t < rings s L nside -> usable_ring s (rings s L nside) L Lo spin (vat beta) t) ->
    python_method method s -> method_precomps method th L spin s o false Lo beta p ->
    exists f, otf_inverse th flm L spin o (scheme_name s) method reality p Lo = Ok f /\ arrays_near eps f f0.
Proof.
  intros HL HLo Hs H8 Hn Hg Ha Hf Hz Hre Hre0 Hrm He.
  assert (Hn1 : s = HEALPIX -> 1 <= nside) by (intros Q; apply (Hn Q)).
  assert (S : setting (scheme_name s) s L nside (Some nside)) by (split; [apply denotes_name|]; split; [lia|]; intros Q; auto).
  destruct (synthesis_lemma gl (scheme_name s) s flm L spin rmethod nside (Some nside) reality Lo S ltac:(lia) Hf) as (f0 & E0 & S0 & H0); auto.
  { intros Q. apply (Hg Q). }
  { destruct Hrm as [Q|Q]; [now left|right]. split; [exact Q|]. split; [reflexivity|]. split; [intros R; apply (Hn R)|]. auto. }
  assert (HN : nodes_ok s L (gl_nodes gl L)).
  { intros -> i Hi. destruct (Ha (L - 1 - i)) as (x & [_ Q] & _); [cbn; lia|]. replace (L - 1 - (L - 1 - i)) with i in Q by lia. rewrite <- Q. apply COS_bound. }
  destruct (inverse_near_lemma gl flm L spin s nside reality Lo eps) as (delta & D & H); auto.
  exists f0, delta. split; [exact E0|]. split; [exact D|]. intros th o beta method p Ho Eth Hb Hu Hm HP.
  destruct (H th o beta method p Ho Eth Hb Hu Hm HP) as (f & E & S1 & H1). exists f. split; [exact E|]. split; [congruence|].
  intros ix Hix. rewrite S1 in Hix. destruct (sample_cover s L nside ix ltac:(lia) Hn1 Hix) as (t & q & Ht & Hq & ->).
  rewrite (H0 t q (th_of gl s L nside t)); auto; [|now apply placed]. apply H1; auto. now apply placed.
Qed.

Lemma reference_forward_near gl f L spin s nside reality Lo eps rmethod :
  2 <= L -> 0 <= Lo <= L - 2 -> Z.abs spin < L -> spin < 8 -> (s = HEALPIX -> 1 <= nside /\ 2 * nside <= L) ->
  rule_sizes s L (gl_nodes gl L) (gl_weights gl L) -> forward_rings_away (vat (gl_nodes gl L)) s L nside ->
  shape f = map_shape s L nside -> (reality = true -> spin = 0) -> (reality = true -> real_map (vat (gl_nodes gl L)) s L nside spin f) ->
  sum_method rmethod \/ fft_method rmethod -> (0 < eps)%R ->
  exists flm0 delta, forward_ gl f L spin (scheme_name s) rmethod (Some nside) reality Lo = Ok flm0 /\ (0 < delta)%R /\
    forall th o beta method p iter, (s = HEALPIX -> o = Some nside) -> (s = HEALPIX -> method <> "numpy" -> 2 <= nside) ->
    fwd_angles th s L o = Ok beta -> forward_angles_near delta (vat (gl_nodes gl L)) s L nside beta ->
    (forall t, 0 <= t < vlen beta -> usable_ring (forward_scheme s) (vlen beta) L Lo spin (vat beta) t) ->
    python_method method s -> method_precomps method th L spin s o true Lo (inner_angles (forward_scheme s) beta) p ->
    (iter = None \/ exists k, iter = Some k /\ k <= 0) ->
    exists flm, otf_forward gl th f L spin o (scheme_name s) method reality p Lo iter = Ok flm /\ arrays_near eps flm flm0.
Proof.
  intros HL HLo Hs H8 Hn Hg Ha Hf Hre HR Hrm He.
  assert (Hn1 : s = HEALPIX -> 1 <= nside) by (intros Q; apply (Hn Q)).
  assert (S : setting (scheme_name s) s L nside (Some nside)) by (split; [apply denotes_name|]; split; [lia|]; intros Q; auto).
  assert (HN : nodes_ok s L (gl_nodes gl L)).
  { intros -> i Hi. destruct (Ha (L - 1 - i)) as (x & [_ Q] & _); [cbn; lia|]. replace (L - 1 - (L - 1 - i)) with i in Q by lia. rewrite <- Q. apply COS_bound. }
  assert (RV : reality = true -> real_values gl s L nside spin f) by (intros Q; apply real_values_gen; auto; lia).
  destruct (analysis_lemma gl (scheme_name s) s f L spin rmethod nside (Some nside) reality Lo S ltac:(lia) Hf Hg Ha) as (w & flm0 & Ew & E0 & S0 & H0); auto.
  { destruct Hrm as [Q|Q]; [now left|right]. split; [exact Q|]. split; [auto|]. intros R; apply (Hn R). }
  replace (fname (scheme_name s) s) with (scheme_name (fscheme s)) in Ew by (destruct s; reflexivity).
  destruct (forward_near_lemma gl f L spin s nside reality Lo w eps) as (delta & D & H); auto.
  { intros Q. apply (Hg Q). }
  exists flm0, delta. split; [exact E0|]. split; [exact D|]. intros th o beta method p iter Ho Hn2 Eth Hb Hu Hm HP Hi.
  destruct (H th o beta method p iter f) as (flm & E & S1 & H1); auto.
  { split; [reflexivity|]. intros ix _. replace (get f ix - get f ix)%C with (RtoC 0) by ring. rewrite Cmod_0. exact D. }
  exists flm. split; [exact E|]. split; [congruence|]. intros ix Hix. rewrite S1 in Hix. destruct ix as [|el [|j [|]]]; cbn [in_shape] in Hix; try tauto.
  specialize (H1 el (j - (L - 1)) ltac:(lia) ltac:(lia)). specialize (H0 el (j - (L - 1)) ltac:(lia) ltac:(lia)). unfold stored in H1, H0.
  replace (j - (L - 1) + L - 1) with j in H1, H0 by lia. rewrite H0. clear H0.
  replace (coeffs gl s L nside spin Lo w (uvals reality s L nside spin f) el (j - (L - 1))) with
    (if Z.max Lo (Z.abs spin) <=? el then SphForwardTop.fsum (fgrid gl s L nside) spin w (fvals s L nside spin f) el (j - (L - 1)) else RtoC 0) in H1; [exact H1|].
  unfold coeffs. destruct (_ <=? _); [|reflexivity]. apply fsum_ext. intros t q IG. unfold uvals. destruct reality; [|reflexivity].
  symmetry. apply real_Re. now apply RV.
Qed.

(** ** Analysis and round trip *)
Lemma recover_near gl f L spin s nside reality Lo eps c :
  2 <= L -> 0 <= Lo <= L - 2 -> Z.abs spin < L -> spin < 8 -> s <> HEALPIX ->
  (s = GL -> gauss_legendre L (gl_nodes gl L) (gl_weights gl L)) ->
  holds_samples (vat (gl_nodes gl L)) s L nside f (synth L spin c) -> (reality = true -> hermitian L c /\ spin = 0) -> (0 < eps)%R ->
  exists delta, (0 < delta)%R /\ forall th o beta method p iter f', arrays_near delta f' f ->
    fwd_angles th s L o = Ok beta -> forward_angles_near delta (vat (gl_nodes gl L)) s L nside beta ->
    (forall t, 0 <= t < vlen beta -> usable_ring (forward_scheme s) (vlen beta) L Lo spin (vat beta) t) ->
    python_method method s -> method_precomps method th L spin s o true Lo (inner_angles (forward_scheme s) beta) p ->
    (iter = None \/ exists k, iter = Some k /\ k <= 0) ->
    exists flm, otf_forward gl th f' L spin o (scheme_name s) method reality p Lo iter = Ok flm /\
      coefficients_near eps L flm (restricted Lo spin c).
Proof.
  intros HL HLo Hs H8 Hhp HG HF Hr He.
  assert (HN : nodes_ok s L (gl_nodes gl L)).
  { intros Q i Hi. destruct (HG Q) as (_ & _ & B & _). specialize (B i Hi). lra. }
  destruct (weights_ok gl (scheme_name s) s L nside (Some nside) (denotes_name s) ltac:(lia) ltac:(intros; congruence)) as (w & Ew & _).
  { intros Q. apply (HG Q). }
  replace (fname (scheme_name s) s) with (scheme_name (fscheme s)) in Ew by (destruct s; reflexivity).
  destruct (forward_near_lemma gl f L spin s nside reality Lo w eps) as (delta & D & H); auto.
  { intros; congruence. }
  { intros Q. apply (HG Q). }
  { apply HF. }
  { intros Q. apply (Hr Q). }
  exists delta. split; [exact D|]. intros th o beta method p iter f' Hf' Eth Hb Hu Hm HP Hi.
  destruct (H th o beta method p iter f') as (flm & E & S1 & H1); auto; try congruence.
  exists flm. split; [exact E|]. split; [exact S1|]. intros el m Hel Hmm. specialize (H1 el m Hel Hmm).
  rewrite (coeffs_exact gl f L spin s nside reality Lo w c) in H1; auto. lia.
Qed.

Lemma round_trip_near gl flm L spin s nside reality Lo eps :
  2 <= L -> 0 <= Lo <= L - 2 -> Z.abs spin < L -> spin < 8 -> s <> HEALPIX ->
  (s = GL -> gauss_legendre L (gl_nodes gl L) (gl_weights gl L)) ->
  shape flm = [L; 2 * L - 1] -> spin_zero L spin flm -> (reality = true -> hermitian L (stored L flm) /\ spin = 0) -> (0 < eps)%R ->
  exists delta, (0 < delta)%R /\ forall th o beta beta' minv mfwd p p' iter,
    th L (scheme_name s) o = Ok beta -> angles_near delta (vat (gl_nodes gl L)) s L nside beta ->
    (forall t, 0 <= t < rings s L nside -> usable_ring s (rings s L nside) L Lo spin (vat beta) t) ->
    fwd_angles th s L o = Ok beta' -> forward_angles_near delta (vat (gl_nodes gl L)) s L nside beta' ->
    (forall t, 0 <= t < vlen beta' -> usable_ring (forward_scheme s) (vlen beta') L Lo spin (vat beta') t) ->
    python_method minv s -> method_precomps minv th L spin s o false Lo beta p ->
    python_method mfwd s -> method_precomps mfwd th L spin s o true Lo (inner_angles (forward_scheme s) beta') p' ->
    (iter = None \/ exists k, iter = Some k /\ k <= 0) ->
    exists f flm', otf_inverse th flm L spin o (scheme_name s) minv reality p Lo = Ok f /\
      otf_forward gl th f L spin o (scheme_name s) mfwd reality p' Lo iter = Ok flm' /\
      coefficients_near eps L flm' (restricted Lo spin (stored L flm)).
Proof.
  intros HL HLo Hs H8 Hhp HG Hf Hz Hr He.
  set (c := used_coefficients reality spin Lo (stored L flm)).
  assert (HN : nodes_ok s L (gl_nodes gl L)).
  { intros Q i Hi. destruct (HG Q) as (_ & _ & B & _). specialize (B i Hi). lra. }
  assert (MS : map_shape s L nside = [rings s L nside; per_ring s L]) by (destruct s; try congruence; reflexivity).
  set (f0 := mkArr (map_shape s L nside) (fun ix => synth L spin c (th_of gl s L nside (nth 0 ix 0)) (longitude s L nside (nth 0 ix 0) (nth 1 ix 0)))).
  assert (SI : forall t p, sample_index s nside t p = [t; p]) by (intros; destruct s; try congruence; reflexivity).
  assert (Hf0 : holds_samples (vat (gl_nodes gl L)) s L nside f0 (synth L spin c)).
  { split; [reflexivity|]. intros t p x Ht Hp Hx. rewrite SI. cbn [f0 get nth]. rewrite (colat_unique gl s L nside t x); auto. congruence. }
  assert (Hc : reality = true -> hermitian L c /\ spin = 0).
  { intros Q. destruct (Hr Q) as [HH H0]. split; [|exact H0]. intros el m Hel Hm. unfold c.
    rewrite !(used_herm L) by (auto; lia). now apply (above_herm L Lo (stored L flm) HH). }
  destruct (recover_near gl f0 L spin s nside reality Lo eps c) as (d2 & D2 & H2); auto.
  destruct (inverse_near_lemma gl flm L spin s nside reality Lo d2) as (d1 & D1 & H1); auto.
  { intros; congruence. }
  { intros Q. apply (Hr Q). }
  { intros Q el Hel. apply (herm_real L); auto. apply (Hr Q). }
  exists (Rmin d1 d2). split; [now apply Rmin_glb_lt|]. intros th o beta beta' minv mfwd p p' iter E1 A1 U1 E2 A2 U2 M1 P1 M2 P2 Hi.
  assert (Dm : (0 < Rmin d1 d2)%R) by now apply Rmin_glb_lt.
  destruct (H1 th o beta minv p) as (f & Ef & Sf & Hf1); auto.
  { intros; congruence. }
  { eapply angles_mono; [|exact A1]. split; [exact Dm|apply Rmin_l]. }
  destruct (H2 th o beta' mfwd p' iter f) as (flm' & El & Sl & Hl); auto.
  { split; [exact Sf|]. intros ix Hix. rewrite Sf in Hix. destruct (sample_cover s L nside ix ltac:(lia) ltac:(intros; congruence) Hix) as (t & q & Ht & Hq & ->).
    rewrite (proj2 Hf0 t q (th_of gl s L nside t)); auto; [apply Hf1; auto|]; apply placed; auto; congruence. }
  { eapply angles_mono; [|exact A2]. split; [exact Dm|apply Rmin_r]. }
  exists f, flm'. split; [exact Ef|]. split; [exact El|]. split; [exact Sl|]. intros el m Hel Hm. specialize (Hl el m Hel Hm).
  replace (restricted Lo spin (stored L flm) el m) with (restricted Lo spin c el m); [exact Hl|].
  unfold restricted. destruct (_ && _) eqn:B; [|reflexivity]. unfold c. rewrite (used_herm L) by (try lia; intros; apply Hr; auto).
  unfold above. now replace (el <? Lo) with false by lia.
Qed.

(** ** Usable angles exist arbitrarily close to the colatitudes *)
Lemma choose {A} (d : A) (Q : Z -> A -> Prop) n : (forall t, 0 <= t < n -> exists x, Q t x) -> exists F, forall t, 0 <= t < n -> Q t (F t).
Proof.
  intros H. destruct (Z_lt_le_dec 0 n) as [Hn|Hn]; [|exists (fun _ => d); intros t Ht; lia].
  revert H. pattern n. apply (Zlt_lower_bound_ind _ 0); [|lia]. clear n Hn. intros n IH Hn H.
  destruct (Z.eq_dec n 0) as [->|Hn0]; [exists (fun _ => d); intros; lia|].
  destruct (IH (n - 1)) as (F & HF); [lia|intros t Ht; apply H; lia|]. destruct (H (n - 1)) as (x & Hx); [lia|].
  exists (fun t => if t =? n - 1 then x else F t). intros t Ht. destruct (Z.eqb_spec t (n - 1)) as [->|]; [exact Hx|apply HF; lia].
Qed.

Lemma near_regular L Lo n x delta : (0 <= x <= PI)%R -> (0 < delta)%R -> Z.abs n < L -> exists y, (Rabs (y - x) < delta)%R /\ regular L Lo n y.
Proof.
  intros Hx Hd Hn. pose proof PI_RGT_0 as HP.
  destruct (Rlt_dec x PI) as [Hlt|Hge].
  - destruct (regular_dense L Lo n x (Rmin PI (x + delta))) as (y & Hy & Hr); auto.
    + split; [lra|]. apply Rmin_glb_lt; lra.
    + apply Rmin_l.
    + exists y. split; [|exact Hr]. pose proof (Rmin_r PI (x + delta)). apply Rabs_def1; lra.
  - destruct (regular_dense L Lo n (Rmax 0 (x - delta)) PI) as (y & Hy & Hr); auto.
    + split; [apply Rmax_l|]. apply Rmax_lub_lt; lra.
    + lra.
    + exists y. split; [|exact Hr]. pose proof (Rmax_r 0 (x - delta)). apply Rabs_def1; lra.
Qed.

Lemma th_of_range gl s L nside t : 1 <= L -> (s = HEALPIX -> 1 <= nside) -> 0 <= t < rings s L nside -> (0 <= th_of gl s L nside t <= PI)%R.
Proof.
  intros HL Hn Ht. assert (D : s = GL \/ s <> GL) by (destruct s; auto; right; discriminate). destruct D as [->|D]; [apply acos_bound|].
  assert (E : th_of gl s L nside t = theta_of s L nside t) by (destruct s; try congruence; reflexivity). rewrite E. apply theta_of_bounds; auto.
Qed.

Lemma near_angles gl s L nside L' Lo spin delta : 1 <= L -> (s = HEALPIX -> 1 <= nside) -> Z.abs spin < L' -> (0 < delta)%R ->
  exists beta, angles_near delta (vat (gl_nodes gl L)) s L nside beta /\
    forall t, 0 <= t < rings s L nside -> usable_ring s (rings s L nside) L' Lo spin (vat beta) t.
Proof.
  intros HL Hn Hs Hd.
  destruct (choose 0%R (fun t y => (Rabs (y - th_of gl s L nside t) < delta)%R /\ regular L' Lo (- spin) y) (rings s L nside)) as (F & HF).
  { intros t Ht. apply near_regular; [now apply th_of_range|exact Hd|lia]. }
  exists (mkVec (rings s L nside) F). split.
  - split; [reflexivity|]. intros t x Ht Hx. rewrite (colat_unique gl s L nside t x) by auto. now apply HF.
  - intros t Ht _. now apply HF.
Qed.

Lemma precomps_none th L spin s o Lo beta beta' method : th L (scheme_name s) o = Ok beta -> fwd_angles th s L o = Ok beta' ->
  method_precomps method th L spin s o false Lo beta None /\ method_precomps method th L spin s o true Lo (inner_angles (forward_scheme s) beta') None.
Proof.
  intros E E'. unfold method_precomps. split; (destruct (streq _ _); [split; [|now left]|now left]).
  - unfold pm_thetas. cbn [andb]. exact E.
  - unfold pm_thetas. cbn [andb]. destruct s; cbn [fwd_angles forward_scheme inner_angles scheme_name] in *; cbn -[Z.mul vslice]; rewrite E'; reflexivity.
Qed.

Lemma angles_exist gl s L nside Lo spin delta : 1 <= L -> (s = HEALPIX -> 1 <= nside) -> Z.abs spin < L -> (0 < delta)%R ->
  exists (th : theta_fn) beta beta', forall o,
    th L (scheme_name s) o = Ok beta /\ angles_near delta (vat (gl_nodes gl L)) s L nside beta /\
    (forall t, 0 <= t < rings s L nside -> usable_ring s (rings s L nside) L Lo spin (vat beta) t) /\
    fwd_angles th s L o = Ok beta' /\ forward_angles_near delta (vat (gl_nodes gl L)) s L nside beta' /\
    (forall t, 0 <= t < vlen beta' -> usable_ring (forward_scheme s) (vlen beta') L Lo spin (vat beta') t) /\
    forall method, method_precomps method th L spin s o false Lo beta None /\
      method_precomps method th L spin s o true Lo (inner_angles (forward_scheme s) beta') None.
Proof.
  intros HL Hn Hs Hd. destruct (near_angles gl s L nside L Lo spin delta HL Hn Hs Hd) as (b & A & U).
  assert (D : s = MW \/ s = MWSS \/ (forward_scheme s = s /\ forward_band s L = L)) by (destruct s; auto).
  assert (F : exists b', (forward_scheme s = s -> forward_band s L = L -> b' = b) /\ forward_angles_near delta (vat (gl_nodes gl L)) s L nside b' /\
    forall t, 0 <= t < vlen b' -> usable_ring (forward_scheme s) (vlen b') L Lo spin (vat b') t).
  { assert (M : s = MW \/ s = MWSS -> exists b', (forward_scheme s = s -> forward_band s L = L -> b' = b) /\
      forward_angles_near delta (vat (gl_nodes gl L)) s L nside b' /\ forall t, 0 <= t < vlen b' -> usable_ring (forward_scheme s) (vlen b') L Lo spin (vat b') t).
    { intros Q. destruct (near_angles gl MWSS (2 * L) nside L Lo spin delta ltac:(lia) ltac:(discriminate) Hs Hd) as (b' & A' & U'). exists b'.
      split; [destruct Q as [-> | ->]; cbn [forward_band]; intros; lia|]. split.
      - destruct Q as [-> | ->]; exact A'.
      - rewrite (proj1 A'). destruct Q as [-> | ->]; exact U'. }
    destruct D as [D|[D|[D1 D2]]]; auto. exists b. split; [auto|]. split.
    - unfold forward_angles_near. now rewrite D1, D2.
    - rewrite D1, (proj1 A). exact U. }
  destruct F as (b' & Fb & A' & U').
  set (th := (fun L' name o => if streq name "mwss" && (L' =? 2 * L) then Ok b' else Ok b) : theta_fn).
  assert (E1 : forall o, th L (scheme_name s) o = Ok b). { intros o. unfold th. replace (L =? 2 * L) with false by lia. now rewrite andb_false_r. }
  assert (E2 : forall o, fwd_angles th s L o = Ok b').
  { intros o. unfold fwd_angles. destruct D as [D|[D|[D1 D2]]]; [rewrite D|rewrite D|].
    - unfold th. rewrite Z.eqb_refl. reflexivity.
    - unfold th. rewrite Z.eqb_refl. reflexivity.
    - rewrite (Fb D1 D2). destruct s; try discriminate; try exact (E1 o). cbn [forward_band] in D2. lia. }
  exists th, b, b'. intros o. split; [apply E1|]. split; [exact A|]. split; [exact U|]. split; [apply E2|]. split; [exact A'|]. split; [exact U'|].
  intros method. apply precomps_none; auto.
Qed.
