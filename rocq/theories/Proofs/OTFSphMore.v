(** Reality, masks, linearity and iterative refinement of the on-the-fly transforms. *)
From Coq Require Import Reals ZifyBool Lra.
From Coquelicot Require Import Complex.
From Verif Require Import Lib.Py Lib.PyFacts Lib.Vec Lib.VecFacts Lib.Sums Lib.Cplx Lib.Arr Lib.ArrFacts Lib.MatFacts Lib.Ext Lib.ExtFacts Lib.Lim
  Model.Index Model.Samples Model.Grids Model.FFT Model.HealpixFFT Model.Turok Model.Risbo Model.Resampling Model.Quadrature Model.Refine
  Model.Spherical Model.Precompute Model.PriceMcEwen Model.OTF Model.OTFSpherical
  Spec.SamplesSpec Spec.WignerSpec Spec.SphereSpec Spec.GridSpec Spec.HealpixFFTSpec Spec.SphericalSpec Spec.QuadSpec Spec.OTFSpec Spec.OTFSphericalSpec Spec.RefineSpec
  Proofs.SamplesProofs Proofs.GridProofs Proofs.TurokProofs Proofs.HealpixDFTProofs Proofs.SphereTheory Proofs.SphGrid Proofs.SphInverse Proofs.SphTop Proofs.SphForward Proofs.SphForwardTop
  Proofs.SphFacts Proofs.SphMore Proofs.PrecomputeSph Proofs.PMPre Proofs.OTFProofs Proofs.OTFTop Proofs.OTFRegular Proofs.OTFLimit Proofs.OTFSphInverse Proofs.OTFSphForward Proofs.OTFSphNear Proofs.OTFSphTop
  Spec.CallSpec.
From Coq Require Import List.
Import ListNotations.
Open Scope string_scope.
Open Scope Z_scope.

Lemma inverse_call_real th flm L s nside o Lo beta method method' p p' :
  inverse_call th flm L 0 s nside o true Lo beta method p -> inverse_call th flm L 0 s nside o false Lo beta method' p' -> hermitian L (stored L flm) ->
  exists f f', otf_inverse th flm L 0 o (scheme_name s) method true p Lo = Ok f /\ otf_inverse th flm L 0 o (scheme_name s) method' false p' Lo = Ok f' /\
    arr_eq f f' /\ forall ix, in_shape (shape f) ix -> is_real (get f ix).
Proof.
  intros C1 C2 Hh. destruct (inverse_same_call th flm flm L 0 s nside o o true false Lo beta method method' p p' C1 C2) as (f & f' & E & E' & Q).
  { intros l m Hl Hm. rewrite !(used_herm L) by (auto; lia). reflexivity. }
  exists f, f'. split; [exact E|]. split; [exact E'|]. split; [exact Q|].
  destruct (inverse_call_ok _ _ _ _ _ _ _ _ _ _ _ _ C1) as (g & Eg & Sg & Hg). rewrite E in Eg. injection Eg as <-. intros ix Hix. rewrite Sg in Hix.
  destruct C1 as (HL & _ & _ & _ & Hn & _). destruct (sample_cover s L nside ix ltac:(lia) ltac:(intros R; apply (Hn R)) Hix) as (t & q & Ht & Hq & ->).
  rewrite Hg by auto. apply synth_real. apply above_herm. cbn [andb Z.eqb]. apply real_ext_herm. intros el Hel. now apply (herm_real L).
Qed.

Lemma forward_call_herm gl th f L s nside o Lo beta method p iter flm :
  forward_call gl th f L 0 s nside o true Lo beta method p iter -> (s = HEALPIX -> forall ix, in_shape (shape f) ix -> is_real (get f ix)) ->
  otf_forward gl th f L 0 o (scheme_name s) method true p Lo iter = Ok flm -> hermitian L (stored L flm).
Proof.
  intros C1 HR E. destruct (forward_call_ok _ _ _ _ _ _ _ _ _ _ _ _ _ _ C1) as (w & flm' & _ & E' & _ & H').
  { intros _ Q. subst s. apply real_values_gen; [destruct C1; lia|intros _; apply C1; auto|intros Q; discriminate|apply C1|]. exact (HR eq_refl). }
  rewrite E in E'. injection E' as <-. intros el m Hel Hm. rewrite !H' by lia. destruct (_ <=? _); [|rewrite Cconj_R; ring].
  apply fsum_conj. intros t q _. unfold uvals. reflexivity.
Qed.

Lemma forward_call_mask gl th f L spin s nside o reality Lo beta method p iter :
  forward_call gl th f L spin s nside o reality Lo beta method p iter -> (reality = true -> s = HEALPIX -> forall ix, in_shape (shape f) ix -> is_real (get f ix)) ->
  exists flm, otf_forward gl th f L spin o (scheme_name s) method reality p Lo iter = Ok flm /\ shape flm = [L; 2 * L - 1] /\
    forall el m, 0 <= el < L -> - L < m < L -> ~ admissible Lo spin L el m -> stored L flm el m = RtoC 0.
Proof.
  intros C1 HR. destruct (forward_call_ok _ _ _ _ _ _ _ _ _ _ _ _ _ _ C1) as (w & flm & _ & E & S & H).
  { intros Q' Q. subst s. apply real_values_gen; [destruct C1; lia|intros _; apply C1; auto|intros Q; discriminate|apply C1|]. exact (HR Q' eq_refl). }
  exists flm. split; [exact E|]. split; [exact S|]. intros el m Hel Hmm Hna. rewrite H by auto.
  destruct (Z.leb_spec (Z.max Lo (Z.abs spin)) el) as [B|B]; [|reflexivity].
  apply cr_0. intros t Ht. rewrite wig_out by (unfold admissible in Hna; lia). rewrite Rmult_0_r. ring.
Qed.

Lemma inverse_call_mask th flm flm' L spin s nside o reality Lo beta method p :
  inverse_call th flm L spin s nside o reality Lo beta method p -> inverse_call th flm' L spin s nside o reality Lo beta method p ->
  (forall el m, admissible Lo spin L el m -> stored L flm el m = stored L flm' el m) ->
  same_ok (otf_inverse th flm L spin o (scheme_name s) method reality p Lo) (otf_inverse th flm' L spin o (scheme_name s) method reality p Lo).
Proof.
  intros C1 C2 H. apply (inverse_same_call th flm flm' L spin s nside o o reality reality Lo beta method method p p C1 C2).
  intros l m Hl Hmm. unfold used_coefficients, above. destruct (Z.ltb_spec l Lo) as [B|B]; [reflexivity|].
  destruct (_ && _); unfold real_extension; [|apply H; unfold admissible; lia].
  destruct (m <? 0); [rewrite H by (unfold admissible; lia); reflexivity|apply H; unfold admissible; lia].
Qed.

Lemma inverse_call_linear th flm1 flm2 flm L spin s nside o reality Lo beta method p x y :
  inverse_call th flm1 L spin s nside o reality Lo beta method p -> inverse_call th flm2 L spin s nside o reality Lo beta method p ->
  inverse_call th flm L spin s nside o reality Lo beta method p -> combination x y flm1 flm2 flm -> (reality = true -> is_real x /\ is_real y) ->
  exists f1 f2 f, otf_inverse th flm1 L spin o (scheme_name s) method reality p Lo = Ok f1 /\ otf_inverse th flm2 L spin o (scheme_name s) method reality p Lo = Ok f2 /\
    otf_inverse th flm L spin o (scheme_name s) method reality p Lo = Ok f /\ combination x y f1 f2 f.
Proof.
  intros C1 C2 C3 Hc Hr. destruct (inverse_call_ok _ _ _ _ _ _ _ _ _ _ _ _ C1) as (f1 & E1 & S1 & H1).
  destruct (inverse_call_ok _ _ _ _ _ _ _ _ _ _ _ _ C2) as (f2 & E2 & S2 & H2). destruct (inverse_call_ok _ _ _ _ _ _ _ _ _ _ _ _ C3) as (f & E & S & H).
  exists f1, f2, f. split; [exact E1|]. split; [exact E2|]. split; [exact E|]. split; [congruence|]. split; [congruence|]. rewrite S. intros ix Hix.
  destruct C3 as (HL & _ & _ & _ & Hn & Hs & _). destruct (sample_cover s L nside ix ltac:(lia) ltac:(intros R; apply (Hn R)) Hix) as (t & q & Ht & Hq & ->).
  rewrite H, H1, H2 by auto. apply synth_lin. intros l m Hl Hm. apply used_lin; auto; lia.
Qed.

Lemma Re_comb (x y a b : C) : is_real x -> is_real y -> RtoC (Re (x * a + y * b)%C) = (x * RtoC (Re a) + y * RtoC (Re b))%C.
Proof. unfold is_real. intros Hx Hy. destruct x, y, a, b. cbn in *. subst. apply C_eq; cbn; ring. Qed.

Lemma forward_call_linear gl th f1 f2 f L spin s nside o reality Lo beta method p iter x y :
  forward_call gl th f1 L spin s nside o reality Lo beta method p iter -> forward_call gl th f2 L spin s nside o reality Lo beta method p iter ->
  forward_call gl th f L spin s nside o reality Lo beta method p iter -> combination x y f1 f2 f -> (reality = true -> is_real x /\ is_real y) ->
  (reality = true -> s = HEALPIX -> (forall ix, in_shape (shape f) ix -> is_real (get f1 ix) /\ is_real (get f2 ix))) ->
  exists flm1 flm2 flm, otf_forward gl th f1 L spin o (scheme_name s) method reality p Lo iter = Ok flm1 /\
    otf_forward gl th f2 L spin o (scheme_name s) method reality p Lo iter = Ok flm2 /\
    otf_forward gl th f L spin o (scheme_name s) method reality p Lo iter = Ok flm /\ combination x y flm1 flm2 flm.
Proof.
  intros C1 C2 C3 Hc Hr HR.
  assert (RV : forall g, shape g = map_shape s L nside -> (reality = true -> s = HEALPIX -> forall ix, in_shape (shape f) ix -> is_real (get g ix)) ->
    reality = true -> s = HEALPIX -> real_values gl s L nside spin g).
  { intros g Sg Hg Q1 Q2. pose proof (Hg Q1 Q2) as Hg'. clear Hg. apply real_values_gen; auto; [destruct C1; lia|intros Q; apply C1; auto|subst s; intros Q; discriminate|].
    subst s. cbn [real_map]. rewrite Sg. replace (map_shape HEALPIX L nside) with (shape f) by apply C3. exact Hg'. }
  destruct (forward_call_ok _ _ _ _ _ _ _ _ _ _ _ _ _ _ C1) as (w & flm1 & Ew & E1 & S1 & H1).
  { apply RV; [apply C1|]. intros Q1 Q2 ix Hix. now apply (HR Q1 Q2). }
  destruct (forward_call_ok _ _ _ _ _ _ _ _ _ _ _ _ _ _ C2) as (w2 & flm2 & Ew2 & E2 & S2 & H2).
  { apply RV; [apply C2|]. intros Q1 Q2 ix Hix. now apply (HR Q1 Q2). }
  destruct (forward_call_ok _ _ _ _ _ _ _ _ _ _ _ _ _ _ C3) as (w3 & flm & Ew3 & E & S & H).
  { apply RV; [apply C3|]. intros Q1 Q2 ix Hix. rewrite (proj2 (proj2 Hc)) by auto. destruct (Hr Q1), (HR Q1 Q2 ix Hix). apply real_plus; apply real_mult; auto. }
  rewrite Ew in Ew2, Ew3. injection Ew2 as <-. injection Ew3 as <-.
  exists flm1, flm2, flm. split; [exact E1|]. split; [exact E2|]. split; [exact E|]. split; [congruence|]. split; [congruence|]. rewrite S.
  intros ix Hix. destruct ix as [|el [|q [|]]]; cbn [in_shape] in Hix; try lia.
  replace q with (q - (L - 1) + L - 1) by lia. set (m := q - (L - 1)) in *.
  change (stored L flm el m = (x * stored L flm1 el m + y * stored L flm2 el m)%C).
  rewrite H1, H2, H by lia. destruct (_ <=? _); [|ring]. apply fsum_lin. intros t a IG. apply (ogrid_in gl) in IG. unfold uvals.
  assert (V : fvals s L nside spin f t a = (x * fvals s L nside spin f1 t a + y * fvals s L nside spin f2 t a)%C).
  { apply (fvals_lin gl); [destruct C1; lia|intros Q; apply C1; auto|apply C3|exact Hc|exact IG]. }
  rewrite V. destruct reality; [|reflexivity]. destruct (Hr eq_refl). now apply Re_comb.
Qed.

(** ** Iterative refinement *)
Lemma otf_iter gl th f L spin s o reality p Lo method n : python_method method s -> spin < 8 ->
  otf_forward gl th f L spin o (scheme_name s) method reality p Lo (Some n) =
     refine f n (fun g => otf_forward gl th g L spin o (scheme_name s) method reality p Lo None)
                (fun flm => otf_inverse th flm L spin o (scheme_name s) method reality None Lo).
Proof.
  intros Hm H8. assert (E8 : 8 <=? spin = false) by lia.
  assert (K : forall F B, (if 0 <? n then refine f n F B else F f) = refine f n F B).
  { intros F B. destruct (Z.ltb_spec 0 n); [reflexivity|]. unfold refine. rewrite zrange_nil by lia. cbn [foldM]. now destruct (F f). }
  destruct Hm as [->|[->|[->|[-> Hh]]]]; unfold otf_forward, otf_inverse, backend_checks, known_method, recursive_method;
    cbn [str_in existsb String.eqb Ascii.eqb Bool.eqb negb orb andb streq bind]; rewrite E8, ?andb_false_r; cbn [andb bind]; rewrite ?andb_true_r, ?andb_false_r;
    change (0 <? 0) with false; cbn [andb]; apply K.
Qed.

Definition otf_maps (s : scheme) (L nside : Z) (reality : bool) (f : ndarray C) : Prop :=
  shape f = map_shape s L nside /\ (reality = true -> forall ix, in_shape (shape f) ix -> is_real (get f ix)).

Lemma otf_maps_space s L nside reality : array_space (map_shape s L nside) (otf_maps s L nside reality).
Proof.
  split; [intros a H; apply H|]. intros x y a b c [Sa Ha] [Sb Hb] (H1 & H2 & H3). split; [congruence|]. intros Q ix Hix. rewrite H3 by auto.
  apply real_plus; apply real_mult; try reflexivity; [apply Ha|apply Hb]; auto; congruence.
Qed.
Lemma otf_coefficients_space L spin reality : array_space [L; 2 * L - 1] (otf_coefficients L spin reality).
Proof.
  split; [intros a H; apply H|]. intros x y a b c (Sa & Za & Ha) (Sb & Zb & Hb) Hc. pose proof Hc as (H1 & H2 & H3). split; [congruence|].
  assert (Sc : shape c = [L; 2 * L - 1]) by congruence. split.
  - intros el m Hel HL Hm. rewrite H3; [rewrite Za, Zb by auto; ring|]. rewrite Sc. cbn [in_shape]. lia.
  - intros Q el m Hel Hm. rewrite !(stored_comb L (RtoC x) (RtoC y) a b c) by (auto; lia). rewrite (Ha Q), (Hb Q) by lia.
    rewrite Cconj_plus, !Cconj_mult, !Cconj_R. ring.
Qed.

Section Maps.
  Variables (gl : gl_rule) (th : theta_fn) (L spin : Z) (s : scheme) (nside : Z) (o : option Z) (reality : bool) (Lo : Z) (beta beta' : vec R) (method : string) (p : option pm_pre).
  Hypothesis HL : 2 <= L.
  Hypothesis HLo : 0 <= Lo <= L - 2.
  Hypothesis Hs : Z.abs spin < L.
  Hypothesis H8 : spin < 8.
  Hypothesis Hn : s = HEALPIX -> 1 <= nside /\ o = Some nside /\ 2 * nside <= L.
  Hypothesis Hn2 : s = HEALPIX -> method <> "numpy" -> 2 <= nside.
  Hypothesis Hw : s = GL -> vlen (gl_weights gl L) = L.
  Hypothesis Hre : reality = true -> spin = 0.
  Hypothesis Eb : th L (scheme_name s) o = Ok beta.
  Hypothesis Lb : vlen beta = rings s L nside.
  Hypothesis Ub : forall t, 0 <= t < rings s L nside -> usable_ring s (rings s L nside) L Lo spin (vat beta) t.
  Hypothesis Eb' : fwd_angles th s L o = Ok beta'.
  Hypothesis Lb' : vlen beta' = rings (forward_scheme s) (forward_band s L) nside.
  Hypothesis Ub' : forall t, 0 <= t < vlen beta' -> usable_ring (forward_scheme s) (vlen beta') L Lo spin (vat beta') t.
  Hypothesis Hm : python_method method s.
  Hypothesis HP : method_precomps method th L spin s o true Lo (inner_angles (forward_scheme s) beta') p.

  Let P := otf_maps s L nside reality.
  Let Q := otf_coefficients L spin reality.
  Let F := fun g => otf_forward gl th g L spin o (scheme_name s) method reality p Lo None.
  Let B := fun flm => otf_inverse th flm L spin o (scheme_name s) method reality None Lo.

  Lemma maps_call f : P f -> forward_call gl th f L spin s nside o reality Lo beta' method p None.
  Proof.
    intros Hf. unfold forward_call. repeat (split; [first [assumption|apply Hf]|]). now left.
  Qed.
  Lemma coefficients_call flm : Q flm -> inverse_call th flm L spin s nside o reality Lo beta method None.
  Proof.
    intros (S1 & S2 & S3). unfold inverse_call. repeat (split; [first [assumption|lia]|]).
    split; [intros R el Hel; apply (herm_real L); auto|]. repeat (split; [assumption|]). apply (precomps_none th L spin s o Lo beta beta'); auto.
  Qed.
  Lemma maps_linear : linear_map P Q F.
  Proof.
    split.
    - intros f Hf. pose proof (maps_call f Hf) as C1.
      destruct (forward_call_mask gl th f L spin s nside o reality Lo beta' method p None C1) as (flm & E & S & H).
      { intros R _. apply (proj2 Hf R). }
      exists flm. split; [exact E|]. split; [exact S|]. split.
      + intros el m Hel HL' Hmm. apply (H el m); unfold admissible; lia.
      + intros R. specialize (Hre R). clear - C1 E R Hre Hf. subst reality. rewrite Hre in *. eapply forward_call_herm; [exact C1| |exact E]. intros _. apply (proj2 Hf eq_refl).
    - intros x y a b c Ha Hb Hc Hcomb. apply (forward_call_linear gl th a b c L spin s nside o reality Lo beta' method p None); try (now apply maps_call); auto.
      + intros _. split; reflexivity.
      + intros R _ ix Hix. destruct Hcomb as (S1 & S2 & _). split; [apply (proj2 Ha R)|apply (proj2 Hb R)]; congruence.
  Qed.
  Lemma coefficients_linear : linear_map Q P B.
  Proof.
    split.
    - intros flm HQ. pose proof (coefficients_call flm HQ) as C1.
      destruct (inverse_call_ok _ _ _ _ _ _ _ _ _ _ _ _ C1) as (f & E & S & H). exists f. split; [exact E|]. split; [exact S|].
      intros R ix Hix. rewrite S in Hix. destruct (sample_cover s L nside ix ltac:(lia) ltac:(intros R'; apply (Hn R')) Hix) as (t & q & Ht & Hq & ->).
      rewrite H by auto. destruct HQ as (_ & _ & HH). specialize (HH R). rewrite (Hre R). apply synth_real. apply above_herm. rewrite R. cbn [andb Z.eqb].
      apply real_ext_herm. intros el Hel. now apply (herm_real L).
    - intros x y a b c Ha Hb Hc Hcomb. apply (inverse_call_linear th a b c L spin s nside o reality Lo beta method None); try (now apply coefficients_call); auto.
      intros _. split; reflexivity.
  Qed.
End Maps.
