(** C49, C50, C51: the on-the-fly Wigner transforms s2fft/transforms/wigner.py (numpy and JAX) synthesise
    and analyse, agree with the reference transforms and invert each other; reality, masks and validation
    of the same transforms (C33, C35). The angles come from s2fft.sampling; [th] is that function. *)
From Coq Require Import Reals Lra Lia ZifyBool.
From Coquelicot Require Import Complex.
From Verif Require Import Lib.Py Lib.PyFacts Lib.Sums Lib.Cplx Lib.Vec Lib.Arr
  Spec.CallSpec.
From Verif Require Import Model.Samples Model.Spherical Model.Grids Model.Quadrature Model.Wigner Model.PriceMcEwen Model.OTF Model.OTFSpherical Model.OTFWigner.
From Verif Require Import Spec.SamplesSpec Spec.WignerSpec Spec.SphereSpec Spec.GridSpec Spec.SphericalSpec Spec.QuadSpec Spec.OTFSpec Spec.OTFSphericalSpec Spec.SO3Spec Spec.OTFWignerSpec Spec.HealpixFFTSpec.
From Verif Require Import Proofs.SphAngles Proofs.OTFTop Proofs.OTFSphForward Proofs.OTFSphNear Proofs.OTFWignerInverse Proofs.OTFWignerInvTop Proofs.OTFWignerForward Proofs.OTFWignerFwdTop.
From Verif Require Import Properties.QuadProps Properties.OTFProps Properties.SphericalProps Properties.WignerProps.
From Coq Require Import List.
Import ListNotations.
Open Scope string_scope.
Open Scope Z_scope.

(** ** C49: inverse *)
(** At the given angles the result holds the values of the signal with the given coefficients. *)
Theorem C49_synthesis : forall th flmn L N s nside o reality Lo beta method p,
  wigner_inverse_call th flmn L N s nside o reality Lo beta method p ->
  exists f, otf_wigner_inverse th flmn L N o (scheme_name s) method reality p Lo = Ok f /\
    so3_at (ring_angle s (rings s L nside) (vat beta)) s L N nside f (so3_synth L N (used3 reality Lo (stored3 L N flmn))).
Proof. exact wigner_inverse_call_ok. Qed.
Print Assumptions C49_synthesis.
(** With angles that approximate the colatitudes the result approximates the samples there ... *)
Theorem C49_near : forall gl flmn L N s nside reality Lo eps, 1 <= L -> (s = HEALPIX -> 1 <= nside) ->
  nodes_ok s L (gl_nodes gl L) -> (0 < eps)%R ->
  exists delta, (0 < delta)%R /\ forall th o beta method p,
    wigner_inverse_call th flmn L N s nside o reality Lo beta method p -> angles_near delta (vat (gl_nodes gl L)) s L nside beta ->
    exists f, otf_wigner_inverse th flmn L N o (scheme_name s) method reality p Lo = Ok f /\
      so3_near eps (vat (gl_nodes gl L)) s L N nside f (so3_synth L N (used3 reality Lo (stored3 L N flmn))).
Proof. exact wigner_inverse_near. Qed.
Print Assumptions C49_near.
(** ... and the result of the reference transform. *)
Theorem C49_reference : forall gl flmn L N s nside reality Lo eps, 2 <= L -> 1 <= N -> 0 <= Lo <= L - 2 ->
  (s = HEALPIX -> 1 <= nside /\ 2 * nside <= L) -> (s = GL -> vlen (gl_nodes gl L) = L) -> rings_away (vat (gl_nodes gl L)) s L nside ->
  shape flmn = [2 * N - 1; L; 2 * L - 1] -> (reality = true -> forall l, 0 <= l < L -> is_real (stored3 L N flmn 0 l 0)) -> (0 < eps)%R ->
  exists f0 delta, wigner_inverse gl flmn L N Lo (scheme_name s) reality (Some nside) = Ok f0 /\ (0 < delta)%R /\
    forall th o beta method p, wigner_inverse_call th flmn L N s nside o reality Lo beta method p ->
    angles_near delta (vat (gl_nodes gl L)) s L nside beta ->
    exists f, otf_wigner_inverse th flmn L N o (scheme_name s) method reality p Lo = Ok f /\ arrays_near eps f f0.
Proof. exact wigner_inverse_reference. Qed.
Print Assumptions C49_reference.
(** numpy, JAX and torch, with or without precomputed coefficients, return the same. *)
Theorem C49_agree : forall th flmn L N s nside o reality Lo beta method method' p p',
  wigner_inverse_call th flmn L N s nside o reality Lo beta method p -> wigner_inverse_call th flmn L N s nside o reality Lo beta method' p' ->
  same_ok (otf_wigner_inverse th flmn L N o (scheme_name s) method reality p Lo) (otf_wigner_inverse th flmn L N o (scheme_name s) method' reality p' Lo).
Proof. intros. now apply (wigner_same_call th flmn flmn L N s nside o reality reality Lo beta). Qed.
Print Assumptions C49_agree.
(** Degrees below max(L_lower, |n|) are not used. *)
Theorem C49_mask : forall th flmn flmn' L N s nside o reality Lo beta method p,
  wigner_inverse_call th flmn L N s nside o reality Lo beta method p -> wigner_inverse_call th flmn' L N s nside o reality Lo beta method p ->
  (forall n l m, - N < n < N -> Z.max Lo (Z.abs n) <= l < L -> - l <= m <= l -> stored3 L N flmn n l m = stored3 L N flmn' n l m) ->
  same_ok (otf_wigner_inverse th flmn L N o (scheme_name s) method reality p Lo) (otf_wigner_inverse th flmn' L N o (scheme_name s) method reality p Lo).
Proof. exact wigner_inverse_call_mask. Qed.
Print Assumptions C49_mask.
(** Angles usable for every spin exist arbitrarily close to the colatitudes, for both directions. *)
Theorem C49_angles : forall gl s L nside Lo N delta, 1 <= L -> (s = HEALPIX -> 1 <= nside) -> N <= L -> (0 < delta)%R ->
  exists (th : theta_fn) beta beta', forall o,
    th L (scheme_name s) o = Ok beta /\ angles_near delta (vat (gl_nodes gl L)) s L nside beta /\ usable_rings3 s (rings s L nside) L Lo N (vat beta) /\
    fwd_angles th s L o = Ok beta' /\ forward_angles_near delta (vat (gl_nodes gl L)) s L nside beta' /\
    usable_rings3 (forward_scheme s) (vlen beta') L Lo N (vat beta') /\
    forall method reality, wigner_precomps method th L N s o false reality Lo beta None /\
      wigner_precomps method th L N s o true reality Lo (inner_angles (forward_scheme s) beta') None.
Proof. exact angles_exist3. Qed.
Print Assumptions C49_angles.

(** ** C50: forward *)
(** On the schemes that are not resampled the coefficients are the quadrature sums of the samples. *)
Theorem C50_sum : forall gl th f L N s nside o reality Lo beta method p, s = DH \/ s = GL \/ s = HEALPIX ->
  wigner_forward_call gl th f L N s nside o reality Lo beta method p ->
  exists w flmn, quad_weights_transform gl L (scheme_name s) 0 o = Ok w /\
    otf_wigner_forward gl th f L N o (scheme_name s) method reality p Lo = Ok flmn /\
    holds_coefficients3 L N flmn (fun n el m => if Z.max Lo (Z.abs n) <=? el then
      wigner_sum s L N nside (vat w) (vat beta)
        (fun g t q => let z := get f (g :: sample_index s nside t q) in if reality then RtoC (Re z) else z) n el m else RtoC 0).
Proof. exact wigner_forward_sum. Qed.
Print Assumptions C50_sum.
(** The coefficients of a band-limited signal are recovered, approximately from approximate samples and angles. *)
Theorem C50_recover : forall gl f L N s nside reality Lo eps c, 2 <= L -> 1 <= N -> 0 <= Lo -> s <> HEALPIX ->
  (s = GL -> gauss_legendre L (gl_nodes gl L) (gl_weights gl L)) ->
  so3_holds (vat (gl_nodes gl L)) s L N nside f (so3_synth L N c) -> (reality = true -> hermitian3 L N c) -> (0 < eps)%R ->
  exists delta, (0 < delta)%R /\ forall th o beta method p f',
    wigner_forward_call gl th f' L N s nside o reality Lo beta method p -> arrays_near delta f' f ->
    forward_angles_near delta (vat (gl_nodes gl L)) s L nside beta ->
    exists flmn, otf_wigner_forward gl th f' L N o (scheme_name s) method reality p Lo = Ok flmn /\
      coefficients3_near eps L N flmn (restricted3 Lo c).
Proof. exact wigner_recover_near. Qed.
Print Assumptions C50_recover.
(** The result approximates that of the reference transform for any map on every scheme. *)
Theorem C50_reference : forall gl f L N s nside reality Lo eps, 2 <= L -> 1 <= N -> 0 <= Lo <= L - 2 ->
  (s = HEALPIX -> 1 <= nside /\ 2 * nside <= L) -> rule_sizes s L (gl_nodes gl L) (gl_weights gl L) ->
  forward_rings_away (vat (gl_nodes gl L)) s L nside -> shape f = 2 * N - 1 :: map_shape s L nside ->
  (reality = true -> so3_real_map (vat (gl_nodes gl L)) s L N nside f) -> (0 < eps)%R ->
  exists flmn0 delta, wigner_forward gl f L N Lo (scheme_name s) reality (Some nside) = Ok flmn0 /\ (0 < delta)%R /\
    forall th o beta method p, wigner_forward_call gl th f L N s nside o reality Lo beta method p ->
    forward_angles_near delta (vat (gl_nodes gl L)) s L nside beta ->
    exists flmn, otf_wigner_forward gl th f L N o (scheme_name s) method reality p Lo = Ok flmn /\ arrays_near eps flmn flmn0.
Proof. exact wigner_forward_reference. Qed.
Print Assumptions C50_reference.
(** numpy, JAX and torch agree. *)
Theorem C50_agree : forall gl th f L N s nside o reality Lo beta method method' p p',
  wigner_forward_call gl th f L N s nside o reality Lo beta method p -> wigner_forward_call gl th f L N s nside o reality Lo beta method' p' ->
  nodes_ok s L (gl_nodes gl L) -> (reality = true -> so3_real_map (vat (gl_nodes gl L)) s L N nside f) ->
  same_ok (otf_wigner_forward gl th f L N o (scheme_name s) method reality p Lo) (otf_wigner_forward gl th f L N o (scheme_name s) method' reality p' Lo).
Proof. intros. apply (wigner_forward_same gl th f L N s nside o reality reality Lo beta); auto. intros Q. rewrite orb_diag in Q. auto. Qed.
Print Assumptions C50_agree.
(** Degrees below max(L_lower, |n|) are zero. *)
Theorem C50_mask : forall gl th f L N s nside o reality Lo beta method p,
  wigner_forward_call gl th f L N s nside o reality Lo beta method p ->
  exists flmn, otf_wigner_forward gl th f L N o (scheme_name s) method reality p Lo = Ok flmn /\ shape flmn = [2 * N - 1; L; 2 * L - 1] /\
    forall n el m, - N < n < N -> 0 <= el < L -> el < Z.max Lo (Z.abs n) -> - L < m < L -> stored3 L N flmn n el m = RtoC 0.
Proof. exact wigner_forward_low. Qed.
Print Assumptions C50_mask.

(** ** C51: round trip *)
Theorem C51_round_trip : forall gl flmn L N s nside reality Lo eps, 2 <= L -> 1 <= N -> 0 <= Lo -> s <> HEALPIX ->
  (s = GL -> gauss_legendre L (gl_nodes gl L) (gl_weights gl L)) ->
  shape flmn = [2 * N - 1; L; 2 * L - 1] -> (reality = true -> hermitian3 L N (stored3 L N flmn)) -> (0 < eps)%R ->
  exists delta, (0 < delta)%R /\ forall th o beta beta' minv mfwd p p',
    wigner_inverse_call th flmn L N s nside o reality Lo beta minv p -> angles_near delta (vat (gl_nodes gl L)) s L nside beta ->
    fwd_angles th s L o = Ok beta' -> forward_angles_near delta (vat (gl_nodes gl L)) s L nside beta' ->
    usable_rings3 (forward_scheme s) (vlen beta') L Lo N (vat beta') ->
    python_method3 mfwd -> wigner_precomps mfwd th L N s o true reality Lo (inner_angles (forward_scheme s) beta') p' ->
    exists f flmn', otf_wigner_inverse th flmn L N o (scheme_name s) minv reality p Lo = Ok f /\
      otf_wigner_forward gl th f L N o (scheme_name s) mfwd reality p' Lo = Ok flmn' /\
      coefficients3_near eps L N flmn' (restricted3 Lo (stored3 L N flmn)).
Proof. exact wigner_round_trip_near. Qed.
Print Assumptions C51_round_trip.

(** ** C35: reality *)
Theorem C35_otf_inverse : forall th flmn L N s nside o Lo beta method method' p p',
  wigner_inverse_call th flmn L N s nside o true Lo beta method p -> wigner_inverse_call th flmn L N s nside o false Lo beta method' p' ->
  hermitian3 L N (stored3 L N flmn) ->
  exists f f', otf_wigner_inverse th flmn L N o (scheme_name s) method true p Lo = Ok f /\
    otf_wigner_inverse th flmn L N o (scheme_name s) method' false p' Lo = Ok f' /\
    arr_eq f f' /\ forall ix, in_shape (shape f) ix -> is_real (get f ix).
Proof. exact wigner_inverse_call_real. Qed.
Print Assumptions C35_otf_inverse.
Theorem C35_otf_forward : forall gl th f L N s nside o Lo beta method method' p p',
  wigner_forward_call gl th f L N s nside o true Lo beta method p -> wigner_forward_call gl th f L N s nside o false Lo beta method' p' ->
  nodes_ok s L (gl_nodes gl L) -> so3_real_map (vat (gl_nodes gl L)) s L N nside f ->
  exists flmn flmn', otf_wigner_forward gl th f L N o (scheme_name s) method true p Lo = Ok flmn /\
    otf_wigner_forward gl th f L N o (scheme_name s) method' false p' Lo = Ok flmn' /\ arr_eq flmn flmn' /\ hermitian3 L N (stored3 L N flmn).
Proof.
  intros gl th f L N s nside o Lo beta method method' p p' C1 C2 Hg HR.
  destruct (wigner_forward_same gl th f L N s nside o true false Lo beta method method' p p' C1 C2 Hg) as (a & b & E & E' & Q); [auto|].
  exists a, b. split; [exact E|]. split; [exact E'|]. split; [exact Q|].
  now apply (wigner_forward_hermitian gl th f L N s nside o true Lo beta method p a C1).
Qed.
Print Assumptions C35_otf_forward.

(** ** C33: validation *)
Theorem C33_otf_wigner_method : forall gl th flmn f L N o name method reality p Lo, ~ In method ["numpy"; "jax"; "jax_ssht"; "torch"] ->
  otf_wigner_inverse th flmn L N o name method reality p Lo = Err ValueError /\ otf_wigner_forward gl th f L N o name method reality p Lo = Err ValueError.
Proof.
  intros gl th flmn f L N o name method reality p Lo H.
  assert (E : known_method3 method = false).
  { unfold known_method3, str_in. apply not_true_iff_false. intros Q. apply existsb_exists in Q. destruct Q as (x & Hx & Ex). apply String.eqb_eq in Ex. subst x. auto. }
  unfold otf_wigner_inverse, otf_wigner_forward, checks3. now rewrite E.
Qed.
Print Assumptions C33_otf_wigner_method.
Theorem C33_otf_wigner_spin : forall gl th flmn f L N o name method reality p Lo, In method ["numpy"; "jax"; "torch"] -> 8 <= N ->
  otf_wigner_inverse th flmn L N o name method reality p Lo = Err WarningRaised /\ otf_wigner_forward gl th f L N o name method reality p Lo = Err WarningRaised.
Proof.
  intros gl th flmn f L N o name method reality p Lo H HN. unfold otf_wigner_inverse, otf_wigner_forward, checks3. replace (8 <=? N) with true by lia.
  destruct H as [<-|[<-|[<-|[]]]]; cbn; auto.
Qed.
Print Assumptions C33_otf_wigner_spin.
Theorem C33_otf_wigner_ssht : forall gl th flmn f L N o name reality p Lo, lower name = "healpix" ->
  otf_wigner_inverse th flmn L N o name "jax_ssht" reality p Lo = Err ValueError /\ otf_wigner_forward gl th f L N o name "jax_ssht" reality p Lo = Err ValueError.
Proof.
  intros gl th flmn f L N o name reality p Lo H. unfold otf_wigner_inverse, otf_wigner_forward, checks3, is_hp. rewrite H.
  change (known_method3 "jax_ssht") with true. change (str_in "jax_ssht" ["numpy"; "jax"; "torch"]) with false. rewrite andb_false_r. cbn. auto.
Qed.
Print Assumptions C33_otf_wigner_ssht.

(** ** The hypotheses are met *)
(** Calls of both directions with coefficients of a real signal, L = 3 and N = 2, for the mwss scheme;
    and for a HEALPix map of nside 2. *)
Example C49_calls_ex : forall method reality, python_method3 method ->
  exists th beta beta' f, wigner_inverse_call th flmn3 3 2 MWSS 0 None reality 1 beta method None /\
    wigner_forward_call C41_gl th f 3 2 MWSS 0 None reality 1 beta' method None /\ get f (1 :: sample_index MWSS 0 0 0) = Ci.
Proof.
  intros method reality M. destruct (C49_angles C41_gl MWSS 3 0 1 2 1) as (th & b & b' & HH); [lia|discriminate|lia|lra|].
  destruct (HH None) as (E & A & U & E' & A' & U' & P). destruct (P method reality) as [P1 P2].
  destruct C34_ex as (_ & _ & _ & _ & _ & Sh & Hm & Zr & _).
  exists th, b, b', (mkArr (2 * 2 - 1 :: map_shape MWSS 3 0) (fun _ => Ci)). unfold wigner_inverse_call, wigner_forward_call.
  split; [|split; [|reflexivity]].
  - repeat (split; [first [lia|assumption|discriminate|reflexivity|apply A|idtac]|]); [| | |now left].
    + intros n el m Hn Hel Hl Hm'. apply Zr; lia.
    + intros _ el Hel. pose proof (Hm 0 el 0 ltac:(lia) ltac:(change (Z.abs 0) with 0; lia) ltac:(lia)) as H. change (- 0) with 0 in H. change (0 + 0) with 0 in H.
      change (sgn 0) with 1%R in H. rewrite Cmult_1_l in H. unfold is_real. apply (f_equal Im) in H. cbn [Cconj Im snd] in H. unfold Im in *. cbn [snd] in H. lra.
    + intros _ _ el m Hel Hm'. pose proof (Hm 0 el m ltac:(lia) ltac:(change (Z.abs 0) with 0; lia) ltac:(lia)) as H. change (- 0) with 0 in H. rewrite Z.add_0_r in H. exact H.
  - repeat (split; [first [lia|assumption|discriminate|reflexivity|apply A']|]). exact P2.
Qed.
Example C50_healpix_ex : exists th beta' f, wigner_forward_call C41_gl th f 4 3 HEALPIX 2 (Some 2) true 0 beta' "jax" None /\
  so3_real_map (fun _ => 0%R) HEALPIX 4 3 2 f /\ get f (1 :: sample_index HEALPIX 2 0 0) = RtoC 1.
Proof.
  destruct (C49_angles C41_gl HEALPIX 4 2 0 3 1) as (th & b & b' & HH); [lia|lia|lia|lra|].
  destruct (HH (Some 2)) as (E & A & U & E' & A' & U' & P). destruct (P "jax" true) as [P1 P2].
  exists th, b', (mkArr (2 * 3 - 1 :: map_shape HEALPIX 4 2) (fun ix => RtoC (IZR (nth 0 ix 0)))). split; [|split; [|reflexivity]].
  - unfold wigner_forward_call. assert (M : python_method3 "jax") by (unfold python_method3; auto).
    repeat (split; [first [lia|assumption|discriminate|reflexivity|apply A'|intros _; repeat split; lia]|]). first [exact P2|now left].
  - intros ix _. reflexivity.
Qed.
(** Data for the approximation theorems: the nodes for L = 2, an array of a real signal, a signal's samples. *)
Example C51_ex : gauss_legendre 2 (gl_nodes gl2 2) (gl_weights gl2 2) /\ nodes_ok GL 2 (gl_nodes gl2 2) /\
  hermitian3 3 2 (stored3 3 2 flmn3) /\ shape flmn3 = [2 * 2 - 1; 3; 2 * 3 - 1] /\
  rings_away (fun _ => 0%R) MW 3 0 /\ forward_rings_away (fun _ => 0%R) MW 3 0 /\ rule_sizes MW 3 (gl_nodes gl2 3) (gl_weights gl2 3).
Proof.
  assert (G : gauss_legendre 2 (gl_nodes gl2 2) (gl_weights gl2 2)) by apply C26_ex. destruct C34_ex as (S & _ & _ & _ & Sm & Sh & Hm & _).
  split; [exact G|]. split; [intros _ i Hi; destruct G as (_ & _ & B & _); specialize (B i Hi); lra|]. split; [exact Hm|]. split; [exact Sh|].
  split; [apply SphAngles.small_away; exact Sm|]. split; [apply SphAngles.small_forward; exact Sm|]. intros Q; discriminate Q.
Qed.
