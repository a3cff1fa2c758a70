(** C62, C63: the front end of pyssht (method "jax_ssht") and its gradients. *)
From Coq Require Import Reals Lra Lia.
From Coquelicot Require Import Complex.
From Verif Require Import Lib.Py Lib.PyFacts Lib.Vec Lib.Sums Lib.Cplx Lib.Arr Model.Index Model.Samples Model.Grids Model.Turok Model.Quadrature
  Model.Spherical Model.PriceMcEwen Model.OTFSpherical Model.CBackend Spec.WignerSpec Spec.SamplesSpec Spec.SphereSpec Spec.GridSpec Spec.QuadSpec Spec.HealpixFFTSpec
  Spec.SphericalSpec Spec.CBackendSpec Proofs.SphTop Proofs.SphFacts Proofs.CBackendSsht Proofs.CBackendGrad Proofs.CBackendLib Proofs.CBackendTop Proofs.CBackendBound
  Proofs.CBackendRefute Properties.QuadProps Properties.SphericalProps.
From Coq Require Import List.
Import ListNotations.
Open Scope string_scope.
Open Scope Z_scope.

(** The rings of the scheme are known: no condition on mw, mwss and dh. *)
Notation nodes_known gl s L := (s = GL -> gauss_legendre L (gl_nodes gl L) (gl_weights gl L)).

(** C62: the map returned for 2D coefficients holds the samples of the signal with these coefficients; with the reality flag, of the
    real signal given by the orders m >= 0. *)
Theorem C62_synthesis : forall gl s L spin p w name hp th flm o reality pre Lo b,
  denotes name s -> s <> HEALPIX -> 1 <= L -> ssht_contract (vat (gl_nodes gl L)) w s L spin p ->
  shape flm = [L; 2 * L - 1] -> (reality = true -> spin = 0) ->
  exists f, full_inverse (Some p) hp th flm L spin o name "jax_ssht" reality pre Lo b = Ok f /\
    holds_samples (vat (gl_nodes gl L)) s L 0 f (synth L spin (if reality then real_signal (stored L flm) else stored L flm)).
Proof. intros. eapply top_synthesis; eassumption. Qed.
Print Assumptions C62_synthesis.
(** C62: the coefficients of a sampled signal are recovered. *)
Theorem C62_recovery : forall gl s L spin p w name hp th f c o reality pre Lo iter b,
  denotes name s -> s <> HEALPIX -> 1 <= L -> nodes_known gl s L -> ssht_contract (vat (gl_nodes gl L)) w s L spin p ->
  (reality = true -> spin = 0 /\ hermitian L c) -> iter = None \/ iter = Some 0 ->
  holds_samples (vat (gl_nodes gl L)) s L 0 f (synth L spin c) ->
  exists flm, full_forward (Some p) hp gl th f L spin o name "jax_ssht" reality pre Lo iter b = Ok flm /\ holds_coefficients L flm (restricted 0 spin c).
Proof. intros. eapply top_recovery; eassumption. Qed.
Print Assumptions C62_recovery.
Theorem C62_round_trip : forall gl s L spin p w name hp th flm o reality pre Lo iter b b',
  denotes name s -> s <> HEALPIX -> 1 <= L -> nodes_known gl s L -> ssht_contract (vat (gl_nodes gl L)) w s L spin p ->
  shape flm = [L; 2 * L - 1] -> (reality = true -> spin = 0 /\ hermitian L (stored L flm)) -> iter = None \/ iter = Some 0 ->
  exists f flm', full_inverse (Some p) hp th flm L spin o name "jax_ssht" reality pre Lo b = Ok f /\
    full_forward (Some p) hp gl th f L spin o name "jax_ssht" reality pre Lo iter b' = Ok flm' /\
    holds_coefficients L flm' (restricted 0 spin (stored L flm)).
Proof. intros. eapply top_round; eassumption. Qed.
Print Assumptions C62_round_trip.
(** C62: the reference transform returns the same map. *)
Theorem C62_reference : forall gl s L spin p w name hp th flm o reality pre Lo b method nside,
  denotes name s -> s <> HEALPIX -> 1 <= L -> nodes_known gl s L -> ssht_contract (vat (gl_nodes gl L)) w s L spin p ->
  shape flm = [L; 2 * L - 1] -> (reality = true -> spin = 0 /\ forall el, 0 <= el < L -> is_real (stored L flm el 0)) ->
  rings_away (vat (gl_nodes gl L)) s L nside -> method_allowed name method s L nside spin reality flm ->
  same_ok (full_inverse (Some p) hp th flm L spin o name "jax_ssht" reality pre Lo b) (inverse_ gl flm L spin name method o reality 0).
Proof. intros. eapply top_reference; eassumption. Qed.
Print Assumptions C62_reference.
(** C62: two libraries, or the two backends of one, return the same maps. *)
Theorem C62_backends : forall gl s L spin p p' w w' name hp th flm o reality pre Lo b b',
  denotes name s -> s <> HEALPIX -> 1 <= L -> nodes_known gl s L ->
  ssht_contract (vat (gl_nodes gl L)) w s L spin p -> ssht_contract (vat (gl_nodes gl L)) w' s L spin p' ->
  shape flm = [L; 2 * L - 1] -> (reality = true -> spin = 0) ->
  same_ok (full_inverse (Some p) hp th flm L spin o name "jax_ssht" reality pre Lo b)
    (full_inverse (Some p') hp th flm L spin o name "jax_ssht" reality pre Lo b').
Proof.
  intros gl s L spin p p' w w' name hp th flm o reality pre Lo b b' Hd Hs HL HG K K' Sf Hr.
  destruct (C62_synthesis gl s L spin p w name hp th flm o reality pre Lo b) as (f & E & HF); auto.
  destruct (C62_synthesis gl s L spin p' w' name hp th flm o reality pre Lo b') as (f' & E' & HF'); auto.
  exists f, f'. split; [exact E|]. split; [exact E'|]. eapply (holds_same_map _ s L f f' _ _ (th_of gl s L 0)); eauto. intros t Ht. now apply th_of_is.
Qed.
Print Assumptions C62_backends.
(** C62: backend 0 is "SSHT", backend 1 is "ducc0": what the library does for the other one does not matter. *)
Theorem C62_backend_choice : forall p p' b bname hp gl th flm f L spin o name reality pre Lo iter,
  b = 0 /\ bname = "SSHT" \/ b = 1 /\ bname = "ducc0" ->
  (forall x l sp m r, py_inverse p x l sp m r bname = py_inverse p' x l sp m r bname) ->
  (forall x l sp m r, py_forward p x l sp m r bname = py_forward p' x l sp m r bname) ->
  full_inverse (Some p) hp th flm L spin o name "jax_ssht" reality pre Lo b = full_inverse (Some p') hp th flm L spin o name "jax_ssht" reality pre Lo b /\
  full_forward (Some p) hp gl th f L spin o name "jax_ssht" reality pre Lo iter b = full_forward (Some p') hp gl th f L spin o name "jax_ssht" reality pre Lo iter b.
Proof.
  intros p p' b bname hp gl th flm f L spin o name reality pre Lo iter Hb H1 H2. unfold full_inverse, full_forward.
  change (streq "jax_ssht" "jax_ssht") with true. cbv beta iota. destruct (backend_checks "jax_ssht" name); cbn [bind]; [|split; reflexivity].
  destruct (ssht_index name) as [k|]; cbn [bind]; [|split; reflexivity]. unfold ssht_inverse, ssht_forward. cbn [try_import bind].
  destruct (OTFWigner.lread sampling_str k) as [m|]; cbn [bind]; [|split; reflexivity].
  assert (E : backend_str b = bname) by (destruct Hb as [[-> ->]|[-> ->]]; reflexivity). rewrite E, H1, H2. split; reflexivity.
Qed.
Print Assumptions C62_backend_choice.
(** C62: without the package the call fails; so do sampling names the library has no rule for. *)
Theorem C62_missing : forall hp gl th flm f L spin o name s reality pre Lo iter b, denotes name s -> s <> HEALPIX -> iter = None \/ iter = Some 0 ->
  full_inverse None hp th flm L spin o name "jax_ssht" reality pre Lo b = Err MissingDependency /\
  full_forward None hp gl th f L spin o name "jax_ssht" reality pre Lo iter b = Err MissingDependency.
Proof.
  intros hp gl th flm f L spin o name s reality pre Lo iter b Hd Hs Hi.
  rewrite (full_inverse_ssht _ _ _ _ _ _ _ _ s), (full_forward_ssht _ _ _ _ _ _ _ _ _ s) by auto. split; reflexivity.
Qed.
Print Assumptions C62_missing.
Theorem C62_rejects : forall lib hp gl th flm f L spin o name reality pre Lo iter b, ~ In (lower name) ["mw"; "mwss"; "dh"; "gl"] ->
  full_inverse lib hp th flm L spin o name "jax_ssht" reality pre Lo b = Err ValueError /\
  full_forward lib hp gl th f L spin o name "jax_ssht" reality pre Lo iter b = Err ValueError.
Proof.
  intros lib hp gl th flm f L spin o name reality pre Lo iter b H.
  assert (E : backend_checks "jax_ssht" name = Err ValueError).
  { unfold backend_checks. change (streq "jax_ssht" "jax_healpy") with false. change (streq "jax_ssht" "jax_ssht") with true. cbn [andb]. destruct (is_hp name); [reflexivity|].
    assert (Q : str_in (lower name) ["mw"; "mwss"; "dh"; "gl"] = false).
    { unfold str_in. apply Bool.not_true_iff_false. intros Q. apply existsb_exists in Q. destruct Q as (x & Hx & Ex). apply String.eqb_eq in Ex. subst x. auto. }
    now rewrite Q. }
  unfold full_inverse, full_forward. cbn [streq String.eqb]. rewrite E. auto.
Qed.
Print Assumptions C62_rejects.
(** C62: with iterations the call fails whether or not the package is there. *)
Theorem C62_iterations_refuted : forall lib hp gl th f L spin o name s reality pre Lo n b, denotes name s -> s <> HEALPIX -> 0 < n ->
  full_forward lib hp gl th f L spin o name "jax_ssht" reality pre Lo (Some n) b = Err KeyError.
Proof.
  intros lib hp gl th f L spin o name s reality pre Lo n b Hd Hs Hn. unfold full_forward. change (streq "jax_ssht" "jax_ssht") with true. cbv iota.
  replace (0 <? n) with true by lia. unfold denotes in Hd. unfold backend_checks, is_hp, ssht_index. rewrite Hd. destruct s; try congruence; reflexivity.
Qed.
Print Assumptions C62_iterations_refuted.
(** C62: a library that keeps the contract exists for every scheme, band-limit and spin. *)
Theorem C62_library : forall gl s L spin, s <> HEALPIX -> 1 <= L -> nodes_known gl s L ->
  exists p, ssht_contract (vat (gl_nodes gl L)) (library_weight (vat (gl_weights gl L)) s L) s L spin p.
Proof. exact library_exists. Qed.
Print Assumptions C62_library.
(** C62: the lower band-limit is ignored: with Lo = 1 the mean of the signal is kept. *)
Theorem C62_lower_refuted : forall gl s L p w name hp th o pre b, denotes name s -> s <> HEALPIX -> 2 <= L -> nodes_known gl s L ->
  ssht_contract (vat (gl_nodes gl L)) w s L 0 p ->
  exists flm f, shape flm = [L; 2 * L - 1] /\ full_inverse (Some p) hp th flm L 0 o name "jax_ssht" false pre 1 b = Ok f /\
    ~ holds_samples (vat (gl_nodes gl L)) s L 0 f (synth L 0 (above 1 (stored L flm))).
Proof.
  intros gl s L p w name hp th o pre b Hd Hs HL HG K. set (flm := single L 0 0 (RtoC 1)).
  destruct (C62_synthesis gl s L 0 p w name hp th flm o false pre 1 b) as (f & E & HF); auto; try lia; try reflexivity; try discriminate.
  exists flm, f. split; [reflexivity|]. split; [exact E|]. intros H.
  pose proof (coefficients_unique _ _ s L 0 p f _ _ 0 0 K HF H ltac:(cbn; lia) ltac:(lia)) as Q. unfold flm, above in Q. rewrite single_stored in Q. cbn in Q.
  injection Q as Q. lra.
Qed.
Print Assumptions C62_lower_refuted.

(** mw with L = 4, spin 2, and gl with L = 2, spin 0 and a Hermitian signal. *)
Definition C62_flm : ndarray C := mat 2 3 (fun l c => if (l =? 1) && (c =? 1) then RtoC 3 else if (l =? 0) && (c =? 1) then RtoC 1 else RtoC 0).
Example C62_ex : (exists p, ssht_contract (vat (gl_nodes gl2 4)) (library_weight (vat (gl_weights gl2 4)) MW 4) MW 4 2 p) /\
  (exists p, ssht_contract (vat (gl_nodes gl2 2)) (library_weight (vat (gl_weights gl2 2)) GL 2) GL 2 0 p) /\
  denotes "Mw" MW /\ denotes "gl" GL /\ nodes_known gl2 MW 4 /\ nodes_known gl2 GL 2 /\ hermitian 2 (stored 2 C62_flm) /\
  (exists f, holds_samples (vat (gl_nodes gl2 2)) GL 2 0 f (synth 2 0 (stored 2 C62_flm))) /\ rings_away (vat (gl_nodes gl2 4)) MW 4 0 /\
  method_allowed "mw" "sov_fft" MW 4 0 2 false (mat 4 7 (fun l c => RtoC (IZR (l + c)))).
Proof.
  assert (G : gauss_legendre 2 (gl_nodes gl2 2) (gl_weights gl2 2)) by apply C26_ex.
  split; [apply C62_library; try lia; discriminate|]. split; [apply C62_library; try lia; auto; discriminate|]. split; [reflexivity|]. split; [reflexivity|].
  split; [discriminate|]. split; [auto|]. split.
  { intros l m Hl Hm. assert (l = 0 \/ l = 1) as [-> | ->] by lia.
    - assert (m = 0) as -> by lia. unfold stored, C62_flm, mat, Cconj, RtoC, Cmult, sgn. cbn. f_equal; ring.
    - assert (m = -1 \/ m = 0 \/ m = 1) as [-> |[-> | ->]] by lia; unfold stored, C62_flm, mat, Cconj, RtoC, Cmult, sgn; cbn; f_equal; ring. }
  split; [|split].
  - eexists (mat 2 3 (fun t u => synth 2 0 (stored 2 C62_flm) (th_of gl2 GL 2 0 t) (longitude GL 2 0 t u))). split; [reflexivity|].
    intros t u x Ht Hu Hx. cbn [sample_index]. unfold mat. cbn [get nth]. f_equal. symmetry. apply (colat_unique gl2 GL 2 0 t x); auto. discriminate.
  - apply (C23_rings (vat (gl_nodes gl2 4)) MW 4 0). cbn. lia.
  - right. split; [left; reflexivity|]. split; [reflexivity|]. split; [discriminate|]. discriminate.
Qed.

(** C63: the gradient of the inverse transform for a cotangent ct pairs with 2D coefficients as ct pairs with their map; on gl up
    to the accuracy of the weights. *)
Theorem C63_inverse : forall gl s L spin p turns b ct, s <> HEALPIX -> 1 <= L -> weights_found gl turns s L ->
  ssht_contract (vat (gl_nodes gl L)) (library_weight (vat (gl_weights gl L)) s L) s L spin p -> shape ct = map_shape s L 0 ->
  exists g, ssht_inverse_bwd (Some p) gl turns L spin false (scheme_number s) b ct = Ok g /\ shape g = [L; 2 * L - 1] /\
    forall flm f, shape flm = [L; 2 * L - 1] -> ssht_inverse (Some p) flm L spin false (scheme_number s) b = Ok f ->
    (Cmod (pair_coefficients L g flm - pair_samples s L ct f) <= gradient_error s L * abs_samples s L ct f)%C%R.
Proof. intros. now apply bwd_inverse. Qed.
Print Assumptions C63_inverse.
Lemma exact_pair (x y : C) (a : R) : (Cmod (x - y) <= 0 * a)%C%R -> x = y.
Proof.
  intros H. assert (E : Cmod (x - y)%C = 0%R) by (pose proof (Cmod_ge_0 (x - y)%C); lra). apply Cmod_eq_0 in E.
  replace x with ((x - y) + y)%C by ring. rewrite E. ring.
Qed.
(** exactly on mw, mwss and dh *)
Theorem C63_inverse_exact : forall gl s L spin p turns b ct, s <> HEALPIX -> s <> GL -> 1 <= L ->
  ssht_contract (vat (gl_nodes gl L)) (library_weight (vat (gl_weights gl L)) s L) s L spin p -> shape ct = map_shape s L 0 ->
  exists g, ssht_inverse_bwd (Some p) gl turns L spin false (scheme_number s) b ct = Ok g /\ shape g = [L; 2 * L - 1] /\
    forall flm f, shape flm = [L; 2 * L - 1] -> ssht_inverse (Some p) flm L spin false (scheme_number s) b = Ok f ->
    pair_coefficients L g flm = pair_samples s L ct f.
Proof.
  intros gl s L spin p turns b ct Hs Hg HL K Sc. destruct (C63_inverse gl s L spin p turns b ct) as (g & E & S & H); auto; [intros Q; congruence|].
  exists g. split; [exact E|]. split; [exact S|]. intros flm f Sf Ef. specialize (H flm f Sf Ef). apply exact_pair with (abs_samples s L ct f).
  destruct s; try congruence; exact H.
Qed.
Print Assumptions C63_inverse_exact.
(** C63: the same for the forward transform. *)
Theorem C63_forward : forall gl s L spin p turns b ct, s <> HEALPIX -> 1 <= L -> weights_found gl turns s L ->
  ssht_contract (vat (gl_nodes gl L)) (library_weight (vat (gl_weights gl L)) s L) s L spin p -> shape ct = [L; 2 * L - 1] ->
  exists g, ssht_forward_bwd (Some p) gl turns L spin false (scheme_number s) b ct = Ok g /\ shape g = map_shape s L 0 /\
    forall f x, shape f = map_shape s L 0 -> ssht_forward (Some p) f L spin false (scheme_number s) b = Ok x ->
    (Cmod (pair_coefficients L ct x - pair_samples s L g f) <= gradient_error s L * abs_samples s L g f)%C%R.
Proof. intros. now apply bwd_forward. Qed.
Print Assumptions C63_forward.
Theorem C63_forward_exact : forall gl s L spin p turns b ct, s <> HEALPIX -> s <> GL -> 1 <= L ->
  ssht_contract (vat (gl_nodes gl L)) (library_weight (vat (gl_weights gl L)) s L) s L spin p -> shape ct = [L; 2 * L - 1] ->
  exists g, ssht_forward_bwd (Some p) gl turns L spin false (scheme_number s) b ct = Ok g /\ shape g = map_shape s L 0 /\
    forall f x, shape f = map_shape s L 0 -> ssht_forward (Some p) f L spin false (scheme_number s) b = Ok x ->
    pair_coefficients L ct x = pair_samples s L g f.
Proof.
  intros gl s L spin p turns b ct Hs Hg HL K Sc. destruct (C63_forward gl s L spin p turns b ct) as (g & E & S & H); auto; [intros Q; congruence|].
  exists g. split; [exact E|]. split; [exact S|]. intros f x Sf Ef. specialize (H f x Sf Ef). apply exact_pair with (abs_samples s L g f).
  destruct s; try congruence; exact H.
Qed.
Print Assumptions C63_forward_exact.
(** C63: with the reality flag the inverse transform is linear over the reals only, so that the real parts agree: for even L. *)
Theorem C63_real_inverse : forall gl s L p turns b ct, s <> HEALPIX -> 1 <= L -> Z.even L = true -> weights_found gl turns s L ->
  ssht_contract (vat (gl_nodes gl L)) (library_weight (vat (gl_weights gl L)) s L) s L 0 p -> shape ct = map_shape s L 0 -> all_real ct ->
  exists g, ssht_inverse_bwd (Some p) gl turns L 0 true (scheme_number s) b ct = Ok g /\ shape g = [L; 2 * L - 1] /\
    forall flm f, shape flm = [L; 2 * L - 1] -> ssht_inverse (Some p) flm L 0 true (scheme_number s) b = Ok f ->
    (Rabs (Re (pair_coefficients L g flm) - Re (pair_samples s L ct f)) <= gradient_error s L * abs_samples s L ct f)%R.
Proof. intros. now apply bwd_inverse_real. Qed.
Print Assumptions C63_real_inverse.
(** C63: for odd L the two halves of the gradient of the orders m > 0 cancel: whatever the scheme and the library, the gradient
    of the power of the map misses the coefficient (1, 1) of a signal of positive power. *)
Theorem C63_odd_refuted : forall gl s L p turns b, s <> HEALPIX -> 2 <= L -> Z.even L = false -> weights_found gl turns s L ->
  ssht_contract (vat (gl_nodes gl L)) (library_weight (vat (gl_weights gl L)) s L) s L 0 p ->
  exists flm f g, shape flm = [L; 2 * L - 1] /\ ssht_inverse (Some p) flm L 0 true (scheme_number s) b = Ok f /\ all_real f /\
    ssht_inverse_bwd (Some p) gl turns L 0 true (scheme_number s) b f = Ok g /\
    Re (pair_coefficients L g flm) = 0%R /\ (0 < Re (pair_samples s L f f))%R.
Proof. intros. now apply odd_wrong. Qed.
Print Assumptions C63_odd_refuted.
(** C63: the forward transform with the reality flag: for cotangents of real signals; on dh and gl the gradient misses the orders
    m < 0 of other cotangents. *)
Theorem C63_real_forward : forall gl s L p turns b ct, s <> HEALPIX -> 1 <= L -> weights_found gl turns s L ->
  ssht_contract (vat (gl_nodes gl L)) (library_weight (vat (gl_weights gl L)) s L) s L 0 p -> shape ct = [L; 2 * L - 1] -> hermitian L (stored L ct) ->
  exists g, ssht_forward_bwd (Some p) gl turns L 0 true (scheme_number s) b ct = Ok g /\ shape g = map_shape s L 0 /\
    forall f x, shape f = map_shape s L 0 -> all_real f -> ssht_forward (Some p) f L 0 true (scheme_number s) b = Ok x ->
    (Cmod (pair_coefficients L ct x - pair_samples s L g f) <= gradient_error s L * abs_samples s L g f)%C%R.
Proof. intros. now apply bwd_forward_real. Qed.
Print Assumptions C63_real_forward.
Theorem C63_forward_reality_refuted : forall gl s L p turns b, s = DH \/ s = GL -> 2 <= L -> weights_found gl turns s L ->
  ssht_contract (vat (gl_nodes gl L)) (library_weight (vat (gl_weights gl L)) s L) s L 0 p ->
  exists ct f x g, shape ct = [L; 2 * L - 1] /\ shape f = map_shape s L 0 /\ all_real f /\
    ssht_forward (Some p) f L 0 true (scheme_number s) b = Ok x /\ ssht_forward_bwd (Some p) gl turns L 0 true (scheme_number s) b ct = Ok g /\
    Re (pair_samples s L g f) = 0%R /\ Re (pair_coefficients L ct x) = 1%R.
Proof. intros gl s L p turns b D. intros. apply forward_wrong; auto. destruct D as [->| ->]; discriminate. Qed.
Print Assumptions C63_forward_reality_refuted.
Example C63_ex : weights_found gl2 0 DH 7 /\ weights_found gl2 50 GL 2 /\
  (exists p, ssht_contract (vat (gl_nodes gl2 2)) (library_weight (vat (gl_weights gl2 2)) GL 2) GL 2 0 p) /\
  (exists p, ssht_contract (vat (gl_nodes gl2 7)) (library_weight (vat (gl_weights gl2 7)) DH 7) DH 7 (-3) p) /\
  (exists p, ssht_contract (vat (gl_nodes gl2 7)) (library_weight (vat (gl_weights gl2 7)) MWSS 7) MWSS 7 0 p) /\
  all_real (mkArr (map_shape GL 2 0) (fun ix => RtoC (IZR (nth 0 ix 0%Z)))) /\ Z.even 7 = false /\ hermitian 2 (stored 2 C62_flm).
Proof.
  assert (G : gauss_legendre 2 (gl_nodes gl2 2) (gl_weights gl2 2)) by apply C26_ex.
  split; [discriminate|]. split; [intros _; split; [exact G|split; [lia|]]; repeat constructor|]. split; [apply C62_library; auto; try lia; discriminate|].
  split; [apply C62_library; auto; try lia; discriminate|]. split; [apply C62_library; auto; try lia; discriminate|].
  split; [intros ix _; reflexivity|]. split; [reflexivity|]. apply C62_ex.
Qed.
