(** * C68: the option spmd, several devices. *)
From Coq Require Import Reals Lra Lia.
From Coquelicot Require Import Complex.
From Coq Require Import String List.
Import ListNotations.
From Verif Require Import Lib.Py Lib.PyFacts Lib.Vec Lib.Cplx Lib.Arr Lib.Ext Model.Grids Model.PriceMcEwen Model.OTF Model.OTFSpherical Model.Spmd
  Spec.SamplesSpec Spec.SphereSpec Spec.GridSpec Spec.SphericalSpec Spec.QuadSpec Spec.OTFSpec Spec.OTFSphericalSpec Spec.SpmdSpec
  Proofs.OTFSphNear Proofs.OTFSphTop Proofs.SpmdProofs Proofs.SpmdTop Properties.OTFProps Properties.OTFSphericalProps
  Spec.CallSpec.
Open Scope string_scope.
Open Scope Z_scope.

(** The latitudinal step of the inverse transform returns the same on any number of devices that divides the
    number of rings, whatever its input. *)
Theorem C68_inverse_step : forall ndev th flm beta L spin nside sampling reality p Lo, 1 <= ndev -> (ndev | vlen beta) ->
  same_result (inverse_step_spmd ndev th flm beta L spin nside sampling reality p Lo)
    (inverse_latitudinal_step_jax th flm beta L spin nside sampling reality p Lo).
Proof.
  intros. eapply rel_weaken; [|now apply inverse_step_rel]. intros a b. apply mrel_eq.
Qed.
Print Assumptions C68_inverse_step.
(** So the inverse transform returns the samples of the signal at the given angles, *)
Theorem C68_inverse : forall ndev th flm L spin s nside o reality Lo beta p,
  inverse_call th flm L spin s nside o reality Lo beta "jax" p -> 1 <= ndev -> (ndev | rings s L nside) ->
  exists f, otf_inverse_spmd ndev th flm L spin o (scheme_name s) reality p Lo = Ok f /\
    samples_at (ring_angle s (rings s L nside) (vat beta)) s L nside f (synth L spin (used_coefficients reality spin Lo (stored L flm))).
Proof. exact inverse_spmd_ok. Qed.
Print Assumptions C68_inverse.
(** which is what it returns without spmd. *)
Theorem C68_inverse_agree : forall ndev th flm L spin s nside o reality Lo beta p,
  inverse_call th flm L spin s nside o reality Lo beta "jax" p -> 1 <= ndev -> (ndev | rings s L nside) ->
  same_ok (otf_inverse_spmd ndev th flm L spin o (scheme_name s) reality p Lo) (otf_inverse th flm L spin o (scheme_name s) "jax" reality p Lo).
Proof. exact inverse_spmd_agree. Qed.
Print Assumptions C68_inverse_agree.
(** Other numbers of devices are rejected. *)
Theorem C68_rejects : forall ndev th flm L spin s nside o reality Lo beta p,
  inverse_call th flm L spin s nside o reality Lo beta "jax" p -> 1 <= ndev -> ~ (ndev | rings s L nside) ->
  otf_inverse_spmd ndev th flm L spin o (scheme_name s) reality p Lo = Err TypeError.
Proof. exact inverse_spmd_rejects. Qed.
Print Assumptions C68_rejects.
(** A spin of 8 or more is refused before any device is used, in both directions. *)
Theorem C68_warning : forall ndev gl th a L spin nside sampling reality p Lo iter, 8 <= spin ->
  otf_inverse_spmd ndev th a L spin nside sampling reality p Lo = Err WarningRaised /\
  otf_forward_spmd ndev gl th a L spin nside sampling reality p Lo iter = Err WarningRaised.
Proof.
  intros. unfold otf_inverse_spmd, otf_forward_spmd. now replace (8 <=? spin) with true by lia.
Qed.
Print Assumptions C68_warning.
(** The number of rings of a HEALPix map is odd: no even number of devices is accepted, for any nside. *)
Theorem C68_healpix_refuted : forall k th flm L spin nside reality Lo beta p,
  inverse_call th flm L spin HEALPIX nside (Some nside) reality Lo beta "jax" p -> 1 <= k ->
  otf_inverse_spmd (2 * k) th flm L spin (Some nside) "healpix" reality p Lo = Err TypeError.
Proof.
  intros k th flm L spin nside reality Lo beta p C1 Hk. apply (C68_rejects (2 * k) th flm L spin HEALPIX nside (Some nside) reality Lo beta p C1); [lia|].
  intros (q & Hq). cbn [rings] in Hq. nia.
Qed.
Print Assumptions C68_healpix_refuted.
(** On one device the forward transform returns what it returns without spmd: the latitudinal step for any input, *)
Theorem C68_forward_step : forall th ftm beta L spin nside sampling reality p Lo, 0 <= Lo < L ->
  same_result (forward_step_spmd 1 th ftm beta L spin nside sampling reality p Lo)
    (forward_latitudinal_step_jax th ftm beta L spin nside sampling reality p Lo).
Proof.
  intros. eapply rel_weaken; [|now apply forward_step_one]. intros a b. apply mrel_eq.
Qed.
Print Assumptions C68_forward_step.
(** and the transform. *)
Theorem C68_forward : forall gl th f L spin s nside o reality Lo beta p iter,
  forward_call gl th f L spin s nside o reality Lo beta "jax" p iter ->
  nodes_ok s L (gl_nodes gl L) -> (reality = true -> real_map (vat (gl_nodes gl L)) s L nside spin f) ->
  same_ok (otf_forward_spmd 1 gl th f L spin o (scheme_name s) reality p Lo iter) (otf_forward gl th f L spin o (scheme_name s) "jax" reality p Lo iter).
Proof. exact forward_spmd_one. Qed.
Print Assumptions C68_forward.
(** On two or more devices it never returns, for any input: each device holds its block of the degrees, the factors
    computed inside the loop have all degrees. *)
Theorem C68_forward_refuted : forall ndev gl th f L spin nside sampling reality p Lo iter, 2 <= ndev -> Lo < L ->
  exists e, otf_forward_spmd ndev gl th f L spin nside sampling reality p Lo iter = Err e.
Proof. exact otf_forward_fails. Qed.
Print Assumptions C68_forward_refuted.
(** Nor can the inverse transform be differentiated there, although it has values. *)
Theorem C68_gradient_refuted : forall ndev th flm L spin s nside o reality Lo beta p,
  inverse_call th flm L spin s nside o reality Lo beta "jax" p -> 2 <= ndev -> (ndev | rings s L nside) ->
  (exists f, otf_inverse_spmd ndev th flm L spin o (scheme_name s) reality p Lo = Ok f) /\
  forall gtm, exists e, inverse_step_vjp_spmd ndev th gtm beta L spin o (scheme_name s) reality Lo = Err e.
Proof.
  intros ndev th flm L spin s nside o reality Lo beta p C1 Hd Hdiv. split.
  - destruct (C68_inverse ndev th flm L spin s nside o reality Lo beta p C1 ltac:(lia) Hdiv) as (f & E & _). eauto.
  - intros gtm. apply forward_step_fails; [exact Hd|]. destruct C1 as (? & ? & _). lia.
Qed.
Print Assumptions C68_gradient_refuted.

(** Calls as the theorems take them: three rings on three devices, and on two. *)
Example C68_ex : inverse_call (exact_thetas C41_gl) C41_flm 3 0 MW 0 None false 0 C41_angles "jax" None /\
  (3 | rings MW 3 0) /\ ~ (2 | rings MW 3 0).
Proof. split; [apply C46_ex|]. split; [exists 1; reflexivity|]. intros (q & Hq). cbn [rings] in Hq. lia. Qed.
(** A map of nside 2 and one on six rings, spin 2, degrees from 1. *)
Example C68_calls_ex : exists th beta beta' f, inverse_call th C46_flm 5 2 MWSS 2 (Some 2) false 1 beta "jax" None /\ (2 | rings MWSS 5 2) /\
  forward_call C41_gl th f 5 2 MWSS 2 (Some 2) false 1 beta' "jax" None None /\ get f (sample_index MWSS 2 0 0) = Ci.
Proof.
  destruct (C46_calls_ex MWSS "jax") as (th & b & b' & f & H1 & H2 & H3); [left; auto|].
  exists th, b, b', f. split; [exact H1|]. split; [exists 3; reflexivity|]. auto.
Qed.
Example C68_healpix_ex : exists th beta, inverse_call th C46_flm 5 2 HEALPIX 2 (Some 2) false 1 beta "jax" None.
Proof.
  destruct (C46_calls_ex HEALPIX "torch") as (th & b & _ & _ & H & _); [right; auto|].
  exists th, b. destruct H as (H1 & H2 & H3 & H4 & H5 & H6 & H7 & H8 & H9 & H10 & H11 & H12 & _ & H14).
  repeat (split; [assumption|]). split; [unfold python_method; auto|exact H14].
Qed.
