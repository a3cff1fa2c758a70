(** The transforms with the option spmd. *)
From Coq Require Import Reals ZifyBool Lra.
From Coquelicot Require Import Complex.
From Verif Require Import Lib.Py Lib.PyFacts Lib.Vec Lib.VecFacts Lib.Sums Lib.Cplx Lib.Arr Lib.ArrFacts Lib.MatFacts Lib.Ext Lib.ExtFacts Lib.Lim
  Model.Index Model.Samples Model.Grids Model.FFT Model.HealpixFFT Model.Turok Model.Risbo Model.Resampling Model.Quadrature
  Model.Spherical Model.Precompute Model.PriceMcEwen Model.OTF Model.OTFSpherical Model.Spmd
  Spec.SamplesSpec Spec.WignerSpec Spec.SphereSpec Spec.GridSpec Spec.HealpixFFTSpec Spec.SphericalSpec Spec.QuadSpec Spec.OTFSpec Spec.OTFSphericalSpec Spec.SpmdSpec
  Proofs.SamplesProofs Proofs.GridProofs Proofs.TurokProofs Proofs.HealpixDFTProofs Proofs.SphereTheory Proofs.SphGrid Proofs.SphInverse Proofs.SphTop Proofs.SphForward Proofs.SphForwardTop
  Proofs.SphFacts Proofs.PrecomputeSph Proofs.PMPre Proofs.OTFProofs Proofs.OTFTop Proofs.OTFRegular Proofs.OTFLimit Proofs.OTFSphInverse Proofs.OTFSphForward Proofs.OTFSphNear Proofs.OTFSphTop Proofs.SpmdProofs
  Spec.CallSpec.
From Coq Require Import List.
Import ListNotations.
Open Scope string_scope.
Open Scope Z_scope.

Lemma inverse_spmd_ok ndev th flm L spin s nside o reality Lo beta p :
  inverse_call th flm L spin s nside o reality Lo beta "jax" p -> 1 <= ndev -> (ndev | rings s L nside) ->
  exists f, otf_inverse_spmd ndev th flm L spin o (scheme_name s) reality p Lo = Ok f /\
    samples_at (ring_angle s (rings s L nside) (vat beta)) s L nside f (synth L spin (used_coefficients reality spin Lo (stored L flm))).
Proof.
  intros (HL & HLo & Hs & H8 & Hn & Hf & Hz & Hre & Hre0 & Eth & Hb & Hu & _ & HP) Hd Hdiv. unfold otf_inverse_spmd.
  replace (8 <=? spin) with false by lia.
  apply (inverse_with_lemma th flm L spin s nside o reality Lo beta HL HLo Hs Hn Hf Hz Hre Hre0 Eth Hb Hu
    (fun flm ths => inverse_step_spmd ndev th flm ths L spin o (scheme_name s) reality p Lo)).
  intros flm' Hf' Hz'.
  destruct (jax_step_rings th flm L spin s nside o reality Lo beta HL HLo Hs Hn Hre Hre0 Hb p flm' HP Hf' Hz') as (a & E & F & HF & HFv).
  rewrite <- Hb in Hdiv. pose proof (inverse_step_rel ndev th flm' beta L spin o (scheme_name s) reality p Lo Hd Hdiv) as R. cbv zeta in R. rewrite E in R.
  destruct (inverse_step_spmd _ _ _ _ _ _ _ _ _ _ _) as [b|e]; cbn [rel] in R; [|contradiction].
  exists b. split; [reflexivity|]. exists F. split; [|exact HFv]. destruct R as (G & R1 & R2).
  assert (EM : (if str_in (lower (scheme_name s)) ["mwss"; "healpix"] then 2 * L else 2 * L - 1) = 2 * L - 1 + shift_of s).
  { pose proof (proj1 HF) as Q1. rewrite (proj1 R2) in Q1. now injection Q1. }
  rewrite EM in R1, R2. eapply is_mat_ext; [exact R1|]. intros r c Hr Hc. cbn beta. rewrite <- (proj2 R2), <- (proj2 HF) by auto. reflexivity.
Qed.
Lemma inverse_spmd_agree ndev th flm L spin s nside o reality Lo beta p :
  inverse_call th flm L spin s nside o reality Lo beta "jax" p -> 1 <= ndev -> (ndev | rings s L nside) ->
  same_ok (otf_inverse_spmd ndev th flm L spin o (scheme_name s) reality p Lo) (otf_inverse th flm L spin o (scheme_name s) "jax" reality p Lo).
Proof.
  intros C1 Hd Hdiv. destruct (inverse_spmd_ok _ _ _ _ _ _ _ _ _ _ _ _ C1 Hd Hdiv) as (f & Ef & Hf).
  destruct (inverse_call_ok _ _ _ _ _ _ _ _ _ _ _ _ C1) as (g & Eg & Hg).
  exists f, g. split; [exact Ef|]. split; [exact Eg|]. destruct C1 as (HL & _ & _ & _ & Hn & _).
  refine (samples_same _ s L nside f g _ _ _ _ Hf Hg _); [lia|intros Q; apply (Hn Q)|]. reflexivity.
Qed.
Lemma inverse_spmd_rejects ndev th flm L spin s nside o reality Lo beta p :
  inverse_call th flm L spin s nside o reality Lo beta "jax" p -> 1 <= ndev -> ~ (ndev | rings s L nside) ->
  otf_inverse_spmd ndev th flm L spin o (scheme_name s) reality p Lo = Err TypeError.
Proof.
  intros (HL & HLo & Hs & H8 & Hn & Hf & Hz & Hre & Hre0 & Eth & Hb & Hu & _ & HP) Hd Hdiv. unfold otf_inverse_spmd.
  replace (8 <=? spin) with false by lia. unfold inverse_jax_spmd. rewrite Eth. cbn [bind].
  destruct (flm_norm flm L spin s nside reality Lo HLo Hf Hz Hre Hre0) as (flm' & E1 & Hf' & Hz' & _). rewrite E1. cbn [bind].
  destruct (jax_step_rings th flm L spin s nside o reality Lo beta HL HLo Hs Hn Hre Hre0 Hb p flm' HP Hf' Hz') as (a & E & _).
  rewrite <- Hb in Hdiv. now rewrite (inverse_step_type_error ndev th flm' beta L spin o (scheme_name s) reality p Lo a Hd Hdiv E).
Qed.

Lemma forward_spmd_one gl th f L spin s nside o reality Lo beta p iter :
  forward_call gl th f L spin s nside o reality Lo beta "jax" p iter ->
  nodes_ok s L (gl_nodes gl L) -> (reality = true -> real_map (vat (gl_nodes gl L)) s L nside spin f) ->
  same_ok (otf_forward_spmd 1 gl th f L spin o (scheme_name s) reality p Lo iter) (otf_forward gl th f L spin o (scheme_name s) "jax" reality p Lo iter).
Proof.
  intros C1 N HR. assert (RV : reality = true -> s = HEALPIX -> real_values gl s L nside spin f).
  { intros Q1 Q2. apply real_values_gen; auto; [destruct C1; lia|intros Q; apply C1; auto|apply C1]. }
  destruct (forward_call_ok _ _ _ _ _ _ _ _ _ _ _ _ _ _ C1 RV) as (w & flm & Ew & E & Hf).
  destruct C1 as (H1 & H2 & H3 & H4 & H5 & H6 & H7 & H8 & H9 & H10 & H11 & H12 & H13 & H14 & H15).
  assert (Hb : vlen beta = gn (fgrid gl s L nside)) by now rewrite fwd_rings.
  destruct (forward_with_lemma gl th f L spin s nside o reality Lo beta H1 H2 H3 H5 H7 H8 H9 RV H10 Hb H12
    (fun ftm ths sampling => forward_step_spmd 1 th ftm ths L spin o sampling reality p Lo) p) as (w' & flm' & Ew' & E' & Hf').
  - intros Q. apply H6; [exact Q|discriminate].
  - exact H14.
  - intros ftm a Ea Sh. pose proof (forward_step_one th ftm beta L spin o (scheme_name (fscheme s)) reality p Lo ltac:(lia)) as R. rewrite Ea in R.
    destruct (forward_step_spmd _ _ _ _ _ _ _ _ _ _ _) as [b|e]; cbn [rel] in R; [|contradiction].
    exists b. split; [reflexivity|]. destruct R as (F & R1 & R2). eapply is_mat_ext; [exact R1|]. intros. symmetry. now apply (proj2 R2).
  - exists flm', flm. split; [|split; [exact E|]].
    + unfold otf_forward_spmd. replace (8 <=? spin) with false by lia.
      replace (0 <? match iter with Some n => n | None => 0 end) with false; [exact E'|]. destruct H15 as [->|(k & -> & Hk)]; [reflexivity|lia].
    + rewrite Ew in Ew'. injection Ew' as <-. eapply holds_same; [|exact Hf'|exact Hf]. lia.
Qed.
