(** The front end of pyssht: the statements about the transforms and their gradients. *)
From Coq Require Import Reals Lra Lia.
From Coquelicot Require Import Complex.
From Verif Require Import Lib.Py Lib.PyFacts Lib.Vec Lib.Sums Lib.Cplx Lib.Arr Lib.MatFacts Model.Index Model.Samples Model.Grids Model.Turok
  Model.Quadrature Model.QuadratureJax Model.Spherical Model.OTF Model.OTFSpherical Model.CBackend Spec.IndexSpec Spec.WignerSpec Spec.SamplesSpec
  Spec.SphereSpec Spec.GridSpec Spec.QuadSpec
  Spec.HealpixFFTSpec Spec.SphericalSpec Spec.CBackendSpec Proofs.SphTop Proofs.SphForward Proofs.SphFacts Proofs.CBackendSsht Proofs.CBackendGrad
  Proofs.CBackendWeights Proofs.CBackendLib.
From Coq Require Import List.
Import ListNotations.
Open Scope string_scope.
Open Scope Z_scope.

Lemma checks_ssht name s : denotes name s -> s <> HEALPIX -> backend_checks "jax_ssht" name = Ok tt /\ ssht_index name = Ok (scheme_number s).
Proof.
  intros Hd Hs. split; [|now apply index_of]. unfold backend_checks, is_hp. unfold denotes in Hd. rewrite Hd. destruct s; try congruence; reflexivity.
Qed.
Lemma full_inverse_ssht lib hp th flm L spin o name s reality pre Lo b : denotes name s -> s <> HEALPIX ->
  full_inverse lib hp th flm L spin o name "jax_ssht" reality pre Lo b = ssht_inverse lib flm L spin reality (scheme_number s) b.
Proof. intros Hd Hs. unfold full_inverse. destruct (checks_ssht name s Hd Hs) as [E1 E2]. cbn [streq String.eqb]. rewrite E1. cbn [bind]. now rewrite E2. Qed.
Lemma full_forward_ssht lib hp gl th f L spin o name s reality pre Lo iter b : denotes name s -> s <> HEALPIX -> iter = None \/ iter = Some 0 ->
  full_forward lib hp gl th f L spin o name "jax_ssht" reality pre Lo iter b = ssht_forward lib f L spin reality (scheme_number s) b.
Proof.
  intros Hd Hs Hi. unfold full_forward. destruct (checks_ssht name s Hd Hs) as [E1 E2]. cbn [streq String.eqb]. rewrite E1. cbn [bind]. rewrite E2. cbn [bind].
  destruct Hi as [-> | ->]; [|reflexivity]. cbn [streq String.eqb]. rewrite Bool.andb_false_r. reflexivity.
Qed.

Lemma samples_real nodes s L f c th : s <> HEALPIX -> (forall t, 0 <= t < rings s L 0 -> colatitude nodes s L 0 t (th t)) ->
  holds_samples nodes s L 0 f (synth L 0 c) -> hermitian L c -> all_real f.
Proof.
  intros Hs Th [Sf Hf] Hc ix Hix. rewrite Sf, map_shape_equi in Hix by auto. destruct ix as [|t [|u [|]]]; cbn [in_shape] in Hix; try easy.
  specialize (Hf t u (th t)). rewrite sample_equi in Hf by auto. rewrite Hf by (try rewrite ring_equi; auto; try tauto; apply Th; tauto). now apply synth_real.
Qed.
Lemma holds_same_map nodes s L f f' F F' th : s <> HEALPIX -> (forall t, 0 <= t < rings s L 0 -> colatitude nodes s L 0 t (th t)) ->
  holds_samples nodes s L 0 f F -> holds_samples nodes s L 0 f' F' ->
  (forall x y, F x y = F' x y) -> arr_eq f f'.
Proof.
  intros Hs Th [Sf Hf] [Sf' Hf'] E. split; [congruence|]. intros ix Hix. rewrite Sf, map_shape_equi in Hix by auto. destruct ix as [|t [|u [|]]]; cbn [in_shape] in Hix; try easy.
  specialize (Hf t u (th t)). specialize (Hf' t u (th t)). rewrite sample_equi, ring_equi in * by auto. rewrite Hf, Hf' by (try apply Th; tauto). apply E.
Qed.

Section Top.
  Variables (gl : gl_rule) (s : scheme) (L spin : Z) (p : pyssht) (name : string).
  Hypothesis (Hd : denotes name s) (Hs : s <> HEALPIX) (HL : 1 <= L) (HG : s = GL -> gauss_legendre L (gl_nodes gl L) (gl_weights gl L)).
  Notation nodes := (vat (gl_nodes gl L)).
  Variable w : Z -> R.
  Hypothesis K : ssht_contract nodes w s L spin p.

  Lemma top_synthesis hp th flm o reality pre Lo b : shape flm = [L; 2 * L - 1] -> (reality = true -> spin = 0) ->
    exists f, full_inverse (Some p) hp th flm L spin o name "jax_ssht" reality pre Lo b = Ok f /\
      holds_samples nodes s L 0 f (synth L spin (if reality then real_signal (stored L flm) else stored L flm)).
  Proof.
    intros Sf Hr. rewrite (full_inverse_ssht _ _ _ _ _ _ _ _ s) by auto. destruct reality.
    - exact (ssht_inverse_real nodes w s L spin p Hs HL K flm b (Hr eq_refl) Sf).
    - exact (ssht_inverse_complex nodes w s L spin p Hs HL K flm b Sf).
  Qed.
  Lemma top_recovery hp th f c o reality pre Lo iter b : (reality = true -> spin = 0 /\ hermitian L c) -> iter = None \/ iter = Some 0 ->
    holds_samples nodes s L 0 f (synth L spin c) ->
    exists flm, full_forward (Some p) hp gl th f L spin o name "jax_ssht" reality pre Lo iter b = Ok flm /\ holds_coefficients L flm (restricted 0 spin c).
  Proof.
    intros Hr Hi HF. rewrite (full_forward_ssht _ _ _ _ _ _ _ _ _ s) by auto.
    destruct (ssht_forward_complex nodes w s L spin p Hs HL K f c b HF) as (flm & E & H). destruct reality; [|eauto].
    destruct (Hr eq_refl) as [H0 Hc]. subst spin.
    destruct (ssht_forward_real nodes w s L 0 p Hs HL K f b eq_refl (proj1 HF)) as (a & a' & Ea & Ea' & EE).
    { apply (samples_real nodes s L f c (th_of gl s L 0)); auto. intros t Ht. now apply th_of_is. }
    rewrite E in Ea'. injection Ea' as <-. exists a. split; [exact Ea|]. destruct EE as [Es Eg]. destruct H as [H1 H2]. split; [congruence|].
    intros el m Hel Hm. rewrite <- H2 by auto. unfold stored. apply Eg. rewrite Es, H1. cbn [in_shape]. lia.
  Qed.
  Lemma top_round hp th flm o reality pre Lo iter b b' : shape flm = [L; 2 * L - 1] -> (reality = true -> spin = 0 /\ hermitian L (stored L flm)) -> iter = None \/ iter = Some 0 ->
    exists f flm', full_inverse (Some p) hp th flm L spin o name "jax_ssht" reality pre Lo b = Ok f /\
      full_forward (Some p) hp gl th f L spin o name "jax_ssht" reality pre Lo iter b' = Ok flm' /\
      holds_coefficients L flm' (restricted 0 spin (stored L flm)).
  Proof.
    intros Sf Hr Hi. destruct (top_synthesis hp th flm o reality pre Lo b Sf) as (f & E & HF); [intros Q; now apply Hr|].
    assert (HF' : holds_samples nodes s L 0 f (synth L spin (stored L flm))).
    { destruct reality; [|exact HF]. destruct HF as [S1 H1]. split; [exact S1|]. intros t u x Ht Hu Hx. rewrite (H1 t u x) by auto.
      apply CBackendGrad.synth_ext. intros l m Hl Hm. apply (real_signal_hermitian L); auto. now apply Hr. }
    destruct (top_recovery hp th f (stored L flm) o reality pre Lo iter b' Hr Hi HF') as (flm' & E' & H). eauto.
  Qed.
  (** the reference transform *)
  Lemma top_reference hp th flm o reality pre Lo b method nside : shape flm = [L; 2 * L - 1] -> (reality = true -> spin = 0 /\ forall el, 0 <= el < L -> is_real (stored L flm el 0)) ->
    rings_away nodes s L nside -> method_allowed name method s L nside spin reality flm ->
    same_ok (full_inverse (Some p) hp th flm L spin o name "jax_ssht" reality pre Lo b) (inverse_ gl flm L spin name method o reality 0).
  Proof.
    intros Sf Hr Ha Hm. destruct (top_synthesis hp th flm o reality pre Lo b Sf) as (f & E & HF); [intros Q; now apply Hr|].
    destruct (synthesis_lemma gl name s flm L spin method nside o reality 0) as (f' & E' & HF'); auto; try lia.
    { split; [exact Hd|]. split; [exact HL|]. congruence. }
    { intros Q. apply (HG Q). }
    exists f, f'. split; [exact E|]. split; [exact E'|].
    assert (HF'' : holds_samples nodes s L 0 f' (synth L spin (used_coefficients reality spin 0 (stored L flm)))).
    { destruct HF' as [S1 H1]. split; [rewrite S1; destruct s; try congruence; reflexivity|]. intros t u x Ht Hu Hx.
      assert (EL : longitude s L 0 t u = longitude s L nside t u) by (destruct s; try congruence; reflexivity). rewrite EL.
      rewrite sample_equi by auto. rewrite <- (sample_equi s nside t u Hs). apply H1.
      - destruct s; try congruence; exact Ht.
      - rewrite ring_equi in * by auto. exact Hu.
      - destruct s; try congruence; exact Hx. }
    apply (holds_same_map nodes s L f f' (synth L spin (if reality then real_signal (stored L flm) else stored L flm)) _ (th_of gl s L 0) Hs) in HF''; auto.
    { intros t Ht. now apply th_of_is. }
    intros x y. apply CBackendGrad.synth_ext. intros l m Hl Hmm. unfold used_coefficients, above. destruct (Z.ltb_spec l 0); [lia|].
    destruct reality; [|reflexivity]. destruct (Hr eq_refl) as [-> Hre]. cbn [andb]. change (0 =? 0) with true. cbv iota.
    unfold real_signal. destruct (Z.eqb_spec m 0) as [->|]; [|reflexivity]. unfold real_extension. cbn [Z.ltb]. change (0 <? 0) with false. cbv iota.
    apply real_Re. now apply Hre.
  Qed.
End Top.
