(** C16, C17, C18, C20: resampling and periodic extension. *)
From Coq Require Import Reals Lra Lia ZifyBool.
From Coquelicot Require Import Complex.
From Verif Require Import Lib.Py Lib.PyFacts Lib.Vec Lib.VecFacts Lib.Sums Lib.Cplx Lib.Arr Lib.MatFacts
  Model.Samples Model.FFT Model.Resampling Spec.WignerSpec Spec.SphereSpec
  Proofs.ResamplingProofs Proofs.ResamplingFacts Proofs.SphereTheory.
Open Scope Z_scope.

(** a spin-1 signal of band-limit 2 and its samples, used by the examples *)
Definition ex_signal : R -> R -> C := synth 2 1 (fun l m => if m =? 0 then Ci else RtoC 3).
Definition ex_samples (n m : Z) (th ph : Z -> R) : ndarray C := mat n m (fun t p => ex_signal (th t) (ph p)).
Lemma ex_sampled n m th ph : sampled (ex_samples n m th ph) n m th ph ex_signal.
Proof. split; reflexivity. Qed.

(** ** C16 *)
Theorem C16_mw_to_mwss : forall b L s F f, 1 <= L -> band_limited L s F ->
  sampled f L (2 * L - 1) (mw_theta L) (mw_phi L) F ->
  exists g, mw_to_mwss b f L s = Ok g /\ sampled g (L + 1) (2 * L) (mwss_theta L) (mwss_phi L) F.
Proof. exact C16_lemma. Qed.
Print Assumptions C16_mw_to_mwss.
Example C16_mw_to_mwss_ex : 1 <= 2 /\ band_limited 2 1 ex_signal /\
  sampled (ex_samples 2 3 (mw_theta 2) (mw_phi 2)) 2 (2 * 2 - 1) (mw_theta 2) (mw_phi 2) ex_signal.
Proof. split; [lia|]. split; [apply synth_band_limited|apply ex_sampled]. Qed.

(** Every spin-s signal with harmonic coefficients of degree < L is covered. *)
Theorem C16_harmonics_are_band_limited : forall L s c, band_limited L s (synth L s c).
Proof. exact synth_band_limited. Qed.
Print Assumptions C16_harmonics_are_band_limited.

(** ** C17 *)
Theorem C17_upsample : forall b L s F f, 1 <= L -> band_limited L s F ->
  sampled f (L + 1) (2 * L) (mwss_theta L) (mwss_phi L) F ->
  exists g, upsample_by_two_mwss b f L s = Ok g /\
    sampled g (2 * L + 1) (2 * L) (mwss_theta (2 * L)) (mwss_phi L) F.
Proof. exact C17_lemma. Qed.
Print Assumptions C17_upsample.
Example C17_upsample_ex : 1 <= 2 /\ band_limited 2 1 ex_signal /\
  sampled (ex_samples 3 4 (mwss_theta 2) (mwss_phi 2)) (2 + 1) (2 * 2) (mwss_theta 2) (mwss_phi 2) ex_signal.
Proof. split; [lia|]. split; [apply synth_band_limited|apply ex_sampled]. Qed.

(** Downsampling undoes upsampling of any array on the extended domain, band-limited or not. *)
Theorem C17_downsample_upsample : forall b L f, 1 <= L -> shape f = [2 * L; 2 * L] ->
  exists u g, upsample_by_two_mwss_ext b f L = Ok u /\ shape u = [4 * L; 2 * L] /\
    downsample_by_two_mwss u (2 * L) = Ok g /\ arr_eq g f.
Proof. exact C17_down_lemma. Qed.
Print Assumptions C17_downsample_upsample.
Example C17_downsample_upsample_ex : 1 <= 3 /\ shape (mat 6 6 (fun r c => RtoC (IZR (r - c)))) = [2 * 3; 2 * 3].
Proof. split; [lia|reflexivity]. Qed.

(** On the domain [0, pi], which the documentation of downsample_by_two_mwss also allows, the last
    ring is dropped: L rows come back instead of L+1. *)
Theorem C17_downsample_half_domain_refuted : forall b L s f, 1 <= L -> shape f = [L + 1; 2 * L] ->
  exists u g, upsample_by_two_mwss b f L s = Ok u /\ downsample_by_two_mwss u (2 * L) = Ok g /\
    shape g = [L; 2 * L] /\ shape g <> shape f.
Proof.
  intros b L s f HL Hs. destruct (C17_down_half_lemma b L s f HL Hs) as (u & g & E & E' & H).
  exists u, g. repeat split; auto. rewrite H, Hs. intros X. injection X. lia.
Qed.
Print Assumptions C17_downsample_half_domain_refuted.
Example C17_downsample_half_domain_refuted_ex : 1 <= 3 /\ shape (mat 4 6 (fun r c => RtoC (IZR (r - c)))) = [3 + 1; 2 * 3].
Proof. split; [lia|reflexivity]. Qed.

(** ** C18 *)
(** Any array of samples: the first rows are kept, the row at 2pi - theta is (-1)^s times the
    trigonometric fit of the row at theta, half a turn away. *)
Theorem C18_extension_mw : forall b L s f, 1 <= L -> shape f = [L; 2 * L - 1] ->
  exists g, periodic_extension b f L s "mw" = Ok g /\ shape g = [2 * L - 1; 2 * L - 1] /\
    (forall t p, 0 <= t < L -> 0 <= p < 2 * L - 1 -> get g [t; p] = get f [t; p]) /\
    (forall t p, L <= t < 2 * L - 1 -> 0 <= p < 2 * L - 1 -> get g [t; p] =
      (RtoC (sgn s) * trig_fit L (2 * L - 1) (fun q => get f [(2 * L - 2 - t)%Z; q]) (mw_phi L p + PI))%C).
Proof. exact C18_mw_lemma. Qed.
Print Assumptions C18_extension_mw.
Example C18_extension_mw_ex : 1 <= 3 /\ shape (mat 3 5 (fun r c => RtoC (IZR (r - c)))) = [3; 2 * 3 - 1].
Proof. split; [lia|reflexivity]. Qed.

Theorem C18_extension_mwss : forall b L s f, 1 <= L -> shape f = [L + 1; 2 * L] ->
  exists g, periodic_extension b f L s "mwss" = Ok g /\ shape g = [2 * L; 2 * L] /\
    (forall t p, 0 <= t < L + 1 -> 0 <= p < 2 * L -> get g [t; p] = get f [t; p]) /\
    (forall t p, L + 1 <= t < 2 * L -> 0 <= p < 2 * L -> get g [t; p] =
      (RtoC (sgn s) * trig_fit L (2 * L) (fun q => get f [(2 * L - t)%Z; q]) (mwss_phi L p + PI))%C).
Proof. exact C18_mwss_lemma. Qed.
Print Assumptions C18_extension_mwss.
Example C18_extension_mwss_ex : 1 <= 3 /\ shape (mat 4 6 (fun r c => RtoC (IZR (r - c)))) = [3 + 1; 2 * 3].
Proof. split; [lia|reflexivity]. Qed.

(** The extension of the samples of a band-limited signal is its samples on the whole circle. *)
Theorem C18_extension_signal : forall b L s F f, 1 <= L -> band_limited L s F ->
  (sampled f L (2 * L - 1) (mw_theta L) (mw_phi L) F ->
   exists g, periodic_extension b f L s "mw" = Ok g /\ sampled g (2 * L - 1) (2 * L - 1) (mw_theta L) (mw_phi L) F) /\
  (sampled f (L + 1) (2 * L) (mwss_theta L) (mwss_phi L) F ->
   exists g, periodic_extension b f L s "mwss" = Ok g /\ sampled g (2 * L) (2 * L) (mwss_theta L) (mwss_phi L) F).
Proof. split; [now apply C18_signal_mw_lemma|now apply C18_signal_mwss_lemma]. Qed.
Print Assumptions C18_extension_signal.
Example C18_extension_signal_ex : 1 <= 2 /\ band_limited 2 1 ex_signal /\
  sampled (ex_samples 2 3 (mw_theta 2) (mw_phi 2)) 2 (2 * 2 - 1) (mw_theta 2) (mw_phi 2) ex_signal /\
  sampled (ex_samples 3 4 (mwss_theta 2) (mwss_phi 2)) (2 + 1) (2 * 2) (mwss_theta 2) (mwss_phi 2) ex_signal.
Proof. split; [lia|]. split; [apply synth_band_limited|]. split; apply ex_sampled. Qed.

Theorem C18_unextend : forall b L s f sampling n m, 1 <= L ->
  (sampling = "mw"%string /\ n = L /\ m = 2 * L - 1) \/ (sampling = "mwss"%string /\ n = L + 1 /\ m = 2 * L) ->
  shape f = [n; m] ->
  exists g f', periodic_extension b f L s sampling = Ok g /\ unextend b g L sampling = Ok f' /\ arr_eq f' f.
Proof. exact C18_unextend_lemma. Qed.
Print Assumptions C18_unextend.
Example C18_unextend_ex : 1 <= 3 /\
  (("mw"%string = "mw"%string /\ 3 = 3 /\ 5 = 2 * 3 - 1) \/ ("mw"%string = "mwss"%string /\ 3 = 3 + 1 /\ 5 = 2 * 3)) /\
  shape (mat 3 5 (fun r c => RtoC (IZR (r - c)))) = [3; 5].
Proof. repeat split; try lia. left. repeat split. Qed.

(** The spatial version moves samples: no interpolation. *)
Theorem C18_spatial : forall L s f, 1 <= L -> shape f = [L + 1; 2 * L] ->
  exists g, periodic_extension_spatial_mwss f L s = Ok g /\ shape g = [2 * L; 2 * L] /\
    (forall t p, 0 <= t < L + 1 -> 0 <= p < 2 * L -> get g [t; p] = get f [t; p]) /\
    (forall t p, 1 <= t < L -> 0 <= p < 2 * L ->
      get g [2 * L - t; (p + L) mod (2 * L)] = (RtoC (sgn s) * get f [t; p])%C).
Proof. exact C18_spatial_lemma. Qed.
Print Assumptions C18_spatial.
Example C18_spatial_ex : 1 <= 3 /\ shape (mat 4 6 (fun r c => RtoC (IZR (r - c)))) = [3 + 1; 2 * 3].
Proof. split; [lia|reflexivity]. Qed.

(** Both versions agree when no row has an alternating component (frequency L, which the harmonic
    version drops); samples of band-limited signals have none. *)
Theorem C18_versions_agree : forall b L s f, 1 <= L -> shape f = [L + 1; 2 * L] ->
  (forall t, 1 <= t < L -> csum (zrange 0 (2 * L)) (fun q => (RtoC (sgn q) * get f [t; q])%C) = RtoC 0) ->
  exists g h, periodic_extension b f L s "mwss" = Ok g /\ periodic_extension_spatial_mwss f L s = Ok h /\ arr_eq g h.
Proof. exact C18_agree_lemma. Qed.
Print Assumptions C18_versions_agree.
Example C18_versions_agree_ex : let f := mat 4 6 (fun r c => if c mod 6 <? 2 then RtoC (IZR r) else RtoC 0) in
  1 <= 3 /\ shape f = [3 + 1; 2 * 3] /\
  (forall t, 1 <= t < 3 -> csum (zrange 0 (2 * 3)) (fun q => (RtoC (sgn q) * get f [t; q])%C) = RtoC 0).
Proof.
  cbv zeta. split; [lia|]. split; [reflexivity|]. intros t Ht. change (zrange 0 (2 * 3)) with [0; 1; 2; 3; 4; 5].
  cbn. unfold sgn. cbn. apply C_eq; cbn; ring.
Qed.

(** periodic_extension compares the name of the sampling scheme case-sensitively although the sample
    counts it uses do not: with "MWSS" the south-pole ring is overwritten. *)
Theorem C18_case_refuted : forall b, exists f g f', shape f = [2 + 1; 2 * 2] /\
  periodic_extension b f 2 0 "MWSS" = Ok g /\ unextend b g 2 "MWSS" = Ok f' /\ get f' [2; 0] <> get f [2; 0].
Proof. exact C18_case_lemma. Qed.
Print Assumptions C18_case_refuted.

(** ** C20 *)
Theorem C20_conjugated_fft : forall x : vec C,
  veq (vmap Cconj (fft_bwd (vmap Cconj x))) (ifft_fwd x).
Proof. intros x. split; [reflexivity|]. intros i _. apply conj_fft. Qed.
Print Assumptions C20_conjugated_fft.

(** The JAX resampling functions return what the NumPy ones return, for arbitrary arrays. *)
Theorem C20_resampling : forall L s f f' g g', 1 <= L ->
  shape f = [L; 2 * L - 1] -> shape f' = [L + 1; 2 * L] -> shape g = [2 * L; 2 * L] -> shape g' = [2 * L - 1; 2 * L - 1] ->
  same_ok (periodic_extension numpy f L s "mw") (periodic_extension jax f L s "mw") /\
  same_ok (periodic_extension numpy f' L s "mwss") (periodic_extension jax f' L s "mwss") /\
  same_ok (upsample_by_two_mwss numpy f' L s) (upsample_by_two_mwss jax f' L s) /\
  same_ok (upsample_by_two_mwss_ext numpy g L) (upsample_by_two_mwss_ext jax g L) /\
  same_ok (unextend numpy g L "mwss") (unextend jax g L "mwss") /\
  same_ok (unextend numpy g' L "mw") (unextend jax g' L "mw") /\
  same_ok (mw_to_mwss_theta numpy f L s) (mw_to_mwss_theta jax f L s) /\
  same_ok (mw_to_mwss numpy f L s) (mw_to_mwss jax f L s).
Proof. exact C20_resampling_lemma. Qed.
Print Assumptions C20_resampling.
Example C20_resampling_ex : let a n m := mat n m (fun r c => RtoC (IZR (r - c))) in
  1 <= 2 /\ shape (a 2 3) = [2; 2 * 2 - 1] /\ shape (a 3 4) = [2 + 1; 2 * 2] /\ shape (a 4 4) = [2 * 2; 2 * 2] /\
  shape (a 3 3) = [2 * 2 - 1; 2 * 2 - 1].
Proof. cbv zeta. repeat split; lia. Qed.
