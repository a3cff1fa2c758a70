(** Properties of the reference spherical harmonic transforms s2fft/base_transforms/spherical.py. *)
From Coq Require Import Reals Lra.
From Coquelicot Require Import Complex.
From Verif Require Import Lib.Py Lib.Vec Lib.Sums Lib.Cplx Lib.Arr Model.Grids Model.Quadrature Model.Spherical
  Spec.SamplesSpec Spec.WignerSpec Spec.SphereSpec Spec.GridSpec Spec.HealpixFFTSpec Spec.QuadSpec Spec.SphericalSpec
  Proofs.SphereTheory Proofs.SphFacts Proofs.SphMore Proofs.SphAngles Proofs.SphRefuted Proofs.SphTop Properties.QuadProps.
Open Scope string_scope.
Open Scope Z_scope.

(** A map and coefficients of band-limit 4 for the examples. *)
Definition flm4 : ndarray C := mat 4 7 (fun el q => if q =? 3 then RtoC (IZR (el + 1)) else (RtoC (IZR (el * q)) * Ci)%C).

(** ** C23: the inverse transform synthesises spin spherical harmonics *)
Theorem C23_synthesis gl name s flm L spin method nside o reality Lo :
  setting name s L nside o -> 0 <= Lo < L -> shape flm = [L; 2 * L - 1] -> (s = GL -> vlen (gl_nodes gl L) = L) ->
  rings_away (vat (gl_nodes gl L)) s L nside -> method_allowed name method s L nside spin reality flm ->
  exists f, inverse_ gl flm L spin name method o reality Lo = Ok f /\
    holds_samples (vat (gl_nodes gl L)) s L nside f (synth L spin (used_coefficients reality spin Lo (stored L flm))).
Proof. apply synthesis_lemma. Qed.
Print Assumptions C23_synthesis.

(** The side condition on the rings holds up to band-limit 20000 and nside 15000. *)
Theorem C23_rings nodes s L nside : small_grid nodes s L nside ->
  rings_away nodes s L nside /\ forward_rings_away nodes s L nside.
Proof. intros H. split; [now apply small_away|now apply small_forward]. Qed.
Print Assumptions C23_rings.

Theorem C23_default gl flm L spin s nside o reality Lo :
  setting (scheme_name s) s L nside o -> 0 <= Lo < L -> shape flm = [L; 2 * L - 1] -> (s = GL -> vlen (gl_nodes gl L) = L) ->
  small_grid (vat (gl_nodes gl L)) s L nside -> (s = HEALPIX -> 2 * nside <= L) ->
  (reality = true -> spin = 0 -> forall el, 0 <= el < L -> is_real (stored L flm el 0)) ->
  exists f, inverse gl flm L spin (scheme_name s) o reality Lo = Ok f /\
    holds_samples (vat (gl_nodes gl L)) s L nside f (synth L spin (used_coefficients reality spin Lo (stored L flm))).
Proof.
  intros S HLo Hf Hg Hs Hh Hr. apply synthesis_lemma; auto; [now apply small_away|].
  right. split; [right; reflexivity|]. auto.
Qed.
Print Assumptions C23_default.

Lemma flm4_real el : is_real (stored 4 flm4 el 0).
Proof. reflexivity. Qed.
Example C23_ex : setting "healpix" HEALPIX 4 2 (Some 2) /\ 0 <= 1 < 4 /\ shape flm4 = [4; 2 * 4 - 1] /\
  rings_away (vat (gl_nodes gl2 4)) HEALPIX 4 2 /\ method_allowed "healpix" "sov_fft_vectorized" HEALPIX 4 2 0 true flm4.
Proof.
  split; [repeat split; auto; lia|]. split; [lia|]. split; [reflexivity|]. split; [apply small_away; cbn; lia|].
  right. split; [right; reflexivity|]. split; [reflexivity|]. split; [lia|]. intros. apply flm4_real.
Qed.
Example C23_small_ex : small_grid (vat (gl_nodes gl2 2)) GL 2 0 /\ small_grid (fun _ => 0%R) MWSS 20000 0.
Proof.
  split; [|cbn; lia]. intros i Hi. cbn [gl_nodes gl2 vat].
  assert (H : (1 < sqrt 3 /\ sqrt 3 * / sqrt 3 = 1 /\ sqrt 3 * sqrt 3 = 3)%R).
  { assert (S := sqrt_sqrt 3 ltac:(lra)). assert (1 < sqrt 3)%R by (rewrite <- sqrt_1 at 1; apply sqrt_lt_1; lra).
    split; [assumption|]. split; [apply Rinv_r; lra|assumption]. }
  destruct H as (H1 & H2 & H3). assert (/ sqrt 3 = sqrt 3 / 3)%R by (field_simplify_eq; [lra|lra]).
  assert (sqrt 3 < 2)%R by (apply Rsqr_incrst_0; unfold Rsqr; lra).
  destruct (i =? 0); lra.
Qed.

(** ** C21: the inverse methods agree *)
Theorem C21_agree gl name s flm L spin method method' nside o reality Lo :
  setting name s L nside o -> 0 <= Lo < L -> shape flm = [L; 2 * L - 1] -> (s = GL -> vlen (gl_nodes gl L) = L) ->
  rings_away (vat (gl_nodes gl L)) s L nside ->
  method_allowed name method s L nside spin reality flm -> method_allowed name method' s L nside spin reality flm ->
  same_ok (inverse_ gl flm L spin name method o reality Lo) (inverse_ gl flm L spin name method' o reality Lo).
Proof. intros S HLo Hf Hg Ha H H'. now apply (inverse_same gl name name s flm flm L spin method method' nside o o). Qed.
Print Assumptions C21_agree.

(** With the scheme in upper case the FFT method returns other samples: every second sample of the
    constant signal changes its sign. *)
Theorem C21_case_refuted gl : exists flm L, setting "MWSS" MWSS L 0 None /\ 0 <= 0 < L /\ shape flm = [L; 2 * L - 1] /\
  rings_away (vat (gl_nodes gl L)) MWSS L 0 /\
  ~ same_ok (inverse_ gl flm L 0 "MWSS" "direct" None false 0) (inverse_ gl flm L 0 "MWSS" "sov_fft" None false 0).
Proof.
  assert (A : rings_away (vat (gl_nodes gl 1)) MWSS 1 0) by (apply small_away; cbn; lia).
  exists (one_by_one (RtoC 1)), 1. split; [repeat split; try lia; discriminate|]. split; [lia|]. split; [reflexivity|]. split; [exact A|].
  intros (a & b & Ea & Eb & Es & Eq).
  destruct (mwss_upper_case gl) as (f & E & H1 & H2). rewrite E in Eb. injection Eb as <-.
  destruct (synthesis_lemma gl "MWSS" MWSS (one_by_one (RtoC 1)) 1 0 "direct" 0 None false 0) as (g & E' & Hsh & Hg);
    try (repeat split; try lia; discriminate); try lia; try reflexivity; try discriminate; auto; [left; left; reflexivity|].
  rewrite Ea in E'. injection E' as <-.
  assert (C : get a [0; 0] = get a [0; 1]).
  { transitivity (synth 1 0 (used_coefficients false 0 0 (stored 1 (one_by_one (RtoC 1)))) (mwss_theta 1 0) (longitude MWSS 1 0 0 0));
      [apply (Hg 0 0); cbn; auto; lia|]. symmetry. 
    transitivity (synth 1 0 (used_coefficients false 0 0 (stored 1 (one_by_one (RtoC 1)))) (mwss_theta 1 0) (longitude MWSS 1 0 0 1));
      [apply (Hg 0 1); cbn; auto; lia|].
    unfold synth. change (zrange (Z.abs 0) 1) with [0]. cbn [suml fold_right]. change (zrange (- 0) (0 + 1)) with [0]. cbn [suml fold_right].
    unfold sYlm. do 5 f_equal. unfold cis. rewrite !Rmult_0_l. reflexivity. }
  rewrite !Eq in C by (rewrite Hsh; cbn; lia). rewrite H1 in C. apply H2.
  destruct (get f [0; 0]) as [x y]. unfold Copp, RtoC in *. cbn in C. injection C. intros. f_equal; lra.
Qed.
Print Assumptions C21_case_refuted.

(** With the reality flag the FFT method ignores the imaginary part of the coefficients of order 0,
    the sums do not. *)
Theorem C21_reality_refuted gl : exists flm L, setting "mw" MW L 0 None /\ 0 <= 0 < L /\ shape flm = [L; 2 * L - 1] /\
  rings_away (vat (gl_nodes gl L)) MW L 0 /\
  ~ same_ok (inverse_ gl flm L 0 "mw" "direct" None true 0) (inverse_ gl flm L 0 "mw" "sov_fft" None true 0).
Proof.
  assert (A : rings_away (vat (gl_nodes gl 1)) MW 1 0) by (apply small_away; cbn; lia).
  exists (one_by_one Ci), 1. split; [repeat split; try lia; discriminate|]. split; [lia|]. split; [reflexivity|]. split; [exact A|].
  intros (a & b & Ea & Eb & Es & Eq).
  destruct (imaginary_dropped gl) as (f & E & H1). rewrite E in Eb. injection Eb as <-.
  destruct (synthesis_lemma gl "mw" MW (one_by_one Ci) 1 0 "direct" 0 None true 0) as (g & E' & Hsh & Hg);
    try (repeat split; try lia; discriminate); try lia; try reflexivity; try discriminate; auto; [left; left; reflexivity|].
  rewrite Ea in E'. injection E' as <-.
  rewrite <- Eq in H1 by (rewrite Hsh; cbn; lia). pose proof (Hg 0 0 (mw_theta 1 0) ltac:(cbn; lia) ltac:(cbn; lia) eq_refl) as Q. cbn [sample_index] in Q. rewrite Q in H1.
  unfold synth in H1. change (zrange (Z.abs 0) 1) with [0] in H1. cbn [suml fold_right] in H1. change (zrange (- 0) (0 + 1)) with [0] in H1. cbn [suml fold_right] in H1.
  unfold sYlm in H1. change (- 0) with 0 in H1. rewrite wig_00 in H1. unfold cis in H1. rewrite Rmult_0_l, cos_0, sin_0 in H1.
  assert (P := elf_pos). unfold elfactor in P. change (2 * 0 + 1) with 1 in *. set (r := sqrt (1 / (4 * PI))) in *. change (sgn 0) with 1%R in H1.
  unfold used_coefficients, above, real_extension, stored, one_by_one in H1. cbn in H1. unfold is_real, Im, Cmult, Cplus, Ci, RtoC in H1. cbn in H1. lra.
Qed.
Print Assumptions C21_reality_refuted.

(** ** C22: the forward methods agree *)
Theorem C22_agree gl name s f L spin method method' nside o reality Lo :
  setting name s L nside o -> 0 <= Lo < L -> shape f = map_shape s L nside ->
  rule_sizes s L (gl_nodes gl L) (gl_weights gl L) -> forward_rings_away (vat (gl_nodes gl L)) s L nside ->
  forward_allowed name method s L nside -> forward_allowed name method' s L nside ->
  (reality = true -> spin = 0 -> real_map (vat (gl_nodes gl L)) s L nside spin f) ->
  same_ok (forward_ gl f L spin name method o reality Lo) (forward_ gl f L spin name method' o reality Lo).
Proof.
  intros S HLo Hf Hg Ha H H' Hr. apply (forward_same gl name name s f L spin method method' nside o o); auto.
  rewrite Bool.orb_diag. exact Hr.
Qed.
Print Assumptions C22_agree.
Example C22_ex : setting "MW" MW 3 0 None /\ forward_allowed "MW" "sov_fft" MW 3 0 /\ forward_rings_away (fun _ => 0%R) MW 3 0.
Proof.
  split; [repeat split; try lia; discriminate|]. split; [|apply small_forward; cbn; lia].
  right. split; [left; reflexivity|]. split; [auto|discriminate].
Qed.

(** Real mwss samples that do not come from a signal of band-limit L: the resampled map is complex;
    the direct method uses it as it is, the FFT method drops its imaginary part. *)
Theorem C22_reality_refuted gl : exists f L, setting "mwss" MWSS L 0 None /\ 0 <= 0 < L /\ shape f = map_shape MWSS L 0 /\
  forward_rings_away (vat (gl_nodes gl L)) MWSS L 0 /\ (forall ix, in_shape (shape f) ix -> is_real (get f ix)) /\
  ~ same_ok (forward_ gl f L 0 "mwss" "direct" None true 0) (forward_ gl f L 0 "mwss" "sov_fft" None true 0).
Proof.
  exists corner, 1. split; [repeat split; try lia; discriminate|]. split; [lia|]. split; [reflexivity|].
  split; [apply small_forward; cbn; lia|]. split.
  - intros ix _. unfold corner, mat. cbn [get]. destruct (_ && _); reflexivity.
  - intros (a & b & Ea & Eb & Es & Eq). destruct (corner_direct gl) as (a' & Ea' & Sa & Ha). rewrite Ea in Ea'. injection Ea' as <-.
    destruct (corner_fft gl) as (b' & Eb' & Hb). rewrite Eb in Eb'. injection Eb' as <-.
    apply Ha. rewrite Eq; [exact Hb|].
    rewrite Sa. cbn. lia.
Qed.
Print Assumptions C22_reality_refuted.

(** ** C24, C25, C26: round trips *)
Section RoundTrips.
Variable gl : gl_rule.
Let nodes L := vat (gl_nodes gl L).

Lemma round s name flm L spin minv mfwd o reality Lo :
  s <> HEALPIX -> denotes name s -> 1 <= L -> 0 <= Lo < L -> shape flm = [L; 2 * L - 1] ->
  (s = GL -> gauss_legendre L (gl_nodes gl L) (gl_weights gl L)) -> small_grid (nodes L) s L 0 ->
  (sum_method minv \/ fft_method minv /\ name = scheme_name s) ->
  (sum_method mfwd \/ fft_method mfwd /\ (s = MW \/ s = MWSS \/ name = scheme_name s)) ->
  (reality = true -> spin = 0 -> hermitian L (stored L flm)) ->
  exists f flm', inverse_ gl flm L spin name minv o reality Lo = Ok f /\ forward_ gl f L spin name mfwd o reality Lo = Ok flm' /\
    holds_coefficients L flm' (restricted Lo spin (stored L flm)).
Proof.
  intros Hs Hd HL HLo Hf Hg Ha Hi Hw Hr. apply (roundtrip_lemma gl name s flm L spin minv mfwd 0); auto.
  - repeat split; auto; congruence.
  - intros E. destruct (Hg E) as (H1 & H2 & _). auto.
  - now apply small_away.
  - now apply small_forward.
  - destruct Hw as [Hw|(Hw & H)]; [left; exact Hw|right; repeat split; auto; congruence].
Qed.
End RoundTrips.

Theorem C24_mw_round_trip gl s name flm L spin minv mfwd o reality Lo :
  s = MW \/ s = MWSS -> denotes name s -> 1 <= L <= 20000 -> 0 <= Lo < L -> shape flm = [L; 2 * L - 1] ->
  (sum_method minv \/ fft_method minv /\ name = scheme_name s) -> (sum_method mfwd \/ fft_method mfwd) ->
  (reality = true -> spin = 0 -> hermitian L (stored L flm)) ->
  exists f flm', inverse_ gl flm L spin name minv o reality Lo = Ok f /\ forward_ gl f L spin name mfwd o reality Lo = Ok flm' /\
    holds_coefficients L flm' (restricted Lo spin (stored L flm)).
Proof.
  intros Hs Hd HL HLo Hf Hi Hw Hr. apply (round gl s); auto; try lia; destruct Hs as [-> | ->]; try discriminate; auto; tauto.
Qed.
Print Assumptions C24_mw_round_trip.

Theorem C25_dh_round_trip gl name flm L spin minv mfwd o reality Lo :
  denotes name DH -> 1 <= L <= 20000 -> 0 <= Lo < L -> shape flm = [L; 2 * L - 1] ->
  (sum_method minv \/ fft_method minv /\ name = scheme_name DH) -> (sum_method mfwd \/ fft_method mfwd /\ name = scheme_name DH) ->
  (reality = true -> spin = 0 -> hermitian L (stored L flm)) ->
  exists f flm', inverse_ gl flm L spin name minv o reality Lo = Ok f /\ forward_ gl f L spin name mfwd o reality Lo = Ok flm' /\
    holds_coefficients L flm' (restricted Lo spin (stored L flm)).
Proof. intros Hd HL HLo Hf Hi Hw Hr. apply (round gl DH); auto; try lia; try discriminate. tauto. Qed.
Print Assumptions C25_dh_round_trip.

Theorem C26_gl_round_trip gl name flm L spin minv mfwd o reality Lo :
  denotes name GL -> 1 <= L -> gauss_legendre L (gl_nodes gl L) (gl_weights gl L) -> small_grid (vat (gl_nodes gl L)) GL L 0 ->
  0 <= Lo < L -> shape flm = [L; 2 * L - 1] ->
  (sum_method minv \/ fft_method minv /\ name = scheme_name GL) -> (sum_method mfwd \/ fft_method mfwd /\ name = scheme_name GL) ->
  (reality = true -> spin = 0 -> hermitian L (stored L flm)) ->
  exists f flm', inverse_ gl flm L spin name minv o reality Lo = Ok f /\ forward_ gl f L spin name mfwd o reality Lo = Ok flm' /\
    holds_coefficients L flm' (restricted Lo spin (stored L flm)).
Proof. intros Hd HL Hg Ha HLo Hf Hi Hw Hr. apply (round gl GL); auto; try discriminate. tauto. Qed.
Print Assumptions C26_gl_round_trip.

(** For admissible coefficients the round trip is the identity. *)
Theorem C24_identity gl s name flm L spin minv mfwd o reality Lo :
  s = MW \/ s = MWSS -> denotes name s -> 1 <= L <= 20000 -> 0 <= Lo < L -> shape flm = [L; 2 * L - 1] ->
  (sum_method minv \/ fft_method minv /\ name = scheme_name s) -> (sum_method mfwd \/ fft_method mfwd) ->
  (reality = true -> spin = 0 -> hermitian L (stored L flm)) ->
  (forall el m, 0 <= el < L -> - L < m < L -> ~ admissible Lo spin L el m -> stored L flm el m = RtoC 0) ->
  exists f flm', inverse_ gl flm L spin name minv o reality Lo = Ok f /\ forward_ gl f L spin name mfwd o reality Lo = Ok flm' /\
    arr_eq flm' flm.
Proof.
  intros Hs Hd HL HLo Hf Hi Hw Hr Ha.
  destruct (C24_mw_round_trip gl s name flm L spin minv mfwd o reality Lo) as (f & flm' & E & E' & H); auto.
  exists f, flm'. split; [exact E|]. split; [exact E'|]. apply (holds_same L _ _ (restricted Lo spin (stored L flm))); auto; try lia.
  split; [exact Hf|]. intros el m Hel Hm. unfold restricted.
  destruct (Z.leb_spec (Z.max Lo (Z.abs spin)) el); [destruct (Z.leb_spec (Z.abs m) el)|]; cbn [andb]; auto;
    apply Ha; auto; unfold admissible; lia.
Qed.
Print Assumptions C24_identity.

(** The forward transform finds the coefficients of a band-limited signal from its samples. *)
Theorem C24_analysis gl name s f L spin method nside o reality Lo c :
  setting name s L nside o -> s <> HEALPIX -> 0 <= Lo < L -> (s = GL -> gauss_legendre L (gl_nodes gl L) (gl_weights gl L)) ->
  forward_rings_away (vat (gl_nodes gl L)) s L nside -> forward_allowed name method s L nside ->
  (reality = true -> spin = 0 -> hermitian L c) ->
  holds_samples (vat (gl_nodes gl L)) s L nside f (synth L spin c) ->
  exists flm, forward_ gl f L spin name method o reality Lo = Ok flm /\ holds_coefficients L flm (restricted Lo spin c).
Proof.
  intros S Hs HLo Hg. apply recover_lemma; auto. intros E. destruct (Hg E) as (H1 & H2 & _). auto.
Qed.
Print Assumptions C24_analysis.

Definition admissible4 : ndarray C := mat 4 7 (fun el q => if (2 <=? el) && (Z.abs (q - 3) <=? el) then (RtoC (IZR (el * q)) + Ci)%C else RtoC 0).
Example C24_ex : denotes "MWSS" MWSS /\ 1 <= 4 <= 20000 /\ 0 <= 1 < 4 /\ shape admissible4 = [4; 2 * 4 - 1] /\
  sum_method "sov" /\ fft_method "sov_fft" /\
  (forall el m, 0 <= el < 4 -> - 4 < m < 4 -> ~ admissible 1 (-2) 4 el m -> stored 4 admissible4 el m = RtoC 0) /\
  stored 4 admissible4 3 (-2) <> RtoC 0.
Proof.
  repeat split; auto; try lia; [right; reflexivity|left; reflexivity| |].
  - intros el m Hel Hm Hn. unfold stored, admissible4, mat. cbn [get nth].
    destruct (Z.leb_spec 2 el); [|reflexivity]. destruct (Z.leb_spec (Z.abs (m + 4 - 1 - 3)) el); [|reflexivity].
    exfalso. apply Hn. unfold admissible. lia.
  - unfold stored, admissible4, mat. cbn. intros E. injection E. intros. lra.
Qed.
Definition real2 : ndarray C := mat 2 3 (fun el q => if q =? 1 then RtoC (IZR (el + 1)) else if q =? 0 then RtoC (-7) else RtoC 7).
Example real2_hermitian : hermitian 2 (stored 2 real2).
Proof.
  intros el m Hel Hm. assert (m = 0 \/ (m = 1 \/ m = -1)) as [-> | [-> | ->]] by lia; unfold stored, real2, mat; cbn [get nth];
    unfold Cconj, RtoC, Cmult; cbn; f_equal; unfold sgn; cbn; ring.
Qed.
Example C26_ex : denotes "GL" GL /\ 1 <= 2 /\ gauss_legendre 2 (gl_nodes gl2 2) (gl_weights gl2 2) /\
  small_grid (vat (gl_nodes gl2 2)) GL 2 0 /\ 0 <= 0 < 2 /\ shape real2 = [2; 2 * 2 - 1] /\ hermitian 2 (stored 2 real2).
Proof.
  split; [reflexivity|]. split; [lia|]. split; [exact gl2_exact|]. split; [exact (proj1 C23_small_ex)|]. split; [lia|].
  split; [reflexivity|]. exact real2_hermitian.
Qed.
Example C24_analysis_ex : exists f, holds_samples (fun _ => 0%R) MW 3 0 f (synth 3 (-1) (fun el m => RtoC (IZR (el - m)))).
Proof.
  exists (mat 3 5 (fun t p => synth 3 (-1) (fun el m => RtoC (IZR (el - m))) (mw_theta 3 t) (longitude MW 3 0 t p))).
  split; [reflexivity|]. intros t p x Ht Hp ->. reflexivity.
Qed.

(** ** C30: linearity *)
Theorem C30_inverse gl name s L spin method nside o reality Lo x y flm1 flm2 flm :
  setting name s L nside o -> 0 <= Lo < L -> shape flm = [L; 2 * L - 1] -> combination x y flm1 flm2 flm ->
  (s = GL -> vlen (gl_nodes gl L) = L) -> rings_away (vat (gl_nodes gl L)) s L nside ->
  method_allowed name method s L nside spin reality flm1 -> method_allowed name method s L nside spin reality flm2 ->
  (reality = true -> spin = 0 -> is_real x /\ is_real y) ->
  exists f1 f2 f, inverse_ gl flm1 L spin name method o reality Lo = Ok f1 /\ inverse_ gl flm2 L spin name method o reality Lo = Ok f2 /\
    inverse_ gl flm L spin name method o reality Lo = Ok f /\ combination x y f1 f2 f.
Proof. apply inverse_linear. Qed.
Print Assumptions C30_inverse.

Theorem C30_forward gl name s L spin method nside o reality Lo x y f1 f2 f :
  setting name s L nside o -> 0 <= Lo < L -> shape f = map_shape s L nside -> combination x y f1 f2 f ->
  rule_sizes s L (gl_nodes gl L) (gl_weights gl L) -> forward_rings_away (vat (gl_nodes gl L)) s L nside ->
  forward_allowed name method s L nside ->
  (reality = true -> spin = 0 -> is_real x /\ is_real y /\ real_map (vat (gl_nodes gl L)) s L nside spin f1 /\
     real_map (vat (gl_nodes gl L)) s L nside spin f2) ->
  exists flm1 flm2 flm, forward_ gl f1 L spin name method o reality Lo = Ok flm1 /\ forward_ gl f2 L spin name method o reality Lo = Ok flm2 /\
    forward_ gl f L spin name method o reality Lo = Ok flm /\ combination x y flm1 flm2 flm.
Proof. apply forward_linear. Qed.
Print Assumptions C30_forward.
Example C30_ex : combination (RtoC 2) Ci flm4 admissible4
  (mat 4 7 (fun el q => (RtoC 2 * get flm4 [el; q] + Ci * get admissible4 [el; q])%C)).
Proof.
  split; [reflexivity|]. split; [reflexivity|]. intros ix Hix. cbn [shape mat] in Hix.
  destruct ix as [|a [|b [|c ix]]]; cbn [in_shape] in Hix; tauto || reflexivity.
Qed.

(** ** C31: real signals *)
Theorem C31_inverse gl name s flm L method nside o Lo :
  setting name s L nside o -> 0 <= Lo < L -> shape flm = [L; 2 * L - 1] -> (s = GL -> vlen (gl_nodes gl L) = L) ->
  rings_away (vat (gl_nodes gl L)) s L nside ->
  (sum_method method \/ fft_method method /\ name = scheme_name s /\ (s = HEALPIX -> 2 * nside <= L)) ->
  hermitian L (stored L flm) ->
  exists f f', inverse_ gl flm L 0 name method o true Lo = Ok f /\ inverse_ gl flm L 0 name method o false Lo = Ok f' /\
    arr_eq f f' /\ forall ix, in_shape (shape f) ix -> is_real (get f ix).
Proof. apply inverse_real. Qed.
Print Assumptions C31_inverse.

Theorem C31_forward gl name s f L method nside o Lo :
  setting name s L nside o -> 0 <= Lo < L -> shape f = map_shape s L nside -> rule_sizes s L (gl_nodes gl L) (gl_weights gl L) ->
  forward_rings_away (vat (gl_nodes gl L)) s L nside -> forward_allowed name method s L nside ->
  real_map (vat (gl_nodes gl L)) s L nside 0 f ->
  exists flm flm', forward_ gl f L 0 name method o true Lo = Ok flm /\ forward_ gl f L 0 name method o false Lo = Ok flm' /\
    arr_eq flm flm' /\ hermitian L (stored L flm).
Proof. apply forward_real. Qed.
Print Assumptions C31_forward.
Example C31_ex : hermitian 2 (stored 2 real2) /\ real_map (fun _ => 0%R) HEALPIX 4 1 0 (mkArr [12] (fun ix => RtoC (IZR (nth 0 ix 0)))).
Proof. split; [exact real2_hermitian|]. intros ix _. reflexivity. Qed.
Example C31_mw_ex : exists f, real_map (fun _ => 0%R) MW 2 0 0 f /\ shape f = map_shape MW 2 0.
Proof.
  set (F := synth 2 0 (stored 2 real2)).
  exists (mat 2 3 (fun t p => F (mw_theta 2 t) (longitude MW 2 0 t p))). split; [|reflexivity].
  exists F. split; [split|].
  - split; [reflexivity|]. intros t p x Ht Hp ->. reflexivity.
  - intros _. apply SphereTheory.synth_band_limited.
  - intros. apply synth_real, real2_hermitian.
Qed.

(** ** C32: only admissible coefficients matter *)
Theorem C32_inverse gl name s flm flm' L spin method nside o reality Lo :
  setting name s L nside o -> 0 <= Lo < L -> shape flm = [L; 2 * L - 1] -> shape flm' = [L; 2 * L - 1] ->
  (s = GL -> vlen (gl_nodes gl L) = L) -> rings_away (vat (gl_nodes gl L)) s L nside ->
  method_allowed name method s L nside spin reality flm -> method_allowed name method s L nside spin reality flm' ->
  (forall el m, admissible Lo spin L el m -> stored L flm el m = stored L flm' el m) ->
  same_ok (inverse_ gl flm L spin name method o reality Lo) (inverse_ gl flm' L spin name method o reality Lo).
Proof. apply inverse_mask. Qed.
Print Assumptions C32_inverse.

Theorem C32_forward gl name s f L spin method nside o reality Lo :
  setting name s L nside o -> 0 <= Lo < L -> shape f = map_shape s L nside -> rule_sizes s L (gl_nodes gl L) (gl_weights gl L) ->
  forward_rings_away (vat (gl_nodes gl L)) s L nside -> forward_allowed name method s L nside ->
  (reality = true -> spin = 0 -> real_map (vat (gl_nodes gl L)) s L nside spin f) ->
  exists flm, forward_ gl f L spin name method o reality Lo = Ok flm /\ shape flm = [L; 2 * L - 1] /\
    forall el m, 0 <= el < L -> - L < m < L -> ~ admissible Lo spin L el m -> stored L flm el m = RtoC 0.
Proof. apply forward_mask. Qed.
Print Assumptions C32_forward.
Example C32_ex : stored 4 flm4 1 0 <> stored 4 admissible4 1 0 /\
  (forall el m, admissible 2 0 4 el m -> stored 4 admissible4 el m = stored 4 (mat 4 7 (fun el q => (RtoC (IZR (el * q)) + Ci)%C)) el m).
Proof.
  split; [unfold stored, flm4, admissible4, mat; cbn; intros E; injection E; lra|].
  intros el m (H1 & H2). unfold stored, admissible4, mat. cbn [get nth].
  destruct (Z.leb_spec 2 el); [|lia]. destruct (Z.leb_spec (Z.abs (m + 4 - 1 - 3)) el); [reflexivity|lia].
Qed.

(** ** C33: invalid calls are rejected *)
Theorem C33_inverse_shape gl flm L spin name method o reality Lo :
  (shape flm <> [L; 2 * L - 1] \/ L <= 0 \/ Lo < 0 \/ L <= Lo) ->
  inverse_ gl flm L spin name method o reality Lo = Err AssertionError.
Proof. apply inverse_rejects. Qed.
Print Assumptions C33_inverse_shape.
Theorem C33_forward_shape gl f L spin name s method nside o reality Lo :
  denotes name s -> (s = HEALPIX -> o = Some nside) ->
  (shape f <> map_shape s L nside \/ L <= 0 \/ Lo < 0 \/ L <= Lo) ->
  forward_ gl f L spin name method o reality Lo = Err AssertionError.
Proof. apply forward_rejects. Qed.
Print Assumptions C33_forward_shape.
Theorem C33_inverse_method gl name s flm L spin method nside o reality Lo :
  setting name s L nside o -> 0 <= Lo < L -> shape flm = [L; 2 * L - 1] -> (s = GL -> vlen (gl_nodes gl L) = L) ->
  ~ sum_method method -> ~ fft_method method ->
  inverse_ gl flm L spin name method o reality Lo = Err KeyError.
Proof. apply inverse_unknown_method. Qed.
Print Assumptions C33_inverse_method.
Theorem C33_forward_method gl name s f L spin method nside o reality Lo :
  setting name s L nside o -> 0 <= Lo < L -> shape f = map_shape s L nside -> rule_sizes s L (gl_nodes gl L) (gl_weights gl L) ->
  ~ sum_method method -> ~ fft_method method ->
  forward_ gl f L spin name method o reality Lo = Err KeyError.
Proof. apply forward_unknown_method. Qed.
Print Assumptions C33_forward_method.
Example C33_ex : shape flm4 <> [5; 2 * 5 - 1] /\ ~ sum_method "fft" /\ ~ fft_method "fft" /\ setting "dh" DH 4 0 None.
Proof.
  split; [discriminate|]. split; [intros [H|H]; discriminate|]. split; [intros [H|H]; discriminate|].
  repeat split; auto; try lia; discriminate.
Qed.

(** ** C44: Parseval *)
Theorem C44_parseval gl name s flm L spin method nside o reality Lo :
  setting name s L nside o -> s = DH \/ s = GL -> 0 <= Lo < L -> shape flm = [L; 2 * L - 1] ->
  (s = GL -> gauss_legendre L (gl_nodes gl L) (gl_weights gl L)) -> small_grid (vat (gl_nodes gl L)) s L nside ->
  (sum_method method \/ fft_method method /\ name = scheme_name s) ->
  (reality = true -> spin = 0 -> hermitian L (stored L flm)) ->
  exists f w, inverse_ gl flm L spin name method o reality Lo = Ok f /\ quad_weights gl L name spin o = Ok w /\
    map_power (rings s L nside) (per_ring s L) w f = coefficient_power Lo spin L (stored L flm).
Proof. intros S Hs HLo Hf Hg Ha. apply parseval_lemma; auto. now apply small_away. Qed.
Print Assumptions C44_parseval.
Example C44_ex : setting "gl" GL 2 0 None /\ gauss_legendre 2 (gl_nodes gl2 2) (gl_weights gl2 2) /\
  small_grid (vat (gl_nodes gl2 2)) GL 2 0 /\ shape real2 = [2; 2 * 2 - 1] /\ hermitian 2 (stored 2 real2).
Proof.
  split; [repeat split; auto; try lia; discriminate|]. split; [exact gl2_exact|]. split; [exact (proj1 C23_small_ex)|].
  split; [reflexivity|exact real2_hermitian].
Qed.
