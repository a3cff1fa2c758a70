(** C37: the Fourier-Wigner transforms on the rotation group. *)
From Coq Require Import Reals Lra.
From Coquelicot Require Import Complex.
From Verif Require Import Lib.Py Lib.PyFacts Lib.Vec Lib.Sums Lib.Cplx Lib.Arr Lib.ArrFacts
  Model.Samples Model.Grids Model.Resampling Model.Quadrature Model.Spherical Model.Wigner Model.FourierWigner
  Spec.SamplesSpec Spec.WignerSpec Spec.SphereSpec Spec.GridSpec Spec.HealpixFFTSpec Spec.SphericalSpec Spec.SO3Spec Spec.FourierWignerSpec
  Proofs.SphAngles Proofs.SphRound Proofs.SphFacts Proofs.WignerRound Proofs.WignerReal Proofs.FWArrays Proofs.FWInverse Proofs.FWForward Properties.WignerProps.
Open Scope string_scope.
Open Scope Z_scope.

(** The Wigner d-functions of all angles from the matrices at pi/2. *)
Theorem C37_expansion l m n x : 0 <= l ->
  RtoC (wigner_d l m n x) =
  csum (zrange (- l) (l + 1)) (fun a => (cis (IZR (n - m) * (PI / 2)) * RtoC (wigner_d l a m (PI / 2)) * RtoC (wigner_d l a n (PI / 2)) * cis (IZR a * x))%C).
Proof.
  intros Hl. pose proof (wigner_fourier_ext (l + 1) l m n x ltac:(lia)) as H. replace (- (l + 1 - 1)) with (- l) in H by lia.
  transitivity (cis (IZR (n - m) * (PI / 2)) * (ipow (m - n) * RtoC (wigner_d l m n x)))%C.
  - rewrite <- ipow_cis. replace (n - m) with (- (m - n)) by lia.
    transitivity (ipow (m - n) * ipow (- (m - n)) * RtoC (wigner_d l m n x))%C; [rewrite ipow_inv; ring|ring].
  - rewrite <- H, <- cs_scal_l. apply cr_ext. intros a Ha. ring.
Qed.
Print Assumptions C37_expansion.

(** fourier_wigner_kernel computes those matrices and the weights of the upsampled circle. *)
Theorem C37_kernel b L : 1 <= L ->
  exists delta q, fourier_wigner_kernel b L = Ok (delta, q) /\ quarter_matrices L delta /\ upsampled_weights L q.
Proof. intros H. destruct (kernel_ok b L H) as (delta & q & E & H1 & H2). exists delta, q. auto. Qed.
Print Assumptions C37_kernel.

(** The inverse transform samples the expansion in Wigner D-functions. *)
Theorem C37_inverse b s name flmn L N precomps reality :
  fw_scheme s -> denotes name s -> 1 <= N <= L -> shape flmn = [2 * N - 1; L; 2 * L - 1] -> fw_inputs L precomps ->
  (reality = true -> hermitian3 L N (stored3 L N flmn)) ->
  exists f, fw_inverse b flmn L N precomps reality name = Ok f /\
    so3_holds (fun _ => 0%R) s L N 0 f (so3_synth L N (stored3 L N flmn)).
Proof. intros Hs Hd HN Hf Hp Hr. apply fw_inverse_lemma; auto. destruct precomps as [[d q]|]; [apply Hp|exact I]. Qed.
Print Assumptions C37_inverse.

(** The forward transform recovers the coefficients of such a signal. *)
Theorem C37_forward b s name f c L N precomps reality :
  fw_scheme s -> denotes name s -> 1 <= N <= L -> (s = MWSS -> 2 <= L) -> fw_inputs L precomps ->
  (reality = true -> hermitian3 L N c) ->
  so3_holds (fun _ => 0%R) s L N 0 f (so3_synth L N c) ->
  exists flmn, fw_forward b f L N precomps reality name = Ok flmn /\ holds_coefficients3 L N flmn (restricted3 0 c).
Proof. intros. eapply fw_forward_lemma; eauto. Qed.
Print Assumptions C37_forward.

(** Round trip; the back end, the flag and the precomputed inputs may differ between the two calls. *)
Theorem C37_round_trip b b' s name name' flmn L N precomps precomps' reality reality' :
  fw_scheme s -> denotes name s -> denotes name' s -> 1 <= N <= L -> (s = MWSS -> 2 <= L) -> shape flmn = [2 * N - 1; L; 2 * L - 1] ->
  fw_inputs L precomps -> fw_inputs L precomps' ->
  (reality || reality' = true -> hermitian3 L N (stored3 L N flmn)) ->
  (forall n l m, - N < n < N -> 0 <= l < L -> - L < m < L -> l < Z.abs n \/ l < Z.abs m -> stored3 L N flmn n l m = RtoC 0) ->
  exists f flmn', fw_inverse b flmn L N precomps reality name = Ok f /\
    fw_forward b' f L N precomps' reality' name' = Ok flmn' /\ arr_eq flmn' flmn.
Proof.
  intros Hs Hd Hd' HN HL Hf Hp Hp' Hr H0.
  destruct (C37_inverse b s name flmn L N precomps reality Hs Hd HN Hf Hp) as (f & E & HF); [intros ->; auto|].
  destruct (C37_forward b' s name' f (stored3 L N flmn) L N precomps' reality' Hs Hd' HN HL Hp') as (a & E' & HA); [intros ->; apply Hr; apply Bool.orb_true_r|exact HF|].
  exists f, a. split; [exact E|]. split; [exact E'|]. apply (holds_same3 L N _ _ _ HA). split; [exact Hf|]. intros n l m H1 H2 H3. unfold restricted3.
  destruct (Z.leb_spec (Z.max 0 (Z.abs n)) l); [destruct (Z.leb_spec (Z.abs m) l)|]; cbn [andb]; auto; apply H0; auto; lia.
Qed.
Print Assumptions C37_round_trip.

(** The same samples as the reference Wigner transform. *)
Theorem C37_agrees gl b s flmn L N nside precomps reality :
  fw_scheme s -> setting (scheme_name s) s L nside None -> rings_away (vat (gl_nodes gl L)) s L nside ->
  1 <= N <= L -> shape flmn = [2 * N - 1; L; 2 * L - 1] -> fw_inputs L precomps ->
  (reality = true -> hermitian3 L N (stored3 L N flmn)) ->
  exists f f', fw_inverse b flmn L N precomps reality (scheme_name s) = Ok f /\
    wigner_inverse gl flmn L N 0 (scheme_name s) reality None = Ok f' /\ arr_eq f f'.
Proof.
  intros Hs S Ha HN Hf Hp Hr.
  destruct (fw_inverse_lemma b s (scheme_name s) L N flmn precomps reality (vat (gl_nodes gl L)) nside) as (f & E & HF); auto.
  - destruct Hs as [-> | ->]; reflexivity.
  - destruct precomps as [[d q]|]; [apply Hp|exact I].
  - destruct (C34_synthesis gl s flmn L N 0 nside None reality S ltac:(lia) ltac:(lia) Hf) as (f' & E' & HF'); auto.
    + destruct Hs as [-> | ->]; discriminate.
    + destruct Hs as [-> | ->]; discriminate.
    + intros Ht l Hl. apply (herm3_real L N); auto. lia.
    + exists f, f'. split; [exact E|]. split; [exact E'|]. apply (so3_holds_eq gl s L N nside None f f' _ _ S Ha HF HF').
      intros alpha beta g. apply so3_synth_ext. intros n l m H1 H2 H3. destruct reality.
      * rewrite (used3_herm L N 0 _ n l m true (Hr eq_refl)) by auto. unfold used3. destruct (Z.ltb_spec l 0); [lia|reflexivity].
      * unfold used3. destruct (Z.ltb_spec l 0); [lia|reflexivity].
Qed.
Print Assumptions C37_agrees.

(** The same coefficients as the reference Wigner transform, for band-limited signals. *)
Theorem C37_agrees_forward gl b s f c L N nside precomps reality :
  fw_scheme s -> setting (scheme_name s) s L nside None -> small_grid (vat (gl_nodes gl L)) s L nside ->
  1 <= N <= L -> (s = MWSS -> 2 <= L) -> fw_inputs L precomps -> (reality = true -> hermitian3 L N c) ->
  so3_holds (vat (gl_nodes gl L)) s L N nside f (so3_synth L N c) ->
  exists a a', fw_forward b f L N precomps reality (scheme_name s) = Ok a /\
    wigner_forward gl f L N 0 (scheme_name s) reality None = Ok a' /\ arr_eq a a'.
Proof.
  intros Hs S Ha HN HL Hp Hr HF.
  destruct (fw_forward_lemma b s (scheme_name s) L N c f precomps reality (vat (gl_nodes gl L)) nside) as (a & E & HA); auto.
  - destruct Hs as [-> | ->]; reflexivity.
  - destruct (C34_analysis gl s f L N 0 nside None reality c S) as (a' & E' & HA'); auto; try lia.
    + destruct Hs as [-> | ->]; discriminate.
    + destruct Hs as [-> | ->]; discriminate.
    + exists a, a'. split; [exact E|]. split; [exact E'|]. apply (holds_same3 L N _ _ _ HA HA').
Qed.
Print Assumptions C37_agrees_forward.

(** Other samplings are rejected. *)
Theorem C37_rejects b s name a L N precomps reality : denotes name s -> ~ fw_scheme s ->
  fw_inverse b a L N precomps reality name = Err ValueError /\ fw_forward b a L N precomps reality name = Err ValueError.
Proof.
  intros Hd Hs. unfold fw_inverse, fw_forward. rewrite Hd.
  destruct s; [exfalso; apply Hs; now left|exfalso; apply Hs; now right|split; reflexivity|split; reflexivity|split; reflexivity].
Qed.
Print Assumptions C37_rejects.

(** The round trip fails for L = 1 with the MWSS sampling: the forward transform raises. *)
Theorem C37_round_trip_refuted : exists flmn f, shape flmn = [1; 1; 1] /\ hermitian3 1 1 (stored3 1 1 flmn) /\
  forall b precomps reality, fw_inputs 1 precomps ->
    (exists f', fw_inverse b flmn 1 1 precomps reality "mwss" = Ok f' /\ arr_eq f' f) /\
    fw_forward b f 1 1 precomps reality "mwss" = Err ValueError.
Proof.
  set (flmn := mkArr [1; 1; 1] (fun _ => RtoC 1)).
  assert (HH : hermitian3 1 1 (stored3 1 1 flmn)).
  { intros n l m Hn Hl Hm. cbn. replace (m + n) with 0 by lia. rewrite sgn_0. apply C_eq; cbn; ring. }
  destruct (fw_inverse_lemma numpy MWSS "mwss" 1 1 flmn None true (fun _ => 0%R) 0) as (f & E & HF); auto; try reflexivity.
  - right. reflexivity.
  - lia.
  - exists flmn, f. split; [reflexivity|]. split; [exact HH|]. intros b precomps reality Hp. split.
    + destruct (fw_inverse_lemma b MWSS "mwss" 1 1 flmn precomps reality (fun _ => 0%R) 0) as (f' & E' & HF'); auto; try reflexivity.
      * right. reflexivity.
      * lia.
      * destruct precomps as [[d q]|]; [apply Hp|exact I].
      * exists f'. split; [exact E'|]. destruct HF as [S1 G1], HF' as [S2 G2]. split; [congruence|]. intros ix Hix. rewrite S2 in Hix.
        destruct ix as [|g [|t [|p [|]]]]; cbn in Hix; try tauto. 
        specialize (G1 g t p (mwss_theta 1 t) ltac:(tauto) ltac:(tauto) ltac:(tauto) eq_refl). cbn in G1. 
        specialize (G2 g t p (mwss_theta 1 t) ltac:(tauto) ltac:(tauto) ltac:(tauto) eq_refl). cbn in G2. now rewrite G1, G2.
    + apply (fw_forward_single b f (stored3 1 1 flmn) precomps reality (fun _ => 0%R) 0); auto.
Qed.
Print Assumptions C37_round_trip_refuted.

(** Coefficients of a real signal with L = 3, N = 2, for both samplings, with and without precomputation. *)
Example C37_ex : exists delta q,
  fw_scheme MW /\ fw_scheme MWSS /\ denotes "MW" MW /\ denotes "mwss" MWSS /\ 1 <= 2 <= 3 /\ shape flmn3 = [2 * 2 - 1; 3; 2 * 3 - 1] /\
  fw_inputs 3 None /\ fw_inputs 3 (Some (delta, q)) /\ hermitian3 3 2 (stored3 3 2 flmn3) /\
  (forall n l m, - 2 < n < 2 -> 0 <= l < 3 -> - 3 < m < 3 -> l < Z.abs n \/ l < Z.abs m -> stored3 3 2 flmn3 n l m = RtoC 0) /\
  stored3 3 2 flmn3 1 2 (-1) <> RtoC 0 /\ stored3 3 2 flmn3 1 2 (-1) <> stored3 3 2 flmn3 1 2 0 /\
  (exists f, fw_inverse jax flmn3 3 2 (Some (delta, q)) true "MW" = Ok f /\ so3_holds (fun _ => 0%R) MW 3 2 0 f (so3_synth 3 2 (stored3 3 2 flmn3))) /\
  setting "mw" MW 3 0 None /\ rings_away (fun _ => 0%R) MW 3 0 /\ denotes "dh" DH /\ ~ fw_scheme DH.
Proof.
  destruct (C37_kernel numpy 3 ltac:(lia)) as (delta & q & E & H1 & H2). exists delta, q.
  pose proof C34_ex as (A1 & A2 & A3 & A4 & A5 & A6 & A7 & A8 & A9).
  assert (D1 : fw_scheme MW) by now left. assert (D2 : fw_inputs 3 (Some (delta, q))) by (split; auto).
  split; [exact D1|]. split; [now right|]. split; [reflexivity|]. split; [reflexivity|]. split; [lia|]. split; [reflexivity|]. split; [exact I|].
  split; [exact D2|]. split; [exact A7|]. split; [intros n l m B1 B2 B3 B4; apply A8; auto|].
  split; [unfold stored3, flmn3; cbn; intros E0; injection E0; lra|].
  split; [unfold stored3, flmn3; cbn; intros E0; injection E0; lra|].
  split; [apply C37_inverse; auto; try reflexivity; lia|].
  split; [exact A1|]. split; [now apply small_away|]. split; [reflexivity|]. intros [H|H]; discriminate.
Qed.
