(** C30, continued: the Wigner transforms (reference, on the fly, precomputed) and the precomputed
    transforms of the sphere are linear: over C, and with the reality flag over R. *)
From Coq Require Import Reals Lra Lia ZifyBool.
From Coquelicot Require Import Complex.
From Verif Require Import Lib.Py Lib.PyFacts Lib.Sums Lib.Cplx Lib.Vec Lib.Arr
  Spec.CallSpec.
From Verif Require Import Model.Samples Model.Spherical Model.Grids Model.Resampling Model.Quadrature Model.Wigner Model.PriceMcEwen Model.OTF Model.OTFSpherical Model.OTFWigner
  Model.Precompute Model.PrecomputeWigner.
From Verif Require Import Spec.SamplesSpec Spec.WignerSpec Spec.SphereSpec Spec.GridSpec Spec.SphericalSpec Spec.QuadSpec Spec.OTFSpec Spec.OTFSphericalSpec Spec.SO3Spec Spec.OTFWignerSpec Spec.HealpixFFTSpec
  Spec.PrecomputeSpec Spec.PrecomputeWignerSpec.
From Verif Require Import Proofs.SphAngles Proofs.WignerLinear Lib.MatFacts.
From Verif Require Import Properties.QuadProps Properties.OTFProps Properties.SphericalProps Properties.WignerProps Properties.OTFWignerProps Properties.PrecomputeProps Properties.PrecomputeWignerProps.
From Coq Require Import List.
Import ListNotations.
Open Scope string_scope.
Open Scope Z_scope.

(** ** The reference Wigner transforms *)
Theorem C30_wigner_inverse gl s L N Lo nside o reality x y flmn1 flmn2 flmn :
  setting (scheme_name s) s L nside o -> 1 <= N -> 0 <= Lo < L -> shape flmn = [2 * N - 1; L; 2 * L - 1] -> combination x y flmn1 flmn2 flmn ->
  (s = GL -> vlen (gl_nodes gl L) = L) -> (s = HEALPIX -> 2 * nside <= L) -> rings_away (vat (gl_nodes gl L)) s L nside ->
  (reality = true -> is_real x /\ is_real y /\ forall l, 0 <= l < L -> is_real (stored3 L N flmn1 0 l 0) /\ is_real (stored3 L N flmn2 0 l 0)) ->
  exists f1 f2 f, wigner_inverse gl flmn1 L N Lo (scheme_name s) reality o = Ok f1 /\ wigner_inverse gl flmn2 L N Lo (scheme_name s) reality o = Ok f2 /\
    wigner_inverse gl flmn L N Lo (scheme_name s) reality o = Ok f /\ combination x y f1 f2 f.
Proof. apply wigner_inverse_linear. Qed.
Print Assumptions C30_wigner_inverse.
Theorem C30_wigner_forward gl s L N Lo nside o reality x y f1 f2 f :
  setting (scheme_name s) s L nside o -> 1 <= N -> 0 <= Lo < L -> rule_sizes s L (gl_nodes gl L) (gl_weights gl L) ->
  forward_rings_away (vat (gl_nodes gl L)) s L nside -> rings_away (vat (gl_nodes gl L)) s L nside -> (s = HEALPIX -> 2 * nside <= L) ->
  shape f = 2 * N - 1 :: map_shape s L nside -> combination x y f1 f2 f ->
  (reality = true -> is_real x /\ is_real y /\ so3_real_map (vat (gl_nodes gl L)) s L N nside f1 /\ so3_real_map (vat (gl_nodes gl L)) s L N nside f2) ->
  exists a1 a2 a, wigner_forward gl f1 L N Lo (scheme_name s) reality o = Ok a1 /\ wigner_forward gl f2 L N Lo (scheme_name s) reality o = Ok a2 /\
    wigner_forward gl f L N Lo (scheme_name s) reality o = Ok a /\ combination x y a1 a2 a.
Proof. apply wigner_forward_linear. Qed.
Print Assumptions C30_wigner_forward.

(** ** The on-the-fly Wigner transforms *)
Theorem C30_otf_wigner_inverse th flmn1 flmn2 flmn L N s nside o reality Lo beta method p x y :
  wigner_inverse_call th flmn1 L N s nside o reality Lo beta method p -> wigner_inverse_call th flmn2 L N s nside o reality Lo beta method p ->
  wigner_inverse_call th flmn L N s nside o reality Lo beta method p -> combination x y flmn1 flmn2 flmn -> (reality = true -> is_real x /\ is_real y) ->
  exists f1 f2 f, otf_wigner_inverse th flmn1 L N o (scheme_name s) method reality p Lo = Ok f1 /\
    otf_wigner_inverse th flmn2 L N o (scheme_name s) method reality p Lo = Ok f2 /\
    otf_wigner_inverse th flmn L N o (scheme_name s) method reality p Lo = Ok f /\ combination x y f1 f2 f.
Proof. apply otf_wigner_inverse_linear. Qed.
Print Assumptions C30_otf_wigner_inverse.
(** Any samples, real or not: with the flag the transform only looks at their real parts. *)
Theorem C30_otf_wigner_forward gl th f1 f2 f L N s nside o reality Lo beta method p x y :
  wigner_forward_call gl th f1 L N s nside o reality Lo beta method p -> wigner_forward_call gl th f2 L N s nside o reality Lo beta method p ->
  wigner_forward_call gl th f L N s nside o reality Lo beta method p -> combination x y f1 f2 f -> (reality = true -> is_real x /\ is_real y) ->
  exists a1 a2 a, otf_wigner_forward gl th f1 L N o (scheme_name s) method reality p Lo = Ok a1 /\
    otf_wigner_forward gl th f2 L N o (scheme_name s) method reality p Lo = Ok a2 /\
    otf_wigner_forward gl th f L N o (scheme_name s) method reality p Lo = Ok a /\ combination x y a1 a2 a.
Proof. apply otf_wigner_forward_linear. Qed.
Print Assumptions C30_otf_wigner_forward.

(** ** The transforms with a precomputed kernel *)
Theorem C30_precomputed_wigner_inverse gl method b s flmn1 flmn2 flmn L N kernel nside o reality x y : nodes_ok s L (gl_nodes gl L) ->
  setting (scheme_name s) s L nside o -> 1 <= N <= L -> shape flmn = [2 * N - 1; L; 2 * L - 1] -> combination x y flmn1 flmn2 flmn ->
  (s = GL -> vlen (gl_nodes gl L) = L) -> (s = HEALPIX -> 2 * nside <= L) -> runs_on method b ->
  wkernel_given gl L N reality s (scheme_name s) o false kernel -> (reality = true -> is_real x /\ is_real y) ->
  exists f1 f2 f, pw_inverse gl flmn1 L N kernel (scheme_name s) reality method o = Ok f1 /\
    pw_inverse gl flmn2 L N kernel (scheme_name s) reality method o = Ok f2 /\
    pw_inverse gl flmn L N kernel (scheme_name s) reality method o = Ok f /\ combination x y f1 f2 f.
Proof. apply pw_inverse_linear. Qed.
Print Assumptions C30_precomputed_wigner_inverse.
Theorem C30_precomputed_wigner_forward gl method b s f1 f2 f L N kernel nside o reality x y : pw_forward_hyps gl b s f L N nside o -> combination x y f1 f2 f ->
  runs_on method b -> wkernel_given gl L N reality s (scheme_name s) o true kernel -> (reality = true -> is_real x /\ is_real y) ->
  exists a1 a2 a, pw_forward gl f1 L N kernel (scheme_name s) reality method o = Ok a1 /\
    pw_forward gl f2 L N kernel (scheme_name s) reality method o = Ok a2 /\
    pw_forward gl f L N kernel (scheme_name s) reality method o = Ok a /\ combination x y a1 a2 a.
Proof. apply pw_forward_linear. Qed.
Print Assumptions C30_precomputed_wigner_forward.
Theorem C30_precomputed_inverse gl method b s flm1 flm2 flm L spin kernel nside o reality x y :
  setting (scheme_name s) s L nside o -> shape flm = [L; 2 * L - 1] -> combination x y flm1 flm2 flm -> (s = GL -> vlen (gl_nodes gl L) = L) ->
  (s = HEALPIX -> 2 * nside <= L) -> runs_on method b ->
  kernel_given gl b L spin reality (scheme_name s) o false (rings_away (vat (gl_nodes gl L)) s L nside) kernel ->
  rings_away (vat (gl_nodes gl L)) s L nside ->
  (reality = true -> spin = 0 -> is_real x /\ is_real y /\ forall el, 0 <= el < L -> is_real (stored L flm1 el 0) /\ is_real (stored L flm2 el 0)) ->
  exists f1 f2 f, pre_inverse gl flm1 L spin kernel (scheme_name s) reality method o = Ok f1 /\
    pre_inverse gl flm2 L spin kernel (scheme_name s) reality method o = Ok f2 /\
    pre_inverse gl flm L spin kernel (scheme_name s) reality method o = Ok f /\ combination x y f1 f2 f.
Proof. apply pre_inverse_linear. Qed.
Print Assumptions C30_precomputed_inverse.
Theorem C30_precomputed_forward gl method b s f1 f2 f L spin kernel nside o reality x y :
  setting (scheme_name s) s L nside o -> shape f = map_shape s L nside -> combination x y f1 f2 f -> rule_sizes s L (gl_nodes gl L) (gl_weights gl L) ->
  (s = HEALPIX -> 2 * nside <= L /\ (b = jax -> 2 <= nside)) -> runs_on method b ->
  kernel_given gl b L spin reality (scheme_name s) o true (forward_rings_away (vat (gl_nodes gl L)) s L nside) kernel ->
  forward_rings_away (vat (gl_nodes gl L)) s L nside ->
  (reality = true -> spin = 0 -> is_real x /\ is_real y /\ real_map (vat (gl_nodes gl L)) s L nside spin f1 /\ real_map (vat (gl_nodes gl L)) s L nside spin f2) ->
  exists a1 a2 a, pre_forward gl f1 L spin kernel (scheme_name s) reality method o = Ok a1 /\
    pre_forward gl f2 L spin kernel (scheme_name s) reality method o = Ok a2 /\
    pre_forward gl f L spin kernel (scheme_name s) reality method o = Ok a /\ combination x y a1 a2 a.
Proof. apply pre_forward_linear. Qed.
Print Assumptions C30_precomputed_forward.

(** Data: two sets of coefficients, neither a multiple of the other, and a combination of them that is
    not one over R; the hypotheses on settings, kernels and calls are met as in C34_ex, C49_calls_ex,
    C53_ex, C54_ex, C36_inverse_ex and C36_forward_ex. *)
Definition axial3 : ndarray C := mkArr [2 * 2 - 1; 3; 2 * 3 - 1] (fun ix =>
  if (nth 0 ix 0 =? 1) && (nth 2 ix 0 =? 2) then RtoC (IZR (nth 1 ix 0 + 1)) else RtoC 0).
Example C30_wigner_ex : (forall x y, combination x y flmn3 axial3 (mkArr [2 * 2 - 1; 3; 2 * 3 - 1] (fun ix => (x * get flmn3 ix + y * get axial3 ix)%C))) /\
  hermitian3 3 2 (stored3 3 2 axial3) /\ stored3 3 2 axial3 0 2 0 = RtoC 3 /\ stored3 3 2 axial3 1 1 0 = RtoC 0 /\ stored3 3 2 flmn3 1 1 0 <> RtoC 0.
Proof.
  split; [intros x y; split; [reflexivity|]; split; reflexivity|]. split; [|split; [reflexivity|split; [reflexivity|apply C34_ex]]].
  intros n l m Hn Hl Hm. unfold stored3, axial3. cbn [get nth]. destruct (Z.eqb_spec n 0) as [->|N1].
  - destruct (Z.eqb_spec m 0) as [->|N2].
    + change (sgn (0 + 0)) with 1%R. cbn. now rewrite Cconj_R, Cmult_1_l.
    + replace (- m + 3 - 1 =? 2) with false by lia. replace (m + 3 - 1 =? 2) with false by lia. rewrite !andb_false_r, Cconj_R. ring.
  - replace (- n + 2 - 1 =? 1) with false by lia. replace (n + 2 - 1 =? 1) with false by lia. cbn [andb]. rewrite Cconj_R. ring.
Qed.
(** the three calls of the on-the-fly theorems at once *)
Example C30_calls_ex : forall method reality x y, python_method3 method -> is_real x /\ is_real y ->
  exists th beta, let h := mkArr [2 * 2 - 1; 3; 2 * 3 - 1] (fun ix => (x * get flmn3 ix + y * get axial3 ix)%C) in
    wigner_inverse_call th flmn3 3 2 MWSS 0 None reality 1 beta method None /\ wigner_inverse_call th axial3 3 2 MWSS 0 None reality 1 beta method None /\
    wigner_inverse_call th h 3 2 MWSS 0 None reality 1 beta method None.
Proof.
  intros method reality x y M (Hx & Hy). destruct (C49_angles gl2 MWSS 3 0 1 2 1) as (th & b & b' & HH); [lia|discriminate|lia|lra|].
  destruct (HH None) as (E & A & U & _ & _ & _ & P). destruct (P method reality) as [P1 _].
  exists th, b. intros h.
  assert (G : forall a, shape a = [2 * 2 - 1; 3; 2 * 3 - 1] -> wigner_zero 3 2 a -> hermitian_plane 3 2 a -> wigner_inverse_call th a 3 2 MWSS 0 None reality 1 b method None).
  { intros a Sa Za Ha. unfold wigner_inverse_call.
    repeat (split; [first [lia|assumption|discriminate|reflexivity|apply A|idtac]|]); [| |now left].
    - intros _ el Hel. pose proof (Ha el 0 Hel ltac:(lia)) as H. change (- 0) with 0 in H. change (sgn 0) with 1%R in H. rewrite Cmult_1_l in H.
      unfold is_real. apply (f_equal Im) in H. cbn [Cconj Im snd] in H. unfold Im in *. cbn [snd] in H. lra.
    - intros _ _. exact Ha. }
  assert (Z1 : wigner_zero 3 2 flmn3) by (destruct C34_ex as (_ & _ & _ & _ & _ & _ & _ & Zr & _); intros n el m Hn Hel Hl Hm; apply Zr; lia).
  assert (Z2 : wigner_zero 3 2 axial3).
  { intros n el m Hn Hel Hl Hm. unfold stored3, axial3. cbn [get nth]. now replace (n + 2 - 1 =? 1) with false by lia. }
  assert (HP : forall a, hermitian3 3 2 (stored3 3 2 a) -> hermitian_plane 3 2 a).
  { intros a Ha el m Hel Hm. pose proof (Ha 0 el m ltac:(lia) ltac:(lia) ltac:(lia)) as Q. now rewrite Z.add_0_r in Q. }
  assert (H1 := HP flmn3 ltac:(apply C34_ex)). assert (H2 := HP axial3 ltac:(apply C30_wigner_ex)).
  split; [apply G; auto|]. split; [apply G; auto|]. apply G; [reflexivity| |].
  - intros n el m Hn Hel Hl Hm. specialize (Z1 n el m Hn Hel Hl Hm). specialize (Z2 n el m Hn Hel Hl Hm). unfold stored3 in *. cbn [get h]. rewrite Z1, Z2. ring.
  - intros el m Hel Hm. specialize (H1 el m Hel Hm). specialize (H2 el m Hel Hm). unfold stored3 in *. cbn [get h]. rewrite H1, H2, Cconj_plus, !Cconj_mult.
    replace (Cconj x) with x by (destruct x; unfold is_real, Im, Cconj in *; cbn in *; subst; now rewrite Ropp_0).
    replace (Cconj y) with y by (destruct y; unfold is_real, Im, Cconj in *; cbn in *; subst; now rewrite Ropp_0). ring.
Qed.
