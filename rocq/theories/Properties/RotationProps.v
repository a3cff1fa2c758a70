(** C40: rotation of harmonic coefficients, s2fft/utils/rotation.py. *)
From Coq Require Import Reals Lra ZifyBool.
From Coquelicot Require Import Complex.
From Verif Require Import Lib.Py Lib.PyFacts Lib.Vec Lib.Sums Lib.Cplx Lib.Arr Model.Risbo Model.Rotation
  Spec.WignerSpec Spec.SphereSpec Spec.SphericalSpec Spec.RotationSpec Proofs.RotationProofs Proofs.RotationMore.
Open Scope Z_scope.

(** The result holds sum_n D^l_{mn}(alpha, beta, gamma) f_{ln}, and 0 for |m| > l. *)
Theorem C40_entries flm L alpha beta gamma : 1 <= L -> shape flm = [L; 2 * L - 1] ->
  exists a, rotate_flms flm L alpha beta gamma None = Ok a /\ holds_coefficients L a (rotated alpha beta gamma (stored L flm)).
Proof. intros. now apply rotate_none. Qed.
Print Assumptions C40_entries.

(** The precomputed d-matrices, and the rotation that uses them. *)
Theorem C40_precomputed L beta : 1 <= L ->
  exists d, generate_rotate_dls L beta = Ok d /\ shape d = [L; 2 * L - 1; 2 * L - 1] /\
    (forall l m n, 0 <= l < L -> - L < m < L -> - L < n < L -> get d [l; m + L - 1; n + L - 1] = wigner_d l m n beta) /\
    forall flm alpha gamma, shape flm = [L; 2 * L - 1] ->
      same_ok (rotate_flms flm L alpha beta gamma (Some d)) (rotate_flms flm L alpha beta gamma None).
Proof.
  intros HL. destruct (dls_ok L beta HL) as (d & E & S & H). exists d. repeat (split; [assumption|]). intros flm alpha gamma Hf.
  destruct (rotate_none flm L alpha beta gamma HL Hf) as (a & Ea & Sa & Ha).
  destruct (rotate_some flm L alpha beta gamma HL Hf d S) with (beta' := beta) as (b & Eb & Sb & Hb).
  { intros. apply H; lia. }
  exists b, a. split; [exact Eb|]. split; [exact Ea|]. split; [congruence|]. intros [|l [|c [|]]] Hix; rewrite Sb in Hix; cbn [in_shape] in Hix; try tauto.
  specialize (Ha l (c - L + 1) ltac:(lia) ltac:(lia)). specialize (Hb l (c - L + 1) ltac:(lia) ltac:(lia)). unfold stored in Ha, Hb.
  replace (c - L + 1 + L - 1) with c in Ha, Hb by lia. congruence.
Qed.
Print Assumptions C40_precomputed.

(** The signal of the rotated coefficients is the rotated signal: its value at R p is the value of
    the original signal at p. *)
Theorem C40_signal flm L alpha beta gamma : 1 <= L -> shape flm = [L; 2 * L - 1] ->
  exists a, rotate_flms flm L alpha beta gamma None = Ok a /\
    forall theta phi theta' phi', direction theta' phi' = euler alpha beta gamma (direction theta phi) ->
      synth L 0 (stored L a) theta' phi' = synth L 0 (stored L flm) theta phi.
Proof.
  intros HL Hf. destruct (rotate_none flm L alpha beta gamma HL Hf) as (a & E & S & H). exists a. split; [exact E|]. intros t p t' p' HD.
  rewrite <- (synth_rotated L (stored L flm) alpha beta gamma t' p' t p HD). apply cr_ext. intros l Hl. apply cr_ext. intros m Hm. now rewrite H by lia.
Qed.
Print Assumptions C40_signal.
(** Every point is the image of a point. *)
Example C40_signal_ex alpha beta gamma theta' phi' : exists theta phi, direction theta' phi' = euler alpha beta gamma (direction theta phi).
Proof. apply euler_point. Qed.

(** The power of each degree is preserved. *)
Theorem C40_power flm L alpha beta gamma : 1 <= L -> shape flm = [L; 2 * L - 1] ->
  exists a, rotate_flms flm L alpha beta gamma None = Ok a /\ forall l, 0 <= l < L ->
    rsum (zrange (- l) (l + 1)) (fun m => Cmod (stored L a l m) ^ 2)%R = rsum (zrange (- l) (l + 1)) (fun m => Cmod (stored L flm l m) ^ 2)%R.
Proof.
  intros HL Hf. destruct (rotate_none flm L alpha beta gamma HL Hf) as (a & E & S & H). exists a. split; [exact E|]. intros l Hl.
  rewrite <- (rotated_power alpha beta gamma (stored L flm)) by lia. apply rr_ext. intros m Hm. now rewrite H by lia.
Qed.
Print Assumptions C40_power.

(** Two rotations one after the other are the rotation by the composed rotation. *)
Theorem C40_compose flm L a1 b1 g1 a2 b2 g2 a3 b3 g3 : 1 <= L -> shape flm = [L; 2 * L - 1] ->
  (forall p, unit_vector p -> euler a1 b1 g1 (euler a2 b2 g2 p) = euler a3 b3 g3 p) ->
  exists f g h, rotate_flms flm L a2 b2 g2 None = Ok f /\ rotate_flms f L a1 b1 g1 None = Ok g /\
    rotate_flms flm L a3 b3 g3 None = Ok h /\ arr_eq g h.
Proof.
  intros HL Hf HE. destruct (rotate_none flm L a2 b2 g2 HL Hf) as (f & Ef & Sf & H2).
  destruct (rotate_none f L a1 b1 g1 HL Sf) as (g & Eg & Sg & H1). destruct (rotate_none flm L a3 b3 g3 HL Hf) as (h & Eh & Sh & H3).
  exists f, g, h. repeat (split; [assumption|]). split; [congruence|]. intros [|l [|c [|]]] Hix; rewrite Sg in Hix; cbn [in_shape] in Hix; try tauto.
  specialize (H1 l (c - L + 1) ltac:(lia) ltac:(lia)). specialize (H3 l (c - L + 1) ltac:(lia) ltac:(lia)). unfold stored in H1 at 1, H3 at 1.
  replace (c - L + 1 + L - 1) with c in H1, H3 by lia. rewrite H1, H3.
  rewrite <- (rotated_compose a1 b1 g1 a2 b2 g2 a3 b3 g3 (stored L flm)); [|intros; apply HE, direction_unit|lia]. apply rotated_ext. intros n Hn. apply H2; lia.
Qed.
Print Assumptions C40_compose.
Example C40_compose_ex a a' : forall p, unit_vector p -> euler a 0 0 (euler a' 0 0 p) = euler (a + a') 0 0 p.
Proof. intros p _. unfold euler. now rewrite !rot_y_0, !rot_z_0, rot_z_add. Qed.

(** Zero angles: the identity on the entries |m| <= l. *)
Theorem C40_identity flm L : 1 <= L -> shape flm = [L; 2 * L - 1] ->
  (forall l m, 0 <= l < L -> - L < m < L -> l < Z.abs m -> stored L flm l m = RtoC 0) ->
  exists a, rotate_flms flm L 0 0 0 None = Ok a /\ arr_eq a flm.
Proof.
  intros HL Hf H0. destruct (rotate_none flm L 0 0 0 HL Hf) as (a & E & S & H). exists a. split; [exact E|]. split; [congruence|].
  intros [|l [|c [|]]] Hix; rewrite S in Hix; cbn [in_shape] in Hix; try tauto.
  specialize (H l (c - L + 1) ltac:(lia) ltac:(lia)). rewrite rotated_0 in H by lia. specialize (H0 l (c - L + 1) ltac:(lia) ltac:(lia)).
  unfold stored in *. replace (c - L + 1 + L - 1) with c in * by lia. rewrite H. destruct (Z.leb_spec (Z.abs (c - L + 1)) l); [reflexivity|]. symmetry. apply H0. lia.
Qed.
Print Assumptions C40_identity.

(** The rotation by (-gamma, -beta, -alpha) undoes the rotation by (alpha, beta, gamma). *)
Theorem C40_inverse flm L alpha beta gamma : 1 <= L -> shape flm = [L; 2 * L - 1] ->
  (forall l m, 0 <= l < L -> - L < m < L -> l < Z.abs m -> stored L flm l m = RtoC 0) ->
  exists f g, rotate_flms flm L alpha beta gamma None = Ok f /\ rotate_flms f L (- gamma) (- beta) (- alpha) None = Ok g /\ arr_eq g flm.
Proof.
  intros HL Hf H0. destruct (C40_compose flm L (- gamma) (- beta) (- alpha) alpha beta gamma 0 0 0 HL Hf) as (f & g & h & E1 & E2 & E3 & Q).
  { intros p _. rewrite euler_0. rewrite <- (euler_inv (- gamma) (- beta) (- alpha) p) at 2. now rewrite !Ropp_involutive. }
  destruct (C40_identity flm L HL Hf H0) as (h' & E4 & Q'). assert (h = h') by congruence. subst h'. exists f, g. split; [exact E1|]. split; [exact E2|].
  eapply arr_eq_trans; eauto.
Qed.
Print Assumptions C40_inverse.
Example C40_ex : 1 <= 3 /\ exists flm, shape flm = [3; 2 * 3 - 1] /\ stored 3 flm 2 (-1) <> RtoC 0 /\
  (forall l m, 0 <= l < 3 -> - 3 < m < 3 -> l < Z.abs m -> stored 3 flm l m = RtoC 0).
Proof.
  split; [lia|]. exists (mat 3 5 (fun l c => if Z.abs (c - 2) <=? l then RtoC (IZR (l + c)) else RtoC 0)). split; [reflexivity|]. split.
  - unfold stored. cbn. intros E. injection E. lra.
  - intros l m Hl Hm H. unfold stored. cbn [mat get nth]. now replace (Z.abs (m + 3 - 1 - 2) <=? l) with false by lia.
Qed.
