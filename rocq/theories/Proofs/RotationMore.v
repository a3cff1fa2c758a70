(** Composition, inverse and power of rotations. *)
From Coq Require Import Reals ZifyBool Lra.
From Coquelicot Require Import Complex.
From Verif Require Import Lib.Py Lib.PyFacts Lib.Vec Lib.Sums Lib.Cplx Lib.Arr Lib.MatFacts
  Model.Index Model.Grids Model.Spherical Model.Risbo Model.Rotation
  Spec.SamplesSpec Spec.WignerSpec Spec.SphereSpec Spec.SphericalSpec Spec.RotationSpec
  Proofs.WignerDh Proofs.WignerCalc Proofs.WignerFourier Proofs.SphMore Proofs.RotationTheory Proofs.RotationProofs.
Open Scope Z_scope.

Lemma angle_exists u v : (u * u + v * v = 1)%R -> exists t, cos t = u /\ sin t = v.
Proof.
  intros H. assert (B : (-1 <= u <= 1)%R) by nra. pose proof (cos_acos u B) as E. pose proof (cs_one (acos u)) as U. rewrite E in U.
  assert (S : (sin (acos u) = v \/ sin (acos u) = - v)%R).
  { assert (((sin (acos u) - v) * (sin (acos u) + v) = 0)%R) by nra. apply Rmult_integral in H0. destruct H0; [left|right]; lra. }
  destruct S as [S|S]; [now exists (acos u)|]. exists (- acos u)%R. rewrite cos_neg, sin_neg, S. split; [exact E|lra].
Qed.
Lemma direction_exists p : unit_vector p -> exists theta phi, direction theta phi = p.
Proof.
  destruct p as ((x & y) & z). unfold unit_vector, direction. intros H.
  assert (S2 : (0 <= 1 - z * z)%R) by nra. destruct (angle_exists z (sqrt (1 - z * z))) as (th & C1 & C2).
  { rewrite sqrt_sqrt by auto. ring. }
  set (s := sqrt (1 - z * z)) in *. assert (SS : (s * s = x * x + y * y)%R) by (unfold s; rewrite sqrt_sqrt by auto; lra).
  destruct (Req_dec s 0) as [Z0|NZ].
  - exists th, 0%R. rewrite C1, C2, Z0. assert (x = 0 /\ y = 0)%R by (split; nra). destruct H0 as (-> & ->). rewrite !Rmult_0_l. reflexivity.
  - destruct (angle_exists (x / s) (y / s)) as (ph & D1 & D2).
    + replace (x / s * (x / s) + y / s * (y / s))%R with ((x * x + y * y) / (s * s))%R by (field; auto). rewrite <- SS. field. auto.
    + exists th, ph. rewrite C1, C2, D1, D2. f_equal. f_equal; field; auto.
Qed.
Lemma direction_unit theta phi : unit_vector (direction theta phi).
Proof.
  unfold unit_vector, direction. pose proof (cs_one theta). pose proof (cs_one phi).
  replace (sin theta * cos phi * (sin theta * cos phi) + sin theta * sin phi * (sin theta * sin phi) + cos theta * cos theta)%R
    with (sin theta * sin theta * (cos phi * cos phi + sin phi * sin phi) + cos theta * cos theta)%R by ring. rewrite H0. lra.
Qed.
Lemma rot_z_unit a p : unit_vector p -> unit_vector (rot_z a p).
Proof.
  destruct p as ((x & y) & z). unfold unit_vector, rot_z. intros H. pose proof (cs_one a).
  replace ((cos a * x - sin a * y) * (cos a * x - sin a * y) + (sin a * x + cos a * y) * (sin a * x + cos a * y) + z * z)%R
    with ((cos a * cos a + sin a * sin a) * (x * x + y * y) + z * z)%R by ring. rewrite H0. lra.
Qed.
Lemma rot_y_unit a p : unit_vector p -> unit_vector (rot_y a p).
Proof.
  destruct p as ((x & y) & z). unfold unit_vector, rot_y. intros H. pose proof (cs_one a).
  replace ((cos a * x + sin a * z) * (cos a * x + sin a * z) + y * y + (- sin a * x + cos a * z) * (- sin a * x + cos a * z))%R
    with ((cos a * cos a + sin a * sin a) * (x * x + z * z) + y * y)%R by ring. rewrite H0. lra.
Qed.
Lemma euler_unit a b g p : unit_vector p -> unit_vector (euler a b g p).
Proof. intros. unfold euler. now apply rot_z_unit, rot_y_unit, rot_z_unit. Qed.
Lemma rot_z_add a b p : rot_z a (rot_z b p) = rot_z (a + b) p.
Proof. destruct p as ((x & y) & z). unfold rot_z. rewrite cos_plus, sin_plus. f_equal. f_equal; ring. Qed.
Lemma rot_y_add a b p : rot_y a (rot_y b p) = rot_y (a + b) p.
Proof. destruct p as ((x & y) & z). unfold rot_y. rewrite cos_plus, sin_plus. f_equal; [f_equal|]; ring. Qed.
Lemma rot_z_0 p : rot_z 0 p = p.
Proof. destruct p as ((x & y) & z). unfold rot_z. rewrite cos_0, sin_0. f_equal. f_equal; ring. Qed.
Lemma rot_y_0 p : rot_y 0 p = p.
Proof. destruct p as ((x & y) & z). unfold rot_y. rewrite cos_0, sin_0. f_equal; [f_equal|]; ring. Qed.
Lemma euler_inv a b g p : euler a b g (euler (- g) (- b) (- a) p) = p.
Proof.
  unfold euler. rewrite rot_z_add, Rplus_opp_r, rot_z_0, rot_y_add, Rplus_opp_r, rot_y_0, rot_z_add, Rplus_opp_r. apply rot_z_0.
Qed.
Lemma euler_0 p : euler 0 0 0 p = p.
Proof. unfold euler. now rewrite rot_z_0, rot_y_0, rot_z_0. Qed.
Lemma euler_point a b g theta phi : exists theta' phi', direction theta phi = euler a b g (direction theta' phi').
Proof.
  destruct (direction_exists (euler (- g) (- b) (- a) (direction theta phi))) as (t & q & E).
  - apply euler_unit, direction_unit.
  - exists t, q. rewrite E. symmetry. apply euler_inv.
Qed.

Lemma rotated_compose a1 b1 g1 a2 b2 g2 a3 b3 g3 c l m :
  (forall theta phi, euler a1 b1 g1 (euler a2 b2 g2 (direction theta phi)) = euler a3 b3 g3 (direction theta phi)) -> 0 <= l ->
  rotated a1 b1 g1 (rotated a2 b2 g2 c) l m = rotated a3 b3 g3 c l m.
Proof.
  intros H Hl. destruct (Z.leb_spec (Z.abs m) l) as [Hm|Hm].
  2: { unfold rotated. now replace (Z.abs m <=? l) with false by lia. }
  assert (E := synth_unique (l + 1) 0 (rotated a1 b1 g1 (rotated a2 b2 g2 c)) (rotated a3 b3 g3 c) ltac:(lia)).
  specialize (fun X => E X l m ltac:(lia) ltac:(lia)). unfold restricted in E. replace (Z.max 0 (Z.abs 0) <=? l) with true in E by lia.
  replace (Z.abs m <=? l) with true in E by lia. apply E. clear E. intros theta phi.
  destruct (euler_point a1 b1 g1 theta phi) as (t1 & p1 & E1). destruct (euler_point a2 b2 g2 t1 p1) as (t2 & p2 & E2).
  rewrite (synth_rotated _ _ _ _ _ _ _ t1 p1 E1), (synth_rotated _ _ _ _ _ _ _ t2 p2 E2).
  symmetry. apply synth_rotated. rewrite E1, E2. apply H.
Qed.
Lemma rotated_ext a b g c c' l m : (forall n, - l <= n <= l -> c l n = c' l n) -> rotated a b g c l m = rotated a b g c' l m.
Proof. intros H. unfold rotated. destruct (_ <=? _); [|reflexivity]. apply cr_ext. intros n Hn. now rewrite H by lia. Qed.
Lemma rotated_0 c l m : 0 <= l -> rotated 0 0 0 c l m = if Z.abs m <=? l then c l m else RtoC 0.
Proof.
  intros Hl. unfold rotated. destruct (Z.leb_spec (Z.abs m) l) as [Hm|]; [|reflexivity].
  rewrite (cr_ext _ _ _ (fun n => if n =? m then c l n else RtoC 0)).
  - rewrite cr_delta by lia. reflexivity.
  - intros n Hn. unfold wigner_D. rewrite !Rmult_0_r, Ropp_0, cis_0, wigner_dh by lia. fold (D (2 * l) (l + m) (l + n) 0). rewrite D_0 by lia.
    destruct (Z.eqb_spec n m) as [->|]; [rewrite Z.eqb_refl|replace (l + m =? l + n) with false by lia]; ring.
Qed.
Lemma rotated_power a b g c l : 0 <= l ->
  rsum (zrange (- l) (l + 1)) (fun m => Cmod (rotated a b g c l m) ^ 2)%R = rsum (zrange (- l) (l + 1)) (fun m => Cmod (c l m) ^ 2)%R.
Proof.
  intros Hl. apply RtoC_inj. rewrite <- !csum_RtoC.
  set (e := fun n => (cis (- (IZR n * g)) * c l n)%C).
  rewrite (cr_ext _ _ _ (fun m => csum (zrange (- l) (l + 1)) (fun n => csum (zrange (- l) (l + 1)) (fun n' =>
    (RtoC (wigner_d l m n b * wigner_d l m n' b) * (e n * Cconj (e n')))%C)))).
  2: { intros m Hm. rewrite Cmod_sq. unfold rotated. replace (Z.abs m <=? l) with true by lia.
       rewrite csum_conj, <- cs_scal_r. apply cr_ext. intros n Hn. rewrite <- cs_scal_l. apply cr_ext. intros n' Hn'. unfold wigner_D, e.
       rewrite !Cconj_mult, Cconj_R, !cis_conj. rewrite RtoC_mult.
       transitivity ((cis (- (IZR m * a)) * cis (- - (IZR m * a))) * (RtoC (wigner_d l m n b) * RtoC (wigner_d l m n' b) * (cis (- (IZR n * g)) * c l n * (cis (- - (IZR n' * g)) * Cconj (c l n')))))%C; [ring|].
       rewrite cis_inv. ring. }
  rewrite cs_swap. apply cr_ext. intros n Hn. rewrite cs_swap.
  rewrite (cr_ext _ _ _ (fun n' => if n' =? n then (e n * Cconj (e n'))%C else RtoC 0)).
  - rewrite cr_delta by lia. unfold e. rewrite Cmod_sq, Cconj_mult, cis_conj.
    transitivity ((cis (- (IZR n * g)) * cis (- - (IZR n * g))) * (c l n * Cconj (c l n)))%C; [ring|]. rewrite cis_inv. ring.
  - intros n' Hn'. rewrite cs_scal_r, csum_RtoC.
    rewrite (rr_ext _ _ _ (fun m => (D (2 * l) (l + m) (l + n) b * D (2 * l) (l + m) (l + n') b)%R)) by (intros m Hm; now rewrite !wigner_dh by lia).
    rewrite (rr_perm (- l) (l + 1) 0 (2 * l + 1) (fun m => l + m) (fun k => (D (2 * l) k (l + n) b * D (2 * l) k (l + n') b)%R)) by lia.
    rewrite D_cols by lia. destruct (Z.eqb_spec n' n) as [->|]; [rewrite Z.eqb_refl|replace (l + n =? l + n') with false by lia]; ring.
Qed.
