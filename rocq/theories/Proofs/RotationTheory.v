(** The D-functions act on the spherical harmonics as rotations of the sphere. *)
From Coq Require Import Reals Lia Lra ZArith List Psatz ZifyBool.
From Coquelicot Require Import Coquelicot.
From Verif Require Import Lib.Py Lib.PyFacts Lib.Sums Lib.Cplx Spec.WignerSpec Spec.SphereSpec Spec.RotationSpec
  Proofs.WignerGen Proofs.WignerDh Proofs.WignerCalc Proofs.WignerFourier.
Open Scope Z_scope.

Fixpoint cpn (z : C) (n : nat) : C := match n with O => RtoC 1 | S n => (z * cpn z n)%C end.
Definition cpw (z : C) (k : Z) : C := cpn z (Z.to_nat k).
Arguments cpw z%C k%Z.
Lemma cpw_0 z : cpw z 0 = RtoC 1. Proof. reflexivity. Qed.
Lemma cpw_succ z k : 0 <= k -> cpw z (k + 1) = (z * cpw z k)%C.
Proof. intros Hk. unfold cpw. rewrite Z2Nat.inj_add, Nat.add_comm by lia. reflexivity. Qed.
Lemma cpw_mult z w k : 0 <= k -> cpw (z * w) k = (cpw z k * cpw w k)%C.
Proof.
  revert k. apply natlike_ind; [now rewrite !cpw_0, Cmult_1_l|]. intros k Hk IH. unfold Z.succ. rewrite !cpw_succ, IH by lia. ring.
Qed.
Lemma cpw_add z a b : 0 <= a -> 0 <= b -> cpw z (a + b) = (cpw z a * cpw z b)%C.
Proof.
  intros Ha Hb. revert a Ha. apply natlike_ind; [now rewrite cpw_0, Cmult_1_l|]. intros k Hk IH. unfold Z.succ.
  replace (k + 1 + b) with (k + b + 1) by lia. rewrite !cpw_succ, IH by lia. ring.
Qed.
Lemma cpw_cis x k : 0 <= k -> cpw (cis x) k = cis (IZR k * x).
Proof.
  revert k. apply natlike_ind; [now rewrite cpw_0, Rmult_0_l, cis_0|]. intros k Hk IH. unfold Z.succ. rewrite cpw_succ, IH, <- cis_plus by lia.
  rewrite plus_IZR. f_equal. ring.
Qed.
Lemma cpw_1 k : 0 <= k -> cpw (RtoC 1) k = RtoC 1.
Proof. intros Hk. rewrite <- cis_0, cpw_cis, Rmult_0_r by auto. reflexivity. Qed.

(** homogeneous polynomials *)
Definition hom (d : Z) (p : Z -> C) (X Y : C) : C := csum (zrange 0 (d + 1)) (fun k => (p k * cpw X k * cpw Y (d - k))%C).
Arguments hom d%Z p X%C Y%C.
Lemma hom_ext d p q X Y : (forall k, 0 <= k <= d -> p k = q k) -> hom d p X Y = hom d q X Y.
Proof. intros H. apply cr_ext. intros k Hk. now rewrite H by lia. Qed.
Lemma hom_scal d p q a X Y : (forall k, 0 <= k <= d -> p k = (a * q k)%C) -> hom d p X Y = (a * hom d q X Y)%C.
Proof. intros H. unfold hom. rewrite <- cs_scal_l. apply cr_ext. intros k Hk. rewrite H by lia. ring. Qed.
Lemma hom_unique d p q : 0 <= d -> (forall X Y, hom d p X Y = hom d q X Y) -> forall k, 0 <= k <= d -> p k = q k.
Proof.
  intros Hd H k Hk.
  assert (E : forall p : Z -> C, csum (zrange 0 (d + 1)) (fun t => (hom d p (root (d + 1) t) (RtoC 1) * root (d + 1) (- (k * t)))%C) = (RtoC (IZR (d + 1)) * p k)%C).
  { intros r. rewrite <- (dft_inversion (d + 1) 0 r k) by lia. apply cr_ext. intros t Ht. f_equal. unfold hom. apply cr_ext. intros j Hj.
    rewrite cpw_1, Cmult_1_r by lia. f_equal. unfold root at 1. rewrite cpw_cis by lia. unfold root. f_equal. rewrite mult_IZR. unfold Rdiv. ring. }
  assert (F : (RtoC (IZR (d + 1)) * p k)%C = (RtoC (IZR (d + 1)) * q k)%C).
  { rewrite <- !E. apply cr_ext. intros t Ht. now rewrite H. }
  assert (N : RtoC (IZR (d + 1)) <> RtoC 0) by (intros Q; apply RtoC_inj in Q; apply eq_IZR in Q; lia).
  replace (p k) with (/ RtoC (IZR (d + 1)) * (RtoC (IZR (d + 1)) * p k))%C by (field; exact N). rewrite F. field. exact N.
Qed.

Lemma hom_lin d a b p X Y : 0 <= d -> (forall k, k < 0 \/ d < k -> p k = 0%R) ->
  hom (d + 1) (fun k => RtoC (lin a b p k)) X Y = ((RtoC a * X + RtoC b * Y) * hom d (fun k => RtoC (p k)) X Y)%C.
Proof.
  intros Hd H. unfold hom, lin.
  rewrite (cr_ext 0 (d + 1 + 1) _ (fun k => (RtoC a * (RtoC (p (k - 1)%Z) * cpw X k * cpw Y (d + 1 - k)) + RtoC b * (RtoC (p k) * cpw X k * cpw Y (d + 1 - k)))%C))
    by (intros k Hk; rewrite RtoC_plus, !RtoC_mult; ring).
  rewrite cs_plus, !cs_scal_l.
  rewrite (cr_cons 0 (d + 1 + 1)) by lia. rewrite (H (0 - 1)) by lia.
  rewrite (cr_snoc 0 (d + 1) (fun k => (RtoC (p k) * cpw X k * cpw Y (d + 1 - k))%C)) by lia. rewrite (H (d + 1)) by lia.
  rewrite <- (cr_shift 0 (d + 1) 1). 
  rewrite (cr_ext 0 (d + 1) (fun x => (RtoC (p (x + 1 - 1)%Z) * cpw X (x + 1) * cpw Y (d + 1 - (x + 1)))%C) (fun k => (X * (RtoC (p k) * cpw X k * cpw Y (d - k)))%C)).
  2: { intros k Hk. replace (k + 1 - 1) with k by lia. replace (d + 1 - (k + 1)) with (d - k) by lia. rewrite cpw_succ by lia. ring. }
  rewrite (cr_ext 0 (d + 1) (fun k => (RtoC (p k) * cpw X k * cpw Y (d + 1 - k))%C) (fun k => (Y * (RtoC (p k) * cpw X k * cpw Y (d - k)))%C)).
  2: { intros k Hk. replace (d + 1 - k) with (d - k + 1) by lia. rewrite cpw_succ by lia. ring. }
  rewrite !cs_scal_l. ring.
Qed.
Lemma hom_itlin n d a b p X Y : 0 <= d -> (forall k, k < 0 \/ d < k -> p k = 0%R) ->
  hom (d + Z.of_nat n) (fun k => RtoC (itlin n a b p k)) X Y = (cpw (RtoC a * X + RtoC b * Y) (Z.of_nat n) * hom d (fun k => RtoC (p k)) X Y)%C.
Proof.
  intros Hd H. induction n as [|n IH]; cbn [itlin].
  - rewrite Z.add_0_r. change (Z.of_nat 0) with 0. rewrite cpw_0. ring.
  - replace (d + Z.of_nat (S n)) with (d + Z.of_nat n + 1) by lia. rewrite hom_lin; [|lia|].
    + rewrite IH. replace (Z.of_nat (S n)) with (Z.of_nat n + 1) by lia. rewrite cpw_succ by lia. ring.
    + intros k Hk. apply (itlin_supp n a b p d H). lia.
Qed.
Lemma gen_hom c s i b X Y : 0 <= i -> 0 <= b ->
  hom (i + b) (fun k => RtoC (gen c s i b k)) X Y
  = (cpw (RtoC c * X + RtoC s * Y) i * cpw (- RtoC s * X + RtoC c * Y) b)%C.
Proof.
  intros Hi Hb. unfold gen. replace (i + b) with (b + Z.of_nat (Z.to_nat i)) by lia.
  assert (D0 : forall k, k < 0 \/ 0 < k -> delta0 k = 0%R) by (intros k Hk; unfold delta0; now replace (k =? 0) with false by lia).
  rewrite hom_itlin; [|lia|].
  - replace b with (0 + Z.of_nat (Z.to_nat b)) at 1 by lia. rewrite hom_itlin by (lia || auto).
    rewrite !Z2Nat.id by lia. rewrite RtoC_opp. replace (hom 0 _ X Y) with (RtoC 1); [ring|].
    unfold hom. change (0 + 1) with 1. rewrite (cr_one 0). cbn [Z.sub]. rewrite !cpw_0. unfold delta0. cbn [Z.eqb]. ring.
  - intros k Hk. apply (itlin_supp _ _ _ delta0 0 D0). lia.
Qed.

(** the quadratic form of a point *)
Definition quad (p : R * R * R) (X Y : C) : C :=
  let '(x, y, z) := p in
  (- RtoC (/ 2) * (RtoC x + Ci * RtoC y) * (X * X) + RtoC z * (X * Y) + RtoC (/ 2) * (RtoC x - Ci * RtoC y) * (Y * Y))%C.
Arguments quad p X%C Y%C.
Lemma half_phase phi l k : 0 <= k <= 2 * l -> forall X Y, (cpw (cis (phi / 2) * X) k * cpw (cis (- (phi / 2)) * Y) (2 * l - k))%C
  = (cis (IZR (k - l) * phi) * cpw X k * cpw Y (2 * l - k))%C.
Proof.
  intros Hk X Y. rewrite !cpw_mult, !cpw_cis by lia. replace (IZR (k - l) * phi)%R with (IZR k * (phi / 2) + IZR (2 * l - k) * - (phi / 2))%R.
  - rewrite cis_plus. ring.
  - rewrite !minus_IZR, mult_IZR. field.
Qed.
Lemma quad_split theta phi X Y :
  ((RtoC (cos (theta / 2)) * (cis (phi / 2) * X) + RtoC (sin (theta / 2)) * (cis (- (phi / 2)) * Y)) *
   (- RtoC (sin (theta / 2)) * (cis (phi / 2) * X) + RtoC (cos (theta / 2)) * (cis (- (phi / 2)) * Y)))%C
  = quad (direction theta phi) X Y.
Proof.
  unfold quad, direction.
  replace (RtoC (sin theta * cos phi) + Ci * RtoC (sin theta * sin phi))%C with (RtoC (sin theta) * (cis (phi / 2) * cis (phi / 2)))%C.
  2: { rewrite <- cis_plus. replace (phi / 2 + phi / 2)%R with phi by field. unfold cis, RtoC, Ci, Cmult, Cplus. apply C_eq; cbn; ring. }
  replace (RtoC (sin theta * cos phi) - Ci * RtoC (sin theta * sin phi))%C with (RtoC (sin theta) * (cis (- (phi / 2)) * cis (- (phi / 2))))%C.
  2: { rewrite <- cis_plus. replace (- (phi / 2) + - (phi / 2))%R with (- phi)%R by field. unfold cis, RtoC, Ci, Cmult, Cplus, Cminus, Copp. rewrite cos_neg, sin_neg. apply C_eq; cbn; ring. }
  rewrite <- (cos_half_double theta), <- (sin_half_double theta). set (c := cos (theta / 2)). set (s := sin (theta / 2)).
  pose proof (cis_inv (phi / 2)) as I. set (e := cis (phi / 2)) in *. set (f := cis (- (phi / 2))) in *.
  rewrite RtoC_minus, !RtoC_mult.
  replace (RtoC (/ 2) * (RtoC 2 * RtoC c * RtoC s * (f * f)) * (Y * Y))%C with (RtoC c * RtoC s * (f * f) * (Y * Y))%C.
  2: { replace (RtoC c * RtoC s * (f * f) * (Y * Y))%C with (RtoC (/ 2 * 2) * (RtoC c * RtoC s * (f * f) * (Y * Y)))%C; [rewrite RtoC_mult; ring|].
       replace (/ 2 * 2)%R with 1%R by field. ring. }
  replace (- RtoC (/ 2) * (RtoC 2 * RtoC c * RtoC s * (e * e)) * (X * X))%C with (- (RtoC c * RtoC s * (e * e) * (X * X)))%C.
  2: { replace (RtoC c * RtoC s * (e * e) * (X * X))%C with (RtoC (/ 2 * 2) * (RtoC c * RtoC s * (e * e) * (X * X)))%C at 1; [rewrite RtoC_mult; ring|].
       replace (/ 2 * 2)%R with 1%R by field. ring. }
  transitivity (- (RtoC c * RtoC s * (e * e) * (X * X)) + (RtoC c * RtoC c - RtoC s * RtoC s) * ((e * f) * (X * Y)) + RtoC c * RtoC s * (f * f) * (Y * Y))%C; [ring|].
  rewrite I. ring.
Qed.
(** the spherical harmonics of a degree are the coefficients of the l-th power of the form *)
Definition harm (l k : Z) (theta phi : R) : C := (RtoC (D (2 * l) k l theta) * cis (IZR (k - l) * phi))%C.
Lemma harm_form l theta phi X Y : 0 <= l ->
  hom (2 * l) (fun k => (RtoC (/ nrm (2 * l) k) * harm l k theta phi)%C) X Y
  = (RtoC (/ nrm (2 * l) l) * cpw (quad (direction theta phi) X Y) l)%C.
Proof.
  intros Hl. rewrite <- quad_split, cpw_mult by lia. rewrite <- gen_hom by lia. unfold hom. replace (l + l) with (2 * l) by lia. rewrite <- cs_scal_l.
  apply cr_ext. intros k Hk. unfold harm, D. rewrite dh_in by lia. replace (2 * l - l) with l by lia.
  rewrite <- !Cmult_assoc, half_phase by lia. pose proof (nrm_neq (2 * l) k). pose proof (nrm_neq (2 * l) l).
  set (g := gen _ _ _ _ _). 
  replace (RtoC (nrm (2 * l) k / nrm (2 * l) l * g)) with (RtoC (nrm (2 * l) k) * RtoC (/ nrm (2 * l) l) * RtoC g)%C by (unfold Rdiv; rewrite !RtoC_mult; ring).
  transitivity ((RtoC (/ nrm (2 * l) k) * RtoC (nrm (2 * l) k)) * (RtoC (/ nrm (2 * l) l) * (RtoC g * (cis (IZR (k - l) * phi) * cpw X k * cpw Y (2 * l - k)))))%C; [ring|].
  rewrite <- RtoC_mult, Rinv_l by auto. ring.
Qed.

(** the form of the rotated point *)
Lemma quad_rot_z a p X Y : quad (rot_z a p) (cis (- (a / 2)) * X) (cis (a / 2) * Y) = quad p X Y.
Proof.
  destruct p as ((x & y) & z). unfold quad, rot_z.
  replace (RtoC (cos a * x - sin a * y) + Ci * RtoC (sin a * x + cos a * y))%C with ((cis (a / 2) * cis (a / 2)) * (RtoC x + Ci * RtoC y))%C.
  2: { rewrite <- cis_plus. replace (a / 2 + a / 2)%R with a by field. unfold cis, RtoC, Ci, Cmult, Cplus. apply C_eq; cbn; ring. }
  replace (RtoC (cos a * x - sin a * y) - Ci * RtoC (sin a * x + cos a * y))%C with ((cis (- (a / 2)) * cis (- (a / 2))) * (RtoC x - Ci * RtoC y))%C.
  2: { rewrite <- cis_plus. replace (- (a / 2) + - (a / 2))%R with (- a)%R by field. unfold cis, RtoC, Ci, Cmult, Cplus, Cminus, Copp. rewrite cos_neg, sin_neg. apply C_eq; cbn; ring. }
  pose proof (cis_inv (a / 2)) as I. set (e := cis (a / 2)) in *. set (f := cis (- (a / 2))) in *.
  transitivity (- RtoC (/ 2) * (RtoC x + Ci * RtoC y) * ((e * f) * (e * f)) * (X * X) + RtoC z * (e * f) * (X * Y) + RtoC (/ 2) * (RtoC x - Ci * RtoC y) * ((e * f) * (e * f)) * (Y * Y))%C; [ring|].
  rewrite I. ring.
Qed.
Lemma quad_rot_y b p X Y :
  quad (rot_y b p) (RtoC (cos (b / 2)) * X - RtoC (sin (b / 2)) * Y)%C (RtoC (sin (b / 2)) * X + RtoC (cos (b / 2)) * Y)%C = quad p X Y.
Proof.
  destruct p as ((x & y) & z). unfold quad, rot_y. pose proof (cs_one (b / 2)) as U. rewrite <- (cos_half_double b), <- (sin_half_double b).
  set (c := cos (b / 2)) in *. set (s := sin (b / 2)) in *.
  assert (U1 : (c * c = 1 - s * s)%R) by lra.
  assert (E : forall P Q : R, (- RtoC (/ 2) * (RtoC P + Ci * RtoC y) * ((RtoC c * X - RtoC s * Y) * (RtoC c * X - RtoC s * Y))
     + RtoC Q * ((RtoC c * X - RtoC s * Y) * (RtoC s * X + RtoC c * Y)) + RtoC (/ 2) * (RtoC P - Ci * RtoC y) * ((RtoC s * X + RtoC c * Y) * (RtoC s * X + RtoC c * Y)))%C
     = (- RtoC (/ 2) * (RtoC ((c * c - s * s) * P - 2 * c * s * Q) + Ci * RtoC ((c * c + s * s) * y)) * (X * X) + RtoC ((c * c - s * s) * Q + 2 * c * s * P) * (X * Y)
        + RtoC (/ 2) * (RtoC ((c * c - s * s) * P - 2 * c * s * Q) - Ci * RtoC ((c * c + s * s) * y)) * (Y * Y))%C).
  { intros P Q. destruct X as [X1 X2], Y as [Y1 Y2]. unfold RtoC, Ci, Cmult, Cplus, Cminus, Copp. apply C_eq; cbn; field. }
  rewrite E, U, Rmult_1_l.
  replace ((c * c - s * s) * ((c * c - s * s) * x + 2 * c * s * z) - 2 * c * s * (- (2 * c * s) * x + (c * c - s * s) * z))%R with x.
  2: { replace ((c * c - s * s) * ((c * c - s * s) * x + 2 * c * s * z) - 2 * c * s * (- (2 * c * s) * x + (c * c - s * s) * z))%R
         with ((c * c + s * s) * (c * c + s * s) * x)%R by ring. rewrite U. ring. }
  replace ((c * c - s * s) * (- (2 * c * s) * x + (c * c - s * s) * z) + 2 * c * s * ((c * c - s * s) * x + 2 * c * s * z))%R with z.
  2: { replace ((c * c - s * s) * (- (2 * c * s) * x + (c * c - s * s) * z) + 2 * c * s * ((c * c - s * s) * x + 2 * c * s * z))%R
         with ((c * c + s * s) * (c * c + s * s) * z)%R by ring. rewrite U. ring. }
  reflexivity.
Qed.

Definition DD (l k i : Z) (alpha beta gamma : R) : C :=
  (cis (- (IZR (k - l) * alpha)) * RtoC (D (2 * l) k i beta) * cis (- (IZR (i - l) * gamma)))%C.
Lemma harm_rotate l i alpha beta gamma theta phi theta' phi' : 0 <= l -> 0 <= i <= 2 * l ->
  direction theta phi = euler alpha beta gamma (direction theta' phi') ->
  csum (zrange 0 (2 * l + 1)) (fun k => (DD l k i alpha beta gamma * harm l k theta phi)%C) = harm l i theta' phi'.
Proof.
  intros Hl Hi HD.
  assert (E : (RtoC (/ nrm (2 * l) i) * csum (zrange 0 (2 * l + 1)) (fun k => (DD l k i alpha beta gamma * harm l k theta phi)%C))%C
            = (RtoC (/ nrm (2 * l) i) * harm l i theta' phi')%C).
  2: { pose proof (nrm_neq (2 * l) i) as N. transitivity (RtoC (nrm (2 * l) i) * (RtoC (/ nrm (2 * l) i) * harm l i theta' phi'))%C; [rewrite <- E|];
       rewrite Cmult_assoc, <- RtoC_mult, Rinv_r by auto; ring. }
  revert i Hi. apply (hom_unique (2 * l)); [lia|]. intros X Y. rewrite harm_form by auto.
  set (U := (RtoC (cos (beta / 2)) * (cis (- (gamma / 2)) * X) - RtoC (sin (beta / 2)) * (cis (gamma / 2) * Y))%C).
  set (V := (RtoC (sin (beta / 2)) * (cis (- (gamma / 2)) * X) + RtoC (cos (beta / 2)) * (cis (gamma / 2) * Y))%C).
  replace (quad (direction theta' phi') X Y) with (quad (direction theta phi) (cis (- (alpha / 2)) * U) (cis (alpha / 2) * V)).
  2: { rewrite HD. unfold euler. rewrite quad_rot_z. unfold U, V. rewrite quad_rot_y. apply quad_rot_z. }
  rewrite <- harm_form by auto. unfold hom at 1.
  rewrite (cr_ext 0 (2 * l + 1) _ (fun i => csum (zrange 0 (2 * l + 1)) (fun k =>
    (harm l k theta phi * RtoC (/ nrm (2 * l) k) * cis (- (IZR (k - l) * alpha)) *
      (RtoC (gen (cos (- beta / 2)) (sin (- beta / 2)) k (2 * l - k) i) * (cis (- (IZR (i - l) * gamma)) * cpw X i * cpw Y (2 * l - i))))%C))).
  2: { intros i Hi. rewrite <- cs_scal_l, <- !cs_scal_r. apply cr_ext. intros k Hk. unfold DD.
       rewrite <- (D_opp (2 * l) i k beta) by lia. unfold D. rewrite dh_in by lia. set (g := gen _ _ _ _ _).
       pose proof (nrm_neq (2 * l) i) as N. unfold Rdiv. rewrite !RtoC_mult.
       transitivity ((RtoC (/ nrm (2 * l) i) * RtoC (nrm (2 * l) i)) * (RtoC (/ nrm (2 * l) k) * (harm l k theta phi * cis (- (IZR (k - l) * alpha)) *
         (RtoC g * (cis (- (IZR (i - l) * gamma)) * cpw X i * cpw Y (2 * l - i))))))%C; [ring|].
       rewrite <- RtoC_mult, Rinv_l by auto. ring. }
  rewrite cs_swap. unfold hom. apply cr_ext. intros k Hk. rewrite cs_scal_l.
  rewrite (cr_ext 0 (2 * l + 1) _ (fun i => (RtoC (gen (cos (- beta / 2)) (sin (- beta / 2)) k (2 * l - k) i) * cpw (cis (- gamma / 2) * X) i * cpw (cis (- (- gamma / 2)) * Y) (2 * l - i))%C)).
  2: { intros i Hi. rewrite <- (Cmult_assoc (RtoC _)), half_phase by lia. do 3 f_equal. f_equal. ring. }
  replace (2 * l + 1) with (k + (2 * l - k) + 1) at 1 by lia.
  assert (G := gen_hom (cos (- beta / 2)) (sin (- beta / 2)) k (2 * l - k) (cis (- gamma / 2) * X)%C (cis (- (- gamma / 2)) * Y)%C ltac:(lia) ltac:(lia)).
  unfold hom in G. rewrite (cr_ext _ _ _ (fun i => (RtoC (gen (cos (- beta / 2)) (sin (- beta / 2)) k (2 * l - k) i) * cpw (cis (- gamma / 2) * X) i * cpw (cis (- (- gamma / 2)) * Y) (k + (2 * l - k) - i))%C))
    by (intros i Hi; replace (k + (2 * l - k) - i) with (2 * l - i) by lia; reflexivity). rewrite G. clear G.
  replace (- beta / 2)%R with (- (beta / 2))%R by field. replace (- gamma / 2)%R with (- (gamma / 2))%R by field. rewrite cos_neg, sin_neg, Ropp_involutive.
  replace (RtoC (cos (beta / 2)) * (cis (- (gamma / 2)) * X) + RtoC (- sin (beta / 2)) * (cis (gamma / 2) * Y))%C with U by (unfold U; rewrite RtoC_opp; ring).
  replace (- RtoC (- sin (beta / 2)) * (cis (- (gamma / 2)) * X) + RtoC (cos (beta / 2)) * (cis (gamma / 2) * Y))%C with V by (unfold V; rewrite RtoC_opp; ring).
  replace (cis (- (alpha / 2)) * U)%C with (cis (- alpha / 2) * U)%C by (do 2 f_equal; field).
  replace (cis (alpha / 2) * V)%C with (cis (- (- alpha / 2)) * V)%C by (do 2 f_equal; field).
  rewrite <- !(Cmult_assoc _ (cpw (cis _ * _) _)), half_phase by lia. replace (IZR (k - l) * - alpha)%R with (- (IZR (k - l) * alpha))%R by ring. ring.
Qed.
