(** Uniqueness for the d-function ODE; Fourier expansion and addition law. *)
From Coq Require Import Reals Lia Lra ZArith List Psatz ZifyBool.
From Coquelicot Require Import Coquelicot.
From Verif Require Import Lib.Py Lib.PyFacts Lib.Sums Lib.Cplx Spec.WignerSpec Proofs.WignerGen Proofs.WignerDh Proofs.WignerCalc.
Open Scope Z_scope.

Definition solves (j : Z) (u : Z -> R -> R) : Prop :=
  forall k x, 0 <= k <= j -> is_derive (u k) x ((ac j k * u (k + 1)%Z x - ac j (k - 1) * u (k - 1)%Z x) / 2)%R.

Lemma rsum_sq_0 (l : list Z) f : rsum l (fun k => (f k * f k)%R) = 0%R -> forall k, In k l -> f k = 0%R.
Proof.
  assert (P : forall l, (0 <= rsum l (fun k => (f k * f k)%R))%R).
  { induction l0; [cbn; lra|]. change (0 <= f a * f a + rsum l0 (fun k => f k * f k))%R. nra. }
  induction l as [|a l IH]; intros H k Hk; [destruct Hk|].
  change (f a * f a + rsum l (fun k => f k * f k) = 0)%R in H. pose proof (P l).
  assert (f a * f a = 0)%R by nra. destruct Hk as [->|Hk]; [nra|]. apply IH; [nra|exact Hk].
Qed.

Lemma solves_unique j u v : 0 <= j -> solves j u -> solves j v ->
  (forall k, 0 <= k <= j -> u k 0%R = v k 0%R) -> forall k x, 0 <= k <= j -> u k x = v k x.
Proof.
  intros Hj Hu Hv H0 k x Hk.
  set (w := fun k x => (u k x - v k x)%R).
  set (G := fun y => rsum (zrange 0 (j + 1)) (fun k => (w k y * w k y)%R)).
  assert (HG : forall y, is_derive G y 0%R).
  { intros y. set (T := fun k => (ac j k * (w (k + 1)%Z y * w k y))%R).
    replace 0%R with (rsum (zrange 0 (j + 1)) (fun k => (T k - T (k - 1)%Z)%R)).
    - unfold G. apply (rsum_derive _ (fun k y => (w k y * w k y)%R)). intros q Hq. apply in_zrange in Hq.
      pose proof (Hu q y ltac:(lia)) as A. pose proof (Hv q y ltac:(lia)) as B.
      pose proof (is_derive_minus (V := R_NormedModule) _ _ _ _ _ A B) as W.
      pose proof (is_derive_mult (K := R_AbsRing) _ _ _ _ _ W W Rmult_comm) as M.
      apply (is_derive_eq _ _ _ _ M). unfold plus, mult, minus, opp; cbn -[ac Z.add Z.sub Z.mul IZR].
      unfold T, w. replace (q - 1 + 1) with q by lia. unfold plus, minus, opp; cbn -[ac Z.add Z.sub]. field.
    - rewrite rsum_telescope by lia. unfold T. replace (j + 1 - 1) with j by lia.
      rewrite (ac_out j j), (ac_out j (0 - 1)) by lia. ring. }
  assert (G0 : G x = 0%R).
  { rewrite (const_of_derive G HG x 0). apply rr_0. intros q Hq. unfold w. rewrite H0 by lia. ring. }
  assert (E : w k x = 0%R) by (apply (rsum_sq_0 _ (fun k => w k x) G0); apply in_zrange; lia).
  unfold w in E. lra.
Qed.

Lemma solves_D j i : 0 <= j -> solves j (fun k => D j k i).
Proof. intros Hj k x _. now apply D_derive. Qed.

(** ** Fourier expansion *)
Definition HP2 (j k i : Z) : R := D j k i (PI / 2).

(** Jz at pi/2, in the second index. *)
Lemma HP2_row j q k : 0 <= q <= j ->
  (IZR (2 * q - j) * HP2 j q k = - (ac j (k - 1) * HP2 j q (k - 1) + ac j k * HP2 j q (k + 1)))%R.
Proof.
  intros Hq. unfold HP2.
  assert (TR : forall z, D j q z (PI / 2) = (sgn (q - z) * D j z q (PI / 2))%R).
  { intros z. destruct (Z_le_dec 0 z), (Z_le_dec z j); [apply D_transpose; lia| | |];
    unfold D; rewrite dh_out_i, dh_out_k by lia; ring. }
  rewrite !TR. pose proof (D_Jz j k q (PI / 2) ltac:(lia)) as J. rewrite cos_PI2, sin_PI2 in J.
  replace (q - (k - 1)) with (q - k + 1) by lia. replace (q - (k + 1)) with (q - k - 1) by lia.
  rewrite sgn_succ, (sgn_sub (q - k) 1). replace (sgn 1) with (-1)%R by reflexivity.
  transitivity (sgn (q - k) * (IZR (2 * q - j) * D j k q (PI / 2)))%R; [ring|]. rewrite J. ring.
Qed.

Definition four (tr : R -> R) (j i k : Z) (x : R) : R :=
  rsum (zrange 0 (j + 1)) (fun q => (HP2 j q k * HP2 j q i * tr (IZR (2 * q - j) / 2 * x + IZR (i - k) * (PI / 2)))%R).

Lemma four_solves (tr : R -> R) j i : 0 <= j -> (forall x, is_derive tr x (tr (x + PI / 2)%R)) ->
  (forall x, tr (x + PI)%R = (- tr x)%R) -> solves j (four tr j i).
Proof.
  intros Hj Hd Hs k x Hk. unfold four at 1.
  set (ph := fun q k => (IZR (2 * q - j) / 2 * x + IZR (i - k) * (PI / 2))%R).
  set (g := fun q => (HP2 j q k * HP2 j q i * (IZR (2 * q - j) / 2 * tr (ph q k + PI / 2)%R))%R).
  apply (is_derive_eq _ _ (rsum (zrange 0 (j + 1)) g)).
  - apply (rsum_derive _ (fun q y => (HP2 j q k * HP2 j q i * tr (IZR (2 * q - j) / 2 * y + IZR (i - k) * (PI / 2)))%R) g x).
    intros q _. unfold g. apply is_derive_scal.
    apply (is_derive_comp (V := R_NormedModule) tr (fun y => (IZR (2 * q - j) / 2 * y + IZR (i - k) * (PI / 2))%R)).
    + apply Hd.
    + generalize (IZR (2 * q - j) / 2)%R (IZR (i - k) * (PI / 2))%R. intros. auto_derive; [trivial|ring].
  - unfold four. rewrite <- !rs_scal_l, <- rs_minus. unfold Rdiv at 1. rewrite <- rs_scal_r. apply rr_ext. intros q Hq.
    unfold g. fold (ph q (k + 1)) (ph q (k - 1)).
    assert (P1 : tr (ph q (k - 1)) = tr (ph q k + PI / 2)%R).
    { unfold ph. replace (i - (k - 1)) with (i - k + 1) by lia. rewrite (plus_IZR (i - k)). f_equal. ring. }
    assert (P2 : tr (ph q (k + 1)) = (- tr (ph q k + PI / 2)%R)%R).
    { rewrite <- Hs, <- (Ropp_involutive (tr (ph q (k + 1)))), <- Hs.
      unfold ph. replace (i - (k + 1)) with (i - k - 1) by lia. rewrite (minus_IZR (i - k)). rewrite <- Hs.
      f_equal. f_equal. field. }
    rewrite P1, P2. set (X := tr (ph q k + PI / 2)%R).
    pose proof (HP2_row j q k ltac:(lia)) as J.
    transitivity (IZR (2 * q - j) * HP2 j q k * (HP2 j q i * X / 2))%R; [field|]. rewrite J. field.
Qed.

Lemma cos_dq x : is_derive cos x (cos (x + PI / 2)).
Proof. replace (cos (x + PI / 2)) with (- sin x)%R; [apply is_derive_cos|]. rewrite cos_plus, cos_PI2, sin_PI2. ring. Qed.
Lemma sin_dq x : is_derive sin x (sin (x + PI / 2)).
Proof. replace (sin (x + PI / 2)) with (cos x)%R; [apply is_derive_sin|]. rewrite sin_plus, cos_PI2, sin_PI2. ring. Qed.

Lemma four_0 tr j i k : 0 <= i <= j -> 0 <= k <= j ->
  four tr j i k 0 = if k =? i then tr 0%R else 0%R.
Proof.
  intros Hi Hk. unfold four.
  rewrite (rr_ext _ _ _ (fun q => (HP2 j q k * HP2 j q i * tr (IZR (i - k) * (PI / 2)))%R)).
  2:{ intros q _. do 2 f_equal. ring. }
  rewrite rs_scal_r. unfold HP2. rewrite D_cols by lia. destruct (Z.eqb_spec k i) as [->|]; [|ring].
  rewrite Z.sub_diag. rewrite Rmult_0_l. ring.
Qed.

Lemma D_four_cos j k i x : 0 <= i <= j -> 0 <= k <= j -> D j k i x = four cos j i k x.
Proof.
  intros Hi Hk. refine (solves_unique j (fun k => D j k i) (four cos j i) ltac:(lia) _ _ _ k x Hk).
  - apply solves_D; lia.
  - apply four_solves; [lia|apply cos_dq|]. intros. apply neg_cos.
  - intros q Hq. rewrite D_0, four_0 by lia. now rewrite cos_0.
Qed.
Lemma D_four_sin j k i x : 0 <= i <= j -> 0 <= k <= j -> four sin j i k x = 0%R.
Proof.
  intros Hi Hk. refine (solves_unique j (four sin j i) (fun _ _ => 0%R) ltac:(lia) _ _ _ k x Hk).
  - apply four_solves; [lia|apply sin_dq|]. intros. apply neg_sin.
  - intros q y _. apply (is_derive_eq _ _ 0%R); [apply (is_derive_const (V := R_NormedModule))|]. field.
  - intros q Hq. rewrite four_0 by lia. rewrite sin_0. now destruct (q =? i).
Qed.

Lemma D_fourier j k i x : 0 <= i <= j -> 0 <= k <= j ->
  RtoC (D j k i x) = (cis (IZR (i - k) * (PI / 2)) *
    csum (zrange 0 (j + 1)) (fun q => RtoC (HP2 j q k * HP2 j q i) * cis (IZR (2 * q - j) / 2 * x)))%C.
Proof.
  intros Hi Hk. rewrite <- cs_scal_l. apply C_eq.
  - rewrite Re_csum. change (Re (RtoC (D j k i x))) with (D j k i x). rewrite D_four_cos by auto.
    apply rr_ext. intros q _. rewrite Rplus_comm, cos_plus. cbn. ring.
  - rewrite Im_csum. change (Im (RtoC (D j k i x))) with 0%R. transitivity (four sin j i k x); [symmetry; now apply D_four_sin|].
    apply rr_ext. intros q _. rewrite Rplus_comm, sin_plus. cbn. ring.
Qed.

(** ** addition law *)
Lemma D_add j k i x y : 0 <= i <= j -> 0 <= k <= j ->
  D j k i (x + y)%R = rsum (zrange 0 (j + 1)) (fun q => (D j k q x * D j q i y)%R).
Proof.
  intros Hi Hk.
  refine (solves_unique j (fun k x => D j k i (x + y)%R) (fun k x => rsum (zrange 0 (j + 1)) (fun q => (D j k q x * D j q i y)%R)) ltac:(lia) _ _ _ k x Hk).
  - intros q z _. pose proof (D_derive j q i (z + y)%R ltac:(lia)) as A.
    pose proof (is_derive_comp (V := R_NormedModule) (D j q i) (fun z => (z + y)%R) z _ 1%R A) as B.
    apply (is_derive_eq _ _ (scal 1%R ((ac j q * D j (q + 1) i (z + y) - ac j (q - 1) * D j (q - 1) i (z + y)) / 2)%R)).
    + apply B. auto_derive; [trivial|ring].
    + unfold scal; cbn -[ac D Z.add Z.sub]. unfold mult; cbn -[ac D Z.add Z.sub]. ring.
  - intros q z _.
    apply (is_derive_eq _ _ (rsum (zrange 0 (j + 1)) (fun p => (D j p i y * ((ac j q * D j (q + 1) p z - ac j (q - 1) * D j (q - 1) p z) / 2))%R))).
    + apply (rsum_derive _ (fun p z => (D j q p z * D j p i y)%R)). intros p _.
      apply (is_derive_ext (fun z => (D j p i y * D j q p z)%R)); [intros t; apply Rmult_comm|].
      apply is_derive_scal. apply D_derive; lia.
    + rewrite <- !rs_scal_l, <- rs_minus. unfold Rdiv at 2. rewrite <- rs_scal_r. apply rr_ext. intros p _. field.
  - intros q Hq. rewrite Rplus_0_l.
    rewrite (rr_ext _ _ _ (fun p => if p =? q then D j q i y else 0%R)).
    + now rewrite (rr_delta 0 (j + 1) q (fun _ => D j q i y)) by lia.
    + intros p Hp. rewrite D_0 by lia. rewrite (Z.eqb_sym q p). destruct (Z.eqb_spec p q) as [->|]; ring.
Qed.

Lemma D_opp j k i x : 0 <= i <= j -> 0 <= k <= j -> D j k i (- x) = D j i k x.
Proof.
  intros Hi Hk. unfold D. replace (- x / 2)%R with (- (x / 2))%R by field. rewrite cos_neg, sin_neg.
  rewrite dh_neg by lia. rewrite (dh_transpose _ _ j i k) by lia. f_equal. rewrite <- sgn_opp. f_equal. lia.
Qed.
Lemma D_PI_minus j k i x : 0 <= i <= j -> 0 <= k <= j -> D j k i (PI - x) = (sgn k * D j k (j - i) x)%R.
Proof.
  intros Hi Hk. unfold D. replace ((PI - x) / 2)%R with (PI / 2 - x / 2)%R by field.
  rewrite cos_shift, sin_shift. now apply dh_swap.
Qed.
Lemma D_flip j k i x : 0 <= i <= j -> 0 <= k <= j -> D j (j - k) (j - i) x = (sgn (k - i) * D j k i x)%R.
Proof. intros. now apply dh_flip. Qed.
