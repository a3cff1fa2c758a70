(** Generating polynomials (c x + s)^i (-s x + c)^b of the Wigner d-functions. *)
From Coq Require Import Reals Lia Lra ZArith List Psatz ZifyBool.
From Coquelicot Require Import Complex.
From Verif Require Import Lib.Py Lib.PyFacts Lib.Sums Lib.Cplx Spec.WignerSpec.
Open Scope Z_scope.

(** ** Factorials and powers with integer arguments *)
Lemma zf_0 : zf 0 = 1%R. Proof. reflexivity. Qed.
Lemma zf_1 : zf 1 = 1%R. Proof. reflexivity. Qed.
Lemma zf_succ k : 0 <= k -> zf (k + 1) = (IZR (k + 1) * zf k)%R.
Proof.
  intros H. unfold zf. replace (Z.to_nat (k + 1)) with (S (Z.to_nat k)) by lia.
  rewrite fact_simpl, mult_INR. f_equal. rewrite INR_IZR_INZ. f_equal. lia.
Qed.
Lemma zf_pred k : 0 < k -> zf k = (IZR k * zf (k - 1))%R.
Proof. intros H. replace k with (k - 1 + 1) at 1 2 by lia. apply zf_succ. lia. Qed.
Lemma zf_pos k : (0 < zf k)%R. Proof. apply INR_fact_lt_0. Qed.
Lemma zf_neq k : zf k <> 0%R. Proof. apply INR_fact_neq_0. Qed.

Definition ifac (k : Z) : R := if 0 <=? k then (/ zf k)%R else 0%R.
Lemma ifac_rec k : (IZR k * ifac k = ifac (k - 1))%R.
Proof.
  unfold ifac. destruct (Z.leb_spec 0 k), (Z.leb_spec 0 (k - 1)); try lia; try ring.
  - rewrite (zf_pred k) by lia. field. split; [apply zf_neq|]. apply not_0_IZR. lia.
  - replace k with 0 by lia. ring.
Qed.
Lemma ifac_pos k : 0 <= k -> ifac k = (/ zf k)%R.
Proof. intros H. unfold ifac. now replace (0 <=? k) with true by lia. Qed.
Lemma ifac_neg k : k < 0 -> ifac k = 0%R.
Proof. intros H. unfold ifac. now replace (0 <=? k) with false by lia. Qed.
Lemma ifac_0 : ifac 0 = 1%R. Proof. rewrite ifac_pos, zf_0 by lia. lra. Qed.

Lemma zpow_0 x : zpow x 0 = 1%R. Proof. reflexivity. Qed.
Lemma zpow_1 x : zpow x 1 = x. Proof. change (x ^ 1 = x)%R. ring. Qed.
Lemma zpow_succ x k : 0 <= k -> zpow x (k + 1) = (x * zpow x k)%R.
Proof. intros H. unfold zpow. replace (Z.to_nat (k + 1)) with (S (Z.to_nat k)) by lia. reflexivity. Qed.
Lemma zpow_add x a b : 0 <= a -> 0 <= b -> zpow x (a + b) = (zpow x a * zpow x b)%R.
Proof. intros. unfold zpow. rewrite Z2Nat.inj_add by lia. apply pow_add. Qed.
Lemma zpow_mult x y k : zpow (x * y) k = (zpow x k * zpow y k)%R.
Proof. apply Rpow_mult_distr. Qed.
Lemma zpow_opp x k : 0 <= k -> zpow (- x) k = (sgn k * zpow x k)%R.
Proof.
  revert k. z_ind; [change (1 = 1 * 1)%R; ring|]. intros k Hk IH.
  rewrite <- Z.add_1_r, !zpow_succ, IH, sgn_succ by lia. ring.
Qed.

(** ** Multiplication by a linear factor *)
Definition lin (a b : R) (p : Z -> R) (k : Z) : R := (a * p (k - 1)%Z + b * p k)%R.
Definition delta0 (k : Z) : R := if k =? 0 then 1%R else 0%R.

Fixpoint itlin (n : nat) (a b : R) (p : Z -> R) : Z -> R :=
  match n with O => p | S n' => lin a b (itlin n' a b p) end.

Lemma lin_ext a b p q : (forall k, p k = q k) -> forall k, lin a b p k = lin a b q k.
Proof. intros H k. unfold lin. now rewrite !H. Qed.
Lemma itlin_ext n a b p q : (forall k, p k = q k) -> forall k, itlin n a b p k = itlin n a b q k.
Proof. intros H. induction n; intros k; cbn [itlin]; [apply H|]. apply lin_ext, IHn. Qed.
Lemma lin_comm a b a' b' p k : lin a b (lin a' b' p) k = lin a' b' (lin a b p) k.
Proof. unfold lin. ring. Qed.
Lemma itlin_lin n a b a' b' p k : itlin n a b (lin a' b' p) k = lin a' b' (itlin n a b p) k.
Proof.
  revert k. induction n; intros k; cbn [itlin]; [reflexivity|].
  rewrite (lin_ext a b _ _ IHn). apply lin_comm.
Qed.
Lemma itlin_shift n a b p d k : itlin n a b (fun k => p (k - d)) k = itlin n a b p (k - d).
Proof.
  revert k. induction n; intros k; cbn [itlin]; [reflexivity|].
  unfold lin at 1 2. rewrite !IHn. unfold lin. do 3 f_equal; lia.
Qed.
Lemma itlin_scal n a b p x k : itlin n a b (fun k => x * p k)%R k = (x * itlin n a b p k)%R.
Proof.
  revert k. induction n; intros k; cbn [itlin]; [reflexivity|].
  unfold lin. rewrite !IHn. ring.
Qed.
Lemma itlin_plus n a b p q k : itlin n a b (fun k => p k + q k)%R k = (itlin n a b p k + itlin n a b q k)%R.
Proof.
  revert k. induction n; intros k; cbn [itlin]; [reflexivity|].
  unfold lin. rewrite !IHn. ring.
Qed.

(** x d/dx *)
Lemma itlin_xd n a b p k :
  (IZR k * itlin n a b p k
   = itlin n a b (fun k => IZR k * p k) k + INR n * a * itlin (pred n) a b p (k - 1))%R.
Proof.
  revert k. induction n; intros k; [cbn; ring|]. cbn [itlin pred]. unfold lin at 1 2.
  rewrite Rmult_plus_distr_l.
  replace (IZR k * (a * itlin n a b p (k - 1)))%R
    with (a * (IZR (k - 1) * itlin n a b p (k - 1)) + a * itlin n a b p (k - 1))%R by (rewrite minus_IZR; ring).
  replace (IZR k * (b * itlin n a b p k))%R with (b * (IZR k * itlin n a b p k))%R by ring.
  rewrite !IHn. rewrite S_INR. destruct n; [cbn; ring|]. cbn [pred itlin].
  rewrite S_INR. unfold lin. ring.
Qed.

(** The complementary derivative for degree j. *)
Lemma itlin_yd n a b p j k :
  (IZR (j + Z.of_nat n - k) * itlin n a b p k
   = itlin n a b (fun k => IZR (j - k) * p k) k + INR n * b * itlin (pred n) a b p k)%R.
Proof.
  revert k. induction n; intros k; [cbn; rewrite Z.add_0_r; ring|]. cbn [itlin pred]. unfold lin at 1 2.
  rewrite Rmult_plus_distr_l.
  replace (IZR (j + Z.of_nat (S n) - k) * (a * itlin n a b p (k - 1)))%R
    with (a * (IZR (j + Z.of_nat n - (k - 1)) * itlin n a b p (k - 1)))%R.
  2:{ replace (j + Z.of_nat n - (k - 1)) with (j + Z.of_nat (S n) - k) by lia. ring. }
  replace (IZR (j + Z.of_nat (S n) - k) * (b * itlin n a b p k))%R
    with (b * (IZR (j + Z.of_nat n - k) * itlin n a b p k) + b * itlin n a b p k)%R.
  2:{ replace (j + Z.of_nat (S n) - k) with (j + Z.of_nat n - k + 1) by lia. rewrite plus_IZR. ring. }
  rewrite !IHn, S_INR. destruct n; [cbn; ring|]. cbn [pred itlin]. rewrite S_INR. unfold lin. ring.
Qed.

(** Explicit expansion. *)
Lemma itlin_expand n a b p k :
  itlin n a b p k = rsum (zrange 0 (Z.of_nat n + 1)) (fun u =>
    (zf (Z.of_nat n) * ifac u * ifac (Z.of_nat n - u) * zpow a u * zpow b (Z.of_nat n - u) * p (k - u)%Z)%R).
Proof.
  revert k. induction n; intros k.
  - cbn [itlin]. change (Z.of_nat 0 + 1) with (0 + 1). rewrite rr_one. change (Z.of_nat 0) with 0.
    rewrite !Z.sub_0_r, zf_0, ifac_0, !zpow_0. ring.
  - cbn [itlin]. unfold lin. rewrite !IHn. rewrite <- !rs_scal_l.
    set (N := Z.of_nat n) in *. replace (Z.of_nat (S n)) with (N + 1) by lia.
    assert (HN : 0 <= N) by lia. clearbody N. clear IHn.
    assert (E : forall u, 0 <= u <= N + 1 ->
      (zf (N + 1) * ifac u * ifac (N + 1 - u) * zpow a u * zpow b (N + 1 - u) * p (k - u)%Z
       = (if u =? 0 then 0 else a * (zf N * ifac (u - 1) * ifac (N - (u - 1)) * zpow a (u - 1) * zpow b (N - (u - 1)) * p (k - 1 - (u - 1))%Z))
         + (if u =? N + 1 then 0 else b * (zf N * ifac u * ifac (N - u) * zpow a u * zpow b (N - u) * p (k - u)%Z)))%R).
    { intros u Hu. rewrite zf_succ by lia.
      replace (IZR (N + 1)) with (IZR u + IZR (N + 1 - u))%R by (rewrite <- plus_IZR; f_equal; lia).
      assert (E1 : (IZR u * ifac u * zpow a u = if u =? 0 then 0 else a * (ifac (u - 1) * zpow a (u - 1)))%R).
      { destruct (Z.eqb_spec u 0) as [->|]; [ring|]. rewrite ifac_rec.
        replace (zpow a u) with (a * zpow a (u - 1))%R; [ring|]. rewrite <- zpow_succ by lia. f_equal. lia. }
      assert (E2 : (IZR (N + 1 - u) * ifac (N + 1 - u) * zpow b (N + 1 - u)
         = if u =? N + 1 then 0 else b * (ifac (N - u) * zpow b (N - u)))%R).
      { destruct (Z.eqb_spec u (N + 1)) as [->|]; [rewrite Z.sub_diag; ring|]. rewrite ifac_rec.
        replace (zpow b (N + 1 - u)) with (b * zpow b (N - u))%R.
        2:{ rewrite <- zpow_succ by lia. f_equal. lia. }
        replace (N + 1 - u - 1) with (N - u) by lia. ring. }
      replace (N - (u - 1)) with (N + 1 - u) by lia. replace (k - 1 - (u - 1)) with (k - u) by lia.
      transitivity ((IZR u * ifac u * zpow a u) * (zf N * ifac (N + 1 - u) * zpow b (N + 1 - u) * p (k - u)%Z)
        + (IZR (N + 1 - u) * ifac (N + 1 - u) * zpow b (N + 1 - u)) * (zf N * ifac u * zpow a u * p (k - u)%Z))%R; [ring|].
      rewrite E1, E2. destruct (u =? 0), (u =? N + 1); ring. }
    rewrite (rr_ext 0 (N + 1 + 1) _ _ (fun u Hu => E u ltac:(lia))). rewrite rs_plus. f_equal.
    + rewrite (rr_cons 0 (N + 1 + 1)) by lia. cbv beta. change (0 =? 0) with true. cbv iota. rewrite Rplus_0_l.
      rewrite <- (rr_perm 0 (N + 1) (0 + 1) (N + 1 + 1) (fun x => x + 1)) by lia.
      apply rr_ext. intros u Hu. replace (u + 1 =? 0) with false by lia.
      replace (u + 1 - 1) with u by lia. reflexivity.
    + rewrite (rr_snoc 0 (N + 1)) by lia. rewrite Z.eqb_refl, Rplus_0_r. apply rr_ext. intros u Hu.
      now replace (u =? N + 1) with false by lia.
Qed.

(** ** The generating polynomials *)
Section Gen.
  Variables c s : R.

  Definition gen (i b : Z) : Z -> R :=
    itlin (Z.to_nat i) c s (itlin (Z.to_nat b) (- s) c delta0).

  Lemma gen_00 k : gen 0 0 k = delta0 k. Proof. reflexivity. Qed.

  Lemma gen_R1 i b k : 0 <= i -> gen (i + 1) b k = (c * gen i b (k - 1) + s * gen i b k)%R.
  Proof.
    intros H. unfold gen. replace (Z.to_nat (i + 1)) with (S (Z.to_nat i)) by lia. reflexivity.
  Qed.
  Lemma gen_R2 i b k : 0 <= b -> gen i (b + 1) k = (- s * gen i b (k - 1) + c * gen i b k)%R.
  Proof.
    intros H. unfold gen. replace (Z.to_nat (b + 1)) with (S (Z.to_nat b)) by lia. cbn [itlin].
    rewrite itlin_lin. reflexivity.
  Qed.

  Lemma delta0_xd k : (IZR k * delta0 k = 0)%R.
  Proof. unfold delta0. destruct (Z.eqb_spec k 0) as [->|]; ring. Qed.

  Lemma itlin_zero n a b p : (forall k, p k = 0%R) -> forall k, itlin n a b p k = 0%R.
  Proof. intros H. induction n; intros k; cbn [itlin]; [apply H|]. unfold lin. rewrite !IHn. ring. Qed.

  Lemma INR_toZ i : 0 <= i -> INR (Z.to_nat i) = IZR i.
  Proof. intros. rewrite INR_IZR_INZ. f_equal. lia. Qed.

  Lemma gen_E1 i b k : 0 <= i -> 0 <= b ->
    (IZR k * gen i b k = IZR i * c * gen (i - 1) b (k - 1) - IZR b * s * gen i (b - 1) (k - 1))%R.
  Proof.
    intros Hi Hb. unfold gen. rewrite itlin_xd.
    rewrite (itlin_ext _ _ _ _ (fun k => (fun k => - IZR b * s * itlin (Z.to_nat (b - 1)) (- s) c delta0 k)%R (k - 1))).
    2:{ intros q. rewrite itlin_xd. rewrite itlin_zero by apply delta0_xd. rewrite INR_toZ by lia.
        replace (pred (Z.to_nat b)) with (Z.to_nat (b - 1)) by lia. ring. }
    rewrite (itlin_shift _ _ _ (fun k => - IZR b * s * itlin (Z.to_nat (b - 1)) (- s) c delta0 k)%R 1), itlin_scal.
    rewrite INR_toZ by lia. replace (pred (Z.to_nat i)) with (Z.to_nat (i - 1)) by lia. ring.
  Qed.

  Lemma gen_E2 i b k : 0 <= i -> 0 <= b ->
    (IZR (i + b - k) * gen i b k = IZR i * s * gen (i - 1) b k + IZR b * c * gen i (b - 1) k)%R.
  Proof.
    intros Hi Hb. unfold gen.
    replace (i + b - k) with (b + Z.of_nat (Z.to_nat i) - k) by lia. rewrite itlin_yd.
    rewrite (itlin_ext _ _ _ _ (fun k => IZR b * c * itlin (Z.to_nat (b - 1)) (- s) c delta0 k)%R).
    2:{ intros q. replace (b - q) with (0 + Z.of_nat (Z.to_nat b) - q) by lia. rewrite itlin_yd.
        rewrite itlin_zero. 2:{ intros z. rewrite minus_IZR. pose proof (delta0_xd z). lra. }
        rewrite INR_toZ by lia. replace (pred (Z.to_nat b)) with (Z.to_nat (b - 1)) by lia. ring. }
    rewrite itlin_scal. rewrite INR_toZ by lia.
    replace (pred (Z.to_nat i)) with (Z.to_nat (i - 1)) by lia. ring.
  Qed.

  Lemma itlin_supp n a b p d : (forall k, k < 0 \/ d < k -> p k = 0%R) ->
    forall k, k < 0 \/ d + Z.of_nat n < k -> itlin n a b p k = 0%R.
  Proof.
    intros H. induction n; intros k Hk; cbn [itlin]; [apply H; lia|].
    unfold lin. rewrite !IHn by lia. ring.
  Qed.
  Lemma gen_supp i b k : 0 <= i -> 0 <= b -> k < 0 \/ i + b < k -> gen i b k = 0%R.
  Proof.
    intros Hi Hb Hk. unfold gen. apply (itlin_supp _ _ _ _ b); [|lia].
    intros q Hq. apply (itlin_supp _ _ _ _ 0); [|lia].
    intros z Hz. unfold delta0. now replace (z =? 0) with false by lia.
  Qed.

  Hypothesis cs1 : (c * c + s * s = 1)%R.

  (** Euler relations solved for the lowered polynomials. *)
  Lemma gen_U i b k : 0 <= i -> 0 <= b ->
    (IZR i * gen (i - 1) b k = c * (IZR (k + 1) * gen i b (k + 1)) + s * (IZR (i + b - k) * gen i b k))%R.
  Proof.
    intros Hi Hb. rewrite gen_E1, gen_E2 by auto. replace (k + 1 - 1) with k by lia.
    transitivity ((c * c + s * s) * (IZR i * gen (i - 1) b k))%R; [rewrite cs1; ring|ring].
  Qed.
  Lemma gen_V i b k : 0 <= i -> 0 <= b ->
    (IZR b * gen i (b - 1) k = - s * (IZR (k + 1) * gen i b (k + 1)) + c * (IZR (i + b - k) * gen i b k))%R.
  Proof.
    intros Hi Hb. rewrite gen_E1, gen_E2 by auto. replace (k + 1 - 1) with k by lia.
    transitivity ((c * c + s * s) * (IZR b * gen i (b - 1) k))%R; [rewrite cs1; ring|ring].
  Qed.

  (** Rotated Jz. *)
  Lemma gen_Jz i b k : 0 <= i -> 0 <= b ->
    (IZR i * gen i b k
     = (c * c * IZR k + s * s * IZR (i + b - k)) * gen i b k
       + c * s * (IZR (i + b - k + 1) * gen i b (k - 1) + IZR (k + 1) * gen i b (k + 1)))%R.
  Proof.
    intros Hi Hb.
    assert (E : (IZR i * gen i b k = c * (IZR i * gen (i - 1) b (k - 1)) + s * (IZR i * gen (i - 1) b k))%R).
    { destruct (Z.eq_dec i 0) as [->|]; [ring|]. replace i with (i - 1 + 1) at 2 by lia. rewrite gen_R1 by lia. ring. }
    rewrite E, !gen_U by auto. replace (k - 1 + 1) with k by lia.
    replace (i + b - (k - 1)) with (i + b - k + 1) by lia. ring.
  Qed.

  (** Lowering and raising the first exponent. *)
  Lemma gen_lower i b k : 0 <= i -> 0 <= b ->
    (IZR i * gen (i - 1) (b + 1) k
     = c * s * IZR (i + b - 2 * k) * gen i b k - s * s * (IZR (i + b - k + 1) * gen i b (k - 1))
       + c * c * (IZR (k + 1) * gen i b (k + 1)))%R.
  Proof.
    intros Hi Hb. rewrite gen_R2 by lia.
    replace (IZR i * (- s * gen (i - 1) b (k - 1) + c * gen (i - 1) b k))%R
      with (- s * (IZR i * gen (i - 1) b (k - 1)) + c * (IZR i * gen (i - 1) b k))%R by ring.
    rewrite !gen_U by auto. replace (k - 1 + 1) with k by lia.
    replace (i + b - (k - 1)) with (i + b - k + 1) by lia.
    replace (i + b - 2 * k) with (i + b - k - k) by lia. rewrite (minus_IZR (i + b - k) k). ring.
  Qed.
  Lemma gen_raise i b k : 0 <= i -> 0 <= b ->
    (IZR b * gen (i + 1) (b - 1) k
     = c * s * IZR (i + b - 2 * k) * gen i b k + c * c * (IZR (i + b - k + 1) * gen i b (k - 1))
       - s * s * (IZR (k + 1) * gen i b (k + 1)))%R.
  Proof.
    intros Hi Hb. rewrite gen_R1 by lia.
    replace (IZR b * (c * gen i (b - 1) (k - 1) + s * gen i (b - 1) k))%R
      with (c * (IZR b * gen i (b - 1) (k - 1)) + s * (IZR b * gen i (b - 1) k))%R by ring.
    rewrite !gen_V by auto. replace (k - 1 + 1) with k by lia.
    replace (i + b - (k - 1)) with (i + b - k + 1) by lia.
    replace (i + b - 2 * k) with (i + b - k - k) by lia. rewrite (minus_IZR (i + b - k) k). ring.
  Qed.
End Gen.
