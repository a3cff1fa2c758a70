(** Complex exponentials, roots of unity and discrete Fourier sums. *)
From Coq Require Import Reals Lia Lra ZArith List.
From Coquelicot Require Import Complex.
From Verif Require Import Lib.Py Lib.PyFacts Lib.Sums.
Open Scope Z_scope.

Lemma C_eq (a b : C) : Re a = Re b -> Im a = Im b -> a = b.
Proof. destruct a, b. cbn. intros; congruence. Qed.

(** exp(i x) *)
Definition cis (x : R) : C := (cos x, sin x).

Lemma cis_0 : cis 0 = RtoC 1.
Proof. unfold cis. now rewrite cos_0, sin_0. Qed.
Lemma cis_plus x y : cis (x + y) = (cis x * cis y)%C.
Proof. unfold cis, Cmult. cbn. rewrite cos_plus, sin_plus. f_equal; ring. Qed.
Lemma cis_conj x : Cconj (cis x) = cis (- x).
Proof. unfold cis, Cconj. cbn. now rewrite cos_neg, sin_neg. Qed.
Lemma cis_inv x : (cis x * cis (- x))%C = RtoC 1.
Proof. rewrite <- cis_plus. replace (x + - x)%R with 0%R by ring. apply cis_0. Qed.
Lemma cis_neq_0 x : cis x <> RtoC 0.
Proof.
  intros H. pose proof (cis_inv x) as E. rewrite H in E. rewrite Cmult_0_l in E.
  apply RtoC_inj in E. lra.
Qed.
Lemma cis_PI : cis PI = RtoC (-1).
Proof. unfold cis. now rewrite cos_PI, sin_PI. Qed.
Lemma cis_PI2 : cis (PI / 2) = Ci.
Proof. unfold cis, Ci. now rewrite cos_PI2, sin_PI2. Qed.

(** (-1)^k *)
Definition sgn (k : Z) : R := if Z.even k then 1%R else (-1)%R.
Lemma sgn_0 : sgn 0 = 1%R. Proof. reflexivity. Qed.
Lemma sgn_1 : sgn 1 = (-1)%R. Proof. reflexivity. Qed.
Lemma sgn_even k : Z.even k = true -> sgn k = 1%R.
Proof. unfold sgn. now intros ->. Qed.
Lemma sgn_odd k : Z.even k = false -> sgn k = (-1)%R.
Proof. unfold sgn. now intros ->. Qed.
Lemma sgn_add a b : sgn (a + b) = (sgn a * sgn b)%R.
Proof. unfold sgn. rewrite Z.even_add. destruct (Z.even a), (Z.even b); cbn; ring. Qed.
Lemma sgn_sub a b : sgn (a - b) = (sgn a * sgn b)%R.
Proof. unfold sgn. rewrite Z.even_sub. destruct (Z.even a), (Z.even b); cbn; ring. Qed.
Lemma sgn_opp a : sgn (- a) = sgn a.
Proof. unfold sgn. now rewrite Z.even_opp. Qed.
Lemma sgn_sq a : (sgn a * sgn a = 1)%R.
Proof. unfold sgn. destruct (Z.even a); ring. Qed.
Lemma sgn_double a : sgn (2 * a) = 1%R.
Proof. apply sgn_even. now rewrite Z.even_mul. Qed.
Lemma sgn_abs a : sgn (Z.abs a) = sgn a.
Proof. destruct (Z.abs_spec a) as [[_ ->]|[_ ->]]; [auto|apply sgn_opp]. Qed.
Lemma sgn_succ a : sgn (a + 1) = (- sgn a)%R.
Proof. rewrite sgn_add, sgn_1. ring. Qed.
Lemma sgn_cases a : sgn a = 1%R \/ sgn a = (-1)%R.
Proof. unfold sgn. destruct (Z.even a); auto. Qed.
Lemma sgn_neq_0 a : sgn a <> 0%R.
Proof. destruct (sgn_cases a) as [-> | ->]; lra. Qed.

Lemma cis_period x k : cis (x + 2 * PI * IZR k) = cis x.
Proof.
  assert (N : forall n y, cis (y + 2 * INR n * PI) = cis y).
  { intros n y. unfold cis. now rewrite cos_period, sin_period. }
  destruct (Z_le_dec 0 k) as [Hk|Hk].
  - replace (x + 2 * PI * IZR k)%R with (x + 2 * INR (Z.to_nat k) * PI)%R; [apply N|].
    rewrite INR_IZR_INZ, Z2Nat.id by lia. ring.
  - rewrite <- (N (Z.to_nat (- k))). f_equal.
    rewrite INR_IZR_INZ, Z2Nat.id, opp_IZR by lia. ring.
Qed.
Lemma cis_2PI k : cis (2 * PI * IZR k) = RtoC 1.
Proof. rewrite <- cis_0, <- (cis_period 0 k). f_equal. ring. Qed.
Lemma cis_kPI k : cis (IZR k * PI) = RtoC (sgn k).
Proof.
  destruct (Z.even k) eqn:E.
  - rewrite sgn_even by auto. apply Z.even_spec in E. destruct E as [j ->].
    replace (IZR (2 * j) * PI)%R with (2 * PI * IZR j)%R by (rewrite mult_IZR; ring). apply cis_2PI.
  - rewrite sgn_odd by auto.
    assert (O : Z.odd k = true) by (rewrite <- Z.negb_even, E; reflexivity).
    apply Z.odd_spec in O. destruct O as [j ->].
    replace (IZR (2 * j + 1) * PI)%R with (PI + 2 * PI * IZR j)%R by (rewrite plus_IZR, mult_IZR; ring).
    rewrite cis_period. apply cis_PI.
Qed.
Lemma cos_kPI k : cos (IZR k * PI) = sgn k.
Proof. pose proof (cis_kPI k) as H. unfold cis, RtoC in H. congruence. Qed.
Lemma sin_kPI k : sin (IZR k * PI) = 0%R.
Proof. pose proof (cis_kPI k) as H. unfold cis, RtoC in H. congruence. Qed.

Lemma cis_eq_1 x : cis x = RtoC 1 -> exists k, x = (2 * PI * IZR k)%R.
Proof.
  intros H. assert (Hc : cos x = 1%R) by (unfold cis, RtoC in H; congruence).
  assert (Hs : sin x = 0%R) by (unfold cis, RtoC in H; congruence).
  apply sin_eq_0_0 in Hs. destruct Hs as [k ->]. rewrite cos_kPI in Hc.
  destruct (Z.even k) eqn:E; [|rewrite sgn_odd in Hc by auto; lra].
  apply Z.even_spec in E. destruct E as [j ->]. exists j. rewrite mult_IZR. ring.
Qed.

(** The k-th power of the primitive n-th root of unity: exp(2 pi i k / n). *)
Definition root (n k : Z) : C := cis (2 * PI * IZR k / IZR n).

Lemma root_0 n : root n 0 = RtoC 1.
Proof. unfold root. replace (2 * PI * 0 / IZR n)%R with 0%R by (unfold Rdiv; ring). apply cis_0. Qed.
Lemma root_add n a b : root n (a + b) = (root n a * root n b)%C.
Proof. unfold root. rewrite <- cis_plus, plus_IZR. f_equal. unfold Rdiv. ring. Qed.
Lemma root_opp n a : root n (- a) = Cconj (root n a).
Proof. unfold root. rewrite cis_conj, opp_IZR. f_equal. unfold Rdiv. ring. Qed.
Lemma root_inv n a : (root n a * root n (- a))%C = RtoC 1.
Proof. rewrite <- root_add. replace (a + - a) with 0 by lia. apply root_0. Qed.
Lemma root_full n a : n <> 0 -> root n (n * a) = RtoC 1.
Proof.
  intros Hn. unfold root. rewrite mult_IZR.
  replace (2 * PI * (IZR n * IZR a) / IZR n)%R with (2 * PI * IZR a)%R.
  - apply cis_2PI.
  - field. now apply not_0_IZR.
Qed.
Lemma root_period n a b : n <> 0 -> root n (a + n * b) = root n a.
Proof. intros Hn. rewrite root_add, root_full by auto. apply Cmult_1_r. Qed.
Lemma root_mod n a : n <> 0 -> root n (a mod n) = root n a.
Proof.
  intros Hn. rewrite (Z.div_mod a n Hn) at 2. rewrite Z.add_comm. now rewrite root_period.
Qed.
Lemma root_congr n a b : n <> 0 -> a mod n = b mod n -> root n a = root n b.
Proof. intros Hn E. rewrite <- (root_mod n a), <- (root_mod n b), E by auto. reflexivity. Qed.
Lemma root_scale n c a : n <> 0 -> c <> 0 -> root (c * n) (c * a) = root n a.
Proof.
  intros Hn Hc. unfold root. f_equal. rewrite !mult_IZR. field.
  split; now apply not_0_IZR.
Qed.
Lemma root_half n k : root (2 * n) (n * k) = RtoC (sgn k) \/ n = 0.
Proof.
  destruct (Z.eq_dec n 0); [auto|]. left. unfold root. rewrite <- cis_kPI. f_equal.
  rewrite !mult_IZR. field. now apply not_0_IZR.
Qed.
Lemma root_1_iff n k : n <> 0 -> root n k = RtoC 1 -> k mod n = 0.
Proof.
  intros Hn H. apply cis_eq_1 in H. destruct H as [j Hj].
  assert (E : IZR k = IZR (j * n)).
  { rewrite mult_IZR. assert (IZR n <> 0%R) by now apply not_0_IZR.
    assert (PI <> 0%R) by (pose proof PI_RGT_0; lra).
    apply (Rmult_eq_reg_l (2 * PI / IZR n)).
    - rewrite <- (Rmult_comm (IZR n)). replace (2 * PI / IZR n * IZR k)%R with (2 * PI * IZR k / IZR n)%R by (field; auto).
      rewrite Hj. field. auto.
    - apply Rmult_integral_contrapositive_currified; [lra|]. now apply Rinv_neq_0_compat. }
  apply eq_IZR in E. subst k. apply Z.mod_mul. auto.
Qed.

(** sum_{p<n} exp(2 pi i k p / n) is n or 0 *)
Lemma root_sum n k : 0 < n ->
  csum (zrange 0 n) (fun p => root n (k * p)) = if k mod n =? 0 then RtoC (IZR n) else RtoC 0.
Proof.
  intros Hn. destruct (Z.eqb_spec (k mod n) 0) as [E|E].
  - rewrite (cr_ext 0 n _ (fun _ => RtoC 1)).
    + assert (P : forall m, 0 <= m -> csum (zrange 0 m) (fun _ => RtoC 1) = RtoC (IZR m)).
      { apply natlike_ind; [reflexivity|]. intros m Hm IH. rewrite <- Z.add_1_r, cr_snoc, IH by lia.
        rewrite plus_IZR, RtoC_plus. reflexivity. }
      apply P. lia.
    + intros p _. rewrite (Z.div_mod k n) by lia. rewrite E, Z.add_0_r, <- Z.mul_assoc.
      apply root_full. lia.
  - set (s := csum _ _).
    assert (H : (root n k * s)%C = s).
    { unfold s. rewrite <- cs_scal_l.
      rewrite (cr_ext 0 n _ (fun p => root n (k * (p + 1)))).
      - apply (cr_period_shift n 1 (fun p => root n (k * p))); [lia|].
        intros x. rewrite Z.mul_add_distr_l, (Z.mul_comm k n). apply root_period. lia.
      - intros p _. rewrite <- root_add. f_equal. lia. }
    assert (D : ((root n k - RtoC 1) * s)%C = RtoC 0).
    { replace ((root n k - RtoC 1) * s)%C with (root n k * s - s)%C by ring. rewrite H. ring. }
    destruct (Ceq_dec s (RtoC 0)) as [|Hs]; [auto|]. exfalso. apply E.
    apply root_1_iff; [lia|].
    assert (N : ((root n k - RtoC 1) = RtoC 0)%C).
    { replace (root n k - RtoC 1)%C with ((root n k - RtoC 1) * s * / s)%C by (field; auto). rewrite D. ring. }
    replace (root n k) with (root n k - RtoC 1 + RtoC 1)%C by ring. rewrite N. ring.
Qed.

(** DFT inversion: sums of exponentials separate the frequencies of any window of length n. *)
Lemma dft_inversion n a (x : Z -> C) k : 0 < n -> a <= k < a + n ->
  csum (zrange 0 n) (fun p => (csum (zrange a (a + n)) (fun j => x j * root n (j * p)) * root n (- (k * p)))%C)
  = (RtoC (IZR n) * x k)%C.
Proof.
  intros Hn Hk.
  rewrite (cr_ext 0 n _ (fun p => csum (zrange a (a + n)) (fun j => (x j * root n ((j - k) * p))%C))).
  - rewrite cs_swap.
    rewrite (cr_ext a (a + n) _ (fun j => if j =? k then (RtoC (IZR n) * x j)%C else RtoC 0)).
    + rewrite cr_delta by lia. reflexivity.
    + intros j Hj. rewrite cs_scal_l, root_sum by auto.
      destruct (Z.eqb_spec j k) as [->|Hne].
      * rewrite Z.sub_diag, Z.mod_0_l by lia. rewrite Z.eqb_refl. ring.
      * destruct (Z.eqb_spec ((j - k) mod n) 0) as [E|E]; [|ring].
        apply Z.mod_divide in E; [|lia]. destruct E as [q Hq]. exfalso.
        assert (q <= -1 \/ q = 0 \/ 1 <= q) as [?|[?|?]] by lia; [nia|subst q; lia|nia].
  - intros p _. rewrite <- cs_scal_r. apply cr_ext. intros j _.
    replace ((j - k) * p) with (j * p + - (k * p)) by ring. rewrite root_add. ring.
Qed.
