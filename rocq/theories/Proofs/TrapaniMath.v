(** The Wigner d-functions at pi/2: the identities used by the Trapani & Navaza recursion. *)
From Coq Require Import Reals Lra Lia ZifyBool.
From Verif Require Import Lib.Py Lib.PyFacts Lib.Sums Lib.Cplx.
From Verif Require Import Model.Trapani Spec.WignerSpec Proofs.WignerGen Proofs.WignerDh Proofs.WignerCalc Proofs.TurokProofs.
Open Scope Z_scope.

Definition W (l m n : Z) : R := wigner_d l m n (PI / 2).
Definition c4 : R := cos (PI / 2 / 2).
Lemma half_pi_half : (PI / 2 / 2 = PI / 4)%R. Proof. lra. Qed.
Lemma c4_pos : (0 < c4)%R.
Proof. unfold c4. rewrite half_pi_half, cos_PI4. apply Rdiv_lt_0_compat; [lra|]. apply Rlt_sqrt2_0. Qed.
Lemma c4_sin : sin (PI / 2 / 2) = c4.
Proof. unfold c4. rewrite half_pi_half. now rewrite sin_cos_PI4. Qed.
Lemma c4_sq : (c4 * c4 = / 2)%R.
Proof. pose proof (cs_one (PI / 2 / 2)) as H. rewrite c4_sin in H. unfold c4 in *. lra. Qed.
Lemma W_dh l m n : 0 <= l -> W l m n = dh c4 c4 (2 * l) (l + m) (l + n).
Proof. intros H. unfold W. rewrite wigner_dh by auto. now rewrite c4_sin. Qed.

Lemma W_neg_n l m n : 0 <= l -> Z.abs m <= l -> Z.abs n <= l -> W l m (- n) = (sgn (l + m) * W l m n)%R.
Proof.
  intros Hl Hm Hn. rewrite !W_dh by auto. rewrite (dh_swap c4 c4 (2 * l) (l + m) (l + n)) by lia.
  replace (2 * l - (l + n)) with (l + - n) by lia. rewrite <- Rmult_assoc, sgn_sq. ring.
Qed.
Lemma W_transpose l m n : 0 <= l -> Z.abs m <= l -> Z.abs n <= l -> W l m n = (sgn (m + n) * W l n m)%R.
Proof.
  intros Hl Hm Hn. rewrite !W_dh by auto. rewrite dh_transpose by lia.
  f_equal. replace (m + n) with ((l + n) - (l + m) + 2 * m) by lia.
  rewrite sgn_add, sgn_double, Rmult_1_r. rewrite <- sgn_opp. f_equal. lia.
Qed.
Lemma W_neg_m l m n : 0 <= l -> Z.abs m <= l -> Z.abs n <= l -> W l (- m) n = (sgn (l + n) * W l m n)%R.
Proof.
  intros Hl Hm Hn. rewrite W_transpose, W_neg_n, (W_transpose l n m) by lia.
  replace (- m + n) with ((n + m) - 2 * m) by lia. rewrite sgn_sub, sgn_double.
  pose proof (sgn_sq (n + m)) as E. 
  transitivity (sgn (l + n) * W l m n * (sgn (n + m) * sgn (n + m)))%R; [ring|]. rewrite E. ring.
Qed.

(** Equation (11) *)
Lemma W_rec l m n : 0 <= l -> - l <= m < l -> Z.abs n <= l ->
  (W l m n = 2 * IZR n / t1f l m * W l (m + 1) n - t2f l m * W l (m + 2) n)%R.
Proof.
  intros Hl Hm Hn.
  pose proof (D_Jz (2 * l) (l + m + 1) (l + n) (PI / 2) ltac:(lia)) as J.
  rewrite cos_PI2, sin_PI2 in J.
  assert (E : forall q, D (2 * l) (l + q) (l + n) (PI / 2) = W l q n).
  { intros q. rewrite W_dh by auto. unfold D. now rewrite c4_sin. }
  replace (l + m + 1 - 1) with (l + m) in J by lia. replace (l + m + 1 + 1) with (l + (m + 2)) in J by lia.
  replace (l + m + 1) with (l + (m + 1)) in J by lia. rewrite !E in J.
  replace (2 * (l + n) - 2 * l) with (2 * n) in J by lia. rewrite mult_IZR in J.
  assert (A1 : ac (2 * l) (l + m) = t1f l m) by (unfold ac, t1f; f_equal; f_equal; lia).
  assert (P : (0 < t1f l m)%R) by (unfold t1f; apply sqrt_lt_R0, IZR_lt; nia).
  assert (A2 : ac (2 * l) (l + (m + 1)) = (t2f l m * t1f l m)%R).
  { unfold ac, t1f, t2f. rewrite <- sqrt_mult_alt.
    - f_equal. replace ((l + (m + 1) + 1) * (2 * l - (l + (m + 1)))) with ((l - m - 1) * (l + m + 2)) by lia.
      rewrite (mult_IZR (l - m) (l + m + 1)). field. split; apply not_0_IZR; lia.
    - assert (0 <= IZR ((l - m - 1) * (l + m + 2)))%R by (apply IZR_le; nia).
      assert (0 < IZR (l - m))%R by (apply IZR_lt; lia). assert (0 < IZR (l + m + 1))%R by (apply IZR_lt; lia).
      unfold Rdiv. apply Rmult_le_pos; [apply Rmult_le_pos|]; auto; apply Rlt_le, Rinv_0_lt_compat; auto. }
  rewrite A1, A2 in J. apply (Rmult_eq_reg_l (t1f l m)); [|lra].
  field_simplify; [|lra]. lra.
Qed.
Lemma W_rec1 l n : 1 <= l -> Z.abs n <= l -> (W l (l - 1) n = 2 * IZR n / t1f l (l - 1) * W l l n)%R.
Proof.
  intros Hl Hn. rewrite W_rec by lia. replace (l - 1 + 1) with l by lia.
  replace (t2f l (l - 1)) with 0%R; [ring|]. unfold t2f. replace (l - (l - 1) - 1) with 0 by lia.
  rewrite Z.mul_0_l. unfold Rdiv. now rewrite !Rmult_0_l, sqrt_0.
Qed.

(** the last row *)
Lemma Q_sq j i : 0 <= i <= j -> let q := dh c4 c4 j 0 i in (q * q = zf j / (zf i * zf (j - i)) * zpow (/ 2) j)%R.
Proof.
  intros H q. subst q. rewrite dh_first by auto.
  replace (zpow (/ 2) j) with (zpow c4 (j - i) * zpow c4 i * (zpow c4 (j - i) * zpow c4 i))%R.
  - transitivity (sqrt (zf j * zf i * zf (j - i)) * sqrt (zf j * zf i * zf (j - i))
      * (/ zf i * / zf (j - i) * (/ zf i * / zf (j - i))) * (zpow c4 (j - i) * zpow c4 i * (zpow c4 (j - i) * zpow c4 i)))%R; [ring|].
    rewrite sqrt_sqrt; [|repeat apply Rmult_le_pos; apply zf_ge0]. field. split; apply zf_neq.
  - rewrite <- c4_sq, zpow_mult, <- zpow_add by lia. now replace (j - i + i) with j by lia.
Qed.
Lemma pos_sq_eq a b : (0 <= a -> 0 <= b -> a * a = b * b -> a = b)%R.
Proof. intros. rewrite <- (sqrt_square a), <- (sqrt_square b) by auto. now f_equal. Qed.
Lemma Q_pos j i : 0 <= i <= j -> (0 <= dh c4 c4 j 0 i)%R.
Proof. intros. apply Rlt_le, dh_first_pos; auto; apply c4_pos. Qed.
Lemma W_top l n : 0 <= l -> Z.abs n <= l -> W l l n = (sgn (l - n) * dh c4 c4 (2 * l) 0 (l - n))%R.
Proof.
  intros. rewrite W_dh by auto. pose proof (dh_flip c4 c4 (2 * l) 0 (l - n) ltac:(lia) ltac:(lia)) as E.
  replace (2 * l - 0) with (l + l) in E by lia. replace (2 * l - (l - n)) with (l + n) in E by lia.
  rewrite E. f_equal. rewrite <- sgn_opp. f_equal. lia.
Qed.
Lemma zpow_half2 l : 1 <= l -> zpow (/ 2) (2 * l) = (/ 4 * zpow (/ 2) (2 * (l - 1)))%R.
Proof.
  intros. replace (2 * l) with (2 * (l - 1) + 1 + 1) by lia. rewrite !zpow_succ by lia. lra.
Qed.
Lemma zf_2 k : 2 <= k -> zf k = (IZR k * IZR (k - 1) * zf (k - 2))%R.
Proof. intros. rewrite zf_pred by lia. rewrite (zf_pred (k - 1)) by lia. replace (k - 1 - 1) with (k - 2) by lia. ring. Qed.

Lemma W_eq9 l : 1 <= l -> W l l 0 = (fact9 l * W (l - 1) (l - 1) 0)%R.
Proof.
  intros Hl. rewrite !W_top by lia. rewrite !Z.sub_0_r. unfold fact9.
  replace (sgn l) with (- sgn (l - 1))%R by (rewrite sgn_sub; change (sgn 1) with (-1)%R; ring).
  assert (P1 : (0 < IZR l)%R) by (apply IZR_lt; lia).
  assert (P2 : (0 < IZR (2 * l - 1))%R) by (apply IZR_lt; lia).
  assert (P0 : (0 <= IZR (2 * l - 1) / IZR (2 * l))%R).
  { apply Rlt_le, Rdiv_lt_0_compat; auto. apply IZR_lt; lia. }
  rewrite (pos_sq_eq (dh c4 c4 (2 * l) 0 l) (sqrt (IZR (2 * l - 1) / IZR (2 * l)) * dh c4 c4 (2 * (l - 1)) 0 (l - 1))%R); [ring| | |].
  - apply Q_pos; lia.
  - apply Rmult_le_pos; [apply sqrt_pos|apply Q_pos; lia].
  - rewrite Q_sq by lia. 
    transitivity (sqrt (IZR (2 * l - 1) / IZR (2 * l)) * sqrt (IZR (2 * l - 1) / IZR (2 * l))
      * (dh c4 c4 (2 * (l - 1)) 0 (l - 1) * dh c4 c4 (2 * (l - 1)) 0 (l - 1)))%R; [|ring].
    rewrite sqrt_sqrt by auto. rewrite Q_sq by lia.
    replace (2 * l - l) with l by lia. replace (2 * (l - 1) - (l - 1)) with (l - 1) by lia.
    rewrite (zf_pred l), zpow_half2 by lia. rewrite (zf_2 (2 * l)) by lia. replace (2 * l - 2) with (2 * (l - 1)) by lia.
    rewrite (mult_IZR 2 l). field. repeat split; first [apply zf_neq|lra].
Qed.
Lemma W_eq10 l n : 1 <= l -> 1 <= n <= l -> W l l n = (fact10 l n * W (l - 1) (l - 1) (n - 1))%R.
Proof.
  intros Hl Hn. rewrite !W_top by lia. replace (l - 1 - (n - 1)) with (l - n) by lia.
  rewrite (pos_sq_eq (dh c4 c4 (2 * l) 0 (l - n)) (fact10 l n * dh c4 c4 (2 * (l - 1)) 0 (l - n))%R); [ring| | |].
  - apply Q_pos; lia.
  - apply Rmult_le_pos; [apply sqrt_pos|apply Q_pos; lia].
  - transitivity (fact10 l n * fact10 l n * (dh c4 c4 (2 * (l - 1)) 0 (l - n) * dh c4 c4 (2 * (l - 1)) 0 (l - n)))%R; [|ring].
    assert (P1 : (0 < IZR l)%R) by (apply IZR_lt; lia).
    assert (P2 : (0 < IZR (2 * l - 1))%R) by (apply IZR_lt; lia).
    assert (P3 : (0 < IZR (l + n))%R) by (apply IZR_lt; lia).
    assert (P4 : (0 < IZR (l + n - 1))%R) by (apply IZR_lt; lia).
    unfold fact10. rewrite sqrt_sqrt.
    2:{ unfold Rdiv. repeat apply Rmult_le_pos; try lra; apply Rlt_le, Rinv_0_lt_compat; lra. }
    rewrite !Q_sq by lia.
    replace (2 * l - (l - n)) with (l + n) by lia. replace (2 * (l - 1) - (l - n)) with (l + n - 2) by lia.
    rewrite (zf_2 (l + n)), (zf_2 (2 * l)) by lia. rewrite zpow_half2 by lia. replace (2 * l - 2) with (2 * (l - 1)) by lia.
    rewrite (mult_IZR 2 l). field. repeat split; try lra; apply zf_neq.
Qed.
Lemma W_0 : W 0 0 0 = 1%R.
Proof.
  rewrite W_dh by lia. rewrite dh_first by lia. change (2 * 0 - (0 + 0)) with 0. change (2 * 0) with 0. change (0 + 0) with 0.
  rewrite !zf_0, !zpow_0, !Rmult_1_r, sqrt_1, Rinv_1. ring.
Qed.
