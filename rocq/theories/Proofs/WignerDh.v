(** Normalised Wigner functions for integer and half-integer degree: j = 2l, k = l + m, i = l + n. *)
From Coq Require Import Reals Lia Lra ZArith List Psatz ZifyBool.
From Coquelicot Require Import Coquelicot.
From Verif Require Import Lib.Py Lib.PyFacts Lib.Sums Lib.Cplx Spec.WignerSpec Proofs.WignerGen.
Open Scope Z_scope.

Definition nrm (j k : Z) : R := sqrt (zf k * zf (j - k)).
Lemma nrm_pos j k : (0 < nrm j k)%R.
Proof. apply sqrt_lt_R0. apply Rmult_lt_0_compat; apply zf_pos. Qed.
Lemma nrm_neq j k : nrm j k <> 0%R.
Proof. pose proof (nrm_pos j k). lra. Qed.
Lemma nrm_sq j k : (nrm j k * nrm j k = zf k * zf (j - k))%R.
Proof. apply sqrt_sqrt. apply Rlt_le, Rmult_lt_0_compat; apply zf_pos. Qed.

(** Coefficient linking k and k + 1. *)
Definition ac (j k : Z) : R := sqrt (IZR ((k + 1) * (j - k))).
Lemma ac_sq j k : 0 <= k + 1 -> k <= j -> (ac j k * ac j k = IZR (k + 1) * IZR (j - k))%R.
Proof. intros. unfold ac. rewrite sqrt_sqrt; [apply mult_IZR|]. apply IZR_le. nia. Qed.
Lemma ac_out j k : k < 0 \/ j <= k -> 0 <= j -> ac j k = 0%R.
Proof. intros. unfold ac. apply sqrt_neg_0. apply IZR_le. nia. Qed.

Lemma sqrt_shift x y z w : (0 <= x)%R -> (0 <= y)%R -> (0 <= z)%R -> (0 <= w)%R ->
  (z * z * x = w * y)%R -> (z * sqrt x = sqrt w * sqrt y)%R.
Proof.
  intros. rewrite <- sqrt_mult by auto. rewrite <- H3. rewrite sqrt_mult by (auto; nra).
  rewrite sqrt_square; auto.
Qed.

Lemma zf_ge0 k : (0 <= zf k)%R. Proof. apply Rlt_le, zf_pos. Qed.

Lemma nrm_up j k : 0 <= k < j -> (IZR (k + 1) * nrm j k = ac j k * nrm j (k + 1))%R.
Proof.
  intros H. unfold nrm, ac. apply sqrt_shift.
  - apply Rmult_le_pos; apply zf_ge0.
  - apply Rmult_le_pos; apply zf_ge0.
  - apply IZR_le; lia.
  - apply IZR_le; nia.
  - rewrite (zf_succ k) by lia. rewrite (zf_pred (j - k)) by lia.
    replace (j - (k + 1)) with (j - k - 1) by lia. rewrite mult_IZR. ring.
Qed.
Lemma nrm_down j k : 0 < k <= j -> (IZR (j - k + 1) * nrm j k = ac j (k - 1) * nrm j (k - 1))%R.
Proof.
  intros H. unfold nrm, ac. apply sqrt_shift.
  - apply Rmult_le_pos; apply zf_ge0.
  - apply Rmult_le_pos; apply zf_ge0.
  - apply IZR_le; lia.
  - apply IZR_le; nia.
  - rewrite (zf_pred k) by lia. replace (j - (k - 1)) with (j - k + 1) by lia.
    rewrite (zf_succ (j - k)) by lia. rewrite mult_IZR. replace (k - 1 + 1) with k by lia. ring.
Qed.

Definition dh (c s : R) (j k i : Z) : R :=
  if (0 <=? i) && (i <=? j) then (nrm j k / nrm j i * gen c s i (j - i) k)%R else 0%R.

Lemma dh_in c s j k i : 0 <= i <= j -> dh c s j k i = (nrm j k / nrm j i * gen c s i (j - i) k)%R.
Proof. intros. unfold dh. now replace ((0 <=? i) && (i <=? j)) with true by lia. Qed.
Lemma dh_out_i c s j k i : i < 0 \/ j < i -> dh c s j k i = 0%R.
Proof. intros. unfold dh. now replace ((0 <=? i) && (i <=? j)) with false by lia. Qed.
Lemma dh_out_k c s j k i : k < 0 \/ j < k -> dh c s j k i = 0%R.
Proof.
  intros. unfold dh. destruct ((0 <=? i) && (i <=? j)) eqn:B; [|reflexivity].
  rewrite gen_supp by lia. ring.
Qed.

(** Ladder coefficients on the unnormalised polynomials. *)
Lemma up_gen c s j k i : 0 <= i <= j -> 0 <= k <= j ->
  (nrm j k / nrm j i * (IZR (k + 1) * gen c s i (j - i) (k + 1)) = ac j k * dh c s j (k + 1) i)%R.
Proof.
  intros Hi Hk. destruct (Z.eq_dec k j) as [->|].
  - rewrite gen_supp, dh_out_k by lia. ring.
  - rewrite dh_in by lia.
    transitivity ((IZR (k + 1) * nrm j k) / nrm j i * gen c s i (j - i) (k + 1))%R; [unfold Rdiv; ring|].
    rewrite nrm_up by lia. unfold Rdiv. ring.
Qed.
Lemma down_gen c s j k i : 0 <= i <= j -> 0 <= k <= j ->
  (nrm j k / nrm j i * (IZR (j - k + 1) * gen c s i (j - i) (k - 1)) = ac j (k - 1) * dh c s j (k - 1) i)%R.
Proof.
  intros Hi Hk. destruct (Z.eq_dec k 0) as [->|].
  - rewrite gen_supp, dh_out_k by lia. ring.
  - rewrite dh_in by lia.
    transitivity ((IZR (j - k + 1) * nrm j k) / nrm j i * gen c s i (j - i) (k - 1))%R; [unfold Rdiv; ring|].
    rewrite nrm_down by lia. unfold Rdiv. ring.
Qed.

Section Alg.
  Variables c s : R.
  Hypothesis cs1 : (c * c + s * s = 1)%R.
  Notation d := (dh c s).

  Lemma dh_Jz j k i : 0 <= i <= j ->
    (IZR (2 * i - j) * d j k i
     = (c * c - s * s) * IZR (2 * k - j) * d j k i
       + (2 * c * s) * (ac j (k - 1) * d j (k - 1) i + ac j k * d j (k + 1) i))%R.
  Proof.
    intros Hi.
    destruct (Z_lt_dec k (-1)). { rewrite !dh_out_k by lia. ring. }
    destruct (Z_lt_dec (j + 1) k). { rewrite !dh_out_k by lia. ring. }
    destruct (Z.eq_dec k (-1)) as [->|].
    { rewrite (dh_out_k _ _ j (-1)), (dh_out_k _ _ j (-1 - 1)) by lia. rewrite (ac_out j (-1)) by lia. ring. }
    destruct (Z.eq_dec k (j + 1)) as [->|].
    { rewrite (dh_out_k _ _ j (j + 1)), (dh_out_k _ _ j (j + 1 + 1)) by lia.
      rewrite (ac_out j (j + 1 - 1)) by lia. ring. }
    rewrite <- up_gen, <- down_gen by lia. rewrite dh_in by lia.
    pose proof (gen_Jz c s cs1 i (j - i) k ltac:(lia) ltac:(lia)) as G.
    replace (i + (j - i) - k) with (j - k) in G by lia.
    set (A := gen c s i (j - i)) in *. set (q := (nrm j k / nrm j i)%R).
    rewrite !minus_IZR, !mult_IZR.
    replace (IZR (j - k)) with (IZR j - IZR k)%R in G by (rewrite minus_IZR; reflexivity).
    transitivity (q * (2 * (IZR i * A k) - IZR j * (c * c + s * s) * A k))%R; [rewrite cs1; ring|].
    rewrite G. ring.
  Qed.

  (** Risbo's recursion in j. *)
  Lemma nrm_risbo1 j k i : 0 < i <= j -> 0 < k <= j ->
    (nrm j k / nrm j i * (IZR i * (nrm (j - 1) (i - 1) / nrm (j - 1) (k - 1))) = sqrt (IZR (i * k)))%R.
  Proof.
    intros Hi Hk.
    assert (E1 : (nrm j k = sqrt (IZR k) * nrm (j - 1) (k - 1))%R).
    { unfold nrm. rewrite <- sqrt_mult; [|apply IZR_le; lia|apply Rmult_le_pos; apply zf_ge0].
      rewrite (zf_pred k) by lia. replace (j - 1 - (k - 1)) with (j - k) by lia. f_equal. ring. }
    assert (E2 : (nrm j i = sqrt (IZR i) * nrm (j - 1) (i - 1))%R).
    { unfold nrm. rewrite <- sqrt_mult; [|apply IZR_le; lia|apply Rmult_le_pos; apply zf_ge0].
      rewrite (zf_pred i) by lia. replace (j - 1 - (i - 1)) with (j - i) by lia. f_equal. ring. }
    assert (P : (0 < sqrt (IZR i))%R) by (apply sqrt_lt_R0, IZR_lt; lia).
    assert (Q : (IZR i = sqrt (IZR i) * sqrt (IZR i))%R) by (rewrite sqrt_sqrt; [reflexivity|apply IZR_le; lia]).
    rewrite E1, E2, mult_IZR, sqrt_mult by (apply IZR_le; lia). rewrite Q at 2.
    field. repeat split; try apply nrm_neq. lra.
  Qed.
  Lemma nrm_risbo2 j k i : 0 < i <= j -> 0 <= k < j ->
    (nrm j k / nrm j i * (IZR i * (nrm (j - 1) (i - 1) / nrm (j - 1) k)) = sqrt (IZR (i * (j - k))))%R.
  Proof.
    intros Hi Hk.
    assert (E1 : (nrm j k = sqrt (IZR (j - k)) * nrm (j - 1) k)%R).
    { unfold nrm. rewrite <- sqrt_mult; [|apply IZR_le; lia|apply Rmult_le_pos; apply zf_ge0].
      rewrite (zf_pred (j - k)) by lia. replace (j - 1 - k) with (j - k - 1) by lia. f_equal. ring. }
    assert (E2 : (nrm j i = sqrt (IZR i) * nrm (j - 1) (i - 1))%R).
    { unfold nrm. rewrite <- sqrt_mult; [|apply IZR_le; lia|apply Rmult_le_pos; apply zf_ge0].
      rewrite (zf_pred i) by lia. replace (j - 1 - (i - 1)) with (j - i) by lia. f_equal. ring. }
    assert (P : (0 < sqrt (IZR i))%R) by (apply sqrt_lt_R0, IZR_lt; lia).
    assert (Q : (IZR i = sqrt (IZR i) * sqrt (IZR i))%R) by (rewrite sqrt_sqrt; [reflexivity|apply IZR_le; lia]).
    rewrite E1, E2, mult_IZR, sqrt_mult by (apply IZR_le; lia). rewrite Q at 2.
    field. repeat split; try apply nrm_neq. lra.
  Qed.
  Lemma nrm_flip j k : nrm j (j - k) = nrm j k.
  Proof. unfold nrm. replace (j - (j - k)) with k by lia. f_equal. ring. Qed.

  Lemma dh_risbo j k i : 0 <= i <= j -> 0 <= k <= j -> 0 < j ->
    (IZR j * d j k i
     = sqrt (IZR (i * k)) * c * d (j - 1) (k - 1) (i - 1)
       + sqrt (IZR (i * (j - k))) * s * d (j - 1) k (i - 1)
       - sqrt (IZR ((j - i) * k)) * s * d (j - 1) (k - 1) i
       + sqrt (IZR ((j - i) * (j - k))) * c * d (j - 1) k i)%R.
  Proof.
    intros Hi Hk Hj.
    set (q := (nrm j k / nrm j i)%R).
    assert (T1 : (q * (IZR i * gen c s (i - 1) (j - i) (k - 1)) = sqrt (IZR (i * k)) * d (j - 1) (k - 1) (i - 1))%R).
    { destruct (Z.eq_dec i 0) as [->|]; [rewrite dh_out_i by lia; ring|].
      destruct (Z.eq_dec k 0) as [->|]; [rewrite gen_supp, dh_out_k by lia; ring|].
      rewrite dh_in by lia. rewrite <- (nrm_risbo1 j k i) by lia. fold q.
      replace (j - 1 - (i - 1)) with (j - i) by lia. field. split; apply nrm_neq. }
    assert (T2 : (q * (IZR i * gen c s (i - 1) (j - i) k) = sqrt (IZR (i * (j - k))) * d (j - 1) k (i - 1))%R).
    { destruct (Z.eq_dec i 0) as [->|]; [rewrite dh_out_i by lia; ring|].
      destruct (Z.eq_dec k j) as [->|]; [rewrite gen_supp, dh_out_k by lia; ring|].
      rewrite dh_in by lia. rewrite <- (nrm_risbo2 j k i) by lia. fold q.
      replace (j - 1 - (i - 1)) with (j - i) by lia. field. split; apply nrm_neq. }
    assert (T3 : (q * (IZR (j - i) * gen c s i (j - i - 1) (k - 1)) = sqrt (IZR ((j - i) * k)) * d (j - 1) (k - 1) i)%R).
    { destruct (Z.eq_dec i j) as [->|]; [rewrite Z.sub_diag, dh_out_i by lia; ring|].
      destruct (Z.eq_dec k 0) as [->|]; [rewrite gen_supp, dh_out_k by lia; ring|].
      rewrite dh_in by lia. pose proof (nrm_risbo2 j (j - k) (j - i) ltac:(lia) ltac:(lia)) as G.
      rewrite !nrm_flip in G. fold q in G. replace (j - (j - k)) with k in G by lia. rewrite <- G.
      replace (j - 1 - i) with (j - i - 1) by lia.
      replace (nrm (j - 1) (j - k)) with (nrm (j - 1) (k - 1)) by (rewrite <- nrm_flip; f_equal; lia).
      replace (nrm (j - 1) (j - i - 1)) with (nrm (j - 1) i) by (rewrite <- nrm_flip; f_equal; lia).
      field. split; apply nrm_neq. }
    assert (T4 : (q * (IZR (j - i) * gen c s i (j - i - 1) k) = sqrt (IZR ((j - i) * (j - k))) * d (j - 1) k i)%R).
    { destruct (Z.eq_dec i j) as [->|]; [rewrite Z.sub_diag, dh_out_i by lia; ring|].
      destruct (Z.eq_dec k j) as [->|]; [rewrite gen_supp, dh_out_k by lia; ring|].
      rewrite dh_in by lia. pose proof (nrm_risbo1 j (j - k) (j - i) ltac:(lia) ltac:(lia)) as G.
      rewrite !nrm_flip in G. fold q in G. rewrite <- G.
      replace (j - 1 - i) with (j - i - 1) by lia.
      replace (nrm (j - 1) (j - k - 1)) with (nrm (j - 1) k) by (rewrite <- nrm_flip; f_equal; lia).
      replace (nrm (j - 1) (j - i - 1)) with (nrm (j - 1) i) by (rewrite <- nrm_flip; f_equal; lia).
      field. split; apply nrm_neq. }
    rewrite (dh_in _ _ j k i) by lia. fold q.
    assert (E1 : (IZR i * gen c s i (j - i) k
       = IZR i * (c * gen c s (i - 1) (j - i) (k - 1) + s * gen c s (i - 1) (j - i) k))%R).
    { destruct (Z.eq_dec i 0) as [->|]; [ring|]. f_equal. rewrite <- gen_R1 by lia. f_equal. lia. }
    assert (E2 : (IZR (j - i) * gen c s i (j - i) k
       = IZR (j - i) * (- s * gen c s i (j - i - 1) (k - 1) + c * gen c s i (j - i - 1) k))%R).
    { destruct (Z.eq_dec i j) as [->|]; [rewrite Z.sub_diag; ring|]. f_equal. rewrite <- gen_R2 by lia. f_equal. lia. }
    transitivity (q * (IZR i * gen c s i (j - i) k) + q * (IZR (j - i) * gen c s i (j - i) k))%R.
    { rewrite minus_IZR. ring. }
    rewrite E1, E2.
    transitivity (c * (q * (IZR i * gen c s (i - 1) (j - i) (k - 1))) + s * (q * (IZR i * gen c s (i - 1) (j - i) k))
      - s * (q * (IZR (j - i) * gen c s i (j - i - 1) (k - 1))) + c * (q * (IZR (j - i) * gen c s i (j - i - 1) k)))%R; [ring|].
    rewrite T1, T2, T3, T4. ring.
  Qed.
End Alg.

(** ** Explicit expansion *)
Definition term (c s : R) (j k i t : Z) : R :=
  (sgn (k - i + t) * (ifac (i - t) * ifac t * ifac (k - i + t) * ifac (j - k - t))
   * zpow c (j + i - k - 2 * t) * zpow s (k - i + 2 * t))%R.

Lemma term_out c s j k i t : t < 0 \/ i < t \/ t < i - k \/ j - k < t -> term c s j k i t = 0%R.
Proof.
  intros H. unfold term.
  assert (E : (ifac (i - t) * ifac t * ifac (k - i + t) * ifac (j - k - t) = 0)%R).
  { destruct H as [H|[H|[H|H]]];
    [rewrite (ifac_neg t) by lia|rewrite (ifac_neg (i - t)) by lia|
     rewrite (ifac_neg (k - i + t)) by lia|rewrite (ifac_neg (j - k - t)) by lia]; ring. }
  rewrite E. ring.
Qed.

Lemma itlin_delta n a b k : itlin n a b delta0 k
  = (if (0 <=? k) && (k <=? Z.of_nat n)
     then zf (Z.of_nat n) * ifac k * ifac (Z.of_nat n - k) * zpow a k * zpow b (Z.of_nat n - k) else 0)%R.
Proof.
  rewrite itlin_expand. set (N := Z.of_nat n).
  rewrite (rr_ext _ _ _ (fun u => if u =? k then
    (zf N * ifac u * ifac (N - u) * zpow a u * zpow b (N - u))%R else 0%R)).
  2:{ intros u _. unfold delta0. replace (k - u =? 0) with (u =? k) by lia. destruct (u =? k); ring. }
  destruct ((0 <=? k) && (k <=? N)) eqn:B; [apply (rr_delta 0 (N + 1) k (fun u =>
    (zf N * ifac u * ifac (N - u) * zpow a u * zpow b (N - u))%R)); lia|].
  apply rr_0. intros u Hu. now replace (u =? k) with false by lia.
Qed.

Lemma gen_expand c s i b k : 0 <= i -> 0 <= b ->
  gen c s i b k = (zf i * zf b * rsum (zrange 0 (i + 1)) (term c s (i + b) k i))%R.
Proof.
  intros Hi Hb. unfold gen. rewrite itlin_expand. rewrite !Z2Nat.id by lia.
  rewrite (rr_ext _ _ _ (fun u => (zf i * zf b * term c s (i + b) k i (i - u))%R)).
  - rewrite rs_scal_l. f_equal.
    rewrite <- (rr_perm 0 (i + 1) 0 (i + 1) (fun u => i - u) (term c s (i + b) k i)) by lia. reflexivity.
  - intros u Hu. rewrite itlin_delta, Z2Nat.id by lia.
    destruct ((0 <=? k - u) && (k - u <=? b)) eqn:B.
    2:{ rewrite term_out by lia. ring. }
    unfold term. replace (i - (i - u)) with u by lia. replace (k - i + (i - u)) with (k - u) by lia.
    replace (i + b - k - (i - u)) with (b - (k - u)) by lia.
    replace (i + b + i - k - 2 * (i - u)) with (u + (b - (k - u))) by lia.
    replace (k - i + 2 * (i - u)) with (i - u + (k - u)) by lia.
    rewrite !zpow_add by lia. rewrite zpow_opp by lia. ring.
Qed.

Lemma dh_expand c s j k i : 0 <= i <= j -> 0 <= k <= j ->
  dh c s j k i = (sqrt (zf k * zf (j - k) * zf i * zf (j - i)) * rsum (zrange 0 (i + 1)) (term c s j k i))%R.
Proof.
  intros Hi Hk. rewrite dh_in, gen_expand by lia. replace (i + (j - i)) with j by lia.
  rewrite <- !Rmult_assoc. f_equal.
  assert (E : (sqrt (zf k * zf (j - k) * zf i * zf (j - i)) = nrm j k * nrm j i)%R).
  { unfold nrm. rewrite <- sqrt_mult by (apply Rmult_le_pos; apply zf_ge0). f_equal. ring. }
  rewrite E. transitivity (nrm j k / nrm j i * (zf i * zf (j - i)))%R; [ring|].
  rewrite <- nrm_sq. field. apply nrm_neq.
Qed.

Lemma term_range c s j k i a b : a <= 0 -> i < b -> 
  rsum (zrange a b) (term c s j k i) = rsum (zrange 0 (i + 1)) (term c s j k i).
Proof.
  intros Ha Hb. destruct (Z_le_dec 0 i).
  - apply rr_shrink; try lia. intros t Ht Hn. apply term_out. lia.
  - rewrite (rr_nil 0 (i + 1)) by lia. apply rr_0. intros t Ht. apply term_out. lia.
Qed.

(** The explicit formula of the specification. *)
Lemma wigner_dh l m n beta : 0 <= l ->
  wigner_d l m n beta = dh (cos (beta / 2)) (sin (beta / 2)) (2 * l) (l + m) (l + n).
Proof.
  intros Hl. unfold wigner_d.
  destruct (Z_lt_dec l (Z.abs m)).
  { rewrite dh_out_k by lia. apply rr_nil. lia. }
  destruct (Z_lt_dec l (Z.abs n)).
  { rewrite dh_out_i by lia. apply rr_nil. lia. }
  rewrite dh_expand by lia. rewrite <- rs_scal_l.
  rewrite (rr_shrink 0 (l + n + 1) (Z.max 0 (n - m)) (Z.min (l + n) (l - m) + 1)
    (fun t => (sqrt (zf (l + m) * zf (2 * l - (l + m)) * zf (l + n) * zf (2 * l - (l + n)))
       * term (cos (beta / 2)) (sin (beta / 2)) (2 * l) (l + m) (l + n) t)%R)); try lia.
  2:{ intros t Ht Hn. rewrite term_out by lia. ring. }
  apply rr_ext. intros t Ht. unfold term.
  replace (2 * l - (l + m)) with (l - m) by lia. replace (2 * l - (l + n)) with (l - n) by lia.
  replace (l + m - (l + n)) with (m - n) by lia. replace (2 * l + (l + n) - (l + m) - 2 * t) with (2 * l + n - m - 2 * t) by lia.
  rewrite !ifac_pos by lia. field. repeat split; apply zf_neq.
Qed.

(** ** Symmetries *)
Lemma Rmult_swap a b c : (a * (b * c) = b * (a * c))%R.
Proof. ring. Qed.
Lemma term_wide c s j k i : 0 <= i <= j -> rsum (zrange 0 (i + 1)) (term c s j k i)
  = rsum (zrange (- j) (j + 1)) (term c s j k i).
Proof. intros. symmetry. apply term_range; lia. Qed.

Lemma dh_transpose c s j k i : 0 <= i <= j -> 0 <= k <= j ->
  dh c s j k i = (sgn (k - i) * dh c s j i k)%R.
Proof.
  intros Hi Hk. rewrite !dh_expand by lia. rewrite <- (term_range c s j k i (- j - k) (j + i + 1 - k)) by lia.
  rewrite <- (term_range c s j i k (- j - i) (j + 1)) by lia.
  rewrite <- (rr_perm (- j - i) (j + 1) (- j - k) (j + i + 1 - k) (fun t => t + i - k)) by lia.
  rewrite (Rmult_swap (sgn _)). f_equal.
  - f_equal. ring.
  - rewrite <- rs_scal_l. apply rr_ext. intros t _. unfold term.
    replace (k - i + (t + i - k)) with t by lia. replace (i - (t + i - k)) with (k - t) by lia.
    replace (t + i - k) with (i - k + t) by lia.
    replace (j - k - (i - k + t)) with (j - i - t) by lia.
    replace (j + i - k - 2 * (i - k + t)) with (j + k - i - 2 * t) by lia.
    replace (k - i + 2 * (i - k + t)) with (i - k + 2 * t) by lia.
    replace (sgn (i - k + t)) with (sgn (k - i) * sgn t)%R.
    2:{ rewrite <- sgn_add. replace (i - k + t) with (k - i + t + 2 * (i - k)) by lia.
        rewrite (sgn_add (k - i + t)), sgn_double. ring. }
    rewrite <- !Rmult_assoc. rewrite sgn_sq. ring.
Qed.

Lemma dh_flip_transpose c s j k i : 0 <= i <= j -> 0 <= k <= j ->
  dh c s j (j - k) (j - i) = dh c s j i k.
Proof.
  intros Hi Hk. rewrite !dh_expand by lia.
  rewrite <- (term_range c s j (j - k) (j - i) (- j) (j + 1)) by lia.
  rewrite <- (term_range c s j i k (- j) (j + 1)) by lia.
  f_equal.
  - f_equal. replace (j - (j - k)) with k by lia. replace (j - (j - i)) with i by lia. ring.
  - apply rr_ext. intros t _. unfold term.
    replace (j - k - (j - i)) with (i - k) by lia. replace (j - (j - k) - t) with (k - t) by lia.
    replace (j - i - t) with (j - i - t) by lia.
    replace (j + (j - i) - (j - k) - 2 * t) with (j + k - i - 2 * t) by lia. ring.
Qed.

Lemma dh_flip c s j k i : 0 <= i <= j -> 0 <= k <= j ->
  dh c s j (j - k) (j - i) = (sgn (k - i) * dh c s j k i)%R.
Proof.
  intros. rewrite dh_flip_transpose, dh_transpose by auto. f_equal.
  rewrite <- (sgn_opp (k - i)). f_equal. lia.
Qed.

Lemma dh_neg c s j k i : 0 <= i <= j -> 0 <= k <= j ->
  dh c (- s) j k i = (sgn (k - i) * dh c s j k i)%R.
Proof.
  intros Hi Hk. rewrite !dh_expand by lia. rewrite (Rmult_swap (sgn _)).
  f_equal. rewrite <- rs_scal_l. apply rr_ext. intros t Ht.
  destruct (Z_lt_dec (k - i + t) 0); [rewrite !term_out by lia; ring|].
  unfold term. rewrite zpow_opp by lia. rewrite (sgn_add (k - i) (2 * t)), sgn_double. ring.
Qed.

Lemma dh_swap c s j k i : 0 <= i <= j -> 0 <= k <= j ->
  dh s c j k i = (sgn k * dh c s j k (j - i))%R.
Proof.
  intros Hi Hk. rewrite !dh_expand by lia.
  rewrite <- (term_range s c j k i (- j - k) (j - k + j + 1)) by lia.
  rewrite <- (term_range c s j k (j - i) (- j) (2 * j + 1)) by lia.
  rewrite <- (rr_perm (- j) (2 * j + 1) (- j - k) (j - k + j + 1) (fun t => j - k - t)) by lia.
  rewrite (Rmult_swap (sgn _)). f_equal.
  - f_equal. replace (j - (j - i)) with i by lia. ring.
  - rewrite <- rs_scal_l. apply rr_ext. intros t _. unfold term.
    replace (k - i + (j - k - t)) with (j - i - t) by lia.
    replace (i - (j - k - t)) with (k - (j - i) + t) by lia.
    replace (j - k - (j - k - t)) with t by lia.
    replace (j + i - k - 2 * (j - k - t)) with (k - (j - i) + 2 * t) by lia.
    replace (k - i + 2 * (j - k - t)) with (j + (j - i) - k - 2 * t) by lia.
    replace (sgn (j - i - t)) with (sgn k * sgn (k - (j - i) + t))%R; [ring|].
    rewrite <- sgn_add. replace (k + (k - (j - i) + t)) with (2 * (k + t - (j - i)) + (j - i - t)) by lia.
    rewrite sgn_add, sgn_double. ring.
Qed.

(** ** beta = 0 *)
Lemma itlin_shift1 n p k : itlin n 1 0 p k = p (k - Z.of_nat n).
Proof.
  revert k. induction n; intros k; cbn [itlin]; [f_equal; lia|]. unfold lin. rewrite !IHn.
  replace (k - 1 - Z.of_nat n) with (k - Z.of_nat (S n)) by lia. ring.
Qed.
Lemma itlin_id n p k : itlin n 0 1 p k = p k.
Proof. revert k. induction n; intros k; cbn [itlin]; [reflexivity|]. unfold lin. rewrite !IHn. ring. Qed.
Lemma dh_id j k i : 0 <= i <= j -> dh 1 0 j k i = if k =? i then 1%R else 0%R.
Proof.
  intros Hi. rewrite dh_in by lia. unfold gen. rewrite Ropp_0. rewrite itlin_shift1.
  rewrite (itlin_id (Z.to_nat (j - i))). unfold delta0. rewrite Z2Nat.id by lia.
  replace (k - i =? 0) with (k =? i) by lia. destruct (Z.eqb_spec k i) as [->|]; [|ring].
  field. apply nrm_neq.
Qed.
