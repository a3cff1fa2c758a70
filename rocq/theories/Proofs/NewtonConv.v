(** The Newton iteration for the Gauss-Legendre rule converges from the starting points of the code. *)
From Coq Require Import Reals Lra Lia ZifyBool Arith.
From Coquelicot Require Import Coquelicot.
From Verif Require Import Lib.Py Lib.PyFacts Lib.Vec Lib.VecFacts Model.GaussLegendre Spec.QuadSpec Proofs.Legendre Proofs.GaussProofs Proofs.LegendreZeros.
Open Scope R_scope.

(** ** Slope to the right of a root *)
Section Right.
  Variables (n : nat) (x z sg : R).
  Hypothesis (Hx : 0 <= x) (Hxz : x <= z) (Hz : z < 1).
  Hypothesis (H0 : leg (S n) x = 0) (Hd : 0 < sg * dleg (S n) x).
  Hypothesis Hsg : forall y, x <= y <= z -> 0 <= sg * leg (S n) y.
  Hypothesis (Hdist : lam n * (z - x) <= x) (Hratio : 1 - x ^ 2 <= 2 * (1 - z ^ 2)).
  Let p y := sg * leg (S n) y.
  Let p' y := sg * dleg (S n) y.
  Let q y := (1 - y ^ 2) * p' y.
  Lemma p_derive y : is_derive p y (p' y).
  Proof. apply is_derive_scal, leg_derive. Qed.
  Lemma q_slope y : is_derive q y (- (lam n * p y)).
  Proof.
    apply (is_derive_ext (fun y => sg * ((1 - y ^ 2) * dleg (S n) y))); [intros t; change (sg * ((1 - t ^ 2) * dleg (S n) t) = (1 - t ^ 2) * (sg * dleg (S n) t)); ring|].
    replace (- (lam n * p y)) with (sg * (- (lam n * leg (S n) y))) by (unfold p; ring). apply is_derive_scal, q_derive.
  Qed.
  Lemma q_le y u : x <= y <= u -> u <= z -> q u <= q y.
  Proof.
    intros H1 H2. apply Ropp_le_cancel. apply (incr (fun y => - q y) (fun y => - - (lam n * p y))); [lra|intros; apply @is_derive_opp, q_slope|].
    intros t Ht. rewrite Ropp_involutive. pose proof (lam_pos n). apply Rmult_le_pos; [lra|]. apply Hsg. lra.
  Qed.
  Let K := q x / (1 - z ^ 2).
  Lemma z_pos : 0 < 1 - z ^ 2.
  Proof. nra. Qed.
  Lemma qx_pos : 0 < q x.
  Proof. apply Rmult_lt_0_compat; [nra|exact Hd]. Qed.
  Lemma K_le : 0 < K <= 2 * p' x.
  Proof.
    pose proof z_pos as Z0. pose proof qx_pos as Q0. unfold K. split; [now apply Rdiv_lt_0_compat|]. apply (Rmult_le_reg_r (1 - z ^ 2)); [exact Z0|].
    unfold Rdiv. rewrite Rmult_assoc, Rinv_l, Rmult_1_r by lra. unfold q. assert ((1 - x ^ 2) * p' x <= 2 * (1 - z ^ 2) * p' x) by (apply Rmult_le_compat_r; [left; exact Hd|exact Hratio]). lra.
  Qed.
  Lemma p_le y : x <= y <= z -> p y <= K * (y - x).
  Proof.
    intros Hy. pose proof z_pos as Z0. pose proof qx_pos as Q0. pose proof K_le as HK.
    assert (E : K * (x - x) - p x <= K * (y - x) - p y).
    { apply (incr (fun y => K * (y - x) - p y) (fun y => K - p' y)); [lra| |].
      - intros t _. apply @is_derive_minus; [|apply p_derive]. auto_derive; [exact I|]. ring.
      - intros t Ht. pose proof (q_le x t ltac:(lra) ltac:(lra)) as Hq. unfold q at 1 in Hq. assert (1 - z ^ 2 <= 1 - t ^ 2) by nra.
        assert (p' t <= K); [|lra]. destruct (Rle_lt_dec (p' t) 0) as [Hn|Hp]; [lra|]. unfold K. apply (Rmult_le_reg_l (1 - z ^ 2)); [exact Z0|].
        replace ((1 - z ^ 2) * (q x / (1 - z ^ 2))) with (q x) by (field; lra). apply Rle_trans with ((1 - t ^ 2) * p' t); [apply Rmult_le_compat_r; lra|exact Hq]. }
    assert (p x = 0) by (unfold p; rewrite H0; ring). lra.
  Qed.
  Lemma slope_le y : x <= y <= z -> p' x <= p' y.
  Proof.
    intros Hy. pose proof z_pos as Z0. pose proof K_le as HK. pose proof (lam_pos n) as HL.
    assert (E : q x + lam n * K * (x - x) ^ 2 / 2 <= q y + lam n * K * (y - x) ^ 2 / 2).
    { apply (incr (fun y => q y + lam n * K * (y - x) ^ 2 / 2) (fun y => - (lam n * p y) + lam n * K * (y - x))); [lra| |].
      - intros t _. apply @is_derive_plus; [apply q_slope|]. auto_derive; [exact I|]. unfold Rminus. field.
      - intros t Ht. pose proof (p_le t ltac:(lra)). assert (0 <= lam n * (K * (t - x) - p t)) by (apply Rmult_le_pos; lra). lra. }
    unfold q in E. replace (x - x) with 0 in E by ring.
    assert (B : lam n * K * (y - x) ^ 2 / 2 <= p' x * (y ^ 2 - x ^ 2)).
    { assert (lam n * (y - x) <= x) by (apply Rle_trans with (lam n * (z - x)); [apply Rmult_le_compat_l; lra|exact Hdist]).
      assert (B1 : lam n * (y - x) * (y - x) <= x * (y - x)) by (apply Rmult_le_compat_r; lra).
      assert (B2 : K * (lam n * (y - x) * (y - x)) <= 2 * p' x * (x * (y - x))).
      { apply Rmult_le_compat; try lra. apply Rmult_le_pos; [apply Rmult_le_pos; lra|lra]. }
      assert (B3 : 0 <= p' x * (y * (y - x))) by (apply Rmult_le_pos; [left; exact Hd|apply Rmult_le_pos; lra]).
      replace (lam n * K * (y - x) ^ 2 / 2) with (K * (lam n * (y - x) * (y - x)) / 2) by (field). nra. }
    assert (C1 : (1 - y ^ 2) * p' x <= (1 - y ^ 2) * p' y) by nra. assert (0 < 1 - y ^ 2) by nra. nra.
  Qed.
  Lemma slope_incr y u : x <= y <= u -> u <= z -> p' y <= p' u.
  Proof.
    intros H1 H2. pose proof (lam_pos n) as HL. pose proof K_le as HK.
    apply (incr p' (fun y => sg * d2leg n y)); [lra|intros t Ht; apply is_derive_scal, dleg_derive; lra|].
    intros t Ht. pose proof (slope_le t ltac:(lra)) as S1. pose proof (p_le t ltac:(lra)) as P1. unfold d2leg.
    replace (sg * ((2 * t * dleg (S n) t - lam n * leg (S n) t) / (1 - t ^ 2))) with ((2 * t * p' t - lam n * p t) / (1 - t ^ 2)) by (unfold p, p'; field; nra).
    apply Rle_div_r; [nra|]. rewrite Rmult_0_l. assert (lam n * (t - x) <= x) by (apply Rle_trans with (lam n * (z - x)); [apply Rmult_le_compat_l; lra|exact Hdist]).
    assert (A1 : 2 * t * p' x <= 2 * t * p' t) by (apply Rmult_le_compat_l; lra).
    assert (A2 : lam n * p t <= lam n * (K * (t - x))) by (apply Rmult_le_compat_l; lra).
    assert (A3 : K * (lam n * (t - x)) <= 2 * p' x * x) by (apply Rmult_le_compat; try lra; apply Rmult_le_pos; lra).
    assert (A4 : p' x * x <= p' x * t) by (apply Rmult_le_compat_l; [left; exact Hd|lra]). lra.
  Qed.
  (** a step halves the distance and does not pass the root *)
  Lemma step_right y : x <= y <= z -> dleg (S n) y <> 0 /\ x <= y - leg (S n) y / dleg (S n) y /\ y - leg (S n) y / dleg (S n) y - x <= (y - x) / 2.
  Proof.
    intros Hy. pose proof (slope_le y Hy) as S1. assert (Hp : 0 < p' y) by (unfold p' in *; lra).
    assert (Hn : dleg (S n) y <> 0) by (unfold p' in Hp; intros E; rewrite E, Rmult_0_r in Hp; lra). split; [exact Hn|].
    assert (Hs : sg <> 0) by (intros E; rewrite E, Rmult_0_l in Hd; lra).
    replace (leg (S n) y / dleg (S n) y) with (p y / p' y) by (unfold p, p'; field; auto).
    destruct (Req_dec x y) as [<-|Hne]; [unfold p; rewrite H0; unfold Rdiv; lra|].
    destruct (mvt p p' x y ltac:(lra)) as (c & Hc & E); [intros; apply p_derive|]. assert (E0 : p x = 0) by (unfold p; rewrite H0; ring). rewrite E0, Rminus_0_r in E.
    pose proof (slope_le c ltac:(lra)) as S2. pose proof (slope_incr c y ltac:(lra) ltac:(lra)) as S3.
    assert (B1 : p y / p' y <= y - x). { apply (Rmult_le_reg_r (p' y)); [exact Hp|]. unfold Rdiv. rewrite Rmult_assoc, Rinv_l by lra. rewrite E. nra. }
    assert (B2 : (y - x) / 2 <= p y / p' y).
    { apply (Rmult_le_reg_r (p' y)); [exact Hp|]. unfold Rdiv at 2. rewrite Rmult_assoc, Rinv_l, Rmult_1_r by lra. rewrite E.
      pose proof (q_le x y ltac:(lra) ltac:(lra)) as Q1. unfold q in Q1. assert (1 - x ^ 2 <= 2 * (1 - y ^ 2)) by nra.
      assert (p' y <= 2 * p' x). { assert (0 < 1 - y ^ 2) by nra. assert ((1 - y ^ 2) * p' y <= (1 - y ^ 2) * (2 * p' x)); [|nra]. assert (0 < p' x) by exact Hd. nra. }
      assert (p' y * (y - x) <= 2 * p' c * (y - x)) by (apply Rmult_le_compat_r; lra). lra. }
    lra.
  Qed.
  (** the weight of a pair of points to the right of the root *)
  Lemma weight_right y u : x <= u <= y -> y <= z ->
    let w := 2 / ((1 - x ^ 2) * dleg (S n) x ^ 2) in let v := 2 * 1 / ((1 - u ^ 2) * dleg (S n) y * dleg (S n) y) in
    Rabs (v - w) <= 4 * (y - x) / (1 - x ^ 2) * w /\ 0 < w.
  Proof.
    intros Hu Hy w v. pose proof (slope_le y ltac:(lra)) as S1. pose proof (q_le x y ltac:(lra) ltac:(lra)) as Q1. unfold q in Q1.
    assert (Hs2 : 0 < sg * sg). { assert (sg <> 0) by (intros E; rewrite E, Rmult_0_l in Hd; lra). nra. }
    assert (Ew : w = sg * sg * (2 / ((1 - x ^ 2) * p' x ^ 2))).
    { unfold w, p'. assert (dleg (S n) x <> 0) by (intros E; rewrite E, Rmult_0_r in Hd; lra). field. repeat split; try nra. }
    assert (Hp : 0 < p' y) by (unfold p' in *; lra). assert (Hpx : 0 < p' x) by exact Hd.
    assert (Ev : v = sg * sg * (2 / ((1 - u ^ 2) * p' y ^ 2))).
    { unfold v, p'. assert (dleg (S n) y <> 0) by (unfold p' in Hp; intros E; rewrite E, Rmult_0_r in Hp; lra). field. repeat split; try nra. }
    set (a := p' x) in *. set (b := p' y) in *. set (X := 1 - x ^ 2) in *. set (Uu := 1 - u ^ 2) in *. set (Y := 1 - y ^ 2) in *.
    assert (HX : 0 < X) by (unfold X; nra). assert (HY : 0 < Y) by (unfold Y; nra). assert (HUY : Y <= Uu) by (unfold Y, Uu; nra). assert (HUX : Uu <= X) by (unfold X, Uu; nra).
    assert (HXY : X - Y <= 2 * (y - x)) by (unfold X, Y; nra). assert (HXY2 : X <= 2 * Y) by (assert (y ^ 2 <= z ^ 2) by nra; unfold Y; lra).
    assert (Hw : 0 < w). { rewrite Ew. apply Rmult_lt_0_compat; [exact Hs2|]. apply Rdiv_lt_0_compat; [lra|]. apply Rmult_lt_0_compat; [exact HX|nra]. }
    split; [|exact Hw].
    assert (E : v - w = w * ((X * a ^ 2 - Uu * b ^ 2) / (Uu * b ^ 2))) by (rewrite Ev, Ew; field; repeat split; lra).
    rewrite E, Rabs_mult, (Rabs_pos_eq w), Rmult_comm by lra. apply Rmult_le_compat_r; [lra|].
    assert (HUb : 0 < Uu * b ^ 2) by (apply Rmult_lt_0_compat; [lra|nra]).
    assert (D : 4 * (y - x) / X * (Uu * b ^ 2) = 4 * (y - x) * (Uu / X) * b ^ 2) by (field; lra).
    apply Rabs_le_between. assert (Hfrac : X <= 2 * Uu) by lra. assert (HF : 1 / 2 <= Uu / X) by (apply (Rmult_le_reg_r X); [exact HX|]; replace (Uu / X * X) with Uu by (field; lra); lra).
    assert (Hab : a ^ 2 <= b ^ 2) by nra. assert (Hb2 : 0 < b ^ 2) by nra. split.
    - (* not much smaller *)
      apply (Rmult_le_reg_r (Uu * b ^ 2)); [exact HUb|]. replace ((X * a ^ 2 - Uu * b ^ 2) / (Uu * b ^ 2) * (Uu * b ^ 2)) with (X * a ^ 2 - Uu * b ^ 2) by (field; lra).
      replace (- (4 * (y - x) / X) * (Uu * b ^ 2)) with (- (4 * (y - x) * (Uu / X) * b ^ 2)) by (field; lra).
      (* X a^2 >= Y^2 b^2 / X *)
      assert (A1 : Y * b * (Y * b) <= X * a * (X * a)) by (apply Rmult_le_compat; nra).
      assert (A2 : Y * Y / X * b ^ 2 <= X * a ^ 2). { apply (Rmult_le_reg_r X); [exact HX|]. replace (Y * Y / X * b ^ 2 * X) with (Y * b * (Y * b)) by (field; lra). replace (X * a ^ 2 * X) with (X * a * (X * a)) by ring. exact A1. }
      (* Uu - Y^2/X <= 4 (y-x) Uu / X *)
      assert (A3 : Uu - Y * Y / X <= 4 * (y - x) * (Uu / X)).
      { apply (Rmult_le_reg_r X); [exact HX|]. replace ((Uu - Y * Y / X) * X) with (Uu * X - Y * Y) by (field; lra). replace (4 * (y - x) * (Uu / X) * X) with (4 * (y - x) * Uu) by (field; lra).
        assert (Uu * X <= Uu * (Y + 2 * (y - x))) by (apply Rmult_le_compat_l; lra).
        assert (Y * (Uu - Y) <= Uu * (2 * (y - x))) by (apply Rmult_le_compat; lra). lra. }
      nra.
    - (* not much larger *)
      apply (Rmult_le_reg_r (Uu * b ^ 2)); [exact HUb|]. replace ((X * a ^ 2 - Uu * b ^ 2) / (Uu * b ^ 2) * (Uu * b ^ 2)) with (X * a ^ 2 - Uu * b ^ 2) by (field; lra). rewrite D.
      assert (X - Uu <= 4 * (y - x) * (Uu / X)) by nra. nra.
  Qed.
End Right.

(** ** No other root up to the starting point *)
Lemma right_sign n r k z : gl_roots (S n) r -> (k <= n)%nat -> 0 <= r k -> z < 1 -> lam n * (z - r k) <= r k -> 1 - r k ^ 2 <= 2 * (1 - z ^ 2) ->
  forall y, r k <= y <= z -> 0 <= (-1) ^ (n - k) * leg (S n) y.
Proof.
  intros Hr Hk Hx Hz Hdist Hratio. destruct (root_sign n r k Hr Hk) as (Hs & Hd). pose proof Hr as (Hb & Hi & H0). pose proof (lam_pos n).
  assert (Hs' : forall y, r k <= y -> ((k < n)%nat -> y <= r (S k)) -> 0 <= (-1) ^ (n - k) * leg (S n) y).
  { intros y H1 H2. destruct (Req_dec y (r k)) as [->|Hn]; [rewrite H0 by lia; lra|]. destruct (lt_dec k n) as [Hl|Hl].
    - destruct (Req_dec y (r (S k))) as [->|Hn']; [rewrite H0 by lia; lra|]. left. apply Hs; [lra|]. intros _. specialize (H2 Hl). lra.
    - left. apply Hs; [lra|]. intros; lia. }
  intros y Hy. apply Hs'; [lra|]. intros Hl. destruct (Rle_lt_dec y (r (S k))) as [H1|H1]; [exact H1|exfalso].
  assert (Hlt : r k < r (S k)) by (apply Hi; lia).
  assert (Hsl : forall u, r k <= u <= r (S k) -> (-1) ^ (n - k) * dleg (S n) (r k) <= (-1) ^ (n - k) * dleg (S n) u).
  { apply (slope_le n (r k) (r (S k)) ((-1) ^ (n - k))); try lra; try exact Hd; try (apply H0; lia).
    - intros u Hu. apply Hs'; [lra|]. intros; lra.
    - apply Rle_trans with (lam n * (z - r k)); [apply Rmult_le_compat_l; lra|exact Hdist].
    - assert (r (S k) ^ 2 <= z ^ 2) by nra. lra. }
  destruct (mvt (leg (S n)) (dleg (S n)) (r k) (r (S k)) Hlt) as (c & Hc & E); [intros; apply leg_derive|]. rewrite !H0 in E by lia.
  specialize (Hsl c ltac:(lra)). assert (0 < (-1) ^ (n - k) * dleg (S n) c * (r (S k) - r k)) by (apply Rmult_lt_0_compat; lra).
  replace ((-1) ^ (n - k) * dleg (S n) c * (r (S k) - r k)) with ((-1) ^ (n - k) * (dleg (S n) c * (r (S k) - r k))) in * by ring. rewrite <- E in *. lra.
Qed.

(** ** The loop *)
Open Scope Z_scope.
Section Ends.
  Variables (n : nat) (r hi : Z -> R) (m : Z).
  Hypothesis Hm : 1 <= m.
  Hypothesis Hc : forall i z, 0 <= i < m -> (r i <= z <= hi i)%R -> (z * z - 1 <> 0)%R /\ dleg (S n) z <> 0%R /\
    (r i <= z - leg (S n) z / dleg (S n) z)%R /\ (z - leg (S n) z / dleg (S n) z - r i <= (z - r i) / 2)%R.
  Lemma turn z : vlen z = m -> (forall i, 0 <= i < m -> (r i <= vat z i <= hi i)%R) ->
    exists z' pp, newton_steps (Z.of_nat (S n)) z = Ok (z', pp) /\ vlen z' = m /\ vlen pp = m /\
      forall i, 0 <= i < m -> (r i <= vat z' i)%R /\ (vat z' i - r i <= (vat z i - r i) / 2)%R /\ vat pp i = dleg (S n) (vat z i).
  Proof.
    intros Hl Hz. destruct (steps_ok (Z.of_nat (S n)) z (fun i => vat z i - leg (S n) (vat z i) / dleg (S n) (vat z i))%R (fun i => dleg (S n) (vat z i))) as (z' & pp & E & L1 & L2 & V).
    - intros i Hi. rewrite Hl in Hi. destruct (Hc i (vat z i) Hi (Hz i Hi)) as (A & B & _). now apply step_ok.
    - lia.
    - exists z', pp. split; [exact E|]. split; [congruence|]. split; [congruence|]. intros i Hi. destruct (V i ltac:(lia)) as (-> & ->).
      destruct (Hc i (vat z i) Hi (Hz i Hi)) as (_ & _ & A & B). auto.
  Qed.
  Lemma loop_ends K : forall z z1 pp turns, vlen z = m -> (K < turns)%nat ->
    (forall i, 0 <= i < m -> (r i <= vat z i <= hi i)%R /\ (vat z i - r i <= tol * 2 ^ K)%R) -> newton_again z z1 = Ok true ->
    exists z' pp' y, newton_loop turns (Z.of_nat (S n)) z z1 pp = Ok (z', pp') /\ vlen z' = m /\ vlen pp' = m /\
      forall i, 0 <= i < m -> (r i <= vat y i <= hi i)%R /\ (r i <= vat z' i)%R /\ (vat z' i - r i <= (vat y i - r i) / 2)%R /\ (vat y i - vat z' i <= tol)%R /\ vat pp' i = dleg (S n) (vat y i).
  Proof.
    induction K as [|K IH]; intros z z1 pp turns Hl Ht Hz Ha; (destruct turns as [|turns]; [lia|]); cbn [newton_loop]; rewrite Ha; cbn [bind];
      destruct (turn z Hl ltac:(intros; now apply Hz)) as (z' & pp' & E & L1 & L2 & V); rewrite E; cbn [bind].
    - assert (Ea : newton_again z' z = Ok false).
      { apply again_false; [lia|]. intros i Hi. rewrite L1 in Hi. destruct (Hz i Hi) as (_ & A). destruct (V i Hi) as (B1 & B2 & _). cbn [pow] in A. apply Rabs_le_between. pose proof tol_pos. lra. }
      exists z', pp', z. split; [destruct turns; cbn [newton_loop]; rewrite Ea; reflexivity|]. split; [exact L1|]. split; [exact L2|].
      intros i Hi. destruct (Hz i Hi) as (A & A'). destruct (V i Hi) as (B1 & B2 & C). cbn [pow] in A'. repeat split; try tauto; try exact C; lra.
    - destruct (newton_again z' z) as [[|]|e] eqn:Ea.
      + destruct (IH z' z pp' turns L1 ltac:(lia)) as (z2 & pp2 & y & E2 & A1 & A2 & A3).
        * intros i Hi. destruct (Hz i Hi) as (A & B). destruct (V i Hi) as (B1 & B2 & _). cbn [pow] in B. split; lra.
        * exact Ea.
        * exists z2, pp2, y. auto.
      + exists z', pp', z. split; [destruct turns; cbn [newton_loop]; rewrite Ea; reflexivity|]. split; [exact L1|]. split; [exact L2|].
        intros i Hi. destruct (Hz i Hi) as (A & _). destruct (V i Hi) as (B1 & B2 & C). pose proof (again_inv _ _ _ Ea eq_refl i ltac:(lia)) as D. apply Rabs_le_between in D.
        repeat split; try tauto; try exact C; lra.
      + unfold newton_again in Ea. replace (vlen z' =? 0) with false in Ea by lia. discriminate.
  Qed.
End Ends.

(** ** The iteration of the code *)
Lemma start_vat n i : 0 <= i -> vat (newton_start (Z.of_nat (S n))) i = cos (start n (Z.to_nat i)).
Proof.
  intros Hi. cbn [newton_start vat]. f_equal. unfold start, freq. rewrite (INR_IZR_INZ (Z.to_nat i)), Z2Nat.id by lia. rewrite <- INR_IZR_INZ, S_INR, plus_IZR.
  pose proof (pos_INR n). field. lra.
Qed.
Lemma tol_small : (tol < 1)%R.
Proof. unfold tol. rewrite <- Rinv_1. apply Rinv_lt_contravar; [|apply Rlt_pow_R1; [lra|lia]]. rewrite Rmult_1_l. apply pow_lt. lra. Qed.
Lemma tol_big : (1 <= tol * 2 ^ 49)%R.
Proof.
  unfold tol. apply (Rmult_le_reg_l (10 ^ 14)); [apply pow_lt; lra|]. rewrite <- Rmult_assoc, Rinv_r, Rmult_1_l, Rmult_1_r by (apply pow_nonzero; lra).
  rewrite !pow_IZR. apply IZR_le. vm_compute. discriminate.
Qed.
Lemma newton_converges n r turns : gl_roots (S n) r -> (50 <= turns)%nat -> let L := Z.of_nat (S n) in let z0 := newton_start L in
  exists z pp, newton_loop turns L z0 (vconst (vlen z0) 2%R) (vconst (vlen z0) 0%R) = Ok (z, pp) /\ vlen z = (L + 1) / 2 /\
    forall i, 0 <= i < (L + 1) / 2 -> let x := r (n - Z.to_nat i)%nat in let w := gl_weight (S n) x in
      (x <= vat z i <= x + tol)%R /\ (Rabs (2 * 1 / ((1 - vat z i ^ 2) * vat pp i * vat pp i) - w) <= 4 * freq n * freq n * tol * w)%R.
Proof.
  intros Hr Ht L z0. set (m := (L + 1) / 2). assert (Hm : L <= 2 * m <= L + 1) by (unfold m; pose proof (Z.div_mod (L + 1) 2 ltac:(lia)); pose proof (Z.mod_pos_bound (L + 1) 2 ltac:(lia)); lia).
  assert (Hlen : vlen z0 = m) by reflexivity.
  set (x := fun i : Z => r (n - Z.to_nat i)%nat). set (hi := fun i : Z => cos (start n (Z.to_nat i))).
  assert (H2 : forall i, 0 <= i < m -> (2 * Z.to_nat i <= n)%nat) by (intros; lia).
  assert (Hhi : forall i, 0 <= i < m -> (hi i < 1)%R).
  { intros i Hi. unfold hi. rewrite <- cos_0. pose proof (ang_start_pos n (Z.to_nat i)). pose proof (start_le n r Hr (Z.to_nat i) (H2 i Hi)). pose proof (ang_half n r Hr (Z.to_nat i) (H2 i Hi)). pose proof PI_RGT_0. apply cos_decreasing_1; lra. }
  assert (Hx0 : forall i, 0 <= i < m -> (0 <= x i)%R) by (intros; now apply root_nonneg, H2).
  assert (Hxh : forall i, 0 <= i < m -> (x i <= hi i)%R) by (intros; now apply start_right, H2).
  assert (Hdi : forall i, 0 <= i < m -> (lam n * (hi i - x i) <= x i)%R) by (intros; now apply start_dist, H2).
  assert (Hra : forall i, 0 <= i < m -> (1 - x i ^ 2 <= 2 * (1 - hi i ^ 2))%R) by (intros; now apply start_ratio, H2).
  assert (Hle0 : forall i, leg (S n) (x i) = 0%R) by (intros i; destruct Hr as (_ & _ & H0); apply H0; lia).
  set (sg := fun i : Z => ((-1) ^ (n - (n - Z.to_nat i)))%R).
  assert (Hsd : forall i, (0 < sg i * dleg (S n) (x i))%R) by (intros i; apply (root_sign n r (n - Z.to_nat i) Hr ltac:(lia))).
  assert (Hsg : forall i, 0 <= i < m -> forall y, (x i <= y <= hi i)%R -> (0 <= sg i * leg (S n) y)%R).
  { intros i Hi. apply (right_sign n r (n - Z.to_nat i) (hi i) Hr ltac:(lia)); [now apply Hx0|now apply Hhi|now apply Hdi|now apply Hra]. }
  destruct (loop_ends n x hi m ltac:(lia)) with (K := 49%nat) (z := z0) (z1 := vconst (vlen z0) 2%R) (pp := vconst (vlen z0) 0%R) (turns := turns) as (z & pp & y & E & Lz & Lp & V).
  - intros i u Hi Hu. destruct (step_right n (x i) (hi i) (sg i) (Hx0 i Hi) (Hxh i Hi) (Hhi i Hi) (Hle0 i) (Hsd i) (Hsg i Hi) (Hdi i Hi) (Hra i Hi) u Hu) as (A & B & C).
    split; [|auto]. specialize (Hx0 i Hi). specialize (Hhi i Hi). nra.
  - exact Hlen.
  - lia.
  - intros i Hi. unfold z0, L. rewrite start_vat by lia. fold (hi i). specialize (Hxh i Hi). specialize (Hhi i Hi). specialize (Hx0 i Hi). pose proof tol_big. split; lra.
  - apply (again_true _ _ 0); [lia|]. cbn [vconst vat]. pose proof (start_bound L 0) as Hb. fold z0 in Hb. apply Rabs_le_between in Hb. pose proof tol_small. rewrite Rabs_minus_sym, Rabs_pos_eq; lra.
  - exists z, pp. split; [exact E|]. split; [exact Lz|]. intros i Hi. cbv zeta. fold (x i). destruct (V i Hi) as (A1 & A2 & A3 & A4 & A5). split; [lra|]. rewrite A5.
    destruct (weight_right n (x i) (hi i) (sg i) (Hx0 i Hi) (Hxh i Hi) (Hhi i Hi) (Hle0 i) (Hsd i) (Hsg i Hi) (Hdi i Hi) (Hra i Hi) (vat y i) (vat z i)) as (W1 & W2); [lra|lra|].
    cbv zeta in W1, W2. assert (Ew : gl_weight (S n) (x i) = (2 / ((1 - x i ^ 2) * dleg (S n) (x i) ^ 2))%R) by (rewrite weight_slope by apply Hle0; f_equal; ring).
    rewrite Ew. set (w := (2 / ((1 - x i ^ 2) * dleg (S n) (x i) ^ 2))%R) in *. eapply Rle_trans; [exact W1|]. apply Rmult_le_compat_r; [lra|].
    pose proof (root_away n r Hr (Z.to_nat i) (H2 i Hi)) as Haw. fold (x i) in Haw. pose proof tol_pos. pose proof (freq_pos n).
    specialize (Hx0 i Hi). specialize (Hhi i Hi). assert (HX : (0 < 1 - x i ^ 2)%R) by nra. apply (Rmult_le_reg_r (1 - x i ^ 2)); [exact HX|].
    replace (4 * (vat y i - x i) / (1 - x i ^ 2) * (1 - x i ^ 2))%R with (4 * (vat y i - x i))%R by (field; lra).
    replace (4 * freq n * freq n * tol * (1 - x i ^ 2))%R with (tol * (4 * (freq n * freq n * (1 - x i ^ 2))))%R by ring.
    assert (tol * 9 <= tol * (4 * (freq n * freq n * (1 - x i ^ 2))))%R by (apply Rmult_le_compat_l; lra). lra.
Qed.
Lemma newton_accurate L x w turns : gauss_legendre L x w -> 1 <= L -> (50 <= turns)%nat ->
  exists q, quad_weights_gl_newton turns L = Ok q /\ vlen q = L /\
    forall i, 0 <= i < L -> (Rabs (vat q i - vat w i * (2 * PI / IZR (2 * L - 1))) <= IZR (2 * L + 1) ^ 2 / 10 ^ 14 * (vat w i * (2 * PI / IZR (2 * L - 1))))%R.
Proof.
  intros H HL Ht. destruct (of_nat_S L HL) as (n & ->). destruct (gauss_sequences n x w H) as (Hr & Hw). set (L := Z.of_nat (S n)) in *.
  destruct (newton_converges n _ turns Hr Ht) as (z & pp & E & Lz & V). fold L in E, Lz, V. unfold quad_weights_gl_newton, newton_from. rewrite E. cbn [bind].
  destruct (weights_ok L z pp HL) as (q & Eq & Lq & Vq). exists q. split; [exact Eq|]. split; [exact Lq|]. intros i Hi. rewrite Vq by exact Hi.
  set (j := Z.min i (L - 1 - i)). assert (Hj : 0 <= j < (L + 1) / 2) by (pose proof (Z.div_mod (L + 1) 2 ltac:(lia)); pose proof (Z.mod_pos_bound (L + 1) 2 ltac:(lia)); lia).
  destruct (V j Hj) as (_ & W). cbv zeta in W.
  assert (Ew : gl_weight (S n) (vat x (Z.of_nat (n - Z.to_nat j))) = vat w i).
  { rewrite Hw by exact Hi. replace (Z.of_nat (n - Z.to_nat j)) with (L - 1 - j) by lia. unfold j. destruct (Z.min_spec i (L - 1 - i)) as [(H1 & ->)|(H1 & ->)]; [reflexivity|].
    replace (L - 1 - (L - 1 - i)) with i by lia. pose proof (roots_same (S n) _ _ (Z.to_nat i) Hr (roots_mirror n _ Hr) ltac:(lia)) as Em. cbn beta in Em. rewrite Z2Nat.id in Em by lia.
    replace (Z.of_nat (n - Z.to_nat i)) with (L - 1 - i) in Em by lia. rewrite Em. apply gl_weight_even. }
  rewrite Ew in W. set (v := (2 * 1 / ((1 - vat z j ^ 2) * vat pp j * vat pp j))%R) in *.
  assert (Hc : (0 < 2 * PI / IZR (2 * L - 1))%R) by (pose proof PI_RGT_0; apply Rdiv_lt_0_compat; [lra|apply IZR_lt; lia]).
  set (c := (2 * PI / IZR (2 * L - 1))%R) in *. replace (v * 2 * PI / IZR (2 * L - 1))%R with (v * c)%R by (unfold c, Rdiv; ring).
  replace (v * c - vat w i * c)%R with ((v - vat w i) * c)%R by ring. rewrite Rabs_mult, (Rabs_pos_eq c) by lra. rewrite <- Rmult_assoc. apply Rmult_le_compat_r; [lra|].
  replace (IZR (2 * L + 1) ^ 2 / 10 ^ 14)%R with (4 * freq n * freq n * tol)%R; [exact W|].
  unfold Rdiv. change (/ 10 ^ 14)%R with tol. f_equal. unfold freq. rewrite plus_IZR, mult_IZR. unfold L. rewrite <- INR_IZR_INZ, S_INR. field.
Qed.
Lemma newton_nodes L x w turns : gauss_legendre L x w -> 1 <= L -> (50 <= turns)%nat -> let z0 := newton_start L in
  exists z pp, newton_loop turns L z0 (vconst (vlen z0) 2%R) (vconst (vlen z0) 0%R) = Ok (z, pp) /\ vlen z = (L + 1) / 2 /\
    forall i, 0 <= i < (L + 1) / 2 -> (vat x (L - 1 - i) <= vat z i <= vat x (L - 1 - i) + / 10 ^ 14)%R.
Proof.
  intros H HL Ht z0. destruct (of_nat_S L HL) as (n & ->). destruct (gauss_sequences n x w H) as (Hr & Hw).
  destruct (newton_converges n _ turns Hr Ht) as (z & pp & E & Lz & V). exists z, pp. split; [exact E|]. split; [exact Lz|]. intros i Hi. destruct (V i Hi) as (A & _).
  set (L := Z.of_nat (S n)) in *. replace (L - 1 - i) with (Z.of_nat (n - Z.to_nat i)); [exact A|]. pose proof (Z.div_mod (L + 1) 2 ltac:(lia)). pose proof (Z.mod_pos_bound (L + 1) 2 ltac:(lia)). lia.
Qed.
