(** The weights of the Driscoll-Healy rule: their size, and their error in rounded arithmetic. *)
From Coq Require Import Reals Lra Lia ZifyBool.
From Coquelicot Require Import Complex.
From Verif Require Import Lib.Py Lib.PyFacts Lib.Vec Lib.Sums Lib.Cplx Lib.Arr Model.RisboFloat Model.PrecomputeFloat Model.ForwardFloat
  Spec.RoundingSpec Spec.PrecomputeFloatSpec Spec.ForwardFloatSpec Proofs.SpectralBound Proofs.FloatSums Proofs.FloatFourier.
Open Scope R_scope.

Definition dh_terms (n : Z) (x : R) : R := rsum (zrange 0 n) (fun k => sin (IZR (2 * k + 1) * x) / IZR (2 * k + 1)).

(** ** 0 <= sin x * sum <= 1 *)
Lemma dh_terms_step n x : (0 <= n)%Z -> dh_terms (n + 1) x = dh_terms n x + sin (IZR (2 * n + 1) * x) / IZR (2 * n + 1).
Proof. intros Hn. unfold dh_terms. rewrite (rr_split 0 n (n + 1)) by lia. f_equal. rewrite rr_cons by lia. rewrite (zrange_nil (n + 1) (n + 1)) by lia. cbn. ring. Qed.
Lemma sin_sin a b : 2 * (sin a * sin b) = cos (b - a) - cos (b + a).
Proof. rewrite cos_minus, cos_plus. ring. Qed.
Lemma dh_bracket n x : (1 <= n)%Z ->
  2 * sin x * dh_terms n x + cos (2 * IZR n * x) / IZR (2 * n - 1) <= 2 - / IZR (2 * n - 1) /\
  / IZR (2 * n - 1) <= 2 * sin x * dh_terms n x + cos (2 * IZR n * x) / IZR (2 * n - 1).
Proof.
  intros Hn. replace n with ((n - 1) + 1)%Z by lia. assert (H0 : (0 <= n - 1)%Z) by lia. revert H0. generalize (n - 1)%Z. clear n Hn. intros n Hn.
  pattern n. apply natlike_ind; [| |exact Hn]; clear n Hn.
  - assert (T1 : dh_terms (0 + 1) x = sin x).
    { rewrite dh_terms_step by lia. unfold dh_terms. rewrite zrange_nil by lia. cbn. rewrite Rmult_1_l. field. }
    rewrite T1. change (IZR (2 * (0 + 1) - 1)) with 1. change (IZR (0 + 1)) with 1.
    pose proof (sin_sin x x) as H. replace (x - x) with 0 in H by ring. rewrite cos_0 in H.
    replace (x + x) with (2 * 1 * x) in H by ring. unfold Rdiv. rewrite Rinv_1, !Rmult_1_r. rewrite Rmult_1_r in H. lra.
  - intros n Hn IH. unfold Z.succ. rewrite (dh_terms_step (n + 1)) by lia. set (S := dh_terms (n + 1) x) in *.
    replace (2 * (n + 1) - 1)%Z with (2 * n + 1)%Z in IH by lia. replace (2 * (n + 1 + 1) - 1)%Z with (2 * n + 3)%Z by lia. replace (2 * (n + 1) + 1)%Z with (2 * n + 3)%Z by lia.
    assert (H := sin_sin x (IZR (2 * n + 3) * x)).
    replace (IZR (2 * n + 3) * x - x) with (2 * IZR (n + 1) * x) in H by (rewrite !plus_IZR, mult_IZR; ring).
    replace (IZR (2 * n + 3) * x + x) with (2 * IZR (n + 1 + 1) * x) in H by (rewrite !plus_IZR, mult_IZR; ring).
    assert (A1 : 1 <= IZR (2 * n + 1)) by (apply IZR_le; lia). assert (A3 : IZR (2 * n + 3) = IZR (2 * n + 1) + 2) by (rewrite !plus_IZR; ring).
    set (c1 := cos (2 * IZR (n + 1) * x)) in *. set (c2 := cos (2 * IZR (n + 1 + 1) * x)) in *. set (s3 := sin (IZR (2 * n + 3) * x)) in *.
    assert (C1 : -1 <= c1 <= 1) by apply COS_bound. rewrite A3. set (a := IZR (2 * n + 1)) in *.
    assert (I1 : 0 < / a) by (apply Rinv_0_lt_compat; lra). assert (I2 : 0 < / (a + 2)) by (apply Rinv_0_lt_compat; lra).
    assert (I3 : / (a + 2) <= / a) by (apply Rinv_le_contravar; lra).
    assert (E : 2 * sin x * (S + s3 / (a + 2)) + c2 / (a + 2) = (2 * sin x * S + c1 / a) + c1 * (/ (a + 2) - / a)).
    { replace (2 * sin x * (S + s3 / (a + 2)) + c2 / (a + 2)) with (2 * sin x * S + (2 * (sin x * s3) + c2) * / (a + 2)) by (field; lra).
      rewrite H. field. lra. }
    rewrite E. set (q := 2 * sin x * S + c1 / a) in *. nra.
Qed.
Lemma dh_size n x : (1 <= n)%Z -> 0 <= sin x * dh_terms n x <= 1.
Proof.
  intros Hn. destruct (dh_bracket n x Hn) as [H1 H2]. assert (A1 : 1 <= IZR (2 * n - 1)) by (apply IZR_le; lia).
  assert (I : 0 < / IZR (2 * n - 1)) by (apply Rinv_0_lt_compat; lra). pose proof (COS_bound (2 * IZR n * x)) as C.
  unfold Rdiv in *. set (c := cos (2 * IZR n * x)) in *. set (i := / IZR (2 * n - 1)) in *. nra.
Qed.
(** one sample's share of the rule *)
Definition dh_share (L : Z) : R := 4 * PI / (IZR L * IZR (2 * L - 1)).
Lemma dh_weight_size L x : (1 <= L)%Z -> 0 <= dh_weight L x <= dh_share L.
Proof.
  intros HL. pose proof (dh_size L x HL) as H. unfold dh_weight, dh_share. fold (dh_terms L x). pose proof PI_RGT_0.
  assert (L1 : 1 <= IZR L) by (apply IZR_le; lia). assert (N1 : 1 <= IZR (2 * L - 1)) by (apply IZR_le; lia).
  replace (2 * PI / IZR (2 * L - 1) * (2 / IZR L * sin x * dh_terms L x)) with (4 * PI / (IZR L * IZR (2 * L - 1)) * (sin x * dh_terms L x)) by (field; lra).
  assert (0 < 4 * PI / (IZR L * IZR (2 * L - 1))) by (apply Rdiv_lt_0_compat; [lra|]; apply Rmult_lt_0_compat; lra).
  split; [apply Rmult_le_pos; lra|]. rewrite <- (Rmult_1_r (4 * PI / _)) at 2. apply Rmult_le_compat_l; lra.
Qed.

Section Float.
  Variables (A : arith) (u eta : R).
  Hypothesis HA : rounded A u eta.
  Let u0 : 0 <= u := rd_u _ _ _ HA.
  Let e0 : 0 <= eta := rd_eta _ _ _ HA.
  Variable L : Z.
  Hypothesis HL : (1 <= L)%Z.
  Hypothesis HB : 2000 * u * (IZR L * (2 * IZR L + 3)) <= 1.
  Hypothesis HE : 4 * (IZR L * IZR L) * eta <= u.
  Let L1 : 1 <= IZR L.
  Proof. apply IZR_le. lia. Qed.
  Lemma fw_small : u * 10000 <= 1 /\ 4 * eta <= u /\ u * (IZR L * IZR L) * 4000 <= 1 /\ 0 <= u * (IZR L * IZR L) /\ u <= u * (IZR L * IZR L) /\
    u * IZR L <= u * (IZR L * IZR L) /\ 4 * IZR L * eta <= u.
  Proof.
    assert (1 <= IZR L * IZR L) by nra. assert (0 <= u * (IZR L * IZR L)) by (apply Rmult_le_pos; lra). assert (0 <= u * IZR L) by (apply Rmult_le_pos; lra).
    assert (u * 1 <= u * (IZR L * IZR L)) by (apply Rmult_le_compat_l; lra). assert (1 * eta <= IZR L * IZR L * eta) by (apply Rmult_le_compat_r; lra).
    assert (u * IZR L <= u * (IZR L * IZR L)) by (apply Rmult_le_compat_l; nra). assert (u * 1 <= u * IZR L) by (apply Rmult_le_compat_l; lra).
    assert (IZR L * eta <= IZR L * IZR L * eta) by (apply Rmult_le_compat_r; nra).
    repeat split; nra.
  Qed.
  Variables theta x : R.
  Hypothesis Hth : Rabs (theta - x) <= 13 * u.
  Hypothesis Hx : Rabs x <= 4.

  (** a term of the sum *)
  Lemma dh_term_err k : (0 <= k < L)%Z ->
    Rabs (fdiv A (fsin A (fmul A (IZR (2 * k + 1)) theta)) (IZR (2 * k + 1)) - sin (IZR (2 * k + 1) * x) / IZR (2 * k + 1)) <= 25 * u /\
    Rabs (sin (IZR (2 * k + 1) * x) / IZR (2 * k + 1)) <= 1.
  Proof.
    intros Hk. destruct fw_small as (S1 & S2 & _). set (a := IZR (2 * k + 1)). assert (A1 : 1 <= a) by (apply IZR_le; lia).
    assert (T4 : Rabs theta <= 41 / 10).
    { replace theta with ((theta - x) + x) by ring. eapply Rle_trans; [apply Rabs_triang|]. lra. }
    pose proof (rd_mul _ _ _ HA a theta) as M. pose proof (rd_sin _ _ _ HA (fmul A a theta)) as M2.
    set (y := fmul A a theta) in *. pose proof (rd_div _ _ _ HA (fsin A y) a ltac:(lra)) as M3.
    assert (Y : Rabs (y - a * x) <= a * (18 * u)).
    { replace (y - a * x) with ((y - a * theta) + a * (theta - x)) by ring. eapply Rle_trans; [apply Rabs_triang|].
      rewrite Rabs_mult in M. rewrite Rabs_mult, !(Rabs_right a) in * by lra.
      assert (a * Rabs (theta - x) <= a * (13 * u)) by (apply Rmult_le_compat_l; lra). assert (a * Rabs theta <= a * (41 / 10)) by (apply Rmult_le_compat_l; lra).
      assert (u * (a * Rabs theta) <= u * (a * (41 / 10))) by (now apply Rmult_le_compat_l). assert (u * 1 <= u * a) by (now apply Rmult_le_compat_l). nra. }
    assert (SL := sin_lip y (a * x)). assert (SY : Rabs (fsin A y - sin (a * x)) <= a * (22 * u)).
    { replace (fsin A y - sin (a * x)) with ((fsin A y - sin y) + (sin y - sin (a * x))) by ring. eapply Rle_trans; [apply Rabs_triang|].
      assert (u * 1 <= u * a) by (now apply Rmult_le_compat_l). lra. }
    assert (SB : Rabs (sin (a * x)) <= 1) by (apply Rabs_le; pose proof (SIN_bound (a * x)); lra).
    assert (IA : 0 < / a <= 1) by (split; [apply Rinv_0_lt_compat; lra|rewrite <- Rinv_1; apply Rinv_le_contravar; lra]).
    assert (Q : Rabs (sin (a * x) / a) <= 1).
    { unfold Rdiv. rewrite Rabs_mult, (Rabs_right (/ a)) by lra. pose proof (Rabs_pos (sin (a * x))). nra. }
    split; [|exact Q].
    assert (D : Rabs (fsin A y / a - sin (a * x) / a) <= 22 * u).
    { replace (fsin A y / a - sin (a * x) / a) with ((fsin A y - sin (a * x)) * / a) by (field; lra). rewrite Rabs_mult, (Rabs_right (/ a)) by lra.
      apply (Rmult_le_compat_r (/ a)) in SY; [|lra]. replace (a * (22 * u) * / a) with (22 * u) in SY by (field; lra). exact SY. }
    assert (D2 : Rabs (fsin A y / a) <= 1 + 22 * u).
    { replace (fsin A y / a) with ((fsin A y / a - sin (a * x) / a) + sin (a * x) / a) by ring. eapply Rle_trans; [apply Rabs_triang|]. lra. }
    replace (fdiv A (fsin A y) a - sin (a * x) / a) with ((fdiv A (fsin A y) a - fsin A y / a) + (fsin A y / a - sin (a * x) / a)) by ring.
    eapply Rle_trans; [apply Rabs_triang|]. assert (u * Rabs (fsin A y / a) <= u * (1 + 22 * u)) by (now apply Rmult_le_compat_l). nra.
  Qed.
  Definition dh_fsum (n : Z) : R :=
    fold_left (fun w k => fadd A w (fdiv A (fsin A (fmul A (IZR (2 * k + 1)) theta)) (IZR (2 * k + 1)))) (zrange 0 n) 0.
  Lemma dh_sum_err n : (0 <= n <= L)%Z -> Rabs (dh_fsum n - dh_terms n x) <= u * (27 * IZR n + IZR n * IZR n) /\ Rabs (dh_terms n x) <= IZR n.
  Proof.
    intros [Hn HnL]. revert HnL. pattern n. apply natlike_ind; [| |exact Hn]; clear n Hn.
    - intros _. unfold dh_fsum, dh_terms. rewrite zrange_nil by lia. cbn. rewrite Rminus_0_r, Rabs_R0. lra.
    - intros n Hn IH HnL. unfold Z.succ in *. destruct (IH ltac:(lia)) as [I1 I2]. destruct (dh_term_err n ltac:(lia)) as [T1 T2]. destruct fw_small as (S1 & S2 & S3 & _ & S5 & S6 & _).
      rewrite dh_terms_step by lia. unfold dh_fsum. rewrite (zrange_app 0 n (n + 1)), fold_left_app by lia. fold (dh_fsum n). rewrite (zrange_cons n (n + 1)), (zrange_nil (n + 1)) by lia. cbn [fold_left].
      set (w := dh_fsum n) in *. set (S := dh_terms n x) in *. set (b := fdiv A _ _) in *. set (s := sin _ / _) in *.
      pose proof (rd_add _ _ _ HA w b) as M. rewrite plus_IZR. assert (N0 : 0 <= IZR n) by (apply IZR_le; lia). assert (NL : IZR n <= IZR L) by (apply IZR_le; lia).
      set (z := IZR n) in *. set (E := u * (27 * z + z * z)) in *.
      assert (EB : E <= / 100). { unfold E. assert (z * z <= IZR L * IZR L) by nra. assert (u * (z * z) <= u * (IZR L * IZR L)) by (now apply Rmult_le_compat_l).
        assert (u * z <= u * IZR L) by (now apply Rmult_le_compat_l). nra. }
      assert (E1 : 0 <= E) by (pose proof (Rabs_pos (w - S)); lra).
      split; [|eapply Rle_trans; [apply Rabs_triang|]; lra].
      assert (W : Rabs (w + b) <= z + 1 + E + 25 * u).
      { replace (w + b) with (((w - S) + (b - s)) + (S + s)) by ring. eapply Rle_trans; [apply Rabs_triang|].
        eapply Rle_trans; [apply Rplus_le_compat; apply Rabs_triang|]. lra. }
      replace (fadd A w b - (S + s)) with ((fadd A w b - (w + b)) + ((w - S) + (b - s))) by ring. eapply Rle_trans; [apply Rabs_triang|].
      eapply Rle_trans; [apply Rplus_le_compat_l, Rabs_triang|].
      assert (u * Rabs (w + b) <= u * (z + 1 + E + 25 * u)) by (now apply Rmult_le_compat_l).
      assert (u * E <= u * / 100) by (now apply Rmult_le_compat_l). assert (u * (25 * u) <= u * / 100) by (apply Rmult_le_compat_l; lra).
      replace (u * (27 * (z + 1) + (z + 1) * (z + 1))) with (E + 28 * u + 2 * (u * z)) by (unfold E; ring).
      assert (0 <= u * z) by (now apply Rmult_le_pos). lra.
  Qed.

  Lemma dh_weight_err : Rabs (fdiv A (fmul A (fmul A (ff_dh_theta_only A theta L) 2) (fpi A)) (IZR (2 * L - 1)) - dh_weight L x) <=
    81 * (u * (IZR L * IZR L)) * dh_share L /\ eta <= u * dh_share L.
  Proof.
    destruct fw_small as (S1 & S2 & S3 & S4 & S5 & S6 & S7). destruct (dh_sum_err L ltac:(lia)) as [D1 D2]. pose proof (dh_size L x HL) as DS.
    unfold ff_dh_theta_only, ff_dh_sum. fold (dh_fsum L). unfold dh_weight. fold (dh_terms L x).
    set (l := IZR L) in *. set (T := dh_fsum L) in *. set (S := dh_terms L x) in *. set (U := u * (l * l)) in *.
    assert (I1 : 0 < / l <= 1) by (split; [apply Rinv_0_lt_compat; lra|rewrite <- Rinv_1; apply Rinv_le_contravar; lra]).
    assert (LI : l * / l = 1) by (field; lra).
    assert (EL : eta <= / l * u * / 4). { apply (Rmult_le_compat_l (/ l)) in S7; [|lra]. replace (/ l * (4 * l * eta)) with (4 * eta) in S7 by (field; lra). lra. }
    assert (TD : Rabs (T - S) <= 28 * U). { eapply Rle_trans; [exact D1|]. unfold U. nra. }
    (* 2 / L * sin theta *)
    pose proof (rd_div _ _ _ HA 2 l ltac:(lra)) as M1. pose proof (rd_sin _ _ _ HA theta) as M2. set (d := fdiv A 2 l) in *. set (s := fsin A theta) in *.
    pose proof (rd_mul _ _ _ HA d s) as M3. set (p := fmul A d s) in *.
    rewrite (Rabs_right (2 / l)) in M1 by (unfold Rdiv; lra). unfold Rdiv in M1.
    assert (MD : Rabs (d - 2 * / l) <= / l * (3 * u)) by nra.
    assert (MS : Rabs (s - sin x) <= 17 * u).
    { replace (s - sin x) with ((s - sin theta) + (sin theta - sin x)) by ring. eapply Rle_trans; [apply Rabs_triang|]. pose proof (sin_lip theta x). lra. }
    assert (SB : Rabs (sin x) <= 1) by (apply Rabs_le; pose proof (SIN_bound x); lra).
    assert (DB : Rabs d <= / l * (21 / 10)).
    { replace d with ((d - 2 * / l) + 2 * / l) by ring. eapply Rle_trans; [apply Rabs_triang|]. rewrite (Rabs_right (2 * / l)) by lra. nra. }
    assert (SB2 : Rabs s <= 11 / 10). { replace s with ((s - sin x) + sin x) by ring. eapply Rle_trans; [apply Rabs_triang|]. lra. }
    assert (DS2 : Rabs (d * s) <= / l * (24 / 10)). { rewrite Rabs_mult. pose proof (Rabs_pos d). pose proof (Rabs_pos s). nra. }
    assert (PE : Rabs (p - 2 * / l * sin x) <= / l * (44 * u)).
    { replace (p - 2 * / l * sin x) with ((p - d * s) + d * (s - sin x) + (d - 2 * / l) * sin x) by ring.
      eapply Rle_trans; [apply Rabs_triang|]. eapply Rle_trans; [apply Rplus_le_compat_r, Rabs_triang|]. rewrite !(Rabs_mult _ (_ - _)), !(Rabs_mult (_ - _)).
      assert (X1 : Rabs d * Rabs (s - sin x) <= / l * (21 / 10) * (17 * u)) by (apply Rmult_le_compat; try apply Rabs_pos; lra).
      assert (X2 : Rabs (d - 2 * / l) * Rabs (sin x) <= / l * (3 * u) * 1) by (apply Rmult_le_compat; try apply Rabs_pos; lra).
      assert (X3 : u * Rabs (d * s) <= u * (/ l * (24 / 10))) by (now apply Rmult_le_compat_l). lra. }
    assert (PB : Rabs p <= / l * (22 / 10)).
    { replace p with ((p - 2 * / l * sin x) + 2 * / l * sin x) by ring. eapply Rle_trans; [apply Rabs_triang|].
      assert (Rabs (2 * / l * sin x) <= / l * 2) by (rewrite Rabs_mult, (Rabs_right (2 * / l)) by lra; nra). nra. }
    assert (IU0 : 0 <= / l * U) by (apply Rmult_le_pos; lra).
    (* times the sum *)
    pose proof (rd_mul _ _ _ HA T p) as M4. set (q := fmul A T p) in *. set (e := 2 * / l * (sin x * S)).
    assert (TP : Rabs (T * p - e) <= / l * (107 * U)).
    { replace (T * p - e) with ((T - S) * p + S * (p - 2 * / l * sin x)) by (unfold e; ring). eapply Rle_trans; [apply Rabs_triang|]. rewrite !Rabs_mult.
      assert (X1 : Rabs (T - S) * Rabs p <= 28 * U * (/ l * (22 / 10))) by (apply Rmult_le_compat; try apply Rabs_pos; lra).
      assert (X2 : Rabs S * Rabs (p - 2 * / l * sin x) <= l * (/ l * (44 * u))) by (apply Rmult_le_compat; try apply Rabs_pos; lra).
      replace (l * (/ l * (44 * u))) with (/ l * (44 * (u * l))) in X2 by ring.
      assert (/ l * (44 * (u * l)) <= / l * (44 * U)) by (apply Rmult_le_compat_l; lra). lra. }
    assert (EB : 0 <= e <= / l * 2) by (unfold e; split; [apply Rmult_le_pos; lra|nra]).
    assert (U1 : U <= / 4000) by lra.
    assert (TB : Rabs (T * p) <= / l * (22 / 10)).
    { replace (T * p) with ((T * p - e) + e) by ring. eapply Rle_trans; [apply Rabs_triang|]. rewrite (Rabs_right e) by lra. nra. }
    assert (QE : Rabs (q - e) <= / l * (110 * U)).
    { replace (q - e) with ((q - T * p) + (T * p - e)) by ring. eapply Rle_trans; [apply Rabs_triang|].
      assert (u * Rabs (T * p) <= u * (/ l * (22 / 10))) by (now apply Rmult_le_compat_l). assert (/ l * u <= / l * U) by (apply Rmult_le_compat_l; lra). lra. }
    assert (QB : Rabs q <= / l * (22 / 10)).
    { replace q with ((q - e) + e) by ring. eapply Rle_trans; [apply Rabs_triang|]. rewrite (Rabs_right e) by lra. nra. }
    (* times 2 and pi *)
    pose proof (rd_mul _ _ _ HA q 2) as M5. set (q2 := fmul A q 2) in *. rewrite (Rabs_mult q 2), (Rabs_right 2) in M5 by lra.
    assert (Q2E : Rabs (q2 - 2 * e) <= / l * (225 * U)).
    { replace (q2 - 2 * e) with ((q2 - q * 2) + 2 * (q - e)) by ring. eapply Rle_trans; [apply Rabs_triang|]. rewrite (Rabs_mult 2), (Rabs_right 2) by lra.
      assert (u * (Rabs q * 2) <= u * (/ l * (44 / 10))) by (apply Rmult_le_compat_l; lra). assert (/ l * u <= / l * U) by (apply Rmult_le_compat_l; lra). lra. }
    assert (Q2B : Rabs q2 <= / l * (43 / 10)).
    { replace q2 with ((q2 - 2 * e) + 2 * e) by ring. eapply Rle_trans; [apply Rabs_triang|]. rewrite (Rabs_right (2 * e)) by lra. nra. }
    pose proof (rd_pi _ _ _ HA) as MP. pose proof PI_4 as P4. pose proof PI2_3_2 as P3. set (P := fpi A) in *.
    assert (PE2 : Rabs (P - PI) <= 5 * u) by nra.
    assert (PB2 : Rabs P <= 41 / 10). { replace P with ((P - PI) + PI) by ring. eapply Rle_trans; [apply Rabs_triang|]. rewrite (Rabs_right PI) by lra. lra. }
    pose proof (rd_mul _ _ _ HA q2 P) as M6. set (q3 := fmul A q2 P) in *.
    assert (QP : Rabs (q2 * P) <= / l * 18). { rewrite Rabs_mult. pose proof (Rabs_pos q2). pose proof (Rabs_pos P). nra. }
    assert (Q3E : Rabs (q3 - 2 * e * PI) <= / l * (945 * U)).
    { replace (q3 - 2 * e * PI) with ((q3 - q2 * P) + q2 * (P - PI) + (q2 - 2 * e) * PI) by ring. eapply Rle_trans; [apply Rabs_triang|].
      eapply Rle_trans; [apply Rplus_le_compat_r, Rabs_triang|]. rewrite (Rabs_mult q2), (Rabs_mult _ PI), (Rabs_right PI) by lra.
      assert (X1 : Rabs q2 * Rabs (P - PI) <= / l * (43 / 10) * (5 * u)) by (apply Rmult_le_compat; try apply Rabs_pos; lra).
      assert (X2 : Rabs (q2 - 2 * e) * PI <= / l * (225 * U) * 4) by (apply Rmult_le_compat; try apply Rabs_pos; lra).
      assert (X3 : u * Rabs (q2 * P) <= u * (/ l * 18)) by (now apply Rmult_le_compat_l). assert (/ l * u <= / l * U) by (apply Rmult_le_compat_l; lra). lra. }
    (* divided by 2L-1 *)
    assert (N1 : 1 <= IZR (2 * L - 1)) by (apply IZR_le; lia). assert (NE : IZR (2 * L - 1) = 2 * l - 1) by (unfold l; rewrite minus_IZR, mult_IZR; ring).
    unfold dh_share. fold l. set (n := IZR (2 * L - 1)) in *.
    assert (J : 0 < / n) by (apply Rinv_0_lt_compat; lra).
    assert (VE : 4 * PI / (l * n) = / l * / n * (4 * PI)) by (field; lra). rewrite VE.
    assert (JL : / l * / l * / 2 <= / l * / n).
    { rewrite Rmult_assoc. apply Rmult_le_compat_l; [lra|]. rewrite <- Rinv_mult. apply Rinv_le_contravar; lra. }
    assert (EN : eta <= / l * / n * u * / 2).
    { apply (Rmult_le_compat_l (/ l * / l)) in HE; [|apply Rmult_le_pos; lra]. replace (/ l * / l * (4 * (l * l) * eta)) with (4 * eta) in HE by (field; lra).
      apply (Rmult_le_compat_r u) in JL; [|exact u0]. lra. }
    assert (J0 : 0 < / l * / n) by (apply Rmult_lt_0_compat; lra).
    split.
    2:{ assert (/ l * / n * u * (/ 2) <= / l * / n * u * (4 * PI)) by (apply Rmult_le_compat_l; [apply Rmult_le_pos; lra|lra]). lra. }
    pose proof (rd_div _ _ _ HA q3 n ltac:(lra)) as M7. set (w := fdiv A q3 n) in *.
    replace (2 * PI / n * (2 / l * sin x * S)) with (2 * e * PI / n) by (unfold e; field; lra).
    assert (WE : Rabs (q3 / n - 2 * e * PI / n) <= / l * / n * (945 * U)).
    { replace (q3 / n - 2 * e * PI / n) with ((q3 - 2 * e * PI) * / n) by (field; lra). rewrite Rabs_mult, (Rabs_right (/ n)) by lra.
      apply (Rmult_le_compat_r (/ n)) in Q3E; lra. }
    assert (WB : Rabs (q3 / n) <= / l * / n * 20).
    { replace (q3 / n) with ((q3 / n - 2 * e * PI / n) + 2 * (e * PI) * / n) by (field; lra). eapply Rle_trans; [apply Rabs_triang|].
      assert (e * PI <= / l * 2 * 4) by (apply Rmult_le_compat; lra). assert (0 <= e * PI) by (apply Rmult_le_pos; lra).
      rewrite (Rabs_right (2 * (e * PI) * / n)) by (apply Rle_ge, Rmult_le_pos; lra).
      assert (2 * (e * PI) * / n <= 2 * (/ l * 8) * / n) by (apply Rmult_le_compat_r; lra).
      assert (/ l * / n * (945 * U) <= / l * / n * 1) by (apply Rmult_le_compat_l; lra). lra. }
    replace (w - 2 * e * PI / n) with ((w - q3 / n) + (q3 / n - 2 * e * PI / n)) by ring. eapply Rle_trans; [apply Rabs_triang|].
    assert (u * Rabs (q3 / n) <= u * (/ l * / n * 20)) by (now apply Rmult_le_compat_l).
    assert (JU : / l * / n * u <= / l * / n * U) by (apply Rmult_le_compat_l; lra). assert (JU0 : 0 <= / l * / n * U) by (apply Rmult_le_pos; lra).
    assert (PIB : / l * / n * U * 12 <= / l * / n * U * (4 * PI)) by (apply Rmult_le_compat_l; lra). 
    apply Rle_trans with (/ l * / n * U * 966); [lra|].
    apply Rle_trans with (81 * (/ l * / n * U * (4 * PI))); [lra|right; ring].
  Qed.
End Float.
