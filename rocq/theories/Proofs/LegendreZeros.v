(** The zeros of the Legendre polynomials: bounds by comparison of the equation of sqrt (sin t) P_n (cos t) with the equation of the sine. *)
From Coq Require Import Reals Lra Lia Arith.
From Coquelicot Require Import Coquelicot.
From Verif Require Import Proofs.Legendre Proofs.GaussProofs.
Open Scope R_scope.

(** ** Monotone functions *)
Lemma mvt f f' a b : a < b -> (forall t, a <= t <= b -> is_derive f t (f' t)) -> exists c, a < c < b /\ f b - f a = f' c * (b - a).
Proof.
  intros Hab H. destruct (MVT_cor2 f f' a b Hab) as (c & E & Hc); [|now exists c]. intros t Ht. apply is_derive_Reals. now apply H.
Qed.
Lemma incr f f' a b : a <= b -> (forall t, a <= t <= b -> is_derive f t (f' t)) -> (forall t, a <= t <= b -> 0 <= f' t) -> f a <= f b.
Proof.
  intros [Hab|<-] H H0; [|lra]. destruct (mvt f f' a b Hab H) as (c & Hc & E). assert (0 <= f' c * (b - a)) by (apply Rmult_le_pos; [apply H0; lra|lra]). lra.
Qed.
Lemma incr_strict f f' a b : a < b -> (forall t, a <= t <= b -> is_derive f t (f' t)) -> (forall t, a < t < b -> 0 < f' t) -> f a < f b.
Proof.
  intros Hab H H0. destruct (mvt f f' a b Hab H) as (c & Hc & E). assert (0 < f' c * (b - a)) by (apply Rmult_lt_0_compat; [apply H0; lra|lra]). lra.
Qed.

(** ** Elementary bounds *)
Lemma sin_mvt a b : a < b -> exists c, a < c < b /\ sin b - sin a = cos c * (b - a).
Proof. intros H. apply (mvt sin cos); [exact H|]. intros. apply is_derive_sin. Qed.
Lemma cos_mvt a b : a < b -> exists c, a < c < b /\ cos a - cos b = sin c * (b - a).
Proof. intros H. destruct (mvt cos (fun t => - sin t) a b H) as (c & Hc & E); [intros; apply is_derive_cos|]. exists c. split; [exact Hc|]. lra. Qed.
Lemma sin_le x : 0 <= x -> sin x <= x.
Proof. intros [H| <-]; [|rewrite sin_0; lra]. left. now apply sin_lt_x. Qed.
Lemma sin_cos_x x : 0 <= x <= PI / 2 -> x * cos x <= sin x.
Proof.
  intros [[H| <-] H2]; [|rewrite sin_0; lra]. destruct (sin_mvt 0 x H) as (c & Hc & E). rewrite sin_0, !Rminus_0_r in E. rewrite E.
  assert (cos x <= cos c) by (apply cos_decr_1; lra). rewrite Rmult_comm. apply Rmult_le_compat_r; lra.
Qed.
Lemma jordan x : 0 <= x <= PI / 2 -> 2 * x <= PI * sin x.
Proof.
  intros [[H| <-] [H2| ->]]; try (rewrite ?sin_0, ?sin_PI2; lra).
  destruct (sin_mvt 0 x H) as (c & Hc & E). rewrite sin_0, !Rminus_0_r in E. destruct (sin_mvt x (PI / 2) H2) as (d & Hd & E'). rewrite sin_PI2 in E'.
  assert (cos d <= cos c) by (apply cos_decr_1; lra).
  assert (cos d * (PI / 2 - x) <= cos c * (PI / 2 - x)) by (apply Rmult_le_compat_r; lra).
  assert ((1 - sin x) * x <= cos c * (PI / 2 - x) * x) by (apply Rmult_le_compat_r; lra).
  replace (cos c * (PI / 2 - x) * x) with (cos c * x * (PI / 2 - x)) in * by ring. rewrite <- E in *. lra.
Qed.

(** ** The differential equation *)
Definition lam (n : nat) : R := (INR n + 1) * (INR n + 2).
Definition freq (n : nat) : R := INR n + 3 / 2.
Lemma freq_lam n : freq n * freq n = lam n + / 4.
Proof. unfold freq, lam. field. Qed.
Lemma freq_pos n : 3 / 2 <= freq n.
Proof. unfold freq. pose proof (pos_INR n). lra. Qed.
Lemma lam_pos n : 2 <= lam n.
Proof. unfold lam. pose proof (pos_INR n). nra. Qed.
Lemma q_derive n x : is_derive (fun y => (1 - y ^ 2) * dleg (S n) y) x (- (lam n * leg (S n) x)).
Proof.
  apply (is_derive_ext (fun y => (INR n + 1) * (leg n y - y * leg (S n) y))); [intros y; now rewrite dleg_leg|].
  replace (- (lam n * leg (S n) x)) with ((INR n + 1) * (dleg n x - (1 * leg (S n) x + x * dleg (S n) x))) by (rewrite (dleg_prev n x); unfold lam; ring).
  apply is_derive_scal. apply @is_derive_minus; [apply leg_derive|].
  apply (is_derive_mult (fun y => y) (leg (S n))); [apply @is_derive_id|apply leg_derive|intros; apply Rmult_comm].
Qed.
Definition d2leg (n : nat) (x : R) : R := (2 * x * dleg (S n) x - lam n * leg (S n) x) / (1 - x ^ 2).
Lemma dleg_derive n x : -1 < x < 1 -> is_derive (dleg (S n)) x (d2leg n x).
Proof.
  intros Hx. assert (H : ex_derive (dleg (S n)) x) by exact (pdeg_derive (S n) _ (dleg_pdeg (S n)) x). apply Derive_correct in H. set (D := Derive (dleg (S n)) x) in *.
  assert (E : is_derive (fun y => (1 - y ^ 2) * dleg (S n) y) x ((- (2 * x)) * dleg (S n) x + (1 - x ^ 2) * D)).
  { apply (is_derive_mult (fun y => 1 - y ^ 2) (dleg (S n))); [|exact H|intros; apply Rmult_comm]. auto_derive; [exact I|]. ring. }
  apply is_derive_unique in E. rewrite (is_derive_unique _ _ _ (q_derive n x)) in E.
  replace (d2leg n x) with D; [exact H|]. unfold d2leg. apply (Rmult_eq_reg_r (1 - x ^ 2)); [|nra]. field_simplify; [|nra]. nra.
Qed.

Definition U (n : nat) (t : R) : R := sqrt (sin t) * leg (S n) (cos t).
Definition U1 (n : nat) (t : R) : R := cos t / (2 * sqrt (sin t)) * leg (S n) (cos t) - (1 - cos t ^ 2) * dleg (S n) (cos t) / sqrt (sin t).
Lemma V_derive n t : is_derive (fun t => leg (S n) (cos t)) t (- sin t * dleg (S n) (cos t)).
Proof. apply (is_derive_comp (leg (S n)) cos t); [apply leg_derive|apply is_derive_cos]. Qed.
Lemma G_derive n t : is_derive (fun t => (1 - cos t ^ 2) * dleg (S n) (cos t)) t (lam n * sin t * leg (S n) (cos t)).
Proof.
  replace (lam n * sin t * leg (S n) (cos t)) with (- sin t * (- (lam n * leg (S n) (cos t)))) by ring.
  apply (is_derive_comp (fun y => (1 - y ^ 2) * dleg (S n) y) cos t); [apply q_derive|apply is_derive_cos].
Qed.
Lemma U_derive n t : 0 < sin t -> is_derive (U n) t (U1 n t).
Proof.
  intros Hs. pose proof (sqrt_lt_R0 _ Hs) as Hq. pose proof (sqrt_sqrt (sin t) ltac:(lra)) as Eq.
  replace (U1 n t) with (cos t / (2 * sqrt (sin t)) * leg (S n) (cos t) + sqrt (sin t) * (- sin t * dleg (S n) (cos t))).
  - apply (is_derive_mult (fun t => sqrt (sin t)) (fun t => leg (S n) (cos t))); [|apply V_derive|intros; apply Rmult_comm].
    auto_derive; [exact Hs|]. field. lra.
  - unfold U1. pose proof (sin2_cos2 t) as E. unfold Rsqr in E. replace (1 - cos t ^ 2) with (sin t * sin t) by lra.
    unfold Rminus. f_equal. rewrite <- Eq at 2 3 4. field. lra.
Qed.
Lemma U1_derive n t : 0 < sin t -> is_derive (U1 n) t (- ((freq n * freq n + / (4 * sin t ^ 2)) * U n t)).
Proof.
  intros Hs. pose proof (sqrt_lt_R0 _ Hs) as Hq. pose proof (sqrt_sqrt (sin t) ltac:(lra)) as Eq. set (q := sqrt (sin t)) in *.
  assert (H1 : is_derive (fun t => cos t / (2 * sqrt (sin t))) t ((- sin t * (2 * q) - cos t * (2 * (cos t / (2 * q)))) / (2 * q) ^ 2)).
  { auto_derive; [split; [exact Hs|]; fold q; lra|]. fold q. field. lra. }
  assert (H2 : is_derive (fun t => / sqrt (sin t)) t (- (cos t / (2 * q)) / q ^ 2)).
  { auto_derive; [split; [exact Hs|]; fold q; lra|]. fold q. field. lra. }
  assert (H3 := is_derive_mult _ _ t _ _ H1 (V_derive n t) (fun a b => Rmult_comm a b)).
  assert (H4 := is_derive_mult _ _ t _ _ (G_derive n t) H2 (fun a b => Rmult_comm a b)).
  assert (H5 := is_derive_minus _ _ t _ _ H3 H4). clear H1 H2 H3 H4.
  unfold U1. eapply is_derive_ext; [|replace (- ((freq n * freq n + / (4 * sin t ^ 2)) * U n t)) with
    (minus (plus (mult ((- sin t * (2 * q) - cos t * (2 * (cos t / (2 * q)))) / (2 * q) ^ 2) (leg (S n) (cos t))) (mult (cos t / (2 * sqrt (sin t))) (- sin t * dleg (S n) (cos t))))
      (plus (mult (lam n * sin t * leg (S n) (cos t)) (/ sqrt (sin t))) (mult ((1 - cos t ^ 2) * dleg (S n) (cos t)) (- (cos t / (2 * q)) / q ^ 2)))); [exact H5|]].
  - intros y. reflexivity.
  - cbn. fold q. unfold U. fold q. pose proof (freq_lam n) as EN. pose proof (sin2_cos2 t) as E. unfold Rsqr in E.
    set (v := leg (S n) (cos t)). set (d := dleg (S n) (cos t)). set (c := cos t) in *. rewrite EN. rewrite <- Eq. rewrite <- Eq in E.
    assert (Ec : c * c = 1 - q * q * (q * q)) by lra.
    transitivity ((- 2 * (q * q) * q - c * c / q) / (4 * (q * q)) * v - lam n * q * v).
    + replace (1 - c * (c * 1)) with (q * q * (q * q)) by lra. field. lra.
    + rewrite Ec. field. lra.
Qed.

(** ** Gaps between the zeros *)
Definition wron (n : nat) (M a t : R) : R := U1 n t * sin (M * (t - a)) - U n t * (M * cos (M * (t - a))).
Lemma wron_derive n M a t : 0 < sin t -> is_derive (wron n M a) t ((M * M - freq n * freq n - / (4 * sin t ^ 2)) * U n t * sin (M * (t - a))).
Proof.
  intros Hs. assert (H1 : is_derive (fun t => sin (M * (t - a))) t (M * cos (M * (t - a)))) by (auto_derive; [exact I|]; unfold Rminus; ring).
  assert (H2 : is_derive (fun t => M * cos (M * (t - a))) t (- (M * M * sin (M * (t - a))))) by (auto_derive; [exact I|]; unfold Rminus; ring).
  assert (H3 := is_derive_mult _ _ t _ _ (U1_derive n t Hs) H1 (fun a b => Rmult_comm a b)).
  assert (H4 := is_derive_mult _ _ t _ _ (U_derive n t Hs) H2 (fun a b => Rmult_comm a b)).
  assert (H5 := is_derive_minus _ _ t _ _ H3 H4). unfold wron. cbn in H5.
  match type of H5 with is_derive _ _ ?v => replace ((M * M - freq n * freq n - / (4 * sin t ^ 2)) * U n t * sin (M * (t - a))) with v; [exact H5|] end.
  unfold minus, plus, opp. cbn. ring.
Qed.
Lemma sin_inside a b t : 0 < a -> b < PI -> a <= t <= b -> 0 < sin t.
Proof. intros. apply sin_gt_0; lra. Qed.
Lemma U_zero n t : leg (S n) (cos t) = 0 -> U n t = 0.
Proof. intros H. unfold U. rewrite H. ring. Qed.
Section Gap.
  Variables (n : nat) (sg a b : R).
  Hypothesis (Ha : 0 < a) (Hab : a < b) (Hb : b < PI).
  Hypothesis Hsg : forall t, a < t < b -> 0 < sg * leg (S n) (cos t).
  Hypothesis (Za : leg (S n) (cos a) = 0) (Zb : leg (S n) (cos b) = 0).
  Lemma U_sign t : a < t < b -> 0 < sg * U n t.
  Proof.
    intros Ht. unfold U. replace (sg * (sqrt (sin t) * leg (S n) (cos t))) with (sqrt (sin t) * (sg * leg (S n) (cos t))) by ring.
    apply Rmult_lt_0_compat; [|now apply Hsg]. apply sqrt_lt_R0, (sin_inside a b); lra.
  Qed.
  Lemma gap_upper : b - a < PI / freq n.
  Proof.
    pose proof (freq_pos n) as HN. pose proof PI_RGT_0 as HP. destruct (Rlt_le_dec (b - a) (PI / freq n)) as [H|H]; [exact H|exfalso].
    assert (Hg : 0 < PI / freq n) by (apply Rdiv_lt_0_compat; lra). set (g := a + PI / freq n) in *.
    assert (Hwg : - (sg * wron n (freq n) a a) < - (sg * wron n (freq n) a g)).
    { apply (incr_strict (fun t => - (sg * wron n (freq n) a t)) (fun t => - (sg * ((freq n * freq n - freq n * freq n - / (4 * sin t ^ 2)) * U n t * sin (freq n * (t - a)))))); [unfold g; lra| |].
      - intros t Ht. apply @is_derive_opp. apply is_derive_scal. apply wron_derive. apply (sin_inside a b); unfold g in *; lra.
      - intros t Ht. assert (Hs : 0 < sin t) by (apply (sin_inside a b); unfold g in *; lra).
        assert (0 < sin (freq n * (t - a))).
        { apply sin_gt_0; [apply Rmult_lt_0_compat; lra|]. apply Rlt_le_trans with (freq n * (PI / freq n)); [apply Rmult_lt_compat_l; unfold g in *; lra|]. right. field. lra. }
        replace (- (sg * ((freq n * freq n - freq n * freq n - / (4 * sin t ^ 2)) * U n t * sin (freq n * (t - a))))) with (/ (4 * sin t ^ 2) * (sg * U n t) * sin (freq n * (t - a))) by ring.
        apply Rmult_lt_0_compat; [apply Rmult_lt_0_compat; [apply Rinv_0_lt_compat; nra|apply U_sign; unfold g in *; lra]|assumption]. }
    unfold wron in Hwg. rewrite (U_zero n a Za) in Hwg. replace (a - a) with 0 in Hwg by ring. rewrite Rmult_0_r, sin_0 in Hwg.
    replace (freq n * (g - a)) with PI in Hwg by (unfold g; field; lra). rewrite sin_PI, cos_PI in Hwg.
    assert (0 <= sg * U n g). { destruct (Rle_lt_or_eq_dec (PI / freq n) (b - a) H) as [Hl|He]; [left; apply U_sign; unfold g in *; lra|]. replace g with b by (unfold g in *; lra). rewrite (U_zero n b Zb). lra. }
    nra.
  Qed.
  Lemma gap_lower M : a + b <= PI -> 0 < sg * dleg (S n) (cos b) -> 0 < M -> freq n * freq n + / (4 * sin a ^ 2) <= M * M -> PI / M <= b - a.
  Proof.
    intros Hs Hd HM HMM. destruct (Rlt_le_dec (b - a) (PI / M)) as [H|H]; [exfalso|exact H]. assert (Hsa : 0 < sin a) by (apply (sin_inside a b); lra).
    assert (HMb : M * (b - a) < PI). { replace PI with (M * (PI / M)) by (field; lra). apply Rmult_lt_compat_l; lra. }
    assert (Hw : sg * wron n M a a <= sg * wron n M a b).
    { apply (incr (fun t => sg * wron n M a t) (fun t => sg * ((M * M - freq n * freq n - / (4 * sin t ^ 2)) * U n t * sin (M * (t - a))))); [lra| |].
      - intros t Ht. apply is_derive_scal, wron_derive. apply (sin_inside a b); lra.
      - intros t Ht. assert (Hst : sin a <= sin t).
        { destruct (Rle_lt_dec t (PI / 2)) as [Hl|Hl]; [apply sin_incr_1; lra|]. rewrite <- (sin_PI_x t). apply sin_incr_1; lra. }
        assert (/ (4 * sin t ^ 2) <= / (4 * sin a ^ 2)) by (apply Rinv_le_contravar; nra).
        replace (sg * ((M * M - freq n * freq n - / (4 * sin t ^ 2)) * U n t * sin (M * (t - a)))) with ((M * M - freq n * freq n - / (4 * sin t ^ 2)) * (sg * U n t) * sin (M * (t - a))) by ring.
        apply Rmult_le_pos; [apply Rmult_le_pos; [lra|]|].
        + destruct (Req_dec t a) as [->|]; [rewrite (U_zero n a Za); lra|]. destruct (Req_dec t b) as [->|]; [rewrite (U_zero n b Zb); lra|]. left. apply U_sign. lra.
        + apply sin_ge_0; [apply Rmult_le_pos; lra|]. left. apply Rle_lt_trans with (M * (b - a)); [apply Rmult_le_compat_l; lra|exact HMb]. }
    unfold wron in Hw. rewrite (U_zero n a Za), (U_zero n b Zb) in Hw. replace (a - a) with 0 in Hw by ring. rewrite Rmult_0_r, sin_0 in Hw.
    assert (Hsb : 0 < sin b) by (apply (sin_inside a b); lra). assert (Hsm : 0 < sin (M * (b - a))) by (apply sin_gt_0; [apply Rmult_lt_0_compat; lra|exact HMb]).
    unfold U1 in Hw. rewrite Zb in Hw. pose proof (sin2_cos2 b) as E. unfold Rsqr in E. replace (1 - cos b ^ 2) with (sin b * sin b) in Hw by lra.
    pose proof (sqrt_lt_R0 _ Hsb) as Hq.
    assert (0 < sin b * sin b * (sg * dleg (S n) (cos b)) / sqrt (sin b) * sin (M * (b - a))).
    { apply Rmult_lt_0_compat; [|exact Hsm]. apply Rdiv_lt_0_compat; [|exact Hq]. apply Rmult_lt_0_compat; [nra|exact Hd]. }
    unfold Rdiv in *. lra.
  Qed.
End Gap.

(** ** Signs between the zeros *)
Lemma root_sign n r k : gl_roots (S n) r -> (k <= n)%nat ->
  (forall y, r k < y -> ((k < n)%nat -> y < r (S k)) -> 0 < (-1) ^ (n - k) * leg (S n) y) /\ 0 < (-1) ^ (n - k) * dleg (S n) (r k).
Proof.
  intros Hr Hk. pose proof Hr as (Hb & Hi & H0). destruct (roots_factor (S n) r Hr) as (c & Hc & E).
  assert (Hs : forall y, r k < y -> ((k < n)%nat -> y < r (S k)) -> 0 < (-1) ^ (n - k) * leg (S n) y).
  { intros y H1 H2. rewrite E. replace ((-1) ^ (n - k) * (c * prodn (S n) (fun j => y - r j))) with (c * ((-1) ^ (S n - S k) * prodn (S n) (fun j => y - r j))) by (cbn [Nat.sub]; ring).
    apply Rmult_lt_0_compat; [exact Hc|]. apply prodn_sign; [lia| |].
    - intros j Hj. destruct (Nat.eq_dec j k) as [->|Hn]; [exact H1|]. specialize (Hi j k ltac:(lia)). lra.
    - intros j Hj. specialize (H2 ltac:(lia)). destruct (Nat.eq_dec j (S k)) as [->|Hn]; [exact H2|]. specialize (Hi (S k) j ltac:(lia)). lra. }
  split; [exact Hs|]. set (sg := (-1) ^ (n - k)) in *. specialize (Hb k ltac:(lia)). specialize (H0 k ltac:(lia)).
  assert (Hsg : sg <> 0) by (apply pow_nonzero; lra). pose proof (root_slope n (r k) Hb H0) as Hd.
  destruct (Rlt_le_dec 0 (sg * dleg (S n) (r k))) as [H|H]; [exact H|exfalso].
  assert (Hneg : sg * dleg (S n) (r k) < 0) by (destruct H as [H|H]; [exact H|]; apply Rmult_integral in H; tauto).
  assert (Hc' : continuity_pt (fun y => sg * dleg (S n) y) (r k)).
  { apply continuity_pt_scal. exact (pdeg_continuity (S n) _ (dleg_pdeg (S n)) (r k)). }
  destruct (close_pt _ _ (- (sg * dleg (S n) (r k))) Hc' ltac:(lra)) as (d & Hd0 & Hdd).
  set (y := Rmin (r k + d) (if lt_dec k n then (r k + r (S k)) / 2 else r k + 1)).
  assert (Hy : r k < y <= r k + d /\ ((k < n)%nat -> y < r (S k))).
  { unfold y. destruct (lt_dec k n) as [Hl|Hl].
    - specialize (Hi k (S k) ltac:(lia)). pose proof (Rmin_r (r k + d) ((r k + r (S k)) / 2)). split; [split; [apply Rmin_glb_lt; lra|apply Rmin_l]|]. intros; lra.
    - split; [split; [apply Rmin_glb_lt; lra|apply Rmin_l]|]. intros; lia. }
  destruct Hy as ((Hy1 & Hy2) & Hy3). specialize (Hs y Hy1 Hy3).
  destruct (mvt (leg (S n)) (dleg (S n)) (r k) y Hy1) as (z & Hz & Ez); [intros; apply leg_derive|]. rewrite H0, Rminus_0_r in Ez. rewrite Ez in Hs.
  specialize (Hdd z). assert (Hzk : Rabs (z - r k) <= d) by (apply Rabs_le_between; lra). specialize (Hdd Hzk). apply Rabs_lt_between in Hdd. nra.
Qed.

(** ** The angles of the zeros *)
Section Angles.
  Variables (n : nat) (r : nat -> R).
  Hypothesis Hr : gl_roots (S n) r.
  Notation N := (freq n).
  Definition ang (i : nat) : R := acos (r (n - i)).
  Definition cot (t : R) : R := cos t / sin t.
  Lemma ang_cos i : cos (ang i) = r (n - i)%nat.
  Proof. unfold ang. destruct Hr as (Hb & _). specialize (Hb (n - i)%nat ltac:(lia)). apply cos_acos. lra. Qed.
  Lemma ang_bound i : 0 < ang i < PI.
  Proof. unfold ang. destruct Hr as (Hb & _). specialize (Hb (n - i)%nat ltac:(lia)). apply acos_bound_lt. lra. Qed.
  Lemma ang_lt i j : (i < j <= n)%nat -> ang i < ang j.
  Proof.
    intros H. pose proof (ang_bound i). pose proof (ang_bound j). apply cos_decreasing_0; try lra. rewrite !ang_cos.
    destruct Hr as (_ & Hi & _). apply Hi. lia.
  Qed.
  Lemma ang_mirror i : (i <= n)%nat -> ang (n - i) = PI - ang i.
  Proof.
    intros H. unfold ang. rewrite <- acos_opp. f_equal. pose proof (roots_same (S n) _ _ (n - (n - i)) Hr (roots_mirror n r Hr) ltac:(lia)) as E. rewrite E. cbn beta.
    replace (n - (n - (n - i)))%nat with (n - i)%nat by lia. reflexivity.
  Qed.
  Lemma ang_zero i : leg (S n) (cos (ang i)) = 0.
  Proof. rewrite ang_cos. destruct Hr as (_ & _ & H0). apply H0. lia. Qed.
  Lemma ang_sign i : (i < n)%nat -> (forall t, ang i < t < ang (S i) -> 0 < (-1) ^ (n - (n - S i)) * leg (S n) (cos t)) /\ 0 < (-1) ^ (n - (n - S i)) * dleg (S n) (cos (ang (S i))).
  Proof.
    intros Hi. destruct (root_sign n r (n - S i) Hr ltac:(lia)) as (H1 & H2). rewrite ang_cos. split; [|exact H2]. intros t Ht. pose proof (ang_bound i). pose proof (ang_bound (S i)). apply H1.
    - rewrite <- (ang_cos (S i)). apply cos_decreasing_1; lra.
    - intros _. replace (S (n - S i)) with (n - i)%nat by lia. rewrite <- (ang_cos i). apply cos_decreasing_1; lra.
  Qed.
  Lemma ang_gap i : (i < n)%nat -> ang (S i) - ang i < PI / N.
  Proof.
    intros Hi. destruct (ang_sign i Hi) as (H1 & _). pose proof (ang_bound i). pose proof (ang_bound (S i)).
    apply (gap_upper n ((-1) ^ (n - (n - S i)))); try lra; try apply ang_zero; exact H1.
  Qed.
  Lemma ang_span k : forall i, (i + k <= n)%nat -> ang (i + k) - ang i <= INR k * (PI / N).
  Proof.
    induction k as [|k IH]; intros i Hi; [rewrite Nat.add_0_r; cbn; lra|]. specialize (IH i ltac:(lia)). pose proof (ang_gap (i + k) ltac:(lia)) as H.
    replace (i + S k)%nat with (S (i + k)) by lia. rewrite S_INR. lra.
  Qed.
  Definition start (i : nat) : R := PI * (INR i + 3 / 4) / N.
  Lemma INR_minus2 i : (2 * i <= n)%nat -> INR (n - 2 * i) = INR n - 2 * INR i.
  Proof. intros H. rewrite minus_INR, mult_INR by lia. reflexivity. Qed.
  Lemma start_le i : (2 * i <= n)%nat -> start i <= ang i.
  Proof.
    intros Hi. pose proof (freq_pos n). pose proof (ang_span (n - 2 * i) i ltac:(lia)) as H1. replace (i + (n - 2 * i))%nat with (n - i)%nat in H1 by lia.
    rewrite ang_mirror, INR_minus2 in H1 by lia. unfold start.
    assert (E : 2 * (PI * (INR i + 3 / 4) / N) = PI - (INR n - 2 * INR i) * (PI / N)) by (unfold freq in *; field; lra). lra.
  Qed.
  Lemma ang_half i : (2 * i <= n)%nat -> ang i <= PI / 2.
  Proof.
    intros Hi. assert (ang i <= ang (n - i)). { destruct (Nat.eq_dec i (n - i)) as [<-|]; [lra|]. left. apply ang_lt. lia. } rewrite ang_mirror in H by lia. lra.
  Qed.
  Lemma start_pos i : 3 * PI <= 4 * (N * start i).
  Proof. unfold start. pose proof (freq_pos n). pose proof (pos_INR i). pose proof PI_RGT_0. replace (4 * (N * (PI * (INR i + 3 / 4) / N))) with (PI * (4 * INR i + 3)) by (field; lra). nra. Qed.
  Lemma sin_low a : 3 * PI <= 4 * (N * a) -> a <= PI / 2 -> 3 / 2 <= N * sin a.
  Proof.
    intros H1 H2. pose proof (freq_pos n). pose proof PI_RGT_0. assert (0 <= a) by nra. pose proof (jordan a ltac:(lra)).
    assert (2 * (N * a) <= PI * (N * sin a)) by nra. assert (3 / 2 * PI <= PI * (N * sin a)) by lra. nra.
  Qed.
  Lemma cot_diff a b : 0 < sin a -> 0 < sin b -> cot a - cot b = sin (b - a) / (sin a * sin b).
  Proof. intros. unfold cot. rewrite sin_minus. field. lra. Qed.
  (** a gap falls short of PI / N by little *)
  Lemma gap_short_half j : (j < n)%nat -> ang j + ang (S j) <= PI -> N * N * (PI / N - (ang (S j) - ang j)) <= cot (ang j) - cot (ang (S j)).
  Proof.
    intros Hj Hs. pose proof (freq_pos n) as HN. pose proof PI_RGT_0 as HP. pose proof PI_4 as HP4. pose proof (ang_bound j) as B1. pose proof (ang_bound (S j)) as B2. pose proof (ang_lt j (S j) ltac:(lia)) as Hlt.
    destruct (ang_sign j Hj) as (S1 & S2).
    set (a := ang j) in *. set (b := ang (S j)) in *. assert (Ha2 : a <= PI / 2) by lra.
    assert (H2j : (2 * j <= n)%nat).
    { destruct (le_lt_dec (2 * j) n) as [H|H]; [exact H|exfalso]. assert (E : ang (n - j) < a) by (apply ang_lt; lia). rewrite ang_mirror in E by lia. fold a in E. lra. }
    assert (Hstart : 3 * PI <= 4 * (N * a)). { pose proof (start_le j H2j) as H. fold a in H. pose proof (start_pos j). nra. }
    pose proof (sin_low a Hstart Ha2) as Hsl. set (s := sin a) in *. assert (Hs0 : 0 < s) by nra.
    set (M := N + / (8 * N * s ^ 2)). assert (Hinv : / (8 * N * s ^ 2) <= N / 18).
    { assert (E : / (8 * N * s ^ 2) = N * / (8 * (N * s) ^ 2)) by (field; lra). rewrite E. unfold Rdiv. apply Rmult_le_compat_l; [lra|]. apply Rinv_le_contravar; [lra|nra]. }
    assert (Hinv0 : 0 < / (8 * N * s ^ 2)) by (apply Rinv_0_lt_compat; apply Rmult_lt_0_compat; nra).
    assert (Hgap : PI / M <= b - a).
    { apply (gap_lower n ((-1) ^ (n - (n - S j))) a b); try lra; try exact S1; try exact S2; try (apply ang_zero); [unfold M; lra|].
      fold s. unfold M. replace ((N + / (8 * N * s ^ 2)) * (N + / (8 * N * s ^ 2))) with (N * N + / (4 * s ^ 2) + / (8 * N * s ^ 2) * / (8 * N * s ^ 2)) by (field; lra). nra. }
    assert (Hup : b - a < PI / N) by (apply ang_gap; exact Hj).
    (* what is missing *)
    assert (Hmiss : N * N * (PI / N - (b - a)) <= PI * / (8 * N * s ^ 2)).
    { assert (HM : 0 < M) by (unfold M; lra). apply Rle_trans with (N * N * (PI / N - PI / M)); [apply Rmult_le_compat_l; [nra|lra]|].
      replace (N * N * (PI / N - PI / M)) with (PI * (M - N) * (N / M)) by (field; lra). replace (M - N) with (/ (8 * N * s ^ 2)) by (unfold M; ring).
      assert (N / M <= 1). { apply (Rmult_le_reg_r M); [exact HM|]. unfold Rdiv. rewrite Rmult_assoc, Rinv_l by lra. unfold M. lra. }
      assert (0 <= PI * / (8 * N * s ^ 2)) by (apply Rmult_le_pos; lra). nra. }
    eapply Rle_trans; [exact Hmiss|]. assert (Hsb : 0 < sin b) by (apply sin_gt_0; lra). rewrite cot_diff by assumption. fold s.
    (* the sine of the gap *)
    assert (HN2 : 2 <= N). { unfold freq. destruct n as [|n']; [lia|]. rewrite S_INR. pose proof (pos_INR n'). lra. }
    assert (Hg2 : PI / N <= PI / 2) by (unfold Rdiv; apply Rmult_le_compat_l; [lra|]; apply Rinv_le_contravar; lra).
    pose proof (jordan (b - a) ltac:(lra)) as Hjo.
    assert (Hsg : 36 <= 19 * (N * sin (b - a))).
    { assert (PI * 18 <= 19 * (N * (b - a))).
      { assert (HM : 0 < M <= 19 / 18 * N) by (unfold M; lra). assert (PI <= M * (b - a)) by (replace PI with (M * (PI / M)) by (field; lra); apply Rmult_le_compat_l; lra).
        assert (M * (b - a) <= 19 / 18 * N * (b - a)) by (apply Rmult_le_compat_r; lra). lra. }
      assert (19 * N * (2 * (b - a)) <= 19 * N * (PI * sin (b - a))) by (apply Rmult_le_compat_l; lra).
      assert (PI * 36 <= PI * (19 * (N * sin (b - a)))) by lra. nra. }
    assert (Hsb2 : sin b <= 7 / 3 * s).
    { replace b with (a + (b - a)) by ring. rewrite sin_plus. fold s. pose proof (COS_bound (b - a)) as (_ & Hc). pose proof (sin_le (b - a) ltac:(lra)) as Hsle.
      assert (Hca : 0 <= cos a) by (apply cos_ge_0; lra). pose proof (sin_cos_x a ltac:(lra)) as Hsc. fold s in Hsc.
      assert (b - a <= 4 / 3 * a). { assert (PI / N <= 4 / 3 * a); [|lra]. apply (Rmult_le_reg_r N); [lra|]. unfold Rdiv. rewrite (Rmult_assoc PI), Rinv_l by lra. lra. }
      assert (cos a * sin (b - a) <= cos a * (4 / 3 * a)) by (apply Rmult_le_compat_l; lra). assert (s * cos (b - a) <= s * 1) by (apply Rmult_le_compat_l; lra). lra. }
    apply (Rmult_le_reg_r (8 * N * s ^ 2 * sin b)); [apply Rmult_lt_0_compat; [|exact Hsb]; apply Rmult_lt_0_compat; nra|].
    replace (PI * / (8 * N * s ^ 2) * (8 * N * s ^ 2 * sin b)) with (PI * sin b) by (field; lra).
    replace (sin (b - a) / (s * sin b) * (8 * N * s ^ 2 * sin b)) with (8 * s * (N * sin (b - a))) by (field; lra).
    assert (PI * sin b <= 4 * (7 / 3 * s)) by (apply Rmult_le_compat; lra). assert (s * (36 / 19) <= s * (N * sin (b - a))) by (apply Rmult_le_compat_l; lra). lra.
  Qed.
  Lemma cot_mirror t : cot (PI - t) = - cot t.
  Proof. unfold cot. rewrite sin_PI_x. replace (PI - t) with (- (t - PI)) by ring. rewrite cos_neg, cos_minus, sin_PI, cos_PI. unfold Rdiv. ring. Qed.
  Lemma gap_short j : (j < n)%nat -> N * N * (PI / N - (ang (S j) - ang j)) <= cot (ang j) - cot (ang (S j)).
  Proof.
    intros Hj. destruct (Rle_lt_dec (ang j + ang (S j)) PI) as [H|H]; [now apply gap_short_half|].
    pose proof (ang_mirror j ltac:(lia)) as E1. pose proof (ang_mirror (S j) ltac:(lia)) as E2.
    pose proof (gap_short_half (n - S j) ltac:(lia)) as G. replace (S (n - S j)) with (n - j)%nat in G by lia. rewrite E1, E2, !cot_mirror in G. specialize (G ltac:(lra)).
    replace (PI - ang j - (PI - ang (S j))) with (ang (S j) - ang j) in G by ring. lra.
  Qed.
  Lemma span_short k : forall i, (i + k <= n)%nat -> N * N * (INR k * (PI / N) - (ang (i + k) - ang i)) <= cot (ang i) - cot (ang (i + k)).
  Proof.
    induction k as [|k IH]; intros i Hi; [rewrite Nat.add_0_r; cbn; lra|]. specialize (IH i ltac:(lia)). pose proof (gap_short (i + k) ltac:(lia)) as H.
    replace (i + S k)%nat with (S (i + k)) by lia. rewrite S_INR. lra.
  Qed.
  Lemma start_near i : (2 * i <= n)%nat -> N * N * (ang i - start i) <= cot (ang i).
  Proof.
    intros Hi. pose proof (freq_pos n). pose proof (span_short (n - 2 * i) i ltac:(lia)) as H1. replace (i + (n - 2 * i))%nat with (n - i)%nat in H1 by lia.
    rewrite ang_mirror, INR_minus2, cot_mirror in H1 by lia.
    assert (E : start i = PI / 2 - (INR n - 2 * INR i) * (PI / N) / 2) by (unfold start, freq in *; field; lra). rewrite E. lra.
  Qed.
  (** the starting points of the iteration lie to the right of the zeros and close to them *)
  Lemma ang_start_pos i : 0 < start i.
  Proof. unfold start. pose proof (freq_pos n). pose proof (pos_INR i). pose proof PI_RGT_0. apply Rdiv_lt_0_compat; [apply Rmult_lt_0_compat; lra|lra]. Qed.
  Lemma root_nonneg i : (2 * i <= n)%nat -> 0 <= r (n - i)%nat.
  Proof. intros Hi. rewrite <- ang_cos. pose proof (ang_half i Hi). pose proof (ang_bound i). apply cos_ge_0; lra. Qed.
  Lemma start_right i : (2 * i <= n)%nat -> r (n - i)%nat <= cos (start i).
  Proof. intros Hi. rewrite <- ang_cos. pose proof (ang_half i Hi). pose proof (start_le i Hi). pose proof (ang_start_pos i). apply cos_decr_1; lra. Qed.
  Lemma start_dist i : (2 * i <= n)%nat -> lam n * (cos (start i) - r (n - i)%nat) <= r (n - i)%nat.
  Proof.
    intros Hi. pose proof (ang_half i Hi) as H1. pose proof (start_le i Hi) as H2. pose proof (ang_start_pos i) as H3. pose proof (root_nonneg i Hi) as H4. pose proof (start_near i Hi) as H5. rewrite <- ang_cos in *.
    pose proof (freq_lam n) as EN. pose proof (lam_pos n). set (a := start i) in *. set (t := ang i) in *. assert (Hs : 0 < sin t) by (apply sin_gt_0; lra).
    destruct (Rle_lt_or_eq_dec a t H2) as [Hlt|He]; [|rewrite He; lra].
    destruct (cos_mvt a t Hlt) as (c & Hc & E). rewrite E. assert (sin c <= sin t) by (apply sin_incr_1; lra). assert (0 <= sin c) by (apply sin_ge_0; lra).
    assert (sin c * (t - a) <= sin t * (t - a)) by (apply Rmult_le_compat_r; lra).
    assert (lam n * (sin c * (t - a)) <= N * N * (sin t * (t - a))) by (apply Rmult_le_compat; try lra; apply Rmult_le_pos; lra).
    assert (sin t * (N * N * (t - a)) <= sin t * cot t) by (apply Rmult_le_compat_l; lra). unfold cot in *. replace (sin t * (cos t / sin t)) with (cos t) in * by (field; lra). lra.
  Qed.
  Lemma start_ratio i : (2 * i <= n)%nat -> 1 - r (n - i)%nat ^ 2 <= 2 * (1 - cos (start i) ^ 2).
  Proof.
    intros Hi. pose proof (ang_half i Hi) as H1. pose proof (start_le i Hi) as H2. pose proof (ang_start_pos i) as H3. pose proof (start_near i Hi) as H5. pose proof (start_pos i) as H6. rewrite <- ang_cos.
    pose proof PI2_3_2 as HP. pose proof (freq_pos n) as HN. set (a := start i) in *. set (t := ang i) in *.
    assert (Et : 1 - cos t ^ 2 = sin t ^ 2) by (pose proof (sin2_cos2 t) as E; unfold Rsqr in E; lra). assert (Ea : 1 - cos a ^ 2 = sin a ^ 2) by (pose proof (sin2_cos2 a) as E; unfold Rsqr in E; lra).
    rewrite Et, Ea. assert (Hs : 0 < sin t) by (apply sin_gt_0; lra). assert (Hsa : 0 < sin a) by (apply sin_gt_0; lra).
    assert (Hle : sin t <= 6 / 5 * sin a).
    { destruct (Rle_lt_or_eq_dec a t H2) as [Hlt|He]; [|rewrite He; lra]. destruct (sin_mvt a t Hlt) as (c & Hc & E).
      assert (Hcc : cos c <= cos a) by (apply cos_decr_1; lra). assert (0 <= cos c) by (apply cos_ge_0; lra).
      assert (Hc1 : t * cot t <= 1). { unfold cot. pose proof (sin_cos_x t ltac:(lra)). apply (Rmult_le_reg_r (sin t)); [exact Hs|]. replace (t * (cos t / sin t) * sin t) with (t * cos t) by (field; lra). lra. }
      assert (Hd : 5 * (t - a) <= a).
      { assert (A1 : t * (N * N * (t - a)) <= 1) by (eapply Rle_trans; [apply Rmult_le_compat_l; [lra|exact H5]|exact Hc1]).
        assert (A2 : 9 / 4 <= N * a) by lra. assert (A3 : 9 / 4 <= N * t) by nra.
        assert (A4 : N * N * (t * (t - a)) <= 1) by lra. destruct (Rle_lt_dec (5 * (t - a)) a) as [|Hbad]; [assumption|exfalso].
        assert (A5 : N * N * (t * a) < 5 * (N * N * (t * (t - a)))). { replace (5 * (N * N * (t * (t - a)))) with (N * N * (t * (5 * (t - a)))) by ring. apply Rmult_lt_compat_l; [nra|]. apply Rmult_lt_compat_l; lra. }
        assert (A6 : (9 / 4) * (9 / 4) <= (N * t) * (N * a)) by (apply Rmult_le_compat; lra). lra. }
      pose proof (sin_cos_x a ltac:(lra)) as Hx.
      assert (A1 : cos c * (t - a) <= cos a * (a / 5)) by (apply Rmult_le_compat; lra). lra. }
    nra.
  Qed.
  Lemma root_away i : (2 * i <= n)%nat -> 9 <= 4 * (N * N * (1 - r (n - i)%nat ^ 2)).
  Proof.
    intros Hi. pose proof (ang_half i Hi) as H1. pose proof (start_le i Hi) as H2. pose proof (start_pos i) as H6. pose proof (freq_pos n) as HN. rewrite <- ang_cos. set (t := ang i) in *.
    assert (Et : 1 - cos t ^ 2 = sin t ^ 2) by (pose proof (sin2_cos2 t) as E; unfold Rsqr in E; lra). rewrite Et.
    assert (3 / 2 <= N * sin t) by (apply sin_low; [nra|lra]). nra.
  Qed.
End Angles.
