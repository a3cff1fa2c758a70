(** The Gauss-Legendre rule of [gauss_legendre], and the Newton iteration that computes it. *)
From Coq Require Import Reals Lra Lia ZifyBool Arith.
From Coquelicot Require Import Coquelicot.
From Verif Require Import Lib.Py Lib.PyFacts Lib.Vec Lib.VecFacts Lib.Sums Model.GaussLegendre Spec.QuadSpec Proofs.Legendre.
Open Scope Z_scope.

(** ** From arrays to sequences *)
Lemma rsum_sumn n f : rsum (zrange 0 (Z.of_nat n)) f = sumn n (fun k => f (Z.of_nat k)).
Proof.
  induction n as [|n IH]; [reflexivity|]. rewrite Nat2Z.inj_succ. unfold Z.succ. rewrite rr_snoc by lia. cbn [sumn]. now rewrite IH.
Qed.
Lemma of_nat_S L : 1 <= L -> exists n, L = Z.of_nat (S n).
Proof. intros H. exists (Z.to_nat (L - 1)). lia. Qed.
Lemma gauss_sequences n x w : gauss_legendre (Z.of_nat (S n)) x w ->
  gl_roots (S n) (fun k => vat x (Z.of_nat k)) /\ forall i, 0 <= i < Z.of_nat (S n) -> vat w i = gl_weight (S n) (vat x (Z.of_nat (S n) - 1 - i)).
Proof.
  intros (Hx & Hw & Hb & Hi & He). set (L := Z.of_nat (S n)) in *.
  destruct (rule_unique n (fun k => vat w (L - 1 - Z.of_nat k)) (fun k => vat x (Z.of_nat k))) as (Hr & Hv).
  - intros f Hf. apply (rule_poly (S n + S n)); [|exact Hf]. intros j Hj. unfold J. rewrite <- (He j) by lia.
    rewrite <- (rr_rev 0 L). unfold L. rewrite rsum_sumn. unfold rule. apply sumn_ext. intros k Hk. fold L.
    replace (0 + L - 1 - Z.of_nat k) with (L - 1 - Z.of_nat k) by lia. replace (L - 1 - (L - 1 - Z.of_nat k)) with (Z.of_nat k) by lia. reflexivity.
  - intros k Hk. apply Hb. lia.
  - intros i j Hij. apply Hi; lia.
  - split; [exact Hr|]. intros i Hii. specialize (Hv (Z.to_nat (L - 1 - i)) ltac:(lia)). rewrite Z2Nat.id in Hv by lia.
    replace (L - 1 - (L - 1 - i)) with i in Hv by lia. exact Hv.
Qed.
Lemma sequences_gauss n r : gl_roots (S n) r ->
  gauss_legendre (Z.of_nat (S n)) (mkVec (Z.of_nat (S n)) (fun i => r (Z.to_nat i)))
    (mkVec (Z.of_nat (S n)) (fun i => gl_weight (S n) (r (Z.to_nat (Z.of_nat (S n) - 1 - i))))).
Proof.
  intros Hr. pose proof Hr as (Hb & Hi & H0). split; [reflexivity|]. split; [reflexivity|]. cbn [vat]. split; [|split].
  - intros i Hii. apply Hb. lia.
  - intros i j Hij Hj. apply Hi. lia.
  - intros j Hj. symmetry. change (RInt (fun y => (y ^ j)%R) (-1) 1) with (J (fun y => (y ^ j)%R)).
    rewrite (rule_exact n r _ Hr) by (apply (pdeg_le (S j)); [lia|apply pdeg_pow]). unfold rule. symmetry.
    rewrite <- (rr_rev 0 (Z.of_nat (S n))), rsum_sumn. apply sumn_ext. intros k Hk.
    replace (Z.of_nat (S n) - 1 - (0 + Z.of_nat (S n) - 1 - Z.of_nat k)) with (Z.of_nat k) by lia. now rewrite Nat2Z.id.
Qed.
Lemma gauss_exists L : 1 <= L -> exists x w, gauss_legendre L x w.
Proof. intros H. destruct (of_nat_S L H) as (n & ->). destruct (roots_exist_S n) as (r & Hr & _). eexists _, _. exact (sequences_gauss n r Hr). Qed.

(** increasing enumerations of the roots agree *)
Lemma root_listed n r x : gl_roots n r -> leg n x = 0%R -> exists k, (k < n)%nat /\ x = r k.
Proof.
  intros Hr Hx. destruct (roots_factor n r Hr) as (c & Hc & E). rewrite E in Hx. apply Rmult_integral in Hx. destruct Hx as [Hx|Hx]; [lra|].
  clear - Hx. induction n as [|n IH]; cbn [prodn] in Hx; [lra|]. apply Rmult_integral in Hx. destruct Hx as [Hx|Hx].
  - destruct (IH Hx) as (k & Hk & ->). exists k. split; [lia|reflexivity].
  - exists n. split; [lia|lra].
Qed.
Lemma roots_le n r r' : gl_roots n r -> gl_roots n r' -> forall k, (k < n)%nat -> (r k <= r' k)%R.
Proof.
  intros Hr Hr'. destruct (finite_choice O n (fun k j => (j < n)%nat /\ r' k = r j)) as (s & Hs).
  { intros k Hk. destruct Hr' as (_ & _ & H0). destruct (root_listed n r (r' k) Hr (H0 k Hk)) as (j & Hj & E). now exists j. }
  pose proof Hr as (_ & Hi & _). pose proof Hr' as (_ & Hi' & _).
  assert (Hm : forall i j, (i < n)%nat -> (j < n)%nat -> (r i < r j)%R -> (i < j)%nat).
  { intros i j H1 H2 H. destruct (Nat.lt_trichotomy i j) as [H3|[->|H3]]; [exact H3|lra|]. specialize (Hi j i ltac:(lia)). lra. }
  assert (Hk : forall k, (k < n)%nat -> (k <= s k)%nat).
  { induction k as [|k IH]; intros Hk; [lia|]. specialize (IH ltac:(lia)).
    destruct (Hs k ltac:(lia)) as (A & B). destruct (Hs (S k) Hk) as (A' & B'). specialize (Hi' k (S k) ltac:(lia)). rewrite B, B' in Hi'.
    specialize (Hm _ _ A A' Hi'). lia. }
  intros k Hkn. destruct (Hs k Hkn) as (A & ->). destruct (Nat.eq_dec k (s k)) as [<-|Hne]; [lra|]. specialize (Hi k (s k)). specialize (Hk k Hkn). lra || (left; apply Hi; lia).
Qed.
Lemma roots_same n r r' k : gl_roots n r -> gl_roots n r' -> (k < n)%nat -> r k = r' k.
Proof. intros Hr Hr' Hk. apply Rle_antisym; now apply (roots_le n). Qed.
Lemma roots_mirror n r : gl_roots (S n) r -> gl_roots (S n) (fun k => (- r (n - k)%nat)%R).
Proof.
  intros (Hb & Hi & H0). split; [|split].
  - intros k Hk. specialize (Hb (n - k)%nat ltac:(lia)). lra.
  - intros i j Hij. specialize (Hi (n - j)%nat (n - i)%nat ltac:(lia)). lra.
  - intros k Hk. rewrite leg_parity, H0 by lia. ring.
Qed.
Lemma gl_weight_even n x : gl_weight n (- x) = gl_weight n x.
Proof.
  unfold gl_weight. f_equal. unfold kern. apply sumn_ext. intros k Hk. rewrite !leg_parity.
  transitivity ((2 * INR k + 1) * ((-1) ^ k * (-1) ^ k) * leg k x * leg k x)%R; [ring|]. rewrite <- Rpow_mult_distr. replace (-1 * -1)%R with 1%R by ring. rewrite pow1. ring.
Qed.

(** ** One step *)
Lemma pair_leg n z : legendre_pair (Z.of_nat n) z = leg2 n z.
Proof.
  unfold legendre_pair. induction n as [|n IH]; [reflexivity|].
  rewrite Nat2Z.inj_succ. unfold Z.succ. rewrite zrange_snoc by lia. rewrite fold_left_app, IH. cbn [fold_left leg2]. destruct (leg2 n z) as [p1 p2].
  replace (IZR (Z.of_nat n + 1)) with (INR (S n)) by (rewrite INR_IZR_INZ; f_equal; lia). reflexivity.
Qed.
Lemma pp_dleg n z : (z * z - 1 <> 0)%R -> newton_pp (Z.of_nat (S n)) z = dleg (S n) z.
Proof.
  intros Hz. unfold newton_pp. rewrite pair_leg, leg2_S. pose proof (dleg_leg n z) as E. rewrite <- INR_IZR_INZ, S_INR.
  apply (Rmult_eq_reg_r (z * z - 1)); [|exact Hz]. transitivity (- ((INR n + 1) * (leg n z - z * leg (S n) z)))%R; [field; exact Hz|]. rewrite <- E. ring.
Qed.
Lemma step_ok n z : (z * z - 1 <> 0)%R -> dleg (S n) z <> 0%R ->
  newton_step (Z.of_nat (S n)) z = Ok ((z - leg (S n) z / dleg (S n) z)%R, dleg (S n) z).
Proof.
  intros H1 H2. unfold newton_step. destruct (Req_EM_T (z * z - 1) 0); [contradiction|]. rewrite pp_dleg by exact H1. cbv zeta.
  destruct (Req_EM_T (dleg (S n) z) 0); [contradiction|]. rewrite pair_leg. reflexivity.
Qed.
Lemma step_inv n z y q : newton_step (Z.of_nat (S n)) z = Ok (y, q) ->
  (z * z - 1 <> 0)%R /\ dleg (S n) z <> 0%R /\ y = (z - leg (S n) z / dleg (S n) z)%R /\ q = dleg (S n) z.
Proof.
  intros H. unfold newton_step in H. destruct (Req_EM_T (z * z - 1) 0) as [|H1]; [discriminate|]. rewrite pp_dleg in H by exact H1. cbv zeta in H.
  destruct (Req_EM_T (dleg (S n) z) 0) as [|H2]; [discriminate|]. rewrite pair_leg in H. apply (f_equal (fun u => match u with Ok v => v | Err _ => (0%R, 0%R) end)) in H.
  cbn beta iota in H. apply pair_equal_spec in H. destruct H as [<- <-]. auto.
Qed.
Lemma root_slope n x : (-1 < x < 1)%R -> leg (S n) x = 0%R -> dleg (S n) x <> 0%R.
Proof. intros Hx H0 Hd. pose proof (kern_pos n x) as Hk. rewrite kern_root, Hd in Hk by exact H0. cbn in Hk. lra. Qed.
Lemma inner_sq x : (-1 < x < 1)%R -> (x * x - 1 <> 0)%R.
Proof. intros. nra. Qed.
Lemma weight_slope n x : leg (S n) x = 0%R -> gl_weight (S n) x = (2 * 1 / ((1 - x ^ 2) * dleg (S n) x * dleg (S n) x))%R.
Proof. intros H. unfold gl_weight. rewrite kern_root by exact H. f_equal; ring. Qed.

(** ** Distance to the nearest root *)
Lemma prodn_derive n r z : (forall k, (k < n)%nat -> z <> r k) ->
  is_derive (fun x => prodn n (fun k => (x - r k)%R)) z (prodn n (fun k => (z - r k)%R) * sumn n (fun k => / (z - r k)))%R.
Proof.
  induction n as [|n IH]; intros H; cbn [prodn sumn].
  - rewrite Rmult_0_r. apply @is_derive_const.
  - specialize (IH ltac:(auto with arith)). assert (z - r n <> 0)%R by (specialize (H n ltac:(lia)); lra).
    replace (prodn n (fun k => (z - r k)%R) * (z - r n) * (sumn n (fun k => / (z - r k)) + / (z - r n)))%R
      with (prodn n (fun k => (z - r k)%R) * sumn n (fun k => / (z - r k)) * (z - r n) + prodn n (fun k => (z - r k)%R) * 1)%R by (field; auto).
    apply (is_derive_mult (fun x => prodn n (fun k => (x - r k)%R)) (fun x => (x - r n)%R)); [exact IH| |intros; apply Rmult_comm].
    replace 1%R with (1 - 0)%R by ring. apply @is_derive_minus; [apply @is_derive_id|apply @is_derive_const].
Qed.
Lemma log_slope n r z : gl_roots n r -> (forall k, (k < n)%nat -> z <> r k) -> dleg n z = (leg n z * sumn n (fun k => / (z - r k)))%R.
Proof.
  intros Hr Hz. destruct (roots_factor n r Hr) as (c & Hc & E).
  assert (D : is_derive (leg n) z (c * (prodn n (fun k => z - r k) * sumn n (fun k => / (z - r k))))%R).
  { apply (is_derive_ext (fun x => (c * prodn n (fun k => x - r k))%R)); [intros; symmetry; apply E|]. apply is_derive_scal. now apply prodn_derive. }
  apply is_derive_unique in D. rewrite (is_derive_unique _ _ _ (leg_derive n z)) in D. rewrite D, E. ring.
Qed.
Lemma sumn_bound n f b : (forall k, (k < n)%nat -> (Rabs (f k) <= b)%R) -> (Rabs (sumn n f) <= INR n * b)%R.
Proof.
  induction n as [|n IH]; intros H; cbn [sumn]; [rewrite Rabs_R0; cbn; lra|]. rewrite S_INR. pose proof (Rabs_triang (sumn n f) (f n)).
  specialize (IH ltac:(auto with arith)). specialize (H n ltac:(lia)). lra.
Qed.
Lemma near_root n r z eps : gl_roots (S n) r -> (0 < eps)%R -> dleg (S n) z <> 0%R -> (Rabs (leg (S n) z / dleg (S n) z) <= eps)%R ->
  exists k, (k < S n)%nat /\ (Rabs (z - r k) <= INR (S n) * eps)%R.
Proof.
  intros Hr He Hd Hs. assert (HN : (1 <= INR (S n))%R) by (rewrite S_INR; pose proof (pos_INR n); lra).
  destruct (Classical_Prop.classic (exists k, (k < S n)%nat /\ (Rabs (z - r k) <= INR (S n) * eps)%R)) as [H|H]; [exact H|exfalso].
  assert (Hf : forall k, (k < S n)%nat -> (INR (S n) * eps < Rabs (z - r k))%R).
  { intros k Hk. destruct (Rlt_le_dec (INR (S n) * eps) (Rabs (z - r k))) as [Hl|Hl]; [exact Hl|]. exfalso. apply H. now exists k. }
  assert (Hp : (0 < INR (S n) * eps)%R) by nra.
  assert (Hz : forall k, (k < S n)%nat -> z <> r k). { intros k Hk ->. specialize (Hf k Hk). rewrite Rminus_diag_eq, Rabs_R0 in Hf by auto. lra. }
  pose proof (log_slope (S n) r z Hr Hz) as E.
  (* the largest of the |1 / (z - r k)| is strictly below 1 / (N eps) *)
  assert (Hb : exists b, (0 < b < / (INR (S n) * eps))%R /\ forall k, (k < S n)%nat -> (Rabs (/ (z - r k)) <= b)%R).
  { assert (Hk' : forall k, (k < S n)%nat -> (0 < Rabs (/ (z - r k)) < / (INR (S n) * eps))%R).
    { intros k Hk. specialize (Hf k Hk). rewrite Rabs_inv. split; [apply Rinv_0_lt_compat; lra|]. apply Rinv_lt_contravar; [nra|exact Hf]. }
    clear - Hk' Hp. revert Hk'. generalize (S n) at 1 4 as m. intros m. induction m as [|m IH]; intros Hk'.
    - exists (/ (INR (S n) * eps) / 2)%R. pose proof (Rinv_0_lt_compat _ Hp). split; [lra|]. intros; lia.
    - destruct (IH ltac:(auto with arith)) as (b & Hb & H). specialize (Hk' m ltac:(lia)) as Hm.
      exists (Rmax b (Rabs (/ (z - r m)))). split; [split; [apply Rlt_le_trans with b; [lra|apply Rmax_l]|apply Rmax_lub_lt; lra]|].
      intros k Hk. destruct (Nat.eq_dec k m) as [->|Hn]; [apply Rmax_r|]. apply Rle_trans with b; [apply H; lia|apply Rmax_l]. }
  destruct Hb as (b & (Hb0 & Hb1) & Hbk). pose proof (sumn_bound (S n) (fun k => (/ (z - r k))%R) b Hbk) as HS.
  set (T := sumn (S n) (fun k => (/ (z - r k))%R)) in *.
  assert (Hl : leg (S n) z <> 0%R). { intros Hl. apply Hd. rewrite E, Hl. ring. }
  assert (HT : T <> 0%R). { intros HT. apply Hd. rewrite E, HT. ring. }
  replace (leg (S n) z / dleg (S n) z)%R with (/ T)%R in Hs by (rewrite E; field; auto).
  rewrite Rabs_inv in Hs. assert (HTp : (0 < Rabs T)%R) by now apply Rabs_pos_lt.
  assert (Rabs T < / eps)%R.
  { apply Rle_lt_trans with (INR (S n) * b)%R; [exact HS|]. apply Rlt_le_trans with (INR (S n) * / (INR (S n) * eps))%R; [apply Rmult_lt_compat_l; lra|].
    right. field. lra. }
  assert (/ / eps < / Rabs T)%R by (apply Rinv_lt_contravar; [|assumption]; apply Rmult_lt_0_compat; [exact HTp|now apply Rinv_0_lt_compat]).
  rewrite Rinv_inv in *. lra.
Qed.

(** ** Continuity of the slope *)
Lemma dleg_pdeg n : pdeg n (dleg n).
Proof.
  induction n as [|n IH]; [intros x; reflexivity|]. apply (pdeg_ext _ (fun x => (x * dleg n x + (INR n + 1) * leg n x)%R)); [reflexivity|].
  apply pdeg_plus; [now apply pdeg_x|]. apply pdeg_scal, leg_pdeg.
Qed.
Lemma close_pt f r eps : continuity_pt f r -> (0 < eps)%R -> exists d, (0 < d)%R /\ forall z, (Rabs (z - r) <= d -> Rabs (f z - f r) < eps)%R.
Proof.
  intros Hc He. destruct (Hc eps He) as (a & Ha & H). exists (a / 2)%R. split; [lra|]. intros z Hz.
  destruct (Req_dec z r) as [->|Hn]; [rewrite Rminus_diag_eq, Rabs_R0 by auto; exact He|].
  apply (H z). split; [split; [exact I|auto]|]. cbn. unfold R_dist. lra.
Qed.
(** ** The loop *)
Lemma steps_ok L z Y Q : (forall i, 0 <= i < vlen z -> newton_step L (vat z i) = Ok (Y i, Q i)) -> 0 <= vlen z ->
  exists z' pp, newton_steps L z = Ok (z', pp) /\ vlen z' = vlen z /\ vlen pp = vlen z /\ forall i, 0 <= i < vlen z -> vat z' i = Y i /\ vat pp i = Q i.
Proof.
  intros H H0. unfold newton_steps.
  assert (G : forall k : nat, Z.of_nat k <= vlen z -> exists z' pp,
    foldM (fun acc i => let '(z', pp) := acc in let* x := vread z i in let* (y, q) := newton_step L x in
      let* z' := vwrite z' i y in let* pp := vwrite pp i q in Ok (z', pp)) (zrange 0 (Z.of_nat k)) (vconst (vlen z) 0%R, vconst (vlen z) 0%R) = Ok (z', pp) /\
    vlen z' = vlen z /\ vlen pp = vlen z /\ forall i, 0 <= i < Z.of_nat k -> vat z' i = Y i /\ vat pp i = Q i).
  { induction k as [|k IH]; intros Hk.
    - exists (vconst (vlen z) 0%R), (vconst (vlen z) 0%R). split; [reflexivity|]. split; [reflexivity|]. split; [reflexivity|]. intros; lia.
    - destruct IH as (z' & pp & E & L1 & L2 & V); [lia|]. rewrite Nat2Z.inj_succ. unfold Z.succ. rewrite zrange_snoc, foldM_app, E by lia. cbn [bind foldM].
      rewrite vread_in by lia. cbn [bind]. rewrite H by lia. cbn [bind]. rewrite !vwrite_in by lia. cbn [bind].
      eexists _, _. split; [reflexivity|]. cbn [vlen vat]. split; [exact L1|]. split; [exact L2|]. intros i Hi. unfold vupd.
      destruct (Z.eqb_spec i (Z.of_nat k)) as [->|Hn]; [split; reflexivity|]. apply V. lia. }
  destruct (G (Z.to_nat (vlen z)) ltac:(lia)) as (z' & pp & E & L1 & L2 & V). rewrite Z2Nat.id in * by lia. exists z', pp. auto.
Qed.
Lemma steps_inv L z z' pp : newton_steps L z = Ok (z', pp) ->
  vlen z' = vlen z /\ vlen pp = vlen z /\ forall i, 0 <= i < vlen z -> newton_step L (vat z i) = Ok (vat z' i, vat pp i).
Proof.
  destruct (Z_lt_le_dec (vlen z) 0) as [Hneg|H0].
  { unfold newton_steps. rewrite zrange_nil by lia. cbn [foldM]. intros H. inversion H. split; [reflexivity|]. split; [reflexivity|]. intros; lia. }
  unfold newton_steps.
  assert (G : forall k : nat, Z.of_nat k <= vlen z -> forall z' pp,
    foldM (fun acc i => let '(z', pp) := acc in let* x := vread z i in let* (y, q) := newton_step L x in
      let* z' := vwrite z' i y in let* pp := vwrite pp i q in Ok (z', pp)) (zrange 0 (Z.of_nat k)) (vconst (vlen z) 0%R, vconst (vlen z) 0%R) = Ok (z', pp) ->
    vlen z' = vlen z /\ vlen pp = vlen z /\ forall i, 0 <= i < Z.of_nat k -> newton_step L (vat z i) = Ok (vat z' i, vat pp i)).
  { clear z' pp. induction k as [|k IH]; intros Hk z' pp E.
    - cbn in E. inversion E. split; [reflexivity|]. split; [reflexivity|]. intros; lia.
    - rewrite Nat2Z.inj_succ in *. unfold Z.succ in *. rewrite zrange_snoc, foldM_app in E by lia.
      destruct (foldM _ (zrange 0 (Z.of_nat k)) _) as [[z0 p0]|e] eqn:E0; cbn [bind foldM] in E; [|discriminate].
      destruct (IH ltac:(lia) z0 p0 eq_refl) as (L1 & L2 & V). rewrite vread_in in E by lia. cbn [bind] in E.
      destruct (newton_step L (vat z (Z.of_nat k))) as [[y q]|e] eqn:Es; cbn [bind] in E; [|discriminate]. rewrite !vwrite_in in E by lia. cbn [bind] in E.
      inversion E. cbn [vlen vat]. split; [exact L1|]. split; [exact L2|]. intros i Hi. unfold vupd. destruct (Z.eqb_spec i (Z.of_nat k)) as [->|Hn]; [exact Es|]. apply V. lia. }
  intros E. rewrite <- (Z2Nat.id (vlen z)) in E at 1 by lia. destruct (G (Z.to_nat (vlen z)) ltac:(lia) z' pp E) as (L1 & L2 & V). rewrite Z2Nat.id in V by lia. auto.
Qed.
Definition tol : R := (/ 10 ^ 14)%R.
Lemma tol_pos : (0 < tol)%R.
Proof. unfold tol. apply Rinv_0_lt_compat, pow_lt. lra. Qed.
Lemma again_false z z1 : 1 <= vlen z -> (forall i, 0 <= i < vlen z -> (Rabs (vat z i - vat z1 i) <= tol)%R) -> newton_again z z1 = Ok false.
Proof.
  intros Hl H. unfold newton_again. replace (vlen z =? 0) with false by lia. f_equal. apply Bool.not_true_is_false. intros E. apply existsb_exists in E.
  destruct E as (i & Hi & E). apply in_zrange in Hi. specialize (H i Hi). unfold tol in H. destruct (Rlt_dec _ _); [lra|discriminate].
Qed.
Lemma again_true z z1 i : 0 <= i < vlen z -> (tol < Rabs (vat z i - vat z1 i))%R -> newton_again z z1 = Ok true.
Proof.
  intros Hi H. unfold newton_again. replace (vlen z =? 0) with false by lia. f_equal. apply existsb_exists. exists i. split; [now apply in_zrange|].
  unfold tol in H. destruct (Rlt_dec _ _); [reflexivity|lra].
Qed.
Lemma again_inv z z1 b : newton_again z z1 = Ok b -> b = false -> forall i, 0 <= i < vlen z -> (Rabs (vat z i - vat z1 i) <= tol)%R.
Proof.
  intros H Hb i Hi. destruct (Rlt_le_dec tol (Rabs (vat z i - vat z1 i))) as [Hl|Hl]; [|exact Hl]. rewrite (again_true z z1 i Hi Hl) in H. congruence.
Qed.
(** when the loop ends after at least one turn, the last step was small *)
Lemma loop_inv L : forall turns z z1 pp z' pp', newton_loop turns L z z1 pp = Ok (z', pp') ->
  (z' = z /\ pp' = pp /\ newton_again z z1 = Ok false) \/
  exists y, vlen y = vlen z /\ newton_steps L y = Ok (z', pp') /\ forall i, 0 <= i < vlen z' -> (Rabs (vat z' i - vat y i) <= tol)%R.
Proof.
  induction turns as [|turns IH]; intros z z1 pp z' pp' H; cbn [newton_loop] in H; destruct (newton_again z z1) as [[|]|e] eqn:E; cbn [bind] in H; try discriminate.
  - inversion H. now left.
  - destruct (newton_steps L z) as [[y q]|e] eqn:Es; cbn [bind] in H; [|discriminate]. right.
    destruct (steps_inv L z y q Es) as (L1 & L2 & _). destruct (IH y z q z' pp' H) as [(-> & -> & Ea)|(u & U1 & U2 & U3)].
    + exists z. split; [reflexivity|]. split; [exact Es|]. exact (again_inv _ _ _ Ea eq_refl).
    + exists u. split; [congruence|]. auto.
  - inversion H. now left.
Qed.
(** ** The weights *)
Lemma weights_ok L z pp : 1 <= L -> exists q, newton_weights L z pp = Ok q /\ vlen q = L /\
  forall i, 0 <= i < L -> vat q i = (2 * 1 / ((1 - vat z (Z.min i (L - 1 - i)) ^ 2) * vat pp (Z.min i (L - 1 - i)) * vat pp (Z.min i (L - 1 - i))) * 2 * PI / IZR (2 * L - 1))%R.
Proof.
  intros HL. unfold newton_weights. cbv zeta. set (m := (L + 1) / 2). assert (Hm : L <= 2 * m <= L + 1) by (unfold m; pose proof (Z.div_mod (L + 1) 2 ltac:(lia)); pose proof (Z.mod_pos_bound (L + 1) 2 ltac:(lia)); lia).
  set (val := fun i => (2 * 1 / ((1 - vat z (i - 1) ^ 2) * vat pp (i - 1) * vat pp (i - 1)))%R).
  destruct (vwrite_loop (fun i => i - 1) val (fun w i => vwrite w (i - 1) (val i)) (zrange 1 (m + 1)) (vconst L 0%R)) as (h & Eh & Lh & Vh & _).
  { reflexivity. } { intros i Hi. apply in_zrange in Hi. change (vlen (vconst L 0%R)) with L. lia. } { apply zrange_NoDup. } { intros; lia. }
  change (vlen (vconst L 0%R)) with L in Lh. unfold val in Eh at 1. rewrite Eh. cbn [bind].
  destruct (vwrite_loop (fun i => L + 1 - i - 1) (fun i => vat h (i - 1)) (fun w i => let* x := vread h (i - 1) in vwrite w (L + 1 - i - 1) x) (zrange 1 (m + 1)) h) as (q & Eq & Lq & Vq & Oq).
  { intros v' i Hv Hi. apply in_zrange in Hi. rewrite vread_in by lia. reflexivity. }
  { intros i Hi. apply in_zrange in Hi. lia. } { apply zrange_NoDup. } { intros; lia. }
  rewrite Eq. cbn [bind]. eexists. split; [reflexivity|]. cbn [vmap vlen vat]. split; [congruence|]. intros i Hi. do 3 f_equal.
  change (vat q i = (2 * 1 / ((1 - vat z (Z.min i (L - 1 - i)) ^ 2) * vat pp (Z.min i (L - 1 - i)) * vat pp (Z.min i (L - 1 - i))))%R).
  destruct (Z_lt_le_dec i (L - m)) as [Hl|Hl].
  - rewrite Oq by (intros j Hj; apply in_zrange in Hj; lia). replace i with (i + 1 - 1) at 1 by lia. rewrite Vh by (apply in_zrange; lia). unfold val.
    replace (Z.min i (L - 1 - i)) with (i + 1 - 1) by lia. reflexivity.
  - replace i with (L + 1 - (L - i) - 1) at 1 by lia. rewrite Vq by (apply in_zrange; lia). rewrite Vh by (apply in_zrange; lia). unfold val.
    replace (Z.min i (L - 1 - i)) with (L - i - 1) by lia. reflexivity.
Qed.

(** ** Statements about the rule *)
Lemma gauss_root n x w i : gauss_legendre (Z.of_nat (S n)) x w -> 0 <= i < Z.of_nat (S n) -> (-1 < vat x i < 1)%R /\ leg (S n) (vat x i) = 0%R.
Proof.
  intros H Hi. destruct (gauss_sequences n x w H) as ((Hb & _ & H0) & _). specialize (Hb (Z.to_nat i) ltac:(lia)). specialize (H0 (Z.to_nat i) ltac:(lia)).
  rewrite Z2Nat.id in * by lia. auto.
Qed.
Lemma gauss_same L x w x' w' i : gauss_legendre L x w -> gauss_legendre L x' w' -> 0 <= i < L -> vat x i = vat x' i /\ vat w i = vat w' i.
Proof.
  intros H H' Hi. destruct (of_nat_S L ltac:(lia)) as (n & ->).
  destruct (gauss_sequences n x w H) as (Hr & Hw). destruct (gauss_sequences n x' w' H') as (Hr' & Hw').
  assert (E : forall j, 0 <= j < Z.of_nat (S n) -> vat x j = vat x' j).
  { intros j Hj. pose proof (roots_same (S n) _ _ (Z.to_nat j) Hr Hr' ltac:(lia)) as E. cbn beta in E. now rewrite Z2Nat.id in E by lia. }
  split; [now apply E|]. rewrite Hw, Hw', E by lia. reflexivity.
Qed.
Lemma pair_derive L z : 1 <= L -> (z * z <> 1)%R -> is_derive (fun x => fst (legendre_pair L x)) z (newton_pp L z).
Proof.
  intros HL Hz. destruct (of_nat_S L HL) as (n & ->). rewrite pp_dleg by lra.
  apply (is_derive_ext (leg (S n))); [intros; now rewrite pair_leg|]. apply leg_derive.
Qed.
Lemma gauss_fixed L x w i : gauss_legendre L x w -> 0 <= i < L ->
  exists pp, newton_step L (vat x i) = Ok (vat x i, pp) /\ vat w (L - 1 - i) = (2 / ((1 - vat x i ^ 2) * pp ^ 2))%R.
Proof.
  intros H Hi. destruct (of_nat_S L ltac:(lia)) as (n & ->). destruct (gauss_root n x w i H Hi) as (Hb & H0).
  exists (dleg (S n) (vat x i)). split.
  - rewrite step_ok by (now apply inner_sq || now apply root_slope). rewrite H0. f_equal. f_equal. unfold Rdiv. ring.
  - destruct (gauss_sequences n x w H) as (_ & Hw). rewrite Hw by lia.
    replace (Z.of_nat (S n) - 1 - (Z.of_nat (S n) - 1 - i)) with i by lia. rewrite weight_slope by exact H0. f_equal; ring.
Qed.
Lemma fixed_gauss L x w z pp : gauss_legendre L x w -> 1 <= L -> newton_step L z = Ok (z, pp) -> exists i, 0 <= i < L /\ z = vat x i.
Proof.
  intros H HL Hs. destruct (of_nat_S L HL) as (n & ->). destruct (step_inv n z z pp Hs) as (_ & Hd & E & _).
  assert (H0 : leg (S n) z = 0%R). { assert (E' : (leg (S n) z / dleg (S n) z = 0)%R) by lra. apply (Rmult_eq_reg_r (/ dleg (S n) z)); [|now apply Rinv_neq_0_compat]. unfold Rdiv in E'. lra. }
  destruct (gauss_sequences n x w H) as (Hr & _). destruct (root_listed (S n) _ z Hr H0) as (k & Hk & ->). exists (Z.of_nat k). split; [lia|reflexivity].
Qed.
Lemma loop_near L x w turns z0 z pp : gauss_legendre L x w -> 1 <= L -> (forall i, 0 <= i < vlen z0 -> (Rabs (vat z0 i) <= 1)%R) ->
  newton_loop turns L z0 (vconst (vlen z0) 2%R) (vconst (vlen z0) 0%R) = Ok (z, pp) ->
  vlen z = vlen z0 /\ forall i, 0 <= i < vlen z -> exists k, 0 <= k < L /\ (Rabs (vat z i - vat x k) <= (IZR L + 1) / 10 ^ 14)%R.
Proof.
  intros H HL Hz E. destruct (of_nat_S L HL) as (n & ->). destruct (loop_inv _ _ _ _ _ _ _ E) as [(-> & -> & Ea)|(y & Ly & Ey & Hy)].
  - split; [reflexivity|]. intros i Hi. exfalso. pose proof (again_inv _ _ _ Ea eq_refl i Hi) as A. cbn [vconst vat] in A.
    specialize (Hz i Hi). apply Rabs_le_between in Hz. apply Rabs_le_between in A. assert (tol <= / 10)%R.
    { unfold tol. apply Rinv_le_contravar; [lra|]. replace 10%R with (10 ^ 1)%R at 1 by ring. apply Rle_pow; [lra|lia]. } lra.
  - destruct (steps_inv _ _ _ _ Ey) as (L1 & L2 & V). split; [congruence|]. intros i Hi. rewrite L1 in Hi. destruct (step_inv _ _ _ _ (V i Hi)) as (_ & Hd & E1 & _).
    specialize (Hy i ltac:(lia)). destruct (gauss_sequences n x w H) as (Hr & _).
    destruct (near_root n _ (vat y i) tol Hr tol_pos Hd) as (k & Hk & Hn).
    { rewrite E1 in Hy. replace (vat y i - leg (S n) (vat y i) / dleg (S n) (vat y i) - vat y i)%R with (- (leg (S n) (vat y i) / dleg (S n) (vat y i)))%R in Hy by ring. now rewrite Rabs_Ropp in Hy. }
    exists (Z.of_nat k). split; [lia|]. replace (vat z i - vat x (Z.of_nat k))%R with ((vat z i - vat y i) + (vat y i - vat x (Z.of_nat k)))%R by ring.
    eapply Rle_trans; [apply Rabs_triang|]. unfold Rdiv. change (/ 10 ^ 14)%R with tol. rewrite <- INR_IZR_INZ. lra.
Qed.
Lemma start_bound L i : (Rabs (vat (newton_start L) i) <= 1)%R.
Proof. cbn [newton_start vat]. apply Rabs_le_between. apply COS_bound. Qed.
Lemma newton_one turns : (1 <= turns)%nat -> exists q, quad_weights_gl_newton turns 1 = Ok q /\ vlen q = 1 /\ vat q 0 = (4 * PI)%R.
Proof.
  intros Ht. unfold quad_weights_gl_newton, newton_from. destruct turns as [|turns]; [lia|]. set (z0 := newton_start 1).
  assert (Z0 : vat z0 0 = 0%R). { cbn [z0 newton_start vat]. rewrite <- cos_PI2. f_equal. cbn [Z.add]. field. }
  assert (Lz : vlen z0 = 1) by reflexivity. cbn [newton_loop].
  assert (tol < 1)%R. { unfold tol. rewrite <- Rinv_1. apply Rinv_lt_contravar; [|apply Rlt_pow_R1; [lra|lia]]. rewrite Rmult_1_l. apply pow_lt. lra. }
  rewrite (again_true z0 (vconst (vlen z0) 2%R) 0); [|lia|cbn [vconst vat]; rewrite Z0, Rabs_minus_sym, Rminus_0_r, Rabs_pos_eq; lra]. cbn [bind].
  destruct (steps_ok 1 z0 (fun _ => 0%R) (fun _ => 1%R)) as (z & pp & E & L1 & L2 & V).
  { intros i Hi. replace i with 0 by lia. rewrite Z0. change 1 with (Z.of_nat 1). assert (D : dleg 1 0 = 1%R) by (cbn [dleg]; rewrite leg_0; cbn; ring).
    rewrite step_ok by (rewrite ?D; lra). rewrite D, leg_1. f_equal. f_equal. field. }
  { lia. }
  rewrite E. cbn [bind]. assert (Ea : newton_again z z0 = Ok false).
  { apply again_false; [lia|]. intros i Hi. replace i with 0 by lia. destruct (V 0 ltac:(lia)) as (-> & _). rewrite Z0, Rminus_0_r, Rabs_R0. pose proof tol_pos. lra. }
  replace (newton_loop turns 1 z z0 pp) with (Ok (z, pp)) by (destruct turns; cbn [newton_loop]; rewrite Ea; reflexivity). cbn [bind].
  destruct (weights_ok 1 z pp ltac:(lia)) as (q & Eq & Lq & Vq). exists q. split; [exact Eq|]. split; [exact Lq|]. rewrite Vq by lia. change (Z.min 0 (1 - 1 - 0)) with 0. change (2 * 1 - 1) with 1.
  destruct (V 0 ltac:(lia)) as (-> & ->). field.
Qed.
