(** Legendre polynomials: recurrences, roots, orthogonality and the Gauss-Legendre rule. *)
From Coq Require Import Reals Lra Lia Arith.
From Coquelicot Require Import Coquelicot.
Open Scope R_scope.

(** ** Finite sums and products *)
Fixpoint sumn (n : nat) (f : nat -> R) : R := match n with O => 0 | S k => sumn k f + f k end.
Fixpoint prodn (n : nat) (f : nat -> R) : R := match n with O => 1 | S k => prodn k f * f k end.
Lemma sumn_ext n f g : (forall k, (k < n)%nat -> f k = g k) -> sumn n f = sumn n g.
Proof. induction n as [|n IH]; intros H; cbn; [reflexivity|]. rewrite IH, (H n) by auto with arith. reflexivity. Qed.
Lemma sumn_scal n c f : sumn n (fun k => c * f k) = c * sumn n f.
Proof. induction n as [|n IH]; cbn; [ring|]. rewrite IH. ring. Qed.
Lemma sumn_plus n f g : sumn n (fun k => f k + g k) = sumn n f + sumn n g.
Proof. induction n as [|n IH]; cbn; [ring|]. rewrite IH. ring. Qed.
Lemma sumn_0 n f : (forall k, (k < n)%nat -> f k = 0) -> sumn n f = 0.
Proof. induction n as [|n IH]; intros H; cbn; [reflexivity|]. rewrite IH, (H n) by auto with arith. ring. Qed.
Lemma sumn_one n f i : (i < n)%nat -> (forall k, (k < n)%nat -> k <> i -> f k = 0) -> sumn n f = f i.
Proof.
  induction n as [|n IH]; intros Hi H; [lia|]. cbn. destruct (Nat.eq_dec i n) as [->|Hn].
  - rewrite sumn_0; [ring|]. intros k Hk. apply H; lia.
  - rewrite IH by (try lia; intros; apply H; lia). rewrite (H n) by lia. ring.
Qed.
Lemma prodn_neq0 n f : (forall k, (k < n)%nat -> f k <> 0) -> prodn n f <> 0.
Proof. induction n as [|n IH]; intros H; cbn; [lra|]. apply Rmult_integral_contrapositive_currified; auto with arith. Qed.
Lemma finite_choice {T} (d : T) (n : nat) (Q : nat -> T -> Prop) : (forall k, (k < n)%nat -> exists x, Q k x) -> exists s, forall k, (k < n)%nat -> Q k (s k).
Proof.
  induction n as [|n IH]; intros H; [exists (fun _ => d); intros; lia|].
  destruct IH as (s & Hs); [auto with arith|]. destruct (H n) as (x & Hx); [lia|].
  exists (fun k => if Nat.eqb k n then x else s k). intros k Hk. destruct (Nat.eqb_spec k n) as [->|Hn]; [exact Hx|]. apply Hs. lia.
Qed.

(** ** Polynomials of degree < n *)
Fixpoint pdeg (n : nat) (f : R -> R) : Prop :=
  match n with
  | O => forall x, f x = 0
  | S k => exists c g, pdeg k g /\ forall x, f x = c + x * g x
  end.
Lemma pdeg_ext n : forall f g, (forall x, f x = g x) -> pdeg n f -> pdeg n g.
Proof.
  destruct n as [|n]; intros f g H Hf; cbn in *.
  - intros x. rewrite <- H. apply Hf.
  - destruct Hf as (c & h & Hh & E). exists c, h. split; [exact Hh|]. intros x. rewrite <- H. apply E.
Qed.
Lemma pdeg_zero n : pdeg n (fun _ => 0).
Proof. induction n as [|n IH]; cbn; [reflexivity|]. exists 0, (fun _ => 0). split; [exact IH|]. intros. ring. Qed.
Lemma pdeg_const n c : pdeg (S n) (fun _ => c).
Proof. exists c, (fun _ => 0). split; [apply pdeg_zero|]. intros. ring. Qed.
Lemma pdeg_S n : forall f, pdeg n f -> pdeg (S n) f.
Proof.
  induction n as [|n IH]; intros f H.
  - exists 0, (fun _ => 0). split; [apply pdeg_zero|]. intros. rewrite H. ring.
  - destruct H as (c & g & Hg & E). exists c, g. split; [now apply IH|exact E].
Qed.
Lemma pdeg_le n m f : (n <= m)%nat -> pdeg n f -> pdeg m f.
Proof. induction 1; auto. intros. now apply pdeg_S, IHle. Qed.
Lemma pdeg_plus n : forall f g, pdeg n f -> pdeg n g -> pdeg n (fun x => f x + g x).
Proof.
  induction n as [|n IH]; intros f g Hf Hg; cbn in *.
  - intros x. rewrite Hf, Hg. ring.
  - destruct Hf as (c & f' & Hf & E). destruct Hg as (d & g' & Hg & E'). exists (c + d), (fun x => f' x + g' x).
    split; [now apply IH|]. intros x. rewrite E, E'. ring.
Qed.
Lemma pdeg_scal n c : forall f, pdeg n f -> pdeg n (fun x => c * f x).
Proof.
  induction n as [|n IH]; intros f Hf; cbn in *.
  - intros x. rewrite Hf. ring.
  - destruct Hf as (d & f' & Hf & E). exists (c * d), (fun x => c * f' x). split; [now apply IH|]. intros x. rewrite E. ring.
Qed.
Lemma pdeg_minus n f g : pdeg n f -> pdeg n g -> pdeg n (fun x => f x - g x).
Proof. intros Hf Hg. eapply pdeg_ext; [|apply pdeg_plus; [exact Hf|exact (pdeg_scal n (-1) g Hg)]]. intros x. cbn. ring. Qed.
Lemma pdeg_x n f : pdeg n f -> pdeg (S n) (fun x => x * f x).
Proof. intros H. exists 0, f. split; [exact H|]. intros. ring. Qed.
Lemma pdeg_lin n a f : pdeg n f -> pdeg (S n) (fun x => (x - a) * f x).
Proof.
  intros H. eapply pdeg_ext; [|apply pdeg_plus; [apply pdeg_x, H|apply pdeg_S, (pdeg_scal n (- a)), H]]. intros x. cbn. ring.
Qed.
Lemma pdeg_mult n : forall m f g, pdeg n f -> pdeg (S m) g -> pdeg (n + m) (fun x => f x * g x).
Proof.
  induction n as [|n IH]; intros m f g Hf Hg.
  - cbn in Hf. eapply pdeg_ext; [|apply pdeg_zero]. intros x. cbn. rewrite Hf. ring.
  - destruct Hf as (c & h & Hh & E). apply pdeg_ext with (fun x => c * g x + x * (h x * g x)); [intros x; cbn; rewrite E; ring|].
    cbn [Nat.add]. apply pdeg_plus; [apply pdeg_le with (S m); [lia|]; now apply pdeg_scal|]. apply pdeg_x. now apply IH.
Qed.
Lemma pdeg_pow n : pdeg (S n) (fun x => x ^ n).
Proof. induction n as [|n IH]; [apply (pdeg_const 0 1)|]. cbn [pow]. now apply pdeg_x. Qed.
Lemma pdeg_sumn m n (F : nat -> R -> R) : (forall k, (k < n)%nat -> pdeg m (F k)) -> pdeg m (fun x => sumn n (fun k => F k x)).
Proof. induction n as [|n IH]; intros H; cbn; [apply pdeg_zero|]. apply pdeg_plus; auto with arith. Qed.
Lemma pdeg_prodn n r : pdeg (S n) (fun x => prodn n (fun k => x - r k)).
Proof.
  induction n as [|n IH]; [apply (pdeg_const 0 1)|]. cbn [prodn]. eapply pdeg_ext; [|apply (pdeg_lin (S n) (r n)), IH]. intros x. cbn. ring.
Qed.
(** division by x - r *)
Lemma pdeg_divide n r : forall f, pdeg (S n) f -> exists g, pdeg n g /\ forall x, f x = f r + (x - r) * g x.
Proof.
  induction n as [|n IH]; intros f (c & h & Hh & E).
  - exists (fun _ => 0). split; [apply pdeg_zero|]. intros x. rewrite !E, !Hh. ring.
  - destruct (IH h Hh) as (g & Hg & E'). exists (fun x => h r + x * g x). split; [now exists (h r), g|].
    intros x. rewrite (E x), (E r), (E' x). ring.
Qed.
Lemma pdeg_factor n r : forall f, pdeg (S n) f -> (forall i j, (i < j < n)%nat -> r i <> r j) -> (forall k, (k < n)%nat -> f (r k) = 0) ->
  exists c, forall x, f x = c * prodn n (fun k => x - r k).
Proof.
  induction n as [|n IH]; intros f Hf Hr H0.
  - destruct Hf as (c & g & Hg & E). exists c. intros x. cbn in *. rewrite E, Hg. ring.
  - destruct (pdeg_divide (S n) (r n) f Hf) as (g & Hg & E). rewrite (H0 n) in E by lia.
    destruct (IH g Hg) as (c & Ec).
    + intros i j Hij. apply Hr. lia.
    + intros k Hk. assert (Hz : f (r k) = 0) by (apply H0; lia). rewrite E in Hz. assert (r k - r n <> 0) by (assert (r k <> r n) by (apply Hr; lia); lra).
      rewrite Rplus_0_l in Hz. apply Rmult_integral in Hz. tauto.
    + exists c. intros x. cbn [prodn]. rewrite E, Ec. ring.
Qed.
Lemma pdeg_zeros n r f : pdeg n f -> (forall i j, (i < j < n)%nat -> r i <> r j) -> (forall k, (k < n)%nat -> f (r k) = 0) -> forall x, f x = 0.
Proof.
  destruct n as [|n]; intros Hf Hr H0; [exact Hf|].
  destruct (pdeg_factor n r f Hf) as (c & E); [intros; apply Hr; lia|auto with arith|].
  assert (Hc : c = 0).
  { pose proof (H0 n ltac:(lia)) as Hz. rewrite E in Hz. apply Rmult_integral in Hz. destruct Hz as [Hz|Hz]; [exact Hz|]. exfalso. revert Hz.
    apply prodn_neq0. intros k Hk. assert (r k <> r n) by (apply Hr; lia). lra. }
  intros x. rewrite E, Hc. ring.
Qed.
Lemma pdeg_derive n : forall f, pdeg n f -> forall x, ex_derive f x.
Proof.
  induction n as [|n IH]; intros f Hf x.
  - apply (ex_derive_ext (fun _ => 0)); [intros; symmetry; apply Hf|]. apply ex_derive_const.
  - destruct Hf as (c & g & Hg & E). apply (ex_derive_ext (fun x => c + x * g x)); [intros; symmetry; apply E|].
    apply (ex_derive_plus (fun _ => c) (fun x => x * g x)); [apply ex_derive_const|]. apply (ex_derive_mult (fun x => x) g); [apply ex_derive_id|now apply IH].
Qed.
Lemma pdeg_int n f a b : pdeg n f -> ex_RInt f a b.
Proof. intros H. apply (ex_RInt_continuous (V := R_CompleteNormedModule)). intros z _. apply (ex_derive_continuous (K := R_AbsRing) (V := R_NormedModule)). now apply (pdeg_derive n). Qed.
Lemma pdeg_continuity n f : pdeg n f -> continuity f.
Proof. intros H x. apply derivable_continuous_pt. apply ex_derive_Reals_0. now apply (pdeg_derive n). Qed.

(** ** Legendre polynomials *)
Fixpoint leg2 (n : nat) (x : R) : R * R :=
  match n with
  | O => (1, 0)
  | S k => let (p1, p2) := leg2 k x in (((2 * INR n - 1) * x * p1 - (INR n - 1) * p2) / INR n, p1)
  end.
Definition leg (n : nat) (x : R) : R := fst (leg2 n x).
Lemma leg_0 x : leg 0 x = 1. Proof. reflexivity. Qed.
Lemma leg_1 x : leg 1 x = x. Proof. unfold leg. cbn. field. Qed.
Lemma leg2_S n x : leg2 (S n) x = (leg (S n) x, leg n x).
Proof. unfold leg. cbn [leg2]. destruct (leg2 n x). reflexivity. Qed.
Lemma leg_rec n x : (INR n + 2) * leg (S (S n)) x = (2 * INR n + 3) * x * leg (S n) x - (INR n + 1) * leg n x.
Proof.
  unfold leg at 1. change (leg2 (S (S n)) x) with (let (p1, p2) := leg2 (S n) x in (((2 * INR (S (S n)) - 1) * x * p1 - (INR (S (S n)) - 1) * p2) / INR (S (S n)), p1)).
  rewrite leg2_S. cbn [fst]. rewrite !S_INR. field. pose proof (pos_INR n). lra.
Qed.
Lemma leg_ind2 (Q : nat -> Prop) : Q O -> Q 1%nat -> (forall n, Q n -> Q (S n) -> Q (S (S n))) -> forall n, Q n.
Proof. intros H0 H1 HS n. assert (Q n /\ Q (S n)) as [H _]; [|exact H]. induction n as [|n [IH1 IH2]]; auto. Qed.
Ltac legS n x := let H := fresh "Hr" in pose proof (leg_rec n x) as H; pose proof (pos_INR n).
Lemma leg_at_1 n : leg n 1 = 1.
Proof.
  induction n as [| |n IH1 IH2] using leg_ind2; [apply leg_0|apply leg_1|]. legS n 1. rewrite IH1, IH2 in Hr.
  apply (Rmult_eq_reg_l (INR n + 2)); lra.
Qed.
Lemma leg_parity n x : leg n (- x) = (-1) ^ n * leg n x.
Proof.
  induction n as [| |n IH1 IH2] using leg_ind2; [rewrite !leg_0; cbn; ring|rewrite !leg_1; cbn; ring|].
  apply (Rmult_eq_reg_l (INR n + 2)); [|pose proof (pos_INR n); lra]. rewrite leg_rec, IH1, IH2.
  transitivity ((-1) ^ n * ((INR n + 2) * leg (S (S n)) x)); [|cbn; ring]. rewrite leg_rec. cbn. ring.
Qed.
Lemma leg_pdeg n : pdeg (S n) (leg n).
Proof.
  induction n as [| |n IH1 IH2] using leg_ind2.
  - apply (pdeg_ext _ (fun _ => 1)); [intros; symmetry; apply leg_0|apply pdeg_const].
  - apply (pdeg_ext _ (fun x => x ^ 1)); [intros; rewrite leg_1; ring|apply (pdeg_pow 1)].
  - apply (pdeg_ext _ (fun x => ((2 * INR n + 3) / (INR n + 2)) * (x * leg (S n) x) - ((INR n + 1) / (INR n + 2)) * leg n x)).
    + intros x. legS n x. apply (Rmult_eq_reg_l (INR n + 2)); [|lra]. rewrite Hr. field. lra.
    + apply pdeg_minus; [now apply pdeg_scal, pdeg_x|]. apply pdeg_scal. now do 2 apply pdeg_S.
Qed.
(** the leading coefficient does not vanish *)
Definition plead (n : nat) (f : R -> R) (a : R) : Prop := pdeg n (fun x => f x - a * x ^ n).
Lemma plead_pdeg n f a : plead n f a -> pdeg (S n) f.
Proof.
  intros H. apply (pdeg_ext _ (fun x => (f x - a * x ^ n) + a * x ^ n)); [intros; ring|]. apply pdeg_plus; [now apply pdeg_S|]. apply pdeg_scal, pdeg_pow.
Qed.
Lemma pdeg_lead n : forall f, pdeg (S n) f -> exists b, plead n f b.
Proof.
  induction n as [|n IH]; intros f (c & g & Hg & E).
  - exists c. intros x. rewrite E, Hg. cbn. ring.
  - destruct (IH g Hg) as (b & Hb). exists b. exists c, (fun x => g x - b * x ^ n). split; [exact Hb|]. intros x. rewrite E. cbn. ring.
Qed.
Lemma leg_lead n : exists a, a <> 0 /\ plead n (leg n) a.
Proof.
  induction n as [| |n IH1 IH2] using leg_ind2.
  - exists 1. split; [lra|]. intros x. cbn. unfold leg. cbn. ring.
  - exists 1. split; [lra|]. apply (pdeg_ext _ (fun _ => 0)); [intros; rewrite leg_1; ring|apply pdeg_zero].
  - destruct IH2 as (a & Ha & H). pose proof (pos_INR n) as Hn. exists ((2 * INR n + 3) / (INR n + 2) * a). split.
    { apply Rmult_integral_contrapositive_currified; [|exact Ha]. apply Rgt_not_eq, Rdiv_lt_0_compat; lra. }
    apply (pdeg_ext _ (fun x => ((2 * INR n + 3) / (INR n + 2)) * (x * (leg (S n) x - a * x ^ S n)) - ((INR n + 1) / (INR n + 2)) * leg n x)).
    + intros x. legS n x. assert (E : leg (S (S n)) x = ((2 * INR n + 3) * x * leg (S n) x - (INR n + 1) * leg n x) / (INR n + 2)).
      { apply (Rmult_eq_reg_l (INR n + 2)); [|lra]. rewrite Hr. field. lra. }
      rewrite E. cbn [pow]. field. lra.
    + apply pdeg_minus; [now apply pdeg_scal, pdeg_x|]. apply pdeg_scal, pdeg_S, leg_pdeg.
Qed.

(** derivatives *)
Fixpoint dleg (n : nat) (x : R) : R :=
  match n with
  | O => 0
  | S k => x * dleg k x + (INR k + 1) * leg k x
  end.
Lemma dleg_S n x : dleg (S n) x = x * dleg n x + (INR n + 1) * leg n x. Proof. reflexivity. Qed.
Lemma dleg_prev n x : dleg n x = x * dleg (S n) x - (INR n + 1) * leg (S n) x.
Proof.
  induction n as [|n IH].
  - rewrite leg_1. cbn. unfold leg. cbn. ring.
  - rewrite (dleg_S (S n)), S_INR. legS n x.
    assert (E : (INR n + 1 + 1) * leg (S (S n)) x = (2 * INR n + 3) * x * leg (S n) x - (INR n + 1) * leg n x) by (rewrite <- Hr; ring).
    assert (E2 : dleg (S n) x = x * (x * dleg (S n) x - (INR n + 1) * leg (S n) x) + (INR n + 1) * leg n x) by (rewrite <- IH; apply dleg_S).
    rewrite E. rewrite E2 at 1. ring.
Qed.
Lemma dleg_leg n x : (1 - x ^ 2) * dleg (S n) x = (INR n + 1) * (leg n x - x * leg (S n) x).
Proof. pose proof (dleg_prev n x). pose proof (dleg_S n x). assert (x * dleg n x = x * (x * dleg (S n) x - (INR n + 1) * leg (S n) x)) by congruence. lra. Qed.
Lemma dleg_diff n x : dleg (S (S n)) x - dleg n x = (2 * INR n + 3) * leg (S n) x.
Proof. rewrite (dleg_S (S n)), (dleg_prev n x), S_INR. ring. Qed.
Lemma dleg_rec n x : (INR n + 2) * dleg (S (S n)) x = (2 * INR n + 3) * (leg (S n) x + x * dleg (S n) x) - (INR n + 1) * dleg n x.
Proof. rewrite (dleg_S (S n)), S_INR. pose proof (dleg_prev n x) as E. rewrite E at 1. ring. Qed.
Lemma leg_derive n x : is_derive (leg n) x (dleg n x).
Proof.
  induction n as [| |n IH1 IH2] using leg_ind2.
  - apply (is_derive_ext (fun _ => 1)); [intros; symmetry; apply leg_0|]. apply @is_derive_const.
  - apply (is_derive_ext (fun x => x)); [intros; symmetry; apply leg_1|]. replace (dleg 1 x) with 1 by (cbn; unfold leg; cbn; ring). apply @is_derive_id.
  - pose proof (pos_INR n) as Hn.
    apply (is_derive_ext (fun x => ((2 * INR n + 3) / (INR n + 2)) * (x * leg (S n) x) - ((INR n + 1) / (INR n + 2)) * leg n x)).
    + intros t. legS n t. apply (Rmult_eq_reg_l (INR n + 2)); [|lra]. rewrite Hr. field. lra.
    + assert (E : dleg (S (S n)) x = (2 * INR n + 3) / (INR n + 2) * (1 * leg (S n) x + x * dleg (S n) x) - (INR n + 1) / (INR n + 2) * dleg n x).
      { apply (Rmult_eq_reg_l (INR n + 2)); [|lra]. rewrite dleg_rec. field. lra. }
      rewrite E. apply @is_derive_minus; [|now apply is_derive_scal].
      apply is_derive_scal. apply (is_derive_mult (fun x => x) (leg (S n)) x 1 (dleg (S n) x)); [apply @is_derive_id|exact IH2|]. intros; apply Rmult_comm.
Qed.

(** ** Christoffel-Darboux *)
Definition kern (n : nat) (x y : R) : R := sumn n (fun k => (2 * INR k + 1) * leg k x * leg k y).
Lemma kern_cd n x y : (x - y) * kern (S n) x y = (INR n + 1) * (leg (S n) x * leg n y - leg n x * leg (S n) y).
Proof.
  induction n as [|n IH].
  - unfold kern. cbn [sumn]. rewrite !leg_1, !leg_0. cbn. ring.
  - change (kern (S (S n)) x y) with (kern (S n) x y + (2 * INR (S n) + 1) * leg (S n) x * leg (S n) y).
    rewrite Rmult_plus_distr_l, IH, S_INR. pose proof (leg_rec n x) as Ex. pose proof (leg_rec n y) as Ey.
    transitivity (((INR n + 2) * leg (S (S n)) x) * leg (S n) y - leg (S n) x * ((INR n + 2) * leg (S (S n)) y)); [rewrite Ex, Ey; ring|ring].
Qed.
Lemma kern_diag n x : kern (S n) x x = (INR n + 1) * (dleg (S n) x * leg n x - dleg n x * leg (S n) x).
Proof.
  induction n as [|n IH].
  - unfold kern. cbn [sumn]. rewrite !leg_1, !leg_0. cbn. unfold leg. cbn. ring.
  - change (kern (S (S n)) x x) with (kern (S n) x x + (2 * INR (S n) + 1) * leg (S n) x * leg (S n) x).
    rewrite IH, S_INR. pose proof (leg_rec n x) as E. pose proof (dleg_rec n x) as E'.
    transitivity (((INR n + 2) * dleg (S (S n)) x) * leg (S n) x - dleg (S n) x * ((INR n + 2) * leg (S (S n)) x)); [rewrite E, E'; ring|ring].
Qed.
Lemma kern_pos n x : 1 <= kern (S n) x x.
Proof.
  induction n as [|n IH].
  - unfold kern. cbn [sumn]. rewrite !leg_0. cbn. lra.
  - change (kern (S (S n)) x x) with (kern (S n) x x + (2 * INR (S n) + 1) * leg (S n) x * leg (S n) x).
    pose proof (pos_INR (S n)). pose proof (Rle_0_sqr (leg (S n) x)) as Hs. unfold Rsqr in Hs. nra.
Qed.
Lemma kern_pdeg n y : pdeg n (fun x => kern n x y).
Proof.
  unfold kern. apply pdeg_sumn. intros k Hk. apply (pdeg_ext _ (fun x => ((2 * INR k + 1) * leg k y) * leg k x)); [intros; ring|].
  apply pdeg_scal. apply pdeg_le with (S k); [lia|apply leg_pdeg].
Qed.

(** ** Integration over [-1, 1] *)
Definition J (f : R -> R) : R := RInt f (-1) 1.
Lemma J_ext f g : (forall x, f x = g x) -> J f = J g.
Proof. intros H. apply RInt_ext. auto. Qed.
Lemma J_plus n f g : pdeg n f -> pdeg n g -> J (fun x => f x + g x) = J f + J g.
Proof. intros Hf Hg. apply (RInt_plus f g (-1) 1); eapply pdeg_int; eauto. Qed.
Lemma J_scal n c f : pdeg n f -> J (fun x => c * f x) = c * J f.
Proof. intros Hf. apply (RInt_scal f (-1) 1 c). eapply pdeg_int; eauto. Qed.
Lemma J_minus n f g : pdeg n f -> pdeg n g -> J (fun x => f x - g x) = J f - J g.
Proof. intros Hf Hg. apply (RInt_minus f g (-1) 1); eapply pdeg_int; eauto. Qed.
Lemma J_comb3 n a b d f g h : pdeg n f -> pdeg n g -> pdeg n h -> J (fun x => a * f x + b * g x - d * h x) = a * J f + b * J g - d * J h.
Proof.
  intros Hf Hg Hh. rewrite (J_minus n (fun x => a * f x + b * g x) (fun x => d * h x)), (J_plus n (fun x => a * f x) (fun x => b * g x)), !(J_scal n); auto;
    repeat (apply pdeg_plus || apply pdeg_scal); auto.
Qed.
Lemma J_zero : J (fun _ => 0) = 0.
Proof. unfold J. rewrite RInt_const. unfold scal. cbn. unfold mult. cbn. ring. Qed.
Lemma J_one : J (fun _ => 1) = 2.
Proof. unfold J. rewrite RInt_const. unfold scal. cbn. unfold mult. cbn. ring. Qed.
Lemma J_sumn m n (F : nat -> R -> R) : (forall k, (k < n)%nat -> pdeg m (F k)) -> J (fun x => sumn n (fun k => F k x)) = sumn n (fun k => J (F k)).
Proof.
  induction n as [|n IH]; intros H; cbn [sumn]; [apply J_zero|].
  rewrite (J_plus m) by (auto with arith; apply pdeg_sumn; auto with arith). rewrite IH by auto with arith. reflexivity.
Qed.
Lemma J_leg n : J (leg (S n)) = 0.
Proof.
  pose proof (pos_INR n) as Hn.
  assert (H : is_RInt (fun x => (2 * INR n + 3) * leg (S n) x) (-1) 1 ((leg (S (S n)) 1 - leg n 1) - (leg (S (S n)) (-1) - leg n (-1)))).
  { apply (is_RInt_derive (fun x => leg (S (S n)) x - leg n x)).
    - intros x _. rewrite <- dleg_diff. apply @is_derive_minus; apply leg_derive.
    - intros x _. apply (ex_derive_continuous (K := R_AbsRing) (V := R_NormedModule)). apply (pdeg_derive (S (S n))). apply pdeg_scal, leg_pdeg. }
  apply (is_RInt_unique (V := R_CompleteNormedModule)) in H. fold (J (fun x => (2 * INR n + 3) * leg (S n) x)) in H. rewrite (J_scal (S (S n))) in H by apply leg_pdeg.
  rewrite !leg_at_1 in H. replace (-1) with (- (1)) in H by ring. rewrite !leg_parity, !leg_at_1 in H. cbn [pow] in H.
  apply (Rmult_eq_reg_l (2 * INR n + 3)); [|lra]. rewrite H. ring.
Qed.
Definition JP (m n : nat) : R := J (fun x => leg m x * leg n x).
Lemma leg_mult_pdeg m n : pdeg (S m + n) (fun x => leg m x * leg n x).
Proof. apply pdeg_mult; apply leg_pdeg. Qed.
Lemma JP_sym m n : JP m n = JP n m.
Proof. apply J_ext. intros; ring. Qed.
Lemma leg_x n x : (2 * INR n + 3) * (x * leg (S n) x) = (INR n + 2) * leg (S (S n)) x + (INR n + 1) * leg n x.
Proof. legS n x. lra. Qed.
(** x P_{m} P_{n+1} in two ways *)
Lemma JP_step m n : (INR m + 2) * ((2 * INR n + 3) * JP (S (S m)) (S n)) =
  (2 * INR m + 3) * ((INR n + 2) * JP (S m) (S (S n)) + (INR n + 1) * JP (S m) n) - (INR m + 1) * ((2 * INR n + 3) * JP m (S n)).
Proof.
  set (K := (S m + n + 6)%nat).
  assert (Hp : forall a b, (a <= m + 2)%nat -> (b <= n + 2)%nat -> pdeg K (fun x => leg a x * leg b x)).
  { intros a b Ha Hb. eapply pdeg_le; [|apply leg_mult_pdeg]. unfold K. lia. }
  assert (E0 := J_scal K ((INR m + 2) * (2 * INR n + 3)) _ (Hp (S (S m)) (S n) ltac:(lia) ltac:(lia))).
  assert (E1 := J_comb3 K ((2 * INR m + 3) * (INR n + 2)) ((2 * INR m + 3) * (INR n + 1)) ((INR m + 1) * (2 * INR n + 3)) _ _ _
    (Hp (S m) (S (S n)) ltac:(lia) ltac:(lia)) (Hp (S m) n ltac:(lia) ltac:(lia)) (Hp m (S n) ltac:(lia) ltac:(lia))).
  fold (JP (S (S m)) (S n)) in E0. fold (JP (S m) (S (S n))) (JP (S m) n) (JP m (S n)) in E1.
  rewrite <- Rmult_assoc, <- E0. transitivity ((2 * INR m + 3) * (INR n + 2) * JP (S m) (S (S n)) + (2 * INR m + 3) * (INR n + 1) * JP (S m) n - (INR m + 1) * (2 * INR n + 3) * JP m (S n)); [|ring].
  rewrite <- E1. apply J_ext. intros x. pose proof (leg_rec m x) as E. pose proof (leg_x n x) as E'.
  transitivity ((2 * INR n + 3) * leg (S n) x * ((INR m + 2) * leg (S (S m)) x)); [ring|]. rewrite E.
  transitivity ((2 * INR m + 3) * leg (S m) x * ((2 * INR n + 3) * (x * leg (S n) x)) - (INR m + 1) * leg m x * (2 * INR n + 3) * leg (S n) x); [ring|].
  rewrite E'. ring.
Qed.
Lemma JP_0 n : JP 0 (S n) = 0.
Proof. unfold JP. rewrite <- (J_leg n). apply J_ext. intros x. rewrite leg_0. ring. Qed.
Lemma JP_1 n : JP 1 (S (S n)) = 0.
Proof.
  unfold JP. pose proof (pos_INR n) as Hn. pose proof (pos_INR (S n)) as Hn'.
  apply (Rmult_eq_reg_l (2 * INR (S n) + 3)); [|lra]. rewrite <- (J_scal (2 + S (S n))) by apply (leg_mult_pdeg 1).
  rewrite (J_ext _ (fun x => (INR (S n) + 2) * leg (S (S (S n))) x + (INR (S n) + 1) * leg (S n) x)) by (intros x; rewrite leg_1; apply leg_x).
  rewrite (J_plus (S (S (S (S n))))) by (apply pdeg_scal; first [apply leg_pdeg|do 2 apply pdeg_S; apply leg_pdeg]).
  rewrite !(J_scal (S (S (S (S n))))) by (first [apply leg_pdeg|do 2 apply pdeg_S; apply leg_pdeg]). rewrite !J_leg. ring.
Qed.
Lemma JP_lt m : forall n, (m < n)%nat -> JP m n = 0.
Proof.
  induction m as [| |m IH1 IH2] using leg_ind2; intros n Hn.
  - destruct n as [|n]; [lia|apply JP_0].
  - destruct n as [|[|n]]; [lia|lia|apply JP_1].
  - destruct n as [|n]; [lia|]. pose proof (JP_step m n) as H. rewrite (IH2 (S (S n))), (IH2 n), (IH1 (S n)) in H by lia.
    pose proof (pos_INR m). pose proof (pos_INR n). apply (Rmult_eq_reg_l ((INR m + 2) * (2 * INR n + 3))); [|nra]. lra.
Qed.
Lemma JP_neq m n : m <> n -> JP m n = 0.
Proof. intros H. destruct (Nat.lt_ge_cases m n); [now apply JP_lt|]. rewrite JP_sym. apply JP_lt. lia. Qed.
Lemma JP_diag n : JP n n = 2 / (2 * INR n + 1).
Proof.
  induction n as [|n IH].
  - unfold JP. rewrite (J_ext _ (fun _ => 1)) by (intros; rewrite leg_0; ring). rewrite J_one. cbn. field.
  - pose proof (pos_INR n) as Hn. destruct n as [|n].
    + unfold JP. assert (E : J (fun x => 3 * (x * leg 1 x)) = J (fun x => 2 * leg 2 x + leg 0 x)).
      { apply J_ext. intros x. pose proof (leg_x 0 x) as E. cbn [INR] in E. lra. }
      rewrite (J_ext _ (fun x => 3 * (leg 1 x * leg 1 x))) in E by (intros; rewrite !leg_1; ring).
      rewrite (J_scal 3) in E by apply (leg_mult_pdeg 1 1). rewrite (J_plus 3) in E by (first [apply pdeg_scal, leg_pdeg|do 2 apply pdeg_S; apply leg_pdeg]).
      rewrite (J_scal 3) in E by apply leg_pdeg. rewrite J_leg in E. rewrite (J_ext (leg 0) (fun _ => 1)), J_one in E by (intros; apply leg_0). replace (2 * INR 1 + 1) with 3 by (cbn; ring). lra.
    + pose proof (pos_INR n) as Hp. pose proof (JP_step n (S n)) as H. rewrite (JP_neq (S n) (S (S (S n)))) in H by lia. rewrite (JP_neq n (S (S n))) in H by lia. rewrite IH in H.
      rewrite !S_INR in *. apply (Rmult_eq_reg_l ((INR n + 2) * (2 * (INR n + 1) + 3))); [|nra]. rewrite Rmult_assoc, H. field. lra.
Qed.
Lemma J_kern n y : J (fun x => kern (S n) x y) = 2.
Proof.
  unfold kern. rewrite (J_sumn (S n)).
  - rewrite (sumn_one _ _ O); [|lia|].
    + rewrite (J_ext _ (fun x => 1)); [apply J_one|]. intros x. rewrite !leg_0. cbn. ring.
    + intros k Hk Hk0. destruct k as [|k]; [lia|].
      rewrite (J_ext _ (fun x => ((2 * INR (S k) + 1) * leg (S k) y) * leg (S k) x)) by (intros; ring).
      rewrite (J_scal (S (S k))), J_leg by apply leg_pdeg. ring.
  - intros k Hk. apply (pdeg_ext _ (fun x => ((2 * INR k + 1) * leg k y) * leg k x)); [intros; ring|].
    apply pdeg_scal. apply pdeg_le with (S k); [lia|apply leg_pdeg].
Qed.
(** P_n is orthogonal to the polynomials of smaller degree *)
Lemma pdeg_expand n : forall f, pdeg n f -> exists c, forall x, f x = sumn n (fun k => c k * leg k x).
Proof.
  induction n as [|n IH]; intros f Hf.
  - exists (fun _ => 0). exact Hf.
  - destruct (pdeg_lead n f Hf) as (b & Hb).
    destruct (leg_lead n) as (a & Ha & Hl).
    destruct (IH (fun x => f x - b / a * leg n x)) as (c & Hc).
    { apply (pdeg_ext _ (fun x => (f x - b * x ^ n) - b / a * (leg n x - a * x ^ n))); [intros; field; exact Ha|]. apply pdeg_minus; [exact Hb|now apply pdeg_scal]. }
    exists (fun k => if Nat.eqb k n then b / a else c k). intros x. cbn [sumn]. rewrite Nat.eqb_refl.
    rewrite (sumn_ext n _ (fun k => c k * leg k x)); [|intros k Hk; destruct (Nat.eqb_spec k n); [lia|reflexivity]]. rewrite <- Hc. ring.
Qed.
Lemma J_orth n f : pdeg n f -> J (fun x => f x * leg n x) = 0.
Proof.
  intros Hf. destruct (pdeg_expand n f Hf) as (c & E).
  rewrite (J_ext _ (fun x => sumn n (fun k => c k * (leg k x * leg n x)))).
  - rewrite (J_sumn (S n + n)).
    + apply sumn_0. intros k Hk. rewrite (J_scal (S k + n)) by apply leg_mult_pdeg. fold (JP k n). rewrite JP_lt by lia. ring.
    + intros k Hk. apply pdeg_scal. eapply pdeg_le; [|apply leg_mult_pdeg]. lia.
  - intros x. rewrite E, Rmult_comm, <- sumn_scal. apply sumn_ext. intros; ring.
Qed.
Lemma J_square_0 n f : pdeg n f -> J (fun x => f x * f x) = 0 -> forall x, f x = 0.
Proof.
  intros Hf H0. destruct (pdeg_expand n f Hf) as (c & E).
  assert (HJ : J (fun x => f x * f x) = sumn n (fun k => c k * c k * JP k k)).
  { rewrite (J_ext _ (fun x => sumn n (fun k => c k * (leg k x * f x)))).
    - rewrite (J_sumn (n + n)).
      + apply sumn_ext. intros k Hk. rewrite (J_scal (S k + n)) by (apply pdeg_mult; [apply leg_pdeg|now apply pdeg_S]).
        rewrite Rmult_assoc. f_equal.
        rewrite (J_ext _ (fun x => sumn n (fun j => c j * (leg k x * leg j x)))).
        * rewrite (J_sumn (S k + n)).
          -- rewrite (sumn_one n _ k) by (auto; intros j Hj Hjk; rewrite (J_scal (S k + j)) by apply leg_mult_pdeg; fold (JP k j); rewrite JP_neq by lia; ring).
             rewrite (J_scal (S k + k)) by apply leg_mult_pdeg. reflexivity.
          -- intros j Hj. apply pdeg_scal. eapply pdeg_le; [|apply leg_mult_pdeg]. lia.
        * intros x. rewrite E, <- sumn_scal. apply sumn_ext. intros; ring.
      + intros k Hk. apply pdeg_scal. apply pdeg_le with (S k + n)%nat; [lia|]. apply pdeg_mult; [apply leg_pdeg|now apply pdeg_S].
    - intros x. rewrite (E x) at 1. rewrite Rmult_comm, <- sumn_scal. apply sumn_ext. intros; ring. }
  rewrite H0 in HJ.
  assert (Hc : forall k, (k < n)%nat -> c k = 0).
  { clear - HJ. 
    assert (Hnn : forall m, 0 <= sumn m (fun k => c k * c k * JP k k)).
    { induction m as [|m IH]; cbn [sumn]; [lra|]. rewrite JP_diag. pose proof (pos_INR m). assert (0 < 2 / (2 * INR m + 1)) by (apply Rdiv_lt_0_compat; lra).
      pose proof (Rle_0_sqr (c m)) as Hs. unfold Rsqr in Hs. nra. }
    induction n as [|n IH]; intros k Hk; [lia|]. cbn [sumn] in HJ. specialize (Hnn n).
    pose proof (pos_INR n). assert (0 < JP n n) by (rewrite JP_diag; apply Rdiv_lt_0_compat; lra). pose proof (Rle_0_sqr (c n)) as Hs. unfold Rsqr in Hs.
    assert (0 <= c n * c n * JP n n) by nra. destruct (Nat.eq_dec k n) as [->|Hkn].
    - assert (Hz : c n * c n * JP n n = 0) by lra. apply Rmult_integral in Hz. destruct Hz as [Hz|Hz]; [|lra]. apply Rmult_integral in Hz. tauto.
    - apply IH; [lra|lia]. }
  intros x. rewrite E. apply sumn_0. intros k Hk. rewrite Hc by auto. ring.
Qed.

(** ** Roots *)
Lemma prodn_sign n r x : forall k, (k <= n)%nat -> (forall j, (j < k)%nat -> r j < x) -> (forall j, (k <= j < n)%nat -> x < r j) ->
  0 < (-1) ^ (n - k) * prodn n (fun j => x - r j).
Proof.
  induction n as [|n IH]; intros k Hk Hlo Hhi; [cbn; lra|]. cbn [prodn]. destruct (Nat.eq_dec k (S n)) as [->|Hn].
  - specialize (IH n ltac:(lia) ltac:(auto with arith) ltac:(intros; lia)). rewrite Nat.sub_diag in *. cbn [pow] in *. specialize (Hlo n ltac:(lia)). nra.
  - specialize (IH k ltac:(lia) Hlo ltac:(intros; apply Hhi; lia)). specialize (Hhi n ltac:(lia)).
    replace (S n - k)%nat with (S (n - k)) by lia. cbn [pow]. nra.
Qed.
Definition gl_roots (n : nat) (r : nat -> R) : Prop :=
  (forall k, (k < n)%nat -> -1 < r k < 1) /\ (forall i j, (i < j < n)%nat -> r i < r j) /\ (forall k, (k < n)%nat -> leg n (r k) = 0).
Lemma roots_factor n r : gl_roots n r -> exists c, 0 < c /\ forall x, leg n x = c * prodn n (fun k => x - r k).
Proof.
  intros (Hb & Hi & H0). destruct (pdeg_factor n r (leg n) (leg_pdeg n)) as (c & E); [|exact H0|].
  - intros i j Hij. specialize (Hi i j Hij). lra.
  - exists c. split; [|exact E]. pose proof (E 1) as E1. rewrite leg_at_1 in E1.
    pose proof (prodn_sign n r 1 n ltac:(lia) ltac:(intros; apply Hb; lia) ltac:(intros; lia)) as Hs. rewrite Nat.sub_diag in Hs. cbn [pow] in Hs. nra.
Qed.
Lemma root_between f x y : continuity f -> x < y -> f x < 0 -> 0 < f y -> exists z, x < z < y /\ f z = 0.
Proof.
  intros Hc Hxy Hx Hy. destruct (IVT f x y Hc Hxy Hx Hy) as (z & Hz & E). exists z. split; [|exact E].
  assert (z <> x) by (intros ->; lra). assert (z <> y) by (intros ->; lra). lra.
Qed.
Lemma roots_exist_S n : exists r, gl_roots (S n) r /\ forall k, (k <= n)%nat -> 0 < (-1) ^ (n - k) * leg n (r k).
Proof.
  induction n as [|n (r & Hr & Hsg)].
  - exists (fun _ => 0). split; [split; [|split]|].
    + intros. lra.
    + intros. lia.
    + intros. apply leg_1.
    + intros k Hk. replace k with O by lia. rewrite leg_0. cbn. lra.
  - pose proof Hr as (Hb & Hi & H0). pose proof (pos_INR n) as Hn.
    set (e := fun k => if Nat.eqb k 0 then -1 else if Nat.leb k (S n) then r (k - 1)%nat else 1).
    assert (Hlt : forall k, (k < S (S n))%nat -> e k < e (S k)).
    { intros k Hk. unfold e. destruct (Nat.eqb_spec k 0) as [->|Hk0].
      - cbn. apply Hb. lia.
      - replace (Nat.eqb (S k) 0) with false by reflexivity. replace (Nat.leb k (S n)) with true by (symmetry; apply Nat.leb_le; lia).
        destruct (Nat.leb_spec (S k) (S n)); [replace (S k - 1)%nat with k by lia; apply Hi; lia|apply Hb; lia]. }
    assert (Hse : forall k, (k <= S (S n))%nat -> 0 < (-1) ^ (S (S n) - k) * leg (S (S n)) (e k)).
    { intros k Hk. unfold e. destruct (Nat.eqb_spec k 0) as [->|Hk0].
      - replace (-1) with (- (1)) at 2 by ring. rewrite leg_parity, leg_at_1, Rmult_1_r, Nat.sub_0_r, <- Rpow_mult_distr.
        replace (-1 * -1) with 1 by ring. rewrite pow1. lra.
      - destruct (Nat.leb_spec k (S n)) as [Hle|Hgt].
        + specialize (Hsg (k - 1)%nat ltac:(lia)). pose proof (leg_rec n (r (k - 1)%nat)) as E. rewrite (H0 (k - 1)%nat) in E by lia.
          replace (S (S n) - k)%nat with (S (n - (k - 1))) by lia. cbn [pow].
          apply (Rmult_lt_reg_l (INR n + 2)); [lra|]. rewrite Rmult_0_r.
          replace ((INR n + 2) * (-1 * (-1) ^ (n - (k - 1)) * leg (S (S n)) (r (k - 1)%nat))) with (- (-1) ^ (n - (k - 1)) * ((INR n + 2) * leg (S (S n)) (r (k - 1)%nat))) by ring.
          rewrite E. replace (- (-1) ^ (n - (k - 1)) * ((2 * INR n + 3) * r (k - 1)%nat * 0 - (INR n + 1) * leg n (r (k - 1)%nat)))
            with ((INR n + 1) * ((-1) ^ (n - (k - 1)) * leg n (r (k - 1)%nat))) by ring. apply Rmult_lt_0_compat; lra.
        + replace k with (S (S n)) by lia. rewrite Nat.sub_diag, leg_at_1. cbn. lra. }
    assert (Hex : forall k, (k < S (S n))%nat -> exists z, e k < z < e (S k) /\ leg (S (S n)) z = 0).
    { intros k Hk. destruct (root_between (fun x => (-1) ^ (S (S n) - S k) * leg (S (S n)) x) (e k) (e (S k))) as (z & Hz & E).
      - apply (pdeg_continuity (S (S (S n)))), pdeg_scal, leg_pdeg.
      - now apply Hlt.
      - specialize (Hse k ltac:(lia)). replace (S (S n) - k)%nat with (S (S (S n) - S k)) in Hse by lia. cbn [pow] in Hse. lra.
      - apply (Hse (S k)). lia.
      - exists z. split; [exact Hz|]. apply Rmult_integral in E. destruct E as [E|E]; [|exact E]. exfalso. revert E. apply pow_nonzero. lra. }
    destruct (finite_choice 0 _ _ Hex) as (s & Hs).
    assert (Hinc : forall i j, (i <= j <= S (S n))%nat -> e i <= e j).
    { intros i j (H1 & H2). induction H1 as [|j H1 IH]; [lra|]. specialize (IH ltac:(lia)). specialize (Hlt j ltac:(lia)). lra. }
    assert (Hss : forall i j, (i < j < S (S n))%nat -> s i < s j).
    { intros i j Hij. pose proof (Hs i ltac:(lia)) as (A & _). pose proof (Hs j ltac:(lia)) as (B & _). pose proof (Hinc (S i) j ltac:(lia)). lra. }
    exists s. split; [split; [|split]|].
    + intros k Hk. destruct (Hs k Hk) as (A & _). pose proof (Hinc O k ltac:(lia)). pose proof (Hinc (S k) (S (S n)) ltac:(lia)) as Hu.
      change (e O) with (-1) in *. unfold e in Hu at 2. cbn [Nat.eqb] in Hu. replace (Nat.leb (S (S n)) (S n)) with false in Hu by (symmetry; apply Nat.leb_gt; lia). lra.
    + exact Hss.
    + intros k Hk. apply (Hs k Hk).
    + intros k Hk. destruct (roots_factor (S n) r Hr) as (c & Hc & E). rewrite E.
      pose proof (prodn_sign (S n) r (s k) k Hk) as Hp. destruct (Hs k ltac:(lia)) as (A & _).
      assert (0 < (-1) ^ (S n - k) * prodn (S n) (fun j => s k - r j)); [|nra]. apply Hp.
      * intros j Hj. assert (Ee : e (S j) = r j) by (unfold e; cbn [Nat.eqb]; replace (Nat.leb (S j) (S n)) with true by (symmetry; apply Nat.leb_le; lia); f_equal; lia).
        pose proof (Hinc (S j) k ltac:(lia)). lra.
      * intros j Hj. assert (Ee : e (S j) = r j) by (unfold e; cbn [Nat.eqb]; replace (Nat.leb (S j) (S n)) with true by (symmetry; apply Nat.leb_le; lia); f_equal; lia).
        pose proof (Hinc (S k) (S j) ltac:(lia)). lra.
Qed.

(** ** The rule *)
Definition rule (n : nat) (w r : nat -> R) (f : R -> R) : R := sumn n (fun i => w i * f (r i)).
Definition gl_weight (n : nat) (x : R) : R := 2 / kern n x x.
Lemma kern_roots n r i j : gl_roots (S n) r -> (i < S n)%nat -> (j < S n)%nat -> i <> j -> kern (S n) (r j) (r i) = 0.
Proof.
  intros (Hb & Hi & H0) H1 H2 Hij. pose proof (kern_cd n (r j) (r i)) as E. rewrite (H0 i), (H0 j) in E by auto.
  assert (r j - r i <> 0). { destruct (Nat.lt_ge_cases i j); [specialize (Hi i j ltac:(lia)); lra|specialize (Hi j i ltac:(lia)); lra]. }
  assert (E' : (r j - r i) * kern (S n) (r j) (r i) = 0) by (rewrite E; ring). apply Rmult_integral in E'. tauto.
Qed.
Lemma lagrange n r f : gl_roots (S n) r -> pdeg (S n) f -> forall x, f x = sumn (S n) (fun i => f (r i) / kern (S n) (r i) (r i) * kern (S n) x (r i)).
Proof.
  intros Hr Hf x. pose proof Hr as (Hb & Hi & H0).
  assert (H : forall y, f y - sumn (S n) (fun i => f (r i) / kern (S n) (r i) (r i) * kern (S n) y (r i)) = 0); [|specialize (H x); lra].
  apply (pdeg_zeros (S n) r).
  - apply pdeg_minus; [exact Hf|]. apply pdeg_sumn. intros k Hk. apply pdeg_scal, kern_pdeg.
  - intros i j Hij. specialize (Hi i j Hij). lra.
  - intros k Hk. rewrite (sumn_one _ _ k Hk).
    + field. pose proof (kern_pos n (r k)). lra.
    + intros j Hj Hjk. rewrite (kern_roots n r j k) by auto. ring.
Qed.
Lemma rule_low n r f : gl_roots (S n) r -> pdeg (S n) f -> J f = rule (S n) (fun i => gl_weight (S n) (r i)) r f.
Proof.
  intros Hr Hf. rewrite (J_ext f _ (lagrange n r f Hr Hf)). rewrite (J_sumn (S n)) by (intros; apply pdeg_scal, kern_pdeg).
  unfold rule. apply sumn_ext. intros k Hk. rewrite (J_scal (S n)) by apply kern_pdeg. rewrite J_kern. unfold gl_weight. field. pose proof (kern_pos n (r k)). lra.
Qed.
Lemma pdeg_euclid n m : forall f, pdeg (m + S n) f -> exists q g, pdeg m q /\ pdeg (S n) g /\ forall x, f x = q x * leg (S n) x + g x.
Proof.
  induction m as [|m IH]; intros f Hf.
  - exists (fun _ => 0), f. split; [apply pdeg_zero|]. split; [exact Hf|]. intros; ring.
  - cbn [Nat.add] in Hf. destruct (pdeg_lead _ f Hf) as (b & Hb). destruct (leg_lead (S n)) as (a & Ha & Hl).
    destruct (IH (fun x => f x - b / a * (x ^ m * leg (S n) x))) as (q & g & Hq & Hg & E).
    { apply (pdeg_ext _ (fun x => (f x - b * x ^ (m + S n)) - b / a * (x ^ m * (leg (S n) x - a * x ^ S n)))).
      - intros x. rewrite pow_add. field. exact Ha.
      - apply pdeg_minus; [exact Hb|]. apply pdeg_scal. apply pdeg_le with (S m + n)%nat; [lia|]. apply pdeg_mult; [apply pdeg_pow|exact Hl]. }
    exists (fun x => q x + b / a * x ^ m), g. split; [apply pdeg_plus; [now apply pdeg_S|apply pdeg_scal, pdeg_pow]|]. split; [exact Hg|].
    intros x. specialize (E x). lra.
Qed.
Lemma rule_exact n r f : gl_roots (S n) r -> pdeg (S n + S n) f -> J f = rule (S n) (fun i => gl_weight (S n) (r i)) r f.
Proof.
  intros Hr Hf. destruct (pdeg_euclid n (S n) f Hf) as (q & g & Hq & Hg & E).
  assert (Hm : pdeg (S n + S n) (fun x => q x * leg (S n) x)) by (apply pdeg_mult; [exact Hq|apply leg_pdeg]).
  assert (Hg2 : pdeg (S n + S n) g) by (apply (pdeg_le (S n)); [lia|exact Hg]).
  rewrite (J_ext _ _ E), (J_plus (S n + S n)) by auto. rewrite (J_orth (S n) q Hq), (rule_low n r g Hr Hg), Rplus_0_l.
  apply sumn_ext. intros k Hk. rewrite E. destruct Hr as (_ & _ & H0). rewrite (H0 k Hk). ring.
Qed.
Lemma kern_root n x : leg (S n) x = 0 -> kern (S n) x x = (1 - x ^ 2) * dleg (S n) x ^ 2.
Proof. intros H. rewrite kern_diag, H. pose proof (dleg_leg n x) as E. rewrite H in E. transitivity (((INR n + 1) * (leg n x - x * 0)) * dleg (S n) x); [ring|]. rewrite <- E. ring. Qed.

(** ** Uniqueness *)
Lemma pdeg_coeffs n : forall f, pdeg n f -> exists a, forall x, f x = sumn n (fun j => a j * x ^ j).
Proof.
  induction n as [|n IH]; intros f Hf; [exists (fun _ => 0); exact Hf|].
  destruct (pdeg_lead n f Hf) as (b & Hb). destruct (IH _ Hb) as (a & E). exists (fun k => if Nat.eqb k n then b else a k). intros x. cbn [sumn]. rewrite Nat.eqb_refl.
  rewrite (sumn_ext n _ (fun k => a k * x ^ k)); [|intros k Hk; destruct (Nat.eqb_spec k n); [lia|reflexivity]]. rewrite <- E. ring.
Qed.
Lemma rule_poly N n w r : (forall j, (j < N)%nat -> rule n w r (fun x => x ^ j) = J (fun x => x ^ j)) -> forall f, pdeg N f -> rule n w r f = J f.
Proof.
  intros H f Hf. destruct (pdeg_coeffs N f Hf) as (a & E). rewrite (J_ext _ _ E).
  rewrite (J_sumn N N (fun j x => a j * x ^ j)) by (intros k Hk; apply pdeg_scal; apply (pdeg_le (S k)); [lia|apply pdeg_pow]).
  unfold rule. rewrite (sumn_ext n _ (fun i => sumn N (fun j => a j * (w i * r i ^ j)))).
  - transitivity (sumn N (fun j => a j * rule n w r (fun x => x ^ j))).
    + clear. unfold rule. induction n as [|n IH]; cbn [sumn].
      * symmetry. apply sumn_0. intros; ring.
      * rewrite IH, <- sumn_plus. apply sumn_ext. intros; ring.
    + apply sumn_ext. intros j Hj. rewrite H by auto. symmetry. apply (J_scal (S j)), pdeg_pow.
  - intros i Hi. rewrite E, <- sumn_scal. apply sumn_ext. intros; ring.
Qed.
Lemma prodn_root n r k : (k < n)%nat -> prodn n (fun j => r k - r j) = 0.
Proof. induction n as [|n IH]; intros Hk; [lia|]. cbn [prodn]. destruct (Nat.eq_dec k n) as [->|Hn]; [rewrite Rminus_diag_eq by auto; ring|]. rewrite IH by lia. ring. Qed.
Lemma prodn_lead n r : plead n (fun x => prodn n (fun k => x - r k)) 1.
Proof.
  induction n as [|n IH].
  - intros x. cbn. ring.
  - unfold plead in *. cbn [prodn pow]. apply (pdeg_ext _ (fun x => (x - r n) * (prodn n (fun k => x - r k) - 1 * x ^ n) - r n * x ^ n)); [intros; ring|].
    apply pdeg_minus; [now apply pdeg_lin|]. apply pdeg_scal, pdeg_pow.
Qed.
Lemma rule_unique n w r : (forall f, pdeg (S n + S n) f -> rule (S n) w r f = J f) -> (forall k, (k < S n)%nat -> -1 < r k < 1) ->
  (forall i j, (i < j < S n)%nat -> r i < r j) -> gl_roots (S n) r /\ forall k, (k < S n)%nat -> w k = gl_weight (S n) (r k).
Proof.
  intros He Hb Hi. set (Nf := fun x => prodn (S n) (fun k => x - r k)). destruct (leg_lead (S n)) as (a & Ha & Hl).
  set (h := fun x => Nf x - / a * leg (S n) x).
  assert (Hh : pdeg (S n) h).
  { apply (pdeg_ext _ (fun x => (Nf x - 1 * x ^ S n) - / a * (leg (S n) x - a * x ^ S n))); [intros; unfold h; field; exact Ha|].
    apply pdeg_minus; [apply prodn_lead|now apply pdeg_scal]. }
  assert (HN : pdeg (S (S n)) Nf) by apply pdeg_prodn.
  assert (H0 : J (fun x => h x * h x) = 0).
  { rewrite (J_ext _ (fun x => h x * Nf x - / a * (h x * leg (S n) x))) by (intros; unfold h at 2; ring).
    assert (P1 : pdeg (S n + S n) (fun x => h x * Nf x)) by (apply pdeg_mult; auto).
    assert (P2 : pdeg (S n + S n) (fun x => h x * leg (S n) x)) by (apply pdeg_mult; [auto|apply leg_pdeg]).
    rewrite (J_minus (S n + S n)) by (auto; now apply pdeg_scal). rewrite (J_scal (S n + S n)) by auto. rewrite (J_orth (S n) h Hh).
    rewrite <- (He _ P1). unfold rule. rewrite sumn_0; [ring|]. intros k Hk. unfold Nf. rewrite prodn_root by exact Hk. ring. }
  pose proof (J_square_0 (S n) h Hh H0) as Hz.
  assert (Hroots : gl_roots (S n) r).
  { split; [exact Hb|]. split; [exact Hi|]. intros k Hk. specialize (Hz (r k)). unfold h, Nf in Hz. rewrite prodn_root in Hz by exact Hk.
    apply (Rmult_eq_reg_l (/ a)); [|now apply Rinv_neq_0_compat]. lra. }
  split; [exact Hroots|]. intros k Hk.
  pose proof (He (fun x => kern (S n) x (r k)) ltac:(apply (pdeg_le (S n)); [lia|apply kern_pdeg])) as E. rewrite J_kern in E. unfold rule in E.
  rewrite (sumn_one _ _ k Hk) in E by (intros j Hj Hjk; rewrite (kern_roots n r k j) by auto; ring).
  unfold gl_weight. rewrite <- E. field. pose proof (kern_pos n (r k)). lra.
Qed.
