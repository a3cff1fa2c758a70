(** The range of the Gauss-Legendre weights. *)
From Coq Require Import Reals Lra Lia ZifyBool Arith.
From Coquelicot Require Import Coquelicot.
From Verif Require Import Lib.Py Lib.PyFacts Lib.Vec Lib.VecFacts Lib.Sums Spec.QuadSpec Proofs.Legendre Proofs.LegendreZeros Proofs.GaussProofs.
Open Scope R_scope.

(** ** Legendre polynomials are at most 1: P^2 + (1 - x^2) P'^2 / (n (n + 1)) increases from 0 to 1 *)
Definition energy (n : nat) (x : R) : R := leg (S n) x ^ 2 + (1 - x ^ 2) * dleg (S n) x ^ 2 / lam n.
Lemma energy_derive n x : -1 < x < 1 -> is_derive (energy n) x (2 * x * dleg (S n) x ^ 2 / lam n).
Proof.
  intros Hx. pose proof (lam_pos n) as Hl. pose proof (leg_derive (S n) x) as D1. pose proof (dleg_derive n x Hx) as D2.
  unfold energy, d2leg in *. revert D1 D2. generalize (leg (S n)) (dleg (S n)). intros f g D1 D2.
  assert (E1 : Derive f x = g x) by now apply is_derive_unique. assert (E2 := is_derive_unique _ _ _ D2).
  auto_derive.
  - split; [eexists; exact D1|]. split; [eexists; exact D2|exact I].
  - change (Derive (fun x0 => f x0) x) with (Derive f x). change (Derive (fun x0 => g x0) x) with (Derive g x).
    rewrite E1, E2. field. split; [lra|nra].
Qed.
Lemma energy_cont n x : continuous (energy n) x.
Proof.
  apply (ex_derive_continuous (energy n)). unfold energy. pose proof (lam_pos n).
  assert (ex_derive (leg (S n)) x) by (eexists; apply leg_derive). assert (ex_derive (dleg (S n)) x) by exact (pdeg_derive (S n) _ (dleg_pdeg (S n)) x).
  revert H0 H1. generalize (leg (S n)) (dleg (S n)). intros f g D1 D2. auto_derive. repeat split; auto.
Qed.
Lemma energy_le n x : 0 <= x <= 1 -> energy n x <= 1.
Proof.
  intros Hx. assert (E : energy n 1 = 1) by (unfold energy; rewrite leg_at_1; field; pose proof (lam_pos n); lra). rewrite <- E.
  destruct (Req_dec x 1) as [->|Hn]; [lra|].
  destruct (MVT_gen (energy n) x 1 (fun y => 2 * y * dleg (S n) y ^ 2 / lam n)) as (y & Hy & Hd).
  - intros y Hy. rewrite Rmin_left, Rmax_right in Hy by lra. apply energy_derive. lra.
  - intros y Hy. apply continuity_pt_filterlim. apply energy_cont.
  - rewrite Rmin_left, Rmax_right in Hy by lra. assert (0 <= 2 * y * dleg (S n) y ^ 2 / lam n).
    { apply Rmult_le_pos; [apply Rmult_le_pos; [lra|apply pow2_ge_0]|]. left. apply Rinv_0_lt_compat. pose proof (lam_pos n). lra. }
    nra.
Qed.
Lemma leg_sq_le n x : -1 <= x <= 1 -> leg n x * leg n x <= 1.
Proof.
  intros Hx. destruct n as [|n]; [rewrite leg_0; lra|].
  assert (P : forall y, 0 <= y <= 1 -> leg (S n) y * leg (S n) y <= 1).
  { intros y Hy. pose proof (energy_le n y Hy) as H. unfold energy in H. assert (0 <= (1 - y ^ 2) * dleg (S n) y ^ 2 / lam n).
    { apply Rmult_le_pos; [apply Rmult_le_pos; [nra|apply pow2_ge_0]|]. left. apply Rinv_0_lt_compat. pose proof (lam_pos n). lra. }
    nra. }
  destruct (Rle_dec 0 x) as [H0|H0]; [apply P; lra|]. specialize (P (- x) ltac:(lra)). rewrite leg_parity in P.
  replace ((-1) ^ S n * leg (S n) x * ((-1) ^ S n * leg (S n) x)) with ((((-1) ^ S n) ^ 2) * (leg (S n) x * leg (S n) x)) in P by ring.
  rewrite <- pow_mult, Nat.mul_comm, pow_mult in P. replace ((-1) ^ 2) with 1 in P by ring. rewrite pow1 in P. lra.
Qed.
Lemma kern_le n x : -1 <= x <= 1 -> kern n x x <= INR n * INR n.
Proof.
  intros Hx. induction n as [|n IH]; [unfold kern; cbn; lra|].
  change (kern (S n) x x) with (kern n x x + (2 * INR n + 1) * leg n x * leg n x). rewrite S_INR.
  pose proof (leg_sq_le n x Hx). pose proof (pos_INR n). rewrite Rmult_assoc. nra.
Qed.

Lemma gauss_range L x w i : gauss_legendre L x w -> (0 <= i < L)%Z -> 2 / (IZR L * IZR L) <= vat w i <= 2.
Proof.
  intros HG Hi. destruct (of_nat_S L ltac:(lia)) as (n & ->). destruct (gauss_sequences n x w HG) as [_ Hw]. rewrite Hw by exact Hi.
  destruct HG as (_ & _ & Hb & _). specialize (Hb (Z.of_nat (S n) - 1 - i)%Z ltac:(lia)). set (y := vat x _) in *. unfold gl_weight.
  pose proof (kern_pos n y) as K1. pose proof (kern_le (S n) y ltac:(lra)) as K2. rewrite <- INR_IZR_INZ. split.
  - apply Rmult_le_compat_l; [lra|]. apply Rinv_le_contravar; lra.
  - apply Rle_trans with (2 * / 1); [|lra]. apply Rmult_le_compat_l; [lra|]. apply Rinv_le_contravar; lra.
Qed.
