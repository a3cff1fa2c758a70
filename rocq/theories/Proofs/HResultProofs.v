From Coq Require Import ZArith List Lia.
From Verif Require Import Model.HResult.
Import ListNotations.
Open Scope Z_scope.

Lemma succeeded_iff_not_failed w hr : SUCCEEDED w hr = negb (FAILED w hr).
Proof. unfold SUCCEEDED, FAILED. lia. Qed.
Lemma codes_32 lit : In lit error_literals ->
  FAILED 32 (error_code 32 lit) = true /\ SUCCEEDED 32 (error_code 32 lit) = false.
Proof. cbn. intros H. repeat destruct H as [<-|H]; try (split; reflexivity). destruct H. Qed.
Lemma to_long_small w z : 1 <= w -> 0 <= z < 2 ^ (w - 1) -> to_long w z = z.
Proof.
  intros Hw H. unfold to_long.
  assert (2 ^ w = 2 * 2 ^ (w - 1)).
  { replace w with (Z.succ (w - 1)) at 1 by lia. now rewrite Z.pow_succ_r by lia. }
  rewrite Z.mod_small by lia. destruct (Z.ltb_spec z (2 ^ (w - 1))); lia.
Qed.
Lemma codes_wide w lit : 34 <= w -> In lit error_literals ->
  FAILED w (error_code w lit) = false /\ SUCCEEDED w (error_code w lit) = true.
Proof.
  intros Hw Hin.
  assert (Hl : 0 <= lit < 2 ^ 32).
  { cbn in Hin. repeat destruct Hin as [<-|Hin]; try (split; reflexivity || (intro; discriminate)). destruct Hin. }
  assert (2 ^ 32 <= 2 ^ (w - 1)) by (apply Z.pow_le_mono_r; lia).
  assert (E : to_long w lit = lit) by (apply to_long_small; lia).
  unfold FAILED, SUCCEEDED, error_code. rewrite !E. lia.
Qed.
Lemma success_codes w : 2 <= w ->
  SUCCEEDED w (S_OK w) = true /\ SUCCEEDED w (S_FALSE w) = true.
Proof.
  intros Hw. assert (2 ^ 1 <= 2 ^ (w - 1)) by (apply Z.pow_le_mono_r; lia).
  assert (E0 : to_long w 0 = 0) by (apply to_long_small; lia).
  assert (E1 : to_long w 1 = 1) by (apply to_long_small; lia).
  unfold SUCCEEDED, S_OK, S_FALSE. rewrite !E0, !E1. split; reflexivity.
Qed.
