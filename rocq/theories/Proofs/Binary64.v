(** binary64 arithmetic satisfies the assumptions made of rounded arithmetic. *)
From Coq Require Import Reals Lra Lia.
From Flocq Require Import Core Relative.
From Verif Require Import Model.RisboFloat Spec.RoundingSpec.
Open Scope R_scope.

Lemma bpow_m1 : bpow radix2 (-1) = / 2.
Proof. reflexivity. Qed.

Lemma rnd_err emin prec x : (0 < prec)%Z ->
  Rabs (rnd emin prec x - x) <= bpow radix2 (- prec) * Rabs x + bpow radix2 (emin - 1).
Proof.
  intros Hp. destruct (error_N_FLT radix2 emin prec Hp (fun z => negb (Z.even z)) x) as (eps & e & H1 & H2 & H3 & H4).
  unfold rnd. unfold ZnearestE in *. rewrite H4.
  replace (x * (1 + eps) + e - x) with (eps * x + e) by ring.
  eapply Rle_trans; [apply Rabs_triang|]. rewrite Rabs_mult. apply Rplus_le_compat.
  - apply Rmult_le_compat_r; [apply Rabs_pos|]. eapply Rle_trans; [exact H1|].
    replace (- prec)%Z with (-1 + (- prec + 1))%Z by ring. rewrite (bpow_plus radix2 (-1)), bpow_m1.
    replace (-1 + (- prec + 1) + 1)%Z with (- prec + 1)%Z by ring. right. reflexivity.
  - eapply Rle_trans; [exact H2|]. replace (emin - 1)%Z with (-1 + emin)%Z by ring.
    rewrite (bpow_plus radix2 (-1)), bpow_m1. right. reflexivity.
Qed.

Lemma ieee_rounded emin prec : (0 < prec)%Z -> (emin - 1 <= - prec)%Z ->
  rounded (ieee emin prec) (bpow radix2 (- prec)) (bpow radix2 (emin - 1)).
Proof.
  intros Hp He. set (u := bpow radix2 (- prec)). set (eta := bpow radix2 (emin - 1)).
  assert (P : 0 <= u) by apply bpow_ge_0. assert (Q : eta <= u) by (now apply bpow_le).
  assert (E : forall x, Rabs (rnd emin prec x - x) <= u * Rabs x + eta) by (intros; now apply rnd_err).
  assert (T : forall t, Rabs t <= 1 -> Rabs (rnd emin prec t - t) <= 4 * u).
  { intros t H. eapply Rle_trans; [apply E|]. assert (u * Rabs t <= u * 1) by (now apply Rmult_le_compat_l). lra. }
  constructor; cbn [fadd fmul fdiv fsqrt fsin fcos fpi ieee]; auto.
  - apply bpow_ge_0.
  - intros y Hy. unfold Rdiv. rewrite Rmult_0_l. unfold rnd. apply round_0, valid_rnd_N.
  - intros x Hx. eapply Rle_trans; [apply E|]. rewrite Rabs_pos_eq by apply sqrt_pos. lra.
  - intros. apply T. apply Rabs_le, SIN_bound.
  - intros. apply T. apply Rabs_le, COS_bound.
  - eapply Rle_trans; [apply E|]. rewrite Rabs_pos_eq by (left; apply PI_RGT_0). lra.
Qed.

Lemma binary64_rounded : rounded binary64 u64 eta64.
Proof. exact (ieee_rounded (-1074) 53 ltac:(lia) ltac:(lia)). Qed.
Lemma binary32_rounded : rounded binary32 u32 eta32.
Proof. exact (ieee_rounded (-149) 24 ltac:(lia) ltac:(lia)). Qed.
Lemma rnd64_err x : Rabs (rnd64 x - x) <= u64 * Rabs x + eta64.
Proof. exact (rnd_err (-1074) 53 x ltac:(lia)). Qed.
Lemma rnd32_err x : Rabs (rnd32 x - x) <= u32 * Rabs x + eta32.
Proof. exact (rnd_err (-149) 24 x ltac:(lia)). Qed.

(** u64 and eta64 as plain numbers *)
Lemma u64_value : u64 = / IZR (2 ^ 53).
Proof. reflexivity. Qed.
Lemma eta64_tiny k : (0 <= k <= 1022)%Z -> IZR (2 ^ k) * eta64 <= u64.
Proof.
  intros Hk. unfold eta64, u64. change (2 ^ k)%Z with (radix_val radix2 ^ k)%Z. rewrite IZR_Zpower by lia. rewrite <- bpow_plus.
  apply bpow_le. lia.
Qed.

Lemma u32_value : u32 = / IZR (2 ^ 24).
Proof. reflexivity. Qed.
Lemma eta32_tiny k : (0 <= k <= 126)%Z -> IZR (2 ^ k) * eta32 <= u32.
Proof.
  intros Hk. unfold eta32, u32. change (2 ^ k)%Z with (radix_val radix2 ^ k)%Z. rewrite IZR_Zpower by lia. rewrite <- bpow_plus.
  apply bpow_le. lia.
Qed.
Lemma rnd_nonneg emin prec x : (0 < prec)%Z -> 0 <= x -> 0 <= rnd emin prec x.
Proof.
  intros Hp Hx. unfold rnd. rewrite <- (round_0 radix2 (FLT_exp emin prec) ZnearestE).
  apply round_le; [now apply FLT_exp_valid|apply valid_rnd_N|exact Hx].
Qed.
