(** C66: the Risbo recursion in floating-point arithmetic. *)
From Coq Require Import Reals Lra Lia.
From Flocq Require Import Core.
From Verif Require Import Lib.Py Lib.PyFacts Lib.Sums Lib.Cplx Lib.Arr
  Model.Risbo Model.RisboFloat Spec.WignerSpec Spec.RoundingSpec Proofs.WignerDh Proofs.WignerCalc Proofs.RisboProofs
  Proofs.SpectralBound Proofs.RisboRound Proofs.RisboFloatProofs Proofs.RisboJaxFloat Proofs.Binary64.
Open Scope R_scope.

(** In any arithmetic with relative error u and underflow error eta, the calls el = 0..l succeed
    and every entry is Wigner's d-function to within 200 u l (2 l + 3): the error grows with the
    square of the degree, not exponentially. Entries beyond the degree are exactly zero. *)
Theorem C66_error : forall A u eta L l beta, rounded A u eta -> (0 <= l < L)%Z ->
  200 * u * (IZR L * (2 * IZR L + 3)) <= 1 -> 2 * IZR L * eta <= u -> 0 <= beta <= fpi A ->
  exists a, rf_run A beta L l = Ok a /\ shape a = [2 * L - 1; 2 * L - 1]%Z /\
    forall m n, (- L < m < L)%Z -> (- L < n < L)%Z ->
      exists x, aread a [m + L - 1; n + L - 1]%Z = Ok x /\
        Rabs (x - wigner_d l m n beta) <= 200 * u * (IZR l * (2 * IZR l + 3)) /\
        ((l < Z.abs m \/ l < Z.abs n)%Z -> x = 0).
Proof.
  intros A u eta L l beta HA Hl HB He Hb. pose proof (rd_u _ _ _ HA) as u0.
  assert (FB : forall k, fbound u k = 200 * u * (IZR k * (2 * IZR k + 3)))
    by (intros; unfold fbound; now rewrite mult_IZR, plus_IZR, mult_IZR).
  destruct (frun A u eta L beta l HA Hl) as (a & E & Ha); [now rewrite FB|now rewrite mult_IZR|exact Hb|].
  rewrite FB in Ha. exists a. split; [exact E|]. split; [apply Ha|]. intros m n Hm Hn.
  exists (get a [m + L - 1; n + L - 1]%Z). rewrite aread_in by (rewrite (proj1 Ha); apply in_shape2; lia).
  split; [reflexivity|]. split.
  - destruct (Z_le_dec (Z.abs m) l); [destruct (Z_le_dec (Z.abs n) l)|].
    + now apply (fholds_entry L l beta a).
    + rewrite wigner_d_out by lia. rewrite (proj1 (proj2 Ha)) by lia. rewrite Rminus_eq_0, Rabs_R0.
      rewrite <- FB. unfold fbound. apply Rmult_le_pos; [lra|]. apply IZR_le. nia.
    + rewrite wigner_d_out by lia. rewrite (proj1 (proj2 Ha)) by lia. rewrite Rminus_eq_0, Rabs_R0.
      rewrite <- FB. unfold fbound. apply Rmult_le_pos; [lra|]. apply IZR_le. nia.
  - intros O. apply Ha; lia.
Qed.
Print Assumptions C66_error.
Example C66_error_ex : rounded exact_arith 0 0 /\ (0 <= 3 < 5)%Z /\ 200 * 0 * (5 * (2 * 5 + 3)) <= 1 /\ 2 * 5 * 0 <= 0
  /\ 0 <= PI / 3 <= fpi exact_arith.
Proof. pose proof PI_RGT_0. split; [exact exact_rounded|]. split; [lia|]. cbn [fpi exact_arith]. lra. Qed.

(** Binary64 with round to nearest: up to band-limit two million the error is at most
    2.3e-14 l (2 l + 3). *)
Theorem C66_binary64 : forall L l beta, (0 <= l < L)%Z -> (L <= 2 ^ 21)%Z -> 0 <= beta <= rnd64 PI ->
  exists a, rf_run binary64 beta L l = Ok a /\ shape a = [2 * L - 1; 2 * L - 1]%Z /\
    forall m n, (- L < m < L)%Z -> (- L < n < L)%Z ->
      exists x, aread a [m + L - 1; n + L - 1]%Z = Ok x /\
        Rabs (x - wigner_d l m n beta) <= 23 / 10 ^ 15 * (IZR l * (2 * IZR l + 3)).
Proof.
  intros L l beta Hl HL Hb. assert (H1 : 1 <= IZR L) by (apply IZR_le; lia).
  assert (H2 : IZR L <= IZR (2 ^ 21)) by (now apply IZR_le).
  destruct (C66_error binary64 u64 eta64 L l beta binary64_rounded Hl) as (a & E & S & H).
  - rewrite u64_value. assert (IZR L * (2 * IZR L + 3) <= IZR (2 ^ 21) * (2 * IZR (2 ^ 21) + 3)) by (apply Rmult_le_compat; lra).
    apply Rle_trans with (200 * / IZR (2 ^ 53) * (IZR (2 ^ 21) * (2 * IZR (2 ^ 21) + 3))).
    + apply Rmult_le_compat_l; [|assumption]. cbn. lra.
    + cbn. lra.
  - eapply Rle_trans; [|apply (eta64_tiny 22); lia]. apply Rmult_le_compat_r; [apply bpow_ge_0|].
    change (2 ^ 22)%Z with (2 * 2 ^ 21)%Z. rewrite mult_IZR. lra.
  - exact Hb.
  - exists a. split; [exact E|]. split; [exact S|]. intros m n Hm Hn. destruct (H m n Hm Hn) as (x & Ex & Bx & _).
    exists x. split; [exact Ex|]. eapply Rle_trans; [exact Bx|]. rewrite u64_value. apply Rmult_le_compat_r.
    + assert (0 <= IZR l) by (apply IZR_le; lia). nra.
    + cbn. lra.
Qed.
Print Assumptions C66_binary64.
Example C66_binary64_ex : (0 <= 255 < 256)%Z /\ (256 <= 2 ^ 21)%Z /\ 0 <= 0 <= rnd64 PI.
Proof.
  split; [lia|]. split; [lia|]. split; [lra|]. apply rnd_nonneg; [lia|left; apply PI_RGT_0].
Qed.

(** The computed matrix acts on vectors of coefficients like the exact one up to the same factor:
    the error is bounded in the operator norm, so nothing is lost when it is applied to a signal. *)
Theorem C66_operator : forall A u eta L l beta a, rounded A u eta -> (0 <= l < L)%Z ->
  200 * u * (IZR L * (2 * IZR L + 3)) <= 1 -> 2 * IZR L * eta <= u -> 0 <= beta <= fpi A ->
  rf_run A beta L l = Ok a ->
  forall x y : Z -> R,
    Rabs (rsum (zrange (- l) (l + 1)) (fun m => rsum (zrange (- l) (l + 1)) (fun n =>
            x m * (get a [m + L - 1; n + L - 1]%Z - wigner_d l m n beta) * y n)))
    <= 200 * u * (IZR l * (2 * IZR l + 3)) *
       (sqrt (rsum (zrange (- l) (l + 1)) (fun m => x m * x m)) * sqrt (rsum (zrange (- l) (l + 1)) (fun n => y n * y n))).
Proof.
  intros A u eta L l beta a HA Hl HB He Hb E x y.
  assert (FB : forall k, fbound u k = 200 * u * (IZR k * (2 * IZR k + 3)))
    by (intros; unfold fbound; now rewrite mult_IZR, plus_IZR, mult_IZR).
  destruct (frun A u eta L beta l HA Hl) as (a' & E' & Ha); [now rewrite FB|now rewrite mult_IZR|exact Hb|].
  assert (a' = a) by congruence. subst a'. rewrite FB in Ha. destruct Ha as (_ & _ & H).
  specialize (H (fun q => x (q - l)%Z) (fun p => y (p - l)%Z)).
  assert (N : forall z : Z -> R, n2 (2 * l + 1) (fun q => z (q - l)%Z) = rsum (zrange (- l) (l + 1)) (fun m => z m * z m)).
  { intros z. unfold n2. rewrite <- (rr_perm (- l) (l + 1) 0 (2 * l + 1) (fun m => l + m)%Z) by lia.
    apply rr_ext. intros m Hm. replace (l + m - l)%Z with m by lia. reflexivity. }
  rewrite !N in H. replace (bil _ _ _ _) with (rsum (zrange (- l) (l + 1)) (fun m => rsum (zrange (- l) (l + 1)) (fun n =>
            x m * (get a [m + L - 1; n + L - 1]%Z - wigner_d l m n beta) * y n))) in H; [exact H|].
  unfold bil. rewrite <- (rr_perm (- l) (l + 1) 0 (2 * l + 1) (fun m => l + m)%Z) by lia.
  apply rr_ext. intros m Hm. rewrite <- (rr_perm (- l) (l + 1) 0 (2 * l + 1) (fun m => l + m)%Z) by lia.
  apply rr_ext. intros n Hn. rewrite wigner_dh by lia.
  replace (l + m - l)%Z with m by lia. replace (l + n - l)%Z with n by lia. reflexivity.
Qed.
Print Assumptions C66_operator.
Example C66_operator_ex : exists a, rf_run exact_arith (PI / 3) 5 3 = Ok a.
Proof.
  pose proof PI_RGT_0. destruct (C66_error exact_arith 0 0 5 3 (PI / 3) exact_rounded) as (a & E & _); [lia|lra|lra|cbn [fpi exact_arith]; lra|].
  now exists a.
Qed.

(** The vectorised routine has the same bound for every angle of the batch. *)
Theorem C66_vectorised : forall A u eta L l betas, rounded A u eta -> (0 <= l < L)%Z ->
  200 * u * (IZR L * (2 * IZR L + 3)) <= 1 -> 2 * IZR L * eta <= u ->
  (forall beta, In beta betas -> Rabs beta <= 5) ->
  exists out, rf_run_vec A betas L l = Ok out /\ List.length out = List.length betas /\
    forall t beta a, nth_error betas t = Some beta -> nth_error out t = Some a ->
      shape a = [2 * L - 1; 2 * L - 1]%Z /\
      forall m n, (Z.abs m <= l)%Z -> (Z.abs n <= l)%Z ->
        Rabs (get a [m + L - 1; n + L - 1]%Z - wigner_d l m n beta) <= 200 * u * (IZR l * (2 * IZR l + 3)).
Proof.
  intros A u eta L l betas HA Hl HB He Hb.
  assert (FB : forall k, fbound u k = 200 * u * (IZR k * (2 * IZR k + 3)))
    by (intros; unfold fbound; now rewrite mult_IZR, plus_IZR, mult_IZR).
  destruct (frun_vec A u eta L betas l HA Hl) as (out & E & H); [now rewrite FB|now rewrite mult_IZR|now apply Forall_forall|].
  exists out. split; [exact E|]. clear E Hb. induction H as [|beta a betas out H1 H IH].
  - split; [reflexivity|]. intros [|t] ? ?; discriminate.
  - destruct IH as [IH1 IH2]. split; [cbn; now rewrite IH1|]. intros [|t] b a'; cbn [nth_error].
    + intros [= <-] [= <-]. split; [apply H1|]. intros m n Hm Hn. rewrite <- FB. now apply (fholds_entry L l beta a).
    + apply IH2.
Qed.
Print Assumptions C66_vectorised.
Example C66_vectorised_ex : rounded exact_arith 0 0 /\ forall beta, In beta [PI; (- PI / 7)] -> Rabs beta <= 5.
Proof. pose proof PI_RGT_0. pose proof PI_4. split; [exact exact_rounded|]. cbn. intros beta [<-|[<-|[]]]; apply Rabs_le; lra. Qed.

(** With exact operations the rounded routine is the exact one, and the bound is zero. *)
Theorem C66_exact : forall beta L l, rf_run exact_arith beta L l = risbo_run beta L l.
Proof. exact rf_exact. Qed.
Print Assumptions C66_exact.
Example C66_exact_ex : exists a, risbo_run (PI / 3) 5 3 = Ok a.
Proof. destruct C66_operator_ex as (a & E). exists a. rewrite <- rf_exact. exact E. Qed.

(** binary64 arithmetic is such an arithmetic. *)
Theorem C66_binary64_rounded : rounded binary64 (/ 2 ^ 53) eta64 /\ forall x, Rabs (rnd64 x - x) <= / 2 ^ 53 * Rabs x + eta64.
Proof.
  assert (E : / 2 ^ 53 = u64) by (rewrite u64_value; f_equal; cbn; lra). rewrite E. split; [exact binary64_rounded|exact rnd64_err].
Qed.
Print Assumptions C66_binary64_rounded.
Example C66_binary64_rounded_ex : rnd64 1 = 1.
Proof.
  unfold rnd64, rnd. apply round_generic; [apply valid_rnd_N|]. change 1 with (bpow radix2 0).
  apply generic_format_bpow. unfold FLT_exp. lia.
Qed.

(** The JAX routine, which multiplies all four terms first and divides the whole matrix by
    2 el (2 el - 1) at the end, has the same bound. *)
Theorem C66_jax : forall A u eta L l beta, rounded A u eta -> (0 <= l < L)%Z ->
  200 * u * (IZR L * (2 * IZR L + 3)) <= 1 -> eta <= u -> Rabs beta <= 5 ->
  exists a, rf_jax_run A beta L l = Ok a /\ shape a = [2 * L - 1; 2 * L - 1]%Z /\
    forall m n, (- L < m < L)%Z -> (- L < n < L)%Z ->
      exists x, aread a [m + L - 1; n + L - 1]%Z = Ok x /\
        Rabs (x - wigner_d l m n beta) <= 200 * u * (IZR l * (2 * IZR l + 3)) /\
        ((l < Z.abs m \/ l < Z.abs n)%Z -> x = 0).
Proof.
  intros A u eta L l beta HA Hl HB He Hb. pose proof (rd_u _ _ _ HA) as u0.
  assert (FB : forall k, fbound u k = 200 * u * (IZR k * (2 * IZR k + 3)))
    by (intros; unfold fbound; now rewrite mult_IZR, plus_IZR, mult_IZR).
  destruct (jrun A u eta L beta l HA Hl) as (a & E & Ha); [now rewrite FB|exact He|exact Hb|].
  rewrite FB in Ha. exists a. split; [exact E|]. split; [apply Ha|]. intros m n Hm Hn.
  exists (get a [m + L - 1; n + L - 1]%Z). rewrite aread_in by (rewrite (proj1 Ha); apply in_shape2; lia).
  split; [reflexivity|].
  assert (O : (l < Z.abs m \/ l < Z.abs n)%Z -> get a [m + L - 1; n + L - 1]%Z = 0) by (intros; apply Ha; lia).
  split; [|exact O]. destruct (Z_le_dec (Z.max (Z.abs m) (Z.abs n)) l).
  - apply (fholds_entry L l beta a); auto; lia.
  - rewrite wigner_d_out by lia. rewrite O by lia. rewrite Rminus_eq_0, Rabs_R0.
    rewrite <- FB. unfold fbound. apply Rmult_le_pos; [lra|]. apply IZR_le. nia.
Qed.
Print Assumptions C66_jax.
Example C66_jax_ex : rounded exact_arith 0 0 /\ (0 <= 3 < 5)%Z /\ 200 * 0 * (5 * (2 * 5 + 3)) <= 1 /\ 0 <= 0
  /\ Rabs (- PI / 3) <= 5.
Proof. pose proof PI_RGT_0. pose proof PI_4. split; [exact exact_rounded|]. split; [lia|]. split; [lra|]. split; [lra|]. apply Rabs_le. lra. Qed.

(** JAX computes in binary32 unless 64-bit mode is switched on. There the bound is 1.2e-5 l (2 l + 3),
    below one up to band-limit 203; with 64-bit mode it is 2.3e-14 l (2 l + 3). *)
Theorem C66_jax_binary32 : forall L l beta, (0 <= l < L)%Z -> (L <= 203)%Z -> Rabs beta <= 5 ->
  exists a, rf_jax_run binary32 beta L l = Ok a /\ shape a = [2 * L - 1; 2 * L - 1]%Z /\
    forall m n, (- L < m < L)%Z -> (- L < n < L)%Z ->
      exists x, aread a [m + L - 1; n + L - 1]%Z = Ok x /\
        Rabs (x - wigner_d l m n beta) <= 12 / 10 ^ 6 * (IZR l * (2 * IZR l + 3)).
Proof.
  intros L l beta Hl HL Hb. assert (H1 : 1 <= IZR L) by (apply IZR_le; lia).
  assert (H2 : IZR L <= 203) by (now apply IZR_le).
  destruct (C66_jax binary32 u32 eta32 L l beta binary32_rounded Hl) as (a & E & S & H).
  - rewrite u32_value. assert (IZR L * (2 * IZR L + 3) <= 203 * (2 * 203 + 3)) by (apply Rmult_le_compat; lra).
    apply Rle_trans with (200 * / IZR (2 ^ 24) * (203 * (2 * 203 + 3))).
    + apply Rmult_le_compat_l; [|assumption]. cbn. lra.
    + cbn. lra.
  - pose proof (eta32_tiny 0 ltac:(lia)) as T. rewrite Z.pow_0_r in T. lra.
  - exact Hb.
  - exists a. split; [exact E|]. split; [exact S|]. intros m n Hm Hn. destruct (H m n Hm Hn) as (x & Ex & Bx & _).
    exists x. split; [exact Ex|]. eapply Rle_trans; [exact Bx|]. rewrite u32_value. apply Rmult_le_compat_r.
    + assert (0 <= IZR l) by (apply IZR_le; lia). nra.
    + cbn. lra.
Qed.
Print Assumptions C66_jax_binary32.
Example C66_jax_binary32_ex : (0 <= 127 < 128)%Z /\ (128 <= 203)%Z /\ Rabs (- PI / 3) <= 5.
Proof.
  split; [lia|]. split; [lia|]. apply C66_jax_ex.
Qed.

Theorem C66_jax_binary64 : forall L l beta, (0 <= l < L)%Z -> (L <= 2 ^ 21)%Z -> Rabs beta <= 5 ->
  exists a, rf_jax_run binary64 beta L l = Ok a /\ shape a = [2 * L - 1; 2 * L - 1]%Z /\
    forall m n, (- L < m < L)%Z -> (- L < n < L)%Z ->
      exists x, aread a [m + L - 1; n + L - 1]%Z = Ok x /\
        Rabs (x - wigner_d l m n beta) <= 23 / 10 ^ 15 * (IZR l * (2 * IZR l + 3)).
Proof.
  intros L l beta Hl HL Hb. assert (H1 : 1 <= IZR L) by (apply IZR_le; lia).
  assert (H2 : IZR L <= IZR (2 ^ 21)) by (now apply IZR_le).
  destruct (C66_jax binary64 u64 eta64 L l beta binary64_rounded Hl) as (a & E & S & H).
  - rewrite u64_value. assert (IZR L * (2 * IZR L + 3) <= IZR (2 ^ 21) * (2 * IZR (2 ^ 21) + 3)) by (apply Rmult_le_compat; lra).
    apply Rle_trans with (200 * / IZR (2 ^ 53) * (IZR (2 ^ 21) * (2 * IZR (2 ^ 21) + 3))).
    + apply Rmult_le_compat_l; [|assumption]. cbn. lra.
    + cbn. lra.
  - pose proof (eta64_tiny 0 ltac:(lia)) as T. rewrite Z.pow_0_r in T. lra.
  - exact Hb.
  - exists a. split; [exact E|]. split; [exact S|]. intros m n Hm Hn. destruct (H m n Hm Hn) as (x & Ex & Bx & _).
    exists x. split; [exact Ex|]. eapply Rle_trans; [exact Bx|]. rewrite u64_value. apply Rmult_le_compat_r.
    + assert (0 <= IZR l) by (apply IZR_le; lia). nra.
    + cbn. lra.
Qed.
Print Assumptions C66_jax_binary64.
Example C66_jax_binary64_ex : (0 <= 255 < 256)%Z /\ (256 <= 2 ^ 21)%Z /\ Rabs (- PI / 3) <= 5.
Proof. split; [lia|]. split; [lia|]. apply C66_jax_ex. Qed.

(** With exact operations the JAX routine in rounded arithmetic is the exact JAX routine. *)
Theorem C66_jax_exact : forall beta L l, rf_jax_run exact_arith beta L l = risbo_jax_run beta L l.
Proof. exact rf_jax_exact. Qed.
Print Assumptions C66_jax_exact.
Example C66_jax_exact_ex : exists a, risbo_jax_run (PI / 3) 5 3 = Ok a.
Proof. destruct (jax_run_ok (PI / 3) 5 3 ltac:(lia)) as (a & E & _). now exists a. Qed.

(** Numpy's and JAX's results differ by at most the sum of the two bounds. *)
Theorem C66_agree : forall A u eta L l beta a b, rounded A u eta -> (0 <= l < L)%Z ->
  200 * u * (IZR L * (2 * IZR L + 3)) <= 1 -> 2 * IZR L * eta <= u -> 0 <= beta <= fpi A ->
  rf_run A beta L l = Ok a -> rf_jax_run A beta L l = Ok b ->
  forall m n, (- L < m < L)%Z -> (- L < n < L)%Z ->
    Rabs (get a [m + L - 1; n + L - 1]%Z - get b [m + L - 1; n + L - 1]%Z) <= 400 * u * (IZR l * (2 * IZR l + 3)).
Proof.
  intros A u eta L l beta a b HA Hl HB He Hb Ea Eb m n Hm Hn.
  pose proof (rd_eta _ _ _ HA). assert (1 <= IZR L) by (apply IZR_le; lia).
  destruct (C66_error A u eta L l beta HA Hl HB He Hb) as (a' & Ea' & Sa & Ha).
  destruct (C66_jax A u eta L l beta HA Hl HB ltac:(nra)) as (b' & Eb' & Sb & Hb').
  { apply (fpi_range A u eta L beta HA); [lia| |nra|exact Hb]. unfold fbound. now rewrite mult_IZR, plus_IZR, mult_IZR. }
  rewrite Ea in Ea'. injection Ea' as <-. rewrite Eb in Eb'. injection Eb' as <-.
  destruct (Ha m n Hm Hn) as (x & Ex & Bx & _). destruct (Hb' m n Hm Hn) as (y & Ey & By & _).
  rewrite aread_in in Ex, Ey by (rewrite ?Sa, ?Sb; apply in_shape2; lia). injection Ex as ->. injection Ey as ->.
  replace (x - y) with ((x - wigner_d l m n beta) - (y - wigner_d l m n beta)) by ring.
  eapply Rle_trans; [apply Rabs_triang|]. rewrite Rabs_Ropp. lra.
Qed.
Print Assumptions C66_agree.
Example C66_agree_ex : exists a b, rf_run exact_arith (PI / 3) 5 3 = Ok a /\ rf_jax_run exact_arith (PI / 3) 5 3 = Ok b.
Proof.
  destruct C66_operator_ex as (a & E). destruct C66_jax_exact_ex as (b & F). exists a, b. split; [exact E|].
  now rewrite rf_jax_exact.
Qed.
