(** C29: the Trapani & Navaza recursion yields the Wigner d-matrices at pi/2. *)
From Coq Require Import Reals Lra Lia String.
From Verif Require Import Lib.Py Lib.PyFacts Lib.Sums Lib.Cplx Lib.Vec Lib.Arr.
From Verif Require Import Model.Trapani Spec.WignerSpec Spec.TrapaniSpec Proofs.TrapaniMath Proofs.TrapaniProofs.
Open Scope Z_scope.
Open Scope string_scope.

(** One step: from degree el - 1 to degree el, by each implementation, whatever the rest of the array. *)
Theorem C29_step : forall L el dl name, 1 <= el < L -> accepted name -> holds_quarter_pi L (el - 1) dl ->
  exists dl', trapani_full dl L el name = Ok dl' /\ holds_quarter_pi L el dl'.
Proof. intros L el dl name Hel Hn H. apply step_ok; auto; [apply H|apply holds_prev_of; auto; lia]. Qed.
Print Assumptions C29_step.

(** init and then every degree 1..l, from any array of the right shape *)
Theorem C29_run : forall L l dl name, 0 <= l < L -> accepted name -> shape dl = [2 * L - 1; 2 * L - 1] ->
  exists dl', trapani_run dl L l name = Ok dl' /\ holds_quarter_pi L l dl'.
Proof. intros L l dl name Hl Hn E. now apply run_ok. Qed.
Print Assumptions C29_run.
Example C29_run_ex : 0 <= 3 < 5 /\ accepted "LOOP" /\ accepted "jax" /\ shape (zeros 0%R [9; 9]) = [2 * 5 - 1; 2 * 5 - 1].
Proof. unfold accepted. split; [lia|]. split; [left; reflexivity|]. split; [auto|reflexivity]. Qed.
(** the hypothesis of [C29_step] is met by what [C29_run] returns, for every degree *)
Example C29_step_ex : exists dl, 1 <= 4 < 5 /\ holds_quarter_pi 5 (4 - 1) dl.
Proof.
  destruct (C29_run 5 3 (zeros 0%R [9; 9]) "vectorized") as (dl & _ & H); [lia|unfold accepted; auto|reflexivity|].
  exists dl. split; [lia|exact H].
Qed.

(** Any two implementations leave the same matrix. *)
Theorem C29_implementations_agree : forall L l dl1 dl2 name1 name2 m n, 0 <= l < L ->
  accepted name1 -> accepted name2 -> shape dl1 = [2 * L - 1; 2 * L - 1] -> shape dl2 = [2 * L - 1; 2 * L - 1] ->
  Z.abs m <= l -> Z.abs n <= l ->
  exists a b, trapani_run dl1 L l name1 = Ok a /\ trapani_run dl2 L l name2 = Ok b /\
    get a [m + (L - 1); n + (L - 1)] = get b [m + (L - 1); n + (L - 1)].
Proof.
  intros L l dl1 dl2 name1 name2 m n Hl H1 H2 E1 E2 Hm Hn.
  destruct (C29_run L l dl1 name1 Hl H1 E1) as (a & Ra & _ & Ha).
  destruct (C29_run L l dl2 name2 Hl H2 E2) as (b & Rb & _ & Hb).
  exists a, b. split; [exact Ra|]. split; [exact Rb|]. now rewrite Ha, Hb.
Qed.
Print Assumptions C29_implementations_agree.
Example C29_implementations_agree_ex : accepted "loop" /\ accepted "jax" /\ Z.abs (-3) <= 3 < 5.
Proof. unfold accepted. split; [left; reflexivity|]. split; [auto|lia]. Qed.

(** Of the previous degree only the entries d^{el-1}_{el-1,n}, n >= 0, are used. *)
Theorem C29_last_row_suffices : forall L el dl name, 1 <= el < L -> accepted name ->
  shape dl = [2 * L - 1; 2 * L - 1] ->
  (forall n, 0 <= n <= el - 1 -> get dl [el - 1 + (L - 1); n + (L - 1)] = wigner_d (el - 1) (el - 1) n (PI / 2)) ->
  exists dl', trapani_full dl L el name = Ok dl' /\ holds_quarter_pi L el dl'.
Proof. intros L el dl name Hel Hn E H. now apply step_ok. Qed.
Print Assumptions C29_last_row_suffices.

(** compute_quarter: m, n >= 0, by each variant; compute_eighth: 0 <= n <= m *)
Theorem C29_quarter : forall L el dl m n, 1 <= el < L -> holds_quarter_pi L (el - 1) dl ->
  0 <= m <= el -> 0 <= n <= el ->
  exists a b c, compute_quarter dl L el = Ok a /\ compute_quarter_vectorized dl L el = Ok b /\ compute_quarter_jax dl L el = Ok c /\
    get a [m + (L - 1); n + (L - 1)] = wigner_d el m n (PI / 2) /\
    get b [m + (L - 1); n + (L - 1)] = wigner_d el m n (PI / 2) /\
    get c [m + (L - 1); n + (L - 1)] = wigner_d el m n (PI / 2).
Proof.
  intros L el dl m n Hel H Hm Hn.
  assert (P : holds_prev L el dl) by (apply holds_prev_of; auto; lia). destruct H as (E & _).
  destruct (quarter_ok L el Hel dl E P) as (a & Ra & _ & Ga).
  destruct (quarter_vec_ok L el Hel dl E P) as (b & Rb & _ & Gb).
  destruct (quarter_jax_ok L el Hel dl E P) as (c & Rc & _ & Gc).
  exists a, b, c. repeat split; auto; [now apply Ga|now apply Gb|now apply Gc].
Qed.
Print Assumptions C29_quarter.
Theorem C29_eighth : forall L el dl m n, 1 <= el < L -> holds_quarter_pi L (el - 1) dl -> 0 <= n <= m -> m <= el ->
  exists a, compute_eighth dl L el = Ok a /\ get a [m + (L - 1); n + (L - 1)] = wigner_d el m n (PI / 2).
Proof.
  intros L el dl m n Hel H Hn Hm.
  assert (P : holds_prev L el dl) by (apply holds_prev_of; auto; lia). destruct H as (E & _).
  destruct (eighth_ok L el Hel dl E P) as (a & Ra & _ & Ga). exists a. split; [exact Ra|]. now apply Ga.
Qed.
Print Assumptions C29_eighth.

(** Unknown names are rejected, by both entry points, and only those by init. *)
Theorem C29_rejects : forall L el dl name, ~ accepted name ->
  trapani_init dl L name = Err ValueError /\ trapani_full dl L el name = Err ValueError.
Proof.
  intros L el dl name H. unfold trapani_init, trapani_full, streq, accepted in *.
  destruct (String.eqb_spec (lower name) "loop"); [tauto|].
  destruct (String.eqb_spec name "vectorized"); [tauto|].
  destruct (String.eqb_spec name "jax"); tauto.
Qed.
Print Assumptions C29_rejects.
Example C29_rejects_ex : ~ accepted "numpy".
Proof. unfold accepted. intros [H|[H|H]]; discriminate. Qed.

(** "LOOP" is accepted, but "JAX" and "Vectorized" are not: the names are not all compared without
    regard to case. *)
Theorem C29_case_refuted : exists name1 name2, lower name1 = "jax" /\ lower name2 = "vectorized" /\
  forall L el dl, trapani_full dl L el name1 = Err ValueError /\ trapani_full dl L el name2 = Err ValueError.
Proof.
  exists "JAX", "Vectorized". split; [reflexivity|]. split; [reflexivity|]. intros L el dl.
  split; apply (C29_rejects L el dl); unfold accepted; intros [H|[H|H]]; discriminate.
Qed.
Print Assumptions C29_case_refuted.

(** Degrees beyond the array, and degree zero, raise in the numpy implementations. *)
Theorem C29_rejects_degree : forall L el dl, 1 <= L -> shape dl = [2 * L - 1; 2 * L - 1] ->
  (L <= el -> trapani_full dl L el "loop" = Err IndexError /\ trapani_full dl L el "vectorized" = Err IndexError) /\
  (el = 0 -> trapani_full dl L el "loop" = Err ZeroDivisionError /\ trapani_full dl L el "vectorized" = Err ZeroDivisionError).
Proof.
  intros L el dl HL E. unfold trapani_full, compute_full_loop, compute_full_vectorized, compute_eighth, compute_quarter_vectorized. cbn [streq].
  split; intros H.
  - rewrite dmm_big by auto. split; reflexivity.
  - subst. unfold trapani_dmm. split; reflexivity.
Qed.
Print Assumptions C29_rejects_degree.
Example C29_rejects_degree_ex : 1 <= 2 /\ shape (zeros 0%R [3; 3]) = [2 * 2 - 1; 2 * 2 - 1] /\ 2 <= 2.
Proof. repeat split; lia. Qed.
