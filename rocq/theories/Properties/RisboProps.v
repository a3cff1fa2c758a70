(** C27: the Risbo recursions. *)
From Coq Require Import Reals Lra Lia.
From Verif Require Import Lib.Py Lib.PyFacts Lib.Sums Lib.Cplx Lib.Arr
  Model.Risbo Spec.WignerSpec Proofs.WignerDh Proofs.WignerCalc Proofs.RisboProofs.
Open Scope Z_scope.

(** The calls el = 0..l leave Wigner's d-matrix of degree l in the array, zero elsewhere. *)
Theorem C27_risbo : forall beta L l, 0 <= l < L -> (0 <= beta <= PI)%R ->
  exists a, risbo_run beta L l = Ok a /\ shape a = [2 * L - 1; 2 * L - 1] /\
    forall m n, - L < m < L -> - L < n < L ->
      aread a [m + L - 1; n + L - 1] = Ok (wigner_d l m n beta).
Proof.
  intros beta L l Hl Hb. destruct (run_ok beta L l Hl Hb) as (a & E & Hs & Hg). exists a. split; [exact E|].
  split; [exact Hs|]. intros m n Hm Hn. rewrite aread_in by (rewrite Hs; apply in_shape2; lia). now rewrite Hg.
Qed.
Print Assumptions C27_risbo.
Example C27_risbo_ex : 0 <= 3 < 5 /\ (0 <= PI / 3 <= PI)%R.
Proof. pose proof PI_RGT_0. split; [lia|lra]. Qed.

(** One call from any array that holds degree el - 1 (not only those of a run from zero). *)
Theorem C27_risbo_step : forall beta L l dl, 1 <= l < L -> (0 <= beta <= PI)%R ->
  shape dl = [2 * L - 1; 2 * L - 1] ->
  (forall m n, - L < m < L -> - L < n < L -> get dl [m + L - 1; n + L - 1] = wigner_d (l - 1) m n beta) ->
  exists a, risbo_full dl beta L l = Ok a /\ shape a = [2 * L - 1; 2 * L - 1] /\
    forall m n, - L < m < L -> - L < n < L -> get a [m + L - 1; n + L - 1] = wigner_d l m n beta.
Proof.
  intros beta L l dl Hl Hb Hs Hg. unfold risbo_full. rewrite args_ok by (auto; lia). cbn [bind].
  destruct (step_ok L beta l dl) as (a & E & Ha); [lia| |exists a; split; [exact E|exact Ha]].
  replace (l =? 0) with false by lia. split; auto.
Qed.
Print Assumptions C27_risbo_step.
Example C27_risbo_step_ex : exists dl, shape dl = [2 * 4 - 1; 2 * 4 - 1] /\
  forall m n, - 4 < m < 4 -> - 4 < n < 4 -> get dl [m + 4 - 1; n + 4 - 1] = wigner_d (2 - 1) m n 1.
Proof.
  exists (mat 7 7 (fun r c => wigner_d 1 (r - 3) (c - 3) 1)). split; [reflexivity|]. intros m n _ _.
  cbn [mat get nth]. f_equal; lia.
Qed.

(** All entries of a run form an orthogonal matrix: no size or sign is lost on the way. *)
Theorem C27_risbo_orthogonal : forall beta L l a, 0 <= l < L -> (0 <= beta <= PI)%R ->
  risbo_run beta L l = Ok a ->
  forall n n', Z.abs n <= l -> Z.abs n' <= l ->
    rsum (zrange (- l) (l + 1)) (fun m => (get a [m + L - 1; n + L - 1]%Z * get a [m + L - 1; n' + L - 1]%Z)%R)
    = if n =? n' then 1%R else 0%R.
Proof.
  intros beta L l a Hl Hb E n n' Hn Hn'. destruct (run_ok beta L l Hl Hb) as (a' & E' & _ & Hg).
  assert (a' = a) by congruence. subst a'.
  replace (n =? n') with (l + n =? l + n') by lia.
  rewrite <- (D_cols (2 * l) (l + n) (l + n') beta) by lia.
  rewrite <- (rr_perm (- l) (l + 1) 0 (2 * l + 1) (fun m => l + m)) by lia.
  apply rr_ext. intros m Hm. rewrite !Hg by lia. now rewrite !wigner_dh by lia.
Qed.
Print Assumptions C27_risbo_orthogonal.
Example C27_risbo_orthogonal_ex : exists a, risbo_run (PI / 3) 5 3 = Ok a.
Proof.
  pose proof PI_RGT_0. destruct (C27_risbo (PI / 3) 5 3 ltac:(lia) ltac:(lra)) as (a & E & _). now exists a.
Qed.

(** The vectorised routine does the same for every angle of the batch, with no restriction on
    the angles. *)
Theorem C27_risbo_vectorised : forall betas L l, 0 <= l < L ->
  exists out, risbo_run_vec betas L l = Ok out /\ List.length out = List.length betas /\
    forall t beta a, nth_error betas t = Some beta -> nth_error out t = Some a ->
      shape a = [2 * L - 1; 2 * L - 1] /\
      forall m n, - L < m < L -> - L < n < L -> get a [m + L - 1; n + L - 1] = wigner_d l m n beta.
Proof.
  intros betas L l Hl. destruct (run_vec_ok betas L l Hl) as (out & E & H). exists out. split; [exact E|].
  clear E. induction H as [|beta a betas out H1 H IH].
  - split; [reflexivity|]. intros [|t] ? ?; discriminate.
  - destruct IH as [IH1 IH2]. split; [cbn; now rewrite IH1|]. intros [|t] b a'; cbn [nth_error].
    + intros [= <-] [= <-]. exact H1.
    + apply IH2.
Qed.
Print Assumptions C27_risbo_vectorised.
Example C27_risbo_vectorised_ex : 0 <= 3 < 5 /\ nth_error [PI; (PI / 7)%R] 1 = Some (PI / 7)%R.
Proof. split; [lia|reflexivity]. Qed.

(** The JAX routine. *)
Theorem C27_risbo_jax : forall beta L l, 0 <= l < L ->
  exists a, risbo_jax_run beta L l = Ok a /\ shape a = [2 * L - 1; 2 * L - 1] /\
    forall m n, - L < m < L -> - L < n < L -> get a [m + L - 1; n + L - 1] = wigner_d l m n beta.
Proof. intros beta L l Hl. destruct (jax_run_ok beta L l Hl) as (a & E & H). exists a. auto. Qed.
Print Assumptions C27_risbo_jax.
Example C27_risbo_jax_ex : 0 <= 3 < 5. Proof. lia. Qed.

(** Rejected arguments, and only those. *)
Theorem C27_rejects : forall dl beta L el,
  risbo_full dl beta L el = Err AssertionError <->
  ~ (0 <= el < L /\ dim0 dl = 2 * L - 1 /\ dim1 dl = 2 * L - 1 /\ (0 <= beta <= PI)%R).
Proof.
  intros dl beta L el. unfold risbo_full, risbo_arg_checks.
  destruct ((0 <=? el) && (el <? L)) eqn:E1; cbn [negb bind].
  2:{ split; [intros _; lia|reflexivity]. }
  destruct ((dim0 dl =? dim1 dl) && (dim1 dl =? 2 * L - 1)) eqn:E2; cbn [negb bind].
  2:{ split; [intros _; lia|reflexivity]. }
  destruct (Rle_dec 0 beta); [|split; [intros _; lra|reflexivity]].
  destruct (Rle_dec beta PI); [|split; [intros _; lra|reflexivity]]. cbn [bind]. split.
  - intros H. exfalso. revert H.
    assert (W : forall a ix v, @awrite R a ix v <> Err AssertionError).
    { intros. unfold awrite. destruct norm_indices; discriminate. }
    assert (RD : forall a ix, @aread R a ix <> Err AssertionError).
    { intros. unfold aread. destruct norm_indices; discriminate. }
    assert (B : forall A B (x : result A) (f : A -> result B), x <> Err AssertionError ->
        (forall v, f v <> Err AssertionError) -> bind x f <> Err AssertionError).
    { intros A0 B0 x f Hx Hf. destruct x; cbn [bind]; [apply Hf|]. intros [= ->]. now apply Hx. }
    assert (P : forall a ix v, raplus a ix v <> Err AssertionError).
    { intros. unfold aplus. apply B; auto. }
    assert (F : forall (X : Type) (f : ndarray R -> X -> result (ndarray R)) l a,
        (forall a x, f a x <> Err AssertionError) -> foldM f l a <> Err AssertionError).
    { intros X f l. induction l as [|x l IH]; intros a Hf; cbn [foldM]; [discriminate|].
      pose proof (Hf a x). destruct (f a x); [apply IH; auto|]. intros [= ->]. now apply H. }
    unfold risbo_step. destruct (el =? 0); [apply W|]. destruct (el =? 1); cbv zeta.
    { repeat (apply B; [apply W|intros]). apply W. }
    apply B.
    + unfold risbo_half1. apply F. intros. apply F. intros. apply B; [apply RD|intros]. cbv zeta.
      repeat (apply B; [apply P|intros]). apply P.
    + intros dd. unfold risbo_half2. apply F. intros. apply F. intros. apply B; [apply RD|intros]. cbv zeta.
      repeat (apply B; [apply P|intros]). apply P.
  - intros H. exfalso. apply H. repeat split; try lia; assumption.
Qed.
Print Assumptions C27_rejects.
Example C27_rejects_ex : ~ (0 <= 2 < 2 /\ dim0 (zeros 0%R [3; 3]) = 2 * 2 - 1 /\ dim1 (zeros 0%R [3; 3]) = 2 * 2 - 1 /\ (0 <= 1 <= PI)%R).
Proof. lia. Qed.
