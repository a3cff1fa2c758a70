(** Refinement with functions equal or close to those of a reference. *)
From Coq Require Import Reals ZifyBool Lra.
From Coquelicot Require Import Complex.
From Verif Require Import Lib.Py Lib.PyFacts Lib.Vec Lib.Sums Lib.Cplx Lib.Arr Model.Index Model.Samples Model.Grids Model.Spherical Model.Refine
  Spec.SphereSpec Spec.SphericalSpec Spec.RefineSpec Spec.OTFSphericalSpec Proofs.RefineProofs.
Open Scope Z_scope.

Lemma refine_step_ext f F B F' B' y : (forall a, F a = F' a) -> (forall a, B a = B' a) -> refine_step f F B y = refine_step f F' B' y.
Proof. intros HF HB. unfold refine_step. rewrite HB. destruct (B' y); [|reflexivity]. cbn [bind]. destruct (asub _ _); [|reflexivity]. cbn [bind]. now rewrite HF. Qed.
Lemma refine_ext f n F B F' B' : (forall a, F a = F' a) -> (forall a, B a = B' a) -> refine f n F B = refine f n F' B'.
Proof.
  intros HF HB. unfold refine. rewrite HF. destruct (F' f); [|reflexivity]. cbn [bind]. apply foldM_ext. intros. now apply refine_step_ext.
Qed.

Lemma asub_ok a b : shape a = shape b -> asub a b = Ok (mkArr (shape a) (fun ix => (get a ix - get b ix)%C)).
Proof. intros H. unfold asub. now rewrite shape_is_true. Qed.
Lemma aadd_ok a b : shape a = shape b -> aadd a b = Ok (mkArr (shape a) (fun ix => (get a ix + get b ix)%C)).
Proof. intros H. unfold aadd. now rewrite shape_is_true. Qed.
Lemma sub_comb a b : shape a = shape b -> combination (RtoC 1) (RtoC (-1)) a b (mkArr (shape a) (fun ix => (get a ix - get b ix)%C)).
Proof. intros H. split; [reflexivity|]. split; [symmetry; exact H|]. intros ix _. cbn [get]. rewrite RtoC_m1. ring. Qed.
Lemma add_comb a b : shape a = shape b -> combination (RtoC 1) (RtoC 1) a b (mkArr (shape a) (fun ix => (get a ix + get b ix)%C)).
Proof. intros H. split; [reflexivity|]. split; [symmetry; exact H|]. intros ix _. cbn [get]. ring. Qed.

Section Same.
  Variables (shf shc : list Z) (P Q : ndarray C -> Prop) (F0 B0 F B : ndarray C -> result (ndarray C)).
  Hypothesis (SP : array_space shf P) (SQ : array_space shc Q) (LF : linear_map P Q F0) (LB : linear_map Q P B0)
    (HF : forall f, P f -> same_ok (F f) (F0 f)) (HB : forall y, Q y -> same_ok (B y) (B0 y)).
  Lemma space_eq (sh : list Z) (S : ndarray C -> Prop) a b : array_space sh S -> S a -> arr_eq a b -> S b.
  Proof. intros SS Ha E. apply (proj2 SS 1%R 0%R a a b); auto. now apply same_comb. Qed.
  Lemma F_same f f' g : P f -> arr_eq f f' -> F0 f = Ok g -> Q g /\ exists g', F f' = Ok g' /\ arr_eq g g'.
  Proof.
    intros Hf E E0. destruct (proj1 LF f Hf) as (g1 & E1 & Q1). assert (g1 = g) by congruence. subst g1. split; [exact Q1|].
    destruct (F_eq shf P Q F0 SP LF f f' g Hf E E0) as (g2 & E2 & A2).
    destruct (HF f') as (a & b & Ea & Eb & Ab); [now apply (space_eq shf P f)|]. exists a. split; [exact Ea|].
    assert (b = g2) by congruence. subst b. eapply arr_eq_trans; [exact A2|]. now apply arr_eq_sym.
  Qed.
  Lemma B_same y y' g : Q y -> arr_eq y y' -> B0 y = Ok g -> P g /\ exists g', B y' = Ok g' /\ arr_eq g g'.
  Proof.
    intros Hf E E0. destruct (proj1 LB y Hf) as (g1 & E1 & Q1). assert (g1 = g) by congruence. subst g1. split; [exact Q1|].
    destruct (B_eq shc P Q B0 SQ LB y y' g Hf E E0) as (g2 & E2 & A2).
    destruct (HB y') as (a & b & Ea & Eb & Ab); [now apply (space_eq shc Q y)|]. exists a. split; [exact Ea|].
    assert (b = g2) by congruence. subst b. eapply arr_eq_trans; [exact A2|]. now apply arr_eq_sym.
  Qed.
  Lemma refine_same f n : P f -> 0 <= n -> same_ok (refine f n F B) (refine f n F0 B0).
  Proof.
    intros Hf Hn. enough (K : exists y0 y, refine f n F0 B0 = Ok y0 /\ Q y0 /\ refine f n F B = Ok y /\ arr_eq y0 y).
    { destruct K as (y0 & y & E0 & _ & E & A). exists y, y0. split; [exact E|]. split; [exact E0|]. now apply arr_eq_sym. }
    revert n Hn. apply natlike_ind.
    - rewrite !refine_0 by lia. destruct (proj1 LF f Hf) as (y0 & E0 & _). destruct (F_same f f y0 Hf (arr_eq_refl f) E0) as (Qy & y & E & A).
      exists y0, y. auto.
    - intros n Hn (y0 & y & E0 & Qy & E & A). unfold Z.succ. rewrite !refine_succ by lia. rewrite E0, E. cbn [bind]. unfold refine_step.
      destruct (proj1 LB y0 Qy) as (b0 & Eb0 & Pb0). destruct (B_same y0 y b0 Qy A Eb0) as (_ & b & Eb & Ab). rewrite Eb0, Eb. cbn [bind].
      pose proof (proj1 SP f Hf) as Sf. pose proof (proj1 SP b0 Pb0) as Sb0. pose proof (proj1 SQ y0 Qy) as Sy0.
      pose proof (proj1 Ab) as Sb. pose proof (proj1 A) as Sy.
      rewrite !asub_ok by congruence. cbn [bind]. set (e0 := mkArr _ _). set (e := mkArr _ _).
      assert (Pe0 : P e0) by (apply (proj2 SP 1%R (-1)%R f b0); auto; apply sub_comb; congruence).
      assert (Ae : arr_eq e0 e).
      { split; [reflexivity|]. intros ix Hix. cbn [e0 e get]. rewrite (proj2 Ab); [reflexivity|]. rewrite Sb0, <- Sf. exact Hix. }
      destruct (proj1 LF e0 Pe0) as (d0 & Ed0 & Qd0). destruct (F_same e0 e d0 Pe0 Ae Ed0) as (_ & d & Ed & Ad). rewrite Ed0, Ed. cbn [bind].
      pose proof (proj1 SQ d0 Qd0) as Sd0. pose proof (proj1 Ad) as Sd.
      rewrite !aadd_ok by congruence. do 2 eexists. split; [reflexivity|]. split; [|split; [reflexivity|]].
      + apply (proj2 SQ 1%R 1%R y0 d0); auto. apply add_comb. congruence.
      + split; [exact Sy|]. intros ix Hix. cbn [get shape] in *. rewrite (proj2 A) by exact Hix. rewrite (proj2 Ad); [reflexivity|]. rewrite Sd0, <- Sy0. exact Hix.
  Qed.
End Same.

Lemma near_mono d d' a b : (d' <= d)%R -> arrays_near d' a b -> arrays_near d a b.
Proof. intros Hd [S H]. split; [exact S|]. intros ix Hix. specialize (H ix Hix). lra. Qed.

Section Near.
  Context {U : Type} (near : R -> U -> Prop).
  Variables (shf shc : list Z) (P0 Q0 P Q : ndarray C -> Prop) (F0 B0 : ndarray C -> result (ndarray C)) (F B : U -> ndarray C -> result (ndarray C)).
  Hypothesis (mono : forall d d' u, (0 < d' <= d)%R -> near d' u -> near d u)
    (SP0 : array_space shf P0) (SQ0 : array_space shc Q0) (SP : array_space shf P) (SQ : array_space shc Q)
    (LF0 : linear_map P0 Q0 F0) (LB0 : linear_map Q0 P0 B0)
    (contF : forall f0 g0 eps, P0 f0 -> F0 f0 = Ok g0 -> (0 < eps)%R -> exists d, (0 < d)%R /\ forall u f, near d u -> P f -> arrays_near d f f0 ->
       exists g, F u f = Ok g /\ Q g /\ arrays_near eps g g0)
    (contB : forall y0 g0 eps, Q0 y0 -> B0 y0 = Ok g0 -> (0 < eps)%R -> exists d, (0 < d)%R /\ forall u y, near d u -> Q y -> arrays_near d y y0 ->
       exists g, B u y = Ok g /\ P g /\ arrays_near eps g g0).
  Lemma refine_near f0 n : P0 f0 -> 0 <= n -> exists y0, refine f0 n F0 B0 = Ok y0 /\ Q0 y0 /\ forall eps, (0 < eps)%R -> exists d, (0 < d)%R /\
    forall u f, near d u -> P f -> arrays_near d f f0 -> exists y, refine f n (F u) (B u) = Ok y /\ Q y /\ arrays_near eps y y0.
  Proof.
    intros Hf0 Hn. revert n Hn. apply natlike_ind.
    - rewrite refine_0 by lia. destruct (proj1 LF0 f0 Hf0) as (y0 & E0 & Q1). exists y0. split; [exact E0|]. split; [exact Q1|]. intros eps He.
      destruct (contF f0 y0 eps Hf0 E0 He) as (d & D & H). exists d. split; [exact D|]. intros u f Hu Hf HN. rewrite refine_0 by lia. now apply H.
    - intros n Hn (y0 & E0 & Qy0 & IH). unfold Z.succ.
      destruct (proj1 LB0 y0 Qy0) as (b0 & Eb0 & Pb0).
      pose proof (proj1 SP0 f0 Hf0) as Sf0. pose proof (proj1 SP0 b0 Pb0) as Sb0. pose proof (proj1 SQ0 y0 Qy0) as Sy0.
      set (e0 := mkArr (shape f0) (fun ix => (get f0 ix - get b0 ix)%C)).
      assert (Pe0 : P0 e0) by (apply (proj2 SP0 1%R (-1)%R f0 b0); auto; apply sub_comb; congruence).
      destruct (proj1 LF0 e0 Pe0) as (d0 & Ed0 & Qd0). pose proof (proj1 SQ0 d0 Qd0) as Sd0.
      exists (mkArr (shape y0) (fun ix => (get y0 ix + get d0 ix)%C)).
      split; [|split; [apply (proj2 SQ0 1%R 1%R y0 d0); auto; apply add_comb; congruence|]].
      { rewrite refine_succ by lia. rewrite E0. cbn [bind]. unfold refine_step. rewrite Eb0. cbn [bind]. rewrite asub_ok by congruence. cbn [bind].
        fold e0. rewrite Ed0. cbn [bind]. now rewrite aadd_ok by congruence. }
      intros eps He. destruct (contF e0 d0 (eps / 2)%R Pe0 Ed0 ltac:(lra)) as (r1 & R1 & H1).
      destruct (contB y0 b0 (r1 / 2)%R Qy0 Eb0 ltac:(lra)) as (r2 & R2 & H2).
      destruct (IH (Rmin r2 (eps / 2))) as (r3 & R3 & H3).
      { apply Rmin_glb_lt; lra. }
      set (d := Rmin r3 (Rmin r2 (r1 / 2))).
      assert (Dd : (0 < d)%R) by (unfold d; repeat apply Rmin_glb_lt; lra).
      assert (D3 : (d <= r3)%R) by apply Rmin_l.
      assert (D2 : (d <= r2)%R) by (eapply Rle_trans; [apply Rmin_r|apply Rmin_l]).
      assert (D1 : (d <= r1 / 2)%R) by (eapply Rle_trans; [apply Rmin_r|apply Rmin_r]).
      exists d. split; [exact Dd|]. intros u f Hu Hf HN. rewrite refine_succ by lia.
      destruct (H3 u f) as (y & Ey & Qy & Ny); [apply (mono _ d); auto; lra|exact Hf|now apply (near_mono r3 d)|].
      rewrite Ey. cbn [bind]. unfold refine_step.
      destruct (H2 u y) as (b & Eb & Pb & Nb); [apply (mono _ d); auto; lra|exact Qy|eapply near_mono; [apply Rmin_l|exact Ny]|].
      rewrite Eb. cbn [bind].
      pose proof (proj1 SP f Hf) as Sf. pose proof (proj1 SP b Pb) as Sb. pose proof (proj1 SQ y Qy) as Sy.
      rewrite asub_ok by congruence. cbn [bind]. set (e := mkArr (shape f) _).
      assert (Pe : P e) by (apply (proj2 SP 1%R (-1)%R f b); auto; apply sub_comb; congruence).
      assert (Ne : arrays_near r1 e e0).
      { split; [cbn; congruence|]. cbn [e shape]. intros ix Hix. cbn [e e0 get].
        replace (get f ix - get b ix - (get f0 ix - get b0 ix))%C with ((get f ix - get f0 ix) + - (get b ix - get b0 ix))%C by ring.
        eapply Rle_lt_trans; [apply Cmod_triangle|]. rewrite Cmod_opp.
        assert (A1 : (Cmod (get f ix - get f0 ix)%C < d)%R) by (apply HN; exact Hix).
        assert (A2 : (Cmod (get b ix - get b0 ix)%C < r1 / 2)%R) by (apply Nb; rewrite Sb, <- Sf; exact Hix). lra. }
      destruct (H1 u e) as (g & Eg & Qg & Ng); [apply (mono _ d); auto; lra|exact Pe|exact Ne|].
      rewrite Eg. cbn [bind]. pose proof (proj1 SQ g Qg) as Sg. rewrite aadd_ok by congruence. eexists. split; [reflexivity|]. split.
      + apply (proj2 SQ 1%R 1%R y g); auto. apply add_comb. congruence.
      + split; [cbn; congruence|]. cbn [shape]. intros ix Hix. cbn [get].
        replace (get y ix + get g ix - (get y0 ix + get d0 ix))%C with ((get y ix - get y0 ix) + (get g ix - get d0 ix))%C by ring.
        eapply Rle_lt_trans; [apply Cmod_triangle|].
        assert (A1 : (Cmod (get y ix - get y0 ix)%C < eps / 2)%R) by (eapply Rlt_le_trans; [apply Ny; exact Hix|apply Rmin_r]).
        assert (A2 : (Cmod (get g ix - get d0 ix)%C < eps / 2)%R) by (apply Ng; rewrite Sg, <- Sy; exact Hix). lra.
  Qed.
End Near.
