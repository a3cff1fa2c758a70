(** Limits of complex functions of a parameter that is known up to a distance. *)
From Coq Require Import Reals Lra List.
From Coquelicot Require Import Complex.
From Verif Require Import Lib.Py Lib.Sums Lib.Cplx.
Import ListNotations.
Open Scope R_scope.

Section Lim.
  Context {T : Type} (P : R -> T -> Prop).
  Hypothesis mono : forall d d' u, 0 < d' <= d -> P d' u -> P d u.

  Definition lim (f : T -> C) (z : C) : Prop :=
    forall eps, 0 < eps -> exists d, 0 < d /\ forall u, P d u -> Cmod (f u - z)%C < eps.

  Lemma lim_const z : lim (fun _ => z) z.
  Proof. intros eps He. exists 1. split; [lra|]. intros u _. replace (z - z)%C with (RtoC 0) by ring. now rewrite Cmod_0. Qed.
  Lemma lim_ext f g z : (forall u, f u = g u) -> lim f z -> lim g z.
  Proof. intros E H eps He. destruct (H eps He) as (d & Hd & Hu). exists d. split; [exact Hd|]. intros u Hp. rewrite <- E. now apply Hu. Qed.
  Lemma lim_ext_P f g z : (forall d u, P d u -> f u = g u) -> lim f z -> lim g z.
  Proof. intros E H eps He. destruct (H eps He) as (d & Hd & Hu). exists d. split; [exact Hd|]. intros u Hp. rewrite <- (E d u Hp). now apply Hu. Qed.

  Lemma lim_plus f g a b : lim f a -> lim g b -> lim (fun u => f u + g u)%C (a + b)%C.
  Proof.
    intros Hf Hg eps He. destruct (Hf (eps / 2) ltac:(lra)) as (d1 & D1 & H1). destruct (Hg (eps / 2) ltac:(lra)) as (d2 & D2 & H2).
    exists (Rmin d1 d2). split; [now apply Rmin_glb_lt|]. intros u Hu.
    specialize (H1 u (mono _ _ _ (conj (Rmin_glb_lt _ _ _ D1 D2) (Rmin_l _ _)) Hu)).
    specialize (H2 u (mono _ _ _ (conj (Rmin_glb_lt _ _ _ D1 D2) (Rmin_r _ _)) Hu)).
    replace (f u + g u - (a + b))%C with ((f u - a) + (g u - b))%C by ring.
    eapply Rle_lt_trans; [apply Cmod_triangle|lra].
  Qed.
  Lemma lim_mult f g a b : lim f a -> lim g b -> lim (fun u => f u * g u)%C (a * b)%C.
  Proof.
    intros Hf Hg eps He. pose proof (Cmod_ge_0 a) as A0. pose proof (Cmod_ge_0 b) as B0.
    set (K := 1 + Cmod a + Cmod b). set (e := Rmin 1 (eps / K)).
    assert (K0 : 0 < K) by (unfold K; lra).
    assert (E0 : 0 < e) by (apply Rmin_glb_lt; [lra|now apply Rdiv_lt_0_compat]).
    destruct (Hf e E0) as (d1 & D1 & H1). destruct (Hg e E0) as (d2 & D2 & H2).
    exists (Rmin d1 d2). split; [now apply Rmin_glb_lt|]. intros u Hu.
    specialize (H1 u (mono _ _ _ (conj (Rmin_glb_lt _ _ _ D1 D2) (Rmin_l _ _)) Hu)).
    specialize (H2 u (mono _ _ _ (conj (Rmin_glb_lt _ _ _ D1 D2) (Rmin_r _ _)) Hu)).
    set (x := (f u - a)%C) in *. set (y := (g u - b)%C) in *.
    replace (f u * g u - a * b)%C with (x * y + (a * y + b * x))%C by (unfold x, y; ring).
    eapply Rle_lt_trans; [apply Cmod_triangle|]. pose proof (Cmod_triangle (a * y)%C (b * x)%C) as Tr. rewrite !Cmod_mult in *.
    pose proof (Cmod_ge_0 x) as X0. pose proof (Cmod_ge_0 y) as Y0.
    assert (E1 : e <= 1) by apply Rmin_l.
    assert (E2 : e * K <= eps).
    { apply (Rmult_le_reg_r (/ K)); [now apply Rinv_0_lt_compat|]. rewrite Rmult_assoc, Rinv_r by lra. rewrite Rmult_1_r. apply Rmin_r. }
    unfold K in E2. apply Rlt_le_trans with (e * (1 + Cmod a + Cmod b)); [|exact E2].
    assert (Cmod x * Cmod y < e * 1) by (apply Rmult_le_0_lt_compat; lra).
    assert (Cmod a * Cmod y <= Cmod a * e) by (apply Rmult_le_compat_l; lra).
    assert (Cmod b * Cmod x <= Cmod b * e) by (apply Rmult_le_compat_l; lra). lra.
  Qed.
  Lemma lim_sum {X} (l : list X) (f : T -> X -> C) z : (forall i, In i l -> lim (fun u => f u i) (z i)) -> lim (fun u => csum l (f u)) (csum l z).
  Proof.
    induction l as [|a l IH]; intros H.
    - exact (lim_const (RtoC 0)).
    - change (lim (fun u => f u a + csum l (f u))%C (z a + csum l z)%C). apply lim_plus; [apply H; now left|apply IH; intros i Hi; apply H; now right].
  Qed.
  Lemma lim_re f z : lim f z -> lim (fun u => RtoC (Re (f u))) (RtoC (Re z)).
  Proof.
    intros H eps He. destruct (H eps He) as (d & Hd & Hu). exists d. split; [exact Hd|]. intros u Hp.
    eapply Rle_lt_trans; [|apply (Hu u Hp)]. rewrite <- RtoC_minus, Cmod_R.
    replace (Re (f u) - Re z) with (Re (f u - z)%C) by (destruct (f u), z; reflexivity).
    eapply Rle_trans; [|apply Rmax_Cmod]. apply Rmax_l.
  Qed.
  (** finitely many limits at once *)
  Lemma lim_all {X} (l : list X) (f : X -> T -> C) z : (forall i, In i l -> lim (f i) (z i)) ->
    forall eps, 0 < eps -> exists d, 0 < d /\ forall u, P d u -> forall i, In i l -> Cmod (f i u - z i)%C < eps.
  Proof.
    intros H eps He. induction l as [|a l IH].
    - exists 1. split; [lra|]. intros u _ i [].
    - destruct IH as (d1 & D1 & H1); [intros i Hi; apply H; now right|]. destruct (H a (or_introl eq_refl) eps He) as (d2 & D2 & H2).
      exists (Rmin d1 d2). split; [now apply Rmin_glb_lt|]. intros u Hu i [<-|Hi].
      + apply H2, (mono _ _ _ (conj (Rmin_glb_lt _ _ _ D1 D2) (Rmin_r _ _)) Hu).
      + apply H1; [apply (mono _ _ _ (conj (Rmin_glb_lt _ _ _ D1 D2) (Rmin_l _ _)) Hu)|exact Hi].
  Qed.
End Lim.
