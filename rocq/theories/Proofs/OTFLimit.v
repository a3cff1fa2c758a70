(** The sums formed by the latitudinal steps depend continuously on the angle. *)
From Coq Require Import Reals Lra Lia ZifyBool.
From Coquelicot Require Import Complex.
From Verif Require Import Lib.Py Lib.PyFacts Lib.Sums Lib.Cplx Lib.Vec Lib.Arr Spec.WignerSpec Spec.SamplesSpec Spec.OTFSpec.
From Coq Require Import List.
Import ListNotations.
Open Scope R_scope.

Lemma rsum_cons {X} (a : X) l f : rsum (a :: l) f = f a + rsum l f.
Proof. reflexivity. Qed.
Lemma csum_cons {X} (a : X) l (f : X -> C) : csum (a :: l) f = (f a + csum l f)%C.
Proof. reflexivity. Qed.

Lemma continuity_rsum {X} (l : list X) (f : X -> R -> R) : (forall i, continuity (f i)) -> continuity (fun x => rsum l (fun i => f i x)).
Proof.
  intros H. induction l as [|a l IH].
  - apply continuity_const. intros x y. reflexivity.
  - change (continuity (fun x => f a x + rsum l (fun i => f i x))). apply (continuity_plus (f a) _ (H a) IH).
Qed.
Lemma continuity_pow g n : continuity g -> continuity (fun x => g x ^ n).
Proof.
  intros H. induction n as [|n IH]; cbn; [apply continuity_const; intros x y; reflexivity|]. apply (continuity_mult g _ H IH).
Qed.
Lemma continuity_half g : continuity g -> continuity (fun x => g (x / 2)).
Proof.
  intros H. apply (continuity_comp (fun x => x / 2) g); [|exact H]. unfold Rdiv.
  apply (continuity_mult (fun x => x) (fun _ => / 2)); [apply derivable_continuous, derivable_id|apply continuity_const; intros x y; reflexivity].
Qed.
Lemma continuity_wigner l m n : continuity (wigner_d l m n).
Proof.
  unfold wigner_d. apply continuity_rsum. intros t.
  set (k := sgn (m - n + t) * (sqrt (zf (l + m) * zf (l - m) * zf (l + n) * zf (l - n)) / (zf (l + n - t) * zf t * zf (m - n + t) * zf (l - m - t)))).
  apply (continuity_mult (fun x => k * zpow (cos (x / 2)) (2 * l + n - m - 2 * t)) (fun x => zpow (sin (x / 2)) (m - n + 2 * t))).
  - apply (continuity_mult (fun _ => k)); [apply continuity_const; intros x y; reflexivity|]. apply continuity_pow, (continuity_half cos), continuity_cos.
  - apply continuity_pow, (continuity_half sin), continuity_sin.
Qed.

Lemma wigner_close l m n x eps : 0 < eps -> exists d, 0 < d /\ forall y, Rabs (y - x) < d -> Rabs (wigner_d l m n y - wigner_d l m n x) < eps.
Proof.
  intros He. destruct (continuity_wigner l m n x eps He) as (d & Hd & H). exists d. split; [exact Hd|]. intros y Hy.
  destruct (Req_EM_T x y) as [->|Hne]; [rewrite Rminus_diag_eq by reflexivity; rewrite Rabs_R0; lra|].
  apply H. split; [split; [exact I|exact Hne]|exact Hy].
Qed.

(** a finite sum of d-functions with fixed factors; the angles may differ from term to term *)
Lemma sum_close (l : list Z) (el m n : Z -> Z) (z : Z -> C) (x : Z -> R) eps : 0 < eps ->
  exists d, 0 < d /\ forall y, (forall i, In i l -> Rabs (y i - x i) < d) ->
    Cmod (csum l (fun i => RtoC (wigner_d (el i) (m i) (n i) (y i)) * z i)%C - csum l (fun i => RtoC (wigner_d (el i) (m i) (n i) (x i)) * z i)%C)%C < eps.
Proof.
  revert eps. induction l as [|a l IH]; intros eps He.
  - exists 1. split; [lra|]. intros y _. replace (_ - _)%C with (RtoC 0) by (cbn; apply C_eq; cbn; ring). rewrite Cmod_0. exact He.
  - destruct (IH (eps / 2)) as (d1 & Hd1 & H1); [lra|].
    assert (Hc : 0 < Cmod (z a) + 1) by (pose proof (Cmod_ge_0 (z a)); lra).
    destruct (wigner_close (el a) (m a) (n a) (x a) (eps / 2 / (Cmod (z a) + 1))) as (d2 & Hd2 & H2); [apply Rdiv_lt_0_compat; lra|].
    exists (Rmin d1 d2). split; [now apply Rmin_glb_lt|]. intros y Hy. rewrite !csum_cons.
    set (A := csum l (fun i => (RtoC (wigner_d (el i) (m i) (n i) (y i)) * z i)%C)).
    set (B := csum l (fun i => (RtoC (wigner_d (el i) (m i) (n i) (x i)) * z i)%C)).
    set (u := wigner_d (el a) (m a) (n a) (y a)). set (v := wigner_d (el a) (m a) (n a) (x a)).
    replace (RtoC u * z a + A - (RtoC v * z a + B))%C with (RtoC (u - v) * z a + (A - B))%C by (apply C_eq; cbn; ring).
    assert (HA : Cmod (A - B)%C < eps / 2).
    { apply H1. intros i Hi. eapply Rlt_le_trans; [apply Hy; now right|apply Rmin_l]. }
    assert (HB : Cmod (RtoC (u - v) * z a)%C <= eps / 2).
    { rewrite Cmod_mult, Cmod_R. assert (Rabs (u - v) < eps / 2 / (Cmod (z a) + 1)).
      { apply H2. eapply Rlt_le_trans; [apply Hy; now left|apply Rmin_r]. }
      pose proof (Cmod_ge_0 (z a)). pose proof (Rabs_pos (u - v)).
      apply Rle_trans with (eps / 2 / (Cmod (z a) + 1) * (Cmod (z a) + 1)); [|right; field; lra].
      apply Rmult_le_compat; lra. }
    pose proof (Cmod_triangle (RtoC (u - v) * z a)%C (A - B)%C). lra.
Qed.

Lemma latitude_close L Lo spin flm m x eps : 0 < eps -> exists d, 0 < d /\ forall y, Rabs (y - x) < d ->
  Cmod (latitude_sum L Lo spin flm y m - latitude_sum L Lo spin flm x m)%C < eps.
Proof.
  intros He. destruct (sum_close (zrange (Z.max Lo (Z.abs m)) L) (fun el => el) (fun _ => m) (fun _ => (- spin)%Z) (fun el => get flm [el; m + L - 1]%Z)
    (fun _ => x) eps He) as (d & Hd & H).
  exists d. split; [exact Hd|]. intros y Hy. apply (H (fun _ => y)). auto.
Qed.
Lemma angle_close L off spin nt ftm x el m eps : 0 < eps -> exists d, 0 < d /\ forall y, (forall t, (0 <= t < nt)%Z -> Rabs (y t - x t) < d) ->
  Cmod (angle_sum L off spin nt ftm y el m - angle_sum L off spin nt ftm x el m)%C < eps.
Proof.
  intros He. destruct (sum_close (zrange 0 nt) (fun _ => el) (fun _ => m) (fun _ => (- spin)%Z) (fun t => get ftm [t; m + L - 1 + off]%Z) x eps He) as (d & Hd & H).
  exists d. split; [exact Hd|]. intros y Hy. apply H. intros i Hi. apply in_zrange in Hi. auto.
Qed.
(** one distance for finitely many choices *)
Lemma uniform (l : list Z) (P : Z -> R -> Prop) : (forall i, In i l -> exists d, 0 < d /\ forall d', 0 < d' <= d -> P i d') ->
  exists d, 0 < d /\ forall i, In i l -> P i d.
Proof.
  intros H. assert (G : exists d, 0 < d /\ forall i d', In i l -> 0 < d' <= d -> P i d').
  { induction l as [|a l IH]; [exists 1; split; [lra|intros i d' []]|].
    destruct IH as (d1 & Hd1 & H1); [intros i Hi; apply H; now right|]. destruct (H a (or_introl eq_refl)) as (d2 & Hd2 & H2).
    exists (Rmin d1 d2). split; [now apply Rmin_glb_lt|]. intros i d' [<-|Hi] Hd'.
    - apply H2. pose proof (Rmin_r d1 d2). lra.
    - apply H1; [exact Hi|]. pose proof (Rmin_l d1 d2). lra. }
  destruct G as (d & Hd & G). exists d. split; [exact Hd|]. intros i Hi. apply G; [exact Hi|lra].
Qed.
