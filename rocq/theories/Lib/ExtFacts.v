(** Facts about the arithmetic of Lib/Ext.v on finite values. *)
From Coq Require Import Reals Lra Lia.
From Coquelicot Require Import Complex.
From Verif Require Import Lib.Py Lib.PyFacts Lib.Sums Lib.Cplx Lib.Ext.
Open Scope R_scope.

Lemma rsgn_pos r : 0 < r -> rsgn r = Gt.
Proof. intros H. unfold rsgn. destruct (Rlt_dec r 0); [lra|]. destruct (Rlt_dec 0 r); [reflexivity|lra]. Qed.
Lemma ediv_fin a b : b <> 0 -> ediv (Fin a) (Fin b) = Fin (a / b).
Proof. intros H. cbn. destruct (Req_EM_T b 0); [contradiction|reflexivity]. Qed.
Lemma elog_pos r : 0 < r -> elog (Fin r) = Fin (ln r).
Proof. intros H. cbn. now rewrite rsgn_pos. Qed.
Lemma esqrt_pos r : 0 < r -> esqrt (Fin r) = Fin (sqrt r).
Proof. intros H. cbn. now rewrite rsgn_pos. Qed.
Lemma rsgn_0 : rsgn 0 = Eq.
Proof. unfold rsgn. destruct (Rlt_dec 0 0); [lra|reflexivity]. Qed.
Lemma cmul_eq c : cmul c Eq = Eq.
Proof. now destruct c. Qed.
(** anything times zero is zero or NaN *)
Lemma emul_zero x : emul x (Fin 0) = Fin 0 \/ emul x (Fin 0) = NaN.
Proof.
  destruct x as [r| | |]; cbn; rewrite ?rsgn_0; cbn; auto. left. f_equal. ring.
Qed.
Lemma escale_fin x z : escale (Fin x) z = fin (RtoC x * z)%C.
Proof. destruct z as [a b]. unfold escale, fin. cbn. f_equal; f_equal; ring. Qed.
Lemma escale_zero x : (if cx_nan (escale x (RtoC 0)) then fin (RtoC 0) else escale x (RtoC 0)) = fin (RtoC 0).
Proof.
  unfold escale, cx_nan. cbn [fst snd]. change (Re (RtoC 0)) with 0. change (Im (RtoC 0)) with 0.
  destruct (emul_zero x) as [E|E]; rewrite E; reflexivity.
Qed.
Lemma cx_nan_fin z : cx_nan (fin z) = false.
Proof. reflexivity. Qed.
Lemma cadd_fin z w : cadd (fin z) (fin w) = fin (z + w)%C.
Proof. reflexivity. Qed.
Lemma fin_inj z w : fin z = fin w -> z = w.
Proof. destruct z, w. unfold fin. cbn. intros H. injection H as -> ->. reflexivity. Qed.
Lemma to_C_fin z : to_C (fin z) = Ok z.
Proof. destruct z. reflexivity. Qed.

Lemma nansum_snoc a b f : (a <= b)%Z -> nansum (zrange a (b + 1)) f =
  cadd (nansum (zrange a b) f) (if cx_nan (f b) then fin (RtoC 0) else f b).
Proof. intros H. unfold nansum. rewrite zrange_snoc by exact H. rewrite fold_left_app. reflexivity. Qed.

(** the terms are finite numbers, or become zero *)
Lemma nansum_fin a b f g : (forall i, (a <= i < b)%Z -> (if cx_nan (f i) then fin (RtoC 0) else f i) = fin (g i)) ->
  nansum (zrange a b) f = fin (csum (zrange a b) g).
Proof.
  destruct (Z.le_gt_cases a b) as [Hab|Hab].
  2:{ intros _. rewrite zrange_nil by lia. reflexivity. }
  intros H. revert b Hab H. refine (Zlt_lower_bound_ind _ a _). intros b IH Hb H.
  destruct (Z.eq_dec a b) as [->|Hne]. { rewrite zrange_nil by lia. reflexivity. }
  replace b with (b - 1 + 1)%Z at 1 2 by lia. rewrite nansum_snoc by lia. rewrite IH by (auto; try lia; intros; apply H; lia).
  rewrite H by lia. rewrite cadd_fin. f_equal. symmetry. apply cr_snoc. lia.
Qed.
