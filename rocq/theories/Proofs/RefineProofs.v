(** Iterative refinement. *)
From Coq Require Import Reals ZifyBool Lra Lia.
From Coquelicot Require Import Complex.
From Verif Require Import Lib.Py Lib.PyFacts Lib.Vec Lib.Sums Lib.Cplx Lib.Arr Model.Index Model.Samples Model.Grids Model.Spherical Model.Refine Spec.SphericalSpec Spec.RefineSpec.
Open Scope Z_scope.

Lemma shape_is_refl sh : shape_is sh sh = true.
Proof. unfold shape_is. destruct (list_eq_dec Z.eq_dec sh sh); congruence. Qed.
Lemma shape_is_true sh sh' : sh = sh' -> shape_is sh sh' = true.
Proof. intros ->. apply shape_is_refl. Qed.
Lemma RtoC_m1 : RtoC (-1) = (- RtoC 1)%C.
Proof. unfold RtoC, Copp. cbn. f_equal; lra. Qed.
Lemma arr_eq_refl {T} (a : ndarray T) : arr_eq a a.
Proof. split; auto. Qed.
Lemma arr_eq_sym {T} (a b : ndarray T) : arr_eq a b -> arr_eq b a.
Proof. intros (H1 & H2). split; [auto|]. intros ix Hix. rewrite <- H1 in Hix. symmetry. auto. Qed.
Lemma arr_eq_trans {T} (a b c : ndarray T) : arr_eq a b -> arr_eq b c -> arr_eq a c.
Proof. intros (H1 & H2) (H3 & H4). split; [congruence|]. intros ix Hix. rewrite H2 by auto. apply H4. now rewrite <- H1. Qed.
Lemma same_comb a b : arr_eq a b -> combination (RtoC 1) (RtoC 0) a a b.
Proof.
  intros (H1 & H2). split; [exact H1|]. split; [exact H1|]. intros ix Hix. rewrite <- H2 by (rewrite H1; exact Hix). ring.
Qed.
Lemma comb_eq x y a b c a' b' c' : combination x y a b c -> arr_eq a a' -> arr_eq b b' -> arr_eq c c' -> combination x y a' b' c'.
Proof.
  intros (H1 & H2 & H3) (A1 & A2) (B1 & B2) (C1 & C2). split; [congruence|]. split; [congruence|].
  intros ix Hix. rewrite <- C1 in Hix. rewrite <- C2, <- A2, <- B2, H3 by (congruence || auto). reflexivity.
Qed.
Lemma comb_unique x y a b c c' : combination x y a b c -> combination x y a b c' -> arr_eq c c'.
Proof.
  intros (H1 & H2 & H3) (H1' & H2' & H3'). split; [congruence|]. intros ix Hix. rewrite H3 by auto. rewrite H3' by congruence. reflexivity.
Qed.

Section Refine.
  Variables (shf shc : list Z) (P Q : ndarray C -> Prop) (F B : ndarray C -> result (ndarray C)).
  Hypothesis (SP : array_space shf P) (SQ : array_space shc Q) (LF : linear_map P Q F) (LB : linear_map Q P B).

  Lemma F_eq a a' b : P a -> arr_eq a a' -> F a = Ok b -> exists b', F a' = Ok b' /\ arr_eq b b'.
  Proof using SP LF.
    intros Pa E Ea. assert (Pa' : P a') by (apply (proj2 SP 1%R 0%R a a a'); auto; now apply same_comb).
    destruct (proj2 LF 1%R 0%R a a a' Pa Pa Pa' (same_comb _ _ E)) as (x & y & z & E1 & E2 & E3 & C1 & C2 & C3).
    exists z. split; [exact E3|]. assert (x = b) by congruence. assert (y = b) by congruence. subst x y.
    split; [exact C1|]. intros ix Hix. rewrite C3 by congruence. ring.
  Qed.
  Lemma B_eq a a' b : Q a -> arr_eq a a' -> B a = Ok b -> exists b', B a' = Ok b' /\ arr_eq b b'.
  Proof using SQ LB.
    intros Pa E Ea. assert (Pa' : Q a') by (apply (proj2 SQ 1%R 0%R a a a'); auto; now apply same_comb).
    destruct (proj2 LB 1%R 0%R a a a' Pa Pa Pa' (same_comb _ _ E)) as (x & y & z & E1 & E2 & E3 & C1 & C2 & C3).
    exists z. split; [exact E3|]. assert (x = b) by congruence. assert (y = b) by congruence. subst x y.
    split; [exact C1|]. intros ix Hix. rewrite C3 by congruence. ring.
  Qed.
  Lemma defect_Q k x e : Q x -> defect F B k x e -> Q e.
  Proof using SQ LF LB.
    intros Qx D. induction D as [x e E|k x b c y e E1 E2 E3 D IH].
    - apply (proj2 SQ 1%R 0%R x x e); auto. now apply same_comb.
    - apply IH. destruct (proj1 LB x Qx) as (b' & Eb & Pb). assert (b' = b) by congruence. subst b'.
      destruct (proj1 LF b Pb) as (c' & Ec & Qc). assert (c' = c) by congruence. subst c'.
      now apply (proj2 SQ 1%R (-1)%R x c y).
  Qed.
  Lemma defect_eq k x x' e e' : Q x -> defect F B k x e -> arr_eq x x' -> arr_eq e e' -> defect F B k x' e'.
  Proof using SP SQ LF LB.
    intros Qx D. revert x'. induction D as [x e E|k x b c y e E1 E2 E3 D IH]; intros x' Ex Ee.
    - constructor. eapply arr_eq_trans; [apply arr_eq_sym; exact Ex|]. eapply arr_eq_trans; [exact E|exact Ee].
    - destruct (proj1 LB x Qx) as (b0 & Eb0 & Pb). assert (b0 = b) by congruence. subst b0.
      destruct (proj1 LF b Pb) as (c0 & Ec0 & Qc). assert (c0 = c) by congruence. subst c0.
      destruct (B_eq x x' b Qx Ex E1) as (b' & Eb' & Hb). destruct (F_eq b b' c Pb Hb E2) as (c' & Ec' & Hc).
      apply (defect_S F B k x' b' c' y e' Eb' Ec').
      + apply (comb_eq _ _ _ _ _ _ _ _ E3); auto. apply arr_eq_refl.
      + apply IH; auto using arr_eq_refl. now apply (proj2 SQ 1%R (-1)%R x c y).
  Qed.
  Lemma defect_snoc k x e b c d : defect F B k x e -> B e = Ok b -> F b = Ok c -> difference e c d -> Q x -> defect F B (S k) x d.
  Proof using SP SQ LF LB.
    intros D E1 E2 E3 Qx. induction D as [x e E|k x b0 c0 y e B1 B2 B3 D IH].
    - apply (defect_eq 1 e x d d); auto using arr_eq_refl, arr_eq_sym.
      + apply (proj2 SQ 1%R 0%R x x e); auto. now apply same_comb.
      + apply (defect_S F B 0 e b c d d); auto. constructor. apply arr_eq_refl.
    - apply (defect_S F B (S k) x b0 c0 y d); auto. apply IH; auto.
      destruct (proj1 LB x Qx) as (b' & Eb0 & Pb). assert (b' = b0) by congruence. subst b'.
      destruct (proj1 LF b0 Pb) as (c' & Ec0 & Qc). assert (c' = c0) by congruence. subst c'.
      now apply (proj2 SQ 1%R (-1)%R x c0 y).
  Qed.

  (** one step: flm + F (f - B flm) *)
  Lemma step_ok f flm : P f -> Q flm -> exists b e d y, B flm = Ok b /\ P b /\ difference f b e /\ P e /\ F e = Ok d /\ Q d /\
    combination (RtoC 1) (RtoC 1) flm d y /\ Q y /\ refine_step f F B flm = Ok y.
  Proof using SP SQ LF LB.
    intros Pf Qm. destruct (proj1 LB flm Qm) as (b & Eb & Pb). unfold refine_step. rewrite Eb. cbn [bind].
    unfold asub. rewrite shape_is_true by (now rewrite (proj1 SP f Pf), (proj1 SP b Pb)). cbn [bind].
    set (e := mkArr _ _). 
    assert (De : difference f b e).
    { split; [reflexivity|]. split; [cbn; now rewrite (proj1 SP f Pf), (proj1 SP b Pb)|]. intros ix _. cbn [e get]. unfold Cminus. rewrite RtoC_m1. ring. }
    assert (Pe : P e) by now apply (proj2 SP 1%R (-1)%R f b e).
    destruct (proj1 LF e Pe) as (d & Ed & Qd). rewrite Ed. cbn [bind]. unfold aadd.
    rewrite shape_is_true by (now rewrite (proj1 SQ flm Qm), (proj1 SQ d Qd)).
    set (y := mkArr _ _).
    assert (Dy : combination (RtoC 1) (RtoC 1) flm d y).
    { split; [reflexivity|]. split; [cbn; now rewrite (proj1 SQ flm Qm), (proj1 SQ d Qd)|]. intros ix _. cbn [y get]. ring. }
    assert (Qy : Q y) by now apply (proj2 SQ 1%R 1%R flm d y).
    exists b, e, d, y. repeat (split; [assumption || reflexivity|]). reflexivity.
  Qed.
  Lemma refine_0 f n : n <= 0 -> refine f n F B = F f.
  Proof. clear. intros H. unfold refine. rewrite zrange_nil by lia. destruct (F f); reflexivity. Qed.
  Lemma refine_succ f n : 0 <= n -> refine f (n + 1) F B = let* y := refine f n F B in refine_step f F B y.
  Proof.
    clear. intros H. unfold refine. destruct (F f) as [a|]; [|reflexivity]. cbn [bind]. rewrite zrange_snoc by lia.
    rewrite foldM_app. destruct (foldM _ (zrange 0 n) a) as [c|]; [|reflexivity]. cbn [bind foldM].
    destruct (refine_step f F B c); reflexivity.
  Qed.

  (** the residual of n iterations *)
  Lemma refine_residual f g : P f -> F f = Ok g -> forall n, 0 <= n -> exists y b e d, refine f n F B = Ok y /\ Q y /\ B y = Ok b /\ difference f b e /\
    F e = Ok d /\ defect F B (S (Z.to_nat n)) g d.
  Proof using SP SQ LF LB.
    intros Pf Eg. assert (Qg : Q g). { destruct (proj1 LF f Pf) as (g' & E & H). congruence. }
    refine (natlike_ind _ _ _).
    - destruct (step_ok f g Pf Qg) as (b & e & d & y & Eb & Pb & De & Pe & Ed & Qd & _).
      exists g, b, e, d. rewrite refine_0 by lia. repeat (split; [assumption|]).
      destruct (proj1 LF b Pb) as (c & Ec & Qc).
      apply (defect_S F B 0 g b c d d Eb Ec); [|constructor; apply arr_eq_refl].
      destruct (proj2 LF 1%R (-1)%R f b e Pf Pb Pe De) as (x1 & x2 & x3 & E1 & E2 & E3 & HC). unfold difference. congruence.
    - intros n Hn (y & b & e & d & Ey & Qy & Eb & De & Ed & HD).
      destruct (step_ok f y Pf Qy) as (b1 & e1 & d1 & y1 & Eb1 & Pb1 & De1 & Pe1 & Ed1 & Qd1 & Cy & Qy1 & Ey1).
      assert (b1 = b) by congruence. subst b1.
      destruct (F_eq e1 e d1 Pe1 (comb_unique _ _ _ _ _ _ De1 De) Ed1) as (d' & Ed' & Hd'). assert (d' = d) by congruence. subst d'.
      destruct (step_ok f y1 Pf Qy1) as (b2 & e2 & d2 & y2 & Eb2 & Pb2 & De2 & Pe2 & Ed2 & Qd2 & _).
      exists y1, b2, e2, d2. unfold Z.succ. rewrite refine_succ by lia. rewrite Ey. cbn [bind]. repeat (split; [assumption|]).
      replace (Z.to_nat (n + 1)) with (S (Z.to_nat n)) by lia.
      (* b2 = b + B d1; e2 = e1 - B d1; d2 = d1 - F (B d1) *)
      destruct (proj1 LB d1 Qd1) as (bd & Ebd & Pbd). destruct (proj1 LF bd Pbd) as (c & Ec & Qc).
      destruct (proj2 LB 1%R 1%R y d1 y1 Qy Qd1 Qy1 Cy) as (x1 & x2 & x3 & E1 & E2 & E3 & HB).
      assert (x1 = b) by congruence. assert (x2 = bd) by congruence. assert (x3 = b2) by congruence. subst x1 x2 x3.
      assert (HE : difference e1 bd e2).
      { destruct De1 as (D1 & D2 & D3). destruct De2 as (D1' & D2' & D3'). destruct HB as (B1 & B2 & B3).
        split; [congruence|]. split; [congruence|]. intros ix Hix. rewrite D3', D3, B3 by congruence. rewrite !RtoC_m1. ring. }
      destruct (proj2 LF 1%R (-1)%R e1 bd e2 Pe1 Pbd Pe2 HE) as (x1 & x2 & x3 & F1 & F2 & F3 & HC).
      assert (x1 = d1) by congruence. assert (x2 = c) by congruence. assert (x3 = d2) by congruence. subst x1 x2 x3.
      apply (defect_snoc (S (Z.to_nat n)) g d1 bd c d2); auto.
      apply (defect_eq _ g g d d1); auto using arr_eq_refl, arr_eq_sym.
  Qed.
  (** the sum of the powers *)
  Lemma refine_sum f g : P f -> F f = Ok g -> forall n, 0 <= n -> exists y T, refine f n F B = Ok y /\
    (forall j, (j <= Z.to_nat n)%nat -> defect F B j g (T j)) /\
    forall ix, in_shape shc ix -> get y ix = csum (zrange 0 (n + 1)) (fun j => get (T (Z.to_nat j)) ix).
  Proof using SP SQ LF LB.
    intros Pf Eg. assert (Qg : Q g). { destruct (proj1 LF f Pf) as (g' & E & H). congruence. }
    refine (natlike_ind _ _ _).
    - exists g, (fun _ => g). rewrite refine_0 by lia. split; [exact Eg|]. split.
      + intros j Hj. assert (j = O) by (cbn in Hj; lia). subst j. constructor. apply arr_eq_refl.
      + intros ix _. rewrite zrange_cons, zrange_nil by lia. cbn [suml fold_right]. ring.
    - intros n Hn (y & T & Ey & HT & HY). destruct (refine_residual f g Pf Eg n Hn) as (y' & b & e & d & Ey' & Qy & Eb & De & Ed & HD).
      assert (y' = y) by congruence. subst y'.
      destruct (step_ok f y Pf Qy) as (b1 & e1 & d1 & y1 & Eb1 & Pb1 & De1 & Pe1 & Ed1 & Qd1 & Cy & Qy1 & Ey1).
      assert (b1 = b) by congruence. subst b1.
      destruct (F_eq e1 e d1 Pe1 (comb_unique _ _ _ _ _ _ De1 De) Ed1) as (d' & Ed' & Hd'). assert (d' = d) by congruence. subst d'.
      exists y1, (fun j => if (j <=? Z.to_nat n)%nat then T j else d). unfold Z.succ. split; [|split].
      + rewrite refine_succ by lia. rewrite Ey. exact Ey1.
      + intros j Hj. destruct (Nat.leb_spec j (Z.to_nat n)); [now apply HT|]. replace j with (S (Z.to_nat n)) by lia. exact HD.
      + intros ix Hix. rewrite cr_snoc by lia.
        destruct (Nat.leb_spec (Z.to_nat (n + 1)) (Z.to_nat n)); [lia|].
        destruct Cy as (C1 & C2 & C3). rewrite C3 by (now rewrite (proj1 SQ y1 Qy1)). rewrite HY by auto.
        rewrite <- (proj2 Hd' ix) by (now rewrite (proj1 SQ d1 Qd1)). rewrite !Cmult_1_l. f_equal.
        apply cr_ext. intros j Hj. destruct (Nat.leb_spec (Z.to_nat j) (Z.to_nat n)); [reflexivity|lia].
  Qed.
  (** the error for the samples of a known signal *)
  Lemma refine_error x f : Q x -> B x = Ok f -> forall n, 0 <= n -> exists y e, refine f n F B = Ok y /\ Q y /\
    difference x y e /\ defect F B (S (Z.to_nat n)) x e.
  Proof using SP SQ LF LB.
    intros Qx Ef. assert (Pf : P f). { destruct (proj1 LB x Qx) as (f' & E & H). congruence. }
    assert (DIFF : forall y, Q y -> exists e, difference x y e /\ Q e).
    { intros y Qy. set (e := mkArr shc (fun ix => (get x ix - get y ix)%C)).
      assert (D : difference x y e).
      { split; [apply (proj1 SQ x Qx)|]. split; [apply (proj1 SQ y Qy)|]. intros ix _. cbn [e get]. rewrite RtoC_m1. ring. }
      exists e. split; [exact D|]. now apply (proj2 SQ 1%R (-1)%R x y e). }
    refine (natlike_ind _ _ _).
    - destruct (proj1 LF f Pf) as (g & Eg & Qg). destruct (DIFF g Qg) as (e & De & Qe). exists g, e. rewrite refine_0 by lia.
      repeat (split; [assumption|]). apply (defect_S F B 0 x f g e e); auto. constructor. apply arr_eq_refl.
    - intros n Hn (y & e & Ey & Qy & De & HD).
      destruct (step_ok f y Pf Qy) as (b & r & d & y1 & Eb & Pb & Dr & Pr & Ed & Qd & Cy & Qy1 & Ey1).
      destruct (DIFF y1 Qy1) as (e1 & De1 & Qe1). exists y1, e1. unfold Z.succ. rewrite refine_succ by lia. rewrite Ey. cbn [bind].
      repeat (split; [assumption|]). replace (Z.to_nat (n + 1)) with (S (Z.to_nat n)) by lia.
      assert (Qe : Q e) by (apply (defect_Q _ x e Qx HD)).
      (* r = f - B y = B (x - y) = B e *)
      destruct (proj2 LB 1%R (-1)%R x y e Qx Qy Qe De) as (x1 & x2 & x3 & E1 & E2 & E3 & HB).
      assert (x1 = f) by congruence. assert (x2 = b) by congruence. subst x1 x2.
      assert (HR : arr_eq r x3) by (apply (comb_unique _ _ _ _ _ _ Dr HB)).
      destruct (F_eq r x3 d Pr HR Ed) as (d' & Ed' & Hd').
      apply (defect_snoc _ x e x3 d' e1); auto.
      destruct De as (D1 & D2 & D3). destruct De1 as (D1' & D2' & D3'). destruct Cy as (C1 & C2 & C3). destruct Hd' as (H1 & H2).
      split; [congruence|]. split; [congruence|]. intros ix Hix. rewrite D3', D3, C3 by congruence. rewrite <- H2 by congruence. rewrite !RtoC_m1. ring.
  Qed.
  (** an exact forward transform is a fixed point *)
  Lemma refine_fixed x f : Q x -> B x = Ok f -> (forall a b, Q a -> B a = Ok b -> exists c, F b = Ok c /\ arr_eq c a) ->
    forall n, exists y, refine f n F B = Ok y /\ arr_eq y x.
  Proof using SP SQ LF LB.
    intros Qx Ef HX n. destruct (Z_le_dec n 0) as [Hn|Hn].
    - rewrite refine_0 by lia. now apply HX.
    - destruct (refine_error x f Qx Ef n) as (y & e & Ey & Qy & De & HD); [lia|]. exists y. split; [exact Ey|].
      assert (Z0 : forall k x e, Q x -> defect F B (S k) x e -> forall ix, in_shape shc ix -> get e ix = RtoC 0).
      { clear - SP SQ LF LB HX. intros k. induction k as [|k IH]; intros x e Qx D ix Hix; inversion D as [|k' x' b c y e' E1 E2 E3 D']; subst.
        - inversion D' as [? ? E|]; subst. destruct (HX x b Qx E1) as (c' & Ec & Hc). assert (c' = c) by congruence. subst c'.
          assert (Sy : shape y = shc) by (rewrite <- (proj1 SQ x Qx); symmetry; apply E3).
          rewrite <- (proj2 E) by (now rewrite Sy). rewrite (proj2 (proj2 E3)) by (now rewrite Sy). rewrite (proj2 Hc); [rewrite RtoC_m1; ring|].
          rewrite (proj1 (proj2 E3)). now rewrite Sy.
        - apply (IH y e); auto. destruct (proj1 LB x Qx) as (b' & Eb0 & Pb). assert (b' = b) by congruence. subst b'.
          destruct (proj1 LF b Pb) as (c' & Ec0 & Qc). assert (c' = c) by congruence. subst c'.
          now apply (proj2 SQ 1%R (-1)%R x c y). }
      assert (Se : shape e = shc) by (rewrite <- (proj1 SQ x Qx); symmetry; apply De).
      split; [now rewrite (proj1 SQ x Qx), (proj1 SQ y Qy)|]. intros ix Hix. rewrite (proj1 SQ y Qy) in Hix.
      pose proof (Z0 _ x e Qx HD ix Hix) as HZ. rewrite (proj2 (proj2 De)) in HZ by (now rewrite Se).
      transitivity (get x ix - (RtoC 1 * get x ix + RtoC (-1) * get y ix))%C; [rewrite RtoC_m1; ring|]. rewrite HZ. ring.
  Qed.
  (** a contraction converges geometrically *)
  Lemma defect_contract (nrm : ndarray C -> R) (q : R) : (0 <= q)%R ->
    (forall a b, Q a -> arr_eq a b -> nrm a = nrm b) ->
    (forall x e, Q x -> defect F B 1 x e -> (nrm e <= q * nrm x)%R) ->
    forall k x e, Q x -> defect F B k x e -> (nrm e <= q ^ k * nrm x)%R.
  Proof using SP SQ LF LB.
    intros Hq Hn HC k. induction k as [|k IH]; intros x e Qx D; inversion D as [|k' x' b c y e' E1 E2 E3 D']; subst.
    - cbn. rewrite (Hn x e Qx) by assumption. lra.
    - destruct (proj1 LB x Qx) as (b' & Eb0 & Pb). assert (b' = b) by congruence. subst b'.
      destruct (proj1 LF b Pb) as (c' & Ec0 & Qc). assert (c' = c) by congruence. subst c'.
      assert (Qy : Q y) by now apply (proj2 SQ 1%R (-1)%R x c y).
      assert (N1 : (nrm y <= q * nrm x)%R) by (apply HC; auto; apply (defect_S F B 0 x b c y y); auto; constructor; apply arr_eq_refl).
      specialize (IH y e Qy D'). cbn [pow]. apply Rle_trans with (1 := IH).
      replace (q * q ^ k * nrm x)%R with (q ^ k * (q * nrm x))%R by ring. apply Rmult_le_compat_l; [now apply pow_le|exact N1].
  Qed.
End Refine.
