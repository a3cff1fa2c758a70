(** The angles at which the recursion is exact are dense. *)
From Coq Require Import Reals Lra Lia ZifyBool.
From Verif Require Import Lib.Py Lib.PyFacts Lib.Sums Lib.Cplx Spec.WignerSpec Spec.OTFSpec Proofs.WignerGen Proofs.WignerDh.
From Coq Require Import List.
Import ListNotations.
Open Scope R_scope.

(** ** Polynomials have few roots *)
Fixpoint peval (p : list R) (u : R) : R := match p with [] => 0 | a :: p' => a + u * peval p' u end.
Fixpoint plin (r : R) (p q : list R) : list R :=
  match p, q with [], q => map (Rmult r) q | p, [] => p | a :: p', b :: q' => (a + r * b) :: plin r p' q' end.
Fixpoint pdiv (r : R) (p : list R) : list R := match p with [] => [] | a :: p' => plin r p' (pdiv r p') end.

Lemma peval_scal r q u : peval (map (Rmult r) q) u = r * peval q u.
Proof. induction q as [|b q IH]; cbn; [ring|]. rewrite IH. ring. Qed.
Lemma peval_plin r p q u : peval (plin r p q) u = peval p u + r * peval q u.
Proof.
  revert q; induction p as [|a p IH]; intros q; cbn; [rewrite peval_scal; ring|]. destruct q as [|b q]; cbn; [ring|]. rewrite IH. ring.
Qed.
Lemma pdiv_ok r p u : peval p u - peval p r = (u - r) * peval (pdiv r p) u.
Proof.
  induction p as [|a p IH]; cbn; [ring|]. rewrite peval_plin.
  replace (a + u * peval p u - (a + r * peval p r)) with ((u - r) * peval p u + r * (peval p u - peval p r)) by ring. rewrite IH. ring.
Qed.
(** the list of coefficients after the first ends in a nonzero one *)
Definition lead (p : list R) : Prop := last p 0 <> 0.
Lemma plin_length r p q : (length q <= length p)%nat -> length (plin r p q) = length p.
Proof. revert q; induction p as [|a p IH]; intros q Hq; destruct q as [|b q]; cbn in *; try lia; auto. rewrite IH; lia. Qed.
Lemma pdiv_length r p : length (pdiv r p) = pred (length p).
Proof. induction p as [|a p IH]; [reflexivity|]. cbn [pdiv length pred]. apply plin_length. rewrite IH. lia. Qed.
Lemma plin_last r p q : (length q < length p)%nat -> last (plin r p q) 0 = last p 0.
Proof.
  revert q; induction p as [|a p IH]; intros q Hq; [cbn in Hq; lia|]. destruct q as [|b q]; [reflexivity|]. cbn [plin].
  destruct p as [|a' p]; [cbn in Hq; lia|]. cbn [length] in Hq. specialize (IH q ltac:(cbn; lia)).
  assert (Hn : plin r (a' :: p) q <> []) by (destruct q; discriminate).
  destruct (plin r (a' :: p) q) as [|x l] eqn:E; [contradiction|]. cbn [last] in *. destruct l; exact IH.
Qed.
Lemma pdiv_last r a p : p <> [] -> last (pdiv r (a :: p)) 0 = last (a :: p) 0.
Proof.
  intros Hp. cbn [pdiv]. rewrite plin_last.
  - destruct p; [contradiction|reflexivity].
  - rewrite pdiv_length. destruct p; [contradiction|]. cbn. lia.
Qed.

Lemma few_roots p l : lead p -> NoDup l -> (forall u, In u l -> peval p u = 0) -> (length l < length p)%nat.
Proof.
  remember (length p) as n eqn:En. revert p l En. induction n as [|n IH]; intros p l En Hp Hl Hr.
  - destruct p; [|discriminate]. exfalso. apply Hp. reflexivity.
  - destruct l as [|r l]; [cbn; lia|]. destruct p as [|a [|b p]]; [discriminate| |].
    + exfalso. specialize (Hr r (or_introl eq_refl)). cbn in Hr. apply Hp. cbn. lra.
    + cbn [length]. apply -> Nat.succ_lt_mono. apply (IH (pdiv r (a :: b :: p))).
      * rewrite pdiv_length. cbn in *. lia.
      * unfold lead. rewrite pdiv_last by discriminate. exact Hp.
      * now inversion Hl.
      * intros u Hu. pose proof (Hr u (or_intror Hu)) as H1. pose proof (Hr r (or_introl eq_refl)) as H2.
        pose proof (pdiv_ok r (a :: b :: p) u) as H. rewrite H1, H2, Rminus_0_r in H. symmetry in H. apply Rmult_integral in H. destruct H; auto.
        exfalso. inversion Hl; subst. apply H4. replace r with u by lra. exact Hu.
Qed.

(** ** A d-function as a polynomial in tan^2(x/2) *)
Section Poly.
  Variables (l m n : Z).
  Hypothesis Hm : (Z.abs m <= l)%Z.
  Hypothesis Hn : (Z.abs n <= l)%Z.
  Let t0 := Z.max 0 (n - m).
  Let t1 := Z.min (l + n) (l - m).
  Definition wcoef (t : Z) : R :=
    sgn (m - n + t) * (sqrt (zf (l + m) * zf (l - m) * zf (l + n) * zf (l - n)) / (zf (l + n - t) * zf t * zf (m - n + t) * zf (l - m - t))).

  Lemma wcoef_nz t : wcoef t <> 0.
  Proof.
    assert (Z : forall k, 0 < zf k) by (intros; unfold zf; apply INR_fact_lt_0).
    unfold wcoef. apply Rmult_integral_contrapositive_currified.
    - intros H. pose proof (sgn_sq (m - n + t)) as E. rewrite H in E. lra.
    - apply Rgt_not_eq. apply Rdiv_lt_0_compat; [apply sqrt_lt_R0|]; repeat apply Rmult_lt_0_compat; apply Z.
  Qed.
  Definition wpoly : list R := map wcoef (zrange t0 (t1 + 1)).
  Lemma wpoly_lead : lead wpoly.
  Proof.
    unfold lead, wpoly. rewrite zrange_snoc by (unfold t0, t1; lia). rewrite map_app. cbn [map]. rewrite last_last. apply wcoef_nz.
  Qed.
  Lemma peval_range f a b u : (a <= b)%Z -> peval (map f (zrange a b)) u = rsum (zrange a b) (fun t => f t * zpow u (t - a)).
  Proof.
    intros Hab. remember (Z.to_nat (b - a)) as k eqn:Ek. revert a Hab Ek. induction k as [|k IH]; intros a Hab Ek.
    - rewrite zrange_nil by lia. reflexivity.
    - rewrite rr_cons by lia. rewrite zrange_cons by lia. cbn [map peval]. rewrite IH by lia. rewrite Z.sub_diag. change (zpow u 0) with 1.
      rewrite Rmult_1_r. f_equal. rewrite <- rs_scal_l. apply rr_ext. intros t Ht. unfold zpow. replace (Z.to_nat (t - a)) with (S (Z.to_nat (t - (a + 1)))) by lia.
      cbn [pow]. ring.
  Qed.
  Lemma zpow_split y a b : (0 <= a)%Z -> (0 <= b)%Z -> zpow y (a + b) = zpow y a * zpow y b.
  Proof. intros. unfold zpow. rewrite Z2Nat.inj_add by lia. apply pow_add. Qed.

  Lemma wigner_poly x : 0 < x < PI -> wigner_d l m n x = 0 -> peval wpoly ((tan (x / 2)) ^ 2) = 0.
  Proof.
    intros Hx H. assert (Hc : 0 < cos (x / 2)) by (apply cos_gt_0; lra). assert (Hsn : 0 < sin (x / 2)) by (apply sin_gt_0; lra).
    unfold wigner_d in H. fold t0 t1 in H.
    assert (E : rsum (zrange t0 (t1 + 1)) (fun t => wcoef t * zpow (cos (x / 2)) (2 * l + n - m - 2 * t) * zpow (sin (x / 2)) (m - n + 2 * t)) =
      zpow (cos (x / 2)) (2 * l + n - m - 2 * t0) * zpow (sin (x / 2)) (m - n + 2 * t0) * peval wpoly ((tan (x / 2)) ^ 2)).
    { unfold wpoly. rewrite peval_range by (unfold t0, t1; lia). rewrite <- rs_scal_l. apply rr_ext. intros t Ht.
      replace (2 * l + n - m - 2 * t0)%Z with ((2 * l + n - m - 2 * t) + 2 * (t - t0))%Z by lia.
      replace (m - n + 2 * t)%Z with ((m - n + 2 * t0) + 2 * (t - t0))%Z by lia.
      rewrite (zpow_split (sin (x / 2)) (m - n + 2 * t0)), (zpow_split (cos (x / 2)) (2 * l + n - m - 2 * t)) by (unfold t0, t1 in *; lia).
      assert (E2 : forall y, zpow y (2 * (t - t0)) = zpow (y ^ 2) (t - t0)).
      { intros y. unfold zpow. rewrite <- pow_mult. f_equal. lia. }
      rewrite !E2. assert (E3 : zpow (tan (x / 2) ^ 2) (t - t0) = zpow (sin (x / 2) ^ 2) (t - t0) * / zpow (cos (x / 2) ^ 2) (t - t0)).
      { unfold zpow, tan. rewrite <- pow_inv. rewrite <- Rpow_mult_distr. f_equal. field. lra. }
      rewrite E3. assert (zpow (cos (x / 2) ^ 2) (t - t0) <> 0) by (unfold zpow; apply pow_nonzero, pow_nonzero; lra). field. assumption. }
    unfold wcoef in E at 1. rewrite H in E. symmetry in E. apply Rmult_integral in E. destruct E as [E|E]; [|exact E]. exfalso.
    apply Rmult_integral in E. destruct E as [E|E]; revert E; apply pow_nonzero; lra.
  Qed.
End Poly.

(** ** Among many angles one is regular *)

Lemma tan_half_inj x y : 0 < x < PI -> 0 < y < PI -> tan (x / 2) ^ 2 = tan (y / 2) ^ 2 -> x = y.
Proof.
  intros Hx Hy H. assert (tan (x / 2) = tan (y / 2)).
  { assert (0 < tan (x / 2)) by (apply tan_gt_0; lra). assert (0 < tan (y / 2)) by (apply tan_gt_0; lra).
    apply Rsqr_inj; try lra. unfold Rsqr. lra. }
  assert (x / 2 = y / 2); [|lra]. rewrite <- (atan_tan (x / 2)), <- (atan_tan (y / 2)) by lra. now rewrite H0.
Qed.

Lemma NoDup_map_in {A B} (f : A -> B) l : (forall x y, In x l -> In y l -> f x = f y -> x = y) -> NoDup l -> NoDup (map f l).
Proof. intros H Hl. now apply NoDup_map_inj_in. Qed.

Lemma filter_parts {A} (b : A -> bool) l : length l = (length (filter b l) + length (filter (fun x => negb (b x)) l))%nat.
Proof. induction l as [|x l IH]; [reflexivity|]. cbn [filter]. destruct (b x); cbn [negb length]; lia. Qed.

(** one pair (el, m): all but 2 el + 1 of the angles are fine *)
Lemma one_pair el m n (l : list R) : (Z.abs m <= el)%Z -> (Z.abs n <= el)%Z -> NoDup l -> (forall x, In x l -> 0 < x < PI) ->
  exists l', NoDup l' /\ incl l' l /\ (forall x, In x l' -> wigner_d el m n x <> 0) /\ (length l <= length l' + Z.to_nat (2 * el + 1))%nat.
Proof.
  intros Hm Hn Hl Hr. set (b := fun x => if Req_EM_T (wigner_d el m n x) 0 then false else true).
  exists (filter b l). split; [now apply NoDup_filter|]. split; [intros x; rewrite filter_In; tauto|]. split.
  - intros x. rewrite filter_In. unfold b. destruct (Req_EM_T _ 0); [intros [_ H]; discriminate|auto].
  - set (z := filter (fun x => negb (b x)) l).
    assert (Hlen : length l = (length (filter b l) + length z)%nat).
    { apply filter_parts. }
    rewrite Hlen. apply Nat.add_le_mono_l.
    assert (Hz : forall x, In x z -> In x l /\ wigner_d el m n x = 0).
    { intros x. unfold z. rewrite filter_In. unfold b. destruct (Req_EM_T _ 0); [tauto|intros [_ H]; discriminate]. }
    pose proof (few_roots (wpoly el m n) (map (fun x => tan (x / 2) ^ 2) z) (wpoly_lead el m n Hm Hn)) as F.
    rewrite map_length in F. unfold wpoly in F at 2. rewrite map_length, zrange_length in F.
    enough (length z < Z.to_nat (Z.min (el + n) (el - m) + 1 - Z.max 0 (n - m)))%nat by lia. apply F.
    + apply NoDup_map_in; [|now apply NoDup_filter]. intros x y Hx Hy. apply tan_half_inj; apply Hr; now apply Hz.
    + intros u Hu. apply in_map_iff in Hu. destruct Hu as (x & <- & Hx). destruct (Hz x Hx). apply wigner_poly; auto.
Qed.

Lemma many_pairs (P : list (Z * Z)) n (B : Z) : (forall p, In p P -> (Z.abs (snd p) <= fst p)%Z /\ (Z.abs n <= fst p)%Z /\ (fst p < B)%Z) ->
  forall l, NoDup l -> (forall x, In x l -> 0 < x < PI) -> (length P * Z.to_nat (2 * B) < length l)%nat ->
  exists x, In x l /\ forall p, In p P -> wigner_d (fst p) (snd p) n x <> 0.
Proof.
  induction P as [|[el m] P IH]; intros HP l Hl Hr Hlen.
  - destruct l as [|x l]; [cbn in Hlen; lia|]. exists x. split; [now left|]. intros p [].
  - destruct (HP (el, m) (or_introl eq_refl)) as (H1 & H2 & H3). cbn [fst snd] in *.
    destruct (one_pair el m n l H1 H2 Hl Hr) as (l' & N' & I' & Z' & L'). cbn [length] in Hlen.
    destruct (IH (fun p Hp => HP p (or_intror Hp)) l' N') as (x & Hx & Hall).
    + intros x Hx. apply Hr, I', Hx.
    + rewrite Nat.mul_succ_l in Hlen. lia.
    + exists x. split; [apply I', Hx|]. intros p [<-|Hp]; [apply Z', Hx|apply Hall, Hp].
Qed.

Lemma regular_dense L Lo n a b : 0 <= a < b -> b <= PI -> (Z.abs n < L)%Z -> exists x, a < x < b /\ regular L Lo n x.
Proof.
  intros Hab Hb HL.
  set (P := flat_map (fun el => map (fun m => (el, m)) (zrange (- el + 1) el)) (zrange (Z.max 0 (Z.max Lo (Z.abs n))) L)).
  set (K := (length P * Z.to_nat (2 * L))%nat).
  set (pts := map (fun i => a + (b - a) * (IZR i / IZR (Z.of_nat K + 2))) (zrange 1 (Z.of_nat K + 2))).
  assert (HK : 0 < IZR (Z.of_nat K + 2)) by (apply IZR_lt; lia).
  assert (Hpts : forall x, In x pts -> a < x < b).
  { intros x Hx. apply in_map_iff in Hx. destruct Hx as (i & <- & Hi). apply in_zrange in Hi.
    assert (0 < IZR i / IZR (Z.of_nat K + 2)) by (apply Rdiv_lt_0_compat; [apply IZR_lt; lia|exact HK]).
    assert (IZR i / IZR (Z.of_nat K + 2) < 1) by (apply (Rmult_lt_reg_r (IZR (Z.of_nat K + 2))); [exact HK|]; replace (IZR i / IZR (Z.of_nat K + 2) * IZR (Z.of_nat K + 2)) with (IZR i) by (field; lra); rewrite Rmult_1_l; apply IZR_lt; lia).
    split; nra. }
  destruct (many_pairs P n L) with (l := pts) as (x & Hx & Hall).
  - intros p Hp. apply in_flat_map in Hp. destruct Hp as (el & Hel & Hp). apply in_map_iff in Hp. destruct Hp as (m & <- & Hm).
    apply in_zrange in Hel, Hm. cbn. lia.
  - apply NoDup_map_in; [|apply zrange_NoDup]. intros i j _ _ H. apply eq_IZR.
    assert (IZR i / IZR (Z.of_nat K + 2) = IZR j / IZR (Z.of_nat K + 2)).
    { apply (Rmult_eq_reg_l (b - a)); lra. }
    apply (Rmult_eq_reg_r (/ IZR (Z.of_nat K + 2))); [exact H0|]. apply Rinv_neq_0_compat. lra.
  - intros x Hx. specialize (Hpts x Hx). lra.
  - unfold pts. rewrite map_length, zrange_length. fold K. lia.
  - exists x. split; [auto|]. specialize (Hpts x Hx). split; [lra|]. intros el m Hel Hm. apply (Hall (el, m)). apply in_flat_map. exists el.
    split; [apply in_zrange; lia|]. apply in_map_iff. exists m. split; [reflexivity|]. apply in_zrange. lia.
Qed.
