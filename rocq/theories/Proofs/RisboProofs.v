(** The Risbo recursion computes the Wigner d-matrices. *)
From Coq Require Import Reals Lra Lia.
From Verif Require Import Lib.Py Lib.PyFacts Lib.Sums Lib.Cplx Lib.Vec Lib.VecFacts Lib.Arr Lib.ArrFacts.
From Verif Require Import Model.Risbo Spec.WignerSpec Proofs.WignerGen Proofs.WignerDh Proofs.WignerCalc.
Open Scope Z_scope.

Notation racc := (acc Rplus).
Definition racc_plus := aplus_acc 0%R 1%R Rplus Rmult Rminus Ropp R_rt.
Definition racc_bind := acc_bind 0%R 1%R Rplus Rmult Rminus Ropp R_rt.
Definition racc_foldM {X} := @acc_foldM R 0%R 1%R Rplus Rmult Rminus Ropp R_rt X.
Definition rsum_sel := dsum_sel 0%R 1%R Rplus Rmult Rminus Ropp R_rt.

Lemma rsqrt_mult a b : 0 <= a -> 0 <= b -> (rsqrt a * rsqrt b)%R = sqrt (IZR (a * b)).
Proof. intros. unfold rsqrt. rewrite mult_IZR, sqrt_mult; auto using IZR_le. Qed.

Lemma in_shape2 n m r c : 0 <= r < n -> 0 <= c < m -> in_shape [n; m] [r; c].
Proof. cbn. tauto. Qed.

(** The four additions of a half-step, collected. *)
Section Half.
  Variables (src : Z -> Z -> R) (j : Z) (C0 S0 : R).
  Definition hv1 k i := (rsqrt (j - i) * rsqrt (j - k) * (src k i / IZR j) * C0)%R.
  Definition hv2 k i := (- (rsqrt (i + 1) * rsqrt (j - k) * (src k i / IZR j) * S0))%R.
  Definition hv3 k i := (rsqrt (j - i) * rsqrt (k + 1) * (src k i / IZR j) * S0)%R.
  Definition hv4 k i := (rsqrt (i + 1) * rsqrt (k + 1) * (src k i / IZR j) * C0)%R.
  Definition sel (v : Z -> Z -> R) (p q : Z) : R :=
    if (0 <=? p) && (p <? j) && (0 <=? q) && (q <? j) then v p q else 0%R.
  Definition half_total (q p : Z) : R :=
    (sel hv1 q p + sel hv2 q (p - 1) + sel hv3 (q - 1) p + sel hv4 (q - 1) (p - 1))%R.
End Half.

(** With src the d-matrix of degree (j-1)/2, the half-step gives minus that of degree j/2. *)
Lemma half_total_dh c s j : (c * c + s * s = 1)%R -> 0 < j -> forall q p, 0 <= q <= j -> 0 <= p <= j ->
  forall src e, (forall k i, 0 <= k < j -> 0 <= i < j -> src k i = (e * dh c s (j - 1) k i)%R) ->
  half_total src j (- c) s q p = (- e * dh c s j q p)%R.
Proof.
  intros Hcs Hj q p Hq Hp src e Hsrc.
  assert (Hj0 : IZR j <> 0%R) by (apply not_0_IZR; lia).
  apply (Rmult_eq_reg_l (IZR j)); [|exact Hj0].
  replace (IZR j * (- e * dh c s j q p))%R with (- e * (IZR j * dh c s j q p))%R by ring.
  rewrite (dh_risbo c s j q p) by lia.
  assert (H1 : (IZR j * sel j (hv1 src j (- c)) q p
     = - e * (sqrt (IZR ((j - p) * (j - q))) * c * dh c s (j - 1) q p))%R).
  { unfold sel. destruct ((0 <=? q) && (q <? j) && (0 <=? p) && (p <? j)) eqn:B.
    - unfold hv1. rewrite Hsrc by lia. rewrite rsqrt_mult by lia. field. auto.
    - assert (q = j \/ p = j) as [-> | ->] by lia.
      + rewrite dh_out_k by lia. ring.
      + rewrite dh_out_i by lia. ring. }
  assert (H2 : (IZR j * sel j (hv2 src j s) q (p - 1)
     = - e * (sqrt (IZR (p * (j - q))) * s * dh c s (j - 1) q (p - 1)))%R).
  { unfold sel. destruct ((0 <=? q) && (q <? j) && (0 <=? p - 1) && (p - 1 <? j)) eqn:B.
    - unfold hv2. rewrite Hsrc by lia. replace (p - 1 + 1) with p by lia.
      rewrite rsqrt_mult by lia. field. auto.
    - assert (q = j \/ p = 0) as [-> | ->] by lia.
      + rewrite dh_out_k by lia. ring.
      + rewrite dh_out_i by lia. ring. }
  assert (H3 : (IZR j * sel j (hv3 src j s) (q - 1) p
     = - e * - (sqrt (IZR ((j - p) * q)) * s * dh c s (j - 1) (q - 1) p))%R).
  { unfold sel. destruct ((0 <=? q - 1) && (q - 1 <? j) && (0 <=? p) && (p <? j)) eqn:B.
    - unfold hv3. rewrite Hsrc by lia. replace (q - 1 + 1) with q by lia.
      rewrite rsqrt_mult by lia. field. auto.
    - assert (q = 0 \/ p = j) as [-> | ->] by lia.
      + rewrite dh_out_k by lia. ring.
      + rewrite dh_out_i by lia. ring. }
  assert (H4 : (IZR j * sel j (hv4 src j (- c)) (q - 1) (p - 1)
     = - e * (sqrt (IZR (p * q)) * c * dh c s (j - 1) (q - 1) (p - 1)))%R).
  { unfold sel. destruct ((0 <=? q - 1) && (q - 1 <? j) && (0 <=? p - 1) && (p - 1 <? j)) eqn:B.
    - unfold hv4. rewrite Hsrc by lia. replace (q - 1 + 1) with q by lia. replace (p - 1 + 1) with p by lia.
      rewrite rsqrt_mult by lia. field. auto.
    - assert (q = 0 \/ p = 0) as [-> | ->] by lia.
      + rewrite dh_out_k by lia. ring.
      + rewrite dh_out_i by lia. ring. }
  unfold half_total. rewrite !Rmult_plus_distr_l, H1, H2, H3, H4. ring.
Qed.

Lemma sel_ext j v w p q : (forall k i, 0 <= k < j -> 0 <= i < j -> v k i = w k i) -> sel j v p q = sel j w p q.
Proof. intros H. unfold sel. destruct (_ && _) eqn:E; [|reflexivity]. apply H; lia. Qed.

Definition block (L el r c : Z) : bool :=
  (- el + L - 1 <=? r) && (r <? el + L) && (- el + L - 1 <=? c) && (c <? el + L).

(** entries of [half1] *)
Lemma half1_ok dl L el C0 S0 : 1 < el < L -> shape dl = [2 * L - 1; 2 * L - 1] ->
  exists dd, risbo_half1 dl L el C0 S0 (zeros 0%R [2 * el + 2; 2 * el + 2]) = Ok dd
    /\ shape dd = [2 * el + 2; 2 * el + 2]
    /\ forall p q, get dd [p; q]
         = half_total (fun k i => get dl [k - (el - 1) + L - 1; i - (el - 1) + L - 1]) (2 * el - 1) C0 S0 q p.
Proof.
  intros Hel Hs. set (j := 2 * el - 1).
  set (src := fun k i => get dl [k - (el - 1) + L - 1; i - (el - 1) + L - 1]).
  set (cc := fun k i ix => (one_at 0%R [i; k]%Z (hv1 src j C0 k i) ix
          + (one_at 0%R [i + 1; k]%Z (hv2 src j S0 k i) ix
          + (one_at 0%R [i; k + 1]%Z (hv3 src j S0 k i) ix
             + one_at 0%R [i + 1; k + 1]%Z (hv4 src j C0 k i) ix)))%R).
  assert (H : racc (risbo_half1 dl L el C0 S0 (zeros 0%R [2 * el + 2; 2 * el + 2]))
     (zeros 0%R [2 * el + 2; 2 * el + 2])
     (fun ix => rsum (zrange 0 j) (fun k => rsum (zrange 0 j) (fun i => cc k i ix)))).
  { unfold risbo_half1. fold j. apply racc_foldM. intros a k Ha Hk. apply in_zrange in Hk.
    apply racc_foldM. intros b i Hb Hi. apply in_zrange in Hi.
    assert (Hbs : shape b = [2 * el + 2; 2 * el + 2]) by (rewrite Hb, Ha; reflexivity).
    rewrite aread_in by (rewrite Hs; apply in_shape2; lia). cbn [bind]. unfold cc.
    apply racc_bind; [apply racc_plus; rewrite Hbs; apply in_shape2; lia|].
    intros b1 Hb1. apply racc_bind; [apply racc_plus; rewrite Hb1, Hbs; apply in_shape2; lia|].
    intros b2 Hb2. apply racc_bind; [apply racc_plus; rewrite Hb2, Hb1, Hbs; apply in_shape2; lia|].
    intros b3 Hb3. apply racc_plus. rewrite Hb3, Hb2, Hb1, Hbs. apply in_shape2; lia. }
  destruct H as (dd & E & Hsh & Hg). exists dd. split; [exact E|]. split; [exact Hsh|].
  intros p q. rewrite Hg. cbn [get zeros]. rewrite Rplus_0_l.
  rewrite (rr_ext 0 j _ (fun k =>
     (rsum (zrange 0 j) (fun i => if (k =? q) && (i =? p) then hv1 src j C0 k i else 0)
     + (rsum (zrange 0 j) (fun i => if (k =? q) && (i =? p - 1) then hv2 src j S0 k i else 0)
     + (rsum (zrange 0 j) (fun i => if (k =? q - 1) && (i =? p) then hv3 src j S0 k i else 0)
     + rsum (zrange 0 j) (fun i => if (k =? q - 1) && (i =? p - 1) then hv4 src j C0 k i else 0))))%R)).
  2:{ intros k Hk. rewrite <- !rs_plus. apply rr_ext. intros i Hi. unfold cc. rewrite !one_at2.
      replace ((i =? p) && (k =? q)) with ((k =? q) && (i =? p)) by lia.
      replace ((i + 1 =? p) && (k =? q)) with ((k =? q) && (i =? p - 1)) by lia.
      replace ((i =? p) && (k + 1 =? q)) with ((k =? q - 1) && (i =? p)) by lia.
      replace ((i + 1 =? p) && (k + 1 =? q)) with ((k =? q - 1) && (i =? p - 1)) by lia. reflexivity. }
  rewrite !rs_plus, !rsum_sel. unfold half_total, sel. ring.
Qed.

Lemma half2_ok dd L el C0 S0 dl : 1 < el < L -> shape dd = [2 * el + 2; 2 * el + 2] ->
  shape dl = [2 * L - 1; 2 * L - 1] ->
  exists dl', risbo_half2 dd L el C0 S0 dl = Ok dl' /\ shape dl' = shape dl
    /\ forall r c, get dl' [r; c]
         = (get dl [r; c] + half_total (fun k i => get dd [i; k]) (2 * el) C0 S0 (r + el - L + 1) (c + el - L + 1))%R.
Proof.
  intros Hel Hd Hs. set (j := 2 * el).
  set (src := fun k i => get dd [i; k]).
  set (cc := fun k i ix => (one_at 0%R [k - el + L - 1; i - el + L - 1]%Z (hv1 src j C0 k i) ix
          + (one_at 0%R [k - el + L - 1; i + 1 - el + L - 1]%Z (hv2 src j S0 k i) ix
          + (one_at 0%R [k + 1 - el + L - 1; i - el + L - 1]%Z (hv3 src j S0 k i) ix
             + one_at 0%R [k + 1 - el + L - 1; i + 1 - el + L - 1]%Z (hv4 src j C0 k i) ix)))%R).
  assert (H : racc (risbo_half2 dd L el C0 S0 dl) dl
     (fun ix => rsum (zrange 0 j) (fun k => rsum (zrange 0 j) (fun i => cc k i ix)))).
  { unfold risbo_half2. fold j. apply racc_foldM. intros a k Ha Hk. apply in_zrange in Hk.
    apply racc_foldM. intros b i Hb Hi. apply in_zrange in Hi.
    assert (Hbs : shape b = [2 * L - 1; 2 * L - 1]) by (rewrite Hb, Ha; exact Hs).
    rewrite aread_in by (rewrite Hd; apply in_shape2; lia). cbn [bind]. unfold cc.
    apply racc_bind; [apply racc_plus; rewrite Hbs; apply in_shape2; lia|].
    intros b1 Hb1. apply racc_bind; [apply racc_plus; rewrite Hb1, Hbs; apply in_shape2; lia|].
    intros b2 Hb2. apply racc_bind; [apply racc_plus; rewrite Hb2, Hb1, Hbs; apply in_shape2; lia|].
    intros b3 Hb3. apply racc_plus. rewrite Hb3, Hb2, Hb1, Hbs. apply in_shape2; lia. }
  destruct H as (dl' & E & Hsh & Hg). exists dl'. split; [exact E|]. split; [exact Hsh|].
  intros r c. rewrite Hg. f_equal.
  set (q := r + el - L + 1). set (p := c + el - L + 1).
  rewrite (rr_ext 0 j _ (fun k =>
     (rsum (zrange 0 j) (fun i => if (k =? q) && (i =? p) then hv1 src j C0 k i else 0)
     + (rsum (zrange 0 j) (fun i => if (k =? q) && (i =? p - 1) then hv2 src j S0 k i else 0)
     + (rsum (zrange 0 j) (fun i => if (k =? q - 1) && (i =? p) then hv3 src j S0 k i else 0)
     + rsum (zrange 0 j) (fun i => if (k =? q - 1) && (i =? p - 1) then hv4 src j C0 k i else 0))))%R)).
  2:{ intros k Hk. rewrite <- !rs_plus. apply rr_ext. intros i Hi. unfold cc. rewrite !one_at2.
      replace ((k - el + L - 1 =? r) && (i - el + L - 1 =? c)) with ((k =? q) && (i =? p)) by lia.
      replace ((k - el + L - 1 =? r) && (i + 1 - el + L - 1 =? c)) with ((k =? q) && (i =? p - 1)) by lia.
      replace ((k + 1 - el + L - 1 =? r) && (i - el + L - 1 =? c)) with ((k =? q - 1) && (i =? p)) by lia.
      replace ((k + 1 - el + L - 1 =? r) && (i + 1 - el + L - 1 =? c)) with ((k =? q - 1) && (i =? p - 1)) by lia.
      reflexivity. }
  rewrite !rs_plus, !rsum_sel. unfold half_total, sel. ring.
Qed.

(** [holds L l beta a]: a is the (2L-1)x(2L-1) array holding degree l, zero elsewhere. *)
Definition holds (L l : Z) (beta : R) (a : ndarray R) : Prop :=
  shape a = [2 * L - 1; 2 * L - 1]
  /\ forall m n, - L < m < L -> - L < n < L -> get a [m + L - 1; n + L - 1] = wigner_d l m n beta.

Lemma holds_dh L l beta a : 0 <= l -> holds L l beta a -> forall r c, 0 <= r < 2 * L - 1 -> 0 <= c < 2 * L - 1 ->
  get a [r; c] = dh (cos (beta / 2)) (sin (beta / 2)) (2 * l) (r - L + 1 + l) (c - L + 1 + l).
Proof.
  intros Hl [_ H] r c Hr Hc. specialize (H (r - L + 1) (c - L + 1) ltac:(lia) ltac:(lia)).
  replace (r - L + 1 + L - 1) with r in H by lia. replace (c - L + 1 + L - 1) with c in H by lia.
  rewrite H, wigner_dh by auto. f_equal; lia.
Qed.

Lemma sqrt2_sq : (sqrt 2 * sqrt 2 = 2)%R.
Proof. apply sqrt_sqrt. lra. Qed.

Lemma zf2 : zf 2 = 2%R. Proof. unfold zf. change (fact (Z.to_nat 2)) with 2%nat. simpl. lra. Qed.
Lemma sqrt4 : sqrt 4 = 2%R.
Proof. replace 4%R with (2 * 2)%R by ring. apply sqrt_square. lra. Qed.

Ltac wd1 :=
  intros; unfold wigner_d;
  match goal with |- context [zrange ?a ?b] =>
    let r := eval vm_compute in (zrange a b) in change (zrange a b) with r end;
  cbv beta iota zeta delta [suml fold_right];
  repeat match goal with
         | |- context [zf ?k] => progress (let r := eval vm_compute in k in change (zf k) with (zf r))
         | |- context [sgn ?k] => progress (let r := eval vm_compute in k in change (sgn k) with (sgn r))
         | |- context [zpow ?x ?k] => progress (let r := eval vm_compute in k in change (zpow x k) with (zpow x r))
         end;
  unfold sgn; cbn [Z.even]; rewrite ?zf2, ?zf_0, ?zf_1; unfold zpow;
  rewrite ?Rmult_1_r, ?Rmult_1_l;
  repeat match goal with |- context [Z.to_nat ?k] =>
    let r := eval vm_compute in (Z.to_nat k) in change (Z.to_nat k) with r end;
  cbn [pow]; rewrite ?Rmult_1_r, ?Rmult_1_l, ?sqrt_1.

Lemma wd0 beta m n : wigner_d 0 m n beta = if (m =? 0) && (n =? 0) then 1%R else 0%R.
Proof.
  destruct ((m =? 0) && (n =? 0)) eqn:E.
  - assert (m = 0) by lia. assert (n = 0) by lia. subst. wd1.  field.
  - unfold wigner_d. apply rr_nil. lia.
Qed.

Lemma sin_dbl beta : sin beta = (2 * sin (beta / 2) * cos (beta / 2))%R.
Proof. replace beta with (2 * (beta / 2))%R at 1 by field. apply sin_2a. Qed.
Lemma cos_dbl beta : cos beta = (cos (beta / 2) * cos (beta / 2) - sin (beta / 2) * sin (beta / 2))%R.
Proof. replace beta with (2 * (beta / 2))%R at 1 by field. apply cos_2a. Qed.
Lemma over_sqrt2 x : (x / sqrt 2 = x * sqrt 2 / 2)%R.
Proof. pose proof sqrt2_sq. assert (sqrt 2 <> 0)%R by (intros E; rewrite E in *; lra).
  apply (Rmult_eq_reg_r (sqrt 2)); [|auto].
  transitivity x; [now field|]. transitivity (x * (sqrt 2 * sqrt 2) / 2)%R; [rewrite H; field|field]. Qed.

Lemma wd1_mm beta : wigner_d 1 (-1) (-1) beta = (cos (beta / 2) ^ 2)%R.
Proof. wd1. replace (2 * 2)%R with 4%R by ring; rewrite ?sqrt4. field. Qed.
Lemma wd1_m0 beta : wigner_d 1 (-1) 0 beta = (sin beta / sqrt 2)%R.
Proof.
  wd1.  rewrite over_sqrt2, (sin_dbl beta). field.
Qed.
Lemma wd1_mp beta : wigner_d 1 (-1) 1 beta = (sin (beta / 2) ^ 2)%R.
Proof. wd1. replace (2 * 2)%R with 4%R by ring; rewrite ?sqrt4. field. Qed.
Lemma wd1_0m beta : wigner_d 1 0 (-1) beta = (- sin beta / sqrt 2)%R.
Proof.
  wd1.  rewrite over_sqrt2, (sin_dbl beta). field.
Qed.
Lemma wd1_00 beta : wigner_d 1 0 0 beta = cos beta.
Proof. wd1. rewrite (cos_dbl beta).  field. Qed.
Lemma wd1_0p beta : wigner_d 1 0 1 beta = (sin beta / sqrt 2)%R.
Proof.
  wd1.  rewrite over_sqrt2, (sin_dbl beta). field.
Qed.
Lemma wd1_pm beta : wigner_d 1 1 (-1) beta = (sin (beta / 2) ^ 2)%R.
Proof. wd1. replace (2 * 2)%R with 4%R by ring; rewrite ?sqrt4. field. Qed.
Lemma wd1_p0 beta : wigner_d 1 1 0 beta = (- sin beta / sqrt 2)%R.
Proof.
  wd1.  rewrite over_sqrt2, (sin_dbl beta). field.
Qed.
Lemma wd1_pp beta : wigner_d 1 1 1 beta = (cos (beta / 2) ^ 2)%R.
Proof. wd1. replace (2 * 2)%R with 4%R by ring; rewrite ?sqrt4. field. Qed.

Lemma wigner_d_out l m n beta : l < Z.abs m \/ l < Z.abs n -> wigner_d l m n beta = 0%R.
Proof. intros. unfold wigner_d. apply rr_nil. lia. Qed.

Lemma upd2 {A} (f : list Z -> A) a b v p q :
  upd f [a; b] v [p; q] = if (p =? a) && (q =? b) then v else f [p; q].
Proof.
  unfold upd. destruct (list_eq_dec _ [p; q] [a; b]) as [E|N].
  - injection E as -> ->. now rewrite !Z.eqb_refl.
  - destruct (Z.eqb_spec p a) as [->|]; [|reflexivity]. destruct (Z.eqb_spec q b) as [->|]; [|reflexivity].
    congruence.
Qed.

Lemma ite_upd2 (f : list Z -> R) L m n a b v :
  upd f [a + L - 1; b + L - 1] v [m + L - 1; n + L - 1] = if (m =? a) && (n =? b) then v else f [m + L - 1; n + L - 1].
Proof. rewrite upd2. replace (m + L - 1 =? a + L - 1) with (m =? a) by lia.
  now replace (n + L - 1 =? b + L - 1) with (n =? b) by lia. Qed.

Lemma step0 L beta dl : 0 < L -> shape dl = [2 * L - 1; 2 * L - 1] ->
  (forall m n, - L < m < L -> - L < n < L -> (m <> 0 \/ n <> 0) -> get dl [m + L - 1; n + L - 1] = 0%R) ->
  exists a, risbo_step dl beta L 0 = Ok a /\ holds L 0 beta a.
Proof.
  intros HL Hs Hz. unfold risbo_step. cbn [Z.eqb].
  rewrite awrite_in by (rewrite Hs; apply in_shape2; lia).
  eexists; split; [reflexivity|]. split; [exact Hs|]. intros m n Hm Hn. cbn [get].
  rewrite ite_upd2, wd0. destruct ((m =? 0) && (n =? 0)) eqn:E; [reflexivity|]. apply Hz; lia.
Qed.

Ltac write_ok Hs := rewrite awrite_in by (cbn [shape]; rewrite Hs; apply in_shape2; lia); cbn [bind].

Lemma nine_writes f L beta m n :
  (forall m n, - L < m < L -> - L < n < L -> (m <> 0 \/ n <> 0) -> f [m + L - 1; n + L - 1] = 0%R) ->
  - L < m < L -> - L < n < L ->
  (if (m =? 1) && (n =? 1) then (cos (beta / 2) ^ 2)%R
   else if (m =? 1) && (n =? 0) then (- sin beta / sqrt 2)%R
   else if (m =? 1) && (n =? -1) then (sin (beta / 2) ^ 2)%R
   else if (m =? 0) && (n =? 1) then (sin beta / sqrt 2)%R
   else if (m =? 0) && (n =? 0) then (cos beta)%R
   else if (m =? 0) && (n =? -1) then (- sin beta / sqrt 2)%R
   else if (m =? -1) && (n =? 1) then (sin (beta / 2) ^ 2)%R
   else if (m =? -1) && (n =? 0) then (sin beta / sqrt 2)%R
   else if (m =? -1) && (n =? -1) then (cos (beta / 2) ^ 2)%R
   else f [m + L - 1; n + L - 1]) = wigner_d 1 m n beta.
Proof.
  intros Hz Hm Hn.
  destruct (Z_lt_dec 1 (Z.abs m)).
  { rewrite wigner_d_out by lia. replace (m =? 1) with false by lia. replace (m =? 0) with false by lia.
    replace (m =? -1) with false by lia. cbn [andb]. apply Hz; lia. }
  destruct (Z_lt_dec 1 (Z.abs n)).
  { rewrite wigner_d_out by lia. replace (n =? 1) with false by lia. replace (n =? 0) with false by lia.
    replace (n =? -1) with false by lia. rewrite !andb_false_r. apply Hz; lia. }
  assert (m = -1 \/ m = 0 \/ m = 1) as [-> | [-> | ->]] by lia;
  assert (n = -1 \/ n = 0 \/ n = 1) as [-> | [-> | ->]] by lia; cbn [andb Z.eqb Pos.eqb];
  rewrite ?wd1_mm, ?wd1_m0, ?wd1_mp, ?wd1_0m, ?wd1_00, ?wd1_0p, ?wd1_pm, ?wd1_p0, ?wd1_pp; reflexivity.
Qed.

Lemma step1 L beta dl : 1 < L -> holds L 0 beta dl ->
  exists a, risbo_step dl beta L 1 = Ok a /\ holds L 1 beta a.
Proof.
  intros HL [Hs Hg]. unfold risbo_step. cbn [Z.eqb Pos.eqb]. cbv zeta.
  do 8 write_ok Hs. write_ok Hs.
  eexists; split; [reflexivity|]. split; [exact Hs|]. intros m n Hm Hn. cbn [get].
  rewrite !ite_upd2. apply nine_writes; auto.
  intros m' n' Hm' Hn' Hne. rewrite Hg, wd0 by auto. now replace ((m' =? 0) && (n' =? 0)) with false by lia.
Qed.

Lemma shape_dims a (L : Z) : shape a = [L; L] -> @dim0 R a = L /\ dim1 a = L.
Proof. unfold dim0, dim1. intros ->. auto. Qed.

Lemma clamp_in n i : 0 <= i <= n -> clamp n i = i.
Proof. intros. unfold clamp. destruct (Z.ltb_spec i 0); lia. Qed.
Lemma slice_in n s e : 0 <= s <= e -> e <= n -> slice_lo n s = s /\ slice_len n s e = e - s.
Proof. intros. unfold slice_lo, slice_len. rewrite !clamp_in by lia. lia. Qed.

Lemma fill2_get (a : ndarray R) n r0 r1 c0 c1 v r c : shape a = [n; n] ->
  0 <= r0 <= r1 -> r1 <= n -> 0 <= c0 <= c1 -> c1 <= n ->
  get (fill2 a r0 r1 c0 c1 v) [r; c] = if (r0 <=? r) && (r <? r1) && (c0 <=? c) && (c <? c1) then v else get a [r; c].
Proof.
  intros Hs H1 H2 H3 H4. destruct (shape_dims a n Hs) as [D0 D1].
  unfold fill2, mat, in_slice2, at2. cbn [get nth]. rewrite D0, D1.
  destruct (slice_in n r0 r1) as [-> ->]; [lia..|]. destruct (slice_in n c0 c1) as [-> ->]; [lia..|].
  replace (r0 + (r1 - r0)) with r1 by lia. replace (c0 + (c1 - c0)) with c1 by lia. reflexivity.
Qed.
Lemma fill2_shape (a : ndarray R) n r0 r1 c0 c1 v : shape a = [n; n] -> shape (fill2 a r0 r1 c0 c1 v) = [n; n].
Proof. intros Hs. destruct (shape_dims a n Hs) as [D0 D1]. unfold fill2, mat. cbn [shape]. congruence. Qed.

Lemma half_total_out src j C0 S0 q p : (q < 0 \/ j < q \/ p < 0 \/ j < p) -> half_total src j C0 S0 q p = 0%R.
Proof.
  intros H. unfold half_total, sel.
  replace ((0 <=? q) && (q <? j) && (0 <=? p) && (p <? j)) with false by lia.
  replace ((0 <=? q) && (q <? j) && (0 <=? p - 1) && (p - 1 <? j)) with false by lia.
  replace ((0 <=? q - 1) && (q - 1 <? j) && (0 <=? p) && (p <? j)) with false by lia.
  replace ((0 <=? q - 1) && (q - 1 <? j) && (0 <=? p - 1) && (p - 1 <? j)) with false by lia. ring.
Qed.

Lemma cs_half x : (cos (x / 2) * cos (x / 2) + sin (x / 2) * sin (x / 2) = 1)%R.
Proof. pose proof (sin2_cos2 (x / 2)). unfold Rsqr in *. lra. Qed.

Lemma stepn L beta l dl : 1 < l < L -> holds L (l - 1) beta dl ->
  exists a, risbo_step dl beta L l = Ok a /\ holds L l beta a.
Proof.
  intros Hl Hd. unfold risbo_step. replace (l =? 0) with false by lia. replace (l =? 1) with false by lia.
  pose proof (cs_half beta) as Hcs. pose proof (holds_dh L (l - 1) beta dl ltac:(lia) Hd) as Hdh.
  destruct Hd as [Hs Hg]. cbv zeta.
  set (c := cos (beta / 2)) in *. set (s := sin (beta / 2)) in *.
  destruct (half1_ok dl L l (- c) s ltac:(lia) Hs) as (dd & -> & Hsd & Hdd). cbn [bind].
  set (dl0 := fill2 _ _ _ _ _ _).
  assert (Hs0 : shape dl0 = [2 * L - 1; 2 * L - 1]) by (now apply fill2_shape).
  destruct (half2_ok dd L l (- c) s dl0 ltac:(lia) Hsd Hs0) as (a & -> & Hsa & Hga).
  exists a. split; [reflexivity|]. split; [congruence|]. intros m n Hm Hn. rewrite Hga.
  unfold dl0. rewrite (fill2_get _ (2 * L - 1)) by (auto; lia).
  destruct (Z_lt_dec l (Z.max (Z.abs m) (Z.abs n))) as [O|I].
  - rewrite wigner_d_out by lia. rewrite half_total_out by lia.
    match goal with |- context [if ?b then _ else _] => replace b with false by lia end.
    rewrite Hg, wigner_d_out by lia. ring.
  - match goal with |- context [if ?b then _ else _] => replace b with true by lia end.
    rewrite wigner_dh by lia. fold c s.
    rewrite (half_total_dh c s (2 * l) Hcs) with (e := (-1)%R); [| lia | lia | lia |].
    + replace (m + L - 1 + l - L + 1) with (l + m) by lia. replace (n + L - 1 + l - L + 1) with (l + n) by lia. ring.
    + intros k i Hk Hi. rewrite Hdd.
      rewrite (half_total_dh c s (2 * l - 1) Hcs) with (e := 1%R); [ring | lia | lia | lia |].
      intros k' i' Hk' Hi'. rewrite Hdh by lia. rewrite Rmult_1_l. f_equal; lia.
Qed.

Lemma step_ok L beta l dl : 0 <= l < L ->
  (if l =? 0 then arr_eq dl (zeros 0%R [2 * L - 1; 2 * L - 1]) else holds L (l - 1) beta dl) ->
  exists a, risbo_step dl beta L l = Ok a /\ holds L l beta a.
Proof.
  intros Hl H. destruct (Z.eqb_spec l 0) as [->|N0].
  - destruct H as [Hs Hg]. cbn [shape zeros get] in *. apply step0; [lia|exact Hs|].
    intros m n Hm Hn _. apply Hg. rewrite Hs. apply in_shape2; lia.
  - destruct (Z.eq_dec l 1) as [->|N1]; [apply step1; [lia|]; exact H|]. apply stepn; [lia|exact H].
Qed.

Lemma args_ok L beta l dl : 0 <= l < L -> (0 <= beta <= PI)%R -> shape dl = [2 * L - 1; 2 * L - 1] ->
  risbo_arg_checks dl beta L l = Ok tt.
Proof.
  intros Hl [H1 H2] Hs. destruct (shape_dims _ _ Hs) as [D0 D1]. unfold risbo_arg_checks. rewrite D0, D1.
  replace ((0 <=? l) && (l <? L)) with true by lia. rewrite !Z.eqb_refl. cbn [negb andb].
  destruct (Rle_dec 0 beta); [|contradiction]. destruct (Rle_dec beta PI); [reflexivity|contradiction].
Qed.

Lemma run_ok beta L l : 0 <= l < L -> (0 <= beta <= PI)%R ->
  exists a, risbo_run beta L l = Ok a /\ holds L l beta a.
Proof.
  intros [H0 HL] Hb. revert HL. revert l H0. unfold risbo_run. z_ind.
  - intros HL. rewrite zrange_cons, zrange_nil by lia. cbn [foldM].
    unfold risbo_full. rewrite args_ok by (auto; lia). cbn [bind].
    destruct (step_ok L beta 0 (zeros 0%R [2 * L - 1; 2 * L - 1])) as (a & -> & H); [lia|apply arr_eq_refl|].
    exists a. auto.
  - intros l Hl IH HL. destruct IH as (a & E & Ha); [lia|].
    rewrite <- Z.add_1_r. rewrite zrange_snoc, foldM_app, E by lia. cbn [bind foldM].
    unfold risbo_full. rewrite args_ok; [|lia|exact Hb|apply Ha]. cbn [bind].
    destruct (step_ok L beta (l + 1) a) as (b & -> & H); [lia| |exists b; auto].
    replace (l + 1 =? 0) with false by lia. now replace (l + 1 - 1) with l by lia.
Qed.

(** vectorised *)
Lemma vec_step L l betas : 0 <= l < L -> forall dls,
  Forall2 (fun beta dl => if l =? 0 then arr_eq dl (zeros 0%R [2 * L - 1; 2 * L - 1]) else holds L (l - 1) beta dl) betas dls ->
  exists out, risbo_full_vec dls betas L l = Ok out /\ Forall2 (holds L l) betas out.
Proof.
  intros Hl dls H. induction H as [|beta dl betas dls H1 H IH]; cbn [risbo_full_vec].
  - exists []. auto.
  - destruct (step_ok L beta l dl Hl H1) as (a & -> & Ha). cbn [bind].
    destruct IH as (out & -> & Hout). cbn [bind]. exists (a :: out). auto.
Qed.
Lemma Forall2_imp {X Y} (P Q : X -> Y -> Prop) l k : (forall x y, P x y -> Q x y) -> Forall2 P l k -> Forall2 Q l k.
Proof. intros H. induction 1; constructor; auto. Qed.

Lemma run_vec_ok betas L l : 0 <= l < L ->
  exists out, risbo_run_vec betas L l = Ok out /\ Forall2 (holds L l) betas out.
Proof.
  intros [H0 HL]. revert HL. revert l H0. unfold risbo_run_vec. z_ind.
  - intros HL. rewrite zrange_cons, zrange_nil by lia. cbn [foldM].
    destruct (vec_step L 0 betas ltac:(lia) (map (fun _ => zeros 0%R [2 * L - 1; 2 * L - 1]) betas)) as (a & -> & H).
    { clear. induction betas; constructor; auto. apply arr_eq_refl. }
    exists a. auto.
  - intros l Hl IH HL. destruct IH as (a & E & Ha); [lia|].
    rewrite <- Z.add_1_r. rewrite zrange_snoc, foldM_app, E by lia. cbn [bind foldM].
    destruct (vec_step L (l + 1) betas ltac:(lia) a) as (b & -> & H); [|exists b; auto].
    replace (l + 1 =? 0) with false by lia. now replace (l + 1 - 1) with l by lia.
Qed.

(** ** The JAX variant *)
Lemma slice2_add_ok (a b : ndarray R) n k r0 c0 : shape a = [n; n] -> shape b = [k; k] ->
  0 <= r0 -> r0 + k <= n -> 0 <= c0 -> c0 + k <= n -> 0 <= k ->
  exists a', slice2_add Rplus a r0 (r0 + k) c0 (c0 + k) b = Ok a' /\ shape a' = [n; n]
    /\ forall r c, get a' [r; c] = (get a [r; c] +
         (if ((0 <=? r - r0) && (r - r0 <? k) && (0 <=? c - c0) && (c - c0 <? k))%Z then get b [r - r0; c - c0]%Z else 0))%R.
Proof.
  intros Ha Hb H1 H2 H3 H4 H5. destruct (shape_dims a n Ha) as [A0 A1]. destruct (shape_dims b k Hb) as [B0 B1].
  unfold slice2_add. rewrite A0, A1, B0, B1.
  destruct (slice_in n r0 (r0 + k)) as [R1 R2]; [lia..|]. destruct (slice_in n c0 (c0 + k)) as [C1 C2]; [lia..|].
  rewrite R2, C2. replace (r0 + k - r0) with k by lia. replace (c0 + k - c0) with k by lia.
  rewrite Z.eqb_refl. cbn [andb negb]. eexists; split; [reflexivity|]. split; [reflexivity|].
  intros r c. unfold mat, in_slice2, at2. cbn [get nth]. rewrite A0, A1, R1, C1, R2, C2.
  replace (r0 + (r0 + k - r0)) with (r0 + k) by lia. replace (c0 + (c0 + k - c0)) with (c0 + k) by lia.
  replace ((r0 <=? r) && (r <? r0 + k) && (c0 <=? c) && (c <? c0 + k))
    with ((0 <=? r - r0) && (r - r0 <? k) && (0 <=? c - c0) && (c - c0 <? k)) by lia.
  destruct (_ && _); [reflexivity|ring].
Qed.

Lemma mmul_outer j f g src : shape src = [j; j] ->
  mmul Rmult (outer j f g) src = Ok (mat j j (fun r c => f c * g r * get src [r; c])%R).
Proof.
  intros Hs. destruct (shape_dims _ _ Hs) as [D0 D1]. unfold mmul, outer, mat, at2, dim0, dim1 in *.
  cbn [shape nth get] in *. rewrite D0, D1, Z.eqb_refl. cbn. reflexivity.
Qed.

(** The unscaled half-step: [IZR j] times the scaled one. *)
Lemma jax_half_ok tgt src n j r0 c0 C0 S0 : shape tgt = [n; n] -> shape src = [j; j] -> 0 < j ->
  0 <= r0 -> r0 + j + 1 <= n -> 0 <= c0 -> c0 + j + 1 <= n ->
  exists a, risbo_jax_half tgt src j r0 c0 C0 S0 = Ok a /\ shape a = [n; n]
    /\ forall r c, get a [r; c]
         = (get tgt [r; c] + IZR j * half_total (fun k i => get src [k; i]) j C0 S0 (r - r0)%Z (c - c0)%Z)%R.
Proof.
  intros Ht Hs Hj H1 H2 H3 H4. unfold risbo_jax_half. cbv zeta.
  rewrite !mmul_outer by exact Hs. cbn [bind].
  destruct (slice2_add_ok tgt (mscal (fun x => (x * C0)%R) (mat j j (fun r c => rsqrt (j - c) * rsqrt (j - r) * get src [r; c])%R)) n j r0 c0)
    as (a1 & -> & Hs1 & G1); [auto|reflexivity|lia..|]. cbn [bind].
  destruct (slice2_add_ok a1 (mscal (fun x => (x * S0)%R) (mat j j (fun r c => - rsqrt (c + 1) * rsqrt (j - r) * get src [r; c])%R)) n j r0 (c0 + 1))
    as (a2 & -> & Hs2 & G2); [auto|reflexivity|lia..|]. cbn [bind].
  destruct (slice2_add_ok a2 (mscal (fun x => (x * S0)%R) (mat j j (fun r c => rsqrt (j - c) * rsqrt (r + 1) * get src [r; c])%R)) n j (r0 + 1) c0)
    as (a3 & -> & Hs3 & G3); [auto|reflexivity|lia..|]. cbn [bind].
  destruct (slice2_add_ok a3 (mscal (fun x => (x * C0)%R) (mat j j (fun r c => rsqrt (c + 1) * rsqrt (r + 1) * get src [r; c])%R)) n j (r0 + 1) (c0 + 1))
    as (a4 & -> & Hs4 & G4); [auto|reflexivity|lia..|].
  exists a4. split; [reflexivity|]. split; [exact Hs4|]. intros r c. rewrite G4, G3, G2, G1. clear G1 G2 G3 G4.
  assert (Hj0 : IZR j <> 0%R) by (apply not_0_IZR; lia).
  replace (c - (c0 + 1)) with (c - c0 - 1) by lia. replace (r - (r0 + 1)) with (r - r0 - 1) by lia.
  unfold half_total, sel, hv1, hv2, hv3, hv4, mscal, mat, at2. cbn [get nth].
  repeat match goal with |- context [if ?b then _ else _] => destruct b end; field; exact Hj0.
Qed.

Lemma slice2_ok (a : ndarray R) n k r0 : shape a = [n; n] -> 0 <= r0 -> r0 + k <= n -> 0 <= k ->
  shape (slice2 a r0 (r0 + k) r0 (r0 + k)) = [k; k]
  /\ forall r c, get (slice2 a r0 (r0 + k) r0 (r0 + k)) [r; c] = get a [r0 + r; r0 + c].
Proof.
  intros Ha H1 H2 H3. destruct (shape_dims a n Ha) as [A0 A1].
  unfold slice2, mat, at2. cbn [get shape nth]. rewrite A0, A1.
  destruct (slice_in n r0 (r0 + k)) as [R1 R2]; [lia..|]. rewrite R1, R2.
  split; [f_equal; [|f_equal]; lia|reflexivity].
Qed.

Lemma jax_step_ok L beta l dl : 0 <= l < L ->
  (if l =? 0 then arr_eq dl (zeros 0%R [2 * L - 1; 2 * L - 1]) else holds L (l - 1) beta dl) ->
  exists a, risbo_jax dl beta L l = Ok a /\ holds L l beta a.
Proof.
  intros Hl H. destruct (Z.eq_dec l 0) as [->|N0].
  { destruct (step_ok L beta 0 dl Hl H) as (a & E & Ha). exists a. split; [exact E|exact Ha]. }
  destruct (Z.eq_dec l 1) as [->|N1].
  { destruct (step_ok L beta 1 dl Hl H) as (a & E & Ha). exists a. split; [|exact Ha]. rewrite <- E.
    unfold risbo_jax, risbo_step. cbn [Z.eqb Pos.eqb]. cbv zeta.
    replace (-1 + L - 1) with (L - 2) by lia. replace (0 + L - 1) with (L - 1) by lia.
    replace (1 + L - 1) with L by lia. reflexivity. }
  unfold risbo_jax. replace (l =? 0) with false in * by lia. replace (l =? 1) with false by lia.
  pose proof (cs_half beta) as Hcs. pose proof (holds_dh L (l - 1) beta dl ltac:(lia) H) as Hdh.
  destruct H as [Hs Hg]. cbv zeta.
  set (c := cos (beta / 2)) in *. set (s := sin (beta / 2)) in *.
  destruct (slice2_ok dl (2 * L - 1) (2 * l - 1) (- (l - 1) + L - 1) Hs) as [Sj Gj]; [lia..|].
  destruct (jax_half_ok (zeros 0%R [2 * l + 2; 2 * l + 2])
      (slice2 dl (- (l - 1) + L - 1) (- (l - 1) + L - 1 + (2 * l - 1)) (- (l - 1) + L - 1) (- (l - 1) + L - 1 + (2 * l - 1)))
      (2 * l + 2) (2 * l - 1) 0 0 (- c) s)
    as (dd & -> & Hsd & Hdd); [reflexivity|exact Sj|lia..|]. cbn [bind].
  set (dl0 := fill2 _ _ _ _ _ _).
  assert (Hs0 : shape dl0 = [2 * L - 1; 2 * L - 1]) by (now apply fill2_shape).
  destruct (slice2_ok dd (2 * l + 2) (2 * l) 0 Hsd) as [Sd Gd]; [lia..|].
  change (0 + 2 * l) with (2 * l) in *.
  destruct (jax_half_ok dl0 (slice2 dd 0 (2 * l) 0 (2 * l)) (2 * L - 1) (2 * l) (- l + L - 1) (- l + L - 1) (- c) s)
    as (a & -> & Hsa & Hga); [exact Hs0|exact Sd|lia..|]. cbn [bind].
  eexists; split; [reflexivity|]. destruct (shape_dims _ _ Hsa) as [DA0 DA1].
  split; [unfold mscal, mat; cbn [shape]; congruence|].
  intros m n Hm Hn. unfold mscal, mat, at2. cbn [get nth]. rewrite Hga.
  unfold dl0. rewrite (fill2_get _ (2 * L - 1)) by (auto; lia).
  destruct (Z_lt_dec l (Z.max (Z.abs m) (Z.abs n))) as [O|I].
  - rewrite wigner_d_out by lia. rewrite half_total_out by lia.
    match goal with |- context [if ?b then _ else _] => replace b with false by lia end.
    rewrite Hg, wigner_d_out by lia. unfold Rdiv. ring.
  - match goal with |- context [if ?b then _ else _] => replace b with true by lia end.
    rewrite wigner_dh by lia. fold c s.
    rewrite (half_total_dh c s (2 * l) Hcs) with (e := (- IZR (2 * l - 1))%R); [| lia | lia | lia |].
    + replace (m + L - 1 - (- l + L - 1)) with (l + m) by lia. replace (n + L - 1 - (- l + L - 1)) with (l + n) by lia.
      rewrite (mult_IZR (2 * l)). field. split; apply not_0_IZR; lia.
    + intros k i Hk Hi. rewrite Gd, Hdd. cbn [get zeros].
      replace (0 + k - 0) with k by lia. replace (0 + i - 0) with i by lia.
      rewrite (half_total_dh c s (2 * l - 1) Hcs) with (e := 1%R); [ring | lia | lia | lia |].
      intros k' i' Hk' Hi'. rewrite Gj, Hdh by lia. rewrite Rmult_1_l. f_equal; lia.
Qed.

Lemma jax_run_ok beta L l : 0 <= l < L ->
  exists a, risbo_jax_run beta L l = Ok a /\ holds L l beta a.
Proof.
  intros [H0 HL]. revert HL. revert l H0. unfold risbo_jax_run. z_ind.
  - intros HL. rewrite zrange_cons, zrange_nil by lia. cbn [foldM].
    destruct (jax_step_ok L beta 0 (zeros 0%R [2 * L - 1; 2 * L - 1])) as (a & -> & H); [lia|apply arr_eq_refl|].
    exists a. auto.
  - intros l Hl IH HL. destruct IH as (a & E & Ha); [lia|].
    rewrite <- Z.add_1_r. rewrite zrange_snoc, foldM_app, E by lia. cbn [bind foldM].
    destruct (jax_step_ok L beta (l + 1) a) as (b & -> & H); [lia| |exists b; auto].
    replace (l + 1 =? 0) with false by lia. now replace (l + 1 - 1) with l by lia.
Qed.
