(** Operator norms of matrices through their bilinear forms, and the half-step of the Risbo
    recursion as a contraction for them. *)
From Coq Require Import Reals Lra Lia.
From Verif Require Import Lib.Py Lib.PyFacts Lib.Sums Lib.Arr Lib.ArrFacts.
From Verif Require Import Model.Risbo Proofs.RisboProofs.
Open Scope R_scope.

Lemma rs_le {X} (l : list X) f g : (forall x, In x l -> f x <= g x) -> rsum l f <= rsum l g.
Proof.
  induction l as [|x l IH]; intros H; rewrite ?gs_nil, ?gs_cons; [lra|].
  apply Rplus_le_compat; [apply H; now left|apply IH; intros; apply H; now right].
Qed.
Lemma rr_le a b f g : (forall x, (a <= x < b)%Z -> f x <= g x) -> rsum (zrange a b) f <= rsum (zrange a b) g.
Proof. intros H. apply rs_le. intros x Hx. apply in_zrange in Hx. auto. Qed.
Lemma rs_abs {X} (l : list X) f : Rabs (rsum l f) <= rsum l (fun x => Rabs (f x)).
Proof.
  induction l as [|x l IH]; rewrite ?gs_nil, ?gs_cons; [rewrite Rabs_R0; lra|].
  eapply Rle_trans; [apply Rabs_triang|]. lra.
Qed.
Lemma rs_nonneg {X} (l : list X) f : (forall x, In x l -> 0 <= f x) -> 0 <= rsum l f.
Proof.
  induction l as [|x l IH]; intros H; rewrite ?gs_nil, ?gs_cons; [lra|].
  pose proof (H x (or_introl eq_refl)). assert (0 <= rsum l f) by (apply IH; intros; apply H; now right). lra.
Qed.

(** Cauchy-Schwarz *)
Lemma cs_sq {X} (l : list X) f g :
  rsum l (fun x => f x * g x) * rsum l (fun x => f x * g x) <= rsum l (fun x => f x * f x) * rsum l (fun x => g x * g x).
Proof.
  set (A := rsum l (fun x => f x * f x)). set (B := rsum l (fun x => g x * g x)). set (P := rsum l (fun x => f x * g x)).
  assert (Q : forall s t, 0 <= s * s * A + 2 * s * t * P + t * t * B).
  { intros s t. replace (s * s * A + 2 * s * t * P + t * t * B)
      with (rsum l (fun x => (s * f x + t * g x) * (s * f x + t * g x))).
    - apply rs_nonneg. intros. apply Rle_0_sqr.
    - unfold A, B, P. rewrite <- !rs_scal_l, <- !rs_plus. apply rs_ext. intros. ring. }
  assert (HA : 0 <= A) by (apply rs_nonneg; intros; apply Rle_0_sqr).
  assert (HB : 0 <= B) by (apply rs_nonneg; intros; apply Rle_0_sqr).
  destruct (Req_dec B 0) as [E|N].
  - rewrite E. destruct (Req_dec P 0) as [->|NP]; [lra|]. exfalso.
    pose proof (Q 1 (- (A + 1) / (2 * P))) as H. rewrite E in H.
    replace (1 * 1 * A + 2 * 1 * (- (A + 1) / (2 * P)) * P + - (A + 1) / (2 * P) * (- (A + 1) / (2 * P)) * 0)
      with (-1) in H by (field; exact NP). lra.
  - pose proof (Q B (- P)) as H. assert (0 < B) by lra.
    replace (B * B * A + 2 * B * - P * P + - P * - P * B) with (B * (A * B - P * P)) in H by ring.
    assert (0 <= A * B - P * P) by nra. lra.
Qed.
Lemma cauchy {X} (l : list X) f g :
  Rabs (rsum l (fun x => f x * g x)) <= sqrt (rsum l (fun x => f x * f x)) * sqrt (rsum l (fun x => g x * g x)).
Proof.
  rewrite <- sqrt_mult by (apply rs_nonneg; intros; apply Rle_0_sqr).
  rewrite <- sqrt_Rsqr_abs. apply sqrt_le_1_alt. apply cs_sq.
Qed.
Lemma cauchy2 a b c d : 0 <= a -> 0 <= b -> 0 <= c -> 0 <= d ->
  sqrt a * sqrt b + sqrt c * sqrt d <= sqrt (a + c) * sqrt (b + d).
Proof.
  intros. rewrite <- (sqrt_mult (a + c) (b + d)) by lra.
  pose proof (sqrt_sqrt a) as Ea. pose proof (sqrt_sqrt b) as Eb. pose proof (sqrt_sqrt c) as Ec. pose proof (sqrt_sqrt d) as Ed.
  pose proof (sqrt_pos a). pose proof (sqrt_pos b). pose proof (sqrt_pos c). pose proof (sqrt_pos d).
  apply Rsqr_incr_0_var; [|apply sqrt_pos]. rewrite Rsqr_sqrt by nra. unfold Rsqr.
  set (sa := sqrt a) in *. set (sb := sqrt b) in *. set (sc := sqrt c) in *. set (sd := sqrt d) in *.
  replace a with (sa * sa) by (apply Ea; lra). replace b with (sb * sb) by (apply Eb; lra). replace c with (sc * sc) by (apply Ec; lra). replace d with (sd * sd) by (apply Ed; lra).
  pose proof (Rle_0_sqr (sa * sd - sc * sb)). unfold Rsqr in *. nra.
Qed.

(** ** The bilinear form of an n x n matrix and a bound for it *)
Definition n2 (n : Z) (x : Z -> R) : R := rsum (zrange 0 n) (fun i => x i * x i).
Definition bil (n : Z) (x : Z -> R) (E : Z -> Z -> R) (y : Z -> R) : R :=
  rsum (zrange 0 n) (fun q => rsum (zrange 0 n) (fun p => x q * E q p * y p)).
Definition opb (n : Z) (E : Z -> Z -> R) (e : R) : Prop :=
  forall x y, Rabs (bil n x E y) <= e * (sqrt (n2 n x) * sqrt (n2 n y)).

Lemma n2_nonneg n x : 0 <= n2 n x.
Proof. apply rs_nonneg. intros. apply Rle_0_sqr. Qed.

Lemma opb_ext n E F e : (forall q p, (0 <= q < n)%Z -> (0 <= p < n)%Z -> E q p = F q p) -> opb n E e -> opb n F e.
Proof.
  intros H HE x y. specialize (HE x y). unfold bil in *. erewrite rr_ext; [exact HE|].
  intros q Hq. apply rr_ext. intros p Hp. now rewrite H.
Qed.
Lemma opb_plus n E F e f : opb n E e -> opb n F f -> opb n (fun q p => E q p + F q p) (e + f).
Proof.
  intros HE HF x y. specialize (HE x y). specialize (HF x y).
  replace (bil n x (fun q p => E q p + F q p) y) with (bil n x E y + bil n x F y).
  - eapply Rle_trans; [apply Rabs_triang|]. lra.
  - unfold bil. rewrite <- rs_plus. apply rr_ext. intros q Hq. rewrite <- rs_plus. apply rr_ext. intros. ring.
Qed.
Lemma opb_opp n E e : opb n E e -> opb n (fun q p => - E q p) e.
Proof.
  intros HE x y. specialize (HE x y). replace (bil n x (fun q p => - E q p) y) with (- bil n x E y).
  - now rewrite Rabs_Ropp.
  - unfold bil. rewrite <- rs_opp. apply rr_ext. intros q Hq. rewrite <- rs_opp. apply rr_ext. intros. ring.
Qed.
Lemma opb_le n E e f : e <= f -> opb n E e -> opb n E f.
Proof.
  intros H HE x y. eapply Rle_trans; [apply HE|]. apply Rmult_le_compat_r; [|exact H].
  apply Rmult_le_pos; apply sqrt_pos.
Qed.
Lemma opb_entry n E e q p : opb n E e -> (0 <= q < n)%Z -> (0 <= p < n)%Z -> Rabs (E q p) <= e.
Proof.
  intros H Hq Hp.
  specialize (H (fun i => if (i =? q)%Z then 1 else 0) (fun i => if (i =? p)%Z then 1 else 0)).
  assert (N : forall k, (0 <= k < n)%Z -> n2 n (fun i => if (i =? k)%Z then 1 else 0) = 1).
  { intros k Hk. unfold n2. rewrite (rr_ext 0 n _ (fun i => if (i =? k)%Z then 1 else 0)).
    - now apply (rr_delta 0 n k (fun _ => 1)).
    - intros i _. destruct (i =? k)%Z; ring. }
  rewrite !N, !sqrt_1 in H by assumption. replace (bil n _ E _) with (E q p) in H; [lra|].
  unfold bil. rewrite (rr_ext 0 n _ (fun i => if (i =? q)%Z then E i p else 0)).
  - symmetry. now apply (rr_delta 0 n q (fun i => E i p)).
  - intros i Hi. rewrite (rr_ext 0 n _ (fun k => if (k =? p)%Z then (if (i =? q)%Z then 1 else 0) * E i k else 0)).
    + rewrite (rr_delta 0 n p (fun k => (if (i =? q)%Z then 1 else 0) * E i k)) by assumption.
      destruct (i =? q)%Z; ring.
    + intros k _. destruct (i =? q)%Z, (k =? p)%Z; ring.
Qed.

Lemma sum_const n c : (0 <= n)%Z -> rsum (zrange 0 n) (fun _ => c) = IZR n * c.
Proof.
  intros H. pattern n. apply natlike_ind; [|intros k Hk IH|exact H].
  - rewrite rr_nil by lia. ring.
  - unfold Z.succ. rewrite rr_snoc, IH by lia. rewrite plus_IZR. ring.
Qed.
Lemma abs_sum n x : (0 <= n)%Z -> rsum (zrange 0 n) (fun i => Rabs (x i)) <= sqrt (IZR n) * sqrt (n2 n x).
Proof.
  intros H. pose proof (cauchy (zrange 0 n) (fun _ => 1) (fun i => Rabs (x i))) as C.
  cbv beta in C. rewrite (sum_const n (1 * 1)), Rmult_1_r, Rmult_1_r in C by exact H.
  rewrite (rr_ext 0 n (fun i => 1 * Rabs (x i)) (fun i => Rabs (x i))) in C by (intros; ring).
  rewrite (rr_ext 0 n (fun i => Rabs (x i) * Rabs (x i)) (fun i => x i * x i)) in C
    by (intros i _; rewrite <- Rabs_mult; apply Rabs_pos_eq, Rle_0_sqr).
  eapply Rle_trans; [apply Rle_abs|exact C].
Qed.
Lemma opb_entries n E r : (0 <= n)%Z -> 0 <= r ->
  (forall q p, (0 <= q < n)%Z -> (0 <= p < n)%Z -> Rabs (E q p) <= r) -> opb n E (r * IZR n).
Proof.
  intros Hn Hr H x y. unfold bil.
  apply Rle_trans with (rsum (zrange 0 n) (fun q => rsum (zrange 0 n) (fun p => r * Rabs (x q) * Rabs (y p)))).
  - eapply Rle_trans; [apply rs_abs|]. apply rr_le. intros q Hq. eapply Rle_trans; [apply rs_abs|].
    apply rr_le. intros p Hp. rewrite !Rabs_mult. pose proof (H q p Hq Hp).
    pose proof (Rabs_pos (x q)). pose proof (Rabs_pos (y p)).
    apply Rmult_le_compat_r; [lra|]. rewrite (Rmult_comm r). apply Rmult_le_compat_l; lra.
  - rewrite (rr_ext 0 n _ (fun q => Rabs (x q) * (r * rsum (zrange 0 n) (fun p => Rabs (y p))))).
    + rewrite rs_scal_r. pose proof (abs_sum n x Hn) as HX. pose proof (abs_sum n y Hn) as HY.
      set (SX := rsum (zrange 0 n) (fun i => Rabs (x i))) in *. set (SY := rsum (zrange 0 n) (fun i => Rabs (y i))) in *.
      assert (0 <= SX) by (apply rs_nonneg; intros; apply Rabs_pos).
      assert (0 <= SY) by (apply rs_nonneg; intros; apply Rabs_pos).
      assert (SX * SY <= (sqrt (IZR n) * sqrt (n2 n x)) * (sqrt (IZR n) * sqrt (n2 n y)))
        by (apply Rmult_le_compat; assumption).
      replace (SX * (r * SY)) with (r * (SX * SY)) by ring.
      replace (r * IZR n * (sqrt (n2 n x) * sqrt (n2 n y)))
        with (r * ((sqrt (IZR n) * sqrt (n2 n x)) * (sqrt (IZR n) * sqrt (n2 n y)))).
      * apply Rmult_le_compat_l; assumption.
      * rewrite <- (sqrt_sqrt (IZR n)) at 3 by (now apply IZR_le). ring.
    + intros q Hq. rewrite <- !rs_scal_l. apply rr_ext. intros. ring.
Qed.

(** ** The half-step does not increase the bound *)
Section Half.
  Variables (j : Z) (Hj : (0 < j)%Z) (C0 S0 : R) (HCS : C0 * C0 + S0 * S0 = 1).

  Let lo (x : Z -> R) (k : Z) : R := sqrt (IZR (j - k) / IZR j) * x k.
  Let hi (x : Z -> R) (k : Z) : R := sqrt (IZR (k + 1) / IZR j) * x (k + 1)%Z.

  Lemma split_norm x : n2 j (lo x) + n2 j (hi x) = n2 (j + 1) x.
  Proof using Hj.
    assert (Hj0 : IZR j <> 0) by (apply not_0_IZR; lia). assert (0 < IZR j) by (apply IZR_lt; lia).
    assert (E1 : n2 j (lo x) = rsum (zrange 0 (j + 1)) (fun k => IZR (j - k) / IZR j * (x k * x k))).
    { rewrite rr_snoc by lia. replace (j - j)%Z with 0%Z by lia. unfold Rdiv at 2. rewrite !Rmult_0_l, Rplus_0_r.
      apply rr_ext. intros k Hk. unfold lo.
      replace (sqrt (IZR (j - k) / IZR j) * x k * (sqrt (IZR (j - k) / IZR j) * x k))
        with ((sqrt (IZR (j - k) / IZR j) * sqrt (IZR (j - k) / IZR j)) * (x k * x k)) by ring.
      rewrite sqrt_sqrt; [reflexivity|]. apply Rmult_le_pos; [apply IZR_le; lia|]. left. now apply Rinv_0_lt_compat. }
    assert (E2 : n2 j (hi x) = rsum (zrange 0 (j + 1)) (fun k => IZR k / IZR j * (x k * x k))).
    { rewrite (rr_cons 0 (j + 1)) by lia. unfold Rdiv at 1. rewrite !Rmult_0_l, Rplus_0_l.
      rewrite <- (rr_shift 0 j 1). apply rr_ext. intros k Hk. unfold hi.
      replace (sqrt (IZR (k + 1) / IZR j) * x (k + 1)%Z * (sqrt (IZR (k + 1) / IZR j) * x (k + 1)%Z))
        with ((sqrt (IZR (k + 1) / IZR j) * sqrt (IZR (k + 1) / IZR j)) * (x (k + 1)%Z * x (k + 1)%Z)) by ring.
      rewrite sqrt_sqrt; [reflexivity|]. apply Rmult_le_pos; [apply IZR_le; lia|]. left. now apply Rinv_0_lt_compat. }
    rewrite E1, E2, <- rs_plus. apply rr_ext. intros k Hk. rewrite minus_IZR. field. exact Hj0.
  Qed.

  Let w0 (y : Z -> R) i := C0 * lo y i - S0 * hi y i.
  Let w1 (y : Z -> R) i := S0 * lo y i + C0 * hi y i.

  Lemma rot_norm y : n2 j (w0 y) + n2 j (w1 y) = n2 (j + 1) y.
  Proof using Hj HCS.
    rewrite <- split_norm. unfold n2. rewrite <- !rs_plus. apply rr_ext. intros i Hi. unfold w0, w1.
    transitivity ((C0 * C0 + S0 * S0) * (lo y i * lo y i + hi y i * hi y i)); [ring|]. rewrite HCS. ring.
  Qed.

  Lemma sqrt_pair a b : (0 <= a)%Z -> (0 <= b)%Z ->
    rsqrt a * rsqrt b / IZR j = sqrt (IZR a / IZR j) * sqrt (IZR b / IZR j).
  Proof using Hj.
    intros Ha Hb. assert (0 < IZR j) by (apply IZR_lt; lia). unfold rsqrt.
    rewrite !sqrt_div_alt by assumption.
    rewrite <- (sqrt_sqrt (IZR j)) at 1 by lra. field. apply Rgt_not_eq. now apply sqrt_lt_R0.
  Qed.

  Lemma sel_in v q p : (0 <= q < j)%Z -> (0 <= p < j)%Z -> sel j v q p = v q p.
  Proof using. intros. unfold sel. now replace ((0 <=? q) && (q <? j) && (0 <=? p) && (p <? j))%Z with true by lia. Qed.
  Lemma sel_outside v q p : ~ ((0 <= q < j)%Z /\ (0 <= p < j)%Z) -> sel j v q p = 0.
  Proof using. intros. unfold sel. now replace ((0 <=? q) && (q <? j) && (0 <=? p) && (p <? j))%Z with false by lia. Qed.

  (** sums over the larger range of selected terms are sums over the smaller one *)
  Lemma sel_sum a b (v : Z -> Z -> R) (x y : Z -> R) : (a = 0 \/ a = 1)%Z -> (b = 0 \/ b = 1)%Z ->
    rsum (zrange 0 (j + 1)) (fun q => rsum (zrange 0 (j + 1)) (fun p => x q * sel j v (q - a) (p - b) * y p))
    = rsum (zrange 0 j) (fun k => rsum (zrange 0 j) (fun i => x (k + a)%Z * v k i * y (i + b)%Z)).
  Proof using Hj.
    intros Ha Hb.
    assert (O : forall c (f : Z -> R), (c = 0 \/ c = 1)%Z -> (forall q, (0 <= q - c < j)%Z \/ f q = 0) ->
      rsum (zrange 0 (j + 1)) f = rsum (zrange 0 j) (fun k => f (k + c)%Z)).
    { intros c f [-> | ->] Hf.
      - rewrite rr_snoc by lia. destruct (Hf j) as [?| ->]; [lia|]. rewrite Rplus_0_r. apply rr_ext. intros. f_equal. lia.
      - rewrite rr_cons by lia. destruct (Hf 0%Z) as [?| ->]; [lia|]. rewrite Rplus_0_l. now rewrite <- (rr_shift 0 j 1). }
    rewrite (O a); [|exact Ha|].
    2:{ intros q. destruct (Z_lt_dec (q - a) 0); [right|destruct (Z_lt_dec (q - a) j); [left; lia|right]];
        apply rr_0; intros; rewrite sel_outside by lia; ring. }
    apply rr_ext. intros k Hk.
    rewrite (O b); [|exact Hb|].
    2:{ intros q. destruct (Z_lt_dec (q - b) 0); [right|destruct (Z_lt_dec (q - b) j); [left; lia|right]];
        rewrite sel_outside by lia; ring. }
    apply rr_ext. intros i Hi. rewrite sel_in by lia. do 2 f_equal. f_equal; lia.
  Qed.

  Lemma half_bil E x y :
    bil (j + 1) x (half_total E j C0 S0) y = bil j (lo x) E (w0 y) + bil j (hi x) E (w1 y).
  Proof using Hj.
    transitivity (rsum (zrange 0 j) (fun k => rsum (zrange 0 j) (fun i => x (k + 0)%Z * hv1 E j C0 k i * y (i + 0)%Z))
      + rsum (zrange 0 j) (fun k => rsum (zrange 0 j) (fun i => x (k + 0)%Z * hv2 E j S0 k i * y (i + 1)%Z))
      + rsum (zrange 0 j) (fun k => rsum (zrange 0 j) (fun i => x (k + 1)%Z * hv3 E j S0 k i * y (i + 0)%Z))
      + rsum (zrange 0 j) (fun k => rsum (zrange 0 j) (fun i => x (k + 1)%Z * hv4 E j C0 k i * y (i + 1)%Z))).
    - rewrite <- !sel_sum by auto. unfold bil. rewrite <- !rs_plus. apply rr_ext. intros q Hq.
      rewrite <- !rs_plus. apply rr_ext. intros p Hp. unfold half_total. rewrite !Z.sub_0_r. ring.
    - unfold bil. rewrite <- !rs_plus. apply rr_ext. intros k Hk. rewrite <- !rs_plus. apply rr_ext. intros i Hi.
      unfold w0, w1, lo, hi, hv1, hv2, hv3, hv4. rewrite !Z.add_0_r.
      pose proof (sqrt_pair (j - i) (j - k) ltac:(lia) ltac:(lia)) as P1.
      pose proof (sqrt_pair (i + 1) (j - k) ltac:(lia) ltac:(lia)) as P2.
      pose proof (sqrt_pair (j - i) (k + 1) ltac:(lia) ltac:(lia)) as P3.
      pose proof (sqrt_pair (i + 1) (k + 1) ltac:(lia) ltac:(lia)) as P4.
      transitivity (E k i * ((rsqrt (j - i) * rsqrt (j - k) / IZR j) * C0 * (x k * y i)
        - (rsqrt (i + 1) * rsqrt (j - k) / IZR j) * S0 * (x k * y (i + 1)%Z)
        + (rsqrt (j - i) * rsqrt (k + 1) / IZR j) * S0 * (x (k + 1)%Z * y i)
        + (rsqrt (i + 1) * rsqrt (k + 1) / IZR j) * C0 * (x (k + 1)%Z * y (i + 1)%Z))).
      + unfold Rdiv. ring.
      + rewrite P1, P2, P3, P4. ring.
  Qed.

  Lemma half_opb E e : 0 <= e -> opb j E e -> opb (j + 1) (half_total E j C0 S0) e.
  Proof using Hj HCS.
    intros He H x y. rewrite half_bil. eapply Rle_trans; [apply Rabs_triang|].
    pose proof (H (lo x) (w0 y)) as H1. pose proof (H (hi x) (w1 y)) as H2.
    apply Rle_trans with (e * (sqrt (n2 j (lo x)) * sqrt (n2 j (w0 y)) + sqrt (n2 j (hi x)) * sqrt (n2 j (w1 y)))); [lra|].
    apply Rmult_le_compat_l; [exact He|]. rewrite <- (split_norm x), <- (rot_norm y).
    apply cauchy2; apply n2_nonneg.
  Qed.
End Half.
