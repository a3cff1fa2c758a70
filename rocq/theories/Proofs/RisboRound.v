(** Loops that accumulate in rounded arithmetic: the four additions of a half-step. *)
From Coq Require Import Reals Lra Lia.
From Verif Require Import Lib.Py Lib.PyFacts Lib.Sums Lib.Cplx Lib.Vec Lib.VecFacts Lib.Arr Lib.ArrFacts.
From Verif Require Import Model.Risbo Model.RisboFloat Spec.WignerSpec Spec.RoundingSpec Proofs.RisboProofs Proofs.SpectralBound.
Open Scope Z_scope.

(** ** The four additions at every (k, i), in any arithmetic *)
Section Quad.
  Context {T : Type} (add : T -> T -> T) (pos : Z -> Z -> list Z) (v1 v2 v3 v4 : Z -> Z -> T) (j : Z).
  Definition quad (a : ndarray T) : result (ndarray T) :=
    foldM (fun a k =>
      foldM (fun a i =>
        let* a := aplus add a (pos k i) (v1 k i) in
        let* a := aplus add a (pos k (i + 1)) (v2 k i) in
        let* a := aplus add a (pos (k + 1) i) (v3 k i) in
        aplus add a (pos (k + 1) (i + 1)) (v4 k i))
        (zrange 0 j) a)
      (zrange 0 j) a.
End Quad.

Section QuadRing.
  Context {T : Type} (zero one : T) (add mul sub : T -> T -> T) (opp : T -> T)
    (RT : ring_theory zero one add mul sub opp eq).
  Add Ring TRQ : RT.
  Infix "+!" := add (at level 50, left associativity).
  Variables (pos : Z -> Z -> list Z) (j : Z).
  Hypothesis inj : forall k i q p, pos k i = pos q p -> k = q /\ i = p.

  Definition gsel (v : Z -> Z -> T) (p q : Z) : T :=
    if (0 <=? p) && (p <? j) && (0 <=? q) && (q <? j) then v p q else zero.
  Definition gtotal (v1 v2 v3 v4 : Z -> Z -> T) (q p : Z) : T :=
    gsel v1 q p +! gsel v2 q (p - 1) +! gsel v3 (q - 1) p +! gsel v4 (q - 1) (p - 1).

  Lemma one_at_pos k i v q p : one_at zero (pos k i) v (pos q p) = if (k =? q) && (i =? p) then v else zero.
  Proof using inj.
    unfold one_at. destruct (list_eq_dec _ (pos q p) (pos k i)) as [E|N].
    - apply inj in E. destruct E as [-> ->]. now rewrite !Z.eqb_refl.
    - destruct (Z.eqb_spec k q) as [->|]; [|reflexivity]. destruct (Z.eqb_spec i p) as [->|]; [|reflexivity]. congruence.
  Qed.
  Lemma one_at_no k i v ix : ix <> pos k i -> one_at zero (pos k i) v ix = zero.
  Proof using. intros. unfold one_at. now destruct (list_eq_dec _ ix (pos k i)). Qed.

  Lemma quad_ring v1 v2 v3 v4 a :
    (forall k i, 0 <= k <= j -> 0 <= i <= j -> in_shape (shape a) (pos k i)) ->
    exists b, quad add pos v1 v2 v3 v4 j a = Ok b /\ shape b = shape a
      /\ (forall q p, get b (pos q p) = get a (pos q p) +! gtotal v1 v2 v3 v4 q p)
      /\ (forall ix, (forall k i, 0 <= k <= j -> 0 <= i <= j -> ix <> pos k i) -> get b ix = get a ix).
  Proof using RT inj.
    intros Hin.
    set (cc := fun k i ix => one_at zero (pos k i) (v1 k i) ix
          +! (one_at zero (pos k (i + 1)) (v2 k i) ix
          +! (one_at zero (pos (k + 1) i) (v3 k i) ix
             +! one_at zero (pos (k + 1) (i + 1)) (v4 k i) ix))).
    assert (H : acc add (quad add pos v1 v2 v3 v4 j a) a
       (fun ix => suml zero add (zrange 0 j) (fun k => suml zero add (zrange 0 j) (fun i => cc k i ix)))).
    { unfold quad. apply (acc_foldM _ _ _ _ _ _ RT). intros b k Hb Hk. apply in_zrange in Hk.
      apply (acc_foldM _ _ _ _ _ _ RT). intros c i Hc Hi. apply in_zrange in Hi.
      assert (Hcs : shape c = shape a) by congruence. unfold cc.
      apply (acc_bind _ _ _ _ _ _ RT); [apply (aplus_acc _ _ _ _ _ _ RT); rewrite Hcs; apply Hin; lia|].
      intros b1 Hb1. apply (acc_bind _ _ _ _ _ _ RT); [apply (aplus_acc _ _ _ _ _ _ RT); rewrite Hb1, Hcs; apply Hin; lia|].
      intros b2 Hb2. apply (acc_bind _ _ _ _ _ _ RT); [apply (aplus_acc _ _ _ _ _ _ RT); rewrite Hb2, Hb1, Hcs; apply Hin; lia|].
      intros b3 Hb3. apply (aplus_acc _ _ _ _ _ _ RT). rewrite Hb3, Hb2, Hb1, Hcs. apply Hin; lia. }
    destruct H as (b & E & Hsh & Hg). exists b. split; [exact E|]. split; [exact Hsh|]. split.
    - intros q p. rewrite Hg. f_equal.
      rewrite (gr_ext zero add 0 j _ (fun k =>
         suml zero add (zrange 0 j) (fun i => if (k =? q) && (i =? p) then v1 k i else zero)
         +! (suml zero add (zrange 0 j) (fun i => if (k =? q) && (i =? p - 1) then v2 k i else zero)
         +! (suml zero add (zrange 0 j) (fun i => if (k =? q - 1) && (i =? p) then v3 k i else zero)
         +! suml zero add (zrange 0 j) (fun i => if (k =? q - 1) && (i =? p - 1) then v4 k i else zero))))).
      2:{ intros k Hk. rewrite <- !(gs_plus _ _ _ _ _ _ RT). apply gr_ext. intros i Hi. unfold cc. rewrite !one_at_pos.
          replace (i + 1 =? p) with (i =? p - 1) by lia. replace (k + 1 =? q) with (k =? q - 1) by lia. reflexivity. }
      rewrite !(gs_plus _ _ _ _ _ _ RT), !(dsum_sel _ _ _ _ _ _ RT). unfold gtotal, gsel. ring.
    - intros ix Hix. rewrite Hg. rewrite (gr_0 _ _ _ _ _ _ RT); [ring|]. intros k Hk.
      apply (gr_0 _ _ _ _ _ _ RT). intros i Hi. unfold cc.
      rewrite !one_at_no by (apply Hix; lia). ring.
  Qed.
End QuadRing.

(** ** Rounded additions, related to exact additions of the same terms and to the number of additions *)
Section Rel.
  Variables (A : arith) (u eta V : R).
  Hypothesis HA : rounded A u eta.

  (** an upper bound for the error of n additions from 0 of terms of size at most V *)
  Fixpoint eadd (n : nat) : R :=
    match n with O => 0%R | S n => (eadd n + (u * (V * INR (S n) + eadd n) + eta))%R end.

  Definition Rel (a b : ndarray R) (c : ndarray Z) : Prop :=
    shape a = shape b /\ shape c = shape b /\
    forall ix, in_shape (shape b) ix -> 0 <= get c ix
      /\ (Rabs (get a ix - get b ix) <= eadd (Z.to_nat (get c ix)))%R
      /\ (Rabs (get b ix) <= V * IZR (get c ix))%R.
  Definition rel3 (r1 r2 : result (ndarray R)) (r3 : result (ndarray Z)) : Prop :=
    exists a b c, r1 = Ok a /\ r2 = Ok b /\ r3 = Ok c /\ Rel a b c.

  Lemma rel_bind r1 r2 r3 k1 k2 k3 : rel3 r1 r2 r3 ->
    (forall a b c, r2 = Ok b -> Rel a b c -> rel3 (k1 a) (k2 b) (k3 c)) -> rel3 (bind r1 k1) (bind r2 k2) (bind r3 k3).
  Proof using. intros (a & b & c & -> & -> & -> & H) K. cbn [bind]. auto. Qed.

  Lemma rel_foldM {X} f1 f2 f3 (l : list X) sh : forall a b c, shape b = sh ->
    (forall a b c x, In x l -> shape b = sh -> Rel a b c ->
       rel3 (f1 a x) (f2 b x) (f3 c x) /\ forall b', f2 b x = Ok b' -> shape b' = sh) ->
    Rel a b c -> rel3 (foldM f1 l a) (foldM f2 l b) (foldM f3 l c) /\ forall b', foldM f2 l b = Ok b' -> shape b' = sh.
  Proof using.
    induction l as [|x l IH]; intros a b c Hs H HR; cbn [foldM].
    - split; [exists a, b, c; auto|]. intros b' [= <-]. exact Hs.
    - destruct (H a b c x (or_introl eq_refl) Hs HR) as [(a1 & b1 & c1 & E1 & E2 & E3 & HR1) Hsh].
      rewrite E1, E2, E3. apply IH; [now apply Hsh| |exact HR1]. intros. apply H; auto. now right.
  Qed.

  Lemma rel_plus a b c ix v : Rel a b c -> in_shape (shape b) ix -> (Rabs v <= V)%R ->
    rel3 (aplus (fadd A) a ix v) (aplus Rplus b ix v) (aplus Z.add c ix 1)
    /\ forall b', aplus Rplus b ix v = Ok b' -> shape b' = shape b.
  Proof using HA.
    intros (Hs1 & Hs2 & H) Hix Hv. unfold aplus.
    rewrite (aread_in a), (aread_in b), (aread_in c) by congruence. cbn [bind].
    rewrite !awrite_in by congruence. split; [|now intros b' [= <-]].
    do 3 eexists. split; [reflexivity|]. split; [reflexivity|]. split; [reflexivity|].
    split; [exact Hs1|]. split; [exact Hs2|]. cbn [get shape]. intros iy Hiy. unfold upd.
    destruct (list_eq_dec _ iy ix) as [_|_]; [|now apply H].
    destruct (H ix Hix) as (H0 & H1 & H2). split; [lia|].
    set (n := get c ix) in *. set (x := get a ix) in *. set (y := get b ix) in *.
    rewrite Z2Nat.inj_add by lia. replace (Z.to_nat n + Z.to_nat 1)%nat with (S (Z.to_nat n)) by lia.
    assert (EN : INR (S (Z.to_nat n)) = (IZR n + 1)%R) by (rewrite S_INR, INR_IZR_INZ, Z2Nat.id by lia; reflexivity).
    assert (B : (Rabs (y + v) <= V * (IZR n + 1))%R) by (eapply Rle_trans; [apply Rabs_triang|lra]).
    split; [|rewrite plus_IZR; exact B].
    cbn [eadd]. rewrite EN. pose proof (rd_add _ _ _ HA x v) as Hadd. pose proof (rd_u _ _ _ HA) as Hu.
    assert (B2 : (Rabs (x + v) <= V * (IZR n + 1) + eadd (Z.to_nat n))%R).
    { replace (x + v)%R with ((y + v) + (x - y))%R by ring. eapply Rle_trans; [apply Rabs_triang|]. lra. }
    replace (fadd A x v - (y + v))%R with ((fadd A x v - (x + v)) + (x - y))%R by ring.
    eapply Rle_trans; [apply Rabs_triang|].
    assert ((u * Rabs (x + v) <= u * (V * (IZR n + 1) + eadd (Z.to_nat n)))%R) by (now apply Rmult_le_compat_l).
    lra.
  Qed.
End Rel.

Lemma rel_quad A u eta V pos v1 v2 v3 v4 j a : rounded A u eta ->
  (forall k i q p, pos k i = pos q p -> k = q /\ i = p) ->
  (forall k i, 0 <= k <= j -> 0 <= i <= j -> in_shape (shape a) (pos k i)) ->
  (forall ix, in_shape (shape a) ix -> get a ix = 0%R) ->
  (forall k i, 0 <= k < j -> 0 <= i < j -> (Rabs (v1 k i) <= V /\ Rabs (v2 k i) <= V /\ Rabs (v3 k i) <= V /\ Rabs (v4 k i) <= V)%R) ->
  (0 <= V)%R ->
  exists b, quad (fadd A) pos v1 v2 v3 v4 j a = Ok b /\ shape b = shape a
    /\ (forall q p, 0 <= q <= j -> 0 <= p <= j ->
         (Rabs (get b (pos q p) - gtotal 0%R Rplus j v1 v2 v3 v4 q p) <= eadd u eta V 4)%R)
    /\ (forall ix, in_shape (shape a) ix -> (forall k i, 0 <= k <= j -> 0 <= i <= j -> ix <> pos k i) -> get b ix = 0%R).
Proof.
  intros HA inj Hin Hz Hv HV.
  pose proof (rd_u _ _ _ HA) as Hu. pose proof (rd_eta _ _ _ HA) as Heta.
  set (one := fun _ _ : Z => 1%Z).
  assert (R0 : Rel u eta V a a (zeros 0%Z (shape a))).
  { split; [reflexivity|]. split; [reflexivity|]. intros ix Hix. cbn [get zeros]. split; [lia|].
    rewrite Hz by exact Hix. cbn [Z.to_nat eadd]. rewrite Rminus_eq_0, Rabs_R0. lra. }
  assert (H : rel3 u eta V (quad (fadd A) pos v1 v2 v3 v4 j a) (quad Rplus pos v1 v2 v3 v4 j a)
                (quad Z.add pos one one one one j (zeros 0%Z (shape a)))).
  { unfold quad. eapply (rel_foldM u eta V _ _ _ _ (shape a)); [reflexivity| |exact R0].
    intros a1 b1 c1 k Hk Hs1 HR1. apply in_zrange in Hk.
    eapply (rel_foldM u eta V _ _ _ _ (shape a)); [exact Hs1| |exact HR1].
    intros a2 b2 c2 i Hi Hs2 HR2. apply in_zrange in Hi. destruct (Hv k i Hk Hi) as (V1 & V2 & V3 & V4).
    unfold one.
    destruct (rel_plus A u eta V HA a2 b2 c2 (pos k i) (v1 k i) HR2 ltac:(rewrite Hs2; apply Hin; lia) V1)
      as [(a3 & b3 & c3 & E1 & E2 & E3 & HR3) S3]. rewrite E1, E2, E3. cbn [bind]. specialize (S3 _ E2).
    destruct (rel_plus A u eta V HA a3 b3 c3 (pos k (i + 1)) (v2 k i) HR3 ltac:(rewrite S3, Hs2; apply Hin; lia) V2)
      as [(a4 & b4 & c4 & F1 & F2 & F3 & HR4) S4]. rewrite F1, F2, F3. cbn [bind]. specialize (S4 _ F2).
    destruct (rel_plus A u eta V HA a4 b4 c4 (pos (k + 1) i) (v3 k i) HR4 ltac:(rewrite S4, S3, Hs2; apply Hin; lia) V3)
      as [(a5 & b5 & c5 & G1 & G2 & G3 & HR5) S5]. rewrite G1, G2, G3. cbn [bind]. specialize (S5 _ G2).
    destruct (rel_plus A u eta V HA a5 b5 c5 (pos (k + 1) (i + 1)) (v4 k i) HR5 ltac:(rewrite S5, S4, S3, Hs2; apply Hin; lia) V4)
      as [H6 S6]. split; [exact H6|]. intros b' Hb'. rewrite (S6 _ Hb'). congruence. }
  destruct H as (b & e & c & E1 & E2 & E3 & (S1 & S2 & HR)).
  destruct (quad_ring 0%R 1%R Rplus Rmult Rminus Ropp R_rt pos j inj v1 v2 v3 v4 a Hin) as (e' & E2' & Se & Ge & Ne).
  assert (e' = e) by congruence. subst e'.
  destruct (quad_ring 0%Z 1%Z Z.add Z.mul Z.sub Z.opp InitialRing.Zth pos j inj one one one one (zeros 0%Z (shape a)))
    as (c' & E3' & Sc & Gc & Nc). { cbn [shape zeros]. exact Hin. }
  assert (c' = c) by congruence. subst c'.
  assert (Emono : forall n m, (n <= m)%nat -> (0 <= eadd u eta V n <= eadd u eta V m)%R).
  { assert (P : forall n, (0 <= eadd u eta V n)%R).
    { induction n as [|n IH]; [cbn; lra|]. cbn [eadd]. pose proof (pos_INR (S n)).
      assert (0 <= u * (V * INR (S n) + eadd u eta V n))%R; [|lra].
      apply Rmult_le_pos; [exact Hu|]. apply Rplus_le_le_0_compat; [|exact IH]. now apply Rmult_le_pos. }
    intros n m Hnm. split; [apply P|]. induction Hnm as [|m Hm IH]; [lra|]. cbn [eadd]. pose proof (pos_INR (S m)).
    assert (0 <= u * (V * INR (S m) + eadd u eta V m))%R; [|lra].
    apply Rmult_le_pos; [exact Hu|]. apply Rplus_le_le_0_compat; [|apply P]. now apply Rmult_le_pos. }
  exists b. split; [exact E1|]. split; [congruence|]. split.
  - intros q p Hq Hp. pose proof (Hin q p Hq Hp) as Hqp.
    destruct (HR (pos q p)) as (H0 & H1 & _); [now rewrite Se|].
    replace (gtotal 0%R Rplus j v1 v2 v3 v4 q p) with (get e (pos q p)) by (rewrite Ge, Hz by exact Hqp; ring).
    eapply Rle_trans; [exact H1|]. apply Emono. rewrite Gc. cbn [get zeros]. unfold gtotal, gsel, one.
    repeat match goal with |- context [if ?b then _ else _] => destruct b end; cbn; lia.
  - intros ix Hix Hno. destruct (HR ix) as (H0 & H1 & _); [now rewrite Se|].
    rewrite (Nc ix Hno) in H1. cbn [get zeros Z.to_nat eadd] in H1. rewrite (Ne ix Hno), Hz in H1 by exact Hix.
    rewrite Rminus_0_r in H1. pose proof (Rabs_pos (get b ix)). assert (Rabs (get b ix) = 0)%R by lra.
    destruct (Req_dec (get b ix) 0) as [Z0|N0]; [exact Z0|]. now apply Rabs_no_R0 in N0.
Qed.

(** ** One term of a half-step *)
Open Scope R_scope.

Lemma Rabs_bnd x y e : Rabs (x - y) <= e -> Rabs x <= Rabs y + e.
Proof. intros H. replace x with (y + (x - y)) by ring. eapply Rle_trans; [apply Rabs_triang|]. lra. Qed.

Lemma mul_err x x' y y' dx dy X Y : Rabs (x' - x) <= dx -> Rabs (y' - y) <= dy -> Rabs x <= X -> Rabs y <= Y ->
  Rabs (x' * y' - x * y) <= dx * Y + X * dy + dx * dy.
Proof.
  intros Hx Hy HX HY. replace (x' * y' - x * y) with ((x' - x) * y + x * (y' - y) + (x' - x) * (y' - y)) by ring.
  eapply Rle_trans; [apply Rabs_triang|]. eapply Rle_trans; [apply Rplus_le_compat_r, Rabs_triang|]. rewrite !Rabs_mult.
  repeat apply Rplus_le_compat; apply Rmult_le_compat; auto using Rabs_pos.
Qed.

Section Term.
  Variables (A : arith) (u eta : R).
  Hypothesis HA : rounded A u eta.
  Hypothesis Hu : u <= / 1000.
  Let u0 : 0 <= u := rd_u _ _ _ HA.
  Let e0 : 0 <= eta := rd_eta _ _ _ HA.

  Lemma sqrt_err k : (1 <= k)%Z -> eta <= u -> Rabs (fsqrt A (IZR k) - rsqrt k) <= 2 * u * rsqrt k /\ 1 <= rsqrt k.
  Proof using HA.
    intros Hk He. assert (1 <= IZR k) by (apply IZR_le; lia).
    assert (1 <= rsqrt k) by (unfold rsqrt; rewrite <- sqrt_1; now apply sqrt_le_1_alt).
    split; [|assumption]. eapply Rle_trans; [apply (rd_sqrt _ _ _ HA); lra|]. fold (rsqrt k). clear - H0 He u0. nra.
  Qed.

  Lemma sqrt2_err a b : (1 <= a)%Z -> (1 <= b)%Z -> eta <= u ->
    Rabs (fmul A (fsqrt A (IZR a)) (fsqrt A (IZR b)) - rsqrt a * rsqrt b) <= 7 * u * (rsqrt a * rsqrt b).
  Proof using HA Hu.
    intros Ha Hb He. destruct (sqrt_err a Ha He) as [Ea Pa]. destruct (sqrt_err b Hb He) as [Eb Pb].
    set (x := rsqrt a) in *. set (y := rsqrt b) in *. set (x' := fsqrt A (IZR a)) in *. set (y' := fsqrt A (IZR b)) in *.
    assert (E : Rabs (x' * y' - x * y) <= (4 * u + 4 * u * u) * (x * y)).
    { eapply Rle_trans; [apply (mul_err x x' y y' _ _ x y Ea Eb); rewrite Rabs_pos_eq by lra; lra|]. right. ring. }
    pose proof (rd_mul _ _ _ HA x' y') as M. pose proof (Rabs_bnd _ _ _ E) as B.
    rewrite (Rabs_pos_eq (x * y)) in B by nra.
    assert (P : 1 <= x * y) by nra. set (q := x * y) in *.
    replace (fmul A x' y' - q) with ((fmul A x' y' - x' * y') + (x' * y' - q)) by ring.
    eapply Rle_trans; [apply Rabs_triang|].
    assert (u * Rabs (x' * y') <= u * (q + (4 * u + 4 * u * u) * q)) by (now apply Rmult_le_compat_l).
    assert (eta <= u * q) by nra. assert (u * u <= u * / 1000) by (apply Rmult_le_compat_l; lra).
    assert (u * u * u <= u * / 1000) by nra.
    assert (u * (q + (4 * u + 4 * u * u) * q) + u * q + (4 * u + 4 * u * u) * q = (6 * u + 8 * (u * u) + 4 * (u * u * u)) * q) by ring.
    assert ((6 * u + 8 * (u * u) + 4 * (u * u * u)) * q <= 7 * u * q) by (apply Rmult_le_compat_r; lra).
    lra.
  Qed.

  (** a product of square roots over j *)
  Lemma sqrt_le_j j a b : (1 <= a <= j)%Z -> (1 <= b <= j)%Z -> 1 <= rsqrt a * rsqrt b <= IZR j.
  Proof using.
    intros Ha Hb. rewrite rsqrt_mult by lia. split.
    - rewrite <- sqrt_1. apply sqrt_le_1_alt. apply IZR_le. nia.
    - rewrite <- (sqrt_square (IZR j)) by (apply IZR_le; lia). rewrite <- mult_IZR. apply sqrt_le_1_alt, IZR_le. nia.
  Qed.

  Lemma term_err j a b x t t' : (1 <= a <= j)%Z -> (1 <= b <= j)%Z -> IZR j * eta <= u -> Rabs x <= 2 ->
    Rabs t <= 1 -> Rabs (t' - t) <= 8 * u ->
    Rabs (rf_term A a b (fdiv A x (IZR j)) t' - rsqrt a * rsqrt b * (x / IZR j) * t) <= 42 * u
    /\ Rabs (rsqrt a * rsqrt b * (x / IZR j) * t) <= 2.
  Proof using HA Hu.
    intros Ha Hb Hje Hx Ht Hd. assert (J1 : 1 <= IZR j) by (apply IZR_le; lia).
    assert (He : eta <= u) by (clear - J1 Hje e0; nra).
    pose proof (sqrt_le_j j a b Ha Hb) as [Q1 Q2]. pose proof (sqrt2_err a b ltac:(lia) ltac:(lia) He) as EP.
    unfold rf_term. set (q := rsqrt a * rsqrt b) in *. set (P := fmul A (fsqrt A (IZR a)) (fsqrt A (IZR b))) in *.
    pose proof (rd_div _ _ _ HA x (IZR j) ltac:(lra)) as ED. set (d := fdiv A x (IZR j)) in *.
    assert (QX : Rabs (q * (x / IZR j)) <= 2).
    { rewrite Rabs_mult, (Rabs_pos_eq q) by lra. unfold Rdiv. rewrite Rabs_mult, (Rabs_pos_eq (/ IZR j)).
      2:{ left. apply Rinv_0_lt_compat. lra. }
      apply Rle_trans with (IZR j * (2 * / IZR j)).
      - apply Rmult_le_compat; [lra| |exact Q2|].
        + apply Rmult_le_pos; [apply Rabs_pos|]. left. apply Rinv_0_lt_compat. lra.
        + apply Rmult_le_compat_r; [|exact Hx]. left. apply Rinv_0_lt_compat. lra.
      - right. field. lra. }
    set (y := q * (x / IZR j)) in *.
    assert (Hqe : q * eta <= u) by (eapply Rle_trans; [apply Rmult_le_compat_r; [exact e0|exact Q2]|exact Hje]).
    assert (ABSXJ : q * Rabs (x / IZR j) <= 2) by (rewrite <- (Rabs_pos_eq q) by lra; rewrite <- Rabs_mult; exact QX).
    assert (U2 : u * u <= u * / 1000) by (apply Rmult_le_compat_l; lra).
    (* P * d *)
    assert (E1 : Rabs (P * d - y) <= 18 * u).
    { replace (P * d - y) with ((P - q) * d + q * (d - x / IZR j)) by (unfold y; ring).
      eapply Rle_trans; [apply Rabs_triang|]. rewrite !Rabs_mult, (Rabs_pos_eq q) by lra.
      pose proof (Rabs_bnd _ _ _ ED) as BD.
      assert (K1 : Rabs (P - q) * Rabs d <= 7 * u * q * (Rabs (x / IZR j) + (u * Rabs (x / IZR j) + eta)))
        by (apply Rmult_le_compat; auto using Rabs_pos).
      assert (K2 : q * Rabs (d - x / IZR j) <= q * (u * Rabs (x / IZR j) + eta)) by (apply Rmult_le_compat_l; lra).
      set (w := Rabs (x / IZR j)) in *. set (z := q * w) in *. set (g := q * eta) in *.
      replace (7 * u * q * (w + (u * w + eta))) with (7 * u * (z + u * z + g)) in K1 by (unfold z, g; ring).
      replace (q * (u * w + eta)) with (u * z + g) in K2 by (unfold z, g; ring).
      assert (0 <= z) by (apply Rmult_le_pos; [lra|apply Rabs_pos]).
      assert (u * z <= u * 2) by (apply Rmult_le_compat_l; lra).
      assert (u * (u * z + g) <= u * (3 * / 1000)) by (apply Rmult_le_compat_l; lra). lra. }
    pose proof (rd_mul _ _ _ HA P d) as M1. set (s := fmul A P d) in *.
    assert (E2 : Rabs (s - y) <= 22 * u).
    { replace (s - y) with ((s - P * d) + (P * d - y)) by ring. eapply Rle_trans; [apply Rabs_triang|].
      pose proof (Rabs_bnd _ _ _ E1) as B1. assert (u * Rabs (P * d) <= u * (2 + 18 * u)) by (apply Rmult_le_compat_l; lra). lra. }
    assert (E3 : Rabs (s * t' - y * t) <= 22 * u * 1 + 2 * (8 * u) + 22 * u * (8 * u)) by (now apply mul_err).
    assert (QT : Rabs (y * t) <= 2).
    { rewrite Rabs_mult. pose proof (Rabs_pos y). pose proof (Rabs_pos t). nra. }
    split; [|exact QT].
    pose proof (rd_mul _ _ _ HA s t') as M2. pose proof (Rabs_bnd _ _ _ E3) as B3.
    replace (fmul A s t' - y * t) with ((fmul A s t' - s * t') + (s * t' - y * t)) by ring.
    eapply Rle_trans; [apply Rabs_triang|].
    assert (u * Rabs (s * t') <= u * (2 + 39 * u)) by (apply Rmult_le_compat_l; lra). lra.
  Qed.

  (** cosine and sine of the half angle *)
  Lemma half_angle beta : Rabs beta <= 5 -> eta <= u ->
    Rabs (fcos A (fdiv A beta 2) - cos (beta / 2)) <= 8 * u /\ Rabs (fsin A (fdiv A beta 2) - sin (beta / 2)) <= 8 * u.
  Proof using HA Hu.
    intros Hb He. pose proof (rd_div _ _ _ HA beta 2 ltac:(lra)) as HD.
    assert (D : Rabs (fdiv A beta 2 - beta / 2) <= 4 * u).
    { eapply Rle_trans; [exact HD|]. assert (Rabs (beta / 2) <= 5 / 2) by (unfold Rdiv; rewrite Rabs_mult, (Rabs_right (/ 2)) by lra; lra).
      assert (u * Rabs (beta / 2) <= u * (5 / 2)) by (apply Rmult_le_compat_l; [apply (rd_u _ _ _ HA)|assumption]). lra. }
    set (h := fdiv A beta 2) in *.
    assert (LC : forall x y, Rabs (cos x - cos y) <= Rabs (x - y)).
    { intros x y. destruct (MVT_abs cos (fun z => - sin z) x y) as (c & E & _).
      - intros c _. apply derivable_pt_lim_cos.
      - rewrite <- (Rabs_Ropp (cos x - cos y)), <- (Rabs_Ropp (x - y)), !Ropp_minus_distr. rewrite E, Rabs_Ropp.
        rewrite <- (Rmult_1_l (Rabs (y - x))) at 2. apply Rmult_le_compat_r; [apply Rabs_pos|]. apply Rabs_le. apply SIN_bound. }
    assert (LS : forall x y, Rabs (sin x - sin y) <= Rabs (x - y)).
    { intros x y. destruct (MVT_abs sin cos x y) as (c & E & _).
      - intros c _. apply derivable_pt_lim_sin.
      - rewrite <- (Rabs_Ropp (sin x - sin y)), <- (Rabs_Ropp (x - y)), !Ropp_minus_distr. rewrite E.
        rewrite <- (Rmult_1_l (Rabs (y - x))) at 2. apply Rmult_le_compat_r; [apply Rabs_pos|]. apply Rabs_le. apply COS_bound. }
    split.
    - replace (fcos A h - cos (beta / 2)) with ((fcos A h - cos h) + (cos h - cos (beta / 2))) by ring.
      eapply Rle_trans; [apply Rabs_triang|]. pose proof (rd_cos _ _ _ HA h). pose proof (LC h (beta / 2)). lra.
    - replace (fsin A h - sin (beta / 2)) with ((fsin A h - sin h) + (sin h - sin (beta / 2))) by ring.
      eapply Rle_trans; [apply Rabs_triang|]. pose proof (rd_sin _ _ _ HA h). pose proof (LS h (beta / 2)). lra.
  Qed.
End Term.
