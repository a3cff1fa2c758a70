(** The JAX variant of the Risbo recursion in rounded arithmetic. *)
From Coq Require Import Reals Lra Lia.
From Verif Require Import Lib.Py Lib.PyFacts Lib.Sums Lib.Cplx Lib.Vec Lib.VecFacts Lib.Arr Lib.ArrFacts.
From Verif Require Import Model.Risbo Model.RisboFloat Spec.WignerSpec Spec.RoundingSpec.
From Verif Require Import Proofs.WignerDh Proofs.WignerCalc Proofs.RisboProofs Proofs.SpectralBound Proofs.RisboRound Proofs.RisboFloatProofs.
Open Scope R_scope.

Lemma slice2_add_get (add : R -> R -> R) (a b : ndarray R) n k r0 c0 : shape a = [n; n] -> shape b = [k; k] ->
  (0 <= r0)%Z -> (r0 + k <= n)%Z -> (0 <= c0)%Z -> (c0 + k <= n)%Z -> (0 <= k)%Z ->
  exists a', slice2_add add a r0 (r0 + k) c0 (c0 + k) b = Ok a' /\ shape a' = [n; n]
    /\ forall r c, get a' [r; c] =
         if ((0 <=? r - r0) && (r - r0 <? k) && (0 <=? c - c0) && (c - c0 <? k))%Z
         then add (get a [r; c]) (get b [r - r0; c - c0]%Z) else get a [r; c].
Proof.
  intros Ha Hb H1 H2 H3 H4 H5. destruct (shape_dims a n Ha) as [A0 A1]. destruct (shape_dims b k Hb) as [B0 B1].
  unfold slice2_add. rewrite A0, A1, B0, B1.
  destruct (slice_in n r0 (r0 + k)) as [R1 R2]; [lia..|]. destruct (slice_in n c0 (c0 + k)) as [C1 C2]; [lia..|].
  rewrite R2, C2. replace (r0 + k - r0)%Z with k by lia. replace (c0 + k - c0)%Z with k by lia.
  rewrite Z.eqb_refl. cbn [andb negb]. eexists; split; [reflexivity|]. split; [reflexivity|].
  intros r c. unfold mat, in_slice2, at2. cbn [get nth]. rewrite A0, A1, R1, C1, R2, C2.
  replace (r0 + (r0 + k - r0))%Z with (r0 + k)%Z by lia. replace (c0 + (c0 + k - c0))%Z with (c0 + k)%Z by lia.
  replace ((r0 <=? r) && (r <? r0 + k) && (c0 <=? c) && (c <? c0 + k))%Z
    with ((0 <=? r - r0) && (r - r0 <? k) && (0 <=? c - c0) && (c - c0 <? k))%Z by lia.
  reflexivity.
Qed.

Lemma rf_mmul_outer A j f g src : shape src = [j; j] ->
  mmul (fmul A) (rf_outer A j f g) src = Ok (mat j j (fun r c => fmul A (fmul A (f c) (g r)) (get src [r; c]))).
Proof.
  intros Hs. destruct (shape_dims _ _ Hs) as [D0 D1]. unfold mmul, rf_outer, mat, at2, dim0, dim1 in *.
  cbn [shape nth get] in *. rewrite D0, D1, Z.eqb_refl. cbn. reflexivity.
Qed.

Lemma half_total_scal t f j C0 S0 q p : half_total (fun k i => t * f k i) j C0 S0 q p = t * half_total f j C0 S0 q p.
Proof.
  unfold half_total, sel, hv1, hv2, hv3, hv4, Rdiv.
  repeat match goal with |- context [if ?b then _ else _] => destruct b end; ring.
Qed.

Section Float.
  Variables (A : arith) (u eta : R).
  Hypothesis HA : rounded A u eta.
  Let u0 : 0 <= u := rd_u _ _ _ HA.
  Let e0 : 0 <= eta := rd_eta _ _ _ HA.
  Hypothesis Hu : u <= / 1000.
  Hypothesis He : eta <= u.

  Lemma neg_sqrt2_err a b : (1 <= a)%Z -> (1 <= b)%Z ->
    Rabs (fmul A (- fsqrt A (IZR a)) (fsqrt A (IZR b)) - - (rsqrt a * rsqrt b)) <= 7 * u * (rsqrt a * rsqrt b).
  Proof using HA Hu He.
    intros Ha Hb. destruct (sqrt_err A u eta HA a Ha He) as [Ea Pa]. destruct (sqrt_err A u eta HA b Hb He) as [Eb Pb].
    set (x := rsqrt a) in *. set (y := rsqrt b) in *. set (x' := fsqrt A (IZR a)) in *. set (y' := fsqrt A (IZR b)) in *.
    assert (E : Rabs (- x' * y' - - (x * y)) <= (4 * u + 4 * u * u) * (x * y)).
    { replace (- x' * y' - - (x * y)) with (- (x' * y' - x * y)) by ring. rewrite Rabs_Ropp.
      eapply Rle_trans; [apply (mul_err x x' y y' _ _ x y Ea Eb); rewrite Rabs_pos_eq by lra; lra|]. right. ring. }
    pose proof (rd_mul _ _ _ HA (- x') y') as M. pose proof (Rabs_bnd _ _ _ E) as B.
    rewrite Rabs_Ropp, (Rabs_pos_eq (x * y)) in B by nra.
    assert (P : 1 <= x * y) by nra. set (q := x * y) in *.
    replace (fmul A (- x') y' - - q) with ((fmul A (- x') y' - - x' * y') + (- x' * y' - - q)) by ring.
    eapply Rle_trans; [apply Rabs_triang|].
    assert (u * Rabs (- x' * y') <= u * (q + (4 * u + 4 * u * u) * q)) by (now apply Rmult_le_compat_l).
    assert (eta <= u * q) by nra. assert (u * u <= u * / 1000) by (apply Rmult_le_compat_l; lra).
    assert (u * u * u <= u * / 1000) by nra.
    assert (u * (q + (4 * u + 4 * u * u) * q) + u * q + (4 * u + 4 * u * u) * q = (6 * u + 8 * (u * u) + 4 * (u * u * u)) * q) by ring.
    assert ((6 * u + 8 * (u * u) + 4 * (u * u * u)) * q <= 7 * u * q) by (apply Rmult_le_compat_r; lra).
    lra.
  Qed.

  (** a term without division: size at most J S *)
  Lemma jterm_err J S P q x t t' : 1 <= J -> 1 <= S -> Rabs (P - q) <= 7 * u * J -> Rabs q <= J -> Rabs x <= S ->
    Rabs t <= 1 -> Rabs (t' - t) <= 8 * u ->
    Rabs (fmul A (fmul A P x) t' - q * x * t) <= 20 * u * (J * S) /\ Rabs (q * x * t) <= J * S.
  Proof using HA Hu He.
    intros HJ HS HP Hq Hx Ht Hd. assert (JS : 1 <= J * S) by nra. set (w := J * S) in *.
    assert (U2 : u * u <= u * / 1000) by (apply Rmult_le_compat_l; lra).
    assert (QX : Rabs (q * x) <= w) by (rewrite Rabs_mult; apply Rmult_le_compat; auto using Rabs_pos).
    assert (E1 : Rabs (P * x - q * x) <= 7 * u * w).
    { replace (P * x - q * x) with ((P - q) * x) by ring. rewrite Rabs_mult.
      replace (7 * u * w) with (7 * u * J * S) by (unfold w; ring). apply Rmult_le_compat; auto using Rabs_pos. }
    pose proof (Rabs_bnd _ _ _ E1) as B1. pose proof (rd_mul _ _ _ HA P x) as M1. set (s := fmul A P x) in *.
    assert (UW : 0 <= u * w) by (apply Rmult_le_pos; lra).
    assert (EW : eta <= u * w) by nra.
    assert (UUW : u * u * w <= u * w * / 1000) by nra.
    assert (E2 : Rabs (s - q * x) <= (91 / 10) * u * w).
    { replace (s - q * x) with ((s - P * x) + (P * x - q * x)) by ring. eapply Rle_trans; [apply Rabs_triang|].
      assert (u * Rabs (P * x) <= u * (w + 7 * u * w)) by (now apply Rmult_le_compat_l; lra). lra. }
    assert (E3 : Rabs (s * t' - q * x * t) <= (91 / 10) * u * w * 1 + w * (8 * u) + (91 / 10) * u * w * (8 * u)) by (now apply mul_err).
    assert (QT : Rabs (q * x * t) <= w).
    { rewrite Rabs_mult. pose proof (Rabs_pos (q * x)). pose proof (Rabs_pos t). nra. }
    split; [|exact QT].
    pose proof (rd_mul _ _ _ HA s t') as M2. pose proof (Rabs_bnd _ _ _ E3) as B3.
    replace (fmul A s t' - q * x * t) with ((fmul A s t' - s * t') + (s * t' - q * x * t)) by ring.
    eapply Rle_trans; [apply Rabs_triang|].
    assert (u * Rabs (s * t') <= u * (w + 18 * u * w)) by (apply Rmult_le_compat_l; lra). lra.
  Qed.

  (** one conditional rounded addition *)
  Lemma addif_err (b : bool) x y v v' e B d V : Rabs (x - y) <= e -> Rabs y <= B -> 0 <= d -> 0 <= V ->
    (b = true -> Rabs (v' - v) <= d /\ Rabs v <= V) ->
    Rabs ((if b then fadd A x v' else x) - (y + (if b then v else 0))) <= e + d + (u * (B + V + e + d) + eta)
    /\ Rabs (y + (if b then v else 0)) <= B + V.
  Proof using HA.
    intros Hx Hy Hd HV Hv. pose proof (Rabs_pos (x - y)) as Pe. pose proof (Rabs_pos y) as Py. destruct b.
    - destruct (Hv eq_refl) as [E1 E2].
      assert (Y : Rabs (y + v) <= B + V) by (eapply Rle_trans; [apply Rabs_triang|lra]). split; [|exact Y].
      assert (D : Rabs ((x + v') - (y + v)) <= e + d).
      { replace ((x + v') - (y + v)) with ((x - y) + (v' - v)) by ring. eapply Rle_trans; [apply Rabs_triang|lra]. }
      pose proof (Rabs_bnd _ _ _ D) as DB. pose proof (rd_add _ _ _ HA x v') as M.
      replace (fadd A x v' - (y + v)) with ((fadd A x v' - (x + v')) + ((x + v') - (y + v))) by ring.
      eapply Rle_trans; [apply Rabs_triang|].
      assert (u * Rabs (x + v') <= u * (B + V + e + d)) by (apply Rmult_le_compat_l; lra). lra.
    - rewrite Rplus_0_r. assert (0 <= u * (B + V + e + d)) by (apply Rmult_le_pos; lra). lra.
  Qed.

  (** the unscaled half-step into zeros *)
  Lemma jax_half_float tgt src n j r0 c0 C0 S0 c' s' S : shape tgt = [n; n] -> shape src = [j; j] -> (0 < j)%Z ->
    (0 <= r0)%Z -> (r0 + j + 1 <= n)%Z -> (0 <= c0)%Z -> (c0 + j + 1 <= n)%Z ->
    C0 * C0 + S0 * S0 = 1 -> Rabs (c' - C0) <= 8 * u -> Rabs (s' - S0) <= 8 * u -> 1 <= S ->
    (forall k i, (0 <= k < j)%Z -> (0 <= i < j)%Z -> Rabs (get src [k; i]) <= S) ->
    exists a, rf_jax_half A tgt src j r0 c0 c' s' = Ok a /\ shape a = [n; n]
      /\ forall r c, (get tgt [r; c] = 0 ->
             Rabs (get a [r; c] - IZR j * half_total (fun k i => get src [k; i]) j C0 S0 (r - r0)%Z (c - c0)%Z) <= 95 * u * (IZR j * S))
         /\ (~ ((0 <= r - r0 <= j)%Z /\ (0 <= c - c0 <= j)%Z) -> get a [r; c] = get tgt [r; c]).
  Proof using HA Hu He.
    intros Ht Hs Hj H1 H2 H3 H4 HCS Hc Hsn HS Hx. unfold rf_jax_half. cbv zeta.
    rewrite !rf_mmul_outer by exact Hs. cbn [bind].
    set (b1 := mscal _ _).
    destruct (slice2_add_get (fadd A) tgt b1 n j r0 c0) as (a1 & -> & Hs1 & G1); [auto|reflexivity|lia..|]. cbn [bind].
    set (b2 := mscal _ _).
    destruct (slice2_add_get (fadd A) a1 b2 n j r0 (c0 + 1)) as (a2 & -> & Hs2 & G2); [auto|reflexivity|lia..|]. cbn [bind].
    set (b3 := mscal _ _).
    destruct (slice2_add_get (fadd A) a2 b3 n j (r0 + 1) c0) as (a3 & -> & Hs3 & G3); [auto|reflexivity|lia..|]. cbn [bind].
    set (b4 := mscal _ _).
    destruct (slice2_add_get (fadd A) a3 b4 n j (r0 + 1) (c0 + 1)) as (a4 & -> & Hs4 & G4); [auto|reflexivity|lia..|].
    exists a4. split; [reflexivity|]. split; [exact Hs4|]. intros r c. rewrite G4, G3, G2, G1. clear G1 G2 G3 G4.
    replace (c - (c0 + 1))%Z with (c - c0 - 1)%Z by lia. replace (r - (r0 + 1))%Z with (r - r0 - 1)%Z by lia.
    set (q := (r - r0)%Z). set (p := (c - c0)%Z).
    split.
    2:{ intros O.
        replace ((0 <=? q - 1) && (q - 1 <? j) && (0 <=? p - 1) && (p - 1 <? j))%Z with false by lia.
        replace ((0 <=? q - 1) && (q - 1 <? j) && (0 <=? p) && (p <? j))%Z with false by lia.
        replace ((0 <=? q) && (q <? j) && (0 <=? p - 1) && (p - 1 <? j))%Z with false by lia.
        now replace ((0 <=? q) && (q <? j) && (0 <=? p) && (p <? j))%Z with false by lia. }
    intros Z0. rewrite Z0.
    assert (Hj0 : IZR j <> 0) by (apply not_0_IZR; lia). assert (J1 : 1 <= IZR j) by (apply IZR_le; lia).
    destruct (trig1 C0 S0 HCS) as [TC TS]. set (w := IZR j * S).
    assert (W1 : 1 <= w) by (unfold w; nra).
    set (x := fun k i => get src [k; i]) in *.
    assert (T1 : forall k i, (0 <= k < j)%Z -> (0 <= i < j)%Z ->
      Rabs (get b1 [k; i] - IZR j * hv1 x j C0 k i) <= 20 * u * w /\ Rabs (IZR j * hv1 x j C0 k i) <= w).
    { intros k i Hk Hi. pose proof (sqrt_le_j j (j - i) (j - k) ltac:(lia) ltac:(lia)) as [Q1 Q2].
      pose proof (sqrt2_err A u eta HA Hu (j - i) (j - k) ltac:(lia) ltac:(lia) He) as EP.
      replace (IZR j * hv1 x j C0 k i) with ((rsqrt (j - i) * rsqrt (j - k)) * x k i * C0) by (unfold hv1; field; exact Hj0).
      unfold b1, mscal, mat, at2. cbn [get nth shape dim0 dim1]. fold (x k i).
      apply jterm_err; auto; [eapply Rle_trans; [exact EP|apply Rmult_le_compat_l; lra]|rewrite Rabs_pos_eq; lra|now apply Hx]. }
    assert (T2 : forall k i, (0 <= k < j)%Z -> (0 <= i < j)%Z ->
      Rabs (get b2 [k; i] - IZR j * hv2 x j S0 k i) <= 20 * u * w /\ Rabs (IZR j * hv2 x j S0 k i) <= w).
    { intros k i Hk Hi. pose proof (sqrt_le_j j (i + 1) (j - k) ltac:(lia) ltac:(lia)) as [Q1 Q2].
      pose proof (neg_sqrt2_err (i + 1) (j - k) ltac:(lia) ltac:(lia)) as EP.
      replace (IZR j * hv2 x j S0 k i) with (- (rsqrt (i + 1) * rsqrt (j - k)) * x k i * S0) by (unfold hv2; field; exact Hj0).
      unfold b2, mscal, mat, at2. cbn [get nth shape dim0 dim1]. fold (x k i).
      apply jterm_err; auto; [eapply Rle_trans; [exact EP|apply Rmult_le_compat_l; lra]|rewrite Rabs_Ropp, Rabs_pos_eq; lra|now apply Hx]. }
    assert (T3 : forall k i, (0 <= k < j)%Z -> (0 <= i < j)%Z ->
      Rabs (get b3 [k; i] - IZR j * hv3 x j S0 k i) <= 20 * u * w /\ Rabs (IZR j * hv3 x j S0 k i) <= w).
    { intros k i Hk Hi. pose proof (sqrt_le_j j (j - i) (k + 1) ltac:(lia) ltac:(lia)) as [Q1 Q2].
      pose proof (sqrt2_err A u eta HA Hu (j - i) (k + 1) ltac:(lia) ltac:(lia) He) as EP.
      replace (IZR j * hv3 x j S0 k i) with ((rsqrt (j - i) * rsqrt (k + 1)) * x k i * S0) by (unfold hv3; field; exact Hj0).
      unfold b3, mscal, mat, at2. cbn [get nth shape dim0 dim1]. fold (x k i).
      apply jterm_err; auto; [eapply Rle_trans; [exact EP|apply Rmult_le_compat_l; lra]|rewrite Rabs_pos_eq; lra|now apply Hx]. }
    assert (T4 : forall k i, (0 <= k < j)%Z -> (0 <= i < j)%Z ->
      Rabs (get b4 [k; i] - IZR j * hv4 x j C0 k i) <= 20 * u * w /\ Rabs (IZR j * hv4 x j C0 k i) <= w).
    { intros k i Hk Hi. pose proof (sqrt_le_j j (i + 1) (k + 1) ltac:(lia) ltac:(lia)) as [Q1 Q2].
      pose proof (sqrt2_err A u eta HA Hu (i + 1) (k + 1) ltac:(lia) ltac:(lia) He) as EP.
      replace (IZR j * hv4 x j C0 k i) with ((rsqrt (i + 1) * rsqrt (k + 1)) * x k i * C0) by (unfold hv4; field; exact Hj0).
      unfold b4, mscal, mat, at2. cbn [get nth shape dim0 dim1]. fold (x k i).
      apply jterm_err; auto; [eapply Rle_trans; [exact EP|apply Rmult_le_compat_l; lra]|rewrite Rabs_pos_eq; lra|now apply Hx]. }
    assert (UW : 0 <= u * w) by (apply Rmult_le_pos; lra). assert (EW : eta <= u * w) by (clear - He W1 u0; nra).
    assert (UUW : u * (u * w) <= u * w * / 1000) by (clear - UW Hu; nra).
    set (d := 20 * u * w) in *. assert (Hd : 0 <= d) by (unfold d; lra).
    set (i1 := ((0 <=? q) && (q <? j) && (0 <=? p) && (p <? j))%Z) in *.
    set (i2 := ((0 <=? q) && (q <? j) && (0 <=? p - 1) && (p - 1 <? j))%Z) in *.
    set (i3 := ((0 <=? q - 1) && (q - 1 <? j) && (0 <=? p) && (p <? j))%Z) in *.
    set (i4 := ((0 <=? q - 1) && (q - 1 <? j) && (0 <=? p - 1) && (p - 1 <? j))%Z) in *.
    destruct (addif_err i1 0 0 (IZR j * hv1 x j C0 q p) (get b1 [q; p]) 0 0 d w) as [A1 V1];
      [rewrite Rminus_0_r, Rabs_R0; lra|rewrite Rabs_R0; lra|exact Hd|lra|intros I; apply T1; unfold i1 in I; lia|].
    destruct (addif_err i2 _ _ (IZR j * hv2 x j S0 q (p - 1)) (get b2 [q; p - 1]%Z) _ _ d w A1 V1) as [A2 V2];
      [exact Hd|lra|intros I; apply T2; unfold i2 in I; lia|].
    destruct (addif_err i3 _ _ (IZR j * hv3 x j S0 (q - 1) p) (get b3 [q - 1; p]%Z) _ _ d w A2 V2) as [A3 V3];
      [exact Hd|lra|intros I; apply T3; unfold i3 in I; lia|].
    destruct (addif_err i4 _ _ (IZR j * hv4 x j C0 (q - 1) (p - 1)) (get b4 [q - 1; p - 1]%Z) _ _ d w A3 V3) as [A4 _];
      [exact Hd|lra|intros I; apply T4; unfold i4 in I; lia|].
    match type of A4 with Rabs (_ - ?y) <= _ => replace (IZR j * half_total x j C0 S0 q p) with y end.
    2:{ unfold half_total, sel. fold i1 i2 i3 i4. destruct i1, i2, i3, i4; ring. }
    eapply Rle_trans; [exact A4|]. clear - UW EW UUW u0 e0 Hu He W1. unfold d. set (z := u * w) in *.
    replace (20 * u * w) with (20 * z) by (unfold z; ring).
    assert (K : forall e B, e <= 95 * z -> u * (B + w + e + 20 * z) <= u * B + z + (115 / 1000) * z).
    { intros e B L. replace (u * (B + w + e + 20 * z)) with (u * B + z + u * (e + 20 * z)) by (unfold z; ring).
      assert (u * (e + 20 * z) <= u * (115 * z)) by (apply Rmult_le_compat_l; lra). nra. }
    set (e1 := 0 + 20 * z + (u * (0 + w + 0 + 20 * z) + eta)). set (e2 := e1 + 20 * z + (u * (0 + w + w + e1 + 20 * z) + eta)).
    set (e3 := e2 + 20 * z + (u * (0 + w + w + w + e2 + 20 * z) + eta)).
    assert (W : u * w = z) by reflexivity.
    assert (E1 : e1 <= (2212 / 100) * z) by (unfold e1; pose proof (K 0 0); lra).
    assert (E2 : e2 <= (453 / 10) * z) by (unfold e2; pose proof (K e1 (0 + w)); lra).
    assert (E3 : e3 <= (695 / 10) * z) by (unfold e3; pose proof (K e2 (0 + w + w)); lra).
    pose proof (K e3 (0 + w + w + w)). replace (95 * u * w) with (95 * z) by (unfold z; ring). fold e1 e2 e3. lra.
  Qed.

  Lemma half_total_size x j C0 S0 B q p : (0 < j)%Z -> C0 * C0 + S0 * S0 = 1 -> 0 <= B ->
    (forall k i, (0 <= k < j)%Z -> (0 <= i < j)%Z -> Rabs (x k i) <= B) -> Rabs (half_total x j C0 S0 q p) <= 4 * B.
  Proof using.
    intros Hj HCS HB Hx. destruct (trig1 C0 S0 HCS) as [TC TS]. assert (J1 : 1 <= IZR j) by (apply IZR_le; lia).
    assert (W : forall a b t k i, (1 <= a <= j)%Z -> (1 <= b <= j)%Z -> Rabs t <= 1 -> (0 <= k < j)%Z -> (0 <= i < j)%Z ->
       Rabs (rsqrt a * rsqrt b * (x k i / IZR j) * t) <= B).
    { intros a b t k i Ha Hb Ht Hk Hi. destruct (sqrt_le_j j a b Ha Hb) as [Q1 Q2]. specialize (Hx k i Hk Hi).
      replace (rsqrt a * rsqrt b * (x k i / IZR j) * t) with (rsqrt a * rsqrt b / IZR j * (x k i * t)) by (field; lra).
      rewrite Rabs_mult, (Rabs_mult (x k i)).
      assert (0 <= rsqrt a * rsqrt b / IZR j <= 1).
      { split; [apply Rmult_le_pos; [lra|]; left; apply Rinv_0_lt_compat; lra|].
        apply Rmult_le_reg_r with (IZR j); [lra|]. unfold Rdiv. rewrite Rmult_assoc, Rinv_l; lra. }
      rewrite (Rabs_pos_eq (_ / _)) by lra.
      assert (Rabs (x k i) * Rabs t <= B) by (pose proof (Rabs_pos (x k i)); pose proof (Rabs_pos t); nra).
      assert (0 <= Rabs (x k i) * Rabs t) by (apply Rmult_le_pos; apply Rabs_pos). nra. }
    assert (Sl : forall h k i, ((0 <= k < j)%Z -> (0 <= i < j)%Z -> Rabs (h k i) <= B) -> Rabs (sel j h k i) <= B).
    { intros h k i Hh. unfold sel. destruct ((0 <=? k) && (k <? j) && (0 <=? i) && (i <? j))%Z eqn:E; [apply Hh; lia|rewrite Rabs_R0; lra]. }
    unfold half_total.
    assert (B1 : Rabs (sel j (hv1 x j C0) q p) <= B) by (apply Sl; intros; unfold hv1; apply W; auto; lia).
    assert (B2 : Rabs (sel j (hv2 x j S0) q (p - 1)) <= B).
    { apply Sl; intros; unfold hv2. rewrite Rabs_Ropp. apply W; auto; lia. }
    assert (B3 : Rabs (sel j (hv3 x j S0) (q - 1) p) <= B) by (apply Sl; intros; unfold hv3; apply W; auto; lia).
    assert (B4 : Rabs (sel j (hv4 x j C0) (q - 1) (p - 1)) <= B) by (apply Sl; intros; unfold hv4; apply W; auto; lia).
    repeat match goal with |- Rabs (?a + ?b) <= _ => eapply Rle_trans; [apply Rabs_triang|] end.
    pose proof (Rabs_triang (sel j (hv1 x j C0) q p) (sel j (hv2 x j S0) q (p - 1))).
    pose proof (Rabs_triang (sel j (hv1 x j C0) q p + sel j (hv2 x j S0) q (p - 1)) (sel j (hv3 x j S0) (q - 1) p)). lra.
  Qed.

  Lemma jstepn L beta l dl e : (1 < l < L)%Z -> Rabs beta <= 5 ->
    0 <= e -> e + 200 * u * IZR (4 * l + 1) <= 1 ->
    fholds L (l - 1) beta dl e ->
    exists a, rf_jax A dl beta L l = Ok a /\ fholds L l beta a (e + 200 * u * IZR (4 * l + 1)).
  Proof using HA Hu He.
    intros Hl Hb Hee He1 (Hs & Hz & HE). unfold rf_jax.
    replace (l =? 0)%Z with false by lia. replace (l =? 1)%Z with false by lia. cbv zeta.
    assert (P : forall k, (0 <= k)%Z -> 0 <= 200 * u * IZR k) by (intros; apply Rmult_le_pos; [lra|apply IZR_le; lia]).
    destruct (half_angle A u eta HA Hu beta Hb He) as [HC HS].
    set (c := cos (beta / 2)) in *. set (s := sin (beta / 2)) in *.
    set (c' := fcos A (fdiv A beta 2)) in *. set (s' := fsin A (fdiv A beta 2)) in *.
    assert (HC' : Rabs (- c' - - c) <= 8 * u) by (replace (- c' - - c) with (- (c' - c)) by ring; now rewrite Rabs_Ropp).
    assert (Hcs : - c * - c + s * s = 1) by (pose proof (cs_half beta); fold c s in H; lra).
    destruct (slice2_ok dl (2 * L - 1) (2 * l - 1) (- (l - 1) + L - 1) Hs) as [Sj Gj]; [lia..|].
    set (dlj := slice2 dl _ _ _ _) in *.
    set (x := fun k i => get dlj [k; i]).
    assert (E1 : opb (2 * l - 1) (fun k i => x k i - 1 * dh c s (2 * l - 1 - 1) k i) e).
    { replace (2 * (l - 1) + 1)%Z with (2 * l - 1)%Z in HE by lia. eapply opb_ext; [|exact HE]. intros k i Hk Hi. cbv beta.
      unfold x. rewrite Gj by lia. replace (2 * (l - 1))%Z with (2 * l - 1 - 1)%Z by lia. fold c s.
      replace (- (l - 1) + L - 1 + k)%Z with (k - (l - 1) + L - 1)%Z by lia.
      replace (- (l - 1) + L - 1 + i)%Z with (i - (l - 1) + L - 1)%Z by lia. ring. }
    assert (X2 : forall k i, (0 <= k < 2 * l - 1)%Z -> (0 <= i < 2 * l - 1)%Z -> Rabs (x k i) <= 2).
    { apply (half_size (2 * l - 1) beta x 1 e ltac:(lia)); [pose proof (P (4 * l + 1)%Z ltac:(lia)); lra|auto|exact E1]. }
    destruct (jax_half_float (zeros 0 [2 * l + 2; 2 * l + 2]%Z) dlj (2 * l + 2) (2 * l - 1) 0 0 (- c) s (- c') s' 2)
      as (dd & -> & Sdd & Gdd); [reflexivity|exact Sj|lia..|exact Hcs|exact HC'|exact HS|lra|exact X2|].
    cbn [bind]. set (j1 := IZR (2 * l - 1)) in *. set (j2 := IZR (2 * l)) in *.
    assert (J1 : 1 <= j1) by (apply IZR_le; lia). assert (J2 : 1 <= j2) by (apply IZR_le; lia).
    set (y := fun k i => get dd [k; i] / j1).
    assert (Gy : forall q p, (0 <= q <= 2 * l - 1)%Z -> (0 <= p <= 2 * l - 1)%Z ->
       Rabs (y q p - half_total x (2 * l - 1) (- c) s q p) <= 200 * u).
    { intros q p Hq Hp. destruct (Gdd q p) as [G _]. specialize (G eq_refl). rewrite !Z.sub_0_r in G. fold x in G.
      replace (y q p - half_total x (2 * l - 1) (- c) s q p) with ((get dd [q; p] - j1 * half_total x (2 * l - 1) (- c) s q p) / j1)
        by (unfold y; field; lra).
      unfold Rdiv. rewrite Rabs_mult, (Rabs_pos_eq (/ j1)) by (left; apply Rinv_0_lt_compat; lra).
      apply Rmult_le_reg_r with j1; [lra|]. rewrite Rmult_assoc, Rinv_l, Rmult_1_r by lra.
      eapply Rle_trans; [exact G|]. assert (0 <= u * j1) by (apply Rmult_le_pos; lra). lra. }
    pose proof (half_error A u eta HA (2 * l - 1) beta x 1 e y ltac:(lia) Hee ltac:(auto) E1 Gy) as E2.
    fold c s in E2. replace (2 * l - 1 + 1)%Z with (2 * l)%Z in E2 by lia. fold j2 in E2.
    set (e2 := e + 200 * u * j2) in *.
    assert (Ee2 : e + 200 * u * IZR (4 * l + 1) = e2 + 200 * u * IZR (2 * l + 1)).
    { unfold e2, j2. replace (4 * l + 1)%Z with (2 * l + (2 * l + 1))%Z by lia. rewrite (plus_IZR (2 * l) (2 * l + 1)). ring. }
    assert (E2' : opb (2 * l) (fun k i => y k i - -1 * dh c s (2 * l - 1) k i) e2).
    { eapply opb_ext; [|exact E2]. intros. cbv beta. ring. }
    assert (L1 : e2 <= 1) by (pose proof (P (2 * l + 1)%Z ltac:(lia)); lra).
    assert (P2 : 0 <= e2) by (pose proof (P (2 * l)%Z ltac:(lia)); unfold e2, j2; lra).
    assert (Y2 : forall k i, (0 <= k < 2 * l)%Z -> (0 <= i < 2 * l)%Z -> Rabs (y k i) <= 2)
      by (apply (half_size (2 * l) beta y (-1) e2 ltac:(lia)); auto).
    set (dl0 := fill2 _ _ _ _ _ _).
    assert (Hs0 : shape dl0 = [2 * L - 1; 2 * L - 1]%Z) by (now apply fill2_shape).
    destruct (slice2_ok dd (2 * l + 2) (2 * l) 0 Sdd) as [Sd Gd]; [lia..|].
    change (0 + 2 * l)%Z with (2 * l)%Z in *.
    set (ddj := slice2 dd 0 (2 * l) 0 (2 * l)) in *.
    assert (Yd : forall k i, (0 <= k < 2 * l)%Z -> (0 <= i < 2 * l)%Z -> get ddj [k; i] = j1 * y k i).
    { intros k i Hk Hi. rewrite Gd by lia. unfold y. rewrite !Z.add_0_l. field. lra. }
    destruct (jax_half_float dl0 ddj (2 * L - 1) (2 * l) (- l + L - 1) (- l + L - 1) (- c) s (- c') s' (2 * j1))
      as (a & -> & Hsa & Ga); [exact Hs0|exact Sd|lia..|exact Hcs|exact HC'|exact HS|lra| |].
    { intros k i Hk Hi. rewrite Yd, Rabs_mult, (Rabs_pos_eq j1) by (auto; lra). specialize (Y2 k i Hk Hi).
      apply Rle_trans with (j1 * 2); [apply Rmult_le_compat_l; lra|lra]. }
    cbn [bind]. fold j2 in Ga. eexists; split; [reflexivity|]. destruct (shape_dims _ _ Hsa) as [DA0 DA1].
    assert (Z0 : forall m n, (- L < m < L)%Z -> (- L < n < L)%Z -> get dl0 [m + L - 1; n + L - 1]%Z = 0).
    { intros m n Hm Hn. unfold dl0. rewrite (fill2_get _ (2 * L - 1)) by (auto; lia).
      match goal with |- (if ?b then _ else _) = _ => destruct b eqn:B end; [reflexivity|]. apply Hz; lia. }
    assert (N0 : IZR (2 * l * (2 * l - 1)) = j2 * j1) by apply mult_IZR.
    split; [unfold mscal, mat; cbn [shape]; congruence|]. split.
    - intros m n Hm Hn Hmn. unfold mscal, mat, at2. cbn [get nth].
      destruct (Ga (m + L - 1)%Z (n + L - 1)%Z) as [_ G]. rewrite G, Z0 by lia.
      apply (rd_div0 _ _ _ HA). rewrite N0. assert (0 < j2 * j1) by (apply Rmult_lt_0_compat; lra). lra.
    - assert (Gf : forall q p, (0 <= q <= 2 * l)%Z -> (0 <= p <= 2 * l)%Z ->
        Rabs (fdiv A (get a [q - l + L - 1; p - l + L - 1]%Z) (IZR (2 * l * (2 * l - 1)))
              - half_total y (2 * l) (- c) s q p) <= 200 * u).
      { intros q p Hq Hp. destruct (Ga (q - l + L - 1)%Z (p - l + L - 1)%Z) as [G _].
        specialize (G (Z0 (q - l) (p - l) ltac:(lia) ltac:(lia))%Z).
        replace (q - l + L - 1 - (- l + L - 1))%Z with q in G by lia. replace (p - l + L - 1 - (- l + L - 1))%Z with p in G by lia.
        rewrite (half_total_ext _ (fun k i => j1 * y k i) (2 * l) _ _ q p Yd), half_total_scal in G.
        set (h := half_total y (2 * l) (- c) s q p) in *. set (t := get a [q - l + L - 1; p - l + L - 1]%Z) in *.
        rewrite N0. assert (NP : 1 <= j2 * j1) by nra. set (N := j2 * j1) in *.
        assert (H8 : Rabs h <= 4 * 2) by (apply half_total_size; auto; lra || lia).
        assert (T : Rabs (t / N - h) <= 190 * u).
        { replace (t / N - h) with ((t - j2 * (j1 * h)) / N) by (unfold N; field; lra).
          unfold Rdiv. rewrite Rabs_mult, (Rabs_pos_eq (/ N)) by (left; apply Rinv_0_lt_compat; lra).
          apply Rmult_le_reg_r with N; [lra|]. rewrite Rmult_assoc, Rinv_l, Rmult_1_r by lra.
          eapply Rle_trans; [exact G|]. right. unfold N. ring. }
        pose proof (Rabs_bnd _ _ _ T) as BT. pose proof (rd_div _ _ _ HA t N ltac:(lra)) as M.
        replace (fdiv A t N - h) with ((fdiv A t N - t / N) + (t / N - h)) by ring.
        eapply Rle_trans; [apply Rabs_triang|].
        assert (u * Rabs (t / N) <= u * (82 / 10)) by (apply Rmult_le_compat_l; lra). lra. }
      pose proof (half_error A u eta HA (2 * l) beta y (-1) e2
         (fun q p => fdiv A (get a [q - l + L - 1; p - l + L - 1]%Z) (IZR (2 * l * (2 * l - 1)))) ltac:(lia) ltac:(assumption) ltac:(auto) E2' Gf) as E3.
      rewrite Ee2. eapply opb_ext; [|exact E3]. intros. cbv beta. unfold mscal, mat, at2. cbn [get nth]. fold c s. ring.
  Qed.
End Float.

Lemma jstep_all A u eta L beta l dl : rounded A u eta -> (0 <= l < L)%Z -> fbound u L <= 1 -> eta <= u ->
  Rabs beta <= 5 ->
  (if (l =? 0)%Z then arr_eq dl (zeros 0 [2 * L - 1; 2 * L - 1]%Z) else fholds L (l - 1) beta dl (fbound u (l - 1))) ->
  exists a, rf_jax A dl beta L l = Ok a /\ fholds L l beta a (fbound u l).
Proof.
  intros HA Hl HL He Hb H. pose proof (rd_u _ _ _ HA) as u0. pose proof (rd_eta _ _ _ HA) as e0.
  destruct (Z.eqb_spec l 0) as [->|N0].
  { destruct H as [Hs Hg]. cbn [shape zeros get] in *. unfold fbound. cbn [Z.mul]. rewrite Rmult_0_r.
    apply (fstep0 A); [lia|exact Hs|]. intros m n Hm Hn. apply Hg. rewrite Hs. apply in_shape2; lia. }
  assert (Hu : u <= / 1000).
  { unfold fbound in HL. assert (14 <= IZR (L * (2 * L + 3))) by (apply IZR_le; nia). nra. }
  destruct (Z.eq_dec l 1) as [->|N1].
  { destruct (fstep1 A u eta HA Hu L beta dl) as (a & E & Ha); auto; [lia|unfold fbound in H; cbn in H; now rewrite Rmult_0_r in H|].
    exists a. split; [|exact Ha]. rewrite <- E.
    unfold rf_jax, rf_step. cbn [Z.eqb Pos.eqb]. cbv zeta.
    replace (-1 + L - 1)%Z with (L - 2)%Z by lia. replace (0 + L - 1)%Z with (L - 1)%Z by lia.
    replace (1 + L - 1)%Z with L by lia. reflexivity. }
  replace (fbound u l) with (fbound u (l - 1) + 200 * u * IZR (4 * l + 1)).
  2:{ unfold fbound. replace (l * (2 * l + 3))%Z with ((l - 1) * (2 * (l - 1) + 3) + (4 * l + 1))%Z by ring. rewrite (plus_IZR ((l - 1) * (2 * (l - 1) + 3))). ring. }
  apply jstepn with (eta := eta); auto; [lia| |].
  - unfold fbound. apply Rmult_le_pos; [lra|]. apply IZR_le. nia.
  - eapply Rle_trans; [|exact HL]. unfold fbound. rewrite <- Rmult_plus_distr_l, <- plus_IZR.
    apply Rmult_le_compat_l; [lra|]. apply IZR_le. nia.
Qed.

Lemma jrun A u eta L beta l : rounded A u eta -> (0 <= l < L)%Z -> fbound u L <= 1 -> eta <= u ->
  Rabs beta <= 5 -> exists a, rf_jax_run A beta L l = Ok a /\ fholds L l beta a (fbound u l).
Proof.
  intros HA [H0 HL] HB He Hb. revert HL. revert l H0. unfold rf_jax_run. z_ind.
  - intros HL. rewrite zrange_cons, zrange_nil by lia. cbn [foldM].
    destruct (jstep_all A u eta L beta 0 (zeros 0 [2 * L - 1; 2 * L - 1]%Z)) as (a & -> & H); auto; [lia|apply arr_eq_refl|].
    exists a. auto.
  - intros l Hl IH HL. destruct IH as (a & E & Ha); [lia|].
    rewrite <- Z.add_1_r. rewrite zrange_snoc, foldM_app, E by lia. cbn [bind foldM].
    destruct (jstep_all A u eta L beta (l + 1) a) as (b & -> & H); auto; [lia| |exists b; auto].
    replace (l + 1 =? 0)%Z with false by lia. now replace (l + 1 - 1)%Z with l by lia.
Qed.

Lemma rf_jax_exact beta L l : rf_jax_run exact_arith beta L l = risbo_jax_run beta L l.
Proof.
  unfold rf_jax_run, risbo_jax_run. apply foldM_ext. intros dl el _.
  unfold rf_jax, risbo_jax. destruct (el =? 0)%Z; [reflexivity|]. destruct (el =? 1)%Z; [|reflexivity].
  cbv zeta. cbn [fmul fdiv fsqrt fsin fcos exact_arith].
  replace (cos (beta / 2) ^ 2) with (cos (beta / 2) * cos (beta / 2)) by ring.
  replace (sin (beta / 2) ^ 2) with (sin (beta / 2) * sin (beta / 2)) by ring. reflexivity.
Qed.
