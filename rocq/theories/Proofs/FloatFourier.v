(** The kernel of the precomputed transforms in rounded arithmetic: equidistant rings. *)
From Coq Require Import Reals Lra Lia ZifyBool.
From Coquelicot Require Import Coquelicot.
From Verif Require Import Lib.Py Lib.PyFacts Lib.Vec Lib.VecFacts Lib.Sums Lib.Cplx Lib.Arr Lib.ArrFacts Lib.MatFacts Model.Index Model.Samples Model.Risbo
  Model.RisboFloat Model.Spherical Model.Precompute Model.PrecomputeFloat Spec.WignerSpec Spec.SphereSpec Spec.RoundingSpec Spec.PrecomputeFloatSpec
  Proofs.WignerDh Proofs.WignerCalc Proofs.RisboProofs Proofs.SphereTheory Proofs.SpectralBound Proofs.RisboFloatProofs Proofs.PrecomputeKernel Proofs.FloatSums Proofs.FloatKernel
  Proofs.CBackendBound Proofs.FloatInverse.
Open Scope R_scope.

(** ** The d-functions are Lipschitz continuous *)
Lemma lipschitz (f f' : R -> R) c x y : (forall t, is_derive f t (f' t)) -> (forall t, Rabs (f' t) <= c) -> Rabs (f x - f y) <= c * Rabs (x - y).
Proof.
  intros H1 H2. assert (W : forall a b, a < b -> Rabs (f b - f a) <= c * Rabs (b - a)).
  { intros a b Hab. destruct (MVT_cor2 f f' a b Hab) as (t & E & _); [intros; apply is_derive_Reals, H1|].
    rewrite E, Rabs_mult. apply Rmult_le_compat_r; [apply Rabs_pos|apply H2]. }
  destruct (Rtotal_order x y) as [H|[->|H]].
  - rewrite Rabs_minus_sym, (Rabs_minus_sym x). now apply W.
  - unfold Rminus. rewrite !Rplus_opp_r, Rabs_R0. lra.
  - now apply W.
Qed.
Lemma cos_lip x y : Rabs (cos x - cos y) <= Rabs (x - y).
Proof.
  rewrite <- (Rmult_1_l (Rabs (x - y))). apply (lipschitz cos (fun t => - sin t)); [intros; apply is_derive_cos|].
  intros t. rewrite Rabs_Ropp. pose proof (SIN_bound t). apply Rabs_le. lra.
Qed.
Lemma sin_lip x y : Rabs (sin x - sin y) <= Rabs (x - y).
Proof.
  rewrite <- (Rmult_1_l (Rabs (x - y))). apply (lipschitz sin cos); [intros; apply is_derive_sin|].
  intros t. pose proof (COS_bound t). apply Rabs_le. lra.
Qed.
Lemma ac_le j k : (0 <= j)%Z -> (-1 <= k <= j)%Z -> 0 <= ac j k <= IZR (j + 1) / 2.
Proof.
  intros Hj Hk. split; [apply sqrt_pos|]. unfold ac. rewrite <- (sqrt_square (IZR (j + 1) / 2)).
  - apply sqrt_le_1_alt. replace (IZR (j + 1)) with (IZR (k + 1) + IZR (j - k)) by (rewrite <- plus_IZR; f_equal; lia).
    rewrite mult_IZR. pose proof (Rle_0_sqr (IZR (k + 1) - IZR (j - k))) as Q. unfold Rsqr in Q. lra.
  - assert (0 <= IZR (j + 1)) by (apply IZR_le; lia). lra.
Qed.
Lemma D_le1 j k i x : (0 <= i <= j)%Z -> (0 <= k <= j)%Z -> Rabs (D j k i x) <= 1.
Proof. intros. apply dh_le1; lia. Qed.
Lemma D_lip j k i x y : (0 <= i <= j)%Z -> (0 <= k <= j)%Z -> Rabs (D j k i x - D j k i y) <= IZR (j + 1) / 2 * Rabs (x - y).
Proof.
  intros Hi Hk. apply (lipschitz (D j k i) (fun x => ((ac j k * D j (k + 1) i x - ac j (k - 1) * D j (k - 1) i x) / 2)%R)).
  - intros t. apply D_derive. lia.
  - intros t. assert (P : Rabs (ac j k * D j (k + 1) i t) <= IZR (j + 1) / 2).
    { destruct (Z.eq_dec k j) as [->|].
      - rewrite ac_out by lia. rewrite Rmult_0_l, Rabs_R0. assert (0 <= IZR (j + 1)) by (apply IZR_le; lia). lra.
      - destruct (ac_le j k ltac:(lia) ltac:(lia)). rewrite Rabs_mult, (Rabs_right (ac j k)) by lra.
        pose proof (D_le1 j (k + 1) i t Hi ltac:(lia)). pose proof (Rabs_pos (D j (k + 1) i t)). nra. }
    assert (Q : Rabs (ac j (k - 1) * D j (k - 1) i t) <= IZR (j + 1) / 2).
    { destruct (Z.eq_dec k 0) as [->|].
      - rewrite ac_out by lia. rewrite Rmult_0_l, Rabs_R0. assert (0 <= IZR (j + 1)) by (apply IZR_le; lia). lra.
      - destruct (ac_le j (k - 1) ltac:(lia) ltac:(lia)). rewrite Rabs_mult, (Rabs_right (ac j (k - 1))) by lra.
        pose proof (D_le1 j (k - 1) i t Hi ltac:(lia)). pose proof (Rabs_pos (D j (k - 1) i t)). nra. }
    apply Rabs_le. apply Rabs_le_between in P. apply Rabs_le_between in Q. lra.
Qed.
Lemma wigner_lip l m n x y : (0 <= l)%Z -> Rabs (wigner_d l m n x - wigner_d l m n y) <= IZR (l + 1) * Rabs (x - y).
Proof.
  intros Hl. assert (L0 : 1 <= IZR (l + 1)) by (apply IZR_le; lia). pose proof (Rabs_pos (x - y)) as P.
  assert (Z0 : forall a b, Rabs (a - b) = 0 -> Rabs (a - b) <= IZR (l + 1) * Rabs (x - y)) by (intros a b ->; nra).
  destruct (Z_le_dec (Z.abs m) l); [destruct (Z_le_dec (Z.abs n) l)|].
  - rewrite !wigner_dh by lia. eapply Rle_trans; [apply (D_lip (2 * l) (l + m) (l + n) x y); lia|].
    apply Rmult_le_compat_r; [exact P|]. rewrite !plus_IZR, mult_IZR. lra.
  - rewrite !wigner_d_out by lia. apply Z0. rewrite Rminus_0_r. apply Rabs_R0.
  - rewrite !wigner_d_out by lia. apply Z0. rewrite Rminus_0_r. apply Rabs_R0.
Qed.

(** ** Products of columns *)
Section Norms.
  Variable L : Z.
  Definition nrm (f : Z -> R) : R := rsum (zrange 0 L) (fun k => f k * f k).
  Lemma abs_prod f g a b : 0 <= a -> 0 <= b -> nrm f <= a * a -> nrm g <= b * b -> rsum (zrange 0 L) (fun k => Rabs (f k) * Rabs (g k)) <= a * b.
  Proof.
    intros Ha Hb Hf Hg. pose proof (cauchy (zrange 0 L) (fun k => Rabs (f k)) (fun k => Rabs (g k))) as C.
    assert (S : forall h, rsum (zrange 0 L) (fun x => Rabs (h x) * Rabs (h x)) = nrm h).
    { intros h. apply rr_ext. intros k Hk. rewrite <- Rabs_mult. apply Rabs_right. pose proof (Rle_0_sqr (h k)) as Q. unfold Rsqr in Q. lra. }
    cbv beta in C. rewrite (S f), (S g) in C. eapply Rle_trans; [apply Rle_abs|]. eapply Rle_trans; [exact C|].
    rewrite <- (sqrt_square a), <- (sqrt_square b) by assumption. apply Rmult_le_compat; try apply sqrt_pos; now apply sqrt_le_1_alt.
  Qed.
  Lemma prod_sums (f f' g g' : Z -> R) e : 0 <= e -> nrm f <= 1 -> nrm g <= 1 -> nrm (fun k => f' k - f k) <= e * e -> nrm (fun k => g' k - g k) <= e * e ->
    rsum (zrange 0 L) (fun k => Rabs (f' k * g' k - f k * g k)) <= 2 * e + e * e /\ rsum (zrange 0 L) (fun k => Rabs (f' k * g' k)) <= (1 + e) * (1 + e).
  Proof.
    intros He Hf Hg Df Dg. assert (H1 : nrm f <= 1 * 1) by lra. assert (H2 : nrm g <= 1 * 1) by lra.
    pose proof (abs_prod _ _ e 1 He ltac:(lra) Df H2) as P1. pose proof (abs_prod _ _ 1 e ltac:(lra) He H1 Dg) as P2.
    pose proof (abs_prod _ _ e e He He Df Dg) as P3. pose proof (abs_prod _ _ 1 1 ltac:(lra) ltac:(lra) H1 H2) as P4. cbv beta in *.
    assert (A : rsum (zrange 0 L) (fun k => Rabs (f' k * g' k - f k * g k)) <= 2 * e + e * e).
    { eapply Rle_trans with (rsum (zrange 0 L) (fun k => Rabs (f' k - f k) * Rabs (g k) + Rabs (f k) * Rabs (g' k - g k) + Rabs (f' k - f k) * Rabs (g' k - g k))).
      - apply rr_le. intros k Hk. rewrite <- !Rabs_mult.
        replace (f' k * g' k - f k * g k) with ((f' k - f k) * g k + f k * (g' k - g k) + (f' k - f k) * (g' k - g k)) by ring.
        eapply Rle_trans; [apply Rabs_triang|]. apply Rplus_le_compat_r. apply Rabs_triang.
      - rewrite !rs_plus. lra. }
    split; [exact A|].
    eapply Rle_trans with (rsum (zrange 0 L) (fun k => Rabs (f k) * Rabs (g k) + Rabs (f' k * g' k - f k * g k))).
    - apply rr_le. intros k Hk. rewrite <- Rabs_mult. replace (f' k * g' k) with (f k * g k + (f' k * g' k - f k * g k)) at 1 by ring. apply Rabs_triang.
    - rewrite rs_plus. lra.
  Qed.
End Norms.

(** a column of the exact matrix and of the error *)
Lemma wigner_col L l n x : (0 <= l < L)%Z -> (Z.abs n <= l)%Z -> nrm L (fun k => wigner_d l k n x) <= 1.
Proof.
  intros Hl Hn. unfold nrm. pose proof (D_cols (2 * l) (l + n) (l + n) x ltac:(lia) ltac:(lia)) as E. rewrite Z.eqb_refl in E. rewrite <- E.
  rewrite <- (rr_perm (- l) (l + 1) 0 (2 * l + 1) (fun k => l + k)%Z) by lia.
  rewrite (rr_shrink 0 L 0 (l + 1)) by (try lia; intros; rewrite wigner_d_out by lia; ring).
  rewrite (rr_split (- l) 0 (l + 1)) by lia.
  match goal with |- ?a <= ?b + ?c => assert (0 <= b) end.
  { apply rs_nonneg. intros. apply Rle_0_sqr. }
  match goal with |- ?a <= ?b + ?c => replace c with a; [lra|] end. apply rr_ext. intros k Hk. rewrite wigner_dh by lia. reflexivity.
Qed.
Lemma opb_col n E e p : (0 <= p < n)%Z -> 0 <= e -> opb n E e -> n2 n (fun q => E q p) <= e * e.
Proof.
  intros Hp He H. set (v := fun q => E q p). specialize (H v (fun i => if (i =? p)%Z then 1 else 0)).
  assert (B : bil n v E (fun i => if (i =? p)%Z then 1 else 0) = n2 n v).
  { unfold bil, n2. apply rr_ext. intros q Hq. etransitivity; [|exact (rr_delta 0 n p (fun i => v q * E q i) Hp)]. apply rr_ext. intros i Hi.
    destruct (i =? p)%Z; ring. }
  assert (N : n2 n (fun i => if (i =? p)%Z then 1 else 0) = 1).
  { unfold n2. etransitivity; [|exact (rr_delta 0 n p (fun _ => 1) Hp)]. apply rr_ext. intros i Hi. destruct (i =? p)%Z; ring. }
  rewrite B, N, sqrt_1, Rmult_1_r in H. pose proof (n2_nonneg n v) as P. rewrite Rabs_right in H by lra.
  pose proof (sqrt_pos (n2 n v)) as S. pose proof (sqrt_sqrt (n2 n v) P) as SS. set (r := sqrt (n2 n v)) in *. nra.
Qed.

Section Float.
  Variables (A : arith) (u eta : R).
  Hypothesis HA : rounded A u eta.
  Hypothesis HZ : zeros_exact A.
  Let u0 : 0 <= u := rd_u _ _ _ HA.
  Let e0 : 0 <= eta := rd_eta _ _ _ HA.
  Hypothesis Hu : u <= / 1000.
  Hypothesis He : 4 * eta <= u.

  Lemma half_pi : Rabs (fdiv A (fpi A) 2 - PI / 2) <= 5 * u /\ 0 <= fdiv A (fpi A) 2 <= fpi A /\ fpi A <= 41 / 10.
  Proof.
    pose proof PI_4 as P2.
    pose proof PI2_3_2 as P3. pose proof (rd_pi _ _ _ HA) as R1. set (p := fpi A) in *.
    assert (U1 : 0 <= u * PI) by (apply Rmult_le_pos; lra). assert (U2 : u * PI <= u * 4) by (apply Rmult_le_compat_l; lra).
    pose proof (rd_div _ _ _ HA p 2 ltac:(lra)) as R2. apply Rabs_le_between in R1.
    rewrite (Rabs_right (p / 2)) in R2 by lra. assert (U3 : u * (p / 2) <= u * (21 / 10)) by (apply Rmult_le_compat_l; lra).
    apply Rabs_le_between in R2. split; [apply Rabs_le; lra|]. lra.
  Qed.
  Definition ebound (l : Z) : R := fbound u l + 5 * u * IZR (l + 1) * IZR (2 * l + 1).
  Lemma ebound_nonneg l : (0 <= l)%Z -> 0 <= ebound l.
  Proof.
    intros Hl. unfold ebound, fbound. assert (0 <= IZR (l * (2 * l + 3))) by (apply IZR_le; nia).
    assert (0 <= IZR (l + 1)) by (apply IZR_le; lia). assert (0 <= IZR (2 * l + 1)) by (apply IZR_le; lia).
    apply Rplus_le_le_0_compat; repeat apply Rmult_le_pos; lra.
  Qed.
  (** a column of the computed matrix at the rounded pi/2 *)
  Lemma col_err L l a n : (0 <= l < L)%Z -> (Z.abs n <= l)%Z -> fholds L l (fdiv A (fpi A) 2) a (fbound u l) ->
    nrm L (fun k => get a [k + L - 1; n + L - 1]%Z - wigner_d l k n (PI / 2)) <= ebound l * ebound l.
  Proof.
    intros Hl Hn (_ & HO & H). destruct half_pi as [HP _]. set (b := fdiv A (fpi A) 2) in *.
    assert (H2 : opb (2 * l + 1) (fun q p => get a [q - l + L - 1; p - l + L - 1]%Z - dh (cos (PI / 2 / 2)) (sin (PI / 2 / 2)) (2 * l) q p) (ebound l)).
    { unfold ebound. rewrite (Rmult_assoc (5 * u)).
      apply (opb_ext _ (fun q p => (get a [q - l + L - 1; p - l + L - 1]%Z - dh (cos (b / 2)) (sin (b / 2)) (2 * l) q p) + (D (2 * l) q p b - D (2 * l) q p (PI / 2)))).
      - intros q p Hq Hp. unfold D. ring.
      - apply opb_plus; [exact H|]. rewrite <- Rmult_assoc. apply opb_entries.
        + lia.
        + assert (0 <= IZR (l + 1)) by (apply IZR_le; lia). apply Rmult_le_pos; lra.
        + intros q p Hq Hp. eapply Rle_trans; [apply D_lip; lia|]. rewrite plus_IZR, mult_IZR, plus_IZR.
          assert (l0 : 0 <= IZR l) by (apply IZR_le; lia).
          replace (5 * u * (IZR l + 1)) with ((IZR l + 1) * (5 * u)) by ring. apply Rmult_le_compat; [lra|apply Rabs_pos|lra|exact HP]. }
    pose proof (opb_col (2 * l + 1) _ _ (l + n) ltac:(lia) (ebound_nonneg l ltac:(lia)) H2) as C. eapply Rle_trans; [|exact C]. unfold nrm, n2.
    rewrite (rr_shrink 0 L 0 (l + 1)); [|lia|lia|lia|].
    - rewrite <- (rr_perm (- l) (l + 1) 0 (2 * l + 1) (fun k => l + k)%Z) by lia. rewrite (rr_split (- l) 0 (l + 1)) by lia.
      match goal with |- ?a <= ?b + ?c => assert (0 <= b) end.
      { apply rs_nonneg. intros. apply Rle_0_sqr. }
      match goal with |- ?a <= ?b + ?c => replace c with a; [lra|] end. apply rr_ext. intros k Hk. rewrite wigner_dh by lia.
      replace (l + k - l + L - 1)%Z with (k + L - 1)%Z by lia. replace (l + n - l + L - 1)%Z with (n + L - 1)%Z by lia. reflexivity.
    - intros k H3 H4. rewrite HO by lia. rewrite wigner_d_out by lia. ring.
  Qed.

  (** ** One term *)
  Lemma mul2_part a c b d : Rabs (fadd A (fmul A a c) (- fmul A b d) - (a * c - b * d)) <= (21 / 10) * u * (Rabs (a * c) + Rabs (b * d)) + 4 * eta.
  Proof.
    pose proof (rd_mul _ _ _ HA a c) as M1. pose proof (rd_mul _ _ _ HA b d) as M2. pose proof (rd_add _ _ _ HA (fmul A a c) (- fmul A b d)) as P.
    set (p := fmul A a c) in *. set (q := fmul A b d) in *. set (x := a * c) in *. set (y := b * d) in *.
    pose proof (Rabs_pos x). pose proof (Rabs_pos y).
    assert (B : Rabs (p + - q) <= (Rabs x + Rabs y) * (1001 / 1000) + 2 * eta).
    { replace (p + - q) with (x + - y + ((p - x) + - (q - y))) by ring. eapply Rle_trans; [apply Rabs_triang|].
      assert (Rabs (x + - y) <= Rabs x + Rabs y) by (eapply Rle_trans; [apply Rabs_triang|]; rewrite Rabs_Ropp; lra).
      assert (Rabs ((p - x) + - (q - y)) <= Rabs (p - x) + Rabs (q - y)) by (eapply Rle_trans; [apply Rabs_triang|]; rewrite Rabs_Ropp; lra).
      assert (u * Rabs x <= / 1000 * Rabs x) by (apply Rmult_le_compat_r; lra). assert (u * Rabs y <= / 1000 * Rabs y) by (apply Rmult_le_compat_r; lra). lra. }
    assert (B2 : u * Rabs (p + - q) <= u * ((Rabs x + Rabs y) * (1001 / 1000) + 2 * eta)) by (now apply Rmult_le_compat_l).
    assert (u * eta <= / 1000 * eta) by (apply Rmult_le_compat_r; lra).
    assert (0 <= u * Rabs x) by (apply Rmult_le_pos; lra). assert (0 <= u * Rabs y) by (apply Rmult_le_pos; lra).
    replace (fadd A p (- q) - (x - y)) with ((fadd A p (- q) - (p + - q)) + ((p - x) + - (q - y))) by ring.
    eapply Rle_trans; [apply Rabs_triang|].
    assert (Rabs ((p - x) + - (q - y)) <= Rabs (p - x) + Rabs (q - y)) by (eapply Rle_trans; [apply Rabs_triang|]; rewrite Rabs_Ropp; lra).
    lra.
  Qed.
  Lemma mul2_part' a c b d : Rabs (fadd A (fmul A a c) (fmul A b d) - (a * c + b * d)) <= (21 / 10) * u * (Rabs (a * c) + Rabs (b * d)) + 4 * eta.
  Proof.
    pose proof (rd_mul _ _ _ HA a c) as M1. pose proof (rd_mul _ _ _ HA b d) as M2. pose proof (rd_add _ _ _ HA (fmul A a c) (fmul A b d)) as P.
    set (p := fmul A a c) in *. set (q := fmul A b d) in *. set (x := a * c) in *. set (y := b * d) in *.
    pose proof (Rabs_pos x). pose proof (Rabs_pos y).
    assert (B : Rabs (p + q) <= (Rabs x + Rabs y) * (1001 / 1000) + 2 * eta).
    { replace (p + q) with (x + y + ((p - x) + (q - y))) by ring. eapply Rle_trans; [apply Rabs_triang|].
      pose proof (Rabs_triang x y). pose proof (Rabs_triang (p - x) (q - y)).
      assert (u * Rabs x <= / 1000 * Rabs x) by (apply Rmult_le_compat_r; lra). assert (u * Rabs y <= / 1000 * Rabs y) by (apply Rmult_le_compat_r; lra). lra. }
    assert (B2 : u * Rabs (p + q) <= u * ((Rabs x + Rabs y) * (1001 / 1000) + 2 * eta)) by (now apply Rmult_le_compat_l).
    assert (u * eta <= / 1000 * eta) by (apply Rmult_le_compat_r; lra).
    assert (0 <= u * Rabs x) by (apply Rmult_le_pos; lra). assert (0 <= u * Rabs y) by (apply Rmult_le_pos; lra).
    replace (fadd A p q - (x + y)) with ((fadd A p q - (p + q)) + ((p - x) + (q - y))) by ring.
    eapply Rle_trans; [apply Rabs_triang|]. pose proof (Rabs_triang (p - x) (q - y)). lra.
  Qed.
  Lemma prod_mod (a b c d : R) : Rabs (a * c) + Rabs (b * d) <= Cmod (a, b) * Cmod (c, d) /\ Rabs (a * d) + Rabs (b * c) <= Cmod (a, b) * Cmod (c, d).
  Proof.
    rewrite !Rabs_mult. unfold Cmod. cbn [fst snd].
    assert (S : forall x y, sqrt (x ^ 2 + y ^ 2) = sqrt (Rabs x * Rabs x + Rabs y * Rabs y)).
    { intros x y. f_equal. rewrite <- !Rabs_mult, !Rabs_right by (apply Rle_ge, Rle_0_sqr). ring. }
    rewrite !S. set (a' := Rabs a). set (b' := Rabs b). set (c' := Rabs c). set (d' := Rabs d).
    assert (0 <= a') by apply Rabs_pos. assert (0 <= b') by apply Rabs_pos. assert (0 <= c') by apply Rabs_pos. assert (0 <= d') by apply Rabs_pos.
    rewrite <- sqrt_mult by (apply Rplus_le_le_0_compat; apply Rmult_le_pos; assumption).
    split; (apply Rsqr_incr_0_var; [|apply sqrt_pos]); rewrite Rsqr_sqrt by (apply Rmult_le_pos; apply Rplus_le_le_0_compat; apply Rmult_le_pos; assumption); unfold Rsqr.
    - pose proof (Rle_0_sqr (a' * d' - b' * c')) as Q. unfold Rsqr in Q. lra.
    - pose proof (Rle_0_sqr (a' * c' - b' * d')) as Q. unfold Rsqr in Q. lra.
  Qed.
  Lemma cmul_err (z w : C) : Cmod (cf_mul A z w - z * w)%C <= 5 * u * (Cmod z * Cmod w) + 8 * eta.
  Proof.
    destruct z as [a b], w as [c d]. destruct (prod_mod a b c d) as [P1 P2]. set (q := Cmod (a, b) * Cmod (c, d)) in *.
    pose proof (mul2_part a c b d) as M1. pose proof (mul2_part' a d b c) as M2.
    assert (u * (Rabs (a * c) + Rabs (b * d)) <= u * q) by (now apply Rmult_le_compat_l).
    assert (u * (Rabs (a * d) + Rabs (b * c)) <= u * q) by (now apply Rmult_le_compat_l).
    assert (0 <= u * q) by (apply Rmult_le_pos; [lra|]; unfold q; apply Rmult_le_pos; apply Cmod_ge_0).
    eapply Rle_trans; [apply Cmod_parts|]. unfold Cminus, Cplus, Copp, Cmult, cf_mul. cbn [fst snd]. unfold Rminus in *. lra.
  Qed.
  Lemma exp_err L k x : (1 <= L)%Z -> (Z.abs k <= L)%Z -> Rabs x <= 41 / 10 -> Cmod (pf_exp A k x - cis (IZR k * x))%C <= 20 * (u * IZR L).
  Proof.
    intros HL Hk Hx. unfold pf_exp. pose proof (rd_mul _ _ _ HA (IZR k) x) as M. set (y := fmul A (IZR k) x) in *.
    assert (L1 : 1 <= IZR L) by (apply IZR_le; lia). assert (K : Rabs (IZR k) <= IZR L) by (rewrite <- abs_IZR; now apply IZR_le).
    assert (KX : Rabs (IZR k * x) <= IZR L * (41 / 10)).
    { rewrite Rabs_mult. apply Rmult_le_compat; try lra; apply Rabs_pos. }
    apply (Rmult_le_compat_l _ _ _ u0) in KX. assert (UL : u * 1 <= u * IZR L) by (now apply Rmult_le_compat_l).
    eapply Rle_trans; [apply Cmod_parts|]. unfold Cminus, Cplus, Copp, cis. cbn [fst snd].
    pose proof (rd_cos _ _ _ HA y) as C1. pose proof (rd_sin _ _ _ HA y) as C2. pose proof (cos_lip y (IZR k * x)) as C3. pose proof (sin_lip y (IZR k * x)) as C4.
    replace (fcos A y + - cos (IZR k * x)) with ((fcos A y - cos y) + (cos y - cos (IZR k * x))) by ring.
    replace (fsin A y + - sin (IZR k * x)) with ((fsin A y - sin y) + (sin y - sin (IZR k * x))) by ring.
    pose proof (Rabs_triang (fcos A y - cos y) (cos y - cos (IZR k * x))). pose proof (Rabs_triang (fsin A y - sin y) (sin y - sin (IZR k * x))). lra.
  Qed.
  Lemma term_near (d1 d2 ei ex : R) (ipc ip exc exx : C) : 0 <= ei <= / 10 -> 0 <= ex <= / 10 -> Cmod ip = 1 -> Cmod exx = 1 ->
    Cmod (ipc - ip)%C <= ei -> Cmod (exc - exx)%C <= ex ->
    Cmod (cf_mul A (cf_mul A (cf_mul A (RtoC d1) (RtoC d2)) ipc) exc - RtoC (d1 * d2) * ip * exx)%C <= (20 * u + 2 * ei + ex) * Rabs (d1 * d2) + 30 * eta.
  Proof.
    intros Hei Hex Hip Hexx Eip Eex. set (p1 := cf_mul A (RtoC d1) (RtoC d2)). set (p2 := cf_mul A p1 ipc).
    set (q := Rabs (d1 * d2)). assert (Q0 : 0 <= q) by apply Rabs_pos.
    assert (UQ : 0 <= u * q) by (apply Rmult_le_pos; lra). assert (UQ2 : u * q <= / 1000 * q) by (apply Rmult_le_compat_r; lra).
    assert (UE : u * eta <= / 1000 * eta) by (apply Rmult_le_compat_r; lra).
    assert (EQ0 : 0 <= ei * q) by (apply Rmult_le_pos; lra). assert (XQ0 : 0 <= ex * q) by (apply Rmult_le_pos; lra).
    assert (EQ : ei * q <= / 10 * q) by (apply Rmult_le_compat_r; lra).
    assert (XQ : ex * q <= / 10 * q) by (apply Rmult_le_compat_r; lra).
    assert (B1 : Cmod (p1 - RtoC (d1 * d2))%C <= 5 * (u * q) + 8 * eta).
    { pose proof (cmul_err (RtoC d1) (RtoC d2)) as E. rewrite !Cmod_R, <- Rabs_mult, <- RtoC_mult in E. fold q p1 in E. lra. }
    assert (N1 : Cmod p1 <= (1005 / 1000) * q + 8 * eta).
    { replace p1 with (RtoC (d1 * d2) + (p1 - RtoC (d1 * d2)))%C by ring. eapply Rle_trans; [apply Cmod_triangle|]. rewrite Cmod_R. fold q. lra. }
    assert (NI : Cmod ipc <= 11 / 10).
    { replace ipc with (ip + (ipc - ip))%C by ring. eapply Rle_trans; [apply Cmod_triangle|]. lra. }
    assert (NX : Cmod exc <= 11 / 10).
    { replace exc with (exx + (exc - exx))%C by ring. eapply Rle_trans; [apply Cmod_triangle|]. lra. }
    assert (M1 : Cmod p1 * Cmod ipc <= ((1005 / 1000) * q + 8 * eta) * (11 / 10)) by (apply Rmult_le_compat; try apply Cmod_ge_0; assumption).
    assert (B2 : Cmod (p2 - RtoC (d1 * d2) * ip)%C <= (112 / 10) * (u * q) + ei * q + 17 * eta).
    { replace (p2 - RtoC (d1 * d2) * ip)%C with ((p2 - p1 * ipc) + (p1 - RtoC (d1 * d2)) * ipc + RtoC (d1 * d2) * (ipc - ip))%C by ring.
      eapply Rle_trans; [apply Cmod_triangle|]. eapply Rle_trans; [apply Rplus_le_compat_r, Cmod_triangle|]. rewrite !Cmod_mult, Cmod_R. fold q.
      pose proof (cmul_err p1 ipc) as E. fold p2 in E. apply (Rmult_le_compat_l _ _ _ u0) in M1.
      assert (Cmod (p1 - RtoC (d1 * d2))%C * Cmod ipc <= (5 * (u * q) + 8 * eta) * (11 / 10)) by (apply Rmult_le_compat; try apply Cmod_ge_0; assumption).
      assert (q * Cmod (ipc - ip)%C <= q * ei) by (now apply Rmult_le_compat_l). lra. }
    assert (N2 : Cmod p2 <= (112 / 100) * q + 17 * eta).
    { replace p2 with (RtoC (d1 * d2) * ip + (p2 - RtoC (d1 * d2) * ip))%C by ring. eapply Rle_trans; [apply Cmod_triangle|].
      rewrite Cmod_mult, Cmod_R, Hip. fold q. lra. }
    assert (M2 : Cmod p2 * Cmod exc <= ((112 / 100) * q + 17 * eta) * (11 / 10)) by (apply Rmult_le_compat; try apply Cmod_ge_0; assumption).
    replace (cf_mul A p2 exc - RtoC (d1 * d2) * ip * exx)%C with ((cf_mul A p2 exc - p2 * exc) + (p2 - RtoC (d1 * d2) * ip) * exc + RtoC (d1 * d2) * ip * (exc - exx))%C by ring.
    eapply Rle_trans; [apply Cmod_triangle|]. eapply Rle_trans; [apply Rplus_le_compat_r, Cmod_triangle|]. rewrite !Cmod_mult, Cmod_R, Hip. fold q.
    pose proof (cmul_err p2 exc) as E. apply (Rmult_le_compat_l _ _ _ u0) in M2.
    assert (Cmod (p2 - RtoC (d1 * d2) * ip)%C * Cmod exc <= ((112 / 10) * (u * q) + ei * q + 17 * eta) * (11 / 10)) by (apply Rmult_le_compat; try apply Cmod_ge_0; assumption).
    assert (q * 1 * Cmod (exc - exx)%C <= q * 1 * ex) by (apply Rmult_le_compat_l; lra). lra.
  Qed.

  (** ** One value *)
  Variables (F : ffts) (L n : Z) (eps : R).
  Hypothesis HL : (1 <= L)%Z.
  Hypothesis Hn : (0 < n)%Z.
  Hypothesis HB : fbound u L <= / 10.
  Hypothesis HE : IZR (2 * L) * eta <= u.
  Hypothesis Heps : 0 <= eps <= / 20.
  Hypothesis HF : irfft_accurate (f_irfft F) L n eps.
  Hypothesis HI : ipow_accurate (f_ipow F) (2 * L) eps.
  Definition kbound : R := 900 * u * IZR (L * (2 * L + 3)) + 8 * eps.
  Lemma uL : u * IZR L * 10000 <= 1 /\ 1 <= IZR L.
  Proof.
    assert (L1 : 1 <= IZR L) by (apply IZR_le; lia). split; [|exact L1]. unfold fbound in HB. rewrite mult_IZR, plus_IZR, mult_IZR in HB.
    assert (0 <= u * IZR L) by (apply Rmult_le_pos; lra). nra.
  Qed.
  Lemma half_bound l : (0 <= l < L)%Z -> (422 / 100) * ebound l + 132 * (u * IZR L) <= 900 * u * IZR (L * (2 * L + 3)) /\ ebound l <= 11 / 100.
  Proof.
    intros Hl. destruct uL as [_ L1]. unfold ebound. pose proof HB as HB'. unfold fbound in *. rewrite !mult_IZR, !plus_IZR, !mult_IZR in *.
    assert (l0 : 0 <= IZR l) by (apply IZR_le; lia). assert (l1 : IZR l + 1 <= IZR L) by (rewrite <- plus_IZR; apply IZR_le; lia).
    set (x := IZR l) in *. set (y := IZR L) in *.
    assert (E1 : x * (2 * x + 3) <= 2 * (y * y) - y) by nra. assert (E2 : (x + 1) * (2 * x + 1) <= 2 * (y * y) - y) by nra.
    apply (Rmult_le_compat_l _ _ _ u0) in E1. apply (Rmult_le_compat_l _ _ _ u0) in E2.
    assert (0 <= u * y) by (apply Rmult_le_pos; lra). assert (0 <= u * (y * y)) by (apply Rmult_le_pos; [lra|]; nra). split; lra.
  Qed.

  Section Value.
    Variables (l spin m : Z) (a : ndarray R) (th0 : R) (t : Z).
    Hypothesis Hl : (0 <= l < L)%Z.
    Hypothesis Hm : (- L < m < L)%Z.
    Hypothesis Hs : (Z.abs spin < L)%Z.
    Hypothesis Ha : fholds L l (fdiv A (fpi A) 2) a (fbound u l).
    Hypothesis Hth : Rabs th0 <= 41 / 10.
    Hypothesis Ht : (0 <= t < n)%Z.
    Let d1 k := get a [k + L - 1; m + L - 1]%Z.
    Let d2 k := get a [k + L - 1; - spin + L - 1]%Z.
    Definition fterm (k : Z) : C :=
      cf_mul A (cf_mul A (cf_mul A (RtoC (d1 k)) (RtoC (d2 k))) (f_ipow F (- spin - m))) (pf_exp A k th0).
    Let w1 k := wigner_d l k m (PI / 2).
    Let w2 k := wigner_d l k (- spin) (PI / 2).
    Let tau k := (RtoC (w1 k * w2 k) * ipow (- spin - m) * cis (IZR k * th0))%C.
    Variable v : vec C.
    Hypothesis Hv : vlen v = L.
    Hypothesis Vv : forall k, (0 <= k < L)%Z -> vat v k = fterm k.

    Lemma value_near : (Z.abs m <= l)%Z -> (Z.abs spin <= l)%Z ->
      Rabs (vat (f_irfft F v n) t - wigner_d l m (- spin) (th0 + 2 * PI * IZR t / IZR n)) <= kbound.
    Proof.
      intros Am As. specialize (HF v Hv t Ht). destruct uL as [UL L1]. destruct (half_bound l Hl) as [KB EB].
      pose proof (ebound_nonneg l ltac:(lia)) as E0. set (e := ebound l) in *.
      destruct (prod_sums L w1 d1 w2 d2 e E0 (wigner_col L l m (PI / 2) Hl Am) (wigner_col L l (- spin) (PI / 2) Hl ltac:(lia))
        (col_err L l a m Hl Am Ha) (col_err L l a (- spin) Hl ltac:(lia) Ha)) as [Q P].
      set (rho := 20 * u + 2 * eps + 20 * (u * IZR L)).
      assert (UL0 : 0 <= u * IZR L) by (apply Rmult_le_pos; lra). assert (U1 : u * 1 <= u * IZR L) by (now apply Rmult_le_compat_l).
      assert (TN : forall k, (0 <= k < L)%Z -> Cmod (vat v k - RtoC (d1 k * d2 k) * ipow (- spin - m) * cis (IZR k * th0))%C <= rho * Rabs (d1 k * d2 k) + 30 * eta).
      { intros k Hk. rewrite Vv by exact Hk. unfold fterm, rho. apply term_near.
        - lra.
        - lra.
        - apply Cmod_cis.
        - apply Cmod_cis.
        - apply HI. lia.
        - apply exp_err; try assumption. lia. }
      assert (TT : forall k, (0 <= k < L)%Z -> Cmod (vat v k - tau k)%C <= rho * Rabs (d1 k * d2 k) + 30 * eta + Rabs (d1 k * d2 k - w1 k * w2 k)).
      { intros k Hk. replace (vat v k - tau k)%C with ((vat v k - RtoC (d1 k * d2 k) * ipow (- spin - m) * cis (IZR k * th0))
          + RtoC (d1 k * d2 k - w1 k * w2 k) * ipow (- spin - m) * cis (IZR k * th0))%C by (unfold tau; rewrite RtoC_minus; ring).
        eapply Rle_trans; [apply Cmod_triangle|]. rewrite !Cmod_mult, Cmod_R. unfold ipow. rewrite !Cmod_cis. specialize (TN k Hk). unfold ipow in TN. lra. }
      assert (TS : forall k, (0 <= k < L)%Z -> Cmod (vat v k) <= (1 + rho) * Rabs (d1 k * d2 k) + 30 * eta).
      { intros k Hk. replace (vat v k) with (RtoC (d1 k * d2 k) * ipow (- spin - m) * cis (IZR k * th0) + (vat v k - RtoC (d1 k * d2 k) * ipow (- spin - m) * cis (IZR k * th0)))%C by ring.
        eapply Rle_trans; [apply Cmod_triangle|]. rewrite !Cmod_mult, Cmod_R. unfold ipow at 1. rewrite !Cmod_cis. specialize (TN k Hk). lra. }
      rewrite mult_IZR in HE.
      assert (R0 : 0 <= rho <= 13 / 100) by (unfold rho; lra).
      set (SP := rsum (zrange 0 L) (fun k => Rabs (d1 k * d2 k))) in *.
      assert (SP0 : 0 <= SP) by (apply rs_nonneg; intros; apply Rabs_pos). assert (SP1 : SP <= 124 / 100) by nra.
      assert (SQ : rsum (zrange 0 L) (fun k => Rabs (d1 k * d2 k - w1 k * w2 k)) <= (211 / 100) * e) by nra.
      assert (ST : rsum (zrange 0 L) (fun k => Cmod (vat v k - tau k)%C) <= rho * (124 / 100) + 15 * u + (211 / 100) * e).
      { eapply Rle_trans; [apply rr_le; exact TT|]. rewrite !rs_plus, rs_scal_l, sum_const by lia. fold SP.
        assert (rho * SP <= rho * (124 / 100)) by (apply Rmult_le_compat_l; lra). lra. }
      assert (SS : rsum (zrange 0 L) (fun k => Cmod (vat v k)) <= 15 / 10).
      { eapply Rle_trans; [apply rr_le; exact TS|]. rewrite !rs_plus, rs_scal_l, sum_const by lia. fold SP.
        assert ((1 + rho) * SP <= (113 / 100) * (124 / 100)) by (apply Rmult_le_compat; lra). lra. }
      (* the exact value *)
      set (x := th0 + 2 * PI * IZR t / IZR n).
      assert (EX : wigner_d l m (- spin) x = Re (tau 0) + 2 * rsum (zrange 1 L) (fun k => Re (tau k * cis (2 * PI * IZR k * IZR t / IZR n))%C)).
      { assert (XT : forall k, (tau k * cis (2 * PI * IZR k * IZR t / IZR n))%C = wterm l m (- spin) x k).
        { intros k. unfold x. rewrite <- (xterm_wterm L) by exact Hn. unfold xterm, tau, root, w1, w2. rewrite RtoC_mult, mult_IZR. do 3 f_equal. ring. }
        rewrite (wigner_half_sum l m (- spin) x L) by lia. f_equal.
        - rewrite <- XT. replace (2 * PI * 0 * IZR t / IZR n) with 0 by (unfold Rdiv; ring). rewrite cis_0, Cmult_1_r. reflexivity.
        - f_equal. apply rr_ext. intros k Hk. rewrite XT. destruct (Z.leb_spec k l); [reflexivity|]. rewrite wterm_out by lia. reflexivity. }
      rewrite EX. set (dv := Re (vat v 0) + 2 * rsum (zrange 1 L) (fun k => Re (vat v k * cis (2 * PI * IZR k * IZR t / IZR n))%C)) in *.
      assert (S1 : Cmod (vat v 0) + 2 * rsum (zrange 1 L) (fun k => Cmod (vat v k)) <= 2 * rsum (zrange 0 L) (fun k => Cmod (vat v k))).
      { rewrite (rr_cons 0 L) by lia. change (0 + 1)%Z with 1%Z. pose proof (Cmod_ge_0 (vat v 0)). lra. }
      set (ev := Re (tau 0) + 2 * rsum (zrange 1 L) (fun k => Re (tau k * cis (2 * PI * IZR k * IZR t / IZR n))%C)).
      assert (S2 : Rabs (dv - ev) <= 2 * rsum (zrange 0 L) (fun k => Cmod (vat v k - tau k)%C)).
      { rewrite (rr_cons 0 L) by lia. change (0 + 1)%Z with 1%Z.
        assert (RE : forall z w : C, Re z - Re w = Re (z - w)%C) by (intros [] []; unfold Cminus, Cplus, Copp; cbn; ring).
        replace (dv - ev) with (Re (vat v 0 - tau 0)%C + 2 * rsum (zrange 1 L) (fun k => Re ((vat v k - tau k) * cis (2 * PI * IZR k * IZR t / IZR n))%C)).
        - eapply Rle_trans; [apply Rabs_triang|]. rewrite (Rabs_mult 2), (Rabs_right 2) by lra. pose proof (Re_le (vat v 0 - tau 0)%C) as W0.
          pose proof (rs_abs (zrange 1 L) (fun k => Re ((vat v k - tau k) * cis (2 * PI * IZR k * IZR t / IZR n))%C)) as W1.
          assert (W2 : rsum (zrange 1 L) (fun k => Rabs (Re ((vat v k - tau k) * cis (2 * PI * IZR k * IZR t / IZR n))%C)) <= rsum (zrange 1 L) (fun k => Cmod (vat v k - tau k)%C)).
          { apply rr_le. intros k Hk. eapply Rle_trans; [apply Re_le|]. rewrite Cmod_mult, Cmod_cis. lra. }
          pose proof (Cmod_ge_0 (vat v 0 - tau 0)%C). lra.
        - unfold dv, ev. rewrite <- RE.
          rewrite (rr_ext 1 L (fun k => Re ((vat v k - tau k) * cis (2 * PI * IZR k * IZR t / IZR n))%C)
             (fun k => Re (vat v k * cis (2 * PI * IZR k * IZR t / IZR n))%C + (-1) * Re (tau k * cis (2 * PI * IZR k * IZR t / IZR n))%C)).
          + rewrite rs_plus, rs_scal_l. ring.
          + intros k Hk. replace ((vat v k - tau k) * cis (2 * PI * IZR k * IZR t / IZR n))%C with (vat v k * cis (2 * PI * IZR k * IZR t / IZR n) - tau k * cis (2 * PI * IZR k * IZR t / IZR n))%C by ring.
            rewrite <- RE. ring. }
      replace (vat (f_irfft F v n) t - ev) with ((vat (f_irfft F v n) t - dv) + (dv - ev)) by ring. eapply Rle_trans; [apply Rabs_triang|].
      assert (S3 : eps * (Cmod (vat v 0) + 2 * rsum (zrange 1 L) (fun k => Cmod (vat v k))) <= eps * 3) by (apply Rmult_le_compat_l; lra).
      unfold kbound, rho in *. lra.
    Qed.
    (** exactly zero where the exact value is *)
    Lemma value_zero : (l < Z.abs m \/ l < Z.abs spin)%Z -> vat (f_irfft F v n) t = 0.
    Proof.
      intros Ho. specialize (HF v Hv t Ht). destruct Ha as (_ & HO & _).
      assert (C0 : forall z : C, cf_mul A (RtoC 0) z = RtoC 0).
      { intros z. unfold cf_mul, RtoC. cbn [fst snd]. rewrite !(proj1 (proj1 HZ _)), Ropp_0, (proj2 HZ). reflexivity. }
      assert (C1 : forall z : C, cf_mul A z (RtoC 0) = RtoC 0).
      { intros z. unfold cf_mul, RtoC. cbn [fst snd]. rewrite !(proj2 (proj1 HZ _)), Ropp_0, (proj2 HZ). reflexivity. }
      assert (T0 : forall k, (0 <= k < L)%Z -> vat v k = RtoC 0).
      { intros k Hk. rewrite Vv by exact Hk. unfold fterm, d1, d2. destruct (Z_lt_dec l (Z.abs m)).
        - rewrite (HO k m) by lia. now rewrite !C0.
        - rewrite (HO k (- spin)%Z) by lia. now rewrite C1, !C0. }
      rewrite T0 in HF by lia. rewrite !(rr_0 1 L) in HF.
      - rewrite Cmod_0 in HF. cbn [Re RtoC fst] in HF. set (z := vat (f_irfft F v n) t) in *.
        assert (Q : Rabs (z - (0 + 2 * 0)) <= 0) by lra. pose proof (Rabs_pos (z - (0 + 2 * 0))) as P.
        assert (R : Rabs (z - (0 + 2 * 0)) = 0) by lra. destruct (Req_dec (z - (0 + 2 * 0)) 0) as [|N]; [lra|]. now apply Rabs_no_R0 in N.
      - intros k Hk. rewrite T0 by lia. apply Cmod_0.
      - intros k Hk. rewrite T0 by lia. rewrite Cmult_0_l. reflexivity.
    Qed.
  End Value.

  Lemma fourier_near name ths T spin : kernel_nsamps name T = n -> vlen ths = T -> (0 < T <= n)%Z -> (Z.abs spin < L)%Z ->
    Rabs (vat ths 0) <= 41 / 10 ->
    exists a, pf_fourier A F name ths L spin 0 (2 * L - 1) = Ok a /\
      dl_near a T L spin (fun t => vat ths 0 + 2 * PI * IZR t / IZR n) (fun _ => kbound).
  Proof.
    intros EN HV HT Hs Hth. unfold pf_fourier. rewrite HV, EN. cbv zeta. destruct half_pi as (_ & HP & HP4). set (b := fdiv A (fpi A) 2) in *.
    assert (HP5 : Rabs b <= 5) by (rewrite Rabs_right by lra; lra).
    assert (HB1 : fbound u L <= 1) by lra.
    destruct (foldM_inv (fun el st =>
        (if (el =? 0)%Z then arr_eq (fst st) (zeros 0%R [2 * L - 1; 2 * L - 1]%Z) else fholds L (el - 1) b (fst st) (fbound u (el - 1))) /\
        shape (snd st) = [T; L; 2 * L - 1]%Z /\ forall t l i, (0 <= t < T)%Z -> (0 <= l < el)%Z -> (0 <= i < 2 * L - 1)%Z ->
          if adm_b spin l (i - (L - 1)) then Rabs (at3 (snd st) t l i - wigner_d l (i - (L - 1)) (- spin) (vat ths 0 + 2 * PI * IZR t / IZR n)) <= kbound
          else at3 (snd st) t l i = 0)
      (fun st el =>
        let* delta := rf_full A (fst st) b L el in
        let* th0 := vread ths 0 in
        let* temp := pf_slice A F delta th0 L spin 0 (2 * L - 1) in
        let* dl := mid_set (snd st) el (mat T (dim1 (slice2 temp (L - 1) (dim0 temp) 0 (dim1 temp)))
           (fun t i => vat (f_irfft F (col (slice2 temp (L - 1) (dim0 temp) 0 (dim1 temp)) i) n) t)) in
        Ok (delta, dl)) 0 L (zeros 0%R [2 * L - 1; 2 * L - 1]%Z, zeros 0%R [T; L; 2 * L - 1]%Z)) as (st & E & H1 & H2 & H3).
    - lia.
    - cbn [fst snd]. split; [|split; [reflexivity|intros; lia]]. cbn [Z.eqb]. apply arr_eq_refl.
    - intros el [dls dl] Hel (H1 & H2 & H3). cbn [fst snd] in *.
      assert (SH : shape dls = [2 * L - 1; 2 * L - 1]%Z) by (destruct (el =? 0)%Z; exact (proj1 H1)).
      unfold rf_full. destruct (shape_dims _ _ SH) as [D0 D1]. unfold rf_arg_checks. rewrite D0, D1.
      replace ((0 <=? el) && (el <? L))%Z with true by lia. rewrite !Z.eqb_refl. cbn [negb andb].
      destruct (Rle_dec 0 b); [|lra]. destruct (Rle_dec b (fpi A)); [|lra]. cbn [bind].
      destruct (fstep_all A u eta L b el dls HA Hel HB1 HE HP5 H1) as (delta & -> & Ho). cbn [bind].
      assert (RD : vread ths 0 = Ok (vat ths 0)) by (unfold vread; rewrite HV, norm_in by lia; reflexivity).
      rewrite RD. cbn [bind]. unfold pf_slice. rewrite norm_in by lia. cbn [bind].
      match goal with |- context [slice2 ?x _ _ _ _] => set (temp := x) end.
      assert (MT : is_mat temp (2 * L - 1) (2 * L - 1) (fun r i => cf_mul A (cf_mul A (cf_mul A (RtoC (at2 delta r (0 + i)%Z)) (RtoC (at2 delta r (L - 1 - spin)%Z)))
         (f_ipow F (- spin - (0 + i - (L - 1))))) (pf_exp A (r - (L - 1)) (vat ths 0)))) by (split; reflexivity).
      assert (M1 := MatFacts.slice2_ok _ _ _ _ (L - 1) (2 * L - 1) 0 (2 * L - 1) MT ltac:(lia) ltac:(lia) ltac:(lia) ltac:(lia) ltac:(lia) ltac:(lia)).
      rewrite (is_mat_dim0 _ _ _ _ MT), (is_mat_dim1 _ _ _ _ MT). rewrite (is_mat_dim1 _ _ _ _ M1).
      set (half := slice2 temp (L - 1) (2 * L - 1) 0 (2 * L - 1)) in *.
      assert (MD : is_mat (mat T (2 * L - 1 - 0) (fun t i => vat (f_irfft F (col half i) n) t)) T (2 * L - 1) (fun t i => vat (f_irfft F (col half i) n) t)).
      { replace (2 * L - 1 - 0)%Z with (2 * L - 1)%Z by lia. apply is_mat_mat. }
      destruct (mid_set_ok dl _ T L (2 * L - 1) _ _ el (conj H2 (fun _ _ _ _ _ _ => eq_refl)) MD Hel) as (dl' & -> & Hd). cbn [bind].
      eexists. split; [reflexivity|]. cbn [fst snd]. split; [|split; [apply Hd|]].
      + replace (el + 1 =? 0)%Z with false by lia. replace (el + 1 - 1)%Z with el by lia. exact Ho.
      + intros t l i Ht Hl Hi. rewrite (proj2 Hd) by lia. destruct (Z.eqb_spec l el) as [->|].
        * assert (VL : vlen (col half i) = L) by (cbn [col vlen]; rewrite (is_mat_dim0 _ _ _ _ M1); lia).
          assert (VV : forall k, (0 <= k < L)%Z -> vat (col half i) k = fterm spin (i - (L - 1)) delta (vat ths 0) k).
          { intros k Hk. cbn [col vat]. etransitivity; [exact (proj2 M1 k i ltac:(lia) ltac:(lia))|]. cbv beta. unfold fterm, at2.
            replace (L - 1 + k)%Z with (k + L - 1)%Z by lia. replace (0 + (0 + i))%Z with (i - (L - 1) + L - 1)%Z by lia.
            replace (L - 1 - spin)%Z with (- spin + L - 1)%Z by lia. replace (i - (L - 1) + L - 1 - (L - 1))%Z with (i - (L - 1))%Z by lia.
            replace (k + L - 1 - (L - 1))%Z with k by lia. reflexivity. }
          destruct (adm_b spin el (i - (L - 1))) eqn:EA; unfold adm_b in EA.
          -- apply (value_near el spin (i - (L - 1)) delta (vat ths 0) t Hel ltac:(lia) Hs Ho Hth ltac:(lia) (col half i) VL VV); lia.
          -- apply (value_zero el spin (i - (L - 1)) delta (vat ths 0) t Hel ltac:(lia) Hs Ho ltac:(lia) (col half i) VL VV); lia.
        * apply H3; lia.
    - rewrite E. cbn [bind]. exists (snd st). split; [reflexivity|]. split; [exact H2|]. intros. apply H3; lia.
  Qed.
End Float.
