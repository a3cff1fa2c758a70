(** Calculus of the Wigner d-functions: derivative, unitarity, orthogonality. *)
From Coq Require Import Reals Lia Lra ZArith List Psatz ZifyBool.
From Coquelicot Require Import Coquelicot.
From Verif Require Import Lib.Py Lib.PyFacts Lib.Sums Lib.Cplx Spec.WignerSpec Proofs.WignerGen Proofs.WignerDh.
Open Scope Z_scope.

Lemma is_derive_eq (f : R -> R) (x d d' : R) : is_derive f x d -> d = d' -> is_derive f x d'.
Proof. now intros H <-. Qed.

Lemma RInt_extR (f g : R -> R) (a b : R) : (forall x, f x = g x) -> RInt f a b = RInt g a b.
Proof. intros H. apply RInt_ext. intros; apply H. Qed.

Lemma itlin_derive n (a b : R -> R) da db (p : R -> Z -> R) dp x :
  is_derive a x da -> is_derive b x db -> (forall k, is_derive (fun y => p y k) x (dp k)) ->
  forall k, is_derive (fun y => itlin n (a y) (b y) (p y) k) x
    (itlin n (a x) (b x) dp k + INR n * lin da db (itlin (pred n) (a x) (b x) (p x)) k)%R.
Proof.
  intros Ha Hb Hp. induction n; intros k; cbn [itlin].
  - change (INR 0) with 0%R. rewrite Rmult_0_l, Rplus_0_r. apply Hp.
  - unfold lin at 1.
    match goal with |- is_derive _ _ ?X => replace X with
      ((da * itlin n (a x) (b x) (p x) (k - 1)
        + a x * (itlin n (a x) (b x) dp (k - 1) + INR n * lin da db (itlin (pred n) (a x) (b x) (p x)) (k - 1)))
       + (db * itlin n (a x) (b x) (p x) k
        + b x * (itlin n (a x) (b x) dp k + INR n * lin da db (itlin (pred n) (a x) (b x) (p x)) k)))%R end.
    + apply (is_derive_plus (V := R_NormedModule)); apply (is_derive_mult (K := R_AbsRing)); auto; intros; apply Rmult_comm.
    + rewrite S_INR. destruct n; [cbn; unfold lin; ring|]. cbn [pred itlin]. rewrite S_INR. unfold lin. ring.
Qed.

Lemma cos_half_derive x : is_derive (fun y => cos (y / 2)) x (- (sin (x / 2) / 2))%R.
Proof. auto_derive; [trivial|]. unfold Rdiv. ring. Qed.
Lemma sin_half_derive x : is_derive (fun y => sin (y / 2)) x (cos (x / 2) / 2)%R.
Proof. auto_derive; [trivial|]. unfold Rdiv. ring. Qed.

Definition D (j k i : Z) (x : R) : R := dh (cos (x / 2)) (sin (x / 2)) j k i.

Lemma cs_one x : (cos x * cos x + sin x * sin x = 1)%R.
Proof. pose proof (sin2_cos2 x). unfold Rsqr in H. lra. Qed.

Lemma cos_half_double x : (cos (x / 2) * cos (x / 2) - sin (x / 2) * sin (x / 2) = cos x)%R.
Proof. rewrite <- cos_plus. f_equal. lra. Qed.
Lemma sin_half_double x : (2 * cos (x / 2) * sin (x / 2) = sin x)%R.
Proof. replace x with (x / 2 + x / 2)%R at 3 by lra. rewrite sin_plus. ring. Qed.

Lemma gen_derive i b k x : 0 <= i -> 0 <= b ->
  is_derive (fun y => gen (cos (y / 2)) (sin (y / 2)) i b k) x
   ((IZR (k + 1) * gen (cos (x / 2)) (sin (x / 2)) i b (k + 1)
     - IZR (i + b - k + 1) * gen (cos (x / 2)) (sin (x / 2)) i b (k - 1)) / 2)%R.
Proof.
  intros Hi Hb. unfold gen at 1.
  set (c := cos (x / 2)). set (s := sin (x / 2)).
  pose proof (itlin_derive (Z.to_nat i) (fun y => cos (y / 2)) (fun y => sin (y / 2)) _ _
    (fun y => itlin (Z.to_nat b) (- sin (y / 2)) (cos (y / 2)) delta0) _ x
    (cos_half_derive x) (sin_half_derive x)
    (itlin_derive (Z.to_nat b) (fun y => - sin (y / 2))%R (fun y => cos (y / 2)) (- (cos (x / 2) / 2))%R _
      (fun _ => delta0) (fun _ => 0%R) x
      (is_derive_opp (V := R_NormedModule) _ _ _ (sin_half_derive x)) (cos_half_derive x)
      (fun k => is_derive_const (V := R_NormedModule) (delta0 k) x)) k) as G.
  cbv beta in G. fold c s in G.
  apply (is_derive_eq _ _ _ _ G).
  clear G.
  rewrite (itlin_ext (Z.to_nat i) c s _ (fun q => (IZR b * lin (- (c / 2)) (- (s / 2)) (itlin (pred (Z.to_nat b)) (- s) c delta0) q)%R)).
  2:{ intros q. rewrite itlin_zero by reflexivity. rewrite INR_toZ by lia. ring. }
  rewrite itlin_scal, itlin_lin, INR_toZ by lia.
  replace (pred (Z.to_nat b)) with (Z.to_nat (b - 1)) by lia.
  replace (pred (Z.to_nat i)) with (Z.to_nat (i - 1)) by lia.
  change (IZR b * lin (- (c / 2)) (- (s / 2)) (gen c s i (b - 1)) k
   + IZR i * lin (- (s / 2)) (c / 2) (gen c s (i - 1) b) k
   = (IZR (k + 1) * gen c s i b (k + 1) - IZR (i + b - k + 1) * gen c s i b (k - 1)) / 2)%R.
  assert (cs1 : (c * c + s * s = 1)%R) by apply cs_one.
  pose proof (gen_lower c s cs1 i b k Hi Hb) as A1. pose proof (gen_raise c s cs1 i b k Hi Hb) as A2.
  rewrite gen_R2 in A1 by lia. rewrite gen_R1 in A2 by lia. unfold lin.
  transitivity ((IZR i * (- s * gen c s (i - 1) b (k - 1) + c * gen c s (i - 1) b k)
     - IZR b * (c * gen c s i (b - 1) (k - 1) + s * gen c s i (b - 1) k)) / 2)%R; [field|].
  rewrite A1, A2.
  transitivity ((c * c + s * s) * (IZR (k + 1) * gen c s i b (k + 1) - IZR (i + b - k + 1) * gen c s i b (k - 1)) / 2)%R; [field|].
  rewrite cs1. field.
Qed.

Lemma D_derive j k i x : 0 <= j -> is_derive (D j k i) x ((ac j k * D j (k + 1) i x - ac j (k - 1) * D j (k - 1) i x) / 2)%R.
Proof.
  intros Hj.
  assert (Z0 : (forall y, D j k i y = 0%R) -> (ac j k * D j (k + 1) i x - ac j (k - 1) * D j (k - 1) i x = 0)%R ->
    is_derive (D j k i) x ((ac j k * D j (k + 1) i x - ac j (k - 1) * D j (k - 1) i x) / 2)%R).
  { intros H1 H2. rewrite H2. apply (is_derive_ext (fun _ => 0%R)); [intros; now rewrite H1|].
    replace (0 / 2)%R with 0%R by lra. apply (is_derive_const (V := R_NormedModule)). }
  destruct (Z_lt_dec i 0). { apply Z0; intros; unfold D; rewrite !dh_out_i by lia; ring. }
  destruct (Z_lt_dec j i). { apply Z0; intros; unfold D; rewrite !dh_out_i by lia; ring. }
  destruct (Z_lt_dec k 0).
  { apply Z0; intros; unfold D; [apply dh_out_k; lia|].
    rewrite (dh_out_k _ _ _ (k - 1)) by lia. destruct (Z.eq_dec k (-1)) as [->|];
      [rewrite ac_out by lia; ring|]. rewrite dh_out_k by lia. ring. }
  destruct (Z_lt_dec j k).
  { apply Z0; intros; unfold D; [apply dh_out_k; lia|].
    rewrite (dh_out_k _ _ _ (k + 1)) by lia. destruct (Z.eq_dec k (j + 1)) as [->|];
      [rewrite (ac_out j (j + 1 - 1)) by lia; ring|]. rewrite dh_out_k by lia. ring. }
  unfold D. rewrite <- up_gen, <- down_gen by lia.
  apply (is_derive_ext (fun y => (nrm j k / nrm j i) * gen (cos (y / 2)) (sin (y / 2)) i (j - i) k)%R).
  { intros y. now rewrite dh_in by lia. }
  pose proof (gen_derive i (j - i) k x ltac:(lia) ltac:(lia)) as G.
  replace (i + (j - i) - k + 1) with (j - k + 1) in G by lia.
  apply (is_derive_scal _ _ (nrm j k / nrm j i)%R) in G.
  apply (is_derive_eq _ _ _ _ G).
  field. apply nrm_neq.
Qed.

Lemma D_Jz j k i x : 0 <= i <= j ->
  (IZR (2 * i - j) * D j k i x = cos x * IZR (2 * k - j) * D j k i x
    + sin x * (ac j (k - 1) * D j (k - 1) i x + ac j k * D j (k + 1) i x))%R.
Proof.
  intros Hi. unfold D. rewrite (dh_Jz _ _ (cs_one (x / 2)) j k i Hi) at 1.
  rewrite cos_half_double, sin_half_double. ring.
Qed.

(** sin * derivative, two forms *)
Lemma D_sin_up j k i x : 0 <= i <= j ->
  (sin x * ((ac j k * D j (k + 1) i x - ac j (k - 1) * D j (k - 1) i x) / 2)
   = sin x * (ac j k * D j (k + 1) i x) - (IZR (2 * i - j) - cos x * IZR (2 * k - j)) / 2 * D j k i x)%R.
Proof. intros Hi. pose proof (D_Jz j k i x Hi). nra. Qed.
Lemma D_sin_down j k i x : 0 <= i <= j ->
  (sin x * ((ac j k * D j (k + 1) i x - ac j (k - 1) * D j (k - 1) i x) / 2)
   = (IZR (2 * i - j) - cos x * IZR (2 * k - j)) / 2 * D j k i x - sin x * (ac j (k - 1) * D j (k - 1) i x))%R.
Proof. intros Hi. pose proof (D_Jz j k i x Hi). nra. Qed.

(** ** unitarity *)
Lemma rsum_derive (l : list Z) (f : Z -> R -> R) (g : Z -> R) (x : R) : (forall k, In k l -> is_derive (f k) x (g k)) ->
  is_derive (fun y => rsum l (fun k => f k y)) x (rsum l g).
Proof.
  induction l as [|k l IH]; intros H.
  - change (is_derive (fun _ => 0%R) x 0%R). apply (is_derive_const (V := R_NormedModule)).
  - change (is_derive (fun y => f k y + rsum l (fun k => f k y))%R x (g k + rsum l g)%R).
    apply (is_derive_plus (V := R_NormedModule)); [apply H; now left|]. apply IH. intros; apply H; now right.
Qed.

Lemma rsum_telescope T a b : a <= b -> rsum (zrange a b) (fun k => (T k - T (k - 1)%Z)%R) = (T (b - 1)%Z - T (a - 1)%Z)%R.
Proof.
  intros H. replace b with (a + (b - a)) by lia. assert (Hn : 0 <= b - a) by lia. revert Hn.
  generalize (b - a). clear. z_ind.
  - rewrite Z.add_0_r, rr_nil by lia. ring.
  - intros n Hn IH. rewrite <- Z.add_1_r, Z.add_assoc, rr_snoc, IH by lia.
    replace (a + n + 1 - 1) with (a + n) by lia. ring.
Qed.

Lemma const_of_derive (f : R -> R) : (forall x, is_derive f x 0%R) -> forall x y, f x = f y.
Proof.
  assert (L : forall f : R -> R, (forall x, is_derive f x 0%R) -> forall x y, (x < y)%R -> f x = f y).
  { intros g H x y Hxy. apply (eq_is_derive g x y); [|exact Hxy]. intros t _. apply H. }
  intros H x y. destruct (Rtotal_order x y) as [h|[->|h]]; [now apply L|reflexivity|symmetry; now apply L].
Qed.

Lemma D_0 j k i : 0 <= i <= j -> D j k i 0 = if k =? i then 1%R else 0%R.
Proof.
  intros. unfold D. replace (0 / 2)%R with 0%R by lra. rewrite cos_0, sin_0. now apply dh_id.
Qed.

Lemma D_cols j i i' x : 0 <= i <= j -> 0 <= i' <= j ->
  rsum (zrange 0 (j + 1)) (fun k => (D j k i x * D j k i' x)%R) = if i =? i' then 1%R else 0%R.
Proof.
  intros Hi Hi'.
  set (G := fun y => rsum (zrange 0 (j + 1)) (fun k => (D j k i y * D j k i' y)%R)).
  assert (HG : forall y, is_derive G y 0%R).
  { intros y. set (T := fun k => (ac j k * (D j (k + 1) i y * D j k i' y + D j k i y * D j (k + 1) i' y) / 2)%R).
    replace 0%R with (rsum (zrange 0 (j + 1)) (fun k => (T k - T (k - 1)%Z)%R)).
    - unfold G. apply (rsum_derive _ (fun k y => (D j k i y * D j k i' y)%R)). intros k Hk.
      pose proof (D_derive j k i y ltac:(lia)) as A. pose proof (D_derive j k i' y ltac:(lia)) as B.
      pose proof (is_derive_mult (K := R_AbsRing) _ _ _ _ _ A B Rmult_comm) as M.
      apply (is_derive_eq _ _ _ _ M).
      unfold plus, mult; cbn -[ac D sin cos Z.add Z.sub Z.mul IZR]. unfold T. replace (k - 1 + 1) with k by lia. field.
    - rewrite rsum_telescope by lia. unfold T. replace (j + 1 - 1) with j by lia.
      rewrite (ac_out j j), (ac_out j (0 - 1)) by lia. unfold Rdiv. ring. }
  change (G x = if i =? i' then 1%R else 0%R). rewrite (const_of_derive G HG x 0).
  unfold G. rewrite (rr_ext _ _ _ (fun k => if k =? i then (if i =? i' then 1%R else 0%R) else 0%R)).
  - rewrite (rr_delta 0 (j + 1) i (fun _ => if i =? i' then 1%R else 0%R)) by lia. reflexivity.
  - intros k Hk. rewrite !D_0 by lia. destruct (Z.eqb_spec k i) as [->|]; [|ring]. destruct (i =? i'); ring.
Qed.

Lemma D_transpose j k i x : 0 <= i <= j -> 0 <= k <= j -> D j k i x = (sgn (k - i) * D j i k x)%R.
Proof. intros. now apply dh_transpose. Qed.

Lemma D_rows j k k' x : 0 <= k <= j -> 0 <= k' <= j ->
  rsum (zrange 0 (j + 1)) (fun i => (D j k i x * D j k' i x)%R) = if k =? k' then 1%R else 0%R.
Proof.
  intros Hk Hk'. rewrite (rr_ext _ _ _ (fun i => ((sgn (k - k')) * (D j i k x * D j i k' x))%R)).
  - rewrite rs_scal_l, D_cols by lia. destruct (Z.eqb_spec k k') as [->|]; [|ring].
    rewrite Z.sub_diag, sgn_0. ring.
  - intros i Hi. rewrite (D_transpose j k i), (D_transpose j k' i) by lia.
    replace (sgn (k - k')) with (sgn (k - i) * sgn (k' - i))%R; [ring|].
    rewrite <- sgn_add. replace (k - i + (k' - i)) with (k - k' + 2 * (k' - i)) by lia.
    rewrite sgn_add, sgn_double. ring.
Qed.

(** ** orthogonality over the colatitude *)
Lemma D_cont j k i x : 0 <= j -> continuous (D j k i) x.
Proof. intros Hj. apply (ex_derive_continuous (V := R_NormedModule)). eexists. apply D_derive, Hj. Qed.

Definition IP (l l' m n : Z) : R :=
  RInt (fun x => (D (2 * l) (l + m) (l + n) x * D (2 * l') (l' + m) (l' + n) x * sin x)%R) 0 PI.

Lemma IP_cont l l' m m' n x : 0 <= l -> 0 <= l' ->
  continuous (fun x => (D (2 * l) (l + m) (l + n) x * D (2 * l') (l' + m') (l' + n) x * sin x)%R) x.
Proof.
  intros. apply (continuous_mult (K := R_AbsRing)); [apply (continuous_mult (K := R_AbsRing)); apply D_cont; lia|].
  apply continuous_sin.
Qed.
Lemma IP_ex l l' m n : 0 <= l -> 0 <= l' ->
  ex_RInt (fun x => (D (2 * l) (l + m) (l + n) x * D (2 * l') (l' + m) (l' + n) x * sin x)%R) 0 PI.
Proof. intros. apply (ex_RInt_continuous (V := R_CompleteNormedModule)). intros; now apply IP_cont. Qed.

Lemma IP_sym l l' m n : IP l l' m n = IP l' l m n.
Proof. unfold IP. apply RInt_extR. intros. ring. Qed.

Definition al (l m : Z) : R := ac (2 * l) (l + m).
Lemma al_sq l m : - l - 1 <= m <= l -> (al l m * al l m = IZR (l * (l + 1) - m * (m + 1)))%R.
Proof. intros H. unfold al. rewrite ac_sq by lia. rewrite <- mult_IZR. f_equal. ring. Qed.

Lemma IP_ladder l l' m n : 0 <= l -> 0 <= l' -> Z.abs n <= l -> Z.abs n <= l' ->
  (al l m * IP l l' (m + 1) n = al l' m * IP l l' m n)%R.
Proof.
  intros Hl Hl' Hn Hn'.
  set (P := fun x => (sin x * (D (2 * l) (l + m) (l + n) x * D (2 * l') (l' + (m + 1)) (l' + n) x))%R).
  set (P' := fun x => (al l m * (D (2 * l) (l + (m + 1)) (l + n) x * D (2 * l') (l' + (m + 1)) (l' + n) x * sin x)
    - al l' m * (D (2 * l) (l + m) (l + n) x * D (2 * l') (l' + m) (l' + n) x * sin x))%R).
  assert (HP : forall x, is_derive P x (P' x)).
  { intros x. pose proof (D_derive (2 * l) (l + m) (l + n) x ltac:(lia)) as A.
    pose proof (D_derive (2 * l') (l' + (m + 1)) (l' + n) x ltac:(lia)) as B.
    pose proof (is_derive_mult (K := R_AbsRing) _ _ _ _ _ A B Rmult_comm) as M.
    pose proof (is_derive_mult (K := R_AbsRing) _ _ _ _ _ (is_derive_sin x) M Rmult_comm) as N.
    apply (is_derive_eq _ _ _ _ N).
    unfold plus, mult; cbn -[ac D sin cos Z.add Z.sub Z.mul IZR].
    pose proof (D_sin_up (2 * l) (l + m) (l + n) x ltac:(lia)) as U.
    pose proof (D_sin_down (2 * l') (l' + (m + 1)) (l' + n) x ltac:(lia)) as V.
    rewrite Rmult_plus_distr_l.
    match goal with |- (?a + (sin x * (?b * ?c) + sin x * (?e * ?f)))%R = _ =>
      transitivity (a + ((sin x * b) * c + e * (sin x * f)))%R; [ring|] end.
    rewrite U, V. unfold P', al.
    replace (2 * (l + n) - 2 * l) with (2 * n) by lia. replace (2 * (l' + n) - 2 * l') with (2 * n) by lia.
    replace (2 * (l + m) - 2 * l) with (2 * m) by lia.
    replace (2 * (l' + (m + 1)) - 2 * l') with (2 * m + 2) by lia.
    replace (l' + (m + 1) - 1) with (l' + m) by lia. replace (l + m + 1) with (l + (m + 1)) by lia.
    rewrite plus_IZR, !mult_IZR. field. }
  assert (I : is_RInt P' 0 PI (P PI - P 0)%R).
  { apply (is_RInt_derive (V := R_CompleteNormedModule) P P'); intros x Hx; [apply HP|].
    unfold P'. apply (continuous_minus (V := R_NormedModule));
      apply (continuous_scal_r (K := R_AbsRing) (V := R_NormedModule)); apply IP_cont; lia. }
  assert (E0 : (P PI - P 0 = 0)%R) by (unfold P; rewrite sin_PI, sin_0; ring).
  rewrite E0 in I.
  assert (J : is_RInt P' 0 PI (al l m * IP l l' (m + 1) n - al l' m * IP l l' m n)%R).
  { apply (is_RInt_minus (V := R_NormedModule)); apply (is_RInt_scal (V := R_NormedModule));
    apply (RInt_correct (V := R_CompleteNormedModule)), IP_ex; lia. }
  apply (is_RInt_unique (V := R_CompleteNormedModule)) in I. apply (is_RInt_unique (V := R_CompleteNormedModule)) in J.
  rewrite I in J. lra.
Qed.

Lemma IP_diff l l' m n : 0 <= l -> 0 <= l' -> Z.abs n <= l -> Z.abs n <= l' -> Z.abs m <= l -> Z.abs m <= l' ->
  l <> l' -> IP l l' m n = 0%R.
Proof.
  intros Hl Hl' Hn Hn' Hm Hm' Hne.
  pose proof (IP_ladder l l' m n Hl Hl' Hn Hn') as A. pose proof (IP_ladder l' l m n Hl' Hl Hn' Hn) as B.
  rewrite (IP_sym l' l), (IP_sym l' l) in B.
  pose proof (al_sq l m ltac:(lia)) as S1. pose proof (al_sq l' m ltac:(lia)) as S2.
  assert (E : ((IZR (l * (l + 1) - m * (m + 1)) - IZR (l' * (l' + 1) - m * (m + 1))) * IP l l' m n = 0)%R).
  { rewrite <- S1, <- S2. 
    transitivity (al l m * (al l m * IP l l' m n) - al l' m * (al l' m * IP l l' m n))%R; [ring|].
    rewrite <- A, <- B. ring. }
  apply Rmult_integral in E. destruct E as [E|E]; [exfalso|exact E].
  rewrite <- minus_IZR in E. apply eq_IZR in E. nia.
Qed.

Lemma IP_step l m n : 0 <= l -> Z.abs n <= l -> - l <= m < l -> IP l l (m + 1) n = IP l l m n.
Proof.
  intros Hl Hn Hm. pose proof (IP_ladder l l m n Hl Hl Hn Hn) as A.
  apply Rmult_eq_reg_l in A; [exact A|]. intros E. pose proof (al_sq l m ltac:(lia)) as S1.
  rewrite E in S1. assert (X : IZR (l * (l + 1) - m * (m + 1)) = 0%R) by lra. apply eq_IZR in X. nia.
Qed.

Lemma IP_const l m n : 0 <= l -> Z.abs n <= l -> Z.abs m <= l -> IP l l m n = IP l l (- l) n.
Proof.
  intros Hl Hn Hm. replace m with (- l + (m + l)) by lia. assert (H1 : 0 <= m + l) by lia. assert (H2 : m + l <= 2 * l) by lia.
  revert H1 H2. generalize (m + l). z_ind; [intros; f_equal; lia|]. intros k Hk IH Hle.
  rewrite <- Z.add_1_r, Z.add_assoc, IP_step by lia. apply IH. lia.
Qed.

Lemma RInt_rsum (f : Z -> R -> R) (l : list Z) a b : (forall k, In k l -> ex_RInt (f k) a b) ->
  is_RInt (fun x => rsum l (fun k => f k x)) a b (rsum l (fun k => RInt (f k) a b)).
Proof.
  induction l as [|k l IH]; intros H.
  - change (is_RInt (fun _ => 0%R) a b 0%R). pose proof (is_RInt_const (V := R_NormedModule) a b 0%R) as K.
    assert (E : scal (b - a)%R (0%R : R_NormedModule) = 0%R) by apply Rmult_0_r. rewrite E in K. exact K.
  - change (is_RInt (fun x => f k x + rsum l (fun k => f k x))%R a b (RInt (f k) a b + rsum l (fun k => RInt (f k) a b))%R).
    apply (is_RInt_plus (V := R_NormedModule)).
    + apply (RInt_correct (V := R_CompleteNormedModule)), H. now left.
    + apply IH. intros; apply H; now right.
Qed.

Lemma rsum_const (l : list Z) x : rsum l (fun _ => x) = (INR (List.length l) * x)%R.
Proof.
  induction l; [cbn; ring|]. change (rsum (a :: l) (fun _ => x)) with (x + rsum l (fun _ => x))%R.
  rewrite IHl. cbn [List.length]. rewrite S_INR. ring.
Qed.

Lemma RInt_sin : is_RInt sin 0 PI 2%R.
Proof.
  replace 2%R with (minus (- cos PI)%R (- cos 0)%R).
  - apply (is_RInt_derive (V := R_CompleteNormedModule) (fun x => - cos x)%R sin).
    + intros. auto_derive; [trivial|ring].
    + intros. apply continuous_sin.
  - rewrite cos_PI, cos_0. unfold minus, plus, opp; cbn. ring.
Qed.

Lemma IP_same l m n : 0 <= l -> Z.abs n <= l -> Z.abs m <= l -> IP l l m n = (2 / IZR (2 * l + 1))%R.
Proof.
  intros Hl Hn Hm.
  assert (S : rsum (zrange (- l) (l + 1)) (fun m => IP l l m n) = 2%R).
  { pose proof (RInt_rsum (fun m x => (D (2 * l) (l + m) (l + n) x * D (2 * l) (l + m) (l + n) x * sin x)%R)
      (zrange (- l) (l + 1)) 0 PI (fun k _ => IP_ex l l k n Hl Hl)) as R1.
    apply (is_RInt_unique (V := R_CompleteNormedModule)) in R1. unfold IP. rewrite <- R1.
    rewrite <- (is_RInt_unique (V := R_CompleteNormedModule) _ _ _ _ RInt_sin).
    apply RInt_extR. intros x.
    rewrite rs_scal_r.
    rewrite (rr_perm (- l) (l + 1) 0 (2 * l + 1) (fun k => l + k) (fun k => (D (2 * l) k (l + n) x * D (2 * l) k (l + n) x)%R)) by lia.
    rewrite D_cols by lia. rewrite Z.eqb_refl. ring. }
  rewrite (rr_ext _ _ _ (fun _ => IP l l m n)) in S.
  2:{ intros k Hk. rewrite (IP_const l k), (IP_const l m) by lia. reflexivity. }
  rewrite rsum_const, zrange_length, INR_toZ in S by lia.
  replace (l + 1 - - l) with (2 * l + 1) in S by lia. rewrite <- S. field. apply not_0_IZR. lia.
Qed.
