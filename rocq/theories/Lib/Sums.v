(** Finite sums over lists and integer ranges, in any commutative ring; instances for R and C. *)
From Coq Require Import Reals Permutation Ring Lia ZArith List.
From Coquelicot Require Import Complex.
From Verif Require Import Lib.Py Lib.PyFacts.
Import ListNotations.
Open Scope Z_scope.

Lemma NoDup_map_inj_in {X Y} (h : X -> Y) l :
  (forall x y, In x l -> In y l -> h x = h y -> x = y) -> NoDup l -> NoDup (map h l).
Proof.
  intros H Hn. induction Hn as [|x l Hx Hn IH]; [constructor|]. cbn. constructor.
  - intros Hi. apply in_map_iff in Hi. destruct Hi as (y & E & Hy). apply Hx.
    replace x with y; auto. apply H; auto; [now right|now left].
  - apply IH. intros; apply H; auto; now right.
Qed.

Definition suml {T} (zero : T) (add : T -> T -> T) {X} (l : list X) (f : X -> T) : T :=
  fold_right (fun x a => add (f x) a) zero l.

Section G.
  Context {T : Type} (zero one : T) (add mul sub : T -> T -> T) (opp : T -> T)
    (RT : ring_theory zero one add mul sub opp eq).
  Add Ring TR : RT.
  Notation S := (suml zero add).
  Infix "+!" := add (at level 50, left associativity).
  Infix "*!" := mul (at level 40, left associativity).

  Lemma gs_nil {X} (f : X -> T) : S [] f = zero.
  Proof. reflexivity. Qed.
  Lemma gs_cons {X} x l (f : X -> T) : S (x :: l) f = f x +! S l f.
  Proof. reflexivity. Qed.
  Lemma gs_ext {X} (l : list X) f g : (forall x, In x l -> f x = g x) -> S l f = S l g.
  Proof.
    induction l as [|x l IH]; intros H; [reflexivity|]. rewrite !gs_cons.
    rewrite H by (left; auto). f_equal. apply IH. intros; apply H; now right.
  Qed.
  Lemma gs_0 {X} (l : list X) f : (forall x, In x l -> f x = zero) -> S l f = zero.
  Proof using RT.
    induction l as [|x l IH]; intros H; [reflexivity|]. rewrite !gs_cons.
    rewrite H by (left; auto). rewrite IH by (intros; apply H; now right). ring.
  Qed.
  Lemma gs_plus {X} (l : list X) f g : S l (fun x => f x +! g x) = S l f +! S l g.
  Proof using RT. induction l; rewrite ?gs_cons, ?gs_nil; [ring|]. rewrite IHl. ring. Qed.
  Lemma gs_minus {X} (l : list X) f g : S l (fun x => sub (f x) (g x)) = sub (S l f) (S l g).
  Proof using RT. induction l; rewrite ?gs_cons, ?gs_nil; [ring|]. rewrite IHl. ring. Qed.
  Lemma gs_opp {X} (l : list X) f : S l (fun x => opp (f x)) = opp (S l f).
  Proof using RT. induction l; rewrite ?gs_cons, ?gs_nil; [ring|]. rewrite IHl. ring. Qed.
  Lemma gs_scal_l {X} (l : list X) c f : S l (fun x => c *! f x) = c *! S l f.
  Proof using RT. induction l; rewrite ?gs_cons, ?gs_nil; [ring|]. rewrite IHl. ring. Qed.
  Lemma gs_scal_r {X} (l : list X) c f : S l (fun x => f x *! c) = S l f *! c.
  Proof using RT. induction l; rewrite ?gs_cons, ?gs_nil; [ring|]. rewrite IHl. ring. Qed.
  Lemma gs_app {X} (l1 l2 : list X) f : S (l1 ++ l2)%list f = S l1 f +! S l2 f.
  Proof using RT. induction l1; cbn [app]; rewrite ?gs_cons, ?gs_nil; [ring|]. rewrite IHl1. ring. Qed.
  Lemma gs_map {X Y} (h : X -> Y) l f : S (map h l) f = S l (fun x => f (h x)).
  Proof. induction l; cbn [map]; rewrite ?gs_cons, ?gs_nil; [reflexivity|]. now rewrite IHl. Qed.
  Lemma gs_flat_map {X Y} (h : X -> list Y) l f : S (flat_map h l) f = S l (fun x => S (h x) f).
  Proof using RT. induction l; cbn [flat_map]; rewrite ?gs_cons, ?gs_nil; [reflexivity|]. now rewrite gs_app, IHl. Qed.
  Lemma gs_swap {X Y} (l : list X) (k : list Y) (f : X -> Y -> T) :
    S l (fun x => S k (fun y => f x y)) = S k (fun y => S l (fun x => f x y)).
  Proof using RT.
    induction l as [|x l IH].
    - rewrite gs_nil. symmetry. apply gs_0. reflexivity.
    - rewrite gs_cons. rewrite IH, <- gs_plus. reflexivity.
  Qed.
  Lemma gs_perm {X} (l l' : list X) f : Permutation l l' -> S l f = S l' f.
  Proof using RT.
    induction 1; rewrite ?gs_cons; [reflexivity| |ring|congruence]. now rewrite IHPermutation.
  Qed.
  Lemma gs_filter {X} (p : X -> bool) l f : S (filter p l) f = S l (fun x => if p x then f x else zero).
  Proof using RT.
    induction l; [reflexivity|]. cbn [filter]. rewrite (gs_cons a l).
    destruct (p a); rewrite ?gs_cons, IHl; [reflexivity|ring].
  Qed.
  Lemma gs_delta (l : list Z) k f : NoDup l -> In k l ->
    S l (fun x => if x =? k then f x else zero) = f k.
  Proof using RT.
    induction l as [|x l IH]; intros Hn Hi; [destruct Hi|]. inversion Hn; subst. rewrite gs_cons.
    destruct (Z.eqb_spec x k) as [->|Hne].
    - rewrite gs_0; [ring|]. intros y Hy. destruct (Z.eqb_spec y k); [subst; contradiction|auto].
    - destruct Hi as [->|Hi]; [congruence|]. rewrite IH by auto. ring.
  Qed.

  (** ranges *)
  Lemma gr_ext a b f g : (forall x, a <= x < b -> f x = g x) -> S (zrange a b) f = S (zrange a b) g.
  Proof. intros H. apply gs_ext. intros x Hx. apply in_zrange in Hx. auto. Qed.
  Lemma gr_0 a b f : (forall x, a <= x < b -> f x = zero) -> S (zrange a b) f = zero.
  Proof using RT. intros H. apply gs_0. intros x Hx. apply in_zrange in Hx. auto. Qed.
  Lemma gr_nil a b f : b <= a -> S (zrange a b) f = zero.
  Proof. intros H. now rewrite zrange_nil. Qed.
  Lemma gr_snoc a b f : a <= b -> S (zrange a (b + 1)) f = S (zrange a b) f +! f b.
  Proof using RT. intros H. rewrite zrange_snoc by lia. rewrite gs_app, gs_cons, gs_nil. ring. Qed.
  Lemma gr_cons a b f : a < b -> S (zrange a b) f = f a +! S (zrange (a + 1) b) f.
  Proof. intros H. rewrite zrange_cons by lia. reflexivity. Qed.
  Lemma gr_one a f : S (zrange a (a + 1)) f = f a.
  Proof using RT. rewrite gr_cons, gr_nil by lia. ring. Qed.
  Lemma gr_split a b c f : a <= b -> b <= c -> S (zrange a c) f = S (zrange a b) f +! S (zrange b c) f.
  Proof using RT. intros H1 H2. rewrite (zrange_app a b c) by lia. apply gs_app. Qed.
  Lemma gr_perm a b c d h f :
    (forall x, a <= x < b -> c <= h x < d) ->
    (forall x y, a <= x < b -> a <= y < b -> h x = h y -> x = y) ->
    d - c <= Z.max 0 (b - a) ->
    S (zrange a b) (fun x => f (h x)) = S (zrange c d) f.
  Proof using RT.
    intros H1 H2 H3. rewrite <- (gs_map h). apply gs_perm.
    apply NoDup_Permutation_bis.
    - apply NoDup_map_inj_in; [|apply zrange_NoDup].
      intros x y Hx Hy. apply in_zrange in Hx, Hy. auto.
    - rewrite map_length, !zrange_length. lia.
    - intros y Hy. apply in_map_iff in Hy. destruct Hy as (x & <- & Hx). apply in_zrange in Hx.
      apply in_zrange. auto.
  Qed.
  Lemma gr_shift a b k f : S (zrange a b) (fun x => f (x + k)) = S (zrange (a + k) (b + k)) f.
  Proof using RT. apply (gr_perm a b (a + k) (b + k) (fun x => x + k)); lia. Qed.
  Lemma gr_rev a b f : S (zrange a b) (fun x => f (a + b - 1 - x)) = S (zrange a b) f.
  Proof using RT. apply (gr_perm a b a b (fun x => a + b - 1 - x)); lia. Qed.
  (** a sum over a full period does not depend on where it starts *)
  Lemma gr_period n a f : 0 <= n -> (forall x, f (x + n) = f x) ->
    S (zrange a (a + n)) f = S (zrange 0 n) f.
  Proof using RT.
    intros Hn Hp.
    assert (P : forall k, 0 <= k -> forall b, S (zrange (b + k) (b + k + n)) f = S (zrange b (b + n)) f).
    { apply (natlike_ind (fun k => forall b, S (zrange (b + k) (b + k + n)) f = S (zrange b (b + n)) f)).
      - intros b. now rewrite Z.add_0_r.
      - intros k Hk IH b. replace (b + Z.succ k) with (b + 1 + k) by lia. rewrite IH.
        destruct (Z.eq_dec n 0) as [->|Hne].
        + rewrite !gr_nil by lia. reflexivity.
        + rewrite (gr_cons b) by lia. replace (b + 1 + n) with (b + n + 1) by lia.
          rewrite gr_snoc by lia. rewrite Hp. ring. }
    destruct (Z_le_dec 0 a) as [Ha|Ha].
    - specialize (P a Ha 0). rewrite !Z.add_0_l in P. exact P.
    - specialize (P (- a) ltac:(lia) a). replace (a + - a) with 0 in P by lia.
      rewrite Z.add_0_l in P. symmetry. exact P.
  Qed.
  Lemma gr_period_shift n k f : 0 <= n -> (forall x, f (x + n) = f x) ->
    S (zrange 0 n) (fun x => f (x + k)) = S (zrange 0 n) f.
  Proof using RT.
    intros Hn Hp. rewrite gr_shift, Z.add_0_l. rewrite (Z.add_comm n k). now apply gr_period.
  Qed.
  Lemma gr_delta a b k f : a <= k < b -> S (zrange a b) (fun x => if x =? k then f x else zero) = f k.
  Proof using RT.
    intros H. apply gs_delta; [apply zrange_NoDup|]. now apply in_zrange.
  Qed.
  (** terms outside of a smaller range vanish *)
  Lemma gr_shrink a b c d f : a <= c -> c <= d -> d <= b ->
    (forall x, a <= x < b -> ~ (c <= x < d) -> f x = zero) ->
    S (zrange a b) f = S (zrange c d) f.
  Proof using RT.
    intros H1 H2 H3 H. rewrite (gr_split a c b), (gr_split c d b) by lia.
    rewrite (gr_0 a c), (gr_0 d b); [ring| |]; intros; apply H; lia.
  Qed.
  Lemma gs_hom {U} (zero' : U) add' (h : T -> U) {X} (l : list X) f :
    h zero = zero' -> (forall x y, h (x +! y) = add' (h x) (h y)) ->
    h (S l f) = suml zero' add' l (fun x => h (f x)).
  Proof. intros H0 H1. induction l; [exact H0|]. rewrite gs_cons, H1, IHl. reflexivity. Qed.
  (** recombination of even and odd positions *)
  Lemma gr_even_odd n f : 0 <= n ->
    S (zrange 0 (2 * n)) f
    = S (zrange 0 n) (fun x => f (2 * x)) +! S (zrange 0 n) (fun x => f (2 * x + 1)).
  Proof using RT.
    revert n. apply natlike_ind; [rewrite !gr_nil by lia; ring|]. intros n Hn IH.
    replace (2 * Z.succ n) with (2 * n + 1 + 1) by lia. rewrite !gr_snoc by lia.
    rewrite <- Z.add_1_r. rewrite !gr_snoc by lia. rewrite IH. ring.
  Qed.
End G.

Notation csum l f := (suml (RtoC 0) Cplus l f).
Notation rsum l f := (suml 0%R Rplus l f).

Lemma R_rt : ring_theory 0%R 1%R Rplus Rmult Rminus Ropp eq.
Proof. constructor; intros; ring. Qed.

(** Instances for C *)
Section InstC.
  Let RT := C_ring_theory.
  Definition cs_ext {X} (l : list X) f g := gs_ext (RtoC 0) Cplus l f g.
  Definition cs_0 {X} (l : list X) f := gs_0 _ _ _ _ _ _ RT l f.
  Definition cs_plus {X} (l : list X) f g := gs_plus _ _ _ _ _ _ RT l f g.
  Definition cs_minus {X} (l : list X) f g := gs_minus _ _ _ _ _ _ RT l f g.
  Definition cs_opp {X} (l : list X) f := gs_opp _ _ _ _ _ _ RT l f.
  Definition cs_scal_l {X} (l : list X) c f := gs_scal_l _ _ _ _ _ _ RT l c f.
  Definition cs_scal_r {X} (l : list X) c f := gs_scal_r _ _ _ _ _ _ RT l c f.
  Definition cs_app {X} (l1 l2 : list X) f := gs_app _ _ _ _ _ _ RT l1 l2 f.
  Definition cs_map {X Y} (h : X -> Y) l f := gs_map (RtoC 0) Cplus h l f.
  Definition cs_flat_map {X Y} (h : X -> list Y) l f := gs_flat_map _ _ _ _ _ _ RT h l f.
  Definition cs_swap {X Y} (l : list X) (k : list Y) f := gs_swap _ _ _ _ _ _ RT l k f.
  Definition cs_perm {X} (l l' : list X) f := gs_perm _ _ _ _ _ _ RT l l' f.
  Definition cs_filter {X} (p : X -> bool) l f := gs_filter _ _ _ _ _ _ RT p l f.
  Definition cs_delta l k f := gs_delta _ _ _ _ _ _ RT l k f.
  Definition cr_ext a b f g := gr_ext (RtoC 0) Cplus a b f g.
  Definition cr_0 a b f := gr_0 _ _ _ _ _ _ RT a b f.
  Definition cr_nil a b f := gr_nil (RtoC 0) Cplus a b f.
  Definition cr_snoc a b f := gr_snoc _ _ _ _ _ _ RT a b f.
  Definition cr_cons a b f := gr_cons (RtoC 0) Cplus a b f.
  Definition cr_one a f := gr_one _ _ _ _ _ _ RT a f.
  Definition cr_split a b c f := gr_split _ _ _ _ _ _ RT a b c f.
  Definition cr_perm a b c d h f := gr_perm _ _ _ _ _ _ RT a b c d h f.
  Definition cr_shift a b k f := gr_shift _ _ _ _ _ _ RT a b k f.
  Definition cr_rev a b f := gr_rev _ _ _ _ _ _ RT a b f.
  Definition cr_period n a f := gr_period _ _ _ _ _ _ RT n a f.
  Definition cr_period_shift n k f := gr_period_shift _ _ _ _ _ _ RT n k f.
  Definition cr_delta a b k f := gr_delta _ _ _ _ _ _ RT a b k f.
  Definition cr_shrink a b c d f := gr_shrink _ _ _ _ _ _ RT a b c d f.
  Definition cr_even_odd n f := gr_even_odd _ _ _ _ _ _ RT n f.
End InstC.

(** Instances for R *)
Section InstR.
  Let RT := R_rt.
  Definition rs_ext {X} (l : list X) f g := gs_ext 0%R Rplus l f g.
  Definition rs_0 {X} (l : list X) f := gs_0 _ _ _ _ _ _ RT l f.
  Definition rs_plus {X} (l : list X) f g := gs_plus _ _ _ _ _ _ RT l f g.
  Definition rs_minus {X} (l : list X) f g := gs_minus _ _ _ _ _ _ RT l f g.
  Definition rs_opp {X} (l : list X) f := gs_opp _ _ _ _ _ _ RT l f.
  Definition rs_scal_l {X} (l : list X) c f := gs_scal_l _ _ _ _ _ _ RT l c f.
  Definition rs_scal_r {X} (l : list X) c f := gs_scal_r _ _ _ _ _ _ RT l c f.
  Definition rs_app {X} (l1 l2 : list X) f := gs_app _ _ _ _ _ _ RT l1 l2 f.
  Definition rs_map {X Y} (h : X -> Y) l f := gs_map 0%R Rplus h l f.
  Definition rs_swap {X Y} (l : list X) (k : list Y) f := gs_swap _ _ _ _ _ _ RT l k f.
  Definition rs_perm {X} (l l' : list X) f := gs_perm _ _ _ _ _ _ RT l l' f.
  Definition rs_delta l k f := gs_delta _ _ _ _ _ _ RT l k f.
  Definition rr_ext a b f g := gr_ext 0%R Rplus a b f g.
  Definition rr_0 a b f := gr_0 _ _ _ _ _ _ RT a b f.
  Definition rr_nil a b f := gr_nil 0%R Rplus a b f.
  Definition rr_snoc a b f := gr_snoc _ _ _ _ _ _ RT a b f.
  Definition rr_cons a b f := gr_cons 0%R Rplus a b f.
  Definition rr_one a f := gr_one _ _ _ _ _ _ RT a f.
  Definition rr_split a b c f := gr_split _ _ _ _ _ _ RT a b c f.
  Definition rr_perm a b c d h f := gr_perm _ _ _ _ _ _ RT a b c d h f.
  Definition rr_shift a b k f := gr_shift _ _ _ _ _ _ RT a b k f.
  Definition rr_rev a b f := gr_rev _ _ _ _ _ _ RT a b f.
  Definition rr_delta a b k f := gr_delta _ _ _ _ _ _ RT a b k f.
  Definition rr_shrink a b c d f := gr_shrink _ _ _ _ _ _ RT a b c d f.
  Definition rr_even_odd n f := gr_even_odd _ _ _ _ _ _ RT n f.
End InstR.

Lemma csum_RtoC {X} (l : list X) (f : X -> R) : csum l (fun x => RtoC (f x)) = RtoC (rsum l f).
Proof. symmetry. apply (gs_hom 0%R Rplus); [reflexivity|]. intros. apply RtoC_plus. Qed.
Lemma csum_conj {X} (l : list X) f : Cconj (csum l f) = csum l (fun x => Cconj (f x)).
Proof.
  apply (gs_hom (RtoC 0) Cplus).
  - unfold Cconj, RtoC. cbn. f_equal. ring.
  - intros x y. unfold Cconj, Cplus. cbn. f_equal. ring.
Qed.
Lemma Re_csum {X} (l : list X) f : Re (csum l f) = rsum l (fun x => Re (f x)).
Proof. apply (gs_hom (RtoC 0) Cplus); reflexivity. Qed.
Lemma Im_csum {X} (l : list X) f : Im (csum l f) = rsum l (fun x => Im (f x)).
Proof. apply (gs_hom (RtoC 0) Cplus); reflexivity. Qed.
