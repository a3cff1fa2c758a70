(** Facts about matrices with known entries and axis-wise operations. *)
From Coq Require Import Reals ZifyBool.
From Coquelicot Require Import Complex.
From Verif Require Import Lib.Py Lib.PyFacts Lib.Vec Lib.VecFacts Lib.Sums Lib.Cplx Lib.Arr Model.FFT.
Open Scope Z_scope.

(** decide the integer test of the first conditional of the goal *)
Ltac zif :=
  match goal with
  | |- context [if ?b then _ else _] =>
      first [replace b with true by lia | replace b with false by lia]; cbv iota
  end.

(** [a] is an n x m matrix whose entry at (r, c) is F r c. *)
Definition is_mat {T} (a : ndarray T) (n m : Z) (F : Z -> Z -> T) : Prop :=
  shape a = [n; m] /\ forall r c, 0 <= r < n -> 0 <= c < m -> at2 a r c = F r c.

Lemma is_mat_mat {T} n m (F : Z -> Z -> T) : is_mat (mat n m F) n m F.
Proof. split; auto. Qed.
Lemma is_mat_dim0 {T} (a : ndarray T) n m F : is_mat a n m F -> dim0 a = n.
Proof. intros (E & _). unfold dim0. now rewrite E. Qed.
Lemma is_mat_dim1 {T} (a : ndarray T) n m F : is_mat a n m F -> dim1 a = m.
Proof. intros (E & _). unfold dim1. now rewrite E. Qed.
Lemma is_mat_ext {T} (a : ndarray T) n m F G : is_mat a n m F ->
  (forall r c, 0 <= r < n -> 0 <= c < m -> F r c = G r c) -> is_mat a n m G.
Proof. intros (E & H) X. split; auto. intros. rewrite H by auto. auto. Qed.
Lemma is_mat_eq {T} (a b : ndarray T) n m F : is_mat a n m F -> is_mat b n m F -> arr_eq a b.
Proof.
  intros (E & H) (E' & H'). split; [congruence|]. rewrite E. intros ix Hix.
  destruct ix as [|r [|c [|]]]; cbn in Hix; try tauto. unfold at2 in *. rewrite H, H'; tauto.
Qed.
Lemma is_mat_self {T} (a : ndarray T) n m : shape a = [n; m] -> is_mat a n m (at2 a).
Proof. now split. Qed.

Lemma slice2_add_ok {T} op (a b : ndarray T) n m F G r0 r1 c0 c1 :
  is_mat a n m F -> is_mat b (r1 - r0) (c1 - c0) G ->
  0 <= r0 -> r0 <= r1 -> r1 <= n -> 0 <= c0 -> c0 <= c1 -> c1 <= m ->
  exists a', slice2_add op a r0 r1 c0 c1 b = Ok a' /\
    is_mat a' n m (fun r c => if (r0 <=? r) && (r <? r1) && (c0 <=? c) && (c <? c1)
                              then op (F r c) (G (r - r0) (c - c0)) else F r c).
Proof.
  intros Ha Hb H1 H2 H3 H4 H5 H6. unfold slice2_add, in_slice2.
  rewrite (is_mat_dim0 _ _ _ _ Ha), (is_mat_dim1 _ _ _ _ Ha), (is_mat_dim0 _ _ _ _ Hb), (is_mat_dim1 _ _ _ _ Hb).
  rewrite !slice_len_in, !slice_lo_in, !Z.eqb_refl by lia. cbn [andb negb].
  eexists; split; [reflexivity|]. split; [reflexivity|]. intros r c Hr Hc. unfold at2 at 1. cbn.
  replace (r0 + (r1 - r0)) with r1 by lia. replace (c0 + (c1 - c0)) with c1 by lia.
  rewrite (proj2 Ha) by auto.
  destruct ((r0 <=? r) && (r <? r1) && (c0 <=? c) && (c <? c1)) eqn:E; [|reflexivity].
  rewrite (proj2 Hb) by lia. reflexivity.
Qed.

Lemma slice2_ok {T} (a : ndarray T) n m F r0 r1 c0 c1 :
  is_mat a n m F -> 0 <= r0 -> r0 <= r1 -> r1 <= n -> 0 <= c0 -> c0 <= c1 -> c1 <= m ->
  is_mat (slice2 a r0 r1 c0 c1) (r1 - r0) (c1 - c0) (fun r c => F (r0 + r) (c0 + c)).
Proof.
  intros Ha H1 H2 H3 H4 H5 H6. unfold slice2.
  rewrite (is_mat_dim0 _ _ _ _ Ha), (is_mat_dim1 _ _ _ _ Ha), !slice_len_in, !slice_lo_in by lia.
  split; [reflexivity|]. intros r c Hr Hc. unfold at2 at 1. cbn. apply (proj2 Ha); lia.
Qed.

Lemma flip0_ok {T} (a : ndarray T) n m F : is_mat a n m F ->
  is_mat (flip0 a) n m (fun r c => F (n - 1 - r) c).
Proof.
  intros Ha. unfold flip0. rewrite (is_mat_dim0 _ _ _ _ Ha), (is_mat_dim1 _ _ _ _ Ha).
  split; [reflexivity|]. intros r c Hr Hc. unfold at2 at 1. cbn. apply (proj2 Ha); lia.
Qed.

Lemma mscal_ok {T} g (a : ndarray T) n m F : is_mat a n m F ->
  is_mat (mscal g a) n m (fun r c => g (F r c)).
Proof.
  intros Ha. unfold mscal. rewrite (is_mat_dim0 _ _ _ _ Ha), (is_mat_dim1 _ _ _ _ Ha).
  split; [reflexivity|]. intros r c Hr Hc. unfold at2 at 1. cbn. f_equal. apply (proj2 Ha); lia.
Qed.

(** ** Functions of vectors that depend only on the entries *)
Definition vext {A B} (g : vec A -> vec B) : Prop := forall v w, veq v w -> veq (g v) (g w).

Lemma vext_comp {A B D} (g : vec B -> vec D) (h : vec A -> vec B) : vext g -> vext h -> vext (fun v => g (h v)).
Proof. intros Hg Hh v w E. auto. Qed.
Lemma vext_vmap {A B} (f : A -> B) : vext (vmap f).
Proof. intros v w (El & E). split; [exact El|]. cbn. intros. now rewrite E. Qed.
Lemma vext_fftshift {A} : vext (@fftshift A).
Proof.
  intros v w (El & E). split; [exact El|]. cbn. intros i Hi. rewrite <- El. apply E. apply Z.mod_pos_bound. lia.
Qed.
Lemma vext_ifftshift {A} : vext (@ifftshift A).
Proof.
  intros v w (El & E). split; [exact El|]. cbn. intros i Hi. rewrite <- El. apply E. apply Z.mod_pos_bound. lia.
Qed.
Lemma vext_fft_bwd : vext fft_bwd.
Proof.
  intros v w (El & E). split; [exact El|]. cbn. intros i Hi. rewrite <- El. apply cr_ext. intros p Hp.
  now rewrite E by lia.
Qed.
Lemma vext_ifft_fwd : vext ifft_fwd.
Proof.
  intros v w (El & E). split; [exact El|]. cbn. intros i Hi. rewrite <- El. apply cr_ext. intros p Hp.
  now rewrite E by lia.
Qed.
Lemma vext_fft_fwd : vext fft_fwd.
Proof.
  intros v w E. unfold fft_fwd. rewrite (proj1 E). apply vext_vmap, vext_fft_bwd, E.
Qed.
Lemma vext_ifft_bwd : vext ifft_bwd.
Proof.
  intros v w E. unfold ifft_bwd. rewrite (proj1 E). apply vext_vmap, vext_ifft_fwd, E.
Qed.

Lemma map_rows_ok {T} (g : vec T -> vec T) (a : ndarray T) n m m' F G : is_mat a n m F -> vext g ->
  (forall r, vlen (g (mkVec m (F r))) = m') ->
  (forall r c, 0 <= r < n -> 0 <= c < m' -> vat (g (mkVec m (F r))) c = G r c) ->
  0 < n ->
  is_mat (map_rows g a) n m' G.
Proof.
  intros Ha Hg Hl HG Hn. unfold map_rows.
  assert (V : forall r, 0 <= r < n -> veq (g (row a r)) (g (mkVec m (F r)))).
  { intros r Hr. apply Hg. split; [exact (is_mat_dim1 _ _ _ _ Ha)|]. cbn. intros c Hc.
    rewrite (is_mat_dim1 _ _ _ _ Ha) in Hc. now apply (proj2 Ha). }
  split.
  - cbn. rewrite (is_mat_dim0 _ _ _ _ Ha). now rewrite (proj1 (V 0 ltac:(lia))), Hl.
  - intros r c Hr Hc. unfold at2. cbn. rewrite (proj2 (V r Hr)); [auto|].
    now rewrite (proj1 (V r Hr)), Hl.
Qed.

Lemma map_cols_ok {T} (g : vec T -> vec T) (a : ndarray T) n m n' F G : is_mat a n m F -> vext g ->
  (forall c, vlen (g (mkVec n (fun r => F r c))) = n') ->
  (forall r c, 0 <= r < n' -> 0 <= c < m -> vat (g (mkVec n (fun r => F r c))) r = G r c) ->
  0 < m ->
  is_mat (map_cols g a) n' m G.
Proof.
  intros Ha Hg Hl HG Hn. unfold map_cols.
  assert (V : forall c, 0 <= c < m -> veq (g (col a c)) (g (mkVec n (fun r => F r c)))).
  { intros c Hc. apply Hg. split; [exact (is_mat_dim0 _ _ _ _ Ha)|]. cbn. intros r Hr.
    rewrite (is_mat_dim0 _ _ _ _ Ha) in Hr. now apply (proj2 Ha). }
  split.
  - cbn. rewrite (is_mat_dim1 _ _ _ _ Ha). now rewrite (proj1 (V 0 ltac:(lia))), Hl.
  - intros r c Hr Hc. unfold at2. cbn. rewrite (proj2 (V c Hc)); [auto|].
    now rewrite (proj1 (V c Hc)), Hl.
Qed.

(** ** Shifted transforms and trigonometric sums *)

(** The shifted spectrum of sampled exponentials is their coefficients. *)
Lemma shift_fft_bwd (v : vec C) (c : Z -> C) n : 0 < n -> vlen v = n ->
  (forall p, 0 <= p < n -> vat v p = csum (zrange (- (n / 2)) (- (n / 2) + n)) (fun m => (c m * root n (m * p))%C)) ->
  forall j, 0 <= j < n -> vat (fftshift (fft_bwd v)) j = (RtoC (IZR n) * c (j - n / 2)%Z)%C.
Proof.
  intros Hn Hl Hv j Hj. subst n. cbn [fftshift fft_bwd vlen vat]. set (n := vlen v) in *.
  rewrite <- (dft_inversion n (- (n / 2)) c (j - n / 2)) by lia.
  apply cr_ext. intros p Hp. rewrite Hv by lia. f_equal. apply root_congr; [lia|].
  rewrite <- Z.mul_opp_l, <- Z.mul_opp_l.
  rewrite Z.mul_mod by lia. rewrite (Z.mul_mod (- (j - n / 2))) by lia. f_equal. f_equal.
  rewrite <- (Z.sub_0_l (_ mod _)), Zminus_mod_idemp_r. now rewrite Z.sub_0_l.
Qed.

Lemma shift_fft_fwd (v : vec C) (c : Z -> C) n : 0 < n -> vlen v = n ->
  (forall p, 0 <= p < n -> vat v p = csum (zrange (- (n / 2)) (- (n / 2) + n)) (fun m => (c m * root n (m * p))%C)) ->
  forall j, 0 <= j < n -> vat (fftshift (fft_fwd v)) j = c (j - n / 2).
Proof.
  intros Hn Hl Hv j Hj. unfold fft_fwd.
  change (vat (fftshift (vmap (fun z => (z / RtoC (IZR (vlen v)))%C) (fft_bwd v))) j)
    with (vat (fftshift (fft_bwd v)) j / RtoC (IZR (vlen v)))%C.
  rewrite (shift_fft_bwd v c n) by auto. rewrite Hl. field.
  intros E. apply RtoC_inj in E. apply (eq_IZR n 0) in E. lia.
Qed.

Lemma ifft_ifftshift (w : vec C) n p : 0 < n -> vlen w = n ->
  vat (ifft_fwd (ifftshift w)) p
  = csum (zrange (- (n / 2)) (- (n / 2) + n)) (fun m => (vat w (m + n / 2)%Z * root n (m * p))%C).
Proof.
  intros Hn Hl. subst n. cbn [ifftshift ifft_fwd vlen vat]. set (n := vlen w) in *.
  rewrite <- (cr_period n (- (n / 2)) (fun k => (vat w ((k + n / 2) mod n) * root n (k * p))%C)).
  - apply cr_ext. intros m Hm. rewrite Z.mod_small by lia. reflexivity.
  - lia.
  - intros x. f_equal.
    + f_equal. replace (x + n + n / 2) with (x + n / 2 + 1 * n) by lia. apply Z.mod_add. lia.
    + apply root_congr; [lia|]. replace ((x + n) * p) with (x * p + p * n) by ring. apply Z.mod_add. lia.
Qed.

Lemma Cconj_mult (a b : C) : Cconj (a * b)%C = (Cconj a * Cconj b)%C.
Proof. destruct a, b. unfold Cconj, Cmult. cbn. f_equal; ring. Qed.
Lemma Cconj_conj (a : C) : Cconj (Cconj a) = a.
Proof. destruct a. unfold Cconj. cbn. f_equal. ring. Qed.
Lemma Cconj_plus (a b : C) : Cconj (a + b)%C = (Cconj a + Cconj b)%C.
Proof. destruct a, b. unfold Cconj, Cplus. cbn. f_equal; ring. Qed.
Lemma Cconj_R (x : R) : Cconj (RtoC x) = RtoC x.
Proof. unfold Cconj, RtoC. cbn. f_equal. ring. Qed.
(** the JAX way of writing it *)
Lemma conj_fft (x : vec C) i : vat (vmap Cconj (fft_bwd (vmap Cconj x))) i = vat (ifft_fwd x) i.
Proof.
  cbn. rewrite csum_conj. apply cs_ext. intros p _. rewrite Cconj_mult, Cconj_conj, root_opp, Cconj_conj.
  now rewrite Z.mul_comm.
Qed.

(** a[r, s:e] op= w *)
Lemma row_op_ok {T} op (a : ndarray T) n m F r s e (w : vec T) : is_mat a n m F -> 0 <= r < n ->
  0 <= s -> s <= e -> e <= m -> vlen w = e - s ->
  exists a', row_op op a r s e w = Ok a' /\
    is_mat a' n m (fun i c => if (i =? r) && (s <=? c) && (c <? e) then op (F i c) (vat w (c - s)) else F i c).
Proof.
  intros Ha Hr Hs He Hm Hw. unfold row_op. rewrite (is_mat_dim0 _ _ _ _ Ha), (is_mat_dim1 _ _ _ _ Ha).
  rewrite norm_index_in by lia. rewrite !slice_len_in, !slice_lo_in by lia. rewrite Hw, Z.eqb_refl.
  eexists. split; [reflexivity|]. split; [exact (proj1 Ha)|]. intros i c Hi Hc. unfold at2 at 1. cbn.
  replace (s + (e - s)) with e by lia. change (get a [i; c]) with (at2 a i c). rewrite (proj2 Ha) by auto. reflexivity.
Qed.
