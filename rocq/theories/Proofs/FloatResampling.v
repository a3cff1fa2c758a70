(** Resampling in rounded arithmetic: each step keeps a small distance to the exact step. *)
From Coq Require Import Reals Lra Lia ZifyBool.
From Coquelicot Require Import Coquelicot.
From Verif Require Import Lib.Py Lib.PyFacts Lib.Vec Lib.VecFacts Lib.Sums Lib.Cplx Lib.Arr Lib.ArrFacts Lib.MatFacts Model.FFT Model.Samples Model.RisboFloat
  Model.Resampling Model.PrecomputeFloat Model.ResamplingFloat Spec.RoundingSpec Spec.PrecomputeFloatSpec Spec.ResamplingFloatSpec
  Proofs.SpectralBound Proofs.ResamplingProofs Proofs.FloatInverse Proofs.FloatFourier Proofs.L2Norm.
Open Scope R_scope.

(** a is a computed n x m array, e the exact one of norm at most s, at a distance of at most d *)
Definition rel (a e : ndarray C) (n m : Z) (s d : R) : Prop :=
  shape a = [n; m] /\ shape e = [n; m] /\ l2_map n m (at2 e) <= s /\ l2_map n m (fun r c => at2 a r c - at2 e r c)%C <= d.

Lemma rel_intro a e n m s d Fa Fe : is_mat a n m Fa -> is_mat e n m Fe -> l2_map n m Fe <= s -> l2_map n m (fun r c => Fa r c - Fe r c)%C <= d -> rel a e n m s d.
Proof.
  intros [A1 A2] [E1 E2] H1 H2. repeat split; auto.
  - rewrite (map_ext n m _ Fe); auto.
  - rewrite (map_ext n m _ (fun r c => Fa r c - Fe r c)%C); auto. intros r c Hr Hc. now rewrite A2, E2.
Qed.
Lemma rel_mat a e n m s d : rel a e n m s d -> is_mat a n m (at2 a) /\ is_mat e n m (at2 e).
Proof. intros (A & E & _). split; now apply is_mat_self. Qed.
Lemma rel_le a e n m s d s' d' : rel a e n m s d -> s <= s' -> d <= d' -> rel a e n m s' d'.
Proof. intros (A & E & H1 & H2) Hs Hd. repeat split; auto; lra. Qed.
Lemma rel_nonneg a e n m s d : rel a e n m s d -> 0 <= s /\ 0 <= d.
Proof. intros (_ & _ & H1 & H2). split; (eapply Rle_trans; [apply map_nonneg|eassumption]). Qed.
Lemma rel_self a n m s : shape a = [n; m] -> l2_map n m (at2 a) <= s -> rel a a n m s 0.
Proof.
  intros H Hs. repeat split; auto. unfold l2_map. rewrite (rr_ext 0 n _ (fun _ => 0)).
  - rewrite (rr_0 0 n) by reflexivity. rewrite sqrt_0. lra.
  - intros r Hr. apply rr_0. intros c Hc. replace (at2 a r c - at2 a r c)%C with (RtoC 0) by ring. rewrite Cmod_0. ring.
Qed.
Lemma rel_size a e n m s d : rel a e n m s d -> l2_map n m (at2 a) <= s + d.
Proof.
  intros (_ & _ & H1 & H2). rewrite (map_ext n m _ (fun r c => at2 e r c + (at2 a r c - at2 e r c))%C) by (intros; ring).
  eapply Rle_trans; [apply map_triang|]. lra.
Qed.

(** ** Transforms along one axis *)
Definition trans (g G : vec C -> vec C) (n : Z) (c eps : R) : Prop :=
  forall v w, vlen v = n -> vlen w = n ->
    vlen (g v) = n /\ vlen (G w) = n /\ l2 n (vat (G w)) = c * l2 n (vat w) /\
    l2 n (fun k => vat (g v) k - vat (G w) k)%C <= eps * (c * l2 n (vat v)) + c * l2 n (fun k => vat v k - vat w k)%C.
Lemma trans_rows g G n m c eps a e s d : trans g G m c eps -> 0 <= c -> 0 <= eps -> (0 < n)%Z -> rel a e n m s d ->
  rel (map_rows g a) (map_rows G e) n m (c * s) (c * ((1 + eps) * d + eps * s)).
Proof.
  intros HT Hc He Hn R. destruct (rel_mat _ _ _ _ _ _ R) as [MA ME].
  assert (VA : forall r, vlen (row a r) = m) by (intros r; exact (is_mat_dim1 _ _ _ _ MA)).
  assert (VE : forall r, vlen (row e r) = m) by (intros r; exact (is_mat_dim1 _ _ _ _ ME)).
  apply (rel_intro _ _ _ _ _ _ (fun r c => vat (g (row a r)) c) (fun r c => vat (G (row e r)) c)).
  - unfold map_rows. rewrite (is_mat_dim0 _ _ _ _ MA). replace (vlen (g (row a 0))) with m; [apply is_mat_mat|]. symmetry. apply (HT (row a 0) (row e 0)); auto.
  - unfold map_rows. rewrite (is_mat_dim0 _ _ _ _ ME). replace (vlen (G (row e 0))) with m; [apply is_mat_mat|]. symmetry. apply (HT (row a 0) (row e 0)); auto.
  - eapply Rle_trans; [apply (sq2_rows n m m _ (at2 e) c); [|exact Hc]|].
    + intros r Hr. destruct (HT (row a r) (row e r) (VA r) (VE r)) as (_ & _ & H & _). right. exact H.
    + apply Rmult_le_compat_l; [exact Hc|apply R].
  - assert (SA := rel_size _ _ _ _ _ _ R). destruct R as (_ & _ & R1 & R2).
    set (x := fun r => l2 m (vat (row a r))). set (y := fun r => l2 m (fun k => vat (row a r) k - vat (row e r) k)%C).
    assert (X0 : forall r, 0 <= x r) by (intros; apply sqrt_pos). assert (Y0 : forall r, 0 <= y r) by (intros; apply sqrt_pos).
    assert (N1 : forall (F : Z -> Z -> C), l2_map n 1 (fun r _ => RtoC (l2 m (F r))) = l2_map n m F).
    { intros F. unfold l2_map. f_equal. apply rr_ext. intros r Hr. change (zrange 0 1) with [0%Z]. unfold rsum at 1, suml. cbn [fold_right].
      rewrite Cmod_R, Rabs_right by (apply Rle_ge, sqrt_pos). assert (E := nn_sq (zrange 0 m) (F r)). rewrite <- l2_nn in E. etransitivity; [|exact E]. apply Rplus_0_r. }
    rewrite <- (N1 (fun r c => vat (g (row a r)) c - vat (G (row e r)) c)%C).
    assert (Q : l2_map n 1 (fun r _ => RtoC (l2 m (fun c => vat (g (row a r)) c - vat (G (row e r)) c)%C)) <=
      (eps * c) * l2_map n 1 (fun r _ => RtoC (x r)) + c * l2_map n 1 (fun r _ => RtoC (y r))).
    { apply map_comb; [now apply Rmult_le_pos|exact Hc|]. intros r k Hr Hk. rewrite !Cmod_R, !Rabs_right by (apply Rle_ge; try apply sqrt_pos; auto).
      destruct (HT (row a r) (row e r) (VA r) (VE r)) as (_ & _ & _ & H). unfold x, y. lra. }
    eapply Rle_trans; [exact Q|]. unfold x, y. rewrite (N1 (fun r => vat (row a r))), (N1 (fun r k => vat (row a r) k - vat (row e r) k)%C).
    assert (C1 : l2_map n m (fun r => vat (row a r)) <= s + d) by exact SA.
    assert (C2 : l2_map n m (fun r k => vat (row a r) k - vat (row e r) k)%C <= d) by exact R2.
    apply (Rmult_le_compat_l (eps * c)) in C1; [|now apply Rmult_le_pos]. apply (Rmult_le_compat_l c) in C2; [|exact Hc]. lra.
Qed.
(** columns, through the transposed arrays *)
Definition tr (a : ndarray C) : ndarray C := mat (dim1 a) (dim0 a) (fun r c => at2 a c r).
Lemma tr_rel a e n m s d : rel a e n m s d -> rel (tr a) (tr e) m n s d.
Proof.
  intros R. destruct (rel_mat _ _ _ _ _ _ R) as [MA ME]. destruct R as (_ & _ & R1 & R2).
  apply (rel_intro _ _ _ _ _ _ (fun r c => at2 a c r) (fun r c => at2 e c r)).
  - unfold tr. rewrite (is_mat_dim0 _ _ _ _ MA), (is_mat_dim1 _ _ _ _ MA). apply is_mat_mat.
  - unfold tr. rewrite (is_mat_dim0 _ _ _ _ ME), (is_mat_dim1 _ _ _ _ ME). apply is_mat_mat.
  - rewrite map_transpose. exact R1.
  - rewrite map_transpose. exact R2.
Qed.
Lemma trans_cols g G n m c eps a e s d : trans g G n c eps -> 0 <= c -> 0 <= eps -> (0 < m)%Z -> rel a e n m s d ->
  rel (map_cols g a) (map_cols G e) n m (c * s) (c * ((1 + eps) * d + eps * s)).
Proof.
  intros HT Hc He Hm R. assert (R' := trans_rows g G m n c eps _ _ s d HT Hc He Hm (tr_rel _ _ _ _ _ _ R)). apply tr_rel in R'.
  destruct (rel_mat _ _ _ _ _ _ R) as [MA ME]. destruct R' as (_ & _ & R1 & R2).
  assert (D0a := is_mat_dim0 _ _ _ _ MA). assert (D1a := is_mat_dim1 _ _ _ _ MA). assert (D0e := is_mat_dim0 _ _ _ _ ME). assert (D1e := is_mat_dim1 _ _ _ _ ME).
  split; [|split; [|split]].
  - unfold map_cols. cbn [shape mat]. rewrite D1a. f_equal. apply (HT (col a 0) (col e 0)); cbn [vlen col]; assumption.
  - unfold map_cols. cbn [shape mat]. rewrite D1e. f_equal. apply (HT (col a 0) (col e 0)); cbn [vlen col]; assumption.
  - exact R1.
  - exact R2.
Qed.

(** ** Parts and paddings *)
Lemma sq2_part n m r0 r1 c0 c1 F : (0 <= r0)%Z -> (r0 <= r1)%Z -> (r1 <= n)%Z -> (0 <= c0)%Z -> (c0 <= c1)%Z -> (c1 <= m)%Z ->
  l2_map (r1 - r0) (c1 - c0) (fun r c => F (r0 + r) (c0 + c))%Z <= l2_map n m F.
Proof.
  intros. unfold l2_map. apply sqrt_le_1_alt.
  assert (P : forall a b k (g : Z -> R), (0 <= a)%Z -> (a <= b)%Z -> (b <= k)%Z -> (forall x, 0 <= g x) -> rsum (zrange 0 (b - a)) (fun x => g (a + x)%Z) <= rsum (zrange 0 k) g).
  { intros a b k g Ha Hb Hk Hg. rewrite (rr_split 0 a k) by lia. rewrite (rr_split a b k) by lia.
    assert (E : rsum (zrange 0 (b - a)) (fun x => g (a + x)%Z) = rsum (zrange a b) g).
    { rewrite (rr_ext _ _ _ (fun x => g (x + a)%Z)) by (intros; f_equal; lia). rewrite rr_shift. f_equal. f_equal; lia. }
    rewrite E. pose proof (rs_nonneg (zrange 0 a) g (fun x _ => Hg x)). pose proof (rs_nonneg (zrange b k) g (fun x _ => Hg x)). lra. }
  eapply Rle_trans.
  - apply (P r0 r1 n (fun t => rsum (zrange 0 (c1 - c0)) (fun p => Cmod (F t (c0 + p)%Z) * Cmod (F t (c0 + p)%Z)))); auto.
    intros x. apply sq_nonneg.
  - apply rr_le. intros r Hr. apply (P c0 c1 m (fun p => Cmod (F r p) * Cmod (F r p))); auto. intros x. pose proof (Cmod_ge_0 (F r x)). nra.
Qed.
Lemma rel_part a e n m s d r0 r1 c0 c1 : rel a e n m s d -> (0 <= r0)%Z -> (r0 <= r1)%Z -> (r1 <= n)%Z -> (0 <= c0)%Z -> (c0 <= c1)%Z -> (c1 <= m)%Z ->
  rel (slice2 a r0 r1 c0 c1) (slice2 e r0 r1 c0 c1) (r1 - r0) (c1 - c0) s d.
Proof.
  intros R Hr0 Hr Hr1 Hc0 Hc Hc1. destruct (rel_mat _ _ _ _ _ _ R) as [MA ME]. destruct R as (_ & _ & R1 & R2).
  apply (rel_intro _ _ _ _ _ _ _ _ (slice2_ok _ _ _ _ _ _ _ _ MA Hr0 Hr Hr1 Hc0 Hc Hc1) (slice2_ok _ _ _ _ _ _ _ _ ME Hr0 Hr Hr1 Hc0 Hc Hc1)).
  - eapply Rle_trans; [|exact R1]. now apply sq2_part.
  - eapply Rle_trans; [|exact R2]. now apply (sq2_part n m r0 r1 c0 c1 (fun r c => at2 a r c - at2 e r c)%C).
Qed.
Lemma sq2_pad n m r0 r1 c0 c1 G : (0 <= r0)%Z -> (r0 <= r1)%Z -> (r1 <= n)%Z -> (0 <= c0)%Z -> (c0 <= c1)%Z -> (c1 <= m)%Z ->
  l2_map n m (fun r c => if (r0 <=? r)%Z && (r <? r1)%Z && (c0 <=? c)%Z && (c <? c1)%Z then G (r - r0)%Z (c - c0)%Z else RtoC 0) = l2_map (r1 - r0) (c1 - c0) G.
Proof.
  intros. unfold l2_map. f_equal. rewrite (rr_shrink 0 n r0 r1) by (auto; intros r Hr Ho; apply rr_0; intros c Hc; zif; rewrite Cmod_0; ring).
  replace (zrange r0 r1) with (zrange (0 + r0) (r1 - r0 + r0)) by (f_equal; lia). rewrite <- (rr_shift 0 (r1 - r0) r0). apply rr_ext. intros r Hr.
  rewrite (rr_shrink 0 m c0 c1) by (auto; intros c Hc Ho; zif; rewrite Cmod_0; ring).
  replace (zrange c0 c1) with (zrange (0 + c0) (c1 - c0 + c0)) by (f_equal; lia). rewrite <- (rr_shift 0 (c1 - c0) c0). apply rr_ext. intros c Hc.
  repeat zif. repeat f_equal; lia.
Qed.
Lemma rel_pad a e n m s d r0 r1 c0 c1 : rel a e (r1 - r0) (c1 - c0) s d -> (0 <= r0)%Z -> (r0 <= r1)%Z -> (r1 <= n)%Z -> (0 <= c0)%Z -> (c0 <= c1)%Z -> (c1 <= m)%Z ->
  exists a' e', slice2_set (czeros n m) r0 r1 c0 c1 a = Ok a' /\ slice2_set (czeros n m) r0 r1 c0 c1 e = Ok e' /\ rel a' e' n m s d.
Proof.
  intros R Hr0 Hr Hr1 Hc0 Hc Hc1. destruct (rel_mat _ _ _ _ _ _ R) as [MA ME]. destruct R as (_ & _ & R1 & R2).
  assert (MZ : is_mat (czeros n m) n m (fun _ _ => RtoC 0)) by apply is_mat_mat.
  destruct (slice2_set_ok (czeros n m) a n m _ _ r0 r1 c0 c1 MZ MA Hr0 Hr Hr1 Hc0 Hc Hc1) as (a' & Ea & Ha).
  destruct (slice2_set_ok (czeros n m) e n m _ _ r0 r1 c0 c1 MZ ME Hr0 Hr Hr1 Hc0 Hc Hc1) as (e' & Ee & He).
  exists a', e'. split; [exact Ea|]. split; [exact Ee|]. apply (rel_intro _ _ _ _ _ _ _ _ Ha He).
  - rewrite sq2_pad by auto. exact R1.
  - rewrite (map_ext n m _ (fun r c => if (r0 <=? r)%Z && (r <? r1)%Z && (c0 <=? c)%Z && (c <? c1)%Z then (at2 a (r - r0) (c - c0) - at2 e (r - r0) (c - c0))%C else RtoC 0)).
    + rewrite (sq2_pad n m r0 r1 c0 c1 (fun r c => at2 a r c - at2 e r c)%C) by auto. exact R2.
    + intros r c _ _. destruct (_ && _ && _ && _); ring.
Qed.
(** rows r1..n-1 are the mirrored rows of an earlier block *)
Lemma sq2_mirror n m k F (h : Z -> Z) (g : Z -> Z -> Z) : (0 <= k <= n)%Z -> (0 < m)%Z ->
  (forall r, (k <= r < n)%Z -> (0 <= h r < k)%Z) -> (forall r r', (k <= r < n)%Z -> (k <= r' < n)%Z -> h r = h r' -> r = r') ->
  (forall r, (k <= r < n)%Z -> rsum (zrange 0 m) (fun c => Cmod (F (h r) (g r c)) * Cmod (F (h r) (g r c))) = rsum (zrange 0 m) (fun c => Cmod (F (h r) c) * Cmod (F (h r) c))) ->
  l2_map n m (fun r c => if (r <? k)%Z then F r c else F (h r) (g r c)) <= 3 / 2 * l2_map k m F.
Proof.
  intros Hk Hm H1 H2 H3. apply map_le_sq; [lra|]. unfold sq2. set (q := fun r => rsum (zrange 0 m) (fun c => Cmod (F r c) * Cmod (F r c))).
  assert (Q0 : forall r, 0 <= q r) by (intros; apply sq_nonneg). rewrite (rr_split 0 k n) by lia.
  rewrite (rr_ext 0 k _ q) by (intros r Hr; unfold q; apply rr_ext; intros c Hc; now zif).
  rewrite (rr_ext k n _ (fun r => q (h r))) by (intros r Hr; unfold q; rewrite <- H3 by exact Hr; apply rr_ext; intros c Hc; now zif).
  assert (P : rsum (zrange k n) (fun r => q (h r)) <= rsum (zrange 0 k) q).
  { rewrite <- (rs_map h (zrange k n) q).
    assert (ND : NoDup (map h (zrange k n))).
    { apply NoDup_map_inj_in; [|apply zrange_NoDup]. intros x y Hx Hy. apply in_zrange in Hx, Hy. now apply H2. }
    assert (IN : forall x, In x (map h (zrange k n)) -> In x (zrange 0 k)).
    { intros x Hx. apply in_map_iff in Hx. destruct Hx as (r & <- & Hr). apply in_zrange in Hr. apply in_zrange. now apply H1. }
    revert ND IN. generalize (map h (zrange k n)) as l. intros l ND IN.
    assert (G : forall l l' : list Z, NoDup l -> (forall x, In x l -> In x l') -> rsum l q <= rsum l' q).
    { clear -Q0. induction l as [|x l IH]; intros l' ND IN.
      - apply rs_nonneg. auto.
      - inversion ND; subst. destruct (in_split x l' (IN x (or_introl eq_refl))) as (l1 & l2 & ->).
        change (rsum (x :: l) q) with (q x + rsum l q). rewrite rs_app. change (rsum (x :: l2) q) with (q x + rsum l2 q).
        assert (rsum l q <= rsum (l1 ++ l2) q). { apply IH; [assumption|]. intros y Hy. assert (In y (l1 ++ x :: l2)) by (apply IN; now right).
          apply in_app_iff in H. apply in_app_iff. destruct H as [H|[->|H]]; auto. contradiction. }
        rewrite rs_app in H. lra. }
    now apply G. }
  pose proof (rs_nonneg (zrange 0 k) q (fun x _ => Q0 x)). fold q. lra.
Qed.

(** ** The Fourier transforms *)
Lemma trans_base g G s c n eps : (0 < n)%Z -> s = 1 \/ s = -1 -> 0 <= c -> transform_accurate g s c n eps ->
  (forall w, vlen w = n -> vlen (G w) = n /\ forall k, (0 <= k < n)%Z -> vat (G w) k = fourier_sums s c n (vat w) k) ->
  trans g G n (c * sqrt (IZR n)) eps.
Proof.
  intros Hn Hs Hc HT HG v w Hv Hw. destruct (HT v Hv) as [L1 A1]. destruct (HG w Hw) as [L2 A2].
  split; [exact L1|]. split; [exact L2|].
  assert (E : l2 n (vat (G w)) = l2 n (fourier_sums s c n (vat w))) by (apply nn_ext; intros k Hk; apply in_zrange in Hk; now apply A2).
  split; [rewrite E; now apply parseval|].
  rewrite <- (parseval s c n (vat v)), <- (parseval s c n (fun k => vat v k - vat w k)%C) by auto.
  assert (E2 : l2 n (fun k => vat (g v) k - vat (G w) k)%C =
    l2 n (fun k => (vat (g v) k - fourier_sums s c n (vat v) k) + fourier_sums s c n (fun k => vat v k - vat w k)%C k)%C).
  { apply nn_ext. intros k Hk. apply in_zrange in Hk. rewrite A2 by exact Hk. rewrite <- sums_minus. ring. }
  rewrite E2. eapply Rle_trans; [apply (nn_triang (zrange 0 n) (fun k => vat (g v) k - fourier_sums s c n (vat v) k)%C (fourier_sums s c n (fun k => vat v k - vat w k)%C))|].
  rewrite <- !l2_nn. apply Rplus_le_compat_r. exact A1.
Qed.
Lemma fftshift_l2 n (v : vec C) : (0 < n)%Z -> vlen v = n -> l2 n (vat (fftshift v)) = l2 n (vat v).
Proof. intros Hn Hv. unfold fftshift. cbn [vat]. rewrite Hv. exact (shift_perm n (n / 2) (vat v) Hn). Qed.
Lemma ifftshift_l2 n (x : Z -> C) : (0 < n)%Z -> l2 n (fun i => x ((i + n / 2) mod n)%Z) = l2 n x.
Proof.
  intros Hn. rewrite <- (shift_perm n (- (n / 2)) x Hn). apply nn_ext. intros i _. do 2 f_equal. lia.
Qed.
Lemma trans_after g G n c eps : (0 < n)%Z -> trans g G n c eps -> trans (fun v => fftshift (g v)) (fun v => fftshift (G v)) n c eps.
Proof.
  intros Hn HT v w Hv Hw. destruct (HT v w Hv Hw) as (L1 & L2 & H1 & H2). split; [exact L1|]. split; [exact L2|].
  split; [rewrite fftshift_l2 by auto; exact H1|]. eapply Rle_trans; [|exact H2]. right. unfold fftshift. cbn [vat]. rewrite L1, L2.
  exact (shift_perm n (n / 2) (fun k => vat (g v) k - vat (G w) k)%C Hn).
Qed.
Lemma trans_before g G n c eps : (0 < n)%Z -> trans g G n c eps -> trans (fun v => g (ifftshift v)) (fun v => G (ifftshift v)) n c eps.
Proof.
  intros Hn HT v w Hv Hw. destruct (HT (ifftshift v) (ifftshift w) Hv Hw) as (L1 & L2 & H1 & H2). split; [exact L1|]. split; [exact L2|].
  assert (E1 : forall x : vec C, vlen x = n -> l2 n (vat (ifftshift x)) = l2 n (vat x)).
  { intros x Hx. unfold ifftshift. cbn [vat]. rewrite Hx. exact (ifftshift_l2 n (vat x) Hn). }
  assert (E2 : l2 n (fun k => vat (ifftshift v) k - vat (ifftshift w) k)%C = l2 n (fun k => vat v k - vat w k)%C).
  { unfold ifftshift. cbn [vat]. rewrite Hv, Hw. exact (ifftshift_l2 n (fun k => vat v k - vat w k)%C Hn). }
  rewrite (E1 w Hw) in H1. rewrite (E1 v Hv), E2 in H2. now split.
Qed.
Lemma exact_sums n (w : vec C) k : (0 < n)%Z -> vlen w = n ->
  vat (fft_bwd w) k = fourier_sums (-1) 1 n (vat w) k /\ vat (fft_fwd w) k = fourier_sums (-1) (/ IZR n) n (vat w) k /\
  vat (ifft_bwd w) k = fourier_sums 1 (/ IZR n) n (vat w) k /\ vat (ifft_fwd w) k = fourier_sums 1 1 n (vat w) k.
Proof.
  intros Hn Hw. assert (N : IZR n <> 0) by (apply (IZR_neq n 0); lia).
  assert (P1 : vat (fft_bwd w) k = fourier_sums (-1) 1 n (vat w) k).
  { unfold fft_bwd, fourier_sums. cbn [vat]. rewrite Hw, Cmult_1_l. apply cr_ext. intros p Hp. f_equal. unfold root. f_equal. rewrite opp_IZR, mult_IZR. field. exact N. }
  assert (P2 : vat (ifft_fwd w) k = fourier_sums 1 1 n (vat w) k).
  { unfold ifft_fwd, fourier_sums. cbn [vat]. rewrite Hw, Cmult_1_l. apply cr_ext. intros p Hp. f_equal. unfold root. f_equal. rewrite mult_IZR. field. exact N. }
  assert (N' : RtoC (IZR n) <> RtoC 0) by (intros Q; now apply RtoC_inj in Q).
  split; [exact P1|]. split; [|split; [|exact P2]].
  - unfold fft_fwd. cbn [vmap vat]. rewrite P1, Hw, (sums_scale (-1) (/ IZR n)), RtoC_inv by exact N. unfold Cdiv. ring.
  - unfold ifft_bwd. cbn [vmap vat]. rewrite P2, Hw, (sums_scale 1 (/ IZR n)), RtoC_inv by exact N. unfold Cdiv. ring.
Qed.
Section Transforms.
  Variables (S : rffts) (n : Z) (eps : R).
  Hypothesis Hn : (0 < n)%Z.
  Hypothesis HS : transforms_accurate S n eps.
  Let q := sqrt (IZR n).
  Lemma q_pos : 0 < q /\ q * q = IZR n.
  Proof. assert (0 < IZR n) by (apply IZR_lt; lia). split; [now apply sqrt_lt_R0|]. apply sqrt_sqrt. lra. Qed.
  Lemma inv_q : / IZR n * q = / q.
  Proof. destruct q_pos as [Q1 Q2]. rewrite <- Q2. field. lra. Qed.
  Lemma t_fft : trans (fun v => fftshift (r_fft S v)) (fun v => fftshift (fft_bwd v)) n q eps.
  Proof.
    apply trans_after; [exact Hn|]. replace q with (1 * q) by ring. apply (trans_base _ _ (-1)); auto; [lra|apply HS|].
    intros w Hw. split; [exact Hw|]. intros k _. exact (proj1 (exact_sums n w k Hn Hw)).
  Qed.
  Lemma t_fft_fwd : trans (fun v => fftshift (r_fft_fwd S v)) (fun v => fftshift (fft_fwd v)) n (/ q) eps.
  Proof.
    apply trans_after; [exact Hn|]. rewrite <- inv_q. apply (trans_base _ _ (-1)); auto; [left; apply Rinv_0_lt_compat, IZR_lt; lia|apply HS|].
    intros w Hw. split; [exact Hw|]. intros k _. exact (proj1 (proj2 (exact_sums n w k Hn Hw))).
  Qed.
  Lemma t_ifft : trans (fun v => r_ifft S (ifftshift v)) (fun v => ifft_bwd (ifftshift v)) n (/ q) eps.
  Proof.
    apply (trans_before _ ifft_bwd); [exact Hn|]. rewrite <- inv_q. apply (trans_base _ _ 1); auto; [left; apply Rinv_0_lt_compat, IZR_lt; lia|apply HS|].
    intros w Hw. split; [exact Hw|]. intros k _. exact (proj1 (proj2 (proj2 (exact_sums n w k Hn Hw)))).
  Qed.
  Lemma t_ifft_fwd : trans (fun v => r_ifft_fwd S (ifftshift v)) (fun v => ifft_fwd (ifftshift v)) n q eps.
  Proof.
    apply (trans_before _ ifft_fwd); [exact Hn|]. replace q with (1 * q) by ring. apply (trans_base _ _ 1); auto; [lra|apply HS|].
    intros w Hw. split; [exact Hw|]. intros k _. exact (proj2 (proj2 (proj2 (exact_sums n w k Hn Hw)))).
  Qed.
End Transforms.

(** ** The products *)
Section Float.
  Variables (A : arith) (u eta : R).
  Hypothesis HA : rounded A u eta.
  Hypothesis Hu : u <= / 1000.
  Let u0 : 0 <= u := rd_u _ _ _ HA.
  Let e0 : 0 <= eta := rd_eta _ _ _ HA.

  Lemma mul_move (z z' w w' : C) t : Cmod w <= 1 -> Cmod (w' - w)%C <= t -> t <= 1 ->
    Cmod (cf_mul A z' w' - z * w)%C <= 1 * Cmod (z' - z)%C + ((10 * u + t) * Cmod z' + 8 * eta).
  Proof.
    intros H1 H2 H3. assert (E := cmul_err A u eta HA Hu z' w').
    assert (W : Cmod w' <= 2). { replace w' with (w + (w' - w))%C by ring. eapply Rle_trans; [apply Cmod_triangle|]. lra. }
    replace (cf_mul A z' w' - z * w)%C with ((cf_mul A z' w' - z' * w') + (z' * (w' - w) + (z' - z) * w))%C by ring.
    eapply Rle_trans; [apply Cmod_triangle|]. eapply Rle_trans; [apply Rplus_le_compat_l, Cmod_triangle|]. rewrite !Cmod_mult.
    pose proof (Cmod_ge_0 z'). pose proof (Cmod_ge_0 (z' - z)%C).
    assert (Cmod z' * Cmod w' <= Cmod z' * 2) by (now apply Rmult_le_compat_l). assert (5 * u * (Cmod z' * Cmod w') <= 5 * u * (Cmod z' * 2)) by (apply Rmult_le_compat_l; lra).
    assert (Cmod z' * Cmod (w' - w)%C <= Cmod z' * t) by (now apply Rmult_le_compat_l).
    assert (Cmod (z' - z)%C * Cmod w <= Cmod (z' - z)%C * 1) by (now apply Rmult_le_compat_l). lra.
  Qed.
  Lemma map_move n m (f g : Z -> Z -> C) (h : Z -> Z -> C) t d s : (0 <= n)%Z -> (0 <= m)%Z -> 0 <= t -> l2_map n m g <= d -> l2_map n m h <= s ->
    (forall r c, (0 <= r < n)%Z -> (0 <= c < m)%Z -> Cmod (f r c) <= 1 * Cmod (g r c) + (t * Cmod (h r c) + 8 * eta)) ->
    l2_map n m f <= d + (t * s + 8 * eta * sqrt (IZR n * IZR m)).
  Proof.
    intros Hn Hm Ht Hg Hh H. apply Rle_trans with (1 * l2_map n m g + 1 * l2_map n m (fun r c => RtoC (t * Cmod (h r c) + 8 * eta))).
    - apply map_comb; [lra|lra|]. intros r c Hr Hc. rewrite Cmod_R, Rabs_right; [rewrite !Rmult_1_l in *; rewrite <- (Rmult_1_l (Cmod (g r c))); auto|].
      apply Rle_ge. pose proof (Rmult_le_pos _ _ Ht (Cmod_ge_0 (h r c))). lra.
    - assert (l2_map n m (fun r c => RtoC (t * Cmod (h r c) + 8 * eta)) <= t * l2_map n m h + 8 * eta * l2_map n m (fun _ _ => RtoC 1)).
      { apply map_comb; [exact Ht|lra|]. intros r c Hr Hc. rewrite Cmod_1, Rmult_1_r, Cmod_R, Rabs_right; [lra|].
        apply Rle_ge. pose proof (Rmult_le_pos _ _ Ht (Cmod_ge_0 (h r c))). lra. }
      rewrite map_one in H0 by assumption. apply (Rmult_le_compat_l t) in Hh; [|exact Ht]. lra.
  Qed.
  Lemma rel_scale a e n m s d r0 r1 c0 c1 (w' w : Z -> Z -> C) t : rel a e n m s d -> (0 <= n)%Z -> (0 <= m)%Z ->
    (0 <= r0)%Z -> (r0 <= r1)%Z -> (r1 <= n)%Z -> (0 <= c0)%Z -> (c0 <= c1)%Z -> (c1 <= m)%Z -> 0 <= t <= 1 ->
    (forall r c, (0 <= r < r1 - r0)%Z -> (0 <= c < c1 - c0)%Z -> Cmod (w r c) = 1 /\ Cmod (w' r c - w r c)%C <= t) ->
    exists a' e', rs_scale A a r0 r1 c0 c1 w' = Ok a' /\ slice2_scale e r0 r1 c0 c1 w = Ok e' /\
      rel a' e' n m s (d + ((10 * u + t) * (s + d) + 8 * eta * sqrt (IZR n * IZR m))).
  Proof.
    intros R Hn Hm Hr0 Hr Hr1 Hc0 Hc Hc1 Ht HW. assert (SA := rel_size _ _ _ _ _ _ R). destruct (rel_mat _ _ _ _ _ _ R) as [MA ME]. destruct R as (_ & _ & R1 & R2).
    destruct (slice2_scale_ok e n m _ w r0 r1 c0 c1 ME Hr0 Hr Hr1 Hc0 Hc Hc1) as (e' & Ee & He).
    assert (MW : is_mat (mat (slice_len (dim0 a) r0 r1) (slice_len (dim1 a) c0 c1) w') (r1 - r0) (c1 - c0) w').
    { rewrite (is_mat_dim0 _ _ _ _ MA), (is_mat_dim1 _ _ _ _ MA). rewrite !slice_len_in by lia. apply is_mat_mat. }
    destruct (slice2_add_ok (cf_mul A) a _ n m _ _ r0 r1 c0 c1 MA MW Hr0 Hr Hr1 Hc0 Hc Hc1) as (a' & Ea & Ha).
    exists a', e'. split; [exact Ea|]. split; [exact Ee|]. apply (rel_intro _ _ _ _ _ _ _ _ Ha He).
    - eapply Rle_trans; [|exact R1]. rewrite !map_nn. apply nn_le. intros [r c] Hx. apply in_cells in Hx. cbn [fst snd].
      destruct ((r0 <=? r) && (r <? r1) && (c0 <=? c) && (c <? c1))%Z eqn:I; [|apply Rle_refl]. rewrite Cmod_mult, (proj1 (HW (r - r0) (c - c0) ltac:(lia) ltac:(lia)))%Z. lra.
    - apply (map_move n m _ (fun r c => at2 a r c - at2 e r c)%C (at2 a)); auto; [lra|]. intros r c Hr' Hc'. cbv beta.
      destruct ((r0 <=? r) && (r <? r1) && (c0 <=? c) && (c <? c1))%Z eqn:I.
      + destruct (HW (r - r0)%Z (c - c0)%Z ltac:(lia) ltac:(lia)) as [W1 W2]. apply mul_move; [lra|exact W2|lra].
      + pose proof (Rmult_le_pos (10 * u + t) (Cmod (at2 a r c)) ltac:(lra) (Cmod_ge_0 _)). lra.
  Qed.

  (** the phases of mw_to_mwss_theta *)
  Lemma rs_exp_err k n : (1 <= n)%Z -> (2 * Z.abs k <= n)%Z -> 2 * IZR n * eta <= u -> Cmod (rs_exp A k n - cis (- IZR k * PI / IZR n))%C <= 30 * u.
  Proof.
    intros Hn Hk HE. unfold rs_exp. set (N := IZR n) in *. assert (N1 : 1 <= N) by (apply IZR_le; lia). set (K := IZR k).
    assert (KN : 2 * Rabs K <= N) by (unfold K, N; rewrite <- abs_IZR, <- (mult_IZR 2); now apply IZR_le).
    rewrite opp_IZR. fold K. set (P := fpi A). assert (HP : Rabs (P - PI) <= u * PI + eta) by apply (rd_pi _ _ _ HA).
    assert (P4 := PI_4). assert (P0 := PI_RGT_0). assert (EN : 2 * eta <= u) by (assert (eta * 1 <= eta * N) by (now apply Rmult_le_compat_l); lra).
    assert (UP : u * PI <= u * 4) by (now apply Rmult_le_compat_l).
    set (x := fmul A (- K) P). assert (HX : Rabs (x - - K * P) <= u * Rabs (- K * P) + eta) by apply (rd_mul _ _ _ HA).
    set (r := fdiv A 1 N). assert (HR : Rabs (r - / N) <= u * / N + eta).
    { assert (Q := rd_div _ _ _ HA 1 N ltac:(lra)). unfold Rdiv in Q. rewrite Rmult_1_l in Q. rewrite (Rabs_right (/ N)) in Q by (apply Rle_ge; left; apply Rinv_0_lt_compat; lra). exact Q. }
    set (y := fmul A x r). assert (HY : Rabs (y - x * r) <= u * Rabs (x * r) + eta) by apply (rd_mul _ _ _ HA).
    set (V := / N) in *. assert (V0 : 0 < V) by (apply Rinv_0_lt_compat; lra). assert (NV : N * V = 1) by (apply Rinv_r; lra).
    assert (KV : Rabs K * V <= 1 / 2). { assert (2 * Rabs K * V <= N * V) by (apply Rmult_le_compat_r; lra). lra. }
    pose proof (Rabs_pos K) as K0. assert (V1 : V <= 1). { rewrite <- NV. assert (1 * V <= N * V) by (apply Rmult_le_compat_r; lra). lra. }
    assert (Pb : Rabs P <= 41 / 10). { replace P with (PI + (P - PI)) by ring. eapply Rle_trans; [apply Rabs_triang|]. rewrite (Rabs_right PI) by lra. lra. }
    rewrite Rabs_mult, Rabs_Ropp in HX. assert (KP : Rabs K * Rabs P <= Rabs K * (41 / 10)) by (now apply Rmult_le_compat_l).
    assert (UKP : u * (Rabs K * Rabs P) <= u * (Rabs K * (41 / 10))) by (now apply Rmult_le_compat_l).
    assert (HX2 : Rabs (x - - K * PI) <= 81 / 10 * (u * Rabs K) + eta * Rabs K + eta).
    { replace (x - - K * PI) with ((x - - K * P) + - K * (P - PI)) by ring. eapply Rle_trans; [apply Rabs_triang|]. rewrite (Rabs_mult (- K)), Rabs_Ropp.
      assert (Rabs K * Rabs (P - PI) <= Rabs K * (u * 4 + eta)) by (apply Rmult_le_compat_l; lra). lra. }
    assert (UK : u * Rabs K * V <= u * (1 / 2)) by (rewrite Rmult_assoc; now apply Rmult_le_compat_l).
    assert (EK : eta * Rabs K * V <= eta * (1 / 2)) by (rewrite Rmult_assoc; now apply Rmult_le_compat_l).
    assert (EV : eta * V <= eta * 1) by (now apply Rmult_le_compat_l).
    assert (XV : Rabs ((x - - K * PI) * V) <= 405 / 100 * u + 3 / 2 * eta).
    { rewrite Rabs_mult, (Rabs_right V) by lra. apply (Rmult_le_compat_r V) in HX2; [|lra]. lra. }
    assert (XB : Rabs x <= 42 / 10 * Rabs K + 2 * eta + 3 * eta * Rabs K).
    { replace x with ((x - - K * PI) + - K * PI) by ring. eapply Rle_trans; [apply Rabs_triang|]. rewrite (Rabs_mult (- K) PI), Rabs_Ropp, (Rabs_right PI) by lra.
      assert (Rabs K * PI <= Rabs K * 4) by (apply Rmult_le_compat_l; lra). assert (u * Rabs K <= / 1000 * Rabs K) by (now apply Rmult_le_compat_r).
      assert (0 <= eta * Rabs K) by (now apply Rmult_le_pos). lra. }
    assert (e1 : eta <= / 2000) by lra.
    assert (EtK : eta * Rabs K <= / 2000 * Rabs K) by (now apply Rmult_le_compat_r).
    assert (XB2 : Rabs x <= 43 / 10 * Rabs K + / 1000) by lra.
    assert (XR : Rabs (x * (r - V)) <= 34 / 10 * u).
    { rewrite Rabs_mult. apply Rle_trans with ((43 / 10 * Rabs K + / 1000) * (u * V + eta)).
      - apply Rmult_le_compat; try apply Rabs_pos; assumption.
      - assert (Rabs K * eta <= 1 / 4 * u). { assert (2 * Rabs K * eta <= N * eta) by (apply Rmult_le_compat_r; lra). lra. }
        assert (u * V <= u * 1) by (now apply Rmult_le_compat_l). lra. }
    assert (Y1 : Rabs (x * r - - K * PI * V) <= 82 / 10 * u).
    { replace (x * r - - K * PI * V) with (x * (r - V) + (x - - K * PI) * V) by ring. eapply Rle_trans; [apply Rabs_triang|]. lra. }
    assert (Y2 : Rabs (x * r) <= 21 / 10).
    { replace (x * r) with ((x * r - - K * PI * V) + - K * PI * V) by ring. eapply Rle_trans; [apply Rabs_triang|].
      replace (- K * PI * V) with (- (K * V * PI)) at 2 by ring. rewrite Rabs_Ropp, !Rabs_mult, (Rabs_right V), (Rabs_right PI) by lra.
      assert (Rabs K * V * PI <= 1 / 2 * 4) by (apply Rmult_le_compat; try lra; apply Rmult_le_pos; lra). lra. }
    assert (Y3 : Rabs (y - - K * PI * V) <= 11 * u).
    { replace (y - - K * PI * V) with ((y - x * r) + (x * r - - K * PI * V)) by ring. eapply Rle_trans; [apply Rabs_triang|].
      assert (u * Rabs (x * r) <= u * (21 / 10)) by (now apply Rmult_le_compat_l). lra. }
    change (- K * PI / N) with (- K * PI * V). set (x0 := - K * PI * V) in *.
    assert (C1 := rd_cos _ _ _ HA y). assert (C2 := rd_sin _ _ _ HA y). assert (C3 := cos_lip y x0). assert (C4 := sin_lip y x0).
    unfold cis. match goal with |- Cmod ?z <= _ => replace z with ((fcos A y - cos x0), (fsin A y - sin x0)) by reflexivity end.
    eapply Rle_trans; [apply Cmod_parts|]. cbn [Re Im fst snd].
    replace (fcos A y - cos x0) with ((fcos A y - cos y) + (cos y - cos x0)) by ring. replace (fsin A y - sin x0) with ((fsin A y - sin y) + (sin y - sin x0)) by ring.
    eapply Rle_trans; [apply Rplus_le_compat; apply Rabs_triang|]. lra.
  Qed.
End Float.
