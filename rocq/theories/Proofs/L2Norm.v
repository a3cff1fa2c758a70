(** Euclidean norms of vectors and maps of complex numbers. *)
From Coq Require Import Reals Lra Lia ZifyBool Permutation.
From Coquelicot Require Import Coquelicot.
From Verif Require Import Lib.Py Lib.PyFacts Lib.Vec Lib.VecFacts Lib.Sums Lib.Cplx Lib.Arr Lib.MatFacts Model.FFT Model.ResamplingFloat
  Spec.ResamplingFloatSpec Proofs.SpectralBound Proofs.ResamplingProofs.
Open Scope R_scope.

Section Gen.
  Context {X : Type}.
  Definition nn (l : list X) (f : X -> C) : R := sqrt (rsum l (fun x => Cmod (f x) * Cmod (f x))).
  Lemma sq_nonneg l (f : X -> C) : 0 <= rsum l (fun x => Cmod (f x) * Cmod (f x)).
  Proof. apply rs_nonneg. intros x _. pose proof (Cmod_ge_0 (f x)). nra. Qed.
  Lemma nn_nonneg l f : 0 <= nn l f.
  Proof. apply sqrt_pos. Qed.
  Lemma nn_sq l f : nn l f * nn l f = rsum l (fun x => Cmod (f x) * Cmod (f x)).
  Proof. apply sqrt_sqrt, sq_nonneg. Qed.
  Lemma nn_triang l f g : nn l (fun x => f x + g x)%C <= nn l f + nn l g.
  Proof.
    apply Rsqr_incr_0_var; [|pose proof (nn_nonneg l f); pose proof (nn_nonneg l g); lra]. unfold Rsqr. rewrite nn_sq.
    replace ((nn l f + nn l g) * (nn l f + nn l g)) with (nn l f * nn l f + 2 * (nn l f * nn l g) + nn l g * nn l g) by ring. rewrite !nn_sq.
    assert (H := cauchy l (fun x => Cmod (f x)) (fun x => Cmod (g x))). cbv beta in H. fold (nn l f) (nn l g) in H.
    apply Rle_trans with (rsum l (fun x => (Cmod (f x) * Cmod (f x) + 2 * (Cmod (f x) * Cmod (g x))) + Cmod (g x) * Cmod (g x))).
    - apply rs_le. intros x _. pose proof (Cmod_triangle (f x) (g x)). pose proof (Cmod_ge_0 (f x + g x)%C). pose proof (Cmod_ge_0 (f x)). pose proof (Cmod_ge_0 (g x)).
      replace (Cmod (f x) * Cmod (f x) + 2 * (Cmod (f x) * Cmod (g x)) + Cmod (g x) * Cmod (g x)) with ((Cmod (f x) + Cmod (g x)) * (Cmod (f x) + Cmod (g x))) by ring.
      apply Rmult_le_compat; assumption.
    - rewrite !rs_plus, rs_scal_l. pose proof (Rle_abs (rsum l (fun x => Cmod (f x) * Cmod (g x)))). lra.
  Qed.
  Lemma nn_le l f g : (forall x, In x l -> Cmod (f x) <= Cmod (g x)) -> nn l f <= nn l g.
  Proof. intros H. apply sqrt_le_1_alt, rs_le. intros x Hx. specialize (H x Hx). apply Rmult_le_compat; try apply Cmod_ge_0; assumption. Qed.
  Lemma nn_ext l f g : (forall x, In x l -> f x = g x) -> nn l f = nn l g.
  Proof. intros H. unfold nn. f_equal. apply rs_ext. intros x Hx. now rewrite H. Qed.
  Lemma nn_scal l c f : nn l (fun x => c * f x)%C = Cmod c * nn l f.
  Proof.
    unfold nn. rewrite (rs_ext l _ (fun x => (Cmod c * Cmod c) * (Cmod (f x) * Cmod (f x)))) by (intros; rewrite Cmod_mult; ring).
    rewrite rs_scal_l, sqrt_mult_alt by (pose proof (Cmod_ge_0 c); nra). f_equal. apply sqrt_square, Cmod_ge_0.
  Qed.
  (** entrywise bounds by a combination *)
  Lemma nn_comb l f g h a b : 0 <= a -> 0 <= b -> (forall x, In x l -> Cmod (f x) <= a * Cmod (g x) + b * Cmod (h x)) -> nn l f <= a * nn l g + b * nn l h.
  Proof.
    intros Ha Hb H. apply Rle_trans with (nn l (fun x => RtoC a * RtoC (Cmod (g x)) + RtoC b * RtoC (Cmod (h x)))%C).
    - apply nn_le. intros x Hx. rewrite <- !RtoC_mult, <- RtoC_plus, Cmod_R. specialize (H x Hx).
      assert (0 <= a * Cmod (g x) + b * Cmod (h x)) by (pose proof (Cmod_ge_0 (f x)); lra). rewrite Rabs_right; lra.
    - eapply Rle_trans; [apply (nn_triang l (fun x => RtoC a * RtoC (Cmod (g x)))%C (fun x => RtoC b * RtoC (Cmod (h x)))%C)|]. rewrite !nn_scal, !Cmod_R, !(Rabs_right a), !(Rabs_right b) by lra.
      assert (E : forall k : X -> C, nn l (fun x => RtoC (Cmod (k x))) = nn l k).
      { intros k. unfold nn. f_equal. apply rs_ext. intros x _. rewrite Cmod_R, Rabs_right; [reflexivity|]. apply Rle_ge, Cmod_ge_0. }
      rewrite !E. lra.
  Qed.
End Gen.

Lemma prod_sum {X Y} (l : list X) (k : list Y) (f : X * Y -> R) : rsum (list_prod l k) f = rsum l (fun x => rsum k (fun y => f (x, y))).
Proof.
  induction l as [|x l IH]; [reflexivity|]. cbn [list_prod]. rewrite rs_app, rs_map, IH. reflexivity.
Qed.
Definition cells (n m : Z) : list (Z * Z) := list_prod (zrange 0 n) (zrange 0 m).
Lemma in_cells n m r c : In (r, c) (cells n m) <-> ((0 <= r < n)%Z /\ (0 <= c < m)%Z).
Proof. unfold cells. rewrite in_prod_iff, !in_zrange. reflexivity. Qed.
Lemma map_nn n m f : l2_map n m f = nn (cells n m) (fun q => f (fst q) (snd q)).
Proof. unfold l2_map, nn, cells. rewrite prod_sum. reflexivity. Qed.
Lemma l2_nn n x : l2 n x = nn (zrange 0 n) x.
Proof. reflexivity. Qed.

Lemma map_nonneg n m f : 0 <= l2_map n m f.
Proof. apply sqrt_pos. Qed.
Lemma map_ext n m f g : (forall r c, (0 <= r < n)%Z -> (0 <= c < m)%Z -> f r c = g r c) -> l2_map n m f = l2_map n m g.
Proof. intros H. rewrite !map_nn. apply nn_ext. intros [r c] Hx. apply in_cells in Hx. now apply H. Qed.
Lemma map_triang n m f g : l2_map n m (fun r c => f r c + g r c)%C <= l2_map n m f + l2_map n m g.
Proof. rewrite !map_nn. apply nn_triang. Qed.
Lemma map_comb n m f g h a b : 0 <= a -> 0 <= b -> (forall r c, (0 <= r < n)%Z -> (0 <= c < m)%Z -> Cmod (f r c) <= a * Cmod (g r c) + b * Cmod (h r c)) ->
  l2_map n m f <= a * l2_map n m g + b * l2_map n m h.
Proof. intros Ha Hb H. rewrite !map_nn. apply nn_comb; auto. intros [r c] Hx. apply in_cells in Hx. now apply H. Qed.
Lemma map_one n m : (0 <= n)%Z -> (0 <= m)%Z -> l2_map n m (fun _ _ => RtoC 1) = sqrt (IZR n * IZR m).
Proof.
  intros Hn Hm. unfold l2_map. f_equal. rewrite Cmod_1. rewrite sum_const by lia. rewrite sum_const by lia. ring.
Qed.
(** comparing sums of squares *)
Definition sq2 (n m : Z) (f : Z -> Z -> C) : R := rsum (zrange 0 n) (fun t => rsum (zrange 0 m) (fun p => Cmod (f t p) * Cmod (f t p))).
Lemma sq2_nonneg n m f : 0 <= sq2 n m f.
Proof. apply rs_nonneg. intros. apply sq_nonneg. Qed.
Lemma map_sq n m f : l2_map n m f * l2_map n m f = sq2 n m f.
Proof. apply sqrt_sqrt, sq2_nonneg. Qed.
Lemma map_le_sq n m n' m' f g c : 0 <= c -> sq2 n m f <= c * c * sq2 n' m' g -> l2_map n m f <= c * l2_map n' m' g.
Proof.
  intros Hc H. apply Rsqr_incr_0_var; [|apply Rmult_le_pos; [exact Hc|apply map_nonneg]]. unfold Rsqr. rewrite map_sq.
  replace (c * l2_map n' m' g * (c * l2_map n' m' g)) with (c * c * (l2_map n' m' g * l2_map n' m' g)) by ring. now rewrite map_sq.
Qed.
Lemma sq2_rows n m m' f g c : (forall r, (0 <= r < n)%Z -> l2 m' (f r) <= c * l2 m (g r)) -> 0 <= c -> l2_map n m' f <= c * l2_map n m g.
Proof.
  intros H Hc. apply map_le_sq; [exact Hc|]. unfold sq2. rewrite <- rs_scal_l. apply rr_le. intros r Hr. specialize (H r Hr).
  rewrite !l2_nn in H. rewrite <- !nn_sq. replace (c * c * (nn (zrange 0 m) (g r) * nn (zrange 0 m) (g r))) with ((c * nn (zrange 0 m) (g r)) * (c * nn (zrange 0 m) (g r))) by ring.
  apply Rmult_le_compat; try apply nn_nonneg; assumption.
Qed.
Lemma map_transpose n m f : l2_map n m f = l2_map m n (fun r c => f c r).
Proof. unfold l2_map. f_equal. apply rs_swap. Qed.
Lemma sq2_cols n n' m f g c : (forall p, (0 <= p < m)%Z -> l2 n' (fun r => f r p) <= c * l2 n (fun r => g r p)) -> 0 <= c -> l2_map n' m f <= c * l2_map n m g.
Proof. intros H Hc. rewrite (map_transpose n'), (map_transpose n). now apply sq2_rows. Qed.

(** ** Parseval *)
Lemma sums_dft n x k : (0 < n)%Z -> fourier_sums (-1) 1 n x k = dft n x k.
Proof.
  intros Hn. unfold fourier_sums, dft. rewrite Cmult_1_l. apply cr_ext. intros p Hp. f_equal. unfold root. f_equal. rewrite opp_IZR, mult_IZR.
  field. apply (IZR_neq n 0). lia.
Qed.
Lemma parseval_dft n x : (0 < n)%Z -> rsum (zrange 0 n) (fun k => Cmod (dft n x k) * Cmod (dft n x k)) = IZR n * rsum (zrange 0 n) (fun p => Cmod (x p) * Cmod (x p)).
Proof.
  intros Hn. apply RtoC_inj.
  assert (E : forall z : C, RtoC (Cmod z * Cmod z) = (z * Cconj z)%C).
  { intros z. unfold Cmod. rewrite sqrt_sqrt by (pose proof (pow2_ge_0 (fst z)); pose proof (pow2_ge_0 (snd z)); lra).
    unfold RtoC, Cmult, Cconj. destruct z as [a b]. cbn [fst snd]. f_equal; ring. }
  rewrite RtoC_mult, <- !csum_RtoC. rewrite (cr_ext 0 n _ (fun k => csum (zrange 0 n) (fun p => x p * (root n (- (k * p)) * Cconj (dft n x k))))%C).
  2:{ intros k Hk. rewrite E. unfold dft at 1. rewrite <- cs_scal_r. apply cr_ext. intros; ring. }
  rewrite cs_swap, <- cs_scal_l. apply cr_ext. intros p Hp. rewrite cs_scal_l, E.
  assert (I := idft_dft n x p 0 Hn Hp). rewrite Z.add_0_l in I.
  assert (N0 : RtoC (IZR n) <> RtoC 0) by (intros Q; apply RtoC_inj in Q; apply (IZR_neq n 0) in Q; [exact Q|lia]).
  assert (J : csum (zrange 0 n) (fun m => (dft n x m * root n (m * p))%C) = (RtoC (IZR n) * x p)%C) by (rewrite <- I; field; exact N0).
  rewrite (cr_ext 0 n _ (fun k => Cconj (dft n x k * root n (k * p)))%C).
  2:{ intros k Hk. rewrite Cconj_mult, <- root_opp. ring. }
  rewrite <- csum_conj, J, Cconj_mult, Cconj_R. ring.
Qed.
Lemma Cmod_conj' z : Cmod (Cconj z) = Cmod z.
Proof. unfold Cmod, Cconj. cbn [fst snd]. f_equal. ring. Qed.
Lemma sums_conj c n x k : (0 < n)%Z -> fourier_sums 1 c n x k = Cconj (fourier_sums (-1) c n (fun p => Cconj (x p)) k).
Proof.
  intros Hn. unfold fourier_sums. rewrite Cconj_mult, Cconj_R, csum_conj. f_equal. apply cr_ext. intros p Hp. rewrite Cconj_mult, Cconj_conj, cis_conj. f_equal. f_equal. ring.
Qed.
Lemma sums_scale s c n x k : fourier_sums s c n x k = (RtoC c * fourier_sums s 1 n x k)%C.
Proof. unfold fourier_sums. now rewrite Cmult_1_l. Qed.
Lemma parseval s c n x : (0 < n)%Z -> s = 1 \/ s = -1 -> 0 <= c -> l2 n (fourier_sums s c n x) = c * sqrt (IZR n) * l2 n x.
Proof.
  intros Hn Hs Hc. rewrite !l2_nn. rewrite (nn_ext _ _ (fun k => RtoC c * fourier_sums s 1 n x k)%C) by (intros; apply sums_scale).
  rewrite nn_scal, Cmod_R, Rabs_right by lra. rewrite Rmult_assoc. f_equal. unfold nn at 1 2. rewrite <- sqrt_mult_alt by (apply IZR_le; lia). f_equal.
  assert (P : forall y, rsum (zrange 0 n) (fun k => Cmod (fourier_sums (-1) 1 n y k) * Cmod (fourier_sums (-1) 1 n y k)) = IZR n * rsum (zrange 0 n) (fun p => Cmod (y p) * Cmod (y p))).
  { intros y. rewrite <- parseval_dft by exact Hn. apply rr_ext. intros k Hk. now rewrite sums_dft. }
  destruct Hs as [->| ->]; [|apply P].
  rewrite (rr_ext 0 n _ (fun k => Cmod (fourier_sums (-1) 1 n (fun p => Cconj (x p)) k) * Cmod (fourier_sums (-1) 1 n (fun p => Cconj (x p)) k))).
  2:{ intros k Hk. now rewrite sums_conj, Cmod_conj' by exact Hn. }
  rewrite P. f_equal. apply rr_ext. intros p Hp. now rewrite Cmod_conj'.
Qed.
Lemma sums_minus s c n x y k : (fourier_sums s c n x k - fourier_sums s c n y k)%C = fourier_sums s c n (fun p => x p - y p)%C k.
Proof. unfold fourier_sums. match goal with |- (_ * ?a - _ * ?b)%C = _ => replace (RtoC c * a - RtoC c * b)%C with (RtoC c * (a - b))%C by ring end. rewrite <- cs_minus. f_equal. apply cr_ext. intros; ring. Qed.
Lemma sums_ext s c n x y k : (forall p, (0 <= p < n)%Z -> x p = y p) -> fourier_sums s c n x k = fourier_sums s c n y k.
Proof. intros H. unfold fourier_sums. f_equal. apply cr_ext. intros p Hp. now rewrite H. Qed.
(** permutations of the entries *)
Lemma l2_perm n x h h' : (0 < n)%Z -> (forall i, (0 <= i < n)%Z -> (0 <= h i < n)%Z /\ h' (h i) = i) -> (forall i, (0 <= i < n)%Z -> (0 <= h' i < n)%Z /\ h (h' i) = i) ->
  l2 n (fun i => x (h i)) = l2 n x.
Proof.
  intros Hn H1 H2. unfold l2. f_equal. rewrite <- (rs_map h (zrange 0 n) (fun i => Cmod (x i) * Cmod (x i))). apply rs_perm.
  apply NoDup_Permutation.
  - apply NoDup_map_inj_in; [|apply zrange_NoDup]. intros a b Ha Hb E. apply in_zrange in Ha, Hb. rewrite <- (proj2 (H1 a Ha)), E. now apply H1.
  - apply zrange_NoDup.
  - intros i. rewrite in_map_iff. setoid_rewrite in_zrange. split.
    + intros (a & <- & Ha). now apply H1.
    + intros Hi. exists (h' i). split; apply H2; exact Hi.
Qed.
Lemma shift_perm n k x : (0 < n)%Z -> l2 n (fun i => x ((i - k) mod n)%Z) = l2 n x.
Proof.
  intros Hn. apply (l2_perm n x (fun i => ((i - k) mod n)%Z) (fun i => ((i + k) mod n)%Z) Hn); intros i Hi; (split; [now apply Z.mod_pos_bound|]).
  - rewrite Zplus_mod_idemp_l. replace (i - k + k)%Z with i by lia. now apply Z.mod_small.
  - rewrite Zminus_mod_idemp_l. replace (i + k - k)%Z with i by lia. now apply Z.mod_small.
Qed.
