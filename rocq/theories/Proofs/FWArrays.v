(** Arrays with three axes and the building blocks of the Fourier-Wigner transforms. *)
From Coq Require Import Reals ZifyBool Lra.
From Coquelicot Require Import Coquelicot.
From Verif Require Import Lib.Py Lib.PyFacts Lib.Vec Lib.VecFacts Lib.Sums Lib.Cplx Lib.Arr Lib.ArrFacts Lib.MatFacts
  Model.Samples Model.FFT Model.HealpixFFT Model.Risbo Model.Resampling Model.Quadrature Model.Spherical Model.Precompute Model.Wigner
  Model.FourierWigner Spec.WignerSpec Spec.SphereSpec Spec.FourierWignerSpec Proofs.RisboProofs Proofs.QuadProofs Proofs.PrecomputeKernel Proofs.WignerInverse.
Open Scope Z_scope.

Section Map3.
  Context {T : Type} (g : vec T -> vec T) (a : ndarray T) (n l m n' : Z) (F : Z -> Z -> Z -> T).
  Hypothesis (Ha : is_arr3 a n l m F) (Hg : vext g).
  Lemma map3_0_ok : (forall v, vlen v = n -> vlen (g v) = n') ->
    is_arr3 (map3_0 g a) n' l m (fun i j k => vat (g (mkVec n (fun i => F i j k))) i).
  Proof.
    intros Hn. destruct (is_arr3_dims _ _ _ _ _ Ha) as (D0 & D1 & D2). unfold map3_0. rewrite D0, D1, D2.
    rewrite Hn by reflexivity. eapply is_arr3_ext; [apply is_arr3_arr3|]. intros i j k Hi Hj Hk.
    assert (E : veq (mkVec n (fun i => at3 a i j k)) (mkVec n (fun i => F i j k))).
    { split; [reflexivity|]. intros q Hq. cbn [vlen vat] in *. now apply (proj2 Ha). }
    apply (proj2 (Hg _ _ E)). now rewrite Hn.
  Qed.
  Lemma map3_1_ok : (forall v, vlen v = l -> vlen (g v) = n') ->
    is_arr3 (map3_1 g a) n n' m (fun i j k => vat (g (mkVec l (fun j => F i j k))) j).
  Proof.
    intros Hn. destruct (is_arr3_dims _ _ _ _ _ Ha) as (D0 & D1 & D2). unfold map3_1. rewrite D0, D1, D2.
    rewrite Hn by reflexivity. eapply is_arr3_ext; [apply is_arr3_arr3|]. intros i j k Hi Hj Hk.
    assert (E : veq (mkVec l (fun j => at3 a i j k)) (mkVec l (fun j => F i j k))).
    { split; [reflexivity|]. intros q Hq. cbn [vlen vat] in *. now apply (proj2 Ha). }
    apply (proj2 (Hg _ _ E)). now rewrite Hn.
  Qed.
  Lemma map3_2_ok : (forall v, vlen v = m -> vlen (g v) = n') ->
    is_arr3 (map3_2 g a) n l n' (fun i j k => vat (g (mkVec m (fun k => F i j k))) k).
  Proof.
    intros Hn. destruct (is_arr3_dims _ _ _ _ _ Ha) as (D0 & D1 & D2). unfold map3_2. rewrite D0, D1, D2.
    rewrite Hn by reflexivity. eapply is_arr3_ext; [apply is_arr3_arr3|]. intros i j k Hi Hj Hk.
    assert (E : veq (mkVec m (fun k => at3 a i j k)) (mkVec m (fun k => F i j k))).
    { split; [reflexivity|]. intros q Hq. cbn [vlen vat] in *. now apply (proj2 Ha). }
    apply (proj2 (Hg _ _ E)). now rewrite Hn.
  Qed.
End Map3.

Lemma corner_ok {T} op (a b : ndarray T) s n m F G : 0 <= s -> 0 <= n ->
  is_arr3 a (n + s) (n + s) m F -> is_arr3 b n n m G ->
  exists a', corner_op op a s b = Ok a' /\ is_arr3 a' (n + s) (n + s) m (fun i j k =>
    if (s <=? i) && (s <=? j) then op (F i j k) (G (i - s) (j - s) k) else F i j k).
Proof.
  intros Hs Hn Ha Hb. destruct (is_arr3_dims _ _ _ _ _ Ha) as (D0 & D1 & D2). destruct (is_arr3_dims _ _ _ _ _ Hb) as (E0 & E1 & E2).
  unfold corner_op. rewrite D0, D1, D2, E0, E1, E2. rewrite slice_len_in, slice_lo_in by lia.
  replace (n =? n + s - s) with true by lia. rewrite Z.eqb_refl. cbn [andb]. eexists. split; [reflexivity|].
  eapply is_arr3_ext; [apply is_arr3_arr3|]. intros i j k Hi Hj Hk. cbv beta zeta.
  replace (0 <=? i - s) with (s <=? i) by lia. replace (0 <=? j - s) with (s <=? j) by lia.
  rewrite (proj2 Ha) by auto. destruct (Z.leb_spec s i); destruct (Z.leb_spec s j); cbn [andb]; try reflexivity.
  now rewrite (proj2 Hb) by lia.
Qed.
Lemma take_last3_ok {T} (a : ndarray T) n l m F lo hi : is_arr3 a n l m F -> 0 <= lo -> hi <= m ->
  exists a', take_last3 a lo hi = Ok a' /\ is_arr3 a' n l (hi - lo) (fun i j k => F i j (lo + k)).
Proof.
  intros Ha Hlo Hhi. destruct (is_arr3_dims _ _ _ _ _ Ha) as (D0 & D1 & D2). unfold take_last3. rewrite D0, D1, D2.
  replace (forallb _ (zrange lo hi)) with true.
  - eexists. split; [reflexivity|]. eapply is_arr3_ext; [apply is_arr3_arr3|]. intros i j k Hi Hj Hk. cbv beta.
    rewrite norm_in by lia. apply (proj2 Ha); lia.
  - symmetry. apply forallb_forall. intros x Hx. apply in_zrange in Hx. now rewrite norm_in by lia.
Qed.
Lemma take_last2_ok {T} (a : ndarray T) n m F lo hi : is_mat a n m F -> 0 <= lo -> hi <= m ->
  exists a', take_last2 a lo hi = Ok a' /\ is_mat a' n (hi - lo) (fun i k => F i (lo + k)).
Proof.
  intros Ha Hlo Hhi. unfold take_last2. rewrite (is_mat_dim0 _ _ _ _ Ha), (is_mat_dim1 _ _ _ _ Ha).
  replace (forallb _ (zrange lo hi)) with true.
  - eexists. split; [reflexivity|]. eapply is_mat_ext; [apply is_mat_mat|]. intros i k Hi Hk. cbv beta.
    rewrite norm_in by lia. apply (proj2 Ha); lia.
  - symmetry. apply forallb_forall. intros x Hx. apply in_zrange in Hx. now rewrite norm_in by lia.
Qed.
Lemma mid_get_ok {T} (a : ndarray T) n l m F el : is_arr3 a n l m F -> 0 <= el < l ->
  exists p, mid_get a el = Ok p /\ is_mat p n m (fun i k => F i el k).
Proof.
  intros Ha He. destruct (is_arr3_dims _ _ _ _ _ Ha) as (D0 & D1 & D2). unfold mid_get. rewrite D0, D1, D2, norm_in by auto.
  eexists. split; [reflexivity|]. eapply is_mat_ext; [apply is_mat_mat|]. intros. now apply (proj2 Ha).
Qed.

(** ** einsum *)
Lemma nlm_lam_lan_ok f d dn n l m a F D Dn : is_arr3 f n l m F -> is_arr3 d l a m D -> is_arr3 dn l a n Dn ->
  exists r, einsum_nlm_lam_lan f d dn = Ok r /\
    is_arr3 r a m n (fun a m n => csum (zrange 0 l) (fun l => (F n l m * RtoC (D l a m) * RtoC (Dn l a n))%C)).
Proof.
  intros Hf Hd Hn. unfold einsum_nlm_lam_lan. destruct (is_arr3_dims _ _ _ _ _ Hf) as (F0 & F1 & F2). rewrite F0, F1, F2.
  destruct (is_arr3_dims _ _ _ _ _ Hd) as (D0 & D1 & D2). rewrite D0, D1, D2.
  destruct (is_arr3_dims _ _ _ _ _ Hn) as (N0 & N1 & N2). rewrite N0, N1, N2. rewrite !Z.eqb_refl. cbn [andb].
  eexists. split; [reflexivity|]. eapply is_arr3_ext; [apply is_arr3_arr3|]. intros i j k Hi Hj Hk. cbv beta. apply cr_ext. intros x Hx.
  now rewrite (proj2 Hf), (proj2 Hd), (proj2 Hn).
Qed.
Lemma nm_am_an_ok f d dn n m a F D Dn : is_mat f n m F -> is_mat d a m D -> is_mat dn a n Dn ->
  exists r, einsum_nm_am_an f d dn = Ok r /\ is_arr3 r a m n (fun a m n => (F n m * RtoC (D a m) * RtoC (Dn a n))%C).
Proof.
  intros Hf Hd Hn. unfold einsum_nm_am_an.
  rewrite (is_mat_dim0 _ _ _ _ Hf), (is_mat_dim1 _ _ _ _ Hf), (is_mat_dim0 _ _ _ _ Hd), (is_mat_dim1 _ _ _ _ Hd),
    (is_mat_dim0 _ _ _ _ Hn), (is_mat_dim1 _ _ _ _ Hn), !Z.eqb_refl. cbn [andb].
  eexists. split; [reflexivity|]. eapply is_arr3_ext; [apply is_arr3_arr3|]. intros i j k Hi Hj Hk. cbv beta.
  now rewrite (proj2 Hf), (proj2 Hd), (proj2 Hn).
Qed.
Lemma amn_m_n_a_ok x (vm vn va : vec C) a m n F : is_arr3 x a m n F -> vlen vm = m -> vlen vn = n -> vlen va = a ->
  exists r, einsum_amn_m_n_a x vm vn va = Ok r /\ is_arr3 r n a m (fun n a m => (F a m n * vat vm m * vat vn n * vat va a)%C).
Proof.
  intros Hx Hm Hn Ha. unfold einsum_amn_m_n_a. destruct (is_arr3_dims _ _ _ _ _ Hx) as (-> & -> & ->). rewrite Hm, Hn, Ha, !Z.eqb_refl.
  cbn [andb]. eexists. split; [reflexivity|]. eapply is_arr3_ext; [apply is_arr3_arr3|]. intros i j k Hi Hj Hk. cbv beta.
  now rewrite (proj2 Hx).
Qed.
Lemma ntm_m_n_ok x (vm vn : vec C) n t m F : is_arr3 x n t m F -> vlen vm = m -> vlen vn = n ->
  exists r, einsum_ntm_m_n x vm vn = Ok r /\ is_arr3 r n t m (fun n t m => (F n t m * vat vm m * vat vn n)%C).
Proof.
  intros Hx Hm Hn. unfold einsum_ntm_m_n. destruct (is_arr3_dims _ _ _ _ _ Hx) as (-> & -> & ->). rewrite Hm, Hn, !Z.eqb_refl.
  cbn [andb]. eexists. split; [reflexivity|]. eapply is_arr3_ext; [apply is_arr3_arr3|]. intros i j k Hi Hj Hk. cbv beta.
  now rewrite (proj2 Hx).
Qed.
Lemma nam_lam_lan_ok x d dn n l m a F D Dn : is_arr3 x n a m F -> is_arr3 d l a m D -> is_arr3 dn l a n Dn ->
  exists r, einsum_nam_lam_lan x d dn = Ok r /\
    is_arr3 r n l m (fun n l m => csum (zrange 0 a) (fun a => (F n a m * RtoC (D l a m) * RtoC (Dn l a n))%C)).
Proof.
  intros Hf Hd Hn. unfold einsum_nam_lam_lan. destruct (is_arr3_dims _ _ _ _ _ Hf) as (F0 & F1 & F2). rewrite F0, F1, F2.
  destruct (is_arr3_dims _ _ _ _ _ Hd) as (D0 & D1 & D2). rewrite D0, D1, D2.
  destruct (is_arr3_dims _ _ _ _ _ Hn) as (N0 & N1 & N2). rewrite N0, N1, N2. rewrite !Z.eqb_refl. cbn [andb].
  eexists. split; [reflexivity|]. eapply is_arr3_ext; [apply is_arr3_arr3|]. intros i j k Hi Hj Hk. cbv beta. apply cr_ext. intros y Hy.
  now rewrite (proj2 Hf), (proj2 Hd), (proj2 Hn).
Qed.
Lemma nam_am_an_ok x d dn n m a F D Dn : is_arr3 x n a m F -> is_mat d a m D -> is_mat dn a n Dn ->
  exists r, einsum_nam_am_an x d dn = Ok r /\
    is_mat r n m (fun n m => csum (zrange 0 a) (fun a => (F n a m * RtoC (D a m) * RtoC (Dn a n))%C)).
Proof.
  intros Hf Hd Hn. unfold einsum_nam_am_an. destruct (is_arr3_dims _ _ _ _ _ Hf) as (F0 & F1 & F2). rewrite F0, F1, F2.
  rewrite (is_mat_dim0 _ _ _ _ Hd), (is_mat_dim1 _ _ _ _ Hd), (is_mat_dim0 _ _ _ _ Hn), (is_mat_dim1 _ _ _ _ Hn), !Z.eqb_refl. cbn [andb].
  eexists. split; [reflexivity|]. eapply is_mat_ext; [apply is_mat_mat|]. intros i k Hi Hk. cbv beta. apply cr_ext. intros y Hy.
  now rewrite (proj2 Hf), (proj2 Hd), (proj2 Hn).
Qed.
Lemma einsum_nlm_l_ok a n l m F (w : vec C) : is_arr3 a n l m F -> vlen w = l ->
  exists r, einsum_nlm_l a w = Ok r /\ is_arr3 r n l m (fun n l m => (F n l m * vat w l)%C).
Proof.
  intros H Hw. unfold einsum_nlm_l. destruct (is_arr3_dims _ _ _ _ _ H) as (D0 & D1 & D2). rewrite D1, Hw, Z.eqb_refl.
  eexists. split; [reflexivity|]. split; [exact (proj1 H)|]. intros i j k Hi Hj Hk. unfold at3 at 1. cbn [get nth].
  now rewrite <- (proj2 H i j k).
Qed.
Lemma planes_from_ok {T} (a : ndarray T) n l m F s : is_arr3 a n l m F -> 0 <= s <= n ->
  is_arr3 (planes_from a s) (n - s) l m (fun i => F (s + i)).
Proof.
  intros [Hs Hg] H. unfold planes_from. rewrite Hs. cbn [hd tl]. split; [cbn [shape]; now rewrite slice_len_in by lia|].
  intros i j k Hi Hj Hk. unfold at3. cbn [get hd tl]. rewrite slice_lo_in by lia. apply Hg; lia.
Qed.
Lemma concat1_ok {T} (a b : ndarray T) n l l' m F G : is_arr3 a n l m F -> is_arr3 b n l' m G ->
  exists r, concat1 a b = Ok r /\ is_arr3 r n (l + l') m (fun i j k => if j <? l then F i j k else G i (j - l) k).
Proof.
  intros Ha Hb. unfold concat1. destruct (is_arr3_dims _ _ _ _ _ Ha) as (A0 & A1 & A2). destruct (is_arr3_dims _ _ _ _ _ Hb) as (B0 & B1 & B2).
  rewrite A0, A1, A2, B0, B1, B2, !Z.eqb_refl. cbn [andb]. eexists. split; [reflexivity|].
  eapply is_arr3_ext; [apply is_arr3_arr3|]. intros i j k Hi Hj Hk. cbv beta. destruct (Z.ltb_spec j l).
  - now rewrite (proj2 Ha) by lia.
  - now rewrite (proj2 Hb) by lia.
Qed.
Lemma concat0_ok {T} (a b : ndarray T) n n' l m F G : is_arr3 a n l m F -> is_arr3 b n' l m G ->
  exists r, concat0 a b = Ok r /\ is_arr3 r (n + n') l m (fun i j k => if i <? n then F i j k else G (i - n) j k).
Proof.
  intros Ha Hb. unfold concat0. destruct (is_arr3_dims _ _ _ _ _ Ha) as (A0 & A1 & A2). destruct (is_arr3_dims _ _ _ _ _ Hb) as (B0 & B1 & B2).
  rewrite A0, A1, A2, B0, B1, B2, !Z.eqb_refl. cbn [andb]. eexists. split; [reflexivity|].
  eapply is_arr3_ext; [apply is_arr3_arr3|]. intros i j k Hi Hj Hk. cbv beta. destruct (Z.ltb_spec i n).
  - now rewrite (proj2 Ha) by lia.
  - now rewrite (proj2 Hb) by lia.
Qed.
Lemma amap3_ok {T} (g : T -> T) (a : ndarray T) n l m F : is_arr3 a n l m F -> is_arr3 (amap g a) n l m (fun i j k => g (F i j k)).
Proof. intros [Hs Hg]. split; [exact Hs|]. intros i j k Hi Hj Hk. unfold amap, at3. cbn [get]. f_equal. now apply Hg. Qed.
Lemma zeros3 {T} (z : T) n l m : is_arr3 (zeros z [n; l; m]) n l m (fun _ _ _ => z).
Proof. split; reflexivity. Qed.
Lemma vext_pad lo hi : 0 <= lo -> vext (vpad lo hi).
Proof.
  intros Hlo v w [E1 E2]. unfold vpad. split; cbn [vlen vat]; [now rewrite E1|]. intros i Hi. rewrite <- E1.
  destruct (Z.leb_spec lo i); cbn [andb]; [|reflexivity]. destruct (Z.ltb_spec i (lo + vlen v)); [|reflexivity]. apply E2. lia.
Qed.
Lemma vext_slice {A B} (g : vec A -> vec B) s (e : Z) : vext g -> vext (fun v => vslice (g v) s e).
Proof.
  intros Hg v w E. destruct (Hg _ _ E) as [E1 E2]. unfold vslice. split; cbn [vlen vat]; [now rewrite E1|]. intros i Hi. rewrite <- E1.
  apply E2. unfold slice_len, slice_lo, clamp in *. lia.
Qed.
Lemma vext_vrev {A} : vext (@vrev A).
Proof. intros v w [E1 E2]. unfold vrev. split; cbn [vlen vat]; [exact E1|]. intros i Hi. rewrite <- E1. apply E2. lia. Qed.
Lemma vext_irfft n : 1 <= n -> Z.even n = false -> vext (fun v => irfft_fwd v n).
Proof.
  intros Hn He v w [E1 E2]. unfold irfft_fwd. split; cbn [vlen vat]; [reflexivity|]. intros p Hp. rewrite He, <- E1.
  assert (E : forall k, 0 <= k -> (if k <? vlen v then vat v k else RtoC 0) = (if k <? vlen v then vat w k else RtoC 0)).
  { intros k Hk. destruct (Z.ltb_spec k (vlen v)); [|reflexivity]. apply E2. lia. }
  f_equal. f_equal. f_equal.
  - now rewrite E by lia.
  - f_equal. apply rr_ext. intros k Hk. now rewrite E by lia.
Qed.
Lemma vext_rfft_fwd : vext rfft_fwd.
Proof.
  intros v w [E1 E2]. unfold rfft_fwd, rfft_bwd, vmap. split; cbn [vlen vat]; [now rewrite E1|]. intros k Hk. rewrite <- E1. f_equal.
  unfold fft_bwd, real_part, vmap. cbn [vlen vat]. rewrite <- E1. apply cr_ext. intros p Hp. now rewrite E2 by lia.
Qed.

(** ** Powers of i *)
Lemma ipow_cis k : ipow k = cis (IZR k * (PI / 2)).
Proof.
  unfold ipow. pose proof (Z.mod_pos_bound k 4 ltac:(lia)) as Hm. pose proof (Z.div_mod k 4 ltac:(lia)) as Hk.
  assert (E : cis (IZR k * (PI / 2)) = cis (IZR (k mod 4) * (PI / 2))).
  { rewrite Hk at 1. rewrite plus_IZR, mult_IZR. rewrite <- (cis_period (IZR (k mod 4) * (PI / 2)) (k / 4)). f_equal. field. }
  rewrite E. assert (Hc : k mod 4 = 0 \/ k mod 4 = 1 \/ k mod 4 = 2 \/ k mod 4 = 3) by lia.
  destruct Hc as [-> | [-> | [-> | ->]]].
  - now rewrite Rmult_0_l, cis_0.
  - now rewrite Rmult_1_l, cis_PI2.
  - replace (2 * (PI / 2))%R with PI by field. now rewrite cis_PI.
  - replace (3 * (PI / 2))%R with (PI + PI / 2)%R by field. rewrite cis_plus, cis_PI, cis_PI2. apply C_eq; cbn; ring.
Qed.
Lemma ipow_add a b : ipow (a + b) = (ipow a * ipow b)%C.
Proof. rewrite !ipow_cis, plus_IZR, <- cis_plus. f_equal. ring. Qed.
Lemma ipow_inv a : (ipow a * ipow (- a))%C = RtoC 1.
Proof. rewrite !ipow_cis, opp_IZR. rewrite <- (cis_inv (IZR a * (PI / 2))). f_equal. f_equal. ring. Qed.

(** ** The d-matrices at pi/2 *)
Lemma fw_risbo_ok b L el d : 0 <= el < L ->
  (if el =? 0 then arr_eq d (zeros 0%R [2 * L - 1; 2 * L - 1]) else holds L (el - 1) (PI / 2) d) ->
  exists d', fw_risbo b d L el = Ok d' /\ holds L el (PI / 2) d'.
Proof.
  intros He Hd. pose proof PI_RGT_0. destruct b; cbn [fw_risbo].
  - destruct (step_ok L (PI / 2) el d He Hd) as (a & E & Ha). exists a. split; [|exact Ha].
    unfold risbo_full. rewrite args_ok; [exact E|lia|lra|]. destruct (el =? 0); [apply (proj1 Hd)|apply (proj1 Hd)].
  - apply jax_step_ok; auto.
Qed.
Lemma holds_mat L el beta d : holds L el beta d ->
  is_mat d (2 * L - 1) (2 * L - 1) (fun r c => wigner_d el (r - (L - 1)) (c - (L - 1)) beta).
Proof.
  intros [Hs Hg]. split; [exact Hs|]. intros r c Hr Hc. unfold at2. rewrite <- Hg by lia. f_equal. f_equal; [lia|]. f_equal. lia.
Qed.
Lemma quarter_arr3 L delta : quarter_matrices L delta ->
  is_arr3 delta L (2 * L - 1) (2 * L - 1) (fun l r c => wigner_d l (r - (L - 1)) (c - (L - 1)) (PI / 2)).
Proof.
  intros [Hs Hg]. split; [exact Hs|]. intros l r c Hl Hr Hc. unfold at3. rewrite <- Hg by lia. f_equal. f_equal. f_equal; [lia|]. f_equal. lia.
Qed.
(** a loop over the degrees that carries the matrix *)
Lemma fw_loop {X} b L (P : Z -> X -> Prop) (step : X * ndarray R -> Z -> result (X * ndarray R)) x0 : 0 <= L ->
  P 0 x0 ->
  (forall el st d, 0 <= el < L -> P el (fst st) -> fw_risbo b (snd st) L el = Ok d -> holds L el (PI / 2) d ->
     exists x', step st el = Ok (x', d) /\ P (el + 1) x') ->
  exists st, foldM step (zrange 0 L) (x0, zeros 0%R [2 * L - 1; 2 * L - 1]) = Ok st /\ P L (fst st).
Proof.
  intros HL H0 HS.
  destruct (foldM_inv (fun el st => P el (fst st) /\
      (if el =? 0 then arr_eq (snd st) (zeros 0%R [2 * L - 1; 2 * L - 1]) else holds L (el - 1) (PI / 2) (snd st)))
    step 0 L (x0, zeros 0%R [2 * L - 1; 2 * L - 1])) as (st & E & HP & _).
  - lia.
  - split; [exact H0|]. apply arr_eq_refl.
  - intros el st Hel (HP & Hd). destruct (fw_risbo_ok b L el (snd st) Hel Hd) as (d & E & Hd').
    destruct (HS el st d Hel HP E Hd') as (y & E' & HP'). rewrite E'. eexists. split; [reflexivity|]. cbn [fst snd].
    split; [exact HP'|]. replace (el + 1 =? 0) with false by lia. now replace (el + 1 - 1) with el by lia.
  - exists st. auto.
Qed.

(** ** The weights *)
Lemma fw_weights_ok L : 1 <= L -> exists q, fw_weights L = Ok q /\ upsampled_weights L q.
Proof.
  intros HL. unfold fw_weights.
  destruct (vwrite_range (fun mm => mw_weights (- mm)) (2 * (L - 1)) (- (2 * (L - 1))) (2 * (L - 1) + 1) (vconst (4 * L - 3) (RtoC 0)))
    as (w & E & Hw & Hv); [lia|cbn [vlen vconst]; lia|].
  rewrite E. cbn [bind]. eexists. split; [reflexivity|]. cbn [vlen vconst] in Hw.
  split; [cbn [vlen ifft_fwd ifftshift]; exact Hw|]. intros j Hj.
  assert (Hn : IZR (4 * L - 3) <> 0%R) by (apply not_0_IZR; lia).
  assert (E1 : csum (zrange 0 (4 * L - 3)) (fun k => (vat (ifft_fwd (ifftshift w)) k * cis (IZR j * (2 * PI * IZR k / IZR (4 * L - 3))))%C)
    = csum (zrange 0 (4 * L - 3)) (fun p => (csum (zrange (- (2 * (L - 1))) (- (2 * (L - 1)) + (4 * L - 3)))
         (fun m => mw_weights (- m) * root (4 * L - 3) (m * p)) * root (4 * L - 3) (- (- j * p)))%C)).
  { apply cr_ext. intros k Hk. rewrite (ifft_ifftshift w (4 * L - 3)) by (auto; lia).
    replace ((4 * L - 3) / 2) with (2 * (L - 1)) by (apply Z.div_unique with 1; lia). f_equal.
    - apply cr_ext. intros m Hm. rewrite Hv. f_equal. replace (m + 2 * (L - 1) - 2 * (L - 1)) with m by lia. repeat zif. reflexivity.
    - unfold root. f_equal. rewrite opp_IZR, mult_IZR, opp_IZR. field. exact Hn. }
  rewrite E1, dft_inversion by lia. rewrite Z.opp_involutive.
  replace (RtoC (IZR (4 * L - 3)) * mw_weights j / RtoC (IZR (4 * L - 3)))%C with (mw_weights j).
  - symmetry. rewrite (is_RInt_unique _ _ _ _ (mw_cos j)), (is_RInt_unique _ _ _ _ (mw_sin j)). now destruct (mw_weights j).
  - field. intros H. apply Hn. now injection H.
Qed.
Lemma kernel_ok b L : 1 <= L -> exists delta q, fourier_wigner_kernel b L = Ok (delta, q) /\ fw_inputs L (Some (delta, q)).
Proof.
  intros HL. unfold fourier_wigner_kernel.
  destruct (fw_loop b L (fun el a => is_arr3 a L (2 * L - 1) (2 * L - 1)
      (fun l r c => if l <? el then wigner_d l (r - (L - 1)) (c - (L - 1)) (PI / 2) else 0%R))
    (fun st el => let* d := fw_risbo b (snd st) L el in let* deltas := plane_set (fst st) el d in Ok (deltas, d))
    (zeros 0%R [L; 2 * L - 1; 2 * L - 1])) as (st & E & HP).
  - lia.
  - eapply is_arr3_ext; [apply zeros3|]. intros. cbv beta. now zif.
  - intros el st d Hel HP E Hd. rewrite E. cbn [bind].
    destruct (plane_set_ok (fst st) d L [2 * L - 1; 2 * L - 1] el (proj1 HP) (proj1 Hd) Hel) as (a & -> & Hs & Hg). cbn [bind].
    exists a. split; [reflexivity|]. split; [exact Hs|]. intros i j k Hi Hj Hk. unfold at3. rewrite Hg.
    destruct (Z.eqb_spec i el) as [->|Hne].
    + replace (el <? el + 1) with true by lia. now rewrite <- (proj2 (holds_mat _ _ _ _ Hd) j k).
    + replace (i <? el + 1) with (i <? el) by lia. now apply (proj2 HP).
  - rewrite E. cbn [bind]. destruct (fw_weights_ok L HL) as (q & -> & Hq). cbn [bind]. exists (fst st), q. split; [reflexivity|].
    split; [|exact Hq]. split; [exact (proj1 HP)|]. intros l m n Hl Hm Hn.
    pose proof (proj2 HP l (m + L - 1) (n + L - 1)) as H. unfold at3 in H. rewrite H by lia. zif. f_equal; lia.
Qed.
