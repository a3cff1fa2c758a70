(** The transforms of batches of spin signals. *)
From Coq Require Import Reals ZifyBool Lra FunctionalExtensionality.
From Coquelicot Require Import Coquelicot.
From Verif Require Import Lib.Py Lib.PyFacts Lib.Vec Lib.VecFacts Lib.Sums Lib.Cplx Lib.Arr Lib.ArrFacts Lib.MatFacts
  Model.Samples Model.FFT Model.HealpixFFT Model.Risbo Model.Resampling Model.Quadrature Model.Spherical Model.Precompute Model.Wigner
  Model.FourierWigner Model.PrecomputeWigner Model.CustomOps Spec.WignerSpec Spec.SamplesSpec Spec.SphereSpec Spec.GridSpec Spec.HealpixFFTSpec
  Spec.SphericalSpec Spec.SO3Spec Spec.FourierWignerSpec Spec.CustomOpsSpec
  Proofs.RisboProofs Proofs.TurokProofs Proofs.QuadProofs Proofs.WignerCalc Proofs.SphereTheory Proofs.SphInverse Proofs.PrecomputeKernel Proofs.ResamplingProofs
  Proofs.WignerInverse Proofs.WignerRound Proofs.FWArrays Proofs.FWInverse Proofs.FWForward.
Open Scope string_scope.
Open Scope Z_scope.

(** ** Arrays with five axes *)
Definition is_arr5 {T} (a : ndarray T) (B n l m c : Z) (F : Z -> Z -> Z -> Z -> Z -> T) : Prop :=
  shape a = [B; n; l; m; c] /\
  forall i j k p q, 0 <= i < B -> 0 <= j < n -> 0 <= k < l -> 0 <= p < m -> 0 <= q < c -> at5 a i j k p q = F i j k p q.
Lemma is_arr5_arr5 {T} B n l m c (F : Z -> Z -> Z -> Z -> Z -> T) : is_arr5 (arr5 B n l m c F) B n l m c F.
Proof. split; reflexivity. Qed.
Lemma is_arr5_ext {T} (a : ndarray T) B n l m c F G : is_arr5 a B n l m c F ->
  (forall i j k p q, 0 <= i < B -> 0 <= j < n -> 0 <= k < l -> 0 <= p < m -> 0 <= q < c -> F i j k p q = G i j k p q) -> is_arr5 a B n l m c G.
Proof. intros [H1 H2] E. split; [exact H1|]. intros. rewrite H2 by auto. auto. Qed.
Lemma is_arr5_dims {T} (a : ndarray T) B n l m c F : is_arr5 a B n l m c F ->
  dim0 a = B /\ dim1 a = n /\ dim2 a = l /\ dim3 a = m /\ dim4 a = c.
Proof. intros [H _]. unfold dim0, dim1, dim2, dim3, dim4. rewrite H. auto 6. Qed.

Section Map5.
  Context {T : Type} (g : vec T -> vec T) (a : ndarray T) (B n l m c n' : Z) (F : Z -> Z -> Z -> Z -> Z -> T).
  Hypothesis (Ha : is_arr5 a B n l m c F) (Hg : vext g).
  Lemma map5_2_ok : (forall v, vlen v = l -> vlen (g v) = n') ->
    is_arr5 (map5_2 g a) B n n' m c (fun i j k p q => vat (g (mkVec l (fun k => F i j k p q))) k).
  Proof.
    intros Hn. destruct (is_arr5_dims _ _ _ _ _ _ _ Ha) as (D0 & D1 & D2 & D3 & D4). unfold map5_2. rewrite D0, D1, D2, D3, D4.
    rewrite Hn by reflexivity. eapply is_arr5_ext; [apply is_arr5_arr5|]. intros i j k p q Hi Hj Hk Hp Hq.
    assert (E : veq (mkVec l (fun k => at5 a i j k p q)) (mkVec l (fun k => F i j k p q))).
    { split; [reflexivity|]. intros r Hr. cbn [vlen vat] in *. now apply (proj2 Ha). }
    apply (proj2 (Hg _ _ E)). now rewrite Hn.
  Qed.
  Lemma map5_3_ok : (forall v, vlen v = m -> vlen (g v) = n') ->
    is_arr5 (map5_3 g a) B n l n' c (fun i j k p q => vat (g (mkVec m (fun p => F i j k p q))) p).
  Proof.
    intros Hn. destruct (is_arr5_dims _ _ _ _ _ _ _ Ha) as (D0 & D1 & D2 & D3 & D4). unfold map5_3. rewrite D0, D1, D2, D3, D4.
    rewrite Hn by reflexivity. eapply is_arr5_ext; [apply is_arr5_arr5|]. intros i j k p q Hi Hj Hk Hp Hq.
    assert (E : veq (mkVec m (fun p => at5 a i j k p q)) (mkVec m (fun p => F i j k p q))).
    { split; [reflexivity|]. intros r Hr. cbn [vlen vat] in *. now apply (proj2 Ha). }
    apply (proj2 (Hg _ _ E)). now rewrite Hn.
  Qed.
End Map5.

Lemma corner5_ok {T} (a b : ndarray T) s B n l c F G : 0 <= s -> 0 <= l ->
  is_arr5 a B n (l + s) (l + s) c F -> is_arr5 b B n l l c G ->
  exists a', corner_set5 a s b = Ok a' /\ is_arr5 a' B n (l + s) (l + s) c (fun i j k p q =>
    if (s <=? k) && (s <=? p) then G i j (k - s) (p - s) q else F i j k p q).
Proof.
  intros Hs Hn Ha Hb. destruct (is_arr5_dims _ _ _ _ _ _ _ Ha) as (D0 & D1 & D2 & D3 & D4). destruct (is_arr5_dims _ _ _ _ _ _ _ Hb) as (E0 & E1 & E2 & E3 & E4).
  unfold corner_set5. rewrite D0, D1, D2, D3, D4, E0, E1, E2, E3, E4. rewrite slice_len_in, slice_lo_in by lia.
  replace (l =? l + s - s) with true by lia. rewrite !Z.eqb_refl. cbn [andb]. eexists. split; [reflexivity|].
  eapply is_arr5_ext; [apply is_arr5_arr5|]. intros i j k p q Hi Hj Hk Hp Hq. cbv beta zeta.
  replace (0 <=? k - s) with (s <=? k) by lia. replace (0 <=? p - s) with (s <=? p) by lia.
  rewrite (proj2 Ha) by auto. destruct (Z.leb_spec s k); destruct (Z.leb_spec s p); cbn [andb]; try reflexivity.
  now rewrite (proj2 Hb) by lia.
Qed.
Lemma concat5_ok {T} (a b : ndarray T) B n l l' m c F G : is_arr5 a B n l m c F -> is_arr5 b B n l' m c G ->
  exists r, concat5 a b = Ok r /\ is_arr5 r B n (l + l') m c (fun i j k p q => if k <? l then F i j k p q else G i j (k - l) p q).
Proof.
  intros Ha Hb. destruct (is_arr5_dims _ _ _ _ _ _ _ Ha) as (D0 & D1 & D2 & D3 & D4). destruct (is_arr5_dims _ _ _ _ _ _ _ Hb) as (E0 & E1 & E2 & E3 & E4).
  unfold concat5. rewrite D0, D1, D2, D3, D4, E0, E1, E2, E3, E4, !Z.eqb_refl. cbn [andb]. eexists. split; [reflexivity|].
  eapply is_arr5_ext; [apply is_arr5_arr5|]. intros i j k p q Hi Hj Hk Hp Hq. cbv beta. destruct (Z.ltb_spec k l).
  - now rewrite (proj2 Ha) by lia.
  - now rewrite (proj2 Hb) by lia.
Qed.
(** the column an index denotes *)
Definition column (L k : Z) : Z := match norm_index (2 * L - 1) k with Some k' => k' | None => 0 end.
Lemma take_cols_ok {T} (a : ndarray T) n l L F ix : is_arr3 a n l (2 * L - 1) F ->
  (forall i, 0 <= i < vlen ix -> - (2 * L - 1) <= vat ix i < 2 * L - 1) ->
  exists a', take_cols a ix = Ok a' /\ is_arr3 a' n l (vlen ix) (fun i j k => F i j (column L (vat ix k))).
Proof.
  intros Ha Hix. destruct (is_arr3_dims _ _ _ _ _ Ha) as (D0 & D1 & D2). unfold take_cols. rewrite D0, D1, D2.
  assert (HN : forall i, 0 <= i < vlen ix -> exists k, norm_index (2 * L - 1) (vat ix i) = Some k /\ 0 <= k < 2 * L - 1).
  { intros i Hi. specialize (Hix i Hi). unfold norm_index.
    destruct (Z.leb_spec 0 (vat ix i)); [destruct (Z.ltb_spec (vat ix i) (2 * L - 1)); [|lia]|]; cbn [andb].
    - eexists. split; [reflexivity|lia].
    - replace (- (2 * L - 1) <=? vat ix i) with true by lia. replace (vat ix i <? 0) with true by lia. cbn [andb]. eexists. split; [reflexivity|lia]. }
  replace (forallb _ (zrange 0 (vlen ix))) with true.
  - eexists. split; [reflexivity|]. eapply is_arr3_ext; [apply is_arr3_arr3|]. intros i j k Hi Hj Hk. cbv beta. unfold column.
    destruct (HN k Hk) as (k' & -> & Hk'). apply (proj2 Ha); lia.
  - symmetry. apply forallb_forall. intros x Hx. apply in_zrange in Hx. destruct (HN x Hx) as (k' & -> & _). reflexivity.
Qed.
Lemma column_in L k : 0 <= k < 2 * L - 1 -> column L k = k.
Proof. intros H. unfold column. now rewrite norm_in. Qed.
Lemma zeros5 {T} (z : T) B n l m c : is_arr5 (zeros z [B; n; l; m; c]) B n l m c (fun _ _ _ _ _ => z).
Proof. split; reflexivity. Qed.

Lemma bnlmc_ok f d dn (w : vec C) B n l m c a F D Dn : is_arr5 f B n l m c F -> is_arr3 d l a m D -> is_arr3 dn l a n Dn -> vlen w = l ->
  exists r, einsum_bnlmc f d dn w = Ok r /\ is_arr5 r B n a m c (fun i n a m c =>
    csum (zrange 0 l) (fun l => (F i n l m c * RtoC (D l a m) * RtoC (Dn l a n) * vat w l)%C)).
Proof.
  intros Hf Hd Hn Hw. unfold einsum_bnlmc. destruct (is_arr5_dims _ _ _ _ _ _ _ Hf) as (F0 & F1 & F2 & F3 & F4). rewrite F0, F1, F2, F3, F4.
  destruct (is_arr3_dims _ _ _ _ _ Hd) as (D0 & D1 & D2). rewrite D0, D1, D2.
  destruct (is_arr3_dims _ _ _ _ _ Hn) as (N0 & N1 & N2). rewrite N0, N1, N2, Hw. rewrite !Z.eqb_refl. cbn [andb].
  eexists. split; [reflexivity|]. eapply is_arr5_ext; [apply is_arr5_arr5|]. intros i j k p q Hi Hj Hk Hp Hq. cbv beta. apply cr_ext. intros x Hx.
  now rewrite (proj2 Hf), (proj2 Hd), (proj2 Hn).
Qed.
Lemma m_n_a_ok x (vm vn va : vec C) B n a m c F : is_arr5 x B n a m c F -> vlen vm = m -> vlen vn = n -> vlen va = a ->
  exists r, einsum_m_n_a x vm vn va = Ok r /\ is_arr5 r B n a m c (fun i n a m c => (F i n a m c * vat vm m * vat vn n * vat va a)%C).
Proof.
  intros Hx Hm Hn Ha. unfold einsum_m_n_a. destruct (is_arr5_dims _ _ _ _ _ _ _ Hx) as (-> & -> & -> & -> & ->). rewrite Hm, Hn, Ha, !Z.eqb_refl.
  cbn [andb]. eexists. split; [reflexivity|]. eapply is_arr5_ext; [apply is_arr5_arr5|]. intros. cbv beta. now rewrite (proj2 Hx).
Qed.
Lemma m_n_ok x (vm vn : vec C) B n a m c F : is_arr5 x B n a m c F -> vlen vm = m -> vlen vn = n ->
  exists r, einsum_m_n x vm vn = Ok r /\ is_arr5 r B n a m c (fun i n a m c => (F i n a m c * vat vm m * vat vn n)%C).
Proof.
  intros Hx Hm Hn. unfold einsum_m_n. destruct (is_arr5_dims _ _ _ _ _ _ _ Hx) as (-> & -> & -> & -> & ->). rewrite Hm, Hn, !Z.eqb_refl.
  cbn [andb]. eexists. split; [reflexivity|]. eapply is_arr5_ext; [apply is_arr5_arr5|]. intros. cbv beta. now rewrite (proj2 Hx).
Qed.
Lemma t_ok x (vt : vec C) B n a m c F : is_arr5 x B n a m c F -> vlen vt = a ->
  exists r, einsum_t x vt = Ok r /\ is_arr5 r B n a m c (fun i n a m c => (F i n a m c * vat vt a)%C).
Proof.
  intros Hx Hm. unfold einsum_t. destruct (is_arr5_dims _ _ _ _ _ _ _ Hx) as (-> & -> & -> & -> & ->). rewrite Hm, !Z.eqb_refl.
  eexists. split; [reflexivity|]. eapply is_arr5_ext; [apply is_arr5_arr5|]. intros. cbv beta. now rewrite (proj2 Hx).
Qed.
Lemma bnamc_ok x d dn B n l m c a F D Dn : is_arr5 x B n a m c F -> is_arr3 d l a m D -> is_arr3 dn l a n Dn ->
  exists r, einsum_bnamc x d dn = Ok r /\ is_arr5 r B n l m c (fun i n l m c =>
    csum (zrange 0 a) (fun a => (F i n a m c * RtoC (D l a m) * RtoC (Dn l a n))%C)).
Proof.
  intros Hf Hd Hn. unfold einsum_bnamc. destruct (is_arr5_dims _ _ _ _ _ _ _ Hf) as (F0 & F1 & F2 & F3 & F4). rewrite F0, F1, F2, F3, F4.
  destruct (is_arr3_dims _ _ _ _ _ Hd) as (D0 & D1 & D2). rewrite D0, D1, D2.
  destruct (is_arr3_dims _ _ _ _ _ Hn) as (N0 & N1 & N2). rewrite N0, N1, N2. rewrite !Z.eqb_refl. cbn [andb].
  eexists. split; [reflexivity|]. eapply is_arr5_ext; [apply is_arr5_arr5|]. intros i j k p q Hi Hj Hk Hp Hq. cbv beta. apply cr_ext. intros y Hy.
  now rewrite (proj2 Hf), (proj2 Hd), (proj2 Hn).
Qed.
Lemma amap5_ok {T} (g : T -> T) (a : ndarray T) B n l m c F : is_arr5 a B n l m c F -> is_arr5 (amap g a) B n l m c (fun i j k p q => g (F i j k p q)).
Proof. intros [Hs Hg]. split; [exact Hs|]. intros i j k p q Hi Hj Hk Hp Hq. unfold amap, at5. cbn [get]. f_equal. now apply Hg. Qed.

(** spins for which the matrices are indexed within range, counting negative indices from the end *)
Definition spins_in (L : Z) (spins : vec Z) : Prop := forall i, 0 <= i < vlen spins -> - L < vat spins i <= 3 * L - 2.
Lemma below_in L spins : 1 <= L -> spins_below L spins -> spins_in L spins.
Proof. intros HL H i Hi. specialize (H i Hi). lia. Qed.

(** ** One signal *)
Section Scheme.
  Variables (s : scheme) (L : Z).
  Hypothesis (Hs : fw_scheme s) (HL : 1 <= L).
  Notation mo := (mo_of s).
  Notation size := (2 * L - 1 + mo).
  Notation th := (theta s L).

  (** the steps of the inverse transform for one signal with column k of the matrices *)
  Definition I1 (D : Z -> Z -> Z -> R) (k : Z) (c : Z -> Z -> C) (a m : Z) : C :=
    if (mo <=? a) && (mo <=? m)
    then csum (zrange 0 L) (fun l => (c l (m - mo)%Z * RtoC (D l (a - mo)%Z (m - mo)%Z) * RtoC (D l (a - mo)%Z k) * RtoC (sc l))%C) else RtoC 0.
  Definition I2 (D : Z -> Z -> Z -> R) (k n : Z) (c : Z -> Z -> C) (a m : Z) : C :=
    (I1 D k c a m * ipow (- (m - (L - 1 + mo))) * ipow n * cis (IZR (a - (L - 1 + mo)) * th0 s L))%C.
  Definition I3 (D : Z -> Z -> Z -> R) (k n : Z) (c : Z -> Z -> C) (t p : Z) : C :=
    csum (zrange (- (size / 2)) (- (size / 2) + size)) (fun m =>
      (csum (zrange (- (size / 2)) (- (size / 2) + size)) (fun a => (I2 D k n c (a + size / 2) (m + size / 2) * root size (a * t))%C) * root size (m * p))%C).

  Lemma inverse5 name flmn spins delta q B Ch F D :
    denotes name s -> is_arr5 flmn B (vlen spins) L (2 * L - 1) Ch F -> is_arr3 delta L (2 * L - 1) (2 * L - 1) D -> spins_in L spins ->
    exists f, wigner_subset_to_s2 flmn spins (delta, q) L name = Ok f /\
      is_arr5 f B (vlen spins) (L + mo) size Ch (fun b i t p c => I3 D (column L (L - 1 + - vat spins i)) (- vat spins i) (fun l m => F b i l m c) t p).
  Proof.
    intros Hd Hf HD Hsp. pose proof (mo_in s) as Hmo. assert (Hsz : 0 < size) by lia.
    assert (E0 : negb (str_in (lower name) ["mw"; "mwss"]) = false) by (rewrite Hd; destruct Hs as [-> | ->]; reflexivity).
    assert (E1 : (if streq (lower name) "mwss" then 1 else 0) = mo) by (rewrite Hd; destruct Hs as [-> | ->]; reflexivity).
    assert (E2 : (if streq (lower name) "mwss" then L + 1 else L) = L + mo) by (rewrite Hd; destruct Hs as [-> | ->]; cbn; lia).
    assert (E3 : (if streq (lower name) "mwss" then 0%R else (PI / IZR (2 * L - 1))%R) = th0 s L) by (rewrite Hd; unfold th0; destruct Hs as [-> | ->]; reflexivity).
    assert (E4 : (if streq (lower name) "mwss" then 2 * L else 2 * L - 1) = size) by (rewrite Hd; destruct Hs as [-> | ->]; cbn -[Z.mul]; lia).
    unfold wigner_subset_to_s2. cbv zeta. cbn [fst]. rewrite E0, E1, E2, E3, E4. clear E0 E1 E2 E3 E4.
    destruct (is_arr5_dims _ _ _ _ _ _ _ Hf) as (F0 & F1 & F2 & F3 & F4). rewrite F0, F1, F4, Z.eqb_refl. cbn [negb].
    destruct (take_cols_ok delta _ _ L _ (vmap (fun k => L - 1 + k) (vmap Z.opp spins)) HD) as (dn & -> & Hdn).
    { intros i Hi. cbn [vmap vlen vat] in *. specialize (Hsp i Hi). lia. }
    cbn [bind]. cbn [vmap vlen] in Hdn.
    destruct (bnlmc_ok flmn delta dn (mkVec L (fun l => RtoC (IZR (2 * l + 1) / (8 * PI ^ 2)))) _ _ _ _ _ _ _ _ _ Hf HD Hdn eq_refl) as (y & -> & Hy). cbn [bind].
    destruct (corner5_ok (zeros (RtoC 0) [B; vlen spins; size; size; Ch]) y mo _ _ (2 * L - 1) _ _ _ ltac:(lia) ltac:(lia) (zeros5 _ _ _ _ _ _) Hy) as (x & -> & Hx). cbn [bind].
    destruct (m_n_a_ok x (mkVec (L - (- L + 1 - mo)) (fun i => ipow (- (- L + 1 - mo + i)))) (vmap ipow (vmap Z.opp spins))
              (mkVec (L - (- L + 1 - mo)) (fun i => cis (IZR (- L + 1 - mo + i) * th0 s L))) _ _ _ _ _ _ Hx) as (x2 & -> & Hx2); try (cbn [vlen vmap]; lia).
    cbn [bind]. eexists. split; [reflexivity|].
    pose proof (map5_3_ok ifftshift _ _ _ _ _ _ size _ (map5_2_ok ifftshift _ _ _ _ _ _ size _ Hx2 vext_ifftshift ltac:(intros v Hv; exact Hv))
        vext_ifftshift ltac:(intros v Hv; exact Hv)) as H1.
    pose proof (map5_2_ok (fun v => vslice (ifft_fwd v) 0 (L + mo)) _ _ _ _ _ _ (L + mo) _ H1 (vext_slice _ _ _ vext_ifft_fwd)
      ltac:(intros v Hv; unfold vslice; cbn [vlen ifft_fwd]; rewrite slice_len_in by lia; lia)) as H2.
    pose proof (map5_3_ok ifft_fwd _ _ _ _ _ _ size _ H2 vext_ifft_fwd ltac:(intros v Hv; exact Hv)) as H3.
    eapply is_arr5_ext; [exact H3|]. clear H1 H2 H3. intros b i t p c Hb Hi Ht Hp Hc. cbv beta.
    set (k := column L (L - 1 + - vat spins i)). set (n := - vat spins i). set (cc := fun l m => F b i l m c).
    set (Y := I2 D k n cc).
    set (W := mkVec size (fun m => vat (ifft_fwd (ifftshift (mkVec size (fun a => Y a m)))) t)).
    transitivity (vat (ifft_fwd (ifftshift W)) p).
    - unfold ifft_fwd at 1 3. cbn [vlen vat W ifftshift]. apply cr_ext. intros m Hm. f_equal. unfold vslice. cbn [vlen ifft_fwd vat].
      rewrite slice_lo_in by lia. rewrite Z.add_0_l. apply cr_ext. intros a Ha. f_equal. cbn [vat vlen ifftshift vmap]. unfold Y, I2, I1.
      replace (- L + 1 - mo + (m + size / 2) mod size) with ((m + size / 2) mod size - (L - 1 + mo)) by lia.
      replace (- L + 1 - mo + (a + size / 2) mod size) with ((a + size / 2) mod size - (L - 1 + mo)) by lia. reflexivity.
    - rewrite (ifft_ifftshift W size) by (cbn [vlen W]; lia). unfold I3. apply cr_ext. intros m Hm. f_equal. cbn [W vat].
      rewrite (ifft_ifftshift _ size) by (cbn [vlen]; lia). apply cr_ext. intros a Ha. cbn [vat]. reflexivity.
  Qed.

  Lemma I3_synth delta n c t p : quarter_matrices L delta -> - L < n < L ->
    I3 (at3 delta) (column L (L - 1 + n)) n (fun l m => c l (m - (L - 1))) t p = part3 L n c (equi_longitude s L p) (th t).
  Proof.
    intros Hq Hn. pose proof (mo_in s) as Hmo. rewrite column_in by lia. destruct (quarter_arr3 _ _ Hq) as [_ HD].
    set (fl := arr3 (2 * L - 1) L (2 * L - 1) (fun _ l m => c l (m - (L - 1)))).
    assert (Hfl : forall n l m, stored3 L L fl n l m = c l m) by (intros; unfold stored3, fl; cbn [arr3 get nth]; f_equal; lia).
    transitivity (ring2 s L L fl n t p).
    - 
      transitivity (csum (zrange (- (size / 2)) (- (size / 2) + size)) (fun m =>
      (csum (zrange (- (size / 2)) (- (size / 2) + size)) (fun a =>
         (amn L L fl a m n * ipow (- m) * ipow n * cis (IZR a * th0 s L) * root size (a * t)))%C * root size (m * p))%C)).
      + unfold I3. apply cr_ext. intros m Hm. f_equal. apply cr_ext. intros a Ha. f_equal. unfold I2.
        rewrite fsize_half by auto. rewrite (fsize_half s L Hs) in Hm, Ha.
        replace (m + (L - 1 + mo) - (L - 1 + mo)) with m by lia. replace (a + (L - 1 + mo) - (L - 1 + mo)) with a by lia. f_equal. f_equal. f_equal.
        unfold I1. destruct (Z.leb_spec mo (a + (L - 1 + mo))); [destruct (Z.leb_spec mo (m + (L - 1 + mo)))|]; cbn [andb].
        * unfold amn. apply cr_ext. intros l Hl. rewrite Hfl. rewrite !HD by lia.
          replace (m + (L - 1 + mo) - mo - (L - 1)) with m by lia. replace (a + (L - 1 + mo) - mo - (L - 1)) with a by lia.
          replace (L - 1 + n - (L - 1)) with n by lia. ring.
        * symmetry. apply (amn_out L L fl false); [discriminate|]. right. destruct s; cbn [mo_of] in *; lia.
        * symmetry. apply (amn_out L L fl false); [discriminate|]. left. destruct s; cbn [mo_of] in *; lia.
      + pose proof (synth_sum s (scheme_name s) L L fl false Hs) as HS. rewrite <- HS; try lia; try discriminate.
        * destruct Hs as [-> | ->]; reflexivity.
        * destruct Hs as [-> | ->]; reflexivity.
    - unfold ring2. apply part3_ext. intros. apply Hfl.
  Qed.

  (** the steps of the forward transform for one signal *)
  Definition A1 (f : Z -> Z -> C) (t m : Z) : C := vat (fftshift (fft_fwd (mkVec size (fun p => f t p)))) (mo + m).
  Definition A2 (n : Z) (f : Z -> Z -> C) (t m : Z) : C :=
    if t <? L + mo then A1 f t m
    else (A1 f (2 * (L + mo) - 2 - t) m * RtoC (sgn (Z.abs (- L + 1 + m))) * RtoC (sgn (Z.abs n)))%C.
  Definition A3 (n : Z) (f : Z -> Z -> C) (a m : Z) : C :=
    (vat (fftshift (fft_fwd (mkVec size (fun t => A2 n f t m)))) a *
     match s with MW => cis (- IZR (- L + 1 + a) * PI / IZR (2 * L - 1)) | _ => RtoC 1 end)%C.
  Definition A4 (n : Z) (f : Z -> Z -> C) (a m : Z) : C :=
    if (L - 1 - mo <=? a) && (a <? L - 1 - mo + size) then A3 n f (a - (L - 1 - mo)) m else RtoC 0.
  Definition A5 (q : vec C) (n : Z) (f : Z -> Z -> C) (t m : Z) : C :=
    (vat (ifft_fwd (ifftshift (mkVec (4 * L - 3) (fun a => A4 n f a m)))) t * vat q t)%C.
  Definition A6 (q : vec C) (n : Z) (f : Z -> Z -> C) (a m : Z) : C :=
    vat (fftshift (fft_fwd (mkVec (4 * L - 3) (fun t => A5 q n f t m)))) (L - 1 + a).
  Definition A7 (D : Z -> Z -> Z -> R) (q : vec C) (k n : Z) (f : Z -> Z -> C) (l m : Z) : C :=
    (csum (zrange 0 (2 * L - 1)) (fun a => A6 q n f a m * RtoC (D l a m) * RtoC (D l a k))
      * ipow (- L + 1 + m) * ipow (- n) * RtoC ((2 * PI) ^ 2))%C.

  Lemma forward_start name fs spins B Ch F :
    denotes name s -> is_arr5 fs B (vlen spins) (L + mo) size Ch F ->
    exists temp x2 x3,
      einsum_m_n (map5_3 (fun v => vslice v mo (vlen v)) (map5_3 fftshift (map5_3 fft_fwd fs))) (abs_signs (- L + 1) L)
        (vmap (fun k => RtoC (sgn (Z.abs k))) (vmap Z.opp spins)) = Ok temp /\
      concat5 (map5_3 (fun v => vslice v mo (vlen v)) (map5_3 fftshift (map5_3 fft_fwd fs))) (map5_2 (fun v => vslice (vrev v) 1 L) temp) = Ok x2 /\
      (if streq (lower name) "mw"
            then einsum_t (map5_2 (fun v => fftshift (fft_fwd v)) x2) (mkVec (2 * L - 1) (fun i => cis (- IZR (- L + 1 + i) * PI / IZR (2 * L - 1))))
            else Ok (map5_2 (fun v => fftshift (fft_fwd v)) x2)) = Ok x3 /\
      is_arr5 x3 B (vlen spins) size (2 * L - 1) Ch (fun b i a m c => A3 (- vat spins i) (fun t p => F b i t p c) a m).
  Proof.
    intros Hd Hf. pose proof (mo_in s) as Hmo. assert (Hsz : 0 < size) by lia.
    pose proof (map5_3_ok fftshift _ _ _ _ _ _ size _ (map5_3_ok fft_fwd _ _ _ _ _ _ size _ Hf vext_fft_fwd ltac:(intros v Hv; exact Hv))
      vext_fftshift ltac:(intros v Hv; exact Hv)) as H1.
    assert (H2 : is_arr5 (map5_3 (fun v => vslice v mo (vlen v)) (map5_3 fftshift (map5_3 fft_fwd fs))) B (vlen spins) (L + mo) (2 * L - 1) Ch
      (fun b i t m c => A1 (fun t p => F b i t p c) t m)).
    { eapply is_arr5_ext; [apply (map5_3_ok (fun v => vslice v mo (vlen v)) _ _ _ _ _ _ (2 * L - 1) _ H1)|].
      - intros v w (El & E). unfold vslice. split; cbn [vlen]; [now rewrite El|]. intros i Hi. cbn [vat]. rewrite <- El. apply E.
        unfold slice_lo, clamp. unfold slice_len, clamp in Hi. lia.
      - intros v Hv. unfold vslice. cbn [vlen]. rewrite slice_len_in by lia. lia.
      - intros b i t m c Hb Hi Ht Hm Hc. cbv beta. rewrite vslice_in by (cbn [vlen]; lia). reflexivity. }
    clear H1. set (x1 := map5_3 _ _) in *. clearbody x1.
    destruct (m_n_ok x1 (abs_signs (- L + 1) L) (vmap (fun k => RtoC (sgn (Z.abs k))) (vmap Z.opp spins)) _ _ _ _ _ _ H2) as (temp & E & Ht);
      try (cbn [abs_signs vlen vmap]; lia).
    destruct (concat5_ok x1 _ _ _ _ _ _ _ _ _ H2 (map5_2_ok (fun v => vslice (vrev v) 1 L) _ _ _ _ _ _ (L - 1) _ Ht (vext_slice _ _ _ vext_vrev)
      ltac:(intros v Hv; unfold vslice; cbn [vlen vrev]; rewrite slice_len_in by lia; lia))) as (x2 & E' & Hx2).
    replace (L + mo + (L - 1)) with size in Hx2 by lia.
    assert (H3 : is_arr5 x2 B (vlen spins) size (2 * L - 1) Ch (fun b i t m c => A2 (- vat spins i) (fun t p => F b i t p c) t m)).
    { eapply is_arr5_ext; [exact Hx2|]. intros b i t m c Hb Hi Htt Hm Hc. cbv beta. unfold A2. destruct (Z.ltb_spec t (L + mo)); [reflexivity|].
      rewrite vslice_in by (cbn [vlen vrev]; lia). cbn [vat vlen vrev abs_signs vmap].
      replace (L + mo - 1 - (1 + (t - (L + mo)))) with (2 * (L + mo) - 2 - t) by lia. reflexivity. }
    clear Hx2.
    pose proof (map5_2_ok (fun v => fftshift (fft_fwd v)) _ _ _ _ _ _ size _ H3 vext_shift_fft_fwd ltac:(intros v Hv; exact Hv)) as H4.
    exists temp, x2. unfold denotes in Hd. rewrite Hd. destruct Hs as [Es | Es].
    - replace (streq (scheme_name s) "mw") with true by (rewrite Es; reflexivity). cbv iota.
      destruct (t_ok _ (mkVec (2 * L - 1) (fun i => cis (- IZR (- L + 1 + i) * PI / IZR (2 * L - 1)))) _ _ _ _ _ _ H4) as (x3 & E3 & Hx3);
        [rewrite Es; cbn [mo_of vlen]; lia|].
      exists x3. split; [exact E|]. split; [exact E'|]. split; [exact E3|]. eapply is_arr5_ext; [exact Hx3|]. intros b i a m c Hb Hi Ha Hm Hc. cbv beta.
      unfold A3. cbn [vat]. f_equal. rewrite Es. reflexivity.
    - replace (streq (scheme_name s) "mw") with false by (rewrite Es; reflexivity). cbv iota. eexists. split; [exact E|]. split; [exact E'|]. split; [reflexivity|].
      eapply is_arr5_ext; [exact H4|]. intros b i a m c Hb Hi Ha Hm Hc. cbv beta. unfold A3. symmetry.
      replace (match s with MW => _ | _ => RtoC 1 end) with (RtoC 1) by (rewrite Es; reflexivity). apply Cmult_1_r.
  Qed.

  Lemma forward5 name fs spins delta q B Ch F D :
    denotes name s -> (s = MWSS -> 2 <= L) -> is_arr5 fs B (vlen spins) (L + mo) size Ch F -> is_arr3 delta L (2 * L - 1) (2 * L - 1) D ->
    vlen q = 4 * L - 3 -> spins_in L spins ->
    exists r, s2_to_wigner_subset fs spins (delta, q) L name = Ok r /\
      is_arr5 r B (vlen spins) L (2 * L - 1) Ch (fun b i l m c => A7 D q (column L (L - 1 + - vat spins i)) (- vat spins i) (fun t p => F b i t p c) l m).
  Proof.
    intros Hd HL2 Hf HD Hq Hsp. pose proof (mo_in s) as Hmo. assert (Hsz : 0 < size) by lia.
    assert (E0 : negb (str_in (lower name) ["mw"; "mwss"]) = false) by (rewrite Hd; destruct Hs as [-> | ->]; reflexivity).
    assert (E1 : (if streq (lower name) "mwss" then 1 else 0) = mo) by (rewrite Hd; destruct Hs as [-> | ->]; reflexivity).
    assert (E2 : (if streq (lower name) "mwss" then L - 2 else L - 1) = L - 1 - mo) by (rewrite Hd; destruct Hs as [-> | ->]; cbn -[Z.sub]; lia).
    assert (HmL : mo <= L - 1) by (destruct Hs as [-> | ->]; cbn [mo_of]; [lia|specialize (HL2 eq_refl); lia]).
    unfold s2_to_wigner_subset. cbv zeta. cbn [fst snd]. rewrite E0, E1, E2. clear E0 E1 E2.
    destruct (forward_start name fs spins B Ch F Hd Hf) as (temp & x2 & x3 & -> & E & E' & H3). cbn [bind]. rewrite E. cbn [bind]. rewrite E'. cbn [bind].
    clear E E'. unfold pad5. replace ((L - 1 - mo <? 0) || (L - 1 <? 0)) with false by lia. cbn [bind].
    pose proof (map5_2_ok (vpad (L - 1 - mo) (L - 1)) _ _ _ _ _ _ (4 * L - 3) _ H3 (vext_pad (L - 1 - mo) (L - 1) ltac:(lia))
      ltac:(intros v Hv; cbn [vpad vlen]; lia)) as H4.
    pose proof (map5_2_ok (fun v => ifft_fwd (ifftshift v)) _ _ _ _ _ _ (4 * L - 3) _ H4 (vext_comp ifft_fwd ifftshift vext_ifft_fwd vext_ifftshift)
      ltac:(intros v Hv; exact Hv)) as H5.
    destruct (t_ok _ q _ _ _ _ _ _ H5 Hq) as (u & -> & Hu). cbn [bind].
    pose proof (map5_2_ok (fun v => vslice (fftshift (fft_fwd v)) (L - 1) (3 * L - 2)) _ _ _ _ _ _ (2 * L - 1) _ Hu (vext_slice _ _ _ vext_shift_fft_fwd)
      ltac:(intros v Hv; unfold vslice; cbn [vlen]; change (vlen (fftshift (fft_fwd v))) with (vlen v); rewrite slice_len_in by lia; lia)) as H6.
    assert (H7 : is_arr5 (map5_2 (fun v => vslice (fftshift (fft_fwd v)) (L - 1) (3 * L - 2)) u) B (vlen spins) (2 * L - 1) (2 * L - 1) Ch
      (fun b i a m c => A6 q (- vat spins i) (fun t p => F b i t p c) a m)).
    { eapply is_arr5_ext; [exact H6|]. intros b i a m c Hb Hi Ha Hm Hc. cbv beta.
      match goal with |- vat (vslice (fftshift (fft_fwd ?v)) _ _) _ = _ => set (V := v) end.
      rewrite vslice_in by (try lia; change (vlen (fftshift (fft_fwd V))) with (4 * L - 3); lia). reflexivity. }
    clear H3 H4 H5 Hu H6. set (x6 := map5_2 _ u) in *. clearbody x6.
    destruct (take_cols_ok delta _ _ L _ (vmap (fun k => L - 1 + k) (vmap Z.opp spins)) HD) as (dn & -> & Hdn).
    { intros i Hi. cbn [vmap vlen vat] in *. specialize (Hsp i Hi). lia. }
    cbn [bind]. cbn [vmap vlen] in Hdn.
    destruct (bnamc_ok x6 delta dn _ _ _ _ _ _ _ _ _ H7 HD Hdn) as (y & -> & Hy). cbn [bind].
    destruct (m_n_ok y (mkVec (2 * L - 1) (fun i => ipow (- L + 1 + i))) (vmap (fun k => ipow (- k)) (vmap Z.opp spins)) _ _ _ _ _ _ Hy) as (z & -> & Hz); try reflexivity.
    cbn [bind]. eexists. split; [reflexivity|]. exact (amap5_ok _ _ _ _ _ _ _ _ Hz).
  Qed.

  (** the coefficients of the samples of a band-limited signal *)
  Lemma A7_coefficients delta q n c f l m :
    quarter_matrices L delta -> upsampled_weights L q -> (s = MWSS -> 2 <= L) -> - L < n < L -> 0 <= l < L -> 0 <= m < 2 * L - 1 ->
    (forall t p, 0 <= t < L + mo -> 0 <= p < size -> f t p = part3 L n c (equi_longitude s L p) (th t)) ->
    A7 (at3 delta) q (column L (L - 1 + n)) n f l m = supported L n c l (m - (L - 1)).
  Proof.
    intros Hdel [Hq1 Hq2] HL2 Hn Hl Hm Hf. pose proof (mo_in s) as Hmo. assert (Hsz : 0 < size) by lia.
    set (cc := fun _ : Z => c).
    assert (EL : forall t p, 0 <= t < L + mo -> 0 <= p < size -> f t p =
      csum (zrange (- (L - 1 + mo)) (- (L - 1 + mo) + size)) (fun m => (Xf L cc n m (th t) * root size (m * p))%C)).
    { intros t p Ht Hp. rewrite Hf by auto. change c with (cc n). rewrite part3_Xf by lia.
      rewrite (cr_shrink (- (L - 1 + mo)) (- (L - 1 + mo) + size) (- (L - 1)) L) by first [lia|intros m' Hm' Ho; rewrite Xf_out by lia; ring].
      apply cr_ext. intros m' Hm'. f_equal. rewrite fsize_ring, root_lon by (auto; lia). reflexivity. }
    assert (HA1 : forall t m, 0 <= t < L + mo -> 0 <= m < 2 * L - 1 -> A1 f t m = Xf L cc n (m - (L - 1)) (th t)).
    { intros t m' Ht Hm'. unfold A1. rewrite (shift_fft_fwd _ (fun m => Xf L cc n m (th t)) size Hsz); [rewrite fsize_half by auto; f_equal; lia|reflexivity| |lia].
      intros p Hp. cbn [vat]. rewrite EL by auto. rewrite fsize_half by auto. reflexivity. }
    assert (HA2 : forall t m, 0 <= t < size -> 0 <= m < 2 * L - 1 -> A2 n f t m = Xf L cc n (m - (L - 1)) (th t)).
    { intros t m' Ht Hm'. unfold A2. destruct (Z.ltb_spec t (L + mo)); [apply HA1; lia|]. rewrite HA1 by lia.
      rewrite (th_reflect s L L Hs ltac:(lia)), Xf_reflect.
      rewrite !sgn_abs. replace (- L + 1 + m') with (m' - (L - 1)) by lia. rewrite sgn_add, RtoC_mult.
      transitivity (RtoC (sgn (m' - (L - 1)) * sgn (m' - (L - 1))) * RtoC (sgn n * sgn n) * Xf L cc n (m' - (L - 1)) (th t))%C;
        [rewrite !RtoC_mult; ring|]. rewrite !sgn_sq. ring. }
    assert (HA3 : forall a m, 0 <= a < size -> 0 <= m < 2 * L - 1 -> A3 n f a m = Ya L cc n (m - (L - 1)) (a - (L - 1 + mo))).
    { intros a m' Ha Hm'. unfold A3.
      rewrite (shift_fft_fwd _ (fun a => (Ya L cc n (m' - (L - 1)) a * cis (IZR a * th0 s L))%C) size Hsz); [|reflexivity| |auto].
      - rewrite fsize_half by auto. destruct Hs as [Es | Es]; rewrite Es; cbn [mo_of th0].
        + rewrite <- Cmult_assoc, <- cis_plus. replace (- L + 1 + a) with (a - (L - 1 + 0)) by lia.
          replace (IZR (a - (L - 1 + 0)) * (PI / IZR (2 * L - 1)) + - IZR (a - (L - 1 + 0)) * PI / IZR (2 * L - 1))%R with 0%R by (unfold Rdiv; ring).
          rewrite cis_0. ring.
        + rewrite Rmult_0_r, cis_0. ring.
      - intros t Ht. cbn [vat]. rewrite HA2 by auto. rewrite Xf_fourier, fsize_half by auto.
        rewrite (cr_shrink (- (L - 1 + mo)) (- (L - 1 + mo) + size) (- (L - 1)) L) by first [lia|intros a' Ha' Ho; rewrite Ya_out by lia; ring].
        apply cr_ext. intros a' Ha'. rewrite <- Cmult_assoc. f_equal. symmetry. pose proof (theta_root s L L Hs ltac:(lia) a' t) as T. clear - T Hs.
        destruct Hs as [-> | ->]; exact T. }
    assert (HA4 : forall a m, 0 <= a < 4 * L - 3 -> 0 <= m < 2 * L - 1 -> A4 n f a m = Ya L cc n (m - (L - 1)) (a - 2 * (L - 1))).
    { intros a m' Ha Hm'. unfold A4. destruct ((L - 1 - mo <=? a) && (a <? L - 1 - mo + size)) eqn:E.
      - rewrite HA3 by lia. f_equal. lia.
      - rewrite Ya_out by lia. reflexivity. }
    assert (EH : (4 * L - 3) / 2 = 2 * (L - 1)) by (symmetry; apply Z.div_unique with 1; lia).
    assert (HA6 : forall a m, 0 <= a < 2 * L - 1 -> 0 <= m < 2 * L - 1 -> A6 q n f a m =
      csum (zrange (- (L - 1)) L) (fun a' => (Ya L cc n (m - (L - 1)) a' * Vq (a' - (a - (L - 1))))%C)).
    { intros a m' Ha Hm'. unfold A6. rewrite (shift_fft_sum _ (4 * L - 3)) by (auto; lia). rewrite EH. replace (L - 1 + a - 2 * (L - 1)) with (a - (L - 1)) by lia.
      set (y := Ya L cc n (m' - (L - 1))).
      transitivity (csum (zrange (- (L - 1)) L) (fun a' => (y a' *
        (csum (zrange 0 (4 * L - 3)) (fun k => vat q k * cis (IZR (a' - (a - (L - 1))) * (2 * PI * IZR k / IZR (4 * L - 3)))) / RtoC (IZR (4 * L - 3))))%C)).
      + unfold Cdiv.
        transitivity (csum (zrange (- (L - 1)) L) (fun a' => csum (zrange 0 (4 * L - 3)) (fun k =>
          (y a' * (vat q k * cis (IZR (a' - (a - (L - 1))) * (2 * PI * IZR k / IZR (4 * L - 3)))) * / RtoC (IZR (4 * L - 3)))%C))).
        * rewrite cs_swap. rewrite <- cs_scal_r. apply cr_ext. intros k Hk. cbn [vat]. unfold A5.
          rewrite (ifft_ifftshift _ (4 * L - 3)) by (cbn [vlen]; lia). rewrite EH.
          rewrite (cr_shrink (- (2 * (L - 1))) (- (2 * (L - 1)) + (4 * L - 3)) (- (L - 1)) L)
            by first [lia|intros a' Ha' Ho; cbn [vat]; rewrite HA4, Ya_out by lia; ring].
          rewrite <- !cs_scal_r. apply cr_ext. intros a' Ha'. cbn [vat]. rewrite HA4 by lia. fold y. replace (a' + 2 * (L - 1) - 2 * (L - 1)) with a' by lia.
          replace (cis (IZR (a' - (a - (L - 1))) * (2 * PI * IZR k / IZR (4 * L - 3)))) with (root (4 * L - 3) (a' * k) * root (4 * L - 3) (- ((a - (L - 1)) * k)))%C; [ring|].
          rewrite <- root_add. unfold root. f_equal. replace (a' * k + - ((a - (L - 1)) * k)) with ((a' - (a - (L - 1))) * k) by ring.
          rewrite (mult_IZR _ k). field. apply not_0_IZR. lia.
        * apply cr_ext. intros a' Ha'. rewrite <- cs_scal_r, <- cs_scal_l. apply cr_ext. intros k Hk. ring.
      + apply cr_ext. intros a' Ha'. f_equal. apply Hq2. lia. }
    destruct (quarter_arr3 _ _ Hdel) as [_ HD]. rewrite column_in by lia.
    transitivity (restricted3 0 cc n l (m - (L - 1))).
    - rewrite <- (project L cc n l (m - (L - 1))) by lia. unfold A7. replace (- L + 1 + m) with (m - (L - 1)) by lia. f_equal. f_equal. f_equal.
      replace (zrange (- (L - 1)) L) with (zrange (0 + - (L - 1)) (2 * L - 1 + - (L - 1))) at 1 by (f_equal; lia). rewrite <- cr_shift.
      apply cr_ext. intros a Ha. rewrite HA6 by lia. rewrite !HD by lia. unfold dd. rewrite RtoC_mult.
      replace (a + - (L - 1)) with (a - (L - 1)) by lia. replace (L - 1 + n - (L - 1)) with n by lia. ring.
    - unfold restricted3, supported. rewrite Z.max_r by lia. reflexivity.
  Qed.
End Scheme.
