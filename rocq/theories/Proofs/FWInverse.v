(** The Fourier-Wigner inverse transform synthesises Wigner D-functions. *)
From Coq Require Import Reals ZifyBool Lra.
From Coquelicot Require Import Complex.
From Verif Require Import Lib.Py Lib.PyFacts Lib.Vec Lib.VecFacts Lib.Sums Lib.Cplx Lib.Arr Lib.ArrFacts Lib.MatFacts
  Model.Samples Model.FFT Model.HealpixFFT Model.Risbo Model.Resampling Model.Quadrature Model.Spherical Model.Precompute Model.Wigner
  Model.FourierWigner Spec.WignerSpec Spec.SamplesSpec Spec.SphereSpec Spec.GridSpec Spec.HealpixFFTSpec Spec.SphericalSpec Spec.SO3Spec Spec.FourierWignerSpec
  Proofs.RisboProofs Proofs.QuadProofs Proofs.SphereTheory Proofs.SphInverse Proofs.PrecomputeKernel Proofs.WignerInverse Proofs.FWArrays.
Open Scope string_scope.
Open Scope Z_scope.

(** the Fourier expansion with a fixed range of frequencies *)
Lemma wigner_fourier_ext L l m n x : 0 <= l < L ->
  csum (zrange (- (L - 1)) L) (fun a => (RtoC (wigner_d l a m (PI / 2)) * RtoC (wigner_d l a n (PI / 2)) * cis (IZR a * x))%C)
  = (ipow (m - n) * RtoC (wigner_d l m n x))%C.
Proof.
  intros Hl. destruct (Z_le_dec (Z.abs m) l) as [Hm|Hm]; [destruct (Z_le_dec (Z.abs n) l) as [Hn|Hn]|].
  - rewrite (cr_shrink (- (L - 1)) L (- l) (l + 1)) by (try lia; intros a Ha Ho; rewrite wigner_d_out by lia; ring).
    rewrite wigner_fourier by auto. rewrite <- cs_scal_l. apply cr_ext. intros a Ha. unfold wfc.
    replace (ipow (m - n) * (cis (IZR (n - m) * (PI / 2)) * RtoC (wigner_d l a m (PI / 2) * wigner_d l a n (PI / 2)) * cis (IZR a * x)))%C
      with (ipow (m - n) * ipow (- (m - n)) * (RtoC (wigner_d l a m (PI / 2) * wigner_d l a n (PI / 2)) * cis (IZR a * x)))%C.
    + rewrite ipow_inv, RtoC_mult. ring.
    + rewrite (ipow_cis (- (m - n))). replace (- (m - n)) with (n - m) by lia. ring.
  - rewrite (wigner_d_out l m n) by lia. rewrite cr_0; [ring|]. intros a Ha. rewrite (wigner_d_out l a n) by lia. ring.
  - rewrite (wigner_d_out l m n) by lia. rewrite cr_0; [ring|]. intros a Ha. rewrite (wigner_d_out l a m) by lia. ring.
Qed.

Section Inv.
  Variables (b : backend) (s : scheme) (name : string) (L N : Z) (flmn : ndarray C) (precomps : option (ndarray R * vec C)) (reality : bool).
  Hypothesis (Hs : fw_scheme s) (Hd : denotes name s) (HN : 1 <= N <= L) (Hf : shape flmn = [2 * N - 1; L; 2 * L - 1])
    (Hp : match precomps with Some (delta, _) => quarter_matrices L delta | None => True end)
    (Hr : reality = true -> hermitian3 L N (stored3 L N flmn)).
  Notation mo := (match s with MWSS => 1 | _ => 0 end).
  Notation n0 := (if reality then 0 else - (N - 1)).
  Definition sc (l : Z) : R := (IZR (2 * l + 1) / (8 * PI ^ 2))%R.
  (** the coefficient of exp(i a beta), up to the sign factor *)
  Definition amn (a m n : Z) : C :=
    csum (zrange 0 L) (fun l => (stored3 L N flmn n l m * RtoC (sc l) * RtoC (wigner_d l a m (PI / 2)) * RtoC (wigner_d l a n (PI / 2)))%C).
  Lemma amn_out a m n : a = - L \/ m = - L -> amn a m n = RtoC 0.
  Proof. intros H. apply cr_0. intros l Hl. rewrite (wigner_d_out l a m) by lia. ring. Qed.

  Definition x_ok (x : ndarray C) : Prop :=
    is_arr3 x (2 * L - 1 + mo) (2 * L - 1 + mo) (N - n0) (fun a m n => amn (a - (L - 1 + mo)) (m - (L - 1 + mo)) (n0 + n)).

  Lemma fl_ok : exists a, einsum_nlm_l flmn (mkVec L (fun l => RtoC (IZR (2 * l + 1) / (8 * PI ^ 2)))) = Ok a /\
    is_arr3 (planes_from a (if reality then N - 1 else 0)) (N - n0) L (2 * L - 1)
      (fun n l m => (stored3 L N flmn (n0 + n) l (m - (L - 1)) * RtoC (sc l))%C).
  Proof.
    destruct (einsum_nlm_l_ok flmn (2 * N - 1) L (2 * L - 1) (at3 flmn) (mkVec L (fun l => RtoC (IZR (2 * l + 1) / (8 * PI ^ 2)))))
      as (a & E & Ha); [split; auto|reflexivity|].
    exists a. split; [exact E|].
    replace (N - n0) with (2 * N - 1 - (if reality then N - 1 else 0)) by (destruct reality; lia).
    eapply is_arr3_ext; [apply (planes_from_ok a _ _ _ _ _ Ha); destruct reality; lia|].
    intros i j k Hi Hj Hk. cbv beta. cbn [vat]. f_equal. unfold stored3, at3. f_equal. f_equal; [destruct reality; lia|]. f_equal. f_equal. lia.
  Qed.

  Lemma precomp_ok fl delta : quarter_matrices L delta ->
    is_arr3 fl (N - n0) L (2 * L - 1) (fun n l m => (stored3 L N flmn (n0 + n) l (m - (L - 1)) * RtoC (sc l))%C) ->
    exists dn y x, take_last3 delta (L - 1 + n0) (L - 1 + N) = Ok dn /\ einsum_nlm_lam_lan fl delta dn = Ok y /\
      corner_op (fun _ y => y) (zeros (RtoC 0) [2 * L - 1 + mo; 2 * L - 1 + mo; N - n0]) mo y = Ok x /\ x_ok x.
  Proof.
    intros Hq Hfl. pose proof (quarter_arr3 _ _ Hq) as Ha.
    destruct (take_last3_ok delta L (2 * L - 1) (2 * L - 1) _ (L - 1 + n0) (L - 1 + N) Ha) as (dn & E1 & Hdn);
      [destruct reality; lia|lia|].
    replace (L - 1 + N - (L - 1 + n0)) with (N - n0) in Hdn by lia.
    destruct (nlm_lam_lan_ok _ _ _ _ _ _ _ _ _ _ Hfl Ha Hdn) as (y & E2 & Hy).
    destruct (corner_ok (fun _ y => y) (zeros (RtoC 0) [2 * L - 1 + mo; 2 * L - 1 + mo; N - n0]) y mo (2 * L - 1) (N - n0) _ _
      ltac:(destruct s; lia) ltac:(lia) (zeros3 _ _ _ _) Hy) as (x & E3 & Hx).
    exists dn, y, x. split; [exact E1|]. split; [exact E2|]. split; [exact E3|].
    eapply is_arr3_ext; [exact Hx|]. intros a m n Ha' Hm Hn. cbv beta.
    destruct (Z.leb_spec mo a); [destruct (Z.leb_spec mo m)|]; cbn [andb].
    - apply cr_ext. intros l Hl. f_equal; [f_equal; [f_equal; f_equal; lia|f_equal; f_equal; lia]|f_equal; f_equal; lia].
    - symmetry. apply amn_out. right. destruct s; lia.
    - symmetry. apply amn_out. left. destruct s; lia.
  Qed.

  Lemma otf_ok fl :
    is_arr3 fl (N - n0) L (2 * L - 1) (fun n l m => (stored3 L N flmn (n0 + n) l (m - (L - 1)) * RtoC (sc l))%C) ->
    exists st, foldM (fun st el =>
            let* d := fw_risbo b (snd st) L el in
            let* p := mid_get fl el in
            let* dn := take_last2 d (L - 1 + n0) (L - 1 + N) in
            let* y := einsum_nm_am_an p d dn in
            let* x := corner_op Cplus (fst st) mo y in
            Ok (x, d))
          (zrange 0 L) (zeros (RtoC 0) [2 * L - 1 + mo; 2 * L - 1 + mo; N - n0], zeros 0%R [2 * L - 1; 2 * L - 1]) = Ok st /\ x_ok (fst st).
  Proof.
    intros Hfl.
    destruct (fw_loop b L (fun el x => is_arr3 x (2 * L - 1 + mo) (2 * L - 1 + mo) (N - n0) (fun a m n =>
        csum (zrange 0 el) (fun l => (stored3 L N flmn (n0 + n) l (m - (L - 1 + mo)) * RtoC (sc l) * RtoC (wigner_d l (a - (L - 1 + mo)) (m - (L - 1 + mo)) (PI / 2))
           * RtoC (wigner_d l (a - (L - 1 + mo)) (n0 + n) (PI / 2)))%C)))
      (fun st el =>
            let* d := fw_risbo b (snd st) L el in
            let* p := mid_get fl el in
            let* dn := take_last2 d (L - 1 + n0) (L - 1 + N) in
            let* y := einsum_nm_am_an p d dn in
            let* x := corner_op Cplus (fst st) mo y in
            Ok (x, d))
      (zeros (RtoC 0) [2 * L - 1 + mo; 2 * L - 1 + mo; N - n0])) as (st & E & HP).
    - lia.
    - apply zeros3.
    - intros el st d Hel HP E Hdd. rewrite E. cbn [bind]. clear E. pose proof (holds_mat _ _ _ _ Hdd) as Hm.
      destruct (mid_get_ok fl _ _ _ _ el Hfl Hel) as (p & -> & Hpp). cbn [bind].
      destruct (take_last2_ok d (2 * L - 1) (2 * L - 1) _ (L - 1 + n0) (L - 1 + N) Hm) as (dn & -> & Hdn);
        [destruct reality; lia|lia|]. cbn [bind]. replace (L - 1 + N - (L - 1 + n0)) with (N - n0) in Hdn by lia.
      destruct (nm_am_an_ok _ _ _ _ _ _ _ _ _ Hpp Hm Hdn) as (y & -> & Hy). cbn [bind].
      destruct (corner_ok Cplus (fst st) y mo (2 * L - 1) (N - n0) _ _ ltac:(destruct s; lia) ltac:(lia) HP Hy) as (x & -> & Hx). cbn [bind].
      exists x. split; [reflexivity|]. eapply is_arr3_ext; [exact Hx|]. intros a m n Ha Hm' Hn. cbv beta. rewrite cr_snoc by lia.
      destruct (Z.leb_spec mo a); [destruct (Z.leb_spec mo m)|]; cbn [andb].
      + f_equal. f_equal; [f_equal; [f_equal; f_equal; lia|f_equal; f_equal; lia]|f_equal; f_equal; lia].
      + rewrite (wigner_d_out el _ (m - (L - 1 + mo))) by (destruct s; lia). ring.
      + rewrite (wigner_d_out el (a - (L - 1 + mo)) (m - (L - 1 + mo))) by (destruct s; lia). ring.
    - exists st. split; [exact E|]. exact HP.
  Qed.

  (** ** The synthesis *)
  Definition th0 : R := match s with MWSS => 0%R | _ => (PI / IZR (2 * L - 1))%R end.
  Notation size := (2 * L - 1 + mo).
  Definition theta (t : Z) : R := match s with MWSS => mwss_theta L t | _ => mw_theta L t end.
  Lemma size_half : size / 2 = L - 1 + mo.
  Proof. destruct Hs as [-> | ->]; symmetry; [apply Z.div_unique with 1|apply Z.div_unique with 0]; lia. Qed.
  Lemma size_ring : size = per_ring s L.
  Proof. destruct Hs as [-> | ->]; cbn; lia. Qed.
  Lemma theta_root a t : (cis (IZR a * th0) * root size (a * t))%C = cis (IZR a * theta t).
  Proof using Hs HN.
    clear - Hs HN. unfold th0, theta, root. rewrite <- cis_plus. f_equal. rewrite mult_IZR. destruct Hs as [-> | ->].
    - rewrite mw_th by lia. replace (2 * L - 1 + 0) with (2 * L - 1) by lia. field. apply not_0_IZR. lia.
    - rewrite mwss_th by lia. replace (2 * L - 1 + 1) with (2 * L) by lia. field. apply not_0_IZR. lia.
  Qed.
  Definition ring2 (n t p : Z) : C := part3 L n (stored3 L N flmn n) (equi_longitude s L p) (theta t).
  Lemma synth_sum n t p : 0 <= Z.abs n < L ->
    csum (zrange (- (size / 2)) (- (size / 2) + size)) (fun m =>
      (csum (zrange (- (size / 2)) (- (size / 2) + size)) (fun a =>
         (amn a m n * ipow (- m) * ipow n * cis (IZR a * th0) * root size (a * t)))%C * root size (m * p))%C) = ring2 n t p.
  Proof.
    intros Hn. rewrite size_half. unfold ring2, part3.
    rewrite (cr_shrink _ _ (- (L - 1)) L) by first [destruct s; lia|
      intros m Hm Ho; rewrite cr_0; [ring|]; intros a Ha; rewrite amn_out by (right; destruct s; lia); ring].
    transitivity (csum (zrange (- (L - 1)) L) (fun m => csum (zrange 0 L) (fun l =>
      (RtoC ((2 * IZR l + 1) / (8 * PI ^ 2)) * stored3 L N flmn n l m * (cis (IZR m * equi_longitude s L p) * RtoC (wigner_d l m n (theta t))))%C))).
    - apply cr_ext. intros m Hm. rewrite (cr_shrink _ _ (- (L - 1)) L) by first [destruct s; lia|
        intros a Ha Ho; rewrite amn_out by (left; destruct s; lia); ring].
      rewrite size_ring, root_lon by lia. rewrite <- size_ring.
      transitivity (csum (zrange 0 L) (fun l => (RtoC (sc l) * stored3 L N flmn n l m * cis (IZR m * equi_longitude s L p) * (ipow (- m) * ipow n) *
        csum (zrange (- (L - 1)) L) (fun a => RtoC (wigner_d l a m (PI / 2)) * RtoC (wigner_d l a n (PI / 2)) * cis (IZR a * theta t)))%C)).
      + rewrite <- cs_scal_r. unfold amn.
        transitivity (csum (zrange (- (L - 1)) L) (fun a => csum (zrange 0 L) (fun l =>
          (RtoC (sc l) * stored3 L N flmn n l m * cis (IZR m * equi_longitude s L p) * (ipow (- m) * ipow n) *
             (RtoC (wigner_d l a m (PI / 2)) * RtoC (wigner_d l a n (PI / 2)) * cis (IZR a * theta t)))%C))).
        * apply cr_ext. intros a Ha. rewrite <- theta_root. rewrite <- !cs_scal_r. apply cr_ext. intros l Hl. ring.
        * rewrite cs_swap. apply cr_ext. intros l Hl. now rewrite cs_scal_l.
      + apply cr_ext. intros l Hl. rewrite wigner_fourier_ext by auto.
        replace (RtoC (sc l)) with (RtoC ((2 * IZR l + 1) / (8 * PI ^ 2))) by (unfold sc; now rewrite plus_IZR, mult_IZR).
        replace (ipow (- m) * ipow n)%C with (ipow (- (m - n))) by (rewrite <- ipow_add; f_equal; lia).
        transitivity (ipow (m - n) * ipow (- (m - n)) * (RtoC ((2 * IZR l + 1) / (8 * PI ^ 2)) * stored3 L N flmn n l m *
          (cis (IZR m * equi_longitude s L p) * RtoC (wigner_d l m n (theta t)))))%C; [ring|]. rewrite ipow_inv. ring.
    - rewrite cs_swap. rewrite (cr_shrink 0 L (Z.abs n) L) by (try lia; intros l Hl Ho; apply cr_0; intros m Hm; rewrite (wigner_d_out l m n) by lia; ring).
      apply cr_ext. intros l Hl. apply cr_shrink; try lia. intros m Hm Ho. rewrite (wigner_d_out l m n) by lia. ring.
  Qed.

  Lemma phase_ok x : x_ok x -> exists y,
    einsum_amn_m_n_a x (mkVec (L - (- L + 1 - mo)) (fun i => ipow (- (- L + 1 - mo + i)))) (mkVec (N - n0) (fun i => ipow (n0 + i)))
              (mkVec (L - (- L + 1 - mo)) (fun i => cis (IZR (- L + 1 - mo + i) * th0))) = Ok y /\
    is_arr3 y (N - n0) size size (fun n a m => (amn (a - (L - 1 + mo)) (m - (L - 1 + mo)) (n0 + n) * ipow (- (m - (L - 1 + mo))) * ipow (n0 + n) *
      cis (IZR (a - (L - 1 + mo)) * th0))%C).
  Proof.
    intros Hx.
    destruct (amn_m_n_a_ok x (mkVec (L - (- L + 1 - mo)) (fun i => ipow (- (- L + 1 - mo + i)))) (mkVec (N - n0) (fun i => ipow (n0 + i)))
              (mkVec (L - (- L + 1 - mo)) (fun i => cis (IZR (- L + 1 - mo + i) * th0))) _ _ _ _ Hx) as (y & E & Hy); try (cbn [vlen]; lia).
    exists y. split; [exact E|]. eapply is_arr3_ext; [exact Hy|]. intros n a m Hn Ha Hm. cbn [vat].
    f_equal; [f_equal; f_equal; f_equal; lia|f_equal; f_equal; f_equal; lia].
  Qed.

  (** the transforms over beta and alpha, after the shifts *)
  Lemma beta_alpha y (sg : Z -> Z) : 
    is_arr3 y (N - n0) size size (fun n a m => (amn ((a + size / 2) mod size - (L - 1 + mo)) ((m + size / 2) mod size - (L - 1 + mo)) (n0 + sg n) *
      ipow (- ((m + size / 2) mod size - (L - 1 + mo))) * ipow (n0 + sg n) * cis (IZR ((a + size / 2) mod size - (L - 1 + mo)) * th0))%C) ->
    (forall n, 0 <= n < N - n0 -> 0 <= sg n < N - n0) ->
    is_arr3 (map3_2 ifft_fwd (map3_1 (fun v => vslice (ifft_fwd v) 0 (L + mo)) y)) (N - n0) (L + mo) size (fun n t p => ring2 (n0 + sg n) t p).
  Proof.
    intros Hy Hsg. assert (Hmo : 0 <= mo <= 1) by (destruct s; lia).
    pose proof (map3_1_ok (fun v => vslice (ifft_fwd v) 0 (L + mo)) _ _ _ _ (L + mo) _ Hy (vext_slice _ _ _ vext_ifft_fwd)) as H1.
    pose proof (map3_2_ok ifft_fwd _ _ _ _ size _ (H1 ltac:(intros v Hv; unfold vslice; cbn [vlen ifft_fwd]; rewrite slice_len_in by lia; lia)) vext_ifft_fwd
      ltac:(intros v Hv; exact Hv)) as H2.
    eapply is_arr3_ext; [exact H2|]. clear H1 H2. intros n t p Hn Ht Hp'. cbv beta.
    assert (Hn' : 0 <= Z.abs (n0 + sg n) < L) by (specialize (Hsg n Hn); destruct reality; lia).
    rewrite <- (synth_sum (n0 + sg n) t p Hn').
    set (Y := fun a m => (amn (a - (L - 1 + mo)) (m - (L - 1 + mo)) (n0 + sg n) * ipow (- (m - (L - 1 + mo))) * ipow (n0 + sg n) *
      cis (IZR (a - (L - 1 + mo)) * th0))%C).
    set (W := mkVec size (fun m => vat (ifft_fwd (ifftshift (mkVec size (fun a => Y a m)))) t)).
    transitivity (vat (ifft_fwd (ifftshift W)) p).
    - unfold ifft_fwd at 1 3. cbn [vlen vat W ifftshift]. apply cr_ext. intros m Hm. f_equal. unfold vslice. cbn [vlen ifft_fwd vat].
      rewrite slice_lo_in by lia. rewrite Z.add_0_l. reflexivity.
    - rewrite (ifft_ifftshift W size) by (cbn [vlen W]; lia). apply cr_ext. intros m Hm. f_equal. cbn [W vat].
      rewrite (ifft_ifftshift _ size) by (cbn [vlen]; lia). apply cr_ext. intros a Ha. cbn [vat]. unfold Y. rewrite size_half.
      replace (a + (L - 1 + mo) - (L - 1 + mo)) with a by lia. replace (m + (L - 1 + mo) - (L - 1 + mo)) with m by lia. reflexivity.
  Qed.

  Lemma holds_of f nodes nside : is_arr3 f (2 * N - 1) (L + mo) size (fun g t p =>
      csum (zrange (- (N - 1)) N) (fun n => (ring2 n t p * root (2 * N - 1) (n * g))%C)) ->
    so3_holds nodes s L N nside f (so3_synth L N (stored3 L N flmn)).
  Proof.
    intros [H1 H2]. split.
    - rewrite H1. assert (E1 : L + mo = rings s L nside) by (destruct Hs as [-> | ->]; cbn [rings]; lia).
      assert (E2 : size = per_ring s L) by (destruct Hs as [-> | ->]; cbn [per_ring]; lia).
      rewrite E1, E2. destruct Hs as [-> | ->]; reflexivity.
    - intros g t p x Hg Ht Hp' Hx. rewrite so3_synth_parts.
      assert (Ex : x = theta t) by (unfold theta; destruct Hs as [-> | ->]; exact Hx).
      assert (Es : sample_index s nside t p = [t; p]) by (destruct Hs as [-> | ->]; reflexivity).
      assert (El : longitude s L nside t p = equi_longitude s L p) by (destruct Hs as [-> | ->]; reflexivity).
      rewrite Es. pose proof (H2 g t p) as H. unfold at3 in H. rewrite H.
      + apply cr_ext. intros n Hn. unfold ring2. rewrite El, Ex, gamma_root by lia. reflexivity.
      + exact Hg.
      + destruct Hs as [-> | ->]; cbn [rings] in Ht; lia.
      + destruct Hs as [-> | ->]; cbn [ring_size per_ring] in Hp'; lia.
  Qed.

End Inv.

Lemma fw_inverse_lemma b s name L N flmn precomps reality nodes nside :
  fw_scheme s -> denotes name s -> 1 <= N <= L -> shape flmn = [2 * N - 1; L; 2 * L - 1] ->
  match precomps with Some (delta, _) => quarter_matrices L delta | None => True end ->
  (reality = true -> hermitian3 L N (stored3 L N flmn)) ->
  exists f, fw_inverse b flmn L N precomps reality name = Ok f /\
    so3_holds nodes s L N nside f (so3_synth L N (stored3 L N flmn)).
Proof.
    intros Hs Hd HN Hf Hp Hr.
    assert (E0 : negb (str_in (lower name) ["mw"; "mwss"]) = false) by (rewrite Hd; destruct Hs as [-> | ->]; reflexivity).
    assert (E1 : (if streq (lower name) "mwss" then 1 else 0) = (match s with MWSS => 1 | _ => 0 end)) by (rewrite Hd; destruct Hs as [-> | ->]; reflexivity).
    assert (E2 : (if streq (lower name) "mwss" then L + 1 else L) = L + (match s with MWSS => 1 | _ => 0 end)) by (rewrite Hd; destruct Hs as [-> | ->]; cbn; lia).
    assert (E3 : (if streq (lower name) "mwss" then 0%R else (PI / IZR (2 * L - 1))%R) = th0 s L) by (rewrite Hd; unfold th0; destruct Hs as [-> | ->]; reflexivity).
    assert (E4 : (if streq (lower name) "mwss" then 2 * L else 2 * L - 1) = (2 * L - 1 + (match s with MWSS => 1 | _ => 0 end))) by (rewrite Hd; destruct Hs as [-> | ->]; cbn -[Z.mul]; lia).
    assert (E5 : (if reality then N else 2 * N - 1) = N - (if reality then 0 else - (N - 1))) by (destruct reality; lia).
    assert (E6 : (if reality then N - 1 else 0) - N + 1 = (if reality then 0 else - (N - 1))) by (destruct reality; lia).
    unfold fw_inverse. cbv zeta. rewrite E0, E1, E2, E3, E4, E5, E6. clear E0 E1 E2 E3 E4 E5 E6.
    destruct (fl_ok L N flmn reality HN Hf Hr) as (fl & -> & Hfl). cbn [bind]. set (fl' := planes_from fl _) in *.
    assert (HX : exists x, (match precomps with
      | Some (delta, _) =>
        let* dn := take_last3 delta (L - 1 + (if reality then 0 else - (N - 1))) (L - 1 + N) in
        let* y := einsum_nlm_lam_lan fl' delta dn in
        corner_op (fun _ y => y) (zeros (RtoC 0) [(2 * L - 1 + (match s with MWSS => 1 | _ => 0 end)); (2 * L - 1 + (match s with MWSS => 1 | _ => 0 end)); N - (if reality then 0 else - (N - 1))]) (match s with MWSS => 1 | _ => 0 end) y
      | None =>
        let* st := foldM (fun st el =>
            let* d := fw_risbo b (snd st) L el in
            let* p := mid_get fl' el in
            let* dn := take_last2 d (L - 1 + (if reality then 0 else - (N - 1))) (L - 1 + N) in
            let* y := einsum_nm_am_an p d dn in
            let* x := corner_op Cplus (fst st) (match s with MWSS => 1 | _ => 0 end) y in
            Ok (x, d))
          (zrange 0 L) (zeros (RtoC 0) [(2 * L - 1 + (match s with MWSS => 1 | _ => 0 end)); (2 * L - 1 + (match s with MWSS => 1 | _ => 0 end)); N - (if reality then 0 else - (N - 1))], zeros 0%R [2 * L - 1; 2 * L - 1]) in
        Ok (fst st)
      end) = Ok x /\ x_ok s L N flmn reality x).
    { destruct precomps as [[delta q]|].
      - destruct (precomp_ok s name L N flmn reality Hs Hd HN Hr fl' delta Hp Hfl) as (dn & y & x & -> & E & E' & Hx). cbn [bind]. rewrite E. cbn [bind]. exists x. auto.
      - destruct (otf_ok b s name L N flmn reality Hs Hd HN Hr fl' Hfl) as (st & -> & Hx). cbn [bind]. exists (fst st). auto. }
    destruct HX as (x & -> & Hx). cbn [bind]. destruct (phase_ok s L N flmn reality Hr x Hx) as (y & -> & Hy). cbn [bind].
    assert (Hsz : 0 < (2 * L - 1 + (match s with MWSS => 1 | _ => 0 end))) by (destruct s; lia).
    destruct reality.
    - eexists. split; [reflexivity|].
      pose proof (map3_2_ok ifftshift _ _ _ _ (2 * L - 1 + (match s with MWSS => 1 | _ => 0 end)) _ (map3_1_ok ifftshift _ _ _ _ (2 * L - 1 + (match s with MWSS => 1 | _ => 0 end)) _ Hy vext_ifftshift ltac:(intros v Hv; exact Hv))
        vext_ifftshift ltac:(intros v Hv; exact Hv)) as H1.
      pose proof (beta_alpha s name L N flmn _ Hs Hd HN Hr _ (fun n => n) H1 ltac:(auto)) as H2.
      pose proof (map3_0_ok (fun v => irfft_fwd v (2 * N - 1)) _ _ _ _ (2 * N - 1) _ H2) as H3.
      apply (holds_of s name L N flmn _ Hs Hd HN Hr). eapply is_arr3_ext; [apply H3|].
      + apply vext_irfft; [lia|]. replace (2 * N - 1) with (1 + 2 * (N - 1)) by lia. now rewrite Z.even_add_mul_2.
      + intros v Hv. reflexivity.
      + intros g t p Hg Ht Hp'. cbv beta.
        rewrite (irfft_odd _ N (fun n => ring2 s L N flmn n t p * root (2 * N - 1) (n * g))%C g); [reflexivity|lia|cbn [vlen]; lia| |].
        * intros n Hn. cbn [vat]. reflexivity.
        * intros n Hn. rewrite Cconj_mult. f_equal.
          -- unfold ring2. apply part3_conj. intros l m Hl Hm. apply (Hr eq_refl); lia.
          -- rewrite <- root_opp. f_equal. lia.
    - eexists. split; [reflexivity|].
      pose proof (map3_2_ok ifftshift _ _ _ _ (2 * L - 1 + (match s with MWSS => 1 | _ => 0 end)) _ (map3_1_ok ifftshift _ _ _ _ (2 * L - 1 + (match s with MWSS => 1 | _ => 0 end)) _ (map3_0_ok ifftshift _ _ _ _ (2 * N - 1) _ Hy vext_ifftshift
        ltac:(intros v Hv; cbv iota in Hv; cbn [vlen ifftshift]; lia)) vext_ifftshift ltac:(intros v Hv; exact Hv)) vext_ifftshift ltac:(intros v Hv; exact Hv)) as H1.
      replace (2 * N - 1) with (N - - (N - 1)) in H1 by lia.
      pose proof (beta_alpha s name L N flmn _ Hs Hd HN Hr _ (fun n => (n + (N - - (N - 1)) / 2) mod (N - - (N - 1))) H1 ltac:(intros; apply Z.mod_pos_bound; lia)) as H2.
      pose proof (map3_0_ok ifft_fwd _ _ _ _ (2 * N - 1) _ H2 vext_ifft_fwd ltac:(intros v Hv; cbv iota in Hv; cbn [vlen ifft_fwd]; lia)) as H3.
      apply (holds_of s name L N flmn _ Hs Hd HN Hr). eapply is_arr3_ext; [exact H3|]. intros g t p Hg Ht Hp'. cbv beta.
      transitivity (vat (ifft_fwd (ifftshift (mkVec (2 * N - 1) (fun n => ring2 s L N flmn (n - (N - 1)) t p)))) g).
      + replace (N - - (N - 1)) with (2 * N - 1) by lia. unfold ifft_fwd. cbn [vlen vat ifftshift]. apply cr_ext. intros n Hn.
        f_equal. f_equal. lia.
      + rewrite (ifft_ifftshift _ (2 * N - 1)) by (cbn [vlen]; lia).
        replace ((2 * N - 1) / 2) with (N - 1) by (apply Z.div_unique with 1; lia).
        replace (- (N - 1) + (2 * N - 1)) with N by lia. apply cr_ext. intros n Hn. cbn [vat]. f_equal. f_equal. lia.
  Qed.
