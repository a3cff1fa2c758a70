(** The on-the-fly inverse transforms return samples of the harmonic sum. *)
From Coq Require Import Reals ZifyBool Lra.
From Coquelicot Require Import Complex.
From Verif Require Import Lib.Py Lib.PyFacts Lib.Vec Lib.VecFacts Lib.Sums Lib.Cplx Lib.Arr Lib.ArrFacts Lib.MatFacts Lib.Ext Lib.ExtFacts
  Model.Index Model.Samples Model.Grids Model.FFT Model.HealpixFFT Model.Turok Model.Risbo Model.Resampling Model.Quadrature
  Model.Spherical Model.Precompute Model.PriceMcEwen Model.OTF Model.OTFSpherical
  Spec.SamplesSpec Spec.WignerSpec Spec.SphereSpec Spec.GridSpec Spec.HealpixFFTSpec Spec.SphericalSpec Spec.OTFSpec Spec.OTFSphericalSpec
  Proofs.SamplesProofs Proofs.GridProofs Proofs.TurokProofs Proofs.SphGrid Proofs.SphInverse Proofs.SphTop Proofs.SphForward
  Proofs.PrecomputeSph Proofs.PMPre Proofs.OTFProofs Proofs.OTFTop
  Spec.CallSpec.
Open Scope string_scope.
Open Scope Z_scope.

Lemma is_fin_at x : finite_at (fin x) = true. Proof. reflexivity. Qed.
Lemma cval_fin x : cval (fin x) = x. Proof. now destruct x. Qed.
Lemma finite2_ok (a : ndarray ecx) n m F G : is_mat a n m F ->
  (forall t c, 0 <= t < n -> 0 <= c < m -> F t c = fin (G t c)) -> exists b, finite2 a = Ok b /\ is_mat b n m G.
Proof.
  intros Ha H. unfold finite2. rewrite (is_mat_dim0 _ _ _ _ Ha), (is_mat_dim1 _ _ _ _ Ha).
  replace (forallb _ _) with true.
  - eexists. split; [reflexivity|]. eapply is_mat_ext; [apply is_mat_mat|]. intros t c Ht Hc. cbn beta.
    rewrite (proj2 Ha) by auto. rewrite H by auto. apply cval_fin.
  - symmetry. apply forallb_forall. intros t Ht. apply in_zrange in Ht. apply forallb_forall. intros c Hc. apply in_zrange in Hc.
    rewrite (proj2 Ha) by auto. rewrite H by auto. reflexivity.
Qed.

Lemma normalise_ok {T} (sc : R -> T -> T) (a : ndarray T) L m F L0 : is_mat a L m F -> 0 <= L0 <= L ->
  exists b, normalise sc a L L0 = Ok b /\
    is_mat b L m (fun el j => if L0 <=? el then sc (elfactor el) (F el j) else F el j).
Proof.
  intros Ha HL0. unfold normalise. rewrite (is_mat_dim0 _ _ _ _ Ha), (is_mat_dim1 _ _ _ _ Ha).
  rewrite slice_len_in by lia. rewrite Z.max_r by lia. rewrite Z.eqb_refl. cbn [negb]. rewrite slice_lo_in by lia.
  eexists. split; [reflexivity|]. eapply is_mat_ext; [apply is_mat_mat|]. intros el j Hel Hj. cbn beta. rewrite (proj2 Ha) by auto.
  replace (L0 + (el - L0)) with el by lia. reflexivity.
Qed.

Lemma mul_phases_ok (a ph : ndarray C) n m F P c0 : is_mat a n m F -> 0 <= n -> 0 <= c0 <= m -> is_mat ph n (m - c0) P ->
  exists b, mul_phases a c0 ph = Ok b /\ is_mat b n m (fun t c => if c0 <=? c then (F t c * P t (c - c0)%Z)%C else F t c).
Proof.
  intros Ha Hn Hc Hp. unfold mul_phases. rewrite (is_mat_dim0 _ _ _ _ Ha), (is_mat_dim1 _ _ _ _ Ha).
  assert (S := MatFacts.slice2_ok _ _ _ _ 0 n c0 m Ha ltac:(lia) ltac:(lia) ltac:(lia) ltac:(lia) ltac:(lia) ltac:(lia)).
  rewrite Z.sub_0_r in S.
  unfold mmul. rewrite (is_mat_dim0 _ _ _ _ S), (is_mat_dim1 _ _ _ _ S), (is_mat_dim0 _ _ _ _ Hp), (is_mat_dim1 _ _ _ _ Hp), !Z.eqb_refl. cbn [andb negb bind].
  edestruct (slice2_set_ok a (mat n (m - c0) (fun r c => (at2 (slice2 a 0 n c0 m) r c * at2 ph r c)%C)) n m F) with (r0 := 0) (r1 := n) (c0 := c0) (c1 := m)
    as (b & E & Hb); try lia; [exact Ha|rewrite Z.sub_0_r; apply is_mat_mat|].
  exists b. split; [exact E|]. apply (is_mat_ext _ _ _ _ _ Hb). intros t c Ht Hc'. cbn beta. destruct (Z.leb_spec c0 c).
  - replace ((0 <=? t) && (t <? n) && true && (c <? m)) with true by lia. rewrite Z.sub_0_r.
    rewrite (proj2 S) by lia. rewrite (proj2 Hp) by lia. rewrite Z.add_0_l. replace (c0 + (c - c0)) with c by lia. reflexivity.
  - rewrite andb_false_r. reflexivity.
Qed.

Lemma mo_shift s : mo_of s = shift_of s. Proof. now destruct s. Qed.
Lemma l_offset_name s : l_offset (scheme_name s) = mo_of s. Proof. now destruct s. Qed.
Lemma denotes_name s : denotes (scheme_name s) s. Proof. now destruct s. Qed.
Lemma plain_scheme s : plain_name (scheme_name s) s. Proof. intros _. reflexivity. Qed.
Lemma m1_abs k : m1 (Z.abs k) = m1 k.
Proof. change (sgn (Z.abs k) = sgn k). destruct (Z.abs_spec k) as [[_ ->]|[_ ->]]; [reflexivity|apply sgn_opp]. Qed.

(** completing the rows by conjugate symmetry *)
Lemma mirror_ok s L nside n A ftm : 1 <= L -> 0 <= n ->
  ftm_ok s L nside n true A ftm \/ (exists F, is_mat ftm n (orders s L) F /\ forall t, 0 <= t < n -> (mo_of s = 1 -> F t 0 = RtoC 0) /\
    forall m, 0 <= m < L -> F t (m + L - 1 + mo_of s) = (phase_of s nside t m * A t m)%C) ->
  (forall t m, 0 <= t < n -> 0 <= m < L -> A t (- m) = Cconj (A t m)) ->
  exists ftm', mirror_orders ftm L (mo_of s) = Ok ftm' /\ ftm_ok s L nside n false A ftm'.
Proof.
  intros HL Hn HF SYM.
  assert (HF' : exists F, is_mat ftm n (orders s L) F /\ forall t, 0 <= t < n -> (mo_of s = 1 -> F t 0 = RtoC 0) /\
    forall m, 0 <= m < L -> F t (m + L - 1 + mo_of s) = (phase_of s nside t m * A t m)%C).
  { destruct HF as [(F & H1 & H2)|H]; [|exact H]. exists F. split; [exact H1|]. intros t Ht. destruct (H2 t Ht) as [H3 H4]. split; [exact H3|].
    intros m Hm. apply H4; lia. }
  clear HF. destruct HF' as (F & HF & H).
  assert (M01 : mo_of s = 0 \/ mo_of s = 1) by (destruct s; cbn [mo_of]; lia).
  assert (EO : orders s L = 2 * L - 1 + mo_of s) by (destruct s; cbn [orders mo_of]; lia).
  set (mo := mo_of s) in *. unfold mirror_orders. rewrite (is_mat_dim0 _ _ _ _ HF), (is_mat_dim1 _ _ _ _ HF).
  assert (M3 := MatFacts.slice2_ok _ _ _ _ 0 n (L - 1 + mo + 1) (orders s L) HF ltac:(lia) ltac:(lia) ltac:(lia) ltac:(lia) ltac:(lia) ltac:(lia)).
  assert (M4 := flip1_ok _ _ _ _ (mscal_ok Cconj _ _ _ _ M3)).
  replace (orders s L - (L - 1 + mo + 1)) with (L - 1 + mo - mo) in M4 by lia.
  destruct (slice2_set_ok _ _ _ _ _ _ 0 n mo (L - 1 + mo) HF M4 ltac:(lia) ltac:(lia) ltac:(lia) ltac:(lia) ltac:(lia) ltac:(lia))
    as (ftm2 & E & H2). exists ftm2. split; [exact E|]. eexists. split; [exact H2|]. intros t Ht. fold mo. split.
  - intros Hm. rewrite Hm. change (1 <=? 0) with false. rewrite andb_false_r. cbn [andb]. destruct (H t Ht) as [H3 _]. auto.
  - intros m Hm _. destruct (H t Ht) as [_ H4]. cbn beta. destruct (Z.ltb_spec m 0).
    + replace ((0 <=? t) && (t <? n) && (mo <=? m + L - 1 + mo) && (m + L - 1 + mo <? L - 1 + mo)) with true by lia.
      rewrite Z.sub_0_r, Z.add_0_l. replace (L - 1 + mo + 1 + (L - 1 + mo - mo - 1 - (m + L - 1 + mo - mo))) with (- m + L - 1 + mo) by lia.
      rewrite H4 by lia. rewrite Cconj_mult, <- SYM by lia. rewrite Z.opp_involutive. f_equal.
      destruct s; cbn [phase_of]; try apply Cconj_R. rewrite cis_conj. f_equal. rewrite opp_IZR. ring.
    + replace ((0 <=? t) && (t <? n) && (mo <=? m + L - 1 + mo) && (m + L - 1 + mo <? L - 1 + mo)) with false by lia. apply H4; lia.
Qed.

Lemma shift_rings_ok s L nside o reality (a : ndarray C) F : 1 <= L -> (s = HEALPIX -> 1 <= nside /\ o = Some nside) ->
  forall fw n, (s = HEALPIX -> n = 4 * nside - 1) -> is_mat a n (orders s L) F ->
  exists b, shift_rings a L (scheme_name s) o fw reality ((if reality then L - 1 else 0) + mo_of s) = Ok b /\
    is_mat b n (orders s L) (fun t c => if (if reality then L - 1 else 0) + mo_of s <=? c
      then (F t c * (if fw then Cconj (phase_of s nside t (c - mo_of s - (L - 1))) else phase_of s nside t (c - mo_of s - (L - 1))))%C else F t c).
Proof.
  intros HL Hhp fw n Hn Ha. unfold shift_rings. rewrite is_hp_name. destruct s;
    try (exists a; split; [reflexivity|]; apply (is_mat_ext _ _ _ _ _ Ha); intros t c Ht Hc; cbn [phase_of]; destruct (_ <=? _); [|reflexivity];
         destruct fw; rewrite ?Cconj_R; ring).
  destruct (Hhp eq_refl) as (H1 & ->). cbn [need bind]. rewrite (Hn eq_refl) in *.
  destruct (phase_shifts_ok L nside fw reality HL H1) as (ph & -> & Hph). cbn [bind mo_of orders] in *.
  destruct (mul_phases_ok a ph (4 * nside - 1) (2 * L) F (fun t i => cis (shift_sign fw * (IZR ((if reality then 0 else 1 - L) + i)%Z * hp_longitude nside t 0))) ((if reality then L - 1 else 0) + 1) Ha)
    as (b & E & Hb); [lia|destruct reality; lia|destruct reality; [replace (2 * L - (L - 1 + 1)) with (L - 0) by lia|replace (2 * L - (0 + 1)) with (L - (1 - L)) by lia]; exact Hph|].
  exists b. split; [exact E|]. apply (is_mat_ext _ _ _ _ _ Hb). intros t c Ht Hc. cbn beta. destruct (_ <=? _) eqn:Ec; [|reflexivity]. f_equal.
  cbn [phase_of]. replace ((if reality then 0 else 1 - L) + (c - ((if reality then L - 1 else 0) + 1))) with (c - 1 - (L - 1)) by (destruct reality; lia).
  unfold shift_sign. destruct fw; [rewrite cis_conj|]; f_equal; ring.
Qed.

Lemma jax_rows_ok g (ftm : ndarray C) V : (exists n, gsh g = [n; dim1 ftm]) -> (forall t p, ge g t p = [t; p]) ->
  on_grid g (map_rows (fun r => ifft_fwd (ifftshift r)) ftm) V ->
  on_grid g (map_rows (fun r => vmap Cconj (fft_bwd (vmap Cconj (ifftshift r)))) ftm) V.
Proof.
  intros (n & Hn) He [H1 H2]. split; [exact H1|]. intros t p Htp. rewrite <- H2 by auto. rewrite He. unfold map_rows, mat. cbn [get nth].
  exact (conj_fft (ifftshift (row ftm t)) p).
Qed.

Section OInv.
  Variables (th : theta_fn) (flm : ndarray C) (L spin : Z) (s : scheme) (nside : Z) (o : option Z) (reality : bool) (Lo : Z) (beta : vec R).
  Hypothesis HL : 2 <= L.
  Hypothesis HLo : 0 <= Lo <= L - 2.
  Hypothesis Hs : Z.abs spin < L.
  Hypothesis Hn : s = HEALPIX -> 1 <= nside /\ o = Some nside /\ 2 * nside <= L.
  Hypothesis Hf : shape flm = [L; 2 * L - 1].
  Hypothesis Hz : spin_zero L spin flm.
  Hypothesis Hre : reality = true -> spin = 0.
  Hypothesis Hre0 : reality = true -> forall el, 0 <= el < L -> is_real (stored L flm el 0).
  Hypothesis Eth : th L (scheme_name s) o = Ok beta.
  Hypothesis Hb : vlen beta = rings s L nside.
  Hypothesis Hu : forall t, 0 <= t < rings s L nside -> usable_ring s (rings s L nside) L Lo spin (vat beta) t.
  Let n := rings s L nside.
  Let x := ring_angle s n (vat beta).
  Let g := agrid s L nside x.
  Let A := SphInverse.A flm L spin reality Lo g.

  Lemma rings_pos : 0 < rings s L nside.
  Proof. clear - HL Hn. destruct s; cbn [rings]; try lia. destruct (Hn eq_refl). lia. Qed.

  Lemma A_sym0 : reality = true -> forall t m, 0 <= m < L -> A t (- m) = Cconj (A t m).
  Proof.
    intros Hr t m Hm. destruct (Z.eq_dec m 0) as [->|]; [|apply A_neg; auto; lia].
    change (- 0) with 0. unfold A, SphInverse.A. rewrite csum_conj. apply cs_ext. intros el Hel.
    unfold el_range in Hel. apply in_zrange in Hel. rewrite <- (Ac_X flm L spin reality g t el 0) by lia. rewrite Cconj_mult, Cconj_R. f_equal.
    assert (I := Hre0 Hr el ltac:(lia)). apply real_conj in I. symmetry. exact I.
  Qed.

  Lemma lat_A flm' t m : is_mat flm' L (2 * L - 1) (fun el j => if Lo <=? el then cscale (elfactor el) (at2 flm el j) else at2 flm el j) ->
    - L < m < L -> (irow flm' L spin reality Lo (x t) m * RtoC (m1 spin))%C = if reality && (m <? 0) then RtoC 0 else A t m.
  Proof.
    intros Hf' Hm. unfold irow. destruct (reality && (m <? 0)) eqn:E; [ring|]. unfold latitude_sum, A, SphInverse.A, el_range.
    rewrite <- cs_scal_r.
    assert (T : forall el, Z.max Lo (Z.abs m) <= el < L -> Z.max Lo (Z.abs spin) <= el < L \/ True) by auto.
    set (h := fun el => (RtoC (m1 spin * elfactor el * wigner_d el m (- spin)%Z (x t)) * get flm [el; m + L - 1]%Z)%C).
    rewrite (cr_ext _ L _ h).
    2:{ intros el Hel. unfold h. change (get flm' [el; m + L - 1]) with (at2 flm' el (m + L - 1)). rewrite (proj2 Hf') by lia. replace (Lo <=? el) with true by lia. unfold cscale, at2.
        rewrite !RtoC_mult. ring. }
    transitivity (csum (zrange (Z.max Lo (Z.max (Z.abs spin) (Z.abs m))) L) h).
    - apply cr_shrink; try lia. intros el Hel Ho. unfold h. rewrite wig_out by lia. rewrite Rmult_0_r. ring.
    - transitivity (csum (zrange (Z.max Lo (Z.abs spin)) L) h).
      + symmetry. apply cr_shrink; try lia. intros el Hel Ho. unfold h. rewrite wig_out by lia. rewrite Rmult_0_r. ring.
      + apply cr_ext. intros el Hel. unfold h. rewrite <- (Ac_X flm L spin reality g t el m) by (intros ->; cbn in E; lia).
        unfold g. rewrite agrid_th. reflexivity.
  Qed.

  (** from the rows of the step to the rows handed to the ring transforms *)
  Lemma rows_lemma flm' a sg : is_mat flm' L (2 * L - 1) (fun el j => if Lo <=? el then cscale (elfactor el) (at2 flm el j) else at2 flm el j) ->
    all_rings flm' L spin s reality Lo beta a -> m1 sg = m1 spin ->
    exists b c, finite2 a = Ok b /\ shift_rings b L (scheme_name s) o false reality ((if reality then L - 1 else 0) + mo_of s) = Ok c /\
      is_mat (mscal (fun z => (z * RtoC (m1 sg))%C) c) n (orders s L)
        (fun t j => if j <? mo_of s then RtoC 0 else let m := j - mo_of s - (L - 1) in
                    if reality && (m <? 0) then RtoC 0 else (phase_of s nside t m * A t m)%C).
  Proof.
    intros Hf' (F & HF & H) Hsg. rewrite Hb in HF, H. rewrite <- mo_shift in HF, H. fold n in HF, H.
    assert (EO : orders s L = 2 * L - 1 + mo_of s) by (destruct s; cbn [orders mo_of]; lia).
    assert (M01 : mo_of s = 0 \/ mo_of s = 1) by (destruct s; cbn [mo_of]; lia).
    destruct (finite2_ok a n (2 * L - 1 + mo_of s) F (fun t j => if j <? mo_of s then RtoC 0 else irow flm' L spin reality Lo (x t) (j - mo_of s - (L - 1)))) as (b & E1 & H1); [exact HF| |].
    { intros t c Ht Hc. destruct (H t Ht (Hu t Ht)) as [Q1 Q2]. destruct (Z.ltb_spec c (mo_of s)).
      - replace c with 0 by lia. apply Q1. lia.
      - replace c with (c - mo_of s - (L - 1) + L - 1 + mo_of s) at 1 by lia. apply Q2; auto; lia. }
    rewrite <- EO in H1.
    destruct (shift_rings_ok s L nside o reality b _ ltac:(lia) ltac:(intros Q; destruct (Hn Q) as (? & ? & ?); auto) false n ltac:(intros Q; unfold n; rewrite Q; reflexivity) H1) as (c & E2 & H2).
    exists b, c. split; [exact E1|]. split; [exact E2|].
    apply (is_mat_ext _ _ _ _ _ (mscal_ok (fun z => (z * RtoC (m1 sg))%C) _ _ _ _ H2)). intros t j Ht Hj. cbn beta zeta. rewrite Hsg.
    destruct (Z.ltb_spec j (mo_of s)).
    - replace ((if reality then L - 1 else 0) + mo_of s <=? j) with false by (destruct reality; lia). ring.
    - set (m := j - mo_of s - (L - 1)). assert (LA := lat_A flm' t m Hf' ltac:(unfold m; lia)).
      destruct (Z.leb_spec ((if reality then L - 1 else 0) + mo_of s) j).
      + replace (reality && (m <? 0)) with false in * by (unfold m; destruct reality; lia). rewrite <- LA. ring.
      + replace (reality && (m <? 0)) with true in * by (unfold m; destruct reality; lia). exact LA.
  Qed.

  Lemma half_rows ftm : is_mat ftm n (orders s L)
        (fun t j => if j <? mo_of s then RtoC 0 else let m := j - mo_of s - (L - 1) in
                    if reality && (m <? 0) then RtoC 0 else (phase_of s nside t m * A t m)%C) ->
    exists F, is_mat ftm n (orders s L) F /\ forall t, 0 <= t < n -> (mo_of s = 1 -> F t 0 = RtoC 0) /\
      forall m, - L < m < L -> (reality = true -> 0 <= m) -> F t (m + L - 1 + mo_of s) = (phase_of s nside t m * A t m)%C.
  Proof.
    intros H. eexists. split; [exact H|]. intros t Ht. cbn beta zeta. split.
    - intros ->. reflexivity.
    - intros m Hm Hr. replace (m + L - 1 + mo_of s <? mo_of s) with false by lia.
      replace (m + L - 1 + mo_of s - mo_of s - (L - 1)) with m by lia.
      replace (reality && (m <? 0)) with false; [reflexivity|]. destruct reality; [specialize (Hr eq_refl); lia|reflexivity].
  Qed.

  Lemma values t p : order_sum g L A t p = synth L spin (used_coefficients reality spin Lo (stored L flm)) (x t) (longitude s L nside t p).
  Proof. unfold A. rewrite <- V_A. rewrite V_synth_gen by (auto; lia). unfold g. now rewrite agrid_th, agrid_ph. Qed.
  Lemma on_samples f : on_grid g f (order_sum g L A) -> samples_at x s L nside f (synth L spin (used_coefficients reality spin Lo (stored L flm))).
  Proof.
    intros [H1 H2]. unfold g in H1. rewrite agrid_sh in H1. split; [exact H1|]. intros t p Ht Hp.
    specialize (H2 t p). unfold g at 2 in H2. rewrite agrid_e in H2. rewrite H2; [apply values|]. unfold in_grid, g. rewrite agrid_n, agrid_N. auto.
  Qed.

  Lemma flm_norm : exists flm', normalise cscale flm L Lo = Ok flm' /\ shape flm' = [L; 2 * L - 1] /\ spin_zero L spin flm' /\
    is_mat flm' L (2 * L - 1) (fun el j => if Lo <=? el then cscale (elfactor el) (at2 flm el j) else at2 flm el j).
  Proof.
    destruct (normalise_ok cscale flm L (2 * L - 1) (at2 flm) Lo (is_mat_self _ _ _ Hf) ltac:(lia)) as (flm' & E & H).
    exists flm'. split; [exact E|]. split; [apply H|]. split; [|exact H]. intros el m Hel HelL Hm.
    change (get flm' [el; m + L - 1]) with (at2 flm' el (m + L - 1)). rewrite (proj2 H) by lia.
    assert (Z0 : at2 flm el (m + L - 1) = RtoC 0) by (apply Hz; auto). rewrite Z0. unfold cscale. destruct (_ <=? _); [ring|reflexivity].
  Qed.

  Lemma inverse_numpy_lemma p : numpy_precomps th L spin (scheme_name s) o false Lo beta p ->
    exists f, inverse_numpy th flm L spin o (scheme_name s) reality p Lo = Ok f /\
      samples_at x s L nside f (synth L spin (used_coefficients reality spin Lo (stored L flm))).
  Proof.
    intros HP. destruct flm_norm as (flm' & E1 & Hf' & Hz' & HM). pose proof rings_pos as RP. fold n in RP.
    unfold inverse_numpy. rewrite Eth. cbn [bind]. rewrite E1. cbn [bind].
    destruct (inverse_step th flm' L spin s (scheme_name s) nside o reality Lo beta HL HLo Hs (denotes_name s) (plain_scheme s)
      ltac:(intros Q; apply (Hn Q)) Hf' Hz' p Hb HP) as (a & -> & Ia). cbn [bind].
    destruct (set_poles_ok flm' L spin s (scheme_name s) nside o reality Lo beta HL HLo Hs (denotes_name s) (plain_scheme s) ltac:(intros Q; apply (Hn Q)) Hf' Hz' a) as (a' & -> & Ia'); cbn [bind];
      [intros _; rewrite Hb; lia|intros Q; rewrite Hb, Q; cbn [rings]; lia|exact Ia|].
    destruct (rows_lemma flm' a' spin HM Ia' eq_refl) as (b & c & -> & E3 & Hc). cbn [bind]. rewrite l_offset_name, E3. cbn [bind].
    set (ftm := mscal _ c) in *. clearbody ftm. destruct (half_rows _ Hc) as (F & HF & HFv). clear Hc.
    assert (SYM : reality = true -> forall t m, 0 <= t < n -> 0 <= m < L -> A t (- m) = Cconj (A t m)) by (intros; now apply A_sym0).
    assert (MR : exists ftm', (if is_hp (scheme_name s) then if reality then mirror_orders ftm L (mo_of s) else Ok ftm else Ok ftm) = Ok ftm' /\
       ftm_ok s L nside n reality A ftm').
    { rewrite is_hp_name. destruct (Sumbool.sumbool_of_bool reality) as [Hr|Hr]; rewrite Hr.
      - assert (D : s = HEALPIX \/ s <> HEALPIX) by (clear; destruct s; auto; right; discriminate). destruct D as [D|D].
        + destruct (mirror_ok s L nside n A ftm ltac:(lia) ltac:(lia)) as (ftm' & E & H); [right|intros; apply SYM; auto|].
          * exists F. split; [exact HF|]. intros t Ht. destruct (HFv t Ht) as [Q1 Q2]. split; [exact Q1|]. intros m Hm. apply Q2; lia.
          * exists ftm'. split; [rewrite D in E |- *; exact E|]. destruct H as (G & G1 & G2). exists G. split; [exact G1|]. intros t Ht. destruct (G2 t Ht) as [G3 G4].
            split; [exact G3|]. intros m Hm _. apply G4; [auto|congruence].
        + exists ftm. split; [destruct s; try congruence; reflexivity|]. exists F. split; [exact HF|]. intros t Ht. destruct (HFv t Ht) as [Q1 Q2]. split; [exact Q1|].
          intros m Hm Hm'. apply Q2; auto.
      - exists ftm. split; [destruct s; reflexivity|]. exists F. split; [exact HF|]. intros t Ht. destruct (HFv t Ht) as [Q1 Q2]. split; [exact Q1|].
        intros m Hm Hm'. apply Q2; auto. intros; congruence. }
    destruct MR as (ftm' & E4 & FO).
    destruct (numpy_synthesis s L nside o reality A ftm' x ltac:(lia) Hn FO SYM numpy) as (f & E5 & Hf5).
    exists f. split; [|apply on_samples, Hf5]. unfold pre_synthesis in E5. rewrite m_offset_name in E5.
    destruct (is_hp (scheme_name s)).
    - rewrite E4. cbn [bind]. exact E5.
    - injection E4 as ->. exact E5.
  Qed.

  (** inverse_jax with any latitudinal step that computes the rings *)
  Definition inverse_with (step : ndarray C -> vec R -> result (ndarray ecx)) : result (ndarray C) :=
    let* ths := th L (scheme_name s) o in
    let mo := l_offset (scheme_name s) in
    let ms := if reality then L - 1 else 0 in
    let* flm := normalise cscale flm L Lo in
    let* ftm := step flm ths in
    let* ftm := finite2 ftm in
    let* ftm := shift_rings ftm L (scheme_name s) o false reality (ms + mo) in
    let ftm := mscal (fun z => (z * RtoC (m1 (Z.abs spin)))%C) ftm in
    let* ftm := (if reality then mirror_orders ftm L mo else Ok ftm) in
    if is_hp (scheme_name s) then
      let* n := need o in
      let* (_, f) := healpix_ifft (RtoC 0) Cplus ifft_fwd irfft_fwd (to_rows ftm) L n "jax" false in
      Ok (of_vec f)
    else
      let f := map_rows (fun r => vmap Cconj (fft_bwd (vmap Cconj (ifftshift r)))) ftm in
      Ok (if reality then areal f else f).
  Lemma inverse_with_lemma step :
    (forall flm', shape flm' = [L; 2 * L - 1] -> spin_zero L spin flm' -> exists a, step flm' beta = Ok a /\ all_rings flm' L spin s reality Lo beta a) ->
    exists f, inverse_with step = Ok f /\
      samples_at x s L nside f (synth L spin (used_coefficients reality spin Lo (stored L flm))).
  Proof.
    intros HS. destruct flm_norm as (flm' & E1 & Hf' & Hz' & HM). pose proof rings_pos as RP. fold n in RP.
    unfold inverse_with. rewrite Eth. cbn [bind]. rewrite E1. cbn [bind].
    destruct (HS flm' Hf' Hz') as (a & -> & Ia). cbn [bind].
    destruct (rows_lemma flm' a (Z.abs spin) HM Ia (m1_abs spin)) as (b & c & -> & E3 & Hc). cbn [bind]. rewrite l_offset_name, E3. cbn [bind].
    set (ftm := mscal _ c) in *. clearbody ftm. destruct (half_rows _ Hc) as (F & HF & HFv). clear Hc.
    assert (SYM : reality = true -> forall t m, 0 <= m < L -> A t (- m) = Cconj (A t m)) by (intros; now apply A_sym0).
    assert (MR : exists ftm', (if reality then mirror_orders ftm L (mo_of s) else Ok ftm) = Ok ftm' /\ ftm_ok s L nside n false A ftm').
    { destruct (Sumbool.sumbool_of_bool reality) as [Hr|Hr]; rewrite Hr.
      - apply mirror_ok; [lia|lia|right|intros; apply SYM; auto].
        exists F. split; [exact HF|]. intros t Ht. destruct (HFv t Ht) as [Q1 Q2]. split; [exact Q1|]. intros m Hm. apply Q2; lia.
      - exists ftm. split; [reflexivity|]. exists F. split; [exact HF|]. intros t Ht. destruct (HFv t Ht) as [Q1 Q2]. split; [exact Q1|].
        intros m Hm Hm'. apply Q2; auto. intros; congruence. }
    destruct MR as (ftm' & -> & FO). cbn [bind].
    destruct (numpy_synthesis s L nside o false A ftm' x ltac:(lia) Hn FO ltac:(discriminate) jax) as (f & E5 & Hf5).
    unfold pre_synthesis in E5. assert (D : s = HEALPIX \/ s <> HEALPIX) by (clear; destruct s; auto; right; discriminate).
    destruct D as [D|D].
    - replace (is_hp (scheme_name s)) with true in * by (rewrite is_hp_name, D; reflexivity).
      exists f. split; [exact E5|]. apply on_samples, Hf5.
    - replace (is_hp (scheme_name s)) with false in * by (rewrite is_hp_name; destruct s; congruence). injection E5 as <-.
      assert (Hj : on_grid g (map_rows (fun r => vmap Cconj (fft_bwd (vmap Cconj (ifftshift r)))) ftm') (order_sum g L A)).
      { apply jax_rows_ok; [|unfold g, agrid; clear - D; destruct s; try congruence; reflexivity|exact Hf5].
        exists n. destruct FO as (F' & HF' & _). rewrite (is_mat_dim1 _ _ _ _ HF'). unfold g, agrid. clear - D. destruct s; try congruence; cbn; do 2 f_equal; lia. }
      eexists. split; [reflexivity|]. apply on_samples. destruct (Sumbool.sumbool_of_bool reality) as [Hr|Hr]; rewrite Hr; [|exact Hj].
      destruct Hj as [J1 J2]. split; [exact J1|]. intros t q Htp. cbn [areal get]. rewrite J2 by auto.
      apply order_sum_real; [lia|]. intros. apply SYM; auto.
  Qed.
  Lemma jax_step_rings p flm' : jax_precomps th L spin (scheme_name s) o false Lo beta p -> shape flm' = [L; 2 * L - 1] -> spin_zero L spin flm' ->
    exists a, inverse_latitudinal_step_jax th flm' beta L spin o (scheme_name s) reality p Lo = Ok a /\ all_rings flm' L spin s reality Lo beta a.
  Proof.
    intros HP Hf' Hz'. pose proof rings_pos as RP. fold n in RP.
    apply (inverse_step_jax th flm' L spin s (scheme_name s) nside o reality Lo beta HL HLo Hs (denotes_name s) (plain_scheme s) ltac:(intros Q; apply (Hn Q)) Hf' Hz' p);
      [intros _; rewrite Hb; lia|intros Q; rewrite Hb, Q; cbn [rings]; lia|exact HP].
  Qed.
  Lemma inverse_jax_lemma p : jax_precomps th L spin (scheme_name s) o false Lo beta p ->
    exists f, inverse_jax th flm L spin o (scheme_name s) reality p Lo = Ok f /\
      samples_at x s L nside f (synth L spin (used_coefficients reality spin Lo (stored L flm))).
  Proof.
    intros HP. apply (inverse_with_lemma (fun flm ths => inverse_latitudinal_step_jax th flm ths L spin o (scheme_name s) reality p Lo)).
    intros. now apply jax_step_rings.
  Qed.
End OInv.
