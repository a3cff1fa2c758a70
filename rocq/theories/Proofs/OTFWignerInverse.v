(** The on-the-fly inverse Wigner transforms. *)
From Coq Require Import Reals ZifyBool Lra.
From Coquelicot Require Import Complex.
From Verif Require Import Lib.Py Lib.PyFacts Lib.Vec Lib.VecFacts Lib.Sums Lib.Cplx Lib.Arr Lib.ArrFacts Lib.MatFacts Lib.Ext Lib.ExtFacts Lib.Lim
  Model.Index Model.Samples Model.Grids Model.FFT Model.HealpixFFT Model.Turok Model.Resampling Model.Quadrature Model.Spherical
  Model.Precompute Model.PriceMcEwen Model.OTF Model.OTFSpherical Model.Wigner Model.OTFWigner
  Spec.SamplesSpec Spec.WignerSpec Spec.SphereSpec Spec.GridSpec Spec.HealpixFFTSpec Spec.SphericalSpec Spec.QuadSpec Spec.SO3Spec Spec.OTFSpec Spec.OTFSphericalSpec Spec.OTFWignerSpec
  Proofs.SamplesProofs Proofs.GridProofs Proofs.PixelProofs Proofs.TurokProofs Proofs.HealpixDFTProofs Proofs.SphGrid
  Proofs.WignerCalc Proofs.SphereTheory Proofs.SphInverse Proofs.SphTop Proofs.SphForward Proofs.SphForwardTop Proofs.SphRound Proofs.SphFacts
  Proofs.WignerInverse Proofs.WignerForward Proofs.WignerRound Proofs.WignerReal Proofs.PMPre Proofs.OTFProofs Proofs.OTFTop Proofs.OTFLimit Proofs.OTFSphInverse Proofs.OTFSphForward
  Proofs.OTFSphNear Proofs.OTFSphTop Proofs.OTFWignerLoop
  Spec.CallSpec.
From Coq Require Import List.
Import ListNotations.
Open Scope string_scope.
Open Scope Z_scope.



Section Inverse.
  Variables (th : theta_fn) (flmn : ndarray C) (L N : Z) (s : scheme) (nside : Z) (o : option Z) (reality : bool) (Lo : Z) (beta : vec R).
  Hypothesis (HL : 2 <= L) (HLo : 0 <= Lo <= L - 2) (HN : 1 <= N <= L) (H8 : N < 8)
    (Hn : s = HEALPIX -> 1 <= nside /\ o = Some nside /\ 2 * nside <= L) (Hf : shape flmn = [2 * N - 1; L; 2 * L - 1])
    (Hz : wigner_zero L N flmn) (Hr : reality = true -> forall l, 0 <= l < L -> is_real (stored3 L N flmn 0 l 0))
    (Eth : th L (scheme_name s) o = Ok beta) (Hb : vlen beta = rings s L nside) (Hu : usable_rings3 s (rings s L nside) L Lo N (vat beta)).
  Notation n0 := (n_start N reality).
  Notation x := (ring_angle s (rings s L nside) (vat beta)).
  Notation cc := (used3 reality Lo (stored3 L N flmn)).

  Lemma pm_inverse : pm_thetas th L (scheme_name s) o false = Ok beta.
  Proof. unfold pm_thetas. cbn [andb]. exact Eth. Qed.

  Variable a : ndarray C.
  Hypothesis (Sa : shape a = [2 * N - 1; L; 2 * L - 1])
    (Ga : forall i l j, get a [i; l; j] = if Lo <=? l then (get flmn [i; l; j] * RtoC (inv_scale l))%C else get flmn [i; l; j]).

  Lemma n0_range n : n0 <= n < N -> - N < n < N.
  Proof. unfold n_start. destruct reality; lia. Qed.

  (** the plane n and what its transform has to hold *)
  Lemma plane_facts n : n0 <= n < N -> exists flm, plane a (N - 1 + n) = Ok flm /\ shape flm = [L; 2 * L - 1] /\ spin_zero L (- n) flm /\
    (forall l m, stored L flm l m = if Lo <=? l then (RtoC (so3_scale l) * stored3 L N flmn n l m)%C else stored3 L N flmn n l m).
  Proof.
    intros Hk. pose proof (n0_range n Hk) as Hk'. rewrite (plane_ok a (2 * N - 1) [L; 2 * L - 1]) by (auto; lia). eexists. split; [reflexivity|]. split; [reflexivity|].
    assert (V : forall l m, stored L (mkArr [L; 2 * L - 1] (fun ix => get a (N - 1 + n :: ix))) l m =
      if Lo <=? l then (RtoC (so3_scale l) * stored3 L N flmn n l m)%C else stored3 L N flmn n l m).
    { intros l m. unfold stored, stored3. cbn [get]. rewrite Ga. replace (n + N - 1) with (N - 1 + n) by lia. destruct (Lo <=? l); [apply Cmult_comm|reflexivity]. }
    split; [|exact V]. intros el m H1 H2 H3. unfold stored in V. rewrite V. rewrite (Hz n el m) by lia. destruct (_ <=? _); [ring|reflexivity].
  Qed.

  Lemma coeffs_n n (flag : bool) c : n0 <= n < N -> (flag = true -> n = 0 /\ reality = true) ->
    (reality = true -> n = 0 -> flag = false -> hermitian_plane L N flmn) ->
    (forall l m, c l m = if Lo <=? l then (RtoC (so3_scale l) * stored3 L N flmn n l m)%C else stored3 L N flmn n l m) ->
    forall theta phi, (RtoC (sgn n) * synth L (- n) (used_coefficients flag (- n) Lo c) theta phi)%C = part3 L n (cc n) phi theta.
  Proof.
    intros Hk H1 H2 Hc theta phi. rewrite <- component. f_equal. apply synth_ext. intros l m Hl Hm. unfold used_coefficients, above, used3.
    destruct (Z.ltb_spec l Lo) as [Q|Q]; [ring|].
    assert (Hc' : forall m, c l m = (RtoC (so3_scale l) * stored3 L N flmn n l m)%C) by (intros m'; rewrite Hc; zif; reflexivity).
    destruct flag.
    - destruct (H1 eq_refl) as [-> ->]. change (- 0 =? 0) with true. cbn [andb]. unfold real_extension, real_extension3. cbn [Z.ltb Z.eqb orb andb Z.opp].
      change (0 <? 0) with false. cbn [orb]. destruct (m <? 0); [|apply Hc']. rewrite Hc', Cconj_mult, Cconj_R, Z.add_0_r. change (-0)%Z with 0. ring.
    - cbn [andb]. rewrite Hc'. f_equal. destruct reality eqn:ER; [|reflexivity]. unfold real_extension3.
      assert (Hn0 : 0 <= n) by (unfold n_start in Hk; lia). replace (n <? 0) with false by lia. cbn [orb].
      destruct (Z.eqb_spec n 0) as [->|]; [|reflexivity]. cbn [andb]. destruct (Z.ltb_spec m 0); [|reflexivity].
      change (-0)%Z with 0. rewrite Z.add_0_r, (H2 eq_refl eq_refl eq_refl) by lia. rewrite Cconj_mult, Cconj_R, Cconj_conj, Cmult_assoc, <- RtoC_mult, sgn_sq. ring.
  Qed.

  Lemma numpy_plane n q : n0 <= n < N -> generate_precomputes th L (- n) (scheme_name s) o false Lo = Ok q ->
    exists flm g, plane a (N - 1 + n) = Ok flm /\
      inverse_numpy th flm L (- n) o (scheme_name s) (if n =? 0 then reality else false) (Some q) Lo = Ok g /\ shape g = map_shape s L nside /\
      forall t p, 0 <= t < rings s L nside -> 0 <= p < ring_size s L nside t ->
        (RtoC (sgn n) * get g (sample_index s nside t p))%C = part3 L n (cc n) (longitude s L nside t p) (x t).
  Proof.
    intros Hk Eq. destruct (plane_facts n Hk) as (flm & Ep & Sf & Zf & Vf). pose proof (n0_range n Hk) as Hk'. exists flm.
    assert (FL : (if n =? 0 then reality else false) = true -> n = 0 /\ reality = true) by (destruct (Z.eqb_spec n 0); [auto|discriminate]).
    destruct (inverse_numpy_lemma th flm L (- n) s nside o (if n =? 0 then reality else false) Lo beta HL HLo ltac:(lia) Hn Sf Zf) with (p := Some q) as (g & E & S1 & H1).
    - intros Q. destruct (FL Q). lia.
    - intros Q el Hel. destruct (FL Q) as [Qn Qr]. rewrite Vf, Qn. destruct (_ <=? _); [|now apply Hr]. unfold is_real. rewrite im_scal, (Hr Qr el Hel). ring.
    - exact Eth.
    - exact Hb.
    - intros t Ht. apply Hu; auto. lia.
    - split; [apply pm_inverse|right]. exists q. auto.
    - exists g. split; [exact Ep|]. split; [exact E|]. split; [exact S1|]. intros t p Ht Hp. rewrite H1 by auto. apply coeffs_n; auto.
      intros Q1 -> Q2. cbn in Q2. congruence.
  Qed.
  Lemma jax_plane n q : (reality = true -> hermitian_plane L N flmn) -> n0 <= n < N -> generate_precomputes_jax th L (- n) (scheme_name s) o false Lo None = Ok q ->
    exists flm g, plane a (N - 1 + n) = Ok flm /\
      inverse_jax th flm L (- n) o (scheme_name s) false (Some q) Lo = Ok g /\ shape g = map_shape s L nside /\
      forall t p, 0 <= t < rings s L nside -> 0 <= p < ring_size s L nside t ->
        (RtoC (sgn n) * get g (sample_index s nside t p))%C = part3 L n (cc n) (longitude s L nside t p) (x t).
  Proof.
    intros Hh Hk Eq. destruct (plane_facts n Hk) as (flm & Ep & Sf & Zf & Vf). pose proof (n0_range n Hk) as Hk'. exists flm.
    destruct (inverse_jax_lemma th flm L (- n) s nside o false Lo beta HL HLo ltac:(lia) Hn Sf Zf) with (p := Some q) as (g & E & S1 & H1).
    - discriminate.
    - discriminate.
    - exact Eth.
    - exact Hb.
    - intros t Ht. apply Hu; auto. lia.
    - right. right. split; [apply pm_inverse|right]. exists q. auto.
    - exists g. split; [exact Ep|]. split; [exact E|]. split; [exact S1|]. intros t p Ht Hp. rewrite H1 by auto. apply coeffs_n; auto. discriminate.
  Qed.

  (** the axis of gamma *)
  Lemma finish3 fb : shape fb = 2 * N - 1 :: map_shape s L nside ->
    (forall n t p, n0 <= n < N -> 0 <= t < rings s L nside -> 0 <= p < ring_size s L nside t ->
       get fb (N - 1 + n :: sample_index s nside t p) = part3 L n (cc n) (longitude s L nside t p) (x t)) ->
    so3_at x s L N nside (gamma_synthesis fb N reality) (so3_synth L N cc).
  Proof.
    intros Sb Gb. destruct (gamma_synthesis_ok s L N nside reality ltac:(lia) fb (fun n t p => part3 L n (cc n) (longitude s L nside t p) (x t)) Sb Gb) as (S1 & G1).
    { intros ER n t p Hk _ _. apply part3_conj. intros l m Hl Hm. unfold used3. rewrite ER. destruct (l <? Lo); [rewrite Cconj_R; ring|].
      unfold real_extension3. destruct (Z.eqb_spec n 0) as [->|Q].
      - change (-0)%Z with 0. change (0 <? 0) with false. cbn [orb Z.eqb andb]. rewrite !Z.add_0_r.
        destruct (Z.ltb_spec m 0); destruct (Z.ltb_spec (- m) 0); try lia.
        + rewrite Cconj_mult, Cconj_R, Cconj_conj, Cmult_assoc, <- RtoC_mult, sgn_sq. ring.
        + rewrite Z.opp_involutive, sgn_opp. reflexivity.
        + assert (m = 0) by lia. subst m. change (- 0)%Z with 0. change (sgn 0) with 1%R. rewrite (real_conj _ (Hr ER l ltac:(lia))). ring.
      - replace (- n <? 0) with true by lia. replace (n <? 0) with false by lia. cbn [orb]. replace (n =? 0) with false by lia. cbn [andb].
        rewrite !Z.opp_involutive. f_equal. replace (- m + - n) with (- (m + n)) by lia. now rewrite sgn_opp. }
    split; [exact S1|]. intros g t p Hg Ht Hp. rewrite G1 by auto. rewrite so3_synth_parts. apply cr_ext. intros n Hk. now rewrite gamma_root by lia.
  Qed.
End Inverse.

Lemma plane_ix (Q : Z -> ndarray C -> Prop) s L nside (V : Z -> Z -> Z -> C) :
  (forall n g, Q n g <-> forall t p, 0 <= t < rings s L nside -> 0 <= p < ring_size s L nside t -> get g (sample_index s nside t p) = V n t p) ->
  forall n g g', shape g = map_shape s L nside -> (forall ix, get g ix = get g' ix) -> Q n g -> Q n g'.
Proof. intros H n g g' _ E Hg. apply H. intros t p Ht Hp. rewrite <- E. now apply H. Qed.

Lemma wigner_inverse_call_ok th flmn L N s nside o reality Lo beta method p : wigner_inverse_call th flmn L N s nside o reality Lo beta method p ->
  exists f, otf_wigner_inverse th flmn L N o (scheme_name s) method reality p Lo = Ok f /\
    so3_at (ring_angle s (rings s L nside) (vat beta)) s L N nside f (so3_synth L N (used3 reality Lo (stored3 L N flmn))).
Proof.
  intros (HL & HLo & HN & H8 & Hn & Hf & Hz & Hr & Hh & Eth & Hb & Hu & Hm & Epm & HP).
  assert (S : setting (scheme_name s) s L nside o) by (split; [apply denotes_name|]; split; [lia|]; intros Q; destruct (Hn Q) as (? & ? & ?); auto).
  destruct (scale_degrees_ok flmn L Lo inv_scale (2 * N - 1) ltac:(lia) Hf) as (a & Ea & Sa & Ga).
  set (V := fun n t q => part3 L n (used3 reality Lo (stored3 L N flmn) n) (longitude s L nside t q) (ring_angle s (rings s L nside) (vat beta) t)).
  set (Q := fun n g => forall t q, 0 <= t < rings s L nside -> 0 <= q < ring_size s L nside t -> get g (sample_index s nside t q) = V n t q).
  assert (HQ : forall n g g', shape g = map_shape s L nside -> (forall ix, get g ix = get g' ix) -> Q n g -> Q n g').
  { apply (plane_ix Q s L nside V). intros; unfold Q; tauto. }
  assert (n0 : - N + 1 <= n_start N reality <= N) by (unfold n_start; destruct reality; lia).
  assert (NP : (exists l, numpy_list th L N (scheme_name s) o false reality Lo p = Ok l /\
      forall n, n_start N reality <= n < N -> exists q, lread l (n - n_start N reality) = Ok q /\ generate_precomputes th L (- n) (scheme_name s) o false Lo = Ok q) ->
    exists f, inverse_numpy3 th flmn L N o (scheme_name s) reality p Lo = Ok f /\
      so3_at (ring_angle s (rings s L nside) (vat beta)) s L N nside f (so3_synth L N (used3 reality Lo (stored3 L N flmn)))).
  { intros (l & El & Hl). unfold inverse_numpy3. rewrite El. cbn [bind]. rewrite (so3_shape s L N nside o S). cbn [bind]. rewrite Ea. cbn [bind].
    match goal with |- context [foldM ?F _ ?z] => destruct (plane_loop N (n_start N reality) (map_shape s L nside) Q F z n0 ltac:(lia) eq_refl) as (fb & -> & Sb & Gb & _) end.
    - intros n Hk. destruct (Hl n Hk) as (q & E1 & E2).
      destruct (numpy_plane th flmn L N s nside o reality Lo beta HL HLo HN Hn Hz Hr Eth Hb Hu a Sa Ga n q Hk E2) as (flm & g & E3 & E4 & Sg & Vg).
      exists (amap (fun z => (RtoC (m1 n) * z)%C) g). split; [intros a'; rewrite E3, E1; cbn [bind]; rewrite E4; reflexivity|]. split; [exact Sg|].
      intros t q' Ht Hq. apply Vg; auto.
    - exact HQ.
    - cbn [bind]. eexists. split; [reflexivity|]. apply finish3; auto. intros n t q Hk Ht Hq. exact (Gb n Hk t q Ht Hq). }
  assert (JP : (exists w, jax_arrays th L N (scheme_name s) o false reality Lo p = Ok w /\
      Z.of_nat (length (pw_lrenorm w)) = N - n_start N reality /\ Z.of_nat (length (pw_vsign w)) = N - n_start N reality /\
      forall n, n_start N reality <= n < N -> exists q, jax_entry w (n - n_start N reality) = Ok q /\ generate_precomputes_jax th L (- n) (scheme_name s) o false Lo None = Ok q) ->
    (reality = true -> hermitian_plane L N flmn) ->
    exists f, inverse_jax3 th flmn L N o (scheme_name s) reality p Lo = Ok f /\
      so3_at (ring_angle s (rings s L nside) (vat beta)) s L N nside f (so3_synth L N (used3 reality Lo (stored3 L N flmn)))).
  { intros (w & Ew & L1 & L2 & Hw) Hh'. unfold inverse_jax3. rewrite Ew. cbn [bind]. rewrite (so3_shape s L N nside o S). cbn [bind]. rewrite Ea. cbn [bind].
    unfold vmap_axes. rewrite L1, L2. unfold dim0. rewrite Sa. cbn [nth]. rewrite slice_len_in by lia.
    replace (2 * N - 1 - (N - 1 + n_start N reality)) with (N - n_start N reality) by lia. replace (Z.max 0 (N - n_start N reality)) with (N - n_start N reality) by lia.
    rewrite Z.eqb_refl. cbn [andb bind].
    match goal with |- context [foldM ?F _ ?z] => destruct (plane_loop N (n_start N reality) (map_shape s L nside) Q F z n0 ltac:(lia) eq_refl) as (fb & -> & Sb & Gb & _) end.
    - intros n Hk. destruct (Hw n Hk) as (q & E1 & E2).
      destruct (jax_plane th flmn L N s nside o reality Lo beta HL HLo HN Hn Hz Hr Eth Hb Hu a Sa Ga n q Hh' Hk E2) as (flm & g & E3 & E4 & Sg & Vg).
      exists (amap (fun z => (RtoC (m1 (Z.abs n)) * z)%C) g). split; [intros a'; rewrite E3, E1; cbn [bind]; rewrite E4; reflexivity|]. split; [exact Sg|].
      intros t q' Ht Hq. cbn [amap get]. change (m1 (Z.abs n)) with (sgn (Z.abs n)). rewrite sgn_abs. apply Vg; auto.
    - exact HQ.
    - cbn [bind]. eexists. split; [reflexivity|]. apply finish3; auto. intros n t q Hk Ht Hq. exact (Gb n Hk t q Ht Hq). }
  assert (GJ : p = None \/ (exists w, p = Some (PreJax w) /\ generate_precomputes_wigner_jax th L N (scheme_name s) o false reality Lo = Ok w) ->
    exists w, jax_arrays th L N (scheme_name s) o false reality Lo p = Ok w /\
      Z.of_nat (length (pw_lrenorm w)) = N - n_start N reality /\ Z.of_nat (length (pw_vsign w)) = N - n_start N reality /\
      forall n, n_start N reality <= n < N -> exists q, jax_entry w (n - n_start N reality) = Ok q /\ generate_precomputes_jax th L (- n) (scheme_name s) o false Lo None = Ok q).
  { destruct (jax_gen_ok th L N (scheme_name s) o false reality Lo beta ltac:(lia) ltac:(lia) HN Epm) as (w & Ew & Hw).
    intros [->|(w' & -> & Ew')]; [exists w; auto|]. exists w'. split; [reflexivity|]. rewrite Ew in Ew'. injection Ew' as <-. exact Hw. }
  assert (E8 : 8 <=? N = false) by lia. unfold otf_wigner_inverse, checks3. rewrite E8.
  destruct Hm as [->|[->| ->]]; cbn [known_method3 str_in existsb String.eqb Ascii.eqb Bool.eqb negb orb andb streq bind] in *.
  - apply NP. apply (numpy_list_ok th L N (scheme_name s) o false reality Lo beta); auto; lia.
  - apply JP; [apply GJ, HP|]. intros Q'. apply Hh; [exact Q'|discriminate].
  - apply JP; [apply GJ, HP|]. intros Q'. apply Hh; [exact Q'|discriminate].
Qed.
