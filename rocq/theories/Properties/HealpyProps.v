(** C64: the front end of healpy (method "jax_healpy") and its gradients. *)
From Coq Require Import Reals Lra Lia.
From Coquelicot Require Import Complex.
From Verif Require Import Lib.Py Lib.PyFacts Lib.Vec Lib.Sums Lib.Cplx Lib.Arr Model.Index Model.Samples Model.Grids Model.Turok Model.Quadrature
  Model.Spherical Model.Refine Model.PriceMcEwen Model.OTFSpherical Model.CBackend Spec.WignerSpec Spec.SamplesSpec Spec.SphereSpec Spec.GridSpec Spec.QuadSpec
  Spec.HealpixFFTSpec Spec.SphericalSpec Spec.RefineSpec Spec.CBackendSpec Proofs.GridProofs Proofs.SphTop Proofs.SphFacts Proofs.SphRefuted Proofs.CBackendRefute
  Proofs.CBackendHealpy Proofs.CBackendHealpyGrad Properties.QuadProps Properties.SphericalProps.
From Coq Require Import List.
Import ListNotations.
Open Scope string_scope.
Open Scope Z_scope.

Lemma C64_inverse_is lib hp th flm L spin nside name reality pre Lo b : denotes name HEALPIX ->
  full_inverse lib hp th flm L spin (Some nside) name "jax_healpy" reality pre Lo b = healpy_inverse hp flm L nside.
Proof. intros Hd. unfold full_inverse, backend_checks, is_hp. unfold denotes in Hd. rewrite Hd. reflexivity. Qed.
Lemma C64_forward_is lib hp gl th f L spin nside name reality pre Lo iter b : denotes name HEALPIX ->
  full_forward lib hp gl th f L spin (Some nside) name "jax_healpy" reality pre Lo iter b
  = healpy_forward hp f L nside (match iter with Some n => n | None => 3 end).
Proof. intros Hd. unfold full_forward, backend_checks, is_hp. unfold denotes in Hd. rewrite Hd. destruct iter; reflexivity. Qed.

(** C64: the map returned for 2D coefficients is real and holds the samples of the real signal given by the orders m >= 0. *)
Theorem C64_synthesis : forall nodes L nside h name lib th flm spin reality pre Lo b,
  denotes name HEALPIX -> 1 <= L -> 1 <= nside -> healpy_contract nodes L nside h -> shape flm = [L; 2 * L - 1] ->
  exists f, full_inverse lib (Some h) th flm L spin (Some nside) name "jax_healpy" reality pre Lo b = Ok f /\ all_real f /\
    holds_samples nodes HEALPIX L nside f (synth L 0 (real_signal (stored L flm))).
Proof. intros nodes L nside h name lib th flm spin reality pre Lo b Hd HL Hn K Sf. rewrite C64_inverse_is by auto. now apply inverse_ok. Qed.
Print Assumptions C64_synthesis.
(** C64: without iterations the coefficients of a real map are the means of the pixels times the conjugate harmonics, for the orders of
    both signs. *)
Theorem C64_analysis : forall nodes L nside h name lib gl th angle f spin reality pre Lo b,
  denotes name HEALPIX -> 1 <= L -> 1 <= nside -> healpy_contract nodes L nside h -> shape f = [12 * (nside * nside)] -> all_real f ->
  (forall t, 0 <= t < 4 * nside - 1 -> colatitude nodes HEALPIX L nside t (angle t)) ->
  exists flm, full_forward lib (Some h) gl th f L spin (Some nside) name "jax_healpy" reality pre Lo (Some 0) b = Ok flm /\
    holds_coefficients L flm (restricted 0 0 (fun l m => RtoC (4 * PI / IZR (12 * (nside * nside))) *
      over_pixels nside (fun t p => get f (sample_index HEALPIX nside t p) * Cconj (sYlm 0 l m (angle t) (longitude HEALPIX L nside t p))))%C).
Proof.
  intros nodes L nside h name lib gl th angle f spin reality pre Lo b Hd HL Hn K Sf Rf Ha. rewrite C64_forward_is by auto.
  destruct (forward_0 nodes L nside h HL Hn K f Sf Rf) as (z & E & Sz & Hz). exists z. split; [exact E|]. split; [exact Sz|]. intros l m Hl Hm. rewrite Hz by auto.
  unfold restricted. destruct (_ && _); [|reflexivity]. unfold pixel_mean. f_equal. apply cr_ext. intros t Ht. apply cr_ext. intros p Hp. cbn [sample_index].
  pose proof (colat_unique gl HEALPIX L nside t (angle t) (fun _ => Hn) Ht (Ha t Ht)) as ->. reflexivity.
Qed.
Print Assumptions C64_analysis.
(** C64: the transforms agree with the reference transforms of spin 0 with the reality flag, with any number of iterations (three where
    none is given): the inverse for coefficients of real signals, the forward for real maps. *)
Theorem C64_reference : forall gl L nside h name lib th flm f spin reality pre Lo iter b,
  denotes name HEALPIX -> 1 <= nside -> 2 * nside <= L -> rings_away (vat (gl_nodes gl L)) HEALPIX L nside ->
  healpy_contract (vat (gl_nodes gl L)) L nside h -> (forall n, iter = Some n -> 0 <= n) ->
  (shape flm = [L; 2 * L - 1] -> hermitian L (stored L flm) ->
   same_ok (full_inverse lib (Some h) th flm L spin (Some nside) name "jax_healpy" reality pre Lo b)
     (inverse_ gl flm L 0 "healpix" "sov_fft_vectorized" (Some nside) true 0)) /\
  (shape f = [12 * (nside * nside)] -> all_real f ->
   same_ok (full_forward lib (Some h) gl th f L spin (Some nside) name "jax_healpy" reality pre Lo iter b)
     (forward_iter gl f L 0 "healpix" (Some nside) true 0 (match iter with Some n => n | None => 3 end))).
Proof.
  intros gl L nside h name lib th flm f spin reality pre Lo iter b Hd Hn HL Ha K Hi. assert (H1 : 1 <= L) by lia. split.
  - intros Sf Hf. rewrite C64_inverse_is by auto. destruct (inverse_ok _ L nside h H1 Hn K flm Sf) as (g & E & R & Sg & Hg).
    destruct (synthesis_lemma gl "healpix" HEALPIX flm L 0 "sov_fft_vectorized" nside (Some nside) true 0) as (g' & E' & Sg' & Hg'); auto; try lia; try discriminate.
    + split; [reflexivity|]. split; auto.
    + right. split; [right; reflexivity|]. split; [reflexivity|]. split; [auto|]. intros _ _ el Hel. now apply (herm_real L).
    + exists g, g'. split; [exact E|]. split; [exact E'|]. split; [congruence|]. rewrite Sg. intros ix Hix. destruct ix as [|k [|]]; cbn [map_shape in_shape] in Hix; try easy.
      destruct (PrecomputeSph.hp_pixel_ring nside k Hn ltac:(lia)) as (t & p & Ht & Hp & ->).
      pose proof (hp_colat (vat (gl_nodes gl L)) L nside t Hn Ht) as C. refine (eq_trans (Hg t p _ Ht Hp C) (eq_trans _ (eq_sym (Hg' t p _ Ht Hp C)))).
      apply SphFacts.synth_ext. intros l m Hl Hm. change (Z.abs 0) with 0 in Hl. rewrite (used_herm L true 0 0 (stored L flm)) by auto. unfold above.
      replace (l <? 0) with false by lia. now apply (real_signal_id L).
  - intros Sf Rf. rewrite C64_forward_is by auto. apply (forward_reference (vat (gl_nodes gl L))); auto. destruct iter; [now apply Hi|lia].
Qed.
Print Assumptions C64_reference.
(** C64: with F = map2alm and B = alm2map, n iterations return the coefficients up to (I - F B)^(n + 1) of them, at every resolution and
    band-limit. *)
Theorem C64_error : forall nodes L nside h name lib gl th flm n spin reality pre Lo b,
  denotes name HEALPIX -> 1 <= L -> 1 <= nside -> healpy_contract nodes L nside h -> shape flm = [L; 2 * L - 1] -> 0 <= n ->
  exists f x e z, full_inverse lib (Some h) th flm L spin (Some nside) name "jax_healpy" reality pre Lo b = Ok f /\
    full_forward lib (Some h) gl th f L spin (Some nside) name "jax_healpy" reality pre Lo (Some n) b = Ok z /\
    hp_listed L x (stored L flm) /\
    defect (fun f => hp_map2alm h f (L - 1) 0) (fun a => hp_alm2map h a (L - 1) nside) (S (Z.to_nat n)) x e /\ shape e = [L * (L + 1) / 2] /\
    holds_coefficients L z (restricted 0 0 (real_extension (fun l m => (stored L flm l m - get e [(m * (2 * L - 1 - m) / 2 + l)%Z])%C))).
Proof.
  intros nodes L nside h name lib gl th flm n spin reality pre Lo b Hd HL Hn K Sf Hn0.
  destruct (forward_error nodes L nside h HL Hn K flm n Hn0 Sf) as (f & x & e & z & E1 & E2 & H). exists f, x, e, z.
  rewrite C64_inverse_is, C64_forward_is by auto. auto.
Qed.
Print Assumptions C64_error.
(** C64: the transposes JAX is given are the gradients of map2alm for every cotangent and of alm2map for every real one. *)
Theorem C64_map2alm_gradient : forall nodes L nside h ct f, 1 <= L -> 1 <= nside -> healpy_contract nodes L nside h ->
  shape ct = [L * (L + 1) / 2] -> shape f = [12 * (nside * nside)] -> all_real f ->
  exists g x, map2alm_transpose (Some h) ct L nside = Ok g /\ healpy_map2alm (Some h) f L nside = Ok x /\ shape g = shape f /\ all_real g /\
    Re (pair_pixels nside g f) = Re (pair_listed (L * (L + 1) / 2) ct x).
Proof. intros. eapply map2alm_grad; eassumption. Qed.
Print Assumptions C64_map2alm_gradient.
Theorem C64_alm2map_gradient : forall nodes L nside h ct x, 1 <= L -> 1 <= nside -> healpy_contract nodes L nside h ->
  shape ct = [12 * (nside * nside)] -> all_real ct -> shape x = [L * (L + 1) / 2] ->
  exists g f, alm2map_transpose (Some h) ct L nside = Ok g /\ healpy_alm2map (Some h) x L nside = Ok f /\ shape g = shape x /\
    Re (pair_listed (L * (L + 1) / 2) g x) = Re (pair_pixels nside ct f).
Proof. intros. eapply alm2map_grad; eassumption. Qed.
Print Assumptions C64_alm2map_gradient.
(** C64: the shapes JAX is told are those of the results. *)
Theorem C64_shapes : forall nodes L nside h d f x, 1 <= L -> 1 <= nside -> healpy_contract nodes L nside h ->
  shape f = [12 * (nside * nside)] -> all_real f -> shape x = [L * (L + 1) / 2] ->
  (exists y, healpy_map2alm (Some h) f L nside = Ok y /\ shape y = fst (map2alm_abstract_eval d L nside)) /\
  (exists g, healpy_alm2map (Some h) x L nside = Ok g /\ shape g = fst (alm2map_abstract_eval d L nside) /\ all_real g) /\
  (In (snd (map2alm_abstract_eval d L nside)) [Complex64; Complex128] /\ In (snd (alm2map_abstract_eval d L nside)) [Float32; Float64]).
Proof.
  intros nodes L nside h d f x HL Hn K Sf Rf Sx. split; [|split].
  - destruct (map2alm_ok nodes L nside h Hn K f Sf Rf) as (y & E & Sy & _). now exists y.
  - destruct (alm2map_ok nodes L nside h Hn K x _ (entry_listed L x Sx)) as (g & E & R & Sg & _). exists g. split; [exact E|]. split; [|exact R].
    rewrite Sg. unfold alm2map_abstract_eval. cbn [fst]. now rewrite Z.pow_2_r.
  - destruct d; cbn; auto.
Qed.
Print Assumptions C64_shapes.
(** C64: a missing package or nside is an error, as is any other scheme. *)
Theorem C64_missing : forall lib hp gl th flm f L spin name reality pre Lo iter b nside, denotes name HEALPIX ->
  full_inverse lib None th flm L spin (Some nside) name "jax_healpy" reality pre Lo b = Err MissingDependency /\
  full_forward lib None gl th f L spin (Some nside) name "jax_healpy" reality pre Lo iter b = Err MissingDependency /\
  full_inverse lib hp th flm L spin None name "jax_healpy" reality pre Lo b = Err TypeError /\
  full_forward lib hp gl th f L spin None name "jax_healpy" reality pre Lo iter b = Err TypeError.
Proof.
  intros lib hp gl th flm f L spin name reality pre Lo iter b nside Hd. rewrite C64_inverse_is, C64_forward_is by auto.
  split; [reflexivity|]. split; [reflexivity|]. unfold full_inverse, full_forward, backend_checks, is_hp. unfold denotes in Hd. rewrite Hd. split; reflexivity.
Qed.
Print Assumptions C64_missing.
Theorem C64_rejects : forall lib hp gl th flm f L spin o name reality pre Lo iter b, lower name <> "healpix" ->
  full_inverse lib hp th flm L spin o name "jax_healpy" reality pre Lo b = Err ValueError /\
  full_forward lib hp gl th f L spin o name "jax_healpy" reality pre Lo iter b = Err ValueError.
Proof.
  intros lib hp gl th flm f L spin o name reality pre Lo iter b H.
  assert (E : is_hp name = false) by (unfold is_hp; now apply String.eqb_neq). unfold full_inverse, full_forward, backend_checks. rewrite E. split; reflexivity.
Qed.
Print Assumptions C64_rejects.
(** C64: a library that keeps the contract exists at every band-limit and resolution. *)
Theorem C64_library : forall nodes L nside, 1 <= L -> 1 <= nside -> exists h, healpy_contract nodes L nside h.
Proof. intros nodes L nside HL Hn. exists (hp_library L nside). now apply hp_library_keeps. Qed.
Print Assumptions C64_library.
(** C64: the spin, the lower band-limit and a reality flag that is off are ignored: the map returned is not that of the signal. *)
Theorem C64_ignored_refuted : forall nodes L nside h name lib th spin reality pre Lo b, denotes name HEALPIX -> 1 <= L -> 1 <= nside ->
  healpy_contract nodes L nside h -> spin <> 0 \/ 0 < Lo \/ reality = false ->
  exists flm f, shape flm = [L; 2 * L - 1] /\ full_inverse lib (Some h) th flm L spin (Some nside) name "jax_healpy" reality pre Lo b = Ok f /\
    ~ holds_samples nodes HEALPIX L nside f (synth L spin (used_coefficients reality spin Lo (stored L flm))).
Proof.
  intros nodes L nside h name lib th spin reality pre Lo b Hd HL Hn K HI.
  assert (Y : sYlm 0 0 0 (theta_of HEALPIX L nside 0) (longitude HEALPIX L nside 0 0) <> RtoC 0).
  { unfold sYlm. rewrite wig_00. change (2 * 0 + 1) with 1. replace (IZR 0 * longitude HEALPIX L nside 0 0)%R with 0%R by ring. unfold cis. rewrite cos_0, sin_0.
    unfold sgn. cbn. pose proof PI_RGT_0. intros Q. injection Q as Q _. assert (P : (0 < sqrt (1 / (4 * PI)))%R) by (apply sqrt_lt_R0, Rdiv_lt_0_compat; lra). lra. }
  assert (S1 : forall c, (forall l m, Z.abs 0 <= l < L -> - l <= m <= l -> (l, m) <> (0, 0) -> c l m = RtoC 0) ->
    synth L 0 c (theta_of HEALPIX L nside 0) (longitude HEALPIX L nside 0 0) = (c 0%Z 0%Z * sYlm 0 0 0 (theta_of HEALPIX L nside 0) (longitude HEALPIX L nside 0 0))%C).
  { intros c Hc. unfold synth. change (Z.abs 0) with 0 in *. rewrite cr_cons by lia. change (zrange (- 0) (0 + 1)) with (zrange 0 (0 + 1)). rewrite cr_one.
    rewrite (cr_0 (0 + 1)); [apply Cplus_0_r|]. intros l Hl. apply cr_0. intros m Hm. rewrite Hc by (try lia; intros Q; injection Q; lia). ring. }
  set (z := if (spin =? 0) && (Lo <=? 0) then Ci else RtoC 1). set (flm := single L 0 0 z).
  destruct (C64_synthesis nodes L nside h name lib th flm spin reality pre Lo b) as (f & E & R & Sf & HF); auto.
  exists flm, f. split; [reflexivity|]. split; [exact E|]. intros [_ HF'].
  assert (T0 : 0 <= 0 < 4 * nside - 1) by lia. assert (P0 : 0 <= 0 < ring_length nside 0) by (unfold ring_length; lia).
  pose proof (hp_colat nodes L nside 0 Hn T0) as HC.
  pose proof (eq_trans (eq_sym (HF 0 0 _ T0 P0 HC)) (HF' 0 0 _ T0 P0 HC)) as Q.
  assert (RS : forall l m, real_signal (stored L flm) l m = if (l =? 0) && (m =? 0) then RtoC (Re z) else RtoC 0).
  { intros l m. unfold real_signal, real_extension, flm. rewrite !single_stored. destruct (Z.eqb_spec l 0), (Z.eqb_spec m 0), (Z.ltb_spec m 0); cbn [andb Z.eqb]; try lia; try reflexivity.
    - destruct (Z.eqb_spec (- m) 0); try lia. unfold Cconj, RtoC, Cmult. cbn. f_equal; ring.
    - unfold Cconj, RtoC, Cmult. cbn. f_equal; ring. }
  rewrite S1 in Q by (intros l m Hl Hm N; rewrite RS; destruct (Z.eqb_spec l 0), (Z.eqb_spec m 0); try reflexivity; subst; congruence).
  rewrite RS in Q. cbn [Z.eqb andb] in Q.
  destruct (Z.eqb_spec spin 0) as [->|N].
  - destruct (Z.leb_spec Lo 0) as [A|A]; unfold z in Q; cbn [andb] in Q.
    + assert (reality = false) as -> by (destruct HI as [?|[?|?]]; auto; lia).
      rewrite S1 in Q.
      * unfold used_coefficients, above, flm, z in Q. cbn [andb Z.eqb] in Q. replace (0 <? Lo) with false in Q by lia. rewrite single_stored in Q. replace (Lo <=? 0) with true in Q by lia.
        cbn [Z.eqb andb] in Q. apply Y. revert Q. unfold Ci. set (y := sYlm _ _ _ _ _). destruct y as [a b']. unfold RtoC, Cmult. cbn. intros Q. injection Q as Q1 Q2.
        f_equal; lra.
      * intros l m Hl Hm N. unfold used_coefficients, above, flm. cbn [andb]. rewrite single_stored. destruct (l <? Lo); [reflexivity|].
        destruct (Z.eqb_spec l 0), (Z.eqb_spec m 0); try reflexivity. subst. congruence.
    + rewrite S1 in Q.
      * unfold used_coefficients, above in Q. replace (0 <? Lo) with true in Q by lia. apply Y. cbn in Q. revert Q. set (y := sYlm _ _ _ _ _). destruct y as [a b']. unfold RtoC, Cmult. cbn.
        intros Q. injection Q as Q1 Q2. f_equal; lra.
      * intros l m Hl Hm N. unfold used_coefficients, above, flm. destruct (l <? Lo); [reflexivity|].
        assert (G : stored L (single L 0 0 z) l m = RtoC 0 /\ (m < 0 -> stored L (single L 0 0 z) l (- m) = RtoC 0)).
        { rewrite !single_stored. split; [destruct (Z.eqb_spec l 0), (Z.eqb_spec m 0); try reflexivity; subst; congruence|].
          intros Hm'. destruct (Z.eqb_spec (- m) 0); try lia. now rewrite Bool.andb_false_r. }
        destruct (reality && (0 =? 0)); [|apply G]. unfold real_extension. destruct (Z.ltb_spec m 0); [|apply G]. rewrite (proj2 G) by auto. unfold Cconj, RtoC, Cmult. cbn. f_equal; ring.
  - assert (Z1 : synth L spin (used_coefficients reality spin Lo (stored L flm)) (theta_of HEALPIX L nside 0) (longitude HEALPIX L nside 0 0) = RtoC 0).
    { unfold synth. apply cr_0. intros l Hl. apply cr_0. intros m Hm. unfold used_coefficients, above. replace (spin =? 0) with false by lia. rewrite Bool.andb_false_r.
      unfold flm. rewrite single_stored. replace (l =? 0) with false by lia. cbn [andb]. destruct (l <? Lo); ring. }
    rewrite Z1 in Q. apply Y. unfold z in Q. cbn [andb] in Q. revert Q. set (y := sYlm _ _ _ _ _). destruct y as [a b']. unfold RtoC, Cmult. cbn. intros Q. injection Q as Q1 Q2. f_equal; lra.
Qed.
Print Assumptions C64_ignored_refuted.

(** nside 2 and band-limit 4: a real signal with a coefficient of order 1, a map that is not constant, cotangents. *)
Definition C64_flm : ndarray C := mat 4 7 (fun l c => if (l =? 2) && (c =? 4) then Ci else if (l =? 2) && (c =? 2) then Ci else if (l =? 0) && (c =? 3) then RtoC 1 else RtoC 0).
Definition C64_map : ndarray C := mkArr [48] (fun ix => RtoC (IZR (nth 0 ix 0))).
Definition C64_ct : ndarray C := mkArr [10] (fun ix => (RtoC (IZR (nth 0 ix 0)) * Ci)%C).
Example C64_ex : (exists h, healpy_contract (vat (gl_nodes gl2 4)) 4 2 h) /\ denotes "Healpix" HEALPIX /\ 2 * 2 <= 4 /\
  rings_away (vat (gl_nodes gl2 4)) HEALPIX 4 2 /\ shape C64_flm = [4; 2 * 4 - 1] /\ hermitian 4 (stored 4 C64_flm) /\
  shape C64_map = [12 * (2 * 2)] /\ all_real C64_map /\ shape C64_ct = [4 * (4 + 1) / 2] /\
  exists angle, forall t, 0 <= t < 4 * 2 - 1 -> colatitude (vat (gl_nodes gl2 4)) HEALPIX 4 2 t (angle t).
Proof.
  split; [apply C64_library; lia|]. split; [reflexivity|]. split; [lia|]. split; [apply C23_ex|]. split; [reflexivity|]. split.
  { intros l m Hl Hm. unfold stored, C64_flm, mat. cbn [get nth].
    assert (l = 0 \/ l = 1 \/ l = 2 \/ l = 3) as [-> |[-> |[-> | ->]]] by lia; cbn [Z.eqb Pos.eqb andb].
    1: assert (m = 0) as -> by lia. 2: assert (m = -1 \/ m = 0 \/ m = 1) as [-> |[-> | ->]] by lia.
    5: assert (m = -2 \/ m = -1 \/ m = 0 \/ m = 1 \/ m = 2) as [-> |[-> |[-> |[-> | ->]]]] by lia.
    10: assert (m = -3 \/ m = -2 \/ m = -1 \/ m = 0 \/ m = 1 \/ m = 2 \/ m = 3) as [-> |[-> |[-> |[-> |[-> |[-> | ->]]]]]] by lia.
    all: cbn; unfold Ci, Cconj, RtoC, Cmult, sgn; cbn; f_equal; ring. }
  split; [reflexivity|]. split; [intros ix _; reflexivity|]. split; [reflexivity|].
  exists (theta_of HEALPIX 4 2). intros t Ht. apply hp_colat; lia.
Qed.
