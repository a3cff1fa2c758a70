(** C65: the Wigner transforms with method "jax_ssht". *)
From Coq Require Import Reals Lra Lia.
From Coquelicot Require Import Complex.
From Verif Require Import Lib.Py Lib.PyFacts Lib.Vec Lib.Sums Lib.Cplx Lib.Arr Lib.MatFacts Model.Index Model.Samples Model.Grids Model.Turok Model.Quadrature
  Model.Spherical Model.PriceMcEwen Model.Wigner Model.OTFSpherical Model.OTFWigner Model.CBackend Spec.WignerSpec Spec.SamplesSpec Spec.SphereSpec Spec.GridSpec Spec.QuadSpec
  Spec.HealpixFFTSpec Spec.SphericalSpec Spec.SO3Spec Spec.OTFWignerSpec Spec.CBackendSpec Proofs.SphTop Proofs.SphFacts Proofs.WignerInverse Proofs.OTFSphInverse Proofs.OTFWignerLoop
  Proofs.CBackendSsht Proofs.CBackendLib Proofs.CBackendTop Proofs.CBackendWigner Properties.QuadProps Properties.SphericalProps Properties.CBackendProps.
From Coq Require Import List.
Import ListNotations.
Open Scope string_scope.
Open Scope Z_scope.

(** The library keeps its contract for the spins in use; w gives the weights of its rings. *)
Notation library_for gl s L N p w := (forall n, - N < n < N -> ssht_contract (vat (gl_nodes gl L)) (w n) s L (- n)%Z p).

(** C65: the array returned holds the samples of the signal with the given Wigner coefficients; with the reality flag, of the real signal
    given by those with n > 0 and by the plane n = 0, which must be that of a real signal. *)
Theorem C65_synthesis : forall gl s L N p w th flmn o reality pre b,
  s <> HEALPIX -> 1 <= N <= L -> nodes_known gl s L -> library_for gl s L N p w -> shape flmn = [2 * N - 1; L; 2 * L - 1] ->
  (reality = true -> hermitian_plane L N flmn) ->
  exists f, full_wigner_inverse (Some p) th flmn L N o (scheme_name s) "jax_ssht" reality pre 0 b = Ok f /\
    so3_holds (vat (gl_nodes gl L)) s L N 0 f (so3_synth L N (used3 reality 0 (stored3 L N flmn))).
Proof.
  intros gl s L N p w th flmn o reality pre b Hs HN HG K Sf Hh. rewrite full_inverse3 by auto.
  destruct (inverse_synthesis gl s L N p w Hs HN HG K 0 flmn reality b ltac:(lia) Sf Hh) as (f & E & S & H). exists f. split; [exact E|]. split; [exact S|].
  intros g t q x Hg Ht Hq Hx. rewrite (H g t q x Hg Ht Hq Hx). apply WignerReal.so3_synth_ext. intros n l m _ Hl _. apply used3_low0. lia.
Qed.
Print Assumptions C65_synthesis.
(** C65: the Wigner coefficients of a sampled signal are recovered, whatever the case of the sampling name. *)
Theorem C65_recovery : forall gl s L N p w name th f c o reality pre b,
  denotes name s -> s <> HEALPIX -> 1 <= N <= L -> nodes_known gl s L -> library_for gl s L N p w ->
  (reality = true -> hermitian3 L N c) -> so3_holds (vat (gl_nodes gl L)) s L N 0 f (so3_synth L N c) ->
  exists flmn, full_wigner_forward (Some p) gl th f L N o name "jax_ssht" reality pre 0 b = Ok flmn /\ holds_coefficients3 L N flmn (restricted3 0 c).
Proof.
  intros gl s L N p w name th f c o reality pre b Hd Hs HN HG K Hr H. rewrite (full_forward3 _ gl th f L N o name s) by auto.
  destruct (forward_recovery gl s L N p w Hs HN HG K 0 f c reality b ltac:(lia) Hr H) as (a & E & S & Ga). exists a. split; [exact E|]. split; [exact S|].
  intros n l m H1 H2 H3. rewrite Ga by auto. unfold low_forward. destruct (Z.ltb_spec l 0); [lia|]. ring.
Qed.
Print Assumptions C65_recovery.
Theorem C65_round_trip : forall gl s L N p w name th flmn o reality pre b b',
  denotes name s -> s <> HEALPIX -> 1 <= N <= L -> nodes_known gl s L -> library_for gl s L N p w -> shape flmn = [2 * N - 1; L; 2 * L - 1] ->
  (reality = true -> hermitian3 L N (stored3 L N flmn)) ->
  exists f flmn', full_wigner_inverse (Some p) th flmn L N o (scheme_name s) "jax_ssht" reality pre 0 b = Ok f /\
    full_wigner_forward (Some p) gl th f L N o name "jax_ssht" reality pre 0 b' = Ok flmn' /\
    holds_coefficients3 L N flmn' (restricted3 0 (stored3 L N flmn)).
Proof.
  intros gl s L N p w name th flmn o reality pre b b' Hd Hs HN HG K Sf Hr.
  destruct (round_trip gl s L N p w Hs HN HG K 0 0 flmn reality b b' ltac:(lia) ltac:(lia) Sf Hr) as (f & a & E & E' & S & Ga).
  exists f, a. rewrite full_inverse3, (full_forward3 _ gl th f L N o name s) by auto. split; [exact E|]. split; [exact E'|]. split; [exact S|].
  intros n l m H1 H2 H3. rewrite Ga by auto. rewrite low_round by lia. destruct (Z.ltb_spec l 0); [lia|]. ring.
Qed.
Print Assumptions C65_round_trip.
(** C65: the reference Wigner transforms return the same arrays. *)
Theorem C65_reference_inverse : forall gl s L N p w th flmn o reality pre b,
  s <> HEALPIX -> 1 <= N <= L -> nodes_known gl s L -> library_for gl s L N p w -> shape flmn = [2 * N - 1; L; 2 * L - 1] ->
  (reality = true -> hermitian_plane L N flmn) -> rings_away (vat (gl_nodes gl L)) s L 0 ->
  same_ok (full_wigner_inverse (Some p) th flmn L N o (scheme_name s) "jax_ssht" reality pre 0 b)
    (wigner_inverse gl flmn L N 0 (scheme_name s) reality None).
Proof. intros. rewrite full_inverse3 by auto. eapply inverse_reference; eassumption. Qed.
Print Assumptions C65_reference_inverse.
Theorem C65_reference_forward : forall gl s L N p w th f c o reality pre b,
  s <> HEALPIX -> 1 <= N <= L -> nodes_known gl s L -> library_for gl s L N p w -> (reality = true -> hermitian3 L N c) ->
  so3_holds (vat (gl_nodes gl L)) s L N 0 f (so3_synth L N c) ->
  rings_away (vat (gl_nodes gl L)) s L 0 -> forward_rings_away (vat (gl_nodes gl L)) s L 0 ->
  same_ok (full_wigner_forward (Some p) gl th f L N o (scheme_name s) "jax_ssht" reality pre 0 b)
    (wigner_forward gl f L N 0 (scheme_name s) reality None).
Proof. intros. rewrite (full_forward3 _ gl th f L N o (scheme_name s) s) by (auto; apply denotes_name). eapply forward_reference; eassumption. Qed.
Print Assumptions C65_reference_forward.
(** C65: degrees below L_lower are not removed and not normalised: they come back times 2 pi. *)
Theorem C65_lower : forall gl s L N p w name th flmn o reality pre Lo b b',
  denotes name s -> s <> HEALPIX -> 1 <= N <= L -> nodes_known gl s L -> library_for gl s L N p w -> shape flmn = [2 * N - 1; L; 2 * L - 1] ->
  (reality = true -> hermitian3 L N (stored3 L N flmn)) -> 0 <= Lo <= L ->
  exists f flmn', full_wigner_inverse (Some p) th flmn L N o (scheme_name s) "jax_ssht" reality pre Lo b = Ok f /\
    full_wigner_forward (Some p) gl th f L N o name "jax_ssht" reality pre Lo b' = Ok flmn' /\
    holds_coefficients3 L N flmn' (fun n l m => RtoC (if l <? Lo then 2 * PI else 1) * restricted3 0 (stored3 L N flmn) n l m)%C.
Proof.
  intros gl s L N p w name th flmn o reality pre Lo b b' Hd Hs HN HG K Sf Hr HLo.
  destruct (round_trip gl s L N p w Hs HN HG K Lo Lo flmn reality b b' ltac:(lia) ltac:(lia) Sf Hr) as (f & a & E & E' & S & Ga).
  exists f, a. rewrite full_inverse3, (full_forward3 _ gl th f L N o name s) by auto. split; [exact E|]. split; [exact E'|]. split; [exact S|].
  intros n l m H1 H2 H3. rewrite Ga by auto. now rewrite low_round by lia.
Qed.
Print Assumptions C65_lower.
(** C65: without the package the calls fail, and on HEALPix. *)
Theorem C65_missing : forall gl th flmn f L N o s name reality pre Lo b, s <> HEALPIX -> denotes name s -> 1 <= N -> 0 <= Lo <= L ->
  shape flmn = [2 * N - 1; L; 2 * L - 1] -> shape f = 2 * N - 1 :: map_shape s L 0 ->
  full_wigner_inverse None th flmn L N o (scheme_name s) "jax_ssht" reality pre Lo b = Err MissingDependency /\
  full_wigner_forward None gl th f L N o name "jax_ssht" reality pre Lo b = Err MissingDependency.
Proof. intros. rewrite full_inverse3, (full_forward3 _ gl th f L N o name s) by auto. split; [now apply missing_inverse|now apply (missing_forward s)]. Qed.
Print Assumptions C65_missing.
Theorem C65_rejects : forall lib gl th flmn f L N o name reality pre Lo b, lower name = "healpix" ->
  full_wigner_inverse lib th flmn L N o name "jax_ssht" reality pre Lo b = Err ValueError /\
  full_wigner_forward lib gl th f L N o name "jax_ssht" reality pre Lo b = Err ValueError.
Proof.
  intros lib gl th flmn f L N o name reality pre Lo b H. unfold full_wigner_inverse, full_wigner_forward, checks3, is_hp. rewrite H.
  cbn [streq String.eqb Ascii.eqb Bool.eqb known_method3 str_in existsb negb andb orb]. rewrite Bool.andb_false_r. split; reflexivity.
Qed.
Print Assumptions C65_rejects.
(** C65: the inverse transform takes lower-case names only. *)
Theorem C65_case_refuted : forall lib th flmn L N o name reality pre Lo b, name <> lower name -> lower name <> "healpix" ->
  full_wigner_inverse lib th flmn L N o name "jax_ssht" reality pre Lo b = Err ValueError.
Proof. intros. now apply upper_case. Qed.
Print Assumptions C65_case_refuted.
(** C65: one library keeps the contract for every spin. *)
Theorem C65_library : forall gl s L, s <> HEALPIX -> 1 <= L -> nodes_known gl s L ->
  exists p, forall spin, ssht_contract (vat (gl_nodes gl L)) (library_weight (vat (gl_weights gl L)) s L) s L spin p.
Proof. exact library_all_exists. Qed.
Print Assumptions C65_library.
(** C65: the other methods leave degrees below L_lower out, this one does not: the constant signal, with L_lower = 1. *)
Theorem C65_lower_refuted : forall gl s L N p w th pre b, s <> HEALPIX -> 1 <= N <= L -> nodes_known gl s L -> library_for gl s L N p w ->
  exists flmn f flmn', shape flmn = [2 * N - 1; L; 2 * L - 1] /\ stored3 L N flmn 0 0 0 = RtoC 1 /\
    full_wigner_inverse (Some p) th flmn L N None (scheme_name s) "jax_ssht" false pre 1 b = Ok f /\
    full_wigner_forward (Some p) gl th f L N None (scheme_name s) "jax_ssht" false pre 1 b = Ok flmn' /\
    stored3 L N flmn' 0 0 0 = RtoC (2 * PI) /\ restricted3 1 (stored3 L N flmn) 0 0 0 = RtoC 0.
Proof.
  intros gl s L N p w th pre b Hs HN HG K.
  set (flmn := mkArr [2 * N - 1; L; 2 * L - 1] (fun _ : list Z => RtoC 1)).
  destruct (C65_lower gl s L N p w (scheme_name s) th flmn None false pre 1 b b) as (f & a & E & E' & S & H); auto; try lia; try apply denotes_name; try discriminate.
  exists flmn, f, a. split; [reflexivity|]. split; [reflexivity|]. split; [exact E|]. split; [exact E'|]. split; [|reflexivity].
  rewrite H by lia. cbn [Z.ltb Z.compare]. unfold restricted3, stored3. cbn. ring.
Qed.
Print Assumptions C65_lower_refuted.

(** gl with L = N = 2 and a real signal: the coefficient (1, 1, 1) and its mirror image; mwss with L = 5, N = 3. *)
Definition C65_flmn : ndarray C := mkArr [3; 2; 3] (fun ix => if list_eq_dec Z.eq_dec ix [2; 1; 2] then RtoC 1
  else if list_eq_dec Z.eq_dec ix [0; 1; 0] then RtoC 1 else if list_eq_dec Z.eq_dec ix [1; 0; 1] then RtoC 3 else RtoC 0).
Example C65_ex : (exists p, library_for gl2 GL 2 2 p (fun _ => library_weight (vat (gl_weights gl2 2)) GL 2)) /\
  (exists p, library_for gl2 MWSS 5 3 p (fun _ => library_weight (vat (gl_weights gl2 5)) MWSS 5)) /\ nodes_known gl2 GL 2 /\ nodes_known gl2 MWSS 5 /\
  hermitian3 2 2 (stored3 2 2 C65_flmn) /\ hermitian_plane 2 2 C65_flmn /\ stored3 2 2 C65_flmn 1 1 1 = RtoC 1 /\
  (exists f, so3_holds (vat (gl_nodes gl2 2)) GL 2 2 0 f (so3_synth 2 2 (stored3 2 2 C65_flmn))) /\ rings_away (vat (gl_nodes gl2 5)) MWSS 5 0 /\
  denotes "MwSS" MWSS /\ "MwSS" <> lower "MwSS".
Proof.
  assert (G : gauss_legendre 2 (gl_nodes gl2 2) (gl_weights gl2 2)) by apply C26_ex.
  assert (Hh : hermitian3 2 2 (stored3 2 2 C65_flmn)).
  { intros n l m Hn Hl Hm. assert (l = 0 \/ l = 1) as [-> | ->] by lia.
    - assert (n = 0) as -> by lia. assert (m = 0) as -> by lia. unfold stored3, C65_flmn, Cconj, RtoC, Cmult, sgn. cbn. f_equal; ring.
    - assert (m = -1 \/ m = 0 \/ m = 1) as [-> |[-> | ->]] by lia; assert (n = -1 \/ n = 0 \/ n = 1) as [-> |[-> | ->]] by lia;
        unfold stored3, C65_flmn, Cconj, RtoC, Cmult, sgn; cbn; f_equal; ring. }
  split. { destruct (C65_library gl2 GL 2) as (p & H); auto; try lia; try discriminate. exists p. auto. }
  split. { destruct (C65_library gl2 MWSS 5) as (p & H); auto; try lia; try discriminate. exists p. auto. }
  split; [auto|]. split; [discriminate|]. split; [exact Hh|]. split.
  { intros el m H1 H2. pose proof (Hh 0 el m ltac:(lia) ltac:(lia) H2) as E. change (- 0) with 0 in E. now rewrite E, Z.add_0_r. }
  split; [reflexivity|]. split.
  { destruct (C65_library gl2 GL 2) as (p & K); auto; try lia; try discriminate.
    destruct (C65_synthesis gl2 GL 2 2 p (fun _ => library_weight (vat (gl_weights gl2 2)) GL 2) (fun _ _ _ => Err ValueError) C65_flmn None false None 0) as (f & _ & H); auto; try lia; try discriminate.
    exists f. destruct H as [S H]. split; [exact S|]. intros g t q x Hg Ht Hq Hx. rewrite (H g t q x Hg Ht Hq Hx). apply WignerReal.so3_synth_ext. intros n l m H1 H2 H3.
    unfold used3. destruct (Z.ltb_spec l 0); [lia|reflexivity]. }
  split; [apply (C23_rings (vat (gl_nodes gl2 5)) MWSS 5 0); cbn; lia|]. split; [reflexivity|]. discriminate.
Qed.
