(** The on-the-fly forward Wigner transforms. *)
From Coq Require Import Reals ZifyBool Lra.
From Coquelicot Require Import Complex.
From Verif Require Import Lib.Py Lib.PyFacts Lib.Vec Lib.VecFacts Lib.Sums Lib.Cplx Lib.Arr Lib.ArrFacts Lib.MatFacts Lib.Ext Lib.ExtFacts Lib.Lim
  Model.Index Model.Samples Model.Grids Model.FFT Model.HealpixFFT Model.Turok Model.Resampling Model.Quadrature Model.Spherical
  Model.Precompute Model.PriceMcEwen Model.OTF Model.OTFSpherical Model.Wigner Model.OTFWigner
  Spec.SamplesSpec Spec.WignerSpec Spec.SphereSpec Spec.GridSpec Spec.HealpixFFTSpec Spec.SphericalSpec Spec.QuadSpec Spec.SO3Spec Spec.OTFSpec Spec.OTFSphericalSpec Spec.OTFWignerSpec
  Proofs.SamplesProofs Proofs.GridProofs Proofs.PixelProofs Proofs.TurokProofs Proofs.HealpixDFTProofs Proofs.SphGrid
  Proofs.WignerCalc Proofs.SphereTheory Proofs.SphInverse Proofs.SphTop Proofs.SphForward Proofs.SphForwardTop Proofs.SphRound Proofs.SphFacts
  Proofs.WignerInverse Proofs.WignerForward Proofs.WignerRound Proofs.WignerReal Proofs.PMPre Proofs.OTFProofs Proofs.OTFTop Proofs.OTFLimit Proofs.OTFSphInverse Proofs.PrecomputeSph Proofs.OTFSphForward
  Proofs.OTFSphNear Proofs.OTFSphTop Proofs.OTFWignerLoop Proofs.OTFWignerInverse Proofs.OTFWignerInvTop
  Spec.CallSpec.
From Coq Require Import List.
Import ListNotations.
Open Scope string_scope.
Open Scope Z_scope.



Lemma n_range N reality n : n_start N reality <= n < N -> - N < n < N.
Proof. unfold n_start. destruct reality; lia. Qed.

(** the components of the samples in gamma *)
Definition compA (s : scheme) (L N nside : Z) (f : ndarray C) (n : Z) : ndarray C := mkArr (map_shape s L nside) (comp N f n).
(** the coefficients of the component n; the numpy transform takes real parts in that of n = 0 *)
Definition X3o (g : grid) (s : scheme) (L N nside Lo : Z) (f : ndarray C) (w : vec R) (re : bool) (n el m : Z) : C :=
  (RtoC (sgn n) * (if Z.max Lo (Z.abs n) <=? el then
     SphForwardTop.fsum g (- n) w (uvals (re && (n =? 0)) s L nside (- n) (compA s L N nside f n)) el m else RtoC 0))%C.


Section Forward.
  Variables (gl : gl_rule) (th : theta_fn) (f : ndarray C) (L N : Z) (s : scheme) (nside : Z) (o : option Z) (reality : bool) (Lo : Z) (beta : vec R).
  Hypothesis (HL : 2 <= L) (HLo : 0 <= Lo <= L - 2) (HN : 1 <= N <= L)
    (Hn : s = HEALPIX -> 1 <= nside /\ o = Some nside /\ 2 * nside <= L) (Hf : shape f = 2 * N - 1 :: map_shape s L nside)
    (Hw : s = GL -> vlen (gl_weights gl L) = L) (Eth : fwd_angles th s L o = Ok beta)
    (Hb : vlen beta = rings (forward_scheme s) (forward_band s L) nside) (Hu : usable_rings3 (forward_scheme s) (vlen beta) L Lo N (vat beta))
    (Epm : pm_thetas th L (scheme_name s) o true = Ok (inner_angles (forward_scheme s) beta)).
  Variables (w : vec R).
  Hypothesis Ew : quad_weights_transform gl L (scheme_name (fscheme s)) 0 o = Ok w.
  Notation n0 := (n_start N reality).
  Notation gg := (ogrid s L nside (ring_angle (forward_scheme s) (vlen beta) (vat beta))).
  Notation X re := (X3o gg s L N nside Lo (seen reality f) w re).

  Lemma hp1 : s = HEALPIX -> 1 <= nside. Proof. intros Q. apply (Hn Q). Qed.
  Lemma comp0_real g ix : (forall k, 0 <= k < 2 * N - 1 -> is_real (get g (k :: ix))) -> is_real (comp N g 0 ix).
  Proof.
    intros H. pose proof (comp_real N g 0 ix H) as Q. change (- 0) with 0 in Q. destruct (comp N g 0 ix) as [x y]. unfold is_real, Im, Cconj in *. cbn in *. injection Q. lra.
  Qed.
  (** the flagged component of a HEALPix map is real *)
  Lemma hp_real p : reality = true -> s = HEALPIX -> shape p = map_shape s L nside ->
    (forall ix, sample_ix s L nside ix -> get p ix = comp N (seen reality f) 0 ix) -> real_values gl s L nside 0 p.
  Proof.
    intros Hr Hs Sp Hp. pose proof hp1 as Hn1. apply real_values_gen; auto; [lia|intros Q; congruence|].
    rewrite Hs. intros ix Hix. rewrite Sp in Hix. destruct (sample_cover s L nside ix ltac:(lia) Hn1 Hix) as (t & q & Ht & Hq & ->).
    rewrite Hp by (exists t, q; auto). apply comp0_real. intros k Hk. unfold seen. rewrite Hr. reflexivity.
  Qed.

  Lemma fsum_comp p re n el m : shape p = map_shape s L nside -> (forall ix, sample_ix s L nside ix -> get p ix = comp N (seen reality f) n ix) ->
    SphForwardTop.fsum gg (- n) w (uvals re s L nside (- n) p) el m = SphForwardTop.fsum gg (- n) w (uvals re s L nside (- n) (compA s L N nside (seen reality f) n)) el m.
  Proof.
    intros Sp Hp. apply fsum_ext. intros t q IG. apply (ogrid_in gl) in IG. unfold uvals.
    rewrite (fvals_ext gl s L nside (- n) p (compA s L N nside (seen reality f) n) t q ltac:(lia) hp1 Sp eq_refl) by (auto). reflexivity.
  Qed.

  Lemma numpy_fplane n q : n0 <= n < N -> generate_precomputes th L (- n) (scheme_name s) o true Lo = Ok q ->
    exists p c, plane (gamma_analysis f N reality) (n - n0) = Ok p /\
      forward_numpy gl th p L (- n) o (scheme_name s) (if n =? 0 then reality else false) (Some q) Lo = Ok c /\
      holds_coefficients L c (fun el m => RtoC (sgn n) * X reality n el m)%C.
  Proof.
    intros Hk Eq. pose proof (n_range N reality n Hk) as Hk'. destruct (gamma_analysis_plane s L N nside reality f n Hf Hk) as (p & Ep & Sp & Vp).
    assert (FL : (if n =? 0 then reality else false) = true -> n = 0 /\ reality = true) by (destruct (Z.eqb_spec n 0); [auto|discriminate]).
    destruct (forward_numpy_lemma gl th p L (- n) s nside o (if n =? 0 then reality else false) Lo beta HL HLo ltac:(lia) Hn Sp Hw) with (p := Some q) as (w' & c & Ew' & E & S1 & H1).
    - intros Q. destruct (FL Q). lia.
    - intros Q1 Q2. destruct (FL Q1) as [-> Qr]. apply hp_real; auto.
    - exact Eth.
    - rewrite fwd_rings. exact Hb.
    - intros t Ht. apply Hu; auto. lia.
    - split; [exact Epm|right]. exists q. auto.
    - exists p, c. split; [exact Ep|]. split; [exact E|]. split; [exact S1|]. intros el m Hel Hm. rewrite H1 by auto. unfold X3o.
      rewrite Z.abs_opp. rewrite Cmult_assoc, <- RtoC_mult, sgn_sq, Cmult_1_l. destruct (_ <=? el); [|reflexivity]. rewrite Ew in Ew'. injection Ew' as <-.
      rewrite (fsum_comp p) by auto. replace (if n =? 0 then reality else false) with (reality && (n =? 0)) by (destruct (n =? 0), reality; reflexivity). reflexivity.
  Qed.
  Lemma jax_fplane n q : (s = HEALPIX -> 2 <= nside) -> n0 <= n < N -> generate_precomputes_jax th L (- n) (scheme_name s) o true Lo None = Ok q ->
    exists p c, plane (gamma_analysis f N reality) (n - n0) = Ok p /\
      forward_jax gl th p L (- n) o (scheme_name s) false (Some q) Lo = Ok c /\
      holds_coefficients L c (fun el m => RtoC (sgn n) * X false n el m)%C.
  Proof.
    intros H2 Hk Eq. pose proof (n_range N reality n Hk) as Hk'. destruct (gamma_analysis_plane s L N nside reality f n Hf Hk) as (p & Ep & Sp & Vp).
    destruct (forward_jax_lemma gl th p L (- n) s nside o false Lo beta HL HLo ltac:(lia) Hn Sp Hw) with (p := Some q) as (w' & c & Ew' & E & S1 & H1).
    - discriminate.
    - discriminate.
    - exact Eth.
    - rewrite fwd_rings. exact Hb.
    - intros t Ht. apply Hu; auto. lia.
    - exact H2.
    - right. right. split; [exact Epm|right]. exists q. auto.
    - exists p, c. split; [exact Ep|]. split; [exact E|]. split; [exact S1|]. intros el m Hel Hm. rewrite H1 by auto. unfold X3o.
      rewrite Z.abs_opp. rewrite Cmult_assoc, <- RtoC_mult, sgn_sq, Cmult_1_l. destruct (_ <=? el); [|reflexivity]. rewrite Ew in Ew'. injection Ew' as <-.
      rewrite (fsum_comp p) by auto. reflexivity.
  Qed.

  Lemma out3_low re n el m : el < Lo -> out3 reality (X re) n el m = RtoC 0.
  Proof. intros H. unfold out3, X3o. replace (Z.max Lo (Z.abs n) <=? el) with false by lia. replace (Z.max Lo (Z.abs (- n)) <=? el) with false by lia.
    destruct (_ && _); [rewrite Cconj_mult, !Cconj_R|]; ring. Qed.

  Lemma scaled_out re a : holds_coefficients3 L N a (out3 reality (X re)) ->
    exists b, scale_degrees a L Lo fwd_scale = Ok b /\ holds_coefficients3 L N b (fun n el m => out3 reality (X re) n el m * RtoC (norm3 el))%C.
  Proof.
    intros [Sa Ga]. destruct (scale_degrees_ok a L Lo fwd_scale (2 * N - 1) ltac:(lia) Sa) as (b & Eb & Sb & Gb).
    exists b. split; [exact Eb|]. split; [exact Sb|]. intros n el m H1 H2 H3. unfold stored3. rewrite Gb. fold (stored3 L N a n el m). rewrite Ga by auto.
    destruct (Z.leb_spec Lo el); [reflexivity|]. rewrite out3_low by auto. ring.
  Qed.

  Lemma rank_ok : so3_rank f (scheme_name s) = Ok tt.
  Proof. unfold so3_rank. rewrite Hf. destruct s; reflexivity. Qed.

  Lemma forward_numpy3_ok pre : (exists l, numpy_list th L N (scheme_name s) o true reality Lo pre = Ok l /\
      forall n, n0 <= n < N -> exists q, lread l (n - n0) = Ok q /\ generate_precomputes th L (- n) (scheme_name s) o true Lo = Ok q) ->
    exists flmn, forward_numpy3 gl th f L N o (scheme_name s) reality pre Lo = Ok flmn /\
      holds_coefficients3 L N flmn (fun n el m => out3 reality (X reality) n el m * RtoC (norm3 el))%C.
  Proof.
    intros (l & El & Hl). unfold forward_numpy3. rewrite El, rank_ok. cbn [bind].
    destruct (choose (zeros (RtoC 0) [L; 2 * L - 1]) (fun k c => exists q p, lread l k = Ok q /\ plane (gamma_analysis f N reality) k = Ok p /\
      forward_numpy gl th p L (- (k + n0)) o (scheme_name s) (if k + n0 =? 0 then reality else false) (Some q) Lo = Ok c /\
      holds_coefficients L c (fun el m => RtoC (sgn (k + n0)) * X reality (k + n0)%Z el m)%C) (N - n0)) as (cf & Hc).
    { intros k Hk. destruct (Hl (k + n0) ltac:(lia)) as (q & E1 & E2). destruct (numpy_fplane (k + n0) q ltac:(lia) E2) as (p & c & E3 & E4 & HC).
      replace (k + n0 - n0) with k in * by lia. exists c, q, p. auto. }
    match goal with |- context [foldM ?F _ ?z] => destruct (numpy_planes L N reality ltac:(lia) (X reality) (fun n => cf (n - n0)) F z) as (b & -> & Hb') end.
    - intros n a Hk. destruct (Hc (n - n0) ltac:(lia)) as (q & p & E1 & E2 & E3 & _). replace (n - n0 + n0) with n in E3 by lia. rewrite E2, E1. cbn [bind]. rewrite E3. reflexivity.
    - intros n Hk. destruct (Hc (n - n0) ltac:(lia)) as (q & p & _ & _ & _ & HC). replace (n - n0 + n0) with n in HC by lia. exact HC.
    - reflexivity.
    - cbn [bind]. apply scaled_out. exact Hb'.
  Qed.
  Lemma forward_jax3_ok pre : (s = HEALPIX -> 2 <= nside) -> (exists wp, jax_arrays th L N (scheme_name s) o true reality Lo pre = Ok wp /\
      Z.of_nat (length (pw_lrenorm wp)) = N - n0 /\ Z.of_nat (length (pw_vsign wp)) = N - n0 /\
      forall n, n0 <= n < N -> exists q, jax_entry wp (n - n0) = Ok q /\ generate_precomputes_jax th L (- n) (scheme_name s) o true Lo None = Ok q) ->
    exists flmn, forward_jax3 gl th f L N o (scheme_name s) reality pre Lo = Ok flmn /\
      holds_coefficients3 L N flmn (fun n el m => out3 reality (X false) n el m * RtoC (norm3 el))%C.
  Proof.
    intros H2 (wp & El & L1 & L2 & Hl). unfold forward_jax3. rewrite El, rank_ok. cbn [bind]. cbv zeta.
    rewrite (gamma_analysis_dim0 s L N nside reality f Hf). unfold vmap_axes. rewrite L1, L2.
    pose proof (n0_le L N reality HN) as N0. rewrite Z.max_r by (unfold n_start; destruct reality; lia). rewrite Z.eqb_refl. cbn [andb bind].
    destruct (choose (zeros (RtoC 0) [L; 2 * L - 1]) (fun k c => exists q p, jax_entry wp k = Ok q /\ plane (gamma_analysis f N reality) k = Ok p /\
      forward_jax gl th p L (- (k + n0)) o (scheme_name s) false (Some q) Lo = Ok c /\
      holds_coefficients L c (fun el m => RtoC (sgn (k + n0)) * X false (k + n0)%Z el m)%C) (N - n0)) as (cf & Hc).
    { intros k Hk. destruct (Hl (k + n0) ltac:(lia)) as (q & E1 & E2). destruct (jax_fplane (k + n0) q H2 ltac:(lia) E2) as (p & c & E3 & E4 & HC).
      replace (k + n0 - n0) with k in * by lia. exists c, q, p. auto. }
    match goal with |- context [foldM ?F _ (zeros ?y ?z)] => destruct (jax_planes L N reality ltac:(lia) (X false) (fun n => cf (n - n0)) F (zeros y z)) as (b & Eb & Hb') end.
    - intros n a Hk. destruct (Hc (n - n0) ltac:(lia)) as (q & p & E1 & E2 & E3 & _). replace (n - n0 + n0) with n in E3 by lia. rewrite E2, E1. cbn [bind]. rewrite E3. reflexivity.
    - intros n Hk. destruct (Hc (n - n0) ltac:(lia)) as (q & p & _ & _ & _ & HC). replace (n - n0 + n0) with n in HC by lia. exact HC.
    - reflexivity.
    - match type of Eb with context [foldM ?F ?r ?z] => destruct (foldM F r z) as [fl|]; [|discriminate Eb] end.
      cbn [bind] in *. rewrite Eb. cbn [bind]. apply scaled_out. exact Hb'.
  Qed.
End Forward.

Lemma wigner_forward_call_ok gl th f L N s nside o reality Lo beta method p : wigner_forward_call gl th f L N s nside o reality Lo beta method p ->
  exists w flmn, quad_weights_transform gl L (scheme_name (fscheme s)) 0 o = Ok w /\
    otf_wigner_forward gl th f L N o (scheme_name s) method reality p Lo = Ok flmn /\
    holds_coefficients3 L N flmn (fun n el m => out3 reality (X3o (ogrid s L nside (ring_angle (forward_scheme s) (vlen beta) (vat beta))) s L N nside Lo (seen reality f) w
      (streq method "numpy" && reality)) n el m * RtoC (norm3 el))%C.
Proof.
  intros (HL & HLo & HN & H8 & Hn & Hn2 & Hf & Hw & Eth & Hb & Hu & Hm & Epm & HP).
  destruct (weights_ok gl (scheme_name s) s L nside o (denotes_name s) ltac:(lia) ltac:(intros Q; destruct (Hn Q) as (? & ? & ?); auto)) as (w & Ew & _). { exact Hw. }
  replace (fname (scheme_name s) s) with (scheme_name (fscheme s)) in Ew by (destruct s; reflexivity). exists w.
  assert (JP : p = None \/ (exists w, p = Some (PreJax w) /\ generate_precomputes_wigner_jax th L N (scheme_name s) o true reality Lo = Ok w) ->
    (s = HEALPIX -> 2 <= nside) -> exists flmn, forward_jax3 gl th f L N o (scheme_name s) reality p Lo = Ok flmn /\
      holds_coefficients3 L N flmn (fun n el m => out3 reality (X3o (ogrid s L nside (ring_angle (forward_scheme s) (vlen beta) (vat beta))) s L N nside Lo (seen reality f) w false) n el m * RtoC (norm3 el))%C).
  { intros HP' H2. refine (forward_jax3_ok gl th f L N s nside o reality Lo beta HL HLo HN Hn Hf Hw Eth Hb Hu Epm w Ew p H2 _).
    destruct (jax_gen_ok th L N (scheme_name s) o true reality Lo _ ltac:(lia) ltac:(lia) HN Epm) as (wp & Ewp & Hwp).
    destruct HP' as [->|(w' & -> & Ew')]; [exists wp; auto|]. exists w'. split; [reflexivity|]. rewrite Ewp in Ew'. injection Ew' as <-. exact Hwp. }
  assert (E8 : 8 <=? N = false) by lia. unfold otf_wigner_forward, checks3. rewrite E8.
  destruct Hm as [->|[->| ->]]; cbn [known_method3 str_in existsb String.eqb Ascii.eqb Bool.eqb negb orb andb streq bind] in *.
  - destruct (forward_numpy3_ok gl th f L N s nside o reality Lo beta HL HLo HN Hn Hf Hw Eth Hb Hu Epm w Ew p) as (flmn & E & H).
    + apply (numpy_list_ok th L N (scheme_name s) o true reality Lo (inner_angles (forward_scheme s) beta)); auto; lia.
    + exists flmn. split; [exact Ew|]. split; [exact E|]. exact H.
  - destruct (JP HP) as (flmn & E & H); [intros Q; apply Hn2; [exact Q|discriminate]|]. exists flmn. auto.
  - destruct (JP HP) as (flmn & E & H); [intros Q; apply Hn2; [exact Q|discriminate]|]. exists flmn. auto.
Qed.
