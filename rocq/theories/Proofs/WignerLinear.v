(** Linearity of the Wigner transforms and of the transforms with a precomputed kernel. *)
From Coq Require Import Reals ZifyBool Lra.
From Coquelicot Require Import Complex.
From Verif Require Import Lib.Py Lib.PyFacts Lib.Vec Lib.VecFacts Lib.Sums Lib.Cplx Lib.Arr Lib.ArrFacts Lib.MatFacts Lib.Ext Lib.ExtFacts
  Model.Index Model.Samples Model.Grids Model.FFT Model.HealpixFFT Model.Turok Model.Resampling Model.Quadrature Model.Spherical
  Model.Precompute Model.PriceMcEwen Model.OTF Model.OTFSpherical Model.Wigner Model.OTFWigner Model.PrecomputeWigner
  Spec.SamplesSpec Spec.WignerSpec Spec.SphereSpec Spec.GridSpec Spec.HealpixFFTSpec Spec.SphericalSpec Spec.QuadSpec Spec.SO3Spec Spec.OTFSpec Spec.OTFSphericalSpec Spec.OTFWignerSpec
  Spec.PrecomputeSpec Spec.PrecomputeWignerSpec
  Proofs.SamplesProofs Proofs.GridProofs Proofs.PixelProofs Proofs.TurokProofs Proofs.HealpixDFTProofs Proofs.SphGrid
  Proofs.WignerCalc Proofs.SphereTheory Proofs.SphInverse Proofs.SphTop Proofs.SphForward Proofs.SphForwardTop Proofs.SphRound Proofs.SphFacts Proofs.SphMore
  Proofs.WignerInverse Proofs.WignerForward Proofs.WignerRound Proofs.WignerReal Proofs.PMPre Proofs.OTFProofs Proofs.OTFTop Proofs.OTFSphInverse Proofs.PrecomputeSph Proofs.PrecomputeTop
  Proofs.OTFSphForward Proofs.OTFSphNear Proofs.OTFSphTop Proofs.OTFSphMore Proofs.OTFWignerLoop Proofs.OTFWignerInverse Proofs.OTFWignerInvTop Proofs.OTFWignerForward
  Proofs.PWInverse Proofs.PWForward Proofs.RefineSph Spec.RefineSpec
  Spec.CallSpec.
From Coq Require Import List.
Import ListNotations.
Open Scope string_scope.
Open Scope Z_scope.

(** ** The signals are linear in the coefficients *)
Lemma so3_synth_lin L N x y c c' d alpha beta gamma :
  (forall n l m, - N < n < N -> Z.abs n <= l < L -> - l <= m <= l -> d n l m = (x * c n l m + y * c' n l m)%C) ->
  so3_synth L N d alpha beta gamma = (x * so3_synth L N c alpha beta gamma + y * so3_synth L N c' alpha beta gamma)%C.
Proof.
  intros H. unfold so3_synth. rewrite <- !cs_scal_l, <- cs_plus. apply cr_ext. intros n Hn. rewrite <- !cs_scal_l, <- cs_plus.
  apply cr_ext. intros l Hl. rewrite <- !cs_scal_l, <- cs_plus. apply cr_ext. intros m Hm. rewrite H by lia. ring.
Qed.
Lemma stored3_comb L N x y f g h n l m : shape h = [2 * N - 1; L; 2 * L - 1] -> combination x y f g h -> - N < n < N -> 0 <= l < L -> - L < m < L ->
  stored3 L N h n l m = (x * stored3 L N f n l m + y * stored3 L N g n l m)%C.
Proof. intros Hh (_ & _ & H) Hn Hl Hm. apply H. rewrite Hh. cbn [in_shape]. lia. Qed.

Section Used.
  Variables (L N : Z) (reality : bool) (x y : C) (f g h : ndarray C).
  Hypothesis (Hh : shape h = [2 * N - 1; L; 2 * L - 1]) (Hc : combination x y f g h) (Hr : reality = true -> is_real x /\ is_real y).
  Lemma used3_lin Lo n l m : - N < n < N -> Z.abs n <= l < L -> - l <= m <= l ->
    used3 reality Lo (stored3 L N h) n l m = (x * used3 reality Lo (stored3 L N f) n l m + y * used3 reality Lo (stored3 L N g) n l m)%C.
  Proof using Hh Hc Hr.
    intros Hn Hl Hm. unfold used3. destruct (l <? Lo); [ring|]. destruct reality; [|apply stored3_comb; auto; lia].
    destruct (Hr eq_refl) as [Hx Hy]. unfold real_extension3. destruct (_ || _); [|apply stored3_comb; auto; lia].
    rewrite (stored3_comb L N x y f g h) by (auto; lia). rewrite Cconj_plus, !Cconj_mult, (real_conj x Hx), (real_conj y Hy). ring.
  Qed.
  Lemma mean3_lin n l m : - N < n < N -> Z.abs n <= l < L -> - l <= m <= l ->
    mean3 reality (stored3 L N h) n l m = (x * mean3 reality (stored3 L N f) n l m + y * mean3 reality (stored3 L N g) n l m)%C.
  Proof using Hh Hc Hr.
    intros Hn Hl Hm. unfold mean3. destruct reality; [|apply stored3_comb; auto; lia].
    destruct (Hr eq_refl) as [Hx Hy]. unfold real_mean3. destruct (n <? 0).
    - rewrite (stored3_comb L N x y f g h) by (auto; lia). rewrite Cconj_plus, !Cconj_mult, (real_conj x Hx), (real_conj y Hy). ring.
    - destruct (Z.eqb_spec n 0) as [->|_]; [|apply stored3_comb; auto; lia].
      rewrite !(stored3_comb L N x y f g h) by (auto; lia). rewrite Cconj_plus, !Cconj_mult, (real_conj x Hx), (real_conj y Hy). unfold Cdiv. ring.
  Qed.
End Used.

Lemma so3_at_comb X s L N nside x y f1 f2 f F1 F2 F : 1 <= L -> (s = HEALPIX -> 1 <= nside) ->
  so3_at X s L N nside f1 F1 -> so3_at X s L N nside f2 F2 -> so3_at X s L N nside f F ->
  (forall a b g, F a b g = (x * F1 a b g + y * F2 a b g)%C) -> combination x y f1 f2 f.
Proof.
  intros HL Hn (S1 & G1) (S2 & G2) (S & G) E. split; [congruence|]. split; [congruence|]. rewrite S. intros ix Hix.
  destruct (so3_cover' s L N nside ix HL Hn Hix) as (g & t & p & -> & Hg & Ht & Hp). rewrite G, G1, G2 by auto. apply E.
Qed.
Lemma holds_at gl s L N nside f F X : (forall t, 0 <= t < rings s L nside -> colatitude (vat (gl_nodes gl L)) s L nside t (X t)) ->
  so3_holds (vat (gl_nodes gl L)) s L N nside f F -> so3_at X s L N nside f F.
Proof. intros H (S & G). split; [exact S|]. intros g t p Hg Ht Hp. apply G; auto. Qed.

(** ** The inverse transforms *)
Lemma wigner_inverse_linear gl s L N Lo nside o reality x y flmn1 flmn2 flmn :
  setting (scheme_name s) s L nside o -> 1 <= N -> 0 <= Lo < L -> shape flmn = [2 * N - 1; L; 2 * L - 1] -> combination x y flmn1 flmn2 flmn ->
  (s = GL -> vlen (gl_nodes gl L) = L) -> (s = HEALPIX -> 2 * nside <= L) -> rings_away (vat (gl_nodes gl L)) s L nside ->
  (reality = true -> is_real x /\ is_real y /\ forall l, 0 <= l < L -> is_real (stored3 L N flmn1 0 l 0) /\ is_real (stored3 L N flmn2 0 l 0)) ->
  exists f1 f2 f, wigner_inverse gl flmn1 L N Lo (scheme_name s) reality o = Ok f1 /\ wigner_inverse gl flmn2 L N Lo (scheme_name s) reality o = Ok f2 /\
    wigner_inverse gl flmn L N Lo (scheme_name s) reality o = Ok f /\ combination x y f1 f2 f.
Proof.
  intros S HN HLo Hf Hc Hg Hh Ha Hr. assert (Hn1 : s = HEALPIX -> 1 <= nside) by (intros Q; apply (proj2 (proj2 S) Q)).
  assert (Sh := Hc). destruct Sh as (Sh1 & Sh2 & _).
  destruct (wigner_inverse_lemma gl s L N Lo nside o reality flmn1 S HN HLo ltac:(congruence) Hg Hh Ha) as (f1 & E1 & H1).
  { intros Q l Hl. apply (Hr Q); auto. }
  destruct (wigner_inverse_lemma gl s L N Lo nside o reality flmn2 S HN HLo ltac:(congruence) Hg Hh Ha) as (f2 & E2 & H2).
  { intros Q l Hl. apply (Hr Q); auto. }
  destruct (wigner_inverse_lemma gl s L N Lo nside o reality flmn S HN HLo Hf Hg Hh Ha) as (f & E & H).
  { intros Q l Hl. destruct (Hr Q) as (Rx & Ry & R0). destruct (R0 l Hl). rewrite (stored3_comb L N x y flmn1 flmn2) by (auto; lia).
    apply real_plus; apply real_mult; auto. }
  exists f1, f2, f. split; [exact E1|]. split; [exact E2|]. split; [exact E|].
  assert (P : forall t, 0 <= t < rings s L nside -> colatitude (vat (gl_nodes gl L)) s L nside t (th_of gl s L nside t)) by (intros t Ht; now apply th_of_colat).
  eapply (so3_at_comb (th_of gl s L nside) s L N nside x y); auto; [apply S|eapply holds_at; eauto..|].
  intros a b g. apply so3_synth_lin. intros n l m Hn Hl Hm. apply used3_lin; auto. intros Q. destruct (Hr Q) as (? & ? & _); auto.
Qed.

Lemma otf_wigner_inverse_linear th flmn1 flmn2 flmn L N s nside o reality Lo beta method p x y :
  wigner_inverse_call th flmn1 L N s nside o reality Lo beta method p -> wigner_inverse_call th flmn2 L N s nside o reality Lo beta method p ->
  wigner_inverse_call th flmn L N s nside o reality Lo beta method p -> combination x y flmn1 flmn2 flmn -> (reality = true -> is_real x /\ is_real y) ->
  exists f1 f2 f, otf_wigner_inverse th flmn1 L N o (scheme_name s) method reality p Lo = Ok f1 /\
    otf_wigner_inverse th flmn2 L N o (scheme_name s) method reality p Lo = Ok f2 /\
    otf_wigner_inverse th flmn L N o (scheme_name s) method reality p Lo = Ok f /\ combination x y f1 f2 f.
Proof.
  intros C1 C2 C3 Hc Hr. destruct (wigner_inverse_call_ok _ _ _ _ _ _ _ _ _ _ _ _ C1) as (f1 & E1 & H1).
  destruct (wigner_inverse_call_ok _ _ _ _ _ _ _ _ _ _ _ _ C2) as (f2 & E2 & H2). destruct (wigner_inverse_call_ok _ _ _ _ _ _ _ _ _ _ _ _ C3) as (f & E & H).
  exists f1, f2, f. split; [exact E1|]. split; [exact E2|]. split; [exact E|]. destruct C3 as (HL & _ & _ & _ & Hn & Hs & _).
  eapply (so3_at_comb _ s L N nside x y); [lia|intros Q; apply (Hn Q)|exact H1|exact H2|exact H|].
  intros a b g. apply so3_synth_lin. intros n l m Hk Hl Hm. now apply used3_lin.
Qed.

Lemma pw_inverse_linear gl method b s flmn1 flmn2 flmn L N kernel nside o reality x y : nodes_ok s L (gl_nodes gl L) ->
  setting (scheme_name s) s L nside o -> 1 <= N <= L -> shape flmn = [2 * N - 1; L; 2 * L - 1] -> combination x y flmn1 flmn2 flmn ->
  (s = GL -> vlen (gl_nodes gl L) = L) -> (s = HEALPIX -> 2 * nside <= L) -> runs_on method b ->
  wkernel_given gl L N reality s (scheme_name s) o false kernel -> (reality = true -> is_real x /\ is_real y) ->
  exists f1 f2 f, pw_inverse gl flmn1 L N kernel (scheme_name s) reality method o = Ok f1 /\
    pw_inverse gl flmn2 L N kernel (scheme_name s) reality method o = Ok f2 /\
    pw_inverse gl flmn L N kernel (scheme_name s) reality method o = Ok f /\ combination x y f1 f2 f.
Proof.
  intros Hno S HN Hf Hc Hg Hh Hb HK Hr. assert (Hn1 : s = HEALPIX -> 1 <= nside) by (intros Q; apply (proj2 (proj2 S) Q)).
  assert (Sh := Hc). destruct Sh as (Sh1 & Sh2 & _).
  destruct (pw_inverse_lemma gl method b s flmn1 L N kernel nside o reality S HN ltac:(congruence) Hg Hh Hb HK) as (f1 & E1 & H1).
  destruct (pw_inverse_lemma gl method b s flmn2 L N kernel nside o reality S HN ltac:(congruence) Hg Hh Hb HK) as (f2 & E2 & H2).
  destruct (pw_inverse_lemma gl method b s flmn L N kernel nside o reality S HN Hf Hg Hh Hb HK) as (f & E & H).
  exists f1, f2, f. split; [exact E1|]. split; [exact E2|]. split; [exact E|].
  assert (P := placed gl s L nside Hn1 Hno).
  eapply (so3_at_comb (th_of gl s L nside) s L N nside x y); auto; [apply S|eapply holds_at; eauto..|].
  intros a b' g. apply so3_synth_lin. intros n l m Hn Hl Hm. now apply mean3_lin.
Qed.

(** ** The forward transforms *)
Lemma seen_comb reality x y f1 f2 f : combination x y f1 f2 f -> (reality = true -> is_real x /\ is_real y) ->
  combination x y (seen reality f1) (seen reality f2) (seen reality f).
Proof.
  intros (S1 & S2 & G) Hr. destruct reality; [|now split]. destruct (Hr eq_refl). split; [exact S1|]. split; [exact S2|].
  cbn [seen amap shape get]. intros ix Hix. rewrite G by auto. now apply Re_comb.
Qed.
Lemma comp_comb N x y f1 f2 f n sh : shape f = 2 * N - 1 :: sh -> combination x y f1 f2 f ->
  combination x y (mkArr sh (comp N f1 n)) (mkArr sh (comp N f2 n)) (mkArr sh (comp N f n)).
Proof.
  intros Hf (_ & _ & G). split; [reflexivity|]. split; [reflexivity|]. cbn [shape get]. intros ix Hix. unfold comp.
  rewrite (cr_ext _ _ _ (fun g => (x * (get f1 (g :: ix) * root (2 * N - 1) (- (n * g))) + y * (get f2 (g :: ix) * root (2 * N - 1) (- (n * g))))%C)).
  - rewrite cs_plus, !cs_scal_l. ring.
  - intros g Hg. rewrite G; [ring|]. rewrite Hf. split; [lia|exact Hix].
Qed.
Lemma out3_lin reality x y (X1 X2 X : Z -> Z -> Z -> C) n el m : (reality = true -> is_real x /\ is_real y) ->
  (forall n el m, X n el m = (x * X1 n el m + y * X2 n el m)%C) ->
  out3 reality X n el m = (x * out3 reality X1 n el m + y * out3 reality X2 n el m)%C.
Proof.
  intros Hr H. unfold out3. destruct reality; cbn [andb]; [|apply H]. destruct (Hr eq_refl) as [Hx Hy]. destruct (n <? 0); [|apply H].
  rewrite H, Cconj_plus, !Cconj_mult, (real_conj x Hx), (real_conj y Hy). ring.
Qed.
Lemma holds3_comb L N x y a1 a2 a c1 c2 c : holds_coefficients3 L N a1 c1 -> holds_coefficients3 L N a2 c2 -> holds_coefficients3 L N a c ->
  (forall n el m, c n el m = (x * c1 n el m + y * c2 n el m)%C) -> combination x y a1 a2 a.
Proof.
  intros (S1 & G1) (S2 & G2) (S & G) E. split; [congruence|]. split; [congruence|]. rewrite S. intros ix Hix.
  destruct ix as [|i [|el [|q [|]]]]; cbn [in_shape] in Hix; try lia.
  replace i with (i - (N - 1) + N - 1) by lia. replace q with (q - (L - 1) + L - 1) by lia. set (m := q - (L - 1)) in *. set (n := i - (N - 1)) in *.
  change (stored3 L N a n el m = (x * stored3 L N a1 n el m + y * stored3 L N a2 n el m)%C). rewrite G, G1, G2 by lia. apply E.
Qed.

Lemma X3o_lin (gl : gl_rule) ang s L N nside Lo f1 f2 f w re x y n el m : 1 <= L -> (s = HEALPIX -> 1 <= nside) -> shape f = 2 * N - 1 :: map_shape s L nside ->
  combination x y f1 f2 f -> (re = true -> is_real x /\ is_real y) ->
  X3o (ogrid s L nside ang) s L N nside Lo f w re n el m
  = (x * X3o (ogrid s L nside ang) s L N nside Lo f1 w re n el m + y * X3o (ogrid s L nside ang) s L N nside Lo f2 w re n el m)%C.
Proof.
  intros HL Hn Hf Hc Hr. unfold X3o. destruct (_ <=? el); [|ring].
  rewrite (fsum_lin _ _ _ x y (uvals (re && (n =? 0)) s L nside (- n) (compA s L N nside f1 n)) (uvals (re && (n =? 0)) s L nside (- n) (compA s L N nside f2 n))); [ring|].
  intros t a IG. apply (ogrid_in gl) in IG. unfold uvals.
  assert (V : fvals s L nside (- n) (compA s L N nside f n) t a = (x * fvals s L nside (- n) (compA s L N nside f1 n) t a + y * fvals s L nside (- n) (compA s L N nside f2 n) t a)%C).
  { apply (fvals_lin gl); auto. now apply comp_comb. }
  rewrite V. destruct re; cbn [andb]; [|reflexivity]. destruct (Hr eq_refl). destruct (n =? 0); [now apply Re_comb|reflexivity].
Qed.

Lemma otf_wigner_forward_linear gl th f1 f2 f L N s nside o reality Lo beta method p x y :
  wigner_forward_call gl th f1 L N s nside o reality Lo beta method p -> wigner_forward_call gl th f2 L N s nside o reality Lo beta method p ->
  wigner_forward_call gl th f L N s nside o reality Lo beta method p -> combination x y f1 f2 f -> (reality = true -> is_real x /\ is_real y) ->
  exists a1 a2 a, otf_wigner_forward gl th f1 L N o (scheme_name s) method reality p Lo = Ok a1 /\
    otf_wigner_forward gl th f2 L N o (scheme_name s) method reality p Lo = Ok a2 /\
    otf_wigner_forward gl th f L N o (scheme_name s) method reality p Lo = Ok a /\ combination x y a1 a2 a.
Proof.
  intros C1 C2 C3 Hc Hr. destruct (wigner_forward_call_ok _ _ _ _ _ _ _ _ _ _ _ _ _ C1) as (w & a1 & Ew & E1 & H1).
  destruct (wigner_forward_call_ok _ _ _ _ _ _ _ _ _ _ _ _ _ C2) as (w2 & a2 & Ew2 & E2 & H2).
  destruct (wigner_forward_call_ok _ _ _ _ _ _ _ _ _ _ _ _ _ C3) as (w3 & a & Ew3 & E & H).
  rewrite Ew in Ew2, Ew3. injection Ew2 as <-. injection Ew3 as <-. exists a1, a2, a. split; [exact E1|]. split; [exact E2|]. split; [exact E|].
  destruct C3 as (HL & _ & HN & _ & Hn & _ & Sf & _).
  apply (holds3_comb _ _ x y _ _ _ _ _ _ H1 H2 H). intros n el m. rewrite (out3_lin reality x y
    (X3o (ogrid s L nside (ring_angle (forward_scheme s) (vlen beta) (vat beta))) s L N nside Lo (seen reality f1) w (streq method "numpy" && reality))
    (X3o (ogrid s L nside (ring_angle (forward_scheme s) (vlen beta) (vat beta))) s L N nside Lo (seen reality f2) w (streq method "numpy" && reality))); auto; [ring|].
  intros n' el' m'. apply (X3o_lin gl); [lia|intros Q; apply (Hn Q)| |now apply seen_comb|].
  - unfold seen. destruct reality; exact Sf.
  - intros Q. apply andb_prop in Q. apply Hr, Q.
Qed.

Lemma pw_forward_linear gl method b s f1 f2 f L N kernel nside o reality x y : pw_forward_hyps gl b s f L N nside o -> combination x y f1 f2 f ->
  runs_on method b -> wkernel_given gl L N reality s (scheme_name s) o true kernel -> (reality = true -> is_real x /\ is_real y) ->
  exists a1 a2 a, pw_forward gl f1 L N kernel (scheme_name s) reality method o = Ok a1 /\
    pw_forward gl f2 L N kernel (scheme_name s) reality method o = Ok a2 /\
    pw_forward gl f L N kernel (scheme_name s) reality method o = Ok a /\ combination x y a1 a2 a.
Proof.
  intros HP Hc Hb HK Hr. assert (Sh := Hc). destruct Sh as (Sh1 & Sh2 & _). pose proof HP as (S & HN & Hf & Hrest).
  destruct (pw_forward_lemma gl method b s f1 L N kernel nside o reality ltac:(split; [exact S|]; split; [exact HN|]; split; [congruence|exact Hrest]) Hb HK) as (w & a1 & Ew & E1 & H1).
  destruct (pw_forward_lemma gl method b s f2 L N kernel nside o reality ltac:(split; [exact S|]; split; [exact HN|]; split; [congruence|exact Hrest]) Hb HK) as (w2 & a2 & Ew2 & E2 & H2).
  destruct (pw_forward_lemma gl method b s f L N kernel nside o reality HP Hb HK) as (w3 & a & Ew3 & E & H).
  rewrite Ew in Ew2, Ew3. injection Ew2 as <-. injection Ew3 as <-. exists a1, a2, a. split; [exact E1|]. split; [exact E2|]. split; [exact E|].
  apply (holds3_comb _ _ x y _ _ _ _ _ _ H1 H2 H). intros n el m. rewrite (out3_lin reality x y
    (X3 gl s L N 0 nside (seen reality f1) w) (X3 gl s L N 0 nside (seen reality f2) w)); auto; [ring|].
  intros n' el' m'. rewrite !X3_ogrid. apply (X3o_lin gl); [apply S|intros Q; apply (proj2 (proj2 S) Q)| |now apply seen_comb|discriminate].
  unfold seen. destruct reality; exact Hf.
Qed.

Lemma wigner_forward_linear gl s L N Lo nside o reality x y f1 f2 f :
  setting (scheme_name s) s L nside o -> 1 <= N -> 0 <= Lo < L -> rule_sizes s L (gl_nodes gl L) (gl_weights gl L) ->
  forward_rings_away (vat (gl_nodes gl L)) s L nside -> rings_away (vat (gl_nodes gl L)) s L nside -> (s = HEALPIX -> 2 * nside <= L) ->
  shape f = 2 * N - 1 :: map_shape s L nside -> combination x y f1 f2 f ->
  (reality = true -> is_real x /\ is_real y /\ so3_real_map (vat (gl_nodes gl L)) s L N nside f1 /\ so3_real_map (vat (gl_nodes gl L)) s L N nside f2) ->
  exists a1 a2 a, wigner_forward gl f1 L N Lo (scheme_name s) reality o = Ok a1 /\ wigner_forward gl f2 L N Lo (scheme_name s) reality o = Ok a2 /\
    wigner_forward gl f L N Lo (scheme_name s) reality o = Ok a /\ combination x y a1 a2 a.
Proof.
  intros S HN HLo Hg Ha Hra Hh Hf Hc Hr. assert (Hn1 : s = HEALPIX -> 1 <= nside) by (intros Q; apply (proj2 (proj2 S) Q)). assert (HL := proj1 (proj2 S)).
  assert (Sh := Hc). destruct Sh as (Sh1 & Sh2 & Gc). assert (Hf1 : shape f1 = 2 * N - 1 :: map_shape s L nside) by congruence.
  assert (Hf2 : shape f2 = 2 * N - 1 :: map_shape s L nside) by congruence.
  destruct (weights_ok gl (scheme_name s) s L nside o (proj1 S) HL (proj2 (proj2 S))) as (w & Ew & _). { intros Q. apply (Hg Q). }
  assert (R0 : forall g, shape g = 2 * N - 1 :: map_shape s L nside -> so3_real_map (vat (gl_nodes gl L)) s L N nside g ->
    forall t p, in_grid (fgrid gl s L nside) t p -> is_real (fvals s L nside 0 (mkArr (map_shape s L nside) (comp N g 0)) t p)).
  { intros g Sg HR t p IG. pose proof (comp_conj gl s L N nside o g S HN Ha Sg HR Hra 0 t p ltac:(lia) IG) as Q. change (- 0) with 0 in Q.
    destruct (fvals s L nside 0 (mkArr (map_shape s L nside) (comp N g 0)) t p) as [u v]. unfold is_real, Im, Cconj in *. cbn in *. injection Q. lra. }
  assert (RS : forall g, shape g = 2 * N - 1 :: map_shape s L nside -> so3_real_map (vat (gl_nodes gl L)) s L N nside g ->
    forall k ix, 0 <= k < 2 * N - 1 -> sample_ix s L nside ix -> is_real (get g (k :: ix))).
  { intros g Sg HR. now apply (real_samples gl s L N nside o g). }
  destruct (wigner_analysis gl s L N Lo nside o f1 S HN HLo Hg Ha Hh Hf1 reality w Ew) as (a1 & E1 & H1).
  { intros Q. apply RS; auto; apply (Hr Q). } { intros Q. apply R0; auto; apply (Hr Q). }
  destruct (wigner_analysis gl s L N Lo nside o f2 S HN HLo Hg Ha Hh Hf2 reality w Ew) as (a2 & E2 & H2).
  { intros Q. apply RS; auto; apply (Hr Q). } { intros Q. apply R0; auto; apply (Hr Q). }
  destruct (wigner_analysis gl s L N Lo nside o f S HN HLo Hg Ha Hh Hf reality w Ew) as (a & E & H).
  { intros Q k ix Hk Hix. destruct (Hr Q) as (Rx & Ry & M1 & M2). rewrite Gc; [apply real_plus; apply real_mult; auto; eapply RS; eauto|].
    rewrite Hf. split; [exact Hk|]. destruct Hix as (t & p & Ht & Hp & ->).
    rewrite <- (the_grid_sh gl s L nside), <- (the_grid_e gl s L nside). eapply go_sh; [|].
    - apply (the_grid_ok gl (scheme_name s) s L nside (Some nside) (mkVec (rings s L nside) (th_of gl s L nside))); auto; now destruct s.
    - split; destruct s; auto. }
  { intros Q t p IG. destruct (Hr Q) as (Rx & Ry & M1 & M2).
    rewrite (fvals_lin gl s L nside 0 x y (mkArr (map_shape s L nside) (comp N f1 0)) (mkArr (map_shape s L nside) (comp N f2 0))); auto; [|now apply comp_comb].
    apply real_plus; apply real_mult; auto; now apply R0. }
  exists a1, a2, a. split; [exact E1|]. split; [exact E2|]. split; [exact E|].
  assert (Hr' : reality = true -> is_real x /\ is_real y) by (intros Q; destruct (Hr Q) as (? & ? & _); auto).
  apply (holds3_comb _ _ x y _ _ _ _ _ _ H1 H2 H). intros n el m. rewrite (out3_lin reality x y
    (X3 gl s L N Lo nside f1 w) (X3 gl s L N Lo nside f2 w)); auto; [ring|].
  intros n' el' m'. rewrite !X3_ogrid. apply (X3o_lin gl); auto; discriminate.
Qed.

(** ** The precomputed transforms on the sphere *)
Lemma same_ok_comb x y (r1 r2 r q1 q2 q : result (ndarray C)) : same_ok r1 q1 -> same_ok r2 q2 -> same_ok r q ->
  (exists f1 f2 f, q1 = Ok f1 /\ q2 = Ok f2 /\ q = Ok f /\ combination x y f1 f2 f) ->
  exists f1 f2 f, r1 = Ok f1 /\ r2 = Ok f2 /\ r = Ok f /\ combination x y f1 f2 f.
Proof.
  intros (g1 & h1 & -> & Q1 & A1) (g2 & h2 & -> & Q2 & A2) (g & h & -> & Q & A) (f1 & f2 & f & E1 & E2 & E & (S1 & S2 & G)).
  rewrite Q1 in E1. rewrite Q2 in E2. rewrite Q in E. injection E1 as ->. injection E2 as ->. injection E as ->.
  exists g1, g2, g. do 3 (split; [reflexivity|]). destruct A1 as (B1 & D1), A2 as (B2 & D2), A as (B & D).
  split; [congruence|]. split; [congruence|]. intros ix Hix. rewrite D, D1, D2 by congruence. apply G. congruence.
Qed.
Lemma pre_inverse_linear gl method b s flm1 flm2 flm L spin kernel nside o reality x y :
  setting (scheme_name s) s L nside o -> shape flm = [L; 2 * L - 1] -> combination x y flm1 flm2 flm -> (s = GL -> vlen (gl_nodes gl L) = L) ->
  (s = HEALPIX -> 2 * nside <= L) -> runs_on method b ->
  kernel_given gl b L spin reality (scheme_name s) o false (rings_away (vat (gl_nodes gl L)) s L nside) kernel ->
  rings_away (vat (gl_nodes gl L)) s L nside ->
  (reality = true -> spin = 0 -> is_real x /\ is_real y /\ forall el, 0 <= el < L -> is_real (stored L flm1 el 0) /\ is_real (stored L flm2 el 0)) ->
  exists f1 f2 f, pre_inverse gl flm1 L spin kernel (scheme_name s) reality method o = Ok f1 /\
    pre_inverse gl flm2 L spin kernel (scheme_name s) reality method o = Ok f2 /\
    pre_inverse gl flm L spin kernel (scheme_name s) reality method o = Ok f /\ combination x y f1 f2 f.
Proof.
  intros S Hf Hc Hg Hh Hb HK Ha Hr. assert (Sh := Hc). destruct Sh as (Sh1 & Sh2 & _). assert (HL := proj1 (proj2 S)).
  assert (M : forall g, method_allowed (scheme_name s) "direct" s L nside spin reality g) by (intros g; left; left; reflexivity).
  apply (same_ok_comb x y _ _ _ (inverse_ gl flm1 L spin (scheme_name s) "direct" o reality 0) (inverse_ gl flm2 L spin (scheme_name s) "direct" o reality 0)
    (inverse_ gl flm L spin (scheme_name s) "direct" o reality 0)).
  - apply (pre_inverse_same gl method b s flm1 L spin kernel nside o); auto; [congruence|]. intros Q1 Q2 el Hel. now apply (Hr Q1 Q2).
  - apply (pre_inverse_same gl method b s flm2 L spin kernel nside o); auto; [congruence|]. intros Q1 Q2 el Hel. now apply (Hr Q1 Q2).
  - apply (pre_inverse_same gl method b s flm L spin kernel nside o); auto. intros Q1 Q2 el Hel. destruct (Hr Q1 Q2) as (Rx & Ry & R0). destruct (R0 el Hel).
    rewrite (stored_comb L x y flm1 flm2) by (auto; lia). apply real_plus; apply real_mult; auto.
  - apply (inverse_linear gl (scheme_name s) s L spin "direct" nside o); auto; [lia|]. intros Q1 Q2. destruct (Hr Q1 Q2) as (? & ? & _). auto.
Qed.
Lemma pre_forward_linear gl method b s f1 f2 f L spin kernel nside o reality x y :
  setting (scheme_name s) s L nside o -> shape f = map_shape s L nside -> combination x y f1 f2 f -> rule_sizes s L (gl_nodes gl L) (gl_weights gl L) ->
  (s = HEALPIX -> 2 * nside <= L /\ (b = jax -> 2 <= nside)) -> runs_on method b ->
  kernel_given gl b L spin reality (scheme_name s) o true (forward_rings_away (vat (gl_nodes gl L)) s L nside) kernel ->
  forward_rings_away (vat (gl_nodes gl L)) s L nside ->
  (reality = true -> spin = 0 -> is_real x /\ is_real y /\ real_map (vat (gl_nodes gl L)) s L nside spin f1 /\ real_map (vat (gl_nodes gl L)) s L nside spin f2) ->
  exists a1 a2 a, pre_forward gl f1 L spin kernel (scheme_name s) reality method o = Ok a1 /\
    pre_forward gl f2 L spin kernel (scheme_name s) reality method o = Ok a2 /\
    pre_forward gl f L spin kernel (scheme_name s) reality method o = Ok a /\ combination x y a1 a2 a.
Proof.
  intros S Hf Hc Hg Hh Hb HK Ha HR.
  assert (RC : forall z, is_real z -> z = RtoC (Re z)) by (intros [u v] Q; unfold is_real, Im in Q; cbn in *; subst; reflexivity).
  assert (Rf : reality = true -> spin = 0 -> real_map (vat (gl_nodes gl L)) s L nside spin f).
  { intros Q1 Q2. destruct (HR Q1 Q2) as (Rx & Ry & R1 & R2). destruct (maps_space (vat (gl_nodes gl L)) s L nside spin reality) as (_ & MS).
    apply (MS (Re x) (Re y) f1 f2 f); auto; try (split; [rewrite <- Hf; apply Hc|auto]). now rewrite <- (RC x Rx), <- (RC y Ry). }
  assert (Sh := Hc). destruct Sh as (Sh1 & Sh2 & _). assert (HL := proj1 (proj2 S)).
  assert (M : forward_allowed (scheme_name s) "direct" s L nside) by (left; left; reflexivity).
  apply (same_ok_comb x y _ _ _ (forward_ gl f1 L spin (scheme_name s) "direct" o reality 0) (forward_ gl f2 L spin (scheme_name s) "direct" o reality 0)
    (forward_ gl f L spin (scheme_name s) "direct" o reality 0)).
  - apply (pre_forward_same gl method b s f1 L spin kernel nside o); auto; [congruence|]. intros Q1 Q2. apply (HR Q1 Q2).
  - apply (pre_forward_same gl method b s f2 L spin kernel nside o); auto; [congruence|]. intros Q1 Q2. apply (HR Q1 Q2).
  - apply (pre_forward_same gl method b s f L spin kernel nside o); auto.
  - apply (forward_linear gl (scheme_name s) s L spin "direct" nside o); auto. lia.
Qed.
