(** Consequences for the on-the-fly inverse Wigner transforms: limits, agreement, reality, masks. *)
From Coq Require Import Reals ZifyBool Lra.
From Coquelicot Require Import Complex.
From Verif Require Import Lib.Py Lib.PyFacts Lib.Vec Lib.VecFacts Lib.Sums Lib.Cplx Lib.Arr Lib.ArrFacts Lib.MatFacts Lib.Ext Lib.ExtFacts Lib.Lim
  Model.Index Model.Samples Model.Grids Model.FFT Model.HealpixFFT Model.Turok Model.Resampling Model.Quadrature Model.Spherical
  Model.Precompute Model.PriceMcEwen Model.OTF Model.OTFSpherical Model.Wigner Model.OTFWigner
  Spec.SamplesSpec Spec.WignerSpec Spec.SphereSpec Spec.GridSpec Spec.HealpixFFTSpec Spec.SphericalSpec Spec.QuadSpec Spec.SO3Spec Spec.OTFSpec Spec.OTFSphericalSpec Spec.OTFWignerSpec
  Proofs.SamplesProofs Proofs.GridProofs Proofs.PixelProofs Proofs.TurokProofs Proofs.HealpixDFTProofs Proofs.SphGrid
  Proofs.WignerCalc Proofs.SphereTheory Proofs.SphInverse Proofs.SphTop Proofs.SphForward Proofs.SphForwardTop Proofs.SphRound Proofs.SphFacts
  Proofs.WignerInverse Proofs.WignerForward Proofs.WignerRound Proofs.WignerReal Proofs.PMPre Proofs.OTFProofs Proofs.OTFTop Proofs.OTFLimit Proofs.OTFSphInverse Proofs.OTFSphForward
  Proofs.OTFSphNear Proofs.OTFSphTop Proofs.OTFWignerLoop Proofs.OTFWignerInverse
  Spec.CallSpec.
From Coq Require Import List.
Import ListNotations.
Open Scope string_scope.
Open Scope Z_scope.


Lemma lim_so3 {T} (P : R -> T -> Prop) : (forall d d' u, (0 < d' <= d)%R -> P d' u -> P d u) -> forall L N c a x phi gamma, close P a x ->
  lim P (fun u => so3_synth L N c phi (a u) gamma) (so3_synth L N c phi x gamma).
Proof.
  intros mono L N c a x phi gamma Ha. unfold so3_synth. apply lim_sum; [exact mono|]. intros n _. apply lim_sum; [exact mono|]. intros l _.
  apply lim_sum; [exact mono|]. intros m _. apply lim_mult; [exact mono|apply lim_const|]. unfold Dconj.
  apply lim_mult; [exact mono| |apply lim_const]. apply lim_mult; [exact mono|apply lim_const|]. now apply lim_wigner.
Qed.

Lemma hp_of_call (s : scheme) (nside L : Z) (o : option Z) : (s = HEALPIX -> 1 <= nside /\ o = Some nside /\ 2 * nside <= L) -> s = HEALPIX -> 1 <= nside.
Proof. intros H Q. apply (H Q). Qed.

Lemma wigner_inverse_near gl flmn L N s nside reality Lo eps : 1 <= L -> (s = HEALPIX -> 1 <= nside) -> nodes_ok s L (gl_nodes gl L) -> (0 < eps)%R ->
  exists delta, (0 < delta)%R /\ forall th o beta method p, wigner_inverse_call th flmn L N s nside o reality Lo beta method p ->
    angles_near delta (vat (gl_nodes gl L)) s L nside beta ->
    exists f, otf_wigner_inverse th flmn L N o (scheme_name s) method reality p Lo = Ok f /\
      so3_near eps (vat (gl_nodes gl L)) s L N nside f (so3_synth L N (used3 reality Lo (stored3 L N flmn))).
Proof.
  intros HL Hn Hg He. set (c := used3 reality Lo (stored3 L N flmn)).
  destruct (lim_all (fun d beta => angles_near d (vat (gl_nodes gl L)) s L nside beta) ltac:(intros; eapply angles_mono; eauto)
    (list_prod (zrange 0 (2 * N - 1)) (pairs (rings s L nside) (ring_size s L nside)))
    (fun i beta => so3_synth L N c (longitude s L nside (fst (snd i)) (snd (snd i))) (ring_angle s (rings s L nside) (vat beta) (fst (snd i))) (2 * PI * IZR (fst i) / IZR (2 * N - 1))%R)
    (fun i => so3_synth L N c (longitude s L nside (fst (snd i)) (snd (snd i))) (th_of gl s L nside (fst (snd i))) (2 * PI * IZR (fst i) / IZR (2 * N - 1))%R)) with (eps := eps) as (delta & D & H); auto.
  { intros [g i] Hi. apply in_prod_iff in Hi. destruct Hi as [_ Hi]. apply pairs_in in Hi. cbn [fst snd]. apply lim_so3; [intros; eapply angles_mono; eauto|]. apply ring_angle_close; auto; lia. }
  exists delta. split; [exact D|]. intros th o beta method p HC Ha.
  destruct (wigner_inverse_call_ok _ _ _ _ _ _ _ _ _ _ _ _ HC) as (f & E & S1 & S2).
  exists f. split; [exact E|]. split; [exact S1|]. intros g t q x Hg' Ht Hq Hx. rewrite S2 by auto.
  rewrite (colat_unique gl s L nside t x) by auto. apply (H beta Ha (g, (t, q))). apply in_prod; [apply in_zrange; lia|now apply in_pairs].
Qed.

Lemma so3_cover' s L N nside ix : 1 <= L -> (s = HEALPIX -> 1 <= nside) -> in_shape (2 * N - 1 :: map_shape s L nside) ix ->
  exists g t p, ix = g :: sample_index s nside t p /\ 0 <= g < 2 * N - 1 /\ 0 <= t < rings s L nside /\ 0 <= p < ring_size s L nside t.
Proof.
  intros HL Hn. destruct ix as [|g ix]; cbn [in_shape]; [tauto|]. intros [Hg Hix].
  destruct (sample_cover s L nside ix HL Hn Hix) as (t & p & Ht & Hp & ->). now exists g, t, p.
Qed.

Lemma wigner_inverse_reference gl flmn L N s nside reality Lo eps : 2 <= L -> 1 <= N -> 0 <= Lo <= L - 2 -> (s = HEALPIX -> 1 <= nside /\ 2 * nside <= L) ->
  (s = GL -> vlen (gl_nodes gl L) = L) -> rings_away (vat (gl_nodes gl L)) s L nside -> shape flmn = [2 * N - 1; L; 2 * L - 1] ->
  (reality = true -> forall l, 0 <= l < L -> is_real (stored3 L N flmn 0 l 0)) -> (0 < eps)%R ->
  exists f0 delta, wigner_inverse gl flmn L N Lo (scheme_name s) reality (Some nside) = Ok f0 /\ (0 < delta)%R /\
    forall th o beta method p, wigner_inverse_call th flmn L N s nside o reality Lo beta method p -> angles_near delta (vat (gl_nodes gl L)) s L nside beta ->
    exists f, otf_wigner_inverse th flmn L N o (scheme_name s) method reality p Lo = Ok f /\ arrays_near eps f f0.
Proof.
  intros HL HN HLo Hn Hg Ha Hf Hr He.
  assert (Hn1 : s = HEALPIX -> 1 <= nside) by (intros Q; apply (Hn Q)).
  assert (S : setting (scheme_name s) s L nside (Some nside)) by (split; [apply denotes_name|]; split; [lia|]; intros Q; auto).
  destruct (wigner_inverse_lemma gl s L N Lo nside (Some nside) reality flmn S HN ltac:(lia) Hf Hg ltac:(intros Q; apply (Hn Q)) Ha Hr) as (f0 & E0 & S0 & H0).
  assert (HG : nodes_ok s L (gl_nodes gl L)).
  { intros -> i Hi. destruct (Ha (L - 1 - i)) as (x & [_ Q] & _); [cbn; lia|]. replace (L - 1 - (L - 1 - i)) with i in Q by lia. rewrite <- Q. apply COS_bound. }
  destruct (wigner_inverse_near gl flmn L N s nside reality Lo eps ltac:(lia) Hn1 HG He) as (delta & D & H).
  exists f0, delta. split; [exact E0|]. split; [exact D|]. intros th o beta method p HC HA. destruct (H th o beta method p HC HA) as (f & E & S1 & H1).
  exists f. split; [exact E|]. split; [congruence|]. intros ix Hix. rewrite S1 in Hix. destruct (so3_cover' s L N nside ix ltac:(lia) Hn1 Hix) as (g & t & q & -> & Hg' & Ht & Hq).
  rewrite (H0 g t q (th_of gl s L nside t)); auto; [|now apply placed]. apply H1; auto. now apply placed.
Qed.

(** two calls that work with the same coefficients *)
Lemma wigner_same_call th flmn flmn' L N s nside o reality reality' Lo beta method method' p p' :
  wigner_inverse_call th flmn L N s nside o reality Lo beta method p -> wigner_inverse_call th flmn' L N s nside o reality' Lo beta method' p' ->
  (forall n l m, - N < n < N -> Z.abs n <= l < L -> - l <= m <= l ->
     used3 reality Lo (stored3 L N flmn) n l m = used3 reality' Lo (stored3 L N flmn') n l m) ->
  same_ok (otf_wigner_inverse th flmn L N o (scheme_name s) method reality p Lo) (otf_wigner_inverse th flmn' L N o (scheme_name s) method' reality' p' Lo).
Proof.
  intros C1 C2 E. destruct (wigner_inverse_call_ok _ _ _ _ _ _ _ _ _ _ _ _ C1) as (f & Ef & S1 & H1). destruct (wigner_inverse_call_ok _ _ _ _ _ _ _ _ _ _ _ _ C2) as (g & Eg & S2 & H2).
  exists f, g. split; [exact Ef|]. split; [exact Eg|]. destruct C1 as (HL & _ & _ & _ & Hn & _). split; [congruence|]. intros ix Hix. rewrite S1 in Hix.
  destruct (so3_cover' s L N nside ix ltac:(lia) (hp_of_call _ _ _ _ Hn) Hix) as (k & t & q & -> & Hk & Ht & Hq). rewrite H1, H2 by auto. now apply so3_synth_ext.
Qed.

Lemma wigner_inverse_call_real th flmn L N s nside o Lo beta method method' p p' :
  wigner_inverse_call th flmn L N s nside o true Lo beta method p -> wigner_inverse_call th flmn L N s nside o false Lo beta method' p' -> hermitian3 L N (stored3 L N flmn) ->
  exists f f', otf_wigner_inverse th flmn L N o (scheme_name s) method true p Lo = Ok f /\ otf_wigner_inverse th flmn L N o (scheme_name s) method' false p' Lo = Ok f' /\
    arr_eq f f' /\ forall ix, in_shape (shape f) ix -> is_real (get f ix).
Proof.
  intros C1 C2 HH. destruct (wigner_same_call th flmn flmn L N s nside o true false Lo beta method method' p p' C1 C2) as (f & f' & E & E' & Q).
  { intros n l m H1 H2 H3. now apply (used3_herm L N). }
  exists f, f'. split; [exact E|]. split; [exact E'|]. split; [exact Q|]. intros ix Hix.
  destruct (wigner_inverse_call_ok _ _ _ _ _ _ _ _ _ _ _ _ C1) as (g & Eg & S1 & H1). rewrite E in Eg. injection Eg as <-.
  destruct C1 as (HL & _ & HN & _ & Hn & _). rewrite S1 in Hix. destruct (so3_cover' s L N nside ix ltac:(lia) (hp_of_call _ _ _ _ Hn) Hix) as (k & t & q & -> & Hk & Ht & Hq).
  rewrite H1 by auto. apply so3_synth_real. intros n l m Hn' Hl Hm. rewrite !(used3_herm L N Lo _ _ _ _ true) by (auto; lia). unfold used3.
  destruct (l <? Lo); [rewrite Cconj_R; ring|]. now apply HH.
Qed.

Lemma wigner_inverse_call_mask th flmn flmn' L N s nside o reality Lo beta method p :
  wigner_inverse_call th flmn L N s nside o reality Lo beta method p -> wigner_inverse_call th flmn' L N s nside o reality Lo beta method p ->
  (forall n l m, - N < n < N -> Z.max Lo (Z.abs n) <= l < L -> - l <= m <= l -> stored3 L N flmn n l m = stored3 L N flmn' n l m) ->
  same_ok (otf_wigner_inverse th flmn L N o (scheme_name s) method reality p Lo) (otf_wigner_inverse th flmn' L N o (scheme_name s) method reality p Lo).
Proof.
  intros C1 C2 E. apply (wigner_same_call th flmn flmn' L N s nside o reality reality Lo beta method method p p C1 C2).
  intros n l m H1 H2 H3. unfold used3. destruct (Z.ltb_spec l Lo); [reflexivity|]. unfold real_extension3. rewrite (E n l m), (E (- n)%Z l (- m)%Z) by lia. reflexivity.
Qed.
