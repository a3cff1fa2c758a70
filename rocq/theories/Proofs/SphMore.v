(** Linearity, reality, masking and power of the reference transforms. *)
From Coq Require Import Reals ZifyBool Lra.
From Coquelicot Require Import Complex.
From Verif Require Import Lib.Py Lib.PyFacts Lib.Vec Lib.VecFacts Lib.Sums Lib.Cplx Lib.Arr Lib.ArrFacts Lib.MatFacts
  Model.Index Model.Samples Model.Grids Model.FFT Model.HealpixFFT Model.Turok Model.Resampling Model.Quadrature Model.Spherical
  Spec.SamplesSpec Spec.WignerSpec Spec.SphereSpec Spec.GridSpec Spec.HealpixFFTSpec Spec.SphericalSpec Spec.QuadSpec
  Proofs.SamplesProofs Proofs.GridProofs Proofs.PixelProofs Proofs.TurokProofs Proofs.HealpixDFTProofs Proofs.SphGrid
  Proofs.SphereTheory Proofs.ResamplingProofs Proofs.ResamplingFacts Proofs.ResamplingGen Proofs.QuadProofs
  Proofs.SphInverse Proofs.SphTop Proofs.SphForward Proofs.SphForwardTop Proofs.SphRound Proofs.SphFacts.
Open Scope string_scope.
Open Scope Z_scope.

Lemma synth_lin L s x y c c' d theta phi : (forall l m, Z.abs s <= l < L -> - l <= m <= l -> d l m = (x * c l m + y * c' l m)%C) ->
  synth L s d theta phi = (x * synth L s c theta phi + y * synth L s c' theta phi)%C.
Proof.
  intros H. unfold synth. rewrite <- !cs_scal_l, <- cs_plus. apply cr_ext. intros l Hl. rewrite <- !cs_scal_l, <- cs_plus.
  apply cr_ext. intros m Hm. rewrite H by lia. ring.
Qed.

Lemma real_mult (a b : C) : is_real a -> is_real b -> is_real (a * b)%C.
Proof. destruct a as [a a'], b as [b b']. unfold is_real, Im, Cmult. cbn. intros -> ->. ring. Qed.
Lemma real_plus (a b : C) : is_real a -> is_real b -> is_real (a + b)%C.
Proof. destruct a as [a a'], b as [b b']. unfold is_real, Im, Cplus. cbn. intros -> ->. ring. Qed.

Lemma stored_comb L x y f g h el m : shape h = [L; 2 * L - 1] -> combination x y f g h -> 0 <= el < L -> - L < m < L ->
  stored L h el m = (x * stored L f el m + y * stored L g el m)%C.
Proof. intros Hh (_ & _ & H) Hel Hm. apply H. rewrite Hh. cbn [in_shape]. lia. Qed.

Lemma used_lin L reality spin Lo x y f g h l m : shape h = [L; 2 * L - 1] -> combination x y f g h ->
  (reality = true -> spin = 0 -> is_real x /\ is_real y) -> 0 <= l < L -> - l <= m <= l ->
  used_coefficients reality spin Lo (stored L h) l m
  = (x * used_coefficients reality spin Lo (stored L f) l m + y * used_coefficients reality spin Lo (stored L g) l m)%C.
Proof.
  intros Hh Hc Hr Hl Hm. unfold used_coefficients, above. destruct (l <? Lo); [ring|].
  assert (S : forall m, - l <= m <= l -> stored L h l m = (x * stored L f l m + y * stored L g l m)%C) by (intros; apply stored_comb; auto; lia).
  destruct (reality && (spin =? 0)) eqn:B; [|auto]. apply andb_prop in B. destruct B as [B1 B2].
  destruct (Hr B1 ltac:(lia)) as [Hx Hy]. unfold real_extension. destruct (m <? 0) eqn:Bm; [|auto].
  rewrite S by lia. rewrite Cconj_plus, !Cconj_mult, (real_conj x Hx), (real_conj y Hy). ring.
Qed.

Lemma inverse_linear gl name s L spin method nside o reality Lo x y flm1 flm2 flm :
  setting name s L nside o -> 0 <= Lo < L -> shape flm = [L; 2 * L - 1] -> combination x y flm1 flm2 flm ->
  (s = GL -> vlen (gl_nodes gl L) = L) -> rings_away (vat (gl_nodes gl L)) s L nside ->
  method_allowed name method s L nside spin reality flm1 -> method_allowed name method s L nside spin reality flm2 ->
  (reality = true -> spin = 0 -> is_real x /\ is_real y) ->
  exists f1 f2 f, inverse_ gl flm1 L spin name method o reality Lo = Ok f1 /\ inverse_ gl flm2 L spin name method o reality Lo = Ok f2 /\
    inverse_ gl flm L spin name method o reality Lo = Ok f /\ combination x y f1 f2 f.
Proof.
  intros (Hd & HL & Hn) HLo Hf Hc Hg Ha Hm1 Hm2 Hr. destruct Hc as (Hc1 & Hc2 & Hc3). pose proof (conj Hc1 (conj Hc2 Hc3)) as Hc. 
  assert (Hm : method_allowed name method s L nside spin reality flm).
  { destruct Hm1 as [Hm1|(Hm1 & En & H1 & H2)]; [now left|]. right. split; [exact Hm1|]. split; [exact En|]. split; [exact H1|].
    intros Q1 Q2 el Hel. destruct (Hr Q1 Q2). rewrite (stored_comb L x y flm1 flm2) by (auto; lia).
    assert (R2 : is_real (stored L flm2 el 0)).
    { destruct Hm2 as [Hm2|(_ & _ & _ & H2')]; [|now apply H2']. exfalso.
      destruct Hm1 as [-> | ->], Hm2 as [M|M]; discriminate M. }
    apply real_plus; apply real_mult; auto. }
  destruct (inverse_lemma gl name s flm1 L spin method nside o reality Lo Hd HL HLo ltac:(congruence) Hn Hg Ha Hm1) as (f1 & E1 & S1 & F1).
  destruct (inverse_lemma gl name s flm2 L spin method nside o reality Lo Hd HL HLo ltac:(congruence) Hn Hg Ha Hm2) as (f2 & E2 & S2 & F2).
  destruct (inverse_lemma gl name s flm L spin method nside o reality Lo Hd HL HLo Hf Hn Hg Ha Hm) as (f & E & S & F).
  exists f1, f2, f. split; [exact E1|]. split; [exact E2|]. split; [exact E|]. split; [congruence|]. split; [congruence|].
  assert (G := the_grid_ok gl name s L nside o (mkVec (rings s L nside) (th_of gl s L nside)) Hd HL Hn eq_refl ltac:(reflexivity)).
  rewrite S. intros ix Hix. destruct (go_cov _ _ _ _ _ G ix Hix) as (t & p & IG & ->). rewrite F, F1, F2 by auto.
  apply synth_lin. intros l m Hl Hmm. apply used_lin; auto; lia.
Qed.

Lemma forward_linear gl name s L spin method nside o reality Lo x y f1 f2 f :
  setting name s L nside o -> 0 <= Lo < L -> shape f = map_shape s L nside -> combination x y f1 f2 f ->
  rule_sizes s L (gl_nodes gl L) (gl_weights gl L) -> forward_rings_away (vat (gl_nodes gl L)) s L nside ->
  forward_allowed name method s L nside ->
  (reality = true -> spin = 0 -> is_real x /\ is_real y /\ real_map (vat (gl_nodes gl L)) s L nside spin f1 /\
     real_map (vat (gl_nodes gl L)) s L nside spin f2) ->
  exists flm1 flm2 flm, forward_ gl f1 L spin name method o reality Lo = Ok flm1 /\ forward_ gl f2 L spin name method o reality Lo = Ok flm2 /\
    forward_ gl f L spin name method o reality Lo = Ok flm /\ combination x y flm1 flm2 flm.
Proof.
  intros S HLo Hf Hc Hg Ha Hm Hr.
  assert (Hn : s = HEALPIX -> 1 <= nside) by (intros Q; apply (proj2 (proj2 S) Q)).
  assert (HL := proj1 (proj2 S)).
  assert (Sh1 : shape f1 = map_shape s L nside) by (rewrite <- Hf; apply Hc).
  assert (Sh2 : shape f2 = map_shape s L nside) by (rewrite <- Hf; apply Hc).
  destruct (analysis_lemma gl name s f1 L spin method nside o reality Lo S HLo Sh1 Hg Ha Hm) as (w & flm1 & E1 & E1' & S1 & H1).
  { intros Q1 Q2. apply real_map_values; auto. apply (Hr Q1 Q2). }
  destruct (analysis_lemma gl name s f2 L spin method nside o reality Lo S HLo Sh2 Hg Ha Hm) as (w2 & flm2 & E2 & E2' & S2 & H2).
  { intros Q1 Q2. apply real_map_values; auto. apply (Hr Q1 Q2). }
  destruct (analysis_lemma gl name s f L spin method nside o reality Lo S HLo Hf Hg Ha Hm) as (w3 & flm & E3 & E3' & S3 & H3).
  { intros Q1 Q2 t p IG. destruct (Hr Q1 Q2) as (Rx & Ry & R1 & R2). rewrite (fvals_lin gl s L nside spin x y f1 f2) by auto.
    apply real_plus; apply real_mult; auto; apply (real_map_values gl s L nside spin); auto. }
  rewrite E1 in E2, E3. injection E2 as <-. injection E3 as <-.
  exists flm1, flm2, flm. split; [exact E1'|]. split; [exact E2'|]. split; [exact E3'|]. split; [congruence|]. split; [congruence|].
  rewrite S3. intros ix Hix. destruct ix as [|el [|q [|]]]; cbn [in_shape] in Hix; try lia.
  replace q with (q - (L - 1) + L - 1) by lia. set (m := q - (L - 1)) in *.
  change (stored L flm el m = (x * stored L flm1 el m + y * stored L flm2 el m)%C).
  rewrite H1, H2, H3 by lia. destruct (_ <=? _); [|ring].
  apply fsum_lin. intros t p IG. now apply (fvals_lin gl).
Qed.

(** ** Real signals *)
Lemma inverse_real gl name s flm L method nside o Lo :
  setting name s L nside o -> 0 <= Lo < L -> shape flm = [L; 2 * L - 1] -> (s = GL -> vlen (gl_nodes gl L) = L) ->
  rings_away (vat (gl_nodes gl L)) s L nside ->
  (sum_method method \/ fft_method method /\ name = scheme_name s /\ (s = HEALPIX -> 2 * nside <= L)) ->
  hermitian L (stored L flm) ->
  exists f f', inverse_ gl flm L 0 name method o true Lo = Ok f /\ inverse_ gl flm L 0 name method o false Lo = Ok f' /\
    arr_eq f f' /\ forall ix, in_shape (shape f) ix -> is_real (get f ix).
Proof.
  intros S HLo Hf Hg Ha Hm Hh.
  assert (Hma : forall re, method_allowed name method s L nside 0 re flm).
  { intros re. destruct Hm as [Hm|(H1 & H2 & H3)]; [now left|]. right. split; [exact H1|]. split; [exact H2|]. split; [exact H3|].
    intros _ _ el Hel. now apply (herm_real L). }
  destruct (inverse_same gl name name s flm flm L 0 method method nside o o true false Lo Lo S S HLo HLo Hf Hf Hg Ha (Hma true) (Hma false)) as (f & f' & E & E' & Q).
  { intros l m Hl Hmm. rewrite !(used_herm L) by (auto; lia). reflexivity. }
  exists f, f'. split; [exact E|]. split; [exact E'|]. split; [exact Q|].
  destruct S as (Hd & HL & Hn).
  destruct (inverse_lemma gl name s flm L 0 method nside o true Lo Hd HL HLo Hf Hn Hg Ha (Hma true)) as (f1 & E1 & S1 & F1).
  rewrite E in E1. injection E1 as <-.
  assert (G := the_grid_ok gl name s L nside o (mkVec (rings s L nside) (th_of gl s L nside)) Hd HL Hn eq_refl ltac:(reflexivity)).
  rewrite S1. intros ix Hix. destruct (go_cov _ _ _ _ _ G ix Hix) as (t & p & IG & ->). rewrite F1 by auto.
  apply synth_real. apply above_herm. cbn [andb Z.eqb]. apply real_ext_herm. intros el Hel. now apply (herm_real L).
Qed.

Lemma forward_real gl name s f L method nside o Lo :
  setting name s L nside o -> 0 <= Lo < L -> shape f = map_shape s L nside -> rule_sizes s L (gl_nodes gl L) (gl_weights gl L) ->
  forward_rings_away (vat (gl_nodes gl L)) s L nside -> forward_allowed name method s L nside ->
  real_map (vat (gl_nodes gl L)) s L nside 0 f ->
  exists flm flm', forward_ gl f L 0 name method o true Lo = Ok flm /\ forward_ gl f L 0 name method o false Lo = Ok flm' /\
    arr_eq flm flm' /\ hermitian L (stored L flm).
Proof.
  intros S HLo Hf Hg Ha Hm Hr.
  assert (Hn : s = HEALPIX -> 1 <= nside) by (intros Q; apply (proj2 (proj2 S) Q)).
  assert (HL := proj1 (proj2 S)).
  destruct (forward_same gl name name s f L 0 method method nside o o true false Lo S S HLo Hf Hg Ha Hm Hm) as (flm & flm' & E & E' & Q); auto.
  exists flm, flm'. split; [exact E|]. split; [exact E'|]. split; [exact Q|].
  assert (RV := real_map_values gl s L nside 0 f HL Hn Hf Ha Hr).
  destruct (analysis_lemma gl name s f L 0 method nside o true Lo S HLo Hf Hg Ha Hm) as (w & flm1 & E1 & E1' & S1 & H1); auto.
  rewrite E in E1'. injection E1' as <-. intros el m Hel Hmm. rewrite !H1 by lia.
  destruct (_ <=? _); [now apply fsum_conj|]. rewrite Cconj_R. ring.
Qed.

(** ** Power *)
Lemma Cmod_sq (z : C) : RtoC (Cmod z ^ 2) = (z * Cconj z)%C.
Proof.
  destruct z as [a b]. unfold Cmod. cbn [fst snd]. replace (sqrt (a ^ 2 + b ^ 2) ^ 2)%R with (a ^ 2 + b ^ 2)%R.
  - unfold RtoC, Cmult, Cconj. cbn. f_equal; ring.
  - symmetry. rewrite <- (Rsqr_pow2 (sqrt _)), Rsqr_sqrt; [ring|nra].
Qed.

Lemma parseval_core s L spin n th w v c : 1 <= L -> s <> HEALPIX ->
  (forall t p, 0 <= t < n -> 0 <= p < per_ring s L -> v t p = synth L spin c (th t) (equi_longitude s L p)) ->
  (forall k, - (2 * L) < k < 2 * L ->
     rsum (zrange 0 n) (fun t => (IZR (per_ring s L) * vat w t * cos (IZR k * th t))%R) = (2 * PI * Re (mw_weights k))%R) ->
  rsum (zrange 0 n) (fun t => rsum (zrange 0 (per_ring s L)) (fun p => (vat w t * Cmod (v t p) ^ 2)%R)) = coefficient_power 0 spin L c.
Proof.
  intros HL Hs Hv HQ. apply RtoC_inj. unfold coefficient_power. rewrite <- !csum_RtoC.
  transitivity (csum (zrange (Z.abs spin) L) (fun l => csum (zrange (- l) (l + 1)) (fun m => (Cconj (c l m) * fsum (equi_grid s L n th) spin w v l m)%C))).
  - rewrite (cr_ext _ _ _ (fun t => csum (zrange (Z.abs spin) L) (fun l => csum (zrange (- l) (l + 1)) (fun m =>
      (Cconj (c l m) * (RtoC (vat w t * sgn spin * elfactor l * wigner_d l m (- spin) (th t)) *
        csum (zrange 0 (per_ring s L)) (fun p => cis (- (IZR m * equi_longitude s L p)) * v t p)))%C)))).
    + rewrite cs_swap. apply cr_ext. intros l Hl. rewrite cs_swap. apply cr_ext. intros m Hm. rewrite cs_scal_l. reflexivity.
    + intros t Ht. rewrite <- csum_RtoC.
      rewrite (cr_ext _ _ _ (fun p => csum (zrange (Z.abs spin) L) (fun l => csum (zrange (- l) (l + 1)) (fun m =>
        (Cconj (c l m) * RtoC (vat w t * sgn spin * elfactor l * wigner_d l m (- spin) (th t)) * (cis (- (IZR m * equi_longitude s L p)) * v t p))%C)))).
      * rewrite cs_swap. apply cr_ext. intros l Hl. rewrite cs_swap. apply cr_ext. intros m Hm. rewrite cs_scal_l. ring.
      * intros p Hp. rewrite RtoC_mult, Cmod_sq. rewrite (Hv t p Ht Hp) at 2. unfold synth. rewrite csum_conj.
        rewrite Cmult_assoc, <- cs_scal_l. apply cr_ext. intros l Hl. rewrite csum_conj, <- cs_scal_l. apply cr_ext. intros m Hm.
        rewrite Cconj_mult. unfold sYlm. rewrite Cconj_mult, Cconj_R, cis_conj. unfold elfactor. rewrite !RtoC_mult. ring.
  - replace (Z.max 0 (Z.abs spin)) with (Z.abs spin) by lia. apply cr_ext. intros l Hl. rewrite <- csum_RtoC. apply cr_ext. intros m Hm.
    pose proof (fsum_round s L spin 0 n th w v c HL Hs ltac:(lia) Hv HQ l m ltac:(lia) ltac:(lia)) as E.
    unfold restricted in E. replace (Z.max 0 (Z.abs spin) <=? l) with true in E by lia. replace (Z.abs m <=? l) with true in E by lia. cbn [andb] in E.
    rewrite E, Cmod_sq. ring.
Qed.

Lemma parseval_lemma gl name s flm L spin method nside o reality Lo :
  setting name s L nside o -> s = DH \/ s = GL -> 0 <= Lo < L -> shape flm = [L; 2 * L - 1] ->
  (s = GL -> gauss_legendre L (gl_nodes gl L) (gl_weights gl L)) ->
  rings_away (vat (gl_nodes gl L)) s L nside ->
  (sum_method method \/ fft_method method /\ name = scheme_name s) ->
  (reality = true -> spin = 0 -> hermitian L (stored L flm)) ->
  exists f w, inverse_ gl flm L spin name method o reality Lo = Ok f /\ quad_weights gl L name spin o = Ok w /\
    map_power (rings s L nside) (per_ring s L) w f = coefficient_power Lo spin L (stored L flm).
Proof.
  intros S Hs HLo Hf HG Ha Hm Hr. assert (HL := proj1 (proj2 S)).
  assert (Ns : s <> HEALPIX) by (destruct Hs as [-> | ->]; discriminate).
  destruct (inverse_lemma gl name s flm L spin method nside o reality Lo (proj1 S) HL HLo Hf) as (f & E & Sf & HF); auto.
  { apply S. }
  { intros Q. apply (HG Q). }
  { destruct Hm as [Hm|[Hm En]]; [now left|]. right. split; [exact Hm|]. split; [exact En|]. split; [congruence|].
    intros Q1 Q2 el Hel. now apply (herm_real L (stored L flm)); auto. }
  set (c := used_coefficients reality spin Lo (stored L flm)) in *.
  destruct (weights_ok gl name s L nside o (proj1 S) HL (proj2 (proj2 S))) as (w & Ew & _); [intros Q; apply (HG Q)|].
  exists f, w. split; [exact E|]. split.
  { rewrite <- Ew. pose proof (proj1 S) as Hd. unfold quad_weights, quad_weights_transform, denotes in *.
    destruct Hs as [-> | ->]; cbn [fname]; rewrite Hd; reflexivity. }
  destruct (weights_exact gl name s L nside o w S Ns HG Ew) as (n & th & GE & HW).
  assert (Fs : fscheme s = s) by (destruct Hs as [-> | ->]; reflexivity). rewrite Fs in *.
  assert (GE' : the_grid gl s L nside = equi_grid s L n th) by (rewrite <- GE; destruct Hs as [-> | ->]; reflexivity).
  assert (En : n = rings s L nside) by (rewrite <- (the_grid_n gl s L nside), GE'; reflexivity).
  assert (Eth : forall t, th t = th_of gl s L nside t) by (intros t; rewrite <- (the_grid_th gl s L nside t), GE'; reflexivity).
  unfold map_power. rewrite <- En.
  pose proof (parseval_core s L spin n th w (fun t p => get f [t; p]) c HL Ns) as P. cbv beta in P. rewrite P; auto.
  - assert (CC : forall l m, Z.abs spin <= l < L -> - l <= m <= l -> c l m = above Lo (stored L flm) l m)
      by (intros l m Hl Hmm; apply (used_herm L); auto; lia).
    unfold coefficient_power. replace (Z.max 0 (Z.abs spin)) with (Z.abs spin) by lia.
    assert (Z0 : (Cmod (RtoC 0) ^ 2)%R = 0%R) by (rewrite Cmod_0; ring).
    destruct (Z_le_dec L (Z.max Lo (Z.abs spin))) as [B|B].
    + rewrite (rr_nil (Z.max Lo (Z.abs spin))) by lia. apply rr_0. intros l Hl. apply rr_0. intros m Hmm. rewrite CC by lia. unfold above.
      now replace (l <? Lo) with true by lia.
    + rewrite (rr_shrink (Z.abs spin) L (Z.max Lo (Z.abs spin)) L); try lia.
      * apply rr_ext. intros l Hl. apply rr_ext. intros m Hmm. rewrite CC by lia. unfold above. now replace (l <? Lo) with false by lia.
      * intros l Hl Ho. apply rr_0. intros m Hmm. rewrite CC by lia. unfold above. now replace (l <? Lo) with true by lia.
  - intros t p Ht Hp. rewrite Eth. specialize (HF t p). rewrite GE' in HF. cbn [equi_grid ge] in HF. rewrite HF by (now split).
    f_equal. destruct Hs as [-> | ->]; reflexivity.
Qed.

(** ** Degrees and orders outside the admissible range *)
Lemma inverse_mask gl name s flm flm' L spin method nside o reality Lo :
  setting name s L nside o -> 0 <= Lo < L -> shape flm = [L; 2 * L - 1] -> shape flm' = [L; 2 * L - 1] ->
  (s = GL -> vlen (gl_nodes gl L) = L) -> rings_away (vat (gl_nodes gl L)) s L nside ->
  method_allowed name method s L nside spin reality flm -> method_allowed name method s L nside spin reality flm' ->
  (forall el m, admissible Lo spin L el m -> stored L flm el m = stored L flm' el m) ->
  same_ok (inverse_ gl flm L spin name method o reality Lo) (inverse_ gl flm' L spin name method o reality Lo).
Proof.
  intros S HLo Hf Hf' Hg Ha Hm Hm' H. apply (inverse_same gl name name s flm flm' L spin method method nside o o); auto.
  intros l m Hl Hmm. unfold used_coefficients, above. destruct (Z.ltb_spec l Lo) as [B|B]; [reflexivity|].
  destruct (_ && _); unfold real_extension; [|apply H; unfold admissible; lia].
  destruct (m <? 0); [rewrite H by (unfold admissible; lia); reflexivity|apply H; unfold admissible; lia].
Qed.

Lemma forward_mask gl name s f L spin method nside o reality Lo :
  setting name s L nside o -> 0 <= Lo < L -> shape f = map_shape s L nside -> rule_sizes s L (gl_nodes gl L) (gl_weights gl L) ->
  forward_rings_away (vat (gl_nodes gl L)) s L nside -> forward_allowed name method s L nside ->
  (reality = true -> spin = 0 -> real_map (vat (gl_nodes gl L)) s L nside spin f) ->
  exists flm, forward_ gl f L spin name method o reality Lo = Ok flm /\ shape flm = [L; 2 * L - 1] /\
    forall el m, 0 <= el < L -> - L < m < L -> ~ admissible Lo spin L el m -> stored L flm el m = RtoC 0.
Proof.
  intros S HLo Hf Hg Ha Hm Hr.
  assert (Hn : s = HEALPIX -> 1 <= nside) by (intros Q; apply (proj2 (proj2 S) Q)).
  assert (HL := proj1 (proj2 S)).
  destruct (analysis_lemma gl name s f L spin method nside o reality Lo S HLo Hf Hg Ha Hm) as (w & flm & E1 & E1' & S1 & H1).
  { intros Q1 Q2. apply real_map_values; auto. }
  exists flm. split; [exact E1'|]. split; [exact S1|]. intros el m Hel Hmm Hna. rewrite H1 by auto.
  destruct (Z.leb_spec (Z.max Lo (Z.abs spin)) el) as [B|B]; [|reflexivity].
  apply cr_0. intros t Ht. rewrite wig_out by (unfold admissible in Hna; lia). rewrite Rmult_0_r. ring.
Qed.

(** ** Rejected arguments *)
Lemma inverse_rejects gl flm L spin name method o reality Lo :
  (shape flm <> [L; 2 * L - 1] \/ L <= 0 \/ Lo < 0 \/ L <= Lo) ->
  inverse_ gl flm L spin name method o reality Lo = Err AssertionError.
Proof.
  intros H. unfold inverse_, shape_is. change (flm_shape L) with [L; 2 * L - 1].
  destruct (list_eq_dec Z.eq_dec (shape flm) [L; 2 * L - 1]) as [E|E]; [|reflexivity]. cbn [assert_ bind].
  destruct (Z.ltb_spec 0 L) as [B|B]; [|reflexivity]. cbn [assert_ bind].
  destruct (Z.leb_spec 0 Lo) as [B'|B'], (Z.ltb_spec Lo L) as [B''|B'']; try reflexivity. exfalso. destruct H as [H|H]; [auto|lia].
Qed.
Lemma forward_rejects gl f L spin name s method nside o reality Lo :
  denotes name s -> (s = HEALPIX -> o = Some nside) ->
  (shape f <> map_shape s L nside \/ L <= 0 \/ Lo < 0 \/ L <= Lo) ->
  forward_ gl f L spin name method o reality Lo = Err AssertionError.
Proof.
  intros Hd Ho H. unfold forward_. rewrite (f_shape_ok name s L nside o Hd Ho). cbn [bind]. unfold shape_is.
  destruct (list_eq_dec Z.eq_dec (shape f) (map_shape s L nside)) as [E|E]; [|reflexivity]. cbn [assert_ bind].
  destruct (Z.ltb_spec 0 L) as [B|B]; [|reflexivity]. cbn [assert_ bind].
  destruct (Z.leb_spec 0 Lo) as [B'|B'], (Z.ltb_spec Lo L) as [B''|B'']; try reflexivity. exfalso. destruct H as [H|H]; [auto|lia].
Qed.
Lemma inverse_unknown_method gl name s flm L spin method nside o reality Lo :
  setting name s L nside o -> 0 <= Lo < L -> shape flm = [L; 2 * L - 1] -> (s = GL -> vlen (gl_nodes gl L) = L) ->
  ~ sum_method method -> ~ fft_method method ->
  inverse_ gl flm L spin name method o reality Lo = Err KeyError.
Proof.
  intros (Hd & HL & Hn) HLo Hf Hg N1 N2. unfold inverse_. rewrite Hf. change (flm_shape L) with [L; 2 * L - 1]. rewrite shape_is_refl.
  replace (0 <? L) with true by lia. replace ((0 <=? Lo) && (Lo <? L)) with true by lia. cbn [assert_ bind].
  destruct (thetas_top gl name s L nside o Hd HL Hn Hg) as (ths & -> & Hl & Hth). cbn [bind].
  unfold sum_method, fft_method in *.
  assert (NE : forall k, method <> k -> streq method k = false) by (intros k; apply String.eqb_neq).
  rewrite !NE by tauto. reflexivity.
Qed.
Lemma forward_unknown_method gl name s f L spin method nside o reality Lo :
  setting name s L nside o -> 0 <= Lo < L -> shape f = map_shape s L nside -> rule_sizes s L (gl_nodes gl L) (gl_weights gl L) ->
  ~ sum_method method -> ~ fft_method method ->
  forward_ gl f L spin name method o reality Lo = Err KeyError.
Proof.
  intros (Hd & HL & Hn) HLo Hf Hg N1 N2. unfold forward_. rewrite (f_shape_ok name s L nside o Hd ltac:(intros Q; apply (Hn Q))). cbn [bind].
  rewrite Hf, shape_is_refl. replace (0 <? L) with true by lia. replace ((0 <=? Lo) && (Lo <? L)) with true by lia. cbn [assert_ bind].
  destruct (prepare_ok gl name s f L spin nside o Hd HL Hn Hg Hf) as (f' & ths & w & -> & _). cbn [bind].
  unfold sum_method, fft_method in *.
  assert (NE : forall k, method <> k -> streq method k = false) by (intros k; apply String.eqb_neq).
  rewrite !NE by tauto. reflexivity.
Qed.
