(** The forward Wigner transform of real signals. *)
From Coq Require Import Reals ZifyBool Lra.
From Coquelicot Require Import Complex.
From Verif Require Import Lib.Py Lib.PyFacts Lib.Vec Lib.VecFacts Lib.Sums Lib.Cplx Lib.Arr Lib.ArrFacts Lib.MatFacts
  Model.Index Model.Samples Model.Grids Model.FFT Model.HealpixFFT Model.Turok Model.Resampling Model.Quadrature Model.Spherical Model.Wigner
  Spec.SamplesSpec Spec.WignerSpec Spec.SphereSpec Spec.GridSpec Spec.HealpixFFTSpec Spec.SphericalSpec Spec.QuadSpec Spec.SO3Spec
  Proofs.SamplesProofs Proofs.GridProofs Proofs.PixelProofs Proofs.TurokProofs Proofs.HealpixDFTProofs Proofs.SphGrid
  Proofs.WignerCalc Proofs.SphereTheory Proofs.SphInverse Proofs.SphTop Proofs.SphForward Proofs.SphForwardTop Proofs.SphRound Proofs.SphFacts
  Proofs.WignerInverse Proofs.WignerForward Proofs.WignerRound.
Open Scope string_scope.
Open Scope Z_scope.

Lemma fsum_conj_spin g w v v' n el m : (forall t p, in_grid g t p -> v' t p = Cconj (v t p)) ->
  fsum g n w v' el (- m) = (RtoC (sgn (m + n)) * Cconj (fsum g (- n) w v el m))%C.
Proof.
  intros Hv. unfold fsum. rewrite csum_conj, <- cs_scal_l. apply cr_ext. intros t Ht.
  rewrite Cconj_mult, Cconj_R, csum_conj.
  assert (D : wigner_d el (- m) (- n) (gth g t) = (sgn (m + n) * wigner_d el m (- - n) (gth g t))%R).
  { rewrite Z.opp_involutive. destruct (Z_le_dec (Z.abs m) el) as [B|B]; [destruct (Z_le_dec (Z.abs n) el) as [B'|B']|].
    - rewrite wig_flip by lia. now rewrite sgn_sub, sgn_add.
    - rewrite !wig_out by lia. ring.
    - rewrite !wig_out by lia. ring. }
  rewrite D, sgn_opp. transitivity (RtoC (sgn (m + n)) * (RtoC (vat w t * sgn n * elfactor el * wigner_d el m (- - n) (gth g t)) *
    csum (zrange 0 (gN g t)) (fun p => Cconj (cis (- (IZR m * gph g t p)) * v t p))))%C; [|reflexivity].
  rewrite Cmult_assoc, <- RtoC_mult. f_equal; [f_equal; ring|].
  apply cr_ext. intros p Hp. rewrite Cconj_mult, cis_conj, Hv by now split. f_equal. f_equal. rewrite opp_IZR. ring.
Qed.
Lemma band_limited_opp L s F : band_limited L s F -> band_limited L (- s) F.
Proof.
  intros (a & H1 & H2). exists a. split; [|exact H2]. intros k m Hk Hm. rewrite H1 by auto. now rewrite !sgn_add, sgn_opp.
Qed.
Lemma band_limited_scal L s (x : C) F : band_limited L s F -> band_limited L s (fun th ph => x * F th ph)%C.
Proof.
  intros (a & H1 & H2). exists (fun k m => x * a k m)%C. split.
  - intros k m Hk Hm. rewrite H1 by auto. ring.
  - intros th ph. rewrite H2, <- cs_scal_l. apply cr_ext. intros k Hk. rewrite <- cs_scal_l. apply cr_ext. intros m Hm. ring.
Qed.
Lemma arr_two {T} (a : ndarray T) n m ix : shape a = [n; m] -> in_shape (shape a) ix -> exists i j, ix = [i; j] /\ 0 <= i < n /\ 0 <= j < m.
Proof. intros -> H. destruct ix as [|i [|j [|k ix]]]; cbn [in_shape] in H; try tauto. exists i, j. tauto. Qed.
Lemma fvals_ext gl s L nside spin f f' t p : 1 <= L -> (s = HEALPIX -> 1 <= nside) -> shape f = map_shape s L nside -> shape f' = map_shape s L nside ->
  (forall ix, sample_ix s L nside ix -> get f ix = get f' ix) -> in_grid (fgrid gl s L nside) t p ->
  fvals s L nside spin f t p = fvals s L nside spin f' t p.
Proof.
  intros HL Hn Sf Sf' H IG.
  destruct s eqn:ES; try (cbn [fvals]; apply H; exists t, p; destruct IG as (I1 & I2); cbn [fgrid the_grid equi_grid gn gN] in I1, I2; cbn [rings ring_size]; repeat split; auto; tauto);
    (transitivity (RtoC 1 * fvals s L nside spin f' t p + RtoC 0 * fvals s L nside spin f' t p)%C; [rewrite ES|rewrite ES; ring];
     apply (fvals_lin gl); auto; split; [congruence|]; split; [congruence|]; intros ix Hix;
     destruct (arr_two _ _ _ ix Sf Hix) as (i & j & -> & Hi & Hj); rewrite H by (exists i, j; auto); ring).
Qed.

Section Real.
  Variables (gl : gl_rule) (s : scheme) (L N Lo nside : Z) (o : option Z) (f : ndarray C).
  Hypothesis (S : setting (scheme_name s) s L nside o) (HN : 1 <= N) (HLo : 0 <= Lo < L)
    (Hg : rule_sizes s L (gl_nodes gl L) (gl_weights gl L))
    (Ha : forward_rings_away (vat (gl_nodes gl L)) s L nside) (Hh : s = HEALPIX -> 2 * nside <= L)
    (Hf : shape f = 2 * N - 1 :: map_shape s L nside).
  Notation compA n := (mkArr (map_shape s L nside) (comp N f n)).
  Definition X3 (w : vec R) (n el m : Z) : C :=
    (RtoC (sgn n) * (if Z.max Lo (Z.abs n) <=? el then fsum (fgrid gl s L nside) (- n) w (fvals s L nside (- n) (compA n)) el m else RtoC 0))%C.

  Lemma wigner_analysis reality w : quad_weights_transform gl L (fname (scheme_name s) s) 0 o = Ok w ->
    (reality = true -> forall g ix, 0 <= g < 2 * N - 1 -> sample_ix s L nside ix -> is_real (get f (g :: ix))) ->
    (reality = true -> forall t p, in_grid (fgrid gl s L nside) t p -> is_real (fvals s L nside 0 (compA 0) t p)) ->
    exists flmn, wigner_forward gl f L N Lo (scheme_name s) reality o = Ok flmn /\
      holds_coefficients3 L N flmn (fun n el m => out3 reality (X3 w) n el m * RtoC (norm3 el))%C.
  Proof using S HN HLo Hg Ha Hh Hf.
    intros Ew RE RV. assert (Hn1 : s = HEALPIX -> 1 <= nside) by (intros Q; apply (proj2 (proj2 S) Q)).
    apply (wigner_forward_assemble gl s L N Lo nside o reality f S HN Hf (X3 w)).
    intros n Hn. destruct (fban3_plane s L N nside reality f HN Hf RE n Hn) as (p & Ep & Sp & Gp).
    assert (FE : forall sp t q, in_grid (fgrid gl s L nside) t q -> fvals s L nside sp p t q = fvals s L nside sp (compA n) t q).
    { intros sp t q IG. apply (fvals_ext gl); auto. apply S. }
    destruct (analysis_lemma gl (scheme_name s) s p L (- n) "sov_fft_vectorized" nside o reality Lo) as (w' & q & Ew' & Eq & Sq & Gq); auto.
    { right. split; [right; reflexivity|]. auto. }
    { intros Q1 Q2 t q IG. assert (Q3 : n = 0) by lia. clear Q2. subst n. change (- 0) with 0. rewrite FE by auto. now apply RV. }
    assert (w' = w) by congruence. subst w'.
    exists p, q. split; [exact Ep|]. split; [exact Eq|]. split; [exact Sq|]. intros el m Hel Hm. rewrite Gq by auto. unfold X3.
    rewrite Cmult_assoc, <- RtoC_mult, sgn_sq, Cmult_1_l, Z.abs_opp. destruct (_ <=? el); [|reflexivity]. apply fsum_ext. intros t r IG. now apply FE.
  Qed.

  Lemma real_samples : so3_real_map (vat (gl_nodes gl L)) s L N nside f -> rings_away (vat (gl_nodes gl L)) s L nside ->
    forall g ix, 0 <= g < 2 * N - 1 -> sample_ix s L nside ix -> is_real (get f (g :: ix)).
  Proof using S Hf.
    clear Hh Hg Ha.
    intros HR Hra g ix Hgg (t & p & Ht & Hp & ->). assert (Hn1 : s = HEALPIX -> 1 <= nside) by (intros Q; apply (proj2 (proj2 S) Q)).
    assert (HL := proj1 (proj2 S)).
    assert (M : s = MW \/ s = MWSS -> is_real (get f (g :: sample_index s nside t p))).
    { intros Q. assert (H' : exists F, so3_holds (vat (gl_nodes gl L)) s L N nside f F /\ so3_band_limited L N F /\ forall a b g, is_real (F a b g))
        by (destruct Q as [-> | ->]; exact HR). destruct H' as (F & (_ & HF) & _ & HFr).
      rewrite (HF g t p (th_of gl s L nside t)) by (auto; now apply th_of_colat). apply HFr. }
    assert (M2 : s <> MW -> s <> MWSS -> is_real (get f (g :: sample_index s nside t p))).
    { intros N1 N2. assert (H' : forall ix, in_shape (shape f) ix -> is_real (get f ix)) by (destruct s; try congruence; exact HR). apply H'.
      rewrite Hf. split; [exact Hgg|]. rewrite <- (the_grid_sh gl s L nside), <- (the_grid_e gl s L nside). eapply go_sh; [|].
      - apply (the_grid_ok gl (scheme_name s) s L nside (Some nside) (mkVec (rings s L nside) (th_of gl s L nside))); auto; now destruct s.
      - split; destruct s; auto. }
    destruct s; (apply M; auto; fail) || (apply M2; discriminate).
  Qed.

  Lemma comp_conj : so3_real_map (vat (gl_nodes gl L)) s L N nside f -> rings_away (vat (gl_nodes gl L)) s L nside ->
    forall n t p, - N < n < N -> in_grid (fgrid gl s L nside) t p ->
      fvals s L nside n (compA (- n)%Z) t p = Cconj (fvals s L nside (- n) (compA n) t p).
  Proof using S HN Ha Hf.
    clear Hh Hg.
    intros HR Hra n t p Hn IG. assert (Hn1 : s = HEALPIX -> 1 <= nside) by (intros Q; apply (proj2 (proj2 S) Q)).
    assert (HL := proj1 (proj2 S)).
    assert (M : s = MW \/ s = MWSS -> fvals s L nside n (compA (- n)%Z) t p = Cconj (fvals s L nside (- n) (compA n) t p)).
    { intros Q. assert (H' : exists F, so3_holds (vat (gl_nodes gl L)) s L N nside f F /\ so3_band_limited L N F /\ forall a b g, is_real (F a b g))
        by (destruct Q as [-> | ->]; exact HR). destruct H' as (F & (_ & HF) & (Fn & HB & HE) & HFr).
      assert (RP : forall k, - N < k < N -> represented (vat (gl_nodes gl L)) s L nside (- k) (compA k) (fun th ph => RtoC (2 * PI) * Fn k th ph)%C).
      { intros k Hk. split; [|intros _; apply band_limited_opp, band_limited_scal, HB; auto]. split; [reflexivity|]. intros t' p' x Ht' Hp' Hx. cbn [get].
        apply (comp_fourier N f k _ (fun k => Fn k x (longitude s L nside t' p'))); auto. intros g Hgg. rewrite (HF g t' p' x) by auto. rewrite HE.
        apply cr_ext. intros j Hj. now rewrite gamma_root. }
      assert (CJ : forall th ph, Fn (- n)%Z th ph = Cconj (Fn n th ph)).
      { intros th ph.
        assert (FV : forall k, - N < k < N -> comp N (mkArr [2 * N - 1] (fun ix => F ph th (2 * PI * IZR (hd 0%Z ix) / IZR (2 * N - 1)))%R) k [] = (RtoC (2 * PI) * Fn k th ph)%C).
        { intros k Hk. apply (comp_fourier N _ k [] (fun k => Fn k th ph)); auto. intros g Hgg. cbn [get hd]. rewrite HE. apply cr_ext. intros j Hj. now rewrite gamma_root. }
        pose proof (FV n ltac:(lia)) as E1. pose proof (FV (- n) ltac:(lia)) as E2. rewrite comp_real in E2 by (intros; apply HFr).
        rewrite E1, Cconj_mult, Cconj_R in E2. assert (P := PI_RGT_0).
        transitivity (RtoC (/ (2 * PI)) * (RtoC (2 * PI) * Fn (- n)%Z th ph))%C.
        - rewrite Cmult_assoc, <- RtoC_mult, Rinv_l by lra. ring.
        - rewrite <- E2, Cmult_assoc, <- RtoC_mult, Rinv_l by lra. ring. }
      rewrite (fvals_signal gl s L nside (- n) (compA n) _ t p HL Hn1 Ha (RP n Hn) IG).
      pose proof (RP (- n) ltac:(lia)) as RPn. rewrite Z.opp_involutive in RPn.
      rewrite (fvals_signal gl s L nside n (compA (- n)%Z) _ t p HL Hn1 Ha RPn IG). rewrite CJ, Cconj_mult, Cconj_R. reflexivity. }
    assert (M2 : s <> MW -> s <> MWSS -> fvals s L nside n (compA (- n)%Z) t p = Cconj (fvals s L nside (- n) (compA n) t p)).
    { intros N1 N2. assert (E : forall sp g, fvals s L nside sp g t p = get g (sample_index s nside t p)) by (intros; destruct s; try congruence; reflexivity).
      rewrite !E. cbn [get]. apply comp_real. intros g Hgg. apply real_samples; auto. exists t, p. destruct IG as (I1 & I2).
      assert (GE : fgrid gl s L nside = the_grid gl s L nside) by (destruct s; try congruence; reflexivity). rewrite GE in *. destruct s; auto. }
    destruct s; (apply M; auto; fail) || (apply M2; discriminate).
  Qed.

  (** With the flag and without it the transform returns the same coefficients. *)
  Lemma wigner_forward_real : so3_real_map (vat (gl_nodes gl L)) s L N nside f -> rings_away (vat (gl_nodes gl L)) s L nside ->
    exists a b, wigner_forward gl f L N Lo (scheme_name s) true o = Ok a /\ wigner_forward gl f L N Lo (scheme_name s) false o = Ok b /\
      arr_eq a b /\ hermitian3 L N (stored3 L N a).
  Proof using S HN HLo Hg Ha Hh Hf.
    intros HR Hra. destruct S as (Hd & HL & Hns).
    destruct (weights_ok gl (scheme_name s) s L nside o Hd HL Hns) as (w & Ew & _). { intros Q. apply (Hg Q). }
    assert (XC : forall n el m, - N < n < N -> X3 w (- n) el (- m) = (RtoC (sgn (m + n)) * Cconj (X3 w n el m))%C).
    { intros n el m Hn. unfold X3. rewrite Z.abs_opp, sgn_opp, Cconj_mult, Cconj_R. destruct (_ <=? el); [|rewrite Cconj_R; ring].
      rewrite Z.opp_involutive. rewrite (fsum_conj_spin _ _ (fvals s L nside (- n) (compA n))) by (intros; now apply comp_conj). ring. }
    destruct (wigner_analysis true w Ew) as (a & Ea & Sa & Gaa).
    { intros _. apply real_samples; auto. }
    { intros _ t p IG. pose proof (comp_conj HR Hra 0 t p ltac:(lia) IG) as Q. change (- 0) with 0 in Q. 
      destruct (fvals s L nside 0 (compA 0) t p) as [x y]. unfold is_real, Im, Cconj in *. cbn in *. injection Q. lra. }
    destruct (wigner_analysis false w Ew) as (b & Eb & Sb & Gb); try discriminate.
    exists a, b. split; [exact Ea|]. split; [exact Eb|].
    assert (OUT : forall n el m, - N < n < N -> out3 true (X3 w) n el m = X3 w n el m).
    { intros n el m Hn. unfold out3. cbn [andb]. destruct (n <? 0); [|reflexivity].
      rewrite XC by lia. rewrite Cconj_mult, Cconj_R, Cconj_conj, Cmult_assoc, <- RtoC_mult, sgn_sq. ring. }
    split.
    - apply (holds_same3 L N a b (fun n el m => X3 w n el m * RtoC (norm3 el))%C).
      + split; [exact Sa|]. intros n el m H1 H2 H3. rewrite Gaa, OUT by auto. reflexivity.
      + split; [exact Sb|]. intros n el m H1 H2 H3. rewrite Gb by auto. reflexivity.
    - intros n l m Hn Hl Hm. rewrite !Gaa, !OUT, XC by lia. rewrite Cconj_mult, Cconj_R. ring.
  Qed.
End Real.

(** ** Equality of signals *)
Lemma so3_cover (gl : gl_rule) s L N nside o ix : setting (scheme_name s) s L nside o -> in_shape (2 * N - 1 :: map_shape s L nside) ix ->
  exists g t p, ix = g :: sample_index s nside t p /\ 0 <= g < 2 * N - 1 /\ 0 <= t < rings s L nside /\ 0 <= p < ring_size s L nside t.
Proof.
  intros (Hd & HL & Hn) Hix. destruct ix as [|g ix]; [cbn in Hix; tauto|]. destruct Hix as (Hg & Hix).
  assert (G := the_grid_ok gl (scheme_name s) s L nside o (mkVec (rings s L nside) (th_of gl s L nside)) Hd HL Hn eq_refl ltac:(reflexivity)).
  rewrite <- (the_grid_sh gl s L nside) in Hix. destruct (go_cov _ _ _ _ _ G ix Hix) as (t & p & (I1 & I2) & ->).
  exists g, t, p. rewrite the_grid_e. split; [reflexivity|]. split; [exact Hg|]. destruct s; auto.
Qed.
Lemma so3_holds_eq gl s L N nside o f f' F F' : setting (scheme_name s) s L nside o -> rings_away (vat (gl_nodes gl L)) s L nside ->
  so3_holds (vat (gl_nodes gl L)) s L N nside f F -> so3_holds (vat (gl_nodes gl L)) s L N nside f' F' ->
  (forall a b g, F a b g = F' a b g) -> arr_eq f f'.
Proof.
  intros S Hra (S1 & G1) (S2 & G2) E. split; [congruence|]. intros ix Hix. rewrite S1 in Hix.
  destruct (so3_cover gl s L N nside o ix S Hix) as (g & t & p & -> & Hg & Ht & Hp).
  assert (Hn1 : s = HEALPIX -> 1 <= nside) by (intros Q; apply (proj2 (proj2 S) Q)).
  assert (HC := th_of_colat gl s L nside t Hn1 Ht Hra). rewrite (G1 g t p _ Hg Ht Hp HC), (G2 g t p _ Hg Ht Hp HC). apply E.
Qed.
Lemma so3_synth_ext L N c c' alpha beta gamma : (forall n l m, - N < n < N -> Z.abs n <= l < L -> - l <= m <= l -> c n l m = c' n l m) ->
  so3_synth L N c alpha beta gamma = so3_synth L N c' alpha beta gamma.
Proof.
  intros H. apply cr_ext. intros n Hn. apply cr_ext. intros l Hl. apply cr_ext. intros m Hm. now rewrite H by lia.
Qed.
Lemma wigner_inverse_same gl s flmn flmn' L N Lo Lo' nside o reality reality' :
  setting (scheme_name s) s L nside o -> 1 <= N -> 0 <= Lo < L -> 0 <= Lo' < L ->
  shape flmn = [2 * N - 1; L; 2 * L - 1] -> shape flmn' = [2 * N - 1; L; 2 * L - 1] ->
  (s = GL -> vlen (gl_nodes gl L) = L) -> (s = HEALPIX -> 2 * nside <= L) -> rings_away (vat (gl_nodes gl L)) s L nside ->
  (reality = true -> forall l, 0 <= l < L -> is_real (stored3 L N flmn 0 l 0)) ->
  (reality' = true -> forall l, 0 <= l < L -> is_real (stored3 L N flmn' 0 l 0)) ->
  (forall n l m, - N < n < N -> Z.abs n <= l < L -> - l <= m <= l ->
     used3 reality Lo (stored3 L N flmn) n l m = used3 reality' Lo' (stored3 L N flmn') n l m) ->
  exists f f', wigner_inverse gl flmn L N Lo (scheme_name s) reality o = Ok f /\
    wigner_inverse gl flmn' L N Lo' (scheme_name s) reality' o = Ok f' /\ arr_eq f f'.
Proof.
  intros S HN HLo HLo' Hf Hf' Hg Hh Ha Hr Hr' HC.
  destruct (wigner_inverse_lemma gl s L N Lo nside o reality flmn S HN HLo Hf Hg Hh Ha Hr) as (f & E & HF).
  destruct (wigner_inverse_lemma gl s L N Lo' nside o reality' flmn' S HN HLo' Hf' Hg Hh Ha Hr') as (f' & E' & HF').
  exists f, f'. split; [exact E|]. split; [exact E'|]. apply (so3_holds_eq gl s L N nside o f f' _ _ S Ha HF HF').
  intros a b g. apply so3_synth_ext, HC.
Qed.
Lemma used3_herm L N Lo c n l m reality : hermitian3 L N c -> - N < n < N -> Z.abs n <= l < L -> - l <= m <= l ->
  used3 reality Lo c n l m = used3 false Lo c n l m.
Proof. intros H Hn Hl Hm. unfold used3. destruct (l <? Lo); [reflexivity|]. destruct reality; [|reflexivity]. now apply (real_ext3 L N). Qed.
Lemma herm3_real L N c l : 1 <= N -> hermitian3 L N c -> 0 <= l < L -> is_real (c 0 l 0).
Proof.
  intros HN H Hl. specialize (H 0 l 0 ltac:(lia) ltac:(lia) ltac:(lia)). change (- 0) with 0 in H. change (sgn (0 + 0)) with 1%R in H.
  destruct (c 0 l 0) as [x y]. unfold is_real, Im, Cconj, RtoC, Cmult in *. cbn in *. injection H. lra.
Qed.
Lemma wigner_inverse_real gl s flmn L N Lo nside o :
  setting (scheme_name s) s L nside o -> 1 <= N -> 0 <= Lo < L -> shape flmn = [2 * N - 1; L; 2 * L - 1] ->
  (s = GL -> vlen (gl_nodes gl L) = L) -> (s = HEALPIX -> 2 * nside <= L) -> rings_away (vat (gl_nodes gl L)) s L nside ->
  hermitian3 L N (stored3 L N flmn) ->
  exists f f', wigner_inverse gl flmn L N Lo (scheme_name s) true o = Ok f /\
    wigner_inverse gl flmn L N Lo (scheme_name s) false o = Ok f' /\ arr_eq f f' /\ forall ix, in_shape (shape f) ix -> is_real (get f ix).
Proof.
  intros S HN HLo Hf Hg Hh Ha Hr.
  assert (HR : forall l, 0 <= l < L -> is_real (stored3 L N flmn 0 l 0)) by (intros; now apply (herm3_real L N)).
  destruct (wigner_inverse_same gl s flmn flmn L N Lo Lo nside o true false S HN HLo HLo Hf Hf Hg Hh Ha) as (f & f' & E & E' & Q); auto.
  { intros n l m Hn Hl Hm. now apply (used3_herm L N). }
  exists f, f'. split; [exact E|]. split; [exact E'|]. split; [exact Q|].
  destruct (wigner_inverse_lemma gl s L N Lo nside o true flmn S HN HLo Hf Hg Hh Ha ltac:(auto)) as (f1 & E1 & S1 & G1).
  assert (f1 = f) by congruence. subst f1. rewrite S1. intros ix Hix.
  destruct (so3_cover gl s L N nside o ix S Hix) as (g & t & p & -> & Hgg & Ht & Hp).
  assert (Hn1 : s = HEALPIX -> 1 <= nside) by (intros Q'; apply (proj2 (proj2 S) Q')).
  rewrite (G1 g t p _ Hgg Ht Hp (th_of_colat gl s L nside t Hn1 Ht Ha)). apply so3_synth_real.
  intros n l m Hn Hl Hm. unfold C3. rewrite !(used3_herm L N _ _ _ _ _ true) by (auto; lia). unfold used3.
  destruct (l <? Lo); [rewrite Cconj_R; ring|]. now apply Hr.
Qed.

(** ** Rejected arguments *)
Lemma wigner_inverse_rejects gl flmn L N Lo name reality o : shape flmn <> [2 * N - 1; L; 2 * L - 1] ->
  wigner_inverse gl flmn L N Lo name reality o = Err AssertionError.
Proof.
  intros H. unfold wigner_inverse. destruct (shape_is (shape flmn) (flmn_shape L N)) eqn:E; [|reflexivity].
  apply shape_is_eq in E. contradiction.
Qed.
Lemma wigner_forward_rejects gl s f L N Lo nside o reality : setting (scheme_name s) s L nside o ->
  shape f <> 2 * N - 1 :: map_shape s L nside -> wigner_forward gl f L N Lo (scheme_name s) reality o = Err AssertionError.
Proof.
  intros S H. unfold wigner_forward. rewrite (so3_shape s L N nside o S). cbn [bind].
  destruct (shape_is (shape f) (2 * N - 1 :: map_shape s L nside)) eqn:E; [|reflexivity]. apply shape_is_eq in E. contradiction.
Qed.
Lemma part3_band_limited L n c : band_limited L (- n) (fun th ph => part3 L n c ph th).
Proof.
  destruct (band_limited_scal L (- n) (RtoC (sgn n)) _ (synth_band_limited L (- n) (fun l m => RtoC (so3_scale l) * c l m)%C)) as (a & H1 & H2).
  exists a. split; [exact H1|]. intros th ph. rewrite <- component. apply H2.
Qed.
