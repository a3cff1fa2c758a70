(** Round trips and real signals on the rotation group. *)
From Coq Require Import Reals ZifyBool Lra.
From Coquelicot Require Import Complex.
From Verif Require Import Lib.Py Lib.PyFacts Lib.Vec Lib.VecFacts Lib.Sums Lib.Cplx Lib.Arr Lib.ArrFacts Lib.MatFacts
  Model.Index Model.Samples Model.Grids Model.FFT Model.HealpixFFT Model.Turok Model.Resampling Model.Quadrature Model.Spherical Model.Wigner
  Spec.SamplesSpec Spec.WignerSpec Spec.SphereSpec Spec.GridSpec Spec.HealpixFFTSpec Spec.SphericalSpec Spec.QuadSpec Spec.SO3Spec
  Proofs.SamplesProofs Proofs.GridProofs Proofs.PixelProofs Proofs.TurokProofs Proofs.HealpixDFTProofs Proofs.SphGrid
  Proofs.WignerCalc Proofs.SphereTheory Proofs.SphInverse Proofs.SphTop Proofs.SphForward Proofs.SphForwardTop Proofs.SphRound Proofs.SphFacts
  Proofs.WignerInverse Proofs.WignerForward.
Open Scope string_scope.
Open Scope Z_scope.

Lemma comp_fourier N f n ix (A : Z -> C) : 1 <= N -> - N < n < N ->
  (forall g, 0 <= g < 2 * N - 1 -> get f (g :: ix) = csum (zrange (- (N - 1)) N) (fun k => A k * root (2 * N - 1) (k * g)))%C ->
  comp N f n ix = (RtoC (2 * PI) * A n)%C.
Proof.
  intros HN Hn H. unfold comp.
  transitivity (RtoC (2 * PI / IZR (2 * N - 1)) * csum (zrange 0 (2 * N - 1)) (fun p =>
     csum (zrange (- (N - 1)) (- (N - 1) + (2 * N - 1))) (fun j => A j * root (2 * N - 1) (j * p)) * root (2 * N - 1) (- (n * p))))%C.
  - f_equal. apply cr_ext. intros g Hg. rewrite H by auto. replace (- (N - 1) + (2 * N - 1)) with N by lia. reflexivity.
  - rewrite dft_inversion by lia. rewrite Cmult_assoc, <- RtoC_mult. f_equal. f_equal. field. apply not_0_IZR. lia.
Qed.
Lemma comp_real N f n ix : (forall g, 0 <= g < 2 * N - 1 -> is_real (get f (g :: ix))) -> comp N f (- n) ix = Cconj (comp N f n ix).
Proof.
  intros H. unfold comp. rewrite Cconj_mult, Cconj_R, csum_conj. f_equal. apply cr_ext. intros g Hg.
  rewrite Cconj_mult, (real_conj (get f (g :: ix))) by auto. f_equal. rewrite <- root_opp. f_equal. lia.
Qed.
Lemma scale_norm l : 0 <= l -> (2 * PI * so3_scale l * norm3 l = 1)%R.
Proof.
  intros Hl. assert (P := PI_RGT_0). assert (Hl' : (0 < IZR (2 * l + 1))%R) by (apply IZR_lt; lia). unfold so3_scale, norm3.
  rewrite Rmult_assoc, <- sqrt_mult_alt.
  2: { apply Rmult_le_pos; [lra|]. left. apply Rinv_0_lt_compat. apply Rmult_lt_0_compat; [lra|]. apply pow_lt. lra. }
  replace (IZR (2 * l + 1) / (16 * PI ^ 3) * (4 * PI / IZR (2 * l + 1)))%R with (Rsqr (/ (2 * PI))).
  - rewrite sqrt_Rsqr; [field; lra|]. left. apply Rinv_0_lt_compat. lra.
  - unfold Rsqr. field. lra.
Qed.
Lemma so3_synth_real L N c alpha beta gamma : hermitian3 L N c -> is_real (so3_synth L N c alpha beta gamma).
Proof.
  intros H. rewrite so3_synth_parts.
  set (T := fun n => (part3 L n (c n) alpha beta * cis (IZR n * gamma))%C).
  assert (E : Cconj (csum (zrange (- (N - 1)) N) T) = csum (zrange (- (N - 1)) N) T).
  { rewrite csum_conj. rewrite <- (cr_perm (- (N - 1)) N (- (N - 1)) N Z.opp) by lia. apply cr_ext. intros n Hn. unfold T.
    rewrite Cconj_mult, cis_conj, opp_IZR. f_equal.
    - rewrite <- (part3_conj L (- n) (c (- n)%Z) (c n)); [now rewrite Z.opp_involutive|]. intros l m Hl Hm.
      rewrite <- (H (- n) l m) by lia. now rewrite Z.opp_involutive.
    - f_equal. ring. }
  destruct (csum _ T) as [x y]. unfold Cconj, is_real, Im in *. cbn in *. injection E as E. lra.
Qed.

Lemma holds_same3 L N a b c : holds_coefficients3 L N a c -> holds_coefficients3 L N b c -> arr_eq a b.
Proof.
  intros (S1 & H1) (S2 & H2). split; [congruence|]. intros ix Hix. rewrite S1 in Hix.
  destruct ix as [|i [|j [|k [|l ix]]]]; cbn [in_shape] in Hix; try tauto.
  specialize (H1 (i - N + 1) j (k - L + 1)). specialize (H2 (i - N + 1) j (k - L + 1)). unfold stored3 in *.
  replace (i - N + 1 + N - 1) with i in * by lia. replace (k - L + 1 + L - 1) with k in * by lia. rewrite H1, H2 by lia. reflexivity.
Qed.

Lemma real_ext3 L N c n l m : hermitian3 L N c -> - N < n < N -> Z.abs n <= l < L -> - l <= m <= l -> real_extension3 c n l m = c n l m.
Proof.
  intros H Hn Hl Hm. unfold real_extension3. destruct (_ || _); [|reflexivity].
  rewrite (H n l m) by auto. rewrite Cconj_mult, Cconj_R, Cconj_conj, Cmult_assoc, <- RtoC_mult, sgn_sq. ring.
Qed.

Section Round.
  Variables (gl : gl_rule) (s : scheme) (L N Lo nside : Z) (o : option Z).
  Hypothesis (S : setting (scheme_name s) s L nside o) (HN : 1 <= N) (HLo : 0 <= Lo < L)
    (Hg : rule_sizes s L (gl_nodes gl L) (gl_weights gl L))
    (Ha : forward_rings_away (vat (gl_nodes gl L)) s L nside).

  (** the forward transform recovers the coefficients *)
  Lemma wigner_recover reality f c : s <> HEALPIX -> (s = GL -> gauss_legendre L (gl_nodes gl L) (gl_weights gl L)) ->
    rings_away (vat (gl_nodes gl L)) s L nside -> (reality = true -> hermitian3 L N c) ->
    so3_holds (vat (gl_nodes gl L)) s L N nside f (so3_synth L N c) ->
    exists flmn, wigner_forward gl f L N Lo (scheme_name s) reality o = Ok flmn /\ holds_coefficients3 L N flmn (restricted3 Lo c).
  Proof using S HN HLo Hg Ha.
    intros Hs HG Hra Hr (Sf & Gf).
    assert (Hn1 : s = HEALPIX -> 1 <= nside) by (intros; congruence).
    assert (AT : forall t p, 0 <= t < rings s L nside -> 0 <= p < ring_size s L nside t -> forall x, colatitude (vat (gl_nodes gl L)) s L nside t x ->
      forall g, 0 <= g < 2 * N - 1 -> get f (g :: sample_index s nside t p)
        = csum (zrange (- (N - 1)) N) (fun n => part3 L n (c n) (longitude s L nside t p) x * root (2 * N - 1) (n * g))%C).
    { intros t p Ht Hp x Hx g Hgg. rewrite (Gf g t p x) by auto. rewrite so3_synth_parts. apply cr_ext. intros n Hn. now rewrite gamma_root. }
    assert (RE : reality = true -> forall g ix, 0 <= g < 2 * N - 1 -> sample_ix s L nside ix -> is_real (get f (g :: ix))).
    { intros Q g ix Hgg (t & p & Ht & Hp & ->). rewrite (Gf g t p (th_of gl s L nside t)); auto; [|now apply th_of_colat]. now apply so3_synth_real, Hr. }
    set (X := fun n el m => (RtoC (sgn n) * restricted Lo (- n) (fun l m => RtoC (2 * PI * sgn n) * (RtoC (so3_scale l) * c n l m)) el m)%C).
    destruct (wigner_forward_assemble gl s L N Lo nside o reality f S HN Sf X) as (a & E & Sa & Gaa).
    - intros n Hn. destruct (fban3_plane s L N nside reality f HN Sf RE n Hn) as (p & Ep & Sp & Gp).
      destruct (recover_lemma gl (scheme_name s) s p L (- n) "sov_fft_vectorized" nside o reality Lo
        (fun l m => RtoC (2 * PI * sgn n) * (RtoC (so3_scale l) * c n l m))%C) as (q & Eq & Sq & Gq); auto.
      { right. split; [right; reflexivity|]. split; [auto|]. intros; congruence. }
      { intros Q1 Q2 el m Hel Hm. assert (Q3 : n = 0) by lia. clear Q2. subst n.
        rewrite !Cconj_mult, !Cconj_R. replace (c 0 el (- m)%Z) with (RtoC (sgn m) * Cconj (c 0 el m))%C; [ring|].
        pose proof (Hr Q1 0 el m ltac:(lia) ltac:(lia) ltac:(lia)) as Q4. change (- 0) with 0 in Q4. rewrite Q4. now rewrite Z.add_0_r. }
      { split; [exact Sp|]. intros t q x Ht Hq Hx. rewrite Gp by (exists t, q; auto).
        rewrite (comp_fourier N f n _ (fun k => part3 L k (c k) (longitude s L nside t q) x)) by (auto; destruct reality; lia).
        rewrite <- component, Cmult_assoc, <- RtoC_mult. unfold synth. rewrite <- cs_scal_l. apply cr_ext. intros l Hl. rewrite <- cs_scal_l. apply cr_ext. intros m Hm. ring. }
      exists p, q. split; [exact Ep|]. split; [exact Eq|]. split; [exact Sq|]. intros el m Hel Hm. rewrite Gq by auto. unfold X.
      rewrite Cmult_assoc, <- RtoC_mult, sgn_sq. ring.
    - exists a. split; [exact E|]. split; [exact Sa|]. intros n el m H1 H2 H3. rewrite Gaa by auto.
      assert (XV : forall n m, - N < n < N -> (X n el m * RtoC (norm3 el) = restricted3 Lo c n el m)%C).
      { intros k q Hk. unfold X, restricted, restricted3. rewrite Z.abs_opp. destruct (_ && _); [|ring].
        transitivity (RtoC (sgn k * sgn k) * RtoC (2 * PI * so3_scale el * norm3 el) * c k el q)%C; [rewrite !RtoC_mult; ring|].
        rewrite sgn_sq, scale_norm by lia. ring. }
      unfold out3. destruct (reality && (n <? 0)) eqn:Q; [|now apply XV].
      apply andb_prop in Q. destruct Q as (Q1 & Q2).
      transitivity (RtoC (sgn (m + n)) * Cconj (X (- n)%Z el (- m)%Z * RtoC (norm3 el)))%C; [rewrite Cconj_mult, Cconj_R; ring|].
      rewrite XV by lia. unfold restricted3. rewrite !Z.abs_opp. destruct ((Z.max Lo (Z.abs n) <=? el) && (Z.abs m <=? el)) eqn:B; [|rewrite Cconj_R; ring].
      rewrite (Hr Q1 n el m) by lia. rewrite Cconj_mult, Cconj_R, Cconj_conj, Cmult_assoc, <- RtoC_mult, sgn_sq. ring.
  Qed.
  Lemma wigner_roundtrip reality flmn : s <> HEALPIX -> (s = GL -> gauss_legendre L (gl_nodes gl L) (gl_weights gl L)) ->
    rings_away (vat (gl_nodes gl L)) s L nside -> shape flmn = [2 * N - 1; L; 2 * L - 1] ->
    (reality = true -> hermitian3 L N (stored3 L N flmn)) ->
    exists f flmn', wigner_inverse gl flmn L N Lo (scheme_name s) reality o = Ok f /\
      wigner_forward gl f L N Lo (scheme_name s) reality o = Ok flmn' /\
      holds_coefficients3 L N flmn' (restricted3 Lo (stored3 L N flmn)).
  Proof using S HN HLo Hg Ha.
    intros Hs HG Hra Hf Hr.
    destruct (wigner_inverse_lemma gl s L N Lo nside o reality flmn S HN HLo Hf) as (f & E & Hfs); auto.
    { intros Q. destruct (Hg Q). auto. }
    { intros; congruence. }
    { intros Q l Hl. pose proof (Hr Q 0 l 0 ltac:(lia) ltac:(lia) ltac:(lia)) as H. change (- 0) with 0 in H. change (sgn (0 + 0)) with 1%R in H.
      destruct (stored3 L N flmn 0 l 0) as [x y]. unfold is_real, Im, Cconj, RtoC, Cmult in *. cbn in *. injection H. lra. }
    destruct (wigner_recover reality f (C3 L N Lo reality flmn) Hs HG Hra) as (a & E' & Sa & Gaa); auto.
    { intros Q n l m Hn Hl Hm. unfold C3, used3. destruct (l <? Lo) eqn:B; [rewrite Cconj_R; ring|]. rewrite Q.
      rewrite !(real_ext3 L N) by (auto; lia). exact (Hr Q n l m Hn Hl Hm). }
    exists f, a. split; [exact E|]. split; [exact E'|]. split; [exact Sa|]. intros n el m H1 H2 H3. rewrite Gaa by auto.
    unfold restricted3, C3, used3. destruct ((Z.max Lo (Z.abs n) <=? el) && (Z.abs m <=? el)) eqn:B; [|reflexivity].
    replace (el <? Lo) with false by lia. destruct reality; [|reflexivity]. apply (real_ext3 L N); auto; lia.
  Qed.
End Round.
