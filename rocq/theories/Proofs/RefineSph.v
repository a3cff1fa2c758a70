(** Iterative refinement of the reference spherical transforms. *)
From Coq Require Import Reals ZifyBool Lra.
From Coquelicot Require Import Complex.
From Verif Require Import Lib.Py Lib.PyFacts Lib.Vec Lib.VecFacts Lib.Sums Lib.Cplx Lib.Arr Lib.ArrFacts Lib.MatFacts
  Model.Index Model.Samples Model.Grids Model.FFT Model.Quadrature Model.Spherical Model.Refine
  Spec.SamplesSpec Spec.WignerSpec Spec.SphereSpec Spec.GridSpec Spec.HealpixFFTSpec Spec.SphericalSpec Spec.QuadSpec Spec.RefineSpec
  Proofs.SphGrid Proofs.SphereTheory Proofs.SphInverse Proofs.SphTop Proofs.SphForward Proofs.SphForwardTop Proofs.SphRound Proofs.SphFacts Proofs.SphMore
  Proofs.WignerReal Proofs.RefineProofs.
Open Scope string_scope.
Open Scope Z_scope.

Lemma Cconj_minus a b : Cconj (a - b)%C = (Cconj a - Cconj b)%C.
Proof. unfold Cconj. apply injective_projections; cbn; ring. Qed.
Lemma real_RtoC x : is_real (RtoC x).
Proof. reflexivity. Qed.
Lemma band_limited_lin L s (x y : C) F G : band_limited L s F -> band_limited L s G -> band_limited L s (fun th ph => x * F th ph + y * G th ph)%C.
Proof.
  intros (a & A1 & A2) (b & B1 & B2). exists (fun k m => x * a k m + y * b k m)%C. split.
  - intros k m Hk Hm. rewrite A1, B1 by auto. ring.
  - intros th ph. rewrite A2, B2, <- !cs_scal_l, <- cs_plus. apply cr_ext. intros k Hk. rewrite <- !cs_scal_l, <- cs_plus. apply cr_ext. intros m Hm. ring.
Qed.
Lemma holds_lin nodes s L nside x y f g h F G : s = MW \/ s = MWSS -> combination x y f g h ->
  holds_samples nodes s L nside f F -> holds_samples nodes s L nside g G ->
  holds_samples nodes s L nside h (fun th ph => x * F th ph + y * G th ph)%C.
Proof.
  intros Hs (C1 & C2 & C3) (S1 & H1) (S2 & H2). split; [congruence|]. intros t p th Ht Hp Hth.
  rewrite C3, (H1 t p th Ht Hp Hth), (H2 t p th Ht Hp Hth). reflexivity.
  rewrite <- C1, S1. destruct Hs as [-> | ->]; cbn [map_shape sample_index ring_size in_shape] in *; auto.
Qed.
Lemma maps_space nodes s L nside spin reality : array_space (map_shape s L nside) (maps_of nodes s L nside spin reality).
Proof.
  split; [now intros a (H & _)|]. intros x y a b c (Sa & Ra) (Sb & Rb) HC. pose proof HC as (C1 & C2 & C3). split; [congruence|]. intros Q1 Q2.
  specialize (Ra Q1 Q2). specialize (Rb Q1 Q2).
  assert (M : s = MW \/ s = MWSS -> real_map nodes s L nside spin c).
  { intros Q. assert (E : real_map nodes s L nside spin = fun f => exists F, represented nodes s L nside spin f F /\ forall theta phi, is_real (F theta phi))
      by (destruct Q as [-> | ->]; reflexivity). rewrite E in *. destruct Ra as (F & (HF & BF) & RF), Rb as (G & (HG & BG) & RG).
    exists (fun th ph => RtoC x * F th ph + RtoC y * G th ph)%C. split; [split|].
    - now apply (holds_lin nodes s L nside (RtoC x) (RtoC y) a b c).
    - intros _. apply band_limited_lin; auto.
    - intros th ph. apply real_plus; apply real_mult; auto using real_RtoC. }
  assert (M2 : s <> MW -> s <> MWSS -> real_map nodes s L nside spin c).
  { intros N1 N2. assert (E : real_map nodes s L nside spin = fun f => forall ix, in_shape (shape f) ix -> is_real (get f ix))
      by (destruct s; try congruence; reflexivity). rewrite E in *. intros ix Hix. rewrite C3 by auto.
    apply real_plus; apply real_mult; auto using real_RtoC; [apply Ra|apply Rb]; congruence. }
  destruct s; (apply M; auto; fail) || (apply M2; discriminate).
Qed.
Lemma coefficients_space L spin reality : array_space [L; 2 * L - 1] (coefficients_of L spin reality).
Proof.
  split; [now intros a (H & _)|]. intros x y a b c (Sa & Ra) (Sb & Rb) HC. pose proof HC as (C1 & C2 & C3).
  assert (Sc : shape c = [L; 2 * L - 1]) by congruence. split; [exact Sc|]. intros Q1 Q2 el m Hel Hm.
  rewrite (stored_comb L x y a b c el (- m)), (stored_comb L x y a b c el m) by (assumption || lia). rewrite (Ra Q1 Q2), (Rb Q1 Q2) by auto. rewrite Cconj_plus, !Cconj_mult, !Cconj_R. ring.
Qed.

Section Sph.
  Variables (gl : gl_rule) (s : scheme) (L spin Lo nside : Z) (o : option Z) (reality : bool).
  Hypothesis (S : setting (scheme_name s) s L nside o) (HLo : 0 <= Lo < L) (Hg : rule_sizes s L (gl_nodes gl L) (gl_weights gl L))
    (Hh : s = HEALPIX -> 2 * nside <= L) (Ha : rings_away (vat (gl_nodes gl L)) s L nside) (Hfa : forward_rings_away (vat (gl_nodes gl L)) s L nside).
  Notation F := (fun f => forward_ gl f L spin (scheme_name s) "sov_fft_vectorized" o reality Lo).
  Notation B := (fun flm => inverse_ gl flm L spin (scheme_name s) "sov_fft_vectorized" o reality Lo).
  Notation P := (maps_of (vat (gl_nodes gl L)) s L nside spin reality).
  Notation Q := (coefficients_of L spin reality).

  Lemma fwd_allowed : forward_allowed (scheme_name s) "sov_fft_vectorized" s L nside.
  Proof using Hh. right. split; [right; reflexivity|]. auto. Qed.
  Lemma inv_allowed flm : Q flm -> method_allowed (scheme_name s) "sov_fft_vectorized" s L nside spin reality flm.
  Proof using Hh. intros (_ & H). right. split; [right; reflexivity|]. split; [reflexivity|]. split; [exact Hh|]. intros Q1 Q2 el Hel. apply (herm_real L); auto. Qed.
  Lemma forward_map : linear_map P Q F.
  Proof using S HLo Hg Hh Hfa.
    split.
    - intros f (Sf & Rf). destruct (forward_mask gl (scheme_name s) s f L spin "sov_fft_vectorized" nside o reality Lo S HLo Sf Hg Hfa fwd_allowed Rf) as (flm & E & Sm & _).
      exists flm. split; [exact E|]. split; [exact Sm|]. intros Q1 Q2.
      destruct (forward_real gl (scheme_name s) s f L "sov_fft_vectorized" nside o Lo S HLo Sf Hg Hfa fwd_allowed) as (a & b & Ea & _ & _ & Hh').
      { rewrite <- Q2. now apply Rf. }
      rewrite Q1, Q2 in E. assert (a = flm) by congruence. now subst a.
    - intros x y a b c (Sa & Ra) (Sb & Rb) (Sc & Rc) HC.
      apply (forward_linear gl (scheme_name s) s L spin "sov_fft_vectorized" nside o reality Lo (RtoC x) (RtoC y) a b c); auto using fwd_allowed.
      intros Q1 Q2. auto using real_RtoC.
  Qed.
  Lemma inverse_map : linear_map Q P B.
  Proof using S HLo Hg Hh Ha. clear Hfa.
    assert (Hg' : s = GL -> vlen (gl_nodes gl L) = L) by (intros E; apply (Hg E)).
    split.
    - intros flm Qm. pose proof Qm as (Sm & Rm).
      destruct (synthesis_lemma gl (scheme_name s) s flm L spin "sov_fft_vectorized" nside o reality Lo S HLo Sm Hg' Ha (inv_allowed flm Qm)) as (f & E & HF).
      exists f. split; [exact E|]. split; [exact (proj1 HF)|]. intros Q1 Q2.
      assert (M : s = MW \/ s = MWSS -> real_map (vat (gl_nodes gl L)) s L nside spin f).
      { intros QQ. assert (EE : real_map (vat (gl_nodes gl L)) s L nside spin = fun f => exists F, represented (vat (gl_nodes gl L)) s L nside spin f F /\ forall theta phi, is_real (F theta phi))
          by (destruct QQ as [-> | ->]; reflexivity). rewrite EE. eexists. split; [split; [exact HF|intros _; apply synth_band_limited]|].
        intros th ph. subst spin. apply synth_real. intros el m Hel Hm. rewrite !(used_herm L) by (auto; lia). now apply (above_herm L Lo _ (Rm Q1 eq_refl)). }
      assert (M2 : s <> MW -> s <> MWSS -> real_map (vat (gl_nodes gl L)) s L nside spin f).
      { intros N1 N2. assert (EE : real_map (vat (gl_nodes gl L)) s L nside spin = fun f => forall ix, in_shape (shape f) ix -> is_real (get f ix))
          by (destruct s; try congruence; reflexivity). rewrite EE.
        destruct (inverse_real gl (scheme_name s) s flm L "sov_fft_vectorized" nside o Lo S HLo Sm Hg' Ha) as (a & b & Ea & _ & _ & HR).
        - right. split; [right; reflexivity|]. auto.
        - auto.
        - rewrite Q1, Q2 in E. assert (a = f) by congruence. now subst a. }
      destruct s; (apply M; auto; fail) || (apply M2; discriminate).
    - intros x y a b c Qa Qb Qc HC.
      apply (inverse_linear gl (scheme_name s) s L spin "sov_fft_vectorized" nside o reality Lo (RtoC x) (RtoC y) a b c); auto using inv_allowed, real_RtoC.
      apply Qc.
  Qed.

  Lemma forward_iter_refine f n : 0 <= n -> forward_iter gl f L spin (scheme_name s) o reality Lo n = refine f n F B.
  Proof.
    clear. intros Hn. unfold forward_iter. destruct (Z.eqb_spec n 0) as [->|]; [|reflexivity]. now rewrite refine_0 by lia.
  Qed.

  (** exact schemes: iterations change nothing *)
  Lemma iter_exact f c n : s <> HEALPIX -> (s = GL -> gauss_legendre L (gl_nodes gl L) (gl_weights gl L)) -> 0 <= n ->
    (reality = true -> spin = 0 -> hermitian L c) -> holds_samples (vat (gl_nodes gl L)) s L nside f (synth L spin c) ->
    exists flm, forward_iter gl f L spin (scheme_name s) o reality Lo n = Ok flm /\ holds_coefficients L flm (restricted Lo spin c).
  Proof using S HLo Hg Hh Ha Hfa.
    intros Hs HG Hn Hr HF. rewrite forward_iter_refine by auto. revert n Hn.
    assert (REC : forall f c, (reality = true -> spin = 0 -> hermitian L c) -> holds_samples (vat (gl_nodes gl L)) s L nside f (synth L spin c) ->
      exists flm, F f = Ok flm /\ holds_coefficients L flm (restricted Lo spin c)).
    { intros f' c' Hr' HF'. apply (recover_lemma gl (scheme_name s) s f' L spin "sov_fft_vectorized" nside o reality Lo c'); auto using fwd_allowed. }
    assert (HR0 : reality = true -> spin = 0 -> hermitian L (restricted Lo spin c)).
    { intros Q1 Q2 el m Hel Hm. unfold restricted. rewrite Z.abs_opp. destruct (_ && _); [now apply Hr|rewrite Cconj_R; ring]. }
    refine (natlike_ind _ _ _).
    - rewrite refine_0 by lia. now apply REC.
    - intros n Hn (y & Ey & Sy & Hy). unfold Z.succ. rewrite refine_succ by lia. rewrite Ey. cbn [bind]. unfold refine_step.
      assert (Qy : Q y).
      { split; [exact Sy|]. intros Q1 Q2 el m Hel Hm. rewrite !Hy by lia. now apply HR0. }
      destruct (synthesis_lemma gl (scheme_name s) s y L spin "sov_fft_vectorized" nside o reality Lo S HLo Sy) as (b & Eb & Sb & Hb); auto using inv_allowed.
      { intros E. apply (Hg E). }
      rewrite Eb. cbn [bind]. unfold asub. rewrite shape_is_true by (rewrite Sb; apply HF). cbn [bind]. set (e := mkArr _ _).
      destruct (REC e (fun l m => c l m - restricted Lo spin c l m)%C) as (d & Ed & Sd & Hd).
      { intros Q1 Q2 el m Hel Hm. rewrite (Hr Q1 Q2), (HR0 Q1 Q2) by auto. rewrite Cconj_minus. ring. }
      { split; [exact (proj1 HF)|]. intros t p x Ht Hp Hx. cbn [e get]. rewrite (proj2 HF t p x), (Hb t p x) by auto.
        rewrite (synth_lin L spin (RtoC 1) (RtoC (-1)) c (restricted Lo spin c) (fun l m => c l m - restricted Lo spin c l m)%C).
        2: { intros l m Hl Hm. rewrite RtoC_m1. ring. }
        rewrite RtoC_m1. unfold Cminus. rewrite Cmult_1_l. f_equal. rewrite (synth_ext L spin _ (restricted Lo spin c)); [ring|].
        intros l m Hl Hm. rewrite (used_herm L) by (try (intros Q1 Q2; apply Qy; auto); lia). unfold above. rewrite Hy by lia. unfold restricted.
        destruct (Z.ltb_spec l Lo); [|reflexivity]. replace (Z.max Lo (Z.abs spin) <=? l) with false by lia. reflexivity. }
      rewrite Ed. cbn [bind]. unfold aadd. rewrite shape_is_true by congruence. eexists. split; [reflexivity|]. split; [exact Sy|].
      intros el m Hel Hm. unfold stored. cbn [get]. fold (stored L y el m) (stored L d el m). rewrite Hy, Hd by auto. unfold restricted.
      destruct (_ && _); ring.
  Qed.
End Sph.
