(** The gradients of the front end of pyssht with the weights of the code. *)
From Coq Require Import Reals Lra Lia.
From Coquelicot Require Import Complex.
From Verif Require Import Lib.Py Lib.PyFacts Lib.Vec Lib.Sums Lib.Cplx Lib.Arr Lib.MatFacts Model.Index Model.Samples Model.Grids Model.Turok
  Model.Quadrature Model.QuadratureJax Model.Spherical Model.OTF Model.OTFSpherical Model.CBackend Spec.IndexSpec Spec.WignerSpec Spec.SamplesSpec
  Spec.SphereSpec Spec.GridSpec Spec.QuadSpec
  Spec.HealpixFFTSpec Spec.SphericalSpec Spec.CBackendSpec Proofs.SphTop Proofs.SphForward Proofs.SphFacts Proofs.CBackendSsht Proofs.CBackendGrad
  Proofs.CBackendWeights Proofs.CBackendLib Proofs.CBackendTop.
From Coq Require Import List.
Import ListNotations.
Open Scope string_scope.
Open Scope Z_scope.

Lemma csum_le {X} (l : list X) (f : X -> C) (g : X -> R) : (forall x, In x l -> (Cmod (f x) <= g x)%R) -> (Cmod (csum l f) <= rsum l g)%R.
Proof.
  induction l as [|a l IH]; intros H.
  - cbn. rewrite Cmod_0. lra.
  - cbn. eapply Rle_trans; [apply Cmod_triangle|]. apply Rplus_le_compat; [apply H; now left|]. apply IH. intros x Hx. apply H. now right.
Qed.
Lemma code_weights gl turns s L : s <> HEALPIX -> 1 <= L -> weights_found gl turns s L ->
  exists q, (s = DH \/ s = GL -> quad_weights_transform_jax gl turns L (lower (method_name s)) None = Ok q /\ vlen q = rings s L 0) /\
    (s = DH \/ s = GL -> forall t, 0 <= t < rings s L 0 -> vat q t <> 0%R) /\
    forall t, 0 <= t < rings s L 0 -> (Rabs (ratio (library_weight (vat (gl_weights gl L)) s L) s q t - 1) <= gradient_error s L)%R.
Proof.
  intros Hs HL HW. destruct s; try congruence.
  1,2: exists (vconst 0 0%R); split; [intros [Q|Q]; discriminate Q|]; split; [intros [Q|Q]; discriminate Q|]; intros t Ht; cbn [ratio gradient_error];
    replace (1 - 1)%R with 0%R by ring; rewrite Rabs_R0; lra.
  - destruct (dh_code gl turns L HL) as (q & E & El & H). exists q. split; [auto|]. split.
    + intros _ t Ht. destruct (H t (vat (gl_weights gl L)) Ht). lra.
    + intros t Ht. cbn [ratio gradient_error]. destruct (H t (vat (gl_weights gl L)) Ht) as [<- P]. unfold Rdiv. rewrite Rinv_r by lra.
      replace (1 - 1)%R with 0%R by ring. rewrite Rabs_R0. lra.
  - destruct (HW eq_refl) as (G & H1 & H2). destruct (gl_code gl turns L) as (q & E & El & H); auto.
    exists q. split; [auto|]. split; intros; [destruct (H t ltac:(auto)); lra|]. now apply H.
Qed.
Lemma ratio_bound s L (r : Z -> R) e (f g : ndarray C) : (forall t, 0 <= t < rings s L 0 -> (Rabs (r t - 1) <= e)%R) ->
  (Cmod (over_samples s L (fun t u => RtoC (r t) * (get f [t; u] * get g [t; u])) - pair_samples s L f g) <= e * abs_samples s L f g)%C%R.
Proof.
  intros H. unfold over_samples, pair_samples, over_samples, abs_samples. rewrite <- cs_minus. rewrite <- rs_scal_l. apply csum_le. intros t Ht. apply in_zrange in Ht.
  rewrite <- cs_minus. rewrite <- rs_scal_l. apply csum_le. intros u Hu.
  replace (RtoC (r t) * (get f [t; u] * get g [t; u]) - get f [t; u] * get g [t; u])%C with (RtoC (r t - 1) * (get f [t; u] * get g [t; u]))%C by (rewrite RtoC_minus; ring).
  rewrite !Cmod_mult, Cmod_R. apply Rmult_le_compat_r; [apply Rmult_le_pos; apply Cmod_ge_0|]. now apply H.
Qed.

Section B.
  Variables (gl : gl_rule) (s : scheme) (L spin : Z) (p : pyssht) (turns : nat).
  Hypothesis (Hs : s <> HEALPIX) (HL : 1 <= L) (HW : weights_found gl turns s L).
  Notation nodes := (vat (gl_nodes gl L)).
  Notation k := (scheme_number s).
  Hypothesis K : ssht_contract nodes (library_weight (vat (gl_weights gl L)) s L) s L spin p.
  Lemma colats : forall t, 0 <= t < rings s L 0 -> colatitude nodes s L 0 t (th_of gl s L 0 t).
  Proof. intros t Ht. apply th_of_is; auto. intros Q. apply (HW Q). Qed.
  Lemma bwd_inverse b ct : shape ct = map_shape s L 0 ->
    exists g, ssht_inverse_bwd (Some p) gl turns L spin false k b ct = Ok g /\ shape g = [L; 2 * L - 1] /\
      forall flm f, shape flm = [L; 2 * L - 1] -> ssht_inverse (Some p) flm L spin false k b = Ok f ->
      (Cmod (pair_coefficients L g flm - pair_samples s L ct f) <= gradient_error s L * abs_samples s L ct f)%C%R.
  Proof.
    intros Sc. destruct (code_weights gl turns s L Hs HL HW) as (q & Q1 & _ & Q3).
    assert (E : forall flm f, shape flm = [L; 2 * L - 1] -> ssht_inverse (Some p) flm L spin false k b = Ok f ->
      exists g, ssht_inverse_bwd (Some p) gl turns L spin false k b ct = Ok g /\ shape g = [L; 2 * L - 1] /\
      pair_coefficients L g flm = over_samples s L (fun t u => (RtoC (ratio (library_weight (vat (gl_weights gl L)) s L) s q t) * (get ct [t; u] * get f [t; u]))%C))
      by (intros flm f Sf Ef; eapply (inverse_bwd_complex nodes _ s L spin p (th_of gl s L 0)); eauto; apply colats).
    set (z := mat L (2 * L - 1) (fun _ _ => RtoC 0)).
    destruct (ssht_inverse_complex nodes _ s L spin p Hs HL K z b eq_refl) as (f0 & Ef0 & _).
    destruct (E z f0 eq_refl Ef0) as (g & Eg & Sg & _). exists g. split; [exact Eg|]. split; [exact Sg|].
    intros flm f Sf Ef. destruct (E flm f Sf Ef) as (g' & Eg' & _ & P). rewrite Eg in Eg'. injection Eg' as <-. rewrite P. now apply ratio_bound.
  Qed.
  Lemma Re_le (z : C) : (Rabs (Re z) <= Cmod z)%R.
  Proof. eapply Rle_trans; [apply Rmax_l|apply Rmax_Cmod]. Qed.
  Lemma bwd_inverse_real b ct : spin = 0 -> Z.even L = true -> shape ct = map_shape s L 0 -> all_real ct ->
    exists g, ssht_inverse_bwd (Some p) gl turns L spin true k b ct = Ok g /\ shape g = [L; 2 * L - 1] /\
      forall flm f, shape flm = [L; 2 * L - 1] -> ssht_inverse (Some p) flm L spin true k b = Ok f ->
      (Rabs (Re (pair_coefficients L g flm) - Re (pair_samples s L ct f)) <= gradient_error s L * abs_samples s L ct f)%R.
  Proof.
    intros H0 He Sc Rc. destruct (code_weights gl turns s L Hs HL HW) as (q & Q1 & _ & Q3).
    assert (E : forall flm f, shape flm = [L; 2 * L - 1] -> ssht_inverse (Some p) flm L spin true k b = Ok f ->
      exists g, ssht_inverse_bwd (Some p) gl turns L spin true k b ct = Ok g /\ shape g = [L; 2 * L - 1] /\
      RtoC (Re (pair_coefficients L g flm)) = over_samples s L (fun t u => (RtoC (ratio (library_weight (vat (gl_weights gl L)) s L) s q t) * (get ct [t; u] * get f [t; u]))%C))
      by (intros flm f Sf Ef; eapply (inverse_bwd_real nodes _ s L spin p (th_of gl s L 0)); eauto; apply colats).
    set (z := mat L (2 * L - 1) (fun _ _ => RtoC 0)).
    destruct (ssht_inverse_real nodes _ s L spin p Hs HL K z b H0 eq_refl) as (f0 & Ef0 & _).
    destruct (E z f0 eq_refl Ef0) as (g & Eg & Sg & _). exists g. split; [exact Eg|]. split; [exact Sg|].
    intros flm f Sf Ef. destruct (E flm f Sf Ef) as (g' & Eg' & _ & P). rewrite Eg in Eg'. injection Eg' as <-.
    eapply Rle_trans; [|apply (ratio_bound s L _ _ ct f Q3)]. rewrite <- P. eapply Rle_trans; [|apply Re_le]. apply Req_le. f_equal.
  Qed.
  Lemma bwd_forward b ct : shape ct = [L; 2 * L - 1] ->
    exists g, ssht_forward_bwd (Some p) gl turns L spin false k b ct = Ok g /\ shape g = map_shape s L 0 /\
      forall f x, shape f = map_shape s L 0 -> ssht_forward (Some p) f L spin false k b = Ok x ->
      (Cmod (pair_coefficients L ct x - pair_samples s L g f) <= gradient_error s L * abs_samples s L g f)%C%R.
  Proof.
    intros Sc. destruct (code_weights gl turns s L Hs HL HW) as (q & Q1 & Q2 & Q3).
    assert (E : forall f x, shape f = map_shape s L 0 -> ssht_forward (Some p) f L spin false k b = Ok x ->
      exists g, ssht_forward_bwd (Some p) gl turns L spin false k b ct = Ok g /\ shape g = map_shape s L 0 /\
      over_samples s L (fun t u => (RtoC (ratio (library_weight (vat (gl_weights gl L)) s L) s q t) * (get g [t; u] * get f [t; u]))%C) = pair_coefficients L ct x)
      by (intros f x Sf Ef; eapply (forward_bwd_complex nodes _ s L spin p (th_of gl s L 0)); eauto; apply colats).
    set (z := mkArr (map_shape s L 0) (fun _ => RtoC 0)).
    assert (Z0 : holds_samples nodes s L 0 z (synth L spin (fun _ _ => RtoC 0))).
    { split; [reflexivity|]. intros. symmetry. apply cr_0. intros. apply cr_0. intros. ring. }
    destruct (ssht_forward_complex nodes _ s L spin p Hs HL K z _ b Z0) as (f0 & Ef0 & _).
    destruct (E z f0 eq_refl Ef0) as (g & Eg & Sg & _). exists g. split; [exact Eg|]. split; [exact Sg|].
    intros f x Sf Ef. destruct (E f x Sf Ef) as (g' & Eg' & _ & P). rewrite Eg in Eg'. injection Eg' as <-. rewrite <- P. now apply ratio_bound.
  Qed.
  (** the forward transform with the reality flag *)
  Lemma bwd_forward_real b ct : spin = 0 -> shape ct = [L; 2 * L - 1] -> hermitian L (stored L ct) ->
    exists g, ssht_forward_bwd (Some p) gl turns L spin true k b ct = Ok g /\ shape g = map_shape s L 0 /\
      forall f x, shape f = map_shape s L 0 -> all_real f -> ssht_forward (Some p) f L spin true k b = Ok x ->
      (Cmod (pair_coefficients L ct x - pair_samples s L g f) <= gradient_error s L * abs_samples s L g f)%C%R.
  Proof.
    intros H0 Sc Hc. destruct (bwd_forward b ct Sc) as (g & Eg & Sg & B).
    destruct (code_weights gl turns s L Hs HL HW) as (q & Q1 & Q2 & Q3).
    destruct (forward_bwd_same nodes _ s L spin p (th_of gl s L 0) Hs HL K colats gl turns q Q1 b ct H0 Sc Hc) as (a & a' & Ea & Ea' & ES & EE).
    rewrite Eg in Ea'. injection Ea' as <-. exists a. split; [exact Ea|]. split; [congruence|]. intros f x Sf Rf Ex.
    destruct (ssht_forward_real nodes _ s L spin p Hs HL K f b H0 Sf Rf) as (x1 & x2 & E1 & E2 & XS & XE). rewrite Ex in E1. injection E1 as <-.
    specialize (B f x2 Sf E2).
    assert (Sx2 : shape x2 = [L; 2 * L - 1]) by (destruct (tri_of_forward nodes _ s L spin p Hs HL K f b x2 Sf E2) as (_ & _ & _ & X & _); exact X).
    assert (P1 : pair_coefficients L ct x = pair_coefficients L ct x2).
    { unfold pair_coefficients. apply cr_ext. intros l Hl. apply cr_ext. intros c Hcc. f_equal. apply XE. rewrite XS, Sx2. cbn [in_shape]. lia. }
    assert (GA : forall t u, 0 <= t < rings s L 0 -> 0 <= u < per_ring s L -> get a [t; u] = get g [t; u]).
    { intros t u Ht Hu. apply EE. rewrite ES, Sg, map_shape_equi by auto. cbn [in_shape]. lia. }
    rewrite P1. rewrite (pair_samples_ext s L a f g f GA) by auto.
    replace (abs_samples s L a f) with (abs_samples s L g f); [exact B|]. unfold abs_samples. apply rr_ext. intros t Ht. apply rr_ext. intros u Hu. now rewrite GA.
  Qed.
End B.
