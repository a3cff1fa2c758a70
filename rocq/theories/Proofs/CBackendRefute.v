(** Gradients of the front end of pyssht that are wrong. *)
From Coq Require Import Reals Lra Lia.
From Coquelicot Require Import Complex.
From Verif Require Import Lib.Py Lib.PyFacts Lib.Vec Lib.Sums Lib.Cplx Lib.Arr Lib.MatFacts Model.Index Model.Samples Model.Grids Model.Turok
  Model.Quadrature Model.QuadratureJax Model.Spherical Model.OTF Model.OTFSpherical Model.Wigner Model.OTFWigner Model.CBackend Spec.IndexSpec Spec.WignerSpec Spec.SamplesSpec
  Spec.SphereSpec Spec.GridSpec Spec.QuadSpec
  Spec.HealpixFFTSpec Spec.SphericalSpec Spec.CBackendSpec Proofs.SphTop Proofs.SphForward Proofs.SphFacts Proofs.SphMore Proofs.CBackendSsht Proofs.CBackendGrad
  Proofs.CBackendWeights Proofs.CBackendLib Proofs.CBackendTop Proofs.CBackendBound.
From Coq Require Import List.
Import ListNotations.
Open Scope string_scope.
Open Scope Z_scope.

Lemma coefficients_unique nodes w s L spin p f c c' l m : ssht_contract nodes w s L spin p -> holds_samples nodes s L 0 f (synth L spin c) ->
  holds_samples nodes s L 0 f (synth L spin c') -> Z.abs spin <= l < L -> - l <= m <= l -> c l m = c' l m.
Proof.
  intros K H H' Hl Hm. destruct (forward_defined _ _ _ _ _ _ K "SSHT" f (proj1 H)) as (x & Ex & _).
  pose proof (proj2 (forward_recovers _ _ _ _ _ _ K "SSHT" f x c H Ex) l m ltac:(lia) Hm) as E1.
  pose proof (proj2 (forward_recovers _ _ _ _ _ _ K "SSHT" f x c' H' Ex) l m ltac:(lia) Hm) as E2. rewrite E1 in E2. unfold restricted in E2.
  destruct (Z.leb_spec (Z.max 0 (Z.abs spin)) l), (Z.leb_spec (Z.abs m) l); try lia. exact E2.
Qed.
Lemma squares_zero s L f : (forall t u, 0 <= t < rings s L 0 -> 0 <= u < per_ring s L -> is_real (get f [t; u])) -> Re (pair_samples s L f f) = 0%R ->
  forall t u, 0 <= t < rings s L 0 -> 0 <= u < per_ring s L -> get f [t; u] = RtoC 0.
Proof.
  intros Hr H t u Ht Hu.
  assert (NN : forall (l : list Z) g, (forall x, In x l -> (0 <= g x)%R) -> (0 <= rsum l g)%R).
  { intros l g. induction l as [|a l IH]; intros Hg; cbn; [lra|]. apply Rplus_le_le_0_compat; [apply Hg; now left|apply IH; intros; apply Hg; now right]. }
  assert (Z0 : forall (l : list Z) g, (forall x, In x l -> (0 <= g x)%R) -> rsum l g = 0%R -> forall x, In x l -> g x = 0%R).
  { intros l g. induction l as [|a l IH]; intros Hg E x Hx; [easy|]. change (g a + rsum l g = 0)%R in E.
    pose proof (NN l g ltac:(intros; apply Hg; now right)). pose proof (Hg a ltac:(now left)). destruct Hx as [<-|Hx]; [lra|]. apply IH; auto; [intros; apply Hg; now right|lra]. }
  assert (RS : forall (l : list Z) h, Re (csum l h) = rsum l (fun x => Re (h x))).
  { intros l h. induction l as [|a l IH]; [reflexivity|]. change (Re (h a + csum l h)%C = Re (h a) + rsum l (fun x => Re (h x)))%R. rewrite <- IH. reflexivity. }
  unfold pair_samples, over_samples in H. rewrite RS in H.
  assert (SQ : forall t u, 0 <= t < rings s L 0 -> 0 <= u < per_ring s L -> Re (get f [t; u] * get f [t; u])%C = (Re (get f [t; u]) * Re (get f [t; u]))%R).
  { intros t' u' Ht' Hu'. pose proof (Hr t' u' Ht' Hu') as Q. destruct (get f [t'; u']) as [a b]. unfold is_real in Q. cbn in *. rewrite Q. ring. }
  assert (H1 : rsum (zrange 0 (per_ring s L)) (fun u => Re (get f [t; u] * get f [t; u])%C) = 0%R).
  { rewrite <- RS. apply (Z0 _ (fun t => Re (csum (zrange 0 (per_ring s L)) (fun p => get f [t; p] * get f [t; p])%C))) with (2 := H); [|now apply in_zrange].
    intros x Hx. apply in_zrange in Hx. rewrite RS. apply NN. intros y Hy. apply in_zrange in Hy. rewrite SQ by auto. nra. }
  assert (H2 : Re (get f [t; u] * get f [t; u])%C = 0%R).
  { apply (Z0 _ (fun u => Re (get f [t; u] * get f [t; u])%C)) with (2 := H1); [|now apply in_zrange].
    intros y Hy. apply in_zrange in Hy. rewrite SQ by auto. nra. }
  rewrite SQ in H2 by auto. pose proof (Hr t u Ht Hu) as Q. destruct (get f [t; u]) as [a b]. unfold is_real in Q. cbn in *. unfold RtoC. f_equal; [nra|exact Q].
Qed.

(** one coefficient *)
Definition single (L l0 m0 : Z) (z : C) : ndarray C := mat L (2 * L - 1) (fun l c => if (l =? l0) && (c =? m0 + L - 1) then z else RtoC 0).
Lemma single_stored L l0 m0 z l m : stored L (single L l0 m0 z) l m = if (l =? l0) && (m =? m0) then z else RtoC 0.
Proof. unfold stored, single, mat. cbn [get nth]. destruct (Z.eqb_spec l l0); cbn [andb]; auto. destruct (Z.eqb_spec (m + L - 1) (m0 + L - 1)), (Z.eqb_spec m m0); try lia; reflexivity. Qed.

Section R.
  Variables (gl : gl_rule) (s : scheme) (L : Z) (p : pyssht) (turns : nat).
  Hypothesis (Hs : s <> HEALPIX) (HL : 2 <= L) (HW : weights_found gl turns s L).
  Notation nodes := (vat (gl_nodes gl L)).
  Notation k := (scheme_number s).
  Hypothesis K : ssht_contract nodes (library_weight (vat (gl_weights gl L)) s L) s L 0 p.

  Lemma pair_single g l0 m0 z : 0 <= l0 < L -> - L < m0 < L -> pair_coefficients L g (single L l0 m0 z) = (stored L g l0 m0 * z)%C.
  Proof.
    intros Hl Hm. unfold pair_coefficients. transitivity (csum (zrange 0 L) (fun l => if l =? l0 then stored L g l0 m0 * z else RtoC 0)%C).
    - apply cr_ext. intros l Hl'. rewrite csum_cols. destruct (Z.eqb_spec l l0) as [->|N].
      + transitivity (csum (zrange (- L + 1) L) (fun m => if m =? m0 then stored L g l0 m0 * z else RtoC 0)%C).
        * apply cr_ext. intros m Hm'. fold (stored L (single L l0 m0 z) l0 m). rewrite single_stored. rewrite Z.eqb_refl. cbn [andb].
          destruct (Z.eqb_spec m m0) as [->|]; [reflexivity|ring].
        * rewrite (cr_delta (- L + 1) L m0 (fun _ => stored L g l0 m0 * z)%C) by lia. reflexivity.
      + apply cr_0. intros m Hm'. fold (stored L (single L l0 m0 z) l m). rewrite single_stored. destruct (Z.eqb_spec l l0); [lia|]. cbn [andb]. ring.
    - rewrite (cr_delta 0 L l0 (fun _ => stored L g l0 m0 * z)%C) by lia. reflexivity.
  Qed.

  Theorem odd_wrong b : Z.even L = false -> exists flm f g, shape flm = [L; 2 * L - 1] /\ ssht_inverse (Some p) flm L 0 true k b = Ok f /\ all_real f /\
    ssht_inverse_bwd (Some p) gl turns L 0 true k b f = Ok g /\ Re (pair_coefficients L g flm) = 0%R /\ (0 < Re (pair_samples s L f f))%R.
  Proof.
    intros He. set (flm := single L 1 1 (RtoC 1)).
    destruct (ssht_inverse_real nodes _ s L 0 p Hs ltac:(lia) K flm b eq_refl eq_refl) as (f & Ef & HF).
    assert (Th := colats gl s L turns Hs HW).
    assert (Rf : all_real f).
    { intros ix Hix. destruct HF as [Sf Hf]. rewrite Sf, map_shape_equi in Hix by auto. destruct ix as [|t [|u [|]]]; cbn [in_shape] in Hix; try easy.
      specialize (Hf t u (th_of gl s L 0 t)). rewrite sample_equi, ring_equi in Hf by auto. rewrite Hf by (try apply Th; tauto). apply real_synth. }
    destruct (code_weights gl turns s L Hs ltac:(lia) HW) as (q & Q1 & Q2 & Q3).
    destruct (inverse_bwd_odd nodes _ s L 0 p (th_of gl s L 0) Hs ltac:(lia) K Th gl turns q Q1 b f eq_refl He (proj1 HF) Rf) as (g & Eg & Hg).
    exists flm, f, g. split; [reflexivity|]. split; [exact Ef|]. split; [exact Rf|]. split; [exact Eg|]. split.
    - unfold flm. rewrite pair_single by lia. rewrite Hg by lia. rewrite Cmult_0_l. reflexivity.
    - assert (RR : forall t u, 0 <= t < rings s L 0 -> 0 <= u < per_ring s L -> is_real (get f [t; u])).
      { intros t u Ht Hu. apply Rf. rewrite (proj1 HF), map_shape_equi by auto. cbn [in_shape]. lia. }
      assert (P : (0 <= Re (pair_samples s L f f))%R).
      { assert (RS : forall (l : list Z) h, (forall x, In x l -> (0 <= Re (h x))%R) -> (0 <= Re (csum l h))%R).
        { intros l h. induction l as [|a l IH]; intros Hh; [cbn; lra|]. change (0 <= Re (h a) + Re (csum l h))%R. apply Rplus_le_le_0_compat; [apply Hh; now left|apply IH; intros; apply Hh; now right]. }
        apply RS. intros t Ht. apply RS. intros u Hu. apply in_zrange in Ht. apply in_zrange in Hu. specialize (RR t u Ht Hu). destruct (get f [t; u]) as [a c]. unfold is_real in RR. cbn in *. subst c. nra. }
      destruct P as [P|P]; [exact P|]. exfalso. pose proof (squares_zero s L f RR (eq_sym P)) as F0.
      assert (H0 : holds_samples nodes s L 0 f (synth L 0 (fun _ _ => RtoC 0))).
      { split; [apply HF|]. intros t u x Ht Hu _. rewrite sample_equi by auto. rewrite ring_equi in Hu by auto. rewrite F0 by auto. symmetry. apply cr_0. intros. apply cr_0. intros. ring. }
      pose proof (coefficients_unique nodes _ s L 0 p f _ _ 1 1 K HF H0 ltac:(cbn; lia) ltac:(lia)) as E. unfold real_signal, real_extension in E.
      change (1 =? 0) with false in E. change (1 <? 0) with false in E. cbv iota in E. unfold flm in E. rewrite single_stored in E. cbn in E. injection E as E. lra.
  Qed.

  Theorem forward_wrong b : s = DH \/ s = GL -> exists ct f x g, shape ct = [L; 2 * L - 1] /\ shape f = map_shape s L 0 /\ all_real f /\
    ssht_forward (Some p) f L 0 true k b = Ok x /\ ssht_forward_bwd (Some p) gl turns L 0 true k b ct = Ok g /\
    Re (pair_samples s L g f) = 0%R /\ Re (pair_coefficients L ct x) = 1%R.
  Proof.
    intros D. set (ct := single L 1 (-1) (RtoC 1)).
    set (c := fun l m : Z => if (l =? 1) && (m =? -1) then RtoC 1 else if (l =? 1) && (m =? 1) then RtoC (-1) else RtoC 0).
    assert (Hc : hermitian L c).
    { intros l m Hl Hm. unfold c. destruct (Z.eqb_spec l 1) as [->|]; cbn [andb]; [|rewrite Cconj_R; ring].
      assert (m = -1 \/ m = 0 \/ m = 1) as [-> |[-> | ->]] by lia; unfold Cconj, RtoC, Cmult, sgn; cbn; f_equal; ring. }
    assert (Th := colats gl s L turns Hs HW).
    set (f := mat (rings s L 0) (per_ring s L) (fun t u => synth L 0 c (th_of gl s L 0 t) (longitude s L 0 t u))).
    assert (HF : holds_samples nodes s L 0 f (synth L 0 c)).
    { split; [now rewrite map_shape_equi|]. intros t u x Ht Hu Hx. rewrite sample_equi by auto. unfold f, mat. cbn [get nth]. f_equal.
      symmetry. apply (colat_unique gl s L 0 t x); auto. congruence. }
    assert (Rf : all_real f) by (apply (samples_real nodes s L f c (th_of gl s L 0)); auto).
    destruct (ssht_forward_complex nodes _ s L 0 p Hs ltac:(lia) K f c b HF) as (x2 & Ex2 & Hx2).
    destruct (ssht_forward_real nodes _ s L 0 p Hs ltac:(lia) K f b eq_refl (proj1 HF) Rf) as (x & x2' & Ex & E2 & XS & XE). rewrite Ex2 in E2. injection E2 as <-.
    destruct (code_weights gl turns s L Hs ltac:(lia) HW) as (q & Q1 & Q2 & Q3). destruct (Q1 D) as [Eq Lq].
    assert (EL : listed L (amap Cconj (flm_2d_to_1d_fast (RtoC 0) ct L)) (fun l m => Cconj (stored L ct l m))).
    { destruct (listed_of_2d L ct ltac:(lia) eq_refl) as [A1 A2]. split; [exact A1|]. intros l m Hl Hm. unfold amap. cbn [get]. now rewrite A2. }
    destruct (real_inverse _ _ _ _ _ _ K eq_refl (backend_str b) _ _ EL) as (y & Ey & HY).
    assert (Y0 : forall t u, 0 <= t < rings s L 0 -> 0 <= u < per_ring s L -> get y [t; u] = RtoC 0).
    { intros t u Ht Hu. destruct HY as [_ HY]. specialize (HY t u (th_of gl s L 0 t)). rewrite sample_equi, ring_equi in HY by auto. rewrite HY by auto.
      apply cr_0. intros l Hl. apply cr_0. intros m Hm. unfold real_signal, real_extension.
      destruct (Z.eqb_spec m 0) as [->|]; [unfold ct; rewrite single_stored; rewrite Bool.andb_false_r; rewrite Cconj_R; cbn; ring|].
      destruct (Z.ltb_spec m 0); unfold ct; rewrite single_stored.
      - destruct (Z.eqb_spec (- m) (-1)); [lia|]. rewrite Bool.andb_false_r, !Cconj_R. ring.
      - destruct (Z.eqb_spec m (-1)); [lia|]. rewrite Bool.andb_false_r, !Cconj_R. ring. }
    exists ct, f, x. eexists. split; [reflexivity|]. split; [apply HF|]. split; [exact Rf|]. split; [exact Ex|]. split.
    - unfold ssht_forward_bwd, try_import. cbn [bind]. rewrite (lread_sampling s Hs). cbn [bind].
      replace (k <? 2) with false by (destruct D as [->| ->]; reflexivity). rewrite Eq. cbn [bind]. rewrite Ey. cbn [bind]. unfold einsum_tp_t.
      assert (DD : dim0 (amap Cconj y) = rings s L 0) by (unfold dim0, amap; cbn [shape]; rewrite (proj1 HY), map_shape_equi by auto; reflexivity).
      rewrite DD, Lq, Z.eqb_refl. reflexivity.
    - split.
      + replace (pair_samples s L _ f) with (RtoC 0); [reflexivity|]. symmetry. unfold pair_samples, over_samples. apply cr_0. intros t Ht. apply cr_0. intros u Hu.
        unfold amap. cbn [get nth]. rewrite Y0 by auto. rewrite Cconj_R. ring.
      + rewrite (pair_comm L ct x). unfold ct. rewrite pair_single by lia. unfold stored. rewrite XE by (rewrite XS, (proj1 Hx2); cbn [in_shape]; lia).
        fold (stored L x2 1 (-1)). rewrite (proj2 Hx2) by lia. unfold restricted. cbn. ring.
  Qed.

  Theorem lower_wrong hp th o pre name b : denotes name s -> exists flm f, shape flm = [L; 2 * L - 1] /\
    full_inverse (Some p) hp th flm L 0 o name "jax_ssht" false pre 1 b = Ok f /\ ~ holds_samples nodes s L 0 f (synth L 0 (above 1 (stored L flm))).
  Proof.
    intros Hd. set (flm := single L 0 0 (RtoC 1)).
    destruct (top_synthesis gl s L 0 p name Hd Hs ltac:(lia) _ K hp th flm o false pre 1 b eq_refl ltac:(discriminate)) as (f & E & HF).
    exists flm, f. split; [reflexivity|]. split; [exact E|]. intros H.
    pose proof (coefficients_unique nodes _ s L 0 p f _ _ 0 0 K HF H ltac:(cbn; lia) ltac:(lia)) as Q. unfold flm, above in Q. rewrite single_stored in Q. cbn in Q.
    injection Q as Q. lra.
  Qed.
End R.
