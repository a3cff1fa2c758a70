(** Gradients of the JAX front end of pyssht with the reality flag, and of the forward transform. *)
From Coq Require Import Reals Lra Lia.
From Coquelicot Require Import Complex.
From Verif Require Import Lib.Py Lib.PyFacts Lib.Vec Lib.Sums Lib.Cplx Lib.Arr Lib.Ext Model.Index Model.Samples Model.Grids Model.Turok
  Model.Quadrature Model.QuadratureJax Model.Spherical Model.OTFSpherical Model.Wigner Model.OTFWigner Model.CBackend Spec.IndexSpec
  Spec.WignerSpec Spec.SamplesSpec Spec.SphereSpec
  Spec.GridSpec Spec.HealpixFFTSpec Spec.SphericalSpec Spec.CBackendSpec Lib.MatFacts Proofs.SphFacts Proofs.SphForward Proofs.SphInverse Proofs.CBackendSsht.
From Coq Require Import List.
Import ListNotations.
Open Scope string_scope.
Open Scope Z_scope.

Lemma cr_fold l (h : Z -> C) : 0 <= l -> csum (zrange (- l) (l + 1)) h = (h 0 + csum (zrange 1 (l + 1)) (fun m => h m + h (- m)%Z))%C.
Proof.
  intros Hl. rewrite (cr_split (- l) 0 (l + 1)), (cr_cons 0 (l + 1)) by lia. change (0 + 1) with 1. rewrite cs_plus.
  replace (csum (zrange 1 (l + 1)) (fun m => h (- m)%Z)) with (csum (zrange (- l) 0) h); [ring|].
  symmetry. apply (cr_perm 1 (l + 1) (- l) 0 (fun m => - m)); lia.
Qed.
Lemma sgn_mod2 a : sgn (a mod 2) = sgn a.
Proof. rewrite (Z.div_mod a 2) at 2 by lia. rewrite sgn_add, sgn_double. lra. Qed.
Lemma Re_scal x z : Re (RtoC x * z)%C = (x * Re z)%R.
Proof. destruct z. cbn. ring. Qed.
Lemma RtoC_Re_sum {X} (l : list X) f : RtoC (Re (csum l f)) = csum l (fun x => RtoC (Re (f x))).
Proof. rewrite Re_csum. symmetry. apply csum_RtoC. Qed.

(** the coefficients of a real signal, and those of real samples *)
Lemma real_signal_hermitian L c l m : hermitian L c -> 0 <= l < L -> - l <= m <= l -> real_signal c l m = c l m.
Proof.
  intros H Hl Hm. unfold real_signal, real_extension. destruct (Z.eqb_spec m 0) as [->|Hz].
  - pose proof (H l 0 Hl ltac:(lia)) as E. change (- 0) with 0 in E. rewrite sgn_0, Cmult_1_l in E. apply C_eq; cbn; [reflexivity|].
    apply (f_equal Im) in E. destruct (c l 0). cbn in *. lra.
  - destruct (Z.ltb_spec m 0); [|reflexivity]. rewrite (H l m) by lia. rewrite Cconj_mult, Cconj_conj, Cconj_R, Cmult_assoc, <- RtoC_mult, sgn_sq. ring.
Qed.
Lemma synth_ext L s c d th ph : (forall l m, 0 <= l < L -> - l <= m <= l -> c l m = d l m) -> synth L s c th ph = synth L s d th ph.
Proof. intros H. rewrite !synth_over. apply over_coef_ext. intros l m Hl Hm. now rewrite H. Qed.
(** the samples of a real signal are real *)
Lemma real_synth L c th ph : is_real (synth L 0 (real_signal c) th ph).
Proof.
  unfold is_real. rewrite synth_over. unfold over_coefficients. rewrite Im_csum. apply rr_0. intros l Hl. cbn [Z.abs].
  destruct (Z.ltb_spec l 0); [lia|]. rewrite cr_fold by lia. 
  replace (Im _) with (Im (real_signal c l 0 * sYlm 0 l 0 th ph)%C + rsum (zrange 1 (l + 1)) (fun m => Im (real_signal c l m * sYlm 0 l m th ph + real_signal c l (- m) * sYlm 0 l (- m) th ph)%C))%R
    by (rewrite <- Im_csum; reflexivity).
  rewrite rr_0.
  - unfold real_signal. cbn [Z.eqb]. pose proof (sYlm_conj l 0 th ph ltac:(lia)) as E. change (- 0) with 0 in E. rewrite sgn_0, Cmult_1_l in E.
    apply (f_equal Im) in E. destruct (sYlm 0 l 0 th ph) as [a b]. cbn in *. replace b with 0%R by lra. ring.
  - intros m Hm. rewrite sYlm_conj by lia. unfold real_signal, real_extension. destruct (Z.eqb_spec m 0), (Z.eqb_spec (- m) 0); try lia.
    destruct (Z.ltb_spec m 0), (Z.ltb_spec (- m) 0); try lia. rewrite Z.opp_involutive, sgn_opp.
    destruct (c l m) as [a b], (sYlm 0 l m th ph) as [x y]. destruct (sgn_cases m) as [-> | ->]; cbn; ring.
Qed.

Section Grad.
  Variables (nodes : Z -> R) (w : Z -> R) (s : scheme) (L spin : Z) (p : pyssht) (th : Z -> R).
  Hypothesis (Hs : s <> HEALPIX) (HL : 1 <= L) (K : ssht_contract nodes w s L spin p).
  Hypothesis Th : forall t, 0 <= t < rings s L 0 -> colatitude nodes s L 0 t (th t).
  Variables (gl : gl_rule) (turns : nat) (q : vec R).
  Hypothesis HQ : s = DH \/ s = GL -> quad_weights_transform_jax gl turns L (lower (method_name s)) None = Ok q /\ vlen q = rings s L 0.
  Notation k := (scheme_number s).
  Notation r := (ratio w s q).
  Notation tot := (total w s L spin th q).

  Lemma total_mirror ct l m : spin = 0 -> shape ct = map_shape s L 0 -> all_real ct -> - l <= m <= l -> tot ct l (- m) = (RtoC (sgn m) * Cconj (tot ct l m))%C.
  Proof using Hs.
    clear K Th HQ. intros H0 Sc Rc Hm. unfold total. rewrite over_samples_conj, <- over_samples_scal. apply over_samples_ext. intros t u Ht Hu.
    rewrite H0, sYlm_conj, !Cconj_mult, Cconj_R, (conj_real s L Hs ct Rc Sc t u Ht Hu) by exact Hm. ring.
  Qed.
  Lemma amap_real f : shape f = map_shape s L 0 -> all_real f -> all_real (amap Cconj f).
  Proof. clear. intros S R ix Hix. pose proof (R ix Hix) as E. unfold is_real in *. cbn [amap get]. destruct (get f ix). cbn in *. lra. Qed.
  Lemma bwd_list_real b ct : spin = 0 -> shape ct = map_shape s L 0 -> all_real ct ->
    same_ok (bwd_list s L spin p q true b ct) (bwd_list s L spin p q false b ct).
  Proof using Hs K HQ.
    clear Th. intros H0 Sc Rc. unfold bwd_list. destruct (Z.ltb_spec k 2) as [Hk|Hk].
    - apply (real_inverse_adjoint _ _ _ _ _ _ K); auto.
      + destruct s; cbn [scheme_number] in Hk; auto; try lia; congruence.
      + now apply amap_real.
    - assert (Sm : s = DH \/ s = GL) by (destruct s; cbn [scheme_number] in Hk; auto; try lia; congruence).
      destruct (HQ Sm) as (_ & Lq). unfold einsum_tp_t. replace (dim0 ct) with (rings s L 0) by (unfold dim0; rewrite Sc, map_shape_equi by exact Hs; reflexivity).
      cbn [vmap vlen]. rewrite Lq, Z.eqb_refl. cbn [bind]. apply (real_forward _ _ _ _ _ _ K); auto.
      intros ix Hix. pose proof (Rc ix Hix) as E. unfold is_real in *. cbn [amap get]. destruct (get ct ix). cbn in *. rewrite E. ring.
  Qed.
  (** the gradient with the reality flag: the orders m < 0 have none, m > 0 carries the factor 1 + (-1)^L *)
  Lemma inverse_bwd_real_entries b ct : spin = 0 -> shape ct = map_shape s L 0 -> all_real ct ->
    exists g, ssht_inverse_bwd (Some p) gl turns L spin true k b ct = Ok g /\ shape g = [L; 2 * L - 1] /\
      forall l m, 0 <= l < L -> - L < m < L -> stored L g l m =
        if l <? Z.abs m then RtoC 0 else if m <? 0 then RtoC 0 else if m =? 0 then tot ct l 0 else (RtoC (1 + sgn L) * tot ct l m)%C.
  Proof using Hs Th HL K HQ.
    intros H0 Sc Rc. rewrite (bwd_unfold s L spin p Hs gl turns q HQ).
    destruct (bwd_list_complex nodes w s L spin p th Hs HL K Th gl turns q HQ b ct Sc) as (x & Ex & Sx & Gx).
    destruct (bwd_list_real b ct H0 Sc Rc) as (y & x' & Ey & Ex' & Sy & Gy). rewrite Ex in Ex'. injection Ex' as <-. rewrite Sx in Sy. rewrite Ey. cbn [bind].
    destruct (coefficients_of_1d L (amap Cconj y) HL Sy) as (o & Eo & So & Go). rewrite Eo. cbn [bind]. eexists. split; [reflexivity|].
    assert (D : dim0 o = L /\ dim1 o = 2 * L - 1) by (unfold dim0, dim1; rewrite So; split; reflexivity). destruct D as (D0 & D1).
    split; [unfold add_mirrored, mat; cbn [shape]; now rewrite D0, D1|].
    assert (G : forall l m, 0 <= l < L -> - L < m < L -> stored L o l m = if l <? Z.abs m then RtoC 0 else tot ct l m).
    { intros l m Hl Hm. rewrite Go by auto. destruct (Z.leb_spec (Z.abs m) l), (Z.ltb_spec l (Z.abs m)); try lia; [|reflexivity].
      cbn [amap get]. rewrite Gy by (rewrite Sy; cbn [in_shape]; split; [split; nia|exact I]). rewrite Gx by lia. rewrite H0. cbn [Z.abs]. destruct (Z.ltb_spec l 0); [lia|reflexivity]. }
    intros l m Hl Hm. unfold stored at 1, add_mirrored, mat. cbn [get nth]. cbv zeta. unfold at2.
    destruct (Z.ltb_spec (m + L - 1) (L - 1)).
    { destruct (Z.ltb_spec m 0); [|lia]. now destruct (l <? Z.abs m). }
    destruct (Z.leb_spec L (m + L - 1)).
    - replace (L - 2 - (m + L - 1 - L)) with (- m + L - 1) by lia.
      change (stored L o l m + RtoC (m1 ((1 + (- m + L - 1)) mod 2)) * Cconj (stored L o l (- m)) = (if l <? Z.abs m then 0%R else if m <? 0 then 0%R else if m =? 0 then tot ct l 0 else RtoC (1 + sgn L) * tot ct l m))%C.
      rewrite !G by lia. rewrite Z.abs_opp. destruct (Z.ltb_spec l (Z.abs m)); [apply C_eq; cbn; ring|].
      destruct (Z.ltb_spec m 0), (Z.eqb_spec m 0); try lia. rewrite total_mirror by (auto; lia).
      rewrite Cconj_mult, Cconj_conj, Cconj_R. change (m1 ((1 + (- m + L - 1)) mod 2)) with (sgn ((1 + (- m + L - 1)) mod 2)).
      rewrite sgn_mod2. replace (1 + (- m + L - 1)) with (L - m) by lia. rewrite sgn_sub, RtoC_plus, !RtoC_mult.
      assert (E : (RtoC (sgn m) * RtoC (sgn m))%C = RtoC 1) by (rewrite <- RtoC_mult, sgn_sq; reflexivity).
      transitivity (tot ct l m + RtoC (sgn L) * (RtoC (sgn m) * RtoC (sgn m)) * tot ct l m)%C; [ring|]. rewrite E. ring.
    - assert (Em : m = 0) by lia. rewrite Em. change (stored L o l 0 = if l <? Z.abs 0 then RtoC 0 else if 0 <? 0 then RtoC 0 else if 0 =? 0 then tot ct l 0 else (RtoC (1 + sgn L) * tot ct l 0)%C).
      rewrite G by lia. cbn [Z.abs]. destruct (Z.ltb_spec l 0); [lia|reflexivity].
  Qed.
  (** the value paired with real samples, by totals *)
  Lemma real_pairing ct flm f : spin = 0 -> shape ct = map_shape s L 0 -> all_real ct -> holds_samples nodes s L 0 f (synth L spin (real_signal (stored L flm))) ->
    over_samples s L (fun t u => (RtoC (r t) * (get ct [t; u] * get f [t; u]))%C) =
    csum (zrange 0 L) (fun l => RtoC (Re (tot ct l 0 * stored L flm l 0 + csum (zrange 1 (l + 1)) (fun m => RtoC 2 * (tot ct l m * stored L flm l m)))))%C.
  Proof using Hs Th.
    clear K HQ. intros H0 Sc Rc Hf.
    transitivity (over_samples s L (fun t u => over_coefficients L (fun l m =>
       (RtoC (r t) * get ct [t; u] * (real_signal (stored L flm) l m * sYlm spin l m (th t) (longitude s L 0 t u)))%C))).
    { apply over_samples_ext. intros t u Ht Hu. rewrite over_coef_scal, (sample_of nodes s L th Hs Th f _ t u Hf Ht Hu), synth_over, Cmult_assoc. f_equal.
      apply over_coef_ext. intros l m Hl Hm. rewrite H0. cbn [Z.abs]. destruct (Z.ltb_spec l 0); [lia|reflexivity]. }
    rewrite over_swap. unfold over_coefficients. apply cr_ext. intros l Hl.
    transitivity (csum (zrange (- l) (l + 1)) (fun m => real_signal (stored L flm) l m * tot ct l m)%C).
    { apply cr_ext. intros m Hm. unfold total. rewrite <- over_samples_scal. apply over_samples_ext. intros. ring. }
    rewrite cr_fold by lia. replace (RtoC (Re (tot ct l 0 * stored L flm l 0 + csum (zrange 1 (l + 1)) (fun m => RtoC 2 * (tot ct l m * stored L flm l m)))))%C
      with (RtoC (Re (tot ct l 0 * stored L flm l 0)) + RtoC (Re (csum (zrange 1 (l + 1)) (fun m => RtoC 2 * (tot ct l m * stored L flm l m)))))%C
      by (rewrite <- RtoC_plus; reflexivity).
    f_equal.
    - pose proof (total_mirror ct l 0 H0 Sc Rc ltac:(lia)) as E. change (- 0) with 0 in E. rewrite sgn_0, Cmult_1_l in E.
      apply (f_equal Im) in E. unfold real_signal. cbn [Z.eqb]. destruct (tot ct l 0) as [a b], (stored L flm l 0) as [x y]. cbn in *.
      assert (B : b = 0%R) by lra. rewrite B. apply C_eq; cbn; ring.
    - rewrite RtoC_Re_sum. apply cr_ext. intros m Hm. rewrite (total_mirror ct l m H0 Sc Rc) by lia. unfold real_signal, real_extension.
      destruct (Z.eqb_spec m 0), (Z.eqb_spec (- m) 0); try lia. destruct (Z.ltb_spec m 0), (Z.ltb_spec (- m) 0); try lia.
      rewrite Z.opp_involutive, sgn_opp, Re_scal.
      destruct (stored L flm l m) as [a b], (tot ct l m) as [x y]. destruct (sgn_cases m) as [-> | ->]; apply C_eq; cbn; ring.
  Qed.
  Lemma pair_real_gradient ct g flm z : (forall l m, 0 <= l < L -> - L < m < L -> stored L g l m =
        if l <? Z.abs m then RtoC 0 else if m <? 0 then RtoC 0 else if m =? 0 then tot ct l 0 else (RtoC z * tot ct l m)%C) ->
    pair_coefficients L g flm = csum (zrange 0 L) (fun l => tot ct l 0 * stored L flm l 0 + csum (zrange 1 (l + 1)) (fun m => RtoC z * (tot ct l m * stored L flm l m)))%C.
  Proof using.
    clear. intros G. rewrite pair_tri.
    2: { intros l m Hl Hm Ho. rewrite G by auto. destruct (Z.ltb_spec l (Z.abs m)); [reflexivity|lia]. }
    apply cr_ext. intros l Hl. rewrite cr_fold by lia. f_equal.
    - rewrite G by lia. cbn [Z.abs]. destruct (Z.ltb_spec l 0); [lia|reflexivity].
    - apply cr_ext. intros m Hm. rewrite !G by lia. rewrite Z.abs_opp. destruct (Z.ltb_spec l (Z.abs m)); [lia|].
      destruct (Z.ltb_spec m 0), (Z.ltb_spec (- m) 0), (Z.eqb_spec m 0); try lia. ring.
  Qed.
  Theorem inverse_bwd_real b ct flm f : spin = 0 -> Z.even L = true -> shape ct = map_shape s L 0 -> all_real ct -> shape flm = [L; 2 * L - 1] ->
    ssht_inverse (Some p) flm L spin true k b = Ok f ->
    exists g, ssht_inverse_bwd (Some p) gl turns L spin true k b ct = Ok g /\ shape g = [L; 2 * L - 1] /\
      RtoC (Re (pair_coefficients L g flm)) = over_samples s L (fun t u => (RtoC (r t) * (get ct [t; u] * get f [t; u]))%C).
  Proof using Hs Th HL K HQ.
    intros H0 Ev Sc Rc Sf Ef. destruct (inverse_bwd_real_entries b ct H0 Sc Rc) as (g & Eg & Sg & Gg). exists g. split; [exact Eg|]. split; [exact Sg|].
    destruct (ssht_inverse_real nodes w s L spin p Hs HL K flm b H0 Sf) as (f' & Ef' & Hf). rewrite Ef in Ef'. injection Ef' as <-.
    rewrite (real_pairing ct flm f H0 Sc Rc Hf), (pair_real_gradient ct g flm 2), RtoC_Re_sum; [reflexivity|].
    intros l m Hl Hm. rewrite Gg by auto. now rewrite (sgn_even L Ev).
  Qed.
  (** odd L: the orders m > 0 have no gradient *)
  Theorem inverse_bwd_odd b ct : spin = 0 -> Z.even L = false -> shape ct = map_shape s L 0 -> all_real ct ->
    exists g, ssht_inverse_bwd (Some p) gl turns L spin true k b ct = Ok g /\
      forall l m, 0 <= l < L -> - L < m < L -> m <> 0 -> stored L g l m = RtoC 0.
  Proof using Hs Th HL K HQ.
    intros H0 Od Sc Rc. destruct (inverse_bwd_real_entries b ct H0 Sc Rc) as (g & Eg & Sg & Gg). exists g. split; [exact Eg|].
    intros l m Hl Hm Hz. rewrite Gg by auto. rewrite (sgn_odd L Od). destruct (l <? Z.abs m); [reflexivity|]. destruct (m <? 0); [reflexivity|].
    destruct (Z.eqb_spec m 0); [lia|]. replace (1 + -1)%R with 0%R by ring. ring.
  Qed.

  (** *** The gradient of the forward transform *)
  Hypothesis Qn : s = DH \/ s = GL -> forall t, 0 <= t < rings s L 0 -> vat q t <> 0%R.
  Lemma tri_of_forward f b x : shape f = map_shape s L 0 -> ssht_forward (Some p) f L spin false k b = Ok x ->
    exists y, py_forward p f L spin (method_name s) false (backend_str b) = Ok y /\ shape y = [L * L] /\ shape x = [L; 2 * L - 1] /\
      forall l m, 0 <= l < L -> - L < m < L -> stored L x l m = if Z.abs m <=? l then get y [l * l + l + m] else RtoC 0.
  Proof using Hs HL K.
    intros Sf Ex. unfold ssht_forward in Ex. cbn [try_import bind] in Ex. rewrite lread_sampling in Ex by exact Hs. cbn [bind] in Ex.
    destruct (forward_defined _ _ _ _ _ _ K (backend_str b) f Sf) as (y & Ey & Sy). rewrite Ey in Ex. cbn [bind] in Ex.
    destruct (coefficients_of_1d L y HL Sy) as (o & Eo & So & Go). rewrite Eo in Ex. injection Ex as <-. exists y. auto.
  Qed.
  Lemma pair_comm a b : pair_coefficients L a b = pair_coefficients L b a.
  Proof. clear. apply cs_ext. intros. apply cs_ext. intros. ring. Qed.
  Theorem forward_bwd_complex b ct f x : shape ct = [L; 2 * L - 1] -> shape f = map_shape s L 0 -> ssht_forward (Some p) f L spin false k b = Ok x ->
    exists g, ssht_forward_bwd (Some p) gl turns L spin false k b ct = Ok g /\ shape g = map_shape s L 0 /\
      over_samples s L (fun t u => (RtoC (r t) * (get g [t; u] * get f [t; u]))%C) = pair_coefficients L ct x.
  Proof using Hs Th HL K HQ Qn.
    intros Sc Sf Ex. destruct (tri_of_forward f b x Sf Ex) as (y & Ey & Sy & Sx & Gx).
    rewrite pair_comm, pair_tri. 2: { intros l m Hl Hm Ho. rewrite Gx by auto. destruct (Z.leb_spec (Z.abs m) l); [lia|reflexivity]. }
    unfold ssht_forward_bwd. cbn [try_import bind]. rewrite lread_sampling by exact Hs. cbn [bind].
    pose proof (listed_of_2d L ct HL Sc) as Hc. set (a := flm_2d_to_1d_fast (RtoC 0) ct L) in *. destruct Hc as (Sa & Ga).
    assert (PC : over_coefficients L (fun l m => (stored L x l m * stored L ct l m)%C) = over_coefficients L (fun l m => (stored L ct l m * get y [(l * l + l + m)%Z])%C)).
    { apply over_coef_ext. intros l m Hl Hm. rewrite Gx by lia. destruct (Z.leb_spec (Z.abs m) l); [|lia]. ring. }
    rewrite PC. clear PC. destruct (Z.ltb_spec k 2) as [Hk|Hk].
    - assert (Sm : s = MW \/ s = MWSS) by (destruct s; cbn [scheme_number] in Hk; auto; try lia; congruence).
      destruct (forward_adjoint_is _ _ _ _ _ _ K Sm (backend_str b) (amap Cconj a) Sa) as (h & Eh & Sh & Ah).
      rewrite Eh. cbn [bind]. exists (amap Cconj h). split; [reflexivity|]. split; [exact Sh|].
      pose proof (Ah f y Sf Ey) as E. apply (f_equal Cconj) in E. unfold inner_samples, inner_listed in E. rewrite over_samples_conj, over_coef_conj in E.
      transitivity (over_samples s L (fun t u => Cconj (get h [t; u] * Cconj (get f [t; u]))%C)).
      + apply over_samples_ext. intros t u Ht Hu. replace (r t) with 1%R by (unfold ratio; destruct Sm as [-> | ->]; reflexivity). cbn [amap get]. rewrite Cconj_mult, Cconj_conj. ring.
      + rewrite E. apply over_coef_ext. intros l m Hl Hm. cbn [amap get]. rewrite Cconj_mult, !Cconj_conj, Ga by auto. reflexivity.
    - assert (Sm : s = DH \/ s = GL) by (destruct s; cbn [scheme_number] in Hk; auto; try lia; congruence).
      destruct (HQ Sm) as (Eq & Lq). rewrite Eq. cbn [bind].
      destruct (inverse_synthesises _ _ _ _ _ _ K (backend_str b) (amap Cconj a) (fun l m => Cconj (stored L ct l m))) as (h & Eh & Hh).
      { split; [exact Sa|]. intros l m Hl Hm. cbn [amap get]. now rewrite Ga. }
      rewrite Eh. cbn [bind]. unfold einsum_tp_t.
      assert (D : dim0 (amap Cconj h) =? vlen q = true).
      { unfold dim0. cbn [amap shape]. rewrite (proj1 Hh), map_shape_equi by exact Hs. cbn [nth]. rewrite Lq. apply Z.eqb_refl. }
      rewrite D. eexists. split; [reflexivity|]. split; [exact (proj1 Hh)|].
      transitivity (over_samples s L (fun t u => over_coefficients L (fun l m =>
         (RtoC (w t) * get f [t; u] * (if l <? Z.abs spin then RtoC 0 else stored L ct l m * Cconj (sYlm spin l m (th t) (longitude s L 0 t u))))%C))).
      + apply over_samples_ext. intros t u Ht Hu. cbn [get nth amap]. rewrite (sample_of nodes s L th Hs Th h _ t u Hh Ht Hu), synth_over.
        rewrite over_coef_scal, over_coef_conj. replace (r t) with (w t / vat q t)%R by (unfold ratio; destruct Sm as [-> | ->]; reflexivity).
        pose proof (Qn Sm t Ht) as Nz. unfold Rdiv. rewrite RtoC_mult, RtoC_inv by exact Nz.
        assert (Nc : RtoC (vat q t) <> RtoC 0) by (intros E; apply Nz; now apply RtoC_inj).
        transitivity (RtoC (w t) * get f [t; u] * over_coefficients L (fun l m => Cconj (if l <? Z.abs spin then RtoC 0 else Cconj (stored L ct l m) * sYlm spin l m (th t) (longitude s L 0 t u)))%C)%C.
        * field. exact Nc.
        * f_equal. apply over_coef_ext. intros l m Hl Hm. destruct (l <? Z.abs spin); [apply C_eq; cbn; ring|]. now rewrite Cconj_mult, Cconj_conj.
      + rewrite over_swap. apply over_coef_ext. intros l m Hl Hm.
        rewrite (forward_integrates _ _ _ _ _ _ K Sm (backend_str b) f y th l m Sf Ey Th Hl Hm). destruct (l <? Z.abs spin).
        * rewrite Cmult_0_r. unfold over_samples. apply cr_0. intros. apply cr_0. intros. ring.
        * rewrite <- over_samples_scal. apply over_samples_ext. intros. ring.
  Qed.
  Lemma forward_bwd_same b ct : spin = 0 -> shape ct = [L; 2 * L - 1] -> hermitian L (stored L ct) ->
    same_ok (ssht_forward_bwd (Some p) gl turns L spin true k b ct) (ssht_forward_bwd (Some p) gl turns L spin false k b ct).
  Proof using Hs Th HL K HQ.
    clear Qn. intros H0 Sc Hc. unfold ssht_forward_bwd. cbn [try_import bind]. rewrite lread_sampling by exact Hs. cbn [bind].
    pose proof (listed_of_2d L ct HL Sc) as Hl. set (a := flm_2d_to_1d_fast (RtoC 0) ct L) in *. destruct Hl as (Sa & Ga).
    assert (La : listed L (amap Cconj a) (fun l m => Cconj (stored L ct l m))).
    { split; [exact Sa|]. intros l m Hl Hm. cbn [amap get]. now rewrite Ga. }
    assert (Ha : hermitian L (fun l m => Cconj (stored L ct l m))).
    { intros l m Hl Hm. rewrite (Hc l m Hl Hm), Cconj_mult, Cconj_R. reflexivity. }
    destruct (Z.ltb_spec k 2) as [Hk|Hk].
    - assert (Sm : s = MW \/ s = MWSS) by (destruct s; cbn [scheme_number] in Hk; auto; try lia; congruence).
      destruct (real_forward_adjoint _ _ _ _ _ _ K Sm H0 (backend_str b) _ _ La Ha) as (u & v & Eu & Ev & Suv & Guv). rewrite Eu, Ev. cbn [bind].
      eexists. eexists. split; [reflexivity|]. split; [reflexivity|]. split; [exact Suv|]. intros ix Hix. cbn [amap get]. now rewrite Guv.
    - assert (Sm : s = DH \/ s = GL) by (destruct s; cbn [scheme_number] in Hk; auto; try lia; congruence).
      destruct (HQ Sm) as (Eq & Lq). rewrite Eq. cbn [bind].
      destruct (inverse_synthesises _ _ _ _ _ _ K (backend_str b) _ _ La) as (h & Eh & Hh).
      destruct (real_inverse _ _ _ _ _ _ K H0 (backend_str b) _ _ La) as (h' & Eh' & Hh'). rewrite Eh, Eh'. cbn [bind].
      assert (D : forall z, shape z = map_shape s L 0 -> dim0 (amap Cconj z) =? vlen q = true).
      { intros z Sz. unfold dim0. cbn [amap shape]. rewrite Sz, map_shape_equi by exact Hs. cbn [nth]. rewrite Lq. apply Z.eqb_refl. }
      unfold einsum_tp_t. rewrite (D h (proj1 Hh)), (D h' (proj1 Hh')). eexists. eexists. split; [reflexivity|]. split; [reflexivity|].
      split; [cbn [amap shape]; now rewrite (proj1 Hh), (proj1 Hh')|]. intros ix Hix. cbn [amap shape get] in *. rewrite (proj1 Hh'), map_shape_equi in Hix by exact Hs.
      destruct ix as [|t [|u [|]]]; cbn [in_shape] in Hix; try tauto. f_equal. f_equal.
      rewrite (sample_of nodes s L th Hs Th h _ t u Hh), (sample_of nodes s L th Hs Th h' _ t u Hh') by tauto.
      apply synth_ext. intros l m Hl Hm. now apply (real_signal_hermitian L).
  Qed.
End Grad.
