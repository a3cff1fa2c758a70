(** The JAX front end of pyssht: transforms and gradients, for any library that keeps the contract. *)
From Coq Require Import Reals Lra Lia.
From Coquelicot Require Import Complex.
From Verif Require Import Lib.Py Lib.PyFacts Lib.Vec Lib.Sums Lib.Cplx Lib.Arr Lib.Ext Model.Index Model.Samples Model.Grids Model.Turok
  Model.Quadrature Model.QuadratureJax Model.Spherical Model.OTFSpherical Model.Wigner Model.OTFWigner Model.CBackend Spec.IndexSpec Spec.WignerSpec Spec.SamplesSpec Spec.SphereSpec
  Spec.GridSpec Spec.HealpixFFTSpec Spec.SphericalSpec Spec.CBackendSpec Proofs.IndexProofs Proofs.IndexFastProofs Lib.MatFacts.
From Coq Require Import List.
Import ListNotations.
Open Scope string_scope.
Open Scope Z_scope.

(** ** Reindexing *)
Lemma listed_of_2d L flm : 1 <= L -> shape flm = [L; 2 * L - 1] -> listed L (flm_2d_to_1d_fast (RtoC 0) flm L) (stored L flm).
Proof.
  intros HL Hs. destruct (flm_2d_to_1d_fast_eq (RtoC 0) flm L HL Hs) as (g & Eg & Sg & Gg).
  destruct (flm_2d_to_1d_spec (RtoC 0) flm L HL Hs) as (o & Eo & So & Go). rewrite Eo in Eg. injection Eg as <-.
  split; [now rewrite Sg|]. intros l m Hl Hm. rewrite Gg.
  - unfold stored. replace (l * l + l + m) with (elm2ind l m) by (unfold elm2ind; ring). rewrite Go by (split; lia). do 3 f_equal. lia.
  - rewrite Sg, So. cbn. split; [|exact I]. nia.
Qed.
Lemma coefficients_of_1d L x : 1 <= L -> shape x = [L * L] ->
  exists o, flm_1d_to_2d_fast (RtoC 0) x L = Ok o /\ shape o = [L; 2 * L - 1] /\
    forall l m, 0 <= l < L -> - L < m < L -> stored L o l m = if Z.abs m <=? l then get x [l * l + l + m] else RtoC 0.
Proof.
  intros HL Hs. destruct (flm_1d_to_2d_fast_eq (RtoC 0) x L HL Hs) as (g & h & Eg & Eh & Sh & Gh).
  destruct (flm_1d_to_2d_spec (RtoC 0) x L HL Hs) as (o & Eo & So & Go & To). rewrite Eo in Eg. injection Eg as <-.
  exists h. split; [exact Eh|]. rewrite Sh. split; [exact So|]. intros l m Hl Hm. unfold stored. rewrite Gh.
  2: { rewrite Sh, So. unfold flm_shape. cbn [in_shape]. repeat split; lia. }
  replace (m + L - 1) with (L - 1 + m) by lia. destruct (Z.leb_spec (Z.abs m) l).
  - rewrite Go by (split; lia). do 2 f_equal. unfold elm2ind. ring.
  - apply To; auto. intros (? & ?). lia.
Qed.

(** ** Sums *)
Lemma csum_cols L (g : Z -> C) : csum (zrange 0 (2 * L - 1)) g = csum (zrange (- L + 1) L) (fun m => g (m + L - 1)).
Proof. transitivity (csum (zrange (- L + 1) L) (fun m => g (m + (L - 1)))).
  - rewrite cr_shift. f_equal; f_equal; lia.
  - apply cr_ext. intros. f_equal. lia.
Qed.
Lemma pair_tri L a b : (forall l m, 0 <= l < L -> - L < m < L -> l < Z.abs m -> stored L a l m = RtoC 0) ->
  pair_coefficients L a b = over_coefficients L (fun l m => stored L a l m * stored L b l m)%C.
Proof.
  intros Ha. apply cr_ext. intros l Hl. rewrite csum_cols. etransitivity.
  - apply (cr_shrink (- L + 1) L (- l) (l + 1)); try lia. intros m Hm Ho.
    change (stored L a l m * stored L b l m = RtoC 0)%C. rewrite Ha by lia. ring.
  - reflexivity.
Qed.
Lemma over_coef_ext L f g : (forall l m, 0 <= l < L -> - l <= m <= l -> f l m = g l m) -> over_coefficients L f = over_coefficients L g.
Proof. intros H. apply cr_ext. intros l Hl. apply cr_ext. intros m Hm. apply H; lia. Qed.
Lemma over_samples_ext s L f g : (forall t p, 0 <= t < rings s L 0 -> 0 <= p < per_ring s L -> f t p = g t p) -> over_samples s L f = over_samples s L g.
Proof. intros H. apply cr_ext. intros t Ht. apply cr_ext. intros p Hp. now apply H. Qed.
Lemma over_coef_conj L f : Cconj (over_coefficients L f) = over_coefficients L (fun l m => Cconj (f l m)).
Proof. unfold over_coefficients. rewrite csum_conj. apply cs_ext. intros. now rewrite csum_conj. Qed.
Lemma over_samples_conj s L f : Cconj (over_samples s L f) = over_samples s L (fun t p => Cconj (f t p)).
Proof. unfold over_samples. rewrite csum_conj. apply cs_ext. intros. now rewrite csum_conj. Qed.
Lemma over_coef_scal L f z : over_coefficients L (fun l m => z * f l m)%C = (z * over_coefficients L f)%C.
Proof. unfold over_coefficients. rewrite <- cs_scal_l. apply cs_ext. intros. now rewrite cs_scal_l. Qed.
Lemma over_samples_scal s L f z : over_samples s L (fun l m => z * f l m)%C = (z * over_samples s L f)%C.
Proof. unfold over_samples. rewrite <- cs_scal_l. apply cs_ext. intros. now rewrite cs_scal_l. Qed.
Lemma over_swap s L (f : Z -> Z -> Z -> Z -> C) :
  over_samples s L (fun t p => over_coefficients L (fun l m => f t p l m)) = over_coefficients L (fun l m => over_samples s L (fun t p => f t p l m)).
Proof.
  unfold over_samples, over_coefficients. etransitivity.
  { apply cs_ext. intros t _. apply cs_swap. } rewrite cs_swap. apply cs_ext. intros l _.
  etransitivity. { apply cs_ext. intros t _. apply cs_swap. } rewrite cs_swap. reflexivity.
Qed.
(** the terms of the degrees below |spin| are left out *)
Lemma synth_over L s c th ph : synth L s c th ph = over_coefficients L (fun l m => if l <? Z.abs s then RtoC 0 else (c l m * sYlm s l m th ph)%C).
Proof.
  unfold synth, over_coefficients. destruct (Z.le_gt_cases L (Z.abs s)) as [H|H].
  - rewrite cr_nil by lia. symmetry. apply cr_0. intros l Hl. apply cr_0. intros m Hm. destruct (Z.ltb_spec l (Z.abs s)); [reflexivity|lia].
  - symmetry. etransitivity.
    + apply (cr_shrink 0 L (Z.abs s) L); try lia. intros l Hl Ho. apply cr_0. intros m Hm. destruct (Z.ltb_spec l (Z.abs s)); [reflexivity|lia].
    + apply cr_ext. intros l Hl. apply cr_ext. intros m Hm. destruct (Z.ltb_spec l (Z.abs s)); [lia|reflexivity].
Qed.

Lemma map_shape_equi s L n : s <> HEALPIX -> map_shape s L n = [rings s L n; per_ring s L].
Proof. now destruct s. Qed.
Lemma sample_equi s n t p : s <> HEALPIX -> sample_index s n t p = [t; p].
Proof. now destruct s. Qed.
Lemma ring_equi s L n t : s <> HEALPIX -> ring_size s L n t = per_ring s L.
Proof. now destruct s. Qed.
Lemma lread_sampling s : s <> HEALPIX -> lread sampling_str (scheme_number s) = Ok (method_name s).
Proof. destruct s; intros; try reflexivity. congruence. Qed.
Lemma index_of name s : denotes name s -> s <> HEALPIX -> ssht_index name = Ok (scheme_number s).
Proof. unfold denotes, ssht_index. intros -> H. destruct s; try reflexivity. congruence. Qed.
Lemma pair_samples_ext s L f g f' g' : (forall t p, 0 <= t < rings s L 0 -> 0 <= p < per_ring s L -> get f [t; p] = get f' [t; p]) ->
  (forall t p, 0 <= t < rings s L 0 -> 0 <= p < per_ring s L -> get g [t; p] = get g' [t; p]) -> pair_samples s L f g = pair_samples s L f' g'.
Proof. intros H H'. apply over_samples_ext. intros. now rewrite H, H'. Qed.

Section Lib.
  Variables (nodes : Z -> R) (w : Z -> R) (s : scheme) (L spin : Z) (p : pyssht) (th : Z -> R).
  Hypothesis (Hs : s <> HEALPIX) (HL : 1 <= L) (K : ssht_contract nodes w s L spin p).
  Hypothesis Th : forall t, 0 <= t < rings s L 0 -> colatitude nodes s L 0 t (th t).
  Notation k := (scheme_number s).

  Lemma in_map (f : ndarray C) t q : shape f = map_shape s L 0 -> 0 <= t < rings s L 0 -> 0 <= q < per_ring s L -> in_shape (shape f) [t; q].
  Proof using Hs. intros -> H1 H2. rewrite map_shape_equi by exact Hs. cbn. lia. Qed.
  Lemma sample_of f F t q : holds_samples nodes s L 0 f F -> 0 <= t < rings s L 0 -> 0 <= q < per_ring s L ->
    get f [t; q] = F (th t) (longitude s L 0 t q).
  Proof using Hs Th. intros (_ & H) Ht Hq. rewrite <- (sample_equi s 0 t q Hs). apply H; auto. now rewrite ring_equi. Qed.

  (** *** The transforms *)
  Lemma ssht_inverse_complex flm b : shape flm = [L; 2 * L - 1] ->
    exists f, ssht_inverse (Some p) flm L spin false k b = Ok f /\ holds_samples nodes s L 0 f (synth L spin (stored L flm)).
  Proof using HL Hs K.
    intros H. unfold ssht_inverse. cbn [try_import bind]. rewrite lread_sampling by exact Hs. cbn [bind].
    apply (inverse_synthesises _ _ _ _ _ _ K). now apply listed_of_2d.
  Qed.
  Lemma ssht_inverse_real flm b : spin = 0 -> shape flm = [L; 2 * L - 1] ->
    exists f, ssht_inverse (Some p) flm L spin true k b = Ok f /\ holds_samples nodes s L 0 f (synth L spin (real_signal (stored L flm))).
  Proof using HL Hs K.
    intros H0 H. unfold ssht_inverse. cbn [try_import bind]. rewrite lread_sampling by exact Hs. cbn [bind].
    apply (real_inverse _ _ _ _ _ _ K); auto. now apply listed_of_2d.
  Qed.
  Lemma ssht_forward_complex f c b : holds_samples nodes s L 0 f (synth L spin c) ->
    exists flm, ssht_forward (Some p) f L spin false k b = Ok flm /\ holds_coefficients L flm (restricted 0 spin c).
  Proof using HL Hs K.
    intros H. unfold ssht_forward. cbn [try_import bind]. rewrite lread_sampling by exact Hs. cbn [bind].
    destruct (forward_defined _ _ _ _ _ _ K (backend_str b) f (proj1 H)) as (x & Ex & Sx). rewrite Ex. cbn [bind].
    destruct (coefficients_of_1d L x HL Sx) as (o & Eo & So & Go). exists o. split; [exact Eo|]. split; [exact So|].
    intros l m Hl Hm. rewrite Go by auto. destruct (Z.leb_spec (Z.abs m) l).
    - apply (forward_recovers _ _ _ _ _ _ K _ _ _ _ H Ex); lia.
    - unfold restricted. destruct (Z.leb_spec (Z.abs m) l); [lia|]. now rewrite Bool.andb_false_r.
  Qed.
  Lemma ssht_forward_real f b : spin = 0 -> shape f = map_shape s L 0 -> all_real f ->
    same_ok (ssht_forward (Some p) f L spin true k b) (ssht_forward (Some p) f L spin false k b).
  Proof using HL Hs K.
    intros H0 H R. unfold ssht_forward. cbn [try_import bind]. rewrite lread_sampling by exact Hs. cbn [bind].
    destruct (forward_defined _ _ _ _ _ _ K (backend_str b) f H) as (x & Ex & Sx).
    destruct (real_forward _ _ _ _ _ _ K H0 (backend_str b) f H R) as (y & x' & Ey & Ex' & Sy & Gy). rewrite Ex in Ex'. injection Ex' as <-.
    rewrite Ey, Ex. cbn [bind]. rewrite Sx in Sy.
    destruct (coefficients_of_1d L x HL Sx) as (o & Eo & So & Go). destruct (coefficients_of_1d L y HL Sy) as (o' & Eo' & So' & Go').
    exists o', o. split; [exact Eo'|]. split; [exact Eo|]. split; [now rewrite So, So'|]. intros ix Hix. rewrite So' in Hix.
    destruct ix as [|l [|c [|]]]; cbn [in_shape] in Hix; try tauto.
    replace c with (c - L + 1 + L - 1) by lia. change (stored L o' l (c - L + 1) = stored L o l (c - L + 1)).
    rewrite Go, Go' by lia. destruct (Z.leb_spec (Z.abs (c - L + 1)) l); [|reflexivity]. apply Gy. rewrite Sy. cbn [in_shape].
    assert (B : - l <= c - L + 1 <= l) by lia. set (m := c - L + 1) in *. clearbody m. split; [|exact I]. split; nia.
  Qed.

  (** *** The gradient of the inverse transform *)
  Variables (gl : gl_rule) (turns : nat) (q : vec R).
  Hypothesis Q : s = DH \/ s = GL -> quad_weights_transform_jax gl turns L (lower (method_name s)) None = Ok q /\ vlen q = rings s L 0.
  (** the samples the gradient takes into account, and how much *)
  Definition ratio (t : Z) : R := match s with DH | GL => (w t / vat q t)%R | _ => 1%R end.

  (** the list _ssht_inverse_bwd gets from the library, before the reality case *)
  Definition bwd_list (reality : bool) (b : Z) (ct : ndarray C) : result (ndarray C) :=
    if k <? 2 then py_inverse_adjoint p (amap Cconj ct) L spin (method_name s) reality (backend_str b)
    else let* f := einsum_tp_t ct (vmap Rinv q) in py_forward p (amap Cconj f) L spin (method_name s) reality (backend_str b).
  Lemma bwd_unfold reality b ct : ssht_inverse_bwd (Some p) gl turns L spin reality k b ct =
    let* x := bwd_list reality b ct in
    let* out := flm_1d_to_2d_fast (RtoC 0) (amap Cconj x) L in Ok (if reality then add_mirrored out L else out).
  Proof using Hs Q.
    clear K Th HL. unfold ssht_inverse_bwd, bwd_list. cbn [try_import bind]. rewrite lread_sampling by exact Hs. cbn [bind].
    destruct (Z.ltb_spec k 2) as [Hk|Hk]; [reflexivity|].
    destruct Q as (Eq & _); [destruct s; cbn [scheme_number] in Hk; auto; try lia; congruence|]. now rewrite Eq.
  Qed.
  Definition total (ct : ndarray C) (l m : Z) : C :=
    over_samples s L (fun t u => (RtoC (ratio t) * get ct [t; u] * sYlm spin l m (th t) (longitude s L 0 t u))%C).
  Definition unit_list (l m : Z) : ndarray C := mkArr [L * L] (fun ix => if nth 0 ix 0 =? l * l + l + m then RtoC 1 else RtoC 0).
  Lemma index_inj l m l' m' : - l <= m <= l -> - l' <= m' <= l' -> 0 <= l -> 0 <= l' -> l * l + l + m = l' * l' + l' + m' -> l = l' /\ m = m'.
  Proof. intros. assert (l = l') by nia. subst. lia. Qed.
  Lemma over_coef_delta (g : Z -> Z -> C) l m : 0 <= l < L -> - l <= m <= l ->
    over_coefficients L (fun l' m' => if (l' =? l) && (m' =? m) then g l' m' else RtoC 0) = g l m.
  Proof.
    clear. intros Hl Hm. unfold over_coefficients.
    transitivity (csum (zrange 0 L) (fun l' => if l' =? l then csum (zrange (- l') (l' + 1)) (fun m' => if m' =? m then g l' m' else RtoC 0) else RtoC 0)).
    - apply cr_ext. intros l' Hl'. destruct (Z.eqb_spec l' l); cbn [andb]; [reflexivity|]. now apply cr_0.
    - etransitivity; [apply cr_delta; exact Hl|]. etransitivity; [apply cr_delta; lia|reflexivity].
  Qed.
  Lemma conj_real f : all_real f -> shape f = map_shape s L 0 -> forall t u, 0 <= t < rings s L 0 -> 0 <= u < per_ring s L -> Cconj (get f [t; u]) = get f [t; u].
  Proof using Hs. intros R S t u Ht Hu. pose proof (R [t; u] (in_map f t u S Ht Hu)) as E. unfold is_real in E. apply C_eq; cbn; [reflexivity|]. unfold Im in E. unfold Im. rewrite E. apply Ropp_0. Qed.

  Lemma unit_listed l m : 0 <= l < L -> - l <= m <= l ->
    listed L (unit_list l m) (fun l' m' => if (l' =? l) && (m' =? m) then RtoC 1 else RtoC 0).
  Proof.
    clear. intros Hl Hm. split; [reflexivity|]. intros l' m' Hl' Hm'. cbn [unit_list get nth].
    destruct (Z.eqb_spec (l' * l' + l' + m') (l * l + l + m)) as [E|E].
    - apply index_inj in E; try lia. destruct E as [-> ->]. now rewrite !Z.eqb_refl.
    - destruct (Z.eqb_spec l' l); cbn [andb]; [|reflexivity]. destruct (Z.eqb_spec m' m); [|reflexivity]. subst. lia.
  Qed.
  (** the list holds the conjugate sums over the samples *)
  Lemma bwd_list_complex b ct : shape ct = map_shape s L 0 ->
    exists x, bwd_list false b ct = Ok x /\ shape x = [L * L] /\
      forall l m, 0 <= l < L -> - l <= m <= l -> Cconj (get x [l * l + l + m]) = if l <? Z.abs spin then RtoC 0 else total ct l m.
  Proof using Hs Th HL K Q.
    intros Sc. unfold bwd_list. destruct (Z.ltb_spec k 2) as [Hk|Hk].
    - assert (Sm : s = MW \/ s = MWSS) by (destruct s; cbn [scheme_number] in Hk; auto; try lia; congruence).
      destruct (inverse_adjoint_is _ _ _ _ _ _ K Sm (backend_str b) (amap Cconj ct) Sc) as (x & Ex & Sx & Ax).
      exists x. split; [exact Ex|]. split; [exact Sx|]. intros l m Hl Hm.
      destruct (inverse_synthesises _ _ _ _ _ _ K (backend_str b) _ _ (unit_listed l m Hl Hm)) as (f & Ef & Hf).
      pose proof (Ax (unit_list l m) f eq_refl Ef) as E. apply (f_equal Cconj) in E. unfold inner_listed, inner_samples in E.
      rewrite over_coef_conj, over_samples_conj in E. transitivity (over_samples s L (fun t u => (get ct [t; u] * get f [t; u])%C)).
      + etransitivity; [symmetry; apply (over_coef_delta (fun l m => Cconj (get x [l * l + l + m])) l m Hl Hm)|]. etransitivity.
        * etransitivity; [|exact E]. apply over_coef_ext. intros l' m' Hl' Hm'. rewrite (proj2 (unit_listed l m Hl Hm) l' m' Hl' Hm').
          destruct ((l' =? l) && (m' =? m)); apply C_eq; cbn; ring.
        * apply over_samples_ext. intros t u Ht Hu. cbn [amap get]. rewrite Cconj_mult, !Cconj_conj. reflexivity.
      + assert (G : forall t u, 0 <= t < rings s L 0 -> 0 <= u < per_ring s L ->
                  get f [t; u] = if l <? Z.abs spin then RtoC 0 else sYlm spin l m (th t) (longitude s L 0 t u)).
        { intros t u Ht Hu. rewrite (sample_of f _ t u Hf Ht Hu), synth_over. etransitivity; [|apply (over_coef_delta (fun l m => if l <? Z.abs spin then RtoC 0 else sYlm spin l m (th t) (longitude s L 0 t u)) l m Hl Hm)].
          apply over_coef_ext. intros l' m' Hl' Hm'. destruct ((l' =? l) && (m' =? m)), (l' <? Z.abs spin); ring. }
        assert (Rt : forall t, ratio t = 1%R) by (intros t; unfold ratio; destruct Sm as [-> | ->]; reflexivity).
        destruct (Z.ltb_spec l (Z.abs spin)).
        * etransitivity; [apply over_samples_ext; intros t u Ht Hu; rewrite G by auto; destruct (Z.ltb_spec l (Z.abs spin)); [|lia]; now rewrite Cmult_0_r|].
          unfold over_samples. apply cr_0. intros. now apply cr_0.
        * unfold total. apply over_samples_ext. intros t u Ht Hu. rewrite G by auto. destruct (Z.ltb_spec l (Z.abs spin)); [lia|]. rewrite Rt. ring.
    - assert (Sm : s = DH \/ s = GL) by (destruct s; cbn [scheme_number] in Hk; auto; try lia; congruence).
      destruct (Q Sm) as (_ & Lq). unfold einsum_tp_t. replace (dim0 ct) with (rings s L 0) by (unfold dim0; rewrite Sc, map_shape_equi by exact Hs; reflexivity).
      cbn [vmap vlen]. rewrite Lq, Z.eqb_refl. cbn [bind]. set (f := amap Cconj _).
      destruct (forward_defined _ _ _ _ _ _ K (backend_str b) f Sc) as (x & Ex & Sx). exists x. split; [exact Ex|]. split; [exact Sx|].
      intros l m Hl Hm. rewrite (forward_integrates _ _ _ _ _ _ K Sm (backend_str b) f x th l m Sc Ex Th Hl Hm).
      destruct (l <? Z.abs spin); [apply C_eq; cbn; ring|]. rewrite over_samples_conj. apply over_samples_ext. intros t u Ht Hu.
      cbn [f amap get nth vmap vat]. rewrite !Cconj_mult, !Cconj_conj.
      replace (ratio t) with (w t * / vat q t)%R by (unfold ratio; destruct Sm as [-> | ->]; reflexivity).
      apply C_eq; cbn; ring.
  Qed.
  Theorem inverse_bwd_complex b ct flm f : shape ct = map_shape s L 0 -> shape flm = [L; 2 * L - 1] ->
    ssht_inverse (Some p) flm L spin false k b = Ok f ->
    exists g, ssht_inverse_bwd (Some p) gl turns L spin false k b ct = Ok g /\ shape g = [L; 2 * L - 1] /\
      pair_coefficients L g flm = over_samples s L (fun t u => (RtoC (ratio t) * (get ct [t; u] * get f [t; u]))%C).
  Proof using Hs Th HL K Q.
    intros Sc Sf Ef. rewrite bwd_unfold. destruct (bwd_list_complex b ct Sc) as (x & Ex & Sx & Gx). rewrite Ex. cbn [bind].
    destruct (coefficients_of_1d L (amap Cconj x) HL Sx) as (o & Eo & So & Go). rewrite Eo. cbn [bind]. exists o. split; [reflexivity|]. split; [exact So|].
    destruct (ssht_inverse_complex flm b Sf) as (f' & Ef' & Hf). rewrite Ef in Ef'. injection Ef' as <-.
    rewrite pair_tri.
    2: { intros l m Hl Hm Ho. rewrite Go by auto. destruct (Z.leb_spec (Z.abs m) l); [lia|reflexivity]. }
    transitivity (over_samples s L (fun t u => over_coefficients L (fun l m =>
       (RtoC (ratio t) * get ct [t; u] * (if l <? Z.abs spin then RtoC 0 else stored L flm l m * sYlm spin l m (th t) (longitude s L 0 t u)))%C))).
    - rewrite over_swap. apply over_coef_ext. intros l m Hl Hm. rewrite Go by lia. destruct (Z.leb_spec (Z.abs m) l); [|lia].
      cbn [amap get]. rewrite Gx by auto. destruct (l <? Z.abs spin).
      + rewrite Cmult_0_l. symmetry. unfold over_samples. apply cr_0. intros. apply cr_0. intros. ring.
      + unfold total. rewrite Cmult_comm, <- over_samples_scal. apply over_samples_ext. intros. ring.
    - apply over_samples_ext. intros t u Ht Hu. rewrite over_coef_scal, (sample_of f _ t u Hf Ht Hu), synth_over. ring.
  Qed.
End Lib.
