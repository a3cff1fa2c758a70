(** A library that keeps the contract: the sums of the reference transforms, written out. *)
From Coq Require Import Reals Lra Lia.
From Coquelicot Require Import Complex.
From Verif Require Import Lib.Py Lib.PyFacts Lib.Vec Lib.Sums Lib.Cplx Lib.Arr Lib.MatFacts Model.Index Model.Samples Model.Grids Model.Turok
  Model.Quadrature Model.QuadratureJax Model.Spherical Model.CBackend Spec.IndexSpec Spec.WignerSpec Spec.SamplesSpec Spec.SphereSpec Spec.GridSpec Spec.QuadSpec
  Spec.HealpixFFTSpec Spec.SphericalSpec Spec.CBackendSpec Proofs.IndexProofs Proofs.GridProofs Proofs.SphGrid Proofs.SphereTheory Proofs.SphTop
  Proofs.SphForwardTop Proofs.SphRound Proofs.SphFacts Proofs.QuadProofs Proofs.CBackendSsht Proofs.CBackendGrad Proofs.CBackendWeights.
From Coq Require Import List.
Import ListNotations.
Open Scope string_scope.
Open Scope Z_scope.

Lemma th_of_is gl s L t : s <> HEALPIX -> (s = GL -> gauss_legendre L (gl_nodes gl L) (gl_weights gl L)) -> 0 <= t < rings s L 0 ->
  colatitude (vat (gl_nodes gl L)) s L 0 t (th_of gl s L 0 t).
Proof.
  intros Hs G Ht. assert (D : {s = GL} + {s <> GL}) by (destruct s; auto; right; discriminate). destruct D as [->|N].
  - cbn [colatitude th_of]. destruct (G eq_refl) as (_ & _ & Hb & _). cbn [rings] in Ht. specialize (Hb (L - 1 - t) ltac:(lia)).
    split; [apply acos_bound|]. apply cos_acos. lra.
  - assert (C : is_colatitude s L 0 t (theta_of s L 0 t)) by (apply theta_of_colatitude; auto; congruence). destruct s; try exact C; congruence.
Qed.

Section L.
  Variables (gl : gl_rule) (s : scheme) (L spin : Z).
  Hypothesis (Hs : s <> HEALPIX) (HL : 1 <= L) (HG : s = GL -> gauss_legendre L (gl_nodes gl L) (gl_weights gl L)).
  Notation nodes := (vat (gl_nodes gl L)).
  Notation th := (th_of gl s L 0).
  Notation ph := (longitude s L 0).
  Notation RR := (rings s L 0).
  Notation NN := (per_ring s L).
  Variable w : vec R.

  Definition analysed (f : ndarray C) (l m : Z) : C :=
    if l <? Z.abs spin then RtoC 0 else fsum (fgrid gl s L 0) spin w (fvals s L 0 spin f) l m.
  Definition unit_map (t u : Z) : ndarray C := mat RR NN (fun a b => if (a =? t) && (b =? u) then RtoC 1 else RtoC 0).
  Definition list_of (c : Z -> Z -> C) : ndarray C := mkArr [L * L] (fun ix => let (l, m) := ind2elm (nth 0 ix 0) in c l m).
  Definition listing (x : ndarray C) (l m : Z) : C := get x [l * l + l + m].

  Definition lib_inverse : ssht_fn := fun x _ _ _ reality _ =>
    Ok (mat RR NN (fun t u => synth L spin (if reality then real_signal (listing x) else listing x) (th t) (ph t u))).
  Definition lib_forward : ssht_fn := fun f _ _ _ _ _ => Ok (list_of (analysed f)).
  Definition lib_inverse_adjoint : ssht_fn := fun f _ _ _ _ _ =>
    Ok (list_of (fun l m => if l <? Z.abs spin then RtoC 0 else over_samples s L (fun t u => get f [t; u] * Cconj (sYlm spin l m (th t) (ph t u)))%C)).
  Definition lib_forward_adjoint : ssht_fn := fun x _ _ _ _ _ =>
    Ok (mat RR NN (fun t u => over_coefficients L (fun l m => listing x l m * Cconj (analysed (unit_map t u) l m))%C)).
  Definition library : pyssht := mkSsht lib_inverse lib_forward lib_inverse_adjoint lib_forward_adjoint.

  Lemma list_of_listed c : listed L (list_of c) c.
  Proof.
    split; [reflexivity|]. intros l m Hl Hm. cbn [list_of get nth].
    replace (l * l + l + m) with (elm2ind l m) by (unfold elm2ind; ring). now rewrite ind2elm_elm2ind by lia.
  Qed.
  Lemma analysed_lin x y f g h l m : shape h = map_shape s L 0 -> combination x y f g h ->
    analysed h l m = (x * analysed f l m + y * analysed g l m)%C.
  Proof.
    intros Hh HC. unfold analysed. destruct (l <? Z.abs spin); [ring|]. apply fsum_lin. intros t p Ht.
    apply (fvals_lin gl s L 0 spin x y f g h t p); auto. congruence.
  Qed.
  Lemma analysed_ext f g l m : shape f = [RR; NN] -> shape g = [RR; NN] ->
    (forall t u, 0 <= t < RR -> 0 <= u < NN -> get f [t; u] = get g [t; u]) -> analysed f l m = analysed g l m.
  Proof.
    intros Sf Sg E. rewrite (analysed_lin (RtoC 1) (RtoC 0) g g f).
    - ring.
    - now rewrite map_shape_equi.
    - split; [congruence|]. split; [congruence|]. rewrite Sf. intros ix Hix. destruct ix as [|t [|u [|]]]; cbn [in_shape] in Hix; try easy.
      rewrite E by tauto. ring.
  Qed.
  Definition part (f : ndarray C) (T U : Z) : ndarray C :=
    mat RR NN (fun a b => if (a <? T) || ((a =? T) && (b <? U)) then get f [a; b] else RtoC 0).
  Lemma part_step f T U l m : shape f = [RR; NN] -> 0 <= T < RR -> 0 <= U < NN ->
    analysed (part f T (U + 1)) l m = (analysed (part f T U) l m + get f [T; U] * analysed (unit_map T U) l m)%C.
  Proof.
    intros Sf HT HU. rewrite (analysed_lin (RtoC 1) (get f [T; U]) (part f T U) (unit_map T U) (part f T (U + 1))).
    - ring.
    - now rewrite map_shape_equi.
    - split; [reflexivity|]. split; [reflexivity|]. intros ix Hix. cbn [part mat shape] in Hix. destruct ix as [|a [|b [|]]]; cbn [in_shape] in Hix; try easy.
      cbn [part unit_map mat get]. unfold mat. cbn [get nth].
      destruct (Z.ltb_spec a T), (Z.eqb_spec a T), (Z.ltb_spec b (U + 1)), (Z.ltb_spec b U), (Z.eqb_spec b U); cbn [andb orb]; try lia; subst; ring.
  Qed.
  Lemma part_row f T U l m : shape f = [RR; NN] -> 0 <= T < RR -> 0 <= U <= NN ->
    analysed (part f T U) l m = (analysed (part f T 0) l m + csum (zrange 0 U) (fun u => get f [T; u] * analysed (unit_map T u) l m))%C.
  Proof.
    intros Sf HT HU. assert (P : forall k, 0 <= k -> k <= NN -> analysed (part f T k) l m
      = (analysed (part f T 0) l m + csum (zrange 0 k) (fun u => get f [T; u] * analysed (unit_map T u) l m))%C); [|apply P; lia].
    apply (natlike_ind (fun k => k <= NN -> analysed (part f T k) l m
      = (analysed (part f T 0) l m + csum (zrange 0 k) (fun u => get f [T; u] * analysed (unit_map T u) l m))%C)).
    - intros _. rewrite cr_nil by lia. ring.
    - intros k Hk IH HU'. rewrite <- Z.add_1_r in *. rewrite part_step by (auto; lia). rewrite IH by lia. rewrite cr_snoc by lia. ring.
  Qed.
  Lemma part_rows f T l m : shape f = [RR; NN] -> 0 <= T <= RR ->
    analysed (part f T 0) l m = csum (zrange 0 T) (fun t => csum (zrange 0 NN) (fun u => get f [t; u] * analysed (unit_map t u) l m))%C.
  Proof.
    intros Sf HT. assert (N0 : 0 < NN) by (destruct s; cbn [per_ring]; try congruence; lia).
    assert (P : forall k, 0 <= k -> k <= RR -> analysed (part f k 0) l m
      = csum (zrange 0 k) (fun t => csum (zrange 0 NN) (fun u => get f [t; u] * analysed (unit_map t u) l m))%C); [|apply P; lia].
    apply (natlike_ind (fun k => k <= RR -> analysed (part f k 0) l m
      = csum (zrange 0 k) (fun t => csum (zrange 0 NN) (fun u => get f [t; u] * analysed (unit_map t u) l m))%C)).
    - intros _. rewrite cr_nil by lia. rewrite (analysed_lin (RtoC 0) (RtoC 0) (part f 0 0) (part f 0 0) (part f 0 0)).
      + ring.
      + now rewrite map_shape_equi.
      + split; [reflexivity|]. split; [reflexivity|]. intros ix Hix. cbn [part mat shape] in Hix. destruct ix as [|a [|b [|]]]; cbn [in_shape] in Hix; try easy.
        unfold part, mat. cbn [get nth]. destruct (Z.ltb_spec a 0), (Z.ltb_spec b 0); try lia. rewrite Bool.andb_false_r. cbn [orb]. ring.
    - intros k Hk IH HU. rewrite <- Z.add_1_r in *. rewrite cr_snoc by lia. rewrite <- IH by lia. rewrite <- part_row by (auto; lia).
      apply analysed_ext; try reflexivity. intros t u Ht Hu. unfold part, mat. cbn [get nth].
      destruct (Z.ltb_spec t (k + 1)), (Z.ltb_spec t k), (Z.eqb_spec t k), (Z.ltb_spec u NN), (Z.ltb_spec u 0), (Z.eqb_spec t (k + 1)); cbn [andb orb]; try lia; reflexivity.
  Qed.
  Lemma analysed_sum f l m : shape f = [RR; NN] -> analysed f l m = over_samples s L (fun t u => get f [t; u] * analysed (unit_map t u) l m)%C.
  Proof.
    intros Sf. assert (0 < RR) by (destruct s; cbn [rings]; try congruence; lia). unfold over_samples. rewrite <- part_rows by (auto; lia).
    apply analysed_ext; try (auto; reflexivity). intros t u Ht Hu. unfold part, mat. cbn [get nth]. destruct (Z.ltb_spec t RR); try lia. reflexivity.
  Qed.
End L.

(** the weights of the library *)
Lemma lib_weights gl s L : s <> HEALPIX -> 1 <= L -> (s = GL -> gauss_legendre L (gl_nodes gl L) (gl_weights gl L)) ->
  exists w, quad_weights_transform gl L (fname (scheme_name s) s) 0 None = Ok w /\
    (s = DH \/ s = GL -> forall t, 0 <= t < rings s L 0 -> vat w t = library_weight (vat (gl_weights gl L)) s L t).
Proof.
  intros Hs HL HG. destruct s; try congruence; cbn [scheme_name fname].
  1,2: destruct (transform_mwss_ok gl L 0 None HL) as (w & E & _); exists w; split; [exact E|intros [X|X]; discriminate X].
  - destruct (dh_code gl 0 L HL) as (q & E & _ & W).
    rewrite (QuadJaxProofs.transform_same gl 0 L (lower (method_name DH)) None 0) in E by (intros X; discriminate X).
    exists q. split; [exact E|]. intros _ t Ht. now apply W.
  - eexists. split; [reflexivity|]. intros _ t Ht. cbn [vmap vat]. unfold library_weight, Rdiv. ring.
Qed.

Lemma analysed_recovers gl s L spin w f c l m : s <> HEALPIX -> 1 <= L -> (s = GL -> gauss_legendre L (gl_nodes gl L) (gl_weights gl L)) ->
  quad_weights_transform gl L (fname (scheme_name s) s) 0 None = Ok w ->
  holds_samples (vat (gl_nodes gl L)) s L 0 f (synth L spin c) -> 0 <= l < L -> - L < m < L ->
  analysed gl s L spin w f l m = restricted 0 spin c l m.
Proof.
  intros Hs HL HG Ew HF Hl Hm.
  assert (S : setting (scheme_name s) s L 0 None) by (split; [destruct s; reflexivity|]; split; [auto|congruence]).
  destruct (weights_exact gl (scheme_name s) s L 0 None w S Hs HG Ew) as (n & th & GE & HW).
  assert (HR : represented (vat (gl_nodes gl L)) s L 0 spin f (synth L spin c)) by (split; [exact HF|intros _; apply synth_band_limited]).
  unfold analysed. rewrite <- (fsum_round (fscheme s) L spin 0 n th w (fvals s L 0 spin f) c) by (auto; try lia; try (destruct s; cbn; congruence);
    intros t p Ht Hp; rewrite (fvals_signal_gen gl s L 0 spin f (synth L spin c)) by (auto; try congruence; try (intros; apply th_of_is; auto); rewrite GE; split; auto); now rewrite GE).
  rewrite GE. rewrite Z.max_r by lia. destruct (Z.ltb_spec l (Z.abs spin)), (Z.leb_spec (Z.abs spin) l); try lia; reflexivity.
Qed.
Theorem library_keeps gl s L spin w : s <> HEALPIX -> 1 <= L -> (s = GL -> gauss_legendre L (gl_nodes gl L) (gl_weights gl L)) ->
  quad_weights_transform gl L (fname (scheme_name s) s) 0 None = Ok w ->
  ssht_contract (vat (gl_nodes gl L)) (vat w) s L spin (library gl s L spin w).
Proof.
  intros Hs HL HG Ew. set (nodes := vat (gl_nodes gl L)).
  assert (UN : forall t x, 0 <= t < rings s L 0 -> colatitude nodes s L 0 t x -> x = th_of gl s L 0 t)
    by (intros t x Ht Hx; apply (colat_unique gl s L 0 t x); auto; congruence).
  assert (SY : forall r x c, listed L x c -> holds_samples nodes s L 0
      (mat (rings s L 0) (per_ring s L) (fun t u => synth L spin (if r : bool then real_signal (listing x) else listing x) (th_of gl s L 0 t) (longitude s L 0 t u)))
      (synth L spin (if r then real_signal c else c))).
  { intros r x c [Sx Hx]. split; [now rewrite map_shape_equi|]. intros t u y Ht Hu Hy. rewrite (UN t y) by auto. rewrite sample_equi by auto.
    unfold mat. cbn [get nth]. apply CBackendGrad.synth_ext. intros l m Hl Hm. destruct r; [|now apply Hx].
    unfold real_signal, real_extension, listing. destruct (Z.eqb_spec m 0); [now rewrite Hx by lia|]. destruct (Z.ltb_spec m 0); now rewrite Hx by lia. }
  split.
  - intros b x c Hx. eexists. split; [reflexivity|]. exact (SY false x c Hx).
  - intros b f Sf. eexists. split; reflexivity.
  - intros b f x c HF E. cbn in E. injection E as <-. split; [reflexivity|]. intros l m Hl Hm. rewrite (proj2 (list_of_listed L _) l m Hl Hm).
    apply analysed_recovers; auto; lia.
  - intros D b f x th l m Sf E Hth Hl Hm. cbn in E. injection E as <-. rewrite (proj2 (list_of_listed L _) l m Hl Hm).
    unfold analysed. destruct (l <? Z.abs spin); [reflexivity|].
    assert (GE : fgrid gl s L 0 = equi_grid s L (rings s L 0) (th_of gl s L 0)) by (destruct D as [->| ->]; reflexivity).
    rewrite GE. unfold fsum, over_samples. cbn [equi_grid gn gN gth gph]. apply cr_ext. intros t Ht. rewrite <- cs_scal_l. apply cr_ext. intros u Hu.
    assert (EV : fvals s L 0 spin f t u = get f [t; u]) by (destruct D as [->| ->]; reflexivity). rewrite EV.
    assert (LE : longitude s L 0 t u = equi_longitude s L u) by (destruct D as [->| ->]; reflexivity). rewrite LE.
    rewrite (UN t (th t)) by auto. unfold sYlm. rewrite Cconj_mult, Cconj_R, cis_conj, !RtoC_mult. unfold elfactor. ring.
  - intros _ b f Sf. eexists. split; [reflexivity|]. split; [reflexivity|]. intros y g Sy E. cbn in E. injection E as <-.
    unfold inner_listed, inner_samples.
    transitivity (over_coefficients L (fun l m => over_samples s L (fun t u => if l <? Z.abs spin then RtoC 0 else
      get f [t; u] * Cconj (sYlm spin l m (th_of gl s L 0 t) (longitude s L 0 t u)) * Cconj (get y [(l * l + l + m)%Z])))%C).
    + apply over_coef_ext. intros l m Hl Hm. rewrite (proj2 (list_of_listed L _) l m Hl Hm). destruct (l <? Z.abs spin).
      * symmetry. rewrite Cmult_0_l. unfold over_samples. apply cr_0. intros. apply cr_0. reflexivity.
      * rewrite Cmult_comm. rewrite <- over_samples_scal. apply over_samples_ext. intros. ring.
    + rewrite <- over_swap. apply over_samples_ext. intros t u Ht Hu. unfold mat. cbn [get nth]. rewrite synth_over, over_coef_conj, <- over_coef_scal.
      apply over_coef_ext. intros l m Hl Hm. destruct (l <? Z.abs spin).
      * rewrite Cconj_R. ring.
      * rewrite Cconj_mult. unfold listing. ring.
  - intros _ b x Sx. eexists. split; [reflexivity|]. split; [now rewrite map_shape_equi|]. intros g y Sg E. cbn in E. injection E as <-.
    unfold inner_listed, inner_samples. rewrite map_shape_equi in Sg by auto.
    transitivity (over_coefficients L (fun l m => over_samples s L (fun t u => listing x l m * Cconj (analysed gl s L spin w (unit_map s L t u) l m) * Cconj (get g [t; u])))%C).
    + rewrite <- over_swap. apply over_samples_ext. intros t u Ht Hu. unfold mat. cbn [get nth]. rewrite Cmult_comm, <- over_coef_scal.
      apply over_coef_ext. intros. ring.
    + apply over_coef_ext. intros l m Hl Hm. rewrite (proj2 (list_of_listed L _) l m Hl Hm). rewrite (analysed_sum gl s L spin Hs HL HG w g l m Sg).
      rewrite over_samples_conj, <- over_samples_scal. apply over_samples_ext. intros t u Ht Hu. rewrite Cconj_mult. unfold listing. ring.
  - intros H0 b x c Hx. eexists. split; [reflexivity|]. exact (SY true x c Hx).
  - intros _ b f Sf _. exists (list_of L (analysed gl s L spin w f)), (list_of L (analysed gl s L spin w f)). split; [reflexivity|]. split; [reflexivity|]. split; reflexivity.
  - intros _ _ b f Sf _. eexists _, _. split; [reflexivity|]. split; [reflexivity|]. split; reflexivity.
  - intros _ _ b x c _ _. eexists _, _. split; [reflexivity|]. split; [reflexivity|]. split; reflexivity.
Qed.
(** the contract with other weights that agree on the rings *)
Lemma contract_weights nodes w w' s L spin p : ssht_contract nodes w s L spin p -> (s = DH \/ s = GL -> forall t, 0 <= t < rings s L 0 -> w t = w' t) ->
  ssht_contract nodes w' s L spin p.
Proof.
  intros [A1 A2 A3 A4 A5 A6 A7 A8 A9 A10] E. split; auto. intros D b f x th l m Sf Ex Hth Hl Hm. rewrite (A4 D b f x th l m) by auto.
  destruct (l <? Z.abs spin); [reflexivity|]. apply over_samples_ext. intros t u Ht Hu. now rewrite E.
Qed.
Theorem library_exists gl s L spin : s <> HEALPIX -> 1 <= L -> (s = GL -> gauss_legendre L (gl_nodes gl L) (gl_weights gl L)) ->
  exists p, ssht_contract (vat (gl_nodes gl L)) (library_weight (vat (gl_weights gl L)) s L) s L spin p.
Proof.
  intros Hs HL HG. destruct (lib_weights gl s L Hs HL HG) as (w & Ew & W). exists (library gl s L spin w).
  apply (contract_weights _ (vat w)); [|exact W]. now apply library_keeps.
Qed.
