(** Consequences of the inverse and forward lemmas. *)
From Coq Require Import Reals ZifyBool Lra.
From Coquelicot Require Import Complex.
From Verif Require Import Lib.Py Lib.PyFacts Lib.Vec Lib.VecFacts Lib.Sums Lib.Cplx Lib.Arr Lib.ArrFacts Lib.MatFacts
  Model.Index Model.Samples Model.Grids Model.FFT Model.HealpixFFT Model.Turok Model.Resampling Model.Quadrature Model.Spherical
  Spec.SamplesSpec Spec.WignerSpec Spec.SphereSpec Spec.GridSpec Spec.HealpixFFTSpec Spec.SphericalSpec Spec.QuadSpec
  Proofs.SamplesProofs Proofs.GridProofs Proofs.PixelProofs Proofs.TurokProofs Proofs.HealpixDFTProofs Proofs.SphGrid
  Proofs.WignerCalc Proofs.WignerFourier Proofs.SphereTheory Proofs.ResamplingProofs Proofs.ResamplingFacts Proofs.ResamplingGen Proofs.QuadProofs
  Proofs.SphInverse Proofs.SphTop Proofs.SphForward Proofs.SphForwardTop Proofs.SphRound.
Open Scope string_scope.
Open Scope Z_scope.

Lemma synth_ext L s c c' theta phi : (forall l m, Z.abs s <= l < L -> - l <= m <= l -> c l m = c' l m) ->
  synth L s c theta phi = synth L s c' theta phi.
Proof. intros H. apply cr_ext. intros l Hl. apply cr_ext. intros m Hm. rewrite H by lia. reflexivity. Qed.

Lemma on_grid_holds gl s L nside f F : (s = HEALPIX -> 1 <= nside) ->
  on_grid (the_grid gl s L nside) f (fun t p => F (th_of gl s L nside t) (longitude s L nside t p)) ->
  holds_samples (vat (gl_nodes gl L)) s L nside f F.
Proof.
  intros Hn [Hs Hf]. rewrite the_grid_sh in Hs. split; [exact Hs|]. intros t p x Ht Hp Hx.
  rewrite (colat_unique gl s L nside t x) by auto. rewrite <- Hf; [now rewrite the_grid_e|].
  split; [now rewrite the_grid_n|now rewrite the_grid_N].
Qed.

Lemma th_of_colat gl s L nside t : (s = HEALPIX -> 1 <= nside) -> 0 <= t < rings s L nside ->
  rings_away (vat (gl_nodes gl L)) s L nside -> colatitude (vat (gl_nodes gl L)) s L nside t (th_of gl s L nside t).
Proof.
  intros Hn Ht Ha. destruct (Ha t Ht) as (x & Hx & _). now rewrite <- (colat_unique gl s L nside t x) by auto.
Qed.

Lemma fgrid_away gl s L nside : (s = HEALPIX -> 1 <= nside) -> forward_rings_away (vat (gl_nodes gl L)) s L nside ->
  forall t, 0 <= t < gn (fgrid gl s L nside) -> away_from_poles (gth (fgrid gl s L nside) t).
Proof.
  intros Hn Ha t Ht. destruct s; cbn [fgrid forward_rings_away] in *.
  1-2: cbn [equi_grid gn gth] in *; apply Ha; lia.
  all: rewrite the_grid_th; rewrite the_grid_n in Ht; destruct (Ha t Ht) as (x & Hx & Hx');
    rewrite <- (colat_unique gl _ L nside t x); auto.
Qed.

(** the resampled map of a represented signal holds its samples *)
Lemma fvals_signal_gen gl s L nside spin f F t p : 1 <= L -> (s = HEALPIX -> 1 <= nside) ->
  (s <> MW -> s <> MWSS -> forall t, 0 <= t < rings s L nside -> colatitude (vat (gl_nodes gl L)) s L nside t (th_of gl s L nside t)) ->
  represented (vat (gl_nodes gl L)) s L nside spin f F -> in_grid (fgrid gl s L nside) t p ->
  fvals s L nside spin f t p = F (gth (fgrid gl s L nside) t) (gph (fgrid gl s L nside) t p).
Proof.
  intros HL Hn Ha [[Hsh Hf] Hb] [Ht Hp].
  assert (UP : forall f1 F1, is_mat f1 (L + 1) (2 * L) F1 -> sampled f1 (L + 1) (2 * L) (mwss_theta L) (mwss_phi L) F -> band_limited L spin F ->
    0 <= t < 2 * L + 1 -> 0 <= p < 2 * L -> up_op L spin F1 t p = F (mwss_theta (2 * L) t) (equi_longitude MWSS L p)).
  { intros f1 F1 H1 H2 HB Ht' Hp'. destruct (up_op_ok L spin HL numpy f1 F1 H1) as (g & E & Hg).
    destruct (C17_lemma numpy L spin F f1 HL HB H2) as (g' & E' & Hg'). rewrite E in E'. injection E' as <-.
    transitivity (at2 g t p); [symmetry; apply (proj2 Hg); auto|]. exact (proj2 Hg' t p Ht' Hp'). }
  assert (ASIS : s <> MW -> s <> MWSS -> fvals s L nside spin f t p = F (gth (fgrid gl s L nside) t) (gph (fgrid gl s L nside) t p)).
  { intros N1 N2. assert (GE : fgrid gl s L nside = the_grid gl s L nside) by (destruct s; try congruence; reflexivity). rewrite GE in *.
    rewrite the_grid_th, the_grid_ph. rewrite the_grid_n in Ht. rewrite the_grid_N in Hp. rewrite <- Hf by auto. destruct s; try congruence; reflexivity. }
  destruct s; try (apply ASIS; discriminate).
  - cbn [fvals fgrid equi_grid gn gN gth gph] in *.
    assert (HB := Hb (or_introl eq_refl)).
    assert (HS : sampled f L (2 * L - 1) (mw_theta L) (mw_phi L) F).
    { split; [exact Hsh|]. intros t' p' Ht' Hp'. apply (Hf t' p' (mw_theta L t')); auto. reflexivity. }
    destruct (C16_lemma numpy L spin F f HL HB HS) as (g & E & Hg).
    destruct (mw_op_ok L spin HL numpy f (at2 f)) as (g' & E' & Hg'); [split; auto|]. rewrite E in E'. injection E' as <-.
    apply (UP g); auto.
  - cbn [fvals fgrid equi_grid gn gN gth gph] in *. assert (HB := Hb (or_intror eq_refl)).
    apply (UP f); auto; [split; auto|].
    split; [exact Hsh|]. intros t' p' Ht' Hp'. apply (Hf t' p' (mwss_theta L t')); auto. reflexivity.
Qed.
Lemma fvals_signal gl s L nside spin f F t p : 1 <= L -> (s = HEALPIX -> 1 <= nside) ->
  forward_rings_away (vat (gl_nodes gl L)) s L nside ->
  represented (vat (gl_nodes gl L)) s L nside spin f F -> in_grid (fgrid gl s L nside) t p ->
  fvals s L nside spin f t p = F (gth (fgrid gl s L nside) t) (gph (fgrid gl s L nside) t p).
Proof.
  intros HL Hn Ha. apply fvals_signal_gen; auto. intros N1 N2 t' Ht'. apply th_of_colat; auto. destruct s; try congruence; exact Ha.
Qed.

(** ** Exact quadrature of the sums *)
Lemma fsum_round s L spin Lo n th w v c : 1 <= L -> s <> HEALPIX -> 0 <= Lo ->
  (forall t p, 0 <= t < n -> 0 <= p < per_ring s L -> v t p = synth L spin c (th t) (equi_longitude s L p)) ->
  (forall k, - (2 * L) < k < 2 * L ->
     rsum (zrange 0 n) (fun t => (IZR (per_ring s L) * vat w t * cos (IZR k * th t))%R) = (2 * PI * Re (mw_weights k))%R) ->
  forall el m, 0 <= el < L -> - L < m < L ->
    (if Z.max Lo (Z.abs spin) <=? el then fsum (equi_grid s L n th) spin w v el m else RtoC 0) = restricted Lo spin c el m.
Proof.
  intros HL Hs HLo Hv HQ el m Hel Hm.
  set (f := mat n (per_ring s L) v).
  set (flm := mat L (2 * L - 1) (fun el q => if Z.max Lo (Z.abs spin) <=? el then fsum (equi_grid s L n th) spin w v el (q - (L - 1)) else RtoC 0)).
  assert (R1 : get flm [el; m + L - 1] = if Z.max Lo (Z.abs spin) <=? el then fsum (equi_grid s L n th) spin w v el m else RtoC 0).
  { unfold flm, mat. cbn [get nth]. replace (m + L - 1 - (L - 1)) with m by lia. reflexivity. }
  rewrite <- R1. apply (round_core f L spin Lo s n th w c flm); auto.
  split; [reflexivity|]. intros el' m' H1 H2. unfold flm, mat. cbn [get nth]. replace (m' + L - 1 - (L - 1)) with m' by lia. reflexivity.
Qed.

(** the quadrature of each exact scheme *)
Lemma weights_exact gl name s L nside o w : setting name s L nside o -> s <> HEALPIX ->
  (s = GL -> gauss_legendre L (gl_nodes gl L) (gl_weights gl L)) ->
  quad_weights_transform gl L (fname name s) 0 o = Ok w ->
  exists n th, fgrid gl s L nside = equi_grid (fscheme s) L n th /\
  forall k, - (2 * L) < k < 2 * L ->
     rsum (zrange 0 n) (fun t => (IZR (per_ring (fscheme s) L) * vat w t * cos (IZR k * th t))%R) = (2 * PI * Re (mw_weights k))%R.
Proof.
  intros (Hd & HL & Hn) Hs HG Ew. pose proof Hd as Hd'. unfold denotes in Hd'.
  assert (MS : quad_weights_transform gl L "mwss" 0 o = Ok w -> forall k, - (2 * L) < k < 2 * L ->
     rsum (zrange 0 (2 * L + 1)) (fun t => (IZR (2 * L) * vat w t * cos (IZR k * mwss_theta (2 * L) t))%R) = (2 * PI * Re (mw_weights k))%R).
  { intros E. destruct (transform_mwss_ok gl L 0 o HL) as (w' & E' & _ & H). rewrite E in E'. injection E' as <-. exact H. }
  destruct s; cbn [fname fgrid fscheme] in *; try congruence.
  - exists (2 * L + 1), (mwss_theta (2 * L)). split; [reflexivity|]. now apply MS.
  - exists (2 * L + 1), (mwss_theta (2 * L)). split; [reflexivity|]. now apply MS.
  - unfold quad_weights_transform in Ew. rewrite Hd' in Ew. change (quad_weights_dh gl L = Ok w) in Ew.
    exists (2 * L), (dh_theta L). split; [reflexivity|].
    destruct (dh_weights_ok gl L HL) as (w' & E' & _ & H). rewrite Ew in E'. injection E' as <-. exact H.
  - unfold quad_weights_transform in Ew. rewrite Hd' in Ew. change (quad_weights_gl gl L = Ok w) in Ew.
    exists L, (th_of gl GL L nside). split; [reflexivity|].
    destruct (gl_weights_ok gl L HL) as (w' & E' & _ & H). rewrite Ew in E'. injection E' as <-. apply H.
    destruct (HG eq_refl) as (Lx & Lw & Hb & Hi & HE). intros j Hj. rewrite <- HE by auto. apply rr_ext. intros t Ht. do 2 f_equal.
    cbn [th_of]. apply cos_acos. specialize (Hb (L - 1 - t) ltac:(lia)). lra.
Qed.

(** ** Real signals *)
Lemma sYlm_conj l m theta phi : - l <= m <= l -> sYlm 0 l (- m) theta phi = (RtoC (sgn m) * Cconj (sYlm 0 l m theta phi))%C.
Proof.
  intros Hm. unfold sYlm. change (- 0) with 0. rewrite <- (Z.opp_0) at 2. rewrite wig_flip by lia.
  rewrite Cconj_mult, Cconj_R, cis_conj. rewrite Z.sub_0_r, opp_IZR.
  replace (- IZR m * phi)%R with (- (IZR m * phi))%R by ring. rewrite !RtoC_mult. ring.
Qed.

Lemma synth_real L c theta phi : hermitian L c -> is_real (synth L 0 c theta phi).
Proof.
  intros H. assert (E : Cconj (synth L 0 c theta phi) = synth L 0 c theta phi).
  { unfold synth. rewrite csum_conj. apply cr_ext. intros l Hl. rewrite csum_conj.
    rewrite <- (cr_perm (- l) (l + 1) (- l) (l + 1) Z.opp (fun m => (c l m * sYlm 0 l m theta phi)%C)) by lia.
    apply cr_ext. intros m Hm. rewrite Cconj_mult, H, sYlm_conj by lia.
    transitivity (RtoC (sgn m * sgn m) * (Cconj (c l m) * Cconj (sYlm 0 l m theta phi)))%C; [rewrite sgn_sq; ring|rewrite RtoC_mult; ring]. }
  destruct (synth L 0 c theta phi) as [a b]. unfold is_real, Cconj in *. cbn in *. injection E. lra.
Qed.

Lemma real_ext_id L c l m : hermitian L c -> 0 <= l < L -> - l <= m <= l -> real_extension c l m = c l m.
Proof.
  intros H Hl Hm. unfold real_extension. destruct (Z.ltb_spec m 0) as [B|B]; [|reflexivity].
  pose proof (H l (- m) Hl ltac:(lia)) as E. rewrite Z.opp_involutive, sgn_opp in E. now symmetry.
Qed.
Lemma real_ext_herm L c : (forall el, 0 <= el < L -> is_real (c el 0)) -> hermitian L (real_extension c).
Proof.
  intros H el m Hel Hm. unfold real_extension. destruct (Z.ltb_spec m 0) as [B|B], (Z.ltb_spec (- m) 0) as [B'|B']; try lia.
  - rewrite Cconj_mult, Cconj_R, Cconj_conj. transitivity (RtoC (sgn m * sgn m) * c el (- m)%Z)%C; [rewrite sgn_sq; ring|rewrite RtoC_mult; ring].
  - rewrite Z.opp_involutive, sgn_opp. reflexivity.
  - assert (m = 0) by lia. subst m. change (- 0) with 0. rewrite (real_conj (c el 0)) by (apply H; lia). change (sgn 0) with 1%R. ring.
Qed.
Lemma above_herm L Lo c : hermitian L c -> hermitian L (above Lo c).
Proof.
  intros H el m Hel Hm. unfold above. destruct (el <? Lo); [|now apply H]. rewrite Cconj_R. ring.
Qed.
Lemma herm_real L c el : hermitian L c -> 0 <= el < L -> is_real (c el 0).
Proof.
  intros H Hel. specialize (H el 0 Hel ltac:(lia)). change (- 0) with 0 in H. change (sgn 0) with 1%R in H.
  destruct (c el 0) as [a b]. unfold is_real, Cconj, Cmult, RtoC in *. cbn in *. injection H. lra.
Qed.
Lemma used_herm L reality spin Lo c l m : (reality = true -> spin = 0 -> hermitian L c) -> 0 <= l < L -> - l <= m <= l ->
  used_coefficients reality spin Lo c l m = above Lo c l m.
Proof.
  intros H Hl Hm. unfold used_coefficients, above. destruct (l <? Lo); [reflexivity|].
  destruct reality; [|reflexivity]. cbn [andb]. destruct (Z.eqb_spec spin 0); [|reflexivity]. apply (real_ext_id L); auto.
Qed.

Lemma fsum_conj g w v el m : (forall t p, in_grid g t p -> is_real (v t p)) -> 
  fsum g 0 w v el (- m) = (RtoC (sgn m) * Cconj (fsum g 0 w v el m))%C.
Proof.
  intros Hv. unfold fsum. rewrite csum_conj, <- cs_scal_l. apply cr_ext. intros t Ht.
  rewrite Cconj_mult, Cconj_R, csum_conj.
  assert (D : wigner_d el (- m) (- 0) (gth g t) = (sgn m * wigner_d el m (- 0) (gth g t))%R).
  { destruct (Z_le_dec (Z.abs m) el) as [B|B].
    - change (- 0) with 0. rewrite <- Z.opp_0 at 1. rewrite wig_flip by lia. now rewrite Z.sub_0_r.
    - rewrite !wig_out by lia. ring. }
  rewrite D. transitivity (RtoC (vat w t * sgn 0 * elfactor el * (sgn m * wigner_d el m (- 0) (gth g t))) *
    csum (zrange 0 (gN g t)) (fun p => Cconj (cis (- (IZR m * gph g t p)) * v t p)))%C; [|rewrite !RtoC_mult; ring].
  f_equal. apply cr_ext. intros p Hp. rewrite Cconj_mult, cis_conj, (real_conj (v t p)) by (apply Hv; now split).
  rewrite opp_IZR. f_equal. f_equal. ring.
Qed.

Lemma fsum_lin g spin w x y u v u' el m : (forall t p, in_grid g t p -> u' t p = (x * u t p + y * v t p)%C) ->
  fsum g spin w u' el m = (x * fsum g spin w u el m + y * fsum g spin w v el m)%C.
Proof.
  intros H. unfold fsum. rewrite <- !cs_scal_l, <- cs_plus. apply cr_ext. intros t Ht.
  rewrite (cr_ext _ _ _ (fun p => (x * (cis (- (IZR m * gph g t p)) * u t p) + y * (cis (- (IZR m * gph g t p)) * v t p))%C)).
  - rewrite cs_plus, !cs_scal_l. ring.
  - intros p Hp. rewrite H by (now split). ring.
Qed.

(** the values summed depend linearly on the map *)
Lemma up_op_in L spin f F G t p : 1 <= L -> is_mat f (L + 1) (2 * L) F -> is_mat f (L + 1) (2 * L) G -> 0 <= t < 2 * L + 1 -> 0 <= p < 2 * L ->
  up_op L spin F t p = up_op L spin G t p.
Proof.
  intros HL HF HG Ht Hp. destruct (up_op_ok L spin HL numpy f F HF) as (g & E & Hg). destruct (up_op_ok L spin HL numpy f G HG) as (g' & E' & Hg').
  rewrite E in E'. injection E' as <-. rewrite <- (proj2 Hg) by auto. now rewrite <- (proj2 Hg') by auto.
Qed.
Lemma mw_op_in L spin f F G t p : 1 <= L -> is_mat f L (2 * L - 1) F -> is_mat f L (2 * L - 1) G -> 0 <= t < L + 1 -> 0 <= p < 2 * L ->
  ph_op L (th_op L spin F) t p = ph_op L (th_op L spin G) t p.
Proof.
  intros HL HF HG Ht Hp. destruct (mw_op_ok L spin HL numpy f F HF) as (g & E & Hg). destruct (mw_op_ok L spin HL numpy f G HG) as (g' & E' & Hg').
  rewrite E in E'. injection E' as <-. rewrite <- (proj2 Hg) by auto. now rewrite <- (proj2 Hg') by auto.
Qed.
Lemma fvals_lin gl s L nside spin x y f g h t p : 1 <= L -> (s = HEALPIX -> 1 <= nside) -> shape h = map_shape s L nside -> combination x y f g h ->
  in_grid (fgrid gl s L nside) t p ->
  fvals s L nside spin h t p = (x * fvals s L nside spin f t p + y * fvals s L nside spin g t p)%C.
Proof.
  intros HL Hn Hh (Hf & Hg & Hc) [Ht Hp].
  assert (ASIS : s <> MW -> s <> MWSS -> get h (sample_index s nside t p) = (x * get f (sample_index s nside t p) + y * get g (sample_index s nside t p))%C).
  { intros N1 N2. apply Hc. rewrite Hh.
    assert (GE : fgrid gl s L nside = the_grid gl s L nside) by (destruct s; try congruence; reflexivity). rewrite GE in *.
    rewrite <- (the_grid_sh gl s L nside), <- (the_grid_e gl s L nside).
    eapply go_sh; [|split; [exact Ht|exact Hp]].
    apply (the_grid_ok gl (scheme_name s) s L nside (Some nside) (mkVec (rings s L nside) (th_of gl s L nside))); auto. now destruct s. }
  destruct s; try (apply ASIS; discriminate); cbn [fvals fgrid equi_grid gn gN per_ring map_shape rings] in *.
  - assert (M : forall t p, 0 <= t < L + 1 -> 0 <= p < 2 * L -> ph_op L (th_op L spin (at2 h)) t p = ph_op L (th_op L spin (comb2 x y (at2 f) (at2 g))) t p).
    { intros t' p' Ht' Hp'. apply (mw_op_in L spin h); auto; split; auto. intros r c Hr Hc'. unfold comb2, at2. apply Hc. rewrite Hh. cbn [in_shape]. lia. }
    destruct (mw_op_ok L spin HL numpy h (at2 h)) as (h1 & _ & H1); [split; auto|].
    rewrite <- up_op_lin. apply (up_op_in L spin h1); auto. split; [exact (proj1 H1)|]. intros r c Hr Hc'. rewrite (proj2 H1) by auto.
    rewrite M by auto. transitivity (ph_op L (comb2 x y (th_op L spin (at2 f)) (th_op L spin (at2 g))) r c);
      [apply ph_op_ext; intros; apply th_op_lin|apply ph_op_lin].
  - rewrite <- up_op_lin. apply (up_op_in L spin h); auto; split; auto. intros r c Hr Hc'. unfold comb2, at2. apply Hc. rewrite Hh. cbn [in_shape]. lia.
Qed.

(** ** The transforms *)
Lemma synthesis_lemma gl name s flm L spin method nside o reality Lo :
  setting name s L nside o -> 0 <= Lo < L -> shape flm = [L; 2 * L - 1] -> (s = GL -> vlen (gl_nodes gl L) = L) ->
  rings_away (vat (gl_nodes gl L)) s L nside -> method_allowed name method s L nside spin reality flm ->
  exists f, inverse_ gl flm L spin name method o reality Lo = Ok f /\
    holds_samples (vat (gl_nodes gl L)) s L nside f (synth L spin (used_coefficients reality spin Lo (stored L flm))).
Proof.
  intros (Hd & HL & Hn) HLo Hf Hg Ha Hm.
  destruct (inverse_lemma gl name s flm L spin method nside o reality Lo Hd HL HLo Hf Hn Hg Ha Hm) as (f & E & Hf').
  exists f. split; [exact E|]. apply on_grid_holds; auto. intros Q. apply (Hn Q).
Qed.

(** two inverse transforms whose signals have the same coefficients *)
Lemma inverse_same gl name name' s flm flm' L spin method method' nside o o' reality reality' Lo Lo' :
  setting name s L nside o -> setting name' s L nside o' -> 0 <= Lo < L -> 0 <= Lo' < L ->
  shape flm = [L; 2 * L - 1] -> shape flm' = [L; 2 * L - 1] -> (s = GL -> vlen (gl_nodes gl L) = L) ->
  rings_away (vat (gl_nodes gl L)) s L nside ->
  method_allowed name method s L nside spin reality flm -> method_allowed name' method' s L nside spin reality' flm' ->
  (forall l m, Z.abs spin <= l < L -> - l <= m <= l ->
     used_coefficients reality spin Lo (stored L flm) l m = used_coefficients reality' spin Lo' (stored L flm') l m) ->
  same_ok (inverse_ gl flm L spin name method o reality Lo) (inverse_ gl flm' L spin name' method' o' reality' Lo').
Proof.
  intros (Hd & HL & Hn) (Hd' & _ & Hn') HLo HLo' Hf Hf' Hg Ha Hm Hm' HC.
  destruct (inverse_lemma gl name s flm L spin method nside o reality Lo Hd HL HLo Hf Hn Hg Ha Hm) as (f & E & HF).
  destruct (inverse_lemma gl name' s flm' L spin method' nside o' reality' Lo' Hd' HL HLo' Hf' Hn' Hg Ha Hm') as (f' & E' & HF').
  exists f, f'. split; [exact E|]. split; [exact E'|].
  assert (G := the_grid_ok gl name s L nside o (mkVec (rings s L nside) (th_of gl s L nside)) Hd HL Hn eq_refl ltac:(reflexivity)).
  apply (on_grid_eq _ _ _ _ _ _ _ _ _ G HF HF'). intros t p _. cbv beta. now apply synth_ext.
Qed.

Definition real_values gl s L nside spin f : Prop :=
  forall t p, in_grid (fgrid gl s L nside) t p -> is_real (fvals s L nside spin f t p).
Lemma analysis_lemma gl name s f L spin method nside o reality Lo :
  setting name s L nside o -> 0 <= Lo < L -> shape f = map_shape s L nside -> rule_sizes s L (gl_nodes gl L) (gl_weights gl L) ->
  forward_rings_away (vat (gl_nodes gl L)) s L nside -> forward_allowed name method s L nside ->
  (reality = true -> spin = 0 -> real_values gl s L nside spin f) ->
  exists w flm, quad_weights_transform gl L (fname name s) 0 o = Ok w /\
    forward_ gl f L spin name method o reality Lo = Ok flm /\ 
    holds_coefficients L flm (fun el m =>
      if Z.max Lo (Z.abs spin) <=? el then fsum (fgrid gl s L nside) spin w (fvals s L nside spin f) el m else RtoC 0).
Proof.
  intros (Hd & HL & Hn) HLo Hf Hg Ha Hm Hr.
  destruct (forward_lemma gl name s f L spin method nside o reality Lo) as (w & flm & E1 & E2 & H1 & H2); auto.
  - apply fgrid_away; auto. intros Q. apply (Hn Q).
  - exists w, flm. split; [exact E1|]. split; [exact E2|]. split; [exact H1|exact H2].
Qed.

Lemma fname_same gl name name' s L nside o o' : setting name s L nside o -> setting name' s L nside o' ->
  quad_weights_transform gl L (fname name s) 0 o = quad_weights_transform gl L (fname name' s) 0 o'.
Proof.
  intros (Hd & HL & Hn) (Hd' & _ & Hn'). destruct s; cbn [fname]; unfold quad_weights_transform, denotes in *; try reflexivity; rewrite Hd, Hd'; try reflexivity.
  destruct (Hn eq_refl) as [_ ->]. destruct (Hn' eq_refl) as [_ ->]. reflexivity.
Qed.

Lemma real_map_values gl s L nside spin f : 1 <= L -> (s = HEALPIX -> 1 <= nside) -> shape f = map_shape s L nside ->
  forward_rings_away (vat (gl_nodes gl L)) s L nside -> real_map (vat (gl_nodes gl L)) s L nside spin f -> real_values gl s L nside spin f.
Proof.
  intros HL Hn Hsh Ha H t p IG.
  assert (M : s = MW \/ s = MWSS -> is_real (fvals s L nside spin f t p)).
  { intros Q. assert (H' : exists F, represented (vat (gl_nodes gl L)) s L nside spin f F /\ forall theta phi, is_real (F theta phi))
      by (destruct Q as [-> | ->]; exact H). destruct H' as (F & HF & HR). rewrite (fvals_signal gl s L nside spin f F) by auto. apply HR. }
  assert (N : s <> MW -> s <> MWSS -> is_real (fvals s L nside spin f t p)).
  { intros N1 N2. assert (E : fvals s L nside spin f t p = get f (sample_index s nside t p)) by (destruct s; try congruence; reflexivity). rewrite E.
    assert (H' : forall ix, in_shape (shape f) ix -> is_real (get f ix)) by (destruct s; try congruence; exact H). apply H'.
    assert (GE : fgrid gl s L nside = the_grid gl s L nside) by (destruct s; try congruence; reflexivity). rewrite GE in *.
    rewrite Hsh, <- (the_grid_sh gl s L nside), <- (the_grid_e gl s L nside). eapply go_sh; [|exact IG].
    apply (the_grid_ok gl (scheme_name s) s L nside (Some nside) (mkVec (rings s L nside) (th_of gl s L nside))); auto. now destruct s. }
  destruct s; (apply M; auto; fail) || (apply N; discriminate).
Qed.

Lemma holds_same L a b c : 1 <= L -> holds_coefficients L a c -> holds_coefficients L b c -> arr_eq a b.
Proof.
  intros HL [Sa Ha] [Sb Hb]. split; [congruence|]. rewrite Sa. intros ix Hix.
  destruct ix as [|el [|q [|]]]; cbn [in_shape] in Hix; try lia. replace q with (q - (L - 1) + L - 1) by lia.
  transitivity (c el (q - (L - 1))); [apply Ha; lia|symmetry; apply Hb; lia].
Qed.

Lemma forward_same gl name name' s f L spin method method' nside o o' reality reality' Lo :
  setting name s L nside o -> setting name' s L nside o' -> 0 <= Lo < L -> shape f = map_shape s L nside ->
  rule_sizes s L (gl_nodes gl L) (gl_weights gl L) -> forward_rings_away (vat (gl_nodes gl L)) s L nside ->
  forward_allowed name method s L nside -> forward_allowed name' method' s L nside ->
  (reality || reality' = true -> spin = 0 -> real_map (vat (gl_nodes gl L)) s L nside spin f) ->
  same_ok (forward_ gl f L spin name method o reality Lo) (forward_ gl f L spin name' method' o' reality' Lo).
Proof.
  intros S S' HLo Hf Hg Ha Hm Hm' Hr.
  assert (Hn : s = HEALPIX -> 1 <= nside) by (intros Q; apply (proj2 (proj2 S) Q)).
  assert (HL := proj1 (proj2 S)).
  destruct (analysis_lemma gl name s f L spin method nside o reality Lo S HLo Hf Hg Ha Hm) as (w & flm & E1 & E2 & H1).
  { intros -> Q. apply real_map_values; auto. }
  destruct (analysis_lemma gl name' s f L spin method' nside o' reality' Lo S' HLo Hf Hg Ha Hm') as (w' & flm' & E1' & E2' & H1').
  { intros -> Q. apply real_map_values; auto. apply Hr; auto. now destruct reality. }
  exists flm, flm'. split; [exact E2|]. split; [exact E2'|].
  rewrite (fname_same gl name name' s L nside o o' S S') in E1. rewrite E1 in E1'. injection E1' as <-.
  eapply holds_same; eauto.
Qed.

(** the forward transform of the samples of a signal of known coefficients *)
Lemma recover_lemma gl name s f L spin method nside o reality Lo c :
  setting name s L nside o -> s <> HEALPIX -> 0 <= Lo < L ->
  rule_sizes s L (gl_nodes gl L) (gl_weights gl L) -> (s = GL -> gauss_legendre L (gl_nodes gl L) (gl_weights gl L)) ->
  forward_rings_away (vat (gl_nodes gl L)) s L nside -> forward_allowed name method s L nside ->
  (reality = true -> spin = 0 -> hermitian L c) ->
  holds_samples (vat (gl_nodes gl L)) s L nside f (synth L spin c) ->
  exists flm, forward_ gl f L spin name method o reality Lo = Ok flm /\ holds_coefficients L flm (restricted Lo spin c).
Proof.
  intros S Hs HLo Hg HG Ha Hm Hr HF.
  assert (Hn : s = HEALPIX -> 1 <= nside) by (intros Q; apply (proj2 (proj2 S) Q)).
  assert (HL := proj1 (proj2 S)).
  assert (HR : represented (vat (gl_nodes gl L)) s L nside spin f (synth L spin c)) by (split; [exact HF|intros _; apply synth_band_limited]).
  destruct (analysis_lemma gl name s f L spin method nside o reality Lo S HLo (proj1 HF) Hg Ha Hm) as (w & flm & E1 & E2 & H1 & H2).
  { intros Q1 Q2 t p IG. rewrite (fvals_signal gl s L nside spin f (synth L spin c)) by auto. rewrite Q2 in *. apply synth_real; auto. }
  exists flm. split; [exact E2|]. split; [exact H1|]. intros el m Hel Hmm. rewrite H2 by auto.
  destruct (weights_exact gl name s L nside o w S Hs HG E1) as (n & th & GE & HW). 
  rewrite GE. apply fsum_round; auto; try lia.
  - destruct s; cbn; congruence.
  - intros t p Ht Hp. rewrite (fvals_signal gl s L nside spin f (synth L spin c)) by (auto; rewrite GE; split; auto). now rewrite GE.
Qed.

Lemma roundtrip_lemma gl name s flm L spin minv mfwd nside o reality Lo :
  setting name s L nside o -> s <> HEALPIX -> 0 <= Lo < L -> shape flm = [L; 2 * L - 1] ->
  rule_sizes s L (gl_nodes gl L) (gl_weights gl L) -> (s = GL -> gauss_legendre L (gl_nodes gl L) (gl_weights gl L)) ->
  rings_away (vat (gl_nodes gl L)) s L nside -> forward_rings_away (vat (gl_nodes gl L)) s L nside ->
  (sum_method minv \/ fft_method minv /\ name = scheme_name s) -> forward_allowed name mfwd s L nside ->
  (reality = true -> spin = 0 -> hermitian L (stored L flm)) ->
  exists f flm', inverse_ gl flm L spin name minv o reality Lo = Ok f /\ forward_ gl f L spin name mfwd o reality Lo = Ok flm' /\
    holds_coefficients L flm' (restricted Lo spin (stored L flm)).
Proof.
  intros S Hs HLo Hf Hg HG Ha Ha' Hm Hm' Hr.
  destruct (synthesis_lemma gl name s flm L spin minv nside o reality Lo S HLo Hf) as (f & E & HF); auto.
  { intros Q. apply (Hg Q). }
  { destruct Hm as [Hm|[Hm En]]; [now left|]. right. split; [exact Hm|]. split; [exact En|]. split; [congruence|].
    intros Q1 Q2 el Hel. now apply (herm_real L (stored L flm)); auto. }
  set (c := used_coefficients reality spin Lo (stored L flm)) in *.
  destruct (recover_lemma gl name s f L spin mfwd nside o reality Lo c S Hs HLo Hg HG Ha' Hm') as (flm' & E' & H1 & H2); auto.
  { intros Q1 Q2 el m Hel Hmm. unfold c. rewrite !(used_herm L) by (auto; lia). now apply (above_herm L Lo (stored L flm) (Hr Q1 Q2)). }
  exists f, flm'. split; [exact E|]. split; [exact E'|]. split; [exact H1|]. intros el m Hel Hmm. rewrite H2 by auto.
  unfold restricted. destruct (_ && _) eqn:B; [|reflexivity]. unfold c. rewrite (used_herm L) by (auto; lia).
  unfold above. now replace (el <? Lo) with false by lia.
Qed.
