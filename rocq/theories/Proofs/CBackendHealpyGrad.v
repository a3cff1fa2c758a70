(** The front end of healpy: gradients, and a library that keeps the contract. *)
From Coq Require Import Reals Lra Lia.
From Coquelicot Require Import Complex.
From Verif Require Import Lib.Py Lib.PyFacts Lib.Vec Lib.Sums Lib.Cplx Lib.Arr Lib.MatFacts Model.Index Model.Samples Model.Grids Model.Turok
  Model.Quadrature Model.Spherical Model.Refine Model.OTF Model.OTFSpherical Model.Wigner Model.CBackend Spec.IndexSpec Spec.WignerSpec Spec.SamplesSpec
  Spec.SphereSpec Spec.GridSpec Spec.QuadSpec Spec.HealpixFFTSpec Spec.SphericalSpec Spec.RefineSpec Spec.CBackendSpec
  Proofs.IndexProofs Proofs.SamplesProofs Proofs.GridProofs Proofs.SphGrid Proofs.SphTop Proofs.SphForward Proofs.SphForwardTop
  Proofs.SphFacts Proofs.PrecomputeSph Proofs.CudaKernelProofs Proofs.CBackendGrad Proofs.CBackendHealpy.
From Coq Require Import List.
Import ListNotations.
Open Scope string_scope.
Open Scope Z_scope.

Definition twice (m : Z) : R := if m =? 0 then 1%R else 2%R.
Definition by_order (L : Z) (g : Z -> Z -> C) : C := csum (zrange 0 L) (fun m => csum (zrange m L) (fun l => g l m)).

Lemma by_degree L g : 0 <= L -> csum (zrange 0 L) (fun l => csum (zrange 0 (l + 1)) (fun m => g l m)) = by_order L g.
Proof.
  intros HL. unfold by_order.
  transitivity (csum (zrange 0 L) (fun l => csum (zrange 0 L) (fun m => if m <=? l then g l m else RtoC 0))).
  - apply cr_ext. intros l Hl. symmetry. rewrite (cr_shrink 0 L 0 (l + 1)) by (try lia; intros m Hm Hml; replace (m <=? l) with false by lia; reflexivity).
    apply cr_ext. intros m Hm. now replace (m <=? l) with true by lia.
  - rewrite cs_swap. apply cr_ext. intros m Hm. rewrite (cr_shrink 0 L m L) by (try lia; intros l Hl Hml; replace (m <=? l) with false by lia; reflexivity).
    apply cr_ext. intros l Hl. now replace (m <=? l) with true by lia.
Qed.
Lemma Re_add (a b : C) : Re (a + b)%C = (Re a + Re b)%R. Proof. reflexivity. Qed.
Lemma Y0_real l theta phi : 0 <= l -> is_real (sYlm 0 l 0 theta phi).
Proof. intros Hl. pose proof (sYlm_conj l 0 theta phi ltac:(lia)) as E. change (- 0) with 0 in E. unfold is_real.
  apply (f_equal Im) in E. revert E. destruct (sYlm 0 l 0 theta phi) as [a b]. unfold sgn. cbn. intros E. lra.
Qed.
Lemma real_synth L c theta phi : 1 <= L -> synth L 0 (real_signal c) theta phi
  = RtoC (Re (by_order L (fun l m => RtoC (twice m) * (c l m * sYlm 0 l m theta phi))%C)).
Proof.
  intros HL. rewrite <- by_degree by lia. unfold synth. change (Z.abs 0) with 0. rewrite CBackendGrad.RtoC_Re_sum. apply cr_ext. intros l Hl.
  rewrite pairs_sum by lia. rewrite (cr_cons 0 (l + 1)) by lia. change (0 + 1) with 1. rewrite Re_add, RtoC_plus, CBackendGrad.RtoC_Re_sum. f_equal.
  - unfold real_signal, twice. cbn [Z.eqb]. pose proof (Y0_real l theta phi ltac:(lia)) as E. destruct (sYlm 0 l 0 theta phi) as [a b]. change (b = 0%R) in E. rewrite E.
    destruct (c l 0) as [x y]. unfold RtoC, Cmult. cbn. f_equal; ring.
  - apply cr_ext. intros m Hm. rewrite sYlm_conj by lia. unfold real_signal, real_extension, twice.
    replace (m =? 0) with false by lia. replace (- m =? 0) with false by lia. replace (m <? 0) with false by lia. replace (- m <? 0) with true by lia.
    rewrite Z.opp_involutive, sgn_opp. set (Y := sYlm 0 l m theta phi).
    transitivity (c l m * Y + RtoC (sgn m * sgn m) * Cconj (c l m * Y))%C; [rewrite RtoC_mult, Cconj_mult; ring|]. rewrite sgn_sq.
    destruct (c l m * Y)%C as [a b]. unfold Cconj, RtoC, Cmult, Cplus. cbn. f_equal; ring.
Qed.

Lemma factors_len L nside : 1 <= L -> vlen (scale_factors L nside) = L * (L + 1) / 2.
Proof.
  intros HL. cbn [scale_factors vmap vapp vconst vlen].
  replace (L * (L + 1)) with (L * (L - 1) + L * 2) by ring. rewrite Z.div_add by lia. ring.
Qed.
Lemma factors_at L nside l m : 0 <= m <= l -> l < L -> vat (scale_factors L nside) (m * (2 * L - 1 - m) / 2 + l)
  = (twice m * (IZR (3 * (nside * nside)) / PI))%R.
Proof.
  intros Hm Hl. unfold scale_factors. cbn [vmap vapp vconst vat vlen]. replace (nside ^ 2) with (nside * nside) by ring.
  rewrite hp_ix. pose proof (hp_getidx_eq L l m) as E. unfold twice. destruct (Z.eqb_spec m 0) as [->|N].
  - destruct (Z.ltb_spec (hp_getidx L l 0) L); try lia. unfold Rdiv. ring.
  - destruct (Z.ltb_spec (hp_getidx L l m) L); [nia|]. unfold Rdiv. ring.
Qed.

Section G.
  Variables (nodes : Z -> R) (L nside : Z) (h : healpy).
  Hypothesis (HL : 1 <= L) (Hn : 1 <= nside) (K : healpy_contract nodes L nside h).
  Notation th := (theta_of HEALPIX L nside).
  Notation ph := (longitude HEALPIX L nside).
  Notation px := (fun t p => [ring_start (ring_length nside) t + p]).
  Notation ix := (fun l m => m * (2 * L - 1 - m) / 2 + l).
  Notation NL := (L * (L + 1) / 2).

  Lemma pair_by_order a b : pair_listed NL a b = by_order L (fun l m => get a [ix l m] * get b [ix l m])%C.
  Proof. exact (CBackendHealpy.list_sum L (fun k => get a [k] * get b [k])%C HL). Qed.
  Lemma pair_over f g : pair_pixels nside f g = over_pixels nside (fun t p => get f (px t p) * get g (px t p))%C.
  Proof. exact (CBackendHealpy.pixel_sum nside (fun k => get f [k] * get g [k])%C Hn). Qed.
  Lemma Re_over g g' : (forall t p, 0 <= t < 4 * nside - 1 -> 0 <= p < ring_length nside t -> Re (g t p) = Re (g' t p)) ->
    Re (over_pixels nside g) = Re (over_pixels nside g').
  Proof. clear. intros H. unfold over_pixels. rewrite !Re_csum. apply rr_ext. intros t Ht. rewrite !Re_csum. apply rr_ext. intros p Hp. auto. Qed.
  Lemma Re_by g g' : (forall l m, 0 <= m <= l -> l < L -> Re (g l m) = Re (g' l m)) -> Re (by_order L g) = Re (by_order L g').
  Proof. clear. intros H. unfold by_order. rewrite !Re_csum. apply rr_ext. intros m Hm. rewrite !Re_csum. apply rr_ext. intros l Hl. apply H; lia. Qed.
  Lemma over_by g : over_pixels nside (fun t p => by_order L (fun l m => g t p l m)) = by_order L (fun l m => over_pixels nside (fun t p => g t p l m)).
  Proof.
    clear. unfold over_pixels, by_order.
    transitivity (csum (zrange 0 (4 * nside - 1)) (fun t => csum (zrange 0 L) (fun m => csum (zrange 0 (ring_length nside t)) (fun p => csum (zrange m L) (fun l => g t p l m))))).
    - apply cr_ext. intros t Ht. apply cs_swap.
    - rewrite cs_swap. apply cr_ext. intros m Hm.
      transitivity (csum (zrange 0 (4 * nside - 1)) (fun t => csum (zrange m L) (fun l => csum (zrange 0 (ring_length nside t)) (fun p => g t p l m)))); [|apply cs_swap].
      apply cr_ext. intros t Ht. apply cs_swap.
  Qed.
  Lemma over_scal c g : over_pixels nside (fun t p => c * g t p)%C = (c * over_pixels nside g)%C.
  Proof. clear. unfold over_pixels. rewrite <- cs_scal_l. apply cr_ext. intros t Ht. apply cs_scal_l. Qed.
  Lemma over_ext g g' : (forall t p, 0 <= t < 4 * nside - 1 -> 0 <= p < ring_length nside t -> g t p = g' t p) -> over_pixels nside g = over_pixels nside g'.
  Proof. clear. intros H. apply cr_ext. intros t Ht. apply cr_ext. intros p Hp. auto. Qed.
  Lemma over_conj g : Cconj (over_pixels nside g) = over_pixels nside (fun t p => Cconj (g t p)).
  Proof. clear. unfold over_pixels. rewrite csum_conj. apply cr_ext. intros t Ht. apply csum_conj. Qed.
  Lemma npix_pos : (0 < IZR (3 * (nside * nside)))%R. Proof. apply IZR_lt. nia. Qed.

  Lemma map2alm_grad ct f : shape ct = [NL] -> shape f = [12 * (nside * nside)] -> all_real f ->
    exists g x, map2alm_transpose (Some h) ct L nside = Ok g /\ healpy_map2alm (Some h) f L nside = Ok x /\ shape g = shape f /\ all_real g /\
      Re (pair_pixels nside g f) = Re (pair_listed NL ct x).
  Proof.
    intros Sc Sf Rf. destruct (map2alm_ok nodes L nside h Hn K f Sf Rf) as (x & Ex & Hx).
    set (s := (IZR (3 * (nside * nside)) / PI)%R). pose proof PI_RGT_0 as HPi. pose proof npix_pos as Hp.
    assert (Hs : s <> 0%R) by (unfold s; apply Rmult_integral_contrapositive; split; [lra|now apply Rinv_neq_0_compat, Rgt_not_eq]).
    set (a := mkArr (shape (amap Cconj ct)) (fun j => (get (amap Cconj ct) j * RtoC (vat (vmap Rinv (scale_factors L nside)) (nth 0 j 0%Z)))%C)).
    assert (Ea : vscale (amap Cconj ct) (vmap Rinv (scale_factors L nside)) = Ok a).
    { unfold vscale. replace (dim0 (amap Cconj ct)) with NL by (unfold dim0; cbn [amap shape]; now rewrite Sc). cbn [vmap vlen]. rewrite factors_len by auto. now rewrite Z.eqb_refl. }
    assert (Ha : hp_listed L a (fun l m => (Cconj (get ct [ix l m]) * RtoC (/ (twice m * s)))%C)).
    { split; [exact Sc|]. intros l m Hm Hl. cbn [a get nth amap]. cbn [vmap vat]. now rewrite factors_at by auto. }
    destruct (alm2map_ok nodes L nside h Hn K a _ Ha) as (g & Eg & Rg & Sg & Gg & _).
    exists (amap Cconj g), x. split; [unfold map2alm_transpose; rewrite Ea; cbn [bind]; now rewrite Eg|]. split; [exact Ex|]. split; [cbn [amap shape]; congruence|].
    split; [intros j Hj; cbn [amap shape get] in *; rewrite (real_conj _ (Rg j Hj)); exact (Rg j Hj)|].
    rewrite pair_over, pair_by_order.
    transitivity (Re (over_pixels nside (fun t p => by_order L (fun l m => get f (px t p) * (RtoC (/ s) * (Cconj (get ct [ix l m]) * sYlm 0 l m (th t) (ph t p))))%C))).
    - apply Re_over. intros t p Ht Hp'. cbn [amap get]. rewrite real_conj by (apply Rg; rewrite Sg; now apply px_in). rewrite Gg, real_synth by auto.
      pose proof (Rf (px t p) ltac:(rewrite Sf; now apply px_in)) as Rp. 
      transitivity (Re (get f (px t p) * by_order L (fun l m => RtoC (twice m) * (Cconj (get ct [ix l m]) * RtoC (/ (twice m * s)) * sYlm 0 l m (th t) (ph t p)))%C)%C).
      + destruct (get f (px t p)) as [u v]. change (v = 0%R) in Rp. rewrite Rp. unfold Re, Cmult, RtoC. cbn [fst snd]. ring.
      + f_equal. unfold by_order. rewrite <- cs_scal_l. apply cr_ext. intros m Hm. rewrite <- cs_scal_l. apply cr_ext. intros l Hl. f_equal.
        transitivity (RtoC (twice m * / (twice m * s)) * (Cconj (get ct [ix l m]) * sYlm 0 l m (th t) (ph t p)))%C; [rewrite RtoC_mult; ring|]. f_equal. f_equal.
        rewrite Rinv_mult_distr by (auto; unfold twice; destruct (m =? 0); lra). rewrite <- Rmult_assoc, Rinv_r by (unfold twice; destruct (m =? 0); lra). ring.
    - rewrite over_by. apply Re_by. intros l m Hm Hl. rewrite (proj2 Hx) by auto. unfold pixel_mean.
      transitivity (Re (Cconj (get ct [ix l m] * (RtoC (4 * PI / IZR (12 * (nside * nside))) * over_pixels nside (fun t p => get f (px t p) * Cconj (sYlm 0 l m (th t) (ph t p)))))))%C; [|reflexivity].
      f_equal. rewrite !Cconj_mult, Cconj_R, over_conj, <- !over_scal. apply over_ext. intros t p Ht Hp'. rewrite Cconj_mult, Cconj_conj.
      rewrite (real_conj (get f (px t p))) by (apply Rf; rewrite Sf; now apply px_in).
      replace (/ s)%R with (4 * PI / IZR (12 * (nside * nside)))%R; [ring|]. unfold s. replace (12 * (nside * nside)) with (4 * (3 * (nside * nside))) by ring. rewrite mult_IZR.
      field. lra.
  Qed.
  Lemma alm2map_grad ct x : shape ct = [12 * (nside * nside)] -> all_real ct -> shape x = [NL] ->
    exists g f, alm2map_transpose (Some h) ct L nside = Ok g /\ healpy_alm2map (Some h) x L nside = Ok f /\ shape g = shape x /\
      Re (pair_listed NL g x) = Re (pair_pixels nside ct f).
  Proof.
    intros Sc Rc Sx. set (s := (IZR (3 * (nside * nside)) / PI)%R). pose proof PI_RGT_0 as HPi. pose proof npix_pos as Hp.
    destruct (alm2map_ok nodes L nside h Hn K x _ (entry_listed L x Sx)) as (f & Ef & Rf & Sf & Gf & _).
    destruct (map2alm_ok nodes L nside h Hn K (amap Cconj ct)) as (a & Ea & Sa & Ha).
    { exact Sc. } { intros j Hj. cbn [amap shape get] in *. rewrite real_conj by now apply Rc. now apply Rc. }
    set (g := mkArr (shape (amap Cconj a)) (fun j => (get (amap Cconj a) j * RtoC (vat (scale_factors L nside) (nth 0 j 0%Z)))%C)).
    assert (Eg : vscale (amap Cconj a) (scale_factors L nside) = Ok g).
    { unfold vscale. replace (dim0 (amap Cconj a)) with NL by (unfold dim0; cbn [amap shape]; now rewrite Sa). rewrite factors_len by auto. now rewrite Z.eqb_refl. }
    exists g, f. split; [unfold alm2map_transpose; rewrite Ea; cbn [bind]; exact Eg|]. split; [exact Ef|]. split; [cbn [g amap shape]; congruence|].
    rewrite pair_over, pair_by_order. symmetry.
    transitivity (Re (over_pixels nside (fun t p => by_order L (fun l m => get ct (px t p) * (RtoC (twice m) * (entry L x l m * sYlm 0 l m (th t) (ph t p))))%C))).
    - apply Re_over. intros t p Ht Hp'. rewrite Gf, real_synth by auto. pose proof (Rc (px t p) ltac:(rewrite Sc; now apply px_in)) as Rp.
      transitivity (Re (get ct (px t p) * by_order L (fun l m => RtoC (twice m) * (entry L x l m * sYlm 0 l m (th t) (ph t p)))%C)%C).
      + destruct (get ct (px t p)) as [u v]. change (v = 0%R) in Rp. rewrite Rp. unfold Re, Cmult, RtoC. cbn [fst snd]. ring.
      + f_equal. unfold by_order. rewrite <- cs_scal_l. apply cr_ext. intros m Hm. rewrite <- cs_scal_l. reflexivity.
    - rewrite over_by. apply Re_by. intros l m Hm Hl. f_equal. cbn [g get nth amap]. rewrite Ha, factors_at by auto. unfold pixel_mean, entry.
      rewrite Cconj_mult, Cconj_R, over_conj. fold s.
      transitivity (RtoC (twice m) * get x [ix l m] * over_pixels nside (fun t p => get ct (px t p) * sYlm 0 l m (th t) (ph t p)))%C.
      + rewrite <- over_scal. apply over_ext. intros t p Ht Hp'. ring.
      + transitivity (RtoC (4 * PI / IZR (12 * (nside * nside)) * (twice m * s)) * get x [ix l m] * over_pixels nside (fun t p => get ct (px t p) * sYlm 0 l m (th t) (ph t p)))%C.
        * f_equal. f_equal. f_equal. unfold s. replace (12 * (nside * nside)) with (4 * (3 * (nside * nside))) by ring. rewrite mult_IZR. field. lra.
        * rewrite RtoC_mult. rewrite (over_ext (fun t p => Cconj (get (amap Cconj ct) (px t p) * Cconj (sYlm 0 l m (th t) (ph t p)))%C) (fun t p => get ct (px t p) * sYlm 0 l m (th t) (ph t p))%C);
            [ring|]. intros t p Ht Hp'. cbn [amap get]. now rewrite Cconj_mult, !Cconj_conj.
  Qed.
End G.

(** ** A library *)
Section I.
  Variables (L nside : Z).
  Hypothesis (HL : 1 <= L) (Hn : 1 <= nside).
  Notation th := (theta_of HEALPIX L nside).
  Notation ph := (longitude HEALPIX L nside).
  Definition hp_library : healpy := mkHealpy
    (fun f _ _ => Ok (flm_2d_to_hp_fast (RtoC 0) (mat L (2 * L - 1) (fun l k => pixel_mean L nside f l (k - (L - 1)))) L))
    (fun x _ _ => Ok (mkArr [12 * (nside * nside)] (fun j => over_pixels nside (fun t p =>
       if ring_start (ring_length nside) t + p =? nth 0 j 0 then synth L 0 (real_signal (entry L x)) (th t) (ph t p) else RtoC 0)))).
  Lemma pick v T P : 0 <= T < 4 * nside - 1 -> 0 <= P < ring_length nside T -> over_pixels nside (fun t p =>
    if ring_start (ring_length nside) t + p =? ring_start (ring_length nside) T + P then v t p else RtoC 0) = v T P.
  Proof.
    intros HT HP. unfold over_pixels.
    assert (J : forall t p, 0 <= t < 4 * nside - 1 -> 0 <= p < ring_length nside t -> ring_start (ring_length nside) t + p = ring_start (ring_length nside) T + P -> t = T /\ p = P).
    { intros t p Ht Hp E. assert (M : forall a b, 0 <= a -> a < b -> b <= 4 * nside - 1 -> ring_start (ring_length nside) a + ring_length nside a <= ring_start (ring_length nside) b).
      { intros a b Ha Hab Hb. rewrite <- ring_start_succ by auto. apply ring_start_mono; try lia. intros i Hi. unfold ring_length. lia. }
      destruct (Z.lt_trichotomy t T) as [Q|[Q|Q]]; [specialize (M t T)|subst; lia|specialize (M T t)]; lia. }
    transitivity (csum (zrange 0 (4 * nside - 1)) (fun t => if t =? T then v T P else RtoC 0)).
    - apply cr_ext. intros t Ht. destruct (Z.eqb_spec t T) as [->|N].
      + rewrite <- (cr_delta 0 (ring_length nside T) P (fun p => v T p)) by auto. apply cr_ext. intros p Hp.
        destruct (Z.eqb_spec (ring_start (ring_length nside) T + p) (ring_start (ring_length nside) T + P)), (Z.eqb_spec p P); try lia; reflexivity.
      + apply cr_0. intros p Hp. destruct (Z.eqb_spec (ring_start (ring_length nside) t + p) (ring_start (ring_length nside) T + P)) as [E|]; [|reflexivity].
        destruct (J t p Ht Hp E). contradiction.
    - now rewrite (cr_delta 0 (4 * nside - 1) T (fun _ => v T P)).
  Qed.
  Theorem hp_library_keeps nodes : healpy_contract nodes L nside hp_library.
  Proof.
    assert (U : forall t x, 0 <= t < 4 * nside - 1 -> colatitude nodes HEALPIX L nside t x -> x = th t).
    { intros t x Ht Hx. exact (colat_unique (mkGL (fun _ => vconst 0 0%R) (fun _ => vconst 0 0%R)) HEALPIX L nside t x (fun _ => Hn) Ht Hx). }
    split.
    - intros f th' Sf Rf Hth. eexists. split; [reflexivity|]. destruct (to_hp L (mat L (2 * L - 1) (fun l k => pixel_mean L nside f l (k - (L - 1)))) HL eq_refl) as [S1 G1].
      split; [exact S1|]. intros l m Hm Hl. rewrite G1 by auto. unfold stored, mat. cbn [get nth]. replace (m + L - 1 - (L - 1)) with m by ring. unfold pixel_mean. f_equal.
      apply cr_ext. intros t Ht. apply cr_ext. intros p Hp. now rewrite (U t (th' t)) by auto.
    - intros x c [Sx Hx]. eexists. split; [reflexivity|].
      assert (Q : forall t p, 0 <= t < 4 * nside - 1 -> 0 <= p < ring_length nside t ->
        over_pixels nside (fun t0 p0 => if ring_start (ring_length nside) t0 + p0 =? ring_start (ring_length nside) t + p then synth L 0 (real_signal (entry L x)) (th t0) (ph t0 p0) else RtoC 0)
        = synth L 0 (real_signal c) (th t) (ph t p)).
      { intros t p Ht Hp. rewrite (pick (fun t p => synth L 0 (real_signal (entry L x)) (th t) (ph t p))) by auto. apply SphFacts.synth_ext. intros l m Hl Hm.
        change (Z.abs 0) with 0 in Hl. unfold real_signal, real_extension, entry. destruct (Z.eqb_spec m 0), (Z.ltb_spec m 0); rewrite Hx by lia; reflexivity. }
      split; [|split; [reflexivity|]].
      + intros j Hj. cbn [shape] in Hj. destruct j as [|k [|]]; cbn [in_shape] in Hj; try easy. cbn [get nth].
        destruct (hp_pixel_ring nside k Hn ltac:(lia)) as (t & p & Ht & Hp & ->). rewrite Q by auto. apply synth_real, real_signal_herm.
      + intros t p y Ht Hp Hy. rewrite (U t y) by auto. cbn [sample_index get nth]. now apply Q.
  Qed.
End I.
