(** The precomputed transforms with the Price-McEwen kernels of JAX. *)
From Coq Require Import Reals ZifyBool Lra.
From Coquelicot Require Import Complex.
From Verif Require Import Lib.Py Lib.PyFacts Lib.Vec Lib.VecFacts Lib.Sums Lib.Cplx Lib.Arr Lib.ArrFacts Lib.MatFacts Lib.Ext Lib.ExtFacts Lib.Lim
  Model.Index Model.Samples Model.Grids Model.FFT Model.HealpixFFT Model.Turok Model.Risbo Model.Resampling Model.Quadrature
  Model.Spherical Model.Precompute Model.PriceMcEwen Model.OTF Model.OTFSpherical
  Spec.SamplesSpec Spec.WignerSpec Spec.SphereSpec Spec.GridSpec Spec.HealpixFFTSpec Spec.SphericalSpec Spec.QuadSpec Spec.OTFSpec Spec.OTFSphericalSpec Spec.PrecomputeSpec
  Proofs.SamplesProofs Proofs.GridProofs Proofs.TurokProofs Proofs.HealpixDFTProofs Proofs.SphereTheory Proofs.SphGrid Proofs.SphInverse Proofs.SphTop Proofs.SphForward Proofs.SphForwardTop
  Proofs.SphFacts Proofs.PrecomputeKernel Proofs.PrecomputeSph Proofs.PrecomputeTop Proofs.PMKernel Proofs.OTFProofs Proofs.OTFTop Proofs.OTFRegular Proofs.OTFLimit Proofs.OTFSphInverse Proofs.OTFSphForward Proofs.OTFSphNear Proofs.OTFSphTop
  Spec.CallSpec.
From Coq Require Import List.
Import ListNotations.
Open Scope string_scope.
Open Scope Z_scope.

Definition kgrid_at (s : scheme) (L nside : Z) (x : Z -> R) (forward : bool) : grid :=
  if forward then ogrid s L nside x else agrid s L nside x.
Lemma kgrid_at_n gl s L nside x forward : gn (kgrid_at s L nside x forward) = gn (kgrid gl s L nside forward).
Proof. destruct forward; cbn [kgrid_at kgrid]; [apply ogrid_n|]. now rewrite agrid_n, the_grid_n. Qed.
Lemma kgrid_at_th s L nside x forward t : gth (kgrid_at s L nside x forward) t = x t.
Proof. destruct forward; cbn [kgrid_at]; [apply ogrid_th|apply agrid_th]. Qed.

(** the colatitudes a kernel is computed for *)
Definition kangles (th : theta_fn) (s : scheme) (L : Z) (o : option Z) (forward : bool) : result (vec R) :=
  if forward then fwd_angles th s L o else th L (scheme_name s) o.

Lemma pm_kernel_ok th gl s L nside o forward reality spin recursion beta : setting (scheme_name s) s L nside o -> 2 <= L -> Z.abs spin < L -> Z.abs spin <= 6 ->
  (s = GL -> forward = true -> vlen (gl_weights gl L) = L) -> (reality = true -> spin = 0) ->
  (lower recursion = "auto" \/ lower recursion = "price-mcewen") ->
  kangles th s L o forward = Ok beta -> vlen beta = gn (kgrid gl s L nside forward) ->
  (forall t, 0 <= t < vlen beta -> usable_ring (kscheme s forward) (vlen beta) L 0 spin (vat beta) t) ->
  exists K w, kernel_function_at jax th gl L spin reality (scheme_name s) o forward recursion = Ok K /\
    (forward = true -> quad_weights_transform gl L (fname (scheme_name s) s) 0 o = Ok w) /\
    is_arr3 K (gn (kgrid_at s L nside (ring_angle (kscheme s forward) (vlen beta) (vat beta)) forward)) L (md_of L reality)
      (fun t el i => kval (kgrid_at s L nside (ring_angle (kscheme s forward) (vlen beta) (vat beta)) forward) spin
         (fun t => if forward then vat w t else 1%R) (kphase s nside forward) t el (i + ms_of L reality - (L - 1))).
Proof.
  intros S HL Hs H6 Hg Hre HR Eb Hb Hu. set (x := ring_angle (kscheme s forward) (vlen beta) (vat beta)).
  pose proof S as (Hd & _ & Hn).
  assert (ET : kernel_thetas_at th L (scheme_name s) o forward = Ok (kname (scheme_name s) s forward, beta)).
  { unfold kernel_thetas_at, kangles, fwd_angles in *. destruct forward; cbn [andb kname].
    - rewrite lower_name. destruct s; cbn [scheme_name str_in existsb streq String.eqb Ascii.eqb Bool.eqb orb fname] in *; rewrite Eb; reflexivity.
    - rewrite Eb. reflexivity. }
  assert (Hd' : denotes (kname (scheme_name s) s forward) (kscheme s forward)).
  { destruct forward; cbn [kname kscheme]; [|exact Hd]. destruct s; reflexivity. }
  assert (HT : 1 <= vlen beta /\ (kscheme s forward = MWSS -> 2 <= vlen beta)).
  { rewrite Hb. unfold kgrid, kscheme. clear - HL Hn. destruct forward, s; cbn [fgrid the_grid equi_grid hp_grid gn rings fscheme];
      (split; [try lia; destruct (Hn eq_refl); lia|intros; try discriminate; lia]). }
  destruct (kernel_price_mcewen_ok th beta (kname (scheme_name s) s forward) (kscheme s forward) L spin o forward reality (vlen beta) HL Hs Hd' eq_refl
    (proj1 HT) (proj2 HT) Hu) as (dl & E1 & H1).
  destruct (einsum_tlm_l_ok dl _ _ _ _ (elfactors L) H1 eq_refl) as (dl' & E2 & H2). rewrite Hb in H2.
  destruct (kernel_finish_ok gl (scheme_name s) s L nside o forward reality dl' _ S Hg H2) as (K & w & E3 & E4 & H4).
  exists K, w. split; [|split; [exact E4|]].
  - assert (CR : exists r, choose_recursion recursion spin = Ok r /\ lower r = "price-mcewen").
    { unfold choose_recursion, PM_MAX_STABLE_SPIN. destruct HR as [-> | R1].
      - exists "price-mcewen". change (streq "auto" "price-mcewen") with false. change (streq "auto" "auto") with true. cbv iota.
        split; [|reflexivity]. repeat zif; reflexivity.
      - exists recursion. rewrite R1. change (streq "price-mcewen" "price-mcewen") with true. change (streq "price-mcewen" "auto") with false.
        split; [|reflexivity]. repeat zif; reflexivity. }
    destruct CR as (r & CR & LR). cbn [kernel_function_at]. unfold spin_spherical_kernel_jax_at.
    replace (if reality && negb (spin =? 0) then false else reality) with reality by (destruct reality; [rewrite (Hre eq_refl)|]; reflexivity).
    rewrite CR. cbn [bind]. rewrite ET. cbn [bind]. rewrite LR. change (streq "price-mcewen" "price-mcewen") with true. cbv iota.
    fold (ms_of L reality). rewrite E1. cbn [bind]. rewrite E2. cbn [bind]. exact E3.
  - rewrite (kgrid_at_n gl). apply (is_arr3_ext _ _ _ _ _ _ H4). intros t el i Ht Hel Hi. cbv beta. unfold kval. rewrite kgrid_at_th.
    unfold dval. fold x. rewrite <- Hb. fold x. cbn [elfactors vat]. rewrite !RtoC_mult. ring.
Qed.

Lemma kernel_at_eff b th gl L spin reality sampling nside forward recursion :
  kernel_function_at b th gl L spin reality sampling nside forward recursion
  = kernel_function_at b th gl L spin (eff reality spin) sampling nside forward recursion.
Proof.
  destruct b; cbn [kernel_function_at]; unfold spin_spherical_kernel_at, spin_spherical_kernel_jax_at; cbv zeta;
    change (if reality && negb (spin =? 0) then false else reality) with (eff reality spin);
    change (if eff reality spin && negb (spin =? 0) then false else eff reality spin) with (eff (eff reality spin) spin);
    now rewrite eff_idem.
Qed.

Lemma given_pm_kernel th gl b s L nside o forward reality spin kernel beta : setting (scheme_name s) s L nside o -> 2 <= L -> Z.abs spin < L ->
  (s = GL -> forward = true -> vlen (gl_weights gl L) = L) ->
  pm_kernel_given th gl b L spin reality (scheme_name s) o forward kernel ->
  kangles th s L o forward = Ok beta -> vlen beta = gn (kgrid gl s L nside forward) ->
  (forall t, 0 <= t < vlen beta -> usable_ring (kscheme s forward) (vlen beta) L 0 spin (vat beta) t) ->
  exists K w, match kernel with None => kernel_function_at b th gl L spin (eff reality spin) (scheme_name s) o forward "auto" | Some k => Ok k end = Ok K /\
    (forward = true -> quad_weights_transform gl L (fname (scheme_name s) s) 0 o = Ok w) /\
    is_arr3 K (gn (kgrid_at s L nside (ring_angle (kscheme s forward) (vlen beta) (vat beta)) forward)) L (md_of L (eff reality spin))
      (fun t el i => kval (kgrid_at s L nside (ring_angle (kscheme s forward) (vlen beta) (vat beta)) forward) spin
         (fun t => if forward then vat w t else 1%R) (kphase s nside forward) t el (i + ms_of L (eff reality spin) - (L - 1))).
Proof.
  intros S HL Hs Hg [H6 HK] Eb Hb Hu.
  assert (Hre : eff reality spin = true -> spin = 0) by (intros Q; now apply eff_spin in Q).
  destruct HK as [[-> ->]|(r & K & -> & HR & E)].
  - apply pm_kernel_ok; auto.
  - destruct (pm_kernel_ok th gl s L nside o forward (eff reality spin) spin r beta S HL Hs H6 Hg Hre HR Eb Hb Hu) as (K' & w & E' & E2 & E3).
    exists K, w. split; [reflexivity|]. split; [exact E2|]. rewrite kernel_at_eff, E' in E. injection E as <-. exact E3.
Qed.

Lemma pm_inverse_lemma th gl method b s flm L spin kernel nside o reality beta :
  setting (scheme_name s) s L nside o -> 2 <= L -> Z.abs spin < L -> shape flm = [L; 2 * L - 1] -> (s = HEALPIX -> 2 * nside <= L) -> runs_on method b ->
  pm_kernel_given th gl b L spin reality (scheme_name s) o false kernel ->
  (reality = true -> spin = 0 -> forall el, 0 <= el < L -> is_real (stored L flm el 0)) ->
  th L (scheme_name s) o = Ok beta -> vlen beta = rings s L nside ->
  (forall t, 0 <= t < rings s L nside -> usable_ring s (rings s L nside) L 0 spin (vat beta) t) ->
  exists f, pre_inverse_at th gl flm L spin kernel (scheme_name s) reality method o = Ok f /\
    samples_at (ring_angle s (rings s L nside) (vat beta)) s L nside f (synth L spin (used_coefficients reality spin 0 (stored L flm))).
Proof.
  intros S HL Hs Hf Hh Hb HK Hr Eb Hbl Hu. pose proof S as (Hd & _ & Hn).
  destruct (given_pm_kernel th gl b s L nside o false reality spin kernel beta S HL Hs ltac:(discriminate) HK Eb) as (K & w & EK & _ & HK').
  { cbn [kgrid]. now rewrite the_grid_n. }
  { cbn [kscheme]. rewrite Hbl. exact Hu. }
  cbn [kscheme kgrid_at kphase] in HK'. rewrite Hbl in HK'. set (x := ring_angle s (rings s L nside) (vat beta)) in *.
  unfold pre_inverse_at. rewrite (runs_backend _ _ Hb). cbn [bind]. cbv zeta. fold (eff reality spin). rewrite EK. cbn [bind].
  destruct (inverse_transform_at b x s flm K L spin (eff reality spin) nside o ltac:(lia) Hf) as (f & E & HF1 & HF2).
  - intros Q. destruct (Hn Q). auto.
  - intros Q. now apply eff_spin in Q.
  - intros Q. apply eff_spin in Q. now apply Hr.
  - rewrite agrid_n in HK'. exact HK'.
  - exists f. split; [exact E|]. split; [now rewrite HF1, agrid_sh|]. intros t p Ht Hp.
    replace (used_coefficients reality spin 0 (stored L flm)) with (used_coefficients (eff reality spin) spin 0 (stored L flm))
      by (unfold used_coefficients, eff; now destruct reality, (spin =? 0)).
    rewrite <- HF2 by (split; [now rewrite agrid_n|now rewrite agrid_N]). now rewrite agrid_e.
Qed.

Lemma pm_forward_lemma th gl method b s f L spin kernel nside o reality beta :
  setting (scheme_name s) s L nside o -> 2 <= L -> Z.abs spin < L -> shape f = map_shape s L nside -> (s = GL -> vlen (gl_weights gl L) = L) ->
  (s = HEALPIX -> 2 * nside <= L /\ (b = jax -> 2 <= nside)) -> runs_on method b ->
  pm_kernel_given th gl b L spin reality (scheme_name s) o true kernel ->
  (reality = true -> spin = 0 -> s = HEALPIX -> real_values gl s L nside spin f) ->
  fwd_angles th s L o = Ok beta -> vlen beta = gn (fgrid gl s L nside) ->
  (forall t, 0 <= t < vlen beta -> usable_ring (fscheme s) (vlen beta) L 0 spin (vat beta) t) ->
  exists w flm, quad_weights_transform gl L (scheme_name (fscheme s)) 0 o = Ok w /\
    pre_forward_at th gl f L spin kernel (scheme_name s) reality method o = Ok flm /\
    holds_coefficients L flm (fun el m => if Z.abs spin <=? el then
      SphForwardTop.fsum (ogrid s L nside (ring_angle (fscheme s) (vlen beta) (vat beta))) spin w (uvals (eff reality spin) s L nside spin f) el m else RtoC 0).
Proof.
  intros S HL Hs Hf Hg Hh Hb HK Hr Eb Hbl Hu. pose proof S as (Hd & _ & Hn).
  destruct (given_pm_kernel th gl b s L nside o true reality spin kernel beta S HL Hs ltac:(auto) HK Eb Hbl Hu) as (K & w & EK & EW & HK').
  specialize (EW eq_refl). exists w. replace (scheme_name (fscheme s)) with (fname (scheme_name s) s) by (destruct s; reflexivity).
  cbn [kscheme kgrid_at] in HK'. set (x := ring_angle (fscheme s) (vlen beta) (vat beta)) in *.
  unfold pre_forward_at. rewrite (runs_backend _ _ Hb). cbn [bind]. cbv zeta. fold (eff reality spin). rewrite EK. cbn [bind].
  destruct (forward_transform_at b gl x s f K w L spin (eff reality spin) nside o ltac:(lia) Hf) as (flm & E & HF).
  - intros Q. destruct (Hn Q), (Hh Q). auto.
  - intros Q. now apply eff_spin in Q.
  - intros Q Q'. apply eff_spin in Q. now apply Hr.
  - exact HK'.
  - exists flm. auto.
Qed.

(** ** Angles close to the colatitudes *)
Lemma samples_at_near gl L spin s nside c eps : 1 <= L -> (s = HEALPIX -> 1 <= nside) -> nodes_ok s L (gl_nodes gl L) -> (0 < eps)%R ->
  exists delta, (0 < delta)%R /\ forall beta f, angles_near delta (vat (gl_nodes gl L)) s L nside beta ->
    samples_at (ring_angle s (rings s L nside) (vat beta)) s L nside f (synth L spin c) ->
    samples_near eps (vat (gl_nodes gl L)) s L nside f (synth L spin c).
Proof.
  intros HL Hn1 Hg He.
  destruct (lim_all (fun d beta => angles_near d (vat (gl_nodes gl L)) s L nside beta) ltac:(intros; eapply angles_mono; eauto)
    (pairs (rings s L nside) (ring_size s L nside))
    (fun i beta => synth L spin c (ring_angle s (rings s L nside) (vat beta) (fst i)) (longitude s L nside (fst i) (snd i)))
    (fun i => synth L spin c (th_of gl s L nside (fst i)) (longitude s L nside (fst i) (snd i)))) with (eps := eps) as (delta & D & H); auto.
  { intros i Hi. apply pairs_in in Hi. apply lim_synth; [intros; eapply angles_mono; eauto|]. apply ring_angle_close; auto; lia. }
  exists delta. split; [exact D|]. intros beta f Ha [S1 S2]. split; [exact S1|]. intros t p' x Ht Hp Hx. rewrite S2 by auto.
  rewrite (colat_unique gl s L nside t x) by auto. apply (H beta Ha (t, p')). now apply in_pairs.
Qed.

Lemma fsum_near gl f0 L spin s nside reality w eps : 1 <= L -> (s = HEALPIX -> 1 <= nside) -> nodes_ok s L (gl_nodes gl L) ->
  shape f0 = map_shape s L nside -> (0 < eps)%R ->
  exists delta, (0 < delta)%R /\ forall beta f, arrays_near delta f f0 -> forward_angles_near delta (vat (gl_nodes gl L)) s L nside beta ->
    forall el m, 0 <= el < L -> - L < m < L ->
    (Cmod (SphForwardTop.fsum (ogrid s L nside (ring_angle (fscheme s) (vlen beta) (vat beta))) spin w (uvals reality s L nside spin f) el m -
      SphForwardTop.fsum (fgrid gl s L nside) spin w (uvals reality s L nside spin f0) el m)%C < eps)%R.
Proof.
  intros HL Hn1 Hg Hf0 He.
  set (P := fun d (u : vec R * ndarray C) => angles_near d (vat (gl_nodes gl (forward_band s L))) (forward_scheme s) (forward_band s L) nside (fst u) /\ arrays_near d (snd u) f0).
  assert (mono : forall d d' u, (0 < d' <= d)%R -> P d' u -> P d u).
  { intros d d' u Hd [H1 [H2 H3]]. split; [eapply angles_mono; eauto|]. split; [exact H2|]. intros ix Hix. specialize (H3 ix Hix). lra. }
  set (n := rings (forward_scheme s) (forward_band s L) nside).
  set (gg := fun beta : vec R => ogrid s L nside (ring_angle (forward_scheme s) n (vat beta))).
  destruct (lim_all P mono (list_prod (zrange 0 L) (zrange (- L + 1) L))
    (fun i u => SphForwardTop.fsum (gg (fst u)) spin w (uvals reality s L nside spin (snd u)) (fst i) (snd i))
    (fun i => SphForwardTop.fsum (fgrid gl s L nside) spin w (uvals reality s L nside spin f0) (fst i) (snd i))) with (eps := eps) as (delta & D & H); auto.
  { intros i Hi. apply lim_fsum; [exact mono| | | | |].
    - intros u. apply ogrid_n.
    - intros u t. apply ogrid_N.
    - intros u t p. apply ogrid_ph.
    - intros t Ht. rewrite fwd_gth. intros d u Hd [H1 _]. unfold gg. rewrite ogrid_th. rewrite fwd_rings in Ht.
      apply (ring_angle_close gl (forward_scheme s) (forward_band s L) nside); auto.
      + destruct s; cbn [forward_band]; lia.
      + intros Q. apply Hn1. destruct s; try discriminate; reflexivity.
      + now apply nodes_fwd.
    - intros t p IG.
      assert (LV : lim P (fun u => fvals s L nside spin (snd u) t p) (fvals s L nside spin f0 t p)).
      { apply (lim_linear (map_shape s L nside) (fun f => fvals s L nside spin f t p)).
        - intros x y f1 f2 h Hh Hc. apply (fvals_lin gl); auto.
        - exact Hf0.
        - intros d u Hd [_ H2]. exact H2. }
      unfold uvals. destruct reality; [apply lim_re|]; exact LV. }
  exists delta. split; [exact D|]. intros beta f Hf Ha el m Hel Hmm.
  assert (Hb : vlen beta = n) by apply Ha. rewrite Hb.
  apply (fun Q => H (beta, f) Q (el, m)); [|apply in_prod; apply in_zrange; lia].
  split; [apply fwd_near_nodes; exact Ha|exact Hf].
Qed.

Lemma away_nodes gl s L nside : 1 <= L -> rings_away (vat (gl_nodes gl L)) s L nside -> nodes_ok s L (gl_nodes gl L).
Proof.
  intros HL Ha -> i Hi. destruct (Ha (L - 1 - i)) as (x & [_ Q] & _); [cbn; lia|]. replace (L - 1 - (L - 1 - i)) with i in Q by lia. rewrite <- Q. apply COS_bound.
Qed.
Lemma used_eff reality spin Lo c : used_coefficients (eff reality spin) spin Lo c = used_coefficients reality spin Lo c.
Proof. unfold used_coefficients, eff. now destruct reality, (spin =? 0). Qed.

Lemma pm_inverse_near gl flm L spin s nside reality eps :
  2 <= L -> Z.abs spin < L -> (s = HEALPIX -> 1 <= nside /\ 2 * nside <= L) -> nodes_ok s L (gl_nodes gl L) ->
  shape flm = [L; 2 * L - 1] -> (reality = true -> spin = 0 -> forall el, 0 <= el < L -> is_real (stored L flm el 0)) -> (0 < eps)%R ->
  exists delta, (0 < delta)%R /\ forall th o beta method b kernel, (s = HEALPIX -> o = Some nside) ->
    th L (scheme_name s) o = Ok beta -> angles_near delta (vat (gl_nodes gl L)) s L nside beta ->
    (forall t, 0 <= t < rings s L nside -> usable_ring s (rings s L nside) L 0 spin (vat beta) t) ->
    runs_on method b -> pm_kernel_given th gl b L spin reality (scheme_name s) o false kernel ->
    exists f, pre_inverse_at th gl flm L spin kernel (scheme_name s) reality method o = Ok f /\
      samples_near eps (vat (gl_nodes gl L)) s L nside f (synth L spin (used_coefficients reality spin 0 (stored L flm))).
Proof.
  intros HL Hs Hn Hg Hf Hr He.
  destruct (samples_at_near gl L spin s nside (used_coefficients reality spin 0 (stored L flm)) eps ltac:(lia) ltac:(intros Q; apply (Hn Q)) Hg He) as (delta & D & H).
  exists delta. split; [exact D|]. intros th o beta method b kernel Ho Eb Ha Hu Hm HK.
  assert (S : setting (scheme_name s) s L nside o) by (split; [apply denotes_name|]; split; [lia|]; intros Q; destruct (Hn Q); auto).
  destruct (pm_inverse_lemma th gl method b s flm L spin kernel nside o reality beta S HL Hs Hf) as (f & E & HF); auto.
  { intros Q. apply (Hn Q). }
  { apply Ha. }
  exists f. split; [exact E|]. now apply (H beta).
Qed.

Lemma pm_reference_inverse gl flm L spin s nside reality eps rmethod :
  2 <= L -> Z.abs spin < L -> (s = HEALPIX -> 1 <= nside /\ 2 * nside <= L) ->
  rule_sizes s L (gl_nodes gl L) (gl_weights gl L) -> rings_away (vat (gl_nodes gl L)) s L nside ->
  shape flm = [L; 2 * L - 1] ->
  (reality = true -> spin = 0 -> forall el, 0 <= el < L -> is_real (stored L flm el 0)) -> sum_method rmethod \/ fft_method rmethod -> (0 < eps)%R ->
  exists f0 delta, inverse_ gl flm L spin (scheme_name s) rmethod (Some nside) reality 0 = Ok f0 /\ (0 < delta)%R /\
    forall th o beta method b kernel, (s = HEALPIX -> o = Some nside) ->
    th L (scheme_name s) o = Ok beta -> angles_near delta (vat (gl_nodes gl L)) s L nside beta ->
    (forall t, 0 <= t < rings s L nside -> usable_ring s (rings s L nside) L 0 spin (vat beta) t) ->
    runs_on method b -> pm_kernel_given th gl b L spin reality (scheme_name s) o false kernel ->
    exists f, pre_inverse_at th gl flm L spin kernel (scheme_name s) reality method o = Ok f /\ arrays_near eps f f0.
Proof.
  intros HL Hs Hn Hg Ha Hf Hre0 Hrm He.
  assert (Hn1 : s = HEALPIX -> 1 <= nside) by (intros Q; apply (Hn Q)).
  assert (S : setting (scheme_name s) s L nside (Some nside)) by (split; [apply denotes_name|]; split; [lia|]; intros Q; auto).
  destruct (synthesis_lemma gl (scheme_name s) s flm L spin rmethod nside (Some nside) reality 0 S ltac:(lia) Hf) as (f0 & E0 & S0 & H0); auto.
  { intros Q. apply (Hg Q). }
  { destruct Hrm as [Q|Q]; [now left|right]. split; [exact Q|]. split; [reflexivity|]. split; [intros R; apply (Hn R)|]. auto. }
  assert (HN := away_nodes gl s L nside ltac:(lia) Ha).
  destruct (pm_inverse_near gl flm L spin s nside reality eps) as (delta & D & H); auto.
  exists f0, delta. split; [exact E0|]. split; [exact D|]. intros th o beta method b kernel Ho Eth Hb Hu Hm HP.
  destruct (H th o beta method b kernel Ho Eth Hb Hu Hm HP) as (f & E & S1 & H1). exists f. split; [exact E|]. split; [congruence|].
  intros ix Hix. rewrite S1 in Hix. destruct (sample_cover s L nside ix ltac:(lia) Hn1 Hix) as (t & q & Ht & Hq & ->).
  rewrite (H0 t q (th_of gl s L nside t)); auto; [|now apply placed]. apply H1; auto. now apply placed.
Qed.

Lemma pm_forward_near gl f0 L spin s nside reality w eps :
  2 <= L -> Z.abs spin < L -> (s = HEALPIX -> 1 <= nside /\ 2 * nside <= L) ->
  nodes_ok s L (gl_nodes gl L) -> (s = GL -> vlen (gl_weights gl L) = L) -> shape f0 = map_shape s L nside ->
  quad_weights_transform gl L (scheme_name (fscheme s)) 0 (Some nside) = Ok w -> (0 < eps)%R ->
  exists delta, (0 < delta)%R /\ forall th o beta method b kernel f, (s = HEALPIX -> o = Some nside /\ (b = jax -> 2 <= nside)) ->
    arrays_near delta f f0 -> (reality = true -> spin = 0 -> s = HEALPIX -> real_values gl s L nside spin f) ->
    fwd_angles th s L o = Ok beta -> forward_angles_near delta (vat (gl_nodes gl L)) s L nside beta ->
    (forall t, 0 <= t < vlen beta -> usable_ring (forward_scheme s) (vlen beta) L 0 spin (vat beta) t) ->
    runs_on method b -> pm_kernel_given th gl b L spin reality (scheme_name s) o true kernel ->
    exists flm, pre_forward_at th gl f L spin kernel (scheme_name s) reality method o = Ok flm /\
      coefficients_near eps L flm (coeffs gl s L nside spin 0 w (uvals (eff reality spin) s L nside spin f0)).
Proof.
  intros HL Hs Hn Hg Hgw Hf0 Ew He.
  assert (Hn1 : s = HEALPIX -> 1 <= nside) by (intros Q; apply (Hn Q)).
  destruct (fsum_near gl f0 L spin s nside (eff reality spin) w eps ltac:(lia) Hn1 Hg Hf0 He) as (delta & D & H).
  exists delta. split; [exact D|]. intros th o beta method b kernel f Ho Hf Hreal Eth Ha Hu Hm HP.
  assert (Hb : vlen beta = gn (fgrid gl s L nside)) by (rewrite fwd_rings; apply Ha).
  assert (S : setting (scheme_name s) s L nside o) by (split; [apply denotes_name|]; split; [lia|]; intros Q; split; auto; apply (Ho Q)).
  assert (S' : setting (scheme_name s) s L nside (Some nside)) by (split; [apply denotes_name|]; split; [lia|]; intros Q; auto).
  destruct (pm_forward_lemma th gl method b s f L spin kernel nside o reality beta S HL Hs) as (w' & flm & Ew' & E & H1 & H2); auto.
  { rewrite (proj1 Hf). exact Hf0. }
  { intros Q. split; [apply (Hn Q)|apply (Ho Q)]. }
  exists flm. split; [exact E|]. split; [exact H1|]. intros el m Hel Hmm. rewrite H2 by auto. unfold coeffs. rewrite Z.max_r by lia. destruct (_ <=? _).
  - assert (EW : w' = w).
    { pose proof (fname_same gl (scheme_name s) (scheme_name s) s L nside o (Some nside) S S') as Q.
      replace (fname (scheme_name s) s) with (scheme_name (fscheme s)) in Q by (destruct s; reflexivity). rewrite Ew, Ew' in Q. now injection Q. }
    rewrite EW. now apply H.
  - replace (RtoC 0 - RtoC 0)%C with (RtoC 0) by ring. now rewrite Cmod_0.
Qed.

Lemma pm_reference_forward gl f L spin s nside reality eps rmethod :
  2 <= L -> Z.abs spin < L -> (s = HEALPIX -> 1 <= nside /\ 2 * nside <= L) ->
  rule_sizes s L (gl_nodes gl L) (gl_weights gl L) -> forward_rings_away (vat (gl_nodes gl L)) s L nside ->
  shape f = map_shape s L nside -> (reality = true -> spin = 0 -> real_map (vat (gl_nodes gl L)) s L nside spin f) ->
  sum_method rmethod \/ fft_method rmethod -> (0 < eps)%R ->
  exists flm0 delta, forward_ gl f L spin (scheme_name s) rmethod (Some nside) reality 0 = Ok flm0 /\ (0 < delta)%R /\
    forall th o beta method b kernel, (s = HEALPIX -> o = Some nside /\ (b = jax -> 2 <= nside)) ->
    fwd_angles th s L o = Ok beta -> forward_angles_near delta (vat (gl_nodes gl L)) s L nside beta ->
    (forall t, 0 <= t < vlen beta -> usable_ring (forward_scheme s) (vlen beta) L 0 spin (vat beta) t) ->
    runs_on method b -> pm_kernel_given th gl b L spin reality (scheme_name s) o true kernel ->
    exists flm, pre_forward_at th gl f L spin kernel (scheme_name s) reality method o = Ok flm /\ arrays_near eps flm flm0.
Proof.
  intros HL Hs Hn Hg Ha Hf HR Hrm He.
  assert (Hn1 : s = HEALPIX -> 1 <= nside) by (intros Q; apply (Hn Q)).
  assert (S : setting (scheme_name s) s L nside (Some nside)) by (split; [apply denotes_name|]; split; [lia|]; intros Q; auto).
  assert (HN : nodes_ok s L (gl_nodes gl L)).
  { intros -> i Hi. destruct (Ha (L - 1 - i)) as (x & [_ Q] & _); [cbn; lia|]. replace (L - 1 - (L - 1 - i)) with i in Q by lia. rewrite <- Q. apply COS_bound. }
  assert (RV : reality = true -> spin = 0 -> real_values gl s L nside spin f) by (intros Q Q'; apply real_values_gen; auto; lia).
  destruct (analysis_lemma gl (scheme_name s) s f L spin rmethod nside (Some nside) reality 0 S ltac:(lia) Hf Hg Ha) as (w & flm0 & Ew & E0 & S0 & H0); auto.
  { destruct Hrm as [Q|Q]; [now left|right]. split; [exact Q|]. split; [auto|]. intros R; apply (Hn R). }
  replace (fname (scheme_name s) s) with (scheme_name (fscheme s)) in Ew by (destruct s; reflexivity).
  destruct (pm_forward_near gl f L spin s nside reality w eps) as (delta & D & H); auto.
  { intros Q. apply (Hg Q). }
  exists flm0, delta. split; [exact E0|]. split; [exact D|]. intros th o beta method b kernel Ho Eth Hb Hu Hm HP.
  destruct (H th o beta method b kernel f) as (flm & E & S1 & H1); auto.
  { split; [reflexivity|]. intros ix _. replace (get f ix - get f ix)%C with (RtoC 0) by ring. rewrite Cmod_0. exact D. }
  exists flm. split; [exact E|]. split; [congruence|]. intros ix Hix. rewrite S1 in Hix. destruct ix as [|el [|j [|]]]; cbn [in_shape] in Hix; try tauto.
  specialize (H1 el (j - (L - 1)) ltac:(lia) ltac:(lia)). specialize (H0 el (j - (L - 1)) ltac:(lia) ltac:(lia)). unfold stored in H1, H0.
  replace (j - (L - 1) + L - 1) with j in H1, H0 by lia. rewrite H0. clear H0.
  replace (coeffs gl s L nside spin 0 w (uvals (eff reality spin) s L nside spin f) el (j - (L - 1))) with
    (if Z.max 0 (Z.abs spin) <=? el then SphForwardTop.fsum (fgrid gl s L nside) spin w (fvals s L nside spin f) el (j - (L - 1)) else RtoC 0) in H1; [exact H1|].
  unfold coeffs. destruct (_ <=? _); [|reflexivity]. apply fsum_ext. intros t q IG. unfold uvals.
  destruct (eff reality spin) eqn:Ef; [|reflexivity]. apply eff_spin in Ef. symmetry. apply real_Re. now apply RV.
Qed.

Lemma pm_recover_near gl f L spin s nside reality eps c :
  2 <= L -> Z.abs spin < L -> s <> HEALPIX -> (s = GL -> gauss_legendre L (gl_nodes gl L) (gl_weights gl L)) ->
  holds_samples (vat (gl_nodes gl L)) s L nside f (synth L spin c) -> (reality = true -> spin = 0 -> hermitian L c) -> (0 < eps)%R ->
  exists delta, (0 < delta)%R /\ forall th o beta method b kernel f', arrays_near delta f' f ->
    fwd_angles th s L o = Ok beta -> forward_angles_near delta (vat (gl_nodes gl L)) s L nside beta ->
    (forall t, 0 <= t < vlen beta -> usable_ring (forward_scheme s) (vlen beta) L 0 spin (vat beta) t) ->
    runs_on method b -> pm_kernel_given th gl b L spin reality (scheme_name s) o true kernel ->
    exists flm, pre_forward_at th gl f' L spin kernel (scheme_name s) reality method o = Ok flm /\
      coefficients_near eps L flm (restricted 0 spin c).
Proof.
  intros HL Hs Hhp HG HF Hr He.
  assert (HN : nodes_ok s L (gl_nodes gl L)).
  { intros Q i Hi. destruct (HG Q) as (_ & _ & B & _). specialize (B i Hi). lra. }
  destruct (weights_ok gl (scheme_name s) s L nside (Some nside) (denotes_name s) ltac:(lia) ltac:(intros; congruence)) as (w & Ew & _).
  { intros Q. apply (HG Q). }
  replace (fname (scheme_name s) s) with (scheme_name (fscheme s)) in Ew by (destruct s; reflexivity).
  destruct (pm_forward_near gl f L spin s nside reality w eps) as (delta & D & H); auto.
  { intros; congruence. }
  { intros Q. apply (HG Q). }
  { apply HF. }
  exists delta. split; [exact D|]. intros th o beta method b kernel f' Hf' Eth Hb Hu Hm HP.
  destruct (H th o beta method b kernel f') as (flm & E & S1 & H1); auto; try congruence.
  exists flm. split; [exact E|]. split; [exact S1|]. intros el m Hel Hmm. specialize (H1 el m Hel Hmm).
  rewrite (coeffs_exact gl f L spin s nside (eff reality spin) 0 w c) in H1; auto; [lia|].
  intros Q. apply eff_spin in Q. split; [now apply Hr|apply Q].
Qed.

Lemma pm_round_trip gl flm L spin s nside reality eps :
  2 <= L -> Z.abs spin < L -> s <> HEALPIX ->
  (s = GL -> gauss_legendre L (gl_nodes gl L) (gl_weights gl L)) ->
  shape flm = [L; 2 * L - 1] -> (reality = true -> spin = 0 -> hermitian L (stored L flm)) -> (0 < eps)%R ->
  exists delta, (0 < delta)%R /\ forall th o beta beta' minv mfwd b b' kinv kfwd,
    th L (scheme_name s) o = Ok beta -> angles_near delta (vat (gl_nodes gl L)) s L nside beta ->
    (forall t, 0 <= t < rings s L nside -> usable_ring s (rings s L nside) L 0 spin (vat beta) t) ->
    fwd_angles th s L o = Ok beta' -> forward_angles_near delta (vat (gl_nodes gl L)) s L nside beta' ->
    (forall t, 0 <= t < vlen beta' -> usable_ring (forward_scheme s) (vlen beta') L 0 spin (vat beta') t) ->
    runs_on minv b -> pm_kernel_given th gl b L spin reality (scheme_name s) o false kinv ->
    runs_on mfwd b' -> pm_kernel_given th gl b' L spin reality (scheme_name s) o true kfwd ->
    exists f flm', pre_inverse_at th gl flm L spin kinv (scheme_name s) reality minv o = Ok f /\
      pre_forward_at th gl f L spin kfwd (scheme_name s) reality mfwd o = Ok flm' /\
      coefficients_near eps L flm' (restricted 0 spin (stored L flm)).
Proof.
  intros HL Hs Hhp HG Hf Hr He.
  set (c := used_coefficients reality spin 0 (stored L flm)).
  assert (HN : nodes_ok s L (gl_nodes gl L)).
  { intros Q i Hi. destruct (HG Q) as (_ & _ & B & _). specialize (B i Hi). lra. }
  assert (MS : map_shape s L nside = [rings s L nside; per_ring s L]) by (destruct s; try congruence; reflexivity).
  set (f0 := mkArr (map_shape s L nside) (fun ix => synth L spin c (th_of gl s L nside (nth 0 ix 0)) (longitude s L nside (nth 0 ix 0) (nth 1 ix 0)))).
  assert (SI : forall t p, sample_index s nside t p = [t; p]) by (intros; destruct s; try congruence; reflexivity).
  assert (Hf0 : holds_samples (vat (gl_nodes gl L)) s L nside f0 (synth L spin c)).
  { split; [reflexivity|]. intros t p x Ht Hp Hx. rewrite SI. cbn [f0 get nth]. rewrite (colat_unique gl s L nside t x); auto. congruence. }
  assert (Hc : reality = true -> spin = 0 -> hermitian L c).
  { intros Q H0 el m Hel Hm. unfold c. pose proof (Hr Q H0) as HH. rewrite !(used_herm L) by (auto; lia). now apply (above_herm L 0 (stored L flm) HH). }
  destruct (pm_recover_near gl f0 L spin s nside reality eps c) as (d2 & D2 & H2); auto.
  destruct (pm_inverse_near gl flm L spin s nside reality d2) as (d1 & D1 & H1); auto.
  { intros; congruence. }
  { intros Q Q' el Hel. apply (herm_real L); auto. }
  exists (Rmin d1 d2). split; [now apply Rmin_glb_lt|]. intros th o beta beta' minv mfwd b b' kinv kfwd E1 A1 U1 E2 A2 U2 M1 P1 M2 P2.
  assert (Dm : (0 < Rmin d1 d2)%R) by now apply Rmin_glb_lt.
  destruct (H1 th o beta minv b kinv) as (f & Ef & Sf & Hf1); auto.
  { intros; congruence. }
  { eapply angles_mono; [|exact A1]. split; [exact Dm|apply Rmin_l]. }
  destruct (H2 th o beta' mfwd b' kfwd f) as (flm' & El & Sl & Hl); auto.
  { split; [exact Sf|]. intros ix Hix. rewrite Sf in Hix. destruct (sample_cover s L nside ix ltac:(lia) ltac:(intros; congruence) Hix) as (t & q & Ht & Hq & ->).
    rewrite (proj2 Hf0 t q (th_of gl s L nside t)); auto; [apply Hf1; auto|]; apply placed; auto; congruence. }
  { eapply angles_mono; [|exact A2]. split; [exact Dm|apply Rmin_r]. }
  exists f, flm'. split; [exact Ef|]. split; [exact El|]. split; [exact Sl|]. intros el m Hel Hm. specialize (Hl el m Hel Hm).
  replace (restricted 0 spin (stored L flm) el m) with (restricted 0 spin c el m); [exact Hl|].
  unfold restricted. destruct (_ && _) eqn:B; [|reflexivity]. unfold c. rewrite (used_herm L) by (try lia; intros; apply Hr; auto).
  unfold above. now replace (el <? 0) with false by lia.
Qed.

Lemma pm_inverse_kernel th gl s L nside o reality spin recursion beta : setting (scheme_name s) s L nside o -> 2 <= L -> Z.abs spin < L -> Z.abs spin <= 6 ->
  (lower recursion = "auto" \/ lower recursion = "price-mcewen") ->
  th L (scheme_name s) o = Ok beta -> vlen beta = rings s L nside ->
  (forall t, 0 <= t < rings s L nside -> usable_ring s (rings s L nside) L 0 spin (vat beta) t) ->
  exists K, spin_spherical_kernel_jax_at th gl L spin reality (scheme_name s) o false recursion = Ok K /\
    shape K = [rings s L nside; L; if reality && (spin =? 0) then L else 2 * L - 1] /\
    forall t el m, 0 <= t < rings s L nside -> 0 <= el < L -> (if reality && (spin =? 0) then 0 else - (L - 1)) <= m < L ->
      get K [t; el; if reality && (spin =? 0) then m else m + L - 1] =
      (RtoC (sqrt ((2 * IZR el + 1) / (4 * PI)) * wigner_d el m (- spin) (ring_angle s (rings s L nside) (vat beta) t)) *
       (match s with HEALPIX => cis (IZR m * hp_longitude nside t 0) | _ => RtoC 1 end))%C.
Proof.
  intros S HL Hs H6 HR Eb Hb Hu.
  destruct (pm_kernel_ok th gl s L nside o false (eff reality spin) spin recursion beta S HL Hs H6 ltac:(discriminate)) as (K & w & E & _ & H); auto.
  { intros Q. now apply eff_spin in Q. }
  { cbn [kgrid]. now rewrite the_grid_n. }
  { cbn [kscheme]. now rewrite Hb. }
  rewrite <- kernel_at_eff in E. exists K. split; [exact E|]. rewrite (kgrid_at_n gl) in H. cbn [kgrid kscheme] in H. rewrite the_grid_n, Hb in H.
  assert (EE : eff reality spin = reality && (spin =? 0)) by (unfold eff; destruct reality, (spin =? 0); reflexivity). rewrite EE in *.
  destruct H as [H1 H2]. split; [rewrite H1; destruct (reality && (spin =? 0)); reflexivity|]. intros t el m Ht Hel Hm.
  set (i := if reality && (spin =? 0) then m else m + L - 1).
  pose proof (H2 t el i Ht Hel) as Q. unfold at3 in Q. rewrite Q; [|unfold i, md_of; destruct (reality && (spin =? 0)); lia].
  unfold kval. rewrite kgrid_at_th. cbn [kphase].
  replace (i + ms_of L (reality && (spin =? 0)) - (L - 1)) with m by (unfold i, ms_of; destruct (reality && (spin =? 0)); lia).
  rewrite Rmult_1_l. apply (f_equal2 Cmult); [|now destruct s]. unfold elfactor. now rewrite plus_IZR, mult_IZR.
Qed.
