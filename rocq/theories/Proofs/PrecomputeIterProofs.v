(** The refined forward transforms: with precomputed kernels, and at angles close to the colatitudes. *)
From Coq Require Import Reals ZifyBool Lra.
From Coquelicot Require Import Complex.
From Verif Require Import Lib.Py Lib.PyFacts Lib.Vec Lib.VecFacts Lib.Sums Lib.Cplx Lib.Arr Lib.ArrFacts Lib.MatFacts Lib.Ext Lib.ExtFacts Lib.Lim
  Model.Index Model.Samples Model.Grids Model.FFT Model.HealpixFFT Model.Turok Model.Risbo Model.Resampling Model.Quadrature Model.Refine
  Model.Spherical Model.Precompute Model.PriceMcEwen Model.OTF Model.OTFSpherical Model.PrecomputeIter
  Spec.SamplesSpec Spec.WignerSpec Spec.SphereSpec Spec.GridSpec Spec.HealpixFFTSpec Spec.SphericalSpec Spec.QuadSpec Spec.OTFSpec Spec.OTFSphericalSpec Spec.RefineSpec Spec.PrecomputeSpec
  Proofs.SamplesProofs Proofs.GridProofs Proofs.TurokProofs Proofs.HealpixDFTProofs Proofs.SphereTheory Proofs.SphGrid Proofs.SphInverse Proofs.SphTop Proofs.SphForward Proofs.SphForwardTop
  Proofs.SphFacts Proofs.SphMore Proofs.SphRound Proofs.PrecomputeSph Proofs.PrecomputeTop Proofs.PMPre Proofs.OTFProofs Proofs.OTFTop Proofs.OTFRegular Proofs.OTFLimit Proofs.OTFSphInverse Proofs.OTFSphForward Proofs.OTFSphNear
  Proofs.OTFSphTop Proofs.OTFSphMore Proofs.PMTop Proofs.WignerReal Proofs.RefineProofs Proofs.RefineSph Proofs.RefineNear
  Spec.CallSpec.
From Coq Require Import List.
Import ListNotations.
Open Scope string_scope.
Open Scope Z_scope.

Lemma pre_iter_refine th gl b method f L spin kernel name reality o n K K' : runs_on method b ->
  match kernel with None => kernel_function_at b th gl L spin (eff reality spin) name o true "auto" | Some k => Ok k end = Ok K ->
  kernel_function_at b th gl L spin (eff reality spin) name o false "auto" = Ok K' ->
  pre_forward_iter_at th gl f L spin kernel name reality method o n =
  refine f n (fun g => pre_forward_at th gl g L spin kernel name reality method o) (fun y => pre_inverse_at th gl y L spin None name reality method o).
Proof.
  intros Hm EK EK'. unfold pre_forward_iter_at. rewrite (runs_backend method b Hm). cbn [bind]. fold (eff reality spin). rewrite EK. cbn [bind].
  assert (HF : forall g, pre_forward_at th gl g L spin kernel name reality method o = forward_transform b g K L name (eff reality spin) spin o).
  { intros g. unfold pre_forward_at. rewrite (runs_backend method b Hm). cbn [bind]. fold (eff reality spin). rewrite EK. reflexivity. }
  destruct (Z.eqb_spec n 0) as [->|Hn]; [rewrite refine_0 by lia; symmetry; apply HF|].
  rewrite EK'. cbn [bind]. apply refine_ext; intros g; symmetry; [apply HF|].
  unfold pre_inverse_at. rewrite (runs_backend method b Hm). cbn [bind]. fold (eff reality spin). rewrite EK'. reflexivity.
Qed.

(** ** Kernels exact at the colatitudes *)
Section Exact.
  Variables (gl : gl_rule) (method : string) (b : backend) (s : scheme) (L spin : Z) (kernel : option (ndarray C)) (nside : Z) (o : option Z) (reality : bool).
  Hypothesis (S : setting (scheme_name s) s L nside o) (Hg : rule_sizes s L (gl_nodes gl L) (gl_weights gl L))
    (Hh : s = HEALPIX -> 2 * nside <= L /\ (b = jax -> 2 <= nside)) (Hm : runs_on method b)
    (Ha : rings_away (vat (gl_nodes gl L)) s L nside) (Hfa : forward_rings_away (vat (gl_nodes gl L)) s L nside)
    (HK : kernel_given gl b L spin reality (scheme_name s) o true (forward_rings_away (vat (gl_nodes gl L)) s L nside) kernel)
    (HK' : recursion_ok b "auto" L spin (rings_away (vat (gl_nodes gl L)) s L nside)).
  Notation F := (fun f => pre_forward gl f L spin kernel (scheme_name s) reality method o).
  Notation B := (fun y => pre_inverse gl y L spin None (scheme_name s) reality method o).
  Notation F0 := (fun f => forward_ gl f L spin (scheme_name s) "sov_fft_vectorized" o reality 0).
  Notation B0 := (fun flm => inverse_ gl flm L spin (scheme_name s) "sov_fft_vectorized" o reality 0).
  Notation P := (maps_of (vat (gl_nodes gl L)) s L nside spin reality).
  Notation Q := (coefficients_of L spin reality).
  Lemma HL1 : 1 <= L.
  Proof using S. apply S. Qed.
  Lemma kernel_None : kernel_given gl b L spin reality (scheme_name s) o false (rings_away (vat (gl_nodes gl L)) s L nside) None.
  Proof using HK'. left. auto. Qed.
  Lemma exact_refine f n : pre_forward_iter gl f L spin kernel (scheme_name s) reality method o n = refine f n F B.
  Proof using S Hg Hh Hm Ha Hfa HK HK'.
    destruct (given_kernel gl b (scheme_name s) s L nside o true reality spin kernel S) as (K & _ & EK & _).
    { intros E. destruct (Hg E) as (H1 & H2). auto. }
    { eapply given_weaken; [|exact HK]. intros _. apply (fgrid_away gl s L nside); [intros E; apply (proj2 (proj2 S)); exact E|exact Hfa]. }
    destruct (given_kernel gl b (scheme_name s) s L nside o false reality spin None S) as (K' & _ & EK' & _).
    { intros E. destruct (Hg E) as (H1 & H2). split; [exact H1|discriminate]. }
    { eapply given_weaken; [|exact kernel_None]. intros _. apply rings_away_grid; [intros E; apply (proj2 (proj2 S)); exact E|exact Ha]. }
    now apply (pre_iter_refine _ gl b method f L spin kernel (scheme_name s) reality o n K K').
  Qed.
  Lemma exact_F f : P f -> same_ok (F f) (F0 f).
  Proof using S Hg Hh Hm Hfa HK.
    intros [Sf Rf]. apply (pre_forward_same gl method b s f L spin kernel nside o reality); auto.
    right. split; [right; reflexivity|]. split; [auto|]. intros E. apply (Hh E).
  Qed.
  Lemma exact_B y : Q y -> same_ok (B y) (B0 y).
  Proof using S Hg Hh Hm Ha HK'.
    intros Qy. pose proof Qy as [Sy Ry].
    assert (R0 : reality = true -> spin = 0 -> forall el, 0 <= el < L -> is_real (stored L y el 0)) by (intros Q1 Q2 el Hel; apply (herm_real L); auto).
    apply (pre_inverse_same gl method b s y L spin None nside o reality); auto using kernel_None.
    - intros E. apply (Hg E).
    - intros E. apply (Hh E).
    - right. split; [right; reflexivity|]. split; [reflexivity|]. split; [intros E; apply (Hh E)|exact R0].
  Qed.
  Lemma exact_same f n : P f -> 0 <= n ->
    same_ok (pre_forward_iter gl f L spin kernel (scheme_name s) reality method o n) (forward_iter gl f L spin (scheme_name s) o reality 0 n).
  Proof using S Hg Hh Hm Ha Hfa HK HK'.
    intros Hf Hn. rewrite exact_refine, forward_iter_refine by exact Hn. pose proof HL1.
    apply (refine_same (map_shape s L nside) [L; 2 * L - 1] P Q); auto using maps_space, coefficients_space, exact_F, exact_B.
    - apply (forward_map gl s L spin 0 nside o reality); auto; [lia|]. intros E. apply (Hh E).
    - apply (inverse_map gl s L spin 0 nside o reality); auto; [lia|]. intros E. apply (Hh E).
  Qed.
End Exact.

(** ** Angles close to the colatitudes *)
Lemma Rabs_sgn a : Rabs (sgn a) = 1%R.
Proof. destruct (sgn_cases a) as [-> | ->]; [apply Rabs_R1|]. rewrite Rabs_left by lra. lra. Qed.
Lemma Cmod_conj z : Cmod (Cconj z) = Cmod z.
Proof. unfold Cmod, Cconj. cbn. f_equal. ring. Qed.
Lemma used_near L reality spin Lo d y y0 l m : shape y0 = [L; 2 * L - 1] -> 0 <= l < L -> - L < m < L -> (0 < d)%R -> arrays_near d y y0 ->
  (Cmod (used_coefficients reality spin Lo (stored L y) l m - used_coefficients reality spin Lo (stored L y0) l m)%C < d)%R.
Proof.
  intros S0 Hl Hm Hd [S1 H]. unfold used_coefficients, above. destruct (l <? Lo).
  { replace (RtoC 0 - RtoC 0)%C with (RtoC 0) by ring. now rewrite Cmod_0. }
  assert (K : forall m, - L < m < L -> (Cmod (stored L y l m - stored L y0 l m)%C < d)%R).
  { intros k Hk. apply H. rewrite S1, S0. cbn [in_shape]. lia. }
  destruct (_ && _); [|now apply K]. unfold real_extension. destruct (m <? 0); [|now apply K].
  replace (RtoC (sgn m) * Cconj (stored L y l (- m)) - RtoC (sgn m) * Cconj (stored L y0 l (- m)))%C
    with (RtoC (sgn m) * Cconj (stored L y l (- m) - stored L y0 l (- m)))%C by (rewrite Cconj_minus; ring).
  rewrite Cmod_mult, Cmod_R, Rabs_sgn, Rmult_1_l, Cmod_conj. apply K. lia.
Qed.
Lemma samples_joint gl L spin s nside reality Lo y0 eps : 1 <= L -> (s = HEALPIX -> 1 <= nside) -> nodes_ok s L (gl_nodes gl L) -> shape y0 = [L; 2 * L - 1] -> (0 < eps)%R ->
  exists delta, (0 < delta)%R /\ forall beta y f, angles_near delta (vat (gl_nodes gl L)) s L nside beta -> arrays_near delta y y0 ->
    samples_at (ring_angle s (rings s L nside) (vat beta)) s L nside f (synth L spin (used_coefficients reality spin Lo (stored L y))) ->
    samples_near eps (vat (gl_nodes gl L)) s L nside f (synth L spin (used_coefficients reality spin Lo (stored L y0))).
Proof.
  intros HL Hn1 Hg Sy0 He.
  set (P := fun d (u : vec R * ndarray C) => angles_near d (vat (gl_nodes gl L)) s L nside (fst u) /\ arrays_near d (snd u) y0).
  assert (mono : forall d d' u, (0 < d' <= d)%R -> P d' u -> P d u).
  { intros d d' u Hd [H1 [H2 H3]]. split; [eapply angles_mono; eauto|]. split; [exact H2|]. intros ix Hix. specialize (H3 ix Hix). lra. }
  destruct (lim_all P mono (pairs (rings s L nside) (ring_size s L nside))
    (fun i u => synth L spin (used_coefficients reality spin Lo (stored L (snd u))) (ring_angle s (rings s L nside) (vat (fst u)) (fst i)) (longitude s L nside (fst i) (snd i)))
    (fun i => synth L spin (used_coefficients reality spin Lo (stored L y0)) (th_of gl s L nside (fst i)) (longitude s L nside (fst i) (snd i)))) with (eps := eps) as (delta & D & H); auto.
  { intros i Hi. apply pairs_in in Hi. unfold synth. apply lim_sum; [exact mono|]. intros l Hl. apply in_zrange in Hl. apply lim_sum; [exact mono|]. intros m Hm. apply in_zrange in Hm.
    apply lim_mult; [exact mono| |].
    - intros e He'. exists e. split; [exact He'|]. intros u [_ Hu]. apply used_near; auto; lia.
    - unfold sYlm. apply lim_mult; [exact mono| |apply lim_const].
      apply (lim_ext P (fun u => RtoC (sgn spin * sqrt (IZR (2 * l + 1) / (4 * PI)))%R * RtoC (wigner_d l m (- spin) (ring_angle s (rings s L nside) (vat (fst u)) (fst i))))%C);
        [intros u; symmetry; apply RtoC_mult|].
      rewrite (RtoC_mult _ (wigner_d l m (- spin) (th_of gl s L nside (fst i)))). apply lim_mult; [exact mono|apply lim_const|]. apply lim_wigner.
      intros d u Hd [Hu _]. apply (ring_angle_close gl s L nside); auto. apply Hi. }
  exists delta. split; [exact D|]. intros beta y f Ha Hy [S1 S2]. split; [exact S1|]. intros t p' x Ht Hp Hx. rewrite S2 by auto.
  rewrite (colat_unique gl s L nside t x) by auto. apply (H (beta, y) (conj Ha Hy) (t, p')). now apply in_pairs.
Qed.

Section Angles.
  Context {U : Type} (valid : U -> Prop) (bet bet' : U -> vec R) (Fu Bu : U -> ndarray C -> result (ndarray C)).
  Variables (gl : gl_rule) (s : scheme) (L spin Lo nside : Z) (reality : bool).
  Notation r := (eff reality spin).
  Hypothesis (HL : 2 <= L) (HLo : 0 <= Lo < L) (Hn : s = HEALPIX -> 1 <= nside /\ 2 * nside <= L)
    (Hg : rule_sizes s L (gl_nodes gl L) (gl_weights gl L))
    (lemF : forall u f, valid u -> otf_maps s L nside r f -> vlen (bet' u) = rings (forward_scheme s) (forward_band s L) nside ->
       exists w flm, quad_weights_transform gl L (scheme_name (fscheme s)) 0 (Some nside) = Ok w /\ Fu u f = Ok flm /\
         holds_coefficients L flm (fun el m => if Z.max Lo (Z.abs spin) <=? el then
           SphForwardTop.fsum (ogrid s L nside (ring_angle (fscheme s) (vlen (bet' u)) (vat (bet' u)))) spin w (uvals r s L nside spin f) el m else RtoC 0))
    (lemB : forall u y, valid u -> otf_coefficients L spin r y -> vlen (bet u) = rings s L nside ->
       exists f, Bu u y = Ok f /\
         samples_at (ring_angle s (rings s L nside) (vat (bet u))) s L nside f (synth L spin (used_coefficients reality spin Lo (stored L y)))).
  Notation P := (otf_maps s L nside r).
  Notation Q := (otf_coefficients L spin r).
  Notation P0 := (maps_of (vat (gl_nodes gl L)) s L nside spin reality).
  Notation Q0 := (coefficients_of L spin reality).
  Let near (d : R) (u : U) : Prop := valid u /\ angles_near d (vat (gl_nodes gl L)) s L nside (bet u) /\ forward_angles_near d (vat (gl_nodes gl L)) s L nside (bet' u).

  Lemma Hn1 : s = HEALPIX -> 1 <= nside.
  Proof using Hn. intros E. apply (Hn E). Qed.
  (** what the functions return *)
  Lemma F_out u f : valid u -> P f -> vlen (bet' u) = rings (forward_scheme s) (forward_band s L) nside -> exists flm, Fu u f = Ok flm /\ Q flm.
  Proof using HL HLo lemF. clear Hg lemB near.
    intros Hv Hf Hb. destruct (lemF u f Hv Hf Hb) as (w & flm & _ & E & S1 & H). exists flm. split; [exact E|]. split; [exact S1|]. split.
    - intros el m Hel HL' Hm. change (stored L flm el m = RtoC 0). rewrite H by lia. replace (_ <=? _) with false by lia. reflexivity.
    - intros R. pose proof (eff_spin _ _ R) as [_ R0]. intros el m Hel Hm. rewrite !H by lia. destruct (_ <=? _); [|rewrite Cconj_R; ring].
      rewrite R0. apply fsum_conj. intros t q _. unfold uvals. destruct (eff reality 0) eqn:E0; [reflexivity|]. rewrite R0 in R. congruence.
  Qed.
  Lemma B_out u y : valid u -> Q y -> vlen (bet u) = rings s L nside -> exists f, Bu u y = Ok f /\ P f.
  Proof using HL Hn lemB. clear Hg lemF HLo near.
    intros Hv Hy Hb. destruct (lemB u y Hv Hy Hb) as (f & E & S1 & H). exists f. split; [exact E|]. split; [exact S1|].
    intros R ix Hix. rewrite S1 in Hix. destruct (sample_cover s L nside ix ltac:(lia) Hn1 Hix) as (t & q & Ht & Hq & ->). rewrite H by auto.
    destruct Hy as (_ & _ & HH). specialize (HH R). apply eff_spin in R. destruct R as [R1 R2]. rewrite R1, R2. apply synth_real. apply above_herm. cbn [andb Z.eqb].
    apply real_ext_herm. intros el Hel. now apply (herm_real L).
  Qed.
  Lemma F_linear u : valid u -> vlen (bet' u) = rings (forward_scheme s) (forward_band s L) nside -> linear_map P Q (Fu u).
  Proof using HL HLo Hn lemF. clear Hg lemB near.
    intros Hv Hb. split; [intros f Hf; now apply F_out|]. intros x y a b c Ha Hb' Hc HC.
    destruct (lemF u a Hv Ha Hb) as (w & fa & Ew & Ea & Sa & Ka). destruct (lemF u b Hv Hb' Hb) as (w2 & fb & Ew2 & Eb & Sb & Kb).
    destruct (lemF u c Hv Hc Hb) as (w3 & fc & Ew3 & Ec & Sc & Kc). rewrite Ew in Ew2, Ew3. injection Ew2 as <-. injection Ew3 as <-.
    exists fa, fb, fc. split; [exact Ea|]. split; [exact Eb|]. split; [exact Ec|]. split; [congruence|]. split; [congruence|]. rewrite Sc.
    intros ix Hix. destruct ix as [|el [|q [|]]]; cbn [in_shape] in Hix; try lia.
    replace q with (q - (L - 1) + L - 1) by lia. set (m := q - (L - 1)) in *.
    change (stored L fc el m = (RtoC x * stored L fa el m + RtoC y * stored L fb el m)%C).
    rewrite Ka, Kb, Kc by lia. destruct (_ <=? _); [|ring]. apply fsum_lin. intros t q' IG. apply (ogrid_in gl) in IG. unfold uvals.
    assert (V : fvals s L nside spin c t q' = (RtoC x * fvals s L nside spin a t q' + RtoC y * fvals s L nside spin b t q')%C).
    { apply (fvals_lin gl); [lia|exact Hn1|apply Hc|exact HC|exact IG]. }
    rewrite V. destruct r; [|reflexivity]. apply Re_comb; reflexivity.
  Qed.
  Lemma B_linear u : valid u -> vlen (bet u) = rings s L nside -> linear_map Q P (Bu u).
  Proof using HL Hn lemB. clear Hg lemF HLo near.
    intros Hv Hb. split; [intros f Hf; now apply B_out|]. intros x y a b c Ha Hb' Hc HC.
    destruct (lemB u a Hv Ha Hb) as (fa & Ea & Sa & Ka). destruct (lemB u b Hv Hb' Hb) as (fb & Eb & Sb & Kb).
    destruct (lemB u c Hv Hc Hb) as (fc & Ec & Sc & Kc).
    exists fa, fb, fc. split; [exact Ea|]. split; [exact Eb|]. split; [exact Ec|]. split; [congruence|]. split; [congruence|]. rewrite Sc.
    intros ix Hix. destruct (sample_cover s L nside ix ltac:(lia) Hn1 Hix) as (t & q & Ht & Hq & ->). rewrite Ka, Kb, Kc by auto.
    apply synth_lin. intros l m Hl Hm. apply used_lin; auto; try lia; [apply Hc|]. intros _. split; reflexivity.
  Qed.
  (** the error of the refined transform *)
  Lemma angles_error u flm n : valid u -> vlen (bet' u) = rings (forward_scheme s) (forward_band s L) nside -> vlen (bet u) = rings s L nside -> Q flm -> 0 <= n ->
    exists f y e, Bu u flm = Ok f /\ refine f n (Fu u) (Bu u) = Ok y /\ difference flm y e /\ defect (Fu u) (Bu u) (S (Z.to_nat n)) flm e.
  Proof using HL HLo Hn lemF lemB.
    intros Hv Hb' Hb HQ H0. pose proof (F_linear u Hv Hb') as LF. pose proof (B_linear u Hv Hb) as LB.
    destruct (proj1 LB flm HQ) as (f & E & _).
    destruct (refine_error _ _ _ _ _ _ (otf_maps_space s L nside r) (otf_coefficients_space L spin r) LF LB flm f HQ E n H0) as (y & e & Ey & _ & D & De).
    exists f, y, e. auto.
  Qed.

  Lemma maps_point f : nodes_ok s L (gl_nodes gl L) -> P0 f -> P f.
  Proof using HL Hn. clear Hg lemF lemB HLo near.
    intros HN [Sf Rf]. split; [exact Sf|]. intros R ix Hix. apply eff_spin in R. destruct R as [R1 R2]. specialize (Rf R1 R2).
    assert (M : s = MW \/ s = MWSS -> is_real (get f ix)).
    { intros QQ. assert (H' : exists F, represented (vat (gl_nodes gl L)) s L nside spin f F /\ forall theta phi, is_real (F theta phi))
        by (destruct QQ as [-> | ->]; exact Rf). destruct H' as (F & [[_ HF] _] & HR).
      rewrite Sf in Hix. destruct (sample_cover s L nside ix ltac:(lia) Hn1 Hix) as (t & q & Ht & Hq & ->).
      rewrite (HF t q (th_of gl s L nside t)); auto. apply placed; auto using Hn1. }
    assert (N : s <> MW -> s <> MWSS -> is_real (get f ix)).
    { intros N1 N2. assert (H' : forall ix, in_shape (shape f) ix -> is_real (get f ix)) by (destruct s; try congruence; exact Rf). auto. }
    destruct s; (apply M; auto; fail) || (apply N; discriminate).
  Qed.

  Lemma angles_near_reference f0 n : rings_away (vat (gl_nodes gl L)) s L nside -> forward_rings_away (vat (gl_nodes gl L)) s L nside -> P0 f0 -> 0 <= n ->
    exists y0, forward_iter gl f0 L spin (scheme_name s) (Some nside) reality Lo n = Ok y0 /\ forall eps, (0 < eps)%R -> exists d, (0 < d)%R /\
      forall u f, valid u -> angles_near d (vat (gl_nodes gl L)) s L nside (bet u) -> forward_angles_near d (vat (gl_nodes gl L)) s L nside (bet' u) ->
        P f -> arrays_near d f f0 -> exists y, refine f n (Fu u) (Bu u) = Ok y /\ arrays_near eps y y0.
  Proof using HL HLo Hn Hg lemF lemB.
    intros Ha Hfa Hf0 Hn0. assert (HN := away_nodes gl s L nside ltac:(lia) Ha).
    assert (SS : setting (scheme_name s) s L nside (Some nside)) by (split; [apply denotes_name|]; split; [lia|]; intros QQ; split; auto; now apply Hn1).
    assert (Hh : s = HEALPIX -> 2 * nside <= L) by (intros E; apply (Hn E)).
    assert (mono : forall d d' u, (0 < d' <= d)%R -> near d' u -> near d u).
    { intros d d' u Hd (H1 & H2 & H3). split; [exact H1|]. split; eapply angles_mono; eauto. }
    rewrite forward_iter_refine by exact Hn0.
    destruct (refine_near near (map_shape s L nside) [L; 2 * L - 1] P0 Q0 P Q
      (fun f => forward_ gl f L spin (scheme_name s) "sov_fft_vectorized" (Some nside) reality Lo)
      (fun flm => inverse_ gl flm L spin (scheme_name s) "sov_fft_vectorized" (Some nside) reality Lo) Fu Bu mono) with (f0 := f0) (n := n) as (y0 & E0 & _ & H);
      auto using maps_space, coefficients_space, otf_maps_space, otf_coefficients_space.
    - now apply (forward_map gl s L spin Lo nside (Some nside) reality).
    - now apply (inverse_map gl s L spin Lo nside (Some nside) reality).
    - (* forward *)
      intros f1 g0 eps [Sf1 Rf1] E1 He.
      assert (RV : reality = true -> spin = 0 -> real_values gl s L nside spin f1) by (intros Q1 Q2; apply real_values_gen; auto using Hn1; lia).
      destruct (analysis_lemma gl (scheme_name s) s f1 L spin "sov_fft_vectorized" nside (Some nside) reality Lo SS HLo Sf1 Hg Hfa) as (w & flm0 & Ew & E0 & S0 & H0); auto.
      { right. split; [right; reflexivity|]. auto. }
      assert (g0 = flm0) by congruence. subst g0.
      replace (fname (scheme_name s) s) with (scheme_name (fscheme s)) in Ew by (destruct s; reflexivity).
      destruct (fsum_near gl f1 L spin s nside r w eps ltac:(lia) Hn1 HN Sf1 He) as (d & D & H).
      exists d. split; [exact D|]. intros u f (Hv & _ & Hu) Hf HA. destruct (F_out u f Hv Hf (proj1 Hu)) as (flm & E & Qf). exists flm. split; [exact E|]. split; [exact Qf|].
      destruct (lemF u f Hv Hf (proj1 Hu)) as (w' & flm' & Ew' & E' & S' & H'). assert (flm' = flm) by congruence. subst flm'. rewrite Ew in Ew'. injection Ew' as <-.
      split; [congruence|]. rewrite S'. intros ix Hix. destruct ix as [|el [|j [|]]]; cbn [in_shape] in Hix; try tauto.
      specialize (H' el (j - (L - 1)) ltac:(lia) ltac:(lia)). specialize (H0 el (j - (L - 1)) ltac:(lia) ltac:(lia)). unfold stored in H', H0.
      replace (j - (L - 1) + L - 1) with j in H', H0 by lia. rewrite H0, H'. destruct (_ <=? _); [|replace (RtoC 0 - RtoC 0)%C with (RtoC 0) by ring; now rewrite Cmod_0].
      rewrite (fsum_ext (fgrid gl s L nside) spin w (fvals s L nside spin f1) (uvals r s L nside spin f1)).
      + apply H; auto; lia.
      + intros t q IG. unfold uvals. destruct r eqn:Ef; [|reflexivity]. apply eff_spin in Ef. symmetry. apply real_Re. now apply RV.
    - (* inverse *)
      intros y1 g0 eps Qy1 E1 He. pose proof Qy1 as [Sy1 Ry1].
      assert (R0 : reality = true -> spin = 0 -> forall el, 0 <= el < L -> is_real (stored L y1 el 0)) by (intros Q1 Q2 el Hel; apply (herm_real L); auto).
      destruct (synthesis_lemma gl (scheme_name s) s y1 L spin "sov_fft_vectorized" nside (Some nside) reality Lo SS HLo Sy1) as (f1 & E1' & S1 & H1); auto.
      { intros E. apply (Hg E). }
      { right. split; [right; reflexivity|]. auto. }
      assert (g0 = f1) by congruence. subst g0.
      destruct (samples_joint gl L spin s nside reality Lo y1 eps ltac:(lia) Hn1 HN Sy1 He) as (d & D & H).
      exists d. split; [exact D|]. intros u y (Hv & Hu & _) Hy HA. destruct (B_out u y Hv Hy (proj1 Hu)) as (f & E & Pf). exists f. split; [exact E|]. split; [exact Pf|].
      destruct (lemB u y Hv Hy (proj1 Hu)) as (f' & E' & HS). assert (f' = f) by congruence. subst f'.
      destruct (H (bet u) y f Hu HA HS) as (S2 & H2). split; [congruence|]. rewrite S2. intros ix Hix.
      destruct (sample_cover s L nside ix ltac:(lia) Hn1 Hix) as (t & q & Ht & Hq & ->).
      rewrite (H1 t q (th_of gl s L nside t)); auto; [|apply placed; auto using Hn1]. apply H2; auto. apply placed; auto using Hn1.
    - exists y0. split; [exact E0|]. intros eps He. destruct (H eps He) as (d & D & HH). exists d. split; [exact D|]. intros u f Hv Hu Hu' Hf HA.
      destruct (HH u f) as (y & Ey & _ & Ny); auto; [now split|]. exists y. auto.
  Qed.
End Angles.

(** ** Precomputed kernels of JAX *)
Record pm_call := mkPMCall { pc_th : theta_fn; pc_o : option Z; pc_beta : vec R; pc_beta' : vec R; pc_method : string; pc_kernel : option (ndarray C) }.
Section PM.
  Variables (gl : gl_rule) (s : scheme) (L spin nside : Z) (reality : bool).
  Hypothesis (HL : 2 <= L) (Hs : Z.abs spin < L) (Hn : s = HEALPIX -> 2 <= nside /\ 2 * nside <= L)
    (Hg : rule_sizes s L (gl_nodes gl L) (gl_weights gl L)).
  Definition pm_valid (u : pm_call) : Prop :=
    (s = HEALPIX -> pc_o u = Some nside) /\
    pc_th u L (scheme_name s) (pc_o u) = Ok (pc_beta u) /\
    (forall t, 0 <= t < rings s L nside -> usable_ring s (rings s L nside) L 0 spin (vat (pc_beta u)) t) /\
    fwd_angles (pc_th u) s L (pc_o u) = Ok (pc_beta' u) /\
    (forall t, 0 <= t < vlen (pc_beta' u) -> usable_ring (forward_scheme s) (vlen (pc_beta' u)) L 0 spin (vat (pc_beta' u)) t) /\
    runs_on (pc_method u) jax /\ pm_kernel_given (pc_th u) gl jax L spin reality (scheme_name s) (pc_o u) true (pc_kernel u).
  Definition pm_F (u : pm_call) (f : ndarray C) := pre_forward_at (pc_th u) gl f L spin (pc_kernel u) (scheme_name s) reality (pc_method u) (pc_o u).
  Definition pm_B (u : pm_call) (y : ndarray C) := pre_inverse_at (pc_th u) gl y L spin None (scheme_name s) reality (pc_method u) (pc_o u).
  Lemma pm_setting u : pm_valid u -> setting (scheme_name s) s L nside (pc_o u).
  Proof using HL Hn. clear Hg Hs. intros (Ho & _). split; [apply denotes_name|]. split; [lia|]. intros E. destruct (Hn E). split; [lia|now apply Ho]. Qed.
  Lemma pm_inv_kernel u : pm_valid u -> pm_kernel_given (pc_th u) gl jax L spin reality (scheme_name s) (pc_o u) false None.
  Proof using. clear. intros (_ & _ & _ & _ & _ & _ & H6 & _). split; [exact H6|]. now left. Qed.
  Lemma pm_lemF u f : pm_valid u -> otf_maps s L nside (eff reality spin) f -> vlen (pc_beta' u) = rings (forward_scheme s) (forward_band s L) nside ->
    exists w flm, quad_weights_transform gl L (scheme_name (fscheme s)) 0 (Some nside) = Ok w /\ pm_F u f = Ok flm /\
      holds_coefficients L flm (fun el m => if Z.max 0 (Z.abs spin) <=? el then
        SphForwardTop.fsum (ogrid s L nside (ring_angle (fscheme s) (vlen (pc_beta' u)) (vat (pc_beta' u)))) spin w (uvals (eff reality spin) s L nside spin f) el m else RtoC 0).
  Proof using HL Hs Hn Hg.
    intros Hv [Sf Rf] Hb. pose proof (pm_setting u Hv) as SS. destruct Hv as (Ho & E1 & U1 & E2 & U2 & Hm & HK).
    destruct (pm_forward_lemma (pc_th u) gl (pc_method u) jax s f L spin (pc_kernel u) nside (pc_o u) reality (pc_beta' u) SS HL Hs Sf) as (w & flm & Ew & E & H); auto.
    - intros E. apply (Hg E).
    - intros E. destruct (Hn E). auto.
    - intros Q1 Q2 Q3. apply real_values_gen; auto; [lia|intros _; destruct (Hn Q3); lia|intros E; congruence|].
      subst s. cbn [real_map]. apply Rf. unfold eff. rewrite Q1, Q2. reflexivity.
    - now rewrite fwd_rings.
    - exists w, flm. split; [|split; [exact E|]].
      + rewrite <- Ew. symmetry. pose proof (fname_same gl (scheme_name s) (scheme_name s) s L nside (pc_o u) (Some nside) SS) as Q.
        replace (fname (scheme_name s) s) with (scheme_name (fscheme s)) in Q by (destruct s; reflexivity). apply Q.
        split; [apply denotes_name|]. split; [lia|]. intros E'. destruct (Hn E'). split; [lia|reflexivity].
      + rewrite Z.max_r by lia. exact H.
  Qed.
  Lemma pm_lemB u y : pm_valid u -> otf_coefficients L spin (eff reality spin) y -> vlen (pc_beta u) = rings s L nside ->
    exists f, pm_B u y = Ok f /\
      samples_at (ring_angle s (rings s L nside) (vat (pc_beta u))) s L nside f (synth L spin (used_coefficients reality spin 0 (stored L y))).
  Proof using HL Hs Hn.
    clear Hg. intros Hv (Sy & Zy & Ry) Hb. pose proof (pm_setting u Hv) as SS. pose proof (pm_inv_kernel u Hv) as HK'. destruct Hv as (Ho & E1 & U1 & E2 & U2 & Hm & HK).
    apply (pm_inverse_lemma (pc_th u) gl (pc_method u) jax s y L spin None nside (pc_o u) reality (pc_beta u)); auto.
    - intros E. apply (Hn E).
    - intros Q1 Q2 el Hel. apply (herm_real L); auto. apply Ry. unfold eff. rewrite Q1, Q2. reflexivity.
  Qed.
  Lemma pm_refine u f n : pm_valid u -> vlen (pc_beta' u) = rings (forward_scheme s) (forward_band s L) nside -> vlen (pc_beta u) = rings s L nside ->
    pre_forward_iter_at (pc_th u) gl f L spin (pc_kernel u) (scheme_name s) reality (pc_method u) (pc_o u) n = refine f n (pm_F u) (pm_B u).
  Proof using HL Hs Hn Hg.
    intros Hv Hb' Hb. pose proof (pm_setting u Hv) as SS. pose proof (pm_inv_kernel u Hv) as HK'. destruct Hv as (Ho & E1 & U1 & E2 & U2 & Hm & HK).
    destruct (given_pm_kernel (pc_th u) gl jax s L nside (pc_o u) true reality spin (pc_kernel u) (pc_beta' u) SS HL Hs) as (K & _ & EK & _); auto.
    { intros E _. apply (Hg E). }
    { cbn [kgrid]. now rewrite fwd_rings. }
    destruct (given_pm_kernel (pc_th u) gl jax s L nside (pc_o u) false reality spin None (pc_beta u) SS HL Hs) as (K' & _ & EK' & _); auto.
    { intros E _. apply (Hg E). }
    { rewrite Hb. unfold kgrid. now destruct s. }
    { cbn [kscheme]. rewrite Hb. exact U1. }
    now apply (pre_iter_refine (pc_th u) gl jax (pc_method u) f L spin (pc_kernel u) (scheme_name s) reality (pc_o u) n K K').
  Qed.
End PM.

Section PMTheorems.
  Variables (gl : gl_rule) (s : scheme) (L spin nside : Z) (reality : bool).
  Hypothesis (HL : 2 <= L) (Hs : Z.abs spin < L) (Hn : s = HEALPIX -> 2 <= nside /\ 2 * nside <= L)
    (Hg : rule_sizes s L (gl_nodes gl L) (gl_weights gl L)).
  Lemma pm_iter_error flm n th o beta beta' method kernel : otf_coefficients L spin (eff reality spin) flm -> 0 <= n -> (s = HEALPIX -> o = Some nside) ->
    th L (scheme_name s) o = Ok beta -> vlen beta = rings s L nside ->
    (forall t, 0 <= t < rings s L nside -> usable_ring s (rings s L nside) L 0 spin (vat beta) t) ->
    fwd_angles th s L o = Ok beta' -> vlen beta' = rings (forward_scheme s) (forward_band s L) nside ->
    (forall t, 0 <= t < vlen beta' -> usable_ring (forward_scheme s) (vlen beta') L 0 spin (vat beta') t) ->
    runs_on method jax -> pm_kernel_given th gl jax L spin reality (scheme_name s) o true kernel ->
    let F := fun g => pre_forward_at th gl g L spin kernel (scheme_name s) reality method o in
    let B := fun y => pre_inverse_at th gl y L spin None (scheme_name s) reality method o in
    exists f y e, B flm = Ok f /\ pre_forward_iter_at th gl f L spin kernel (scheme_name s) reality method o n = Ok y /\
      difference flm y e /\ defect F B (S (Z.to_nat n)) flm e.
  Proof using HL Hs Hn Hg.
    intros HQ H0 Ho E1 L1 U1 E2 L2 U2 Hm HK F B. set (u := mkPMCall th o beta beta' method kernel).
    assert (V : pm_valid gl s L spin nside reality u) by (unfold pm_valid; cbn; auto 10).
    destruct (angles_error (pm_valid gl s L spin nside reality) pc_beta pc_beta' (pm_F gl s L spin reality) (pm_B gl s L spin reality) gl s L spin 0 nside reality HL) with (u := u) (flm := flm) (n := n)
      as (f & y & e & Ef & Ey & D & De); auto; try lia.
    - intros E. destruct (Hn E). lia.
    - intros v f. now apply pm_lemF.
    - intros v y. now apply pm_lemB.
    - exists f, y, e. split; [exact Ef|]. split; [|auto]. exact (eq_trans (pm_refine gl s L spin nside reality HL Hs Hn Hg u f n V L2 L1) Ey).
  Qed.
  Lemma pm_iter_near f n eps : rings_away (vat (gl_nodes gl L)) s L nside -> forward_rings_away (vat (gl_nodes gl L)) s L nside ->
    maps_of (vat (gl_nodes gl L)) s L nside spin reality f -> 0 <= n -> (0 < eps)%R ->
    exists flm0 delta, forward_iter gl f L spin (scheme_name s) (Some nside) reality 0 n = Ok flm0 /\ (0 < delta)%R /\
      forall th o beta beta' method kernel, (s = HEALPIX -> o = Some nside) ->
      th L (scheme_name s) o = Ok beta -> angles_near delta (vat (gl_nodes gl L)) s L nside beta ->
      (forall t, 0 <= t < rings s L nside -> usable_ring s (rings s L nside) L 0 spin (vat beta) t) ->
      fwd_angles th s L o = Ok beta' -> forward_angles_near delta (vat (gl_nodes gl L)) s L nside beta' ->
      (forall t, 0 <= t < vlen beta' -> usable_ring (forward_scheme s) (vlen beta') L 0 spin (vat beta') t) ->
      runs_on method jax -> pm_kernel_given th gl jax L spin reality (scheme_name s) o true kernel ->
      exists flm, pre_forward_iter_at th gl f L spin kernel (scheme_name s) reality method o n = Ok flm /\ arrays_near eps flm flm0.
  Proof using HL Hs Hn Hg.
    intros Ha Hfa Hf H0 He.
    destruct (angles_near_reference (pm_valid gl s L spin nside reality) pc_beta pc_beta' (pm_F gl s L spin reality) (pm_B gl s L spin reality) gl s L spin 0 nside reality HL) with (f0 := f) (n := n)
      as (y0 & E0 & H); auto; try lia.
    - intros E. destruct (Hn E). lia.
    - intros v g. now apply pm_lemF.
    - intros v y. now apply pm_lemB.
    - destruct (H eps He) as (d & D & HH). exists y0, d. split; [exact E0|]. split; [exact D|]. intros th o beta beta' method kernel Ho E1 A1 U1 E2 A2 U2 Hm HK.
      set (u := mkPMCall th o beta beta' method kernel). assert (V : pm_valid gl s L spin nside reality u) by (unfold pm_valid; cbn; auto 10).
      destruct (HH u f V A1 A2) as (y & Ey & Ny).
      + apply (maps_point gl s L spin nside reality HL); auto; [intros E; destruct (Hn E); lia|]. apply (away_nodes gl s L nside); auto; lia.
      + split; [reflexivity|]. intros ix _. replace (get f ix - get f ix)%C with (RtoC 0) by ring. rewrite Cmod_0. exact D.
      + exists y. split; [|exact Ny]. exact (eq_trans (pm_refine gl s L spin nside reality HL Hs Hn Hg u f n V (proj1 A2) (proj1 A1)) Ey).
  Qed.
End PMTheorems.

(** ** On-the-fly transforms *)
Record otf_call := mkOTFCall { oc_th : theta_fn; oc_o : option Z; oc_beta : vec R; oc_beta' : vec R; oc_method : string; oc_p : option pm_pre }.
Lemma otf_iter_near gl f L spin s nside reality Lo n eps :
  2 <= L -> 0 <= Lo <= L - 2 -> Z.abs spin < L -> spin < 8 -> (s = HEALPIX -> 1 <= nside /\ 2 * nside <= L) ->
  rule_sizes s L (gl_nodes gl L) (gl_weights gl L) -> rings_away (vat (gl_nodes gl L)) s L nside -> forward_rings_away (vat (gl_nodes gl L)) s L nside ->
  (reality = true -> spin = 0) -> maps_of (vat (gl_nodes gl L)) s L nside spin reality f -> 0 <= n -> (0 < eps)%R ->
  exists flm0 delta, forward_iter gl f L spin (scheme_name s) (Some nside) reality Lo n = Ok flm0 /\ (0 < delta)%R /\
    forall th o beta beta' method p, (s = HEALPIX -> o = Some nside) -> (s = HEALPIX -> method <> "numpy" -> 2 <= nside) ->
    th L (scheme_name s) o = Ok beta -> angles_near delta (vat (gl_nodes gl L)) s L nside beta ->
    (forall t, 0 <= t < rings s L nside -> usable_ring s (rings s L nside) L Lo spin (vat beta) t) ->
    fwd_angles th s L o = Ok beta' -> forward_angles_near delta (vat (gl_nodes gl L)) s L nside beta' ->
    (forall t, 0 <= t < vlen beta' -> usable_ring (forward_scheme s) (vlen beta') L Lo spin (vat beta') t) ->
    python_method method s -> method_precomps method th L spin s o true Lo (inner_angles (forward_scheme s) beta') p ->
    exists flm, otf_forward gl th f L spin o (scheme_name s) method reality p Lo (Some n) = Ok flm /\ arrays_near eps flm flm0.
Proof.
  intros HL HLo Hs H8 Hn Hg Ha Hfa Hre Hf H0 He.
  assert (Er : eff reality spin = reality). { unfold eff. destruct reality; [|reflexivity]. rewrite (Hre eq_refl). reflexivity. }
  set (valid := fun u => (s = HEALPIX -> oc_o u = Some nside) /\ (s = HEALPIX -> oc_method u <> "numpy" -> 2 <= nside) /\
    oc_th u L (scheme_name s) (oc_o u) = Ok (oc_beta u) /\
    (forall t, 0 <= t < rings s L nside -> usable_ring s (rings s L nside) L Lo spin (vat (oc_beta u)) t) /\
    fwd_angles (oc_th u) s L (oc_o u) = Ok (oc_beta' u) /\
    (forall t, 0 <= t < vlen (oc_beta' u) -> usable_ring (forward_scheme s) (vlen (oc_beta' u)) L Lo spin (vat (oc_beta' u)) t) /\
    python_method (oc_method u) s /\ method_precomps (oc_method u) (oc_th u) L spin s (oc_o u) true Lo (inner_angles (forward_scheme s) (oc_beta' u)) (oc_p u)).
  set (Fu := fun u g => otf_forward gl (oc_th u) g L spin (oc_o u) (scheme_name s) (oc_method u) reality (oc_p u) Lo None).
  set (Bu := fun u y => otf_inverse (oc_th u) y L spin (oc_o u) (scheme_name s) (oc_method u) reality None Lo).
  destruct (angles_near_reference valid oc_beta oc_beta' Fu Bu gl s L spin Lo nside reality HL) with (f0 := f) (n := n) as (y0 & E0 & H); auto; try lia.
  - rewrite Er. intros u g (Ho & Hn2 & E1 & U1 & E2 & U2 & Hm & HP) [Sg Rg] Hb.
    assert (SS : setting (scheme_name s) s L nside (oc_o u)) by (split; [apply denotes_name|]; split; [lia|]; intros E; split; [apply (Hn E)|now apply Ho]).
    assert (SS' : setting (scheme_name s) s L nside (Some nside)) by (split; [apply denotes_name|]; split; [lia|]; intros E; split; [apply (Hn E)|reflexivity]).
    destruct (otf_forward_lemma gl (oc_th u) g L spin s nside (oc_o u) reality Lo (oc_beta' u) (oc_method u) (oc_p u) None) as (w & flm & Ew & E & H); auto.
    + intros E. destruct (Hn E). auto.
    + intros E. apply (Hg E).
    + intros Q1 Q2. apply real_values_gen; auto; [lia|intros _; apply (Hn Q2)|intros E; congruence|]. subst s. cbn [real_map]. now apply Rg.
    + now rewrite fwd_rings.
    + exists w, flm. split; [|split; [exact E|exact H]].
      rewrite <- Ew. symmetry. pose proof (fname_same gl (scheme_name s) (scheme_name s) s L nside (oc_o u) (Some nside) SS SS') as Q.
      replace (fname (scheme_name s) s) with (scheme_name (fscheme s)) in Q by (destruct s; reflexivity). exact Q.
  - rewrite Er. intros u y (Ho & Hn2 & E1 & U1 & E2 & U2 & Hm & HP) (Sy & Zy & Ry) Hb.
    apply (otf_inverse_lemma (oc_th u) y L spin s nside (oc_o u) reality Lo (oc_beta u) (oc_method u) None); auto.
    + intros E. destruct (Hn E). auto.
    + intros Q1 el Hel. apply (herm_real L); auto.
    + apply (precomps_none (oc_th u) L spin s (oc_o u) Lo (oc_beta u) (oc_beta' u)); auto.
  - destruct (H eps He) as (d & D & HH). exists y0, d. split; [exact E0|]. split; [exact D|]. intros th o beta beta' method p Ho Hn2 E1 A1 U1 E2 A2 U2 Hm HP.
    set (u := mkOTFCall th o beta beta' method p). assert (V : valid u) by (unfold valid; cbn; auto 12).
    destruct (HH u f V A1 A2) as (y & Ey & Ny).
    + apply (maps_point gl s L spin nside reality HL); auto. apply (away_nodes gl s L nside); auto; lia.
    + split; [reflexivity|]. intros ix _. replace (get f ix - get f ix)%C with (RtoC 0) by ring. rewrite Cmod_0. exact D.
    + exists y. split; [|exact Ny]. rewrite otf_iter by assumption. exact Ey.
Qed.
