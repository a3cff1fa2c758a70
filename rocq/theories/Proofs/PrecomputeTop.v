(** The entry points of the precomputed spherical harmonic transforms. *)
From Coq Require Import Reals ZifyBool Lra.
From Coquelicot Require Import Complex.
From Verif Require Import Lib.Py Lib.PyFacts Lib.Vec Lib.VecFacts Lib.Sums Lib.Cplx Lib.Arr Lib.ArrFacts Lib.MatFacts
  Model.Index Model.Samples Model.Grids Model.FFT Model.HealpixFFT Model.Turok Model.Risbo Model.Resampling Model.Quadrature
  Model.Spherical Model.PriceMcEwen Model.Precompute
  Spec.SamplesSpec Spec.WignerSpec Spec.SphereSpec Spec.GridSpec Spec.HealpixFFTSpec Spec.SphericalSpec Spec.QuadSpec Spec.PrecomputeSpec
  Proofs.SamplesProofs Proofs.GridProofs Proofs.TurokProofs Proofs.RisboProofs Proofs.HealpixDFTProofs Proofs.SphereTheory Proofs.SphGrid
  Proofs.SphInverse Proofs.SphTop Proofs.SphForward Proofs.SphForwardTop Proofs.SphRound Proofs.SphFacts Proofs.SphMore Proofs.SphRefuted Proofs.PrecomputeKernel Proofs.PrecomputeSph.
Open Scope string_scope.
Open Scope Z_scope.

Definition eff (reality : bool) (spin : Z) : bool := if reality && negb (spin =? 0) then false else reality.
Lemma eff_spin reality spin : eff reality spin = true -> reality = true /\ spin = 0.
Proof. unfold eff. destruct reality, (Z.eqb_spec spin 0); cbn; auto; discriminate. Qed.
Lemma eff_idem reality spin : eff (eff reality spin) spin = eff reality spin.
Proof. unfold eff. destruct reality, (spin =? 0); reflexivity. Qed.
Lemma kernel_eff b gl L spin reality sampling nside forward recursion :
  kernel_function b gl L spin reality sampling nside forward recursion
  = kernel_function b gl L spin (eff reality spin) sampling nside forward recursion.
Proof.
  destruct b; unfold kernel_function; cbn [kernel_function_at]; unfold spin_spherical_kernel_at, spin_spherical_kernel_jax_at; cbv zeta;
    change (if reality && negb (spin =? 0) then false else reality) with (eff reality spin);
    change (if eff reality spin && negb (spin =? 0) then false else eff reality spin) with (eff (eff reality spin) spin);
    now rewrite eff_idem.
Qed.
Lemma runs_backend method b : runs_on method b -> method_backend method = Ok b.
Proof. intros [[-> ->]|[[-> | ->] ->]]; reflexivity. Qed.

(** the kernel an entry point works with *)
Lemma given_kernel gl b name s L nside o forward reality spin kernel : setting name s L nside o ->
  (s = GL -> vlen (gl_nodes gl L) = L /\ (forward = true -> vlen (gl_weights gl L) = L)) ->
  kernel_given gl b L spin reality name o forward
    (forall t, 0 <= t < gn (kgrid gl s L nside forward) -> away_from_poles (gth (kgrid gl s L nside forward) t)) kernel ->
  exists K w, match kernel with None => kernel_function b gl L spin (eff reality spin) name o forward "auto" | Some k => Ok k end = Ok K /\
    (forward = true -> quad_weights_transform gl L (fname name s) 0 o = Ok w) /\
    is_arr3 K (gn (kgrid gl s L nside forward)) L (md_of L (eff reality spin))
      (fun t el i => kval (kgrid gl s L nside forward) spin (fun t => if forward then vat w t else 1%R) (kphase s nside forward)
         t el (i + ms_of L (eff reality spin) - (L - 1))).
Proof.
  intros S Hg [[-> H]|(b' & r & K & -> & H & E)].
  - apply kernel_lemma; auto. intros Q. now apply eff_spin in Q.
  - destruct (kernel_lemma b' gl name s L nside o forward (eff reality spin) spin r S Hg ltac:(intros Q; now apply eff_spin in Q) H) as (K' & w & E' & E2 & E3).
    exists K, w. split; [reflexivity|]. split; [exact E2|]. rewrite kernel_eff in E. rewrite E in E'. injection E' as <-. exact E3.
Qed.
Lemma rings_away_grid gl s L nside : (s = HEALPIX -> 1 <= nside) -> rings_away (vat (gl_nodes gl L)) s L nside ->
  forall t, 0 <= t < gn (kgrid gl s L nside false) -> away_from_poles (gth (kgrid gl s L nside false) t).
Proof.
  intros Hn Haw t Ht. cbn [kgrid] in *. rewrite the_grid_n in Ht. rewrite the_grid_th. destruct (Haw t Ht) as (x & Hx & Hx').
  rewrite <- (colat_unique gl s L nside t x); auto.
Qed.
Lemma given_weaken gl b L spin reality name o forward (P Q : Prop) kernel : (P -> Q) ->
  kernel_given gl b L spin reality name o forward P kernel -> kernel_given gl b L spin reality name o forward Q kernel.
Proof.
  intros H. assert (R : forall b r, recursion_ok b r L spin P -> recursion_ok b r L spin Q) by (unfold recursion_ok; tauto).
  intros [[-> HK]|(b' & r & K & -> & HK & E)]; [left; auto|right; exists b', r, K; auto].
Qed.

Lemma pre_inverse_grid gl method b s flm L spin kernel nside o reality :
  setting (scheme_name s) s L nside o -> shape flm = [L; 2 * L - 1] -> (s = GL -> vlen (gl_nodes gl L) = L) ->
  (s = HEALPIX -> 2 * nside <= L) -> runs_on method b ->
  kernel_given gl b L spin reality (scheme_name s) o false (rings_away (vat (gl_nodes gl L)) s L nside) kernel ->
  (reality = true -> spin = 0 -> forall el, 0 <= el < L -> is_real (stored L flm el 0)) ->
  exists f, pre_inverse gl flm L spin kernel (scheme_name s) reality method o = Ok f /\
    on_grid (the_grid gl s L nside) f (fun t p =>
      synth L spin (used_coefficients reality spin 0 (stored L flm)) (th_of gl s L nside t) (longitude s L nside t p)).
Proof.
  intros S Hf Hg Hh Hb HK Hr. pose proof S as (Hd & HL & Hn).
  assert (Hn1 : s = HEALPIX -> 1 <= nside) by (intros Q; apply (Hn Q)).
  destruct (given_kernel gl b (scheme_name s) s L nside o false reality spin kernel S ltac:(intros Q; split; [auto|discriminate]))
    as (K & w & EK & _ & HK').
  { revert HK. apply given_weaken. now apply rings_away_grid. }
  unfold pre_inverse, pre_inverse_at. rewrite (runs_backend _ _ Hb). cbn [bind]. cbv zeta. fold (kernel_function b gl). fold (eff reality spin).
  rewrite EK. cbn [bind].
  destruct (inverse_transform_lemma b gl s flm K L spin (eff reality spin) nside o HL Hf) as (f & E & HF).
  - intros Q. destruct (Hn Q). auto.
  - intros Q. now apply eff_spin in Q.
  - intros Q. apply eff_spin in Q. now apply Hr.
  - cbn [kgrid kphase] in HK'. rewrite the_grid_n in HK'. exact HK'.
  - exists f. split; [exact E|]. apply (on_grid_ext _ _ _ _ HF). intros t p _.
    replace (used_coefficients (eff reality spin) spin 0 (stored L flm)) with (used_coefficients reality spin 0 (stored L flm)); [reflexivity|].
    unfold used_coefficients, eff. now destruct reality, (spin =? 0).
Qed.
Lemma pre_inverse_lemma gl method b s flm L spin kernel nside o reality :
  setting (scheme_name s) s L nside o -> shape flm = [L; 2 * L - 1] -> (s = GL -> vlen (gl_nodes gl L) = L) ->
  (s = HEALPIX -> 2 * nside <= L) -> runs_on method b ->
  kernel_given gl b L spin reality (scheme_name s) o false (rings_away (vat (gl_nodes gl L)) s L nside) kernel ->
  (reality = true -> spin = 0 -> forall el, 0 <= el < L -> is_real (stored L flm el 0)) ->
  exists f, pre_inverse gl flm L spin kernel (scheme_name s) reality method o = Ok f /\
    holds_samples (vat (gl_nodes gl L)) s L nside f (synth L spin (used_coefficients reality spin 0 (stored L flm))).
Proof.
  intros S Hf Hg Hh Hb HK Hr. destruct (pre_inverse_grid gl method b s flm L spin kernel nside o reality S Hf Hg Hh Hb HK Hr) as (f & E & HF).
  exists f. split; [exact E|]. apply on_grid_holds; auto. intros Q. apply (proj2 (proj2 S) Q).
Qed.
Lemma pre_inverse_same gl method b s flm L spin kernel nside o reality name' method' o' :
  setting (scheme_name s) s L nside o -> setting name' s L nside o' -> shape flm = [L; 2 * L - 1] -> (s = GL -> vlen (gl_nodes gl L) = L) ->
  (s = HEALPIX -> 2 * nside <= L) -> runs_on method b ->
  kernel_given gl b L spin reality (scheme_name s) o false (rings_away (vat (gl_nodes gl L)) s L nside) kernel ->
  rings_away (vat (gl_nodes gl L)) s L nside -> method_allowed name' method' s L nside spin reality flm ->
  (reality = true -> spin = 0 -> forall el, 0 <= el < L -> is_real (stored L flm el 0)) ->
  same_ok (pre_inverse gl flm L spin kernel (scheme_name s) reality method o) (inverse_ gl flm L spin name' method' o' reality 0).
Proof.
  intros S S' Hf Hg Hh Hb HK Ha Hm Hr.
  destruct (pre_inverse_grid gl method b s flm L spin kernel nside o reality S Hf Hg Hh Hb HK Hr) as (f & E & HF).
  pose proof S as (Hd & HL & Hn). pose proof S' as (Hd' & _ & Hn').
  destruct (inverse_lemma gl name' s flm L spin method' nside o' reality 0 Hd' HL ltac:(lia) Hf Hn' Hg Ha Hm) as (f' & E' & HF').
  exists f, f'. split; [exact E|]. split; [exact E'|].
  assert (G := the_grid_ok gl (scheme_name s) s L nside o (mkVec (rings s L nside) (th_of gl s L nside)) Hd HL Hn eq_refl ltac:(reflexivity)).
  apply (on_grid_eq _ _ _ _ _ _ _ _ _ G HF HF'). reflexivity.
Qed.

Lemma pre_analysis_top gl method b s f L spin kernel nside o reality :
  setting (scheme_name s) s L nside o -> shape f = map_shape s L nside -> rule_sizes s L (gl_nodes gl L) (gl_weights gl L) ->
  (s = HEALPIX -> 2 * nside <= L /\ (b = jax -> 2 <= nside)) -> runs_on method b ->
  kernel_given gl b L spin reality (scheme_name s) o true (forward_rings_away (vat (gl_nodes gl L)) s L nside) kernel ->
  (reality = true -> spin = 0 -> real_values gl s L nside spin f) ->
  exists w flm, quad_weights_transform gl L (fname (scheme_name s) s) 0 o = Ok w /\
    pre_forward gl f L spin kernel (scheme_name s) reality method o = Ok flm /\
    holds_coefficients L flm (fun el m =>
      if Z.abs spin <=? el then fsum (fgrid gl s L nside) spin w (fvals s L nside spin f) el m else RtoC 0).
Proof.
  intros S Hf Hg Hh Hb HK Hr. pose proof S as (Hd & HL & Hn).
  assert (Hn1 : s = HEALPIX -> 1 <= nside) by (intros Q; apply (Hn Q)).
  destruct (given_kernel gl b (scheme_name s) s L nside o true reality spin kernel S ltac:(intros Q; destruct (Hg Q); auto))
    as (K & w & EK & EW & HK').
  { revert HK. apply given_weaken. cbn [kgrid]. now apply fgrid_away. }
  specialize (EW eq_refl). exists w.
  unfold pre_forward, pre_forward_at. rewrite (runs_backend _ _ Hb). cbn [bind]. cbv zeta. fold (kernel_function b gl). fold (eff reality spin).
  rewrite EK. cbn [bind].
  destruct (forward_transform_lemma b gl s f K w L spin (eff reality spin) nside o HL Hf) as (flm & E & HF).
  - intros Q. destruct (Hn Q), (Hh Q). auto.
  - intros Q. now apply eff_spin in Q.
  - intros Q. apply eff_spin in Q. now apply Hr.
  - exact HK'.
  - exists flm. auto.
Qed.
Lemma pre_forward_same gl method b s f L spin kernel nside o reality name' method' o' :
  setting (scheme_name s) s L nside o -> setting name' s L nside o' -> shape f = map_shape s L nside -> rule_sizes s L (gl_nodes gl L) (gl_weights gl L) ->
  (s = HEALPIX -> 2 * nside <= L /\ (b = jax -> 2 <= nside)) -> runs_on method b ->
  kernel_given gl b L spin reality (scheme_name s) o true (forward_rings_away (vat (gl_nodes gl L)) s L nside) kernel ->
  forward_rings_away (vat (gl_nodes gl L)) s L nside -> forward_allowed name' method' s L nside ->
  (reality = true -> spin = 0 -> real_map (vat (gl_nodes gl L)) s L nside spin f) ->
  same_ok (pre_forward gl f L spin kernel (scheme_name s) reality method o) (forward_ gl f L spin name' method' o' reality 0).
Proof.
  intros S S' Hf Hg Hh Hb HK Ha Hm Hr. assert (Hn : s = HEALPIX -> 1 <= nside) by (intros Q; apply (proj2 (proj2 S) Q)). assert (HL := proj1 (proj2 S)).
  assert (HR : reality = true -> spin = 0 -> real_values gl s L nside spin f) by (intros Q1 Q2; apply real_map_values; auto).
  destruct (pre_analysis_top gl method b s f L spin kernel nside o reality S Hf Hg Hh Hb HK HR) as (w & flm & E1 & E2 & H1).
  destruct (analysis_lemma gl name' s f L spin method' nside o' reality 0 S' ltac:(lia) Hf Hg Ha Hm HR) as (w' & flm' & E1' & E2' & H1').
  exists flm, flm'. split; [exact E2|]. split; [exact E2'|].
  rewrite (fname_same gl (scheme_name s) name' s L nside o o' S S') in E1. rewrite E1 in E1'. injection E1' as <-.
  rewrite Z.max_r in H1' by lia. eapply holds_same; eauto.
Qed.
Lemma pre_recover gl method b s f L spin kernel nside o reality c :
  setting (scheme_name s) s L nside o -> s <> HEALPIX ->
  rule_sizes s L (gl_nodes gl L) (gl_weights gl L) -> (s = GL -> gauss_legendre L (gl_nodes gl L) (gl_weights gl L)) ->
  forward_rings_away (vat (gl_nodes gl L)) s L nside -> runs_on method b ->
  kernel_given gl b L spin reality (scheme_name s) o true (forward_rings_away (vat (gl_nodes gl L)) s L nside) kernel ->
  (reality = true -> spin = 0 -> hermitian L c) ->
  holds_samples (vat (gl_nodes gl L)) s L nside f (synth L spin c) ->
  exists flm, pre_forward gl f L spin kernel (scheme_name s) reality method o = Ok flm /\ holds_coefficients L flm (restricted 0 spin c).
Proof.
  intros S Hs Hg HG Ha Hm HK Hr HF.
  assert (Hn : s = HEALPIX -> 1 <= nside) by (intros Q; apply (proj2 (proj2 S) Q)).
  assert (HL := proj1 (proj2 S)).
  assert (HR : represented (vat (gl_nodes gl L)) s L nside spin f (synth L spin c)) by (split; [exact HF|intros _; apply synth_band_limited]).
  destruct (pre_analysis_top gl method b s f L spin kernel nside o reality S (proj1 HF) Hg ltac:(congruence) Hm HK) as (w & flm & E1 & E2 & H1 & H2).
  { intros Q1 Q2 t p IG. rewrite (fvals_signal gl s L nside spin f (synth L spin c)) by auto. rewrite Q2 in *. apply synth_real; auto. }
  exists flm. split; [exact E2|]. split; [exact H1|]. intros el m Hel Hmm. rewrite H2 by auto.
  destruct (weights_exact gl (scheme_name s) s L nside o w S Hs HG E1) as (n & th & GE & HW). 
  rewrite GE. replace (Z.abs spin) with (Z.max 0 (Z.abs spin)) by lia. apply fsum_round; auto; try lia.
  - destruct s; cbn; congruence.
  - intros t p Ht Hp. rewrite (fvals_signal gl s L nside spin f (synth L spin c)) by (auto; rewrite GE; split; auto). now rewrite GE.
Qed.
Lemma pre_roundtrip gl minv mfwd b b' s flm L spin kinv kfwd nside o reality :
  setting (scheme_name s) s L nside o -> s <> HEALPIX -> shape flm = [L; 2 * L - 1] ->
  rule_sizes s L (gl_nodes gl L) (gl_weights gl L) -> (s = GL -> gauss_legendre L (gl_nodes gl L) (gl_weights gl L)) ->
  forward_rings_away (vat (gl_nodes gl L)) s L nside -> runs_on minv b -> runs_on mfwd b' ->
  kernel_given gl b L spin reality (scheme_name s) o false (rings_away (vat (gl_nodes gl L)) s L nside) kinv ->
  kernel_given gl b' L spin reality (scheme_name s) o true (forward_rings_away (vat (gl_nodes gl L)) s L nside) kfwd ->
  (reality = true -> spin = 0 -> hermitian L (stored L flm)) ->
  exists f flm', pre_inverse gl flm L spin kinv (scheme_name s) reality minv o = Ok f /\
    pre_forward gl f L spin kfwd (scheme_name s) reality mfwd o = Ok flm' /\
    holds_coefficients L flm' (restricted 0 spin (stored L flm)).
Proof.
  intros S Hs Hf Hg HG Ha' Hm Hm' K1 K2 Hr.
  destruct (pre_inverse_lemma gl minv b s flm L spin kinv nside o reality S Hf) as (f & E & HF); auto.
  { intros Q. apply (Hg Q). }
  { congruence. }
  { intros Q1 Q2 el Hel. now apply (herm_real L (stored L flm)); auto. }
  set (c := used_coefficients reality spin 0 (stored L flm)) in *.
  destruct (pre_recover gl mfwd b' s f L spin kfwd nside o reality c S Hs Hg HG Ha' Hm' K2) as (flm' & E' & H1 & H2); auto.
  { intros Q1 Q2 el m Hel Hmm. unfold c. rewrite !(used_herm L) by (auto; lia). now apply (above_herm L 0 (stored L flm) (Hr Q1 Q2)). }
  exists f, flm'. split; [exact E|]. split; [exact E'|]. split; [exact H1|]. intros el m Hel Hmm. rewrite H2 by auto.
  unfold restricted. destruct (_ && _) eqn:B; [|reflexivity]. unfold c. rewrite (used_herm L) by (auto; lia).
  unfold above. now replace (el <? 0) with false by lia.
Qed.
(** ** Rejected arguments *)
Lemma pre_unknown gl a L spin kernel name reality method o : method <> "numpy" -> method <> "jax" -> method <> "torch" ->
  pre_inverse gl a L spin kernel name reality method o = Err ValueError /\ pre_forward gl a L spin kernel name reality method o = Err ValueError.
Proof.
  intros H1 H2 H3. assert (E : method_backend method = Err ValueError).
  { unfold method_backend. assert (N : forall a b, a <> b -> streq a b = false) by (intros a0 b0 D; unfold streq; now apply String.eqb_neq).
    now rewrite !N by assumption. }
  unfold pre_inverse, pre_forward, pre_inverse_at, pre_forward_at. now rewrite E.
Qed.
Lemma kernel_rejects b gl L spin reality name o forward recursion : lower recursion = "price-mcewen" -> 6 < Z.abs spin ->
  kernel_function b gl L spin reality name o forward recursion = Err ValueError.
Proof.
  intros H Hs. assert (E : choose_recursion recursion spin = Err ValueError).
  { unfold choose_recursion. rewrite H. change (streq "price-mcewen" "price-mcewen") with true. unfold PM_MAX_STABLE_SPIN.
    now replace (6 <? Z.abs spin) with true by lia. }
  destruct b; unfold kernel_function; cbn [kernel_function_at]; unfold spin_spherical_kernel_at, spin_spherical_kernel_jax_at; cbv zeta; now rewrite E.
Qed.
Lemma jax_nside1 gl f L spin K reality : pre_forward gl f L spin (Some K) "healpix" reality "jax" (Some 1) = Err ValueError.
Proof.
  unfold pre_forward, pre_forward_at. cbn [method_backend bind]. change (method_backend "jax") with (Ok jax). cbn [bind]. unfold forward_transform.
  change (streq (lower "healpix") "mw") with false. change (str_in (lower "healpix") ["mw"; "mwss"]) with false. cbn [bind].
  unfold pre_analysis. change (is_hp "healpix") with true. cbn [need bind backend_name]. now rewrite C12_jax_nside1_lemma.
Qed.
(** the kernel of spin 1 and band-limit 1: the column of the d-matrix wraps around *)
Lemma spin_wraps gl : vlen (gl_nodes gl 1) = 1 -> exists K,
  spin_spherical_kernel gl 1 1 false "gl" None false "risbo" = Ok K /\ get K [0; 0; 0] <> RtoC 0.
Proof.
  intros Hg. assert (E : spin_spherical_kernel gl 1 1 false "gl" None false "risbo" = spin_spherical_kernel gl 1 0 false "gl" None false "risbo") by reflexivity.
  rewrite E. destruct (kernel_lemma numpy gl "gl" GL 1 0 None false false 0 "risbo") as (K & w & E' & _ & HK).
  - repeat split; try lia; discriminate.
  - intros _. split; [exact Hg|discriminate].
  - discriminate.
  - left. split; [reflexivity|lia].
  - exists K. split; [exact E'|]. pose proof (proj2 HK 0 0 0 ltac:(cbn; lia) ltac:(lia) ltac:(cbn; lia)) as Q. unfold at3 in Q. rewrite Q.
    cbn [ms_of kgrid kphase phase_of]. unfold kval. change (0 + 0 - (1 - 1)) with 0. change (- 0) with 0. rewrite wig_00. rewrite Cmult_1_r, Rmult_1_l, Rmult_1_r.
    intros R. apply RtoC_inj in R. pose proof elf_pos. lra.
Qed.
(** the entries of the kernel of the inverse transform *)
Lemma inverse_kernel gl b name s L nside o reality spin recursion : setting name s L nside o -> (s = GL -> vlen (gl_nodes gl L) = L) ->
  recursion_ok b recursion L spin (rings_away (vat (gl_nodes gl L)) s L nside) ->
  exists K, kernel_function b gl L spin reality name o false recursion = Ok K /\
    shape K = [rings s L nside; L; if reality && (spin =? 0) then L else 2 * L - 1] /\
    forall t el m x, 0 <= t < rings s L nside -> 0 <= el < L -> (if reality && (spin =? 0) then 0 else - (L - 1)) <= m < L ->
      colatitude (vat (gl_nodes gl L)) s L nside t x ->
      get K [t; el; if reality && (spin =? 0) then m else m + L - 1] =
      (RtoC (sqrt ((2 * IZR el + 1) / (4 * PI)) * wigner_d el m (- spin) x) *
       (match s with HEALPIX => cis (IZR m * hp_longitude nside t 0) | _ => RtoC 1 end))%C.
Proof.
  intros S Hg HR. pose proof S as (Hd & HL & Hn). assert (Hn1 : s = HEALPIX -> 1 <= nside) by (intros Q; apply (Hn Q)).
  rewrite kernel_eff.
  destruct (kernel_lemma b gl name s L nside o false (eff reality spin) spin recursion S ltac:(intros Q; split; [auto|discriminate])
     ltac:(intros Q; now apply eff_spin in Q)) as (K & w & E & _ & HK).
  { unfold recursion_ok in *. destruct HR as [?|[?|(H1 & H2 & H3 & H4)]]; auto. right. right. repeat (split; [assumption|]). now apply rings_away_grid. }
  exists K. split; [exact E|]. assert (EE : eff reality spin = reality && (spin =? 0)) by (unfold eff; now destruct reality, (spin =? 0)).
  cbn [kgrid] in HK. rewrite the_grid_n in HK. destruct HK as [HK1 HK2]. rewrite EE in *. split; [rewrite HK1; unfold md_of; reflexivity|].
  intros t el m x Ht Hel Hm Hx. rewrite (colat_unique gl s L nside t x) by auto.
  set (i := if reality && (spin =? 0) then m else m + L - 1).
  pose proof (HK2 t el i Ht Hel) as Q. unfold at3 in Q. rewrite Q; [|unfold i, md_of; destruct (reality && (spin =? 0)); lia].
  unfold kval. cbn [kphase]. replace (i + ms_of L (reality && (spin =? 0)) - (L - 1)) with m by (unfold i, ms_of; destruct (reality && (spin =? 0)); lia).
  rewrite the_grid_th, Rmult_1_l. apply (f_equal2 Cmult); [|now destruct s]. unfold elfactor. now rewrite plus_IZR, mult_IZR.
Qed.
