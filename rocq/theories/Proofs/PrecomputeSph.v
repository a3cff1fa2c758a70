(** The precomputed transforms compute the harmonic sums of the reference transforms. *)
From Coq Require Import Reals ZifyBool Lra.
From Coquelicot Require Import Complex.
From Verif Require Import Lib.Py Lib.PyFacts Lib.Vec Lib.VecFacts Lib.Sums Lib.Cplx Lib.Arr Lib.ArrFacts Lib.MatFacts
  Model.Index Model.Samples Model.Grids Model.FFT Model.HealpixFFT Model.Turok Model.Risbo Model.Resampling Model.Quadrature
  Model.Spherical Model.PriceMcEwen Model.Precompute
  Spec.SamplesSpec Spec.WignerSpec Spec.SphereSpec Spec.GridSpec Spec.HealpixFFTSpec Spec.SphericalSpec Spec.QuadSpec Spec.PrecomputeSpec
  Proofs.SamplesProofs Proofs.GridProofs Proofs.TurokProofs Proofs.RisboProofs Proofs.HealpixDFTProofs Proofs.SphereTheory Proofs.SphGrid Proofs.ResamplingGen
  Proofs.SphInverse Proofs.SphTop Proofs.SphForward Proofs.SphForwardTop Proofs.SphFacts Proofs.PrecomputeKernel.
Open Scope string_scope.
Open Scope Z_scope.

(** ** Kernels *)
Definition kgrid (gl : gl_rule) (s : scheme) (L nside : Z) (forward : bool) : grid :=
  if forward then fgrid gl s L nside else the_grid gl s L nside.
Definition kname (name : string) (s : scheme) (forward : bool) : string := if forward then fname name s else name.
Definition kscheme (s : scheme) (forward : bool) : scheme := if forward then fscheme s else s.
Definition kphase (s : scheme) (nside : Z) (forward : bool) (t m : Z) : C :=
  if forward then Cconj (phase_of s nside t m) else phase_of s nside t m.
Definition kval (g : grid) (spin : Z) (w : Z -> R) (ph : Z -> Z -> C) (t el m : Z) : C :=
  (RtoC (w t * elfactor el * wigner_d el m (- spin) (gth g t)) * ph t m)%C.

(** the grid of a scheme with rings at given colatitudes *)
Definition agrid (s : scheme) (L nside : Z) (x : Z -> R) : grid :=
  match s with HEALPIX => hp_grid nside x | _ => equi_grid s L (rings s L nside) x end.
Lemma agrid_n s L nside x : gn (agrid s L nside x) = rings s L nside. Proof. now destruct s. Qed.
Lemma agrid_th s L nside x t : gth (agrid s L nside x) t = x t. Proof. now destruct s. Qed.
Lemma agrid_ph s L nside x t p : gph (agrid s L nside x) t p = longitude s L nside t p. Proof. now destruct s. Qed.
Lemma agrid_N s L nside x t : gN (agrid s L nside x) t = ring_size s L nside t. Proof. now destruct s. Qed.
Lemma agrid_e s L nside x t p : ge (agrid s L nside x) t p = sample_index s nside t p. Proof. now destruct s. Qed.
Lemma agrid_sh s L nside x : gsh (agrid s L nside x) = map_shape s L nside. Proof. now destruct s. Qed.

Lemma V_synth_gen flm L spin reality Lo g t p : 0 <= Lo -> (reality = true -> spin = 0) ->
  V flm L spin reality Lo g t p = synth L spin (used_coefficients reality spin Lo (stored L flm)) (gth g t) (gph g t p).
Proof.
  intros HLo Hr. unfold V, synth, el_range.
  transitivity (csum (zrange (Z.max Lo (Z.abs spin)) L) (fun l => csum (zrange (- l) (l + 1)) (fun m =>
    (used_coefficients reality spin Lo (stored L flm) l m * sYlm spin l m (gth g t) (gph g t p))%C))).
  - apply cr_ext. intros el Hel. rewrite (cr_shrink _ _ (- el) (el + 1)); try lia.
    + apply cr_ext. intros m Hm. unfold Ac, sYlm, used_coefficients, above.
      replace (el <? Lo) with false by lia.
      assert (EC : coef flm L reality el m = (if reality && (spin =? 0) then real_extension (stored L flm) else stored L flm) el m).
      { unfold coef, real_extension. destruct reality; [|reflexivity]. rewrite (Hr eq_refl). reflexivity. }
      rewrite EC. unfold elfactor. ring.
    + intros m Hm Ho. unfold Ac. rewrite wig_out by lia. rewrite Rmult_0_r. ring.
  - destruct (Z_le_dec L (Z.max Lo (Z.abs spin))) as [B|B].
    + rewrite cr_nil by lia. symmetry. apply cr_0. intros l Hl. apply cr_0. intros m Hm. unfold used_coefficients, above.
      replace (l <? Lo) with true by lia. ring.
    + symmetry. apply cr_shrink; try lia. intros l Hl Ho. apply cr_0. intros m Hm. unfold used_coefficients, above.
      replace (l <? Lo) with true by lia. ring.
Qed.
(** the grid of the sums with given colatitudes *)
Definition ogrid (s : scheme) (L nside : Z) (x : Z -> R) : grid :=
  match s with MW | MWSS => equi_grid MWSS L (2 * L + 1) x | _ => agrid s L nside x end.
Lemma ogrid_n gl s L nside x : gn (ogrid s L nside x) = gn (fgrid gl s L nside).
Proof. now destruct s. Qed.
Lemma ogrid_N gl s L nside x t : gN (ogrid s L nside x) t = gN (fgrid gl s L nside) t. Proof. now destruct s. Qed.
Lemma ogrid_ph gl s L nside x t p : gph (ogrid s L nside x) t p = gph (fgrid gl s L nside) t p. Proof. now destruct s. Qed.
Lemma ogrid_e gl s L nside x t p : ge (ogrid s L nside x) t p = ge (fgrid gl s L nside) t p. Proof. now destruct s. Qed.
Lemma ogrid_th s L nside x t : gth (ogrid s L nside x) t = x t. Proof. now destruct s. Qed.

Lemma kernel_thetas_ok gl name s L nside o forward : setting name s L nside o -> (s = GL -> vlen (gl_nodes gl L) = L) ->
  exists ths, kernel_thetas gl L name o forward = Ok (kname name s forward, ths) /\ vlen ths = gn (kgrid gl s L nside forward) /\
    forall t, 0 <= t < gn (kgrid gl s L nside forward) -> vat ths t = gth (kgrid gl s L nside forward) t.
Proof.
  intros (Hd & HL & Hn) Hg. unfold kernel_thetas, kernel_thetas_at, exact_thetas.
  assert (NM : str_in (lower name) ["mw"; "mwss"] = match s with MW | MWSS => true | _ => false end)
    by (unfold denotes in Hd; rewrite Hd; now destruct s).
  rewrite NM. destruct (forward && match s with MW | MWSS => true | _ => false end) eqn:E.
  - destruct forward; [|discriminate]. cbn [andb] in E.
    destruct (thetas_top gl "mwss" MWSS (2 * L) 0 None eq_refl ltac:(lia) ltac:(discriminate) ltac:(discriminate)) as (ths & E1 & E2 & E3).
    rewrite E1. cbn [bind]. exists ths. cbn [kname kgrid].
    destruct s; try discriminate; cbn [fname fgrid equi_grid gn gth]; (split; [reflexivity|]); (split; [rewrite E2; cbn [rings]; lia|]);
      intros t Ht; rewrite E3 by (cbn [rings]; lia); reflexivity.
  - destruct (thetas_top gl name s L nside o Hd HL Hn Hg) as (ths & -> & E2 & E3). cbn [bind]. exists ths.
    assert (EN : kname name s forward = name) by (destruct forward; [|reflexivity]; cbn [kname]; destruct s; try discriminate; reflexivity).
    assert (EG : kgrid gl s L nside forward = the_grid gl s L nside)
      by (destruct forward; [|reflexivity]; cbn [kgrid]; destruct s; try discriminate; reflexivity).
    rewrite EN, EG, the_grid_n. split; [reflexivity|]. split; [exact E2|]. intros t Ht. rewrite the_grid_th. auto.
Qed.

Lemma kgrid_n gl s L nside forward : 1 <= L -> (s = HEALPIX -> 1 <= nside) -> 0 < gn (kgrid gl s L nside forward).
Proof.
  intros HL Hn. unfold kgrid. destruct forward.
  - destruct s; cbn [fgrid the_grid equi_grid hp_grid gn rings]; try lia; specialize (Hn eq_refl); lia.
  - rewrite the_grid_n. destruct s; cbn [rings]; try lia; specialize (Hn eq_refl); lia.
Qed.

(** the equidistant schemes *)
Lemma equi_intro L n T th a : n = 2 * L - 1 \/ 2 * L <= n -> 1 <= L -> 0 < T <= n ->
  (forall t, th t = (a + 2 * PI * IZR t / IZR n)%R) -> equidistant L n T th.
Proof.
  intros Hn HL HT H. pose proof (Z.div_mod (n + 1) 2 ltac:(lia)). pose proof (Z.mod_pos_bound (n + 1) 2 ltac:(lia)).
  pose proof (Z.div_mod n 2 ltac:(lia)). pose proof (Z.mod_pos_bound n 2 ltac:(lia)).
  constructor; try lia.
  - intros Ev. apply Z.even_spec in Ev. destruct Ev as [k ->]. lia.
  - intros t Ht. rewrite (H 0), (H t). unfold Rdiv. ring.
Qed.
Lemma kgrid_equi gl name s L nside o forward : setting name s L nside o -> s = MW \/ s = MWSS \/ s = DH ->
  equidistant L (kernel_nsamps (kname name s forward) (gn (kgrid gl s L nside forward))) (gn (kgrid gl s L nside forward))
    (gth (kgrid gl s L nside forward)).
Proof.
  intros (Hd & HL & Hn) Hs. unfold denotes in Hd.
  assert (I : IZR L <> 0%R) by (apply not_0_IZR; lia).
  assert (I2 : IZR (2 * L - 1) <> 0%R) by (apply not_0_IZR; lia).
  assert (K : forall s' : scheme, lower (kname name s forward) = scheme_name (kscheme s forward)).
  { intros _. destruct forward; [|exact Hd]. destruct s; try exact Hd; reflexivity. }
  unfold kernel_nsamps. rewrite !(K MW).
  destruct Hs as [->|[->| ->]]; destruct forward; cbn [kscheme fscheme scheme_name kgrid fgrid the_grid equi_grid gn gth rings th_of theta_of];
    match goal with |- context [streq ?a ?b] => let v := eval compute in (streq a b) in change (streq a b) with v end; cbv iota;
    try match goal with |- context [streq ?a ?b] => let v := eval compute in (streq a b) in change (streq a b) with v end; cbv iota.
  - apply (equi_intro _ _ _ _ 0%R); try lia. intros t. cbn [th_of theta_of]. unfold mwss_theta. replace (2 * (2 * L + 1) - 2) with (4 * L) by lia.
    rewrite !mult_IZR. field. auto.
  - apply (equi_intro _ _ _ _ (PI / IZR (2 * L - 1))%R); try lia. intros t. cbn [th_of theta_of]. unfold mw_theta.
    rewrite plus_IZR, mult_IZR. field. auto.
  - apply (equi_intro _ _ _ _ 0%R); try lia. intros t. cbn [th_of theta_of]. unfold mwss_theta. replace (2 * (2 * L + 1) - 2) with (4 * L) by lia.
    rewrite !mult_IZR. field. auto.
  - apply (equi_intro _ _ _ _ 0%R); try lia. intros t. cbn [th_of theta_of]. unfold mwss_theta. replace (2 * (L + 1) - 2) with (2 * L) by lia.
    rewrite !mult_IZR. field. auto.
  - apply (equi_intro _ _ _ _ (PI / IZR (4 * L))%R); try lia. intros t. cbn [th_of theta_of]. unfold dh_theta. replace (2 * (2 * L)) with (4 * L) by lia.
    rewrite plus_IZR, !mult_IZR. field. auto.
  - apply (equi_intro _ _ _ _ (PI / IZR (4 * L))%R); try lia. intros t. cbn [th_of theta_of]. unfold dh_theta. replace (2 * (2 * L)) with (4 * L) by lia.
    rewrite plus_IZR, !mult_IZR. field. auto.
Qed.

Lemma kernel_risbo_ok b gl name s L nside o forward ths spin reality : setting name s L nside o -> Z.abs spin < L ->
  vlen ths = gn (kgrid gl s L nside forward) -> (forall t, 0 <= t < gn (kgrid gl s L nside forward) -> vat ths t = gth (kgrid gl s L nside forward) t) ->
  exists a, kernel_risbo b (kname name s forward) ths L spin (ms_of L reality) (md_of L reality) = Ok a /\
    is_arr3 a (gn (kgrid gl s L nside forward)) L (md_of L reality)
      (fun t el i => RtoC (dval L spin (ms_of L reality) (vat ths) t el i)).
Proof.
  intros S Hs HV HT. assert (S' := S). destruct S' as (Hd & HL & Hn). unfold denotes in Hd.
  assert (GN := kgrid_n gl s L nside forward HL ltac:(intros Q; apply (Hn Q))).
  assert (K : lower (kname name s forward) = scheme_name (kscheme s forward)).
  { destruct forward; [|exact Hd]. destruct s; try exact Hd; reflexivity. }
  unfold kernel_risbo. rewrite K.
  assert (KS : kscheme s forward = HEALPIX \/ kscheme s forward = GL \/ (s = MW \/ s = MWSS \/ s = DH)).
  { destruct forward, s; cbn [kscheme fscheme]; auto. }
  destruct KS as [->|[->|KS]].
  - change (str_in (scheme_name HEALPIX) ["healpix"; "gl"]) with true. cbv iota. apply kernel_direct_ok; auto; lia.
  - change (str_in (scheme_name GL) ["healpix"; "gl"]) with true. cbv iota. apply kernel_direct_ok; auto; lia.
  - replace (str_in (scheme_name (kscheme s forward)) ["healpix"; "gl"]) with false
      by (destruct KS as [->|[->| ->]]; destruct forward; reflexivity).
    replace (str_in (scheme_name (kscheme s forward)) ["mw"; "mwss"; "dh"]) with true
      by (destruct KS as [->|[->| ->]]; destruct forward; reflexivity).
    apply kernel_fourier_ok; auto.
    destruct (kgrid_equi gl name s L nside o forward S KS) as [E1 E2 E3 E4 E5]. constructor; auto.
    intros t Ht. rewrite !HT by lia. auto.
Qed.

Lemma kernel_finish_ok gl name s L nside o forward reality dl F : setting name s L nside o ->
  (s = GL -> forward = true -> vlen (gl_weights gl L) = L) ->
  is_arr3 dl (gn (kgrid gl s L nside forward)) L (md_of L reality) F ->
  exists K w, kernel_finish gl dl L (kname name s forward) o forward (ms_of L reality) = Ok K /\
    (forward = true -> quad_weights_transform gl L (fname name s) 0 o = Ok w) /\
    is_arr3 K (gn (kgrid gl s L nside forward)) L (md_of L reality)
      (fun t el i => (F t el i * RtoC (if forward then vat w t else 1%R) * kphase s nside forward t (i + ms_of L reality - (L - 1)))%C).
Proof.
  intros (Hd & HL & Hn) Hg HF. unfold kernel_finish.
  pose proof (ms_range L reality HL) as Hms. pose proof (md_ms L reality) as Hmd.
  set (md := md_of L reality) in *. set (ms := ms_of L reality) in *. clearbody ms md.
  assert (HW : exists w dl', (if forward then let* w := quad_weights_transform gl L (kname name s forward) 0 o in einsum_tlm_t dl (vmap RtoC w) else Ok dl) = Ok dl' /\
    (forward = true -> quad_weights_transform gl L (fname name s) 0 o = Ok w) /\
    is_arr3 dl' (gn (kgrid gl s L nside forward)) L md (fun t el i => (F t el i * RtoC (if forward then vat w t else 1%R))%C)).
  { destruct forward.
    - destruct (weights_ok gl name s L nside o Hd HL Hn ltac:(auto)) as (w & E & Hw). cbn [kname]. rewrite E. cbn [bind].
      destruct (einsum_tlm_t_ok dl _ _ _ F (vmap RtoC w) HF Hw) as (dl' & E' & HA). exists w, dl'. split; [exact E'|]. split; [auto|exact HA].
    - exists (vconst 0 0%R), dl. split; [reflexivity|]. split; [discriminate|]. apply (is_arr3_ext _ _ _ _ _ _ HF).
      intros. now rewrite Cmult_1_r. }
  destruct HW as (w & dl' & -> & Hw & HA). cbn [bind].
  assert (IH : is_hp (kname name s forward) = match s with HEALPIX => true | _ => false end).
  { unfold is_hp. replace (lower (kname name s forward)) with (scheme_name (kscheme s forward)).
    - destruct forward, s; reflexivity.
    - symmetry. unfold denotes in Hd. destruct forward; [|exact Hd]. destruct s; try exact Hd; reflexivity. }
  rewrite IH. assert (D : s = HEALPIX \/ s <> HEALPIX) by (destruct s; auto; right; discriminate).
  destruct D as [D|D].
  - destruct (Hn D) as [Hn1 Hn2]. subst s o. cbn [need bind].
    destruct (construct_shifts_ok L nside forward HL Hn1) as (ph & -> & Hph). cbn [bind].
    assert (M := MatFacts.slice2_ok _ _ _ _ 0 (4 * nside - 1) ms (2 * L - 1) Hph ltac:(lia) ltac:(lia) ltac:(lia) ltac:(lia) ltac:(lia) ltac:(lia)).
    rewrite (is_mat_dim0 _ _ _ _ Hph), (is_mat_dim1 _ _ _ _ Hph). rewrite <- Hmd in M. replace (4 * nside - 1 - 0) with (4 * nside - 1) in M by lia.
    assert (GE : gn (kgrid gl HEALPIX L nside forward) = 4 * nside - 1) by (destruct forward; reflexivity).
    rewrite GE in *.
    destruct (einsum_tlm_tm_ok dl' _ _ _ _ _ _ HA M) as (K & -> & HK). exists K, w. split; [reflexivity|]. split; [exact Hw|].
    apply (is_arr3_ext _ _ _ _ _ _ HK). intros t el i Ht Hel Hi. cbv beta. f_equal. rewrite Z.add_0_l.
    unfold kphase. cbn [phase_of]. replace (1 - L + (ms + i)) with (i + ms - (L - 1)) by lia. unfold shift_sign.
    destruct forward; [rewrite cis_conj|]; f_equal; ring.
  - replace (match s with HEALPIX => true | _ => false end) with false by (destruct s; congruence).
    exists dl', w. split; [reflexivity|]. split; [exact Hw|].
    apply (is_arr3_ext _ _ _ _ _ _ HA). intros t el i Ht Hel Hi. cbv beta.
    replace (kphase s nside forward t (i + ms - (L - 1))) with (RtoC 1); [ring|].
    unfold kphase. destruct s; try congruence; cbn [phase_of]; destruct forward; try rewrite Cconj_R; reflexivity.
Qed.

(** The recursions a kernel function accepts, and what they need *)
Lemma kernel_lemma b gl name s L nside o forward reality spin recursion : setting name s L nside o ->
  (s = GL -> vlen (gl_nodes gl L) = L /\ (forward = true -> vlen (gl_weights gl L) = L)) ->
  (reality = true -> spin = 0) ->
  recursion_ok b recursion L spin (forall t, 0 <= t < gn (kgrid gl s L nside forward) -> away_from_poles (gth (kgrid gl s L nside forward) t)) ->
  exists K w, kernel_function b gl L spin reality name o forward recursion = Ok K /\
    (forward = true -> quad_weights_transform gl L (fname name s) 0 o = Ok w) /\
    is_arr3 K (gn (kgrid gl s L nside forward)) L (md_of L reality)
      (fun t el i => kval (kgrid gl s L nside forward) spin (fun t => if forward then vat w t else 1%R) (kphase s nside forward)
         t el (i + ms_of L reality - (L - 1))).
Proof.
  intros S Hg Hre HR. assert (S' := S). destruct S' as (Hd & HL & Hn).
  destruct (kernel_thetas_ok gl name s L nside o forward S ltac:(intros Q; apply (Hg Q))) as (ths & ET & HV & HT).
  assert (GN := kgrid_n gl s L nside forward HL ltac:(intros Q; apply (Hn Q))).
  assert (FIN : forall dl, is_arr3 dl (gn (kgrid gl s L nside forward)) L (md_of L reality)
      (fun t el i => RtoC (dval L spin (ms_of L reality) (vat ths) t el i * elfactor el)) ->
    exists K w, kernel_finish gl dl L (kname name s forward) o forward (ms_of L reality) = Ok K /\
    (forward = true -> quad_weights_transform gl L (fname name s) 0 o = Ok w) /\
    is_arr3 K (gn (kgrid gl s L nside forward)) L (md_of L reality)
      (fun t el i => kval (kgrid gl s L nside forward) spin (fun t => if forward then vat w t else 1%R) (kphase s nside forward)
         t el (i + ms_of L reality - (L - 1)))).
  { intros dl HD. destruct (kernel_finish_ok gl name s L nside o forward reality dl _ S ltac:(intros Q; apply (Hg Q)) HD) as (K & w & E1 & E2 & E3).
    exists K, w. split; [exact E1|]. split; [exact E2|]. apply (is_arr3_ext _ _ _ _ _ _ E3). intros t el i Ht Hel Hi. cbv beta.
    unfold kval, dval. rewrite HT by auto. rewrite !RtoC_mult. ring. }
  assert (RIS : exists dl dl', kernel_risbo b (kname name s forward) ths L spin (ms_of L reality) (md_of L reality) = Ok dl /\
     einsum_tlm_l dl (elfactors L) = Ok dl' /\ is_arr3 dl' (gn (kgrid gl s L nside forward)) L (md_of L reality)
      (fun t el i => RtoC (dval L spin (ms_of L reality) (vat ths) t el i * elfactor el)) \/ ~ Z.abs spin < L).
  { destruct (Z_lt_dec (Z.abs spin) L) as [Hs|Hs]; [|exists (zeros (RtoC 0) []), (zeros (RtoC 0) []); now right].
    destruct (kernel_risbo_ok b gl name s L nside o forward ths spin reality S Hs HV HT) as (dl & E1 & H1).
    destruct (einsum_tlm_l_ok dl _ _ _ _ (elfactors L) H1 eq_refl) as (dl' & E2 & H2). exists dl, dl'. left.
    split; [exact E1|]. split; [exact E2|]. apply (is_arr3_ext _ _ _ _ _ _ H2). intros. cbv beta. cbn [elfactors vat].
    now rewrite RtoC_mult. }
  assert (RE : (if reality && negb (spin =? 0) then false else reality) = reality).
  { destruct reality; [|reflexivity]. rewrite (Hre eq_refl). reflexivity. }
  assert (RR : forall r, (r = "risbo" \/ (lower r = "risbo")) -> Z.abs spin < L -> choose_recursion recursion spin = Ok r ->
    exists K w, kernel_function b gl L spin reality name o forward recursion = Ok K /\
    (forward = true -> quad_weights_transform gl L (fname name s) 0 o = Ok w) /\
    is_arr3 K (gn (kgrid gl s L nside forward)) L (md_of L reality)
      (fun t el i => kval (kgrid gl s L nside forward) spin (fun t => if forward then vat w t else 1%R) (kphase s nside forward)
         t el (i + ms_of L reality - (L - 1)))).
  { intros r Hr Hs CR. assert (LR : lower r = "risbo") by (destruct Hr as [->|]; auto).
    destruct RIS as (dl & dl' & [(E1 & E2 & E3)|E]); [|contradiction].
    destruct (FIN dl' E3) as (K & w & F1 & F2 & F3). exists K, w.
    split; [|auto]. destruct b; unfold kernel_function; cbn [kernel_function_at]; unfold spin_spherical_kernel_at, spin_spherical_kernel_jax_at; fold (kernel_thetas gl); rewrite RE, CR; cbn [bind];
      rewrite ET; cbn [bind fst snd]; rewrite LR; change (streq "risbo" "price-mcewen") with false; change (streq "risbo" "risbo") with true; cbv iota;
      fold (ms_of L reality); fold (md_of L reality); rewrite E1; cbn [bind]; rewrite E2; cbn [bind]; exact F1. }
  destruct HR as [(R1 & R2)|[(R1 & R2)|(R0 & R1 & R2 & R3)]].
  - apply (RR recursion); auto. unfold choose_recursion. rewrite R1. reflexivity.
  - apply (RR "risbo"); auto; [lia|]. unfold choose_recursion. rewrite R1. unfold PM_MAX_STABLE_SPIN.
    change (streq "auto" "price-mcewen") with false. change (streq "auto" "auto") with true. cbv iota. repeat zif; reflexivity.
  - assert (CR : exists r, choose_recursion recursion spin = Ok r /\ lower r = "price-mcewen").
    { unfold choose_recursion, PM_MAX_STABLE_SPIN. destruct R1 as [-> | R1].
      - exists "price-mcewen". change (streq "auto" "price-mcewen") with false. change (streq "auto" "auto") with true. cbv iota.
        split; [|reflexivity]. repeat zif; reflexivity.
      - exists recursion. rewrite R1. change (streq "price-mcewen" "price-mcewen") with true. change (streq "price-mcewen" "auto") with false.
        split; [|reflexivity]. repeat zif; reflexivity. }
    destruct CR as (r & CR & LR). subst b. unfold kernel_function. cbn [kernel_function_at]. unfold spin_spherical_kernel_at. fold (kernel_thetas gl). rewrite RE, CR. cbn [bind]. rewrite ET. cbn [bind].
    rewrite LR. change (streq "price-mcewen" "price-mcewen") with true. cbv iota. fold (ms_of L reality). fold (md_of L reality).
    destruct (kernel_turok_ok ths _ L spin reality HL HV ltac:(lia)) as (dl & -> & HD).
    { intros t Ht. rewrite HT by auto. now apply R3. }
    cbn [bind]. now apply FIN.
Qed.

(** ** Inverse transform *)
Lemma hp_synthesis_gen b L nside reality A ftm th : 1 <= L -> 1 <= nside -> 2 * nside <= L ->
  ftm_ok HEALPIX L nside (4 * nside - 1) reality A ftm ->
  (reality = true -> forall t m, 0 <= t < 4 * nside - 1 -> 0 <= m < L -> A t (- m) = Cconj (A t m)) ->
  exists f, pre_synthesis b ftm L "healpix" (Some nside) reality = Ok f /\ on_grid (hp_grid nside th) f (order_sum (hp_grid nside th) L A).
Proof.
  intros HL Hn HnL (F & HF & HA) HR. unfold pre_synthesis. change (is_hp "healpix") with true. cbv iota. cbn [need bind].
  cbn [orders mo_of] in *.
  assert (HB : backend_name b = "numpy" \/ backend_name b = "jax") by (destruct b; auto).
  assert (FV : forall t m, 0 <= t < 4 * nside - 1 -> - L < m < L -> at2 ftm t (m + L) = (cis (IZR m * hp_longitude nside t 0) * A t m)%C).
  { intros t m Ht Hm. rewrite (proj2 HF) by lia. destruct (HA t Ht) as [_ E]. cbn [phase_of] in E. rewrite <- (E m Hm) by congruence. f_equal. lia. }
  assert (F0 : forall t, 0 <= t < 4 * nside - 1 -> at2 ftm t 0 = RtoC 0).
  { intros t Ht. rewrite (proj2 HF) by lia. destruct (HA t Ht) as [E _]. auto. }
  assert (TB : ftm_table nside L (to_rows ftm)).
  { split; [exact (is_mat_dim0 _ _ _ _ HF)|]. intros t Ht. cbn [to_rows vat row vlen]. exact (is_mat_dim1 _ _ _ _ HF). }
  assert (E : exists ftm' f, healpix_ifft (RtoC 0) Cplus ifft_fwd irfft_fwd (to_rows ftm) L nside (backend_name b) reality = Ok (ftm', f) /\
    vlen f = 12 * (nside * nside) /\
    forall t p, 0 <= t < 4 * nside - 1 -> 0 <= p < ring_length nside t ->
      pixel nside t p f = ring_value (row ftm t) L (ring_length nside t) p).
  { destruct reality.
    - apply C11_real_lemma; auto; try lia. intros t Ht. split; [apply F0, Ht|]. intros m Hm. cbn [to_rows vat row].
      replace (L - m) with (- m + L) by lia. replace (L + m) with (m + L) by lia. rewrite !FV by lia.
      rewrite HR by (auto; lia). rewrite Cconj_mult, cis_conj. do 2 f_equal. rewrite opp_IZR. ring.
    - apply C11_lemma; auto; lia. }
  destruct E as (ftm' & f & -> & Hf & HV). cbn [bind]. eexists. split; [reflexivity|].
  split; [cbn [of_vec shape hp_grid gsh]; now rewrite Hf|].
  intros t p [Ht Hp]. cbn [hp_grid gn gN] in Ht, Hp. cbn [of_vec get hp_grid ge nth].
  change (vat f (ring_start (ring_length nside) t + p)) with (pixel nside t p f).
  rewrite HV by auto. unfold ring_value, order_sum. cbn [row vat hp_grid gph].
  rewrite (cr_cons 0 (2 * L)) by lia. rewrite F0 by auto. rewrite Cmult_0_l, Cplus_0_l. change (0 + 1) with 1.
  rewrite (cr_ext (- (L - 1)) L _ (fun m => (fun k => (at2 ftm t k * cis (IZR (k - L) * (2 * PI * IZR p / IZR (ring_length nside t))))%C) (m + L))).
  - rewrite (cr_shift (- (L - 1)) L L (fun k => (at2 ftm t k * cis (IZR (k - L) * (2 * PI * IZR p / IZR (ring_length nside t))))%C)).
    f_equal. f_equal; lia.
  - intros m Hm. cbv beta. rewrite FV by lia. replace (m + L - L) with m by lia.
    replace (IZR m * hp_longitude nside t p)%R
      with (IZR m * hp_longitude nside t 0 + IZR m * (2 * PI * IZR p / IZR (ring_length nside t)))%R.
    + rewrite cis_plus. ring.
    + unfold hp_longitude. pose proof (SphGrid.ring_length_pos nside t Hn Ht). field. apply not_0_IZR. lia.
Qed.
(** the signal is determined by complete or half rows *)
Lemma numpy_synthesis s L nside o reality A ftm x : 1 <= L -> (s = HEALPIX -> 1 <= nside /\ o = Some nside /\ 2 * nside <= L) ->
  ftm_ok s L nside (rings s L nside) reality A ftm ->
  (reality = true -> forall t m, 0 <= t < rings s L nside -> 0 <= m < L -> A t (- m) = Cconj (A t m)) ->
  forall b, exists f, pre_synthesis b ftm L (scheme_name s) o reality = Ok f /\
    on_grid (agrid s L nside x) f (order_sum (agrid s L nside x) L A).
Proof.
  intros HL Hhp HA HR b. assert (D : s = HEALPIX \/ s <> HEALPIX) by (destruct s; auto; right; discriminate). destruct D as [->|D].
  - destruct (Hhp eq_refl) as (H1 & -> & H2). apply hp_synthesis_gen; auto.
  - assert (E : forall o', pre_synthesis b ftm L (scheme_name s) o reality = ring_synthesis ftm L (scheme_name s) o' reality).
    { intros o'. unfold pre_synthesis, ring_synthesis. rewrite is_hp_name. destruct s; try congruence; reflexivity. }
    rewrite (E (Some nside)).
    assert (HA' : ftm_ok s L 0 (rings s L nside) reality A ftm).
    { destruct HA as (F & H1 & H2). exists F. split; [exact H1|]. intros t Ht. destruct (H2 t Ht) as [H3 H4]. split; [exact H3|].
      intros m Hm Hr. rewrite H4 by auto. destruct s; try congruence; reflexivity. }
    destruct s; try congruence; cbn [agrid rings] in *; apply (equi_synthesis_ok _ _ _ _ _ _ _ _); auto; lia.
Qed.
Lemma order_sum_real g L A t p : 1 <= L -> (forall m, 0 <= m < L -> A t (- m) = Cconj (A t m)) ->
  RtoC (Re (order_sum g L A t p)) = order_sum g L A t p.
Proof.
  intros HL H. apply Re_R. unfold order_sum. replace (zrange (- (L - 1)) L) with (zrange (- (L - 1)) (L - 1 + 1)) by (f_equal; lia).
  assert (T : forall m, 0 <= m < L -> (A t (- m)%Z * cis (IZR (- m) * gph g t p))%C = Cconj (A t m * cis (IZR m * gph g t p))%C).
  { intros m Hm. rewrite Cconj_mult, H, cis_conj by auto. do 2 f_equal. rewrite opp_IZR. ring. }
  rewrite (fold_pairs (fun m => (A t m * cis (IZR m * gph g t p))%C)) by (try lia; intros; apply T; lia). rewrite Cconj_plus, csum_conj. f_equal.
  - rewrite <- T by lia. reflexivity.
  - apply cs_ext. intros m _. rewrite Cconj_plus, Cconj_conj. apply Cplus_comm.
Qed.
Lemma flip1_ok {T} (a : ndarray T) n m F : is_mat a n m F -> is_mat (flip1 a) n m (fun r c => F r (m - 1 - c)).
Proof.
  intros H. unfold flip1. rewrite (is_mat_dim0 _ _ _ _ H), (is_mat_dim1 _ _ _ _ H).
  eapply is_mat_ext; [apply is_mat_mat|]. intros r c Hr Hc. cbv beta. apply (proj2 H); lia.
Qed.
Lemma slice2_set_ok {T} (a b : ndarray T) n m F G r0 r1 c0 c1 :
  is_mat a n m F -> is_mat b (r1 - r0) (c1 - c0) G ->
  0 <= r0 -> r0 <= r1 -> r1 <= n -> 0 <= c0 -> c0 <= c1 -> c1 <= m ->
  exists a', slice2_set a r0 r1 c0 c1 b = Ok a' /\
    is_mat a' n m (fun r c => if (r0 <=? r) && (r <? r1) && (c0 <=? c) && (c <? c1) then G (r - r0) (c - c0) else F r c).
Proof. intros. unfold slice2_set. now apply (MatFacts.slice2_add_ok (fun _ y => y) a b n m F G). Qed.

Lemma inverse_transform_at b x s flm K L spin reality nside o : 1 <= L -> shape flm = [L; 2 * L - 1] ->
  (s = HEALPIX -> 1 <= nside /\ o = Some nside /\ 2 * nside <= L) -> (reality = true -> spin = 0) ->
  (reality = true -> forall el, 0 <= el < L -> is_real (stored L flm el 0)) ->
  is_arr3 K (rings s L nside) L (md_of L reality) (fun t el i => kval (agrid s L nside x) spin (fun _ => 1%R) (phase_of s nside)
     t el (i + ms_of L reality - (L - 1))) ->
  exists f, inverse_transform b flm K L (scheme_name s) reality spin o = Ok f /\
    on_grid (agrid s L nside x) f (fun t p =>
      synth L spin (used_coefficients reality spin 0 (stored L flm)) (x t) (longitude s L nside t p)).
Proof.
  intros HL Hf Hhp Hre Hre0 HK. set (g := agrid s L nside x) in *.
  set (A := SphInverse.A flm L spin reality 0 g).
  assert (SYM : reality = true -> forall t m, 0 <= m < L -> A t (- m) = Cconj (A t m)).
  { intros Hr t m Hm. destruct (Z.eq_dec m 0) as [->|]; [|apply A_neg; auto; lia].
    change (- 0) with 0. unfold A, SphInverse.A. rewrite csum_conj. apply cs_ext. intros el Hel.
    unfold el_range in Hel. apply in_zrange in Hel. rewrite <- (Ac_X flm L spin reality g t el 0) by lia. rewrite Cconj_mult, Cconj_R. f_equal.
    assert (I := Hre0 Hr el ltac:(lia)). apply real_conj in I. symmetry. exact I. }
  assert (RN : 0 < rings s L nside).
  { destruct s; cbn [rings]; try lia. destruct (Hhp eq_refl). lia. }
  unfold inverse_transform. rewrite m_offset_name, is_hp_name.
  assert (DN : denotes (scheme_name s) s) by (now destruct s).
  rewrite (ftm_shape_ok _ s L nside o DN) by (intros Q; apply (Hhp Q)). cbn [bind].
  fold (ms_of L reality).
  pose proof (ms_range L reality HL) as Hms. pose proof (md_ms L reality) as Hmd.
  assert (RMS : reality = true -> ms_of L reality = L - 1) by (intros ->; reflexivity).
  assert (RMS' : reality = false -> ms_of L reality = 0) by (intros ->; reflexivity).
  set (md := md_of L reality) in *. set (ms := ms_of L reality) in *. clearbody ms md.
  assert (M01 : mo_of s = 0 \/ mo_of s = 1) by (destruct s; cbn [mo_of]; lia).
  assert (EO : orders s L = 2 * L - 1 + mo_of s) by (destruct s; cbn [orders mo_of]; lia).
  set (mo := mo_of s) in *.
  assert (MF := is_mat_self flm L (2 * L - 1) Hf).
  assert (M1 := MatFacts.slice2_ok _ _ _ _ 0 L ms (2 * L - 1) MF ltac:(lia) ltac:(lia) ltac:(lia) ltac:(lia) ltac:(lia) ltac:(lia)).
  rewrite (is_mat_dim0 _ _ _ _ MF), (is_mat_dim1 _ _ _ _ MF). rewrite <- Hmd in M1. replace (L - 0) with L in M1 by lia.
  destruct (einsum_tlm_lm_ok K _ _ _ _ _ _ HK M1) as (e & -> & He). cbn [bind].
  assert (MZ : is_mat (zeros (RtoC 0) [rings s L nside; orders s L]) (rings s L nside) (orders s L) (fun _ _ => RtoC 0)) by (split; reflexivity).
  rewrite (is_mat_dim0 _ _ _ _ MZ), (is_mat_dim1 _ _ _ _ MZ).
  assert (He' : is_mat e (rings s L nside - 0) (orders s L - (ms + mo)) (fun t c => (phase_of s nside t (c + ms - (L - 1))%Z * A t (c + ms - (L - 1))%Z * RtoC (sgn spin))%C)).
  { replace (rings s L nside - 0) with (rings s L nside) by lia. replace (orders s L - (ms + mo)) with md by lia.
    apply (is_mat_ext _ _ _ _ _ He). intros t c Ht Hc. cbv beta. unfold A, SphInverse.A. unfold el_range.
    rewrite Z.max_r by lia.
    assert (CS : csum (zrange 0 L) (fun el => (kval g spin (fun _ => 1%R) (phase_of s nside) t el (c + ms - (L - 1))%Z * at2 flm (0 + el)%Z (ms + c)%Z)%C)
      = csum (zrange (Z.abs spin) L) (fun el => (kval g spin (fun _ => 1%R) (phase_of s nside) t el (c + ms - (L - 1))%Z * at2 flm (0 + el)%Z (ms + c)%Z)%C)).
    { destruct (Z_le_dec (Z.abs spin) L).
      - apply cr_shrink; try lia. intros el Hel Ho. unfold kval. rewrite wigner_d_out by lia. rewrite Rmult_0_r. ring.
      - rewrite (cr_nil (Z.abs spin) L) by lia. apply cr_0. intros el Hel. unfold kval. rewrite wigner_d_out by lia. rewrite Rmult_0_r. ring. }
    rewrite CS. rewrite <- Cmult_assoc, <- cs_scal_r, <- cs_scal_l. apply cr_ext. intros el Hel.
    rewrite <- (Ac_X flm L spin reality g t el (c + ms - (L - 1))%Z) by (intros Q; rewrite (RMS Q); lia).
    unfold kval, X, at2. replace (c + ms - (L - 1) + L - 1) with (ms + c) by lia. rewrite Z.add_0_l. change (m1 spin) with (sgn spin).
    rewrite !RtoC_mult. transitivity (RtoC (sgn spin * sgn spin) * (RtoC (elfactor el) * RtoC (wigner_d el (c + ms - (L - 1))%Z (- spin)%Z (gth g t)) * phase_of s nside t (c + ms - (L - 1))%Z * get flm [el; (ms + c)%Z]))%C;
      [rewrite sgn_sq; ring|rewrite RtoC_mult; ring]. }
  destruct (slice2_set_ok _ e _ _ _ _ 0 (rings s L nside) (ms + mo) (orders s L) MZ He' ltac:(lia) ltac:(lia) ltac:(lia) ltac:(lia) ltac:(lia) ltac:(lia))
    as (ftm & -> & Hftm). cbn [bind].
  set (B := fun t m => (phase_of s nside t m * A t m)%C).
  assert (M2 : is_mat (mscal (fun z => (z * RtoC (m1 spin))%C) ftm) (rings s L nside) (orders s L)
     (fun t c => if ms + mo <=? c then B t (c - mo - (L - 1)) else RtoC 0)).
  { apply (is_mat_ext _ _ _ _ _ (mscal_ok (fun z => (z * RtoC (m1 spin))%C) _ _ _ _ Hftm)). intros t c Ht Hc. cbv beta.
    change (m1 spin) with (sgn spin). destruct (Z.leb_spec (ms + mo) c).
    - replace ((0 <=? t) && (t <? rings s L nside) && true && (c <? orders s L)) with true by lia.
      unfold B. replace (c - (ms + mo) + ms - (L - 1)) with (c - mo - (L - 1)) by lia. rewrite Z.sub_0_r.
      rewrite <- Cmult_assoc, <- RtoC_mult, sgn_sq. ring.
    - rewrite !andb_false_r. cbn [andb]. ring. }
  set (ftm1 := mscal (fun z => (z * RtoC (m1 spin))%C) ftm) in *. clearbody ftm1. cbv zeta.
  rewrite (is_mat_dim0 _ _ _ _ M2), (is_mat_dim1 _ _ _ _ M2).
  set (isH := match s with HEALPIX => true | _ => false end).
  assert (HM : exists ftm2, (if isH && reality then slice2_set ftm1 0 (rings s L nside) mo (ms + mo)
        (flip1 (mscal Cconj (slice2 ftm1 0 (rings s L nside) (ms + mo + 1) (orders s L)))) else Ok ftm1) = Ok ftm2 /\
     is_mat ftm2 (rings s L nside) (orders s L)
     (fun t c => if (ms + mo <=? c) || (isH && (mo <=? c)) then B t (c - mo - (L - 1)) else RtoC 0)).
  { destruct (Sumbool.sumbool_of_bool isH) as [IH|IH]; [destruct (Sumbool.sumbool_of_bool reality) as [Hr|Hr]|].
    - rewrite IH, Hr. cbn [andb]. specialize (RMS Hr).
      assert (S : s = HEALPIX) by (unfold isH in IH; destruct s; try discriminate; reflexivity).
      assert (MO : mo = 1) by (unfold mo; rewrite S; reflexivity).
      assert (M3 := MatFacts.slice2_ok _ _ _ _ 0 (rings s L nside) (ms + mo + 1) (orders s L) M2 ltac:(lia) ltac:(lia) ltac:(lia) ltac:(lia) ltac:(lia) ltac:(lia)).
      assert (M4 := flip1_ok _ _ _ _ (mscal_ok Cconj _ _ _ _ M3)).
      replace (orders s L - (ms + mo + 1)) with (ms + mo - mo) in M4 by lia.
      destruct (slice2_set_ok _ _ _ _ _ _ 0 (rings s L nside) mo (ms + mo) M2 M4 ltac:(lia) ltac:(lia) ltac:(lia) ltac:(lia) ltac:(lia) ltac:(lia))
        as (ftm2 & E & H2). exists ftm2. split; [exact E|]. apply (is_mat_ext _ _ _ _ _ H2). intros t c Ht Hc. cbv beta.
      destruct (Z.leb_spec (ms + mo) c).
      + replace ((0 <=? t) && (t <? rings s L nside) && (mo <=? c) && (c <? ms + mo)) with false by lia. cbn [orb]. reflexivity.
      + cbn [orb]. destruct (Z.leb_spec mo c); cbn [andb]; [|rewrite andb_false_r; reflexivity].
        replace ((0 <=? t) && (t <? rings s L nside) && true && (c <? ms + mo)) with true by lia.
        replace (ms + mo <=? ms + mo + 1 + (ms + mo - mo - 1 - (c - mo))) with true by lia.
        unfold B. rewrite Cconj_mult. rewrite Z.sub_0_r, Z.add_0_l.
        replace (ms + mo + 1 + (ms + mo - mo - 1 - (c - mo)) - mo - (L - 1)) with (- (c - mo - (L - 1))) by lia.
        rewrite <- SYM by (auto; lia). rewrite Z.opp_involutive. f_equal. rewrite S. cbn [phase_of]. rewrite cis_conj. f_equal. rewrite opp_IZR. ring.
    - rewrite Hr, andb_false_r. exists ftm1. split; [reflexivity|]. apply (is_mat_ext _ _ _ _ _ M2). intros t c Ht Hc. cbv beta.
      rewrite IH, (RMS' Hr). cbn [andb]. rewrite Z.add_0_l. now rewrite orb_diag.
    - rewrite IH. cbn [andb]. exists ftm1. split; [reflexivity|]. apply (is_mat_ext _ _ _ _ _ M2). intros t c Ht Hc. cbv beta.
      now rewrite orb_false_r. }
  destruct HM as (ftm2 & -> & H2). cbn [bind].
  assert (FO : ftm_ok s L nside (rings s L nside) reality A ftm2).
  { eexists. split; [exact H2|]. intros t Ht. fold mo. split.
    - intros Hm1. rewrite Hm1. replace (ms + 1 <=? 0) with false by lia. now rewrite andb_false_r.
    - intros m Hm Hr. unfold B. replace (m + L - 1 + mo - mo - (L - 1)) with m by lia.
      replace ((ms + mo <=? m + L - 1 + mo) || (isH && (mo <=? m + L - 1 + mo))) with true; [reflexivity|]. symmetry.
      destruct reality; [|rewrite (RMS' eq_refl); lia]. destruct (Sumbool.sumbool_of_bool isH) as [IH|IH]; [rewrite IH; lia|].
      specialize (Hr eq_refl ltac:(intros ->; discriminate)). lia. }
  destruct (numpy_synthesis s L nside o reality A ftm2 x HL Hhp FO ltac:(auto) b) as (f & -> & HF). cbn [bind]. fold g in HF.
  assert (VS : forall t p, order_sum g L A t p = synth L spin (used_coefficients reality spin 0 (stored L flm)) (x t) (longitude s L nside t p)).
  { intros t p. unfold A. rewrite <- V_A. unfold g. rewrite V_synth_gen by (auto; lia). now rewrite agrid_th, agrid_ph. }
  eexists. split; [reflexivity|]. destruct b; [apply (on_grid_ext _ _ _ _ HF); auto|].
  destruct (Sumbool.sumbool_of_bool reality) as [Hr|Hr]; rewrite Hr; [|apply (on_grid_ext _ _ _ _ HF); intros; rewrite VS, Hr; reflexivity].
  destruct HF as [HF1 HF2]. split; [exact HF1|]. intros t p Htp. cbn [areal get]. rewrite HF2 by auto.
  rewrite order_sum_real by auto. rewrite VS, Hr. reflexivity.
Qed.
Lemma agrid_exact gl s L nside : agrid s L nside (th_of gl s L nside) = the_grid gl s L nside.
Proof. now destruct s. Qed.
Lemma inverse_transform_lemma b gl s flm K L spin reality nside o : 1 <= L -> shape flm = [L; 2 * L - 1] ->
  (s = HEALPIX -> 1 <= nside /\ o = Some nside /\ 2 * nside <= L) -> (reality = true -> spin = 0) ->
  (reality = true -> forall el, 0 <= el < L -> is_real (stored L flm el 0)) ->
  is_arr3 K (rings s L nside) L (md_of L reality) (fun t el i => kval (the_grid gl s L nside) spin (fun _ => 1%R) (phase_of s nside)
     t el (i + ms_of L reality - (L - 1))) ->
  exists f, inverse_transform b flm K L (scheme_name s) reality spin o = Ok f /\
    on_grid (the_grid gl s L nside) f (fun t p =>
      synth L spin (used_coefficients reality spin 0 (stored L flm)) (th_of gl s L nside t) (longitude s L nside t p)).
Proof. rewrite <- agrid_exact. apply inverse_transform_at. Qed.

(** ** Forward transform *)
(** the map as the ring transforms see it: with the reality flag its real part *)
Definition used_map (reality : bool) (f : ndarray C) : ndarray C := if reality then areal f else f.
Lemma used_map_get reality f ix : get (used_map reality f) ix = if reality then RtoC (Re (get f ix)) else get f ix.
Proof. now destruct reality. Qed.
(** the values summed over: with the reality flag their real parts *)
Definition uvals (reality : bool) (s : scheme) (L nside spin : Z) (f : ndarray C) (t p : Z) : C :=
  if reality then RtoC (Re (fvals s L nside spin f t p)) else fvals s L nside spin f t p.

Definition pft_ok (s : scheme) (L nside : Z) (g : grid) (f : ndarray C) (reality : bool) (ftm : ndarray C) : Prop :=
  exists F, is_mat ftm (gn g) (md_of L reality) F /\ forall t i, 0 <= t < gn g -> 0 <= i < md_of L reality ->
    (F t i * Cconj (phase_of s nside t (i + ms_of L reality - (L - 1))))%C = fts g f t (i + ms_of L reality - (L - 1)).

Lemma equi_pre_analysis b s L o n reality f th : s <> HEALPIX -> 1 <= L -> 0 < n ->
  shape f = [n; per_ring s L] ->
  exists ftm, pre_analysis b f L (scheme_name s) o reality = Ok ftm /\
    forall nside, pft_ok s L nside (equi_grid s L n th) (used_map reality f) reality ftm.
Proof.
  intros Hs HL Hn Hf. unfold pre_analysis. rewrite is_hp_name, m_offset_name.
  replace (match s with HEALPIX => true | _ => false end) with false by (destruct s; congruence).
  assert (EP : per_ring s L = 2 * L - 1 + mo_of s) by (destruct s; try congruence; cbn [per_ring mo_of]; lia).
  assert (M01 : mo_of s = 0 \/ mo_of s = 1) by (destruct s; cbn [mo_of]; lia).
  assert (PH : forall nside t m, Cconj (phase_of s nside t m) = RtoC 1) by (intros; destruct s; try congruence; cbn [phase_of]; apply Cconj_R).
  assert (MF := is_mat_self f n (per_ring s L) Hf).
  assert (H2 : per_ring s L / 2 = L - 1 + mo_of s).
  { destruct M01 as [M|M]; rewrite EP, M; [symmetry; apply (Z.div_unique _ 2 _ 1); lia|].
    symmetry; apply (Z.div_unique _ 2 _ 0); lia. }
  assert (FTS : forall f t m, fts (equi_grid s L n th) f t m = csum (zrange 0 (per_ring s L)) (fun p => (at2 f t p * root (per_ring s L) (- (m * p)))%C)).
  { intros f0 t m. unfold fts. cbn [equi_grid gN gph ge]. apply cr_ext. intros p Hp. rewrite <- Z.mul_opp_l, root_lon by lia.
    rewrite Cmult_comm. unfold at2. f_equal. f_equal. rewrite opp_IZR. ring. }
  destruct (Sumbool.sumbool_of_bool reality) as [Hr|Hr]; rewrite Hr; cbn [used_map]; cbv iota; cbv zeta.
  - assert (M1 : is_mat (map_rows rfft_bwd f) n (L + mo_of s) (fun t k => fts (equi_grid s L n th) (areal f) t k)).
    { eapply map_rows_ok; [exact MF|apply vext_rfft| | |exact Hn].
      - intros r. cbn [rfft_bwd vlen]. lia.
      - intros t k Ht Hk. rewrite FTS. cbn [rfft_bwd vlen vat fft_bwd real_part vmap]. apply cr_ext. intros p Hp.
        reflexivity. }
    eexists. split; [reflexivity|]. intros nside. exists (fun t k => fts (equi_grid s L n th) (areal f) t k). unfold md_of, ms_of. split.
    + cbn [equi_grid gn]. destruct M01 as [M|M]; rewrite M; cbn [Z.eqb negb].
      * rewrite M, Z.add_0_r in M1. exact M1.
      * rewrite M in M1. rewrite (is_mat_dim0 _ _ _ _ M1).
        assert (E : slice2 (map_rows rfft_bwd f) 0 n 0 (-1) = slice2 (map_rows rfft_bwd f) 0 n 0 L).
        { unfold slice2. rewrite (is_mat_dim1 _ _ _ _ M1). f_equal. unfold slice_len, slice_lo, clamp. repeat zif. lia. }
        rewrite E. apply (is_mat_ext _ _ _ (fun r c => fts (equi_grid s L n th) (areal f) (0 + r) (0 + c))); [|reflexivity].
        assert (S2 := MatFacts.slice2_ok _ _ _ _ 0 n 0 L M1 ltac:(lia) ltac:(lia) ltac:(lia) ltac:(lia) ltac:(lia) ltac:(lia)).
        replace (n - 0) with n in S2 by lia. replace (L - 0) with L in S2 by lia. exact S2.
    + intros t i Ht Hi. rewrite PH, Cmult_1_r. f_equal. lia.
  - assert (M1 : is_mat (map_rows (fun r => fftshift (fft_bwd r)) f) n (per_ring s L) (fun t j => fts (equi_grid s L n th) f t (j - (L - 1 + mo_of s)))).
    { eapply map_rows_ok; [exact MF|apply (vext_comp fftshift fft_bwd vext_fftshift vext_fft_bwd)| | |exact Hn].
      - reflexivity.
      - intros t j Ht Hj. rewrite FTS. cbn [fftshift fft_bwd vlen vat]. apply cr_ext. intros p Hp. f_equal. rewrite H2.
        apply root_congr; [lia|]. rewrite <- !Z.mul_opp_l. rewrite Z.mul_mod by lia.
        rewrite (Z.mul_mod (- (j - _))) by lia. f_equal. f_equal.
        rewrite <- (Z.sub_0_l (_ mod _)), Zminus_mod_idemp_r. now rewrite Z.sub_0_l. }
    eexists. split; [reflexivity|]. intros nside.
    assert (S2 := MatFacts.slice2_ok _ _ _ _ 0 n (mo_of s) (per_ring s L) M1 ltac:(lia) ltac:(lia) ltac:(lia) ltac:(lia) ltac:(lia) ltac:(lia)).
    rewrite (is_mat_dim0 _ _ _ _ M1), (is_mat_dim1 _ _ _ _ M1). replace (n - 0) with n in S2 by lia.
    replace (per_ring s L - mo_of s) with (2 * L - 1) in S2 by lia. eexists. split; [exact S2|]. unfold md_of, ms_of.
    intros t i Ht Hi. rewrite PH, Cmult_1_r. f_equal; lia.
Qed.
Lemma hp_pre_analysis b L nside reality f th : 1 <= L -> 1 <= nside -> (b = jax -> 2 <= nside) -> 2 * nside <= L ->
  shape f = [12 * (nside * nside)] ->
  (reality = true -> forall i, 0 <= i < 12 * (nside * nside) -> is_real (get f [i])) ->
  exists ftm, pre_analysis b f L "healpix" (Some nside) reality = Ok ftm /\
    pft_ok HEALPIX L nside (hp_grid nside th) f reality ftm.
Proof.
  intros HL Hn Hb HnL Hf HR. unfold pre_analysis. change (is_hp "healpix") with true. cbv iota. cbn [need bind].
  assert (VL : vlen (to_vec f) = 12 * (nside * nside)) by (cbn [to_vec vlen]; unfold dim0; now rewrite Hf).
  assert (HB : backend_name b = "numpy" \/ backend_name b = "jax" /\ 2 <= nside) by (destruct b; auto).
  assert (E : exists ftm, healpix_fft (RtoC 0) fft_bwd rfft_bwd (to_vec f) L nside (backend_name b) reality = Ok ftm /\
    ftm_table nside L ftm /\
    forall t k, 0 <= t < 4 * nside - 1 -> L <= k < 2 * L \/ (reality = false /\ 0 <= k < L) ->
      vat (vat ftm t) k = ring_coefficient (fun p => pixel nside t p (to_vec f)) (ring_length nside t) (k - L)).
  { destruct reality.
    - destruct (C12_real_lemma nside L (to_vec f) (backend_name b) Hn ltac:(lia) VL (HR eq_refl) HB) as (ftm & E & T & H).
      exists ftm. split; [exact E|]. split; [exact T|]. intros t k Ht Hk. rewrite H by (auto; lia).
      replace ((ring_length nside t =? 2 * L) && (k <? L)) with false; [reflexivity|].
      replace (k <? L) with false by (destruct Hk as [|[]]; [lia|discriminate]). now rewrite andb_false_r.
    - destruct (C12_lemma nside L (to_vec f) (backend_name b) Hn ltac:(lia) VL HB) as (ftm & E & T & H).
      exists ftm. split; [exact E|]. split; [exact T|]. intros t k Ht Hk. apply H; auto. lia. }
  destruct E as (ftm & -> & [T1 T2] & H). cbn [bind]. cbv zeta. change (m_offset "healpix") with 1.
  assert (M0 : is_mat (of_rows (2 * L) ftm) (4 * nside - 1) (2 * L) (fun t k => vat (vat ftm t) k)).
  { split; [cbn [of_rows mat shape]; now rewrite T1|]. intros; reflexivity. }
  assert (M1 := MatFacts.slice2_ok _ _ _ _ 0 (4 * nside - 1) 1 (2 * L) M0 ltac:(lia) ltac:(lia) ltac:(lia) ltac:(lia) ltac:(lia) ltac:(lia)).
  rewrite (is_mat_dim0 _ _ _ _ M0), (is_mat_dim1 _ _ _ _ M0). rewrite (is_mat_dim0 _ _ _ _ M1), (is_mat_dim1 _ _ _ _ M1).
  replace (4 * nside - 1 - 0) with (4 * nside - 1) in * by lia.
  eexists. split; [reflexivity|]. exists (fun t i => vat (vat ftm t) (i + ms_of L reality + 1)). split.
  - cbn [hp_grid gn]. destruct reality; cbn [md_of ms_of].
    + assert (M2 := MatFacts.slice2_ok _ _ _ _ 0 (4 * nside - 1) (L - 1) (2 * L - 1) M1 ltac:(lia) ltac:(lia) ltac:(lia) ltac:(lia) ltac:(lia) ltac:(lia)).
      replace (4 * nside - 1 - 0) with (4 * nside - 1) in M2 by lia. replace (2 * L - 1 - (L - 1)) with L in M2 by lia.
      apply (is_mat_ext _ _ _ _ _ M2). intros t i Ht Hi. cbv beta. f_equal; lia.
    + apply (is_mat_ext _ _ _ _ _ M1). intros t i Ht Hi. cbv beta. f_equal; lia.
  - cbn [hp_grid gn]. intros t i Ht Hi.
    rewrite H; [|auto|destruct reality; cbn [md_of ms_of] in *; [left; lia|destruct (Z_lt_dec (i + 1) L); [right|left]; lia]].
    unfold fts. cbn [hp_grid gN gph ge phase_of]. unfold ring_coefficient. rewrite <- cs_scal_r. apply cr_ext. intros p Hp.
    rewrite cis_conj. unfold pixel. cbn [to_vec vat]. replace (i + ms_of L reality + 1 - L) with (i + ms_of L reality - (L - 1)) by lia.
    set (m := i + ms_of L reality - (L - 1)).
    replace (- (IZR m * hp_longitude nside t p))%R with (- IZR m * (2 * PI * IZR p / IZR (ring_length nside t)) + - (IZR m * hp_longitude nside t 0))%R.
    + rewrite cis_plus. ring.
    + unfold hp_longitude. pose proof (SphGrid.ring_length_pos nside t Hn Ht). field. apply not_0_IZR. lia.
Qed.

Lemma pre_resample b gl s f L spin nside : 1 <= L -> shape f = map_shape s L nside ->
  exists f1 f2, (if streq (lower (scheme_name s)) "mw" then mw_to_mwss b f L spin else Ok f) = Ok f1 /\
    (if str_in (lower (scheme_name s)) ["mw"; "mwss"]
     then let* f := upsample_by_two_mwss b f1 L spin in Ok (f, "mwss") else Ok (f1, scheme_name s)) = Ok (f2, scheme_name (fscheme s)) /\
    shape f2 = gsh (fgrid gl s L nside) /\
    (forall t p, in_grid (fgrid gl s L nside) t p -> get f2 (ge (fgrid gl s L nside) t p) = fvals s L nside spin f t p).
Proof.
  intros HL Hf. rewrite lower_name.
  assert (D : (s = MW \/ s = MWSS) \/ (s <> MW /\ s <> MWSS)) by (destruct s; auto; right; split; discriminate).
  destruct D as [D|[N1 N2]].
  - assert (U : exists f1 F, (if streq (scheme_name s) "mw" then mw_to_mwss b f L spin else Ok f) = Ok f1 /\
      is_mat f1 (L + 1) (2 * L) F /\ forall t p, fvals s L nside spin f t p = up_op L spin F t p).
    { destruct D as [-> | ->].
      - destruct (mw_op_ok L spin HL b f (at2 f)) as (g & E & Hg1); [split; auto|].
        exists g. eexists. split; [exact E|]. split; [exact Hg1|]. reflexivity.
      - exists f, (at2 f). split; [reflexivity|]. split; [split; auto|]. reflexivity. }
    destruct U as (f1 & F & -> & HF & HV).
    replace (str_in (scheme_name s) ["mw"; "mwss"]) with true by (destruct D as [-> | ->]; reflexivity).
    destruct (up_op_ok L spin HL b f1 F HF) as (f2 & E2 & H2). exists f1, f2. rewrite E2. cbn [bind].
    split; [reflexivity|]. split; [destruct D as [-> | ->]; reflexivity|].
    assert (GE : fgrid gl s L nside = equi_grid MWSS L (2 * L + 1) (mwss_theta (2 * L))) by (destruct D as [-> | ->]; reflexivity).
    rewrite GE in *. split; [exact (proj1 H2)|].
    intros t p [Hi Hp]. cbn [equi_grid ge gn gN] in *. rewrite HV. apply (proj2 H2); auto.
  - assert (E1 : streq (scheme_name s) "mw" = false) by (destruct s; try congruence; reflexivity).
    assert (E2 : str_in (scheme_name s) ["mw"; "mwss"] = false) by (destruct s; try congruence; reflexivity).
    rewrite E1, E2. exists f, f. split; [reflexivity|]. split; [destruct s; try congruence; reflexivity|].
    assert (GE : fgrid gl s L nside = the_grid gl s L nside) by (destruct s; try congruence; reflexivity).
    rewrite GE. split; [now rewrite the_grid_sh|]. intros t p IG. rewrite the_grid_e. destruct s; try congruence; reflexivity.
Qed.
Lemma hp_pixel_ring nside i : 1 <= nside -> 0 <= i < 12 * (nside * nside) ->
  exists t p, 0 <= t < 4 * nside - 1 /\ 0 <= p < ring_length nside t /\ i = ring_start (ring_length nside) t + p.
Proof.
  intros Hn Hi. destruct (thetas_top (mkGL (fun _ => vconst 0 0%R) (fun _ => vconst 0 0%R)) "healpix" HEALPIX 1 nside (Some nside) eq_refl ltac:(lia) ltac:(auto) ltac:(discriminate)) as (ths & _ & H1 & H2).
  assert (G := the_grid_ok (mkGL (fun _ => vconst 0 0%R) (fun _ => vconst 0 0%R)) "healpix" HEALPIX 1 nside (Some nside) ths).
  destruct (go_cov _ _ _ _ _ (G eq_refl ltac:(lia) ltac:(auto) H1 H2) [i]) as (t & p & [Ht Hp] & E); [cbn [the_grid hp_grid gsh in_shape]; lia|].
  cbn [the_grid hp_grid ge gn gN] in *. exists t, p. split; [exact Ht|]. split; [exact Hp|]. congruence.
Qed.
Lemma pre_analysis_ok b gl s f L spin nside o reality : 1 <= L -> shape f = map_shape s L nside ->
  (s = HEALPIX -> 1 <= nside /\ o = Some nside /\ 2 * nside <= L /\ (b = jax -> 2 <= nside)) ->
  (reality = true -> s = HEALPIX -> real_values gl s L nside spin f) ->
  exists ftm, (let* f1 := (if streq (lower (scheme_name s)) "mw" then mw_to_mwss b f L spin else Ok f) in
      let* (f2, name) := (if str_in (lower (scheme_name s)) ["mw"; "mwss"]
         then let* f := upsample_by_two_mwss b f1 L spin in Ok (f, "mwss") else Ok (f1, scheme_name s)) in
      pre_analysis b f2 L name o reality) = Ok ftm /\
    exists F, is_mat ftm (gn (fgrid gl s L nside)) (md_of L reality) F /\
      forall t i, 0 <= t < gn (fgrid gl s L nside) -> 0 <= i < md_of L reality ->
      let m := i + ms_of L reality - (L - 1) in
      (F t i * Cconj (phase_of s nside t m))%C =
      csum (zrange 0 (gN (fgrid gl s L nside) t)) (fun p => (cis (- (IZR m * gph (fgrid gl s L nside) t p)) * uvals reality s L nside spin f t p)%C).
Proof.
  intros HL Hf Hhp HR. destruct (pre_resample b gl s f L spin nside HL Hf) as (f1 & f2 & -> & E2 & Sf & HV). cbn [bind]. rewrite E2. cbn [bind].
  set (g := fgrid gl s L nside) in *.
  assert (K : exists ftm, pre_analysis b f2 L (scheme_name (fscheme s)) o reality = Ok ftm /\ pft_ok s L nside g (used_map reality f2) reality ftm).
  { assert (D : s = HEALPIX \/ s <> HEALPIX) by (destruct s; auto; right; discriminate). destruct D as [->|D].
    - destruct (Hhp eq_refl) as (H1 & -> & H2 & H3). assert (RV : reality = true -> forall i, 0 <= i < 12 * (nside * nside) -> is_real (get f2 [i])).
      2:{ destruct (hp_pre_analysis b L nside reality f2 (fun t => gth g t) HL H1 H3 H2 Sf RV) as (ftm & E & F & M & HF). exists ftm. split; [exact E|].
        exists F. split; [exact M|]. intros t i Ht Hi. rewrite (HF t i Ht Hi). unfold fts. apply cr_ext. intros p Hp. f_equal.
        rewrite used_map_get. destruct reality; [|reflexivity]. symmetry. apply real_Re. cbn [g fgrid the_grid hp_grid ge gn gN] in *.
        rewrite (HV t p (conj Ht Hp)). apply HR; auto. now split. }
      intros Hr i Hi. destruct (hp_pixel_ring nside i H1 Hi) as (t & p & Ht & Hp & ->).
      assert (IG : in_grid g t p) by (split; assumption). specialize (HV t p IG). cbn [g fgrid the_grid hp_grid ge] in HV.
      rewrite HV. apply HR; auto.
    - assert (EG : exists n th, g = equi_grid (fscheme s) L n th /\ 0 < n)
        by (destruct s; try congruence; cbn [g fgrid the_grid fscheme]; do 2 eexists; (split; [reflexivity|cbn [rings]; lia])).
      destruct EG as (n & th & EG & Hn). rewrite EG in *.
      assert (D' : fscheme s <> HEALPIX) by (destruct s; cbn [fscheme]; congruence).
      destruct (equi_pre_analysis b (fscheme s) L o n reality f2 th D' HL Hn) as (ftm & E & H).
      + rewrite Sf. cbn [equi_grid gsh]. reflexivity.
      + exists ftm. split; [exact E|]. specialize (H nside). destruct H as (F & H1 & H2). exists F. split; [exact H1|].
        intros t i Ht Hi. rewrite <- H2 by auto. f_equal. destruct s; try congruence; reflexivity. }
  destruct K as (ftm & -> & F & H1 & H2). exists ftm. split; [reflexivity|]. exists F. split; [exact H1|].
  intros t i Ht Hi. rewrite H2 by auto. unfold fts. apply cr_ext. intros p Hp. rewrite used_map_get, HV by (split; auto). reflexivity.
Qed.

Lemma forward_transform_at b gl x s f K w L spin reality nside o : 1 <= L -> shape f = map_shape s L nside ->
  (s = HEALPIX -> 1 <= nside /\ o = Some nside /\ 2 * nside <= L /\ (b = jax -> 2 <= nside)) ->
  (reality = true -> spin = 0) -> (reality = true -> s = HEALPIX -> real_values gl s L nside spin f) ->
  is_arr3 K (gn (ogrid s L nside x)) L (md_of L reality) (fun t el i => kval (ogrid s L nside x) spin (vat w)
     (fun t m => Cconj (phase_of s nside t m)) t el (i + ms_of L reality - (L - 1))) ->
  exists flm, forward_transform b f K L (scheme_name s) reality spin o = Ok flm /\
    holds_coefficients L flm (fun el m =>
      if Z.abs spin <=? el then fsum (ogrid s L nside x) spin w (uvals reality s L nside spin f) el m else RtoC 0).
Proof.
  intros HL Hf Hhp Hre HR HK. destruct (pre_analysis_ok b gl s f L spin nside o reality HL Hf Hhp HR) as (ftm & EF & F & HF & HV).
  unfold forward_transform. set (v := uvals reality s L nside spin f) in *.
  assert (HV' : forall t i, 0 <= t < gn (ogrid s L nside x) -> 0 <= i < md_of L reality ->
    (F t i * Cconj (phase_of s nside t (i + ms_of L reality - (L - 1))))%C =
    csum (zrange 0 (gN (ogrid s L nside x) t)) (fun p => (cis (- (IZR (i + ms_of L reality - (L - 1)) * gph (ogrid s L nside x) t p)) * v t p)%C)).
  { intros t i Ht Hi. rewrite (ogrid_n gl) in Ht. rewrite (HV t i Ht Hi), (ogrid_N gl). apply cr_ext. intros p Hp. now rewrite (ogrid_ph gl). }
  rewrite <- (ogrid_n gl s L nside x) in HF.
  assert (HR' : reality = true -> forall t p, in_grid (ogrid s L nside x) t p -> is_real (v t p)).
  { intros Q t p _. unfold v, uvals. rewrite Q. reflexivity. }
  clear HV HR. rename HV' into HV. rename HR' into HR.
  set (g := ogrid s L nside x) in *.
  revert EF. generalize (if streq (lower (scheme_name s)) "mw" then mw_to_mwss b f L spin else Ok f). intros [f1|]; cbn [bind]; [|discriminate].
  generalize (if str_in (lower (scheme_name s)) ["mw"; "mwss"] then let* f := upsample_by_two_mwss b f1 L spin in Ok (f, "mwss") else Ok (f1, scheme_name s)).
  intros [[f2 nm]|]; cbn [bind]; [|discriminate]. intros ->. cbn [bind].
  fold (ms_of L reality). pose proof (ms_range L reality HL) as Hms. pose proof (md_ms L reality) as Hmd.
  assert (RMS : reality = true -> ms_of L reality = L - 1) by (intros ->; reflexivity).
  assert (RMS' : reality = false -> ms_of L reality = 0) by (intros ->; reflexivity).
  set (md := md_of L reality) in *. set (ms := ms_of L reality) in *. clearbody ms md.
  destruct (einsum_tlm_tm_lm_ok K ftm _ _ _ _ _ HK HF) as (e & -> & He). cbn [bind].
  assert (MZ : is_mat (zeros (RtoC 0) (flm_shape L)) L (2 * L - 1) (fun _ _ => RtoC 0)) by (split; reflexivity).
  rewrite (is_mat_dim0 _ _ _ _ MZ), (is_mat_dim1 _ _ _ _ MZ).
  assert (He' : is_mat e (L - 0) (2 * L - 1 - ms) (fun el c => (RtoC (sgn spin) * fsum g spin w v el (c + ms - (L - 1)))%C)).
  { replace (L - 0) with L by lia. rewrite <- Hmd. apply (is_mat_ext _ _ _ _ _ He). intros el c Hel Hc. cbv beta.
    unfold fsum. rewrite <- cs_scal_l. apply cr_ext. intros t Ht. rewrite <- HV by auto. cbv zeta. unfold kval.
    set (m := c + ms - (L - 1)). rewrite !RtoC_mult.
    transitivity (RtoC (sgn spin * sgn spin) * (RtoC (vat w t) * RtoC (elfactor el) * RtoC (wigner_d el m (- spin)%Z (gth g t)) * Cconj (phase_of s nside t m) * F t c))%C;
      [rewrite sgn_sq; ring|rewrite RtoC_mult; ring]. }
  destruct (slice2_set_ok _ e _ _ _ _ 0 L ms (2 * L - 1) MZ He' ltac:(lia) ltac:(lia) ltac:(lia) ltac:(lia) ltac:(lia) ltac:(lia))
    as (flm & -> & Hflm). cbn [bind].
  set (B := fun el m => (RtoC (sgn spin) * fsum g spin w v el m)%C) in *.
  assert (H1 : is_mat flm L (2 * L - 1) (fun el c => if ms <=? c then B el (c - (L - 1)) else RtoC 0)).
  { apply (is_mat_ext _ _ _ _ _ Hflm). intros el c Hel Hc. cbv beta. destruct (Z.leb_spec ms c).
    - replace ((0 <=? el) && (el <? L) && true && (c <? 2 * L - 1)) with true by lia. unfold B. do 2 f_equal; lia.
    - now rewrite andb_false_r. }
  clear Hflm. rewrite (is_mat_dim0 _ _ _ _ H1), (is_mat_dim1 _ _ _ _ H1).
  assert (HM : exists flm2, (if reality then
         let up := slice2 flm 0 L (ms + 1) (2 * L - 1) in
         let* u := mmul Cmult (mat (dim0 up) (Z.max 0 (L - 1)) (fun _ i => RtoC (m1 ((1 + i) mod 2)))) (mscal Cconj up) in
         slice2_set flm 0 L 0 ms (flip1 u) else Ok flm) = Ok flm2 /\ is_mat flm2 L (2 * L - 1) (fun el c => B el (c - (L - 1)))).
  { destruct (Sumbool.sumbool_of_bool reality) as [Hr|Hr]; rewrite Hr.
    - specialize (RMS Hr). cbv zeta.
      assert (M3 := MatFacts.slice2_ok _ _ _ _ 0 L (ms + 1) (2 * L - 1) H1 ltac:(lia) ltac:(lia) ltac:(lia) ltac:(lia) ltac:(lia) ltac:(lia)).
      rewrite (is_mat_dim0 _ _ _ _ M3).
      assert (M4 := mscal_ok Cconj _ _ _ _ M3). replace (2 * L - 1 - (ms + 1)) with (L - 1) in M4 by lia. replace (L - 0) with L in * by lia.
      unfold mmul. rewrite (is_mat_dim0 _ _ _ _ M4), (is_mat_dim1 _ _ _ _ M4). cbn [mat dim0 dim1 shape nth].
      rewrite Z.max_r by lia. rewrite !Z.eqb_refl. cbn [andb negb bind].
      match goal with |- context [flip1 ?a] => assert (M5 : is_mat a (L - 0) (ms - 0) (fun el i => (RtoC (sgn (1 + i)) * Cconj (B el (1 + i)%Z))%C)) end.
      { replace (L - 0) with L by lia. replace (ms - 0) with (L - 1) by lia. eapply is_mat_ext; [apply is_mat_mat|]. intros el i Hel Hi. cbv beta.
        rewrite (proj2 M4) by lia. unfold at2, mat. cbn [get nth]. replace (ms <=? ms + 1 + i) with true by lia.
        f_equal; [|f_equal; f_equal; lia]. f_equal. apply mod2_sgn. }
      destruct (slice2_set_ok _ _ _ _ _ _ 0 L 0 ms H1 (flip1_ok _ _ _ _ M5) ltac:(lia) ltac:(lia) ltac:(lia) ltac:(lia) ltac:(lia) ltac:(lia))
        as (flm2 & E & H2). exists flm2. split; [exact E|]. apply (is_mat_ext _ _ _ _ _ H2). intros el c Hel Hc. cbv beta.
      destruct (Z.leb_spec ms c).
      + replace ((0 <=? el) && (el <? L) && (0 <=? c) && (c <? ms)) with false by lia. reflexivity.
      + replace ((0 <=? el) && (el <? L) && (0 <=? c) && (c <? ms)) with true by lia. unfold B. rewrite (Hre Hr).
        set (m := 1 + (ms - 0 - 1 - (c - 0))). replace (c - (L - 1)) with (- m) by (unfold m; lia).
        rewrite (fsum_conj g w v el m (HR Hr)). rewrite Z.sub_0_r.
        change (sgn 0) with 1%R. rewrite !Cmult_1_l. reflexivity.
    - exists flm. split; [reflexivity|]. apply (is_mat_ext _ _ _ _ _ H1). intros el c Hel Hc. cbv beta. rewrite (RMS' Hr).
      replace (0 <=? c) with true by lia. reflexivity. }
  cbv zeta in HM |- *. destruct HM as (flm2 & -> & H2). cbn [bind]. eexists. split; [reflexivity|].
  assert (H3 := mscal_ok (fun z => (z * RtoC (m1 spin))%C) _ _ _ _ H2). split; [exact (proj1 H3)|].
  intros el m Hel Hm. unfold stored. change (get ?a [el; m + L - 1]) with (at2 a el (m + L - 1)). rewrite (proj2 H3) by lia.
  unfold B. change (m1 spin) with (sgn spin). replace (m + L - 1 - (L - 1)) with m by lia.
  transitivity (RtoC (sgn spin * sgn spin) * fsum g spin w v el m)%C; [rewrite RtoC_mult; ring|]. rewrite sgn_sq, Cmult_1_l.
  destruct (Z.leb_spec (Z.abs spin) el); [reflexivity|]. unfold fsum. apply cr_0. intros t Ht. rewrite wigner_d_out by lia. rewrite Rmult_0_r. ring.
Qed.
Lemma ogrid_exact gl s L nside : ogrid s L nside (th_of gl (fscheme s) (match s with MW | MWSS => 2 * L | _ => L end) nside) = fgrid gl s L nside.
Proof. now destruct s. Qed.
Lemma forward_transform_lemma b gl s f K w L spin reality nside o : 1 <= L -> shape f = map_shape s L nside ->
  (s = HEALPIX -> 1 <= nside /\ o = Some nside /\ 2 * nside <= L /\ (b = jax -> 2 <= nside)) ->
  (reality = true -> spin = 0) -> (reality = true -> real_values gl s L nside spin f) ->
  is_arr3 K (gn (fgrid gl s L nside)) L (md_of L reality) (fun t el i => kval (fgrid gl s L nside) spin (vat w)
     (fun t m => Cconj (phase_of s nside t m)) t el (i + ms_of L reality - (L - 1))) ->
  exists flm, forward_transform b f K L (scheme_name s) reality spin o = Ok flm /\
    holds_coefficients L flm (fun el m =>
      if Z.abs spin <=? el then fsum (fgrid gl s L nside) spin w (fvals s L nside spin f) el m else RtoC 0).
Proof. intros HL Hf Hhp Hre HR. intros HK. rewrite <- ogrid_exact in HK |- *.
  destruct (forward_transform_at b gl _ s f K w L spin reality nside o HL Hf Hhp Hre ltac:(auto) HK) as (flm & E & S1 & H1).
  exists flm. split; [exact E|]. split; [exact S1|]. intros el m Hel Hm. rewrite H1 by auto. destruct (_ <=? _); [|reflexivity].
  apply fsum_ext. intros t p IG. unfold uvals. destruct reality; [|reflexivity]. apply real_Re. apply HR; auto. rewrite ogrid_exact in IG. exact IG.
Qed.
