(** Properties of the refined forward transform with precomputed kernels
    (s2fft/precompute_transforms/spherical.py:forward with iter > 0) and of the refined on-the-fly
    transform near the colatitudes. *)
From Coq Require Import Reals Lra.
From Coquelicot Require Import Complex.
From Verif Require Import Lib.Py Lib.PyFacts Lib.Vec Lib.Sums Lib.Cplx Lib.Arr Model.Grids Model.Resampling Model.Quadrature Model.Spherical Model.PriceMcEwen Model.Precompute Model.Refine
  Model.OTF Model.OTFSpherical Model.PrecomputeIter
  Spec.SamplesSpec Spec.WignerSpec Spec.SphereSpec Spec.GridSpec Spec.QuadSpec Spec.SphericalSpec Spec.RefineSpec Spec.OTFSpec Spec.OTFSphericalSpec Spec.PrecomputeSpec
  Proofs.SphAngles Proofs.PrecomputeTop Proofs.OTFTop Proofs.OTFSphInverse Proofs.OTFSphForward Proofs.OTFSphNear Proofs.OTFSphMore Proofs.RefineProofs Proofs.RefineSph Proofs.PrecomputeIterProofs
  Properties.QuadProps Properties.SphericalProps Properties.RefineProps Properties.OTFSphericalProps
  Spec.CallSpec.
Open Scope string_scope.
Open Scope Z_scope.

(** ** C61 *)
(** With kernels exact at the colatitudes the refined transform returns what the refined reference
    transform returns. *)
Theorem C61_agrees gl method b s f L spin kernel nside o reality iter :
  setting (scheme_name s) s L nside o -> rule_sizes s L (gl_nodes gl L) (gl_weights gl L) ->
  (s = HEALPIX -> 2 * nside <= L /\ (b = jax -> 2 <= nside)) -> runs_on method b ->
  rings_away (vat (gl_nodes gl L)) s L nside -> forward_rings_away (vat (gl_nodes gl L)) s L nside ->
  kernel_given gl b L spin reality (scheme_name s) o true (forward_rings_away (vat (gl_nodes gl L)) s L nside) kernel ->
  recursion_ok b "auto" L spin (rings_away (vat (gl_nodes gl L)) s L nside) ->
  maps_of (vat (gl_nodes gl L)) s L nside spin reality f -> 0 <= iter ->
  same_ok (pre_forward_iter gl f L spin kernel (scheme_name s) reality method o iter) (forward_iter gl f L spin (scheme_name s) o reality 0 iter).
Proof. intros. now apply (exact_same gl method b s L spin kernel nside o reality). Qed.
Print Assumptions C61_agrees.

(** So its error on the samples of coefficients flm is (I - F B)^(iter+1) flm with the reference
    transforms F and B ... *)
Theorem C61_error gl method b s flm L spin kernel nside o reality iter :
  setting (scheme_name s) s L nside o -> rule_sizes s L (gl_nodes gl L) (gl_weights gl L) ->
  (s = HEALPIX -> 2 * nside <= L /\ (b = jax -> 2 <= nside)) -> runs_on method b -> small_grid (vat (gl_nodes gl L)) s L nside ->
  kernel_given gl b L spin reality (scheme_name s) o true (forward_rings_away (vat (gl_nodes gl L)) s L nside) kernel ->
  recursion_ok b "auto" L spin (rings_away (vat (gl_nodes gl L)) s L nside) ->
  coefficients_of L spin reality flm -> 0 <= iter ->
  let F := fun f => forward_ gl f L spin (scheme_name s) "sov_fft_vectorized" o reality 0 in
  let B := fun flm => inverse_ gl flm L spin (scheme_name s) "sov_fft_vectorized" o reality 0 in
  exists f y e, B flm = Ok f /\ pre_forward_iter gl f L spin kernel (scheme_name s) reality method o iter = Ok y /\
    difference flm y e /\ defect F B (S (Z.to_nat iter)) flm e.
Proof.
  intros S Hg Hh Hm Ha HK HK' HQ Hi F B. assert (HL : 1 <= L) by apply S.
  assert (Hh' : s = HEALPIX -> 2 * nside <= L) by (intros E; apply (Hh E)).
  destruct (C38_spherical_error gl s flm L spin 0 nside o reality iter S ltac:(lia) Hg Hh' Ha HQ Hi) as (f & y0 & e & Ef & Ey0 & D & De).
  destruct (C38_spherical_linear gl s L spin 0 nside o reality S ltac:(lia) Hg Hh' Ha) as (_ & _ & _ & LB).
  destruct (proj1 LB flm HQ) as (f' & Ef' & Pf). rewrite Ef in Ef'. injection Ef' as <-.
  destruct (C61_agrees gl method b s f L spin kernel nside o reality iter) as (y & y1 & Ey & Ey1 & A); auto using small_away, small_forward.
  rewrite Ey0 in Ey1. injection Ey1 as <-. exists f, y, e. split; [exact Ef|]. split; [exact Ey|]. split; [|exact De].
  apply (comb_eq _ _ flm y0 e); auto using RefineProofs.arr_eq_refl. now apply RefineProofs.arr_eq_sym.
Qed.
Print Assumptions C61_error.

(** ... and on the exact schemes it returns the coefficients whatever iter. *)
Theorem C61_exact gl method b s f c L spin kernel nside o reality iter :
  setting (scheme_name s) s L nside o -> s <> HEALPIX -> (s = GL -> gauss_legendre L (gl_nodes gl L) (gl_weights gl L)) -> runs_on method b ->
  small_grid (vat (gl_nodes gl L)) s L nside ->
  kernel_given gl b L spin reality (scheme_name s) o true (forward_rings_away (vat (gl_nodes gl L)) s L nside) kernel ->
  recursion_ok b "auto" L spin (rings_away (vat (gl_nodes gl L)) s L nside) ->
  (reality = true -> spin = 0 -> hermitian L c /\ real_map (vat (gl_nodes gl L)) s L nside spin f) ->
  holds_samples (vat (gl_nodes gl L)) s L nside f (synth L spin c) -> 0 <= iter ->
  exists flm, pre_forward_iter gl f L spin kernel (scheme_name s) reality method o iter = Ok flm /\ holds_coefficients L flm (restricted 0 spin c).
Proof.
  intros S Hs Hg Hm Ha HK HK' Hr HF Hi. assert (HL : 1 <= L) by apply S.
  destruct (C38_spherical_exact gl s f c L spin 0 nside o reality iter S Hs ltac:(lia) Hg Ha Hi) as (y0 & E0 & S0 & H0); auto.
  { intros Q1 Q2. now apply Hr. }
  destruct (C61_agrees gl method b s f L spin kernel nside o reality iter) as (y & y1 & Ey & Ey1 & A); auto using small_away, small_forward.
  - intros E. destruct (Hg E) as (H1 & H2 & _). auto.
  - congruence.
  - split; [apply HF|]. intros Q1 Q2. now apply Hr.
  - rewrite E0 in Ey1. injection Ey1 as <-. exists y. split; [exact Ey|]. split; [rewrite (proj1 A); exact S0|]. intros el m Hel Hm'.
    rewrite <- H0 by auto. unfold stored. apply A. rewrite (proj1 A), S0. cbn [in_shape]. lia.
Qed.
Print Assumptions C61_exact.

(** NumPy has kernels exact at the colatitudes for every spin, JAX above spin six. *)
Example C61_ex : setting "healpix" HEALPIX 9 2 (Some 2) /\ small_grid (fun _ => 0%R) HEALPIX 9 2 /\ runs_on "numpy" numpy /\ runs_on "torch" jax /\
  2 * 2 <= 9 /\ recursion_ok numpy "auto" 9 2 (rings_away (fun _ => 0%R) HEALPIX 9 2) /\ recursion_ok jax "auto" 9 (-7) False /\
  kernel_given gl2 numpy 9 2 false "healpix" (Some 2) true (forward_rings_away (vat (gl_nodes gl2 9)) HEALPIX 9 2) None /\
  coefficients_of 9 2 true (mkArr [9; 17] (fun ix => (RtoC (IZR (nth 0 ix 0%Z)) + Ci)%C)).
Proof.
  split; [repeat split; auto; lia|]. split; [cbn; lia|]. split; [left; auto|]. split; [right; auto|]. split; [lia|]. split.
  { right. right. repeat split; auto; [lia|]. apply small_away. cbn. lia. }
  split; [right; left; split; [reflexivity|lia]|]. split.
  { left. split; auto. right. right. repeat split; auto; [lia|]. apply small_forward. cbn. lia. }
  split; [reflexivity|]. intros _ Q. discriminate.
Qed.

(** In JAX up to spin six the kernels come from the recursion of Price and McEwen, at angles at which it
    is regular. The error is then given by the transforms F and B at these angles ... *)
Theorem C61_pm_error gl s L spin nside reality flm iter th o beta beta' method kernel :
  2 <= L -> Z.abs spin < L -> (s = HEALPIX -> 2 <= nside /\ 2 * nside <= L) -> rule_sizes s L (gl_nodes gl L) (gl_weights gl L) ->
  otf_coefficients L spin (reality && (spin =? 0)) flm -> 0 <= iter -> (s = HEALPIX -> o = Some nside) ->
  th L (scheme_name s) o = Ok beta -> vlen beta = rings s L nside ->
  (forall t, 0 <= t < rings s L nside -> usable_ring s (rings s L nside) L 0 spin (vat beta) t) ->
  fwd_angles th s L o = Ok beta' -> vlen beta' = rings (forward_scheme s) (forward_band s L) nside ->
  (forall t, 0 <= t < vlen beta' -> usable_ring (forward_scheme s) (vlen beta') L 0 spin (vat beta') t) ->
  runs_on method jax -> pm_kernel_given th gl jax L spin reality (scheme_name s) o true kernel ->
  let F := fun g => pre_forward_at th gl g L spin kernel (scheme_name s) reality method o in
  let B := fun y => pre_inverse_at th gl y L spin None (scheme_name s) reality method o in
  exists f y e, B flm = Ok f /\ pre_forward_iter_at th gl f L spin kernel (scheme_name s) reality method o iter = Ok y /\
    difference flm y e /\ defect F B (S (Z.to_nat iter)) flm e.
Proof.
  intros HL Hs Hn Hg HQ. intros. apply (pm_iter_error gl s L spin nside reality HL Hs Hn Hg flm iter th o beta beta' method kernel); auto.
  replace (eff reality spin) with (reality && (spin =? 0)); [exact HQ|]. unfold eff. now destruct reality, (spin =? 0).
Qed.
Print Assumptions C61_pm_error.

(** ... and the result tends to that of the refined reference transform as the angles tend to the
    colatitudes, for each number of iterations. *)
Theorem C61_pm_reference gl f L spin s nside reality iter eps :
  2 <= L -> Z.abs spin < L -> (s = HEALPIX -> 2 <= nside /\ 2 * nside <= L) -> rule_sizes s L (gl_nodes gl L) (gl_weights gl L) ->
  rings_away (vat (gl_nodes gl L)) s L nside -> forward_rings_away (vat (gl_nodes gl L)) s L nside ->
  maps_of (vat (gl_nodes gl L)) s L nside spin reality f -> 0 <= iter -> (0 < eps)%R ->
  exists flm0 delta, forward_iter gl f L spin (scheme_name s) (Some nside) reality 0 iter = Ok flm0 /\ (0 < delta)%R /\
    forall th o beta beta' method kernel, (s = HEALPIX -> o = Some nside) ->
    th L (scheme_name s) o = Ok beta -> angles_near delta (vat (gl_nodes gl L)) s L nside beta ->
    (forall t, 0 <= t < rings s L nside -> usable_ring s (rings s L nside) L 0 spin (vat beta) t) ->
    fwd_angles th s L o = Ok beta' -> forward_angles_near delta (vat (gl_nodes gl L)) s L nside beta' ->
    (forall t, 0 <= t < vlen beta' -> usable_ring (forward_scheme s) (vlen beta') L 0 spin (vat beta') t) ->
    runs_on method jax -> pm_kernel_given th gl jax L spin reality (scheme_name s) o true kernel ->
    exists flm, pre_forward_iter_at th gl f L spin kernel (scheme_name s) reality method o iter = Ok flm /\ arrays_near eps flm flm0.
Proof. intros. now apply (pm_iter_near gl s L spin nside reality). Qed.
Print Assumptions C61_pm_reference.

(** On the exact schemes it therefore recovers the coefficients up to eps. *)
Theorem C61_pm_recover gl f c L spin s nside reality iter eps :
  2 <= L -> Z.abs spin < L -> s <> HEALPIX -> (s = GL -> gauss_legendre L (gl_nodes gl L) (gl_weights gl L)) -> small_grid (vat (gl_nodes gl L)) s L nside ->
  (reality = true -> spin = 0 -> hermitian L c /\ real_map (vat (gl_nodes gl L)) s L nside spin f) ->
  holds_samples (vat (gl_nodes gl L)) s L nside f (synth L spin c) -> 0 <= iter -> (0 < eps)%R ->
  exists delta, (0 < delta)%R /\ forall th o beta beta' method kernel,
    th L (scheme_name s) o = Ok beta -> angles_near delta (vat (gl_nodes gl L)) s L nside beta ->
    (forall t, 0 <= t < rings s L nside -> usable_ring s (rings s L nside) L 0 spin (vat beta) t) ->
    fwd_angles th s L o = Ok beta' -> forward_angles_near delta (vat (gl_nodes gl L)) s L nside beta' ->
    (forall t, 0 <= t < vlen beta' -> usable_ring (forward_scheme s) (vlen beta') L 0 spin (vat beta') t) ->
    runs_on method jax -> pm_kernel_given th gl jax L spin reality (scheme_name s) o true kernel ->
    exists flm, pre_forward_iter_at th gl f L spin kernel (scheme_name s) reality method o iter = Ok flm /\
      coefficients_near eps L flm (restricted 0 spin c).
Proof.
  intros HL Hs Hh Hg Ha Hr HF Hi He.
  assert (Hg' : rule_sizes s L (gl_nodes gl L) (gl_weights gl L)) by (intros E; destruct (Hg E) as (H1 & H2 & _); auto).
  assert (S : setting (scheme_name s) s L nside (Some nside)) by (split; [apply denotes_name|]; split; [lia|]; congruence).
  destruct (C61_pm_reference gl f L spin s nside reality iter eps) as (y0 & d & E0 & D & H); auto using small_away, small_forward; try congruence.
  { split; [apply HF|]. intros Q1 Q2. now apply Hr. }
  destruct (C38_spherical_exact gl s f c L spin 0 nside (Some nside) reality iter S Hh ltac:(lia) Hg Ha Hi) as (y1 & E1 & S1 & H1); auto.
  { intros Q1 Q2. now apply Hr. }
  rewrite E0 in E1. injection E1 as <-. exists d. split; [exact D|]. intros th o beta beta' method kernel X1 X2 X3 X4 X5 X6 X7 X8.
  destruct (H th o beta beta' method kernel) as (y & Ey & Sy & Ny); auto; try congruence. exists y. split; [exact Ey|]. split; [congruence|].
  intros el m Hel Hm. rewrite <- H1 by auto. apply Ny. rewrite Sy, S1. cbn [in_shape]. lia.
Qed.
Print Assumptions C61_pm_recover.

(** ** C38: the refined on-the-fly transform *)
Theorem C38_otf_reference gl f L spin s nside reality Lo iter eps :
  2 <= L -> 0 <= Lo <= L - 2 -> Z.abs spin < L -> spin < 8 -> (s = HEALPIX -> 1 <= nside /\ 2 * nside <= L) ->
  rule_sizes s L (gl_nodes gl L) (gl_weights gl L) -> rings_away (vat (gl_nodes gl L)) s L nside -> forward_rings_away (vat (gl_nodes gl L)) s L nside ->
  (reality = true -> spin = 0) -> maps_of (vat (gl_nodes gl L)) s L nside spin reality f -> 0 <= iter -> (0 < eps)%R ->
  exists flm0 delta, forward_iter gl f L spin (scheme_name s) (Some nside) reality Lo iter = Ok flm0 /\ (0 < delta)%R /\
    forall th o beta beta' method p, (s = HEALPIX -> o = Some nside) -> (s = HEALPIX -> method <> "numpy" -> 2 <= nside) ->
    th L (scheme_name s) o = Ok beta -> angles_near delta (vat (gl_nodes gl L)) s L nside beta ->
    (forall t, 0 <= t < rings s L nside -> usable_ring s (rings s L nside) L Lo spin (vat beta) t) ->
    fwd_angles th s L o = Ok beta' -> forward_angles_near delta (vat (gl_nodes gl L)) s L nside beta' ->
    (forall t, 0 <= t < vlen beta' -> usable_ring (forward_scheme s) (vlen beta') L Lo spin (vat beta') t) ->
    python_method method s -> method_precomps method th L spin s o true Lo (inner_angles (forward_scheme s) beta') p ->
    exists flm, otf_forward gl th f L spin o (scheme_name s) method reality p Lo (Some iter) = Ok flm /\ arrays_near eps flm flm0.
Proof. intros. now apply otf_iter_near. Qed.
Print Assumptions C38_otf_reference.

Theorem C38_otf_recover gl f c L spin s nside reality Lo iter eps :
  2 <= L -> 0 <= Lo <= L - 2 -> Z.abs spin < L -> spin < 8 -> s <> HEALPIX -> (s = GL -> gauss_legendre L (gl_nodes gl L) (gl_weights gl L)) ->
  small_grid (vat (gl_nodes gl L)) s L nside ->
  (reality = true -> spin = 0 /\ hermitian L c /\ real_map (vat (gl_nodes gl L)) s L nside spin f) ->
  holds_samples (vat (gl_nodes gl L)) s L nside f (synth L spin c) -> 0 <= iter -> (0 < eps)%R ->
  exists delta, (0 < delta)%R /\ forall th o beta beta' method p,
    th L (scheme_name s) o = Ok beta -> angles_near delta (vat (gl_nodes gl L)) s L nside beta ->
    (forall t, 0 <= t < rings s L nside -> usable_ring s (rings s L nside) L Lo spin (vat beta) t) ->
    fwd_angles th s L o = Ok beta' -> forward_angles_near delta (vat (gl_nodes gl L)) s L nside beta' ->
    (forall t, 0 <= t < vlen beta' -> usable_ring (forward_scheme s) (vlen beta') L Lo spin (vat beta') t) ->
    python_method method s -> method_precomps method th L spin s o true Lo (inner_angles (forward_scheme s) beta') p ->
    exists flm, otf_forward gl th f L spin o (scheme_name s) method reality p Lo (Some iter) = Ok flm /\
      coefficients_near eps L flm (restricted Lo spin c).
Proof.
  intros HL HLo Hs H8 Hh Hg Ha Hr HF Hi He.
  assert (Hg' : rule_sizes s L (gl_nodes gl L) (gl_weights gl L)) by (intros E; destruct (Hg E) as (H1 & H2 & _); auto).
  assert (S : setting (scheme_name s) s L nside (Some nside)) by (split; [apply denotes_name|]; split; [lia|]; congruence).
  destruct (C38_otf_reference gl f L spin s nside reality Lo iter eps) as (y0 & d & E0 & D & H); auto using small_away, small_forward; try congruence.
  { intros Q. now apply Hr. }
  { split; [apply HF|]. intros Q1 Q2. now apply Hr. }
  destruct (C38_spherical_exact gl s f c L spin Lo nside (Some nside) reality iter S Hh ltac:(lia) Hg Ha Hi) as (y1 & E1 & S1 & H1); auto.
  { intros Q1 Q2. now apply Hr. }
  rewrite E0 in E1. injection E1 as <-. exists d. split; [exact D|]. intros th o beta beta' method p X1 X2 X3 X4 X5 X6 X7 X8.
  destruct (H th o beta beta' method p) as (y & Ey & Sy & Ny); auto; try congruence. exists y. split; [exact Ey|]. split; [congruence|].
  intros el m Hel Hm. rewrite <- H1 by auto. apply Ny. rewrite Sy, S1. cbn [in_shape]. lia.
Qed.
Print Assumptions C38_otf_recover.

(** Angles and arrays as the last theorems need them: healpix with nside 2, L = 4, spin 2 and mw with
    L = 4 and the reality flag; the angles exist for every delta. *)
Example C61_pm_ex : forall delta, (0 < delta)%R -> exists (th : theta_fn) beta beta',
  small_grid (vat (gl_nodes gl2 4)) HEALPIX 4 2 /\ 2 * 2 <= 4 /\ rule_sizes HEALPIX 4 (gl_nodes gl2 4) (gl_weights gl2 4) /\
  th 4 "healpix" (Some 2) = Ok beta /\ angles_near delta (vat (gl_nodes gl2 4)) HEALPIX 4 2 beta /\
  (forall t, 0 <= t < rings HEALPIX 4 2 -> usable_ring HEALPIX (rings HEALPIX 4 2) 4 0 2 (vat beta) t) /\
  fwd_angles th HEALPIX 4 (Some 2) = Ok beta' /\ forward_angles_near delta (vat (gl_nodes gl2 4)) HEALPIX 4 2 beta' /\
  (forall t, 0 <= t < vlen beta' -> usable_ring HEALPIX (vlen beta') 4 0 2 (vat beta') t) /\
  runs_on "jax" jax /\ pm_kernel_given th gl2 jax 4 2 true "healpix" (Some 2) true None /\
  method_precomps "jax" th 4 2 HEALPIX (Some 2) true 0 (inner_angles HEALPIX beta') None /\
  maps_of (vat (gl_nodes gl2 4)) HEALPIX 4 2 2 true (mkArr [48] (fun ix => (RtoC (IZR (nth 0 ix 0%Z)) + Ci)%C)) /\
  otf_coefficients 4 2 false (mkArr [4; 7] (fun ix => if nth 0 ix 0 <? 2 then RtoC 0 else (RtoC (IZR (nth 1 ix 0%Z)) + Ci)%C)).
Proof.
  intros delta Hd. destruct (C46_angles gl2 HEALPIX 4 2 0 2 delta) as (th & b & b' & HH); [lia|lia|lia|exact Hd|].
  destruct (HH (Some 2)) as (E & A & U & E' & A' & U' & HP). exists th, b, b'.
  split; [cbn; lia|]. split; [lia|]. split; [intros Q; discriminate|]. split; [exact E|]. split; [exact A|]. split; [exact U|]. split; [exact E'|]. split; [exact A'|]. split; [exact U'|].
  split; [right; auto|]. split; [split; [lia|left; auto]|]. split; [apply HP|]. split; [split; [reflexivity|intros _ Q; discriminate]|].
  split; [reflexivity|]. split; [|discriminate]. intros el m Hel _ _. cbn [get nth]. destruct (Z.ltb_spec el 2); [reflexivity|]. cbn in Hel. lia.
Qed.
