(** Properties of the transforms with a precomputed kernel of the recursion of Price and McEwen in JAX,
    the default there for spins up to six. As for the on-the-fly transforms, the recursion divides by
    sines and by entries of the slice, so the theorems speak of angles at which it is regular and which
    are close to the colatitudes; such angles exist arbitrarily close (C46_angles). *)
From Coq Require Import Reals Lra.
From Coquelicot Require Import Complex.
From Verif Require Import Lib.Py Lib.Vec Lib.Sums Lib.Cplx Lib.Arr Model.Grids Model.Resampling Model.Quadrature Model.Spherical Model.PriceMcEwen Model.Precompute
  Spec.SamplesSpec Spec.WignerSpec Spec.SphereSpec Spec.GridSpec Spec.HealpixFFTSpec Spec.QuadSpec Spec.SphericalSpec Spec.OTFSpec Spec.OTFSphericalSpec
  Spec.PrecomputeSpec Proofs.SphFacts Proofs.SphAngles Proofs.PrecomputeTop Proofs.OTFSphForward Proofs.OTFSphNear Proofs.PMTop
  Properties.QuadProps Properties.SphericalProps Properties.OTFSphericalProps
  Spec.CallSpec.
Open Scope string_scope.
Open Scope Z_scope.

(** ** C36 *)
(** The inverse kernel tabulates the normalised Wigner d-functions at the angles it is given (at the
    poles themselves on polar rings). *)
Theorem C36_pm_kernel th gl s L nside o reality spin recursion beta : setting (scheme_name s) s L nside o -> 2 <= L -> Z.abs spin < L -> Z.abs spin <= 6 ->
  (lower recursion = "auto" \/ lower recursion = "price-mcewen") ->
  th L (scheme_name s) o = Ok beta -> vlen beta = rings s L nside ->
  (forall t, 0 <= t < rings s L nside -> usable_ring s (rings s L nside) L 0 spin (vat beta) t) ->
  exists K, spin_spherical_kernel_jax_at th gl L spin reality (scheme_name s) o false recursion = Ok K /\
    shape K = [rings s L nside; L; if reality && (spin =? 0) then L else 2 * L - 1] /\
    forall t el m, 0 <= t < rings s L nside -> 0 <= el < L -> (if reality && (spin =? 0) then 0 else - (L - 1)) <= m < L ->
      get K [t; el; if reality && (spin =? 0) then m else m + L - 1] =
      (RtoC (sqrt ((2 * IZR el + 1) / (4 * PI)) * wigner_d el m (- spin) (ring_angle s (rings s L nside) (vat beta) t)) *
       (match s with HEALPIX => cis (IZR m * hp_longitude nside t 0) | _ => RtoC 1 end))%C.
Proof. apply pm_inverse_kernel. Qed.
Print Assumptions C36_pm_kernel.

(** The inverse with such a kernel synthesises the spin spherical harmonics at these angles. *)
Theorem C36_pm_inverse th gl method b s flm L spin kernel nside o reality beta :
  setting (scheme_name s) s L nside o -> 2 <= L -> Z.abs spin < L -> shape flm = [L; 2 * L - 1] -> (s = HEALPIX -> 2 * nside <= L) -> runs_on method b ->
  pm_kernel_given th gl b L spin reality (scheme_name s) o false kernel ->
  (reality = true -> spin = 0 -> forall el, 0 <= el < L -> is_real (stored L flm el 0)) ->
  th L (scheme_name s) o = Ok beta -> vlen beta = rings s L nside ->
  (forall t, 0 <= t < rings s L nside -> usable_ring s (rings s L nside) L 0 spin (vat beta) t) ->
  exists f, pre_inverse_at th gl flm L spin kernel (scheme_name s) reality method o = Ok f /\
    samples_at (ring_angle s (rings s L nside) (vat beta)) s L nside f (synth L spin (used_coefficients reality spin 0 (stored L flm))).
Proof. apply pm_inverse_lemma. Qed.
Print Assumptions C36_pm_inverse.

(** At angles close enough to the colatitudes it returns the array of the reference transform up to eps. *)
Theorem C36_pm_inverse_agrees gl flm L spin s nside reality eps rmethod :
  2 <= L -> Z.abs spin < L -> (s = HEALPIX -> 1 <= nside /\ 2 * nside <= L) ->
  rule_sizes s L (gl_nodes gl L) (gl_weights gl L) -> rings_away (vat (gl_nodes gl L)) s L nside ->
  shape flm = [L; 2 * L - 1] ->
  (reality = true -> spin = 0 -> forall el, 0 <= el < L -> is_real (stored L flm el 0)) -> sum_method rmethod \/ fft_method rmethod -> (0 < eps)%R ->
  exists f0 delta, inverse_ gl flm L spin (scheme_name s) rmethod (Some nside) reality 0 = Ok f0 /\ (0 < delta)%R /\
    forall th o beta method b kernel, (s = HEALPIX -> o = Some nside) ->
    th L (scheme_name s) o = Ok beta -> angles_near delta (vat (gl_nodes gl L)) s L nside beta ->
    (forall t, 0 <= t < rings s L nside -> usable_ring s (rings s L nside) L 0 spin (vat beta) t) ->
    runs_on method b -> pm_kernel_given th gl b L spin reality (scheme_name s) o false kernel ->
    exists f, pre_inverse_at th gl flm L spin kernel (scheme_name s) reality method o = Ok f /\ arrays_near eps f f0.
Proof. apply pm_reference_inverse. Qed.
Print Assumptions C36_pm_inverse_agrees.

(** So does the forward transform. *)
Theorem C36_pm_forward_agrees gl f L spin s nside reality eps rmethod :
  2 <= L -> Z.abs spin < L -> (s = HEALPIX -> 1 <= nside /\ 2 * nside <= L) ->
  rule_sizes s L (gl_nodes gl L) (gl_weights gl L) -> forward_rings_away (vat (gl_nodes gl L)) s L nside ->
  shape f = map_shape s L nside -> (reality = true -> spin = 0 -> real_map (vat (gl_nodes gl L)) s L nside spin f) ->
  sum_method rmethod \/ fft_method rmethod -> (0 < eps)%R ->
  exists flm0 delta, forward_ gl f L spin (scheme_name s) rmethod (Some nside) reality 0 = Ok flm0 /\ (0 < delta)%R /\
    forall th o beta method b kernel, (s = HEALPIX -> o = Some nside /\ (b = jax -> 2 <= nside)) ->
    fwd_angles th s L o = Ok beta -> forward_angles_near delta (vat (gl_nodes gl L)) s L nside beta ->
    (forall t, 0 <= t < vlen beta -> usable_ring (forward_scheme s) (vlen beta) L 0 spin (vat beta) t) ->
    runs_on method b -> pm_kernel_given th gl b L spin reality (scheme_name s) o true kernel ->
    exists flm, pre_forward_at th gl f L spin kernel (scheme_name s) reality method o = Ok flm /\ arrays_near eps flm flm0.
Proof. apply pm_reference_forward. Qed.
Print Assumptions C36_pm_forward_agrees.

(** The forward transform inverts the inverse transform up to eps. *)
Theorem C36_pm_roundtrip gl flm L spin s nside reality eps :
  2 <= L -> Z.abs spin < L -> s <> HEALPIX ->
  (s = GL -> gauss_legendre L (gl_nodes gl L) (gl_weights gl L)) ->
  shape flm = [L; 2 * L - 1] -> (reality = true -> spin = 0 -> hermitian L (stored L flm)) -> (0 < eps)%R ->
  exists delta, (0 < delta)%R /\ forall th o beta beta' minv mfwd b b' kinv kfwd,
    th L (scheme_name s) o = Ok beta -> angles_near delta (vat (gl_nodes gl L)) s L nside beta ->
    (forall t, 0 <= t < rings s L nside -> usable_ring s (rings s L nside) L 0 spin (vat beta) t) ->
    fwd_angles th s L o = Ok beta' -> forward_angles_near delta (vat (gl_nodes gl L)) s L nside beta' ->
    (forall t, 0 <= t < vlen beta' -> usable_ring (forward_scheme s) (vlen beta') L 0 spin (vat beta') t) ->
    runs_on minv b -> pm_kernel_given th gl b L spin reality (scheme_name s) o false kinv ->
    runs_on mfwd b' -> pm_kernel_given th gl b' L spin reality (scheme_name s) o true kfwd ->
    exists f flm', pre_inverse_at th gl flm L spin kinv (scheme_name s) reality minv o = Ok f /\
      pre_forward_at th gl f L spin kfwd (scheme_name s) reality mfwd o = Ok flm' /\
      coefficients_near eps L flm' (restricted 0 spin (stored L flm)).
Proof. apply pm_round_trip. Qed.
Print Assumptions C36_pm_roundtrip.

(** Angles, kernels and arrays as above exist: mw with L = 4 and spin 2, for every delta, without a
    kernel and with the kernels of either direction. *)
Example C36_pm_ex : forall delta, (0 < delta)%R -> exists (th : theta_fn) beta beta' Ki Kf,
  setting "mw" MW 4 0 None /\ shape flm4 = [4; 2 * 4 - 1] /\ rule_sizes MW 4 (gl_nodes gl2 4) (gl_weights gl2 4) /\
  rings_away (vat (gl_nodes gl2 4)) MW 4 0 /\ forward_rings_away (vat (gl_nodes gl2 4)) MW 4 0 /\
  th 4 "mw" None = Ok beta /\ angles_near delta (vat (gl_nodes gl2 4)) MW 4 0 beta /\
  (forall t, 0 <= t < rings MW 4 0 -> usable_ring MW (rings MW 4 0) 4 0 2 (vat beta) t) /\
  fwd_angles th MW 4 None = Ok beta' /\ forward_angles_near delta (vat (gl_nodes gl2 4)) MW 4 0 beta' /\
  (forall t, 0 <= t < vlen beta' -> usable_ring MWSS (vlen beta') 4 0 2 (vat beta') t) /\
  pm_kernel_given th gl2 jax 4 2 true "mw" None false None /\
  pm_kernel_given th gl2 numpy 4 2 true "mw" None false (Some Ki) /\ pm_kernel_given th gl2 numpy 4 2 true "mw" None true (Some Kf).
Proof.
  intros delta Hd. destruct (C46_angles gl2 MW 4 0 0 2 delta) as (th & b & b' & HH); [lia|discriminate|lia|exact Hd|].
  destruct (HH None) as (E & A & U & E' & A' & U' & _).
  assert (S : setting (scheme_name MW) MW 4 0 None) by (repeat split; try lia; discriminate).
  destruct (pm_kernel_ok th gl2 MW 4 0 None false false 2 "auto" b S ltac:(lia) ltac:(lia) ltac:(lia) ltac:(discriminate) ltac:(discriminate) ltac:(now left) E (proj1 A)) as (Ki & _ & EK & _).
  { intros t Ht. rewrite (proj1 A) in *. now apply U. }
  destruct (pm_kernel_ok th gl2 MW 4 0 None true false 2 "Price-McEwen" b' S ltac:(lia) ltac:(lia) ltac:(lia) ltac:(discriminate) ltac:(discriminate) ltac:(now right) E' (proj1 A') U') as (Kf & _ & EKf & _).
  exists th, b, b', Ki, Kf. split; [exact S|]. split; [reflexivity|]. split; [intros Q; discriminate|].
  split; [apply small_away; cbn; lia|]. split; [apply small_forward; cbn; lia|].
  split; [exact E|]. split; [exact A|]. split; [exact U|]. split; [exact E'|]. split; [exact A'|]. split; [exact U'|].
  split; [split; [lia|left; auto]|]. split; (split; [lia|right]).
  - exists "auto", Ki. split; [reflexivity|]. split; [now left|exact EK].
  - exists "Price-McEwen", Kf. split; [reflexivity|]. split; [now right|exact EKf].
Qed.
