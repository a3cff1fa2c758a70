(** Properties of the transforms with a precomputed kernel, s2fft/precompute_transforms. *)
From Coq Require Import Reals Lra.
From Coquelicot Require Import Complex.
From Verif Require Import Lib.Py Lib.Vec Lib.Sums Lib.Cplx Lib.Arr Model.Grids Model.Resampling Model.Quadrature Model.Spherical Model.PriceMcEwen Model.Precompute
  Spec.SamplesSpec Spec.WignerSpec Spec.SphereSpec Spec.GridSpec Spec.HealpixFFTSpec Spec.QuadSpec Spec.SphericalSpec
  Spec.PrecomputeSpec Proofs.SphFacts Proofs.SphAngles Proofs.PrecomputeTop Properties.QuadProps Properties.SphericalProps.
Open Scope string_scope.
Open Scope Z_scope.

(** ** C36 *)
(** The inverse kernel tabulates normalised Wigner d-functions at the colatitudes of the scheme (and
    the longitude offset of the HEALPix rings). *)
Theorem C36_kernel gl b name s L nside o reality spin recursion : setting name s L nside o -> (s = GL -> vlen (gl_nodes gl L) = L) ->
  recursion_ok b recursion L spin (rings_away (vat (gl_nodes gl L)) s L nside) ->
  exists K, kernel_function b gl L spin reality name o false recursion = Ok K /\
    shape K = [rings s L nside; L; if reality && (spin =? 0) then L else 2 * L - 1] /\
    forall t el m x, 0 <= t < rings s L nside -> 0 <= el < L -> (if reality && (spin =? 0) then 0 else - (L - 1)) <= m < L ->
      colatitude (vat (gl_nodes gl L)) s L nside t x ->
      get K [t; el; if reality && (spin =? 0) then m else m + L - 1] =
      (RtoC (sqrt ((2 * IZR el + 1) / (4 * PI)) * wigner_d el m (- spin) x) *
       (match s with HEALPIX => cis (IZR m * hp_longitude nside t 0) | _ => RtoC 1 end))%C.
Proof. apply inverse_kernel. Qed.
Print Assumptions C36_kernel.
Example C36_kernel_ex : setting "healpix" HEALPIX 4 2 (Some 2) /\
  recursion_ok jax "risbo" 4 2 False /\ recursion_ok numpy "auto" 4 2 (rings_away (fun _ => 0%R) HEALPIX 4 2) /\ recursion_ok jax "auto" 9 (-7) False.
Proof.
  split; [repeat split; auto; lia|]. split; [left; split; [reflexivity|lia]|]. split.
  - right. right. repeat split; auto; [lia|]. apply small_away. cbn. lia.
  - right. left. split; [reflexivity|lia].
Qed.

(** The inverse with a kernel synthesises the spin spherical harmonics. *)
Theorem C36_inverse gl method b s flm L spin kernel nside o reality :
  setting (scheme_name s) s L nside o -> shape flm = [L; 2 * L - 1] -> (s = GL -> vlen (gl_nodes gl L) = L) ->
  (s = HEALPIX -> 2 * nside <= L) -> runs_on method b ->
  kernel_given gl b L spin reality (scheme_name s) o false (rings_away (vat (gl_nodes gl L)) s L nside) kernel ->
  (reality = true -> spin = 0 -> forall el, 0 <= el < L -> is_real (stored L flm el 0)) ->
  exists f, pre_inverse gl flm L spin kernel (scheme_name s) reality method o = Ok f /\
    holds_samples (vat (gl_nodes gl L)) s L nside f (synth L spin (used_coefficients reality spin 0 (stored L flm))).
Proof. apply pre_inverse_lemma. Qed.
Print Assumptions C36_inverse.

(** It returns the array the reference transform returns, whatever the method of either. *)
Theorem C36_inverse_agrees gl method b s flm L spin kernel nside o reality name' method' o' :
  setting (scheme_name s) s L nside o -> setting name' s L nside o' -> shape flm = [L; 2 * L - 1] -> (s = GL -> vlen (gl_nodes gl L) = L) ->
  (s = HEALPIX -> 2 * nside <= L) -> runs_on method b ->
  kernel_given gl b L spin reality (scheme_name s) o false (rings_away (vat (gl_nodes gl L)) s L nside) kernel ->
  rings_away (vat (gl_nodes gl L)) s L nside -> method_allowed name' method' s L nside spin reality flm ->
  (reality = true -> spin = 0 -> forall el, 0 <= el < L -> is_real (stored L flm el 0)) ->
  same_ok (pre_inverse gl flm L spin kernel (scheme_name s) reality method o) (inverse_ gl flm L spin name' method' o' reality 0).
Proof. apply pre_inverse_same. Qed.
Print Assumptions C36_inverse_agrees.
Example C36_inverse_ex : setting "mwss" MWSS 4 0 None /\ shape flm4 = [4; 2 * 4 - 1] /\ runs_on "numpy" numpy /\ runs_on "torch" jax /\
  kernel_given gl2 numpy 4 0 true "mwss" None false (rings_away (vat (gl_nodes gl2 4)) MWSS 4 0) None /\
  rings_away (vat (gl_nodes gl2 4)) MWSS 4 0 /\ method_allowed "mwss" "sov_fft" MWSS 4 0 0 true flm4 /\
  (forall el, 0 <= el < 4 -> is_real (stored 4 flm4 el 0)).
Proof.
  assert (A : rings_away (vat (gl_nodes gl2 4)) MWSS 4 0) by (apply small_away; cbn; lia).
  split; [repeat split; try lia; discriminate|]. split; [reflexivity|]. split; [left; auto|]. split; [right; auto|].
  split; [left; split; auto; right; right; repeat split; auto; lia|]. split; [exact A|].
  split; [|intros; apply flm4_real]. right. split; [left; reflexivity|]. split; [reflexivity|]. split; [discriminate|]. intros. apply flm4_real.
Qed.
(** a kernel can be handed over as well *)
Example C36_given_ex : exists K, kernel_given gl2 numpy 4 2 false "mwss" None false (rings_away (vat (gl_nodes gl2 4)) MWSS 4 0) (Some K).
Proof.
  destruct (C36_kernel gl2 jax "mwss" MWSS 4 0 None false 2 "risbo") as (K & E & _).
  - repeat split; try lia; discriminate.
  - discriminate.
  - left. split; [reflexivity|lia].
  - exists K. right. exists jax, "risbo", K. split; [reflexivity|]. split; [left; split; [reflexivity|lia]|exact E].
Qed.

(** The forward transform with a kernel returns the coefficients the reference returns. *)
Theorem C36_forward_agrees gl method b s f L spin kernel nside o reality name' method' o' :
  setting (scheme_name s) s L nside o -> setting name' s L nside o' -> shape f = map_shape s L nside -> rule_sizes s L (gl_nodes gl L) (gl_weights gl L) ->
  (s = HEALPIX -> 2 * nside <= L /\ (b = jax -> 2 <= nside)) -> runs_on method b ->
  kernel_given gl b L spin reality (scheme_name s) o true (forward_rings_away (vat (gl_nodes gl L)) s L nside) kernel ->
  forward_rings_away (vat (gl_nodes gl L)) s L nside -> forward_allowed name' method' s L nside ->
  (reality = true -> spin = 0 -> real_map (vat (gl_nodes gl L)) s L nside spin f) ->
  same_ok (pre_forward gl f L spin kernel (scheme_name s) reality method o) (forward_ gl f L spin name' method' o' reality 0).
Proof. apply pre_forward_same. Qed.
Print Assumptions C36_forward_agrees.
Example C36_forward_ex : setting "dh" DH 9 0 None /\ runs_on "jax" jax /\ forward_allowed "dh" "direct" DH 9 0 /\
  kernel_given gl2 jax 9 7 false "dh" None true (forward_rings_away (vat (gl_nodes gl2 9)) DH 9 0) None /\
  forward_rings_away (vat (gl_nodes gl2 9)) DH 9 0.
Proof.
  split; [repeat split; try lia; discriminate|]. split; [right; auto|]. split; [left; left; reflexivity|].
  split; [left; split; auto; right; left; split; [reflexivity|lia]|]. apply small_forward. cbn. lia.
Qed.

(** Transforming there and back returns the coefficients of degrees at least |spin|. *)
Theorem C36_roundtrip gl minv mfwd b b' s flm L spin kinv kfwd nside o reality :
  setting (scheme_name s) s L nside o -> s <> HEALPIX -> shape flm = [L; 2 * L - 1] ->
  rule_sizes s L (gl_nodes gl L) (gl_weights gl L) -> (s = GL -> gauss_legendre L (gl_nodes gl L) (gl_weights gl L)) ->
  forward_rings_away (vat (gl_nodes gl L)) s L nside -> runs_on minv b -> runs_on mfwd b' ->
  kernel_given gl b L spin reality (scheme_name s) o false (rings_away (vat (gl_nodes gl L)) s L nside) kinv ->
  kernel_given gl b' L spin reality (scheme_name s) o true (forward_rings_away (vat (gl_nodes gl L)) s L nside) kfwd ->
  (reality = true -> spin = 0 -> hermitian L (stored L flm)) ->
  exists f flm', pre_inverse gl flm L spin kinv (scheme_name s) reality minv o = Ok f /\
    pre_forward gl f L spin kfwd (scheme_name s) reality mfwd o = Ok flm' /\
    holds_coefficients L flm' (restricted 0 spin (stored L flm)).
Proof. apply pre_roundtrip. Qed.
Print Assumptions C36_roundtrip.
Example C36_roundtrip_ex : setting "gl" GL 2 0 None /\ rule_sizes GL 2 (gl_nodes gl2 2) (gl_weights gl2 2) /\
  gauss_legendre 2 (gl_nodes gl2 2) (gl_weights gl2 2) /\ forward_rings_away (vat (gl_nodes gl2 2)) GL 2 0.
Proof.
  split; [repeat split; try lia; discriminate|]. split; [intros _; split; reflexivity|]. split; [exact gl2_exact|].
  apply small_forward. exact (proj1 C23_small_ex).
Qed.

(** Unknown methods and the unstable recursion are rejected with ValueError. *)
Theorem C36_rejects gl a L spin kernel name reality method o forward recursion b :
  (method <> "numpy" -> method <> "jax" -> method <> "torch" ->
   pre_inverse gl a L spin kernel name reality method o = Err ValueError /\ pre_forward gl a L spin kernel name reality method o = Err ValueError) /\
  (lower recursion = "price-mcewen" -> 6 < Z.abs spin ->
   kernel_function b gl L spin reality name o forward recursion = Err ValueError).
Proof. split; [apply pre_unknown|apply kernel_rejects]. Qed.
Print Assumptions C36_rejects.
Example C36_rejects_ex : "cuda" <> "numpy" /\ "cuda" <> "jax" /\ "cuda" <> "torch" /\ lower "Price-McEwen" = "price-mcewen" /\ 6 < Z.abs (-7).
Proof. repeat split; try discriminate; lia. Qed.

(** A spin of at least the band-limit: the column of the d-matrix wraps around, so the kernel has a
    non-zero entry at a degree below |spin|, where the spin harmonics vanish. *)
Theorem C36_spin_wrap_refuted gl : vlen (gl_nodes gl 1) = 1 -> exists K el spin,
  spin_spherical_kernel gl 1 spin false "gl" None false "risbo" = Ok K /\ 0 <= el < Z.abs spin /\ get K [0; el; 0] <> RtoC 0.
Proof. intros H. destruct (spin_wraps gl H) as (K & E & N). exists K, 0, 1. split; [exact E|]. split; [lia|exact N]. Qed.
Print Assumptions C36_spin_wrap_refuted.

(** The JAX forward transform rejects HEALPix maps of nside 1, which the NumPy one accepts. *)
Theorem C36_jax_nside1_refuted : exists gl f L K, shape f = map_shape HEALPIX L 1 /\ 2 * 1 <= L /\
  pre_forward gl f L 0 (Some K) "healpix" false "jax" (Some 1) = Err ValueError /\
  exists flm, pre_forward gl f L 0 (Some K) "healpix" false "numpy" (Some 1) = Ok flm.
Proof.
  set (f := mkArr [12] (fun _ => RtoC 1)).
  destruct (pre_forward_same gl2 "numpy" numpy HEALPIX f 2 0 None 1 (Some 1) false "healpix" "direct" (Some 1)) as (a & a' & E & _).
  - repeat split; auto; lia.
  - repeat split; auto; lia.
  - reflexivity.
  - discriminate.
  - split; [lia|discriminate].
  - left; auto.
  - left. split; [reflexivity|]. right. right. repeat split; auto; [lia|]. apply small_forward. cbn. lia.
  - apply small_forward. cbn. lia.
  - left. left. reflexivity.
  - discriminate.
  - unfold pre_forward, pre_forward_at in E.  change (method_backend "numpy") with (Ok numpy) in E. cbn [bind] in E. cbv zeta in E.
    change (scheme_name HEALPIX) with "healpix" in E. change (if false && negb (0 =? 0) then false else false) with false in E.
    destruct (kernel_function_at numpy (exact_thetas gl2) gl2 2 0 false "healpix" (Some 1) true "auto") as [K|] eqn:EK; [|discriminate].
    exists gl2, f, 2, K. split; [reflexivity|]. split; [lia|]. split; [apply jax_nside1|]. exists a. exact E.
Qed.
Print Assumptions C36_jax_nside1_refuted.
