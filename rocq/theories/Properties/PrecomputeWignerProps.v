(** C52, C53, C54: the Wigner transforms with a precomputed kernel, s2fft/precompute_transforms/wigner.py
    and wigner_kernel, wigner_kernel_jax of construct.py. *)
From Coq Require Import Reals Lra Lia ZifyBool.
From Coquelicot Require Import Complex.
From Verif Require Import Lib.Py Lib.Vec Lib.Sums Lib.Cplx Lib.Arr
  Spec.CallSpec.
From Verif Require Import Model.Grids Model.Resampling Model.Quadrature Model.Spherical Model.PriceMcEwen Model.Precompute Model.Wigner Model.PrecomputeWigner.
From Verif Require Import Spec.SamplesSpec Spec.WignerSpec Spec.SphereSpec Spec.GridSpec Spec.HealpixFFTSpec Spec.QuadSpec Spec.SphericalSpec Spec.OTFSphericalSpec Spec.SO3Spec Spec.OTFWignerSpec
  Spec.PrecomputeSpec Spec.PrecomputeWignerSpec.
From Verif Require Import Proofs.SphFacts Proofs.SphAngles Proofs.OTFSphNear Proofs.PrecomputeTop Proofs.PWInverse Proofs.PWForward Proofs.PWTop.
From Verif Require Import Properties.QuadProps Properties.SphericalProps Properties.WignerProps.
From Coq Require Import List.
Import ListNotations.
Open Scope string_scope.
Open Scope Z_scope.

(** ** C52: the kernels *)
(** The inverse kernel tabulates the normalised Wigner d-functions at the colatitudes of the scheme, with
    the longitude offset of the HEALPix rings, whatever the mode and the back end. *)
Theorem C52_inverse_kernel b gl name s L N nside o reality mode : setting name s L nside o -> 1 <= N <= L ->
  (s = GL -> vlen (gl_nodes gl L) = L) -> mode_ok mode s L ->
  exists K, wigner_kernel b gl L N reality name o false mode = Ok K /\
    shape K = [if reality then N else 2 * N - 1; rings s L nside; L; 2 * L - 1] /\
    forall n t el m x, (if reality then 0 else 1 - N) <= n < N -> 0 <= t < rings s L nside -> 0 <= el < L -> - L < m < L ->
      colatitude (vat (gl_nodes gl L)) s L nside t x ->
      get K [if reality then n else n + N - 1; t; el; m + L - 1] =
      (RtoC (wigner_d el m n x * (IZR (2 * el + 1) / (8 * PI ^ 2))) * (match s with HEALPIX => cis (IZR m * hp_longitude nside t 0) | _ => RtoC 1 end))%C.
Proof. apply inverse_wkernel. Qed.
Print Assumptions C52_inverse_kernel.
(** The forward kernel tabulates them at the rings the quadrature sums over, times the weights. *)
Theorem C52_forward_kernel b gl name s L N nside o reality mode : setting name s L nside o -> 1 <= N <= L ->
  rule_sizes s L (gl_nodes gl L) (gl_weights gl L) -> mode_ok mode s L ->
  exists K w, wigner_kernel b gl L N reality name o true mode = Ok K /\ quad_weights_transform gl L (scheme_name (forward_scheme s)) 0 o = Ok w /\
    shape K = [if reality then N else 2 * N - 1; rings (forward_scheme s) (forward_band s L) nside; L; 2 * L - 1] /\
    forall n t el m x, (if reality then 0 else 1 - N) <= n < N -> 0 <= t < rings (forward_scheme s) (forward_band s L) nside -> 0 <= el < L -> - L < m < L ->
      colatitude (vat (gl_nodes gl L)) (forward_scheme s) (forward_band s L) nside t x ->
      get K [if reality then n else n + N - 1; t; el; m + L - 1] =
      (RtoC (wigner_d el m n x * (vat w t * (2 * PI / IZR (2 * N - 1)))) * (match s with HEALPIX => cis (- (IZR m * hp_longitude nside t 0)) | _ => RtoC 1 end))%C.
Proof. apply forward_wkernel. Qed.
Print Assumptions C52_forward_kernel.
Example C52_kernel_ex : setting "MW" MW 5 0 None /\ mode_ok "fft" MW 5 /\ mode_ok "Direct" MW 5 /\ mode_ok "auto" MW 5 /\
  setting "healpix" HEALPIX 4 2 (Some 2) /\ mode_ok "auto" HEALPIX 4 /\ rule_sizes GL 2 (gl_nodes gl2 2) (gl_weights gl2 2) /\ mode_ok "direct" GL 2.
Proof.
  assert (U : ~ uniform_rings HEALPIX) by (intros [H|[H|H]]; discriminate).
  split; [repeat split; try lia; discriminate|]. split; [right; left; split; [reflexivity|left; reflexivity]|]. split; [left; reflexivity|].
  split; [right; right; split; [reflexivity|left; lia]|]. split; [repeat split; auto; lia|].
  split; [right; right; split; [reflexivity|right; exact U]|]. split; [intros _; split; reflexivity|left; reflexivity].
Qed.
(** The mode "fft" needs equidistant colatitudes; modes other than fft, direct and auto are rejected. *)
Theorem C52_rejects b gl L N reality name o forward mode :
  (lower mode = "fft" -> ~ In (lower name) ["mw"; "mwss"; "dh"] -> wigner_kernel b gl L N reality name o forward mode = Err ValueError) /\
  (~ In (lower mode) ["fft"; "direct"; "auto"] -> forall s nside, setting name s L nside o -> (s = GL -> vlen (gl_nodes gl L) = L) ->
   wigner_kernel b gl L N reality name o forward mode = Err ValueError).
Proof. apply wkernel_rejects. Qed.
Print Assumptions C52_rejects.
Example C52_rejects_ex : lower "FFT" = "fft" /\ ~ In (lower "healpix") ["mw"; "mwss"; "dh"] /\ ~ In (lower "exact") ["fft"; "direct"; "auto"].
Proof. split; [reflexivity|]. split; cbn; intuition discriminate. Qed.
(** L = 1: the default mode, which divides by log(L), raises OverflowError on the schemes with equidistant
    colatitudes although the mode "direct" works. *)
Theorem C52_one_refuted : exists gl, forall b reality s forward, uniform_rings s ->
  wigner_kernel b gl 1 1 reality (scheme_name s) None forward "auto" = Err OverflowError /\
  exists K, wigner_kernel b gl 1 1 reality (scheme_name s) None forward "direct" = Ok K.
Proof.
  exists gl2. intros b reality s forward U. split.
  - apply wmode_one. destruct U as [-> |[-> | ->]]; cbn; auto.
  - assert (S : setting (scheme_name s) s 1 0 None) by (split; [destruct s; reflexivity|split; [lia|]]; intros ->; destruct U as [H|[H|H]]; discriminate).
    assert (G : s <> GL) by (destruct U as [-> |[-> | ->]]; discriminate). destruct forward.
    + destruct (forward_wkernel b gl2 (scheme_name s) s 1 1 0 None reality "direct" S ltac:(lia)) as (K & w & E & _); [congruence|left; reflexivity|]. now exists K.
    + destruct (inverse_wkernel b gl2 (scheme_name s) s 1 1 0 None reality "direct" S ltac:(lia)) as (K & E & _); [congruence|left; reflexivity|]. now exists K.
Qed.
Print Assumptions C52_one_refuted.

(** ** C53: inverse *)
(** The result holds the samples of the signal with the given coefficients; with the reality flag those of
    the real signal, whose plane n = 0 is the symmetric part of the given one. *)
Theorem C53_synthesis gl method b s flmn L N kernel nside o reality :
  setting (scheme_name s) s L nside o -> 1 <= N <= L -> shape flmn = [2 * N - 1; L; 2 * L - 1] -> (s = GL -> vlen (gl_nodes gl L) = L) ->
  (s = HEALPIX -> 2 * nside <= L) -> runs_on method b -> wkernel_given gl L N reality s (scheme_name s) o false kernel ->
  exists f, pw_inverse gl flmn L N kernel (scheme_name s) reality method o = Ok f /\
    so3_holds (vat (gl_nodes gl L)) s L N nside f (so3_synth L N (mean3 reality (stored3 L N flmn))).
Proof. apply pw_inverse_lemma. Qed.
Print Assumptions C53_synthesis.
(** For the coefficients of a real signal the flag changes nothing. *)
Theorem C53_real gl method b method' b' s flmn L N kernel kernel' nside o : nodes_ok s L (gl_nodes gl L) ->
  setting (scheme_name s) s L nside o -> 1 <= N <= L -> shape flmn = [2 * N - 1; L; 2 * L - 1] -> (s = GL -> vlen (gl_nodes gl L) = L) ->
  (s = HEALPIX -> 2 * nside <= L) -> runs_on method b -> runs_on method' b' ->
  wkernel_given gl L N true s (scheme_name s) o false kernel -> wkernel_given gl L N false s (scheme_name s) o false kernel' ->
  hermitian3 L N (stored3 L N flmn) ->
  same_ok (pw_inverse gl flmn L N kernel (scheme_name s) true method o) (pw_inverse gl flmn L N kernel' (scheme_name s) false method' o).
Proof. intros. apply (pw_inverse_agree gl method b method' b' s flmn flmn L N kernel kernel' nside o true false); auto. intros. now apply (hermitian_mean L N). Qed.
Print Assumptions C53_real.
(** The reference transform returns the same array. *)
Theorem C53_agrees gl method b s flmn L N kernel nside o reality :
  setting (scheme_name s) s L nside o -> 1 <= N <= L -> shape flmn = [2 * N - 1; L; 2 * L - 1] -> (s = GL -> vlen (gl_nodes gl L) = L) ->
  (s = HEALPIX -> 2 * nside <= L) -> runs_on method b -> wkernel_given gl L N reality s (scheme_name s) o false kernel ->
  rings_away (vat (gl_nodes gl L)) s L nside -> (reality = true -> hermitian_plane L N flmn) ->
  same_ok (pw_inverse gl flmn L N kernel (scheme_name s) reality method o) (wigner_inverse gl flmn L N 0 (scheme_name s) reality o).
Proof. apply pw_inverse_same. Qed.
Print Assumptions C53_agrees.
(** Back ends, modes and whether the kernel is handed over make no difference, nor do the entries that no
    coefficient is kept in: |m| > l, l < |n| and, with the flag, n < 0. *)
Theorem C53_independent gl method b method' b' s flmn flmn' L N kernel kernel' nside o reality : nodes_ok s L (gl_nodes gl L) ->
  setting (scheme_name s) s L nside o -> 1 <= N <= L -> shape flmn = [2 * N - 1; L; 2 * L - 1] -> shape flmn' = [2 * N - 1; L; 2 * L - 1] ->
  (s = GL -> vlen (gl_nodes gl L) = L) -> (s = HEALPIX -> 2 * nside <= L) -> runs_on method b -> runs_on method' b' ->
  wkernel_given gl L N reality s (scheme_name s) o false kernel -> wkernel_given gl L N reality s (scheme_name s) o false kernel' ->
  (forall n l m, (if reality then 0 else 1 - N) <= n < N -> Z.abs n <= l < L -> - l <= m <= l -> stored3 L N flmn n l m = stored3 L N flmn' n l m) ->
  same_ok (pw_inverse gl flmn L N kernel (scheme_name s) reality method o) (pw_inverse gl flmn' L N kernel' (scheme_name s) reality method' o).
Proof.
  intros H1 H2 H3 H4 H5 H6 H7 H8 H9 H10 H11 HE. apply (pw_inverse_agree gl method b method' b' s flmn flmn' L N kernel kernel' nside o reality reality); auto.
  intros n l m Hn Hl Hm. destruct reality; cbn [mean3]; [|apply HE; lia]. unfold real_mean3. destruct (Z.ltb_spec n 0); [|destruct (Z.eqb_spec n 0) as [->|]].
  - rewrite (HE (- n) l (- m)) by lia. reflexivity.
  - rewrite (HE 0 l m), (HE 0 l (- m)) by lia. reflexivity.
  - apply HE; lia.
Qed.
Print Assumptions C53_independent.
Example C53_ex : setting "mw" MW 3 0 None /\ shape flmn3 = [2 * 2 - 1; 3; 2 * 3 - 1] /\ runs_on "numpy" numpy /\ runs_on "torch" jax /\
  wkernel_given gl2 3 2 true MW "mw" None false None /\ (exists K, wkernel_given gl2 3 2 true MW "mw" None false (Some K)) /\
  nodes_ok MW 3 (gl_nodes gl2 3) /\ rings_away (vat (gl_nodes gl2 3)) MW 3 0 /\ hermitian3 3 2 (stored3 3 2 flmn3) /\ hermitian_plane 3 2 flmn3 /\
  stored3 3 2 flmn3 1 1 0 <> RtoC 0.
Proof.
  destruct C34_ex as (S & _ & _ & _ & _ & Sf & Hh & _ & Hz). split; [exact S|]. split; [exact Sf|]. split; [left; auto|]. split; [right; auto|].
  split; [left; split; [reflexivity|]; right; right; split; [reflexivity|left; lia]|]. split.
  { destruct (inverse_wkernel jax gl2 "mw" MW 3 2 0 None true "fft" S ltac:(lia)) as (K & E & _); [discriminate|right; left; split; [reflexivity|left; reflexivity]|].
    exists K. right. exists jax, "fft", K. split; [reflexivity|]. split; [right; left; split; [reflexivity|left; reflexivity]|exact E]. }
  split; [discriminate|]. split; [apply small_away; cbn; lia|]. split; [exact Hh|]. split; [|exact Hz].
  intros el m Hel Hm. pose proof (Hh 0 el m ltac:(lia) ltac:(lia) ltac:(lia)) as Q. now rewrite Z.add_0_r in Q.
Qed.
(** Methods other than numpy, jax and torch are rejected. *)
Theorem C53_rejects gl a L N kernel name reality method o : method <> "numpy" -> method <> "jax" -> method <> "torch" ->
  pw_inverse gl a L N kernel name reality method o = Err ValueError /\ pw_forward gl a L N kernel name reality method o = Err ValueError.
Proof.
  intros H1 H2 H3. unfold pw_inverse, pw_forward.
  assert (E : method_backend method = Err ValueError).
  { unfold method_backend, streq. apply String.eqb_neq in H1, H2, H3. now rewrite H1, H2, H3. }
  rewrite E. auto.
Qed.
Print Assumptions C53_rejects.
Example C53_rejects_ex : "cuda" <> "numpy" /\ "cuda" <> "jax" /\ "cuda" <> "torch".
Proof. repeat split; discriminate. Qed.
(** Names of schemes are compared without lower() in one place: "MWSS", accepted by the kernel and all other
    transforms, fails. *)
Theorem C53_case_refuted : exists gl flmn, forall method b reality, runs_on method b ->
  pw_inverse gl flmn 3 2 None "MWSS" reality method None = Err ValueError /\
  (exists K, wigner_kernel b gl 3 2 reality "MWSS" None false "auto" = Ok K) /\
  exists f, pw_inverse gl flmn 3 2 None "mwss" reality method None = Ok f.
Proof.
  exists gl2, flmn3. intros method b reality R. assert (M : mode_ok "auto" MWSS 3) by (right; right; split; [reflexivity|left; lia]).
  split; [apply (upper_fails gl2 flmn3 3 2 reality method b); [lia|lia|reflexivity|exact R]|]. split.
  - destruct (inverse_wkernel b gl2 "MWSS" MWSS 3 2 0 None reality "auto") as (K & E & _); [repeat split; try lia; discriminate|lia|discriminate|exact M|]. now exists K.
  - destruct (pw_inverse_lemma gl2 method b MWSS flmn3 3 2 None 0 None reality) as (f & E & _);
      [repeat split; try lia; discriminate|lia|reflexivity|discriminate|discriminate|exact R|left; auto|]. now exists f.
Qed.
Print Assumptions C53_case_refuted.

(** ** C54: forward *)
(** On the schemes that are not resampled the result is the quadrature sum over the samples. *)
Theorem C54_sum gl method b s f L N kernel nside o reality x : s = DH \/ s = GL \/ s = HEALPIX ->
  pw_forward_hyps gl b s f L N nside o -> runs_on method b -> wkernel_given gl L N reality s (scheme_name s) o true kernel ->
  (forall t, 0 <= t < rings s L nside -> colatitude (vat (gl_nodes gl L)) s L nside t (x t)) ->
  exists w flmn, quad_weights_transform gl L (scheme_name s) 0 o = Ok w /\ pw_forward gl f L N kernel (scheme_name s) reality method o = Ok flmn /\
    holds_coefficients3 L N flmn (wigner_sum s L N nside (vat w) x (fun g t p => let z := get f (g :: sample_index s nside t p) in if reality then RtoC (Re z) else z)).
Proof. apply pw_forward_sum. Qed.
Print Assumptions C54_sum.
(** The reference transform returns the same coefficients. *)
Theorem C54_agrees gl method b s f L N kernel nside o reality :
  pw_forward_hyps gl b s f L N nside o -> runs_on method b -> wkernel_given gl L N reality s (scheme_name s) o true kernel ->
  forward_rings_away (vat (gl_nodes gl L)) s L nside -> (reality = true -> so3_real_map (vat (gl_nodes gl L)) s L N nside f) ->
  same_ok (pw_forward gl f L N kernel (scheme_name s) reality method o) (wigner_forward gl f L N 0 (scheme_name s) reality o).
Proof. apply pw_forward_same. Qed.
Print Assumptions C54_agrees.
(** The coefficients of a band-limited signal are recovered from its samples. *)
Theorem C54_recover gl method b s f L N kernel nside o reality c : s <> HEALPIX -> 2 <= L ->
  pw_forward_hyps gl b s f L N nside o -> runs_on method b -> wkernel_given gl L N reality s (scheme_name s) o true kernel ->
  (s = GL -> gauss_legendre L (gl_nodes gl L) (gl_weights gl L)) -> (reality = true -> hermitian3 L N c) ->
  so3_holds (vat (gl_nodes gl L)) s L N nside f (so3_synth L N c) ->
  exists flmn, pw_forward gl f L N kernel (scheme_name s) reality method o = Ok flmn /\ holds_coefficients3 L N flmn (restricted3 0 c).
Proof. apply pw_recover. Qed.
Print Assumptions C54_recover.
(** There and back returns the coefficients. *)
Theorem C54_round_trip gl minv binv mfwd bfwd s flmn L N kinv kfwd nside o reality : s <> HEALPIX -> 2 <= L ->
  setting (scheme_name s) s L nside o -> 1 <= N <= L -> (s = MW \/ s = MWSS -> 2 <= N) -> shape flmn = [2 * N - 1; L; 2 * L - 1] ->
  (s = GL -> gauss_legendre L (gl_nodes gl L) (gl_weights gl L)) -> runs_on minv binv -> runs_on mfwd bfwd ->
  wkernel_given gl L N reality s (scheme_name s) o false kinv -> wkernel_given gl L N reality s (scheme_name s) o true kfwd ->
  (reality = true -> hermitian3 L N (stored3 L N flmn)) ->
  exists f flmn', pw_inverse gl flmn L N kinv (scheme_name s) reality minv o = Ok f /\
    pw_forward gl f L N kfwd (scheme_name s) reality mfwd o = Ok flmn' /\ holds_coefficients3 L N flmn' (restricted3 0 (stored3 L N flmn)).
Proof. apply pw_round_trip. Qed.
Print Assumptions C54_round_trip.
(** Back ends, modes, given kernels and, for real maps, the reality flag make no difference. *)
Theorem C54_independent gl method b method' b' s f L N kernel kernel' nside o reality reality' : nodes_ok s L (gl_nodes gl L) ->
  pw_forward_hyps gl b s f L N nside o -> pw_forward_hyps gl b' s f L N nside o -> runs_on method b -> runs_on method' b' ->
  wkernel_given gl L N reality s (scheme_name s) o true kernel -> wkernel_given gl L N reality' s (scheme_name s) o true kernel' ->
  (reality || reality' = true -> so3_real_map (vat (gl_nodes gl L)) s L N nside f) ->
  same_ok (pw_forward gl f L N kernel (scheme_name s) reality method o) (pw_forward gl f L N kernel' (scheme_name s) reality' method' o).
Proof. apply pw_forward_agree. Qed.
Print Assumptions C54_independent.
(** The coefficients of a real map satisfy the reality condition. *)
Theorem C54_hermitian gl method b s f L N kernel nside o reality flmn : nodes_ok s L (gl_nodes gl L) ->
  pw_forward_hyps gl b s f L N nside o -> runs_on method b -> wkernel_given gl L N reality s (scheme_name s) o true kernel ->
  so3_real_map (vat (gl_nodes gl L)) s L N nside f -> pw_forward gl f L N kernel (scheme_name s) reality method o = Ok flmn -> hermitian3 L N (stored3 L N flmn).
Proof. apply pw_forward_hermitian. Qed.
Print Assumptions C54_hermitian.
(** a map that does not vanish: the samples of the real signal with coefficients flmn3 *)
Example C54_ex : exists f, pw_forward_hyps gl2 numpy MW f 3 2 0 None /\ pw_forward_hyps gl2 jax MW f 3 2 0 None /\
  so3_holds (vat (gl_nodes gl2 3)) MW 3 2 0 f (so3_synth 3 2 (stored3 3 2 flmn3)) /\
  wkernel_given gl2 3 2 true MW "mw" None true None /\ forward_rings_away (vat (gl_nodes gl2 3)) MW 3 0 /\ nodes_ok MW 3 (gl_nodes gl2 3) /\
  hermitian3 3 2 (stored3 3 2 flmn3) /\ stored3 3 2 flmn3 1 1 0 <> RtoC 0.
Proof.
  destruct C53_ex as (S & Sf & Rn & _ & K & _ & No & _ & Hh & _ & Hz).
  destruct (pw_inverse_lemma gl2 "numpy" numpy MW flmn3 3 2 None 0 None false S ltac:(lia) Sf) as (f & _ & HF); [discriminate|discriminate|exact Rn|left; split; [reflexivity|right; right; split; [reflexivity|left; lia]]|].
  exists f. assert (H : forall b, pw_forward_hyps gl2 b MW f 3 2 0 None).
  { intros b. split; [exact S|]. split; [lia|]. split; [exact (proj1 HF)|]. split; [discriminate|]. split; [discriminate|lia]. }
  split; [apply H|]. split; [apply H|]. split; [exact HF|]. split; [left; split; [reflexivity|right; right; split; [reflexivity|left; lia]]|].
  split; [apply small_forward; cbn; lia|]. auto.
Qed.
Example C54_gl_ex : rule_sizes GL 2 (gl_nodes gl2 2) (gl_weights gl2 2) /\ gauss_legendre 2 (gl_nodes gl2 2) (gl_weights gl2 2) /\ wkernel_given gl2 2 2 false GL "gl" None true None.
Proof.
  split; [intros _; split; reflexivity|]. split; [exact gl2_exact|]. left. split; [reflexivity|]. right. right. split; [reflexivity|left; lia].
Qed.
(** N = 1 on mw and mwss: the resampling squeezes the axis of length one away and the call fails with
    IndexError for every map and kernel, although one plane is an ordinary spherical transform. *)
Theorem C54_one_plane_refuted : forall gl f L s kernel K reality method b,
  1 <= L -> s = MW \/ s = MWSS -> shape f = 1 :: map_shape s L 0 -> runs_on method b -> kernel = Some K \/ (kernel = None /\ 2 <= L) ->
  pw_forward gl f L 1 kernel (scheme_name s) reality method None = Err IndexError.
Proof.
  intros gl f L s kernel K reality method b HL Hs Sf R HK. unfold pw_forward.
  assert (EB : method_backend method = Ok b) by (destruct R as [(-> & ->)|([-> | ->] & ->)]; reflexivity). rewrite EB. cbn [bind].
  destruct HK as [-> |(-> & HL2)]; cbn [bind].
  - now apply one_plane_fails.
  - assert (S : setting (scheme_name s) s L 0 None) by (split; [destruct s; reflexivity|split; [lia|]]; intros ->; destruct Hs; discriminate).
    assert (G : s <> GL) by (destruct Hs as [-> | ->]; discriminate).
    destruct (forward_wkernel b gl (scheme_name s) s L 1 0 None reality "auto" S ltac:(lia)) as (K' & w & E & _); [congruence|right; right; split; [reflexivity|left; lia]|].
    rewrite E. cbn [bind]. now apply one_plane_fails.
Qed.
Print Assumptions C54_one_plane_refuted.
(** while the schemes that are not resampled, and the inverse, accept N = 1 *)
Example C54_one_plane_ex : pw_forward_hyps gl2 jax DH (mkArr [1; 6; 5] (fun _ => RtoC 1)) 3 1 0 None.
Proof. split; [repeat split; try lia; discriminate|]. split; [lia|]. split; [reflexivity|]. split; [discriminate|]. split; [discriminate|]. intros [H|H]; discriminate. Qed.
