(** Properties of s2fft/utils/iterative_refinement.py and of the refined reference forward transform. *)
From Coq Require Import Reals Lra.
From Coquelicot Require Import Complex.
From Verif Require Import Lib.Py Lib.Vec Lib.Sums Lib.Cplx Lib.Arr Model.Grids Model.Quadrature Model.Spherical Model.Refine
  Spec.SamplesSpec Spec.WignerSpec Spec.SphereSpec Spec.GridSpec Spec.QuadSpec Spec.SphericalSpec Spec.RefineSpec
  Proofs.SphAngles Proofs.RefineProofs Proofs.RefineSph Lib.MatFacts Properties.QuadProps Properties.SphericalProps.
Open Scope string_scope.
Open Scope Z_scope.

(** ** C38: any linear forward function F and backward function B *)
Theorem C38_zero f n F B : n <= 0 -> refine f n F B = F f.
Proof. apply refine_0. Qed.
Print Assumptions C38_zero.

(** y_n = sum_{j <= n} (I - F B)^j F f *)
Theorem C38_sum shf shc P Q F B f g n : array_space shf P -> array_space shc Q -> linear_map P Q F -> linear_map Q P B ->
  P f -> F f = Ok g -> 0 <= n ->
  exists y T, refine f n F B = Ok y /\ (forall j, (j <= Z.to_nat n)%nat -> defect F B j g (T j)) /\
    forall ix, in_shape shc ix -> get y ix = csum (zrange 0 (n + 1)) (fun j => get (T (Z.to_nat j)) ix).
Proof. intros. now apply (refine_sum shf shc P Q). Qed.
Print Assumptions C38_sum.

(** F (f - B y_n) = (I - F B)^(n+1) F f *)
Theorem C38_residual shf shc P Q F B f g n : array_space shf P -> array_space shc Q -> linear_map P Q F -> linear_map Q P B ->
  P f -> F f = Ok g -> 0 <= n ->
  exists y b e d, refine f n F B = Ok y /\ Q y /\ B y = Ok b /\ difference f b e /\ F e = Ok d /\ defect F B (S (Z.to_nat n)) g d.
Proof. intros. now apply (refine_residual shf shc P Q). Qed.
Print Assumptions C38_residual.

(** f = B x: x - y_n = (I - F B)^(n+1) x *)
Theorem C38_error shf shc P Q F B x f n : array_space shf P -> array_space shc Q -> linear_map P Q F -> linear_map Q P B ->
  Q x -> B x = Ok f -> 0 <= n ->
  exists y e, refine f n F B = Ok y /\ Q y /\ difference x y e /\ defect F B (S (Z.to_nat n)) x e.
Proof. intros. now apply (refine_error shf shc P Q). Qed.
Print Assumptions C38_error.

(** an exact forward function is a fixed point *)
Theorem C38_fixed shf shc P Q F B x f n : array_space shf P -> array_space shc Q -> linear_map P Q F -> linear_map Q P B ->
  Q x -> B x = Ok f -> (forall a b, Q a -> B a = Ok b -> exists c, F b = Ok c /\ arr_eq c a) ->
  exists y, refine f n F B = Ok y /\ arr_eq y x.
Proof. intros. now apply (refine_fixed shf shc P Q). Qed.
Print Assumptions C38_fixed.

(** a contraction I - F B makes the error decrease geometrically *)
Theorem C38_geometric shf shc P Q F B x f n nrm q : array_space shf P -> array_space shc Q -> linear_map P Q F -> linear_map Q P B ->
  Q x -> B x = Ok f -> 0 <= n -> (0 <= q)%R -> (forall a b, Q a -> arr_eq a b -> nrm a = nrm b) ->
  (forall x e, Q x -> defect F B 1 x e -> (nrm e <= q * nrm x)%R) ->
  exists y e, refine f n F B = Ok y /\ Q y /\ difference x y e /\ (nrm e <= q ^ S (Z.to_nat n) * nrm x)%R.
Proof.
  intros SP SQ LF LB Hx HB Hn Hq He Hc. destruct (refine_error shf shc P Q F B SP SQ LF LB x f Hx HB n Hn) as (y & e & E & Qy & D & De).
  exists y, e. repeat (split; [assumption|]). now apply (defect_contract shf shc P Q F B SP SQ LF LB nrm q Hq He Hc).
Qed.
Print Assumptions C38_geometric.

Theorem C38_limit shf shc P Q F B x f nrm q : array_space shf P -> array_space shc Q -> linear_map P Q F -> linear_map Q P B ->
  Q x -> B x = Ok f -> (0 <= q < 1)%R -> (forall a b, Q a -> arr_eq a b -> nrm a = nrm b) -> (forall a, 0 <= nrm a)%R ->
  (forall x e, Q x -> defect F B 1 x e -> (nrm e <= q * nrm x)%R) ->
  forall eps, (0 < eps)%R -> exists n0, 0 <= n0 /\ forall n, n0 <= n ->
    exists y e, refine f n F B = Ok y /\ difference x y e /\ (nrm e <= eps)%R.
Proof.
  intros SP SQ LF LB Hx HB Hq He Hp Hc eps Heps.
  assert (X : (0 < nrm x + 1)%R) by (specialize (Hp x); lra).
  destruct (pow_lt_1_zero q) with (y := (eps / (nrm x + 1))%R) as (N & HN).
  { rewrite Rabs_right; lra. } { apply Rdiv_lt_0_compat; lra. }
  exists (Z.of_nat N). split; [lia|]. intros n Hn.
  destruct (C38_geometric shf shc P Q F B x f n nrm q) as (y & e & E & _ & D & L1); auto; try lia; try lra.
  exists y, e. split; [exact E|]. split; [exact D|]. specialize (HN (S (Z.to_nat n))). rewrite Rabs_right in HN by (apply Rle_ge, pow_le; lra).
  eapply Rle_trans; [exact L1|]. replace eps with (eps / (nrm x + 1) * (nrm x + 1))%R by (field; lra).
  apply Rmult_le_compat; [apply pow_le; lra|apply Hp|apply Rlt_le, HN; lia|lra].
Qed.
Print Assumptions C38_limit.

(** F = I/2, B = I on arrays of two complex numbers: I - F B = I/2, a contraction. *)
Definition sp2 (a : ndarray C) : Prop := shape a = [2].
Definition half (a : ndarray C) : result (ndarray C) := Ok (mkArr (shape a) (fun ix => RtoC (/ 2) * get a ix)%C).
Definition whole (a : ndarray C) : result (ndarray C) := Ok a.
Definition nrm2 (a : ndarray C) : R := (Cmod (get a [0%Z]) + Cmod (get a [1%Z]))%R.
Example C38_ex : array_space [2] sp2 /\ linear_map sp2 sp2 half /\ linear_map sp2 sp2 whole /\
  (forall a b, sp2 a -> arr_eq a b -> nrm2 a = nrm2 b) /\ (forall x e, sp2 x -> defect half whole 1 x e -> (nrm2 e <= / 2 * nrm2 x)%R) /\
  (forall a, 0 <= nrm2 a)%R.
Proof.
  unfold sp2. assert (I0 : in_shape [2] [0]) by (cbn; lia). assert (I1 : in_shape [2] [1]) by (cbn; lia). split; [|split; [|split; [|split; [|split]]]].
  - split; [auto|]. intros x y a b c Ha Hb (H1 & _). congruence.
  - split; [intros a Ha; eexists; split; [reflexivity|exact Ha]|]. intros x y a b c Ha Hb Hc (H1 & H2 & H3). unfold half. do 3 eexists.
    do 3 (split; [reflexivity|]). cbn [shape get]. split; [exact H1|]. split; [exact H2|]. cbn [shape get]. intros ix Hix. rewrite H3 by auto. ring.
  - split; [intros a Ha; eexists; split; [reflexivity|exact Ha]|]. intros x y a b c Ha Hb Hc H. now exists a, b, c.
  - intros a b Ha (H1 & H2). unfold nrm2. rewrite !H2 by (rewrite Ha; assumption). reflexivity.
  - intros x e Hx De. inversion De as [|k x' b c y e' E1 E2 D3 De2]; subst. inversion De2 as [z w Ez|]; subst. injection E1 as <-. injection E2 as <-.
    destruct D3 as (S1 & _ & S3), Ez as (S4 & S5). rewrite Hx in S1. rewrite <- S1 in *.
    unfold nrm2. rewrite <- !S5, !S3 by auto. cbn [get].
    assert (K : forall z, Cmod (RtoC 1 * z + RtoC (-1) * (RtoC (/ 2) * z))%C = (/ 2 * Cmod z)%R).
    { intros z. replace (RtoC 1 * z + RtoC (-1) * (RtoC (/ 2) * z))%C with (RtoC (/ 2) * z)%C.
      - rewrite Cmod_mult, Cmod_R, Rabs_right by lra. reflexivity.
      - unfold Cmult, Cplus, RtoC. cbn. f_equal; field. }
    rewrite !K. lra.
  - intros a. unfold nrm2. pose proof (Cmod_ge_0 (get a [0%Z])). pose proof (Cmod_ge_0 (get a [1%Z])). lra.
Qed.

(** ** The reference forward transform *)
Theorem C38_spherical_linear gl s L spin Lo nside o reality :
  setting (scheme_name s) s L nside o -> 0 <= Lo < L -> rule_sizes s L (gl_nodes gl L) (gl_weights gl L) ->
  (s = HEALPIX -> 2 * nside <= L) -> small_grid (vat (gl_nodes gl L)) s L nside ->
  array_space (map_shape s L nside) (maps_of (vat (gl_nodes gl L)) s L nside spin reality) /\
  array_space [L; 2 * L - 1] (coefficients_of L spin reality) /\
  linear_map (maps_of (vat (gl_nodes gl L)) s L nside spin reality) (coefficients_of L spin reality)
    (fun f => forward_ gl f L spin (scheme_name s) "sov_fft_vectorized" o reality Lo) /\
  linear_map (coefficients_of L spin reality) (maps_of (vat (gl_nodes gl L)) s L nside spin reality)
    (fun flm => inverse_ gl flm L spin (scheme_name s) "sov_fft_vectorized" o reality Lo).
Proof.
  intros S HLo Hg Hh Ha. split; [apply maps_space|]. split; [apply coefficients_space|]. split.
  - apply forward_map; auto. now apply small_forward.
  - apply inverse_map; auto. now apply small_away.
Qed.
Print Assumptions C38_spherical_linear.

(** forward(inverse(flm), iter) differs from flm by (I - F B)^(iter+1) flm *)
Theorem C38_spherical_error gl s flm L spin Lo nside o reality iter :
  setting (scheme_name s) s L nside o -> 0 <= Lo < L -> rule_sizes s L (gl_nodes gl L) (gl_weights gl L) ->
  (s = HEALPIX -> 2 * nside <= L) -> small_grid (vat (gl_nodes gl L)) s L nside -> coefficients_of L spin reality flm -> 0 <= iter ->
  exists f y e, inverse_ gl flm L spin (scheme_name s) "sov_fft_vectorized" o reality Lo = Ok f /\
    forward_iter gl f L spin (scheme_name s) o reality Lo iter = Ok y /\ difference flm y e /\
    defect (fun f => forward_ gl f L spin (scheme_name s) "sov_fft_vectorized" o reality Lo)
      (fun flm => inverse_ gl flm L spin (scheme_name s) "sov_fft_vectorized" o reality Lo) (S (Z.to_nat iter)) flm e.
Proof.
  intros S HLo Hg Hh Ha HQ Hi. destruct (C38_spherical_linear gl s L spin Lo nside o reality S HLo Hg Hh Ha) as (SP & SQ & LF & LB).
  destruct (proj1 LB flm HQ) as (f & E & _). destruct (refine_error _ _ _ _ _ _ SP SQ LF LB flm f HQ E iter Hi) as (y & e & Ey & _ & D & De).
  exists f, y, e. split; [exact E|]. split; [|auto]. now rewrite forward_iter_refine.
Qed.
Print Assumptions C38_spherical_error.

(** On the exact schemes the iterations keep the exact coefficients. *)
Theorem C38_spherical_exact gl s f c L spin Lo nside o reality iter :
  setting (scheme_name s) s L nside o -> s <> HEALPIX -> 0 <= Lo < L -> (s = GL -> gauss_legendre L (gl_nodes gl L) (gl_weights gl L)) ->
  small_grid (vat (gl_nodes gl L)) s L nside -> 0 <= iter -> (reality = true -> spin = 0 -> hermitian L c) ->
  holds_samples (vat (gl_nodes gl L)) s L nside f (synth L spin c) ->
  exists flm, forward_iter gl f L spin (scheme_name s) o reality Lo iter = Ok flm /\ holds_coefficients L flm (restricted Lo spin c).
Proof.
  intros S Hs HLo Hg Ha Hi Hr HF. apply (iter_exact gl s L spin Lo nside o reality); auto.
  - intros E. destruct (Hg E) as (H1 & H2 & _). auto.
  - congruence.
  - now apply small_away.
  - now apply small_forward.
Qed.
Print Assumptions C38_spherical_exact.
Example C38_spherical_ex : setting "healpix" HEALPIX 4 2 (Some 2) /\ 0 <= 0 < 4 /\ 2 * 2 <= 4 /\ small_grid (fun _ => 0%R) HEALPIX 4 2 /\
  coefficients_of 4 0 true (mkArr [4; 7] (fun ix => RtoC (IZR (nth 0 ix 0%Z) * sgn (Z.min (nth 1 ix 0 - 3) 0)%Z)%R)).
Proof.
  split; [repeat split; auto; lia|]. split; [lia|]. split; [lia|]. split; [cbn; lia|]. split; [reflexivity|]. intros _ _ el m Hel Hm.
  unfold stored. cbn [get nth]. rewrite Cconj_R, <- RtoC_mult. f_equal. replace (- m + 4 - 1 - 3) with (- m) by lia. replace (m + 4 - 1 - 3) with m by lia.
  assert (K : forall m, sgn (Z.min (- m) 0) = (sgn m * sgn (Z.min m 0))%R).
  { intros k. rewrite <- sgn_add. destruct (Z.le_gt_cases k 0).
    - replace (Z.min (- k) 0) with 0 by lia. replace (k + Z.min k 0) with (2 * k) by lia. now rewrite sgn_double.
    - replace (Z.min (- k) 0) with (- k) by lia. replace (k + Z.min k 0) with k by lia. apply sgn_opp. }
  rewrite K. ring.
Qed.
