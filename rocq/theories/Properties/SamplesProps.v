(** C06, C07: shapes and HEALPix rings. *)
From Verif Require Import Lib.Py Model.Samples Spec.SamplesSpec Proofs.SamplesProofs.
Open Scope Z_scope.

(** C06: every string either denotes a scheme (up to case) and gets that scheme's sizes, or
    raises ValueError. *)
Theorem C06_equiangular_shapes : forall name s L N nside, denotes name s -> s <> HEALPIX ->
  ntheta (Some L) name nside = Ok (rings s L 0) /\
  nphi_equiang (Some L) name = Ok (per_ring s L) /\
  f_shape (Some L) name nside = Ok [rings s L 0; per_ring s L] /\
  ftm_shape (Some L) name (Some N) = Ok [rings s L 0; orders s L].
Proof.
  intros name s L N nside H Hs.
  rewrite (ntheta_eq_spec name s L nside H Hs), (nphi_spec name s L H Hs),
    (f_shape_spec name s L nside H Hs), (ftm_shape_spec name s L N H).
  destruct s; try congruence; repeat split; reflexivity.
Qed.

(** The HEALPix map holds one sample per pixel of each ring. *)
Theorem C06_healpix_shapes : forall name L nside, denotes name HEALPIX -> 1 <= nside ->
  f_shape L name (Some nside) = Ok [12 * (nside * nside)] /\
  ring_start (ring_length nside) (4 * nside - 1) = 12 * (nside * nside) /\
  ntheta L name (Some nside) = Ok (4 * nside - 1) /\
  (forall l, ftm_shape (Some l) name (Some nside) = Ok [4 * nside - 1; 2 * l]) /\
  f_shape L name None = Err ValueError /\ nphi_equiang L name = Err ValueError.
Proof.
  intros name L nside H Hn. split; [exact (f_shape_hp name L nside H)|].
  split; [exact (ring_start_total nside Hn)|].
  unfold denotes in H; unfold ntheta, ftm_shape, ntheta, f_shape, nphi_equiang; rewrite H.
  repeat split; reflexivity.
Qed.

(** The number of theta samples of the extended sphere. *)
Theorem C06_extension : forall name L,
  (denotes name MW -> ntheta_extension L name = Ok (2 * L - 1)) /\
  (denotes name MWSS -> ntheta_extension L name = Ok (2 * L)) /\
  (~ denotes name MW -> ~ denotes name MWSS -> ntheta_extension L name = Err ValueError).
Proof. exact ntheta_extension_spec. Qed.

(** SO(3) shapes are the sphere shapes times 2N-1, for names as documented (lower case). *)
Theorem C06_so3_shapes : forall s L N nside, 
  (s <> HEALPIX -> exists nt np,
     f_shape (Some L) (scheme_name s) nside = Ok [nt; np] /\
     so3_f_shape L N (scheme_name s) nside = Ok [2 * N - 1; nt; np]) /\
  (s = HEALPIX -> forall n, nside = Some n -> exists npix,
     f_shape (Some L) (scheme_name s) nside = Ok [npix] /\
     so3_f_shape L N (scheme_name s) nside = Ok [2 * N - 1; npix]) /\
  (forall name n, denotes name s -> exists nt no,
     ftm_shape (Some L) name (Some n) = Ok [nt; no] /\
     fnab_shape L N name (Some n) = Ok [2 * N - 1; nt; no]).
Proof.
  intros s L N nside. split; [|split].
  - intros Hs. do 2 eexists.
    rewrite (f_shape_spec _ s L nside) by (auto; destruct s; reflexivity).
    rewrite so3_f_shape_spec by auto. split; reflexivity.
  - intros -> n ->. eexists.
    rewrite (f_shape_hp _ (Some L) n) by reflexivity.
    rewrite (so3_f_shape_hp _ L N n) by reflexivity. split; reflexivity.
  - intros name n H. do 2 eexists.
    rewrite (ftm_shape_spec name s L n H), (fnab_shape_spec name s L N n H). split; reflexivity.
Qed.

Theorem C06_unsupported_names_raise : forall name L nside, unsupported name ->
  ntheta L name nside = Err ValueError /\ nphi_equiang L name = Err ValueError /\
  ftm_shape L name nside = Err ValueError /\ f_shape L name nside = Err ValueError /\
  (forall l, ntheta_extension l name = Err ValueError) /\
  (forall l N, so3_f_shape l N name nside = Err ValueError) /\
  (forall l N, fnab_shape l N name nside = Err ValueError).
Proof. exact unsupported_errors. Qed.

Theorem C06_every_name_is_covered : forall name, unsupported name \/ exists s, denotes name s.
Proof. exact denotes_unsupported. Qed.

(** Finding: so3_samples.f_shape compares the equiangular names without lower-casing, unlike
    every other function: "MW" is a valid scheme for f_shape but an error for so3 f_shape. *)
Theorem C06_so3_case_refuted : exists name s L N,
  denotes name s /\ s <> HEALPIX /\ f_shape (Some L) name None = Ok [rings s L 0; per_ring s L] /\
  so3_f_shape L N name None = Err ValueError.
Proof. exists "MW"%string, MW, 4, 2. repeat split; try reflexivity; congruence. Qed.

Example C06_example : denotes "MWss" MWSS /\ f_shape (Some 5) "MWss" None = Ok [6; 10] /\
  unsupported "foo".
Proof. repeat split; try reflexivity. intros []; unfold denotes; cbn; congruence. Qed.

(** C07: ring lengths ... *)
Theorem C07_ring_lengths : forall nside t, 1 <= nside ->
  (0 <= t < 4 * nside - 1 -> nphi_ring t nside = Ok (ring_length nside t)) /\
  (~ (0 <= t < 4 * nside - 1) -> nphi_ring t nside = Err ValueError).
Proof. intros nside t Hn. split; [apply nphi_ring_spec; auto|apply nphi_ring_error; auto]. Qed.

(** ... ring t and its mirror image have equal length ... *)
Theorem C07_ring_symmetry : forall nside t, 1 <= nside -> 0 <= t < 4 * nside - 1 ->
  nphi_ring (4 * nside - 2 - t) nside = nphi_ring t nside.
Proof.
  intros nside t Hn Ht. rewrite !nphi_ring_spec by lia. f_equal. apply ring_symmetric.
Qed.

(** ... and the rings, laid out one after the other, cover 0..12 nside^2-1, each pixel lying in
    exactly one ring at exactly one position. *)
Theorem C07_rings_partition_pixels : forall nside p, 1 <= nside -> 0 <= p < 12 * (nside * nside) ->
  exists t j,
    (0 <= t < 4 * nside - 1 /\ 0 <= j < ring_length nside t /\
     p = ring_start (ring_length nside) t + j) /\
    forall t' j', 0 <= t' < 4 * nside - 1 -> 0 <= j' < ring_length nside t' ->
      p = ring_start (ring_length nside) t' + j' -> t' = t /\ j' = j.
Proof.
  intros nside p Hn Hp. apply blocks_partition; [lia| |rewrite ring_start_total by auto; exact Hp].
  intros i Hi. pose proof (ring_length_pos nside i Hn). lia.
Qed.

Example C07_example : map (fun t => nphi_ring t 2) [-1; 0; 1; 2; 3; 4; 5; 6; 7]
  = [Err ValueError; Ok 4; Ok 8; Ok 8; Ok 8; Ok 8; Ok 8; Ok 4; Err ValueError].
Proof. reflexivity. Qed.

Print Assumptions C06_equiangular_shapes.
Print Assumptions C06_healpix_shapes.
Print Assumptions C06_extension.
Print Assumptions C06_so3_shapes.
Print Assumptions C06_unsupported_names_raise.
Print Assumptions C06_every_name_is_covered.
Print Assumptions C06_so3_case_refuted.
Print Assumptions C07_ring_lengths.
Print Assumptions C07_ring_symmetry.
Print Assumptions C07_rings_partition_pixels.
