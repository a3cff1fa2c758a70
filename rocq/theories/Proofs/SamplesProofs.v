From Coq Require Import ZifyBool Psatz.
From Verif Require Import Lib.Py Lib.PyFacts Model.Samples Spec.SamplesSpec.
Open Scope Z_scope.
Set Default Proof Using "Type".

Lemma denotes_unsupported name : unsupported name \/ exists s, denotes name s.
Proof.
  unfold unsupported, denotes.
  destruct (String.eqb_spec (lower name) "mw"); [right; now exists MW|].
  destruct (String.eqb_spec (lower name) "mwss"); [right; now exists MWSS|].
  destruct (String.eqb_spec (lower name) "dh"); [right; now exists DH|].
  destruct (String.eqb_spec (lower name) "gl"); [right; now exists GL|].
  destruct (String.eqb_spec (lower name) "healpix"); [right; now exists HEALPIX|].
  left. intros []; assumption.
Qed.

Ltac use_name H := unfold denotes in H; rewrite ?H; cbn.

Lemma ntheta_spec name s L nside : denotes name s ->
  ntheta (Some L) name (Some nside) = Ok (rings s L nside).
Proof. intros H. unfold ntheta. use_name H. destruct s; reflexivity. Qed.

Lemma ntheta_eq_spec name s L nside : denotes name s -> s <> HEALPIX ->
  ntheta (Some L) name nside = Ok (rings s L 0).
Proof. intros H Hs. unfold ntheta. use_name H. destruct s; try reflexivity; congruence. Qed.

Lemma nphi_spec name s L : denotes name s -> s <> HEALPIX ->
  nphi_equiang (Some L) name = Ok (per_ring s L).
Proof. intros H Hs. unfold nphi_equiang. use_name H. destruct s; try reflexivity; congruence. Qed.

Lemma f_shape_spec name s L nside : denotes name s -> s <> HEALPIX ->
  f_shape (Some L) name nside = Ok [rings s L 0; per_ring s L].
Proof.
  intros H Hs. unfold f_shape. rewrite (ntheta_eq_spec name s L None H Hs), (nphi_spec name s L H Hs).
  use_name H. destruct s; try reflexivity; congruence.
Qed.

Lemma f_shape_hp name L nside : denotes name HEALPIX ->
  f_shape L name (Some nside) = Ok [12 * (nside * nside)].
Proof.
  intros H. unfold f_shape. use_name H. unfold Z.pow_pos; cbn. rewrite Z.mul_1_r. reflexivity.
Qed.

Lemma ftm_shape_spec name s L nside : denotes name s ->
  ftm_shape (Some L) name (Some nside) = Ok [rings s L nside; orders s L].
Proof.
  intros H. unfold ftm_shape. rewrite (ntheta_spec name s L nside H).
  use_name H. destruct s; reflexivity.
Qed.

Lemma fnab_shape_spec name s L N nside : denotes name s ->
  fnab_shape L N name (Some nside) = Ok [2 * N - 1; rings s L nside; orders s L].
Proof.
  intros H. unfold fnab_shape. rewrite (ntheta_spec name s L nside H).
  use_name H. destruct s; reflexivity.
Qed.

Lemma so3_f_shape_spec s L N nside : s <> HEALPIX ->
  so3_f_shape L N (scheme_name s) nside = Ok [2 * N - 1; rings s L 0; per_ring s L].
Proof. intros Hs. destruct s; try reflexivity; congruence. Qed.

Lemma so3_f_shape_hp name L N nside : denotes name HEALPIX ->
  so3_f_shape L N name (Some nside) = Ok [2 * N - 1; 12 * (nside * nside)].
Proof.
  intros H. unfold so3_f_shape, str_in. cbn [existsb].
  assert (E : forall k, lower k <> "healpix"%string -> String.eqb name k = false).
  { intros k Hk. apply String.eqb_neq. intros ->. apply Hk. exact H. }
  rewrite !E by (cbn; congruence). use_name H. unfold Z.pow_pos; cbn. rewrite Z.mul_1_r. reflexivity.
Qed.

Lemma unsup_eqb name s : unsupported name -> String.eqb (lower name) (scheme_name s) = false.
Proof. intros H. apply String.eqb_neq. apply H. Qed.

Lemma unsupported_errors name L nside : unsupported name ->
  ntheta L name nside = Err ValueError /\ nphi_equiang L name = Err ValueError /\
  ftm_shape L name nside = Err ValueError /\ f_shape L name nside = Err ValueError /\
  (forall l, ntheta_extension l name = Err ValueError) /\
  (forall l N, so3_f_shape l N name nside = Err ValueError) /\
  (forall l N, fnab_shape l N name nside = Err ValueError).
Proof.
  intros H.
  pose proof (unsup_eqb name MW H) as E1. pose proof (unsup_eqb name MWSS H) as E2.
  pose proof (unsup_eqb name DH H) as E3. pose proof (unsup_eqb name GL H) as E4.
  pose proof (unsup_eqb name HEALPIX H) as E5. cbn [scheme_name] in *.
  assert (F : forall k s, k = scheme_name s -> String.eqb name k = false).
  { intros k s ->. apply String.eqb_neq. intros ->. apply (H s). unfold denotes.
    destruct s; reflexivity. }
  unfold ntheta, nphi_equiang, ftm_shape, f_shape, ntheta_extension, so3_f_shape, fnab_shape, str_in, streq.
  cbn [existsb]. rewrite E1, E2, E3, E4, E5.
  rewrite (F "mw"%string MW eq_refl), (F "mwss"%string MWSS eq_refl), (F "dh"%string DH eq_refl),
    (F "gl"%string GL eq_refl).
  unfold nphi_equiang, ntheta, str_in, streq. cbn [existsb]. rewrite ?E1, ?E2, ?E3, ?E4, ?E5.
  cbn. destruct L; cbn; repeat split; reflexivity.
Qed.

Lemma ntheta_extension_spec name L : 
  (denotes name MW -> ntheta_extension L name = Ok (2 * L - 1)) /\
  (denotes name MWSS -> ntheta_extension L name = Ok (2 * L)) /\
  (~ denotes name MW -> ~ denotes name MWSS -> ntheta_extension L name = Err ValueError).
Proof.
  unfold ntheta_extension, denotes, streq. cbn [scheme_name]. repeat split.
  - intros ->. reflexivity.
  - intros ->. reflexivity.
  - intros H1 H2. apply String.eqb_neq in H1, H2. now rewrite H1, H2.
Qed.

(** *** rings *)
Lemma nphi_ring_spec nside t : 1 <= nside -> 0 <= t < 4 * nside - 1 ->
  nphi_ring t nside = Ok (ring_length nside t).
Proof.
  intros Hn Ht. unfold nphi_ring, ring_length.
  destruct ((0 <=? t) && (t <? nside - 1)) eqn:E1; [f_equal; lia|].
  destruct ((nside - 1 <=? t) && (t <=? 3 * nside - 1)) eqn:E2; [f_equal; lia|].
  destruct ((3 * nside - 1 <? t) && (t <=? 4 * nside - 2)) eqn:E3; [f_equal; lia|lia].
Qed.

Lemma nphi_ring_error nside t : 1 <= nside -> ~ (0 <= t < 4 * nside - 1) ->
  nphi_ring t nside = Err ValueError.
Proof.
  intros Hn Ht. unfold nphi_ring.
  destruct ((0 <=? t) && (t <? nside - 1)) eqn:E1; [lia|].
  destruct ((nside - 1 <=? t) && (t <=? 3 * nside - 1)) eqn:E2; [lia|].
  destruct ((3 * nside - 1 <? t) && (t <=? 4 * nside - 2)) eqn:E3; [lia|reflexivity].
Qed.

Lemma ring_start_0 len : ring_start len 0 = 0.
Proof. reflexivity. Qed.
Lemma ring_start_succ len t : 0 <= t -> ring_start len (t + 1) = ring_start len t + len t.
Proof.
  intros H. unfold ring_start. rewrite zrange_snoc, map_app, fold_right_app by lia. cbn.
  rewrite Z.add_0_r.
  assert (E : forall l a, fold_right Z.add a l = fold_right Z.add 0 l + a).
  { clear. induction l as [|x l IH]; intros a; cbn; [lia|]. rewrite IH. lia. }
  apply E.
Qed.

Lemma ring_length_even nside t : exists k, ring_length nside t = 4 * k.
Proof. eexists; reflexivity. Qed.
Lemma ring_length_pos nside t : 1 <= nside -> 0 <= t < 4 * nside - 1 -> 4 <= ring_length nside t.
Proof. unfold ring_length. lia. Qed.
Lemma ring_length_le nside t : ring_length nside t <= 4 * nside.
Proof. unfold ring_length. lia. Qed.

(** Closed forms of the ring starts (the formulas used by the CUDA code). *)
Lemma ring_start_north nside t : 1 <= nside -> 0 <= t -> t <= nside - 1 ->
  ring_start (ring_length nside) t = 2 * t * (t + 1).
Proof.
  intros Hn. revert t. z_ind; [reflexivity|].
  intros t Ht IH Hle. replace (Z.succ t) with (t + 1) by lia.
  rewrite ring_start_succ by lia. rewrite IH by lia. unfold ring_length. lia.
Qed.

Lemma ring_start_equator nside k : 1 <= nside -> 0 <= k -> k <= 2 * nside + 1 ->
  ring_start (ring_length nside) (nside - 1 + k) = 2 * nside * (nside - 1) + k * (4 * nside).
Proof.
  intros Hn. revert k. z_ind.
  - intros _. rewrite Z.add_0_r, ring_start_north by lia. lia.
  - intros k Hk IH Hle. replace (nside - 1 + Z.succ k) with (nside - 1 + k + 1) by lia.
    rewrite ring_start_succ by lia. rewrite IH by lia. unfold ring_length. lia.
Qed.

Lemma ring_start_south nside k : 1 <= nside -> 0 <= k -> k <= nside - 1 ->
  ring_start (ring_length nside) (3 * nside + k)
  = 12 * (nside * nside) - 2 * (nside - 1 - k) * (nside - k).
Proof.
  intros Hn. revert k. z_ind.
  - intros _. replace (3 * nside + 0) with (nside - 1 + (2 * nside + 1)) by lia.
    rewrite ring_start_equator by lia. lia.
  - intros k Hk IH Hle. replace (3 * nside + Z.succ k) with (3 * nside + k + 1) by lia.
    rewrite ring_start_succ by lia. rewrite IH by lia. unfold ring_length. nia.
Qed.

Lemma ring_start_total nside : 1 <= nside ->
  ring_start (ring_length nside) (4 * nside - 1) = 12 * (nside * nside).
Proof.
  intros Hn. replace (4 * nside - 1) with (3 * nside + (nside - 1)) by lia.
  rewrite ring_start_south by lia. lia.
Qed.

Lemma ring_start_mono len t t' : 0 <= t -> t <= t' -> (forall i, t <= i < t' -> 0 <= len i) ->
  ring_start len t <= ring_start len t'.
Proof.
  intros Ht Htt. replace t' with (t + (t' - t)) by lia.
  assert (H : 0 <= t' - t) by lia. revert H. generalize (t' - t) as k. z_ind.
  - intros. rewrite Z.add_0_r. lia.
  - intros k Hk IH Hl. replace (t + Z.succ k) with (t + k + 1) by lia.
    rewrite ring_start_succ by lia.
    assert (0 <= len (t + k)) by (apply Hl; lia).
    assert (ring_start len t <= ring_start len (t + k)) by (apply IH; intros; apply Hl; lia). lia.
Qed.

(** Blocks given by a running sum partition an interval. *)
Lemma blocks_partition len n p : 0 <= n -> (forall i, 0 <= i < n -> 0 <= len i) ->
  0 <= p < ring_start len n ->
  exists t j, (0 <= t < n /\ 0 <= j < len t /\ p = ring_start len t + j) /\
    forall t' j', 0 <= t' < n -> 0 <= j' < len t' -> p = ring_start len t' + j' -> t' = t /\ j' = j.
Proof.
  intros Hn Hlen Hp.
  assert (E : exists t j, 0 <= t < n /\ 0 <= j < len t /\ p = ring_start len t + j).
  { revert Hlen Hp. revert n Hn. z_ind.
    - intros _. rewrite ring_start_0. lia.
    - intros n Hn IH Hlen Hp. replace (Z.succ n) with (n + 1) in * by lia.
      rewrite ring_start_succ in Hp by lia.
      destruct (Z_lt_dec p (ring_start len n)).
      + destruct IH as (t & j & H1 & H2 & H3); [intros; apply Hlen; lia|lia|].
        exists t, j. repeat split; auto; lia.
      + exists n, (p - ring_start len n). repeat split; lia. }
  destruct E as (t & j & H1 & H2 & H3). exists t, j. split; [auto|].
  intros t' j' H4 H5 H6.
  destruct (Z.lt_trichotomy t t') as [Hlt|[->|Hlt]].
  - exfalso. assert (ring_start len (t + 1) <= ring_start len t')
      by (apply ring_start_mono; try lia; intros; apply Hlen; lia).
    rewrite ring_start_succ in H by lia. lia.
  - lia.
  - exfalso. assert (ring_start len (t' + 1) <= ring_start len t)
      by (apply ring_start_mono; try lia; intros; apply Hlen; lia).
    rewrite ring_start_succ in H by lia. lia.
Qed.

Lemma ring_symmetric nside t : ring_length nside (4 * nside - 2 - t) = ring_length nside t.
Proof. unfold ring_length. lia. Qed.
