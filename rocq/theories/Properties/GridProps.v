(** C08, C09, C10: sample positions. *)
From Coq Require Import Reals Lra Lia ZifyBool.
From Coquelicot Require Import Complex.
From Verif Require Import Lib.Py Lib.PyFacts Lib.Vec Lib.VecFacts Lib.Cplx Lib.Arr Lib.MatFacts
  Model.Samples Model.Grids Spec.SamplesSpec Spec.SphereSpec Spec.GridSpec Proofs.SamplesProofs
  Proofs.GridProofs Proofs.PixelProofs.
Open Scope Z_scope.

(** ** C08 *)
(** The colatitudes are those of the publications, strictly increasing, in [0, pi]. *)
Theorem C08_colatitudes : forall gl name s L nside, denotes name s -> s <> GL ->
  (s = HEALPIX \/ 1 <= L) -> (s = HEALPIX -> 1 <= nside) ->
  exists v, thetas gl (Some L) name (Some nside) = Ok v /\ vlen v = rings s L nside /\
    (forall t, 0 <= t < vlen v -> is_colatitude s L nside t (vat v t) /\ (0 <= vat v t <= PI)%R) /\
    (forall t t', 0 <= t < t' -> t' < vlen v -> (vat v t < vat v t')%R).
Proof.
  intros gl name s L nside Hd Hs HL Hn. destruct (thetas_ok gl name s L nside Hd Hs HL Hn) as (v & E & El & Hv).
  exists v. split; [exact E|]. split; [exact El|]. rewrite El. split.
  - intros t Ht. rewrite Hv by auto. split; [now apply theta_of_colatitude|now apply theta_of_bounds].
  - intros t t' Ht Ht'. rewrite !Hv by lia. apply theta_of_incr; auto; lia.
Qed.
Print Assumptions C08_colatitudes.
Example C08_colatitudes_ex : denotes "HealPix" HEALPIX /\ HEALPIX <> GL /\ (HEALPIX = HEALPIX \/ 1 <= 0) /\ 1 <= 4 /\
  denotes "dh" DH /\ (DH = HEALPIX \/ 1 <= 7).
Proof. repeat split; try lia; try discriminate; auto; try (right; lia). Qed.

(** Which grids contain the poles. *)
Theorem C08_poles : forall gl name s L nside v, denotes name s -> s <> GL ->
  (s = HEALPIX \/ 1 <= L) -> (s = HEALPIX -> 1 <= nside) -> thetas gl (Some L) name (Some nside) = Ok v ->
  match s with
  | MW => (0 < vat v 0)%R /\ vat v (vlen v - 1) = PI
  | MWSS => vat v 0 = 0%R /\ vat v (vlen v - 1) = PI
  | _ => (0 < vat v 0)%R /\ (vat v (vlen v - 1) < PI)%R
  end.
Proof.
  intros gl name s L nside v Hd Hs HL Hn E. destruct (thetas_ok gl name s L nside Hd Hs HL Hn) as (v' & E' & El & Hv).
  rewrite E in E'. injection E' as <-. pose proof PI_RGT_0. rewrite El.
  destruct s; try congruence; try (destruct HL as [HL|HL]; [discriminate|]); cbn [rings] in *.
  - rewrite !Hv by lia. cbn [theta_of]. unfold mw_theta. split.
    + assert (0 < IZR (2 * L - 1))%R by (apply IZR_lt; lia). apply Rdiv_lt_0_compat; change (2 * 0 + 1) with 1; lra.
    + replace (2 * (L - 1) + 1) with (2 * L - 1) by lia. apply frac_PI_1. lia.
  - rewrite !Hv by lia. cbn [theta_of]. unfold mwss_theta. split; [apply frac_PI_0|].
    replace (L + 1 - 1) with L by lia. apply frac_PI_1. lia.
  - rewrite !Hv by lia. cbn [theta_of]. unfold dh_theta. split.
    + assert (0 < IZR (4 * L))%R by (apply IZR_lt; lia). apply Rdiv_lt_0_compat; change (2 * 0 + 1) with 1; lra.
    + rewrite <- (frac_PI_1 (4 * L)) at 2 by lia. apply frac_PI_lt; lia.
  - specialize (Hn eq_refl). rewrite !Hv by lia. cbn [theta_of].
    destruct (acos_height nside 0 Hn ltac:(lia)), (acos_height nside (4 * nside - 1 - 1) Hn ltac:(lia)). lra.
Qed.
Print Assumptions C08_poles.
Example C08_poles_ex : exists v, thetas (mkGL (fun _ => vconst 0 0%R) (fun _ => vconst 0 0%R)) (Some 3) "mw" (Some 0) = Ok v /\ denotes "mw" MW /\
  (MW = HEALPIX \/ 1 <= 3).
Proof. eexists. split; [reflexivity|]. split; [reflexivity|]. right. lia. Qed.

Theorem C08_symmetry : forall gl name s L nside v, denotes name s -> s = MWSS \/ s = DH \/ s = HEALPIX ->
  (s = HEALPIX \/ 1 <= L) -> (s = HEALPIX -> 1 <= nside) -> thetas gl (Some L) name (Some nside) = Ok v ->
  forall t, 0 <= t < vlen v -> vat v (vlen v - 1 - t) = (PI - vat v t)%R.
Proof.
  intros gl name s L nside v Hd Hs HL Hn E t Ht.
  assert (Hg : s <> GL) by (destruct Hs as [-> | [-> | ->]]; discriminate).
  destruct (thetas_ok gl name s L nside Hd Hg HL Hn) as (v' & E' & El & Hv).
  rewrite E in E'. injection E' as <-. rewrite El in *. rewrite !Hv by lia. now apply theta_of_sym.
Qed.
Print Assumptions C08_symmetry.
Example C08_symmetry_ex : exists v, thetas (mkGL (fun _ => vconst 0 0%R) (fun _ => vconst 0 0%R)) (Some 3) "DH" (Some 0) = Ok v /\ denotes "DH" DH /\
  (DH = HEALPIX \/ 1 <= 3).
Proof. eexists. split; [reflexivity|]. split; [reflexivity|]. right. lia. Qed.

(** Gauss-Legendre: for nodes x_0 < ... < x_{n-1} in (-1,1) the colatitudes arccos(x_{n-1-t}) are
    increasing in (0, pi). *)
Theorem C08_gauss_legendre : forall gl name L nside, denotes name GL ->
  (forall i, 0 <= i < vlen (gl_nodes gl L) -> (-1 < vat (gl_nodes gl L) i < 1)%R) ->
  (forall i j, 0 <= i < j -> j < vlen (gl_nodes gl L) -> (vat (gl_nodes gl L) i < vat (gl_nodes gl L) j)%R) ->
  exists v, thetas gl (Some L) name nside = Ok v /\ vlen v = vlen (gl_nodes gl L) /\
    (forall t, 0 <= t < vlen v -> (0 < vat v t < PI)%R /\ cos (vat v t) = vat (gl_nodes gl L) (vlen v - 1 - t)) /\
    (forall t t', 0 <= t < t' -> t' < vlen v -> (vat v t < vat v t')%R).
Proof. exact gl_thetas. Qed.
Print Assumptions C08_gauss_legendre.
Example C08_gauss_legendre_ex : let x := mkVec 2 (fun i => if i =? 0 then (- / 2)%R else (/ 2)%R) in
  (forall i, 0 <= i < vlen x -> (-1 < vat x i < 1)%R) /\
  (forall i j, 0 <= i < j -> j < vlen x -> (vat x i < vat x j)%R).
Proof.
  cbn. split; [intros i _; destruct (i =? 0); lra|]. intros i j Hi Hj. assert (i = 0) as -> by lia. assert (j = 1) as -> by lia.
  cbn. lra.
Qed.

(** t2theta documents "gl" as supported and rejects it. *)
Theorem C08_t2theta_gl_refuted : forall t L nside name, denotes name GL -> t2theta t L name nside = Err ValueError.
Proof. intros t L nside name Hd. unfold t2theta, denotes in *. rewrite Hd. destruct L; reflexivity. Qed.
Print Assumptions C08_t2theta_gl_refuted.
Example C08_t2theta_gl_refuted_ex : denotes "GL" GL. Proof. reflexivity. Qed.

(** ** C09 *)
(** Longitudes of the pixels of a HEALPix ring. *)
Theorem C09_longitudes : forall nside t, 1 <= nside -> 0 <= t < 4 * nside - 1 ->
  exists v, phis_ring t nside = Ok v /\ vlen v = ring_length nside t /\
    (forall p, 0 <= p < vlen v -> vat v p = hp_longitude nside t p /\ (0 <= vat v p < 2 * PI)%R) /\
    (forall p, 0 <= p -> p + 1 < vlen v -> (vat v (p + 1) - vat v p = 2 * PI / IZR (vlen v))%R).
Proof.
  intros nside t Hn Ht. unfold phis_ring. rewrite nphi_ring_spec by auto. cbn [bind]. eexists. split; [reflexivity|].
  split; [reflexivity|]. cbn [vlen vat]. split.
  - intros p Hp. rewrite p2phi_ok by auto. split; [reflexivity|]. now apply longitude_bounds.
  - intros p Hp Hp'. rewrite !p2phi_ok by auto. unfold hp_longitude. rewrite plus_IZR. ring.
Qed.
Print Assumptions C09_longitudes.
Example C09_longitudes_ex : 1 <= 2 /\ 0 <= 5 < 4 * 2 - 1. Proof. lia. Qed.

(** Phase factor of order m: scalar version, vectorised version (numpy and JAX), and the table of the
    precompute transforms all hold exp(+- i m phi_0) with phi_0 the longitude of the first pixel. *)
Theorem C09_phase_shifts : forall L nside t (fwd reality : bool), 1 <= L -> 1 <= nside -> 0 <= t < 4 * nside - 1 ->
  let m0 := if reality then 0 else 1 - L in
  let phase m := cis ((if fwd then -1 else 1) * (IZR m * hp_longitude nside t 0)) in
  (vlen (ring_phase_shift_hp L t nside fwd reality) = L - m0 /\
   forall m, m0 <= m < L -> vread (ring_phase_shift_hp L t nside fwd reality) (m - m0) = Ok (phase m)) /\
  (exists a, ring_phase_shifts_hp L nside fwd reality = Ok a /\ shape a = [4 * nside - 1; L - m0] /\
     forall m, m0 <= m < L -> get a [t; m - m0] = phase m) /\
  (exists a, healpix_phase_shifts L nside fwd = Ok a /\ shape a = [4 * nside - 1; 2 * L - 1] /\
     forall m, 1 - L <= m < L -> get a [t; m - (1 - L)] = phase m).
Proof.
  intros L nside t fwd reality HL Hn Ht m0 phase.
  destruct (phase_shift_ok L nside t fwd reality HL Hn Ht) as (V1 & V2).
  destruct (phase_shifts_ok L nside fwd reality HL Hn) as (a & Ea & Ha).
  destruct (construct_shifts_ok L nside fwd HL Hn) as (b & Eb & Hb).
  split; [split; [exact V1|]|split].
  - intros m Hm. rewrite vread_in by lia. rewrite V2 by auto. reflexivity.
  - exists a. split; [exact Ea|]. split; [exact (proj1 Ha)|]. intros m Hm. fold m0 in Ha.
    change (get a [t; m - m0]) with (at2 a t (m - m0)). rewrite (proj2 Ha) by lia.
    replace (m0 + (m - m0)) with m by lia. reflexivity.
  - exists b. split; [exact Eb|]. split; [exact (proj1 Hb)|]. intros m Hm.
    change (get b [t; m - (1 - L)]) with (at2 b t (m - (1 - L))). rewrite (proj2 Hb) by lia.
    replace (1 - L + (m - (1 - L))) with m by lia. reflexivity.
Qed.
Print Assumptions C09_phase_shifts.
Example C09_phase_shifts_ex : 1 <= 4 /\ 1 <= 2 /\ 0 <= 5 < 4 * 2 - 1 /\ hp_offset 2 5 = (1 / 2)%R /\ hp_offset 2 4 = 0%R.
Proof. repeat split; try lia. Qed.

Theorem C09_shifts_cancel : forall L nside t i, 1 <= L -> 1 <= nside -> 0 <= t < 4 * nside - 1 -> 0 <= i < 2 * L - 1 ->
  exists x y, vread (ring_phase_shift_hp L t nside true false) i = Ok x /\
    vread (ring_phase_shift_hp L t nside false false) i = Ok y /\ (x * y)%C = RtoC 1.
Proof.
  intros L nside t i HL Hn Ht Hi.
  destruct (phase_shift_ok L nside t true false HL Hn Ht) as (V1 & V2).
  destruct (phase_shift_ok L nside t false false HL Hn Ht) as (W1 & W2).
  eexists; eexists. rewrite !vread_in by lia. split; [reflexivity|]. split; [reflexivity|].
  replace i with (1 - L + i - (1 - L)) by lia. rewrite V2, W2 by lia. rewrite <- cis_plus. unfold shift_sign.
  match goal with |- cis ?x = _ => replace x with 0%R by ring end. apply cis_0.
Qed.
Print Assumptions C09_shifts_cancel.
Example C09_shifts_cancel_ex : 1 <= 4 /\ 1 <= 2 /\ 0 <= 5 < 4 * 2 - 1 /\ 0 <= 6 < 2 * 4 - 1. Proof. lia. Qed.

(** Longitudes of the equiangular schemes. *)
Theorem C09_equiangular : forall name s L, denotes name s -> s <> HEALPIX -> 1 <= L ->
  exists v, phis_equiang L name = Ok v /\ vlen v = per_ring s L /\
    forall p, 0 <= p < per_ring s L -> vat v p = equi_longitude s L p.
Proof. exact equi_phi_ok. Qed.
Print Assumptions C09_equiangular.
Example C09_equiangular_ex : denotes "mwSS" MWSS /\ MWSS <> HEALPIX /\ 1 <= 3. Proof. repeat split; try lia; discriminate. Qed.

(** ** C10 *)
Theorem C10_range : forall nside theta phi, 1 <= nside -> (0 <= phi < 2 * PI)%R ->
  0 <= hp_ang2pix nside theta phi < 12 * (nside * nside).
Proof. exact range_lemma. Qed.
Print Assumptions C10_range.
Example C10_range_ex : 1 <= 3 /\ (0 <= 6 < 2 * PI)%R. Proof. pose proof PI2_3_2. split; [lia|]. unfold PI2 in *. lra. Qed.

(** The centre of pixel p of ring t is mapped to its ring-order number. *)
Theorem C10_pixel_centres : forall nside t p theta, 1 <= nside -> 0 <= t < 4 * nside - 1 -> 0 <= p < ring_length nside t ->
  is_colatitude HEALPIX 0 nside t theta ->
  hp_ang2pix nside theta (hp_longitude nside t p) = ring_start (ring_length nside) t + p.
Proof. intros nside t p theta Hn Ht Hp (_ & Hc). now apply centre_lemma. Qed.
Print Assumptions C10_pixel_centres.
Example C10_pixel_centres_ex : 1 <= 2 /\ 0 <= 3 < 4 * 2 - 1 /\ 0 <= 7 < ring_length 2 3 /\ is_colatitude HEALPIX 0 2 3 (PI / 2).
Proof.
  pose proof PI_RGT_0. repeat split; try (cbn; lia); try lra. rewrite cos_PI2. unfold hp_height. cbn. lra.
Qed.

(** A position on the centre line of a ring lies in a pixel of that ring, but longitudes just below
    2 pi on every second equatorial ring are mapped to the first pixel of the next ring: the
    equatorial branch does not wrap its column index. *)
Theorem C10_wrap_refuted : forall nside, 1 <= nside ->
  exists t theta phi, 0 <= t < 4 * nside - 1 /\ is_colatitude HEALPIX 0 nside t theta /\ (0 <= phi < 2 * PI)%R /\
    hp_ang2pix nside theta phi = ring_start (ring_length nside) (t + 1).
Proof.
  intros nside Hn. set (d := (PI / IZR (8 * nside))%R). pose proof PI_RGT_0.
  assert (N : (1 <= IZR nside)%R) by (apply (IZR_le 1); lia).
  assert (D : (0 < d < PI / IZR (4 * nside))%R).
  { unfold d. rewrite !mult_IZR. split; [apply Rdiv_lt_0_compat; lra|].
    apply Rmult_lt_compat_l; auto. apply Rinv_lt_contravar; nra. }
  assert (D' : (PI / IZR (4 * nside) <= PI)%R).
  { apply (Rmult_le_reg_r (IZR (4 * nside))); [rewrite mult_IZR; lra|]. unfold Rdiv. rewrite Rmult_assoc, Rinv_l by (rewrite mult_IZR; lra).
    rewrite mult_IZR. nra. }
  destruct (acos_height nside nside Hn ltac:(lia)) as (B & E).
  exists nside, (acos (hp_height nside nside)), (2 * PI - d)%R. split; [lia|]. split; [split; auto|]. split; [lra|].
  rewrite (wrap_lemma nside d Hn D _ E). rewrite ring_start_succ by lia. reflexivity.
Qed.
Print Assumptions C10_wrap_refuted.
Example C10_wrap_refuted_ex : 1 <= 5. Proof. lia. Qed.
