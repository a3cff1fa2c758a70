(** C28: the Turok & Bucher recursion. *)
From Coq Require Import Reals Lra Lia ZifyBool.
From Verif Require Import Lib.Py Lib.PyFacts Lib.Sums Lib.Cplx Lib.Vec Lib.VecFacts Lib.Arr
  Model.Risbo Model.Turok Spec.WignerSpec Proofs.WignerDh Proofs.WignerCalc Proofs.WignerFourier
  Proofs.RisboProofs Proofs.TurokProofs Proofs.TurokFull Properties.RisboProps.
Open Scope Z_scope.

(** A slice holds d^el_{m,mm} at index L-1+m for -L < m < L, zero for |m| > el; with
    positive_m_only (which takes effect for mm = 0 only) the entries m < 0 are zero. *)
Theorem C28_slice : forall beta el L mm pmo,
  0 <= el < L -> Z.abs mm <= el -> away_from_poles beta ->
  exists v, turok_slice beta el L mm pmo = Ok v /\ vlen v = 2 * L - 1 /\
    forall m, - L < m < L -> vread v (L - 1 + m)
      = Ok (if pmo && (mm =? 0) && (m <? 0) then 0%R else wigner_d el m mm beta).
Proof.
  intros beta el L mm pmo Hel Hmm Hb. destruct (slice_ok beta el L mm pmo Hel ltac:(lia) Hb) as (v & E & Hl & Hv).
  exists v. split; [exact E|]. split; [exact Hl|]. intros m Hm. rewrite vread_in by lia. now rewrite Hv.
Qed.
Print Assumptions C28_slice.
Example C28_slice_ex : 0 <= 5 < 7 /\ Z.abs (-3) <= 5 /\ away_from_poles 1 /\ away_from_poles PI.
Proof.
  pose proof PI_4. pose proof PI2_1. repeat split; try lia; [right; right|right; left; reflexivity]. lra.
Qed.

(** The whole matrix. *)
Theorem C28_full : forall beta el L, 0 <= el < L -> away_from_poles beta ->
  exists a, turok_full beta el L = Ok a /\ shape a = [2 * L - 1; 2 * L - 1] /\
    forall m n, - L < m < L -> - L < n < L -> aread a [m + L - 1; n + L - 1] = Ok (wigner_d el m n beta).
Proof.
  intros beta el L Hel Hb. destruct (turok_full_ok el L beta Hel Hb) as (a & E & Hs & Ha).
  exists a. split; [exact E|]. split; [exact Hs|]. intros m n Hm Hn.
  rewrite (rd2 a (2 * L - 1)) by (auto; lia). rewrite Ha by lia. do 2 f_equal; lia.
Qed.
Print Assumptions C28_full.
Example C28_full_ex : 0 <= 5 < 7 /\ away_from_poles 1.
Proof. pose proof PI2_1. split; [lia|right; right]. lra. Qed.

(** Turok and Risbo agree entry by entry. *)
Theorem C28_agrees_with_risbo : forall beta el L, 0 <= el < L -> (0 <= beta <= PI)%R -> away_from_poles beta ->
  exists a b, turok_full beta el L = Ok a /\ risbo_run beta L el = Ok b /\
    forall r c, 0 <= r < 2 * L - 1 -> 0 <= c < 2 * L - 1 -> aread a [r; c] = aread b [r; c].
Proof.
  intros beta el L Hel Hb Hb2. destruct (C28_full beta el L Hel Hb2) as (a & E & _ & Ha).
  destruct (C27_risbo beta L el Hel Hb) as (b & E' & _ & Hg). exists a, b. split; [exact E|]. split; [exact E'|].
  intros r c Hr Hc. replace r with (r - (L - 1) + L - 1) by lia. replace c with (c - (L - 1) + L - 1) by lia.
  rewrite Ha, Hg by lia. reflexivity.
Qed.
Print Assumptions C28_agrees_with_risbo.
Example C28_agrees_with_risbo_ex : 0 <= 5 < 7 /\ (0 <= 1 <= PI)%R /\ away_from_poles 1.
Proof. pose proof PI2_1. repeat split; try lia; try lra. right; right. lra. Qed.

(** Inconsistent arguments raise ValueError. *)
Theorem C28_rejects : forall beta el L mm pmo,
  (el < mm \/ L <= el -> turok_slice beta el L mm pmo = Err ValueError) /\
  (L <= el -> turok_full beta el L = Err ValueError).
Proof.
  intros. unfold turok_slice, turok_full. split; intros H.
  - destruct (Z.ltb_spec el mm); [reflexivity|]. now replace (L <=? el) with true by lia.
  - now replace (L <=? el) with true by lia.
Qed.
Print Assumptions C28_rejects.
Example C28_rejects_ex : (2 < 3 \/ 5 <= 2) /\ 4 <= 4. Proof. lia. Qed.

(** The claim that mm outside -el..el is rejected is false below -el: no error at the poles, and
    the slice returned is not zero although d^el_{m,mm} is. *)
Theorem C28_rejects_negative_refuted : exists el L mm v,
  mm < - el /\ el < L /\ turok_slice 0 el L mm false = Ok v /\ vread v (L - 1 + mm) = Ok 1%R
  /\ wigner_d el mm mm 0 = 0%R.
Proof.
  exists 1, 4, (-2). unfold turok_slice, turok_quarter_slice. rewrite isclose_refl.
  rewrite vwrite_in by (cbn [vlen vconst]; lia). eexists. repeat split; try reflexivity; try lia.
Qed.
Print Assumptions C28_rejects_negative_refuted.

(** The claim fails next to the south pole: within 1e-8 + 1e-5*pi of pi the code returns the
    values at the pole, which are different for every such angle. *)
Theorem C28_near_pole_refuted : forall beta,
  (PI - (/ 100000000 + / 100000 * PI) <= beta < PI)%R ->
  exists v, turok_slice beta 1 2 0 false = Ok v /\ vread v 1 = Ok (-1)%R /\ (-1 < wigner_d 1 0 0 beta)%R.
Proof.
  intros beta Hb. pose proof PI2_1 as P. pose proof PI_4 as P4.
  unfold turok_slice, turok_quarter_slice. cbn [Z.ltb Z.leb Z.compare Pos.compare Pos.compare_cont].
  rewrite isclose_0 by (unfold atol8; lra).
  assert (I : isclose beta PI atol8 = true).
  { unfold isclose. destruct (Rle_dec _ _) as [|G]; [reflexivity|]. exfalso. apply G.
    rewrite Rabs_left, (Rabs_pos_eq PI) by lra. unfold atol8. lra. }
  rewrite I. rewrite vwrite_in by (cbn [vlen vconst]; lia). eexists. repeat split; try reflexivity.
  rewrite wd1_00. replace beta with (PI - (PI - beta))%R by ring. rewrite Rtrigo_facts.cos_pi_minus.
  enough (cos (PI - beta) < cos 0)%R by (rewrite cos_0 in *; lra). apply cos_decreasing_1; lra.
Qed.
Print Assumptions C28_near_pole_refuted.
Example C28_near_pole_refuted_ex : (PI - (/ 100000000 + / 100000 * PI) <= PI - / 100000 < PI)%R.
Proof. pose proof PI2_1. lra. Qed.

(** The docstring's indexing dl[L-1-m] is not the one used. *)
Theorem C28_docstring_index_refuted : exists v,
  turok_slice (PI / 2) 1 2 0 false = Ok v /\ vread v (2 - 1 - 1) <> Ok (wigner_d 1 1 0 (PI / 2)).
Proof.
  pose proof PI_4. pose proof PI2_1.
  destruct (C28_slice (PI / 2) 1 2 0 false ltac:(lia) ltac:(lia)) as (v & E & _ & Hv); [right; right; lra|].
  exists v. split; [exact E|]. change (2 - 1 - 1) with (2 - 1 + -1). rewrite Hv by lia. cbn [andb].
  rewrite wd1_m0, wd1_p0, sin_PI2. intros [= Q]. pose proof (sqrt_lt_R0 2 ltac:(lra)).
  assert (0 < 1 / sqrt 2)%R by (apply Rdiv_lt_0_compat; lra). unfold Rdiv in *. lra.
Qed.
Print Assumptions C28_docstring_index_refuted.
