(** The rings of the schemes stay away from the neighbourhood of the poles. *)
From Coq Require Import Reals ZifyBool Lra.
From Verif Require Import Lib.Py Lib.PyFacts Lib.Vec Lib.Sums Lib.Cplx Model.Grids
  Spec.SamplesSpec Spec.WignerSpec Spec.SphereSpec Spec.GridSpec Spec.SphericalSpec
  Proofs.GridProofs Proofs.SphTop.
Open Scope Z_scope.

Lemma PI_3 : (3 < PI <= 4)%R.
Proof.
  split; [|exact PI_4]. assert (H := PI2_3_2). unfold PI2 in H. lra.
Qed.

(** a pi / b for a and b - a at least 1 and b at most 80000 *)
Lemma frac_away a b : 1 <= a -> a + 1 <= b -> b <= 80000 -> away_from_poles (IZR a * PI / IZR b).
Proof.
  intros Ha Hb Hm. right. right. destruct PI_3 as [P3 P4].
  apply IZR_le in Ha. apply IZR_le in Hb. apply IZR_le in Hm. rewrite plus_IZR in Hb.
  assert (B : (/ 80000 <= / IZR b)%R) by (apply Rinv_le_contravar; lra).
  assert (M : (IZR b * / IZR b = 1)%R) by (apply Rinv_r; lra).
  unfold Rdiv. set (i := (/ IZR b)%R) in *. split.
  - apply (Rlt_le_trans _ (1 * 3 * / 80000)); [lra|]. apply Rmult_le_compat; try lra; nra.
  - assert (A : (IZR a * i <= 1 - i)%R) by nra.
    apply (Rle_lt_trans _ (PI - PI * i)); [|].
    + replace (IZR a * PI * i)%R with (PI * (IZR a * i))%R by ring. replace (PI - PI * i)%R with (PI * (1 - i))%R by ring.
      apply Rmult_le_compat_l; lra.
    + assert (C : (PI * / 80000 <= PI * i)%R) by (apply Rmult_le_compat_l; lra). lra.
Qed.

Lemma acos_away c : (- (1 - / 1000000000) <= c <= 1 - / 1000000000)%R -> away_from_poles (acos c).
Proof.
  intros Hc. right. right. destruct PI_3 as [P3 P4].
  assert (K : forall y, (0 <= y <= PI)%R -> (cos y <= 1 - / 1000000000)%R -> (/ 23000 < y)%R).
  { intros y Hy Hy'. destruct (Rlt_le_dec (/ 23000) y) as [?|B]; [assumption|]. exfalso.
    destruct (pre_cos_bound y 0 ltac:(lra) ltac:(lra)) as [H _].
    unfold cos_approx, cos_term in H. cbn in H. nra. }
  destruct (acos_bound c) as [B1 B2]. split.
  - assert (H := K (acos c) ltac:(lra)). rewrite cos_acos in H by lra. lra.
  - assert (H := K (PI - acos c)%R ltac:(lra)). rewrite Rtrigo_facts.cos_pi_minus, cos_acos in H by lra. lra.
Qed.

Lemma mw_away L t : 1 <= L <= 20000 -> 0 <= t < L -> away_from_poles (mw_theta L t).
Proof.
  intros HL Ht. unfold mw_theta. destruct (Z.eq_dec (2 * t + 1) (2 * L - 1)) as [E|E].
  - right. left. rewrite E. field. apply not_0_IZR. lia.
  - apply frac_away; lia.
Qed.
Lemma mwss_away L t : 1 <= L <= 40000 -> 0 <= t <= L -> away_from_poles (mwss_theta L t).
Proof.
  intros HL Ht. unfold mwss_theta. destruct (Z.eq_dec t 0) as [E|E]; [left; subst t; unfold Rdiv; ring|].
  destruct (Z.eq_dec t L) as [E'|E'].
  - right. left. rewrite E'. field. apply not_0_IZR. lia.
  - apply frac_away; lia.
Qed.
Lemma dh_away L t : 1 <= L <= 20000 -> 0 <= t < 2 * L -> away_from_poles (dh_theta L t).
Proof. intros HL Ht. unfold dh_theta. apply frac_away; lia. Qed.

Lemma height_away nside t : 1 <= nside <= 15000 -> 0 <= t < 4 * nside - 1 ->
  (- (1 - / 1000000000) <= hp_height nside t <= 1 - / 1000000000)%R.
Proof.
  intros Hn Ht.
  assert (N : (1 <= IZR nside <= 15000)%R) by (split; apply IZR_le; lia).
  assert (I : (/ IZR (nside * nside) * IZR (nside * nside) = 1)%R) by (apply Rinv_l, not_0_IZR; nia).
  assert (J : (/ IZR nside * IZR nside = 1)%R) by (apply Rinv_l, not_0_IZR; nia).
  assert (P : (0 < / IZR nside)%R) by (apply Rinv_0_lt_compat; lra).
  assert (K : forall i, 1 <= i < nside -> (/ 1000000000 <= IZR (i * i) / (3 * IZR (nside * nside)) <= 1 / 3)%R).
  { intros i Hi. rewrite mult_IZR in *. assert (1 <= IZR i <= IZR nside)%R by (split; apply IZR_le; lia).
    rewrite mult_IZR in *. split.
    - apply (Rmult_le_reg_r (3 * (IZR nside * IZR nside))); [nra|]. unfold Rdiv. rewrite Rmult_assoc, Rinv_l by nra. nra.
    - apply (Rmult_le_reg_r (3 * (IZR nside * IZR nside))); [nra|]. unfold Rdiv. rewrite Rmult_assoc, Rinv_l by nra. nra. }
  unfold hp_height. destruct (Z.ltb_spec (t + 1) nside) as [B|B].
  - specialize (K (t + 1) ltac:(lia)). lra.
  - destruct (Z.leb_spec (t + 1) (3 * nside)) as [B'|B'].
    + assert (T : (IZR nside <= IZR (t + 1) <= 3 * IZR nside)%R) by (rewrite <- mult_IZR; split; apply IZR_le; lia).
      assert (E : (2 * IZR (t + 1) / (3 * IZR nside) = (2 / 3) * (IZR (t + 1) * / IZR nside))%R) by (field; lra).
      rewrite E. assert (1 <= IZR (t + 1) * / IZR nside <= 3)%R.
      { split; (apply (Rmult_le_reg_r (IZR nside)); [lra|]); rewrite Rmult_assoc, J; lra. }
      lra.
    + specialize (K (4 * nside - 1 - t) ltac:(lia)). lra.
Qed.

Lemma small_away nodes s L nside : small_grid nodes s L nside -> rings_away nodes s L nside.
Proof.
  intros H t Ht. destruct s; cbn [small_grid rings colatitude is_colatitude] in *.
  - eexists. split; [reflexivity|]. now apply mw_away.
  - eexists. split; [reflexivity|]. apply mwss_away; lia.
  - eexists. split; [reflexivity|]. now apply dh_away.
  - specialize (H (L - 1 - t) ltac:(lia)). exists (acos (nodes (L - 1 - t))). split; [split; [apply acos_bound|apply cos_acos; lra]|now apply acos_away].
  - exists (acos (hp_height nside t)). destruct (acos_height nside t ltac:(lia) Ht) as (B & E). split; [split; assumption|].
    apply acos_away. now apply height_away.
Qed.
Lemma small_forward nodes s L nside : small_grid nodes s L nside -> forward_rings_away nodes s L nside.
Proof.
  intros H. destruct s; cbn [forward_rings_away]; try (now apply small_away); cbn [small_grid] in H; intros t Ht; apply mwss_away; lia.
Qed.
