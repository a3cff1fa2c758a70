(** C60: the JAX version of the Turok & Bucher recursion. *)
From Coq Require Import Reals Lra Lia ZifyBool.
From Verif Require Import Lib.Py Lib.PyFacts Lib.Sums Lib.Cplx Lib.Vec Lib.VecFacts Lib.Ext
  Model.Turok Model.TurokJax Spec.WignerSpec Proofs.WignerCalc Proofs.TurokProofs Proofs.TurokJaxProofs Proofs.RisboProofs Properties.RisboProps Properties.TurokProps.
Open Scope Z_scope.

(** C60: the slice holds d^el_{m,mm} at index L-1+m for |m| <= el, at the poles and at angles 1e-10 or more away from them. *)
Theorem C60_slice : forall beta el L mm, 0 <= el < L -> Z.abs mm <= el ->
  (beta = 0 \/ beta = PI \/ / 10000000000 <= beta <= PI - / 10000000000)%R ->
  exists v, tj_slice beta el L mm = Ok v /\ vlen v = 2 * L - 1 /\
    forall m, - el <= m <= el -> vat v (L - 1 + m) = Fin (wigner_d el m mm beta).
Proof. exact (fun beta el L mm Hel Hmm Hb => tj_slice_ok beta el L mm Hel (proj1 (Z.abs_le mm el) Hmm) Hb). Qed.
Example C60_slice_ex : 0 <= 5 < 7 /\ Z.abs (-3) <= 5 /\ (/ 10000000000 <= 1 <= PI - / 10000000000)%R.
Proof. pose proof PI2_1. repeat split; try lia; lra. Qed.

(** C60: no infinity and no NaN is returned, whatever the angle, degree and order. *)
Theorem C60_finite : forall beta el L mm v, tj_slice beta el L mm = Ok v -> forall j, exists r, vat v j = Fin r.
Proof. exact tj_slice_finite. Qed.
Example C60_finite_ex : exists v, tj_slice 1 2 9 1 = Ok v /\ vlen v = 17.
Proof.
  pose proof PI2_1. destruct (C60_slice 1 2 9 1 ltac:(lia) ltac:(lia)) as (v & E & Hl & _); [right; right; lra|]. exists v. split; [exact E|exact Hl].
Qed.

(** C60: agreement with the numpy version on the orders of the degree, at the angles where both are exact. *)
Theorem C60_agrees : forall beta el L mm, 0 <= el < L -> Z.abs mm <= el -> away_from_poles beta ->
  exists v w, tj_slice beta el L mm = Ok v /\ turok_slice beta el L mm false = Ok w /\
    forall m, - el <= m <= el -> vat v (L - 1 + m) = Fin (vat w (L - 1 + m)).
Proof.
  intros beta el L mm Hel Hmm Hb. destruct (C60_slice beta el L mm Hel Hmm) as (v & E & _ & Hv).
  { destruct Hb as [-> | [-> | Hb]]; [auto|auto|right; right]. pose proof PI2_1. lra. }
  destruct (slice_ok beta el L mm false Hel ltac:(lia) Hb) as (w & E' & _ & Hw). exists v, w. split; [exact E|]. split; [exact E'|].
  intros m Hm. rewrite Hv, Hw by lia. reflexivity.
Qed.
Example C60_agrees_ex : 0 <= 5 < 7 /\ Z.abs (-3) <= 5 /\ away_from_poles 1.
Proof. pose proof PI2_1. repeat split; try lia; right; right; lra. Qed.

(** C60, finding: unlike in the numpy version the entries outside the degree are not zero. *)
Theorem C60_padding_refuted : exists v, tj_slice 0 1 4 0 = Ok v /\ vat v (4 - 1 + -3) = Fin (-1) /\ wigner_d 1 (-3) 0 0 = 0%R.
Proof.
  pose proof tj_tol_pos. eexists. split; [apply (tj_slice_north 0 1 4 0 5); try lia; try reflexivity; [rewrite Rabs_R0; lra|rewrite jidx_pos; lia]|].
  split; [|apply wig_out; lia]. unfold tj_reindex. rewrite jset_len. cbn [vlen vconst].
  match goal with |- vat (jmul ?d ?i ?f _) _ = _ => destruct (jmul_ok d i f (- 4 + 1) (4 + 1)) as (_ & J & _); [lia|cbn [vlen jset]; intros; rewrite !jidx_pos in * by lia; lia|] end.
  specialize (J (-3) ltac:(lia)). cbn [vlen] in J. rewrite jidx_pos in J by lia. etransitivity; [apply J; lia|].
  cbn. f_equal. ring.
Qed.

(** C60, finding: an order outside the degree is not refused, and the slice returned is not zero. *)
Theorem C60_rejects_refuted : exists v, tj_slice 0 1 4 (-2) = Ok v /\ vat v (4 - 1 + 1) = Fin (-1) /\ wigner_d 1 1 (-2) 0 = 0%R.
Proof.
  pose proof tj_tol_pos. eexists. split; [apply (tj_slice_north 0 1 4 (-2) (-1)); try lia; try reflexivity; [rewrite Rabs_R0; lra|rewrite jidx_neg; lia]|].
  split; [|apply wig_out; lia]. destruct (reindex_ok 1 4 (-2) ltac:(lia) (jset (vconst (2 * 4 - 1) (Fin 0)) (-1) (Fin 1)) eq_refl) as (_ & _ & R).
  rewrite R by lia. cbn. f_equal. ring.
Qed.

(** C60, finding: within 1e-10 of the north pole the values at the pole are returned. *)
Theorem C60_near_pole_refuted : forall beta, (0 < beta < / 10000000000)%R ->
  exists v, tj_slice beta 1 2 0 = Ok v /\ vat v 1 = Fin 1 /\ (wigner_d 1 0 0 beta < 1)%R.
Proof.
  intros beta Hb. pose proof PI2_1. eexists. split; [apply (tj_slice_north beta 1 2 0 1); try lia; try reflexivity; [rewrite Rabs_pos_eq; unfold tj_tol; lra|rewrite jidx_pos; lia]|].
  split.
  - destruct (reindex_ok 1 2 0 ltac:(lia) (jset (vconst (2 * 2 - 1) (Fin 0)) 1 (Fin 1)) eq_refl) as (_ & _ & R).
    specialize (R 0 ltac:(lia)). change (2 - 1 + 0) with 1 in R. rewrite R. cbn. f_equal. ring.
  - rewrite wd1_00. rewrite <- cos_0. apply cos_decreasing_1; lra.
Qed.
Example C60_near_pole_refuted_ex : (0 < / 20000000000 < / 10000000000)%R. Proof. lra. Qed.

Print Assumptions C60_slice.
Print Assumptions C60_finite.
Print Assumptions C60_agrees.
Print Assumptions C60_padding_refuted.
Print Assumptions C60_rejects_refuted.
Print Assumptions C60_near_pole_refuted.
