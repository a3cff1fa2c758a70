(** C58: the Gauss-Legendre rule and the Newton iteration that computes its weights. *)
From Coq Require Import Reals Lra Lia.
From Coquelicot Require Import Coquelicot.
From Verif Require Import Lib.Py Lib.Vec Model.GaussLegendre Spec.QuadSpec Proofs.GaussProofs Proofs.GaussBounds Proofs.NewtonConv.
Open Scope Z_scope.

(** C58: for every number of nodes there is a rule with increasing nodes in (-1, 1) that is exact for polynomials of
    degree < 2L; the rule is unique. *)
Theorem C58_exists : forall L, 1 <= L -> exists x w, gauss_legendre L x w.
Proof. exact gauss_exists. Qed.
Theorem C58_unique : forall L x w x' w' i, gauss_legendre L x w -> gauss_legendre L x' w' -> 0 <= i < L ->
  vat x i = vat x' i /\ vat w i = vat w' i.
Proof. exact gauss_same. Qed.

(** C58: the weights of the rule lie between 2 / L^2 and 2; in particular they are positive. *)
Theorem C58_range : forall L x w i, gauss_legendre L x w -> 0 <= i < L -> (2 / (IZR L * IZR L) <= vat w i <= 2)%R.
Proof. exact gauss_range. Qed.

(** C58: pp is the derivative of the last polynomial of the recurrence. *)
Theorem C58_derivative : forall L z, 1 <= L -> (z * z <> 1)%R -> is_derive (fun x => fst (legendre_pair L x)) z (newton_pp L z).
Proof. exact pair_derive. Qed.

(** C58: the nodes of the rule, and no other points, are left unchanged by a step; the weight of the code is the weight of the rule. *)
Theorem C58_nodes_fixed : forall L x w i, gauss_legendre L x w -> 0 <= i < L ->
  exists pp, newton_step L (vat x i) = Ok (vat x i, pp) /\ vat w (L - 1 - i) = (2 / ((1 - vat x i ^ 2) * pp ^ 2))%R.
Proof. exact gauss_fixed. Qed.
Theorem C58_fixed_nodes : forall L x w z pp, gauss_legendre L x w -> 1 <= L -> newton_step L z = Ok (z, pp) ->
  exists i, 0 <= i < L /\ z = vat x i.
Proof. exact fixed_gauss. Qed.

(** C58: from any starting points of modulus at most 1, a loop that ends ends near nodes. *)
Theorem C58_ends_near : forall L x w turns z0 z pp, gauss_legendre L x w -> 1 <= L ->
  (forall i, 0 <= i < vlen z0 -> (Rabs (vat z0 i) <= 1)%R) ->
  newton_loop turns L z0 (vconst (vlen z0) 2%R) (vconst (vlen z0) 0%R) = Ok (z, pp) ->
  vlen z = vlen z0 /\ forall i, 0 <= i < vlen z -> exists k, 0 <= k < L /\ (Rabs (vat z i - vat x k) <= (IZR L + 1) / 10 ^ 14)%R.
Proof. exact loop_near. Qed.

(** C58: from the starting points of the code the loop ends within 50 turns for every L, without division by zero, and the i-th
    point it returns is the i-th largest node up to 1e-14. *)
Theorem C58_converges : forall L x w turns, gauss_legendre L x w -> 1 <= L -> (50 <= turns)%nat -> let z0 := newton_start L in
  exists z pp, newton_loop turns L z0 (vconst (vlen z0) 2%R) (vconst (vlen z0) 0%R) = Ok (z, pp) /\ vlen z = (L + 1) / 2 /\
    forall i, 0 <= i < (L + 1) / 2 -> (vat x (L - 1 - i) <= vat z i <= vat x (L - 1 - i) + / 10 ^ 14)%R.
Proof. exact newton_nodes. Qed.

(** C58: the weights returned by quad_weights_gl are the weights of the rule times 2 pi / (2L - 1), with relative error at
    most (2L + 1)^2 1e-14. *)
Theorem C58_weights : forall L x w turns, gauss_legendre L x w -> 1 <= L -> (50 <= turns)%nat ->
  exists q, quad_weights_gl_newton turns L = Ok q /\ vlen q = L /\
    forall i, 0 <= i < L -> (Rabs (vat q i - vat w i * (2 * PI / IZR (2 * L - 1))) <= IZR (2 * L + 1) ^ 2 / 10 ^ 14 * (vat w i * (2 * PI / IZR (2 * L - 1))))%R.
Proof. exact newton_accurate. Qed.

(** for one ring the weight is the area of the sphere *)
Example C58_one : forall turns, (1 <= turns)%nat -> exists q, quad_weights_gl_newton turns 1 = Ok q /\ vlen q = 1 /\ vat q 0 = (4 * PI)%R.
Proof. exact newton_one. Qed.
(** the rules of the theorems exist, here for 5 rings *)
Example C58_five : exists x w q, gauss_legendre 5 x w /\ quad_weights_gl_newton 50 5 = Ok q /\
  (Rabs (vat q 2 - vat w 2 * (2 * PI / 9)) <= 121 / 10 ^ 14 * (vat w 2 * (2 * PI / 9)))%R.
Proof.
  destruct (gauss_exists 5 ltac:(lia)) as (x & w & H). destruct (newton_accurate 5 x w 50 H ltac:(lia) ltac:(lia)) as (q & E & _ & V).
  exists x, w, q. split; [exact H|]. split; [exact E|]. specialize (V 2 ltac:(lia)). change (IZR (2 * 5 - 1)) with 9%R in V.
  replace (IZR (2 * 5 + 1) ^ 2)%R with 121%R in V by (change (IZR (2 * 5 + 1)) with 11%R; ring). exact V.
Qed.

Print Assumptions C58_exists.
Print Assumptions C58_unique.
Print Assumptions C58_range.
Print Assumptions C58_derivative.
Print Assumptions C58_nodes_fixed.
Print Assumptions C58_fixed_nodes.
Print Assumptions C58_ends_near.
Print Assumptions C58_converges.
Print Assumptions C58_weights.
