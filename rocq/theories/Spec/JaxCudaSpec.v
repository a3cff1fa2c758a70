(** What the forward ring transform on the device does to its operand. *)
From Verif Require Import Lib.Py Lib.Vec Spec.SamplesSpec Spec.CudaSpec.
Open Scope Z_scope.

(** Every ring of [f] has been replaced in [buf] by its transform, with order zero in the middle. *)
Definition overwritten {A} (dft : vec A -> vec A) (nside : Z) (f buf : vec A) : Prop :=
  vlen buf = vlen f /\ forall t j, 0 <= t < 4 * nside - 1 -> 0 <= j < ring_length nside t ->
    vat buf (ring_start (ring_length nside) t + j)
    = vat (dft (pixels_of_ring nside t f)) ((j - ring_length nside t / 2) mod ring_length nside t).
