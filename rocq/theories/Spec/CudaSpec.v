(** Vocabulary for the CUDA properties. *)
From Verif Require Import Lib.Py Lib.Vec Model.Cuda Spec.SamplesSpec.
Open Scope Z_scope.

(** The flat (row-major) buffer of a table with rows of length [w]. *)
Definition is_flat {A} (rows w : Z) (table : vec (vec A)) (flat : vec A) : Prop :=
  vlen table = rows /\ vlen flat = rows * w /\
  forall t, 0 <= t < rows -> vlen (vat table t) = w /\
    forall k, 0 <= k < w -> vat flat (t * w + k) = vat (vat table t) k.

(** Pixels of ring t of a map in ring order. *)
Definition pixels_of_ring {A} (nside t : Z) (f : vec A) : vec A :=
  mkVec (ring_length nside t) (fun p => vat f (ring_start (ring_length nside) t + p)).

(** A transform of vectors that keeps the length and only looks at the entries. *)
Definition length_preserving {A} (f : vec A -> vec A) : Prop := forall x, vlen (f x) = vlen x.
Definition extensional {A} (f : vec A -> vec A) : Prop := forall x y, veq x y -> veq (f x) (f y).

(** Histories of API calls: a descriptor is built, or a transform runs for a descriptor. *)
Inductive call :=
| CallBuild (nside L : Z) (reality forward normalize double : bool)
| CallTransform (d : descriptor).
Definition call_ok (c : call) : Prop :=
  match c with
  | CallBuild nside _ _ _ _ _ => 1 <= nside
  | CallTransform d => 1 <= d_nside d
  end.
Definition after_call (w : world) (c : call) : world :=
  match c with
  | CallBuild nside L reality forward normalize double =>
      snd (build nside L reality forward normalize double w)
  | CallTransform d => snd (get_exec d w)
  end.
Definition after (history : list call) : world := fold_left after_call history empty_world.

(** Two executors behave alike on every buffer. *)
Definition same_behaviour (A : Type) (e1 e2 : executor) : Prop :=
  forall (dft : vec A -> vec A) (s1 s2 : Z -> A -> A) (buf : vec A),
    exec_forward dft s1 s2 e1 buf = exec_forward dft s1 s2 e2 buf /\
    exec_backward dft s1 s2 e1 buf = exec_backward dft s1 s2 e2 buf.
(** The executor a process gets that initialises for [d] once and does nothing else. *)
Definition fresh_executor (d : descriptor) : executor := fst (initialize new_executor d).
