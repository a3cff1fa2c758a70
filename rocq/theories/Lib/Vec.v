(** One-dimensional arrays with numpy's indexing and slicing rules. *)
From Verif Require Export Lib.Py.
Open Scope Z_scope.

Record vec (A : Type) := mkVec { vlen : Z; vat : Z -> A }.
Arguments mkVec {A} _ _.
Arguments vlen {A} _.
Arguments vat {A} _ _.

(** a[i] *)
Definition vread {A} (v : vec A) (i : Z) : result A :=
  match norm_index (vlen v) i with Some j => Ok (vat v j) | None => Err IndexError end.
Definition vupd {A} (f : Z -> A) (i : Z) (x : A) : Z -> A :=
  fun j => if j =? i then x else f j.
(** a[i] = x *)
Definition vwrite {A} (v : vec A) (i : Z) (x : A) : result (vec A) :=
  match norm_index (vlen v) i with
  | Some j => Ok (mkVec (vlen v) (vupd (vat v) j x))
  | None => Err IndexError
  end.

(** Bounds of the slice s:e of an array of length n: negative bounds count from the end, then
    both are clamped to [0, n]. *)
Definition clamp (n i : Z) : Z := Z.max 0 (Z.min n (if i <? 0 then i + n else i)).
Definition slice_lo (n s : Z) : Z := clamp n s.
Definition slice_len (n s e : Z) : Z := Z.max 0 (clamp n e - clamp n s).
(** a[s:e] (as a copy) *)
Definition vslice {A} (v : vec A) (s e : Z) : vec A :=
  mkVec (slice_len (vlen v) s e) (fun i => vat v (slice_lo (vlen v) s + i)).
(** a[s:e] = w; lengths must agree (broadcasting of length-1 values is not modelled). *)
Definition vassign {A} (v : vec A) (s e : Z) (w : vec A) : result (vec A) :=
  let lo := slice_lo (vlen v) s in
  let n := slice_len (vlen v) s e in
  if negb (vlen w =? n) then Err ValueError
  else Ok (mkVec (vlen v) (fun j => if (lo <=? j) && (j <? lo + n) then vat w (j - lo) else vat v j)).

Definition vmap {A B} (f : A -> B) (v : vec A) : vec B := mkVec (vlen v) (fun i => f (vat v i)).
Definition vconst {A} (n : Z) (x : A) : vec A := mkVec n (fun _ => x).
(** concatenate((a, b)) *)
Definition vapp {A} (a b : vec A) : vec A :=
  mkVec (vlen a + vlen b) (fun i => if i <? vlen a then vat a i else vat b (i - vlen a)).
(** a[::-1] *)
Definition vrev {A} (a : vec A) : vec A := mkVec (vlen a) (fun i => vat a (vlen a - 1 - i)).

(** numpy.fft.fftshift / ifftshift on one axis: np.roll by n//2 and by -(n//2). *)
Definition fftshift {A} (v : vec A) : vec A :=
  mkVec (vlen v) (fun i => vat v ((i - vlen v / 2) mod vlen v)).
Definition ifftshift {A} (v : vec A) : vec A :=
  mkVec (vlen v) (fun i => vat v ((i + vlen v / 2) mod vlen v)).

(** Same length and same entries. *)
Definition veq {A} (a b : vec A) : Prop :=
  vlen a = vlen b /\ forall i, 0 <= i < vlen a -> vat a i = vat b i.
