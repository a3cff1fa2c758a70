(** Numeric updates of numpy arrays: [a[idx] += v], and assignments to and additions into the
    slices of a matrix. *)
From Coq Require Import Reals.
From Coquelicot Require Import Complex.
From Verif Require Export Lib.Py Lib.Vec.
Open Scope Z_scope.

(** a[idx] += v *)
Definition aplus {T} (add : T -> T -> T) (a : ndarray T) (idx : list Z) (v : T) : result (ndarray T) :=
  let* x := aread a idx in awrite a idx (add x v).
Notation raplus := (aplus Rplus).
Notation caplus := (aplus Cplus).

(** A matrix and its entry at (r, c); numpy slices of a matrix with numpy's clamping. *)
Definition mat {T} (n m : Z) (f : Z -> Z -> T) : ndarray T :=
  mkArr [n; m] (fun ix => f (nth 0 ix 0) (nth 1 ix 0)).
Definition at2 {T} (a : ndarray T) (r c : Z) : T := get a [r; c].
Definition dim0 {T} (a : ndarray T) : Z := nth 0 (shape a) 0.
Definition dim1 {T} (a : ndarray T) : Z := nth 1 (shape a) 0.

(** a[r0:r1, c0:c1] as a copy *)
Definition slice2 {T} (a : ndarray T) (r0 r1 c0 c1 : Z) : ndarray T :=
  mat (slice_len (dim0 a) r0 r1) (slice_len (dim1 a) c0 c1)
    (fun r c => at2 a (slice_lo (dim0 a) r0 + r) (slice_lo (dim1 a) c0 + c)).

Definition in_slice2 {T} (a : ndarray T) (r0 r1 c0 c1 r c : Z) : bool :=
  (slice_lo (dim0 a) r0 <=? r) && (r <? slice_lo (dim0 a) r0 + slice_len (dim0 a) r0 r1)
  && (slice_lo (dim1 a) c0 <=? c) && (c <? slice_lo (dim1 a) c0 + slice_len (dim1 a) c0 c1).

(** a[r0:r1, c0:c1] = v for a scalar v *)
Definition fill2 {T} (a : ndarray T) (r0 r1 c0 c1 : Z) (v : T) : ndarray T :=
  mat (dim0 a) (dim1 a) (fun r c => if in_slice2 a r0 r1 c0 c1 r c then v else at2 a r c).

(** a.at[r0:r1, c0:c1].add(b); the shapes must agree *)
Definition slice2_add {T} (add : T -> T -> T) (a : ndarray T) (r0 r1 c0 c1 : Z) (b : ndarray T) : result (ndarray T) :=
  if negb ((dim0 b =? slice_len (dim0 a) r0 r1) && (dim1 b =? slice_len (dim1 a) c0 c1)) then Err ValueError
  else Ok (mat (dim0 a) (dim1 a) (fun r c =>
         if in_slice2 a r0 r1 c0 c1 r c
         then add (at2 a r c) (at2 b (r - slice_lo (dim0 a) r0) (c - slice_lo (dim1 a) c0))
         else at2 a r c)).

(** elementwise product of matrices of equal shape, and by a scalar *)
Definition mmul {T} (mul : T -> T -> T) (a b : ndarray T) : result (ndarray T) :=
  if negb ((dim0 a =? dim0 b) && (dim1 a =? dim1 b)) then Err ValueError
  else Ok (mat (dim0 a) (dim1 a) (fun r c => mul (at2 a r c) (at2 b r c))).
Definition mscal {T} (f : T -> T) (a : ndarray T) : ndarray T :=
  mat (dim0 a) (dim1 a) (fun r c => f (at2 a r c)).

(** ** Rows, columns and axis-wise operations of matrices *)
Definition row {T} (a : ndarray T) (r : Z) : vec T := mkVec (dim1 a) (fun c => at2 a r c).
Definition col {T} (a : ndarray T) (c : Z) : vec T := mkVec (dim0 a) (fun r => at2 a r c).

(** a function of vectors applied along the last / the first axis; the new length is the one the
    function gives for the first row / column *)
Definition map_rows {T} (g : vec T -> vec T) (a : ndarray T) : ndarray T :=
  mat (dim0 a) (vlen (g (row a 0))) (fun r c => vat (g (row a r)) c).
Definition map_cols {T} (g : vec T -> vec T) (a : ndarray T) : ndarray T :=
  mat (vlen (g (col a 0))) (dim1 a) (fun r c => vat (g (col a c)) r).

(** np.flip(a, axis=0) *)
Definition flip0 {T} (a : ndarray T) : ndarray T :=
  mat (dim0 a) (dim1 a) (fun r c => at2 a (dim0 a - 1 - r) c).

(** a[r0:r1, c0:c1] = b; the shapes must agree *)
Definition slice2_set {T} (a : ndarray T) (r0 r1 c0 c1 : Z) (b : ndarray T) : result (ndarray T) :=
  slice2_add (fun _ y => y) a r0 r1 c0 c1 b.

(** a[r, s:e] op= w; the lengths must agree (numpy would also stretch a w of length one) *)
Definition row_op {T} (op : T -> T -> T) (a : ndarray T) (r s e : Z) (w : vec T) : result (ndarray T) :=
  match norm_index (dim0 a) r with
  | None => Err IndexError
  | Some r' =>
      if vlen w =? slice_len (dim1 a) s e
      then Ok (mkArr (shape a) (fun ix =>
             let c := nth 1 ix 0 in
             if (nth 0 ix 0 =? r') && (slice_lo (dim1 a) s <=? c) && (c <? slice_lo (dim1 a) s + slice_len (dim1 a) s e)
             then op (get a ix) (vat w (c - slice_lo (dim1 a) s)) else get a ix))
      else Err ValueError
  end.
(** a[r, s:e] as a vector *)
Definition row_slice {T} (a : ndarray T) (r s e : Z) : result (vec T) :=
  match norm_index (dim0 a) r with
  | None => Err IndexError
  | Some r' => Ok (vslice (row a r') s e)
  end.

(** a matrix from the vector of its rows, and back *)
Definition of_rows {T} (m : Z) (v : vec (vec T)) : ndarray T := mat (vlen v) m (fun r c => vat (vat v r) c).
Definition to_rows {T} (a : ndarray T) : vec (vec T) := mkVec (dim0 a) (row a).
(** a one-dimensional array from a vector, and back *)
Definition of_vec {T} (v : vec T) : ndarray T := mkArr [vlen v] (fun ix => vat v (nth 0 ix 0)).
Definition to_vec {T} (a : ndarray T) : vec T := mkVec (dim0 a) (fun i => get a [i]).
