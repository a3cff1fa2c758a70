(** Model of the Risbo recursion for the Wigner d-matrices, over the reals (floating point is
    replaced by exact arithmetic). Arrays are checked numpy arrays: an index out of range would be
    an IndexError value. *)
From Coq Require Import Reals.
From Verif Require Import Lib.Py Lib.Sums Lib.Arr.
Open Scope Z_scope.

Definition rsqrt (k : Z) : R := sqrt (IZR k).

(** s2fft/recursions/risbo.py:106-120 _arg_checks *)
Definition risbo_arg_checks (dl : ndarray R) (beta : R) (L el : Z) : result unit :=
  if negb ((0 <=? el) && (el <? L)) then Err AssertionError
  else if negb ((dim0 dl =? dim1 dl) && (dim1 dl =? 2 * L - 1)) then Err AssertionError
  else if Rle_dec 0 beta then if Rle_dec beta PI then Ok tt else Err AssertionError
  else Err AssertionError.

(** s2fft/recursions/risbo.py:61-74: the half-step from dl (degree el-1) to dd. *)
Definition risbo_half1 (dl : ndarray R) (L el : Z) (coshb sinhb : R) (dd : ndarray R) : result (ndarray R) :=
  let j := 2 * el - 1 in
  foldM (fun dd k =>
    foldM (fun dd i =>
      let* x := aread dl [k - (el - 1) + L - 1; i - (el - 1) + L - 1] in
      let dlj := (x / IZR j)%R in
      let* dd := raplus dd [i; k] (rsqrt (j - i) * rsqrt (j - k) * dlj * coshb)%R in
      let* dd := raplus dd [i + 1; k] (- (rsqrt (i + 1) * rsqrt (j - k) * dlj * sinhb))%R in
      let* dd := raplus dd [i; k + 1] (rsqrt (j - i) * rsqrt (k + 1) * dlj * sinhb)%R in
      raplus dd [i + 1; k + 1] (rsqrt (i + 1) * rsqrt (k + 1) * dlj * coshb)%R)
      (zrange 0 j) dd)
    (zrange 0 j) dd.

(** s2fft/recursions/risbo.py:80-101: the half-step from dd to dl (degree el). *)
Definition risbo_half2 (dd : ndarray R) (L el : Z) (coshb sinhb : R) (dl : ndarray R) : result (ndarray R) :=
  let j := 2 * el in
  foldM (fun dl k =>
    foldM (fun dl i =>
      let* x := aread dd [i; k] in
      let ddj := (x / IZR j)%R in
      let* dl := raplus dl [k - el + L - 1; i - el + L - 1] (rsqrt (j - i) * rsqrt (j - k) * ddj * coshb)%R in
      let* dl := raplus dl [k - el + L - 1; i + 1 - el + L - 1] (- (rsqrt (i + 1) * rsqrt (j - k) * ddj * sinhb))%R in
      let* dl := raplus dl [k + 1 - el + L - 1; i - el + L - 1] (rsqrt (j - i) * rsqrt (k + 1) * ddj * sinhb)%R in
      raplus dl [k + 1 - el + L - 1; i + 1 - el + L - 1] (rsqrt (i + 1) * rsqrt (k + 1) * ddj * coshb)%R)
      (zrange 0 j) dl)
    (zrange 0 j) dl.

(** s2fft/recursions/risbo.py:28-103: body of compute_full. The caller's array is updated in
    place and also returned; the model returns it. *)
Definition risbo_step (dl : ndarray R) (beta : R) (L el : Z) : result (ndarray R) :=
  if el =? 0 then awrite dl [el + L - 1; el + L - 1] 1%R
  else if el =? 1 then
    let cosb := cos beta in
    let sinb := sin beta in
    let coshb := cos (beta / 2) in
    let sinhb := sin (beta / 2) in
    let sqrt2 := sqrt 2 in
    let* dl := awrite dl [-1 + L - 1; -1 + L - 1] (coshb ^ 2)%R in
    let* dl := awrite dl [-1 + L - 1; 0 + L - 1] (sinb / sqrt2)%R in
    let* dl := awrite dl [-1 + L - 1; 1 + L - 1] (sinhb ^ 2)%R in
    let* dl := awrite dl [0 + L - 1; -1 + L - 1] (- sinb / sqrt2)%R in
    let* dl := awrite dl [0 + L - 1; 0 + L - 1] cosb in
    let* dl := awrite dl [0 + L - 1; 1 + L - 1] (sinb / sqrt2)%R in
    let* dl := awrite dl [1 + L - 1; -1 + L - 1] (sinhb ^ 2)%R in
    let* dl := awrite dl [1 + L - 1; 0 + L - 1] (- sinb / sqrt2)%R in
    awrite dl [1 + L - 1; 1 + L - 1] (coshb ^ 2)%R
  else
    let coshb := (- cos (beta / 2))%R in
    let sinhb := sin (beta / 2) in
    let dd := zeros 0%R [2 * el + 2; 2 * el + 2] in
    let* dd := risbo_half1 dl L el coshb sinhb dd in
    let dl := fill2 dl (- el + L - 1) (el + 1 + L - 1) (- el + L - 1) (el + 1 + L - 1) 0%R in
    risbo_half2 dd L el coshb sinhb dl.

(** s2fft/recursions/risbo.py:4-103 compute_full *)
Definition risbo_full (dl : ndarray R) (beta : R) (L el : Z) : result (ndarray R) :=
  let* _ := risbo_arg_checks dl beta L el in risbo_step dl beta L el.

(** s2fft/recursions/risbo.py:123-229 compute_full_vectorised. Every statement of the function
    is an elementwise operation over the leading axis t, so the model runs the statements for
    each plane dl[t] with beta[t] (lists of equal length; numpy's broadcasting of other lengths
    is not modelled). There are no argument checks in this variant. *)
Fixpoint risbo_full_vec (dls : list (ndarray R)) (betas : list R) (L el : Z) : result (list (ndarray R)) :=
  match dls, betas with
  | dl :: dls, beta :: betas =>
      let* dl := risbo_step dl beta L el in
      let* dls := risbo_full_vec dls betas L el in
      Ok (dl :: dls)
  | [], [] => Ok []
  | _, _ => Err ValueError
  end.

(** The calls made by every user of the recursion (e.g. precompute_transforms/construct.py:129-130):
    el = 0, 1, ..., lmax in order, starting from an array of zeros. *)
Definition risbo_run (beta : R) (L lmax : Z) : result (ndarray R) :=
  foldM (fun dl el => risbo_full dl beta L el) (zrange 0 (lmax + 1)) (zeros 0%R [2 * L - 1; 2 * L - 1]).
Definition risbo_run_vec (betas : list R) (L lmax : Z) : result (list (ndarray R)) :=
  foldM (fun dls el => risbo_full_vec dls betas L el) (zrange 0 (lmax + 1))
    (map (fun _ => zeros 0%R [2 * L - 1; 2 * L - 1]) betas).

(** ** s2fft/recursions/risbo_jax.py:8-117 compute_full
    einsum("i,k->ki", f(i), g(k)): a matrix with row k and column i. *)
Definition outer (j : Z) (f g : Z -> R) : ndarray R := mat j j (fun k i => (f i * g k)%R).

(** s2fft/recursions/risbo_jax.py:70-81 and 97-116: the four additions of a half-step, into the
    given row and column offsets of the target. *)
Definition risbo_jax_half (tgt src : ndarray R) (j r0 c0 : Z) (coshb sinhb : R) : result (ndarray R) :=
  let sqrt_jm := fun i => rsqrt (j - i) in
  let sqrt_p1 := fun i => rsqrt (i + 1) in
  let* w1 := mmul Rmult (outer j sqrt_jm sqrt_jm) src in
  let* tgt := slice2_add Rplus tgt r0 (r0 + j) c0 (c0 + j) (mscal (fun x => x * coshb)%R w1) in
  let* w2 := mmul Rmult (outer j (fun i => - sqrt_p1 i)%R sqrt_jm) src in
  let* tgt := slice2_add Rplus tgt r0 (r0 + j) (c0 + 1) (c0 + 1 + j) (mscal (fun x => x * sinhb)%R w2) in
  let* w3 := mmul Rmult (outer j sqrt_jm sqrt_p1) src in
  let* tgt := slice2_add Rplus tgt (r0 + 1) (r0 + 1 + j) c0 (c0 + j) (mscal (fun x => x * sinhb)%R w3) in
  let* w4 := mmul Rmult (outer j sqrt_p1 sqrt_p1) src in
  slice2_add Rplus tgt (r0 + 1) (r0 + 1 + j) (c0 + 1) (c0 + 1 + j) (mscal (fun x => x * coshb)%R w4).

(** s2fft/recursions/risbo_jax.py:30-117. Simplifications: the gather
    dl[k-(el-1)+L-1][:, i-(el-1)+L-1] (line 68) is the slice of the same rows and columns; the
    slice bounds of lines 97-112 are written as offset, offset + 2el. *)
Definition risbo_jax (dl : ndarray R) (beta : R) (L el : Z) : result (ndarray R) :=
  if el =? 0 then awrite dl [el + L - 1; el + L - 1] 1%R
  else if el =? 1 then
    let cosb := cos beta in
    let sinb := sin beta in
    let coshb := cos (beta / 2) in
    let sinhb := sin (beta / 2) in
    let sqrt2 := sqrt 2 in
    let* dl := awrite dl [L - 2; L - 2] (coshb ^ 2)%R in
    let* dl := awrite dl [L - 2; L - 1] (sinb / sqrt2)%R in
    let* dl := awrite dl [L - 2; L] (sinhb ^ 2)%R in
    let* dl := awrite dl [L - 1; L - 2] (- sinb / sqrt2)%R in
    let* dl := awrite dl [L - 1; L - 1] cosb in
    let* dl := awrite dl [L - 1; L] (sinb / sqrt2)%R in
    let* dl := awrite dl [L; L - 2] (sinhb ^ 2)%R in
    let* dl := awrite dl [L; L - 1] (- sinb / sqrt2)%R in
    awrite dl [L; L] (coshb ^ 2)%R
  else
    let coshb := (- cos (beta / 2))%R in
    let sinhb := sin (beta / 2) in
    let dd := zeros 0%R [2 * el + 2; 2 * el + 2] in
    let j := 2 * el - 1 in
    let dlj := slice2 dl (- (el - 1) + L - 1) (- (el - 1) + L - 1 + j) (- (el - 1) + L - 1) (- (el - 1) + L - 1 + j) in
    let* dd := risbo_jax_half dd dlj j 0 0 coshb sinhb in
    let dl := fill2 dl (- el + L - 1) (el + 1 + L - 1) (- el + L - 1) (el + 1 + L - 1) 0%R in
    let j := 2 * el in
    let* dl := risbo_jax_half dl (slice2 dd 0 j 0 j) j (- el + L - 1) (- el + L - 1) coshb sinhb in
    Ok (mscal (fun x => x / IZR (2 * el * (2 * el - 1)))%R dl).

Definition risbo_jax_run (beta : R) (L lmax : Z) : result (ndarray R) :=
  foldM (fun dl el => risbo_jax dl beta L el) (zrange 0 (lmax + 1)) (zeros 0%R [2 * L - 1; 2 * L - 1]).
