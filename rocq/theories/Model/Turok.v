(** Model of the Turok & Bucher recursion (NumPy), over the reals: np.sqrt, np.log, np.exp, the
    trigonometric functions and the comparisons are the exact ones. Array accesses are checked. *)
From Coq Require Import Reals.
From Verif Require Import Lib.Py Lib.Vec Lib.Sums Lib.Cplx Lib.Arr.
Open Scope Z_scope.

(** numpy.isclose(a, b, atol=atol) with the default rtol = 1e-5: |a - b| <= atol + rtol * |b|.
    The literals are decimal fractions. *)
Definition isclose (a b atol : R) : bool :=
  if Rle_dec (Rabs (a - b)) (atol + / 100000 * Rabs b) then true else false.
(** 1e-8 and 1e10 *)
Definition atol8 : R := (/ 100000000)%R.
Definition big_const : R := 10000000000%R.

(** (-1) ** k for an integer exponent k *)
Definition msign (k : Z) : R := if Z.even k then 1%R else (-1)%R.

(** s2fft/recursions/turok.py:172-176: log_first_row. [n] is its length, [top] the largest i. *)
Definition turok_log_first_row (el n top : Z) (c2 lt : R) : result (vec R) :=
  let* v := vwrite (vconst n 0%R) 0 (2 * IZR el * ln (Rabs c2))%R in
  foldM (fun v i =>
    let ratio := (IZR (2 * el + 2 - i) / IZR (i - 1))%R in
    let* x := vread v (i - 2) in
    vwrite v (i - 1) (x + ln ratio / 2 + lt)%R)
    (zrange 2 (top + 1)) v.

(** s2fft/recursions/turok.py:182-185: cpi and cp2. *)
Definition turok_cp (el : Z) : result (vec R * vec R) :=
  let* cpi := vwrite (vconst (el + 1) 0%R) 0 (2 / sqrt (IZR (2 * el)))%R in
  foldM (fun '(cpi, cp2) m =>
    let* cpi := vwrite cpi (m - 1) (2 / sqrt (IZR (m * (2 * el + 1 - m))))%R in
    let* a := vread cpi (m - 1) in
    let* b := vread cpi (m - 2) in
    let* cp2 := vwrite cp2 (m - 1) (a / b)%R in
    Ok (cpi, cp2))
    (zrange 2 (el + 1)) (cpi, vconst (el + 1) 0%R).

(** s2fft/recursions/turok.py:208-210: dl[lim + sgn*im] *= bigi for im in range(m+1) *)
Definition turok_rescale (dl : vec R) (lim sg m : Z) : result (vec R) :=
  foldM (fun dl im =>
    let* x := vread dl (lim + sg * im) in
    vwrite dl (lim + sg * im) (x * (1 / big_const))%R)
    (zrange 0 (m + 1)) dl.

(** s2fft/recursions/turok.py:195-210: one half slice, before the final scaling. The entry
    lrenorm[i] belongs to this half slice only and is carried as a number. *)
Definition turok_half (dl cpi cp2 : vec R) (el slice lim sg : Z) (c s omc : R) : result (vec R * R) :=
  let* dl := vwrite dl lim 1%R in
  let lamb := ((IZR (el + 1) * omc - IZR slice + c) / s)%R in
  let* x := vread dl lim in
  let* cp0 := vread cpi 0 in
  let* dl := vwrite dl (lim + sg * 1) (lamb * x * cp0)%R in
  foldM (fun '(dl, lrenorm) m =>
    let lamb := ((IZR (el + 1) * omc - IZR slice + IZR m * c) / s)%R in
    let* cp := vread cpi (m - 1) in
    let* a := vread dl (lim + sg * (m - 1)) in
    let* q := vread cp2 (m - 1) in
    let* b := vread dl (lim + sg * (m - 2)) in
    let* dl := vwrite dl (lim + sg * m) (lamb * cp * a - q * b)%R in
    let* x := vread dl (lim + sg * m) in
    if Rlt_dec big_const x then
      let* dl := turok_rescale dl lim sg m in
      Ok (dl, lrenorm - ln big_const)%R
    else Ok (dl, lrenorm))
    (zrange 2 (el + 1)) (dl, 0%R).

(** s2fft/recursions/turok.py:111-235 compute_quarter_slice. Line 178-179: sign[i] is
    (t/|t|) ** ((slice-1) % 2). *)
Definition turok_quarter_slice (dl : vec R) (beta : R) (el L mm : Z) (positive_m_only : bool) : result (vec R) :=
  if isclose beta 0 atol8 then vwrite dl (L - 1 + mm) 1%R
  else if isclose beta PI atol8 then vwrite dl (L - 1 - mm) (msign (el + mm))
  else if el =? 0 then vwrite dl (L - 1) 1%R
  else
    let c := cos beta in
    let s := sin beta in
    let t := tan (- beta / 2) in
    let lt := ln (Rabs t) in
    let c2 := cos (beta / 2) in
    let omc := (1 - c)%R in
    let slice0 := el + mm + 1 in
    let slice1 := el - mm + 1 in
    let* lfr := turok_log_first_row el (2 * el + 1) (Z.max slice0 slice1) c2 lt in
    let sign slice := if (slice - 1) mod 2 =? 0 then 1%R else (t / Rabs t)%R in
    let* (cpi, cp2) := turok_cp el in
    let* dl :=
      if positive_m_only then Ok dl
      else
        let* (dl, lrenorm) := turok_half dl cpi cp2 el slice0 (L - 1 - el) 1 c s omc in
        let* l0 := vread lfr (slice0 - 1) in
        let renorm := (sign slice0 * exp (l0 - lrenorm))%R in
        foldM (fun dl m =>
          let* x := vread dl (L - 1 - el + 1 * m) in
          vwrite dl (L - 1 - el + 1 * m) (x * renorm)%R)
          (zrange 0 el) dl in
    let* (dl, lrenorm) := turok_half dl cpi cp2 el slice1 (L - 1 + el) (-1) c s omc in
    let* l1 := vread lfr (slice1 - 1) in
    let renorm := (sign slice1 * exp (l1 - lrenorm))%R in
    let* dl := foldM (fun dl m =>
        let* x := vread dl (L - 1 + el + -1 * m) in
        vwrite dl (L - 1 + el + -1 * m) (msign ((mm - m + el) mod 2) * x * renorm)%R)
        (zrange 0 (el + 1)) dl in
    foldM (fun dl m =>
      let* x := vread dl (m + L - 1) in
      vwrite dl (m + L - 1) (x * msign (Z.abs (mm - m)))%R)
      (zrange (if positive_m_only then 0 else - el) (el + 1)) dl.

(** s2fft/recursions/turok.py:44-108 compute_slice. The warning is not modelled. *)
Definition turok_slice (beta : R) (el L mm : Z) (positive_m_only : bool) : result (vec R) :=
  if el <? mm then Err ValueError
  else if L <=? el then Err ValueError
  else
    let pmo := positive_m_only && (mm =? 0) in
    turok_quarter_slice (vconst (2 * L - 1) 0%R) beta el L mm pmo.

(** ** The full matrix *)

(** s2fft/recursions/turok.py:294-300: log_first_row and sign of compute_quarter *)
Definition turok_first_row (ell : Z) (c2 t : R) : result (vec R * vec R) :=
  let n := 2 * ell + 1 in
  let* lfr := vwrite (vconst n 0%R) 0 (2 * IZR ell * ln (Rabs c2))%R in
  let* sgnv := vwrite (vconst n 0%R) 0 1%R in
  foldM (fun '(lfr, sgnv) i =>
    let m := ell + 1 - i in
    let ratio := sqrt (IZR (m + ell + 1) / IZR (ell - m)) in
    let* x := vread lfr (i - 2) in
    let* lfr := vwrite lfr (i - 1) (x + ln ratio + ln (Rabs t))%R in
    let* y := vread sgnv (i - 2) in
    let* sgnv := vwrite sgnv (i - 1) (y * t / Rabs t)%R in
    Ok (lfr, sgnv))
    (zrange 2 (2 * ell + 2)) (lfr, sgnv).

(** s2fft/recursions/turok.py:303-309: cpi, cp and cp2 of compute_quarter *)
Definition turok_cp_full (ell : Z) : result (vec R * vec R) :=
  let n := 2 * ell + 1 in
  let* (cpi, cp) := foldM (fun '(cpi, cp) m =>
    let xm := ell - m in
    let* cpi := vwrite cpi (m - 1) (2 / sqrt (IZR (ell * (ell + 1) - xm * (xm + 1))))%R in
    let* x := vread cpi (m - 1) in
    let* cp := vwrite cp (m - 1) (1 / x)%R in
    Ok (cpi, cp))
    (zrange 1 (ell + 2)) (vconst n 0%R, vconst n 0%R) in
  let* cp2 := foldM (fun cp2 m =>
    let* a := vread cpi (m - 1) in
    let* b := vread cp (m - 2) in
    vwrite cp2 (m - 1) (a * b)%R)
    (zrange 2 (ell + 2)) (vconst n 0%R) in
  Ok (cpi, cp2).

(** s2fft/recursions/turok.py:316-330 and 334-347: one row [index] of the recursion, whose m loop
    runs over range(2, mtop). lrenorm[index-1] is carried as a number. *)
Definition turok_row (dl : ndarray R) (cpi cp2 : vec R) (ell lp1 index mtop : Z) (c s omc : R) : result (ndarray R * R) :=
  let* dl := awrite dl [index - lp1; 1 - lp1] 1%R in
  let lamb := ((IZR (ell + 1) * omc - IZR index + c) / s)%R in
  let* x := aread dl [index - lp1; 1 - lp1] in
  let* cp0 := vread cpi 0 in
  let* dl := awrite dl [index - lp1; 2 - lp1] (lamb * x * cp0)%R in
  foldM (fun '(dl, lrenorm) m =>
    let lamb := ((IZR (ell + 1) * omc - IZR index + IZR m * c) / s)%R in
    let* cp := vread cpi (m - 1) in
    let* a := aread dl [index - lp1; m - lp1] in
    let* q := vread cp2 (m - 1) in
    let* b := aread dl [index - lp1; m - 1 - lp1] in
    let* dl := awrite dl [index - lp1; m + 1 - lp1] (lamb * cp * a - q * b)%R in
    let* x := aread dl [index - lp1; m + 1 - lp1] in
    if Rlt_dec big_const x then
      let* dl := foldM (fun dl im =>
          let* y := aread dl [index - lp1; im - lp1] in
          awrite dl [index - lp1; im - lp1] (y * (1 / big_const))%R)
          (zrange 1 (m + 2)) dl in
      Ok (dl, lrenorm - ln big_const)%R
    else Ok (dl, lrenorm))
    (zrange 2 mtop) (dl, 0%R).

(** s2fft/recursions/turok.py:350-361: scaling of one row, columns j in range(1, jtop) *)
Definition turok_row_scale (dl : ndarray R) (lfr sgnv lrenorm : vec R) (lp1 i jtop : Z) : result (ndarray R) :=
  let* sg := vread sgnv (i - 1) in
  let* l0 := vread lfr (i - 1) in
  let* l1 := vread lrenorm (i - 1) in
  let renorm := (sg * exp (l0 - l1))%R in
  foldM (fun dl j =>
    let* x := aread dl [i - lp1; j - lp1] in
    awrite dl [i - lp1; j - lp1] (x * renorm)%R)
    (zrange 1 jtop) dl.

(** numpy.identity written into the centre block (line 259-262) *)
Definition turok_identity (dl : ndarray R) (ell L : Z) : ndarray R :=
  mat (dim0 dl) (dim1 dl) (fun r c =>
    if (L - 1 - ell <=? r) && (r <? L + ell) && (L - 1 - ell <=? c) && (c <? L + ell)
    then if r =? c then 1%R else 0%R else at2 dl r c).

(** s2fft/recursions/turok.py:238-365 compute_quarter *)
Definition turok_quarter (dl : ndarray R) (beta : R) (ell L : Z) : result (ndarray R) :=
  if isclose beta 0 atol8 then Ok (turok_identity dl ell L)
  else if isclose beta PI atol8 then
    foldM (fun dl m => awrite dl [L - 1 - m; L - 1 + m] (msign (ell + m))) (zrange (- ell) (ell + 1)) dl
  else if ell =? 0 then awrite dl [L - 1; L - 1] 1%R
  else
    let lp1 := 1 - (L - 1 - ell) in
    let c := cos beta in
    let s := sin beta in
    let t := tan (- beta / 2) in
    let c2 := cos (beta / 2) in
    let omc := (1 - c)%R in
    let* (lfr, sgnv) := turok_first_row ell c2 t in
    let* (cpi, cp2) := turok_cp_full ell in
    let* dl := awrite dl [1 - lp1; 1 - lp1] 1%R in
    let* dl := awrite dl [2 * ell + 1 - lp1; 1 - lp1] 1%R in
    let lrenorm := vconst (2 * ell + 1) 0%R in
    let* (dl, lrenorm) := foldM (fun '(dl, lrenorm) index =>
        let* (dl, r) := turok_row dl cpi cp2 ell lp1 index (if 2 <? index then index else 2) c s omc in
        let* lrenorm := vwrite lrenorm (index - 1) r in
        Ok (dl, lrenorm))
        (zrange 2 (ell + 2)) (dl, lrenorm) in
    let* (dl, lrenorm) := foldM (fun '(dl, lrenorm) index =>
        let* (dl, r) := turok_row dl cpi cp2 ell lp1 index
                           (if index <? 2 * ell then 2 * ell - index + 2 else 2) c s omc in
        let* lrenorm := vwrite lrenorm (index - 1) r in
        Ok (dl, lrenorm))
        (zrange (ell + 2) (2 * ell + 1)) (dl, lrenorm) in
    let* dl := foldM (fun dl i => turok_row_scale dl lfr sgnv lrenorm lp1 i (i + 1)) (zrange 1 (ell + 2)) dl in
    foldM (fun dl i => turok_row_scale dl lfr sgnv lrenorm lp1 i (2 * ell + 2 - i + 1))
      (zrange (ell + 2) (2 * ell + 2)) dl.

(** s2fft/recursions/turok.py:368-413 fill. The running sign of the loops at 394-397 and 401-405 is
    the closed form of its value at (i, j). *)
Definition turok_copy (dl : ndarray R) (tr tc sr sc : Z) (sg : R) : result (ndarray R) :=
  let* x := aread dl [sr; sc] in awrite dl [tr; tc] (x * sg)%R.
Definition turok_fill (dl : ndarray R) (ell L : Z) : result (ndarray R) :=
  let lp1 := 1 - (L - 1 - ell) in
  let* dl := foldM (fun dl i => foldM (fun dl j =>
      turok_copy dl (2 * ell + 2 - i - lp1) (2 * ell + 2 - j - lp1) (j - lp1) (i - lp1) 1%R)
      (zrange (ell + 1) (2 * ell + 1 - i + 1)) dl) (zrange 1 (ell + 1)) dl in
  let* dl := foldM (fun dl i => foldM (fun dl j =>
      turok_copy dl (i - lp1) (j - lp1) (j - lp1) (i - lp1) (- msign (j - (i + 1)))%R)
      (zrange (i + 1) (ell + 2)) dl) (zrange 1 (ell + 2)) dl in
  let* dl := foldM (fun dl i =>
      let* dl := foldM (fun dl j =>
          turok_copy dl (j - lp1) (i - lp1) (i - lp1) (j - lp1) (msign (i + 1) * msign (j - 1))%R)
          (zrange 1 (2 * ell + 2 - i + 1)) dl in
      foldM (fun dl j =>
          turok_copy dl (j - lp1) (i - lp1) (2 * ell + 2 - i - lp1) (2 * ell + 2 - j - lp1) 1%R)
          (zrange i (2 * ell + 2)) dl)
      (zrange (ell + 2) (2 * ell + 2)) dl in
  foldM (fun dl i => foldM (fun dl j =>
      turok_copy dl (j - lp1) (i - lp1) (2 * ell + 2 - i - lp1) (2 * ell + 2 - j - lp1) 1%R)
      (zrange (2 * ell + 3 - i) (i - 1 + 1)) dl)
      (zrange (ell + 2) (2 * ell + 2)) dl.

(** s2fft/recursions/turok.py:6-41 compute_full *)
Definition turok_full (beta : R) (el L : Z) : result (ndarray R) :=
  if L <=? el then Err ValueError
  else
    let dl := zeros 0%R [2 * L - 1; 2 * L - 1] in
    let* dl := turok_quarter dl beta el L in
    turok_fill dl el L.
