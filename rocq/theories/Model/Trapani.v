(** Model of the Trapani & Navaza recursion for the Wigner d-matrices at pi/2, over the reals.
    Arrays are checked numpy arrays. The caller's array is updated in place and returned by the
    loop-based and vectorised variants; the model returns it. _arg_checks
    (s2fft/recursions/trapani.py:776-792) has no effect. *)
From Coq Require Import Reals String.
From Verif Require Import Lib.Py Lib.Sums Lib.Cplx Lib.Vec Lib.Arr.
Open Scope Z_scope.

(** the index of the entry m, mm *)
Definition tcell (L m mm : Z) : list Z := [m + (L - 1); mm + (L - 1)].
(** range(hi, lo - 1, -1) *)
Definition down (hi lo : Z) : list Z := map (fun i => hi - i) (zrange 0 (hi + 1 - lo)).

(** trapani.py:41-67 init_nonjax, 69-93 init_jax *)
Definition trapani_init_body (dl : ndarray R) (L : Z) : result (ndarray R) := awrite dl [0 + L - 1; 0 + L - 1] 1%R.
(** trapani.py:8-38 init: only "loop" is compared without regard to case *)
Definition trapani_init (dl : ndarray R) (L : Z) (implementation : string) : result (ndarray R) :=
  if streq (lower implementation) "loop" then trapani_init_body dl L
  else if streq implementation "vectorized" then trapani_init_body dl L
  else if streq implementation "jax" then trapani_init_body dl L
  else Err ValueError.

(** Equations (9) and (10): the factors *)
Definition fact9 (el : Z) : R := (- sqrt (IZR (2 * el - 1) / IZR (2 * el)))%R.
Definition fact10 (el mm : Z) : R := sqrt (IZR el / 2 * IZR (2 * el - 1) / IZR (el + mm) / IZR (el + mm - 1)).
(** Equation (11): sqrt((el - m) * (el + m + 1)) and the factor of t2 *)
Definition t1f (el m : Z) : R := sqrt (IZR ((el - m) * (el + m + 1))).
Definition t2f (el m : Z) : R := sqrt (IZR ((el - m - 1) * (el + m + 2)) / IZR (el - m) / IZR (el + m + 1)).

(** trapani.py:133-145 (and 209-222, 286-301): dmm; [top] is the last column written. The
    factor of dmm[0] divides Python integers: ZeroDivisionError for el = 0. *)
Definition trapani_dmm (dl : ndarray R) (L el top : Z) : result (vec R) :=
  if el =? 0 then Err ZeroDivisionError else
  let* x := aread dl (tcell L (el - 1) 0) in
  let* dmm := vwrite (vconst L 0%R) 0 (fact9 el * x)%R in
  foldM (fun dmm mm =>
    let* x := aread dl (tcell L (el - 1) (mm - 1)) in
    vwrite dmm mm (fact10 el mm * x)%R) (zrange 1 (top + 1)) dmm.

(** trapani.py:96-174 compute_eighth *)
Definition compute_eighth (dl : ndarray R) (L el : Z) : result (ndarray R) :=
  let* dmm := trapani_dmm dl L el el in
  let* dl := foldM (fun dl mm => let* x := vread dmm mm in awrite dl (tcell L el mm) x) (zrange 0 (el + 1)) dl in
  foldM (fun dl mm =>
    let* dl :=
      (let m := el - 1 in
       let* x := aread dl (tcell L (m + 1) mm) in
       awrite dl (tcell L m mm) (2 * IZR mm / t1f el m * x)%R) in
    foldM (fun dl m =>
      let* x := aread dl (tcell L (m + 1) mm) in
      let* y := aread dl (tcell L (m + 2) mm) in
      let t1 := (2 * IZR mm / t1f el m * x)%R in
      let t2 := (t2f el m * y)%R in
      awrite dl (tcell L m mm) (t1 - t2)%R)
      (down (el - 2) mm) dl)
    (zrange 0 (el + 1)) dl.

(** trapani.py:177-245 compute_quarter_vectorized: the fancy indices mm + (L - 1) with
    mm = 0..el are the slice L-1 : L+el of the row *)
Definition compute_quarter_vectorized (dl : ndarray R) (L el : Z) : result (ndarray R) :=
  let* dmm := trapani_dmm dl L el el in
  let* dl := row_op (fun _ y => y) dl (el + (L - 1)) (L - 1) (L + el) (vslice dmm 0 (el + 1)) in
  let m := el - 1 in
  let* r := row_slice dl (m + 1 + (L - 1)) (L - 1) (L + el) in
  let* dl := row_op (fun _ y => y) dl (m + (L - 1)) (L - 1) (L + el)
               (mkVec (vlen r) (fun mm => 2 * IZR mm / t1f el m * vat r mm)%R) in
  foldM (fun dl m =>
    let* r1 := row_slice dl (m + 1 + (L - 1)) (L - 1) (L + el) in
    let* r2 := row_slice dl (m + 2 + (L - 1)) (L - 1) (L + el) in
    row_op (fun _ y => y) dl (m + (L - 1)) (L - 1) (L + el)
      (mkVec (vlen r1) (fun mm => 2 * IZR mm / t1f el m * vat r1 mm - t2f el m * vat r2 mm)%R))
    (down (el - 2) 0) dl.

(** trapani.py:315-331: lax.scan over the factors with carry (row m+1, row m+2) *)
Fixpoint scan_rows (facts : list (R * R)) (s1 s2 : vec R) : list (vec R) :=
  match facts with
  | [] => []
  | (t1, t2) :: facts =>
      let s0 := mkVec (vlen s1) (fun mm => 2 * IZR mm / t1 * vat s1 mm - t2 * vat s2 mm)%R in
      s0 :: scan_rows facts s0 s1
  end.
(** trapani.py:247-339 compute_quarter_jax: all L columns are computed, with garbage outside
    mm <= el; the rows m < 0 are computed with the factors of row 0. For el = 0, where JAX would
    produce NaN, the model raises. *)
Definition compute_quarter_jax (dl : ndarray R) (L el : Z) : result (ndarray R) :=
  let* dmm := trapani_dmm dl L el (L - 1) in
  let* dl := row_op (fun _ y => y) dl (el + (L - 1)) (L - 1) (2 * L - 1) dmm in
  let m := el - 1 in
  let* r := row_slice dl (m + 1 + (L - 1)) (L - 1) (2 * L - 1) in
  let* dl := row_op (fun _ y => y) dl (m + (L - 1)) (L - 1) (2 * L - 1)
               (mkVec (vlen r) (fun mm => 2 * IZR mm / t1f el m * vat r mm)%R) in
  let ms := map (fun i => i - (L - 1) + el) (down (L - 1 - 2) 0) in
  let facts := map (fun m => let mc := if m <? 0 then 0 else m in (t1f el mc, t2f el mc)) ms in
  let* s1 := row_slice dl (el - 1 + (L - 1)) (L - 1) (2 * L - 1) in
  let* s2 := row_slice dl (el + (L - 1)) (L - 1) (2 * L - 1) in
  foldM (fun dl p => row_op (fun _ y => y) dl (fst p + (L - 1)) (L - 1) (2 * L - 1) (snd p))
    (combine ms (scan_rows facts s1 s2)) dl.

(** dl[m, mm] = val(m, mm) for index arrays of pairs: the right-hand side is evaluated first *)
Fixpoint eval_all {X} (f : X -> result R) (l : list X) : result (list R) :=
  match l with [] => Ok [] | x :: l => let* y := f x in let* ys := eval_all f l in Ok (y :: ys) end.
Definition cells_set (dl : ndarray R) (L : Z) (ix : list (Z * Z)) (val : Z -> Z -> result R) : result (ndarray R) :=
  let* vs := eval_all (fun p => val (fst p) (snd p)) ix in
  foldM (fun dl pv => awrite dl (tcell L (fst (fst pv)) (snd (fst pv))) (snd pv)) (combine ix vs) dl.
(** np.meshgrid(m, mm) *)
Definition meshgrid (m mm : list Z) : list (Z * Z) := flat_map (fun y => map (fun x => (x, y)) m) mm.

(** trapani.py:342-371 fill_eighth2quarter *)
Definition fill_eighth2quarter (dl : ndarray R) (L el : Z) : result (ndarray R) :=
  foldM (fun dl m => foldM (fun dl mm =>
      let* x := aread dl (tcell L mm m) in awrite dl (tcell L m mm) (sgn (m + mm) * x)%R)
    (zrange (m + 1) (el + 1)) dl) (zrange 0 (el + 1)) dl.
(** trapani.py:374-403 fill_quarter2half *)
Definition fill_quarter2half (dl : ndarray R) (L el : Z) : result (ndarray R) :=
  foldM (fun dl mm => foldM (fun dl m =>
      let* x := aread dl (tcell L (- m) mm) in awrite dl (tcell L m mm) (sgn (el + mm) * x)%R)
    (zrange (- el) 0) dl) (zrange 0 (el + 1)) dl.
(** trapani.py:406-437 fill_quarter2half_vectorized (top = el), 440-475 fill_quarter2half_jax (top = L - 1) *)
Definition fill_quarter2half_grid (top : Z) (dl : ndarray R) (L el : Z) : result (ndarray R) :=
  cells_set dl L (meshgrid (zrange (- top) 0) (zrange 0 (top + 1))) (fun m mm =>
    let* x := aread dl (tcell L (- m) mm) in Ok (sgn (el + mm) * x)%R).
(** trapani.py:477-509 fill_half2full *)
Definition fill_half2full (dl : ndarray R) (L el : Z) : result (ndarray R) :=
  foldM (fun dl mm => foldM (fun dl m =>
      let* x := aread dl (tcell L m (- mm)) in awrite dl (tcell L m mm) (sgn (el + Z.abs m) * x)%R)
    (zrange (- el) (el + 1)) dl) (zrange (- el) 0) dl.
(** trapani.py:512-543 fill_half2full_vectorized (top = el), 546-581 fill_half2full_jax (top = L - 1) *)
Definition fill_half2full_grid (top : Z) (dl : ndarray R) (L el : Z) : result (ndarray R) :=
  cells_set dl L (meshgrid (zrange (- top) (top + 1)) (zrange (- top) 0)) (fun m mm =>
    let* x := aread dl (tcell L m (- mm)) in Ok (sgn (el + Z.abs m) * x)%R).

(** trapani.py:635-666 compute_full_loop *)
Definition compute_full_loop (dl : ndarray R) (L el : Z) : result (ndarray R) :=
  let* dl := compute_eighth dl L el in
  let* dl := fill_eighth2quarter dl L el in
  let* dl := fill_quarter2half dl L el in
  fill_half2full dl L el.
(** trapani.py:669-706 compute_quarter *)
Definition compute_quarter (dl : ndarray R) (L el : Z) : result (ndarray R) :=
  let* dl := compute_eighth dl L el in fill_eighth2quarter dl L el.
(** trapani.py:709-739 compute_full_vectorized *)
Definition compute_full_vectorized (dl : ndarray R) (L el : Z) : result (ndarray R) :=
  let* dl := compute_quarter_vectorized dl L el in
  let* dl := fill_quarter2half_grid el dl L el in
  fill_half2full_grid el dl L el.
(** trapani.py:742-773 compute_full_jax *)
Definition compute_full_jax (dl : ndarray R) (L el : Z) : result (ndarray R) :=
  let* dl := compute_quarter_jax dl L el in
  let* dl := fill_quarter2half_grid (L - 1) dl L el in
  fill_half2full_grid (L - 1) dl L el.

(** trapani.py:583-632 compute_full *)
Definition trapani_full (dl : ndarray R) (L el : Z) (implementation : string) : result (ndarray R) :=
  if streq (lower implementation) "loop" then compute_full_loop dl L el
  else if streq implementation "vectorized" then compute_full_vectorized dl L el
  else if streq implementation "jax" then compute_full_jax dl L el
  else Err ValueError.

(** init followed by compute_full for el = 1..l *)
Definition trapani_run (dl : ndarray R) (L l : Z) (implementation : string) : result (ndarray R) :=
  let* dl := trapani_init dl L implementation in
  foldM (fun dl el => trapani_full dl L el implementation) (zrange 1 (l + 1)) dl.
