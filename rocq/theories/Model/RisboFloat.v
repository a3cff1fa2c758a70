(** Model of the Risbo recursion in rounded arithmetic. Every arithmetic operation of the code is
    one operation of a record of rounded operations on the reals; nothing is assumed about them
    here. The values of floating-point numbers are reals: overflow, infinities and NaNs are not
    modelled. The negation of a number is exact in floating point, so x -= y is x + (-y). Python
    integers are converted exactly (they are far below 2^53). *)
From Coq Require Import Reals.
From Verif Require Import Lib.Py Lib.Sums Lib.Arr Model.Risbo.
Open Scope Z_scope.

(** numpy's +, *, /, np.sqrt, np.sin, np.cos and the constant np.pi *)
Record arith := mkArith {
  fadd : R -> R -> R; fmul : R -> R -> R; fdiv : R -> R -> R;
  fsqrt : R -> R; fsin : R -> R; fcos : R -> R; fpi : R }.

(** exact arithmetic *)
Definition exact_arith : arith := mkArith Rplus Rmult Rdiv sqrt sin cos PI.

(** s2fft/recursions/risbo.py:106-120 _arg_checks *)
Definition rf_arg_checks (A : arith) (dl : ndarray R) (beta : R) (L el : Z) : result unit :=
  if negb ((0 <=? el) && (el <? L)) then Err AssertionError
  else if negb ((dim0 dl =? dim1 dl) && (dim1 dl =? 2 * L - 1)) then Err AssertionError
  else if Rle_dec 0 beta then if Rle_dec beta (fpi A) then Ok tt else Err AssertionError
  else Err AssertionError.

(** s2fft/recursions/risbo.py:71-74: sqrt_a * sqrt_b * dlj * trig, from the left *)
Definition rf_term (A : arith) (a b : Z) (x t : R) : R :=
  fmul A (fmul A (fmul A (fsqrt A (IZR a)) (fsqrt A (IZR b))) x) t.

(** s2fft/recursions/risbo.py:61-74: the half-step from dl (degree el-1) to dd. *)
Definition rf_half1 (A : arith) (dl : ndarray R) (L el : Z) (coshb sinhb : R) (dd : ndarray R) : result (ndarray R) :=
  let j := 2 * el - 1 in
  foldM (fun dd k =>
    foldM (fun dd i =>
      let* x := aread dl [k - (el - 1) + L - 1; i - (el - 1) + L - 1] in
      let dlj := fdiv A x (IZR j) in
      let* dd := aplus (fadd A) dd [i; k] (rf_term A (j - i) (j - k) dlj coshb) in
      let* dd := aplus (fadd A) dd [i + 1; k] (- rf_term A (i + 1) (j - k) dlj sinhb)%R in
      let* dd := aplus (fadd A) dd [i; k + 1] (rf_term A (j - i) (k + 1) dlj sinhb) in
      aplus (fadd A) dd [i + 1; k + 1] (rf_term A (i + 1) (k + 1) dlj coshb))
      (zrange 0 j) dd)
    (zrange 0 j) dd.

(** s2fft/recursions/risbo.py:80-101: the half-step from dd to dl (degree el). *)
Definition rf_half2 (A : arith) (dd : ndarray R) (L el : Z) (coshb sinhb : R) (dl : ndarray R) : result (ndarray R) :=
  let j := 2 * el in
  foldM (fun dl k =>
    foldM (fun dl i =>
      let* x := aread dd [i; k] in
      let ddj := fdiv A x (IZR j) in
      let* dl := aplus (fadd A) dl [k - el + L - 1; i - el + L - 1] (rf_term A (j - i) (j - k) ddj coshb) in
      let* dl := aplus (fadd A) dl [k - el + L - 1; i + 1 - el + L - 1] (- rf_term A (i + 1) (j - k) ddj sinhb)%R in
      let* dl := aplus (fadd A) dl [k + 1 - el + L - 1; i - el + L - 1] (rf_term A (j - i) (k + 1) ddj sinhb) in
      aplus (fadd A) dl [k + 1 - el + L - 1; i + 1 - el + L - 1] (rf_term A (i + 1) (k + 1) ddj coshb))
      (zrange 0 j) dl)
    (zrange 0 j) dl.

(** s2fft/recursions/risbo.py:28-103: body of compute_full; coshb**2 is one multiplication. *)
Definition rf_step (A : arith) (dl : ndarray R) (beta : R) (L el : Z) : result (ndarray R) :=
  if el =? 0 then awrite dl [el + L - 1; el + L - 1] 1%R
  else if el =? 1 then
    let cosb := fcos A beta in
    let sinb := fsin A beta in
    let coshb := fcos A (fdiv A beta 2) in
    let sinhb := fsin A (fdiv A beta 2) in
    let sqrt2 := fsqrt A 2 in
    let* dl := awrite dl [-1 + L - 1; -1 + L - 1] (fmul A coshb coshb) in
    let* dl := awrite dl [-1 + L - 1; 0 + L - 1] (fdiv A sinb sqrt2) in
    let* dl := awrite dl [-1 + L - 1; 1 + L - 1] (fmul A sinhb sinhb) in
    let* dl := awrite dl [0 + L - 1; -1 + L - 1] (fdiv A (- sinb)%R sqrt2) in
    let* dl := awrite dl [0 + L - 1; 0 + L - 1] cosb in
    let* dl := awrite dl [0 + L - 1; 1 + L - 1] (fdiv A sinb sqrt2) in
    let* dl := awrite dl [1 + L - 1; -1 + L - 1] (fmul A sinhb sinhb) in
    let* dl := awrite dl [1 + L - 1; 0 + L - 1] (fdiv A (- sinb)%R sqrt2) in
    awrite dl [1 + L - 1; 1 + L - 1] (fmul A coshb coshb)
  else
    let coshb := (- fcos A (fdiv A beta 2))%R in
    let sinhb := fsin A (fdiv A beta 2) in
    let dd := zeros 0%R [2 * el + 2; 2 * el + 2] in
    let* dd := rf_half1 A dl L el coshb sinhb dd in
    let dl := fill2 dl (- el + L - 1) (el + 1 + L - 1) (- el + L - 1) (el + 1 + L - 1) 0%R in
    rf_half2 A dd L el coshb sinhb dl.

(** s2fft/recursions/risbo.py:4-103 compute_full *)
Definition rf_full (A : arith) (dl : ndarray R) (beta : R) (L el : Z) : result (ndarray R) :=
  let* _ := rf_arg_checks A dl beta L el in rf_step A dl beta L el.

(** The calls el = 0, 1, ..., lmax in order from an array of zeros
    (e.g. precompute_transforms/construct.py:129-130). *)
Definition rf_run (A : arith) (beta : R) (L lmax : Z) : result (ndarray R) :=
  foldM (fun dl el => rf_full A dl beta L el) (zrange 0 (lmax + 1)) (zeros 0%R [2 * L - 1; 2 * L - 1]).

(** s2fft/recursions/risbo.py:123-229 compute_full_vectorised: the same statements for every plane,
    without argument checks (see [risbo_full_vec]). *)
Fixpoint rf_full_vec (A : arith) (dls : list (ndarray R)) (betas : list R) (L el : Z) : result (list (ndarray R)) :=
  match dls, betas with
  | dl :: dls, beta :: betas =>
      let* dl := rf_step A dl beta L el in
      let* dls := rf_full_vec A dls betas L el in
      Ok (dl :: dls)
  | [], [] => Ok []
  | _, _ => Err ValueError
  end.
Definition rf_run_vec (A : arith) (betas : list R) (L lmax : Z) : result (list (ndarray R)) :=
  foldM (fun dls el => rf_full_vec A dls betas L el) (zrange 0 (lmax + 1))
    (map (fun _ => zeros 0%R [2 * L - 1; 2 * L - 1]) betas).

(** ** s2fft/recursions/risbo_jax.py:8-117 compute_full in rounded arithmetic
    einsum("i,k->ki", f(i), g(k)) is one multiplication per entry. *)
Definition rf_outer (A : arith) (j : Z) (f g : Z -> R) : ndarray R := mat j j (fun k i => fmul A (f i) (g k)).

(** s2fft/recursions/risbo_jax.py:70-81 and 97-116: the four additions of a half-step (see
    [risbo_jax_half]). *)
Definition rf_jax_half (A : arith) (tgt src : ndarray R) (j r0 c0 : Z) (coshb sinhb : R) : result (ndarray R) :=
  let sqrt_jm := fun i => fsqrt A (IZR (j - i)) in
  let sqrt_p1 := fun i => fsqrt A (IZR (i + 1)) in
  let* w1 := mmul (fmul A) (rf_outer A j sqrt_jm sqrt_jm) src in
  let* tgt := slice2_add (fadd A) tgt r0 (r0 + j) c0 (c0 + j) (mscal (fun x => fmul A x coshb) w1) in
  let* w2 := mmul (fmul A) (rf_outer A j (fun i => - sqrt_p1 i)%R sqrt_jm) src in
  let* tgt := slice2_add (fadd A) tgt r0 (r0 + j) (c0 + 1) (c0 + 1 + j) (mscal (fun x => fmul A x sinhb) w2) in
  let* w3 := mmul (fmul A) (rf_outer A j sqrt_jm sqrt_p1) src in
  let* tgt := slice2_add (fadd A) tgt (r0 + 1) (r0 + 1 + j) c0 (c0 + j) (mscal (fun x => fmul A x sinhb) w3) in
  let* w4 := mmul (fmul A) (rf_outer A j sqrt_p1 sqrt_p1) src in
  slice2_add (fadd A) tgt (r0 + 1) (r0 + 1 + j) (c0 + 1) (c0 + 1 + j) (mscal (fun x => fmul A x coshb) w4).

(** s2fft/recursions/risbo_jax.py:30-117, with the simplifications of [risbo_jax]; the block is
    cleared by a multiplication with 0.0, which gives zero for every finite number. *)
Definition rf_jax (A : arith) (dl : ndarray R) (beta : R) (L el : Z) : result (ndarray R) :=
  if el =? 0 then awrite dl [el + L - 1; el + L - 1] 1%R
  else if el =? 1 then
    let cosb := fcos A beta in
    let sinb := fsin A beta in
    let coshb := fcos A (fdiv A beta 2) in
    let sinhb := fsin A (fdiv A beta 2) in
    let sqrt2 := fsqrt A 2 in
    let* dl := awrite dl [L - 2; L - 2] (fmul A coshb coshb) in
    let* dl := awrite dl [L - 2; L - 1] (fdiv A sinb sqrt2) in
    let* dl := awrite dl [L - 2; L] (fmul A sinhb sinhb) in
    let* dl := awrite dl [L - 1; L - 2] (fdiv A (- sinb)%R sqrt2) in
    let* dl := awrite dl [L - 1; L - 1] cosb in
    let* dl := awrite dl [L - 1; L] (fdiv A sinb sqrt2) in
    let* dl := awrite dl [L; L - 2] (fmul A sinhb sinhb) in
    let* dl := awrite dl [L; L - 1] (fdiv A (- sinb)%R sqrt2) in
    awrite dl [L; L] (fmul A coshb coshb)
  else
    let coshb := (- fcos A (fdiv A beta 2))%R in
    let sinhb := fsin A (fdiv A beta 2) in
    let dd := zeros 0%R [2 * el + 2; 2 * el + 2] in
    let j := 2 * el - 1 in
    let dlj := slice2 dl (- (el - 1) + L - 1) (- (el - 1) + L - 1 + j) (- (el - 1) + L - 1) (- (el - 1) + L - 1 + j) in
    let* dd := rf_jax_half A dd dlj j 0 0 coshb sinhb in
    let dl := fill2 dl (- el + L - 1) (el + 1 + L - 1) (- el + L - 1) (el + 1 + L - 1) 0%R in
    let j := 2 * el in
    let* dl := rf_jax_half A dl (slice2 dd 0 j 0 j) j (- el + L - 1) (- el + L - 1) coshb sinhb in
    Ok (mscal (fun x => fdiv A x (IZR (2 * el * (2 * el - 1)))) dl).

Definition rf_jax_run (A : arith) (beta : R) (L lmax : Z) : result (ndarray R) :=
  foldM (fun dl el => rf_jax A dl beta L el) (zrange 0 (lmax + 1)) (zeros 0%R [2 * L - 1; 2 * L - 1]).
