(** Model of s2fft/recursions/turok_jax.py in IEEE arithmetic without rounding: the loops run past the degree el, where the
    coefficients are infinite or NaN, and nan_to_num clears what remains. All calls are compiled; the angle and el are traced,
    L and mm are Python integers. *)
From Coq Require Import Reals.
From Verif Require Import Lib.Py Lib.Vec Lib.Sums Lib.Cplx Lib.Ext Model.Turok.
Open Scope Z_scope.

(** JAX indexing: negative indices count from the end; then a read clamps to the array and a write outside is dropped. *)
Definition jidx (n i : Z) : Z := if i <? 0 then i + n else i.
Definition jget {A} (v : vec A) (i : Z) : A := vat v (Z.max 0 (Z.min (vlen v - 1) (jidx (vlen v) i))).
Definition jset {A} (v : vec A) (i : Z) (x : A) : vec A :=
  let j := jidx (vlen v) i in
  if (0 <=? j) && (j <? vlen v) then mkVec (vlen v) (vupd (vat v) j x) else v.
(** v.at[idx].multiply(f) for a list of distinct indices *)
Definition jmul (v : vec ext) (idx : Z -> Z) (f : Z -> ext) (l : list Z) : vec ext :=
  fold_left (fun v k => jset v (idx k) (emul (jget v (idx k)) (f k))) l v.
(** jnp.roll *)
Definition jroll {A} (v : vec A) (k : Z) : vec A := mkVec (vlen v) (fun j => vat v ((j - k) mod vlen v)).
(** x > y for a number y; false for NaN *)
Definition egt (x : ext) (y : R) : bool :=
  match x with Fin r => if Rlt_dec y r then true else false | PInf => true | _ => false end.
(** jnp.any: NaN and infinities count as true *)
Definition enonzero (x : ext) : bool := match x with Fin r => if Req_EM_T r 0 then false else true | _ => true end.
Definition jany (v : vec ext) : bool := existsb (fun j => enonzero (vat v j)) (zrange 0 (vlen v)).

(** turok_jax.py:108-123: the scan for log_first_row, followed by zeros *)
Definition tj_first_row (el L mm : Z) (c2 : R) (lt : ext) : vec ext :=
  let x0 := emul (ez (2 * el)) (elog (eabs (Fin c2))) in
  snd (fold_left (fun '(x, v) i =>
    let ratio := ediv (ez (2 * el + 2 - i - 1)) (ez i) in
    let y := eadd (eadd x (ediv (elog ratio) (Fin 2))) lt in
    (y, jset v i y)) (zrange 1 (L + Z.abs mm)) (x0, jset (vconst (2 * L + 1) (Fin 0)) 0 x0)).
(** turok_jax.py:128-129: cpi *)
Definition tj_cpi (el L : Z) : vec ext :=
  mkVec (L + 1) (fun m => if m <? L then ediv (Fin 2) (esqrt (ez ((m + 1) * (2 * el - m)))) else Fin 0).
(** turok_jax.py:130: cp2 *)
Definition tj_cp2 (cpi : vec ext) : vec ext :=
  mkVec (vlen cpi) (fun m => if m =? 0 then Fin 0 else ediv (vat cpi m) (vat cpi (m - 1))).
(** turok_jax.py:148, 153: lamb *)
Definition tj_lamb (el slice m : Z) (c s : R) : ext :=
  ediv (Fin (IZR (el + 1) * (1 - c) - IZR slice + IZR m * c)) (Fin s).
(** turok_jax.py:171: the first (sg = 1) or last (sg = -1) m + 1 entries times bigi *)
Definition tj_rescale (dl : vec ext) (sg m : Z) : vec ext :=
  mkVec (vlen dl) (fun j => if (if sg =? 1 then j else vlen dl - 1 - j) <? m + 1
    then emul (Fin (1 / big_const)) (vat dl j) else vat dl j).
(** turok_jax.py:146-176: one half slice before the final scaling; the entry lrenorm[i] is carried as a number *)
Definition tj_half (dl cpi cp2 : vec ext) (el L slice lim sg : Z) (c s : R) : vec ext * ext :=
  let dl := jset dl lim (Fin 1) in
  let dl := jset dl (lim + sg) (emul (emul (tj_lamb el slice 1 c s) (jget dl lim)) (jget cpi 0)) in
  fold_left (fun '(dl, lrenorm) m =>
    let dl := jset dl (lim + sg * m)
      (esub (emul (emul (tj_lamb el slice m c s) (jget cpi (m - 1))) (jget dl (lim + sg * (m - 1))))
            (emul (jget cp2 (m - 1)) (jget dl (lim + sg * (m - 2))))) in
    if egt (jget dl (lim + sg * m)) big_const
    then (tj_rescale dl sg m, eadd lrenorm (Fin (- ln big_const)))
    else (dl, lrenorm))
    (zrange 2 L) (dl, Fin 0).
(** turok_jax.py:66-187 _compute_quarter_slice. The length L + 1 - |mm| of the zeros after the first row must not be negative. *)
Definition tj_quarter_slice (dl : vec ext) (beta : R) (el L mm : Z) : vec ext :=
  let c := cos beta in
  let s := sin beta in
  let t := tan (- beta / 2) in
  let lt := elog (eabs (Fin t)) in
  let c2 := cos (beta / 2) in
  let slice0 := el + mm + 1 in
  let slice1 := el - mm + 1 in
  let lfr := tj_first_row el L mm c2 lt in
  let sign slice := if (slice - 1) mod 2 =? 0 then Fin 1 else ediv (Fin t) (eabs (Fin t)) in
  let cpi := tj_cpi el L in
  let cp2 := tj_cp2 cpi in
  let '(dl, lrenorm) := tj_half dl cpi cp2 el L slice0 0 1 c s in
  let renorm := emul (sign slice0) (eexp (esub (jget lfr (slice0 - 1)) lrenorm)) in
  let dl := jmul dl (fun j => j) (fun _ => renorm) (zrange 0 (L - 1)) in
  let '(dl, lrenorm) := tj_half dl cpi cp2 el L slice1 (-1) (-1) c s in
  let renorm := emul (sign slice1) (eexp (esub (jget lfr (slice1 - 1)) lrenorm)) in
  let dl := jmul dl (fun em => - em) (fun em => emul (Fin (msign ((mm - em + el + 1) mod 2))) renorm) (zrange 1 (L + 1)) in
  vmap nan_to_num dl.
(** turok_jax.py:191-214 _north_pole *)
Definition tj_north_pole (dl : vec ext) (el L mm : Z) : vec ext :=
  let dl := vconst (vlen dl) (Fin 0) in
  if mm <? 0 then jset dl (el + mm) (Fin 1) else jset dl (2 * L - 2 - el + mm) (Fin 1).
(** turok_jax.py:218-241 _south_pole *)
Definition tj_south_pole (dl : vec ext) (el L mm : Z) : vec ext :=
  let dl := vconst (vlen dl) (Fin 0) in
  if 0 <? mm then jset dl (el - mm) (Fin (msign (el + mm))) else jset dl (2 * L - 2 - el - mm) (Fin (msign (el + mm))).
(** turok_jax.py:245-261 _el0 *)
Definition tj_el0 (dl : vec ext) (L : Z) : vec ext :=
  let dl := vconst (vlen dl) (Fin 0) in jset dl (-1) (Fin 1).
(** turok_jax.py:265-297 reindex *)
Definition tj_reindex (dl : vec ext) (el L mm : Z) : vec ext :=
  let r := jroll dl (L - el - 1) in
  let dl := mkVec (vlen dl) (fun j => if j <? L - 1 then vat r j else vat dl j) in
  let r := jroll dl (- (L - el - 1)) in
  let dl := mkVec (vlen dl) (fun j => if L - 1 <=? j then vat r j else vat dl j) in
  jmul dl (fun m => L - 1 + m) (fun m => Fin (msign ((mm - m) mod 2))) (zrange (- L + 1) (L + 1)).
(** 1e-10 *)
Definition tj_tol : R := (/ 10000000000)%R.
(** turok_jax.py:10-62 compute_slice. Both branches of a cond are traced, so a negative length of the zeros after the first row
    is an error at every angle. *)
Definition tj_slice (beta : R) (el L mm : Z) : result (vec ext) :=
  if L + 1 - Z.abs mm <? 0 then Err OtherError else
  let dl := vconst (2 * L - 1) (Fin 0) in
  let dl := if Rlt_dec (Rabs beta) tj_tol then tj_north_pole dl el L mm else dl in
  let dl := if Rlt_dec (Rabs (beta - PI)) tj_tol then tj_south_pole dl el L mm else dl in
  let dl := if el =? 0 then tj_el0 dl L else dl in
  let dl := if jany dl then dl else tj_quarter_slice dl beta el L mm in
  Ok (tj_reindex dl el L mm).
