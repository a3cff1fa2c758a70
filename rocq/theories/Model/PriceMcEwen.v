(** Model of the coefficients of the Price & McEwen recursion,
    s2fft/recursions/price_mcewen.py:14-374, over the reals with infinities and NaN.

    Arrays indexed by (theta, el) are functions of the two positions; their extents are recorded in
    the result. Arrays with one more axis in front are vectors of such functions, with checked
    access along that axis. *)
From Coq Require Import Reals.
From Verif Require Import Lib.Py Lib.Vec Lib.Ext Model.Samples Model.Grids Model.Turok.
Open Scope string_scope.
Open Scope Z_scope.

(** samples.thetas as the code evaluates it: the exact angles of Model/Grids.v, or roundings of
    them. The transforms are modelled for an arbitrary such function. *)
Definition theta_fn : Type := Z -> string -> option Z -> result (vec R).
Definition exact_thetas (gl : gl_rule) : theta_fn := fun L sampling nside => thetas gl (Some L) sampling nside.
Definition rounded_thetas (round : R -> R) (gl : gl_rule) : theta_fn :=
  fun L sampling nside => let* v := thetas gl (Some L) sampling nside in Ok (vmap round v).

(** the entry at (theta index, el index) *)
Definition plane : Type := Z -> Z -> ext.

(** [lrenorm, vsign, cpi, cp2, indices], price_mcewen.py:113 and 255 *)
Record pm_pre : Type := mkPre {
  pm_nt : Z;                       (* number of angles *)
  pm_nl : Z;                       (* number of degrees, L - L_lower *)
  pm_lrenorm : Z -> plane;         (* lrenorm[i], i = 0, 1 *)
  pm_vsign : vec (Z -> R);         (* rows of length pm_nl *)
  pm_cpi : vec (Z -> ext);
  pm_cp2 : vec (Z -> ext);
  pm_indices : Z -> Z -> Z
}.

(** half_slices = [el + mm + 1, el - mm + 1], price_mcewen.py:66 *)
Definition half_slice (mm i el : Z) : Z := if i =? 0 then el + mm + 1 else el - mm + 1.

(** price_mcewen.py:52-56 and 157-162: the angles *)
Definition pm_thetas (th : theta_fn) (L : Z) (sampling : string) (nside : option Z) (forward : bool) : result (vec R) :=
  if forward && str_in (lower sampling) ["mw"; "mwss"]
  then let* v := th (2 * L) "mwss" None in Ok (vslice v 1 (-1))
  else th L sampling nside.

(** price_mcewen.py:62-64: lt = np.log(np.abs(np.tan(-beta / 2))), c2 = np.cos(beta / 2) *)
Definition pm_lt (beta : vec R) (j : Z) : ext := elog (eabs (Fin (tan (- vat beta j / 2)))).
Definition pm_logc2 (beta : vec R) (j : Z) : ext := elog (eabs (Fin (cos (vat beta j / 2)))).
(** price_mcewen.py:74: the first row, 2 el log|c2| *)
Definition pm_first (beta : vec R) (L0 : Z) : plane := fun j k => emul (ez (2 * (L0 + k))) (pm_logc2 beta j).
(** price_mcewen.py:77: ratio = (2 * el + 2 - i) / (i - 1) *)
Definition pm_ratio (L0 i k : Z) : ext := ediv (ez (2 * (L0 + k) + 2 - i)) (ez (i - 1)).

(** price_mcewen.py:72-81 *)
Definition pm_log_first_row (beta : vec R) (L L0 mm : Z) : result (vec plane) :=
  let* rows := vwrite (@vconst plane (2 * L + 1) (fun _ _ => Fin 0)) 0 (pm_first beta L0) in
  foldM (fun (rows : vec plane) i =>
    let* prev := vread rows (i - 2) in
    vwrite rows (i - 1) (fun j k => eadd (eadd (prev j k) (ediv (elog (pm_ratio L0 i k)) (Fin 2))) (pm_lt beta j)))
    (zrange 2 (L + Z.abs mm + 2)) rows.

(** price_mcewen.py:70-71, 84-87: cpi and cp2 before they are rolled *)
Definition pm_cpi_val (L0 m k : Z) : ext := ediv (Fin 2) (esqrt (ez (m * (2 * (L0 + k) + 1 - m)))).
Definition pm_cp (L L0 : Z) : result (vec (Z -> ext) * vec (Z -> ext)) :=
  let* cpi := vwrite (vconst (L + 1) (fun _ => Fin 0)) 0 (fun k => ediv (Fin 2) (esqrt (ez (2 * (L0 + k))))) in
  foldM (fun '(cpi, cp2) m =>
    let* cpi := vwrite cpi (m - 1) (pm_cpi_val L0 m) in
    let* a := vread cpi (m - 1) in
    let* b := vread cpi (m - 2) in
    let* cp2 := vwrite cp2 (m - 1) (fun k => ediv (a k) (b k)) in
    Ok (cpi, cp2))
    (zrange 2 (L + 1)) (cpi, vconst (L + 1) (fun _ => Fin 0)).

(** price_mcewen.py:89-91 and 197-203: column k is rolled by L - el - 1 *)
Definition pm_roll (L L0 : Z) (a : vec (Z -> ext)) : vec (Z -> ext) :=
  mkVec (vlen a) (fun r k => vat a ((r - (L - (L0 + k) - 1)) mod vlen a) k).

(** price_mcewen.py:96-99: vsign *)
Definition pm_vsigns (L L0 mm : Z) : vec (Z -> R) :=
  mkVec (2 * L - 1) (fun r k =>
    let msign_r := if r <? L - 1 then msign (Z.abs r) else 1%R in
    let v := (msign_r * msign (Z.abs (mm + (L0 + k))))%R in
    if r <? L - 1 then (v * msign (Z.abs (mm + 1 + L)))%R else v).

(** price_mcewen.py:101-108: lrenorm[i], column by column *)
Definition pm_lrenorm_half (rows : vec plane) (L L0 mm i : Z) : result plane :=
  foldM (fun (lr : plane) k =>
    let* p := vread rows (half_slice mm i k - 1) in
    Ok (fun j k' => if k' =? k - L0 then p j k' else lr j k'))
    (zrange L0 L) (fun _ _ => Fin 0).

(** price_mcewen.py:14-113 generate_precomputes *)
Definition generate_precomputes (th : theta_fn) (L spin : Z) (sampling : string) (nside : option Z) (forward : bool) (L0 : Z)
    : result pm_pre :=
  let mm := - spin in
  let* beta := pm_thetas th L sampling nside forward in
  let* rows := pm_log_first_row beta L L0 mm in
  let* (cpi, cp2) := pm_cp L L0 in
  let* lr0 := pm_lrenorm_half rows L L0 mm 0 in
  let* lr1 := pm_lrenorm_half rows L L0 mm 1 in
  Ok (mkPre (vlen beta) (L - L0) (fun i => if i =? 0 then lr0 else lr1) (pm_vsigns L L0 mm)
        (pm_roll L L0 cpi) (pm_roll L L0 cp2) (fun _ k => L0 + k)).

(** price_mcewen.py:181-195: cpi and cp2 of the JAX version, by additions *)
Definition pm_cp_jax (L L0 : Z) : result (vec (Z -> ext) * vec (Z -> ext)) :=
  let addrow v i w := let* x := vread v i in vwrite v i (fun k => eadd (x k) (w k)) in
  let* cpi := addrow (vconst (L + 1) (fun _ => Fin 0)) 0 (fun k => ediv (Fin 2) (esqrt (ez (2 * (L0 + k))))) in
  foldM (fun '(cpi, cp2) m =>
    let* cpi := addrow cpi (m - 1) (pm_cpi_val L0 m) in
    let* a := vread cpi (m - 1) in
    let* b := vread cpi (m - 2) in
    let* cp2 := addrow cp2 (m - 1) (fun k => ediv (a k) (b k)) in
    Ok (cpi, cp2))
    (zrange 2 (L + 1)) (cpi, vconst (L + 1) (fun _ => Fin 0)).

(** price_mcewen.py:215-244: lrenorm of the JAX version. State: log_first_row_iter, lrenorm. The row
    ratio[i] is (2 el + 2 - i)/(i - 1); for i > 2L the code reads the last row instead (an index out of
    range is clamped), which happens only for |spin| >= L; the model raises there. *)
Definition pm_lrenorm_jax (beta : vec R) (L L0 mm : Z) : result (Z -> plane) :=
  let place it i lr := fun ind j k => if i =? half_slice mm ind (L0 + k) then it j k else lr ind j k in
  let it := pm_first beta L0 in
  let* (_, lr) := foldM (fun '(it, lr) i =>
      if 2 * L <? i then Err IndexError else
      let it := fun j k => eadd (eadd (it j k) (ediv (elog (pm_ratio L0 i k)) (Fin 2))) (pm_lt beta j) in
      Ok (it, place it i lr))
    (zrange 2 (L + Z.abs mm + 2)) (it, place it 1 (fun _ _ _ => Fin 0)) in
  Ok lr.

(** price_mcewen.py:116-255 generate_precomputes_jax; [betas] replaces the angles when given *)
Definition generate_precomputes_jax (th : theta_fn) (L spin : Z) (sampling : string) (nside : option Z) (forward : bool) (L0 : Z)
    (betas : option (vec R)) : result pm_pre :=
  let mm := - spin in
  let* beta := match betas with None => pm_thetas th L sampling nside forward | Some b => Ok b end in
  let* (cpi, cp2) := pm_cp_jax L L0 in
  let* lr := pm_lrenorm_jax beta L L0 mm in
  let clean v := vmap (fun (row : Z -> ext) k => nan_to_num (row k)) (pm_roll L L0 v) in
  Ok (mkPre (vlen beta) (L - L0) (fun i j k => nan_to_num (lr i j k)) (pm_vsigns L L0 mm)
        (clean cpi) (clean cp2) (fun _ k => L0 + k)).

(** price_mcewen.py:258-306 generate_precomputes_wigner: one list per n *)
Definition generate_precomputes_wigner (th : theta_fn) (L N : Z) (sampling : string) (nside : option Z) (forward reality : bool) (L0 : Z)
    : result (list pm_pre) :=
  foldM (fun acc n => let* p := generate_precomputes th L (- n) sampling nside forward L0 in Ok (acc ++ [p])%list)
    (zrange (if reality then 0 else - N + 1) N) [].

(** price_mcewen.py:309-374 generate_precomputes_wigner_jax: lrenorm and vsign per n, the other three
    arrays of the first n only *)
Record pm_pre_wigner : Type := mkPreW {
  pw_lrenorm : list (Z * Z * (Z -> plane));
  pw_vsign : list (vec (Z -> R));
  pw_rest : list (vec (Z -> ext) * vec (Z -> ext) * (Z -> Z -> Z))
}.
Definition generate_precomputes_wigner_jax (th : theta_fn) (L N : Z) (sampling : string) (nside : option Z) (forward reality : bool) (L0 : Z)
    : result pm_pre_wigner :=
  foldM (fun acc n =>
    let* p := generate_precomputes_jax th L (- n) sampling nside forward L0 None in
    Ok (mkPreW (pw_lrenorm acc ++ [(pm_nt p, pm_nl p, pm_lrenorm p)])%list (pw_vsign acc ++ [pm_vsign p])%list
          (match pw_rest acc with [] => [(pm_cpi p, pm_cp2 p, pm_indices p)] | r => r end)))
    (zrange (if reality then 0 else - N + 1) N) (mkPreW [] [] []).
