(** Model of s2fft/utils/signal_generator.py. *)
From Coq Require Import Reals.
From Coquelicot Require Import Complex.
From Verif Require Import Lib.Py Lib.Vec Lib.Cplx Lib.Arr Model.Index.
Open Scope Z_scope.

(** A random generator: the sequence of its draws and the number of draws made so far. *)
Record rng := mkRng { draws : Z -> R; used : Z }.

(** Generator.standard_normal(size): the next [size] draws; numpy rejects a negative size. *)
Definition standard_normal (r : rng) (size : Z) : result (vec R * rng) :=
  if size <? 0 then Err ValueError
  else Ok (mkVec size (fun i => draws r (used r + i)), mkRng (draws r) (used r + size)).

(** signal_generator.py:10-39 complex_normal (size an integer) *)
Definition complex_normal (r : rng) (size : Z) (var : R) : result (vec C * rng) :=
  let* (x, r) := standard_normal r size in
  let* (y, r) := standard_normal r size in
  Ok (mkVec size (fun i => ((RtoC (vat x i) + Ci * RtoC (vat y i)) * RtoC (sqrt (var / 2)))%C), r).

(** np.tril_indices(n, k, n): the pairs (row, column) with column <= row + k, row by row *)
Definition tril_indices (n k : Z) : list (Z * Z) :=
  flat_map (fun r => map (fun c => (r, c)) (filter (fun c => c <=? r + k) (zrange 0 n))) (zrange 0 n).

(** signal_generator.py:42-73 complex_el_and_m_indices; the two index arrays are one list of pairs *)
Definition complex_el_and_m_indices (L min_el : Z) : list (Z * Z) :=
  let ix := map (fun '(el, m) => (el, m + 1)) (tril_indices L (-1)) in
  if 0 <? min_el then filter (fun '(el, _) => min_el <=? el) ix else ix.

(** a[I] = v for a list of indices I and a vector of as many values, in order *)
Definition scatter {T} (a : ndarray T) (ix : list (list Z)) (v : vec T) : result (ndarray T) :=
  if vlen v =? Z.of_nat (List.length ix)
  then foldM (fun a '(k, i) => let* x := vread v (Z.of_nat k) in awrite a i x) (combine (seq 0 (List.length ix)) ix) a
  else Err ValueError.
(** a[I] for a list of indices I *)
Fixpoint mapM {X Y} (f : X -> result Y) (l : list X) : result (list Y) :=
  match l with
  | [] => Ok []
  | x :: l => let* y := f x in let* r := mapM f l in Ok (y :: r)
  end.
Definition vec_of {T} (d : T) (l : list T) : vec T := mkVec (Z.of_nat (List.length l)) (fun i => nth (Z.to_nat i) l d).
Definition gather (a : ndarray C) (ix : list (list Z)) : result (vec C) :=
  let* l := mapM (aread a) ix in Ok (vec_of (RtoC 0) l).
(** the rows s:e of an axis of length n *)
Definition rows (n s e : Z) : list Z := zrange (slice_lo n s) (slice_lo n s + slice_len n s e).

(** signal_generator.py:76-123 generate_flm. np.zeros rejects the shape when L < 1. *)
Definition generate_flm (r : rng) (L L_lower spin : Z) (reality : bool) : result (ndarray C * rng) :=
  let* _ := if L <? 1 then Err ValueError else Ok tt in
  let flm := zeros (RtoC 0) (flm_shape L) in
  let min_el := Z.max L_lower (Z.abs spin) in
  let* (x, r) := standard_normal r (L - min_el) in
  let* flm := scatter flm (map (fun el => [el; L - 1]) (rows L min_el L)) (vmap RtoC x) in
  let ix := complex_el_and_m_indices L min_el in
  let len_indices := Z.of_nat (List.length ix) in
  let pos := map (fun '(el, m) => [el; L - 1 + m]) ix in
  let neg := map (fun '(el, m) => [el; L - 1 - m]) ix in
  let* (z, r) := complex_normal r len_indices 2 in
  let* flm := scatter flm pos z in
  if reality then
    let* z := gather flm pos in
    let* flm := scatter flm neg
      (mkVec (vlen z) (fun i => (RtoC (sgn (snd (nth (Z.to_nat i) ix (0, 0)))) * Cconj (vat z i))%C)) in
    Ok (flm, r)
  else
    let* (z, r) := complex_normal r len_indices 2 in
    let* flm := scatter flm neg z in
    Ok (flm, r).

(** signal_generator.py:157-199, the body of the loop over n *)
Definition generate_plane (L N L_lower : Z) (reality : bool) (n : Z) (flmn : ndarray C) (r : rng) : result (ndarray C * rng) :=
  let min_el := Z.max L_lower (Z.abs n) in
  let axis p := map (fun el => [p; el; L - 1]) (rows L min_el L) in
  let* (flmn, r) :=
    if reality then
      if n =? 0 then
        let* (x, r) := standard_normal r (L - min_el) in
        let* flmn := scatter flmn (axis (N - 1)) (vmap RtoC x) in
        Ok (flmn, r)
      else if 0 <? n then
        let* (z, r) := complex_normal r (L - min_el) 2 in
        let* flmn := scatter flmn (axis (N - 1 + n)) z in
        let* z := gather flmn (axis (N - 1 + n)) in
        let* flmn := scatter flmn (axis (N - 1 - n)) (vmap (fun z => (RtoC (sgn n) * Cconj z)%C) z) in
        Ok (flmn, r)
      else Ok (flmn, r)
    else
      let* (z, r) := complex_normal r (L - min_el) 2 in
      let* flmn := scatter flmn (axis (N - 1 + n)) z in
      Ok (flmn, r) in
  let ix := complex_el_and_m_indices L min_el in
  let len_indices := Z.of_nat (List.length ix) in
  let pos := map (fun '(el, m) => [N - 1 + n; el; L - 1 + m]) ix in
  let* (z, r) := complex_normal r len_indices 2 in
  let* flmn := scatter flmn pos z in
  if reality then
    let* z := gather flmn pos in
    let* flmn := scatter flmn (map (fun '(el, m) => [N - 1 - n; el; L - 1 - m]) ix)
      (mkVec (vlen z) (fun i => (RtoC (sgn (snd (nth (Z.to_nat i) ix (0, 0)) + n)) * Cconj (vat z i))%C)) in
    Ok (flmn, r)
  else
    let* (z, r) := complex_normal r len_indices 2 in
    let* flmn := scatter flmn (map (fun '(el, m) => [N - 1 + n; el; L - 1 - m]) ix) z in
    Ok (flmn, r).

(** signal_generator.py:126-201 generate_flmn. np.zeros rejects the shape when L < 1 or N < 1. *)
Definition generate_flmn (r : rng) (L N L_lower : Z) (reality : bool) : result (ndarray C * rng) :=
  let* _ := if (L <? 1) || (N <? 1) then Err ValueError else Ok tt in
  foldM (fun '(flmn, r) n => generate_plane L N L_lower reality n flmn r) (zrange (- N + 1) N)
    (zeros (RtoC 0) (flmn_shape L N), r).
