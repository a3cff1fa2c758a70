(** Model of the coefficient indexing functions.

    Entries have an arbitrary type [A] with the operations the code applies to
    them: the zero the arrays are created with, negation and complex conjugation.
    Floating point plays no role here except in [ind2elm] (see the comment). *)
From Verif Require Import Lib.Py.
Open Scope Z_scope.

(** s2fft/sampling/s2_samples.py:495-513 elm2ind *)
Definition elm2ind (el m : Z) : Z := el ^ 2 + el + m.

(** s2fft/sampling/s2_samples.py:516-534 ind2elm.
    Simplification: np.floor(np.sqrt(ind)) is the exact integer square root (true of the
    double computation for ind < 2^52); results are integers instead of floats. *)
Definition ind2elm (ind : Z) : Z * Z :=
  let el := Z.sqrt ind in (el, ind - el ^ 2 - el).

(** s2fft/sampling/s2_samples.py:537-548 ncoeff *)
Definition ncoeff (L : Z) : Z := elm2ind (L - 1) (L - 1) + 1.

(** s2fft/sampling/s2_samples.py:481-492 flm_shape *)
Definition flm_shape (L : Z) : list Z := [L; 2 * L - 1].

(** s2fft/sampling/s2_samples.py:625-644 hp_getidx *)
Definition hp_getidx (L el m : Z) : Z := m * (2 * L - 1 - m) / 2 + el.

(** s2fft/sampling/so3_samples.py:50-65 flmn_shape *)
Definition flmn_shape (L N : Z) : list Z := [2 * N - 1; L; 2 * L - 1].

(** s2fft/sampling/so3_samples.py:105-118 flmn_shape_1d *)
Definition flmn_shape_1d (L N : Z) : Z := (2 * N - 1) * L * L.

(** s2fft/sampling/so3_samples.py:192-213 elmn2ind *)
Definition elmn2ind (el m n L N : Z) : Z :=
  let n_offset := (N - 1 + n) * L * L in
  let el_offset := el * el in
  n_offset + el_offset + el + m.

Section Reindex.
  Context {A : Type} (zero : A) (neg conj : A -> A).

  (** (-1) ** m * x *)
  Definition sgn_pow (m : Z) (x : A) : A := if Z.even m then x else neg x.

  (** s2fft/sampling/s2_samples.py:647-691 flm_2d_to_1d *)
  Definition flm_2d_to_1d (flm_2d : ndarray A) (L : Z) : result (ndarray A) :=
    let flm_1d := zeros zero [ncoeff L] in
    if negb (Nat.eqb (List.length (shape flm_2d)) 2) then Err ValueError
    else
      foldM (fun out el =>
        foldM (fun out m =>
          let* v := aread flm_2d [el; L - 1 + m] in
          awrite out [elm2ind el m] v)
          (zrange (- el) (el + 1)) out)
        (zrange 0 L) flm_1d.

  (** s2fft/sampling/s2_samples.py:694-738 flm_1d_to_2d *)
  Definition flm_1d_to_2d (flm_1d : ndarray A) (L : Z) : result (ndarray A) :=
    let flm_2d := zeros zero (flm_shape L) in
    if negb (Nat.eqb (List.length (shape flm_1d)) 1) then Err ValueError
    else
      foldM (fun out el =>
        foldM (fun out m =>
          let* v := aread flm_1d [elm2ind el m] in
          awrite out [el; L - 1 + m] v)
          (zrange (- el) (el + 1)) out)
        (zrange 0 L) flm_2d.

  (** s2fft/sampling/s2_samples.py:741-794 flm_hp_to_2d *)
  Definition flm_hp_to_2d (flm_hp : ndarray A) (L : Z) : result (ndarray A) :=
    let flm_2d := zeros zero (flm_shape L) in
    if negb (Nat.eqb (List.length (shape flm_hp)) 1) then Err ValueError
    else
      foldM (fun out el =>
        let* v0 := aread flm_hp [hp_getidx L el 0] in
        let* out := awrite out [el; L - 1 + 0] v0 in
        foldM (fun out m =>
          let* v := aread flm_hp [hp_getidx L el m] in
          let* out := awrite out [el; L - 1 + m] v in
          let* w := aread out [el; L - 1 + m] in
          awrite out [el; L - 1 - m] (sgn_pow m (conj w)))
          (zrange 1 (el + 1)) out)
        (zrange 0 L) flm_2d.

  (** s2fft/sampling/s2_samples.py:797-849 flm_2d_to_hp.
      The code's dimension check is applied to the freshly allocated output (line 842), so it
      never fires; a 2D input of another shape ends in an IndexError from the reads. *)
  Definition flm_2d_to_hp (flm_2d : ndarray A) (L : Z) : result (ndarray A) :=
    let flm_hp := zeros zero [L * (L + 1) / 2] in
    foldM (fun out el =>
      foldM (fun out m =>
        let* v := aread flm_2d [el; L - 1 + m] in
        awrite out [hp_getidx L el m] v)
        (zrange 0 (el + 1)) out)
      (zrange 0 L) flm_hp.

  (** s2fft/sampling/s2_samples.py:852-897 lm2lm_hp *)
  Definition lm2lm_hp (flm : ndarray A) (L : Z) : result (ndarray A) :=
    let flm_hp := zeros zero [L * (L + 1) / 2] in
    foldM (fun out el =>
      foldM (fun out m =>
        let* v := aread flm [elm2ind el m] in
        awrite out [hp_getidx L el m] v)
        (zrange 0 (el + 1)) out)
      (zrange 0 L) flm_hp.

  (** s2fft/sampling/so3_samples.py:216-251 flmn_3d_to_1d *)
  Definition flmn_3d_to_1d (flmn_3d : ndarray A) (L N : Z) : result (ndarray A) :=
    let flmn_1d := zeros zero [flmn_shape_1d L N] in
    if Nat.eqb (List.length (shape flmn_3d)) 1 then Err ValueError
    else if negb (Nat.eqb (List.length (shape flmn_3d)) 3) then Err ValueError
    else
      foldM (fun out n =>
        foldM (fun out el =>
          foldM (fun out m =>
            let* v := aread flmn_3d [N - 1 + n; el; L - 1 + m] in
            awrite out [elmn2ind el m n L N] v)
            (zrange (- el) (el + 1)) out)
          (zrange 0 L) out)
        (zrange (- N + 1) N) flmn_1d.

  (** s2fft/sampling/so3_samples.py:254-289 flmn_1d_to_3d *)
  Definition flmn_1d_to_3d (flmn_1d : ndarray A) (L N : Z) : result (ndarray A) :=
    let flmn_3d := zeros zero (flmn_shape L N) in
    if Nat.eqb (List.length (shape flmn_1d)) 3 then Err ValueError
    else if negb (Nat.eqb (List.length (shape flmn_1d)) 1) then Err ValueError
    else
      foldM (fun out n =>
        foldM (fun out el =>
          foldM (fun out m =>
            let* v := aread flmn_1d [elmn2ind el m n L N] in
            awrite out [N - 1 + n; el; L - 1 + m] v)
            (zrange (- el) (el + 1)) out)
          (zrange 0 L) out)
        (zrange (- N + 1) N) flmn_3d.

  (** *** The vectorised versions (s2fft/sampling/reindex.py)

      numpy.where(mask) lists the true positions of a 2D mask in row-major order. *)
  Definition where2 (rows cols : Z) (mask : Z -> Z -> bool) : list (Z * Z) :=
    flat_map (fun r => map (fun c => (r, c)) (filter (mask r) (zrange 0 cols)))
      (zrange 0 rows).

  (** numpy.triu_indices(n, k, m): positions (r,c) of an n x m array with c - r >= k, row-major. *)
  Definition triu_indices (n k m : Z) : list (Z * Z) :=
    where2 n m (fun r c => k <=? c - r).

  (** jnp scatter [a.at[rows, cols].set(v)] with an index list and a vector of values:
      the k-th position receives v[k]. A value vector whose length differs from the
      number of positions is a broadcasting error (ValueError); size-1 broadcasting is not
      modelled. *)
  Definition scatter2 (a : ndarray A) (pos : list (Z * Z)) (v : ndarray A)
    : result (ndarray A) :=
    match shape v with
    | [n] =>
        if negb (n =? Z.of_nat (List.length pos)) then Err ValueError
        else foldM (fun out kp =>
               let '(k, (r, c)) := kp in awrite out [r; c] (get v [k]))
               (combine (zrange 0 n) pos) a
    | _ => Err ValueError
    end.

  (** jnp gather [a[rows, cols]] with in-range positions: a 1D array of the entries. *)
  Definition gather2 (a : ndarray A) (pos : list (Z * Z)) : ndarray A :=
    mkArr [Z.of_nat (List.length pos)]
      (fun idx => match idx with
                  | [k] => match nth_error pos (Z.to_nat k) with
                           | Some (r, c) => get a [r; c]
                           | None => zero
                           end
                  | _ => zero
                  end).

  (** reindex.py:40-43 and 78-81: positions selected by the two reversed triangular masks *)
  Definition tri_positions (L : Z) : list (Z * Z) :=
    where2 L (2 * L - 1)
      (fun r c => (L - 1 - r <=? c) && (L - 1 - r <=? 2 * L - 2 - c)).

  (** s2fft/sampling/reindex.py:8-44 flm_1d_to_2d_fast *)
  Definition flm_1d_to_2d_fast (flm_1d : ndarray A) (L : Z) : result (ndarray A) :=
    scatter2 (zeros zero [L; 2 * L - 1]) (tri_positions L) flm_1d.

  (** s2fft/sampling/reindex.py:47-82 flm_2d_to_1d_fast *)
  Definition flm_2d_to_1d_fast (flm_2d : ndarray A) (L : Z) : ndarray A :=
    gather2 flm_2d (tri_positions L).

  (** The slice a[s:] of a 1D array. *)
  Definition slice_from (a : ndarray A) (s : Z) : ndarray A :=
    match shape a with
    | [n] => mkArr [n - s] (fun idx => match idx with [k] => get a [k + s] | _ => zero end)
    | sh => mkArr sh (get a)
    end.
  (** The slice a[:e] of a 1D array. *)
  Definition slice_to (a : ndarray A) (e : Z) : ndarray A := mkArr [e] (get a).

  (** s2fft/sampling/reindex.py:85-135 flm_hp_to_2d_fast.
      Line 129 adds 1 to the row index of triu_indices(n=L,k=1,m=L), giving (m, el) pairs. *)
  Definition flm_hp_to_2d_fast (flm_hp : ndarray A) (L : Z) : result (ndarray A) :=
    let flm_2d := zeros zero [L; 2 * L - 1] in
    let mel := map (fun p => (fst p + 1, snd p)) (triu_indices L 1 L) in
    let* flm_2d := scatter2 flm_2d (map (fun r => (r, L - 1)) (zrange 0 L)) (slice_to flm_hp L) in
    let* flm_2d := scatter2 flm_2d (map (fun p => (snd p, L - 1 + fst p)) mel)
                     (slice_from flm_hp L) in
    scatter2 flm_2d (map (fun p => (snd p, L - 1 - fst p)) mel)
      (mkArr (shape (slice_from flm_hp L))
         (fun idx => match idx with
            | [k] => match nth_error mel (Z.to_nat k) with
                     | Some (m, _) => sgn_pow m (conj (get (slice_from flm_hp L) [k]))
                     | None => zero
                     end
            | _ => zero
            end)).

  (** s2fft/sampling/reindex.py:138-183 flm_2d_to_hp_fast *)
  Definition flm_2d_to_hp_fast (flm_2d : ndarray A) (L : Z) : ndarray A :=
    gather2 flm_2d (map (fun p => (snd p, L - 1 + fst p)) (triu_indices (L + 1) 0 L)).
End Reindex.
