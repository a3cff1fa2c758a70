(** Model of s2fft/utils/rotation.py. *)
From Coq Require Import Reals.
From Coquelicot Require Import Complex.
From Verif Require Import Lib.Py Lib.Vec Lib.Cplx Lib.Arr Model.Risbo Model.Spherical.
Open Scope Z_scope.

(** rotation.py:71-73 __exp_array: exp(-1j * arange(-L + 1, L) * x) *)
Definition exp_array (L : Z) (x : R) : vec C := mkVec (2 * L - 1) (fun i => cis (- (IZR (- L + 1 + i) * x))).

(** einsum("mn,n->m") for one m: the sum over n *)
Definition sum_over (ns : list Z) (f : Z -> result C) : result C :=
  foldM (fun acc n => let* x := f n in Ok (acc + x)%C) ns (RtoC 0).

(** rotation.py:48-66, the update of row el; [entry] reads the d-matrix. The gathers and the
    scatter-add over arrays of indices are loops over the indices. Indices outside of an array raise
    in the model; JAX would clamp them. *)
Definition rotate_degree (entry : Z -> Z -> result R) (alpha gamma : vec C) (flm : ndarray C) (L el : Z)
    (flm_rotated : ndarray C) : result (ndarray C) :=
  let n_max := Z.min el (L - 1) in
  foldM (fun out m =>
    let* a := vread alpha (m + L - 1) in
    let* v := sum_over (zrange (- n_max) (n_max + 1)) (fun n =>
      let* d := entry (m + L - 1) (n + L - 1) in
      let* g := vread gamma (n + L - 1) in
      let* x := aread flm [el; n + L - 1] in
      Ok ((RtoC d * a) * (g * x))%C) in
    caplus out [el; L - 1 + m] v) (zrange (- el) (el + 1)) flm_rotated.

(** rotation.py:10-67 rotate_flms *)
Definition rotate_flms (flm : ndarray C) (L : Z) (alpha beta gamma : R) (dl_array : option (ndarray R)) : result (ndarray C) :=
  let a := exp_array L alpha in
  let g := exp_array L gamma in
  let out := zeros (RtoC 0) (shape flm) in
  match dl_array with
  | Some dl =>
      foldM (fun out el => rotate_degree (fun r c => aread dl [el; r; c]) a g flm L el out) (zrange 0 L) out
  | None =>
      let* (_, out) :=
        foldM (fun '(dl, out) el =>
          let* dl := risbo_jax dl beta L el in
          let* out := rotate_degree (fun r c => aread dl [r; c]) a g flm L el out in
          Ok (dl, out)) (zrange 0 L) (zeros 0%R [2 * L - 1; 2 * L - 1], out) in
      Ok out
  end.

(** dl.at[el].add(b) *)
Definition plane_add (a : ndarray R) (el : Z) (b : ndarray R) : result (ndarray R) :=
  match norm_index (dim0 a) el with
  | None => Err IndexError
  | Some k =>
      if shape_is (tl (shape a)) (shape b)
      then Ok (mkArr (shape a) (fun ix => if nth 0 ix 0 =? k then (get a ix + get b (tl ix))%R else get a ix))
      else Err ValueError
  end.

(** rotation.py:77-96 generate_rotate_dls *)
Definition generate_rotate_dls (L : Z) (beta : R) : result (ndarray R) :=
  let* (dl, _) :=
    foldM (fun '(dl, dl_iter) el =>
      let* dl_iter := risbo_jax dl_iter beta L el in
      let* dl := plane_add dl el dl_iter in
      Ok (dl, dl_iter)) (zrange 0 L)
      (zeros 0%R [L; 2 * L - 1; 2 * L - 1], zeros 0%R [2 * L - 1; 2 * L - 1]) in
  Ok dl.
