(** Model of s2fft/utils/iterative_refinement.py and of the refined reference transform. *)
From Coq Require Import Reals.
From Coquelicot Require Import Complex.
From Verif Require Import Lib.Py Lib.Vec Lib.Cplx Lib.Arr Model.Index Model.Grids Model.Spherical.
Open Scope string_scope.
Open Scope Z_scope.

(** a - b and a + b; the shapes must agree (numpy would also stretch axes of length one) *)
Definition asub (a b : ndarray C) : result (ndarray C) :=
  if shape_is (shape a) (shape b) then Ok (mkArr (shape a) (fun ix => (get a ix - get b ix)%C)) else Err ValueError.
Definition aadd (a b : ndarray C) : result (ndarray C) :=
  if shape_is (shape a) (shape b) then Ok (mkArr (shape a) (fun ix => (get a ix + get b ix)%C)) else Err ValueError.

(** iterative_refinement.py:9-46 forward_with_iterative_refinement. The update flm += ... is in
    place; the model has values, so a forward function that returns its own argument is not covered. *)
Definition refine_step (f : ndarray C) (forward_function backward_function : ndarray C -> result (ndarray C))
    (flm : ndarray C) : result (ndarray C) :=
  let* f_recov := backward_function flm in
  let* f_error := asub f f_recov in
  let* d := forward_function f_error in
  aadd flm d.
Definition refine (f : ndarray C) (n_iter : Z) (forward_function backward_function : ndarray C -> result (ndarray C))
    : result (ndarray C) :=
  let* flm := forward_function f in
  foldM (fun flm _ => refine_step f forward_function backward_function flm) (zrange 0 n_iter) flm.

(** base_transforms/spherical.py:134-196 forward *)
Definition forward_iter (gl : gl_rule) (f : ndarray C) (L spin : Z) (sampling : string) (nside : option Z)
    (reality : bool) (L_lower iter : Z) : result (ndarray C) :=
  if iter =? 0 then forward_ gl f L spin sampling "sov_fft_vectorized" nside reality L_lower
  else refine f iter
         (fun f => forward_ gl f L spin sampling "sov_fft_vectorized" nside reality L_lower)
         (fun flm => inverse_ gl flm L spin sampling "sov_fft_vectorized" nside reality L_lower).
