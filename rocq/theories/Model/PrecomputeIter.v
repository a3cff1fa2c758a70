(** Model of the iterative refinement of s2fft/precompute_transforms/spherical.py:forward. *)
From Coq Require Import Reals.
From Coquelicot Require Import Complex.
From Verif Require Import Lib.Py Lib.Vec Lib.Cplx Lib.Arr Model.Grids Model.Resampling Model.PriceMcEwen Model.Precompute Model.Refine.
Open Scope string_scope.
Open Scope Z_scope.

(** spherical.py:226-311 forward with its argument [iter]. The inverse kernel of the refinement is
    always computed here, with the recursion "auto", whatever kernel the caller passes for the forward
    direction. The warning about the reality flag is not modelled. *)
Definition pre_forward_iter_at (th : theta_fn) (gl : gl_rule) (f : ndarray C) (L spin : Z) (kernel : option (ndarray C)) (sampling : string)
    (reality : bool) (method : string) (nside : option Z) (iter : Z) : result (ndarray C) :=
  let* b := method_backend method in
  let reality := if reality && negb (spin =? 0) then false else reality in
  let* k := match kernel with
            | None => kernel_function_at b th gl L spin reality sampling nside true "auto"
            | Some k => Ok k
            end in
  if iter =? 0 then forward_transform b f k L sampling reality spin nside
  else
    let* ik := kernel_function_at b th gl L spin reality sampling nside false "auto" in
    refine f iter
      (fun f => forward_transform b f k L sampling reality spin nside)
      (fun flm => inverse_transform b flm ik L sampling reality spin nside).
Definition pre_forward_iter (gl : gl_rule) := pre_forward_iter_at (exact_thetas gl) gl.
