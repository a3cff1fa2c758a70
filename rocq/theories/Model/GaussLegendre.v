(** Model of the Newton iteration for the Gauss-Legendre weights, in exact arithmetic:
    s2fft/utils/quadrature.py:125-161 quad_weights_gl and s2fft/utils/quadrature_jax.py:127-174. Both run the same steps.
    Divisions by zero, which give infinities or NaN in numpy, are errors of the model. The while loop runs with a bound
    on the number of turns; a run that needs more is an error of the model. *)
From Coq Require Import Reals.
From Verif Require Import Lib.Py Lib.Vec.
Open Scope string_scope.
Open Scope Z_scope.

(** quadrature.py:148-153, quadrature_jax.py:157-162: the loop over j with p1, p2 and p3 *)
Definition legendre_pair (L : Z) (z : R) : R * R :=
  fold_left (fun p j => let '(p1, p2) := p in
    let p3 := p2 in
    let p2 := p1 in
    (((2 * IZR j - 1) * z * p2 - (IZR j - 1) * p3) / IZR j, p2)%R) (zrange 1 (L + 1)) (1%R, 0%R).
(** quadrature.py:154, quadrature_jax.py:163 *)
Definition newton_pp (L : Z) (z : R) : R :=
  let '(p1, p2) := legendre_pair L z in (IZR L * (z * p1 - p2) / (z * z - 1))%R.
(** quadrature.py:155-156, quadrature_jax.py:164-165: the new z and pp *)
Definition newton_step (L : Z) (z : R) : result (R * R) :=
  if Req_EM_T (z * z - 1) 0 then Err ZeroDivisionError else
  let pp := newton_pp L z in
  if Req_EM_T pp 0 then Err ZeroDivisionError else
  Ok ((z - fst (legendre_pair L z) / pp)%R, pp).
(** the step for all entries of an array *)
Definition newton_steps (L : Z) (z : vec R) : result (vec R * vec R) :=
  foldM (fun acc i => let '(z', pp) := acc in
    let* x := vread z i in
    let* (y, q) := newton_step L x in
    let* z' := vwrite z' i y in
    let* pp := vwrite pp i q in
    Ok (z', pp)) (zrange 0 (vlen z)) (vconst (vlen z) 0%R, vconst (vlen z) 0%R).
(** np.max(np.abs(z - z1)) > 1e-14; the maximum of no numbers is an error *)
Definition newton_again (z z1 : vec R) : result bool :=
  if vlen z =? 0 then Err ValueError else
  Ok (existsb (fun i => if Rlt_dec (/ 10 ^ 14) (Rabs (vat z i - vat z1 i)) then true else false) (zrange 0 (vlen z))).
(** quadrature.py:147-156, quadrature_jax.py:151-168: the loop; z1 = 2 at the start *)
Fixpoint newton_loop (turns : nat) (L : Z) (z z1 pp : vec R) : result (vec R * vec R) :=
  let* again := newton_again z z1 in
  if again then
    match turns with
    | O => Err OtherError
    | S turns => let* (z', pp') := newton_steps L z in newton_loop turns L z' z pp'
    end
  else Ok (z, pp).
(** quadrature.py:158-161, quadrature_jax.py:170-174: the weights of both halves *)
Definition newton_weights (L : Z) (z pp : vec R) : result (vec R) :=
  let m := (L + 1) / 2 in
  let* weights := foldM (fun w i => vwrite w (i - 1) (2 * 1 / ((1 - vat z (i - 1) ^ 2) * vat pp (i - 1) * vat pp (i - 1)))%R)
                    (zrange 1 (m + 1)) (vconst L 0%R) in
  let half := weights in
  let* weights := foldM (fun w i => let* x := vread half (i - 1) in vwrite w (L + 1 - i - 1) x) (zrange 1 (m + 1)) weights in
  Ok (vmap (fun x => (x * 2 * PI / IZR (2 * L - 1))%R) weights).
(** the iteration from given starting points *)
Definition newton_from (turns : nat) (L : Z) (z0 : vec R) : result (vec R) :=
  let* (z, pp) := newton_loop turns L z0 (vconst (vlen z0) 2%R) (vconst (vlen z0) 0%R) in
  newton_weights L z pp.
(** quadrature.py:144-145, quadrature_jax.py:145-146: the starting points *)
Definition newton_start (L : Z) : vec R :=
  mkVec ((L + 1) / 2) (fun i => cos (PI * (IZR (i + 1) - / 4) / (IZR L + / 2))%R).
(** s2fft/utils/quadrature.py:125-161 quad_weights_gl, s2fft/utils/quadrature_jax.py:127-174 *)
Definition quad_weights_gl_newton (turns : nat) (L : Z) : result (vec R) := newton_from turns L (newton_start L).
