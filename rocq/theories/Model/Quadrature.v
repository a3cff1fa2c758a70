(** Model of s2fft/utils/quadrature.py in exact arithmetic. *)
From Coq Require Import Reals.
From Coquelicot Require Import Complex.
From Verif Require Import Lib.Py Lib.Vec Lib.Sums Lib.Cplx Lib.Arr Model.Samples Model.Grids Model.FFT.
Open Scope string_scope.
Open Scope Z_scope.

(** s2fft/utils/quadrature.py:291-320 mw_weights *)
Definition mw_weights (m : Z) : C :=
  (if (m =? 1)%Z then Ci * RtoC (PI / 2)
   else if (m =? -1)%Z then - Ci * RtoC (PI / 2)
   else if (m mod 2 =? 0)%Z then RtoC (2 / IZR (1 - m ^ 2))
   else RtoC 0)%C.

(** wr[-1:e:-1]: from the last entry down to entry e + 1, for 0 <= e *)
Definition vrev_down {A} (v : vec A) (e : Z) : vec A :=
  mkVec (Z.max 0 (vlen v - 1 - e)) (fun i => vat v (vlen v - 1 - i)).

(** q[s:e] = q[s:e] + c * w *)
Definition vadd_slice (q : vec R) (s e : Z) (c : R) (w : vec R) : result (vec R) :=
  let q1 := vslice q s e in
  if negb (vlen w =? vlen q1) then Err ValueError
  else vassign q s e (mkVec (vlen q1) (fun i => (vat q1 i + c * vat w i)%R)).

(** s2fft/utils/quadrature.py:238-262 quad_weights_mwss_theta_only *)
Definition quad_weights_mwss_theta_only (L spin : Z) : result (vec R) :=
  let* w := foldM (fun w i => vwrite w (i + L - 1) (mw_weights (i - 1)))
              (zrange (- (L - 1) + 1) (L + 1)) (vconst (2 * L) (RtoC 0)) in
  let wr := vmap (fun z => (Re z / IZR (2 * L))%R) (fft_bwd (ifftshift w)) in
  let q := vslice wr 0 (L + 1) in
  vadd_slice q 1 L (sgn spin) (vrev_down wr L).

(** s2fft/utils/quadrature.py:265-288 quad_weights_mw_theta_only *)
Definition quad_weights_mw_theta_only (L spin : Z) : result (vec R) :=
  let* w := foldM (fun w i => vwrite w (i + L - 1) (mw_weights i))
              (zrange (- (L - 1)) L) (vconst (2 * L - 1) (RtoC 0)) in
  let w := mkVec (vlen w) (fun i => (vat w i * cis (- IZR (- (L - 1) + i) * PI / IZR (2 * L - 1)))%C) in
  let wr := vmap (fun z => (Re z / IZR (2 * L - 1))%R) (fft_bwd (ifftshift w)) in
  let q := vslice wr 0 L in
  vadd_slice q 0 (L - 1) (sgn spin) (vrev_down wr (L - 1)).

(** s2fft/utils/quadrature.py:204-218 quad_weights_mw, 221-235 quad_weights_mwss *)
Definition quad_weights_mw (L spin : Z) : result (vec R) :=
  let* q := quad_weights_mw_theta_only L spin in Ok (vmap (fun x => (x * 2 * PI / IZR (2 * L - 1))%R) q).
Definition quad_weights_mwss (L spin : Z) : result (vec R) :=
  let* q := quad_weights_mwss_theta_only L spin in Ok (vmap (fun x => (x * 2 * PI / IZR (2 * L))%R) q).

(** s2fft/utils/quadrature.py:181-201 quad_weight_dh_theta_only *)
Definition quad_weight_dh_theta_only (theta : R) (L : Z) : R :=
  (let w := rsum (zrange 0 L) (fun k => sin (IZR (2 * k + 1) * theta) / IZR (2 * k + 1)) in
   w * (2 / IZR L * sin theta))%R.

(** s2fft/utils/quadrature.py:164-178 quad_weights_dh *)
Definition quad_weights_dh (gl : gl_rule) (L : Z) : result (vec R) :=
  let* th := thetas gl (Some L) "dh" None in
  Ok (vmap (fun theta => (quad_weight_dh_theta_only theta L * 2 * PI / IZR (2 * L - 1))%R) th).

(** s2fft/utils/quadrature.py:125-161 quad_weights_gl; the Newton iteration is a parameter *)
Definition quad_weights_gl (gl : gl_rule) (L : Z) : result (vec R) :=
  Ok (vmap (fun w => (w * 2 * PI / IZR (2 * L - 1))%R) (gl_weights gl L)).

(** s2fft/utils/quadrature.py:99-122 quad_weights_hp *)
Definition quad_weights_hp (nside : option Z) : result (vec R) :=
  let* n := need nside in
  let npix := 12 * n ^ 2 in
  let* rings := ntheta None "healpix" nside in
  Ok (vconst rings (4 * PI / IZR npix)%R).

(** s2fft/utils/quadrature.py:7-50 quad_weights_transform *)
Definition quad_weights_transform (gl : gl_rule) (L : Z) (sampling : string) (spin : Z) (nside : option Z) : result (vec R) :=
  if streq (lower sampling) "mwss" then
    let* q := quad_weights_mwss_theta_only (2 * L) 0 in
    Ok (vmap (fun x => (x * 2 * PI / IZR (2 * L))%R) q)
  else if streq (lower sampling) "dh" then quad_weights_dh gl L
  else if streq (lower sampling) "gl" then quad_weights_gl gl L
  else if streq (lower sampling) "healpix" then quad_weights_hp nside
  else Err ValueError.

(** s2fft/utils/quadrature.py:53-96 quad_weights *)
Definition quad_weights (gl : gl_rule) (L : Z) (sampling : string) (spin : Z) (nside : option Z) : result (vec R) :=
  if streq (lower sampling) "mw" then quad_weights_mw L spin
  else if streq (lower sampling) "mwss" then quad_weights_mwss L spin
  else if streq (lower sampling) "dh" then quad_weights_dh gl L
  else if streq (lower sampling) "gl" then quad_weights_gl gl L
  else if streq (lower sampling) "healpix" then quad_weights_hp nside
  else Err ValueError.
