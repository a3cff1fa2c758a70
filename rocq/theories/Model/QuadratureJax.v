(** Model of s2fft/utils/quadrature_jax.py in exact arithmetic. The functions are compiled with static arguments, so the
    loops and tests on L, m and the name run in Python. There is no spin: the mirrored half is added with sign +1. *)
From Coq Require Import Reals.
From Coquelicot Require Import Complex.
From Verif Require Import Lib.Py Lib.Vec Lib.Sums Lib.Cplx Lib.Arr Model.Samples Model.Grids Model.FFT Model.Quadrature Model.GaussLegendre.
Open Scope string_scope.
Open Scope Z_scope.

(** s2fft/utils/quadrature_jax.py:313-342 mw_weights *)
Definition mw_weights_jax (m : Z) : C :=
  (if (m =? 1)%Z then Ci * RtoC (PI / 2)
   else if (m =? -1)%Z then - Ci * RtoC (PI / 2)
   else if (m mod 2 =? 0)%Z then RtoC (2 / IZR (1 - m ^ 2))
   else RtoC 0)%C.
(** q.at[s:e].add(w): the slice plus w *)
Definition vadd_at (q : vec R) (s e : Z) (w : vec R) : result (vec R) :=
  let q1 := vslice q s e in
  if negb (vlen w =? vlen q1) then Err ValueError
  else vassign q s e (mkVec (vlen q1) (fun i => (vat q1 i + vat w i)%R)).
(** s2fft/utils/quadrature_jax.py:259-282 quad_weights_mwss_theta_only *)
Definition quad_weights_mwss_theta_only_jax (L : Z) : result (vec R) :=
  let* w := foldM (fun w i => vwrite w (i + L - 1) (mw_weights_jax (i - 1)))
              (zrange (- (L - 1) + 1) (L + 1)) (vconst (2 * L) (RtoC 0)) in
  let wr := vmap (fun z => (Re z / IZR (2 * L))%R) (fft_bwd (ifftshift w)) in
  let q := vslice wr 0 (L + 1) in
  vadd_at q 1 L (vrev_down wr L).
(** s2fft/utils/quadrature_jax.py:286-309 quad_weights_mw_theta_only *)
Definition quad_weights_mw_theta_only_jax (L : Z) : result (vec R) :=
  let* w := foldM (fun w i => vwrite w (i + L - 1) (mw_weights_jax i))
              (zrange (- (L - 1)) L) (vconst (2 * L - 1) (RtoC 0)) in
  let w := mkVec (vlen w) (fun i => (vat w i * cis (- IZR (- (L - 1) + i) * PI / IZR (2 * L - 1)))%C) in
  let wr := vmap (fun z => (Re z / IZR (2 * L - 1))%R) (fft_bwd (ifftshift w)) in
  let q := vslice wr 0 L in
  vadd_at q 0 (L - 1) (vrev_down wr (L - 1)).
(** s2fft/utils/quadrature_jax.py:221-236 quad_weights_mw, 240-255 quad_weights_mwss *)
Definition quad_weights_mw_jax (L : Z) : result (vec R) :=
  let* q := quad_weights_mw_theta_only_jax L in Ok (vmap (fun x => (x * 2 * PI / IZR (2 * L - 1))%R) q).
Definition quad_weights_mwss_jax (L : Z) : result (vec R) :=
  let* q := quad_weights_mwss_theta_only_jax L in Ok (vmap (fun x => (x * 2 * PI / IZR (2 * L))%R) q).
(** s2fft/utils/quadrature_jax.py:197-217 quad_weight_dh_theta_only: w += in a loop *)
Definition quad_weight_dh_theta_only_jax (theta : R) (L : Z) : R :=
  (let w := fold_left (fun w k => w + sin (IZR (2 * k + 1) * theta) / IZR (2 * k + 1)) (zrange 0 L) 0 in
   w * (2 / IZR L * sin theta))%R.
(** s2fft/utils/quadrature_jax.py:178-193 quad_weights_dh *)
Definition quad_weights_dh_jax (gl : gl_rule) (L : Z) : result (vec R) :=
  let* th := thetas gl (Some L) "dh" None in
  let q := vmap (fun theta => quad_weight_dh_theta_only_jax theta L) th in
  Ok (vmap (fun x => (x * 2 * PI / IZR (2 * L - 1))%R) q).
(** s2fft/utils/quadrature_jax.py:103-123 quad_weights_hp: ones(rings) * 4 * pi / npix *)
Definition quad_weights_hp_jax (nside : option Z) : result (vec R) :=
  let* n := need nside in
  let npix := 12 * n ^ 2 in
  let* rings := ntheta None "healpix" nside in
  Ok (vmap (fun x => (x * 4 * PI / IZR npix)%R) (vconst rings 1%R)).
(** s2fft/utils/quadrature_jax.py:9-54 quad_weights_transform, with the Newton iteration for gl *)
Definition quad_weights_transform_jax (gl : gl_rule) (turns : nat) (L : Z) (sampling : string) (nside : option Z) : result (vec R) :=
  if streq (lower sampling) "mwss" then
    let* q := quad_weights_mwss_theta_only_jax (2 * L) in
    Ok (vmap (fun x => (x * 2 * PI / IZR (2 * L))%R) q)
  else if streq (lower sampling) "dh" then quad_weights_dh_jax gl L
  else if streq (lower sampling) "gl" then quad_weights_gl_newton turns L
  else if streq (lower sampling) "healpix" then quad_weights_hp_jax nside
  else Err ValueError.
(** s2fft/utils/quadrature_jax.py:57-99 quad_weights *)
Definition quad_weights_jax (gl : gl_rule) (turns : nat) (L : Z) (sampling : string) (nside : option Z) : result (vec R) :=
  if streq (lower sampling) "mw" then quad_weights_mw_jax L
  else if streq (lower sampling) "mwss" then quad_weights_mwss_jax L
  else if streq (lower sampling) "dh" then quad_weights_dh_jax gl L
  else if streq (lower sampling) "gl" then quad_weights_gl_newton turns L
  else if streq (lower sampling) "healpix" then quad_weights_hp_jax nside
  else Err ValueError.
