(** Model of the precomputed forward transform in rounded arithmetic: the quadrature weights of
    s2fft/utils/quadrature.py, the kernel of s2fft/precompute_transforms/construct.py with
    forward=True built with the Risbo recursion, and the function forward_transform of
    s2fft/precompute_transforms/spherical.py (numpy, reality=False), for the schemes "dh" and "gl",
    whose samples are used as they are. The conventions are those of Model/PrecomputeFloat.v. *)
From Coq Require Import Reals.
From Coquelicot Require Import Complex.
From Verif Require Import Lib.Py Lib.Vec Lib.Sums Lib.Cplx Lib.Arr Model.Index Model.Samples Model.Risbo Model.RisboFloat
  Model.Resampling Model.Spherical Model.Precompute Model.PrecomputeFloat.
Open Scope string_scope.
Open Scope Z_scope.

(** quadrature.py:181-201 quad_weight_dh_theta_only at one colatitude: w += np.sin((2 * k + 1) * theta) / (2 * k + 1)
    from w = 0.0, then w *= 2 / L * np.sin(theta) *)
Definition ff_dh_sum (A : arith) (theta : R) (L : Z) : R :=
  fold_left (fun w k => fadd A w (fdiv A (fsin A (fmul A (IZR (2 * k + 1)) theta)) (IZR (2 * k + 1)))) (zrange 0 L) 0%R.
Definition ff_dh_theta_only (A : arith) (theta : R) (L : Z) : R :=
  fmul A (ff_dh_sum A theta L) (fmul A (fdiv A 2 (IZR L)) (fsin A theta)).
(** quadrature.py:164-178 quad_weights_dh: q * 2 * np.pi / (2 * L - 1) *)
Definition ff_weights_dh (A : arith) (ths : vec R) (L : Z) : vec R :=
  vmap (fun theta => fdiv A (fmul A (fmul A (ff_dh_theta_only A theta L) 2) (fpi A)) (IZR (2 * L - 1))) ths.
(** quadrature.py:7-50 quad_weights_transform. The Gauss-Legendre weights are given: their Newton
    iteration is modelled, in exact arithmetic, in Model/GaussLegendre.v. The weights of the other
    schemes are not modelled here. *)
Definition ff_weights (A : arith) (sampling : string) (L : Z) (ths wgl : vec R) : result (vec R) :=
  if streq (lower sampling) "dh" then Ok (ff_weights_dh A ths L)
  else if streq (lower sampling) "gl" then Ok wgl
  else Err OtherError.

(** construct.py:149-151: np.einsum("...tlm, ...t->...tlm", dl, weights) *)
Definition ff_weigh (A : arith) (dl : ndarray R) (w : vec R) : result (ndarray R) :=
  if dim0 dl =? vlen w then Ok (arr3 (dim0 dl) (dim1 dl) (dim2 dl) (fun t l m => fmul A (at3 dl t l m) (vat w t)))
  else Err ValueError.
(** construct.py:17-161 spin_spherical_kernel(L, spin, False, sampling, forward=True, recursion="risbo") *)
Definition ff_kernel (A : arith) (F : ffts) (sampling : string) (ths wgl : vec R) (L spin : Z) : result (ndarray R) :=
  let* dl := pf_kernel A F sampling ths L spin in
  let* w := ff_weights A sampling L ths wgl in
  ff_weigh A dl w.

(** np.einsum("...tlm, ...tm -> ...lm", kernel, ftm) *)
Definition ff_einsum (A : arith) (o : order) (k : ndarray R) (ftm : ndarray C) : result (ndarray C) :=
  if (dim0 k =? dim0 ftm) && (dim2 k =? dim1 ftm)
  then Ok (mat (dim1 k) (dim2 k) (fun l m => cf_sum A o (fun t => cf_mul A (RtoC (at3 k t l m)) (at2 ftm t m))))
  else Err ValueError.
(** spherical.py:314-380 forward_transform, with reality=False. [fft] is np.fft.fft(x, norm="backward").
    The schemes that are resampled ("mw", "mwss") and HEALPix are not modelled here. *)
Definition ff_forward (A : arith) (fft : vec C -> vec C) (o : order) (f : ndarray C) (kernel : ndarray R) (L : Z) (sampling : string)
    (spin : Z) : result (ndarray C) :=
  let* _ := if str_in (lower sampling) ["dh"; "gl"] then Ok tt else Err OtherError in
  let ftm := map_rows fft f in
  let ftm := map_rows fftshift ftm in
  let ftm := slice2 ftm 0 (dim0 ftm) (m_offset sampling) (dim1 ftm) in
  let flm := zeros (RtoC 0) (flm_shape L) in
  let* e := ff_einsum A o kernel ftm in
  let* flm := slice2_set flm 0 (dim0 flm) 0 (dim1 flm) e in
  Ok (mscal (fun z => cf_mul A z (RtoC (m1 spin))) flm).
