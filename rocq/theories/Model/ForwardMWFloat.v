(** Model of the precomputed forward transform in rounded arithmetic for every scheme but HEALPix:
    the weights of the mwss rule (s2fft/utils/quadrature.py), the kernel of
    s2fft/precompute_transforms/construct.py with forward=True, and the function forward_transform
    of s2fft/precompute_transforms/spherical.py (numpy, reality=False) with the resampling of "mw"
    and "mwss". The conventions are those of Model/PrecomputeFloat.v; [fft] is
    np.fft.fft(x, norm="backward"), on the rings and in the weights. *)
From Coq Require Import Reals.
From Coquelicot Require Import Complex.
From Verif Require Import Lib.Py Lib.Vec Lib.Sums Lib.Cplx Lib.Arr Model.Index Model.Samples Model.Risbo Model.RisboFloat
  Model.Quadrature Model.Resampling Model.Spherical Model.Precompute Model.PrecomputeFloat Model.ForwardFloat Model.ResamplingFloat.
Open Scope string_scope.
Open Scope Z_scope.

(** quadrature.py:291-320 mw_weights. The products of 1j and -1j with np.pi are exact, the real
    part stays 0; the integer 1 - m ** 2 is exact. *)
Definition mf_mw_weights (A : arith) (m : Z) : C :=
  if m =? 1 then (0%R, fdiv A (fpi A) 2%R)
  else if m =? -1 then (0%R, fdiv A (- fpi A)%R 2%R)
  else if m mod 2 =? 0 then RtoC (fdiv A 2%R (IZR (1 - m ^ 2)))
  else RtoC 0.

(** q[s:e] = q[s:e] + c * w *)
Definition mf_add_slice (A : arith) (q : vec R) (s e : Z) (c : R) (w : vec R) : result (vec R) :=
  let q1 := vslice q s e in
  if negb (vlen w =? vlen q1) then Err ValueError
  else vassign q s e (mkVec (vlen q1) (fun i => fadd A (vat q1 i) (fmul A c (vat w i)))).
(** quadrature.py:238-262 quad_weights_mwss_theta_only *)
Definition mf_mwss_theta_only (A : arith) (fft : vec C -> vec C) (L spin : Z) : result (vec R) :=
  let* w := foldM (fun w i => vwrite w (i + L - 1) (mf_mw_weights A (i - 1)))
              (zrange (- (L - 1) + 1) (L + 1)) (vconst (2 * L) (RtoC 0)) in
  let wr := vmap (fun z => fdiv A (Re z) (IZR (2 * L))) (fft (ifftshift w)) in
  let q := vslice wr 0 (L + 1) in
  mf_add_slice A q 1 L (sgn spin) (vrev_down wr L).
(** quadrature.py:7-50 quad_weights_transform: quad_weights_mwss_theta_only(2 * L, spin=0) * 2 * np.pi / (2 * L);
    the other schemes as in Model/ForwardFloat.v *)
Definition mf_weights (A : arith) (fft : vec C -> vec C) (sampling : string) (L : Z) (ths wgl : vec R) : result (vec R) :=
  if streq (lower sampling) "mwss" then
    let* q := mf_mwss_theta_only A fft (2 * L) 0 in
    Ok (vmap (fun x => fdiv A (fmul A (fmul A x 2%R) (fpi A)) (IZR (2 * L))) q)
  else ff_weights A sampling L ths wgl.

(** construct.py:67-76: the rings of the kernel; "mw" and "mwss" use those of the doubled mwss grid *)
Definition mf_thetas (A : arith) (sampling : string) (L : Z) (gl : vec R) : result (string * vec R) :=
  if str_in (lower sampling) ["mw"; "mwss"]
  then let* ths := pf_thetas A "mwss" (2 * L) gl in Ok ("mwss", ths)
  else let* ths := pf_thetas A sampling L gl in Ok (sampling, ths).
(** construct.py:17-161 spin_spherical_kernel(L, spin, False, sampling, forward=True, recursion="risbo");
    the Gauss-Legendre colatitudes gl and weights wgl are given *)
Definition mf_kernel (A : arith) (F : ffts) (fft : vec C -> vec C) (sampling : string) (gl wgl : vec R) (L spin : Z) : result (ndarray R) :=
  let* (sampling, ths) := mf_thetas A sampling L gl in
  let* dl := pf_kernel A F sampling ths L spin in
  let* w := mf_weights A fft sampling L ths wgl in
  ff_weigh A dl w.

(** spherical.py:314-380 forward_transform, with reality=False; HEALPix is not modelled here *)
Definition mf_forward (A : arith) (S : rffts) (fft : vec C -> vec C) (o : order) (f : ndarray C) (kernel : ndarray R) (L : Z)
    (sampling : string) (spin : Z) : result (ndarray C) :=
  let* f := if streq (lower sampling) "mw" then rs_mw_to_mwss A S f L spin else Ok f in
  let* (sampling, f) := if str_in (lower sampling) ["mw"; "mwss"]
                        then let* f := rs_upsample A S f L spin in Ok ("mwss", f) else Ok (sampling, f) in
  let* _ := if str_in (lower sampling) ["mwss"; "dh"; "gl"] then Ok tt else Err OtherError in
  let ftm := map_rows fft f in
  let ftm := map_rows fftshift ftm in
  let ftm := slice2 ftm 0 (dim0 ftm) (m_offset sampling) (dim1 ftm) in
  let flm := zeros (RtoC 0) (flm_shape L) in
  let* e := ff_einsum A o kernel ftm in
  let* flm := slice2_set flm 0 (dim0 flm) 0 (dim1 flm) e in
  Ok (mscal (fun z => cf_mul A z (RtoC (m1 spin))) flm).
