(** Model of the precomputed spherical transforms with reality=True in rounded arithmetic: the half kernel of
    s2fft/precompute_transforms/construct.py:17-161 (spin_spherical_kernel, numpy, recursion="risbo",
    reality=True) and the functions inverse_transform and forward_transform of
    s2fft/precompute_transforms/spherical.py:87-149 and 314-380 (numpy, reality=True), for the schemes other
    than HEALPix. The conventions are those of Model/PrecomputeFloat.v, Model/ForwardFloat.v and
    Model/ForwardMWFloat.v. *)
From Coq Require Import Reals.
From Coquelicot Require Import Complex.
From Verif Require Import Lib.Py Lib.Vec Lib.Sums Lib.Cplx Lib.Arr Model.Index Model.Samples Model.Risbo Model.RisboFloat
  Model.Resampling Model.Spherical Model.Precompute Model.PrecomputeFloat Model.ForwardFloat Model.ResamplingFloat Model.ForwardMWFloat.
Open Scope string_scope.
Open Scope Z_scope.

(** construct.py:17-161 spin_spherical_kernel(L, spin, True, sampling, forward=False, recursion="risbo"):
    m_start_ind = L - 1 and m_dim = L; HEALPix is not modelled here *)
Definition pr_kernel (A : arith) (F : ffts) (sampling : string) (ths : vec R) (L spin : Z) : result (ndarray R) :=
  let* dl := (if streq (lower sampling) "gl" then pf_direct A ths L spin (L - 1) L
              else if str_in (lower sampling) ["mw"; "mwss"; "dh"] then pf_fourier A F sampling ths L spin (L - 1) L
              else Err OtherError) in
  pf_normalise A dl L.
(** the same with forward=True; [fft] is the np.fft.fft of quadrature.py:260 *)
Definition pr_kernel_forward (A : arith) (F : ffts) (fft : vec C -> vec C) (sampling : string) (gl wgl : vec R) (L spin : Z) : result (ndarray R) :=
  let* (sampling, ths) := mf_thetas A sampling L gl in
  let* dl := pr_kernel A F sampling ths L spin in
  let* w := mf_weights A fft sampling L ths wgl in
  ff_weigh A dl w.

(** spherical.py:87-149 inverse_transform, with reality=True *)
Definition pr_inverse (A : arith) (F : ffts) (o : order) (flm : ndarray C) (kernel : ndarray R) (L : Z) (sampling : string)
    (spin : Z) : result (ndarray R) :=
  let mo := m_offset sampling in
  let ms := L - 1 in
  let* sh := ftm_shape (Some L) sampling None in
  let ftm := zeros (RtoC 0) sh in
  let* e := pf_einsum A o kernel (slice2 flm 0 (dim0 flm) ms (dim1 flm)) in
  let* ftm := slice2_set ftm 0 (dim0 ftm) (ms + mo) (dim1 ftm) e in
  let ftm := mscal (fun z => cf_mul A z (RtoC (m1 spin))) ftm in
  let* nphi := nphi_equiang (Some L) sampling in
  let h := slice2 ftm 0 (dim0 ftm) (ms + mo) (dim1 ftm) in
  Ok (mat (dim0 h) nphi (fun t p => vat (f_irfft F (row h t) nphi) p)).

(** spherical.py:364-380: the part after the resampling; [rfft] is np.fft.rfft(x, norm="backward") *)
Definition pr_rings (A : arith) (rfft : vec R -> vec C) (o : order) (f : ndarray C) (kernel : ndarray R) (L mo spin : Z) : result (ndarray C) :=
  let ms := L - 1 in
  let ftm := mat (dim0 f) (vlen (rfft (vmap Re (row f 0)))) (fun t k => vat (rfft (vmap Re (row f t))) k) in
  let ftm := if negb (mo =? 0) then slice2 ftm 0 (dim0 ftm) 0 (-1) else ftm in
  let flm := zeros (RtoC 0) (flm_shape L) in
  let* e := ff_einsum A o kernel ftm in
  let* flm := slice2_set flm 0 (dim0 flm) ms (dim1 flm) e in
  let v := slice2 flm 0 (dim0 flm) (ms + 1) (dim1 flm) in
  let v := mat (dim0 v) (dim1 v) (fun l j => cf_mul A (RtoC (m1 ((1 + j) mod 2))) (Cconj (at2 v l j))) in
  let* flm := slice2_set flm 0 (dim0 flm) 0 ms (flip1 v) in
  Ok (mscal (fun z => cf_mul A z (RtoC (m1 spin))) flm).
(** spherical.py:314-380 forward_transform, with reality=True. The resampling is the complex one. *)
Definition pr_forward (A : arith) (S : rffts) (rfft : vec R -> vec C) (o : order) (f : ndarray C) (kernel : ndarray R) (L : Z)
    (sampling : string) (spin : Z) : result (ndarray C) :=
  let* f := if streq (lower sampling) "mw" then rs_mw_to_mwss A S f L spin else Ok f in
  let* (sampling, f) := if str_in (lower sampling) ["mw"; "mwss"]
                        then let* f := rs_upsample A S f L spin in Ok ("mwss", f) else Ok (sampling, f) in
  let* _ := if str_in (lower sampling) ["mwss"; "dh"; "gl"] then Ok tt else Err OtherError in
  pr_rings A rfft o f kernel L (m_offset sampling) spin.
