(** Model of the precomputed forward Wigner transform in rounded arithmetic on "mw" and "mwss": the kernel of
    s2fft/precompute_transforms/construct.py:332-468 (wigner_kernel, numpy, reality=False, forward=True, both
    modes), which belongs to the rings of the mwss grid of band-limit 2L, and
    s2fft/precompute_transforms/wigner.py:291-370 (forward_transform, reality=False), which resamples every
    plane to that grid. The conventions are those of Model/PrecomputeFloat.v, Model/ForwardMWFloat.v,
    Model/ResamplingFloat.v and Model/WignerForwardFloat.v. *)
From Coq Require Import Reals.
From Coquelicot Require Import Complex.
From Verif Require Import Lib.Py Lib.Vec Lib.Sums Lib.Cplx Lib.Arr Model.Index Model.Samples Model.RisboFloat
  Model.Spherical Model.Precompute Model.PrecomputeFloat Model.ForwardFloat Model.ResamplingFloat Model.ForwardMWFloat
  Model.Wigner Model.FourierWigner Model.PrecomputeWigner Model.WignerFloat Model.WignerForwardFloat.
Open Scope string_scope.
Open Scope Z_scope.

(** ** construct.py *)
(** construct.py:332-468 wigner_kernel(L, N, False, sampling, forward=True, mode="direct"); [fft] is the
    np.fft.fft of quadrature.py:260, the Gauss-Legendre colatitudes gl and weights wgl are given and not
    used for "mw" and "mwss" *)
Definition xm_kernel (A : arith) (fft : vec C -> vec C) (sampling : string) (gl wgl : vec R) (L N : Z) : result (ndarray R) :=
  let* (sampling, ths) := mf_thetas A sampling L gl in
  let* dl := wf_direct A ths L N in
  let* w := mf_weights A fft sampling L ths wgl in
  xf_weigh A dl w N.
(** the same with mode="fft" *)
Definition xm_kernel_fft (A : arith) (F : ffts) (fft : vec C -> vec C) (sampling : string) (gl wgl : vec R) (L N : Z) : result (ndarray R) :=
  if str_in (lower sampling) ["mw"; "mwss"; "dh"] then
    let* (sampling, ths) := mf_thetas A sampling L gl in
    let* dl := wf_fourier A F sampling ths L N in
    let* w := mf_weights A fft sampling L ths wgl in
    xf_weigh A dl w N
  else Err ValueError.

(** ** wigner.py *)
(** wigner.py:346-356: the part after the resampling *)
Definition xm_rings (A : arith) (fftp : vec C -> vec C) (o : order) (fban : ndarray C) (kernel : ndarray R) (L N : Z) : result (ndarray C) :=
  if negb (Z.of_nat (List.length (shape fban)) =? 3) then Err IndexError else
  let fban := map3_2 fftshift (map3_2 fftp fban) in
  let fban := last_from fban (wm_offset "mwss") in
  let flmn := zeros (RtoC 0) (flmn_shape L N) in
  let* e := xf_einsum A o kernel fban in
  tail_set flmn 0 0 e.
(** wigner.py:291-370 forward_transform with reality=False for "mw" and "mwss". [fftg] and [fftp] are
    np.fft.fft(x, norm="backward") along the first and along the last axis, [S] the transforms of
    resampling.py. The resampling functions take one plane after the other with its own spin, and
    upsample_by_two_mwss ends in np.squeeze, as in Model/PrecomputeWigner.v. *)
Definition xm_forward (A : arith) (S : rffts) (fftg fftp : vec C -> vec C) (o : order) (f : ndarray C) (kernel : ndarray R)
    (L N : Z) (sampling : string) : result (ndarray C) :=
  let* _ := if str_in (lower sampling) ["mw"; "mwss"] then Ok tt else Err OtherError in
  let fban := map3_0 fftshift (map3_0 fftg f) in
  let* _ := if dim0 fban =? 2 * N - 1 then Ok tt else Err ValueError in
  let* fban := if streq (lower sampling) "mw" then map_planes (fun k p => rs_mw_to_mwss A S p L (- (1 - N + k))) fban else Ok fban in
  let* fban := map_planes (fun k p => rs_upsample A S p L (- (1 - N + k))) fban in
  xm_rings A fftp o (squeeze0 fban) kernel L N.
