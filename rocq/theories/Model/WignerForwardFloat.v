(** Model of the precomputed forward Wigner transform in rounded arithmetic: the kernel of
    s2fft/precompute_transforms/construct.py:332-468 (wigner_kernel, numpy, reality=False, forward=True, both modes) and
    s2fft/precompute_transforms/wigner.py:291-370 (forward_transform, reality=False), for the schemes
    "dh" and "gl", whose samples are used as they are. The conventions are those of
    Model/PrecomputeFloat.v, Model/ForwardFloat.v and Model/WignerFloat.v. *)
From Coq Require Import Reals.
From Coquelicot Require Import Complex.
From Verif Require Import Lib.Py Lib.Vec Lib.Sums Lib.Cplx Lib.Arr Model.Index Model.Samples Model.RisboFloat
  Model.Spherical Model.Precompute Model.PrecomputeFloat Model.ForwardFloat Model.Wigner Model.FourierWigner Model.PrecomputeWigner Model.WignerFloat.
Open Scope string_scope.
Open Scope Z_scope.

(** ** construct.py *)
(** construct.py:450: 2 * np.pi / (2 * N - 1) *)
Definition xf_scale (A : arith) (N : Z) : R := fdiv A (fmul A 2%R (fpi A)) (IZR (2 * N - 1)).
(** construct.py:449-450: np.einsum("...ntlm, ...t->...ntlm", dl, weights), then dl *= 2 * np.pi / (2 * N - 1) *)
Definition xf_weigh (A : arith) (dl : ndarray R) (w : vec R) (N : Z) : result (ndarray R) :=
  if dim1 dl =? vlen w
  then Ok (arr4 (dim0 dl) (dim1 dl) (dim2 dl) (dim3 dl) (fun n t l m => fmul A (fmul A (at4 dl n t l m) (vat w t)) (xf_scale A N)))
  else Err ValueError.
(** construct.py:332-468 wigner_kernel(L, N, False, sampling, forward=True, mode="direct") with the
    colatitudes ths of samples.thetas and, for "gl", the weights wgl. "mw", "mwss" (whose kernel belongs to
    other colatitudes) and "healpix" (which has a phase) are not modelled here: OtherError from ff_weights. *)
Definition xf_kernel (A : arith) (sampling : string) (ths wgl : vec R) (L N : Z) : result (ndarray R) :=
  let* dl := wf_direct A ths L N in
  let* w := ff_weights A sampling L ths wgl in
  xf_weigh A dl w N.
(** the same with mode="fft" *)
Definition xf_kernel_fft (A : arith) (F : ffts) (sampling : string) (ths wgl : vec R) (L N : Z) : result (ndarray R) :=
  if str_in (lower sampling) ["mw"; "mwss"; "dh"] then
    let* dl := wf_fourier A F sampling ths L N in
    let* w := ff_weights A sampling L ths wgl in
    xf_weigh A dl w N
  else Err ValueError.

(** ** wigner.py *)
(** np.einsum("...ntlm, ...ntm -> ...nlm", kernel, fban): the real kernel is converted to complex numbers *)
Definition xf_einsum (A : arith) (o : order) (k : ndarray R) (a : ndarray C) : result (ndarray C) :=
  if (dim0 k =? dim0 a) && (dim1 k =? dim1 a) && (dim3 k =? dim2 a)
  then Ok (arr3 (dim0 k) (dim2 k) (dim3 k) (fun n l m => cf_sum A o (fun t => cf_mul A (RtoC (at4 k n t l m)) (at3 a n t m))))
  else Err ValueError.
(** wigner.py:291-370 forward_transform with reality=False. [fftg] and [fftp] are
    np.fft.fft(x, norm="backward") along the first and along the last axis. *)
Definition xf_forward (A : arith) (fftg fftp : vec C -> vec C) (o : order) (f : ndarray C) (kernel : ndarray R)
    (L N : Z) (sampling : string) : result (ndarray C) :=
  let* _ := if str_in (lower sampling) ["dh"; "gl"] then Ok tt else Err OtherError in
  let fban := map3_0 fftshift (map3_0 fftg f) in
  let fban := map3_2 fftshift (map3_2 fftp fban) in
  let fban := last_from fban (wm_offset sampling) in
  let flmn := zeros (RtoC 0) (flmn_shape L N) in
  let* e := xf_einsum A o kernel fban in
  tail_set flmn 0 0 e.
