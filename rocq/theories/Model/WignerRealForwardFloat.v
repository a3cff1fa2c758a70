(** Model of the precomputed forward Wigner transform of real signals in rounded arithmetic: the kernel of
    s2fft/precompute_transforms/construct.py:332-468 (wigner_kernel, numpy, reality=True, forward=True, both modes) and
    s2fft/precompute_transforms/wigner.py:291-370 (forward_transform, reality=True), for the schemes "dh" and "gl",
    whose samples are used as they are. The conventions are those of Model/WignerForwardFloat.v and
    Model/WignerRealFloat.v. *)
From Coq Require Import Reals.
From Coquelicot Require Import Complex.
From Verif Require Import Lib.Py Lib.Vec Lib.Sums Lib.Cplx Lib.Arr Model.Index Model.Samples Model.RisboFloat
  Model.Spherical Model.Precompute Model.PrecomputeFloat Model.ForwardFloat Model.Wigner Model.FourierWigner Model.PrecomputeWigner Model.WignerFloat
  Model.WignerForwardFloat Model.WignerRealFloat.
Open Scope string_scope.
Open Scope Z_scope.

(** ** construct.py *)
(** construct.py:332-468 wigner_kernel(L, N, True, sampling, forward=True, mode="direct") with the colatitudes ths of
    samples.thetas and, for "gl", the weights wgl *)
Definition xr_kernel (A : arith) (sampling : string) (ths wgl : vec R) (L N : Z) : result (ndarray R) :=
  let* dl := wr_direct A ths L N in
  let* w := ff_weights A sampling L ths wgl in
  xf_weigh A dl w N.
(** the same with mode="fft" *)
Definition xr_kernel_fft (A : arith) (F : ffts) (sampling : string) (ths wgl : vec R) (L N : Z) : result (ndarray R) :=
  if str_in (lower sampling) ["mw"; "mwss"; "dh"] then
    let* dl := wr_fourier A F sampling ths L N in
    let* w := ff_weights A sampling L ths wgl in
    xf_weigh A dl w N
  else Err ValueError.

(** ** wigner.py *)
(** wigner.py:326: np.fft.rfft(np.real(f), axis=-3, norm="backward") *)
Definition xr_gamma (rfft : vec R -> vec C) (f : ndarray C) : ndarray C :=
  let col := fun t p => vmap Re (mkVec (dim0 f) (fun i => at3 f i t p)) in
  arr3 (vlen (rfft (col 0 0))) (dim1 f) (dim2 f) (fun k t p => vat (rfft (col t p)) k).
(** wigner.py:357-368: the planes of the negative n; the integers (-1) ** abs(...) are converted to complex numbers *)
Definition xr_fill (A : arith) (flmn : ndarray C) (L N : Z) : result (ndarray C) :=
  let ns := N - 1 in
  let up := amap Cconj (map3_2 vrev (map3_0 vrev (planes_from flmn (ns + 1)))) in
  let up := arr3 (dim0 up) (dim1 up) (dim2 up) (fun n l m => cf_mul A (at3 up n l m) (vat (abs_signs (- L + 1) L) m)) in
  let up := arr3 (dim0 up) (dim1 up) (dim2 up) (fun n l m => cf_mul A (at3 up n l m) (vat (abs_signs (- N + 1) 0) n)) in
  head_set flmn ns up.
(** wigner.py:291-370 forward_transform with reality=True; [rfftg] is np.fft.rfft(x, norm="backward") along the first
    axis and [fftp] is np.fft.fft(x, norm="backward") along the last *)
Definition xr_forward (A : arith) (rfftg : vec R -> vec C) (fftp : vec C -> vec C) (o : order) (f : ndarray C) (kernel : ndarray R)
    (L N : Z) (sampling : string) : result (ndarray C) :=
  let* _ := if str_in (lower sampling) ["dh"; "gl"] then Ok tt else Err OtherError in
  let fban := xr_gamma rfftg f in
  let fban := map3_2 fftshift (map3_2 fftp fban) in
  let fban := last_from fban (wm_offset sampling) in
  let flmn := zeros (RtoC 0) (flmn_shape L N) in
  let* e := xf_einsum A o kernel fban in
  let* flmn := tail_set flmn (N - 1) 0 e in
  xr_fill A flmn L N.
