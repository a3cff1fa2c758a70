(** Model of the precomputed inverse Wigner transform of real signals in rounded arithmetic: the half
    kernel of s2fft/precompute_transforms/construct.py:332-468 (wigner_kernel, numpy, reality=True, both modes)
    and s2fft/precompute_transforms/wigner.py:80-138 (inverse_transform, reality=True), for the schemes other
    than HEALPix. The conventions are those of Model/WignerFloat.v. *)
From Coq Require Import Reals.
From Coquelicot Require Import Complex.
From Verif Require Import Lib.Py Lib.Vec Lib.Sums Lib.Cplx Lib.Arr Model.Index Model.Samples Model.Risbo Model.RisboFloat
  Model.FFT Model.Resampling Model.Spherical Model.Precompute Model.PrecomputeFloat Model.Wigner Model.FourierWigner Model.PrecomputeWigner Model.WignerFloat.
Open Scope string_scope.
Open Scope Z_scope.

(** construct.py:399-411 with n_start_ind = N - 1, n_dim = N and n = np.arange(0, N) *)
Definition wr_direct (A : arith) (ths : vec R) (L N : Z) : result (ndarray R) :=
  let betas := map (vat ths) (zrange 0 (vlen ths)) in
  let* st := foldM (fun st el =>
      let* delta := rf_full_vec A (fst st) betas L el in
      let* c := wf_take delta L (L - 1) (L - 1 + N) in
      let* dl := el_set (snd st) el c in
      Ok (delta, dl))
    (zrange 0 L) (map (fun _ => zeros 0%R [2 * L - 1; 2 * L - 1]) betas, zeros 0%R [N; vlen ths; L; 2 * L - 1]) in
  Ok (snd st).
(** construct.py:332-468 wigner_kernel(L, N, True, sampling, forward=False, mode="direct") *)
Definition wr_kernel (A : arith) (ths : vec R) (L N : Z) : result (ndarray R) :=
  let* dl := wr_direct A ths L N in wf_normalise A dl L.
(** construct.py:432-439 with n = np.arange(0, N) *)
Definition wr_slices (A : arith) (F : ffts) (delta : ndarray R) (th0 : R) (L N : Z) : result (ndarray C) :=
  let* dn := take_last2 delta (L - 1) (L - 1 + N) in
  let temp := arr3 (2 * L - 1) (2 * L - 1) N (fun a m n =>
    cf_mul A (cf_mul A (cf_mul A (RtoC (at2 delta a m)) (RtoC (at2 dn a n))) (f_ipow F (- (m - (L - 1))))) (f_ipow F n)) in
  Ok (arr3 (2 * L - 1) (2 * L - 1) N (fun a m n => cf_mul A (at3 temp a m n) (pf_exp A (a - (L - 1)) th0))).
(** construct.py:418-441, mode="fft" *)
Definition wr_fourier (A : arith) (F : ffts) (sampling : string) (ths : vec R) (L N : Z) : result (ndarray R) :=
  let nsamps := kernel_nsamps sampling (vlen ths) in
  let* st := foldM (fun st el =>
      let* delta := rf_full A (fst st) (fdiv A (fpi A) 2%R) L el in
      let* th0 := vread ths 0 in
      let* temp := wr_slices A F delta th0 L N in
      let half := planes_from temp (L - 1) in
      let* dl := el_set (snd st) el (arr3 (dim2 half) (vlen ths) (dim1 half) (fun n t m =>
         vat (f_irfft F (mkVec (dim0 half) (fun k => at3 half k m n)) nsamps) t)) in
      Ok (delta, dl))
    (zrange 0 L) (zeros 0%R [2 * L - 1; 2 * L - 1], zeros 0%R [N; vlen ths; L; 2 * L - 1]) in
  Ok (snd st).
(** construct.py:332-468 with mode="fft" and reality=True *)
Definition wr_kernel_fft (A : arith) (F : ffts) (sampling : string) (ths : vec R) (L N : Z) : result (ndarray R) :=
  if str_in (lower sampling) ["mw"; "mwss"; "dh"] then
    let* dl := wr_fourier A F sampling ths L N in wf_normalise A dl L
  else Err ValueError.

(** wigner.py:80-138 inverse_transform with reality=True: np.fft.ifft along the longitudes, then np.fft.irfft with
    2 N - 1 points along gamma *)
Definition wr_inverse (A : arith) (F : ffts) (o : order) (flmn : ndarray C) (kernel : ndarray R) (L N : Z) (sampling : string) : result (ndarray R) :=
  let mo := wm_offset sampling in
  let ns := N - 1 in
  let* sh := fnab_shape L N sampling None in
  let fnab := zeros (RtoC 0) sh in
  let* e := wf_einsum A o kernel (planes_from flmn ns) in
  let* fnab := tail_set fnab ns mo e in
  if in_healpix sampling then Err OtherError
  else
    let fnab := map3_2 (f_ifft F) (map3_2 ifftshift fnab) in
    let h := planes_from fnab ns in
    Ok (arr3 (2 * N - 1) (dim1 h) (dim2 h) (fun g t p => vat (f_irfft F (mkVec (dim0 h) (fun n => at3 h n t p)) (2 * N - 1)) g)).
