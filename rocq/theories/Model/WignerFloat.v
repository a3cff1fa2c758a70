(** Model of the precomputed inverse Wigner transform in rounded arithmetic: the kernel of
    s2fft/precompute_transforms/construct.py:332-468 (wigner_kernel, numpy, reality=False, both modes) and s2fft/precompute_transforms/wigner.py:80-138 (inverse_transform), for the
    schemes other than HEALPix. The conventions are those of Model/PrecomputeFloat.v: one rounded
    operation for each operation on numbers, the order in which np.einsum adds is an argument, and
    so is numpy's two-dimensional Fourier transform. *)
From Coq Require Import Reals.
From Coquelicot Require Import Complex.
From Verif Require Import Lib.Py Lib.Vec Lib.Sums Lib.Cplx Lib.Arr Model.Index Model.Samples Model.Risbo Model.RisboFloat
  Model.FFT Model.Resampling Model.Spherical Model.Precompute Model.PrecomputeFloat Model.Wigner Model.FourierWigner Model.PrecomputeWigner.
Open Scope string_scope.
Open Scope Z_scope.

(** ** construct.py *)
(** construct.py:411: np.moveaxis(delta, -1, 0)[np.arange(lo, hi)] of a stack of planes *)
Definition wf_take (dls : list (ndarray R)) (L lo hi : Z) : result (ndarray R) :=
  if forallb (fun i => match norm_index (2 * L - 1) i with Some _ => true | None => false end) (zrange lo hi)
  then Ok (arr3 (hi - lo) (Z.of_nat (List.length dls)) (2 * L - 1) (fun n t m =>
         at2 (nth (Z.to_nat t) dls (zeros 0%R [])) m (match norm_index (2 * L - 1) (lo + n) with Some c => c | None => 0%Z end)))
  else Err IndexError.
(** construct.py:399-411 with n = np.arange(1 - N, N) *)
Definition wf_direct (A : arith) (ths : vec R) (L N : Z) : result (ndarray R) :=
  let betas := map (vat ths) (zrange 0 (vlen ths)) in
  let* st := foldM (fun st el =>
      let* delta := rf_full_vec A (fst st) betas L el in
      let* c := wf_take delta L (L - 1 + (1 - N)) (L - 1 + N) in
      let* dl := el_set (snd st) el c in
      Ok (delta, dl))
    (zrange 0 L) (map (fun _ => zeros 0%R [2 * L - 1; 2 * L - 1]) betas, zeros 0%R [2 * N - 1; vlen ths; L; 2 * L - 1]) in
  Ok (snd st).
(** construct.py:453-457: (2 * np.arange(L) + 1) / (8 * np.pi**2), the square being one
    multiplication, and the product with it *)
Definition wf_factor (A : arith) (el : Z) : R := fdiv A (IZR (2 * el + 1)) (fmul A 8%R (fmul A (fpi A) (fpi A))).
Definition wf_normalise (A : arith) (dl : ndarray R) (L : Z) : result (ndarray R) :=
  if dim2 dl =? L then Ok (arr4 (dim0 dl) (dim1 dl) (dim2 dl) (dim3 dl) (fun n t l m => fmul A (at4 dl n t l m) (wf_factor A l)))
  else Err ValueError.
(** construct.py:332-468 wigner_kernel(L, N, False, sampling, forward=False, mode="direct") with
    the colatitudes ths of samples.thetas *)
Definition wf_kernel (A : arith) (ths : vec R) (L N : Z) : result (ndarray R) :=
  let* dl := wf_direct A ths L N in wf_normalise A dl L.

(** construct.py:432-439: einsum("am,an,m,n->amn") and einsum("amn,a->amn"), the factors multiplied
    from the left; n = np.arange(1 - N, N) *)
Definition wf_slices (A : arith) (F : ffts) (delta : ndarray R) (th0 : R) (L N : Z) : result (ndarray C) :=
  let* dn := take_last2 delta (L - 1 + (1 - N)) (L - 1 + N) in
  let temp := arr3 (2 * L - 1) (2 * L - 1) (2 * N - 1) (fun a m n =>
    cf_mul A (cf_mul A (cf_mul A (RtoC (at2 delta a m)) (RtoC (at2 dn a n))) (f_ipow F (- (m - (L - 1))))) (f_ipow F (1 - N + n))) in
  Ok (arr3 (2 * L - 1) (2 * L - 1) (2 * N - 1) (fun a m n => cf_mul A (at3 temp a m n) (pf_exp A (a - (L - 1)) th0))).
(** construct.py:418-441, mode="fft"; temp[: len(thetas)] is the range of t *)
Definition wf_fourier (A : arith) (F : ffts) (sampling : string) (ths : vec R) (L N : Z) : result (ndarray R) :=
  let nsamps := kernel_nsamps sampling (vlen ths) in
  let* st := foldM (fun st el =>
      let* delta := rf_full A (fst st) (fdiv A (fpi A) 2%R) L el in
      let* th0 := vread ths 0 in
      let* temp := wf_slices A F delta th0 L N in
      let half := planes_from temp (L - 1) in
      let* dl := el_set (snd st) el (arr3 (dim2 half) (vlen ths) (dim1 half) (fun n t m =>
         vat (f_irfft F (mkVec (dim0 half) (fun k => at3 half k m n)) nsamps) t)) in
      Ok (delta, dl))
    (zrange 0 L) (zeros 0%R [2 * L - 1; 2 * L - 1], zeros 0%R [2 * N - 1; vlen ths; L; 2 * L - 1]) in
  Ok (snd st).
(** construct.py:332-468 with mode="fft". Which of the two modes "auto" selects (line 383) compares
    N with a rounded quotient; it is not modelled here: what is proved holds for both. *)
Definition wf_kernel_fft (A : arith) (F : ffts) (sampling : string) (ths : vec R) (L N : Z) : result (ndarray R) :=
  if str_in (lower sampling) ["mw"; "mwss"; "dh"] then
    let* dl := wf_fourier A F sampling ths L N in wf_normalise A dl L
  else Err ValueError.

(** ** wigner.py *)
(** np.einsum("...ntlm, ...nlm -> ...ntm", kernel, flmn): the real kernel is converted to complex numbers *)
Definition wf_einsum (A : arith) (o : order) (k : ndarray R) (a : ndarray C) : result (ndarray C) :=
  if (dim0 k =? dim0 a) && (dim2 k =? dim1 a) && (dim3 k =? dim2 a)
  then Ok (arr3 (dim0 k) (dim1 k) (dim3 k) (fun n t m => cf_sum A o (fun l => cf_mul A (RtoC (at4 k n t l m)) (at3 a n l m))))
  else Err ValueError.
(** np.fft.ifft2(a, axes=(-1, -3), norm="forward"): for each t the transform of the plane a[:, t, :] *)
Definition wf_ifft2 (ifft2 : ndarray C -> ndarray C) (a : ndarray C) : ndarray C :=
  let p t := ifft2 (mat (dim0 a) (dim2 a) (fun n m => at3 a n t m)) in
  arr3 (dim0 (p 0)) (dim1 a) (dim1 (p 0)) (fun n t m => at2 (p t) n m).
(** wigner.py:80-138 inverse_transform with reality=False *)
Definition wf_inverse (A : arith) (ifft2 : ndarray C -> ndarray C) (o : order) (flmn : ndarray C) (kernel : ndarray R)
    (L N : Z) (sampling : string) : result (ndarray C) :=
  let mo := wm_offset sampling in
  let* sh := fnab_shape L N sampling None in
  let fnab := zeros (RtoC 0) sh in
  let* e := wf_einsum A o kernel (planes_from flmn 0) in
  let* fnab := tail_set fnab 0 mo e in
  if in_healpix sampling then Err OtherError
  else Ok (wf_ifft2 ifft2 (map3_0 ifftshift (map3_2 ifftshift fnab))).
