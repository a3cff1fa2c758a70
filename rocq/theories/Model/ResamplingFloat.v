(** Model of s2fft/utils/resampling.py in rounded arithmetic: the functions the forward transforms
    of the mw and mwss schemes call, and periodic_extension. Every operation on numbers is one
    operation of the record of rounded operations (see Model/RisboFloat.v for what is left out).
    The fast Fourier transforms are arguments: the code calls numpy's, whose operations are not
    modelled. Simplification as in Model/Resampling.v: one item of the batch, with a scalar spin. *)
From Coq Require Import Reals.
From Coquelicot Require Import Complex.
From Verif Require Import Lib.Py Lib.Vec Lib.Sums Lib.Cplx Lib.Arr Model.Samples Model.RisboFloat Model.Resampling Model.PrecomputeFloat.
Open Scope string_scope.
Open Scope Z_scope.

(** np.fft.fft(x, norm="backward"), np.fft.fft(x, norm="forward"), np.fft.ifft(x, norm="backward")
    and np.fft.ifft(x, norm="forward") along one axis *)
Record rffts := mkRffts { r_fft : vec C -> vec C; r_fft_fwd : vec C -> vec C; r_ifft : vec C -> vec C; r_ifft_fwd : vec C -> vec C }.

(** a[r0:r1, c0:c1] *= w, where (r, c) are positions in the slice *)
Definition rs_scale (A : arith) (a : ndarray C) (r0 r1 c0 c1 : Z) (w : Z -> Z -> C) : result (ndarray C) :=
  slice2_add (cf_mul A) a r0 r1 c0 c1 (mat (slice_len (dim0 a) r0 r1) (slice_len (dim1 a) c0 c1) w).

(** s2fft/utils/resampling.py:6-61 periodic_extension; the integers (-1) ** abs(k) are converted
    to complex numbers exactly *)
Definition rs_extension (A : arith) (S : rffts) (f : ndarray C) (L spin : Z) (sampling : string) : result (ndarray C) :=
  let* nt := ntheta (Some L) sampling None in
  let* np := nphi_equiang (Some L) sampling in
  let* nte := ntheta_extension L sampling in
  let m_offset := if streq sampling "mwss" then 1 else 0 in
  let* f_ext := slice2_set (czeros nte np) 0 nt 0 np (slice2 f 0 nt 0 np) in
  let f_ext := map_rows (fun r => fftshift (r_fft S r)) f_ext in
  let ind1l := L + m_offset in
  let ind1u := 2 * L - 1 + m_offset in
  let ind2u := 2 * L - 1 + m_offset in
  let* f_ext := slice2_set f_ext ind1l ind1u m_offset ind2u
                  (flip0 (slice2 f_ext m_offset (L - 1 + m_offset) m_offset ind2u)) in
  let* f_ext := rs_scale A f_ext ind1l ind1u m_offset ind2u (fun _ c => pow_m1 (- (L - 1) + c)) in
  let* f_ext := rs_scale A f_ext ind1l ind1u m_offset ind2u (fun _ _ => pow_m1 spin) in
  Ok (map_rows (fun r => r_ifft S (ifftshift r)) f_ext).

(** s2fft/utils/resampling.py:64-101 periodic_extension_spatial_mwss *)
Definition rs_spatial (A : arith) (f : ndarray C) (L spin : Z) : result (ndarray C) :=
  let nt := L + 1 in
  let np := 2 * L in
  let nte := 2 * L in
  let* f_ext := slice2_set (czeros nte np) 0 nt 0 np (slice2 f 0 nt 0 np) in
  slice2_set f_ext nt (dim0 f_ext) 0 (2 * L)
    (mscal (fun z => cf_mul A (pow_m1 spin) z)
       (map_rows fftshift (flip0 (slice2 f 1 (nt - 1) 0 (2 * L))))).

(** s2fft/utils/resampling.py:134-160 upsample_by_two_mwss_ext *)
Definition rs_upsample_ext (S : rffts) (f_ext : ndarray C) (L : Z) : result (ndarray C) :=
  let np := 2 * L in
  let nte := 2 * L in
  let f_ext := map_cols (fun c => fftshift (r_fft_fwd S c)) f_ext in
  let nte_up := 2 * nte in
  let* up := slice2_set (czeros nte_up np) L (nte + L) 0 np (slice2 f_ext 0 nte 0 np) in
  Ok (map_cols (fun c => r_ifft_fwd S (ifftshift c)) up).

(** s2fft/utils/resampling.py:104-131 upsample_by_two_mwss *)
Definition rs_upsample (A : arith) (S : rffts) (f : ndarray C) (L spin : Z) : result (ndarray C) :=
  let* f_ext := rs_spatial A f L spin in
  let* f_ext := rs_upsample_ext S f_ext L in
  unextend numpy f_ext (2 * L) "mwss".

(** s2fft/utils/resampling.py:248-281 mw_to_mwss_phi *)
Definition rs_phi (S : rffts) (f_mw : ndarray C) (L : Z) : result (ndarray C) :=
  let z := czeros (L + 1) (2 * L) in
  let* f_mwss := slice2_set z 0 (dim0 z) 1 (dim1 z) (map_rows (fun r => fftshift (r_fft_fwd S r)) f_mw) in
  Ok (map_rows (fun r => r_ifft_fwd S (ifftshift r)) f_mwss).

(** np.exp(-1j * k * np.pi / n), s2fft/utils/resampling.py:315-317: the real part of the exponent
    is 0; numpy divides a complex number by a real one by multiplying with the reciprocal *)
Definition rs_exp (A : arith) (k n : Z) : C :=
  let y := fmul A (fmul A (IZR (- k)) (fpi A)) (fdiv A 1%R (IZR n)) in (fcos A y, fsin A y).

(** s2fft/utils/resampling.py:284-326 mw_to_mwss_theta *)
Definition rs_theta (A : arith) (S : rffts) (f_mw : ndarray C) (L spin : Z) : result (ndarray C) :=
  let* f_mw_ext := rs_extension A S f_mw L spin "mw" in
  let z := czeros (2 * L) (2 * L - 1) in
  let* fmp := slice2_set z 1 (dim0 z) 0 (dim1 z) (map_cols (fun c => fftshift (r_fft_fwd S c)) f_mw_ext) in
  let* fmp := rs_scale A fmp 1 (dim0 fmp) 0 (dim1 fmp) (fun r _ => rs_exp A (- (L - 1) + r) (2 * L - 1)) in
  let f_mwss_ext := map_cols (fun c => r_ifft_fwd S (ifftshift c)) fmp in
  unextend numpy f_mwss_ext L "mwss".

(** s2fft/utils/resampling.py:329-355 mw_to_mwss *)
Definition rs_mw_to_mwss (A : arith) (S : rffts) (f_mw : ndarray C) (L spin : Z) : result (ndarray C) :=
  let* g := rs_theta A S f_mw L spin in rs_phi S g L.
