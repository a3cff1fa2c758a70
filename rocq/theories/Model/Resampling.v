(** Model of s2fft/utils/resampling.py and s2fft/utils/resampling_jax.py. Simplification: the
    leading batch axis, over which every operation maps, is dropped: the model is one item, with
    a scalar spin. The squeeze of mw_to_mwss and upsample_by_two_mwss removes only that axis. *)
From Coq Require Import Reals.
From Coquelicot Require Import Complex.
From Verif Require Import Lib.Py Lib.Vec Lib.Sums Lib.Cplx Lib.Arr Model.Samples Model.FFT.
Open Scope string_scope.
Open Scope Z_scope.

Notation czeros n m := (mat n m (fun _ _ => RtoC 0)).

(** a[r0:r1, c0:c1] *= w along the last axis / *= scalar, where (r, c) are positions in the slice *)
Definition slice2_scale (a : ndarray C) (r0 r1 c0 c1 : Z) (w : Z -> Z -> C) : result (ndarray C) :=
  slice2_add Cmult a r0 r1 c0 c1 (mat (slice_len (dim0 a) r0 r1) (slice_len (dim1 a) c0 c1) w).

Inductive backend := numpy | jax.
(** the numpy and the JAX way to write ifft(ifftshift(x)) with norm="forward" and "backward":
    jax conjugates around a forward fft (resampling_jax.py:88-94, 136-142, 224-233, 337-343) *)
Definition inv_fft_shift (b : backend) (x : vec C) : vec C :=
  match b with numpy => ifft_fwd (ifftshift x) | jax => vmap Cconj (fft_bwd (ifftshift (vmap Cconj x))) end.
Definition inv_fft_n_shift (b : backend) (nphi : Z) (x : vec C) : vec C :=
  match b with
  | numpy => ifft_bwd (ifftshift x)
  | jax => vmap (fun z => (z / RtoC (IZR nphi))%C) (vmap Cconj (fft_bwd (ifftshift (vmap Cconj x))))
  end.

(** (-1) ** np.abs(k) (numpy) and (-1) ** k (jax, integer arrays: jnp.power of -1) *)
Definition pow_m1 (k : Z) : C := RtoC (sgn (Z.abs k)).

(** s2fft/utils/resampling.py:6-61 and resampling_jax.py:145-233 periodic_extension. [sampling]
    is compared with "mwss" without lower(). *)
Definition periodic_extension (b : backend) (f : ndarray C) (L spin : Z) (sampling : string) : result (ndarray C) :=
  let* nt := ntheta (Some L) sampling None in
  let* np := nphi_equiang (Some L) sampling in
  let* nte := ntheta_extension L sampling in
  let m_offset := if streq sampling "mwss" then 1 else 0 in
  let* f_ext := slice2_set (czeros nte np) 0 nt 0 np (slice2 f 0 nt 0 np) in
  let f_ext := map_rows (fun r => fftshift (fft_bwd r)) f_ext in
  let ind1l := L + m_offset in
  let ind1u := 2 * L - 1 + m_offset in
  let ind2u := 2 * L - 1 + m_offset in
  let* f_ext := slice2_set f_ext ind1l ind1u m_offset ind2u
                  (flip0 (slice2 f_ext m_offset (L - 1 + m_offset) m_offset ind2u)) in
  let* f_ext := slice2_scale f_ext ind1l ind1u m_offset ind2u (fun _ c => pow_m1 (- (L - 1) + c)) in
  let* f_ext := slice2_scale f_ext ind1l ind1u m_offset ind2u (fun _ _ => pow_m1 spin) in
  Ok (map_rows (inv_fft_n_shift b np) f_ext).

(** s2fft/utils/resampling.py:64-101 and resampling_jax.py:346-396
    periodic_extension_spatial_mwss *)
Definition periodic_extension_spatial_mwss (f : ndarray C) (L spin : Z) : result (ndarray C) :=
  let nt := L + 1 in
  let np := 2 * L in
  let nte := 2 * L in
  let* f_ext := slice2_set (czeros nte np) 0 nt 0 np (slice2 f 0 nt 0 np) in
  slice2_set f_ext nt (dim0 f_ext) 0 (2 * L)
    (mscal (fun z => (pow_m1 spin * z)%C)
       (map_rows fftshift (flip0 (slice2 f 1 (nt - 1) 0 (2 * L))))).

(** s2fft/utils/resampling.py:134-160 and resampling_jax.py:307-343 upsample_by_two_mwss_ext *)
Definition upsample_by_two_mwss_ext (b : backend) (f_ext : ndarray C) (L : Z) : result (ndarray C) :=
  let np := 2 * L in
  let nte := 2 * L in
  let f_ext := map_cols (fun c => fftshift (fft_fwd c)) f_ext in
  let nte_up := 2 * nte in
  let* up := slice2_set (czeros nte_up np) L (nte + L) 0 np (slice2 f_ext 0 nte 0 np) in
  Ok (map_cols (inv_fft_shift b) up).

(** s2fft/utils/resampling.py:196-245 (numpy) and resampling_jax.py:236-271 (jax, which does not
    check the number of rows) unextend *)
Definition unextend (b : backend) (f_ext : ndarray C) (L : Z) (sampling : string) : result (ndarray C) :=
  if negb (str_in (lower sampling) ["mw"; "mwss"]) then Err ValueError
  else let* nte := ntheta_extension L sampling in
       if (match b with numpy => negb (dim0 f_ext =? nte) | jax => false end) then Err ValueError
       else if streq (lower sampling) "mw" then Ok (slice2 f_ext 0 L 0 (dim1 f_ext))
       else if streq (lower sampling) "mwss" then Ok (slice2 f_ext 0 (L + 1) 0 (dim1 f_ext))
       else Err ValueError.

(** s2fft/utils/resampling.py:104-131 and resampling_jax.py:274-304 upsample_by_two_mwss *)
Definition upsample_by_two_mwss (b : backend) (f : ndarray C) (L spin : Z) : result (ndarray C) :=
  let* f_ext := periodic_extension_spatial_mwss f L spin in
  let* f_ext := upsample_by_two_mwss_ext b f_ext L in
  unextend b f_ext (2 * L) "mwss".

(** s2fft/utils/resampling.py:163-193 downsample_by_two_mwss: f_ext[:, 0:-1:2, :] *)
Definition downsample_by_two_mwss (f_ext : ndarray C) (L : Z) : result (ndarray C) :=
  if negb (L mod 2 =? 0) then Err ValueError
  else Ok (mat (dim0 f_ext / 2) (dim1 f_ext) (fun r c => at2 f_ext (2 * r) c)).

(** s2fft/utils/resampling.py:248-281 and resampling_jax.py:99-142 mw_to_mwss_phi *)
Definition mw_to_mwss_phi (b : backend) (f_mw : ndarray C) (L : Z) : result (ndarray C) :=
  let z := czeros (L + 1) (2 * L) in
  let* f_mwss := slice2_set z 0 (dim0 z) 1 (dim1 z) (map_rows (fun r => fftshift (fft_fwd r)) f_mw) in
  Ok (map_rows (inv_fft_shift b) f_mwss).

(** s2fft/utils/resampling.py:284-326 and resampling_jax.py:41-96 mw_to_mwss_theta *)
Definition mw_to_mwss_theta (b : backend) (f_mw : ndarray C) (L spin : Z) : result (ndarray C) :=
  let* f_mw_ext := periodic_extension b f_mw L spin "mw" in
  let z := czeros (2 * L) (2 * L - 1) in
  let* fmp := slice2_set z 1 (dim0 z) 0 (dim1 z) (map_cols (fun c => fftshift (fft_fwd c)) f_mw_ext) in
  let* fmp := slice2_scale fmp 1 (dim0 fmp) 0 (dim1 fmp)
                (fun r _ => cis (- IZR (- (L - 1) + r) * PI / IZR (2 * L - 1))) in
  let f_mwss_ext := map_cols (inv_fft_shift b) fmp in
  unextend b f_mwss_ext L "mwss".

(** s2fft/utils/resampling.py:329-355 and resampling_jax.py:9-38 mw_to_mwss *)
Definition mw_to_mwss (b : backend) (f_mw : ndarray C) (L spin : Z) : result (ndarray C) :=
  let* g := mw_to_mwss_theta b f_mw L spin in mw_to_mwss_phi b g L.
