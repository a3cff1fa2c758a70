(** Model of the transforms of batches of spin signals s2fft/precompute_transforms/custom_ops.py, in
    exact arithmetic. The numpy and the JAX functions run the same steps. Arrays have the axes batch,
    spin, two axes of the sphere or of the coefficients, channel. numpy would also stretch axes of
    length one in einsum; the model raises ValueError when the lengths differ. Indices out of range
    raise IndexError as in numpy (JAX would clamp them). *)
From Coq Require Import Reals.
From Coquelicot Require Import Complex.
From Verif Require Import Lib.Py Lib.Vec Lib.Sums Lib.Cplx Lib.Arr Model.Samples Model.FFT Model.HealpixFFT
  Model.Resampling Model.Quadrature Model.Spherical Model.Precompute Model.Wigner Model.FourierWigner Model.PrecomputeWigner.
Open Scope string_scope.
Open Scope Z_scope.

(** ** Arrays with five axes *)
Definition arr5 {T} (b n l m c : Z) (f : Z -> Z -> Z -> Z -> Z -> T) : ndarray T :=
  mkArr [b; n; l; m; c] (fun ix => f (nth 0 ix 0) (nth 1 ix 0) (nth 2 ix 0) (nth 3 ix 0) (nth 4 ix 0)).
Definition at5 {T} (a : ndarray T) (b n l m c : Z) : T := get a [b; n; l; m; c].
Definition dim4 {T} (a : ndarray T) : Z := nth 4 (shape a) 0.
(** a function of vectors applied along axis -3 or -2 *)
Definition map5_2 {T} (g : vec T -> vec T) (a : ndarray T) : ndarray T :=
  arr5 (dim0 a) (dim1 a) (vlen (g (mkVec (dim2 a) (fun l => at5 a 0 0 l 0 0)))) (dim3 a) (dim4 a)
    (fun b n l m c => vat (g (mkVec (dim2 a) (fun l => at5 a b n l m c))) l).
Definition map5_3 {T} (g : vec T -> vec T) (a : ndarray T) : ndarray T :=
  arr5 (dim0 a) (dim1 a) (dim2 a) (vlen (g (mkVec (dim3 a) (fun m => at5 a 0 0 0 m 0)))) (dim4 a)
    (fun b n l m c => vat (g (mkVec (dim3 a) (fun m => at5 a b n l m c))) m).
(** a[:, :, s:, s:, :] = b; the shapes must agree *)
Definition corner_set5 {T} (a : ndarray T) (s : Z) (b : ndarray T) : result (ndarray T) :=
  if (dim0 b =? dim0 a) && (dim1 b =? dim1 a) && (dim2 b =? slice_len (dim2 a) s (dim2 a))
     && (dim3 b =? slice_len (dim3 a) s (dim3 a)) && (dim4 b =? dim4 a)
  then Ok (arr5 (dim0 a) (dim1 a) (dim2 a) (dim3 a) (dim4 a) (fun i n l m c =>
         let r := l - slice_lo (dim2 a) s in let q := m - slice_lo (dim3 a) s in
         if (0 <=? r) && (0 <=? q) then at5 b i n r q c else at5 a i n l m c))
  else Err ValueError.
(** np.concatenate((a, b), axis=-3) *)
Definition concat5 {T} (a b : ndarray T) : result (ndarray T) :=
  if (dim0 a =? dim0 b) && (dim1 a =? dim1 b) && (dim3 a =? dim3 b) && (dim4 a =? dim4 b)
  then Ok (arr5 (dim0 a) (dim1 a) (dim2 a + dim2 b) (dim3 a) (dim4 a) (fun i n l m c =>
         if l <? dim2 a then at5 a i n l m c else at5 b i n (l - dim2 a) m c))
  else Err ValueError.
(** np.pad along axis -3 with zeros; negative widths are rejected *)
Definition pad5 (x : ndarray C) (lo hi : Z) : result (ndarray C) :=
  if (lo <? 0) || (hi <? 0) then Err ValueError else Ok (map5_2 (vpad lo hi) x).
(** a[:, :, ix] for an array ix of indices *)
Definition take_cols {T} (a : ndarray T) (ix : vec Z) : result (ndarray T) :=
  if forallb (fun i => match norm_index (dim2 a) (vat ix i) with Some _ => true | None => false end) (zrange 0 (vlen ix))
  then Ok (arr3 (dim0 a) (dim1 a) (vlen ix) (fun i j k =>
         at3 a i j (match norm_index (dim2 a) (vat ix k) with Some k' => k' | None => 0 end)))
  else Err IndexError.

(** einsum("bnlmc,lam,lan,l->bnamc") *)
Definition einsum_bnlmc (f : ndarray C) (d dn : ndarray R) (w : vec C) : result (ndarray C) :=
  if (dim1 f =? dim2 dn) && (dim2 f =? dim0 d) && (dim2 f =? dim0 dn) && (dim2 f =? vlen w) && (dim3 f =? dim2 d) && (dim1 d =? dim1 dn)
  then Ok (arr5 (dim0 f) (dim1 f) (dim1 d) (dim3 f) (dim4 f) (fun b n a m c =>
         csum (zrange 0 (dim2 f)) (fun l => (at5 f b n l m c * RtoC (at3 d l a m) * RtoC (at3 dn l a n) * vat w l)%C)))
  else Err ValueError.
(** einsum("bnamc,m,n,a->bnamc") *)
Definition einsum_m_n_a (x : ndarray C) (vm vn va : vec C) : result (ndarray C) :=
  if (dim3 x =? vlen vm) && (dim1 x =? vlen vn) && (dim2 x =? vlen va)
  then Ok (arr5 (dim0 x) (dim1 x) (dim2 x) (dim3 x) (dim4 x) (fun b n a m c => (at5 x b n a m c * vat vm m * vat vn n * vat va a)%C))
  else Err ValueError.
(** einsum("bntmc,m,n->bntmc") *)
Definition einsum_m_n (x : ndarray C) (vm vn : vec C) : result (ndarray C) :=
  if (dim3 x =? vlen vm) && (dim1 x =? vlen vn)
  then Ok (arr5 (dim0 x) (dim1 x) (dim2 x) (dim3 x) (dim4 x) (fun b n t m c => (at5 x b n t m c * vat vm m * vat vn n)%C))
  else Err ValueError.
(** einsum("bntmc,t->bntmc") *)
Definition einsum_t (x : ndarray C) (vt : vec C) : result (ndarray C) :=
  if dim2 x =? vlen vt
  then Ok (arr5 (dim0 x) (dim1 x) (dim2 x) (dim3 x) (dim4 x) (fun b n t m c => (at5 x b n t m c * vat vt t)%C))
  else Err ValueError.
(** einsum("bnamc,lam,lan->bnlmc") *)
Definition einsum_bnamc (x : ndarray C) (d dn : ndarray R) : result (ndarray C) :=
  if (dim1 x =? dim2 dn) && (dim2 x =? dim1 d) && (dim2 x =? dim1 dn) && (dim3 x =? dim2 d) && (dim0 d =? dim0 dn)
  then Ok (arr5 (dim0 x) (dim1 x) (dim0 d) (dim3 x) (dim4 x) (fun b n l m c =>
         csum (zrange 0 (dim2 x)) (fun a => (at5 x b n a m c * RtoC (at3 d l a m) * RtoC (at3 dn l a n))%C)))
  else Err ValueError.

(** custom_ops.py:39-83 wigner_subset_to_s2, 119-165 wigner_subset_to_s2_jax *)
Definition wigner_subset_to_s2 (flmn : ndarray C) (spins : vec Z) (DW : ndarray R * vec C) (L : Z) (sampling : string)
    : result (ndarray C) :=
  if negb (str_in (lower sampling) ["mw"; "mwss"]) then Err ValueError else
  if negb (dim1 flmn =? vlen spins) then Err ValueError else
  let delta := fst DW in
  let ss := streq (lower sampling) "mwss" in
  let n_dim := vlen spins in
  let m_offset := if ss then 1 else 0 in
  let ntheta := if ss then L + 1 else L in
  let theta0 := if ss then 0%R else (PI / IZR (2 * L - 1))%R in
  let size := if ss then 2 * L else 2 * L - 1 in
  let m0 := - L + 1 - m_offset in
  let n := vmap Z.opp spins in
  let x := zeros (RtoC 0) [dim0 flmn; n_dim; size; size; dim4 flmn] in
  let* dn := take_cols delta (vmap (fun k => L - 1 + k) n) in
  let* y := einsum_bnlmc flmn delta dn (mkVec L (fun l => RtoC (IZR (2 * l + 1) / (8 * PI ^ 2)))) in
  let* x := corner_set5 x m_offset y in
  let* x := einsum_m_n_a x (mkVec (L - m0) (fun i => ipow (- (m0 + i)))) (vmap ipow n)
              (mkVec (L - m0) (fun i => cis (IZR (m0 + i) * theta0))) in
  let x := map5_3 ifftshift (map5_2 ifftshift x) in
  let x := map5_2 (fun v => vslice (ifft_fwd v) 0 ntheta) x in
  Ok (map5_3 ifft_fwd x).

(** custom_ops.py:281-333 s2_to_wigner_subset, 366-418 s2_to_wigner_subset_jax *)
Definition s2_to_wigner_subset (fs : ndarray C) (spins : vec Z) (DW : ndarray R * vec C) (L : Z) (sampling : string)
    : result (ndarray C) :=
  if negb (str_in (lower sampling) ["mw"; "mwss"]) then Err ValueError else
  let delta := fst DW in
  let quads := snd DW in
  let ss := streq (lower sampling) "mwss" in
  let m_offset := if ss then 1 else 0 in
  let lpad := if ss then L - 2 else L - 1 in
  let n := vmap Z.opp spins in
  let x := map5_3 fftshift (map5_3 fft_fwd fs) in
  let x := map5_3 (fun v => vslice v m_offset (vlen v)) x in
  let* temp := einsum_m_n x (abs_signs (- L + 1) L) (vmap (fun k => RtoC (sgn (Z.abs k))) n) in
  let* x := concat5 x (map5_2 (fun v => vslice (vrev v) 1 L) temp) in
  let x := map5_2 (fun v => fftshift (fft_fwd v)) x in
  let* x := if streq (lower sampling) "mw"
            then einsum_t x (mkVec (2 * L - 1) (fun i => cis (- IZR (- L + 1 + i) * PI / IZR (2 * L - 1))))
            else Ok x in
  let* x := pad5 x lpad (L - 1) in
  let x := map5_2 (fun v => ifft_fwd (ifftshift v)) x in
  let* x := einsum_t x quads in
  let x := map5_2 (fun v => vslice (fftshift (fft_fwd v)) (L - 1) (3 * L - 2)) x in
  let* dn := take_cols delta (vmap (fun k => L - 1 + k) n) in
  let* x := einsum_bnamc x delta dn in
  let* x := einsum_m_n x (mkVec (2 * L - 1) (fun i => ipow (- L + 1 + i))) (vmap (fun k => ipow (- k)) n) in
  Ok (amap (fun z => (z * RtoC ((2 * PI) ^ 2))%C) x).

(** custom_ops.py:199-203 and 242-246: the discrete Fourier transform over gamma,
    einsum("bgtpc,gn->bntpc", f, e) / f.shape[1] with e[g, n] = exp(-2j pi g / f.shape[1] * -spins[n]) *)
Definition gamma_dft (f : ndarray C) (spins : vec Z) : ndarray C :=
  arr5 (dim0 f) (vlen spins) (dim2 f) (dim3 f) (dim4 f) (fun b n t p c =>
    (csum (zrange 0 (dim1 f)) (fun g => at5 f b g t p c * cis (-2 * PI * (IZR g / IZR (dim1 f) * - IZR (vat spins n))))
      / RtoC (IZR (dim1 f)))%C).
(** custom_ops.py:199-205 so3_to_wigner_subset, 240-248 so3_to_wigner_subset_jax; N is not used *)
Definition so3_to_wigner_subset (f : ndarray C) (spins : vec Z) (DW : ndarray R * vec C) (L N : Z) (sampling : string)
    : result (ndarray C) :=
  s2_to_wigner_subset (gamma_dft f spins) spins DW L sampling.
