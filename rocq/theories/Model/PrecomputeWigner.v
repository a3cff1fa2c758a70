(** Model of the precomputed Wigner transforms: s2fft/precompute_transforms/construct.py
    (wigner_kernel, wigner_kernel_jax) and s2fft/precompute_transforms/wigner.py, in exact
    arithmetic. Kernels have complex entries (the real kernels of the code have imaginary part 0).
    numpy would also stretch axes of length one in assignments and einsum; the model raises
    ValueError when the lengths differ. Indices out of range raise IndexError as in numpy (JAX
    would clamp them). *)
From Coq Require Import Reals.
From Coquelicot Require Import Complex.
From Verif Require Import Lib.Py Lib.Vec Lib.Sums Lib.Cplx Lib.Arr Model.Index Model.Samples Model.Grids
  Model.FFT Model.HealpixFFT Model.Risbo Model.Resampling Model.Quadrature Model.Spherical
  Model.Precompute Model.Wigner Model.FourierWigner.
Open Scope string_scope.
Open Scope Z_scope.

(** ** Arrays *)
Definition arr4 {T} (n t l m : Z) (f : Z -> Z -> Z -> Z -> T) : ndarray T :=
  mkArr [n; t; l; m] (fun ix => f (nth 0 ix 0) (nth 1 ix 0) (nth 2 ix 0) (nth 3 ix 0)).
Definition at4 {T} (a : ndarray T) (n t l m : Z) : T := get a [n; t; l; m].
Definition dim3 {T} (a : ndarray T) : Z := nth 3 (shape a) 0.
(** a[:, :, el] = b *)
Definition el_set {T} (a : ndarray T) (el : Z) (b : ndarray T) : result (ndarray T) :=
  match norm_index (dim2 a) el with
  | Some e => if (dim0 b =? dim0 a) && (dim1 b =? dim1 a) && (dim2 b =? dim3 a)
              then Ok (arr4 (dim0 a) (dim1 a) (dim2 a) (dim3 a) (fun n t l m => if l =? e then at3 b n t m else at4 a n t l m))
              else Err ValueError
  | None => Err IndexError
  end.
(** a[s:, :, c:] = b *)
Definition tail_set {T} (a : ndarray T) (s c : Z) (b : ndarray T) : result (ndarray T) :=
  if (dim0 b =? slice_len (dim0 a) s (dim0 a)) && (dim1 b =? dim1 a) && (dim2 b =? slice_len (dim2 a) c (dim2 a))
  then Ok (arr3 (dim0 a) (dim1 a) (dim2 a) (fun i j k =>
         let r := i - slice_lo (dim0 a) s in let q := k - slice_lo (dim2 a) c in
         if (0 <=? r) && (0 <=? q) then at3 b r j q else at3 a i j k))
  else Err ValueError.
(** a[:s] = b *)
Definition head_set {T} (a : ndarray T) (s : Z) (b : ndarray T) : result (ndarray T) :=
  if (dim0 b =? slice_len (dim0 a) 0 s) && (dim1 b =? dim1 a) && (dim2 b =? dim2 a)
  then Ok (arr3 (dim0 a) (dim1 a) (dim2 a) (fun i j k => if i <? slice_len (dim0 a) 0 s then at3 b i j k else at3 a i j k))
  else Err ValueError.
(** a[:, :, c:] *)
Definition last_from {T} (a : ndarray T) (c : Z) : ndarray T := map3_2 (fun v => vslice v c (vlen v)) a.
(** the items of a batch, one after the other: the functions of resampling.py and resampling_jax.py map
    over the first axis, with one spin for each item *)
Definition stack {T} (d : T) (ps : list (ndarray T)) : ndarray T :=
  mkArr (Z.of_nat (List.length ps) :: shape (nth 0 ps (zeros d []))) (fun ix => get (nth (Z.to_nat (hd 0 ix)) ps (zeros d [])) (tl ix)).
Definition map_planes (g : Z -> ndarray C -> result (ndarray C)) (a : ndarray C) : result (ndarray C) :=
  let* ps := foldM (fun ps k => let* p := plane a k in let* q := g k p in Ok (ps ++ [q])%list) (zrange 0 (dim0 a)) [] in
  Ok (stack (RtoC 0) ps).
(** np.squeeze for arrays whose axes, the first one aside, are longer than one *)
Definition squeeze0 {T} (a : ndarray T) : ndarray T :=
  if dim0 a =? 1 then mkArr (tl (shape a)) (fun ix => get a (0 :: ix)) else a.

(** einsum("...ntlm, ...t->...ntlm"), ("...ntlm,...l->...ntlm"), ("...ntlm,...tm->...ntlm") *)
Definition einsum_ntlm_t (a : ndarray C) (w : vec C) : result (ndarray C) :=
  if dim1 a =? vlen w
  then Ok (arr4 (dim0 a) (dim1 a) (dim2 a) (dim3 a) (fun n t l m => (at4 a n t l m * vat w t)%C)) else Err ValueError.
Definition einsum_ntlm_l (a : ndarray C) (w : vec C) : result (ndarray C) :=
  if dim2 a =? vlen w
  then Ok (arr4 (dim0 a) (dim1 a) (dim2 a) (dim3 a) (fun n t l m => (at4 a n t l m * vat w l)%C)) else Err ValueError.
Definition einsum_ntlm_tm (a b : ndarray C) : result (ndarray C) :=
  if (dim1 a =? dim0 b) && (dim3 a =? dim1 b)
  then Ok (arr4 (dim0 a) (dim1 a) (dim2 a) (dim3 a) (fun n t l m => (at4 a n t l m * at2 b t m)%C)) else Err ValueError.
(** einsum("...ntlm, ...nlm -> ...ntm") and ("...ntlm, ...ntm -> ...nlm") *)
Definition einsum_ntlm_nlm (k a : ndarray C) : result (ndarray C) :=
  if (dim0 k =? dim0 a) && (dim2 k =? dim1 a) && (dim3 k =? dim2 a)
  then Ok (arr3 (dim0 k) (dim1 k) (dim3 k) (fun n t m => csum (zrange 0 (dim2 k)) (fun l => (at4 k n t l m * at3 a n l m)%C)))
  else Err ValueError.
Definition einsum_ntlm_ntm (k a : ndarray C) : result (ndarray C) :=
  if (dim0 k =? dim0 a) && (dim1 k =? dim1 a) && (dim3 k =? dim2 a)
  then Ok (arr3 (dim0 k) (dim2 k) (dim3 k) (fun n l m => csum (zrange 0 (dim1 k)) (fun t => (at4 k n t l m * at3 a n t m)%C)))
  else Err ValueError.

(** ** construct.py *)
(** construct.py:374-385 = 513-524: the mode used. N <= int(x) is N <= x for the whole number N and x >= 0;
    for L = 1 the quotient is infinite and int raises OverflowError. L <= 0 is not followed. *)
Definition wigner_mode (mode sampling : string) (L N : Z) : result string :=
  if streq (lower mode) "fft" && negb (str_in (lower sampling) ["mw"; "mwss"; "dh"]) then Err ValueError
  else if streq (lower mode) "auto" then
    if str_in (lower sampling) ["mw"; "mwss"; "dh"] then
      if L =? 1 then Err OverflowError
      else Ok (if Rle_dec (IZR N) (IZR L / ln (IZR L)) then "fft" else "direct")
    else Ok "direct"
  else Ok mode.

(** np.moveaxis(delta, -1, 0)[np.arange(lo, hi)] of a stack of (2L-1) x (2L-1) planes *)
Definition planes_take (dls : list (ndarray R)) (L lo hi : Z) : result (ndarray C) :=
  if forallb (fun i => match norm_index (2 * L - 1) i with Some _ => true | None => false end) (zrange lo hi)
  then Ok (arr3 (hi - lo) (Z.of_nat (List.length dls)) (2 * L - 1) (fun n t m =>
         RtoC (at2 (nth (Z.to_nat t) dls (zeros 0%R [])) m
                 (match norm_index (2 * L - 1) (lo + n) with Some c => c | None => 0%Z end))))
  else Err IndexError.

(** construct.py:407-411 (numpy, compute_full_vectorised) and 546-551 (JAX, a vmap of
    risbo_jax.compute_full); n = arange(n0, N) *)
Definition wkernel_direct (b : backend) (ths : vec R) (L N n0 : Z) (nd : Z) : result (ndarray C) :=
  let betas := map (vat ths) (zrange 0 (vlen ths)) in
  let* st := foldM (fun st el =>
      let* delta := risbo_planes b (fst st) betas L el in
      let* c := planes_take delta L (L - 1 + n0) (L - 1 + N) in
      let* dl := el_set (snd st) el c in
      Ok (delta, dl))
    (zrange 0 L) (map (fun _ => zeros 0%R [2 * L - 1; 2 * L - 1]) betas, zeros (RtoC 0) [nd; vlen ths; L; 2 * L - 1]) in
  Ok (snd st).

(** construct.py:432-439 = 572-579: einsum("am,an,m,n->amn") and einsum("amn,a->amn") *)
Definition fourier_slices (delta : ndarray R) (th0 : R) (L N n0 : Z) : result (ndarray C) :=
  let* dn := take_last2 delta (L - 1 + n0) (L - 1 + N) in
  if (dim0 delta =? 2 * L - 1) && (dim1 delta =? 2 * L - 1) then
    let temp := arr3 (dim0 delta) (2 * L - 1) (N - n0) (fun a m n =>
      (RtoC (at2 delta a m) * RtoC (at2 dn a n) * Precompute.ipow (- (m - (L - 1))) * Precompute.ipow (n0 + n))%C) in
    Ok (arr3 (dim0 temp) (dim1 temp) (dim2 temp) (fun a m n => (at3 temp a m n * cis (IZR (a - (L - 1)) * th0))%C))
  else Err ValueError.
(** construct.py:420-441 (numpy) and 560-581 (JAX) *)
Definition wkernel_fourier (b : backend) (sampling : string) (ths : vec R) (L N n0 nd : Z) : result (ndarray C) :=
  let nsamps := kernel_nsamps sampling (vlen ths) in
  let* st := foldM (fun st el =>
      let* delta := risbo_plane b (fst st) (PI / 2) L el in
      let* th0 := vread ths 0 in
      let* temp := fourier_slices delta th0 L N n0 in
      let temp := map3_0 (fun v => irfft_fwd v nsamps) (planes_from temp (L - 1)) in
      let temp := map3_0 (fun v => vslice v 0 (vlen ths)) temp in
      let* dl := el_set (snd st) el (arr3 (dim2 temp) (dim0 temp) (dim1 temp) (fun n t m => at3 temp t m n)) in
      Ok (delta, dl))
    (zrange 0 L) (zeros 0%R [2 * L - 1; 2 * L - 1], zeros (RtoC 0) [nd; vlen ths; L; 2 * L - 1]) in
  Ok (snd st).

(** construct.py:332-468 wigner_kernel (numpy) and 471-611 wigner_kernel_jax. The JAX kernel takes its
    weights from quadrature_jax.py, which performs the computation of quadrature.py with spin = 0 term
    by term. *)
Definition wigner_kernel (b : backend) (gl : gl_rule) (L N : Z) (reality : bool) (sampling : string) (nside : option Z)
    (forward : bool) (mode : string) : result (ndarray C) :=
  let* mode := wigner_mode mode sampling L N in
  let n_start_ind := if reality then N - 1 else 0 in
  let n_dim := if reality then N else 2 * N - 1 in
  let* (sampling, ths) := kernel_thetas gl L sampling nside forward in
  let n0 := n_start_ind - N + 1 in
  let* dl := (if streq (lower mode) "direct" then wkernel_direct b ths L N n0 n_dim
              else if streq (lower mode) "fft" then wkernel_fourier b sampling ths L N n0 n_dim
              else Err ValueError) in
  let* dl := (if forward then
                let* w := quad_weights_transform gl L sampling 0 nside in
                let* dl := einsum_ntlm_t dl (vmap RtoC w) in
                Ok (amap (fun z => (z * RtoC (2 * PI / IZR (2 * N - 1)))%C) dl)
              else einsum_ntlm_l dl (mkVec L (fun l => RtoC (IZR (2 * l + 1) / (8 * PI ^ 2))))) in
  if is_hp sampling then
    let* n := need nside in
    let* ph := healpix_phase_shifts L n forward in
    einsum_ntlm_tm dl ph
  else Ok dl.

(** ** wigner.py *)
(** sampling.lower() in "healpix": wigner.py:123, 190, 344, 427 test for a substring *)
Definition in_healpix (sampling : string) : bool :=
  match String.index 0 (lower sampling) "healpix" with Some _ => true | None => false end.
(** wigner.py:115, 177, 342, 425: the sampling is compared without lower() *)
Definition wm_offset (sampling : string) : Z := if str_in sampling ["mwss"; "healpix"] then 1 else 0.

(** wigner.py:80-138 inverse_transform and 141-218 inverse_transform_jax. ifft2 over two axes is one
    ifft along each. *)
Definition pw_inverse_transform (b : backend) (flmn kernel : ndarray C) (L N : Z) (sampling : string) (reality : bool)
    (nside : option Z) : result (ndarray C) :=
  let mo := wm_offset sampling in
  let n_start_ind := if reality then N - 1 else 0 in
  let* sh := fnab_shape L N sampling nside in
  let fnab := zeros (RtoC 0) sh in
  let* e := einsum_ntlm_nlm kernel (planes_from flmn n_start_ind) in
  let* fnab := tail_set fnab n_start_ind mo e in
  let* f := (if in_healpix sampling then
               let* sh := so3_f_shape L N sampling nside in
               let* ns := need nside in
               foldM (fun f n =>
                   let* p := plane fnab (N - 1 + n) in
                   let* (_, v) := healpix_ifft (RtoC 0) Cplus ifft_fwd irfft_fwd (to_rows p) L ns (backend_name b) false in
                   plane_set f (N - 1 + n) (of_vec v))
                 (zrange (n_start_ind - N + 1) N) (zeros (RtoC 0) sh)
             else Ok (map3_2 (inv_fft_shift b) fnab)) in
  Ok (if reality then map_axis0 (fun v => irfft_fwd v (2 * N - 1)) (planes_from f n_start_ind)
      else map_axis0 (inv_fft_shift b) f).

(** wigner.py:357-368 / 446-465: the planes of the negative n of a real signal *)
Definition reality_fill (flmn : ndarray C) (L N n_start_ind : Z) : result (ndarray C) :=
  let up := amap Cconj (map3_2 vrev (map3_0 vrev (planes_from flmn (n_start_ind + 1)))) in
  let* up := einsum_ntm_m_n up (abs_signs (- L + 1) L) (abs_signs (- N + 1) 0) in
  head_set flmn n_start_ind up.

(** wigner.py:291-370 forward_transform and 373-467 forward_transform_jax. f has three axes, two for
    HEALPix; OtherError stands for other arrays, which are not followed. *)
Definition pw_forward_transform (b : backend) (f kernel : ndarray C) (L N : Z) (sampling : string) (reality : bool)
    (nside : option Z) : result (ndarray C) :=
  if negb (Z.of_nat (List.length (shape f)) =? (if streq (lower sampling) "healpix" then 2 else 3)) then Err OtherError else
  let n_start_ind := if reality then N - 1 else 0 in
  let n0 := n_start_ind - N + 1 in
  let fban := if reality then map_axis0 rfft_bwd f else map_axis0 (fun v => fftshift (fft_bwd v)) f in
  let* fban := (if str_in (lower sampling) ["mw"; "mwss"] && negb (dim0 fban =? N - n0) then Err ValueError else Ok fban) in
  let* fban := (if streq (lower sampling) "mw" then map_planes (fun k p => mw_to_mwss b p L (- (n0 + k))) fban else Ok fban) in
  let* (fban, sampling) := (if str_in (lower sampling) ["mw"; "mwss"]
                            then let* g := map_planes (fun k p => upsample_by_two_mwss b p L (- (n0 + k))) fban in
                                 Ok (squeeze0 g, "mwss")
                            else Ok (fban, sampling)) in
  let mo := wm_offset sampling in
  let* fban := (if in_healpix sampling then
                  let* sh := fnab_shape L N sampling nside in
                  let* ns := need nside in
                  let* temp := foldM (fun temp n =>
                      let* p := plane fban (if reality then n else N - 1 + n) in
                      let* rows := healpix_fft (RtoC 0) fft_bwd rfft_bwd (to_vec p) L ns (backend_name b) false in
                      plane_set temp (N - 1 + n) (of_rows (2 * L) rows))
                    (zrange n0 N) (zeros (RtoC 0) sh) in
                  Ok (last_from (planes_from temp n_start_ind) mo)
                else if negb (Z.of_nat (List.length (shape fban)) =? 3) then Err IndexError
                else Ok (last_from (map3_2 (fun v => fftshift (fft_bwd v)) fban) mo)) in
  let flmn := zeros (RtoC 0) (flmn_shape L N) in
  let* e := einsum_ntlm_ntm kernel fban in
  let* flmn := tail_set flmn n_start_ind 0 e in
  if reality then reality_fill flmn L N n_start_ind else Ok flmn.

(** wigner.py:13-77 inverse and 224-288 forward, with the tables of methods 473-490 *)
Definition pw_inverse (gl : gl_rule) (flmn : ndarray C) (L N : Z) (kernel : option (ndarray C)) (sampling : string)
    (reality : bool) (method : string) (nside : option Z) : result (ndarray C) :=
  let* b := method_backend method in
  let* k := match kernel with
            | None => wigner_kernel b gl L N reality sampling nside false "auto"
            | Some k => Ok k
            end in
  pw_inverse_transform b flmn k L N sampling reality nside.
Definition pw_forward (gl : gl_rule) (f : ndarray C) (L N : Z) (kernel : option (ndarray C)) (sampling : string)
    (reality : bool) (method : string) (nside : option Z) : result (ndarray C) :=
  let* b := method_backend method in
  let* k := match kernel with
            | None => wigner_kernel b gl L N reality sampling nside true "auto"
            | Some k => Ok k
            end in
  pw_forward_transform b f k L N sampling reality nside.
