(** Model of the Fourier-Wigner transforms s2fft/precompute_transforms/fourier_wigner.py and of their
    kernels (construct.py:614-673), in exact arithmetic. The numpy and the JAX functions differ in
    the recursion they call (risbo, risbo_jax). numpy would also stretch axes of length one in
    einsum; the model raises ValueError when the lengths differ. Indices out of range raise
    IndexError as in numpy (JAX would clamp them). *)
From Coq Require Import Reals.
From Coquelicot Require Import Complex.
From Verif Require Import Lib.Py Lib.Vec Lib.Sums Lib.Cplx Lib.Arr Model.Samples Model.FFT Model.HealpixFFT
  Model.Risbo Model.Resampling Model.Quadrature Model.Spherical Model.Precompute Model.Wigner.
Open Scope string_scope.
Open Scope Z_scope.

(** ** Arrays with three axes *)
(** a function of vectors applied along one axis *)
Definition map3_0 {T} (g : vec T -> vec T) (a : ndarray T) : ndarray T :=
  arr3 (vlen (g (mkVec (dim0 a) (fun i => at3 a i 0 0)))) (dim1 a) (dim2 a)
    (fun i j k => vat (g (mkVec (dim0 a) (fun i => at3 a i j k))) i).
Definition map3_1 {T} (g : vec T -> vec T) (a : ndarray T) : ndarray T :=
  arr3 (dim0 a) (vlen (g (mkVec (dim1 a) (fun j => at3 a 0 j 0)))) (dim2 a)
    (fun i j k => vat (g (mkVec (dim1 a) (fun j => at3 a i j k))) j).
Definition map3_2 {T} (g : vec T -> vec T) (a : ndarray T) : ndarray T :=
  arr3 (dim0 a) (dim1 a) (vlen (g (mkVec (dim2 a) (fun k => at3 a 0 0 k))))
    (fun i j k => vat (g (mkVec (dim2 a) (fun k => at3 a i j k))) k).
(** a[s:, s:] op= b for arrays with three axes; the shapes must agree *)
Definition corner_op {T} (op : T -> T -> T) (a : ndarray T) (s : Z) (b : ndarray T) : result (ndarray T) :=
  if (dim0 b =? slice_len (dim0 a) s (dim0 a)) && (dim1 b =? slice_len (dim1 a) s (dim1 a)) && (dim2 b =? dim2 a)
  then Ok (arr3 (dim0 a) (dim1 a) (dim2 a) (fun i j k =>
         let r := i - slice_lo (dim0 a) s in let c := j - slice_lo (dim1 a) s in
         if (0 <=? r) && (0 <=? c) then op (at3 a i j k) (at3 b r c k) else at3 a i j k))
  else Err ValueError.
(** a[..., ix] for the index array ix = arange(lo, hi) *)
Definition take_last3 {T} (a : ndarray T) (lo hi : Z) : result (ndarray T) :=
  if forallb (fun i => match norm_index (dim2 a) i with Some _ => true | None => false end) (zrange lo hi)
  then Ok (arr3 (dim0 a) (dim1 a) (hi - lo) (fun i j k =>
         at3 a i j (match norm_index (dim2 a) (lo + k) with Some k' => k' | None => 0 end)))
  else Err IndexError.
Definition take_last2 {T} (a : ndarray T) (lo hi : Z) : result (ndarray T) :=
  if forallb (fun i => match norm_index (dim1 a) i with Some _ => true | None => false end) (zrange lo hi)
  then Ok (mat (dim0 a) (hi - lo) (fun i k =>
         at2 a i (match norm_index (dim1 a) (lo + k) with Some k' => k' | None => 0 end)))
  else Err IndexError.
(** a[:, j] *)
Definition mid_get {T} (a : ndarray T) (el : Z) : result (ndarray T) :=
  match norm_index (dim1 a) el with
  | Some e => Ok (mat (dim0 a) (dim2 a) (fun i k => at3 a i e k))
  | None => Err IndexError
  end.

(** einsum("nlm,lam,lan->amn") *)
Definition einsum_nlm_lam_lan (f : ndarray C) (d dn : ndarray R) : result (ndarray C) :=
  if (dim0 f =? dim2 dn) && (dim1 f =? dim0 d) && (dim1 f =? dim0 dn) && (dim2 f =? dim2 d) && (dim1 d =? dim1 dn)
  then Ok (arr3 (dim1 d) (dim2 f) (dim0 f) (fun a m n =>
         csum (zrange 0 (dim1 f)) (fun l => (at3 f n l m * RtoC (at3 d l a m) * RtoC (at3 dn l a n))%C)))
  else Err ValueError.
(** einsum("nm,am,an->amn") *)
Definition einsum_nm_am_an (f : ndarray C) (d dn : ndarray R) : result (ndarray C) :=
  if (dim0 f =? dim1 dn) && (dim1 f =? dim1 d) && (dim0 d =? dim0 dn)
  then Ok (arr3 (dim0 d) (dim1 f) (dim0 f) (fun a m n => (at2 f n m * RtoC (at2 d a m) * RtoC (at2 dn a n))%C))
  else Err ValueError.
(** einsum("amn,m,n,a->nam") *)
Definition einsum_amn_m_n_a (x : ndarray C) (vm vn va : vec C) : result (ndarray C) :=
  if (dim0 x =? vlen va) && (dim1 x =? vlen vm) && (dim2 x =? vlen vn)
  then Ok (arr3 (dim2 x) (dim0 x) (dim1 x) (fun n a m => (at3 x a m n * vat vm m * vat vn n * vat va a)%C))
  else Err ValueError.
(** einsum("ntm,m,n->ntm") *)
Definition einsum_ntm_m_n (x : ndarray C) (vm vn : vec C) : result (ndarray C) :=
  if (dim2 x =? vlen vm) && (dim0 x =? vlen vn)
  then Ok (arr3 (dim0 x) (dim1 x) (dim2 x) (fun n t m => (at3 x n t m * vat vm m * vat vn n)%C))
  else Err ValueError.
(** einsum("nam,lam,lan->nlm") *)
Definition einsum_nam_lam_lan (x : ndarray C) (d dn : ndarray R) : result (ndarray C) :=
  if (dim0 x =? dim2 dn) && (dim1 x =? dim1 d) && (dim1 x =? dim1 dn) && (dim2 x =? dim2 d) && (dim0 d =? dim0 dn)
  then Ok (arr3 (dim0 x) (dim0 d) (dim2 x) (fun n l m =>
         csum (zrange 0 (dim1 x)) (fun a => (at3 x n a m * RtoC (at3 d l a m) * RtoC (at3 dn l a n))%C)))
  else Err ValueError.
(** einsum("nam,am,an->nm") *)
Definition einsum_nam_am_an (x : ndarray C) (d dn : ndarray R) : result (ndarray C) :=
  if (dim0 x =? dim1 dn) && (dim1 x =? dim0 d) && (dim1 x =? dim0 dn) && (dim2 x =? dim1 d)
  then Ok (mat (dim0 x) (dim2 x) (fun n m =>
         csum (zrange 0 (dim1 x)) (fun a => (at3 x n a m * RtoC (at2 d a m) * RtoC (at2 dn a n))%C)))
  else Err ValueError.

(** 1j ** k *)
Definition ipow (k : Z) : C :=
  match k mod 4 with 0 => RtoC 1 | 1 => Ci | 2 => RtoC (-1) | _ => (- Ci)%C end.
(** (-1) ** np.abs(np.arange(lo, hi)) *)
Definition abs_signs (lo hi : Z) : vec C := mkVec (hi - lo) (fun i => RtoC (sgn (Z.abs (lo + i)))).
(** rfft(np.real(x), norm="forward") *)
Definition rfft_fwd (x : vec C) : vec C := vmap (fun z => (z / RtoC (IZR (vlen x)))%C) (rfft_bwd x).
(** np.concatenate((a, b), axis=1) and axis=0 *)
Definition concat1 {T} (a b : ndarray T) : result (ndarray T) :=
  if (dim0 a =? dim0 b) && (dim2 a =? dim2 b)
  then Ok (arr3 (dim0 a) (dim1 a + dim1 b) (dim2 a) (fun i j k =>
         if j <? dim1 a then at3 a i j k else at3 b i (j - dim1 a) k))
  else Err ValueError.
Definition concat0 {T} (a b : ndarray T) : result (ndarray T) :=
  if (dim1 a =? dim1 b) && (dim2 a =? dim2 b)
  then Ok (arr3 (dim0 a + dim0 b) (dim1 a) (dim2 a) (fun i j k =>
         if i <? dim0 a then at3 a i j k else at3 b (i - dim0 a) j k))
  else Err ValueError.
(** np.pad along one axis with zeros; negative widths are rejected *)
Definition vpad (lo hi : Z) (v : vec C) : vec C :=
  mkVec (lo + vlen v + hi) (fun i => if (lo <=? i) && (i <? lo + vlen v) then vat v (i - lo) else RtoC 0).
Definition pad1 (x : ndarray C) (lo hi : Z) : result (ndarray C) :=
  if (lo <? 0) || (hi <? 0) then Err ValueError else Ok (map3_1 (vpad lo hi) x).

(** the recursion at pi/2 *)
Definition fw_risbo (b : backend) (d : ndarray R) (L el : Z) : result (ndarray R) :=
  match b with numpy => risbo_full d (PI / 2) L el | jax => risbo_jax d (PI / 2) L el end.
(** fourier_wigner.py:263-268, 389-393 and construct.py:634-638, 661-665: the quadrature weights *)
Definition fw_weights (L : Z) : result (vec C) :=
  let* w := foldM (fun w mm => vwrite w (mm + 2 * (L - 1)) (mw_weights (- mm)))
              (zrange (- (2 * (L - 1))) (2 * (L - 1) + 1)) (vconst (4 * L - 3) (RtoC 0)) in
  Ok (ifft_fwd (ifftshift w)).

(** construct.py:626-640 fourier_wigner_kernel, 655-667 fourier_wigner_kernel_jax *)
Definition fourier_wigner_kernel (b : backend) (L : Z) : result (ndarray R * vec C) :=
  let* st := foldM (fun st el =>
      let* d := fw_risbo b (snd st) L el in
      let* deltas := plane_set (fst st) el d in
      Ok (deltas, d))
    (zrange 0 L) (zeros 0%R [L; 2 * L - 1; 2 * L - 1], zeros 0%R [2 * L - 1; 2 * L - 1]) in
  let* w := fw_weights L in
  Ok (fst st, w).

(** fourier_wigner.py:41-101 inverse_transform, 132-182 inverse_transform_jax *)
Definition fw_inverse (b : backend) (flmn : ndarray C) (L N : Z) (precomps : option (ndarray R * vec C))
    (reality : bool) (sampling : string) : result (ndarray C) :=
  if negb (str_in (lower sampling) ["mw"; "mwss"]) then Err ValueError else
  let ss := streq (lower sampling) "mwss" in
  let n_start_ind := if reality then N - 1 else 0 in
  let n_dim := if reality then N else 2 * N - 1 in
  let m_offset := if ss then 1 else 0 in
  let ntheta := if ss then L + 1 else L in
  let theta0 := if ss then 0%R else (PI / IZR (2 * L - 1))%R in
  let size := if ss then 2 * L else 2 * L - 1 in
  (* m = arange(m0, L), n = arange(n0, N) *)
  let m0 := - L + 1 - m_offset in
  let n0 := n_start_ind - N + 1 in
  let x := zeros (RtoC 0) [size; size; n_dim] in
  let* flmn := einsum_nlm_l flmn (mkVec L (fun l => RtoC (IZR (2 * l + 1) / (8 * PI ^ 2)))) in
  let fl := planes_from flmn n_start_ind in
  let* x := match precomps with
    | Some (delta, _) =>
        let* dn := take_last3 delta (L - 1 + n0) (L - 1 + N) in
        let* y := einsum_nlm_lam_lan fl delta dn in
        corner_op (fun _ y => y) x m_offset y
    | None =>
        let* st := foldM (fun st el =>
            let* d := fw_risbo b (snd st) L el in
            let* p := mid_get fl el in
            let* dn := take_last2 d (L - 1 + n0) (L - 1 + N) in
            let* y := einsum_nm_am_an p d dn in
            let* x := corner_op Cplus (fst st) m_offset y in
            Ok (x, d))
          (zrange 0 L) (x, zeros 0%R [2 * L - 1; 2 * L - 1]) in
        Ok (fst st)
    end in
  let* x := einsum_amn_m_n_a x (mkVec (L - m0) (fun i => ipow (- (m0 + i)))) (mkVec (N - n0) (fun i => ipow (n0 + i)))
              (mkVec (L - m0) (fun i => cis (IZR (m0 + i) * theta0))) in
  if reality then
    let x := map3_2 ifftshift (map3_1 ifftshift x) in
    let x := map3_1 (fun v => vslice (ifft_fwd v) 0 ntheta) x in
    let x := map3_2 ifft_fwd x in
    Ok (map3_0 (fun v => irfft_fwd v (2 * N - 1)) x)
  else
    let x := map3_2 ifftshift (map3_1 ifftshift (map3_0 ifftshift x)) in
    let x := map3_1 (fun v => vslice (ifft_fwd v) 0 ntheta) x in
    Ok (map3_0 ifft_fwd (map3_2 ifft_fwd x)).

(** fourier_wigner.py:213-310 forward_transform, 334-429 forward_transform_jax *)
Definition fw_forward (b : backend) (f : ndarray C) (L N : Z) (precomps : option (ndarray R * vec C))
    (reality : bool) (sampling : string) : result (ndarray C) :=
  if negb (str_in (lower sampling) ["mw"; "mwss"]) then Err ValueError else
  let ss := streq (lower sampling) "mwss" in
  let n_start_ind := if reality then N - 1 else 0 in
  let m_offset := if ss then 1 else 0 in
  let lpad := if ss then L - 2 else L - 1 in
  let n0 := n_start_ind - N + 1 in
  let x := if reality then map3_2 fftshift (map3_2 fft_fwd (map3_0 rfft_fwd f))
           else map3_2 fftshift (map3_0 fftshift (map3_0 fft_fwd (map3_2 fft_fwd f))) in
  let x := map3_2 (fun v => vslice v m_offset (vlen v)) x in
  let* temp := einsum_ntm_m_n x (abs_signs (- L + 1) L) (abs_signs n0 N) in
  let* x := concat1 x (map3_1 (fun v => vslice (vrev v) 1 L) temp) in
  let x := map3_1 (fun v => fftshift (fft_fwd v)) x in
  let* x := if streq (lower sampling) "mw"
            then einsum_tlm_l x (mkVec (2 * L - 1) (fun i => cis (- IZR (- L + 1 + i) * PI / IZR (2 * L - 1))))
            else Ok x in
  let* x := pad1 x lpad (L - 1) in
  let x := map3_1 (fun v => ifft_fwd (ifftshift v)) x in
  let* quads := match precomps with Some (_, q) => Ok q | None => fw_weights L end in
  let* x := einsum_tlm_l x quads in
  let x := map3_1 (fun v => vslice (fftshift (fft_fwd v)) (L - 1) (3 * L - 2)) x in
  let* x := match precomps with
    | Some (delta, _) =>
        let* dn := take_last3 delta (L - 1 + n0) (L - 1 + N) in
        einsum_nam_lam_lan x delta dn
    | None =>
        let* st := foldM (fun st el =>
            let* d := fw_risbo b (snd st) L el in
            let* dn := take_last2 d (L - 1 + n0) (L - 1 + N) in
            let* y := einsum_nam_am_an x d dn in
            let* xx := mid_set (fst st) el y in
            Ok (xx, d))
          (zrange 0 L) (zeros (RtoC 0) [dim0 x; L; dim2 x], zeros 0%R [2 * L - 1; 2 * L - 1]) in
        Ok (fst st)
    end in
  let* x := einsum_ntm_m_n x (mkVec (2 * L - 1) (fun i => ipow (- L + 1 + i))) (mkVec (N - n0) (fun i => ipow (- (n0 + i)))) in
  let* x := if reality then
      let y := planes_from x 1 in
      let y := amap Cconj (map3_2 vrev (map3_0 vrev y)) in
      let* temp := einsum_ntm_m_n y (abs_signs (- L + 1) L) (abs_signs (- N + 1) 0) in
      concat0 temp x
    else Ok x in
  Ok (amap (fun z => (z * RtoC ((2 * PI) ^ 2))%C) x).
