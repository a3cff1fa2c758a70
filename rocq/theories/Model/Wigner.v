(** Model of the reference Wigner transforms s2fft/base_transforms/wigner.py, in exact arithmetic.
    Signals on SO(3) have the axes [gamma, beta, alpha], or [gamma, pixel] for HEALPix. *)
From Coq Require Import Reals.
From Coquelicot Require Import Complex.
From Verif Require Import Lib.Py Lib.Vec Lib.Sums Lib.Cplx Lib.Arr Model.Index Model.Samples Model.Grids
  Model.FFT Model.Turok Model.Spherical.
Open Scope string_scope.
Open Scope Z_scope.

(** ** Arrays along their first axis *)
(** a[k] *)
Definition plane {T} (a : ndarray T) (k : Z) : result (ndarray T) :=
  match shape a with
  | [] => Err IndexError
  | n :: sh => match norm_index n k with
               | None => Err IndexError
               | Some k' => Ok (mkArr sh (fun ix => get a (k' :: ix)))
               end
  end.
(** a[k] = b; the shapes must agree (numpy would also stretch axes of length one) *)
Definition plane_set {T} (a : ndarray T) (k : Z) (b : ndarray T) : result (ndarray T) :=
  match shape a with
  | [] => Err IndexError
  | n :: sh => match norm_index n k with
               | None => Err IndexError
               | Some k' => if shape_is (shape b) sh
                            then Ok (mkArr (shape a) (fun ix => if hd 0 ix =? k' then get b (tl ix) else get a ix))
                            else Err ValueError
               end
  end.
(** a[s:] *)
Definition planes_from {T} (a : ndarray T) (s : Z) : ndarray T :=
  let n := hd 0 (shape a) in
  mkArr (slice_len n s n :: tl (shape a)) (fun ix => get a (slice_lo n s + hd 0 ix :: tl ix)).
(** a function of vectors along the first axis *)
Definition line0 {T} (a : ndarray T) (ix : list Z) : vec T := mkVec (hd 0 (shape a)) (fun k => get a (k :: ix)).
Definition map_axis0 {T} (g : vec T -> vec T) (a : ndarray T) : ndarray T :=
  mkArr (vlen (g (line0 a (map (fun _ => 0) (tl (shape a))))) :: tl (shape a))
    (fun ix => vat (g (line0 a (tl ix))) (hd 0 ix)).
(** elementwise functions *)
Definition amap {T} (g : T -> T) (a : ndarray T) : ndarray T := mkArr (shape a) (fun ix => g (get a ix)).
(** np.einsum("...nlm,...l->...nlm", a, w) *)
Definition einsum_nlm_l (a : ndarray C) (w : vec C) : result (ndarray C) :=
  if dim1 a =? vlen w then Ok (mkArr (shape a) (fun ix => (get a ix * vat w (nth 1 ix 0%Z))%C)) else Err ValueError.

(** wigner.py:55-84 inverse *)
Definition wigner_inverse (gl : gl_rule) (flmn : ndarray C) (L N L_lower : Z) (sampling : string) (reality : bool)
    (nside : option Z) : result (ndarray C) :=
  let* _ := assert_ (shape_is (shape flmn) (flmn_shape L N)) in
  let* sh := so3_f_shape L N sampling nside in
  let fban := zeros (RtoC 0) sh in
  let* scaled := einsum_nlm_l flmn (mkVec L (fun l => RtoC (sqrt (IZR (2 * l + 1) / (16 * PI ^ 3))))) in
  let n_start := if reality then 0 else - N + 1 in
  let* fban := foldM (fun fban n =>
      let* p := plane scaled (N - 1 + n) in
      let* g := inverse gl p L (- n) sampling nside reality L_lower in
      plane_set fban (N - 1 + n) (amap (fun z => (RtoC (m1 n) * z)%C) g))
    (zrange n_start N) fban in
  Ok (if reality then map_axis0 (fun v => irfft_fwd v (2 * N - 1)) (planes_from fban (N - 1))
      else map_axis0 (fun v => ifft_fwd (ifftshift v)) fban).

(** np.conj(np.flip(q * sgn * (-1) ** n, axis=-1)) with sgn = (-1) ** abs(np.arange(-L + 1, L)),
    wigner.py:145-146, 159-162 *)
Definition conj_plane (q : ndarray C) (L n : Z) : result (ndarray C) :=
  if dim1 q =? 2 * L - 1
  then Ok (mkArr (shape q) (fun ix =>
         let c := (dim1 q - 1 - nth 1 ix 0)%Z in
         Cconj (get q [nth 0 ix 0%Z; c] * RtoC (m1 (Z.abs (- L + 1 + c))) * RtoC (m1 n))%C))
  else Err ValueError.

(** wigner.py:132-168 forward *)
Definition wigner_forward (gl : gl_rule) (f : ndarray C) (L N L_lower : Z) (sampling : string) (reality : bool)
    (nside : option Z) : result (ndarray C) :=
  let* sh := so3_f_shape L N sampling nside in
  let* _ := assert_ (shape_is (shape f) sh) in
  let flmn := zeros (RtoC 0) (flmn_shape L N) in
  let fban := if reality then map_axis0 rfft_bwd f else map_axis0 (fun v => fftshift (fft_bwd v)) f in
  let fban := amap (fun z => (z * RtoC (2 * PI / IZR (2 * N - 1)))%C) fban in
  let n_start := if reality then 0 else - N + 1 in
  let* flmn := foldM (fun flmn n =>
      let* p := plane fban (n - n_start) in
      let* c := forward gl p L (- n) sampling nside reality L_lower in
      let* flmn := plane_set flmn (N - 1 + n) (amap (fun z => (RtoC (m1 n) * z)%C) c) in
      if reality && negb (n =? 0) then
        let* q := plane flmn (N - 1 + n) in
        let* q := conj_plane q L n in
        plane_set flmn (N - 1 - n) q
      else Ok flmn)
    (zrange n_start N) flmn in
  einsum_nlm_l flmn (mkVec L (fun l => RtoC (sqrt (4 * PI / IZR (2 * l + 1))))).
