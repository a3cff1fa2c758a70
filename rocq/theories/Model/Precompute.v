(** Model of the precomputed-kernel transforms: s2fft/precompute_transforms/construct.py
    (spin_spherical_kernel) and s2fft/precompute_transforms/spherical.py, in exact arithmetic.
    Kernels have complex entries (the real kernels of the code have imaginary part 0). numpy
    would also stretch axes of length one in assignments and einsum; the model raises ValueError
    when the lengths differ. Warnings are not modelled. The functions ending in _at take the
    colatitudes of samples.thetas as an argument; those without use the exact ones. *)
From Coq Require Import Reals.
From Coquelicot Require Import Complex.
From Verif Require Import Lib.Py Lib.Vec Lib.Sums Lib.Cplx Lib.Arr Model.Index Model.Samples Model.Grids
  Model.FFT Model.HealpixFFT Model.Turok Model.Risbo Model.Resampling Model.Quadrature Model.Spherical
  Lib.Ext Model.PriceMcEwen Model.OTF Model.PMSlices.
Open Scope string_scope.
Open Scope Z_scope.

(** ** Arrays with three axes *)
Definition arr3 {T} (n l m : Z) (f : Z -> Z -> Z -> T) : ndarray T :=
  mkArr [n; l; m] (fun ix => f (nth 0 ix 0) (nth 1 ix 0) (nth 2 ix 0)).
Definition at3 {T} (a : ndarray T) (t l m : Z) : T := get a [t; l; m].
Definition dim2 {T} (a : ndarray T) : Z := nth 2 (shape a) 0.
(** a[t, el] = v for a vector v *)
Definition cell_set {T} (a : ndarray T) (t el : Z) (v : vec T) : result (ndarray T) :=
  match norm_index (dim0 a) t, norm_index (dim1 a) el with
  | Some t', Some e' =>
      if vlen v =? dim2 a
      then Ok (arr3 (dim0 a) (dim1 a) (dim2 a) (fun i j k => if (i =? t') && (j =? e') then vat v k else at3 a i j k))
      else Err ValueError
  | _, _ => Err IndexError
  end.
(** a[:, el] = b for a matrix b *)
Definition mid_set {T} (a : ndarray T) (el : Z) (b : ndarray T) : result (ndarray T) :=
  match norm_index (dim1 a) el with
  | Some e' =>
      if (dim0 b =? dim0 a) && (dim1 b =? dim2 a)
      then Ok (arr3 (dim0 a) (dim1 a) (dim2 a) (fun i j k => if j =? e' then at2 b i k else at3 a i j k))
      else Err ValueError
  | None => Err IndexError
  end.
(** einsum("tlm,l->tlm"), einsum("...tlm, ...t->...tlm") and einsum("...tlm,...tm->...tlm") *)
Definition einsum_tlm_l (a : ndarray C) (w : vec C) : result (ndarray C) :=
  if dim1 a =? vlen w then Ok (arr3 (dim0 a) (dim1 a) (dim2 a) (fun t l m => (at3 a t l m * vat w l)%C)) else Err ValueError.
Definition einsum_tlm_t (a : ndarray C) (w : vec C) : result (ndarray C) :=
  if dim0 a =? vlen w then Ok (arr3 (dim0 a) (dim1 a) (dim2 a) (fun t l m => (at3 a t l m * vat w t)%C)) else Err ValueError.
Definition einsum_tlm_tm (a b : ndarray C) : result (ndarray C) :=
  if (dim0 a =? dim0 b) && (dim2 a =? dim1 b)
  then Ok (arr3 (dim0 a) (dim1 a) (dim2 a) (fun t l m => (at3 a t l m * at2 b t m)%C)) else Err ValueError.
(** einsum("...tlm, ...lm -> ...tm") and einsum("...tlm, ...tm -> ...lm") *)
Definition einsum_tlm_lm (k a : ndarray C) : result (ndarray C) :=
  if (dim1 k =? dim0 a) && (dim2 k =? dim1 a)
  then Ok (mat (dim0 k) (dim2 k) (fun t m => csum (zrange 0 (dim1 k)) (fun l => (at3 k t l m * at2 a l m)%C)))
  else Err ValueError.
Definition einsum_tlm_tm_lm (k a : ndarray C) : result (ndarray C) :=
  if (dim0 k =? dim0 a) && (dim2 k =? dim1 a)
  then Ok (mat (dim1 k) (dim2 k) (fun l m => csum (zrange 0 (dim0 k)) (fun t => (at3 k t l m * at2 a t m)%C)))
  else Err ValueError.

(** ** construct.py *)
Definition PM_MAX_STABLE_SPIN : Z := 6. (* construct.py:13 *)

(** construct.py:65-73 = 213-221: the recursion used. The exception is raised for spins > 6. *)
Definition choose_recursion (recursion : string) (spin : Z) : result string :=
  if streq (lower recursion) "price-mcewen" && (PM_MAX_STABLE_SPIN <? Z.abs spin) then Err ValueError
  else if streq (lower recursion) "auto"
  then Ok (if PM_MAX_STABLE_SPIN <? Z.abs spin then "risbo" else "price-mcewen")
  else Ok recursion.

(** construct.py:80-84 = 228-232: the sampling and the colatitudes *)
Definition kernel_thetas_at (th : theta_fn) (L : Z) (sampling : string) (nside : option Z) (forward : bool) : result (string * vec R) :=
  if forward && str_in (lower sampling) ["mw"; "mwss"]
  then let* ths := th (2 * L) "mwss" None in Ok ("mwss", ths)
  else let* ths := th L sampling nside in Ok (sampling, ths).
Definition kernel_thetas (gl : gl_rule) := kernel_thetas_at (exact_thetas gl).

(** np.sqrt((2 * np.arange(L) + 1) / (4 * np.pi)) *)
Definition elfactors (L : Z) : vec C := mkVec L (fun el => RtoC (elfactor el)).

(** construct.py:89-96: the slices of the d-matrices by compute_slice of turok.py *)
Definition kernel_turok (ths : vec R) (L spin : Z) (reality : bool) (ms md : Z) : result (ndarray C) :=
  enum ths (fun dl t theta =>
    foldM (fun dl el =>
      let* d := turok_slice theta el L (- spin) reality in
      let v := vslice d ms (vlen d) in
      let* dl := cell_set dl t el (vmap RtoC v) in
      cell_set dl t el (vmap (fun x => RtoC (x * elfactor el)) v))
      (zrange (Z.abs spin) L) dl)
    (zeros (RtoC 0) [vlen ths; L; md]).

(** delta[:, ms:, c] of a stack of (2L-1) x (2L-1) planes *)
Definition planes_col (dls : list (ndarray R)) (L ms c : Z) : result (ndarray C) :=
  match norm_index (2 * L - 1) c with
  | None => Err IndexError
  | Some c' => Ok (mat (Z.of_nat (List.length dls)) (slice_len (2 * L - 1) ms (2 * L - 1))
      (fun t i => RtoC (at2 (nth (Z.to_nat t) dls (zeros 0%R [])) (slice_lo (2 * L - 1) ms + i) c')))
  end.

(** np.fft.irfft(x, n=n, axis=0, norm="forward")[:rows] *)
Definition irfft0 (x : ndarray C) (n rows : Z) : ndarray C :=
  let y := map_cols (fun v => irfft_fwd v n) x in slice2 y 0 rows 0 (dim1 y).

(** construct.py:107-111 (numpy, compute_full_vectorised) and 267-274 (JAX, a vmap of
    risbo_jax.compute_full): schemes whose colatitudes are not equidistant *)
Definition risbo_planes (b : backend) (dls : list (ndarray R)) (betas : list R) (L el : Z) : result (list (ndarray R)) :=
  match b with
  | numpy => risbo_full_vec dls betas L el
  | jax => (fix go dls betas := match dls, betas with
            | dl :: dls, beta :: betas => let* dl := risbo_jax dl beta L el in let* dls := go dls betas in Ok (dl :: dls)
            | [], [] => Ok []
            | _, _ => Err ValueError
            end) dls betas
  end.
Definition kernel_risbo_direct (b : backend) (ths : vec R) (L spin ms md : Z) : result (ndarray C) :=
  let betas := map (vat ths) (zrange 0 (vlen ths)) in
  let* st := foldM (fun st el =>
      let* delta := risbo_planes b (fst st) betas L el in
      let* c := planes_col delta L ms (L - 1 - spin) in
      let* dl := mid_set (snd st) el c in
      Ok (delta, dl))
    (zrange 0 L) (map (fun _ => zeros 0%R [2 * L - 1; 2 * L - 1]) betas, zeros (RtoC 0) [vlen ths; L; md]) in
  Ok (snd st).

(** 1j ** k *)
Definition ipow (k : Z) : C := cis (IZR k * (PI / 2)).

(** construct.py:119-124 = 282-287 *)
Definition kernel_nsamps (sampling : string) (n : Z) : Z :=
  if streq (lower sampling) "mw" then 2 * n - 1
  else if streq (lower sampling) "mwss" then 2 * n - 2
  else 2 * n.

(** construct.py:125-140 (numpy) and 288-303 (JAX): schemes with equidistant colatitudes, by the
    Fourier expansion of the d-functions. m_value[i] = i - (L - 1). *)
Definition risbo_plane (b : backend) (dl : ndarray R) (beta : R) (L el : Z) : result (ndarray R) :=
  match b with numpy => risbo_full dl beta L el | jax => risbo_jax dl beta L el end.
Definition fourier_slice (delta : ndarray R) (th0 : R) (L spin ms md : Z) : result (ndarray C) :=
  match norm_index (2 * L - 1) (L - 1 - spin) with
  | None => Err IndexError
  | Some c =>
      let temp := mat (2 * L - 1) md (fun a i =>
        (RtoC (at2 delta a (ms + i)%Z) * RtoC (at2 delta a c) * ipow (- spin - (ms + i - (L - 1))))%C) in
      Ok (mat (2 * L - 1) md (fun a i => (at2 temp a i * cis (IZR (a - (L - 1)) * th0))%C))
  end.
Definition kernel_risbo_fourier (b : backend) (sampling : string) (ths : vec R) (L spin ms md : Z) : result (ndarray C) :=
  let nsamps := kernel_nsamps sampling (vlen ths) in
  let* st := foldM (fun st el =>
      let* delta := risbo_plane b (fst st) (PI / 2) L el in
      let* th0 := vread ths 0 in
      let* temp := fourier_slice delta th0 L spin ms md in
      let* dl := mid_set (snd st) el (irfft0 (slice2 temp (L - 1) (dim0 temp) 0 (dim1 temp)) nsamps (vlen ths)) in
      Ok (delta, dl))
    (zrange 0 L) (zeros 0%R [2 * L - 1; 2 * L - 1], zeros (RtoC 0) [vlen ths; L; md]) in
  Ok (snd st).

(** construct.py:99-140 / 259-303: the Risbo branch, before normalisation *)
Definition kernel_risbo (b : backend) (sampling : string) (ths : vec R) (L spin ms md : Z) : result (ndarray C) :=
  if str_in (lower sampling) ["healpix"; "gl"] then kernel_risbo_direct b ths L spin ms md
  else if str_in (lower sampling) ["mw"; "mwss"; "dh"] then kernel_risbo_fourier b sampling ths L spin ms md
  else Ok (zeros (RtoC 0) [vlen ths; L; md]).

(** dl.at[r].set(0) followed by dl.at[r, :, c].set(v): construct.py:247-248, 252-253 *)
Definition pole_rows {T} (zero : T) (a : ndarray T) (r c : Z) (v : Z -> T) : result (ndarray T) :=
  match norm_index (dim0 a) r, norm_index (dim2 a) c with
  | Some r', Some c' => Ok (arr3 (dim0 a) (dim1 a) (dim2 a) (fun t l m =>
      if t =? r' then if m =? c' then v l else zero else at3 a t l m))
  | _, _ => Err IndexError
  end.
(** The array as numbers. Infinities and NaN are not followed any further: OtherError stands for
    arrays that hold some. *)
Definition rval (x : ext) : R := match x with Fin r => r | _ => 0%R end.
Definition finite3 (a : ndarray ext) : result (ndarray C) :=
  if forallb (fun t => forallb (fun l => forallb (fun m => is_fin (at3 a t l m)) (zrange 0 (dim2 a))) (zrange 0 (dim1 a))) (zrange 0 (dim0 a))
  then Ok (arr3 (dim0 a) (dim1 a) (dim2 a) (fun t l m => RtoC (rval (at3 a t l m)))) else Err OtherError.

(** construct.py:237-256: the slices of the d-matrices by compute_all_slices_jax. NaN is replaced by 0,
    the axes become [theta, el, m], the rows of the poles are set and the degrees below |spin| are
    multiplied by 0. *)
Definition kernel_price_mcewen (th : theta_fn) (ths : vec R) (L spin : Z) (sampling : string) (nside : option Z) (forward : bool)
    (ms : Z) : result (ndarray C) :=
  let* dl := compute_all_slices_jax th ths L spin sampling forward nside None in
  let dl := arr3 (vlen ths) L (vlen dl) (fun t l m => let x := vat dl m t l in if is_nan x then Fin 0 else x) in
  let* dl := (if streq (lower sampling) "mwss" then pole_rows (Fin 0) dl 0 (L - 1 - spin) (fun _ => Fin 1) else Ok dl) in
  let* dl := (if str_in (lower sampling) ["mw"; "mwss"]
              then pole_rows (Fin 0) dl (-1) (L - 1 + spin) (fun el => Fin (m1 (el - spin))) else Ok dl) in
  let dl := arr3 (dim0 dl) (dim1 dl) (dim2 dl) (fun t l m =>
              if l <? slice_lo (dim1 dl) (Z.abs spin) then emul (at3 dl t l m) (Fin 0) else at3 dl t l m) in
  let dl := arr3 (dim0 dl) (dim1 dl) (slice_len (dim2 dl) ms (dim2 dl)) (fun t l m => at3 dl t l (slice_lo (dim2 dl) ms + m)) in
  finite3 dl.

(** construct.py:148-159 / 311-322: quadrature weights and HEALPix phase shifts. The JAX kernel takes
    its weights from quadrature_jax.py:10-51, which performs the computation of quadrature.py with
    spin = 0 term by term, so one model serves both *)
Definition kernel_finish (gl : gl_rule) (dl : ndarray C) (L : Z) (sampling : string) (nside : option Z) (forward : bool) (ms : Z)
    : result (ndarray C) :=
  let* dl := (if forward then
                let* w := quad_weights_transform gl L sampling 0 nside in
                einsum_tlm_t dl (vmap RtoC w)
              else Ok dl) in
  if is_hp sampling then
    let* n := need nside in
    let* ph := healpix_phase_shifts L n forward in
    einsum_tlm_tm dl (slice2 ph 0 (dim0 ph) ms (dim1 ph))
  else Ok dl.

(** construct.py:16-161 spin_spherical_kernel *)
Definition spin_spherical_kernel_at (th : theta_fn) (gl : gl_rule) (L spin : Z) (reality : bool) (sampling : string) (nside : option Z)
    (forward : bool) (recursion : string) : result (ndarray C) :=
  let reality := if reality && negb (spin =? 0) then false else reality in
  let* recursion := choose_recursion recursion spin in
  let ms := if reality then L - 1 else 0 in
  let md := if reality then L else 2 * L - 1 in
  let* (sampling, ths) := kernel_thetas_at th L sampling nside forward in
  let* dl := (if streq (lower recursion) "price-mcewen" then kernel_turok ths L spin reality ms md
              else if streq (lower recursion) "risbo" then
                let* dl := kernel_risbo numpy sampling ths L spin ms md in
                einsum_tlm_l dl (elfactors L)
              else Err ValueError) in
  kernel_finish gl dl L sampling nside forward ms.

Definition spin_spherical_kernel (gl : gl_rule) := spin_spherical_kernel_at (exact_thetas gl) gl.

(** construct.py:164-324 spin_spherical_kernel_jax. JAX clamps or drops an index out of range where the
    model raises. *)
Definition spin_spherical_kernel_jax_at (th : theta_fn) (gl : gl_rule) (L spin : Z) (reality : bool) (sampling : string) (nside : option Z)
    (forward : bool) (recursion : string) : result (ndarray C) :=
  let reality := if reality && negb (spin =? 0) then false else reality in
  let* recursion := choose_recursion recursion spin in
  let ms := if reality then L - 1 else 0 in
  let md := if reality then L else 2 * L - 1 in
  let* (sampling, ths) := kernel_thetas_at th L sampling nside forward in
  let* dl := (if streq (lower recursion) "price-mcewen" then kernel_price_mcewen th ths L spin sampling nside forward ms
              else if streq (lower recursion) "risbo" then kernel_risbo jax sampling ths L spin ms md
              else Err ValueError) in
  let* dl := einsum_tlm_l dl (elfactors L) in
  kernel_finish gl dl L sampling nside forward ms.
Definition spin_spherical_kernel_jax (gl : gl_rule) := spin_spherical_kernel_jax_at (exact_thetas gl) gl.

(** ** spherical.py *)
Definition backend_name (b : backend) : string := match b with numpy => "numpy" | jax => "jax" end.
(** np.flip(a, axis=-1) *)
Definition flip1 {T} (a : ndarray T) : ndarray T := mat (dim0 a) (dim1 a) (fun r c => at2 a r (dim1 a - 1 - c)).

(** spherical.py:131-148 / 201-218: the ring transforms ending inverse_transform *)
Definition pre_synthesis (b : backend) (ftm : ndarray C) (L : Z) (sampling : string) (nside : option Z) (reality : bool)
    : result (ndarray C) :=
  if is_hp sampling then
    let* n := need nside in
    let* (_, f) := healpix_ifft (RtoC 0) Cplus ifft_fwd irfft_fwd (to_rows ftm) L n (backend_name b) reality in
    Ok (of_vec f)
  else if reality then
    let* nphi := nphi_equiang (Some L) sampling in
    Ok (map_rows (fun r => irfft_fwd r nphi) (slice2 ftm 0 (dim0 ftm) (L - 1 + m_offset sampling) (dim1 ftm)))
  else Ok (map_rows (fun r => ifft_fwd (ifftshift r)) ftm).

(** jnp.real(f) as complex numbers *)
Definition areal (f : ndarray C) : ndarray C := mkArr (shape f) (fun ix => RtoC (Re (get f ix))).

(** spherical.py:87-149 inverse_transform and 153-220 inverse_transform_jax *)
Definition inverse_transform (b : backend) (flm kernel : ndarray C) (L : Z) (sampling : string) (reality : bool)
    (spin : Z) (nside : option Z) : result (ndarray C) :=
  let mo := m_offset sampling in
  let ms := if reality then L - 1 else 0 in
  let* sh := ftm_shape (Some L) sampling nside in
  let ftm := zeros (RtoC 0) sh in
  let* e := einsum_tlm_lm kernel (slice2 flm 0 (dim0 flm) ms (dim1 flm)) in
  let* ftm := slice2_set ftm 0 (dim0 ftm) (ms + mo) (dim1 ftm) e in
  let ftm := mscal (fun z => (z * RtoC (m1 spin))%C) ftm in
  let* ftm := (if is_hp sampling && reality
               then slice2_set ftm 0 (dim0 ftm) mo (ms + mo)
                      (flip1 (mscal Cconj (slice2 ftm 0 (dim0 ftm) (ms + mo + 1) (dim1 ftm))))
               else Ok ftm) in
  let* f := pre_synthesis b ftm L sampling nside reality in
  Ok (match b with jax => if reality then areal f else f | numpy => f end).

(** spherical.py:359-370 / 429-440: the ring transforms starting forward_transform *)
Definition pre_analysis (b : backend) (f : ndarray C) (L : Z) (sampling : string) (nside : option Z) (reality : bool)
    : result (ndarray C) :=
  let mo := m_offset sampling in
  let ms := if reality then L - 1 else 0 in
  if is_hp sampling then
    let* n := need nside in
    let* ftm := healpix_fft (RtoC 0) fft_bwd rfft_bwd (to_vec f) L n (backend_name b) reality in
    let ftm := of_rows (2 * L) ftm in
    let ftm := slice2 ftm 0 (dim0 ftm) mo (dim1 ftm) in
    Ok (if reality then slice2 ftm 0 (dim0 ftm) ms (dim1 ftm) else ftm)
  else if reality then
    let ftm := map_rows rfft_bwd f in
    Ok (if negb (mo =? 0) then slice2 ftm 0 (dim0 ftm) 0 (-1) else ftm)
  else
    let ftm := map_rows (fun r => fftshift (fft_bwd r)) f in
    Ok (slice2 ftm 0 (dim0 ftm) mo (dim1 ftm)).

(** spherical.py:314-380 forward_transform and 384-457 forward_transform_jax *)
Definition forward_transform (b : backend) (f kernel : ndarray C) (L : Z) (sampling : string) (reality : bool)
    (spin : Z) (nside : option Z) : result (ndarray C) :=
  let* f := (if streq (lower sampling) "mw" then mw_to_mwss b f L spin else Ok f) in
  let* (f, sampling) := (if str_in (lower sampling) ["mw"; "mwss"]
                         then let* f := upsample_by_two_mwss b f L spin in Ok (f, "mwss")
                         else Ok (f, sampling)) in
  let ms := if reality then L - 1 else 0 in
  let* ftm := pre_analysis b f L sampling nside reality in
  let flm := zeros (RtoC 0) (flm_shape L) in
  let* e := einsum_tlm_tm_lm kernel ftm in
  let* flm := slice2_set flm 0 (dim0 flm) ms (dim1 flm) e in
  let* flm := (if reality then
                 let up := slice2 flm 0 (dim0 flm) (ms + 1) (dim1 flm) in
                 let* u := mmul Cmult (mat (dim0 up) (Z.max 0 (L - 1)) (fun _ i => RtoC (m1 ((1 + i) mod 2)))) (mscal Cconj up) in
                 slice2_set flm 0 (dim0 flm) 0 ms (flip1 u)
               else Ok flm) in
  Ok (mscal (fun z => (z * RtoC (m1 spin))%C) flm).

(** the tables of methods, spherical.py:463-480; "torch" converts its arguments, calls the JAX
    function and converts the result (s2fft/utils/torch_wrapper.py), modelled as that call *)
Definition method_backend (method : string) : result backend :=
  if streq method "numpy" then Ok numpy
  else if streq method "jax" || streq method "torch" then Ok jax
  else Err ValueError.
Definition kernel_function_at (b : backend) (th : theta_fn) :=
  match b with numpy => spin_spherical_kernel_at th | jax => spin_spherical_kernel_jax_at th end.
Definition kernel_function (b : backend) (gl : gl_rule) := kernel_function_at b (exact_thetas gl) gl.

(** spherical.py:19-84 inverse *)
Definition pre_inverse_at (th : theta_fn) (gl : gl_rule) (flm : ndarray C) (L spin : Z) (kernel : option (ndarray C)) (sampling : string)
    (reality : bool) (method : string) (nside : option Z) : result (ndarray C) :=
  let* b := method_backend method in
  let reality := if reality && negb (spin =? 0) then false else reality in
  let* k := match kernel with
            | None => kernel_function_at b th gl L spin reality sampling nside false "auto"
            | Some k => Ok k
            end in
  inverse_transform b flm k L sampling reality spin nside.
Definition pre_inverse (gl : gl_rule) := pre_inverse_at (exact_thetas gl) gl.

(** spherical.py:226-311 forward without iterative refinement (iter = 0) *)
Definition pre_forward_at (th : theta_fn) (gl : gl_rule) (f : ndarray C) (L spin : Z) (kernel : option (ndarray C)) (sampling : string)
    (reality : bool) (method : string) (nside : option Z) : result (ndarray C) :=
  let* b := method_backend method in
  let reality := if reality && negb (spin =? 0) then false else reality in
  let* k := match kernel with
            | None => kernel_function_at b th gl L spin reality sampling nside true "auto"
            | Some k => Ok k
            end in
  forward_transform b f k L sampling reality spin nside.
Definition pre_forward (gl : gl_rule) := pre_forward_at (exact_thetas gl) gl.
