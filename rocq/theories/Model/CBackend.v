(** Model of the JAX front ends of the C libraries: s2fft/transforms/c_backend_spherical.py, the methods
    "jax_ssht" and "jax_healpy" of s2fft/transforms/spherical.py and "jax_ssht" of s2fft/transforms/wigner.py.
    The libraries are records of arbitrary functions. *)
From Coq Require Import Reals.
From Coquelicot Require Import Complex.
From Verif Require Import Lib.Py Lib.Vec Lib.Sums Lib.Cplx Lib.Arr Lib.Ext Model.Index Model.Samples Model.Grids Model.FFT
  Model.Turok Model.Quadrature Model.QuadratureJax Model.Spherical Model.Refine Model.Precompute Model.PriceMcEwen Model.OTF
  Model.OTFSpherical Model.Wigner Model.OTFWigner.
From Coq Require Import List.
Import ListNotations.
Open Scope string_scope.
Open Scope Z_scope.

(** The functions of pyssht that are used: array, L, Spin, Method, Reality, backend. *)
Definition ssht_fn := ndarray C -> Z -> Z -> string -> bool -> string -> result (ndarray C).
Record pyssht := mkSsht { py_inverse : ssht_fn; py_forward : ssht_fn; py_inverse_adjoint : ssht_fn; py_forward_adjoint : ssht_fn }.
(** healpy.map2alm(f, lmax, iter) and healpy.alm2map(alm, lmax, nside) *)
Record healpy := mkHealpy { hp_map2alm : ndarray C -> Z -> Z -> result (ndarray C); hp_alm2map : ndarray C -> Z -> Z -> result (ndarray C) }.

(** c_backend_spherical.py:20-28 _try_import_module: None stands for a package that is not installed *)
Definition try_import {T} (m : option T) : result T := match m with Some x => Ok x | None => Err MissingDependency end.
(** c_backend_spherical.py:77, 109, 200, 232: sampling_str, and the names of the two backends *)
Definition sampling_str : list string := ["MW"; "MWSS"; "DH"; "GL"].
Definition backend_str (b : Z) : string := if b =? 0 then "SSHT" else "ducc0".

(** c_backend_spherical.py:31-89 ssht_inverse *)
Definition ssht_inverse (lib : option pyssht) (flm : ndarray C) (L spin : Z) (reality : bool) (k b : Z) : result (ndarray C) :=
  let* p := try_import lib in
  let flm_1d := flm_2d_to_1d_fast (RtoC 0) flm L in
  let* name := lread sampling_str k in
  py_inverse p flm_1d L spin name reality (backend_str b).

(** jnp.einsum("tp,t->tp", f, w) *)
Definition einsum_tp_t (f : ndarray C) (w : vec R) : result (ndarray C) :=
  if dim0 f =? vlen w then Ok (mkArr (shape f) (fun ix => (get f ix * RtoC (vat w (nth 0 ix 0%Z)))%C)) else Err ValueError.
(** c_backend_spherical.py:142-150: flm_out[..., L:] += flip((-1) ** (arange(1, L) % 2) * conj(flm_out[..., :L-1])) and
    flm_out[..., :L-1] = 0, for an array with 2L-1 columns. Entry i of the flipped row is entry L-2-i; i = c - L. *)
Definition add_mirrored (a : ndarray C) (L : Z) : ndarray C :=
  mat (dim0 a) (dim1 a) (fun l c =>
    if c <? L - 1 then RtoC 0
    else if L <=? c then
      let j := L - 2 - (c - L) in (at2 a l c + RtoC (m1 ((1 + j) mod 2)) * Cconj (at2 a l j))%C
    else at2 a l c).
(** c_backend_spherical.py:92-102 _ssht_inverse_fwd, 105-151 _ssht_inverse_bwd: the cotangent of flm. 1 / quad_weights is
    taken in R; the weights are not 0. *)
Definition ssht_inverse_bwd (lib : option pyssht) (gl : gl_rule) (turns : nat) (L spin : Z) (reality : bool) (k b : Z) (f : ndarray C)
    : result (ndarray C) :=
  let* p := try_import lib in
  let* flm := (if k <? 2 then
      let* name := lread sampling_str k in
      py_inverse_adjoint p (amap Cconj f) L spin name reality (backend_str b)
    else
      let* name := lread sampling_str k in
      let* w := quad_weights_transform_jax gl turns L (lower name) None in
      let* f := einsum_tp_t f (vmap Rinv w) in
      py_forward p (amap Cconj f) L spin name reality (backend_str b)) in
  let* out := flm_1d_to_2d_fast (RtoC 0) (amap Cconj flm) L in
  Ok (if reality then add_mirrored out L else out).

(** c_backend_spherical.py:154-212 ssht_forward *)
Definition ssht_forward (lib : option pyssht) (f : ndarray C) (L spin : Z) (reality : bool) (k b : Z) : result (ndarray C) :=
  let* p := try_import lib in
  let* name := lread sampling_str k in
  let* flm := py_forward p f L spin name reality (backend_str b) in
  flm_1d_to_2d_fast (RtoC 0) flm L.
(** c_backend_spherical.py:215-225 _ssht_forward_fwd, 228-267 _ssht_forward_bwd: the cotangent of f *)
Definition ssht_forward_bwd (lib : option pyssht) (gl : gl_rule) (turns : nat) (L spin : Z) (reality : bool) (k b : Z) (flm : ndarray C)
    : result (ndarray C) :=
  let* p := try_import lib in
  let flm_1d := amap Cconj (flm_2d_to_1d_fast (RtoC 0) flm L) in
  let* name := lread sampling_str k in
  if k <? 2 then
    let* f := py_forward_adjoint p flm_1d L spin name reality (backend_str b) in
    Ok (amap Cconj f)
  else
    let* w := quad_weights_transform_jax gl turns L (lower name) None in
    let* f := py_inverse p flm_1d L spin name reality (backend_str b) in
    einsum_tp_t (amap Cconj f) w.

(** c_backend_spherical.py:275-297 _complex_dtype, 300-322 _real_dtype: numpy promotion with complex64, and finfo; the
    other dtypes are not used here *)
Inductive dtype := Float32 | Float64 | Complex64 | Complex128.
Definition complex_dtype (d : dtype) : dtype := match d with Float32 | Complex64 => Complex64 | Float64 | Complex128 => Complex128 end.
Definition real_dtype (d : dtype) : dtype := match d with Float32 | Complex64 => Float32 | Float64 | Complex128 => Float64 end.

(** c_backend_spherical.py:325-327 _healpy_map2alm_impl and 351-372 healpy_map2alm *)
Definition healpy_map2alm (hp : option healpy) (f : ndarray C) (L nside : Z) : result (ndarray C) :=
  let* h := try_import hp in hp_map2alm h f (L - 1) 0.
(** c_backend_spherical.py:375-377 _healpy_alm2map_impl and 406-427 healpy_alm2map *)
Definition healpy_alm2map (hp : option healpy) (flm : ndarray C) (L nside : Z) : result (ndarray C) :=
  let* h := try_import hp in hp_alm2map h flm (L - 1) nside.
(** c_backend_spherical.py:330-333 and 380-383: the shapes and dtypes JAX is told *)
Definition map2alm_abstract_eval (d : dtype) (L nside : Z) : list Z * dtype := ([L * (L + 1) / 2], complex_dtype d).
Definition alm2map_abstract_eval (d : dtype) (L nside : Z) : list Z * dtype := ([12 * nside ^ 2], real_dtype d).
(** c_backend_spherical.py:337-341, 387-391: jnp.concatenate((ones(L), 2 * ones(L * (L - 1) // 2))) * (3 * nside ** 2) / pi *)
Definition scale_factors (L nside : Z) : vec R :=
  vmap (fun x => (x * IZR (3 * nside ^ 2) / PI)%R) (vapp (vconst L 1%R) (vconst (L * (L - 1) / 2) 2%R)).
(** elementwise product of a one-dimensional array and a vector of the same length *)
Definition vscale (a : ndarray C) (w : vec R) : result (ndarray C) :=
  if dim0 a =? vlen w then Ok (mkArr (shape a) (fun ix => (get a ix * RtoC (vat w (nth 0 ix 0%Z)))%C)) else Err ValueError.
(** c_backend_spherical.py:336-342 _healpy_map2alm_transpose *)
Definition map2alm_transpose (hp : option healpy) (dflm : ndarray C) (L nside : Z) : result (ndarray C) :=
  let* a := vscale (amap Cconj dflm) (vmap Rinv (scale_factors L nside)) in
  let* f := healpy_alm2map hp a L nside in
  Ok (amap Cconj f).
(** c_backend_spherical.py:386-397 _healpy_alm2map_transpose *)
Definition alm2map_transpose (hp : option healpy) (df : ndarray C) (L nside : Z) : result (ndarray C) :=
  let* a := healpy_map2alm hp (amap Cconj df) L nside in
  vscale (amap Cconj a) (scale_factors L nside).

(** c_backend_spherical.py:430-469 healpy_forward *)
Definition healpy_forward (hp : option healpy) (f : ndarray C) (L nside iter : Z) : result (ndarray C) :=
  let* flm := refine f iter (fun f => healpy_map2alm hp f L nside) (fun flm => healpy_alm2map hp flm L nside) in
  flm_hp_to_2d_fast (RtoC 0) Copp Cconj flm L.
(** c_backend_spherical.py:472-501 healpy_inverse *)
Definition healpy_inverse (hp : option healpy) (flm : ndarray C) (L nside : Z) : result (ndarray C) :=
  healpy_alm2map hp (flm_2d_to_hp_fast (RtoC 0) flm L) L nside.

(** ["mw", "mwss", "dh", "gl"].index(sampling.lower()): spherical.py:104 = 448, wigner.py:730 = 808 *)
Definition ssht_index (sampling : string) : result Z :=
  let n := lower sampling in
  if streq n "mw" then Ok 0 else if streq n "mwss" then Ok 1 else if streq n "dh" then Ok 2 else if streq n "gl" then Ok 3 else Err ValueError.

(** spherical.py:21-109 inverse with the methods of the C libraries, which take no L_lower; "jax_healpy" takes neither spin nor
    reality. A missing nside is a TypeError of the library call. *)
Definition full_inverse (lib : option pyssht) (hp : option healpy) (th : theta_fn) (flm : ndarray C) (L spin : Z) (nside : option Z)
    (sampling method : string) (reality : bool) (precomps : option pm_pre) (L_lower backend : Z) : result (ndarray C) :=
  if streq method "jax_ssht" then
    let* _ := backend_checks method sampling in
    let* k := ssht_index sampling in
    ssht_inverse lib flm L spin reality k backend
  else if streq method "jax_healpy" then
    let* _ := backend_checks method sampling in
    let* n := need nside in
    healpy_inverse hp flm L n
  else otf_inverse th flm L spin nside sampling method reality precomps L_lower.
(** spherical.py:352-464 forward with the methods of the C libraries *)
Definition full_forward (lib : option pyssht) (hp : option healpy) (gl : gl_rule) (th : theta_fn) (f : ndarray C) (L spin : Z)
    (nside : option Z) (sampling method : string) (reality : bool) (precomps : option pm_pre) (L_lower : Z) (iter : option Z)
    (backend : Z) : result (ndarray C) :=
  let n := match iter with Some n => n | None => if is_hp sampling && streq method "jax_healpy" then 3 else 0 end in
  if streq method "jax_ssht" then
    let* _ := backend_checks method sampling in
    let* k := ssht_index sampling in
    if 0 <? n then Err KeyError else ssht_forward lib f L spin reality k backend
  else if streq method "jax_healpy" then
    let* _ := backend_checks method sampling in
    let* ns := need nside in
    healpy_forward hp f L ns n
  else otf_forward gl th f L spin nside sampling method reality precomps L_lower iter.

(** a.at[k].add(b); the shapes must agree *)
Definition plane_add (a : ndarray C) (k : Z) (b : ndarray C) : result (ndarray C) :=
  let* x := plane a k in
  let* y := aadd x b in
  plane_set a k y.
(** wigner.py:780-797 _inverse_norm *)
Definition inverse_norm (flmn : ndarray C) (L N L_lower : Z) (sampling : string) : result (ndarray C * ndarray C) :=
  let* sh := so3_f_shape L N sampling None in
  let* flmn := scale_degrees flmn L L_lower inv_scale in
  Ok (flmn, zeros (RtoC 0) sh).
(** wigner.py:800-821 _flmn_to_fban *)
Definition flmn_to_fban (lib : option pyssht) (flmn fban : ndarray C) (L N : Z) (sampling : string) (reality : bool) (b : Z)
    : result (ndarray C) :=
  let* k := ssht_index sampling in
  foldM (fun fban n =>
      let* flm := plane flmn (N - 1 + n) in
      let* g := ssht_inverse lib flm L (- n) false k b in
      plane_add fban (N - 1 + n) (amap (fun z => (RtoC (m1 (Z.abs n)) * z)%C) g))
    (zrange (n_start N reality) N) fban.
(** wigner.py:294-343 inverse_jax_ssht; lines 824-831 _fban_to_f are those of the other methods *)
Definition inverse_jax_ssht (lib : option pyssht) (flmn : ndarray C) (L N L_lower : Z) (sampling : string) (reality : bool) (b : Z)
    : result (ndarray C) :=
  let* (flmn, fban) := inverse_norm flmn L N L_lower sampling in
  let* fban := flmn_to_fban lib flmn fban L N sampling reality b in
  Ok (gamma_synthesis fban N reality).
(** wigner.py:720-743 _fban_to_flmn *)
Definition fban_to_flmn (lib : option pyssht) (flmn fban : ndarray C) (L N : Z) (sampling : string) (reality : bool) (b : Z)
    : result (ndarray C) :=
  let* k := ssht_index sampling in
  foldM (fun flmn n =>
      let* fba := plane fban (n - n_start N reality) in
      let* c := ssht_forward lib fba L (- n) false k b in
      plane_add flmn (N - 1 + n) (amap (fun z => (RtoC (m1 (Z.abs n)) * z)%C) c))
    (zrange (n_start N reality) N) flmn.
(** wigner.py:746-777 _reality_and_norm *)
Definition reality_and_norm (flmn : ndarray C) (L N L_lower : Z) (reality : bool) : result (ndarray C) :=
  let* flmn := (if reality then
      foldM (fun a n =>
        let* q := plane flmn (N - 1 + n) in
        let* q := conj_plane q L n in
        plane_set a (N - 1 - n) q) (zrange 1 N) flmn
    else Ok flmn) in
  scale_degrees flmn L L_lower fwd_scale.
(** wigner.py:651-702 forward_jax_ssht; lines 705-717 _f_to_fban are those of the other methods *)
Definition forward_jax_ssht (lib : option pyssht) (f : ndarray C) (L N L_lower : Z) (sampling : string) (reality : bool) (b : Z)
    : result (ndarray C) :=
  let fban := gamma_analysis f N reality in
  let* flmn := fban_to_flmn lib (zeros (RtoC 0) (flmn_shape L N)) fban L N sampling reality b in
  reality_and_norm flmn L N L_lower reality.
(** wigner.py:13-107 inverse and 346-439 forward with all methods *)
Definition full_wigner_inverse (lib : option pyssht) (th : theta_fn) (flmn : ndarray C) (L N : Z) (nside : option Z)
    (sampling method : string) (reality : bool) (precomps : option wigner_pre) (L_lower backend : Z) : result (ndarray C) :=
  if streq method "jax_ssht" then
    let* _ := checks3 method sampling N in inverse_jax_ssht lib flmn L N L_lower sampling reality backend
  else otf_wigner_inverse th flmn L N nside sampling method reality precomps L_lower.
Definition full_wigner_forward (lib : option pyssht) (gl : gl_rule) (th : theta_fn) (f : ndarray C) (L N : Z) (nside : option Z)
    (sampling method : string) (reality : bool) (precomps : option wigner_pre) (L_lower backend : Z) : result (ndarray C) :=
  if streq method "jax_ssht" then
    let* _ := checks3 method sampling N in forward_jax_ssht lib f L N L_lower sampling reality backend
  else otf_wigner_forward gl th f L N nside sampling method reality precomps L_lower.
