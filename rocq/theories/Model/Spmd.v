(** Model of the option spmd of the on-the-fly JAX transforms (s2fft/transforms/otf_recursions.py:356-394,
    805-861, s2fft/transforms/spherical.py:290-325, 694-730): the loop over the orders runs on all
    [ndev] = local_device_count() devices, each on its block. pmap runs the same function on every block and
    stacks the results; JAX traces the function once, on the shapes of a block, before anything runs. *)
From Coq Require Import Reals.
From Coquelicot Require Import Complex.
From Verif Require Import Lib.Py Lib.Vec Lib.Sums Lib.Cplx Lib.Arr Lib.Ext Model.Index Model.Samples Model.Grids
  Model.FFT Model.HealpixFFT Model.Turok Model.Resampling Model.Quadrature Model.Spherical Model.Precompute Model.Refine
  Model.PriceMcEwen Model.OTF Model.OTFSpherical.
Open Scope string_scope.
Open Scope Z_scope.

(** ** The two parts of a half of the recursion (Model/OTF.v has them in one) *)
Definition pm_state (A : Type) : Type := (A * plane * plane * plane * plane)%type.
Definition pm_factor (d : plane) (v : Z -> R) (lr : plane) : plane := fun j k => emul (emul (d j k) (Fin (v k))) (eexp (lr j k)).
(** otf_recursions.py:261-304, 689-740: the first two orders, on the whole arrays *)
Definition pm_head {A} (emit : A -> Z -> Z -> Z -> plane -> result A) (pre : pm_pre) (beta : vec R) (L L0 mm i : Z) (acc : A)
    : result (pm_state A) :=
  let nl := L - L0 in
  let lind := L - 1 - L0 in
  let sind := if i =? 0 then 0 else -1 in
  let sg := if i =? 0 then 1 else -1 in
  let* cp0 := vread (pm_cpi pre) 0 in
  let it0 : plane := fun _ _ => Fin 1 in
  let it1 : plane := fun j k => if slice_lo nl lind <=? k
                                then emul (cp0 k) (emul (it0 j k) (pm_lamb beta L L0 mm i 1 j k)) else Fin 1 in
  let lr := pm_lrenorm pre i in
  let* v0 := vread (pm_vsign pre) sind in
  let* acc := emit acc sind lind (lind + L0) (pm_factor it0 v0 lr) in
  let* v1 := vread (pm_vsign pre) (sind + sg) in
  let* acc := emit acc (sind + sg) (lind - 1) (lind - 1 + L0) (pm_factor it1 v1 lr) in
  Ok (acc, fun _ _ => Fin 0, it0, it1, lr).
(** otf_recursions.py:306-356, 742-803 pm_recursion_step; [lamb] is lamb of step m on the shapes of the caller *)
Definition pm_body {A} (emit : A -> Z -> Z -> Z -> plane -> result A) (one : Z -> Z -> pm_pre -> Z -> Z -> Z -> bool)
    (pre : pm_pre) (lamb : Z -> plane) (L L0 i : Z) (st : pm_state A) (m : Z) : result (pm_state A) :=
  let sind := if i =? 0 then 0 else -1 in
  let sg := if i =? 0 then 1 else -1 in
  let '(acc, dl, it0, it1, lr) := st in
  let index j k := L - m - 1 <=? pm_indices pre j k in
  let* cp := vread (pm_cpi pre) (m - 1) in
  let* cq := vread (pm_cp2 pre) (m - 1) in
  let* v := vread (pm_vsign pre) (sind + sg * m) in
  let dl : plane := fun j k =>
    if index j k
    then esub (emul (cp k) (emul (it1 j k) (lamb m j k))) (emul (cq k) (it0 j k))
    else dl j k in
  let dl : plane := fun j k => if one L L0 pre m j k then Fin 1 else dl j k in
  let* acc := emit acc (sind + sg * m) 0 L0 (pm_factor dl v lr) in
  let bigi j k := ediv (Fin 1) (eabs (dl j k)) in
  let lbig j k := elog (eabs (dl j k)) in
  let it0' : plane := fun j k => if index j k then emul (bigi j k) (it1 j k) else it0 j k in
  let it1' : plane := fun j k => if index j k then emul (bigi j k) (dl j k) else it1 j k in
  let lr' : plane := fun j k => if index j k then eadd (lr j k) (lbig j k) else lr j k in
  Ok (acc, dl, it0', it1', lr').
(** lax.fori_loop(2, L - 1 + i, pm_recursion_step, ...), of which the array is returned (lines 360-377, 807-837) *)
Definition pm_loop {A} emit one pre lamb (L L0 i : Z) (st : pm_state A) : result A :=
  let* st := foldM (pm_body emit one pre lamb L L0 i) (zrange 2 (L - 1 + i)) st in
  let '(acc, _, _, _, _) := st in Ok acc.

(** The devices one after the other; what they compute does not depend on the order. *)
Definition on_devices {T} (ndev : Z) (run : Z -> result T) : result (list T) :=
  foldM (fun acc d => let* x := run d in Ok (acc ++ [x])%list) (zrange 0 ndev) [].
(** .reshape(n, m) of the stacked blocks of [ops] rows *)
Definition join_rows (n m ops : Z) (blocks : list (ndarray ecx)) : ndarray ecx :=
  mat n m (fun r c => at2 (nth (Z.to_nat (r / ops)) blocks (mat 0 0 (fun _ _ => (NaN, NaN)))) (r mod ops) c).

(** ** Inverse: blocks of rings *)
(** Block d of .reshape(ndev, ops, ...) along the rings *)
Definition block_plane (d ops : Z) (p : plane) : plane := fun j k => p (d * ops + j) k.
Definition block_rows (d ops : Z) (a : ndarray ecx) : ndarray ecx := mat ops (dim1 a) (fun r c => at2 a (d * ops + r) c).
Definition block_angles (d ops : Z) (beta : vec R) : vec R := mkVec ops (fun j => vat beta (d * ops + j)).
Definition block_pre (d ops : Z) (pre : pm_pre) : pm_pre :=
  mkPre ops (pm_nl pre) (fun i => block_plane d ops (pm_lrenorm pre i)) (pm_vsign pre) (pm_cpi pre) (pm_cp2 pre)
    (fun j k => pm_indices pre (d * ops + j) k).
(** otf_recursions.py:259-394 for one i. opsdevice = int(ntheta / ndevices); jnp.reshape raises TypeError when
    the sizes differ. flm, vsign, cpi and cp2 are not divided; lamb is computed from the block of angles. *)
Definition inverse_half_spmd (ndev : Z) (flm : ndarray C) (mo : Z) (pre : pm_pre) (beta : vec R) (L L0 mm i : Z)
    (ftm : ndarray ecx) : result (ndarray ecx) :=
  let nt := vlen beta in
  let* st := pm_head (inv_emit flm nt (L - L0) mo) pre beta L L0 mm i ftm in
  let '(ftm, dl, it0, it1, lr) := st in
  let ops := nt / ndev in
  if negb (ndev * ops =? nt) then Err TypeError
  else
    let* blocks := on_devices ndev (fun d =>
      pm_loop (inv_emit flm ops (L - L0) mo) one_by_position (block_pre d ops pre) (pm_lamb (block_angles d ops beta) L L0 mm i) L L0 i
        (block_rows d ops ftm, block_plane d ops dl, block_plane d ops it0, block_plane d ops it1, block_plane d ops lr)) in
    Ok (join_rows nt (dim1 ftm) ops blocks).
(** otf_recursions.py:174-429 inverse_latitudinal_step_jax with spmd = True *)
Definition inverse_step_spmd (ndev : Z) (th : theta_fn) (flm : ndarray C) (beta : vec R) (L spin : Z) (nside : option Z) (sampling : string)
    (reality : bool) (precomps : option pm_pre) (L0 : Z) : result (ndarray ecx) :=
  let m_count := if str_in (lower sampling) ["mwss"; "healpix"] then 2 * L else 2 * L - 1 in
  let* pre := match precomps with
              | None => generate_precomputes_jax th L spin sampling nside false L0 (Some beta)
              | Some p => Ok p end in
  let* _ := pre_fits pre beta L L0 in
  let half i := inverse_half_spmd ndev flm (half_offset sampling i) pre beta L L0 (- spin) i in
  let* ftm := (if reality then Ok (zeros (fin (RtoC 0)) [vlen beta; m_count]) else half 0 (zeros (fin (RtoC 0)) [vlen beta; m_count])) in
  let* ftm := half 1 ftm in
  set_poles ftm flm L spin sampling L0.

(** ** Forward: blocks of degrees *)
(** Block d of .reshape(..., ndev, ops) along the degrees *)
Definition column_plane (d ops : Z) (p : plane) : plane := fun j k => p j (d * ops + k).
Definition column_vec {T} (d ops : Z) (v : vec (Z -> T)) : vec (Z -> T) := vmap (fun (row : Z -> T) k => row (d * ops + k)) v.
Definition column_pre (d ops : Z) (pre : pm_pre) : pm_pre :=
  mkPre (pm_nt pre) ops (fun i => column_plane d ops (pm_lrenorm pre i)) (column_vec d ops (pm_vsign pre))
    (column_vec d ops (pm_cpi pre)) (column_vec d ops (pm_cp2 pre)) (fun j k => pm_indices pre j (d * ops + k)).
(** flm.at[L_lower:].set(a) *)
Definition set_from (L0 : Z) (flm a : ndarray ecx) : ndarray ecx :=
  mat (dim0 flm) (dim1 flm) (fun r c => if L0 <=? r then at2 a (r - L0) c else at2 flm r c).
(** Tracing pm_recursion_step on a block: the degrees el, half_slices and with them lamb are those of the
    enclosing function, all L - L_lower of them (lines 672, 755-760), while dl_iter holds the [ops] degrees of the
    block. dl_iter[1] * lamb must broadcast (TypeError otherwise); its length n is that of dl_entry and of the sums, which
    must fit into the [ops] rows of flm (ValueError otherwise). *)
Definition trace_block (ops nl : Z) : result unit :=
  let* n := match blen ops nl with Ok n => Ok n | Err _ => Err TypeError end in
  if (n =? ops) || (n =? 1) then Ok tt else Err ValueError.
(** otf_recursions.py:687-861 for one i *)
Definition forward_half_spmd (ndev : Z) (ftm : ndarray C) (mo : Z) (pre : pm_pre) (beta : vec R) (L L0 mm i : Z)
    (flm : ndarray ecx) : result (ndarray ecx) :=
  let nt := vlen beta in
  let nl := L - L0 in
  let* st := pm_head (fwd_emit ftm nt nl mo) pre beta L L0 mm i flm in
  let '(flm, dl, it0, it1, lr) := st in
  let ops := nl / ndev in
  if negb (ndev * ops =? nl) then Err TypeError
  else
    let* _ := trace_block ops nl in
    let* blocks := on_devices ndev (fun d =>
      pm_loop (fun acc idx lo rlo P => fwd_emit ftm nt ops mo acc idx lo (rlo - L0) P) one_by_index (column_pre d ops pre)
        (pm_lamb beta L L0 mm i) L L0 i
        (mat ops (dim1 flm) (fun r c => at2 flm (L0 + d * ops + r) c), column_plane d ops dl, column_plane d ops it0,
         column_plane d ops it1, column_plane d ops lr)) in
    Ok (set_from L0 flm (join_rows nl (dim1 flm) ops blocks)).
(** otf_recursions.py:591-886 forward_latitudinal_step_jax with spmd = True *)
Definition forward_step_spmd (ndev : Z) (th : theta_fn) (ftm_in : ndarray C) (beta_in : vec R) (L spin : Z) (nside : option Z) (sampling : string)
    (reality : bool) (precomps : option pm_pre) (L0 : Z) : result (ndarray ecx) :=
  let '(ftm, beta) :=
    if streq (lower sampling) "mwss" then (slice2 ftm_in 1 (-1) 0 (dim1 ftm_in), vslice beta_in 1 (-1))
    else if streq (lower sampling) "mw" then (slice2 ftm_in 0 (-1) 0 (dim1 ftm_in), vslice beta_in 0 (-1))
    else (ftm_in, beta_in) in
  let* pre := match precomps with
              | None => generate_precomputes_jax th L spin sampling nside true L0 (Some beta)
              | Some p => Ok p end in
  let* _ := pre_fits pre beta L L0 in
  let half i := forward_half_spmd ndev ftm (half_offset sampling i) pre beta L L0 (- spin) i in
  let* flm := (if reality then Ok (zeros (fin (RtoC 0)) (flm_shape L)) else half 0 (zeros (fin (RtoC 0)) (flm_shape L))) in
  let* flm := half 1 flm in
  let mo := l_offset sampling in
  let* flm := (if str_in (lower sampling) ["mw"; "mwss"] then add_south flm ftm_in L spin mo L0 else Ok flm) in
  if streq (lower sampling) "mwss" then add_north flm ftm_in L spin mo L0 else Ok flm.

(** ** The transforms *)
(** spherical.py:211-346 inverse_jax with spmd = True (Model/OTFSpherical.v with the step above) *)
Definition inverse_jax_spmd (ndev : Z) (th : theta_fn) (flm : ndarray C) (L spin : Z) (nside : option Z) (sampling : string)
    (reality : bool) (precomps : option pm_pre) (L_lower : Z) : result (ndarray C) :=
  let* ths := th L sampling nside in
  let mo := l_offset sampling in
  let ms := if reality then L - 1 else 0 in
  let* flm := normalise cscale flm L L_lower in
  let* ftm := inverse_step_spmd ndev th flm ths L spin nside sampling reality precomps L_lower in
  let* ftm := finite2 ftm in
  let* ftm := shift_rings ftm L sampling nside false reality (ms + mo) in
  let ftm := mscal (fun z => (z * RtoC (m1 (Z.abs spin)))%C) ftm in
  let* ftm := (if reality then mirror_orders ftm L mo else Ok ftm) in
  if is_hp sampling then
    let* n := need nside in
    let* (_, f) := healpix_ifft (RtoC 0) Cplus ifft_fwd irfft_fwd (to_rows ftm) L n "jax" false in
    Ok (of_vec f)
  else
    let f := map_rows (fun r => vmap Cconj (fft_bwd (vmap Cconj (ifftshift r)))) ftm in
    Ok (if reality then areal f else f).
(** spherical.py:591-755 forward_jax with spmd = True *)
Definition forward_jax_spmd (ndev : Z) (gl : gl_rule) (th : theta_fn) (f : ndarray C) (L spin : Z) (nside : option Z) (sampling : string)
    (reality : bool) (precomps : option pm_pre) (L_lower : Z) : result (ndarray C) :=
  let* (fs, ths) := otf_prepare jax th f L spin sampling nside in
  let '(f, sampling) := fs in
  let* weights := quad_weights_transform gl L sampling 0 nside in
  let mo := m_offset sampling in
  let ms := if reality then L - 1 else 0 in
  let* ftm := otf_analysis jax f L sampling nside reality in
  let* ftm := weigh ftm weights in
  let* ftm := shift_rings ftm L sampling nside true reality (ms + mo) in
  let* flm := forward_step_spmd ndev th ftm ths L spin nside sampling reality precomps L_lower in
  let* flm := normalise rscale flm L L_lower in
  let* flm := (if reality then mirror_real flm L ms else Ok flm) in
  let flm := clear_rows flm (Z.abs spin) in
  let* flm := finite2 flm in
  Ok (mscal (fun z => (z * RtoC (m1 (Z.abs spin)))%C) flm).
(** spherical.py:21-109 inverse and 352-464 forward, method "jax" or "torch", spmd = True *)
Definition otf_inverse_spmd (ndev : Z) (th : theta_fn) (flm : ndarray C) (L spin : Z) (nside : option Z) (sampling : string)
    (reality : bool) (precomps : option pm_pre) (L_lower : Z) : result (ndarray C) :=
  if 8 <=? spin then Err WarningRaised else inverse_jax_spmd ndev th flm L spin nside sampling reality precomps L_lower.
Definition otf_forward_spmd (ndev : Z) (gl : gl_rule) (th : theta_fn) (f : ndarray C) (L spin : Z) (nside : option Z) (sampling : string)
    (reality : bool) (precomps : option pm_pre) (L_lower : Z) (iter : option Z) : result (ndarray C) :=
  if 8 <=? spin then Err WarningRaised
  else
    let n := match iter with Some n => n | None => 0 end in
    if 0 <? n
    then refine f n (fun f => forward_jax_spmd ndev gl th f L spin nside sampling reality precomps L_lower)
                    (fun flm => inverse_jax_spmd ndev th flm L spin nside sampling reality None L_lower)
    else forward_jax_spmd ndev gl th f L spin nside sampling reality precomps L_lower.

(** The derivative registered for the latitudinal step of the inverse transform, applied to the cotangent gtm:
    f_bwd, spherical.py:310-322 *)
Definition inverse_step_vjp_spmd (ndev : Z) (th : theta_fn) (gtm : ndarray C) (ths : vec R) (L spin : Z) (nside : option Z) (sampling : string)
    (reality : bool) (L_lower : Z) : result (ndarray ecx) :=
  forward_step_spmd ndev th gtm ths L spin nside sampling reality None L_lower.
