(** Model of the on-the-fly transforms s2fft/transforms/spherical.py. The colatitudes come from an
    arbitrary function th (samples.thetas with its rounding); quadrature weights and longitudes are exact.
    The option spmd (several devices) is in Model/Spmd.v, the CUDA primitive in Model/JaxCuda.v; the C backends are not modelled here. *)
From Coq Require Import Reals.
From Coquelicot Require Import Complex.
From Verif Require Import Lib.Py Lib.Vec Lib.Sums Lib.Cplx Lib.Arr Lib.Ext Model.Index Model.Samples Model.Grids
  Model.FFT Model.HealpixFFT Model.Turok Model.Resampling Model.Quadrature Model.Spherical Model.Precompute Model.Refine
  Model.PriceMcEwen Model.OTF.
Open Scope string_scope.
Open Scope Z_scope.

(** The array as complex numbers. Infinities and NaN are not followed any further: OtherError stands
    for arrays that hold some. *)
Definition finite_at (z : ecx) : bool := is_fin (fst z) && is_fin (snd z).
Definition cval (z : ecx) : C := match z with (Fin a, Fin b) => (a, b) | _ => RtoC 0 end.
Definition finite2 (a : ndarray ecx) : result (ndarray C) :=
  if forallb (fun i => forallb (fun j => finite_at (at2 a i j)) (zrange 0 (dim1 a))) (zrange 0 (dim0 a))
  then Ok (mat (dim0 a) (dim1 a) (fun i j => cval (at2 a i j))) else Err OtherError.

(** Multiplication by a real number and conjugation, part by part *)
Definition rscale (r : R) (z : ecx) : ecx := (emul (Fin r) (fst z), emul (Fin r) (snd z)).
Definition econj (z : ecx) : ecx := (fst z, eopp (snd z)).

(** a[L0:] = np.einsum("lm,l->lm", a[L0:], np.sqrt((2 * np.arange(L0, L) + 1) / (4 * np.pi))):
    spherical.py:166-168, 281-288, 574-576, 733-740. The slice must have the L - L0 rows of the factors. *)
Definition normalise {T} (scale : R -> T -> T) (a : ndarray T) (L L0 : Z) : result (ndarray T) :=
  let lo := slice_lo (dim0 a) L0 in
  if negb (slice_len (dim0 a) L0 (dim0 a) =? Z.max 0 (L - L0)) then Err ValueError
  else Ok (mat (dim0 a) (dim1 a) (fun el j => if lo <=? el then scale (elfactor (L0 + (el - lo))) (at2 a el j) else at2 a el j)).
Definition cscale (r : R) (z : C) : C := (z * RtoC r)%C.

(** ftm[:, m_start_ind + m_offset :] *= phase_shifts: spherical.py:189, 330, 546, 692 *)
Definition mul_phases (a : ndarray C) (c0 : Z) (ph : ndarray C) : result (ndarray C) :=
  let s := slice2 a 0 (dim0 a) c0 (dim1 a) in
  let* v := mmul Cmult s ph in
  slice2_set a 0 (dim0 a) c0 (dim1 a) v.

(** ftm[:, m_offset : L - 1 + m_offset] = np.flip(np.conj(ftm[:, L - 1 + m_offset + 1 :]), axis=-1):
    spherical.py:195-197, 335-337 *)
Definition mirror_orders (a : ndarray C) (L mo : Z) : result (ndarray C) :=
  slice2_set a 0 (dim0 a) mo (L - 1 + mo) (flip1 (mscal Cconj (slice2 a 0 (dim0 a) (L - 1 + mo + 1) (dim1 a)))).

(** spherical.py:187-189, 328-330, 544-546, 690-692: the phases of the HEALPix rings *)
Definition shift_rings (a : ndarray C) (L : Z) (sampling : string) (nside : option Z) (forward reality : bool) (c0 : Z)
    : result (ndarray C) :=
  if is_hp sampling then
    let* n := need nside in
    let* ph := ring_phase_shifts_hp L n forward reality in
    mul_phases a c0 ph
  else Ok a.

(** spherical.py:112-208 inverse_numpy *)
Definition inverse_numpy (th : theta_fn) (flm : ndarray C) (L spin : Z) (nside : option Z) (sampling : string)
    (reality : bool) (precomps : option pm_pre) (L_lower : Z) : result (ndarray C) :=
  let* ths := th L sampling nside in
  let mo := l_offset sampling in
  let ms := if reality then L - 1 else 0 in
  let* flm := normalise cscale flm L L_lower in
  let* ftm := inverse_latitudinal_step th flm ths L spin nside sampling reality precomps L_lower in
  let* ftm := set_poles ftm flm L spin sampling L_lower in
  let* ftm := finite2 ftm in
  let* ftm := shift_rings ftm L sampling nside false reality (ms + mo) in
  let ftm := mscal (fun z => (z * RtoC (m1 spin))%C) ftm in
  if is_hp sampling then
    let* ftm := (if reality then mirror_orders ftm L mo else Ok ftm) in
    let* n := need nside in
    let* (_, f) := healpix_ifft (RtoC 0) Cplus ifft_fwd irfft_fwd (to_rows ftm) L n "numpy" reality in
    Ok (of_vec f)
  else if reality then
    let* nphi := nphi_equiang (Some L) sampling in
    Ok (map_rows (fun r => irfft_fwd r nphi) (slice2 ftm 0 (dim0 ftm) (L - 1 + mo) (dim1 ftm)))
  else Ok (map_rows (fun r => ifft_fwd (ifftshift r)) ftm).

(** spherical.py:211-346 inverse_jax; the rings at the poles are set inside the step. The custom
    derivative of lines 290-325 does not change the value. *)
Definition inverse_jax (th : theta_fn) (flm : ndarray C) (L spin : Z) (nside : option Z) (sampling : string)
    (reality : bool) (precomps : option pm_pre) (L_lower : Z) : result (ndarray C) :=
  let* ths := th L sampling nside in
  let mo := l_offset sampling in
  let ms := if reality then L - 1 else 0 in
  let* flm := normalise cscale flm L L_lower in
  let* ftm := inverse_latitudinal_step_jax th flm ths L spin nside sampling reality precomps L_lower in
  let* ftm := finite2 ftm in
  let* ftm := shift_rings ftm L sampling nside false reality (ms + mo) in
  let ftm := mscal (fun z => (z * RtoC (m1 (Z.abs spin)))%C) ftm in
  let* ftm := (if reality then mirror_orders ftm L mo else Ok ftm) in
  if is_hp sampling then
    let* n := need nside in
    let* (_, f) := healpix_ifft (RtoC 0) Cplus ifft_fwd irfft_fwd (to_rows ftm) L n "jax" false in
    Ok (of_vec f)
  else
    let f := map_rows (fun r => vmap Cconj (fft_bwd (vmap Cconj (ifftshift r)))) ftm in
    Ok (if reality then areal f else f).

(** spherical.py:511-519 / 655-663: resampling and colatitudes. The input is two-dimensional unless the
    sampling is HEALPix. *)
Definition otf_prepare (b : backend) (th : theta_fn) (f : ndarray C) (L spin : Z) (sampling : string) (nside : option Z)
    : result (ndarray C * string * vec R) :=
  let* f := (if streq (lower sampling) "mw" then mw_to_mwss b f L spin else Ok f) in
  if str_in (lower sampling) ["mw"; "mwss"] then
    let* f := upsample_by_two_mwss b f L spin in
    let* ths := th (2 * L) "mwss" None in
    Ok (f, "mwss", ths)
  else let* ths := th L sampling nside in Ok (f, sampling, ths).

(** spherical.py:528-538 / 671-684: the ring transforms; np.real(f) discards imaginary parts before rfft *)
Definition otf_analysis (b : backend) (f : ndarray C) (L : Z) (sampling : string) (nside : option Z) (reality : bool)
    : result (ndarray C) :=
  let mo := m_offset sampling in
  if is_hp sampling then
    let* n := need nside in
    let* ftm := healpix_fft (RtoC 0) fft_bwd rfft_bwd (to_vec f) L n (backend_name b) reality in
    Ok (of_rows (2 * L) ftm)
  else if reality then
    let t := map_rows rfft_bwd (areal f) in
    let t := if negb (mo =? 0) then slice2 t 0 (dim0 t) 0 (-1) else t in
    slice2_set (czeros (dim0 f) (dim1 f)) 0 (dim0 f) (L - 1 + mo) (dim1 f) t
  else Ok (map_rows (fun r => fftshift (fft_bwd r)) f).

(** np.einsum("tm,t->tm", ftm, weights): spherical.py:541, 687 *)
Definition weigh (ftm : ndarray C) (w : vec R) : result (ndarray C) :=
  if dim0 ftm =? vlen w then Ok (mat (dim0 ftm) (dim1 ftm) (fun t c => (at2 ftm t c * RtoC (vat w t))%C)) else Err ValueError.

(** flm[..., :L - 1] = np.flip((-1) ** (np.arange(1, L) % 2) * np.conj(flm[..., L:]), axis=-1):
    spherical.py:580-583, 744-749 *)
Definition mirror_real (flm : ndarray ecx) (L ms : Z) : result (ndarray ecx) :=
  let up := slice2 flm 0 (dim0 flm) (ms + 1) (dim1 flm) in
  if negb (dim1 up =? Z.max 0 (L - 1)) then Err ValueError
  else slice2_set flm 0 (dim0 flm) 0 ms
         (flip1 (mat (dim0 up) (dim1 up) (fun el i => rscale (m1 ((1 + i) mod 2)) (econj (at2 up el i))))).

(** flm[:k] = 0.0 for 0 <= k: spherical.py:586; rows with index below k: lines 752-753 *)
Definition clear_rows (flm : ndarray ecx) (k : Z) : ndarray ecx :=
  mat (dim0 flm) (dim1 flm) (fun el j => if el <? k then fin (RtoC 0) else at2 flm el j).

(** spherical.py:467-588 forward_numpy *)
Definition forward_numpy (gl : gl_rule) (th : theta_fn) (f : ndarray C) (L spin : Z) (nside : option Z) (sampling : string)
    (reality : bool) (precomps : option pm_pre) (L_lower : Z) : result (ndarray C) :=
  let* (fs, ths) := otf_prepare numpy th f L spin sampling nside in
  let '(f, sampling) := fs in
  let* weights := quad_weights_transform gl L sampling 0 nside in
  let mo := m_offset sampling in
  let ms := if reality then L - 1 else 0 in
  let* ftm := otf_analysis numpy f L sampling nside reality in
  let* ftm := weigh ftm weights in
  let* ftm := shift_rings ftm L sampling nside true reality (ms + mo) in
  let* flm := (if streq (lower sampling) "mwss"
               then forward_latitudinal_step th (slice2 ftm 1 (-1) 0 (dim1 ftm)) (vslice ths 1 (-1)) L spin nside sampling
                      reality precomps L_lower
               else forward_latitudinal_step th ftm ths L spin nside sampling reality precomps L_lower) in
  let* flm := (if streq (lower sampling) "mwss"
               then let* flm := add_south flm ftm L spin mo L_lower in add_north flm ftm L spin mo L_lower
               else Ok flm) in
  let* flm := normalise rscale flm L L_lower in
  let* flm := (if reality then mirror_real flm L ms else Ok flm) in
  let flm := clear_rows flm (Z.max (Z.abs spin) L_lower) in
  let* flm := finite2 flm in
  Ok (mscal (fun z => (z * RtoC (m1 spin))%C) flm).

(** spherical.py:591-755 forward_jax; the poles are added inside the step. The weights of
    quadrature_jax.py:10-51 are computed term by term as in quadrature.py with spin = 0. *)
Definition forward_jax (gl : gl_rule) (th : theta_fn) (f : ndarray C) (L spin : Z) (nside : option Z) (sampling : string)
    (reality : bool) (precomps : option pm_pre) (L_lower : Z) : result (ndarray C) :=
  let* (fs, ths) := otf_prepare jax th f L spin sampling nside in
  let '(f, sampling) := fs in
  let* weights := quad_weights_transform gl L sampling 0 nside in
  let mo := m_offset sampling in
  let ms := if reality then L - 1 else 0 in
  let* ftm := otf_analysis jax f L sampling nside reality in
  let* ftm := weigh ftm weights in
  let* ftm := shift_rings ftm L sampling nside true reality (ms + mo) in
  let* flm := forward_latitudinal_step_jax th ftm ths L spin nside sampling reality precomps L_lower in
  let* flm := normalise rscale flm L L_lower in
  let* flm := (if reality then mirror_real flm L ms else Ok flm) in
  let flm := clear_rows flm (Z.abs spin) in
  let* flm := finite2 flm in
  Ok (mscal (fun z => (z * RtoC (m1 (Z.abs spin)))%C) flm).

(** ** The entry points *)
(** The tables of methods, spherical.py:761-777; "torch" converts its arguments, calls the JAX function
    and converts the result (s2fft/utils/torch_wrapper.py), modelled as that call. *)
Definition known_method (method : string) : bool := str_in method ["numpy"; "jax"; "jax_cuda"; "jax_ssht"; "jax_healpy"; "torch"].
Definition recursive_method (method : string) : bool := str_in method ["numpy"; "jax"; "jax_cuda"; "torch"].
(** The checks on the samplings of the C backends, spherical.py:95-105 = 439-449. list.index raises
    ValueError as well. *)
Definition backend_checks (method sampling : string) : result unit :=
  if streq method "jax_healpy" && negb (is_hp sampling) then Err ValueError
  else if streq method "jax_ssht" && is_hp sampling then Err ValueError
  else if streq method "jax_ssht" && negb (str_in (lower sampling) ["mw"; "mwss"; "dh"; "gl"]) then Err ValueError
  else Ok tt.
(** Backends outside Python: MissingDependency stands for what they do. "jax_cuda" differs from "jax" on
    HEALPix only. *)
Definition run_inverse (th : theta_fn) (method : string) (flm : ndarray C) (L spin : Z) (nside : option Z) (sampling : string)
    (reality : bool) (precomps : option pm_pre) (L_lower : Z) : result (ndarray C) :=
  if streq method "numpy" then inverse_numpy th flm L spin nside sampling reality precomps L_lower
  else if streq method "jax" || streq method "torch" || (streq method "jax_cuda" && negb (is_hp sampling))
  then inverse_jax th flm L spin nside sampling reality precomps L_lower
  else Err MissingDependency.
Definition run_forward (gl : gl_rule) (th : theta_fn) (method : string) (f : ndarray C) (L spin : Z) (nside : option Z) (sampling : string)
    (reality : bool) (precomps : option pm_pre) (L_lower : Z) : result (ndarray C) :=
  if streq method "numpy" then forward_numpy gl th f L spin nside sampling reality precomps L_lower
  else if streq method "jax" || streq method "torch" || (streq method "jax_cuda" && negb (is_hp sampling))
  then forward_jax gl th f L spin nside sampling reality precomps L_lower
  else Err MissingDependency.

(** spherical.py:21-109 inverse *)
Definition otf_inverse (th : theta_fn) (flm : ndarray C) (L spin : Z) (nside : option Z) (sampling method : string)
    (reality : bool) (precomps : option pm_pre) (L_lower : Z) : result (ndarray C) :=
  if negb (known_method method) then Err ValueError
  else if (8 <=? spin) && recursive_method method then Err WarningRaised
  else
    let* _ := backend_checks method sampling in
    run_inverse th method flm L spin nside sampling reality precomps L_lower.

(** spherical.py:352-464 forward. With iter > 0 the argument precomps is removed from the arguments of
    the inverse transform; the arguments of jax_ssht have none (KeyError). *)
Definition otf_forward (gl : gl_rule) (th : theta_fn) (f : ndarray C) (L spin : Z) (nside : option Z) (sampling method : string)
    (reality : bool) (precomps : option pm_pre) (L_lower : Z) (iter : option Z) : result (ndarray C) :=
  if negb (known_method method) then Err ValueError
  else if (8 <=? spin) && recursive_method method then Err WarningRaised
  else
    let n := match iter with Some n => n | None => if is_hp sampling && streq method "jax_healpy" then 3 else 0 end in
    let* _ := backend_checks method sampling in
    if (0 <? n) && negb (streq method "jax_healpy") then
      if streq method "jax_ssht" then Err KeyError
      else refine f n (fun f => run_forward gl th method f L spin nside sampling reality precomps L_lower)
                      (fun flm => run_inverse th method flm L spin nside sampling reality None L_lower)
    else run_forward gl th method f L spin nside sampling reality precomps L_lower.
