(** Model of the HEALPix ring transforms through the JAX primitive "healpix_fft_cuda"
    (s2fft/utils/healpix_ffts.py:546-693, s2fft/utils/jax_primitive.py) and of the transforms
    method = "jax_cuda" of s2fft/transforms/spherical.py on HEALPix maps.

    The device side (kernels, plans, plan cache) is Model/Cuda.v. A call is a relation: it holds between
    the state of the plan cache before and after, the uninitialised output buffer, the buffer of the
    operand after the call, and the result. The schedule of the threads is what makes it a relation.
    Not modelled: the compiler XLA itself, streams and launch errors, a build without CUDA (whose functions
    throw std::runtime_error), the option spmd. *)
From Coq Require Import Reals.
From Coquelicot Require Import Complex.
From Verif Require Import Lib.Py Lib.Vec Lib.Sums Lib.Cplx Lib.Arr Lib.Ext Model.Index Model.Samples Model.Grids
  Model.FFT Model.HealpixFFT Model.Cuda Model.Turok Model.Resampling Model.Quadrature Model.Spherical Model.Precompute
  Model.Refine Model.PriceMcEwen Model.OTF Model.OTFSpherical.
Open Scope string_scope.
Open Scope Z_scope.

(** ** The rules a primitive is registered with (s2fft/utils/jax_primitive.py:8-48) *)
(** Registered are the evaluation, the shape rule and the lowering; the other rules only when given. *)
Record rules := mkRules { has_batching : bool; has_jvp : bool; has_transpose : bool }.
Definition register_primitive (batcher jacobian_vector_product transpose : bool) : rules :=
  mkRules batcher jacobian_vector_product transpose.
(** healpix_ffts.py:613-618: _healpix_fft_cuda_primitive *)
Definition primitive_rules : rules := register_primitive false false false.
(** jax.vmap, jax.jvp and jax.grad apply the rules of the primitive; a missing one raises
    NotImplementedError (OtherError here). Reverse mode needs the linearisation first. *)
Inductive jax_transformation := Vmap | Jvp | Grad.
Definition apply_transformation (r : rules) (t : jax_transformation) : result unit :=
  let ok (b : bool) := if b then Ok tt else Err OtherError in
  match t with Vmap => ok (has_batching r) | Jvp => ok (has_jvp r) | Grad => ok (has_jvp r && has_transpose r) end.

(** ** Shapes and types *)
(** The types of arrays, with 64-bit types enabled *)
Inductive dtype := Int64 | Float32 | Float64 | Complex64 | Complex128.
Definition is_complex (d : dtype) : bool := match d with Complex64 | Complex128 => true | _ => false end.
(** jax.numpy promote_dtypes_complex, used at healpix_ffts.py:645, 675 *)
Definition promote_complex (d : dtype) : dtype :=
  match d with Float32 | Complex64 => Complex64 | Int64 | Float64 | Complex128 => Complex128 end.

Fixpoint zlist_eqb (a b : list Z) : bool :=
  match a, b with
  | [], [] => true
  | x :: a, y :: b => (x =? y) && zlist_eqb a b
  | _, _ => false
  end.
(** healpix_ffts.py:549-563 _healpix_fft_cuda_abstract: the shape of the output; the printing is left out *)
Definition abstract_eval (sh : list Z) (L nside : Z) (fft_type : string) : result (list Z) :=
  let healpix_size := [nside * nside * 12] in
  let ftm_size := [4 * nside - 1; 2 * L] in
  if streq fft_type "forward" then
    if zlist_eqb sh healpix_size then Ok ftm_size else Err AssertionError
  else if streq fft_type "backward" then
    if zlist_eqb sh ftm_size then Ok healpix_size else Err AssertionError
  else Err ValueError.

(** healpix_ffts.py:585-592: the flag normalize *)
Definition normalize_flag (forward : bool) (norm : string) : result bool :=
  if (forward && streq norm "backward") || (negb forward && streq norm "forward") then Ok false
  else if (forward && streq norm "forward") || (negb forward && streq norm "backward") then Ok true
  else Err ValueError.

(** healpix_ffts.py:566-606 _healpix_fft_cuda_lowering: the descriptor of the custom call. Building it
    initialises plans. The layouts, row-major on both sides, are in [ravel] and [unravel]. *)
Definition lowering (d : dtype) (L nside : Z) (reality : bool) (fft_type norm : string) (w : world)
    : result (descriptor * world) :=
  let* is_double := (match d with Complex64 => Ok false | Complex128 => Ok true | _ => Err ValueError end) in
  let forward := streq fft_type "forward" in
  let* normalize := normalize_flag forward norm in
  Ok (build nside L reality forward normalize is_double w).

(** Row-major buffers of arrays of one or two dimensions *)
Definition ravel {T} (a : ndarray T) : vec T :=
  match shape a with
  | [n; m] => mkVec (n * m) (fun i => get a [i / m; i mod m])
  | _ => to_vec a
  end.
Definition unravel {T} (sh : list Z) (v : vec T) : ndarray T :=
  match sh with
  | [n; m] => mat n m (fun i j => vat v (i * m + j))
  | _ => mkArr sh (fun ix => vat v (nth 0 ix 0))
  end.

Section Primitive.
  Context {A : Type} (add : A -> A -> A) (zero : A) (dft_fwd dft_inv : vec A -> vec A) (scale1 scale2 : Z -> A -> A).

  (** lib/src/extensions.cc:90-100 healpix_fft_cuda; the backward transform leaves the operand alone *)
  Definition custom_call (d : descriptor) (w : world) (data out0 : vec A) (w' : world) (data' out : vec A) : Prop :=
    if d_forward d then cuda_forward add zero dft_fwd scale1 scale2 d w data out0 w' data' out
    else data' = data /\ cuda_backward add zero dft_inv scale1 scale2 d w data out0 w' out.

  (** A jitted function around the primitive: the shape rule; then, unless an executable for these static
      arguments and this type exists ([compiled]), the lowering, which changes the plan cache; then the
      custom call. The arguments [w' buf' r] are the plan cache, the operand and the result afterwards. *)
  Definition bind_primitive (f : ndarray A) (d : dtype) (L nside : Z) (reality : bool) (fft_type norm : string)
      (compiled : bool) (w : world) (out0 : vec A) (w' : world) (buf' : vec A) (r : result (ndarray A)) : Prop :=
    match abstract_eval (shape f) L nside fft_type with
    | Err e => w' = w /\ buf' = ravel f /\ r = Err e
    | Ok sh =>
        match lowering d L nside reality fft_type norm w with
        | Err e => w' = w /\ buf' = ravel f /\ r = Err e
        | Ok (desc, wb) =>
            exists out, vlen out0 = fold_right Z.mul 1 sh /\
              custom_call desc (if compiled then w else wb) (ravel f) out0 w' buf' out /\
              r = Ok (unravel sh out)
        end
    end.

  (** healpix_ffts.py:621-648 healpix_fft_cuda (fft_type "forward", default norm "backward") and 651-678
      healpix_ifft_cuda ("backward", "forward"). Only arguments 1, 2 and 3 are static: a string given as
      [norm] is no array, so jit raises TypeError. An argument that is not complex is converted first:
      then the buffer that is overwritten is the converted copy. *)
  Definition device_call (fft_type default_norm : string) (f : ndarray A) (d : dtype) (L nside : Z) (reality : bool)
      (norm : option string) (compiled : bool) (w : world) (out0 : vec A) (w' : world) (f' : ndarray A)
      (r : result (ndarray A)) : Prop :=
    match norm with
    | Some _ => w' = w /\ f' = f /\ r = Err TypeError
    | None =>
        exists buf', bind_primitive f (promote_complex d) L nside reality fft_type default_norm compiled w out0 w' buf' r /\
          f' = if is_complex d then unravel (shape f) buf' else f
    end.
  Definition healpix_fft_cuda := device_call "forward" "backward".
  Definition healpix_ifft_cuda := device_call "backward" "forward".

  (** healpix_ffts.py:150-184 healpix_fft and 297-332 healpix_ifft, method = "cuda" *)
  Definition healpix_fft_on_device (f : ndarray A) (d : dtype) (L nside : Z) (reality compiled : bool) (w : world)
      (out0 : vec A) (w' : world) (f' : ndarray A) (r : result (ndarray A)) : Prop :=
    healpix_fft_cuda f d L nside reality None compiled w out0 w' f' r.
  Definition healpix_ifft_on_device (ftm : ndarray A) (d : dtype) (L nside : Z) (reality compiled : bool) (w : world)
      (out0 : vec A) (w' : world) (ftm' : ndarray A) (r : result (ndarray A)) : Prop :=
    if negb (2 * nside <=? L) then w' = w /\ ftm' = ftm /\ r = Err AssertionError
    else healpix_ifft_cuda ftm d L nside reality None compiled w out0 w' ftm' r.
End Primitive.

(** The device transforms of complex numbers: cuFFT without normalisation, and the two scalings of
    lib/src/s2fft_callbacks.cu *)
Definition over_n (n : Z) (x : C) : C := (x * RtoC (/ IZR n))%C.
Definition over_sqrt_n (n : Z) (x : C) : C := (x * RtoC (/ sqrt (IZR n)))%C.
Definition device_fft := healpix_fft_on_device Cplus (RtoC 0) fft_bwd ifft_fwd over_n over_sqrt_n.
Definition device_ifft := healpix_ifft_on_device Cplus (RtoC 0) fft_bwd ifft_fwd over_n over_sqrt_n.

(** ** The transforms *)
(** spherical.py:278-337 inverse_jax up to the ring transforms *)
Definition inverse_rows (th : theta_fn) (flm : ndarray C) (L spin : Z) (nside : option Z) (sampling : string)
    (reality : bool) (precomps : option pm_pre) (L_lower : Z) : result (ndarray C) :=
  let* ths := th L sampling nside in
  let mo := l_offset sampling in
  let ms := if reality then L - 1 else 0 in
  let* flm := normalise cscale flm L L_lower in
  let* ftm := inverse_latitudinal_step_jax th flm ths L spin nside sampling reality precomps L_lower in
  let* ftm := finite2 ftm in
  let* ftm := shift_rings ftm L sampling nside false reality (ms + mo) in
  let ftm := mscal (fun z => (z * RtoC (m1 (Z.abs spin)))%C) ftm in
  if reality then mirror_orders ftm L mo else Ok ftm.

(** spherical.py:211-347 inverse_jax with use_healpix_custom_primitive = True, table entry line 764. The ring
    transform is called without the flag reality (line 340). The rows are a temporary complex array. *)
Definition inverse_jax_cuda (th : theta_fn) (flm : ndarray C) (L spin : Z) (nside : option Z) (sampling : string)
    (reality : bool) (precomps : option pm_pre) (L_lower : Z) (compiled : bool) (w : world) (out0 : vec C)
    (w' : world) (r : result (ndarray C)) : Prop :=
  if is_hp sampling then
    match inverse_rows th flm L spin nside sampling reality precomps L_lower, nside with
    | Err e, _ => w' = w /\ r = Err e
    | Ok _, None => w' = w /\ r = Err TypeError
    | Ok ftm, Some n => exists ftm', device_ifft ftm Complex128 L n false compiled w out0 w' ftm' r
    end
  else w' = w /\ r = inverse_jax th flm L spin nside sampling reality precomps L_lower.

(** spherical.py:686-755 forward_jax after the ring transforms *)
Definition forward_rest (th : theta_fn) (ftm : ndarray C) (ths weights : vec R) (L spin : Z) (nside : option Z)
    (sampling : string) (reality : bool) (precomps : option pm_pre) (L_lower : Z) : result (ndarray C) :=
  let mo := m_offset sampling in
  let ms := if reality then L - 1 else 0 in
  let* ftm := weigh ftm weights in
  let* ftm := shift_rings ftm L sampling nside true reality (ms + mo) in
  let* flm := forward_latitudinal_step_jax th ftm ths L spin nside sampling reality precomps L_lower in
  let* flm := normalise rscale flm L L_lower in
  let* flm := (if reality then mirror_real flm L ms else Ok flm) in
  let flm := clear_rows flm (Z.abs spin) in
  let* flm := finite2 flm in
  Ok (mscal (fun z => (z * RtoC (m1 (Z.abs spin)))%C) flm).

(** spherical.py:591-755 forward_jax with use_healpix_custom_primitive = True, table entry line 773: the map [f]
    has type [d] and holds [f'] afterwards. *)
Definition forward_jax_cuda (gl : gl_rule) (th : theta_fn) (f : ndarray C) (d : dtype) (L spin : Z) (nside : option Z)
    (sampling : string) (reality : bool) (precomps : option pm_pre) (L_lower : Z) (compiled : bool) (w : world)
    (out0 : vec C) (w' : world) (f' : ndarray C) (r : result (ndarray C)) : Prop :=
  if is_hp sampling then
    match (let* ths := th L sampling nside in
           let* weights := quad_weights_transform gl L sampling 0 nside in
           let* n := need nside in Ok (ths, weights, n)) with
    | Err e => w' = w /\ f' = f /\ r = Err e
    | Ok (ths, weights, n) =>
        exists r1, device_fft f d L n reality compiled w out0 w' f' r1 /\
          r = (let* ftm := r1 in forward_rest th ftm ths weights L spin nside sampling reality precomps L_lower)
    end
  else w' = w /\ f' = f /\ r = forward_jax gl th f L spin nside sampling reality precomps L_lower.

(** iterative_refinement.py:9-46 with the functions of this method: [k] further rounds from the coefficients [flm],
    where [f] is what the caller's array holds. The differences are new complex arrays; which calls find an
    executable and what the output buffers hold is not determined. *)
Fixpoint refine_device (gl : gl_rule) (th : theta_fn) (f : ndarray C) (L spin : Z) (nside : option Z) (sampling : string)
    (reality : bool) (precomps : option pm_pre) (L_lower : Z) (k : nat) (flm : ndarray C) (w w' : world)
    (r : result (ndarray C)) : Prop :=
  match k with
  | O => w' = w /\ r = Ok flm
  | S k =>
      exists c1 o1 w1 r1, inverse_jax_cuda th flm L spin nside sampling reality None L_lower c1 w o1 w1 r1 /\
      match (let* f_recov := r1 in asub f f_recov) with
      | Err e => w' = w1 /\ r = Err e
      | Ok f_error =>
          exists c2 o2 w2 e' r2,
            forward_jax_cuda gl th f_error Complex128 L spin nside sampling reality precomps L_lower c2 w1 o2 w2 e' r2 /\
            match (let* d := r2 in aadd flm d) with
            | Err e => w' = w2 /\ r = Err e
            | Ok flm => refine_device gl th f L spin nside sampling reality precomps L_lower k flm w2 w' r
            end
      end
  end.

(** The entry points, spherical.py:21-109 and 352-464, method = "jax_cuda". *)
Definition otf_inverse_cuda (th : theta_fn) (flm : ndarray C) (L spin : Z) (nside : option Z) (sampling : string)
    (reality : bool) (precomps : option pm_pre) (L_lower : Z) (compiled : bool) (w : world) (out0 : vec C)
    (w' : world) (r : result (ndarray C)) : Prop :=
  if 8 <=? spin then w' = w /\ r = Err WarningRaised
  else inverse_jax_cuda th flm L spin nside sampling reality precomps L_lower compiled w out0 w' r.
Definition otf_forward_cuda (gl : gl_rule) (th : theta_fn) (f : ndarray C) (d : dtype) (L spin : Z) (nside : option Z)
    (sampling : string) (reality : bool) (precomps : option pm_pre) (L_lower : Z) (iter : option Z) (compiled : bool)
    (w : world) (out0 : vec C) (w' : world) (f' : ndarray C) (r : result (ndarray C)) : Prop :=
  if 8 <=? spin then w' = w /\ f' = f /\ r = Err WarningRaised
  else
    let n := match iter with Some n => n | None => 0 end in
    if 0 <? n then
      exists w1 r1, forward_jax_cuda gl th f d L spin nside sampling reality precomps L_lower compiled w out0 w1 f' r1 /\
      match r1 with
      | Err e => w' = w1 /\ r = Err e
      | Ok flm => refine_device gl th f' L spin nside sampling reality precomps L_lower (Z.to_nat n) flm w1 w' r
      end
    else forward_jax_cuda gl th f d L spin nside sampling reality precomps L_lower compiled w out0 w' f' r.
