(** Model of the on-the-fly Wigner transforms s2fft/transforms/wigner.py. As in Model/OTFSpherical.v the
    colatitudes come from an arbitrary function th; the C backend behind "jax_ssht" is not modelled. *)
From Coq Require Import Reals.
From Coquelicot Require Import Complex.
From Verif Require Import Lib.Py Lib.Vec Lib.Sums Lib.Cplx Lib.Arr Lib.Ext Model.Index Model.Samples Model.Grids
  Model.FFT Model.Turok Model.Spherical Model.Precompute Model.PriceMcEwen Model.OTF Model.OTFSpherical Model.Wigner.
From Coq Require Import List.
Import ListNotations.
Open Scope string_scope.
Open Scope Z_scope.

(** l[i] for a Python list *)
Definition lread {T} (l : list T) (i : Z) : result T :=
  match norm_index (Z.of_nat (length l)) i with
  | None => Err IndexError
  | Some k => match nth_error l (Z.to_nat k) with Some x => Ok x | None => Err IndexError end
  end.

(** The argument precomps: the list of generate_precomputes_wigner for numpy, the five arrays of
    generate_precomputes_wigner_jax for JAX. Each is read by its own backend only: OtherError stands for
    the other combinations. *)
Inductive wigner_pre : Type := PreNumpy (l : list pm_pre) | PreJax (w : pm_pre_wigner).
(** wigner.py:164-167, 495-498 *)
Definition numpy_list (th : theta_fn) (L N : Z) (sampling : string) (nside : option Z) (forward reality : bool) (L_lower : Z)
    (precomps : option wigner_pre) : result (list pm_pre) :=
  match precomps with
  | None => generate_precomputes_wigner th L N sampling nside forward reality L_lower
  | Some (PreNumpy l) => Ok l
  | Some (PreJax _) => Err OtherError
  end.
(** wigner.py:252-255, 588-591 *)
Definition jax_arrays (th : theta_fn) (L N : Z) (sampling : string) (nside : option Z) (forward reality : bool) (L_lower : Z)
    (precomps : option wigner_pre) : result pm_pre_wigner :=
  match precomps with
  | None => generate_precomputes_wigner_jax th L N sampling nside forward reality L_lower
  | Some (PreJax w) => Ok w
  | Some (PreNumpy _) => Err OtherError
  end.
(** [p0[i], p1[i], precomps[2][0], precomps[3][0], precomps[4][0]]: wigner.py:265-283, 607-617 *)
Definition jax_entry (w : pm_pre_wigner) (i : Z) : result pm_pre :=
  let* r := lread (pw_rest w) 0 in
  let* p0 := lread (pw_lrenorm w) i in
  let* p1 := lread (pw_vsign w) i in
  Ok (mkPre (fst (fst p0)) (snd (fst p0)) (snd p0) p1 (fst (fst r)) (snd (fst r)) (snd r)).

(** a[:, L_lower:] = np.einsum("...nlm,...l->...nlm", a[:, L_lower:], w[L_lower:L]) for an array with axes
    n, l, m: wigner.py:173-177, 258-263, 527-531, 638-645. The slice must have L - L_lower rows. *)
Definition scale_degrees (a : ndarray C) (L L0 : Z) (w : Z -> R) : result (ndarray C) :=
  let lo := slice_lo (dim1 a) L0 in
  if negb (slice_len (dim1 a) L0 (dim1 a) =? Z.max 0 (L - L0)) then Err ValueError
  else Ok (mkArr (shape a) (fun ix => let l := nth 1 ix 0 in
             if lo <=? l then (get a ix * RtoC (w (L0 + (l - lo))%Z))%C else get a ix)).
Definition inv_scale (l : Z) : R := sqrt (IZR (2 * l + 1) / (16 * PI ^ 3)).
Definition fwd_scale (l : Z) : R := sqrt (4 * PI / IZR (2 * l + 1)).

(** wigner.py:188-193, 286-291: from the components in gamma to the samples. The transformed axis -2
    (HEALPix) or -3 is the first one. *)
Definition gamma_synthesis (fban : ndarray C) (N : Z) (reality : bool) : ndarray C :=
  if reality then map_axis0 (fun v => irfft_fwd v (2 * N - 1)) (planes_from fban (N - 1))
  else map_axis0 (fun v => ifft_fwd (ifftshift v)) fban.
(** wigner.py:501-507, 595-600; rfft is given np.real(f), as rfft_bwd has it *)
Definition gamma_analysis (f : ndarray C) (N : Z) (reality : bool) : ndarray C :=
  amap (fun z => (z * RtoC (2 * PI / IZR (2 * N - 1)))%C)
    (if reality then map_axis0 rfft_bwd f else map_axis0 (fun v => fftshift (fft_bwd v)) f).
Definition n_start (N : Z) (reality : bool) : Z := if reality then 0 else - N + 1.

(** wigner.py:110-195 inverse_numpy *)
Definition inverse_numpy3 (th : theta_fn) (flmn : ndarray C) (L N : Z) (nside : option Z) (sampling : string)
    (reality : bool) (precomps : option wigner_pre) (L_lower : Z) : result (ndarray C) :=
  let* pre := numpy_list th L N sampling nside false reality L_lower precomps in
  let* sh := so3_f_shape L N sampling nside in
  let* flmn := scale_degrees flmn L L_lower inv_scale in
  let* fban := foldM (fun fban n =>
      let* flm := plane flmn (N - 1 + n) in
      let* q := lread pre (n - n_start N reality) in
      let* g := inverse_numpy th flm L (- n) nside sampling (if n =? 0 then reality else false) (Some q) L_lower in
      plane_set fban (N - 1 + n) (amap (fun z => (RtoC (m1 n) * z)%C) g))
    (zrange (n_start N reality) N) (zeros (RtoC 0) sh) in
  Ok (gamma_synthesis fban N reality).

(** The vectorised axes must agree: ValueError of jax.vmap. *)
Definition vmap_axes (n a b c : Z) : result unit :=
  if (a =? n) && (b =? n) && (c =? n) then Ok tt else Err ValueError.

(** wigner.py:198-291 inverse_jax; vmap is written as the loop over the spins *)
Definition inverse_jax3 (th : theta_fn) (flmn : ndarray C) (L N : Z) (nside : option Z) (sampling : string)
    (reality : bool) (precomps : option wigner_pre) (L_lower : Z) : result (ndarray C) :=
  let* pre := jax_arrays th L N sampling nside false reality L_lower precomps in
  let* sh := so3_f_shape L N sampling nside in
  let* flmn := scale_degrees flmn L L_lower inv_scale in
  let n0 := n_start N reality in
  let* _ := vmap_axes (Z.max 0 (N - n0)) (slice_len (dim0 flmn) (N - 1 + n0) (dim0 flmn))
              (Z.of_nat (length (pw_lrenorm pre))) (Z.of_nat (length (pw_vsign pre))) in
  let* fban := foldM (fun fban n =>
      let* flm := plane flmn (N - 1 + n) in
      let* q := jax_entry pre (n - n0) in
      let* g := inverse_jax th flm L (- n) nside sampling false (Some q) L_lower in
      plane_set fban (N - 1 + n) (amap (fun z => (RtoC (m1 (Z.abs n)) * z)%C) g))
    (zrange n0 N) (zeros (RtoC 0) sh) in
  Ok (gamma_synthesis fban N reality).

(** The rank of f: axis -2 or -3 must be the first one. OtherError stands for arrays of other ranks. *)
Definition so3_rank (f : ndarray C) (sampling : string) : result unit :=
  if Z.of_nat (length (shape f)) =? (if is_hp sampling then 2 else 3) then Ok tt else Err OtherError.

(** wigner.py:442-533 forward_numpy *)
Definition forward_numpy3 (gl : gl_rule) (th : theta_fn) (f : ndarray C) (L N : Z) (nside : option Z) (sampling : string)
    (reality : bool) (precomps : option wigner_pre) (L_lower : Z) : result (ndarray C) :=
  let* pre := numpy_list th L N sampling nside true reality L_lower precomps in
  let* _ := so3_rank f sampling in
  let fban := gamma_analysis f N reality in
  let* flmn := foldM (fun flmn n =>
      let* fba := plane fban (n - n_start N reality) in
      let* q := lread pre (n - n_start N reality) in
      let* c := forward_numpy gl th fba L (- n) nside sampling (if n =? 0 then reality else false) (Some q) L_lower in
      let* flmn := plane_set flmn (N - 1 + n) (amap (fun z => (RtoC (m1 n) * z)%C) c) in
      if reality && negb (n =? 0) then
        let* q := plane flmn (N - 1 + n) in
        let* q := conj_plane q L n in
        plane_set flmn (N - 1 - n) q
      else Ok flmn)
    (zrange (n_start N reality) N) (zeros (RtoC 0) (flmn_shape L N)) in
  scale_degrees flmn L L_lower fwd_scale.

(** wigner.py:536-646 forward_jax; the planes of negative n are set after the loop (lines 619-635) *)
Definition forward_jax3 (gl : gl_rule) (th : theta_fn) (f : ndarray C) (L N : Z) (nside : option Z) (sampling : string)
    (reality : bool) (precomps : option wigner_pre) (L_lower : Z) : result (ndarray C) :=
  let* pre := jax_arrays th L N sampling nside true reality L_lower precomps in
  let* _ := so3_rank f sampling in
  let fban := gamma_analysis f N reality in
  let n0 := n_start N reality in
  let* _ := vmap_axes (Z.max 0 (N - n0)) (dim0 fban) (Z.of_nat (length (pw_lrenorm pre))) (Z.of_nat (length (pw_vsign pre))) in
  let* flmn := foldM (fun flmn n =>
      let* fba := plane fban (n - n0) in
      let* q := jax_entry pre (n - n0) in
      let* c := forward_jax gl th fba L (- n) nside sampling false (Some q) L_lower in
      plane_set flmn (N - 1 + n) (amap (fun z => (RtoC (m1 (Z.abs n)) * z)%C) c))
    (zrange n0 N) (zeros (RtoC 0) (flmn_shape L N)) in
  let* flmn := (if reality then
      foldM (fun a n =>
        let* q := plane flmn (N - 1 + n) in
        let* q := conj_plane q L n in
        plane_set a (N - 1 - n) q) (zrange 1 N) flmn
    else Ok flmn) in
  scale_degrees flmn L L_lower fwd_scale.

(** The tables of methods, wigner.py:794-806, and the checks of lines 83-98, 415-430: both entry points
    test _inverse_functions. *)
Definition known_method3 (method : string) : bool := str_in method ["numpy"; "jax"; "jax_ssht"; "torch"].
Definition checks3 (method sampling : string) (N : Z) : result unit :=
  if negb (known_method3 method) then Err ValueError
  else if (8 <=? N) && str_in method ["numpy"; "jax"; "torch"] then Err WarningRaised
  else if streq method "jax_ssht" && is_hp sampling then Err ValueError
  else Ok tt.
(** wigner.py:13-107 inverse; "torch" converts arguments and result of the JAX function *)
Definition otf_wigner_inverse (th : theta_fn) (flmn : ndarray C) (L N : Z) (nside : option Z) (sampling method : string)
    (reality : bool) (precomps : option wigner_pre) (L_lower : Z) : result (ndarray C) :=
  let* _ := checks3 method sampling N in
  if streq method "numpy" then inverse_numpy3 th flmn L N nside sampling reality precomps L_lower
  else if streq method "jax" || streq method "torch" then inverse_jax3 th flmn L N nside sampling reality precomps L_lower
  else Err MissingDependency.
(** wigner.py:346-439 forward *)
Definition otf_wigner_forward (gl : gl_rule) (th : theta_fn) (f : ndarray C) (L N : Z) (nside : option Z) (sampling method : string)
    (reality : bool) (precomps : option wigner_pre) (L_lower : Z) : result (ndarray C) :=
  let* _ := checks3 method sampling N in
  if streq method "numpy" then forward_numpy3 gl th f L N nside sampling reality precomps L_lower
  else if streq method "jax" || streq method "torch" then forward_jax3 gl th f L N nside sampling reality precomps L_lower
  else Err MissingDependency.
