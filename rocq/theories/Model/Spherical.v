(** Model of the reference transforms s2fft/base_transforms/spherical.py, in exact arithmetic.
    Arrays are checked ndarrays; HEALPix maps have one axis. Warnings are not modelled. *)
From Coq Require Import Reals.
From Coquelicot Require Import Complex.
From Verif Require Import Lib.Py Lib.Vec Lib.Sums Lib.Cplx Lib.Arr Model.Index Model.Samples Model.Grids
  Model.FFT Model.HealpixFFT Model.Turok Model.Resampling Model.Quadrature.
Open Scope string_scope.
Open Scope Z_scope.

(** (-1) ** spin, possibly for negative spin (a float then) *)
Notation m1 := msign.
(** elfactor = np.sqrt((2 * el + 1) / (4 * np.pi)), e.g. spherical.py:336 *)
Definition elfactor (el : Z) : R := sqrt (IZR (2 * el + 1) / (4 * PI)).
(** range(max(L_lower, abs(spin)), L), e.g. spherical.py:333 *)
Definition el_range (L_lower spin L : Z) : list Z := zrange (Z.max L_lower (Z.abs spin)) L.
Definition is_hp (sampling : string) : bool := streq (lower sampling) "healpix".
(** m_offset = 1 if sampling in ["mwss", "healpix"] else 0, spherical.py:489, 579, 847, 963 *)
Definition m_offset (sampling : string) : Z := if str_in sampling ["mwss"; "healpix"] then 1 else 0.

(** the longitudes of ring t: spherical.py:324-331, 424-428, 658-663, 748-754 *)
Definition ring_phis (sampling : string) (nside : option Z) (phis_eq : vec R) (t : Z) : result (vec R) :=
  if is_hp sampling then let* n := need nside in phis_ring t n else Ok phis_eq.
Definition equi_phis (L : Z) (sampling : string) : result (vec R) :=
  if is_hp sampling then Ok (vconst 0 0%R) else phis_equiang L sampling.
(** entry = (t, p) or hp_ang2pix(nside, theta, phi): spherical.py:339-343 *)
Definition pix_entry (sampling : string) (nside : option Z) (t p : Z) (theta phi : R) : result (list Z) :=
  if is_hp sampling then let* n := need nside in Ok [hp_ang2pix n theta phi] else Ok [t; p].

(** for x, v in enumerate(vec) *)
Definition enum {S} {A} (v : vec A) (body : S -> Z -> A -> result S) (s : S) : result S :=
  foldM (fun s i => body s i (vat v i)) (zrange 0 (vlen v)) s.

Definition cexp_m (sign : R) (m : Z) (phi : R) : C := cis (sign * IZR m * phi).

(** spherical.py:286-369 _compute_inverse_direct *)
Definition inverse_direct (flm : ndarray C) (L spin : Z) (sampling : string) (ths : vec R)
    (nside : option Z) (reality : bool) (L_lower : Z) : result (ndarray C) :=
  let* phis_eq := equi_phis L sampling in
  let* sh := f_shape (Some L) sampling nside in
  enum ths (fun f t theta =>
    let* phis := ring_phis sampling nside phis_eq t in
    foldM (fun f el =>
      let* dl := turok_slice theta el L (- spin) reality in
      enum phis (fun f p phi =>
        let* entry := pix_entry sampling nside t p theta phi in
        if reality then
          let* d0 := vread dl (L - 1) in
          let* x0 := aread flm [el; L - 1] in
          let* f := caplus f entry (RtoC (m1 spin * elfactor el * d0) * x0)%C in
          foldM (fun f m =>
            let* d := vread dl (m + L - 1) in
            let* x := aread flm [el; m + L - 1] in
            let val := (RtoC (m1 spin * elfactor el) * cexp_m 1 m phi * RtoC d * x)%C in
            caplus f entry (val + Cconj val)%C)
            (zrange 1 (el + 1)) f
        else
          foldM (fun f m =>
            let* d := vread dl (m + L - 1) in
            let* x := aread flm [el; m + L - 1] in
            caplus f entry (RtoC (m1 spin * elfactor el) * cexp_m 1 m phi * RtoC d * x)%C)
            (zrange (- el) (el + 1)) f) f)
      (el_range L_lower spin L) f)
    (zeros (RtoC 0) sh).

(** spherical.py:372-443 _compute_inverse_sov *)
Definition inverse_sov (flm : ndarray C) (L spin : Z) (sampling : string) (ths : vec R)
    (nside : option Z) (reality : bool) (L_lower : Z) : result (ndarray C) :=
  let* ftm := enum ths (fun ftm t theta =>
    foldM (fun ftm el =>
      let* dl := turok_slice theta el L (- spin) reality in
      foldM (fun ftm m =>
        let* d := vread dl (m + L - 1) in
        let* x := aread flm [el; m + L - 1] in
        caplus ftm [t; m + L - 1] (RtoC (m1 spin * elfactor el * d) * x)%C)
        (zrange (if reality then 0 else - el) (el + 1)) ftm)
      (el_range L_lower spin L) ftm)
    (zeros (RtoC 0) [vlen ths; 2 * L - 1]) in
  let* sh := f_shape (Some L) sampling nside in
  let* phis_eq := equi_phis L sampling in
  enum ths (fun f t theta =>
    let* phis := ring_phis sampling nside phis_eq t in
    enum phis (fun f p phi =>
      let* entry := pix_entry sampling nside t p theta phi in
      if reality then
        let* x0 := aread ftm [t; L - 1] in
        let* f := caplus f entry x0 in
        foldM (fun f m =>
          let* x := aread ftm [t; m + L - 1] in
          let val := (x * cexp_m 1 m phi)%C in
          caplus f entry (val + Cconj val)%C)
          (zrange 1 L) f
      else
        foldM (fun f m =>
          let* x := aread ftm [t; m + L - 1] in
          caplus f entry (x * cexp_m 1 m phi)%C)
          (zrange (- (L - 1)) L) f) f)
    (zeros (RtoC 0) sh).

(** the ring transforms ending the FFT methods: spherical.py:523-534 = 599-610 *)
Definition ring_synthesis (ftm : ndarray C) (L : Z) (sampling : string) (nside : option Z) (reality : bool)
    : result (ndarray C) :=
  if is_hp sampling then
    let* n := need nside in
    let* (_, f) := healpix_ifft (RtoC 0) Cplus ifft_fwd irfft_fwd (to_rows ftm) L n "numpy" reality in
    Ok (of_vec f)
  else if reality then
    let* nphi := nphi_equiang (Some L) sampling in
    Ok (map_rows (fun r => irfft_fwd r nphi) (slice2 ftm 0 (dim0 ftm) (L - 1 + m_offset sampling) (dim1 ftm)))
  else Ok (map_rows (fun r => ifft_fwd (ifftshift r)) ftm).

(** spherical.py:446-536 _compute_inverse_sov_fft *)
Definition inverse_sov_fft (flm : ndarray C) (L spin : Z) (sampling : string) (ths : vec R)
    (nside : option Z) (reality : bool) (L_lower : Z) : result (ndarray C) :=
  let* _ := (if is_hp sampling then let* n := need nside in if 2 * n <=? L then Ok tt else Err AssertionError
             else Ok tt) in
  let* sh := ftm_shape (Some L) sampling nside in
  let mo := m_offset sampling in
  let* ftm := enum ths (fun ftm t theta =>
    let* phi_off := (if is_hp sampling then let* n := need nside in Ok (p2phi_ring t 0 n) else Ok 0%R) in
    foldM (fun ftm el =>
      let* dl := turok_slice theta el L (- spin) reality in
      foldM (fun ftm m =>
        let phase := if is_hp sampling then cexp_m 1 m phi_off else RtoC 1 in
        let* d := vread dl (m + L - 1) in
        let* x := aread flm [el; m + L - 1] in
        let val := (RtoC (m1 spin * elfactor el * d) * x * phase)%C in
        let* ftm := (if reality && is_hp sampling then
                       if negb (m =? 0) then caplus ftm [t; - m + L - 1 + mo] (Cconj val) else Ok ftm
                     else Ok ftm) in
        caplus ftm [t; m + L - 1 + mo] val)
        (zrange (if reality then 0 else - el) (el + 1)) ftm)
      (el_range L_lower spin L) ftm)
    (zeros (RtoC 0) sh) in
  ring_synthesis ftm L sampling nside reality.

(** a vector times a phase vector of the same length, or the scalar 1.0 *)
Definition vmul (a b : vec C) : result (vec C) :=
  if vlen a =? vlen b then Ok (mkVec (vlen a) (fun i => (vat a i * vat b i)%C)) else Err ValueError.
Definition vrphase (a : vec C) (ph : option (vec C)) : result (vec C) :=
  match ph with Some b => vmul a b | None => Ok a end.
Definition ring_phase (L t : Z) (sampling : string) (nside : option Z) (fwd reality : bool) : result (option (vec C)) :=
  if is_hp sampling then let* n := need nside in Ok (Some (ring_phase_shift_hp L t n fwd reality)) else Ok None.

(** spherical.py:539-612 _compute_inverse_sov_fft_vectorized *)
Definition inverse_sov_fft_vectorized (flm : ndarray C) (L spin : Z) (sampling : string) (ths : vec R)
    (nside : option Z) (reality : bool) (L_lower : Z) : result (ndarray C) :=
  let* sh := ftm_shape (Some L) sampling nside in
  let mo := m_offset sampling in
  let* ftm := enum ths (fun ftm t theta =>
    let* phase := ring_phase L t sampling nside false reality in
    foldM (fun ftm el =>
      let* dl := turok_slice theta el L (- spin) reality in
      let ms := if reality then L - 1 else 0 in
      let dls := vslice dl ms (vlen dl) in
      let* fl := row_slice flm el ms (dim1 flm) in
      let* v := vmul (vmap (fun d => RtoC (elfactor el * d)) dls) fl in
      let* val := vrphase v phase in
      let* ftm := (if reality && is_hp sampling
                   then row_op Cplus ftm t mo (L - 1 + mo) (vrev (vmap Cconj (vslice val 1 (vlen val))))
                   else Ok ftm) in
      row_op Cplus ftm t (ms + mo) (2 * L - 1 + mo) val)
      (el_range L_lower spin L) ftm)
    (zeros (RtoC 0) sh) in
  let ftm := mscal (fun z => (z * RtoC (m1 spin))%C) ftm in
  ring_synthesis ftm L sampling nside reality.

(** spherical.py:615-703 _compute_forward_direct *)
Definition forward_direct (f : ndarray C) (L spin : Z) (sampling : string) (ths weights : vec R)
    (nside : option Z) (reality : bool) (L_lower : Z) : result (ndarray C) :=
  let* phis_eq := equi_phis L sampling in
  enum ths (fun flm t theta =>
    let* phis := ring_phis sampling nside phis_eq t in
    foldM (fun flm el =>
      let* dl := turok_slice theta el L (- spin) reality in
      enum phis (fun flm p phi =>
        let* entry := pix_entry sampling nside t p theta phi in
        let* w := vread weights t in
        if reality then
          let* d0 := vread dl (L - 1) in
          let* x := aread f entry in
          let* flm := caplus flm [el; L - 1] (RtoC (w * m1 spin * elfactor el * d0) * x)%C in
          foldM (fun flm m =>
            let* d := vread dl (m + L - 1) in
            let* x := aread f entry in
            let val := (RtoC (w * m1 spin * elfactor el) * cexp_m (-1) m phi * RtoC d * x)%C in
            let* flm := caplus flm [el; m + L - 1] val in
            caplus flm [el; - m + L - 1] (RtoC (m1 m) * Cconj val)%C)
            (zrange 1 (el + 1)) flm
        else
          foldM (fun flm m =>
            let* d := vread dl (m + L - 1) in
            let* x := aread f entry in
            caplus flm [el; m + L - 1] (RtoC (w * m1 spin * elfactor el) * cexp_m (-1) m phi * RtoC d * x)%C)
            (zrange (- el) (el + 1)) flm) flm)
      (el_range L_lower spin L) flm)
    (zeros (RtoC 0) (flm_shape L)).

(** spherical.py:706-799 _compute_forward_sov *)
Definition forward_sov (f : ndarray C) (L spin : Z) (sampling : string) (ths weights : vec R)
    (nside : option Z) (reality : bool) (L_lower : Z) : result (ndarray C) :=
  let* phis_eq := equi_phis L sampling in
  let* ftm := enum ths (fun ftm t theta =>
    let* phis := ring_phis sampling nside phis_eq t in
    enum phis (fun ftm p phi =>
      let* entry := pix_entry sampling nside t p theta phi in
      foldM (fun ftm m =>
        let* x := aread f entry in
        caplus ftm [t; m + L - 1] (cexp_m (-1) m phi * x)%C)
        (zrange (if reality then 0 else - L + 1) L) ftm) ftm)
    (zeros (RtoC 0) [vlen ths; 2 * L - 1]) in
  enum ths (fun flm t theta =>
    foldM (fun flm el =>
      let* dl := turok_slice theta el L (- spin) reality in
      let* w := vread weights t in
      if reality then
        let* d0 := vread dl (L - 1) in
        let* x := aread ftm [t; L - 1] in
        let* flm := caplus flm [el; L - 1] (RtoC (w * m1 spin * elfactor el * d0) * x)%C in
        foldM (fun flm m =>
          let* d := vread dl (m + L - 1) in
          let* x := aread ftm [t; m + L - 1] in
          let val := (RtoC (w * m1 spin * elfactor el * d) * x)%C in
          let* flm := caplus flm [el; m + L - 1] val in
          caplus flm [el; - m + L - 1] (RtoC (m1 m) * Cconj val)%C)
          (zrange 1 (el + 1)) flm
      else
        foldM (fun flm m =>
          let* d := vread dl (m + L - 1) in
          let* x := aread ftm [t; m + L - 1] in
          caplus flm [el; m + L - 1] (RtoC (w * m1 spin * elfactor el * d) * x)%C)
          (zrange (- el) (el + 1)) flm)
      (el_range L_lower spin L) flm)
    (zeros (RtoC 0) (flm_shape L)).

(** the ring transforms starting the FFT methods: spherical.py:845-862 = 961-980 *)
Definition ring_analysis (f : ndarray C) (L : Z) (sampling : string) (nside : option Z) (reality : bool)
    : result (ndarray C) :=
  if is_hp sampling then
    let* n := need nside in
    let* ftm := healpix_fft (RtoC 0) fft_bwd rfft_bwd (to_vec f) L n "numpy" reality in
    Ok (of_rows (2 * L) ftm)
  else if reality then
    let tmp := map_rows rfft_bwd f in
    let tmp := if negb (m_offset sampling =? 0) then slice2 tmp 0 (dim0 tmp) 0 (-1) else tmp in
    slice2_set (czeros (dim0 f) (dim1 f)) 0 (dim0 f) (L - 1 + m_offset sampling) (dim1 f) tmp
  else Ok (map_rows (fun r => fftshift (fft_bwd r)) f).

(** spherical.py:802-915 _compute_forward_sov_fft *)
Definition forward_sov_fft (f : ndarray C) (L spin : Z) (sampling : string) (ths weights : vec R)
    (nside : option Z) (reality : bool) (L_lower : Z) : result (ndarray C) :=
  let mo := m_offset sampling in
  let* ftm := ring_analysis f L sampling nside reality in
  enum ths (fun flm t theta =>
    let* phi_off := (if is_hp sampling then let* n := need nside in Ok (p2phi_ring t 0 n) else Ok 0%R) in
    foldM (fun flm el =>
      let* dl := turok_slice theta el L (- spin) reality in
      let* w := vread weights t in
      if reality then
        let* d0 := vread dl (L - 1) in
        let* x := aread ftm [t; L - 1 + mo] in
        let* flm := caplus flm [el; L - 1] (RtoC (w * m1 spin * elfactor el * d0) * x)%C in
        foldM (fun flm m =>
          let phase := if is_hp sampling then cexp_m (-1) m phi_off else RtoC 1 in
          let* d := vread dl (m + L - 1) in
          let* x := aread ftm [t; m + L - 1 + mo] in
          let val := (RtoC (w * m1 spin * elfactor el * d) * x * phase)%C in
          let* flm := caplus flm [el; m + L - 1] val in
          caplus flm [el; - m + L - 1] (RtoC (m1 m) * Cconj val)%C)
          (zrange 1 (el + 1)) flm
      else
        foldM (fun flm m =>
          let phase := if is_hp sampling then cexp_m (-1) m phi_off else RtoC 1 in
          let* d := vread dl (m + L - 1) in
          let* x := aread ftm [t; m + L - 1 + mo] in
          caplus flm [el; m + L - 1] (RtoC (w * m1 spin * elfactor el * d) * x * phase)%C)
          (zrange (- el) (el + 1)) flm)
      (el_range L_lower spin L) flm)
    (zeros (RtoC 0) (flm_shape L)).

(** spherical.py:918-1011 _compute_forward_sov_fft_vectorized *)
Definition forward_sov_fft_vectorized (f : ndarray C) (L spin : Z) (sampling : string) (ths weights : vec R)
    (nside : option Z) (reality : bool) (L_lower : Z) : result (ndarray C) :=
  let mo := m_offset sampling in
  let m_conj := mkVec (Z.max 0 (L - 1)) (fun i => RtoC (m1 ((1 + i) mod 2))) in
  let* ftm := ring_analysis f L sampling nside reality in
  let* flm := enum ths (fun flm t theta =>
    let* phase := ring_phase L t sampling nside true reality in
    foldM (fun flm el =>
      let* dl := turok_slice theta el L (- spin) reality in
      let* w := vread weights t in
      let ms := if reality then L - 1 else 0 in
      let* fr := row_slice ftm t (ms + mo) (2 * L - 1 + mo) in
      let* v := vmul (vmap RtoC (vslice dl ms (vlen dl))) fr in
      let* v := vrphase (vmap (fun z => (RtoC (w * elfactor el) * z)%C) v) phase in
      let* flm := row_op Cplus flm el ms (dim1 flm) v in
      if reality then
        let* up := row_slice flm el (ms + 1) (dim1 flm) in
        let* u := vmul m_conj (vmap Cconj up) in
        row_op (fun _ y => y) flm el 0 ms (vrev u)
      else Ok flm)
      (el_range L_lower spin L) flm)
    (zeros (RtoC 0) (flm_shape L)) in
  Ok (mscal (fun z => (z * RtoC (m1 spin))%C) flm).

(** the dictionary of methods, spherical.py:116-121 and 267-272: a missing key raises KeyError *)
Definition shape_is (sh sh' : list Z) : bool := if list_eq_dec Z.eq_dec sh sh' then true else false.
Definition assert_ (b : bool) : result unit := if b then Ok tt else Err AssertionError.

(** spherical.py:62-131 _inverse *)
Definition inverse_ (gl : gl_rule) (flm : ndarray C) (L spin : Z) (sampling method : string)
    (nside : option Z) (reality : bool) (L_lower : Z) : result (ndarray C) :=
  let* _ := assert_ (shape_is (shape flm) (flm_shape L)) in
  let* _ := assert_ (0 <? L) in
  let* _ := assert_ ((0 <=? L_lower) && (L_lower <? L)) in
  let reality := if reality && negb (spin =? 0) then false else reality in
  let* ths := thetas gl (Some L) sampling nside in
  if streq method "direct" then inverse_direct flm L spin sampling ths nside reality L_lower
  else if streq method "sov" then inverse_sov flm L spin sampling ths nside reality L_lower
  else if streq method "sov_fft" then inverse_sov_fft flm L spin sampling ths nside reality L_lower
  else if streq method "sov_fft_vectorized" then inverse_sov_fft_vectorized flm L spin sampling ths nside reality L_lower
  else Err KeyError.

(** spherical.py:12-59 inverse *)
Definition inverse (gl : gl_rule) (flm : ndarray C) (L spin : Z) (sampling : string)
    (nside : option Z) (reality : bool) (L_lower : Z) : result (ndarray C) :=
  inverse_ gl flm L spin sampling "sov_fft_vectorized" nside reality L_lower.

(** spherical.py:252-265: resampling, colatitudes and weights of the forward transform. The
    input is two-dimensional unless the sampling is HEALPix. *)
Definition forward_prepare (gl : gl_rule) (f : ndarray C) (L spin : Z) (sampling : string) (nside : option Z)
    : result (ndarray C * string * vec R * vec R) :=
  let* f := (if streq (lower sampling) "mw" then mw_to_mwss numpy f L spin else Ok f) in
  let* (fs, ths) := (if str_in (lower sampling) ["mw"; "mwss"] then
                 let* f := upsample_by_two_mwss numpy f L spin in
                 let* ths := thetas gl (Some (2 * L)) "mwss" None in
                 Ok ((f, "mwss"), ths)
               else let* ths := thetas gl (Some L) sampling nside in Ok ((f, sampling), ths)) in
  let* weights := quad_weights_transform gl L (snd fs) 0 nside in
  Ok (fst fs, snd fs, ths, weights).

(** spherical.py:199-283 _forward *)
Definition forward_ (gl : gl_rule) (f : ndarray C) (L spin : Z) (sampling method : string)
    (nside : option Z) (reality : bool) (L_lower : Z) : result (ndarray C) :=
  let* sh := f_shape (Some L) sampling nside in
  let* _ := assert_ (shape_is (shape f) sh) in
  let* _ := assert_ (0 <? L) in
  let* _ := assert_ ((0 <=? L_lower) && (L_lower <? L)) in
  let reality := if reality && negb (spin =? 0) then false else reality in
  let* (fsth, weights) := forward_prepare gl f L spin sampling nside in
  let '(f, sampling, ths) := fsth in
  if streq method "direct" then forward_direct f L spin sampling ths weights nside reality L_lower
  else if streq method "sov" then forward_sov f L spin sampling ths weights nside reality L_lower
  else if streq method "sov_fft" then forward_sov_fft f L spin sampling ths weights nside reality L_lower
  else if streq method "sov_fft_vectorized" then forward_sov_fft_vectorized f L spin sampling ths weights nside reality L_lower
  else Err KeyError.

(** spherical.py:134-196 forward without iterative refinement (iter = 0) *)
Definition forward (gl : gl_rule) (f : ndarray C) (L spin : Z) (sampling : string)
    (nside : option Z) (reality : bool) (L_lower : Z) : result (ndarray C) :=
  forward_ gl f L spin sampling "sov_fft_vectorized" nside reality L_lower.
