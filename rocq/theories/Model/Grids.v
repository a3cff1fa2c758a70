(** Model of the sample positions: colatitudes, longitudes, HEALPix phase shifts and the
    angle-to-pixel map, in exact real arithmetic. *)
From Coq Require Import Reals.
From Coquelicot Require Import Complex.
From Verif Require Import Lib.Py Lib.Vec Lib.Cplx Lib.Arr Model.Samples.
Open Scope string_scope.
Open Scope Z_scope.

(** The Gauss-Legendre data: [gl_nodes L] is np.polynomial.legendre.leggauss(L)[0] (nodes in
    [-1,1]) and [gl_weights L] the weights computed by the Newton iteration of
    s2fft/utils/quadrature.py:137-159. Simplification: both are parameters of the model, a
    theorem that needs the Gauss-Legendre property takes it as a hypothesis. *)
Record gl_rule := mkGL { gl_nodes : Z -> vec R; gl_weights : Z -> vec R }.

(** s2fft/sampling/s2_samples.py:284-308 _t2theta_healpix: masks the ring index and takes the
    arccos of the ring's height. Simplification: one ring index instead of an array of them. *)
Definition t2theta_healpix (t nside : Z) : R :=
  (let z := 0 in
   let z := if (t <? nside - 1)%Z then 1 - IZR ((t + 1) ^ 2) / IZR (3 * nside ^ 2) else z in
   let z := if ((nside - 1 <=? t) && (t <=? 3 * nside - 1))%Z
            then 4 / 3 - 2 * IZR (t + 1) / IZR (3 * nside) else z in
   let z := if ((3 * nside - 1 <? t) && (t <=? 4 * nside - 2))%Z
            then IZR ((4 * nside - 1 - t) ^ 2) / IZR (3 * nside ^ 2) - 1 else z in
   acos z)%R.

(** s2fft/sampling/s2_samples.py:229-281 t2theta *)
Definition t2theta (t : Z) (L : option Z) (sampling : string) (nside : option Z) : result R :=
  if negb (streq (lower sampling) "healpix") && (match L with None => true | _ => false end)
  then Err ValueError
  else if streq (lower sampling) "mw" then
    let* L := need L in Ok (IZR (2 * t + 1) * PI / IZR (2 * L - 1))%R
  else if streq (lower sampling) "mwss" then
    let* L := need L in Ok (IZR (2 * t) * PI / IZR (2 * L))%R
  else if streq (lower sampling) "dh" then
    let* L := need L in Ok (IZR (2 * t + 1) * PI / IZR (4 * L))%R
  else if streq (lower sampling) "healpix" then
    match nside with None => Err ValueError | Some n => Ok (t2theta_healpix t n) end
  else Err ValueError.

(** A vectorised function of an index array arange(0, n): the exception, if any, does not depend
    on the entry, so it is taken from entry 0. *)
Definition over_arange {A} (n : Z) (default : A) (f : Z -> result A) : result (vec A) :=
  let* _ := f 0 in Ok (mkVec n (fun i => match f i with Ok x => x | Err _ => default end)).

(** s2fft/sampling/s2_samples.py:203-226 thetas *)
Definition thetas (gl : gl_rule) (L : option Z) (sampling : string) (nside : option Z) : result (vec R) :=
  if streq (lower sampling) "gl" then
    let* L := need L in Ok (vrev (vmap acos (gl_nodes gl L)))
  else
    let* n := ntheta L sampling nside in
    over_arange n 0%R (fun t => t2theta t L sampling nside).

(** s2fft/sampling/s2_samples.py:329-353 p2phi_ring *)
Definition p2phi_ring (t p nside : Z) : R :=
  (let shift := 1 / 2 in
   if ((nside <=? t + 1) && (t + 1 <=? 3 * nside))%Z then
     let shift := shift * IZR ((t - nside + 2) mod 2) in
     PI / IZR (2 * nside) * (IZR p + shift)
   else if (3 * nside <? t + 1)%Z then
     PI / IZR (2 * (4 * nside - t - 1)) * (IZR p + shift)
   else PI / IZR (2 * (t + 1)) * (IZR p + shift))%R.

(** s2fft/sampling/s2_samples.py:311-326 phis_ring *)
Definition phis_ring (t nside : Z) : result (vec R) :=
  let* n := nphi_ring t nside in Ok (mkVec n (fun p => p2phi_ring t p nside)).

(** s2fft/sampling/s2_samples.py:375-409 p2phi_equiang *)
Definition p2phi_equiang (L p : Z) (sampling : string) : result R :=
  if str_in (lower sampling) ["mw"; "gl"] then Ok (IZR (2 * p) * PI / IZR (2 * L - 1))%R
  else if streq (lower sampling) "mwss" then Ok (IZR (2 * p) * PI / IZR (2 * L))%R
  else if streq (lower sampling) "dh" then Ok (IZR (2 * p) * PI / IZR (2 * L - 1))%R
  else if streq (lower sampling) "healpix" then Err ValueError
  else Err ValueError.

(** s2fft/sampling/s2_samples.py:356-372 phis_equiang *)
Definition phis_equiang (L : Z) (sampling : string) : result (vec R) :=
  let* n := nphi_equiang (Some L) sampling in
  over_arange n 0%R (fun p => p2phi_equiang L p sampling).

(** s2fft/sampling/s2_samples.py:412-443 ring_phase_shift_hp *)
Definition ring_phase_shift_hp (L t nside : Z) (forward reality : bool) : vec C :=
  let phi_offset := p2phi_ring t 0 nside in
  let sign := if forward then (-1)%R else 1%R in
  let m_start_ind := if reality then 0 else - L + 1 in
  mkVec (Z.max 0 (L - m_start_ind)) (fun i => cis (sign * IZR (m_start_ind + i) * phi_offset)).

(** s2fft/utils/healpix_ffts.py:429-452 p2phi_rings (numpy) and 455-479 p2phi_rings_jax, the
    same expressions: three overwriting selections. np.zeros_like(t) is an integer array of
    zeros; np.where promotes it to float. *)
Definition p2phi_rings (t nside : Z) : R :=
  (let shift := 1 / 2 in
   let tt := 0 in
   let tt := if ((nside <=? t + 1) && (t + 1 <=? 3 * nside))%Z
             then shift * IZR ((t - nside + 2) mod 2) * PI / IZR (2 * nside) else tt in
   let tt := if (3 * nside <? t + 1)%Z then shift * PI / IZR (2 * (4 * nside - t - 1)) else tt in
   if (t + 1 <? nside)%Z then shift * PI / IZR (2 * (t + 1)) else tt)%R.

(** s2fft/utils/healpix_ffts.py:482-509 ring_phase_shifts_hp and 512-543
    ring_phase_shifts_hp_jax: the table of phase factors of all rings *)
Definition ring_phase_shifts_hp (L nside : Z) (forward reality : bool) : result (ndarray C) :=
  let* nt := ntheta (Some L) "healpix" (Some nside) in
  let sign := if forward then (-1)%R else 1%R in
  let m_start_ind := if reality then 0 else - L + 1 in
  Ok (mat nt (Z.max 0 (L - m_start_ind)) (fun t i => cis (sign * (p2phi_rings t nside * IZR (m_start_ind + i))))).

(** s2fft/precompute_transforms/construct.py:675-697 healpix_phase_shifts *)
Definition healpix_phase_shifts (L nside : Z) (forward : bool) : result (ndarray C) :=
  let* nt := ntheta (Some L) "healpix" (Some nside) in
  foldM (fun a t => row_op (fun _ y => y) a t 0 (2 * L - 1) (ring_phase_shift_hp L t nside forward false))
    (zrange 0 nt) (mat nt (2 * L - 1) (fun _ _ => RtoC 0)).

(** Python's int() of a float: truncation towards zero *)
Definition trunc (x : R) : Z := if Rle_dec 0 x then Int_part x else - Int_part (- x).

(** s2fft/sampling/s2_samples.py:571-622 _hp_zphi2pix *)
Definition hp_zphi2pix (nside : Z) (z phi : R) : Z :=
  let tt := (2 * phi / PI)%R in
  let za := Rabs z in
  let nl2 := 2 * nside in
  let nl4 := 4 * nside in
  let ncap := nl2 * (nside - 1) in
  let npix := 12 * nside ^ 2 in
  let n := IZR nside in
  if Rlt_dec za (2 / 3) then
    let jp := trunc (n * (0.5 + tt - 0.75 * z))%R in
    let jm := trunc (n * (0.5 + tt + 0.75 * z))%R in
    let ir := nside + 1 + jp - jm in
    let kshift := if ir mod 2 =? 0 then 1 else 0 in
    let ip := trunc (IZR (jp + jm - nside + kshift + 1) / 2)%R + 1 in
    ncap + nl4 * (ir - 1) + ip - 1
  else
    let tp := (tt - IZR (trunc tt))%R in
    let tmp := sqrt (3 * (1 - za)) in
    let jp := trunc (n * tp * tmp)%R in
    let jm := trunc (n * (1 - tp) * tmp)%R in
    let ir := jp + jm + 1 in
    let ip := trunc (tt * IZR ir)%R + 1 in
    let ip := if 4 * ir <? ip then ip - 4 * ir else ip in
    let ipix1 := 2 * ir * (ir - 1) + ip in
    let ipix1 := if Rle_dec z 0 then npix - 2 * ir * (ir + 1) + ip else ipix1 in
    ipix1 - 1.

(** s2fft/sampling/s2_samples.py:551-568 hp_ang2pix *)
Definition hp_ang2pix (nside : Z) (theta phi : R) : Z := hp_zphi2pix nside (cos theta) phi.
