(** Model of the integer part of the sampling module: numbers of samples, shapes, rings.
    Optional Python arguments that may be None are [option Z]; arithmetic on None is a
    TypeError. Sampling names are arbitrary strings. *)
From Verif Require Import Lib.Py.
Open Scope string_scope.
Open Scope Z_scope.

Definition need (o : option Z) : result Z :=
  match o with Some z => Ok z | None => Err TypeError end.

(** s2fft/sampling/s2_samples.py:4-52 ntheta *)
Definition ntheta (L : option Z) (sampling : string) (nside : option Z) : result Z :=
  if negb (streq (lower sampling) "healpix") && (match L with None => true | _ => false end)
  then Err ValueError
  else if str_in (lower sampling) ["mw"; "gl"] then need L
  else if streq (lower sampling) "mwss" then let* L := need L in Ok (L + 1)
  else if streq (lower sampling) "dh" then let* L := need L in Ok (2 * L)
  else if streq (lower sampling) "healpix" then
    match nside with None => Err ValueError | Some nside => Ok (4 * nside - 1) end
  else Err ValueError.

(** s2fft/sampling/s2_samples.py:55-82 ntheta_extension *)
Definition ntheta_extension (L : Z) (sampling : string) : result Z :=
  if streq (lower sampling) "mw" then Ok (2 * L - 1)
  else if streq (lower sampling) "mwss" then Ok (2 * L)
  else Err ValueError.

(** s2fft/sampling/s2_samples.py:85-123 nphi_equiang *)
Definition nphi_equiang (L : option Z) (sampling : string) : result Z :=
  if str_in (lower sampling) ["mw"; "gl"] then let* L := need L in Ok (2 * L - 1)
  else if streq (lower sampling) "mwss" then let* L := need L in Ok (2 * L)
  else if streq (lower sampling) "dh" then let* L := need L in Ok (2 * L - 1)
  else if streq (lower sampling) "healpix" then Err ValueError
  else Err ValueError.

(** s2fft/sampling/s2_samples.py:126-155 ftm_shape *)
Definition ftm_shape (L : option Z) (sampling : string) (nside : option Z) : result (list Z) :=
  if str_in (lower sampling) ["mwss"; "healpix"] then
    let* nt := ntheta L sampling nside in
    let* L := need L in Ok [nt; 2 * L]
  else if str_in (lower sampling) ["mw"; "dh"; "gl"] then
    let* nt := ntheta L sampling nside in
    let* L := need L in Ok [nt; 2 * L - 1]
  else Err ValueError.

(** s2fft/sampling/s2_samples.py:158-170 nphi_equitorial_band *)
Definition nphi_equitorial_band (nside : Z) : Z := 4 * nside.

(** s2fft/sampling/s2_samples.py:173-200 nphi_ring *)
Definition nphi_ring (t nside : Z) : result Z :=
  if (0 <=? t) && (t <? nside - 1) then Ok (4 * (t + 1))
  else if (nside - 1 <=? t) && (t <=? 3 * nside - 1) then Ok (4 * nside)
  else if (3 * nside - 1 <? t) && (t <=? 4 * nside - 2) then Ok (4 * (4 * nside - t - 1))
  else Err ValueError.

(** s2fft/sampling/s2_samples.py:446-478 f_shape *)
Definition f_shape (L : option Z) (sampling : string) (nside : option Z) : result (list Z) :=
  if negb (streq (lower sampling) "healpix") && (match L with None => true | _ => false end)
  then Err ValueError
  else if streq (lower sampling) "healpix" && (match nside with None => true | _ => false end)
  then Err ValueError
  else if streq (lower sampling) "healpix" then let* n := need nside in Ok [12 * n ^ 2]
  else let* nt := ntheta L sampling None in
       let* np := nphi_equiang L sampling in Ok [nt; np].

(** s2fft/sampling/so3_samples.py:121-145 _nalpha *)
Definition nalpha (L : Z) (sampling : string) : result Z :=
  if str_in (lower sampling) ["mw"; "dh"; "gl"] then Ok (2 * L - 1)
  else if streq (lower sampling) "mwss" then Ok (2 * L)
  else Err ValueError.

(** s2fft/sampling/so3_samples.py:148-175 _nbeta *)
Definition nbeta (L : Z) (sampling : string) : result Z :=
  if str_in (lower sampling) ["mw"; "gl"] then Ok L
  else if streq (lower sampling) "mwss" then Ok (L + 1)
  else if streq (lower sampling) "dh" then Ok (2 * L)
  else Err ValueError.

(** s2fft/sampling/so3_samples.py:178-189 _ngamma *)
Definition ngamma (N : Z) : Z := 2 * N - 1.

(** s2fft/sampling/so3_samples.py:6-47 f_shape. Line 40 compares the name without lower(). *)
Definition so3_f_shape (L N : Z) (sampling : string) (nside : option Z) : result (list Z) :=
  if str_in sampling ["mw"; "mwss"; "dh"; "gl"] then
    let* nb := nbeta L sampling in
    let* na := nalpha L sampling in Ok [ngamma N; nb; na]
  else if streq (lower sampling) "healpix" then
    let* n := need nside in Ok [ngamma N; 12 * n ^ 2]
  else Err ValueError.

(** s2fft/sampling/so3_samples.py:68-102 fnab_shape *)
Definition fnab_shape (L N : Z) (sampling : string) (nside : option Z) : result (list Z) :=
  if str_in (lower sampling) ["mwss"; "healpix"] then
    let* nt := ntheta (Some L) sampling nside in Ok [ngamma N; nt; 2 * L]
  else if str_in (lower sampling) ["mw"; "dh"; "gl"] then
    let* nt := ntheta (Some L) sampling nside in Ok [ngamma N; nt; 2 * L - 1]
  else Err ValueError.
