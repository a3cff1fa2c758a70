(** The samples of a scheme, where they are stored, and the coefficients of a signal. *)
From Coq Require Import Reals.
From Coquelicot Require Import Complex.
From Verif Require Import Lib.Py Lib.Vec Lib.Arr Lib.Sums Lib.Cplx Spec.WignerSpec Spec.SamplesSpec Spec.SphereSpec Spec.GridSpec Spec.HealpixFFTSpec.
Open Scope string_scope.
Open Scope Z_scope.

(** Sample p of ring t: number of samples of the ring, index in the map, longitude. *)
Definition ring_size (s : scheme) (L nside t : Z) : Z :=
  match s with HEALPIX => ring_length nside t | _ => per_ring s L end.
Definition sample_index (s : scheme) (nside t p : Z) : list Z :=
  match s with HEALPIX => [ring_start (ring_length nside) t + p] | _ => [t; p] end.
Definition map_shape (s : scheme) (L nside : Z) : list Z :=
  match s with HEALPIX => [12 * (nside * nside)] | _ => [rings s L nside; per_ring s L] end.
Definition longitude (s : scheme) (L nside t p : Z) : R :=
  match s with HEALPIX => hp_longitude nside t p | _ => equi_longitude s L p end.

(** Colatitude of ring t; the Gauss-Legendre scheme has the arccosines of the nodes, which are
    given in increasing order. *)
Definition colatitude (nodes : Z -> R) (s : scheme) (L nside t : Z) (x : R) : Prop :=
  match s with
  | GL => (0 <= x <= PI)%R /\ cos x = nodes (L - 1 - t)
  | _ => is_colatitude s L nside t x
  end.

(** The rings lie where the recursion for the Wigner functions is exact. *)
Definition rings_away (nodes : Z -> R) (s : scheme) (L nside : Z) : Prop :=
  forall t, 0 <= t < rings s L nside -> exists x, colatitude nodes s L nside t x /\ away_from_poles x.

(** A map holds the samples of the function F(theta, phi). *)
Definition holds_samples (nodes : Z -> R) (s : scheme) (L nside : Z) (f : ndarray C) (F : R -> R -> C) : Prop :=
  shape f = map_shape s L nside /\
  forall t p x, 0 <= t < rings s L nside -> 0 <= p < ring_size s L nside t -> colatitude nodes s L nside t x ->
    get f (sample_index s nside t p) = F x (longitude s L nside t p).

(** Coefficient (el, m) is stored at [el; m + L - 1]. *)
Definition stored (L : Z) (flm : ndarray C) (el m : Z) : C := get flm [el; m + L - 1].
(** Coefficients of degree below Lo removed. *)
Definition above (Lo : Z) (c : Z -> Z -> C) (el m : Z) : C := if el <? Lo then RtoC 0 else c el m.
(** The real signal given by its coefficients of order m >= 0. *)
Definition real_extension (c : Z -> Z -> C) (el m : Z) : C :=
  if m <? 0 then (RtoC (sgn m) * Cconj (c el (- m)%Z))%C else c el m.
(** The coefficients the inverse transform works with. *)
Definition used_coefficients (reality : bool) (spin Lo : Z) (c : Z -> Z -> C) : Z -> Z -> C :=
  above Lo (if reality && (spin =? 0) then real_extension c else c).

(** The reference methods. *)
Definition sum_method (m : string) : Prop := m = "direct" \/ m = "sov".
Definition fft_method (m : string) : Prop := m = "sov_fft" \/ m = "sov_fft_vectorized".

(** The method computes the transform of the given coefficients: the FFT methods need the scheme
    written in lower case and, on HEALPix, the band-limit the ring transforms cover; with the
    reality flag they ignore the imaginary part of the coefficients of order 0. *)
Definition method_allowed (name method : string) (s : scheme) (L nside spin : Z) (reality : bool) (flm : ndarray C) : Prop :=
  sum_method method \/
  (fft_method method /\ name = scheme_name s /\ (s = HEALPIX -> 2 * nside <= L) /\
   (reality = true -> spin = 0 -> forall el, 0 <= el < L -> is_real (stored L flm el 0))).
Definition forward_allowed (name method : string) (s : scheme) (L nside : Z) : Prop :=
  sum_method method \/
  (fft_method method /\ (s = MW \/ s = MWSS \/ name = scheme_name s) /\ (s = HEALPIX -> 2 * nside <= L)).

(** A scheme, its parameters and how they are passed. *)
Definition setting (name : string) (s : scheme) (L nside : Z) (o : option Z) : Prop :=
  denotes name s /\ 1 <= L /\ (s = HEALPIX -> 1 <= nside /\ o = Some nside).
(** The node finder returns L nodes and L weights. *)
Definition rule_sizes (s : scheme) (L : Z) (x w : vec R) : Prop := s = GL -> vlen x = L /\ vlen w = L.
(** The rings the forward transform sums over: mw and mwss maps are resampled to the mwss rings of
    band-limit 2L. *)
Definition forward_rings_away (nodes : Z -> R) (s : scheme) (L nside : Z) : Prop :=
  match s with
  | MW | MWSS => forall t, 0 <= t <= 2 * L -> away_from_poles (mwss_theta (2 * L) t)
  | _ => rings_away nodes s L nside
  end.

(** Coefficients of a real signal. *)
Definition hermitian (L : Z) (c : Z -> Z -> C) : Prop :=
  forall el m, 0 <= el < L -> - el <= m <= el -> c el (- m)%Z = (RtoC (sgn m) * Cconj (c el m))%C.
(** The degrees and orders a transform of spin s, band-limits Lo and L works with. *)
Definition admissible (Lo s L el m : Z) : Prop := Z.max Lo (Z.abs s) <= el < L /\ - el <= m <= el.
Definition restricted (Lo s : Z) (c : Z -> Z -> C) (el m : Z) : C :=
  if (Z.max Lo (Z.abs s) <=? el) && (Z.abs m <=? el) then c el m else RtoC 0.
(** An array of coefficients with given entries. *)
Definition holds_coefficients (L : Z) (flm : ndarray C) (c : Z -> Z -> C) : Prop :=
  shape flm = [L; 2 * L - 1] /\ forall el m, 0 <= el < L -> - L < m < L -> stored L flm el m = c el m.
(** h = x f + y g for arrays of one shape. *)
Definition combination (x y : C) (f g h : ndarray C) : Prop :=
  shape f = shape h /\ shape g = shape h /\
  forall ix, in_shape (shape h) ix -> get h ix = (x * get f ix + y * get g ix)%C.
(** The samples are those of a signal the scheme represents: any samples on schemes that are used
    as they are; samples of a signal of band-limit L on mw and mwss, which are resampled. *)
Definition represented (nodes : Z -> R) (s : scheme) (L nside spin : Z) (f : ndarray C) (F : R -> R -> C) : Prop :=
  holds_samples nodes s L nside f F /\ (s = MW \/ s = MWSS -> band_limited L spin F).
(** The map is a map of a real signal: real samples, where the samples are used as they are;
    samples of a real signal of band-limit L on mw and mwss. *)
Definition real_map (nodes : Z -> R) (s : scheme) (L nside spin : Z) (f : ndarray C) : Prop :=
  match s with
  | MW | MWSS => exists F, represented nodes s L nside spin f F /\ forall theta phi, is_real (F theta phi)
  | _ => forall ix, in_shape (shape f) ix -> is_real (get f ix)
  end.
(** Grids none of whose rings is too close to a pole. *)
Definition small_grid (nodes : Z -> R) (s : scheme) (L nside : Z) : Prop :=
  match s with
  | HEALPIX => 1 <= nside <= 15000
  | GL => forall i, 0 <= i < L -> (- (1 - / 1000000000) <= nodes i <= 1 - / 1000000000)%R
  | _ => 1 <= L <= 20000
  end.
(** Quadrature of |f|^2 over an n x m map with weight w_t per sample, and the power of coefficients. *)
Definition map_power (n m : Z) (w : vec R) (f : ndarray C) : R :=
  rsum (zrange 0 n) (fun t => rsum (zrange 0 m) (fun p => (vat w t * (Cmod (get f [t; p]) ^ 2))%R)).
Definition coefficient_power (Lo s L : Z) (c : Z -> Z -> C) : R :=
  rsum (zrange (Z.max Lo (Z.abs s)) L) (fun el => rsum (zrange (- el) (el + 1)) (fun m => (Cmod (c el m) ^ 2)%R)).
