(** What pyssht and healpy are relied on for, and the gradients of linear functions of arrays. *)
From Coq Require Import Reals.
From Coquelicot Require Import Complex.
From Verif Require Import Lib.Py Lib.Vec Lib.Sums Lib.Cplx Lib.Arr Model.Grids Model.CBackend Spec.QuadSpec Spec.WignerSpec Spec.SamplesSpec Spec.SphereSpec
  Spec.GridSpec Spec.HealpixFFTSpec Spec.SphericalSpec Spec.RefineSpec.
Open Scope string_scope.
Open Scope Z_scope.

(** The names of the schemes in pyssht and their numbers in s2fft. *)
Definition method_name (s : scheme) : string := match s with MW => "MW" | MWSS => "MWSS" | DH => "DH" | GL => "GL" | HEALPIX => "HEALPIX" end.
Definition scheme_number (s : scheme) : Z := match s with MW => 0 | MWSS => 1 | DH => 2 | GL => 3 | HEALPIX => 4 end.

(** pyssht lists coefficient (l, m) at l^2 + l + m, healpy at m (2 L - 1 - m) / 2 + l, for m >= 0 only. *)
Definition listed (L : Z) (x : ndarray C) (c : Z -> Z -> C) : Prop :=
  shape x = [L * L] /\ forall l m, 0 <= l < L -> - l <= m <= l -> get x [l * l + l + m] = c l m.
Definition hp_listed (L : Z) (x : ndarray C) (c : Z -> Z -> C) : Prop :=
  shape x = [L * (L + 1) / 2] /\ forall l m, 0 <= m <= l -> l < L -> get x [m * (2 * L - 1 - m) / 2 + l] = c l m.

(** The coefficients of the real part of the signal of 2 sum_{m > 0} + sum_{m = 0}. *)
Definition real_signal (c : Z -> Z -> C) (l m : Z) : C := if m =? 0 then RtoC (Re (c l 0)) else real_extension c l m.
Definition all_real (f : ndarray C) : Prop := forall ix, in_shape (shape f) ix -> is_real (get f ix).

(** Sums over the samples of an equiangular scheme, over listed coefficients. *)
Definition over_samples (s : scheme) (L : Z) (g : Z -> Z -> C) : C :=
  csum (zrange 0 (rings s L 0)) (fun t => csum (zrange 0 (per_ring s L)) (fun p => g t p)).
Definition over_coefficients (L : Z) (g : Z -> Z -> C) : C :=
  csum (zrange 0 L) (fun l => csum (zrange (- l) (l + 1)) (fun m => g l m)).
Definition inner_samples (s : scheme) (L : Z) (f g : ndarray C) : C := over_samples s L (fun t p => get f [t; p] * Cconj (get g [t; p]))%C.
Definition inner_listed (L : Z) (x y : ndarray C) : C :=
  over_coefficients L (fun l m => get x [(l * l + l + m)%Z] * Cconj (get y [(l * l + l + m)%Z]))%C.

(** The weight of ring t of the DH scheme (Driscoll and Healy 1994) and of the GL scheme with Gauss weights g, times the step in
    longitude. *)
Definition library_weight (g : Z -> R) (s : scheme) (L t : Z) : R :=
  (2 * PI / IZR (2 * L - 1) * match s with
   | DH => 2 / IZR L * sin (dh_theta L t) * rsum (zrange 0 L) (fun k => sin (IZR (2 * k + 1) * dh_theta L t) / IZR (2 * k + 1))
   | _ => g t
   end)%R.
(** pyssht at band-limit L, spin and scheme, with nodes the Gauss-Legendre nodes and w the weights of the rings: the transforms without
    Reality, and with it for spin 0. *)
Record ssht_contract (nodes : Z -> R) (w : Z -> R) (s : scheme) (L spin : Z) (p : pyssht) : Prop := {
  inverse_synthesises : forall b x c, listed L x c ->
    exists f, py_inverse p x L spin (method_name s) false b = Ok f /\ holds_samples nodes s L 0 f (synth L spin c);
  forward_defined : forall b f, shape f = map_shape s L 0 ->
    exists x, py_forward p f L spin (method_name s) false b = Ok x /\ shape x = [L * L];
  forward_recovers : forall b f x c, holds_samples nodes s L 0 f (synth L spin c) ->
    py_forward p f L spin (method_name s) false b = Ok x -> listed L x (restricted 0 spin c);
  forward_integrates : s = DH \/ s = GL -> forall b f x th l m, shape f = map_shape s L 0 ->
    py_forward p f L spin (method_name s) false b = Ok x ->
    (forall t, 0 <= t < rings s L 0 -> colatitude nodes s L 0 t (th t)) -> 0 <= l < L -> - l <= m <= l ->
    get x [l * l + l + m] = if l <? Z.abs spin then RtoC 0
      else over_samples s L (fun t q => (RtoC (w t) * get f [t; q] * Cconj (sYlm spin l m (th t) (longitude s L 0 t q)))%C);
  inverse_adjoint_is : s = MW \/ s = MWSS -> forall b f, shape f = map_shape s L 0 ->
    exists x, py_inverse_adjoint p f L spin (method_name s) false b = Ok x /\ shape x = [L * L] /\
      forall y g, shape y = [L * L] -> py_inverse p y L spin (method_name s) false b = Ok g -> inner_listed L x y = inner_samples s L f g;
  forward_adjoint_is : s = MW \/ s = MWSS -> forall b x, shape x = [L * L] ->
    exists f, py_forward_adjoint p x L spin (method_name s) false b = Ok f /\ shape f = map_shape s L 0 /\
      forall g y, shape g = map_shape s L 0 -> py_forward p g L spin (method_name s) false b = Ok y -> inner_samples s L f g = inner_listed L x y;
  real_inverse : spin = 0 -> forall b x c, listed L x c ->
    exists f, py_inverse p x L spin (method_name s) true b = Ok f /\ holds_samples nodes s L 0 f (synth L spin (real_signal c));
  real_forward : spin = 0 -> forall b f, shape f = map_shape s L 0 -> all_real f ->
    same_ok (py_forward p f L spin (method_name s) true b) (py_forward p f L spin (method_name s) false b);
  real_inverse_adjoint : s = MW \/ s = MWSS -> spin = 0 -> forall b f, shape f = map_shape s L 0 -> all_real f ->
    same_ok (py_inverse_adjoint p f L spin (method_name s) true b) (py_inverse_adjoint p f L spin (method_name s) false b);
  real_forward_adjoint : s = MW \/ s = MWSS -> spin = 0 -> forall b x c, listed L x c -> hermitian L c ->
    same_ok (py_forward_adjoint p x L spin (method_name s) true b) (py_forward_adjoint p x L spin (method_name s) false b) }.

(** Sums over the pixels of a HEALPix map. *)
Definition over_pixels (nside : Z) (g : Z -> Z -> C) : C :=
  csum (zrange 0 (4 * nside - 1)) (fun t => csum (zrange 0 (ring_length nside t)) (fun p => g t p)).
(** healpy.map2alm without iterations and healpy.alm2map, at the band-limit lmax = L - 1. *)
Record healpy_contract (nodes : Z -> R) (L nside : Z) (h : healpy) : Prop := {
  map2alm_integrates : forall f th, shape f = [12 * (nside * nside)] -> all_real f ->
    (forall t, 0 <= t < 4 * nside - 1 -> colatitude nodes HEALPIX L nside t (th t)) ->
    exists x, hp_map2alm h f (L - 1) 0 = Ok x /\ hp_listed L x (fun l m =>
      (RtoC (4 * PI / IZR (12 * (nside * nside))) *
       over_pixels nside (fun t p => get f (sample_index HEALPIX nside t p) * Cconj (sYlm 0 l m (th t) (longitude HEALPIX L nside t p))))%C);
  alm2map_synthesises : forall x c, hp_listed L x c ->
    exists f, hp_alm2map h x (L - 1) nside = Ok f /\ all_real f /\ holds_samples nodes HEALPIX L nside f (synth L 0 (real_signal c)) }.

(** A cotangent w acts on a tangent z by sum w z, of which JAX uses the real part where a function is not holomorphic: g is the
    gradient for the cotangent ct of a linear function of 2D coefficients with value f in the direction d, or of samples. *)
Definition pair_samples (s : scheme) (L : Z) (f g : ndarray C) : C := over_samples s L (fun t p => get f [t; p] * get g [t; p])%C.
Definition pair_coefficients (L : Z) (a b : ndarray C) : C :=
  csum (zrange 0 L) (fun l => csum (zrange 0 (2 * L - 1)) (fun k => get a [l; k] * get b [l; k]))%C.
Definition pair_pixels (nside : Z) (f g : ndarray C) : C := csum (zrange 0 (12 * (nside * nside))) (fun k => get f [k] * get g [k])%C.
Definition pair_listed (n : Z) (a b : ndarray C) : C := csum (zrange 0 n) (fun k => get a [k] * get b [k])%C.
(** How far the gradients of the gl scheme may be off, the weights there being those of the Newton iteration; and what it is relative to. *)
Definition gradient_error (s : scheme) (L : Z) : R := match s with GL => (2 * (IZR (2 * L + 1) ^ 2 / 10 ^ 14))%R | _ => 0%R end.
Definition abs_samples (s : scheme) (L : Z) (f g : ndarray C) : R :=
  rsum (zrange 0 (rings s L 0)) (fun t => rsum (zrange 0 (per_ring s L)) (fun p => (Cmod (get f [t; p]) * Cmod (get g [t; p]))%R)).
(** The weights of the scheme are found: no condition on mw, mwss and dh. *)
Definition weights_found (gl : gl_rule) (turns : nat) (s : scheme) (L : Z) : Prop :=
  s = GL -> gauss_legendre L (gl_nodes gl L) (gl_weights gl L) /\ L <= 1000000 /\ (50 <= turns)%nat.

(** What the Wigner transforms with method "jax_ssht" make of degrees below L_lower: they are kept, without the factors that turn Wigner
    coefficients into coefficients of spin signals and back. *)
Definition low_inverse (Lo l : Z) : R := if l <? Lo then (2 * PI * sqrt (4 * PI / IZR (2 * l + 1)))%R else 1%R.
Definition low_forward (Lo l : Z) : R := if l <? Lo then sqrt (IZR (2 * l + 1) / (4 * PI)) else 1%R.
