(** Signals on the rotation group, their samples and their Wigner coefficients. *)
From Coq Require Import Reals.
From Coquelicot Require Import Complex.
From Verif Require Import Lib.Py Lib.Vec Lib.Arr Lib.Sums Lib.Cplx Spec.WignerSpec Spec.SamplesSpec Spec.SphereSpec
  Spec.GridSpec Spec.HealpixFFTSpec Spec.SphericalSpec.
Open Scope string_scope.
Open Scope Z_scope.

(** The conjugate Wigner D-function, zyz Euler angles. *)
Definition Dconj (l m n : Z) (alpha beta gamma : R) : C :=
  (cis (IZR m * alpha) * RtoC (wigner_d l m n beta) * cis (IZR n * gamma))%C.
(** The signal with Wigner coefficients c(n, l, m), |n| < N, |n| <= l < L, |m| <= l. *)
Definition so3_synth (L N : Z) (c : Z -> Z -> Z -> C) (alpha beta gamma : R) : C :=
  csum (zrange (- (N - 1)) N) (fun n => csum (zrange (Z.abs n) L) (fun l => csum (zrange (- l) (l + 1)) (fun m =>
    (RtoC ((2 * IZR l + 1) / (8 * PI ^ 2)) * c n l m * Dconj l m n alpha beta gamma)%C))).

(** An array holds the samples of F: gamma_g = 2 pi g / (2N - 1), beta and alpha are the
    colatitude and the longitude of the scheme. *)
Definition so3_holds (nodes : Z -> R) (s : scheme) (L N nside : Z) (f : ndarray C) (F : R -> R -> R -> C) : Prop :=
  shape f = 2 * N - 1 :: map_shape s L nside /\
  forall g t p x, 0 <= g < 2 * N - 1 -> 0 <= t < rings s L nside -> 0 <= p < ring_size s L nside t ->
    colatitude nodes s L nside t x ->
    get f (g :: sample_index s nside t p) = F (longitude s L nside t p) x (2 * PI * IZR g / IZR (2 * N - 1))%R.

(** Coefficient (n, l, m) is stored at [n + N - 1; l; m + L - 1]. *)
Definition stored3 (L N : Z) (flmn : ndarray C) (n l m : Z) : C := get flmn [n + N - 1; l; m + L - 1].
(** The real signal given by its coefficients with n > 0, or n = 0 and m >= 0. *)
Definition real_extension3 (c : Z -> Z -> Z -> C) (n l m : Z) : C :=
  if (n <? 0) || ((n =? 0) && (m <? 0)) then (RtoC (sgn (m + n)) * Cconj (c (- n)%Z l (- m)%Z))%C else c n l m.
Definition used3 (reality : bool) (Lo : Z) (c : Z -> Z -> Z -> C) (n l m : Z) : C :=
  if l <? Lo then RtoC 0 else if reality then real_extension3 c n l m else c n l m.
(** Coefficients of a real signal. *)
Definition hermitian3 (L N : Z) (c : Z -> Z -> Z -> C) : Prop :=
  forall n l m, - N < n < N -> Z.abs n <= l < L -> - l <= m <= l ->
    c (- n)%Z l (- m)%Z = (RtoC (sgn (m + n)) * Cconj (c n l m))%C.
(** The coefficients the transforms work with: the others are 0. *)
Definition restricted3 (Lo : Z) (c : Z -> Z -> Z -> C) (n l m : Z) : C :=
  if (Z.max Lo (Z.abs n) <=? l) && (Z.abs m <=? l) then c n l m else RtoC 0.
Definition holds_coefficients3 (L N : Z) (flmn : ndarray C) (c : Z -> Z -> Z -> C) : Prop :=
  shape flmn = [2 * N - 1; L; 2 * L - 1] /\
  forall n l m, - N < n < N -> 0 <= l < L -> - L < m < L -> stored3 L N flmn n l m = c n l m.
(** A signal of the sphere of spin -n for each n: the Fourier components in gamma. *)
Definition so3_band_limited (L N : Z) (F : R -> R -> R -> C) : Prop :=
  exists Fn : Z -> R -> R -> C, (forall n, - N < n < N -> band_limited L n (Fn n)) /\
    forall alpha beta gamma, F alpha beta gamma = csum (zrange (- (N - 1)) N) (fun n => (Fn n beta alpha * cis (IZR n * gamma))%C).
(** The samples are those of a real signal: real samples where they are used as they are; samples
    of a real band-limited signal on mw and mwss, which are resampled. *)
Definition so3_real_map (nodes : Z -> R) (s : scheme) (L N nside : Z) (f : ndarray C) : Prop :=
  match s with
  | MW | MWSS => exists F, so3_holds nodes s L N nside f F /\ so3_band_limited L N F /\ forall a b g, is_real (F a b g)
  | _ => forall ix, in_shape (shape f) ix -> is_real (get f ix)
  end.
