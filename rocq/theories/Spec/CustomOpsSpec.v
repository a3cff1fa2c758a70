(** Batches of spin signals, their samples and their coefficients. *)
From Coq Require Import Reals.
From Coquelicot Require Import Complex.
From Verif Require Import Lib.Py Lib.Vec Lib.Arr Lib.Sums Lib.Cplx Spec.WignerSpec Spec.SamplesSpec Spec.SphereSpec
  Spec.GridSpec Spec.HealpixFFTSpec Spec.SphericalSpec Spec.SO3Spec.
Open Scope string_scope.
Open Scope Z_scope.

(** The signal of spin -n with coefficients c(l, m): one Fourier component in gamma of a signal on
    the rotation group, at gamma = 0. *)
Definition spin_signal (L n : Z) (c : Z -> Z -> C) (theta phi : R) : C :=
  csum (zrange (Z.abs n) L) (fun l => csum (zrange (- l) (l + 1)) (fun m =>
    (RtoC ((2 * IZR l + 1) / (8 * PI ^ 2)) * c l m * Dconj l m n phi theta 0)%C)).
(** Signal i of item b, channel c: samples at [b; i; ring; longitude; c], coefficient (l, m) at [b; i; l; m + L - 1; c]. *)
Definition holds_signals (s : scheme) (L B S Ch : Z) (f : ndarray C) (F : Z -> Z -> Z -> R -> R -> C) : Prop :=
  shape f = [B; S; rings s L 0; per_ring s L; Ch] /\
  forall b i c t p x, 0 <= b < B -> 0 <= i < S -> 0 <= c < Ch -> 0 <= t < rings s L 0 -> 0 <= p < per_ring s L ->
    is_colatitude s L 0 t x -> get f [b; i; t; p; c] = F b i c x (equi_longitude s L p).
Definition plane (L : Z) (flmn : ndarray C) (b i c l m : Z) : C := get flmn [b; i; l; m + L - 1; c].
(** Signals on the rotation group: samples at [b; gamma; ring; longitude; c]. *)
Definition holds_so3 (s : scheme) (L N B Ch : Z) (f : ndarray C) (F : Z -> Z -> R -> R -> R -> C) : Prop :=
  shape f = [B; 2 * N - 1; rings s L 0; per_ring s L; Ch] /\
  forall b c g t p x, 0 <= b < B -> 0 <= c < Ch -> 0 <= g < 2 * N - 1 -> 0 <= t < rings s L 0 -> 0 <= p < per_ring s L ->
    is_colatitude s L 0 t x ->
    get f [b; g; t; p; c] = F b c (equi_longitude s L p) x (2 * PI * IZR g / IZR (2 * N - 1))%R.
(** The spins are smaller than the band-limit. *)
Definition spins_below (L : Z) (spins : vec Z) : Prop := forall i, 0 <= i < vlen spins -> - L < vat spins i < L.
(** Coefficients of degree at least |spin| and |m|; the others are 0. *)
Definition supported (L n : Z) (c : Z -> Z -> C) (l m : Z) : C :=
  if (Z.abs n <=? l) && (Z.abs m <=? l) then c l m else RtoC 0.
