(** What the HEALPix ring transforms should compute. *)
From Coq Require Import Reals.
From Coquelicot Require Import Complex.
From Verif Require Import Lib.Py Lib.Vec Lib.Sums Lib.Cplx Spec.SamplesSpec.
Open Scope Z_scope.

(** Value of pixel p of a ring with [nphi] pixels: all orders -L..L-1 (column k holds order
    k - L) at longitude 2 pi p / nphi past the first pixel. *)
Definition ring_value (row : vec C) (L nphi p : Z) : C :=
  csum (zrange 0 (2 * L)) (fun k =>
    (vat row k * cis (IZR (k - L) * (2 * PI * IZR p / IZR nphi)))%C).

(** Fourier coefficient of order m of the samples x_0..x_{nphi-1} of a ring. *)
Definition ring_coefficient (x : Z -> C) (nphi m : Z) : C :=
  csum (zrange 0 nphi) (fun p => (x p * cis (- IZR m * (2 * PI * IZR p / IZR nphi)))%C).

(** A table with one row of 2L orders per ring. *)
Definition ftm_table {A} (nside L : Z) (ftm : vec (vec A)) : Prop :=
  vlen ftm = 4 * nside - 1 /\
  forall t, 0 <= t < 4 * nside - 1 -> vlen (vat ftm t) = 2 * L.

(** Pixel p of ring t. *)
Definition pixel {A} (nside t p : Z) (f : vec A) : A := vat f (ring_start (ring_length nside) t + p).

Definition is_real (z : C) : Prop := Im z = 0%R.

(** Row of a real signal: order -m is the conjugate of order m, and the unpaired order -L
    (column 0) is absent. *)
Definition hermitian_row (L : Z) (row : vec C) : Prop :=
  vat row 0 = RtoC 0 /\
  forall m, 0 <= m < L -> vat row (L - m) = Cconj (vat row (L + m)).
