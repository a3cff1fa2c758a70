(** Rotations of the sphere and their action on coefficients. *)
From Coq Require Import Reals.
From Coquelicot Require Import Complex.
From Verif Require Import Lib.Py Lib.Sums Lib.Cplx Spec.WignerSpec.
Open Scope Z_scope.

(** The point of colatitude theta and longitude phi; rotations about the z and y axes. *)
Definition direction (theta phi : R) : R * R * R := (sin theta * cos phi, sin theta * sin phi, cos theta)%R.
Definition unit_vector (p : R * R * R) : Prop := let '(x, y, z) := p in (x * x + y * y + z * z = 1)%R.
Definition rot_z (a : R) (p : R * R * R) : R * R * R :=
  let '(x, y, z) := p in (cos a * x - sin a * y, sin a * x + cos a * y, z)%R.
Definition rot_y (b : R) (p : R * R * R) : R * R * R :=
  let '(x, y, z) := p in (cos b * x + sin b * z, y, - sin b * x + cos b * z)%R.
(** The rotation with Euler angles (alpha, beta, gamma). *)
Definition euler (alpha beta gamma : R) (p : R * R * R) : R * R * R := rot_z alpha (rot_y beta (rot_z gamma p)).

(** Wigner's D-function and the coefficients of the rotated signal. *)
Definition wigner_D (l m n : Z) (alpha beta gamma : R) : C :=
  (cis (- (IZR m * alpha)) * RtoC (wigner_d l m n beta) * cis (- (IZR n * gamma)))%C.
Definition rotated (alpha beta gamma : R) (c : Z -> Z -> C) (l m : Z) : C :=
  if Z.abs m <=? l then csum (zrange (- l) (l + 1)) (fun n => (wigner_D l m n alpha beta gamma * c l n)%C) else RtoC 0.
