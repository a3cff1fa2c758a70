(** Sample positions of the schemes, stated from their publications. *)
From Coq Require Import Reals.
From Verif Require Import Lib.Py Spec.SamplesSpec Spec.SphereSpec.
Open Scope Z_scope.

(** HEALPix (Gorski et al. 2005): height z = cos(theta) of ring i = t+1 of 4 nside - 1. *)
Definition hp_height (nside t : Z) : R :=
  (if (t + 1 <? nside)%Z then 1 - IZR ((t + 1) * (t + 1)) / (3 * IZR (nside * nside))
   else if (t + 1 <=? 3 * nside)%Z then 4 / 3 - 2 * IZR (t + 1) / (3 * IZR nside)
   else - (1 - IZR ((4 * nside - 1 - t) * (4 * nside - 1 - t)) / (3 * IZR (nside * nside))))%R.

(** Longitude of pixel p of ring t: the pixels of a ring are equidistant; the first one is half a
    pixel away from 0, except in every second equatorial ring. *)
Definition hp_offset (nside t : Z) : R :=
  (if ((nside <=? t + 1) && (t + 1 <=? 3 * nside) && Z.even (t + 1 - nside + 1))%Z then 0 else 1 / 2)%R.
Definition hp_longitude (nside t p : Z) : R :=
  (2 * PI / IZR (ring_length nside t) * (IZR p + hp_offset nside t))%R.

(** Colatitude of ring t of the closed-form schemes. *)
Definition is_colatitude (s : scheme) (L nside t : Z) (x : R) : Prop :=
  match s with
  | MW => x = mw_theta L t
  | MWSS => x = mwss_theta L t
  | DH => x = dh_theta L t
  | HEALPIX => (0 < x < PI)%R /\ cos x = hp_height nside t
  | GL => False
  end.

(** Longitude of sample p of the equiangular schemes. *)
Definition equi_longitude (s : scheme) (L p : Z) : R := (2 * PI * IZR p / IZR (per_ring s L))%R.
