(** The sampling schemes and their published sizes, stated without reference to the code. *)
From Verif Require Import Lib.Py.
Open Scope string_scope.
Open Scope Z_scope.

Inductive scheme := MW | MWSS | DH | GL | HEALPIX.

Definition scheme_name (s : scheme) : string :=
  match s with MW => "mw" | MWSS => "mwss" | DH => "dh" | GL => "gl" | HEALPIX => "healpix" end.

(** A user string denotes a scheme when it equals the scheme's name up to case. *)
Definition denotes (name : string) (s : scheme) : Prop := lower name = scheme_name s.
Definition unsupported (name : string) : Prop := forall s, ~ denotes name s.

Definition rings (s : scheme) (L nside : Z) : Z :=
  match s with MW => L | MWSS => L + 1 | DH => 2 * L | GL => L | HEALPIX => 4 * nside - 1 end.

(** Samples per ring of the equiangular schemes. *)
Definition per_ring (s : scheme) (L : Z) : Z :=
  match s with MWSS => 2 * L | _ => 2 * L - 1 end.

(** Orders stored per ring in the intermediate (theta, m) array: m = -L..L-1 for the schemes
    with an even number of samples per ring, m = -(L-1)..L-1 otherwise. *)
Definition orders (s : scheme) (L : Z) : Z :=
  match s with MWSS | HEALPIX => 2 * L | _ => 2 * L - 1 end.

(** HEALPix ring lengths (Gorski et al. 2005, rings numbered from 0). *)
Definition ring_length (nside t : Z) : Z := 4 * Z.min (Z.min (t + 1) nside) (4 * nside - 1 - t).

(** Number of pixels before ring t: the running sum of the ring lengths. *)
Definition ring_start (len : Z -> Z) (t : Z) : Z :=
  fold_right Z.add 0 (map len (zrange 0 t)).
