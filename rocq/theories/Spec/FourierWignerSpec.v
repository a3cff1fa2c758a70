(** What the precomputed inputs of the Fourier-Wigner transforms are. *)
From Coq Require Import Reals.
From Coquelicot Require Import Coquelicot.
From Verif Require Import Lib.Py Lib.Vec Lib.Sums Lib.Cplx Spec.WignerSpec Spec.SamplesSpec.
Open Scope Z_scope.

(** The Wigner d-matrices at pi/2 of the degrees below L; entry (m, n) at [m + L - 1; n + L - 1]. *)
Definition quarter_matrices (L : Z) (delta : ndarray R) : Prop :=
  shape delta = [L; 2 * L - 1; 2 * L - 1] /\
  forall l m n, 0 <= l < L -> - L < m < L -> - L < n < L -> get delta [l; m + L - 1; n + L - 1] = wigner_d l m n (PI / 2).
(** Weights on 4L - 3 equidistant points of the circle: the weighted mean of exp(i j x) is its integral
    against sin x over [0, pi], for |j| <= 2 (L - 1). *)
Definition upsampled_weights (L : Z) (q : vec C) : Prop :=
  vlen q = 4 * L - 3 /\
  forall j, - (2 * (L - 1)) <= j <= 2 * (L - 1) ->
    (csum (zrange 0 (4 * L - 3)) (fun k => vat q k * cis (IZR j * (2 * PI * IZR k / IZR (4 * L - 3)))) / RtoC (IZR (4 * L - 3)))%C
    = (RInt (fun x => (cos (IZR j * x) * sin x)%R) 0 PI, RInt (fun x => (sin (IZR j * x) * sin x)%R) 0 PI).
(** Precomputed inputs, if any. *)
Definition fw_inputs (L : Z) (precomps : option (ndarray R * vec C)) : Prop :=
  match precomps with Some (delta, q) => quarter_matrices L delta /\ upsampled_weights L q | None => True end.
(** The sampling schemes the Fourier-Wigner transforms support. *)
Definition fw_scheme (s : scheme) : Prop := s = MW \/ s = MWSS.
