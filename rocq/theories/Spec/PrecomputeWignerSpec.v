(** Vocabulary for the Wigner transforms with a precomputed kernel (s2fft/precompute_transforms/wigner.py). *)
From Coq Require Import Reals.
From Coquelicot Require Import Complex.
From Verif Require Import Lib.Py Lib.Vec Lib.Arr Lib.Cplx Model.Grids Model.Resampling Model.PrecomputeWigner Spec.SamplesSpec Spec.SphericalSpec.
Open Scope string_scope.
Open Scope Z_scope.

(** The modes a kernel can be computed with: "fft" needs equidistant colatitudes, and "auto" fails for
    L = 1 where it would have to choose between the two. *)
Definition uniform_rings (s : scheme) : Prop := s = MW \/ s = MWSS \/ s = DH.
Definition mode_ok (mode : string) (s : scheme) (L : Z) : Prop :=
  lower mode = "direct" \/ (lower mode = "fft" /\ uniform_rings s) \/ (lower mode = "auto" /\ (L <> 1 \/ ~ uniform_rings s)).

(** The kernel argument: none, or a kernel computed beforehand by either back end, in any mode. *)
Definition wkernel_given (gl : gl_rule) (L N : Z) (reality : bool) (s : scheme) (sampling : string) (nside : option Z)
    (forward : bool) (kernel : option (ndarray C)) : Prop :=
  (kernel = None /\ mode_ok "auto" s L) \/
  exists b mode K, kernel = Some K /\ mode_ok mode s L /\ wigner_kernel b gl L N reality sampling nside forward mode = Ok K.

(** With the reality flag the signal is the real one with the given coefficients for n > 0; its plane
    n = 0 is the mean of the given plane and of its reflection. *)
Definition real_mean3 (c : Z -> Z -> Z -> C) (n l m : Z) : C :=
  if n <? 0 then (RtoC (sgn (m + n)) * Cconj (c (- n)%Z l (- m)%Z))%C
  else if n =? 0 then ((c 0%Z l m + RtoC (sgn m) * Cconj (c 0%Z l (- m)%Z)) / RtoC 2)%C
  else c n l m.
Definition mean3 (reality : bool) (c : Z -> Z -> Z -> C) : Z -> Z -> Z -> C := if reality then real_mean3 c else c.

(** What the forward transform is called with: N >= 2 on mw and mwss, where a single plane makes the
    call fail (C54_one_plane_refuted). *)
Definition pw_forward_hyps (gl : gl_rule) (b : backend) (s : scheme) (f : ndarray C) (L N nside : Z) (o : option Z) : Prop :=
  setting (scheme_name s) s L nside o /\ 1 <= N <= L /\ shape f = 2 * N - 1 :: map_shape s L nside /\
  rule_sizes s L (gl_nodes gl L) (gl_weights gl L) /\ (s = HEALPIX -> 2 * nside <= L /\ (b = jax -> 2 <= nside)) /\ (s = MW \/ s = MWSS -> 2 <= N).
