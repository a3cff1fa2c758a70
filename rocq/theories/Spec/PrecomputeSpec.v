(** Vocabulary for the transforms with a precomputed kernel (s2fft/precompute_transforms). *)
From Coq Require Import Reals.
From Coquelicot Require Import Complex.
From Verif Require Import Lib.Py Lib.Vec Lib.Arr Model.Grids Model.Resampling Model.PriceMcEwen Model.Precompute.
Open Scope string_scope.
Open Scope Z_scope.

(** The recursions exact at the colatitudes themselves: "risbo" for spins below the band-limit, "auto"
    with a spin for which it selects "risbo", and in NumPy "auto"/"price-mcewen" with |spin| <= 6, which
    selects the Turok recursion and needs its colatitudes away from the poles. In JAX the latter select
    the recursion of Price and McEwen, see [pm_kernel_given] below. *)
Definition recursion_ok (b : backend) (recursion : string) (L spin : Z) (away : Prop) : Prop :=
  (lower recursion = "risbo" /\ Z.abs spin < L) \/
  (lower recursion = "auto" /\ 6 < Z.abs spin < L) \/
  (b = numpy /\ (lower recursion = "auto" \/ lower recursion = "price-mcewen") /\ Z.abs spin <= 6 /\ away).

Definition runs_on (method : string) (b : backend) : Prop :=
  (method = "numpy" /\ b = numpy) \/ ((method = "jax" \/ method = "torch") /\ b = jax).

(** The kernel argument: none, or a kernel computed beforehand by either back end. *)
Definition kernel_given (gl : gl_rule) (b : backend) (L spin : Z) (reality : bool) (sampling : string) (nside : option Z)
    (forward : bool) (away : Prop) (kernel : option (ndarray C)) : Prop :=
  (kernel = None /\ recursion_ok b "auto" L spin away) \/
  exists b' recursion K, kernel = Some K /\ recursion_ok b' recursion L spin away /\
    kernel_function b' gl L spin reality sampling nside forward recursion = Ok K.

(** The same for kernels of the recursion of Price and McEwen, in JAX: colatitudes computed by [th]. *)
Definition pm_kernel_given (th : theta_fn) (gl : gl_rule) (b : backend) (L spin : Z) (reality : bool) (sampling : string) (nside : option Z)
    (forward : bool) (kernel : option (ndarray C)) : Prop :=
  Z.abs spin <= 6 /\
  ((kernel = None /\ b = jax) \/
   exists recursion K, kernel = Some K /\ (lower recursion = "auto" \/ lower recursion = "price-mcewen") /\
     kernel_function_at jax th gl L spin reality sampling nside forward recursion = Ok K).
