(** Independent vocabulary for the indexing properties. *)
From Verif Require Import Lib.Py.
Open Scope Z_scope.

(** Harmonic degree/order pairs of a band-limit-L signal. *)
Definition valid_lm (L el m : Z) : Prop := 0 <= el < L /\ - el <= m <= el.

(** Non-negative orders only (real signals, healpy ordering). *)
Definition valid_lm_pos (L el m : Z) : Prop := 0 <= el < L /\ 0 <= m <= el.

(** Degree, order and directional order of a Wigner coefficient. *)
Definition valid_lmn (L N el m n : Z) : Prop := valid_lm L el m /\ - N < n < N.

(** [f] maps the pairs satisfying [P] one-to-one onto 0..n-1. *)
Definition bijection2 (P : Z -> Z -> Prop) (f : Z -> Z -> Z) (n : Z) : Prop :=
  (forall a b, P a b -> 0 <= f a b < n) /\
  (forall a b a' b', P a b -> P a' b' -> f a b = f a' b' -> a = a' /\ b = b') /\
  (forall k, 0 <= k < n -> exists a b, P a b /\ f a b = k).

Definition bijection3 (P : Z -> Z -> Z -> Prop) (f : Z -> Z -> Z -> Z) (n : Z) : Prop :=
  (forall a b c, P a b c -> 0 <= f a b c < n) /\
  (forall a b c a' b' c', P a b c -> P a' b' c' ->
     f a b c = f a' b' c' -> a = a' /\ b = b' /\ c = c') /\
  (forall k, 0 <= k < n -> exists a b c, P a b c /\ f a b c = k).

(** A 2D coefficient array (row = degree, column L-1+m = order m) holds zero wherever |m|>el. *)
Definition triangular {A} (zero : A) (L : Z) (f : ndarray A) : Prop :=
  forall el m, 0 <= el < L -> - L < m < L -> ~ valid_lm L el m -> get f [el; L - 1 + m] = zero.

(** The same for 3D Wigner coefficient arrays. *)
Definition triangular3 {A} (zero : A) (L N : Z) (f : ndarray A) : Prop :=
  forall n el m, - N < n < N -> 0 <= el < L -> - L < m < L -> ~ valid_lm L el m ->
    get f [N - 1 + n; el; L - 1 + m] = zero.

(** Real-signal symmetry f[el,-m] = (-1)^m conj f[el,m], m >= 1. *)
Definition real_symmetric {A} (neg conj : A -> A) (L : Z) (f : ndarray A) : Prop :=
  forall el m, 0 <= el < L -> 1 <= m <= el ->
    get f [el; L - 1 - m]
    = (if Z.even m then conj (get f [el; L - 1 + m]) else neg (conj (get f [el; L - 1 + m]))).
