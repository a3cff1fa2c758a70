(** Random test signals: which draws of the random stream each coefficient is made of. *)
From Coq Require Import ZArith List Reals.
From Coquelicot Require Import Complex.
From Verif Require Import Lib.Py Lib.Cplx Lib.Sums.
Import ListNotations.
Open Scope Z_scope.

(** The pairs (el, m) with lo <= el < L and 1 <= m <= el, as the documentation lists them. *)
Definition positive_orders (lo L : Z) : list (Z * Z) :=
  flat_map (fun el => map (fun m => (el, m)) (zrange 1 (el + 1))) (zrange lo L).
(** Their number, and the place of one of them in that list. *)
Definition tri (e : Z) : Z := e * (e - 1) / 2.
Definition pair_count (lo L : Z) : Z := tri L - tri lo.
Definition pair_place (lo el m : Z) : Z := tri el - tri lo + m - 1.

(** What a coefficient is made of: no draw, one draw (a real value) or two (real and imaginary part). *)
Inductive source := NoDraw | RealDraw (i : Z) | ComplexDraw (i j : Z).
Definition value (g : Z -> R) (k : Z) (s : source) : C :=
  match s with
  | NoDraw => RtoC 0
  | RealDraw i => RtoC (g (k + i))
  | ComplexDraw i j => (g (k + i), g (k + j))
  end.
Definition uses (s : source) (i : Z) : Prop :=
  match s with NoDraw => False | RealDraw j => i = j | ComplexDraw j k => i = j \/ i = k end.

(** Coefficients on the sphere: L - lo draws for m = 0, then the positive orders, then the negative ones. *)
Definition flm_source (lo L el m : Z) : source :=
  if (el <? lo) || (el <? Z.abs m) then NoDraw
  else if m =? 0 then RealDraw (el - lo)
  else if 0 <? m then ComplexDraw (L - lo + pair_place lo el m) (L - lo + pair_count lo L + pair_place lo el m)
  else ComplexDraw (L - lo + 2 * pair_count lo L + pair_place lo el (- m))
                   (L - lo + 3 * pair_count lo L + pair_place lo el (- m)).
Definition flm_draws (lo L : Z) (reality : bool) : Z :=
  L - lo + (if reality then 2 else 4) * pair_count lo L.

(** Coefficients on the rotation group: one block of draws for each n. With reality the entries with
    m > 0, or m = 0 and n >= 0, are drawn; the others follow from the symmetry. *)
Definition low3 (Lo n : Z) : Z := Z.max Lo (Z.abs n).
Definition axis_draws (reality : bool) (L Lo n : Z) : Z :=
  if reality then (if n =? 0 then L - low3 Lo n else if 0 <? n then 2 * (L - low3 Lo n) else 0)
  else 2 * (L - low3 Lo n).
Definition plane_draws (reality : bool) (L Lo n : Z) : Z :=
  axis_draws reality L Lo n + (if reality then 2 else 4) * pair_count (low3 Lo n) L.
Fixpoint zsum (f : Z -> Z) (l : list Z) : Z := match l with [] => 0 | x :: l => f x + zsum f l end.
Definition plane_start (reality : bool) (L N Lo n : Z) : Z := zsum (plane_draws reality L Lo) (zrange (- N + 1) n).
Definition flmn_source (reality : bool) (L N Lo n el m : Z) : source :=
  let lo := low3 Lo n in
  let b := plane_start reality L N Lo n in
  let a := axis_draws reality L Lo n in
  if (el <? lo) || (el <? Z.abs m) then NoDraw
  else if m =? 0 then
    if reality && (n =? 0) then RealDraw (b + (el - lo)) else ComplexDraw (b + (el - lo)) (b + (L - lo) + (el - lo))
  else if 0 <? m then ComplexDraw (b + a + pair_place lo el m) (b + a + pair_count lo L + pair_place lo el m)
  else ComplexDraw (b + a + 2 * pair_count lo L + pair_place lo el (- m))
                   (b + a + 3 * pair_count lo L + pair_place lo el (- m)).
Definition flmn_draws (reality : bool) (L N Lo : Z) : Z := plane_start reality L N Lo N.
(** the entries drawn for a real signal *)
Definition primary3 (n m : Z) : bool := (0 <? m) || ((m =? 0) && (0 <=? n)).

(** The coefficients: drawn, or for a real signal given by the symmetry
    c(el, -m) = (-1)^m conj c(el, m) and c(-n, el, -m) = (-1)^(m+n) conj c(n, el, m). *)
Definition flm_value (g : Z -> R) (k : Z) (reality : bool) (lo L el m : Z) : C :=
  if reality && (m <? 0) then (RtoC (sgn m) * Cconj (value g k (flm_source lo L el (- m))))%C
  else value g k (flm_source lo L el m).
Definition flmn_value (g : Z -> R) (k : Z) (reality : bool) (L N Lo n el m : Z) : C :=
  if reality && negb (primary3 n m)
  then (RtoC (sgn (m + n)) * Cconj (value g k (flmn_source reality L N Lo (- n) el (- m))))%C
  else value g k (flmn_source reality L N Lo n el m).
