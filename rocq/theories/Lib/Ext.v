(** Real numbers with infinities and NaN: IEEE arithmetic without rounding, overflow and signed
    zeros. Used where the code lets non-finite values arise and drops them afterwards. *)
From Coq Require Import Reals Lra.
From Coquelicot Require Import Complex.
From Verif Require Import Lib.Py Lib.Sums Lib.Cplx.
Open Scope R_scope.

Inductive ext : Type := Fin (r : R) | PInf | NInf | NaN.

Definition rsgn (r : R) : comparison := if Rlt_dec r 0 then Lt else if Rlt_dec 0 r then Gt else Eq.
(** the infinity of a sign; NaN for zero *)
Definition inf_of (c : comparison) : ext := match c with Gt => PInf | Lt => NInf | Eq => NaN end.

Definition eopp (x : ext) : ext := match x with Fin r => Fin (- r) | PInf => NInf | NInf => PInf | NaN => NaN end.
Definition eadd (x y : ext) : ext :=
  match x, y with
  | Fin a, Fin b => Fin (a + b)
  | NaN, _ | _, NaN => NaN
  | PInf, NInf | NInf, PInf => NaN
  | PInf, _ | _, PInf => PInf
  | NInf, _ | _, NInf => NInf
  end.
Definition esub (x y : ext) : ext := eadd x (eopp y).
Definition esign (x : ext) : option comparison :=
  match x with Fin r => Some (rsgn r) | PInf => Some Gt | NInf => Some Lt | NaN => None end.
Definition cmul (c d : comparison) : comparison :=
  match c, d with Eq, _ | _, Eq => Eq | Gt, Gt | Lt, Lt => Gt | _, _ => Lt end.
Definition emul (x y : ext) : ext :=
  match x, y with
  | Fin a, Fin b => Fin (a * b)
  | _, _ => match esign x, esign y with Some c, Some d => inf_of (cmul c d) | _, _ => NaN end
  end.
(** a quotient by zero is an infinity of the sign of the numerator: zeros carry no sign *)
Definition ediv (x y : ext) : ext :=
  match x, y with
  | Fin a, Fin b => if Req_EM_T b 0 then inf_of (rsgn a) else Fin (a / b)
  | NaN, _ | _, NaN => NaN
  | Fin _, _ => Fin 0
  | _, Fin b => match esign x with Some c => inf_of (cmul c (match rsgn b with Eq => Gt | d => d end)) | None => NaN end
  | _, _ => NaN
  end.
Definition eabs (x : ext) : ext := match x with Fin r => Fin (Rabs r) | PInf | NInf => PInf | NaN => NaN end.
Definition elog (x : ext) : ext :=
  match x with Fin r => match rsgn r with Gt => Fin (ln r) | Eq => NInf | Lt => NaN end
  | PInf => PInf | _ => NaN end.
Definition esqrt (x : ext) : ext :=
  match x with Fin r => match rsgn r with Lt => NaN | _ => Fin (sqrt r) end | PInf => PInf | _ => NaN end.
Definition eexp (x : ext) : ext := match x with Fin r => Fin (exp r) | PInf => PInf | NInf => Fin 0 | NaN => NaN end.
Definition is_fin (x : ext) : bool := match x with Fin _ => true | _ => false end.
Definition is_nan (x : ext) : bool := match x with NaN => true | _ => false end.
(** numpy.nan_to_num(x, nan=0, posinf=0, neginf=0) *)
Definition nan_to_num (x : ext) : ext := match x with Fin r => Fin r | _ => Fin 0 end.
Definition ez (k : Z) : ext := Fin (IZR k).

(** ** Complex numbers with such parts *)
Definition ecx : Type := (ext * ext)%type.
Definition fin (z : C) : ecx := (Fin (Re z), Fin (Im z)).
Definition cadd (z w : ecx) : ecx := (eadd (fst z) (fst w), eadd (snd z) (snd w)).
(** a real number times a finite complex number, part by part. numpy would form (x + 0j) * z, which
    is NaN in some part whenever this is. *)
Definition escale (x : ext) (z : C) : ecx := (emul x (Fin (Re z)), emul x (Fin (Im z))).
Definition cx_nan (z : ecx) : bool := is_nan (fst z) || is_nan (snd z).
(** numpy.nansum over a range of indices: NaN terms count as 0 *)
Definition nansum (l : list Z) (f : Z -> ecx) : ecx :=
  fold_left (fun acc i => cadd acc (if cx_nan (f i) then fin (RtoC 0) else f i)) l (fin (RtoC 0)).
(** the finite complex number, if it is one *)
Definition to_C (z : ecx) : result C :=
  match z with (Fin a, Fin b) => Ok (a, b) | _ => Err OtherError end.
