(** Rounded arithmetic: what is assumed of it, and the rounding of IEEE 754 binary64. *)
From Coq Require Import Reals.
From Flocq Require Import Core.
From Verif Require Import Model.RisboFloat.
Open Scope R_scope.

(** Every operation returns the exact result up to a relative error u and an absolute error eta
    (underflow); sine and cosine are correct to 4 u. *)
Record rounded (A : arith) (u eta : R) : Prop := {
  rd_u : 0 <= u; rd_eta : 0 <= eta;
  rd_add : forall x y, Rabs (fadd A x y - (x + y)) <= u * Rabs (x + y) + eta;
  rd_mul : forall x y, Rabs (fmul A x y - x * y) <= u * Rabs (x * y) + eta;
  rd_div0 : forall y, y <> 0 -> fdiv A 0 y = 0;
  rd_div : forall x y, y <> 0 -> Rabs (fdiv A x y - x / y) <= u * Rabs (x / y) + eta;
  rd_sqrt : forall x, 0 <= x -> Rabs (fsqrt A x - sqrt x) <= u * sqrt x + eta;
  rd_sin : forall x, Rabs (fsin A x - sin x) <= 4 * u;
  rd_cos : forall x, Rabs (fcos A x - cos x) <= 4 * u;
  rd_pi : Rabs (fpi A - PI) <= u * PI + eta }.

(** round to nearest, ties to even, with gradual underflow and no largest number: precision prec,
    smallest positive number 2^emin *)
Definition rnd (emin prec : Z) (x : R) : R := round radix2 (FLT_exp emin prec) ZnearestE x.
Definition ieee (emin prec : Z) : arith :=
  mkArith (fun x y => rnd emin prec (x + y)) (fun x y => rnd emin prec (x * y)) (fun x y => rnd emin prec (x / y))
    (fun x => rnd emin prec (sqrt x)) (fun x => rnd emin prec (sin x)) (fun x => rnd emin prec (cos x)) (rnd emin prec PI).
(** binary64 and binary32 *)
Definition rnd64 (x : R) : R := rnd (-1074) 53 x.
Definition binary64 : arith := ieee (-1074) 53.
Definition rnd32 (x : R) : R := rnd (-149) 24 x.
Definition binary32 : arith := ieee (-149) 24.
(** unit roundoff and half of the smallest subnormal number *)
Definition u64 : R := bpow radix2 (-53).
Definition eta64 : R := bpow radix2 (-1075).
Definition u32 : R := bpow radix2 (-24).
Definition eta32 : R := bpow radix2 (-150).
