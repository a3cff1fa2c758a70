(** Model of the status codes of lib/include/hresult.h. The width of C's long is a parameter:
    64 on LP64 (Linux, the target the CMake build compiles for), 32 on Windows. *)
From Coq Require Import ZArith List.
Import ListNotations.
Open Scope Z_scope.

(** Conversion to signed long of [width] bits (two's complement). *)
Definition to_long (width z : Z) : Z :=
  let r := z mod 2 ^ width in if r <? 2 ^ (width - 1) then r else r - 2 ^ width.

(** lib/include/hresult.h:6-7. A C comparison has value 1 or 0; here bool. *)
Definition SUCCEEDED (width hr : Z) : bool := 0 <=? to_long width hr.
Definition FAILED (width hr : Z) : bool := to_long width hr <? 0.

(** lib/include/hresult.h:9-10 *)
Definition S_OK (width : Z) : Z := to_long width 0x00000000.
Definition S_FALSE (width : Z) : Z := to_long width 1.
(** lib/include/hresult.h:12-21: the literals of E_ABORT, E_ACCESSDENIED, E_FAIL, E_HANDLE,
    E_INVALIDARG, E_NOINTERFACE, E_NOTIMPL, E_OUTOFMEMORY, E_POINTER, E_UNEXPECTED *)
Definition error_literals : list Z :=
  [0x80004004; 0x80070005; 0x80004005; 0x80070006; 0x80070057;
   0x80004002; 0x80004001; 0x8007000E; 0x80004003; 0x8000FFFF].
Definition error_code (width lit : Z) : Z := to_long width lit.
(** lib/include/hresult.h:14 *)
Definition E_FAIL (width : Z) : Z := error_code width 0x80004005.
