(** class ind: /repo/lube/ind.h 34-47. *)
From Coq Require Import ZArith Bool.
From Verif Require Import Base.
Local Open Scope Z_scope.

(** /repo/lube/ind.h 38: [explicit operator bool() const]. *)
Definition ind_bool (x : Z) : bool := if x <? 0 then false else true.

(** /repo/lube/ind.h 44: [ind operator ~() { return -(mInt+1); }], with both
    signed intptr_t operations checked for overflow. *)
Definition ind_not (x : Z) : outcome Z :=
  if in_long (x + 1) then
    if in_long (- (x + 1)) then Ok (- (x + 1)) else UB SignedOverflow
  else UB SignedOverflow.

(** /repo/lube/ind.h 40-43: ++ and -- . *)
Definition ind_inc (x : Z) : outcome Z :=
  if in_long (x + 1) then Ok (x + 1) else UB SignedOverflow.
Definition ind_dec (x : Z) : outcome Z :=
  if in_long (x - 1) then Ok (x - 1) else UB SignedOverflow.
