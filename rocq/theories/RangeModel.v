(** irange and range: /repo/lube/var.cpp 857-898. *)
From Coq Require Import ZArith Bool List String.
From Verif Require Import Base StrModel ValModel NumModel ArithModel.
Import ListNotations.
Local Open Scope Z_scope.

(** [iLo += iStep], /repo/lube/var.h 105 and /repo/lube/math.cpp 328-359 for two numbers ([Add::scalar]
    adds in the type of the left operand). *)
Definition add_step (a s : val) : outcome val :=
  match s with
  | VChar _ | VInt _ | VLong _ | VFloat _ | VDouble _ => num_op Add a s
  | _ => Throw "not modelled"
  end.
(** [r.push(iLo)] /repo/lube/var.cpp 1066-1089; the capacity cannot grow beyond 2^30 elements
    (AllocModel.v). *)
Definition range_push (r x : val) : outcome val := if 2^30 <=? vsize r then UB AssertFail else push r x.
(** The loops.  [incl] is the test: [iLo < iHi], or [iLo <= iHi], that is [!(iHi < iLo)]
    (/repo/lube/var.h 102-103). *)
Definition range_test (incl : bool) (iLo iHi : val) : outcome bool :=
  if incl then let* b := vlt iHi iLo in Ok (negb b) else vlt iLo iHi.
Fixpoint range_loop (fuel : nat) (incl : bool) (iLo iHi iStep r : val) : outcome val :=
  match fuel with
  | O => Fuel
  | S f => let* b := range_test incl iLo iHi in
           if b : bool then
             let* r := range_push r iLo in
             let* iLo := add_step iLo iStep in
             range_loop f incl iLo iHi iStep r
           else Ok r
  end.
(** /repo/lube/var.cpp 857-866 and 882-891. *)
Definition irange (fuel : nat) (iLo iHi iStep : val) : outcome val := range_loop fuel false iLo iHi iStep VNil.
Definition range (fuel : nat) (iLo iHi iStep : val) : outcome val := range_loop fuel true iLo iHi iStep VNil.
(** The forms with one argument, /repo/lube/var.cpp 869-872 and 895-898; the step is the int 1
    (/repo/lube/var.h 237-240). *)
Definition irange_to (fuel : nat) (iHi : val) : outcome val :=
  let* lo := num_op Sub iHi iHi in irange fuel lo iHi (VInt 1).
Definition range_to (fuel : nat) (iHi : val) : outcome val :=
  let* d := num_op Sub iHi iHi in
  let* lo := num_op Add d (VInt 1) in
  range fuel lo iHi (VInt 1).
