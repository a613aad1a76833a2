(** Outcomes of C++ functions.

    Every modelled function that can throw, run into undefined behaviour or loop
    returns an [outcome].  This file has no counterpart in /repo. *)
From Coq Require Import ZArith List String.

(** Why an execution is undefined (or aborted by a failing [assert]). *)
Inductive ubkind :=
| NullDeref       (* member access through a null IHeap pointer *)
| OutOfBounds     (* access outside an allocated buffer *)
| UseAfterFree    (* access to a released Heap or to a released buffer *)
| SignedOverflow  (* int arithmetic outside its range *)
| TypePun         (* reading a union member other than the one written *)
| AssertFail      (* a failed assert() *)
| BadSize         (* memmove/new[] with a negative (huge unsigned) size *)
| Uninit          (* use of an indeterminate value *)
| DivByZero.      (* integer division by zero *)

(** [Throw] carries a tag naming the exception. *)
Inductive outcome (A : Type) :=
| Ok (a : A)
| Throw (msg : string)
| UB (k : ubkind)
| Fuel.
Arguments Ok {A} a.
Arguments Throw {A} msg.
Arguments UB {A} k.
Arguments Fuel {A}.

Definition obind {A B} (o : outcome A) (f : A -> outcome B) : outcome B :=
  match o with
  | Ok a => f a
  | Throw m => Throw m
  | UB k => UB k
  | Fuel => Fuel
  end.

Declare Scope out_scope.
Delimit Scope out_scope with out.
Notation "'let*' x ':=' a 'in' b" := (obind a (fun x => b))
  (at level 200, x pattern, right associativity) : out_scope.
Open Scope out_scope.

Definition is_ok {A} (o : outcome A) : Prop := exists a, o = Ok a.

Lemma obind_ok {A B} (o : outcome A) (f : A -> outcome B) b :
  obind o f = Ok b -> exists a, o = Ok a /\ f a = Ok b.
Proof. destruct o; simpl; intros H; try discriminate; eauto. Qed.

(** 32-bit and 64-bit two's complement ranges (x86-64 Linux). *)
Local Open Scope Z_scope.
Definition INT_MAX : Z := 2^31 - 1.
Definition INT_MIN : Z := - 2^31.
Definition LONG_MAX : Z := 2^63 - 1.
Definition LONG_MIN : Z := - 2^63.
Definition in_int (x : Z) : bool := (INT_MIN <=? x) && (x <=? INT_MAX).
Definition in_long (x : Z) : bool := (LONG_MIN <=? x) && (x <=? LONG_MAX).
(** Conversion to int / long / char keeps the low bits (gcc). *)
Definition wrap (bits x : Z) : Z := (x + 2^(bits-1)) mod 2^bits - 2^(bits-1).
Definition wrap_char := wrap 8.
Definition wrap_int := wrap 32.
Definition wrap_long := wrap 64.
