(** Storage growth: /repo/lube/heap.cpp 186-271. *)
From Coq Require Import ZArith Bool List.
From Verif Require Import Base.
Local Open Scope Z_scope.

(** /repo/lube/heap.cpp 199-203, the while loop.  [size <<= 1] on int keeps the low
    32 bits (1<<31 becomes INT_MIN with gcc).  32 rounds of fuel always suffice for an
    int. *)
Fixpoint alloc_loop (fuel : nat) (iSize size : Z) : outcome Z :=
  match fuel with
  | O => Fuel
  | S f => if 0 <? iSize
           then alloc_loop f (Z.shiftr iSize 1) (wrap_int (2 * size))
           else Ok size
  end.

(** /repo/lube/heap.cpp 189-205: [int allocSize(int iSize)]. *)
Definition allocSize (iSize : Z) : outcome Z :=
  if iSize <? 0 then UB AssertFail else
  let iSize := if iSize <? 8 then 8 else iSize in
  if iSize <=? 2 then Ok iSize
  else alloc_loop 33 (iSize - 1) 1.

(** /repo/lube/heap.cpp 225-271: what [Heap::resize] does to [mCapacity].  The boolean
    result says whether storage was re-allocated (lines 247-263; the first allocation,
    lines 236-241, is not counted).  [isChar] is [mType == TYPE_CHAR].
    [alloc] asserts a non-negative size (heap.cpp 316). *)
Definition resize_cap (isChar : bool) (cap iSize : Z) : outcome (Z * bool) :=
  let iSize := if isChar then iSize + 1 else iSize in
  if cap =? 0 then
    let* c := allocSize iSize in
    if c <? 0 then UB AssertFail else Ok (c, false)
  else
    let* newSize := allocSize iSize in
    if cap <? newSize then Ok (newSize, true) else Ok (cap, false).

(** Growing an array one element at a time: sizes 1,2,...,n in turn (this is what n calls
    of push on an array do, /repo/lube/var.cpp 1087 and 717-718).  Returns the final
    capacity and the number of re-allocations. *)
Fixpoint grow (isChar : bool) (n : nat) : outcome (Z * Z) :=
  match n with
  | O => Ok (0, 0)
  | S m =>
    let* (cap, cnt) := grow isChar m in
    let* (cap', re) := resize_cap isChar cap (Z.of_nat (S m)) in
    Ok (cap', if re : bool then cnt + 1 else cnt)
  end.
