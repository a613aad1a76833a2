(** What the properties of arithmetic on arrays in memory say: which place of the storage takes
    part with which number. *)
From Coq Require Import ZArith Bool List String.
From Verif Require Import Base ValModel NumModel ArithModel ArithSpec MemModel ArrSpec MemViewSpec.
Import ListNotations.
Local Notation length := List.length.

(** Variable [j] is an array or view of shape [sh]; its elements are in the storage [cs] of [t]
    from place [off]. *)
Definition array_var (s : state) (j t off : nat) (sh : list Z) (ty : ety) (cs : list mvar) : Prop :=
  exists l, variable s j (MPtr l) /\ shaped s l t off sh /\ storage s t ty cs /\ in_int (elements sh) = true.
(** [x] refers to place [k] of the storage of [t], through the array or through a view of it. *)
Definition place (s : state) (x : mvar) (t k : nat) : Prop :=
  exists l i off sh, x = MRef l i /\ shaped s l t off sh /\ k = off + i.
(** [n] places from [off]. *)
Definition among (off n k : nat) : Prop := off <= k < off + n.
(** Each of the places [P] of [cs] has become the result of the operation with the number that
    [right] gives for it; the others are as they were. *)
Definition operated (op : aop) (P : nat -> Prop) (right : nat -> val -> Prop) (cs cs' : list mvar) : Prop :=
  length cs' = length cs /\
  (forall k, P k -> exists x y r, nth_error cs k = Some (MNum x) /\ right k y /\ op_by op y x r /\ nth_error cs' k = Some (MNum r)) /\
  (forall k, ~ P k -> nth_error cs' k = nth_error cs k).
(** A right operand that is an array, but not a single element. *)
Definition several (sh : list Z) : Prop := length sh <> 1 \/ elements sh <> 1%Z.
(** How many elements one step over the leading dimensions of [sh], those that [sh'] lacks, skips. *)
Definition row (sh sh' : list Z) : Z := elements (skipn (length sh - length sh') sh).
Definition floating (ty : ety) : Prop := ty = TFloat \/ ty = TDouble.
(** The first [m] places of each of [ops] rows of [step] places from [off]. *)
Definition in_rows (off step m ops k : nat) : Prop := among off (ops * step) k /\ Nat.modulo (k - off) step < m.
Definition vector_message (op : aop) : string :=
  match op with Add => "Add::vector: Unknown type" | Sub => "Sub::vector: Unknown type" | _ => "Mul::vector: Unknown type" end.
