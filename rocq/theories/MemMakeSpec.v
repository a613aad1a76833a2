(** What the properties of making and moving views say about states. *)
From Coq Require Import ZArith Bool List String.
From Coq.Floats Require Import SpecFloat.
From Verif Require Import Base ValModel NumModel MemModel ArrSpec MemViewSpec.
Import ListNotations.
Local Open Scope list_scope.
Local Notation length := List.length.

(** Array or view [l] has the size [n]. *)
Definition size_at (s : state) (l n : nat) : Prop := exists o, nth_error (mem s) l = Some (Some o) /\ h_size o = n.
(** No product of dimensions and no end of a view from [off] is too large for an int. *)
Definition countable (sh : list Z) (off : Z) : Prop :=
  (forall n, in_int (elements (skipn n sh)) = true) /\ in_int off = true /\ in_int (elements sh + off) = true.
(** There is one more variable, which is the one new array; all others are what they were. *)
Definition one_more (s s' : state) : Prop :=
  stk s' = stk s ++ [MPtr (length (mem s))] /\ length (mem s') = S (length (mem s)) /\
  forall k, k < length (mem s) -> nth_error (mem s') k = nth_error (mem s) k.
(** How many hold array [l]. *)
Definition holders (s : state) (l : nat) : nat := nth l (rc s) 0.
(** Only array [l] is different, and of it only the value in the first cell. *)
Definition only_first (l : nat) (s s' : state) : Prop :=
  stk s' = stk s /\ rc s' = rc s /\ length (mem s') = length (mem s) /\
  (forall k, k <> l -> nth_error (mem s') k = nth_error (mem s) k) /\
  (forall o, nth_error (mem s) l = Some (Some o) -> exists o', nth_error (mem s') l = Some (Some o') /\
     h_ty o' = h_ty o /\ h_size o' = h_size o /\ h_gen o' = h_gen o /\ h_view o' = h_view o /\ tl (h_cells o') = tl (h_cells o)).
(** There is one more variable, the last of two new arrays; the others are what they were, as far as
    still allocated. *)
Definition two_more (s s' : state) : Prop :=
  stk s' = stk s ++ [MPtr (S (length (mem s)))] /\ length (mem s') = S (S (length (mem s))) /\
  forall k o, k < length (mem s) -> nth_error (mem s') k = Some (Some o) -> nth_error (mem s) k = Some (Some o).
(** The number an array is made with: zero if nothing is given. *)
Inductive begins : mvar -> val -> Prop :=
| begins_number : forall v, begins (MNum v) v
| begins_nothing : begins MNil (VFloat (S754_zero false)).
