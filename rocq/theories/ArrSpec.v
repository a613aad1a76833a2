(** What the properties of the array methods say about states: the elements of an array, the
    value an operand stands for, what an array of a given type stores of it, and that nothing
    else changed.  Only the data types of the model are used. *)
From Coq Require Import ZArith Bool List String Lia.
From Verif Require Import Base StrModel ValModel NumModel MemModel.
Import ListNotations.
Local Open Scope list_scope.
Local Notation length := List.length.

(** States a program can get into. *)
Definition reachable (s : state) : Prop := exists prog, run prog start = ROk tt s.

(** Variable [j] has the value [x]. *)
Definition variable (s : state) (j : nat) (x : mvar) : Prop := nth_error (stk s) j = Some x.
(** Array [l], not a view, has type [t] and the elements [xs]. *)
Definition array_at (s : state) (l : nat) (t : hty) (xs : list mvar) : Prop :=
  exists o, nth_error (mem s) l = Some (Some o) /\ h_view o = None /\ h_ty o = t /\
            h_size o = length xs /\ firstn (length xs) (map snd (h_cells o)) = xs.
(** Map [l] has the entries [kvs]. *)
Definition map_at (s : state) (l : nat) (kvs : list (mvar * mvar)) : Prop :=
  exists o, nth_error (mem s) l = Some (Some o) /\ h_view o = None /\ h_ty o = HPair /\
            h_size o = length kvs /\ firstn (length kvs) (h_cells o) = kvs.
(** A string ends in a NUL inside its storage. *)
Definition terminated (s : state) (l : nat) : Prop :=
  exists o k, nth_error (mem s) l = Some (Some o) /\ nth_error (h_cells o) (h_size o) = Some (k, MNum (VChar 0)).

(** Arrays of vars and maps store vars, the others numbers of their type. *)
Definition holds_vars (t : hty) : Prop := t = HE TVar \/ t = HPair.
Definition number_of (t : hty) (x : mvar) : Prop := exists v, x = MNum v /\ t = HE (ety_of v) /\ ety_of v <> TVar.
(** Every cell of [l], also above its size, holds a value that an assignment replaces: not a
    reference, and not a view. *)
Definition replaceable (s : state) (l : nat) : Prop :=
  forall o c, nth_error (mem s) l = Some (Some o) -> In c (h_cells o) ->
    (forall k i, snd c <> MRef k i) /\
    (forall k o', snd c = MPtr k -> nth_error (mem s) k = Some (Some o') -> h_view o' = None).
(** What is asked of an array for a method that moves its elements: those of an array of vars
    are replaceable, those of any other are initialised numbers. *)
Definition movable (s : state) (l : nat) (t : hty) (xs : list mvar) : Prop :=
  (holds_vars t /\ replaceable s l) \/ Forall (number_of t) xs.
(** The same for a method that writes elements without reading any. *)
Definition writable (s : state) (l : nat) (t : hty) : Prop := holds_vars t -> replaceable s l.

(** The value [y] that a var [x] stands for: a reference to an existing element of an array that is
    not a view stands for that element. *)
Definition denotes (s : state) (x y : mvar) : Prop :=
  match x with
  | MRef l i => exists o k, nth_error (mem s) l = Some (Some o) /\ h_view o = None /\ i < h_size o /\
                  nth_error (h_cells o) i = Some (k, y) /\ y <> MJunk /\ forall l i, y <> MRef l i
  | MBad | MJunk => False
  | _ => y = x
  end.
(** What an array of type [t] stores for it. *)
Definition stored (t : hty) (y z : mvar) : Prop :=
  match t with
  | HE TVar | HPair => z = y
  | HE t => exists v u, y = MNum v /\ cast t v = Ok u /\ z = MNum u
  end.
(** Only array [l] has changed: the variables are the same, no array was added, and every array that
    is still allocated is as it was, or is [l]. *)
Definition only_array (l : nat) (s s' : state) : Prop :=
  stk s' = stk s /\ length (mem s') = length (mem s) /\ forall k o, k <> l -> nth_error (mem s') k = Some (Some o) -> nth_error (mem s) k = Some (Some o).

(** Right hand sides: a variable, a number, nothing, or an element of a variable's array; [x]
    is the var passed. *)
Inductive operand (s : state) : expr -> mvar -> Prop :=
| op_var : forall k x, variable s k x -> operand s (EVar k) x
| op_num : forall v, number v = true -> operand s (ENum v) (MNum v)
| op_nil : operand s ENil MNil
| op_at : forall k l i, variable s k (MPtr l) -> (0 <= i)%Z -> operand s (EAt (EVar k) i) (MRef l (Z.to_nat i))
| op_idx : forall k l t xs i, variable s k (MPtr l) -> array_at s l t xs -> (0 <= i < Z.of_nat (length xs))%Z ->
    operand s (EIdx (EVar k) i) (MRef l (Z.to_nat i)).

(** The arrays there were, other than [l], are as they were, as far as still allocated. *)
Definition others (l : nat) (s s' : state) : Prop :=
  length (mem s) <= length (mem s') /\ forall k o, k <> l -> k < length (mem s) -> nth_error (mem s') k = Some (Some o) -> nth_error (mem s) k = Some (Some o).
(** A value that an assignment to the variable replaces: not a reference, and not a view. *)
Definition assignable (s : state) (x : mvar) : Prop :=
  (forall k i, x <> MRef k i) /\ forall k o, x = MPtr k -> nth_error (mem s) k = Some (Some o) -> h_view o = None.
(** An initialised value other than a reference. *)
Definition value (x : mvar) : Prop := x <> MJunk /\ forall l i, x <> MRef l i.
(** A reference into an array of numbers is to an initialised element. *)
Definition proper (s : state) (x y : mvar) : Prop :=
  forall l i o, x = MRef l i -> nth_error (mem s) l = Some (Some o) -> ~ holds_vars (h_ty o) -> number_of (h_ty o) y.
(** What can be put in front of array [l] of type [t], and is stored there as [z]: any value but
    an own element of an array of vars, a number of the type of any other array. *)
Definition front (s : state) (l : nat) (t : hty) (x z : mvar) : Prop :=
  (t = HE TVar /\ denotes s x z /\ forall i, x <> MRef l i) \/ (number_of t z /\ denotes s x z /\ proper s x z).
(** Variable [j] is an array whose element [i] reads [v]. *)
Definition reads (s : state) (j i : nat) (v : mvar) : Prop :=
  exists l t xs, variable s j (MPtr l) /\ array_at s l t xs /\ nth_error xs i = Some v.
(** Variable [j] is an array, not a view, with type [t] and elements [xs]. *)
Definition holds_array (s : state) (j : nat) (t : hty) (xs : list mvar) : Prop :=
  exists l, variable s j (MPtr l) /\ array_at s l t xs.
(** Capacity below which no size computation wraps (alloc.h, heap.cpp 318-326). *)
Definition small (n : nat) : Prop := (Z.of_nat n < 2 ^ 30)%Z.
(** A list with element [i] replaced. *)
Definition replaced {A} (xs : list A) (i : nat) (x : A) : list A := firstn i xs ++ x :: skipn (S i) xs.
(** The capacity of an array of type [t] with capacity [c] after a resize to [n] elements: the
    next power of two, at least 8, of the size with the terminator, if that is more. *)
Definition capacity_after (c : nat) (t : hty) (n : nat) (c' : nat) : Prop :=
  c' = Nat.max c (Z.to_nat (2 ^ Z.log2_up (Z.max (Z.of_nat n + (match t with HE TChar => 1 | _ => 0 end)) 8))).
(** Array [l] has the given capacity. *)
Definition capacity (s : state) (l : nat) (c : nat) : Prop :=
  exists o, nth_error (mem s) l = Some (Some o) /\ length (h_cells o) = c.
(** The values of the first [length xs] cells of [l], also above its size. *)
Definition cells_begin (s : state) (l : nat) (xs : list mvar) : Prop :=
  exists o, nth_error (mem s) l = Some (Some o) /\ firstn (length xs) (map snd (h_cells o)) = xs.
(** An element that [copy] can copy: a scalar, or an array that is not a view and not huge. *)
Definition copyable_elem (s : state) (y : mvar) : Prop :=
  (forall l i, y <> MRef l i) /\ forall k o, y = MPtr k -> nth_error (mem s) k = Some (Some o) -> h_view o = None /\ small (h_size o).
(** A list without element [i]. *)
Definition without {A} (xs : list A) (i : nat) : list A := firstn i xs ++ skipn (S i) xs.
