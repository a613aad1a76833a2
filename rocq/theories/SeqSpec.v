(** Sequences of element operations through one name, for C08 to C10: which statements, under
    which conditions, and what becomes of the elements. *)
From Coq Require Import ZArith Bool List String Lia.
From Verif Require Import Base StrModel ValModel NumModel MemModel ArrSpec.
Import ListNotations.
Local Open Scope list_scope.
Local Notation length := List.length.

(** A statement on variable [c], which is array [l] of type [t] with elements [xs], and the
    elements it can leave. *)
Inductive edit (s : state) (c l : nat) (t : hty) (xs : list mvar) : stmt -> (list mvar -> Prop) -> Prop :=
| ed_write : forall i f x y z, writable s l t -> i < length xs -> operand s f x -> denotes s x y -> stored t y z -> (holds_vars t -> x <> MRef l i) ->
    edit s c l t xs (SAssign (EIdx (EVar c) (Z.of_nat i)) f) (eq (replaced xs i z))
| ed_push : forall f x y z, writable s l t -> small (S (length xs)) -> operand s f x -> denotes s x y -> stored t y z ->
    edit s c l t xs (SPush (EVar c) f) (eq (xs ++ [z]))
| ed_pop : forall ys y, xs = ys ++ [y] -> small (length ys) ->
    edit s c l t xs (SEval (EPop (EVar c))) (eq ys)
| ed_resize : forall n, small n ->
    edit s c l t xs (SResize (EVar c) (Z.of_nat n))
      (fun xs' => length xs' = n /\ firstn (Nat.min (length xs) n) xs' = firstn (Nat.min (length xs) n) xs)
| ed_insert_var : forall i f x y, t = HE TVar -> replaceable s l -> small (S (length xs)) -> i <= length xs -> operand s f x -> denotes s x y -> (forall k, x <> MRef l k) ->
    edit s c l t xs (SInsert (EVar c) f (Z.of_nat i)) (eq (firstn i xs ++ [y] ++ skipn i xs))
| ed_insert_dense : forall i k lp tp ys zs, ~ holds_vars t -> Forall (number_of t) xs -> variable s k (MPtr lp) -> lp <> l -> array_at s lp tp ys ->
    Forall2 (stored t) ys zs -> small (length xs + length ys) -> i <= length xs ->
    edit s c l t xs (SInsert (EVar c) (EVar k) (Z.of_nat i)) (eq (firstn i xs ++ zs ++ skipn i xs))
| ed_append_var : forall f x y, t = HE TVar -> replaceable s l -> small (S (length xs)) -> operand s f x -> denotes s x y -> (forall k, x <> MRef l k) ->
    edit s c l t xs (SAppend (EVar c) f) (eq (xs ++ [y]))
| ed_append_dense : forall k lp tp ys zs, ~ holds_vars t -> Forall (number_of t) xs -> variable s k (MPtr lp) -> lp <> l -> array_at s lp tp ys ->
    Forall2 (stored t) ys zs -> small (length xs + length ys) ->
    edit s c l t xs (SAppend (EVar c) (EVar k)) (eq (xs ++ zs))
| ed_append_str : forall str, t = HE TChar -> small (length xs + length str) ->
    edit s c l t xs (SAppendStr (EVar c) str) (eq (xs ++ map (fun a => MNum (VChar a)) str))
| ed_shift : forall y ys, xs = y :: ys -> y <> MJunk -> small (length ys) ->
    edit s c l t xs (SEval (EShift (EVar c))) (eq ys)
| ed_unshift : forall f x z, small (S (length xs)) -> operand s f x -> front s l t x z ->
    edit s c l t xs (SUnshift (EVar c) f) (eq (z :: xs))
| ed_remove : forall i y, movable s l t xs -> small (length xs) -> nth_error xs i = Some y -> copyable_elem s y ->
    edit s c l t xs (SEval (ERemove (EVar c) (Z.of_nat i))) (eq (without xs i)).

(** A run of such statements: [xs] are the elements before, [xs'] after. *)
Inductive edits (c l : nat) (t : hty) : state -> list mvar -> list stmt -> state -> list mvar -> Prop :=
| eds_nil : forall s xs, edits c l t s xs [] s xs
| eds_cons : forall s xs st P s1 xs1 sts s2 xs2, edit s c l t xs st P -> exec st s = ROk tt s1 -> array_at s1 l t xs1 -> P xs1 ->
    edits c l t s1 xs1 sts s2 xs2 -> edits c l t s xs (st :: sts) s2 xs2.
