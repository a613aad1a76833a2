(** Roots of polynomials: /repo/lube/math.cpp 1050-1125, [Roots::vector], with the part of
    /repo/lube/clapack.cpp 268-291 it uses.

    [F] is the element type, float or double, with its operations; nothing is assumed of
    them here.  The matrix is the array under the view, row after row (view.cpp 60-88). *)
From Coq Require Import ZArith List String.
From Verif Require Import Base NumModel StrModel.
Import ListNotations.
Local Open Scope nat_scope.
Local Open Scope out_scope.
Local Open Scope list_scope.
Local Notation length := List.length.

Section Roots.
Context {F : Type}.
Variables (zero one : F) (mul div : F -> F -> F) (opp : F -> F).

(** Element access in bounds: [a(r, c)] is cell [r * size + c], [iVar(c)] cell [c]. *)
Definition rd (a : list F) (i : nat) : outcome F :=
  match nth_error a i with Some x => Ok x | None => UB OutOfBounds end.
Definition wr (a : list F) (i : nat) (x : F) : outcome (list F) :=
  if Nat.ltb i (length a) then Ok (set_nth a i x) else UB OutOfBounds.
(** [for (int i = i0; i < i0 + n; i++)] *)
Fixpoint count (n i : nat) (body : nat -> list F -> outcome (list F)) (a : list F) : outcome (list F) :=
  match n with
  | O => Ok a
  | S n => let* a := body i a in count n (S i) body a
  end.
(** The companion matrix, math.cpp 1052-1061.  [var(size*size, iVar.at(0))] is an array if
    there are two cells or more, and otherwise a number, of which there is no view
    (var.cpp 1357). *)
Definition companion (c : list F) (size : nat) : outcome (list F) :=
  let* c0 := rd c 0 in
  if negb (in_int (Z.of_nat size * Z.of_nat size)) then UB SignedOverflow else
  if Nat.ltb (size * size) 2 then Throw "var::view: Input not an array" else
  let a := repeat c0 (size * size) in
  let* a := count (size - 1) 1 (fun r a => wr a (r * size + (size - 1)) zero) a in
  let* a := count (size - 1) 0 (fun r a =>
              count (size - 1) 0 (fun k a => wr a ((r + 1) * size + k) (if Nat.eqb r k then one else zero)) a) a in
  count size 0 (fun k a => let* x := rd c (k + 1) in
                           let* y := rd c 0 in
                           wr a k (mul (div x y) (opp one))) a.
(** [geev n a] stands for sgeev_/dgeev_ on the [n] by [n] matrix whose columns are one after
    the other in [a], without eigenvectors: the arrays wr and wi.  The result of
    [Roots::vector] (math.cpp 1111-1124) pairs them. *)
Definition roots_vector (geev : nat -> list F -> list F * list F) (c : list F) : outcome (list (F * F)) :=
  let size := length c - 1 in
  let* a := companion c size in
  let (re, im) := geev size a in
  Ok (combine re im).
End Roots.
