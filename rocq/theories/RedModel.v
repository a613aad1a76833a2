(** Sums, sums of magnitudes, the place of the largest magnitude and powers, by type of element:
    /repo/lube/math.cpp 184-211, 786-987.  Variables are those of CplxModel.v, so arrays have one
    dimension and are not views; GeoModel.v has the dimensions. *)
From Coq Require Import ZArith Bool List String Arith.
From Verif Require Import Base CplxModel.
Import ListNotations.
Local Open Scope string_scope.
Local Open Scope list_scope.
Local Notation length := List.length.

Section Reductions.
Variable K : reals.
Notation num := (num K). Notation store := (store K). Notation cvar := (cvar K).
Variable add : num -> num -> num.          (* + on two numbers of the same type *)
Variable magnitude : num -> num.           (* std::abs of a real number *)
Variable above : num -> num -> bool.       (* isamax_ and so on: the magnitude is above the other *)
Variable power : num -> num -> num.        (* std::pow on two numbers of the same type *)
Variable zero : ety -> num.                (* (T)0 *)

(** [UnaryFunctor::broadcast] for a functor of one dimension, /repo/lube/func.cpp 116-131: one call of
    [vector], unless the size is zero. *)
Definition one_row (m : store) (x : cvar) {X} (vector : nat -> outcome X) : outcome X :=
  let* n := vsize K m x in
  if Nat.eqb n 0 then UB DivByZero else vector n.

(** [sumArray], /repo/lube/math.cpp 900-908, and the loop of [blas::asum]. *)
Fixpoint accumulate (f : num -> num) (m : store) (a : nat) (n i : nat) (s : num) : outcome num :=
  match n with
  | O => Ok s
  | S k => let* x := rd K m a i in accumulate f m a k (S i) (add s (f x))
  end.

(** [scalarAlloc], /repo/lube/math.cpp 111-125. *)
Definition scalar_alloc (m : store) (x : cvar) : outcome (store * cvar) :=
  let* (m1, v) := at_ K m x 0 in assign K m1 Nil v.
(** [Sum::scalar] and [Sum::vector], /repo/lube/math.cpp 876-897, 911-936. *)
Definition sum_scalar (m : store) (x o : cvar) : outcome (store * cvar) :=
  let* t := ftype K m x in
  match t with
  | None =>
    one_row m x (fun n =>
      let* s := atype K m x in
      match x, s with
      | Arr a, (EFloat | EDouble | ECFloat | ECDouble) => let* r := accumulate (fun x => x) m a n 0 (zero s) in put K m o r
      | _, _ => Throw "Sum::vector: Unknown type"
      end)
  | Some EInt => Throw "Sum::operator(): Unknown type"
  | Some s => let* r := get K s m x in put K m o r
  end.
(** [Sum::alloc], /repo/lube/math.cpp 869-873, and [operator()]. *)
Definition sum (m : store) (x : cvar) : outcome (store * cvar) :=
  let* (m1, o) := scalar_alloc m x in sum_scalar m1 x o.

(** [ASum::alloc], /repo/lube/math.cpp 786-821: undefined for other types. *)
Definition asum_alloc (m : store) (x : cvar) : outcome cvar :=
  let* t := atype K m x in
  Ok (match t with
      | EFloat | ECFloat => Imm (NFloat (f0 K))
      | EDouble | ECDouble => Imm (NDouble (d0 K))
      | EInt => Nil
      end).
(** [ASum::scalar] and [ASum::vector], /repo/lube/math.cpp 824-866. *)
Definition asum_scalar (m : store) (x o : cvar) : outcome (store * cvar) :=
  let* t := ftype K m x in
  match t with
  | None =>
    one_row m x (fun n =>
      let* s := atype K m x in
      match x, s with
      | Arr a, (EFloat | EDouble) => let* r := accumulate magnitude m a n 0 (zero s) in put K m o r
      | _, _ => Throw "ASum::vector: Unknown type"
      end)
  | Some EInt => Throw "ASum::operator(): Unknown type"
  | Some s => let* r := get K s m x in put K m o (magnitude r)
  end.
Definition asum (m : store) (x : cvar) : outcome (store * cvar) :=
  let* o := asum_alloc m x in asum_scalar m x o.

(** The scan of [isamax_] and so on (less one, /repo/lube/clapack.cpp 140-162), after the first element. *)
Fixpoint scan (m : store) (a n i best : nat) (x : num) : outcome nat :=
  match n with
  | O => Ok best
  | S k => let* y := rd K m a i in
           if above y x then scan m a k (S i) i y else scan m a k (S i) best x
  end.
(** [IAMax::vector], /repo/lube/math.cpp 957-987.  [IAMax] has no [scalar] of its own, so single numbers
    come here, too; the result is what the output, a [long], becomes. *)
Definition iamax (m : store) (x : cvar) : outcome nat :=
  one_row m x (fun n =>
    let* t := ftype K m x in
    match t, x with
    | None, Arr a =>
      let* s := atype K m x in
      match s with
      | EInt => Throw "IAMax::vector: Unknown type"
      | _ => let* y := rd K m a 0 in scan m a (n - 1) 1 0 y
      end
    | _, _ => UB AssertFail
    end).

(** [Pow::scalar] for numbers, /repo/lube/math.cpp 184-211. *)
Definition pow_number (s : ety) (m : store) (x y o : cvar) : outcome (store * cvar) :=
  match s with
  | EInt => Throw "Pow::scalar: Unknown type"
  | _ => let* p := get K s m x in
         let* q := cast K s m y in
         assign_number K m o (power p q)
  end.
(** [Pow::scalar] with [ArithmeticFunctor::broadcast], /repo/lube/func.cpp 257-299; between arrays
    there is no [vector]. *)
Definition pow_scalar (m : store) (x y o : cvar) : outcome (store * cvar) :=
  let* t := ftype K m x in
  match t with
  | Some s => pow_number s m x y o
  | None =>
    let* sx := vsize K m x in
    let* sy := vsize K m y in
    if Nat.eqb sy 1 then
      let* m' := each K (fun m i => let* (m1, tmp) := at_ K m o i in
                                    let* (m2, xi) := at_ K m1 x i in
                                    let* tx := ftype K m2 xi in
                                    match tx with
                                    | Some s => let* (m3, _) := pow_number s m2 xi y tmp in Ok m3
                                    | None => Throw "not modelled"
                                    end) m (seq 0 sx) in
      Ok (m', o)
    else
      let* ax := atype K m x in
      let* ay := atype K m y in
      if negb (ety_eqb ax ay) then Throw "var::broadcast: types must match (for now)"
      else if Nat.eqb sx 0 then UB DivByZero
      else Throw "BinaryFunctor: not a vector operation"
  end.
Definition pow (m : store) (x y : cvar) : outcome (store * cvar) :=
  let* (m1, o) := plain_alloc K m x in pow_scalar m1 x y o.
(** [pow(x, y, x)]. *)
Definition pow_in_place (m : store) (x y : cvar) : outcome (store * cvar) := pow_scalar m x y x.

End Reductions.
