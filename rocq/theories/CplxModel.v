(** Complex numbers: how they are stored, converted, compared, copied and used in arithmetic and
    in the functions of /repo/lube/math.cpp.

    A [cfloat] sits in the variable itself, as the real numbers do; a [cdouble] is too big for
    that and is always an array of one element (/repo/lube/var.cpp 403-413).  Much follows from
    this, because the same storage serves a single [cdouble] and an array of many.

    Modelled: variables that are undefined, hold a number, an array of numbers or a reference to
    an element.  Arrays of chars (strings) and longs, arrays of variables, maps and views are
    left out, and so are reference counts: an array stays in the memory once it is there.  The
    real numbers and what is done with them are parameters. *)
From Coq Require Import ZArith Bool List String Arith.
From Verif Require Import Base.
Import ListNotations.
Local Open Scope string_scope.
Local Open Scope list_scope.
Local Notation length := List.length.

(** The types int, float and double and the conversions between them.  (A conversion to int out
    of range is undefined in C++; here it is whatever [f2i] and [d2i] give.) *)
Record reals := mkreals {
  tI : Type; tF : Type; tD : Type;
  i2f : tI -> tF; i2d : tI -> tD; f2i : tF -> tI; f2d : tF -> tD; d2i : tD -> tI; d2f : tD -> tF;
  f0 : tF; d0 : tD }.

(** The types of elements, /repo/lube/var.h 31-42. *)
Inductive ety := EInt | EFloat | EDouble | ECFloat | ECDouble.
Definition ety_eqb (a b : ety) : bool :=
  match a, b with
  | EInt, EInt | EFloat, EFloat | EDouble, EDouble | ECFloat, ECFloat | ECDouble, ECDouble => true
  | _, _ => false
  end.
(** Their order, /repo/lube/var.h 31-42 (TYPE_ARRAY is 0). *)
Definition ety_code (t : option ety) : nat :=
  match t with
  | None => 0 | Some EInt => 2 | Some EFloat => 4 | Some EDouble => 5 | Some ECFloat => 6 | Some ECDouble => 7
  end.

Section Complex.
Variable K : reals.

Inductive num :=
| NInt (i : tI K) | NFloat (f : tF K) | NDouble (d : tD K)
| NCFloat (re im : tF K) | NCDouble (re im : tD K).
Definition nty (n : num) : ety :=
  match n with NInt _ => EInt | NFloat _ => EFloat | NDouble _ => EDouble | NCFloat _ _ => ECFloat | NCDouble _ _ => ECDouble end.

(** [static_cast<T>] of the value of a real number or of the real part of a complex one,
    /repo/lube/var.cpp 676-696. *)
Definition convert (t : ety) (n : num) : num :=
  match n with
  | NInt i =>
    match t with
    | EInt => NInt i | EFloat => NFloat (i2f K i) | EDouble => NDouble (i2d K i)
    | ECFloat => NCFloat (i2f K i) (f0 K) | ECDouble => NCDouble (i2d K i) (d0 K)
    end
  | NFloat f | NCFloat f _ =>
    match t with
    | EInt => NInt (f2i K f) | EFloat => NFloat f | EDouble => NDouble (f2d K f)
    | ECFloat => NCFloat f (f0 K) | ECDouble => NCDouble (f2d K f) (d0 K)
    end
  | NDouble d | NCDouble d _ =>
    match t with
    | EInt => NInt (d2i K d) | EFloat => NFloat (d2f K d) | EDouble => NDouble d
    | ECFloat => NCFloat (d2f K d) (f0 K) | ECDouble => NCDouble d (d0 K)
    end
  end.

(** A variable, /repo/lube/var.h 44-79: undefined, a number other than a [cdouble], an array, or
    a reference to an element of an array. *)
Inductive cvar := Nil | Imm (n : num) | Arr (a : nat) | Ref (a i : nat).
(** Every array has a type; an element allocated with [new float[n]] is indeterminate. *)
Definition store := list (ety * list (option num)).

Definition arr (m : store) (a : nat) : outcome (ety * list (option num)) :=
  match nth_error m a with Some x => Ok x | None => UB UseAfterFree end.
(** [*ptr##T(i)], /repo/lube/heap.h 93-105. *)
Definition rd (m : store) (a i : nat) : outcome num :=
  let* x := arr m a in
  match nth_error (snd x) i with
  | Some (Some n) => Ok n
  | Some None => UB Uninit
  | None => UB OutOfBounds
  end.
Fixpoint set_nth {X} (l : list X) (i : nat) (x : X) : list X :=
  match l, i with
  | [], _ => []
  | _ :: l', O => x :: l'
  | y :: l', S i' => y :: set_nth l' i' x
  end.
Definition wr (m : store) (a i : nat) (n : num) : outcome store :=
  let* x := arr m a in
  if Nat.ltb i (length (snd x)) then Ok (set_nth m a (fst x, set_nth (snd x) i (Some n))) else UB OutOfBounds.

(** [var::type], /repo/lube/var.cpp 621-626: [None] is TYPE_ARRAY, which an undefined variable
    has as well. *)
Definition vtype (m : store) (x : cvar) : outcome (option ety) :=
  match x with
  | Nil | Arr _ => Ok None
  | Imm n => Ok (Some (nty n))
  | Ref a _ => let* h := arr m a in Ok (Some (fst h))
  end.
(** [var::atype], /repo/lube/var.cpp 632-641. *)
Definition atype (m : store) (x : cvar) : outcome ety :=
  match x with
  | Nil => Throw "var::atype(): Undefined"
  | Imm n => Ok (nty n)
  | Arr a | Ref a _ => let* h := arr m a in Ok (fst h)
  end.
(** [var::size], /repo/lube/var.cpp 607-614. *)
Definition vsize (m : store) (x : cvar) : outcome nat :=
  match x with
  | Nil => Ok 0
  | Imm _ | Ref _ _ => Ok 1
  | Arr a => let* h := arr m a in Ok (length (snd h))
  end.

(** [var::get<T>], /repo/lube/var.cpp 33-62: nothing is checked.  For [cdouble] the heap pointer
    is followed to its first element; for the others a union member is read. *)
Definition get (t : ety) (m : store) (x : cvar) : outcome num :=
  match x with
  | Nil => match t with ECDouble => UB NullDeref | _ => UB TypePun end
  | Imm n => if ety_eqb (nty n) t then Ok n else UB TypePun
  | Arr a =>
    match t with
    | ECDouble => let* h := arr m a in if ety_eqb (fst h) ECDouble then rd m a 0 else UB TypePun
    | _ => UB TypePun
    end
  | Ref a i => let* h := arr m a in if ety_eqb (fst h) t then rd m a i else UB TypePun
  end.

(** [var(n)], /repo/lube/var.cpp 371-413. *)
Definition number (m : store) (n : num) : store * cvar :=
  match n with
  | NCDouble _ _ => (m ++ [(ECDouble, [Some n])], Arr (length m))
  | _ => (m, Imm n)
  end.

(** [var::cast<T>], /repo/lube/var.cpp 129-149: [Cast<T>::operator()], /repo/lube/func.cpp 20-39
    with [Cast<T>::scalar], /repo/lube/var.cpp 645-701, then [get].  The static variable [v] that
    stands for the type is of type TYPE_ARRAY if [T] is [cdouble].  When the result is an array
    of numbers, whose conversion cannot fail, [get] reads a union member that is not there. *)
Definition cast (t : ety) (m : store) (x : cvar) : outcome num :=
  let* tx := vtype m x in
  let v := match t with ECDouble => None | _ => Some t end in
  if Nat.eqb (ety_code v) (ety_code tx) then get t m x
  else match tx with
       | None => let* s := vsize m x in UB TypePun
       | Some s => let* n := get s m x in Ok (convert t n)
       end.

(** [var::dereference], /repo/lube/var.cpp 1272-1324. *)
Definition dereference (m : store) (x : cvar) : outcome (store * cvar) :=
  match x with
  | Ref a i => let* n := rd m a i in Ok (number m n)
  | _ => Ok (m, x)
  end.
(** [var::operator =], /repo/lube/var.cpp 279-338, for the variable [o]; the result is what [o] is
    afterwards. *)
Definition assign (m : store) (o x : cvar) : outcome (store * cvar) :=
  match o with
  | Ref a i =>
    let* h := arr m a in
    let* n := cast (fst h) m x in
    let* m' := wr m a i n in Ok (m', o)
  | _ => dereference m x
  end.

(** [var::at(int)], /repo/lube/var.cpp 808-819, with [var::reference(int)]; the index is not
    checked. *)
Definition at_ (m : store) (x : cvar) (i : nat) : outcome (store * cvar) :=
  let* (m', v) := dereference m x in
  match v with
  | Nil => Throw "var::at(): uninitialised"
  | Arr a => Ok (m', Ref a i)
  | _ => if Nat.eqb i 0 then Ok (m', v) else Throw "var::at(): Index out of bounds"
  end.

(** [Heap::alloc], /repo/lube/heap.cpp 314-355: [new cfloat[n]] and [new cdouble[n]] run the
    default constructor, which gives zero. *)
Definition fresh (t : ety) : option num :=
  match t with
  | ECFloat => Some (NCFloat (f0 K) (f0 K))
  | ECDouble => Some (NCDouble (d0 K) (d0 K))
  | _ => None
  end.
(** [Heap::copy], /repo/lube/heap.cpp 281-311. *)
Definition heap_copy (t : ety) (l : list (option num)) : outcome (list (option num)) :=
  match t with
  | EInt | EFloat | EDouble => Ok l
  | ECFloat | ECDouble => Throw "Heap::copy(): Unknown type"
  end.
(** [var::copy], /repo/lube/var.cpp 584-597, with the constructor of /repo/lube/heap.cpp 71-77. *)
Definition copy (m : store) (x : cvar) (alloc_only : bool) : outcome (store * cvar) :=
  match x with
  | Arr a =>
    let* h := arr m a in
    let* l := if alloc_only then Ok (repeat (fresh (fst h)) (length (snd h))) else heap_copy (fst h) (snd h) in
    Ok (m ++ [(fst h, l)], Arr (length m))
  | _ => Ok (m, x)
  end.

(** [var(iSize, iVar)], /repo/lube/var.cpp 451-459, for a size of at least 1: the first
    element comes from [operator =] and [resize], the others are assigned to. *)
Definition var_of_size (m : store) (n : nat) (x : cvar) : outcome (store * cvar) :=
  let* t := vtype m x in
  match t with
  | None => Throw "initialise ctor: cannot init from array"
  | Some s =>
    if Nat.eqb n 1 then dereference m x
    else
      let* k := get s m x in
      let* c := cast s m x in
      Ok (m ++ [(s, Some k :: repeat (Some c) (n - 1))], Arr (length m))
  end.

(** ** Comparison. *)
Variable differ : num -> num -> bool.   (* != on two numbers of the same type *)
Variable less : num -> num -> bool.     (* <, for complex numbers of the absolute values *)

(** [Heap::at], /repo/lube/heap.cpp 394-437: a new variable with the element. *)
Definition heap_at (m : store) (a i : nat) : outcome (store * cvar) :=
  let* h := arr m a in
  match nth_error (snd h) i with
  | Some (Some n) => Ok (number m n)
  | Some None => UB Uninit
  | None => Throw "Heap::at(): index out of bounds"
  end.
Fixpoint first_true (f : nat -> outcome bool) (l : list nat) : outcome bool :=
  match l with
  | [] => Ok false
  | i :: l' => let* b := f i in if b then Ok true else first_true f l'
  end.
(** [var::operator !=], /repo/lube/var.cpp 508-538, with [Heap::neq], /repo/lube/heap.cpp 448-454.  [Fuel]: more than [fuel]
    calls are under way at the same time. *)
Fixpoint neq (fuel : nat) (m : store) (x y : cvar) : outcome bool :=
  match fuel with
  | O => Fuel
  | S k =>
    let* tx := vtype m x in
    let* ty := vtype m y in
    if negb (Nat.eqb (ety_code tx) (ety_code ty)) then Ok true
    else
      let* sx := vsize m x in
      let* sy := vsize m y in
      if negb (Nat.eqb sx sy) then Ok true
      else match tx, x, y with
           | None, Arr a, Arr b =>
             first_true (fun i => let* (m1, u) := heap_at m a i in
                                  let* (m2, v) := heap_at m1 b i in
                                  neq k m2 u v) (seq 0 sx)
           | None, Arr a, _ => Ok false
           | None, _, _ => UB NullDeref
           | Some t, _, _ => let* p := get t m x in let* q := get t m y in Ok (differ p q)
           end
  end.
(** [var::operator <], /repo/lube/var.cpp 546-576, with [Heap::lt], /repo/lube/heap.cpp 457-465. *)
Fixpoint lt (fuel : nat) (m : store) (x y : cvar) : outcome bool :=
  match fuel with
  | O => Fuel
  | S k =>
    let* tx := vtype m x in
    let* ty := vtype m y in
    if negb (Nat.eqb (ety_code tx) (ety_code ty)) then Ok (Nat.ltb (ety_code tx) (ety_code ty))
    else match tx, x, y with
         | None, Arr a, Arr b =>
           let* sx := vsize m x in
           let* sy := vsize m y in
           first_true (fun i => let* (m1, u) := heap_at m a i in
                                let* (m2, v) := heap_at m1 b i in
                                lt k m2 u v) (seq 0 (Nat.min sx sy))
         | None, _, _ => UB NullDeref
         | Some t, _, _ => let* p := get t m x in let* q := get t m y in Ok (less p q)
         end
  end.

(** ** Functions of one argument. *)
(** [type], /repo/lube/math.cpp 76-82. *)
Definition ftype (m : store) (x : cvar) : outcome (option ety) :=
  let* t := vtype m x in
  let* a := atype m x in
  Ok (if ety_eqb a ECDouble then Some ECDouble else t).

(** [oVar = r] for the result [r] of a function. *)
Definition assign_number (m : store) (o : cvar) (n : num) : outcome (store * cvar) :=
  let (m', v) := number m n in assign m' o v.

Fixpoint each (f : store -> nat -> outcome store) (m : store) (l : list nat) : outcome store :=
  match l with
  | [] => Ok m
  | i :: l' => let* m' := f m i in each f m' l'
  end.

(** The macros CMATH_UNARY_FUNCTOR ([cx] false) and COMPLEX_UNARY_FUNCTOR, /repo/lube/math.cpp
    127-171, with [UnaryFunctor::broadcast], /repo/lube/func.cpp 95-110, whose calls are on
    references to elements.  (If [oVar] is a number, [oVar.at(0)] is a copy of it, and what is
    assigned to that is lost.) *)
Definition element_function (cx : bool) (f : num -> num) (m : store) (x o : cvar) : outcome (store * cvar) :=
  let* t := ftype m x in
  match t with
  | Some (EFloat as s) | Some (EDouble as s) => let* n := get s m x in assign_number m o (f n)
  | Some (ECFloat as s) | Some (ECDouble as s) =>
    if cx then let* n := get s m x in assign_number m o (f n) else Throw "#F##::scalar: Unknown type"
  | _ => Throw "#F##::scalar: Unknown type"
  end.
Definition function_scalar (cx : bool) (f : num -> num) (m : store) (x o : cvar) : outcome (store * cvar) :=
  let* t := ftype m x in
  match t with
  | None =>
    let* n := vsize m x in
    let* m' := each (fun m i => let* (m1, ref) := at_ m o i in
                                let* (m2, xi) := at_ m1 x i in
                                let* (m3, _) := element_function cx f m2 xi ref in Ok m3) m (seq 0 n) in
    Ok (m', o)
  | Some _ => element_function cx f m x o
  end.

(** [UnaryFunctor::alloc], /repo/lube/func.cpp 20-25. *)
Definition plain_alloc (m : store) (x : cvar) : outcome (store * cvar) :=
  let* (m1, v) := copy m x true in assign m1 Nil v.
(** [RealUnaryFunctor::alloc], /repo/lube/math.cpp 88-107, with [view(var,var)], /repo/lube/var.cpp 1399-1408:
    an array of as many elements, the first of them zero.  The result is a view of one dimension
    of that array; here it is the array. *)
Definition real_alloc (m : store) (x : cvar) : outcome (store * cvar) :=
  let* n := vsize m x in
  let* t := atype m x in
  let array s z := Ok (m ++ [(s, firstn n (Some z :: repeat None (n - 1)))], Arr (length m)) in
  match t with
  | EFloat | ECFloat => array EFloat (NFloat (f0 K))
  | EDouble | ECDouble => array EDouble (NDouble (d0 K))
  | EInt => Ok (m, Nil)
  end.
(** [UnaryFunctor::operator ()], /repo/lube/func.cpp 32-37. *)
Definition call (alloc : store -> cvar -> outcome (store * cvar)) (cx : bool) (f : num -> num)
    (m : store) (x : cvar) : outcome (store * cvar) :=
  let* (m1, v) := alloc m x in function_scalar cx f m1 x v.

(** ** Arithmetic. *)
Inductive cop := CAdd | CSub | CMul | CDiv.
Variable apply : cop -> num -> num -> num.   (* on two numbers of the same type *)

(** [*oVar.ptr<T>() = n], /repo/lube/var.cpp 165-176: the union member or the first element is
    written, whatever the type of the output. *)
Definition put (m : store) (o : cvar) (n : num) : outcome (store * cvar) :=
  match o with
  | Nil => match n with NCDouble _ _ => UB NullDeref | _ => UB TypePun end
  | Imm k => if ety_eqb (nty k) (nty n) then Ok (m, Imm n) else UB TypePun
  | Arr a => let* h := arr m a in
             if ety_eqb (fst h) (nty n) then let* m' := wr m a 0 n in Ok (m', o) else UB TypePun
  | Ref a i => let* h := arr m a in
               if ety_eqb (fst h) (nty n) then let* m' := wr m a i n in Ok (m', o) else UB TypePun
  end.
(** [Add::scalar] and so on for numbers, /repo/lube/math.cpp 335-356, 414-435, 554-575, 759-780:
    [iVar1.get<T>() op iVar2.cast<T>()]. *)
Definition number_op (op : cop) (t : ety) (m : store) (x y o : cvar) : outcome (store * cvar) :=
  let* p := get t m x in
  let* q := cast t m y in
  put m o (apply op p q).
(** [Add::vector], /repo/lube/math.cpp 362-404, for [cfloat]: [blas::axpy] over as many elements as
    the right operand has. *)
Definition axpy (op : cop) (m : store) (a b : nat) : outcome store :=
  let* h := arr m b in
  each (fun m i => let* p := rd m a i in let* q := rd m b i in wr m a i (apply op p q))
       m (seq 0 (length (snd h))).
(** [ArithmeticFunctor::broadcast], /repo/lube/func.cpp 257-299, [Mul::broadcast] and [Mul::scale],
    /repo/lube/math.cpp 476-544, and the operations on arrays, 362-404, 439-469, 581-634 and
    /repo/lube/func.cpp 186-220, for an array of [cfloat] on the left. *)
Definition cfloat_broadcast (op : cop) (m : store) (x : nat) (y o : cvar) : outcome (store * cvar) :=
  let* sx := vsize m (Arr x) in
  let* sy := vsize m y in
  if Nat.eqb sy 1 then
    match op with
    | CMul => Throw "Mul::scal: Unknown type"
    | _ =>
      let* m' := each (fun m i => let* (m1, tmp) := at_ m o i in
                                  let* (m2, xi) := at_ m1 (Arr x) i in
                                  let* (m3, _) := number_op op ECFloat m2 xi y tmp in Ok m3) m (seq 0 sx) in
      Ok (m', o)
    end
  else
    let* ay := atype m y in
    if negb (ety_eqb ECFloat ay) then Throw "var::broadcast: types must match (for now)"
    else if Nat.eqb sx 0 then UB DivByZero
    else match op, y with
         | CAdd, Arr b => match o with
                          | Arr c => if Nat.eqb c x then let* m' := axpy CAdd m x b in Ok (m', o) else UB AssertFail
                          | _ => UB AssertFail
                          end
         | CSub, _ => match o with
                      | Arr c => if Nat.eqb c x then Throw "Sub::vector: Unknown type" else UB AssertFail
                      | _ => UB AssertFail
                      end
         | CMul, _ => Throw "Mul::vector: Unknown type"
         | _, _ => Throw "BinaryFunctor: not a vector operation"
         end.
(** [Add::scalar] and so on, /repo/lube/math.cpp 328-359, 407-438, 547-578, 752-783. *)
Definition op_scalar (op : cop) (m : store) (x y o : cvar) : outcome (store * cvar) :=
  let* t := ftype m x in
  match t with
  | Some s => number_op op s m x y o
  | None =>
    match x with
    | Arr a => let* h := arr m a in
               match fst h with
               | ECFloat => cfloat_broadcast op m a y o
               | _ => Throw "not modelled"
               end
    | _ => Throw "not modelled"
    end
  end.
(** [operator +] and so on, /repo/lube/var.h 109-112, with [BinaryFunctor::alloc] and
    [operator()], /repo/lube/func.cpp 133-150. *)
Definition operator_ (op : cop) (m : store) (x y : cvar) : outcome (store * cvar) :=
  let* (m1, r) := plain_alloc m x in op_scalar op m1 x y r.
(** [operator +=] and so on, /repo/lube/var.h 105-108, with /repo/lube/func.cpp 157-163. *)
Definition operator_assign (op : cop) (m : store) (x y : cvar) : outcome (store * cvar) :=
  op_scalar op m x y x.

End Complex.
Arguments NInt {K} i. Arguments NFloat {K} f. Arguments NDouble {K} d.
Arguments NCFloat {K} re im. Arguments NCDouble {K} re im. Arguments nty {K} n.
Arguments Nil {K}. Arguments Imm {K} n. Arguments Arr {K} a. Arguments Ref {K} a i.
