(** Views, broadcasting and the array functions: /repo/lube/view.cpp, /repo/lube/func.cpp,
    /repo/lube/transpose-adhoc.cpp and the loops of /repo/lube/math.cpp.

    The memory is a list of arrays of cells of one element type; a variable is an array or
    a view of one.  Cells are accessed with a bounds check against the size of the array
    (its capacity can be larger, so this is stricter than the hardware). *)
From Coq Require Import ZArith Bool List String.
From Verif Require Import Base StrModel.
Import ListNotations.
Local Notation length := List.length.
Local Open Scope list_scope.
Local Open Scope Z_scope.

(** int arithmetic; overflow is undefined. *)
(** Bounds of int are those of Base. *)
Definition imul (a b : Z) : outcome Z := if in_int (a * b) then Ok (a * b) else UB SignedOverflow.
Definition iadd (a b : Z) : outcome Z := if in_int (a + b) then Ok (a + b) else UB SignedOverflow.
(** Integer division truncates. *)
Definition idiv (a b : Z) : outcome Z := if b =? 0 then UB DivByZero else Ok (Z.quot a b).

(** * View descriptors: the int array [offset, shape0, stride0, shape1, stride1, ...] *)

(** /repo/lube/view.cpp 129-135 and 138-144: [View::shape], [View::stride]. *)
Definition v_shape (ip : list Z) (iDim : Z) : outcome Z :=
  let index := iDim * 2 + 1 in
  if (index <? 0) || (Z.of_nat (length ip) <=? index) then Throw "View::shape(): dimension out of bounds"
  else Ok (nth (Z.to_nat index) ip 0).
Definition v_stride (ip : list Z) (iDim : Z) : outcome Z :=
  let index := iDim * 2 + 2 in
  if (index <? 0) || (Z.of_nat (length ip) <=? index) then Throw "View::stride(): dimension out of bounds"
  else Ok (nth (Z.to_nat index) ip 0).
(** /repo/lube/heap.h 218, 220, 221. *)
Definition v_size (ip : list Z) : outcome Z :=
  let* s := v_stride ip 0 in let* h := v_shape ip 0 in imul s h.
Definition v_dim (ip : list Z) : Z := (Z.of_nat (length ip) - 1) / 2.
Definition v_offset (ip : list Z) : Z := nth 0 ip 0.

(** /repo/lube/view.cpp 57-62: the loop of [setStrides], from [i]-1 down to 0. *)
Fixpoint strides_loop (i : nat) (ip : list Z) (p : Z) : outcome (list Z * Z) :=
  match i with
  | O => Ok (ip, p)
  | S i => let ip := set_nth ip (2 * i + 2) p in
           let* p := imul p (nth (2 * i + 1) ip 0) in
           strides_loop i ip p
  end.
(** /repo/lube/view.cpp 51-67: [View::setStrides]; [hsize] is [mHeap->size()]. *)
Definition setStrides (hsize : Z) (iDim : nat) (ip : list Z) : outcome (list Z) :=
  if (Z.of_nat iDim <? 1) then Throw "View::setStrides(): view must have dim > 0" else
  let* (ip, p) := strides_loop iDim ip 1 in
  let* e := iadd p (nth 0 ip 0) in
  if hsize <? e then Throw "View::setStrides(): Array too small for view" else Ok ip.
(** /repo/lube/view.cpp 79-86 and 101-106: shape and a zero stride for each dimension. *)
Fixpoint fill_shape (shape : list Z) : list Z :=
  match shape with [] => [] | d :: t => d :: 0 :: fill_shape t end.
(** /repo/lube/view.cpp 37-47 with 70-90 or 93-110: the constructors.  [old] is the offset of
    the view given, 0 for an array. *)
Definition view_ctor (hsize old : Z) (shape : list Z) (iOffset : Z) : outcome (list Z) :=
  let* o := iadd old iOffset in
  setStrides hsize (length shape) (o :: fill_shape shape).
(** /repo/lube/view.cpp 120-126: [View::offset(int)]. *)
Definition set_offset (hsize : Z) (ip : list Z) (iOffset : Z) : outcome (list Z) :=
  let* s := v_size ip in
  let* e := iadd iOffset s in
  if hsize <? e then Throw "View::offset(): offset too large" else Ok (set_nth ip 0 iOffset).

Section Cells.
Variable A : Type.

(** * Variables: array [o_arr] of the memory, seen through a view if there is a descriptor *)
Definition mem := list (list A).
Record opd := mkop { o_arr : nat; o_ip : option (list Z) }.
Definition arr (m : mem) (a : nat) : list A := nth a m [].
Definition hsize (m : mem) (o : opd) : Z := Z.of_nat (length (arr m (o_arr o))).

(** /repo/lube/var.cpp 1433-1447, 1475-1494: [dim], [offset], [shape(int)], [stride(int)],
    and [size] of an array or view. *)
Definition dim (o : opd) : Z := match o_ip o with None => 1 | Some ip => v_dim ip end.
Definition offset (o : opd) : Z := match o_ip o with None => 0 | Some ip => v_offset ip end.
Definition size (m : mem) (o : opd) : outcome Z :=
  match o_ip o with None => Ok (hsize m o) | Some ip => v_size ip end.
Definition shape (m : mem) (o : opd) (iDim : Z) : outcome Z :=
  let iDim := if iDim <? 0 then dim o + iDim else iDim in
  match o_ip o with
  | Some ip => v_shape ip iDim
  | None => if 0 <? iDim then Throw "var::shape(): dimension too large" else Ok (hsize m o)
  end.
Definition stride (o : opd) (iDim : Z) : outcome Z :=
  match o_ip o with
  | Some ip => v_stride ip iDim
  | None => if 0 <? iDim then Throw "var::stride(): dimension too large" else Ok 1
  end.
(** /repo/lube/var.cpp 1462-1468: [shape()], all dimensions from [i] on. *)
Fixpoint shape_loop (m : mem) (o : opd) (n : nat) (i : Z) : outcome (list Z) :=
  match n with
  | O => Ok []
  | S n => let* d := shape m o i in let* t := shape_loop m o n (i + 1) in Ok (d :: t)
  end.
Definition shapes (m : mem) (o : opd) : outcome (list Z) := shape_loop m o (Z.to_nat (dim o)) 0.

(** /repo/lube/var.cpp 1355-1376: [var::view].  A view of a view is a view of the array. *)
Definition mkview (m : mem) (o : opd) (sh : list Z) (iOffset : Z) : outcome opd :=
  let* ip := view_ctor (hsize m o) (offset o) sh iOffset in
  Ok (mkop (o_arr o) (Some ip)).
(** /repo/lube/var.cpp 1421-1430: [var::subview]; each shift() drops the first dimension. *)
Definition subview (m : mem) (o : opd) (iDim : Z) (iOffset : Z) : outcome opd :=
  if iDim <? 1 then Throw "var::subview(): subview must have dim > 0" else
  let* is := shapes m o in
  mkview m o (skipn (Z.to_nat (dim o - iDim)) is) iOffset.

(** /repo/lube/var.cpp 1497-1507: [bounds]. *)
Definition bounds (m : mem) (o : opd) (iDim iIndex : Z) : outcome unit :=
  let* d := shape m o iDim in
  if (iIndex <? 0) || (d <=? iIndex) then Throw "var::bounds()" else Ok tt.
(** /repo/lube/var.cpp 768-773: the loop of operator (); [args] are the values va_arg finds,
    none left being undefined. *)
Fixpoint paren_loop (m : mem) (o : opd) (n : nat) (i : Z) (args : list Z) (p : Z) : outcome Z :=
  match n with
  | O => Ok p
  | S n => match args with
           | [] => UB Uninit
           | d :: args => let* _ := bounds m o i d in
                          let* s := stride o i in
                          let* q := imul d s in
                          let* p := iadd p q in
                          paren_loop m o n (i + 1) args p
           end
  end.
(** /repo/lube/var.cpp 761-776: operator ()(int, ...): the cell of the array the returned
    reference denotes (heap.h 204-214 add the offset). *)
Definition paren (m : mem) (o : opd) (args : list Z) : outcome Z :=
  match args with
  | [] => UB Uninit
  | iFirst :: rest =>
    let* s := stride o 0 in
    let* p := imul iFirst s in
    let* _ := bounds m o 0 iFirst in
    let* p := paren_loop m o (Z.to_nat (dim o) - 1) 1 rest p in
    iadd p (offset o)
  end.

(** * Cells *)
Definition rd (m : mem) (a : nat) (i : Z) : outcome A :=
  if i <? 0 then UB OutOfBounds else
  match nth_error (arr m a) (Z.to_nat i) with Some x => Ok x | None => UB OutOfBounds end.
Definition wr (m : mem) (a : nat) (i : Z) (x : A) : outcome mem :=
  if (i <? 0) || (Z.of_nat (length (arr m a)) <=? i) then UB OutOfBounds
  else Ok (set_nth m a (set_nth (arr m a) (Z.to_nat i) x)).
(** A counting loop. *)
Fixpoint loop (n : nat) (i : Z) (body : Z -> mem -> outcome mem) (m : mem) : outcome mem :=
  match n with
  | O => Ok m
  | S n => let* m := body i m in loop n (i + 1) body m
  end.
Definition for_to (n : Z) (body : Z -> mem -> outcome mem) (m : mem) : outcome mem := loop (Z.to_nat n) 0 body m.

(** /repo/lube/var.cpp 783-799: [is]: the same storage, i.e. array and offset. *)
Definition is_same (a b : opd) : bool := Nat.eqb (o_arr a) (o_arr b) && (offset a =? offset b).

(** /repo/lube/var.cpp 584-597 with iAllocOnly (view.cpp 26-34, heap.cpp 70-76): a new array
    of the size of the whole underlying array and the same descriptor.  [z] is the value of
    fresh cells. *)
Definition alloc_like (z : A) (m : mem) (o : opd) : mem * opd :=
  (m ++ [repeat z (length (arr m (o_arr o)))], mkop (length m) (o_ip o)).
(** /repo/lube/var.cpp 1399-1408: [libube::view(shape, type)]: a new array of product(shape)
    cells ([v.resize(s)] asserts s >= 0) and a view of it. *)
Definition alloc_view (z : A) (m : mem) (sh : list Z) : outcome (mem * opd) :=
  let* s := fold_left (fun p d => let* p := p in imul p d) sh (Ok 1) in
  if s <? 0 then UB AssertFail else
  let m' := m ++ [repeat z (Z.to_nat s)] in
  let* o := mkview m' (mkop (length m) None) sh 0 in
  Ok (m', o).

(** * Elementwise functions *)

(** /repo/lube/func.cpp 104-110: the dimensionless loop of [UnaryFunctor::broadcast], with
    [f] what [scalar] does to one element (math.cpp 129-171). *)
Definition unary_broadcast0 (f : A -> outcome A) (m : mem) (i o : opd) : outcome mem :=
  let* n := size m i in
  for_to n (fun k m => let* x := rd m (o_arr i) (offset i + k) in
                       let* y := f x in
                       wr m (o_arr o) (offset o + k) y) m.
(** /repo/lube/func.cpp 32-37 and 44-48: [operator ()(iVar)] allocates like the input,
    [operator ()(iVar, oVar)] does not. *)
Definition unary_new (z : A) (f : A -> outcome A) (m : mem) (i : opd) : outcome (mem * opd) :=
  let (m, o) := alloc_like z m i in
  let* m := unary_broadcast0 f m i o in Ok (m, o).

(** /repo/lube/func.cpp 113-131: [UnaryFunctor::broadcast] for [mDim] > 0. *)
Definition unary_broadcast (mDim : Z) (vector : Z -> Z -> mem -> outcome mem) (m : mem) (i o : opd) : outcome mem :=
  if dim i <? mDim then Throw "UnaryFunctor::broadcast: dimension too large" else
  let* stepI := if 0 <? dim i - mDim then stride i (dim i - mDim - 1) else size m i in
  let* stepO := if 0 <? dim o - mDim then stride o (dim o - mDim - 1) else size m o in
  let* n := size m i in
  let* nOps := idiv n stepI in
  for_to nOps (fun k m => let* a := imul stepI k in let* b := imul stepO k in vector a b m) m.

(** * Sum *)
(** /repo/lube/math.cpp 901-908: [sumArray] from cell [p] on. *)
Fixpoint sumArray (add : A -> A -> A) (m : mem) (a : nat) (n : nat) (p : Z) (sum : A) : outcome A :=
  match n with
  | O => Ok sum
  | S n => let* x := rd m a p in sumArray add m a n (p + 1) (add sum x)
  end.
(** /repo/lube/math.cpp 911-936: [Sum::vector]. *)
Definition sum_vector (zero : A) (add : A -> A -> A) (i o : opd) (iOffsetI iOffsetO : Z) (m : mem) : outcome mem :=
  let* n := shape m i (-1) in
  let* s := sumArray add m (o_arr i) (Z.to_nat n) (offset i + iOffsetI) zero in
  wr m (o_arr o) (offset o + iOffsetO) s.
(** /repo/lube/math.cpp 111-126: [scalarAlloc]: the shape with its last entry 1, or a scalar,
    here an array of one cell. *)
Definition scalarAlloc (z : A) (m : mem) (i : opd) : outcome (mem * opd) :=
  if 1 <? dim i then
    let* s := shapes m i in
    alloc_view z m (firstn (length s - 1) s ++ [1])
  else Ok (m ++ [[z]], mkop (length m) None).
Definition sum_new (z zero : A) (add : A -> A -> A) (m : mem) (i : opd) : outcome (mem * opd) :=
  let* (m, o) := scalarAlloc z m i in
  let* m := unary_broadcast 1 (sum_vector zero add i o) m i o in Ok (m, o).

(** * Transpose: /repo/lube/transpose-adhoc.cpp *)
(** 73-79: [outOfPlace]; [a], [p] and [b], [q] are the arrays and cells pointed at. *)
Definition outOfPlace (a : nat) (p : Z) (iRows iCols : Z) (b : nat) (q : Z) (m : mem) : outcome mem :=
  for_to iRows (fun r m =>
    for_to iCols (fun c m =>
      let* x := rd m a (p + (r * iCols + c)) in
      wr m b (q + (c * iRows + r)) x) m) m.
(** 103-115: the search along the cycle of [k_start]; true if a smaller index turns up
    (abort).  [k_new] is the current index. *)
Fixpoint cycle_min (fuel : nat) (m n k_start k_new : Z) : outcome bool :=
  match fuel with
  | O => Fuel
  | S f => if k_new <? k_start then Ok true else
           let k := (k_new mod n) * m + k_new / n in
           if k =? k_start then Ok false else cycle_min f m n k_start k
  end.
(** 125-134: the second do loop and the final swap. *)
Fixpoint cycle_swap (fuel : nat) (m n k_start k_new : Z) (a : nat) (p : Z) (temp : A) (s : mem) : outcome mem :=
  match fuel with
  | O => Fuel
  | S f => let* x := rd s a (p + k_new) in
           let* s := wr s a (p + k_new) temp in
           let k := (k_new mod n) * m + k_new / n in
           if k =? k_start
           then let* _ := rd s a (p + k) in wr s a (p + k) x
           else cycle_swap f m n k_start k a p x s
  end.
(** 95-135: the body of the outer loop for one [k_start]. *)
Definition cycle_step (fuel : nat) (m n : Z) (a : nat) (p : Z) (k_start : Z) (s : mem) : outcome mem :=
  let* temp := rd s a (p + k_start) in
  let* abort := cycle_min fuel m n k_start k_start in
  if abort : bool then Ok s else cycle_swap fuel m n k_start k_start a p temp s.
(** 87-136: [inPlace]. *)
Definition inPlace (fuel : nat) (a : nat) (p : Z) (iRows iCols : Z) (s : mem) : outcome mem :=
  let* length := imul iRows iCols in
  loop (Z.to_nat (length - 1)) 1 (cycle_step fuel iRows iCols a p) s.
(** 138-172: [Transpose::vector]. *)
Definition transpose_vector (fuel : nat) (i o : opd) (iOffsetI iOffsetO : Z) (m : mem) : outcome mem :=
  let* rows := shape m i (dim i - 2) in
  let* cols := shape m i (dim i - 1) in
  if is_same i o then inPlace fuel (o_arr o) (offset o + iOffsetO) rows cols m
  else outOfPlace (o_arr i) (offset i + iOffsetI) rows cols (o_arr o) (offset o + iOffsetO) m.
(** 22-40: [Transpose::alloc]: the last two dimensions swapped. *)
Definition transpose_alloc (z : A) (m : mem) (i : opd) : outcome (mem * opd) :=
  let* s := shapes m i in
  let n := length s in
  if (n <? 2)%nat then Throw "Transpose::alloc: dimension < 2" else
  alloc_view z m (firstn (n - 2) s ++ [nth (n - 1) s 0; nth (n - 2) s 0]).
Definition transpose_new (z : A) (fuel : nat) (m : mem) (i : opd) : outcome (mem * opd) :=
  let* (m, o) := transpose_alloc z m i in
  let* m := unary_broadcast 2 (transpose_vector fuel i o) m i o in Ok (m, o).
(** 42-67 with iVar and oVar the same variable: transpose, then swap the trailing shapes and
    set the stride of the last but one dimension. *)
Definition transpose_inplace (fuel : nat) (m : mem) (i : opd) : outcome (mem * opd) :=
  let* m := unary_broadcast 2 (transpose_vector fuel i i) m i i in
  match o_ip i with
  | None => Throw "Heap::stride(): not a view"
  | Some ip =>
    let d := v_dim ip in
    let* str1 := v_stride ip (d - 1) in
    let* shp1 := v_shape ip (d - 1) in
    let* _ := v_stride ip (d - 2) in
    let* shp2 := v_shape ip (d - 2) in
    let ip := set_nth ip (Z.to_nat ((d - 1) * 2 + 1)) shp2 in
    let ip := set_nth ip (Z.to_nat ((d - 2) * 2 + 1)) shp1 in
    let* s := imul shp2 str1 in
    Ok (m, mkop (o_arr i) (Some (set_nth ip (Z.to_nat ((d - 2) * 2 + 2)) s)))
  end.

(** * Arithmetic: /repo/lube/func.cpp 257-299 and math.cpp *)
(** The right operand: a scalar or an array. *)
Inductive rhs := Scal (x : A) | Arr (o : opd).
Definition rhs_dim (r : rhs) : Z := match r with Scal _ => 1 | Arr o => dim o end.
Definition rhs_size (m : mem) (r : rhs) : outcome Z := match r with Scal _ => Ok 1 | Arr o => size m o end.
(** [iVar2.cast<T>()] (/repo/lube/var.cpp 129-149): casting an array gives an array, of which
    get<T>() reads the pointer. *)
Definition rhs_cast (r : rhs) : outcome A := match r with Scal x => Ok x | Arr _ => UB TypePun end.

(** BLAS level 1 as loops over [n] consecutive cells: y\[k\] := f y\[k\] x\[k\]. *)
Definition blas2 (f : A -> A -> A) (n : Z) (x : nat) (px : Z) (y : nat) (py : Z) (m : mem) : outcome mem :=
  for_to n (fun k m => let* a := rd m y (py + k) in
                       let* b := rd m x (px + k) in
                       wr m y (py + k) (f a b)) m.

(** /repo/lube/func.cpp 257-299: [ArithmeticFunctor::broadcast], the element types being
    the same.  [sc] is [scalar] on one element. *)
Definition arith_broadcast (sc : A -> A -> A) (vector : Z -> opd -> Z -> Z -> mem -> outcome mem)
    (m : mem) (i1 : opd) (i2 : rhs) (o : opd) : outcome mem :=
  let* n2 := rhs_size m i2 in
  if (rhs_dim i2 =? 1) && (n2 =? 1) then
    let* n := size m i1 in
    for_to n (fun k m => let* x := rd m (o_arr i1) (offset i1 + k) in
                         let* y := rhs_cast i2 in
                         wr m (o_arr o) (offset o + k) (sc x y)) m
  else
  if dim i1 <? rhs_dim i2 then Throw "var::broadcast: input dimension too large" else
  let dim2 := rhs_dim i2 in
  let* step1 := if 0 <? dim i1 - dim2 then stride i1 (dim i1 - dim2 - 1) else size m i1 in
  let* stepO := if 0 <? dim o - dim2 then stride o (dim o - dim2 - 1) else size m o in
  let* n := size m i1 in
  let* nOps := idiv n step1 in
  match i2 with
  | Scal _ => Throw "unreachable"
  | Arr o2 => for_to nOps (fun k m => let* a := imul step1 k in let* b := imul stepO k in vector a o2 0 b m) m
  end.

(** /repo/lube/math.cpp 362-404, 441-469: [Add::vector], [Sub::vector]: axpy with alpha 1 or
    -1; [sc] is the addition or subtraction. *)
Definition axpy_vector (sc : A -> A -> A) (i1 o : opd) (iOffset1 : Z) (i2 : opd) (iOffset2 iOffsetO : Z) (m : mem) : outcome mem :=
  if negb (is_same i1 o) then UB AssertFail else
  let* n := size m i2 in
  blas2 sc n (o_arr i2) (offset i2 + iOffset2) (o_arr i1) (offset i1 + iOffset1) m.
Definition addsub (sc : A -> A -> A) (m : mem) (i1 : opd) (i2 : rhs) (o : opd) : outcome mem :=
  arith_broadcast sc (axpy_vector sc i1 o) m i1 i2 o.
(** [a += b], [a -= b] (/repo/lube/var.h) and [a + b], [a - b], which allocate (func.cpp
    134-153). *)
Definition addsub_inplace (sc : A -> A -> A) (m : mem) (i1 : opd) (i2 : rhs) : outcome mem := addsub sc m i1 i2 i1.
Definition addsub_new (z : A) (sc : A -> A -> A) (m : mem) (i1 : opd) (i2 : rhs) : outcome (mem * opd) :=
  let (m, o) := alloc_like z m i1 in let* m := addsub sc m i1 i2 o in Ok (m, o).

(** /repo/lube/math.cpp 247-274: [Set::vector] copies the right operand over the left. *)
Definition set_vector (i1 : opd) (iOffset1 : Z) (i2 : opd) (iOffset2 iOffsetO : Z) (m : mem) : outcome mem :=
  let* n := size m i2 in
  blas2 (fun _ y => y) n (o_arr i2) (offset i2 + iOffset2) (o_arr i1) (offset i1 + iOffset1) m.
Definition set_inplace (m : mem) (i1 : opd) (i2 : rhs) : outcome mem :=
  arith_broadcast (fun _ y => y) (set_vector i1) m i1 i2 i1.

(** /repo/lube/math.cpp 490-544: [Mul::scale]: scal, after copy if not in place. *)
Definition mul_scale (mul : A -> A -> A) (m : mem) (i1 : opd) (i2 : rhs) (o : opd) : outcome mem :=
  let* n := size m i1 in
  let* y := rhs_cast i2 in
  let* m := if is_same o i1 then Ok m
            else blas2 (fun _ x => x) n (o_arr i1) (offset i1) (o_arr o) (offset o) m in
  for_to n (fun k m => let* x := rd m (o_arr o) (offset o + k) in wr m (o_arr o) (offset o + k) (mul y x)) m.
(** /repo/lube/math.cpp 581-634: [Mul::vector]: tbmv in place, sbmv otherwise. *)
Definition mul_vector (mul : A -> A -> A) (i1 o : opd) (iOffset1 : Z) (i2 : opd) (iOffset2 iOffsetO : Z) (m : mem) : outcome mem :=
  let* n := size m i2 in
  if is_same i1 o then
    blas2 (fun a b => mul b a) n (o_arr i2) (offset i2 + iOffset2) (o_arr i1) (offset i1 + iOffset1) m
  else
    for_to n (fun k m => let* a := rd m (o_arr i2) (offset i2 + iOffset2 + k) in
                         let* b := rd m (o_arr i1) (offset i1 + iOffset1 + k) in
                         wr m (o_arr o) (offset o + iOffsetO + k) (mul a b)) m.
(** /repo/lube/math.cpp 476-487: [Mul::broadcast]. *)
Definition mul_broadcast (mul : A -> A -> A) (m : mem) (i1 : opd) (i2 : rhs) (o : opd) : outcome mem :=
  let* n2 := rhs_size m i2 in
  if (rhs_dim i2 =? 1) && (n2 =? 1) then mul_scale mul m i1 i2 o
  else arith_broadcast mul (mul_vector mul i1 o) m i1 i2 o.

(** * Swap: /repo/lube/func.cpp 229-248 with math.cpp 284-325 *)
Definition blas_swap (n : Z) (x : nat) (px : Z) (y : nat) (py : Z) (m : mem) : outcome mem :=
  for_to n (fun k m => let* a := rd m x (px + k) in
                       let* b := rd m y (py + k) in
                       let* m := wr m x (px + k) b in
                       wr m y (py + k) a) m.
(** [Swap::vector]: the size is that of the whole variable. *)
Definition swap_vector (i1 i2 : opd) (iOffset1 iOffset2 : Z) (m : mem) : outcome mem :=
  let* n := size m i1 in
  blas_swap n (o_arr i1) (offset i1 + iOffset1) (o_arr i2) (offset i2 + iOffset2) m.
(** [BinaryFunctor::broadcast] with mDim = 1; Swap::alloc returns iVar1. *)
Definition swap_vars (m : mem) (i1 i2 : opd) : outcome mem :=
  let cdim := dim i1 - 1 in
  if cdim <? 0 then Throw "var::broadcast: input dimension too small" else
  let* step1 := if 0 <? cdim then stride i1 (cdim - 1) else Ok 0 in
  let* step2 := if 0 <? cdim then stride i2 (cdim - 1) else Ok 0 in
  let* nOps := if 0 <? cdim then let* n := size m i1 in idiv n step1 else Ok 1 in
  for_to nOps (fun k m => let* a := imul step1 k in let* b := imul step2 k in swap_vector i1 i2 a b m) m.

(** * Poly: /repo/lube/math.cpp 1151-1166 *)
(** [polyt]: inner loop from [j] on, [n] rounds, for the root in cell [pi] of [a]. *)
Fixpoint poly_inner (sub mul : A -> A -> A) (a : nat) (pi : Z) (o : nat) (q : Z) (n : nat) (j : Z) (tmp0 : A) (m : mem) : outcome mem :=
  match n with
  | O => Ok m
  | S n => let* tmp1 := rd m o (q + (j + 1)) in
           let* ri := rd m a pi in
           let* m := wr m o (q + (j + 1)) (sub tmp1 (mul ri tmp0)) in
           poly_inner sub mul a pi o q n (j + 1) tmp1 m
  end.
Definition polyt (zero one : A) (sub mul : A -> A -> A) (iOrder : Z) (a : nat) (p : Z) (o : nat) (q : Z) (m : mem) : outcome mem :=
  let* m := wr m o q one in
  for_to iOrder (fun i m =>
    let* m := wr m o (q + (i + 1)) zero in
    let* tmp0 := rd m o q in
    poly_inner sub mul a (p + i) o q (Z.to_nat (i + 1)) 0 tmp0 m) m.
(** /repo/lube/math.cpp 1168-1188 called through func.cpp 68-76: [Poly::vector] on the
    subviews at the offsets. *)
Definition poly_vector (zero one : A) (sub mul : A -> A -> A) (i o : opd) (iIOffset iOOffset : Z) (m : mem) : outcome mem :=
  let cdim := dim i - 1 in
  let* iv := subview m i (dim i - cdim) iIOffset in
  let* ov := subview m o (dim o - cdim) iOOffset in
  let* order := shape m iv (-1) in
  polyt zero one sub mul order (o_arr iv) (offset iv) (o_arr ov) (offset ov) m.
(** /repo/lube/math.cpp 1127-1148: [Poly::alloc]: the last dimension grows by one. *)
Definition poly_new (z zero one : A) (sub mul : A -> A -> A) (m : mem) (i : opd) : outcome (mem * opd) :=
  let* s := shapes m i in
  let* d := iadd (last s 0) 1 in
  let* (m, o) := alloc_view z m (removelast s ++ [d]) in
  let* m := unary_broadcast 1 (poly_vector zero one sub mul i o) m i o in Ok (m, o).

(** * Concatenate: /repo/lube/math.cpp 1228-1302 with func.cpp 377-410 *)
(** 1233-1240: the check of the shapes and the sum of the last dimensions. *)
Fixpoint cat_check (m : mem) (s0 : list Z) (dim0 : nat) (l : list opd) (sum : Z) : outcome Z :=
  match l with
  | [] => Ok sum
  | o :: t =>
    let* _ := (fix go (n : nat) (d : Z) : outcome unit :=
                 match n with
                 | O => Ok tt
                 | S n => let* x := shape m o d in
                          if x =? nth (Z.to_nat d) s0 0 then go n (d + 1) else Throw "Concatenate: dimensions differ"
                 end) (dim0 - 1)%nat 0 in
    let* x := shape m o (-1) in
    let* sum := iadd sum x in
    cat_check m s0 dim0 t sum
  end.
Definition cat_alloc (z : A) (m : mem) (l : list opd) : outcome (mem * opd) :=
  match l with
  | [] => UB OutOfBounds
  | o0 :: t =>
    let* s := shapes m o0 in
    let* sum := cat_check m s (length s) t (last s 0) in
    alloc_view z m (removelast s ++ [sum])
  end.
(** 1250-1302: [Concatenate::vector] on the row views [l]. *)
Fixpoint cat_vector (m : mem) (l : list opd) (ov : opd) (sum : Z) : outcome mem :=
  match l with
  | [] => Ok m
  | o :: t =>
    if is_same o ov then UB AssertFail else
    let* s := shape m o (-1) in
    let* m := blas2 (fun _ x => x) s (o_arr o) (offset o) (o_arr ov) (offset ov + sum) m in
    let* sum := iadd sum s in
    cat_vector m t ov sum
  end.
(** /repo/lube/func.cpp 397-406: the row views. *)
Fixpoint cat_rows (m : mem) (cdim : Z) (i : Z) (l : list opd) : outcome (list opd) :=
  match l with
  | [] => Ok []
  | o :: t =>
    let* step := if 0 <? cdim then stride o (cdim - 1) else Ok 0 in
    let* k := imul step i in
    let* v := subview m o (dim o - cdim) k in
    let* t := cat_rows m cdim i t in
    Ok (v :: t)
  end.
Definition cat_new (z : A) (m : mem) (l : list opd) : outcome (mem * opd) :=
  let* (m, o) := cat_alloc z m l in
  let cdim := dim o - 1 in
  if cdim <? 0 then Throw "var::broadcast: input dimension too small" else
  let* stepO := if 0 <? cdim then stride o (cdim - 1) else Ok 0 in
  let* nOps := if 0 <? cdim then let* n := size m o in idiv n stepO else Ok 1 in
  let* m := for_to nOps (fun i m =>
    let* iv := cat_rows m cdim i l in
    let* k := imul stepO i in
    let* ov := subview m o (dim o - cdim) k in
    cat_vector m iv ov 0) m in
  Ok (m, o).

(** * Dot: /repo/lube/math.cpp 637-747 *)
(** [blas::dot]. *)
Fixpoint dotArray (add mul : A -> A -> A) (m : mem) (x : nat) (px : Z) (y : nat) (py : Z) (n : nat) (sum : A) : outcome A :=
  match n with
  | O => Ok sum
  | S n => let* a := rd m x px in
           let* b := rd m y py in
           dotArray add mul m x (px + 1) y (py + 1) n (add sum (mul a b))
  end.
(** [blas::gemm] (/repo/lube/clapack.cpp 208-231, called with alpha 1 and beta 0): C, of [iM] rows of
    [iN] cells, becomes the product of A, [iM] rows of [iK], and B, [iK] rows of [iN]: BLAS is
    given the transposed problem.  BLAS stops the program if a leading dimension is below 1. *)
Fixpoint gemmCell (add mul : A -> A -> A) (m : mem) (x : nat) (px : Z) (y : nat) (py : Z) (iN : Z) (n : nat) (sum : A) : outcome A :=
  match n with
  | O => Ok sum
  | S n => let* a := rd m x px in
           let* b := rd m y py in
           gemmCell add mul m x (px + 1) y (py + iN) iN n (add sum (mul a b))
  end.
Definition gemm (zero : A) (add mul : A -> A -> A) (iM iN iK : Z) (a : nat) (pa : Z) (b : nat) (pb : Z) (c : nat) (pc : Z) (m : mem) : outcome mem :=
  if (iM <? 1) || (iN <? 1) || (iK <? 1) then Throw "xerbla: not modelled" else
  for_to iM (fun i m =>
    for_to iN (fun j m =>
      let* s := gemmCell add mul m a (pa + i * iK) b (pb + j) iN (Z.to_nat iK) zero in
      wr m c (pc + i * iN + j) s) m) m.
(** /repo/lube/math.cpp 659-747: [Dot::vector]. *)
Definition dot_vector (zero : A) (add mul : A -> A -> A) (i1 o : opd) (iOffset1 : Z) (i2 : opd) (iOffset2 iOffsetO : Z) (m : mem) : outcome mem :=
  if is_same i1 o then Throw "Dot::vector: Cannot operate in place" else
  if dim i2 =? 1 then
    let* n := size m i2 in
    let* s := dotArray add mul m (o_arr i1) (offset i1 + iOffset1) (o_arr i2) (offset i2 + iOffset2) (Z.to_nat n) zero in
    wr m (o_arr o) (offset o + iOffsetO) s
  else if dim i2 =? 2 then
    let* s11 := shape m i1 1 in
    let* s20 := shape m i2 0 in
    if negb (s11 =? s20) then Throw "Dot::vector: Shapes not compatible" else
    let* s10 := shape m i1 0 in
    let* s21 := shape m i2 1 in
    gemm zero add mul s10 s21 s11 (o_arr i1) (offset i1 + iOffset1) (o_arr i2) (offset i2 + iOffset2) (o_arr o) (offset o + iOffsetO) m
  else Throw "Dot::vector: Dimension > 2".
(** Dot does not define [scalar] (/repo/lube/math.h 161-170), so that of one element is
    [BinaryFunctor::scalar] (func.cpp 172-177), i.e. [broadcast] again, whose first case
    (264-273) visits element 0 of the scalar, the scalar itself. *)
Fixpoint dot_elem (fuel : nat) (x : A) (i2 : rhs) : outcome A :=
  match fuel with
  | O => Fuel
  | S f => dot_elem f x i2
  end.
Definition dot_broadcast (fuel : nat) (zero : A) (add mul : A -> A -> A) (m : mem) (i1 : opd) (i2 : rhs) (o : opd) : outcome mem :=
  let* n2 := rhs_size m i2 in
  if (rhs_dim i2 =? 1) && (n2 =? 1) then
    let* n := size m i1 in
    for_to n (fun k m => let* x := rd m (o_arr i1) (offset i1 + k) in
                         let* y := dot_elem fuel x i2 in
                         wr m (o_arr o) (offset o + k) y) m
  else arith_broadcast mul (dot_vector zero add mul i1 o) m i1 i2 o.
(** /repo/lube/math.cpp 637-656: [Dot::alloc]. *)
Definition dot_alloc (z : A) (m : mem) (i1 : opd) (i2 : rhs) : outcome (mem * opd) :=
  if rhs_dim i2 =? 1 then scalarAlloc z m i1 else
  match i2 with
  | Scal _ => Throw "unreachable"
  | Arr o2 =>
    if dim o2 =? 2 then
      if dim i1 <? 2 then Throw "Dot::alloc: var1 dimension < 2" else
      let* s := shapes m i1 in
      let* n := shape m o2 1 in
      alloc_view z m (removelast s ++ [n])
    else Throw "Dot::alloc: var2 dimension > 2"
  end.
Definition dot_new (fuel : nat) (z zero : A) (add mul : A -> A -> A) (m : mem) (i1 : opd) (i2 : rhs) : outcome (mem * opd) :=
  let* (m, o) := dot_alloc z m i1 i2 in
  let* m := dot_broadcast fuel zero add mul m i1 i2 o in Ok (m, o).

(** * Sum of magnitudes, largest magnitude, sorting of rows *)
(** /repo/lube/math.cpp 849-866: [ASum::vector] for [float] and [double], with [blas::asum] as a loop
    ([abs] is the absolute value); ASum::alloc (786-821) allocates like [scalarAlloc]. *)
Definition asum_new (z zero : A) (add : A -> A -> A) (abs : A -> A) (m : mem) (i : opd) : outcome (mem * opd) :=
  let* (m, o) := scalarAlloc z m i in
  let* m := unary_broadcast 1 (sum_vector zero (fun s x => add s (abs x)) i o) m i o in Ok (m, o).
(** [blas::iamax] (/repo/lube/clapack.cpp 140-162; the Fortran function counts from 1): the scan of
    the reference BLAS, from element [k] on, the largest so far, [best], being at [at_]. *)
Fixpoint iamaxArray (gt : A -> A -> bool) (m : mem) (a : nat) (n : nat) (p : Z) (k at_ : Z) (best : A) : outcome Z :=
  match n with
  | O => Ok at_
  | S n => let* x := rd m a p in
           if gt x best then iamaxArray gt m a n (p + 1) (k + 1) k x else iamaxArray gt m a n (p + 1) (k + 1) at_ best
  end.
(** /repo/lube/math.cpp 957-987: [IAMax::vector].  [gt x y]: the magnitude of x is above that of y.
    [long_] stores a long in a cell of the output. *)
Definition iamax_vector (gt : A -> A -> bool) (long_ : Z -> A) (i o : opd) (iOffsetI iOffsetO : Z) (m : mem) : outcome mem :=
  if is_same i o then Throw "IAMax::vector: Cannot operate in place" else
  let* n := shape m i (-1) in
  let* r := if n <? 1 then Ok (-1)
            else let* x := rd m (o_arr i) (offset i + iOffsetI) in
                 iamaxArray gt m (o_arr i) (Z.to_nat (n - 1)) (offset i + iOffsetI + 1) 1 0 x in
  wr m (o_arr o) (offset o + iOffsetO) (long_ r).
Definition iamax_new (gt : A -> A -> bool) (long_ : Z -> A) (m : mem) (i : opd) : outcome (mem * opd) :=
  let* (m, o) := scalarAlloc (long_ 0) m i in
  let* m := unary_broadcast 1 (iamax_vector gt long_ i o) m i o in Ok (m, o).
(** Reading and writing a row. *)
Fixpoint rd_row (m : mem) (a : nat) (p : Z) (n : nat) : outcome (list A) :=
  match n with O => Ok [] | S n => let* x := rd m a p in let* l := rd_row m a (p + 1) n in Ok (x :: l) end.
Fixpoint wr_row (m : mem) (a : nat) (p : Z) (l : list A) : outcome mem :=
  match l with [] => Ok m | x :: t => let* m := wr m a p x in wr_row m a (p + 1) t end.
(** /repo/lube/math.cpp 1191-1225 called through func.cpp 68-76: [Sort::vector]; [sort_] is std::sort. *)
Definition sort_vector (sort_ : list A -> list A) (i o : opd) (iIOffset iOOffset : Z) (m : mem) : outcome mem :=
  let cdim := dim i - 1 in
  let* iv := subview m i (dim i - cdim) iIOffset in
  let* ov := subview m o (dim o - cdim) iOOffset in
  if negb (is_same iv ov) then Throw "Sort::vector: in place only for the moment" else
  let* n := shape m iv (-1) in
  let* l := rd_row m (o_arr iv) (offset iv) (Z.to_nat n) in
  wr_row m (o_arr iv) (offset iv) (sort_ l).
(** [sort(a, a)] and [sort(a)] (func.cpp 32-48). *)
Definition sort_inplace (sort_ : list A -> list A) (m : mem) (i : opd) : outcome mem :=
  unary_broadcast 1 (sort_vector sort_ i i) m i i.
Definition sort_new (z : A) (sort_ : list A -> list A) (m : mem) (i : opd) : outcome (mem * opd) :=
  let (m, o) := alloc_like z m i in
  let* m := unary_broadcast 1 (sort_vector sort_ i o) m i o in Ok (m, o).
End Cells.
