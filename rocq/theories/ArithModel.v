(** Arithmetic on numbers and on arrays that are not views: the operators of
    /repo/lube/var.h 105-113, the functors of /repo/lube/math.cpp 129-208, 329-360, 407-439,
    547-578, 752-783 and their broadcasting, /repo/lube/func.cpp 18-111, 133-168, 257-300.

    The results carry what the output variable holds, also when an exception stops the
    operation half way.  Views and array operations on floating point arrays are the subject
    of GeoModel.v.  Complex numbers are left out. *)
From Coq Require Import ZArith Bool List String.
From Coq.Floats Require Import SpecFloat.
From Verif Require Import Base StrModel ValModel NumModel.
Import ListNotations.
Local Open Scope string_scope.
Local Open Scope list_scope.
Local Open Scope Z_scope.

(** The functors Add, Sub, Mul and Div. *)
Inductive aop := Add | Sub | Mul | Div.

(** The operators on integers, without regard to the range (C++ division truncates). *)
Definition z_op (op : aop) (a b : Z) : outcome Z :=
  match op with
  | Add => Ok (a + b)
  | Sub => Ok (a - b)
  | Mul => Ok (a * b)
  | Div => if b =? 0 then UB DivByZero else Ok (Z.quot a b)
  end.
(** On signed types: a result outside the range is undefined. *)
Definition s_op (op : aop) (inside : Z -> bool) (a b : Z) : outcome Z :=
  let* r := z_op op a b in if inside r then Ok r else UB SignedOverflow.
(** On floating point types (round to nearest even, no extended precision). *)
Definition f_op (op : aop) (prec emax : Z) (a b : spec_float) : spec_float :=
  match op with
  | Add => SFadd prec emax a b
  | Sub => SFsub prec emax a b
  | Mul => SFmul prec emax a b
  | Div => SFdiv prec emax a b
  end.

(** /repo/lube/math.cpp 336-350, 414-428, 554-568, 759-773: [iVar1.get<T>() op iVar2.cast<T>()]
    for the type of [x].  The operands of type char are promoted to int and the result
    converted back. *)
Definition num_op (op : aop) (x y : val) : outcome val :=
  match x with
  | VChar a => let* c := cast TChar y in match c with
      | VChar b => let* r := s_op op in_int a b in Ok (VChar (wrap_char r)) | _ => UB TypePun end
  | VInt a => let* c := cast TInt y in match c with
      | VInt b => let* r := s_op op in_int a b in Ok (VInt r) | _ => UB TypePun end
  | VLong a => let* c := cast TLong y in match c with
      | VLong b => let* r := s_op op in_long a b in Ok (VLong r) | _ => UB TypePun end
  | VFloat a => let* c := cast TFloat y in match c with
      | VFloat b => Ok (VFloat (f_op op 24 128 a b)) | _ => UB TypePun end
  | VDouble a => let* c := cast TDouble y in match c with
      | VDouble b => Ok (VDouble (f_op op 53 1024 a b)) | _ => UB TypePun end
  | _ => UB TypePun
  end.

(** [ *oVar.ptr<T>() = r ], /repo/lube/var.cpp 165-177: the union member is written whatever
    the type of the output variable.  If that is not [T], the variable is left with a type and
    bits that do not belong together; for an undefined variable the bits are its pointer. *)
Definition store (out : val) (r : outcome val) : val * outcome unit :=
  match r with
  | Ok v => if vtype out =? vtype v then (v, Ok tt) else (out, UB TypePun)
  | Throw m => (out, Throw m)
  | UB k => (out, UB k)
  | Fuel => (out, Fuel)
  end.

(** The loop of /repo/lube/func.cpp 268-273 (and 101-105) over the elements of the input and of
    the output; [at] on an undefined output throws (/repo/lube/var.cpp 812-813). *)
Definition over (f : val -> val -> val * outcome unit) : list val -> list val -> list val * outcome unit :=
  fix go l lo :=
  match l, lo with
  | [], _ => (lo, Ok tt)
  | _ :: _, [] => (lo, UB OutOfBounds)
  | x :: l', o :: lo' =>
    match f x o with
    | (o', Ok _) => let (r, e) := go l' lo' in (o' :: r, e)
    | (o', e) => (o' :: lo', e)
    end
  end.
(** The same over the values of a map. *)
Definition over_map (f : val -> val -> val * outcome unit) : list (val * val) -> list (val * val) -> list (val * val) * outcome unit :=
  fix go l lo :=
  match l, lo with
  | [], _ => (lo, Ok tt)
  | _ :: _, [] => (lo, UB OutOfBounds)
  | (_, x) :: l', (k, o) :: lo' =>
    match f x o with
    | (o', Ok _) => let (r, e) := go l' lo' in ((k, o') :: r, e)
    | (o', e) => ((k, o') :: lo', e)
    end
  end.

(** [var::atype], /repo/lube/var.cpp 634-643, of something defined. *)
Definition vatype (v : val) : Z :=
  match v with
  | VArr t _ | VView _ t _ =>
    match t with TChar => 1 | TInt => 2 | TLong => 3 | TFloat => 4 | TDouble => 5 | TVar => 8 end
  | VMap _ => 9
  | _ => vtype v
  end.

(** The array operations, /repo/lube/math.cpp 362-404, 441-469, 581-634, on arrays other than of
    float and double, and /repo/lube/func.cpp 186-220 for Div.  [inplace]: the output is the
    left operand.  (Div on an empty right operand also makes that one longer before it throws;
    this is not modelled.) *)
Definition vector (op : aop) (inplace : bool) (ty : Z) : outcome unit :=
  match op with
  | Div => Throw "BinaryFunctor: not a vector operation"
  | Mul => if (ty =? 4) || (ty =? 5) then Throw "not modelled" else Throw "Mul::vector: Unknown type"
  | Add | Sub =>
    if negb inplace then UB AssertFail
    else if (ty =? 4) || (ty =? 5) then Throw "not modelled"
    else Throw (match op with Sub => "Sub::vector: Unknown type" | _ => "Add::vector: Unknown type" end)
  end.
(** /repo/lube/func.cpp 275-299 for operands that are not views: the dimensions are 1. *)
Definition array_op (op : aop) (inplace : bool) (y x out : val) : val * outcome unit :=
  if negb (vdefined y) then (out, Throw "var::atype(): Undefined")
  else if negb (vatype x =? vatype y) then (out, Throw "var::broadcast: types must match (for now)")
  else if vsize x =? 0 then (out, UB DivByZero)
  else (out, vector op inplace (vatype x)).

Definition is_view (v : val) : bool := match v with VView _ _ _ => true | _ => false end.

(** [Add::scalar] and so on, /repo/lube/math.cpp 329-360, 407-439, 547-578, 752-783, with
    [ArithmeticFunctor::broadcast], /repo/lube/func.cpp 257-274.  The type of an undefined
    variable is asked through [atype], which throws (math.cpp 76-82). *)
Fixpoint scalar (op : aop) (inplace : bool) (y x out : val) {struct x} : val * outcome unit :=
  match x with
  | VNil => (out, Throw "var::atype(): Undefined")
  | VArr _ l =>
    if is_view y then (out, Throw "not modelled")
    else if vsize y =? 1 then
      match l, out with
      | [], _ => (out, Ok tt)
      | _ :: _, VArr t lo => let (r, e) := over (scalar op inplace y) l lo in (VArr t r, e)
      | _ :: _, VNil => (out, Throw "var::at(): uninitialised")
      | _ :: _, _ => (out, UB TypePun)
      end
    else array_op op inplace y x out
  | VMap l =>
    if is_view y then (out, Throw "not modelled")
    else if vsize y =? 1 then
      match l, out with
      | [], _ => (out, Ok tt)
      | _ :: _, VMap lo => let (r, e) := over_map (scalar op inplace y) l lo in (VMap r, e)
      | _ :: _, VNil => (out, Throw "var::at(): uninitialised")
      | _ :: _, _ => (out, UB TypePun)
      end
    else array_op op inplace y x out
  | VView _ _ _ => (out, Throw "not modelled")
  | _ => store out (num_op op x y)
  end.

(** [iVar.copy(true)], /repo/lube/var.cpp 584-597, /repo/lube/heap.cpp 71-77: an array of the
    same type and size.  What is in the elements of a dense array is not determined; the zeros
    here are never read. *)
Definition zero_of (t : ety) : val :=
  match t with
  | TChar => VChar 0 | TInt => VInt 0 | TLong => VLong 0
  | TFloat => VFloat (S754_zero false) | TDouble => VDouble (S754_zero false)
  | TVar => VNil
  end.
Definition alloc (x : val) : val :=
  match x with
  | VArr t l => VArr t (map (fun _ => zero_of t) l)
  | VMap l => VMap (map (fun _ => (VNil, VNil)) l)
  | _ => x
  end.

(** [operator +=] and so on, /repo/lube/var.h 105-108: what the variable is afterwards, and
    how it ended. *)
Definition arith_in (op : aop) (x y : val) : val * outcome unit := scalar op true y x x.
(** [operator +] and so on, /repo/lube/var.h 109-112 and /repo/lube/func.cpp 145-152. *)
Definition arith_new (op : aop) (x y : val) : outcome val :=
  let (v, e) := scalar op false y x (alloc x) in let* _ := e in Ok v.
(** /repo/lube/var.h 113. *)
Definition negate (x : val) : outcome val := arith_new Mul x (VInt (-1)).

(** [a op= a\[k\]]: the right operand is passed as a var that refers to the element
    (/repo/lube/var.h 105-108 and 114, /repo/lube/var.cpp 711-723), so that every turn of the
    loop reads what the element is by then.  For an element that is not an array. *)
Fixpoint with_own (op : aop) (k i n : nat) (l : list val) : list val * outcome unit :=
  match n with
  | O => (l, Ok tt)
  | S n' =>
    match nth_error l i, nth_error l k with
    | Some x, Some y =>
      match scalar op true y x x with
      | (x', Ok _) => with_own op k (S i) n' (firstn i l ++ x' :: skipn (S i) l)
      | (x', e) => (firstn i l ++ x' :: skipn (S i) l, e)
      end
    | _, _ => (l, UB OutOfBounds)
    end
  end.
Definition arith_own (op : aop) (t : ety) (l : list val) (k : nat) : val * outcome unit :=
  let (r, e) := with_own op k 0 (List.length l) l in (VArr t r, e).

(** * Functions of one number *)
(** [oVar = r] where [oVar] is a variable or refers to an element, /repo/lube/var.cpp 275-338. *)
Definition assign_to (cell : option ety) (out : val) (r : val) : val * outcome unit :=
  match cell with
  | None => (r, Ok tt)
  | Some t => match cast t r with
              | Ok v => (v, Ok tt)
              | Throw m => (out, Throw m)
              | UB k => (out, UB k)
              | Fuel => (out, Fuel)
              end
  end.
Definition cell_of (t : ety) : option ety := match t with TVar => None | _ => Some t end.

(** The functors Floor, Sin, Cos, Tan, ATan, Sqrt, Log and Exp of /repo/lube/math.cpp 129-181,
    for the library functions [f32] and [f64] on numbers, with [UnaryFunctor::broadcast],
    /repo/lube/func.cpp 88-107.  [cell]: the type of the array the output is an element of, if
    that is not an array of vars.  [unknown] is the text of the exception. *)
Fixpoint unary (f32 f64 : spec_float -> spec_float) (unknown : string) (cell : option ety) (x out : val) {struct x} : val * outcome unit :=
  match x with
  | VNil => (out, Throw "var::atype(): Undefined")
  | VFloat a => assign_to cell out (VFloat (f32 a))
  | VDouble a => assign_to cell out (VDouble (f64 a))
  | VArr t l =>
    match l, out with
    | [], _ => (out, Ok tt)
    | _ :: _, VArr t' lo => let (r, e) := over (unary f32 f64 unknown (cell_of t')) l lo in (VArr t' r, e)
    | _ :: _, VNil => (out, Throw "var::at(): uninitialised")
    | _ :: _, _ => (out, UB TypePun)
    end
  | VMap l =>
    match l, out with
    | [], _ => (out, Ok tt)
    | _ :: _, VMap lo => let (r, e) := over_map (unary f32 f64 unknown None) l lo in (VMap r, e)
    | _ :: _, VNil => (out, Throw "var::at(): uninitialised")
    | _ :: _, _ => (out, UB TypePun)
    end
  | VView _ _ _ => (out, Throw "not modelled")
  | _ => (out, Throw unknown)
  end.
(** [x.sin()] and so on, /repo/lube/var.h 155-160. *)
Definition unary_in f32 f64 unknown (x : val) : val * outcome unit := unary f32 f64 unknown None x x.
(** [sin(x)] and so on, /repo/lube/func.cpp 32-37. *)
Definition unary_new f32 f64 unknown (x : val) : outcome val :=
  let (v, e) := unary f32 f64 unknown None x (alloc x) in let* _ := e in Ok v.
