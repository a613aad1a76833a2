(** Functors of N arguments, /repo/lube/func.cpp 301-411 and func.h 97-117, with a [vector] of the user. *)
From Coq Require Import ZArith Bool List String.
From Verif Require Import Base GeoModel.
Import ListNotations.
Local Open Scope Z_scope.
Local Notation length := List.length.

Section Nary.
Variable A : Type.

(** What is pushed for one input, func.cpp 402-405: a view of it, or the value of an element ([push]
    takes the value of a reference, /repo/lube/var.cpp 1066-1089). *)
Inductive arg := Row (v : opd) | Val (x : A).
(** The var [iv] the arguments are pushed on, func.cpp 397: undefined; a number, as one number pushed on
    an undefined var makes it (var.cpp 1071-1076); an array of numbers of one type; an array of vars. *)
Inductive args := Undef | One (x : A) | Nums (l : list A) | Vars (l : list arg).
(** The output [ov], func.cpp 407: a view or a reference to a cell. *)
Inductive out := ORow (v : opd) | OElem (a : nat) (c : Z).

(** [var::push], /repo/lube/var.cpp 1066-1089, the numbers being of one type (func.cpp 380-384): an array
    pushed on a number throws (1077-1081); one stored in an array of numbers is cast, which reads the
    pointer as a number (var.cpp 129-149). *)
Definition push_arg (iv : args) (x : arg) : outcome args :=
  match iv, x with
  | Undef, Val x => Ok (One x)
  | Undef, Row v => Ok (Vars [Row v])
  | One x, Val y => Ok (Nums [x; y])
  | One _, Row _ => Throw "push(): Incompatible types"
  | Nums l, Val y => Ok (Nums (l ++ [y]))
  | Nums _, Row _ => UB TypePun
  | Vars l, x => Ok (Vars (l ++ [x]))
  end.
(** [iVar\[j\]\[i\]], func.cpp 404.  An index that is too large would make the array longer: not modelled. *)
Definition elem (m : mem A) (o : opd) (i : Z) : outcome A :=
  let* n := size A m o in
  if (i <? 0) || (n <=? i) then Throw "not modelled" else rd A m (o_arr o) (offset o + i).
(** func.cpp 398-406: the loop over the inputs. *)
Fixpoint collect (m : mem A) (cdim i : Z) (l : list opd) (iv : args) : outcome args :=
  match l with
  | [] => Ok iv
  | o :: t =>
    let* step := if 0 <? cdim then stride o (cdim - 1) else Ok 0 in
    let* x := (if dim o =? cdim then let* x := elem m o i in Ok (Val x)
               else let* k := imul step i in let* v := subview A m o (dim o - cdim) k in Ok (Row v)) in
    let* iv := push_arg iv x in
    collect m cdim i t iv
  end.
(** [NaryFunctor::broadcast], func.cpp 377-410.  Each input comes with the type of its elements. *)
Definition nary_broadcast (mDim : Z) (vector : args -> out -> mem A -> outcome (mem A)) (m : mem A) (l : list (Z * opd)) (o : opd) : outcome (mem A) :=
  if (match l with [] => true | (t0, _) :: t => forallb (fun x => t0 =? fst x) t end) then
    let cdim := dim o - mDim in
    if cdim <? 0 then Throw "var::broadcast: input dimension too small" else
    let* stepO := if 0 <? cdim then stride o (cdim - 1) else Ok 0 in
    let* nOps := if 0 <? cdim then let* n := size A m o in idiv n stepO else Ok 1 in
    for_to A nOps (fun i m =>
      let* iv := collect m cdim i (map snd l) Undef in
      let* ov := (if dim o =? cdim then (let* n := size A m o in if n <=? i then Throw "not modelled" else Ok (OElem (o_arr o) (offset o + i)))
                  else let* k := imul stepO i in let* v := subview A m o (dim o - cdim) k in Ok (ORow v)) in
      vector iv ov m) m
  else Throw "var::broadcast: types must match (for now)".
(** [NaryFunctor::operator ()(iVar)] with the default [alloc] and [scalar], func.cpp 305-313, 333-338,
    355-358. *)
Definition nary_new (z : A) (mDim : Z) (vector : args -> out -> mem A -> outcome (mem A)) (m : mem A) (x : Z * opd) (l : list (Z * opd)) : outcome (mem A * opd) :=
  let (m, o) := alloc_like A z m (snd x) in
  let* m := nary_broadcast mDim vector m (x :: l) o in Ok (m, o).
(** [NaryFunctor::operator ()()], func.cpp 321-326, with the default [alloc], 305-313. *)
Definition nary_none : outcome (mem A * opd) := Throw "NaryFunctor::alloc: must override alloc()".
(** The default [vector], func.cpp 365-368. *)
Definition default_vector (iv : args) (ov : out) (m : mem A) : outcome (mem A) := Throw "UnaryFunctor: not a vector operation".
End Nary.
Arguments Row {A}. Arguments Val {A}. Arguments Undef {A}. Arguments One {A}. Arguments Nums {A}. Arguments Vars {A}.
