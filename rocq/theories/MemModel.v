(** The memory model: vars, reference counted arrays, references and views;
    /repo/lube/var.cpp, heap.cpp, view.cpp, heap.h.

    A method of [var] is a state transformer on memory and a stack of vars.  The stack holds
    the variables of the program and, above them, the parameters, locals and temporaries
    of the functions being executed; leaving a scope (also by an exception) destroys
    them.  Complex numbers and views of arrays of vars are left out. *)
From Coq Require Import ZArith Bool List String.
From Coq.Floats Require Import SpecFloat.
From Verif Require Import Base StrModel ValModel NumModel AllocModel ArithModel.
Import ListNotations.
Local Open Scope string_scope.
Local Open Scope list_scope.
Local Open Scope Z_scope.

(** * State *)

(** A var, /repo/lube/var.h 202-216: mType and mData.
    [MRef l i]: a reference (mType = ~i) to element [i] of array [l].
    [MNum x]: mType > 0 and a number.  [MNil], [MPtr l]: mType = TYPE_ARRAY with a null or
    non-null pointer.
    [MBad]: mType = TYPE_VAR, left behind by a failed dereference (var.cpp 1292, 1318).
    [MJunk] is not a var but the content of an uninitialised element of a dense array. *)
Inductive mvar := MNil | MNum (x : val) | MPtr (l : nat) | MRef (l i : nat) | MBad | MJunk.

(** Element types, /repo/lube/var.h 31-42. *)
Inductive hty := HE (t : ety) | HPair.
Definition varlike (t : hty) : bool := match t with HE TVar | HPair => true | _ => false end.
Definition hcode (t : hty) : Z :=
  match t with
  | HE TChar => 1 | HE TInt => 2 | HE TLong => 3 | HE TFloat => 4 | HE TDouble => 5
  | HE TVar => 8 | HPair => 9
  end.

(** A Heap object, /repo/lube/heap.h 155-183.  The cells are the whole allocation, so
    mCapacity is their number; a cell is (key, value), the key being used in maps only.
    [h_gen] numbers the allocations of mData: a pointer into an earlier one dangles.
    [h_view] is mHeap of a View object (heap.h 239), whose own cells are the descriptor. *)
Record hobj := mkobj {
  h_ty : hty;
  h_size : nat;
  h_gen : nat;
  h_cells : list (mvar * mvar);
  h_view : option nat
}.

(** [None] is a deleted object.  [rc] is mRefCount (heap.h 177). *)
Record state := mkst {
  mem : list (option hobj);
  rc : list nat;
  stk : list mvar
}.

(** Results.  [RStuck]: outside the model. *)
Inductive res (A : Type) :=
| ROk (a : A) (s : state)
| RThrow (m : string) (s : state)
| RUB (k : ubkind)
| RStuck.
Arguments ROk {A} a s.
Arguments RThrow {A} m s.
Arguments RUB {A} k.
Arguments RStuck {A}.
Definition M (A : Type) := state -> res A.
Definition ret {A} (a : A) : M A := fun s => ROk a s.
Definition throw {A} (m : string) : M A := fun s => RThrow m s.
Definition ub {A} (k : ubkind) : M A := fun _ => RUB k.
Definition stuck {A} : M A := fun _ => RStuck.
Definition bind {A B} (m : M A) (f : A -> M B) : M B := fun s =>
  match m s with
  | ROk a s' => f a s'
  | RThrow e s' => RThrow e s'
  | RUB k => RUB k
  | RStuck => RStuck
  end.
Declare Scope mem_scope.
Notation "'let!' x ':=' a 'in' b" := (bind a (fun x => b))
  (at level 200, x pattern, right associativity) : mem_scope.
Notation "a ';;' b" := (bind a (fun _ => b)) (at level 199, right associativity) : mem_scope.
Local Open Scope mem_scope.
Definition lift {A} (o : outcome A) : M A :=
  match o with
  | Ok a => ret a
  | Throw m => throw m
  | UB k => ub k
  | Fuel => stuck
  end.

(** * Memory access *)

Definition get_obj (l : nat) : M hobj := fun s =>
  match nth_error (mem s) l with
  | Some (Some o) => ROk o s
  | _ => RUB UseAfterFree
  end.
Definition set_obj (l : nat) (o : hobj) : M unit := fun s =>
  ROk tt {| mem := set_nth (mem s) l (Some o); rc := rc s; stk := stk s |}.

(** Where a var is: on the stack, or the value or key of a cell of an allocation. *)
Inductive lval := LS (i : nat) | LC (l g i : nat) | LK (l g i : nat).

Definition get (v : lval) : M mvar :=
  match v with
  | LS i => fun s => match nth_error (stk s) i with Some x => ROk x s | None => RStuck end
  | LC l g i =>
    let! o := get_obj l in
    if negb (Nat.eqb (h_gen o) g) then ub UseAfterFree else
    match nth_error (h_cells o) i with Some (_, x) => ret x | None => ub OutOfBounds end
  | LK l g i =>
    let! o := get_obj l in
    if negb (Nat.eqb (h_gen o) g) then ub UseAfterFree else
    match nth_error (h_cells o) i with Some (x, _) => ret x | None => ub OutOfBounds end
  end.
Definition set_cells (o : hobj) (c : list (mvar * mvar)) : hobj :=
  mkobj (h_ty o) (h_size o) (h_gen o) c (h_view o).
Definition put (v : lval) (x : mvar) : M unit :=
  match v with
  | LS i => fun s => if Nat.ltb i (List.length (stk s))
                     then ROk tt {| mem := mem s; rc := rc s; stk := set_nth (stk s) i x |} else RStuck
  | LC l g i =>
    let! o := get_obj l in
    if negb (Nat.eqb (h_gen o) g) then ub UseAfterFree else
    match nth_error (h_cells o) i with
    | Some (k, _) => set_obj l (set_cells o (set_nth (h_cells o) i (k, x)))
    | None => ub OutOfBounds
    end
  | LK l g i =>
    let! o := get_obj l in
    if negb (Nat.eqb (h_gen o) g) then ub UseAfterFree else
    match nth_error (h_cells o) i with
    | Some (_, w) => set_obj l (set_cells o (set_nth (h_cells o) i (x, w)))
    | None => ub OutOfBounds
    end
  end.

(** * Reference counts *)

(** The array a var holds a count on: mType <= TYPE_ARRAY and a non-null pointer
    (var.cpp 959, 973). *)
Definition target (v : mvar) : option nat :=
  match v with MPtr l | MRef l _ => Some l | _ => None end.

(** /repo/lube/heap.cpp 207-211 and var.cpp 952-962. *)
Definition attach (v : mvar) : M unit :=
  match target v with
  | None => ret tt
  | Some l => let! _ := get_obj l in
              fun s => ROk tt {| mem := mem s; rc := set_nth (rc s) l (S (nth l (rc s) 0%nat)); stk := stk s |}
  end.

(** What a deleted object releases: the vars of its cells (dealloc, heap.cpp 356-392) and
    the array of a view (view.cpp 113-117). *)
Definition contents (o : hobj) : list mvar :=
  flat_map (fun c => [fst c; snd c]) (h_cells o) ++
  match h_view o with Some t => [MPtr t] | None => [] end.
Definition weight1 (o : option hobj) : nat :=
  match o with Some o => List.length (contents o) | None => 0%nat end.
Definition weight (m : list (option hobj)) : nat := fold_right (fun o n => (weight1 o + n)%nat) 0%nat m.

(** /repo/lube/heap.cpp 213-223, var.cpp 237-249, 969-976: detaching vars one after the
    other; the last detach deletes the object and detaches its contents.  (C++ destroys the
    elements of an array from the last to the first.) *)
Fixpoint release_loop (fuel : nat) (w : list mvar) (s : state) : res unit :=
  match fuel with
  | O => RStuck
  | S f =>
    match w with
    | [] => ROk tt s
    | v :: w' =>
      match target v with
      | None => release_loop f w' s
      | Some l =>
        match nth_error (mem s) l with
        | Some (Some o) =>
          match nth l (rc s) 0%nat with
          | O => RUB AssertFail
          | S O => release_loop f (contents o ++ w')
                     {| mem := set_nth (mem s) l None; rc := set_nth (rc s) l 0%nat; stk := stk s |}
          | S n => release_loop f w' {| mem := mem s; rc := set_nth (rc s) l n; stk := stk s |}
          end
        | _ => RUB UseAfterFree
        end
      end
    end
  end.
Definition release (w : list mvar) : M unit := fun s =>
  release_loop (S (List.length w + weight (mem s))) w s.

(** A scope: a parameter, local or temporary initialised with a value whose count it
    takes over, and destroyed afterwards, also when an exception is thrown. *)
Definition leave (i : nat) : M unit := fun s =>
  release (skipn i (stk s)) {| mem := mem s; rc := rc s; stk := firstn i (stk s) |}.
Definition scoped {A} (v : mvar) (body : lval -> M A) : M A := fun s =>
  let i := List.length (stk s) in
  match body (LS i) {| mem := mem s; rc := rc s; stk := stk s ++ [v] |} with
  | ROk a s' => (leave i ;; ret a) s'
  | RThrow m s' => (leave i ;; throw m) s'
  | RUB k => RUB k
  | RStuck => RStuck
  end.
(** Return a local by value (moved or elided). *)
Definition take (v : lval) : M mvar := let! x := get v in put v MNil ;; ret x.

(** Copy construction, var.cpp 260-266. *)
Definition copy_of (v : lval) : M mvar := let! x := get v in attach x ;; ret x.

(** Overwriting a var, with the counts: the new value is attached before the old one is
    detached (var.cpp 330-335). *)
Definition replace (v : lval) (x : mvar) : M unit :=
  let! old := get v in
  put v x ;; attach x ;; release [old].

(** * Heap objects *)

(** New cells: vars and pairs are constructed, other elements are not initialised
    (heap.cpp 314-354). *)
Definition fresh (t : hty) : mvar * mvar := if varlike t then (MNil, MNil) else (MNil, MJunk).
(** The terminator, heap.cpp 267-268. *)
Definition NUL : mvar := MNum (VChar 0).
Definition is_char (t : hty) : bool := match t with HE TChar => true | _ => false end.
Definition terminate (t : hty) (n : nat) (c : list (mvar * mvar)) : list (mvar * mvar) :=
  if is_char t then set_nth c n (MNil, NUL) else c.

(** [new Heap(n, t)] and the attach of the var that gets it: heap.cpp 80-85, 225-241,
    267-268; the result carries its count. *)
Definition new_cells (t : hty) (n : nat) : M (list (mvar * mvar)) :=
  let! c := lift (allocSize (Z.of_nat n + if is_char t then 1 else 0)) in
  if c <? 0 then ub AssertFail else
  ret (terminate t n (repeat (fresh t) (Z.to_nat c))).
Definition new_obj (o : hobj) : M mvar := fun s =>
  ROk (MPtr (List.length (mem s))) {| mem := mem s ++ [Some o]; rc := rc s ++ [1%nat]; stk := stk s |}.
Definition new_heap (t : hty) (n : nat) : M mvar :=
  let! c := new_cells t n in new_obj (mkobj t n 0 c None).

(** /repo/lube/heap.cpp 225-271: [Heap::resize].  Re-allocation assigns the old cells to
    the new ones and destroys the old ones; this is a move, the counts being the same
    afterwards.  For a view this is the descriptor (the method is not overridden). *)
Definition heap_resize (l n : nat) : M unit :=
  let! o := get_obj l in
  let! c := lift (allocSize (Z.of_nat n + if is_char (h_ty o) then 1 else 0)) in
  let cap := List.length (h_cells o) in
  if Z.of_nat cap <? c
  then set_obj l (mkobj (h_ty o) n (S (h_gen o))
                    (terminate (h_ty o) n (h_cells o ++ repeat (fresh (h_ty o)) (Z.to_nat c - cap))) (h_view o))
  else if is_char (h_ty o) && Nat.leb cap n then ub OutOfBounds
  else set_obj l (mkobj (h_ty o) n (h_gen o) (terminate (h_ty o) n (h_cells o)) (h_view o)).

(** The descriptor of a view, heap.h 204-222, view.cpp 129-144. *)
Definition own_int (o : hobj) (i : nat) : M Z := fun s =>
  match nth_error (h_cells o) i with
  | Some (_, MNum (VInt z)) => ROk z s
  | Some _ => RUB Uninit
  | None => RUB OutOfBounds
  end.
Definition shape_i (o : hobj) (d : nat) : M Z :=
  if Nat.leb (h_size o) (2 * d + 1) then throw "View::shape(): dimension out of bounds" else own_int o (2 * d + 1).
Definition stride_i (o : hobj) (d : nat) : M Z :=
  if Nat.leb (h_size o) (2 * d + 2) then throw "View::stride(): dimension out of bounds" else own_int o (2 * d + 2).
Definition odim (o : hobj) : nat := match h_view o with None => 1%nat | Some _ => Nat.div2 (h_size o - 1) end.

(** [IHeap::type()] and [size()] (heap.h 121-122, 218-219). *)
Definition obj_type (o : hobj) : M hty :=
  match h_view o with
  | None => ret (h_ty o)
  | Some t => let! o' := get_obj t in ret (h_ty o')
  end.
Definition obj_size (o : hobj) : M Z :=
  match h_view o with
  | None => ret (Z.of_nat (h_size o))
  | Some _ => let! a := stride_i o 0 in let! b := shape_i o 0 in
              if in_int (a * b) then ret (a * b) else ub SignedOverflow
  end.
(** Is the object an array of vars or pairs (not a view)? *)
Definition plain_vars (o : hobj) : bool :=
  match h_view o with None => varlike (h_ty o) | Some _ => false end.

(** The element pointers [ptrT(i)] (heap.h 96-107, 204-215): array and index. *)
Definition elem_at (l : nat) (i : Z) : M (nat * nat) :=
  let! o := get_obj l in
  let! (t, j) := match h_view o with
                 | None => ret (l, i)
                 | Some t => let! off := own_int o 0 in ret (t, i + off)
                 end in
  if j <? 0 then ub OutOfBounds else ret (t, Z.to_nat j).
(** Reading and writing an element of a dense array, or of a view of one. *)
Definition read_elem (l : nat) (i : Z) : M mvar :=
  let! (t, j) := elem_at l i in
  let! o := get_obj t in
  match nth_error (h_cells o) j with
  | Some (_, MJunk) => ub Uninit
  | Some (_, x) => if varlike (h_ty o) then stuck else ret x
  | None => ub OutOfBounds
  end.
Definition write_elem (l : nat) (i : Z) (x : val) : M unit :=
  let! (t, j) := elem_at l i in
  let! o := get_obj t in
  match nth_error (h_cells o) j with
  | Some (k, _) => if varlike (h_ty o) then stuck
                   else set_obj t (set_cells o (set_nth (h_cells o) j (k, MNum x)))
  | None => ub OutOfBounds
  end.

(** * The simple accessors of var *)

(** The var that a value denotes: a reference into an array of vars or pairs denotes the
    var there ([Heap::deref], heap.cpp 108-118); a reference into a dense array stays.
    Elements are never references themselves. *)
Definition eff (v : mvar) : M mvar :=
  match v with
  | MRef l i =>
    let! o := get_obj l in
    if plain_vars o then
      match nth_error (h_cells o) i with
      | Some (_, MRef _ _) => stuck
      | Some (_, x) => ret x
      | None => ub OutOfBounds
      end
    else ret v
  | _ => ret v
  end.

(** var.cpp 600-605, heap.cpp 121-125. *)
Definition is_nil (v : mvar) : bool := match v with MNil => true | _ => false end.
Definition defined (this : lval) : M bool :=
  let! v := get this in let! e := eff v in ret (negb (is_nil e)).
(** var.cpp 622-627, heap.cpp 139-143, heap.h 230-232. *)
Definition type_of (this : lval) : M Z :=
  let! v := get this in let! e := eff v in
  match e with
  | MNil | MPtr _ => ret 0
  | MNum x => ret (vtype x)
  | MRef l _ => let! o := get_obj l in let! t := obj_type o in ret (hcode t)
  | MBad => ret 8
  | MJunk => ub Uninit
  end.
(** var.cpp 608-615, heap.cpp 128-132. *)
Definition size_of (this : lval) : M Z :=
  let! v := get this in let! e := eff v in
  match e with
  | MNil => ret 0
  | MPtr l => let! o := get_obj l in obj_size o
  | _ => ret 1
  end.
(** var.cpp 1241-1246, heap.cpp 156-160. *)
Definition heap_of (this : lval) : M (option nat) :=
  let! v := get this in let! e := eff v in
  match e with MPtr l => ret (Some l) | _ => ret None end.
(** var.cpp 634-643. *)
Definition atype_of (this : lval) : M Z :=
  let! v := get this in let! e := eff v in
  match e with
  | MNil => throw "var::atype(): Undefined"
  | MPtr l => let! o := get_obj l in let! t := obj_type o in ret (hcode t)
  | MNum x => ret (vtype x)
  | MRef l _ => let! o := get_obj l in let! t := obj_type o in ret (hcode t)
  | MBad => ret 8
  | MJunk => ub Uninit
  end.
(** [heap() && atype<T>()]. *)
Definition is_array_of (this : lval) (code : Z) : M bool :=
  let! h := heap_of this in
  match h with
  | None => ret false
  | Some _ => let! t := atype_of this in ret (t =? code)
  end.

(** * Reading values *)

(** The value read from a var, for comparisons and casts.  The temporaries of the
    comparison functions leave counts unchanged and are not modelled. *)
Fixpoint mapM {A B} (f : A -> M B) (l : list A) : M (list B) :=
  match l with
  | [] => ret []
  | x :: t => let! y := f x in let! ys := mapM f t in ret (y :: ys)
  end.
Fixpoint read_val (fuel : nat) (v : mvar) : M val :=
  match fuel with
  | O => stuck
  | S f =>
    let! e := eff v in
    match e with
    | MNil => ret VNil
    | MNum x => ret x
    | MRef l i => let! x := read_elem l (Z.of_nat i) in
                  match x with MNum y => ret y | _ => stuck end
    | MPtr l =>
      let! o := get_obj l in
      match h_view o with
      | None =>
        let cs := firstn (h_size o) (h_cells o) in
        match h_ty o with
        | HPair => let! kv := mapM (fun c => let! k := read_val f (fst c) in
                                             let! w := read_val f (snd c) in ret (k, w)) cs in
                   ret (VMap kv)
        | HE t => let! xs := mapM (fun c => read_val f (snd c)) cs in ret (VArr t xs)
        end
      | Some _ => stuck
      end
    | MBad => stuck
    | MJunk => ub Uninit
    end
  end.
Definition value (v : mvar) : M val := fun s => read_val (S (S (List.length (mem s)))) v s.

(** [iVar.cast<T>()] for a store into a dense array (var.cpp 286-309, 646-700), see [cast]
    in NumModel.v.  Casting an array other than a string is not modelled. *)
Definition cast_var (t : ety) (p : lval) : M val :=
  let! v := get p in let! e := eff v in
  match e with
  | MPtr l => let! o := get_obj l in
              match h_view o, h_ty o with
              | None, HE TChar => let! x := value e in lift (cast t x)
              | _, _ => stuck
              end
  | _ => let! x := value e in lift (cast t x)
  end.

(** * Assignment and dereferencing *)

(** View::copyable, view.cpp 153-167; a Heap is not copyable (heap.h 144). *)
Fixpoint same_shape (o o' : hobj) (n d : nat) : M bool :=
  match n with
  | O => ret true
  | S n => let! a := shape_i o d in
           let! b := (match h_view o' with
                      | None => throw "Heap::shape(): not a view"
                      | Some _ => shape_i o' d
                      end) in
           if a =? b then same_shape o o' n (S d) else ret false
  end.
Definition copyable (l : nat) (h : option nat) : M bool :=
  let! o := get_obj l in
  match h_view o, h with
  | None, _ | _, None => ret false
  | Some _, Some l' =>
    let! o' := get_obj l' in
    let! t := obj_type o in let! t' := obj_type o' in
    if negb (hcode t =? hcode t') then ret false else
    if negb (Nat.eqb (odim o) (odim o')) then ret false else
    if Nat.eqb (odim o) 1 then
      let! a := obj_size o in let! b := obj_size o' in ret (a =? b)
    else same_shape o o' (odim o) 0
  end.

Definition lval_eqb (a b : lval) : bool :=
  match a, b with
  | LS i, LS j => Nat.eqb i j
  | LC l g i, LC l' g' i' | LK l g i, LK l' g' i' => Nat.eqb l l' && Nat.eqb g g' && Nat.eqb i i'
  | _, _ => false
  end.
Definition unknown_type : string := "var::dereference(): Unknown type".

(** [var::dereference], var.cpp 1271-1323: the result says where the var is.  For an
    element of an array of vars, [*this = r] (1281-1283) copies r into a parameter and
    assigns; the array is not a view, so this is the plain assignment.  When the element
    is [*this] itself the other branch is taken and finds type TYPE_VAR. *)
Definition dereference (this : lval) : M lval :=
  let! v := get this in
  match v with
  | MRef l i =>
    let! o := get_obj l in
    if plain_vars o then
      let r := LC l (h_gen o) i in
      if lval_eqb r this then put this MBad ;; throw unknown_type else
      put this (MPtr l) ;;
      let! x := copy_of r in
      scoped x (fun p =>
        let! y := get p in
        replace this y ;;
        let! z := get this in
        match z with MRef _ _ => stuck | _ => ret tt end) ;;
      ret r
    else
      let! x := read_elem l (Z.of_nat i) in
      replace this x ;;
      ret this
  | _ => ret this
  end.

(** [set( *this, iVar, *this)] for a view [l] and an array or view [l'] of the same type and
    shape: math.cpp 213-242 with the broadcast of func.cpp 257-299.  One element is cast
    (func.cpp 264-273, math.cpp 220-234); more are copied by [Set::vector], math.cpp 246-276,
    in one step, there being as many dimensions on both sides.  [blas::copy] takes the
    elements from the first to the last. *)
Fixpoint copy_elems (l l' n : nat) (i : Z) : M unit :=
  match n with
  | O => ret tt
  | S n =>
    let! x := read_elem l' i in
    (match x with MNum y => write_elem l i y | _ => stuck end) ;;
    copy_elems l l' n (i + 1)
  end.
Definition unknown_set : string := "Set::vector: Unknown type".
Definition set_view (l l' : nat) (p : lval) : M unit :=
  let! o := get_obj l in
  let! o' := get_obj l' in
  let! t := obj_type o in
  let! one := (if Nat.eqb (odim o') 1 then let! n' := obj_size o' in ret (n' =? 1) else ret false) in
  if one : bool then
    match t with
    | HE TVar | HPair => stuck
    | HE t => let! x := cast_var t p in write_elem l 0 x
    end
  else
    let! t' := obj_type o' in
    if negb (hcode t =? hcode t') then throw "var::broadcast: types must match (for now)" else
    let! n := obj_size o in
    if n =? 0 then ub DivByZero else
    match t with
    | HE TFloat | HE TDouble => let! n' := obj_size o' in copy_elems l l' (Z.to_nat n') 0
    | _ => throw unknown_set
    end.

(** [var::operator =] on something that is not a reference, var.cpp 319-338.  Assigning to
    a view of matching shape copies data (322-325). *)
Definition assign_plain (this p : lval) : M unit :=
  let! t := get this in
  let! c := (match t with
             | MPtr l => let! h := heap_of p in copyable l h
             | _ => ret false
             end) in
  if c : bool then
    match t with
    | MPtr l => let! h := heap_of p in
                match h with Some l' => set_view l l' p | None => stuck end
    | _ => stuck
    end
  else
  let! x := get p in
  match t with
  | MRef _ _ => stuck
  | _ => replace this x ;; (let! _ := dereference this in ret tt)
  end.

(** [var::operator =], var.cpp 276-339.  [p] is the parameter. *)
Definition assign (this p : lval) : M unit :=
  let! t := get this in
  match t with
  | MRef l i =>
    let! o := get_obj l in
    let! ty := obj_type o in
    match ty with
    | HE TVar | HPair =>
      if plain_vars o then
        let! x := copy_of p in
        scoped x (fun p' => assign_plain (LC l (h_gen o) i) p')
      else stuck
    | HE t => let! x := cast_var t p in write_elem l (Z.of_nat i) x
    end
  | _ => assign_plain this p
  end.
(** [a = b] for an lvalue b: the parameter is a copy. *)
Definition assign_copy (this src : lval) : M unit :=
  let! x := copy_of src in scoped x (fun p => assign this p).
(** [a = e] for a value. *)
Definition assign_value (this : lval) (x : mvar) : M unit := scoped x (fun p => assign this p).

(** * References and subscripts *)

(** [var::reference(int)], var.cpp 1254-1261.  mType = -iIndex-1, so that index -1 gives
    the array itself. *)
Definition reference (this : lval) (i : Z) : M mvar :=
  let! t := type_of this in
  if negb (t =? 0) then throw "var::reference: cannot reference non array" else
  let! v := copy_of this in
  match v with
  | MPtr l | MRef l _ => if 0 <=? i then ret (MRef l (Z.to_nat i)) else
                         if i =? -1 then ret (MPtr l) else stuck
  | _ => ub NullDeref
  end.

(** [var::at(int)], var.cpp 808-819. *)
Definition at_int (this : lval) (i : Z) : M mvar :=
  let! x := copy_of this in
  scoped x (fun v =>
    dereference v ;;
    let! d := defined v in
    if negb d then throw "var::at(): uninitialised" else
    let! t := type_of v in
    if t =? 0 then reference v i else
    if i =? 0 then take v else throw "var::at(): Index out of bounds").
(** [at(i) = x] for a value and for an lvalue: the right hand side is evaluated first. *)
Definition set_at (this : lval) (i : Z) (x : mvar) : M unit :=
  scoped x (fun p => let! r := at_int this i in scoped r (fun q => assign q p)).
Definition set_at_copy (this : lval) (i : Z) (src : lval) : M unit :=
  let! x := copy_of src in set_at this i x.

(** The type of a new array holding [v]'s value: [new Heap(n, tmp.mType)], heap.cpp 83. *)
Definition type_for (v : mvar) : M hty :=
  match v with
  | MNil | MPtr _ => ret (HE TVar)
  | MNum x => ret (HE (ety_of x))
  | MBad => ret (HE TVar)
  | MRef _ _ => stuck
  | MJunk => ub Uninit
  end.

(** [var::array], var.cpp 901-912.  (The var overwritten holds no count here.) *)
Definition become_array (v : lval) (n : nat) : M unit :=
  let! x := copy_of v in
  scoped x (fun tmp =>
    let! x := get tmp in
    let! t := type_for x in
    let! h := new_heap t n in
    put v h ;;
    set_at_copy v 0 tmp).
Definition array (this : lval) : M unit :=
  let! v := dereference this in
  let! h := heap_of v in
  match h with
  | Some _ => ret tt
  | None => become_array v 1
  end.

(** [var::resize], var.cpp 915-946. *)
Definition resize (this : lval) (n : Z) : M unit :=
  if n <? 0 then ub AssertFail else
  let! v := dereference this in
  let! h := heap_of v in
  match h with
  | None =>
    let! x := get v in
    match x with
    | MNil => let! h := new_heap (HE TVar) (Z.to_nat n) in put v h
    | _ => if 1 <? n then become_array v (Z.to_nat n) else ret tt
    end
  | Some _ =>
    let! h := heap_of this in
    match h with
    | None => ub NullDeref
    | Some l => heap_resize l (Z.to_nat n)
    end
  end.

(** [var::operator \[\](int)], var.cpp 711-721 and heap.cpp 163-169. *)
Definition index_plain (this : lval) (i : Z) : M mvar :=
  let! n := size_of this in
  (if n <=? i then (if in_int (i + 1) then resize this (i + 1) else ub SignedOverflow) else ret tt) ;;
  array this ;;
  reference this i.
Definition index_int (this : lval) (i : Z) : M mvar :=
  if i <? 0 then throw "operator [int]: Negative index" else
  let! v := get this in
  match v with
  | MRef l k =>
    let! o := get_obj l in
    if plain_vars o then
      let c := LC l (h_gen o) k in
      let! x := get c in
      match x with MRef _ _ => stuck | _ => index_plain c i end
    else throw "Heap::derefInt: Not a reference"
  | _ => index_plain this i
  end.

(** * Array methods *)

(** [var::push], var.cpp 1066-1089. *)
Definition push (this p : lval) : M unit :=
  let! d := defined this in
  let! t := type_of p in
  let go := (let! x := copy_of p in
             scoped x (fun q =>
               let! n := size_of this in
               let! r := index_int this n in
               scoped r (fun r => assign r q))) in
  if negb d then
    if negb (t =? 0) then assign_copy this p else go
  else
    let! u := type_of this in
    if negb (u =? 0) && negb (t =? u) then throw "push(): Incompatible types" else go.

(** [var::pop], var.cpp 1092-1097. *)
Definition pop (this : lval) : M mvar :=
  let! n := size_of this in
  let! r := at_int this (n - 1) in
  scoped r (fun r =>
    let! n := size_of this in
    resize this (n - 1) ;;
    take r).

(** [var::clear], var.cpp 1220-1224. *)
Definition clear (this : lval) : M unit := assign_value this MNil.

(** [heap()->key(i)], heap.cpp 438-445: a pointer. *)
Definition key_ptr (this : lval) (i : Z) : M lval :=
  let! h := heap_of this in
  match h with
  | None => ub NullDeref
  | Some l =>
    let! o := get_obj l in
    match h_ty o with
    | HPair => if (i <? 0) || (Z.of_nat (h_size o) <=? i) then throw range_error
               else ret (LK l (h_gen o) (Z.to_nat i))
    | _ => throw "Heap::key(): Not a key:value pair"
    end
  end.

(** The loops of [var::insert], var.cpp 1112-1136; [n] is the number of iterations left.
    Keys are never references, so that assigning to one is the plain assignment. *)
Fixpoint shift_up (this : lval) (n : nat) (i : Z) : M unit :=
  match n with
  | O => ret tt
  | S n => let! x := at_int this (i - 1) in set_at this i x ;; shift_up this n (i - 1)
  end.
Fixpoint shift_up_pairs (this : lval) (n : nat) (i : Z) : M unit :=
  match n with
  | O => ret tt
  | S n =>
    let! src := key_ptr this (i - 1) in
    let! x := copy_of src in
    scoped x (fun p => let! dst := key_ptr this i in assign_plain dst p) ;;
    let! x := at_int this (i - 1) in set_at this i x ;;
    shift_up_pairs this n (i - 1)
  end.
(** 1133-1134 and 1135-1136; the size of the parameter is read in every iteration. *)
Fixpoint spread (this p : lval) (idx : Z) (fuel : nat) (i : Z) : M unit :=
  match fuel with
  | O => stuck
  | S f =>
    let! m := size_of p in
    if i <=? idx + m - 1 then ret tt else
    let! x := at_int this (i - m) in
    set_at this i x ;;
    spread this p idx f (i - 1)
  end.
Fixpoint fill (this p : lval) (idx : Z) (fuel : nat) (i : Z) : M unit :=
  match fuel with
  | O => stuck
  | S f =>
    let! m := size_of p in
    if m <=? i then ret tt else
    let! x := index_int p i in
    set_at this (idx + i) x ;;
    fill this p idx f (i + 1)
  end.

(** [var::insert], var.cpp 1104-1140. *)
Definition insert (this p : lval) (idx : Z) : M unit :=
  let! n := size_of this in
  if n <? idx then throw too_large else
  let! isv := is_array_of this 8 in
  if isv : bool then
    let! n := size_of this in
    resize this (n + 1) ;;
    let! n := size_of this in
    shift_up this (Z.to_nat (n - 1 - idx)) (n - 1) ;;
    set_at_copy this idx p
  else
  let! isp := is_array_of this 9 in
  if isp : bool then
    let! n := size_of this in
    resize this (n + 1) ;;
    let! n := size_of this in
    shift_up_pairs this (Z.to_nat (n - 1 - idx)) (n - 1) ;;
    let! x := copy_of p in
    scoped x (fun q => let! dst := key_ptr this idx in assign_plain dst q) ;;
    let! r := at_int this idx in
    scoped r (fun r => clear r)
  else
    let! n := size_of this in
    let! m := size_of p in
    if negb (in_int (n + m)) then ub SignedOverflow else
    resize this (n + m) ;;
    let! n := size_of this in
    spread this p idx (S (Z.to_nat n)) (n - 1) ;;
    let! m := size_of p in
    fill this p idx (S (Z.to_nat m)) 0.
(** [var::append(var)], var.h 143. *)
Definition append (this p : lval) : M unit :=
  let! n := size_of this in
  insert this p n.

(** [var::copy], var.cpp 584-597 with heap.cpp 71-77, 281-311 and view.cpp 26-34.  The
    cells are assigned to new cells: vars are shared, elements of dense arrays copied. *)
Definition attach_all (l : list mvar) : M unit := fold_right (fun v m => attach v ;; m) (ret tt) l.
Definition copy_cells (o : hobj) : M mvar :=
  let! c := new_cells (h_ty o) (h_size o) in
  let cs := firstn (h_size o) (h_cells o) in
  if Nat.ltb (List.length cs) (h_size o) then ub OutOfBounds else
  attach_all (flat_map (fun c => [fst c; snd c]) cs) ;;
  new_obj (mkobj (h_ty o) (h_size o) 0 (cs ++ skipn (h_size o) c) None).
Definition copy (this : lval) : M mvar :=
  let! h := heap_of this in
  match h with
  | None => copy_of this
  | Some l =>
    let! o := get_obj l in
    match h_view o with
    | None => copy_cells o
    | Some t =>
      let! o' := get_obj t in
      let n := (odim o * 2 + 1)%nat in
      let! c := new_cells (HE TInt) n in
      if Nat.ltb (List.length (firstn n (h_cells o))) n then ub OutOfBounds else
      let! h := copy_cells o' in
      match h with
      | MPtr t' => new_obj (mkobj (HE TInt) n 0 (firstn n (h_cells o) ++ skipn n c) (Some t'))
      | _ => stuck
      end
    end
  end.

(** [var::remove], var.cpp 1143-1154. *)
Fixpoint shift_down (this : lval) (n : nat) (i : Z) : M unit :=
  match n with
  | O => ret tt
  | S n => let! x := at_int this i in set_at this (i - 1) x ;; shift_down this n (i + 1)
  end.
Definition remove_msg : string := "remove(): index too large".
Definition remove (this : lval) (idx : Z) : M mvar :=
  if idx <? 0 then ub AssertFail else
  let! n := size_of this in
  if n - 1 <? idx then throw remove_msg else
  let! a := at_int this idx in
  let! r := scoped a (fun a => copy a) in
  scoped r (fun r =>
    let! n := size_of this in
    shift_down this (Z.to_nat (n - 1 - idx)) (idx + 1) ;;
    let! n := size_of this in
    resize this (n - 1) ;;
    take r).

(** [Heap::shift], heap.cpp 472-529, on the object's own cells: [r = mData.vp\[0\]] copies
    the first value, the destructor releases the first cell, the rest is moved down and
    a new var is put in the last place (510-521); for dense arrays the last place keeps
    its content. *)
Definition heap_shift (l : nat) : M mvar :=
  let! o := get_obj l in
  match h_cells o with
  | [] => ub OutOfBounds
  | c :: rest =>
    match h_size o with
    | O => ub BadSize
    | S n =>
      match snd c with
      | MJunk => ub Uninit
      | x =>
        attach x ;;
        (if varlike (h_ty o)
         then
           let! o := get_obj l in
           set_obj l (set_cells o (firstn n rest ++ (MNil, MNil) :: skipn n rest)) ;;
           release [fst c; snd c]
         else set_obj l (set_cells o (firstn n rest ++ match nth_error (h_cells o) n with Some d => [d] | None => [] end ++ skipn n rest))) ;;
        heap_resize l n ;;
        ret x
      end
    end
  end.
Definition shift (this : lval) : M mvar :=
  let! h := heap_of this in
  match h with
  | Some l => heap_shift l
  | None => copy_of this
  end.

(** [iVar.get<T>()], var.cpp 34-50: no conversion. *)
Definition get_as (t : ety) (p : lval) : M val :=
  let! v := get p in
  let! e := eff v in
  match e with
  | MNum x => if ety_eqb (ety_of x) t then ret x else ub TypePun
  | MRef l i => let! o := get_obj l in let! ty := obj_type o in
                match ty with
                | HE u => if ety_eqb u t then
                            let! x := read_elem l (Z.of_nat i) in
                            match x with MNum y => ret y | _ => stuck end
                          else ub TypePun
                | HPair => stuck
                end
  | _ => ub TypePun
  end.
(** [Heap::unshift], heap.cpp 535-578: the cells are moved up by memmove; the last one of
    them, exposed by the resize, is overwritten without being destroyed. *)
Definition heap_unshift (l : nat) (p : lval) : M unit :=
  let! o := get_obj l in
  heap_resize l (S (h_size o)) ;;
  let! o := get_obj l in
  let n := (h_size o - 1)%nat in
  match h_ty o with
  | HPair => throw "Heap::unshift(): Can't unshift a pair"
  | HE TVar =>
    if Nat.leb (List.length (h_cells o)) n then ub OutOfBounds else
    set_obj l (set_cells o ((MNil, MNil) :: firstn n (h_cells o) ++ skipn (S n) (h_cells o))) ;;
    (let! x := copy_of p in scoped x (fun q => assign_plain (LC l (h_gen o) 0) q))
  | HE t =>
    let! x := get_as t p in
    if Nat.leb (List.length (h_cells o)) n then ub OutOfBounds else
    set_obj l (set_cells o ((MNil, MNum x) :: firstn n (h_cells o) ++ skipn (S n) (h_cells o)))
  end.
(** [var::unshift], var.cpp 1166-1178; heap_unshift takes its parameter by value. *)
Definition unshift (this p : lval) : M unit :=
  let! d := defined this in
  if negb d then assign_copy this p else
  let! h := heap_of this in
  (match h with None => array this | Some _ => ret tt end) ;;
  let! h := heap_of this in
  match h with
  | None => ub NullDeref
  | Some l => let! x := copy_of p in scoped x (fun q => heap_unshift l q)
  end.

(** [var::append(const char* )], var.cpp 1050-1056 and heap.cpp 172-179; storing chars in
    another kind of array is not modelled. *)
Fixpoint write_chars (l : nat) (i : nat) (s : str) : M unit :=
  match s with
  | [] => ret tt
  | c :: t => let! o := get_obj l in
              if Nat.leb (List.length (h_cells o)) i then ub OutOfBounds else
              set_obj l (set_cells o (set_nth (h_cells o) i (MNil, MNum (VChar c)))) ;;
              write_chars l (S i) t
  end.
Definition heap_append (l : nat) (s : str) : M unit :=
  let! o := get_obj l in
  if is_char (h_ty o) then
    heap_resize l (h_size o + List.length s) ;;
    write_chars l (h_size o) s
  else stuck.
Definition append_str (this : lval) (s : str) : M unit :=
  array this ;;
  let! h := heap_of this in
  match h with
  | None => ub NullDeref
  | Some l => heap_append l s
  end.

(** A string constant: [var(const char* )], var.cpp 415-433, heap.cpp 87-91. *)
Definition string_var (s : str) : M mvar :=
  let! h := new_heap (HE TChar) 0 in
  match h with
  | MPtr l => heap_append l s ;; ret h
  | _ => stuck
  end.

(** * Maps *)

(** [var::binary], var.cpp 1329-1348. *)
Fixpoint binary_search (this p : lval) (ispair : bool) (fuel : nat) (lo hi : Z) : M Z :=
  match fuel with
  | O => stuck
  | S f =>
    if lo =? hi then ret hi else
    let pos := Z.quot (hi - lo) 2 + lo in
    let! x := (if ispair then let! k := key_ptr this pos in copy_of k else at_int this pos) in
    let! b := scoped x (fun x => let! a := get x in let! y := get p in
                                 let! a := value a in let! y := value y in lift (vlt a y)) in
    if b : bool then binary_search this p ispair f (pos + 1) hi
    else binary_search this p ispair f lo pos
  end.
Definition binary (this p : lval) : M Z :=
  let! n := size_of this in
  if n =? 0 then ret 0 else
  let! b := is_array_of this 9 in
  binary_search this p b (S (Z.to_nat n)) 0 n.

(** [var::operator \[\](var)], var.cpp 735-753.  In the fall back to an int subscript the
    receiver is [*this]. *)
Definition index_var (this p : lval) : M mvar :=
  let! v := dereference this in
  let! d := defined v in
  let go := (let! dp := defined p in
             if negb dp then ret MNil else
             let! index := binary v p in
             let! n := size_of v in
             (if n <=? index then (let! x := copy_of p in scoped x (fun q => insert v q index))
              else
                let! k := key_ptr v index in
                let! a := get k in let! y := get p in
                let! a := value a in let! y := value y in
                let! ne := lift (vneq a y) in
                if ne : bool then (let! x := copy_of p in scoped x (fun q => insert v q index))
                else ret tt) ;;
             reference v index) in
  if negb d then (let! h := new_heap HPair 0 in put v h ;; go) else
  let! h := heap_of v in
  match h with
  | None => go
  | Some _ =>
    let! t := atype_of v in
    if t =? 9 then go else
    let! i := cast_var TInt p in
    match i with VInt z => index_int this z | _ => stuck end
  end.

(** [var::at(var)], var.cpp 829-841.  The receiver is not dereferenced before the reference is
    made (unlike in [at(int)]). *)
Definition at_key (this p : lval) : M mvar :=
  let! d := defined this in
  if negb d then throw "var::at(): uninitialised" else
  let! h := heap_of this in
  (match h with
   | None => ret tt
   | Some _ => let! t := atype_of this in
               if t =? 9 then ret tt else throw "operator [var]: Not a map"
   end) ;;
  let! index := binary this p in
  let! n := size_of this in
  if n <=? index then ret MNil else
  let! k := key_ptr this index in
  let! a := get k in let! y := get p in
  let! a := value a in let! y := value y in
  let! ne := lift (vneq a y) in
  if ne : bool then ret MNil else reference this index.
(** [var::key(int)], var.cpp 844-849: the var at the pointer is copied. *)
Definition key_of (this : lval) (i : Z) : M mvar :=
  let! t := atype_of this in
  if t =? 9 then let! k := key_ptr this i in copy_of k
  else throw "var::key(): Not a map".

(** * Arithmetic *)

(** [get<T>() op cast<T>()] for the type of the receiver, math.cpp 76-82, 329-360, 407-439,
    547-578, 752-783; see [num_op] in ArithModel.v.  Receivers that are arrays are below; giving
    a new array ([operator +]) is not modelled for them. *)
Definition arith_value (op : aop) (this p : lval) : M val :=
  let! v := get this in let! a := eff v in
  match a with
  | MNil => throw "var::atype(): Undefined"
  | MPtr _ => stuck
  | _ => let! x := value a in
         let! y := cast_var (ety_of x) p in
         lift (num_op op x y)
  end.
(** One element of a dense array or view, math.cpp 329-360 and so on. *)
Definition on_elem (op : aop) (l : nat) (i : Z) (y : val) : M unit :=
  let! x := read_elem l i in
  match x with MNum a => let! r := lift (num_op op a y) in write_elem l i r | _ => stuck end.
(** [ArithmeticFunctor::broadcast] with one element on the right, func.cpp 264-273: the right
    operand is cast again for every element. *)
Fixpoint each_elem (op : aop) (t : ety) (l : nat) (p : lval) (n : nat) (i : Z) : M unit :=
  match n with
  | O => ret tt
  | S n => let! y := cast_var t p in on_elem op l i y ;; each_elem op t l p n (i + 1)
  end.
(** [blas::scal], math.cpp 488-516: the factor is cast once. *)
Fixpoint scale_elems (l : nat) (y : val) (n : nat) (i : Z) : M unit :=
  match n with
  | O => ret tt
  | S n => on_elem Mul l i y ;; scale_elems l y n (i + 1)
  end.
(** [blas::axpy] with a factor of 1 or -1 (math.cpp 363-404, 442-468) and [blas::tbmv] with only
    a diagonal (581-613), from the element [off] of the left operand. *)
Fixpoint pair_elems (op : aop) (l : nat) (off : Z) (l' n : nat) (i : Z) : M unit :=
  match n with
  | O => ret tt
  | S n =>
    let! y := read_elem l' i in
    (match y with MNum b => on_elem op l (off + i) b | _ => stuck end) ;;
    pair_elems op l off l' n (i + 1)
  end.
(** func.cpp 291-298. *)
Fixpoint rows (op : aop) (l : nat) (step : Z) (l' n' n : nat) (i : Z) : M unit :=
  match n with
  | O => ret tt
  | S n => pair_elems op l (step * i) l' n' 0 ;; rows op l step l' n' n (i + 1)
  end.
Definition unknown_vector (op : aop) : string :=
  match op with Add => "Add::vector: Unknown type" | Sub => "Sub::vector: Unknown type" | _ => "Mul::vector: Unknown type" end.
(** [broadcast( *this, iVar, *this)], func.cpp 257-299 and math.cpp 474-486, for an array or view
    of numbers [l].  Dividing by an array makes views of both operands before it throws (func.cpp
    178-220) and is not modelled; nor are arrays of vars on the left. *)
Definition arith_array (op : aop) (l : nat) (p : lval) : M unit :=
  let! o := get_obj l in
  let! t := obj_type o in
  let! h := heap_of p in
  let! n' := size_of p in
  let! d' := (match h with Some l' => let! o' := get_obj l' in ret (odim o') | None => ret 1%nat end) in
  match t with
  | HE TVar | HPair => stuck
  | HE t =>
    if Nat.eqb d' 1 && (n' =? 1) then
      let! n := obj_size o in
      match op with
      | Mul => match t with
               | TFloat | TDouble => let! y := cast_var t p in scale_elems l y (Z.to_nat n) 0
               | _ => throw "Mul::scal: Unknown type"
               end
      | _ => each_elem op t l p (Z.to_nat n) 0
      end
    else if Nat.ltb (odim o) d' then throw "var::broadcast: input dimension too large" else
    match h with
    | None => throw "var::atype(): Undefined"
    | Some l' =>
      let! o' := get_obj l' in
      let! t' := obj_type o' in
      if negb (hcode (HE t) =? hcode t') then throw "var::broadcast: types must match (for now)" else
      let! n := obj_size o in
      let! step := (if Nat.ltb d' (odim o) then stride_i o (odim o - d' - 1) else ret n) in
      if step =? 0 then ub DivByZero else
      let ops := Z.to_nat (Z.quot n step) in
      match ops, op, t with
      | O, _, _ => ret tt
      | _, Div, _ => stuck
      | _, _, (TFloat | TDouble) => rows op l step l' (Z.to_nat n') ops 0
      | _, _, _ => throw (unknown_vector op)
      end
    end
  end.
(** [operator +=] and so on, var.h 105-108, func.cpp 160-166: the result is written to where the
    receiver keeps its number ([ptr], var.cpp 158-175), which for a number of that type is what
    assignment does. *)
Definition arith_to (op : aop) (this p : lval) : M unit :=
  let! h := heap_of this in
  match h with
  | Some l => arith_array op l p
  | None => let! r := arith_value op this p in assign_value this (MNum r)
  end.
(** [operator +] and so on, var.h 109-112, func.cpp 146-153. *)
Definition arith_var (op : aop) (this p : lval) : M mvar :=
  let! r := arith_value op this p in ret (MNum r).

(** * Views *)

(** [var::view], var.cpp 1355-1362 with view.cpp 37-90: the shape is a list of ints.  When
    the array is too small the constructor throws after taking its count, which the
    destructor gives back.  Views of arrays of vars are not modelled. *)
Fixpoint desc_loop (shape : list Z) : M (list Z * Z) :=
  match shape with
  | [] => ret ([], 1)
  | d :: t => let! (r, p) := desc_loop t in
              if in_int (p * d) then ret (d :: p :: r, p * d) else ub SignedOverflow
  end.
Definition view (this : lval) (shape : list Z) (off : Z) : M mvar :=
  let! h := heap_of this in
  match h with
  | None => throw "var::view: Input not an array"
  | Some l =>
    let! o := get_obj l in
    let! (t, off0) := (match h_view o with
                       | None => ret (l, 0)
                       | Some t => let! z := own_int o 0 in ret (t, z)
                       end) in
    let! ot := get_obj t in
    if varlike (h_ty ot) then stuck else
    match h_view ot with Some _ => stuck | None =>
    match shape with
    | [] => throw "View::setStrides(): view must have dim > 0"
    | _ =>
      let! (d, p) := desc_loop shape in
      if negb (in_int (off0 + off)) || negb (in_int (p + (off0 + off))) then ub SignedOverflow else
      if Z.of_nat (h_size ot) <? p + (off0 + off) then throw "View::setStrides(): Array too small for view" else
      let desc := (off0 + off) :: d in
      let! c := new_cells (HE TInt) (List.length desc) in
      attach (MPtr t) ;;
      new_obj (mkobj (HE TInt) (List.length desc) 0
                 (map (fun z => (MNil, MNum (VInt z))) desc ++ skipn (List.length desc) c) (Some t))
    end end
  end.

(** [var::offset], var.cpp 1442-1447. *)
Definition offset_of (this : lval) : M Z :=
  let! h := heap_of this in
  match h with
  | None => ret 0
  | Some l => let! o := get_obj l in
              match h_view o with None => ret 0 | Some _ => own_int o 0 end
  end.
(** [var::offset(int)], var.cpp 1450-1456, with [View::offset], view.cpp 120-126. *)
Definition set_offset (this : lval) (n : Z) : M unit :=
  let! h := heap_of this in
  match h with
  | None => throw "var::offset(): not a view"
  | Some l =>
    let! o := get_obj l in
    match h_view o with
    | None => throw "var::offset(): not a view"
    | Some t =>
      let! ot := get_obj t in
      let! k := obj_size o in
      if negb (in_int (n + k)) then ub SignedOverflow else
      if Z.of_nat (h_size ot) <? n + k then throw "View::offset(): offset too large" else
      match nth_error (h_cells o) 0 with
      | Some (_, MNum (VInt _)) => set_obj l (set_cells o (set_nth (h_cells o) 0 (MNil, MNum (VInt n))))
      | _ => stuck
      end
    end
  end.
(** [var::advance], var.h 193. *)
Definition advance (this : lval) (n : Z) : M unit :=
  let! k := offset_of this in
  if in_int (k + n) then set_offset this (k + n) else ub SignedOverflow.
(** The variable being made is not a reference, as assignment and [array] dereference. *)
Definition own_var (this : lval) (m : M unit) : M unit :=
  let! x := get this in
  match x with MRef _ _ => stuck | _ => m end.
(** [libube::view(shape, type)], var.cpp 1382-1391 and 1398-1407: a new array and a view of it.
    The shape is a list of ints. *)
Fixpoint count_cells (sh : list Z) (p : Z) : M Z :=
  match sh with
  | [] => ret p
  | d :: sh => if in_int (p * d) then count_cells sh (p * d) else ub SignedOverflow
  end.
Definition new_view (sh : list Z) (p : lval) : M mvar :=
  let! n := count_cells sh 1 in
  let! d := defined p in
  let! x := (if d : bool then copy_of p else ret (MNum (VFloat (S754_zero false)))) in
  scoped x (fun v => array v ;; own_var v (resize v n) ;; view v sh 0).

(** * Programs *)

(** Expressions and statements a program can be made of.  [EVar n] is the n-th declared
    variable; every other expression makes a temporary.  [EPush] and so on are the methods
    used as statements or, as they return [*this], as expressions for that variable. *)
Inductive expr :=
| EVar (n : nat)
| ENil
| ENum (x : val)
| EStr (s : str)
| EIdx (e : expr) (i : Z)          (* e\[i\] *)
| EKey (e k : expr)                (* e\[k\] *)
| EAt (e : expr) (i : Z)           (* e.at(i) *)
| ECopy (e : expr)
| EPop (e : expr)
| EShift (e : expr)
| ERemove (e : expr) (i : Z)
| EView (e : expr) (shape : list Z) (off : Z)
| EFind (e k : expr)               (* e.at(k) *)
| EKeyOf (e : expr) (i : Z)        (* e.key(i) *)
| EOp (op : aop) (e f : expr)      (* e + f *)
| ESet (e f : expr)                (* (e = f), which is e *)
| EComma (e f : expr)              (* (e, f): var.h 117, appends and gives a copy *)
| ENew (sh : list Z) (e : expr).   (* view({...}, e) *)
Inductive stmt :=
| SDecl (e : expr)                 (* var x = e; *)
| SAssign (e f : expr)             (* e = f; *)
| SEval (e : expr)                 (* e; *)
| SPush (e f : expr)
| SInsert (e f : expr) (i : Z)
| SAppend (e f : expr)
| SAppendStr (e : expr) (s : str)
| SUnshift (e f : expr)
| SResize (e : expr) (n : Z)
| SPresize (e : expr) (n : Z)
| SArray (e : expr)
| SClear (e : expr)
| SOp (op : aop) (e f : expr)      (* e += f; *)
| SInit (es : list expr)           (* var x = {e, ...}; *)
| SFill (n : Z) (e : expr)         (* var x(n, e); *)
| SEnd                             (* the last variable goes out of scope *)
| SOffset (e : expr) (n : Z)       (* e.offset(n); *)
| SAdvance (e : expr) (n : Z)      (* e.advance(n); *)
| SShape (sh : list Z) (e : expr). (* var x({...}, e); *)

(** A number that a [var] constructor can make. *)
Definition number (x : val) : bool :=
  match x with VChar _ | VInt _ | VLong _ | VFloat _ | VDouble _ => true | _ => false end.

(** A temporary lives to the end of the statement. *)
Definition temp (x : mvar) : M lval := fun s =>
  ROk (LS (List.length (stk s))) {| mem := mem s; rc := rc s; stk := stk s ++ [x] |}.
Fixpoint eval (nv : nat) (e : expr) : M lval :=
  match e with
  | EVar n => if Nat.ltb n nv then ret (LS n) else stuck
  | ENil => temp MNil
  | ENum x => if number x then temp (MNum x) else stuck
  | EStr s => let! x := string_var s in temp x
  | EIdx e i => let! v := eval nv e in let! x := index_int v i in temp x
  | EKey e k => let! v := eval nv e in
                let! p := eval nv k in
                let! y := copy_of p in
                let! x := scoped y (fun q => index_var v q) in temp x
  | EAt e i => let! v := eval nv e in let! x := at_int v i in temp x
  | ECopy e => let! v := eval nv e in let! x := copy v in temp x
  | EPop e => let! v := eval nv e in let! x := pop v in temp x
  | EShift e => let! v := eval nv e in let! x := shift v in temp x
  | ERemove e i => let! v := eval nv e in let! x := remove v i in temp x
  | EView e sh off => let! v := eval nv e in let! x := view v sh off in temp x
  | EFind e k => let! v := eval nv e in
                 let! p := eval nv k in
                 let! y := copy_of p in
                 let! x := scoped y (fun q => at_key v q) in temp x
  | EKeyOf e i => let! v := eval nv e in let! x := key_of v i in temp x
  | EOp op e f => let! v := eval nv e in
                  let! p := eval nv f in
                  let! y := copy_of p in
                  let! x := scoped y (fun q => arith_var op v q) in temp x
  | ESet e f => let! p := eval nv f in
                let! v := eval nv e in
                let! y := copy_of p in
                scoped y (fun q => assign v q) ;; ret v
  | EComma e f => let! v := eval nv e in
                  let! p := eval nv f in
                  let! y := copy_of p in
                  scoped y (fun q => append v q) ;;
                  let! x := copy_of v in temp x
  | ENew sh e => let! p := eval nv e in
                 let! y := copy_of p in
                 let! x := scoped y (fun q => new_view sh q) in temp x
  end.

(** [presize], var.cpp 1227-1234. *)
Definition presize (this : lval) (n : Z) : M unit :=
  let! s := size_of this in
  resize this n ;; resize this s.

(** The effect of a statement before its temporaries go; parameters are copies (of
    temporaries too: elision is not modelled there, the extra count goes with the
    temporary). *)
Definition with_copy (p : lval) (f : lval -> M unit) : M unit :=
  let! x := copy_of p in scoped x f.
Definition body (nv : nat) (t : stmt) : M unit :=
  match t with
  | SDecl _ | SInit _ | SFill _ _ | SShape _ _ | SEnd => ret tt
  | SAssign e f => let! p := eval nv f in let! v := eval nv e in with_copy p (assign v)
  | SEval e => let! _ := eval nv e in ret tt
  | SPush e f => let! v := eval nv e in let! p := eval nv f in with_copy p (push v)
  | SInsert e f i => let! v := eval nv e in let! p := eval nv f in with_copy p (fun q => insert v q i)
  | SAppend e f => let! v := eval nv e in let! p := eval nv f in with_copy p (append v)
  | SAppendStr e s => let! v := eval nv e in append_str v s
  | SUnshift e f => let! v := eval nv e in let! p := eval nv f in with_copy p (unshift v)
  | SResize e n => let! v := eval nv e in resize v n
  | SPresize e n => let! v := eval nv e in presize v n
  | SArray e => let! v := eval nv e in array v
  | SClear e => let! v := eval nv e in clear v
  | SOp op e f => let! p := eval nv f in let! v := eval nv e in with_copy p (arith_to op v)
  | SOffset e n => let! v := eval nv e in set_offset v n
  | SAdvance e n => let! v := eval nv e in advance v n
  end.
(** A statement: the temporaries above the [nv] variables are destroyed at its end, also
    when it throws.  A declaration keeps the value of its initialiser: a variable is
    copied, a temporary becomes the variable. *)
Definition finish (nv : nat) (m : M unit) : M unit := fun s =>
  match m s with
  | ROk _ s' => leave nv s'
  | RThrow e s' => (leave nv ;; throw e) s'
  | RUB k => RUB k
  | RStuck => RStuck
  end.
(** Whether an expression is a var with a name and not a temporary. *)
Definition named (e : expr) : bool := match e with EVar _ | ESet _ _ => true | _ => false end.
Definition keep_value (nv : nat) (m : M mvar) : M unit := fun s =>
  match m s with
  | ROk x s' => (leave nv ;; (let! _ := temp x in ret tt)) s'
  | RThrow m s' => (leave nv ;; throw m) s'
  | RUB k => RUB k
  | RStuck => RStuck
  end.
Definition declare (nv : nat) (e : expr) : M unit :=
  keep_value nv (let! v := eval nv e in if named e then copy_of v else take v).
(** The elements of an initialiser list are made in order before the constructor runs, those
    with a name by copying, and live to the end of the statement. *)
Definition element_of (nv : nat) (e : expr) : M lval :=
  let! p := eval nv e in
  if named e then let! x := copy_of p in temp x else ret p.
Fixpoint elements_of (nv : nat) (es : list expr) : M (list lval) :=
  match es with
  | [] => ret []
  | e :: es => let! p := element_of nv e in let! ps := elements_of nv es in ret (p :: ps)
  end.
(** [var::var(std::initializer_list<var>)], var.cpp 462-466. *)
Fixpoint push_all (this : lval) (ps : list lval) : M unit :=
  match ps with
  | [] => ret tt
  | p :: ps => own_var this (with_copy p (push this)) ;; push_all this ps
  end.
Definition init_list (nv : nat) (es : list expr) : M mvar :=
  let! ps := elements_of nv es in
  let! r := temp MNil in
  push_all r ps ;; take r.
(** [var::var(int, var)], var.cpp 451-459; [p] is the parameter, [n] the number of iterations
    left. *)
Fixpoint fill_from (this p : lval) (n : nat) (i : Z) : M unit :=
  match n with
  | O => ret tt
  | S n => set_at_copy this i p ;; fill_from this p n (i + 1)
  end.
Definition fill_with (this : lval) (n : Z) (p : lval) : M unit :=
  let! t := type_of p in
  if t =? 0 then throw "initialise ctor: cannot init from array" else
  assign_copy this p ;;
  own_var this (resize this n) ;;
  fill_from this p (Z.to_nat (n - 1)) 1.
Definition init_fill (nv : nat) (n : Z) (e : expr) : M mvar :=
  let! p := eval nv e in
  let! r := temp MNil in
  with_copy p (fill_with r n) ;; take r.
(** [var::var(std::initializer_list<int>, var)], var.cpp 469-473. *)
Definition shape_with (this : lval) (sh : list Z) (p : lval) : M unit :=
  let! y := copy_of p in
  let! x := scoped y (fun q => new_view sh q) in
  scoped x (fun q => assign this q) ;;
  let! n := size_of this in
  fill_from this p (Z.to_nat n) 0.
Definition init_shape (nv : nat) (sh : list Z) (e : expr) : M mvar :=
  let! p := eval nv e in
  let! r := temp MNil in
  with_copy p (shape_with r sh) ;; take r.
Definition exec (t : stmt) : M unit := fun s =>
  let nv := List.length (stk s) in
  match t with
  | SDecl e => declare nv e s
  | SInit es => keep_value nv (init_list nv es) s
  | SFill n e => keep_value nv (init_fill nv n e) s
  | SShape sh e => keep_value nv (init_shape nv sh e) s
  | SEnd => leave (nv - 1) s
  | _ => finish nv (body nv t) s
  end.

(** A program: a thrown exception is caught after the statement and the program goes on
    (its variables are kept; a handler around several statements leaves more scopes, which
    are further [SEnd]s). *)
Fixpoint run (l : list stmt) : M unit :=
  match l with
  | [] => ret tt
  | t :: rest => fun s =>
    match exec t s with
    | ROk _ s' | RThrow _ s' => run rest s'
    | RUB k => RUB k
    | RStuck => RStuck
    end
  end.
Definition start : state := {| mem := []; rc := []; stk := [] |}.
