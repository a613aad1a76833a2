(** Values of vars, their comparison, and the sorted-array operations built on it:
    /repo/lube/var.cpp and /repo/lube/heap.cpp.

    A value is the tree read from a var after following references and handles.  Sharing,
    reference counts and freed storage are the subject of the memory model (MemModel.v);
    here arrays are finite trees.  Complex numbers are left out. *)
From Coq Require Import ZArith Bool List String.
From Coq.Floats Require Import SpecFloat.
From Verif Require Import Base StrModel.
Import ListNotations.
Local Open Scope string_scope.
Local Open Scope list_scope.
Local Open Scope Z_scope.

(** Element types of an array, /repo/lube/var.h (TYPE_CHAR .. TYPE_VAR); TYPE_PAIR arrays
    are [VMap]. *)
Inductive ety := TChar | TInt | TLong | TFloat | TDouble | TVar.
Definition ety_eqb (a b : ety) : bool :=
  match a, b with
  | TChar, TChar | TInt, TInt | TLong, TLong | TFloat, TFloat | TDouble, TDouble | TVar, TVar => true
  | _, _ => false
  end.

(** [VView desc ty data]: a View object (/repo/lube/heap.h 183-240) with its own int
    array [desc] = offset, shape 0, stride 0, shape 1, ... over the array [ty], [data]. *)
Inductive val :=
| VNil
| VChar (z : Z)
| VInt (z : Z)
| VLong (z : Z)
| VFloat (f : spec_float)
| VDouble (f : spec_float)
| VArr (t : ety) (l : list val)
| VMap (l : list (val * val))
| VView (desc : list Z) (t : ety) (data : list val).

(** /repo/lube/var.cpp 622-627, the numbering of /repo/lube/var.h. *)
Definition vtype (v : val) : Z :=
  match v with
  | VChar _ => 1 | VInt _ => 2 | VLong _ => 3 | VFloat _ => 4 | VDouble _ => 5
  | _ => 0
  end.

(** /repo/lube/var.cpp 600-605. *)
Definition vdefined (v : val) : bool := match v with VNil => false | _ => true end.

(** The elements [Heap::at] delivers (/repo/lube/heap.cpp 394-435): View does not
    override it, so it reads the view's own int array. *)
Definition own_elems (v : val) : list val :=
  match v with
  | VArr _ l => l
  | VMap l => map snd l
  | VView d _ _ => map VInt d
  | _ => []
  end.

(** [IHeap::size] (/repo/lube/heap.h 116, 221). *)
Definition hsize (v : val) : Z :=
  match v with
  | VArr _ l => Z.of_nat (List.length l)
  | VMap l => Z.of_nat (List.length l)
  | VView d _ _ => nth 2 d 0 * nth 1 d 0
  | _ => 0
  end.

(** /repo/lube/var.cpp 608-615. *)
Definition vsize (v : val) : Z := if vtype v =? 0 then hsize v else 1.

(** [mType == TYPE_CHAR] of the object itself and [type() == TYPE_CHAR] through the
    interface (/repo/lube/heap.h 115, 222). *)
Definition own_char (v : val) : bool := match v with VArr TChar _ => true | _ => false end.
Definition iface_char (v : val) : bool :=
  match v with VArr TChar _ => true | VView _ TChar _ => true | _ => false end.

Definition char_of (v : val) : Z := match v with VChar c => c | _ => 0 end.
(** [ptrchar()]: the C string at the start of a char array, or at a view's offset. *)
Definition cstring (v : val) : str :=
  match v with
  | VArr _ l => c_str (map char_of l)
  | VView d _ l => c_str (skipn (Z.to_nat (nth 0 d 0)) (map char_of l))
  | _ => []
  end.

(** strcmp(a,b) < 0: the first differing chars are compared as unsigned char. *)
Definition uchar (c : Z) : Z := c mod 256.
Fixpoint strcmp_lt (a b : str) : bool :=
  match a, b with
  | _, [] => false
  | [], _ :: _ => true
  | x :: a', y :: b' => if x =? y then strcmp_lt a' b' else uchar x <? uchar y
  end.

(** Scalars of equal type: the arms of /repo/lube/var.cpp 519-529 and 555-563. *)
Definition scalar_neq (a b : val) : bool :=
  match a, b with
  | VChar x, VChar y | VInt x, VInt y | VLong x, VLong y => negb (x =? y)
  | VFloat x, VFloat y | VDouble x, VDouble y => negb (SFeqb x y)
  | _, _ => true
  end.
Definition scalar_lt (a b : val) : bool :=
  match a, b with
  | VChar x, VChar y | VInt x, VInt y | VLong x, VLong y => x <? y
  | VFloat x, VFloat y | VDouble x, VDouble y => SFltb x y
  | _, _ => false
  end.

Definition range_error : string := "Heap::at(): index out of bounds".

(** [var::operator !=] /repo/lube/var.cpp 508-538 and [Heap::neq] /repo/lube/heap.cpp
    448-454.  [heap()] of nil is a null pointer; calling neq on it is undefined, and so
    is calling at() on a null argument. *)
Fixpoint vneq (a b : val) {struct a} : outcome bool :=
  if negb (vtype a =? vtype b) then Ok true else
  if negb (vsize a =? vsize b) then Ok true else
  let elems_neq :=
    (fix go (l : list val) (m : list val) {struct l} : outcome bool :=
       match l with
       | [] => Ok false
       | x :: l' =>
         if negb (vdefined b) then UB NullDeref else
         match m with
         | [] => Throw range_error
         | y :: m' => let* r := vneq x y in if r : bool then Ok true else go l' m'
         end
       end) in
  let map_neq :=
    (fix go (l : list (val * val)) (m : list val) {struct l} : outcome bool :=
       match l with
       | [] => Ok false
       | (_, x) :: l' =>
         if negb (vdefined b) then UB NullDeref else
         match m with
         | [] => Throw range_error
         | y :: m' => let* r := vneq x y in if r : bool then Ok true else go l' m'
         end
       end) in
  let desc_neq :=
    (fix go (l : list Z) (m : list val) {struct l} : outcome bool :=
       match l with
       | [] => Ok false
       | x :: l' =>
         if negb (vdefined b) then UB NullDeref else
         match m with
         | [] => Throw range_error
         | y :: m' => if scalar_neq (VInt x) y then Ok true else go l' m'
         end
       end) in
  match a with
  | VNil => UB NullDeref
  | VArr _ l => elems_neq l (own_elems b)
  | VMap l => map_neq l (own_elems b)
  | VView d _ _ => desc_neq d (own_elems b)
  | _ => Ok (scalar_neq a b)
  end.

(** /repo/lube/var.h 101. *)
Definition veq (a b : val) : outcome bool := let* r := vneq a b in Ok (negb r).

(** [var::operator <] /repo/lube/var.cpp 546-575 and [Heap::lt] /repo/lube/heap.cpp
    457-465.  [n] is the loop bound min(size(), other size()). *)
Fixpoint vlt (a b : val) {struct a} : outcome bool :=
  if negb (vtype a =? vtype b) then Ok (vtype a <? vtype b) else
  let n := Z.to_nat (Z.min (hsize a) (hsize b)) in
  let elems_lt :=
    (fix go (l : list val) (m : list val) (n : nat) {struct l} : outcome bool :=
       match n, l with
       | O, _ => Ok false
       | S _, [] => Throw range_error
       | S n', x :: l' =>
         match m with
         | [] => Throw range_error
         | y :: m' => let* r := vlt x y in if r : bool then Ok true else go l' m' n'
         end
       end) in
  let map_lt :=
    (fix go (l : list (val * val)) (m : list val) (n : nat) {struct l} : outcome bool :=
       match n, l with
       | O, _ => Ok false
       | S _, [] => Throw range_error
       | S n', (_, x) :: l' =>
         match m with
         | [] => Throw range_error
         | y :: m' => let* r := vlt x y in if r : bool then Ok true else go l' m' n'
         end
       end) in
  let desc_lt :=
    (fix go (l : list Z) (m : list val) (n : nat) {struct l} : outcome bool :=
       match n, l with
       | O, _ => Ok false
       | S _, [] => Throw range_error
       | S n', x :: l' =>
         match m with
         | [] => Throw range_error
         | y :: m' =>
           if (if vtype y =? 2 then scalar_lt (VInt x) y else 2 <? vtype y) then Ok true else go l' m' n'
         end
       end) in
  match a with
  | VNil => UB NullDeref
  | VArr _ _ | VMap _ | VView _ _ _ =>
    if negb (vdefined b) then UB NullDeref else
    if own_char a && iface_char b then Ok (strcmp_lt (cstring a) (cstring b)) else
    match a with
    | VArr _ l => elems_lt l (own_elems b) n
    | VMap l => map_lt l (own_elems b) n
    | VView d _ _ => desc_lt d (own_elems b) n
    | _ => Ok false
    end
  | _ => Ok (scalar_lt a b)
  end.

(** [var::binary] /repo/lube/var.cpp 1329-1348 on the elements (or keys) [l]; [less x] is
    the test [x < iData]. *)
Fixpoint binary_loop (fuel : nat) (less : val -> outcome bool) (l : list val) (lo hi : Z) : outcome Z :=
  match fuel with
  | O => Fuel
  | S f =>
    if lo =? hi then Ok hi else
    let pos := (hi - lo) / 2 + lo in
    match (if pos <? 0 then None else nth_error l (Z.to_nat pos)) with
    | None => UB OutOfBounds
    | Some x => let* r := less x in
                if r : bool then binary_loop f less l (pos + 1) hi
                else binary_loop f less l lo pos
    end
  end.
Definition binary (l : list val) (iData : val) : outcome Z :=
  if Z.of_nat (List.length l) =? 0 then Ok 0
  else binary_loop (S (List.length l)) (fun x => vlt x iData) l 0 (Z.of_nat (List.length l)).

(** The shifting loop of [var::insert] /repo/lube/var.cpp 1113-1114 (arrays of vars) and
    1121-1125 (maps): after [resize(size()+1)] exposed one cell of unknown content [junk],
    cells are copied up one by one from the end.  Element assignment is a plain store
    (views as elements are excluded, see DESIGN.md). *)
Fixpoint shift1 {A} (a : list A) (i : nat) (d : A) (n : nat) : list A :=
  match n with
  | O => a
  | S m => shift1 (set_nth a i (nth (i - 1) a d)) (i - 1) d m
  end.
Definition open_gap {A} (junk : A) (l : list A) (iIndex : nat) : list A :=
  let l' := l ++ [junk] in
  shift1 l' (List.length l' - 1) junk (List.length l' - 1 - iIndex).

Definition too_large : string := "insert(): index too large".

(** [var::insert] on an array of vars, /repo/lube/var.cpp 1106-1116. *)
Definition insert_var (junk : val) (l : list val) (x : val) (iIndex : Z) : outcome (list val) :=
  if Z.of_nat (List.length l) <? iIndex then Throw too_large else
  if iIndex <? 0 then UB OutOfBounds else
  Ok (set_nth (open_gap junk l (Z.to_nat iIndex)) (Z.to_nat iIndex) x).

(** [var::insert] on a map, /repo/lube/var.cpp 1106-1107 and 1117-1128: inserts a key
    with a nil value. *)
Definition insert_pair (junk : val * val) (l : list (val * val)) (k : val) (iIndex : Z)
  : outcome (list (val * val)) :=
  if Z.of_nat (List.length l) <? iIndex then Throw too_large else
  if iIndex <? 0 then UB OutOfBounds else
  Ok (set_nth (open_gap junk l (Z.to_nat iIndex)) (Z.to_nat iIndex) (k, VNil)).

(** [var::operator \[\](var)] /repo/lube/var.cpp 735-753 on a map (or nil, which becomes
    an empty map): the new content and the position referred to; [None] is the nil
    returned for a nil key.  Receivers that are other arrays or scalars are not modelled. *)
Definition map_index (junk : val * val) (l : list (val * val)) (k : val)
  : outcome (list (val * val) * option nat) :=
  if negb (vdefined k) then Ok (l, None) else
  let* index := binary (map fst l) k in
  let* l' := (if Z.of_nat (List.length l) <=? index then insert_pair junk l k index
              else match nth_error l (Z.to_nat index) with
                   | None => UB OutOfBounds
                   | Some (kk, _) => let* ne := vneq kk k in
                                     if ne : bool then insert_pair junk l k index else Ok l
                   end) in
  Ok (l', Some (Z.to_nat index)).

(** [m\[k\] = v]: [map_index], then [var::operator =] through the reference
    (/repo/lube/var.cpp 315-317).  Assigning through the nil returned for a nil key
    changes nothing in the map. *)
Definition map_put (junk : val * val) (l : list (val * val)) (k v : val) : outcome (list (val * val)) :=
  let* (l', p) := map_index junk l k in
  match p with
  | None => Ok l'
  | Some i => match nth_error l' i with
              | None => UB OutOfBounds
              | Some (kk, _) => Ok (set_nth l' i (kk, v))
              end
  end.

(** The same on a var: nil becomes a map (/repo/lube/var.cpp 738-742). *)
Definition assign (junk : val * val) (m k v : val) : outcome val :=
  match m with
  | VNil => let* l := map_put junk [] k v in Ok (VMap l)
  | VMap l => let* l := map_put junk l k v in Ok (VMap l)
  | _ => Throw "not modelled"
  end.
(** A program [m\[k1\] = v1; m\[k2\] = v2; ...]. *)
Fixpoint assigns (junk : val * val) (m : val) (ops : list (val * val)) : outcome val :=
  match ops with
  | [] => Ok m
  | (k, v) :: t => let* m' := assign junk m k v in assigns junk m' t
  end.

(** The receiver of [at(var)]: a variable holding a map, or a reference to position [i]
    of a map (what [m\[k\]] returns). *)
Inductive receiver :=
| RVar (v : val)
| RRef (outer : list (val * val)) (i : nat).
Definition recv_val (r : receiver) : val :=
  match r with
  | RVar v => v
  | RRef m i => snd (nth i m (VNil, VNil))
  end.

(** [var::reference(int)] /repo/lube/var.cpp 1254-1261 applied to the receiver, and then
    read: for a variable this is position [index] of its array; for a reference the copy
    [v( *this)] still points at the outer array, whose position [index] is denoted. *)
Definition reference_read (r : receiver) (index : nat) : outcome val :=
  match r with
  | RVar (VMap l) => match nth_error l index with Some (_, v) => Ok v | None => UB OutOfBounds end
  | RVar _ => UB OutOfBounds
  | RRef outer _ => match nth_error outer index with Some (_, v) => Ok v | None => UB OutOfBounds end
  end.

(** [var::at(var)] /repo/lube/var.cpp 829-841.  (A scalar receiver is searched as a
    one-element array, and key() is then called on a null heap.) *)
Definition at_var (r : receiver) (k : val) : outcome val :=
  match recv_val r with
  | VNil => Throw "var::at(): uninitialised"
  | VMap l =>
    let* index := binary (map fst l) k in
    if Z.of_nat (List.length l) <=? index then Ok VNil else
    match nth_error l (Z.to_nat index) with
    | None => UB OutOfBounds
    | Some (kk, _) => let* ne := vneq kk k in
                      if ne : bool then Ok VNil else reference_read r (Z.to_nat index)
    end
  | VArr _ _ | VView _ _ _ => Throw "operator [var]: Not a map"
  | x => let* b := vlt x k in if b : bool then Ok VNil else UB NullDeref
  end.

(** The elements visited by [at(i)] for [0 <= i < size()]: /repo/lube/var.cpp 808-819.
    A scalar is its own element 0.  Views deliver the viewed cells. *)
Definition elems (v : val) : list val :=
  match v with
  | VNil => []
  | VArr _ l => l
  | VMap l => map snd l
  | VView d _ l => firstn (Z.to_nat (hsize v)) (skipn (Z.to_nat (nth 0 d 0)) l)
  | x => [x]
  end.

(** [var::sort] /repo/lube/var.cpp 1181-1191: the result is an array of vars. *)
Fixpoint sort_loop (l : list val) (r : list val) : outcome (list val) :=
  match l with
  | [] => Ok r
  | x :: t => let* p := binary r x in
              let* r' := insert_var VNil r x p in
              sort_loop t r'
  end.
Definition sort (v : val) : outcome val :=
  let* r := sort_loop (elems v) [] in Ok (VArr TVar r).

(** [var::index] /repo/lube/var.cpp 1194-1214. *)
Fixpoint index_loop (l : list val) (i : Z) (x : val) : outcome Z :=
  match l with
  | [] => Ok (-1)
  | y :: t => let* e := veq y x in if e : bool then Ok i else index_loop t (i + 1) x
  end.
Definition index (v x : val) : outcome Z :=
  match v with
  | VNil => Ok (-1)
  | VMap l =>
    let* i := binary (map fst l) x in
    if i <? Z.of_nat (List.length l) then
      match nth_error l (Z.to_nat i) with
      | None => UB OutOfBounds
      | Some (k, _) => let* e := veq k x in if e : bool then Ok i else Ok (-1)
      end
    else Ok (-1)
  | _ => index_loop (elems v) 0 x
  end.
