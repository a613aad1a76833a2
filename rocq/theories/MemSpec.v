(** What the memory properties are about, said in terms of the state alone: the slots of the
    variables ([stk]), the arrays ([mem]) and their counts ([rc]). *)
From Coq Require Import ZArith Bool List String Lia.
From Verif Require Import Base StrModel ValModel MemModel.
Import ListNotations.
Local Open Scope list_scope.
Local Notation length := List.length.

(** * Holders *)
(** [x] is a handle on array [l]: a pointer to it or a reference to one of its elements. *)
Definition refers (x : mvar) (l : nat) : Prop := x = MPtr l \/ exists k, x = MRef l k.
Definition hit (l : nat) (x : mvar) : nat :=
  match x with
  | MPtr k | MRef k _ => if Nat.eqb k l then 1 else 0
  | _ => 0
  end.
(** Handles inside an array: keys and values of all its cells (also those above the size,
    which keep what they held) and, for a view, the array viewed. *)
Definition hits_in (l : nat) (o : option hobj) : nat :=
  match o with
  | None => 0
  | Some o => list_sum (map (fun c => hit l (fst c) + hit l (snd c)) (h_cells o)) +
              match h_view o with Some t => if Nat.eqb t l then 1 else 0 | None => 0 end
  end.
(** All handles on [l]. *)
Definition holders (l : nat) (s : state) : nat :=
  list_sum (map (hit l) (stk s)) + list_sum (map (hits_in l) (mem s)).
Definition allocated (l : nat) (s : state) : Prop := exists o, nth_error (mem s) l = Some (Some o).
Definition count (l : nat) (s : state) (n : nat) : Prop := nth_error (rc s) l = Some n.

(** Array [k] holds a handle on [l]. *)
Definition inside (s : state) (k l : nat) : Prop :=
  exists o, nth_error (mem s) k = Some (Some o) /\
  (h_view o = Some l \/ exists c, In c (h_cells o) /\ (refers (fst c) l \/ refers (snd c) l)).
(** Nothing contains itself, directly or not: handles lead from higher to lower ranks. *)
Definition acyclic (s : state) : Prop := exists rank : nat -> nat, forall k l, inside s k l -> rank l < rank k.

(** * Programs that lose references *)
(** The message of the exception thrown when a reference is dereferenced into an array that
    the same assignment has just overwritten. *)
Definition lost_message : string := "var::dereference(): Unknown type".
Definition is_unshift (t : stmt) : bool := match t with SUnshift _ _ => true | _ => false end.
Fixpoint lossless (l : list stmt) (s : state) : Prop :=
  match l with
  | [] => True
  | t :: rest => is_unshift t = false /\
      match exec t s with
      | ROk _ s' => lossless rest s'
      | RThrow m s' => m <> lost_message /\ lossless rest s'
      | _ => True
      end
  end.

(** * Receivers *)
(** Array [l] is an array of vars or a map. *)
Definition of_vars (s : state) (l : nat) : Prop :=
  exists o, nth_error (mem s) l = Some (Some o) /\ h_view o = None /\ (h_ty o = HE TVar \/ h_ty o = HPair).
(** [x] is (the value at) index [k] of array [l]. *)
Definition element (s : state) (l k : nat) (x : mvar) : Prop :=
  exists o a, nth_error (mem s) l = Some (Some o) /\ nth_error (h_cells o) k = Some (a, x).
(** Variable [j] is a reference to element [k] of the array of vars [l]. *)
Definition element_ref (s : state) (j l k : nat) : Prop :=
  nth_error (stk s) j = Some (MRef l k) /\ of_vars s l.
(** Some variable other than [j] holds [l], directly or through arrays that are not
    avoided. *)
Inductive kept_by_others (s : state) (j : nat) (avoid : nat -> Prop) : nat -> Prop :=
| kept_var : forall i v l, i <> j -> nth_error (stk s) i = Some v -> refers v l -> kept_by_others s j avoid l
| kept_in : forall k l, kept_by_others s j avoid k -> ~ avoid k -> inside s k l -> kept_by_others s j avoid l.
(** The element is not its own container. *)
Definition not_itself (s : state) (j : nat) : Prop :=
  forall l k x, element_ref s j l k -> element s l k x -> ~ refers x l.
(** The container is held by another variable, and not only through itself or the element. *)
Definition container_kept (s : state) (j : nat) : Prop :=
  forall l k, element_ref s j l k ->
    (forall x, element s l k x -> ~ refers x l) /\
    kept_by_others s j (fun n => n = l \/ exists x, element s l k x /\ (refers x n \/ exists t o, refers x t /\ nth_error (mem s) t = Some (Some o) /\ h_view o = Some n)) l.
(** The element is nothing or an array. *)
Definition not_scalar (s : state) (j : nat) : Prop :=
  forall l k x, element_ref s j l k -> element s l k x -> x = MNil \/ exists t, x = MPtr t.

(** The conditions at every method call of a program, each in the state in which the call is
    made. *)
Fixpoint guarded_expr (nv : nat) (e : expr) (s : state) : Prop :=
  match e with
  | EVar _ | ENil | ENum _ | EStr _ => True
  | EIdx e _ | ENew _ e => guarded_expr nv e s /\ (forall j s1, eval nv e s = ROk (LS j) s1 -> not_itself s1 j)
  | EKey e k =>
    guarded_expr nv e s /\
    (forall j s1, eval nv e s = ROk (LS j) s1 ->
       guarded_expr nv k s1 /\ (forall q s2, eval nv k s1 = ROk q s2 -> container_kept s2 j /\ not_scalar s2 j))
  | EPop e | ERemove e _ => guarded_expr nv e s /\ (forall j s1, eval nv e s = ROk (LS j) s1 -> container_kept s1 j)
  | EAt e _ | ECopy e | EShift e | EView e _ _ | EKeyOf e _ => guarded_expr nv e s
  | EFind e f | EOp _ e f =>
    guarded_expr nv e s /\ (forall v s1, eval nv e s = ROk v s1 -> guarded_expr nv f s1)
  | ESet e f => guarded_expr nv f s /\ (forall q s1, eval nv f s = ROk q s1 -> guarded_expr nv e s1)
  | EComma e f =>
    guarded_expr nv e s /\
    (forall j s1, eval nv e s = ROk (LS j) s1 ->
       guarded_expr nv f s1 /\ (forall q s2, eval nv f s1 = ROk q s2 -> container_kept s2 j))
  end.
Fixpoint guarded_list (nv : nat) (es : list expr) (s : state) : Prop :=
  match es with
  | [] => True
  | e :: es => guarded_expr nv e s /\ (forall p s1, element_of nv e s = ROk p s1 -> guarded_list nv es s1)
  end.
Definition guarded_stmt (t : stmt) (s : state) : Prop :=
  let nv := length (stk s) in
  let two e f (g : state -> nat -> Prop) :=
    guarded_expr nv e s /\
    (forall j s1, eval nv e s = ROk (LS j) s1 ->
       guarded_expr nv f s1 /\ (forall q s2, eval nv f s1 = ROk q s2 -> g s2 j)) in
  match t with
  | SDecl e | SEval e | SClear e | SFill _ e | SOffset e _ | SAdvance e _ => guarded_expr nv e s
  | SShape _ e => guarded_expr nv e s /\ (forall j s1, eval nv e s = ROk (LS j) s1 -> not_itself s1 j)
  | SInit es => guarded_list nv es s
  | SEnd => True
  | SAssign e f | SOp _ e f => guarded_expr nv f s /\ (forall q s1, eval nv f s = ROk q s1 -> guarded_expr nv e s1)
  | SPush e f => two e f not_itself
  | SInsert e f _ | SAppend e f | SUnshift e f => two e f container_kept
  | SAppendStr e _ | SResize e _ | SPresize e _ | SArray e =>
    guarded_expr nv e s /\ (forall j s1, eval nv e s = ROk (LS j) s1 -> container_kept s1 j)
  end.
Fixpoint guarded_run (l : list stmt) (s : state) : Prop :=
  match l with
  | [] => True
  | t :: rest => guarded_stmt t s /\
      match exec t s with
      | ROk _ s' | RThrow _ s' => guarded_run rest s'
      | _ => True
      end
  end.
