(** What the properties of maps in memory say about states: the value of a key, the entries of a
    map, and the entries after a subscript or an assignment. *)
From Coq Require Import ZArith Bool List String Sorting.
From Verif Require Import Base ValModel NumModel MemModel ValSpec ArrSpec.
Import ListNotations.
Local Open Scope list_scope.
Local Notation length := List.length.

(** The var [y] has the value [k], which is usable as a key: it is a number, or a string. *)
Definition reads_key (s : state) (y : mvar) (k : val) : Prop :=
  key k /\
  ((number k = true /\ y = MNum k) \/
   exists l cs, y = MPtr l /\ k = VArr TChar (map VChar cs) /\ array_at s l (HE TChar) (map (fun c => MNum (VChar c)) cs)).
(** The entries of map [l]: the values of the keys, and the vars bound to them. *)
Definition entries (s : state) (l : nat) (kvs : list (val * mvar)) : Prop :=
  exists ms, map_at s l ms /\ Forall2 (fun m kv => reads_key s (fst m) (fst kv) /\ snd m = snd kv) ms kvs.
(** The keys strictly increase. *)
Definition ordered (kvs : list (val * mvar)) : Prop := StronglySorted less (map fst kvs).
(** No key and no value in a cell of [l], also above its size, is a reference or a view. *)
Definition refillable (s : state) (l : nat) : Prop :=
  forall o c, nth_error (mem s) l = Some (Some o) -> In c (h_cells o) -> assignable s (fst c) /\ assignable s (snd c).
(** Key expressions: an operand that is a key and not an element of the map itself, or a string
    constant. *)
Inductive key_expr (s : state) (l : nat) : expr -> val -> Prop :=
| ke_operand : forall e x y k, operand s e x -> denotes s x y -> reads_key s y k -> (forall i, x <> MRef l i) -> key_expr s l e k
| ke_string : forall cs, key (VArr TChar (map VChar cs)) -> small (S (length cs)) -> key_expr s l (EStr cs) (VArr TChar (map VChar cs)).
(** [kvs'] is [kvs] with the key [k] looked up, and added with an undefined value if it is not
    there, at position [i]. *)
Inductive looked_up (k : val) (kvs : list (val * mvar)) : nat -> list (val * mvar) -> Prop :=
| lu_there : forall a k' v b, kvs = a ++ (k', v) :: b -> equal k' k -> looked_up k kvs (length a) kvs
| lu_added : forall a b, kvs = a ++ b -> Forall (fun e => less (fst e) k) a -> Forall (fun e => less k (fst e)) b ->
    looked_up k kvs (length a) (a ++ (k, MNil) :: b).
(** Values assigned: an operand that is not an element of the map itself, or a string constant,
    with what is said of the var stored. *)
Inductive value_expr (s : state) (l : nat) : expr -> (state -> mvar -> Prop) -> Prop :=
| ve_operand : forall e x y, operand s e x -> denotes s x y -> (forall i, x <> MRef l i) -> value_expr s l e (fun _ z => z = y)
| ve_string : forall cs, small (length cs) ->
    value_expr s l (EStr cs) (fun s' z => exists m, z = MPtr m /\ array_at s' m (HE TChar) (map (fun c => MNum (VChar c)) cs)).
(** [kvs'] is [kvs] with the key [k] bound to [z]: the value of the entry with that key is
    replaced, or an entry is added where it belongs. *)
Inductive bound_to (k : val) (z : mvar) (kvs : list (val * mvar)) : list (val * mvar) -> Prop :=
| bt_there : forall a k' v b, kvs = a ++ (k', v) :: b -> equal k' k -> bound_to k z kvs (a ++ (k', z) :: b)
| bt_added : forall a b, kvs = a ++ b -> Forall (fun e => less (fst e) k) a -> Forall (fun e => less k (fst e)) b ->
    bound_to k z kvs (a ++ (k, z) :: b).
(** In a map the key [k] has the value [v]. *)
Definition value_of (kvs : list (val * mvar)) (k : val) (v : mvar) : Prop := exists k', In (k', v) kvs /\ equal k' k.
(** [l] is a map that a variable holds, with the entries [kvs] in order, and can be changed. *)
Definition holds_map (s : state) (j l : nat) (kvs : list (val * mvar)) : Prop :=
  variable s j (MPtr l) /\ entries s l kvs /\ ordered kvs /\ refillable s l.
(** The arrays that [s'] still has allocated and that were there in [s], but for [l], are as they were. *)
Definition unchanged_but (l : nat) (s s' : state) : Prop :=
  forall k o, k <> l -> k < length (mem s) -> nth_error (mem s') k = Some (Some o) -> nth_error (mem s) k = Some (Some o).
(** What is assigned is not a view: a string constant, or an operand that stands for a var that is
    not a view. *)
Definition no_view (s : state) (e : expr) : Prop :=
  (exists cs, e = EStr cs) \/ forall x y, operand s e x -> denotes s x y -> assignable s y.
