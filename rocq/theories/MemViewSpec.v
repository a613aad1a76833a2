(** What the properties of views in memory say about states: the shape of a view, where its
    elements are, and what is in the storage afterwards. *)
From Coq Require Import ZArith Bool List String.
From Verif Require Import Base ValModel NumModel MemModel ArrSpec.
Import ListNotations.
Local Open Scope list_scope.
Local Notation length := List.length.

(** The number of elements of a shape. *)
Fixpoint elements (sh : list Z) : Z := match sh with [] => 1 | d :: sh => d * elements sh end.
(** A row-major view lists each dimension with the number of elements one step in it skips. *)
Fixpoint described (sh : list Z) : list Z := match sh with [] => [] | d :: sh => d :: elements sh :: described sh end.
(** [l] is a view of array [t] from element [off] with shape [sh]. *)
Definition view_at (s : state) (l t : nat) (off : nat) (sh : list Z) : Prop :=
  sh <> [] /\
  exists o, nth_error (mem s) l = Some (Some o) /\ h_view o = Some t /\ h_size o = S (2 * length sh) /\
  forall i z, nth_error (Z.of_nat off :: described sh) i = Some z -> exists c, nth_error (h_cells o) i = Some (c, MNum (VInt z)).
(** [l] is a view like that, or it is the array [t] itself, which has one dimension. *)
Definition shaped (s : state) (l t : nat) (off : nat) (sh : list Z) : Prop :=
  view_at s l t off sh \/
  (l = t /\ off = 0 /\ exists o, nth_error (mem s) l = Some (Some o) /\ h_view o = None /\ sh = [Z.of_nat (h_size o)]).
(** Array [t], not a view, has elements of type [ty], and [cs] is all its storage. *)
Definition storage (s : state) (t : nat) (ty : ety) (cs : list mvar) : Prop :=
  exists o, nth_error (mem s) t = Some (Some o) /\ h_view o = None /\ h_ty o = HE ty /\ map snd (h_cells o) = cs.
(** Only the storage of [t] is different. *)
Definition only_storage (t : nat) (s s' : state) : Prop :=
  stk s' = stk s /\ rc s' = rc s /\ length (mem s') = length (mem s) /\
  (forall k, k <> t -> nth_error (mem s') k = nth_error (mem s) k) /\
  (forall o, nth_error (mem s) t = Some (Some o) -> exists o', nth_error (mem s') t = Some (Some o') /\
     h_ty o' = h_ty o /\ h_size o' = h_size o /\ h_gen o' = h_gen o /\ h_view o' = h_view o /\ map fst (h_cells o') = map fst (h_cells o)).
(** A state in which variable [j] is a view of [t] and variable [k] an array of the same shape and
    type of element, with [n] elements. *)
Definition matching (s : state) (j k t off t' off' : nat) (sh : list Z) (ty : ety) (cs cs' : list mvar) : Prop :=
  exists l l', variable s j (MPtr l) /\ variable s k (MPtr l') /\ view_at s l t off sh /\ shaped s l' t' off' sh /\
  storage s t ty cs /\ storage s t' ty cs' /\ in_int (elements sh) = true /\ (length sh <> 1 \/ elements sh <> 1%Z).
(** A value that is not an array or view with shape [sh] and elements of type [ty]. *)
Definition unlike (s : state) (sh : list Z) (ty : ety) (x : mvar) : Prop :=
  x = MNil \/ (exists v, x = MNum v) \/
  exists l' t' off' sh' ty' cs', x = MPtr l' /\ shaped s l' t' off' sh' /\ storage s t' ty' cs' /\ in_int (elements sh') = true /\ (sh' <> sh \/ ty' <> ty).
(** Objects may have gone; the others are what they were. *)
Definition only_fewer (s s' : state) : Prop := forall l o, nth_error (mem s') l = Some (Some o) -> nth_error (mem s) l = Some (Some o).
