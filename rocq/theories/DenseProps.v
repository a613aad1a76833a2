(** C121: the elements of arrays have the type of the array. *)
From Coq Require Import ZArith Bool List String Lia.
From Verif Require Import Base StrModel ValModel NumModel MemModel MemProof MemFun ArrSpec ArrFacts ArrProps.
From Verif Require MemDense.
Import ListNotations.
Local Open Scope list_scope.
Local Open Scope mem_scope.
Local Notation length := List.length.

(** A var that can be read: something has been put there, and if it is a number, then of one of the
    number types. *)
Definition initialised (x : mvar) : Prop := x <> MJunk /\ forall v, x = MNum v -> ety_of v <> TVar.
(** Storage of an array of type [t], within its size and above: vars and pairs of vars are
    initialised; any other element holds nothing yet, or a number of that very type. *)
Definition sound_cell (t : hty) (c : mvar * mvar) : Prop :=
  match t with
  | HE TVar | HPair => initialised (fst c) /\ initialised (snd c)
  | HE t => snd c = MJunk \/ exists v, snd c = MNum v /\ ety_of v = t
  end.
(** An array of [s'] that was in [s] has the type it had there, and is a view of the array that it was
    a view of. *)
Definition same_arrays (s s' : state) : Prop :=
  forall l o', l < length (mem s) -> nth_error (mem s') l = Some (Some o') ->
    exists o, nth_error (mem s) l = Some (Some o) /\ h_ty o' = h_ty o /\ h_view o' = h_view o.

Lemma okv_initialised : forall x, MemDense.okv x -> initialised x.
Proof. intros x H. split; [intros ->; auto|]. intros v ->. simpl in H. destruct v; simpl; try discriminate. Qed.
Lemma cell_sound : forall t c, MemDense.cell_ok t c -> sound_cell t c.
Proof.
  intros t c H. unfold MemDense.cell_ok in H. destruct (varlike t) eqn:V.
  - destruct H as [A B]. apply okv_initialised in A. apply okv_initialised in B. destruct t as [[]|]; try discriminate; split; auto.
  - destruct H as (_ & [H|(v & H & T)]); destruct t as [[]|]; try discriminate; simpl; auto; right; exists v; split; auto; inversion T; auto.
Qed.

(** In every state that a program can reach, also after exceptions. *)
Theorem C121_elements : forall s l o c, reachable s -> nth_error (mem s) l = Some (Some o) -> In c (h_cells o) -> sound_cell (h_ty o) c.
Proof. intros s l o c R O X. destruct (reachable_dense s R) as [H _]. destruct (H l o O) as [F _]. rewrite Forall_forall in F. apply cell_sound. auto. Qed.
Theorem C121_variables : forall s j x, reachable s -> variable s j x -> initialised x.
Proof. intros s j x R V. destruct (reachable_dense s R) as [_ F]. rewrite Forall_forall in F. apply okv_initialised. apply F. eapply nth_error_In; eauto. Qed.
(** Views are of dense arrays: their own storage holds ints. *)
Theorem C121_descriptor : forall s l o t, reachable s -> nth_error (mem s) l = Some (Some o) -> h_view o = Some t -> h_ty o = HE TInt.
Proof. intros s l o t R O V. destruct (reachable_dense s R) as [H _]. destruct (H l o O) as [_ [X|X]]; congruence. Qed.
(** An array never changes its type, whatever the program does to it. *)
Theorem C121_type_is_kept : forall s p s', reachable s -> run p s = ROk tt s' -> same_arrays s s'.
Proof.
  intros s p s' R E l o' L O. pose proof (MemDense.keeps_run p s (reachable_dense s R)) as K. rewrite E in K. destruct K as [_ [_ K]]. apply K; auto.
Qed.
(** What an element of a dense array reads as has the type of the array. *)
Theorem C121_read : forall s l t xs i x, reachable s -> array_at s l (HE t) xs -> t <> TVar -> nth_error xs i = Some x -> x <> MJunk -> exists v, x = MNum v /\ ety_of v = t.
Proof.
  intros s l t xs i x R (o & O & V & T & Sz & F) N X J.
  assert (Y : nth_error (map snd (h_cells o)) i = Some x).
  { rewrite <- F in X. rewrite <- (firstn_skipn (length xs) (map snd (h_cells o))). rewrite nth_error_app1; auto. apply nth_error_Some. congruence. }
  rewrite nth_error_map in Y. destruct (nth_error (h_cells o) i) as [c|] eqn:C; [|discriminate]. simpl in Y. inversion Y; subst x. apply nth_error_In in C. pose proof (C121_elements s l o c R O C) as H. rewrite T in H.
  destruct t; try contradiction; destruct H as [H|H]; auto; contradiction.
Qed.

(** An example: an array of three ints of which one is set, and then a char and a string. *)
Definition typed_prog : list stmt :=
  [SDecl (ENum (VInt 3)); SResize (EVar 0) 3; SAssign (EIdx (EVar 0) 2) (ENum (VChar 65)); SDecl (EStr [97; 98]%Z); SPush (EVar 0) (EVar 1)].
Definition s_typed : state := Eval vm_compute in after (firstn 4 typed_prog).
Lemma typed_reached : reachable s_typed.
Proof. exists (firstn 4 typed_prog). vm_compute. reflexivity. Qed.
Lemma typed_array : array_at s_typed 0 (HE TInt) [MNum (VInt 3); MJunk; MNum (VInt 65)].
Proof. found. Qed.
Example C121_example : (exists v, MNum (VInt 65) = MNum v /\ ety_of v = TInt) /\
  forall p s', run p s_typed = ROk tt s' -> forall o, nth_error (mem s') 1 = Some (Some o) -> h_ty o = HE TChar.
Proof.
  split.
  - apply (C121_read s_typed 0 TInt _ 2 _ typed_reached typed_array); [discriminate|reflexivity|discriminate].
  - intros p s' E o O. destruct (C121_type_is_kept s_typed p s' typed_reached E 1 o) as (o1 & O1 & T & _); auto.
    vm_compute in O1. inversion O1; subst. exact T.
Qed.
