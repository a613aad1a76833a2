(** Properties of the memory model: C05, C06, C07. *)
From Coq Require Import ZArith Bool List String Lia.
From Verif Require Import Base StrModel ValModel MemModel MemProof MemFun MemTriple MemRun MemSpec MemSafe.
Import ListNotations.
Local Open Scope list_scope.
Local Notation length := List.length.

(** Programs of the examples. *)
Definition a_ := EVar 0.
Definition b_ := EVar 1.
Definition c_ := EVar 2.
Definition one_ := ENum (VInt 1).
Definition str_ (c : Z) := EStr [c].

(** * C05 *)
(** After any program, also one with statements that threw, every array on which there is a
    handle is allocated and its count is at least the number of handles. *)
Theorem C05_held_arrays_are_allocated : forall prog u s, run prog start = ROk u s ->
  forall l, 0 < holders l s -> allocated l s /\ exists n, count l s n /\ holders l s <= n.
Proof.
  intros prog u s R l H. pose proof (run_settled True prog (fun _ => 0) start start_INV (ok_run_any _ _)) as P.
  rewrite R in P. destruct P as ((e & I & _) & _). destruct (INV_spec e s I l) as [A B]. destruct (A H) as [o O].
  split; [exists o; auto|]. destruct (B o O) as (n & C & E & _). exists n. split; auto. lia.
Qed.
(** The same after a statement left by an exception, before anything else is run. *)
Theorem C05_also_after_exceptions : forall prog t u s m s', run prog start = ROk u s -> exec t s = RThrow m s' ->
  forall l, 0 < holders l s' -> allocated l s' /\ exists n, count l s' n /\ holders l s' <= n.
Proof.
  intros prog t u s m s' R E. apply (C05_held_arrays_are_allocated (prog ++ [t]) tt s').
  assert (Step : forall p s0 u0 s1, run p s0 = ROk u0 s1 -> run (p ++ [t]) s0 = run [t] s1).
  { clear. induction p as [|x p IH]; intros s0 u0 s1 H; simpl in *; [inversion H; subst; auto|].
    destruct (exec x s0); try discriminate; eapply IH; eauto. }
  rewrite (Step _ _ _ _ R). simpl. rewrite E. reflexivity.
Qed.
(** No array is freed twice: a count that exists is not zero. *)
Theorem C05_allocated_arrays_are_counted : forall prog u s, run prog start = ROk u s ->
  forall l, allocated l s -> exists n, count l s n /\ 0 < n.
Proof.
  intros prog u s R l [o O]. pose proof (run_settled True prog (fun _ => 0) start start_INV (ok_run_any _ _)) as P.
  rewrite R in P. destruct P as ((e & I & _) & _). destruct (proj2 (INV_spec e s I l) o O) as (n & C & _ & N). eauto.
Qed.
(** An array of two strings and itself, held also by a reference and through a view. *)
Definition C05_prog : list stmt :=
  [SDecl ENil; SPush a_ (str_ 97); SPush a_ (str_ 98); SPush a_ a_; SDecl (EIdx a_ 1);
   SDecl (ENum (VInt 3)); SArray c_; SDecl (EView c_ [1%Z] 0); SClear a_].
Example C05_example : exists s, run C05_prog start = ROk tt s /\ holders 0 s = 1 /\ holders 1 s = 2 /\ count 1 s 2.
Proof. eexists. split; [vm_compute; reflexivity|]. vm_compute. auto. Qed.

(** * C06 *)
(** Without [unshift], and as long as no assignment threw from dereferencing what it had
    overwritten, counts are the numbers of handles, so an array without handle is released. *)
Theorem C06_counts_are_exact : forall prog u s, run prog start = ROk u s -> lossless prog start ->
  forall l, allocated l s -> count l s (holders l s) /\ 0 < holders l s.
Proof.
  intros prog u s R C l [o O].
  pose proof (run_exact True prog (fun _ => 0) start s u start_INV (ok_run_any _ _) (lossless_careful _ _ C) R) as I.
  destruct (proj2 (INV_spec _ s I l) o O) as (n & A & E & N). replace (holders l s) with n by lia. auto.
Qed.
(** With all variables gone, nothing is left unless something contains itself. *)
Theorem C06_all_released : forall prog u s, run prog start = ROk u s -> lossless prog start ->
  stk s = [] -> acyclic s -> forall l, ~ allocated l s.
Proof.
  intros prog u s R C. apply released. eapply (run_exact True); eauto using start_INV, ok_run_any, lossless_careful.
Qed.
Definition C06_prog : list stmt :=
  [SDecl ENil; SPush a_ (str_ 97); SPush a_ (str_ 98); SDecl (EIdx a_ 1); SEval (EKey (EIdx a_ 4) (str_ 107));
   SAppend a_ b_; SResize b_ 40; SInsert a_ one_ 1; SEval (EShift a_); SEval (ERemove a_ 0); SPush one_ a_; SEnd; SEnd].
Example C06_example : exists s, run C06_prog start = ROk tt s /\ lossless C06_prog start /\ stk s = [] /\ acyclic s /\ 3 < length (mem s).
Proof.
  eexists. split; [vm_compute; reflexivity|]. split; [vm_compute; repeat split; discriminate|]. split; [reflexivity|].
  split; [|vm_compute; lia]. exists (fun _ => 0). intros k l (o & O & _). exfalso. revert O. clear.
  do 30 (destruct k as [|k]; [vm_compute; discriminate|]). vm_compute. destruct k; discriminate.
Qed.
(** An array of vars that was shrunk and then unshifted loses a reference for good. *)
Definition C06_leak : list stmt :=
  [SDecl ENil; SPush a_ (str_ 97); SPush a_ (str_ 98); SResize a_ 1; SUnshift a_ (str_ 99); SEnd].
Theorem C06_unshift_leaks : exists s l, run C06_leak start = ROk tt s /\ stk s = [] /\ acyclic s /\ holders l s = 0 /\ allocated l s.
Proof.
  eexists. exists 2. split; [vm_compute; reflexivity|]. split; [reflexivity|]. split; [|split; [reflexivity|eexists; reflexivity]].
  exists (fun _ => 0). intros k l (o & O & H). exfalso. revert O H. clear. intros O.
  destruct k as [|[|[|[|[|k]]]]]; vm_compute in O; try discriminate O.
  inversion O; subst; clear O. unfold refers. simpl. intros [H|(c & C & [[H|[k H]]|[H|[k H]]])]; try discriminate;
    repeat (destruct C as [<-|C]; [discriminate|]); destruct C.
Qed.
(** So does assigning an element of an array of vars to itself: it throws, destroys the
    element and keeps the array for ever. *)
Definition C06_self : list stmt := [SDecl ENil; SPush a_ (str_ 97); SAssign (EIdx a_ 0) (EIdx a_ 0)].
Theorem C06_self_assignment_leaks : exists s s' l,
  run [SDecl ENil; SPush a_ (str_ 97)] start = ROk tt s /\
  exec (SAssign (EIdx a_ 0) (EIdx a_ 0)) s = RThrow lost_message s' /\
  count l s' (S (holders l s')) /\
  (exists s2, exec SEnd s' = ROk tt s2 /\ stk s2 = [] /\ allocated l s2 /\ holders l s2 = 0).
Proof.
  eexists. eexists. exists 1. split; [vm_compute; reflexivity|]. split; [vm_compute; reflexivity|].
  split; [vm_compute; reflexivity|]. eexists. split; [vm_compute; reflexivity|]. split; [reflexivity|]. split; [eexists; reflexivity|reflexivity].
Qed.
(** A cycle is never released. *)
Theorem C06_cycle_leaks : exists s, run [SDecl ENil; SPush a_ (str_ 97); SPush a_ a_; SEnd] start = ROk tt s /\ stk s = [] /\ allocated 1 s.
Proof. eexists. split; [vm_compute; reflexivity|]. split; [reflexivity|eexists; reflexivity]. Qed.

(** * C07 *)
(** No memory is used after it was freed if, whenever a method is called on a reference to
    an element of an array of vars or of a map, the container is held by another variable
    and, for a keyed subscript, the element is not a scalar; for [[]] with a number and
    [push], if the element is not the container itself. *)
Theorem C07_no_use_after_free : forall prog, guarded_run prog start -> run prog start <> RUB UseAfterFree.
Proof.
  intros prog G E. pose proof (run_settled False prog (fun _ => 0) start start_INV (guarded_ok_run _ _ G)) as P.
  rewrite E in P. destruct P as [P|[]]. congruence.
Qed.
(** Without: the only holder of the container is the reference. *)
Theorem C07_sole_owner_refuted : exists prog, run prog start = RUB UseAfterFree /\
  prog = [SDecl ENil; SPush a_ (str_ 97); SDecl (EIdx a_ 0); SClear a_; SResize b_ 20].
Proof. eexists. split; [|reflexivity]. vm_compute. reflexivity. Qed.
Theorem C07_sole_owner_array_refuted :
  run [SDecl ENil; SPush a_ (str_ 97); SDecl (EIdx a_ 0); SClear a_; SArray b_] start = RUB UseAfterFree.
Proof. vm_compute. reflexivity. Qed.
Theorem C07_sole_owner_key_refuted :
  run [SDecl ENil; SEval (EKey (EKey a_ (str_ 97)) (str_ 98)); SDecl (EKey a_ (str_ 97)); SClear a_; SEval (EKey b_ (str_ 99))] start = RUB UseAfterFree.
Proof. vm_compute. reflexivity. Qed.
(** Without: growing an array through an element that is the array itself. *)
Theorem C07_own_element_refuted :
  run [SDecl ENil; SPush a_ (str_ 97); SPush a_ a_; SEval (EIdx (EIdx a_ 1) 20)] start = RUB UseAfterFree.
Proof. vm_compute. reflexivity. Qed.
(** A program whose receivers are references: elements that are grown, subscripted with a
    key, appended to and popped while the array is held by a variable. *)
Definition C07_prog : list stmt :=
  [SDecl ENil; SPush a_ (str_ 97); SPush a_ (str_ 98); SDecl (EIdx a_ 1); SResize b_ 20;
   SEval (EKey (EIdx a_ 2) (str_ 107)); SAppendStr (EIdx a_ 0) [99%Z; 100%Z]; SEval (EPop (EIdx a_ 1)); SEval (EPop a_)].
Lemma guarded_cons : forall t rest s u s', guarded_stmt t s -> exec t s = ROk u s' -> guarded_run rest s' -> guarded_run (t :: rest) s.
Proof. intros t rest s u s' G E H. simpl. rewrite E. auto. Qed.
Ltac kept :=
  let l := fresh in let k := fresh in let G := fresh in let V := fresh in
  intros l k [G V]; vm_compute in G; first [discriminate G|inversion G; subst;
  split; [let x := fresh in let o := fresh in let a := fresh in let O := fresh in let N := fresh in let H := fresh in
          intros x (o & a & O & N); vm_compute in O; inversion O; subst; vm_compute in N; inversion N; subst;
          intros [H|[? H]]; discriminate H
         |apply kept_var with (i := 0) (v := MPtr 1); [lia|reflexivity|left; reflexivity]]].
Ltac itself :=
  let l := fresh in let k := fresh in let x := fresh in let G := fresh in let V := fresh in
  intros l k x [G V]; vm_compute in G; discriminate G.
Example C07_example : guarded_run C07_prog start /\ exists s, run C07_prog start = ROk tt s.
Proof.
  split; [|eexists; vm_compute; reflexivity]. unfold C07_prog.
  eapply guarded_cons; [exact Logic.I|vm_compute; reflexivity|].
  eapply guarded_cons; [split; [exact Logic.I|intros j s1 E; split; [exact Logic.I|intros q s2 E2]]|vm_compute; reflexivity|].
  { vm_compute in E. inversion E; subst. vm_compute in E2. inversion E2; subst. itself. }
  eapply guarded_cons; [split; [exact Logic.I|intros j s1 E; split; [exact Logic.I|intros q s2 E2]]|vm_compute; reflexivity|].
  { vm_compute in E. inversion E; subst. vm_compute in E2. inversion E2; subst. itself. }
  eapply guarded_cons; [split; [exact Logic.I|intros j s1 E]|vm_compute; reflexivity|].
  { vm_compute in E. inversion E; subst. itself. }
  eapply guarded_cons; [split; [exact Logic.I|intros j s1 E]|vm_compute; reflexivity|].
  { vm_compute in E. inversion E; subst. kept. }
  eapply guarded_cons; [split; [split; [exact Logic.I|intros j s1 E]|intros j s1 E; split; [exact Logic.I|intros q s2 E2]]|vm_compute; reflexivity|].
  { vm_compute in E. inversion E; subst. itself. }
  { vm_compute in E. inversion E; subst. vm_compute in E2. inversion E2; subst. split; [kept|].
    intros l k x [G V] (o & a & O & N). vm_compute in G. inversion G; subst. vm_compute in O. inversion O; subst. vm_compute in N. inversion N; subst. auto. }
  eapply guarded_cons; [split; [split; [exact Logic.I|intros j s1 E]|intros j s1 E]|vm_compute; reflexivity|].
  { vm_compute in E. inversion E; subst. itself. }
  { vm_compute in E. inversion E; subst. kept. }
  eapply guarded_cons; [split; [split; [exact Logic.I|intros j s1 E]|intros j s1 E]|vm_compute; reflexivity|].
  { vm_compute in E. inversion E; subst. itself. }
  { vm_compute in E. inversion E; subst. kept. }
  eapply guarded_cons; [split; [exact Logic.I|intros j s1 E]|vm_compute; reflexivity|exact Logic.I].
  vm_compute in E. inversion E; subst. kept.
Qed.
Print Assumptions C05_held_arrays_are_allocated.
Print Assumptions C05_also_after_exceptions.
Print Assumptions C05_allocated_arrays_are_counted.
Print Assumptions C06_counts_are_exact.
Print Assumptions C06_all_released.
Print Assumptions C06_unshift_leaks.
Print Assumptions C07_no_use_after_free.
Print Assumptions C07_sole_owner_refuted.
