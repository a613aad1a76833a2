(** Properties of the constructors from a list of elements and from a size and a value: C114, C115. *)
From Coq Require Import ZArith Bool List String Lia.
From Verif Require Import Base StrModel ValModel NumModel AllocModel AllocProof MemModel MemProof MemFun MemEq MemDeref MemTriple MemOps MemArr MemMore MemKey MemElem MemMeth MemList MemRun MemFits ArrSpec MemArrays MemCopy MemThrow MemSelf MemScalar ArrFacts ArrProps ScalarProps MemInit.
Import ListNotations.
Local Open Scope list_scope.
Local Open Scope mem_scope.
Local Notation length := List.length.

(** There is a further variable, with value [x]; the other variables are as they were, and so are
    the arrays there were, as far as still allocated. *)
Definition new_variable (s : state) (x : mvar) (s' : state) : Prop :=
  stk s' = stk s ++ [x] /\ forall k o, k < length (mem s) -> nth_error (mem s') k = Some (Some o) -> nth_error (mem s) k = Some (Some o).
(** That variable is a new array of type [t] with the elements [xs]. *)
Definition new_array (s : state) (t : hty) (xs : list mvar) (s' : state) : Prop :=
  new_variable s (MPtr (length (mem s))) s' /\ array_at s' (length (mem s)) t xs /\ (t = HE TChar -> terminated s' (length (mem s))).
(** An element written in the list, and its value. *)
Definition listed (s : state) (f : expr) (y : mvar) : Prop := exists x, operand s f x /\ denotes s x y.
(** Nothing has changed but that arrays may have been released. *)
Definition unchanged (s s' : state) : Prop :=
  stk s' = stk s /\ length (mem s') = length (mem s) /\ forall k o, nth_error (mem s') k = Some (Some o) -> nth_error (mem s) k = Some (Some o).

Lemma listed_facts : forall s f y, reachable s -> listed s f y -> exists x, operand s f x /\ denotes s x y /\ proper s x y /\ forall v, y = MNum v -> number v = true.
Proof. intros s f y R (x & Op & D). exists x. split; auto. split; auto. split; [apply reachable_proper; auto|]. intros v ->. eapply reachable_number; eauto. Qed.
Lemma adds_variable : forall w ms s s', shrunk (adds w ms s) s' -> new_variable s w s'.
Proof.
  intros w ms s s' (A & B & C). split; auto. intros k o K O. apply obj_live in O. apply C in O. apply obj_live in O. simpl in O. rewrite nth_error_app1 in O; auto.
Qed.
Lemma adds_array : forall e o s s' t xs, INV e [] s' -> shrunk (adds (MPtr (length (mem s))) [Some o] s) s' -> elems o t xs -> new_array s t xs s'.
Proof.
  intros e o s s' t xs I Sh [T V Sz Rm At Nul]. pose proof (adds_variable _ _ _ _ Sh) as Nv.
  assert (O : obj (length (mem s)) s' = Some o).
  { apply (shrunk_obj e [] _ s' (length (stk s)) (MPtr (length (mem s))) (length (mem s)) o Sh I).
    - simpl. rewrite nth_error_app2, Nat.sub_diag by auto. reflexivity.
    - reflexivity.
    - unfold obj; simpl. rewrite nth_error_app2, Nat.sub_diag by auto. reflexivity. }
  split; auto. split; [rewrite <- T; apply list_array; auto|]. intros ->. eapply nul_terminated; [exact O|]. rewrite Sz. apply Nul. reflexivity.
Qed.
Lemma shrunk_unchanged : forall s s', shrunk s s' -> unchanged s s'.
Proof. intros s s' (A & B & C). split; auto. split; auto. intros k o O. apply obj_live in O. apply C in O. apply obj_live. auto. Qed.

(** * C114: a list of elements *)
Theorem C114_empty : forall s, reachable s -> exists s', exec (SInit []) s = ROk tt s' /\ new_variable s MNil s'.
Proof.
  intros s R. destruct (reachable_INV s R) as [e I]. destruct (init_start e s [] [] I (Forall2_nil _)) as (qs & s0 & r & E & I0 & T0 & Lr & Lr' & Nr & F).
  inversion F; subst. destruct (init_end e s [] [] s0 r s0 MNil [] E T0 Lr' Lr eq_refl I0) as (s' & E' & I' & Sh).
  - unfold shrunk, upd, obj; simpl. rewrite app_nil_r, sn_id by auto. auto.
  - exists s'. split; auto. eapply adds_variable; eauto.
Qed.
Theorem C114_one_number : forall s f v, reachable s -> listed s f (MNum v) ->
  exists s', exec (SInit [f]) s = ROk tt s' /\ new_variable s (MNum v) s'.
Proof.
  intros s f v R L. destruct (listed_facts _ _ _ R L) as (x & Op & D & P & Nv'). pose proof (Nv' v eq_refl) as Nv. destruct (reachable_INV s R) as [e I].
  destruct (init_start e s [f] [x] I) as (qs & s0 & r & E & I0 & T0 & Lr & Lr' & Nr & F); [repeat constructor; auto|].
  inversion F as [|q x' qs' xs' [Nq Dq] F' Eq Ex]; subst. inversion F'; subst.
  pose proof (item_start s s0 r q x _ T0 Nq Dq D (proper_exact _ _ _ P)) as It. destruct (push_first e s0 r q x v I0 Nr It Nv) as (s1 & E1 & I1 & Sh1).
  destruct (init_end e s [f] [q] s0 r s1 (MNum v) [] E T0 Lr' Lr) as (s' & E' & I' & Sh'); auto.
  - cbn [push_all map]. rewrite (bind_ok _ _ _ _ _ _ _ E1). reflexivity.
  - exists s'. split; auto. eapply adds_variable; eauto.
Qed.
Lemma listed_operands : forall (P : mvar -> mvar -> Prop) s fs zs, reachable s -> Forall2 (fun f z => exists y, listed s f y /\ P y z) fs zs ->
  exists xs, Forall2 (operand s) fs xs /\ Forall2 (fun x z => exists y, denotes s x y /\ exact_elem s x y /\ P y z) xs zs.
Proof.
  intros P s fs zs R H. induction H as [|f z fs zs (y & L & Py) H (xs & A & B)]; [exists []; auto|]. destruct (listed_facts _ _ _ R L) as (x & Op & D & Pr & _).
  exists (x :: xs). split; constructor; auto. exists y. split; auto. split; auto. apply proper_exact; auto.
Qed.
Lemma items_start : forall s s0 r t xs zs qs, temps s s0 -> Forall2 (fun x z => exists y, denotes s x y /\ exact_elem s x y /\ element_ok s t y z) xs zs ->
  Forall2 (fun q x => nth_error (stk s0) q = Some x /\ q <> r) qs xs -> items s0 r t qs zs.
Proof.
  intros s s0 r t xs zs qs T H. revert qs. induction H as [|x z xs zs (y & D & Ex & St & Sv) H IH]; intros qs F; inversion F as [|q x' qs' xs' [Nq Dq] F']; subst; [constructor|].
  econstructor; [eapply item_start; eauto| |auto]. split; auto. intros Vl. destruct (Sv Vl) as [A B]. split; auto. intros k o E O. rewrite (temps_obj _ _ _ T) in O. eauto.
Qed.
Lemma items_upd : forall e F j w s s1 t qs zs, items s j t qs zs -> shrunk (upd j w [] s) s1 -> INV e F s1 -> items s1 j t qs zs.
Proof.
  intros e F j w s s1 t qs zs H Sh I. induction H as [|q x y z qs zs It [St Sv] H IH]; econstructor; eauto.
  - eapply item_upd; eauto.
  - split; auto. intros Vl. destruct (Sv Vl) as [A B]. split; auto. intros k o E O. apply (B k o); auto.
    apply Sh in O. unfold obj, upd in *; simpl in O. rewrite app_nil_r in O. exact O.
Qed.
(** Two numbers of one type, and then elements converted to that type. *)
Theorem C114_numbers : forall s f g fs v u zs, reachable s -> listed s f (MNum v) -> listed s g (MNum u) -> ety_of u = ety_of v ->
  Forall2 (fun f z => exists y, listed s f y /\ stored (type_of_number v) y z) fs zs -> small (2 + length fs) ->
  exists s', exec (SInit (f :: g :: fs)) s = ROk tt s' /\ new_array s (type_of_number v) (MNum v :: MNum u :: zs) s'.
Proof.
  intros s f g fs v u zs R L L' Te Hs Sm. destruct (listed_facts _ _ _ R L) as (x & Op & D & P & Nv0). pose proof (Nv0 v eq_refl) as Nv. destruct (listed_facts _ _ _ R L') as (x' & Op' & D' & P' & Nu0). pose proof (Nu0 u eq_refl) as Nu. destruct (reachable_INV s R) as [e I].
  assert (Lz : length zs = length fs) by (clear - Hs; induction Hs; simpl; auto).
  assert (Hs' : Forall2 (fun f z => exists y, listed s f y /\ element_ok s (HE (ety_of v)) y z) fs zs).
  { clear - Hs Nv. induction Hs as [|f z fs zs (y & L & St) Hs IH]; constructor; auto. exists y. split; auto. split; auto. intros Vl. destruct v; discriminate. }
  destruct (listed_operands _ _ _ _ R Hs') as (xs & Ops & Dxs).
  destruct (init_start e s (f :: g :: fs) (x :: x' :: xs) I) as (qs & s0 & r & E & I0 & T0 & Lr & Lr' & Nr & F); [constructor; auto|].
  inversion F as [|q ? qs1 ? [Nq Dq] F1]; subst. inversion F1 as [|q' ? qs2 ? [Nq' Dq'] F2]; subst.
  pose proof (item_start s s0 r q x _ T0 Nq Dq D (proper_exact _ _ _ P)) as It. pose proof (item_start s s0 r q' x' _ T0 Nq' Dq' D' (proper_exact _ _ _ P')) as It'.
  pose proof (items_start s s0 r _ xs zs qs2 T0 Dxs F2) as Its.
  destruct (push_first e s0 r q x v I0 Nr It Nv) as (s1 & E1 & I1 & Sh1).
  assert (N1 : nth_error (stk s1) r = Some (MNum v)) by (eapply upd_this; eauto; lia).
  assert (Lm1 : length (mem s1) = length (mem s)) by (destruct T0 as [M0 _]; destruct Sh1 as (_ & B & _); simpl in B; rewrite app_nil_r in B; congruence).
  destruct (push_second e s1 r q' x' v u I1 N1 Nv (item_upd _ _ _ _ _ _ _ _ _ _ It' Sh1 I1) Nu Te) as (s2 & o & E2 & I2 & Sh2 & El2 & Ok2). rewrite Lm1 in Sh2.
  destruct (push_rest e s1 r (length (mem s)) (HE (ety_of v))) with (qs := qs2) (zs := zs) (s1 := s2) (o := o) (xs := [MNum v; MNum u]) as (s3 & o' & E3 & I3 & Sh3 & El3 & Ok3); auto.
  - eapply ne_lt; eauto.
  - eapply items_upd; eauto.
  - unfold small in Sm. cbn [length]. rewrite Lz. exact Sm.
  - destruct (init_end e s (f :: g :: fs) (q :: q' :: qs2) s0 r s3 (MPtr (length (mem s))) [Some o'] E T0 Lr' Lr) as (s' & E' & I' & Sh'); auto.
    + cbn [push_all map]. rewrite (bind_ok _ _ _ _ _ _ _ E1), (bind_ok _ _ _ _ _ _ _ E2). exact E3.
    + eapply upd_upd; eauto.
    + exists s'. split; auto. eapply adds_array; eauto.
Qed.
(** An array, or nothing, and then anything: an array of vars. *)
Theorem C114_first_array : forall s f fs y ys, reachable s -> listed s f y -> (y = MNil \/ exists k, y = MPtr k) -> assignable s y ->
  Forall2 (fun f y => listed s f y /\ assignable s y) fs ys -> small (1 + length fs) ->
  exists s', exec (SInit (f :: fs)) s = ROk tt s' /\ new_array s (HE TVar) (y :: ys) s'.
Proof.
  intros s f fs y ys R L Ya As Hs Sm. destruct (listed_facts _ _ _ R L) as (x & Op & D & P & _). destruct (reachable_INV s R) as [e I].
  assert (Lz : length ys = length fs) by (clear - Hs; induction Hs; simpl; auto).
  assert (Hs' : Forall2 (fun f z => exists y, listed s f y /\ element_ok s (HE TVar) y z) fs ys).
  { clear - Hs. induction Hs as [|f z fs zs (L & A) Hs IH]; constructor; auto. exists z. split; auto. split; [reflexivity|]. intros _. apply assignable_ok; auto. }
  destruct (listed_operands _ _ _ _ R Hs') as (xs & Ops & Dxs).
  destruct (init_start e s (f :: fs) (x :: xs) I) as (qs & s0 & r & E & I0 & T0 & Lr & Lr' & Nr & F); [constructor; auto|].
  inversion F as [|q ? qs2 ? [Nq Dq] F2]; subst.
  pose proof (item_start s s0 r q x _ T0 Nq Dq D (proper_exact _ _ _ P)) as It. pose proof (items_start s s0 r _ xs ys qs2 T0 Dxs F2) as Its.
  destruct (push_first_array e s0 r q x y I0 Nr It) as (s2 & o & E2 & I2 & Sh2 & El2 & Ok2).
  - destruct Ya as [->|[k ->]]; reflexivity.
  - apply assignable_ok in As as [A B]. split; auto. intros k o K O. rewrite (temps_obj _ _ _ T0) in O. eauto.
  - assert (Lm : length (mem s0) = length (mem s)) by (destruct T0 as [-> _]; auto). rewrite Lm in Sh2.
    destruct (push_rest e s0 r (length (mem s)) (HE TVar)) with (qs := qs2) (zs := ys) (s1 := s2) (o := o) (xs := [y]) as (s3 & o' & E3 & I3 & Sh3 & El3 & Ok3); auto.
    + lia.
    + unfold small in Sm. cbn [length]. rewrite Lz. exact Sm.
    + destruct (init_end e s (f :: fs) (q :: qs2) s0 r s3 (MPtr (length (mem s))) [Some o'] E T0 Lr' Lr) as (s' & E' & I' & Sh'); auto.
      * cbn [push_all map]. rewrite (bind_ok _ _ _ _ _ _ _ E2). exact E3.
      * exists s'. split; auto. eapply adds_array; eauto.
Qed.
(** A number, and then something of another type: an exception, whatever follows. *)
Theorem C114_mixed_throws : forall s f g fs v y xs, reachable s -> listed s f (MNum v) -> listed s g y -> (forall u, y = MNum u -> ety_of u <> ety_of v) ->
  Forall2 (operand s) fs xs ->
  exists s', exec (SInit (f :: g :: fs)) s = RThrow "push(): Incompatible types" s' /\ unchanged s s'.
Proof.
  intros s f g fs v y xs R L L' Ne Ops. destruct (listed_facts _ _ _ R L) as (x & Op & D & P & Nv0). pose proof (Nv0 v eq_refl) as Nv. destruct (listed_facts _ _ _ R L') as (x' & Op' & D' & P' & _). destruct (reachable_INV s R) as [e I].
  destruct (init_start e s (f :: g :: fs) (x :: x' :: xs) I) as (qs & s0 & r & E & I0 & T0 & Lr & Lr' & Nr & F); [constructor; auto|].
  inversion F as [|q ? qs1 ? [Nq Dq] F1]; subst. inversion F1 as [|q' ? qs2 ? [Nq' Dq'] F2]; subst.
  pose proof (item_start s s0 r q x _ T0 Nq Dq D (proper_exact _ _ _ P)) as It. pose proof (item_start s s0 r q' x' _ T0 Nq' Dq' D' (proper_exact _ _ _ P')) as It'.
  destruct (push_first e s0 r q x v I0 Nr It Nv) as (s1 & E1 & I1 & Sh1).
  assert (N1 : nth_error (stk s1) r = Some (MNum v)) by (eapply upd_this; eauto; lia).
  assert (Et : type_code y <> vtype v).
  { destruct y as [|u| | | |]; simpl; try (destruct v; simpl in *; discriminate).
    specialize (Ne u eq_refl). destruct u, v; simpl in *; try discriminate; congruence. }
  pose proof (push_other e s1 r q' x' v y I1 N1 Nv (item_upd _ _ _ _ _ _ _ _ _ _ It' Sh1 I1) Et) as E2.
  destruct (keep_throws e s (init_list (length (stk s)) (f :: g :: fs)) s1 s0 r (MNum v) "push(): Incompatible types") as (s' & E' & I' & Sh'); auto.
  - rewrite E. unfold bind at 1. cbn [push_all map]. rewrite (bind_ok _ _ _ _ _ _ _ E1). unfold bind at 1. rewrite E2. reflexivity.
  - exists s'. split; auto. apply shrunk_unchanged; auto.
Qed.

(** * C115: a size and a value *)
Theorem C115_filled : forall s f v n, reachable s -> listed s f (MNum v) -> 2 <= n -> small n ->
  exists s', exec (SFill (Z.of_nat n) f) s = ROk tt s' /\ new_array s (type_of_number v) (repeat (MNum v) n) s'.
Proof.
  intros s f v n R L Ln Sm. destruct (listed_facts _ _ _ R L) as (x & Op & D & P & Nv0). pose proof (Nv0 v eq_refl) as Nv. destruct (reachable_INV s R) as [e I].
  destruct (fill_many e s f x v n I Op D (proper_exact _ _ _ P) Nv Ln Sm) as (s' & o & E & I' & Sh & El). exists s'. split; auto. eapply adds_array; eauto.
Qed.
Theorem C115_small_size : forall s f v n, reachable s -> listed s f (MNum v) -> n < 2 ->
  exists s', exec (SFill (Z.of_nat n) f) s = ROk tt s' /\ new_variable s (MNum v) s'.
Proof.
  intros s f v n R L Ln. destruct (listed_facts _ _ _ R L) as (x & Op & D & P & Nv0). pose proof (Nv0 v eq_refl) as Nv. destruct (reachable_INV s R) as [e I].
  destruct (fill_few e s f x v n I Op D (proper_exact _ _ _ P) Nv Ln) as (s' & E & I' & Sh). exists s'. split; auto. eapply adds_variable; eauto.
Qed.
Theorem C115_array_throws : forall s f y n, reachable s -> listed s f y -> (y = MNil \/ exists k, y = MPtr k) ->
  exists s', exec (SFill n f) s = RThrow "initialise ctor: cannot init from array" s' /\ unchanged s s'.
Proof.
  intros s f y n R L Ya. destruct (listed_facts _ _ _ R L) as (x & Op & D & P & _). destruct (reachable_INV s R) as [e I].
  destruct (fill_throws e s f x y n I Op D (proper_exact _ _ _ P)) as (s' & E & I' & Sh); [destruct Ya as [->|[k ->]]; reflexivity|].
  exists s'. split; auto. apply shrunk_unchanged; auto.
Qed.

(** * Examples: an array of two ints, and an undefined variable *)
Definition inits : list stmt := [SInit [ENum (VInt 5); ENum (VInt 6)]; SDecl ENil].
Definition s_in : state := Eval vm_compute in after inits.
Lemma in_reached : reachable s_in.
Proof. exists inits. vm_compute. reflexivity. Qed.
Lemma in_number : forall v, number v = true -> listed s_in (ENum v) (MNum v).
Proof. intros v N. exists (MNum v). split; [apply op_num; auto|]. reflexivity. Qed.
Lemma in_array : array_at s_in 0 (HE TInt) [MNum (VInt 5); MNum (VInt 6)].
Proof. found. Qed.
Lemma in_variable : listed s_in (EVar 0) (MPtr 0).
Proof. exists (MPtr 0). split; [apply op_var; reflexivity|]. reflexivity. Qed.
Lemma in_undefined : listed s_in (EVar 1) MNil.
Proof. exists MNil. split; [apply op_var; reflexivity|]. reflexivity. Qed.
Lemma in_element : listed s_in (EIdx (EVar 0) 1) (MNum (VInt 6)).
Proof.
  exists (MRef 0 1). split; [apply (op_idx s_in 0 0 (HE TInt) [MNum (VInt 5); MNum (VInt 6)] 1); [reflexivity|apply in_array|simpl; lia]|].
  simpl. do 2 eexists. split; [reflexivity|]. split; [reflexivity|]. split; [simpl; lia|]. split; [reflexivity|]. split; intros; discriminate.
Qed.
Lemma in_assignable : assignable s_in (MPtr 0).
Proof. split; [intros; discriminate|]. intros k o X O. inversion X; subst. vm_compute in O. inversion O; reflexivity. Qed.
Example C114_example :
  (exists s', exec (SInit []) s_in = ROk tt s' /\ new_variable s_in MNil s') /\
  (exists s', exec (SInit [EIdx (EVar 0) 1]) s_in = ROk tt s' /\ new_variable s_in (MNum (VInt 6)) s') /\
  (exists s', exec (SInit [ENum (VInt 1); EIdx (EVar 0) 1; ENum (VChar 65)]) s_in = ROk tt s' /\ new_array s_in (HE TInt) [MNum (VInt 1); MNum (VInt 6); MNum (VInt 65)] s') /\
  (exists s', exec (SInit [EVar 0; ENum (VInt 1); EVar 0]) s_in = ROk tt s' /\ new_array s_in (HE TVar) [MPtr 0; MNum (VInt 1); MPtr 0] s') /\
  (exists s', exec (SInit [EVar 1; EVar 0]) s_in = ROk tt s' /\ new_array s_in (HE TVar) [MNil; MPtr 0] s').
Proof.
  split; [exact (C114_empty s_in in_reached)|].
  split; [exact (C114_one_number s_in _ _ in_reached in_element)|].
  split; [|split].
  - apply (C114_numbers s_in (ENum (VInt 1)) (EIdx (EVar 0) 1) [ENum (VChar 65)] (VInt 1) (VInt 6) [MNum (VInt 65)] in_reached); auto using in_number, in_element.
    + constructor; [|constructor]. exists (MNum (VChar 65)). split; [apply in_number; reflexivity|]. simpl. exists (VChar 65), (VInt 65). auto.
    + reflexivity.
  - apply (C114_first_array s_in (EVar 0) [ENum (VInt 1); EVar 0] (MPtr 0) [MNum (VInt 1); MPtr 0] in_reached in_variable); eauto using in_assignable.
    + constructor; [split; [apply in_number; reflexivity|split; intros; discriminate]|]. constructor; [split; [apply in_variable|apply in_assignable]|constructor].
    + reflexivity.
  - apply (C114_first_array s_in (EVar 1) [EVar 0] MNil [MPtr 0] in_reached in_undefined); auto.
    + split; intros; discriminate.
    + constructor; [split; [apply in_variable|apply in_assignable]|constructor].
    + reflexivity.
Qed.
(** The example of the README, [var a = {1.3f, 1.2, 45};], whatever the values: a float, a
    double and an int. *)
Example C114_readme_example : forall a b,
  exists s', exec (SInit [ENum (VFloat a); ENum (VDouble b); ENum (VInt 45)]) s_in = RThrow "push(): Incompatible types" s' /\ unchanged s_in s'.
Proof.
  intros a b. apply (C114_mixed_throws s_in _ _ [ENum (VInt 45)] (VFloat a) (MNum (VDouble b)) [MNum (VInt 45)] in_reached); auto using in_number.
  - intros u X. inversion X; subst. discriminate.
  - repeat constructor.
Qed.
Example C115_example :
  (exists s', exec (SFill 3 (ENum (VChar 65))) s_in = ROk tt s' /\ new_array s_in (HE TChar) [MNum (VChar 65); MNum (VChar 65); MNum (VChar 65)] s') /\
  (exists s', exec (SFill 1 (ENum (VInt 5))) s_in = ROk tt s' /\ new_variable s_in (MNum (VInt 5)) s') /\
  (exists s', exec (SFill 3 (EVar 0)) s_in = RThrow "initialise ctor: cannot init from array" s' /\ unchanged s_in s').
Proof.
  split; [apply (C115_filled s_in _ (VChar 65) 3 in_reached); auto using in_number; reflexivity|].
  split; [apply (C115_small_size s_in _ (VInt 5) 1 in_reached); auto using in_number|].
  apply (C115_array_throws s_in _ (MPtr 0) 3 in_reached in_variable). eauto.
Qed.
