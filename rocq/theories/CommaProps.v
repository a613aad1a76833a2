(** Properties of comma initialisation: C116. *)
From Coq Require Import ZArith Bool List String Lia.
From Verif Require Import Base StrModel ValModel NumModel AllocModel AllocProof MemModel MemProof MemFun MemEq MemDeref MemTriple MemOps MemArr MemMore MemKey MemElem MemMeth MemList MemRun MemFits ArrSpec MemArrays MemCopy MemThrow MemSelf MemScalar ArrFacts ArrProps ScalarProps MemInit InitProps MemComma.
Import ListNotations.
Local Open Scope list_scope.
Local Open Scope mem_scope.
Local Notation length := List.length.

(** The expression [f] is the number [u]: a constant, or a variable other than [a]. *)
Definition number_in (s : state) (a : nat) (f : expr) (u : val) : Prop :=
  number u = true /\ (f = ENum u \/ exists k, k <> a /\ f = EVar k /\ variable s k (MNum u)).
(** The elements after the first, [gs], are the numbers that array of type [t] keeps as [zs]. *)
Definition converted (s : state) (a : nat) (t : hty) (gs : list expr) (zs : list mvar) : Prop :=
  Forall2 (fun g z => exists u, number_in s a g u /\ stored t (MNum u) z) gs zs.
(** The statement [a = f, g1, g2, ...;] *)
Definition commas (a : nat) (f : expr) (gs : list expr) : stmt := SEval (fold_left EComma gs (ESet (EVar a) f)).

(** * C116: [a = f, g1, g2, ...;] makes an array of the type of the first number *)
Theorem C116_comma : forall s a old f x v g gs z zs, reachable s -> variable s a old -> assignable s old ->
  operand s f x -> denotes s x (MNum v) -> number v = true -> converted s a (type_of_number v) (g :: gs) (z :: zs) -> small (2 + length zs) ->
  exists s', exec (commas a f (g :: gs)) s = ROk tt s' /\ made_array s a (type_of_number v) (MNum v :: z :: zs) s'.
Proof.
  intros s a old f x v g gs z zs R Va As Op D Nv H Sm. destruct (reachable_INV s R) as [e I]. destruct (assignable_ok _ _ As) as [A1 A2].
  destruct (comma_gives e s a old f x v g gs z zs I Va A1 A2 Op D Nv H Sm) as (s' & o & E & I' & St & O & El & Old). exists s'. split; [exact E|].
  assert (La : a < length (stk s)) by (eapply ne_lt; eauto).
  split; [rewrite St; symmetry; apply replaced_sn; auto|]. split; [|split].
  - replace (type_of_number v) with (h_ty o) by apply El. apply list_array; auto; apply El.
  - intros C. eapply nul_terminated; [exact O|]. rewrite (el_size _ _ _ El). apply (el_nul _ _ _ El). unfold type_of_number in C. rewrite C. reflexivity.
  - intros k ob K Ok. apply obj_live. apply Old; auto; [lia|]. apply obj_live. exact Ok.
Qed.
(** On its own, [(a, g);] adds to the array of [a], whoever shares it; there is no refusal of another
    type as in [push]. *)
Theorem C116_adds : forall s a l t xs g u z, reachable s -> variable s a (MPtr l) -> array_at s l t xs -> t <> HE TVar -> t <> HPair -> (t = HE TChar -> terminated s l) ->
  number_in s a g u -> stored t (MNum u) z -> small (S (length xs)) ->
  exists s', exec (SEval (EComma (EVar a) g)) s = ROk tt s' /\ array_at s' l t (xs ++ [z]) /\ (t = HE TChar -> terminated s' l) /\ stk s' = stk s /\
    forall k o, k < length (mem s) -> k <> l -> nth_error (mem s') k = Some (Some o) -> nth_error (mem s) k = Some (Some o).
Proof.
  intros s a l t xs g u z R Va Ar T1 T2 Ht (Nu & Hg) St Sm. destruct (reachable_INV s R) as [e I]. assert (La : a < length (stk s)) by (eapply ne_lt; eauto).
  destruct (array_obj s l t xs Ar) as (o & O & V & T & Sz & Rm & At).
  assert (Rw : row s a l t xs).
  { right. split; auto. exists o. split; auto. split; [|destruct t as [[]|]; try reflexivity; congruence]. constructor; auto.
    intros C. destruct Ht as (o2 & k & O2 & Nn); [destruct t as [[]|]; try discriminate; reflexivity|]. apply obj_live in O2. assert (o2 = o) by congruence. subst o2.
    unfold val_at. rewrite <- Sz, Nn. reflexivity. }
  destruct (comma_step e s (length (stk s)) a l t xs g u z I Rw) as (s2 & ws & r & o2 & E2 & I2 & St2 & N2 & L2 & O2 & El2 & Old2); auto.
  - destruct Hg as [->|(k & D & -> & Vk)]; [auto|right]. exists k. split; [eapply ne_lt; eauto|auto].
  - rewrite sn_id in St2 by auto.
    destruct (leave_gives e [] s2 ws {| mem := mem s2; rc := rc s2; stk := stk s |} I2) as (s3 & E3 & I3 & Sh3); [unfold shrunk, ext; simpl; auto|].
    assert (O3 : obj l s3 = Some o2) by (eapply (shrunk_obj e [] _ s3 a (MPtr l) l o2 Sh3 I3); auto).
    exists s3. split; [|split; [|split; [|split]]].
    + assert (Ev : eval (length (stk s)) (EComma (EVar a) g) s = ROk (LS r) s2) by (cbn [eval]; destruct (Nat.ltb_spec a (length (stk s))); [exact E2|lia]).
      unfold exec, finish, body. rewrite (bind_ok _ _ _ _ _ _ _ Ev). exact E3.
    + replace t with (h_ty o2) by apply El2. apply list_array; auto; apply El2.
    + intros C. eapply nul_terminated; [exact O3|]. rewrite (el_size _ _ _ El2). apply (el_nul _ _ _ El2). rewrite C. reflexivity.
    + apply Sh3.
    + intros k ob K D Ok. apply obj_live. apply Old2; auto. apply (proj2 (proj2 Sh3)). apply obj_live. exact Ok.
Qed.

Definition comma_vars : list stmt := [SDecl (ENum (VInt 7)); SInit [ENum (VChar 65); ENum (VChar 66)]; SDecl (EVar 1)].
Definition s_co : state := Eval vm_compute in after comma_vars.
Lemma co_reached : reachable s_co.
Proof. exists comma_vars. vm_compute. reflexivity. Qed.
(** [a = 'A', 66, 7l, k;] is the string "AB" with the bytes 7 and 7 after it, and is terminated;
    [(a, 323);] adds the byte 67 to the string [a] that another variable shares. *)
Example C116_example :
  (exists s', exec (commas 2 (ENum (VChar 65)) [ENum (VInt 66); ENum (VLong 7); EVar 0]) s_co = ROk tt s' /\
     made_array s_co 2 (HE TChar) [MNum (VChar 65); MNum (VChar 66); MNum (VChar 7); MNum (VChar 7)] s') /\
  (exists s', exec (SEval (EComma (EVar 1) (ENum (VInt 323)))) s_co = ROk tt s' /\
     array_at s' 0 (HE TChar) [MNum (VChar 65); MNum (VChar 66); MNum (VChar 67)] /\ stk s' = stk s_co).
Proof.
  split.
  - apply (C116_comma s_co 2 (MPtr 0) (ENum (VChar 65)) (MNum (VChar 65)) (VChar 65) _ _ _ [MNum (VChar 7); MNum (VChar 7)] co_reached); try reflexivity.
    + split; [intros; discriminate|]. intros k o X O. inversion X; subst. vm_compute in O. inversion O; reflexivity.
    + apply op_num. reflexivity.
    + constructor; [|constructor; [|constructor; [|constructor]]].
      * exists (VInt 66). split; [split; auto|]. simpl. exists (VInt 66), (VChar 66). auto.
      * exists (VLong 7). split; [split; auto|]. simpl. exists (VLong 7), (VChar 7). auto.
      * exists (VInt 7). split; [split; [reflexivity|right; exists 0; split; [discriminate|split; reflexivity]]|]. simpl. exists (VInt 7), (VChar 7). auto.
  - assert (Tm : HE TChar = HE TChar -> terminated s_co 0) by (intros _; do 2 eexists; split; reflexivity).
    assert (Ar : array_at s_co 0 (HE TChar) [MNum (VChar 65); MNum (VChar 66)]) by found.
    assert (Ng : number_in s_co 1 (ENum (VInt 323)) (VInt 323)) by (split; auto).
    assert (Sd : stored (HE TChar) (MNum (VInt 323)) (MNum (VChar 67))) by (simpl; exists (VInt 323), (VChar 67); auto).
    destruct (C116_adds s_co 1 0 (HE TChar) _ (ENum (VInt 323)) (VInt 323) (MNum (VChar 67)) co_reached eq_refl Ar ltac:(discriminate) ltac:(discriminate) Tm Ng Sd eq_refl) as (s' & E & A & _ & St & _).
    exists s'. split; [exact E|]. split; [exact A|exact St].
Qed.
(** [k = 1, 2.5;] is an array of the ints 1 and 2, where [var k = {1, 2.5};] throws. *)
Example C116_truncates :
  exists s', exec (commas 0 (ENum (VInt 1)) [ENum (VDouble (SpecFloat.S754_finite false 5629499534213120 (-51)))]) s_co = ROk tt s' /\
     made_array s_co 0 (HE TInt) [MNum (VInt 1); MNum (VInt 2)] s'.
Proof.
  apply (C116_comma s_co 0 (MNum (VInt 7)) (ENum (VInt 1)) (MNum (VInt 1)) (VInt 1) _ [] _ [] co_reached); try reflexivity.
  - split; intros; discriminate.
  - apply op_num. reflexivity.
  - constructor; [|constructor]. eexists. split; [split; [|left; reflexivity]; reflexivity|]. simpl. do 2 eexists. split; [reflexivity|split; reflexivity].
Qed.
