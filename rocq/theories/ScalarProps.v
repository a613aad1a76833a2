(** Properties of the array methods on variables that are not arrays, of [presize], and of the
    methods that refuse: C71 to C73. *)
From Coq Require Import ZArith Bool List String Lia.
From Verif Require Import Base StrModel ValModel NumModel AllocModel AllocProof MemModel MemProof MemFun MemEq MemDeref MemTriple MemOps MemArr MemMore MemKey MemElem MemMeth MemList MemRun MemFits ArrSpec MemArrays MemCopy MemThrow MemSelf MemScalar ArrFacts ArrProps.
Import ListNotations.
Local Open Scope list_scope.
Local Open Scope mem_scope.
Local Notation length := List.length.

(** Variable [j] is now a new array of type [t] with the elements [xs]; the other variables are as
    they were, and so are the arrays there were, as far as still allocated. *)
Definition made_array (s : state) (j : nat) (t : hty) (xs : list mvar) (s' : state) : Prop :=
  stk s' = replaced (stk s) j (MPtr (length (mem s))) /\ array_at s' (length (mem s)) t xs /\
  (t = HE TChar -> terminated s' (length (mem s))) /\
  forall k o, k < length (mem s) -> nth_error (mem s') k = Some (Some o) -> nth_error (mem s) k = Some (Some o).
(** The type of an array of numbers like [v]. *)
Definition type_of_number (v : val) : hty := HE (ety_of v).

Lemma made : forall e s j o' s' t xs, j < length (stk s) -> INV e [] s' -> shrunk (upd j (MPtr (length (mem s))) [Some o'] s) s' ->
  h_ty o' = t -> h_view o' = None -> h_size o' = length xs -> (forall k, k < length xs -> val_at o' k = nth_error xs k) ->
  (is_char t = true -> val_at o' (length xs) = Some NUL) -> made_array s j t xs s'.
Proof.
  intros e s j o' s' t xs L I Sh T V Sz H Hn. destruct (upd_obj e [] j _ o' s s' L eq_refl Sh I) as [_ O].
  split; [eapply upd_stk; eauto|]. split; [|split].
  - rewrite <- T. apply list_array; auto.
  - intros C. eapply nul_terminated; [exact O|]. rewrite Sz. apply Hn. rewrite C. reflexivity.
  - intros k o K O'. apply obj_live in O'. apply Sh in O'. apply obj_live in O'. simpl in O'. rewrite nth_error_app1 in O'; auto.
Qed.
Lemma number_char : forall v, number v = true -> varlike (HE (ety_of v)) = false.
Proof. destruct v; try discriminate; reflexivity. Qed.

(** * C71: a scalar becomes an array *)
Theorem C71_array_of_scalar : forall s j v, reachable s -> variable s j (MNum v) ->
  exists s', exec (SArray (EVar j)) s = ROk tt s' /\ made_array s j (type_of_number v) [MNum v] s'.
Proof.
  intros s j v R V. pose proof (reachable_variable _ _ _ R V) as Nv. destruct (reachable_INV s R) as [e I].
  destruct (array_scalar e s j (MNum v) I V) as (o & s' & E & I' & Sh & T & Sz & Vw & Lc & _ & Hn); [right; eauto|]. exists s'. split; auto.
  destruct (set_val_alike o 0 (MNum v)) as (A1 & A2 & A3 & A4 & A5). simpl in *.
  assert (Lj : j < length (stk s)) by (eapply ne_lt; eauto). apply (made e s j _ s' _ _ Lj I' Sh); simpl; try (unfold type_of_number; congruence).
  - intros k K. simpl in K. assert (k = 0) by lia. subst k. rewrite set_val_at by lia. reflexivity.
  - intros C. rewrite set_val_at by lia. simpl. auto.
Qed.
Theorem C71_array_of_undefined : forall s j, reachable s -> variable s j MNil ->
  exists s', exec (SArray (EVar j)) s = ROk tt s' /\ made_array s j (HE TVar) [MNil] s'.
Proof.
  intros s j R V. destruct (reachable_INV s R) as [e I].
  destruct (array_scalar e s j MNil I V) as (o & s' & E & I' & Sh & T & Sz & Vw & Lc & _ & Hn); [left; auto|]. exists s'. split; auto.
  destruct (set_val_alike o 0 MNil) as (A1 & A2 & A3 & A4 & A5). simpl in *.
  assert (Lj : j < length (stk s)) by (eapply ne_lt; eauto). apply (made e s j _ s' _ _ Lj I' Sh); simpl; try congruence; try discriminate.
  intros k K. simpl in K. assert (k = 0) by lia. subst k. rewrite set_val_at by lia. reflexivity.
Qed.
Theorem C71_array_of_array : forall s j l, reachable s -> variable s j (MPtr l) -> exec (SArray (EVar j)) s = ROk tt s.
Proof.
  intros s j l R V. change (exec (SArray (EVar j)) s) with (finish (length (stk s)) (let! v := eval (length (stk s)) (EVar j) in array v) s).
  unfold finish. rewrite (bind_ok _ _ _ _ _ _ _ (eval_var s j _ _ V eq_refl s)). rewrite (ptr_array s (LS j) l V). apply leave_none.
Qed.
(** The first element is the scalar, the others are not initialised. *)
Theorem C71_resize_of_scalar : forall s j v n, reachable s -> variable s j (MNum v) -> 2 <= n -> small n ->
  exists s', exec (SResize (EVar j) (Z.of_nat n)) s = ROk tt s' /\ made_array s j (type_of_number v) (MNum v :: repeat MJunk (n - 1)) s'.
Proof.
  intros s j v n R V Ln Sm. pose proof (reachable_variable _ _ _ R V) as Nv. destruct (reachable_INV s R) as [e I]. destruct (resize_many e s j v n I V Nv Ln Sm) as (o & s1 & E & I1 & Sh & T & Sz & Vw & Lc & Hv & Hn).
  destruct (exec_one (SResize (EVar j) (Z.of_nat n)) (fun v => resize v (Z.of_nat n)) j e s (MNum v) s1 _ eq_refl V E I1 Sh) as (s' & A & B & C).
  { simpl. apply sn_length. }
  exists s'. split; auto. destruct (set_val_alike o 0 (MNum v)) as (A1 & A2 & A3 & A4 & A5).
  assert (Lx : length (MNum v :: repeat MJunk (n - 1)) = n) by (simpl; rewrite repeat_length; lia).
  assert (Lj : j < length (stk s)) by (eapply ne_lt; eauto). apply (made e s j _ s' _ _ Lj B C); rewrite ?Lx; try (unfold type_of_number; congruence).
  - intros k K. assert (Lo : n <= length (h_cells o)) by lia. rewrite set_val_at by lia. destruct k as [|k]; [reflexivity|]. simpl.
    destruct (val_at_some o (S k)) as [w Hw]; [lia|]. rewrite Hw. rewrite nth_error_repeat by lia. f_equal. destruct (Hv _ _ Hw) as [X|(_ & X & _)]; [|lia].
    rewrite X. unfold fresh. rewrite number_char by auto. reflexivity.
  - intros Ic. rewrite set_val_at by lia. destruct (Nat.eqb_spec n 0); [lia|]. auto.
Qed.
Theorem C71_small_resize_of_scalar : forall s j v n, reachable s -> variable s j (MNum v) -> n < 2 ->
  exec (SResize (EVar j) (Z.of_nat n)) s = ROk tt s.
Proof.
  intros s j v n R V L. pose proof (reachable_variable _ _ _ R V) as Nv. change (exec (SResize (EVar j) (Z.of_nat n)) s) with (finish (length (stk s)) (let! v := eval (length (stk s)) (EVar j) in resize v (Z.of_nat n)) s).
  unfold finish. rewrite (bind_ok _ _ _ _ _ _ _ (eval_var s j _ _ V eq_refl s)). rewrite (resize_few s j v n V Nv L). apply leave_none.
Qed.
Theorem C71_push_on_scalar : forall s j v f x u, reachable s -> variable s j (MNum v) -> operand s f x -> denotes s x (MNum u) ->
  ety_of u = ety_of v ->
  exists s', exec (SPush (EVar j) f) s = ROk tt s' /\ made_array s j (type_of_number v) [MNum v; MNum u] s'.
Proof.
  intros s j v f x u R V Op D Te. pose proof (reachable_variable _ _ _ R V) as Nv. pose proof (reachable_proper _ _ _ R D) as P. pose proof (reachable_number _ _ _ _ R Op D) as Nu. destruct (reachable_INV s R) as [e I].
  destruct (push_scalar e s j v f x u I V Nv Op D (proper_exact _ _ _ P) Te Nu) as (o & s' & E & I' & Sh & T & Sz & Vw & Lc & Hv & Hn). exists s'. split; auto.
  destruct (set_val_alike o 0 (MNum v)) as (A1 & A2 & A3 & A4 & A5). set (o1 := set_val o 0 (MNum v)) in *. destruct (set_val_alike o1 1 (MNum u)) as (B1 & B2 & B3 & B4 & B5).
  assert (Lj : j < length (stk s)) by (eapply ne_lt; eauto). apply (made e s j _ s' _ _ Lj I' Sh); simpl; try (unfold type_of_number; congruence).
  - intros k K. rewrite set_val_at by lia. unfold o1. destruct k as [|[|k]]; simpl; [rewrite set_val_at by lia; reflexivity|reflexivity|lia].
  - intros Ic. change (is_char (HE (ety_of v)) = true) in Ic. rewrite Ic in Lc. rewrite set_val_at by lia. simpl. unfold o1. rewrite set_val_at by lia. simpl. auto.
Qed.
Theorem C71_unshift_on_scalar : forall s j v f x u, reachable s -> variable s j (MNum v) -> operand s f x -> denotes s x (MNum u) ->
  ety_of u = ety_of v ->
  exists s', exec (SUnshift (EVar j) f) s = ROk tt s' /\ made_array s j (type_of_number v) [MNum u; MNum v] s'.
Proof.
  intros s j v f x u R V Op D Te. pose proof (reachable_variable _ _ _ R V) as Nv. pose proof (reachable_proper _ _ _ R D) as P. pose proof (reachable_number _ _ _ _ R Op D) as Nu. destruct (reachable_INV s R) as [e I].
  destruct (unshift_scalar e s j v f x u I V Nv Op D (proper_exact _ _ _ P) Te Nu) as (e' & o1 & o' & s' & E & I' & Sh & T & Vw & Sz & H0 & U1 & U2 & U3 & U4 & U5 & U6). exists s'. split; auto.
  assert (Lj : j < length (stk s)) by (eapply ne_lt; eauto). apply (made e' s j _ s' _ _ Lj I' Sh); simpl; try (unfold type_of_number; congruence).
  - intros [|[|k]] K; simpl; auto; [rewrite U5 by lia; auto|lia].
  - intros Ic. apply U6. rewrite T. exact Ic.
Qed.

(** * C72: resize of an undefined variable, and presize *)
Theorem C72_resize_of_undefined : forall s j n, reachable s -> variable s j MNil -> small n ->
  exists s', exec (SResize (EVar j) (Z.of_nat n)) s = ROk tt s' /\ made_array s j (HE TVar) (repeat MNil n) s'.
Proof.
  intros s j n R V Sm. destruct (reachable_INV s R) as [e I]. assert (Lj : j < length (stk s)) by (eapply ne_lt; eauto).
  destruct (resize_nil_gives e [] s j n I V Sm) as (o & s1 & E & Es & I1 & T & Sz & Vw & Lc & Hv).
  destruct (exec_one (SResize (EVar j) (Z.of_nat n)) (fun v => resize v (Z.of_nat n)) j e s MNil s1 (upd j (MPtr (length (mem s))) [Some o] s) eq_refl V E I1) as (s' & A & B & C).
  - rewrite Es. unfold shrunk, obj, upd; simpl. auto.
  - simpl. apply sn_length.
  - exists s'. split; auto. apply (made e s j _ s' _ _ Lj B C); rewrite ?repeat_length; auto; try discriminate.
    intros k K. destruct (val_at_some o k) as [w Hw]; [lia|]. rewrite Hw, (Hv _ _ Hw), nth_error_repeat; auto.
Qed.
(** The elements after a presize to [n]: in a string that is longer, the character at [n] is overwritten. *)
Definition presized (t : hty) (xs : list mvar) (n : nat) : list mvar :=
  match t with HE TChar => if Nat.ltb n (length xs) then replaced xs n (MNum (VChar 0)) else xs | _ => xs end.
Lemma presize_arr : forall s j l t xs n, reachable s -> variable s j (MPtr l) -> array_at s l t xs -> small n -> small (length xs) ->
  exists s' c, exec (SPresize (EVar j) (Z.of_nat n)) s = ROk tt s' /\ array_at s' l t (presized t xs n) /\ only_array l s s' /\ (t = HE TChar -> terminated s' l) /\ capacity s' l c /\ n <= c.
Proof.
  intros s j l t xs n R V A Sm Sx. destruct (variable_array _ _ _ _ _ R V A) as (e & o & I & O & Vo & Ty & Sz & Lc & Ll & H).
  destruct (resize_became e [] s j l n o I V O Sm) as (o1 & s1 & E1 & Es1 & I1 & B1 & G1).
  assert (V1 : nth_error (stk s1) j = Some (MPtr l)) by (rewrite (became_stk _ _ _ _ B1); auto).
  destruct (resize_became e [] s1 j l (length xs) o1 I1 V1 (proj2 B1) Sx) as (o2 & s2 & E2 & Es2 & I2 & B2 & G2).
  pose proof (became_trans l o1 o2 s s1 s2 Ll B1 B2) as B.
  destruct (finish_var s j l e s2 o2 V Ll I2 B) as (s' & E' & I' & B').
  pose proof G1 as (P1 & P2 & P3 & P4 & _). pose proof G2 as (Q1 & Q2 & Q3 & Q4 & _). pose proof (grown_len _ _ _ G1) as L1. pose proof (grown_len _ _ _ G2) as L2.
  exists s', (length (h_cells o2)). split; [|split; [|split; [eapply only_became; eauto|split; [|split]]]].
  - change (exec (SPresize (EVar j) (Z.of_nat n)) s) with (finish (length (stk s)) (let! v := eval (length (stk s)) (EVar j) in presize v (Z.of_nat n)) s).
    unfold finish. rewrite (bind_ok _ _ _ _ _ _ _ (eval_var s j _ _ V eq_refl s)). unfold presize. rewrite (bind_ok _ _ _ _ _ _ _ (ptr_size s (LS j) l V o O Vo)).
    rewrite (bind_ok _ _ _ _ _ _ _ E1). rewrite Sz, E2. exact E'.
  - assert (Lp : length (presized t xs n) = length xs).
    { destruct t as [[]|]; try reflexivity. simpl. destruct (Nat.ltb_spec n (length xs)); auto. rewrite replaced_sn by auto. apply sn_length. }
    replace t with (h_ty o2) at 1 by congruence. apply list_array; auto; [apply B'|congruence|congruence|]. rewrite Lp. intros q Q.
    rewrite (grown_val _ _ _ q G2) by lia. destruct (is_char (h_ty o)) eqn:Ic.
    + assert (Et : t = HE TChar) by (rewrite <- Ty; destruct (h_ty o) as [[]|]; try discriminate; reflexivity). rewrite Et. simpl.
      destruct (Nat.eq_dec q n) as [->|Ne].
      * rewrite (grown_nul _ _ _ G1 Ic). destruct (Nat.ltb_spec n (length xs)); [|lia]. rewrite replaced_sn, sn_same; auto.
      * rewrite (grown_val _ _ _ q G1) by (auto; lia). rewrite H by lia. destruct (Nat.ltb_spec n (length xs)); auto. rewrite replaced_sn, sn_other; auto.
    + rewrite (grown_val _ _ _ q G1) by (try congruence; lia). rewrite H by lia. destruct t as [[]|]; try reflexivity. rewrite Ty in Ic. discriminate.
  - intros C. eapply grown_terminated; eauto; [rewrite P1, Ty, C; reflexivity|apply B'].
  - exists o2. split; [apply obj_live; apply B'|reflexivity].
  - lia.
Qed.
Theorem C72_presize_keeps : forall s j l t xs n, reachable s -> variable s j (MPtr l) -> array_at s l t xs -> small n -> small (length xs) ->
  (t = HE TChar -> length xs <= n) ->
  exists s' c, exec (SPresize (EVar j) (Z.of_nat n)) s = ROk tt s' /\ array_at s' l t xs /\ only_array l s s' /\ (t = HE TChar -> terminated s' l) /\ capacity s' l c /\ n <= c.
Proof.
  intros s j l t xs n R V A Sm Sx H. destruct (presize_arr s j l t xs n R V A Sm Sx) as (s' & c & E & A' & X). exists s', c. split; auto. split; auto.
  replace (presized t xs n) with xs in A'; auto. destruct t as [[]|]; try reflexivity. simpl. specialize (H eq_refl). destruct (Nat.ltb_spec n (length xs)); [lia|reflexivity].
Qed.
(** A smaller size puts a NUL into a string. *)
Theorem C72_presize_cuts_a_string : forall s j l xs n, reachable s -> variable s j (MPtr l) -> array_at s l (HE TChar) xs -> small (length xs) -> n < length xs ->
  exists s', exec (SPresize (EVar j) (Z.of_nat n)) s = ROk tt s' /\ array_at s' l (HE TChar) (replaced xs n (MNum (VChar 0))) /\ only_array l s s'.
Proof.
  intros s j l xs n R V A Sx H. assert (Sm : small n) by (unfold small in *; lia). destruct (presize_arr s j l _ xs n R V A Sm Sx) as (s' & c & E & A' & X & _). exists s'. split; auto. split; auto.
  simpl in A'. destruct (Nat.ltb_spec n (length xs)); [auto|lia].
Qed.
Theorem C72_presize_of_undefined : forall s j n, reachable s -> variable s j MNil -> small n ->
  exists s', exec (SPresize (EVar j) (Z.of_nat n)) s = ROk tt s' /\ made_array s j (HE TVar) [] s'.
Proof.
  intros s j n R V Sm. destruct (reachable_INV s R) as [e I]. assert (Lj : j < length (stk s)) by (eapply ne_lt; eauto).
  destruct (resize_nil_gives e [] s j n I V Sm) as (o & s1 & E & Es & I1 & T & Sz & Vw & Lc & Hv).
  assert (Sh1 : shrunk (upd j (MPtr (length (mem s))) [Some o] s) s1) by (rewrite Es; unfold shrunk, obj, upd; simpl; auto).
  destruct (upd_obj e [] j _ o s s1 Lj eq_refl Sh1 I1) as [N1 O1].
  destruct (resize_became e [] s1 j _ 0 o I1 N1 O1) as (o2 & s2 & E2 & _ & I2 & B2 & G2); [reflexivity|].
  pose proof (upd_became j _ o o2 s s1 s2 eq_refl Sh1 B2) as Sh2.
  assert (Ep : presize (LS j) (Z.of_nat n) s = ROk tt s2).
  { unfold presize. rewrite (bind_ok _ _ _ _ _ _ _ (scalar_size s j MNil V (or_introl eq_refl))). rewrite (bind_ok _ _ _ _ _ _ _ E). exact E2. }
  destruct (exec_one (SPresize (EVar j) (Z.of_nat n)) (fun v => presize v (Z.of_nat n)) j e s MNil s2 _ eq_refl V Ep I2 Sh2) as (s' & A & B & C).
  - simpl. apply sn_length.
  - destruct G2 as (G1 & G3 & G4 & _). exists s'. split; auto. apply (made e s j _ s' _ _ Lj B C); simpl; try congruence; try discriminate; intros; lia.
Qed.
Theorem C72_presize_of_scalar : forall s j v n, reachable s -> variable s j (MNum v) -> 2 <= n -> small n ->
  exists s', exec (SPresize (EVar j) (Z.of_nat n)) s = ROk tt s' /\ made_array s j (type_of_number v) [MNum v] s'.
Proof.
  intros s j v n R V Ln Sm. pose proof (reachable_variable _ _ _ R V) as Nv. destruct (reachable_INV s R) as [e I]. assert (Lj : j < length (stk s)) by (eapply ne_lt; eauto).
  destruct (resize_many e s j v n I V Nv Ln Sm) as (o & s1 & E & I1 & Sh1 & T & Sz & Vw & Lc & Hv & Hn).
  destruct (upd_obj e [] j _ _ s s1 Lj eq_refl Sh1 I1) as [N1 O1]. set (o1 := set_val o 0 (MNum v)) in *. destruct (set_val_alike o 0 (MNum v)) as (A1 & A2 & A3 & A4 & A5). fold o1 in A1, A2, A3, A4, A5.
  destruct (resize_became e [] s1 j _ 1 o1 I1 N1 O1) as (o2 & s2 & E2 & _ & I2 & B2 & G2); [reflexivity|].
  pose proof (upd_became j _ o1 o2 s s1 s2 eq_refl Sh1 B2) as Sh2.
  assert (Ep : presize (LS j) (Z.of_nat n) s = ROk tt s2).
  { unfold presize. rewrite (bind_ok _ _ _ _ _ _ _ (scalar_size s j (MNum v) V (or_intror (ex_intro _ v (conj eq_refl Nv))))). rewrite (bind_ok _ _ _ _ _ _ _ E). exact E2. }
  destruct (exec_one (SPresize (EVar j) (Z.of_nat n)) (fun v => presize v (Z.of_nat n)) j e s (MNum v) s2 _ eq_refl V Ep I2 Sh2) as (s' & A & B & C).
  - simpl. apply sn_length.
  - pose proof G2 as (G1 & G3 & G4 & _). exists s'. split; auto. apply (made e s j _ s' _ _ Lj B C); try (simpl; unfold type_of_number; congruence).
    + intros k K. simpl in K. assert (k = 0) by lia. subst k. rewrite (grown_val _ _ _ 0 G2) by lia. unfold o1. rewrite set_val_at by lia. reflexivity.
    + intros Ic. simpl length. apply (grown_nul _ _ _ G2). rewrite A1, T. exact Ic.
Qed.

(** * C73: methods that refuse, and what they do with scalars *)
Lemma exec_eval_throws : forall s f msg, eval (length (stk s)) f s = RThrow msg s -> exec (SEval f) s = RThrow msg s.
Proof.
  intros s f msg E. change (exec (SEval f) s) with (finish (length (stk s)) (let! _ := eval (length (stk s)) f in ret tt) s).
  unfold finish. rewrite (bind_throw _ _ _ _ _ _ _ E). unfold bind. rewrite leave_none. reflexivity.
Qed.
Lemma exec_eval_ub : forall s f k, eval (length (stk s)) f s = RUB k -> exec (SEval f) s = RUB k.
Proof.
  intros s f k E. change (exec (SEval f) s) with (finish (length (stk s)) (let! _ := eval (length (stk s)) f in ret tt) s).
  unfold finish, bind. rewrite E. reflexivity.
Qed.
Lemma eval_meth : forall s j x (g : lval -> M mvar), variable s j x ->
  (let! v := eval (length (stk s)) (EVar j) in let! y := g v in temp y) s = (let! y := g (LS j) in temp y) s.
Proof. intros s j x g V. rewrite (bind_ok _ _ _ _ _ _ _ (eval_var s j _ _ V eq_refl s)). reflexivity. Qed.
Theorem C73_remove_beyond_the_end_throws : forall s j l t xs i, reachable s -> variable s j (MPtr l) -> array_at s l t xs -> (Z.of_nat (length xs) <= i)%Z ->
  exec (SEval (ERemove (EVar j) i)) s = RThrow "remove(): index too large" s.
Proof.
  intros s j l t xs i R V A Li. destruct (variable_array _ _ _ _ _ R V A) as (e & o & I & O & Vo & Ty & Sz & Lc & Ll & H).
  apply exec_eval_throws. change (eval (length (stk s)) (ERemove (EVar j) i) s) with ((let! v := eval (length (stk s)) (EVar j) in let! y := remove v i in temp y) s).
  rewrite (eval_meth s j _ (fun v => remove v i) V). apply bind_throw. unfold remove. destruct (Z.ltb_spec i 0); [lia|].
  rewrite (bind_ok _ _ _ _ _ _ _ (ptr_size s (LS j) l V o O Vo)). destruct (Z.ltb_spec (Z.of_nat (h_size o) - 1) i); [reflexivity|lia].
Qed.
(** assert(iIndex >= 0), var.cpp 1145. *)
Theorem C73_remove_negative_asserts : forall s j x i, variable s j x -> (i < 0)%Z -> exec (SEval (ERemove (EVar j) i)) s = RUB AssertFail.
Proof.
  intros s j x i V Li. apply exec_eval_ub. change (eval (length (stk s)) (ERemove (EVar j) i) s) with ((let! v := eval (length (stk s)) (EVar j) in let! y := remove v i in temp y) s).
  rewrite (eval_meth s j _ (fun v => remove v i) V). unfold bind, remove. destruct (Z.ltb_spec i 0); [reflexivity|lia].
Qed.
Theorem C73_pop_of_undefined_throws : forall s j, reachable s -> variable s j MNil -> exec (SEval (EPop (EVar j))) s = RThrow "var::at(): uninitialised" s.
Proof.
  intros s j R V. destruct (reachable_INV s R) as [e I]. pose proof (INV_sound _ _ _ I) as Sd.
  apply exec_eval_throws. change (eval (length (stk s)) (EPop (EVar j)) s) with ((let! v := eval (length (stk s)) (EVar j) in let! y := pop v in temp y) s).
  rewrite (eval_meth s j _ pop V). apply bind_throw. unfold pop. rewrite (bind_ok _ _ _ _ _ _ _ (scalar_size s j MNil V (or_introl eq_refl))).
  apply bind_throw. unfold at_int. rewrite (bind_ok _ _ _ _ _ _ _ (copy_of_eq (LS j) s MNil Sd V)).
  eapply scoped_throw with (v' := MNil) (s1 := s).
  - assert (G : getv (LS (length (stk s))) (push_s MNil s) = Some MNil) by (apply getv_push_new).
    change (bump MNil s) with s. rewrite (bind_ok _ _ _ _ _ _ _ (deref_nonref _ _ _ G ltac:(intros ? ? ?; discriminate))).
    rewrite (bind_ok _ _ (defined _) _ _ _ _ (scalar_defined _ _ MNil G (or_introl eq_refl))). reflexivity.
  - reflexivity.
  - unfold release. simpl. destruct s; reflexivity.
Qed.
(** at(-1) gives the array itself, and assert(iSize >= 0) fails, var.cpp 918, 1094-1095, 1254-1261. *)
Lemma reference_self : forall s this l, sound s -> getv this s = Some (MPtr l) -> reference this (-1) s = ROk (MPtr l) (bump (MPtr l) s).
Proof.
  intros s this l S G. unfold reference. rewrite (bind_ok _ _ _ _ _ _ _ (ptr_type _ _ _ G)). change (negb (0 =? 0)%Z) with false. cbv iota.
  rewrite (bind_ok _ _ _ _ _ _ _ (copy_of_eq _ _ _ S G)). reflexivity.
Qed.
Lemma at_int_self : forall s this l, sound s -> getv this s = Some (MPtr l) -> at_int this (-1) s = ROk (MPtr l) (bump (MPtr l) s).
Proof.
  intros s this l S G. pose proof (held_ptr _ _ _ S G) as H. pose proof S as (C & _).
  unfold at_int. rewrite (bind_ok _ _ _ _ _ _ _ (copy_of_eq _ _ _ S G)). set (s0 := bump (MPtr l) s).
  assert (S0 : sound (push_s (MPtr l) s0)) by (apply sound_push; [apply sound_bump; auto|apply held_bump; auto]).
  pose proof (getv_push_new (MPtr l) s0) as G0. set (v := LS (length (stk s0))) in *.
  eapply scoped_ok with (v' := MPtr l) (s1 := bump (MPtr l) s0).
  - fold v. rewrite (bind_ok _ _ _ _ _ _ _ (ptr_deref _ _ _ G0)). rewrite (bind_ok _ _ _ _ _ _ _ (ptr_defined _ _ _ G0)). change (negb true) with false. cbv iota.
    rewrite (bind_ok _ _ _ _ _ _ _ (ptr_type _ _ _ G0)). change (0 =? 0)%Z with true. cbv iota. rewrite (reference_self _ _ _ S0 G0). rewrite bump_push. reflexivity.
  - rewrite bump_stk. reflexivity.
  - apply release_bump; [apply cnt_bump; auto|apply held_bump; auto].
Qed.
Theorem C73_pop_of_empty_asserts : forall s j l t, reachable s -> variable s j (MPtr l) -> array_at s l t [] -> exec (SEval (EPop (EVar j))) s = RUB AssertFail.
Proof.
  intros s j l t R V A. destruct (variable_array _ _ _ _ _ R V A) as (e & o & I & O & Vo & Ty & Sz & Lc & Ll & H). simpl in Sz.
  pose proof (INV_sound _ _ _ I) as Sd. assert (Hl : held (MPtr l) s) by (apply (held_ptr (LS j)); auto).
  apply exec_eval_ub. change (eval (length (stk s)) (EPop (EVar j)) s) with ((let! v := eval (length (stk s)) (EVar j) in let! y := pop v in temp y) s).
  rewrite (eval_meth s j _ pop V). unfold bind at 1. unfold pop. rewrite (bind_ok _ _ _ _ _ _ _ (ptr_size s (LS j) l V o O Vo)). rewrite Sz. change (Z.of_nat 0 - 1)%Z with (-1)%Z.
  rewrite (bind_ok _ _ _ _ _ _ _ (at_int_self s (LS j) l Sd V)). unfold scoped. fold (push_s (MPtr l) (bump (MPtr l) s)). set (s1 := push_s (MPtr l) (bump (MPtr l) s)).
  assert (T1 : temps s s1) by (apply temps_push, temps_refl).
  assert (O1 : obj l s1 = Some o) by (rewrite (temps_obj _ _ _ T1); auto). assert (V1 : nth_error (stk s1) j = Some (MPtr l)) by (eapply temps_slot; eauto).
  rewrite (bind_ok _ _ _ _ _ _ _ (ptr_size s1 (LS j) l V1 o O1 Vo)). rewrite Sz. reflexivity.
Qed.
(** A scalar is returned and stays. *)
Theorem C73_pop_of_scalar_keeps_it : forall s j v k old, reachable s -> variable s j (MNum v) -> variable s k old -> assignable s old ->
  exists s', exec (SAssign (EVar k) (EPop (EVar j))) s = ROk tt s' /\ stk s' = replaced (stk s) k (MNum v) /\
    forall m o, nth_error (mem s') m = Some (Some o) -> nth_error (mem s) m = Some (Some o).
Proof.
  intros s j v k old R V Vk As. pose proof (reachable_variable _ _ _ R V) as Nv. destruct (reachable_INV s R) as [e I]. pose proof (INV_sound _ _ _ I) as Sd. destruct (assignable_ok _ _ As) as [As1 As2].
  assert (Sc : scalar (MNum v)) by (right; eauto). assert (Lk : k < length (stk s)) by (eapply ne_lt; eauto).
  assert (Rl : forall w (t : state), target w = None -> release [w] t = ROk tt t) by (intros w t E; unfold release; simpl; rewrite E; destruct t; reflexivity).
  assert (Ea : at_int (LS j) 0 s = ROk (MNum v) s).
  { unfold at_int. rewrite (bind_ok _ _ _ _ _ _ _ (copy_of_eq (LS j) s _ Sd V)). change (bump (MNum v) s) with s.
    eapply scoped_ok with (v' := MNil) (s1 := s); [|reflexivity|apply Rl; reflexivity].
    pose proof (getv_push_new (MNum v) s) as G. rewrite (bind_ok _ _ _ _ _ _ _ (deref_nonref _ _ _ G ltac:(intros ? ? ?; discriminate))).
    rewrite (bind_ok _ _ (defined _) _ _ _ _ (scalar_defined _ _ _ G Sc)). change (negb (negb (is_nil (MNum v)))) with false. cbv iota.
    rewrite (bind_ok _ _ (type_of _) _ _ (vtype v) (push_s (MNum v) s)); [|unfold type_of; rewrite (bind_ok _ _ _ _ _ _ _ (get_eq _ _ _ G)); reflexivity].
    assert (Z.eqb (vtype v) 0 = false) as -> by (destruct v; try discriminate; reflexivity). change (0 =? 0)%Z with true. cbv iota.
    unfold take. rewrite (bind_ok _ _ _ _ _ _ _ (get_eq _ _ _ G)). rewrite (bind_ok _ _ _ _ _ _ _ (put_eq _ _ _ MNil G)). rewrite putv_push_new. reflexivity. }
  assert (Ep : pop (LS j) s = ROk (MNum v) s).
  { unfold pop. rewrite (bind_ok _ _ _ _ _ _ _ (scalar_size s j _ V Sc)). change ((if is_nil (MNum v) then 0 else 1) - 1)%Z with 0%Z. rewrite (bind_ok _ _ _ _ _ _ _ Ea).
    eapply scoped_ok with (v' := MNil) (s1 := s); [|reflexivity|apply Rl; reflexivity].
    pose proof (getv_push_new (MNum v) s) as G. assert (V1 : nth_error (stk (push_s (MNum v) s)) j = Some (MNum v)) by (simpl; rewrite nth_error_app1; auto; eapply ne_lt; eauto).
    rewrite (bind_ok _ _ _ _ _ _ _ (scalar_size _ j _ V1 Sc)). change ((if is_nil (MNum v) then 0 else 1) - 1)%Z with (Z.of_nat 0).
    rewrite (bind_ok _ _ _ _ _ _ _ (resize_few _ j v 0 V1 Nv ltac:(lia))).
    unfold take. rewrite (bind_ok _ _ _ _ _ _ _ (get_eq _ _ _ G)). rewrite (bind_ok _ _ _ _ _ _ _ (put_eq _ _ _ MNil G)). rewrite putv_push_new. reflexivity. }
  destruct (assign_var_gives e s (EPop (EVar j)) (push_s (MNum v) s) (length (stk s)) [MNum v] (MNum v) (MNum v) k old) as (s' & E & I' & Sh); auto.
  - change (eval (length (stk s)) (EPop (EVar j)) s) with ((let! v := eval (length (stk s)) (EVar j) in let! y := pop v in temp y) s). rewrite (eval_meth s j _ pop V).
    rewrite (bind_ok _ _ _ _ _ _ _ Ep). reflexivity.
  - assert (X : INV e [] (push_s (MNum v) (bump (MNum v) s))) by (apply INV_push, INV_bump; auto; intros ? ?; discriminate). exact X.
  - simpl. rewrite nth_error_app2, Nat.sub_diag; auto.
  - reflexivity.
  - intros ? ? ?; discriminate.
  - exists s'. split; auto. split; [destruct Sh as (-> & _); simpl; rewrite replaced_sn; auto|]. intros m o O. apply obj_live in O. apply Sh in O. apply obj_live in O. exact O.
Qed.
(** Shifting from an array without elements, heap.cpp 472-529. *)
Theorem C73_shift_of_empty : forall s j l t, reachable s -> variable s j (MPtr l) -> array_at s l t [] -> exec (SEval (EShift (EVar j))) s = RUB OutOfBounds \/ exec (SEval (EShift (EVar j))) s = RUB BadSize.
Proof.
  intros s j l t R V A. destruct (variable_array _ _ _ _ _ R V A) as (e & o & I & O & Vo & Ty & Sz & Lc & Ll & H). simpl in Sz.
  assert (X : exists k, (k = OutOfBounds \/ k = BadSize) /\ heap_shift l s = RUB k).
  { unfold heap_shift. rewrite (bind_ok _ _ _ _ _ _ _ (get_obj_eq _ _ _ O)). rewrite Sz. destruct (h_cells o); eexists; (split; [|reflexivity]); auto. }
  destruct X as (k & K & X). assert (Y : exec (SEval (EShift (EVar j))) s = RUB k); [|destruct K; subst k; auto]. apply exec_eval_ub. change (eval (length (stk s)) (EShift (EVar j)) s) with ((let! v := eval (length (stk s)) (EVar j) in let! y := shift v in temp y) s).
  rewrite (eval_meth s j _ shift V). unfold bind at 1. unfold shift. rewrite (bind_ok _ _ _ _ _ _ _ (ptr_heap s (LS j) l V)). rewrite X. reflexivity.
Qed.

(** * Examples: an int, an undefined variable, a string and an array without elements *)
Definition scalars : list stmt := [SDecl (ENum (VInt 3)); SDecl ENil; SDecl (EStr [97; 98; 99]%Z); SDecl ENil; SPresize (EVar 3) 5].
Definition s_sc : state := Eval vm_compute in after scalars.
Lemma sc_reached : reachable s_sc.
Proof. exists scalars. vm_compute. reflexivity. Qed.
Example C71_example :
  (exists s', exec (SArray (EVar 0)) s_sc = ROk tt s' /\ made_array s_sc 0 (HE TInt) [MNum (VInt 3)] s') /\
  (exists s', exec (SArray (EVar 1)) s_sc = ROk tt s' /\ made_array s_sc 1 (HE TVar) [MNil] s') /\
  exec (SArray (EVar 2)) s_sc = ROk tt s_sc /\
  (exists s', exec (SResize (EVar 0) 3) s_sc = ROk tt s' /\ made_array s_sc 0 (HE TInt) [MNum (VInt 3); MJunk; MJunk] s') /\
  exec (SResize (EVar 0) 1) s_sc = ROk tt s_sc.
Proof.
  split; [exact (C71_array_of_scalar s_sc 0 (VInt 3) sc_reached eq_refl)|].
  split; [exact (C71_array_of_undefined s_sc 1 sc_reached eq_refl)|].
  split; [exact (C71_array_of_array s_sc 2 0 sc_reached eq_refl)|].
  split; [exact (C71_resize_of_scalar s_sc 0 (VInt 3) 3 sc_reached eq_refl ltac:(repeat constructor) eq_refl)|].
  exact (C71_small_resize_of_scalar s_sc 0 (VInt 3) 1 sc_reached eq_refl ltac:(repeat constructor)).
Qed.
Lemma sc_four : operand s_sc (ENum (VInt 4)) (MNum (VInt 4)) /\ denotes s_sc (MNum (VInt 4)) (MNum (VInt 4)).
Proof. split; [apply op_num|]; reflexivity. Qed.
Example C71_push_example :
  (exists s', exec (SPush (EVar 0) (ENum (VInt 4))) s_sc = ROk tt s' /\ made_array s_sc 0 (HE TInt) [MNum (VInt 3); MNum (VInt 4)] s') /\
  (exists s', exec (SUnshift (EVar 0) (ENum (VInt 4))) s_sc = ROk tt s' /\ made_array s_sc 0 (HE TInt) [MNum (VInt 4); MNum (VInt 3)] s').
Proof.
  destruct sc_four as (A & B). split.
  - exact (C71_push_on_scalar s_sc 0 (VInt 3) (ENum (VInt 4)) (MNum (VInt 4)) (VInt 4) sc_reached eq_refl A B eq_refl).
  - exact (C71_unshift_on_scalar s_sc 0 (VInt 3) (ENum (VInt 4)) (MNum (VInt 4)) (VInt 4) sc_reached eq_refl A B eq_refl).
Qed.
Lemma sc_string : array_at s_sc 0 (HE TChar) [MNum (VChar 97); MNum (VChar 98); MNum (VChar 99)].
Proof. found. Qed.
Lemma sc_empty : array_at s_sc 1 (HE TVar) [].
Proof. found. Qed.
Example C72_example :
  (exists s', exec (SResize (EVar 1) 2) s_sc = ROk tt s' /\ made_array s_sc 1 (HE TVar) [MNil; MNil] s') /\
  (exists s' c, exec (SPresize (EVar 2) 100) s_sc = ROk tt s' /\ array_at s' 0 (HE TChar) [MNum (VChar 97); MNum (VChar 98); MNum (VChar 99)] /\ only_array 0 s_sc s' /\ (HE TChar = HE TChar -> terminated s' 0) /\ capacity s' 0 c /\ 100 <= c) /\
  (exists s', exec (SPresize (EVar 2) 1) s_sc = ROk tt s' /\ array_at s' 0 (HE TChar) [MNum (VChar 97); MNum (VChar 0); MNum (VChar 99)] /\ only_array 0 s_sc s') /\
  (exists s', exec (SPresize (EVar 1) 9) s_sc = ROk tt s' /\ made_array s_sc 1 (HE TVar) [] s') /\
  (exists s', exec (SPresize (EVar 0) 9) s_sc = ROk tt s' /\ made_array s_sc 0 (HE TInt) [MNum (VInt 3)] s').
Proof.
  split; [exact (C72_resize_of_undefined s_sc 1 2 sc_reached eq_refl eq_refl)|].
  split; [exact (C72_presize_keeps s_sc 2 0 _ _ 100 sc_reached eq_refl sc_string eq_refl eq_refl ltac:(intros _; apply Nat.leb_le; reflexivity))|].
  split; [exact (C72_presize_cuts_a_string s_sc 2 0 _ 1 sc_reached eq_refl sc_string eq_refl ltac:(repeat constructor))|].
  split; [exact (C72_presize_of_undefined s_sc 1 9 sc_reached eq_refl eq_refl)|].
  exact (C72_presize_of_scalar s_sc 0 (VInt 3) 9 sc_reached eq_refl ltac:(repeat constructor) eq_refl).
Qed.
Example C73_example :
  exec (SEval (ERemove (EVar 2) 3)) s_sc = RThrow "remove(): index too large" s_sc /\
  exec (SEval (ERemove (EVar 2) (-1))) s_sc = RUB AssertFail /\
  exec (SEval (EPop (EVar 1))) s_sc = RThrow "var::at(): uninitialised" s_sc /\
  exec (SEval (EPop (EVar 3))) s_sc = RUB AssertFail /\
  (exec (SEval (EShift (EVar 3))) s_sc = RUB OutOfBounds \/ exec (SEval (EShift (EVar 3))) s_sc = RUB BadSize) /\
  (exists s', exec (SAssign (EVar 1) (EPop (EVar 0))) s_sc = ROk tt s' /\ stk s' = [MNum (VInt 3); MNum (VInt 3); MPtr 0; MPtr 1] /\
     forall m o, nth_error (mem s') m = Some (Some o) -> nth_error (mem s_sc) m = Some (Some o)).
Proof.
  split; [exact (C73_remove_beyond_the_end_throws s_sc 2 0 _ _ 3 sc_reached eq_refl sc_string ltac:(discriminate))|].
  split; [exact (C73_remove_negative_asserts s_sc 2 (MPtr 0) (-1) eq_refl eq_refl)|].
  split; [exact (C73_pop_of_undefined_throws s_sc 1 sc_reached eq_refl)|].
  split; [exact (C73_pop_of_empty_asserts s_sc 3 1 _ sc_reached eq_refl sc_empty)|].
  split; [exact (C73_shift_of_empty s_sc 3 1 _ sc_reached eq_refl sc_empty)|].
  exact (C73_pop_of_scalar_keeps_it s_sc 0 (VInt 3) 1 MNil sc_reached eq_refl eq_refl ltac:(split; intros; discriminate)).
Qed.
