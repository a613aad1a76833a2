(** Properties of sequences of array operations: C08, C09, C10. *)
From Coq Require Import ZArith Bool List String Lia.
From Verif Require Import Base StrModel ValModel NumModel AllocModel AllocProof MemModel MemProof MemFun MemEq MemDeref MemTriple MemOps MemArr MemMore MemKey MemElem MemMeth MemList MemRun MemFits ArrSpec MemArrays MemCopy MemThrow MemSelf ArrFacts ArrProps MemText SeqSpec.
Import ListNotations.
Local Open Scope list_scope.
Local Open Scope mem_scope.
Local Notation length := List.length.

(** * One statement *)
Definition is_write (st : stmt) : Prop := match st with SAssign _ _ => True | _ => False end.
Lemma edit_works : forall s c l t xs st P, reachable s -> variable s c (MPtr l) -> array_at s l t xs -> edit s c l t xs st P ->
  exists s' xs', exec st s = ROk tt s' /\ array_at s' l t xs' /\ P xs' /\ stk s' = stk s /\ others l s s' /\
    (t = HE TChar -> is_write st \/ terminated s' l) /\ (is_write st -> terminated s l -> terminated s' l).
Proof.
  intros s c l t xs st P R V A E. destruct E.
  - destruct (C11_element_assignment s c l t xs i f x y z) as (s' & E' & A' & F & T); auto. exists s', (replaced xs i z).
    pose proof F as [St _]. do 5 (split; [auto using only_others|]). split; simpl; auto.
  - destruct (C12_push_appends s c l t xs f x y z) as (s' & E' & A' & F & T); auto. exists s', (xs ++ [z]).
    pose proof F as [St _]. do 5 (split; [auto using only_others|]). split; simpl; auto. tauto.
  - subst xs. destruct (variable_array _ _ _ _ _ R V A) as (e & o & I & O & Vo & Ty & Sz & Lc & Ll & H). rewrite app_length in *; simpl in *.
    destruct (exec_pop_eval e s c l (length ys) o I V O Vo) as (s' & o' & E & I' & B & G); auto; [lia|]. exists s', ys. split; auto.
    split; [|split; [auto|split; [apply (became_stk _ _ _ _ B)|split; [apply only_others; eapply only_became; eauto|split; [|tauto]]]]].
    + pose proof G as (T' & V' & S' & C' & _). rewrite <- Ty, <- T'. apply list_array; auto; [apply B|congruence|].
      intros q Q. rewrite (grown_val _ _ _ q G) by lia. rewrite H by lia. rewrite nth_error_app1; auto.
    + intros X. right. eapply grown_terminated; eauto; [rewrite Ty, X; reflexivity|apply B].
  - destruct (C04_resize_keeps_prefix s c l t xs n) as (s' & xs' & E' & A' & L & Fs & F & T); auto. exists s', xs'.
    pose proof F as [St _]. do 5 (split; [auto using only_others|]). split; simpl; auto. tauto.
  - subst t. destruct (C14_insert_into_vars s c l xs i f x y) as (s' & E' & A' & F); auto. exists s', (firstn i xs ++ [y] ++ skipn i xs).
    pose proof F as [St _]. do 5 (split; [auto using only_others|]). split; simpl; [discriminate|tauto].
  - destruct (C14_insert_into_dense s c l t xs i k lp tp ys zs) as (s' & E' & A' & F & T); auto. exists s', (firstn i xs ++ zs ++ skipn i xs).
    pose proof F as [St _]. do 5 (split; [auto using only_others|]). split; simpl; auto. tauto.
  - subst t. destruct (C14_append_to_vars s c l xs f x y) as (s' & E' & A' & F); auto. exists s', (xs ++ [y]).
    pose proof F as [St _]. do 5 (split; [auto using only_others|]). split; simpl; [discriminate|tauto].
  - destruct (C14_append_to_dense s c l t xs k lp tp ys zs) as (s' & E' & A' & F & T); auto. exists s', (xs ++ zs).
    pose proof F as [St _]. do 5 (split; [auto using only_others|]). split; simpl; auto. tauto.
  - subst t. destruct (variable_array _ _ _ _ _ R V A) as (e & o & I & O & Vo & Ty & Sz & Lc & Ll & H).
    assert (Rm : h_size o < length (h_cells o)).
    { pose proof (reachable_fits s R l o) as Ft. apply obj_live in O. specialize (Ft O). unfold fits, room, small in *. rewrite Ty in Ft. simpl in Ft. lia. }
    destruct (exec_append_str e s c l o str) as (s' & o' & E & I' & B & (G1 & G2 & G3 & G4 & G5 & G6)); auto; [unfold small in *; lia|].
    set (zs := map (fun a => MNum (VChar a)) str). assert (Lz : length zs = length str) by apply map_length. exists s', (xs ++ zs). split; auto.
    split; [|split; [auto|split; [apply (became_stk _ _ _ _ B)|split; [apply only_others; eapply only_became; eauto|split; [|simpl; tauto]]]]].
    + rewrite <- Ty, <- G1. apply list_array; [apply B|congruence|rewrite app_length; congruence|]. intros q Q. rewrite app_length in Q.
      destruct (Nat.lt_ge_cases q (length xs)) as [Lq|Lq]; [rewrite nth_error_app1 by auto; rewrite G4 by lia; auto|].
      rewrite nth_error_app2 by auto. unfold zs. rewrite nth_error_map. replace q with (h_size o + (q - length xs)) at 1 by lia. rewrite G5 by lia. reflexivity.
    + intros _. right. eapply nul_terminated; [apply B|auto].
  - subst xs. destruct (variable_array _ _ _ _ _ R V A) as (e & o & I & O & Vo & Ty & Sz & Lc & Ll & H). simpl in *.
    destruct (exec_shift_eval e s c l (length ys) o y I V O Vo) as (s' & o' & E & I' & B & G); auto; [lia|apply (H 0); lia|]. exists s', ys. split; auto.
    pose proof G as (T' & V' & S' & C' & N). split; [|split; [auto|split; [apply (became_stk _ _ _ _ B)|split; [apply only_others; eapply only_became; eauto|split; [|tauto]]]]].
    + rewrite <- Ty, <- T'. apply list_array; auto; [apply B|congruence|]. intros q Q. rewrite (proj1 (C' q Q)). apply (H (S q)). lia.
    + intros X. right. eapply nul_terminated; [apply B|]. rewrite S'. apply N. rewrite Ty, X. reflexivity.
  - destruct (C18_unshift_puts_first s c l t xs f x z) as (s' & E' & A' & F & T); auto. exists s', (z :: xs).
    pose proof F as [St _]. do 5 (split; [auto using only_others|]). split; simpl; auto. tauto.
  - destruct (C16_remove_keeps_the_others s c l t xs i y) as (s' & E' & A' & St & F & T); auto. exists s', (without xs i).
    do 5 (split; [auto|]). split; simpl; auto. tauto.
Qed.
Lemma others_trans : forall l s s1 s2, others l s s1 -> others l s1 s2 -> others l s s2.
Proof. intros l s s1 s2 [A B] [C D]. split; [lia|]. intros k o K L O. apply B; auto. apply D; auto. lia. Qed.
Lemma edits_frame : forall c l t s xs sts s' xs', edits c l t s xs sts s' xs' -> reachable s -> variable s c (MPtr l) -> array_at s l t xs ->
  reachable s' /\ run sts s = ROk tt s' /\ stk s' = stk s /\ array_at s' l t xs' /\ others l s s' /\
  (t = HE TChar -> terminated s l -> terminated s' l).
Proof.
  induction 1 as [s xs|s xs st P s1 xs1 sts s2 xs2 E X A1 P1 D IH]; intros R V A.
  - repeat (split; auto).
  - destruct (edit_works s c l t xs st P R V A E) as (s' & xs' & E' & A' & P' & St & F & T & W). assert (s' = s1) by congruence. subst s'.
    assert (R1 : reachable s1) by (eapply reachable_step; eauto). destruct IH as (Ra & Rb & Rc & Rd & Re & Rf); auto; [unfold variable; rewrite St; auto|].
    split; auto. split; [simpl; rewrite X; auto|]. split; [congruence|]. split; auto. split; [eapply others_trans; eauto|].
    intros C Tm. apply Rf; auto. destruct (T C) as [Z|Z]; auto.
Qed.
(** Another array that a variable holds is as it was. *)
Lemma others_array : forall l s s' k t xs j, others l s s' -> stk s' = stk s -> reachable s' -> variable s j (MPtr k) -> k <> l -> array_at s k t xs -> array_at s' k t xs.
Proof.
  intros l s s' k t xs j [L F] St R V D (o & O & B). destruct (reachable_INV s' R) as [e I].
  assert (Lv : live k s') by (destruct (INV_sound _ _ _ I) as (_ & S & _); apply (S (MPtr k)); [rewrite St; eapply nth_error_In; eauto|reflexivity]).
  apply live_obj in Lv as [o' O']. apply obj_live in O'. pose proof (F k o' D ltac:(apply nth_error_Some; congruence) O') as X. exists o'. split; auto. assert (o' = o) by congruence. subst. auto.
Qed.
Lemma edited_array : forall c l t s xs sts s' xs', edits c l t s xs sts s' xs' -> array_at s l t xs -> array_at s' l t xs'.
Proof. induction 1; auto. Qed.
(** What assigning an operand to a variable does. *)
Lemma assign_operand : forall s k f x y old, reachable s -> operand s f x -> denotes s x y -> variable s k old -> assignable s old ->
  exists s', exec (SAssign (EVar k) f) s = ROk tt s' /\ stk s' = replaced (stk s) k y /\ length (mem s') = length (mem s) /\
    forall m o, nth_error (mem s') m = Some (Some o) -> nth_error (mem s) m = Some (Some o).
Proof.
  intros s k f x y old R Of D Vk As. destruct (reachable_INV s R) as [e I].
  destruct (operand_gives e s s f x I (temps_refl s) Of) as (q & s1 & E1 & I1 & T1 & _ & Nq).
  destruct (denotes_der s1 x y) as [Dr Ny]; [eapply temps_denotes; eauto|]. destruct (assignable_ok _ _ As) as [As1 As2]. pose proof T1 as [M1 [ws St]].
  destruct (assign_var_gives e s f s1 q ws x y k old) as (s' & E & I' & Sh); auto.
  - intros l o Q O. apply (As2 l o); auto. rewrite <- (temps_obj _ _ _ T1). auto.
  - destruct Sh as (A & B & C). exists s'. split; auto. simpl in *. split; [rewrite A; symmetry; apply replaced_sn; eapply ne_lt; eauto|].
    split; [congruence|]. intros m o O. apply obj_live in O. apply C in O. apply obj_live in O. simpl in O. rewrite M1 in O. auto.
Qed.
Lemma kept_array : forall s s' j l t xs, reachable s' -> variable s' j (MPtr l) -> array_at s l t xs -> (forall m o, nth_error (mem s') m = Some (Some o) -> m = l -> nth_error (mem s) m = Some (Some o)) ->
  array_at s' l t xs.
Proof.
  intros s s' j l t xs R V (o & O & B) F. destruct (reachable_INV s' R) as [e I].
  assert (Lv : live l s') by (destruct (INV_sound _ _ _ I) as (_ & S & _); apply (S (MPtr l)); [eapply nth_error_In; eauto|reflexivity]).
  apply live_obj in Lv as [o' O']. apply obj_live in O'. pose proof (F l o' O' eq_refl) as X. exists o'. split; auto. assert (o' = o) by congruence. subst. auto.
Qed.
Lemma replaced_nth : forall A (xs : list A) i x k, i < length xs -> nth_error (replaced xs i x) k = if Nat.eqb k i then Some x else nth_error xs k.
Proof.
  unfold replaced. induction xs as [|a xs IH]; intros i x k L; simpl in L; [lia|]. destruct i as [|i]; destruct k as [|k]; simpl; auto. apply IH. lia.
Qed.

(** * C08 *)
(** After [y = x] both variables hold the one array. *)
Theorem C08_assignment_shares : forall s j k l t xs old, reachable s -> variable s j (MPtr l) -> array_at s l t xs -> variable s k old -> assignable s old ->
  exists s', exec (SAssign (EVar k) (EVar j)) s = ROk tt s' /\ stk s' = replaced (stk s) k (MPtr l) /\ array_at s' l t xs /\
    forall m o, nth_error (mem s') m = Some (Some o) -> nth_error (mem s) m = Some (Some o).
Proof.
  intros s j k l t xs old R V A Vk As.
  destruct (assign_operand s k (EVar j) (MPtr l) (MPtr l) old) as (s' & E & St & Ln & F); auto; [constructor; auto|reflexivity|].
  exists s'. split; auto. split; auto. split; auto. eapply (kept_array s s' k); eauto using reachable_step.
  unfold variable. rewrite St, replaced_nth, Nat.eqb_refl; auto. eapply ne_lt; eauto.
Qed.
(** So it is for [var y = x;], whatever [x] is: the new variable is what [x] is, and nothing else
    changes; one that refers to an element or to an array counts as a further holder of the array. *)
Theorem C08_declaration_shares : forall s j x, reachable s -> variable s j x ->
  exists s', exec (SDecl (EVar j)) s = ROk tt s' /\ stk s' = stk s ++ [x] /\ mem s' = mem s /\
    forall l, nth l (rc s') 0%nat = (nth l (rc s) 0 + (if match x with MPtr k | MRef k _ => Nat.eqb k l | _ => false end then 1 else 0))%nat.
Proof.
  intros s j x R V. destruct (reachable_INV s R) as [e I]. pose proof (ne_lt _ _ _ _ V) as Lj.
  assert (H : held x s) by (intros k T; destruct (INV_sound _ _ _ I) as (_ & S & _); apply (S x); [eapply nth_error_In; eauto|exact T]).
  pose proof (attach_eq x s H) as E.
  assert (St : stk (bump x s) = stk s) by (unfold bump; destruct (target x); reflexivity).
  exists {| mem := mem (bump x s); rc := rc (bump x s); stk := stk (bump x s) ++ [x] |}. split; [|cbn [mem rc stk]; rewrite St; split; [reflexivity|split]].
  - unfold exec, declare, keep_value. cbn [named eval]. apply Nat.ltb_lt in Lj. rewrite Lj.
    assert (C : (let! v := ret (LS j) in copy_of v) s = ROk x (bump x s)).
    { unfold bind at 1, ret at 1. unfold copy_of. rewrite (bind_ok _ _ _ _ _ x s) by (apply get_eq; exact V). rewrite (bind_ok _ _ _ _ _ _ _ E). reflexivity. }
    rewrite C. unfold bind at 1, leave. rewrite <- St, firstn_all, skipn_all. reflexivity.
  - unfold bump. destruct (target x); reflexivity.
  - intros l. destruct (INV_inv _ _ _ I) as [L _]. pose proof (rcount_bump x s l L H) as B. unfold rcount in B. rewrite B. f_equal.
    unfold occ1. destruct x; try reflexivity.
Qed.
(** Then any element operation through either name is seen through both. *)
Theorem C08_operations_are_shared : forall s j k l t xs old, reachable s -> variable s j (MPtr l) -> array_at s l t xs -> variable s k old -> assignable s old ->
  exists s1, exec (SAssign (EVar k) (EVar j)) s = ROk tt s1 /\
    forall c st P, c = j \/ c = k -> edit s1 c l t xs st P ->
      exists s2 xs2, exec st s1 = ROk tt s2 /\ P xs2 /\ holds_array s2 j t xs2 /\ holds_array s2 k t xs2.
Proof.
  intros s j k l t xs old R V A Vk As. destruct (C08_assignment_shares s j k l t xs old) as (s1 & E & St & A1 & F); auto.
  exists s1. split; auto. intros c st P C Ed. assert (R1 : reachable s1) by (eapply reachable_step; eauto). pose proof (ne_lt _ _ _ _ Vk) as Lk.
  assert (Vk1 : variable s1 k (MPtr l)) by (unfold variable; rewrite St, replaced_nth, Nat.eqb_refl; auto).
  assert (Vj1 : variable s1 j (MPtr l)) by (unfold variable; rewrite St, replaced_nth; auto; destruct (Nat.eqb j k); auto).
  destruct (edit_works s1 c l t xs st P) as (s2 & xs2 & E2 & A2 & P2 & St2 & _); auto; [destruct C; subst; auto|].
  exists s2, xs2. split; auto. split; auto. split; exists l; split; auto; unfold variable; rewrite St2; auto.
Qed.
Theorem C08_declared_operations_are_shared : forall s j l t xs, reachable s -> variable s j (MPtr l) -> array_at s l t xs ->
  exists s1, exec (SDecl (EVar j)) s = ROk tt s1 /\
    forall c st P, c = j \/ c = length (stk s) -> edit s1 c l t xs st P ->
      exists s2 xs2, exec st s1 = ROk tt s2 /\ P xs2 /\ holds_array s2 j t xs2 /\ holds_array s2 (length (stk s)) t xs2.
Proof.
  intros s j l t xs R V A. destruct (C08_declaration_shares s j (MPtr l) R V) as (s1 & E & St & Me & _).
  exists s1. split; auto. intros c st P C Ed. assert (R1 : reachable s1) by (eapply reachable_step; eauto).
  assert (Vk1 : variable s1 (length (stk s)) (MPtr l)) by (unfold variable; rewrite St, nth_error_app2, Nat.sub_diag by auto; reflexivity).
  assert (Vj1 : variable s1 j (MPtr l)) by (unfold variable; rewrite St, nth_error_app1; [exact V|eapply ne_lt; eauto]).
  assert (A1 : array_at s1 l t xs) by (destruct A as (o & A); exists o; rewrite Me; exact A).
  destruct (edit_works s1 c l t xs st P) as (s2 & xs2 & E2 & A2 & P2 & St2 & _); auto; [destruct C; subst; auto|].
  exists s2, xs2. split; auto. split; auto. split; exists l; split; auto; unfold variable; rewrite St2; auto.
Qed.
(** In particular an element that is written or pushed through one name is read through both. *)
Corollary C08_write_is_shared : forall s j k l t xs old, reachable s -> variable s j (MPtr l) -> array_at s l t xs -> variable s k old -> assignable s old ->
  exists s1, exec (SAssign (EVar k) (EVar j)) s = ROk tt s1 /\
    forall c i f x y z, c = j \/ c = k -> writable s1 l t -> i < length xs -> operand s1 f x -> denotes s1 x y -> stored t y z -> (holds_vars t -> x <> MRef l i) ->
      exists s2, exec (SAssign (EIdx (EVar c) (Z.of_nat i)) f) s1 = ROk tt s2 /\ reads s2 j i z /\ reads s2 k i z.
Proof.
  intros s j k l t xs old R V A Vk As. destruct (C08_operations_are_shared s j k l t xs old) as (s1 & E & H); auto.
  exists s1. split; auto. intros c i f x y z C W Li Of D Sd X. destruct (H c _ _ C (ed_write s1 c l t xs i f x y z W Li Of D Sd X)) as (s2 & xs2 & E2 & <- & (l1 & V1 & A1) & l2 & V2 & A2).
  exists s2. split; auto. split; [exists l1, t, (replaced xs i z)|exists l2, t, (replaced xs i z)]; repeat (split; auto); rewrite replaced_nth, Nat.eqb_refl; auto.
Qed.
Corollary C08_push_is_shared : forall s j k l t xs old, reachable s -> variable s j (MPtr l) -> array_at s l t xs -> variable s k old -> assignable s old ->
  exists s1, exec (SAssign (EVar k) (EVar j)) s = ROk tt s1 /\
    forall c f x y z, c = j \/ c = k -> writable s1 l t -> small (S (length xs)) -> operand s1 f x -> denotes s1 x y -> stored t y z ->
      exists s2, exec (SPush (EVar c) f) s1 = ROk tt s2 /\ reads s2 j (length xs) z /\ reads s2 k (length xs) z.
Proof.
  intros s j k l t xs old R V A Vk As. destruct (C08_operations_are_shared s j k l t xs old) as (s1 & E & H); auto.
  exists s1. split; auto. intros c f x y z C W Sm Of D Sd. destruct (H c _ _ C (ed_push s1 c l t xs f x y z W Sm Of D Sd)) as (s2 & xs2 & E2 & <- & (l1 & V1 & A1) & l2 & V2 & A2).
  exists s2. split; auto. split; [exists l1, t, (xs ++ [z])|exists l2, t, (xs ++ [z])]; repeat (split; auto); rewrite nth_error_app2, Nat.sub_diag; auto.
Qed.
(** After [y = x.copy()] they hold different arrays with the same elements, and a copied string
    is terminated. *)
Theorem C08_copy_is_another_array : forall s j k l t xs old, reachable s -> variable s j (MPtr l) -> array_at s l t xs -> small (length xs) -> variable s k old -> assignable s old -> k <> j ->
  exists s' l', exec (SAssign (EVar k) (ECopy (EVar j))) s = ROk tt s' /\ stk s' = replaced (stk s) k (MPtr l') /\ l' <> l /\
    array_at s' l' t xs /\ array_at s' l t xs /\ (t = HE TChar -> terminated s' l') /\
    forall m o, m <> l' -> nth_error (mem s') m = Some (Some o) -> nth_error (mem s) m = Some (Some o).
Proof.
  intros s j k l t xs old R V A Sm Vk As D. destruct (variable_array _ _ _ _ _ R V A) as (e & o & I & O & Vo & Ty & Sz & Lc & Ll & H). unfold small in Sm.
  destruct (copy_gives e [] s j l o) as (s1 & o' & E1 & I1 & M1 & St1 & Cp); auto; try (rewrite Sz; auto).
  set (l' := length (mem s)) in *. pose proof Cp as (C1 & C2 & C3 & C4 & C5 & C6). destruct (assignable_ok _ _ As) as [As1 As2].
  destruct (assign_var_gives e s (ECopy (EVar j)) (push_s (MPtr l') s1) (length (stk s)) [MPtr l'] (MPtr l') (MPtr l') k old) as (s' & E & I' & Sh); auto.
  - eapply eval_copy; eauto.
  - apply INV_push. auto.
  - simpl. rewrite St1. auto.
  - simpl. rewrite St1, nth_error_app2, Nat.sub_diag; auto.
  - reflexivity.
  - discriminate.
  - intros m a -> M. apply obj_live in M. simpl in M. rewrite M1 in M. assert (m < length (mem s)).
    { destruct (INV_sound _ _ _ I) as (_ & S & _). assert (Lv : live m s) by (apply (S (MPtr m)); [eapply nth_error_In; eauto|reflexivity]).
      apply live_obj in Lv as [b B]. apply obj_live in B. apply nth_error_Some. congruence. }
    rewrite nth_error_app1 in M by auto. apply (As2 m a); auto. apply obj_live. auto.
  - pose proof (ne_lt _ _ _ _ Vk) as Lk. pose proof Sh as (Sa & Sb & Sc). simpl in Sa.
    assert (Fr : forall m a, nth_error (mem s') m = Some (Some a) -> nth_error (mem s ++ [Some o']) m = Some (Some a)).
    { intros m a M. apply obj_live in M. apply Sc in M. apply obj_live in M. simpl in M. rewrite M1 in M. auto. }
    assert (Fs : forall m a, m <> l' -> nth_error (mem s') m = Some (Some a) -> nth_error (mem s) m = Some (Some a)).
    { intros m a N M. apply Fr in M. destruct (Nat.lt_ge_cases m (length (mem s))); [rewrite nth_error_app1 in M; auto|].
      rewrite nth_error_app2 in M by auto. destruct (m - length (mem s)) as [|[|q]] eqn:Q; try discriminate. unfold l' in N. lia. }
    assert (Rs : reachable s') by (eapply reachable_step; eauto). rewrite <- (replaced_sn _ _ k (MPtr l')) in Sa by auto.
    assert (Vk' : variable s' k (MPtr l')) by (unfold variable; rewrite Sa, replaced_nth, Nat.eqb_refl; auto).
    assert (Vj' : variable s' j (MPtr l)) by (unfold variable; rewrite Sa, replaced_nth by auto; destruct (Nat.eqb_spec j k); [congruence|auto]).
    assert (O' : obj l' s' = Some o').
    { eapply shrunk_obj; eauto; [simpl; rewrite <- replaced_sn, replaced_nth, Nat.eqb_refl; auto|reflexivity|].
      apply obj_live. simpl. rewrite M1, nth_error_app2, Nat.sub_diag; auto. }
    exists s', l'. split; auto. split; auto. split; [unfold l'; lia|]. split; [|split; [|split; auto]].
    + rewrite <- Ty, <- C1. apply list_array; auto; [congruence|]. intros q Q. rewrite (copied_val o o') by (auto; lia). auto.
    + eapply (kept_array s s' j); eauto. intros m a M ->. apply Fs; auto. unfold l'; lia.
    + intros X. eapply nul_terminated; [apply O'|]. rewrite C2. apply C6. rewrite Ty, X. reflexivity.
Qed.
(** Then no sequence of element operations through one name changes what the other one reads. *)
Theorem C08_copy_separates : forall s j k l t xs old, reachable s -> variable s j (MPtr l) -> array_at s l t xs -> small (length xs) -> variable s k old -> assignable s old -> k <> j ->
  exists s1 l', exec (SAssign (EVar k) (ECopy (EVar j))) s = ROk tt s1 /\ variable s1 j (MPtr l) /\ variable s1 k (MPtr l') /\ array_at s1 l t xs /\ array_at s1 l' t xs /\
    (forall sts s2 xs2, edits j l t s1 xs sts s2 xs2 -> run sts s1 = ROk tt s2 /\ holds_array s2 j t xs2 /\ holds_array s2 k t xs) /\
    (forall sts s2 xs2, edits k l' t s1 xs sts s2 xs2 -> run sts s1 = ROk tt s2 /\ holds_array s2 k t xs2 /\ holds_array s2 j t xs).
Proof.
  intros s j k l t xs old R V A Sm Vk As D. destruct (C08_copy_is_another_array s j k l t xs old) as (s1 & l' & E & St & N & A' & A1 & T & F); auto.
  exists s1, l'. split; auto. pose proof (ne_lt _ _ _ _ Vk) as Lk. assert (R1 : reachable s1) by (eapply reachable_step; eauto).
  assert (Vk' : variable s1 k (MPtr l')) by (unfold variable; rewrite St, replaced_nth, Nat.eqb_refl; auto).
  assert (Vj' : variable s1 j (MPtr l)) by (unfold variable; rewrite St, replaced_nth by auto; destruct (Nat.eqb_spec j k); [congruence|auto]).
  do 4 (split; auto). split; intros sts s2 xs2 Ed.
  - destruct (edits_frame _ _ _ _ _ _ _ _ Ed R1 Vj' A1) as (R2 & Rn & St2 & A2 & O2 & _). split; auto.
    split; [exists l|exists l']; (split; [unfold variable; rewrite St2; auto|]); auto. eapply (others_array l s1 s2 l' t xs k); eauto.
  - destruct (edits_frame _ _ _ _ _ _ _ _ Ed R1 Vk' A') as (R2 & Rn & St2 & A2 & O2 & _). split; auto.
    split; [exists l'|exists l]; (split; [unfold variable; rewrite St2; auto|]); auto. eapply (others_array l' s1 s2 l t xs j); eauto.
Qed.

(** * C09 *)
(** [var r = a\[i\]] makes a reference. *)
Theorem C09_index_makes_a_reference : forall s j l t xs i, reachable s -> variable s j (MPtr l) -> array_at s l t xs -> i < length xs ->
  exists s', exec (SDecl (EIdx (EVar j) (Z.of_nat i))) s = ROk tt s' /\ stk s' = stk s ++ [MRef l i] /\ mem s' = mem s.
Proof.
  intros s j l t xs i R V A Li. destruct (variable_array _ _ _ _ _ R V A) as (e & o & I & O & Vo & Ty & Sz & Lc & Ll & H).
  exists (push_s (MRef l i) (bump (MRef l i) s)). split; [|split; [unfold push_s; cbn [stk]; rewrite bump_stk; auto|reflexivity]].
  apply declare_gives; [reflexivity| |rewrite bump_stk; auto]. eapply (eval_index s j l o i); eauto using INV_sound; lia.
Qed.
(** After any sequence of element operations the reference is still there, and stands for the
    current element [i]: reading it gives that element, and assigning to it changes that
    element and nothing else. *)
Theorem C09_reference_reads_the_current_element : forall c l t s xs sts s' xs' r i k old v, reachable s -> variable s c (MPtr l) -> array_at s l t xs ->
  variable s r (MRef l i) -> edits c l t s xs sts s' xs' -> nth_error xs' i = Some v -> value v -> variable s' k old -> assignable s' old ->
  run sts s = ROk tt s' /\ variable s' r (MRef l i) /\ denotes s' (MRef l i) v /\
  exists s2, exec (SAssign (EVar k) (EVar r)) s' = ROk tt s2 /\ variable s2 k v.
Proof.
  intros c l t s xs sts s' xs' r i k old v R V A Vr Ed Nv Hv Vk As. destruct (edits_frame _ _ _ _ _ _ _ _ Ed R V A) as (R' & Rn & St & A' & O' & _).
  split; auto. split; [unfold variable; rewrite St; auto|]. pose proof (array_denotes _ _ _ _ _ _ A' Nv Hv) as D. split; auto.
  destruct (assign_operand s' k (EVar r) (MRef l i) v old) as (s2 & E2 & St2 & _); auto; [constructor; unfold variable; rewrite St; auto|].
  exists s2. split; auto. unfold variable. rewrite St2, replaced_nth, Nat.eqb_refl; auto. eapply ne_lt; eauto.
Qed.
Theorem C09_write_through_reference : forall c l t s xs sts s' xs' r i f x y z, reachable s -> variable s c (MPtr l) -> array_at s l t xs ->
  variable s r (MRef l i) -> edits c l t s xs sts s' xs' -> i < length xs' -> writable s' l t ->
  operand s' f x -> denotes s' x y -> stored t y z -> (holds_vars t -> x <> MRef l i) ->
  exists s2, exec (SAssign (EVar r) f) s' = ROk tt s2 /\ array_at s2 l t (replaced xs' i z) /\ only_array l s' s2 /\ (terminated s' l -> terminated s2 l).
Proof.
  intros c l t s xs sts s' xs' r i f x y z R V A Vr Ed Li W Of D Sd X. destruct (edits_frame _ _ _ _ _ _ _ _ Ed R V A) as (R' & Rn & St & A' & O' & _).
  assert (V' : variable s' c (MPtr l)) by (unfold variable; rewrite St; auto). assert (Vr' : variable s' r (MRef l i)) by (unfold variable; rewrite St; auto).
  destruct (variable_array _ _ _ _ _ R' V' A') as (e & o & I & O & Vo & Ty & Sz & Lc & Ll & H).
  destruct (exec_assign e s' (EVar r) f l i o x y z) as (s2 & E2 & I2 & B); auto.
  - constructor; auto.
  - eapply writable_ok; eauto. rewrite Ty; auto.
  - lia.
  - rewrite Ty. auto.
  - intros Q. apply X. rewrite <- Ty. apply holds_varlike_iff. auto.
  - exists s2. split; auto. destruct (set_val_alike o i z) as (A1 & A2 & A3 & A4 & A5). split; [|split; [eapply only_became; eauto|]].
    + rewrite replaced_sn by auto. rewrite <- Ty, <- A1. apply list_array; auto; [apply B|congruence|rewrite sn_length; congruence|].
      intros k K. rewrite sn_length in K. rewrite set_val_at by lia. rewrite H by auto. destruct (Nat.eqb_spec k i) as [->|Dk]; [rewrite sn_same; auto|rewrite sn_other; auto].
    + intros (o1 & k & O1 & N). apply obj_live in O1. assert (o1 = o) by congruence. subst o1. apply (nul_terminated s2 l (set_val o i z)); [apply B|].
      rewrite A2, set_val_at by lia. destruct (Nat.eqb_spec (h_size o) i); [lia|]. unfold val_at. rewrite N. reflexivity.
Qed.

(** * C10 *)
(** No array is larger than its storage, and a string has room for one more. *)
Theorem C10_size_within_capacity : forall s l o, reachable s -> nth_error (mem s) l = Some (Some o) -> small (h_size o) ->
  h_size o <= length (h_cells o) /\ (h_ty o = HE TChar -> h_size o < length (h_cells o)).
Proof.
  intros s l o R O Sm. pose proof (reachable_fits s R l o O) as F. unfold fits, room, small in *. specialize (F Sm). split; [lia|]. intros Ty. rewrite Ty in F. simpl in F. lia.
Qed.
(** A string constant is a terminated string. *)
Theorem C10_constant_is_terminated : forall s str, reachable s -> small (length str) ->
  exists s' l, exec (SDecl (EStr str)) s = ROk tt s' /\ stk s' = stk s ++ [MPtr l] /\ array_at s' l (HE TChar) (map (fun a => MNum (VChar a)) str) /\ terminated s' l /\
    mem s' = mem s ++ skipn (length (mem s)) (mem s').
Proof.
  intros s str R Sm. destruct (reachable_INV s R) as [e I]. destruct (string_gives e [] s str I Sm) as (o & E & I1 & Ty & Vo & Sz & Hv & Hn).
  set (l := length (mem s)) in *. exists (push_s (MPtr l) (new_st o s)), l. split; [|split; [reflexivity|split; [|split]]].
  - apply declare_gives; [reflexivity| |reflexivity]. change (eval (length (stk s)) (EStr str)) with (let! x := string_var str in temp x).
    rewrite (bind_ok _ _ _ _ _ _ _ E). reflexivity.
  - rewrite <- Ty. apply list_array; auto; [apply obj_live; simpl; unfold l; rewrite nth_error_app2, Nat.sub_diag; auto|rewrite map_length; auto|].
    intros q Q. rewrite map_length in Q. rewrite Hv, nth_error_map by auto. reflexivity.
  - apply (nul_terminated _ l o); [apply obj_live; simpl; unfold l; rewrite nth_error_app2, Nat.sub_diag; auto|]. rewrite Sz. auto.
  - simpl. unfold l. rewrite skipn_app, skipn_all, Nat.sub_diag. reflexivity.
Qed.
(** Any of the operations but an element write leaves a terminated string, whatever was there
    before; an element write leaves the terminator as it is. *)
Theorem C10_operation_terminates : forall s c l xs st P, reachable s -> variable s c (MPtr l) -> array_at s l (HE TChar) xs -> edit s c l (HE TChar) xs st P ->
  exists s' xs', exec st s = ROk tt s' /\ P xs' /\ array_at s' l (HE TChar) xs' /\
    ((forall e f, st <> SAssign e f) \/ terminated s l -> terminated s' l).
Proof.
  intros s c l xs st P R V A E. destruct (edit_works s c l _ xs st P R V A E) as (s' & xs' & E' & A' & P' & _ & _ & T & W). exists s', xs'. do 3 (split; auto).
  intros [N|N]; destruct (T eq_refl) as [Z|Z]; auto. destruct st; try contradiction. exfalso. eapply N; eauto.
Qed.
(** So a terminated string stays terminated. *)
Theorem C10_stays_terminated : forall c l s xs sts s' xs', reachable s -> variable s c (MPtr l) -> array_at s l (HE TChar) xs -> terminated s l ->
  edits c l (HE TChar) s xs sts s' xs' -> array_at s' l (HE TChar) xs' /\ terminated s' l.
Proof.
  intros c l s xs sts s' xs' R V A T Ed. destruct (edits_frame _ _ _ _ _ _ _ _ Ed R V A) as (_ & _ & _ & A' & _ & T'). auto.
Qed.
(** But a write through what [pop] returns puts another character where the terminator is. *)
Theorem C10_write_through_popped_breaks : forall s j l xs c a, reachable s -> variable s j (MPtr l) -> array_at s l (HE TChar) (xs ++ [c]) -> small (length xs) -> (0 < a < 128)%Z ->
  exists s1 s2, exec (SDecl (EPop (EVar j))) s = ROk tt s1 /\ exec (SAssign (EVar (length (stk s))) (ENum (VChar a))) s1 = ROk tt s2 /\
    array_at s1 l (HE TChar) xs /\ terminated s1 l /\ array_at s2 l (HE TChar) xs /\ ~ terminated s2 l /\ cells_begin s2 l (xs ++ [MNum (VChar a)]).
Proof.
  intros s j l xs c a R V A Sm Ha. destruct (C13_popped_is_a_reference s j l _ xs c R V A Sm) as (s1 & E1 & A1 & St1 & F1 & T1).
  assert (R1 : reachable s1) by (eapply reachable_step; eauto).
  assert (V1 : variable s1 j (MPtr l)) by (unfold variable; rewrite St1, nth_error_app1; auto; eapply ne_lt; eauto).
  destruct (variable_array _ _ _ _ _ R1 V1 A1) as (e & o & I & O & Vo & Ty & Sz & Lc & Ll & H).
  assert (Rm : length xs < length (h_cells o)).
  { apply obj_live in O. destruct (C10_size_within_capacity s1 l o R1 O) as [_ X]; [rewrite Sz; auto|]. specialize (X Ty). lia. }
  set (z := MNum (VChar a)). destruct (exec_assign e s1 (EVar (length (stk s))) (ENum (VChar a)) l (length xs) o z z z) as (s2 & E2 & I2 & B); auto.
  - constructor. unfold variable. rewrite St1, nth_error_app2, Nat.sub_diag; auto.
  - constructor. reflexivity.
  - eapply writable_ok; eauto. rewrite Ty. intros [X|X]; discriminate.
  - reflexivity.
  - rewrite Ty. exists (VChar a), (VChar a). repeat split.
  - rewrite Ty. discriminate.
  - destruct (set_val_alike o (length xs) z) as (A2 & A3 & A4 & A5 & A6). exists s1, s2. split; auto. split; auto. split; auto. split; auto.
    assert (Hv : forall q, q < length xs -> val_at (set_val o (length xs) z) q = nth_error xs q) by (intros q Q; rewrite set_val_at by lia; destruct (Nat.eqb_spec q (length xs)); [lia|auto]).
    assert (Hz : val_at (set_val o (length xs) z) (length xs) = Some z) by (rewrite set_val_at, Nat.eqb_refl by lia; auto).
    split; [rewrite <- Ty, <- A2; apply list_array; auto; [apply B|congruence|congruence]|]. split.
    + intros (o2 & k & O2 & N). apply obj_live in O2. destruct B as [_ B]. rewrite B in O2. injection O2 as <-. unfold val_at in Hz. rewrite A3, Sz in N. rewrite N in Hz. injection Hz as Hz. lia.
    + exists (set_val o (length xs) z). split; [apply obj_live, B|]. apply nth_ext. intros q. rewrite nth_firstn. destruct (Nat.ltb_spec q (length (xs ++ [z]))) as [Q|Q]; [|symmetry; apply nth_error_None; auto].
      rewrite app_length in Q. simpl in Q. rewrite nth_error_map. destruct (Nat.eq_dec q (length xs)) as [->|D].
      * rewrite nth_error_app2, Nat.sub_diag by auto. exact Hz.
      * rewrite nth_error_app1 by lia. apply Hv. lia.
Qed.

(** * Examples *)
Definition abc : list mvar := [MNum (VChar 97); MNum (VChar 98); MNum (VChar 99)].
Lemma two_abc : array_at s_two 0 (HE TChar) abc. Proof. found. Qed.
Lemma two_undefined : assignable s_two MNil. Proof. split; discriminate. Qed.
Lemma chars_writable : forall s l, writable s l (HE TChar). Proof. intros s l [X|X]; discriminate. Qed.
(** [y = x], [y\[1\] = 65] and then the same with a push: seen through [x]. *)
Example C08_shares_example : exists s1, exec (SAssign (EVar 2) (EVar 0)) s_two = ROk tt s1 /\
  (exists s2, exec (SAssign (EIdx (EVar 2) 1) (ENum (VInt 65))) s1 = ROk tt s2 /\ reads s2 0 1 (MNum (VChar 65)) /\ reads s2 2 1 (MNum (VChar 65))) /\
  (exists s2, exec (SPush (EVar 0) (ENum (VInt 65))) s1 = ROk tt s2 /\ reads s2 0 3 (MNum (VChar 65)) /\ reads s2 2 3 (MNum (VChar 65))).
Proof.
  destruct (C08_write_is_shared s_two 0 2 0 (HE TChar) abc MNil two_reached eq_refl two_abc eq_refl two_undefined) as (s1 & E & H).
  destruct (C08_push_is_shared s_two 0 2 0 (HE TChar) abc MNil two_reached eq_refl two_abc eq_refl two_undefined) as (s1' & E' & H').
  rewrite E in E'. injection E' as <-. exists s1. split; [exact E|]. split.
  - apply (H 2 1 (ENum (VInt 65)) (MNum (VInt 65)) (MNum (VInt 65))); auto using chars_writable; [simpl; lia|apply op_num; reflexivity|reflexivity|exists (VInt 65), (VChar 65); auto|intros [X|X]; discriminate].
  - apply (H' 0 (ENum (VInt 65)) (MNum (VInt 65)) (MNum (VInt 65))); auto using chars_writable; [reflexivity|apply op_num; reflexivity|reflexivity|exists (VInt 65), (VChar 65); auto].
Qed.
(** [y = x.copy()], then [x\[1\] = 65; x.pop();]: [y] is as it was. *)
Definition copied_two : list stmt := two ++ [SAssign (EVar 2) (ECopy (EVar 0))].
Example C08_declaration_example : variable s_two 0 (MPtr 0) /\
  exists s1 s2, exec (SDecl (EVar 0)) s_two = ROk tt s1 /\ stk s1 = stk s_two ++ [MPtr 0] /\ mem s1 = mem s_two /\
    nth 0 (rc s1) 0 = S (nth 0 (rc s_two) 0) /\
    exec (SAssign (EIdx (EVar (length (stk s_two))) 1) (ENum (VInt 65))) s1 = ROk tt s2 /\ mem s2 <> mem s1 /\ stk s2 = stk s1.
Proof. split; [reflexivity|]. eexists. eexists. split; [reflexivity|]. split; [reflexivity|]. split; [reflexivity|]. split; [reflexivity|]. split; [vm_compute; reflexivity|]. split; [discriminate|reflexivity]. Qed.
Definition s_copied : state := Eval vm_compute in after copied_two.
Definition s_copied1 : state := Eval vm_compute in after (copied_two ++ [SAssign (EIdx (EVar 0) 1) (ENum (VInt 65))]).
Definition s_copied2 : state := Eval vm_compute in after (copied_two ++ [SAssign (EIdx (EVar 0) 1) (ENum (VInt 65)); SEval (EPop (EVar 0))]).
Lemma copied_edits : edits 0 0 (HE TChar) s_copied abc [SAssign (EIdx (EVar 0) 1) (ENum (VInt 65)); SEval (EPop (EVar 0))] s_copied2 [MNum (VChar 97); MNum (VChar 65)].
Proof.
  eapply (eds_cons 0 0 (HE TChar) s_copied abc _ _ s_copied1 [MNum (VChar 97); MNum (VChar 65); MNum (VChar 99)]).
  - apply (ed_write s_copied 0 0 (HE TChar) abc 1 (ENum (VInt 65)) (MNum (VInt 65)) (MNum (VInt 65)) (MNum (VChar 65))); [apply chars_writable|simpl; lia|apply op_num; reflexivity|reflexivity|exists (VInt 65), (VChar 65); auto|intros [X|X]; discriminate].
  - vm_compute. reflexivity.
  - found.
  - reflexivity.
  - eapply (eds_cons 0 0 (HE TChar) s_copied1 _ _ _ s_copied2 [MNum (VChar 97); MNum (VChar 65)]).
    + apply (ed_pop s_copied1 0 0 (HE TChar) _ [MNum (VChar 97); MNum (VChar 65)] (MNum (VChar 99))); reflexivity.
    + vm_compute. reflexivity.
    + found.
    + reflexivity.
    + constructor.
Qed.
Example C08_separates_example : exists s2, run [SAssign (EIdx (EVar 0) 1) (ENum (VInt 65)); SEval (EPop (EVar 0))] s_copied = ROk tt s2 /\
  holds_array s2 0 (HE TChar) [MNum (VChar 97); MNum (VChar 65)] /\ holds_array s2 2 (HE TChar) abc.
Proof.
  destruct (C08_copy_separates s_two 0 2 0 (HE TChar) abc MNil two_reached eq_refl two_abc eq_refl eq_refl two_undefined ltac:(discriminate)) as (s1 & l' & E & _ & _ & _ & _ & H & _).
  - assert (X : exec (SAssign (EVar 2) (ECopy (EVar 0))) s_two = ROk tt s_copied) by (vm_compute; reflexivity). rewrite X in E. injection E as <-.
    exists s_copied2. apply (H _ _ _ copied_edits).
Qed.
(** [var r = x\[1\]], twenty characters pushed so that the storage moves, then [r] read and
    written. *)
Definition referred : list stmt := [SDecl (EStr [97; 98; 99]%Z); SDecl (EIdx (EVar 0) 1); SDecl ENil].
Definition s_referred : state := Eval vm_compute in after referred.
Definition grow : list stmt := [SResize (EVar 0) (Z.of_nat 20); SAssign (EIdx (EVar 0) (Z.of_nat 1)) (ENum (VChar 66))].
Definition s_grown1 : state := Eval vm_compute in after (referred ++ firstn 1 grow).
Definition s_grown : state := Eval vm_compute in after (referred ++ grow).
Definition elems (s : state) (l n : nat) : list mvar := match nth_error (mem s) l with Some (Some o) => firstn n (map snd (h_cells o)) | _ => [] end.
Definition xs_grown1 : list mvar := Eval vm_compute in elems s_grown1 0 20.
Definition xs_grown : list mvar := Eval vm_compute in elems s_grown 0 20.
Lemma grow_edits : edits 0 0 (HE TChar) s_referred abc grow s_grown xs_grown.
Proof.
  unfold grow. eapply (eds_cons 0 0 (HE TChar) s_referred abc _ _ s_grown1 xs_grown1).
  - apply (ed_resize s_referred 0 0 (HE TChar) abc 20). reflexivity.
  - vm_compute. reflexivity.
  - found.
  - split; reflexivity.
  - eapply (eds_cons 0 0 (HE TChar) s_grown1 xs_grown1 _ _ s_grown xs_grown).
    + apply (ed_write s_grown1 0 0 (HE TChar) xs_grown1 1 (ENum (VChar 66)) (MNum (VChar 66)) (MNum (VChar 66)) (MNum (VChar 66))); [apply chars_writable|simpl; lia|apply op_num; reflexivity|reflexivity|exists (VChar 66), (VChar 66); auto|intros [X|X]; discriminate].
    + vm_compute. reflexivity.
    + found.
    + reflexivity.
    + constructor.
Qed.
Lemma referred_reached : reachable s_referred. Proof. exists referred. vm_compute. reflexivity. Qed.
Lemma referred_abc : array_at s_referred 0 (HE TChar) abc. Proof. found. Qed.
Example C09_example :
  (run grow s_referred = ROk tt s_grown /\ variable s_grown 1 (MRef 0 1) /\ denotes s_grown (MRef 0 1) (MNum (VChar 66)) /\
   exists s2, exec (SAssign (EVar 2) (EVar 1)) s_grown = ROk tt s2 /\ variable s2 2 (MNum (VChar 66))) /\
  exists s2, exec (SAssign (EVar 1) (ENum (VInt 70))) s_grown = ROk tt s2 /\ array_at s2 0 (HE TChar) (replaced xs_grown 1 (MNum (VChar 70))) /\
    only_array 0 s_grown s2 /\ (terminated s_grown 0 -> terminated s2 0).
Proof.
  split.
  - apply (C09_reference_reads_the_current_element 0 0 (HE TChar) s_referred abc grow s_grown xs_grown 1 1 2 MNil (MNum (VChar 66)) referred_reached eq_refl referred_abc eq_refl grow_edits eq_refl);
      [split; discriminate|reflexivity|split; discriminate].
  - apply (C09_write_through_reference 0 0 (HE TChar) s_referred abc grow s_grown xs_grown 1 1 (ENum (VInt 70)) (MNum (VInt 70)) (MNum (VInt 70)) (MNum (VChar 70)) referred_reached eq_refl referred_abc eq_refl grow_edits);
      [simpl; lia|apply chars_writable|apply op_num; reflexivity|reflexivity|exists (VInt 70), (VChar 70); auto|intros [X|X]; discriminate].
Qed.
Example C09_makes_example : exists s', exec (SDecl (EIdx (EVar 0) 1)) s_two = ROk tt s' /\ stk s' = stk s_two ++ [MRef 0 1] /\ mem s' = mem s_two.
Proof. apply (C09_index_makes_a_reference s_two 0 0 (HE TChar) abc 1 two_reached eq_refl two_abc). simpl; lia. Qed.
(** The string of the last example is terminated, and twenty characters fit its storage. *)
Example C10_example : terminated s_grown 0 /\ (exists o, nth_error (mem s_grown) 0 = Some (Some o) /\ h_size o = 20 /\ h_size o < length (h_cells o)) /\
  exists s1 s2, exec (SDecl (EPop (EVar 0))) s_two = ROk tt s1 /\ exec (SAssign (EVar 3) (ENum (VChar 90))) s1 = ROk tt s2 /\
    array_at s1 0 (HE TChar) [MNum (VChar 97); MNum (VChar 98)] /\ terminated s1 0 /\ array_at s2 0 (HE TChar) [MNum (VChar 97); MNum (VChar 98)] /\ ~ terminated s2 0 /\
    cells_begin s2 0 ([MNum (VChar 97); MNum (VChar 98)] ++ [MNum (VChar 90)]).
Proof.
  split; [|split].
  - apply (C10_stays_terminated 0 0 s_referred abc grow s_grown xs_grown referred_reached eq_refl referred_abc); [|exact grow_edits].
    eexists. eexists. split; vm_compute; reflexivity.
  - eexists. split; [vm_compute; reflexivity|]. split; [reflexivity|].
    refine (proj2 (C10_size_within_capacity s_grown 0 _ _ _ _) _); [exists (referred ++ grow); vm_compute; reflexivity|vm_compute; reflexivity|reflexivity|reflexivity].
  - apply (C10_write_through_popped_breaks s_two 0 0 [MNum (VChar 97); MNum (VChar 98)] (MNum (VChar 99)) 90 two_reached eq_refl two_abc); [reflexivity|lia].
Qed.
Example C10_constant_example : exists s' l, exec (SDecl (EStr [72; 105]%Z)) s_two = ROk tt s' /\ stk s' = stk s_two ++ [MPtr l] /\
  array_at s' l (HE TChar) [MNum (VChar 72); MNum (VChar 105)] /\ terminated s' l /\ mem s' = mem s_two ++ skipn (length (mem s_two)) (mem s').
Proof. apply (C10_constant_is_terminated s_two [72; 105]%Z two_reached). reflexivity. Qed.
Example C10_operation_example : exists s' xs', exec (SAppendStr (EVar 0) [33]%Z) s_two = ROk tt s' /\ abc ++ [MNum (VChar 33)] = xs' /\ array_at s' 0 (HE TChar) xs' /\
  ((forall e f, SAppendStr (EVar 0) [33]%Z <> SAssign e f) \/ terminated s_two 0 -> terminated s' 0).
Proof. apply (C10_operation_terminates s_two 0 0 abc (SAppendStr (EVar 0) [33]%Z) _ two_reached eq_refl two_abc). apply ed_append_str; reflexivity. Qed.
