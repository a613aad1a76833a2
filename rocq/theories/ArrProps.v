(** Properties of the array methods: C04, C08 to C18. *)
From Coq Require Import ZArith Bool List String Lia.
From Verif Require Import Base StrModel ValModel NumModel AllocModel AllocProof MemModel MemProof MemFun MemEq MemDeref MemTriple MemOps MemArr MemMore MemKey MemElem MemMeth MemList MemRun MemFits ArrSpec MemArrays MemCopy MemThrow MemSelf ArrFacts.
Import ListNotations.
Local Open Scope list_scope.
Local Open Scope mem_scope.
Local Notation length := List.length.

(** For the examples: the state after a program. *)
Definition after (p : list stmt) : state := match run p start with ROk _ s => s | _ => start end.
Ltac found := eexists; vm_compute; repeat split; reflexivity.
(** A string and an array of two vars: a string and a number. *)
Definition two : list stmt :=
  [SDecl (EStr [97; 98; 99]%Z); SDecl ENil; SPush (EVar 1) (EVar 0); SPush (EVar 1) (ENum (VInt 7)); SDecl ENil].
Definition s_two : state := Eval vm_compute in after two.
Lemma two_reached : reachable s_two.
Proof. exists two. vm_compute. reflexivity. Qed.

(** * C04 *)
Theorem C04_resize_keeps_prefix : forall s j l t xs n, reachable s -> variable s j (MPtr l) -> array_at s l t xs -> small n ->
  exists s' xs', exec (SResize (EVar j) (Z.of_nat n)) s = ROk tt s' /\ array_at s' l t xs' /\ length xs' = n /\
    firstn (Nat.min (length xs) n) xs' = firstn (Nat.min (length xs) n) xs /\ only_array l s s' /\ (t = HE TChar -> terminated s' l).
Proof.
  intros s j l t xs n R V A Sm. destruct (variable_array _ _ _ _ _ R V A) as (e & o & I & O & Vo & Ty & Sz & Lc & Ll & H).
  destruct (exec_resize e s j l n o I V O Sm) as (s' & o' & E & I' & B & G).
  destruct (grown_array s l o o' s' xs n O Vo Sz Lc H G (proj2 B)) as (xs' & A' & Ln & F).
  exists s', xs'. rewrite Ty in A'. split; auto. split; auto. split; auto. split; auto. split; [eapply only_became; eauto|].
  intros X. eapply grown_terminated; eauto; [rewrite Ty, X; reflexivity|apply B].
Qed.
(** In a map the entries below both sizes are kept. *)
Theorem C04_resize_keeps_entries : forall s j l kvs n, reachable s -> variable s j (MPtr l) -> map_at s l kvs -> small n ->
  exists s' kvs', exec (SResize (EVar j) (Z.of_nat n)) s = ROk tt s' /\ map_at s' l kvs' /\ length kvs' = n /\
    firstn (Nat.min (length kvs) n) kvs' = firstn (Nat.min (length kvs) n) kvs /\ only_array l s s'.
Proof.
  intros s j l kvs n R V (o & O & Vo & Ty & Sz & H) Sm. destruct (reachable_INV s R) as [e I].
  assert (Lc : length kvs <= length (h_cells o)) by (rewrite <- H, firstn_length; lia).
  destruct (exec_resize e s j l n o I V (proj2 (obj_live _ _ _) O) Sm) as (s' & o' & E & I' & B & G). pose proof G as (T' & V' & S' & C' & k & Ek).
  exists s', (firstn n (h_cells o')). rewrite firstn_length. rewrite Nat.min_l by lia.
  split; auto. split; [|split; [auto|split]].
  - exists o'. split; [apply obj_live, B|]. rewrite firstn_length, Nat.min_l by lia. repeat split; congruence.
  - rewrite <- H. apply nth_ext. intros q. rewrite !nth_firstn. rewrite firstn_length. destruct (Nat.ltb_spec q (Nat.min (Nat.min (length kvs) (length (h_cells o))) n)); auto.
    destruct (Nat.ltb_spec q n); [|lia]. destruct (Nat.ltb_spec q (length kvs)); [|lia]. rewrite Ek, Ty. change (terminate HPair n ?x) with x.
    rewrite nth_error_app1; auto. lia.
  - eapply only_became; eauto. apply nth_error_Some. congruence.
Qed.
Example C04_example : exists s' xs', exec (SResize (EVar 0) 20) s_two = ROk tt s' /\ array_at s' 0 (HE TChar) xs' /\ length xs' = 20 /\
  firstn 3 xs' = [MNum (VChar 97); MNum (VChar 98); MNum (VChar 99)].
Proof.
  destruct (C04_resize_keeps_prefix s_two 0 0 (HE TChar) [MNum (VChar 97); MNum (VChar 98); MNum (VChar 99)] 20) as (s' & xs' & A & B & C & D & _).
  - exact two_reached.
  - reflexivity.
  - found.
  - reflexivity.
  - exists s', xs'. auto.
Qed.

(** * C11 *)
Theorem C11_element_assignment : forall s j l t xs i f x y z, reachable s -> variable s j (MPtr l) -> array_at s l t xs -> writable s l t -> i < length xs ->
  operand s f x -> denotes s x y -> stored t y z -> (holds_vars t -> x <> MRef l i) ->
  exists s', exec (SAssign (EIdx (EVar j) (Z.of_nat i)) f) s = ROk tt s' /\
    array_at s' l t (replaced xs i z) /\ only_array l s s' /\ (terminated s l -> terminated s' l).
Proof.
  intros s j l t xs i f x y z R V A W Li Op D St Ne. destruct (variable_array _ _ _ _ _ R V A) as (e & o & I & O & Vo & Ty & Sz & Lc & Ll & H).
  assert (Oi : operand s (EIdx (EVar j) (Z.of_nat i)) (MRef l i)) by (rewrite <- (Nat2Z.id i) at 2; eapply op_idx; eauto; lia).
  destruct (exec_assign e s (EIdx (EVar j) (Z.of_nat i)) f l i o x y z) as (s' & E & I' & B); auto; try congruence; try lia.
  - eapply writable_ok; eauto. rewrite Ty; auto.
  - intros Vl. apply Ne. rewrite <- Ty. apply holds_varlike_iff; auto.
  - exists s'. split; auto. destruct (set_val_alike o i z) as (A1 & A2 & A3 & A4 & A5). split; [|split; [eapply only_became; eauto|]].
    2:{ intros (o1 & k & O1 & N). apply obj_live in O1. assert (o1 = o) by congruence. subst o1. apply (nul_terminated s' l (set_val o i z)); [apply B|].
        rewrite A2, set_val_at by lia. destruct (Nat.eqb_spec (h_size o) i); [lia|]. unfold val_at. rewrite N. reflexivity. }
    rewrite replaced_sn by auto. rewrite <- Ty, <- A1. apply list_array; auto; [apply B|congruence|rewrite sn_length; congruence|].
    intros k K. rewrite sn_length in K. rewrite set_val_at by lia. rewrite H by auto. destruct (Nat.eqb_spec k i) as [->|Dk]; [rewrite sn_same; auto|rewrite sn_other; auto].
Qed.
(** [b[0] = 5] and [a[1] = 66] with a conversion, on the array of vars and the string. *)
Lemma two_writable : writable s_two 1 (HE TVar).
Proof.
  intros _ o c O. vm_compute in O. injection O as <-. intros C. repeat destruct C as [<-|C]; try contradiction; split; try discriminate;
    intros k o' E O'; try discriminate; simpl in E; injection E as <-; vm_compute in O'; injection O' as <-; reflexivity.
Qed.
Example C11_example : exists s', exec (SAssign (EIdx (EVar 1) 0) (EAt (EVar 1) 1)) s_two = ROk tt s' /\ array_at s' 1 (HE TVar) [MNum (VInt 7); MNum (VInt 7)] /\ only_array 1 s_two s' /\ (terminated s_two 1 -> terminated s' 1).
Proof.
  apply (C11_element_assignment s_two 1 1 (HE TVar) [MPtr 0; MNum (VInt 7)] 0 (EAt (EVar 1) 1) (MRef 1 1) (MNum (VInt 7)) (MNum (VInt 7))); try reflexivity.
  - exact two_reached.
  - found.
  - apply two_writable.
  - simpl; auto.
  - apply (op_at s_two 1 1 1); [reflexivity|discriminate].
  - eexists. exists MNil. vm_compute. repeat split; auto; discriminate.
  - discriminate.
Qed.
Example C11_converts : exists s', exec (SAssign (EIdx (EVar 0) 1) (ENum (VInt 65))) s_two = ROk tt s' /\
  array_at s' 0 (HE TChar) [MNum (VChar 97); MNum (VChar 65); MNum (VChar 99)] /\ only_array 0 s_two s' /\ (terminated s_two 0 -> terminated s' 0).
Proof.
  apply (C11_element_assignment s_two 0 0 (HE TChar) [MNum (VChar 97); MNum (VChar 98); MNum (VChar 99)] 1 (ENum (VInt 65)) (MNum (VInt 65)) (MNum (VInt 65)) (MNum (VChar 65))); try reflexivity.
  - exact two_reached.
  - found.
  - intros [X|X]; discriminate.
  - simpl; auto.
  - apply op_num. reflexivity.
  - exists (VInt 65), (VChar 65). auto.
  - intros [X|X]; discriminate.
Qed.

(** * C12 *)
Theorem C12_push_appends : forall s j l t xs f x y z, reachable s -> variable s j (MPtr l) -> array_at s l t xs -> writable s l t -> small (S (length xs)) ->
  operand s f x -> denotes s x y -> stored t y z ->
  exists s', exec (SPush (EVar j) f) s = ROk tt s' /\ array_at s' l t (xs ++ [z]) /\ only_array l s s' /\ (t = HE TChar -> terminated s' l).
Proof.
  intros s j l t xs f x y z R V A W Sm Op D St. destruct (variable_array _ _ _ _ _ R V A) as (e & o & I & O & Vo & Ty & Sz & Lc & Ll & H). unfold small in Sm.
  destruct (exec_two (SPush (EVar j) f) push j f e s l x (pushed o (length xs) z)) as (e' & s' & o' & E & I' & B & P); auto.
  - intros s1 q I1 T1 N1. destruct (push_gives e s1 j q l o x y z) as (s2 & o2 & E2 & I2 & B2 & P2); auto; try lia.
    + eapply temps_slot; eauto.
    + rewrite (temps_obj _ _ _ T1); auto.
    + eapply temps_okcells; eauto. eapply writable_ok; eauto. rewrite Ty; auto.
    + eapply temps_denotes; eauto.
    + congruence.
    + exists e, s2, o2. rewrite Sz in P2. auto.
  - destruct (pushed_array s' l o o' z xs (proj2 B) Vo Sz Lc H P) as [X N]. exists s'. split; auto. split; [rewrite <- Ty; auto|]. split; [eapply only_became; eauto|].
    intros C. eapply nul_terminated; [apply B|]. apply N. rewrite Ty, C. reflexivity.
Qed.
Lemma upd_stk : forall j w ms s s', shrunk (upd j w ms s) s' -> j < length (stk s) -> stk s' = replaced (stk s) j w.
Proof. intros j w ms s s' (A & _) L. rewrite replaced_sn by auto. auto. Qed.
Theorem C12_push_scalar_on_undefined : forall s j f x y, reachable s -> variable s j MNil -> operand s f x -> denotes s x y ->
  (exists v, y = MNum v) ->
  exists s', exec (SPush (EVar j) f) s = ROk tt s' /\ stk s' = replaced (stk s) j y /\
    forall k o, nth_error (mem s') k = Some (Some o) -> nth_error (mem s) k = Some (Some o).
Proof.
  intros s j f x y R V Op D (v & ->). pose proof (reachable_proper _ _ _ R D) as P. pose proof (reachable_number _ _ _ _ R Op D) as Nv. destruct (reachable_INV s R) as [e I].
  destruct (push_nil_scalar e s j f x (MNum v)) as (s' & E & I' & Sh); auto.
  - apply proper_exact; auto.
  - simpl. destruct v; simpl in *; try discriminate.
  - exists s'. split; auto. split; [eapply upd_stk; eauto; eapply ne_lt; eauto|]. intros k o O. apply obj_live in O. apply obj_live.
    apply Sh in O. unfold upd in O. apply obj_live in O. simpl in O. rewrite app_nil_r in O. apply obj_live. auto.
Qed.
Theorem C12_push_array_on_undefined : forall s j f x y, reachable s -> variable s j MNil -> operand s f x -> denotes s x y ->
  (exists k, y = MPtr k) ->
  exists s', exec (SPush (EVar j) f) s = ROk tt s' /\ stk s' = replaced (stk s) j (MPtr (length (mem s))) /\ array_at s' (length (mem s)) (HE TVar) [y] /\
    forall k o, k < length (mem s) -> nth_error (mem s') k = Some (Some o) -> nth_error (mem s) k = Some (Some o).
Proof.
  intros s j f x y R V Op D (m & ->). pose proof (reachable_proper _ _ _ R D) as P. destruct (reachable_INV s R) as [e I].
  destruct (push_nil_array e s j f x (MPtr m)) as (s' & o' & E & I' & Sh & Ty & Sz & Vo & Vl); auto.
  - apply proper_exact; auto.
  - assert (Lj : j < length (stk s)) by (eapply ne_lt; eauto). exists s'. split; auto. split; [eapply upd_stk; eauto|]. split.
    + rewrite <- Ty. apply list_array; auto.
      * assert (On : obj (length (mem s)) (upd j (MPtr (length (mem s))) [Some o'] s) = Some o') by (apply obj_live; simpl; rewrite nth_error_app2, Nat.sub_diag; auto).
        apply (shrunk_obj e [] _ s' j (MPtr (length (mem s))) (length (mem s)) o' Sh I'); auto.
        simpl. rewrite sn_same; auto.
      * intros k K. simpl in K. assert (k = 0) by lia. subst. auto.
    + intros k o K O. apply obj_live in O. apply Sh in O. apply obj_live in O. simpl in O. rewrite nth_error_app1 in O; auto.
Qed.
Theorem C12_push_on_other_scalar_throws : forall s j v f x y, reachable s -> variable s j (MNum v) -> operand s f x -> denotes s x y ->
  (forall u, y = MNum u -> ety_of u <> ety_of v) ->
  exec (SPush (EVar j) f) s = RThrow "push(): Incompatible types" s.
Proof.
  intros s j v f x y R V Op D Ne. pose proof (reachable_proper _ _ _ R D) as P. pose proof (reachable_variable _ _ _ R V) as Nv. destruct (reachable_INV s R) as [e I]. eapply push_throws; eauto.
  - apply proper_exact; auto.
  - destruct y as [|u| | | |]; simpl; try (destruct v; simpl in *; discriminate). specialize (Ne u eq_refl). destruct u, v; simpl in *; try discriminate; congruence.
Qed.
Example C12_example : exists s', exec (SPush (EVar 1) (EIdx (EVar 0) 2)) s_two = ROk tt s' /\ array_at s' 1 (HE TVar) ([MPtr 0; MNum (VInt 7)] ++ [MNum (VChar 99)]) /\ only_array 1 s_two s' /\ (HE TVar = HE TChar -> terminated s' 1).
Proof.
  apply (C12_push_appends s_two 1 1 (HE TVar) [MPtr 0; MNum (VInt 7)] (EIdx (EVar 0) 2) (MRef 0 2) (MNum (VChar 99)) (MNum (VChar 99))); try reflexivity.
  - exact two_reached.
  - found.
  - apply two_writable.
  - apply (op_idx s_two 0 0 (HE TChar) [MNum (VChar 97); MNum (VChar 98); MNum (VChar 99)] 2); [reflexivity|found|split; [discriminate|reflexivity]].
  - eexists. exists MNil. vm_compute. repeat split; auto; discriminate.
Qed.
(** Variable 2 is undefined, and variable 0 is a string: pushing an element of the string makes
    it a char, pushing the string an array. *)
Example C12_undefined_example : (exists s', exec (SPush (EVar 2) (EIdx (EVar 0) 1)) s_two = ROk tt s' /\ variable s' 2 (MNum (VChar 98))) /\
  (exists s', exec (SPush (EVar 2) (EVar 0)) s_two = ROk tt s' /\ variable s' 2 (MPtr 2) /\ array_at s' 2 (HE TVar) [MPtr 0]).
Proof.
  split.
  - destruct (C12_push_scalar_on_undefined s_two 2 (EIdx (EVar 0) 1) (MRef 0 1) (MNum (VChar 98))) as (s' & E & St & _); try reflexivity.
    + exact two_reached.
    + apply (op_idx s_two 0 0 (HE TChar) [MNum (VChar 97); MNum (VChar 98); MNum (VChar 99)] 1); [reflexivity|found|split; [discriminate|reflexivity]].
    + eexists. exists MNil. vm_compute. repeat split; auto; discriminate.
    + eauto.
    + exists s'. split; auto. unfold variable. rewrite St. reflexivity.
  - destruct (C12_push_array_on_undefined s_two 2 (EVar 0) (MPtr 0) (MPtr 0)) as (s' & E & St & A & _); try reflexivity.
    + exact two_reached.
    + apply op_var. reflexivity.
    + eauto.
    + exists s'. split; auto. split; auto. unfold variable. rewrite St. reflexivity.
Qed.
Definition s_num : state := Eval vm_compute in after [SDecl (ENum (VInt 3)); SDecl (EStr [97]%Z)].
Example C12_throw_example : exec (SPush (EVar 0) (EVar 1)) s_num = RThrow "push(): Incompatible types" s_num.
Proof.
  apply (C12_push_on_other_scalar_throws s_num 0 (VInt 3) (EVar 1) (MPtr 0) (MPtr 0)); try reflexivity.
  - exists [SDecl (ENum (VInt 3)); SDecl (EStr [97]%Z)]. reflexivity.
  - apply op_var. reflexivity.
  - discriminate.
Qed.

(** * C13 *)
Definition frame (l : nat) (s s' : state) : Prop := forall k o, k <> l -> nth_error (mem s') k = Some (Some o) -> nth_error (mem s) k = Some (Some o).
Lemma pop_arr : forall s j l t xs y k old w, reachable s -> variable s j (MPtr l) -> array_at s l t (xs ++ [y]) -> variable s k old -> k <> j -> assignable s old -> small (length xs) ->
  (if is_char t then w = NUL else w = y /\ value y) ->
  exists s', exec (SAssign (EVar k) (EPop (EVar j))) s = ROk tt s' /\ array_at s' l t xs /\ stk s' = replaced (stk s) k w /\ frame l s s' /\ (t = HE TChar -> terminated s' l).
Proof.
  intros s j l t xs y k old w R V A Vk D As Sm Hw. destruct (variable_array _ _ _ _ _ R V A) as (e & o & I & O & Vo & Ty & Sz & Lc & Ll & H).
  rewrite app_length in *. simpl in *. destruct (assignable_ok _ _ As) as [As1 As2].
  destruct (exec_pop e s j k l (length xs) o w old) as (s' & o' & E & I' & G & O' & St & Fr); auto; try lia.
  - rewrite Ty. destruct (is_char t); auto. destruct Hw as [-> [H1 H2]]. split; auto. rewrite H by lia. rewrite nth_error_app2, Nat.sub_diag; auto.
  - exists s'. split; auto. split; [|split].
    + pose proof G as (T' & V' & S' & C' & _). rewrite <- Ty, <- T'. apply list_array; auto; [congruence|].
      intros q Q. rewrite (grown_val _ _ _ q G) by lia. rewrite H by lia. rewrite nth_error_app1; auto.
    + rewrite replaced_sn; auto. eapply ne_lt; eauto.
    + split; [intros m a X M; apply obj_live in M; apply obj_live; eauto|]. intros C. eapply grown_terminated; eauto. rewrite Ty, C. reflexivity.
Qed.
Theorem C13_pop_takes_last : forall s j l t xs y k old, reachable s -> variable s j (MPtr l) -> array_at s l t (xs ++ [y]) -> t <> HE TChar -> value y ->
  variable s k old -> k <> j -> assignable s old -> small (length xs) ->
  exists s', exec (SAssign (EVar k) (EPop (EVar j))) s = ROk tt s' /\ array_at s' l t xs /\ stk s' = replaced (stk s) k y /\ frame l s s'.
Proof.
  intros. destruct (pop_arr s j l t xs y k old y) as (s' & E & A & St & Fr & _); auto; [|eauto 6].
  destruct (is_char t) eqn:C; auto. destruct t as [[]|]; simpl in C; try discriminate. congruence.
Qed.
Theorem C13_pop_of_string_gives_nul : forall s j l xs c k old, reachable s -> variable s j (MPtr l) -> array_at s l (HE TChar) (xs ++ [c]) ->
  variable s k old -> k <> j -> assignable s old -> small (length xs) ->
  exists s', exec (SAssign (EVar k) (EPop (EVar j))) s = ROk tt s' /\ array_at s' l (HE TChar) xs /\ stk s' = replaced (stk s) k (MNum (VChar 0)) /\ frame l s s' /\ terminated s' l.
Proof. intros. destruct (pop_arr s j l (HE TChar) xs c k old NUL) as (s' & E & A & St & Fr & Tm); auto; [reflexivity|eauto 7]. Qed.
(** What [pop] returns is a reference: [var r = a.pop();] leaves a reference to the place behind
    the last element, and after another push reads what was pushed. *)
Theorem C13_popped_is_a_reference : forall s j l t xs y, reachable s -> variable s j (MPtr l) -> array_at s l t (xs ++ [y]) -> small (length xs) ->
  exists s', exec (SDecl (EPop (EVar j))) s = ROk tt s' /\ array_at s' l t xs /\ stk s' = stk s ++ [MRef l (length xs)] /\ frame l s s' /\ (t = HE TChar -> terminated s' l).
Proof.
  intros s j l t xs y R V A Sm. destruct (variable_array _ _ _ _ _ R V A) as (e & o & I & O & Vo & Ty & Sz & Lc & Ll & H).
  rewrite app_length in *. simpl in *.
  destruct (pop_gives e s j l (length xs) o I V O Vo) as (s1 & o' & E1 & Es1 & I1 & G); auto; [lia|]. assert (St : stk s1 = stk s) by (rewrite Es1, bump_stk; reflexivity).
  assert (Ob : forall m, obj m s1 = if Nat.eqb l m then Some o' else obj m s) by (intros m; rewrite Es1, obj_bump, obj_set_mem; auto).
  exists (push_s (MRef l (length xs)) s1). split; [|split; [|split]].
  - apply declare_gives; auto. eapply eval_pop; eauto.
  - pose proof G as (T' & V' & S' & C' & _). rewrite <- Ty, <- T'. apply list_array; auto; [rewrite obj_push, Ob, Nat.eqb_refl; auto|congruence|].
    intros q Q. rewrite (grown_val _ _ _ q G) by lia. rewrite H by lia. rewrite nth_error_app1; auto.
  - simpl. congruence.
  - split; [intros m a X M; apply obj_live in M; apply obj_live; rewrite obj_push, Ob in M; destruct (Nat.eqb_spec l m); congruence|].
    intros C. eapply grown_terminated; eauto; [rewrite Ty, C; reflexivity|rewrite obj_push, Ob, Nat.eqb_refl; auto].
Qed.
Lemma array_denotes : forall s l t xs i z, array_at s l t xs -> nth_error xs i = Some z -> value z -> denotes s (MRef l i) z.
Proof.
  intros s l t xs i z A N [V1 V2]. destruct (array_obj _ _ _ _ A) as (o & O & Vo & Ty & Sz & Lc & H). pose proof (ne_lt _ _ _ _ N) as Li.
  pose proof (H i Li) as E. rewrite N in E. unfold val_at in E. destruct (nth_error (h_cells o) i) as [[k v]|] eqn:Ec; [|discriminate]. simpl in E. injection E as ->.
  exists o, k. split; [apply obj_live; auto|]. rewrite Sz. auto.
Qed.
Theorem C13_popped_reads_the_next_push : forall s j r l t xs f x v z, reachable s -> variable s j (MPtr l) -> variable s r (MRef l (length xs)) -> array_at s l t xs ->
  writable s l t -> small (S (length xs)) -> operand s f x -> denotes s x v -> stored t v z -> value z ->
  exists s', exec (SPush (EVar j) f) s = ROk tt s' /\ variable s' r (MRef l (length xs)) /\ denotes s' (MRef l (length xs)) z.
Proof.
  intros s j r l t xs f x v z R V Vr A W Sm Op D St Vz. destruct (C12_push_appends s j l t xs f x v z R V A W Sm Op D St) as (s' & E & A' & [Fr _] & _).
  exists s'. split; auto. unfold variable. rewrite Fr. split; auto. eapply array_denotes; eauto. rewrite nth_error_app2, Nat.sub_diag; auto.
Qed.
Example C13_example : exists s', exec (SAssign (EVar 2) (EPop (EVar 1))) s_two = ROk tt s' /\ array_at s' 1 (HE TVar) [MPtr 0] /\ stk s' = [MPtr 0; MPtr 1; MNum (VInt 7)] /\ frame 1 s_two s'.
Proof.
  apply (C13_pop_takes_last s_two 1 1 (HE TVar) [MPtr 0] (MNum (VInt 7)) 2 MNil); try reflexivity; try discriminate.
  - exact two_reached.
  - found.
  - split; discriminate.
  - split; discriminate.
Qed.
Example C13_string_example : exists s', exec (SAssign (EVar 2) (EPop (EVar 0))) s_two = ROk tt s' /\ array_at s' 0 (HE TChar) [MNum (VChar 97); MNum (VChar 98)] /\
  stk s' = [MPtr 0; MPtr 1; MNum (VChar 0)] /\ frame 0 s_two s' /\ terminated s' 0.
Proof.
  apply (C13_pop_of_string_gives_nul s_two 0 0 [MNum (VChar 97); MNum (VChar 98)] (MNum (VChar 99)) 2 MNil); try reflexivity; try discriminate.
  - exact two_reached.
  - found.
  - split; discriminate.
Qed.
Definition s_popped : state := Eval vm_compute in after (two ++ [SDecl (EPop (EVar 0))]).
Example C13_reference_example : (exists s', exec (SDecl (EPop (EVar 0))) s_two = ROk tt s' /\ stk s' = stk s_two ++ [MRef 0 2]) /\
  exists s', exec (SPush (EVar 0) (ENum (VInt 90))) s_popped = ROk tt s' /\ variable s' 3 (MRef 0 2) /\ denotes s' (MRef 0 2) (MNum (VChar 90)).
Proof.
  split.
  - destruct (C13_popped_is_a_reference s_two 0 0 (HE TChar) [MNum (VChar 97); MNum (VChar 98)] (MNum (VChar 99))) as (s' & E & _ & St & _); try reflexivity; eauto.
    + exact two_reached.
    + found.
  - apply (C13_popped_reads_the_next_push s_popped 0 3 0 (HE TChar) [MNum (VChar 97); MNum (VChar 98)] (ENum (VInt 90)) (MNum (VInt 90)) (MNum (VInt 90)) (MNum (VChar 90))); try reflexivity.
    + exists (two ++ [SDecl (EPop (EVar 0))]). vm_compute. reflexivity.
    + found.
    + intros [X|X]; discriminate.
    + apply op_num. reflexivity.
    + exists (VInt 90), (VChar 90). auto.
    + split; discriminate.
Qed.

(** * C18 *)
Theorem C18_shift_takes_first : forall s j l t y xs k old, reachable s -> variable s j (MPtr l) -> array_at s l t (y :: xs) -> value y ->
  variable s k old -> k <> j -> assignable s old -> small (length xs) ->
  exists s', exec (SAssign (EVar k) (EShift (EVar j))) s = ROk tt s' /\ array_at s' l t xs /\ stk s' = replaced (stk s) k y /\ frame l s s' /\ (t = HE TChar -> terminated s' l).
Proof.
  intros s j l t y xs k old R V A [Y1 Y2] Vk D As Sm. destruct (variable_array _ _ _ _ _ R V A) as (e & o & I & O & Vo & Ty & Sz & Lc & Ll & H).
  simpl in *. destruct (assignable_ok _ _ As) as [As1 As2].
  destruct (exec_shift e s j k l (length xs) o y old) as (s' & o' & E & I' & G & O' & St & Fr); auto; try lia.
  - apply (H 0). lia.
  - exists s'. split; auto. split; [|split].
    + pose proof G as (T' & V' & S' & C' & _). rewrite <- Ty, <- T'. apply list_array; auto; [congruence|].
      intros q Q. rewrite (proj1 (C' q Q)). apply (H (S q)). lia.
    + rewrite replaced_sn; auto. eapply ne_lt; eauto.
    + split; [intros m a X M; apply obj_live in M; apply obj_live; eauto|]. intros C. destruct G as (T' & V' & S' & C' & N). eapply nul_terminated; eauto. rewrite S'. apply N. rewrite Ty, C. reflexivity.
Qed.
Lemma front_ok : forall s l t x z, front s l t x z -> front_arg s l t x z.
Proof.
  intros s l t x z [(-> & D & N)|(N & D & P)]; [split; auto|]. destruct N as (v & -> & -> & Nv).
  destruct (ety_of v) eqn:Ev; try congruence; exists v; (split; [|reflexivity]); (split; [auto|split; [auto|]]); intros m i o E O; apply obj_live in O;
   (destruct (varlike (h_ty o)) eqn:Vl; [auto|left]); destruct (P m i o E O) as (u & U & T & _); try (intros [X|X]; rewrite X in Vl; discriminate); congruence.
Qed.
Lemma front_temps : forall s s1 l t x z, temps s s1 -> front_arg s l t x z -> front_arg s1 l t x z.
Proof.
  intros s s1 l t x z T F. destruct t as [[]|]; simpl in *; auto; try (destruct F as (v & N & E); exists v; split; auto; eapply number_arg_temps; eauto).
  destruct F as [D N]. split; auto. eapply temps_denotes; eauto.
Qed.
Theorem C18_unshift_puts_first : forall s j l t xs f x z, reachable s -> variable s j (MPtr l) -> array_at s l t xs -> small (S (length xs)) ->
  operand s f x -> front s l t x z ->
  exists s', exec (SUnshift (EVar j) f) s = ROk tt s' /\ array_at s' l t (z :: xs) /\ only_array l s s' /\ (t = HE TChar -> terminated s' l).
Proof.
  intros s j l t xs f x z R V A Sm Op Fa. destruct (variable_array _ _ _ _ _ R V A) as (e & o & I & O & Vo & Ty & Sz & Lc & Ll & H). unfold small in Sm.
  destruct (exec_two (SUnshift (EVar j) f) unshift j f e s l x (unshifted o (length xs) z)) as (e' & s' & o' & E & I' & B & P); auto.
  - intros s1 q I1 T1 N1. rewrite <- Sz. apply (unshift_gives e s1 j q l o x z); auto; try lia.
    + eapply temps_slot; eauto.
    + rewrite (temps_obj _ _ _ T1); auto.
    + rewrite Ty. eapply front_temps; eauto. apply front_ok; auto.
  - destruct P as (P1 & P2 & P3 & P4 & P5 & P6). exists s'. split; auto. split; [|split; [eapply only_became; eauto|]].
    2:{ intros C. eapply nul_terminated; [apply B|]. rewrite P3. apply P6. rewrite Ty, C. reflexivity. }
    rewrite <- Ty, <- P1. apply list_array; auto; [apply B|congruence|].
    intros [|q] Q; auto. simpl in Q. simpl. rewrite P5 by lia. apply H. lia.
Qed.
Lemma denotes_value : forall s x y, denotes s x y -> value y.
Proof.
  intros s x y D. destruct x; simpl in D; try contradiction; try (subst; split; discriminate). destruct D as (o & k & _ & _ & _ & _ & D1 & D2). split; auto.
Qed.
Lemma assignable_keep : forall l t xs s s' x, frame l s s' -> array_at s' l t xs -> assignable s x -> assignable s' x.
Proof.
  intros l t xs s s' x F (o & O & V & _) [A B]. split; auto. intros k a E M. destruct (Nat.eq_dec k l) as [->|D]; [congruence|]. eapply B; eauto.
Qed.
Lemma only_frame : forall l s s', only_array l s s' -> frame l s s'.
Proof. intros l s s' (_ & _ & F) k o D O. eauto. Qed.
Theorem C18_unshift_then_shift : forall s j l t xs f x z k old, reachable s -> variable s j (MPtr l) -> array_at s l t xs -> small (S (length xs)) ->
  operand s f x -> front s l t x z -> variable s k old -> k <> j -> assignable s old ->
  exists s1 s2, exec (SUnshift (EVar j) f) s = ROk tt s1 /\ exec (SAssign (EVar k) (EShift (EVar j))) s1 = ROk tt s2 /\
    array_at s2 l t xs /\ stk s2 = replaced (stk s) k z /\ frame l s s2.
Proof.
  intros s j l t xs f x z k old R V A Sm Op Fa Vk D As. destruct (C18_unshift_puts_first s j l t xs f x z R V A Sm Op Fa) as (s1 & E1 & A1 & F1 & _).
  pose proof F1 as [St1 _]. assert (Vz : value z) by (destruct Fa as [(_ & Dz & _)|(_ & Dz & _)]; eapply denotes_value; eauto).
  destruct (C18_shift_takes_first s1 j l t z xs k old) as (s2 & E2 & A2 & St2 & F2 & _); auto.
  - eapply reachable_step; eauto.
  - unfold variable. rewrite St1. auto.
  - unfold variable. rewrite St1. auto.
  - eapply assignable_keep; eauto. apply only_frame; auto.
  - unfold small in *. lia.
  - exists s1, s2. split; auto. split; auto. split; auto. split; [congruence|]. intros m a X M. apply (only_frame _ _ _ F1); auto.
Qed.
Example C18_example : exists s1 s2, exec (SUnshift (EVar 0) (ENum (VChar 90))) s_two = ROk tt s1 /\ exec (SAssign (EVar 2) (EShift (EVar 0))) s1 = ROk tt s2 /\
    array_at s2 0 (HE TChar) [MNum (VChar 97); MNum (VChar 98); MNum (VChar 99)] /\ stk s2 = [MPtr 0; MPtr 1; MNum (VChar 90)] /\ frame 0 s_two s2.
Proof.
  apply (C18_unshift_then_shift s_two 0 0 (HE TChar) [MNum (VChar 97); MNum (VChar 98); MNum (VChar 99)] (ENum (VChar 90)) (MNum (VChar 90)) (MNum (VChar 90)) 2 MNil); try reflexivity; try discriminate.
  - exact two_reached.
  - found.
  - apply op_num. reflexivity.
  - right. split; [exists (VChar 90); repeat split; discriminate|]. split; [reflexivity|discriminate].
  - split; discriminate.
Qed.
Example C18_vars_example : exists s1 s2, exec (SUnshift (EVar 1) (EVar 0)) s_two = ROk tt s1 /\ exec (SAssign (EVar 2) (EShift (EVar 1))) s1 = ROk tt s2 /\
    array_at s2 1 (HE TVar) [MPtr 0; MNum (VInt 7)] /\ stk s2 = [MPtr 0; MPtr 1; MPtr 0] /\ frame 1 s_two s2.
Proof.
  apply (C18_unshift_then_shift s_two 1 1 (HE TVar) [MPtr 0; MNum (VInt 7)] (EVar 0) (MPtr 0) (MPtr 0) 2 MNil); try reflexivity; try discriminate.
  - exact two_reached.
  - found.
  - apply op_var. reflexivity.
  - left. repeat split; discriminate.
  - split; discriminate.
Qed.
Example C18_shift_example : exists s', exec (SAssign (EVar 2) (EShift (EVar 1))) s_two = ROk tt s' /\ array_at s' 1 (HE TVar) [MNum (VInt 7)] /\ stk s' = [MPtr 0; MPtr 1; MPtr 0] /\ frame 1 s_two s' /\ (HE TVar = HE TChar -> terminated s' 1).
Proof.
  apply (C18_shift_takes_first s_two 1 1 (HE TVar) (MPtr 0) [MNum (VInt 7)] 2 MNil); try reflexivity; try discriminate.
  - exact two_reached.
  - found.
  - split; discriminate.
  - split; discriminate.
Qed.

(** * C14 *)
Lemma spliced_array : forall s l o o' xs ys b, obj l s = Some o' -> h_view o = None -> h_size o = length xs -> b <= length xs ->
  (forall k, k < length xs -> val_at o k = nth_error xs k) -> spliced o (length xs) b (length ys) (fun k => nth_error ys k) o' ->
  array_at s l (h_ty o) (firstn b xs ++ ys ++ skipn b xs) /\ (is_char (h_ty o) = true -> terminated s l).
Proof.
  intros s l o o' xs ys b O V Sz Lb H (T & V' & S' & P & N). split.
  - rewrite <- T. assert (Ln : length (firstn b xs ++ ys ++ skipn b xs) = length xs + length ys) by (rewrite !app_length, firstn_length, skipn_length; lia).
    apply list_array; auto; [congruence|congruence|]. rewrite Ln. intros k K. rewrite P by lia. destruct (Nat.ltb_spec k b).
    + rewrite nth_error_app1 by (rewrite firstn_length; lia). rewrite nth_firstn. destruct (Nat.ltb_spec k b); [|lia]. apply H. lia.
    + rewrite nth_error_app2 by (rewrite firstn_length; lia). rewrite firstn_length, Nat.min_l by lia. destruct (Nat.ltb_spec k (b + length ys)).
      * rewrite nth_error_app1 by lia. auto.
      * rewrite nth_error_app2 by lia. rewrite nth_skipn. rewrite H by lia. f_equal. lia.
  - intros C. eapply nul_terminated; eauto. rewrite S'. auto.
Qed.
Theorem C14_insert_into_vars : forall s j l xs i f x y, reachable s -> variable s j (MPtr l) -> array_at s l (HE TVar) xs -> replaceable s l -> small (S (length xs)) ->
  i <= length xs -> operand s f x -> denotes s x y -> (forall k, x <> MRef l k) ->
  exists s', exec (SInsert (EVar j) f (Z.of_nat i)) s = ROk tt s' /\ array_at s' l (HE TVar) (firstn i xs ++ [y] ++ skipn i xs) /\ only_array l s s'.
Proof.
  intros s j l xs i f x y R V A Rp Sm Li Op D Ne. destruct (variable_array _ _ _ _ _ R V A) as (e & o & I & O & Vo & Ty & Sz & Lc & Ll & H). unfold small in Sm.
  destruct (exec_two (SInsert (EVar j) f (Z.of_nat i)) (fun v q => insert v q (Z.of_nat i)) j f e s l x (spliced o (length xs) i 1 (fun k => nth_error [y] k))) as (e' & s' & o' & E & I' & B & P); auto.
  - intros s1 q I1 T1 N1. destruct (insert_var_gives e s1 j q l o x y i) as (s2 & o2 & E2 & I2 & B2 & P2); auto; try lia.
    + eapply temps_slot; eauto.
    + rewrite (temps_obj _ _ _ T1); auto.
    + eapply temps_okcells; eauto. eapply replaceable_ok; eauto.
    + eapply temps_denotes; eauto.
    + exists e, s2, o2. split; auto. split; auto. split; auto. rewrite Sz in P2. destruct P2 as (P1 & P2 & P3 & P4 & P5). repeat split; auto.
      intros k K. rewrite P4 by auto. destruct (Nat.ltb_spec k i); auto. destruct (Nat.ltb_spec k (i + 1)); auto. replace (k - i) with 0 by lia. reflexivity.
  - exists s'. split; auto. split; [|eapply only_became; eauto]. destruct (spliced_array s' l o o' xs [y] i (proj2 B) Vo Sz Li H P) as [X _]. rewrite Ty in X. auto.
Qed.
(** On a dense array, the elements of any other array, converted to its type. *)
Theorem C14_insert_into_dense : forall s j l t xs i k lp tp ys zs, reachable s -> variable s j (MPtr l) -> array_at s l t xs -> ~ holds_vars t -> Forall (number_of t) xs ->
  variable s k (MPtr lp) -> lp <> l -> array_at s lp tp ys -> Forall2 (stored t) ys zs -> small (length xs + length ys) -> i <= length xs ->
  exists s', exec (SInsert (EVar j) (EVar k) (Z.of_nat i)) s = ROk tt s' /\ array_at s' l t (firstn i xs ++ zs ++ skipn i xs) /\ only_array l s s' /\ (t = HE TChar -> terminated s' l).
Proof.
  intros s j l t xs i k lp tp ys zs R V A Nh Fx Vk Ne Ap Fz Sm Li. destruct (variable_array _ _ _ _ _ R V A) as (e & o & I & O & Vo & Ty & Sz & Lc & Ll & H). unfold small in Sm.
  destruct (variable_array _ _ _ _ _ R Vk Ap) as (_ & op & _ & Oq & Vq & Tq & Szq & Lcq & Llq & Hq). assert (Lz : length ys = length zs) by (clear - Fz; induction Fz; simpl; auto).
  assert (Vl : varlike (h_ty o) = false) by (rewrite Ty; destruct (varlike t) eqn:X; auto; exfalso; apply Nh, holds_varlike_iff; auto).
  destruct (exec_two (SInsert (EVar j) (EVar k) (Z.of_nat i)) (fun v q => insert v q (Z.of_nat i)) j (EVar k) e s l (MPtr lp) (spliced o (length xs) i (length zs) (fun k => nth_error zs k))) as (e' & s' & o' & E & I' & B & P); auto.
  - apply op_var. auto.
  - intros s1 q I1 T1 N1. destruct (insert_dense_gives e s1 j q l o lp op (length ys) i (fun k => nth k zs MNil)) as (s2 & o2 & E2 & I2 & B2 & P2); auto; try lia.
    + eapply temps_slot; eauto.
    + rewrite (temps_obj _ _ _ T1); auto.
    + rewrite (temps_obj _ _ _ T1); auto.
    + intros m v M Hv. rewrite H in Hv by lia. rewrite Ty. apply number_fits. rewrite Forall_forall in Fx. apply Fx. eapply nth_error_In; eauto.
    + intros m M. assert (Nz : exists y z, nth_error ys m = Some y /\ nth_error zs m = Some z /\ stored t y z).
      { clear - Fz M. revert m M. induction Fz as [|y z ys zs S F IH]; intros m M; simpl in M; [lia|]. destruct m; simpl; [eauto 6|]. apply IH. lia. }
      destruct Nz as (y & z & Ny & Nz & St). rewrite (nth_error_nth zs m MNil Nz). rewrite Ty. rewrite Ty in Vl.
      unfold converted. rewrite Hq by auto. rewrite Ny. destruct t as [[]|]; simpl in Vl; try discriminate; destruct St as (v & u & -> & C & ->); eauto 10.
    + exists e, s2, o2. split; auto. split; auto. split; auto. rewrite Sz in P2. destruct P2 as (P1 & P2 & P3 & P4 & P5). rewrite <- Lz. repeat split; auto.
      intros m M. rewrite P4 by auto. destruct (Nat.ltb_spec m i); auto. destruct (Nat.ltb_spec m (i + length ys)); auto. symmetry. apply nth_error_nth'. lia.
  - destruct (spliced_array s' l o o' xs zs i (proj2 B) Vo Sz Li H P) as [X N]. rewrite Ty in X, N. exists s'. split; auto. split; auto. split; [eapply only_became; eauto|]. intros C. apply N. rewrite C. reflexivity.
Qed.
(** [append] is [insert] at the end. *)
Theorem C14_append_to_vars : forall s j l xs f x y, reachable s -> variable s j (MPtr l) -> array_at s l (HE TVar) xs -> replaceable s l -> small (S (length xs)) ->
  operand s f x -> denotes s x y -> (forall k, x <> MRef l k) ->
  exists s', exec (SAppend (EVar j) f) s = ROk tt s' /\ array_at s' l (HE TVar) (xs ++ [y]) /\ only_array l s s'.
Proof.
  intros s j l xs f x y R V A Rp Sm Op D Ne. destruct (variable_array _ _ _ _ _ R V A) as (e & o & I & O & Vo & Ty & Sz & _).
  destruct (C14_insert_into_vars s j l xs (length xs) f x y R V A Rp Sm (le_n _) Op D Ne) as (s' & E & A' & F). exists s'.
  rewrite (exec_append e s j l o f x I V O Vo Op), Sz. rewrite firstn_all, skipn_all, app_nil_r in A'. auto.
Qed.
Theorem C14_append_to_dense : forall s j l t xs k lp tp ys zs, reachable s -> variable s j (MPtr l) -> array_at s l t xs -> ~ holds_vars t -> Forall (number_of t) xs ->
  variable s k (MPtr lp) -> lp <> l -> array_at s lp tp ys -> Forall2 (stored t) ys zs -> small (length xs + length ys) ->
  exists s', exec (SAppend (EVar j) (EVar k)) s = ROk tt s' /\ array_at s' l t (xs ++ zs) /\ only_array l s s' /\ (t = HE TChar -> terminated s' l).
Proof.
  intros s j l t xs k lp tp ys zs R V A Nh Fx Vk Ne Ap Fz Sm. destruct (variable_array _ _ _ _ _ R V A) as (e & o & I & O & Vo & Ty & Sz & _).
  destruct (C14_insert_into_dense s j l t xs (length xs) k lp tp ys zs R V A Nh Fx Vk Ne Ap Fz Sm (le_n _)) as (s' & E & A' & F). exists s'.
  rewrite (exec_append e s j l o (EVar k) (MPtr lp) I V O Vo (op_var _ _ _ Vk)), Sz. rewrite firstn_all, skipn_all, app_nil_r in A'. auto.
Qed.
Theorem C14_insert_beyond_the_end_throws : forall s j l t xs f x i, reachable s -> variable s j (MPtr l) -> array_at s l t xs -> operand s f x ->
  (Z.of_nat (length xs) < i)%Z -> exists m, exec (SInsert (EVar j) f i) s = RThrow m s.
Proof.
  intros s j l t xs f x i R V A Op Li. destruct (variable_array _ _ _ _ _ R V A) as (e & o & I & O & Vo & Ty & Sz & Lc & Ll & H).
  eexists. eapply insert_throws; eauto. rewrite Sz. auto.
Qed.
Example C14_example : exists s', exec (SInsert (EVar 1) (EIdx (EVar 0) 0) 1) s_two = ROk tt s' /\ array_at s' 1 (HE TVar) [MPtr 0; MNum (VChar 97); MNum (VInt 7)] /\ only_array 1 s_two s'.
Proof.
  apply (C14_insert_into_vars s_two 1 1 [MPtr 0; MNum (VInt 7)] 1 (EIdx (EVar 0) 0) (MRef 0 0) (MNum (VChar 97))); try reflexivity; try discriminate.
  - exact two_reached.
  - found.
  - apply two_writable. left. reflexivity.
  - simpl; auto.
  - apply (op_idx s_two 0 0 (HE TChar) [MNum (VChar 97); MNum (VChar 98); MNum (VChar 99)] 0); [reflexivity|found|split; [discriminate|reflexivity]].
  - eexists. exists MNil. vm_compute. repeat split; auto; discriminate.
Qed.
(** Ints into a string. *)
Definition mixed : list stmt := [SDecl (EStr [97; 98; 99]%Z); SDecl (ENum (VInt 65)); SPush (EVar 1) (ENum (VInt 66))].
Definition s_mixed : state := Eval vm_compute in after mixed.
Lemma mixed_reached : reachable s_mixed. Proof. exists mixed. vm_compute. reflexivity. Qed.
Example C14_dense_example : exists s', exec (SInsert (EVar 0) (EVar 1) 1) s_mixed = ROk tt s' /\
  array_at s' 0 (HE TChar) ([MNum (VChar 97)] ++ [MNum (VChar 65); MNum (VChar 66)] ++ [MNum (VChar 98); MNum (VChar 99)]) /\ only_array 0 s_mixed s' /\ (HE TChar = HE TChar -> terminated s' 0).
Proof.
  apply (C14_insert_into_dense s_mixed 0 0 (HE TChar) [MNum (VChar 97); MNum (VChar 98); MNum (VChar 99)] 1 1 1 (HE TInt) [MNum (VInt 65); MNum (VInt 66)]); try reflexivity; try discriminate.
  - exact mixed_reached.
  - found.
  - intros [X|X]; discriminate.
  - repeat constructor; eexists; repeat split; discriminate.
  - found.
  - repeat constructor; [exists (VInt 65), (VChar 65)|exists (VInt 66), (VChar 66)]; auto.
  - simpl; auto.
Qed.
Example C14_append_example : exists s', exec (SAppend (EVar 0) (EVar 1)) s_mixed = ROk tt s' /\
  array_at s' 0 (HE TChar) ([MNum (VChar 97); MNum (VChar 98); MNum (VChar 99)] ++ [MNum (VChar 65); MNum (VChar 66)]) /\ only_array 0 s_mixed s' /\ (HE TChar = HE TChar -> terminated s' 0).
Proof.
  apply (C14_append_to_dense s_mixed 0 0 (HE TChar) [MNum (VChar 97); MNum (VChar 98); MNum (VChar 99)] 1 1 (HE TInt) [MNum (VInt 65); MNum (VInt 66)]); try reflexivity; try discriminate.
  - exact mixed_reached.
  - found.
  - intros [X|X]; discriminate.
  - repeat constructor; eexists; repeat split; discriminate.
  - found.
  - repeat constructor; [exists (VInt 65), (VChar 65)|exists (VInt 66), (VChar 66)]; auto.
Qed.
Example C14_append_vars_example : exists s', exec (SAppend (EVar 1) (EVar 1)) s_two = ROk tt s' /\ array_at s' 1 (HE TVar) ([MPtr 0; MNum (VInt 7)] ++ [MPtr 1]) /\ only_array 1 s_two s'.
Proof.
  apply (C14_append_to_vars s_two 1 1 [MPtr 0; MNum (VInt 7)] (EVar 1) (MPtr 1) (MPtr 1)); try reflexivity; try discriminate.
  - exact two_reached.
  - found.
  - apply two_writable. left. reflexivity.
  - apply op_var. reflexivity.
Qed.
Example C14_throw_example : exists m, exec (SInsert (EVar 0) (ENum (VInt 1)) 4) s_two = RThrow m s_two.
Proof.
  apply (C14_insert_beyond_the_end_throws s_two 0 0 (HE TChar) [MNum (VChar 97); MNum (VChar 98); MNum (VChar 99)] _ (MNum (VInt 1))); try reflexivity.
  - exact two_reached.
  - found.
  - apply op_num. reflexivity.
Qed.

(** * C15 *)
Lemma append_self : forall e s j l o xs, INV e [] s -> variable s j (MPtr l) -> obj l s = Some o -> h_view o = None -> varlike (h_ty o) = false ->
  h_size o = length xs -> (forall k, k < length xs -> val_at o k = nth_error xs k) -> h_size o <= length (h_cells o) -> Forall (number_of (h_ty o)) xs ->
  xs <> [] -> small (2 * length xs) ->
  exists cap, capacity_after (length (h_cells o)) (h_ty o) (2 * length xs) cap /\
    (3 * length xs <= cap -> exists e' s' o', exec (SAppend (EVar j) (EVar j)) s = ROk tt s' /\ INV e' [] s' /\ became l o' s s' /\
       h_ty o' = h_ty o /\ h_view o' = None /\ h_size o' = 2 * length xs /\ (forall k, k < 3 * length xs -> val_at o' k = nth_error (xs ++ xs ++ xs) k)) /\
    (cap < 3 * length xs -> exec (SAppend (EVar j) (EVar j)) s = RUB OutOfBounds).
Proof.
  intros e s j l o xs I V O Vo Vl Sz H Lc Nx Ne Sm. set (n := length xs) in *. pose proof (obj_lt _ _ _ O) as Ll.
  assert (Hn : 1 <= n) by (unfold n; destruct xs; simpl; [congruence|lia]).
  set (g := fun i => nth (i mod n) xs MNil).
  assert (Gm : forall i, i mod n < n) by (intros; apply Nat.mod_upper_bound; lia).
  assert (Gn : forall i, nth_error xs (i mod n) = Some (g i)) by (intros; apply nth_error_nth'; apply Gm).
  assert (Gx : forall i, nth_error (xs ++ xs ++ xs) i = if (i <? 3 * n)%nat then Some (g i) else None).
  { intros i. destruct (Nat.ltb_spec i (3 * n)); [|apply nth_error_None; rewrite !app_length; fold n; lia].
    rewrite <- Gn. destruct (Nat.lt_ge_cases i n); [rewrite nth_error_app1 by auto; rewrite Nat.mod_small; auto|].
    rewrite nth_error_app2 by auto. fold n. destruct (Nat.lt_ge_cases i (2 * n)).
    - rewrite nth_error_app1 by (fold n; lia). replace i with (i - n + 1 * n) at 2 by lia. rewrite Nat.mod_add by lia. rewrite Nat.mod_small; auto. lia.
    - rewrite nth_error_app2 by (fold n; lia). fold n. replace i with (i - n - n + 2 * n) at 2 by lia. rewrite Nat.mod_add by lia. rewrite Nat.mod_small; auto. lia. }
  assert (St : forall s1 q, INV e [] s1 -> temps s s1 -> nth_error (stk s1) q = Some (MPtr l) -> exists cap, enlarged (length (h_cells o)) (h_ty o) (2 * n) cap /\
    (n + 2 * n <= cap -> exists s' o', append (LS j) (LS q) s1 = ROk tt s' /\ INV e [] s' /\ became l o' s1 s' /\
         h_ty o' = h_ty o /\ h_view o' = None /\ h_size o' = 2 * n /\ length (h_cells o') = cap /\ (forall i, i < n + 2 * n -> val_at o' i = Some (g i))) /\
    (cap < n + 2 * n -> append (LS j) (LS q) s1 = RUB OutOfBounds)).
  { intros s1 q I1 T1 N1. assert (Nj : nth_error (stk s1) j = Some (MPtr l)) by (eapply temps_slot; eauto). assert (O1 : obj l s1 = Some o) by (rewrite (temps_obj _ _ _ T1); auto).
    rewrite (append_insert s1 j l o (LS q) Nj O1 Vo). rewrite Sz. pose proof (insert_self_gives e s1 j q l o n g) as Q. rewrite Sz in Q. unfold small in Sm.
    destruct Q as (cap & C1 & C2 & C3); auto; try lia.
    - intros i Hi. rewrite H by auto. rewrite <- Gn, Nat.mod_small; auto.
    - intros i. apply number_fits. rewrite Forall_forall in Nx. apply Nx. eapply nth_error_In, Gn.
    - intros i. unfold g. replace (n + i) with (i + 1 * n) by lia. rewrite Nat.mod_add by lia. reflexivity.
    - exists cap. auto. }
  destruct (St s j I (temps_refl s) V) as (cap & C1 & _). exists cap. split; [apply enlarged_capacity; auto|].
  assert (Det : forall c', enlarged (length (h_cells o)) (h_ty o) (2 * n) c' -> c' = cap) by (intros c' X; apply enlarged_capacity in X; auto; apply enlarged_capacity in C1; auto; unfold capacity_after in *; congruence).
  split; intros L.
  - destruct (exec_two (SAppend (EVar j) (EVar j)) append j (EVar j) e s l (MPtr l) (fun o' => h_ty o' = h_ty o /\ h_view o' = None /\ h_size o' = 2 * n /\ (forall k, k < 3 * n -> val_at o' k = nth_error (xs ++ xs ++ xs) k))) as (e' & s' & o' & E & I' & B & P); auto.
    + apply op_var; auto.
    + intros s1 q I1 T1 N1. destruct (St s1 q I1 T1 N1) as (c' & X & Y & _). rewrite (Det c' X) in *. destruct Y as (s2 & o2 & E2 & I2 & B2 & P1 & P2 & P3 & _ & P4); [lia|].
      exists e, s2, o2. split; auto. split; auto. split; auto. split; auto. split; auto. split; auto. intros k K. rewrite Gx, P4 by lia. destruct (Nat.ltb_spec k (3 * n)); auto. lia.
    + exists e', s', o'. intuition.
  - change (exec (SAppend (EVar j) (EVar j)) s) with (finish (length (stk s)) (let! v := eval (length (stk s)) (EVar j) in let! p := eval (length (stk s)) (EVar j) in with_copy p (append v)) s).
    unfold finish. rewrite (bind_ok _ _ _ _ _ _ _ (eval_var s j _ _ V eq_refl s)). rewrite (bind_ok _ _ _ _ _ _ _ (eval_var s j _ _ V eq_refl s)).
    unfold with_copy. pose proof (INV_sound _ _ _ I) as Sd. rewrite (bind_ok _ _ _ _ _ _ _ (copy_of_eq (LS j) s _ Sd V)). unfold scoped. fold (push_s (MPtr l) (bump (MPtr l) s)).
    assert (T1 : temps s (push_s (MPtr l) (bump (MPtr l) s))) by (apply temps_push, temps_refl).
    destruct (St (push_s (MPtr l) (bump (MPtr l) s)) (length (stk (bump (MPtr l) s)))) as (c' & X & _ & Y); auto.
    + apply INV_push, INV_bump; auto. apply (getv_held (LS j)); auto.
    + simpl. rewrite nth_error_app2, Nat.sub_diag; auto.
    + rewrite Y; auto. rewrite (Det c' X). lia.
Qed.
(** Appending a dense array to itself goes on for as many elements as the array has after the
    resize.  If the storage is not three times the old size, it writes behind it. *)
Theorem C15_self_append_overruns : forall s j l t xs c c', reachable s -> variable s j (MPtr l) -> array_at s l t xs -> ~ holds_vars t -> Forall (number_of t) xs -> xs <> [] ->
  small (2 * length xs) -> capacity s l c -> capacity_after c t (2 * length xs) c' -> c' < 3 * length xs ->
  exec (SAppend (EVar j) (EVar j)) s = RUB OutOfBounds.
Proof.
  intros s j l t xs c c' R V A Nh Fx Ne Sm (o1 & O1 & <-) Ca Lt. destruct (variable_array _ _ _ _ _ R V A) as (e & o & I & O & Vo & Ty & Sz & Lc & Ll & H).
  assert (o1 = o) by (apply obj_live in O; congruence). subst o1.
  assert (Vl : varlike (h_ty o) = false) by (rewrite Ty; destruct (varlike t) eqn:X; auto; exfalso; apply Nh, holds_varlike_iff; auto).
  destruct (append_self e s j l o xs) as (cap & C1 & _ & C3); auto; try (rewrite Ty; auto); try lia. assert (cap = c') by (rewrite Ty in C1; unfold capacity_after in *; congruence). subst cap. auto.
Qed.
(** Otherwise the array reads as doubled, but as many cells behind it are overwritten, among
    them the terminator of a string. *)
Theorem C15_self_append_overwrites : forall s j l t xs c c', reachable s -> variable s j (MPtr l) -> array_at s l t xs -> ~ holds_vars t -> Forall (number_of t) xs -> xs <> [] ->
  small (2 * length xs) -> capacity s l c -> capacity_after c t (2 * length xs) c' -> 3 * length xs <= c' ->
  exists s', exec (SAppend (EVar j) (EVar j)) s = ROk tt s' /\ array_at s' l t (xs ++ xs) /\ cells_begin s' l (xs ++ xs ++ xs) /\ only_array l s s' /\
    (hd_error xs <> Some (MNum (VChar 0)) -> ~ terminated s' l).
Proof.
  intros s j l t xs c c' R V A Nh Fx Ne Sm (o1 & O1 & <-) Ca Lt. destruct (variable_array _ _ _ _ _ R V A) as (e & o & I & O & Vo & Ty & Sz & Lc & Ll & H).
  assert (o1 = o) by (apply obj_live in O; congruence). subst o1.
  assert (Vl : varlike (h_ty o) = false) by (rewrite Ty; destruct (varlike t) eqn:X; auto; exfalso; apply Nh, holds_varlike_iff; auto).
  destruct (append_self e s j l o xs) as (cap & C1 & C2 & _); auto; try (rewrite Ty; auto); try lia.
  assert (cap = c') by (rewrite Ty in C1; unfold capacity_after in *; congruence). subst cap.
  destruct C2 as (e' & s' & o' & E & I' & B & T' & V' & S' & P); auto.
  assert (Hx : 0 < length xs) by (destruct xs; simpl; [congruence|lia]).
  assert (O' : nth_error (mem s') l = Some (Some o')) by (apply obj_live; apply B).
  exists s'. split; auto. split; [|split; [|split]].
  - rewrite <- Ty, <- T'. apply list_array; auto; [apply B|rewrite app_length; lia|]. rewrite app_length. intros k K. rewrite P by lia. rewrite app_assoc, nth_error_app1; auto. rewrite app_length. lia.
  - exists o'. split; auto. apply nth_ext. intros k. rewrite nth_firstn, !app_length. destruct (Nat.ltb_spec k (length xs + (length xs + length xs))).
    + rewrite nth_error_map. change (val_at o' k = nth_error (xs ++ xs ++ xs) k). apply P. lia.
    + symmetry. apply nth_error_None. rewrite !app_length. lia.
  - eapply only_became; eauto.
  - intros Hd (o2 & k & O2 & N). assert (o2 = o') by congruence. subst o2. rewrite S' in N. specialize (P (2 * length xs) ltac:(lia)). unfold val_at in P. rewrite N in P. simpl in P.
    rewrite nth_error_app2, nth_error_app2 in P by lia. replace (length xs + (length xs + 0) - length xs - length xs) with 0 in P by lia. apply Hd. destruct xs; simpl in *; auto.
Qed.
(** Three chars: capacity 8 is kept for six and a terminator, but nine are written. *)
Example C15_example : exec (SAppend (EVar 0) (EVar 0)) s_two = RUB OutOfBounds.
Proof.
  apply (C15_self_append_overruns s_two 0 0 (HE TChar) [MNum (VChar 97); MNum (VChar 98); MNum (VChar 99)] 8 8); try reflexivity; try discriminate.
  - exact two_reached.
  - found.
  - intros [X|X]; discriminate.
  - repeat constructor; eexists; repeat split; discriminate.
  - found.
  - simpl. lia.
Qed.
(** Two ints fit, and are found twice more than they should. *)
Example C15_fits_example : exists s', exec (SAppend (EVar 1) (EVar 1)) s_mixed = ROk tt s' /\ array_at s' 1 (HE TInt) [MNum (VInt 65); MNum (VInt 66); MNum (VInt 65); MNum (VInt 66)] /\
  cells_begin s' 1 [MNum (VInt 65); MNum (VInt 66); MNum (VInt 65); MNum (VInt 66); MNum (VInt 65); MNum (VInt 66)] /\ only_array 1 s_mixed s'.
Proof.
  destruct (C15_self_append_overwrites s_mixed 1 1 (HE TInt) [MNum (VInt 65); MNum (VInt 66)] 8 8) as (s' & X1 & X2 & X3 & X4 & _); try reflexivity.
  - exact mixed_reached.
  - found.
  - intros [X|X]; discriminate.
  - repeat constructor; eexists; repeat split; discriminate.
  - discriminate.
  - found.
  - simpl. lia.
  - exists s'. auto.
Qed.

(** * C16 *)
Lemma movable_okcells : forall s l o xs t, obj l s = Some o -> h_ty o = t -> movable s l t xs -> xs <> [] -> okcells s o.
Proof. intros s l o xs t O <- M N. destruct (movable_ok s l o xs O M); [contradiction|auto]. Qed.
Theorem C16_remove_keeps_the_others : forall s j l t xs i y, reachable s -> variable s j (MPtr l) -> array_at s l t xs -> movable s l t xs -> small (length xs) ->
  nth_error xs i = Some y -> copyable_elem s y ->
  exists s', exec (SEval (ERemove (EVar j) (Z.of_nat i))) s = ROk tt s' /\ array_at s' l t (without xs i) /\ stk s' = stk s /\ others l s s' /\ (t = HE TChar -> terminated s' l).
Proof.
  intros s j l t xs i y R V A Mv Sm Ny Cy. destruct (variable_array _ _ _ _ _ R V A) as (e & o & I & O & Vo & Ty & Sz & Lc & Ll & H). unfold small in Sm.
  pose proof (ne_lt _ _ _ _ Ny) as Li. destruct (length xs) as [|n] eqn:Lx; [lia|].
  destruct (exec_remove e s j l o n i y) as (s' & o' & E & I' & G & O' & St & Ln & Fr); auto; try lia.
  - eapply movable_okcells; eauto. intros ->. discriminate.
  - intros k v K Hv. rewrite H in Hv by lia. rewrite Ty. eapply movable_fits; eauto.
  - rewrite H by lia. auto.
  - exact (proj1 Cy).
  - apply copyable_size; auto.
  - exists s'. split; auto. split; [|split; auto].
    + rewrite <- Ty. apply (removed_array s' l o o' xs n i); auto; [lia|rewrite Lx; auto].
    + split; [split; [auto|intros k a D K M; apply obj_live; apply Fr; auto; apply obj_live; auto]|].
      intros C. destruct G as (_ & _ & S' & _ & _ & N). rewrite Ty, C in N. eapply nul_terminated; eauto. rewrite S'. exact N.
Qed.
(** The value returned, when the element is an array: a copy of it. *)
Theorem C16_remove_returns_a_copy_of_an_array : forall s j l xs i m tm ys k old, reachable s -> variable s j (MPtr l) -> array_at s l (HE TVar) xs -> replaceable s l -> small (length xs) ->
  nth_error xs i = Some (MPtr m) -> array_at s m tm ys -> small (length ys) -> variable s k old -> k <> j -> assignable s old ->
  exists s', exec (SAssign (EVar k) (ERemove (EVar j) (Z.of_nat i))) s = ROk tt s' /\ array_at s' l (HE TVar) (without xs i) /\
    stk s' = replaced (stk s) k (MPtr (length (mem s))) /\ array_at s' (length (mem s)) tm ys /\ others l s s'.
Proof.
  intros s j l xs i m tm ys k old R V A Rp Sm Ny Am Smy Vk D As. destruct (variable_array _ _ _ _ _ R V A) as (e & o & I & O & Vo & Ty & Sz & Lc & Ll & H). unfold small in Sm.
  destruct (array_obj _ _ _ _ Am) as (om & Om & Vm & Tm & Sm' & Lm & Hm).
  pose proof (ne_lt _ _ _ _ Ny) as Li. destruct (length xs) as [|n] eqn:Lx; [lia|]. destruct (assignable_ok _ _ As) as [As1 As2].
  assert (Ip : is_ptr (h_ty o) (MPtr m) = Some m) by (rewrite Ty; reflexivity).
  destruct (exec_remove_to e s j k l o n i (MPtr m) (MPtr (length (mem s))) old) as (s' & o' & E & I' & G & O' & St & Ln & Fr & Cp); auto; try lia.
  - eapply replaceable_ok; eauto.
  - intros q v K Hv. rewrite Ty. apply vars_fits. left. auto.
  - rewrite H by lia. auto.
  - discriminate.
  - apply copyable_size; auto. split; [discriminate|]. intros q a E M. injection E as <-. apply obj_live in M. assert (a = om) by congruence. subst a. split; auto. rewrite Sm'. auto.
  - rewrite Ip. auto.
  - exists s'. split; auto. split; [|split; [|split]].
    + rewrite <- Ty. apply (removed_array s' l o o' xs n i); auto; [lia|rewrite Lx; auto].
    + rewrite replaced_sn; auto. eapply ne_lt; eauto.
    + destruct (Cp m om Ip Om) as (om' & Om' & C). pose proof C as (C1 & C2 & C3 & _). rewrite <- Tm, <- C1. apply list_array; auto; [congruence|].
      intros q Q. rewrite (copied_val om om') by (auto; lia). apply Hm. auto.
    + split; auto. intros q a X K M. apply obj_live. apply Fr; auto. apply obj_live; auto.
Qed.
(** For any other element, the value that comes after it, except for the last: then NUL in a
    string, and the element otherwise. *)
Theorem C16_remove_returns_the_next : forall s j l t xs i y w k old, reachable s -> variable s j (MPtr l) -> array_at s l t xs -> movable s l t xs -> small (length xs) ->
  nth_error xs i = Some y -> value y -> (forall m, y <> MPtr m) -> variable s k old -> k <> j -> assignable s old -> value w ->
  (S i < length xs -> nth_error xs (S i) = Some w) -> (S i = length xs -> w = if is_char t then MNum (VChar 0) else y) ->
  exists s', exec (SAssign (EVar k) (ERemove (EVar j) (Z.of_nat i))) s = ROk tt s' /\ array_at s' l t (without xs i) /\
    stk s' = replaced (stk s) k w /\ others l s s'.
Proof.
  intros s j l t xs i y w k old R V A Mv Sm Ny [Y1 Y2] Yp Vk D As [W1 W2] Wn Wl. destruct (variable_array _ _ _ _ _ R V A) as (e & o & I & O & Vo & Ty & Sz & Lc & Ll & H). unfold small in Sm.
  pose proof (ne_lt _ _ _ _ Ny) as Li. destruct (length xs) as [|n] eqn:Lx; [lia|]. destruct (assignable_ok _ _ As) as [As1 As2].
  assert (Ip : is_ptr (h_ty o) y = None) by (unfold is_ptr; destruct (varlike (h_ty o)); auto; destruct y; auto; exfalso; eapply Yp; eauto).
  destruct (exec_remove_to e s j k l o n i y w old) as (s' & o' & E & I' & G & O' & St & Ln & Fr & Cp); auto; try lia.
  - eapply movable_okcells; eauto. intros ->. discriminate.
  - intros q v K Hv. rewrite H in Hv by lia. rewrite Ty. eapply movable_fits; eauto.
  - rewrite H by lia. auto.
  - intros q ok X. congruence.
  - rewrite Ip. split; auto. split; auto. destruct (Nat.ltb_spec i n).
    + rewrite H by lia. apply Wn. lia.
    + rewrite Ty. rewrite Wl by lia. destruct (is_char t); auto.
  - exists s'. split; auto. split; [|split].
    + rewrite <- Ty. apply (removed_array s' l o o' xs n i); auto; [lia|rewrite Lx; auto].
    + rewrite replaced_sn; auto. eapply ne_lt; eauto.
    + split; auto. intros q a X K M. apply obj_live. apply Fr; auto. apply obj_live; auto.
Qed.

(** * C17 *)
Lemma without_pairs : forall A B (a : list A) (b : list B) k, length a = length b ->
  nth_error (combine a b) k = match nth_error a k, nth_error b k with Some x, Some y => Some (x, y) | _, _ => None end.
Proof. induction a as [|x a IH]; intros [|y b] [|k] L; simpl in *; try discriminate; auto. Qed.
Theorem C17_remove_shifts_only_values : forall s j l kvs i y, reachable s -> variable s j (MPtr l) -> map_at s l kvs -> replaceable s l -> small (length kvs) ->
  nth_error (map snd kvs) i = Some y -> copyable_elem s y ->
  exists s', exec (SEval (ERemove (EVar j) (Z.of_nat i))) s = ROk tt s' /\ map_at s' l (combine (removelast (map fst kvs)) (without (map snd kvs) i)) /\ stk s' = stk s /\ others l s s'.
Proof.
  intros s j l kvs i y R V (o & O & Vo & Ty & Sz & H) Rp Sm Ny Cy. destruct (reachable_INV s R) as [e I]. unfold small in Sm. apply obj_live in O.
  assert (Lc : length kvs <= length (h_cells o)) by (rewrite <- H, firstn_length; lia).
  pose proof (ne_lt _ _ _ _ Ny) as Li. rewrite map_length in Li. destruct (length kvs) as [|n] eqn:Lx; [lia|].
  assert (Hc : forall k, k < S n -> nth_error (h_cells o) k = nth_error kvs k) by (intros k K; rewrite <- H, nth_firstn; destruct (Nat.ltb_spec k (S n)); auto; lia).
  assert (Hv : forall k, k < S n -> val_at o k = nth_error (map snd kvs) k) by (intros k K; unfold val_at; rewrite Hc, nth_error_map by auto; auto).
  destruct (exec_remove e s j l o n i y) as (s' & o' & E & I' & G & O' & St & Ln & Fr); auto; try lia.
  - eapply replaceable_ok; eauto.
  - intros k v K _. rewrite Ty. apply vars_fits. right. auto.
  - rewrite Hv by lia. auto.
  - exact (proj1 Cy).
  - apply copyable_size; auto.
  - exists s'. split; auto. split; [|split; auto].
    + destruct G as (T' & V' & S' & P1 & P2 & _). assert (Lr : length (removelast (map fst kvs)) = n).
      { rewrite removelast_firstn_len, firstn_length, map_length. lia. }
      assert (Lw : length (without (map snd kvs) i) = n) by (apply without_len; [rewrite map_length; auto|lia]).
      assert (Lk : length (combine (removelast (map fst kvs)) (without (map snd kvs) i)) = n) by (rewrite combine_length; lia).
      exists o'. rewrite Lk. split; [apply obj_live; auto|]. split; [congruence|]. split; [congruence|]. split; auto.
      apply nth_ext. intros k. rewrite nth_firstn. destruct (Nat.ltb_spec k n); [|symmetry; apply nth_error_None; lia].
      specialize (P1 k ltac:(auto)). specialize (P2 k ltac:(auto)).
      rewrite without_pairs by lia. rewrite without_nth. unfold val_at in P1 at 1. unfold key_at in P2. rewrite Hc in P2 by lia.
      rewrite <- (Hv k), <- (Hv (S k)) by lia. rewrite <- P1.
      rewrite removelast_firstn_len, map_length, nth_firstn, Lx, nth_error_map. destruct (Nat.ltb_spec k (pred (S n))); [|lia]. rewrite <- P2.
      destruct (nth_error (h_cells o') k) as [[a b]|]; reflexivity.
    + split; auto. intros k a D K M. apply obj_live. apply Fr; auto. apply obj_live; auto.
Qed.
(** So the key of the removed entry gets the value of the one after it. *)
Theorem C17_key_gets_the_next_value : forall s j l kvs i k y k' y', reachable s -> variable s j (MPtr l) -> map_at s l kvs -> replaceable s l -> small (length kvs) ->
  nth_error kvs i = Some (k, y) -> nth_error kvs (S i) = Some (k', y') -> copyable_elem s y ->
  exists s' kvs', exec (SEval (ERemove (EVar j) (Z.of_nat i))) s = ROk tt s' /\ map_at s' l kvs' /\ nth_error kvs' i = Some (k, y').
Proof.
  intros s j l kvs i k y k' y' R V A Rp Sm N N' Cy. destruct (C17_remove_shifts_only_values s j l kvs i y R V A Rp Sm) as (s' & E & M & _); auto; [rewrite nth_error_map, N; reflexivity|].
  exists s'. eexists. split; eauto. split; eauto. pose proof (ne_lt _ _ _ _ N') as Li.
  rewrite without_pairs; [|rewrite removelast_firstn_len, firstn_length, (without_len _ _ _ (pred (length kvs))), !map_length; rewrite ?map_length; lia].
  rewrite without_nth. destruct (Nat.ltb_spec i i); [lia|]. rewrite removelast_firstn_len, map_length, nth_firstn. destruct (Nat.ltb_spec i (pred (length kvs))); [|lia].
  rewrite !nth_error_map, N, N'. reflexivity.
Qed.
(** A map with three entries. *)
Definition mapped : list stmt :=
  [SDecl ENil; SAssign (EKey (EVar 0) (EStr [97]%Z)) (ENum (VInt 1)); SAssign (EKey (EVar 0) (EStr [98]%Z)) (ENum (VInt 2)); SAssign (EKey (EVar 0) (EStr [99]%Z)) (ENum (VInt 3))].
Definition s_mapped : state := Eval vm_compute in after mapped.
Lemma mapped_reached : reachable s_mapped. Proof. exists mapped. vm_compute. reflexivity. Qed.
Ltac replaceable_lit := intros o c O; vm_compute in O; injection O as <-; intros C; repeat destruct C as [<-|C]; try contradiction; split; try discriminate;
  let k := fresh in let o' := fresh in let E := fresh in let O' := fresh in intros k o' E O'; try discriminate; simpl in E; injection E as <-; vm_compute in O'; injection O' as <-; reflexivity.
Example C17_example : exists s', exec (SEval (ERemove (EVar 0) 0)) s_mapped = ROk tt s' /\ map_at s' 1 [(MPtr 0, MNum (VInt 2)); (MPtr 2, MNum (VInt 3))] /\ stk s' = stk s_mapped /\ others 1 s_mapped s'.
Proof.
  apply (C17_remove_shifts_only_values s_mapped 0 1 [(MPtr 0, MNum (VInt 1)); (MPtr 2, MNum (VInt 2)); (MPtr 3, MNum (VInt 3))] 0 (MNum (VInt 1))); try reflexivity.
  - exact mapped_reached.
  - found.
  - replaceable_lit.
  - split; discriminate.
Qed.
Example C17_key_example : exists s' kvs', exec (SEval (ERemove (EVar 0) 1)) s_mapped = ROk tt s' /\ map_at s' 1 kvs' /\ nth_error kvs' 1 = Some (MPtr 2, MNum (VInt 3)).
Proof.
  apply (C17_key_gets_the_next_value s_mapped 0 1 [(MPtr 0, MNum (VInt 1)); (MPtr 2, MNum (VInt 2)); (MPtr 3, MNum (VInt 3))] 1 (MPtr 2) (MNum (VInt 2)) (MPtr 3) (MNum (VInt 3))); try reflexivity.
  - exact mapped_reached.
  - found.
  - replaceable_lit.
  - split; discriminate.
Qed.
(** [x = b.remove(0)] on the array of vars copies the string; [x = a.remove(0)] on the string
    reads as the second char. *)
Example C16_copy_example : exists s', exec (SAssign (EVar 2) (ERemove (EVar 1) 0)) s_two = ROk tt s' /\ array_at s' 1 (HE TVar) [MNum (VInt 7)] /\
  stk s' = [MPtr 0; MPtr 1; MPtr 2] /\ array_at s' 2 (HE TChar) [MNum (VChar 97); MNum (VChar 98); MNum (VChar 99)] /\ others 1 s_two s'.
Proof.
  apply (C16_remove_returns_a_copy_of_an_array s_two 1 1 [MPtr 0; MNum (VInt 7)] 0 0 (HE TChar) [MNum (VChar 97); MNum (VChar 98); MNum (VChar 99)] 2 MNil); try reflexivity; try discriminate.
  - exact two_reached.
  - found.
  - replaceable_lit.
  - found.
  - split; discriminate.
Qed.
Lemma chars_movable : movable s_two 0 (HE TChar) [MNum (VChar 97); MNum (VChar 98); MNum (VChar 99)].
Proof. right. repeat constructor; eexists; repeat split; discriminate. Qed.
Example C16_next_example : exists s', exec (SAssign (EVar 2) (ERemove (EVar 0) 0)) s_two = ROk tt s' /\ array_at s' 0 (HE TChar) [MNum (VChar 98); MNum (VChar 99)] /\
  stk s' = [MPtr 0; MPtr 1; MNum (VChar 98)] /\ others 0 s_two s'.
Proof.
  apply (C16_remove_returns_the_next s_two 0 0 (HE TChar) [MNum (VChar 97); MNum (VChar 98); MNum (VChar 99)] 0 (MNum (VChar 97)) (MNum (VChar 98)) 2 MNil); try reflexivity; try discriminate.
  - exact two_reached.
  - found.
  - exact chars_movable.
  - split; discriminate.
  - split; discriminate.
  - split; discriminate.
Qed.
Example C16_example : exists s', exec (SEval (ERemove (EVar 0) 1)) s_two = ROk tt s' /\ array_at s' 0 (HE TChar) [MNum (VChar 97); MNum (VChar 99)] /\ stk s' = stk s_two /\ others 0 s_two s' /\ (HE TChar = HE TChar -> terminated s' 0).
Proof.
  apply (C16_remove_keeps_the_others s_two 0 0 (HE TChar) [MNum (VChar 97); MNum (VChar 98); MNum (VChar 99)] 1 (MNum (VChar 98))); try reflexivity.
  - exact two_reached.
  - found.
  - exact chars_movable.
  - split; discriminate.
Qed.
