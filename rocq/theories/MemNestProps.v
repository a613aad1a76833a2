(** Property of maps inside maps: C142. *)
From Coq Require Import ZArith Bool List String Lia Sorting.
From Verif Require Import Base StrModel ValModel NumModel MemModel MemProof MemFun MemEq MemDeref MemTriple MemArr MemKey MemElem MemList MemArrays MemText MemScalar ValSpec ValProof ArrSpec ArrFacts MemMapSpec MemMap MemLook MemMaps ArrProps MemMapProps MemNest.
Import ListNotations.
Local Open Scope list_scope.
Local Open Scope mem_scope.
Local Notation length := List.length.

(** * Specification *)
(** Variable [j] holds the map [l], in which the key [k] has another map [l2] as its value, with
    the entries [kvs2]; both can be changed. *)
Definition holds_nested (s : state) (j l : nat) (kvs : list (val * mvar)) (k : val) (l2 : nat) (kvs2 : list (val * mvar)) : Prop :=
  holds_map s j l kvs /\ value_of kvs k (MPtr l2) /\ l2 <> l /\ entries s l2 kvs2 /\ ordered kvs2 /\ refillable s l2.

(** * Proofs *)
Lemma nested_mappings : forall s j l kvs k l2 kvs2, reachable s -> holds_nested s j l kvs k l2 kvs2 ->
  exists e o o2, INV e [] s /\ mapping s l o kvs /\ mapping s l2 o2 kvs2 /\ keys_ok kvs.
Proof.
  intros s j l kvs k l2 kvs2 R (H & _ & _ & En & _ & Rf). destruct (holds_mapping s j l kvs R H) as (e & o & I & M). destruct (entries_mapping s l2 kvs2 R En Rf) as [o2 M2].
  exists e, o, o2. do 3 (split; auto). destruct H as (_ & E & _). eapply entries_keys; eauto.
Qed.
(** [var r = m[a][b]]: a reference to the entry of the inner map, which is added if it is not
    there; the outer map stays as it is. *)
Theorem C142_nested_subscript : forall s j l kvs ek k l2 kvs2 ek2 k2, reachable s -> holds_nested s j l kvs k l2 kvs2 -> small (S (length kvs)) -> small (S (length kvs2)) ->
  key_expr s l ek k -> key_expr s l2 ek2 k2 ->
  exists s' i kvs2', exec (SDecl (EKey (EKey (EVar j) ek) ek2)) s = ROk tt s' /\ looked_up k2 kvs2 i kvs2' /\
    stk s' = stk s ++ [MRef l2 i] /\ holds_nested s' j l kvs k l2 kvs2' /\ unchanged_but l2 s s'.
Proof.
  intros s j l kvs ek k l2 kvs2 ek2 k2 R H Sm Sm2 Ke Ke2. destruct (nested_mappings _ _ _ _ _ _ _ R H) as (e & o & o2 & I & M & M2 & Ko).
  destruct H as ((V & En & So & Rf) & Hv & Nl & En2 & So2 & Rf2).
  destruct (nest_decl e s j l ek k o kvs l2 ek2 k2 o2 kvs2 I V M So Sm Ke Ko Hv) as (s' & o' & i & kvs' & E & I' & Mv & St & M' & Lu & So' & Ml); auto.
  exists s', i, kvs'. do 3 (split; [solve [auto]|]). destruct (mapping_entries _ _ _ _ M') as [Ea Ra]. destruct (mapping_entries _ _ _ _ Ml) as [Eb Rb]. split.
  - split; [|auto 10]. split; [|auto]. unfold variable. rewrite St, nth_error_app1; auto. eapply ne_lt; eauto.
  - eapply moved_unchanged; eauto using self_app. destruct M2 as (O & _). eapply obj_lt; eauto.
Qed.
(** [m[a][b] = v]: the inner map binds the key to the value, and nothing else changes. *)
Theorem C142_nested_assignment : forall s j l kvs ek k l2 kvs2 ek2 k2 ev P, reachable s -> holds_nested s j l kvs k l2 kvs2 -> small (S (length kvs)) -> small (S (length kvs2)) ->
  key_expr s l ek k -> key_expr s l2 ek2 k2 -> value_expr s l2 ev P -> no_view s ev ->
  exists s' z kvs2', exec (SAssign (EKey (EKey (EVar j) ek) ek2) ev) s = ROk tt s' /\ P s' z /\ bound_to k2 z kvs2 kvs2' /\
    stk s' = stk s /\ holds_nested s' j l kvs k l2 kvs2' /\ unchanged_but l2 s s'.
Proof.
  intros s j l kvs ek k l2 kvs2 ek2 k2 ev P R H Sm Sm2 Ke Ke2 Ve Nw. destruct (nested_mappings _ _ _ _ _ _ _ R H) as (e & o & o2 & I & M & M2 & Ko).
  destruct H as ((V & En & So & Rf) & Hv & Nl & En2 & So2 & Rf2).
  destruct (nest_assign e s j l ek k o kvs l2 ek2 k2 o2 kvs2 ev P I V M So Sm Ke Ko Hv) as (s' & o' & z & kvs' & E & I' & Mv & St & En' & Bt & So' & HP & M' & Ml); auto.
  exists s', z, kvs'. do 4 (split; [solve [auto]|]). destruct (mapping_entries _ _ _ _ Ml) as [Eb Rb]. split.
  - split; [split; [unfold variable; rewrite St; auto|auto]|]. do 4 (split; [solve [auto]|]). apply (mapping_entries s' l2 o' kvs'). apply M'.
    destruct Ve as [ev x y Op D X|cs Sc].
    + destruct Nw as [[cs ->]|Nw]; [inversion Op|]. left. subst z. eauto.
    + right. intros (x & y & Op & _). inversion Op.
  - eapply moved_unchanged; eauto using self_app. destruct M2 as (O & _). eapply obj_lt; eauto.
Qed.
(** Afterwards the key has that value in the inner map, every other key the value it had, and the
    outer map the entries it had. *)
Theorem C142_nested_values : forall s j l kvs ek k l2 kvs2 ek2 k2 ev P, reachable s -> holds_nested s j l kvs k l2 kvs2 -> small (S (length kvs)) -> small (S (length kvs2)) ->
  key_expr s l ek k -> key_expr s l2 ek2 k2 -> value_expr s l2 ev P -> no_view s ev ->
  exists s' z kvs2', exec (SAssign (EKey (EKey (EVar j) ek) ek2) ev) s = ROk tt s' /\ P s' z /\ holds_nested s' j l kvs k l2 kvs2' /\
    (forall v, value_of kvs2' k2 v <-> v = z) /\ forall k3 v, key k3 -> ~ equal k3 k2 -> value_of kvs2' k3 v <-> value_of kvs2 k3 v.
Proof.
  intros s j l kvs ek k l2 kvs2 ek2 k2 ev P R H Sm Sm2 Ke Ke2 Ve Nw.
  destruct (C142_nested_assignment s j l kvs ek k l2 kvs2 ek2 k2 ev P R H Sm Sm2 Ke Ke2 Ve Nw) as (s' & z & kvs' & E & HP & Bt & St & H' & Un).
  destruct H as (_ & _ & _ & En & So & _). pose proof H' as (_ & _ & _ & En' & So' & _). pose proof (key_expr_key _ _ _ _ Ke2) as K.
  destruct (bound_values k2 z kvs2 kvs' So (entries_keys _ _ _ En) K Bt) as [B1 B2]. exists s', z, kvs'. do 3 (split; auto). split; auto.
  intros v. split; [|intros ->; auto]. intros Hv. eapply value_unique; eauto. eapply entries_keys; eauto.
Qed.
(** [x = m[a][b]] for a key that is there: the variable takes its value, and nothing else changes. *)
Theorem C142_nested_reading : forall s c old j l kvs ek k l2 kvs2 ek2 k2 v, reachable s -> holds_nested s j l kvs k l2 kvs2 -> small (S (length kvs)) -> small (S (length kvs2)) ->
  key_expr s l ek k -> key_expr s l2 ek2 k2 -> value_of kvs2 k2 v -> variable s c old -> assignable s old -> c <> j ->
  exists s', exec (SAssign (EVar c) (EKey (EKey (EVar j) ek) ek2)) s = ROk tt s' /\ stk s' = replaced (stk s) c v /\ holds_nested s' j l kvs k l2 kvs2 /\ unchanged_but l2 s s'.
Proof.
  intros s c old j l kvs ek k l2 kvs2 ek2 k2 v R H Sm Sm2 Ke Ke2 Hv2 Vc As Nc. destruct (nested_mappings _ _ _ _ _ _ _ R H) as (e & o & o2 & I & M & M2 & Ko).
  destruct H as ((V & En & So & Rf) & Hv & Nl & En2 & So2 & Rf2). pose proof M as (Ol & _). pose proof (obj_lt _ _ _ Ol) as Ll. pose proof M2 as (Ol2 & V2 & T2 & _). pose proof (obj_lt _ _ _ Ol2) as Ll2.
  destruct (eval_nest e s s j l ek k o kvs l2 ek2 k2 o2 kvs2 I (grew_refl s) V M Ll So Sm Ke Ko Hv) as (s1 & r & o2' & i & kvs2' & E1 & I1 & Nr & Mv & M1 & Lu & So' & Lr); auto.
  pose proof (entries_keys _ _ _ En2) as Ko2. pose proof (key_expr_key _ _ _ _ Ke2) as K2.
  destruct (looked_nth _ _ _ _ Lu) as (k' & w & Nw' & Hw). destruct (looked_values k2 kvs2 i kvs2' v So2 Ko2 K2 Lu Hv2) as (-> & Nv).
  destruct (map_cell _ _ _ _ _ _ _ M1 Nw') as [D Nf].
  assert (w = v) by (destruct Nv as (k'' & Nv); congruence). subst w.
  apply assignable_ok in As as [No Nw]. pose proof Mv as (O1 & ms & ws & St1 & Lm1 & Ob1). simpl in St1.
  destruct (assign_var_gives e s (EKey (EKey (EVar j) ek) ek2) s1 r ws (MRef l2 i) v c old) as (s' & E & I' & Sh); auto.
  { intros m a -> Oa. destruct (Nat.eq_dec m l2) as [->|Nm]; [destruct M1 as (O3 & V3 & _); congruence|].
    assert (Lm : live m s) by (eapply inv_stk; [apply I|eapply nth_error_In; exact Vc|reflexivity]). apply live_obj in Lm as [a' Oa'].
    assert (obj m s = Some a) by (eapply moved_other; eauto using obj_lt). apply (Nw m a); auto. }
  destruct Sh as (A & B & C). simpl in A, B. assert (Lc : c < length (stk s)) by (eapply ne_lt; eauto).
  assert (Vj : variable s' j (MPtr l)) by (unfold variable; rewrite A, sn_other; auto).
  assert (Ot : forall m a, m <> l2 -> m < length (mem s) -> obj m s' = Some a -> obj m s = Some a) by (intros m a Nm Lm Oa; apply C in Oa; eapply moved_other; eauto).
  assert (O' : obj l s' = Some o).
  { assert (Lv : live l s') by (eapply inv_stk; [apply I'|eapply nth_error_In; exact Vj|reflexivity]). apply live_obj in Lv as [a Oa]. rewrite Oa. rewrite <- Ol. symmetry. apply Ot; auto. }
  assert (O2' : obj l2 s' = Some o2').
  { assert (Lv : live l2 s') by (eapply (cell_entry_live e [] s s' l o kvs k l2); eauto). apply live_obj in Lv as [a Oa]. rewrite Oa. apply C in Oa. unfold obj in Oa, O1. simpl in Oa. congruence. }
  assert (M2' : mapping s' l2 o2' kvs2) by (apply (mapping_within e [] s1 s'); auto; split; auto). pose proof M2' as (_ & V2' & _).
  assert (M' : mapping s' l o kvs) by (apply (mapping_other e e [] s s' l o kvs l2 o2 o2'); auto).
  destruct (mapping_entries _ _ _ _ M2') as [Ea Ra]. destruct (mapping_entries _ _ _ _ M') as [Eb Rb].
  exists s'. split; auto. split; [rewrite A; symmetry; apply replaced_sn; auto|]. split.
  - split; [split; auto|]. auto 10.
  - intros m a Nm Lm Oa. apply obj_live. apply obj_live in Oa. auto.
Qed.
(** [m[a][b] = v] where [a] is not a key of the map, or its value is not defined: the outer map
    binds it to a new map whose only entry is the value assigned. *)
Theorem C142_assignment_makes_the_inner_map : forall s j l kvs ek k ek2 k2 ev P, reachable s -> holds_map s j l kvs -> small (S (length kvs)) -> key_expr s l ek k -> key_expr s l ek2 k2 ->
  (forall v, value_of kvs k v -> v = MNil) -> value_expr s l ev P -> no_view s ev -> (forall x, operand s ev x -> ~ denotes s x (MPtr l)) ->
  exists s' l2 z kvs', exec (SAssign (EKey (EKey (EVar j) ek) ek2) ev) s = ROk tt s' /\ P s' z /\ length (mem s) <= l2 /\ bound_to k (MPtr l2) kvs kvs' /\
    stk s' = stk s /\ holds_nested s' j l kvs' k l2 [(k2, z)] /\ unchanged_but l s s'.
Proof.
  intros s j l kvs ek k ek2 k2 ev P R H Sm Ke Ke2 Hv Ve Nw Nl. destruct (holds_mapping s j l kvs R H) as (e & o & I & M). destruct H as (V & En & So & Rf).
  pose proof (key_expr_key _ _ _ _ Ke) as Kk.
  destruct (nest_new_assign e s j l ek k o kvs ek2 k2 ev P I V M So Sm Ke (entries_keys _ _ _ En) Hv Ke2 Ve Nw Nl) as (s' & n & z & ol & o' & kvs' & E & I' & St & Ln & Ml & Bt & So' & M' & HP & Ot).
  exists s', n, z, kvs'. do 5 (split; [solve [auto]|]). destruct (mapping_entries _ _ _ _ Ml) as [Eb Rb]. destruct (mapping_entries _ _ _ _ M') as [Ea Ra]. split.
  - destruct (bound_values k (MPtr n) kvs kvs' So (entries_keys _ _ _ En) Kk Bt) as [B1 _].
    split; [split; [unfold variable; rewrite St; auto|auto]|]. split; auto. split; [destruct M as (O & _); apply obj_lt in O; lia|]. split; auto. split; auto. repeat constructor.
  - intros m a Nm Lm Oa. apply obj_live in Oa. apply obj_live. auto.
Qed.
(** Reading [m[a][b]] there makes the inner map too, with an undefined value. *)
Theorem C142_subscript_makes_the_inner_map : forall s j l kvs ek k ek2 k2, reachable s -> holds_map s j l kvs -> small (S (length kvs)) -> key_expr s l ek k -> key_expr s l ek2 k2 ->
  (forall v, value_of kvs k v -> v = MNil) ->
  exists s' l2 kvs', exec (SDecl (EKey (EKey (EVar j) ek) ek2)) s = ROk tt s' /\ length (mem s) <= l2 /\ bound_to k (MPtr l2) kvs kvs' /\
    stk s' = stk s ++ [MRef l2 0] /\ holds_nested s' j l kvs' k l2 [(k2, MNil)] /\ unchanged_but l s s'.
Proof.
  intros s j l kvs ek k ek2 k2 R H Sm Ke Ke2 Hv. destruct (holds_mapping s j l kvs R H) as (e & o & I & M). destruct H as (V & En & So & Rf).
  pose proof (key_expr_key _ _ _ _ Ke) as Kk.
  destruct (nest_new_decl e s j l ek k o kvs ek2 k2 I V M So Sm Ke (entries_keys _ _ _ En) Hv Ke2) as (s' & n & ol & o' & kvs' & E & I' & St & Ln & Ml & Bt & So' & M' & Ot).
  exists s', n, kvs'. do 4 (split; [solve [auto]|]). destruct (mapping_entries _ _ _ _ Ml) as [Eb Rb]. destruct (mapping_entries _ _ _ _ M') as [Ea Ra]. split.
  - destruct (bound_values k (MPtr n) kvs kvs' So (entries_keys _ _ _ En) Kk Bt) as [B1 _].
    split; [split; [unfold variable; rewrite St, nth_error_app1; auto; eapply ne_lt; eauto|auto]|]. split; auto. split; [destruct M as (O & _); apply obj_lt in O; lia|]. split; auto. split; auto. repeat constructor.
  - intros m a Nm Lm Oa. apply obj_live in Oa. apply obj_live. auto.
Qed.

(** * Examples *)
Local Open Scope Z_scope.
(** A map with a number under "a", a map of two numbers under "b", and a string. *)
Definition nest : list stmt :=
  [SDecl ENil; SAssign (EKey (EVar 0) (EStr [97])) (ENum (VInt 1)); SAssign (EKey (EKey (EVar 0) (EStr [98])) (EStr [120])) (ENum (VInt 2));
   SAssign (EKey (EKey (EVar 0) (EStr [98])) (EStr [121])) (ENum (VInt 3)); SDecl (EStr [120])].
Definition s_nest : state := Eval vm_compute in after nest.
Definition outer : list (val * mvar) := [(text [97], MNum (VInt 1)); (text [98], MPtr 4)].
Definition inner : list (val * mvar) := [(text [120], MNum (VInt 2)); (text [121], MNum (VInt 3))].
Lemma nest_reached : reachable s_nest. Proof. exists nest. vm_compute. reflexivity. Qed.
Lemma nest_outer : holds_map s_nest 0 1 outer.
Proof.
  split; [reflexivity|]. split; [|split; [in_order|refill]]. exists [(MPtr 0, MNum (VInt 1)); (MPtr 2, MPtr 4)]. split; [found|].
  repeat (apply Forall2_cons; [split; [apply reads_text; [text_key|found]|reflexivity]|]). apply Forall2_nil.
Qed.
Lemma nest_nested : holds_nested s_nest 0 1 outer (text [98]) 4 inner.
Proof.
  split; [exact nest_outer|]. split; [in_dict|]. split; [discriminate|]. split; [|split; [in_order|refill]]. exists [(MPtr 3, MNum (VInt 2)); (MPtr 6, MNum (VInt 3))]. split; [found|].
  repeat (apply Forall2_cons; [split; [apply reads_text; [text_key|found]|reflexivity]|]). apply Forall2_nil.
Qed.
Lemma nest_key : forall l c, key (text [c]) -> key_expr s_nest l (EStr [c]) (text [c]).
Proof. intros l c K. apply (ke_string s_nest l [c]); [exact K|reflexivity]. Qed.
Lemma nest_var : key_expr s_nest 4 (EVar 1) (text [120]).
Proof. apply (ke_operand s_nest 4 (EVar 1) (MPtr 7) (MPtr 7)); [constructor; reflexivity|reflexivity|apply reads_text; [text_key|found]|discriminate]. Qed.
Lemma nest_value : forall l, value_expr s_nest l (ENum (VInt 7)) (fun _ z => z = MNum (VInt 7)).
Proof. intros l. apply (ve_operand s_nest l (ENum (VInt 7)) (MNum (VInt 7)) (MNum (VInt 7))); [constructor; reflexivity|reflexivity|discriminate]. Qed.
Lemma nest_value_plain : no_view s_nest (ENum (VInt 7)).
Proof. right. intros x y Op D. inversion Op; subst. simpl in D. subst y. apply plain_value. reflexivity. Qed.
Example C142_subscript_example : exists s' i kvs2', exec (SDecl (EKey (EKey (EVar 0) (EStr [98])) (EVar 1))) s_nest = ROk tt s' /\ looked_up (text [120]) inner i kvs2' /\
  stk s' = stk s_nest ++ [MRef 4 i] /\ holds_nested s' 0 1 outer (text [98]) 4 kvs2' /\ unchanged_but 4 s_nest s'.
Proof. apply (C142_nested_subscript s_nest 0 1 outer (EStr [98]) (text [98]) 4 inner (EVar 1) (text [120]) nest_reached nest_nested eq_refl eq_refl); [apply nest_key; text_key|exact nest_var]. Qed.
Example C142_assignment_example : exists s' z kvs2', exec (SAssign (EKey (EKey (EVar 0) (EStr [98])) (EStr [65])) (ENum (VInt 7))) s_nest = ROk tt s' /\ z = MNum (VInt 7) /\ bound_to (text [65]) z inner kvs2' /\
  stk s' = stk s_nest /\ holds_nested s' 0 1 outer (text [98]) 4 kvs2' /\ unchanged_but 4 s_nest s'.
Proof.
  apply (C142_nested_assignment s_nest 0 1 outer (EStr [98]) (text [98]) 4 inner (EStr [65]) (text [65]) (ENum (VInt 7)) _ nest_reached nest_nested eq_refl eq_refl);
    [apply nest_key; text_key|apply nest_key; text_key|apply nest_value|exact nest_value_plain].
Qed.
Example C142_values_example : exists s' z kvs2', exec (SAssign (EKey (EKey (EVar 0) (EStr [98])) (EVar 1)) (ENum (VInt 7))) s_nest = ROk tt s' /\ z = MNum (VInt 7) /\
  holds_nested s' 0 1 outer (text [98]) 4 kvs2' /\ (forall v, value_of kvs2' (text [120]) v <-> v = z) /\ forall k3 v, key k3 -> ~ equal k3 (text [120]) -> value_of kvs2' k3 v <-> value_of inner k3 v.
Proof.
  apply (C142_nested_values s_nest 0 1 outer (EStr [98]) (text [98]) 4 inner (EVar 1) (text [120]) (ENum (VInt 7)) _ nest_reached nest_nested eq_refl eq_refl);
    [apply nest_key; text_key|exact nest_var|apply nest_value|exact nest_value_plain].
Qed.
Example C142_reading_example : exists s', exec (SAssign (EVar 1) (EKey (EKey (EVar 0) (EStr [98])) (EStr [121]))) s_nest = ROk tt s' /\ stk s' = [MPtr 1; MNum (VInt 3)] /\
  holds_nested s' 0 1 outer (text [98]) 4 inner /\ unchanged_but 4 s_nest s'.
Proof.
  apply (C142_nested_reading s_nest 1 (MPtr 7) 0 1 outer (EStr [98]) (text [98]) 4 inner (EStr [121]) (text [121]) (MNum (VInt 3)) nest_reached nest_nested eq_refl eq_refl);
    [apply nest_key; text_key|apply nest_key; text_key|in_dict|reflexivity| |discriminate].
  split; [discriminate|]. intros k o E O. injection E as <-. vm_compute in O. injection O as <-. reflexivity.
Qed.
Lemma nest_no_c : forall v, value_of outer (text [99]) v -> v = MNil.
Proof. intros v (k & H & E). repeat destruct H as [H|H]; try contradiction; injection H as <- <-; vm_compute in E; discriminate. Qed.
Example C142_new_example : exists s' l2 z kvs', exec (SAssign (EKey (EKey (EVar 0) (EStr [99])) (EVar 1)) (ENum (VInt 7))) s_nest = ROk tt s' /\ z = MNum (VInt 7) /\ (length (mem s_nest) <= l2)%nat /\
  bound_to (text [99]) (MPtr l2) outer kvs' /\ stk s' = stk s_nest /\ holds_nested s' 0 1 kvs' (text [99]) l2 [(text [120], z)] /\ unchanged_but 1 s_nest s'.
Proof.
  apply (C142_assignment_makes_the_inner_map s_nest 0 1 outer (EStr [99]) (text [99]) (EVar 1) (text [120]) (ENum (VInt 7)) _ nest_reached nest_outer eq_refl);
    [apply nest_key; text_key| |exact nest_no_c|apply nest_value|exact nest_value_plain|intros x Op D; inversion Op; subst; discriminate D].
  apply (ke_operand s_nest 1 (EVar 1) (MPtr 7) (MPtr 7)); [constructor; reflexivity|reflexivity|apply reads_text; [text_key|found]|discriminate].
Qed.
Example C142_new_subscript_example : exists s' l2 kvs', exec (SDecl (EKey (EKey (EVar 0) (EStr [99])) (EStr [100]))) s_nest = ROk tt s' /\ (length (mem s_nest) <= l2)%nat /\
  bound_to (text [99]) (MPtr l2) outer kvs' /\ stk s' = stk s_nest ++ [MRef l2 0] /\ holds_nested s' 0 1 kvs' (text [99]) l2 [(text [100], MNil)] /\ unchanged_but 1 s_nest s'.
Proof.
  apply (C142_subscript_makes_the_inner_map s_nest 0 1 outer (EStr [99]) (text [99]) (EStr [100]) (text [100]) nest_reached nest_outer eq_refl);
    [apply nest_key; text_key|apply nest_key; text_key|exact nest_no_c].
Qed.
