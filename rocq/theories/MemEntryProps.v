(** Property of arrays inside maps: C143. *)
From Coq Require Import ZArith Bool List String Lia Sorting.
From Verif Require Import Base StrModel ValModel NumModel MemModel MemProof MemFun MemEq MemDeref MemTriple MemArr MemKey MemElem MemList MemArrays MemText MemScalar ValSpec ValProof ArrSpec ArrFacts MemMapSpec MemMap MemLook MemMaps ArrProps MemMapProps MemThrow MemNest MemEntry.
Import ListNotations.
Local Open Scope list_scope.
Local Open Scope mem_scope.
Local Notation length := List.length.

(** * Specification *)
(** Variable [j] holds the map [l], in which the key [k] has the array [m] as its value, with the
    elements [xs] of type [t]. *)
Definition holds_array (s : state) (j l : nat) (kvs : list (val * mvar)) (k : val) (m : nat) (t : hty) (xs : list mvar) : Prop :=
  holds_map s j l kvs /\ value_of kvs k (MPtr m) /\ m <> l /\ array_at s m t xs.
(** The array [m] is none of the keys of the map [l]. *)
Definition not_a_key (s : state) (l m : nat) : Prop := forall ms, map_at s l ms -> ~ In (MPtr m) (map fst ms).

(** * Proofs *)
Lemma not_a_key_cells : forall s l o kvs m, mapping s l o kvs -> not_a_key s l m -> no_key o (length kvs) m.
Proof.
  intros s l o kvs m (O & V & T & _ & Sz & Lc & Ce) Nk i c v Li Nc ->.
  assert (Lf : length (firstn (length kvs) (h_cells o)) = length kvs) by (rewrite firstn_length; lia).
  apply (Nk (firstn (length kvs) (h_cells o))).
  - exists o. split; [apply obj_live; auto|]. split; auto. split; auto. split; rewrite Lf; auto.
  - apply in_map_iff. exists (MPtr m, v). split; auto. apply (nth_error_In _ i). rewrite nth_firstn. destruct (Nat.ltb_spec i (length kvs)); [exact Nc|lia].
Qed.
Lemma forall2_in : forall A B (P : A -> B -> Prop) xs ys, Forall2 P xs ys -> forall x, In x xs -> exists y, In y ys /\ P x y.
Proof. intros A B P xs ys F. induction F as [|x y xs ys H F IH]; intros z []; [subst; exists y; simpl; auto|]. destruct (IH z H0) as (w & ? & ?). exists w. simpl. auto. Qed.
(** Strings only can be keys. *)
Lemma other_not_a_key : forall s l kvs m t xs, entries s l kvs -> array_at s m t xs -> t <> HE TChar -> not_a_key s l m.
Proof.
  intros s l kvs m t xs (ms & Ma & F) (o & O & V & T & _) Nt ms' Ma' Hin. assert (ms' = ms).
  { destruct Ma as (o1 & A1 & A2 & A3 & A4 & A5), Ma' as (o2 & B1 & B2 & B3 & B4 & B5). assert (o2 = o1) by congruence. subst o2. assert (L : length ms' = length ms) by congruence. rewrite L in B5. congruence. }
  subst ms'. apply in_map_iff in Hin as ([c v] & E & Hin). simpl in E. subst c. 
  destruct (forall2_in _ _ _ _ _ F (MPtr m, v) Hin) as (kv & _ & [_ [[_ X]|(l' & cs & X & _ & (o' & O' & _ & T' & _))]] & _); simpl in X; [discriminate|]. injection X as <-. congruence.
Qed.
(** [m[a].push(f)]: the array under the key gets one more element; the map, the variables and
    every other array stay as they are. *)
Theorem C143_push : forall s j l kvs ek k m t xs f x y z, reachable s -> holds_array s j l kvs k m t xs -> not_a_key s l m -> writable s m t -> small (S (length kvs)) -> small (S (length xs)) ->
  key_expr s l ek k -> operand s f x -> denotes s x y -> stored t y z ->
  exists s', exec (SPush (EKey (EVar j) ek) f) s = ROk tt s' /\ stk s' = stk s /\ holds_array s' j l kvs k m t (xs ++ [z]) /\ unchanged_but m s s' /\ (t = HE TChar -> terminated s' m).
Proof.
  intros s j l kvs ek k m t xs f x y z R (H & Hv & Ne & A) Nk W Sm Sx Ke Op D St. destruct (holds_mapping s j l kvs R H) as (e & o & I & M). destruct H as (V & En & So & Rf).
  destruct (array_obj _ _ _ _ A) as (om & Om & Vm & Ty & Sz & Lc & Hx). unfold small in Sx.
  destruct (entry_push e s j l ek k o kvs m om f x y z) as (s' & o' & E & I' & Mv & Ss & M' & P); auto; try lia; try congruence.
  - eapply entries_keys; eauto.
  - eapply not_a_key_cells; eauto.
  - eapply writable_ok; eauto. rewrite Ty; auto.
  - exists s'. split; auto. split; auto. rewrite Sz in P.
    destruct (pushed_array s' m om o' z xs (proj1 Mv) Vm Sz Lc Hx P) as [X N]. destruct (mapping_entries _ _ _ _ M') as [En' Rf'].
    split; [|split].
    + split; [split; [unfold variable; rewrite Ss; auto|auto]|]. split; auto. split; auto. rewrite <- Ty; auto.
    + eapply moved_unchanged; eauto using self_app. eapply obj_lt; eauto.
    + intros C. eapply nul_terminated; [apply Mv|]. apply N. rewrite Ty, C. reflexivity.
Qed.
(** [m[a][n] = f]: the element is replaced, and nothing else changes. *)
Theorem C143_element_assignment : forall s j l kvs ek k m t xs n f x y z, reachable s -> holds_array s j l kvs k m t xs -> not_a_key s l m -> writable s m t -> small (S (length kvs)) -> n < length xs ->
  key_expr s l ek k -> operand s f x -> denotes s x y -> stored t y z -> (holds_vars t -> x <> MRef m n) ->
  exists s', exec (SAssign (EIdx (EKey (EVar j) ek) (Z.of_nat n)) f) s = ROk tt s' /\ stk s' = stk s /\ holds_array s' j l kvs k m t (replaced xs n z) /\ unchanged_but m s s'.
Proof.
  intros s j l kvs ek k m t xs n f x y z R (H & Hv & Ne & A) Nk W Sm Ln Ke Op D St X. destruct (holds_mapping s j l kvs R H) as (e & o & I & M). destruct H as (V & En & So & Rf).
  destruct (array_obj _ _ _ _ A) as (om & Om & Vm & Ty & Sz & Lc & Hx).
  destruct (entry_elem_assign e s j l ek k o kvs m om n f x y z) as (s' & E & I' & Mv & Ss & M'); auto; try lia; try congruence.
  - eapply entries_keys; eauto.
  - eapply not_a_key_cells; eauto.
  - eapply writable_ok; eauto. rewrite Ty; auto.
  - intros Vl. apply X. rewrite <- Ty. apply holds_varlike_iff; auto.
  - exists s'. split; auto. split; auto. destruct (mapping_entries _ _ _ _ M') as [En' Rf']. destruct (set_val_alike om n z) as (A1 & A2 & A3 & A4 & A5).
    split; [|eapply moved_unchanged; eauto using self_app; eapply obj_lt; eauto].
    split; [split; [unfold variable; rewrite Ss; auto|auto]|]. split; auto. split; auto.
    rewrite replaced_sn by auto. rewrite <- Ty, <- A1. apply list_array; auto; [apply Mv|congruence|rewrite sn_length; congruence|].
    intros i K. rewrite sn_length in K. rewrite set_val_at by lia. rewrite Hx by auto. destruct (Nat.eqb_spec i n) as [->|Dk]; [rewrite sn_same; auto|rewrite sn_other; auto].
Qed.
(** [x = m[a][n]]: the variable takes the value of the element, and nothing else changes. *)
Theorem C143_element_reading : forall s c old j l kvs ek k m t xs n v, reachable s -> holds_array s j l kvs k m t xs -> small (S (length kvs)) -> nth_error xs n = Some v -> value v ->
  key_expr s l ek k -> variable s c old -> assignable s old -> c <> j ->
  exists s', exec (SAssign (EVar c) (EIdx (EKey (EVar j) ek) (Z.of_nat n))) s = ROk tt s' /\ stk s' = replaced (stk s) c v /\ holds_array s' j l kvs k m t xs /\
    forall i o, i < length (mem s) -> nth_error (mem s') i = Some (Some o) -> nth_error (mem s) i = Some (Some o).
Proof.
  intros s c old j l kvs ek k m t xs n v R (H & Hv & Ne & A) Sm Nv [Vj Vr] Ke Vc As Nc. destruct (holds_mapping s j l kvs R H) as (e & o & I & M). destruct H as (V & En & So & Rf).
  destruct (array_obj _ _ _ _ A) as (om & Om & Vm & Ty & Sz & Lc & Hx). assert (Ln : n < length xs) by (eapply ne_lt; eauto). pose proof M as (Ol & _). pose proof (obj_lt _ _ _ Ol) as Ll.
  destruct (eval_elem e s s j l ek k o kvs m om n) as (s1 & r & E1 & I1 & G1 & Nr & Lr & _); auto using grew_refl; try lia.
  { eapply entries_keys; eauto. }
  assert (D : denotes s1 (MRef m n) v).
  { apply (grew_denotes s); auto. pose proof (Hx n Ln) as Q. rewrite Nv in Q. apply val_at_cell in Q as [kc Q]. exists om, kc. split; [apply obj_live; auto|]. rewrite Sz. auto 10. }
  destruct (denotes_der _ _ _ D) as [Dd Nn]. pose proof G1 as [[ms Em] [ws Es]]. apply assignable_ok in As as [No Nw].
  destruct (assign_var_gives e s (EIdx (EKey (EVar j) ek) (Z.of_nat n)) s1 r ws (MRef m n) v c old) as (s' & E & I' & Sh); auto.
  { apply (grew_held_view e [] s s1); auto. apply (getv_held (LS c)); auto. apply (INV_sound _ _ _ I). }
  destruct Sh as (Sa & Sb & Sc). simpl in Sa, Sb. assert (Lc' : c < length (stk s)) by (eapply ne_lt; eauto).
  assert (Vj' : variable s' j (MPtr l)) by (unfold variable; rewrite Sa, sn_other; auto).
  assert (Un : forall i a, i < length (mem s) -> obj i s' = Some a -> obj i s = Some a).
  { intros i a Li Oa. apply Sc in Oa. unfold obj in *. simpl in Oa. rewrite Em, nth_error_app1 in Oa; auto. }
  assert (O' : obj l s' = Some o).
  { assert (Lv : live l s') by (eapply inv_stk; [apply I'|eapply nth_error_In; exact Vj'|reflexivity]). apply live_obj in Lv as [a Oa]. rewrite Oa. rewrite <- Ol. symmetry. auto. }
  assert (M1 : mapping s1 l o kvs) by (eapply mapping_grew; eauto).
  assert (M' : mapping s' l o kvs) by (apply (mapping_within e [] s1 s'); auto; split; auto).
  assert (Om' : obj m s' = Some om).
  { assert (Lv : live m s') by (eapply (cell_entry_live e [] s s' l o kvs k m); eauto). apply live_obj in Lv as [a Oa]. rewrite Oa. rewrite <- Om. symmetry. apply Un; auto. eapply obj_lt; eauto. }
  destruct (mapping_entries _ _ _ _ M') as [En' Rf'].
  exists s'. split; auto. split; [rewrite Sa; symmetry; apply replaced_sn; auto|]. split.
  - split; [split; auto|]. split; auto. split; auto. destruct A as (o2 & B1 & B2). assert (o2 = om) by (apply obj_live in B1; congruence). subst o2. exists om. split; [apply obj_live; auto|auto].
  - intros i a Li Oa. apply obj_live. apply obj_live in Oa. auto.
Qed.
(** [m[a].push(f)] where [a] is not a key of the map, or its value is not defined, and [f] is a
    number: the entry becomes the number, not an array of it. *)
Theorem C143_push_on_undefined : forall s j l kvs ek k f x v, reachable s -> holds_map s j l kvs -> small (S (length kvs)) -> key_expr s l ek k -> (forall w, value_of kvs k w -> w = MNil) ->
  operand s f x -> denotes s x (MNum v) -> (forall i, x <> MRef l i) ->
  exists s' kvs', exec (SPush (EKey (EVar j) ek) f) s = ROk tt s' /\ stk s' = stk s /\ bound_to k (MNum v) kvs kvs' /\ holds_map s' j l kvs' /\ unchanged_but l s s'.
Proof.
  intros s j l kvs ek k f x v R H Sm Ke Hv Op D X. pose proof (reachable_number _ _ _ _ R Op D) as Nv. destruct (holds_mapping s j l kvs R H) as (e & o & I & M). destruct H as (V & En & So & Rf).
  destruct (entry_push_new e s j l ek k o kvs f x v) as (s' & o' & kvs' & E & I' & Mv & St & Bt & So' & M'); auto.
  - eapply entries_keys; eauto.
  - apply proper_exact, reachable_proper; auto.
  - simpl. destruct v; simpl in *; discriminate.
  - exists s', kvs'. do 3 (split; auto). destruct (mapping_entries _ _ _ _ M') as [En' Rf']. split.
    + split; [unfold variable; rewrite St; auto|auto].
    + eapply moved_unchanged; eauto using self_app. destruct M as (O & _). eapply obj_lt; eauto.
Qed.

(** * Examples *)
Local Open Scope Z_scope.
(** A map with an array of two ints under "b" and a number under "c"; variable 1 holds the array too. *)
Definition lists : list stmt :=
  [SDecl ENil; SDecl ENil; SPush (EVar 1) (ENum (VInt 4)); SPush (EVar 1) (ENum (VInt 5)); SAssign (EKey (EVar 0) (EStr [98])) (EVar 1);
   SAssign (EKey (EVar 0) (EStr [99])) (ENum (VInt 9)); SDecl (EStr [98])].
Definition s_lists : state := Eval vm_compute in after lists.
Definition listed : list (val * mvar) := [(text [98], MPtr 0); (text [99], MNum (VInt 9))].
Lemma lists_reached : reachable s_lists. Proof. exists lists. vm_compute. reflexivity. Qed.
Lemma lists_array : holds_array s_lists 0 2 listed (text [98]) 0 (HE TInt) [MNum (VInt 4); MNum (VInt 5)].
Proof.
  split; [|split; [in_dict|split; [discriminate|found]]].
  split; [reflexivity|]. split; [|split; [in_order|refill]]. exists [(MPtr 1, MPtr 0); (MPtr 3, MNum (VInt 9))]. split; [found|].
  repeat (apply Forall2_cons; [split; [apply reads_text; [text_key|found]|reflexivity]|]). apply Forall2_nil.
Qed.
Lemma lists_no_key : not_a_key s_lists 2 0.
Proof. destruct lists_array as ((_ & En & _) & _ & _ & A). eapply other_not_a_key; eauto. discriminate. Qed.
Lemma lists_writable : writable s_lists 0 (HE TInt). Proof. intros [X|X]; discriminate. Qed.
Lemma lists_key : key_expr s_lists 2 (EVar 2) (text [98]).
Proof. apply (ke_operand s_lists 2 (EVar 2) (MPtr 4) (MPtr 4)); [constructor; reflexivity|reflexivity|apply reads_text; [text_key|found]|discriminate]. Qed.
(** [m[s].push(a[0])], where [s] is "b" and [a] the array itself. *)
Example C143_push_example : exists s', exec (SPush (EKey (EVar 0) (EVar 2)) (EIdx (EVar 1) 0)) s_lists = ROk tt s' /\ stk s' = stk s_lists /\
  holds_array s' 0 2 listed (text [98]) 0 (HE TInt) [MNum (VInt 4); MNum (VInt 5); MNum (VInt 4)] /\ unchanged_but 0 s_lists s' /\ (HE TInt = HE TChar -> terminated s' 0).
Proof.
  apply (C143_push s_lists 0 2 listed (EVar 2) (text [98]) 0 (HE TInt) [MNum (VInt 4); MNum (VInt 5)] (EIdx (EVar 1) 0) (MRef 0 0) (MNum (VInt 4)) (MNum (VInt 4))
           lists_reached lists_array lists_no_key lists_writable eq_refl eq_refl lists_key).
  - apply (op_idx s_lists 1 0 (HE TInt) [MNum (VInt 4); MNum (VInt 5)] 0); [reflexivity|found|split; [discriminate|reflexivity]].
  - eexists. exists MNil. vm_compute. repeat split; auto; discriminate.
  - exists (VInt 4), (VInt 4). auto.
Qed.
Example C143_assignment_example : exists s', exec (SAssign (EIdx (EKey (EVar 0) (EStr [98])) 1) (ENum (VInt 7))) s_lists = ROk tt s' /\ stk s' = stk s_lists /\
  holds_array s' 0 2 listed (text [98]) 0 (HE TInt) [MNum (VInt 4); MNum (VInt 7)] /\ unchanged_but 0 s_lists s'.
Proof.
  apply (C143_element_assignment s_lists 0 2 listed (EStr [98]) (text [98]) 0 (HE TInt) [MNum (VInt 4); MNum (VInt 5)] 1 (ENum (VInt 7)) (MNum (VInt 7)) (MNum (VInt 7)) (MNum (VInt 7))
           lists_reached lists_array lists_no_key lists_writable eq_refl).
  - simpl. auto.
  - apply (ke_string s_lists 2 [98]); [text_key|reflexivity].
  - constructor. reflexivity.
  - reflexivity.
  - exists (VInt 7), (VInt 7). auto.
  - discriminate.
Qed.
Example C143_reading_example : exists s', exec (SAssign (EVar 2) (EIdx (EKey (EVar 0) (EStr [98])) 1)) s_lists = ROk tt s' /\ stk s' = [MPtr 2; MPtr 0; MNum (VInt 5)] /\
  holds_array s' 0 2 listed (text [98]) 0 (HE TInt) [MNum (VInt 4); MNum (VInt 5)] /\
    forall i o, (i < length (mem s_lists))%nat -> nth_error (mem s') i = Some (Some o) -> nth_error (mem s_lists) i = Some (Some o).
Proof.
  apply (C143_element_reading s_lists 2 (MPtr 4) 0 2 listed (EStr [98]) (text [98]) 0 (HE TInt) [MNum (VInt 4); MNum (VInt 5)] 1 (MNum (VInt 5)) lists_reached lists_array eq_refl eq_refl).
  - split; [discriminate|discriminate].
  - apply (ke_string s_lists 2 [98]); [text_key|reflexivity].
  - reflexivity.
  - split; [discriminate|]. intros k o E O. injection E as <-. vm_compute in O. injection O as <-. reflexivity.
  - discriminate.
Qed.
(** [m["a"].push(a[1])], where "a" is not a key. *)
Example C143_undefined_example : exists s' kvs', exec (SPush (EKey (EVar 0) (EStr [97])) (EIdx (EVar 1) 1)) s_lists = ROk tt s' /\ stk s' = stk s_lists /\ bound_to (text [97]) (MNum (VInt 5)) listed kvs' /\
  holds_map s' 0 2 kvs' /\ unchanged_but 2 s_lists s'.
Proof.
  apply (C143_push_on_undefined s_lists 0 2 listed (EStr [97]) (text [97]) (EIdx (EVar 1) 1) (MRef 0 1) (VInt 5) lists_reached (proj1 lists_array) eq_refl).
  - apply (ke_string s_lists 2 [97]); [text_key|reflexivity].
  - intros v (k & H & E). repeat destruct H as [H|H]; try contradiction; injection H as <- <-; vm_compute in E; discriminate.
  - apply (op_idx s_lists 1 0 (HE TInt) [MNum (VInt 4); MNum (VInt 5)] 1); [reflexivity|found|split; [discriminate|reflexivity]].
  - eexists. exists MNil. vm_compute. repeat split; auto; discriminate.
  - discriminate.
Qed.
(** A string that is both a key and its value is one array: pushing on the value changes the key,
    and the map is no longer in order.  [var m, s = "b"; m[s] = s; m["ba"] = 1; m["b"].push('b')]
    leaves the keys "bb" and "ba". *)
Definition keyed : list stmt :=
  [SDecl ENil; SDecl (EStr [98]); SAssign (EKey (EVar 0) (EVar 1)) (EVar 1); SAssign (EKey (EVar 0) (EStr [98; 97])) (ENum (VInt 1))].
Definition s_keyed : state := Eval vm_compute in after keyed.
Definition keyed_before : list (val * mvar) := [(text [98], MPtr 0); (text [98; 97], MNum (VInt 1))].
Definition keyed_after : list (val * mvar) := [(text [98; 98], MPtr 0); (text [98; 97], MNum (VInt 1))].
Theorem C143_order_refuted : exists s j l kvs ek k m xs f x s' kvs', reachable s /\ holds_array s j l kvs k m (HE TChar) xs /\ small (S (length kvs)) /\ small (S (length xs)) /\ key_expr s l ek k /\
  operand s f x /\ stored (HE TChar) x x /\ exec (SPush (EKey (EVar j) ek) f) s = ROk tt s' /\ entries s' l kvs' /\ ~ ordered kvs'.
Proof.
  exists s_keyed, 0%nat, 1%nat, keyed_before, (EStr [98]), (text [98]), 0%nat, [MNum (VChar 98)], (ENum (VChar 98)), (MNum (VChar 98)),
    (match exec (SPush (EKey (EVar 0) (EStr [98])) (ENum (VChar 98))) s_keyed with ROk _ s' => s' | _ => s_keyed end), keyed_after.
  split; [exists keyed; vm_compute; reflexivity|]. split.
  { split; [|split; [in_dict|split; [discriminate|found]]]. split; [reflexivity|]. split; [|split; [in_order|refill]]. exists [(MPtr 0, MPtr 0); (MPtr 2, MNum (VInt 1))]. split; [found|].
    repeat (apply Forall2_cons; [split; [apply reads_text; [text_key|found]|reflexivity]|]). apply Forall2_nil. }
  split; [reflexivity|]. split; [reflexivity|]. split; [apply (ke_string s_keyed 1 [98]); [text_key|reflexivity]|]. split; [constructor; reflexivity|]. split; [exists (VChar 98), (VChar 98); auto|].
  split; [vm_compute; reflexivity|]. split.
  - exists [(MPtr 0, MPtr 0); (MPtr 2, MNum (VInt 1))]. split; [found|].
    repeat (apply Forall2_cons; [split; [apply reads_text; [text_key|found]|reflexivity]|]). apply Forall2_nil.
  - intros O. inversion O as [|a b S F]; subst. inversion F as [|a b L _]; subst. vm_compute in L. discriminate.
Qed.
