(** Exact descriptions of string constants and [append(const char* )]. *)
From Coq Require Import ZArith Bool List String Lia.
From Verif Require Import Base StrModel ValModel NumModel AllocModel AllocProof MemModel MemProof MemFun MemEq MemDeref MemTriple MemOps MemArr MemMore MemKey MemElem MemMeth MemList MemRun MemTop ArrSpec MemArrays.
Import ListNotations.
Local Open Scope list_scope.
Local Open Scope mem_scope.
Local Notation length := List.length.

Definition char_at (c : Z) : mvar := MNum (VChar c).
(** [o'] is string [o] of [n] characters with [str] written at [n]. *)
Definition written (o : hobj) (n : nat) (str : str) (o' : hobj) : Prop :=
  alike o o' /\ forall k, val_at o' k = if andb (Nat.leb n k) (Nat.ltb k (n + length str)) then option_map char_at (nth_error str (k - n)) else val_at o k.
Lemma write_chars_gives : forall str s l o i, obj l s = Some o -> i + length str <= length (h_cells o) ->
  exists o', write_chars l i str s = ROk tt (set_mem l o' s) /\ written o i str o'.
Proof.
  induction str as [|c str IH]; intros s l o i O L.
  - exists o. split; [simpl; rewrite set_mem_id; auto|]. split; [apply alike_refl|]. intros k. simpl. rewrite Nat.add_0_r.
    destruct (Nat.leb_spec i k), (Nat.ltb_spec k i); simpl; auto; lia.
  - simpl in L. set (o1 := set_cells o (set_nth (h_cells o) i (MNil, MNum (VChar c)))).
    assert (A1 : alike o o1) by (unfold alike, o1; simpl; rewrite sn_length; auto).
    assert (O1 : obj l (set_mem l o1 s) = Some o1) by (rewrite obj_set_mem, Nat.eqb_refl by (eapply obj_lt; eauto); auto).
    destruct (IH (set_mem l o1 s) l o1 (S i) O1) as (o' & E & A & W); [unfold o1; simpl; rewrite sn_length; lia|].
    exists o'. split; [|split; [eapply alike_trans; eauto|]].
    + cbn [write_chars]. rewrite (bind_ok _ _ _ _ _ _ _ (get_obj_eq _ _ _ O)). destruct (Nat.leb_spec (length (h_cells o)) i); [lia|].
      fold o1. rewrite (bind_ok _ _ _ _ s tt (set_mem l o1 s)) by reflexivity. rewrite E. rewrite set_mem_twice. reflexivity.
    + intros k. rewrite W. replace (S i + length str) with (i + length (c :: str)) by (simpl; lia).
      assert (V1 : val_at o1 k = if Nat.eqb k i then Some (char_at c) else val_at o k).
      { unfold val_at, o1. simpl. destruct (Nat.eqb_spec k i) as [->|D]; [rewrite sn_same by lia; reflexivity|rewrite sn_other by auto; reflexivity]. }
      rewrite V1. destruct (Nat.leb_spec (S i) k), (Nat.leb_spec i k), (Nat.eqb_spec k i), (Nat.ltb_spec k (i + length (c :: str))); simpl in *; try lia; auto.
      * replace (k - i) with (S (k - S i)) by lia. reflexivity.
      * subst k. rewrite Nat.sub_diag. reflexivity.
Qed.
Definition lengthened (o : hobj) (str : str) (o' : hobj) : Prop :=
  h_ty o' = h_ty o /\ h_view o' = h_view o /\ h_size o' = h_size o + length str /\
  (forall k, k < h_size o -> val_at o' k = val_at o k) /\
  (forall k, k < length str -> val_at o' (h_size o + k) = option_map char_at (nth_error str k)) /\
  val_at o' (h_size o') = Some NUL.
Lemma heap_append_gives : forall e F s l o str, INV e F s -> obj l s = Some o -> h_ty o = HE TChar -> h_size o < length (h_cells o) ->
  (Z.of_nat (h_size o + length str) < 2 ^ 30)%Z ->
  exists o', heap_append l str s = ROk tt (set_mem l o' s) /\ INV e F (set_mem l o' s) /\ lengthened o str o'.
Proof.
  intros e F s l o str I O Ty Lc H. destruct (heap_resize_gives e F s l (h_size o + length str) o I O H) as (o1 & E1 & I1 & G).
  assert (O1 : obj l (set_mem l o1 s) = Some o1) by (rewrite obj_set_mem, Nat.eqb_refl by (eapply obj_lt; eauto); auto).
  pose proof G as (T1 & V1 & S1 & C1 & _). rewrite Ty in C1. simpl in C1.
  destruct (write_chars_gives str (set_mem l o1 s) l o1 (h_size o) O1) as (o' & E2 & (A1 & A2 & A3 & A4 & A5) & W); [lia|].
  rewrite set_mem_twice in E2.
  assert (E : heap_append l str s = ROk tt (set_mem l o' s)).
  { unfold heap_append. rewrite (bind_ok _ _ _ _ _ _ _ (get_obj_eq _ _ _ O)). rewrite Ty. simpl. rewrite (bind_ok _ _ _ _ _ _ _ E1). exact E2. }
  exists o'. split; auto. split.
  - pose proof (write_chars_post False str full e F (set_mem l o1 s) l (h_size o) I1) as P. rewrite E2 in P.
    destruct P as (P & _); simpl; auto; [apply live_obj; eauto|]. intros o2 O2. assert (o2 = o1) by congruence. subst o2. rewrite T1, Ty. reflexivity.
  - split; [congruence|]. split; [congruence|]. split; [congruence|]. split; [|split].
    + intros k K. rewrite W. destruct (Nat.leb_spec (h_size o) k); [lia|]. simpl. eapply grown_val; eauto; [lia|]. intros _. lia.
    + intros k K. rewrite W. destruct (Nat.leb_spec (h_size o) (h_size o + k)), (Nat.ltb_spec (h_size o + k) (h_size o + length str)); try lia. simpl. f_equal. f_equal. lia.
    + rewrite W. rewrite A2, S1. destruct (Nat.ltb_spec (h_size o + length str) (h_size o + length str)); [lia|]. rewrite Bool.andb_false_r.
      apply (grown_nul _ _ _ G). rewrite Ty. reflexivity.
Qed.

Lemma exec_append_str : forall e s j l o str, INV e [] s -> variable s j (MPtr l) -> obj l s = Some o -> h_ty o = HE TChar -> h_size o < length (h_cells o) ->
  (Z.of_nat (h_size o + length str) < 2 ^ 30)%Z ->
  exists s' o', exec (SAppendStr (EVar j) str) s = ROk tt s' /\ INV e [] s' /\ became l o' s s' /\ lengthened o str o'.
Proof.
  intros e s j l o str I V O Ty Lc H. destruct (heap_append_gives e [] s l o str I O Ty Lc H) as (o' & E & I1 & G).
  assert (B : became l o' s (set_mem l o' s)).
  { split; [apply shrunk_refl|]. rewrite obj_set_mem, Nat.eqb_refl by (eapply obj_lt; eauto). auto. }
  destruct (finish_var s j l e _ o' V (obj_lt _ _ _ O) I1 B) as (s2 & E2 & I2 & B2). exists s2, o'. split; auto.
  change (exec (SAppendStr (EVar j) str) s) with (finish (length (stk s)) (let! v := eval (length (stk s)) (EVar j) in append_str v str) s).
  unfold finish. rewrite (bind_ok _ _ _ _ _ _ _ (eval_var s j _ _ V eq_refl s)). unfold append_str.
  rewrite (bind_ok _ _ _ _ _ _ _ (ptr_array s (LS j) l V)). rewrite (bind_ok _ _ _ _ _ _ _ (ptr_heap s (LS j) l V)). rewrite E. exact E2.
Qed.
(** A string constant: a new terminated string of its characters. *)
Lemma string_gives : forall e F s str, INV e F s -> (Z.of_nat (length str) < 2 ^ 30)%Z ->
  exists o, string_var str s = ROk (MPtr (length (mem s))) (new_st o s) /\ INV e (MPtr (length (mem s)) :: F) (new_st o s) /\
    h_ty o = HE TChar /\ h_view o = None /\ h_size o = length str /\ (forall k, k < length str -> val_at o k = option_map char_at (nth_error str k)) /\
    val_at o (length str) = Some NUL.
Proof.
  intros e F s str I H. destruct (alloc_ex (HE TChar) 0) as (c & Ec & Lc); [simpl; lia|]. simpl in Ec, Lc.
  set (cs := terminate (HE TChar) 0 (repeat (fresh (HE TChar)) (Z.to_nat c))). set (o0 := mkobj (HE TChar) 0 0 cs None).
  assert (E0 : new_heap (HE TChar) 0 s = ROk (MPtr (length (mem s))) (new_st o0 s)).
  { unfold new_heap, new_cells. simpl is_char. cbv iota. rewrite (bind_ok _ _ _ _ s cs s); [reflexivity|].
    simpl. rewrite (bind_ok _ _ (lift (allocSize 1)) _ s c s) by (unfold lift; rewrite Ec; reflexivity). destruct (Z.ltb_spec c 0); [lia|reflexivity]. }
  pose proof (new_heap_post False full e F s (HE TChar) 0 I) as P. rewrite E0 in P. destruct P as (I1 & _).
  assert (O0 : obj (length (mem s)) (new_st o0 s) = Some o0) by (apply obj_live; unfold new_st; simpl; rewrite nth_error_app2, Nat.sub_diag; auto).
  destruct (heap_append_gives _ _ _ (length (mem s)) o0 str I1 O0) as (o' & E & I2 & (L1 & L2 & L3 & L4 & L5 & L6)); [reflexivity| |exact H|].
  { unfold o0, cs. simpl. unfold terminate. simpl. destruct (repeat (fresh (HE TChar)) (Z.to_nat c)) eqn:Q; [|simpl; lia].
    apply (f_equal (@List.length _)) in Q. rewrite repeat_length in Q. simpl in Q. lia. }
  assert (X : set_mem (length (mem s)) o' (new_st o0 s) = new_st o' s).
  { unfold set_mem, new_st. simpl. f_equal. clear. induction (mem s); simpl; congruence. }
  rewrite X in *. exists o'. split.
  - unfold string_var. rewrite (bind_ok _ _ _ _ _ _ _ E0). rewrite (bind_ok _ _ _ _ _ _ _ E). reflexivity.
  - split; auto. split; auto. split; auto. simpl in L3. split; auto. split; [exact L5|]. rewrite <- L3. exact L6.
Qed.
