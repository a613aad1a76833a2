(** Statements on maps: the key and the value are evaluated, the entry is looked up, and the
    temporaries go. *)
From Coq Require Import ZArith Bool List String Lia Sorting.
From Verif Require Import Base AllocModel StrModel ValModel NumModel MemModel MemProof MemFun MemEq MemDeref MemTriple MemKey MemArr MemElem MemList MemArrays MemText MemScalar ValSpec ArrSpec ArrFacts MemMapSpec MemMap MemLook.
Import ListNotations.
Local Open Scope list_scope.
Local Open Scope mem_scope.
Local Notation length := List.length.

(** * States during a statement *)
(** More arrays and more temporaries. *)
Definition extm (ms : list (option hobj)) (ws : list mvar) (s : state) : state := {| mem := mem s ++ ms; rc := rc s; stk := stk s ++ ws |}.
Definition grew (s s1 : state) : Prop := (exists ms, mem s1 = mem s ++ ms) /\ exists ws, stk s1 = stk s ++ ws.
Lemma grew_refl : forall s, grew s s.
Proof. intros s. split; exists []; rewrite app_nil_r; auto. Qed.
Lemma grew_trans : forall a b c, grew a b -> grew b c -> grew a c.
Proof. intros a b c [[m1 A1] [w1 B1]] [[m2 A2] [w2 B2]]. split; [exists (m1 ++ m2)|exists (w1 ++ w2)]; rewrite app_assoc; congruence. Qed.
Lemma grew_temps : forall s s1, temps s s1 -> grew s s1.
Proof. intros s s1 [A B]. split; auto. exists []. rewrite app_nil_r. auto. Qed.
Lemma grew_slot : forall s s1 j x, grew s s1 -> nth_error (stk s) j = Some x -> nth_error (stk s1) j = Some x.
Proof. intros s s1 j x [_ [ws E]] N. rewrite E, nth_error_app1; auto. eapply ne_lt; eauto. Qed.
Lemma grew_mem : forall s s1 l o, grew s s1 -> nth_error (mem s) l = Some o -> nth_error (mem s1) l = Some o.
Proof. intros s s1 l o [[ms E] _] N. rewrite E, nth_error_app1; auto. eapply ne_lt; eauto. Qed.
Lemma grew_obj : forall s s1 l o, grew s s1 -> obj l s = Some o -> obj l s1 = Some o.
Proof. intros s s1 l o G O. apply obj_live in O. apply obj_live. eapply grew_mem; eauto. Qed.
Lemma grew_array : forall s s1 l t xs, grew s s1 -> array_at s l t xs -> array_at s1 l t xs.
Proof. intros s s1 l t xs G (o & M & R). exists o. split; auto. eapply grew_mem; eauto. Qed.
Lemma grew_key : forall s s1 y k, grew s s1 -> reads_key s y k -> reads_key s1 y k.
Proof. intros s s1 y k G [K [A|(l & cs & A & B & C)]]; split; auto. right. exists l, cs. split; auto. split; auto. eapply grew_array; eauto. Qed.
Lemma grew_denotes : forall s s1 x y, grew s s1 -> denotes s x y -> denotes s1 x y.
Proof. intros s s1 x y G D. apply (denotes_keep s); auto. intros l i o _ O L. exists o. split; [eapply grew_obj; eauto|auto]. Qed.
Lemma grew_len : forall s s1, grew s s1 -> length (stk s) <= length (stk s1) /\ length (mem s) <= length (mem s1).
Proof. intros s s1 [[ms A] [ws B]]. rewrite A, B, !app_length. lia. Qed.
(** Variables and elements that are not in the arrays made since. *)
Lemma grew_held_view : forall e F s s1 x, INV e F s -> held x s -> grew s s1 -> not_view s x -> not_view s1 x.
Proof.
  intros e F s s1 x I H G N l o E O. subst x. assert (L : live l s) by (apply H; auto). apply live_obj in L as [o' O'].
  pose proof (grew_obj _ _ _ _ G O') as Q. rewrite Q in O. inversion O; subst. eapply N; eauto.
Qed.

(** * Operands *)
Lemma operand_grew : forall e s s1 f x, INV e [] s1 -> grew s s1 -> operand s f x ->
  exists q s2, eval (length (stk s)) f s1 = ROk (LS q) s2 /\ INV e [] s2 /\ grew s1 s2 /\ nth_error (stk s2) q = Some x.
Proof.
  intros e s s1 f x I G O. pose proof (INV_sound _ _ _ I) as Sd.
  assert (K : forall k y, variable s k y -> eval (length (stk s)) (EVar k) s1 = ROk (LS k) s1).
  { intros k y V. simpl. assert (k < length (stk s)) by (eapply ne_lt; eauto). destruct (Nat.ltb_spec k (length (stk s))); [reflexivity|lia]. }
  assert (P : forall y, held y s1 -> INV e [] (push_s y (bump y s1)) /\ grew s1 (push_s y (bump y s1)) /\ nth_error (stk (push_s y (bump y s1))) (length (stk s1)) = Some y).
  { intros y H. split; [apply INV_push, INV_bump; auto|]. split; [apply grew_temps, temps_push, temps_refl|].
    simpl. rewrite bump_stk, nth_error_app2, Nat.sub_diag by auto. reflexivity. }
  destruct O as [k x V|v Nv| |k l i V Hi|k l t xs i V A Hi].
  - exists k, s1. split; [eauto|]. split; auto. split; [apply grew_refl|]. eapply grew_slot; eauto.
  - exists (length (stk s1)), (push_s (MNum v) (bump (MNum v) s1)). split; [simpl; rewrite Nv; reflexivity|]. apply P. intros ? ?; discriminate.
  - exists (length (stk s1)), (push_s MNil (bump MNil s1)). split; [reflexivity|]. apply P. intros ? ?; discriminate.
  - pose proof (grew_slot _ _ _ _ G V) as V1. exists (length (stk s1)), (push_s (MRef l (Z.to_nat i)) (bump (MRef l (Z.to_nat i)) s1)).
    split; [|apply P; apply (held_ptr (LS k)); auto].
    change (eval (length (stk s)) (EAt (EVar k) i)) with (let! v := eval (length (stk s)) (EVar k) in let! x := at_int v i in temp x).
    rewrite (bind_ok _ _ _ _ _ _ _ (K _ _ V)). rewrite (bind_ok _ _ _ _ _ _ _ (at_int_ptr s1 (LS k) l i Sd V1 Hi)). reflexivity.
  - pose proof (grew_slot _ _ _ _ G V) as V1. exists (length (stk s1)), (push_s (MRef l (Z.to_nat i)) (bump (MRef l (Z.to_nat i)) s1)).
    split; [|apply P; apply (held_ptr (LS k)); auto].
    change (eval (length (stk s)) (EIdx (EVar k) i)) with (let! v := eval (length (stk s)) (EVar k) in let! x := index_int v i in temp x).
    rewrite (bind_ok _ _ _ _ _ _ _ (K _ _ V)). destruct (array_obj _ _ _ _ A) as (o & O & Vw & _ & Sz & _).
    apply (grew_obj _ _ _ _ G) in O.
    rewrite (bind_ok _ _ _ _ _ _ _ (index_in_ptr s1 (LS k) l i o Sd V1 O Vw ltac:(lia))). reflexivity.
Qed.
Lemma string_array : forall s l o cs, obj l s = Some o -> h_ty o = HE TChar -> h_view o = None -> h_size o = length cs -> h_size o <= length (h_cells o) ->
  (forall k, k < length cs -> val_at o k = option_map char_at (nth_error cs k)) -> array_at s l (HE TChar) (map (fun c => MNum (VChar c)) cs).
Proof.
  intros s l o cs O T V Sz Lc H. apply (obj_array s l o); auto; rewrite map_length; auto; try lia.
  intros k Hk. rewrite H by auto. rewrite nth_error_map. reflexivity.
Qed.
Lemma string_grew : forall e s1 nv cs, INV e [] s1 -> small (length cs) ->
  exists s2, eval nv (EStr cs) s1 = ROk (LS (length (stk s1))) s2 /\ INV e [] s2 /\ grew s1 s2 /\ nth_error (stk s2) (length (stk s1)) = Some (MPtr (length (mem s1))) /\
    array_at s2 (length (mem s1)) (HE TChar) (map (fun c => MNum (VChar c)) cs).
Proof.
  intros e s1 nv cs I Sm. destruct (string_gives e [] s1 cs I Sm) as (o & E & I1 & T & V & Sz & Vl & Nl).
  exists (push_s (MPtr (length (mem s1))) (new_st o s1)). split; [simpl; rewrite (bind_ok _ _ _ _ _ _ _ E); reflexivity|].
  split; [apply INV_push; auto|]. split; [split; [exists [Some o]; reflexivity|exists [MPtr (length (mem s1))]; reflexivity]|].
  split; [simpl; rewrite nth_error_app2, Nat.sub_diag by auto; reflexivity|].
  apply (string_array _ _ o); auto.
  - apply obj_live. simpl. rewrite nth_error_app2, Nat.sub_diag by auto. reflexivity.
  - apply val_at_lt in Nl. lia.
Qed.
(** The key of a subscript. *)
Lemma key_grew : forall e s s1 l ek k, INV e [] s1 -> grew s s1 -> l < length (mem s) -> key_expr s l ek k ->
  exists q s2 x y, eval (length (stk s)) ek s1 = ROk (LS q) s2 /\ INV e [] s2 /\ grew s1 s2 /\ nth_error (stk s2) q = Some x /\
    denotes s2 x y /\ reads_key s2 y k /\ forall i, x <> MRef l i.
Proof.
  intros e s s1 l ek k I G L K. destruct K as [ek x y k Op D R X|cs Kc Sm].
  - destruct (operand_grew e s s1 ek x I G Op) as (q & s2 & E & I2 & G2 & N). exists q, s2, x, y. do 4 (split; auto).
    pose proof (grew_trans _ _ _ G G2) as G3. split; [eapply grew_denotes; eauto|]. split; auto. eapply grew_key; eauto.
  - destruct (string_grew e s1 (length (stk s)) cs I) as (s2 & E & I2 & G2 & N & A).
    { unfold small in *. lia. }
    exists (length (stk s1)), s2, (MPtr (length (mem s1))), (MPtr (length (mem s1))). do 4 (split; auto). split; [reflexivity|]. split; [|intros i; discriminate].
    split; auto. right. exists (length (mem s1)), cs. auto.
Qed.

(** * Maps *)
Definition mapping (s : state) (l : nat) (o : hobj) (kvs : list (val * mvar)) : Prop :=
  obj l s = Some o /\ h_view o = None /\ h_ty o = HPair /\ okpairs s o /\ h_size o = length kvs /\ h_size o <= length (h_cells o) /\
  forall n kv, nth_error kvs n = Some kv -> exists c, nth_error (h_cells o) n = Some (c, snd kv) /\ reads_key s c (fst kv).
Lemma reads_key_keep : forall s s' y k, reads_key s y k -> (forall m o, y = MPtr m -> obj m s = Some o -> h_ty o = HE TChar -> obj m s' = Some o) -> reads_key s' y k.
Proof.
  intros s s' y k [K [A|(l & cs & A & B & C)]] H; split; auto. right. exists l, cs. split; auto. split; auto.
  destruct C as (o & M & V & T & R). exists o. split; auto. apply obj_live. apply (H l); auto. apply obj_live. auto.
Qed.
Lemma cell_live : forall e F s l o n c m, INV e F s -> obj l s = Some o -> nth_error (h_cells o) n = Some c -> target (fst c) = Some m -> live m s.
Proof.
  intros e F s l o n c m (I & _) O N T. eapply inv_cell; [exact I|apply obj_live; exact O| |exact T].
  unfold contents. apply in_or_app. left. apply in_flat_map. exists c. split; [eapply nth_error_In; eauto|]. simpl; auto.
Qed.
(** Keys are still read in a later state in which the map is allocated. *)
Lemma keys_kept : forall e F s s' l o o' n c v k, INV e F s' -> obj l s = Some o -> h_ty o = HPair -> obj l s' = Some o' -> nth_error (h_cells o') n = Some (c, v) -> reads_key s c k ->
  (forall m a, m <> l -> m < length (mem s) -> obj m s' = Some a -> obj m s = Some a) -> reads_key s' c k.
Proof.
  intros e F s s' l o o' n c v k I O T O' N R H. eapply reads_key_keep; eauto. intros m a -> A Ta.
  assert (m <> l) by congruence. assert (L : live m s') by (eapply (cell_live e F s' l o' n (MPtr m, v)); eauto).
  apply live_obj in L as [a' A']. rewrite A'. rewrite <- A. symmetry. apply H; auto. eapply obj_lt; eauto.
Qed.
Lemma added_nth : forall A (l : list A) i x n, i <= length l -> nth_error (firstn i l ++ x :: skipn i l) n =
  if (n <? i)%nat then nth_error l n else if (n =? i)%nat then Some x else nth_error l (n - 1).
Proof.
  intros A l i x n L. destruct (Nat.ltb_spec n i).
  - rewrite nth_error_app1 by (rewrite firstn_length_le; auto). rewrite nth_firstn. destruct (Nat.ltb_spec n i); [auto|lia].
  - rewrite nth_error_app2; rewrite firstn_length_le by auto; auto. destruct (Nat.eqb_spec n i); [subst; rewrite Nat.sub_diag; auto|].
    destruct (n - i) as [|d] eqn:E; [lia|]. simpl. rewrite MemCopy.nth_skipn. f_equal. lia.
Qed.
Lemma sorted_added : forall kvs i k, ordered kvs -> i <= length kvs ->
  (forall n kk, nth_error (map fst kvs) n = Some kk -> if (n <? i)%nat then less kk k else less k kk) ->
  Forall (fun e => less (fst e) k) (firstn i kvs) /\ Forall (fun e => less k (fst e)) (skipn i kvs) /\ ordered (firstn i kvs ++ (k, MNil) :: skipn i kvs).
Proof.
  intros kvs i k So L H.
  assert (A : Forall (fun e => less (fst e) k) (firstn i kvs)).
  { rewrite Forall_forall. intros e He. apply In_nth_error in He as [n Hn]. rewrite nth_firstn in Hn. specialize (H n (fst e)). destruct (n <? i)%nat; [|discriminate].
    apply H. rewrite nth_error_map, Hn. reflexivity. }
  assert (B : Forall (fun e => less k (fst e)) (skipn i kvs)).
  { rewrite Forall_forall. intros e He. apply In_nth_error in He as [n Hn]. rewrite MemCopy.nth_skipn in Hn. specialize (H (i + n) (fst e)).
    destruct (Nat.ltb_spec (i + n) i); [lia|]. apply H. rewrite nth_error_map, Hn. reflexivity. }
  split; auto. split; auto. unfold ordered in *. rewrite map_app. simpl. rewrite <- (firstn_skipn i kvs), map_app in So. revert A B So.
  generalize (firstn i kvs) (skipn i kvs). clear. intros a b A B. induction a as [|p a IH]; simpl; intros So.
  - constructor; auto. rewrite Forall_forall in *. intros q Hq. apply in_map_iff in Hq as (w & <- & Hw). auto.
  - inversion So; subst. inversion A; subst. constructor; auto. rewrite Forall_app in *. destruct H2. split; auto.
Qed.
Lemma map_lookup : forall e s this l q o kvs x y k, INV e [] s -> firm s this l -> mapping s l o kvs -> ordered kvs -> small (S (length kvs)) ->
  nth_error (stk s) q = Some x -> denotes s x y -> reads_key s y k -> (forall i, x <> MRef l i) ->
  exists s' o' i kvs', lookup this (LS q) s = ROk (MRef l i) (bump (MPtr l) s') /\ INV e [] s' /\ became l o' s s' /\ firm s' this l /\
    mapping s' l o' kvs' /\ looked_up k kvs i kvs' /\ ordered kvs'.
Proof.
  intros e s this l q o kvs x y k I Fm (O & V & T & Oks & Sz & Lc & Ce) So Sm Nq D R X.
  assert (Kr : keys_read s o (map fst kvs)).
  { split; [rewrite map_length; auto|]. intros n kk Nn. rewrite nth_error_map in Nn. destruct (nth_error kvs n) as [kv|] eqn:E; [|discriminate]. inversion Nn; subst kk.
    destruct (Ce _ _ E) as (c & A & B). eauto. }
  destruct (lookup_gives e s this l q o (map fst kvs) x y k I Fm O V T Oks Lc) as (s' & o' & i & E & I' & B & Fm' & Oks' & T' & V' & Lc' & Cs); auto.
  { unfold small in Sm. lia. }
  pose proof (obj_lt _ _ _ O) as Ll. pose proof (proj2 B) as O'.
  exists s', o', i. destruct Cs as [(-> & -> & kk & Nk & Eq)|(Sz' & Li & Le & Ce')].
  - exists kvs. do 4 (split; auto). split; [unfold mapping; auto 10|]. split; auto.
    rewrite nth_error_map in Nk. destruct (nth_error kvs i) as [[k' v]|] eqn:N; [|discriminate]. inversion Nk; subst kk. simpl in Eq.
    destruct (nth_error_split _ _ N) as (a & b & -> & <-). econstructor; eauto.
  - rewrite Sz in Li. destruct (sorted_added kvs i k So Li Le) as (F1 & F2 & So').
    exists (firstn i kvs ++ (k, MNil) :: skipn i kvs). do 4 (split; auto). split; [|split; auto].
    + unfold mapping. do 4 (split; auto). split; [rewrite app_length; simpl; rewrite skipn_length, firstn_length_le by auto; lia|]. split; auto.
      intros n kv Nn. rewrite added_nth in Nn by auto.
      assert (Hn : n < S (h_size o)).
      { rewrite Sz. destruct (Nat.ltb_spec n i); [lia|]. destruct (Nat.eqb_spec n i); [lia|]. apply ne_lt in Nn. lia. }
      rewrite (Ce' _ Hn).
      assert (Kk : forall c v kk, nth_error (h_cells o') n = Some (c, v) -> reads_key s c kk -> reads_key s' c kk).
      { intros c v kk N1 N2. eapply (keys_kept e [] s s' l o o'); eauto. intros m a Hm _ A. eapply became_other; eauto. }
      specialize (Ce' n Hn). destruct (n <? i)%nat; [|destruct (n =? i)%nat].
      * destruct (Ce _ _ Nn) as (c & N1 & N2). exists c. split; auto. apply (Kk c (snd kv)); auto. rewrite Ce'. exact N1.
      * inversion Nn; subst kv. simpl. exists y. split; auto. apply (Kk y MNil); auto.
      * destruct (Ce _ _ Nn) as (c & N1 & N2). exists c. split; auto. apply (Kk c (snd kv)); auto. rewrite Ce'. exact N1.
    + rewrite <- (firstn_length_le kvs Li) at 1. apply lu_added; auto. symmetry. apply firstn_skipn.
Qed.

(** * The subscript *)
(** A map [l] after more arrays and temporaries have been made and [l] has become [o']. *)
Definition moved (l : nat) (o' : hobj) (s s1 : state) : Prop :=
  obj l s1 = Some o' /\ exists ms ws, shrunk (extm ms ws (set_mem l o' s)) s1.
Lemma extm_extm : forall a b c d s, extm a b (extm c d s) = extm (c ++ a) (d ++ b) s.
Proof. intros. unfold extm; simpl. rewrite !app_assoc. reflexivity. Qed.
Lemma extm_nil : forall s, extm [] [] s = s.
Proof. intros []. unfold extm; simpl. rewrite !app_nil_r. reflexivity. Qed.
Lemma shrunk_extm : forall ms ws a b, shrunk a b -> shrunk (extm ms ws a) (extm ms ws b).
Proof.
  intros ms ws a b (A & B & C). unfold shrunk, extm; simpl. rewrite A, !app_length, B. split; auto. split; auto.
  intros k o. unfold obj. simpl. destruct (Nat.ltb_spec k (length (mem a))).
  - rewrite !nth_error_app1 by lia. apply C.
  - rewrite !nth_error_app2 by lia. rewrite B. auto.
Qed.
Lemma set_mem_extm : forall l o ms ws s, l < length (mem s) -> set_mem l o (extm ms ws s) = extm ms ws (set_mem l o s).
Proof. intros. unfold set_mem, extm. simpl. rewrite sn_app1 by auto. reflexivity. Qed.
Lemma moved_grew : forall l o o' s s1, grew s s1 -> obj l s = Some o -> obj l s1 = Some o' -> o' = o -> moved l o s s1.
Proof.
  intros l o o' s s1 [[ms A] [ws B]] O O' ->. split; auto. exists ms, ws. unfold shrunk, extm; simpl. rewrite B, A, !app_length, sn_length.
  split; auto. split; auto. intros k a K. unfold obj in *. simpl. rewrite A in K. apply obj_live in O.
  destruct (Nat.eq_dec k l) as [->|N].
  - pose proof (ne_lt _ _ _ _ O). rewrite nth_error_app1 in * by (rewrite ?sn_length; auto). rewrite sn_same by auto. rewrite O in K. auto.
  - destruct (Nat.ltb_spec k (length (mem s))); [rewrite nth_error_app1 in * by (rewrite ?sn_length; auto); rewrite sn_other; auto|].
    rewrite nth_error_app2 in * by (rewrite ?sn_length; auto). rewrite sn_length. auto.
Qed.
Lemma moved_len : forall l o' s s1, moved l o' s s1 -> length (mem s) <= length (mem s1) /\ length (stk s) <= length (stk s1).
Proof. intros l o' s s1 (_ & ms & ws & A & B & _). simpl in *. rewrite A, B, !app_length, sn_length. lia. Qed.
Lemma moved_slot : forall l o' s s1 j x, moved l o' s s1 -> nth_error (stk s) j = Some x -> nth_error (stk s1) j = Some x.
Proof. intros l o' s s1 j x (_ & ms & ws & A & B & _) N. simpl in *. rewrite A, nth_error_app1; auto. eapply ne_lt; eauto. Qed.
Lemma moved_other : forall l o' s s1 k a, moved l o' s s1 -> l < length (mem s) -> k <> l -> k < length (mem s) -> obj k s1 = Some a -> obj k s = Some a.
Proof.
  intros l o' s s1 k a (_ & ms & ws & _ & _ & C) L N Lk O. apply C in O. unfold obj in *. simpl in *. rewrite nth_error_app1, sn_other in O; auto. rewrite sn_length. auto.
Qed.
Lemma moved_trans : forall l o1 o2 a b c, l < length (mem a) -> moved l o1 a b -> moved l o2 b c -> moved l o2 a c.
Proof.
  intros l o1 o2 a b c L (O1 & m1 & w1 & S1) (O2 & m2 & w2 & S2). split; auto. exists (m1 ++ m2), (w1 ++ w2).
  eapply shrunk_trans; [|exact S2]. rewrite <- extm_extm. apply shrunk_extm.
  eapply shrunk_trans; [|apply shrunk_set_mem; [exact S1|simpl; rewrite app_length, sn_length; lia]].
  rewrite set_mem_extm by (simpl; rewrite sn_length; auto). apply shrunk_extm. unfold set_mem; simpl. rewrite sn_twice. apply shrunk_refl.
Qed.
Lemma became_moved : forall l o' s s', became l o' s s' -> moved l o' s s'.
Proof. intros l o' s s' [A B]. split; auto. exists [], []. rewrite extm_nil. auto. Qed.
Definition within (s s' : state) : Prop := length (mem s') = length (mem s) /\ forall k o, obj k s' = Some o -> obj k s = Some o.
Lemma leave_live : forall e s s1 l o', moved l o' s s1 -> INV e [] s1 -> (forall s', INV e [] s' -> within s1 s' -> stk s' = stk s -> live l s') ->
  exists s2, leave (length (stk s)) s1 = ROk tt s2 /\ INV e [] s2 /\ moved l o' s s2 /\ stk s2 = stk s /\ within s1 s2.
Proof.
  intros e s s1 l o' (O & ms & ws & St & Lm & Ob) I Hold. simpl in St.
  destruct (leave_gives e [] s1 ws {| mem := mem s1; rc := rc s1; stk := stk s |} I) as (s2 & E & I2 & Sh).
  { unfold shrunk, ext; simpl. auto. }
  exists s2. split; auto. split; auto. pose proof Sh as (A & B & C). simpl in A, B.
  assert (W : within s1 s2) by (split; auto).
  assert (O2 : obj l s2 = Some o'). { pose proof (Hold s2 I2 W A) as Lv. apply live_obj in Lv as [a Oa]. rewrite Oa. apply C in Oa. rewrite <- O. symmetry. exact Oa. }
  split; [|split; auto]. split; auto. exists ms, []. unfold shrunk, extm; simpl. rewrite app_nil_r. split; auto. simpl in Lm. split; [lia|].
  intros k a K. apply C in K. apply (Ob k a). exact K.
Qed.
Lemma mapping_within : forall e F s s' l o kvs, mapping s l o kvs -> within s s' -> INV e F s' -> obj l s' = Some o -> mapping s' l o kvs.
Proof.
  intros e F s s' l o kvs (O & V & T & Oks & Sz & Lc & Ce) (Lm & W) I O'. unfold mapping. do 3 (split; auto). split; [|split; auto; split; auto].
  - intros k c N. destruct (Oks k c N) as (P1 & P2 & P3 & P4). assert (Tr : forall w, not_view s w -> not_view s' w) by (intros w Hw m om E Om; apply (Hw m om E); auto). split; auto.
  - intros n kv N. destruct (Ce _ _ N) as (c & N1 & N2). exists c. split; auto. eapply (keys_kept e F s s' l o o); eauto.
Qed.
Lemma mapping_grew : forall e F s s1 l o kvs, mapping s l o kvs -> grew s s1 -> INV e F s -> mapping s1 l o kvs.
Proof.
  intros e F s s1 l o kvs (O & V & T & Oks & Sz & Lc & Ce) G I. unfold mapping. split; [eapply grew_obj; eauto|]. do 2 (split; auto). split; [|split; auto; split; auto].
  - intros k c N. destruct (Oks k c N) as (P1 & P2 & P3 & P4).
    assert (Tr : forall w, In w [fst c; snd c] -> not_view s w -> not_view s1 w).
    { intros w Hi Hw. apply (grew_held_view e F s s1); auto. intros m Hm. destruct I as (I & _). eapply inv_cell; [exact I|apply obj_live; exact O| |exact Hm].
      unfold contents. apply in_or_app. left. apply in_flat_map. exists c. split; [eapply nth_error_In; eauto|auto]. }
    split; auto. split; [apply Tr; simpl; auto|]. split; auto. apply Tr; simpl; auto.
  - intros n kv N. destruct (Ce _ _ N) as (c & N1 & N2). exists c. split; auto. eapply grew_key; eauto.
Qed.
Lemma mapping_mem : forall s s1 l o kvs, mapping s l o kvs -> mem s1 = mem s -> mapping s1 l o kvs.
Proof.
  intros s s1 l o kvs (O & V & T & Oks & Sz & Lc & Ce) M. assert (Q : forall k, obj k s1 = obj k s) by (intros; unfold obj; rewrite M; auto). unfold mapping. rewrite Q.
  do 3 (split; auto). split; [|split; auto; split; auto].
  - intros k c N. destruct (Oks k c N) as (P1 & P2 & P3 & P4). assert (Tr : forall w, not_view s w -> not_view s1 w) by (intros w Hw m om E Om; rewrite Q in Om; apply (Hw m om E); auto). split; auto.
  - intros n kv N. destruct (Ce _ _ N) as (c & N1 & N2). exists c. split; auto. eapply reads_key_mem; eauto.
Qed.
(** Of a map in a variable. *)
Lemma index_map : forall e s j l q o kvs x y k, INV e [] s -> nth_error (stk s) j = Some (MPtr l) -> mapping s l o kvs -> ordered kvs -> small (S (length kvs)) ->
  nth_error (stk s) q = Some x -> denotes s x y -> reads_key s y k -> (forall i, x <> MRef l i) ->
  exists s' o' i kvs', index_var (LS j) (LS q) s = ROk (MRef l i) (bump (MPtr l) s') /\ INV e [] s' /\ became l o' s s' /\
    mapping s' l o' kvs' /\ looked_up k kvs i kvs' /\ ordered kvs'.
Proof.
  intros e s j l q o kvs x y k I Nj Mp So Sm Nq D R X. pose proof Mp as (O & V & T & _).
  destruct (map_lookup e s (LS j) l q o kvs x y k I (conj Nj Logic.I) Mp So Sm Nq D R X) as (s' & o' & i & kvs' & E & I' & B & _ & M').
  exists s', o', i, kvs'. split; [|auto]. unfold index_var.
  rewrite (bind_ok _ _ _ _ _ _ _ (ptr_deref s (LS j) l Nj)). rewrite (bind_ok _ _ _ _ _ _ _ (ptr_defined s (LS j) l Nj)). cbv zeta. change (negb true) with false. cbv iota.
  rewrite (bind_ok _ _ _ _ _ _ _ (ptr_heap s (LS j) l Nj)). rewrite (bind_ok _ _ _ _ _ _ _ (ptr_atype s (LS j) l Nj o O V)). rewrite T. exact E.
Qed.
Lemma eval_key : forall e s s1 j l ek k o kvs, INV e [] s1 -> grew s s1 -> variable s j (MPtr l) -> mapping s1 l o kvs -> l < length (mem s) -> ordered kvs -> small (S (length kvs)) ->
  key_expr s l ek k ->
  exists s2 r o' i kvs', eval (length (stk s)) (EKey (EVar j) ek) s1 = ROk (LS r) s2 /\ INV e [] s2 /\ nth_error (stk s2) r = Some (MRef l i) /\ moved l o' s1 s2 /\
    mapping s2 l o' kvs' /\ looked_up k kvs i kvs' /\ ordered kvs' /\ length (stk s1) <= r.
Proof.
  intros e s s1 j l ek k o kvs I G Vj Mp Ll So Sm Ke.
  destruct (key_grew e s s1 l ek k I G Ll Ke) as (q & s2 & x & y & E2 & I2 & G2 & Nq & D & R & X).
  pose proof (INV_sound _ _ _ I2) as Sd2. assert (Hx : held x s2) by (apply (getv_held (LS q)); auto).
  assert (Nj : nth_error (stk s2) j = Some (MPtr l)) by (eapply grew_slot; [|exact Vj]; eapply grew_trans; eauto).
  set (s3 := push_s x (bump x s2)). assert (T3 : temps s2 s3) by apply temps_push, temps_refl.
  assert (M3 : mapping s3 l o kvs) by (apply (mapping_grew e [] s1); auto; eapply grew_trans; [exact G2|apply grew_temps; auto]).
  destruct (index_map e s3 j l (length (stk s2)) o kvs x y k) as (s4 & o' & i & kvs' & E4 & I4 & B4 & M4 & Lu & So'); auto.
  - apply INV_push, INV_bump; auto.
  - eapply temps_slot; eauto.
  - simpl. rewrite bump_stk, nth_error_app2, Nat.sub_diag by auto. reflexivity.
  - eapply temps_denotes; eauto.
  - eapply grew_key; [apply grew_temps; exact T3|auto].
  - pose proof (proj2 B4) as O4. pose proof (became_stk _ _ _ _ B4) as St4.
    assert (I5 : INV e [MRef l i] (bump (MRef l i) s4)).
    { apply INV_bump; auto. intros m Hm. inversion Hm; subst. apply live_obj. eauto. }
    destruct (scoped_exact _ x (fun q => index_var (LS j) q) e [MRef l i] (bump x s2) (MRef l i) (bump (MPtr l) s4) x) as (s5 & E5 & I6 & Sh5).
    + rewrite bump_stk. exact E4.
    + exact I5.
    + rewrite !bump_stk, St4. simpl. rewrite bump_stk. reflexivity.
    + rewrite bump_mem in Sh5. rewrite bump_stk in Sh5.
      assert (O5 : obj l s5 = Some o') by (eapply (shrunk_obj_flight e [MRef l i] _ s5 (MRef l i) l o' Sh5); simpl; auto).
      set (s6 := push_s (MRef l i) s5). assert (I7 : INV e [] s6) by (apply INV_push; auto).
      assert (Mv : moved l o' s2 s6).
      { split; auto. exists [], [MRef l i]. pose proof B4 as [Sh4 _]. unfold extm. rewrite app_nil_r.
        destruct Sh5 as (A5 & B5 & C5). destruct Sh4 as (A4 & B4' & C4). simpl in *. unfold shrunk; simpl. rewrite A5. split; auto.
        split; [rewrite B5, B4'; rewrite bump_mem; auto|]. intros k0 a K0. apply C5 in K0. apply (C4 k0 a) in K0. unfold obj in K0 |- *. simpl in *. rewrite bump_mem in K0. exact K0. }
      pose proof Mp as (O1 & _).
      exists s6, (length (stk s2)), o', i, kvs'. split; [|split; [auto|split; [|split; [|split; [|split; [auto|split; [auto|]]]]]]].
      * change (eval (length (stk s)) (EKey (EVar j) ek)) with (let! v := eval (length (stk s)) (EVar j) in let! p := eval (length (stk s)) ek in let! y := copy_of p in let! x := scoped y (fun q => index_var v q) in temp x).
        rewrite (bind_ok _ _ _ _ _ _ _ (eval_var s j _ _ Vj eq_refl s1)). rewrite (bind_ok _ _ _ _ _ _ _ E2). rewrite (bind_ok _ _ _ _ _ _ _ (copy_of_eq (LS q) s2 x Sd2 Nq)).
        rewrite (bind_ok _ _ _ _ _ _ _ E5). destruct Sh5 as (A5 & _). simpl in A5. unfold temp. rewrite A5. unfold s6, push_s. rewrite A5. reflexivity.
      * simpl. destruct Sh5 as (-> & _). simpl. rewrite nth_error_app2, Nat.sub_diag by auto. reflexivity.
      * eapply moved_trans; [eapply obj_lt; eauto|apply (moved_grew l o o s1 s2); auto; eapply grew_obj; eauto|exact Mv].
      * apply (mapping_mem s5 s6); auto. apply (mapping_within e [MRef l i] s4 s5); auto. destruct Sh5 as (_ & A & B). split; [exact A|]. intros k0 a K0. apply (B k0 a) in K0. exact K0.
      * apply grew_len in G2. lia.
Qed.

(** Maps as the properties describe them. *)
Lemma cells_entries : forall s l o kvs, obj l s = Some o -> h_view o = None -> h_ty o = HPair -> h_size o = length kvs ->
  (forall n kv, nth_error kvs n = Some kv -> exists c, nth_error (h_cells o) n = Some (c, snd kv) /\ reads_key s c (fst kv)) -> entries s l kvs.
Proof.
  intros s l o kvs O V T Sz Ce. exists (firstn (length kvs) (h_cells o)).
  assert (Lc : length kvs <= length (h_cells o)).
  { destruct kvs as [|a kvs'] eqn:Q; [simpl; lia|]. rewrite <- Q in *. assert (H : length kvs - 1 < length kvs) by (rewrite Q; simpl; lia). apply ne_some in H as [kv Hk].
    destruct (Ce _ _ Hk) as (c & N & _). apply ne_lt in N. lia. }
  split.
  - exists o. split; [apply obj_live; auto|]. do 2 (split; auto). rewrite firstn_length_le by auto. auto.
  - assert (H : forall (ms : list (mvar * mvar)) (kvs : list (val * mvar)), length ms = length kvs -> (forall n m kv, nth_error ms n = Some m -> nth_error kvs n = Some kv -> reads_key s (fst m) (fst kv) /\ snd m = snd kv) ->
        Forall2 (fun m kv => reads_key s (fst m) (fst kv) /\ snd m = snd kv) ms kvs).
    { induction ms as [|m ms IH]; intros [|kv ks] L H; simpl in L; try lia; constructor; [apply (H 0); auto|]. apply IH; [lia|]. intros n m' kv' A B. apply (H (S n)); auto. }
    apply H; [apply firstn_length_le; auto|]. intros n m kv A B. rewrite nth_firstn in A. destruct (n <? length kvs)%nat; [|discriminate].
    destruct (Ce _ _ B) as (c & N & R). rewrite N in A. inversion A; subst. auto.
Qed.
Lemma mapping_entries : forall s l o kvs, mapping s l o kvs -> entries s l kvs /\ refillable s l.
Proof.
  intros s l o kvs (O & V & T & Oks & Sz & Lc & Ce). split; [eapply cells_entries; eauto|].
  intros o1 c N Hc. apply obj_live in N. assert (o1 = o) by congruence. subst. apply In_nth_error in Hc as [n Hn]. destruct (Oks _ _ Hn) as (P1 & P2 & P3 & P4).
  split; (split; [auto|intros m a E Oa; apply obj_live in Oa; eauto]).
Qed.
Lemma entries_mapping : forall s l kvs, reachable s -> entries s l kvs -> refillable s l -> exists o, mapping s l o kvs.
Proof.
  intros s l kvs Re (ms & (o & O & V & T & Sz & Fs) & F2) Rf. exists o. apply obj_live in O.
  assert (Lm : length ms = length kvs) by (clear - F2; induction F2; simpl; auto).
  assert (Lc : length ms <= length (h_cells o)).
  { rewrite <- Fs at 1. rewrite firstn_length. lia. }
  unfold mapping. do 3 (split; auto). split; [|split; [lia|split; [lia|]]].
  - intros n c N. destruct (Rf o c) as [A B]; [apply obj_live; auto|eapply nth_error_In; eauto|]. apply assignable_ok in A. apply assignable_ok in B. unfold okpair. tauto.
  - intros n kv N. assert (Hn : n < length ms) by (rewrite Lm; eapply ne_lt; eauto). apply ne_some in Hn as [m Hm].
    assert (R : reads_key s (fst m) (fst kv) /\ snd m = snd kv).
    { clear - F2 N Hm. revert n N Hm. induction F2; intros [|n] N Hm; simpl in *; try discriminate; [inversion N; inversion Hm; subst; auto|eauto]. }
    destruct R as [R1 R2]. exists (fst m). split; auto. rewrite <- R2. rewrite <- surjective_pairing. rewrite <- Fs, nth_firstn in Hm. destruct (n <? length ms)%nat; [auto|discriminate].
Qed.

(** * Statements *)
(** A reference to an entry becomes a variable. *)
Lemma decl_core : forall e s f s2 r l i o' kvs b0, INV e [] s2 -> eval (length (stk s)) f s = ROk (LS r) s2 -> named f = false -> nth_error (stk s2) r = Some (MRef l i) -> length (stk b0) <= r ->
  moved l o' b0 s2 -> length (stk b0) = length (stk s) -> mapping s2 l o' kvs ->
  exists s', exec (SDecl f) s = ROk tt s' /\ INV e [] s' /\ moved l o' b0 s' /\ stk s' = stk b0 ++ [MRef l i] /\ mapping s' l o' kvs.
Proof.
  intros e s f s2 r l i o' kvs b0 I2 E2 Nf Nr Lr Mv Lb M2. pose proof Mv as (O2 & ms & ws & St2 & Lm2 & Ob2). simpl in St2.
  set (s3 := putv (LS r) MNil s2).
  assert (I3 : INV e [MRef l i] s3).
  { apply INV_putv; [apply INV_add0; auto|auto|exact Logic.I]. }
  assert (M3 : mem s3 = mem s2) by reflexivity.
  assert (Lr2 : r < length (stk s2)) by (eapply ne_lt; eauto).
  destruct (leave_gives e [MRef l i] s3 (skipn (length (stk b0)) (stk s3)) {| mem := mem s3; rc := rc s3; stk := stk b0 |} I3) as (s4 & E4 & I4 & Sh4).
  { unfold shrunk, ext; simpl. split; auto. rewrite <- (firstn_skipn (length (stk b0)) (set_nth (stk s2) r MNil)) at 1. f_equal.
    apply nth_ext. intros n. rewrite nth_firstn. destruct (Nat.ltb_spec n (length (stk b0))).
    - rewrite sn_other by lia. rewrite St2, nth_error_app1; auto.
    - symmetry. apply nth_error_None. auto. }
  pose proof Sh4 as (A4 & B4 & C4). simpl in A4, B4.
  assert (O4 : obj l s4 = Some o') by (eapply (shrunk_obj_flight e [MRef l i] _ s4 (MRef l i) l o' Sh4); simpl; auto).
  exists (push_s (MRef l i) s4). split; [|split; [apply INV_push; auto|split; [|split; [simpl; rewrite A4; auto|]]]].
  - unfold exec, declare, keep_value.
    assert (X : (let! v := eval (length (stk s)) f in if named f then copy_of v else take v) s = ROk (MRef l i) s3).
    { rewrite (bind_ok _ _ _ _ _ _ _ E2). replace (if named f then copy_of (LS r) else take (LS r)) with (take (LS r)) by (rewrite Nf; reflexivity).
      unfold take. rewrite (bind_ok _ _ _ _ _ _ _ (get_eq (LS r) _ _ Nr)). rewrite (bind_ok _ _ _ _ _ _ _ (put_eq (LS r) s2 (MRef l i) MNil Nr)). reflexivity. }
    rewrite X. simpl in E4. rewrite Lb in E4. rewrite (bind_ok _ _ _ _ _ _ _ E4). reflexivity.
  - split; auto. exists ms, [MRef l i]. unfold shrunk, extm; simpl. rewrite A4. split; auto. simpl in Lm2. split; [rewrite B4; auto|].
    intros n a K. apply (C4 n a) in K. apply (Ob2 n a). exact K.
  - apply (mapping_mem s4); auto. apply (mapping_within e [MRef l i] s2 s4); auto. split; auto.
Qed.
Lemma key_decl : forall e s j l ek k o kvs, INV e [] s -> variable s j (MPtr l) -> mapping s l o kvs -> ordered kvs -> small (S (length kvs)) -> key_expr s l ek k ->
  exists s' o' i kvs', exec (SDecl (EKey (EVar j) ek)) s = ROk tt s' /\ INV e [] s' /\ moved l o' s s' /\ stk s' = stk s ++ [MRef l i] /\
    mapping s' l o' kvs' /\ looked_up k kvs i kvs' /\ ordered kvs'.
Proof.
  intros e s j l ek k o kvs I Vj Mp So Sm Ke. pose proof Mp as (O & _). pose proof (obj_lt _ _ _ O) as Ll.
  destruct (eval_key e s s j l ek k o kvs I (grew_refl s) Vj Mp Ll So Sm Ke) as (s2 & r & o' & i & kvs' & E2 & I2 & Nr & Mv & M2 & Lu & So' & Lr).
  destruct (decl_core e s _ s2 r l i o' kvs' s I2 E2 eq_refl Nr Lr Mv eq_refl M2) as (s' & E & I' & Mv' & St & M'). exists s', o', i, kvs'. auto 10.
Qed.
(** What is said of the value, in the state it is evaluated in and afterwards. *)
Lemma value_grew : forall e s l ev P, INV e [] s -> l < length (mem s) -> (forall o, obj l s = Some o -> h_ty o = HPair) -> value_expr s l ev P ->
  exists q s2 x y, eval (length (stk s)) ev s = ROk (LS q) s2 /\ INV e [] s2 /\ grew s s2 /\ nth_error (stk s2) q = Some x /\
    denotes s2 x y /\ nonref y /\ (forall i, x <> MRef l i) /\ (assignable s y \/ ~ (exists x y, operand s ev x /\ denotes s x y) -> not_view s2 y) /\
    (forall s', (forall m a, m <> l -> y = MPtr m -> obj m s2 = Some a -> obj m s' = Some a) -> P s' y).
Proof.
  intros e s l ev P I L Hl Ve. destruct Ve as [ev x y Op D X|cs Sm].
  - destruct (operand_grew e s s ev x I (grew_refl s) Op) as (q & s2 & E & I2 & G & N). exists q, s2, x, y. do 4 (split; auto).
    split; [eapply grew_denotes; eauto|]. split; [apply (denotes_der s x y D)|]. split; auto. split; [|auto].
    intros [As|No]; [|exfalso; eauto]. apply assignable_ok in As as [_ Nv].
    apply (grew_held_view e [] s s2); auto. intros m Hm. destruct y as [| |k|k k'| |]; try discriminate; [|exfalso; eapply (proj2 (denotes_der s x (MRef k k') D)); eauto].
    inversion Hm; subst m. destruct x as [| |k'|k' i'| |]; simpl in D; try discriminate; try contradiction.
    + inversion D; subst. inversion Op; subst. eapply inv_stk; [apply I|eapply nth_error_In; eauto|reflexivity].
    + destruct D as (o & c & O & _ & _ & Nc & _). destruct I as (I & _). eapply inv_cell; [exact I|exact O| |exact Hm].
      unfold contents. apply in_or_app. left. apply in_flat_map. exists (c, MPtr k). split; [eapply nth_error_In; eauto|simpl; auto].
  - destruct (string_grew e s (length (stk s)) cs I Sm) as (s2 & E & I2 & G & N & A).
    exists (length (stk s)), s2, (MPtr (length (mem s))), (MPtr (length (mem s))). do 4 (split; auto). split; [reflexivity|].
    split; [intros ? ? Q; discriminate|]. split; [discriminate|]. pose proof A as (o & O & V & R). apply obj_live in O. split.
    + intros _ m a Q Oa. inversion Q; subst. congruence.
    + intros s' H. exists (length (mem s)). split; auto. exists o. split; auto. apply obj_live. apply H; auto. lia.
Qed.
Lemma set_val_cell : forall o i z c v n, nth_error (h_cells o) i = Some (c, v) -> nth_error (h_cells (set_val o i z)) n = if (n =? i)%nat then Some (c, z) else nth_error (h_cells o) n.
Proof.
  intros o i z c v n N. unfold set_val. rewrite N. simpl. destruct (Nat.eqb_spec n i) as [->|Ne]; [apply sn_same; eapply ne_lt; eauto|apply sn_other; auto].
Qed.
Lemma bound_looked : forall k z kvs i kvs1, looked_up k kvs i kvs1 -> exists a k' v b, kvs1 = a ++ (k', v) :: b /\ i = length a /\ bound_to k z kvs (a ++ (k', z) :: b).
Proof. intros k z kvs i kvs1 H. destruct H as [a k' v b E Q|a b E F1 F2]; [exists a, k', v, b|exists a, k, MNil, b]; (split; [auto|split; [auto|]]); [apply (bt_there k z kvs a k' v b E Q)|apply (bt_added k z kvs a b E F1 F2)]. Qed.
(** An entry is assigned: [b0] is the state the value and the subscript have led to, without their
    temporaries; [s2] is the one before the assignment and [s5] the one after. *)
Lemma store_core : forall e (ok : Prop) (P : state -> mvar -> Prop) l s1 s2 s5 b0 y k kvs i kvs2 o2, l < length (mem b0) ->
  (forall m, y = MPtr m -> live m s1) -> nonref y -> (ok -> not_view s1 y) ->
  (forall s', (forall m a, m <> l -> y = MPtr m -> obj m s1 = Some a -> obj m s' = Some a) -> P s' y) ->
  moved l o2 b0 s2 -> mapping s2 l o2 kvs2 -> looked_up k kvs i kvs2 -> ordered kvs2 ->
  (forall m a, m <> l -> y = MPtr m -> obj m s1 = Some a -> obj m b0 = Some a) ->
  (forall s', INV e [] s' -> (forall m o', m <> l -> obj m s' = Some o' -> obj m s2 = Some o') -> stk s' = stk b0 -> live l s') ->
  INV e [] s5 -> became l (set_val o2 i y) s2 s5 ->
  exists s6 kvs', leave (length (stk b0)) s5 = ROk tt s6 /\ INV e [] s6 /\ moved l (set_val o2 i y) b0 s6 /\ stk s6 = stk b0 /\ entries s6 l kvs' /\
    bound_to k y kvs kvs' /\ ordered kvs' /\ P s6 y /\ (ok -> mapping s6 l (set_val o2 i y) kvs') /\
    (forall m o', m <> l -> obj m s6 = Some o' -> obj m s2 = Some o').
Proof.
  intros e ok P l s1 s2 s5 b0 y k kvs i kvs2 o2 Ll Ly Ny Nvy HP Mv M2 Lu So2 Keep Hold I5 B5.
  destruct (bound_looked k y kvs i kvs2 Lu) as (a & k' & v & b & Ek & Ei & Bt).
  pose proof M2 as (O2 & V2 & T2 & Oks2 & Sz2 & Lc2 & Ce2).
  assert (Li : i < length kvs2) by (rewrite Ek, Ei, app_length; simpl; lia).
  assert (Old : forall m a0 a1, m <> l -> y = MPtr m -> obj m s1 = Some a0 -> obj m s2 = Some a1 -> a1 = a0).
  { intros m a0 a1 Hm Hy A B. pose proof (Keep _ _ Hm Hy A) as C. assert (Q : obj m b0 = Some a1) by (eapply moved_other; eauto; eapply obj_lt; eauto). congruence. }
  assert (Mv5 : moved l (set_val o2 i y) b0 s5) by (eapply moved_trans; [exact Ll|exact Mv|apply became_moved; exact B5]).
  assert (Lf : exists s6, leave (length (stk b0)) s5 = ROk tt s6 /\ INV e [] s6 /\ moved l (set_val o2 i y) b0 s6 /\ stk s6 = stk b0 /\ within s5 s6).
  { eapply leave_live; eauto. intros s' I' W' St'. apply Hold; auto. intros m o0 Hm Om. apply W' in Om. eapply became_other; [eapply obj_lt; exact O2|exact B5|exact Hm|exact Om]. }
  destruct Lf as (s6 & E6 & I6 & Mv6 & St6 & W6).
  pose proof (proj1 Mv6) as O6.
  destruct (Ce2 i (k', v)) as (c & Nc & Rc); [rewrite Ek, Ei, nth_error_app2, Nat.sub_diag by auto; reflexivity|]. simpl in Nc, Rc.
  assert (Cs : forall n, nth_error (h_cells (set_val o2 i y)) n = if (n =? i)%nat then Some (c, y) else nth_error (h_cells o2) n) by (intros; eapply set_val_cell; eauto).
  destruct (set_val_alike o2 i y) as (Al1 & Al2 & Al3 & Al4 & Al5).
  assert (Ot : forall m a0, m <> l -> obj m s6 = Some a0 -> m < length (mem s2) -> obj m s2 = Some a0).
  { intros m a0 Hm Oa _. apply W6 in Oa. eapply became_other; [eapply obj_lt; exact O2|exact B5|exact Hm|exact Oa]. }
  assert (Nk : forall n kv, nth_error (a ++ (k', y) :: b) n = Some kv -> exists c0, nth_error (h_cells (set_val o2 i y)) n = Some (c0, snd kv) /\ reads_key s6 c0 (fst kv)).
  { intros n kv Nn. assert (Kk : forall c0 w kk, nth_error (h_cells (set_val o2 i y)) n = Some (c0, w) -> reads_key s2 c0 kk -> reads_key s6 c0 kk).
    { intros c0 w kk N1 N2. eapply (keys_kept e [] s2 s6 l o2 (set_val o2 i y)); eauto. }
    rewrite Cs. specialize (Cs n). destruct (Nat.eqb_spec n i) as [En|Ne].
    - rewrite En, Ei, nth_error_app2, Nat.sub_diag in Nn by auto. inversion Nn; subst kv. simpl. exists c. split; auto. eapply Kk; eauto.
    - assert (Nn2 : nth_error kvs2 n = Some kv).
      { rewrite Ek. destruct (Nat.ltb_spec n (length a)); [rewrite nth_error_app1 in * by auto; auto|].
        rewrite nth_error_app2 in * by auto. destruct (n - length a) eqn:Q; [lia|]. exact Nn. }
      destruct (Ce2 _ _ Nn2) as (c0 & N1 & N2). exists c0. split; auto. eapply Kk; eauto. rewrite Cs. exact N1. }
  assert (Ln : h_size (set_val o2 i y) = length (a ++ (k', y) :: b)) by (rewrite Al2, Sz2, Ek, !app_length; reflexivity).
  exists s6, (a ++ (k', y) :: b). split; [exact E6|split; [auto|split; [auto|split; [auto|split; [|split; [auto|split; [|split; [|split]]]]]]]].
  - apply (cells_entries s6 l (set_val o2 i y)); auto; [rewrite Al4; auto|rewrite Al1; auto].
  - unfold ordered in *. rewrite Ek in So2. rewrite map_app in *. exact So2.
  - apply HP. intros m a0 Hm -> Oa. assert (Lv : live m s6).
    { destruct I6 as (I6 & _). apply (inv_cell e [] s6 l (set_val o2 i (MPtr m)) (MPtr m) m I6); [apply obj_live; exact O6| |reflexivity]. unfold contents. apply in_or_app. left. apply in_flat_map.
      exists (c, MPtr m). split; [|simpl; auto]. eapply nth_error_In with (n := i). rewrite Cs, Nat.eqb_refl. reflexivity. }
    apply live_obj in Lv as [a1 Oa1]. rewrite Oa1. assert (L2 : m < length (mem s2)).
    { destruct W6 as [W6 _]. pose proof (became_len _ _ _ _ B5). pose proof (obj_lt _ _ _ Oa1). lia. }
    rewrite (Old m a0 a1 Hm eq_refl Oa (Ot m a1 Hm Oa1 L2)). reflexivity.
  - intros As. specialize (Nvy As).
    assert (Nw : forall w, not_view s2 w -> not_view s6 w).
    { intros w Hw m a0 -> Oa. destruct (Nat.eq_dec m l) as [->|Hm]; [rewrite O6 in Oa; inversion Oa; subst; rewrite Al4; auto|].
      apply W6 in Oa. apply (Hw m a0 eq_refl). eapply became_other; [eapply obj_lt; exact O2|exact B5|exact Hm|exact Oa]. }
    assert (Nv6 : not_view s6 y).
    { intros m a0 -> Oa. destruct (Nat.eq_dec m l) as [->|Hm]; [rewrite O6 in Oa; inversion Oa; subst; rewrite Al4; auto|].
      assert (L2 : m < length (mem s2)).
      { destruct W6 as [W6 _]. pose proof (became_len _ _ _ _ B5). pose proof (obj_lt _ _ _ Oa). lia. }
      pose proof (Ot m a0 Hm Oa L2) as Oa2.
      assert (Lv : live m s1) by auto.
      apply live_obj in Lv as [a1 Q]. assert (a0 = a1) by (eapply Old; eauto). subst. eapply Nvy; eauto. }
    unfold mapping. do 3 (split; [first [exact O6|rewrite Al4; auto|rewrite Al1; auto]|]). split; [|split; [exact Ln|split; [lia|exact Nk]]].
    intros n c0 N. rewrite Cs in N. destruct (Nat.eqb_spec n i) as [->|Ne].
    + inversion N; subst c0. destruct (Oks2 _ _ Nc) as (P1 & P2 & P3 & P4). split; [|split; [|split]]; simpl; auto.
    + destruct (Oks2 _ _ N) as (P1 & P2 & P3 & P4). split; auto.
  - intros m o0 Hm Om. apply Ot; auto. destruct W6 as [W6 _]. pose proof (became_len _ _ _ _ B5). pose proof (obj_lt _ _ _ Om). lia.
Qed.
Lemma assign_core : forall e s f ev (P : state -> mvar -> Prop) l s1 s2 b0 q r x y k kvs i kvs2 o2, l < length (mem b0) -> length (stk b0) = length (stk s) ->
  eval (length (stk s)) ev s = ROk (LS q) s1 -> INV e [] s1 -> nth_error (stk s1) q = Some x -> denotes s1 x y -> nonref y -> (forall i, x <> MRef l i) ->
  (assignable s y \/ ~ (exists x y, operand s ev x /\ denotes s x y) -> not_view s1 y) ->
  (forall s', (forall m a, m <> l -> y = MPtr m -> obj m s1 = Some a -> obj m s' = Some a) -> P s' y) ->
  eval (length (stk s)) f s1 = ROk (LS r) s2 -> INV e [] s2 -> nth_error (stk s2) r = Some (MRef l i) -> nth_error (stk s2) q = Some x ->
  moved l o2 b0 s2 -> mapping s2 l o2 kvs2 -> looked_up k kvs i kvs2 -> ordered kvs2 ->
  (forall m a, m <> l -> y = MPtr m \/ (exists n, x = MRef m n) -> obj m s1 = Some a -> obj m b0 = Some a) ->
  (forall s', INV e [] s' -> (forall m o', m <> l -> obj m s' = Some o' -> obj m s2 = Some o') -> stk s' = stk b0 -> live l s') ->
  exists s' o' z kvs', exec (SAssign f ev) s = ROk tt s' /\ INV e [] s' /\ moved l o' b0 s' /\ stk s' = stk b0 /\ entries s' l kvs' /\
    bound_to k z kvs kvs' /\ ordered kvs' /\ P s' z /\ (assignable s z \/ ~ (exists x y, operand s ev x /\ denotes s x y) -> mapping s' l o' kvs') /\
    (forall m o', m <> l -> obj m s' = Some o' -> obj m s2 = Some o').
Proof.
  intros e s f ev P l s1 s2 b0 q r x y k kvs i kvs2 o2 Ll Lb E1 I1 Nq D1 Ny X Nvy HP E2 I2 Nr Nq2 Mv M2 Lu So2 Keep Hold.
  pose proof M2 as (O2 & V2 & T2 & Oks2 & Sz2 & Lc2 & Ce2).
  assert (Li : i < length kvs2) by (destruct (bound_looked k y kvs i kvs2 Lu) as (a & k' & v & b & Ek & Ei & _); rewrite Ek, Ei, app_length; simpl; lia).
  pose proof (INV_sound _ _ _ I2) as Sd2. assert (Hx : held x s2) by (apply (getv_held (LS q)); auto).
  assert (Old : forall m a0 a1, m <> l -> (exists n, x = MRef m n) -> obj m s1 = Some a0 -> obj m s2 = Some a1 -> a1 = a0).
  { intros m a0 a1 Hm Hy A B. pose proof (Keep _ _ Hm (or_intror Hy) A) as C. assert (Q : obj m b0 = Some a1) by (eapply moved_other; eauto; eapply obj_lt; eauto). congruence. }
  assert (D2 : denotes s2 x y).
  { apply (denotes_keep s1); auto. intros m n a0 -> Oa La. exists a0. split; [|auto].
    assert (Lv : live m s2) by (apply Hx; reflexivity). apply live_obj in Lv as [a1 Oa1]. assert (Hm : m <> l) by (intros ->; eapply X; eauto). rewrite Oa1, (Old m a0 a1 Hm (ex_intro _ n eq_refl) Oa Oa1). reflexivity. }
  set (s3 := push_s x (bump x s2)). assert (T3 : temps s2 s3) by apply temps_push, temps_refl.
  destruct (assign_became e s3 r (length (stk s2)) l i o2 x y y) as (s4 & E4 & I4 & B4); auto.
  - apply INV_push, INV_bump; auto.
  - eapply temps_slot; eauto.
  - simpl. rewrite bump_stk, nth_error_app2, Nat.sub_diag by auto. reflexivity.
  - rewrite (temps_obj _ _ _ T3). auto.
  - apply (temps_okcells s2 s3); auto. intros _ n w Hw. apply val_at_cell in Hw as [c Hc]. destruct (Oks2 _ _ Hc) as (_ & _ & P3 & P4). auto.
  - lia.
  - eapply temps_denotes; eauto.
  - rewrite T2. reflexivity.
  - destruct (with_copy_became e e s2 q x l (set_val o2 i y) r (MRef l i) (assign (LS r)) s4) as (s5 & E5 & I5 & B5); auto; [eapply obj_lt; eauto|].
    destruct (store_core e (assignable s y \/ ~ (exists x y, operand s ev x /\ denotes s x y)) P l s1 s2 s5 b0 y k kvs i kvs2 o2) as (s6 & kvs' & E6 & R6); auto.
    { intros m ->. destruct (denotes_der s1 x (MPtr m) D1) as [Dd _]. apply (MemMeth.der_held x s1 (MPtr m) (INV_sound _ _ _ I1)); auto. apply (getv_held (LS q) s1 x (INV_sound _ _ _ I1)). exact Nq. }
    exists s6, (set_val o2 i y), y, kvs'. split; [|exact R6].
    change (exec (SAssign f ev) s) with (finish (length (stk s)) (let! p := eval (length (stk s)) ev in let! v := eval (length (stk s)) f in with_copy p (assign v)) s).
    unfold finish. rewrite (bind_ok _ _ _ _ _ _ _ E1). rewrite (bind_ok _ _ _ _ _ _ _ E2). rewrite E5. rewrite <- Lb. exact E6.
Qed.
Lemma key_assign : forall e s j l ek k ev P o kvs, INV e [] s -> variable s j (MPtr l) -> mapping s l o kvs -> ordered kvs -> small (S (length kvs)) ->
  key_expr s l ek k -> value_expr s l ev P ->
  exists s' o' z kvs', exec (SAssign (EKey (EVar j) ek) ev) s = ROk tt s' /\ INV e [] s' /\ moved l o' s s' /\ stk s' = stk s /\ entries s' l kvs' /\
    bound_to k z kvs kvs' /\ ordered kvs' /\ P s' z /\ (assignable s z \/ ~ (exists x y, operand s ev x /\ denotes s x y) -> mapping s' l o' kvs').
Proof.
  intros e s j l ek k ev P o kvs I Vj Mp So Sm Ke Ve. pose proof Mp as (O & Vo & To & _). pose proof (obj_lt _ _ _ O) as Ll.
  destruct (value_grew e s l ev P I Ll) as (q & s1 & x & y & E1 & I1 & G1 & Nq & D1 & Ny & X & Nvy & HP); auto.
  { intros o0 O0. congruence. }
  assert (M1 : mapping s1 l o kvs) by (eapply mapping_grew; eauto).
  destruct (eval_key e s s1 j l ek k o kvs I1 G1 Vj M1 Ll So Sm Ke) as (s2 & r & o2 & i & kvs2 & E2 & I2 & Nr & Mv & M2 & Lu & So2 & Lr).
  pose proof G1 as [[ms Em] [ws Es]].
  set (b0 := {| mem := mem s1; rc := rc s1; stk := stk s |}).
  assert (Mb : moved l o2 b0 s2).
  { destruct Mv as (O2 & ms2 & ws2 & A & B & C). split; auto. exists ms2, (ws ++ ws2). unfold shrunk, extm; simpl in *. rewrite app_assoc, <- Es. auto. }
  destruct (assign_core e s (EKey (EVar j) ek) ev P l s1 s2 b0 q r x y k kvs i kvs2 o2) as (s' & o' & z & kvs' & E & I' & Mv' & St' & En & Bt & So' & HP' & Mp' & _); auto.
  - simpl. rewrite Em, app_length. lia.
  - eapply moved_slot; [exact Mv|auto].
  - intros s' I' _ St'. eapply inv_stk; [apply I'|rewrite St'; eapply nth_error_In; exact Vj|reflexivity].
  - exists s', o', z, kvs'. split; auto. split; auto. split; [|auto 10].
    destruct Mv' as (O' & ms2 & ws2 & A & B & C). split; auto. exists (ms ++ ms2), ws2. simpl in A, B. rewrite Em, sn_app1, <- app_assoc in B by auto.
    unfold shrunk, extm; simpl. split; auto. split; auto. intros m a K. apply (C m a) in K. unfold obj in *. simpl in *. rewrite Em, sn_app1, <- app_assoc in K by auto. auto.
Qed.

(** * A variable that is not defined becomes a map *)
Lemma new_map_gives : forall e F s, INV e F s -> exists o, new_heap HPair 0 s = ROk (MPtr (length (mem s))) (new_st o s) /\ INV e (MPtr (length (mem s)) :: F) (new_st o s) /\
  h_ty o = HPair /\ h_size o = 0 /\ h_view o = None /\ forall k c, nth_error (h_cells o) k = Some c -> c = (MNil, MNil).
Proof.
  intros e F s I. destruct (new_heap_gives e F s HPair 0 I) as (o & E & I1 & T & Sz & V & _); [simpl; lia|]. exists o. do 5 (split; auto).
  unfold new_heap, new_cells in E. unfold bind in E. destruct (lift (allocSize (Z.of_nat 0 + (if is_char HPair then 1 else 0))) s) as [c s1|?|?|] eqn:Q; try discriminate.
  destruct (c <? 0)%Z; [discriminate|]. simpl in E. unfold ret in E. inversion E. destruct s, s1; simpl in *.
  assert (Ho : mkobj HPair 0 0 (repeat (fresh HPair) (Z.to_nat c)) None = o).
  { unfold new_st in H0. simpl in H0. inversion H0. apply app_inj_tail in H1 as [_ H1]. inversion H1. auto. }
  intros k p N. rewrite <- Ho in N. simpl in N. apply nth_error_In, repeat_spec in N. exact N.
Qed.
Lemma index_new_map : forall e s j q x y k, INV e [] s -> nth_error (stk s) j = Some MNil -> q <> j -> nth_error (stk s) q = Some x -> denotes s x y -> reads_key s y k ->
  exists s' o' b, index_var (LS j) (LS q) s = ROk (MRef (length (mem s)) 0) (bump (MPtr (length (mem s))) s') /\ INV e [] s' /\
    b = {| mem := mem s ++ [Some o']; rc := rc s; stk := set_nth (stk s) j (MPtr (length (mem s))) |} /\ shrunk b s' /\
    mapping s' (length (mem s)) o' [(k, MNil)].
Proof.
  intros e s j q x y k I Nj Nq Hq D R. pose proof (INV_sound _ _ _ I) as Sd. set (l := length (mem s)).
  destruct (new_map_gives e [] s I) as (o & E & I1 & T & Sz & V & Cs). fold l in E, I1.
  set (t := putv (LS j) (MPtr l) (new_st o s)).
  assert (It : INV e [] t).
  { assert (Q : INV e [MNil] t) by (apply INV_putv; [exact I1|exact Nj|exact Logic.I]). eapply INV_perm; eauto. }
  assert (Ot : obj l t = Some o) by (apply obj_live; simpl; unfold l; rewrite nth_error_app2, Nat.sub_diag by auto; reflexivity).
  assert (Gt : forall m a, obj m s = Some a -> obj m t = Some a).
  { intros m a A. apply obj_live in A. apply obj_live. simpl. rewrite nth_error_app1; auto. eapply ne_lt; eauto. }
  assert (Mt : mapping t l o []).
  { unfold mapping. do 3 (split; auto). split; [|split; [auto|split; [lia|intros n kv N; destruct n; discriminate]]].
    intros n c N. rewrite (Cs n c N). unfold okpair; simpl. split; [intros ? ? Q; discriminate|]. split; [intros ? ? Q; discriminate|]. split; intros ? ? Q; discriminate. }
  assert (Lj : j < length (stk s)) by (eapply ne_lt; eauto).
  destruct (map_lookup e t (LS j) l q o [] x y k) as (s' & o' & i & kvs' & E' & I' & B & Fm & Mp & Lu & So); auto.
  - split; [|exact Logic.I]. simpl. apply sn_same. auto.
  - constructor.
  - unfold small; simpl; lia.
  - simpl. rewrite sn_other; auto.
  - apply (denotes_keep s); auto. intros m n a _ A La. exists a. split; auto.
  - apply (reads_key_keep s); auto.
  - intros i ->. destruct D as (a & c & A & _). apply ne_lt in A. unfold l in A. lia.
  - assert (Q : i = 0 /\ kvs' = [(k, MNil)]).
    { inversion Lu as [a k' v b Q|a b Q F1 F2 Q1 Q2]; [destruct a; discriminate|]. destruct a; [|discriminate]. destruct b; [|discriminate]. auto. }
    destruct Q as [-> ->]. exists s', o'. eexists. split; [|split; [auto|split; [reflexivity|split; [|auto]]]].
    + unfold index_var. rewrite (bind_ok _ _ _ _ s (LS j) s); [|eapply deref_nonref; [exact Nj|intros ? ? Q; discriminate]].
      rewrite (bind_ok _ _ _ _ s false s); [|unfold defined; rewrite (bind_ok _ _ _ _ _ _ _ (get_eq (LS j) _ _ Nj)); reflexivity]. cbv zeta. change (negb false) with true. cbv iota.
      rewrite (bind_ok _ _ _ _ _ _ _ E). rewrite (bind_ok _ _ _ _ _ _ _ (put_eq (LS j) (new_st o s) MNil (MPtr l) Nj)). exact E'.
    + destruct B as [Sh _]. eapply shrunk_trans; [|exact Sh]. unfold shrunk; simpl. unfold l. rewrite MemThrow.sn_app2. split; auto. split; auto. intros m a. unfold obj; simpl. rewrite MemThrow.sn_app2. auto.
Qed.
Lemma eval_new_key : forall e s s1 j ek k, INV e [] s1 -> grew s s1 -> variable s j MNil -> key_expr s (length (mem s)) ek k ->
  exists s2 r l o' b0, eval (length (stk s)) (EKey (EVar j) ek) s1 = ROk (LS r) s2 /\ INV e [] s2 /\ nth_error (stk s2) r = Some (MRef l 0) /\
    length (mem s1) <= l /\ l < length (mem b0) /\ stk b0 = set_nth (stk s) j (MPtr l) /\ (exists ms, mem b0 = mem s1 ++ ms) /\ moved l o' b0 s2 /\
    mapping s2 l o' [(k, MNil)] /\ length (stk s1) <= r /\ (forall q x, q <> j -> nth_error (stk s1) q = Some x -> nth_error (stk s2) q = Some x).
Proof.
  intros e s s1 j ek k I G Vj Ke. pose proof G as [[ms0 Em0] [ws0 Es0]].
  assert (Ke' : exists q s2 x y, eval (length (stk s)) ek s1 = ROk (LS q) s2 /\ INV e [] s2 /\ grew s1 s2 /\ nth_error (stk s2) q = Some x /\ denotes s2 x y /\ reads_key s2 y k).
  { destruct Ke as [ek x y k Op D R X|cs Kc Sm].
    - destruct (operand_grew e s s1 ek x I G Op) as (q & s2 & E & I2 & G2 & N). exists q, s2, x, y. do 4 (split; auto).
      pose proof (grew_trans _ _ _ G G2) as G3. split; [eapply grew_denotes; eauto|]. eapply grew_key; eauto.
    - destruct (string_grew e s1 (length (stk s)) cs I) as (s2 & E & I2 & G2 & N & A).
      { unfold small in *. lia. }
      exists (length (stk s1)), s2, (MPtr (length (mem s1))), (MPtr (length (mem s1))). do 4 (split; auto). split; [reflexivity|].
      split; auto. right. exists (length (mem s1)), cs. auto. }
  destruct Ke' as (q & s2 & x & y & E2 & I2 & G2 & Nq & D & R). pose proof G2 as [[ms2 Em2] [ws2 Es2]].
  pose proof (INV_sound _ _ _ I2) as Sd2. assert (Hx : held x s2) by (apply (getv_held (LS q)); auto).
  assert (Nj : nth_error (stk s2) j = Some MNil) by (eapply grew_slot; [|exact Vj]; eapply grew_trans; eauto).
  assert (Lj : j < length (stk s)) by (eapply ne_lt; eauto). assert (Lj2 : j < length (stk s2)) by (eapply ne_lt; eauto).
  set (s3 := push_s x (bump x s2)). assert (T3 : temps s2 s3) by apply temps_push, temps_refl. assert (M3 : mem s3 = mem s2) by (simpl; apply bump_mem).
  destruct (index_new_map e s3 j (length (stk s2)) x y k) as (s4 & o' & b & E4 & I4 & Eb & Sh4 & M4); auto.
  - apply INV_push, INV_bump; auto.
  - eapply temps_slot; eauto.
  - lia.
  - simpl. rewrite bump_stk, nth_error_app2, Nat.sub_diag by auto. reflexivity.
  - eapply temps_denotes; eauto.
  - eapply grew_key; [apply grew_temps; exact T3|auto].
  - rewrite M3 in *. set (l := length (mem s2)) in *. pose proof M4 as (O4 & _). pose proof Sh4 as (St4 & Lm4 & Ob4). rewrite Eb in St4, Lm4. simpl in St4, Lm4.
    assert (Es4 : stk s4 = set_nth (stk s2) j (MPtr l) ++ [x]) by (rewrite St4, bump_stk, sn_app1 by auto; reflexivity).
    assert (I5 : INV e [MRef l 0] (bump (MRef l 0) s4)).
    { apply INV_bump; auto. intros m Hm. inversion Hm; subst. apply live_obj. eauto. }
    destruct (scoped_gives _ x (fun q => index_var (LS j) q) e [MRef l 0] (bump x s2) (MRef l 0) (bump (MPtr l) s4) x {| mem := mem s4; rc := rc s4; stk := set_nth (stk s2) j (MPtr l) |}) as (s5 & E5 & I6 & Sh5).
    + rewrite bump_stk. exact E4.
    + exact I5.
    + split; [rewrite bump_stk; exact Es4|]. split; [rewrite bump_mem; reflexivity|]. intros m a K. rewrite obj_bump in K. exact K.
    + simpl. rewrite sn_length, bump_stk. reflexivity.
    + pose proof Sh5 as (A5 & B5 & C5). simpl in A5, B5.
      assert (O5 : obj l s5 = Some o') by (eapply (shrunk_obj_flight e [MRef l 0] _ s5 (MRef l 0) l o' Sh5); simpl; auto).
      set (s6 := push_s (MRef l 0) s5). assert (I7 : INV e [] s6) by (apply INV_push; auto).
      assert (Els : stk s6 = set_nth (stk s) j (MPtr l) ++ (ws0 ++ ws2 ++ [MRef l 0])).
      { simpl. rewrite A5, Es2, Es0, <- !app_assoc, sn_app1, <- !app_assoc by auto. reflexivity. }
      exists s6, (length (stk s2)), l, o', {| mem := mem s2 ++ [Some o']; rc := rc s2; stk := set_nth (stk s) j (MPtr l) |}. split; [|split; [auto|split; [|split; [|split; [|split; [reflexivity|split; [|split; [|split; [|split]]]]]]]]].
      * change (eval (length (stk s)) (EKey (EVar j) ek)) with (let! v := eval (length (stk s)) (EVar j) in let! p := eval (length (stk s)) ek in let! y := copy_of p in let! x := scoped y (fun q => index_var v q) in temp x).
        rewrite (bind_ok _ _ _ _ _ _ _ (eval_var s j _ _ Vj eq_refl s1)). rewrite (bind_ok _ _ _ _ _ _ _ E2). rewrite (bind_ok _ _ _ _ _ _ _ (copy_of_eq (LS q) s2 x Sd2 Nq)).
        rewrite (bind_ok _ _ _ _ _ _ _ E5). unfold temp. rewrite A5, sn_length. unfold s6, push_s. rewrite A5. reflexivity.
      * simpl. rewrite A5, nth_error_app2, sn_length, Nat.sub_diag by (rewrite sn_length; auto). reflexivity.
      * unfold l. rewrite Em2, app_length. lia.
      * simpl. rewrite app_length. simpl. unfold l. lia.
      * simpl. rewrite Em2, <- app_assoc. eauto.
      * split; auto. exists [], (ws0 ++ ws2 ++ [MRef l 0]). unfold shrunk, extm; simpl. split; [exact Els|]. split; [rewrite B5, Lm4, app_nil_r, sn_length; reflexivity|].
        intros m a K. apply (C5 m a) in K. apply (Ob4 m a) in K. rewrite Eb in K. unfold obj in *. simpl in *. rewrite app_nil_r. unfold l. rewrite MemThrow.sn_app2. rewrite ?bump_mem in K. exact K.
      * apply (mapping_mem s5 s6); auto. apply (mapping_within e [MRef l 0] s4 s5); auto. split; [exact B5|exact C5].
      * rewrite Es2, app_length. lia.
      * intros q' x' Hq' Nq'. assert (Lq : q' < length (stk s1)) by (eapply ne_lt; eauto). simpl. rewrite A5, nth_error_app1 by (rewrite sn_length, Es2, app_length; lia).
        rewrite sn_other by auto. rewrite Es2, nth_error_app1; auto.
Qed.
Lemma new_key_decl : forall e s j ek k, INV e [] s -> variable s j MNil -> key_expr s (length (mem s)) ek k ->
  exists s' l o' b0, exec (SDecl (EKey (EVar j) ek)) s = ROk tt s' /\ INV e [] s' /\ length (mem s) <= l /\ stk s' = set_nth (stk s) j (MPtr l) ++ [MRef l 0] /\
    (exists ms, mem b0 = mem s ++ ms) /\ moved l o' b0 s' /\ l < length (mem b0) /\ mapping s' l o' [(k, MNil)].
Proof.
  intros e s j ek k I Vj Ke.
  destruct (eval_new_key e s s j ek k I (grew_refl s) Vj Ke) as (s2 & r & l & o' & b0 & E2 & I2 & Nr & Ll & Lb & Sb & Mb & Mv & M2 & Lr & _).
  destruct (decl_core e s _ s2 r l 0 o' _ b0 I2 E2 eq_refl Nr ltac:(rewrite Sb, sn_length; exact Lr) Mv ltac:(rewrite Sb, sn_length; auto) M2) as (s' & E & I' & Mv' & St & M').
  exists s', l, o', b0. rewrite Sb in St. auto 10.
Qed.
Lemma new_key_assign : forall e s j ek k ev P, INV e [] s -> variable s j MNil -> key_expr s (length (mem s)) ek k -> value_expr s (length (mem s)) ev P -> ev <> EVar j ->
  exists s' l o' z b0, exec (SAssign (EKey (EVar j) ek) ev) s = ROk tt s' /\ INV e [] s' /\ length (mem s) <= l /\ stk s' = set_nth (stk s) j (MPtr l) /\
    (exists ms, mem b0 = mem s ++ ms) /\ moved l o' b0 s' /\ l < length (mem b0) /\ entries s' l [(k, z)] /\ P s' z /\
    (assignable s z \/ ~ (exists x y, operand s ev x /\ denotes s x y) -> mapping s' l o' [(k, z)]).
Proof.
  intros e s j ek k ev P I Vj Ke Ve Nev.
  assert (Lj : j < length (stk s)) by (eapply ne_lt; eauto).
  (* the value *)
  assert (V1 : exists q s1 x y, eval (length (stk s)) ev s = ROk (LS q) s1 /\ INV e [] s1 /\ grew s s1 /\ nth_error (stk s1) q = Some x /\
    denotes s1 x y /\ nonref y /\ q <> j /\ (assignable s y \/ ~ (exists x y, operand s ev x /\ denotes s x y) -> not_view s1 y) /\
    (forall s' l, length (mem s1) <= l -> (forall m a, m <> l -> y = MPtr m -> obj m s1 = Some a -> obj m s' = Some a) -> P s' y)).
  { destruct Ve as [ev x y Op D X|cs Sm].
    - destruct (operand_grew e s s ev x I (grew_refl s) Op) as (q & s2 & E & I2 & G & N). exists q, s2, x, y. do 4 (split; auto).
      split; [eapply grew_denotes; eauto|]. split; [apply (denotes_der s x y D)|]. split; [|split; [|auto]].
      + intros ->. destruct Op as [k0 x V|v Nv| |k0 l i V Hi|k0 l t xs i V A Hi].
        * simpl in E. destruct (k0 <? length (stk s))%nat; [|discriminate]. inversion E; subst. congruence.
        * simpl in E. rewrite Nv in E. inversion E. lia.
        * simpl in E. inversion E. lia.
        * change (eval (length (stk s)) (EAt (EVar k0) i)) with (let! v := eval (length (stk s)) (EVar k0) in let! x := at_int v i in temp x) in E.
          rewrite (bind_ok _ _ _ _ _ _ _ (eval_var s k0 _ _ V eq_refl s)) in E. rewrite (bind_ok _ _ _ _ _ _ _ (at_int_ptr s (LS k0) l i (INV_sound _ _ _ I) V Hi)) in E.
          unfold temp in E. rewrite bump_stk in E. inversion E. lia.
        * change (eval (length (stk s)) (EIdx (EVar k0) i)) with (let! v := eval (length (stk s)) (EVar k0) in let! x := index_int v i in temp x) in E.
          rewrite (bind_ok _ _ _ _ _ _ _ (eval_var s k0 _ _ V eq_refl s)) in E. destruct (array_obj _ _ _ _ A) as (o & O & Vw & _ & Sz & _).
          rewrite (bind_ok _ _ _ _ _ _ _ (index_in_ptr s (LS k0) l i o (INV_sound _ _ _ I) V O Vw ltac:(lia))) in E.
          unfold temp in E. rewrite bump_stk in E. inversion E. lia.
      + intros [As|No]; [|exfalso; eauto]. apply assignable_ok in As as [_ Nv].
        apply (grew_held_view e [] s s2); auto. apply (MemMeth.der_held x s y (INV_sound _ _ _ I)); [|apply denotes_der; auto].
        intros m Hm. destruct x; try discriminate; inversion Hm; subst; inversion Op; subst; eapply inv_stk; try (apply I); try (eapply nth_error_In; eauto); reflexivity.
    - destruct (string_grew e s (length (stk s)) cs I Sm) as (s2 & E & I2 & G & N & A).
      exists (length (stk s)), s2, (MPtr (length (mem s))), (MPtr (length (mem s))). do 4 (split; auto). split; [reflexivity|].
      split; [intros ? ? Q; discriminate|]. split; [lia|]. pose proof A as (o & O & V & R). apply obj_live in O. split.
      + intros _ m a Q Oa. inversion Q; subst. congruence.
      + intros s' l Hl H. exists (length (mem s)). split; auto. exists o. split; auto. apply obj_live. apply H; auto. pose proof (obj_lt _ _ _ O). lia. }
  destruct V1 as (q & s1 & x & y & E1 & I1 & G1 & Nq & D1 & Ny & Hqj & Nvy & HP). pose proof G1 as [[ms1 Em1] _].
  destruct (eval_new_key e s s1 j ek k I1 G1 Vj Ke) as (s2 & r & l & o' & b0 & E2 & I2 & Nr & Ll & Lb & Sb & [mb Emb] & Mv & M2 & Lr & Sl).
  assert (Ll0 : length (mem s) <= l) by (rewrite Em1, app_length in Ll; lia).
  destruct (assign_core e s (EKey (EVar j) ek) ev P l s1 s2 b0 q r x y k [] 0 [(k, MNil)] o') as (s' & o2 & z & kvs' & E & I' & Mv' & St' & En & Bt & So' & HP' & Mp' & _); auto.
  - rewrite Sb, sn_length. auto.
  - intros i ->. destruct D1 as (a & c & A & _). apply ne_lt in A. lia.
  - intros s' H. apply (HP s' l); auto.
  - apply (lu_added k [] [] []); auto.
  - repeat constructor.
  - intros m a _ _ A. apply obj_live in A. apply obj_live. rewrite Emb, nth_error_app1; auto. eapply ne_lt; eauto.
  - intros s' I' _ St'. eapply (inv_stk e [] s' (MPtr l)); [apply I'|rewrite St', Sb; eapply nth_error_In with (n := j); apply sn_same; auto|reflexivity].
  - assert (kvs' = [(k, z)]).
    { inversion Bt as [a k' v b Q|a b Q F1 F2 Q1]; [destruct a; discriminate|]. destruct a; [|discriminate]. destruct b; [|discriminate]. auto. }
    subst kvs'. exists s', l, o2, z, b0. rewrite Sb in St'. do 4 (split; auto). split; [rewrite Emb, Em1, <- app_assoc; eauto|auto 10].
Qed.
