(** Maps inside maps: a subscript of an entry that is itself a map, or that is not defined yet. *)
From Coq Require Import ZArith Bool List String Lia Sorting.
From Verif Require Import Base AllocModel StrModel ValModel NumModel MemModel MemProof MemFun MemEq MemDeref MemTriple MemKey MemArr MemElem MemList MemArrays MemText MemScalar ValSpec ValProof ArrSpec ArrFacts MemMapSpec MemMap MemLook MemMaps MemMapProps.
Import ListNotations.
Local Open Scope list_scope.
Local Open Scope mem_scope.
Local Notation length := List.length.

(** * Two variables on one array *)
Lemma two_slots : forall e F s r p x v l, INV e F s -> nth_error (stk s) r = Some x -> target x = Some l -> nth_error (stk s) p = Some v -> target v = Some l -> r <> p ->
  2 <= rcount l s.
Proof.
  intros e F s r p x v l I Nr Tx Np Tv Ne.
  assert (I2 : INV e (x :: F) (putv (LS r) MNil s)) by (apply INV_putv; simpl; auto; apply INV_add0; auto).
  destruct I2 as ((L & H) & _). specialize (H l).
  assert (N2 : nth_error (stk (putv (LS r) MNil s)) p = Some v) by (simpl; rewrite sn_other; auto).
  assert (Lv : live l s) by (eapply inv_stk; [apply I|eapply nth_error_In; exact Nr|auto]).
  apply (live_putv (LS r) MNil) in Lv as [o O]. rewrite O in H. destruct H as [H _]. rewrite rcount_putv in H. rewrite H.
  unfold tot. simpl occ at 1. pose proof (occ_in l v (stk (putv (LS r) MNil s)) (nth_error_In _ _ N2) Tv).
  simpl. rewrite occ1_same by auto. simpl in H0. lia.
Qed.
(** Dereferencing a temporary that refers to an entry: the temporary takes the value. *)
Lemma nest_deref : forall e s r p w l i o c v, INV e [] s -> nth_error (stk s) r = Some (MRef l i) -> nth_error (stk s) p = Some w -> target w = Some l -> r <> p ->
  obj l s = Some o -> plain_vars o = true -> nth_error (h_cells o) i = Some (c, v) -> nonref v ->
  exists s1, dereference (LS r) s = ROk (LC l (h_gen o) i) s1 /\ INV e [] s1 /\ mem s1 = mem s /\ stk s1 = set_nth (stk s) r v.
Proof.
  intros e s r p w l i o c v I Nr Np Tw Ne O P Nc Nv. pose proof (INV_sound _ _ _ I) as Sd. pose proof Sd as (Cn & _).
  assert (R2 : 2 <= rcount l s) by (apply (two_slots e [] s r p (MRef l i) w l); auto).
  assert (G : getv (LC l (h_gen o) i) s = Some v) by (simpl; rewrite O, Nat.eqb_refl, Nc; reflexivity).
  assert (Hv : held v s) by (apply (getv_held (LC l (h_gen o) i)); auto).
  exists (drop (MPtr l) (bump v (putv (LS r) v s))). split; [|split; [|split]].
  - apply deref_var_eq; auto.
  - assert (I3 : INV e [MRef l i] (bump v (putv (LS r) v s))) by (rewrite <- putv_bump; apply INV_putv; [apply INV_bump; auto|rewrite getv_bump; auto|exact Logic.I]).
    assert (Sh : shared (MRef l i) (bump v (putv (LS r) v s))).
    { intros k0 T0. inversion T0; subst k0. split; [apply live_bump, live_putv; apply live_obj; eauto|]. rewrite rcount_bump; [rewrite rcount_putv; lia|rewrite putv_rc, putv_mem_length; apply Cn|apply held_putv; auto]. }
    destruct (MemElem.release_INV _ _ _ _ I3) as (s2 & Rl & I4 & _). rewrite (release_drop _ _ Sh) in Rl. inversion Rl; subst s2. exact I4.
  - rewrite drop_mem, bump_mem. reflexivity.
  - rewrite drop_stk, bump_stk. reflexivity.
Qed.

(** * The entry of a key that is there *)
Lemma eval_key_there : forall e s s1 j l ek k o kvs v, INV e [] s1 -> grew s s1 -> variable s j (MPtr l) -> mapping s1 l o kvs -> l < length (mem s) -> ordered kvs -> small (S (length kvs)) ->
  key_expr s l ek k -> keys_ok kvs -> value_of kvs k v ->
  exists s2 r i kk, eval (length (stk s)) (EKey (EVar j) ek) s1 = ROk (LS r) s2 /\ INV e [] s2 /\ grew s1 s2 /\ nth_error (stk s2) r = Some (MRef l i) /\
    nth_error kvs i = Some (kk, v) /\ length (stk s1) <= r.
Proof.
  intros e s s1 j l ek k o kvs v I G Vj Mp Ll So Sm Ke Ko Hv.
  destruct (key_grew e s s1 l ek k I G Ll Ke) as (q & s2 & x & y & E2 & I2 & G2 & Nq & D & R & X).
  pose proof (INV_sound _ _ _ I2) as Sd2. assert (Hx : held x s2) by (apply (getv_held (LS q)); auto).
  assert (Nj : nth_error (stk s2) j = Some (MPtr l)) by (eapply grew_slot; [|exact Vj]; eapply grew_trans; eauto).
  set (s3 := push_s x (bump x s2)). assert (T3 : temps s2 s3) by apply temps_push, temps_refl.
  assert (M3 : mapping s3 l o kvs) by (apply (mapping_grew e [] s1); auto; eapply grew_trans; [exact G2|apply grew_temps; auto]).
  assert (I3 : INV e [] s3) by (apply INV_push, INV_bump; auto).
  assert (Nj3 : nth_error (stk s3) j = Some (MPtr l)) by (eapply temps_slot; eauto).
  pose proof M3 as (O & V & T & Oks & Sz & Lc & Ce).
  assert (Kr : keys_read s3 o (map fst kvs)).
  { split; [rewrite map_length; auto|]. intros n kk Nn. rewrite nth_error_map in Nn. destruct (nth_error kvs n) as [kv|] eqn:E; [|discriminate]. inversion Nn; subst kk.
    destruct (Ce _ _ E) as (c & A & B). eauto. }
  pose proof (key_expr_key _ _ _ _ Ke) as Kk. unfold keys_ok in Ko. pose proof Ko as Ko'. rewrite Forall_forall in Ko'.
  destruct (lookup_gives e s3 (LS j) l (length (stk s2)) o (map fst kvs) x y k I3 (conj Nj3 Logic.I) O V T Oks Lc) as (s' & o' & i & E & I' & B & Fm' & Oks' & T' & V' & Lc' & Cs); auto.
  { unfold small in Sm. lia. }
  { simpl. rewrite bump_stk, nth_error_app2, Nat.sub_diag by auto. reflexivity. }
  { eapply temps_denotes; eauto. }
  { eapply grew_key; [apply grew_temps; exact T3|auto]. }
  destruct Cs as [(-> & -> & kk & Nk & Eq)|(_ & _ & Le & _)].
  2:{ exfalso. destruct Hv as (k2 & Hin & Eq). pose proof (Ko' _ Hin) as K2. simpl in K2. apply eq_code in Eq; auto. apply In_nth_error in Hin as [n Hn].
      assert (Nn : nth_error (map fst kvs) n = Some k2) by (rewrite nth_error_map, Hn; reflexivity). specialize (Le n k2 Nn).
      destruct (n <? i)%nat; apply key_less in Le; auto; rewrite Eq, lex_refl in Le; discriminate. }
  rewrite nth_error_map in Nk. destruct (nth_error kvs i) as [[kk' v']|] eqn:Ni; [|discriminate]. inversion Nk; subst kk. simpl in Eq.
  assert (v' = v) by (apply (value_unique kvs k v' v So Ko Kk); auto; exists kk'; split; auto; eapply nth_error_In; eauto). subst v'.
  set (s5 := bump (MPtr l) s2).
  assert (O2 : obj l s2 = Some o) by (eapply grew_obj; [exact G2|apply Mp]).
  assert (E5 : scoped x (fun q => index_var (LS j) q) (bump x s2) = ROk (MRef l i) s5).
  { assert (Hl : held (MPtr l) s2) by (intros m Hm; inversion Hm; subst; apply live_obj; eauto). pose proof Sd2 as (Cn & _).
    eapply scoped_ok with (v' := x) (s1 := bump (MPtr l) (bump x s2)).
    - rewrite bump_stk. change (push_s x (bump x s2)) with s3.
      unfold index_var. rewrite (bind_ok _ _ _ _ _ _ _ (ptr_deref s3 (LS j) l Nj3)). rewrite (bind_ok _ _ _ _ _ _ _ (ptr_defined s3 (LS j) l Nj3)). cbv zeta. change (negb true) with false. cbv iota.
      rewrite (bind_ok _ _ _ _ _ _ _ (ptr_heap s3 (LS j) l Nj3)). rewrite (bind_ok _ _ _ _ _ _ _ (ptr_atype s3 (LS j) l Nj3 o O V)). rewrite T. change (hcode HPair =? 9)%Z with true. cbv iota.
      transitivity (lookup (LS j) (LS (length (stk s2))) s3); [reflexivity|]. rewrite E. unfold s3. rewrite bump_push. reflexivity.
    - rewrite !bump_stk. reflexivity.
    - rewrite release_drop; [rewrite drop_bump_ref; auto|]. intros m Hm. destruct (shared_bump x s2 Cn Hx m Hm) as [A1 A2]. split; [apply live_bump; auto|].
      rewrite rcount_bump; [lia|rewrite bump_mem; destruct (cnt_bump x s2 Cn Hx) as [A _]; rewrite bump_mem in A; exact A|apply held_bump; auto]. }
  exists (push_s (MRef l i) s5), (length (stk s2)), i, kk'. split; [|split; [|split; [|split; [|split; [auto|]]]]].
  - change (eval (length (stk s)) (EKey (EVar j) ek)) with (let! v := eval (length (stk s)) (EVar j) in let! p := eval (length (stk s)) ek in let! y := copy_of p in let! x := scoped y (fun q => index_var v q) in temp x).
    rewrite (bind_ok _ _ _ _ _ _ _ (eval_var s j _ _ Vj eq_refl s1)). rewrite (bind_ok _ _ _ _ _ _ _ E2). rewrite (bind_ok _ _ _ _ _ _ _ (copy_of_eq (LS q) s2 x Sd2 Nq)).
    rewrite (bind_ok _ _ _ _ _ _ _ E5). unfold temp, s5. rewrite bump_stk. reflexivity.
  - apply INV_push. unfold s5. change (bump (MPtr l) s2) with (bump (MRef l i) s2). apply INV_bump; auto. intros m Hm. inversion Hm; subst. apply live_obj. eauto.
  - eapply grew_trans; [exact G2|]. unfold s5. change (bump (MPtr l) s2) with (bump (MRef l i) s2). apply grew_temps, temps_push, temps_refl.
  - change (stk (push_s (MRef l i) s5)) with (stk s2 ++ [MRef l i]). rewrite nth_error_app2, Nat.sub_diag by auto. reflexivity.
  - apply grew_len in G2. lia.
Qed.

(** * An entry that is a map *)
Lemma index_ref_map : forall e s r p w q l i oo c l2 o kvs x y k, INV e [] s -> nth_error (stk s) r = Some (MRef l i) -> nth_error (stk s) p = Some w -> target w = Some l -> r <> p -> r <> q ->
  obj l s = Some oo -> plain_vars oo = true -> nth_error (h_cells oo) i = Some (c, MPtr l2) -> l <> l2 ->
  mapping s l2 o kvs -> ordered kvs -> small (S (length kvs)) ->
  nth_error (stk s) q = Some x -> denotes s x y -> reads_key s y k -> (forall i, x <> MRef l2 i) ->
  exists s' o' i2 kvs', index_var (LS r) (LS q) s = ROk (MRef l2 i2) (bump (MPtr l2) s') /\ INV e [] s' /\ became l2 o' (putv (LS r) (MPtr l2) s) s' /\
    mapping s' l2 o' kvs' /\ looked_up k kvs i2 kvs' /\ ordered kvs'.
Proof.
  intros e s r p w q l i oo c l2 o kvs x y k I Nr Np Tw Ne Nrq O P Nc Nl Mp So Sm Nq D R X.
  destruct (nest_deref e s r p w l i oo c (MPtr l2) I Nr Np Tw Ne O P Nc) as (s1 & E1 & I1 & M1 & S1); [intros ? ? Q; discriminate|].
  assert (O1 : forall m, obj m s1 = obj m s) by (intros; unfold obj; rewrite M1; auto).
  assert (G1 : getv (LC l (h_gen oo) i) s1 = Some (MPtr l2)) by (simpl; rewrite O1, O, Nat.eqb_refl, Nc; reflexivity).
  assert (Mp1 : mapping s1 l2 o kvs) by (eapply mapping_mem; eauto).
  assert (F1 : firm s1 (LC l (h_gen oo) i) l2).
  { split; auto. split; auto. exists p, w. split; auto. rewrite S1, sn_other; auto. }
  destruct (map_lookup e s1 (LC l (h_gen oo) i) l2 q o kvs x y k I1 F1 Mp1 So Sm) as (s' & o' & i2 & kvs' & E & I' & B & _ & M' & Lu & So'); auto.
  - rewrite S1, sn_other; auto.
  - apply (denotes_keep s); auto. intros m n a _ A La. exists a. rewrite O1. auto.
  - eapply reads_key_mem; eauto.
  - exists s', o', i2, kvs'. split; [|split; [auto|split; [|auto]]].
    + unfold index_var. rewrite (bind_ok _ _ _ _ _ _ _ E1). pose proof Mp1 as (Ol & V & T & _).
      rewrite (bind_ok _ _ _ _ _ _ _ (ptr_defined s1 _ l2 G1)). cbv zeta. change (negb true) with false. cbv iota.
      rewrite (bind_ok _ _ _ _ _ _ _ (ptr_heap s1 _ l2 G1)). rewrite (bind_ok _ _ _ _ _ _ _ (ptr_atype s1 _ l2 G1 o Ol V)). rewrite T. exact E.
    + destruct B as [(A & B & C) Ob]. split; auto. simpl in A, B. unfold shrunk; simpl. rewrite M1 in B. rewrite S1 in A. split; auto. split; auto.
      intros m a K. apply C in K. unfold obj in *. simpl in *. rewrite M1 in K. exact K.
Qed.
Lemma eval_nest : forall e s s1 j l ek k o kvs l2 ek2 k2 o2 kvs2, INV e [] s1 -> grew s s1 -> variable s j (MPtr l) -> mapping s1 l o kvs -> l < length (mem s) -> ordered kvs -> small (S (length kvs)) ->
  key_expr s l ek k -> keys_ok kvs -> value_of kvs k (MPtr l2) -> l <> l2 -> mapping s1 l2 o2 kvs2 -> l2 < length (mem s) -> ordered kvs2 -> small (S (length kvs2)) -> key_expr s l2 ek2 k2 ->
  exists s2 r o' i kvs', eval (length (stk s)) (EKey (EKey (EVar j) ek) ek2) s1 = ROk (LS r) s2 /\ INV e [] s2 /\ nth_error (stk s2) r = Some (MRef l2 i) /\ moved l2 o' s1 s2 /\
    mapping s2 l2 o' kvs' /\ looked_up k2 kvs2 i kvs' /\ ordered kvs' /\ length (stk s1) <= r.
Proof.
  intros e s s1 j l ek k o kvs l2 ek2 k2 o2 kvs2 I G Vj Mp Ll So Sm Ke Ko Hv Nl Mp2 Ll2 So2 Sm2 Ke2.
  destruct (eval_key_there e s s1 j l ek k o kvs (MPtr l2) I G Vj Mp Ll So Sm Ke Ko Hv) as (t1 & r & i & kk & E1 & I1 & G1 & Nr & Ni & Lr).
  pose proof (grew_trans _ _ _ G G1) as Gt.
  destruct (key_grew e s t1 l2 ek2 k2 I1 Gt Ll2 Ke2) as (q & t2 & x & y & E2 & I2 & G2 & Nq & D & R & X).
  pose proof (INV_sound _ _ _ I2) as Sd2. assert (Hx : held x t2) by (apply (getv_held (LS q)); auto).
  pose proof (grew_trans _ _ _ G1 G2) as G12. pose proof (grew_trans _ _ _ Gt G2) as Gs2.
  set (t3 := push_s x (bump x t2)). assert (T3 : temps t2 t3) by apply temps_push, temps_refl.
  assert (G13 : grew s1 t3) by (eapply grew_trans; [exact G12|apply grew_temps; auto]).
  assert (M3 : mapping t3 l o kvs) by (apply (mapping_grew e [] s1); auto).
  assert (M32 : mapping t3 l2 o2 kvs2) by (apply (mapping_grew e [] s1); auto).
  assert (I3 : INV e [] t3) by (apply INV_push, INV_bump; auto).
  assert (Nj3 : nth_error (stk t3) j = Some (MPtr l)) by (eapply temps_slot; [exact T3|]; eapply grew_slot; eauto).
  assert (Nr2 : nth_error (stk t2) r = Some (MRef l i)) by (apply (grew_slot t1 t2); auto).
  assert (Nr3 : nth_error (stk t3) r = Some (MRef l i)) by (eapply temps_slot; eauto).
  assert (Lj : j < length (stk s)) by (eapply ne_lt; exact Vj). pose proof (grew_len _ _ G) as [Ls _].
  assert (Lr2 : r < length (stk t2)) by (eapply ne_lt; eauto).
  pose proof M3 as (O & V & T & Oks & Sz & Lc & Ce). destruct (Ce _ _ Ni) as (c & Nc & _). simpl in Nc.
  destruct (index_ref_map e t3 r j (MPtr l) (length (stk t2)) l i o c l2 o2 kvs2 x y k2) as (t4 & o' & i2 & kvs' & E4 & I4 & B4 & M4 & Lu & So'); auto; try lia.
  - unfold plain_vars. rewrite V, T. reflexivity.
  - simpl. rewrite bump_stk, nth_error_app2, Nat.sub_diag by auto. reflexivity.
  - eapply temps_denotes; eauto.
  - eapply grew_key; [apply grew_temps; exact T3|auto].
  - pose proof (proj2 B4) as O4. pose proof (became_stk _ _ _ _ B4) as St4.
    assert (I5 : INV e [MRef l2 i2] (bump (MRef l2 i2) t4)).
    { apply INV_bump; auto. intros m Hm. inversion Hm; subst. apply live_obj. eauto. }
    set (w2 := putv (LS r) (MPtr l2) t2).
    assert (Sw : stk t4 = stk w2 ++ [x]).
    { rewrite St4. simpl. rewrite bump_stk. apply nth_ext. intros n. destruct (Nat.eq_dec n r) as [->|Nn].
      - rewrite sn_same by (rewrite app_length; lia). rewrite nth_error_app1 by (rewrite sn_length; auto). rewrite sn_same; auto.
      - rewrite sn_other by auto. destruct (Nat.ltb_spec n (length (stk t2))); [rewrite !nth_error_app1 by (rewrite ?sn_length; auto); rewrite sn_other; auto|].
        rewrite !nth_error_app2 by (rewrite ?sn_length; auto). rewrite sn_length. reflexivity. }
    destruct (scoped_gives _ x (fun q => index_var (LS r) q) e [MRef l2 i2] (bump x t2) (MRef l2 i2) (bump (MPtr l2) t4) x {| mem := mem t4; rc := rc t4; stk := stk w2 |}) as (t5 & E5 & I6 & Sh5).
    + rewrite bump_stk. exact E4.
    + exact I5.
    + split; [exact Sw|]. split; [reflexivity|]. intros m a K. exact K.
    + simpl. rewrite sn_length, bump_stk. reflexivity.
    + assert (O5 : obj l2 t5 = Some o') by (eapply (shrunk_obj_flight e [MRef l2 i2] _ t5 (MRef l2 i2) l2 o' Sh5); simpl; auto).
      set (t6 := push_s (MRef l2 i2) t5). assert (I7 : INV e [] t6) by (apply INV_push; auto).
      pose proof Sh5 as (A5 & B5 & C5). simpl in A5, B5. destruct B4 as [(A4 & B4 & C4) _]. simpl in A4, B4.
      destruct G12 as [[ms Em] [ws Es]].
      assert (Lr1 : length (stk s1) <= r) by auto.
      assert (Ew : exists ws', set_nth (stk t2) r (MPtr l2) = stk s1 ++ ws').
      { exists (skipn (length (stk s1)) (set_nth (stk t2) r (MPtr l2))). rewrite <- (firstn_skipn (length (stk s1)) (set_nth (stk t2) r (MPtr l2))) at 1. f_equal.
        apply nth_ext. intros n. rewrite nth_firstn. destruct (Nat.ltb_spec n (length (stk s1))).
        - rewrite sn_other by lia. rewrite Es, nth_error_app1; auto.
        - symmetry. apply nth_error_None. auto. }
      destruct Ew as [ws' Ew]. pose proof Mp2 as (Os2 & _). pose proof (obj_lt _ _ _ Os2) as Ll1.
      exists t6, (length (stk t2)), o', i2, kvs'. split; [|split; [auto|split; [|split; [|split; [|split; [auto|split; [auto|]]]]]]].
      * change (eval (length (stk s)) (EKey (EKey (EVar j) ek) ek2)) with (let! v := eval (length (stk s)) (EKey (EVar j) ek) in let! p := eval (length (stk s)) ek2 in let! y := copy_of p in let! x := scoped y (fun q => index_var v q) in temp x).
        rewrite (bind_ok _ _ _ _ _ _ _ E1). rewrite (bind_ok _ _ _ _ _ _ _ E2). rewrite (bind_ok _ _ _ _ _ _ _ (copy_of_eq (LS q) t2 x Sd2 Nq)).
        rewrite (bind_ok _ _ _ _ _ _ _ E5). unfold temp, t6, push_s. rewrite A5, sn_length. reflexivity.
      * simpl. rewrite A5, nth_error_app2, sn_length, Nat.sub_diag by (rewrite sn_length; auto). reflexivity.
      * split; auto. exists ms, (ws' ++ [MRef l2 i2]). unfold shrunk, extm; simpl. rewrite A5, Ew, app_assoc. split; auto.
        rewrite bump_mem in B4. rewrite sn_length, Em in B4. rewrite app_length, sn_length. split; [rewrite B5, B4, app_length; auto|].
        intros m a K. apply (C5 m a) in K. apply (C4 m a) in K. unfold obj in K |- *. simpl in *. rewrite bump_mem, Em, sn_app1 in K by auto. exact K.
      * apply (mapping_mem t5 t6); auto. apply (mapping_within e [MRef l2 i2] t4 t5); auto. split; [exact B5|]. intros m a K. apply (C5 m a) in K. exact K.
      * destruct (grew_len _ _ G2). lia.
Qed.

(** * Statements *)
(** A map that is not the one changed. *)
Lemma mapping_other : forall e e' F s s' l o kvs l2 o2 o2', INV e' [] s -> mapping s l o kvs -> obj l2 s = Some o2 -> h_ty o2 = HPair -> obj l2 s' = Some o2' -> h_view o2' = None -> INV e F s' ->
  obj l s' = Some o -> (forall m a, m <> l2 -> m < length (mem s) -> obj m s' = Some a -> obj m s = Some a) -> mapping s' l o kvs.
Proof.
  intros e e' F s s' l o kvs l2 o2 o2' Is (O & V & T & Oks & Sz & Lc & Ce) O2 T2 O2' V2' I O' H. unfold mapping. do 3 (split; auto). split; [|split; auto; split; auto].
  - intros n c N.
    assert (Tr : forall w, In w [fst c; snd c] -> not_view s w -> not_view s' w).
    { intros w Hi Hw m a -> Oa. destruct (Nat.eq_dec m l2) as [->|Nm]; [congruence|]. apply (Hw m a eq_refl). apply H; auto.
      assert (Lv : live m s). { destruct Is as (Is & _). apply (inv_cell e' [] s l o (MPtr m) m Is); [apply obj_live; exact O| |reflexivity]. unfold contents. apply in_or_app. left. apply in_flat_map. exists c. split; [eapply nth_error_In; eauto|auto]. }
      apply live_obj in Lv as [a' Oa']. eapply obj_lt; eauto. }
    destruct (Oks n c N) as (P1 & P2 & P3 & P4). split; auto. split; [apply Tr; simpl; auto|]. split; auto. apply Tr; simpl; auto.
  - intros n kv N. destruct (Ce _ _ N) as (c & N1 & N2). exists c. split; auto. eapply reads_key_keep; eauto. intros m a -> A Ta.
    assert (m <> l2) by congruence. assert (L : live m s') by (eapply (cell_live e F s' l o n (MPtr m, snd kv)); eauto).
    apply live_obj in L as [a' A']. rewrite A'. rewrite <- A. symmetry. apply H; auto. eapply obj_lt; eauto.
Qed.
Lemma cell_entry_live : forall e F s s' l o kvs k m, mapping s l o kvs -> value_of kvs k (MPtr m) -> INV e F s' -> obj l s' = Some o -> live m s'.
Proof.
  intros e F s s' l o kvs k m (O & _ & _ & _ & _ & _ & Ce) (k' & Hin & _) (I & _) O'. apply In_nth_error in Hin as [n Hn]. destruct (Ce _ _ Hn) as (c & Nc & _). simpl in Nc.
  apply (inv_cell e F s' l o (MPtr m) m I); [apply obj_live; exact O'| |reflexivity]. unfold contents. apply in_or_app. left. apply in_flat_map.
  exists (c, MPtr m). split; [eapply nth_error_In; eauto|simpl; auto].
Qed.
Lemma nest_decl : forall e s j l ek k o kvs l2 ek2 k2 o2 kvs2, INV e [] s -> variable s j (MPtr l) -> mapping s l o kvs -> ordered kvs -> small (S (length kvs)) ->
  key_expr s l ek k -> keys_ok kvs -> value_of kvs k (MPtr l2) -> l <> l2 -> mapping s l2 o2 kvs2 -> ordered kvs2 -> small (S (length kvs2)) -> key_expr s l2 ek2 k2 ->
  exists s' o' i kvs', exec (SDecl (EKey (EKey (EVar j) ek) ek2)) s = ROk tt s' /\ INV e [] s' /\ moved l2 o' s s' /\ stk s' = stk s ++ [MRef l2 i] /\
    mapping s' l2 o' kvs' /\ looked_up k2 kvs2 i kvs' /\ ordered kvs' /\ mapping s' l o kvs.
Proof.
  intros e s j l ek k o kvs l2 ek2 k2 o2 kvs2 I Vj Mp So Sm Ke Ko Hv Nl Mp2 So2 Sm2 Ke2.
  pose proof Mp as (O & _). pose proof (obj_lt _ _ _ O) as Ll. pose proof Mp2 as (O2 & V2 & T2 & _). pose proof (obj_lt _ _ _ O2) as Ll2.
  destruct (eval_nest e s s j l ek k o kvs l2 ek2 k2 o2 kvs2 I (grew_refl s) Vj Mp Ll So Sm Ke Ko Hv Nl Mp2 Ll2 So2 Sm2 Ke2) as (s2 & r & o' & i & kvs' & E2 & I2 & Nr & Mv & M2 & Lu & So' & Lr).
  destruct (decl_core e s _ s2 r l2 i o' kvs' s I2 E2 eq_refl Nr Lr Mv eq_refl M2) as (s' & E & I' & Mv' & St & M').
  exists s', o', i, kvs'. do 7 (split; [solve [auto]|]). pose proof M' as (O2' & V2' & _).
  assert (Ot : forall m a, m <> l2 -> m < length (mem s) -> obj m s' = Some a -> obj m s = Some a) by (intros m a Nm Lm Oa; eapply moved_other; eauto).
  assert (O' : obj l s' = Some o).
  { assert (Lv : live l s') by (eapply inv_stk; [apply I'|rewrite St; apply in_or_app; left; eapply nth_error_In; exact Vj|reflexivity]).
    apply live_obj in Lv as [a Oa]. rewrite Oa. rewrite <- O. symmetry. apply Ot; auto. }
  apply (mapping_other e e [] s s' l o kvs l2 o2 o'); auto.
Qed.
Lemma nest_assign : forall e s j l ek k o kvs l2 ek2 k2 o2 kvs2 ev P, INV e [] s -> variable s j (MPtr l) -> mapping s l o kvs -> ordered kvs -> small (S (length kvs)) ->
  key_expr s l ek k -> keys_ok kvs -> value_of kvs k (MPtr l2) -> l <> l2 -> mapping s l2 o2 kvs2 -> ordered kvs2 -> small (S (length kvs2)) -> key_expr s l2 ek2 k2 -> value_expr s l2 ev P ->
  exists s' o' z kvs', exec (SAssign (EKey (EKey (EVar j) ek) ek2) ev) s = ROk tt s' /\ INV e [] s' /\ moved l2 o' s s' /\ stk s' = stk s /\ entries s' l2 kvs' /\
    bound_to k2 z kvs2 kvs' /\ ordered kvs' /\ P s' z /\ (assignable s z \/ ~ (exists x y, operand s ev x /\ denotes s x y) -> mapping s' l2 o' kvs') /\ mapping s' l o kvs.
Proof.
  intros e s j l ek k o kvs l2 ek2 k2 o2 kvs2 ev P I Vj Mp So Sm Ke Ko Hv Nl Mp2 So2 Sm2 Ke2 Ve.
  pose proof Mp as (O & _). pose proof (obj_lt _ _ _ O) as Ll. pose proof Mp2 as (O2 & V2 & T2 & _). pose proof (obj_lt _ _ _ O2) as Ll2.
  destruct (value_grew e s l2 ev P I Ll2) as (q & s1 & x & y & E1 & I1 & G1 & Nq & D1 & Ny & X & Nvy & HP); auto.
  { intros o0 O0. congruence. }
  assert (M1 : mapping s1 l o kvs) by (eapply mapping_grew; eauto). assert (M12 : mapping s1 l2 o2 kvs2) by (eapply mapping_grew; eauto).
  destruct (eval_nest e s s1 j l ek k o kvs l2 ek2 k2 o2 kvs2 I1 G1 Vj M1 Ll So Sm Ke Ko Hv Nl M12 Ll2 So2 Sm2 Ke2) as (s2 & r & o2' & i & kvs2' & E2 & I2 & Nr & Mv & M2 & Lu & So2' & Lr).
  pose proof G1 as [[ms Em] [ws Es]].
  set (b0 := {| mem := mem s1; rc := rc s1; stk := stk s |}).
  assert (Mb : moved l2 o2' b0 s2).
  { destruct Mv as (Oa & ms2 & ws2 & A & B & C). split; auto. exists ms2, (ws ++ ws2). unfold shrunk, extm; simpl in *. rewrite app_assoc, <- Es. auto. }
  assert (Lb2 : l2 < length (mem b0)) by (simpl; rewrite Em, app_length; lia). assert (Lb : l < length (mem b0)) by (simpl; rewrite Em, app_length; lia).
  assert (Ol : forall s', INV e [] s' -> (forall m o', m <> l2 -> obj m s' = Some o' -> obj m s2 = Some o') -> stk s' = stk b0 -> obj l s' = Some o).
  { intros s' I' H St'. assert (Lv : live l s') by (eapply inv_stk; [apply I'|rewrite St'; eapply nth_error_In; exact Vj|reflexivity]).
    apply live_obj in Lv as [a Oa]. rewrite Oa. apply H in Oa; auto. assert (Q : obj l b0 = Some a) by (eapply moved_other; eauto). rewrite <- Q. apply (proj1 M1). }
  destruct (assign_core e s (EKey (EKey (EVar j) ek) ek2) ev P l2 s1 s2 b0 q r x y k2 kvs2 i kvs2' o2') as (s' & o' & z & kvs' & E & I' & Mv' & St' & En & Bt & So' & HP' & Mp' & Kp); auto.
  - eapply moved_slot; [exact Mv|auto].
  - intros s' I' H St'. eapply (cell_entry_live e [] s1 s' l o kvs k l2); eauto.
  - assert (Mv0 : moved l2 o' s s').
    { destruct Mv' as (O' & ms2 & ws2 & A & B & C). split; auto. exists (ms ++ ms2), ws2. simpl in A, B. rewrite Em, sn_app1, <- app_assoc in B by auto.
      unfold shrunk, extm; simpl. split; auto. split; auto. intros m a K. apply (C m a) in K. unfold obj in *. simpl in *. rewrite Em, sn_app1, <- app_assoc in K by auto. auto. }
    exists s', o', z, kvs'. do 9 (split; [solve [auto]|]).
    assert (Vo : h_view o' = None).
    { destruct En as (ms' & (o3 & A & B & _) & _). apply obj_live in A. pose proof (proj1 Mv0). congruence. }
    apply (mapping_other e e [] s s' l o kvs l2 o2 o'); auto; [apply Mv0|]. intros m a Nm Lm Oa. eapply moved_other; eauto.
Qed.

(** * An entry that is not defined becomes a map *)
Lemma index_ref_new : forall e s r p w q l i oo c x y k, INV e [] s -> nth_error (stk s) r = Some (MRef l i) -> nth_error (stk s) p = Some w -> target w = Some l -> r <> p -> r <> q ->
  obj l s = Some oo -> h_view oo = None -> h_ty oo = HPair -> nth_error (h_cells oo) i = Some (c, MNil) ->
  nth_error (stk s) q = Some x -> denotes s x y -> reads_key s y k -> (forall i, x <> MRef l i) ->
  exists s' o', index_var (LS r) (LS q) s = ROk (MRef (length (mem s)) 0) (bump (MPtr (length (mem s))) s') /\ INV e [] s' /\
    shrunk {| mem := set_nth (mem s) l (Some (set_cell oo i (c, MPtr (length (mem s))))) ++ [Some o']; rc := rc s; stk := set_nth (stk s) r MNil |} s' /\
    mapping s' (length (mem s)) o' [(k, MNil)] /\ obj l s' = Some (set_cell oo i (c, MPtr (length (mem s)))).
Proof.
  intros e s r p w q l i oo c x y k I Nr Np Tw Ne Nrq O V T Nc Nq D R X. pose proof (obj_lt _ _ _ O) as Ll. set (n := length (mem s)).
  assert (P : plain_vars oo = true) by (unfold plain_vars; rewrite V, T; reflexivity).
  destruct (nest_deref e s r p w l i oo c MNil I Nr Np Tw Ne O P Nc) as (s1 & E1 & I1 & M1 & S1); [intros ? ? Q; discriminate|].
  assert (O1 : forall m, obj m s1 = obj m s) by (intros; unfold obj; rewrite M1; auto).
  destruct (new_map_gives e [] s1 I1) as (o & E2 & I2 & T2 & Sz2 & V2 & Cs2). rewrite M1 in E2, I2. fold n in E2, I2.
  set (th := LC l (h_gen oo) i).
  assert (Mn : mem (new_st o s1) = mem s ++ [Some o]) by (simpl; rewrite M1; auto).
  assert (On : forall m a, obj m s = Some a -> obj m (new_st o s1) = Some a).
  { intros m a A. apply obj_live in A. apply obj_live. rewrite Mn, nth_error_app1; auto. eapply ne_lt; eauto. }
  assert (G2 : getv th (new_st o s1) = Some MNil) by (unfold th; simpl getv; rewrite (On l oo O), Nat.eqb_refl, Nc; reflexivity).
  set (ol := set_cell oo i (c, MPtr n)). set (t := set_mem l ol (new_st o s1)).
  assert (Et : putv th (MPtr n) (new_st o s1) = t) by (unfold th; apply (set_cell_putv oo i c MNil); auto).
  assert (It : INV e [] t).
  { rewrite <- Et. assert (Q : INV e [MNil] (putv th (MPtr n) (new_st o s1))).
    { apply INV_putv; [exact I2|exact G2|]. unfold th. split; [rewrite Mn, app_length; simpl; lia|]. intros a Oa. rewrite (On l oo O) in Oa. inversion Oa; subst. rewrite T. reflexivity. }
    eapply INV_drop0; eauto. }
  assert (Mt : mem t = set_nth (mem s) l (Some ol) ++ [Some o]) by (unfold t; simpl; rewrite M1, sn_app1; auto).
  assert (Ot : forall m a, m <> l -> obj m s = Some a -> obj m t = Some a).
  { intros m a Nm A. apply obj_live in A. apply obj_live. pose proof (ne_lt _ _ _ _ A). rewrite Mt, nth_error_app1, sn_other; auto. rewrite sn_length; auto. }
  assert (Otl : obj l t = Some ol) by (apply obj_live; rewrite Mt, nth_error_app1, sn_same; auto; rewrite sn_length; auto).
  assert (Otn : obj n t = Some o) by (apply obj_live; rewrite Mt, nth_error_app2, sn_length; [unfold n; rewrite Nat.sub_diag; reflexivity|rewrite sn_length; auto]).
  assert (Li : i < length (h_cells oo)) by (eapply ne_lt; eauto).
  assert (Gt : getv th t = Some (MPtr n)) by (unfold th; simpl getv; rewrite Otl; simpl; rewrite Nat.eqb_refl, sn_same; auto).
  assert (Nln : l <> n) by (unfold n; lia).
  assert (St : stk t = set_nth (stk s) r MNil) by (unfold t; simpl; rewrite S1; auto).
  assert (Mpt : mapping t n o []).
  { unfold mapping. do 3 (split; auto). split; [|split; [auto|split; [lia|intros m kv N; destruct m; discriminate]]].
    intros m a N. rewrite (Cs2 m a N). unfold okpair; simpl. split; [intros ? ? Q; discriminate|]. split; [intros ? ? Q; discriminate|]. split; intros ? ? Q; discriminate. }
  assert (Ft : firm t th n).
  { split; auto. split; auto. exists p, w. split; auto. rewrite St, sn_other; auto. }
  assert (Sd : forall m a, y = MPtr m -> obj m s = Some a -> h_ty a = HE TChar -> obj m t = Some a) by (intros m a _ A Ta; apply Ot; auto; intros ->; congruence).
  destruct (map_lookup e t th n q o [] x y k It Ft Mpt) as (s' & o' & i' & kvs' & E' & I' & B & Fm & Mp & Lu & So); auto.
  - constructor.
  - unfold small; simpl; lia.
  - rewrite St, sn_other; auto.
  - apply (denotes_keep s); auto. intros m n0 a -> A La. exists a. split; auto. apply Ot; auto. intros ->. eapply X; eauto.
  - eapply reads_key_keep; eauto.
  - intros i0 ->. destruct D as (a & c0 & A & _). apply ne_lt in A. unfold n in A. lia.
  - assert (Q : i' = 0 /\ kvs' = [(k, MNil)]).
    { inversion Lu as [a k' v b Q|a b Q F1 F2 Q1 Q2]; [destruct a; discriminate|]. destruct a; [|discriminate]. destruct b; [|discriminate]. auto. }
    destruct Q as [-> ->]. exists s', o'. split; [|split; [auto|split; [|split; [auto|]]]].
    + unfold index_var. rewrite (bind_ok _ _ _ _ _ _ _ E1). fold th.
      assert (G1 : getv th s1 = Some MNil) by (unfold th; simpl getv; rewrite O1, O, Nat.eqb_refl, Nc; reflexivity).
      rewrite (bind_ok _ _ _ _ s1 false s1); [|unfold defined; rewrite (bind_ok _ _ _ _ _ _ _ (get_eq th _ _ G1)); reflexivity]. cbv zeta. change (negb false) with true. cbv iota.
      rewrite (bind_ok _ _ _ _ _ _ _ E2). rewrite (bind_ok _ _ _ _ _ _ _ (put_eq th (new_st o s1) MNil (MPtr n) G2)). rewrite Et. exact E'.
    + destruct B as [(A & B & C) _]. unfold shrunk; simpl. rewrite A. simpl. rewrite S1. split; auto.
      simpl in B, C. rewrite sn_length in B. rewrite sn_length, app_length, M1 in B. rewrite app_length, sn_length. split; [exact B|].
      intros m a K. apply C in K. unfold obj in K |- *. simpl in *. rewrite M1, sn_app1 in K by auto. unfold n in K. rewrite <- (sn_length _ (mem s) l (Some ol)) in K. rewrite MemThrow.sn_app2 in K. exact K.
    + assert (Lv : live l s').
      { eapply (inv_stk e [] s' w); [apply I'| |exact Tw]. rewrite (became_stk _ _ _ _ B), St. eapply nth_error_In with (n := p). rewrite sn_other; auto. }
      apply live_obj in Lv as [a Oa]. rewrite Oa. assert (Q : obj l t = Some a) by (eapply became_other; [|exact B|exact Nln|exact Oa]; eapply obj_lt; eauto). rewrite <- Q. exact Otl.
Qed.

Lemma app_inj_length : forall A (a b c d : list A), length a = length c -> a ++ b = c ++ d -> a = c /\ b = d.
Proof. induction a; destruct c; simpl; intros d L E; try discriminate; auto. inversion E; subst. destruct (IHa b c d) as [-> ->]; auto. Qed.
(** ** Operands after a map has changed *)
Lemma operand_target : forall s x ek (j : Prop) l, operand s ek x -> target x = Some l -> (forall k v, variable s k v -> target v = Some l -> j) -> j.
Proof. intros s x ek j l Op Tx H. destruct Op; simpl in Tx; try discriminate; inversion Tx; subst; eauto. Qed.
Section Moved.
Variables (e : nat -> nat) (s s1 s2 : state) (l : nat) (o o' : hobj).
Hypotheses (I : INV e [] s2) (G : grew s s1) (O : obj l s = Some o) (T : h_ty o = HPair) (Mv : moved l o' s1 s2).
Let b : state := {| mem := mem s2; rc := rc s2; stk := stk s |}.
Lemma moved_stays : forall m a, m <> l -> obj m s = Some a -> live m s2 -> obj m b = Some a.
Proof.
  intros m a Nm A Lv. apply live_obj in Lv as [a' A']. change (obj m b) with (obj m s2). rewrite A'. pose proof (grew_obj _ _ _ _ G A) as A1.
  rewrite <- A1. symmetry. eapply moved_other; eauto; [eapply obj_lt, grew_obj; eauto|eapply obj_lt; eauto].
Qed.
Lemma moved_grew_slot : forall k v, variable s k v -> nth_error (stk s2) k = Some v.
Proof. intros k v V. eapply moved_slot; [exact Mv|]. eapply grew_slot; eauto. Qed.
Lemma moved_target : forall ek x m, operand s ek x -> target x = Some m -> live m s2.
Proof.
  intros ek x m Op Tx. apply (operand_target s x ek (live m s2) m Op Tx). intros k v V Tv. apply (inv_stk e [] s2 v); [apply I|eapply nth_error_In; apply moved_grew_slot; exact V|exact Tv].
Qed.
Lemma moved_operand : forall ek x, operand s ek x -> (forall i, x <> MRef l i) -> operand b ek x.
Proof.
  intros ek x Op X. pose proof (fun m => moved_target ek x m Op) as Lv. destruct Op as [k x V|v Nv| |k l' i V Hi|k l' t xs i V A Hi]; try (constructor; auto; fail).
  apply (op_idx b k l' t xs i); auto. destruct A as (a & A & B). exists a. split; auto. apply obj_live in A. apply obj_live. apply moved_stays; auto. intros ->. eapply X; eauto.
Qed.
Lemma moved_denotes : forall ek x y, operand s ek x -> (forall i, x <> MRef l i) -> denotes s x y -> denotes b x y.
Proof.
  intros ek x y Op X D. apply (denotes_keep s); auto. intros m n a -> A La. exists a. split; auto. apply moved_stays; auto; [intros ->; eapply X; eauto|]. eapply moved_target; eauto.
Qed.
Lemma moved_denoted : forall ek x m, operand s ek x -> (forall i, x <> MRef l i) -> denotes s x (MPtr m) -> live m s2.
Proof.
  intros ek x m Op X D. pose proof (fun k => moved_target ek x k Op) as Lv. destruct x as [| |k|k i| |]; simpl in D; try discriminate; try contradiction.
  - inversion D; subst. apply Lv. reflexivity.
  - destruct D as (a & c & A & _ & _ & Nc & _). apply obj_live in A. assert (Ab : obj k b = Some a) by (apply moved_stays; auto; intros ->; eapply X; eauto).
    destruct I as (I' & _). apply (inv_cell e [] s2 k a (MPtr m) m I'); [apply obj_live; exact Ab| |reflexivity]. unfold contents. apply in_or_app. left. apply in_flat_map.
    exists (c, MPtr m). split; [eapply nth_error_In; eauto|simpl; auto].
Qed.
Lemma moved_key_expr : forall ek k, key_expr s l ek k -> key_expr b l ek k.
Proof.
  intros ek k Ke. destruct Ke as [ek x y k Op D R X|cs Kc Sm]; [|constructor; auto]. apply (ke_operand b l ek x y k); auto; [apply moved_operand; auto|eapply moved_denotes; eauto|].
  apply (reads_key_keep s); auto. intros m a -> A Ta. apply moved_stays; auto; [congruence|]. eapply moved_denoted; eauto.
Qed.
End Moved.

Lemma eval_nest_new : forall e s s1 j l ek k o kvs ek2 k2, INV e [] s1 -> grew s s1 -> variable s j (MPtr l) -> mapping s l o kvs -> mapping s1 l o kvs -> ordered kvs -> small (S (length kvs)) ->
  key_expr s l ek k -> keys_ok kvs -> (forall v, value_of kvs k v -> v = MNil) -> key_expr s l ek2 k2 ->
  exists s3 r n ol o2 kvs', eval (length (stk s)) (EKey (EKey (EVar j) ek) ek2) s1 = ROk (LS r) s3 /\ INV e [] s3 /\ nth_error (stk s3) r = Some (MRef n 0) /\ length (stk s1) <= r /\
    (exists ws, stk s3 = stk s1 ++ ws) /\ length (mem s1) <= n /\ mapping s3 n o2 [(k2, MNil)] /\ mapping s3 l ol kvs' /\ bound_to k (MPtr n) kvs kvs' /\ ordered kvs' /\
    (forall m a, m <> l -> m < length (mem s1) -> obj m s3 = Some a -> obj m s1 = Some a).
Proof.
  intros e s s1 j l ek k o kvs ek2 k2 I G Vj Mp0 Mp So Sm Ke Ko Hv Ke2. pose proof Mp0 as (O0 & _ & T0 & _). pose proof (obj_lt _ _ _ O0) as Ll.
  destruct (eval_key e s s1 j l ek k o kvs I G Vj Mp Ll So Sm Ke) as (t1 & r & o1 & i & kvs1 & E1 & I1 & Nr & Mv & M1 & Lu & So1 & Lr).
  pose proof G as [[ms0 Em0] [ws0 Es0]]. pose proof Mv as (O1 & ms1 & ws1 & St1 & Lm1 & Ob1). simpl in St1, Lm1.
  set (b := {| mem := mem t1; rc := rc t1; stk := stk s |}).
  assert (Gb : grew b t1) by (split; [exists []; rewrite app_nil_r; reflexivity|exists (ws0 ++ ws1); simpl; rewrite St1, Es0, app_assoc; reflexivity]).
  assert (Kb : key_expr b l ek2 k2) by (apply (moved_key_expr e s s1 t1 l o o1); auto).
  assert (Lb : l < length (mem b)) by (simpl; rewrite Lm1, app_length, sn_length, Em0, app_length; lia).
  destruct (key_grew e b t1 l ek2 k2 I1 Gb Lb Kb) as (q & t2 & x & y & E2 & I2 & G2 & Nq & D & R & X). simpl stk in E2.
  pose proof (INV_sound _ _ _ I2) as Sd2. assert (Hx : held x t2) by (apply (getv_held (LS q)); auto).
  set (t3 := push_s x (bump x t2)). assert (T3 : temps t2 t3) by apply temps_push, temps_refl.
  assert (G13 : grew t1 t3) by (eapply grew_trans; [exact G2|apply grew_temps; auto]).
  assert (M3 : mapping t3 l o1 kvs1) by (apply (mapping_grew e [] t1); auto).
  assert (I3 : INV e [] t3) by (apply INV_push, INV_bump; auto).
  assert (Nj3 : nth_error (stk t3) j = Some (MPtr l)) by (apply (grew_slot t1 t3); auto; eapply moved_slot; [exact Mv|]; eapply grew_slot; eauto).
  assert (Nr2 : nth_error (stk t2) r = Some (MRef l i)) by (apply (grew_slot t1 t2); auto).
  assert (Nr3 : nth_error (stk t3) r = Some (MRef l i)) by (apply (grew_slot t1 t3); auto).
  assert (Lj : j < length (stk s)) by (eapply ne_lt; exact Vj). pose proof (grew_len _ _ G) as [Ls Lms].
  assert (Lr2 : r < length (stk t2)) by (eapply ne_lt; eauto).
  pose proof M3 as (O3 & V3 & T33 & Oks & Sz & Lc & Ce).
  destruct (bound_looked k MNil kvs i kvs1 Lu) as (a & k' & v & b1 & Ek & Ei & _).
  assert (Vn : v = MNil).
  { destruct Lu as [a' k'' v' b' Eq Qe|a' b' Eq F1 F2].
    - apply Hv. exists k'. rewrite Ek in Eq |- *. split; [apply in_or_app; right; left; auto|].
      assert (Q : nth_error (a ++ (k', v) :: b1) (length a) = nth_error (a' ++ (k'', v') :: b') (length a')) by congruence. rewrite !nth_error_app2, !Nat.sub_diag in Q by auto. inversion Q; subst; auto.
    - assert (Q : nth_error (a ++ (k', v) :: b1) (length a) = nth_error (a' ++ (k, MNil) :: b') (length a')) by congruence. rewrite !nth_error_app2, !Nat.sub_diag in Q by auto. inversion Q; subst; auto. }
  subst v. assert (Ni : nth_error kvs1 i = Some (k', MNil)) by (rewrite Ek, Ei, nth_error_app2, Nat.sub_diag by auto; reflexivity).
  destruct (Ce _ _ Ni) as (c & Nc & Rc). simpl in Nc, Rc.
  set (n := length (mem t3)) in *.
  destruct (index_ref_new e t3 r j (MPtr l) (length (stk t2)) l i o1 c x y k2) as (t4 & o2 & E4 & I4 & Sh4 & M4 & O4); auto; try lia.
  - simpl. rewrite bump_stk, nth_error_app2, Nat.sub_diag by auto. reflexivity.
  - eapply temps_denotes; eauto.
  - eapply grew_key; [apply grew_temps; exact T3|auto].
  - fold n in E4, Sh4, M4, O4. set (ol := set_cell o1 i (c, MPtr n)) in *. pose proof M4 as (O4n & V4n & _).
    assert (I5 : INV e [MRef n 0] (bump (MRef n 0) t4)).
    { apply INV_bump; auto. intros m Hm. inversion Hm; subst. apply live_obj. eauto. }
    pose proof Sh4 as (A4 & B4 & C4). simpl in A4, B4.
    set (w2 := putv (LS r) MNil t2).
    assert (Sw : stk t4 = stk w2 ++ [x]).
    { rewrite A4. simpl. rewrite bump_stk. apply nth_ext. intros m. destruct (Nat.eq_dec m r) as [->|Nn].
      - rewrite sn_same by (rewrite app_length; lia). rewrite nth_error_app1 by (rewrite sn_length; auto). rewrite sn_same; auto.
      - rewrite sn_other by auto. destruct (Nat.ltb_spec m (length (stk t2))); [rewrite !nth_error_app1 by (rewrite ?sn_length; auto); rewrite sn_other; auto|].
        rewrite !nth_error_app2 by (rewrite ?sn_length; auto). rewrite sn_length. reflexivity. }
    destruct (scoped_gives _ x (fun q => index_var (LS r) q) e [MRef n 0] (bump x t2) (MRef n 0) (bump (MPtr n) t4) x {| mem := mem t4; rc := rc t4; stk := stk w2 |}) as (t5 & E5 & I6 & Sh5).
    + rewrite bump_stk. exact E4.
    + exact I5.
    + split; [exact Sw|]. split; [reflexivity|]. intros m a0 K. exact K.
    + simpl. rewrite sn_length, bump_stk. reflexivity.
    + assert (O5n : obj n t5 = Some o2) by (eapply (shrunk_obj_flight e [MRef n 0] _ t5 (MRef n 0) n o2 Sh5); simpl; auto).
      set (t6 := push_s (MRef n 0) t5). assert (I7 : INV e [] t6) by (apply INV_push; auto).
      pose proof Sh5 as (A5 & B5 & C5). simpl in A5, B5.
      assert (W5 : within t4 t5) by (split; [exact B5|intros m a0 K; apply (C5 m a0) in K; exact K]).
      assert (St2 : exists ws2, stk t2 = stk s1 ++ ws2) by (destruct G2 as [_ [ws2 Q]]; exists (ws1 ++ ws2); rewrite Q, St1, app_assoc; auto).
      destruct St2 as [ws2 Es2].
      assert (Ew : exists ws', set_nth (stk t2) r MNil = stk s1 ++ ws').
      { exists (skipn (length (stk s1)) (set_nth (stk t2) r MNil)). rewrite <- (firstn_skipn (length (stk s1)) (set_nth (stk t2) r MNil)) at 1. f_equal.
        apply nth_ext. intros m. rewrite nth_firstn. destruct (Nat.ltb_spec m (length (stk s1))).
        - rewrite sn_other by lia. rewrite Es2, nth_error_app1; auto.
        - symmetry. apply nth_error_None. auto. }
      destruct Ew as [ws' Ew].
      assert (S6 : stk t6 = stk s1 ++ ws' ++ [MRef n 0]) by (simpl; rewrite A5, Ew, <- app_assoc; reflexivity).
      assert (O6 : obj l t6 = Some ol).
      { change (obj l t6) with (obj l t5). assert (Lv : live l t6).
        { apply (inv_stk e [] t6 (MPtr l)); [apply I7| |reflexivity]. rewrite S6. apply in_or_app. left. eapply nth_error_In. eapply grew_slot; eauto. }
        apply live_obj in Lv as [a0 Oa]. change (obj l t6) with (obj l t5) in Oa. rewrite Oa. apply W5 in Oa. congruence. }
      assert (Ln : length (mem t1) <= n) by (destruct (grew_len _ _ G13); auto).
      assert (Ln1 : length (mem s1) <= length (mem t1)) by (destruct (moved_len _ _ _ _ Mv); auto).
      assert (Ot : forall m a0, m <> l -> m < n -> obj m t6 = Some a0 -> obj m t3 = Some a0).
      { intros m a0 Nm Lm K. change (obj m t6) with (obj m t5) in K. apply W5 in K. apply C4 in K. unfold obj in *. simpl in K. rewrite nth_error_app1, sn_other in K; auto. rewrite sn_length. exact Lm. }
      assert (Vt : forall w0, In w0 [c] \/ not_view t3 w0 -> not_view t3 w0 -> held w0 t3 -> not_view t6 w0).
      { intros w0 _ Hw Hh m a0 -> Oa. destruct (Nat.eq_dec m l) as [->|Nm]; [rewrite O6 in Oa; inversion Oa; subst; exact V3|].
        assert (Lm : m < n) by (specialize (Hh m eq_refl); apply live_obj in Hh as [a1 Q]; eapply obj_lt; eauto). apply (Hw m a0 eq_refl). apply Ot; auto. }
      assert (Cs : forall m, nth_error (h_cells ol) m = if (m =? i)%nat then Some (c, MPtr n) else nth_error (h_cells o1) m).
      { intros m. unfold ol. simpl. destruct (Nat.eqb_spec m i) as [->|Nn]; [apply sn_same; eapply ne_lt; eauto|apply sn_other; auto]. }
      assert (Hc : forall m c0 w0, nth_error (h_cells o1) m = Some c0 -> In w0 [fst c0; snd c0] -> held w0 t3).
      { intros m c0 w0 N0 Hi m' Hm. destruct I3 as (I3 & _). eapply inv_cell; [exact I3|apply obj_live; exact O3| |exact Hm]. unfold contents. apply in_or_app. left. apply in_flat_map. exists c0. split; [eapply nth_error_In; eauto|auto]. }
      assert (M6 : mapping t6 l ol (a ++ (k', MPtr n) :: b1)).
      { unfold mapping. do 3 (split; [solve [auto]|]). split; [|split; [|split]].
        - intros m c0 N0. rewrite Cs in N0. destruct (Nat.eqb_spec m i) as [->|Nn].
          + inversion N0; subst c0. destruct (Oks _ _ Nc) as (P1 & P2 & P3 & P4). simpl in P1, P2. unfold okpair; simpl. split; auto. split; [apply Vt; auto; eapply Hc; [exact Nc|simpl; auto]|]. split; [intros ? ? Q; discriminate|].
            intros m a0 Q Oa. inversion Q; subst m. change (obj n t6) with (obj n t5) in Oa. congruence.
          + destruct (Oks _ _ N0) as (P1 & P2 & P3 & P4). unfold okpair. split; auto. split; [apply Vt; auto; eapply Hc; [exact N0|simpl; auto]|]. split; auto. apply Vt; auto. eapply Hc; [exact N0|simpl; auto].
        - simpl. rewrite Sz, Ek, !app_length. reflexivity.
        - simpl. rewrite sn_length. exact Lc.
        - intros m kv N0.
          assert (Kk : forall c0 w0 kk, nth_error (h_cells ol) m = Some (c0, w0) -> reads_key t3 c0 kk -> reads_key t6 c0 kk).
          { intros c0 w0 kk N1 N2. apply (keys_kept e [] t3 t6 l o1 ol m c0 w0 kk); auto. }
          rewrite Cs. specialize (Cs m). destruct (Nat.eqb_spec m i) as [En|Nn].
          + rewrite En, Ei, nth_error_app2, Nat.sub_diag in N0 by auto. inversion N0; subst kv. simpl. exists c. split; auto. eapply Kk; eauto.
          + assert (Nn2 : nth_error kvs1 m = Some kv).
            { rewrite Ek. destruct (Nat.ltb_spec m (length a)); [rewrite nth_error_app1 in * by auto; auto|].
              rewrite nth_error_app2 in * by auto. destruct (m - length a) eqn:Q; [lia|]. exact N0. }
            destruct (Ce _ _ Nn2) as (c0 & N1 & N2). exists c0. split; auto. eapply Kk; eauto. rewrite Cs. exact N1. }
      assert (Bt : bound_to k (MPtr n) kvs (a ++ (k', MPtr n) :: b1)).
      { destruct (bound_looked k (MPtr n) kvs i kvs1 Lu) as (a2 & k3 & v3 & b3 & Ek3 & Ei3 & Bt). rewrite Ek in Ek3. assert (La : length a = length a2) by congruence.
        assert (Q : a = a2 /\ (k', MNil) :: b1 = (k3, v3) :: b3) by (apply app_inj_length; auto). destruct Q as [-> Q]. inversion Q; subst. exact Bt. }
      exists t6, (length (stk t2)), n, ol, o2, (a ++ (k', MPtr n) :: b1). split; [|split; [auto|split; [|split; [|split; [|split; [|split; [|split; [auto|split; [auto|split]]]]]]]]].
      * change (eval (length (stk s)) (EKey (EKey (EVar j) ek) ek2)) with (let! v := eval (length (stk s)) (EKey (EVar j) ek) in let! p := eval (length (stk s)) ek2 in let! y := copy_of p in let! x := scoped y (fun q => index_var v q) in temp x).
        rewrite (bind_ok _ _ _ _ _ _ _ E1). rewrite (bind_ok _ _ _ _ _ _ _ E2). rewrite (bind_ok _ _ _ _ _ _ _ (copy_of_eq (LS q) t2 x Sd2 Nq)).
        rewrite (bind_ok _ _ _ _ _ _ _ E5). unfold temp, t6, push_s. rewrite A5, sn_length. reflexivity.
      * simpl. rewrite A5, nth_error_app2, sn_length, Nat.sub_diag by (rewrite sn_length; auto). reflexivity.
      * rewrite Es2, app_length. lia.
      * eauto.
      * lia.
      * apply (mapping_mem t5 t6); auto. apply (mapping_within e [MRef n 0] t4 t5); auto.
      * unfold ordered in *. rewrite Ek in So1. rewrite map_app in *. exact So1.
      * intros m a0 Nm Lm K. apply Ot in K; [|auto|lia].
        assert (K1 : obj m t1 = Some a0). { destruct G13 as [[ms Q] _]. unfold obj in *. rewrite Q, nth_error_app1 in K by lia. exact K. }
        eapply moved_other; eauto. lia.
Qed.
Lemma nest_new_assign : forall e s j l ek k o kvs ek2 k2 ev P, INV e [] s -> variable s j (MPtr l) -> mapping s l o kvs -> ordered kvs -> small (S (length kvs)) ->
  key_expr s l ek k -> keys_ok kvs -> (forall v, value_of kvs k v -> v = MNil) -> key_expr s l ek2 k2 -> value_expr s l ev P -> no_view s ev ->
  (forall x, operand s ev x -> ~ denotes s x (MPtr l)) ->
  exists s' n z ol o' kvs', exec (SAssign (EKey (EKey (EVar j) ek) ek2) ev) s = ROk tt s' /\ INV e [] s' /\ stk s' = stk s /\ length (mem s) <= n /\
    mapping s' l ol kvs' /\ bound_to k (MPtr n) kvs kvs' /\ ordered kvs' /\ mapping s' n o' [(k2, z)] /\ P s' z /\
    (forall m a, m <> l -> m < length (mem s) -> obj m s' = Some a -> obj m s = Some a).
Proof.
  intros e s j l ek k o kvs ek2 k2 ev P I Vj Mp So Sm Ke Ko Hv Ke2 Ve Nw Nl.
  pose proof Mp as (O & V & T & _). pose proof (obj_lt _ _ _ O) as Ll.
  destruct (value_grew e s l ev P I Ll) as (q & s1 & x & y & E1 & I1 & G1 & Nq & D1 & Ny & X & Nvy & HP); auto.
  { intros o0 O0. congruence. }
  assert (M1 : mapping s1 l o kvs) by (eapply mapping_grew; eauto).
  destruct (eval_nest_new e s s1 j l ek k o kvs ek2 k2 I1 G1 Vj Mp M1 So Sm Ke Ko Hv Ke2) as (s2 & r & n & ol & o2 & kvs' & E2 & I2 & Nr & Lr & [ws Es] & Ln & M2 & M2l & Bt & So' & Ot).
  pose proof G1 as [[ms1 Em1] [ws1 Es1]].
  set (b0 := {| mem := mem s2; rc := rc s2; stk := stk s |}).
  pose proof M2 as (O2 & V2 & T2 & _). pose proof M2l as (O2l & V2l & T2l & _).
  assert (Mb : moved n o2 b0 s2).
  { split; auto. exists [], (ws1 ++ ws). unfold shrunk, extm. rewrite app_nil_r. simpl. rewrite sn_length. split; [rewrite Es, Es1, app_assoc; auto|]. split; auto.
    intros m a K. change (obj m (set_mem n o2 b0) = Some a). rewrite obj_set_mem by (eapply obj_lt; exact O2). destruct (Nat.eqb_spec n m) as [->|_]; [|exact K]. change (obj m b0) with (obj m s2) in *. congruence. }
  assert (Nln : l <> n) by (assert (l < length (mem s1)) by (rewrite Em1, app_length; lia); lia).
  assert (Nq2 : nth_error (stk s2) q = Some x) by (rewrite Es, nth_error_app1; auto; eapply ne_lt; eauto).
  assert (Hx2 : held x s2) by (apply (getv_held (LS q) s2 x (INV_sound _ _ _ I2)); auto).
  assert (Yl : y <> MPtr l).
  { intros ->. pose proof (HP s1 (fun m a _ _ A => A)) as Q. destruct Ve as [ev x0 y0 Op D X0|cs Sc]; [subst; eapply Nl; eauto|].
    destruct Q as (m & Q & a & A & _ & Ta & _). inversion Q; subst m. apply obj_live in A. destruct M1 as (O1 & _ & T1 & _). congruence. }
  assert (Stay : forall m a, m <> l -> live m s2 -> obj m s1 = Some a -> obj m s2 = Some a).
  { intros m a Nm Lv A. apply live_obj in Lv as [a' A']. rewrite A'. rewrite <- A. symmetry. apply Ot; auto. eapply obj_lt; eauto. }
  assert (Keep : forall m a, m <> n -> y = MPtr m \/ (exists i, x = MRef m i) -> obj m s1 = Some a -> obj m b0 = Some a).
  { intros m a Nm Hc A. assert (Nm2 : m <> l) by (destruct Hc as [->|[i ->]]; [congruence|intros ->; eapply X; eauto]). apply Stay; auto.
    destruct Hc as [->|[i ->]]; [|apply Hx2; reflexivity]. destruct x as [| |k0|k0 i| |]; simpl in D1; try discriminate; try contradiction.
    - inversion D1; subst. apply Hx2. reflexivity.
    - destruct D1 as (a1 & c1 & A1 & _ & _ & Nc1 & _). apply obj_live in A1. assert (A2 : obj k0 s2 = Some a1) by (apply Stay; auto; intros ->; eapply X; eauto).
      destruct I2 as (I2' & _). apply (inv_cell e [] s2 k0 a1 (MPtr m) m I2'); [apply obj_live; exact A2| |reflexivity]. unfold contents. apply in_or_app. left. apply in_flat_map.
      exists (c1, MPtr m). split; [eapply nth_error_In; eauto|simpl; auto]. }
  assert (Xn : forall i, x <> MRef n i).
  { intros i ->. simpl in D1. destruct D1 as (a1 & c1 & A1 & _). apply ne_lt in A1. lia. }
  assert (HPn : forall s', (forall m a, m <> n -> y = MPtr m -> obj m s1 = Some a -> obj m s' = Some a) -> P s' y).
  { intros s' H. apply HP. intros m a Nm -> A. apply H; auto. intros ->. apply obj_lt in A. lia. }
  assert (Vn : value_of kvs' k (MPtr n)).
  { destruct Bt as [a k' v b E Q|a b E F1 F2].
    - exists k'. split; auto. apply in_or_app. right. left. auto.
    - exists k. split; [apply in_or_app; right; left; auto|]. apply eq_code; auto; eapply key_expr_key; eauto. }
  assert (Ol : forall s', INV e [] s' -> (forall m o', m <> n -> obj m s' = Some o' -> obj m s2 = Some o') -> stk s' = stk b0 -> obj l s' = Some ol).
  { intros s' I' H St'. assert (Lv : live l s') by (eapply inv_stk; [apply I'|rewrite St'; eapply nth_error_In; exact Vj|reflexivity]).
    apply live_obj in Lv as [a Oa]. rewrite Oa. apply H in Oa; auto. congruence. }
  destruct (assign_core e s (EKey (EKey (EVar j) ek) ek2) ev P n s1 s2 b0 q r x y k2 [] 0 [(k2, MNil)] o2) as (s' & o' & z & kvs2 & E & I' & Mv' & St' & En & Bt2 & So2 & HP' & Mp' & Kp); auto.
  - simpl. eapply obj_lt; eauto.
  - apply (lu_added k2 [] [] []); auto.
  - repeat constructor.
  - intros s' I' H St'. eapply (cell_entry_live e [] s2 s' l ol kvs' k n); eauto.
  - assert (Q : kvs2 = [(k2, z)]).
    { inversion Bt2 as [a k' v b Q|a b Q F1 F2 Q1]; [destruct a; discriminate|]. destruct a; [|discriminate]. destruct b; [|discriminate]. auto. }
    subst kvs2. assert (Zok : assignable s z \/ ~ (exists x y, operand s ev x /\ denotes s x y)).
    { destruct Ve as [ev x0 y0 Op D X0|cs Sc].
      - destruct Nw as [[cs ->]|Nw]; [inversion Op|]. left. subst z. eauto.
      - right. intros (x0 & y0 & Op & _). inversion Op. }
    specialize (Mp' Zok). exists s', n, z, ol, o', kvs'. pose proof (Ol s' I' Kp St') as Ol'. pose proof Mp' as (On' & Vn' & _).
    assert (L1 : length (mem s) <= length (mem s1)) by (rewrite Em1, app_length; lia).
    split; [auto|split; [auto|split; [auto|split; [lia|split; [|split; [auto|split; [auto|split; [auto|split; [auto|]]]]]]]]].
    + apply (mapping_other e e [] s2 s' l ol kvs' n o2 o'); auto.
    + intros m a Nm Lm Oa. apply Kp in Oa; [|lia]. apply Ot in Oa; auto; [|lia]. unfold obj in *. rewrite Em1, nth_error_app1 in Oa; auto.
Qed.
Lemma nest_new_decl : forall e s j l ek k o kvs ek2 k2, INV e [] s -> variable s j (MPtr l) -> mapping s l o kvs -> ordered kvs -> small (S (length kvs)) ->
  key_expr s l ek k -> keys_ok kvs -> (forall v, value_of kvs k v -> v = MNil) -> key_expr s l ek2 k2 ->
  exists s' n ol o' kvs', exec (SDecl (EKey (EKey (EVar j) ek) ek2)) s = ROk tt s' /\ INV e [] s' /\ stk s' = stk s ++ [MRef n 0] /\ length (mem s) <= n /\
    mapping s' l ol kvs' /\ bound_to k (MPtr n) kvs kvs' /\ ordered kvs' /\ mapping s' n o' [(k2, MNil)] /\
    (forall m a, m <> l -> m < length (mem s) -> obj m s' = Some a -> obj m s = Some a).
Proof.
  intros e s j l ek k o kvs ek2 k2 I Vj Mp So Sm Ke Ko Hv Ke2.
  destruct (eval_nest_new e s s j l ek k o kvs ek2 k2 I (grew_refl s) Vj Mp Mp So Sm Ke Ko Hv Ke2) as (s2 & r & n & ol & o2 & kvs' & E2 & I2 & Nr & Lr & [ws Es] & Ln & M2 & M2l & Bt & So' & Ot).
  set (b0 := {| mem := mem s2; rc := rc s2; stk := stk s |}).
  pose proof Mp as (O & _). pose proof (obj_lt _ _ _ O) as Ll. pose proof M2 as (O2 & V2 & T2 & _). pose proof M2l as (O2l & _).
  assert (Ob : forall m, obj m b0 = obj m s2) by reflexivity. assert (Ln2 : n < length (mem b0)) by (simpl; eapply obj_lt; eauto).
  assert (Mb : moved n o2 b0 s2).
  { split; auto. exists [], ws. unfold shrunk, extm. rewrite app_nil_r. simpl. rewrite sn_length. split; [auto|]. split; auto.
    intros m a K. change (obj m (set_mem n o2 b0) = Some a). rewrite obj_set_mem by auto. destruct (Nat.eqb_spec n m) as [->|_]; [|exact K]. congruence. }
  destruct (decl_core e s _ s2 r n 0 o2 [(k2, MNil)] b0 I2 E2 eq_refl Nr Lr Mb eq_refl M2) as (s' & E & I' & Mv' & St & M'). simpl in St.
  assert (Kp : forall m a, m <> n -> obj m s' = Some a -> m < length (mem s2) -> obj m s2 = Some a) by (intros m a Nm Oa Lm; rewrite <- Ob; eapply moved_other; eauto).
  pose proof (obj_lt _ _ _ O2) as Lns. assert (Ls2 : length (mem s) <= length (mem s2)) by lia.
  assert (Ol' : obj l s' = Some ol).
  { assert (Lv : live l s') by (eapply inv_stk; [apply I'|rewrite St; apply in_or_app; left; eapply nth_error_In; exact Vj|reflexivity]).
    apply live_obj in Lv as [a Oa]. rewrite Oa. rewrite <- O2l. symmetry. apply Kp; auto; lia. }
  pose proof M' as (On' & Vn' & _).
  exists s', n, ol, o2, kvs'. do 4 (split; [solve [auto]|]). split; [|do 3 (split; [solve [auto]|])].
  - apply (mapping_other e e [] s2 s' l ol kvs' n o2 o2); auto.
  - intros m a Nm Lm Oa. apply Kp in Oa; [|lia|lia]. apply Ot in Oa; auto.
Qed.
