(** Arrays inside maps: a method and a subscript of an entry whose value is an array. *)
From Coq Require Import ZArith Bool List String Lia Sorting.
From Verif Require Import Base AllocModel StrModel ValModel NumModel MemModel MemProof MemFun MemEq MemDeref MemTriple MemKey MemArr MemElem MemList MemArrays MemText MemScalar ValSpec ValProof ArrSpec ArrFacts MemMapSpec MemMap MemLook MemMaps MemMapProps MemThrow MemNest.
Import ListNotations.
Local Open Scope list_scope.
Local Open Scope mem_scope.
Local Notation length := List.length.

(** * A reference to an entry *)
(** Slot [r] refers to an element of the array [l] of vars, or to an entry of the map [l]; its value is the array [m]. *)
Definition refers (s : state) (r l i m : nat) (oo : hobj) : Prop :=
  nth_error (stk s) r = Some (MRef l i) /\ obj l s = Some oo /\ plain_vars oo = true /\ (exists c, nth_error (h_cells oo) i = Some (c, MPtr m)) /\ l <> m.
Lemma refers_temps : forall s s1 r l i m oo, temps s s1 -> refers s r l i m oo -> refers s1 r l i m oo.
Proof.
  intros s s1 r l i m oo T (A & B & C). split; [eapply temps_slot; eauto|]. split; auto. rewrite (temps_obj _ _ _ T); auto.
Qed.
Lemma refers_eff : forall s r l i m oo, refers s r l i m oo -> forall A (f : mvar -> M A), (let! v := get (LS r) in let! e := eff v in f e) s = f (MPtr m) s.
Proof.
  intros s r l i m oo (N & O & P & (c & C) & _) A f. rewrite (bind_ok _ _ _ _ _ _ _ (get_eq (LS r) _ _ N)). apply bind_ok. simpl.
  rewrite (bind_ok _ _ _ _ _ _ _ (get_obj_eq _ _ _ O)). rewrite P, C. reflexivity.
Qed.
Lemma refers_cell : forall s r l i m oo, refers s r l i m oo -> getv (LC l (h_gen oo) i) s = Some (MPtr m).
Proof. intros s r l i m oo (N & O & P & (c & C) & _). simpl. rewrite O, Nat.eqb_refl, C. reflexivity. Qed.
Lemma refers_index : forall s r l i m oo n, refers s r l i m oo -> index_int (LS r) n s = index_int (LC l (h_gen oo) i) n s.
Proof.
  intros s r l i m oo n R. pose proof (refers_cell _ _ _ _ _ _ R) as G. destruct R as (N & O & P & (c & C) & _). unfold index_int. destruct (n <? 0)%Z; auto.
  rewrite (bind_ok _ _ _ _ _ _ _ (get_eq (LS r) _ _ N)). rewrite (bind_ok _ _ _ _ _ _ _ (get_eq _ _ _ G)).
  rewrite (bind_ok _ _ _ _ _ _ _ (get_obj_eq _ _ _ O)). rewrite P. rewrite (bind_ok _ _ _ _ _ _ _ (get_eq _ _ _ G)). reflexivity.
Qed.
Lemma refers_live : forall e F s s' w p r l i m oo, refers s r l i m oo -> INV e F s' -> nth_error (stk s') p = Some w -> target w = Some l -> obj l s' = Some oo -> live m s'.
Proof.
  intros e F s s' w p r l i m oo (N & O & P & (c & C) & _) (I & _) Np Tw O'. apply (inv_cell e F s' l oo (MPtr m) m I); [apply obj_live; exact O'| |reflexivity].
  unfold contents. apply in_or_app. left. apply in_flat_map. exists (c, MPtr m). split; [eapply nth_error_In; eauto|simpl; auto].
Qed.
Lemma refers_became : forall e F s s' r l i m oo o', refers s r l i m oo -> shrunk (set_mem m o' s) s' -> INV e F s' -> m < length (mem s) -> became m o' s s'.
Proof.
  intros e F s s' r l i m oo o' R Sh I L. split; auto. pose proof R as (N & O & _ & _ & Ne).
  assert (O' : obj l s' = Some oo) by (eapply (shrunk_obj e F _ s' r (MRef l i) l oo Sh I); auto; rewrite obj_set_mem by auto; destruct (Nat.eqb_spec m l); [congruence|auto]).
  assert (Ns : nth_error (stk s') r = Some (MRef l i)) by (destruct Sh as (A & _); rewrite A; exact N).
  pose proof (refers_live e F s s' (MRef l i) r r l i m oo R I Ns eq_refl O') as Lv. apply live_obj in Lv as [a Oa]. rewrite Oa. apply Sh in Oa. rewrite obj_set_mem, Nat.eqb_refl in Oa by auto. auto.
Qed.

(** * push *)
Lemma push_entry : forall e s r p l i m oo o x y z, INV e [] s -> refers s r l i m oo -> nth_error (stk s) p = Some x -> obj m s = Some o -> h_view o = None -> okcells s o ->
  h_size o <= length (h_cells o) -> (Z.of_nat (h_size o) + 1 < 2 ^ 30)%Z -> denotes s x y -> stored (h_ty o) y z ->
  exists s' o', push (LS r) (LS p) s = ROk tt s' /\ INV e [] s' /\ became m o' s s' /\ pushed o (h_size o) z o'.
Proof.
  intros e s r p l i m oo o x y z I Rf Np O V Ok Cp Sm D St. set (n := h_size o) in *. pose proof (INV_sound _ _ _ I) as Sd.
  pose proof (obj_lt _ _ _ O) as Lm. assert (Hx : held x s) by (apply (getv_held (LS p)); auto).
  set (s1 := push_s x (bump x s)).
  assert (I1 : INV e [] s1) by (apply INV_push, INV_bump; auto).
  assert (T1 : temps s s1) by (apply temps_push, temps_refl).
  assert (O1 : obj m s1 = Some o) by (rewrite (temps_obj _ _ _ T1); auto).
  assert (R1 : refers s1 r l i m oo) by (eapply refers_temps; eauto).
  destruct (heap_resize_gives e [] s1 m (S n) o I1 O1) as (o1 & R & I2 & G); [lia|].
  set (s2 := set_mem m o1 s1) in *.
  assert (Om : obj m s2 = Some o1) by (unfold s2; rewrite obj_set_mem by (eapply obj_lt; eauto); rewrite Nat.eqb_refl; auto).
  assert (B2 : became m o1 s1 s2) by (split; [apply shrunk_refl|auto]).
  pose proof G as (G1 & G2 & G3 & G4 & _).
  assert (Cn : n < length (h_cells o1)) by (destruct (is_char (h_ty o)); lia).
  assert (Ok1 : okcells s2 o1) by (eapply (grown_okcells s1 m o o1 (S n) s2); eauto; eapply temps_okcells; eauto).
  assert (Gl : getv (LC l (h_gen oo) i) s2 = Some (MPtr m)).
  { destruct R1 as (_ & Ol & _ & (c & C) & Ne). simpl. unfold s2. rewrite obj_set_mem by (eapply obj_lt; eauto). destruct (Nat.eqb_spec m l); [congruence|]. rewrite Ol, Nat.eqb_refl, C. reflexivity. }
  assert (E1 : index_int (LS r) (Z.of_nat n) s1 = ROk (MRef m n) (bump (MPtr m) s2)).
  { rewrite (refers_index _ _ _ _ _ _ _ R1). rewrite <- (Nat2Z.id n) at 2. eapply (index_grow_ptr s1 s2 (LC l (h_gen oo) i) m (Z.of_nat n) o); auto.
    - apply (INV_sound _ _ _ I2).
    - eapply refers_cell; eauto.
    - unfold n. lia.
    - replace (Z.to_nat (Z.of_nat n + 1)) with (S n) by lia. exact R. }
  change (bump (MPtr m) s2) with (bump (MRef m n) s2) in E1.
  destruct (val_at_some _ _ Cn) as [old Ho]. destruct (val_at_cell _ _ _ Ho) as [c Nc].
  destruct (assign_flight e [] (bump (MRef m n) s2) (length (stk s)) m n o1 c old x z) as (s3 & E3 & I3 & Sh3); auto.
  - apply INV_bump; auto. intros k Hk. inversion Hk; subst k. apply live_obj. eauto.
  - simpl. rewrite bump_stk, nth_error_app2, Nat.sub_diag by auto. reflexivity.
  - congruence.
  - intros Vl. destruct (Ok1 Vl _ _ Ho) as [A B]. split; auto. split; auto. intros ->. simpl in D.
    destruct D as (o' & k & Od & _ & Li & _). apply obj_live in Od. assert (o' = o) by congruence. subst. unfold n in Li. lia.
  - apply conv_bump. rewrite G1. apply (stored_conv _ _ _ y); auto. unfold s2. apply (grown_denotes s1 m o o1 (S n)); auto.
    eapply temps_denotes; eauto.
  - assert (E4 : (let! n := size_of (LS r) in let! r := index_int (LS r) n in scoped r (fun r => assign r (LS (length (stk (bump x s)))))) s1 = ROk tt s3).
    { rewrite (bind_ok _ _ _ _ s1 (Z.of_nat n) s1).
      - rewrite (bind_ok _ _ _ _ _ _ _ E1). rewrite bump_stk. exact E3.
      - unfold size_of. rewrite (refers_eff _ _ _ _ _ _ R1). rewrite (bind_ok _ _ _ _ _ _ _ (get_obj_eq _ _ _ O1)). unfold obj_size. rewrite V. reflexivity. }
    assert (Sh4 : shrunk (push_s x (set_mem m (set_val o1 n z) s)) s3).
    { eapply shrunk_trans; [|exact Sh3].
      rewrite (set_val_putv o1 n z c old m (h_gen o1) (bump (MRef m n) s2)); auto.
      unfold shrunk, s2, s1, obj; simpl. rewrite !bump_stk, !bump_mem, !sn_length, sn_twice. auto. }
    destruct (scoped_gives _ x (fun q => let! n := size_of (LS r) in let! r := index_int (LS r) n in scoped r (fun r => assign r q)) e [] (bump x s) tt s3 x _ E4 I3 Sh4) as (s4 & E5 & I5 & Sh5).
    + simpl. rewrite bump_stk. reflexivity.
    + exists s4, (set_val o1 n z). split; [|split; [auto|split]].
      * destruct (type_of_ok s (LS p) x y Np D) as [t Et]. unfold push.
        rewrite (bind_ok _ _ _ _ s true s) by (unfold defined; rewrite (refers_eff _ _ _ _ _ _ Rf); reflexivity).
        rewrite (bind_ok _ _ _ _ _ _ _ Et). change (negb true) with false. cbv iota zeta.
        rewrite (bind_ok _ _ _ _ s 0%Z s) by (unfold type_of; rewrite (refers_eff _ _ _ _ _ _ Rf); reflexivity).
        change (negb (0 =? 0)%Z) with false. cbv beta iota delta [andb].
        rewrite (bind_ok _ _ _ _ _ _ _ (copy_of_eq (LS p) s x Sd Np)). exact E5.
      * eapply refers_became; eauto.
      * exists o1. auto.
Qed.

(** * Statements *)
(** The map [l] after a change to an array [m] that is none of its keys. *)
Definition no_key (o : hobj) (n m : nat) : Prop := forall i c v, i < n -> nth_error (h_cells o) i = Some (c, v) -> c <> MPtr m.
Lemma mapping_beside : forall e e' F s s' l o kvs m om', INV e' [] s -> mapping s l o kvs -> no_key o (length kvs) m -> obj m s' = Some om' -> h_view om' = None -> INV e F s' ->
  obj l s' = Some o -> (forall k a, k <> m -> k < length (mem s) -> obj k s' = Some a -> obj k s = Some a) -> mapping s' l o kvs.
Proof.
  intros e e' F s s' l o kvs m om' Is (O & V & T & Oks & Sz & Lc & Ce) Nk Om' Vm' I O' H. unfold mapping. do 3 (split; auto). split; [|split; auto; split; auto].
  - intros n c N.
    assert (Tr : forall w, In w [fst c; snd c] -> not_view s w -> not_view s' w).
    { intros w Hi Hw k a -> Oa. destruct (Nat.eq_dec k m) as [->|Nm]; [congruence|]. apply (Hw k a eq_refl). apply H; auto.
      assert (Lv : live k s). { destruct Is as (Is & _). apply (inv_cell e' [] s l o (MPtr k) k Is); [apply obj_live; exact O| |reflexivity]. unfold contents. apply in_or_app. left. apply in_flat_map. exists c. split; [eapply nth_error_In; eauto|auto]. }
      apply live_obj in Lv as [a' Oa']. eapply obj_lt; eauto. }
    destruct (Oks n c N) as (P1 & P2 & P3 & P4). split; auto. split; [apply Tr; simpl; auto|]. split; auto. apply Tr; simpl; auto.
  - intros n kv N. destruct (Ce _ _ N) as (c & N1 & N2). exists c. split; auto. eapply reads_key_keep; eauto. intros k a -> A Ta.
    assert (k <> m). { intros ->. assert (n < length kvs) by (eapply ne_lt; eauto). eapply Nk; eauto. }
    assert (L : live k s') by (eapply (cell_live e F s' l o n (MPtr k, snd kv)); eauto).
    apply live_obj in L as [a' A']. rewrite A'. rewrite <- A. symmetry. apply H; auto. eapply obj_lt; eauto.
Qed.
(** The temporaries of the statement go. *)
Lemma entry_leave : forall e s s3 s6 j l o kvs k m om om', INV e [] s -> variable s j (MPtr l) -> mapping s l o kvs -> value_of kvs k (MPtr m) -> l <> m -> obj m s = Some om -> h_view om' = None ->
  no_key o (length kvs) m -> grew s s3 -> INV e [] s6 -> became m om' s3 s6 ->
  exists s', leave (length (stk s)) s6 = ROk tt s' /\ INV e [] s' /\ moved m om' s s' /\ stk s' = stk s /\ mapping s' l o kvs.
Proof.
  intros e s s3 s6 j l o kvs k m om om' I Vj Mp Hv Ne Om Vm Nk G I6 B. pose proof (obj_lt _ _ _ Om) as Lm.
  assert (O3 : obj m s3 = Some om) by (eapply grew_obj; eauto).
  assert (Mv : moved m om' s s6) by (eapply moved_trans; [auto|apply (moved_grew m om om s s3); auto|apply became_moved; exact B]).
  pose proof Mp as (Ol & _). pose proof (obj_lt _ _ _ Ol) as Ll.
  assert (Hold : forall s', INV e [] s' -> within s6 s' -> stk s' = stk s -> obj l s' = Some o).
  { intros s' I' [_ W] St. assert (Lv : live l s') by (eapply inv_stk; [apply I'|rewrite St; eapply nth_error_In; exact Vj|reflexivity]).
    apply live_obj in Lv as [a Oa]. rewrite Oa. rewrite <- Ol. symmetry. apply W in Oa. eapply moved_other; eauto. }
  destruct (leave_live e s s6 m om' Mv I6) as (s' & E & I' & Mv' & St & W).
  - intros s' I' W St. eapply (cell_entry_live e [] s s' l o kvs k m); eauto.
  - exists s'. do 4 (split; [solve [auto]|]). apply (mapping_beside e e [] s s' l o kvs m om'); auto; [apply Mv'|]. intros a b Na La Oa. eapply moved_other; eauto.
Qed.
Lemma okcells_grew : forall e s s1 m om, INV e [] s -> obj m s = Some om -> grew s s1 -> okcells s om -> okcells s1 om.
Proof.
  intros e s s1 m om I Om G Ok Vl n w Hw. destruct (Ok Vl n w Hw) as [A B]. split; auto. intros a b -> Ob. apply (B a b eq_refl).
  apply val_at_cell in Hw as [cw Hw].
  assert (Lv : live a s). { destruct I as (I & _). apply (inv_cell e [] s m om (MPtr a) a I); [apply obj_live; exact Om| |reflexivity]. unfold contents. apply in_or_app. left. apply in_flat_map. exists (cw, MPtr a). split; [eapply nth_error_In; eauto|simpl; auto]. }
  apply live_obj in Lv as [b' Ob']. pose proof (grew_obj _ _ _ _ G Ob'). congruence.
Qed.
Lemma entry_push : forall e s j l ek k o kvs m om f x y z, INV e [] s -> variable s j (MPtr l) -> mapping s l o kvs -> ordered kvs -> small (S (length kvs)) ->
  key_expr s l ek k -> keys_ok kvs -> value_of kvs k (MPtr m) -> l <> m -> no_key o (length kvs) m -> obj m s = Some om -> h_view om = None -> okcells s om ->
  h_size om <= length (h_cells om) -> (Z.of_nat (h_size om) + 1 < 2 ^ 30)%Z -> operand s f x -> denotes s x y -> stored (h_ty om) y z ->
  exists s' o', exec (SPush (EKey (EVar j) ek) f) s = ROk tt s' /\ INV e [] s' /\ moved m o' s s' /\ stk s' = stk s /\ mapping s' l o kvs /\ pushed om (h_size om) z o'.
Proof.
  intros e s j l ek k o kvs m om f x y z I Vj Mp So Sm Ke Ko Hv Ne Nk Om Vm Ok Cp Sz Op D St. pose proof Mp as (Ol & Vo & To & _). pose proof (obj_lt _ _ _ Ol) as Ll. pose proof (obj_lt _ _ _ Om) as Lm.
  destruct (eval_key_there e s s j l ek k o kvs (MPtr m) I (grew_refl s) Vj Mp Ll So Sm Ke Ko Hv) as (s1 & r & i & kk & E1 & I1 & G1 & Nr & Ni & Lr).
  destruct (operand_grew e s s1 f x I1 G1 Op) as (q & s2 & E2 & I2 & G2 & Nq).
  pose proof (grew_trans _ _ _ G1 G2) as G. pose proof (INV_sound _ _ _ I2) as Sd2. assert (Hx : held x s2) by (apply (getv_held (LS q)); auto).
  assert (M1 : mapping s1 l o kvs) by (eapply mapping_grew; eauto). destruct M1 as (_ & _ & _ & _ & _ & _ & Ce). destruct (Ce _ _ Ni) as (c & Nc & _). simpl in Nc.
  assert (R2 : refers s2 r l i m o).
  { split; [apply (grew_slot s1 s2); auto|]. split; [eapply grew_obj; eauto|]. split; [unfold plain_vars; rewrite Vo, To; reflexivity|]. split; eauto. }
  set (s3 := push_s x (bump x s2)). assert (T3 : temps s2 s3) by (apply temps_push, temps_refl).
  assert (G3 : grew s s3) by (eapply grew_trans; [exact G|apply grew_temps; auto]).
  assert (Ok3 : okcells s3 om) by (apply (okcells_grew e s s3 m om); auto).
  destruct (push_entry e s3 r (length (stk s2)) l i m o om x y z) as (s4 & o' & E4 & I4 & B4 & P4); auto.
  - apply INV_push, INV_bump; auto.
  - eapply refers_temps; eauto.
  - simpl. rewrite bump_stk, nth_error_app2, Nat.sub_diag by auto. reflexivity.
  - eapply grew_obj; eauto.
  - eapply grew_denotes; eauto.
  - assert (Lm2 : m < length (mem s2)) by (pose proof (grew_len _ _ G); lia).
    destruct (scoped_gives _ x (push (LS r)) e [] (bump x s2) tt s4 x (set_mem m o' (bump x s2))) as (s5 & E5 & I5 & Sh5); auto.
    + rewrite bump_stk. exact E4.
    + destruct B4 as [Sh4 _]. exact Sh4.
    + assert (B5 : became m o' s2 s5) by (eapply refers_became; eauto; eapply shrunk_trans; [|exact Sh5]; apply shrunk_set_mem; auto; apply shrunk_bump).
      assert (Vo' : h_view o' = None). { destruct P4 as (o1 & (_ & P & _) & ->). destruct (set_val_alike o1 (h_size om) z) as (A1 & A2 & A3 & A4 & A5). congruence. }
      destruct (entry_leave e s s2 s5 j l o kvs k m om o') as (s6 & E6 & I6 & Mv & St6 & M6); auto.
      exists s6, o'. split; [|auto 10].
      change (exec (SPush (EKey (EVar j) ek) f) s) with (finish (length (stk s)) (let! v := eval (length (stk s)) (EKey (EVar j) ek) in let! p := eval (length (stk s)) f in with_copy p (push v)) s).
      unfold finish. rewrite (bind_ok _ _ _ _ _ _ _ E1). rewrite (bind_ok _ _ _ _ _ _ _ E2). unfold with_copy. rewrite (bind_ok _ _ _ _ _ _ _ (copy_of_eq (LS q) s2 x Sd2 Nq)).
      rewrite E5. exact E6.
Qed.

(** ** Elements *)
Lemma eval_elem : forall e s s1 j l ek k o kvs m om n, INV e [] s1 -> grew s s1 -> variable s j (MPtr l) -> mapping s1 l o kvs -> l < length (mem s) -> ordered kvs -> small (S (length kvs)) ->
  key_expr s l ek k -> keys_ok kvs -> value_of kvs k (MPtr m) -> l <> m -> obj m s1 = Some om -> h_view om = None -> n < h_size om ->
  exists s2 r, eval (length (stk s)) (EIdx (EKey (EVar j) ek) (Z.of_nat n)) s1 = ROk (LS r) s2 /\ INV e [] s2 /\ grew s1 s2 /\ nth_error (stk s2) r = Some (MRef m n) /\ length (stk s1) <= r /\
    length (stk s2) = S r.
Proof.
  intros e s s1 j l ek k o kvs m om n I G Vj Mp Ll So Sm Ke Ko Hv Ne Om Vm Ln.
  destruct (eval_key_there e s s1 j l ek k o kvs (MPtr m) I G Vj Mp Ll So Sm Ke Ko Hv) as (s2 & r & i & kk & E2 & I2 & G2 & Nr & Ni & Lr).
  pose proof Mp as (Ol & Vo & To & _ & _ & _ & Ce). destruct (Ce _ _ Ni) as (c & Nc & _). simpl in Nc.
  assert (R2 : refers s2 r l i m o).
  { split; auto. split; [eapply grew_obj; eauto|]. split; [unfold plain_vars; rewrite Vo, To; reflexivity|]. split; eauto. }
  pose proof (INV_sound _ _ _ I2) as Sd2. assert (Om2 : obj m s2 = Some om) by (eapply grew_obj; eauto).
  assert (E3 : index_int (LS r) (Z.of_nat n) s2 = ROk (MRef m n) (bump (MPtr m) s2)).
  { rewrite (refers_index _ _ _ _ _ _ _ R2). rewrite <- (Nat2Z.id n) at 2. eapply index_in_ptr; eauto; [eapply refers_cell; eauto|lia]. }
  change (bump (MPtr m) s2) with (bump (MRef m n) s2) in E3.
  assert (Hm : held (MRef m n) s2) by (intros a Ha; inversion Ha; subst a; apply live_obj; eauto).
  exists (push_s (MRef m n) (bump (MRef m n) s2)), (length (stk s2)). split; [|split; [|split; [|split; [|split]]]].
  - change (eval (length (stk s)) (EIdx (EKey (EVar j) ek) (Z.of_nat n))) with (let! v := eval (length (stk s)) (EKey (EVar j) ek) in let! x := index_int v (Z.of_nat n) in temp x).
    rewrite (bind_ok _ _ _ _ _ _ _ E2). rewrite (bind_ok _ _ _ _ _ _ _ E3). unfold temp, push_s. rewrite bump_stk. reflexivity.
  - apply INV_push, INV_bump; auto.
  - eapply grew_trans; [exact G2|]. apply grew_temps, temps_push, temps_refl.
  - cbn [push_s stk]. rewrite bump_stk, nth_error_app2, Nat.sub_diag by auto. reflexivity.
  - destruct (grew_len _ _ G2). lia.
  - cbn [push_s stk]. rewrite bump_stk, app_length. simpl. lia.
Qed.
Lemma entry_elem_assign : forall e s j l ek k o kvs m om n f x y z, INV e [] s -> variable s j (MPtr l) -> mapping s l o kvs -> ordered kvs -> small (S (length kvs)) ->
  key_expr s l ek k -> keys_ok kvs -> value_of kvs k (MPtr m) -> l <> m -> no_key o (length kvs) m -> obj m s = Some om -> h_view om = None -> okcells s om ->
  h_size om <= length (h_cells om) -> n < h_size om -> operand s f x -> denotes s x y -> stored (h_ty om) y z -> (varlike (h_ty om) = true -> x <> MRef m n) ->
  exists s', exec (SAssign (EIdx (EKey (EVar j) ek) (Z.of_nat n)) f) s = ROk tt s' /\ INV e [] s' /\ moved m (set_val om n z) s s' /\ stk s' = stk s /\ mapping s' l o kvs.
Proof.
  intros e s j l ek k o kvs m om n f x y z I Vj Mp So Sm Ke Ko Hv Ne Nk Om Vm Ok Cp Ln Op D St X. pose proof Mp as (Ol & Vo & To & _). pose proof (obj_lt _ _ _ Ol) as Ll. pose proof (obj_lt _ _ _ Om) as Lm.
  destruct (operand_grew e s s f x I (grew_refl s) Op) as (q & s1 & E1 & I1 & G1 & Nq).
  assert (M1 : mapping s1 l o kvs) by (eapply mapping_grew; eauto). assert (Om1 : obj m s1 = Some om) by (eapply grew_obj; eauto).
  destruct (eval_elem e s s1 j l ek k o kvs m om n) as (s2 & r & E2 & I2 & G2 & Nr & Lr & _); auto.
  pose proof (grew_trans _ _ _ G1 G2) as G. pose proof (INV_sound _ _ _ I2) as Sd2. assert (Nq2 : nth_error (stk s2) q = Some x) by (apply (grew_slot s1 s2); auto).
  assert (Hx : held x s2) by (apply (getv_held (LS q)); auto).
  set (s3 := push_s x (bump x s2)). assert (T3 : temps s2 s3) by (apply temps_push, temps_refl).
  assert (G3 : grew s s3) by (eapply grew_trans; [exact G|apply grew_temps; auto]).
  destruct (assign_became e s3 r (length (stk s2)) m n om x y z) as (s4 & E4 & I4 & B4); auto.
  - apply INV_push, INV_bump; auto.
  - eapply temps_slot; eauto.
  - unfold s3. cbn [push_s stk]. rewrite bump_stk, nth_error_app2, Nat.sub_diag by auto. reflexivity.
  - eapply grew_obj; eauto.
  - apply (okcells_grew e s s3 m om); auto.
  - lia.
  - eapply grew_denotes; eauto.
  - destruct (with_copy_became e e s2 q x m (set_val om n z) r (MRef m n) (assign (LS r)) s4) as (s5 & E5 & I5 & B5); auto; [eapply obj_lt, grew_obj; eauto|].
    destruct (entry_leave e s s2 s5 j l o kvs k m om (set_val om n z)) as (s6 & E6 & I6 & Mv & St6 & M6); auto.
    { destruct (set_val_alike om n z) as (A1 & A2 & A3 & A4 & A5). congruence. }
    exists s6. split; [|auto 10].
    change (exec (SAssign (EIdx (EKey (EVar j) ek) (Z.of_nat n)) f) s) with (finish (length (stk s)) (let! p := eval (length (stk s)) f in let! v := eval (length (stk s)) (EIdx (EKey (EVar j) ek) (Z.of_nat n)) in with_copy p (assign v)) s).
    unfold finish. rewrite (bind_ok _ _ _ _ _ _ _ E1). rewrite (bind_ok _ _ _ _ _ _ _ E2). rewrite E5. exact E6.
Qed.

(** ** push on an entry that is not defined *)
Lemma entry_push_new : forall e s j l ek k o kvs f x v, INV e [] s -> variable s j (MPtr l) -> mapping s l o kvs -> ordered kvs -> small (S (length kvs)) ->
  key_expr s l ek k -> keys_ok kvs -> (forall w, value_of kvs k w -> w = MNil) -> operand s f x -> denotes s x (MNum v) -> (forall i, x <> MRef l i) -> exact_elem s x (MNum v) -> type_code (MNum v) <> 0%Z ->
  exists s' o' kvs', exec (SPush (EKey (EVar j) ek) f) s = ROk tt s' /\ INV e [] s' /\ moved l o' s s' /\ stk s' = stk s /\ bound_to k (MNum v) kvs kvs' /\ ordered kvs' /\ mapping s' l o' kvs'.
Proof.
  intros e s j l ek k o kvs f x v I Vj Mp So Sm Ke Ko Hv Op D X Ex Nt. pose proof Mp as (O0 & Vo & T0 & _). pose proof (obj_lt _ _ _ O0) as Ll.
  destruct (eval_key e s s j l ek k o kvs I (grew_refl s) Vj Mp Ll So Sm Ke) as (t1 & r & o1 & i & kvs1 & E1 & I1 & Nr & Mv & M1 & Lu & So1 & Lr).
  pose proof Mv as (O1 & ms1 & ws1 & St1 & Lm1 & Ob1). simpl in St1, Lm1.
  set (b := {| mem := mem t1; rc := rc t1; stk := stk s |}).
  assert (Gb : grew b t1) by (split; [exists []; rewrite app_nil_r; reflexivity|exists ws1; exact St1]).
  assert (Opb : operand b f x) by (eapply (moved_operand e s s t1 l o o1); eauto using grew_refl).
  assert (Db : denotes b x (MNum v)) by (eapply (moved_denotes e s s t1 l o o1); eauto using grew_refl).
  destruct (operand_grew e b t1 f x I1 Gb Opb) as (q & t2 & E2 & I2 & G2 & Nq). simpl stk in E2.
  pose proof (grew_trans _ _ _ Gb G2) as Gb2. assert (D2 : denotes t2 x (MNum v)) by (apply (grew_denotes b); auto).
  pose proof (INV_sound _ _ _ I2) as Sd2. assert (Hx : held x t2) by (apply (getv_held (LS q)); auto).
  assert (Ex2 : exact_elem t2 x (MNum v)).
  { intros m n a -> Oa Va. assert (Nm : m <> l) by (intros ->; eapply X; eauto). apply (Ex m n a eq_refl); auto.
    destruct D as (a0 & kk & A & _). apply obj_live in A. assert (Lm : live m t1) by (exact (moved_target e s s t1 l o1 I1 (grew_refl s) Mv f _ m Op eq_refl)).
    assert (Q : obj m b = Some a0) by exact (moved_stays s s t1 l o o1 (grew_refl s) O0 Mv m a0 Nm A Lm). apply (grew_obj b t2) in Q; auto. congruence. }
  assert (M2 : mapping t2 l o1 kvs1) by (apply (mapping_grew e [] t1); auto).
  assert (Mv2 : moved l o1 s t2) by (eapply moved_trans; [auto|exact Mv|apply (moved_grew l o1 o1 t1 t2); auto; eapply grew_obj; eauto]).
  assert (Nr2 : nth_error (stk t2) r = Some (MRef l i)) by (apply (grew_slot t1 t2); auto).
  destruct (bound_looked k MNil kvs i kvs1 Lu) as (a & k' & w & b1 & Ek & Ei & _).
  assert (Vn : w = MNil).
  { destruct Lu as [a' k'' v' b' Eq Qe|a' b' Eq F1 F2].
    - apply Hv. exists k'. rewrite Ek in Eq |- *. split; [apply in_or_app; right; left; auto|].
      assert (Q : nth_error (a ++ (k', w) :: b1) (length a) = nth_error (a' ++ (k'', v') :: b') (length a')) by congruence. rewrite !nth_error_app2, !Nat.sub_diag in Q by auto. inversion Q; subst; auto.
    - assert (Q : nth_error (a ++ (k', w) :: b1) (length a) = nth_error (a' ++ (k, MNil) :: b') (length a')) by congruence. rewrite !nth_error_app2, !Nat.sub_diag in Q by auto. inversion Q; subst; auto. }
  subst w. assert (Ni : nth_error kvs1 i = Some (k', MNil)) by (rewrite Ek, Ei, nth_error_app2, Nat.sub_diag by auto; reflexivity).
  pose proof M2 as (O2 & V2 & T2 & Oks & Sz & Lc & Ce). destruct (Ce _ _ Ni) as (c & Nc & _). simpl in Nc. assert (Li : i < length (h_cells o1)) by (eapply ne_lt; eauto).
  set (t3 := push_s x (bump x t2)). assert (T23 : temps t2 t3) by apply temps_push, temps_refl.
  assert (I3 : INV e [] t3) by (apply INV_push, INV_bump; auto). pose proof (INV_sound _ _ _ I3) as Sd3.
  assert (Nq3 : nth_error (stk t3) (length (stk t2)) = Some x) by (unfold t3; cbn [push_s stk]; rewrite bump_stk, nth_error_app2, Nat.sub_diag by auto; reflexivity).
  assert (Hx3 : held x t3) by (apply (getv_held (LS (length (stk t2)))); auto).
  set (t4 := push_s x (bump x t3)). assert (T34 : temps t3 t4) by apply temps_push, temps_refl. assert (T24 : temps t2 t4) by (apply temps_push; auto).
  assert (Oks2 : okcells t2 o1). { intros _ n w Hw. apply val_at_cell in Hw as [cc Hc]. destruct (Oks _ _ Hc) as (_ & _ & P3 & P4). auto. }
  destruct (assign_became e t4 r (length (stk t3)) l i o1 x (MNum v) (MNum v)) as (t5 & E5 & I5 & B5); auto.
  - apply INV_push, INV_bump; auto.
  - eapply temps_slot; eauto.
  - unfold t4; cbn [push_s stk]; rewrite bump_stk, nth_error_app2, Nat.sub_diag by auto; reflexivity.
  - rewrite (temps_obj _ _ _ T24). auto.
  - eapply temps_okcells; eauto.
  - eapply temps_denotes; eauto.
  - rewrite T2. reflexivity.
  - assert (Nr3 : nth_error (stk t3) r = Some (MRef l i)) by (eapply temps_slot; eauto).
    assert (L3 : l < length (mem t3)) by (unfold t3; cbn [push_s mem]; rewrite bump_mem; eapply obj_lt; eauto).
    destruct (with_copy_became e e t3 (length (stk t2)) x l (set_val o1 i (MNum v)) r (MRef l i) (assign (LS r)) t5) as (t6 & E6 & I6 & B6); auto.
    assert (Ep : push (LS r) (LS (length (stk t2))) t3 = ROk tt t6).
    { unfold push. rewrite (bind_ok _ _ _ _ t3 false t3).
      - rewrite (bind_ok _ _ _ _ _ _ _ (type_of_exact t3 _ x (MNum v) Nq3 (temps_denotes _ _ _ _ T23 D2) (temps_exact _ _ _ _ T23 Ex2))).
        change (negb false) with true. cbv iota zeta. destruct (Z.eqb_spec (type_code (MNum v)) 0); [congruence|]. simpl negb. cbv iota. exact E6.
      - unfold defined. rewrite (bind_ok _ _ _ _ _ _ _ (get_eq (LS r) _ _ Nr3)). simpl eff.
        assert (O3 : obj l t3 = Some o1) by (rewrite (temps_obj _ _ _ T23); auto).
        rewrite (bind_ok _ _ _ _ t3 MNil t3); [reflexivity|]. rewrite (bind_ok _ _ _ _ _ _ _ (get_obj_eq _ _ _ O3)). unfold plain_vars. rewrite V2, T2, Nc. reflexivity. }
    destruct (with_copy_became e e t2 q x l (set_val o1 i (MNum v)) r (MRef l i) (push (LS r)) t6) as (t7 & E7 & I7 & B7); auto; [eapply obj_lt; eauto|].
    destruct (store_core e True (fun _ z => z = MNum v) l s t2 t7 s (MNum v) k kvs i kvs1 o1) as (t8 & kvs' & E8 & I8 & Mv8 & St8 & En8 & Bt & So8 & _ & M8 & _); auto; try discriminate; try (intros; discriminate).
    { intros s' I' _ St'. eapply inv_stk; [apply I'|rewrite St'; eapply nth_error_In; exact Vj|reflexivity]. }
    exists t8, (set_val o1 i (MNum v)), kvs'. split; [|auto 10].
    change (exec (SPush (EKey (EVar j) ek) f) s) with (finish (length (stk s)) (let! v := eval (length (stk s)) (EKey (EVar j) ek) in let! p := eval (length (stk s)) f in with_copy p (push v)) s).
    unfold finish. rewrite (bind_ok _ _ _ _ _ _ _ E1). rewrite (bind_ok _ _ _ _ _ _ _ E2). rewrite E7. exact E8.
Qed.
