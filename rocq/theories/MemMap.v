(** What the methods of maps do to a state: searching, inserting a key and the keyed subscript. *)
From Coq Require Import ZArith Bool List String Lia.
From Verif Require Import Base StrModel ValModel NumModel MemModel ValSpec ValProof MapProof MemProof MemFun MemEq MemDeref MemTriple MemElem MemList ArrSpec MemArrays.
Import ListNotations.
Local Open Scope list_scope.
Local Open Scope mem_scope.
Local Notation length := List.length.

(** * A var that stays a handle of [l] while [l] changes *)
Definition firm (s : state) (this : lval) (l : nat) : Prop :=
  getv this s = Some (MPtr l) /\
  match this with
  | LS _ => True
  | LC m _ _ => m <> l /\ exists q v, nth_error (stk s) q = Some v /\ target v = Some m
  | LK _ _ _ => False
  end.
Lemma firm_bump : forall w s this l, firm s this l -> firm (bump w s) this l.
Proof. intros w s this l [G H]. split; [rewrite getv_bump; auto|]. destruct this; auto. rewrite bump_stk. auto. Qed.
Lemma firm_push : forall w s this l, firm s this l -> firm (push_s w s) this l.
Proof.
  intros w s this l [G H]. split; [rewrite getv_push; auto; eapply getv_under; eauto|]. destruct this; auto.
  destruct H as (H & q & v & Q & T). split; auto. exists q, v. split; auto. simpl. rewrite nth_error_app1; auto. eapply ne_lt; eauto.
Qed.
Lemma firm_shrunk : forall e F s s' this l o', firm s this l -> l < length (mem s) -> shrunk (set_mem l o' s) s' -> INV e F s' ->
  became l o' s s' /\ firm s' this l.
Proof.
  intros e F s s' this l o' [G H] L Sh I. pose proof Sh as (St & Lm & Ob). simpl in St, Lm. pose proof (INV_sound _ _ _ I) as Sd.
  assert (G' : getv this s' = Some (MPtr l)).
  { destruct this as [j|m g i|m g i]; [simpl in *; congruence| |contradiction]. destruct H as (D & q & v & Q & T). simpl in *.
    assert (Lv : live m s'). { destruct Sd as (_ & Sx & _). apply (Sx v); auto. rewrite St. eapply nth_error_In; eauto. }
    apply live_obj in Lv as [om Om]. rewrite Om. apply Ob in Om. rewrite obj_set_mem in Om by auto. destruct (Nat.eqb_spec l m); [congruence|]. rewrite Om in G. exact G. }
  split.
  - split; auto. assert (Lv : live l s') by (apply (getv_held this s' (MPtr l)); auto). apply live_obj in Lv as [o1 O1]. rewrite O1. apply Ob in O1.
    rewrite obj_set_mem, Nat.eqb_refl in O1 by auto. auto.
  - split; auto. destruct this; auto. rewrite St. auto.
Qed.

(** * Cells *)
Definition set_cell (o : hobj) (i : nat) (c : mvar * mvar) : hobj := set_cells o (set_nth (h_cells o) i c).
Definition okpair (s : state) (c : mvar * mvar) : Prop := nonref (fst c) /\ not_view s (fst c) /\ nonref (snd c) /\ not_view s (snd c).
Definition okpairs (s : state) (o : hobj) : Prop := forall k c, nth_error (h_cells o) k = Some c -> okpair s c.
Lemma okpair_became : forall l o o' s s' c, obj l s = Some o -> h_view o' = None -> became l o' s s' -> okpair s c -> okpair s' c.
Proof. intros l o o' s s' c O V B (A1 & A2 & A3 & A4). split; auto. split; [eapply not_view_became; eauto|]. split; auto. eapply not_view_became; eauto. Qed.
Lemma okpairs_set : forall s o i c, okpairs s o -> okpair s c -> okpairs s (set_cell o i c).
Proof.
  intros s o i c Ok Oc k d N. simpl in N. destruct (Nat.eq_dec i k) as [->|D]; [|rewrite sn_other in N by auto; eapply Ok; eauto].
  pose proof (ne_lt _ _ _ _ N) as L. rewrite sn_length in L. rewrite sn_same in N by auto. inversion N; subst; auto.
Qed.
Lemma okpairs_became : forall l o o' s s' a, obj l s = Some o -> h_view o' = None -> became l o' s s' -> okpairs s a -> okpairs s' a.
Proof. intros l o o' s s' a O V B Ok k c N. eapply okpair_became; eauto. Qed.
Lemma okpairs_bump : forall w s o, okpairs s o -> okpairs (bump w s) o.
Proof. intros w s o Ok k c N. destruct (Ok k c N) as (A & B & C & D). split; auto. split; [apply not_view_bump; auto|]. split; auto. apply not_view_bump; auto. Qed.
Lemma set_cell_putv : forall o i c old l g y s, obj l s = Some o -> nth_error (h_cells o) i = Some (c, old) -> putv (LC l g i) y s = set_mem l (set_cell o i (c, y)) s.
Proof. intros. apply (putv_cell_eq l g i y s o c old); auto. Qed.
Lemma set_cell_putk : forall o i c old l g y s, obj l s = Some o -> nth_error (h_cells o) i = Some (c, old) -> putv (LK l g i) y s = set_mem l (set_cell o i (y, old)) s.
Proof. intros. simpl. unfold put_cell. rewrite H, H0. reflexivity. Qed.

(** * Storing keys and values *)
Lemma key_ptr_eq : forall s this l i o, getv this s = Some (MPtr l) -> obj l s = Some o -> h_ty o = HPair -> i < h_size o ->
  key_ptr this (Z.of_nat i) s = ROk (LK l (h_gen o) i) s.
Proof.
  intros s this l i o G O T L. unfold key_ptr. rewrite (bind_ok _ _ _ _ _ _ _ (ptr_heap _ _ _ G)). rewrite (bind_ok _ _ _ _ _ _ _ (get_obj_eq _ _ _ O)). rewrite T.
  destruct (Z.ltb_spec (Z.of_nat i) 0); [lia|]. destruct (Z.leb_spec (Z.of_nat (h_size o)) (Z.of_nat i)); [lia|]. simpl. rewrite Nat2Z.id. reflexivity.
Qed.
Lemma set_key_became : forall e F s this l i o c old x y, INV e (x :: F) s -> firm s this l -> obj l s = Some o -> h_view o = None -> h_ty o = HPair -> okpairs s o ->
  i < h_size o -> nth_error (h_cells o) i = Some (c, old) -> der_spec x s y -> nonref y ->
  exists s', scoped x (fun p => let! dst := key_ptr this (Z.of_nat i) in assign_plain dst p) s = ROk tt s' /\ INV e F s' /\
    became l (set_cell o i (y, old)) s s' /\ firm s' this l.
Proof.
  intros e F s this l i o c old x y I Fm O V T Ok L N D Ny. pose proof (obj_lt _ _ _ O) as Ll.
  assert (I1 : INV e F (push_s x s)) by (apply INV_push; auto). pose proof (firm_push x _ _ _ Fm) as Fm1.
  assert (O1 : obj l (push_s x s) = Some o) by auto.
  destruct (Ok _ _ N) as (A1 & A2 & _). simpl in A1, A2.
  destruct (assign_plain_keeps e F (push_s x s) (LK l (h_gen o) i) (length (stk s)) x y c) as (s1 & E1 & I2 & Sh); auto.
  - simpl. split; auto. intros o' O'. rewrite obj_push in O'. assert (o' = o) by congruence. subst. rewrite T. reflexivity.
  - simpl. rewrite obj_push, O, Nat.eqb_refl, N. reflexivity.
  - apply getv_push_new.
  - discriminate.
  - apply der_push; auto.
  - intros ? ? ? ? ? ?; discriminate.
  - intros s1 I2 Sh. rewrite (set_cell_putk o i c old) in Sh by auto. destruct (firm_shrunk e F _ _ _ _ _ Fm1 Ll Sh I2) as [[_ B] _]. simpl. rewrite B. simpl.
    rewrite Nat.eqb_refl, sn_same by (eapply ne_lt; eauto). reflexivity.
  - rewrite (set_cell_putk o i c old) in Sh by auto. change (set_mem l (set_cell o i (y, old)) (push_s x s)) with (push_s x (set_mem l (set_cell o i (y, old)) s)) in Sh.
    destruct (scoped_gives _ x (fun p => let! dst := key_ptr this (Z.of_nat i) in assign_plain dst p) e F s tt s1 x (set_mem l (set_cell o i (y, old)) s)) as (s2 & E2 & I3 & Sh2); auto.
    + rewrite (bind_ok _ _ _ _ _ _ _ (key_ptr_eq _ _ _ _ _ (proj1 Fm1) O1 T L)). exact E1.
    + exists s2. split; auto. split; auto. apply (firm_shrunk e F); auto.
Qed.
Lemma set_val_became : forall e F s this l i o c old x y, INV e (x :: F) s -> firm s this l -> obj l s = Some o -> h_view o = None -> h_ty o = HPair -> okpairs s o ->
  nth_error (h_cells o) i = Some (c, old) -> der_spec x s y -> nonref y -> x <> MRef l i ->
  exists s', set_at this (Z.of_nat i) x s = ROk tt s' /\ INV e F s' /\ became l (set_cell o i (c, y)) s s' /\ firm s' this l.
Proof.
  intros e F s this l i o c old x y I Fm O V T Ok N D Ny X. pose proof (obj_lt _ _ _ O) as Ll. unfold set_at.
  assert (I1 : INV e F (push_s x s)) by (apply INV_push; auto). pose proof (INV_sound _ _ _ I1) as S1.
  pose proof (firm_push x _ _ _ Fm) as Fm1. pose proof (proj1 Fm1) as G1.
  pose proof (at_int_ptr _ _ _ (Z.of_nat i) S1 G1 (Nat2Z.is_nonneg _)) as A. rewrite Nat2Z.id in A.
  pose proof (held_ptr _ _ _ S1 G1) as H1. destruct (Ok _ _ N) as (_ & _ & A3 & A4). simpl in A3, A4.
  destruct (assign_flight e F (bump (MPtr l) (push_s x s)) (length (stk s)) l i o c old x y) as (s2 & B & I2 & Sh2); auto.
  - change (INV e (MRef l i :: F) (bump (MRef l i) (push_s x s))). apply INV_bump; auto.
  - rewrite bump_stk. apply getv_push_new.
  - apply storable_bump, storable_push. intros _. auto.
  - rewrite T. split; auto. apply der_bump, der_push; auto.
  - assert (Sh3 : shrunk (push_s x (putv (LC l (h_gen o) i) y s)) s2).
    { rewrite <- putv_push by (simpl; auto). eapply shrunk_trans; [|exact Sh2]. apply shrunk_putv, shrunk_bump. }
    destruct (scoped_gives _ x (fun p => let! r := at_int this (Z.of_nat i) in scoped r (fun q => assign q p)) e F s tt s2 x (putv (LC l (h_gen o) i) y s)) as (s3 & E3 & I3 & Sh4); auto.
    + cbv beta. rewrite (bind_ok _ _ _ _ _ _ _ A). exact B.
    + apply putv_stk_length.
    + exists s3. split; auto. split; auto. rewrite (set_cell_putv o i c old) in Sh4 by auto. apply (firm_shrunk e F); auto.
Qed.

(** * Moving entries up *)
Lemma pair_copy : forall s this l i o c v, sound s -> getv this s = Some (MPtr l) -> obj l s = Some o -> h_ty o = HPair -> i < h_size o ->
  nth_error (h_cells o) i = Some (c, v) -> (let! k := key_ptr this (Z.of_nat i) in copy_of k) s = ROk c (bump c s) /\ held c s.
Proof.
  intros s this l i o c v S G O T L N. rewrite (bind_ok _ _ _ _ _ _ _ (key_ptr_eq _ _ _ _ _ G O T L)).
  assert (Gk : getv (LK l (h_gen o) i) s = Some c) by (simpl; rewrite O, Nat.eqb_refl, N; reflexivity).
  split; [apply copy_of_eq; auto|]. eapply getv_held; eauto.
Qed.
Lemma pair_move : forall e F s this l i m o c v, INV e F s -> firm s this l -> obj l s = Some o -> h_view o = None -> h_ty o = HPair -> okpairs s o ->
  i < h_size o -> m < h_size o -> i <> m -> i < length (h_cells o) -> nth_error (h_cells o) m = Some (c, v) ->
  exists s', (forall A (g : M A), (let! src := key_ptr this (Z.of_nat m) in let! x := copy_of src in
               scoped x (fun p => let! dst := key_ptr this (Z.of_nat i) in assign_plain dst p) ;;
               let! x := at_int this (Z.of_nat m) in set_at this (Z.of_nat i) x ;; g) s = g s') /\ INV e F s' /\
    became l (set_cell o i (c, v)) s s' /\ firm s' this l /\ okpairs s' (set_cell o i (c, v)).
Proof.
  intros e F s this l i m o c v I Fm O V T Ok Li Lm D Lc N. pose proof (INV_sound _ _ _ I) as Sd. pose proof (obj_lt _ _ _ O) as Ll.
  destruct (ne_some _ _ _ Lc) as [[c0 old] N0]. destruct (Ok _ _ N) as (A1 & A2 & A3 & A4). simpl in A1, A2, A3, A4.
  destruct (pair_copy s this l m o c v Sd (proj1 Fm) O T Lm N) as [E1 Hc].
  assert (Q1 : INV e (c :: F) (bump c s)) by (apply INV_bump; auto).
  assert (Q2 : firm (bump c s) this l) by (apply firm_bump; auto).
  assert (Q3 : obj l (bump c s) = Some o) by (rewrite obj_bump; auto).
  assert (Q4 : okpairs (bump c s) o) by (apply okpairs_bump; auto).
  assert (Q5 : der_spec c (bump c s) c) by (destruct c; simpl; auto; exfalso; eapply A1; eauto).
  destruct (set_key_became e F (bump c s) this l i o c0 old c c Q1 Q2 Q3 V T Q4 Li N0 Q5 A1) as (s1 & E2 & I2 & B2 & Fm2).
  assert (B1 : became l (set_cell o i (c, old)) s s1).
  { destruct B2 as [Sh Ob]. split; auto. eapply shrunk_trans; [|exact Sh]. apply shrunk_set_mem; auto. apply shrunk_bump. }
  set (o1 := set_cell o i (c, old)) in *. assert (O1 : obj l s1 = Some o1) by apply B1. pose proof (INV_sound _ _ _ I2) as Sd1.
  assert (Ok1 : okpairs s1 o1).
  { apply (okpairs_became l o o1 s s1); auto. apply okpairs_set; auto. destruct (Ok _ _ N0) as (C1 & C2 & C3 & C4). repeat (split; auto). }
  assert (N1 : nth_error (h_cells o1) i = Some (c, old)) by (simpl; apply sn_same; auto).
  assert (N2 : nth_error (h_cells o1) m = Some (c, v)) by (simpl; rewrite sn_other; auto).
  pose proof (at_int_ptr _ _ _ (Z.of_nat m) Sd1 (proj1 Fm2) (Nat2Z.is_nonneg _)) as E3. rewrite Nat2Z.id in E3.
  assert (P1 : INV e (MRef l m :: F) (bump (MRef l m) s1)) by (apply INV_bump; auto; apply (held_ptr this); auto; apply Fm2).
  assert (P2 : firm (bump (MRef l m) s1) this l) by (apply firm_bump; auto).
  assert (P3 : obj l (bump (MRef l m) s1) = Some o1) by (rewrite obj_bump; auto).
  assert (P4 : okpairs (bump (MRef l m) s1) o1) by (apply okpairs_bump; auto).
  assert (P5 : der_spec (MRef l m) (bump (MRef l m) s1) v).
  { exists o1. split; auto. assert (plain_vars o1 = true) as -> by (unfold plain_vars; simpl; rewrite V, T; reflexivity). exists c. auto. }
  destruct (set_val_became e F (bump (MRef l m) s1) this l i o1 c old (MRef l m) v P1 P2 P3 V T P4 N1 P5 A3) as (s2 & E4 & I4 & B4 & Fm4); [congruence|].
  assert (Eo : set_cell o1 i (c, v) = set_cell o i (c, v)) by (unfold o1, set_cell; simpl; rewrite sn_twice; reflexivity).
  rewrite Eo in B4. exists s2. split; [|split; [auto|]].
  - intros A g. unfold bind in E1 |- *. destruct (key_ptr this (Z.of_nat m) s); try discriminate. rewrite E1. unfold bind in E2. rewrite E2. rewrite E3. change (bump (MPtr l) s1) with (bump (MRef l m) s1). rewrite E4. reflexivity.
  - assert (B5 : became l (set_cell o i (c, v)) s s2).
    { eapply became_trans; [auto|exact B1|]. exact B4. }
    split; auto. split; auto. apply (okpairs_became l o (set_cell o i (c, v)) s s2); auto. apply okpairs_set; auto. split; auto.
Qed.
Lemma shift_up_pairs_gives : forall n e F s this l b o, INV e F s -> firm s this l -> obj l s = Some o -> h_view o = None -> h_ty o = HPair -> okpairs s o ->
  b + n < h_size o -> h_size o <= length (h_cells o) ->
  exists s' o', shift_up_pairs this n (Z.of_nat (b + n)) s = ROk tt s' /\ INV e F s' /\ became l o' s s' /\ firm s' this l /\ okpairs s' o' /\ alike o o' /\
    forall k, nth_error (h_cells o') k = if (b <? k)%nat && (k <=? b + n)%nat then nth_error (h_cells o) (k - 1) else nth_error (h_cells o) k.
Proof.
  induction n as [|n IH]; intros e F s this l b o I Fm O V T Ok L C.
  - exists s, o. split; [reflexivity|]. split; auto. split; [apply became_refl; auto|]. split; auto. split; auto. split; [apply alike_refl|].
    intros k. destruct (Nat.ltb_spec b k); destruct (Nat.leb_spec k (b + 0)); simpl; auto. lia.
  - destruct (ne_some _ (h_cells o) (b + n)) as [[c v] N]; [lia|].
    destruct (pair_move e F s this l (b + S n) (b + n) o c v I Fm O V T Ok) as (s1 & E1 & I1 & B1 & Fm1 & Ok1); auto; try lia.
    destruct (IH e F s1 this l b (set_cell o (b + S n) (c, v))) as (s' & o' & E2 & I2 & B2 & Fm2 & Ok2 & Al & H); auto.
    + apply B1.
    + simpl. lia.
    + simpl. rewrite sn_length. lia.
    + exists s', o'. split; [|split; [auto|split; [|split; [auto|split; [auto|split]]]]].
      * change (shift_up_pairs this (S n) (Z.of_nat (b + S n))) with
          (let! src := key_ptr this (Z.of_nat (b + S n) - 1) in let! x := copy_of src in
           scoped x (fun p => let! dst := key_ptr this (Z.of_nat (b + S n)) in assign_plain dst p) ;;
           let! x := at_int this (Z.of_nat (b + S n) - 1) in set_at this (Z.of_nat (b + S n)) x ;; shift_up_pairs this n (Z.of_nat (b + S n) - 1)).
        replace (Z.of_nat (b + S n) - 1)%Z with (Z.of_nat (b + n)) by lia. rewrite E1. exact E2.
      * eapply became_trans; eauto. eapply obj_lt; eauto.
      * eapply alike_trans; [|exact Al]. unfold alike; simpl. rewrite sn_length. auto.
      * intros k. rewrite H. simpl.
        destruct (Nat.ltb_spec b k); destruct (Nat.leb_spec k (b + n)); destruct (Nat.leb_spec k (b + S n)); simpl; try lia; rewrite ?sn_other by lia; auto.
        assert (k = b + S n) as -> by lia. rewrite sn_same by lia. replace (b + S n - 1) with (b + n) by lia. auto.
Qed.

(** * Inserting a key *)
Lemma clear_became : forall e F s this l i o c old, INV e F s -> firm s this l -> obj l s = Some o -> h_view o = None -> h_ty o = HPair -> okpairs s o ->
  nth_error (h_cells o) i = Some (c, old) ->
  exists s', (let! r := at_int this (Z.of_nat i) in scoped r (fun r => clear r)) s = ROk tt s' /\ INV e F s' /\ became l (set_cell o i (c, MNil)) s s' /\ firm s' this l.
Proof.
  intros e F s this l i o c old I Fm O V T Ok N. pose proof (obj_lt _ _ _ O) as Ll. pose proof (INV_sound _ _ _ I) as Sd.
  pose proof (at_int_ptr _ _ _ (Z.of_nat i) Sd (proj1 Fm) (Nat2Z.is_nonneg _)) as A. rewrite Nat2Z.id in A.
  rewrite (bind_ok _ _ _ _ _ _ _ A). change (bump (MPtr l) s) with (bump (MRef l i) s). set (s1 := bump (MRef l i) s).
  assert (I1 : INV e (MRef l i :: F) s1) by (apply INV_bump; auto; apply (held_ptr this); auto; apply Fm).
  set (s2 := push_s (MRef l i) s1). assert (I2 : INV e F s2) by (apply INV_push; auto).
  set (s3 := push_s MNil s2). assert (I3 : INV e F s3) by (apply INV_push; apply (INV_bump e F s2 MNil); auto; intros ? ?; discriminate).
  destruct (Ok _ _ N) as (_ & _ & A3 & A4). simpl in A3, A4.
  destruct (store_gives e F s3 (length (stk s1)) (length (stk s2)) l i o c old MNil MNil) as (s4 & E4 & I4 & Sh4); auto.
  - unfold s3, s2. simpl. rewrite nth_error_app1 by (rewrite app_length; simpl; lia). rewrite nth_error_app2, Nat.sub_diag by auto. reflexivity.
  - unfold s3. apply getv_push_new.
  - intros _. split; auto. split; [|discriminate]. unfold s3, s2, s1. apply not_view_push, not_view_push, not_view_bump; auto.
  - rewrite T. split; [reflexivity|intros ? ? ?; discriminate].
  - unfold s3 in Sh4. rewrite putv_push in Sh4 by (simpl; auto).
    destruct (scoped_gives _ MNil (fun p => assign (LS (length (stk s1))) p) e F s2 tt s4 MNil (putv (LC l (h_gen o) i) MNil s2)) as (s5 & E5 & I5 & Sh5); auto.
    { apply putv_stk_length. }
    unfold s2 in Sh5. rewrite putv_push in Sh5 by (simpl; auto).
    destruct (scoped_gives _ (MRef l i) (fun r => clear r) e F s1 tt s5 (MRef l i) (putv (LC l (h_gen o) i) MNil s1)) as (s6 & E6 & I6 & Sh6); auto.
    { apply putv_stk_length. }
    exists s6. split; auto. split; auto. apply (firm_shrunk e F); auto. rewrite <- (set_cell_putv o i c old l (h_gen o)) by auto.
    eapply shrunk_trans; [|exact Sh6]. apply shrunk_putv, shrunk_bump.
Qed.
Lemma grown_cells : forall n o o' k, grown n o o' -> h_ty o = HPair -> k < length (h_cells o') ->
  nth_error (h_cells o') k = if (k <? length (h_cells o))%nat then nth_error (h_cells o) k else Some (MNil, MNil).
Proof.
  intros n o o' k (T & V & Sz & L & m & E) P K. rewrite E in *. rewrite P in *. unfold terminate in *. simpl is_char in *. cbv iota in *.
  destruct (Nat.ltb_spec k (length (h_cells o))); [apply nth_error_app1; auto|]. rewrite nth_error_app2 by auto. rewrite app_length, repeat_length in K.
  rewrite nth_error_repeat by lia. reflexivity.
Qed.
Lemma insert_pair_gives : forall e s this l q x y o idx, INV e [] s -> firm s this l -> nth_error (stk s) q = Some x ->
  obj l s = Some o -> h_view o = None -> h_ty o = HPair -> okpairs s o -> h_size o <= length (h_cells o) -> idx <= h_size o ->
  (Z.of_nat (h_size o) + 1 < 2 ^ 30)%Z -> denotes s x y -> (forall i, x <> MRef l i) -> not_view s y ->
  exists s' o', insert this (LS q) (Z.of_nat idx) s = ROk tt s' /\ INV e [] s' /\ became l o' s s' /\ firm s' this l /\ okpairs s' o' /\
    h_ty o' = HPair /\ h_view o' = None /\ h_size o' = S (h_size o) /\ S (h_size o) <= length (h_cells o') /\
    forall k, k < S (h_size o) -> nth_error (h_cells o') k =
      if (k <? idx)%nat then nth_error (h_cells o) k else if (k =? idx)%nat then Some (y, MNil) else nth_error (h_cells o) (k - 1).
Proof.
  intros e s this l q x y o idx I Fm Nq O V T Ok C Li Sm D X Nv. set (n := h_size o) in *. pose proof (obj_lt _ _ _ O) as Ll. pose proof (INV_sound _ _ _ I) as Sd.
  (* resize *)
  destruct (heap_resize_gives e [] s l (S n) o I O) as (o1 & R & I1 & G); [lia|]. set (s1 := set_mem l o1 s) in *.
  pose proof G as (T1 & V1 & Z1 & C1 & _). rewrite T in T1, C1. rewrite V in V1. simpl in C1. rewrite Nat.add_0_r in C1.
  destruct (firm_shrunk e [] s s1 this l o1 Fm Ll (shrunk_refl _) I1) as [B1 Fm1]. assert (O1 : obj l s1 = Some o1) by apply B1.
  assert (Ok1 : okpairs s1 o1).
  { intros k c N. rewrite (grown_cells (S n) o o1 k G T) in N by (eapply ne_lt; eauto). destruct (_ <? _)%nat.
    - apply (okpair_became l o o1 s s1); auto. eapply Ok; eauto.
    - inversion N; subst. repeat split; try (intros ? ? ?; discriminate). }
  (* shift *)
  destruct (shift_up_pairs_gives (n - idx) e [] s1 this l idx o1 I1 Fm1 O1 V1 T1 Ok1) as (s2 & o2 & E2 & I2 & B2 & Fm2 & Ok2 & Al & H2); [lia|lia|].
  destruct Al as (T2 & Z2 & _ & V2 & L2). rewrite T1 in T2. rewrite V1 in V2. rewrite Z1 in Z2.
  assert (O2 : obj l s2 = Some o2) by apply B2. pose proof (INV_sound _ _ _ I2) as Sd2.
  assert (B02 : became l o2 s s2) by (eapply became_trans; eauto).
  assert (Nq2 : nth_error (stk s2) q = Some x) by (rewrite (became_stk _ _ _ _ B02); auto).
  assert (D2 : denotes s2 x y).
  { apply (denotes_keep s); auto. intros l' i' o' -> O' L'. exists o'. split; [|auto].
    eapply (became_held_other e [] l o2 s s2 q (MRef l' i') l' o'); eauto. congruence. }
  destruct (denotes_der _ _ _ D2) as [D2' Ny].
  assert (Nv2 : not_view s2 y) by (apply (not_view_became l o o2 s s2); auto).
  (* the key *)
  destruct (ne_some _ (h_cells o2) idx) as [[c old] N2]; [lia|].
  assert (Hx : held x s2) by (apply (getv_held (LS q)); auto).
  destruct (set_key_became e [] (bump x s2) this l idx o2 c old x y) as (s3 & E3 & I3 & B3 & Fm3); auto.
  { apply INV_bump; auto. } { apply firm_bump; auto. } { rewrite obj_bump; auto. } { apply okpairs_bump; auto. } { lia. } { apply der_bump; auto. }
  set (o3 := set_cell o2 idx (y, old)) in *.
  assert (B23 : became l o3 s2 s3). { destruct B3 as [Sh Ob]. split; auto. eapply shrunk_trans; [|exact Sh]. apply shrunk_set_mem; [apply shrunk_bump|]. rewrite (became_len _ _ _ _ B02). auto. }
  assert (B03 : became l o3 s s3) by (eapply became_trans; eauto).
  assert (O3 : obj l s3 = Some o3) by apply B3.
  assert (Ok3 : okpairs s3 o3).
  { apply (okpairs_became l o2 o3 s2 s3); auto. apply okpairs_set; auto. destruct (Ok2 _ _ N2) as (P1 & P2 & P3 & P4). repeat (split; auto). }
  assert (N3 : nth_error (h_cells o3) idx = Some (y, old)) by (simpl; apply sn_same; eapply ne_lt; eauto).
  destruct (clear_became e [] s3 this l idx o3 y old I3 Fm3 O3 V2 T2 Ok3 N3) as (s4 & E4 & I4 & B4 & Fm4).
  assert (Eo : set_cell o3 idx (y, MNil) = set_cell o2 idx (y, MNil)) by (unfold o3, set_cell; simpl; rewrite sn_twice; reflexivity).
  rewrite Eo in B4. set (o4 := set_cell o2 idx (y, MNil)) in B4.
  assert (B04 : became l o4 s s4) by (eapply became_trans; eauto).
  exists s4, o4. split; [|split; [auto|split; [auto|split; [auto|split; [|split; [auto|split; [auto|split; [simpl; lia|split; [simpl; rewrite sn_length; lia|]]]]]]]]].
  - unfold insert. rewrite (bind_ok _ _ _ _ _ _ _ (ptr_size s this l (proj1 Fm) o O V)). fold n.
    destruct (Z.ltb_spec (Z.of_nat n) (Z.of_nat idx)); [lia|].
    rewrite (bind_ok _ _ _ _ _ _ _ (ptr_is_array s this l (proj1 Fm) o 8 O V)). rewrite T. change (hcode HPair =? 8)%Z with false. cbv iota.
    rewrite (bind_ok _ _ _ _ _ _ _ (ptr_is_array s this l (proj1 Fm) o 9 O V)). rewrite T. change (hcode HPair =? 9)%Z with true. cbv iota.
    rewrite (bind_ok _ _ _ _ _ _ _ (ptr_size s this l (proj1 Fm) o O V)). fold n.
    assert (Er : resize this (Z.of_nat n + 1) s = ROk tt s1).
    { rewrite (ptr_resize s this l (proj1 Fm)) by lia. replace (Z.to_nat (Z.of_nat n + 1)) with (S n) by lia. exact R. }
    rewrite (bind_ok _ _ _ _ _ _ _ Er).
    rewrite (bind_ok _ _ _ _ _ _ _ (ptr_size s1 this l (proj1 Fm1) o1 O1 V1)). rewrite Z1.
    replace (Z.to_nat (Z.of_nat (S n) - 1 - Z.of_nat idx)) with (n - idx) by lia. replace (Z.of_nat (S n) - 1)%Z with (Z.of_nat (idx + (n - idx))) by lia.
    rewrite (bind_ok _ _ _ _ _ _ _ E2). rewrite (bind_ok _ _ _ _ _ _ _ (copy_of_eq (LS q) s2 x Sd2 Nq2)).
    rewrite (bind_ok _ _ _ _ _ _ _ E3). exact E4.
  - assert (Ok4 : okpairs s4 o4); [|exact Ok4]. apply (okpairs_became l o3 o4 s3 s4 o4 O3 V2 B4). unfold o4. rewrite <- Eo. apply okpairs_set; auto.
    destruct (Ok3 _ _ N3) as (P1 & P2 & _). split; auto. split; auto. split; [intros ? ? ?; discriminate|]. intros ? ? ?; discriminate.
  - intros k K. unfold o4. simpl. destruct (Nat.eqb_spec k idx) as [->|Dk].
    + rewrite Nat.ltb_irrefl. apply sn_same. eapply ne_lt; eauto.
    + rewrite sn_other by auto. rewrite H2. replace (idx + (n - idx)) with n by lia.
      destruct (Nat.ltb_spec k idx); destruct (Nat.ltb_spec idx k); destruct (Nat.leb_spec k n); simpl; try lia;
        rewrite (grown_cells (S n) o o1 _ G T) by lia; (destruct (Nat.ltb_spec k (length (h_cells o))) || destruct (Nat.ltb_spec (k - 1) (length (h_cells o)))); try lia; auto.
      all: destruct (Nat.ltb_spec (k - 1) (length (h_cells o))); try lia; auto.
Qed.
