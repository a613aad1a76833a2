(** Results of the element operations: what is stored where.  The state after an operation is
    described as a function of the state before, up to counts and arrays given up. *)
From Coq Require Import ZArith Bool List String Lia.
From Verif Require Import Base StrModel ValModel NumModel AllocModel AllocProof MemModel MemProof MemFun MemEq MemDeref MemTriple MemOps MemArr.
Import ListNotations.
Local Open Scope list_scope.
Local Open Scope mem_scope.
Local Notation length := List.length.

Lemma bind_ok : forall A B (m : M A) (f : A -> M B) s a s', m s = ROk a s' -> bind m f s = f a s'.
Proof. intros. unfold bind. rewrite H. reflexivity. Qed.
Lemma bind_throw : forall A B (m : M A) (f : A -> M B) s e s', m s = RThrow e s' -> bind m f s = RThrow e s'.
Proof. intros. unfold bind. rewrite H. reflexivity. Qed.

(** * Equal up to counts and arrays given up *)
Definition shrunk (a b : state) : Prop :=
  stk b = stk a /\ length (mem b) = length (mem a) /\ forall k o, obj k b = Some o -> obj k a = Some o.
Lemma shrunk_refl : forall a, shrunk a a. Proof. unfold shrunk; auto. Qed.
Lemma shrunk_trans : forall a b c, shrunk a b -> shrunk b c -> shrunk a c.
Proof. intros a b c (A & B & C) (A' & B' & C'). unfold shrunk. repeat split; try congruence. auto. Qed.
Lemma shrunk_bump : forall v s, shrunk s (bump v s).
Proof. intros. unfold shrunk. rewrite bump_stk, bump_mem. repeat split; auto. intros k o. rewrite obj_bump. auto. Qed.
Lemma shrunk_drop : forall v s, shrunk s (drop v s).
Proof. intros. unfold shrunk. rewrite drop_stk, drop_mem. repeat split; auto. intros k o. rewrite obj_drop. auto. Qed.
Lemma shrunk_push : forall v a b, shrunk a b -> shrunk (push_s v a) (push_s v b).
Proof. intros v a b (A & B & C). unfold shrunk. simpl. rewrite A. repeat split; auto. Qed.
Lemma shrunk_set_mem : forall l o a b, shrunk a b -> l < length (mem a) -> shrunk (set_mem l o a) (set_mem l o b).
Proof.
  intros l o a b (A & B & C) L. unfold shrunk. simpl. rewrite !sn_length. repeat split; auto.
  intros k o'. rewrite !obj_set_mem by lia. destruct (Nat.eqb l k); auto.
Qed.
Lemma shrunk_putv : forall v x a b, shrunk a b -> shrunk (putv v x a) (putv v x b).
Proof.
  intros v x a b (A & B & C). unfold shrunk. rewrite !putv_mem_length. split; [|split; auto].
  - destruct v; simpl; rewrite ?put_cell_stk; congruence.
  - intros k o. destruct v as [i|l g i|l g i]; simpl; [apply C| |].
    + rewrite !obj_put_cell. destruct (obj k b) as [o1|] eqn:O; [|discriminate]. rewrite (C _ _ O). auto.
    + rewrite !obj_put_cell. destruct (obj k b) as [o1|] eqn:O; [|discriminate]. rewrite (C _ _ O). auto.
Qed.
Lemma fp_nothing_shrunk : forall s s', gone s s' -> stk s' = stk s -> length (mem s') = length (mem s) -> shrunk s s'.
Proof.
  intros s s' P S L. unfold shrunk. repeat split; auto. intros k o O. apply obj_live, P, obj_live. auto.
Qed.
Lemma release_INV : forall v e F s, INV e (v :: F) s -> exists s', release [v] s = ROk tt s' /\ INV e F s' /\ shrunk s s'.
Proof.
  intros v e F s (I & T & E). destruct (release_ok [v] e F s I) as (s' & R & I' & P & S & L).
  exists s'. split; auto. assert (Sh : shrunk s s') by (apply fp_nothing_shrunk; auto). split; auto. split; auto. split.
  - intros k o O. apply (T k). apply Sh. auto.
  - rewrite L. auto.
Qed.
(** What the stack holds is there after the shrinking. *)
Lemma shrunk_obj : forall e F a b j v k o, shrunk a b -> INV e F b -> nth_error (stk a) j = Some v -> target v = Some k ->
  obj k a = Some o -> obj k b = Some o.
Proof.
  intros e F a b j v k o (A & B & C) (I & _) N T O.
  assert (L : live k b) by (eapply inv_stk; eauto; rewrite A; eapply nth_error_In; eauto).
  apply live_obj in L as [o' O']. rewrite O'. rewrite (C _ _ O') in O. congruence.
Qed.
Lemma shrunk_obj_flight : forall e F a b v k o, shrunk a b -> INV e F b -> In v F -> target v = Some k ->
  obj k a = Some o -> obj k b = Some o.
Proof.
  intros e F a b v k o (A & B & C) (I & _) N T O.
  assert (L : live k b) by (eapply inv_flight; eauto).
  apply live_obj in L as [o' O']. rewrite O'. rewrite (C _ _ O') in O. congruence.
Qed.

(** A scope whose body leaves the new slot in place. *)
Lemma stk_push_inv : forall s v s1, stk s1 = stk s ++ [v] -> s1 = push_s v {| mem := mem s1; rc := rc s1; stk := stk s |}.
Proof. intros s v s1 E. destruct s1; unfold push_s; simpl in *. congruence. Qed.
Lemma scoped_gives : forall A v (body : lval -> M A) e F s a s1 v' t,
  body (LS (length (stk s))) (push_s v s) = ROk a s1 ->
  INV e F s1 -> shrunk (push_s v' t) s1 -> length (stk t) = length (stk s) ->
  exists s2, scoped v body s = ROk a s2 /\ INV e F s2 /\ shrunk t s2.
Proof.
  intros A v body e F s a s1 v' t B I Sh L. pose proof Sh as (St & Lm & Ob). simpl in St.
  pose proof (stk_push_inv t v' s1 St) as E. set (s1' := {| mem := mem s1; rc := rc s1; stk := stk t |}) in *.
  rewrite E in I. apply INV_push in I. destruct (release_INV _ _ _ _ I) as (s2 & R & I2 & Sh2).
  exists s2. split; [|split; auto].
  - eapply scoped_ok with (v' := v') (s1 := s1'); [rewrite <- E; exact B|simpl; auto|exact R].
  - eapply shrunk_trans; [|exact Sh2]. unfold shrunk. simpl. repeat split; auto.
Qed.
Lemma scoped_gives_throw : forall A v (body : lval -> M A) e F s m s1 v' t,
  body (LS (length (stk s))) (push_s v s) = RThrow m s1 ->
  INV e F s1 -> shrunk (push_s v' t) s1 -> length (stk t) = length (stk s) ->
  exists s2, scoped v body s = RThrow m s2 /\ INV e F s2 /\ shrunk t s2.
Proof.
  intros A v body e F s m s1 v' t B I Sh L. pose proof Sh as (St & Lm & Ob). simpl in St.
  pose proof (stk_push_inv t v' s1 St) as E. set (s1' := {| mem := mem s1; rc := rc s1; stk := stk t |}) in *.
  rewrite E in I. apply INV_push in I. destruct (release_INV _ _ _ _ I) as (s2 & R & I2 & Sh2).
  exists s2. split; [|split; auto].
  - eapply scoped_throw with (v' := v') (s1 := s1'); [rewrite <- E; exact B|simpl; auto|exact R].
  - eapply shrunk_trans; [|exact Sh2]. unfold shrunk. simpl. repeat split; auto.
Qed.

(** * What a var denotes *)
Lemma copy_of_eq : forall v s x, sound s -> getv v s = Some x -> copy_of v s = ROk x (bump x s).
Proof.
  intros v s x S G. unfold copy_of. rewrite (bind_ok _ _ _ _ _ _ _ (get_eq _ _ _ G)).
  rewrite (bind_ok _ _ _ _ _ _ _ (attach_eq _ _ (getv_held _ _ _ S G))). reflexivity.
Qed.
Lemma getv_shrunk_LS : forall a b j, shrunk a b -> getv (LS j) b = getv (LS j) a.
Proof. intros a b j (S & _). simpl. rewrite S. reflexivity. Qed.

(** Not a handle on a view. *)
Definition not_view (s : state) (x : mvar) : Prop := forall l o, x = MPtr l -> obj l s = Some o -> h_view o = None.
Lemma copyable_false : forall l s h o, obj l s = Some o -> h_view o = None -> copyable l h s = ROk false s.
Proof. intros l s h o O V. unfold copyable. rewrite (bind_ok _ _ _ _ _ _ _ (get_obj_eq _ _ _ O)). rewrite V. reflexivity. Qed.


Lemma putv_obj_other : forall this x s k o, obj k s = Some o -> tl this s -> varlike (h_ty o) = false ->
  obj k (putv this x s) = Some o.
Proof.
  intros this x s k o O T V. destruct this as [i|l g i|l g i]; simpl; auto; rewrite obj_put_cell, O;
    (destruct (Nat.eqb_spec l k); auto; subst; destruct T as [_ T]; rewrite (T o O) in V; discriminate).
Qed.
(** The element that is read: directly or through a view. *)
Definition elem_spec (l : nat) (i : Z) (s : state) (t : nat) (j : Z) : Prop :=
  exists o, obj l s = Some o /\
  match h_view o with
  | None => t = l /\ j = i
  | Some t' => t' = t /\ exists k z, nth_error (h_cells o) 0 = Some (k, MNum (VInt z)) /\ j = (i + z)%Z
  end.
Definition rd_spec (l : nat) (i : Z) (s : state) (y : mvar) : Prop :=
  exists t j ot k, elem_spec l i s t j /\ (0 <= j)%Z /\ obj t s = Some ot /\ varlike (h_ty ot) = false /\
  nth_error (h_cells ot) (Z.to_nat j) = Some (k, y) /\ y <> MJunk.
Lemma elem_at_inv : forall l i s t j s', elem_at l i s = ROk (t, j) s' -> s' = s /\ exists z, elem_spec l i s t z /\ (0 <= z)%Z /\ j = Z.to_nat z.
Proof.
  intros l i s t j s'. unfold elem_at, bind, get_obj, ret, ub, own_int, elem_spec, obj.
  destruct (nth_error (mem s) l) as [[o|]|]; try discriminate. destruct (h_view o) as [t'|] eqn:V.
  - destruct (nth_error (h_cells o) 0) as [[a b]|] eqn:N; [|discriminate]. destruct b as [|b|b|? ?| |]; try discriminate.
    destruct b as [|z|z|z|z|z|? ?|?|? ? ?]; try discriminate. destruct (Z.ltb_spec (i + z) 0); [discriminate|].
    intros H1; inversion H1; subst. split; auto. exists (i + z)%Z. split; [|auto]. exists o. split; auto. rewrite V. split; auto. rewrite N. eauto.
  - destruct (Z.ltb_spec i 0); [discriminate|]. intros H1; inversion H1; subst. split; auto. exists i. split; [|auto]. exists o. rewrite V. auto.
Qed.
Lemma elem_at_eq : forall l i s t j, elem_spec l i s t j -> (0 <= j)%Z -> elem_at l i s = ROk (t, Z.to_nat j) s.
Proof.
  intros l i s t j (o & O & H) P. unfold elem_at. rewrite (bind_ok _ _ _ _ _ _ _ (get_obj_eq _ _ _ O)).
  destruct (h_view o) as [t'|].
  - destruct H as [-> (k & z & N & ->)]. unfold bind, own_int. rewrite N. simpl. destruct (Z.ltb_spec (i + z) 0); [lia|reflexivity].
  - destruct H as [-> ->]. unfold bind. simpl. destruct (Z.ltb_spec i 0); [lia|reflexivity].
Qed.
Lemma read_elem_inv : forall l i s y s', read_elem l i s = ROk y s' -> s' = s /\ rd_spec l i s y.
Proof.
  intros l i s y s'. unfold read_elem, bind at 1. destruct (elem_at l i s) as [[t j] s1| | |] eqn:E; try discriminate.
  apply elem_at_inv in E as [-> (z & Sp & P & ->)]. unfold bind, get_obj.
  destruct (nth_error (mem s) t) as [[ot|]|] eqn:Ot; try discriminate.
  destruct (nth_error (h_cells ot) (Z.to_nat z)) as [[k x]|] eqn:N; [|discriminate]. destruct (varlike (h_ty ot)) eqn:V.
  - destruct x; discriminate.
  - intros H. assert (Q : s' = s /\ y = x /\ x <> MJunk) by (destruct x; inversion H; repeat split; discriminate).
    destruct Q as (-> & -> & Q). split; auto. exists t, z, ot, k. split; auto. split; auto. split; [apply obj_live; auto|]. auto.
Qed.
Lemma read_elem_eq : forall l i s y, rd_spec l i s y -> read_elem l i s = ROk y s.
Proof.
  intros l i s y (t & j & ot & k & E & P & O & V & N & J). unfold read_elem. rewrite (bind_ok _ _ _ _ _ _ _ (elem_at_eq _ _ _ _ _ E P)).
  rewrite (bind_ok _ _ _ _ _ _ _ (get_obj_eq _ _ _ O)). rewrite N, V. destruct y; try reflexivity. congruence.
Qed.
(** Elements of dense arrays, directly or through views, are not touched by writing vars. *)
Lemma read_elem_keep : forall s s1 this x l i y, typed s -> tl this s -> read_elem l i s = ROk y s ->
  shrunk (putv this x s) s1 -> sound s1 -> live l s1 -> read_elem l i s1 = ROk y s1.
Proof.
  intros s s1 this x l i y Ty T R Sh S L. pose proof Sh as (_ & _ & Ob).
  apply read_elem_inv in R as [_ (t & j & ot & k & (o & O & E) & P & Ot & V & N & J)]. apply read_elem_eq.
  assert (Keep : forall n on, obj n s = Some on -> varlike (h_ty on) = false -> live n s1 -> obj n s1 = Some on).
  { intros n on On Vn Ln. apply live_obj in Ln as [o1 O1]. rewrite O1. apply Ob in O1. rewrite (putv_obj_other _ _ _ _ _ On T Vn) in O1. auto. }
  assert (O1 : obj l s1 = Some o).
  { apply Keep; auto. destruct (h_view o) eqn:Vw; [rewrite (proj2 (Ty _ _ O)) by congruence; reflexivity|].
    destruct E as [E1 E2]. subst. congruence. }
  assert (Lt : live t s1).
  { destruct (h_view o) eqn:Vw; [destruct E as [-> _]; eapply view_live; eauto|destruct E as [-> _]; auto]. }
  exists t, j, ot, k. split; [exists o; auto|]. split; auto.
Qed.
(** A slot or, with its array held, a cell. *)
Lemma getv_shrunk : forall e F a b this x, shrunk a b -> INV e F b -> getv this a = Some x ->
  (forall l g i, this = LC l g i \/ this = LK l g i -> exists q v, nth_error (stk a) q = Some v /\ target v = Some l) ->
  getv this b = Some x.
Proof.
  intros e F a b this x Sh I G H. destruct this as [j|l g i|l g i]; simpl in *.
  - destruct Sh as (-> & _). auto.
  - destruct (H l g i) as (q & v & Q & T); [auto|]. destruct (obj l a) as [o|] eqn:O; [|discriminate].
    rewrite (shrunk_obj _ _ _ _ _ _ _ _ Sh I Q T O). auto.
  - destruct (H l g i) as (q & v & Q & T); [auto|]. destruct (obj l a) as [o|] eqn:O; [|discriminate].
    rewrite (shrunk_obj _ _ _ _ _ _ _ _ Sh I Q T O). auto.
Qed.
Lemma lval_eqb_neq : forall v w, lval_eqb v w = false <-> v <> w.
Proof.
  intros v w. destruct (lval_eqb v w) eqn:E; split; intros H; try congruence.
  - exfalso. apply H. destruct v, w; simpl in E; try discriminate; rewrite ?andb_true_iff, ?Nat.eqb_eq in E; intuition congruence.
  - intros ->. destruct w; simpl in E; rewrite ?Nat.eqb_refl in E; discriminate.
Qed.
Lemma der_heap : forall k s x y, nth_error (stk s) k = Some x -> der_spec x s y -> exists h, heap_of (LS k) s = ROk h s.
Proof.
  intros k s x y N D. unfold heap_of. rewrite (bind_ok _ _ _ _ _ _ _ (get_eq (LS k) _ _ N)). unfold bind.
  destruct x as [|z|l|l i| |]; simpl; eauto. destruct D as (o & O & D). unfold bind. rewrite (get_obj_eq _ _ _ O).
  destruct (plain_vars o); [|simpl; eauto]. destruct D as (a & C & Nr). rewrite C. destruct y; simpl; eauto. exfalso. eapply Nr; eauto.
Qed.
Lemma two_holders : forall e F s this k x l, INV e F s -> tl this s -> getv this s = Some x -> target x = Some l ->
  nth_error (stk s) k = Some x -> LS k <> this -> 2 <= rcount l s.
Proof.
  intros e F s this k x l I T G Tx N Ne.
  assert (I2 : INV e (x :: F) (putv this MNil s)) by (apply INV_putv; auto; apply INV_add0; auto).
  destruct I2 as ((L & H) & _). specialize (H l).
  assert (N2 : nth_error (stk (putv this MNil s)) k = Some x).
  { destruct this as [j|? ? ?|? ? ?]; simpl; rewrite ?put_cell_stk; auto. rewrite sn_other; [auto|congruence]. }
  assert (Lv : live l s).
  { eapply inv_stk; [apply I|eapply nth_error_In; eauto|auto]. }
  apply (live_putv this MNil) in Lv as [o O]. rewrite O in H. destruct H as [H _]. rewrite rcount_putv in H. rewrite H.
  unfold tot. simpl. rewrite occ1_same by auto. pose proof (occ_in l x (stk (putv this MNil s)) (nth_error_In _ _ N2) Tx). lia.
Qed.

(** Assignment to something that is not a reference; [y] is what the parameter denotes. *)
Definition no_copying (s : state) (old : mvar) (p : lval) : Prop :=
  (match old with MPtr l => let! h := heap_of p in copyable l h | _ => ret false end) s = ROk false s.
Lemma assign_plain_keeps_gen : forall e F s this k x y old, INV e F s -> tl this s ->
  getv this s = Some old -> nonref old -> no_copying s old (LS k) ->
  nth_error (stk s) k = Some x -> LS k <> this ->
  der_spec x s y -> nonref y -> (forall l i o, x = MRef l i -> obj l s = Some o -> plain_vars o = true -> this <> LC l (h_gen o) i) ->
  (forall s1, INV e F s1 -> shrunk (putv this x s) s1 -> getv this s1 = Some x) ->
  exists s', assign_plain this (LS k) s = ROk tt s' /\ INV e F s' /\ shrunk (putv this y s) s'.
Proof.
  intros e F s this k x y old I T G Nr Cp N Ne D Ny Self Keep. unfold no_copying in Cp.
  pose proof (INV_sound _ _ _ I) as S. pose proof S as (C & _).
  assert (Hx : held x s) by (apply (getv_held (LS k) s x); auto).
  assert (E1 : assign_plain this (LS k) s = (replace this x ;; (let! _ := dereference this in ret tt)) s).
  { unfold assign_plain. rewrite (bind_ok _ _ _ _ _ _ _ (get_eq _ _ _ G)). rewrite (bind_ok _ _ _ _ _ _ _ Cp).
    rewrite (bind_ok _ _ _ _ _ _ _ (get_eq (LS k) _ _ N)). destruct old; try reflexivity. exfalso. eapply Nr; eauto. }
  rewrite E1. unfold bind at 1. rewrite (replace_eq _ _ _ _ G C Hx).
  assert (I1 : INV e (old :: F) (bump x (putv this x s))).
  { rewrite <- putv_bump. apply INV_putv; [apply INV_bump; auto|rewrite getv_bump; auto|].
    eapply (tl_fp nothing); [apply fp_bump|auto]. }
  destruct (release_INV _ _ _ _ I1) as (s1 & R1 & I2 & Sh1). rewrite R1.
  assert (Sh : shrunk (putv this x s) s1) by (eapply shrunk_trans; [apply shrunk_bump|exact Sh1]).
  assert (G1 : getv this s1 = Some x) by (apply Keep; auto).
  assert (N1 : nth_error (stk s1) k = Some x).
  { destruct Sh as (-> & _). destruct this as [j|? ? ?|? ? ?]; simpl; rewrite ?put_cell_stk; auto. rewrite sn_other; [auto|congruence]. }
  assert (T1 : tl this s1).
  { destruct this as [j|l g i|l g i]; simpl; auto.
    - destruct T as [T0 T]. destruct Sh as (_ & Lm & Ob). rewrite Lm, putv_mem_length. split; auto. intros o O. apply Ob in O. simpl in O.
      rewrite obj_put_cell in O. destruct (obj l s) as [o0|] eqn:O0; [|discriminate]. rewrite Nat.eqb_refl in O. specialize (T o0 eq_refl).
      destruct (nth_error (h_cells o0) i); inversion O; subst; auto.
    - destruct T as [T0 T]. destruct Sh as (_ & Lm & Ob). rewrite Lm, putv_mem_length. split; auto. intros o O. apply Ob in O. simpl in O.
      rewrite obj_put_cell in O. destruct (obj l s) as [o0|] eqn:O0; [|discriminate]. rewrite Nat.eqb_refl in O. specialize (T o0 eq_refl).
      destruct (nth_error (h_cells o0) i); inversion O; subst; auto. }
  pose proof (INV_sound _ _ _ I2) as S1. pose proof S1 as (C1 & _).
  (* the result of dereferencing a reference *)
  assert (Fin : forall l i, x = MRef l i -> held y s1 ->
     INV e F (drop (MPtr l) (bump y (putv this y s1))) /\ shrunk (putv this y s) (drop (MPtr l) (bump y (putv this y s1)))) by
    (intros l i -> Hy;
     assert (R2 : 2 <= rcount l s1) by (eapply two_holders; eauto; reflexivity);
     assert (I3 : INV e (MRef l i :: F) (bump y (putv this y s1))) by
       (rewrite <- putv_bump; apply INV_putv; [apply INV_bump; auto|rewrite getv_bump; auto|eapply (tl_fp nothing); [apply fp_bump|auto]]);
     assert (Sd : shared (MRef l i) (bump y (putv this y s1))) by
       (intros k0 T0; inversion T0; subst k0; split; [apply live_bump, live_putv; apply (getv_held this s1 (MRef l i)); auto|];
        rewrite rcount_bump; [rewrite rcount_putv; lia|rewrite putv_rc, putv_mem_length; apply C1|apply held_putv; auto]);
     destruct (release_INV _ _ _ _ I3) as (s2 & Rl & I4 & Sh2); rewrite (release_drop _ _ Sd) in Rl; inversion Rl; subst s2;
     change (drop (MRef l i)) with (drop (MPtr l)) in *; split; [exact I4|];
     eapply shrunk_trans; [|exact Sh2]; eapply shrunk_trans; [|apply shrunk_bump];
     rewrite <- (putv_twice this (MRef l i) y s); apply shrunk_putv; exact Sh).
  unfold bind. destruct x as [|z|l|l i| |]; try (simpl in D; subst y; rewrite (deref_nonref _ _ _ G1) by auto; exists s1; auto).
  destruct D as (o & O & D).
  assert (Ol : exists o', obj l (putv this (MRef l i) s) = Some o' /\ h_gen o' = h_gen o /\ plain_vars o' = plain_vars o).
  { destruct (obj_putv this (MRef l i) s l o O) as (o' & O' & E2 & E3 & E4 & _). exists o'. split; auto. split; auto. unfold plain_vars. rewrite E2, E3. auto. }
  destruct Ol as (o' & O' & Gen & Pl).
  assert (O1 : obj l s1 = Some o').
  { destruct Sh as (St & _ & Ob). assert (L : live l s1) by (apply (getv_held this s1 (MRef l i)); auto). apply live_obj in L as [o1 O1].
    rewrite O1. apply Ob in O1. congruence. }
  destruct (plain_vars o) eqn:P.
  - destruct D as (a & Cl & _). specialize (Self l i o eq_refl O P).
    assert (Gr : getv (LC l (h_gen o) i) s = Some y) by (simpl; rewrite O, Nat.eqb_refl, Cl; reflexivity).
    assert (Gr1 : getv (LC l (h_gen o) i) s1 = Some y).
    { assert (Q : getv (LC l (h_gen o) i) (putv this (MRef l i) s) = Some y).
      { rewrite (getv_putv_other this (LC l (h_gen o) i) _ old); auto; [congruence|]. apply lval_eqb_neq. congruence. }
      simpl in Q |- *. rewrite O1. rewrite O' in Q. exact Q. }
    assert (Hy : held y s1) by (eapply getv_held; eauto).
    erewrite deref_var_eq with (o := o') (x := y); [|exact G1|exact O1|congruence| | | | | |].
    + simpl. eexists. split; [reflexivity|]. eapply Fin; eauto.
    + rewrite Gen. apply lval_eqb_neq. congruence.
    + rewrite Gen. exact Gr1.
    + auto.
    + auto.
    + auto.
    + eapply two_holders; eauto; reflexivity.
  - assert (Rd : read_elem l (Z.of_nat i) s1 = ROk y s1).
    { apply (read_elem_keep s s1 this (MRef l i)); [apply I|exact T|exact D|exact Sh|exact S1|apply live_obj; eauto]. }
    assert (Hy : held y s1).
    { pose proof (rs_read_elem False s1 l (Z.of_nat i) S1) as Q. unfold rs in Q. rewrite Rd in Q. apply Q. apply live_obj. eauto. }
    erewrite deref_dense_eq with (x := y); [|exact G1|exact O1|congruence|exact Rd|auto|auto|].
    + simpl. eexists. split; [reflexivity|]. eapply Fin; eauto.
    + eapply two_holders; eauto; reflexivity.
Qed.
Lemma view_no_copying : forall s this k x y old, sound s -> getv this s = Some old -> not_view s old -> nth_error (stk s) k = Some x -> der_spec x s y -> no_copying s old (LS k).
Proof.
  intros s this k x y old S G NV N D. unfold no_copying. destruct old; try reflexivity. destruct (der_heap _ _ _ _ N D) as (h & Hh). rewrite (bind_ok _ _ _ _ _ _ _ Hh).
  assert (L : live l s) by (apply (getv_held this s (MPtr l)); auto). apply live_obj in L as [o O].
  eapply copyable_false; eauto.
Qed.
Lemma assign_plain_keeps : forall e F s this k x y old, INV e F s -> tl this s ->
  getv this s = Some old -> nonref old -> not_view s old ->
  nth_error (stk s) k = Some x -> LS k <> this ->
  der_spec x s y -> nonref y -> (forall l i o, x = MRef l i -> obj l s = Some o -> plain_vars o = true -> this <> LC l (h_gen o) i) ->
  (forall s1, INV e F s1 -> shrunk (putv this x s) s1 -> getv this s1 = Some x) ->
  exists s', assign_plain this (LS k) s = ROk tt s' /\ INV e F s' /\ shrunk (putv this y s) s'.
Proof. intros e F s this k x y old I T G Nr NV N Ne D Ny Self Keep. eapply assign_plain_keeps_gen; eauto. eapply view_no_copying; eauto. Qed.
Lemma assign_plain_gives : forall e F s this k x y old, INV e F s -> tl this s ->
  getv this s = Some old -> nonref old -> not_view s old ->
  nth_error (stk s) k = Some x -> LS k <> this ->
  der_spec x s y -> nonref y -> (forall l i o, x = MRef l i -> obj l s = Some o -> plain_vars o = true -> this <> LC l (h_gen o) i) ->
  (forall l g i, this = LC l g i \/ this = LK l g i -> exists q v, nth_error (stk s) q = Some v /\ target v = Some l) ->
  exists s', assign_plain this (LS k) s = ROk tt s' /\ INV e F s' /\ shrunk (putv this y s) s'.
Proof.
  intros e F s this k x y old I T G Nr NV N Ne D Ny Self Held. eapply assign_plain_keeps; eauto. intros s1 I2 Sh.
  eapply getv_shrunk; [exact Sh|exact I2|eapply getv_putv_same; eauto|]. intros l g i H. destruct (Held l g i H) as (q & v & Q & Tv).
  exists q, v. split; auto. destruct H as [-> | ->]; simpl; rewrite put_cell_stk; auto.
Qed.

(** * Storing an element *)
Lemma der_bump : forall w x s y, der_spec x s y -> der_spec x (bump w s) y.
Proof.
  intros w x s y D. destruct x; auto. destruct D as (o & O & D). exists o. rewrite obj_bump. split; auto.
  destruct (plain_vars o); auto. rewrite read_elem_bump, D. reflexivity.
Qed.
Lemma der_push : forall w x s y, der_spec x s y -> der_spec x (push_s w s) y.
Proof.
  intros w x s y D. destruct x; auto. destruct D as (o & O & D). exists o. rewrite obj_push. split; auto.
  destruct (plain_vars o); auto. rewrite read_elem_push, D. reflexivity.
Qed.
Lemma not_view_bump : forall w x s, not_view s x -> not_view (bump w s) x.
Proof. intros w x s H l o E O. rewrite obj_bump in O. eauto. Qed.
Lemma not_view_push : forall w x s, not_view s x -> not_view (push_s w s) x.
Proof. intros w x s H l o E O. rewrite obj_push in O. eauto. Qed.
Lemma value_num : forall v s, value (MNum v) s = ROk v s. Proof. reflexivity. Qed.
Lemma cast_var_eq : forall t p s x v, getv p s = Some x -> der_spec x s (MNum v) -> cast_var t p s = lift (cast t v) s.
Proof.
  intros t p s x v G D. unfold cast_var. rewrite (bind_ok _ _ _ _ _ _ _ (get_eq _ _ _ G)).
  destruct x as [|z|l|l i| |]; try discriminate D.
  - inversion D; subst. reflexivity.
  - destruct D as (o & O & D). destruct (plain_vars o) eqn:P.
    + destruct D as (k & N & _). unfold bind at 1. unfold eff. rewrite (bind_ok _ _ _ _ _ _ _ (get_obj_eq _ _ _ O)). rewrite P, N. reflexivity.
    + assert (E : eff (MRef l i) s = ROk (MRef l i) s) by (unfold eff; rewrite (bind_ok _ _ _ _ _ _ _ (get_obj_eq _ _ _ O)); rewrite P; reflexivity).
      rewrite (bind_ok _ _ _ _ _ _ _ E). unfold value.
      assert (Rv : forall n, read_val (S n) (MRef l i) s = ROk v s).
      { intros n. simpl. rewrite (bind_ok _ _ _ _ _ _ _ E). rewrite (bind_ok _ _ _ _ _ _ _ D). reflexivity. }
      unfold bind. rewrite Rv. reflexivity.
Qed.
(** What is stored in an array of type [t] for the value [x]. *)
Definition conv (s : state) (t : hty) (x y : mvar) : Prop :=
  match t with
  | HE TVar | HPair => der_spec x s y /\ nonref y
  | HE t => exists v u, der_spec x s (MNum v) /\ cast t v = Ok u /\ y = MNum u
  end.
Lemma conv_bump : forall w s t x y, conv s t x y -> conv (bump w s) t x y.
Proof. intros w s [[]|] x y; simpl; try (intros (v & u & D & C); exists v, u; split; auto; apply der_bump; auto); intros [D N]; split; auto; apply der_bump; auto. Qed.
Lemma conv_push : forall w s t x y, conv s t x y -> conv (push_s w s) t x y.
Proof. intros w s [[]|] x y; simpl; try (intros (v & u & D & C); exists v, u; split; auto; apply der_push; auto); intros [D N]; split; auto; apply der_push; auto. Qed.
(** The cell can be overwritten by an assignment of [x]. *)
Definition storable (s : state) (o : hobj) (l i : nat) (x old : mvar) : Prop :=
  varlike (h_ty o) = true -> nonref old /\ not_view s old /\ x <> MRef l i.
Lemma obj_type_plain : forall o s, h_view o = None -> obj_type o s = ROk (h_ty o) s.
Proof. intros o s V. unfold obj_type. rewrite V. reflexivity. Qed.
Lemma set_dense_INV : forall e F s l o i k old u, INV e F s -> obj l s = Some o -> varlike (h_ty o) = false ->
  nth_error (h_cells o) i = Some (k, old) -> INV e F (set_mem l (set_cells o (set_nth (h_cells o) i (k, MNum u))) s).
Proof.
  intros e F s l o i k old u I O V N. pose proof I as (_ & Ty & _). pose proof (Ty _ _ O) as D.
  destruct (dense_set o i k (MNum u) D eq_refl) as [D1 D2]; eauto.
  eapply INV_set_mem; eauto. intros n. rewrite !occ_contents. simpl. rewrite D2, (proj1 D) by auto. reflexivity.
Qed.
Lemma putv_cell_eq : forall l g i x s o k old, obj l s = Some o -> nth_error (h_cells o) i = Some (k, old) ->
  putv (LC l g i) x s = set_mem l (set_cells o (set_nth (h_cells o) i (k, x))) s.
Proof. intros. simpl. unfold put_cell. rewrite H, H0. reflexivity. Qed.
Lemma store_gives : forall e F s r p l i o k old x y, INV e F s ->
  nth_error (stk s) r = Some (MRef l i) -> nth_error (stk s) p = Some x ->
  obj l s = Some o -> h_view o = None -> nth_error (h_cells o) i = Some (k, old) ->
  storable s o l i x old -> conv s (h_ty o) x y ->
  exists s', assign (LS r) (LS p) s = ROk tt s' /\ INV e F s' /\ shrunk (putv (LC l (h_gen o) i) y s) s'.
Proof.
  intros e F s r p l i o k old x y I Nr Np O V N St Cv.
  pose proof (INV_sound _ _ _ I) as S.
  unfold assign. rewrite (bind_ok _ _ _ _ _ _ _ (get_eq (LS r) _ _ Nr)). rewrite (bind_ok _ _ _ _ _ _ _ (get_obj_eq _ _ _ O)).
  rewrite (bind_ok _ _ _ _ _ _ _ (obj_type_plain _ _ V)).
  assert (Var : varlike (h_ty o) = true -> der_spec x s y /\ nonref y -> exists s', (if plain_vars o then let! x := copy_of (LS p) in scoped x (fun p' => assign_plain (LC l (h_gen o) i) p') else stuck) s = ROk tt s' /\
     INV e F s' /\ shrunk (putv (LC l (h_gen o) i) y s) s').
  { intros Vl [D Ny]. destruct (St Vl) as (S1 & S2 & S3). assert (P : plain_vars o = true) by (unfold plain_vars; rewrite V; auto). rewrite P.
    rewrite (bind_ok _ _ _ _ _ _ _ (copy_of_eq (LS p) s x S Np)).
    assert (Hx : held x s) by (apply (getv_held (LS p) s x); auto).
    set (s0 := bump x s). assert (Es : stk s0 = stk s) by apply bump_stk.
    assert (I0 : INV e F (push_s x s0)) by (apply INV_push; apply INV_bump; auto).
    destruct (assign_plain_gives e F (push_s x s0) (LC l (h_gen o) i) (length (stk s0)) x y old) as (s1 & A & I1 & Sh1); auto.
    - simpl. split; [unfold s0; rewrite bump_mem; eapply obj_lt; eauto|]. intros o'. unfold s0. rewrite obj_push, obj_bump. congruence.
    - simpl. unfold s0. rewrite obj_push, obj_bump, O, Nat.eqb_refl, N. reflexivity.
    - apply not_view_push, not_view_bump; auto.
    - apply getv_push_new.
    - discriminate.
    - apply der_push, der_bump; auto.
    - intros l0 i0 o0 E O0 P0 E2. unfold s0 in O0. rewrite obj_push, obj_bump in O0. inversion E2; subst. congruence.
    - intros l0 g0 i0 [E|E]; inversion E; subst. exists r, (MRef l0 i0). split; auto. simpl. rewrite Es. rewrite nth_error_app1; auto. eapply ne_lt; eauto.
    - assert (E3 : putv (LC l (h_gen o) i) y (push_s x s0) = push_s x (putv (LC l (h_gen o) i) y s0)) by (apply putv_push; simpl; auto).
      rewrite E3 in Sh1.
      destruct (scoped_gives _ x (fun p' => assign_plain (LC l (h_gen o) i) p') e F s0 tt s1 x (putv (LC l (h_gen o) i) y s0)) as (s2 & B & I2 & Sh2); auto.
      + rewrite putv_stk_length. auto.
      + exists s2. split; auto. split; auto. eapply shrunk_trans; [|exact Sh2]. apply shrunk_putv. apply shrunk_bump. }
  assert (Den : forall t, h_ty o = HE t -> varlike (HE t) = false -> (exists v u, der_spec x s (MNum v) /\ cast t v = Ok u /\ y = MNum u) ->
    exists s', (let! x := cast_var t (LS p) in write_elem l (Z.of_nat i) x) s = ROk tt s' /\ INV e F s' /\ shrunk (putv (LC l (h_gen o) i) y s) s').
  { intros t E Vl (v & u & D & C & ->). rewrite (bind_ok _ _ _ _ s u s); [|rewrite (cast_var_eq t (LS p) s x v Np D); rewrite C; reflexivity].
    assert (Ea : elem_at l (Z.of_nat i) s = ROk (l, i) s).
    { rewrite (elem_at_eq l (Z.of_nat i) s l (Z.of_nat i)); [rewrite Nat2Z.id; auto| |lia]. exists o. rewrite V. auto. }
    unfold write_elem. rewrite (bind_ok _ _ _ _ _ _ _ Ea). rewrite (bind_ok _ _ _ _ _ _ _ (get_obj_eq _ _ _ O)). rewrite N. rewrite E, Vl.
    unfold set_obj. eexists. split; [reflexivity|]. fold (set_mem l (set_cells o (set_nth (h_cells o) i (k, MNum u))) s).
    rewrite (putv_cell_eq _ _ _ _ _ _ _ _ O N). split; [eapply set_dense_INV; eauto; rewrite E; auto|apply shrunk_refl]. }
  destruct (h_ty o) as [[]|] eqn:Ty; auto; simpl in Cv.
Qed.

(** * A variable that is an array *)
Section Ptr.
Variables (s : state) (this : lval) (l : nat).
Hypothesis Sd : sound s.
Hypothesis G : getv this s = Some (MPtr l).
Lemma ptr_defined : defined this s = ROk true s.
Proof. unfold defined. rewrite (bind_ok _ _ _ _ _ _ _ (get_eq _ _ _ G)). reflexivity. Qed.
Lemma ptr_type : type_of this s = ROk 0%Z s.
Proof. unfold type_of. rewrite (bind_ok _ _ _ _ _ _ _ (get_eq _ _ _ G)). reflexivity. Qed.
Lemma ptr_heap : heap_of this s = ROk (Some l) s.
Proof. unfold heap_of. rewrite (bind_ok _ _ _ _ _ _ _ (get_eq _ _ _ G)). reflexivity. Qed.
Lemma ptr_deref : dereference this s = ROk this s.
Proof. apply (deref_nonref _ _ _ G). intros ? ? ?; discriminate. Qed.
Lemma ptr_size : forall o, obj l s = Some o -> h_view o = None -> size_of this s = ROk (Z.of_nat (h_size o)) s.
Proof.
  intros o O V. unfold size_of. rewrite (bind_ok _ _ _ _ _ _ _ (get_eq _ _ _ G)). unfold bind at 1. simpl.
  rewrite (bind_ok _ _ _ _ _ _ _ (get_obj_eq _ _ _ O)). unfold obj_size. rewrite V. reflexivity.
Qed.
Lemma ptr_atype : forall o, obj l s = Some o -> h_view o = None -> atype_of this s = ROk (hcode (h_ty o)) s.
Proof.
  intros o O V. unfold atype_of. rewrite (bind_ok _ _ _ _ _ _ _ (get_eq _ _ _ G)). unfold bind at 1. simpl.
  rewrite (bind_ok _ _ _ _ _ _ _ (get_obj_eq _ _ _ O)). rewrite (bind_ok _ _ _ _ _ _ _ (obj_type_plain _ _ V)). reflexivity.
Qed.
Lemma ptr_is_array : forall o c, obj l s = Some o -> h_view o = None -> is_array_of this c s = ROk (hcode (h_ty o) =? c)%Z s.
Proof.
  intros o c O V. unfold is_array_of. rewrite (bind_ok _ _ _ _ _ _ _ ptr_heap). rewrite (bind_ok _ _ _ _ _ _ _ (ptr_atype o O V)). reflexivity.
Qed.
Lemma ptr_array : array this s = ROk tt s.
Proof. unfold array. rewrite (bind_ok _ _ _ _ _ _ _ ptr_deref). rewrite (bind_ok _ _ _ _ _ _ _ ptr_heap). reflexivity. Qed.
Lemma ptr_resize : forall n, (0 <= n)%Z -> resize this n s = heap_resize l (Z.to_nat n) s.
Proof.
  intros n P. unfold resize. destruct (Z.ltb_spec n 0); [lia|]. rewrite (bind_ok _ _ _ _ _ _ _ ptr_deref). rewrite (bind_ok _ _ _ _ _ _ _ ptr_heap).
  rewrite (bind_ok _ _ _ _ _ _ _ ptr_heap). reflexivity.
Qed.
Lemma ptr_reference : forall i, (0 <= i)%Z -> reference this i s = ROk (MRef l (Z.to_nat i)) (bump (MPtr l) s).
Proof.
  intros i P. unfold reference. rewrite (bind_ok _ _ _ _ _ _ _ ptr_type). change (negb (0 =? 0)%Z) with false. cbv iota.
  rewrite (bind_ok _ _ _ _ _ _ _ (copy_of_eq _ _ _ Sd G)). destruct (Z.leb_spec 0 i); [reflexivity|lia].
Qed.
End Ptr.
Lemma held_ptr : forall v s l, sound s -> getv v s = Some (MPtr l) -> held (MPtr l) s.
Proof. intros. eapply getv_held; eauto. Qed.
Lemma at_int_ptr : forall s this l i, sound s -> getv this s = Some (MPtr l) -> (0 <= i)%Z ->
  at_int this i s = ROk (MRef l (Z.to_nat i)) (bump (MPtr l) s).
Proof.
  intros s this l i S G P. pose proof (held_ptr _ _ _ S G) as H. pose proof S as (C & _).
  unfold at_int. rewrite (bind_ok _ _ _ _ _ _ _ (copy_of_eq _ _ _ S G)). set (s0 := bump (MPtr l) s).
  assert (S0 : sound (push_s (MPtr l) s0)) by (apply sound_push; [apply sound_bump; auto|apply held_bump; auto]).
  pose proof (getv_push_new (MPtr l) s0) as G0. set (v := LS (length (stk s0))) in *.
  eapply scoped_ok with (v' := MPtr l) (s1 := bump (MPtr l) s0).
  - fold v. rewrite (bind_ok _ _ _ _ _ _ _ (ptr_deref _ _ _ G0)). rewrite (bind_ok _ _ _ _ _ _ _ (ptr_defined _ _ _ G0)). change (negb true) with false. cbv iota.
    rewrite (bind_ok _ _ _ _ _ _ _ (ptr_type _ _ _ G0)). change (0 =? 0)%Z with true. cbv iota. rewrite (ptr_reference _ _ _ S0 G0 i P). rewrite bump_push. reflexivity.
  - rewrite bump_stk. reflexivity.
  - apply release_bump; [apply cnt_bump; auto|apply held_bump; auto].
Qed.
Lemma index_in_ptr : forall s this l i o, sound s -> getv this s = Some (MPtr l) -> obj l s = Some o -> h_view o = None ->
  (0 <= i < Z.of_nat (h_size o))%Z -> index_int this i s = ROk (MRef l (Z.to_nat i)) (bump (MPtr l) s).
Proof.
  intros s this l i o S G O V P. unfold index_int. destruct (Z.ltb_spec i 0); [lia|].
  rewrite (bind_ok _ _ _ _ _ _ _ (get_eq _ _ _ G)). unfold index_plain. rewrite (bind_ok _ _ _ _ _ _ _ (ptr_size _ _ _ G o O V)).
  destruct (Z.leb_spec (Z.of_nat (h_size o)) i); [lia|]. rewrite (bind_ok _ _ (ret tt) _ s tt s eq_refl).
  rewrite (bind_ok _ _ _ _ _ _ _ (ptr_array _ _ _ G)). apply ptr_reference; auto; lia.
Qed.
Lemma index_grow_ptr : forall s s1 this l i o, sound s1 -> getv this s = Some (MPtr l) -> obj l s = Some o -> h_view o = None ->
  (Z.of_nat (h_size o) <= i < 2 ^ 31 - 1)%Z -> heap_resize l (Z.to_nat (i + 1)) s = ROk tt s1 -> getv this s1 = Some (MPtr l) ->
  index_int this i s = ROk (MRef l (Z.to_nat i)) (bump (MPtr l) s1).
Proof.
  intros s s1 this l i o S1 G O V P R G1. unfold index_int. destruct (Z.ltb_spec i 0); [lia|].
  rewrite (bind_ok _ _ _ _ _ _ _ (get_eq _ _ _ G)). unfold index_plain. rewrite (bind_ok _ _ _ _ _ _ _ (ptr_size _ _ _ G o O V)).
  destruct (Z.leb_spec (Z.of_nat (h_size o)) i); [|lia].
  assert (Ii : in_int (i + 1) = true) by (unfold in_int, INT_MIN, INT_MAX; apply andb_true_iff; split; apply Z.leb_le; lia). rewrite Ii.
  rewrite (bind_ok _ _ _ _ s tt s1); [|rewrite (ptr_resize _ _ _ G); [exact R|lia]].
  rewrite (bind_ok _ _ _ _ _ _ _ (ptr_array _ _ _ G1)). apply ptr_reference; auto; lia.
Qed.

(** * Storing through a subscript *)
Lemma cells_bump : forall w s l, obj l (bump w s) = obj l s. Proof. intros; apply obj_bump. Qed.
Lemma storable_bump : forall w s o l i x old, storable s o l i x old -> storable (bump w s) o l i x old.
Proof. intros w s o l i x old H V. destruct (H V) as (A & B & C). split; auto. split; auto. apply not_view_bump; auto. Qed.
Lemma storable_push : forall w s o l i x old, storable s o l i x old -> storable (push_s w s) o l i x old.
Proof. intros w s o l i x old H V. destruct (H V) as (A & B & C). split; auto; split; auto; apply not_view_push; auto. Qed.
(** [scoped r (assign r q)] with the reference in flight. *)
Lemma assign_flight : forall e F s p l i o k old x y, INV e (MRef l i :: F) s ->
  nth_error (stk s) p = Some x -> obj l s = Some o -> h_view o = None -> nth_error (h_cells o) i = Some (k, old) ->
  storable s o l i x old -> conv s (h_ty o) x y ->
  exists s', scoped (MRef l i) (fun q => assign q (LS p)) s = ROk tt s' /\ INV e F s' /\ shrunk (putv (LC l (h_gen o) i) y s) s'.
Proof.
  intros e F s p l i o k old x y I Np O V N St Cv.
  destruct (store_gives e F (push_s (MRef l i) s) (length (stk s)) p l i o k old x y) as (s1 & A & I1 & Sh1); auto.
  - apply INV_push; auto.
  - apply getv_push_new.
  - simpl. rewrite nth_error_app1; auto. eapply ne_lt; eauto.
  - try (apply storable_push; auto); apply conv_push; auto.
  - rewrite putv_push in Sh1 by (simpl; auto).
    eapply scoped_gives; [exact A|exact I1|exact Sh1|apply putv_stk_length].
Qed.
Lemma set_at_gives : forall e F s j l i o k old x y, INV e (x :: F) s ->
  nth_error (stk s) j = Some (MPtr l) -> obj l s = Some o -> h_view o = None -> nth_error (h_cells o) i = Some (k, old) ->
  storable s o l i x old -> conv s (h_ty o) x y ->
  exists s', set_at (LS j) (Z.of_nat i) x s = ROk tt s' /\ INV e F s' /\ shrunk (putv (LC l (h_gen o) i) y s) s'.
Proof.
  intros e F s j l i o k old x y I Nj O V N St Cv. unfold set_at.
  assert (I1 : INV e F (push_s x s)) by (apply INV_push; auto). pose proof (INV_sound _ _ _ I1) as S1.
  assert (G1 : getv (LS j) (push_s x s) = Some (MPtr l)) by (rewrite getv_push; [exact Nj|simpl; eapply ne_lt; eauto]).
  pose proof (at_int_ptr _ _ _ (Z.of_nat i) S1 G1 (Nat2Z.is_nonneg _)) as A. rewrite Nat2Z.id in A.
  pose proof (held_ptr _ _ _ S1 G1) as H1.
  destruct (assign_flight e F (bump (MPtr l) (push_s x s)) (length (stk s)) l i o k old x y) as (s2 & B & I2 & Sh2); auto.
  - change (INV e (MRef l i :: F) (bump (MRef l i) (push_s x s))). apply INV_bump; auto.
  - rewrite bump_stk. apply getv_push_new.
  - try (apply storable_bump, storable_push; auto); apply conv_bump, conv_push; auto.
  - assert (Sh3 : shrunk (push_s x (putv (LC l (h_gen o) i) y s)) s2).
    { rewrite <- putv_push by (simpl; auto). eapply shrunk_trans; [|exact Sh2]. apply shrunk_putv, shrunk_bump. }
    eapply (scoped_gives _ x _ e F s tt s2 x); [|exact I2|exact Sh3|apply putv_stk_length].
    cbv beta. rewrite (bind_ok _ _ _ _ _ _ _ A). exact B.
Qed.
(** [at(i) = b] for a variable b. *)
Lemma set_at_copy_gives : forall e F s j p l i o k old x y, INV e F s ->
  nth_error (stk s) j = Some (MPtr l) -> nth_error (stk s) p = Some x -> obj l s = Some o -> h_view o = None -> nth_error (h_cells o) i = Some (k, old) ->
  storable s o l i x old -> conv s (h_ty o) x y ->
  exists s', set_at_copy (LS j) (Z.of_nat i) (LS p) s = ROk tt s' /\ INV e F s' /\ shrunk (putv (LC l (h_gen o) i) y s) s'.
Proof.
  intros e F s j p l i o k old x y I Nj Np O V N St Cv. unfold set_at_copy.
  pose proof (INV_sound _ _ _ I) as S. rewrite (bind_ok _ _ _ _ _ _ _ (copy_of_eq (LS p) _ _ S Np)).
  assert (Hx : held x s) by (apply (getv_held (LS p) s x); auto).
  destruct (set_at_gives e F (bump x s) j l i o k old x y) as (s' & A & I' & Sh); auto.
  - apply INV_bump; auto.
  - rewrite bump_stk; auto.
  - rewrite obj_bump; auto.
  - apply storable_bump; auto.
  - apply conv_bump; auto.
  - exists s'. split; auto. split; auto. eapply shrunk_trans; [|exact Sh]. apply shrunk_putv, shrunk_bump.
Qed.
(** [at(i) = at(k)]. *)
Lemma move_gives : forall e F s j l i m o k old y, INV e F s ->
  nth_error (stk s) j = Some (MPtr l) -> obj l s = Some o -> h_view o = None ->
  nth_error (h_cells o) i = Some (k, old) -> storable s o l i (MRef l m) old -> conv s (h_ty o) (MRef l m) y ->
  exists s', (let! x := at_int (LS j) (Z.of_nat m) in set_at (LS j) (Z.of_nat i) x) s = ROk tt s' /\ INV e F s' /\ shrunk (putv (LC l (h_gen o) i) y s) s'.
Proof.
  intros e F s j l i m o k old y I Nj O V N St Cv. pose proof (INV_sound _ _ _ I) as S.
  rewrite (bind_ok _ _ _ _ _ _ _ (at_int_ptr _ (LS j) _ (Z.of_nat m) S Nj (Nat2Z.is_nonneg _))). rewrite Nat2Z.id.
  change (bump (MPtr l) s) with (bump (MRef l m) s).
  destruct (set_at_gives e F (bump (MRef l m) s) j l i o k old (MRef l m) y) as (s' & A & I' & Sh); auto.
  - apply INV_bump; auto. apply (held_ptr (LS j)); auto.
  - apply conv_bump; auto.
  - exists s'. split; auto. split; auto. eapply shrunk_trans; [|exact Sh]. apply shrunk_putv, shrunk_bump.
Qed.
