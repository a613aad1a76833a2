(** What the constructors from a list of elements and from a size and a value do. *)
From Coq Require Import ZArith Bool List String Lia.
From Verif Require Import Base StrModel ValModel NumModel AllocModel AllocProof MemModel MemProof MemFun MemEq MemDeref MemTriple MemOps MemArr MemMore MemKey MemElem MemMeth MemList MemRun MemFits ArrSpec MemArrays MemCopy MemThrow MemSelf MemScalar ArrFacts.
Import ListNotations.
Local Open Scope list_scope.
Local Open Scope mem_scope.
Local Notation length := List.length.

(** * Slot [j] has been given a value *)
Lemma sn_over : forall A (l ws : list A) n v, set_nth (l ++ ws) (length l + n) v = l ++ set_nth ws n v.
Proof. induction l as [|x l IH]; intros ws n v; simpl; auto. rewrite IH. reflexivity. Qed.
Lemma upd_upd : forall j u w ms s0 s1 s2, shrunk (upd j u [] s0) s1 -> shrunk (upd j w ms s1) s2 -> shrunk (upd j w ms s0) s2.
Proof.
  intros j u w ms s0 s1 s2 (A & B & C) Sh. eapply shrunk_trans; [|exact Sh]. simpl in A, B. rewrite app_nil_r in B.
  unfold shrunk, upd, obj; simpl. rewrite A, sn_twice. split; auto. split; [rewrite !app_length; lia|]. intros k o. unfold obj in C. specialize (C k o). simpl in C. rewrite app_nil_r in C.
  destruct (Nat.lt_ge_cases k (length (mem s0))) as [L|L]; [rewrite !nth_error_app1 by lia; auto|rewrite !nth_error_app2 by lia; rewrite B; auto].
Qed.
Lemma upd_slot : forall j w ms s0 s1 q x, shrunk (upd j w ms s0) s1 -> q <> j -> nth_error (stk s0) q = Some x -> nth_error (stk s1) q = Some x.
Proof. intros j w ms s0 s1 q x (A & _) D N. rewrite A. simpl. rewrite sn_other; auto. Qed.
Lemma upd_this : forall j w ms s0 s1, shrunk (upd j w ms s0) s1 -> j < length (stk s0) -> nth_error (stk s1) j = Some w.
Proof. intros j w ms s0 s1 (A & _) L. rewrite A. simpl. apply sn_same. auto. Qed.
Lemma upd_means : forall e F j w ms s s1 p x y, p <> j -> nth_error (stk s) p = Some x -> shrunk (upd j w ms s) s1 -> INV e F s1 -> denotes s x y -> denotes s1 x y.
Proof.
  intros e F j w ms s s1 p x y Np N Sh I D. apply (denotes_keep s); auto. intros k i ok -> Ok Li. exists ok. split; [|auto].
  eapply (shrunk_obj e F _ s1 p (MRef k i) k ok Sh I); auto; [simpl; rewrite sn_other; auto|].
  unfold obj, upd; simpl. rewrite nth_error_app1; [exact Ok|]. eapply obj_lt; eauto.
Qed.
Lemma upd_exact : forall j w ms s s1 x y, shrunk (upd j w ms s) s1 -> denotes s x y -> exact_elem s x y -> exact_elem s1 x y.
Proof.
  intros j w ms s s1 x y (_ & _ & C) D Ex l i o -> O V. apply C in O. simpl in D. destruct D as (o' & k & O' & _).
  assert (l < length (mem s)) by (apply nth_error_Some; congruence). apply (Ex l i o); auto. unfold obj, upd in *; simpl in O. rewrite nth_error_app1 in O; auto.
Qed.
Lemma with_copy_upd : forall e s q x j w ms (f : lval -> M unit) s2, INV e [] s -> nth_error (stk s) q = Some x -> j < length (stk s) ->
  f (LS (length (stk s))) (push_s x (bump x s)) = ROk tt s2 -> INV e [] s2 -> shrunk (upd j w ms (push_s x (bump x s))) s2 ->
  exists s3, with_copy (LS q) f s = ROk tt s3 /\ INV e [] s3 /\ shrunk (upd j w ms s) s3.
Proof.
  intros e s q x j w ms f s2 I N Lj E I2 Sh. pose proof (INV_sound _ _ _ I) as Sd.
  destruct (scoped_gives _ x f e [] (bump x s) tt s2 x (upd j w ms (bump x s))) as (s3 & E3 & I3 & Sh3); auto.
  - rewrite bump_stk. exact E.
  - eapply shrunk_trans; [apply upd_push; auto|exact Sh].
  - simpl. rewrite sn_length, bump_stk. reflexivity.
  - exists s3. unfold with_copy. rewrite (bind_ok _ _ _ _ _ _ _ (copy_of_eq (LS q) s x Sd N)). split; auto. split; auto.
    eapply shrunk_trans; [|exact Sh3]. unfold shrunk, obj, upd; simpl. rewrite bump_mem, bump_stk. auto.
Qed.
Lemma own_var_eq : forall j s x m, nth_error (stk s) j = Some x -> nonref x -> own_var (LS j) m s = m s.
Proof.
  intros j s x m N No. unfold own_var. rewrite (bind_ok _ _ _ _ _ _ _ (get_eq (LS j) _ _ N)). destruct x; auto. exfalso. eapply No; eauto.
Qed.

(** * The elements of the list *)
Lemma elements_give : forall e s fs xs, Forall2 (operand s) fs xs -> forall s1, INV e [] s1 -> temps s s1 ->
  exists qs s2, elements_of (length (stk s)) fs s1 = ROk (map LS qs) s2 /\ INV e [] s2 /\ temps s s2 /\ temps s1 s2 /\ Forall2 (fun q x => nth_error (stk s2) q = Some x) qs xs.
Proof.
  intros e s fs xs H. induction H as [|f x fs xs Op H IH]; intros s1 I1 T1.
  - exists [], s1. split; [reflexivity|]. split; auto. split; auto. split; [apply temps_refl|constructor].
  - destruct (operand_gives e s s1 f x I1 T1 Op) as (q & s2 & E2 & I2 & T2 & T12 & N2).
    assert (X : exists q' s3, element_of (length (stk s)) f s1 = ROk (LS q') s3 /\ INV e [] s3 /\ temps s s3 /\ temps s1 s3 /\ nth_error (stk s3) q' = Some x).
    { unfold element_of. rewrite (bind_ok _ _ _ _ _ _ _ E2). destruct (named f) eqn:Nf.
      - exists (length (stk s2)), (push_s x (bump x s2)). rewrite (bind_ok _ _ _ _ _ _ _ (copy_of_eq (LS q) s2 x (INV_sound _ _ _ I2) N2)).
        split; [rewrite <- (bump_stk x s2); reflexivity|]. split; [apply INV_push, INV_bump; auto; apply (getv_held (LS q) s2); auto; eapply INV_sound; eauto|].
        split; [apply temps_push; auto|]. split; [apply temps_push; auto|]. simpl. rewrite bump_stk, nth_error_app2, Nat.sub_diag by auto. reflexivity.
      - exists q, s2. split; [reflexivity|]. auto. }
    destruct X as (q' & s3 & E3 & I3 & T3 & T13 & N3). destruct (IH s3 I3 T3) as (qs & s4 & E4 & I4 & T4 & T34 & F4).
    exists (q' :: qs), s4. split; [|split; [auto|split; [auto|split]]].
    + cbn [elements_of]. rewrite (bind_ok _ _ _ _ _ _ _ E3). rewrite (bind_ok _ _ _ _ _ _ _ E4). reflexivity.
    + destruct T13 as [M13 [ws W13]], T34 as [M34 [ws' W34]]. split; [congruence|]. exists (ws ++ ws'). rewrite W34, W13, app_assoc. reflexivity.
    + constructor; auto. eapply temps_slot; eauto.
Qed.

(** * The values pushed *)
(** Slot [q] other than [j] holds [x], which stands for [y]. *)
Record item (s : state) (j q : nat) (x y : mvar) : Prop := {
  it_slot : nth_error (stk s) q = Some x;
  it_other : q <> j;
  it_means : denotes s x y;
  it_exact : exact_elem s x y }.
Lemma item_upd : forall e F j w ms s s1 q x y, item s j q x y -> shrunk (upd j w ms s) s1 -> INV e F s1 -> item s1 j q x y.
Proof.
  intros e F j w ms s s1 q x y [A B C D] Sh I. split; auto.
  - eapply upd_slot; eauto.
  - eapply upd_means; eauto.
  - eapply upd_exact; eauto.
Qed.
Lemma item_copy : forall s j q x y, item s j q x y -> j < length (stk s) -> item (push_s x (bump x s)) j (length (stk s)) x y.
Proof.
  intros s j q x y [A B C D] L. pose proof (temps_push s s x (temps_refl s)) as T. split.
  - simpl. rewrite bump_stk, nth_error_app2, Nat.sub_diag by auto. reflexivity.
  - lia.
  - eapply temps_denotes; eauto.
  - eapply temps_exact; eauto.
Qed.
(** An array object with given elements. *)
Record elems (o : hobj) (t : hty) (xs : list mvar) : Prop := {
  el_type : h_ty o = t;
  el_view : h_view o = None;
  el_size : h_size o = length xs;
  el_room : length xs <= length (h_cells o);
  el_at : forall k, k < length xs -> val_at o k = nth_error xs k;
  el_nul : is_char t = true -> val_at o (length xs) = Some NUL }.
Lemma grown_ok : forall s o o' n, grown n o o' -> okcells s o -> okcells s o'.
Proof.
  intros s o o' n G Ok Vl k v H. pose proof G as (T & Vw & _). rewrite T in Vl.
  assert (C : is_char (h_ty o) = false) by (destruct (h_ty o) as [[]|]; simpl in *; auto; discriminate).
  destruct (Nat.lt_ge_cases k (length (h_cells o))) as [L|L].
  - rewrite (grown_val n o o') in H; auto; [|congruence]. apply (Ok Vl k v H).
  - apply (grown_new n o o') in H; auto; [|congruence]. unfold fresh in H. rewrite Vl in H. simpl in H. subst. split; intros ? ? ?; discriminate.
Qed.
Lemma pushed_elems : forall o o' t xs z, elems o t xs -> pushed o (length xs) z o' -> elems o' t (xs ++ [z]).
Proof.
  intros o o' t xs z [T V Sz L H Hn] (o1 & G & ->). pose proof G as (T' & V' & S' & C & _). destruct (set_val_alike o1 (length xs) z) as (A1 & A2 & A3 & A4 & A5).
  assert (Lc : length xs < length (h_cells o1)) by lia. split; rewrite ?app_length; simpl; try congruence; try lia.
  - intros k K. rewrite set_val_at by auto. destruct (Nat.eqb_spec k (length xs)) as [->|D].
    + rewrite nth_error_app2, Nat.sub_diag by auto. reflexivity.
    + rewrite (grown_val _ _ _ k G) by lia. rewrite nth_error_app1 by lia. apply H. lia.
  - intros Ch. rewrite <- T in Ch. rewrite set_val_at by auto. destruct (Nat.eqb_spec (length xs + 1) (length xs)); [lia|]. rewrite Nat.add_1_r. apply (grown_nul _ _ _ G Ch).
Qed.
Lemma pushed_ok : forall s o o' n z, pushed o n z o' -> okcells s o -> (varlike (h_ty o) = true -> nonref z /\ not_view s z) -> okcells s o'.
Proof.
  intros s o o' n z (o1 & G & ->) Ok Z. pose proof G as (T & _ & _ & C & _). apply okcells_set; [eapply grown_ok; eauto|lia|]. rewrite T. auto.
Qed.
Lemma newest_ok : forall j l w o s s1 a, l = length (mem s) -> shrunk (upd j w [Some o] s) s1 -> h_view o = None -> okcells s a -> okcells s1 a.
Proof.
  intros j l w o s s1 a -> Sh V. apply okcells_shrunk. intros k b K. apply Sh in K. unfold obj, upd in K; simpl in K. unfold obj.
  destruct (Nat.lt_ge_cases k (length (mem s))) as [L|L]; [rewrite nth_error_app1 in K by auto; auto|].
  rewrite nth_error_app2 in K by auto. destruct (k - length (mem s)) as [|n]; simpl in K; [inversion K; subst; auto|destruct n; discriminate].
Qed.
(** ** The rest are pushed onto an array *)
Definition element_ok (s : state) (t : hty) (y z : mvar) : Prop := stored t y z /\ (varlike t = true -> nonref y /\ not_view s y).
Lemma stored_var : forall t y z, varlike t = true -> stored t y z -> z = y.
Proof. intros [[]|] y z V St; simpl in *; try discriminate; auto. Qed.
Inductive items (s : state) (j : nat) (t : hty) : list nat -> list mvar -> Prop :=
| items_nil : items s j t [] []
| items_cons : forall q x y z qs zs, item s j q x y -> element_ok s t y z -> items s j t qs zs -> items s j t (q :: qs) (z :: zs).
Lemma push_rest : forall e s0 j l t, j < length (stk s0) -> l = length (mem s0) -> forall qs zs, items s0 j t qs zs ->
  forall s1 o xs, INV e [] s1 -> shrunk (upd j (MPtr l) [Some o] s0) s1 -> elems o t xs -> okcells s0 o -> (Z.of_nat (length xs + length zs) < 2 ^ 30)%Z ->
  exists s2 o', push_all (LS j) (map LS qs) s1 = ROk tt s2 /\ INV e [] s2 /\ shrunk (upd j (MPtr l) [Some o'] s0) s2 /\ elems o' t (xs ++ zs) /\ okcells s0 o'.
Proof.
  intros e s0 j l t Lj El qs zs H. induction H as [|q x y z qs zs It [St Sv] H IH]; intros s1 o xs I1 Sh El1 Ok Sm.
  - exists s1, o. rewrite app_nil_r. auto.
  - destruct (upd_obj e [] j l o s0 s1 Lj El Sh I1) as [Nj O]. pose proof (item_upd e [] j _ _ s0 s1 q x y It Sh I1) as It1.
    assert (Lj1 : j < length (stk s1)) by (eapply ne_lt; eauto). pose proof (item_copy s1 j q x y It1 Lj1) as It2.
    set (s2 := push_s x (bump x s1)) in *. assert (T2 : temps s1 s2) by (apply temps_push, temps_refl).
    assert (I2 : INV e [] s2) by (apply INV_push, INV_bump; auto; apply (getv_held (LS q) s1); [eapply INV_sound; eauto|apply It1]).
    assert (Ok1 : okcells s1 o) by (eapply newest_ok; eauto; apply El1).
    destruct (push_gives e s2 j (length (stk s1)) l o x y z I2) as (s3 & o' & E3 & I3 & B3 & P3).
    + eapply temps_slot; eauto.
    + apply It2.
    + rewrite (temps_obj _ _ _ T2); auto.
    + apply El1.
    + eapply temps_okcells; eauto.
    + destruct El1 as [? ? Sz Rm ? ?]. rewrite Sz. exact Rm.
    + destruct El1 as [? ? Sz Rm ? ?]. rewrite Sz. simpl in Sm. lia.
    + apply It2.
    + destruct El1 as [Ty ? ? ? ? ?]. rewrite Ty. auto.
    + destruct (with_copy_became e e s1 q x l o' j (MPtr l) (push (LS j)) s3) as (s4 & E4 & I4 & B4); auto; [apply It1|eapply obj_lt; eauto|].
      destruct El1 as [Ty V Sz Rm At Nul] eqn:EqE. clear EqE.
      rewrite Sz in P3. pose proof (pushed_elems o o' t xs z El1 P3) as El4.
      destruct (IH s4 o' (xs ++ [z])) as (s5 & o5 & E5 & I5 & Sh5 & El5 & Ok5); auto.
      * eapply upd_became; eauto.
      * eapply pushed_ok; eauto. rewrite Ty. intros Vl. rewrite (stored_var t y z Vl St). auto.
      * rewrite app_length. simpl in *. lia.
      * exists s5, o5. split; [|split; [auto|split; [auto|split; [|auto]]]].
        -- cbn [push_all map]. unfold bind at 1. rewrite (own_var_eq j s1 (MPtr l) _ Nj) by (intros ? ? ?; discriminate). rewrite E4. exact E5.
        -- rewrite <- app_assoc in El5. exact El5.
Qed.

(** * Taking the value out and leaving the statement *)
Definition adds (w : mvar) (ms : list (option hobj)) (s : state) : state := {| mem := mem s ++ ms; rc := rc s; stk := stk s ++ [w] |}.
Lemma keep_gives : forall e s m s0 s1 r w ms, m s = ROk w (putv (LS r) MNil s1) -> INV e [] s1 -> temps s s0 -> length (stk s) <= r -> S r = length (stk s0) ->
  shrunk (upd r w ms s0) s1 -> exists s', keep_value (length (stk s)) m s = ROk tt s' /\ INV e [] s' /\ shrunk (adds w ms s) s'.
Proof.
  intros e s m s0 s1 r w ms E I1 [M0 [ws W0]] Lr Lr' (St & Lm & Ob). set (s2 := putv (LS r) MNil s1) in *. simpl in St, Lm.
  assert (N : nth_error (stk s1) r = Some w) by (rewrite St; apply sn_same; lia).
  assert (I2 : INV e [w] s2) by (apply INV_putv; [apply INV_add0; auto|auto|exact Logic.I]).
  assert (Ks : forall v, exists vs, set_nth (stk s ++ ws) r v = stk s ++ vs).
  { intros v. exists (set_nth ws (r - length (stk s)) v). replace r with (length (stk s) + (r - length (stk s))) at 1 by lia.
    apply sn_over. }
  destruct (Ks MNil) as [vs Vs].
  destruct (leave_gives e [w] s2 vs {| mem := mem s2; rc := rc s2; stk := stk s |} I2) as (s3 & E3 & I3 & St3 & Lm3 & Ob3).
  - unfold shrunk, ext; simpl. split; auto. rewrite St, W0, sn_twice, Vs. reflexivity.
  - exists (push_s w s3). simpl in *. split; [|split; [apply INV_push; auto|]].
    + unfold keep_value. rewrite E. rewrite (bind_ok _ _ _ _ _ _ _ E3). reflexivity.
    + unfold shrunk, adds; simpl. rewrite St3. split; auto. split; [rewrite Lm3, Lm, M0; auto|].
      intros k o K. assert (K' : obj k s3 = Some o) by exact K. apply Ob3 in K'. apply (Ob k o) in K'. unfold obj, upd in *; simpl in *. rewrite <- M0. exact K'.
Qed.
Lemma keep_throws : forall e s m s1 s0 r w msg, m s = RThrow msg s1 -> INV e [] s1 -> temps s s0 -> length (stk s) <= r -> shrunk (upd r w [] s0) s1 ->
  exists s', keep_value (length (stk s)) m s = RThrow msg s' /\ INV e [] s' /\ shrunk s s'.
Proof.
  intros e s m s1 s0 r w msg E I1 [M0 [ws W0]] Lr Sh.
  destruct (leave_gives e [] s1 (set_nth ws (r - length (stk s)) w) s I1) as (s2 & E2 & I2 & Sh2).
  - eapply shrunk_trans; [|exact Sh]. unfold shrunk, ext, upd, obj; simpl. rewrite M0, W0, app_nil_r. split; auto.
    replace r with (length (stk s) + (r - length (stk s))) at 1 by lia. rewrite sn_over. auto.
  - exists s2. split; auto. unfold keep_value. rewrite E. rewrite (bind_ok _ _ _ _ _ _ _ E2). reflexivity.
Qed.
Lemma init_start : forall e s fs xs, INV e [] s -> Forall2 (operand s) fs xs ->
  exists qs s0 r, init_list (length (stk s)) fs s = (push_all (LS r) (map LS qs) ;; take (LS r)) s0 /\ INV e [] s0 /\ temps s s0 /\ S r = length (stk s0) /\ length (stk s) <= r /\
    nth_error (stk s0) r = Some MNil /\ Forall2 (fun q x => nth_error (stk s0) q = Some x /\ q <> r) qs xs.
Proof.
  intros e s fs xs I H. destruct (elements_give e s fs xs H s I (temps_refl s)) as (qs & s2 & E2 & I2 & T2 & _ & F2).
  exists qs, (push_s MNil s2), (length (stk s2)). split; [|split; [|split; [|split; [|split; [|split]]]]].
  - unfold init_list. rewrite (bind_ok _ _ _ _ _ _ _ E2). reflexivity.
  - apply INV_push, INV_add0; auto.
  - apply (temps_push s s2 MNil T2).
  - simpl. rewrite app_length. simpl. lia.
  - destruct T2 as [_ [ws ->]]. rewrite app_length. lia.
  - simpl. rewrite nth_error_app2, Nat.sub_diag by auto. reflexivity.
  - clear - F2. induction F2 as [|q x qs xs N F2 IH]; constructor; auto.
    assert (q < length (stk s2)) by (eapply ne_lt; eauto). split; [simpl; rewrite nth_error_app1; auto|lia].
Qed.
Lemma init_end : forall e s fs qs s0 r s1 w ms, init_list (length (stk s)) fs s = (push_all (LS r) (map LS qs) ;; take (LS r)) s0 -> temps s s0 -> length (stk s) <= r -> S r = length (stk s0) ->
  push_all (LS r) (map LS qs) s0 = ROk tt s1 -> INV e [] s1 -> shrunk (upd r w ms s0) s1 ->
  exists s', exec (SInit fs) s = ROk tt s' /\ INV e [] s' /\ shrunk (adds w ms s) s'.
Proof.
  intros e s fs qs s0 r s1 w ms E T Lr Lr' P I1 Sh. assert (N : nth_error (stk s1) r = Some w) by (eapply upd_this; eauto; lia).
  eapply (keep_gives e s (init_list (length (stk s)) fs) s0 s1 r w ms); eauto.
  rewrite E. rewrite (bind_ok _ _ _ _ _ _ _ P). unfold take. rewrite (bind_ok _ _ _ _ _ _ _ (get_eq (LS r) _ _ N)). rewrite (bind_ok _ _ _ _ _ _ _ (put_eq (LS r) s1 w MNil N)). reflexivity.
Qed.

(** * The first one or two *)
Lemma item_start : forall s s0 r q x y, temps s s0 -> nth_error (stk s0) q = Some x -> q <> r -> denotes s x y -> exact_elem s x y -> item s0 r q x y.
Proof. intros s s0 r q x y T N D Dn Ex. split; auto; [eapply temps_denotes; eauto|eapply temps_exact; eauto]. Qed.
Lemma copied : forall e s j q x y, INV e [] s -> item s j q x y -> INV e [] (push_s x (bump x s)).
Proof. intros e s j q x y I It. apply INV_push, INV_bump; auto. apply (getv_held (LS q) s); [eapply INV_sound; eauto|apply It]. Qed.
Lemma push_first : forall e s j q x v, INV e [] s -> nth_error (stk s) j = Some MNil -> item s j q x (MNum v) -> number v = true ->
  exists s', own_var (LS j) (with_copy (LS q) (push (LS j))) s = ROk tt s' /\ INV e [] s' /\ shrunk (upd j (MNum v) [] s) s'.
Proof.
  intros e s j q x v I N It Nv. assert (Lj : j < length (stk s)) by (eapply ne_lt; eauto). pose proof (copied _ _ _ _ _ _ I It) as I1. pose proof (item_copy _ _ _ _ _ It Lj) as It1.
  destruct (push_nil_scalar_at e (push_s x (bump x s)) j (length (stk s)) x (MNum v) I1) as (s2 & E2 & I2 & Sh2); try apply It1.
  - eapply temps_slot; [apply temps_push, temps_refl|auto].
  - destruct v; try discriminate; simpl; lia.
  - rewrite (own_var_eq j s MNil _ N) by (intros ? ? ?; discriminate).
    apply (with_copy_upd e s q x j (MNum v) [] (push (LS j)) s2); auto. apply It.
Qed.
Lemma push_first_array : forall e s j q x y, INV e [] s -> nth_error (stk s) j = Some MNil -> item s j q x y -> type_code y = 0%Z -> nonref y /\ not_view s y ->
  exists s' o, own_var (LS j) (with_copy (LS q) (push (LS j))) s = ROk tt s' /\ INV e [] s' /\ shrunk (upd j (MPtr (length (mem s))) [Some o] s) s' /\ elems o (HE TVar) [y] /\ okcells s o.
Proof.
  intros e s j q x y I N It Ty Ny. assert (Lj : j < length (stk s)) by (eapply ne_lt; eauto). pose proof (copied _ _ _ _ _ _ I It) as I1. pose proof (item_copy _ _ _ _ _ It Lj) as It1.
  destruct (push_nil_array_at e (push_s x (bump x s)) j (length (stk s)) x y I1) as (s2 & o & E2 & I2 & Sh2 & P1 & P2 & P3 & P4 & P5 & P6); try apply It1; auto.
  - eapply temps_slot; [apply temps_push, temps_refl|auto].
  - replace (length (mem (push_s x (bump x s)))) with (length (mem s)) in Sh2 by (simpl; rewrite bump_mem; auto).
    destruct (with_copy_upd e s q x j (MPtr (length (mem s))) [Some o] (push (LS j)) s2) as (s3 & E3 & I3 & Sh3); auto; [apply It|].
    exists s3, o. rewrite (own_var_eq j s MNil _ N) by (intros ? ? ?; discriminate). split; auto. split; auto. split; auto. split.
    + split; auto; [intros [|k] K; simpl in *; [auto|lia]|discriminate].
    + intros _ k v H. pose proof H as H0. destruct (P6 k v H) as [->| ->]; [|split; intros ? ? ?; discriminate].
      rewrite P4 in H0. inversion H0; subst; auto.
Qed.
Lemma push_second : forall e s j q x v u, INV e [] s -> nth_error (stk s) j = Some (MNum v) -> number v = true -> item s j q x (MNum u) -> number u = true -> ety_of u = ety_of v ->
  exists s' o, own_var (LS j) (with_copy (LS q) (push (LS j))) s = ROk tt s' /\ INV e [] s' /\ shrunk (upd j (MPtr (length (mem s))) [Some o] s) s' /\ elems o (HE (ety_of v)) [MNum v; MNum u] /\ okcells s o.
Proof.
  intros e s j q x v u I N Nv It Nu Te. assert (Lj : j < length (stk s)) by (eapply ne_lt; eauto). pose proof (copied _ _ _ _ _ _ I It) as I1. pose proof (item_copy _ _ _ _ _ It Lj) as It1.
  destruct (push_scalar_at e (push_s x (bump x s)) j (length (stk s)) v x u I1) as (o & s2 & E2 & I2 & Sh2 & T & Sz & Vw & Lc & Hv & Hn); try apply It1; auto.
  - eapply temps_slot; [apply temps_push, temps_refl|auto].
  - set (o1 := set_val o 0 (MNum v)) in *. set (o2 := set_val o1 1 (MNum u)) in *.
    replace (length (mem (push_s x (bump x s)))) with (length (mem s)) in Sh2 by (simpl; rewrite bump_mem; auto).
    destruct (with_copy_upd e s q x j (MPtr (length (mem s))) [Some o2] (push (LS j)) s2) as (s3 & E3 & I3 & Sh3); auto; [apply It|].
    exists s3, o2. rewrite (own_var_eq j s (MNum v) _ N) by (intros ? ? ?; discriminate). split; auto. split; auto. split; auto.
    destruct (set_val_alike o 0 (MNum v)) as (A1 & A2 & A3 & A4 & A5). fold o1 in A1, A2, A3, A4, A5. destruct (set_val_alike o1 1 (MNum u)) as (B1 & B2 & B3 & B4 & B5). fold o2 in B1, B2, B3, B4, B5. split.
    + split; simpl; try congruence; try lia.
      * intros k K. unfold o2. rewrite set_val_at by lia. unfold o1. destruct k as [|[|k]]; simpl; [rewrite set_val_at by lia; reflexivity|reflexivity|lia].
      * intros Ic. change (is_char (HE (ety_of v)) = true) in Ic. rewrite Ic in Lc. unfold o2. rewrite set_val_at by lia. simpl. unfold o1. rewrite set_val_at by lia. simpl. auto.
    + intros Vl. exfalso. rewrite B1, A1, T in Vl. destruct v; discriminate.
Qed.
Lemma push_other : forall e s j q x v y, INV e [] s -> nth_error (stk s) j = Some (MNum v) -> number v = true -> item s j q x y -> type_code y <> vtype v ->
  own_var (LS j) (with_copy (LS q) (push (LS j))) s = RThrow "push(): Incompatible types" s.
Proof.
  intros e s j q x v y I N Nv It Ne. assert (Lj : j < length (stk s)) by (eapply ne_lt; eauto). pose proof (item_copy _ _ _ _ _ It Lj) as It1.
  rewrite (own_var_eq j s (MNum v) _ N) by (intros ? ? ?; discriminate). eapply with_copy_throws; eauto; [apply It|].
  apply (push_throws_at _ j (length (stk s)) v x y); try apply It1; auto. eapply temps_slot; [apply temps_push, temps_refl|auto].
Qed.

(** * A size and a value *)
Lemma conv_number : forall s x v, number v = true -> denotes s x (MNum v) -> conv s (HE (ety_of v)) x (MNum v).
Proof.
  intros s x v Nv D. destruct (denotes_der _ _ _ D) as [Dd _]. assert (C : cast (ety_of v) v = Ok v) by (apply cast_self; destruct v; discriminate).
  destruct v; try discriminate; simpl in *; eauto 6.
Qed.
Lemma fill_loop : forall e s0 j l c x v n, j < length (stk s0) -> l = length (mem s0) -> item s0 j c x (MNum v) -> number v = true ->
  forall k i s1 o, i + k = n -> INV e [] s1 -> shrunk (upd j (MPtr l) [Some o] s0) s1 ->
  h_ty o = HE (ety_of v) -> h_view o = None -> h_size o = n -> n <= length (h_cells o) -> (forall m, m < i -> val_at o m = Some (MNum v)) -> (is_char (HE (ety_of v)) = true -> val_at o n = Some NUL) ->
  exists s2 o', fill_from (LS j) (LS c) k (Z.of_nat i) s1 = ROk tt s2 /\ INV e [] s2 /\ shrunk (upd j (MPtr l) [Some o'] s0) s2 /\ elems o' (HE (ety_of v)) (repeat (MNum v) n).
Proof.
  intros e s0 j l c x v n Lj El It Nv. induction k as [|k IH]; intros i s1 o E I1 Sh T V Sz Lc Hv Hn.
  - exists s1, o. split; [reflexivity|]. split; auto. split; auto. replace i with n in Hv by lia. split; rewrite ?repeat_length; auto.
    intros m M. rewrite (Hv m M). symmetry. clear - M. revert m M. induction n as [|n IH]; intros [|m] M; simpl; auto; try lia. apply IH. lia.
  - destruct (upd_obj e [] j l o s0 s1 Lj El Sh I1) as [Nj O]. pose proof (item_upd e [] j _ _ s0 s1 c x _ It Sh I1) as It1.
    destruct (set_at_copy_became e [] s1 j c l i o x (MNum v) I1 Nj (it_slot _ _ _ _ _ It1) O V) as (s2 & E2 & I2 & B2).
    + intros Vl. rewrite T in Vl. destruct v; discriminate.
    + lia.
    + rewrite T. apply conv_number; auto. apply It1.
    + intros Vl. rewrite T in Vl. destruct v; discriminate.
    + destruct (set_val_alike o i (MNum v)) as (A1 & A2 & A3 & A4 & A5).
      destruct (IH (S i) s2 (set_val o i (MNum v))) as (s3 & o' & E3 & I3 & Sh3 & El3); auto; try congruence; try lia.
      * eapply upd_became; eauto.
      * intros m M. rewrite set_val_at by lia. destruct (Nat.eqb_spec m i); auto. apply Hv. lia.
      * intros Ic. rewrite set_val_at by lia. destruct (Nat.eqb_spec n i); [lia|auto].
      * exists s3, o'. split; [|auto]. cbn [fill_from]. rewrite (bind_ok _ _ _ _ _ _ _ E2). replace (Z.of_nat i + 1)%Z with (Z.of_nat (S i)) by lia. exact E3.
Qed.
Lemma fill_start : forall e s f x n, INV e [] s -> operand s f x ->
  exists q s0 r, init_fill (length (stk s)) n f s = (with_copy (LS q) (fill_with (LS r) n) ;; take (LS r)) s0 /\ INV e [] s0 /\ temps s s0 /\ S r = length (stk s0) /\ length (stk s) <= r /\
    nth_error (stk s0) r = Some MNil /\ nth_error (stk s0) q = Some x /\ q <> r.
Proof.
  intros e s f x n I Op. destruct (operand_gives e s s f x I (temps_refl s) Op) as (q & s2 & E2 & I2 & T2 & _ & Nq).
  exists q, (push_s MNil s2), (length (stk s2)). assert (q < length (stk s2)) by (eapply ne_lt; eauto). split; [|split; [|split; [|split; [|split; [|split; [|split]]]]]].
  - unfold init_fill. rewrite (bind_ok _ _ _ _ _ _ _ E2). reflexivity.
  - apply INV_push, INV_add0; auto.
  - apply (temps_push s s2 MNil T2).
  - simpl. rewrite app_length. simpl. lia.
  - destruct T2 as [_ [ws ->]]. rewrite app_length. lia.
  - simpl. rewrite nth_error_app2, Nat.sub_diag by auto. reflexivity.
  - simpl. rewrite nth_error_app1; auto.
  - lia.
Qed.
Lemma fill_end : forall e s f n q s0 r x s1 w ms, init_fill (length (stk s)) n f s = (with_copy (LS q) (fill_with (LS r) n) ;; take (LS r)) s0 -> INV e [] s0 -> temps s s0 -> length (stk s) <= r -> S r = length (stk s0) ->
  nth_error (stk s0) q = Some x -> fill_with (LS r) n (LS (length (stk s0))) (push_s x (bump x s0)) = ROk tt s1 -> INV e [] s1 -> shrunk (upd r w ms (push_s x (bump x s0))) s1 ->
  exists s', exec (SFill n f) s = ROk tt s' /\ INV e [] s' /\ shrunk (adds w ms s) s'.
Proof.
  intros e s f n q s0 r x s1 w ms E I0 T Lr Lr' Nq P I1 Sh.
  destruct (with_copy_upd e s0 q x r w ms (fill_with (LS r) n) s1) as (s2 & E2 & I2 & Sh2); auto; [lia|].
  assert (N : nth_error (stk s2) r = Some w) by (eapply upd_this; eauto; lia).
  eapply (keep_gives e s (init_fill (length (stk s)) n f) s0 s2 r w ms); eauto.
  rewrite E. rewrite (bind_ok _ _ _ _ _ _ _ E2). unfold take. rewrite (bind_ok _ _ _ _ _ _ _ (get_eq (LS r) _ _ N)). rewrite (bind_ok _ _ _ _ _ _ _ (put_eq (LS r) s2 w MNil N)). reflexivity.
Qed.
Lemma not_view_nil : forall s, not_view s MNil.
Proof. intros s k o X. discriminate. Qed.
Lemma fill_few : forall e s f x v n, INV e [] s -> operand s f x -> denotes s x (MNum v) -> exact_elem s x (MNum v) -> number v = true -> n < 2 ->
  exists s', exec (SFill (Z.of_nat n) f) s = ROk tt s' /\ INV e [] s' /\ shrunk (adds (MNum v) [] s) s'.
Proof.
  intros e s f x v n I Op D Ex Nv Ln. destruct (fill_start e s f x (Z.of_nat n) I Op) as (q & s0 & r & E & I0 & T0 & Lr & Lr' & Nr & Nq & Dq).
  assert (Lr0 : r < length (stk s0)) by lia. pose proof (item_start s s0 r q x _ T0 Nq Dq D Ex) as It. pose proof (copied _ _ _ _ _ _ I0 It) as I1. pose proof (item_copy _ _ _ _ _ It Lr0) as It1.
  set (s1 := push_s x (bump x s0)) in *. assert (N1 : nth_error (stk s1) r = Some MNil) by (eapply temps_slot; [apply temps_push, temps_refl|auto]).
  destruct (assign_copy_var e s1 r (length (stk s0)) x (MNum v) MNil I1 N1 (it_slot _ _ _ _ _ It1)) as (s2 & E2 & I2 & Sh2); [intros ? ? ?; discriminate|apply not_view_nil|apply It1|].
  assert (N2 : nth_error (stk s2) r = Some (MNum v)) by (eapply upd_this; eauto; eapply ne_lt; eauto).
  apply (fill_end e s f (Z.of_nat n) q s0 r x s2 (MNum v) []); auto.
  unfold fill_with. rewrite (bind_ok _ _ _ _ _ _ _ (type_of_exact s1 _ x (MNum v) (it_slot _ _ _ _ _ It1) (it_means _ _ _ _ _ It1) (it_exact _ _ _ _ _ It1))).
  cbn [type_code]. replace (vtype v =? 0)%Z with false by (destruct v; try discriminate; reflexivity).
  rewrite (bind_ok _ _ _ _ _ _ _ E2). unfold bind at 1. rewrite (own_var_eq r s2 (MNum v) _ N2) by (intros ? ? ?; discriminate).
  rewrite (resize_few s2 r v n N2 Nv Ln). replace (Z.to_nat (Z.of_nat n - 1)) with 0 by lia. reflexivity.
Qed.
Lemma fill_many : forall e s f x v n, INV e [] s -> operand s f x -> denotes s x (MNum v) -> exact_elem s x (MNum v) -> number v = true -> 2 <= n -> (Z.of_nat n < 2 ^ 30)%Z ->
  exists s' o, exec (SFill (Z.of_nat n) f) s = ROk tt s' /\ INV e [] s' /\ shrunk (adds (MPtr (length (mem s))) [Some o] s) s' /\ elems o (HE (ety_of v)) (repeat (MNum v) n).
Proof.
  intros e s f x v n I Op D Ex Nv Ln Sm. destruct (fill_start e s f x (Z.of_nat n) I Op) as (q & s0 & r & E & I0 & T0 & Lr & Lr' & Nr & Nq & Dq).
  assert (Lr0 : r < length (stk s0)) by lia. pose proof (item_start s s0 r q x _ T0 Nq Dq D Ex) as It. pose proof (copied _ _ _ _ _ _ I0 It) as I1. pose proof (item_copy _ _ _ _ _ It Lr0) as It1.
  set (s1 := push_s x (bump x s0)) in *. assert (N1 : nth_error (stk s1) r = Some MNil) by (eapply temps_slot; [apply temps_push, temps_refl|auto]).
  assert (Lr1 : r < length (stk s1)) by (eapply ne_lt; eauto). assert (Lm1 : length (mem s1) = length (mem s)) by (destruct T0 as [M0 _]; unfold s1; simpl; rewrite bump_mem, M0; auto).
  destruct (assign_copy_var e s1 r (length (stk s0)) x (MNum v) MNil I1 N1 (it_slot _ _ _ _ _ It1)) as (s2 & E2 & I2 & Sh2); [intros ? ? ?; discriminate|apply not_view_nil|apply It1|].
  assert (N2 : nth_error (stk s2) r = Some (MNum v)) by (eapply upd_this; eauto).
  assert (Lm2 : length (mem s2) = length (mem s)) by (destruct Sh2 as (_ & L2 & _); change (mem (upd r (MNum v) [] s1)) with (mem s1 ++ []) in L2; rewrite app_nil_r in L2; congruence).
  destruct (resize_many e s2 r v n I2 N2 Nv Ln Sm) as (o & s3 & E3 & I3 & Sh3 & T & Sz & Vw & Lc & _ & Hn). rewrite Lm2 in Sh3.
  pose proof (upd_upd r (MNum v) _ _ s1 s2 s3 Sh2 Sh3) as Sh3'. destruct (set_val_alike o 0 (MNum v)) as (A1 & A2 & A3 & A4 & A5).
  destruct (fill_loop e s1 r (length (mem s)) (length (stk s0)) x v n Lr1 (eq_sym Lm1) It1 Nv (n - 1) 1 s3 (set_val o 0 (MNum v))) as (s4 & o' & E4 & I4 & Sh4 & El4); auto; try congruence; try lia.
  { intros m M. rewrite set_val_at by lia. destruct m; [reflexivity|lia]. }
  { intros Ic. rewrite set_val_at by lia. destruct (Nat.eqb_spec n 0); [lia|auto]. }
  destruct (fill_end e s f (Z.of_nat n) q s0 r x s4 (MPtr (length (mem s))) [Some o']) as (s' & E' & I' & Sh'); auto; [|exists s', o'; auto].
  unfold fill_with. rewrite (bind_ok _ _ _ _ _ _ _ (type_of_exact s1 _ x (MNum v) (it_slot _ _ _ _ _ It1) (it_means _ _ _ _ _ It1) (it_exact _ _ _ _ _ It1))).
  cbn [type_code]. replace (vtype v =? 0)%Z with false by (destruct v; try discriminate; reflexivity).
  rewrite (bind_ok _ _ _ _ _ _ _ E2). unfold bind at 1. rewrite (own_var_eq r s2 (MNum v) _ N2) by (intros ? ? ?; discriminate).
  rewrite E3. replace (Z.to_nat (Z.of_nat n - 1)) with (n - 1) by lia. exact E4.
Qed.
Lemma fill_throws : forall e s f x y n, INV e [] s -> operand s f x -> denotes s x y -> exact_elem s x y -> type_code y = 0%Z ->
  exists s', exec (SFill n f) s = RThrow "initialise ctor: cannot init from array" s' /\ INV e [] s' /\ shrunk s s'.
Proof.
  intros e s f x y n I Op D Ex Ty. destruct (fill_start e s f x n I Op) as (q & s0 & r & E & I0 & T0 & Lr & Lr' & Nr & Nq & Dq).
  assert (Lr0 : r < length (stk s0)) by lia. pose proof (item_start s s0 r q x _ T0 Nq Dq D Ex) as It. pose proof (item_copy _ _ _ _ _ It Lr0) as It1.
  apply (keep_throws e s (init_fill (length (stk s)) n f) s0 s0 r MNil); auto.
  - rewrite E. unfold bind at 1. rewrite (with_copy_throws e s0 q x (fill_with (LS r) n) "initialise ctor: cannot init from array" I0 Nq); [reflexivity|].
    unfold fill_with. rewrite (bind_ok _ _ _ _ _ _ _ (type_of_exact _ _ x y (it_slot _ _ _ _ _ It1) (it_means _ _ _ _ _ It1) (it_exact _ _ _ _ _ It1))). rewrite Ty. reflexivity.
  - unfold shrunk, upd, obj; simpl. rewrite app_nil_r. rewrite sn_id by auto. auto.
Qed.
