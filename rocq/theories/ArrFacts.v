(** From the descriptions of the methods to the terms of ArrSpec.v. *)
From Coq Require Import ZArith Bool List String Lia.
From Verif Require Import Base StrModel ValModel NumModel AllocModel AllocProof MemModel MemProof MemFun MemEq MemDeref MemTriple MemOps MemArr MemMore MemKey MemElem MemMeth MemList MemRun MemFits ArrSpec MemArrays MemCopy MemThrow MemSelf.
From Verif Require MemDense.
Import ListNotations.
Local Open Scope list_scope.
Local Open Scope mem_scope.
Local Notation length := List.length.

Lemma run_step : forall t p s0 u0 s1, run p s0 = ROk u0 s1 -> run (p ++ [t]) s0 = run [t] s1.
Proof.
  induction p as [|x p IH]; intros s0 u0 s1 H; simpl in *; [inversion H; subst; auto|].
  destruct (exec x s0); try discriminate; eapply IH; eauto.
Qed.
Lemma reachable_step : forall s t s', reachable s -> exec t s = ROk tt s' -> reachable s'.
Proof. intros s t s' [p R] E. exists (p ++ [t]). rewrite (run_step _ _ _ _ _ R). simpl. rewrite E. reflexivity. Qed.
Lemma reachable_throw : forall s t m s', reachable s -> exec t s = RThrow m s' -> reachable s'.
Proof. intros s t m s' [p R] E. exists (p ++ [t]). rewrite (run_step _ _ _ _ _ R). simpl. rewrite E. reflexivity. Qed.
Lemma reachable_fits : forall s, reachable s -> J s.
Proof. intros s [p R]. pose proof (keeps_run p start J_start) as K. rewrite R in K. apply K. Qed.
Lemma array_lt : forall s l t xs, array_at s l t xs -> l < length (mem s).
Proof. intros s l t xs (o & O & _). apply nth_error_Some. congruence. Qed.
(** In a reachable state the elements of arrays have the type of the array. *)
Lemma reachable_dense : forall s, reachable s -> MemDense.D s.
Proof. intros s [p R]. pose proof (MemDense.keeps_run p start MemDense.D_start) as K. rewrite R in K. apply K. Qed.
Lemma reachable_proper : forall s x y, reachable s -> denotes s x y -> proper s x y.
Proof.
  intros s x y R D l i o -> O Nh. destruct D as (o' & k & O' & V & L & N & J & _). assert (o' = o) by congruence. subst o'.
  destruct (reachable_dense s R) as [H _]. pose proof (MemDense.typed_nth o i (k, y) (H l o O) N) as C. unfold MemDense.cell_ok in C.
  destruct (varlike (h_ty o)) eqn:Vl; [exfalso; apply Nh; destruct (h_ty o) as [[]|]; try discriminate; [left|right]; auto|]. destruct C as (_ & [C|(v & C & T)]); [contradiction|]. simpl in C. exists v. split; auto. split; auto.
  intros E. rewrite E in T. rewrite <- T in Vl. discriminate.
Qed.
Lemma reachable_variable : forall s j v, reachable s -> variable s j (MNum v) -> number v = true.
Proof. intros s j v R V. destruct (reachable_dense s R) as [_ F]. rewrite Forall_forall in F. apply (F (MNum v)). eapply nth_error_In; eauto. Qed.
Lemma reachable_number : forall s f x u, reachable s -> operand s f x -> denotes s x (MNum u) -> number u = true.
Proof.
  intros s f x u R Op D. destruct x as [|v|l|l i| |]; simpl in D; try discriminate; try contradiction.
  - inversion D; subst. inversion Op; subst; auto. eapply reachable_variable; eauto.
  - destruct D as (o & k & O & V & L & N & J & _). destruct (reachable_dense s R) as [H _]. pose proof (MemDense.typed_nth o i (k, MNum u) (H l o O) N) as C. destruct (varlike (h_ty o)) eqn:Vl.
    + unfold MemDense.cell_ok in C. rewrite Vl in C. apply C.
    + apply (MemDense.dense_okv _ _ Vl C). discriminate.
Qed.
Lemma reachable_map_value : forall s l kvs k v, reachable s -> map_at s l kvs -> In (k, v) kvs -> v <> MJunk.
Proof.
  intros s l kvs k v R (o & O & V & T & Sz & F) X J. subst v. destruct (reachable_dense s R) as [H _]. destruct (H l o O) as [C _]. rewrite T in C. rewrite Forall_forall in C.
  assert (Y : In (k, MJunk) (h_cells o)) by (rewrite <- (firstn_skipn (length kvs) (h_cells o)), F; apply in_or_app; auto). apply C in Y. apply Y.
Qed.
Lemma variable_array : forall s j l t xs, reachable s -> variable s j (MPtr l) -> array_at s l t xs -> exists e o, INV e [] s /\ obj l s = Some o /\
  h_view o = None /\ h_ty o = t /\ h_size o = length xs /\ length xs <= length (h_cells o) /\ l < length (mem s) /\ forall k, k < length xs -> val_at o k = nth_error xs k.
Proof.
  intros s j l t xs R V A. destruct (reachable_INV s R) as [e I]. pose proof (array_lt _ _ _ _ A). destruct (array_obj _ _ _ _ A) as (o & ?).
  exists e, o. intuition.
Qed.
Lemma only_others : forall l s s', only_array l s s' -> others l s s'.
Proof. intros l s s' (_ & L & H). split; [lia|]. intros k o K _ O. eauto. Qed.
(** The values of an array as a list. *)
Definition vals (o : hobj) (n : nat) : list mvar := firstn n (map snd (h_cells o)).
Lemma vals_nth : forall o n k, n <= length (h_cells o) -> nth_error (vals o n) k = if (k <? n)%nat then val_at o k else None.
Proof. intros o n k L. unfold vals. rewrite nth_firstn. unfold val_at. rewrite nth_error_map. auto. Qed.
Lemma vals_len : forall o n, n <= length (h_cells o) -> length (vals o n) = n.
Proof. intros. unfold vals. rewrite firstn_length, map_length. lia. Qed.
Lemma array_vals : forall s l o, obj l s = Some o -> h_view o = None -> h_size o <= length (h_cells o) -> array_at s l (h_ty o) (vals o (h_size o)).
Proof.
  intros s l o O V L. pose proof (vals_len o (h_size o) L) as E. eapply obj_array; eauto. rewrite E. intros k K. rewrite vals_nth by auto. apply Nat.ltb_lt in K. rewrite K. auto.
Qed.
Lemma size_fits : forall s l o, reachable s -> obj l s = Some o -> small (h_size o) -> h_size o + (if is_char (h_ty o) then 1 else 0) <= length (h_cells o).
Proof. intros s l o R O S. apply (reachable_fits s R l o); auto. apply obj_live; auto. Qed.
Lemma grown_array : forall s l o o' s' xs n, obj l s = Some o -> h_view o = None -> h_size o = length xs -> length xs <= length (h_cells o) ->
  (forall k, k < length xs -> val_at o k = nth_error xs k) -> grown n o o' -> obj l s' = Some o' ->
  exists xs', array_at s' l (h_ty o) xs' /\ length xs' = n /\ firstn (Nat.min (length xs) n) xs' = firstn (Nat.min (length xs) n) xs.
Proof.
  intros s l o o' s' xs n O V Sz L H G O'. pose proof G as (T & V' & S' & C & _). assert (C' : n <= length (h_cells o')) by lia.
  exists (vals o' n). rewrite <- T. split; [rewrite <- S'; apply array_vals; auto; [congruence|lia]|]. split; [apply vals_len; auto|].
  apply nth_ext. intros k. rewrite !nth_firstn. destruct (Nat.ltb_spec k (Nat.min (length xs) n)); auto. rewrite vals_nth by auto.
  destruct (Nat.ltb_spec k n); [|lia]. rewrite (grown_val n o o') by (auto; lia). apply H. lia.
Qed.
Lemma grown_terminated : forall s l n o o', grown n o o' -> is_char (h_ty o) = true -> obj l s = Some o' -> terminated s l.
Proof.
  intros s l n o o' G C O. pose proof (grown_nul _ _ _ G C) as N. unfold val_at in N. destruct (nth_error (h_cells o') n) as [[k v]|] eqn:E; [|discriminate].
  simpl in N. injection N as ->. exists o', k. split; [apply obj_live; auto|]. destruct G as (_ & _ & -> & _). auto.
Qed.
Lemma nul_terminated : forall s l o, obj l s = Some o -> val_at o (h_size o) = Some NUL -> terminated s l.
Proof.
  intros s l o O N. unfold val_at in N. destruct (nth_error (h_cells o) (h_size o)) as [[k v]|] eqn:E; [|discriminate]. simpl in N. injection N as ->.
  exists o, k. split; auto. apply obj_live; auto.
Qed.
Lemma list_array : forall s l o xs, obj l s = Some o -> h_view o = None -> h_size o = length xs ->
  (forall k, k < length xs -> val_at o k = nth_error xs k) -> array_at s l (h_ty o) xs.
Proof. intros. eapply obj_array; eauto. Qed.
Lemma pushed_array : forall s l o o' z xs, obj l s = Some o' -> h_view o = None -> h_size o = length xs -> length xs <= length (h_cells o) ->
  (forall k, k < length xs -> val_at o k = nth_error xs k) -> pushed o (length xs) z o' -> array_at s l (h_ty o) (xs ++ [z]) /\ (is_char (h_ty o) = true -> val_at o' (h_size o') = Some NUL).
Proof.
  intros s l o o' z xs O V Sz L H (o1 & G & ->). pose proof G as (T & V' & S' & C & _). destruct (set_val_alike o1 (length xs) z) as (A1 & A2 & A3 & A4 & A5).
  assert (Lc : length xs < length (h_cells o1)) by lia. split.
  - rewrite <- T, <- A1. apply list_array; auto; [congruence|rewrite app_length; simpl; lia|].
    intros k K. rewrite app_length in K. simpl in K. rewrite set_val_at by auto. destruct (Nat.eqb_spec k (length xs)) as [->|D].
    + rewrite nth_error_app2, Nat.sub_diag by auto. reflexivity.
    + rewrite (grown_val _ _ _ k G) by lia. rewrite nth_error_app1 by lia. apply H. lia.
  - intros Ch. rewrite A2, S', set_val_at by auto. destruct (Nat.eqb_spec (S (length xs)) (length xs)); [lia|]. apply (grown_nul _ _ _ G Ch).
Qed.
Lemma proper_exact : forall s x y, proper s x y -> exact_elem s x y.
Proof.
  intros s x y P l i o E O V. apply obj_live in O. destruct (P l i o E O) as (v & -> & T & _); eauto.
  intros [X|X]; rewrite X in V; discriminate.
Qed.
Lemma assignable_ok : forall s x, assignable s x -> nonref x /\ not_view s x.
Proof. intros s x [A B]. split; auto. intros k o E O. apply (B k o); auto. apply obj_live; auto. Qed.
Lemma holds_varlike_iff : forall t, varlike t = true -> holds_vars t.
Proof. intros [[]|]; simpl; intros; try discriminate; unfold holds_vars; auto. Qed.
Lemma is_char_eq : forall t, t = HE TChar -> is_char t = true. Proof. intros t ->. reflexivity. Qed.
Lemma replaced_sn : forall A (l : list A) i x, i < length l -> replaced l i x = set_nth l i x.
Proof.
  unfold replaced. induction l as [|a l IH]; intros [|i] x H; simpl in *; try lia; auto. f_equal. rewrite <- (IH i x) by lia. reflexivity.
Qed.
(** * Declarations and expression statements *)
Lemma declare_gives : forall f s r s1, named f = false -> eval (length (stk s)) f s = ROk (LS (length (stk s))) (push_s r s1) -> stk s1 = stk s ->
  exec (SDecl f) s = ROk tt (push_s r s1).
Proof.
  intros f s r s1 Nf E St. unfold exec, declare, keep_value.
  assert (X : (let! v := eval (length (stk s)) f in if named f then copy_of v else take v) s = ROk r {| mem := mem s1; rc := rc s1; stk := stk s ++ [MNil] |}).
  { rewrite (bind_ok _ _ _ _ _ _ _ E). replace (if named f then copy_of (LS (length (stk s))) else take (LS (length (stk s)))) with (take (LS (length (stk s)))) by (rewrite Nf; reflexivity).
    unfold take. rewrite (bind_ok _ _ _ _ _ r (push_s r s1)); [|apply get_eq; simpl; rewrite <- St, nth_error_app2, Nat.sub_diag by auto; reflexivity].
    unfold bind, put. simpl. rewrite app_length. simpl. destruct (Nat.ltb_spec (length (stk s)) (length (stk s1) + 1)) as [|L]; [|rewrite St in L; lia].
    rewrite <- St. rewrite sn_app2. reflexivity. }
  rewrite X. unfold bind, leave. simpl. rewrite skipn_app, skipn_all, Nat.sub_diag, firstn_app, firstn_all, Nat.sub_diag. simpl. rewrite app_nil_r.
  unfold release. simpl. unfold temp, ret, push_s. simpl. rewrite St. reflexivity.
Qed.
Lemma eval_pop : forall s j l r s1, variable s j (MPtr l) -> pop (LS j) s = ROk r s1 -> stk s1 = stk s ->
  eval (length (stk s)) (EPop (EVar j)) s = ROk (LS (length (stk s))) (push_s r s1).
Proof.
  intros s j l r s1 Vj E St. change (eval (length (stk s)) (EPop (EVar j))) with (let! v := eval (length (stk s)) (EVar j) in let! x := pop v in temp x).
  rewrite (bind_ok _ _ _ _ _ _ _ (eval_var s j _ _ Vj eq_refl s)). rewrite (bind_ok _ _ _ _ _ _ _ E). unfold temp. rewrite <- St. reflexivity.
Qed.
Lemma eval_shift : forall s j l r s1, variable s j (MPtr l) -> shift (LS j) s = ROk r s1 -> stk s1 = stk s ->
  eval (length (stk s)) (EShift (EVar j)) s = ROk (LS (length (stk s))) (push_s r s1).
Proof.
  intros s j l r s1 Vj E St. change (eval (length (stk s)) (EShift (EVar j))) with (let! v := eval (length (stk s)) (EVar j) in let! x := shift v in temp x).
  rewrite (bind_ok _ _ _ _ _ _ _ (eval_var s j _ _ Vj eq_refl s)). rewrite (bind_ok _ _ _ _ _ _ _ E). unfold temp. rewrite <- St. reflexivity.
Qed.
Lemma eval_copy : forall s j l r s1, variable s j (MPtr l) -> copy (LS j) s = ROk r s1 -> stk s1 = stk s ->
  eval (length (stk s)) (ECopy (EVar j)) s = ROk (LS (length (stk s))) (push_s r s1).
Proof.
  intros s j l r s1 Vj E St. change (eval (length (stk s)) (ECopy (EVar j))) with (let! v := eval (length (stk s)) (EVar j) in let! x := copy v in temp x).
  rewrite (bind_ok _ _ _ _ _ _ _ (eval_var s j _ _ Vj eq_refl s)). rewrite (bind_ok _ _ _ _ _ _ _ E). unfold temp. rewrite <- St. reflexivity.
Qed.
Lemma eval_index : forall s j l o i, sound s -> variable s j (MPtr l) -> obj l s = Some o -> h_view o = None -> i < h_size o ->
  eval (length (stk s)) (EIdx (EVar j) (Z.of_nat i)) s = ROk (LS (length (stk s))) (push_s (MRef l i) (bump (MRef l i) s)).
Proof.
  intros s j l o i Sd Vj O V Li. change (eval (length (stk s)) (EIdx (EVar j) (Z.of_nat i))) with (let! v := eval (length (stk s)) (EVar j) in let! x := index_int v (Z.of_nat i) in temp x).
  rewrite (bind_ok _ _ _ _ _ _ _ (eval_var s j _ _ Vj eq_refl s)). 
  rewrite (bind_ok _ _ _ _ _ _ _ (index_in_ptr s (LS j) l (Z.of_nat i) o Sd Vj O V ltac:(lia))). rewrite Nat2Z.id. unfold temp. rewrite bump_stk. reflexivity.
Qed.
(** [a.pop();] *)
Lemma exec_pop_eval : forall e s j l n o, INV e [] s -> variable s j (MPtr l) -> obj l s = Some o -> h_view o = None -> h_size o = S n -> small n ->
  exists s' o', exec (SEval (EPop (EVar j))) s = ROk tt s' /\ INV e [] s' /\ became l o' s s' /\ grown n o o'.
Proof.
  intros e s j l n o I Vj O V Sz H. pose proof (obj_lt _ _ _ O) as Ll.
  destruct (pop_gives e s j l n o I Vj O V Sz H) as (s1 & o' & E1 & Es1 & I1 & G). assert (St : stk s1 = stk s) by (rewrite Es1, bump_stk; reflexivity).
  destruct (eval_gives e s (EPop (EVar j)) (length (stk s)) (push_s (MRef l n) s1) [MRef l n]) as (s2 & E2 & I2 & Sh).
  - eapply eval_pop; eauto.
  - apply INV_push; auto.
  - simpl. congruence.
  - exists s2, o'. split; auto. split; auto. split; auto. assert (Sh' : shrunk (set_mem l o' s) s2).
    { eapply shrunk_trans; [|exact Sh]. rewrite Es1. split; [reflexivity|]. split; [reflexivity|]. intros k a. auto. }
    split; auto. apply (shrunk_obj e [] _ s2 j (MPtr l) l o' Sh' I2); auto. rewrite obj_set_mem by auto. rewrite Nat.eqb_refl. auto.
Qed.
Lemma exec_shift_eval : forall e s j l n o x, INV e [] s -> variable s j (MPtr l) -> obj l s = Some o -> h_view o = None -> h_size o = S n ->
  h_size o <= length (h_cells o) -> small n -> val_at o 0 = Some x -> x <> MJunk ->
  exists s' o', exec (SEval (EShift (EVar j))) s = ROk tt s' /\ INV e [] s' /\ became l o' s s' /\ shifted o n o'.
Proof.
  intros e s j l n o x I Vj O V Sz Cp H Hx Nx. pose proof (obj_lt _ _ _ O) as Ll.
  destruct (shift_gives e s j l n o x I Vj O V Sz Cp H Hx Nx) as (s1 & o' & E1 & I1 & B & G). pose proof (became_stk _ _ _ _ B) as St.
  destruct (eval_gives e s (EShift (EVar j)) (length (stk s)) (push_s x s1) [x]) as (s2 & E2 & I2 & Sh).
  - eapply eval_shift; eauto.
  - apply INV_push; auto.
  - simpl. congruence.
  - exists s2, o'. split; auto. split; auto. split; auto. assert (Sh' : shrunk s1 s2).
    { eapply shrunk_trans; [|exact Sh]. split; [simpl; congruence|]. split; [reflexivity|]. intros k a. auto. }
    split; [eapply shrunk_trans; [apply B|auto]|]. apply (shrunk_obj e [] s1 s2 j (MPtr l) l o' Sh' I2); auto; [rewrite St; auto|apply B].
Qed.
Lemma enlarged_capacity : forall c t n c', (Z.of_nat n < 2 ^ 30)%Z -> enlarged c t n c' -> capacity_after c t n c'.
Proof.
  intros c t n c' H (z & E & ->). unfold capacity_after. rewrite allocSize_ok in E by (destruct (is_char t); lia). injection E as <-.
  destruct t as [[]|]; reflexivity.
Qed.
(** * Appending is inserting at the end *)
Lemma append_insert : forall s j l o p, nth_error (stk s) j = Some (MPtr l) -> obj l s = Some o -> h_view o = None ->
  append (LS j) p s = insert (LS j) p (Z.of_nat (h_size o)) s.
Proof. intros s j l o p N O V. unfold append. rewrite (bind_ok _ _ _ _ _ _ _ (ptr_size s (LS j) l N o O V)). reflexivity. Qed.
Lemma without_nth : forall A (xs : list A) i k, nth_error (without xs i) k = if (k <? i)%nat then nth_error xs k else nth_error xs (S k).
Proof.
  intros A xs i k. unfold without. destruct (Nat.le_gt_cases (length xs) k) as [L|L].
  - rewrite !(proj2 (nth_error_None xs _)) by lia. replace (if (k <? i)%nat then None else None) with (@None A) by (destruct (k <? i)%nat; auto).
    apply nth_error_None. rewrite app_length, firstn_length, skipn_length. lia.
  - destruct (Nat.ltb_spec k i).
    + rewrite nth_error_app1 by (rewrite firstn_length; lia). rewrite nth_firstn. destruct (Nat.ltb_spec k i); auto. lia.
    + rewrite nth_error_app2 by (rewrite firstn_length; lia). rewrite nth_skipn, firstn_length. f_equal. lia.
Qed.
Lemma without_len : forall A (xs : list A) i n, length xs = S n -> i <= n -> length (without xs i) = n.
Proof. intros A xs i n L H. unfold without. rewrite app_length, firstn_length, skipn_length. lia. Qed.
Lemma removed_array : forall s l o o' xs n i, obj l s = Some o' -> h_view o = None -> length xs = S n -> i <= n ->
  (forall k, k < length xs -> val_at o k = nth_error xs k) -> removed o n i o' -> array_at s l (h_ty o) (without xs i).
Proof.
  intros s l o o' xs n i O V L Li H (T & V' & S' & P & _). rewrite <- T. pose proof (without_len _ xs i n L Li) as Lw. apply list_array; auto; try congruence.
  rewrite Lw. intros k K. rewrite P, without_nth by auto. destruct (k <? i)%nat; apply H; lia.
Qed.
Lemma copyable_size : forall s t y, reachable s -> copyable_elem s y -> forall k ok, is_ptr t y = Some k -> obj k s = Some ok ->
  h_view ok = None /\ h_size ok <= length (h_cells ok) /\ (Z.of_nat (h_size ok) < 2 ^ 30)%Z.
Proof.
  intros s t y R [_ C] k ok E O. unfold is_ptr in E. destruct (varlike t); [|discriminate]. destruct y; try discriminate. injection E as ->.
  destruct (C k ok eq_refl (proj1 (obj_live _ _ _) O)) as [V Sm]. split; auto. pose proof (size_fits s k ok R O Sm). split; auto. lia.
Qed.
Lemma exec_append : forall e s j l o f x, INV e [] s -> variable s j (MPtr l) -> obj l s = Some o -> h_view o = None -> operand s f x ->
  exec (SAppend (EVar j) f) s = exec (SInsert (EVar j) f (Z.of_nat (h_size o))) s.
Proof.
  intros e s j l o f x I V O Vo Op. destruct (operand_exact e s f x I Op) as (q & s1 & E & N & Hx & S1).
  change (finish (length (stk s)) (let! v := eval (length (stk s)) (EVar j) in let! p := eval (length (stk s)) f in with_copy p (append v)) s =
          finish (length (stk s)) (let! v := eval (length (stk s)) (EVar j) in let! p := eval (length (stk s)) f in with_copy p (fun q => insert v q (Z.of_nat (h_size o)))) s).
  unfold finish. rewrite !(bind_ok _ _ _ _ _ _ _ (eval_var s j _ _ V eq_refl s)). rewrite !(bind_ok _ _ _ _ _ _ _ E).
  assert (T : temps s s1) by (destruct S1 as [->| ->]; [apply temps_refl|apply temps_push, temps_refl]).
  assert (X : with_copy (LS q) (append (LS j)) s1 = with_copy (LS q) (fun q => insert (LS j) q (Z.of_nat (h_size o))) s1); [|rewrite X; auto].
  assert (Sd : sound s1) by (destruct S1 as [->| ->]; [|assert (I1 : INV e [] (push_s x (bump x s))) by (apply INV_push, INV_bump; auto)]; eapply INV_sound; eauto).
  unfold with_copy. rewrite !(bind_ok _ _ _ _ _ _ _ (copy_of_eq (LS q) s1 x Sd N)). unfold scoped. fold (push_s x (bump x s1)).
  pose proof (temps_push s s1 x T) as T2. rewrite (append_insert (push_s x (bump x s1)) j l o _); auto; [eapply temps_slot; eauto|rewrite (temps_obj _ _ _ T2); auto].
Qed.
