(** Methods that refuse: the state afterwards is the state before.  Also pushing onto an
    undefined variable. *)
From Coq Require Import ZArith Bool List String Lia.
From Verif Require Import Base StrModel ValModel NumModel AllocModel AllocProof MemModel MemProof MemFun MemEq MemDeref MemTriple MemOps MemArr MemMore MemKey MemElem MemMeth MemList MemRun ArrSpec MemArrays MemCopy.
Import ListNotations.
Local Open Scope list_scope.
Local Open Scope mem_scope.
Local Notation length := List.length.

Lemma operand_exact : forall e s f x, INV e [] s -> operand s f x ->
  exists q s1, eval (length (stk s)) f s = ROk (LS q) s1 /\ nth_error (stk s1) q = Some x /\ held x s /\ (s1 = s \/ s1 = push_s x (bump x s)).
Proof.
  intros e s f x I O. pose proof (INV_sound _ _ _ I) as Sd.
  assert (K : forall k y, variable s k y -> eval (length (stk s)) (EVar k) s = ROk (LS k) s) by (intros; eapply eval_var; eauto).
  assert (P : forall y, nth_error (stk (push_s y (bump y s))) (length (stk s)) = Some y).
  { intros y. simpl. rewrite bump_stk, nth_error_app2, Nat.sub_diag by auto. reflexivity. }
  destruct O as [k x V|v Nv| |k l i V Hi|k l t xs i V A Hi].
  - exists k, s. split; [eauto|]. split; auto. split; auto. apply (getv_held (LS k)); auto.
  - exists (length (stk s)), (push_s (MNum v) (bump (MNum v) s)). split; [simpl; rewrite Nv; reflexivity|]. split; [apply P|]. split; auto. intros ? ?; discriminate.
  - exists (length (stk s)), (push_s MNil (bump MNil s)). split; [reflexivity|]. split; [apply P|]. split; auto. intros ? ?; discriminate.
  - exists (length (stk s)), (push_s (MRef l (Z.to_nat i)) (bump (MRef l (Z.to_nat i)) s)).
    split; [|split; [apply P|split; auto; apply (held_ptr (LS k)); auto]].
    change (eval (length (stk s)) (EAt (EVar k) i)) with (let! v := eval (length (stk s)) (EVar k) in let! x := at_int v i in temp x).
    rewrite (bind_ok _ _ _ _ _ _ _ (K _ _ V)). rewrite (bind_ok _ _ _ _ _ _ _ (at_int_ptr s (LS k) l i Sd V Hi)). reflexivity.
  - exists (length (stk s)), (push_s (MRef l (Z.to_nat i)) (bump (MRef l (Z.to_nat i)) s)).
    split; [|split; [apply P|split; auto; apply (held_ptr (LS k)); auto]].
    change (eval (length (stk s)) (EIdx (EVar k) i)) with (let! v := eval (length (stk s)) (EVar k) in let! x := index_int v i in temp x).
    rewrite (bind_ok _ _ _ _ _ _ _ (K _ _ V)). destruct (array_obj _ _ _ _ A) as (o & O & Vw & _ & Sz & _).
    rewrite (bind_ok _ _ _ _ _ _ _ (index_in_ptr s (LS k) l i o Sd V O Vw ltac:(lia))). reflexivity.
Qed.
Lemma leave_exact : forall e s x s1, INV e [] s -> held x s -> s1 = s \/ s1 = push_s x (bump x s) -> leave (length (stk s)) s1 = ROk tt s.
Proof.
  intros e s x s1 I H [->| ->]; unfold leave.
  - rewrite firstn_all, skipn_all. destruct s; reflexivity.
  - unfold push_s; simpl. rewrite bump_stk, firstn_app, Nat.sub_diag, firstn_all, skipn_app, skipn_all, Nat.sub_diag; simpl. rewrite app_nil_r.
    destruct (INV_sound _ _ _ I) as (C & _). rewrite <- (release_bump x s C H). destruct (bump x s) as [m r t] eqn:E. simpl. f_equal.
    pose proof (bump_stk x s) as Es. rewrite E in Es. simpl in Es. subst t. reflexivity.
Qed.
Lemma with_copy_throws : forall e s q x (f : lval -> M unit) msg, INV e [] s -> nth_error (stk s) q = Some x ->
  f (LS (length (stk s))) (push_s x (bump x s)) = RThrow msg (push_s x (bump x s)) -> with_copy (LS q) f s = RThrow msg s.
Proof.
  intros e s q x f msg I N H. pose proof (INV_sound _ _ _ I) as Sd. unfold with_copy. rewrite (bind_ok _ _ _ _ _ _ _ (copy_of_eq (LS q) s x Sd N)).
  eapply scoped_throw with (v' := x) (s1 := bump x s); [rewrite bump_stk; exact H|reflexivity|]. apply release_bump; [apply Sd|apply (getv_held (LS q)); auto].
Qed.
Lemma exec_two_throws : forall st (g : lval -> lval -> M unit) j f e s w x msg,
  (forall nv s, exec st s = finish (length (stk s)) (body (length (stk s)) st) s /\
     body nv st = (let! v := eval nv (EVar j) in let! p := eval nv f in with_copy p (g v))) ->
  INV e [] s -> variable s j w -> operand s f x ->
  (forall s1 q, INV e [] s1 -> temps s s1 -> nth_error (stk s1) q = Some x -> g (LS j) (LS q) s1 = RThrow msg s1) ->
  exec st s = RThrow msg s.
Proof.
  intros st g j f e s w x msg Hst I Nj Op H.
  destruct (operand_exact e s f x I Op) as (q & s1 & E1 & Nq & Hx & C).
  assert (I1 : INV e [] s1) by (destruct C as [->| ->]; auto; apply INV_push, INV_bump; auto).
  assert (T1 : temps s s1) by (destruct C as [->| ->]; [apply temps_refl|apply temps_push, temps_refl]).
  destruct (Hst (length (stk s)) s) as [Ee Eb]. rewrite Ee. unfold finish. rewrite Eb.
  rewrite (bind_ok _ _ _ _ _ _ _ (eval_var s j _ _ Nj eq_refl s)). rewrite (bind_ok _ _ _ _ _ _ _ E1).
  rewrite (with_copy_throws e s1 q x (g (LS j)) msg); auto.
  - unfold bind. rewrite (leave_exact e s x s1); auto.
  - apply H.
    + apply INV_push, INV_bump; auto. apply (getv_held (LS q) s1); auto. apply (INV_sound _ _ _ I1).
    + apply temps_push; auto.
    + simpl. rewrite bump_stk, nth_error_app2, Nat.sub_diag by auto. reflexivity.
Qed.
Lemma insert_throws : forall e s j l o f x i, INV e [] s -> variable s j (MPtr l) -> obj l s = Some o -> h_view o = None -> operand s f x ->
  (Z.of_nat (h_size o) < i)%Z -> exec (SInsert (EVar j) f i) s = RThrow too_large s.
Proof.
  intros e s j l o f x i I Vj O V Op L.
  apply (exec_two_throws (SInsert (EVar j) f i) (fun v p => insert v p i) j f e s (MPtr l) x); auto.
  intros s1 q I1 T1 Nq. unfold insert. pose proof (temps_slot _ _ _ _ T1 Vj) as Nj. rewrite <- (temps_obj _ _ l T1) in O.
  rewrite (bind_ok _ _ _ _ _ _ _ (ptr_size s1 (LS j) l Nj o O V)). destruct (Z.ltb_spec (Z.of_nat (h_size o)) i); [reflexivity|lia].
Qed.
(** The code of the type of the value an operand stands for. *)
Definition type_code (y : mvar) : Z := match y with MNum v => vtype v | MBad => 8%Z | _ => 0%Z end.
Lemma type_of_denotes : forall s p x y, nth_error (stk s) p = Some x -> denotes s x y ->
  (forall l i o v, x = MRef l i -> obj l s = Some o -> varlike (h_ty o) = false -> y = MNum v -> h_ty o = HE (ety_of v)) ->
  (forall l i o, x = MRef l i -> obj l s = Some o -> varlike (h_ty o) = false -> exists v, y = MNum v) ->
  type_of (LS p) s = ROk (type_code y) s.
Proof.
  intros s p x y N D T1 T2. unfold type_of. rewrite (bind_ok _ _ _ _ _ _ _ (get_eq (LS p) _ _ N)).
  destruct x; simpl in D; try contradiction; try (subst y; reflexivity).
  destruct D as (o & k & O & V & L & C & J & Nr). apply obj_live in O.
  simpl eff. destruct (varlike (h_ty o)) eqn:Vl.
  - rewrite (bind_ok _ _ _ _ s y s).
    + destruct y; try reflexivity; [exfalso; eapply Nr; eauto|congruence].
    + rewrite (bind_ok _ _ _ _ _ _ _ (get_obj_eq _ _ _ O)). unfold plain_vars. rewrite V, Vl, C. destruct y; try reflexivity. exfalso; eapply Nr; eauto.
  - destruct (T2 l i o eq_refl O Vl) as [v ->]. rewrite (bind_ok _ _ _ _ s (MRef l i) s).
    + rewrite (bind_ok _ _ _ _ _ _ _ (get_obj_eq _ _ _ O)). unfold obj_type. pose proof (T1 l i o v eq_refl O Vl eq_refl) as T. rewrite T in Vl. rewrite V, T. destruct v; try reflexivity; discriminate.
    + rewrite (bind_ok _ _ _ _ _ _ _ (get_obj_eq _ _ _ O)). unfold plain_vars. rewrite V, Vl. reflexivity.
Qed.
(** An element of a dense array is a number of the array's type. *)
Definition exact_elem (s : state) (x y : mvar) : Prop :=
  forall l i o, x = MRef l i -> obj l s = Some o -> varlike (h_ty o) = false -> exists v, y = MNum v /\ h_ty o = HE (ety_of v).
Lemma temps_exact : forall s s1 x y, temps s s1 -> exact_elem s x y -> exact_elem s1 x y.
Proof. intros s s1 x y T Ex l i o E O V. rewrite (temps_obj _ _ _ T) in O. eauto. Qed.
Lemma type_of_exact : forall s q x y, nth_error (stk s) q = Some x -> denotes s x y -> exact_elem s x y -> type_of (LS q) s = ROk (type_code y) s.
Proof.
  intros s q x y N D Ex. apply (type_of_denotes s q x y N D).
  - intros l i o u E O V Ey. destruct (Ex l i o E O V) as (u' & A & B). congruence.
  - intros l i o E O V. destruct (Ex l i o E O V) as (u' & A & B). eauto.
Qed.
Lemma push_throws_at : forall s1 j q v x y, nth_error (stk s1) j = Some (MNum v) -> number v = true -> nth_error (stk s1) q = Some x -> denotes s1 x y -> exact_elem s1 x y ->
  type_code y <> vtype v -> push (LS j) (LS q) s1 = RThrow "push(): Incompatible types" s1.
Proof.
  intros s1 j q v x y Nj Nv Nq D Ex Ne. pose proof (type_of_exact s1 q x y Nq D Ex) as Et.
  unfold push. rewrite (bind_ok _ _ (defined (LS j)) _ s1 true s1).
  - rewrite (bind_ok _ _ _ _ _ _ _ Et). change (negb true) with false. cbv iota zeta.
    rewrite (bind_ok _ _ (type_of (LS j)) _ s1 (vtype v) s1).
    + assert (E1 : (vtype v =? 0)%Z = false) by (destruct v; try reflexivity; discriminate). rewrite E1. destruct (Z.eqb_spec (type_code y) (vtype v)); [congruence|]. reflexivity.
    + unfold type_of. rewrite (bind_ok _ _ _ _ _ _ _ (get_eq (LS j) _ _ Nj)). reflexivity.
  - unfold defined. rewrite (bind_ok _ _ _ _ _ _ _ (get_eq (LS j) _ _ Nj)). reflexivity.
Qed.
Lemma push_throws : forall e s j v f x y, INV e [] s -> variable s j (MNum v) -> number v = true -> operand s f x -> denotes s x y -> exact_elem s x y ->
  type_code y <> vtype v -> exec (SPush (EVar j) f) s = RThrow "push(): Incompatible types" s.
Proof.
  intros e s j v f x y I Vj Nv Op D Ex Ne.
  apply (exec_two_throws (SPush (EVar j) f) push j f e s (MNum v) x); auto.
  intros s1 q I1 T1 Nq. apply (push_throws_at s1 j q v x y); auto; [apply (temps_slot _ _ _ _ T1 Vj)|apply (temps_denotes _ _ _ _ T1 D)|apply (temps_exact _ _ _ _ T1 Ex)].
Qed.

(** * Pushing onto an undefined variable *)
Lemma new_vars_gives : forall e F s n, INV e F s -> (Z.of_nat n < 2 ^ 30)%Z ->
  exists o, new_heap (HE TVar) n s = ROk (MPtr (length (mem s))) (new_st o s) /\ INV e (MPtr (length (mem s)) :: F) (new_st o s) /\
    h_ty o = HE TVar /\ h_size o = n /\ h_view o = None /\ n <= length (h_cells o) /\ forall k v, val_at o k = Some v -> v = MNil.
Proof.
  intros e F s n I Sm. destruct (alloc_ex (HE TVar) n Sm) as (c & Ec & Hc). simpl in Hc.
  set (cs := terminate (HE TVar) n (repeat (fresh (HE TVar)) (Z.to_nat c))).
  assert (E1 : new_cells (HE TVar) n s = ROk cs s).
  { unfold new_cells. rewrite Ec. rewrite (bind_ok _ _ (lift (Base.Ok c)) _ s c s eq_refl). destruct (Z.ltb_spec c 0); [lia|reflexivity]. }
  pose proof (rs_new_cells False s (HE TVar) n) as Z0. unfold rs in Z0. rewrite E1 in Z0. destruct Z0 as (_ & Z0).
  exists (mkobj (HE TVar) n 0 cs None). split; [|split; [|split; [reflexivity|split; [reflexivity|split; [reflexivity|split]]]]].
  - unfold new_heap. rewrite (bind_ok _ _ _ _ _ _ _ E1). reflexivity.
  - apply INV_new; [|split; simpl; [auto|congruence]]. eapply INV_perm; eauto. intros k. rewrite occ_app, occ_contents. simpl. rewrite Z0. simpl. lia.
  - simpl. unfold cs, terminate; simpl. rewrite repeat_length. lia.
  - intros k v. unfold val_at, cs, terminate; simpl. destruct (nth_error (repeat _ _) k) as [[a b]|] eqn:N; [|discriminate].
    apply nth_error_In, repeat_spec in N. unfold fresh in N; simpl in N. inversion N; subst. simpl. congruence.
Qed.
Lemma resize_nil_gives : forall e F s j n, INV e F s -> nth_error (stk s) j = Some MNil -> (Z.of_nat n < 2 ^ 30)%Z ->
  exists o s', resize (LS j) (Z.of_nat n) s = ROk tt s' /\ s' = putv (LS j) (MPtr (length (mem s))) (new_st o s) /\ INV e F s' /\
    h_ty o = HE TVar /\ h_size o = n /\ h_view o = None /\ n <= length (h_cells o) /\ forall k v, val_at o k = Some v -> v = MNil.
Proof.
  intros e F s j n I N Sm. destruct (new_vars_gives e F s n I Sm) as (o & E & I1 & P). set (L := length (mem s)) in *.
  exists o, (putv (LS j) (MPtr L) (new_st o s)). assert (G : getv (LS j) s = Some MNil) by exact N. assert (G1 : getv (LS j) (new_st o s) = Some MNil) by exact N.
  split; [|split; [auto|split; [|exact P]]].
  - unfold resize. destruct (Z.ltb_spec (Z.of_nat n) 0); [lia|]. rewrite (bind_ok _ _ _ _ _ _ _ (deref_nonref _ _ _ G ltac:(intros ? ? ?; discriminate))).
    rewrite (bind_ok _ _ (heap_of (LS j)) _ s None s).
    + rewrite (bind_ok _ _ _ _ _ _ _ (get_eq _ _ _ G)). rewrite Nat2Z.id. rewrite (bind_ok _ _ _ _ _ _ _ E). apply (put_eq _ _ _ _ G1).
    + unfold heap_of. rewrite (bind_ok _ _ _ _ _ _ _ (get_eq _ _ _ G)). reflexivity.
  - pose proof (INV_putv e F (new_st o s) (LS j) (MPtr L) MNil) as P2. specialize (P2 I1 G1 Logic.I).
    eapply INV_perm; eauto.
Qed.


(** A statement that changes variable [j] and adds arrays. *)
Definition upd (j : nat) (w : mvar) (ms : list (option hobj)) (s : state) : state :=
  {| mem := mem s ++ ms; rc := rc s; stk := set_nth (stk s) j w |}.
Lemma upd_ext : forall j w ms s s1 ws, mem s1 = mem s -> stk s1 = stk s ++ ws -> j < length (stk s) -> shrunk (ext ws (upd j w ms s)) (upd j w ms s1).
Proof. intros j w ms s s1 ws M St L. unfold shrunk, obj, ext, upd; simpl. rewrite M, St, sn_app1; auto. Qed.
Lemma upd_push : forall j w ms x s, j < length (stk s) -> shrunk (push_s x (upd j w ms (bump x s))) (upd j w ms (push_s x (bump x s))).
Proof. intros j w ms x s L. unfold shrunk, obj, upd; simpl. rewrite sn_app1 by (rewrite bump_stk; auto). auto. Qed.
Lemma exec_two_set : forall st (g : lval -> lval -> M unit) j f e s v x w (P : list (option hobj) -> Prop),
  (forall nv s, exec st s = finish (length (stk s)) (body (length (stk s)) st) s /\
     body nv st = (let! v := eval nv (EVar j) in let! p := eval nv f in with_copy p (g v))) ->
  INV e [] s -> variable s j v -> operand s f x ->
  (forall s1 q, INV e [] s1 -> temps s s1 -> nth_error (stk s1) q = Some x -> exists s2 ms, g (LS j) (LS q) s1 = ROk tt s2 /\ INV e [] s2 /\ shrunk (upd j w ms s1) s2 /\ P ms) ->
  exists s' ms, exec st s = ROk tt s' /\ INV e [] s' /\ shrunk (upd j w ms s) s' /\ P ms.
Proof.
  intros st g j f e s v x w P Hst I Nj Op H. assert (Lj : j < length (stk s)) by (eapply ne_lt; eauto).
  destruct (operand_gives e s s f x I (temps_refl s) Op) as (q & s1 & E1 & I1 & (M1 & ws & W1) & _ & Nq).
  assert (T1 : temps s s1) by (split; eauto). assert (Lj1 : j < length (stk s1)) by (rewrite W1, app_length; lia).
  pose proof (INV_sound _ _ _ I1) as Sd1.
  destruct (H (push_s x (bump x s1)) (length (stk s1))) as (s2 & ms & E2 & I2 & Sh2 & HP).
  - apply INV_push, INV_bump; auto. apply (getv_held (LS q) s1); auto.
  - apply temps_push; auto.
  - simpl. rewrite bump_stk, nth_error_app2, Nat.sub_diag by auto. reflexivity.
  - destruct (scoped_gives _ x (g (LS j)) e [] (bump x s1) tt s2 x (upd j w ms (bump x s1))) as (s3 & E3 & I3 & Sh3); auto.
    + rewrite bump_stk. exact E2.
    + eapply shrunk_trans; [apply upd_push; auto|exact Sh2].
    + simpl. rewrite sn_length, bump_stk. reflexivity.
    + destruct (leave_gives e [] s3 ws (upd j w ms s) I3) as (s4 & E4 & I4 & Sh4).
      * eapply shrunk_trans; [|exact Sh3]. eapply shrunk_trans; [apply (upd_ext j w ms s s1 ws); auto|]. unfold shrunk, obj, upd; simpl. rewrite ?bump_mem, ?bump_stk. auto.
      * exists s4, ms. split; [|auto]. destruct (Hst (length (stk s)) s) as [Ee Eb]. rewrite Ee. unfold finish. rewrite Eb.
        rewrite (bind_ok _ _ _ _ _ _ _ (eval_var s j _ _ Nj eq_refl s)). rewrite (bind_ok _ _ _ _ _ _ _ E1).
        unfold with_copy. rewrite (bind_ok _ _ _ _ _ _ _ (copy_of_eq (LS q) s1 x Sd1 Nq)). rewrite E3. simpl in E4. rewrite sn_length in E4. exact E4.
Qed.
Lemma assign_copy_var : forall e s j p x y old, INV e [] s -> nth_error (stk s) j = Some old -> nth_error (stk s) p = Some x -> nonref old -> not_view s old -> denotes s x y ->
  exists s', assign_copy (LS j) (LS p) s = ROk tt s' /\ INV e [] s' /\ shrunk (upd j y [] s) s'.
Proof.
  intros e s j p x y old I Nj Np No Nv D. pose proof (INV_sound _ _ _ I) as Sd. assert (Hx : held x s) by (apply (getv_held (LS p)); auto).
  assert (Lj : j < length (stk s)) by (eapply ne_lt; eauto). destruct (denotes_der _ _ _ D) as [Dd Ny].
  set (s2 := push_s x (bump x s)).
  destruct (assign_plain_gives e [] s2 (LS j) (length (stk s)) x y old) as (s3 & E3 & I3 & Sh3); auto.
  - apply INV_push, INV_bump; auto.
  - exact Logic.I.
  - simpl. rewrite bump_stk, nth_error_app1; auto.
  - apply not_view_push, not_view_bump; auto.
  - simpl. rewrite bump_stk, nth_error_app2, Nat.sub_diag by auto. reflexivity.
  - intros X. inversion X. lia.
  - apply der_push, der_bump; auto.
  - intros ? ? ? ? ? ? ?. discriminate.
  - intros ? ? ? [X|X]; discriminate.
  - assert (G2 : getv (LS j) s2 = Some old) by (simpl; rewrite bump_stk, nth_error_app1; auto).
    assert (E3' : assign (LS j) (LS (length (stk (bump x s)))) s2 = ROk tt s3).
    { rewrite (assign_nonref_eq _ _ _ _ G2 No). rewrite bump_stk. exact E3. }
    assert (Sh3' : shrunk (push_s x (upd j y [] s)) s3).
    { eapply shrunk_trans; [|exact Sh3]. unfold shrunk, obj, s2, upd; simpl. rewrite bump_mem, bump_stk, sn_app1, app_nil_r; auto. }
    destruct (scoped_gives _ x (assign (LS j)) e [] (bump x s) tt s3 x (upd j y [] s) E3' I3 Sh3') as (s4 & E4 & I4 & Sh4).
    + simpl. rewrite bump_stk, sn_length. reflexivity.
    + exists s4. split; auto. unfold assign_copy. rewrite (bind_ok _ _ _ _ _ _ _ (copy_of_eq (LS p) s x Sd Np)). exact E4.
Qed.
(** A scalar. *)
Lemma push_nil_scalar_at : forall e s1 j q x y, INV e [] s1 -> nth_error (stk s1) j = Some MNil -> nth_error (stk s1) q = Some x -> denotes s1 x y -> exact_elem s1 x y -> type_code y <> 0%Z ->
  exists s', push (LS j) (LS q) s1 = ROk tt s' /\ INV e [] s' /\ shrunk (upd j y [] s1) s'.
Proof.
  intros e s1 j q x y I1 Nj Nq D1 Ex Ne. pose proof (type_of_exact s1 q x y Nq D1 Ex) as Et.
  destruct (assign_copy_var e s1 j q x y MNil I1 Nj Nq) as (s2 & E2 & I2 & Sh2); auto; try (intros ? ? ?; discriminate).
  exists s2. split; auto. unfold push. rewrite (bind_ok _ _ (defined (LS j)) _ s1 false s1).
  - rewrite (bind_ok _ _ _ _ _ _ _ Et). change (negb false) with true. cbv iota zeta. destruct (Z.eqb_spec (type_code y) 0); [congruence|]. simpl negb. cbv iota. exact E2.
  - unfold defined. rewrite (bind_ok _ _ _ _ _ _ _ (get_eq (LS j) _ _ Nj)). reflexivity.
Qed.
Lemma push_nil_scalar : forall e s j f x y, INV e [] s -> variable s j MNil -> operand s f x -> denotes s x y -> exact_elem s x y -> type_code y <> 0%Z ->
  exists s', exec (SPush (EVar j) f) s = ROk tt s' /\ INV e [] s' /\ shrunk (upd j y [] s) s'.
Proof.
  intros e s j f x y I Vj Op D Ex Ne.
  destruct (exec_two_set (SPush (EVar j) f) push j f e s MNil x y (fun ms => ms = [])) as (s' & ms & A & B & C & ->); auto; [|eauto].
  intros s1 q I1 T1 Nq.
  destruct (push_nil_scalar_at e s1 j q x y I1 (temps_slot _ _ _ _ T1 Vj) Nq (temps_denotes _ _ _ _ T1 D) (temps_exact _ _ _ _ T1 Ex) Ne) as (s2 & E2 & I2 & Sh2). exists s2, []. auto.
Qed.
(** An array, or nothing. *)
Lemma sn_app2 : forall A (a : list A) x y, set_nth (a ++ [x]) (length a) y = a ++ [y].
Proof. induction a; intros; simpl; auto. f_equal. auto. Qed.
Lemma denotes_new : forall s o j w x y, denotes s x y -> denotes (putv (LS j) w (new_st o s)) x y.
Proof.
  intros s o j w x y D. apply (denotes_keep s); auto. intros l i ol -> O L. exists ol. split; [|auto].
  change (obj l (putv (LS j) w (new_st o s))) with (obj l (new_st o s)). rewrite obj_new. pose proof (obj_lt _ _ _ O). destruct (Nat.eqb_spec l (length (mem s))); [lia|auto].
Qed.
Lemma push_nil_array_at : forall e s1 j q x y, INV e [] s1 -> nth_error (stk s1) j = Some MNil -> nth_error (stk s1) q = Some x -> denotes s1 x y -> exact_elem s1 x y -> type_code y = 0%Z ->
  exists s' o', push (LS j) (LS q) s1 = ROk tt s' /\ INV e [] s' /\ shrunk (upd j (MPtr (length (mem s1))) [Some o'] s1) s' /\
    h_ty o' = HE TVar /\ h_size o' = 1 /\ h_view o' = None /\ val_at o' 0 = Some y /\ 1 <= length (h_cells o') /\ (forall k v, val_at o' k = Some v -> k = 0 \/ v = MNil).
Proof.
  intros e s1 j q x y I1 Nj Nq D1 Ex Ne. set (L := length (mem s1)).
  assert (Et : type_of (LS q) s1 = ROk 0%Z s1) by (rewrite <- Ne; apply (type_of_exact s1 q x y); auto).
  pose proof (INV_sound _ _ _ I1) as Sd1. assert (Hx : held x s1) by (apply (getv_held (LS q)); auto).
  assert (Lj : j < length (stk s1)) by (eapply ne_lt; eauto).
  set (s2 := push_s x (bump x s1)). assert (I2 : INV e [] s2) by (apply INV_push, INV_bump; auto).
  assert (N2 : nth_error (stk s2) j = Some MNil) by (unfold s2; simpl; rewrite bump_stk, nth_error_app1; auto).
  destruct (resize_nil_gives e [] s2 j 1 I2 N2) as (o & s3 & E3 & Es3 & I3 & O1 & O2 & O3 & O4 & O5); [lia|].
  assert (EL : length (mem s2) = L) by (unfold L, s2; simpl; rewrite bump_mem; auto).
  rewrite EL in Es3. assert (G3 : getv (LS j) s3 = Some (MPtr L)) by (rewrite Es3; simpl; rewrite sn_same; auto; rewrite app_length, bump_stk; lia).
  assert (Ob : obj L s3 = Some o).
  { rewrite Es3. unfold obj; simpl. rewrite <- EL. unfold s2; simpl. rewrite nth_error_app2, Nat.sub_diag by auto. reflexivity. }
  pose proof (INV_sound _ _ _ I3) as Sd3.
  assert (E4 : index_int (LS j) 0 s2 = ROk (MRef L 0) (bump (MPtr L) s3)).
  { unfold index_int. change (0 <? 0)%Z with false. cbv iota. rewrite (bind_ok _ _ _ _ _ _ _ (get_eq (LS j) _ _ N2)).
    unfold index_plain. rewrite (bind_ok _ _ (size_of (LS j)) _ s2 0%Z s2).
    - change (0 <=? 0)%Z with true. cbv iota. change (in_int (0 + 1)) with true. cbv iota. change (0 + 1)%Z with (Z.of_nat 1).
      rewrite (bind_ok _ _ _ _ _ _ _ E3). rewrite (bind_ok _ _ _ _ _ _ _ (ptr_array _ _ _ G3)). apply (ptr_reference s3 (LS j) L); auto. lia.
    - unfold size_of. rewrite (bind_ok _ _ _ _ _ _ _ (get_eq (LS j) _ _ N2)). reflexivity. }
  change (bump (MPtr L) s3) with (bump (MRef L 0) s3) in E4.
  assert (L0 : 0 < length (h_cells o)) by lia.
  destruct (val_at_some o 0) as [old Ho]; auto. destruct (val_at_cell _ _ _ Ho) as [c Nc]. pose proof (O5 _ _ Ho) as Eo. subst old.
  destruct (assign_flight e [] (bump (MRef L 0) s3) (length (stk s1)) L 0 o c MNil x y) as (s4 & E5 & I5 & Sh5); auto.
  - apply INV_bump; auto. apply (held_ptr (LS j)); auto.
  - rewrite bump_stk, Es3. simpl. rewrite sn_other by lia. rewrite bump_stk, nth_error_app2, Nat.sub_diag by auto. reflexivity.
  - intros Vl. split; [intros ? ? ?; discriminate|]. split; [intros ? ? ?; discriminate|]. intros ->. simpl in D1. destruct D1 as (od & k & Od & _).
    apply obj_live in Od. apply obj_lt in Od. unfold L in Od. lia.
  - apply conv_bump. rewrite O1. apply (stored_conv _ _ _ y); [|reflexivity]. rewrite Es3. apply denotes_new. apply denotes_push, denotes_bump; auto.
  - rewrite (set_val_putv o 0 y c MNil L (h_gen o) (bump (MRef L 0) s3)) in Sh5 by auto. set (o' := set_val o 0 y) in *.
    assert (E6 : (let! n := size_of (LS j) in let! r := index_int (LS j) n in scoped r (fun r => assign r (LS (length (stk (bump x s1)))))) s2 = ROk tt s4).
    { rewrite (bind_ok _ _ (size_of (LS j)) _ s2 0%Z s2).
      - rewrite (bind_ok _ _ _ _ _ _ _ E4). rewrite bump_stk. exact E5.
      - unfold size_of. rewrite (bind_ok _ _ _ _ _ _ _ (get_eq (LS j) _ _ N2)). reflexivity. }
    assert (Sh6 : shrunk (push_s x (upd j (MPtr L) [Some o'] s1)) s4).
    { eapply shrunk_trans; [|exact Sh5]. rewrite Es3. unfold shrunk, obj, s2, upd; simpl. rewrite !bump_stk, !bump_mem, sn_app1 by auto.
      split; auto. replace L with (length (mem s1)) by (rewrite <- EL; unfold s2; simpl; rewrite bump_mem; auto).
      rewrite sn_length, !app_length. split; auto. intros k a. rewrite sn_app2. auto. }
    destruct (scoped_gives _ x (fun q => let! n := size_of (LS j) in let! r := index_int (LS j) n in scoped r (fun r => assign r q)) e [] (bump x s1) tt s4 x _ E6 I5 Sh6) as (s5 & E7 & I7 & Sh7).
    + simpl. rewrite sn_length, bump_stk. reflexivity.
    + exists s5, o'. split; [|split; [auto|split; [auto|]]].
      * unfold push. rewrite (bind_ok _ _ (defined (LS j)) _ s1 false s1).
        -- rewrite (bind_ok _ _ _ _ _ _ _ Et). change (negb false) with true. change (negb (0 =? 0)%Z) with false. cbv iota zeta.
           rewrite (bind_ok _ _ _ _ _ _ _ (copy_of_eq (LS q) s1 x Sd1 Nq)). exact E7.
        -- unfold defined. rewrite (bind_ok _ _ _ _ _ _ _ (get_eq (LS j) _ _ Nj)). reflexivity.
      * destruct (set_val_alike o 0 y) as (W1 & W2 & W3 & W4 & W5). fold o' in W1, W2, W3, W4, W5. split; [congruence|]. split; [congruence|]. split; [congruence|]. split; [|split].
        -- unfold o'. rewrite set_val_at by auto. reflexivity.
        -- lia.
        -- intros k w K. unfold o' in K. destruct k as [|k]; [left; auto|right]. rewrite set_val_at in K by auto. simpl in K. eapply O5; eauto.
Qed.
Lemma push_nil_array : forall e s j f x y, INV e [] s -> variable s j MNil -> operand s f x -> denotes s x y -> exact_elem s x y -> type_code y = 0%Z ->
  exists s' o', exec (SPush (EVar j) f) s = ROk tt s' /\ INV e [] s' /\ shrunk (upd j (MPtr (length (mem s))) [Some o'] s) s' /\
    h_ty o' = HE TVar /\ h_size o' = 1 /\ h_view o' = None /\ val_at o' 0 = Some y.
Proof.
  intros e s j f x y I Vj Op D Ex Ne.
  destruct (exec_two_set (SPush (EVar j) f) push j f e s MNil x (MPtr (length (mem s)))
    (fun ms => exists o', ms = [Some o'] /\ h_ty o' = HE TVar /\ h_size o' = 1 /\ h_view o' = None /\ val_at o' 0 = Some y)) as (s' & ms & A & B & C & o' & -> & P); auto; [|eauto 10].
  intros s1 q I1 T1 Nq.
  destruct (push_nil_array_at e s1 j q x y I1 (temps_slot _ _ _ _ T1 Vj) Nq (temps_denotes _ _ _ _ T1 D) (temps_exact _ _ _ _ T1 Ex) Ne) as (s2 & o' & E2 & I2 & Sh2 & P1 & P2 & P3 & P4 & _).
  rewrite (proj1 T1) in Sh2. exists s2, [Some o']. eauto 10.
Qed.
