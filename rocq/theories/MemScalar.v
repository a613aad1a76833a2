(** What the array methods do with a variable that is not an array: it becomes one, with the
    value it had as an element. *)
From Coq Require Import ZArith Bool List String Lia.
From Verif Require Import Base StrModel ValModel NumModel AllocModel AllocProof MemModel MemProof MemFun MemEq MemDeref MemTriple MemOps MemArr MemMore MemKey MemElem MemMeth MemList MemRun ArrSpec MemArrays MemCopy MemThrow.
Import ListNotations.
Local Open Scope list_scope.
Local Open Scope mem_scope.
Local Notation length := List.length.

(** A new array: its elements are undefined, or not initialised. *)
Definition newly (t : hty) (n : nat) (o : hobj) : Prop :=
  h_ty o = t /\ h_size o = n /\ h_view o = None /\ n + (if is_char t then 1 else 0) <= length (h_cells o) /\
  (forall k v, val_at o k = Some v -> v = snd (fresh t) \/ is_char t = true /\ k = n /\ v = NUL) /\
  (is_char t = true -> val_at o n = Some NUL).
Lemma new_heap_gives : forall e F s t n, INV e F s -> (Z.of_nat n < 2 ^ 30)%Z ->
  exists o, new_heap t n s = ROk (MPtr (length (mem s))) (new_st o s) /\ INV e (MPtr (length (mem s)) :: F) (new_st o s) /\ newly t n o.
Proof.
  intros e F s t n I Sm. destruct (alloc_ex t n Sm) as (c & Ec & Hc).
  set (cs := terminate t n (repeat (fresh t) (Z.to_nat c))).
  assert (E1 : new_cells t n s = ROk cs s).
  { unfold new_cells. rewrite Ec. rewrite (bind_ok _ _ (lift (Base.Ok c)) _ s c s eq_refl). destruct (Z.ltb_spec c 0); [destruct (is_char t); lia|reflexivity]. }
  pose proof (rs_new_cells False s t n) as Z0. unfold rs in Z0. rewrite E1 in Z0. destruct Z0 as (_ & Z0).
  assert (Lc : length cs = Z.to_nat c).
  { unfold cs, terminate. destruct (is_char t); [rewrite sn_length|]; apply repeat_length. }
  assert (Cc : n + (if is_char t then 1 else 0) <= length cs) by (rewrite Lc; destruct (is_char t); lia).
  exists (mkobj t n 0 cs None). split; [|split].
  - unfold new_heap. rewrite (bind_ok _ _ _ _ _ _ _ E1). reflexivity.
  - apply INV_new; [|split; simpl; [auto|congruence]]. eapply INV_perm; eauto. intros k. rewrite occ_app, occ_contents. simpl. rewrite Z0. simpl. lia.
  - unfold newly. simpl. do 4 (split; auto). split.
    + intros k v. unfold val_at; simpl. unfold cs, terminate. destruct (is_char t) eqn:Ic.
      * destruct (Nat.eq_dec k n) as [->|Ne].
        -- rewrite sn_same; [intros X; inversion X; auto|]. rewrite repeat_length. lia.
        -- rewrite sn_other by auto. destruct (nth_error (repeat _ _) k) as [q|] eqn:N; [|discriminate]. apply nth_error_In, repeat_spec in N. subst q. intros X. inversion X. auto.
      * destruct (nth_error (repeat _ _) k) as [q|] eqn:N; [|discriminate]. apply nth_error_In, repeat_spec in N. subst q. intros X. inversion X. auto.
    + intros Ic. unfold val_at; simpl. unfold cs, terminate. rewrite Ic. rewrite sn_same; auto. rewrite repeat_length, Ic in *. lia.
Qed.

(** Scalars. *)
Definition scalar (x : mvar) : Prop := x = MNil \/ exists v, x = MNum v /\ number v = true.
(** The type of the array a scalar becomes. *)
Definition scalar_type (x : mvar) : hty := match x with MNum v => HE (ety_of v) | _ => HE TVar end.
Lemma scalar_bump : forall x s, scalar x -> bump x s = s.
Proof. intros x s [->|(v & -> & _)]; reflexivity. Qed.
Lemma scalar_nonref : forall x, scalar x -> nonref x.
Proof. intros x [->|(v & -> & _)] ? ? ?; discriminate. Qed.
Lemma scalar_heap : forall s j x, nth_error (stk s) j = Some x -> scalar x -> heap_of (LS j) s = ROk None s.
Proof. intros s j x N [->|(v & -> & _)]; unfold heap_of; rewrite (bind_ok _ _ _ _ _ _ _ (get_eq (LS j) _ _ N)); reflexivity. Qed.
Lemma scalar_size : forall s j x, nth_error (stk s) j = Some x -> scalar x -> size_of (LS j) s = ROk (if is_nil x then 0 else 1)%Z s.
Proof. intros s j x N [->|(v & -> & _)]; unfold size_of; rewrite (bind_ok _ _ _ _ _ _ _ (get_eq (LS j) _ _ N)); reflexivity. Qed.
Lemma scalar_defined : forall s j x, nth_error (stk s) j = Some x -> scalar x -> defined (LS j) s = ROk (negb (is_nil x)) s.
Proof. intros s j x N [->|(v & -> & _)]; unfold defined; rewrite (bind_ok _ _ _ _ _ _ _ (get_eq (LS j) _ _ N)); reflexivity. Qed.
Lemma scalar_conv : forall s x, scalar x -> conv s (scalar_type x) x x.
Proof.
  intros s x [->|(v & -> & N)]; simpl.
  - split; [reflexivity|intros ? ? ?; discriminate].
  - destruct v; try discriminate; simpl; eexists; eexists; (split; [reflexivity|split; reflexivity]).
Qed.

(** [n] elements, the first of which is [x]. *)
Lemma become_array_gives : forall e s j x n, INV e [] s -> nth_error (stk s) j = Some x -> scalar x -> 1 <= n -> (Z.of_nat n < 2 ^ 30)%Z ->
  exists o s', become_array (LS j) n s = ROk tt s' /\ INV e [] s' /\ shrunk (upd j (MPtr (length (mem s))) [Some (set_val o 0 x)] s) s' /\ newly (scalar_type x) n o.
Proof.
  intros e s j x n I N Sc L Sm. pose proof (INV_sound _ _ _ I) as Sd. assert (Lj : j < length (stk s)) by (eapply ne_lt; eauto).
  set (s1 := push_s x s).
  assert (I1 : INV e [] s1).
  { assert (X : INV e [] (push_s x (bump x s))) by (apply INV_push, INV_bump; auto; apply (getv_held (LS j)); auto). rewrite scalar_bump in X by auto. exact X. }
  destruct (new_heap_gives e [] s1 (scalar_type x) n I1 Sm) as (o & E2 & I2 & Nw). change (length (mem s1)) with (length (mem s)) in *. set (l := length (mem s)) in *.
  assert (N1 : nth_error (stk s1) j = Some x) by (unfold s1; simpl; rewrite nth_error_app1; auto).
  set (s2 := putv (LS j) (MPtr l) (new_st o s1)).
  assert (I3 : INV e [] s2).
  { assert (G1 : getv (LS j) (new_st o s1) = Some x) by exact N1.
    pose proof (INV_putv e [] (new_st o s1) (LS j) (MPtr l) x I2 G1 Logic.I) as P.
    eapply INV_perm; eauto. intros k. destruct Sc as [->|(v & -> & _)]; reflexivity. }
  assert (O2 : obj l s2 = Some o).
  { change (obj l s2) with (obj l (new_st o s1)). rewrite obj_new. change (length (mem s1)) with l. rewrite Nat.eqb_refl. reflexivity. }
  pose proof Nw as (T & Sz & Vw & Lc & Hv & Hn).
  assert (L0 : 0 < length (h_cells o)) by lia. destruct (val_at_some o 0 L0) as [old Ho]. destruct (val_at_cell _ _ _ Ho) as [c Nc].
  destruct (set_at_copy_gives e [] s2 j (length (stk s)) l 0 o c old x x I3) as (s3 & E3 & I4 & Sh3); auto.
  - unfold s2. simpl. apply sn_same. rewrite app_length. lia.
  - unfold s2. simpl. rewrite sn_other by lia. rewrite nth_error_app2, Nat.sub_diag by auto. reflexivity.
  - intros Vl. rewrite T in Vl. assert (Eo : old = MNil).
    { destruct (Hv 0 old Ho) as [E|(Ic & _)].
      - rewrite E. unfold fresh. rewrite Vl. reflexivity.
      - destruct (scalar_type x) as [[]|]; discriminate. }
    rewrite Eo. split; [intros ? ? ?; discriminate|]. split; [intros ? ? ?; discriminate|]. apply scalar_nonref; auto.
  - rewrite T. apply scalar_conv; auto.
  - rewrite (set_val_putv o 0 x c old l (h_gen o) s2 O2 Nc) in Sh3.
    assert (Sh4 : shrunk (push_s x (upd j (MPtr l) [Some (set_val o 0 x)] s)) s3).
    { eapply shrunk_trans; [|exact Sh3]. unfold shrunk, obj, s2, s1, upd; simpl. rewrite sn_app1 by auto. unfold l. rewrite sn_app2. auto. }
    destruct (scoped_gives _ x (fun tmp => let! x := get tmp in let! t := type_for x in let! h := new_heap t n in put (LS j) h ;; set_at_copy (LS j) 0 tmp) e [] s tt s3 x (upd j (MPtr l) [Some (set_val o 0 x)] s)) as (s4 & E4 & I5 & Sh5); auto.
    + fold s1. rewrite (bind_ok _ _ _ _ s1 x s1).
      * rewrite (bind_ok _ _ (type_for x) _ s1 (scalar_type x) s1).
        -- rewrite (bind_ok _ _ _ _ _ _ _ E2). rewrite (bind_ok _ _ _ _ (new_st o s1) tt s2); [exact E3|]. apply (put_eq (LS j) _ x (MPtr l)). exact N1.
        -- destruct Sc as [->|(v & -> & Nv)]; [reflexivity|]. reflexivity.
      * apply (get_eq (LS (length (stk s)))). unfold s1. simpl. rewrite nth_error_app2, Nat.sub_diag by auto. reflexivity.
    + simpl. rewrite sn_length. reflexivity.
    + exists o, s4. split; auto. unfold become_array. rewrite (bind_ok _ _ _ _ _ _ _ (copy_of_eq (LS j) s x Sd N)). rewrite scalar_bump by auto. exact E4.
Qed.

(** A statement [v.method()]. *)
Lemma exec_one : forall st (g : lval -> M unit) j e s w s1 t,
  exec st s = finish (length (stk s)) (let! v := eval (length (stk s)) (EVar j) in g v) s -> variable s j w ->
  g (LS j) s = ROk tt s1 -> INV e [] s1 -> shrunk t s1 -> length (stk t) = length (stk s) ->
  exists s', exec st s = ROk tt s' /\ INV e [] s' /\ shrunk t s'.
Proof.
  intros st g j e s w s1 t E V G I Sh L.
  destruct (finish_gives e [] (let! v := eval (length (stk s)) (EVar j) in g v) s s1 [] t) as (s2 & A & B & C); auto.
  - rewrite (bind_ok _ _ _ _ _ _ _ (eval_var s j _ _ V eq_refl s)). exact G.
  - rewrite ext_nil. exact Sh.
  - exists s2. rewrite E. auto.
Qed.
Lemma upd_obj : forall e F j l o s s1, j < length (stk s) -> l = length (mem s) -> shrunk (upd j (MPtr l) [Some o] s) s1 -> INV e F s1 ->
  nth_error (stk s1) j = Some (MPtr l) /\ obj l s1 = Some o.
Proof.
  intros e F j l o s s1 L -> Sh I. assert (N : nth_error (stk (upd j (MPtr (length (mem s))) [Some o] s)) j = Some (MPtr (length (mem s)))) by (simpl; apply sn_same; auto). split.
  - destruct Sh as (-> & _). exact N.
  - eapply shrunk_obj; eauto. unfold obj, upd; simpl. rewrite nth_error_app2, Nat.sub_diag by auto. reflexivity.
Qed.
Lemma upd_became : forall j l o o' s s1 s2, l = length (mem s) -> shrunk (upd j (MPtr l) [Some o] s) s1 -> became l o' s1 s2 -> shrunk (upd j (MPtr l) [Some o'] s) s2.
Proof.
  intros j l o o' s s1 s2 -> Sh [B _]. assert (L : length (mem s) < length (mem (upd j (MPtr (length (mem s))) [Some o] s))) by (simpl; rewrite app_length; simpl; lia).
  eapply shrunk_trans; [|exact B]. eapply shrunk_trans; [|apply shrunk_set_mem; [exact Sh|exact L]].
  unfold shrunk, obj; simpl. rewrite sn_app2, !app_length. auto.
Qed.
Lemma upd_denotes : forall e F j l o s s1 p x y, l = length (mem s) -> p <> j -> nth_error (stk s) p = Some x -> shrunk (upd j (MPtr l) [Some o] s) s1 -> INV e F s1 ->
  denotes s x y -> denotes s1 x y.
Proof.
  intros e F j l o s s1 p x y -> Np N Sh I D. apply (denotes_keep s); auto. intros k i ok -> Ok Li. exists ok. split; [|auto].
  eapply (shrunk_obj e F _ s1 p (MRef k i) k ok Sh I); auto; [simpl; rewrite sn_other; auto|].
  unfold obj, upd; simpl. rewrite nth_error_app1; [exact Ok|]. eapply obj_lt; eauto.
Qed.

(** ** array *)
Lemma array_scalar : forall e s j x, INV e [] s -> variable s j x -> scalar x ->
  exists o s', exec (SArray (EVar j)) s = ROk tt s' /\ INV e [] s' /\ shrunk (upd j (MPtr (length (mem s))) [Some (set_val o 0 x)] s) s' /\ newly (scalar_type x) 1 o.
Proof.
  intros e s j x I V Sc. destruct (become_array_gives e s j x 1 I V Sc) as (o & s1 & E & I1 & Sh & Nw); [lia|lia|].
  destruct (exec_one (SArray (EVar j)) array j e s x s1 (upd j (MPtr (length (mem s))) [Some (set_val o 0 x)] s)) as (s' & A & B & C); auto.
  - unfold array. rewrite (bind_ok _ _ _ _ _ _ _ (deref_nonref (LS j) _ _ V (scalar_nonref _ Sc))). rewrite (bind_ok _ _ _ _ _ _ _ (scalar_heap s j x V Sc)). exact E.
  - simpl. apply sn_length.
  - exists o, s'. auto.
Qed.

(** ** resize *)
Lemma resize_many : forall e s j v n, INV e [] s -> nth_error (stk s) j = Some (MNum v) -> number v = true -> 2 <= n -> (Z.of_nat n < 2 ^ 30)%Z ->
  exists o s', resize (LS j) (Z.of_nat n) s = ROk tt s' /\ INV e [] s' /\ shrunk (upd j (MPtr (length (mem s))) [Some (set_val o 0 (MNum v))] s) s' /\ newly (HE (ety_of v)) n o.
Proof.
  intros e s j v n I N Nv L Sm. assert (Sc : scalar (MNum v)) by (right; eauto).
  destruct (become_array_gives e s j (MNum v) n I N Sc) as (o & s1 & E & I1 & Sh & Nw); [lia|lia|]. exists o, s1. split; auto.
  unfold resize. destruct (Z.ltb_spec (Z.of_nat n) 0); [lia|]. rewrite (bind_ok _ _ _ _ _ _ _ (deref_nonref (LS j) _ _ N (scalar_nonref _ Sc))).
  rewrite (bind_ok _ _ _ _ _ _ _ (scalar_heap s j _ N Sc)). rewrite (bind_ok _ _ _ _ _ _ _ (get_eq (LS j) _ _ N)). destruct (Z.ltb_spec 1 (Z.of_nat n)); [|lia]. rewrite Nat2Z.id. exact E.
Qed.
Lemma resize_few : forall s j v n, nth_error (stk s) j = Some (MNum v) -> number v = true -> n < 2 -> resize (LS j) (Z.of_nat n) s = ROk tt s.
Proof.
  intros s j v n N Nv L. assert (Sc : scalar (MNum v)) by (right; eauto).
  unfold resize. destruct (Z.ltb_spec (Z.of_nat n) 0); [lia|]. rewrite (bind_ok _ _ _ _ _ _ _ (deref_nonref (LS j) _ _ N (scalar_nonref _ Sc))).
  rewrite (bind_ok _ _ _ _ _ _ _ (scalar_heap s j _ N Sc)). rewrite (bind_ok _ _ _ _ _ _ _ (get_eq (LS j) _ _ N)). destruct (Z.ltb_spec 1 (Z.of_nat n)); [lia|]. reflexivity.
Qed.
Lemma leave_none : forall s, leave (length (stk s)) s = ROk tt s.
Proof. intros s. unfold leave. rewrite firstn_all, skipn_all. destruct s; reflexivity. Qed.

(** ** push *)
Lemma push_scalar_at : forall e s1 j q v x u, INV e [] s1 -> nth_error (stk s1) j = Some (MNum v) -> number v = true -> nth_error (stk s1) q = Some x -> denotes s1 x (MNum u) -> exact_elem s1 x (MNum u) -> ety_of u = ety_of v -> number u = true ->
  exists o s', push (LS j) (LS q) s1 = ROk tt s' /\ INV e [] s' /\ shrunk (upd j (MPtr (length (mem s1))) [Some (set_val (set_val o 0 (MNum v)) 1 (MNum u))] s1) s' /\ newly (HE (ety_of v)) 2 o.
Proof.
  intros e s1 j q v x u I1 Nj Nv Nq D1 Ex Te Nu. set (l := length (mem s1)).
  assert (Te' : vtype u = vtype v) by (destruct u, v; try discriminate; reflexivity).
  pose proof (type_of_exact s1 q x (MNum u) Nq D1 Ex) as Et. simpl type_code in Et.
  pose proof (INV_sound _ _ _ I1) as Sd1. assert (Hx : held x s1) by (apply (getv_held (LS q)); auto).
  assert (Lj : j < length (stk s1)) by (eapply ne_lt; eauto).
  set (s2 := push_s x (bump x s1)). assert (I2 : INV e [] s2) by (apply INV_push, INV_bump; auto).
  assert (N2 : nth_error (stk s2) j = Some (MNum v)) by (unfold s2; simpl; rewrite bump_stk, nth_error_app1; auto).
  assert (Q2 : nth_error (stk s2) (length (stk s1)) = Some x) by (unfold s2; simpl; rewrite bump_stk, nth_error_app2, Nat.sub_diag by auto; reflexivity).
  assert (L2 : j < length (stk s2)) by (eapply ne_lt; eauto).
  assert (El : length (mem s2) = l) by (unfold l, s2; simpl; rewrite bump_mem; auto).
  destruct (resize_many e s2 j v 2 I2 N2 Nv) as (o & s3 & E3 & I3 & Sh3 & Nw); [lia|lia|]. rewrite El in Sh3.
  destruct (upd_obj e [] j l _ s2 s3 L2 (eq_sym El) Sh3 I3) as [N3 O3]. set (o1 := set_val o 0 (MNum v)) in *.
  pose proof (INV_sound _ _ _ I3) as Sd3.
  assert (D3 : denotes s3 x (MNum u)).
  { eapply (upd_denotes e [] j l o1 s2 s3 (length (stk s1))); eauto; [lia|]. apply denotes_push, denotes_bump; auto. }
  assert (E4 : index_int (LS j) 1 s2 = ROk (MRef l 1) (bump (MPtr l) s3)).
  { unfold index_int. change (1 <? 0)%Z with false. cbv iota. rewrite (bind_ok _ _ _ _ _ _ _ (get_eq (LS j) _ _ N2)).
    unfold index_plain. rewrite (bind_ok _ _ (size_of (LS j)) _ s2 1%Z s2).
    - change (1 <=? 1)%Z with true. cbv iota. change (in_int (1 + 1)) with true. cbv iota. change (1 + 1)%Z with (Z.of_nat 2).
      rewrite (bind_ok _ _ _ _ _ _ _ E3). rewrite (bind_ok _ _ _ _ _ _ _ (ptr_array s3 (LS j) l N3)). apply (ptr_reference s3 (LS j) l); auto. lia.
    - apply (scalar_size s2 j (MNum v) N2). right; eauto. }
  change (bump (MPtr l) s3) with (bump (MRef l 1) s3) in E4.
  pose proof Nw as (W1 & W2 & W3 & W4 & _). destruct (set_val_alike o 0 (MNum v)) as (A1 & A2 & A3 & A4 & A5). fold o1 in A1, A2, A3, A4, A5.
  assert (L1 : 1 < length (h_cells o1)) by lia. destruct (val_at_some o1 1 L1) as [old Ho]. destruct (val_at_cell _ _ _ Ho) as [c Nc].
  destruct (assign_flight e [] (bump (MRef l 1) s3) (length (stk s1)) l 1 o1 c old x (MNum u)) as (s4 & E5 & I5 & Sh5); auto.
  - apply INV_bump; auto. apply (held_ptr (LS j)); auto.
  - rewrite bump_stk. destruct Sh3 as (-> & _). simpl. rewrite sn_other by lia. exact Q2.
  - congruence.
  - intros Vl. exfalso. rewrite A1, W1 in Vl. destruct v; discriminate.
  - apply conv_bump. rewrite A1, W1. apply (stored_conv _ _ _ (MNum u)); auto. destruct u, v; try discriminate; simpl; eauto.
  - rewrite (set_val_putv o1 1 (MNum u) c old l (h_gen o1) (bump (MRef l 1) s3)) in Sh5 by auto. set (o2 := set_val o1 1 (MNum u)) in *.
    assert (Sh6 : shrunk (push_s x (upd j (MPtr l) [Some o2] s1)) s4).
    { assert (B : became l o2 s3 s4).
      { apply (became_held e [] l o2 s3 s4 j (MPtr l)); auto. eapply obj_lt; eauto. }
      eapply shrunk_trans; [|apply (upd_became j l o1 o2 s2 s3 s4 (eq_sym El) Sh3 B)].
      unfold shrunk, obj, s2, upd; simpl. rewrite !bump_stk, !bump_mem, sn_app1 by auto. auto. }
    assert (E6 : (let! n := size_of (LS j) in let! r := index_int (LS j) n in scoped r (fun r => assign r (LS (length (stk (bump x s1)))))) s2 = ROk tt s4).
    { rewrite (bind_ok _ _ (size_of (LS j)) _ s2 1%Z s2); [|apply (scalar_size s2 j (MNum v) N2); right; eauto].
      rewrite (bind_ok _ _ _ _ _ _ _ E4). rewrite bump_stk. exact E5. }
    destruct (scoped_gives _ x (fun q => let! n := size_of (LS j) in let! r := index_int (LS j) n in scoped r (fun r => assign r q)) e [] (bump x s1) tt s4 x _ E6 I5 Sh6) as (s5 & E7 & I7 & Sh7).
    + simpl. rewrite sn_length, bump_stk. reflexivity.
    + exists o, s5. split; [|split; [auto|split; [auto|auto]]].
      unfold push. rewrite (bind_ok _ _ (defined (LS j)) _ s1 true s1); [|apply (scalar_defined s1 j (MNum v) Nj); right; eauto].
      rewrite (bind_ok _ _ _ _ _ _ _ Et). change (negb true) with false. cbv iota zeta.
      rewrite (bind_ok _ _ (type_of (LS j)) _ s1 (vtype v) s1); [|unfold type_of; rewrite (bind_ok _ _ _ _ _ _ _ (get_eq (LS j) _ _ Nj)); reflexivity].
      rewrite Te', Z.eqb_refl, andb_false_r. rewrite (bind_ok _ _ _ _ _ _ _ (copy_of_eq (LS q) s1 x Sd1 Nq)). exact E7.
Qed.
Lemma push_scalar : forall e s j v f x u, INV e [] s -> variable s j (MNum v) -> number v = true -> operand s f x -> denotes s x (MNum u) -> exact_elem s x (MNum u) -> ety_of u = ety_of v -> number u = true ->
  exists o s', exec (SPush (EVar j) f) s = ROk tt s' /\ INV e [] s' /\ shrunk (upd j (MPtr (length (mem s))) [Some (set_val (set_val o 0 (MNum v)) 1 (MNum u))] s) s' /\ newly (HE (ety_of v)) 2 o.
Proof.
  intros e s j v f x u I Vj Nv Op D Ex Te Nu.
  destruct (exec_two_set (SPush (EVar j) f) push j f e s (MNum v) x (MPtr (length (mem s)))
    (fun ms => exists o, ms = [Some (set_val (set_val o 0 (MNum v)) 1 (MNum u))] /\ newly (HE (ety_of v)) 2 o)) as (s' & ms & A & B & C & o & -> & P); auto; [|exists o, s'; auto].
  intros s1 q I1 T1 Nq.
  destruct (push_scalar_at e s1 j q v x u I1 (temps_slot _ _ _ _ T1 Vj) Nv Nq (temps_denotes _ _ _ _ T1 D) (temps_exact _ _ _ _ T1 Ex) Te Nu) as (o & s2 & E2 & I2 & Sh2 & P).
  rewrite (proj1 T1) in Sh2. eauto 10.
Qed.

(** ** unshift *)
Lemma exec_two_upd : forall st (g : lval -> lval -> M unit) j f e s v x w (P : list (option hobj) -> Prop),
  (forall nv s, exec st s = finish (length (stk s)) (body (length (stk s)) st) s /\
     body nv st = (let! v := eval nv (EVar j) in let! p := eval nv f in with_copy p (g v))) ->
  INV e [] s -> variable s j v -> operand s f x ->
  (forall s1 q, INV e [] s1 -> temps s s1 -> q <> j -> nth_error (stk s1) q = Some x -> exists e' s2 ms, g (LS j) (LS q) s1 = ROk tt s2 /\ INV e' [] s2 /\ shrunk (upd j w ms s1) s2 /\ P ms) ->
  exists e' s' ms, exec st s = ROk tt s' /\ INV e' [] s' /\ shrunk (upd j w ms s) s' /\ P ms.
Proof.
  intros st g j f e s v x w P Hst I Nj Op H. assert (Lj : j < length (stk s)) by (eapply ne_lt; eauto).
  destruct (operand_gives e s s f x I (temps_refl s) Op) as (q & s1 & E1 & I1 & (M1 & ws & W1) & _ & Nq).
  assert (T1 : temps s s1) by (split; eauto). assert (Lj1 : j < length (stk s1)) by (rewrite W1, app_length; lia).
  pose proof (INV_sound _ _ _ I1) as Sd1.
  destruct (H (push_s x (bump x s1)) (length (stk s1))) as (e' & s2 & ms & E2 & I2 & Sh2 & HP).
  - apply INV_push, INV_bump; auto. apply (getv_held (LS q) s1); auto.
  - apply temps_push; auto.
  - lia.
  - simpl. rewrite bump_stk, nth_error_app2, Nat.sub_diag by auto. reflexivity.
  - destruct (scoped_gives _ x (g (LS j)) e' [] (bump x s1) tt s2 x (upd j w ms (bump x s1))) as (s3 & E3 & I3 & Sh3); auto.
    + rewrite bump_stk. exact E2.
    + eapply shrunk_trans; [apply upd_push; auto|exact Sh2].
    + simpl. rewrite sn_length, bump_stk. reflexivity.
    + destruct (leave_gives e' [] s3 ws (upd j w ms s) I3) as (s4 & E4 & I4 & Sh4).
      * eapply shrunk_trans; [|exact Sh3]. eapply shrunk_trans; [apply (upd_ext j w ms s s1 ws); auto|]. unfold shrunk, obj, upd; simpl. rewrite ?bump_mem, ?bump_stk. auto.
      * exists e', s4, ms. split; [|auto]. destruct (Hst (length (stk s)) s) as [Ee Eb]. rewrite Ee. unfold finish. rewrite Eb.
        rewrite (bind_ok _ _ _ _ _ _ _ (eval_var s j _ _ Nj eq_refl s)). rewrite (bind_ok _ _ _ _ _ _ _ E1).
        unfold with_copy. rewrite (bind_ok _ _ _ _ _ _ _ (copy_of_eq (LS q) s1 x Sd1 Nq)). rewrite E3. simpl in E4. rewrite sn_length in E4. exact E4.
Qed.
Lemma unshift_scalar : forall e s j v f x u, INV e [] s -> variable s j (MNum v) -> number v = true -> operand s f x -> denotes s x (MNum u) -> exact_elem s x (MNum u) -> ety_of u = ety_of v -> number u = true ->
  exists e' o1 o' s', exec (SUnshift (EVar j) f) s = ROk tt s' /\ INV e' [] s' /\ shrunk (upd j (MPtr (length (mem s))) [Some o'] s) s' /\
    h_ty o1 = HE (ety_of v) /\ h_view o1 = None /\ h_size o1 = 1 /\ val_at o1 0 = Some (MNum v) /\ unshifted o1 1 (MNum u) o'.
Proof.
  intros e s j v f x u I Vj Nv Op D Ex Te Nu. set (l := length (mem s)). assert (Sc : scalar (MNum v)) by (right; eauto).
  destruct (exec_two_upd (SUnshift (EVar j) f) unshift j f e s (MNum v) x (MPtr l)
    (fun ms => exists o1 o', ms = [Some o'] /\ h_ty o1 = HE (ety_of v) /\ h_view o1 = None /\ h_size o1 = 1 /\ val_at o1 0 = Some (MNum v) /\ unshifted o1 1 (MNum u) o')) as (e' & s' & ms & A & B & C & o1 & o' & -> & P); auto.
  2:{ exists e', o1, o', s'. auto. }
  intros s1 q I1 T1 Qj Nq. pose proof (temps_slot _ _ _ _ T1 Vj) as Nj. pose proof (temps_denotes _ _ _ _ T1 D) as D1.
  assert (Lj : j < length (stk s1)) by (eapply ne_lt; eauto).
  assert (El : length (mem s1) = l) by (unfold l; destruct T1 as [M _]; rewrite M; auto).
  destruct (become_array_gives e s1 j (MNum v) 1 I1 Nj Sc) as (o & s3 & E3 & I3 & Sh3 & Nw); [lia|lia|]. rewrite El in Sh3.
  destruct (upd_obj e [] j l _ s1 s3 Lj (eq_sym El) Sh3 I3) as [N3 O3]. set (o1 := set_val o 0 (MNum v)) in *.
  pose proof Nw as (W1 & W2 & W3 & W4 & _). destruct (set_val_alike o 0 (MNum v)) as (A1 & A2 & A3 & A4 & A5). fold o1 in A1, A2, A3, A4, A5. simpl in W1.
  assert (D3 : denotes s3 x (MNum u)) by (eapply (upd_denotes e [] j l o1 s1 s3 q); eauto).
  destruct (unshift_gives e s3 j q l o1 x (MNum u)) as (e' & s4 & o' & E4 & I4 & B4 & U); auto.
  - destruct Sh3 as (-> & _). simpl. rewrite sn_other by auto. exact Nq.
  - congruence.
  - lia.
  - lia.
  - rewrite A1, W1. assert (Na : number_arg s3 (ety_of v) x u).
    { split; [auto|split; [auto|]]. intros k i ok E O. destruct (varlike (h_ty ok)) eqn:Vl; [auto|left].
      assert (Ok : obj k s1 = Some ok).
      { destruct Sh3 as (_ & _ & X). apply X in O. unfold obj, upd in O; simpl in O. rewrite nth_error_app1 in O; [exact O|]. subst x. destruct D1 as (od & kd & Od & _). apply obj_live in Od. eapply obj_lt; eauto. }
      rewrite (temps_obj _ _ _ T1) in Ok. destruct (Ex k i ok E Ok Vl) as (u' & X & Y). congruence. }
    destruct v; try discriminate; exists u; auto.
  - rewrite A2, W2 in U. exists e', s4, [Some o']. split; [|split; [auto|split]].
    + rewrite <- E4. unfold unshift. rewrite (bind_ok _ _ (defined (LS j)) _ s1 true s1); [|apply (scalar_defined s1 j (MNum v) Nj); auto].
      rewrite (bind_ok _ _ _ _ _ _ _ (ptr_defined s3 (LS j) l N3)). cbv iota zeta. change (negb true) with false. cbv iota.
      rewrite (bind_ok _ _ _ _ _ _ _ (scalar_heap s1 j _ Nj Sc)). rewrite (bind_ok _ _ (heap_of (LS j)) _ _ _ _ (ptr_heap s3 (LS j) l N3)).
      rewrite (bind_ok _ _ (array (LS j)) _ s1 tt s3).
      * reflexivity.
      * unfold array. rewrite (bind_ok _ _ _ _ _ _ _ (deref_nonref (LS j) _ _ Nj (scalar_nonref _ Sc))). rewrite (bind_ok _ _ _ _ _ _ _ (scalar_heap s1 j _ Nj Sc)). exact E3.
    + eapply upd_became; eauto.
    + exists o1, o'. split; auto. split; [congruence|]. split; [congruence|]. split; [congruence|]. split; auto. unfold o1. rewrite set_val_at; [reflexivity|lia].
Qed.
