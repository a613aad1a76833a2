(** Copying an array, removing an element, and shifting at the front. *)
From Coq Require Import ZArith Bool List String Lia.
From Verif Require Import Base StrModel ValModel NumModel AllocModel AllocProof MemModel MemProof MemFun MemEq MemDeref MemTriple MemOps MemArr MemMore MemKey MemElem MemMeth MemList MemRun ArrSpec MemArrays.
Import ListNotations.
Local Open Scope list_scope.
Local Open Scope mem_scope.
Local Notation length := List.length.

(** * Copies *)
Definition copied (o o' : hobj) : Prop :=
  h_ty o' = h_ty o /\ h_size o' = h_size o /\ h_view o' = None /\
  (h_size o + (if is_char (h_ty o) then 1 else 0) <= length (h_cells o')) /\
  (forall k, k < h_size o -> nth_error (h_cells o') k = nth_error (h_cells o) k) /\
  (is_char (h_ty o) = true -> val_at o' (h_size o) = Some NUL).
Lemma copy_cells_gives : forall e F s l o, INV e F s -> obj l s = Some o -> h_size o <= length (h_cells o) -> (Z.of_nat (h_size o) < 2 ^ 30)%Z ->
  exists s' o', copy_cells o s = ROk (MPtr (length (mem s))) s' /\ INV e (MPtr (length (mem s)) :: F) s' /\
    mem s' = mem s ++ [Some o'] /\ stk s' = stk s /\ copied o o'.
Proof.
  intros e F s l o I O Cp Sm. destruct (alloc_ex (h_ty o) (h_size o) Sm) as (c & Ec & Hc). set (n := h_size o) in *.
  set (cs := terminate (h_ty o) n (repeat (fresh (h_ty o)) (Z.to_nat c))).
  assert (E1 : new_cells (h_ty o) n s = ROk cs s).
  { unfold new_cells. rewrite Ec. rewrite (bind_ok _ _ (lift (Base.Ok c)) _ s c s eq_refl). destruct (Z.ltb_spec c 0); [destruct (is_char (h_ty o)); lia|reflexivity]. }
  pose proof (rs_new_cells False s (h_ty o) n) as Z0. unfold rs in Z0. rewrite E1 in Z0. destruct Z0 as (_ & Z0).
  set (cs' := firstn n (h_cells o)). assert (Lc : length cs' = n) by (unfold cs'; rewrite firstn_length; lia).
  destruct (attach_all_INV (flat_map (fun c => [fst c; snd c]) cs') e F s I) as (s1 & A & B & C & D).
  { intros v V. destruct (INV_sound _ _ _ I) as (_ & _ & S). eapply S; eauto. unfold contents. apply in_or_app. left.
    apply in_flat_map in V as (x & X1 & X2). apply in_flat_map. exists x. split; auto.
    rewrite <- (firstn_skipn n). apply in_or_app. auto. }
  set (o' := mkobj (h_ty o) n 0 (cs' ++ skipn n cs) None).
  pose proof I as (_ & Ty & _). destruct (Ty _ _ O) as [D1 D2].
  assert (Z' : forall k n, cell_occ k (skipn n cs) = 0) by (intros k m; pose proof (cell_occ_split k m cs); rewrite Z0 in *; lia).
  exists (new_st o' s1), o'. split; [|split; [|split; [|split]]].
  - unfold copy_cells. fold n. rewrite (bind_ok _ _ _ _ _ _ _ E1). fold cs'. cbv zeta. rewrite Lc.
    destruct (Nat.ltb_spec n n); [lia|]. rewrite (bind_ok _ _ _ _ _ _ _ A). unfold new_obj. rewrite C. unfold new_st. rewrite C. reflexivity.
  - rewrite <- C. apply INV_new.
    + eapply INV_perm; eauto. intros k. rewrite !occ_app, occ_contents. simpl. rewrite cell_occ_app, Z'. unfold cell_occ. lia.
    + split; simpl; [|congruence]. intros V k. rewrite cell_occ_app, Z'. specialize (D1 V k).
      pose proof (cell_occ_split k n (h_cells o)). fold cs' in H. lia.
  - simpl. rewrite C. reflexivity.
  - simpl. auto.
  - assert (Ln : length cs = Z.to_nat c) by (unfold cs; rewrite terminate_len, repeat_length; auto).
    unfold copied; simpl. fold n. rewrite app_length, Lc, skipn_length, Ln. repeat split; auto.
    + destruct (is_char (h_ty o)); lia.
    + intros k K. rewrite nth_error_app1 by lia. unfold cs'. rewrite nth_firstn. destruct (Nat.ltb_spec k n); [auto|lia].
    + intros Ch. unfold val_at; simpl. rewrite nth_error_app2 by lia. rewrite Lc, Nat.sub_diag.
      replace (nth_error (skipn n cs) 0) with (nth_error cs n).
      * unfold cs, terminate. rewrite Ch. rewrite Ch in Hc. rewrite sn_same; [reflexivity|rewrite repeat_length; lia].
      * rewrite <- (firstn_skipn n cs) at 1. rewrite nth_error_app2; rewrite firstn_length; [|lia]. f_equal. rewrite Ch in Hc. lia.
Qed.
Lemma copied_val : forall o o' k, copied o o' -> k < h_size o -> val_at o' k = val_at o k.
Proof. intros o o' k (_ & _ & _ & _ & H & _) K. unfold val_at. rewrite H; auto. Qed.
Lemma copy_gives : forall e F s j l o, INV e F s -> nth_error (stk s) j = Some (MPtr l) -> obj l s = Some o -> h_view o = None ->
  h_size o <= length (h_cells o) -> (Z.of_nat (h_size o) < 2 ^ 30)%Z ->
  exists s' o', copy (LS j) s = ROk (MPtr (length (mem s))) s' /\ INV e (MPtr (length (mem s)) :: F) s' /\
    mem s' = mem s ++ [Some o'] /\ stk s' = stk s /\ copied o o'.
Proof.
  intros e F s j l o I Nj O V Cp Sm. unfold copy. rewrite (bind_ok _ _ _ _ _ _ _ (ptr_heap s (LS j) l Nj)).
  rewrite (bind_ok _ _ _ _ _ _ _ (get_obj_eq _ _ _ O)). rewrite V. eapply copy_cells_gives; eauto.
Qed.

(** The copy of an element, as [remove] makes it: of an array the copy, of anything else the
    reference. *)
Lemma heap_of_ref : forall s p l i o y, getv p s = Some (MRef l i) -> obj l s = Some o -> h_view o = None -> val_at o i = Some y -> nonref y ->
  heap_of p s = ROk (if varlike (h_ty o) then match y with MPtr k => Some k | _ => None end else None) s.
Proof.
  intros s p l i o y G O V A Nr. destruct (val_at_cell _ _ _ A) as [c N]. unfold heap_of. rewrite (bind_ok _ _ _ _ _ _ _ (get_eq _ _ _ G)). simpl eff.
  assert (P : plain_vars o = varlike (h_ty o)) by (unfold plain_vars; rewrite V; auto).
  destruct (varlike (h_ty o)).
  - rewrite (bind_ok _ _ _ _ s y s); [destruct y; reflexivity|]. rewrite (bind_ok _ _ _ _ _ _ _ (get_obj_eq _ _ _ O)). rewrite P, N.
    destruct y; try reflexivity. exfalso; eapply Nr; eauto.
  - rewrite (bind_ok _ _ _ _ s (MRef l i) s); [reflexivity|]. rewrite (bind_ok _ _ _ _ _ _ _ (get_obj_eq _ _ _ O)). rewrite P. reflexivity.
Qed.
Definition is_ptr (t : hty) (y : mvar) : option nat := if varlike t then match y with MPtr k => Some k | _ => None end else None.
Lemma copy_elem_gives : forall e s j l b o y, INV e [] s -> nth_error (stk s) j = Some (MPtr l) -> obj l s = Some o -> h_view o = None ->
  val_at o b = Some y -> nonref y ->
  (forall k ok, is_ptr (h_ty o) y = Some k -> obj k s = Some ok -> h_view ok = None /\ h_size ok <= length (h_cells ok) /\ (Z.of_nat (h_size ok) < 2 ^ 30)%Z) ->
  exists r s1, (let! a := at_int (LS j) (Z.of_nat b) in scoped a (fun a => copy a)) s = ROk r s1 /\ INV e [r] s1 /\ stk s1 = stk s /\
    match is_ptr (h_ty o) y with
    | None => r = MRef l b /\ shrunk s s1
    | Some k => exists ok ok', r = MPtr (length (mem s)) /\ obj k s = Some ok /\ copied ok ok' /\ obj (length (mem s)) s1 = Some ok' /\
        shrunk {| mem := mem s ++ [Some ok']; rc := rc s1; stk := stk s |} s1
    end.
Proof.
  intros e s j l b o y I Nj O V A Nr K. pose proof (INV_sound _ _ _ I) as Sd. set (a := MRef l b). pose proof (obj_lt _ _ _ O) as Ll.
  assert (Ha : held a s) by (apply (held_ptr (LS j)); auto).
  assert (E0 : at_int (LS j) (Z.of_nat b) s = ROk a (bump a s)).
  { rewrite (at_int_ptr s (LS j) l (Z.of_nat b) Sd Nj (Nat2Z.is_nonneg _)), Nat2Z.id. reflexivity. }
  assert (I1 : INV e [] (push_s a (bump a s))) by (apply INV_push, INV_bump; auto).
  pose proof (INV_sound _ _ _ I1) as Sd1. pose proof Sd as (Cn & _).
  assert (Ga : getv (LS (length (stk (bump a s)))) (push_s a (bump a s)) = Some a) by apply getv_push_new.
  pose proof (heap_of_ref (push_s a (bump a s)) _ l b o y Ga O V A Nr) as Hh. fold (is_ptr (h_ty o) y) in Hh.
  destruct (is_ptr (h_ty o) y) as [k|] eqn:Ek.
  - assert (Lk : live k s).
    { unfold is_ptr in Ek. destruct (varlike (h_ty o)); [|discriminate]. destruct y; try discriminate. inversion Ek; subst.
      destruct (val_at_cell _ _ _ A) as [c N]. destruct Sd as (_ & _ & S). apply (S l o (MPtr k) O); [|reflexivity]. eapply in_contents_snd; eauto. }
    apply live_obj in Lk as [ok Ok]. destruct (K k ok eq_refl Ok) as (K1 & K2 & K3).
    destruct (copy_cells_gives e [] (push_s a (bump a s)) k ok I1 Ok K2 K3) as (s2 & ok' & E2 & I2 & M2 & St2 & C2).
    set (t := {| mem := mem s2; rc := rc s2; stk := stk s |}).
    assert (E3 : copy (LS (length (stk (bump a s)))) (push_s a (bump a s)) = ROk (MPtr (length (mem s))) s2).
    { unfold copy. rewrite (bind_ok _ _ _ _ _ _ _ Hh). rewrite (bind_ok _ _ (get_obj k) _ (push_s a (bump a s)) ok (push_s a (bump a s))); [|apply get_obj_eq; exact Ok].
      rewrite K1. exact E2. }
    destruct (scoped_gives _ a (fun a => copy a) e [MPtr (length (mem s))] (bump a s) (MPtr (length (mem s))) s2 a t E3) as (s3 & E4 & I4 & Sh4); auto.
    + unfold shrunk, obj, t; simpl. rewrite St2. simpl. auto.
    + exists (MPtr (length (mem s))), s3. split; [rewrite (bind_ok _ _ _ _ _ _ _ E0); exact E4|]. split; auto. destruct Sh4 as (S1 & S2 & S3). split; auto.
      exists ok, ok'. split; auto. split; auto. split; auto. simpl in M2.
      assert (Lt : obj (length (mem s)) t = Some ok') by (unfold obj, t; simpl; rewrite M2, nth_error_app2, Nat.sub_diag by lia; reflexivity).
      assert (Ln : live (length (mem s)) s3) by (apply (inv_flight e [MPtr (length (mem s))] s3 (MPtr (length (mem s)))); [apply I4|simpl; auto|reflexivity]).
      split.
      * apply live_obj in Ln as [on On]. pose proof (S3 _ _ On). congruence.
      * unfold shrunk; simpl. split; [auto|split; [rewrite S2; simpl; congruence|]]. intros h oh Oh. apply S3 in Oh. unfold obj, t in *; simpl in *. rewrite <- M2. auto.
  - exists a, (bump a s). split; [|split; [apply INV_bump; auto|split; auto]].
    rewrite (bind_ok _ _ _ _ _ _ _ E0). eapply scoped_ok with (v' := a) (s1 := bump a (bump a s)).
    + unfold copy. rewrite (bind_ok _ _ _ _ _ _ _ Hh). rewrite (copy_of_eq _ _ a Sd1 Ga). reflexivity.
    + reflexivity.
    + apply release_bump; [apply cnt_bump; auto|apply held_bump; auto].
    + split; auto. unfold shrunk. simpl. auto.
Qed.

(** * Removing an element *)
Definition removed (o : hobj) (n b : nat) (o' : hobj) : Prop :=
  h_ty o' = h_ty o /\ h_view o' = h_view o /\ h_size o' = n /\
  (forall k, k < n -> val_at o' k = if (k <? b)%nat then val_at o k else val_at o (S k)) /\
  (forall k, k < n -> key_at o' k = key_at o k) /\
  (if is_char (h_ty o) then val_at o' n = Some NUL else val_at o' n = val_at o n).
Lemma remove_tail : forall A (K : M A) e F s j l o n b, INV e F s -> nth_error (stk s) j = Some (MPtr l) -> obj l s = Some o -> h_view o = None -> okcells s o ->
  h_size o = S n -> b <= n -> h_size o <= length (h_cells o) -> (Z.of_nat n < 2 ^ 30)%Z ->
  (forall k v, b < k <= n -> val_at o k = Some v -> fits_type (h_ty o) v) ->
  exists s' o', (let! n := size_of (LS j) in shift_down (LS j) (Z.to_nat (n - 1 - Z.of_nat b)) (Z.of_nat b + 1) ;;
                 let! n := size_of (LS j) in resize (LS j) (n - 1) ;; K) s = K s' /\ INV e F s' /\ became l o' s s' /\ removed o n b o'.
Proof.
  intros A K e F s j l o n b I Nj O V Ok Sz Lb Cp Sm T.
  destruct (shift_down_gives (n - b) e F s j l b o I Nj O V Ok) as (s1 & o1 & E1 & I1 & B1 & Ok1 & (A1 & A2 & A3 & A4 & A5) & Hv & Hk); [lia|intros; eapply T; eauto; lia|].
  assert (Nj1 : nth_error (stk s1) j = Some (MPtr l)) by (rewrite (became_stk _ _ _ _ B1); auto).
  assert (O1 : obj l s1 = Some o1) by apply B1. assert (V1 : h_view o1 = None) by congruence.
  destruct (resize_became e F s1 j l n o1 I1 Nj1 O1 Sm) as (o2 & s2 & E2 & Es2 & I2 & B2 & G).
  exists s2, o2. split; [|split; [auto|split]].
  - rewrite (bind_ok _ _ _ _ _ _ _ (ptr_size s (LS j) l Nj o O V)). rewrite Sz.
    replace (Z.to_nat (Z.of_nat (S n) - 1 - Z.of_nat b)) with (n - b) by lia. replace (Z.of_nat b + 1)%Z with (Z.of_nat (S b)) by lia.
    rewrite (bind_ok _ _ _ _ _ _ _ E1). rewrite (bind_ok _ _ _ _ _ _ _ (ptr_size s1 (LS j) l Nj1 o1 O1 V1)).
    replace (Z.of_nat (h_size o1) - 1)%Z with (Z.of_nat n) by lia. rewrite (bind_ok _ _ _ _ _ _ _ E2). reflexivity.
  - eapply became_trans; eauto. eapply obj_lt; eauto.
  - pose proof G as (G1 & G2 & G3 & G4 & _). unfold removed. split; [congruence|split; [congruence|split; [auto|split; [|split]]]].
    + intros k L. rewrite (grown_val n o1 o2 k G) by lia. rewrite Hv. destruct (Nat.leb_spec b k); destruct (Nat.ltb_spec k b); destruct (Nat.ltb_spec k (b + (n - b))); simpl; auto; lia.
    + intros k L. rewrite (grown_key n o1 o2 k G) by lia. apply Hk.
    + rewrite <- A1. destruct (is_char (h_ty o1)) eqn:C; [apply (grown_nul n o1 o2); auto|].
      rewrite (grown_val n o1 o2 n G); [|lia|congruence]. rewrite Hv. destruct (Nat.ltb_spec n (b + (n - b))); [lia|]. rewrite andb_false_r. auto.
Qed.
Lemma okcells_shrunk : forall s s1 o, (forall k a, obj k s1 = Some a -> obj k s = Some a \/ h_view a = None) -> okcells s o -> okcells s1 o.
Proof.
  intros s s1 o H Ok V k v N. destruct (Ok V k v N) as [A B]. split; auto. intros m a E M. destruct (H m a M); eauto.
Qed.
Lemma remove_gives : forall e s j l o n b y, INV e [] s -> nth_error (stk s) j = Some (MPtr l) -> obj l s = Some o -> h_view o = None -> okcells s o ->
  h_size o = S n -> b <= n -> h_size o <= length (h_cells o) -> (Z.of_nat n < 2 ^ 30)%Z ->
  (forall k v, b < k <= n -> val_at o k = Some v -> fits_type (h_ty o) v) ->
  val_at o b = Some y -> nonref y ->
  (forall k ok, is_ptr (h_ty o) y = Some k -> obj k s = Some ok -> h_view ok = None /\ h_size ok <= length (h_cells ok) /\ (Z.of_nat (h_size ok) < 2 ^ 30)%Z) ->
  exists r s' o', remove (LS j) (Z.of_nat b) s = ROk r s' /\ INV e [r] s' /\ stk s' = stk s /\ obj l s' = Some o' /\ removed o n b o' /\
    (forall m a, m <> l -> m < length (mem s) -> obj m s' = Some a -> obj m s = Some a) /\
    match is_ptr (h_ty o) y with
    | None => r = MRef l b /\ length (mem s') = length (mem s)
    | Some k => exists ok ok', r = MPtr (length (mem s)) /\ obj k s = Some ok /\ copied ok ok' /\ obj (length (mem s)) s' = Some ok' /\ length (mem s') = S (length (mem s))
    end.
Proof.
  intros e s j l o n b y I Nj O V Ok Sz Lb Cp Sm T A Nr K.
  destruct (copy_elem_gives e s j l b o y I Nj O V A Nr K) as (r & s1 & E1 & I1 & St1 & R1).
  pose proof (obj_lt _ _ _ O) as Ll.
  assert (P1 : (forall m a, m < length (mem s) -> obj m s1 = Some a -> obj m s = Some a) /\
               (forall k a, obj k s1 = Some a -> obj k s = Some a \/ h_view a = None)).
  { destruct (is_ptr (h_ty o) y) as [k|].
    - destruct R1 as (ok & ok' & _ & _ & C & _ & (_ & Lm & S)). assert (H : forall m a, m < length (mem s) -> obj m s1 = Some a -> obj m s = Some a).
      { intros m a L M. apply S in M. unfold obj in *; simpl in M. rewrite nth_error_app1 in M; auto. }
      split; auto. intros m a M. pose proof (obj_lt _ _ _ M) as L. rewrite Lm in L; simpl in L. rewrite app_length in L; simpl in L.
      destruct (Nat.lt_ge_cases m (length (mem s))); auto. right. apply S in M. assert (m = length (mem s)) by lia. subst m.
      unfold obj in M; simpl in M. rewrite nth_error_app2, Nat.sub_diag in M by auto. inversion M; subst. apply C.
    - destruct R1 as (_ & (_ & _ & S)). split; auto. }
  destruct P1 as [P1 P2].
  assert (Nj1 : nth_error (stk (push_s r s1)) j = Some (MPtr l)) by (simpl; rewrite nth_error_app1; rewrite St1; auto; eapply ne_lt; eauto).
  assert (O1 : obj l s1 = Some o).
  { assert (L : live l s1) by (eapply (inv_stk e [r] s1 (MPtr l)); [apply I1|rewrite St1; eapply nth_error_In; eauto|reflexivity]).
    apply live_obj in L as [o1 O1]. rewrite (P1 l o1) in O by auto. congruence. }
  pose proof (okcells_shrunk s s1 o P2 Ok) as Ok1.
  destruct (remove_tail _ (take (LS (length (stk s1)))) e [] (push_s r s1) j l o n b) as (s2 & o2 & E2 & I2 & B2 & Rm); auto; [apply INV_push; auto|].
  pose proof (became_stk _ _ _ _ B2) as St2. simpl in St2.
  set (s2' := {| mem := mem s2; rc := rc s2; stk := stk s1 |}).
  assert (E2' : s2 = push_s r s2') by (unfold push_s, s2'; destruct s2; simpl in *; congruence).
  assert (I3 : INV e [r] s2') by (apply INV_push; rewrite <- E2'; auto).
  exists r, s2', o2. split; [|split; [auto|split; [auto|split; [apply B2|split; [auto|split]]]]].
  - unfold remove. destruct (Z.ltb_spec (Z.of_nat b) 0); [lia|]. rewrite (bind_ok _ _ _ _ _ _ _ (ptr_size s (LS j) l Nj o O V)).
    destruct (Z.ltb_spec (Z.of_nat (h_size o) - 1) (Z.of_nat b)); [lia|].
    rewrite bind_assoc. rewrite (bind_ok _ _ _ _ _ _ _ E1).
    eapply scoped_ok with (v' := MNil) (s1 := s2').
    + rewrite E2. rewrite E2'. unfold take. pose proof (getv_push_new r s2') as Gr. change (length (stk s2')) with (length (stk s1)) in Gr.
      rewrite (bind_ok _ _ _ _ _ _ _ (get_eq _ _ _ Gr)). rewrite (bind_ok _ _ _ _ _ _ _ (put_eq _ _ _ MNil Gr)).
      change (length (stk s1)) with (length (stk s2')). rewrite putv_push_new. reflexivity.
    + reflexivity.
    + destruct s2'; reflexivity.
  - intros m a X L M. apply P1; auto. apply (became_other l o2 (push_s r s1) s2); auto. eapply obj_lt; eauto.
  - assert (Lm : length (mem s2') = length (mem s1)) by exact (became_len _ _ _ _ B2).
    destruct (is_ptr (h_ty o) y) as [k|].
    + destruct R1 as (ok & ok' & R & O' & C & On & (_ & Lm1 & _)). exists ok, ok'. simpl in Lm1. rewrite app_length in Lm1. simpl in Lm1.
      split; auto. split; auto. split; auto. split; [|lia].
      assert (Ls : live (length (mem s)) s2') by (apply (inv_flight e [r] s2' r); [apply I3|simpl; auto|rewrite R; reflexivity]).
      apply live_obj in Ls as [a M]. rewrite M. rewrite <- On. symmetry. apply (became_other l o2 (push_s r s1) s2); auto; [eapply obj_lt; eauto|lia].
    + destruct R1 as (R & (_ & Lm1 & _)). split; auto. lia.
Qed.

(** [a.remove(i);] and [x = a.remove(i)]. *)
Lemma eval_remove : forall s j l b r s1, variable s j (MPtr l) -> remove (LS j) b s = ROk r s1 -> stk s1 = stk s ->
  eval (length (stk s)) (ERemove (EVar j) b) s = ROk (LS (length (stk s))) (push_s r s1).
Proof.
  intros s j l b r s1 Vj E St. change (eval (length (stk s)) (ERemove (EVar j) b)) with (let! v := eval (length (stk s)) (EVar j) in let! x := remove v b in temp x).
  rewrite (bind_ok _ _ _ _ _ _ _ (eval_var s j _ _ Vj eq_refl s)). rewrite (bind_ok _ _ _ _ _ _ _ E). unfold temp. rewrite <- St. reflexivity.
Qed.
Lemma eval_gives : forall e s f q s1 ws, eval (length (stk s)) f s = ROk (LS q) s1 -> INV e [] s1 -> stk s1 = stk s ++ ws ->
  exists s', exec (SEval f) s = ROk tt s' /\ INV e [] s' /\ shrunk {| mem := mem s1; rc := rc s1; stk := stk s |} s'.
Proof.
  intros e s f q s1 ws E I St. set (t := {| mem := mem s1; rc := rc s1; stk := stk s |}).
  assert (Es : s1 = ext ws t) by (unfold ext, t; simpl; destruct s1; simpl in *; congruence).
  destruct (finish_gives e [] (body (length (stk s)) (SEval f)) s s1 ws t) as (s' & E' & I' & Sh); auto.
  - change (body (length (stk s)) (SEval f)) with (let! _ := eval (length (stk s)) f in ret tt). rewrite (bind_ok _ _ _ _ _ _ _ E). reflexivity.
  - rewrite <- Es. apply shrunk_refl.
  - exists s'. auto.
Qed.

(** * The front *)
Definition shifted (o : hobj) (n : nat) (o' : hobj) : Prop :=
  h_ty o' = h_ty o /\ h_view o' = h_view o /\ h_size o' = n /\
  (forall k, k < n -> val_at o' k = val_at o (S k) /\ key_at o' k = key_at o (S k)) /\
  (is_char (h_ty o) = true -> val_at o' n = Some NUL).
Lemma shift_gives : forall e s j l n o x, INV e [] s -> nth_error (stk s) j = Some (MPtr l) -> obj l s = Some o -> h_view o = None -> h_size o = S n ->
  h_size o <= length (h_cells o) -> (Z.of_nat n < 2 ^ 30)%Z -> val_at o 0 = Some x -> x <> MJunk ->
  exists s' o', shift (LS j) s = ROk x s' /\ INV e [x] s' /\ became l o' s s' /\ shifted o n o'.
Proof.
  intros e s j l n o x I Nj O V Sz Cp Sm A0 J. pose proof (obj_lt _ _ _ O) as Ll.
  destruct (h_cells o) as [|d rest] eqn:Cells; [simpl in Cp; lia|]. simpl in Cp.
  assert (Dx : snd d = x) by (unfold val_at in A0; rewrite Cells in A0; simpl in A0; congruence).
  assert (Hx : held x s).
  { destruct (INV_sound _ _ _ I) as (_ & _ & S). eapply S; eauto. destruct d as [a b]. simpl in Dx. subst b. eapply (in_contents_snd o 0 a). rewrite Cells. reflexivity. }
  set (r1 := bump x s). assert (I1 : INV e [x] r1) by (apply INV_bump; auto).
  assert (O1 : obj l r1 = Some o) by (unfold r1; rewrite obj_bump; auto).
  set (c1 := if varlike (h_ty o) then firstn n rest ++ (MNil, MNil) :: skipn n rest
             else firstn n rest ++ match nth_error (d :: rest) n with Some d => [d] | None => [] end ++ skipn n rest).
  set (o1 := set_cells o c1).
  assert (Mid : exists s3, (if varlike (h_ty o)
         then
           let! o := get_obj l in
           set_obj l (set_cells o (firstn n rest ++ (MNil, MNil) :: skipn n rest)) ;;
           release [fst d; snd d]
         else set_obj l (set_cells o (firstn n rest ++ match nth_error (d :: rest) n with Some d => [d] | None => [] end ++ skipn n rest))) r1 = ROk tt s3
      /\ INV e [x] s3 /\ shrunk (set_mem l o1 r1) s3).
  { pose proof I as (_ & T & _). destruct (T _ _ O) as [D1 D2]. unfold o1, c1. destruct (varlike (h_ty o)) eqn:Vl.
    - set (o' := set_cells o (firstn n rest ++ (MNil, MNil) :: skipn n rest)).
      assert (I2 : INV e ([fst d; x] ++ [x]) (set_mem l o' r1)).
      { eapply INV_set_mem; eauto.
        - intros k. rewrite !occ_contents. unfold o'. simpl h_cells. simpl h_view. rewrite Cells.
          rewrite cell_occ_cons, cell_occ_app, cell_occ_cons. pose proof (cell_occ_split k n rest).
          simpl occ. change (occ1 k MNil) with 0. simpl fst. simpl snd. change (occ1 k MNil) with 0. rewrite Dx. lia.
        - split; simpl; [congruence|auto]. }
      destruct (MemTriple.release_INV _ _ _ _ I2) as (s3 & R1 & R2 & R3 & _).
      destruct (release_ok _ _ _ _ (proj1 I2)) as (s3' & R1' & _ & _ & R4 & R5). assert (s3' = s3) by congruence. subst s3'.
      exists s3. split; [|split; [auto|apply fp_nothing_shrunk; auto]].
      rewrite (bind_ok _ _ _ _ _ _ _ (get_obj_eq _ _ _ O1)). unfold bind at 1, set_obj. fold o'. fold (set_mem l o' r1). rewrite Dx. exact R1.
    - eexists. split; [reflexivity|]. split; [|apply shrunk_refl]. set (o' := set_cells o _).
      assert (Z : forall k, cell_occ k (h_cells o') = 0).
      { intros k. unfold o'. simpl h_cells. specialize (D1 eq_refl). rewrite !cell_occ_app.
        pose proof (D1 k) as E. rewrite Cells, cell_occ_cons in E. pose proof (cell_occ_split k n rest).
        destruct (nth_error (d :: rest) n) as [d'|] eqn:N; [|change (cell_occ k []) with 0; lia].
        assert (cell_occ k [d'] = 0).
        { destruct d' as [a b]. assert (A : forall v, In v [a; b] -> occ1 k v = 0).
          { intros v Hv. unfold occ1. destruct (target v) as [t|] eqn:Tv; auto. destruct (Nat.eqb_spec t k); auto. subst t. exfalso.
            pose proof (D1 k) as E'. rewrite Cells in E'. unfold cell_occ in E'.
            assert (1 <= occ k (flat_map (fun c => [fst c; snd c]) (d :: rest))); [|lia].
            eapply occ_in; eauto. apply in_flat_map. exists (a, b). split; [eapply nth_error_In; eauto|exact Hv]. }
          rewrite cell_occ_cons. change (cell_occ k []) with 0. simpl. rewrite !A; simpl; auto. }
        lia. }
      eapply INV_set_mem; eauto.
      + intros k. rewrite !occ_contents, Z. rewrite (D1 eq_refl). reflexivity.
      + split; simpl; auto. }
  destruct Mid as (s3 & E3 & I3 & Sh3).
  assert (B3 : became l o1 s s3).
  { apply (became_held e [x] l o1 s s3 j (MPtr l)); auto. eapply shrunk_trans; [|exact Sh3]. unfold shrunk, obj, r1; simpl. rewrite ?bump_mem, ?bump_stk. auto. }
  destruct (heap_resize_gives e [x] s3 l n o1 I3 (proj2 B3) Sm) as (o2 & R & I4 & G).
  assert (B4 : became l o2 s3 (set_mem l o2 s3)).
  { split; [apply shrunk_refl|]. rewrite obj_set_mem by (rewrite (became_len _ _ _ _ B3); auto). rewrite Nat.eqb_refl. reflexivity. }
  exists (set_mem l o2 s3), o2. split; [|split; [auto|split; [eapply became_trans; eauto|]]].
  - unfold shift. rewrite (bind_ok _ _ _ _ _ _ _ (ptr_heap s (LS j) l Nj)). unfold heap_shift.
    rewrite (bind_ok _ _ _ _ _ _ _ (get_obj_eq _ _ _ O)). rewrite Cells, Sz, Dx.
    assert (At : attach x s = ROk tt r1) by (apply attach_eq; auto).
    rewrite Dx in E3. destruct x; try congruence; rewrite (bind_ok _ _ _ _ _ _ _ At), (bind_ok _ _ _ _ _ _ _ E3), (bind_ok _ _ _ _ _ _ _ R); reflexivity.
  - pose proof G as (G1 & G2 & G3 & G4 & _). split; [exact G1|]. split; [exact G2|]. split; [exact G3|].
    assert (Lc : length c1 = S (length rest)).
    { unfold c1. destruct (varlike (h_ty o)).
      - rewrite app_length; simpl. rewrite firstn_length, skipn_length. lia.
      - destruct (nth_error (d :: rest) n) eqn:N; [|apply nth_error_None in N; simpl in N; lia].
        rewrite !app_length; simpl. rewrite firstn_length, skipn_length. lia. }
    assert (Nc : forall k, k < n -> nth_error c1 k = nth_error (h_cells o) (S k)).
    { intros k K. rewrite Cells. simpl. unfold c1. destruct (varlike (h_ty o)); rewrite nth_error_app1 by (rewrite firstn_length; lia); rewrite nth_firstn; destruct (Nat.ltb_spec k n); auto; lia. }
    split.
    + intros k K. split.
      * rewrite (grown_val n o1 o2 k G) by (simpl; lia). unfold val_at, o1; simpl. rewrite Nc; auto.
      * rewrite (grown_key n o1 o2 k G) by (simpl; lia). unfold key_at, o1; simpl. rewrite Nc; auto.
    + intros C. apply (grown_nul n o1 o2); auto.
Qed.

Lemma nth_skipn : forall A n (l : list A) k, nth_error (skipn n l) k = nth_error l (n + k).
Proof. induction n; intros l k; simpl; auto. destruct l; auto. destruct k; reflexivity. Qed.
Definition unshifted (o : hobj) (n : nat) (z : mvar) (o' : hobj) : Prop :=
  h_ty o' = h_ty o /\ h_view o' = h_view o /\ h_size o' = S n /\ val_at o' 0 = Some z /\ (forall k, k < n -> val_at o' (S k) = val_at o k) /\
  (is_char (h_ty o) = true -> val_at o' (S n) = Some NUL).
(** The cells after the move up, for a new first cell [c]. *)
Definition moved_up (o : hobj) (n : nat) (c : mvar * mvar) : hobj := set_cells o (c :: firstn n (h_cells o) ++ skipn (S n) (h_cells o)).
Lemma moved_up_val : forall o n c k, n < length (h_cells o) -> val_at (moved_up o n c) k =
  match k with O => Some (snd c) | S k => if (k <? n)%nat then val_at o k else val_at o (S k) end.
Proof.
  intros o n c k L. unfold val_at, moved_up. destruct k as [|k]; [reflexivity|]. cbn [set_cells h_cells nth_error].
  destruct (Nat.ltb_spec k n) as [H|H].
  - rewrite nth_error_app1 by (rewrite firstn_length; lia). rewrite nth_firstn. destruct (Nat.ltb_spec k n); [auto|lia].
  - rewrite nth_error_app2 by (rewrite firstn_length; lia). rewrite firstn_length. replace (Nat.min n (length (h_cells o))) with n by lia.
    rewrite nth_skipn. replace (S n + (k - n)) with (S k) by lia. reflexivity.
Qed.
Lemma moved_up_len : forall o n c, n < length (h_cells o) -> length (h_cells (moved_up o n c)) = length (h_cells o).
Proof. intros o n c L. unfold moved_up. cbn [set_cells h_cells List.length]. rewrite app_length, firstn_length, skipn_length. lia. Qed.
Lemma moved_up_unshifted : forall o o1 n k0 z, h_size o = n -> n <= length (h_cells o) -> grown (S n) o o1 -> unshifted o n z (moved_up o1 n (k0, z)).
Proof.
  intros o o1 n k0 z Sz Cp G. pose proof G as (G1 & G2 & G3 & G4 & _). assert (L : n < length (h_cells o1)) by lia.
  unfold unshifted. split; [exact G1|]. split; [exact G2|]. split; [exact G3|]. split; [|split].
  - rewrite moved_up_val; auto.
  - intros k K. rewrite moved_up_val by auto. destruct (Nat.ltb_spec k n); [|lia]. apply (grown_val (S n) o o1); auto; lia.
  - intros C. rewrite moved_up_val by auto. destruct (Nat.ltb_spec n n); [lia|]. apply (grown_nul (S n) o o1); auto.
Qed.
(** An operand that is a number of type [t], or an element of an array of that type. *)
Definition number_arg (s : state) (t : ety) (x : mvar) (v : val) : Prop :=
  denotes s x (MNum v) /\ ety_of v = t /\ forall l i o, x = MRef l i -> obj l s = Some o -> h_ty o = HE t \/ varlike (h_ty o) = true.
Lemma ety_eqb_refl : forall t, ety_eqb t t = true. Proof. destruct t; reflexivity. Qed.
Lemma get_as_gives : forall s q x v t, nth_error (stk s) q = Some x -> number_arg s t x v -> get_as t (LS q) s = ROk v s.
Proof.
  intros s q x v t N (D & Ty & R). unfold get_as. rewrite (bind_ok _ _ _ _ _ _ _ (get_eq (LS q) _ _ N)).
  destruct x; simpl in D; try discriminate; try contradiction.
  - inversion D; subst. simpl eff. unfold bind, ret. rewrite ety_eqb_refl. reflexivity.
  - destruct D as (o & k & O & V & L & C & _). apply obj_live in O. destruct (R l i o eq_refl O) as [T|T].
    + destruct (varlike (h_ty o)) eqn:Vl; [|].
      * rewrite (bind_ok _ _ (eff (MRef l i)) _ s (MNum v) s).
        { rewrite Ty, ety_eqb_refl. reflexivity. }
        simpl. rewrite (bind_ok _ _ _ _ _ _ _ (get_obj_eq _ _ _ O)). unfold plain_vars. rewrite V, Vl, C. reflexivity.
      * rewrite (bind_ok _ _ (eff (MRef l i)) _ s (MRef l i) s).
        2:{ simpl. rewrite (bind_ok _ _ _ _ _ _ _ (get_obj_eq _ _ _ O)). unfold plain_vars. rewrite V, Vl. reflexivity. }
        rewrite (bind_ok _ _ _ _ _ _ _ (get_obj_eq _ _ _ O)). rewrite (bind_ok _ _ (obj_type o) _ s (HE t) s).
        2:{ unfold obj_type. rewrite V, T. reflexivity. }
        rewrite ety_eqb_refl. rewrite (bind_ok _ _ (read_elem l (Z.of_nat i)) _ s (MNum v) s); [reflexivity|].
        unfold read_elem, elem_at.
        rewrite (bind_ok _ _ _ _ s (l, i) s).
        2:{ rewrite (bind_ok _ _ _ _ _ _ _ (get_obj_eq _ _ _ O)). unfold bind at 1, ret. rewrite V. destruct (Z.ltb_spec (Z.of_nat i) 0); [lia|]. rewrite Nat2Z.id. reflexivity. }
        rewrite (bind_ok _ _ _ _ _ _ _ (get_obj_eq _ _ _ O)). rewrite C, Vl. reflexivity.
    + rewrite (bind_ok _ _ (eff (MRef l i)) _ s (MNum v) s).
      { rewrite Ty, ety_eqb_refl. reflexivity. }
      simpl. rewrite (bind_ok _ _ _ _ _ _ _ (get_obj_eq _ _ _ O)). unfold plain_vars. rewrite V, T, C. reflexivity.
Qed.
Lemma became_refl_set : forall l o o' s, obj l s = Some o -> became l o' s (set_mem l o' s).
Proof.
  intros l o o' s O. split; [apply shrunk_refl|]. rewrite obj_set_mem by (eapply obj_lt; eauto). rewrite Nat.eqb_refl. reflexivity.
Qed.
Lemma heap_unshift_gives : forall e s j q l o x y z, INV e [] s -> nth_error (stk s) j = Some (MPtr l) -> nth_error (stk s) q = Some x ->
  obj l s = Some o -> h_view o = None -> h_size o <= length (h_cells o) -> (Z.of_nat (h_size o) + 1 < 2 ^ 30)%Z ->
  match h_ty o with
  | HE TVar => denotes s x y /\ (forall i, x <> MRef l i) /\ z = y
  | HE t => exists v, number_arg s t x v /\ z = MNum v
  | HPair => False
  end ->
  exists e' s' o', heap_unshift l (LS q) s = ROk tt s' /\ INV e' [] s' /\ became l o' s s' /\ unshifted o (h_size o) z o'.
Proof.
  intros e s j q l o x y z I Nj Nq O V Cp Sm H. pose proof (obj_lt _ _ _ O) as Ll. set (n := h_size o) in *.
  destruct (heap_resize_gives e [] s l (S n) o I O) as (o1 & R1 & I1 & G); [lia|].
  set (s1 := set_mem l o1 s) in *. pose proof G as (G1 & G2 & G3 & G4 & _).
  assert (B1 : became l o1 s s1) by (eapply became_refl_set; eauto).
  assert (O1 : obj l s1 = Some o1) by apply B1.
  assert (Ln : n < length (h_cells o1)) by lia.
  assert (Lb : Nat.leb (length (h_cells o1)) (h_size o1 - 1) = false) by (apply Nat.leb_gt; lia).
  assert (En : h_size o1 - 1 = n) by lia.
  destruct (nth_error (h_cells o1) n) as [d|] eqn:N; [|apply nth_error_None in N; lia].
  pose proof I1 as (_ & T & _). destruct (T _ _ O1) as [D1 D2].
  destruct (h_ty o) as [t|] eqn:Ty; [|contradiction].
  assert (Dense : forall v, varlike (HE t) = false -> number_arg s t x v -> z = MNum v ->
    exists e' s' o', (let! x := get_as t (LS q) in
      if Nat.leb (length (h_cells o1)) (h_size o1 - 1) then ub OutOfBounds else
      set_obj l (set_cells o1 ((MNil, MNum x) :: firstn (h_size o1 - 1) (h_cells o1) ++ skipn (S (h_size o1 - 1)) (h_cells o1)))) s1 = ROk tt s' /\ INV e' [] s' /\ became l o' s s' /\ unshifted o n z o').
  { intros v Vl A ->. assert (A1 : number_arg s1 t x v).
    { destruct A as (A1 & A2 & A3). split; [|split; auto].
      - eapply (grown_denotes s l o o1 (S n)); eauto.
      - intros k i ok Ex Ok. unfold s1 in Ok. rewrite obj_set_mem in Ok by auto. destruct (Nat.eqb_spec l k) as [->|X]; [|eauto]. inversion Ok; subst. left. congruence. }
    set (o2 := moved_up o1 n (MNil, MNum v)). exists e, (set_mem l o2 s1), o2. split; [|split; [|split]].
    - rewrite (bind_ok _ _ _ _ _ _ _ (get_as_gives s1 q x v t Nq A1)). rewrite Lb, En. reflexivity.
    - eapply INV_set_mem; eauto.
      + intros k. rewrite G1 in D1. specialize (D1 Vl k). rewrite !occ_contents, D1. unfold o2.
        change (h_cells (moved_up o1 n (MNil, MNum v))) with ((MNil, MNum v) :: firstn n (h_cells o1) ++ skipn (S n) (h_cells o1)). change (h_view (moved_up o1 n (MNil, MNum v))) with (h_view o1).
        rewrite (cell_occ_nth k n (h_cells o1) d N) in D1. rewrite cell_occ_cons, cell_occ_app. change (occ1 k (fst (MNil, MNum v))) with 0. change (occ1 k (snd (MNil, MNum v))) with 0. simpl occ. lia.
      + split; [|exact D2]. intros _ k. change (h_cells o2) with ((MNil, MNum v) :: firstn n (h_cells o1) ++ skipn (S n) (h_cells o1)). rewrite G1 in D1. specialize (D1 Vl k). rewrite (cell_occ_nth k n (h_cells o1) d N) in D1.
        rewrite cell_occ_cons, cell_occ_app. change (occ1 k (fst (MNil, MNum v))) with 0. change (occ1 k (snd (MNil, MNum v))) with 0. lia.
    - eapply became_trans; eauto. eapply became_refl_set; eauto.
    - apply moved_up_unshifted; auto. }
  unfold heap_unshift. rewrite (bind_ok _ _ _ _ _ _ _ (get_obj_eq _ _ _ O)). fold n. rewrite (bind_ok _ _ _ _ _ _ _ R1).
  fold s1. rewrite (bind_ok _ _ _ _ _ _ _ (get_obj_eq _ _ _ O1)). cbv zeta. rewrite G1.
  destruct t; try (destruct H as (v & A & Z); apply (Dense v); auto).
  clear Dense. destruct H as (D & Nx & ->). rewrite Lb, En.
  set (o2 := moved_up o1 n (MNil, MNil)). set (s2 := set_mem l o2 s1).
  assert (I2 : INV e [fst d; snd d] s2).
  { eapply INV_set_mem; eauto.
    - intros k. rewrite !occ_contents. change (h_cells o2) with ((MNil, MNil) :: firstn n (h_cells o1) ++ skipn (S n) (h_cells o1)). change (h_view o2) with (h_view o1).
      rewrite (cell_occ_nth k n (h_cells o1) d N), cell_occ_cons, cell_occ_app. change (occ1 k (fst (MNil, MNil))) with 0.
      change (occ1 k (snd (MNil, MNil))) with 0. simpl occ. lia.
    - split; simpl; [intros Vl; rewrite G1 in Vl; discriminate|auto]. }
  apply INV_lose in I2. apply INV_lose in I2. revert I2. match goal with |- INV ?a _ _ -> _ => set (e2 := a) end. intros I2.
  assert (B2 : became l o2 s1 s2) by (eapply became_refl_set; eauto).
  assert (O2 : obj l s2 = Some o2) by apply B2. assert (Ll1 : l < length (mem s1)) by (eapply obj_lt; eauto).
  assert (B02 : became l o2 s s2) by (eapply became_trans; eauto).
  assert (D2' : denotes s2 x y) by (eapply (became_denotes e2 [] l o2 s s2 q x y); eauto).
  pose proof (INV_sound _ _ _ I2) as Sd2. assert (Hx : held x s2) by (apply (getv_held (LS q)); auto).
  set (s3 := push_s x (bump x s2)).
  assert (I3 : INV e2 [] s3) by (apply INV_push, INV_bump; auto).
  assert (O3 : obj l s3 = Some o2) by (unfold s3; rewrite obj_push, obj_bump; auto).
  destruct (denotes_der s3 x y) as [Dd Ny]; [apply denotes_push, denotes_bump; auto|].
  assert (C0 : nth_error (h_cells o2) 0 = Some (MNil, MNil)) by reflexivity.
  assert (Nj3 : nth_error (stk s3) j = Some (MPtr l)) by (unfold s3; simpl; rewrite bump_stk, nth_error_app1; auto; apply ne_lt in Nj; auto).
  destruct (assign_plain_gives e2 [] s3 (LC l (h_gen o2) 0) (length (stk s2)) x y MNil) as (s4 & E4 & I4 & Sh4); auto.
  - split; [eapply obj_lt; eauto|]. intros a A. rewrite O3 in A. inversion A; subst a. unfold o2; simpl. rewrite G1; reflexivity.
  - unfold getv. rewrite O3, Nat.eqb_refl. reflexivity.
  - intros ? ? ?; discriminate.
  - intros ? ? ?; discriminate.
  - unfold s3; simpl. rewrite bump_stk, nth_error_app2, Nat.sub_diag by auto. reflexivity.
  - discriminate.
  - intros k i ok -> _ _ X. inversion X; subst. eapply Nx; eauto.
  - intros k g i [X|X]; inversion X; subst. eauto.
  - rewrite (set_val_putv _ _ _ _ _ _ _ _ O3 C0) in Sh4. set (o4 := set_val o2 0 y) in *.
    destruct (scoped_gives _ x (assign_plain (LC l (h_gen o2) 0)) e2 [] (bump x s2) tt s4 x (set_mem l o4 (bump x s2))) as (s5 & E5 & I5 & Sh5); [rewrite bump_stk; exact E4|auto|exact Sh4|reflexivity|].
    exists e2, s5, o4. split; [|split; [auto|split]].
    + unfold bind at 1, set_obj. fold (moved_up o1 n (MNil, MNil)). fold o2. fold (set_mem l o2 s1). fold s2.
      rewrite (bind_ok _ _ _ _ _ _ _ (copy_of_eq (LS q) s2 x Sd2 Nq)). exact E5.
    + apply (became_held e2 [] l o4 s s5 j (MPtr l)); auto. eapply shrunk_trans; [|exact Sh5].
      rewrite <- (set_mem_twice l o1 o4 s). fold s1. rewrite <- (set_mem_twice l o2 o4 s1). fold s2.
      apply shrunk_set_mem; [apply shrunk_bump|eapply obj_lt; eauto].
    + destruct (moved_up_unshifted o o1 n MNil y eq_refl Cp G) as (U1 & U2 & U3 & U4 & U5 & U6).
      assert (E : forall k, val_at o4 k = val_at (moved_up o1 n (MNil, y)) k).
      { intros k. unfold o4. rewrite set_val_at by (unfold o2; rewrite moved_up_len; lia). unfold o2. rewrite !moved_up_val by auto. destruct k; auto. }
      destruct (set_val_alike o2 0 y) as (W1 & W2 & W3 & W4 & W5). unfold unshifted, o4. fold o4.
      split; [rewrite <- U1; exact W1|]. split; [rewrite <- U2; exact W4|]. split; [rewrite <- U3; exact W2|]. 
      split; [rewrite E; auto|]. split; [intros k K; rewrite E; auto|]. intros C. rewrite E. auto.
Qed.

Lemma number_arg_temps : forall s s1 t x v, temps s s1 -> number_arg s t x v -> number_arg s1 t x v.
Proof.
  intros s s1 t x v T (A & B & C). split; [eapply temps_denotes; eauto|split; auto]. intros l i o E O. rewrite (temps_obj _ _ _ T) in O. eauto.
Qed.
Definition front_arg (s : state) (l : nat) (t : hty) (x z : mvar) : Prop :=
  match t with
  | HE TVar => denotes s x z /\ forall i, x <> MRef l i
  | HE t => exists v, number_arg s t x v /\ z = MNum v
  | HPair => False
  end.
Lemma unshift_gives : forall e s j p l o x z, INV e [] s -> nth_error (stk s) j = Some (MPtr l) -> nth_error (stk s) p = Some x ->
  obj l s = Some o -> h_view o = None -> h_size o <= length (h_cells o) -> (Z.of_nat (h_size o) + 1 < 2 ^ 30)%Z -> front_arg s l (h_ty o) x z ->
  exists e' s' o', unshift (LS j) (LS p) s = ROk tt s' /\ INV e' [] s' /\ became l o' s s' /\ unshifted o (h_size o) z o'.
Proof.
  intros e s j p l o x z I Nj Np O V Cp Sm H. pose proof (INV_sound _ _ _ I) as Sd. pose proof (obj_lt _ _ _ O) as Ll.
  assert (Hx : held x s) by (apply (getv_held (LS p)); auto). set (s1 := push_s x (bump x s)).
  assert (I1 : INV e [] s1) by (apply INV_push, INV_bump; auto).
  assert (T1 : temps s s1) by (apply temps_push, temps_refl).
  destruct (heap_unshift_gives e s1 j (length (stk s)) l o x z z) as (e' & s2 & o' & E2 & I2 & B2 & U); auto.
  - eapply temps_slot; eauto.
  - unfold s1; simpl. rewrite bump_stk, nth_error_app2, Nat.sub_diag by auto. reflexivity.
  - rewrite (temps_obj _ _ _ T1). auto.
  - unfold front_arg in H. destruct (h_ty o) as [[]|]; auto; try (destruct H as (v & A & B); exists v; split; [exact (number_arg_temps _ _ _ _ _ T1 A)|exact B]).
    destruct H as [A B]. split; [exact (temps_denotes _ _ _ _ T1 A)|auto].
  - destruct (scoped_gives _ x (fun q => heap_unshift l q) e' [] (bump x s) tt s2 x (set_mem l o' (bump x s))) as (s3 & E3 & I3 & Sh3); auto.
    + rewrite bump_stk. exact E2.
    + apply B2.
    + exists e', s3, o'. split; [|split; [auto|split; [|auto]]].
      * unfold unshift. rewrite (bind_ok _ _ _ _ _ _ _ (ptr_defined s (LS j) l Nj)). change (negb true) with false. cbv iota.
        rewrite (bind_ok _ _ _ _ _ _ _ (ptr_heap s (LS j) l Nj)). rewrite (bind_ok _ _ (ret tt) _ s tt s eq_refl).
        rewrite (bind_ok _ _ _ _ _ _ _ (ptr_heap s (LS j) l Nj)). rewrite (bind_ok _ _ _ _ _ _ _ (copy_of_eq (LS p) s x Sd Np)). exact E3.
      * apply (became_held e' [] l o' s s3 j (MPtr l)); auto. eapply shrunk_trans; [|exact Sh3]. apply shrunk_set_mem; [apply shrunk_bump|auto].
Qed.
(** [x = a.shift()]. *)
Lemma exec_shift : forall e s j k l n o y old, INV e [] s -> variable s j (MPtr l) -> variable s k old -> k <> j -> nonref old -> not_view s old ->
  obj l s = Some o -> h_view o = None -> h_size o = S n -> h_size o <= length (h_cells o) -> (Z.of_nat n < 2 ^ 30)%Z ->
  val_at o 0 = Some y -> y <> MJunk -> nonref y ->
  exists s' o', exec (SAssign (EVar k) (EShift (EVar j))) s = ROk tt s' /\ INV e [] s' /\ shifted o n o' /\ obj l s' = Some o' /\
    stk s' = set_nth (stk s) k y /\ forall m a, m <> l -> obj m s' = Some a -> obj m s = Some a.
Proof.
  intros e s j k l n o y old I Vj Vk D No Nv O V Sz Cp H Y1 Y2 Y3. pose proof (obj_lt _ _ _ O) as Ll.
  destruct (shift_gives e s j l n o y I Vj O V Sz Cp H Y1 Y2) as (s1 & o' & E1 & I1 & B1 & G). pose proof (became_stk _ _ _ _ B1) as St1.
  assert (V' : h_view o' = None) by (destruct G as (_ & -> & _); auto).
  destruct (assign_var_gives e s (EShift (EVar j)) (push_s y s1) (length (stk s)) [y] y y k old) as (s2 & E2 & I2 & Sh); auto.
  - change (eval (length (stk s)) (EShift (EVar j))) with (let! v := eval (length (stk s)) (EVar j) in let! x := shift v in temp x).
    rewrite (bind_ok _ _ _ _ _ _ _ (eval_var s j _ _ Vj eq_refl s)). rewrite (bind_ok _ _ _ _ _ _ _ E1). unfold temp. rewrite <- St1. reflexivity.
  - apply INV_push. auto.
  - simpl. rewrite St1. reflexivity.
  - simpl. rewrite St1, nth_error_app2, Nat.sub_diag by auto. reflexivity.
  - destruct y; simpl; auto. exfalso; eapply Y3; eauto.
  - intros m a -> M. rewrite obj_push in M. destruct (Nat.eq_dec m l) as [->|X].
    + destruct B1 as [_ B1]. congruence.
    + apply (Nv m a); auto. eapply became_other; eauto.
  - exists s2, o'. split; auto. split; auto. split; auto. pose proof Sh as (S1 & S2 & S3). simpl in S1, S2.
    assert (Nj : nth_error (set_nth (stk s) k y) j = Some (MPtr l)) by (rewrite sn_other; auto).
    split; [|split; auto].
    + eapply (shrunk_obj e [] _ s2 j (MPtr l) l o' Sh I2); auto. apply B1.
    + intros m a X M. apply S3 in M. eapply became_other; eauto.
Qed.
(** [x = a.remove(i)]. *)
Lemma exec_remove : forall e s j l o n b y, INV e [] s -> variable s j (MPtr l) -> obj l s = Some o -> h_view o = None -> okcells s o ->
  h_size o = S n -> b <= n -> h_size o <= length (h_cells o) -> (Z.of_nat n < 2 ^ 30)%Z ->
  (forall k v, b < k <= n -> val_at o k = Some v -> fits_type (h_ty o) v) ->
  val_at o b = Some y -> nonref y ->
  (forall k ok, is_ptr (h_ty o) y = Some k -> obj k s = Some ok -> h_view ok = None /\ h_size ok <= length (h_cells ok) /\ (Z.of_nat (h_size ok) < 2 ^ 30)%Z) ->
  exists s' o', exec (SEval (ERemove (EVar j) (Z.of_nat b))) s = ROk tt s' /\ INV e [] s' /\ removed o n b o' /\ obj l s' = Some o' /\
    stk s' = stk s /\ length (mem s) <= length (mem s') /\ forall m a, m <> l -> m < length (mem s) -> obj m s' = Some a -> obj m s = Some a.
Proof.
  intros e s j l o n b y I Vj O V Ok Sz Lb Cp Sm T A Nr K.
  destruct (remove_gives e s j l o n b y I Vj O V Ok Sz Lb Cp Sm T A Nr K) as (r & s1 & o' & E1 & I1 & St1 & O1 & Rm & Oth & Ln).
  destruct (eval_gives e s (ERemove (EVar j) (Z.of_nat b)) (length (stk s)) (push_s r s1) [r]) as (s2 & E2 & I2 & Sh).
  - eapply eval_remove; eauto.
  - apply INV_push; auto.
  - simpl. rewrite St1. reflexivity.
  - exists s2, o'. split; auto. split; auto. split; auto. pose proof Sh as (S1 & S2 & S3). simpl in S1, S2. split; [|split; [auto|split]].
    + eapply (shrunk_obj e [] _ s2 j (MPtr l) l o' Sh I2); eauto.
    + rewrite S2. destruct (is_ptr (h_ty o) y); [destruct Ln as (? & ? & _ & _ & _ & _ & Ln)|destruct Ln as [_ Ln]]; lia.
    + intros m a X L M. apply S3 in M. apply Oth; auto.
Qed.
Lemma exec_remove_to : forall e s j k l o n b y w old, INV e [] s -> variable s j (MPtr l) -> variable s k old -> k <> j -> nonref old -> not_view s old ->
  obj l s = Some o -> h_view o = None -> okcells s o ->
  h_size o = S n -> b <= n -> h_size o <= length (h_cells o) -> (Z.of_nat n < 2 ^ 30)%Z ->
  (forall k v, b < k <= n -> val_at o k = Some v -> fits_type (h_ty o) v) ->
  val_at o b = Some y -> nonref y ->
  (forall k ok, is_ptr (h_ty o) y = Some k -> obj k s = Some ok -> h_view ok = None /\ h_size ok <= length (h_cells ok) /\ (Z.of_nat (h_size ok) < 2 ^ 30)%Z) ->
  match is_ptr (h_ty o) y with
  | Some _ => w = MPtr (length (mem s))
  | None => w <> MJunk /\ nonref w /\ if (b <? n)%nat then val_at o (S b) = Some w else if is_char (h_ty o) then w = NUL else w = y
  end ->
  exists s' o', exec (SAssign (EVar k) (ERemove (EVar j) (Z.of_nat b))) s = ROk tt s' /\ INV e [] s' /\ removed o n b o' /\ obj l s' = Some o' /\
    stk s' = set_nth (stk s) k w /\ length (mem s) <= length (mem s') /\ (forall m a, m <> l -> m < length (mem s) -> obj m s' = Some a -> obj m s = Some a) /\
    forall m om, is_ptr (h_ty o) y = Some m -> obj m s = Some om -> exists om', obj (length (mem s)) s' = Some om' /\ copied om om'.
Proof.
  intros e s j k l o n b y w old I Vj Vk D No Nv O V Ok Sz Lb Cp Sm T A Nr K W. pose proof (obj_lt _ _ _ O) as Ll.
  destruct (remove_gives e s j l o n b y I Vj O V Ok Sz Lb Cp Sm T A Nr K) as (r & s1 & o' & E1 & I1 & St1 & O1 & Rm & Oth & R).
  pose proof Rm as (R1 & R2 & R3 & R4 & R5 & R6).
  assert (Dw : der_spec r (push_s r s1) w /\ nonref w).
  { destruct (is_ptr (h_ty o) y) as [m|].
    - destruct R as (ok & ok' & -> & _). subst w. split; [reflexivity|]. intros ? ? ?; discriminate.
    - destruct R as (-> & _). destruct W as (W1 & W2 & W3). split; auto. apply (der_cell _ l o' b w); auto; [congruence|].
      destruct (Nat.ltb_spec b n).
      + rewrite R4 by auto. destruct (Nat.ltb_spec b b); [lia|auto].
      + assert (b = n) by lia. subst b. destruct (is_char (h_ty o)); congruence. }
  destruct Dw as [Dw Nw].
  destruct (assign_var_gives e s (ERemove (EVar j) (Z.of_nat b)) (push_s r s1) (length (stk s)) [r] r w k old) as (s2 & E2 & I2 & Sh); auto.
  - eapply eval_remove; eauto.
  - apply INV_push; auto.
  - simpl. rewrite St1. reflexivity.
  - simpl. rewrite St1, nth_error_app2, Nat.sub_diag by auto. reflexivity.
  - intros m a -> M. rewrite obj_push in M. destruct (Nat.eq_dec m l) as [->|X]; [congruence|]. apply (Nv m a); auto. apply Oth; auto.
    assert (Lm : live m s). { destruct (INV_sound _ _ _ I) as (_ & S & _). apply (S (MPtr m)); [eapply nth_error_In; eauto|reflexivity]. }
    apply live_obj in Lm as [am Am]. eapply obj_lt; eauto.
  - exists s2, o'. split; auto. split; auto. split; auto. pose proof Sh as (S1 & S2 & S3). simpl in S1, S2.
    assert (Nj : nth_error (set_nth (stk s) k w) j = Some (MPtr l)) by (rewrite sn_other; auto).
    split; [|split; [auto|split; [|split]]].
    + eapply (shrunk_obj e [] _ s2 j (MPtr l) l o' Sh I2); auto.
    + rewrite S2. destruct (is_ptr (h_ty o) y); [destruct R as (? & ? & _ & _ & _ & _ & Ln)|destruct R as [_ Ln]]; lia.
    + intros m a X L M. apply S3 in M. apply Oth; auto.
    + intros m om Em Om. rewrite Em in R, W. destruct R as (ok & ok' & _ & Ok' & C & On & _). assert (ok = om) by congruence. subst ok. exists ok'. split; auto.
      eapply (shrunk_obj e [] _ s2 k w (length (mem s)) ok' Sh I2); auto; [|subst w; reflexivity]. simpl. rewrite sn_same; auto. eapply ne_lt; eauto.
Qed.
