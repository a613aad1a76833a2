(** What the comma operator does: numbers appended to a number or to an array of numbers. *)
From Coq Require Import ZArith Bool List String Lia.
From Verif Require Import Base StrModel ValModel NumModel AllocModel AllocProof MemModel MemProof MemFun MemEq MemDeref MemTriple MemOps MemArr MemMore MemKey MemElem MemMeth MemList MemRun MemFits ArrSpec MemArrays MemCopy MemThrow MemSelf MemScalar ArrFacts MemInit.
Import ListNotations.
Local Open Scope list_scope.
Local Open Scope mem_scope.
Local Notation length := List.length.

(** The arrays of [s1] below [n], other than [l], are those of [s]. *)
Definition old_arrays (n l : nat) (s s1 : state) : Prop :=
  length (mem s) <= length (mem s1) /\ forall k o, k < n -> k <> l -> obj k s1 = Some o -> obj k s = Some o.
Lemma old_trans : forall n l s s1 s2, old_arrays n l s s1 -> old_arrays n l s1 s2 -> old_arrays n l s s2.
Proof. intros n l s s1 s2 [A B] [A' B']. split; [lia|]. auto. Qed.
Lemma old_less : forall n m l s s1, m <= n -> old_arrays n l s s1 -> old_arrays m l s s1.
Proof. intros n m l s s1 L [A B]. split; auto. intros k o K. apply B. lia. Qed.

(** * The number appended, a parameter, becomes an array of one element *)
Lemma index_scalar : forall e s c u, INV e [] s -> nth_error (stk s) c = Some (MNum u) -> number u = true ->
  exists o s1, index_int (LS c) 0 s = ROk (MRef (length (mem s)) 0) (bump (MPtr (length (mem s))) s1) /\ INV e [] s1 /\
    shrunk (upd c (MPtr (length (mem s))) [Some o] s) s1 /\ h_ty o = HE (ety_of u) /\ h_view o = None /\ h_size o = 1 /\ 1 <= length (h_cells o) /\ val_at o 0 = Some (MNum u).
Proof.
  intros e s c u I N Nu. assert (Sc : scalar (MNum u)) by (right; eauto).
  destruct (become_array_gives e s c (MNum u) 1 I N Sc) as (o & s1 & E & I1 & Sh & T & Sz & V & Lc & _); [lia|lia|]. simpl in T. change (if is_char (scalar_type (MNum u)) then 1 else 0) with (if is_char (HE (ety_of u)) then 1 else 0) in Lc.
  destruct (set_val_alike o 0 (MNum u)) as (A1 & A2 & A3 & A4 & A5). assert (Lc' : 1 <= length (h_cells o)) by lia.
  assert (N1 : nth_error (stk s1) c = Some (MPtr (length (mem s)))) by (eapply upd_this; eauto; eapply ne_lt; eauto).
  exists (set_val o 0 (MNum u)), s1. split; [|split; [auto|split; [auto|split; [congruence|split; [congruence|split; [congruence|split; [lia|rewrite set_val_at by lia; reflexivity]]]]]]].
  unfold index_int. destruct (Z.ltb_spec 0 0); [lia|]. rewrite (bind_ok _ _ _ _ _ _ _ (get_eq (LS c) _ _ N)). unfold index_plain.
  rewrite (bind_ok _ _ _ _ _ _ _ (scalar_size s c _ N Sc)). cbn [is_nil]. change (1 <=? 0)%Z with false. cbv iota. rewrite (bind_ok _ _ (ret tt) _ s tt s eq_refl).
  assert (Ea : array (LS c) s = ROk tt s1).
  { unfold array. rewrite (bind_ok _ _ _ _ _ _ _ (deref_nonref (LS c) _ _ N (scalar_nonref _ Sc))). rewrite (bind_ok _ _ _ _ _ _ _ (scalar_heap s c _ N Sc)). exact E. }
  rewrite (bind_ok _ _ _ _ _ _ _ Ea). apply (ptr_reference s1 (LS c) (length (mem s)) (INV_sound _ _ _ I1) N1 0). lia.
Qed.
Lemma fill_number : forall e s j c l o u z n, INV e [] s -> nth_error (stk s) j = Some (MPtr l) -> nth_error (stk s) c = Some (MNum u) -> number u = true ->
  obj l s = Some o -> h_view o = None -> varlike (h_ty o) = false -> n < length (h_cells o) -> stored (h_ty o) (MNum u) z ->
  exists s', fill (LS j) (LS c) (Z.of_nat n) 2 0 s = ROk tt s' /\ INV e [] s' /\ stk s' = set_nth (stk s) c (MPtr (length (mem s))) /\ obj l s' = Some (set_val o n z) /\
    old_arrays (length (mem s)) l s s'.
Proof.
  intros e s j c l o u z n I Nj Nc Nu O V Vl Ln St. set (L := length (mem s)).
  assert (Ll : l < L) by (eapply obj_lt; eauto). assert (Djc : j <> c) by congruence. assert (Lc : c < length (stk s)) by (eapply ne_lt; eauto).
  destruct (index_scalar e s c u I Nc Nu) as (oc & s1 & E1 & I1 & Sh1 & T & Vc & Sz & Rm & At). fold L in E1, Sh1.
  pose proof (upd_obj e [] c L oc s s1 Lc eq_refl Sh1 I1) as [N1 O1].
  assert (Nj1 : nth_error (stk s1) j = Some (MPtr l)) by (eapply upd_slot; eauto).
  assert (Ol1 : obj l s1 = Some o).
  { eapply (shrunk_obj e [] _ s1 j (MPtr l) l o Sh1 I1); auto; [simpl; rewrite sn_other; auto|]. unfold obj, upd; simpl. rewrite nth_error_app1; auto. }
  set (s2 := bump (MPtr L) s1). assert (I2 : INV e [MRef L 0] s2).
  { apply (INV_target e (MPtr L)); auto. apply INV_bump; auto. apply (getv_held (LS c) s1); auto. eapply INV_sound; eauto. }
  destruct (nth_error (h_cells o) n) as [[key old]|] eqn:Cn; [|apply nth_error_None in Cn; lia].
  assert (D2 : denotes s2 (MRef L 0) (MNum u)).
  { unfold val_at in At. destruct (nth_error (h_cells oc) 0) as [[k0 v0]|] eqn:C0; [|discriminate]. simpl in At. injection At as ->.
    exists oc, k0. assert (Ob : obj L s2 = Some oc) by (unfold s2; rewrite obj_bump; auto). apply obj_live in Ob. split; auto. split; auto. split; [lia|]. split; auto. split; intros; discriminate. }
  destruct (set_at_gives e [] s2 j l n o key old (MRef L 0) z I2) as (s3 & E3 & I3 & Sh3); auto.
  - intros X. congruence.
  - destruct (denotes_der _ _ _ D2) as [Dd _]. unfold conv, stored in *. destruct (h_ty o) as [[]|]; simpl in Vl; try discriminate; destruct St as (v & u' & Ev & C & ->); injection Ev as <-; eauto 6.
  - assert (O2 : obj l s2 = Some o) by (unfold s2; rewrite obj_bump; auto). rewrite (set_val_putv _ _ _ _ _ _ _ _ O2 Cn) in Sh3.
    assert (St3 : stk s3 = stk s1) by (destruct Sh3 as (-> & _); reflexivity).
    assert (B3 : became l (set_val o n z) s2 s3).
    { apply (became_held e [] l _ s2 s3 j (MPtr l)); auto. eapply obj_lt; eauto. }
    assert (O3 : obj L s3 = Some oc).
    { apply (became_held_other e [] l (set_val o n z) s2 s3 c (MPtr L) L oc); auto; [eapply obj_lt; eauto|lia]. }
    assert (N3 : nth_error (stk s3) c = Some (MPtr L)) by (rewrite St3; auto).
    exists s3. split; [|split; [auto|split; [|split; [apply B3|]]]].
    + cbn [fill]. rewrite (bind_ok _ _ _ _ _ _ _ (scalar_size s c _ Nc ltac:(right; eauto))). cbn [is_nil]. change (1 <=? 0)%Z with false. cbv iota.
      rewrite (bind_ok _ _ _ _ _ _ _ E1). rewrite Z.add_0_r. fold s2. rewrite (bind_ok _ _ _ _ _ _ _ E3).
      rewrite (bind_ok _ _ _ _ _ _ _ (ptr_size s3 (LS c) L N3 oc O3 Vc)). rewrite Sz. reflexivity.
    + rewrite St3. destruct Sh1 as (-> & _). reflexivity.
    + destruct Sh1 as (_ & Lm1 & Ob1). destruct Sh3 as (_ & Lm3 & Ob3). split.
      * rewrite Lm3. simpl. rewrite sn_length. change (mem s2) with (mem s1). rewrite Lm1. simpl. rewrite app_length. lia.
      * intros k ob K D Ok. apply Ob3 in Ok. rewrite obj_set_mem in Ok by (eapply obj_lt; eauto). destruct (Nat.eqb_spec l k); [congruence|]. apply (Ob1 k ob) in Ok.
        unfold obj, upd in *; simpl in Ok. rewrite nth_error_app1 in Ok; auto.
Qed.

(** * Appending *)
(** Slot [j] holds a number, or an array of numbers [l]; both count as the elements [xs] of type
    [t]. *)
Definition row (s : state) (j l : nat) (t : hty) (xs : list mvar) : Prop :=
  (exists v, nth_error (stk s) j = Some (MNum v) /\ number v = true /\ l = length (mem s) /\ t = HE (ety_of v) /\ xs = [MNum v]) \/
  (nth_error (stk s) j = Some (MPtr l) /\ exists o, obj l s = Some o /\ elems o t xs /\ varlike t = false).
Lemma row_slot : forall s j l t xs, row s j l t xs -> j < length (stk s).
Proof. intros s j l t xs [(v & N & _)|[N _]]; eapply ne_lt; eauto. Qed.
Lemma row_dense : forall s j l t xs, row s j l t xs -> varlike t = false.
Proof. intros s j l t xs [(v & _ & Nv & _ & -> & _)|(_ & o & _ & _ & V)]; auto. destruct v; try discriminate; reflexivity. Qed.
Lemma row_reads : forall s j l t xs, row s j l t xs -> size_of (LS j) s = ROk (Z.of_nat (length xs)) s /\ is_array_of (LS j) 8 s = ROk false s /\ is_array_of (LS j) 9 s = ROk false s.
Proof.
  intros s j l t xs [(v & N & Nv & _ & _ & ->)|(N & o & O & [T V Sz _ _ _] & Vl)].
  - assert (Sc : scalar (MNum v)) by (right; eauto). split; [apply (scalar_size s j _ N Sc)|].
    split; unfold is_array_of; rewrite (bind_ok _ _ _ _ _ _ _ (scalar_heap s j _ N Sc)); reflexivity.
  - split; [rewrite (ptr_size s (LS j) l N o O V), Sz; reflexivity|].
    split; rewrite (ptr_is_array s (LS j) l N o _ O V), T; destruct t as [[]|]; simpl in Vl; try discriminate; reflexivity.
Qed.
Lemma row_grows : forall e s j l t xs, INV e [] s -> row s j l t xs -> (Z.of_nat (S (length xs)) < 2 ^ 30)%Z ->
  exists s' o, resize (LS j) (Z.of_nat (S (length xs))) s = ROk tt s' /\ INV e [] s' /\ stk s' = set_nth (stk s) j (MPtr l) /\ obj l s' = Some o /\ old_arrays (length (mem s)) l s s' /\
    h_ty o = t /\ h_view o = None /\ h_size o = S (length xs) /\ S (length xs) + (if is_char t then 1 else 0) <= length (h_cells o) /\
    (forall k, k < length xs -> val_at o k = nth_error xs k) /\ (is_char t = true -> val_at o (S (length xs)) = Some NUL).
Proof.
  intros e s j l t xs I [(v & N & Nv & -> & -> & ->)|(N & o & O & [T V Sz Rm At Nul] & Vl)] Sm.
  - destruct (resize_many e s j v 2 I N Nv) as (o & s' & E & I' & Sh & T & Sz & V & Lc & _ & Hn); [lia|lia|].
    destruct (set_val_alike o 0 (MNum v)) as (A1 & A2 & A3 & A4 & A5). assert (Lj : j < length (stk s)) by (eapply ne_lt; eauto).
    destruct (upd_obj e [] j _ _ s s' Lj eq_refl Sh I') as [_ O']. cbn [length].
    exists s', (set_val o 0 (MNum v)). split; auto. split; auto. split; [destruct Sh as (-> & _); reflexivity|]. split; auto. split.
    { destruct Sh as (_ & Lm & Ob). split; [rewrite Lm; simpl; rewrite app_length; lia|]. intros k ob K _ Ok. apply Ob in Ok. unfold obj, upd in *; simpl in Ok. rewrite nth_error_app1 in Ok; auto. }
    split; [congruence|]. split; [congruence|]. split; [congruence|]. split; [rewrite A5; exact Lc|]. split.
    + intros [|k] K; [|lia]. rewrite set_val_at by lia. reflexivity.
    + intros Ic. rewrite set_val_at by lia. simpl. auto.
  - destruct (resize_became e [] s j l (S (length xs)) o I N O Sm) as (o' & s' & E & _ & I' & B & G). pose proof G as (T' & V' & S' & C' & _).
    exists s', o'. split; auto. split; auto. split; [rewrite (became_stk _ _ _ _ B), sn_id; auto|]. split; [apply B|]. split.
    { destruct B as [(_ & Lm & Ob) _]. split; [rewrite Lm; simpl; rewrite sn_length; lia|]. intros k ob K D Ok. apply Ob in Ok. rewrite obj_set_mem in Ok by (eapply obj_lt; eauto). destruct (Nat.eqb_spec l k); [congruence|auto]. }
    split; [congruence|]. split; [congruence|]. split; [auto|]. split; [rewrite <- T; exact C'|]. split.
    + intros k K. rewrite (grown_val _ _ _ k G) by lia. auto.
    + intros Ic. rewrite <- T in Ic. apply (grown_nul _ _ _ G Ic).
Qed.
Lemma append_gives : forall e s j c l t xs u z, INV e [] s -> row s j l t xs -> nth_error (stk s) c = Some (MNum u) -> c <> j -> number u = true -> stored t (MNum u) z -> (Z.of_nat (S (length xs)) < 2 ^ 30)%Z ->
  exists s' m o, append (LS j) (LS c) s = ROk tt s' /\ INV e [] s' /\ stk s' = set_nth (set_nth (stk s) j (MPtr l)) c (MPtr m) /\ obj l s' = Some o /\ elems o t (xs ++ [z]) /\ old_arrays (length (mem s)) l s s'.
Proof.
  intros e s j c l t xs u z I R Nc Dc Nu St Sm. set (n := length xs) in *. pose proof (row_slot _ _ _ _ _ R) as Lj. pose proof (row_dense _ _ _ _ _ R) as Vl.
  destruct (row_reads s j l t xs R) as (R1 & R2 & R3). fold n in R1.
  destruct (row_grows e s j l t xs I R Sm) as (s1 & o & E1 & I1 & St1 & O1 & Old1 & T & V & Sz & Rm & At & Nul). fold n in E1, Sz, Rm, At, Nul.
  assert (N1 : nth_error (stk s1) j = Some (MPtr l)) by (rewrite St1; apply sn_same; auto).
  assert (Nc1 : nth_error (stk s1) c = Some (MNum u)) by (rewrite St1, sn_other; auto).
  assert (Sc : scalar (MNum u)) by (right; eauto).
  destruct (fill_number e s1 j c l o u z n I1 N1 Nc1 Nu O1 V) as (s2 & E2 & I2 & St2 & O2 & Old2); [rewrite T; auto|lia|rewrite T; auto|].
  destruct (set_val_alike o n z) as (A1 & A2 & A3 & A4 & A5).
  exists s2, (length (mem s1)), (set_val o n z). split; [|split; [auto|split; [rewrite St2, St1; auto|split; [auto|split]]]].
  - unfold append. rewrite (bind_ok _ _ _ _ _ _ _ R1). unfold insert. rewrite (bind_ok _ _ _ _ _ _ _ R1). rewrite Z.ltb_irrefl.
    rewrite (bind_ok _ _ _ _ _ _ _ R2), (bind_ok _ _ _ _ _ _ _ R3), (bind_ok _ _ _ _ _ _ _ R1). rewrite (bind_ok _ _ _ _ _ _ _ (scalar_size s c _ Nc Sc)). cbn [is_nil].
    replace (Z.of_nat n + 1)%Z with (Z.of_nat (S n)) by lia.
    assert (Ii : in_int (Z.of_nat (S n)) = true) by (unfold in_int, INT_MIN, INT_MAX; apply andb_true_iff; split; apply Z.leb_le; lia).
    rewrite Ii. change (negb true) with false. cbv iota. rewrite (bind_ok _ _ _ _ _ _ _ E1). rewrite (bind_ok _ _ _ _ _ _ _ (ptr_size s1 (LS j) l N1 o O1 V)). rewrite Sz.
    rewrite (bind_ok _ _ (spread _ _ _ _ _) _ s1 tt s1).
    + rewrite (bind_ok _ _ _ _ _ _ _ (scalar_size s1 c _ Nc1 Sc)). cbn [is_nil]. exact E2.
    + cbn [spread]. rewrite (bind_ok _ _ _ _ _ _ _ (scalar_size s1 c _ Nc1 Sc)). cbn [is_nil]. destruct (Z.leb_spec (Z.of_nat (S n) - 1) (Z.of_nat n + 1 - 1)); [reflexivity|lia].
  - split; rewrite ?app_length; simpl; fold n; try congruence; try lia.
    + intros k K. rewrite set_val_at by lia. destruct (Nat.eqb_spec k n) as [->|D].
      * unfold n. rewrite nth_error_app2, Nat.sub_diag by auto. reflexivity.
      * rewrite nth_error_app1 by (fold n; lia). apply At. lia.
    + intros Ic. rewrite Ic in Rm. rewrite set_val_at by lia. destruct (Nat.eqb_spec (n + 1) n); [lia|]. rewrite Nat.add_1_r. auto.
  - eapply old_trans; eauto. eapply old_less; [|exact Old2]. apply Old1.
Qed.

(** * A chain of commas *)
Lemma row_push : forall s w j l t xs, row s j l t xs -> row (push_s w s) j l t xs.
Proof.
  intros s w j l t xs R. pose proof (row_slot _ _ _ _ _ R) as Lj. destruct R as [(v & N & R)|(N & R)]; [left; exists v|right]; (split; [simpl; rewrite nth_error_app1; auto|exact R]).
Qed.
(** The number added: a constant, or a variable other than [a]. *)
Definition number_expr (s : state) (a : nat) (f : expr) (u : val) : Prop :=
  number u = true /\ (f = ENum u \/ exists k, k <> a /\ f = EVar k /\ nth_error (stk s) k = Some (MNum u)).
Lemma comma_step : forall e s1 nv r l t xs f u z, INV e [] s1 -> row s1 r l t xs -> nv <= length (stk s1) ->
  number u = true -> (f = ENum u \/ exists k, k < nv /\ k <> r /\ f = EVar k /\ nth_error (stk s1) k = Some (MNum u)) -> stored t (MNum u) z -> (Z.of_nat (S (length xs)) < 2 ^ 30)%Z ->
  exists s2 ws r' o, (let! p := eval nv f in let! y := copy_of p in scoped y (fun q => append (LS r) q) ;; let! x := copy_of (LS r) in temp x) s1 = ROk (LS r') s2 /\ INV e [] s2 /\
    stk s2 = set_nth (stk s1) r (MPtr l) ++ ws /\ nth_error (stk s2) r' = Some (MPtr l) /\ length (stk s1) <= r' /\ obj l s2 = Some o /\ elems o t (xs ++ [z]) /\ old_arrays (length (mem s1)) l s1 s2.
Proof.
  intros e s1 nv r l t xs f u z I1 R Lnv Nu Hf St Sm. pose proof (row_slot _ _ _ _ _ R) as Lr.
  assert (X : exists q ws s1', eval nv f s1 = ROk (LS q) s1' /\ INV e [] s1' /\ mem s1' = mem s1 /\ stk s1' = stk s1 ++ ws /\ row s1' r l t xs /\ nth_error (stk s1') q = Some (MNum u)).
  { destruct Hf as [->|(k & Lk & Dk & -> & Nk)].
    - exists (length (stk s1)), [MNum u], (push_s (MNum u) s1). simpl. rewrite Nu. split; [reflexivity|]. split; [apply INV_push, INV_add0; auto|]. split; auto. split; auto. split; [apply row_push; auto|].
      rewrite nth_error_app2, Nat.sub_diag by auto. reflexivity.
    - exists k, [], s1. simpl. destruct (Nat.ltb_spec k nv); [|lia]. rewrite app_nil_r. auto 10. }
  destruct X as (q & ws & s1' & Ef & I1' & M1' & St1' & R' & Nq). pose proof (row_slot _ _ _ _ _ R') as Lr'.
  set (c := length (stk s1')).
  destruct (append_gives e (push_s (MNum u) s1') r c l t xs u z) as (s3 & m & o & E3 & I3 & St3 & O3 & El3 & Old3); auto.
  - apply INV_push, INV_add0; auto.
  - apply row_push; auto.
  - simpl. unfold c. rewrite nth_error_app2, Nat.sub_diag by auto. reflexivity.
  - unfold c. lia.
  - set (b := {| mem := mem s3; rc := rc s3; stk := set_nth (stk s1') r (MPtr l) |}).
    assert (St3' : stk s3 = set_nth (stk s1') r (MPtr l) ++ [MPtr m]).
    { rewrite St3. simpl. rewrite sn_app1 by auto. unfold c. rewrite <- (sn_length _ (stk s1') r (MPtr l)). rewrite sn_app2. reflexivity. }
    destruct (scoped_gives _ (MNum u) (fun q => append (LS r) q) e [] s1' tt s3 (MPtr m) b) as (s4 & E4 & I4 & Sh4); auto.
    + unfold shrunk, b; simpl. auto.
    + simpl. apply sn_length.
    + assert (N4 : nth_error (stk s4) r = Some (MPtr l)) by (destruct Sh4 as (-> & _); simpl; apply sn_same; auto).
      assert (O4 : obj l s4 = Some o) by (eapply (shrunk_obj e [] b s4 r (MPtr l) l o Sh4 I4); auto; simpl; apply sn_same; auto).
      exists (push_s (MPtr l) (bump (MPtr l) s4)), (ws ++ [MPtr l]), (length (stk s4)), o.
      split; [|split; [|split; [|split; [|split; [|split; [|split]]]]]].
      * rewrite (bind_ok _ _ _ _ _ _ _ Ef). rewrite (bind_ok _ _ _ _ _ _ _ (copy_of_eq (LS q) s1' _ (INV_sound _ _ _ I1') Nq)). rewrite (bind_ok _ _ _ _ _ _ _ E4).
        rewrite (bind_ok _ _ _ _ _ _ _ (copy_of_eq (LS r) s4 _ (INV_sound _ _ _ I4) N4)). reflexivity.
      * apply INV_push, INV_bump; auto. apply (getv_held (LS r) s4); auto. eapply INV_sound; eauto.
      * simpl. destruct Sh4 as (-> & _). simpl. rewrite St1', sn_app1, <- app_assoc by auto. reflexivity.
      * simpl. rewrite nth_error_app2, Nat.sub_diag by auto. reflexivity.
      * destruct Sh4 as (-> & _). simpl. rewrite sn_length, St1', app_length. lia.
      * exact O4.
      * exact El3.
      * simpl in Old3. rewrite M1' in Old3. destruct Old3 as [La Oa]. destruct Sh4 as (_ & Lb & Ob). split; [simpl in *; rewrite M1' in La; lia|].
        intros k ob K D Ok. apply (Ob k ob) in Ok. apply (Oa k ob) in Ok; auto. unfold obj in *. simpl in Ok. rewrite M1' in Ok. exact Ok.
Qed.
(** The state after some of the chain: [a] and temporary [r] are array [l]. *)
Record chained (s : state) (a l : nat) (t : hty) (xs : list mvar) (s1 : state) (r : nat) : Prop := {
  ch_stk : exists ws, stk s1 = set_nth (stk s) a (MPtr l) ++ ws;
  ch_slot : nth_error (stk s1) r = Some (MPtr l);
  ch_temp : length (stk s) <= r;
  ch_obj : exists o, obj l s1 = Some o /\ elems o t xs;
  ch_old : old_arrays (length (mem s)) l s s1 }.
Lemma comma_chain : forall e s a l t, a < length (stk s) -> l = length (mem s) -> varlike t = false -> forall gs zs,
  Forall2 (fun g z => exists u, number_expr s a g u /\ stored t (MNum u) z) gs zs ->
  forall e0 s1 r xs, eval (length (stk s)) e0 s = ROk (LS r) s1 -> INV e [] s1 -> chained s a l t xs s1 r -> (Z.of_nat (length xs + length zs) < 2 ^ 30)%Z ->
  exists s2 r', eval (length (stk s)) (fold_left EComma gs e0) s = ROk (LS r') s2 /\ INV e [] s2 /\ chained s a l t (xs ++ zs) s2 r'.
Proof.
  intros e s a l t La El Vl gs zs H. induction H as [|g z gs zs (u & (Nu & Hg) & St) H IH]; intros e0 s1 r xs E I1 Ch Sm.
  - exists s1, r. rewrite app_nil_r. auto.
  - destruct Ch as [[ws Ws] Nr Tr (o & O & Eo) Old].
    assert (R : row s1 r l t xs) by (right; split; auto; exists o; auto).
    destruct (comma_step e s1 (length (stk s)) r l t xs g u z I1 R) as (s2 & ws2 & r' & o' & E2 & I2 & St2 & N2 & L2 & O2 & El2 & Old2); auto.
    + rewrite Ws, app_length, sn_length. lia.
    + destruct Hg as [->|(k & Dk & -> & Nk)]; [auto|right]. assert (Lk : k < length (stk s)) by (eapply ne_lt; eauto). exists k. split; auto. split; [lia|]. split; auto.
      rewrite Ws, nth_error_app1 by (rewrite sn_length; auto). rewrite sn_other; auto.
    + simpl in Sm. lia.
    + destruct (IH (EComma e0 g) s2 r' (xs ++ [z])) as (s3 & r3 & E3 & I3 & Ch3); auto.
      * cbn [eval]. rewrite (bind_ok _ _ _ _ _ _ _ E). exact E2.
      * split; eauto.
        -- exists (ws ++ ws2). rewrite St2, sn_id by auto. rewrite Ws, app_assoc. reflexivity.
        -- rewrite Ws, app_length, sn_length in L2. lia.
        -- eapply old_trans; eauto. eapply old_less; [|exact Old2]. apply Old.
      * rewrite app_length. simpl in *. lia.
      * exists s3, r3. split; auto. split; auto. rewrite <- app_assoc in Ch3. exact Ch3.
Qed.
Lemma comma_gives : forall e s a old f x v g gs z zs, INV e [] s -> variable s a old -> nonref old -> not_view s old -> operand s f x -> denotes s x (MNum v) -> number v = true ->
  Forall2 (fun g z => exists u, number_expr s a g u /\ stored (HE (ety_of v)) (MNum u) z) (g :: gs) (z :: zs) -> (Z.of_nat (2 + length zs) < 2 ^ 30)%Z ->
  exists s' o, exec (SEval (fold_left EComma (g :: gs) (ESet (EVar a) f))) s = ROk tt s' /\ INV e [] s' /\
    stk s' = set_nth (stk s) a (MPtr (length (mem s))) /\ obj (length (mem s)) s' = Some o /\ elems o (HE (ety_of v)) (MNum v :: z :: zs) /\ old_arrays (length (mem s)) (length (mem s)) s s'.
Proof.
  intros e s a old f x v g gs z zs I Va No Nvw Op D Nv H Sm. set (l := length (mem s)). assert (La : a < length (stk s)) by (eapply ne_lt; eauto).
  destruct (operand_gives e s s f x I (temps_refl s) Op) as (q & s1 & E1 & I1 & T1 & _ & Nq). pose proof T1 as [M1 [ws W1]].
  destruct (assign_copy_var e s1 a q x (MNum v) old I1 (temps_slot _ _ _ _ T1 Va) Nq No) as (s2 & E2 & I2 & Sh2).
  { intros k o K O. rewrite (temps_obj _ _ _ T1) in O. eauto. }
  { eapply temps_denotes; eauto. }
  assert (Ev : eval (length (stk s)) (ESet (EVar a) f) s = ROk (LS a) s2).
  { cbn [eval]. destruct (Nat.ltb_spec a (length (stk s))); [|lia]. rewrite (bind_ok _ _ _ _ _ _ _ E1). rewrite (bind_ok _ _ (ret (LS a)) _ s1 (LS a) s1 eq_refl).
    unfold assign_copy in E2. unfold bind in *. destruct (copy_of (LS q) s1) as [y s1'| | |]; try discriminate. rewrite E2. reflexivity. }
  destruct Sh2 as (St2 & Lm2 & Ob2). simpl in St2, Lm2. rewrite app_nil_r, M1 in Lm2. rewrite W1, sn_app1 in St2 by auto.
  inversion H as [|? ? ? ? (u & (Nu & Hg) & Sg) H']; subst.
  assert (R : row s2 a l (HE (ety_of v)) [MNum v]).
  { left. exists v. split; [rewrite St2, nth_error_app1 by (rewrite sn_length; auto); apply sn_same; auto|]. unfold l. auto. }
  destruct (comma_step e s2 (length (stk s)) a l (HE (ety_of v)) [MNum v] g u z I2 R) as (s3 & ws3 & r' & o' & E3 & I3 & St3 & N3 & L3 & O3 & El3 & Old3); auto.
  - rewrite St2, app_length, sn_length. lia.
  - destruct Hg as [->|(k & Dk & -> & Nk)]; [auto|right]. assert (Lk : k < length (stk s)) by (eapply ne_lt; eauto). exists k. split; auto. split; auto. split; auto.
    rewrite St2, nth_error_app1 by (rewrite sn_length; auto). rewrite sn_other; auto.
  - cbn [length]. lia.
  - destruct (comma_chain e s a l (HE (ety_of v)) La eq_refl) with (gs := gs) (zs := zs) (e0 := EComma (ESet (EVar a) f) g) (s1 := s3) (r := r') (xs := [MNum v] ++ [z]) as (s4 & r4 & E4 & I4 & [[ws4 Ws4] _ _ (o & O4 & El4) Old4]); auto.
    + apply (row_dense _ _ _ _ _ R).
    + change (eval (length (stk s)) (EComma (ESet (EVar a) f) g)) with (let! v := eval (length (stk s)) (ESet (EVar a) f) in let! p := eval (length (stk s)) g in let! y := copy_of p in scoped y (fun q => append v q) ;; let! x := copy_of v in temp x).
      rewrite (bind_ok _ _ _ _ _ _ _ Ev). exact E3.
    + split; auto.
      * exists (ws ++ ws3). rewrite St3, St2, sn_app1, sn_twice, app_assoc by (rewrite sn_length; auto). reflexivity.
      * rewrite St2, app_length, sn_length in L3. lia.
      * eauto.
      * destruct Old3 as [A B]. rewrite Lm2 in A, B. split; auto. intros k ob K Dk Ok. apply B in Ok; auto. apply Ob2 in Ok. unfold obj, upd in *; simpl in Ok. rewrite app_nil_r, M1 in Ok. exact Ok.
    + destruct (leave_gives e [] s4 ws4 {| mem := mem s4; rc := rc s4; stk := set_nth (stk s) a (MPtr l) |} I4) as (s5 & E5 & I5 & Sh5).
      * unfold shrunk, ext; simpl. auto.
      * exists s5, o. split; [|split; [auto|split; [apply Sh5|split; [|split; [exact El4|]]]]].
        -- unfold exec, finish, body. rewrite (bind_ok _ _ _ _ _ _ _ E4). simpl in E5. rewrite sn_length in E5. exact E5.
        -- eapply (shrunk_obj e [] _ s5 a (MPtr l) l o Sh5 I5); auto; simpl; auto. apply sn_same; auto.
        -- destruct Old4 as [A B]. destruct Sh5 as (_ & Lb & Ob). split; [simpl in Lb; lia|]. intros k ob K Dk Ok. apply (Ob k ob) in Ok. apply B; auto.
Qed.
