(** Arithmetic on variables, elements and map values in memory. *)
From Coq Require Import ZArith Bool List String Lia.
From Verif Require Import Base StrModel ValModel NumModel AllocModel ArithModel ArithSpec ArithProof MemModel MemProof MemFun MemEq MemDeref MemTriple MemOps MemArr MemMore MemKey MemElem MemMeth MemList MemRun ArrSpec MemArrays MemCopy MemThrow MemScalar ValSpec MemMapSpec MemMap MemLook MemMaps.
Import ListNotations.
Local Open Scope list_scope.
Local Open Scope mem_scope.
Local Notation length := List.length.

Lemma number_is : forall v, is_number v <-> number v = true.
Proof. intros []; simpl; split; auto; try discriminate; contradiction. Qed.
(** The value of a receiver or an operand that is a number. *)
Lemma der_value : forall x s u, der_spec x s (MNum u) -> exists a, eff x s = ROk a s /\ MemModel.value a s = ROk u s /\ a <> MNil /\ forall l, a <> MPtr l.
Proof.
  intros x s u D. destruct x as [|z|l|l i| |]; try discriminate D.
  - inversion D; subst. exists (MNum z). repeat split; try discriminate.
  - destruct D as (o & O & D). destruct (plain_vars o) eqn:P.
    + destruct D as (k & N & _). exists (MNum u). unfold eff. rewrite (bind_ok _ _ _ _ _ _ _ (get_obj_eq _ _ _ O)). rewrite P, N. repeat split; try discriminate.
    + assert (E : eff (MRef l i) s = ROk (MRef l i) s) by (unfold eff; rewrite (bind_ok _ _ _ _ _ _ _ (get_obj_eq _ _ _ O)); rewrite P; reflexivity).
      exists (MRef l i). split; auto. split; [|split; discriminate]. unfold MemModel.value. simpl. rewrite (bind_ok _ _ _ _ _ _ _ E). rewrite (bind_ok _ _ _ _ _ _ _ D). reflexivity.
Qed.
(** Off arrays, arithmetic in place reads the value and assigns the result. *)
Lemma arith_to_single : forall op v p s x a, getv v s = Some x -> eff x s = ROk a s -> (forall l, a <> MPtr l) ->
  arith_to op v p s = (let! r := arith_value op v p in assign_value v (MNum r)) s.
Proof.
  intros op v p s x a G E N. unfold arith_to. rewrite (bind_ok _ _ _ _ s None s); [reflexivity|]. unfold heap_of.
  rewrite (bind_ok _ _ _ _ _ _ _ (get_eq _ _ _ G)). rewrite (bind_ok _ _ _ _ _ _ _ E). destruct a; try reflexivity. exfalso; eapply N; eauto.
Qed.
Lemma arith_value_eq : forall op v p s x u y w r, getv v s = Some x -> der_spec x s (MNum u) -> getv p s = Some y -> der_spec y s (MNum w) -> is_number u -> op_by op w u r ->
  arith_value op v p s = ROk r s.
Proof.
  intros op v p s x u y w r Gv Dv Gp Dp N B. unfold arith_value. rewrite (bind_ok _ _ _ _ _ _ _ (get_eq _ _ _ Gv)).
  destruct (der_value x s u Dv) as (a & E & V & Nn & Np). rewrite (bind_ok _ _ _ _ _ _ _ E).
  assert (F : (let! x0 := MemModel.value a in let! y0 := cast_var (ety_of x0) p in lift (num_op op x0 y0)) s = ROk r s).
  { rewrite (bind_ok _ _ _ _ _ _ _ V). destruct B as (w' & T & R). destruct (taken_cast u w w' N T) as [C Ty].
    rewrite (bind_ok _ _ _ _ s w' s); [|rewrite (cast_var_eq _ _ _ _ _ Gp Dp), C; reflexivity].
    rewrite (num_op_ok op u w' w' r N); auto. apply taken_same; auto. }
  destruct a; auto; [congruence|exfalso; eapply Np; eauto].
Qed.
Lemma result_ety : forall op u w r, is_number u -> op_by op w u r -> ety_of r = ety_of u /\ is_number r.
Proof. intros op u w r N (w' & _ & R). inversion R; subst; split; simpl; auto. Qed.
Lemma cast_same : forall r, is_number r -> cast (ety_of r) r = Ok r.
Proof. intros [] N; try contradiction; reflexivity. Qed.

(** ** An element *)
Lemma assign_num_became : forall e s r l i o c, INV e [] s -> nth_error (stk s) r = Some (MRef l i) -> obj l s = Some o -> h_view o = None -> okcells s o ->
  i < length (h_cells o) -> stored (h_ty o) (MNum c) (MNum c) ->
  exists s', assign_value (LS r) (MNum c) s = ROk tt s' /\ INV e [] s' /\ became l (set_val o i (MNum c)) s s'.
Proof.
  intros e s r l i o c I Nr O V Ok L St. set (s1 := push_s (MNum c) s). assert (T : temps s s1) by (apply (temps_push s s (MNum c)), temps_refl).
  destruct (assign_became e s1 r (length (stk s)) l i o (MNum c) (MNum c) (MNum c)) as (s2 & E2 & I2 & B2); auto.
  - apply INV_push. apply INV_add0; auto.
  - eapply temps_slot; eauto.
  - simpl. rewrite nth_error_app2, Nat.sub_diag by auto. reflexivity.
  - reflexivity.
  - discriminate.
  - destruct B2 as [Sh2 _]. destruct (scoped_gives _ (MNum c) (fun q => assign (LS r) q) e [] s tt s2 (MNum c) (set_mem l (set_val o i (MNum c)) s)) as (s3 & A & I3 & Sh3); auto.
    exists s3. split; [exact A|]. split; auto. eapply became_held; eauto. eapply obj_lt; eauto.
Qed.
Lemma arith_became : forall op e s r q l i o u y w c, INV e [] s -> nth_error (stk s) r = Some (MRef l i) -> nth_error (stk s) q = Some y -> obj l s = Some o -> h_view o = None -> okcells s o ->
  i < length (h_cells o) -> val_at o i = Some (MNum u) -> (varlike (h_ty o) = false -> h_ty o = HE (ety_of u)) -> is_number u -> der_spec y s (MNum w) -> op_by op w u c ->
  exists s', arith_to op (LS r) (LS q) s = ROk tt s' /\ INV e [] s' /\ became l (set_val o i (MNum c)) s s'.
Proof.
  intros op e s r q l i o u y w c I Nr Nq O V Ok L Va Ty N D B. destruct (result_ety _ _ _ _ N B) as [Tc Nc].
  destruct (assign_num_became e s r l i o c) as (s' & E & I' & Be); auto.
  { destruct (varlike (h_ty o)) eqn:Vl; [destruct (h_ty o) as [[]|]; try discriminate; reflexivity|].
    rewrite Ty by auto. rewrite <- Tc. assert (ety_of c <> TVar) by (destruct c; try contradiction; discriminate).
    unfold stored. destruct (ety_of c) eqn:Et; try congruence; exists c, c; rewrite <- Et; auto using cast_same. }
  exists s'. split; auto. assert (Dc : der_spec (MRef l i) s (MNum u)) by (apply (der_cell s l o i); auto; [intros ? ? X; discriminate X|discriminate]).
  destruct (der_value _ _ _ Dc) as (a & Ea & _ & _ & Na). rewrite (arith_to_single op (LS r) (LS q) s _ a Nr Ea Na). rewrite (bind_ok _ _ _ _ s c s); auto.
  eapply arith_value_eq with (x := MRef l i) (u := u) (y := y); eauto.
Qed.
(** [e op= f] for a reference to an element. *)
Lemma exec_op : forall op ee s e f l i o u y w c, INV ee [] s -> operand s e (MRef l i) -> operand s f y -> obj l s = Some o -> h_view o = None -> okcells s o ->
  i < length (h_cells o) -> val_at o i = Some (MNum u) -> (varlike (h_ty o) = false -> h_ty o = HE (ety_of u)) -> is_number u -> denotes s y (MNum w) -> op_by op w u c ->
  exists s', exec (SOp op e f) s = ROk tt s' /\ INV ee [] s' /\ became l (set_val o i (MNum c)) s s'.
Proof.
  intros op ee s e f l i o u y w c I Oe Of O V Ok L Va Ty N D B.
  destruct (operand_gives ee s s f y I (temps_refl s) Of) as (q & s1 & E1 & I1 & T1 & _ & Nq).
  destruct (operand_gives ee s s1 e _ I1 T1 Oe) as (r & s2 & E2 & I2 & T2 & T12 & Nr).
  assert (Nq2 : nth_error (stk s2) q = Some y) by (eapply temps_slot; eauto).
  pose proof (INV_sound _ _ _ I2) as Sd2.
  set (s3 := push_s y (bump y s2)). assert (T3 : temps s s3) by (apply temps_push; auto).
  assert (T23 : temps s2 s3) by (apply temps_push, temps_refl).
  destruct (arith_became op ee s3 r (length (stk s2)) l i o u y w c) as (s4 & E4 & I4 & B4); auto.
  - apply INV_push, INV_bump; auto. apply (getv_held (LS q) s2); auto.
  - eapply temps_slot; eauto.
  - simpl. rewrite bump_stk, nth_error_app2, Nat.sub_diag by auto. reflexivity.
  - rewrite (temps_obj _ _ _ T3); auto.
  - apply (temps_okcells s s3); auto.
  - apply (denotes_der s3). apply (temps_denotes s s3); auto.
  - destruct (with_copy_became ee ee s2 q y l (set_val o i (MNum c)) r (MRef l i) (arith_to op (LS r)) s4) as (s5 & E5 & I5 & B5); auto.
    + destruct T2 as [-> _]. eapply obj_lt; eauto.
    + destruct (operand_holder _ _ _ _ Oe) as (j & v & Nj & Tv).
      destruct (temps_became ee s s2 s5 l _ T2 (obj_lt _ _ _ O) B5 I5 j v Nj Tv) as (s6 & E6 & I6 & B6). exists s6. split; auto.
      change (exec (SOp op e f) s) with (finish (length (stk s)) (body (length (stk s)) (SOp op e f)) s). unfold finish.
      change (body (length (stk s)) (SOp op e f)) with (let! p := eval (length (stk s)) f in let! v := eval (length (stk s)) e in with_copy p (arith_to op v)).
      rewrite (bind_ok _ _ _ _ _ _ _ E1). rewrite (bind_ok _ _ _ _ _ _ _ E2). rewrite E5. exact E6.
Qed.
(** [x op= f] for a variable that is a number. *)
Lemma exec_op_var : forall op ee s j f u y w c, INV ee [] s -> variable s j (MNum u) -> is_number u -> operand s f y -> denotes s y (MNum w) -> op_by op w u c ->
  exists s', exec (SOp op (EVar j) f) s = ROk tt s' /\ INV ee [] s' /\ shrunk (varset j (MNum c) s) s'.
Proof.
  intros op ee s j f u y w c I Vj N Of D B.
  destruct (operand_gives ee s s f y I (temps_refl s) Of) as (q & s1 & E1 & I1 & T1 & _ & Nq). pose proof (INV_sound _ _ _ I1) as Sd1.
  assert (Nj1 : nth_error (stk s1) j = Some (MNum u)) by (eapply temps_slot; eauto). assert (Lj1 : j < length (stk s1)) by (eapply ne_lt; eauto).
  assert (Lj : j < length (stk s)) by (eapply ne_lt; eauto).
  set (s2 := push_s y (bump y s1)). assert (T12 : temps s1 s2) by (apply temps_push, temps_refl). assert (T2 : temps s s2) by (apply temps_push; auto).
  assert (Nj2 : nth_error (stk s2) j = Some (MNum u)) by (eapply temps_slot; eauto). assert (Lj2 : j < length (stk s2)) by (eapply ne_lt; eauto).
  assert (I2 : INV ee [] s2) by (apply INV_push, INV_bump; auto; apply (getv_held (LS q) s1); auto).
  set (s3 := push_s (MNum c) s2).
  destruct (assign_plain_gives ee [] s3 (LS j) (length (stk s2)) (MNum c) (MNum c) (MNum u)) as (s4 & E4 & I4 & Sh4).
  - apply INV_push. apply INV_add0; auto.
  - exact Logic.I.
  - cbn [getv s3 push_s stk]. rewrite nth_error_app1; auto.
  - intros ? ? X; discriminate X.
  - intros ? ? X; discriminate X.
  - cbn [s3 push_s stk]. rewrite nth_error_app2, Nat.sub_diag by auto. reflexivity.
  - intros X. injection X as X. rewrite <- X in Lj2. revert Lj2. apply Nat.lt_irrefl.
  - reflexivity.
  - intros ? ? X; discriminate X.
  - intros ? ? ? X; discriminate X.
  - intros ? ? ? [X|X]; discriminate.
  - assert (G3 : getv (LS j) s3 = Some (MNum u)) by (cbn [getv s3 push_s stk]; rewrite nth_error_app1; auto).
    assert (E4' : assign (LS j) (LS (length (stk s2))) s3 = ROk tt s4).
    { rewrite (assign_nonref_eq _ _ _ _ G3); [exact E4|intros ? ? X; discriminate X]. }
    destruct (scoped_gives _ (MNum c) (fun q => assign (LS j) q) ee [] s2 tt s4 (MNum c) (varset j (MNum c) s2) E4' I4) as (s5 & E5 & I5 & Sh5).
    { eapply shrunk_trans; [|exact Sh4]. unfold shrunk, obj, s3, varset; simpl. rewrite sn_app1; auto. }
    { simpl. rewrite sn_length. reflexivity. }
    assert (Ar : arith_to op (LS j) (LS (length (stk (bump y s1)))) (push_s y (bump y s1)) = ROk tt s5).
    { fold s2. rewrite (arith_to_single op (LS j) _ s2 (MNum u) (MNum u) Nj2 eq_refl ltac:(discriminate)). rewrite (bind_ok _ _ _ _ s2 c s2); [exact E5|]. eapply arith_value_eq with (x := MNum u) (y := y); eauto.
      - reflexivity.
      - simpl. rewrite nth_error_app2, Nat.sub_diag by auto. reflexivity.
      - apply (denotes_der s2). apply (temps_denotes s s2); auto. }
    destruct (scoped_gives _ y (arith_to op (LS j)) ee [] (bump y s1) tt s5 y (varset j (MNum c) s1) Ar I5) as (s6 & E6 & I6 & Sh6).
    { eapply shrunk_trans; [|exact Sh5]. unfold shrunk, obj, s2, varset; simpl. rewrite bump_mem, bump_stk, sn_app1; auto. }
    { simpl. rewrite bump_stk, sn_length. reflexivity. }
    destruct T1 as [M1 [ws St]].
    destruct (leave_gives ee [] s6 ws (varset j (MNum c) s) I6) as (s7 & E7 & I7 & Sh7).
    { eapply shrunk_trans; [|exact Sh6]. unfold shrunk, ext, varset, obj; simpl. rewrite St, M1, sn_app1; auto. }
    exists s7. split; [|auto]. simpl in E7. rewrite sn_length in E7.
    change (exec (SOp op (EVar j) f) s) with (finish (length (stk s)) (let! p := eval (length (stk s)) f in let! v := eval (length (stk s)) (EVar j) in with_copy p (arith_to op v)) s). unfold finish.
    rewrite (bind_ok _ _ _ _ _ _ _ E1). rewrite (bind_ok _ _ _ _ _ _ _ (eval_var s j _ _ Vj eq_refl s1)). unfold with_copy.
    rewrite (bind_ok _ _ _ _ _ _ _ (copy_of_eq (LS q) s1 y Sd1 Nq)). rewrite E6. exact E7.
Qed.

(** ** The value of a key *)
Lemma arith_undefined : forall op v p s x, getv v s = Some x -> eff x s = ROk MNil s -> arith_to op v p s = RThrow "var::atype(): Undefined" s.
Proof. intros op v p s x G E. rewrite (arith_to_single op v p s x MNil G E ltac:(discriminate)). unfold arith_value, bind. rewrite (get_eq _ _ _ G). cbv beta iota. rewrite E. reflexivity. Qed.
Lemma map_val_at : forall s l o kvs i k v, mapping s l o kvs -> nth_error kvs i = Some (k, v) -> val_at o i = Some v /\ i < length (h_cells o).
Proof.
  intros s l o kvs i k v (O & V & T & Oks & Sz & Lc & Ce) N. destruct (Ce _ _ N) as (c & Nc & _). simpl in Nc. split; [unfold val_at; rewrite Nc; reflexivity|eapply ne_lt; eauto].
Qed.
Lemma map_okcells : forall s l o kvs, mapping s l o kvs -> okcells s o.
Proof. intros s l o kvs (O & V & T & Oks & _) _ n w Hw. apply val_at_cell in Hw as [c Hc]. destruct (Oks _ _ Hc) as (_ & _ & P3 & P4). auto. Qed.
Lemma key_op : forall op e s j l ek k f x o kvs w, INV e [] s -> variable s j (MPtr l) -> mapping s l o kvs -> ordered kvs -> small (S (length kvs)) ->
  key_expr s l ek k -> operand s f x -> denotes s x (MNum w) -> (forall i, x <> MRef l i) ->
  exists i kvs2, looked_up k kvs i kvs2 /\
    ((exists k' u, nth_error kvs2 i = Some (k', MNum u) /\ forall c, is_number u -> op_by op w u c ->
       exists s' o' kvs', exec (SOp op (EKey (EVar j) ek) f) s = ROk tt s' /\ INV e [] s' /\ moved l o' s s' /\ stk s' = stk s /\ bound_to k (MNum c) kvs kvs' /\ ordered kvs' /\ mapping s' l o' kvs') \/
     (exists k', nth_error kvs2 i = Some (k', MNil) /\
       exists s' o', exec (SOp op (EKey (EVar j) ek) f) s = RThrow "var::atype(): Undefined" s' /\ INV e [] s' /\ moved l o' s s' /\ stk s' = stk s /\ ordered kvs2 /\ mapping s' l o' kvs2) \/
     exists k' v, nth_error kvs2 i = Some (k', v) /\ v <> MNil /\ forall u, v <> MNum u).
Proof.
  intros op e s j l ek k f x o kvs w I Vj Mp So Sm Ke Of D X. pose proof Mp as (O & Vo & To & _). pose proof (obj_lt _ _ _ O) as Ll.
  destruct (operand_gives e s s f x I (temps_refl s) Of) as (q & s1 & E1 & I1 & T1 & _ & Nq). pose proof (grew_temps _ _ T1) as G1.
  assert (M1 : mapping s1 l o kvs) by (eapply mapping_grew; eauto).
  destruct (eval_key e s s1 j l ek k o kvs I1 G1 Vj M1 Ll So Sm Ke) as (s2 & r & o2 & i & kvs2 & E2 & I2 & Nr & Mv & M2 & Lu & So2 & Lr).
  pose proof T1 as [Em1 [ws Es1]]. assert (Mb : moved l o2 s s2).
  { destruct Mv as (O2 & ms2 & ws2 & A & B & C). split; auto. exists ms2, (ws ++ ws2). unfold shrunk, extm, obj in *; simpl in *. rewrite Em1 in *. rewrite app_assoc, <- Es1. auto. }
  pose proof (INV_sound _ _ _ I2) as Sd2. assert (Nq2 : nth_error (stk s2) q = Some x) by (eapply moved_slot; [exact Mv|auto]). assert (Hx : held x s2) by (apply (getv_held (LS q)); auto).
  assert (D2 : denotes s2 x (MNum w)).
  { apply (denotes_keep s); auto. intros m n a0 -> Oa La. exists a0. split; [|auto].
    assert (Lv : live m s2) by (apply Hx; reflexivity). apply live_obj in Lv as [a1 Oa1]. assert (Hm : m <> l) by (intros ->; eapply X; eauto). rewrite Oa1.
    assert (Q : obj m s = Some a1) by (eapply moved_other; eauto; eapply obj_lt; eauto). congruence. }
  pose proof M2 as (O2 & V2 & T2 & _). set (s3 := push_s x (bump x s2)). assert (T3 : temps s2 s3) by apply temps_push, temps_refl.
  assert (I3 : INV e [] s3) by (apply INV_push, INV_bump; auto).
  assert (Nr3 : nth_error (stk s3) r = Some (MRef l i)) by (eapply temps_slot; eauto).
  assert (Hold : forall s', INV e [] s' -> stk s' = stk s -> live l s') by (intros s' I' St'; eapply inv_stk; [apply I'|rewrite St'; eapply nth_error_In; exact Vj|reflexivity]).
  assert (Run : exec (SOp op (EKey (EVar j) ek) f) s = finish (length (stk s)) (fun _ => with_copy (LS q) (arith_to op (LS r)) s2) s).
  { change (exec (SOp op (EKey (EVar j) ek) f) s) with (finish (length (stk s)) (let! p := eval (length (stk s)) f in let! v := eval (length (stk s)) (EKey (EVar j) ek) in with_copy p (arith_to op v)) s).
    unfold finish. rewrite (bind_ok _ _ _ _ _ _ _ E1). rewrite (bind_ok _ _ _ _ _ _ _ E2). reflexivity. }
  exists i, kvs2. split; auto.
  destruct (bound_looked k MNil kvs i kvs2 Lu) as (a & k' & v & b & Ek & Ei & _).
  assert (Nk : nth_error kvs2 i = Some (k', v)) by (rewrite Ek, Ei, nth_error_app2, Nat.sub_diag by auto; reflexivity).
  destruct (map_val_at _ _ _ _ _ _ _ M2 Nk) as [Va Lc].
  destruct v as [|u|m|m n| |]; [right; left|left|right; right..].
  - exists k'. split; auto. assert (Er : eff (MRef l i) s3 = ROk MNil s3).
    { unfold eff. rewrite (bind_ok _ _ _ _ s3 o2 s3 (get_obj_eq l s3 o2 ltac:(rewrite (temps_obj _ _ _ T3); exact O2))). unfold plain_vars. rewrite V2, T2. simpl. unfold val_at in Va. destruct (nth_error (h_cells o2) i) as [[c1 c2]|]; simpl in Va; [inversion Va; reflexivity|discriminate]. }
    destruct (scoped_gives_throw _ x (arith_to op (LS r)) e [] (bump x s2) "var::atype(): Undefined" s3 x (bump x s2)) as (s4 & E4 & I4 & Sh4); auto.
    { rewrite bump_stk. eapply arith_undefined; [exact Nr3|exact Er]. }
    { apply shrunk_refl. }
    assert (W4 : within s2 s4). { destruct Sh4 as (_ & B & C). split; [rewrite B, bump_mem; auto|]. intros m c Hc. apply C in Hc. rewrite obj_bump in Hc. auto. }
    assert (St4 : stk s4 = stk s2) by (destruct Sh4 as (A & _); rewrite A, bump_stk; auto).
    assert (Lv4 : live l s4). { eapply inv_stk; [apply I4|rewrite St4; eapply nth_error_In; exact Nr|reflexivity]. }
    assert (O4 : obj l s4 = Some o2). { apply live_obj in Lv4 as [c Hc]. rewrite Hc. apply W4 in Hc. congruence. }
    assert (Mv4 : moved l o2 s s4). { destruct Mb as (_ & ms & ws2 & A & B & C). split; auto. exists ms, ws2. destruct W4 as [W1 W2]. unfold shrunk. rewrite St4, W1. split; auto. }
    destruct (leave_live e s s4 l o2 Mv4 I4) as (s5 & E5 & I5 & Mv5 & St5 & W5); [intros; apply Hold; auto|].
    exists s5, o2. split; [|split; [auto|split; [auto|split; [auto|split; [auto|]]]]].
    + rewrite Run. unfold finish, with_copy. rewrite (bind_ok _ _ _ _ _ _ _ (copy_of_eq (LS q) s2 x Sd2 Nq2)). rewrite E4. unfold bind. rewrite E5. reflexivity.
    + apply (mapping_within e [] s4 s5); auto; [|apply Mv5]. apply (mapping_within e [] s2 s4); auto.
  - exists k', u. split; auto. intros c Nu B.
    destruct (arith_became op e s3 r (length (stk s2)) l i o2 u x w c) as (s4 & E4 & I4 & B4); auto.
    + simpl. rewrite bump_stk, nth_error_app2, Nat.sub_diag by auto. reflexivity.
    + rewrite (temps_obj _ _ _ T3). auto.
    + apply (temps_okcells s2 s3); auto. eapply map_okcells; eauto.
    + rewrite T2. discriminate.
    + apply (denotes_der s3). eapply temps_denotes; eauto.
    + destruct (with_copy_became e e s2 q x l (set_val o2 i (MNum c)) r (MRef l i) (arith_to op (LS r)) s4) as (s5 & E5 & I5 & B5); auto; [eapply obj_lt; eauto|].
      destruct (store_core e True (fun _ _ => True) l s s2 s5 s (MNum c) k kvs i kvs2 o2) as (s6 & kvs' & E6 & I6 & Mv6 & St6 & En6 & Bt & So6 & _ & M6 & _); auto; try discriminate.
      * exists s6, (set_val o2 i (MNum c)), kvs'. split; [|auto 10]. rewrite Run. unfold finish. rewrite E5. exact E6.
  - exists k', (MPtr m). repeat split; auto; discriminate.
  - exists k', (MRef m n). repeat split; auto; discriminate.
  - exists k', MBad. repeat split; auto; discriminate.
  - exists k', MJunk. repeat split; auto; discriminate.
Qed.
