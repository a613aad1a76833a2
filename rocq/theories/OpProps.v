(** Properties of arithmetic, keys and searches in programs: C110 to C113. *)
From Coq Require Import ZArith Bool List String Lia Sorting.
From Verif Require Import Base StrModel ValModel NumModel ArithModel ArithSpec MemModel MemProof MemFun MemEq MemDeref MemTriple MemArr MemKey MemElem MemList MemArrays MemCopy MemThrow MemText MemScalar ValSpec ValProof ArrSpec ArrFacts MemMapSpec MemMap MemLook MemMaps MemMapProps MemOp MemFind ArrProps SeqProps.
Import ListNotations.
Local Open Scope list_scope.
Local Open Scope mem_scope.
Local Notation length := List.length.

(** * C110: arithmetic with variables *)
Definition kept (s s' : state) : Prop := length (mem s') = length (mem s) /\ forall k o, nth_error (mem s') k = Some (Some o) -> nth_error (mem s) k = Some (Some o).
Theorem C110_in_place : forall op s j f u x w r, reachable s -> variable s j (MNum u) -> is_number u -> operand s f x -> denotes s x (MNum w) -> op_by op w u r ->
  exists s', exec (SOp op (EVar j) f) s = ROk tt s' /\ stk s' = replaced (stk s) j (MNum r) /\ kept s s'.
Proof.
  intros op s j f u x w r R V N Of D B. destruct (reachable_INV s R) as [e I].
  destruct (exec_op_var op e s j f u x w r I V N Of D B) as (s' & E & _ & A & L & C). exists s'. split; auto. split; [rewrite A; symmetry; apply replaced_sn; eapply ne_lt; eauto|].
  split; auto. intros k o O. apply obj_live in O. apply C in O. apply obj_live in O. exact O.
Qed.
(** [e op f] *)
Lemma eval_op : forall op ee s e f x u y w c, INV ee [] s -> operand s e x -> denotes s x (MNum u) -> is_number u -> operand s f y -> denotes s y (MNum w) -> op_by op w u c ->
  exists s2 ws, eval (length (stk s)) (EOp op e f) s = ROk (LS (length (stk s ++ ws))) s2 /\ INV ee [] s2 /\ mem s2 = mem s /\ stk s2 = stk s ++ ws ++ [MNum c].
Proof.
  intros op ee s e f x u y w c I Oe De N Of Df B.
  destruct (operand_gives ee s s e x I (temps_refl s) Oe) as (r & s1 & E1 & I1 & T1 & _ & Nr).
  destruct (operand_gives ee s s1 f y I1 T1 Of) as (q & s2 & E2 & I2 & T2 & T12 & Nq). pose proof (INV_sound _ _ _ I2) as Sd2. pose proof Sd2 as (Cn2 & _).
  assert (Nr2 : nth_error (stk s2) r = Some x) by (eapply temps_slot; eauto). assert (Hy : held y s2) by (apply (getv_held (LS q)); auto).
  set (s3 := push_s y (bump y s2)). assert (T23 : temps s2 s3) by (apply temps_push, temps_refl). assert (T3 : temps s s3) by (apply temps_push; auto).
  assert (E3 : scoped y (fun q => arith_var op (LS r) q) (bump y s2) = ROk (MNum c) s2).
  { eapply scoped_ok with (v' := y) (s1 := bump y s2); [|reflexivity|apply release_bump; auto]. unfold arith_var. fold s3. rewrite (bind_ok _ _ _ _ s3 c s3); [reflexivity|].
    eapply arith_value_eq with (x := x) (u := u) (y := y) (w := w); auto.
    - exact (temps_slot _ _ _ _ T23 Nr2).
    - apply (denotes_der s3). eapply temps_denotes; eauto.
    - simpl. rewrite bump_stk, nth_error_app2, Nat.sub_diag by auto. reflexivity.
    - apply (denotes_der s3). eapply temps_denotes; eauto. }
  destruct T2 as [M2 [ws S2]]. exists (push_s (MNum c) s2), ws. split; [|split; [apply INV_push, INV_add0; auto|split; [auto|simpl; rewrite S2, app_assoc; reflexivity]]].
  change (eval (length (stk s)) (EOp op e f)) with (let! v := eval (length (stk s)) e in let! p := eval (length (stk s)) f in let! y := copy_of p in let! x := scoped y (fun q => arith_var op v q) in temp x).
  rewrite (bind_ok _ _ _ _ _ _ _ E1). rewrite (bind_ok _ _ _ _ _ _ _ E2). rewrite (bind_ok _ _ _ _ _ _ _ (copy_of_eq (LS q) s2 y Sd2 Nq)). rewrite (bind_ok _ _ _ _ _ _ _ E3).
  rewrite <- S2. reflexivity.
Qed.
Theorem C110_declared : forall op s e f x u y w r, reachable s -> operand s e x -> denotes s x (MNum u) -> is_number u -> operand s f y -> denotes s y (MNum w) -> op_by op w u r ->
  exists s', exec (SDecl (EOp op e f)) s = ROk tt s' /\ stk s' = stk s ++ [MNum r] /\ kept s s'.
Proof.
  intros op s e f x u y w r R Oe De N Of Df B. destruct (reachable_INV s R) as [ee I].
  destruct (eval_op op ee s e f x u y w r I Oe De N Of Df B) as (s2 & ws & E & I2 & M2 & S2).
  destruct (decl_any ee s (EOp op e f) s2 (length (stk s ++ ws)) (MNum r) (ws ++ [MNum r]) I2 E eq_refl) as (s' & E' & _ & A & L & C).
  - rewrite S2, app_assoc, nth_error_app2, Nat.sub_diag by auto. reflexivity.
  - rewrite app_length. lia.
  - exact S2.
  - exists s'. split; auto. split; auto. simpl in L. split; [congruence|]. intros k o O. apply obj_live in O. apply C in O. apply obj_live in O. simpl in O. rewrite M2 in O. exact O.
Qed.
(** Also to a variable that is an operand. *)
Theorem C110_assigned : forall op s k old e f x u y w r, reachable s -> variable s k old -> assignable s old ->
  operand s e x -> denotes s x (MNum u) -> is_number u -> operand s f y -> denotes s y (MNum w) -> op_by op w u r ->
  exists s', exec (SAssign (EVar k) (EOp op e f)) s = ROk tt s' /\ stk s' = replaced (stk s) k (MNum r) /\ kept s s'.
Proof.
  intros op s k old e f x u y w r R Vk As Oe De N Of Df B. destruct (reachable_INV s R) as [ee I].
  destruct (eval_op op ee s e f x u y w r I Oe De N Of Df B) as (s2 & ws & E & I2 & M2 & S2). apply assignable_ok in As as [As1 As2].
  destruct (assign_var_gives ee s (EOp op e f) s2 (length (stk s ++ ws)) (ws ++ [MNum r]) (MNum r) (MNum r) k old E I2 S2) as (s' & E' & _ & A & L & C); auto.
  - rewrite S2, app_assoc, nth_error_app2, Nat.sub_diag by auto. reflexivity.
  - reflexivity.
  - intros ? ?; discriminate.
  - intros l o Q O. apply (As2 l o); auto. unfold obj in *. rewrite M2 in O. auto.
  - exists s'. split; auto. simpl in A, L. split; [rewrite A; symmetry; apply replaced_sn; eapply ne_lt; eauto|]. split; [congruence|].
    intros m o O. apply obj_live in O. apply C in O. apply obj_live in O. simpl in O. rewrite M2 in O. exact O.
Qed.
(** An undefined variable cannot be changed by arithmetic. *)
Theorem C110_undefined_throws : forall op s j f x, reachable s -> variable s j MNil -> operand s f x ->
  exec (SOp op (EVar j) f) s = RThrow "var::atype(): Undefined" s.
Proof.
  intros op s j f x R V Of. destruct (reachable_INV s R) as [e I].
  destruct (operand_exact e s f x I Of) as (q & s1 & E1 & Nq & Hx & C).
  assert (I1 : INV e [] s1) by (destruct C as [->| ->]; auto; apply INV_push, INV_bump; auto).
  assert (T1 : temps s s1) by (destruct C as [->| ->]; [apply temps_refl|apply temps_push, temps_refl]).
  change (exec (SOp op (EVar j) f) s) with (finish (length (stk s)) (let! p := eval (length (stk s)) f in let! v := eval (length (stk s)) (EVar j) in with_copy p (arith_to op v)) s). unfold finish.
  rewrite (bind_ok _ _ _ _ _ _ _ E1). rewrite (bind_ok _ _ _ _ _ _ _ (eval_var s j _ _ V eq_refl s1)).
  rewrite (with_copy_throws e s1 q x (arith_to op (LS j)) "var::atype(): Undefined"); auto.
  - unfold bind. rewrite (leave_exact e s x s1); auto.
  - apply arith_undefined with (x := MNil); [|reflexivity]. apply (temps_slot s1); [apply temps_push, temps_refl|]. eapply temps_slot; eauto.
Qed.

(** * C111: arithmetic on elements and on the values of keys *)
Theorem C111_element : forall op s e l i t xs f u x w r, reachable s -> operand s e (MRef l i) -> array_at s l t xs -> writable s l t ->
  nth_error xs i = Some (MNum u) -> is_number u -> (holds_vars t \/ number_of t (MNum u)) -> operand s f x -> denotes s x (MNum w) -> op_by op w u r ->
  exists s', exec (SOp op e f) s = ROk tt s' /\ array_at s' l t (replaced xs i (MNum r)) /\ only_array l s s' /\ (terminated s l -> terminated s' l).
Proof.
  intros op s e l i t xs f u x w r R Oe A W Nu N Ty Of D B. destruct (reachable_INV s R) as [ee I].
  destruct (array_obj _ _ _ _ A) as (o & O & Vo & To & Sz & Lc & H). pose proof (ne_lt _ _ _ _ Nu) as Li.
  destruct (exec_op op ee s e f l i o u x w r I Oe Of O Vo) as (s' & E & I' & Be); auto.
  - apply (writable_ok s l); auto. rewrite To; auto.
  - lia.
  - rewrite H by auto. exact Nu.
  - intros Vl. destruct Ty as [Ty|(v & Ev & Ty & _)]; [|rewrite To, Ty; inversion Ev; auto]. exfalso. rewrite <- To in Ty. destruct Ty as [Ty|Ty]; rewrite Ty in Vl; discriminate.
  - exists s'. split; auto. destruct (set_val_alike o i (MNum r)) as (A1 & A2 & A3 & A4 & A5). split; [|split; [eapply only_became; eauto; eapply obj_lt; eauto|]].
    2:{ intros (o1 & k & O1 & N1). apply obj_live in O1. assert (o1 = o) by congruence. subst o1. apply (nul_terminated s' l (set_val o i (MNum r))); [apply Be|].
        rewrite A2, set_val_at by lia. destruct (Nat.eqb_spec (h_size o) i); [lia|]. unfold val_at. rewrite N1. reflexivity. }
    rewrite replaced_sn by auto. rewrite <- To, <- A1. apply list_array; auto; [apply Be|congruence|rewrite sn_length; congruence|].
    intros k K. rewrite sn_length in K. rewrite set_val_at by lia. rewrite H by auto. destruct (Nat.eqb_spec k i) as [->|Dk]; [rewrite sn_same; auto|rewrite sn_other; auto].
Qed.
Lemma there_bound : forall k z kvs kvs' v, ordered kvs -> keys_ok kvs -> key k -> value_of kvs k v -> bound_to k z kvs kvs' -> length kvs' = length kvs.
Proof.
  intros k z kvs kvs' v So Ko K (k2 & Hin & Eq) B. destruct B as [a k' w b -> Q|a b E F1 F2]; [rewrite !app_length; reflexivity|]. exfalso.
  pose proof Ko as Ko'. unfold keys_ok in Ko'. rewrite Forall_forall in Ko', F1, F2. pose proof (Ko' _ Hin) as K2. simpl in K2. apply eq_code in Eq; auto. rewrite E in Hin.
  apply in_app_or in Hin as [Hin|Hin]; [apply F1 in Hin|apply F2 in Hin]; simpl in Hin; apply key_less in Hin; auto; rewrite Eq, lex_refl in Hin; discriminate.
Qed.
(** [m\[k\] op= f]: the value of the key is changed, no key is added. *)
Theorem C111_key : forall op s j l kvs ek k f u x w r, reachable s -> holds_map s j l kvs -> small (S (length kvs)) -> key_expr s l ek k ->
  value_of kvs k (MNum u) -> is_number u -> operand s f x -> denotes s x (MNum w) -> (forall i, x <> MRef l i) -> op_by op w u r ->
  exists s' kvs', exec (SOp op (EKey (EVar j) ek) f) s = ROk tt s' /\ stk s' = stk s /\ bound_to k (MNum r) kvs kvs' /\ length kvs' = length kvs /\ holds_map s' j l kvs' /\ unchanged_but l s s'.
Proof.
  intros op s j l kvs ek k f u x w r R H Sm Ke Hv N Of D X B. destruct (holds_mapping s j l kvs R H) as (e & o & I & M). destruct H as (V & En & So & Rf).
  assert (Ll : l < length (mem s)) by (destruct M as (O & _); eapply obj_lt; eauto). pose proof (entries_keys _ _ _ En) as Ko. pose proof (key_expr_key _ _ _ _ Ke) as K.
  destruct (key_op op e s j l ek k f x o kvs w I V M So Sm Ke Of D X) as (i & kvs2 & Lu & Cs).
  destruct (looked_values k kvs i kvs2 (MNum u) So Ko K Lu Hv) as (-> & k1 & N1).
  destruct Cs as [(k' & u' & N2 & Ex)|[(k' & N2 & _)|(k' & v & N2 & _ & Nv)]]; rewrite N1 in N2; inversion N2; subst; [|exfalso; eapply Nv; eauto].
  destruct (Ex r N B) as (s' & o' & kvs' & E & I' & Mv & St & Bt & So' & M'). exists s', kvs'. split; auto. split; auto. split; auto. split; [eapply there_bound; eauto|].
  destruct (mapping_entries _ _ _ _ M') as [En' Rf']. split; [split; [unfold variable; rewrite St; auto|auto]|]. eapply moved_unchanged; eauto using self_app.
Qed.
(** A key that is not there throws, but is added with an undefined value. *)
Theorem C111_missing_key_is_added : forall op s j l kvs ek k f x w, reachable s -> holds_map s j l kvs -> small (S (length kvs)) -> key_expr s l ek k ->
  (forall v, ~ value_of kvs k v) -> operand s f x -> denotes s x (MNum w) -> (forall i, x <> MRef l i) ->
  exists s' a b, exec (SOp op (EKey (EVar j) ek) f) s = RThrow "var::atype(): Undefined" s' /\ stk s' = stk s /\ kvs = a ++ b /\ holds_map s' j l (a ++ (k, MNil) :: b) /\ unchanged_but l s s'.
Proof.
  intros op s j l kvs ek k f x w R H Sm Ke Hv Of D X. destruct (holds_mapping s j l kvs R H) as (e & o & I & M). destruct H as (V & En & So & Rf).
  assert (Ll : l < length (mem s)) by (destruct M as (O & _); eapply obj_lt; eauto).
  destruct (key_op op e s j l ek k f x o kvs w I V M So Sm Ke Of D X) as (i & kvs2 & Lu & Cs).
  destruct Lu as [a k' v b Ek Q|a b Ek F1 F2]; [exfalso; apply (Hv v); exists k'; split; auto; rewrite Ek; apply in_or_app; right; left; auto|].
  assert (N : nth_error (a ++ (k, MNil) :: b) (length a) = Some (k, MNil)) by (rewrite nth_error_app2, Nat.sub_diag by auto; reflexivity).
  destruct Cs as [(k' & u' & N2 & _)|[(k' & N2 & s' & o' & E & I' & Mv & St & So' & M')|(k' & v & N2 & Nn & _)]]; rewrite N in N2; inversion N2; subst; [|congruence].
  exists s', a, b. split; auto. split; auto. split; auto. destruct (mapping_entries _ _ _ _ M') as [En' Rf']. split; [split; [unfold variable; rewrite St; auto|auto]|]. eapply moved_unchanged; eauto using self_app.
Qed.

(** * C112: finding a key *)
(** [m.at(k)] refers to the value of the key, or is undefined; the map is not changed. *)
Theorem C112_find : forall s j l kvs ek k, reachable s -> holds_map s j l kvs -> key_expr s l ek k ->
  exists s' v, exec (SDecl (EFind (EVar j) ek)) s = ROk tt s' /\ stk s' = stk s ++ [v] /\ holds_map s' j l kvs /\
    (forall m o, m < length (mem s) -> nth_error (mem s') m = Some (Some o) -> nth_error (mem s) m = Some (Some o)) /\
    ((exists i k' w, nth_error kvs i = Some (k', w) /\ equal k' k /\ v = MRef l i /\ denotes s' v w) \/ (forall w, ~ value_of kvs k w) /\ v = MNil).
Proof.
  intros s j l kvs ek k R H Ke. pose proof (holds_value s j l kvs) as Hj. destruct (holds_mapping s j l kvs R H) as (e & o & I & M). pose proof H as (V & En & So & Rf). pose proof M as (O & _). pose proof (obj_lt _ _ _ O) as Ll.
  destruct (find_decl e s j l ek k o kvs I V M So Ke) as (v & s' & E & I' & St & Lm & Ob & Cs).
  assert (Vj : variable s' j (MPtr l)) by (unfold variable; rewrite St, nth_error_app1; [auto|eapply ne_lt; eauto]).
  assert (O' : obj l s' = Some o).
  { assert (Lv : live l s') by (eapply inv_stk; [apply I'|eapply nth_error_In; exact Vj|reflexivity]). apply live_obj in Lv as [a Oa]. rewrite Oa. apply Ob in Oa; auto. congruence. }
  assert (M' : mapping s' l o kvs).
  { destruct M as (_ & V1 & T1 & Oks & Sz & Lc & Ce).
    assert (Vw : forall n c (g : mvar * mvar -> mvar), nth_error (h_cells o) n = Some c -> (forall m, target (g c) = Some m -> live m s) -> not_view s (g c) -> not_view s' (g c)).
    { intros n c g Nc Lv Nv m a Ec Oa. assert (Lm0 : live m s) by (apply Lv; rewrite Ec; reflexivity). apply live_obj in Lm0 as [a0 Oa0]. apply (Nv m a Ec). apply Ob; auto. eapply obj_lt; eauto. }
    assert (Cl : forall n c m, nth_error (h_cells o) n = Some c -> (target (fst c) = Some m \/ target (snd c) = Some m) -> live m s).
    { intros n c m Nc Hm. destruct I as (I & _). destruct Hm as [Hm|Hm].
      - apply (inv_cell e [] s l o (fst c) m I); [apply obj_live; exact O| |exact Hm]. unfold contents. apply in_or_app. left. apply in_flat_map. exists c. split; [eapply nth_error_In; eauto|simpl; auto].
      - apply (inv_cell e [] s l o (snd c) m I); [apply obj_live; exact O| |exact Hm]. unfold contents. apply in_or_app. left. apply in_flat_map. exists c. split; [eapply nth_error_In; eauto|simpl; auto]. }
    split; auto. split; auto. split; auto. split; [|split; [auto|split; [auto|]]].
    - intros n c Nc. destruct (Oks _ _ Nc) as (P1 & P2 & P3 & P4). split; auto. split; [apply (Vw n c fst); auto; intros; eapply Cl; eauto|]. split; auto. apply (Vw n c snd); auto; intros; eapply Cl; eauto.
    - intros n kv Nn. destruct (Ce _ _ Nn) as (c & Nc & Rc). exists c. split; auto. eapply (keys_kept e [] s s' l o o n c (snd kv)); eauto. }
  destruct (mapping_entries _ _ _ _ M') as [En' Rf']. exists s', v. split; auto. split; auto. split; [split; auto|]. split.
  { intros m a Lm' Oa. apply obj_live in Oa. apply obj_live. auto. }
  destruct Cs as [(i & k' & w & Ni & Eq & ->)|Cs]; [left|right; auto]. exists i, k', w. split; auto. split; auto. split; auto. pose proof (Hj k' w R H (nth_error_In _ _ Ni)) as Nj.
  destruct M' as (O1 & V' & T' & Oks & Sz & Lc & Ce). destruct (Ce _ _ Ni) as (c & Nc & _). simpl in Nc. exists o, c. apply obj_live in O1. split; auto. split; auto.
  split; [rewrite Sz; eapply ne_lt; eauto|]. split; auto. split; auto. destruct (Oks _ _ Nc) as (_ & _ & P & _). exact P.
Qed.
(** An undefined variable, and an array that is not a map, are refused. *)
Lemma find_throws : forall e s j v ek x msg, INV e [] s -> variable s j v -> operand s ek x ->
  (forall q t, INV e [] t -> temps s t -> nth_error (stk t) q = Some x -> at_key (LS j) (LS q) t = RThrow msg t) -> exec (SDecl (EFind (EVar j) ek)) s = RThrow msg s.
Proof.
  intros e s j v ek x msg I V Op H. destruct (operand_exact e s ek x I Op) as (q & s1 & E1 & Nq & Hx & C).
  assert (I1 : INV e [] s1) by (destruct C as [->| ->]; auto; apply INV_push, INV_bump; auto). pose proof (INV_sound _ _ _ I1) as Sd1.
  assert (T1 : temps s s1) by (destruct C as [->| ->]; [apply temps_refl|apply temps_push, temps_refl]).
  assert (Hx1 : held x s1) by (apply (getv_held (LS q)); auto).
  assert (Ev : eval (length (stk s)) (EFind (EVar j) ek) s = RThrow msg s1).
  { change (eval (length (stk s)) (EFind (EVar j) ek)) with (let! v := eval (length (stk s)) (EVar j) in let! p := eval (length (stk s)) ek in let! y := copy_of p in let! x := scoped y (fun q => at_key v q) in temp x).
    rewrite (bind_ok _ _ _ _ _ _ _ (eval_var s j _ _ V eq_refl s)). rewrite (bind_ok _ _ _ _ _ _ _ E1). rewrite (bind_ok _ _ _ _ _ _ _ (copy_of_eq (LS q) s1 x Sd1 Nq)).
    unfold bind. rewrite (scoped_throw _ x (fun q => at_key (LS j) q) (bump x s1) msg x (bump x s1) s1); auto.
    - apply H; [apply INV_push, INV_bump; auto|apply temps_push; auto|]. simpl. rewrite nth_error_app2, Nat.sub_diag by auto. reflexivity.
    - apply release_bump; auto. apply Sd1. }
  change (exec (SDecl (EFind (EVar j) ek)) s) with (declare (length (stk s)) (EFind (EVar j) ek) s). unfold declare, keep_value. unfold bind at 1. rewrite Ev. unfold bind.
  rewrite (leave_exact e s x s1); auto.
Qed.
Theorem C112_undefined_throws : forall s j ek x, reachable s -> variable s j MNil -> operand s ek x -> exec (SDecl (EFind (EVar j) ek)) s = RThrow "var::at(): uninitialised" s.
Proof.
  intros s j ek x R V Op. destruct (reachable_INV s R) as [e I]. apply (find_throws e s j MNil ek x _ I V Op). intros q t It Tt Nq.
  unfold at_key, defined. rewrite (bind_ok _ _ _ _ t false t); [reflexivity|]. rewrite (bind_ok _ _ _ _ _ _ _ (get_eq (LS j) t MNil (temps_slot _ _ _ _ Tt V))). reflexivity.
Qed.
Theorem C112_array_throws : forall s j l t xs ek x, reachable s -> variable s j (MPtr l) -> array_at s l t xs -> t <> HPair -> operand s ek x ->
  exec (SDecl (EFind (EVar j) ek)) s = RThrow "operator [var]: Not a map" s.
Proof.
  intros s j l t xs ek x R V A Nt Op. destruct (variable_array _ _ _ _ _ R V A) as (e & o & I & O & Vo & Ty & _). apply (find_throws e s j (MPtr l) ek x _ I V Op). intros q u Iu Tu Nq.
  assert (Nj : nth_error (stk u) j = Some (MPtr l)) by (eapply temps_slot; eauto). assert (Ot : obj l u = Some o) by (rewrite (temps_obj s u l Tu); auto).
  unfold at_key. rewrite (bind_ok _ _ _ _ _ _ _ (ptr_defined u (LS j) l Nj)). change (negb true) with false. cbv iota.
  rewrite (bind_ok _ _ _ _ _ _ _ (ptr_heap u (LS j) l Nj)). cbv iota. unfold bind at 1. rewrite (bind_ok _ _ _ _ _ _ _ (ptr_atype u (LS j) l Nj o Ot Vo)).
  replace (hcode (h_ty o) =? 9)%Z with false by (rewrite Ty; destruct t as [[]|]; auto; congruence). reflexivity.
Qed.
(** For a map inside an array the result is wrong: [a.at(0)] is the map, but [a.at(0).at(k)] refers
    to an element of [a]. *)
Definition nested : list stmt :=
  [SDecl ENil; SAssign (EKey (EVar 0) (EStr [97]%Z)) (ENum (VInt 1)); SAssign (EKey (EVar 0) (EStr [98]%Z)) (ENum (VInt 2)); SDecl ENil; SPush (EVar 1) (EVar 0); SPush (EVar 1) (ENum (VInt 7))].
Definition s_nested : state := Eval vm_compute in after nested.
Theorem C112_element_refuted : exists s j l a xs kvs k v s' y, reachable s /\ variable s j (MPtr a) /\ array_at s a (HE TVar) xs /\ nth_error xs 0 = Some (MPtr l) /\
  entries s l kvs /\ ordered kvs /\ value_of kvs k v /\ key_expr s l (EStr [98]%Z) k /\
  exec (SDecl (EFind (EAt (EVar j) 0) (EStr [98]%Z))) s = ROk tt s' /\ stk s' = stk s ++ [MRef a 1] /\ denotes s' (MRef a 1) y /\ y <> v.
Proof.
  exists s_nested, 1, 1, 3, [MPtr 1; MNum (VInt 7)], [(text [97]%Z, MNum (VInt 1)); (text [98]%Z, MNum (VInt 2))], (text [98]%Z), (MNum (VInt 2)). eexists. exists (MNum (VInt 7)).
  split; [exists nested; vm_compute; reflexivity|]. split; [reflexivity|]. split; [found|]. split; [reflexivity|].
  split. { exists [(MPtr 0, MNum (VInt 1)); (MPtr 2, MNum (VInt 2))]. split; [found|]. repeat (apply Forall2_cons; [split; [apply reads_text; [text_key|found]|reflexivity]|]). apply Forall2_nil. }
  split; [in_order|]. split; [eexists; split; [right; left; reflexivity|vm_compute; reflexivity]|]. split; [apply (ke_string s_nested 1 [98]%Z); [text_key|reflexivity]|].
  split; [vm_compute; reflexivity|]. split; [reflexivity|]. split; [|discriminate]. eexists. exists MNil. vm_compute. repeat split; auto; discriminate.
Qed.

(** * C113: the keys of a map *)
Theorem C113_key_at : forall s j l kvs i k v, reachable s -> holds_map s j l kvs -> nth_error kvs i = Some (k, v) ->
  exists s' c, exec (SDecl (EKeyOf (EVar j) (Z.of_nat i))) s = ROk tt s' /\ stk s' = stk s ++ [c] /\ reads_key s' c k /\ kept s s' /\ mem s' = mem s.
Proof.
  intros s j l kvs i k v R H N. destruct (holds_mapping s j l kvs R H) as (e & o & I & M). destruct H as (V & En & So & Rf). destruct M as (O & Vo & T & Oks & Sz & Lc & Ce).
  pose proof (INV_sound _ _ _ I) as Sd. destruct (Ce _ _ N) as (c & Nc & Rc). simpl in Nc, Rc.
  assert (Gk : getv (LK l (h_gen o) i) s = Some c) by (simpl; rewrite O, Nat.eqb_refl, Nc; reflexivity).
  assert (E : eval (length (stk s)) (EKeyOf (EVar j) (Z.of_nat i)) s = ROk (LS (length (stk (bump c s)))) (push_s c (bump c s))).
  { change (eval (length (stk s)) (EKeyOf (EVar j) (Z.of_nat i))) with (let! v := eval (length (stk s)) (EVar j) in let! x := key_of v (Z.of_nat i) in temp x).
    rewrite (bind_ok _ _ _ _ _ _ _ (eval_var s j _ _ V eq_refl s)). unfold key_of. rewrite (bind_ok _ _ _ _ s c (bump c s)); [reflexivity|].
    rewrite (bind_ok _ _ _ _ _ _ _ (ptr_atype s (LS j) l V o O Vo)). rewrite T. change (hcode HPair =? 9)%Z with true. cbv iota.
    rewrite (bind_ok _ _ _ _ _ _ _ (key_ptr_eq s (LS j) l i o V O T ltac:(rewrite Sz; eapply ne_lt; eauto))). apply copy_of_eq; auto. }
  rewrite bump_stk in E. exists (push_s c (bump c s)), c. rewrite (declare_gives (EKeyOf (EVar j) (Z.of_nat i)) s c (bump c s) eq_refl E (bump_stk c s)). split; auto.
  split; [simpl; rewrite bump_stk; auto|]. split; [apply (reads_key_mem s); [apply bump_mem|exact Rc]|]. unfold kept. cbn [push_s mem]. rewrite bump_mem. auto.
Qed.
(** Positions beyond the last key, and other arrays, are refused. *)
Lemma key_throws : forall e s j v i msg, INV e [] s -> variable s j v -> key_of (LS j) i s = RThrow msg s -> exec (SDecl (EKeyOf (EVar j) i)) s = RThrow msg s.
Proof.
  intros e s j v i msg I V E. change (exec (SDecl (EKeyOf (EVar j) i)) s) with (declare (length (stk s)) (EKeyOf (EVar j) i) s). unfold declare, keep_value. unfold bind at 1.
  change (eval (length (stk s)) (EKeyOf (EVar j) i)) with (let! v := eval (length (stk s)) (EVar j) in let! x := key_of v i in temp x).
  rewrite (bind_ok _ _ _ _ _ _ _ (eval_var s j _ _ V eq_refl s)). unfold bind. rewrite E. rewrite (leave_exact e s v s); auto. apply (getv_held (LS j)); auto. apply (INV_sound _ _ _ I).
Qed.
Theorem C113_range_throws : forall s j l kvs i, reachable s -> holds_map s j l kvs -> (i < 0 \/ Z.of_nat (length kvs) <= i)%Z ->
  exists msg, exec (SDecl (EKeyOf (EVar j) i)) s = RThrow msg s.
Proof.
  intros s j l kvs i R H Hi. destruct (holds_mapping s j l kvs R H) as (e & o & I & M). destruct H as (V & _). destruct M as (O & Vo & T & _ & Sz & _).
  exists range_error. apply (key_throws e s j (MPtr l) i _ I V). unfold key_of. rewrite (bind_ok _ _ _ _ _ _ _ (ptr_atype s (LS j) l V o O Vo)). rewrite T. change (hcode HPair =? 9)%Z with true. cbv iota.
  unfold bind at 1. unfold key_ptr. rewrite (bind_ok _ _ _ _ _ _ _ (ptr_heap s (LS j) l V)). rewrite (bind_ok _ _ _ _ _ _ _ (get_obj_eq _ _ _ O)). rewrite T.
  replace ((i <? 0) || (Z.of_nat (h_size o) <=? i))%Z with true; [reflexivity|]. symmetry. apply orb_true_iff. rewrite Sz. destruct Hi; [left; apply Z.ltb_lt|right; apply Z.leb_le]; auto.
Qed.
Theorem C113_array_throws : forall s j l t xs i, reachable s -> variable s j (MPtr l) -> array_at s l t xs -> t <> HPair ->
  exec (SDecl (EKeyOf (EVar j) i)) s = RThrow "var::key(): Not a map" s.
Proof.
  intros s j l t xs i R V A Nt. destruct (variable_array _ _ _ _ _ R V A) as (e & o & I & O & Vo & Ty & _). apply (key_throws e s j (MPtr l) i _ I V).
  unfold key_of. rewrite (bind_ok _ _ _ _ _ _ _ (ptr_atype s (LS j) l V o O Vo)). replace (hcode (h_ty o) =? 9)%Z with false by (rewrite Ty; destruct t as [[]|]; auto; congruence). reflexivity.
Qed.

(** * Examples *)
Local Open Scope Z_scope.
(** [s_num]: the number 3 and a string; [s_two]: a string, an array of a string and a number. *)
Definition sums : list stmt := [SDecl (ENum (VInt 3)); SDecl (ENum (VLong 4294967298)); SDecl ENil].
Definition s_sums : state := Eval vm_compute in after sums.
Lemma sums_reached : reachable s_sums. Proof. exists sums. vm_compute. reflexivity. Qed.
(** [x *= y] and [z = x + y], [x] an int and [y] a long whose low half is 2. *)
Lemma taken_long2 : forall a, taken_as (VInt a) (VLong 4294967298) (VInt 2).
Proof. intros a. apply taken_int_l. split; [lia|]. exists 1. lia. Qed.
Example C110_example : exists s', exec (SOp Mul (EVar 0) (EVar 1)) s_sums = ROk tt s' /\ stk s' = [MNum (VInt 6); MNum (VLong 4294967298); MNil] /\ kept s_sums s'.
Proof.
  apply (C110_in_place Mul s_sums 0 (EVar 1) (VInt 3) (MNum (VLong 4294967298)) (VLong 4294967298) (VInt 6) sums_reached eq_refl Logic.I).
  - constructor. reflexivity.
  - reflexivity.
  - exists (VInt 2). split; [apply taken_long2|]. apply res_int; [reflexivity|split; discriminate].
Qed.
Example C110_declared_example : exists s', exec (SDecl (EOp Add (EVar 0) (EVar 1))) s_sums = ROk tt s' /\ stk s' = stk s_sums ++ [MNum (VInt 5)] /\ kept s_sums s'.
Proof.
  apply (C110_declared Add s_sums (EVar 0) (EVar 1) (MNum (VInt 3)) (VInt 3) (MNum (VLong 4294967298)) (VLong 4294967298) (VInt 5) sums_reached); try (constructor; reflexivity); try reflexivity.
  exists (VInt 2). split; [apply taken_long2|]. apply res_int; [reflexivity|split; discriminate].
Qed.
Example C110_assigned_example : exists s', exec (SAssign (EVar 0) (EOp Sub (EVar 0) (EVar 1))) s_sums = ROk tt s' /\ stk s' = replaced (stk s_sums) 0 (MNum (VInt 1)) /\ kept s_sums s'.
Proof.
  apply (C110_assigned Sub s_sums 0 (MNum (VInt 3)) (EVar 0) (EVar 1) (MNum (VInt 3)) (VInt 3) (MNum (VLong 4294967298)) (VLong 4294967298) (VInt 1) sums_reached); try (constructor; reflexivity); try reflexivity.
  - apply plain_value. reflexivity.
  - exists (VInt 2). split; [apply taken_long2|]. apply res_int; [reflexivity|split; discriminate].
Qed.
Example C110_undefined_example : exec (SOp Add (EVar 2) (EVar 0)) s_sums = RThrow "var::atype(): Undefined" s_sums.
Proof. apply (C110_undefined_throws Add s_sums 2 (EVar 0) (MNum (VInt 3)) sums_reached eq_refl). constructor. reflexivity. Qed.
(** [a[1] += 1] on the string, [b[1] /= 2] on the array of vars. *)
Example C111_example : exists s', exec (SOp Add (EIdx (EVar 0) 1) (ENum (VInt 1))) s_two = ROk tt s' /\ array_at s' 0 (HE TChar) [MNum (VChar 97); MNum (VChar 99); MNum (VChar 99)] /\
  only_array 0 s_two s' /\ (terminated s_two 0 -> terminated s' 0).
Proof.
  apply (C111_element Add s_two (EIdx (EVar 0) 1) 0 1 (HE TChar) abc (ENum (VInt 1)) (VChar 98) (MNum (VInt 1)) (VInt 1) (VChar 99) two_reached).
  - apply (op_idx s_two 0 0 (HE TChar) abc 1 eq_refl two_abc). simpl. lia.
  - exact two_abc.
  - apply chars_writable.
  - reflexivity.
  - exact Logic.I.
  - right. exists (VChar 98). split; auto. split; [reflexivity|discriminate].
  - constructor. reflexivity.
  - reflexivity.
  - exists (VChar 1). split; [apply (taken_char 98 (VInt 1) 1 1); [discriminate|auto|split; [lia|exists 0; lia]]|]. apply (res_char Add 98 1 99 99); try (split; discriminate). exists 0; reflexivity.
Qed.
Example C111_vars_example : exists s', exec (SOp Div (EAt (EVar 1) 1) (ENum (VInt 2))) s_two = ROk tt s' /\ array_at s' 1 (HE TVar) [MPtr 0; MNum (VInt 3)] /\
  only_array 1 s_two s' /\ (terminated s_two 1 -> terminated s' 1).
Proof.
  apply (C111_element Div s_two (EAt (EVar 1) 1) 1 1 (HE TVar) [MPtr 0; MNum (VInt 7)] (ENum (VInt 2)) (VInt 7) (MNum (VInt 2)) (VInt 2) (VInt 3) two_reached).
  - apply (op_at s_two 1 1 1 eq_refl). discriminate.
  - found.
  - apply two_writable.
  - reflexivity.
  - exact Logic.I.
  - left. left. reflexivity.
  - constructor. reflexivity.
  - reflexivity.
  - exists (VInt 2). split; [apply taken_same; reflexivity|]. apply res_int; [|split; discriminate]. split; [discriminate|]. exists 1. lia.
Qed.
(** [m["b"] += 5], and [m["c"] += 5] for a key that is not there. *)
Example C111_key_example : exists s' kvs', exec (SOp Add (EKey (EVar 0) (EVar 1)) (ENum (VInt 5))) s_dict = ROk tt s' /\ stk s' = stk s_dict /\
  bound_to (text [98]) (MNum (VInt 7)) abd kvs' /\ length kvs' = length abd /\ holds_map s' 0 1 kvs' /\ unchanged_but 1 s_dict s'.
Proof.
  apply (C111_key Add s_dict 0 1 abd (EVar 1) (text [98]) (ENum (VInt 5)) (VInt 2) (MNum (VInt 5)) (VInt 5) (VInt 7) dict_reached dict_map eq_refl key_b).
  - in_dict.
  - exact Logic.I.
  - constructor. reflexivity.
  - reflexivity.
  - discriminate.
  - exists (VInt 5). split; [apply taken_same; reflexivity|]. apply res_int; [reflexivity|split; discriminate].
Qed.
Example C111_missing_example : exists s' a b, exec (SOp Add (EKey (EVar 0) (EStr [99])) (ENum (VInt 5))) s_dict = RThrow "var::atype(): Undefined" s' /\ stk s' = stk s_dict /\ abd = a ++ b /\
  holds_map s' 0 1 (a ++ (text [99], MNil) :: b) /\ unchanged_but 1 s_dict s'.
Proof.
  apply (C111_missing_key_is_added Add s_dict 0 1 abd (EStr [99]) (text [99]) (ENum (VInt 5)) (MNum (VInt 5)) (VInt 5) dict_reached dict_map eq_refl (key_c 1) no_c).
  - constructor. reflexivity.
  - reflexivity.
  - discriminate.
Qed.
(** The key "b" is found, "c" is not. *)
Example C112_example : exists s' v, exec (SDecl (EFind (EVar 0) (EVar 1))) s_dict = ROk tt s' /\ stk s' = stk s_dict ++ [v] /\ holds_map s' 0 1 abd /\
  (forall m o, (m < length (mem s_dict))%nat -> nth_error (mem s') m = Some (Some o) -> nth_error (mem s_dict) m = Some (Some o)) /\
  ((exists i k' w, nth_error abd i = Some (k', w) /\ equal k' (text [98]) /\ v = MRef 1 i /\ denotes s' v w) \/ (forall w, ~ value_of abd (text [98]) w) /\ v = MNil).
Proof. apply (C112_find s_dict 0 1 abd (EVar 1) (text [98]) dict_reached dict_map key_b). Qed.
Example C112_missing_example : exists s' v, exec (SDecl (EFind (EVar 0) (EStr [99]))) s_dict = ROk tt s' /\ stk s' = stk s_dict ++ [v] /\ holds_map s' 0 1 abd /\
  (forall m o, (m < length (mem s_dict))%nat -> nth_error (mem s') m = Some (Some o) -> nth_error (mem s_dict) m = Some (Some o)) /\
  ((exists i k' w, nth_error abd i = Some (k', w) /\ equal k' (text [99]) /\ v = MRef 1 i /\ denotes s' v w) \/ (forall w, ~ value_of abd (text [99]) w) /\ v = MNil).
Proof. apply (C112_find s_dict 0 1 abd (EStr [99]) (text [99]) dict_reached dict_map (key_c 1)). Qed.
Example C112_undefined_example : exec (SDecl (EFind (EVar 2) (EVar 1))) s_dict = RThrow "var::at(): uninitialised" s_dict.
Proof. apply (C112_undefined_throws s_dict 2 (EVar 1) (MPtr 4) dict_reached eq_refl). constructor. reflexivity. Qed.
Example C112_array_example : exec (SDecl (EFind (EVar 0) (ENum (VInt 1)))) s_two = RThrow "operator [var]: Not a map" s_two.
Proof. apply (C112_array_throws s_two 0 0 (HE TChar) abc (ENum (VInt 1)) (MNum (VInt 1)) two_reached eq_refl two_abc); [discriminate|constructor; reflexivity]. Qed.
Example C113_example : exists s' c, exec (SDecl (EKeyOf (EVar 0) 1)) s_dict = ROk tt s' /\ stk s' = stk s_dict ++ [c] /\ reads_key s' c (text [98]) /\ kept s_dict s' /\ mem s' = mem s_dict.
Proof. apply (C113_key_at s_dict 0 1 abd 1 (text [98]) (MNum (VInt 2)) dict_reached dict_map eq_refl). Qed.
Example C113_range_example : exists msg, exec (SDecl (EKeyOf (EVar 0) 3)) s_dict = RThrow msg s_dict.
Proof. apply (C113_range_throws s_dict 0 1 abd 3 dict_reached dict_map). right. simpl. lia. Qed.
Example C113_array_example : exec (SDecl (EKeyOf (EVar 0) 0)) s_two = RThrow "var::key(): Not a map" s_two.
Proof. apply (C113_array_throws s_two 0 0 (HE TChar) abc 0 two_reached eq_refl two_abc). discriminate. Qed.
