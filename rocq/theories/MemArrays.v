(** The array methods as statements of a program. *)
From Coq Require Import ZArith Bool List String Lia.
From Verif Require Import Base StrModel ValModel NumModel AllocModel AllocProof MemModel MemProof MemFun MemEq MemDeref MemTriple MemOps MemArr MemElem MemList MemRun ArrSpec.
Import ListNotations.
Local Open Scope list_scope.
Local Open Scope mem_scope.
Local Notation length := List.length.

Lemma reachable_INV : forall s, reachable s -> exists e, INV e [] s.
Proof.
  intros s [prog R]. pose proof (run_settled True prog (fun _ => 0) start start_INV (ok_run_any _ _)) as P.
  rewrite R in P. destruct P as [(e & P & _) _]. eauto.
Qed.

(** * From the specification to the objects *)
Lemma array_obj : forall s l t xs, array_at s l t xs -> exists o, obj l s = Some o /\ h_view o = None /\ h_ty o = t /\ h_size o = length xs /\
  length xs <= length (h_cells o) /\ forall k, k < length xs -> val_at o k = nth_error xs k.
Proof.
  intros s l t xs (o & O & V & T & Sz & E). exists o. split; [apply obj_live; auto|]. split; auto. split; auto. split; auto. split.
  - pose proof (f_equal (@length _) E) as L. rewrite firstn_length, map_length in L. lia.
  - intros k K. rewrite <- E at 1. unfold val_at. rewrite <- nth_error_map. clear E. revert k K. generalize (map snd (h_cells o)) as c. generalize (length xs) as n.
    induction n; intros c k K; [lia|]. destruct c; destruct k; simpl; auto. apply IHn; lia.
Qed.
Lemma nth_ext : forall A (a b : list A), (forall k, nth_error a k = nth_error b k) -> a = b.
Proof.
  induction a; destruct b; intros H; auto.
  - specialize (H 0). discriminate.
  - specialize (H 0). discriminate.
  - f_equal; [specialize (H 0); simpl in H; congruence|]. apply IHa. intros k. apply (H (S k)).
Qed.
Lemma nth_firstn : forall A n (l : list A) k, nth_error (firstn n l) k = if (k <? n)%nat then nth_error l k else None.
Proof.
  induction n; intros l k; simpl; [destruct k; auto|]. destruct l; destruct k; simpl; auto; try rewrite IHn; auto.
  destruct (_ <? _)%nat; auto.
Qed.
Lemma obj_array : forall s l o t xs, obj l s = Some o -> h_view o = None -> h_ty o = t -> h_size o = length xs ->
  (forall k, k < length xs -> val_at o k = nth_error xs k) -> array_at s l t xs.
Proof.
  intros s l o t xs O V T Sz E. exists o. split; [apply obj_live; auto|]. split; auto. split; auto. split; auto.
  apply nth_ext. intros k. rewrite nth_firstn. destruct (Nat.ltb_spec k (length xs)) as [L|L].
  - rewrite nth_error_map. apply E. auto.
  - symmetry. apply nth_error_None. auto.
Qed.
Lemma replaceable_ok : forall s l o, obj l s = Some o -> replaceable s l -> okcells s o.
Proof.
  intros s l o O R _ k v H. destruct (val_at_cell _ _ _ H) as [c N]. apply nth_error_In in N. apply obj_live in O. destruct (R _ _ O N) as [A B].
  split; [exact A|]. intros m o' E M. apply obj_live in M. eauto.
Qed.
Lemma writable_ok : forall s l o, obj l s = Some o -> writable s l (h_ty o) -> okcells s o.
Proof.
  intros s l o O W V. assert (H : holds_vars (h_ty o)) by (unfold holds_vars; destruct (h_ty o) as [[]|]; simpl in V; try discriminate; auto).
  apply (replaceable_ok s l o O (W H) V).
Qed.
Lemma holds_varlike : forall t, holds_vars t -> varlike t = true.
Proof. intros t [->| ->]; reflexivity. Qed.
Lemma movable_ok : forall s l o xs, obj l s = Some o -> movable s l (h_ty o) xs -> xs = [] \/ okcells s o.
Proof.
  intros s l o xs O [[H R]|F]; [right; apply (replaceable_ok s l o O R)|].
  destruct xs as [|x xs]; auto. right. inversion F as [|? ? (v & _ & E & D) _]; subst. intros V. rewrite E in V. destruct v; simpl in *; congruence.
Qed.
Lemma number_fits : forall t x, number_of t x -> fits_type t x.
Proof. intros t x (v & -> & -> & D). destruct v; simpl in *; try congruence; eauto. Qed.
Lemma vars_fits : forall t x, holds_vars t -> fits_type t x.
Proof. intros t x [->| ->]; exact Logic.I. Qed.
Lemma movable_fits : forall s l t xs k x, movable s l t xs -> nth_error xs k = Some x -> fits_type t x.
Proof.
  intros s l t xs k x [[H _]|F] N; [apply vars_fits; auto|]. apply number_fits. rewrite Forall_forall in F. apply F. eapply nth_error_In; eauto.
Qed.
Lemma only_became : forall l o' s s', l < length (mem s) -> became l o' s s' -> only_array l s s'.
Proof.
  intros l o' s s' L B. split; [apply (became_stk _ _ _ _ B)|]. split; [destruct B as [(_ & E & _) _]; simpl in E; rewrite sn_length in E; auto|]. intros k o D O. apply obj_live in O. apply obj_live.
  eapply became_other; eauto.
Qed.
Lemma denotes_der : forall s x y, denotes s x y -> der_spec x s y /\ nonref y.
Proof.
  intros s [| | |l i| |] y; simpl; try tauto; try (intros ->; split; auto; intros ? ? ?; discriminate).
  intros (o & k & O & V & L & N & J & R). apply obj_live in O. split; [|exact R].
  apply (der_cell s l o i y O V); auto. unfold val_at. rewrite N. reflexivity.
Qed.
Lemma stored_conv : forall s t x y z, denotes s x y -> stored t y z -> conv s t x z.
Proof.
  intros s t x y z D S. destruct (denotes_der _ _ _ D) as [E R]. destruct t as [[]|]; simpl in *; try (subst; auto; fail);
    destruct S as (v & u & -> & C & ->); eauto 10.
Qed.
(** An operand keeps its value while arrays are given up, and while an array other than that
    of a reference changes. *)
Lemma denotes_keep : forall s s' x y, denotes s x y -> (forall l i o, x = MRef l i -> obj l s = Some o -> i < h_size o -> exists o', obj l s' = Some o' /\ h_view o' = h_view o /\ i < h_size o' /\ val_at o' i = val_at o i) ->
  denotes s' x y.
Proof.
  intros s s' [| | |l i| |] y D K; simpl in *; auto. destruct D as (o & k & O & V & L & N & J & R). apply obj_live in O.
  destruct (K l i o eq_refl O L) as (o' & O' & V' & L' & E).
  assert (E' : val_at o' i = Some y) by (rewrite E; unfold val_at; rewrite N; reflexivity).
  destruct (val_at_cell _ _ _ E') as [c N']. exists o', c. apply obj_live in O'. repeat split; auto; congruence.
Qed.
Lemma denotes_bump : forall w s x y, denotes s x y -> denotes (bump w s) x y.
Proof. intros w s x y D. apply (denotes_keep s); auto. intros l i o _ O L. exists o. rewrite obj_bump. auto. Qed.
Lemma denotes_push : forall w s x y, denotes s x y -> denotes (push_s w s) x y.
Proof. intros w s x y D. apply (denotes_keep s); auto. intros l i o _ O L. exists o. auto. Qed.

(** * Temporaries *)
Definition ext (ws : list mvar) (s : state) : state := {| mem := mem s; rc := rc s; stk := stk s ++ ws |}.
Lemma leave_gives : forall e F s1 ws t, INV e F s1 -> shrunk (ext ws t) s1 ->
  exists s2, leave (length (stk t)) s1 = ROk tt s2 /\ INV e F s2 /\ shrunk t s2.
Proof.
  intros e F s1 ws t I (St & Lm & Ob). simpl in St, Lm.
  pose proof (INV_cut _ _ _ (length (stk t)) I) as C. destruct C as (C & T & E).
  destruct (release_ok _ _ _ _ C) as (s2 & R & I2 & P & S2 & L2). exists s2.
  assert (Sh : shrunk (cut (length (stk t)) s1) s2) by (apply fp_nothing_shrunk; auto).
  split; [exact R|]. split.
  - split; auto. split.
    + intros k o O. apply (T k). apply Sh. auto.
    + rewrite L2. auto.
  - eapply shrunk_trans; [|exact Sh]. unfold shrunk, cut; simpl. rewrite St, firstn_app, firstn_all, Nat.sub_diag. simpl. rewrite app_nil_r.
    split; auto.
Qed.
Lemma finish_gives : forall e F m s s1 ws t, m s = ROk tt s1 -> INV e F s1 -> shrunk (ext ws t) s1 -> length (stk t) = length (stk s) ->
  exists s2, finish (length (stk s)) m s = ROk tt s2 /\ INV e F s2 /\ shrunk t s2.
Proof.
  intros e F m s s1 ws t M I Sh L. destruct (leave_gives e F s1 ws t I Sh) as (s2 & A & B & C). exists s2. split; auto.
  unfold finish. rewrite M, <- L. exact A.
Qed.
Lemma finish_throws : forall e F m s s1 ws t msg, m s = RThrow msg s1 -> INV e F s1 -> shrunk (ext ws t) s1 -> length (stk t) = length (stk s) ->
  exists s2, finish (length (stk s)) m s = RThrow msg s2 /\ INV e F s2 /\ shrunk t s2.
Proof.
  intros e F m s s1 ws t msg M I Sh L. destruct (leave_gives e F s1 ws t I Sh) as (s2 & A & B & C). exists s2. split; auto.
  unfold finish. rewrite M, <- L. unfold bind. rewrite A. reflexivity.
Qed.
Lemma ext_nil : forall s, ext [] s = s.
Proof. intros []. unfold ext; simpl. rewrite app_nil_r. reflexivity. Qed.
Lemma ext_push : forall ws w s, push_s w (ext ws s) = ext (ws ++ [w]) s.
Proof. intros. unfold push_s, ext; simpl. rewrite app_assoc. reflexivity. Qed.
Lemma shrunk_ext : forall ws a b, shrunk a b -> shrunk (ext ws a) (ext ws b).
Proof. intros ws a b (A & B & C). unfold shrunk, ext; simpl. rewrite A. auto. Qed.

(** The same arrays and variables, with temporaries. *)
Definition temps (s s1 : state) : Prop := mem s1 = mem s /\ exists ws, stk s1 = stk s ++ ws.
Lemma temps_refl : forall s, temps s s. Proof. intros s. split; auto. exists []. rewrite app_nil_r. auto. Qed.
Lemma temps_slot : forall s s1 j x, temps s s1 -> nth_error (stk s) j = Some x -> nth_error (stk s1) j = Some x.
Proof. intros s s1 j x [_ [ws E]] N. rewrite E, nth_error_app1; auto. eapply ne_lt; eauto. Qed.
Lemma temps_obj : forall s s1 l, temps s s1 -> obj l s1 = obj l s.
Proof. intros s s1 l [E _]. unfold obj. rewrite E. reflexivity. Qed.
Lemma temps_push : forall s s1 x, temps s s1 -> temps s (push_s x (bump x s1)).
Proof.
  intros s s1 x [E [ws F]]. split; [simpl; rewrite bump_mem; auto|]. exists (ws ++ [x]). simpl. rewrite bump_stk, F, app_assoc. reflexivity.
Qed.
Lemma temps_okcells : forall s s1 o, temps s s1 -> okcells s o -> okcells s1 o.
Proof. intros s s1 o T Ok V k v H. destruct (Ok V k v H) as [A B]. split; auto. intros m o' E M. rewrite (temps_obj _ _ _ T) in M. eauto. Qed.
Lemma temps_denotes : forall s s1 x y, temps s s1 -> denotes s x y -> denotes s1 x y.
Proof. intros s s1 x y T D. apply (denotes_keep s); auto. intros l i o _ O L. exists o. rewrite (temps_obj _ _ _ T). auto. Qed.
(** Evaluating an operand: the variable itself, or a temporary. *)
Lemma operand_gives : forall e s s1 f x, INV e [] s1 -> temps s s1 -> operand s f x ->
  exists q s2, eval (length (stk s)) f s1 = ROk (LS q) s2 /\ INV e [] s2 /\ temps s s2 /\ temps s1 s2 /\ nth_error (stk s2) q = Some x.
Proof.
  intros e s s1 f x I T O. pose proof (INV_sound _ _ _ I) as Sd.
  assert (K : forall k y, variable s k y -> eval (length (stk s)) (EVar k) s1 = ROk (LS k) s1).
  { intros k y V. simpl. assert (k < length (stk s)) by (eapply ne_lt; eauto). destruct (Nat.ltb_spec k (length (stk s))); [reflexivity|lia]. }
  assert (P : forall y, held y s1 -> INV e [] (push_s y (bump y s1)) /\ temps s (push_s y (bump y s1)) /\ temps s1 (push_s y (bump y s1)) /\ nth_error (stk (push_s y (bump y s1))) (length (stk s1)) = Some y).
  { intros y H. split; [apply INV_push, INV_bump; auto|]. split; [apply temps_push; auto|]. split; [apply temps_push, temps_refl|].
    simpl. rewrite bump_stk, nth_error_app2, Nat.sub_diag by auto. reflexivity. }
  destruct O as [k x V|v Nv| |k l i V Hi|k l t xs i V A Hi].
  - exists k, s1. split; [eauto|]. split; auto. split; auto. split; [apply temps_refl|]. eapply temps_slot; eauto.
  - exists (length (stk s1)), (push_s (MNum v) (bump (MNum v) s1)). split; [simpl; rewrite Nv; reflexivity|]. apply P. intros ? ?; discriminate.
  - exists (length (stk s1)), (push_s MNil (bump MNil s1)). split; [reflexivity|]. apply P. intros ? ?; discriminate.
  - pose proof (temps_slot _ _ _ _ T V) as V1. exists (length (stk s1)), (push_s (MRef l (Z.to_nat i)) (bump (MRef l (Z.to_nat i)) s1)).
    split; [|apply P; apply (held_ptr (LS k)); auto].
    change (eval (length (stk s)) (EAt (EVar k) i)) with (let! v := eval (length (stk s)) (EVar k) in let! x := at_int v i in temp x).
    rewrite (bind_ok _ _ _ _ _ _ _ (K _ _ V)). rewrite (bind_ok _ _ _ _ _ _ _ (at_int_ptr s1 (LS k) l i Sd V1 Hi)). reflexivity.
  - pose proof (temps_slot _ _ _ _ T V) as V1. exists (length (stk s1)), (push_s (MRef l (Z.to_nat i)) (bump (MRef l (Z.to_nat i)) s1)).
    split; [|apply P; apply (held_ptr (LS k)); auto].
    change (eval (length (stk s)) (EIdx (EVar k) i)) with (let! v := eval (length (stk s)) (EVar k) in let! x := index_int v i in temp x).
    rewrite (bind_ok _ _ _ _ _ _ _ (K _ _ V)). destruct (array_obj _ _ _ _ A) as (o & O & Vw & _ & Sz & _).
    rewrite <- (temps_obj _ _ _ T) in O.
    rewrite (bind_ok _ _ _ _ _ _ _ (index_in_ptr s1 (LS k) l i o Sd V1 O Vw ltac:(lia))). reflexivity.
Qed.
Lemma operand_holder : forall s f l i, operand s f (MRef l i) -> exists j v, nth_error (stk s) j = Some v /\ target v = Some l.
Proof. intros s f l i O. inversion O; subst; eauto. Qed.

(** * Statements on a variable's array *)
(** Undoing them. *)
Lemma temps_became : forall e s s1 s2 l o', temps s s1 -> l < length (mem s) -> became l o' s1 s2 -> INV e [] s2 ->
  forall j v, nth_error (stk s) j = Some v -> target v = Some l ->
  exists s3, leave (length (stk s)) s2 = ROk tt s3 /\ INV e [] s3 /\ became l o' s s3.
Proof.
  intros e s s1 s2 l o' [E [ws F]] L [Sh _] I j v Nj Tv.
  assert (Sh' : shrunk (ext ws (set_mem l o' s)) s2).
  { eapply shrunk_trans; [|exact Sh]. unfold shrunk, ext, obj; simpl. rewrite E, F. auto. }
  destruct (leave_gives e [] s2 ws (set_mem l o' s) I Sh') as (s3 & A & I3 & Sh3). exists s3. split; auto. split; auto.
  eapply became_held; eauto.
Qed.
Lemma with_copy_became : forall e e' s p x l o' j v (f : lval -> M unit) s1, INV e [] s -> nth_error (stk s) p = Some x -> nth_error (stk s) j = Some v -> target v = Some l ->
  l < length (mem s) -> f (LS (length (stk s))) (push_s x (bump x s)) = ROk tt s1 -> INV e' [] s1 -> became l o' (push_s x (bump x s)) s1 ->
  exists s2, with_copy (LS p) f s = ROk tt s2 /\ INV e' [] s2 /\ became l o' s s2.
Proof.
  intros e e' s p x l o' j v f s1 I Np Nj Tv L E I1 [Sh1 _]. pose proof (INV_sound _ _ _ I) as Sd. unfold with_copy.
  rewrite (bind_ok _ _ _ _ _ _ _ (copy_of_eq (LS p) s x Sd Np)).
  destruct (scoped_gives _ x f e' [] (bump x s) tt s1 x (set_mem l o' (bump x s))) as (s2 & A & I2 & Sh2); auto.
  - rewrite bump_stk. exact E.
  - exists s2. split; auto. split; auto. eapply became_held; eauto. eapply shrunk_trans; [|exact Sh2]. apply shrunk_set_mem; auto. apply shrunk_bump.
Qed.
(** A statement [v.method(f)]. *)
Lemma exec_two : forall st (g : lval -> lval -> M unit) j f e s l x (Q : hobj -> Prop),
  (forall nv s, exec st s = finish (length (stk s)) (body (length (stk s)) st) s /\
     body nv st = (let! v := eval nv (EVar j) in let! p := eval nv f in with_copy p (g v))) ->
  INV e [] s -> variable s j (MPtr l) -> operand s f x -> l < length (mem s) ->
  (forall s1 q, INV e [] s1 -> temps s s1 -> nth_error (stk s1) q = Some x ->
     exists e' s2 o', g (LS j) (LS q) s1 = ROk tt s2 /\ INV e' [] s2 /\ became l o' s1 s2 /\ Q o') ->
  exists e' s' o', exec st s = ROk tt s' /\ INV e' [] s' /\ became l o' s s' /\ Q o'.
Proof.
  intros st g j f e s l x Q Hst I Nj Op L H.
  destruct (operand_gives e s s f x I (temps_refl s) Op) as (q & s1 & E1 & I1 & T1 & _ & Nq).
  pose proof (INV_sound _ _ _ I1) as Sd1.
  destruct (H (push_s x (bump x s1)) (length (stk s1))) as (e' & s2 & o' & E2 & I2 & B2 & HQ).
  - apply INV_push, INV_bump; auto. apply (getv_held (LS q) s1); auto.
  - apply temps_push; auto.
  - simpl. rewrite bump_stk, nth_error_app2, Nat.sub_diag by auto. reflexivity.
  - destruct (with_copy_became e e' s1 q x l o' j (MPtr l) (g (LS j)) s2) as (s3 & E3 & I3 & B3); auto.
    + eapply temps_slot; eauto.
    + destruct T1 as [-> _]. auto.
    + destruct (temps_became e' s s1 s3 l o' T1 L B3 I3 j (MPtr l) Nj eq_refl) as (s4 & E4 & I4 & B4). exists e', s4, o'. split; [|auto].
      destruct (Hst (length (stk s)) s) as [Ee Eb]. rewrite Ee. unfold finish. rewrite Eb.
      assert (Ev : eval (length (stk s)) (EVar j) s = ROk (LS j) s).
      { simpl. assert (j < length (stk s)) by (eapply ne_lt; eauto). destruct (Nat.ltb_spec j (length (stk s))); [reflexivity|lia]. }
      rewrite (bind_ok _ _ _ _ _ _ _ Ev). rewrite (bind_ok _ _ _ _ _ _ _ E1). rewrite E3. exact E4.
Qed.

(** ** push *)
Lemma type_of_ok : forall s p x y, getv p s = Some x -> denotes s x y -> exists t, type_of p s = ROk t s.
Proof.
  intros s p x y G D. unfold type_of. rewrite (bind_ok _ _ _ _ _ _ _ (get_eq _ _ _ G)). destruct x as [| | |l i| |]; simpl in D; try contradiction; simpl; eauto.
  - eexists. reflexivity.
  - eexists. reflexivity.
  - eexists. reflexivity.
  - destruct D as (o & k & O & V & L & N & J & R). apply obj_live in O.
    destruct (plain_vars o) eqn:Pv.
    + rewrite (bind_ok _ _ _ _ s y s).
      * destruct y; try congruence; eexists; reflexivity.
      * rewrite (bind_ok _ _ _ _ _ _ _ (get_obj_eq _ _ _ O)). rewrite Pv, N. destruct y; try reflexivity. exfalso; eapply R; eauto.
    + rewrite (bind_ok _ _ _ _ s (MRef l i) s).
      * rewrite (bind_ok _ _ _ _ _ _ _ (get_obj_eq _ _ _ O)). rewrite (bind_ok _ _ _ _ _ _ _ (obj_type_plain _ _ V)). eexists; reflexivity.
      * rewrite (bind_ok _ _ _ _ _ _ _ (get_obj_eq _ _ _ O)). rewrite Pv. reflexivity.
Qed.
Lemma grown_denotes : forall s l o o' n x y, obj l s = Some o -> grown n o o' -> h_size o <= n -> h_size o <= length (h_cells o) ->
  denotes s x y -> denotes (set_mem l o' s) x y.
Proof.
  intros s l o o' n x y O G L C D. pose proof (obj_lt _ _ _ O) as Ll. apply (denotes_keep s); auto. intros k i ok -> Ok Li.
  rewrite obj_set_mem by auto. destruct (Nat.eqb_spec l k) as [->|X].
  - assert (ok = o) by congruence. subst ok. exists o'. destruct G as (G1 & G2 & G3 & G4). split; auto. split; auto. split; [lia|].
    apply (grown_val n); [split; auto|lia|lia].
  - exists ok. auto.
Qed.
Definition pushed (o : hobj) (n : nat) (z : mvar) (o' : hobj) : Prop := exists o1, grown (S n) o o1 /\ o' = set_val o1 n z.
Lemma push_gives : forall e s j p l o x y z, INV e [] s ->
  nth_error (stk s) j = Some (MPtr l) -> nth_error (stk s) p = Some x -> obj l s = Some o -> h_view o = None -> okcells s o ->
  h_size o <= length (h_cells o) -> (Z.of_nat (h_size o) + 1 < 2 ^ 30)%Z -> denotes s x y -> stored (h_ty o) y z ->
  exists s' o', push (LS j) (LS p) s = ROk tt s' /\ INV e [] s' /\ became l o' s s' /\ pushed o (h_size o) z o'.
Proof.
  intros e s j p l o x y z I Nj Np O V Ok Cp Sm D St. set (n := h_size o) in *. pose proof (INV_sound _ _ _ I) as Sd.
  pose proof (obj_lt _ _ _ O) as Ll. assert (Hx : held x s) by (apply (getv_held (LS p)); auto).
  (* the state with the copy of the parameter *)
  set (s1 := push_s x (bump x s)).
  assert (I1 : INV e [] s1) by (apply INV_push, INV_bump; auto).
  assert (T1 : temps s s1) by (apply temps_push, temps_refl).
  assert (O1 : obj l s1 = Some o) by (rewrite (temps_obj _ _ _ T1); auto).
  assert (N1 : nth_error (stk s1) j = Some (MPtr l)) by (eapply temps_slot; eauto).
  destruct (heap_resize_gives e [] s1 l (S n) o I1 O1) as (o1 & R & I2 & G); [lia|].
  set (s2 := set_mem l o1 s1) in *.
  assert (O2 : obj l s2 = Some o1) by (unfold s2; rewrite obj_set_mem by (eapply obj_lt; eauto); rewrite Nat.eqb_refl; auto).
  assert (B2 : became l o1 s1 s2) by (split; [apply shrunk_refl|auto]).
  pose proof G as (G1 & G2 & G3 & G4 & _).
  assert (Cn : n < length (h_cells o1)) by (destruct (is_char (h_ty o)); lia).
  assert (Ok1 : okcells s2 o1) by (eapply (grown_okcells s1 l o o1 (S n) s2); eauto; eapply temps_okcells; eauto).
  assert (E1 : index_int (LS j) (Z.of_nat n) s1 = ROk (MRef l n) (bump (MPtr l) s2)).
  { rewrite <- (Nat2Z.id n) at 2. eapply (index_grow_ptr s1 s2 (LS j) l (Z.of_nat n) o); auto.
    - apply (INV_sound _ _ _ I2).
    - unfold n. lia.
    - replace (Z.to_nat (Z.of_nat n + 1)) with (S n) by lia. exact R. }
  change (bump (MPtr l) s2) with (bump (MRef l n) s2) in E1.
  destruct (val_at_some _ _ Cn) as [old Ho]. destruct (val_at_cell _ _ _ Ho) as [c Nc].
  destruct (assign_flight e [] (bump (MRef l n) s2) (length (stk s)) l n o1 c old x z) as (s3 & E3 & I3 & Sh3); auto.
  - apply INV_bump; auto. apply (held_ptr (LS j)); auto. apply (INV_sound _ _ _ I2).
  - simpl. rewrite bump_stk, nth_error_app2, Nat.sub_diag by auto. reflexivity.
  - congruence.
  - intros Vl. destruct (Ok1 Vl _ _ Ho) as [A B]. split; auto. split; auto. intros ->. simpl in D.
    destruct D as (o' & k & Od & _ & Li & _). apply obj_live in Od. assert (o' = o) by congruence. subst. unfold n in Li. lia.
  - apply conv_bump. rewrite G1. apply (stored_conv _ _ _ y); auto. unfold s2. apply (grown_denotes s1 l o o1 (S n)); auto.
    eapply temps_denotes; eauto.
  - assert (E4 : (let! n := size_of (LS j) in let! r := index_int (LS j) n in scoped r (fun r => assign r (LS (length (stk (bump x s)))))) s1 = ROk tt s3).
    { rewrite (bind_ok _ _ _ _ _ _ _ (ptr_size s1 (LS j) l N1 o O1 V)). rewrite (bind_ok _ _ _ _ _ _ _ E1). rewrite bump_stk. exact E3. }
    assert (Sh4 : shrunk (push_s x (set_mem l (set_val o1 n z) s)) s3).
    { eapply shrunk_trans; [|exact Sh3]. change (putv (LC l (h_gen o1) n) z (bump (MRef l n) s2)) with (bump (MRef l n) (putv (LC l (h_gen o1) n) z s2)) || idtac.
      rewrite (set_val_putv o1 n z c old l (h_gen o1) (bump (MRef l n) s2)); auto.
      unfold shrunk, s2, s1, obj; simpl. rewrite !bump_stk, !bump_mem, !sn_length, sn_twice. auto. }
    destruct (scoped_gives _ x (fun q => let! n := size_of (LS j) in let! r := index_int (LS j) n in scoped r (fun r => assign r q)) e [] (bump x s) tt s3 x _ E4 I3 Sh4) as (s4 & E5 & I5 & Sh5).
    + simpl. rewrite bump_stk. reflexivity.
    + exists s4, (set_val o1 n z). split; [|split; [auto|split]].
      * destruct (type_of_ok s (LS p) x y Np D) as [t Et]. unfold push. rewrite (bind_ok _ _ _ _ _ _ _ (ptr_defined s (LS j) l Nj)).
        rewrite (bind_ok _ _ _ _ _ _ _ Et). change (negb true) with false. cbv iota zeta.
        rewrite (bind_ok _ _ _ _ _ _ _ (ptr_type s (LS j) l Nj)). change (negb (0 =? 0)%Z) with false. cbv beta iota delta [andb].
        rewrite (bind_ok _ _ _ _ _ _ _ (copy_of_eq (LS p) s x Sd Np)). exact E5.
      * apply (became_held e [] l _ s s4 j (MPtr l)); auto.
      * exists o1. auto.
Qed.

(** ** Assigning to an element *)
Lemma assign_became : forall e s r p l i o x y z, INV e [] s ->
  nth_error (stk s) r = Some (MRef l i) -> nth_error (stk s) p = Some x -> obj l s = Some o -> h_view o = None -> okcells s o ->
  i < length (h_cells o) -> denotes s x y -> stored (h_ty o) y z -> (varlike (h_ty o) = true -> x <> MRef l i) ->
  exists s', assign (LS r) (LS p) s = ROk tt s' /\ INV e [] s' /\ became l (set_val o i z) s s'.
Proof.
  intros e s r p l i o x y z I Nr Np O V Ok L D St X. destruct (val_at_some _ _ L) as [old Ho]. destruct (val_at_cell _ _ _ Ho) as [c Nc].
  destruct (store_gives e [] s r p l i o c old x z) as (s1 & A & I1 & Sh); auto.
  - intros Vl. destruct (Ok Vl _ _ Ho) as [P Q]. auto.
  - apply (stored_conv _ _ _ y); auto.
  - exists s1. split; auto. split; auto. rewrite (set_val_putv o i z c old l (h_gen o) s) in Sh; auto.
    apply (became_held e [] l _ s s1 r (MRef l i)); auto. eapply obj_lt; eauto.
Qed.
Lemma exec_assign : forall ee s e f l i o x y z, INV ee [] s -> operand s e (MRef l i) -> operand s f x ->
  obj l s = Some o -> h_view o = None -> okcells s o -> i < length (h_cells o) -> denotes s x y -> stored (h_ty o) y z ->
  (varlike (h_ty o) = true -> x <> MRef l i) ->
  exists s', exec (SAssign e f) s = ROk tt s' /\ INV ee [] s' /\ became l (set_val o i z) s s'.
Proof.
  intros ee s e f l i o x y z I Oe Of O V Ok L D St X.
  destruct (operand_gives ee s s f x I (temps_refl s) Of) as (q & s1 & E1 & I1 & T1 & _ & Nq).
  destruct (operand_gives ee s s1 e _ I1 T1 Oe) as (r & s2 & E2 & I2 & T2 & T12 & Nr).
  assert (Nq2 : nth_error (stk s2) q = Some x) by (eapply temps_slot; eauto).
  pose proof (INV_sound _ _ _ I2) as Sd2.
  set (s3 := push_s x (bump x s2)). assert (T3 : temps s s3) by (apply temps_push; auto).
  assert (T23 : temps s2 s3) by (apply temps_push, temps_refl).
  destruct (assign_became ee s3 r (length (stk s2)) l i o x y z) as (s4 & E4 & I4 & B4); auto.
  - apply INV_push, INV_bump; auto. apply (getv_held (LS q) s2); auto.
  - eapply temps_slot; eauto.
  - simpl. rewrite bump_stk, nth_error_app2, Nat.sub_diag by auto. reflexivity.
  - rewrite (temps_obj _ _ _ T3); auto.
  - apply (temps_okcells s s3); auto.
  - apply (temps_denotes s s3); auto.
  - destruct (with_copy_became ee ee s2 q x l (set_val o i z) r (MRef l i) (assign (LS r)) s4) as (s5 & E5 & I5 & B5); auto.
    + destruct T2 as [-> _]. eapply obj_lt; eauto.
    + destruct (operand_holder _ _ _ _ Oe) as (j & v & Nj & Tv).
      destruct (temps_became ee s s2 s5 l _ T2 (obj_lt _ _ _ O) B5 I5 j v Nj Tv) as (s6 & E6 & I6 & B6). exists s6. split; auto.
      change (exec (SAssign e f) s) with (finish (length (stk s)) (body (length (stk s)) (SAssign e f)) s). unfold finish.
      change (body (length (stk s)) (SAssign e f)) with (let! p := eval (length (stk s)) f in let! v := eval (length (stk s)) e in with_copy p (assign v)).
      rewrite (bind_ok _ _ _ _ _ _ _ E1). rewrite (bind_ok _ _ _ _ _ _ _ E2). rewrite E5. exact E6.
Qed.

(** ** resize and pop *)
Lemma finish_var : forall s j l e s1 o', variable s j (MPtr l) -> l < length (mem s) -> INV e [] s1 -> became l o' s s1 ->
  exists s2, leave (length (stk s)) s1 = ROk tt s2 /\ INV e [] s2 /\ became l o' s s2.
Proof. intros s j l e s1 o' V L I B. eapply (temps_became e s s s1 l o' (temps_refl s)); eauto. Qed.
Lemma eval_var : forall s j x nv, variable s j x -> nv = length (stk s) -> forall s1, eval nv (EVar j) s1 = ROk (LS j) s1.
Proof. intros s j x nv V -> s1. simpl. assert (j < length (stk s)) by (eapply ne_lt; eauto). destruct (Nat.ltb_spec j (length (stk s))); [reflexivity|lia]. Qed.
Lemma exec_resize : forall e s j l n o, INV e [] s -> variable s j (MPtr l) -> obj l s = Some o -> (Z.of_nat n < 2 ^ 30)%Z ->
  exists s' o', exec (SResize (EVar j) (Z.of_nat n)) s = ROk tt s' /\ INV e [] s' /\ became l o' s s' /\ grown n o o'.
Proof.
  intros e s j l n o I V O H. destruct (resize_became e [] s j l n o I V O H) as (o' & s1 & E & _ & I1 & B & G).
  destruct (finish_var s j l e s1 o' V (obj_lt _ _ _ O) I1 B) as (s2 & E2 & I2 & B2). exists s2, o'. split; auto.
  change (exec (SResize (EVar j) (Z.of_nat n)) s) with (finish (length (stk s)) (let! v := eval (length (stk s)) (EVar j) in resize v (Z.of_nat n)) s).
  unfold finish. rewrite (bind_ok _ _ _ _ _ _ _ (eval_var s j _ _ V eq_refl s)). rewrite E. exact E2.
Qed.
(** [pop]: the reference to what was the last element, and the array shortened. *)
Lemma pop_gives : forall e s j l n o, INV e [] s -> nth_error (stk s) j = Some (MPtr l) -> obj l s = Some o -> h_view o = None -> h_size o = S n ->
  (Z.of_nat n < 2 ^ 30)%Z ->
  exists s' o', pop (LS j) s = ROk (MRef l n) s' /\ s' = bump (MRef l n) (set_mem l o' s) /\ INV e [MRef l n] s' /\ grown n o o'.
Proof.
  intros e s j l n o I Nj O V Sz H. pose proof (INV_sound _ _ _ I) as Sd. set (r := MRef l n). set (s1 := push_s r (bump r s)).
  assert (Hr : held r s) by (apply (held_ptr (LS j)); auto).
  assert (I1 : INV e [] s1) by (apply INV_push, INV_bump; auto).
  assert (T1 : temps s s1) by (apply temps_push, temps_refl).
  assert (O1 : obj l s1 = Some o) by (rewrite (temps_obj _ _ _ T1); auto).
  assert (N1 : nth_error (stk s1) j = Some (MPtr l)) by (eapply temps_slot; eauto).
  destruct (heap_resize_gives e [] s1 l n o I1 O1 H) as (o' & R & I2 & G).
  assert (E0 : at_int (LS j) (Z.of_nat (S n) - 1) s = ROk r (bump r s)).
  { replace (Z.of_nat (S n) - 1)%Z with (Z.of_nat n) by lia. rewrite (at_int_ptr s (LS j) l (Z.of_nat n) Sd Nj (Nat2Z.is_nonneg _)), Nat2Z.id. reflexivity. }
  exists (bump r (set_mem l o' s)), o'. split; [|split; [auto|split; [|auto]]].
  - unfold pop. rewrite (bind_ok _ _ _ _ _ _ _ (ptr_size s (LS j) l Nj o O V)). rewrite Sz. rewrite (bind_ok _ _ _ _ _ _ _ E0).
    eapply scoped_ok with (v' := MNil) (s1 := bump r (set_mem l o' s)).
    + fold s1. rewrite (bind_ok _ _ _ _ _ _ _ (ptr_size s1 (LS j) l N1 o O1 V)). rewrite Sz.
      replace (Z.of_nat (S n) - 1)%Z with (Z.of_nat n) by lia.
      rewrite (bind_ok _ _ _ _ s1 tt (set_mem l o' s1)); [|rewrite (ptr_resize s1 (LS j) l N1) by lia; rewrite Nat2Z.id; exact R].
      change (set_mem l o' s1) with (push_s r (bump r (set_mem l o' s))).
      unfold take. pose proof (getv_push_new r (bump r (set_mem l o' s))) as Gr.
      replace (length (stk (bump r s))) with (length (stk (bump r (set_mem l o' s)))) by (rewrite !bump_stk; reflexivity).
      rewrite (bind_ok _ _ _ _ _ _ _ (get_eq _ _ _ Gr)). rewrite (bind_ok _ _ _ _ _ _ _ (put_eq _ _ _ MNil Gr)).
      rewrite putv_push_new. reflexivity.
    + rewrite !bump_stk. reflexivity.
    + destruct (bump r (set_mem l o' s)); reflexivity.
  - apply INV_push. exact I2.
Qed.

(** ** Assigning to a variable *)
Definition varset (k : nat) (y : mvar) (s : state) : state := {| mem := mem s; rc := rc s; stk := set_nth (stk s) k y |}.
Lemma sn_app1 : forall A (a b : list A) i x, i < length a -> set_nth (a ++ b) i x = set_nth a i x ++ b.
Proof. induction a; intros b i x L; simpl in *; [lia|]. destruct i; simpl; auto. f_equal. apply IHa. lia. Qed.
Lemma assign_var_gives : forall e s f s1 q ws x y k old, eval (length (stk s)) f s = ROk (LS q) s1 -> INV e [] s1 -> stk s1 = stk s ++ ws ->
  nth_error (stk s1) q = Some x -> der_spec x s1 y -> nonref y ->
  variable s k old -> nonref old -> not_view s1 old ->
  exists s', exec (SAssign (EVar k) f) s = ROk tt s' /\ INV e [] s' /\
    shrunk {| mem := mem s1; rc := rc s1; stk := set_nth (stk s) k y |} s'.
Proof.
  intros e s f s1 q ws x y k old E1 I1 St Nq D Ny Vk No Nv. pose proof (INV_sound _ _ _ I1) as Sd.
  assert (Lk : k < length (stk s)) by (eapply ne_lt; eauto).
  assert (Nk : nth_error (stk s1) k = Some old) by (rewrite St, nth_error_app1; auto).
  assert (Lk1 : k < length (stk s1)) by (eapply ne_lt; eauto).
  assert (Hx : held x s1) by (apply (getv_held (LS q)); auto).
  set (s2 := push_s x (bump x s1)).
  destruct (assign_plain_gives e [] s2 (LS k) (length (stk s1)) x y old) as (s3 & E3 & I3 & Sh3); auto.
  - apply INV_push, INV_bump; auto.
  - exact Logic.I.
  - simpl. rewrite bump_stk, nth_error_app1; auto.
  - apply not_view_push, not_view_bump; auto.
  - simpl. rewrite bump_stk, nth_error_app2, Nat.sub_diag by auto. reflexivity.
  - intros X. inversion X. lia.
  - apply der_push, der_bump; auto.
  - intros ? ? ? ? ? ? ?. discriminate.
  - intros ? ? ? [X|X]; discriminate.
  - assert (G2 : getv (LS k) s2 = Some old) by (simpl; rewrite bump_stk, nth_error_app1; auto).
    assert (E3' : assign (LS k) (LS (length (stk (bump x s1)))) s2 = ROk tt s3).
    { rewrite (assign_nonref_eq _ _ _ _ G2 No). rewrite bump_stk. exact E3. }
    assert (Sh3' : shrunk (push_s x (varset k y s1)) s3).
    { eapply shrunk_trans; [|exact Sh3]. unfold shrunk, obj, s2, varset; simpl. rewrite bump_mem, bump_stk, sn_app1; auto. }
    destruct (scoped_gives _ x (assign (LS k)) e [] (bump x s1) tt s3 x (varset k y s1) E3' I3 Sh3') as (s4 & E4 & I4 & Sh4).
    + simpl. rewrite bump_stk, sn_length. reflexivity.
    + destruct (leave_gives e [] s4 ws {| mem := mem s1; rc := rc s1; stk := set_nth (stk s) k y |} I4) as (s5 & E5 & I5 & Sh5).
      * eapply shrunk_trans; [|exact Sh4]. unfold shrunk, ext, varset, obj; simpl. rewrite St, sn_app1; auto.
      * exists s5. split; auto. simpl in E5. rewrite sn_length in E5.
        change (exec (SAssign (EVar k) f) s) with (finish (length (stk s)) (body (length (stk s)) (SAssign (EVar k) f)) s). unfold finish.
        change (body (length (stk s)) (SAssign (EVar k) f)) with (let! p := eval (length (stk s)) f in let! v := eval (length (stk s)) (EVar k) in with_copy p (assign v)).
        rewrite (bind_ok _ _ _ _ _ _ _ E1). rewrite (bind_ok _ _ _ _ _ _ _ (eval_var s k _ _ Vk eq_refl s1)). unfold with_copy.
        rewrite (bind_ok _ _ _ _ _ _ _ (copy_of_eq (LS q) s1 x Sd Nq)). rewrite E4. exact E5.
Qed.
(** [x = a.pop()]. *)
Lemma exec_pop : forall e s j k l n o y old, INV e [] s -> variable s j (MPtr l) -> variable s k old -> k <> j -> nonref old -> not_view s old ->
  obj l s = Some o -> h_view o = None -> h_size o = S n -> h_size o <= length (h_cells o) -> (Z.of_nat n < 2 ^ 30)%Z ->
  (if is_char (h_ty o) then y = NUL else val_at o n = Some y /\ y <> MJunk /\ nonref y) ->
  exists s' o', exec (SAssign (EVar k) (EPop (EVar j))) s = ROk tt s' /\ INV e [] s' /\ grown n o o' /\ obj l s' = Some o' /\
    stk s' = set_nth (stk s) k y /\ forall m a, m <> l -> obj m s' = Some a -> obj m s = Some a.
Proof.
  intros e s j k l n o y old I Vj Vk D No Nv O V Sz Cp H Y. pose proof (obj_lt _ _ _ O) as Ll.
  destruct (pop_gives e s j l n o I Vj O V Sz H) as (s1 & o' & E1 & Es1 & I1 & G). set (r := MRef l n) in *.
  pose proof G as (G1 & G2 & G3 & G4 & _).
  assert (Ol : obj l (push_s r s1) = Some o').
  { rewrite obj_push, Es1, obj_bump, obj_set_mem by auto. rewrite Nat.eqb_refl. reflexivity. }
  assert (Y' : val_at o' n = Some y /\ y <> MJunk /\ nonref y).
  { destruct (is_char (h_ty o)) eqn:C.
    - subst y. split; [apply (grown_nul n o o'); auto|]. split; [discriminate|intros ? ? ?; discriminate].
    - destruct Y as (Y1 & Y2 & Y3). split; auto. rewrite (grown_val n o o'); auto; [lia|congruence]. }
  destruct (assign_var_gives e s (EPop (EVar j)) (push_s r s1) (length (stk s)) [r] r y k old) as (s2 & E2 & I2 & Sh); auto.
  - change (eval (length (stk s)) (EPop (EVar j))) with (let! v := eval (length (stk s)) (EVar j) in let! x := pop v in temp x).
    rewrite (bind_ok _ _ _ _ _ _ _ (eval_var s j _ _ Vj eq_refl s)). rewrite (bind_ok _ _ _ _ _ _ _ E1). unfold temp. rewrite Es1, bump_stk. reflexivity.
  - apply INV_push. auto.
  - simpl. rewrite Es1, bump_stk. reflexivity.
  - simpl. rewrite Es1, bump_stk. simpl. rewrite nth_error_app2, Nat.sub_diag by auto. reflexivity.
  - apply (der_cell _ l o' n y Ol); [congruence|apply Y'|apply Y'|apply Y'].
  - apply Y'.
  - intros m a -> M. rewrite obj_push, Es1, obj_bump, obj_set_mem in M by auto. destruct (Nat.eqb_spec l m) as [->|X]; [inversion M; subst; congruence|].
    apply (Nv m a); auto.
  - exists s2, o'. split; auto. split; auto. split; auto. pose proof Sh as (S1 & S2 & S3). simpl in S1, S2.
    assert (Nj : nth_error (set_nth (stk s) k y) j = Some (MPtr l)) by (rewrite sn_other; auto).
    split; [|split; auto].
    + eapply (shrunk_obj e [] _ s2 j (MPtr l) l o' Sh I2); auto.
    + intros m a X M. apply S3 in M. unfold obj in M; simpl in M. fold (obj m s1) in M. rewrite Es1, obj_bump, obj_set_mem in M by auto.
      destruct (Nat.eqb_spec l m); [congruence|auto].
Qed.

(** ** insert *)
Lemma set_at_copy_became : forall e F s j p l i o x z, INV e F s ->
  nth_error (stk s) j = Some (MPtr l) -> nth_error (stk s) p = Some x -> obj l s = Some o -> h_view o = None -> okcells s o ->
  i < length (h_cells o) -> conv s (h_ty o) x z -> (varlike (h_ty o) = true -> x <> MRef l i) ->
  exists s', set_at_copy (LS j) (Z.of_nat i) (LS p) s = ROk tt s' /\ INV e F s' /\ became l (set_val o i z) s s'.
Proof.
  intros e F s j p l i o x z I Nj Np O V Ok L Cv D. destruct (val_at_some _ _ L) as [old Ho]. destruct (val_at_cell _ _ _ Ho) as [c N].
  destruct (set_at_copy_gives e F s j p l i o c old x z I Nj Np O V N) as (s' & E & I' & Sh); auto.
  - intros Vl. destruct (Ok Vl _ _ Ho) as [P Q]. auto.
  - rewrite (set_val_putv _ _ _ _ _ _ _ _ O N) in Sh. exists s'. split; auto. split; auto.
    apply (became_held e F l _ s s' j (MPtr l)); auto. eapply obj_lt; eauto.
Qed.
(** A parameter that is not a reference into the array changed keeps its value. *)
Lemma became_denotes : forall e F l o' s s' p x y, became l o' s s' -> INV e F s' -> l < length (mem s) -> nth_error (stk s) p = Some x -> denotes s x y ->
  (forall i, x <> MRef l i) -> denotes s' x y.
Proof.
  intros e F l o' s s' p x y B I L N D X. apply (denotes_keep s); auto. intros k i o -> O Li.
  exists o. split; auto. apply (became_held_other e F l o' s s' p (MRef k i) k o); auto. intros ->. eapply X; eauto.
Qed.
Lemma size_ltb : forall (a b : nat), b <= a -> (Z.of_nat a <? Z.of_nat b)%Z = false.
Proof. intros. destruct (Z.ltb_spec (Z.of_nat a) (Z.of_nat b)); auto. lia. Qed.
Definition spliced (o : hobj) (n b m : nat) (g : nat -> option mvar) (o' : hobj) : Prop :=
  h_ty o' = h_ty o /\ h_view o' = h_view o /\ h_size o' = n + m /\
  (forall k, k < n + m -> val_at o' k = if (k <? b)%nat then val_at o k else if (k <? b + m)%nat then g (k - b) else val_at o (k - m)) /\
  (is_char (h_ty o) = true -> val_at o' (n + m) = Some NUL).
Lemma insert_var_gives : forall e s j p l o x y b, INV e [] s ->
  nth_error (stk s) j = Some (MPtr l) -> nth_error (stk s) p = Some x -> obj l s = Some o -> h_view o = None -> h_ty o = HE TVar -> okcells s o ->
  h_size o <= length (h_cells o) -> (Z.of_nat (h_size o) + 1 < 2 ^ 30)%Z -> b <= h_size o -> denotes s x y -> (forall i, x <> MRef l i) ->
  exists s' o', insert (LS j) (LS p) (Z.of_nat b) s = ROk tt s' /\ INV e [] s' /\ became l o' s s' /\ spliced o (h_size o) b 1 (fun _ => Some y) o'.
Proof.
  intros e s j p l o x y b I Nj Np O V Ty Ok Cp Sm Lb D X. set (n := h_size o) in *. pose proof (obj_lt _ _ _ O) as Ll.
  destruct (resize_became e [] s j l (S n) o I Nj O) as (o1 & s1 & E1 & Es1 & I1 & B1 & G1); [lia|].
  assert (Ok1 : okcells s1 o1) by (eapply grown_okcells; eauto).
  pose proof (became_stk _ _ _ _ B1) as St1. pose proof B1 as [_ O1]. pose proof G1 as (T1 & V1 & S1 & C1 & _).
  assert (V1' : h_view o1 = None) by congruence. rewrite Ty in C1. simpl in C1.
  assert (N1 : nth_error (stk s1) j = Some (MPtr l)) by (rewrite St1; auto).
  destruct (shift_up_gives (n - b) e [] s1 j l b o1 I1 N1 O1 V1' Ok1) as (s2 & o2 & E2 & I2 & B2 & Ok2 & Al & H2); [lia| |].
  { intros k v _ _. rewrite T1, Ty. exact Logic.I. }
  pose proof (became_stk _ _ _ _ B2) as St2. pose proof B2 as [_ O2]. destruct Al as (A1 & A2 & A3 & A4 & A5).
  assert (B12 : became l o2 s s2) by (eapply became_trans; eauto).
  assert (D2 : denotes s2 x y) by (eapply became_denotes; eauto).
  destruct (set_at_copy_became e [] s2 j p l b o2 x y I2) as (s3 & E3 & I3 & B3); auto.
  - rewrite St2, St1; auto.
  - rewrite St2, St1; auto.
  - congruence.
  - lia.
  - rewrite A1, T1, Ty. destruct (denotes_der _ _ _ D2). split; auto.
  - exists s3, (set_val o2 b y). split; [|split; [auto|split; [eapply became_trans; eauto|]]].
    + unfold insert. rewrite (bind_ok _ _ _ _ _ _ _ (ptr_size s (LS j) l Nj o O V)). fold n. rewrite size_ltb by auto.
      rewrite (bind_ok _ _ _ _ _ _ _ (ptr_is_array s (LS j) l Nj o 8 O V)). rewrite Ty. change (hcode (HE TVar) =? 8)%Z with true. cbv iota.
      rewrite (bind_ok _ _ _ _ _ _ _ (ptr_size s (LS j) l Nj o O V)). fold n. replace (Z.of_nat n + 1)%Z with (Z.of_nat (S n)) by lia.
      rewrite (bind_ok _ _ _ _ _ _ _ E1). rewrite (bind_ok _ _ _ _ _ _ _ (ptr_size s1 (LS j) l N1 o1 O1 V1')). rewrite S1.
      replace (Z.to_nat (Z.of_nat (S n) - 1 - Z.of_nat b)) with (n - b) by lia. replace (Z.of_nat (S n) - 1)%Z with (Z.of_nat (b + (n - b))) by lia.
      rewrite (bind_ok _ _ _ _ _ _ _ E2). exact E3.
    + destruct (set_val_alike o2 b y) as (C1' & C2' & C3' & C4' & C5').
      assert (Nc : is_char (h_ty o) = false) by (rewrite Ty; reflexivity).
      unfold spliced. split; [congruence|]. split; [congruence|]. split; [rewrite C2', A2, S1; lia|]. split; [|congruence].
      intros k Hk. rewrite set_val_at by lia. rewrite H2.
      destruct (Nat.eqb_spec k b); destruct (Nat.ltb_spec k b); destruct (Nat.ltb_spec k (b + 1)); destruct (Nat.ltb_spec b k); destruct (Nat.leb_spec k (b + (n - b)));
        simpl; try lia; auto; apply (grown_val (S n)); auto; try lia; congruence.
Qed.
Lemma insert_dense_gives : forall e s j p l o lp op m b g, INV e [] s ->
  nth_error (stk s) j = Some (MPtr l) -> nth_error (stk s) p = Some (MPtr lp) -> lp <> l -> obj l s = Some o -> h_view o = None -> varlike (h_ty o) = false ->
  h_size o <= length (h_cells o) -> obj lp s = Some op -> h_view op = None -> h_size op = m ->
  (Z.of_nat (h_size o) + Z.of_nat m < 2 ^ 30)%Z -> b <= h_size o ->
  (forall k v, b <= k < h_size o -> val_at o k = Some v -> fits_type (h_ty o) v) ->
  (forall i, i < m -> converted (h_ty o) op i (g i)) ->
  exists s' o', insert (LS j) (LS p) (Z.of_nat b) s = ROk tt s' /\ INV e [] s' /\ became l o' s s' /\ spliced o (h_size o) b m (fun k => Some (g k)) o'.
Proof.
  intros e s j p l o lp op m b g I Nj Np D O V Vl Cp Op Vp Sp Sm Lb Ft Cv. set (n := h_size o) in *. pose proof (obj_lt _ _ _ O) as Ll.
  destruct (resize_became e [] s j l (n + m) o I Nj O) as (o1 & s1 & E1 & Es1 & I1 & B1 & G1); [lia|].
  pose proof (became_stk _ _ _ _ B1) as St1. pose proof B1 as [_ O1]. pose proof G1 as (T1 & V1 & S1 & C1 & _).
  assert (C1' : n + m <= length (h_cells o1)) by (destruct (is_char (h_ty o)); lia).
  assert (V1' : h_view o1 = None) by congruence.
  assert (N1 : nth_error (stk s1) j = Some (MPtr l)) by (rewrite St1; auto).
  assert (P1 : nth_error (stk s1) p = Some (MPtr lp)) by (rewrite St1; auto).
  assert (Op1 : obj lp s1 = Some op) by (eapply (became_held_other e [] l o1 s s1 p (MPtr lp)); eauto).
  assert (G1v : forall k, k < n -> val_at o1 k = val_at o k) by (intros k K; apply (grown_val (n + m)); auto; lia).
  destruct (spread_gives (n - b) e [] s1 j l b o1 p lp op m (S (n + m)) I1 N1 O1 V1') as (s2 & o2 & E2 & I2 & B2 & Al & H2); auto; try lia; try congruence.
  { intros k v K Hk. rewrite T1. apply (Ft k v); [lia|]. rewrite <- G1v by lia. auto. }
  pose proof (became_stk _ _ _ _ B2) as St2. pose proof B2 as [_ O2]. destruct Al as (A1 & A2 & A3 & A4 & A5).
  assert (B12 : became l o2 s s2) by (eapply became_trans; eauto).
  assert (N2 : nth_error (stk s2) j = Some (MPtr l)) by (rewrite St2; auto).
  assert (P2 : nth_error (stk s2) p = Some (MPtr lp)) by (rewrite St2; auto).
  assert (Op2 : obj lp s2 = Some op) by (eapply (became_held_other e [] l o2 s s2 p (MPtr lp)); eauto).
  destruct (fill_gives m e [] s2 j l b o2 p lp op m 0 (S m) g I2 N2 O2) as (s3 & o3 & E3 & I3 & B3 & Al3 & H3); auto; try lia; try congruence.
  { rewrite A1, T1. auto. }
  destruct Al3 as (A1' & A2' & A3' & A4' & A5').
  exists s3, o3. split; [|split; [auto|split; [eapply became_trans; eauto|]]].
  - unfold insert. rewrite (bind_ok _ _ _ _ _ _ _ (ptr_size s (LS j) l Nj o O V)). fold n. rewrite size_ltb by auto.
    rewrite (bind_ok _ _ _ _ _ _ _ (ptr_is_array s (LS j) l Nj o 8 O V)).
    assert (H8 : (hcode (h_ty o) =? 8)%Z = false) by (destruct (h_ty o) as [[]|]; simpl in Vl; try discriminate; reflexivity).
    assert (H9 : (hcode (h_ty o) =? 9)%Z = false) by (destruct (h_ty o) as [[]|]; simpl in Vl; try discriminate; reflexivity).
    rewrite H8. rewrite (bind_ok _ _ _ _ _ _ _ (ptr_is_array s (LS j) l Nj o 9 O V)). rewrite H9.
    rewrite (bind_ok _ _ _ _ _ _ _ (ptr_size s (LS j) l Nj o O V)). fold n.
    rewrite (bind_ok _ _ _ _ _ _ _ (ptr_size s (LS p) lp Np op Op Vp)). rewrite Sp. rewrite <- Nat2Z.inj_add.
    assert (Ii : in_int (Z.of_nat (n + m)) = true) by (unfold in_int, INT_MIN, INT_MAX; apply andb_true_iff; split; apply Z.leb_le; lia).
    rewrite Ii. change (negb true) with false. cbv iota.
    rewrite (bind_ok _ _ _ _ _ _ _ E1). rewrite (bind_ok _ _ _ _ _ _ _ (ptr_size s1 (LS j) l N1 o1 O1 V1')). rewrite S1, Nat2Z.id.
    replace (Z.of_nat (n + m) - 1)%Z with (Z.of_nat (b + m + (n - b)) - 1)%Z by lia.
    rewrite (bind_ok _ _ _ _ _ _ _ E2). rewrite (bind_ok _ _ _ _ _ _ _ (ptr_size s2 (LS p) lp P2 op Op2 Vp)). rewrite Sp, Nat2Z.id. exact E3.
  - unfold spliced. split; [congruence|]. split; [congruence|]. split; [congruence|]. split.
    + intros k Hk. rewrite H3, H2.
      destruct (Nat.leb_spec (b + 0) k); destruct (Nat.ltb_spec k (b + m)); destruct (Nat.ltb_spec k b); destruct (Nat.leb_spec (b + m) k); destruct (Nat.ltb_spec k (b + m + (n - b)));
        simpl; try lia; auto; apply G1v; lia.
    + intros C. rewrite H3, H2. 
      destruct (Nat.leb_spec (b + 0) (n + m)); destruct (Nat.ltb_spec (n + m) (b + m)); destruct (Nat.leb_spec (b + m) (n + m)); destruct (Nat.ltb_spec (n + m) (b + m + (n - b)));
        simpl; try lia; apply (grown_nul (n + m) o o1); auto.
Qed.
