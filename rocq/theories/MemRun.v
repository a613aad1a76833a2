(** Whole programs keep the invariant. *)
From Coq Require Import ZArith Bool List String Lia.
From Verif Require Import Base StrModel ValModel NumModel AllocModel ArithModel MemModel MemProof MemFun MemEq MemDeref MemTriple MemOps MemArr MemMeth MemTop MemCall MemMore MemKey.
Import ListNotations.
Local Open Scope list_scope.
Local Open Scope mem_scope.
Local Notation length := List.length.

Lemma occ_stk_split : forall l n st, occ l (firstn n st) + occ l (skipn n st) = occ l st.
Proof. intros. rewrite <- occ_app, firstn_skipn. reflexivity. Qed.
Definition cut (n : nat) (s : state) : state := {| mem := mem s; rc := rc s; stk := firstn n (stk s) |}.
Lemma INV_cut : forall e F s n, INV e F s -> INV e (skipn n (stk s) ++ F) (cut n s).
Proof.
  intros e F s n ((L & H) & T & E). split; [split; auto|split; auto].
  intros l. specialize (H l). unfold tot, cut in *; simpl. pose proof (occ_stk_split l n (stk s)). rewrite occ_app.
  destruct (nth_error (mem s) l) as [[o|]|]; unfold rcount in *; simpl in *; lia.
Qed.
Lemma leave_any : forall e F s n, INV e F s -> exists s', leave n s = ROk tt s' /\ INV e F s' /\ stk s' = firstn n (stk s).
Proof.
  intros e F s n I. apply (INV_cut _ _ _ n) in I. destruct (release_INV _ _ _ _ I) as (s' & A & B & C & D).
  exists s'. split; [exact A|]. split; auto. destruct D as [D _]. exact D.
Qed.

Section Run.
Variable U : Prop.
Notation post := (post U).
Notation GR := (GR U).
Notation GI := (GI U).
Notation GK := (GK U).
Notation lossy := (lossy U).

Lemma GK_bump : forall s j v, GK s j -> GK (bump v s) j.
Proof.
  intros s j v [H|[H1 H2]]; [left; auto|right]. split; [apply anch_bump; auto|].
  intros l k o a x. rewrite getv_bump, obj_bump. apply H2.
Qed.
Lemma GK_push : forall s j v, j < length (stk s) -> GK s j -> GK (push_s v s) j.
Proof.
  intros s j v L [H|[H1 H2]]; [left; auto|right]. split; [apply anch_push; auto|].
  intros l k o a x. rewrite getv_push, obj_push by auto. apply H2.
Qed.

(** * Methods that change nothing *)
Lemma num_op_no_uaf : forall op x y, no_uaf (num_op op x y).
Proof.
  intros op x y. unfold no_uaf, num_op. pose proof (fun t => cast_no_uaf t y) as C. unfold no_uaf in C.
  assert (Z : forall f a b, s_op op f a b <> UB UseAfterFree).
  { intros f a b. unfold s_op, z_op. destruct op; simpl; try (destruct (f _); discriminate).
    destruct (b =? 0)%Z; simpl; [discriminate|]. destruct (f _); discriminate. }
  destruct x; try discriminate;
    match goal with |- context [cast ?t y] => specialize (C t); destruct (cast t y) as [v|m|k|] end; simpl; try discriminate; try congruence;
    destruct v; try discriminate;
    match goal with |- context [s_op op ?f ?a ?b] => specialize (Z f a b); destruct (s_op op f a b) end; simpl; congruence.
Qed.
Lemma rs_arith : forall s op this p, sound s -> okU U this s -> okU U p s -> rs U (arith_value op this p) s (fun _ => True).
Proof.
  intros s op this p Sd K Kp. unfold arith_value.
  eapply rs_bind; [apply rs_get; auto|]. intros v V; cbv beta in V.
  eapply rs_bind; [apply rs_eff; auto; eapply getv_held; eauto|]. intros a [_ Ha].
  assert (G : rs U (let! x := value a in let! y := cast_var (ety_of x) p in lift (num_op op x y)) s (fun _ => True)).
  { eapply rs_bind; [apply rs_value; auto|]. intros x _.
    eapply rs_bind; [apply rs_cast_var; auto|]. intros y _. eapply rs_weaken; [apply rs_lift, num_op_no_uaf|auto]. }
  destruct a; auto; [apply rs_throw|apply rs_stuck].
Qed.
Lemma yields_num : forall s x, yields U (ret (MNum x)) s (fun _ => True).
Proof. intros s x. split; [reflexivity|]. split; [intros k E; discriminate|exact Logic.I]. Qed.
Lemma yields_arith : forall s op this p, sound s -> okU U this s -> okU U p s -> yields U (arith_var op this p) s (fun _ => True).
Proof.
  intros s op this p Sd K Kp. unfold arith_var. eapply yields_rs; [apply rs_arith; auto|]. intros r _. apply yields_num.
Qed.
Lemma yields_throw : forall s m Q, yields U (throw m) s Q.
Proof. intros. reflexivity. Qed.
Lemma yields_nil : forall s, yields U (ret MNil) s (fun _ => True).
Proof. intros s. split; [reflexivity|]. split; [intros k E; discriminate|exact Logic.I]. Qed.
Lemma yields_key_of : forall s this i, sound s -> okU U this s -> yields U (key_of this i) s (fun _ => True).
Proof.
  intros s this i Sd K. unfold key_of. eapply yields_rs; [apply rs_atype_of; auto|]. intros t _.
  destruct (t =? 9)%Z; [apply yields_key; auto|apply yields_throw].
Qed.
Lemma yields_at_key : forall s this p, sound s -> okU U this s -> okU U p s -> yields U (at_key this p) s (fun _ => True).
Proof.
  intros s this p Sd K Kp. unfold at_key.
  eapply yields_rs; [apply rs_defined; auto|]. intros d _. destruct (negb d); [apply yields_throw|].
  eapply yields_rs; [apply rs_heap_of; auto|]. intros h _.
  eapply yields_rs with (Q := fun _ => True).
  { destruct h; [|apply rs_ret; auto]. eapply rs_bind; [apply rs_atype_of; auto|]. intros t _. destruct (t =? 9)%Z; [apply rs_ret; auto|apply rs_throw]. }
  intros _ _. eapply yields_rs; [apply rs_binary; auto|]. intros index _.
  eapply yields_rs; [apply rs_size_of; auto|]. intros n _. destruct (n <=? index)%Z; [apply yields_nil|].
  eapply yields_rs; [apply rs_key_ptr; auto|]. intros k (l & o & j & -> & _ & O & T).
  eapply yields_rs; [apply rs_get; eapply okU_key; eauto|]. intros x X; cbv beta in X.
  eapply yields_rs; [apply rs_get; auto|]. intros y Y; cbv beta in Y.
  eapply yields_rs; [apply rs_value; auto; eapply getv_held; eauto|]. intros vx _.
  eapply yields_rs; [apply rs_value; auto; eapply getv_held; eauto|]. intros vy _.
  eapply yields_rs; [apply rs_lift; apply vneq_no_uaf|]. intros ne _.
  destruct ne; [apply yields_nil|]. eapply yields_weaken; [apply yields_reference; auto|auto].
Qed.
Lemma on_elem_post : forall c e F s op l i y, INV e F s -> live l s -> post c e F s none (fun _ s' => forall k, live k s -> live k s') (on_elem op l i y s).
Proof.
  intros c e F s op l i y I L. unfold on_elem. eapply post_rs; [apply rs_read_elem; eauto|auto|]. intros x _.
  destruct x; try apply post_stuck. eapply post_rs; [apply rs_lift, num_op_no_uaf|auto|]. intros r _. apply write_elem_keeps; auto.
Qed.
Lemma each_elem_post : forall n c e F s op t l j i, INV e F s -> live l s -> post c e F s none anyp (each_elem op t l (LS j) n i s).
Proof.
  induction n; intros c e F s op t l j i I L; cbn [each_elem]; [apply post_ret; [auto|exact Logic.I]|].
  eapply post_rs; [apply rs_cast_var; [eauto|apply okU_LS]|auto|]. intros y _.
  eapply post_seq; [apply on_elem_post; auto|]. intros u s1 I1 P1 Lv. cbv beta in Lv. apply IHn; auto.
Qed.
Lemma scale_elems_post : forall n c e F s l y i, INV e F s -> live l s -> post c e F s none anyp (scale_elems l y n i s).
Proof.
  induction n; intros c e F s l y i I L; cbn [scale_elems]; [apply post_ret; [auto|exact Logic.I]|].
  eapply post_seq; [apply on_elem_post; auto|]. intros u s1 I1 P1 Lv. cbv beta in Lv. apply IHn; auto.
Qed.
Lemma pair_elems_post : forall n c e F s op l off l' i, INV e F s -> live l s -> live l' s ->
  post c e F s none (fun _ s' => forall k, live k s -> live k s') (pair_elems op l off l' n i s).
Proof.
  induction n; intros c e F s op l off l' i I L L'; cbn [pair_elems]; [apply post_ret; auto|].
  eapply post_rs; [apply rs_read_elem; eauto|auto|]. intros x _.
  destruct x; try apply post_stuck. eapply post_seq; [apply on_elem_post; auto|]. intros u s1 I1 P1 Lv. cbv beta in Lv.
  eapply post_weaken; [apply IHn; auto|]. cbv beta. auto.
Qed.
Lemma rows_post : forall n c e F s op l step l' n' i, INV e F s -> live l s -> live l' s -> post c e F s none anyp (rows op l step l' n' n i s).
Proof.
  induction n; intros c e F s op l step l' n' i I L L'; cbn [rows]; [apply post_ret; [auto|exact Logic.I]|].
  eapply post_seq; [apply pair_elems_post; auto|]. intros u s1 I1 P1 Lv. cbv beta in Lv. apply IHn; auto.
Qed.
Lemma arith_array_post : forall c e F s op l j, INV e F s -> live l s -> post c e F s none anyp (arith_array op l (LS j) s).
Proof.
  intros c e F s op l j I L. unfold arith_array.
  eapply post_rs; [apply rs_get_obj; auto|auto|]. intros o O. cbv beta in O.
  eapply post_rs; [eapply rs_obj_type; eauto|auto|]. intros t _.
  eapply post_rs; [apply rs_heap_of; [eauto|apply okU_LS]|auto|]. intros h (x & E & Hx & Eh).
  eapply post_rs; [apply rs_size_of; [eauto|apply okU_LS]|auto|]. intros n' _.
  assert (Lh : forall l', h = Some l' -> live l' s) by (intros l' ->; destruct x; inversion Eh; subst; apply Hx; reflexivity).
  eapply post_rs with (Q := fun _ => True); [|auto|].
  { destruct h as [l'|]; [|apply rs_ret; auto]. eapply rs_bind; [apply rs_get_obj; auto|]. intros o' _. apply rs_ret. auto. }
  intros d' _.
  assert (G : forall t0, post c e F s none anyp ((
    if Nat.eqb d' 1 && (n' =? 1)%Z then
      let! n := obj_size o in
      match op with
      | Mul => match t0 with
               | TFloat | TDouble => let! y := cast_var t0 (LS j) in scale_elems l y (Z.to_nat n) 0
               | _ => throw "Mul::scal: Unknown type"
               end
      | _ => each_elem op t0 l (LS j) (Z.to_nat n) 0
      end
    else if Nat.ltb (odim o) d' then throw "var::broadcast: input dimension too large" else
    match h with
    | None => throw "var::atype(): Undefined"
    | Some l' =>
      let! o' := get_obj l' in
      let! t' := obj_type o' in
      if negb (hcode (HE t0) =? hcode t')%Z then throw "var::broadcast: types must match (for now)" else
      let! n := obj_size o in
      let! step := (if Nat.ltb d' (odim o) then stride_i o (odim o - d' - 1) else ret n) in
      if (step =? 0)%Z then ub DivByZero else
      let ops := Z.to_nat (Z.quot n step) in
      match ops, op, t0 with
      | O, _, _ => ret tt
      | _, Div, _ => stuck
      | _, _, (TFloat | TDouble) => rows op l step l' (Z.to_nat n') ops 0
      | _, _, _ => throw (unknown_vector op)
      end
    end) s)).
  { intros t0. destruct (Nat.eqb d' 1 && (n' =? 1)%Z).
    - eapply post_rs; [apply rs_obj_size|auto|]. intros n _.
      assert (M : post c e F s none anyp ((let! y := cast_var t0 (LS j) in scale_elems l y (Z.to_nat n) 0) s)).
      { eapply post_rs; [apply rs_cast_var; [eauto|apply okU_LS]|auto|]. intros y _. apply scale_elems_post; auto. }
      destruct op; try (apply each_elem_post; auto). destruct t0; auto; apply post_throw; auto.
    - destruct (Nat.ltb _ _); [apply post_throw; auto|]. destruct h as [l'|]; [|apply post_throw; auto].
      eapply post_rs; [apply rs_get_obj; auto|auto|]. intros o' O'. cbv beta in O'.
      eapply post_rs; [eapply rs_obj_type; eauto|auto|]. intros t' _. destruct (negb _); [apply post_throw; auto|].
      eapply post_rs; [apply rs_obj_size|auto|]. intros n _.
      eapply post_rs with (Q := fun _ => True); [destruct (Nat.ltb _ _); [eapply rs_weaken; [apply rs_stride|auto]|apply rs_ret; auto]|auto|]. intros step _.
      destruct (_ =? _)%Z; [apply post_ub; discriminate|]. cbv zeta. destruct (Z.to_nat (Z.quot n step)) as [|ops]; [apply post_ret; [auto|exact Logic.I]|].
      destruct op; try apply post_stuck; destruct t0; try (apply post_throw; auto); apply rows_post; auto. }
  destruct t as [[]|]; try apply post_stuck; apply G.
Qed.
Lemma arith_to_top : forall ee s op j q, INV ee [] s -> post full ee [] s none anyp (arith_to op (LS j) (LS q) s).
Proof.
  intros ee s op j q I. unfold arith_to. eapply post_rs; [apply rs_heap_of; [eauto|apply okU_LS]|auto|]. intros h (x & E & Hx & ->).
  assert (G : post full ee [] s none anyp ((let! r := arith_value op (LS j) (LS q) in assign_value (LS j) (MNum r)) s)).
  { eapply post_rs; [apply rs_arith; [eauto|apply okU_LS|apply okU_LS]|auto|]. intros r _.
    unfold assign_value. eapply post_scoped with (c' := full) (Q := anyp);
      [apply INV_add0; auto|apply assign_top|auto|auto|auto|intros; exact Logic.I]. }
  destruct x; auto. apply arith_array_post; auto.
Qed.

Lemma plain_guard : forall s j x, nth_error (stk s) j = Some x -> (forall l k, x <> MRef l k) -> forall l, ~ cont s (LS j) l.
Proof. intros s j x N H l (k & o & G & _). simpl in G. rewrite N in G. inversion G. subst. eapply H; eauto. Qed.
Lemma own_post : forall ee s j (m : M unit), INV ee [] s -> (GI s j -> GR s j -> post full ee [] s none anyp (m s)) ->
  post full ee [] s none anyp (own_var (LS j) m s).
Proof.
  intros ee s j m I H. unfold own_var. eapply post_rs; [apply rs_get; apply okU_LS|auto|]. intros x X; cbv beta in X. simpl in X.
  assert (P : (forall l k, x <> MRef l k) -> post full ee [] s none anyp (m s)).
  { intros N. apply H; right; intros l C; exfalso; eapply (plain_guard s j x); eauto. }
  destruct x; try (apply P; intros; discriminate). exact Logic.I.
Qed.
Lemma rs_offset_of : forall s j, sound s -> rs U (offset_of (LS j)) s (fun _ => True).
Proof.
  intros s j S. unfold offset_of. eapply rs_bind; [apply rs_heap_of; [exact S|apply okU_LS]|]. intros h (x & _ & Hx & E).
  destruct h as [l|]; [|apply rs_ret; auto].
  assert (L : live l s) by (apply Hx; subst; destruct x; try discriminate; inversion E; reflexivity).
  eapply rs_bind; [apply rs_get_obj; auto|]. intros o _. destruct (h_view o); [eapply rs_weaken; [apply rs_own_int|auto]|apply rs_ret; auto].
Qed.
Lemma set_offset_post : forall ee s j n, INV ee [] s -> post full ee [] s none anyp (set_offset (LS j) n s).
Proof.
  intros ee s j n I. unfold set_offset. eapply post_rs; [apply rs_heap_of; [eauto|apply okU_LS]|auto|]. intros h (x & _ & Hx & E).
  destruct h as [l|]; [|apply post_throw; auto].
  assert (L : live l s) by (apply Hx; subst; destruct x; try discriminate; inversion E; reflexivity).
  eapply post_rs; [apply rs_get_obj; auto|auto|]. intros o O; cbv beta in O.
  destruct (h_view o) as [t|] eqn:V; [|apply post_throw; auto].
  assert (Lt : live t s).
  { destruct (INV_sound _ _ _ I) as (_ & _ & S). eapply (S l o (MPtr t)); eauto. unfold contents. rewrite V. apply in_or_app. right. simpl. auto. }
  eapply post_rs; [apply rs_get_obj; auto|auto|]. intros ot Ot; cbv beta in Ot.
  eapply post_rs; [apply rs_obj_size|auto|]. intros k _.
  destruct (negb _); [apply post_ub; discriminate|]. destruct (_ <? _)%Z; [apply post_throw; auto|].
  destruct (nth_error (h_cells o) 0) as [[k0 x0]|] eqn:N; [|apply post_stuck]. destruct x0 as [|v0| | | |]; try apply post_stuck. destruct v0; try apply post_stuck.
  set (o' := set_cells o (set_nth (h_cells o) 0 (MNil, MNum (VInt n)))).
  pose proof I as (_ & T & _). destruct (T _ _ O) as [D1 D2]. assert (Ty : h_ty o = HE TInt) by (apply D2; congruence). rewrite Ty in D1. specialize (D1 eq_refl).
  assert (Z : forall k, cell_occ k (set_nth (h_cells o) 0 (MNil, MNum (VInt n))) = 0).
  { intros k2. pose proof (cell_occ_sn k2 _ _ _ (MNil, MNum (VInt n)) N) as A. rewrite D1 in A.
    change (occ1 k2 (fst (MNil, MNum (VInt n)))) with 0 in A. change (occ1 k2 (snd (MNil, MNum (VInt n)))) with 0 in A. lia. }
  assert (I1 : INV ee [] (set_mem l o' s)).
  { eapply INV_set_mem; eauto.
    - intros k2. rewrite !occ_contents. simpl. rewrite Z, D1. reflexivity.
    - split; simpl; auto. }
  unfold set_obj. fold (set_mem l o' s). split; [exact I1|]. split; [|exact Logic.I].
  eapply fp_set_mem; [exact O|exact Logic.I|reflexivity|reflexivity|right; exact Logic.I].
Qed.
Lemma advance_post : forall ee s j n, INV ee [] s -> post full ee [] s none anyp (advance (LS j) n s).
Proof.
  intros ee s j n I. unfold advance. eapply post_rs; [apply rs_offset_of; eauto|auto|]. intros k _.
  destruct (in_int _); [apply set_offset_post; auto|apply post_ub; discriminate].
Qed.
Lemma GR_copy : forall s j x, nth_error (stk s) j = Some x -> GI s j -> GR (push_s x (bump x s)) (length (stk s)).
Proof.
  intros s j x N [u|A]; [left; auto|right].
  assert (G : getv (LS (length (stk s))) (push_s x (bump x s)) = Some x).
  { change (nth_error (stk (bump x s) ++ [x]) (length (stk s)) = Some x). rewrite bump_stk, nth_error_app2, Nat.sub_diag by lia. reflexivity. }
  assert (Lj : j < length (stk s)) by (apply nth_error_Some; congruence).
  intros l (k & o & C1 & C2 & C3). rewrite G in C1. inversion C1; subst x. split.
  - apply P_slot with (j := j) (v := MRef l k); [simpl; intros E; inversion E; lia| |reflexivity].
    change (nth_error (stk (bump (MRef l k) s) ++ [MRef l k]) j = Some (MRef l k)). rewrite bump_stk, nth_error_app1 by lia. exact N.
  - intros (v & y & V & D & T). rewrite G in V. inversion V; subst v. rewrite der_push, der_bump in D by auto.
    rewrite obj_push, obj_bump in C2. apply (A l); [exists k, o; auto|exists (MRef l k), y; auto].
Qed.
Lemma rs_count_cells : forall sh s p, rs U (count_cells sh p) s (fun _ => True).
Proof.
  induction sh; intros s p; simpl; [apply rs_ret; auto|]. destruct (in_int _); [apply IHsh|apply rs_ub; discriminate].
Qed.
Lemma new_view_post : forall ee s j sh, INV ee [] s -> GI s j -> post full ee [] s own anyp (new_view sh (LS j) s).
Proof.
  intros ee s j sh I G. unfold new_view.
  assert (K : forall x s1 n, INV ee [x] s1 -> GR (push_s x s1) (length (stk s1)) ->
    post full ee [] s1 own anyp (scoped x (fun v => array v ;; own_var v (resize v n) ;; view v sh 0) s1)).
  { intros x s1 n I1 G1. eapply post_scoped with (c' := full) (Q := anyp); simpl; auto. intros I2.
    assert (L : length (stk s1) < length (stk (push_s x s1))) by (simpl; rewrite app_length; simpl; lia).
    eapply post_seq with (Q1 := anyp); [apply array_top; auto|]. intros u s2 I3 P2 _. pose proof (proj1 (proj2 P2)) as E2.
    eapply post_seq with (Q1 := anyp); [apply own_post; auto; intros _ G2; apply resize_top; auto; lia|].
    intros u2 s3 I4 P3 _. apply view_post; auto. }
  eapply post_rs; [apply rs_count_cells|auto|]. intros n _.
  eapply post_rs; [apply rs_defined; [eauto|apply okU_LS]|auto|]. intros d _. destruct d.
  - eapply post_yields; [apply yields_copy_of; [eauto|apply okU_LS]|auto|]. intros x X Hx I1. cbv beta in X. simpl in X.
    apply K; auto. rewrite bump_stk. eapply GR_copy; eauto.
  - change (post full ee [] s own anyp (scoped (MNum (VFloat (SpecFloat.S754_zero false))) (fun v => array v ;; own_var v (resize v n) ;; view v sh 0) s)).
    apply K; [apply INV_add0; auto|]. right. intros l C. exfalso. eapply (plain_guard (push_s (MNum (VFloat (SpecFloat.S754_zero false))) s) (length (stk s))); eauto.
    + simpl. rewrite nth_error_app2, Nat.sub_diag by lia. reflexivity.
    + intros. discriminate.
Qed.

Lemma GI_copy : forall s j x, nth_error (stk s) j = Some x -> GI s j -> GI (push_s x (bump x s)) (length (stk s)).
Proof. intros s j x N G. destruct (GR_copy s j x N G) as [u|A]; [left; auto|right]. intros l C. apply A; auto. Qed.
Lemma new_view_copied : forall ee s j sh, INV ee [] s -> GI s j ->
  post full ee [] s own anyp ((let! y := copy_of (LS j) in scoped y (fun q => new_view sh q)) s).
Proof.
  intros ee s j sh I G.
  eapply post_yields; [apply yields_copy_of; [eauto|apply okU_LS]|auto|]. intros x X Hx I1. cbv beta in X. simpl in X.
  eapply post_scoped with (c' := full) (Q := anyp); simpl; auto. intros I2. apply new_view_post; auto. rewrite bump_stk. eapply GI_copy; eauto.
Qed.

(** * Expressions *)
(** Each receiver meets its condition in the state in which the method is called. *)
Definition at_recv (ev : M lval) (s : state) (g : state -> nat -> Prop) : Prop :=
  forall j s1, ev s = ROk (LS j) s1 -> g s1 j.
Fixpoint ok_eval (nv : nat) (e : expr) (s : state) : Prop :=
  match e with
  | EVar _ | ENil | ENum _ | EStr _ => True
  | EIdx e _ | ENew _ e => ok_eval nv e s /\ at_recv (eval nv e) s GI
  | EKey e k => ok_eval nv e s /\ (forall j s1, eval nv e s = ROk (LS j) s1 -> ok_eval nv k s1 /\ at_recv (eval nv k) s1 (fun s2 _ => GK s2 j))
  | EAt e _ | ECopy e | EShift e | EView e _ _ | EKeyOf e _ => ok_eval nv e s
  | EFind e f | EOp _ e f => ok_eval nv e s /\ (forall v s1, eval nv e s = ROk v s1 -> ok_eval nv f s1)
  | ESet e f => ok_eval nv f s /\ (forall v s1, eval nv f s = ROk v s1 -> ok_eval nv e s1)
  | EComma e k => ok_eval nv e s /\ (forall j s1, eval nv e s = ROk (LS j) s1 -> ok_eval nv k s1 /\ at_recv (eval nv k) s1 (fun s2 _ => GR s2 j))
  | EPop e | ERemove e _ => ok_eval nv e s /\ at_recv (eval nv e) s GR
  end.
Definition fine (ee : nat -> nat) (st : nat) {A} (Q : A -> state -> Prop) (r : res A) : Prop :=
  match r with
  | ROk a s' => INV ee [] s' /\ st <= length (stk s') /\ Q a s'
  | RThrow m s' => (exists e', INV e' [] s' /\ (e' = ee \/ m = unknown_type)) /\ st <= length (stk s')
  | RUB k => k <> UseAfterFree \/ U
  | RStuck => True
  end.
Definition onstack (v : lval) (s : state) : Prop := exists j, v = LS j /\ j < length (stk s).
Lemma fine_bind : forall ee st A B (m : M A) (f : A -> M B) Q Q' s, fine ee st Q (m s) ->
  (forall a s', INV ee [] s' -> st <= length (stk s') -> Q a s' -> m s = ROk a s' -> fine ee st Q' (f a s')) -> fine ee st Q' ((let! a := m in f a) s).
Proof.
  intros ee st A B m f Q Q' s H K. unfold bind. destruct (m s) eqn:E; simpl in *; auto. destruct H as (H1 & H2 & H3). auto.
Qed.
Lemma fine_temp : forall ee st s (m : M mvar), st <= length (stk s) -> post full ee [] s own anyp (m s) ->
  fine ee st onstack ((let! x := m in temp x) s).
Proof.
  intros ee st s m L P. unfold bind. destruct (m s) as [x s'|e s'|k|]; simpl in *; auto.
  - destruct P as (I & Fp & _). pose proof (proj1 (proj2 Fp)) as E. rewrite app_length. simpl. split; [|split].
    + change (INV ee [] (push_s x s')). apply INV_push. exact I.
    + lia.
    + exists (length (stk s')). split; auto. simpl. rewrite app_length. simpl. lia.
  - destruct P as (H & Fp). split; auto. pose proof (proj1 (proj2 Fp)). lia.
Qed.
Lemma fine_st : forall ee st st' A Q (r : res A), st' <= st -> fine ee st Q r -> fine ee st' Q r.
Proof. intros ee st st' A Q r L H. destruct r; simpl in *; auto; intuition lia. Qed.
Lemma eval_fine : forall e nv ee s, INV ee [] s -> nv <= length (stk s) -> ok_eval nv e s ->
  fine ee (length (stk s)) onstack (eval nv e s).
Proof.
  assert (One : forall nv ee s e (g : state -> nat -> Prop) (m : lval -> M mvar),
    (INV ee [] s -> nv <= length (stk s) -> ok_eval nv e s -> fine ee (length (stk s)) onstack (eval nv e s)) ->
    INV ee [] s -> nv <= length (stk s) -> ok_eval nv e s -> at_recv (eval nv e) s g ->
    (forall j s1, INV ee [] s1 -> j < length (stk s1) -> g s1 j -> post full ee [] s1 own anyp (m (LS j) s1)) ->
    fine ee (length (stk s)) onstack ((let! v := eval nv e in let! x := m v in temp x) s)).
  { intros nv ee s e g m IH I L K R Hm. eapply fine_bind; [apply IH; auto|].
    intros v s1 I1 L1 (j & -> & Lj) E. apply fine_temp; [auto|]. apply Hm; auto. }
  assert (Both : forall nv ee s e1 e2 (g : state -> nat -> Prop) (m : lval -> lval -> M mvar),
    (forall nv ee s, INV ee [] s -> nv <= length (stk s) -> ok_eval nv e1 s -> fine ee (length (stk s)) onstack (eval nv e1 s)) ->
    (forall nv ee s, INV ee [] s -> nv <= length (stk s) -> ok_eval nv e2 s -> fine ee (length (stk s)) onstack (eval nv e2 s)) ->
    INV ee [] s -> nv <= length (stk s) ->
    (ok_eval nv e1 s /\ (forall j s1, eval nv e1 s = ROk (LS j) s1 -> ok_eval nv e2 s1 /\ at_recv (eval nv e2) s1 (fun s2 _ => g s2 j))) ->
    (forall j q s1, INV ee [] s1 -> post full ee [] s1 own anyp (m (LS j) (LS q) s1)) ->
    fine ee (length (stk s)) onstack ((let! v := eval nv e1 in let! p := eval nv e2 in let! y := copy_of p in let! x := scoped y (fun q => m v q) in temp x) s)).
  { intros nv ee s e1 e2 g m IH1 IH2 I L [K1 K2] Hm. eapply fine_bind; [apply IH1; auto|].
    intros v s1 I1 L1 (j & -> & Lj) E1. destruct (K2 _ _ E1) as [K3 K4].
    eapply fine_bind; [eapply fine_st; [exact L1|apply IH2; [exact I1|lia|exact K3]]|].
    intros p s2 I2 L2 (q & -> & Lq) E2.
    pose proof (fine_temp ee (length (stk s)) s2 (let! y := copy_of (LS q) in scoped y (fun r => m (LS j) r))) as FT.
    rewrite <- bind_assoc in FT. apply FT; auto. apply with_copy_top; auto. }
  induction e as [n| |x|str|e IHe i|e1 IHe1 e2 IHe2|e IHe i|e IHe|e IHe|e IHe|e IHe i|e IHe sh off|e1 IHe1 e2 IHe2|e IHe i|op e1 IHe1 e2 IHe2|e1 IHe1 e2 IHe2|e1 IHe1 e2 IHe2|sh e IHe]; intros nv ee s I L K; simpl eval; simpl in K.
  - destruct (Nat.ltb_spec n nv); simpl; auto. split; auto. split; auto. exists n. split; auto. lia.
  - change (fine ee (length (stk s)) onstack ((let! x := ret MNil in temp x) s)).
    apply fine_temp; [auto|]. apply post_ret; [apply INV_add0; auto|exact Logic.I].
  - destruct (number x); simpl; auto.
    change (fine ee (length (stk s)) onstack ((let! y := ret (MNum x) in temp y) s)).
    apply fine_temp; [auto|]. apply post_ret; [apply INV_add0; auto|exact Logic.I].
  - apply fine_temp; auto. apply (post_full U _ full), string_var_post; simpl; auto.
  - destruct K as [K1 K2]. eapply One; eauto. intros; apply index_top; auto.
  - destruct K as [K1 K2]. eapply fine_bind; [apply IHe1; auto|].
    intros v s1 I1 L1 (j & -> & Lj) E1. destruct (K2 _ _ E1) as [K3 K4].
    eapply fine_bind; [eapply fine_st; [exact L1|apply IHe2; [exact I1|lia|exact K3]]|].
    intros p s2 I2 L2 (q & -> & Lq) E2. specialize (K4 _ _ E2). cbv beta in K4.
    pose proof (fine_temp ee (length (stk s)) s2 (let! y := copy_of (LS q) in scoped y (fun r => index_var (LS j) r))) as FT.
    rewrite <- bind_assoc in FT.
    assert (Lj2 : j < length (stk s2)).
    { pose proof (IHe2 nv ee s1 I1) as Q.
      assert (Hn : nv <= length (stk s1)) by lia. specialize (Q Hn K3). rewrite E2 in Q. destruct Q as (_ & Q & _). lia. }
    apply FT; auto. apply with_copy_top; auto. intros x I3. rewrite <- (bump_stk x s2).
    apply index_var_top; auto; [simpl; rewrite app_length, bump_stk; simpl; lia|]. apply GK_push; [rewrite bump_stk; auto|]. apply GK_bump; auto.
  - eapply (One nv ee s e (fun _ _ => True)); eauto; [intros ? ? _; exact Logic.I|].
    intros. eapply post_any, post_yield; [apply yields_at; [eauto|apply okU_LS]|auto].
  - eapply (One nv ee s e (fun _ _ => True)); eauto; [intros ? ? _; exact Logic.I|].
    intros. eapply post_any, copy_post; auto.
  - destruct K as [K1 K2]. eapply One; eauto. intros; apply pop_top; auto.
  - eapply (One nv ee s e (fun _ _ => True)); eauto; [intros ? ? _; exact Logic.I|].
    intros. apply shift_top; auto.
  - destruct K as [K1 K2]. eapply One; eauto. intros; apply remove_top; auto.
  - eapply (One nv ee s e (fun _ _ => True)); eauto; [intros ? ? _; exact Logic.I|].
    intros. eapply post_any, view_post; auto.
  - eapply (Both nv ee s e1 e2 (fun _ _ => True) (fun v q => at_key v q)); eauto; [destruct K as [K1 K2]; split; [exact K1|]; intros; split; [eauto|intros ? ? _; exact Logic.I]|].
    intros. eapply post_any, post_yield; [apply yields_at_key; [eauto|apply okU_LS|apply okU_LS]|auto].
  - eapply (One nv ee s e (fun _ _ => True)); eauto; [intros ? ? _; exact Logic.I|].
    intros. eapply post_any, post_yield; [apply yields_key_of; [eauto|apply okU_LS]|auto].
  - eapply (Both nv ee s e1 e2 (fun _ _ => True) (fun v q => arith_var op v q)); eauto; [destruct K as [K1 K2]; split; [exact K1|]; intros; split; [eauto|intros ? ? _; exact Logic.I]|].
    intros. eapply post_any, post_yield; [apply yields_arith; [eauto|apply okU_LS|apply okU_LS]|auto].
  - destruct K as [K1 K2]. eapply fine_bind; [apply IHe2; auto|].
    intros p s1 I1 L1 (q & -> & Lq) E1. specialize (K2 _ _ E1).
    eapply fine_bind; [eapply fine_st; [exact L1|apply IHe1; [exact I1|lia|exact K2]]|].
    intros v s2 I2 L2 (j & -> & Lj) E2.
    assert (P : post full ee [] s2 none anyp ((let! y := copy_of (LS q) in scoped y (fun r => assign (LS j) r)) s2)).
    { apply with_copy_top; auto. intros x I3. apply assign_top; auto. }
    unfold bind in P |- *. destruct (copy_of (LS q) s2) as [y s2'|m s3|k|]; simpl in P |- *; auto;
      [destruct (scoped y (fun r => assign (LS j) r) s2') as [u s3|m s3|k|]; simpl in P |- *; auto|].
    + destruct P as (I3 & Fp & _). pose proof (proj1 (proj2 Fp)) as E. split; [exact I3|]. split; [lia|]. exists j. split; auto. lia.
    + destruct P as (H & Fp). split; auto. pose proof (proj1 (proj2 Fp)). lia.
    + destruct P as (H & Fp). split; auto. pose proof (proj1 (proj2 Fp)). lia.
  - destruct K as [K1 K2]. eapply fine_bind; [apply IHe1; auto|].
    intros v s1 I1 L1 (j & -> & Lj) E1. destruct (K2 _ _ E1) as [K3 K4].
    pose proof (IHe2 nv ee s1 I1) as F. assert (Hn : nv <= length (stk s1)) by lia. specialize (F Hn K3).
    eapply fine_bind; [eapply fine_st; [exact L1|exact F]|].
    intros p s2 I2 L2 (q & -> & Lq) E2. specialize (K4 _ _ E2). cbv beta in K4. rewrite E2 in F. destruct F as (_ & L3 & _).
    assert (P : post full ee [] s2 none anyp ((let! y := copy_of (LS q) in scoped y (fun r => append (LS j) r)) s2)).
    { apply with_copy_top; auto. intros x I3. rewrite <- (bump_stk x s2). apply append_top; auto; [simpl; rewrite app_length, bump_stk; simpl; lia|simpl; rewrite app_length, bump_stk; simpl; lia|].
      apply GR_push; [rewrite bump_stk; lia|]. apply GR_bump; auto. }
    unfold bind at 1 in P. unfold bind at 1. destruct (copy_of (LS q) s2) as [y s2'|m s3|k|]; simpl in P |- *; auto;
      [unfold bind at 1; destruct (scoped y (fun r => append (LS j) r) s2') as [u s3|m s3|k|]; simpl in P |- *; auto|].
    + destruct P as (I3 & Fp & _). pose proof (proj1 (proj2 Fp)) as E. eapply fine_st; [|apply fine_temp; [apply le_n|]]; [lia|].
      eapply post_any, post_yield; [apply yields_copy_of; [eauto|apply okU_LS]|exact I3].
    + destruct P as (H & Fp). split; auto. pose proof (proj1 (proj2 Fp)). lia.
    + destruct P as (H & Fp). split; auto. pose proof (proj1 (proj2 Fp)). lia.
  - destruct K as [K1 K2]. eapply fine_bind; [apply IHe; auto|].
    intros v s1 I1 L1 (j & -> & Lj) E1. specialize (K2 _ _ E1).
    pose proof (fine_temp ee (length (stk s)) s1 (let! y := copy_of (LS j) in scoped y (fun r => new_view sh r))) as FT.
    rewrite <- bind_assoc in FT. apply FT; auto. apply new_view_copied; auto.
Qed.

(** * Statements *)
Definition two_recv (nv : nat) (e f : expr) (s : state) (g : state -> nat -> Prop) : Prop :=
  ok_eval nv e s /\ (forall j s1, eval nv e s = ROk (LS j) s1 -> ok_eval nv f s1 /\ at_recv (eval nv f) s1 (fun s2 _ => g s2 j)).
Fixpoint ok_list (nv : nat) (es : list expr) (s : state) : Prop :=
  match es with
  | [] => True
  | e :: es => ok_eval nv e s /\ (forall p s1, element_of nv e s = ROk p s1 -> ok_list nv es s1)
  end.
Definition ok_stmt (nv : nat) (t : stmt) (s : state) : Prop :=
  match t with
  | SDecl e | SEval e | SClear e | SFill _ e | SOffset e _ | SAdvance e _ => ok_eval nv e s
  | SShape _ e => ok_eval nv e s /\ at_recv (eval nv e) s GI
  | SInit es => ok_list nv es s
  | SEnd => True
  | SAssign e f | SOp _ e f => ok_eval nv f s /\ (forall q s1, eval nv f s = ROk q s1 -> ok_eval nv e s1)
  | SPush e f => two_recv nv e f s GI
  | SInsert e f _ | SAppend e f | SUnshift e f => two_recv nv e f s GR
  | SAppendStr e _ | SResize e _ | SPresize e _ | SArray e => ok_eval nv e s /\ at_recv (eval nv e) s GR
  end.
Fixpoint ok_run (l : list stmt) (s : state) : Prop :=
  match l with
  | [] => True
  | t :: rest => ok_stmt (length (stk s)) t s /\
      match exec t s with
      | ROk _ s' | RThrow _ s' => ok_run rest s'
      | _ => True
      end
  end.
Definition unshifts (t : stmt) : bool := match t with SUnshift _ _ => true | _ => false end.
Definition settled (ee : nat -> nat) (clean : bool) (L : state -> Prop) (r : res unit) : Prop :=
  match r with
  | ROk _ s' => (exists e', INV e' [] s' /\ (clean = true -> e' = ee)) /\ L s'
  | RThrow m s' => (exists e', INV e' [] s' /\ (clean = true -> e' = ee \/ m = unknown_type)) /\ L s'
  | RUB k => k <> UseAfterFree \/ U
  | RStuck => True
  end.
Notation above n := (fun s => n <= length (stk s)).
Lemma settled_post : forall ee cl st s Q (r : res unit), st <= length (stk s) -> post full ee [] s none Q r -> settled ee cl (above st) r.
Proof.
  intros ee cl st s Q r L P. destruct r; simpl in *; auto.
  - destruct P as (I & Fp & _). split; [exists ee; auto|]. rewrite (proj1 (proj2 Fp)). auto.
  - destruct P as ((e' & I & H) & Fp). split; [exists e'; auto|]. rewrite (proj1 (proj2 Fp)). auto.
Qed.
Lemma settled_lossy : forall ee st s (r : res unit), st <= length (stk s) -> lossy s none r -> settled ee false (above st) r.
Proof.
  intros ee st s r L P. destruct r; simpl in *; auto; destruct P as ((e' & I) & E); (split; [exists e'; split; [auto|discriminate]|rewrite E; auto]).
Qed.
Lemma settled_bind : forall ee cl st A Q (m : M A) (f : A -> M unit) s, fine ee st Q (m s) ->
  (forall a s', INV ee [] s' -> st <= length (stk s') -> Q a s' -> m s = ROk a s' -> settled ee cl (above st) (f a s')) ->
  settled ee cl (above st) ((let! a := m in f a) s).
Proof.
  intros ee cl st A Q m f s H K. unfold bind. destruct (m s) eqn:E; simpl in *; auto.
  - destruct H as (H1 & H2 & H3). auto.
  - destruct H as ((e' & H1 & H2) & H3). split; auto. exists e'. auto.
Qed.
Lemma with_copy_lossy : forall ee s q (f : lval -> M unit), INV ee [] s ->
  (forall x, INV ee [] (push_s x (bump x s)) -> lossy (push_s x (bump x s)) none (f (LS (length (stk s))) (push_s x (bump x s)))) ->
  lossy s none (with_copy (LS q) f s).
Proof.
  intros ee s q f I K. unfold with_copy. pose proof (yields_copy_of U (LS q) s (INV_sound _ _ _ I) (okU_LS _ _ _)) as Y.
  unfold bind. unfold yields in Y. destruct (copy_of (LS q) s) as [y s2|m s2|k|]; auto.
  - destruct Y as (-> & Hy & _). eapply lossy_from with (s' := bump y s); [rewrite bump_stk; reflexivity|].
    eapply lossy_scoped; [apply INV_bump; [exact I|exact Hy]|]. rewrite bump_stk. apply K.
  - subst s2. split; eauto.
Qed.
Lemma fine_post : forall ee st s (m : M unit), st <= length (stk s) -> post full ee [] s none anyp (m s) -> fine ee st (fun _ _ => True) (m s).
Proof.
  intros ee st s m L P. destruct (m s) as [u s'|e s'|k|]; simpl in *; auto.
  - destruct P as (I & Fp & _). split; auto. split; auto. pose proof (proj1 (proj2 Fp)). lia.
  - destruct P as (H & Fp). split; auto. pose proof (proj1 (proj2 Fp)). lia.
Qed.
Lemma element_fine : forall e nv ee s, INV ee [] s -> nv <= length (stk s) -> ok_eval nv e s ->
  fine ee (length (stk s)) onstack (element_of nv e s).
Proof.
  intros e nv ee s I L K. unfold element_of. eapply fine_bind; [apply (eval_fine e nv); auto|].
  intros v s1 I1 L1 (j & -> & Lj) E. destruct (named e).
  - apply fine_temp; auto. eapply post_any, post_yield; [apply yields_copy_of; [eauto|apply okU_LS]|auto].
  - simpl. split; auto. split; auto. exists j. auto.
Qed.
Lemma elements_fine : forall es nv ee s, INV ee [] s -> nv <= length (stk s) -> ok_list nv es s ->
  fine ee (length (stk s)) (fun ps s' => Forall (fun p => onstack p s') ps) (elements_of nv es s).
Proof.
  induction es as [|e es IH]; intros nv ee s I L K; simpl; [split; auto|]. destruct K as [K1 K2].
  eapply fine_bind; [apply element_fine; auto|]. intros p s1 I1 L1 (j & -> & Lj) E.
  assert (L2 : nv <= length (stk s1)) by lia. pose proof (IH nv ee s1 I1 L2 (K2 _ _ E)) as F.
  unfold bind. destruct (elements_of nv es s1) as [ps s2|m s2|k|]; simpl in F |- *; auto.
  - destruct F as (F1 & F2 & F3). split; auto. split; [lia|]. constructor; auto. exists j. split; auto. lia.
  - intuition lia.
Qed.
Lemma push_all_post : forall ps ee s r, INV ee [] s -> r < length (stk s) -> Forall (fun p => onstack p s) ps ->
  post full ee [] s none anyp (push_all (LS r) ps s).
Proof.
  induction ps as [|p ps IH]; intros ee s r I L F; cbn [push_all]; [apply post_ret; [auto|exact Logic.I]|].
  inversion F as [|? ? (q & -> & Lq) F2]; subst. eapply post_seq with (Q1 := anyp).
  - apply own_post; auto. intros G _. apply with_copy_top; auto. intros x I1.
    apply push_top; auto; [simpl; rewrite app_length, bump_stk; simpl; lia|]. apply GI_push; [rewrite bump_stk; auto|apply GI_bump; auto].
  - intros u s1 I1 P1 _. pose proof (proj1 (proj2 P1)) as E. apply IH; auto; [lia|].
    eapply Forall_impl; [|exact F2]. intros p (q' & -> & Lq'). exists q'. split; auto. lia.
Qed.
Lemma fill_from_post : forall n ee s r q i, INV ee [] s -> r < length (stk s) -> post full ee [] s none anyp (fill_from (LS r) (LS q) n i s).
Proof.
  induction n as [|n IH]; intros ee s r q i I L; cbn [fill_from]; [apply post_ret; [auto|exact Logic.I]|].
  eapply post_seq with (Q1 := anyp).
  - eapply post_full with (c := loose). apply set_at_copy_post; auto; [apply okU_LS| |apply okU_LS].
    apply covS_cov, covS_all; simpl; auto. intros l; simpl; tauto.
  - intros u s1 I1 P1 _. apply IH; auto. pose proof (proj1 (proj2 P1)) as E. lia.
Qed.
Lemma fill_with_post : forall ee s r n q, INV ee [] s -> r < length (stk s) -> post full ee [] s none anyp (fill_with (LS r) n (LS q) s).
Proof.
  intros ee s r n q I L. unfold fill_with. eapply post_rs; [apply rs_type_of; [eauto|apply okU_LS]|auto|]. intros t _.
  destruct (t =? 0)%Z; [apply post_throw; auto|].
  eapply post_seq with (Q1 := anyp); [apply with_copy_top; auto; intros; apply assign_top; auto|].
  intros u s1 I1 P1 _. pose proof (proj1 (proj2 P1)) as E1.
  eapply post_seq with (Q1 := anyp); [apply own_post; auto; intros _ G; apply resize_top; auto; lia|].
  intros u2 s2 I2 P2 _. pose proof (proj1 (proj2 P2)) as E2. apply fill_from_post; auto. lia.
Qed.
Lemma init_fine : forall ee nv es s, INV ee [] s -> nv <= length (stk s) -> ok_list nv es s ->
  match init_list nv es s with
  | ROk x s' => INV ee [x] s'
  | RThrow m s' => exists e', INV e' [] s' /\ (e' = ee \/ m = unknown_type)
  | RUB k => k <> UseAfterFree \/ U
  | RStuck => True
  end.
Proof.
  intros ee nv es s I L K. unfold init_list. pose proof (elements_fine es nv ee s I L K) as F.
  unfold bind at 1. destruct (elements_of nv es s) as [ps s1|m s1|k|]; simpl in F; auto; [|apply F]. destruct F as (I1 & L1 & F).
  unfold bind at 1. unfold temp. change {| mem := mem s1; rc := rc s1; stk := stk s1 ++ [MNil] |} with (push_s MNil s1).
  assert (I2 : INV ee [] (push_s MNil s1)) by (apply INV_push, INV_add0; auto).
  assert (P : post full ee [] (push_s MNil s1) own anyp ((push_all (LS (length (stk s1))) ps ;; take (LS (length (stk s1)))) (push_s MNil s1))).
  { eapply post_seq with (Q1 := anyp).
    - apply push_all_post; auto; [simpl; rewrite app_length; simpl; lia|]. eapply Forall_impl; [|exact F]. intros p (q & -> & Lq). exists q. split; auto. simpl. rewrite app_length. lia.
    - intros u s2 I3 P2 _. apply take_post; simpl; auto. }
  destruct ((push_all _ ps ;; _) _) as [x s2|m s2|k|]; simpl in P; auto; tauto.
Qed.
Lemma fill_fine : forall ee nv n e s, INV ee [] s -> nv <= length (stk s) -> ok_eval nv e s ->
  match init_fill nv n e s with
  | ROk x s' => INV ee [x] s'
  | RThrow m s' => exists e', INV e' [] s' /\ (e' = ee \/ m = unknown_type)
  | RUB k => k <> UseAfterFree \/ U
  | RStuck => True
  end.
Proof.
  intros ee nv n e s I L K. unfold init_fill. pose proof (eval_fine e nv ee s I L K) as F.
  unfold bind at 1. destruct (eval nv e s) as [p s1|m s1|k|]; simpl in F; auto; [|apply F]. destruct F as (I1 & L1 & (q & -> & Lq)).
  unfold bind at 1. unfold temp. change {| mem := mem s1; rc := rc s1; stk := stk s1 ++ [MNil] |} with (push_s MNil s1).
  assert (I2 : INV ee [] (push_s MNil s1)) by (apply INV_push, INV_add0; auto).
  assert (P : post full ee [] (push_s MNil s1) own anyp ((with_copy (LS q) (fill_with (LS (length (stk s1))) n) ;; take (LS (length (stk s1)))) (push_s MNil s1))).
  { eapply post_seq with (Q1 := anyp).
    - apply with_copy_top; auto. intros x I3. apply fill_with_post; auto. simpl. rewrite app_length, bump_stk. simpl. rewrite app_length. simpl. lia.
    - intros u s2 I3 P2 _. apply take_post; simpl; auto. }
  destruct ((with_copy _ _ ;; _) _) as [x s2|m s2|k|]; simpl in P; auto; tauto.
Qed.
Lemma shape_with_post : forall ee s r sh q, INV ee [] s -> r < length (stk s) -> GI s q -> post full ee [] s none anyp (shape_with (LS r) sh (LS q) s).
Proof.
  intros ee s r sh q I L G. unfold shape_with. rewrite bind_assoc.
  eapply post_bind; [apply new_view_copied; auto|]. intros x s1 I1 P1 _. pose proof (proj1 (proj2 P1)) as E1.
  eapply post_seq with (Q1 := anyp); [eapply post_scoped with (c' := full) (Q := anyp); simpl; auto; intros; apply assign_top; auto|].
  intros u2 s2 I2 P2 _. pose proof (proj1 (proj2 P2)) as E2.
  eapply post_rs; [apply rs_size_of; [eauto|apply okU_LS]|auto|]. intros n _. apply fill_from_post; auto. lia.
Qed.
Lemma shape_fine : forall ee nv sh e s, INV ee [] s -> nv <= length (stk s) -> ok_eval nv e s -> at_recv (eval nv e) s GI ->
  match init_shape nv sh e s with
  | ROk x s' => INV ee [x] s'
  | RThrow m s' => exists e', INV e' [] s' /\ (e' = ee \/ m = unknown_type)
  | RUB k => k <> UseAfterFree \/ U
  | RStuck => True
  end.
Proof.
  intros ee nv sh e s I L K R. unfold init_shape. pose proof (eval_fine e nv ee s I L K) as F.
  unfold bind at 1. destruct (eval nv e s) as [p s1|m s1|k|] eqn:Ev; simpl in F; auto; [|apply F]. destruct F as (I1 & L1 & (q & -> & Lq)).
  specialize (R _ _ Ev).
  unfold bind at 1. unfold temp. change {| mem := mem s1; rc := rc s1; stk := stk s1 ++ [MNil] |} with (push_s MNil s1).
  assert (I2 : INV ee [] (push_s MNil s1)) by (apply INV_push, INV_add0; auto).
  assert (P : post full ee [] (push_s MNil s1) own anyp ((with_copy (LS q) (shape_with (LS (length (stk s1))) sh) ;; take (LS (length (stk s1)))) (push_s MNil s1))).
  { eapply post_seq with (Q1 := anyp).
    - unfold with_copy. eapply post_yields; [apply yields_copy_of; [eauto|apply okU_LS]|auto|]. intros x X Hx I3. cbv beta in X. change (nth_error (stk (push_s MNil s1)) q = Some x) in X.
      eapply post_scoped with (c' := full) (Q := anyp); simpl; auto. intros I4. apply shape_with_post; auto.
      + simpl. rewrite !app_length, bump_stk. simpl. rewrite app_length. simpl. lia.
      + rewrite bump_stk. eapply GI_copy; eauto. apply GI_push; auto.
    - intros u s2 I3 P2 _. apply take_post; simpl; auto. }
  destruct ((with_copy _ _ ;; _) _) as [x s2|m s2|k|]; simpl in P; auto; tauto.
Qed.
Lemma body_settled : forall t nv ee s, INV ee [] s -> nv <= length (stk s) -> ok_stmt nv t s ->
  settled ee (negb (unshifts t)) (above (length (stk s))) (body nv t s).
Proof.
  assert (One : forall nv ee s e (m : lval -> M unit) g,
    INV ee [] s -> nv <= length (stk s) -> ok_eval nv e s -> at_recv (eval nv e) s g ->
    (forall j s1, INV ee [] s1 -> j < length (stk s1) -> g s1 j -> post full ee [] s1 none anyp (m (LS j) s1)) ->
    settled ee true (above (length (stk s))) ((let! v := eval nv e in m v) s)).
  { intros nv ee s e m g I L K R Hm. eapply settled_bind; [apply (eval_fine e nv); auto|].
    intros v s1 I1 L1 (j & -> & Lj) E. eapply settled_post; [exact L1|]. apply Hm; auto. }
  assert (Two : forall nv ee s e f cl (m : lval -> lval -> M unit) g,
    INV ee [] s -> nv <= length (stk s) -> two_recv nv e f s g ->
    (forall j q s1, INV ee [] s1 -> j < length (stk s1) -> q < length (stk s1) -> g s1 j -> settled ee cl (above (length (stk s1))) (m (LS j) (LS q) s1)) ->
    settled ee cl (above (length (stk s))) ((let! v := eval nv e in let! p := eval nv f in m v p) s)).
  { intros nv ee s e f cl m g I L [K1 K2] Hm. eapply settled_bind; [apply (eval_fine e nv); auto|].
    intros v s1 I1 L1 (j & -> & Lj) E. destruct (K2 _ _ E) as [K3 K4].
    assert (L2 : nv <= length (stk s1)) by lia.
    pose proof (eval_fine f nv ee s1 I1 L2 K3) as F. eapply settled_bind; [eapply fine_st; [exact L1|exact F]|].
    intros v2 s2 I2 L3 (q & -> & Lq) E2. specialize (K4 _ _ E2). cbv beta in K4. rewrite E2 in F. destruct F as (_ & L4 & _).
    assert (H : settled ee cl (above (length (stk s2))) (m (LS j) (LS q) s2)) by (apply Hm; auto; lia).
    destruct (m (LS j) (LS q) s2); simpl in *; auto; intuition lia. }
  assert (Grow : forall x s (j : nat), j < length (stk s) -> j < length (stk (push_s x (bump x s)))).
  { intros x s j H. simpl. rewrite app_length, bump_stk. simpl. lia. }
  assert (Gr : forall x s j, j < length (stk s) -> GR s j -> GR (push_s x (bump x s)) j).
  { intros. apply GR_push; [rewrite bump_stk; auto|apply GR_bump; auto]. }
  assert (Gi : forall x s j, j < length (stk s) -> GI s j -> GI (push_s x (bump x s)) j).
  { intros. apply GI_push; [rewrite bump_stk; auto|apply GI_bump; auto]. }
  assert (Gn : forall x s, length (stk s) < length (stk (push_s x (bump x s)))).
  { intros. simpl. rewrite app_length, bump_stk. simpl. lia. }
  destruct t as [e|e f|e|e f|e f i|e f|e str|e f|e n|e n|e|e|op e f|es|n e| |e n|e n|sh e]; intros nv ee s I L K; simpl body; simpl unshifts; simpl negb; simpl in K;
    try (eapply One; [auto|auto|apply K|apply K|]; intros; auto using append_str_top, resize_top, presize_top, array_top; fail).
  - simpl. split; auto. exists ee; auto.
  - destruct K as [K1 K2]. eapply settled_bind; [apply (eval_fine f nv); auto|].
    intros p s1 I1 L1 (q & -> & Lq) E1. specialize (K2 _ _ E1). assert (L2 : nv <= length (stk s1)) by lia.
    eapply settled_bind; [eapply fine_st; [exact L1|apply (eval_fine e nv); auto]|].
    intros v s2 I2 L3 (j & -> & Lj) E2. eapply settled_post; [exact L3|]. apply with_copy_top; auto.
    intros x I3. apply assign_top; auto.
  - eapply (One nv ee s e (fun _ => ret tt) (fun _ _ => True)); auto; [intros ? ? _; exact Logic.I|].
    intros. apply post_ret; [auto|exact Logic.I].
  - eapply (Two nv ee s e f true (fun v p => with_copy p (push v)) GI); auto.
    intros j q s1 I1 Lj Lq G. eapply settled_post; [auto|]. apply with_copy_top; auto. intros x I3. apply push_top; auto.
  - eapply (Two nv ee s e f true (fun v p => with_copy p (fun q => insert v q i)) GR); auto.
    intros j q s1 I1 Lj Lq G. eapply settled_post; [auto|]. apply with_copy_top; auto. intros x I3. apply insert_top; auto.
  - eapply (Two nv ee s e f true (fun v p => with_copy p (append v)) GR); auto.
    intros j q s1 I1 Lj Lq G. eapply settled_post; [auto|]. apply with_copy_top; auto. intros x I3. apply append_top; auto.
  - eapply (Two nv ee s e f false (fun v p => with_copy p (unshift v)) GR); auto.
    intros j q s1 I1 Lj Lq G. eapply settled_lossy; [auto|]. eapply with_copy_lossy; eauto. intros x I3. eapply unshift_loss; eauto.
  - eapply (One nv ee s e clear (fun _ _ => True)); auto; [intros ? ? _; exact Logic.I|].
    intros. apply clear_top; auto.
  - destruct K as [K1 K2]. eapply settled_bind; [apply (eval_fine f nv); auto|].
    intros p s1 I1 L1 (q & -> & Lq) E1. specialize (K2 _ _ E1). assert (L2 : nv <= length (stk s1)) by lia.
    eapply settled_bind; [eapply fine_st; [exact L1|apply (eval_fine e nv); auto]|].
    intros v s2 I2 L3 (j & -> & Lj) E2. eapply settled_post; [exact L3|]. apply with_copy_top; auto.
    intros x I3. apply arith_to_top; auto.
  - simpl. split; auto. exists ee; auto.
  - simpl. split; auto. exists ee; auto.
  - simpl. split; auto. exists ee; auto.
  - eapply (One nv ee s e (fun v => set_offset v n) (fun _ _ => True)); auto; [intros ? ? _; exact Logic.I|].
    intros. apply set_offset_post; auto.
  - eapply (One nv ee s e (fun v => advance v n) (fun _ _ => True)); auto; [intros ? ? _; exact Logic.I|].
    intros. apply advance_post; auto.
  - simpl. split; auto. exists ee; auto.
Qed.
Lemma exec_settled : forall t ee s, INV ee [] s -> ok_stmt (length (stk s)) t s ->
  settled ee (negb (unshifts t)) (fun _ => True) (exec t s).
Proof.
  intros t ee s I K. unfold exec.
  assert (Fin : settled ee (negb (unshifts t)) (fun _ => True) (finish (length (stk s)) (body (length (stk s)) t) s)).
  { unfold finish. pose proof (body_settled t (length (stk s)) ee s I (le_n _) K) as B.
    destruct (body (length (stk s)) t s) as [u s'|m s'|k|]; simpl in B; auto.
    - destruct B as ((e' & B1 & B2) & B3). destruct (leave_any e' [] s' (length (stk s)) B1) as (s2 & A1 & A2 & A3).
      rewrite A1. simpl. split; auto. exists e'. auto.
    - destruct B as ((e' & B1 & B2) & B3). destruct (leave_any e' [] s' (length (stk s)) B1) as (s2 & A1 & A2 & A3).
      unfold bind. rewrite A1. simpl. split; auto. exists e'. auto. }
  assert (Keep : forall m : M mvar,
    match m s with
    | ROk x s' => INV ee [x] s'
    | RThrow m s' => exists e', INV e' [] s' /\ (e' = ee \/ m = unknown_type)
    | RUB k => k <> UseAfterFree \/ U
    | RStuck => True
    end -> settled ee true (fun _ => True) (keep_value (length (stk s)) m s)).
  { intros m P. unfold keep_value. destruct (m s) as [x s2|k s2|k|]; simpl in P; auto.
    - destruct (leave_any ee [x] s2 (length (stk s)) P) as (s3 & A1 & A2 & A3).
      unfold bind at 1. rewrite A1. simpl. split; auto. exists ee. split; auto.
      change (INV ee [] (push_s x s3)). apply INV_push. auto.
    - destruct P as (e' & B1 & B2). destruct (leave_any e' [] s2 (length (stk s)) B1) as (s3 & A1 & A2 & A3).
      unfold bind. rewrite A1. simpl. split; auto. exists e'. auto. }
  destruct t; auto.
  - unfold declare. apply Keep. simpl in K. pose proof (eval_fine e (length (stk s)) ee s I (le_n _) K) as F.
    unfold bind at 1. destruct (eval (length (stk s)) e s) as [v s1|m s1|k|]; simpl in F; auto.
    + destruct F as (I1 & L1 & (j & -> & Lj)).
      assert (P : post full ee [] s1 own anyp ((if named e then copy_of (LS j) else take (LS j)) s1)).
      { assert (P1 : post full ee [] s1 own anyp (copy_of (LS j) s1)).
        { eapply post_any, post_yield; [apply yields_copy_of; [eauto|apply okU_LS]|auto]. }
        assert (P2 : post full ee [] s1 own anyp (take (LS j) s1)) by (apply take_post; simpl; auto).
        destruct (named e); auto. }
      destruct ((if named e then copy_of (LS j) else take (LS j)) s1) as [x s2|m s2|k|]; simpl in P; auto; tauto.
    + apply F.
  - apply Keep. apply init_fine; auto.
  - apply Keep. apply fill_fine; auto.
  - destruct (leave_any ee [] s (length (stk s) - 1) I) as (s3 & A1 & A2 & A3). rewrite A1. simpl. split; auto. exists ee; auto.
  - destruct K as [K1 K2]. apply Keep. apply shape_fine; auto.
Qed.
Lemma run_settled : forall l ee s, INV ee [] s -> ok_run l s ->
  settled ee false (fun _ => True) (run l s).
Proof.
  induction l; intros ee s I K; simpl.
  - split; auto. exists ee. auto.
  - destruct K as [K1 K2]. pose proof (exec_settled a ee s I K1) as E. destruct (exec a s) as [u s'|m s'|k|]; simpl in E; auto.
    + destruct E as ((e' & E1 & _) & _). specialize (IHl e' s' E1 K2). destruct (run l s'); simpl in *; auto;
        destruct IHl as ((e2 & H & _) & _); (split; auto; exists e2; split; auto; discriminate).
    + destruct E as ((e' & E1 & _) & _). specialize (IHl e' s' E1 K2). destruct (run l s'); simpl in *; auto;
        destruct IHl as ((e2 & H & _) & _); (split; auto; exists e2; split; auto; discriminate).
Qed.
(** No statement loses references. *)
Fixpoint careful (l : list stmt) (s : state) : Prop :=
  match l with
  | [] => True
  | t :: rest => unshifts t = false /\
      match exec t s with
      | ROk _ s' => careful rest s'
      | RThrow m s' => m <> unknown_type /\ careful rest s'
      | _ => True
      end
  end.
Lemma run_exact : forall l ee s s' u, INV ee [] s -> ok_run l s -> careful l s -> run l s = ROk u s' -> INV ee [] s'.
Proof.
  induction l; intros ee s s' u I K C R; simpl in *.
  - inversion R; subst; auto.
  - destruct K as [K1 K2]. destruct C as [C1 C2]. pose proof (exec_settled a ee s I K1) as E. rewrite C1 in E.
    destruct (exec a s) as [u1 s1|m s1|k|]; simpl in E; try discriminate.
    + destruct E as ((e' & E1 & E2) & _). rewrite (E2 eq_refl) in E1. eauto.
    + destruct E as ((e' & E1 & E2) & _). destruct C2 as [C2 C3]. destruct (E2 eq_refl); [subst e'; eauto|contradiction].
Qed.
Lemma start_INV : INV (fun _ => 0) [] start.
Proof.
  split; [split; simpl; auto|split; auto].
  - intros l. destruct l; reflexivity.
  - intros l o H. destruct l; discriminate.
Qed.
End Run.

(** With [U] true nothing is asked of the program. *)
Lemma ok_eval_any : forall e nv s, ok_eval True nv e s.
Proof.
  induction e as [n| |x|str|e IHe i|e1 IHe1 e2 IHe2|e IHe i|e IHe|e IHe|e IHe|e IHe i|e IHe sh off|e1 IHe1 e2 IHe2|e IHe i|op e1 IHe1 e2 IHe2|e1 IHe1 e2 IHe2|e1 IHe1 e2 IHe2|sh e IHe]; intros nv s; simpl; auto; try (split; [auto|]; intros j s1 E; left; exact Logic.I).
  all: split; auto; intros j s1 E; split; auto; intros j' s2 E2; left; exact Logic.I.
Qed.
Lemma ok_stmt_any : forall t nv s, ok_stmt True nv t s.
Proof.
  assert (T : forall nv e f s (g : state -> nat -> Prop), (forall s j, g s j) -> two_recv True nv e f s g).
  { intros nv e f s g H. split; [apply ok_eval_any|]. intros j s1 E. split; [apply ok_eval_any|]. intros j' s2 _. apply H. }
  assert (Li : forall es nv s, ok_list True nv es s).
  { induction es as [|e es IH]; intros nv s; simpl; auto. split; [apply ok_eval_any|]. auto. }
  destruct t as [e|e f|e|e f|e f i|e f|e str|e f|e n|e n|e|e|op e f|es|n e| |e n|e n|sh e]; intros nv s; simpl; auto using ok_eval_any; try (apply T; intros; left; exact Logic.I);
    (split; [apply ok_eval_any|]); try (intros ? ? ?; left; exact Logic.I); intros; apply ok_eval_any.
Qed.
Lemma ok_run_any : forall l s, ok_run True l s.
Proof. induction l; intros s; simpl; auto. split; [apply ok_stmt_any|]. destruct (exec a s); auto. Qed.
