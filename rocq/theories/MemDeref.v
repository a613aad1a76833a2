(** Dereferencing and [at] as equations. *)
From Coq Require Import ZArith Bool List String Lia.
From Verif Require Import Base StrModel ValModel NumModel AllocModel EqProof MemModel MemProof MemFun MemEq.
Import ListNotations.
Local Open Scope list_scope.
Local Open Scope mem_scope.
Local Notation length := List.length.

(** * Conversions and comparisons touch no memory *)
Lemma cast_no_uaf : forall t x, no_uaf (cast t x).
Proof.
  intros t x. unfold no_uaf.
  assert (Z : forall z, cast_Z t z <> UB UseAfterFree) by (destruct t; discriminate).
  assert (F : forall f, cast_F t f <> UB UseAfterFree).
  { intros f. destruct t; simpl; try discriminate; destruct (float_trunc f); try discriminate;
      destruct ((_ <=? _)%Z && _)%bool; discriminate. }
  assert (S : forall l, cast_str t l <> UB UseAfterFree).
  { intros l. unfold cast_str. destruct (match t with TChar => _ | _ => _ end); discriminate. }
  unfold cast. destruct t, x as [|z|z|z|z|z|u z|z|z1 z2 z3]; try discriminate; auto; destruct u; try discriminate; auto.
Qed.
Lemma vneq_no_uaf : forall a b, no_uaf (vneq a b).
Proof.
  unfold no_uaf. induction a using val_ind2; intros b; simpl;
    (destruct (negb _); [discriminate|]); (destruct (negb _); [discriminate|]); try discriminate.
  - generalize (own_elems b). induction H; simpl; [discriminate|]. intros m.
    destruct (negb (vdefined b)); [discriminate|]. destruct m; [discriminate|].
    specialize (H v). unfold obind. destruct (vneq x v) as [[]| | |]; try discriminate; auto; try congruence.
  - generalize (own_elems b). induction H; simpl; [discriminate|]. intros m. destruct x as [k x].
    destruct (negb (vdefined b)); [discriminate|]. destruct m; [discriminate|].
    destruct H as [_ H]. specialize (H v). simpl in H. unfold obind. destruct (vneq x v) as [[]| | |]; try discriminate; auto; try congruence.
  - generalize (own_elems b). induction d; simpl; [discriminate|]. intros m.
    destruct (negb (vdefined b)); [discriminate|]. destruct m; [discriminate|].
    match goal with |- context [if ?c then Ok true else _] => destruct c; [discriminate|] end. apply IHd.
Qed.
Lemma vlt_no_uaf : forall a b, no_uaf (vlt a b).
Proof.
  unfold no_uaf. induction a using val_ind2; intros b; simpl;
    (destruct (negb _); [discriminate|]); try discriminate;
    (destruct (negb _); [discriminate|]);
    try (match goal with |- context [if ?c then Ok (strcmp_lt _ _) else _] => destruct c; [discriminate|] end).
  - generalize (own_elems b) as m. match goal with |- context [Z.to_nat (Z.min ?a ?c)] => generalize (Z.to_nat (Z.min a c)) as n end.
    induction H; intros [|n] m; simpl; try discriminate.
    destruct m; [discriminate|].
    specialize (H v). unfold obind. destruct (vlt x v) as [[]| | |]; try discriminate; auto; try congruence.
  - generalize (own_elems b) as m. match goal with |- context [Z.to_nat (Z.min ?a ?c)] => generalize (Z.to_nat (Z.min a c)) as n end.
    induction H; intros [|n] m; simpl; try discriminate; destruct x as [k x].
    destruct m; [discriminate|].
    destruct H as [_ H]. specialize (H v). simpl in H. unfold obind.
    destruct (vlt x v) as [[]| | |]; try discriminate; auto; try congruence.
  - generalize (own_elems b) as m. match goal with |- context [Z.to_nat (Z.min ?a ?c)] => generalize (Z.to_nat (Z.min a c)) as n end.
    induction d; intros [|n] m; simpl; try discriminate. destruct m; [discriminate|].
    match goal with |- context [if ?c then Ok true else _] => destruct c; [discriminate|] end. apply IHd.
Qed.
Lemma alloc_no_uaf : forall n, no_uaf (allocSize n).
Proof.
  assert (A : forall f a b, alloc_loop f a b <> UB UseAfterFree).
  { induction f; simpl; intros; try discriminate. destruct (0 <? a)%Z; auto. discriminate. }
  intros n. unfold no_uaf, allocSize. destruct (n <? 0)%Z; [discriminate|].
  match goal with |- context [(?a <=? 2)%Z] => destruct (a <=? 2)%Z end; [discriminate|apply A].
Qed.
Section Tolerant.
Variable U : Prop.
Lemma rs_cast_var : forall s t p, sound s -> okU U p s -> rs U (cast_var t p) s (fun _ => True).
Proof.
  intros s t p S K. unfold cast_var. apply rs_assoc. eapply rs_bind; [apply rs_get_eff; auto|].
  intros x [E H].
  assert (V : rs U (let! y := value x in lift (cast t y)) s (fun _ => True)).
  { eapply rs_bind; [apply rs_value; auto|]. intros.
    eapply rs_weaken; [apply rs_lift; apply cast_no_uaf|auto]. }
  destruct x; auto. eapply rs_bind; [apply rs_get_obj; apply H; reflexivity|]. intros o O.
  destruct (h_view o); [apply rs_stuck|]. destruct (h_ty o) as [[]|]; auto; apply rs_stuck.
Qed.
Lemma rs_get_as : forall s t p, sound s -> okU U p s -> rs U (get_as t p) s (fun _ => True).
Proof.
  intros s t p S K. unfold get_as. apply rs_assoc. eapply rs_bind; [apply rs_get_eff; auto|].
  intros x [E H]. destruct x; try (apply rs_ub; discriminate).
  - destruct (ety_eqb _ _); [apply rs_ret; auto|apply rs_ub; discriminate].
  - eapply rs_bind; [apply rs_get_obj; apply H; reflexivity|]. intros o O. cbv beta in O.
    eapply rs_bind; [eapply rs_obj_type; eauto|]. intros [u|] _; [|apply rs_stuck].
    destruct (ety_eqb u t); [|apply rs_ub; discriminate].
    eapply rs_bind; [apply rs_read_elem; auto; apply H; reflexivity|]. intros x _.
    destruct x; try apply rs_stuck. apply rs_ret; auto.
Qed.
Lemma rs_same_shape : forall o o' n d s, rs U (same_shape o o' n d) s (fun _ => True).
Proof.
  induction n; intros; simpl; [apply rs_ret; auto|].
  eapply rs_bind; [apply rs_shape|]. intros.
  eapply rs_bind with (Q := fun _ => True); [destruct (h_view o'); [apply rs_shape|apply rs_throw]|]. intros.
  destruct (_ =? _)%Z; [apply IHn|apply rs_ret; auto].
Qed.
Lemma rs_copyable : forall s l h, sound s -> live l s -> (forall k, h = Some k -> live k s) ->
  rs U (copyable l h) s (fun _ => True).
Proof.
  intros s l h S L H. unfold copyable. eapply rs_bind; [apply rs_get_obj; auto|]. intros o O. cbv beta in O.
  destruct (h_view o) eqn:V; [|apply rs_ret; auto]. destruct h as [k|]; [|apply rs_ret; auto].
  eapply rs_bind; [apply rs_get_obj; auto|]. intros o' O'. cbv beta in O'.
  eapply rs_bind; [eapply rs_obj_type; eauto|]. intros. eapply rs_bind; [eapply rs_obj_type; eauto|]. intros.
  destruct (negb _); [apply rs_ret; auto|]. destruct (negb _); [apply rs_ret; auto|].
  destruct (Nat.eqb _ _); [|apply rs_same_shape].
  eapply rs_bind; [apply rs_obj_size|]. intros. eapply rs_bind; [apply rs_obj_size|]. intros.
  apply rs_ret. auto.
Qed.
Lemma rs_key_ptr : forall s this i, sound s -> okU U this s ->
  rs U (key_ptr this i) s (fun k => exists l o j, k = LK l (h_gen o) j /\ eff_of this s (MPtr l) /\ obj l s = Some o /\ h_ty o = HPair).
Proof.
  intros s this i S K. unfold key_ptr. eapply rs_bind; [apply rs_heap_of; auto|].
  intros h (x & E & Hx & ->). destruct x; try (apply rs_ub; discriminate).
  eapply rs_bind; [apply rs_get_obj; apply Hx; reflexivity|]. intros o O. cbv beta in O.
  destruct (h_ty o) eqn:Ty; [apply rs_throw|]. destruct (_ || _)%bool; [apply rs_throw|].
  apply rs_ret. eauto 10.
Qed.
Lemma rs_type_for : forall s v, rs U (type_for v) s (fun _ => True).
Proof.
  intros. unfold type_for. destruct v; try (apply rs_ret; auto); try apply rs_stuck. apply rs_ub; discriminate.
Qed.
Lemma rs_new_cells : forall s t n, rs U (new_cells t n) s (fun c => forall k, cell_occ k c = 0).
Proof.
  intros. unfold new_cells. eapply rs_bind; [apply rs_lift; apply alloc_no_uaf|]. intros c _.
  destruct (_ <? _)%Z; [apply rs_ub; discriminate|]. apply rs_ret. intros k.
  unfold terminate. destruct (is_char t); [|apply occ_fresh].
  destruct (Nat.ltb_spec n (length (repeat (fresh t) (Z.to_nat c)))).
  - apply ne_some in H as [x Hx].
    pose proof (cell_occ_sn k _ _ _ (MNil, NUL) Hx) as E. rewrite occ_fresh in E. simpl in E. unfold occ1 in E. simpl in E. lia.
  - rewrite sn_none by auto. apply occ_fresh.
Qed.

End Tolerant.

(** * Computing with counts *)
Lemma held_drop : forall v w s, held v (drop w s) <-> held v s.
Proof. intros. unfold held. split; intros; eapply (live_drop w s); eauto. Qed.
Lemma len_bump : forall v s, length (rc s) = length (mem s) -> length (rc (bump v s)) = length (mem (bump v s)).
Proof. intros. rewrite bump_rc_length, bump_mem. auto. Qed.
Lemma len_drop : forall v s, length (rc s) = length (mem s) -> length (rc (drop v s)) = length (mem (drop v s)).
Proof. intros. rewrite drop_rc_length, drop_mem. auto. Qed.
(** The count of [l] as a function of bumps and drops. *)
Ltac counts :=
  repeat first
    [ rewrite rcount_drop by (repeat first [assumption | apply len_drop | apply len_bump | (apply held_drop) | (apply held_bump)])
    | rewrite rcount_bump by (repeat first [assumption | apply len_drop | apply len_bump | (apply held_drop) | (apply held_bump)]) ].
Lemma occ1_same : forall l v, target v = Some l -> occ1 l v = 1.
Proof. intros. unfold occ1. rewrite H, Nat.eqb_refl. reflexivity. Qed.
Lemma occ1_target : forall v w l, target v = target w -> occ1 l v = occ1 l w.
Proof. intros. unfold occ1. rewrite H. reflexivity. Qed.
Lemma occ1_ref : forall l k i, occ1 l (MRef k i) = occ1 l (MPtr k).
Proof. reflexivity. Qed.
Lemma bump_target : forall v w s, target v = target w -> bump v s = bump w s.
Proof. intros. unfold bump. rewrite H. reflexivity. Qed.
Lemma drop_target : forall v w s, target v = target w -> drop v s = drop w s.
Proof. intros. unfold drop. rewrite H. reflexivity. Qed.
Lemma drop_bump_swap : forall v w s, cnt_ok s -> held v s -> held w s -> shared w s ->
  drop w (bump v s) = bump v (drop w s).
Proof.
  intros v w s [L P] Hv Hw Sh. apply state_eq; rewrite ?drop_mem, ?bump_mem, ?drop_mem, ?drop_stk, ?bump_stk, ?drop_stk; auto.
  apply rc_eq. { rewrite drop_rc_length, !bump_rc_length, drop_rc_length. auto. }
  intros l. counts.
  unfold occ1 at 2 3. destruct (target w) as [k|] eqn:T; [|lia].
  destruct (Nat.eqb_spec k l); [|lia]. subst. destruct (Sh l T). lia.
Qed.
(** Dropping undoes an earlier bump of the same array. *)
Lemma drop_bump_ref : forall v w x s, cnt_ok s -> held v s -> held x s -> target w = target v ->
  drop w (bump x (bump v s)) = bump x s.
Proof.
  intros v w x s C Hv Hx T.
  assert (Hw : held w s) by (unfold held in *; rewrite T; auto).
  pose proof C as [L P].
  apply state_eq; rewrite ?drop_mem, ?bump_mem, ?drop_stk, ?bump_stk; auto.
  apply rc_eq. { rewrite drop_rc_length, !bump_rc_length. auto. }
  intros l. counts. rewrite (occ1_target w v l T). lia.
Qed.

(** * dereference *)
Definition nonref (x : mvar) : Prop := forall l i, x <> MRef l i.
Lemma deref_nonref : forall this s x, getv this s = Some x -> nonref x -> dereference this s = ROk this s.
Proof.
  intros. unfold dereference, bind. rewrite (get_eq _ _ _ H). destruct x; try reflexivity.
  exfalso. eapply H0; eauto.
Qed.
(** Replacing the content of a var, when the old content is held elsewhere too. *)
Lemma replace_eq : forall this x old s, getv this s = Some old -> cnt_ok s -> held x s ->
  replace this x s = release [old] (bump x (putv this x s)).
Proof.
  intros. unfold replace, bind. rewrite (get_eq _ _ _ H), (put_eq _ _ _ _ H).
  rewrite attach_eq by (apply held_putv; auto). reflexivity.
Qed.
Lemma rcount_putv : forall l v x s, rcount l (putv v x s) = rcount l s.
Proof. intros. unfold rcount. rewrite putv_rc. reflexivity. Qed.
Lemma putv_drop : forall v x w s, putv v x (drop w s) = drop w (putv v x s).
Proof.
  intros. unfold drop. destruct (target w); auto. rewrite rcount_putv. unfold upd_rc.
  destruct v; simpl; auto.
  - unfold put_cell, obj; simpl. destruct (nth_error (mem s) l) as [[o|]|]; auto.
    destruct (nth_error (h_cells o) i); auto.
  - unfold put_cell, obj; simpl. destruct (nth_error (mem s) l) as [[o|]|]; auto.
    destruct (nth_error (h_cells o) i); auto.
Qed.

Lemma under_len : forall v s s', length (stk s') = length (stk s) -> under v s -> under v s'.
Proof. destruct v; simpl; intros; auto; lia. Qed.

Lemma deref_var_eq : forall this s l i o x,
  getv this s = Some (MRef l i) -> obj l s = Some o -> plain_vars o = true ->
  lval_eqb (LC l (h_gen o) i) this = false ->
  getv (LC l (h_gen o) i) s = Some x -> nonref x -> cnt_ok s -> held x s -> 2 <= rcount l s ->
  dereference this s = ROk (LC l (h_gen o) i) (drop (MPtr l) (bump x (putv this x s))).
Proof.
  intros this s l i o x G O P Ne Gr Nr C Hx R2.
  assert (Hl : held (MPtr l) s) by (intros k T; inversion T; subst; apply live_obj; eauto).
  unfold dereference, bind at 1. rewrite (get_eq _ _ _ G).
  unfold bind at 1. rewrite (get_obj_eq _ _ _ O), P, Ne.
  unfold bind at 1. rewrite (put_eq _ _ _ _ G).
  set (s1 := putv this (MPtr l) s).
  assert (G1 : getv (LC l (h_gen o) i) s1 = Some x).
  { unfold s1. rewrite (getv_putv_other this _ _ _ _ G); auto. congruence. }
  assert (H1 : held x s1) by (apply held_putv; auto).
  unfold copy_of. unfold bind at 1 2. rewrite (get_eq _ _ _ G1).
  unfold bind at 1. rewrite (attach_eq _ _ H1). unfold ret at 1.
  set (S := putv this x s).
  assert (CS : cnt_ok S) by (apply cnt_putv; auto).
  assert (HS : held x S) by (apply held_putv; auto).
  assert (HlS : held (MPtr l) S) by (apply held_putv; auto).
  assert (RS : rcount l S = rcount l s) by apply rcount_putv.
  assert (U : under this (bump x s1)).
  { apply (under_len this s); [|eapply getv_under; eauto]. rewrite bump_stk. apply putv_stk_length. }
  assert (Gt : getv this (push_s x (bump x s1)) = Some (MPtr l)).
  { rewrite getv_push by auto. rewrite getv_bump. eapply getv_putv_same; eauto. }
  assert (E1 : putv this x (push_s x (bump x s1)) = push_s x (bump x S)).
  { rewrite putv_push by auto. rewrite putv_bump. unfold s1. rewrite putv_twice. reflexivity. }
  unfold bind at 1.
  rewrite (scoped_ok _ x _ (bump x s1) tt x (drop (MPtr l) (bump x (bump x S))) (drop (MPtr l) (bump x S))).
  - reflexivity.
  - unfold bind at 1. rewrite (get_eq _ _ _ (getv_push_new x (bump x s1))).
    unfold bind at 1. rewrite (replace_eq _ _ _ _ Gt).
    + rewrite E1, bump_push. rewrite release_drop.
      * rewrite drop_push. unfold bind.
        assert (Gf : getv this (push_s x (drop (MPtr l) (bump x (bump x S)))) = Some x).
        { rewrite getv_push; [rewrite getv_drop, !getv_bump; eapply getv_putv_same; eauto|].
          apply (under_len this s); [|eapply getv_under; eauto].
          rewrite drop_stk, !bump_stk. apply putv_stk_length. }
        rewrite (get_eq _ _ _ Gf). destruct x; try reflexivity. exfalso. eapply Nr; eauto.
      * intros k T. inversion T; subst k. split.
        { apply live_push. apply live_bump. apply live_bump. apply HlS. reflexivity. }
        change (2 <= rcount l (bump x (bump x S))).
        destruct CS as [LS0 PS]. counts. lia.
    + apply cnt_push. apply cnt_bump; [apply cnt_putv; auto|auto].
    + apply held_push. apply held_bump. auto.
  - rewrite drop_stk, !bump_stk. unfold S, s1. rewrite !putv_stk_length. reflexivity.
  - rewrite release_drop.
    + f_equal. pose proof CS as [LS0 PS].
      apply state_eq; rewrite ?drop_mem, ?bump_mem, ?drop_stk, ?bump_stk; auto.
      apply rc_eq. { rewrite !drop_rc_length, !bump_rc_length. auto. }
      intros k. counts.
      unfold occ1 at 3 6. simpl. destruct (Nat.eqb_spec l k); [subst; lia|lia].
    + intros k T. split. { apply live_drop, live_bump, live_bump. auto. }
      pose proof CS as [LS0 PS]. counts. rewrite !(occ1_same k x T).
      unfold occ1. simpl. destruct (Nat.eqb_spec l k); [subst; lia|]. specialize (PS k (HS k T)). lia.
Qed.
Lemma deref_dense_eq : forall this s l i o x,
  getv this s = Some (MRef l i) -> obj l s = Some o -> plain_vars o = false ->
  read_elem l (Z.of_nat i) s = ROk x s -> cnt_ok s -> held x s -> 2 <= rcount l s ->
  dereference this s = ROk this (drop (MPtr l) (bump x (putv this x s))).
Proof.
  intros this s l i o x G O P R C Hx R2.
  unfold dereference, bind at 1. rewrite (get_eq _ _ _ G).
  unfold bind at 1. rewrite (get_obj_eq _ _ _ O), P.
  unfold bind at 1. rewrite R. unfold bind. rewrite (replace_eq _ _ _ _ G); auto.
  assert (HS : held x (putv this x s)) by (apply held_putv; auto).
  rewrite (drop_target (MPtr l) (MRef l i)) by reflexivity.
  rewrite release_drop; auto.
  intros k T. inversion T; subst k. split.
  { apply live_bump, live_putv, live_obj. eauto. }
  pose proof (cnt_putv this x s C) as [LS0 PS]. rewrite rcount_bump; auto. rewrite rcount_putv. lia.
Qed.

Lemma read_elem_bump : forall l i v s, read_elem l i (bump v s) =
  match read_elem l i s with ROk x _ => ROk x (bump v s) | RThrow m _ => RThrow m (bump v s) | RUB k => RUB k | RStuck => RStuck end.
Proof.
  intros. unfold read_elem, elem_at, bind, get_obj. rewrite bump_mem.
  destruct (nth_error (mem s) l) as [[o|]|]; auto. unfold ret, own_int, ub, stuck.
  destruct (h_view o) as [t|]; auto.
  - destruct (nth_error (h_cells o) 0) as [[a b]|]; auto. destruct b as [|b|b|? ?| |]; auto. destruct b as [|z|z|z|z|z|? ?|?|? ? ?]; auto.
    destruct (i + z <? 0)%Z; auto. rewrite ?bump_mem. destruct (nth_error (mem s) t) as [[o'|]|]; auto.
    destruct (nth_error (h_cells o') _) as [[c d]|]; auto. destruct d; auto; destruct (varlike (h_ty o')); auto.
  - destruct (i <? 0)%Z; auto. rewrite ?bump_mem. destruct (nth_error (mem s) l) as [[o'|]|]; auto.
    destruct (nth_error (h_cells o') _) as [[c d]|]; auto. destruct d; auto; destruct (varlike (h_ty o')); auto.
Qed.
Lemma read_elem_push : forall l i v s, read_elem l i (push_s v s) =
  match read_elem l i s with ROk x _ => ROk x (push_s v s) | RThrow m _ => RThrow m (push_s v s) | RUB k => RUB k | RStuck => RStuck end.
Proof.
  intros. unfold read_elem, elem_at, bind, get_obj. simpl.
  destruct (nth_error (mem s) l) as [[o|]|]; auto. unfold ret, own_int, ub, stuck.
  destruct (h_view o) as [t|]; auto.
  - destruct (nth_error (h_cells o) 0) as [[a b]|]; auto. destruct b as [|b|b|? ?| |]; auto. destruct b as [|z|z|z|z|z|? ?|?|? ? ?]; auto.
    destruct (i + z <? 0)%Z; auto. simpl. destruct (nth_error (mem s) t) as [[o'|]|]; auto.
    destruct (nth_error (h_cells o') _) as [[c d]|]; auto. destruct d; auto; destruct (varlike (h_ty o')); auto.
  - destruct (i <? 0)%Z; auto. simpl. destruct (nth_error (mem s) l) as [[o'|]|]; auto.
    destruct (nth_error (h_cells o') _) as [[c d]|]; auto. destruct d; auto; destruct (varlike (h_ty o')); auto.
Qed.

(** The var that [v] denotes, read out of a dense array if need be. *)
Definition der_spec (v : mvar) (s : state) (x : mvar) : Prop :=
  match v with
  | MRef l i => exists o, obj l s = Some o /\
      if plain_vars o
      then exists k, nth_error (h_cells o) i = Some (k, x) /\ nonref x
      else read_elem l (Z.of_nat i) s = ROk x s
  | _ => x = v
  end.
Lemma get_oob : forall l i s o, obj l s = Some o -> nth_error (h_cells o) i = None ->
  get (LC l (h_gen o) i) s = RUB OutOfBounds.
Proof.
  intros. simpl. unfold bind. rewrite (get_obj_eq _ _ _ H), Nat.eqb_refl. simpl. rewrite H0. reflexivity.
Qed.
(** Dereferencing a copy that has its own count. *)
Lemma deref_copy : forall v s, sound s -> held v s ->
  match dereference (LS (length (stk s))) (push_s v (bump v s)) with
  | ROk _ s' => exists x, s' = push_s x (bump x s) /\ held x s /\ der_spec v s x
  | RThrow _ _ => False
  | RUB k => k <> UseAfterFree
  | RStuck => True
  end.
Proof.
  intros v s S H. pose proof S as (C & _ & Sc).
  assert (Cb : cnt_ok (push_s v (bump v s))) by (apply cnt_push, cnt_bump; auto).
  assert (Sb : sound (push_s v (bump v s))).
  { apply sound_push; [apply sound_bump; auto|]. apply held_bump; auto. }
  assert (G : getv (LS (length (stk s))) (push_s v (bump v s)) = Some v).
  { rewrite <- (bump_stk v s). apply getv_push_new. }
  destruct v as [|y|l|l i| |].
  1-3,5-6: rewrite (deref_nonref _ _ _ G) by (intros ? ? ?; discriminate); eexists; split; [reflexivity|]; split; auto; reflexivity.
  assert (L : live l s) by (apply H; reflexivity).
  apply live_obj in L as [o O].
  assert (Ob : obj l (push_s (MRef l i) (bump (MRef l i) s)) = Some o) by (rewrite obj_push, obj_bump; auto).
  assert (R2 : 2 <= rcount l (push_s (MRef l i) (bump (MRef l i) s))).
  { change (2 <= rcount l (bump (MRef l i) s)). destruct C as [CL CP]. rewrite rcount_bump; auto.
    rewrite occ1_same by reflexivity. specialize (CP l (H l eq_refl)). lia. }
  assert (Fin : forall x, held x s ->
     drop (MPtr l) (bump x (putv (LS (length (stk s))) x (push_s (MRef l i) (bump (MRef l i) s)))) = push_s x (bump x s)).
  { intros x Hx. rewrite <- (bump_stk (MRef l i) s). rewrite putv_push_new, bump_push, drop_push.
    rewrite (drop_bump_ref (MRef l i)); auto. }
  destruct (plain_vars o) eqn:P.
  - destruct (nth_error (h_cells o) i) as [[k x]|] eqn:N.
    + assert (Gr : getv (LC l (h_gen o) i) (push_s (MRef l i) (bump (MRef l i) s)) = Some x).
      { simpl. rewrite Ob, Nat.eqb_refl, N. reflexivity. }
      assert (Hx : held x s) by (eapply Sc; eauto; eapply in_contents_snd; eauto).
      assert (Dx : nonref x -> match dereference (LS (length (stk s))) (push_s (MRef l i) (bump (MRef l i) s)) with
        | ROk _ s' => exists x, s' = push_s x (bump x s) /\ held x s /\ der_spec (MRef l i) s x
        | RThrow _ _ => False
        | RUB k => k <> UseAfterFree
        | RStuck => True
        end).
      { intros Nr. erewrite deref_var_eq; [|exact G|exact Ob|exact P|reflexivity|exact Gr|exact Nr|exact Cb| |exact R2].
        - exists x. split; [apply Fin; auto|]. split; auto. exists o. split; auto. rewrite P. eauto.
        - apply held_push, held_bump. auto. }
      destruct x as [|y|l'|l' i'| |]; try (apply Dx; intros ? ? ?; discriminate).
      (* a reference in a cell *)
      assert (E : dereference (LS (length (stk s))) (push_s (MRef l i) (bump (MRef l i) s)) = RStuck).
      { unfold dereference, bind at 1. rewrite (get_eq _ _ _ G).
        unfold bind at 1. rewrite (get_obj_eq _ _ _ Ob), P.
        change (lval_eqb (LC l (h_gen o) i) (LS (length (stk s)))) with false. cbv iota.
        unfold bind at 1. rewrite (put_eq _ _ _ _ G).
        rewrite <- (bump_stk (MRef l i) s). rewrite putv_push_new.
        set (s1 := bump (MRef l i) s). rewrite (bump_stk (MRef l i) s : stk s1 = stk s).
        assert (G1 : getv (LC l (h_gen o) i) (push_s (MPtr l) s1) = Some (MRef l' i')).
        { simpl in *. exact Gr. }
        assert (H1 : held (MRef l' i') s1) by (apply held_bump; auto).
        unfold copy_of. unfold bind at 1 2. rewrite (get_eq _ _ _ G1).
        unfold bind at 1. rewrite attach_eq by (apply held_push; auto). unfold ret at 1.
        rewrite bump_push. unfold bind at 1. unfold scoped.
        set (s2 := bump (MRef l' i') s1).
        change {| mem := mem (push_s (MPtr l) s2); rc := rc (push_s (MPtr l) s2); stk := stk (push_s (MPtr l) s2) ++ [MRef l' i'] |}
          with (push_s (MRef l' i') (push_s (MPtr l) s2)).
        unfold bind at 1. rewrite (get_eq _ _ _ (getv_push_new (MRef l' i') (push_s (MPtr l) s2))).
        assert (E2 : stk s2 = stk s) by (unfold s2, s1; rewrite !bump_stk; auto).
        assert (Gt : getv (LS (length (stk s))) (push_s (MRef l' i') (push_s (MPtr l) s2)) = Some (MPtr l)).
        { rewrite <- E2. rewrite getv_push; [apply getv_push_new|]. simpl. rewrite app_length. simpl. lia. }
        assert (C1 : cnt_ok s1) by (apply cnt_bump; auto).
        assert (C2 : cnt_ok s2) by (apply cnt_bump; auto).
        unfold bind at 1. rewrite (replace_eq _ _ _ _ Gt).
        - rewrite release_drop.
          + unfold bind. rewrite (get_eq _ _ (MRef l' i')); [reflexivity|].
            rewrite getv_drop, getv_bump. eapply getv_putv_same; eauto.
          + intros k' T. inversion T; subst k'. split.
            { apply live_bump, live_putv, live_push, live_push, live_bump, live_bump. apply live_obj. eauto. }
            rewrite rcount_bump.
            * rewrite rcount_putv. change (2 <= rcount l s2 + occ1 l (MRef l' i')).
              unfold s2. destruct C1 as [CL1 _]. rewrite rcount_bump; auto. 
              unfold s1. destruct C as [CL CP]. rewrite rcount_bump; auto. rewrite (occ1_same l (MRef l i)) by reflexivity.
              specialize (CP l (H l eq_refl)). lia.
            * rewrite putv_rc, putv_mem_length. apply C2.
            * apply held_putv, held_push, held_push, held_bump. auto.
        - apply cnt_push, cnt_push. auto.
        - apply held_push, held_push, held_bump. auto. }
      rewrite E. exact I.
    + assert (E : dereference (LS (length (stk s))) (push_s (MRef l i) (bump (MRef l i) s)) = RUB OutOfBounds).
      { unfold dereference, bind at 1. rewrite (get_eq _ _ _ G).
        unfold bind at 1. rewrite (get_obj_eq _ _ _ Ob), P.
        change (lval_eqb (LC l (h_gen o) i) (LS (length (stk s)))) with false. cbv iota.
        unfold bind at 1. rewrite (put_eq _ _ _ _ G).
        unfold copy_of, bind. rewrite (get_oob l i _ o); auto. }
      rewrite E. discriminate.
  - pose proof (rs_read_elem False s l (Z.of_nat i) S (H l eq_refl)) as R. unfold rs in R.
    assert (Rb : read_elem l (Z.of_nat i) (push_s (MRef l i) (bump (MRef l i) s)) =
       match read_elem l (Z.of_nat i) s with ROk x _ => ROk x (push_s (MRef l i) (bump (MRef l i) s))
       | RThrow m _ => RThrow m (push_s (MRef l i) (bump (MRef l i) s)) | RUB k => RUB k | RStuck => RStuck end).
    { rewrite read_elem_push, read_elem_bump. destruct (read_elem l (Z.of_nat i) s); reflexivity. }
    destruct (read_elem l (Z.of_nat i) s) as [x s'|m s'|k|] eqn:E.
    + destruct R as [-> Hx]. erewrite deref_dense_eq; [|exact G|exact Ob|exact P|exact Rb|exact Cb| |exact R2].
      * exists x. split; [apply Fin; auto|]. split; auto. exists o. rewrite P. auto.
      * apply held_push, held_bump. auto.
    + exfalso. unfold read_elem, elem_at, bind in E. rewrite (get_obj_eq _ _ _ O) in E.
      unfold ret, own_int, ub, stuck, get_obj in E.
      destruct (h_view o) as [t|].
      * destruct (nth_error (h_cells o) 0) as [[a b]|]; try discriminate. destruct b as [|b|b|? ?| |]; try discriminate.
        destruct b as [|z|z|z|z|z|? ?|?|? ? ?]; try discriminate.
        destruct (Z.of_nat i + z <? 0)%Z; try discriminate. destruct (nth_error (mem s) t) as [[o'|]|]; try discriminate.
        destruct (nth_error (h_cells o') _) as [[c d]|]; try discriminate. destruct d; try discriminate; destruct (varlike (h_ty o')); discriminate.
      * destruct (Z.of_nat i <? 0)%Z; try discriminate. destruct (nth_error (mem s) l) as [[o'|]|]; try discriminate.
        destruct (nth_error (h_cells o') _) as [[c d]|]; try discriminate. destruct d; try discriminate; destruct (varlike (h_ty o')); discriminate.
    + unfold dereference, bind at 1. rewrite (get_eq _ _ _ G).
      unfold bind at 1. rewrite (get_obj_eq _ _ _ Ob), P. unfold bind at 1. rewrite Rb. tauto.
    + unfold dereference, bind at 1. rewrite (get_eq _ _ _ G).
      unfold bind at 1. rewrite (get_obj_eq _ _ _ Ob), P. unfold bind at 1. rewrite Rb. exact I.
Qed.

(** * Values under way *)
Section Tolerant2.
Variable U : Prop.
(** The result is a new holder and nothing else has changed. *)
Definition yields (m : M mvar) (s : state) (Q : mvar -> Prop) : Prop :=
  match m s with
  | ROk a s' => s' = bump a s /\ held a s /\ Q a
  | RThrow _ s' => s' = s
  | RUB k => k <> UseAfterFree \/ U
  | RStuck => True
  end.
Lemma yields_copy_of : forall v s, sound s -> okU U v s ->
  yields (copy_of v) s (fun x => getv v s = Some x).
Proof.
  intros v s S K. unfold yields, copy_of, bind. pose proof (rs_get U v s K) as R. unfold rs in R.
  destruct (get v s) as [x s'|m s'|k|] eqn:E; auto.
  - destruct R as [-> G]. assert (H : held x s) by (eapply getv_held; eauto).
    rewrite attach_eq by auto. simpl. auto.
Qed.
(** [reference]: the result holds the array that [this] holds. *)
Lemma yields_reference : forall v s i, sound s -> okU U v s ->
  yields (reference v i) s (fun a => exists x l, getv v s = Some x /\ target x = Some l /\
     a = if (0 <=? i)%Z then MRef l (Z.to_nat i) else MPtr l).
Proof.
  intros v s i S K. unfold yields, reference, bind at 1.
  pose proof (rs_type_of U s v S K) as R. unfold rs in R.
  destruct (type_of v s) as [t s'|m s'|k|]; auto.
  - destruct R as [-> _]. destruct (negb (t =? 0)%Z); [reflexivity|].
    unfold bind at 1. pose proof (yields_copy_of v s S K) as Y. unfold yields in Y.
    destruct (copy_of v s) as [x s'|m s'|k|]; auto. destruct Y as (-> & H & G).
    assert (HR : forall l, target x = Some l ->
       match ((if (0 <=? i)%Z then ret (MRef l (Z.to_nat i)) else if (i =? -1)%Z then ret (MPtr l) else stuck) : M mvar) (bump x s) with
       | ROk a s' => s' = bump a s /\ held a s /\ (exists x l, getv v s = Some x /\ target x = Some l /\
     a = if (0 <=? i)%Z then MRef l (Z.to_nat i) else MPtr l)
       | RThrow _ s' => s' = s
       | RUB k => k <> UseAfterFree \/ U
       | RStuck => True
       end).
    { intros l T. assert (Hl : forall a, target a = Some l -> held a s) by (intros a Ta k Tk; apply H; congruence).
      destruct (0 <=? i)%Z.
      - simpl. split; [apply bump_target; simpl; auto|]. split; [apply Hl; reflexivity|]. eauto.
      - destruct (i =? -1)%Z; [|exact I]. simpl. split; [apply bump_target; auto|]. split; [apply Hl; reflexivity|]. eauto. }
    destruct x; try (left; discriminate); apply HR; reflexivity.
Qed.
Lemma yields_at : forall this s i, sound s -> okU U this s ->
  yields (at_int this i) s (fun a => exists v x, getv this s = Some v /\ der_spec v s x /\
    (target a = target x /\ (a = x \/ exists l, target x = Some l /\ a = if (0 <=? i)%Z then MRef l (Z.to_nat i) else MPtr l))).
Proof.
  intros this s i S K. unfold yields, at_int, bind at 1.
  pose proof (yields_copy_of this s S K) as Y. unfold yields in Y.
  destruct (copy_of this s) as [v s'|m s'|k|]; auto. destruct Y as (-> & H & G).
  unfold scoped. fold (push_s v (bump v s)). rewrite (bump_stk v s).
  pose proof (deref_copy v s S H) as D. unfold bind at 1.
  destruct (dereference (LS (length (stk s))) (push_s v (bump v s))) as [r s'|m s'|k|]; auto; [|contradiction].
  destruct D as (x & -> & Hx & Dx).
  assert (Sx : sound (push_s x (bump x s))).
  { apply sound_push; [apply sound_bump; auto|]. apply held_bump; auto. }
  assert (Gx : getv (LS (length (stk s))) (push_s x (bump x s)) = Some x).
  { rewrite <- (bump_stk x s). apply getv_push_new. }
  assert (C : cnt_ok s) by apply S.
  assert (Thr : forall A m, (leave (length (stk s));; @throw A m) (push_s x (bump x s)) = RThrow m s).
  { intros. unfold bind. rewrite <- (bump_stk x s). rewrite (leave_eq x _ (ROk tt s)); auto. apply release_bump; auto. }
  unfold bind at 1. pose proof (rs_defined U _ (LS (length (stk s))) Sx (or_introl I)) as R1. unfold rs in R1.
  destruct (defined (LS (length (stk s))) (push_s x (bump x s))) as [d s'|m s'|k|]; auto.
  2:{ subst s'. rewrite Thr. reflexivity. }
  destruct R1 as [-> _]. destruct (negb d).
  { unfold throw at 1. rewrite Thr. reflexivity. }
  unfold bind at 1. pose proof (rs_type_of U _ (LS (length (stk s))) Sx (or_introl I)) as R2. unfold rs in R2.
  destruct (type_of (LS (length (stk s))) (push_s x (bump x s))) as [t s'|m s'|k|]; auto.
  2:{ subst s'. rewrite Thr. reflexivity. }
  destruct R2 as [-> _]. destruct (t =? 0)%Z.
  - pose proof (yields_reference (LS (length (stk s))) _ i Sx (or_introl I)) as Y. unfold yields in Y.
    destruct (reference (LS (length (stk s))) i (push_s x (bump x s))) as [a s'|m s'|k|]; auto.
    + destruct Y as (-> & Ha & y & l & Gy & Ty & Ea). rewrite Gx in Gy. inversion Gy; subst y.
      assert (Ta : target a = target x) by (subst a; rewrite Ty; destruct (0 <=? i)%Z; reflexivity).
      rewrite (bump_target a x) by auto. rewrite bump_push.
      unfold bind. rewrite <- (bump_stk x s), <- (bump_stk x (bump x s)).
      rewrite (leave_eq x _ (ROk tt (bump x s))).
      * simpl. split; [apply bump_target; auto|]. split; [intros k Tk; apply Hx; congruence|].
        exists v, x. split; auto. split; auto. split; auto. right. exists l. auto.
      * apply release_bump; [apply cnt_bump; auto|apply held_bump; auto].
    + subst s'. rewrite Thr. reflexivity.
  - destruct (i =? 0)%Z.
    + unfold take, bind at 1. rewrite (get_eq _ _ _ Gx). unfold bind at 1. rewrite (put_eq _ _ _ _ Gx).
      unfold ret at 1. rewrite <- (bump_stk x s). rewrite putv_push_new.
      unfold bind. rewrite (leave_eq MNil _ (ROk tt (bump x s))); [|apply release_drop; intros k Tk; discriminate].
      simpl. split; auto. split; auto. exists v, x. auto.
    + unfold throw at 1. rewrite Thr. reflexivity.
Qed.
End Tolerant2.
