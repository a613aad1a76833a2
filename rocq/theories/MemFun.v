(** Equations for the basic memory operations. *)
From Coq Require Import ZArith Bool List String Lia.
From Verif Require Import Base StrModel ValModel NumModel AllocModel MemModel MemProof.
Import ListNotations.
Local Open Scope list_scope.
Local Open Scope mem_scope.
Local Notation length := List.length.

(** * Reading and writing vars as functions *)
Definition obj (l : nat) (s : state) : option hobj :=
  match nth_error (mem s) l with Some (Some o) => Some o | _ => None end.
Lemma obj_live : forall l s o, obj l s = Some o <-> nth_error (mem s) l = Some (Some o).
Proof.
  intros. unfold obj. destruct (nth_error (mem s) l) as [[o'|]|]; split; intros; try congruence.
Qed.
Lemma live_obj : forall l s, live l s <-> exists o, obj l s = Some o.
Proof. intros. unfold live. split; intros [o H]; exists o; apply obj_live; auto. Qed.
Lemma get_obj_eq : forall l s o, obj l s = Some o -> get_obj l s = ROk o s.
Proof. intros. unfold get_obj. apply obj_live in H. rewrite H. reflexivity. Qed.

Definition getv (v : lval) (s : state) : option mvar :=
  match v with
  | LS i => nth_error (stk s) i
  | LC l g i => match obj l s with
                | Some o => if Nat.eqb (h_gen o) g then option_map snd (nth_error (h_cells o) i) else None
                | None => None
                end
  | LK l g i => match obj l s with
                | Some o => if Nat.eqb (h_gen o) g then option_map fst (nth_error (h_cells o) i) else None
                | None => None
                end
  end.
Definition set_mem (l : nat) (o : hobj) (s : state) : state :=
  {| mem := set_nth (mem s) l (Some o); rc := rc s; stk := stk s |}.
Definition put_cell (l i : nat) (f : mvar * mvar -> mvar * mvar) (s : state) : state :=
  match obj l s with
  | Some o => match nth_error (h_cells o) i with
              | Some c => set_mem l (set_cells o (set_nth (h_cells o) i (f c))) s
              | None => s
              end
  | None => s
  end.
Definition putv (v : lval) (x : mvar) (s : state) : state :=
  match v with
  | LS i => {| mem := mem s; rc := rc s; stk := set_nth (stk s) i x |}
  | LC l _ i => put_cell l i (fun c => (fst c, x)) s
  | LK l _ i => put_cell l i (fun c => (x, snd c)) s
  end.

Lemma get_eq : forall v s x, getv v s = Some x -> get v s = ROk x s.
Proof.
  intros v s x H. destruct v as [i|l g i|l g i]; simpl in *.
  - rewrite H. reflexivity.
  - destruct (obj l s) as [o|] eqn:O; [|discriminate]. unfold bind. rewrite (get_obj_eq _ _ _ O).
    destruct (Nat.eqb (h_gen o) g); [|discriminate]. simpl.
    destruct (nth_error (h_cells o) i) as [[a b]|]; [|discriminate]. inversion H; subst. reflexivity.
  - destruct (obj l s) as [o|] eqn:O; [|discriminate]. unfold bind. rewrite (get_obj_eq _ _ _ O).
    destruct (Nat.eqb (h_gen o) g); [|discriminate]. simpl.
    destruct (nth_error (h_cells o) i) as [[a b]|]; [|discriminate]. inversion H; subst. reflexivity.
Qed.
Lemma get_inv : forall v s x s', get v s = ROk x s' -> s' = s /\ getv v s = Some x.
Proof.
  intros v s x s' H. destruct v as [i|l g i|l g i]; simpl in *; unfold bind, get_obj, obj in *.
  - destruct (nth_error (stk s) i); inversion H; auto.
  - destruct (nth_error (mem s) l) as [[o|]|]; try discriminate.
    destruct (Nat.eqb (h_gen o) g); [|discriminate]. simpl in *.
    destruct (nth_error (h_cells o) i) as [[a b]|]; inversion H; auto.
  - destruct (nth_error (mem s) l) as [[o|]|]; try discriminate.
    destruct (Nat.eqb (h_gen o) g); [|discriminate]. simpl in *.
    destruct (nth_error (h_cells o) i) as [[a b]|]; inversion H; auto.
Qed.
Lemma get_throw : forall v s m s', get v s <> RThrow m s'.
Proof.
  intros v s m s' H. destruct v as [i|l g i|l g i]; simpl in *; unfold bind, get_obj in *.
  - destruct (nth_error (stk s) i); inversion H; auto.
  - destruct (nth_error (mem s) l) as [[o|]|]; try discriminate.
    destruct (Nat.eqb (h_gen o) g); [|discriminate]. simpl in *.
    destruct (nth_error (h_cells o) i) as [[a b]|]; inversion H; auto.
  - destruct (nth_error (mem s) l) as [[o|]|]; try discriminate.
    destruct (Nat.eqb (h_gen o) g); [|discriminate]. simpl in *.
    destruct (nth_error (h_cells o) i) as [[a b]|]; inversion H; auto.
Qed.
Lemma put_eq : forall v s x y, getv v s = Some x -> put v y s = ROk tt (putv v y s).
Proof.
  intros v s x y H. destruct v as [i|l g i|l g i]; simpl in *.
  - apply ne_lt in H. apply Nat.ltb_lt in H. rewrite H. reflexivity.
  - destruct (obj l s) as [o|] eqn:O; [|discriminate]. unfold bind, put_cell. rewrite (get_obj_eq _ _ _ O), O.
    destruct (Nat.eqb (h_gen o) g); [|discriminate]. simpl.
    destruct (nth_error (h_cells o) i) as [[a b]|]; [|discriminate]. reflexivity.
  - destruct (obj l s) as [o|] eqn:O; [|discriminate]. unfold bind, put_cell. rewrite (get_obj_eq _ _ _ O), O.
    destruct (Nat.eqb (h_gen o) g); [|discriminate]. simpl.
    destruct (nth_error (h_cells o) i) as [[a b]|]; [|discriminate]. reflexivity.
Qed.

(** * Effects of [set_mem] and [putv] *)
Lemma obj_lt : forall l s o, obj l s = Some o -> l < length (mem s).
Proof. intros. apply obj_live in H. eapply ne_lt; eauto. Qed.
Lemma obj_set_mem : forall l o s k, l < length (mem s) ->
  obj k (set_mem l o s) = if Nat.eqb l k then Some o else obj k s.
Proof.
  intros. unfold obj, set_mem. simpl. destruct (Nat.eqb_spec l k).
  - subst. rewrite sn_same; auto.
  - rewrite sn_other; auto.
Qed.
Lemma set_mem_twice : forall l o o' s, set_mem l o' (set_mem l o s) = set_mem l o' s.
Proof. intros. unfold set_mem. simpl. rewrite sn_twice. reflexivity. Qed.
Lemma set_mem_id : forall l o s, obj l s = Some o -> set_mem l o s = s.
Proof. intros. unfold set_mem. rewrite sn_id; [destruct s; reflexivity|]. apply obj_live; auto. Qed.

Lemma obj_put_cell : forall l i f s k,
  obj k (put_cell l i f s) =
  match obj k s with
  | Some o => if Nat.eqb l k
              then Some (match nth_error (h_cells o) i with
                         | Some c => set_cells o (set_nth (h_cells o) i (f c))
                         | None => o
                         end)
              else Some o
  | None => None
  end.
Proof.
  intros. unfold put_cell. destruct (Nat.eqb_spec l k).
  - subst k. destruct (obj l s) as [o|] eqn:O; auto.
    destruct (nth_error (h_cells o) i) as [c|] eqn:C; auto.
    rewrite obj_set_mem by (eapply obj_lt; eauto). rewrite Nat.eqb_refl. reflexivity.
  - destruct (obj l s) as [o|] eqn:O; [|destruct (obj k s); auto].
    destruct (nth_error (h_cells o) i) as [c|] eqn:C; [|destruct (obj k s); auto].
    rewrite obj_set_mem by (eapply obj_lt; eauto).
    replace (Nat.eqb l k) with false by (symmetry; apply Nat.eqb_neq; auto).
    destruct (obj k s); auto.
Qed.
Lemma put_cell_mem_length : forall l i f s, length (mem (put_cell l i f s)) = length (mem s).
Proof.
  intros. unfold put_cell. destruct (obj l s); auto. destruct (nth_error (h_cells h) i); auto.
  simpl. apply sn_length.
Qed.
Lemma put_cell_rc : forall l i f s, rc (put_cell l i f s) = rc s.
Proof. intros. unfold put_cell. destruct (obj l s); auto. destruct (nth_error (h_cells h) i); auto. Qed.
Lemma put_cell_stk : forall l i f s, stk (put_cell l i f s) = stk s.
Proof. intros. unfold put_cell. destruct (obj l s); auto. destruct (nth_error (h_cells h) i); auto. Qed.
Lemma put_cell_twice : forall l i f g h s, (forall c, g (f c) = h c) ->
  put_cell l i g (put_cell l i f s) = put_cell l i h s.
Proof.
  intros. unfold put_cell at 1. rewrite obj_put_cell. destruct (obj l s) as [o|] eqn:O.
  - rewrite Nat.eqb_refl. destruct (nth_error (h_cells o) i) as [c|] eqn:C.
    + simpl. rewrite sn_same by (eapply ne_lt; eauto).
      unfold put_cell. rewrite O, C. unfold set_cells. simpl.
      rewrite set_mem_twice, sn_twice, H. reflexivity.
    + rewrite C. unfold put_cell. rewrite O, C. reflexivity.
  - unfold put_cell. rewrite O. reflexivity.
Qed.

Lemma putv_rc : forall v x s, rc (putv v x s) = rc s.
Proof. destruct v; intros; simpl; auto using put_cell_rc. Qed.
Lemma putv_mem_length : forall v x s, length (mem (putv v x s)) = length (mem s).
Proof. destruct v; intros; simpl; auto using put_cell_mem_length. Qed.
Lemma putv_stk_length : forall v x s, length (stk (putv v x s)) = length (stk s).
Proof. destruct v; intros; simpl; auto using sn_length; rewrite put_cell_stk; auto. Qed.
Lemma putv_twice : forall v x y s, putv v y (putv v x s) = putv v y s.
Proof.
  destruct v; intros; simpl.
  - rewrite sn_twice. reflexivity.
  - apply put_cell_twice. reflexivity.
  - apply put_cell_twice. reflexivity.
Qed.
Lemma getv_putv_same : forall v x y s, getv v s = Some y -> getv v (putv v x s) = Some x.
Proof.
  destruct v; intros; simpl in *.
  - apply sn_same. eapply ne_lt; eauto.
  - rewrite obj_put_cell. destruct (obj l s) as [o|]; [|discriminate]. rewrite Nat.eqb_refl.
    destruct (nth_error (h_cells o) i) as [c|] eqn:C; [|destruct (Nat.eqb (h_gen o) g); discriminate].
    simpl. destruct (Nat.eqb (h_gen o) g); [|discriminate]. rewrite sn_same; auto. eapply ne_lt; eauto.
  - rewrite obj_put_cell. destruct (obj l s) as [o|]; [|discriminate]. rewrite Nat.eqb_refl.
    destruct (nth_error (h_cells o) i) as [c|] eqn:C; [|destruct (Nat.eqb (h_gen o) g); discriminate].
    simpl. destruct (Nat.eqb (h_gen o) g); [|discriminate]. rewrite sn_same; auto. eapply ne_lt; eauto.
Qed.
(** Two locations that both exist are different when the lvalues are. *)
Lemma getv_putv_other : forall v w x y s, getv v s = Some y -> getv w s <> None -> lval_eqb w v = false ->
  getv w (putv v x s) = getv w s.
Proof.
  intros v w x y s H H' E.
  destruct v as [i|l g i|l g i], w as [j|k h j|k h j]; simpl in *; auto;
    rewrite ?put_cell_stk, ?obj_put_cell; auto.
  - apply sn_other. apply Nat.eqb_neq in E. congruence.
  - destruct (obj k s) as [o|] eqn:O; auto. destruct (Nat.eqb_spec l k); auto. subst l.
    rewrite O in H. destruct (nth_error (h_cells o) i) as [c|] eqn:C; auto. simpl.
    destruct (Nat.eqb_spec (h_gen o) g); [|discriminate]. destruct (Nat.eqb_spec (h_gen o) h); [|congruence].
    subst g h. rewrite !Nat.eqb_refl in E. simpl in E. apply Nat.eqb_neq in E. rewrite sn_other; congruence.
  - destruct (obj k s) as [o|] eqn:O; auto. destruct (Nat.eqb_spec l k); auto. subst l.
    destruct (nth_error (h_cells o) i) as [c|] eqn:C; auto. simpl.
    destruct (Nat.eqb (h_gen o) h); auto. destruct (Nat.eq_dec i j).
    + subst j. rewrite sn_same by (eapply ne_lt; eauto). rewrite C. reflexivity.
    + rewrite sn_other; auto.
  - destruct (obj k s) as [o|] eqn:O; auto. destruct (Nat.eqb_spec l k); auto. subst l.
    destruct (nth_error (h_cells o) i) as [c|] eqn:C; auto. simpl.
    destruct (Nat.eqb (h_gen o) h); auto. destruct (Nat.eq_dec i j).
    + subst j. rewrite sn_same by (eapply ne_lt; eauto). rewrite C. reflexivity.
    + rewrite sn_other; auto.
  - destruct (obj k s) as [o|] eqn:O; auto. destruct (Nat.eqb_spec l k); auto. subst l.
    rewrite O in H. destruct (nth_error (h_cells o) i) as [c|] eqn:C; auto. simpl.
    destruct (Nat.eqb_spec (h_gen o) g); [|discriminate]. destruct (Nat.eqb_spec (h_gen o) h); [|congruence].
    subst g h. rewrite !Nat.eqb_refl in E. simpl in E. apply Nat.eqb_neq in E. rewrite sn_other; congruence.
Qed.

Lemma obj_putv : forall v x s k o, obj k s = Some o ->
  exists o', obj k (putv v x s) = Some o' /\ h_ty o' = h_ty o /\ h_view o' = h_view o /\
             h_gen o' = h_gen o /\ h_size o' = h_size o /\ length (h_cells o') = length (h_cells o).
Proof.
  intros v x s k o H. destruct v as [i|l g i|l g i]; simpl.
  - exists o. repeat split; auto.
  - rewrite obj_put_cell, H. destruct (Nat.eqb l k); [|exists o; repeat split; auto; fail].
    destruct (nth_error (h_cells o) i); [|exists o; repeat split; auto; fail].
    eexists; split; [reflexivity|]. simpl. rewrite sn_length. repeat split; auto.
  - rewrite obj_put_cell, H. destruct (Nat.eqb l k); [|exists o; repeat split; auto; fail].
    destruct (nth_error (h_cells o) i); [|exists o; repeat split; auto; fail].
    eexists; split; [reflexivity|]. simpl. rewrite sn_length. repeat split; auto.
Qed.
Lemma obj_putv_none : forall v x s k, obj k s = None -> obj k (putv v x s) = None.
Proof.
  intros v x s k H. destruct v as [i|l g i|l g i]; simpl; auto; rewrite obj_put_cell, H; auto.
Qed.
Lemma live_putv : forall v x s k, live k (putv v x s) <-> live k s.
Proof.
  intros. rewrite !live_obj. split; intros [o H].
  - destruct (obj k s) eqn:E; eauto. rewrite (obj_putv_none v x s k E) in H. discriminate.
  - destruct (obj_putv v x s k o H) as (o' & A & _). eauto.
Qed.

(** * Counts *)
Definition cnt_ok (s : state) : Prop :=
  length (rc s) = length (mem s) /\ forall l, live l s -> 0 < rcount l s.
Lemma inv_cnt : forall e F s, Inv e F s -> cnt_ok s.
Proof.
  intros e F s [L H]. split; auto. intros l [o Ho]. specialize (H l). rewrite Ho in H. tauto.
Qed.
Definition upd_rc (l n : nat) (s : state) : state := {| mem := mem s; rc := set_nth (rc s) l n; stk := stk s |}.
Definition bump (v : mvar) (s : state) : state :=
  match target v with Some l => upd_rc l (S (rcount l s)) s | None => s end.
Definition drop (v : mvar) (s : state) : state :=
  match target v with Some l => upd_rc l (pred (rcount l s)) s | None => s end.
Definition held (v : mvar) (s : state) : Prop := forall l, target v = Some l -> live l s.
(** Held by something else too. *)
Definition shared (v : mvar) (s : state) : Prop := forall l, target v = Some l -> live l s /\ 2 <= rcount l s.

Lemma attach_eq : forall v s, held v s -> attach v s = ROk tt (bump v s).
Proof.
  intros v s H. unfold attach, bump. destruct (target v) as [l|] eqn:T; auto.
  specialize (H l T). apply live_obj in H as [o O].
  unfold bind. rewrite (get_obj_eq _ _ _ O). reflexivity.
Qed.
Lemma release_drop : forall v s, shared v s -> release [v] s = ROk tt (drop v s).
Proof.
  intros v s H. unfold release, drop. simpl length. cbn [Nat.add release_loop].
  destruct (target v) as [l|] eqn:T; auto.
  destruct (H l T) as [L R]. destruct L as [o O]. rewrite O.
  unfold rcount in R. unfold upd_rc, rcount.
  destruct (nth l (rc s) 0) as [|[|n]] eqn:E; try lia. reflexivity.
Qed.

Lemma bump_mem : forall v s, mem (bump v s) = mem s.
Proof. intros. unfold bump. destruct (target v); auto. Qed.
Lemma bump_stk : forall v s, stk (bump v s) = stk s.
Proof. intros. unfold bump. destruct (target v); auto. Qed.
Lemma drop_mem : forall v s, mem (drop v s) = mem s.
Proof. intros. unfold drop. destruct (target v); auto. Qed.
Lemma drop_stk : forall v s, stk (drop v s) = stk s.
Proof. intros. unfold drop. destruct (target v); auto. Qed.
Lemma bump_rc_length : forall v s, length (rc (bump v s)) = length (rc s).
Proof. intros. unfold bump. destruct (target v); auto. simpl. apply sn_length. Qed.
Lemma drop_rc_length : forall v s, length (rc (drop v s)) = length (rc s).
Proof. intros. unfold drop. destruct (target v); auto. simpl. apply sn_length. Qed.
Lemma obj_bump : forall v s l, obj l (bump v s) = obj l s.
Proof. intros. unfold obj. rewrite bump_mem. reflexivity. Qed.
Lemma obj_drop : forall v s l, obj l (drop v s) = obj l s.
Proof. intros. unfold obj. rewrite drop_mem. reflexivity. Qed.
Lemma live_bump : forall v s l, live l (bump v s) <-> live l s.
Proof. intros. unfold live. rewrite bump_mem. tauto. Qed.
Lemma live_drop : forall v s l, live l (drop v s) <-> live l s.
Proof. intros. unfold live. rewrite drop_mem. tauto. Qed.
Lemma getv_bump : forall v w s, getv v (bump w s) = getv v s.
Proof. intros. destruct v; simpl; rewrite ?bump_stk, ?obj_bump; auto. Qed.
Lemma getv_drop : forall v w s, getv v (drop w s) = getv v s.
Proof. intros. destruct v; simpl; rewrite ?drop_stk, ?obj_drop; auto. Qed.
Lemma rcount_bump : forall v s l, length (rc s) = length (mem s) -> held v s ->
  rcount l (bump v s) = rcount l s + occ1 l v.
Proof.
  intros v s l L H. unfold bump, occ1. destruct (target v) as [k|] eqn:T; [|lia].
  unfold rcount, upd_rc. simpl. rewrite sn_nth. destruct (Nat.eqb_spec k l); simpl; [|lia].
  subst k. destruct (H l T) as [o O]. apply ne_lt in O.
  replace (Nat.ltb l (length (rc s))) with true by (symmetry; apply Nat.ltb_lt; lia). lia.
Qed.
Lemma rcount_drop : forall v s l, length (rc s) = length (mem s) -> held v s ->
  rcount l (drop v s) = rcount l s - occ1 l v.
Proof.
  intros v s l L H. unfold drop, occ1. destruct (target v) as [k|] eqn:T; [|lia].
  unfold rcount, upd_rc. simpl. rewrite sn_nth. destruct (Nat.eqb_spec k l); simpl; [|lia].
  subst k. destruct (H l T) as [o O]. apply ne_lt in O.
  replace (Nat.ltb l (length (rc s))) with true by (symmetry; apply Nat.ltb_lt; lia). lia.
Qed.
Lemma state_eq : forall s s' : state, mem s = mem s' -> rc s = rc s' -> stk s = stk s' -> s = s'.
Proof. intros [] []; simpl; intros; congruence. Qed.
Lemma rc_eq : forall s s' : state, length (rc s) = length (rc s') ->
  (forall l, rcount l s = rcount l s') -> rc s = rc s'.
Proof. intros. apply (nth_ext _ _ 0 0); auto. intros. apply H0. Qed.
Lemma drop_bump : forall v s, cnt_ok s -> held v s -> drop v (bump v s) = s.
Proof.
  intros v s [L P] H. apply state_eq; rewrite ?drop_mem, ?bump_mem, ?drop_stk, ?bump_stk; auto.
  apply rc_eq. { rewrite drop_rc_length, bump_rc_length. auto. }
  intros l. rewrite rcount_drop.
  - rewrite rcount_bump; auto. lia.
  - rewrite bump_rc_length, bump_mem. auto.
  - intros k T. apply live_bump. auto.
Qed.
Lemma cnt_bump : forall v s, cnt_ok s -> held v s -> cnt_ok (bump v s).
Proof.
  intros v s [L P] H. split. { rewrite bump_rc_length, bump_mem; auto. }
  intros l Hl. apply (proj1 (live_bump _ _ _)) in Hl. rewrite rcount_bump; auto. specialize (P l Hl). lia.
Qed.
Lemma shared_bump : forall v s, cnt_ok s -> held v s -> shared v (bump v s).
Proof.
  intros v s [L P] H l T. split. { apply live_bump. auto. }
  rewrite rcount_bump; auto. unfold occ1. rewrite T, Nat.eqb_refl. specialize (P l (H l T)). lia.
Qed.
Lemma held_bump : forall v w s, held v (bump w s) <-> held v s.
Proof. intros. unfold held. split; intros; eapply (live_bump w s); eauto. Qed.
Lemma release_bump : forall v s, cnt_ok s -> held v s -> release [v] (bump v s) = ROk tt s.
Proof. intros. rewrite release_drop; [rewrite drop_bump; auto|]. apply shared_bump; auto. Qed.

Lemma cnt_putv : forall v x s, cnt_ok s -> cnt_ok (putv v x s).
Proof.
  intros v x s [L P]. split. { rewrite putv_rc, putv_mem_length. auto. }
  intros l Hl. apply (proj1 (live_putv _ _ _ _)) in Hl. unfold rcount in *. rewrite putv_rc. auto.
Qed.
Lemma held_putv : forall v w x s, held v (putv w x s) <-> held v s.
Proof. intros. unfold held. split; intros; eapply (live_putv w x s); eauto. Qed.
Lemma putv_bump : forall v x w s, putv v x (bump w s) = bump w (putv v x s).
Proof.
  intros. assert (R : forall l s, rcount l (putv v x s) = rcount l s).
  { intros. unfold rcount. rewrite putv_rc. auto. }
  unfold bump. destruct (target w); auto. rewrite R. unfold upd_rc.
  destruct v; simpl; auto.
  - unfold put_cell, obj; simpl. destruct (nth_error (mem s) l) as [[o|]|]; auto.
    destruct (nth_error (h_cells o) i); auto.
  - unfold put_cell, obj; simpl. destruct (nth_error (mem s) l) as [[o|]|]; auto.
    destruct (nth_error (h_cells o) i); auto.
Qed.

(** * The stack *)
Definition push_s (v : mvar) (s : state) : state := {| mem := mem s; rc := rc s; stk := stk s ++ [v] |}.
Lemma leave_eq : forall v s s', release [v] s = s' -> leave (length (stk s)) (push_s v s) = s'.
Proof.
  intros. unfold leave, push_s. simpl. rewrite skipn_app, firstn_app, skipn_all, firstn_all, Nat.sub_diag.
  simpl. rewrite app_nil_r. destruct s; auto.
Qed.
Lemma scoped_ok : forall A v (body : lval -> M A) s a v' s1 s2,
  body (LS (length (stk s))) (push_s v s) = ROk a (push_s v' s1) ->
  length (stk s1) = length (stk s) ->
  release [v'] s1 = ROk tt s2 ->
  scoped v body s = ROk a s2.
Proof.
  intros. unfold scoped. fold (push_s v s). rewrite H. unfold bind. rewrite <- H0.
  rewrite (leave_eq v' s1 _ H1). reflexivity.
Qed.
Lemma scoped_throw : forall A v (body : lval -> M A) s m v' s1 s2,
  body (LS (length (stk s))) (push_s v s) = RThrow m (push_s v' s1) ->
  length (stk s1) = length (stk s) ->
  release [v'] s1 = ROk tt s2 ->
  scoped v body s = RThrow m s2.
Proof.
  intros. unfold scoped. fold (push_s v s). rewrite H. unfold bind. rewrite <- H0.
  rewrite (leave_eq v' s1 _ H1). reflexivity.
Qed.
Lemma bump_push : forall v w s, bump v (push_s w s) = push_s w (bump v s).
Proof. intros. unfold bump. destruct (target v); auto. Qed.
Lemma drop_push : forall v w s, drop v (push_s w s) = push_s w (drop v s).
Proof. intros. unfold drop. destruct (target v); auto. Qed.
Lemma obj_push : forall v s l, obj l (push_s v s) = obj l s.
Proof. reflexivity. Qed.
Lemma live_push : forall v s l, live l (push_s v s) <-> live l s.
Proof. unfold live. intros. simpl. tauto. Qed.
Lemma held_push : forall v w s, held v (push_s w s) <-> held v s.
Proof. unfold held. intros. split; intros; eapply (live_push w s); eauto. Qed.
Lemma cnt_push : forall v s, cnt_ok (push_s v s) <-> cnt_ok s.
Proof. unfold cnt_ok. intros. simpl. unfold rcount, live. simpl. tauto. Qed.
Lemma getv_push_new : forall v s, getv (LS (length (stk s))) (push_s v s) = Some v.
Proof. intros. simpl. rewrite nth_error_app2 by lia. rewrite Nat.sub_diag. reflexivity. Qed.
(** An lvalue of the state before the scope. *)
Definition under (v : lval) (s : state) : Prop := match v with LS i => i < length (stk s) | _ => True end.
Lemma getv_under : forall v s x, getv v s = Some x -> under v s.
Proof. destruct v; simpl; intros; auto. eapply ne_lt; eauto. Qed.
Lemma getv_push : forall v w s, under v s -> getv v (push_s w s) = getv v s.
Proof.
  destruct v; simpl; intros; auto. rewrite nth_error_app1; auto.
Qed.
Lemma putv_push : forall v x w s, under v s -> putv v x (push_s w s) = push_s w (putv v x s).
Proof.
  destruct v; simpl; intros; auto.
  - unfold push_s. simpl. f_equal. clear - H. revert i H. induction (stk s); destruct i; simpl; intros; try lia; auto.
    f_equal. apply IHl. lia.
  - unfold put_cell. rewrite obj_push. destruct (obj l s); auto. destruct (nth_error (h_cells h) i); auto.
  - unfold put_cell. rewrite obj_push. destruct (obj l s); auto. destruct (nth_error (h_cells h) i); auto.
Qed.
Lemma putv_push_new : forall x v s, putv (LS (length (stk s))) x (push_s v s) = push_s x s.
Proof.
  intros. unfold push_s. simpl. f_equal. induction (stk s); simpl; auto. f_equal. auto.
Qed.

(** * eff and the accessors are readers *)
(** Does not change the state. *)
Definition reader {A} (m : M A) : Prop := forall s, match m s with
  | ROk _ s' | RThrow _ s' => s' = s
  | _ => True
  end.
Lemma reader_ret : forall A (a : A), reader (ret a). Proof. intros A a s. reflexivity. Qed.
Lemma reader_throw : forall A m, reader (@throw A m). Proof. intros A m s. reflexivity. Qed.
Lemma reader_ub : forall A k, reader (@ub A k). Proof. intros A k s. exact I. Qed.
Lemma reader_stuck : forall A, reader (@stuck A). Proof. intros A s. exact I. Qed.
Lemma reader_bind : forall A B (m : M A) (f : A -> M B), reader m -> (forall a, reader (f a)) -> reader (bind m f).
Proof.
  intros A B m f H K s. specialize (H s). unfold bind. destruct (m s); auto. subst. apply K.
Qed.
Lemma reader_lift : forall A (o : outcome A), reader (lift o).
Proof. destruct o; simpl; intros s; simpl; auto. Qed.
Lemma reader_get_obj : forall l, reader (get_obj l).
Proof. intros l s. unfold get_obj. destruct (nth_error (mem s) l) as [[|]|]; auto. Qed.
Lemma reader_get : forall v, reader (get v).
Proof.
  intros v s. destruct (get v s) eqn:E; auto.
  - apply get_inv in E. tauto.
  - exfalso. eapply get_throw; eauto.
Qed.
Ltac rd := repeat first
  [ apply reader_ret | apply reader_throw | apply reader_ub | apply reader_stuck | apply reader_lift
  | apply reader_get_obj | apply reader_get
  | (apply reader_bind; [|intros]) | progress intros
  | match goal with |- reader (match ?x with _ => _ end) => destruct x end ].
Lemma reader_own_int : forall o i, reader (own_int o i).
Proof. intros o i s. unfold own_int. destruct (nth_error (h_cells o) i) as [[? []]|]; auto. destruct x; auto. Qed.
Lemma reader_shape : forall o i, reader (shape_i o i).
Proof. intros. unfold shape_i. rd. apply reader_own_int. Qed.
Lemma reader_stride : forall o i, reader (stride_i o i).
Proof. intros. unfold stride_i. rd. apply reader_own_int. Qed.
Ltac rd' := repeat (first [apply reader_shape | apply reader_stride | apply reader_own_int] || rd).
Lemma reader_obj_type : forall o, reader (obj_type o).
Proof. intros. unfold obj_type. rd'. Qed.
Lemma reader_obj_size : forall o, reader (obj_size o).
Proof. intros. unfold obj_size. rd'. Qed.
Lemma reader_elem_at : forall l i, reader (elem_at l i).
Proof. intros. unfold elem_at. rd'. Qed.
Lemma reader_read_elem : forall l i, reader (read_elem l i).
Proof. intros. unfold read_elem. apply reader_bind; [apply reader_elem_at|]. rd'. Qed.
Lemma reader_eff : forall v, reader (eff v).
Proof. intros. unfold eff. rd'. Qed.
Ltac rd'' := repeat (first [apply reader_obj_type | apply reader_obj_size | apply reader_read_elem | apply reader_eff] || rd').
Lemma reader_defined : forall v, reader (defined v). Proof. intros. unfold defined. rd''. Qed.
Lemma reader_type_of : forall v, reader (type_of v). Proof. intros. unfold type_of. rd''. Qed.
Lemma reader_size_of : forall v, reader (size_of v). Proof. intros. unfold size_of. rd''. Qed.
Lemma reader_heap_of : forall v, reader (heap_of v). Proof. intros. unfold heap_of. rd''. Qed.
Lemma reader_atype_of : forall v, reader (atype_of v). Proof. intros. unfold atype_of. rd''. Qed.
Lemma reader_is_array_of : forall v c, reader (is_array_of v c).
Proof.
  intros. unfold is_array_of. apply reader_bind; [apply reader_heap_of|]. intros [|]; [|rd].
  apply reader_bind; [apply reader_atype_of|rd].
Qed.
Lemma reader_mapM : forall A B (f : A -> M B) l, (forall a, In a l -> reader (f a)) -> reader (mapM f l).
Proof.
  induction l; simpl; intros; rd; auto.
Qed.
Lemma reader_read_val : forall f v, reader (read_val f v).
Proof.
  induction f; intros; simpl; rd''.
  - apply reader_mapM. intros. apply IHf.
  - apply reader_mapM. intros. rd; apply IHf.
Qed.
Lemma reader_value : forall v, reader (value v).
Proof. intros v s. unfold value. apply reader_read_val. Qed.
Lemma reader_cast_var : forall t p, reader (cast_var t p).
Proof. intros. unfold cast_var. repeat (apply reader_value || rd''). Qed.
Lemma reader_get_as : forall t p, reader (get_as t p).
Proof. intros. unfold get_as. rd''. Qed.
Lemma reader_same_shape : forall o o' n d, reader (same_shape o o' n d).
Proof. induction n; intros; simpl; rd'. apply IHn. Qed.
Lemma reader_copyable : forall l h, reader (copyable l h).
Proof. intros. unfold copyable. repeat (apply reader_same_shape || rd''). Qed.
Lemma reader_key_ptr : forall v i, reader (key_ptr v i).
Proof. intros. unfold key_ptr. apply reader_bind; [apply reader_heap_of|]. intros; rd. Qed.
Lemma reader_type_for : forall v, reader (type_for v).
Proof. intros. unfold type_for. rd. Qed.
Lemma reader_new_cells : forall t n, reader (new_cells t n).
Proof. intros. unfold new_cells. rd. Qed.
Lemma reader_desc_loop : forall l, reader (desc_loop l).
Proof. induction l; simpl; rd. auto. Qed.
