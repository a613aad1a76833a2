(** Reasoning about the memory model: the invariant with typing, footprints, protection
    of objects by other holders, and the rules for sequencing and scopes. *)
From Coq Require Import ZArith Bool List String Lia.
From Verif Require Import Base StrModel ValModel NumModel AllocModel MemModel MemProof MemFun MemEq MemDeref.
Import ListNotations.
Local Open Scope list_scope.
Local Open Scope mem_scope.
Local Notation length := List.length.

(** * The invariant with typing *)
(** Dense arrays hold no handles. *)
Definition dense_ok (o : hobj) : Prop :=
  (varlike (h_ty o) = false -> forall k, cell_occ k (h_cells o) = 0) /\ (h_view o <> None -> h_ty o = HE TInt).
Definition typed (s : state) : Prop := forall l o, obj l s = Some o -> dense_ok o.
(** [e] counts the references lost for good. *)
Definition INV (e : nat -> nat) (F : list mvar) (s : state) : Prop :=
  Inv e F s /\ typed s /\ (forall l, length (mem s) <= l -> e l = 0).

Lemma INV_inv : forall e F s, INV e F s -> Inv e F s.
Proof. intros e F s H. apply H. Qed.
Lemma INV_sound : forall e F s, INV e F s -> sound s.
Proof. intros e F s H. eapply inv_sound. apply H. Qed.
Lemma INV_held : forall e F s v, INV e F s -> In v F -> held v s.
Proof. intros e F s v H. eapply inv_held. apply H. Qed.
#[export] Hint Resolve INV_sound : core.

Lemma occ1_dead : forall v s l, held v s -> obj l s = None -> occ1 l v = 0.
Proof.
  intros v s l H O. unfold occ1. destruct (target v) as [k|] eqn:T; auto.
  destruct (Nat.eqb_spec k l); auto. subst. apply H in T. apply live_obj in T as [o T]. congruence.
Qed.
Lemma tot_bump : forall l F v s, tot l F (bump v s) = tot l F s.
Proof. intros. unfold tot. rewrite bump_mem, bump_stk. reflexivity. Qed.
Lemma typed_mem : forall s s', mem s' = mem s -> typed s -> typed s'.
Proof. intros s s' E H l o O. apply (H l). unfold obj in *. rewrite <- E. auto. Qed.
Lemma inv_bump : forall e F s v, Inv e F s -> held v s -> Inv e (v :: F) (bump v s).
Proof.
  intros e F s v [L H] Hv. split. { rewrite bump_rc_length, bump_mem. auto. }
  intros l. specialize (H l). rewrite bump_mem, tot_bump, rcount_bump by auto.
  pose proof (occ1_dead v s l Hv) as D. unfold obj in D.
  destruct (nth_error (mem s) l) as [[o|]|]; unfold tot in *; simpl; try (rewrite D by reflexivity); lia.
Qed.
Lemma INV_bump : forall e F s v, INV e F s -> held v s -> INV e (v :: F) (bump v s).
Proof.
  intros e F s v (I & T & E) H. split; [apply inv_bump; auto|]. split.
  - eapply typed_mem; [apply bump_mem|auto].
  - rewrite bump_mem. auto.
Qed.
Lemma tot_push : forall l F v s, tot l F (push_s v s) = tot l (v :: F) s.
Proof. intros. unfold tot, push_s. simpl. rewrite occ_app. simpl. lia. Qed.
Lemma inv_push : forall e F s v, Inv e (v :: F) s <-> Inv e F (push_s v s).
Proof.
  intros. unfold Inv. simpl. split; intros [L H]; split; auto; intros l; specialize (H l);
    rewrite tot_push in *; auto.
Qed.
Lemma INV_push : forall e F s v, INV e (v :: F) s <-> INV e F (push_s v s).
Proof.
  intros. unfold INV. rewrite inv_push. unfold typed. simpl. tauto.
Qed.
Lemma INV_perm : forall e F F' s, INV e F s -> (forall l, occ l F' = occ l F) -> INV e F' s.
Proof. intros e F F' s (I & T & E) H. split; auto. eapply inv_perm; eauto. Qed.
Lemma INV_swap : forall e a b F s, INV e (a :: b :: F) s -> INV e (b :: a :: F) s.
Proof. intros. eapply INV_perm; eauto. intros. simpl. lia. Qed.
Lemma INV_drop0 : forall e v F s, INV e (v :: F) s -> target v = None -> INV e F s.
Proof. intros e v F s (I & T & E) H. split; auto. eapply inv_drop0; eauto. Qed.
Lemma INV_add0 : forall e v F s, INV e F s -> target v = None -> INV e (v :: F) s.
Proof. intros e v F s (I & T & E) H. split; auto. eapply inv_add0; eauto. Qed.
Lemma INV_target : forall e v w F s, INV e (v :: F) s -> target w = target v -> INV e (w :: F) s.
Proof. intros. eapply INV_perm; eauto. intros. simpl. rewrite (occ1_target w v); auto. Qed.
(** Losing a reference. *)
Lemma INV_lose : forall e v F s, INV e (v :: F) s -> INV (fun l => e l + occ1 l v) F s.
Proof.
  intros e v F s (I & T & E). pose proof I as [L H]. split; [split; auto|split; auto].
  - intros l. specialize (H l). unfold tot in *. simpl in H. destruct (nth_error (mem s) l) as [[o|]|]; lia.
  - intros l Hl. rewrite (E l Hl). simpl. apply (occ1_dead v s).
    + eapply inv_held; eauto. simpl; auto.
    + unfold obj. apply nth_error_None in Hl. rewrite Hl. reflexivity.
Qed.

Lemma held_target : forall v w s, target v = target w -> held v s -> held w s.
Proof. unfold held. intros v w s E H l T. apply H. congruence. Qed.

(** An lvalue in memory that can hold handles, if its object is still there. *)
Definition tl (v : lval) (s : state) : Prop :=
  match v with
  | LS _ => True
  | LC l _ _ | LK l _ _ => l < length (mem s) /\ forall o, obj l s = Some o -> varlike (h_ty o) = true
  end.
Lemma tl_ok : forall v s x, tl v s -> getv v s = Some x -> ok_lv v s.
Proof.
  intros v s x T G. destruct v as [i|l g i|l g i]; simpl in *; auto;
    (destruct (obj l s) as [o|] eqn:O; [|discriminate]; destruct (Nat.eqb_spec (h_gen o) g); [|discriminate];
     exists o; split; [reflexivity|]; split; [auto|apply T; auto]).
Qed.
Lemma ok_tl : forall v s, ok_lv v s -> tl v s.
Proof.
  intros v s H. destruct v; simpl in *; auto; destruct H as (o & O & G & V);
    (split; [eapply obj_lt; eauto|intros; congruence]).
Qed.

(** * Overwriting *)
Lemma tot_put : forall v x old F s l, getv v s = Some old ->
  tot l (old :: F) (putv v x s) = tot l (x :: F) s.
Proof.
  intros v x old F s k G. unfold tot. destruct v as [i|l g i|l g i]; simpl in *.
  - pose proof (occ_sn k _ _ _ x G). lia.
  - destruct (obj l s) as [o|] eqn:O; [|discriminate]. destruct (Nat.eqb (h_gen o) g); [|discriminate].
    unfold put_cell. rewrite O. destruct (nth_error (h_cells o) i) as [c|] eqn:N; [|discriminate].
    simpl in G. inversion G; subst. simpl. apply obj_live in O.
    pose proof (occm_sn k _ _ _ (Some (set_cells o (set_nth (h_cells o) i (fst c, x)))) O) as A. simpl in A.
    rewrite !occ_contents in A. simpl in A. pose proof (cell_occ_sn k _ _ _ (fst c, x) N) as B. simpl in B. lia.
  - destruct (obj l s) as [o|] eqn:O; [|discriminate]. destruct (Nat.eqb (h_gen o) g); [|discriminate].
    unfold put_cell. rewrite O. destruct (nth_error (h_cells o) i) as [c|] eqn:N; [|discriminate].
    simpl in G. inversion G; subst. simpl. apply obj_live in O.
    pose proof (occm_sn k _ _ _ (Some (set_cells o (set_nth (h_cells o) i (x, snd c)))) O) as A. simpl in A.
    rewrite !occ_contents in A. simpl in A. pose proof (cell_occ_sn k _ _ _ (x, snd c) N) as B. simpl in B. lia.
Qed.
Lemma typed_putv : forall v x s, tl v s -> typed s -> typed (putv v x s).
Proof.
  intros v x s T H. destruct v as [i|l g i|l g i]; simpl in *.
  - exact H.
  - intros k o. rewrite obj_put_cell. destruct (obj k s) as [o1|] eqn:O; [|discriminate].
    destruct (Nat.eqb_spec l k).
    + subst. intros E. pose proof (H _ _ O) as [_ V]. split.
      * intros D. exfalso.
        inversion E; subst. destruct (nth_error (h_cells o1) i); simpl in D; rewrite (proj2 T o1 O) in D; discriminate.
      * inversion E; subst. destruct (nth_error (h_cells o1) i); exact V.
    + intros E. inversion E; subst. eauto.
  - intros k o. rewrite obj_put_cell. destruct (obj k s) as [o1|] eqn:O; [|discriminate].
    destruct (Nat.eqb_spec l k).
    + subst. intros E. pose proof (H _ _ O) as [_ V]. split.
      * intros D. exfalso.
        inversion E; subst. destruct (nth_error (h_cells o1) i); simpl in D; rewrite (proj2 T o1 O) in D; discriminate.
      * inversion E; subst. destruct (nth_error (h_cells o1) i); exact V.
    + intros E. inversion E; subst. eauto.
Qed.
Lemma INV_putv : forall e F s v x old, INV e (x :: F) s -> getv v s = Some old -> tl v s ->
  INV e (old :: F) (putv v x s).
Proof.
  intros e F s v x old (I & T & E) G K. split; [|split].
  - eapply inv_same; eauto using putv_mem_length, putv_rc.
    + intros. rewrite live_putv. tauto.
    + intros. apply tot_put; auto.
  - apply typed_putv; auto.
  - rewrite putv_mem_length. auto.
Qed.

(** * Footprints *)
(** The var at [v] may be written. *)
Definition wr (c : ctx) (v : lval) : Prop :=
  match v with LS j => ~ cK c j | LC l _ _ | LK l _ _ => cX c l end.
Lemma fp_mem : forall c s s', mem s' = mem s -> stk s' = stk s -> fp c s s'.
Proof.
  intros c s s' M S. unfold fp. rewrite M, S. repeat split; auto. intros. exists o'. split; auto. apply obj_rel_refl.
Qed.
Lemma fp_bump : forall c v s, fp c s (bump v s).
Proof. intros. apply fp_mem; [apply bump_mem|apply bump_stk]. Qed.
Lemma fp_cell : forall c l i f s, cX c l -> fp c s (put_cell l i f s).
Proof.
  intros c l i f s HX. unfold fp. rewrite put_cell_mem_length, put_cell_stk. repeat split; auto.
  intros k o' Hk H. apply obj_live in H. rewrite obj_put_cell in H.
  destruct (obj k s) as [o|] eqn:O; [|discriminate]. exists o. apply obj_live in O. split; auto.
  destruct (Nat.eqb_spec l k).
  - subst. inversion H; subst. destruct (nth_error (h_cells o) i) eqn:N; [|apply obj_rel_refl].
    unfold obj_rel, set_cells. simpl. intuition. apply sn_length.
  - inversion H; subst. apply obj_rel_refl.
Qed.
Lemma fp_putv : forall c v x s, wr c v -> fp c s (putv v x s).
Proof.
  intros c v x s W. destruct v as [i|l g i|l g i]; simpl in *; try (apply fp_cell; auto).
  unfold fp. simpl. rewrite sn_length. repeat split; auto.
  - intros. exists o'. split; auto. apply obj_rel_refl.
  - intros j Hj. apply sn_other. intros ->. auto.
Qed.
Lemma fp_len : forall c s s', fp c s s' -> length (stk s') = length (stk s).
Proof. intros c s s' H. apply H. Qed.
Lemma fp_mlen : forall c s s', fp c s s' -> length (mem s) <= length (mem s').
Proof. intros c s s' H. apply H. Qed.
Lemma fp_obj : forall c s s' l o', fp c s s' -> l < length (mem s) -> obj l s' = Some o' ->
  exists o, obj l s = Some o /\ obj_rel (cX c l) (cG c l) o o'.
Proof.
  intros c s s' l o' (_ & _ & H & _) L O. apply obj_live in O. destruct (H l o' L O) as (o & A & B).
  exists o. apply obj_live in A. auto.
Qed.
Lemma fp_slot : forall c s s' j, fp c s s' -> cK c j -> nth_error (stk s') j = nth_error (stk s) j.
Proof. intros c s s' j H. apply H. Qed.
Lemma tl_fp : forall c s s' v, fp c s s' -> tl v s -> tl v s'.
Proof.
  intros c s s' v H T. pose proof (fp_mlen _ _ _ H). destruct v as [i|l g i|l g i]; simpl in *; auto;
    (destruct T as [A B]; split; [lia|]; intros o O;
     destruct (fp_obj _ _ _ _ _ H A O) as (o0 & O0 & R); destruct R as [-> _]; auto).
Qed.

(** * Protection *)
(** Something that stays put holds [l]. *)
Inductive Prot (c : ctx) (F : list mvar) (s : state) : nat -> Prop :=
| P_slot : forall j v l, cK c j -> nth_error (stk s) j = Some v -> target v = Some l -> Prot c F s l
| P_frame : forall v l, In v F -> target v = Some l -> Prot c F s l
| P_cell : forall k o v l, Prot c F s k -> ~ cX c k -> obj k s = Some o -> In v (contents o) ->
    target v = Some l -> Prot c F s l.
Lemma prot_live : forall c F s l e G, Prot c F s l -> INV e (G ++ F) s -> live l s.
Proof.
  intros c F s l e G P (I & _). destruct P.
  - eapply inv_stk; eauto. eapply nth_error_In; eauto.
  - eapply inv_flight; eauto. apply in_or_app; auto.
  - eapply (inv_cell _ _ _ k); eauto. apply obj_live; eauto.
Qed.
Lemma prot_step : forall c F s s' l e G, Prot c F s l -> fp c s s' -> INV e (G ++ F) s' -> Prot c F s' l.
Proof.
  intros c F s s' l e G P H I. induction P.
  - eapply P_slot; eauto. rewrite (fp_slot _ _ _ _ H); auto.
  - eapply P_frame; eauto.
  - assert (L : live k s') by (eapply prot_live; eauto). apply live_obj in L as [o' O'].
    destruct (fp_obj _ _ _ _ _ H (obj_lt _ _ _ H1) O') as (o1 & O1 & R).
    assert (o1 = o) by congruence. subst o1.
    destruct R as (_ & _ & _ & R). destruct (R H0) as [->|[_ R1]]; [eapply P_cell; eauto|].
    eapply P_cell; [eauto|auto|eauto|eapply R1; eauto|auto].
Qed.
Lemma prot_mono : forall c c' F F' s l, Prot c F s l ->
  (forall j, j < length (stk s) -> cK c j -> cK c' j) -> (forall v, In v F -> In v F') -> (forall k, cX c' k -> cX c k) -> Prot c' F' s l.
Proof.
  intros c c' F F' s l P HK HF HX. induction P.
  - eapply P_slot; eauto. apply HK; auto. eapply ne_lt; eauto.
  - eapply P_frame; eauto.
  - eapply P_cell; eauto.
Qed.
Lemma prot_bump : forall c F s l v, Prot c F s l -> Prot c F (bump v s) l.
Proof.
  intros c F s l v P. induction P.
  - eapply P_slot; eauto. rewrite bump_stk. auto.
  - eapply P_frame; eauto.
  - eapply P_cell; eauto. rewrite obj_bump. eauto.
Qed.
Lemma prot_push : forall c F s l v, Prot c F s l -> Prot c F (push_s v s) l.
Proof.
  intros c F s l v P. induction P.
  - eapply P_slot; eauto. simpl. rewrite nth_error_app1; eauto. eapply ne_lt; eauto.
  - eapply P_frame; eauto.
  - eapply P_cell; eauto.
Qed.

(** The lvalue stays valid. *)
Definition good (c : ctx) (F : list mvar) (s : state) (v : lval) : Prop :=
  match v with
  | LS _ => True
  | LC l _ _ | LK l _ _ => ok_lv v s /\ Prot c F s l /\ ~ cG c l
  end.
Lemma good_ok : forall c F s v, good c F s v -> ok_lv v s.
Proof. intros c F s v H. destruct v; simpl in *; tauto. Qed.
Lemma good_step : forall c F s s' v e G, good c F s v -> fp c s s' -> INV e (G ++ F) s' -> good c F s' v.
Proof.
  intros c F s s' v e G H P I.
  assert (A : forall l g, (exists o, obj l s = Some o /\ h_gen o = g /\ varlike (h_ty o) = true) ->
    Prot c F s l -> ~ cG c l -> (exists o, obj l s' = Some o /\ h_gen o = g /\ varlike (h_ty o) = true) /\ Prot c F s' l).
  { intros l g (o & O & Hg & V) Pr NG. assert (Pr' : Prot c F s' l) by (eapply prot_step; eauto). split; auto.
    assert (L : live l s') by (eapply prot_live; eauto). apply live_obj in L as [o' O'].
    destruct (fp_obj _ _ _ _ _ P (obj_lt _ _ _ O) O') as (o1 & O1 & R). assert (o1 = o) by congruence. subst o1.
    destruct R as (R1 & R2 & R3 & _). destruct (R3 NG) as [R4 _]. exists o'. repeat split; congruence. }
  destruct v as [i|l g i|l g i]; simpl in *; auto; destruct H as (H1 & H2 & H3);
    destruct (A l g H1 H2 H3) as [B C]; auto.
Qed.
Lemma good_mono : forall c c' F F' s v, good c F s v ->
  (forall j, j < length (stk s) -> cK c j -> cK c' j) -> (forall v, In v F -> In v F') -> (forall k, cX c' k -> cX c k) ->
  (forall k, cG c' k -> cG c k) -> good c' F' s v.
Proof.
  intros c c' F F' s v H HK HF HX HG. destruct v; simpl in *; auto;
    (destruct H as (A & B & C); split; [auto|]; split; [eapply prot_mono; eauto|auto]).
Qed.
Lemma ok_bump : forall v w s, ok_lv v (bump w s) <-> ok_lv v s.
Proof. intros. destruct v; simpl; try tauto; setoid_rewrite obj_bump; tauto. Qed.
Lemma ok_push : forall v w s, ok_lv v (push_s w s) <-> ok_lv v s.
Proof. intros. destruct v; simpl; try tauto; setoid_rewrite obj_push; tauto. Qed.
Lemma good_bump : forall c F s v w, good c F s v -> good c F (bump w s) v.
Proof.
  intros c F s v w H. destruct v as [i|l g i|l g i]; auto; destruct H as (A & B & C);
    (split; [apply (ok_bump (LC l g i)); auto|split; [apply prot_bump; auto|auto]]).
Qed.
Lemma good_push : forall c F s v w, good c F s v -> good c F (push_s w s) v.
Proof.
  intros c F s v w H. destruct v as [i|l g i|l g i]; auto; destruct H as (A & B & C);
    (split; [apply (ok_push (LC l g i)); auto|split; [apply prot_push; auto|auto]]).
Qed.
Lemma tl_bump : forall v w s, tl v (bump w s) <-> tl v s.
Proof. intros. destruct v; simpl; try tauto; setoid_rewrite obj_bump; rewrite bump_mem; tauto. Qed.
Lemma tl_push : forall v w s, tl v (push_s w s) <-> tl v s.
Proof. intros. destruct v; simpl; try tauto; setoid_rewrite obj_push; tauto. Qed.

(** * Triples *)
Definition none {A : Type} (_ : A) : list mvar := [].
Definition own (a : mvar) : list mvar := [a].

Section Triple.
(** [U]: uses of freed memory are tolerated. *)
Variable U : Prop.
Definition goodU (c : ctx) (F : list mvar) (s : state) (v : lval) : Prop := tl v s /\ (good c F s v \/ U).
Lemma goodU_okU : forall c F s v, goodU c F s v -> okU U v s.
Proof. intros c F s v [T [H|H]]; [left; eapply good_ok; eauto|right; auto]. Qed.
Lemma goodU_LS : forall c F s j, goodU c F s (LS j).
Proof. intros. split; simpl; auto. Qed.
Lemma goodU_step : forall c F s s' v e G, goodU c F s v -> fp c s s' -> INV e (G ++ F) s' -> goodU c F s' v.
Proof. intros c F s s' v e G [T H] P I. split; [eapply tl_fp; eauto|]. destruct H; auto. left. eapply good_step; eauto. Qed.
Lemma goodU_mono : forall c c' F F' s v, goodU c F s v ->
  (forall j, j < length (stk s) -> cK c j -> cK c' j) -> (forall v, In v F -> In v F') -> (forall k, cX c' k -> cX c k) ->
  (forall k, cG c' k -> cG c k) -> goodU c' F' s v.
Proof. intros c c' F F' s v [T H]; intros. split; auto. destruct H; auto. left. eapply good_mono; eauto. Qed.
Lemma goodU_bump : forall c F s v w, goodU c F s v -> goodU c F (bump w s) v.
Proof. intros c F s v w [T H]. split; [apply tl_bump; auto|]. destruct H; auto. left. apply good_bump; auto. Qed.
Lemma goodU_push : forall c F s v w, goodU c F s v -> goodU c F (push_s w s) v.
Proof. intros c F s v w [T H]. split; [apply tl_push; auto|]. destruct H; auto. left. apply good_push; auto. Qed.
Lemma okU_LS : forall j s, okU U (LS j) s.
Proof. intros. left. simpl. auto. Qed.

Definition post {A} (c : ctx) (e : nat -> nat) (F : list mvar) (s : state)
  (H : A -> list mvar) (Q : A -> state -> Prop) (r : res A) : Prop :=
  match r with
  | ROk a s' => INV e (H a ++ F) s' /\ fp c s s' /\ Q a s'
  | RThrow m s' => (exists e', INV e' F s' /\ (e' = e \/ m = unknown_type)) /\ fp c s s'
  | RUB k => k <> UseAfterFree \/ U
  | RStuck => True
  end.
Definition anyp {A : Type} (_ : A) (_ : state) : Prop := True.

Lemma post_ret : forall A (a : A) c e F s H (Q : A -> state -> Prop), INV e (H a ++ F) s -> Q a s -> post c e F s H Q (ret a s).
Proof. intros. simpl. split; auto. split; auto. apply fp_refl. Qed.
Lemma post_throw : forall A m c e F s (H : A -> list mvar) Q, INV e F s -> post c e F s H Q (throw m s).
Proof. intros. simpl. split; [exists e; auto|apply fp_refl]. Qed.
Lemma post_ub : forall A k c e F s (H : A -> list mvar) Q, k <> UseAfterFree -> post c e F s H Q (ub k s).
Proof. intros. simpl. auto. Qed.
Lemma post_stuck : forall A c e F s (H : A -> list mvar) Q, post c e F s H Q (stuck s).
Proof. intros. exact I. Qed.
Lemma post_from : forall A c e F s s1 (H : A -> list mvar) Q r, fp c s s1 -> post c e F s1 H Q r -> post c e F s H Q r.
Proof.
  intros A c e F s s1 H Q r P K. destruct r; simpl in *; auto.
  - destruct K as (a1 & a2 & a3). split; auto. split; auto. eapply fp_trans; eauto.
  - destruct K as (a1 & a2). split; auto. eapply fp_trans; eauto.
Qed.
Lemma post_weaken : forall A c e F s (H : A -> list mvar) (Q R : A -> state -> Prop) r, post c e F s H Q r ->
  (forall a s', INV e (H a ++ F) s' -> fp c s s' -> Q a s' -> R a s') -> post c e F s H R r.
Proof. intros. destruct r; simpl in *; intuition. Qed.
Lemma post_ctx : forall A c c' e F s (H : A -> list mvar) Q r, post c e F s H Q r ->
  (forall l, cX c l -> cX c' l) -> (forall l, cG c l -> cG c' l) -> (forall j, cK c' j -> cK c j) -> post c' e F s H Q r.
Proof.
  intros A c c' e F s H Q r P HX HG HK. destruct r; simpl in *; auto; intuition; eapply fp_weaken; eauto.
Qed.
Lemma post_bind : forall A B c e F s (H1 : A -> list mvar) Q1 (H2 : B -> list mvar) Q2 (m : M A) (f : A -> M B),
  post c e F s H1 Q1 (m s) ->
  (forall a s1, INV e (H1 a ++ F) s1 -> fp c s s1 -> Q1 a s1 -> post c e F s1 H2 Q2 (f a s1)) ->
  post c e F s H2 Q2 (bind m f s).
Proof.
  intros A B c e F s H1 Q1 H2 Q2 m f P K. unfold bind. destruct (m s) as [a s1|m' s1|k|]; simpl in P; auto.
  destruct P as (P1 & P2 & P3). eapply post_from; eauto.
Qed.
Lemma post_seq : forall A B c e F s Q1 (H2 : B -> list mvar) Q2 (m : M A) (f : M B),
  post c e F s none Q1 (m s) ->
  (forall a s1, INV e F s1 -> fp c s s1 -> Q1 a s1 -> post c e F s1 H2 Q2 (f s1)) ->
  post c e F s H2 Q2 ((m ;; f) s).
Proof. intros. eapply post_bind; eauto. Qed.
Lemma post_rs : forall A B c e F s (Q : A -> Prop) (H2 : B -> list mvar) Q2 (m : M A) (f : A -> M B),
  rs U m s Q -> INV e F s ->
  (forall a, Q a -> post c e F s H2 Q2 (f a s)) ->
  post c e F s H2 Q2 (bind m f s).
Proof.
  intros A B c e F s Q H2 Q2 m f R I K. unfold bind, rs in *. destruct (m s) as [a s1|m' s1|k|]; auto.
  - destruct R as [-> R]. auto.
  - subst. simpl. split; [exists e; auto|apply fp_refl].
Qed.
Lemma post_reader : forall A c e F s (Q : A -> Prop) (m : M A),
  rs U m s Q -> INV e F s -> post c e F s none (fun a s' => s' = s /\ Q a) (m s).
Proof.
  intros A c e F s Q m R I. unfold rs in R. destruct (m s) as [a s1|m' s1|k|]; simpl; auto.
  - destruct R as [-> R]. split; auto. split; [apply fp_refl|auto].
  - subst. split; [exists e; auto|apply fp_refl].
Qed.
Lemma post_yields : forall B c e F s (Q : mvar -> Prop) (H2 : B -> list mvar) Q2 (m : M mvar) (f : mvar -> M B),
  yields U m s Q -> INV e F s ->
  (forall a, Q a -> held a s -> INV e (a :: F) (bump a s) -> post c e F (bump a s) H2 Q2 (f a (bump a s))) ->
  post c e F s H2 Q2 (bind m f s).
Proof.
  intros B c e F s Q H2 Q2 m f Y I K. unfold bind, yields in *. destruct (m s) as [a s1|m' s1|k|]; auto.
  - destruct Y as (-> & Hh & Y). eapply post_from; [apply (fp_bump c a)|]. apply K; auto. apply INV_bump; auto.
  - subst. simpl. split; [exists e; auto|apply fp_refl].
Qed.
Lemma post_yield : forall c e F s (Q : mvar -> Prop) (m : M mvar),
  yields U m s Q -> INV e F s -> post c e F s own (fun a s' => s' = bump a s /\ Q a) (m s).
Proof.
  intros c e F s Q m Y I. unfold yields in *. destruct (m s) as [a s1|m' s1|k|]; simpl; auto.
  - destruct Y as (-> & Hh & Y). split; [apply INV_bump; auto|]. split; [apply fp_bump|auto].
  - subst. split; [exists e; auto|apply fp_refl].
Qed.

(** release *)
Lemma gone_typed : forall s s', gone s s' -> typed s -> typed s'.
Proof. intros s s' P T l o O. apply (T l). apply obj_live, P, obj_live. auto. Qed.
(** What is left after releasing: the same objects or fewer. *)
Definition thin (s s' : state) : Prop :=
  stk s' = stk s /\ length (mem s') = length (mem s) /\ forall l o, obj l s' = Some o -> obj l s = Some o.
Lemma thin_fp : forall s s', gone s s' -> stk s' = stk s -> length (mem s') = length (mem s) -> thin s s'.
Proof.
  intros s s' P S L. split; auto. split; auto. intros l o O. apply obj_live, P, obj_live. auto.
Qed.
Lemma thin_refl : forall s, thin s s.
Proof. intros. split; auto. Qed.
Lemma thin_getv : forall s s' v x, thin s s' -> getv v s' = Some x -> getv v s = Some x.
Proof.
  intros s s' v x (S & L & O) G. destruct v as [i|l g i|l g i]; simpl in *; try congruence;
    (destruct (obj l s') as [o|] eqn:E; [|discriminate]; rewrite (O _ _ E); auto).
Qed.
Lemma thin_keep : forall s s' v x, thin s s' -> ok_lv v s' -> getv v s = Some x -> getv v s' = Some x.
Proof.
  intros s s' v x (S & L & O) K G. destruct v as [i|l g i|l g i]; simpl in *; try congruence;
    (destruct K as (o & E & _); rewrite E; rewrite (O _ _ E) in G; auto).
Qed.
Lemma release_INV : forall w e F s, INV e (w ++ F) s ->
  exists s', release w s = ROk tt s' /\ INV e F s' /\ gone s s' /\ thin s s'.
Proof.
  intros w e F s (I & T & E). destruct (release_ok w e F s I) as (s' & A & B & C & D & G).
  exists s'. split; auto. split; [|split; [auto|apply thin_fp; auto]].
  split; auto. split; [eapply gone_typed; eauto|]. rewrite G. auto.
Qed.

(** Overwriting with the counts. *)
Lemma replace_ok : forall c e F s this x, INV e F s -> held x s -> tl this s -> wr c this -> okU U this s ->
  post c e F s none (fun _ s' => exists old, getv this s = Some old /\ thin (bump x (putv this x s)) s')
    (replace this x s).
Proof.
  intros c e F s this x I Hx T W K. pose proof (rs_get U this s K) as R. unfold rs in R.
  destruct (get this s) as [old s'|m s'|k|] eqn:G.
  - destruct R as [-> G']. rewrite (replace_eq this x old s) by (auto; eapply INV_sound; eauto).
    assert (I1 : INV e ([old] ++ F) (bump x (putv this x s))).
    { simpl. rewrite <- putv_bump. apply (INV_putv e F (bump x s) this x old).
      - apply INV_bump; auto.
      - rewrite getv_bump. auto.
      - apply tl_bump. auto. }
    destruct (release_INV _ _ _ _ I1) as (s' & A & B & C & D). rewrite A. simpl. split; auto. split.
    + eapply fp_trans; [apply fp_putv; eauto|]. eapply fp_trans; [apply fp_bump|apply gone_fp; eauto].
    + eauto.
  - exfalso. eapply get_throw; eauto.
  - unfold replace, bind. rewrite G. simpl. exact R.
  - unfold replace, bind. rewrite G. simpl. exact Logic.I.
Qed.

(** Scopes. *)
Lemma nth_error_firstn_lt : forall A (l : list A) n j, j < n -> nth_error (firstn n l) j = nth_error l j.
Proof. induction l; destruct n, j; simpl; intros; auto; try lia. apply IHl. lia. Qed.
Definition unpush (n : nat) (s : state) : state := {| mem := mem s; rc := rc s; stk := firstn n (stk s) |}.
Lemma push_last : forall s n, length (stk s) = S n -> exists w, s = push_s w (unpush n s).
Proof.
  intros s n L. destruct (ne_some _ (stk s) n) as [w W]; [lia|]. exists w. apply state_eq; auto.
  unfold push_s, unpush. simpl. rewrite <- (firstn_skipn n (stk s)) at 1. f_equal.
  assert (A : length (skipn n (stk s)) = 1) by (rewrite skipn_length; lia).
  rewrite <- (firstn_skipn n (stk s)) in W. rewrite nth_error_app2 in W by (rewrite firstn_length; lia).
  rewrite firstn_length, Nat.min_l in W by lia. rewrite Nat.sub_diag in W.
  destruct (skipn n (stk s)) as [|a [|b t]]; simpl in *; try lia. congruence.
Qed.
Definition inK (c : ctx) (n : nat) : ctx := mkctx (cX c) (cG c) (fun j => cK c j \/ j = n).
Lemma leave_post : forall e F s n, INV e F s -> length (stk s) = S n ->
  exists s', leave n s = ROk tt s' /\ INV e F s' /\ thin (unpush n s) s'.
Proof.
  intros e F s n I L. destruct (push_last s n L) as [w E].
  assert (I1 : INV e ([w] ++ F) (unpush n s)) by (simpl; apply INV_push; rewrite <- E; auto).
  destruct (release_INV _ _ _ _ I1) as (s' & A & B & C & D).
  exists s'. split; [|auto]. rewrite E.
  assert (Ln : n = length (stk (unpush n s))).
  { unfold unpush. simpl. rewrite firstn_length. lia. }
  rewrite Ln at 1. apply leave_eq. auto.
Qed.
Lemma thin_fp' : forall c c' s s2 s3 v, fp c' (push_s v s) s2 -> thin (unpush (length (stk s)) s2) s3 ->
  (forall l, cX c' l -> cX c l) -> (forall l, cG c' l -> cG c l) ->
  (forall j, j < length (stk s) -> cK c j -> cK c' j) -> fp c s s3.
Proof.
  intros c c' s s2 s3 v P (S & L & O) HX HG HK. pose proof (fp_len _ _ _ P) as PL. simpl in PL.
  rewrite app_length in PL. simpl in PL.
  unfold fp. repeat split.
  - simpl in L. rewrite L. apply (fp_mlen _ _ _ P).
  - rewrite S. simpl. rewrite firstn_length. lia.
  - intros l o' Hl H. apply obj_live in H. apply O in H. change (obj l s2 = Some o') in H.
    destruct (fp_obj _ _ _ _ _ P Hl H) as (o & A & B). rewrite obj_push in A. apply obj_live in A. exists o.
    split; auto. unfold obj_rel in *. intuition.
  - intros j Kj. rewrite S. simpl. destruct (Nat.lt_ge_cases j (length (stk s))) as [Lt|Ge].
    + rewrite nth_error_firstn_lt by auto. rewrite (fp_slot _ _ _ j P) by auto. simpl. apply nth_error_app1. auto.
    + transitivity (@None mvar); [|symmetry; apply nth_error_None; auto].
      apply nth_error_None. rewrite firstn_length. lia.
Qed.
Lemma post_scoped : forall A c c' e F s v (body : lval -> M A) H Q (Q' : A -> state -> Prop),
  INV e (v :: F) s ->
  (INV e F (push_s v s) -> post c' e F (push_s v s) H Q (body (LS (length (stk s))) (push_s v s))) ->
  (forall l, cX c' l -> cX c l) -> (forall l, cG c' l -> cG c l) ->
  (forall j, j < length (stk s) -> cK c j -> cK c' j) ->
  (forall a s2 s3, Q a s2 -> INV e (H a ++ F) s2 -> fp c' (push_s v s) s2 ->
     thin (unpush (length (stk s)) s2) s3 -> INV e (H a ++ F) s3 -> fp c s s3 -> Q' a s3) ->
  post c e F s H Q' (scoped v body s).
Proof.
  intros A c c' e F s v body H Q Q' I P HX HG HK HQ.
  apply (proj1 (INV_push _ _ _ _)) in I. specialize (P I). unfold scoped. fold (push_s v s).
  destruct (body (LS (length (stk s))) (push_s v s)) as [a s2|m s2|k|]; simpl in P; auto.
  - destruct P as (P1 & P2 & P3). pose proof (fp_len _ _ _ P2) as PL. simpl in PL. rewrite app_length in PL. simpl in PL.
    destruct (leave_post e (H a ++ F) s2 (length (stk s)) P1) as (s3 & A1 & A2 & A3); [lia|].
    unfold bind. rewrite A1. simpl. assert (fp c s s3) by (eapply thin_fp'; eauto). eauto 10.
  - destruct P as ((e' & P1 & P3) & P2). pose proof (fp_len _ _ _ P2) as PL. simpl in PL. rewrite app_length in PL. simpl in PL.
    destruct (leave_post e' F s2 (length (stk s)) P1) as (s3 & A1 & A2 & A3); [lia|].
    unfold bind. rewrite A1. simpl. split; [eauto|eapply thin_fp'; eauto].
Qed.
(** The usual case: the new slot may be written, nothing to remember. *)
Lemma post_scoped' : forall A c e F s v (body : lval -> M A) H,
  INV e (v :: F) s ->
  (INV e F (push_s v s) -> post (mkctx (cX c) (cG c) (fun j => j < length (stk s) /\ cK c j)) e F (push_s v s) H anyp
      (body (LS (length (stk s))) (push_s v s))) ->
  post c e F s H anyp (scoped v body s).
Proof.
  intros. eapply post_scoped; eauto; simpl; auto.
Qed.
End Triple.
