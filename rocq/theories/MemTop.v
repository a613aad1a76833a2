(** Methods called on a variable or temporary keep the invariant. *)
From Coq Require Import ZArith Bool List String Lia.
From Verif Require Import Base StrModel ValModel NumModel AllocModel MemModel MemProof MemFun MemEq MemDeref MemTriple MemOps MemArr MemMeth.
Import ListNotations.
Local Open Scope list_scope.
Local Open Scope mem_scope.
Local Notation length := List.length.

(** The array a var denotes, directly or through a reference. *)
Definition tgt (s : state) (this : lval) (x : nat) : Prop :=
  exists v y, getv this s = Some v /\ der_spec v s y /\ target y = Some x.
Definition full : ctx := mkctx (fun _ => True) (fun _ => True) (fun _ => False).
Definition still : ctx := wctx (fun _ => True).
(** The array of a receiver, its storage, and new arrays. *)
Definition PR (s : state) (this : lval) (x : nat) : Prop :=
  tgt s this x \/
  (exists l o ot, tgt s this l /\ obj l s = Some o /\ h_view o = Some x /\ obj x s = Some ot /\ varlike (h_ty ot) = false) \/
  length (mem s) <= x.
Definition cont (s : state) (this : lval) (x : nat) : Prop :=
  exists k o, getv this s = Some (MRef x k) /\ obj x s = Some o /\ plain_vars o = true.
Definition cR (s : state) (this : lval) : ctx :=
  mkctx (fun x => PR s this x \/ cont s this x) (PR s this) (fun i => this <> LS i).
(** The container of a receiver that is a reference is held otherwise, and is not the array
    denoted. *)
Definition anchored (s : state) (this : lval) : Prop :=
  forall l, cont s this l -> Prot (cR s this) [] s l /\ ~ tgt s this l.
Definition apart_of (s : state) (this : lval) : Prop := forall l, cont s this l -> ~ tgt s this l.

Lemma tgt_bump : forall s this v x, tgt (bump v s) this x <-> tgt s this x.
Proof.
  intros. unfold tgt. split; intros (w & y & A & B & C); exists w, y; rewrite getv_bump, der_bump in *; auto.
Qed.
Lemma tgt_push : forall s this v x, under this s -> (tgt (push_s v s) this x <-> tgt s this x).
Proof.
  intros. unfold tgt. split; intros (w & y & A & B & C); exists w, y; rewrite getv_push, der_push in * by auto; auto.
Qed.
Lemma cont_bump : forall s this v x, cont (bump v s) this x <-> cont s this x.
Proof.
  intros. unfold cont. split; intros (w & y & A & B & C); exists w, y; rewrite getv_bump, obj_bump in *; auto.
Qed.
Lemma cont_push : forall s this v x, under this s -> (cont (push_s v s) this x <-> cont s this x).
Proof.
  intros. unfold cont. split; intros (w & y & A & B & C); exists w, y; rewrite getv_push, obj_push in * by auto; auto.
Qed.
Lemma apart_bump : forall s this v, apart_of s this -> apart_of (bump v s) this.
Proof. intros s this v H l. rewrite cont_bump, tgt_bump. apply H. Qed.
Lemma apart_push : forall s this v, under this s -> apart_of s this -> apart_of (push_s v s) this.
Proof. intros s this v U H l. rewrite cont_push, tgt_push by auto. apply H. Qed.
Lemma PR_bump : forall s this v x, PR (bump v s) this x <-> PR s this x.
Proof.
  intros. unfold PR. rewrite tgt_bump, bump_mem. split; (intros [A|[(l & o & ot & A)|A]]; [auto| |auto]);
    right; left; exists l, o, ot; rewrite tgt_bump, !obj_bump in *; auto.
Qed.
Lemma PR_push : forall s this v x, under this s -> (PR (push_s v s) this x <-> PR s this x).
Proof.
  intros. unfold PR. rewrite tgt_push by auto. split; (intros [A|[(l & o & ot & A)|A]]; [auto| |auto]);
    right; left; exists l, o, ot; rewrite tgt_push, !obj_push in * by auto; auto.
Qed.
Lemma anch_bump : forall s this v, anchored s this -> anchored (bump v s) this.
Proof.
  intros s this v H l. rewrite cont_bump, tgt_bump. intros C. destruct (H l C) as [P N]. split; auto.
  apply prot_bump. eapply prot_mono; eauto. simpl. intros k. rewrite PR_bump, cont_bump. auto.
Qed.
Lemma anch_push : forall s this v, under this s -> anchored s this -> anchored (push_s v s) this.
Proof.
  intros s this v Un H l. rewrite cont_push, tgt_push by auto. intros C. destruct (H l C) as [P N]. split; auto.
  apply prot_push. eapply prot_mono; eauto. simpl. intros k. rewrite PR_push, cont_push by auto. auto.
Qed.

Section Top.
Variable U : Prop.
Notation post := (post U).
Notation goodU := (goodU U).
Notation okU := (okU U).
Notation rcv := (rcv U).

Lemma post_full : forall A c e F s (H : A -> list mvar) Q r, post c e F s H Q r -> post full e F s H Q r.
Proof. intros. eapply post_ctx; eauto; simpl; tauto. Qed.
Lemma post_any : forall A c e F s (H : A -> list mvar) Q r, post c e F s H Q r -> post c e F s H anyp r.
Proof. intros. eapply post_weaken; eauto. intros. exact I. Qed.
Lemma post_top : forall A c e F s (H : A -> list mvar) Q r, post c e F s H Q r -> post full e F s H anyp r.
Proof. intros. eapply post_any, post_full; eauto. Qed.

(** * Receivers *)
Record RV (c : ctx) (P : nat -> Prop) (s : state) (this : lval) : Prop := {
  rv_rcv : rcv c [] s this;
  rv_own : own0 (wctx P) P s this;
  rv_fresh : forall l, length (mem s) <= l -> P l;
  rv_P : forall l, P l -> cX c l /\ cG c l;
  rv_X : forall l o, cX c l -> obj l s = Some o -> P l \/ varlike (h_ty o) = true;
  rv_cont : (U /\ forall l, P l) \/ (forall l k, getv this s = Some (MRef l k) -> ~ P l) }.

Lemma rv_own0 : forall c P s this, RV c P s this -> own0 c P s this.
Proof.
  intros c P s this R v y l V D T. destruct (rv_own _ _ _ _ R v y l V D T) as [A B]. split; auto.
  eapply win_mono; [|eauto]. simpl. intros k K. apply (rv_P _ _ _ _ R). auto.
Qed.
Lemma rv_cfresh : forall c P s this, RV c P s this -> cfresh c P s.
Proof.
  intros c P s this R l L. split; [|apply (rv_fresh _ _ _ _ R); auto].
  apply (rv_P _ _ _ _ R). apply (rv_fresh _ _ _ _ R); auto.
Qed.
Lemma rv_resize : forall c P e s this n, INV e [] s -> RV c P s this ->
  post c e [] s none (fun _ s' => own1 c P s' this) (resize this n s).
Proof.
  intros c P e s this n I R. apply resize_post; auto.
  - apply R.
  - apply rv_own0; auto.
  - eapply rv_cfresh; eauto.
  - apply R.
Qed.
Lemma rv_array : forall c P e s this, INV e [] s -> RV c P s this ->
  post c e [] s none (fun _ s' => own1 c P s' this) (array this s).
Proof.
  intros c P e s this I R. apply array_post; auto.
  - apply R.
  - apply rv_own0; auto.
  - eapply rv_cfresh; eauto.
Qed.
Lemma own1_W : forall c (P : nat -> Prop) s this, (forall l o, cX c l -> obj l s = Some o -> P l \/ varlike (h_ty o) = true) ->
  own1 c P s this -> own1 (wctx P) P s this.
Proof.
  intros c P s this HX O x X. destruct (O x X) as [N A]. split; auto. intros l T. destruct (A l T) as [B W]. split; auto.
  intros o Ob. specialize (W o Ob). simpl. destruct (h_view o); auto. split; auto. intros ot Ot D. destruct W as [_ W].
  destruct (HX _ _ (W ot Ot D) Ot) as [|V]; auto. congruence.
Qed.
Lemma rvX_fp : forall c c' (P : nat -> Prop) s s', fp c' s s' -> (forall l, length (mem s) <= l -> P l) ->
  (forall l o, cX c l -> obj l s = Some o -> P l \/ varlike (h_ty o) = true) ->
  (forall l o, cX c l -> obj l s' = Some o -> P l \/ varlike (h_ty o) = true).
Proof.
  intros c c' P s s' Fp Fr H l o X O. destruct (Nat.lt_ge_cases l (length (mem s))); [|left; auto].
  destruct (fp_obj _ _ _ _ _ Fp H0 O) as (o0 & O0 & R). destruct R as [-> _]. eauto.
Qed.
(** A receiver that is no longer a reference. *)
Lemma rv_direct : forall c c' P s s' this this', RV c P s this -> fp c' s s' -> wr c this' -> goodU c [] s' this' ->
  under this' s' -> own1 c P s' this' -> RV c P s' this'.
Proof.
  intros c c' P s s' this this' R Fp W K Un O.
  assert (Fr : forall l, length (mem s') <= l -> P l) by (intros l L; apply R; pose proof (fp_mlen _ _ _ Fp); lia).
  assert (HX : forall l o, cX c l -> obj l s' = Some o -> P l \/ varlike (h_ty o) = true).
  { eapply rvX_fp; eauto; apply R. }
  constructor; auto.
  - eapply rcv_own; eauto.
  - apply own1_own0. eapply own1_W; eauto.
  - apply R.
  - destruct (rv_cont _ _ _ _ R); auto. right. intros l k G. destruct (O _ G) as [N _]. exfalso. eapply N; eauto.
Qed.
Lemma rcv_bump : forall c F s v this, rcv c F s this -> rcv c F (bump v s) this.
Proof.
  intros c F s v this (W & K & Un & H). split; auto. split; [apply goodU_bump; auto|]. split; [apply under_bump; auto|].
  intros l k. rewrite getv_bump. intros G. destruct (H l k G) as [A B]. split; auto. intros o. rewrite obj_bump. intros O P.
  destruct (B o O P). split; auto. apply goodU_bump; auto.
Qed.
Lemma rcv_push : forall c F s v this, rcv c F s this -> rcv c F (push_s v s) this.
Proof.
  intros c F s v this (W & K & Un & H). split; auto. split; [apply goodU_push; auto|]. split; [apply under_push; auto|].
  intros l k. rewrite getv_push by auto. intros G. destruct (H l k G) as [A B]. split; auto. intros o. rewrite obj_push. intros O P.
  destruct (B o O P). split; auto. apply goodU_push; auto.
Qed.
Lemma RV_bump : forall c P s v this, RV c P s this -> RV c P (bump v s) this.
Proof.
  intros c P s v this R. constructor.
  - apply rcv_bump, R.
  - intros w y l. rewrite getv_bump, der_bump. intros G D T. destruct (rv_own _ _ _ _ R w y l G D T). split; auto. apply win_bump; auto.
  - rewrite bump_mem. apply R.
  - apply R.
  - intros l o. rewrite obj_bump. apply R.
  - destruct (rv_cont _ _ _ _ R); auto. right. intros l k. rewrite getv_bump. apply H.
Qed.
Lemma RV_push : forall c P s v this, RV c P s this -> RV c P (push_s v s) this.
Proof.
  intros c P s v this R. assert (Un : under this s) by apply R. constructor.
  - apply rcv_push, R.
  - intros w y l. rewrite getv_push, der_push by auto. intros G D T. destruct (rv_own _ _ _ _ R w y l G D T). split; auto.
  - simpl. apply R.
  - apply R.
  - intros l o. rewrite obj_push. apply R.
  - destruct (rv_cont _ _ _ _ R); auto. right. intros l k. rewrite getv_push by auto. apply H.
Qed.
(** Writing the elements does not disturb the receiver. *)
Lemma RV_step2 : forall c P e e' F F' s s' j, INV e F s -> RV c P s (LS j) -> fp (wctx P) s s' -> INV e' (F' ++ []) s' -> RV c P s' (LS j).
Proof.
  intros c P e e' F F' s s' j I R Fp I'.
  assert (Sl : forall x, getv (LS j) s' = Some x -> getv (LS j) s = Some x).
  { intros x G. simpl in *. rewrite <- G. symmetry. apply (fp_slot _ _ _ j Fp). exact Logic.I. }
  assert (Fc : fp (mkctx (cX c) (cG c) (cK c)) s s').
  { eapply fp_weaken; [exact Fp|simpl; intros; apply R; auto|simpl; tauto|simpl; auto]. }
  assert (Ob : forall l k o', getv (LS j) s = Some (MRef l k) -> obj l s' = Some o' ->
     exists o, obj l s = Some o /\ h_gen o' = h_gen o /\ plain_vars o' = plain_vars o /\ (~ P l -> plain_vars o' = true -> o' = o)).
  { intros l k o' G O'. assert (L : live l s) by (eapply (getv_held (LS j)); eauto; reflexivity).
    apply live_obj in L as [o O]. exists o.
    destruct (fp_obj _ _ _ _ _ Fp (obj_lt _ _ _ O) O') as (o1 & O1 & (R1 & R2 & R3 & R4)).
    assert (o1 = o) by congruence. subst o1. split; auto. simpl in *. destruct (R3 (fun x => x)) as [R5 _].
    split; auto. split; [unfold plain_vars; rewrite R1, R2; auto|].
    intros Pn Pv. destruct (R4 Pn) as [->|[R6 _]]; auto. apply plain_varlike in Pv. congruence. }
  constructor.
  - split; [apply (rv_rcv _ _ _ _ R)|]. split; [apply goodU_LS|]. split; [eapply under_fp; eauto; apply (rv_rcv _ _ _ _ R)|].
    intros l k G. apply Sl in G. split; [eauto|]. intros o' O' Pl.
    destruct (Ob l k o' G O') as (o & O & Ge & Pe & _). rewrite Pe in Pl.
    destruct (rv_rcv _ _ _ _ R) as (_ & _ & _ & H). destruct (H l k G) as [_ H1]. destruct (H1 o O Pl) as [X K].
    split; auto. rewrite Ge. eapply goodU_step with (G := F'); eauto.
  - intros v y l G D T. pose proof (Sl _ G) as G0.
    destruct (rv_cont _ _ _ _ R) as [[_ Pa]|Pn].
    { split; auto. intros o _. simpl. destruct (h_view o); auto. }
    assert (D0 : der_spec v s y).
    { destruct v as [| | |l0 k| |]; auto. simpl in D |- *. destruct D as (o' & O' & D).
      destruct (Ob l0 k o' G0 O') as (o & O & _ & Pe & E). exists o. split; auto. rewrite <- Pe.
      destruct (plain_vars o') eqn:Pv; [|exfalso; pose proof (read_elem_num _ _ _ _ _ (proj1 (proj2 I')) D); congruence].
      specialize (E (Pn _ _ G0) eq_refl). subst o'. auto. }
    destruct (rv_own _ _ _ _ R v y l G0 D0 T) as [A B]. split; auto. eapply win_step; eauto.
    eapply der_held; eauto. eapply getv_held; eauto.
  - intros l L. apply R. pose proof (fp_mlen _ _ _ Fp). lia.
  - apply R.
  - eapply rvX_fp; eauto; apply R.
  - destruct (rv_cont _ _ _ _ R) as [H|H]; [left; auto|right]. intros l k G. apply (H l k). auto.
Qed.
Lemma RV_step : forall c P e s s' j, INV e [] s -> RV c P s (LS j) -> fp (wctx P) s s' -> INV e [] s' -> RV c P s' (LS j).
Proof. intros c P e s s' j I R Fp I'. exact (RV_step2 c P e e [] [] s s' j I R Fp I'). Qed.
Lemma RV_covS : forall c P e s j, INV e [] s -> RV c P s (LS j) -> covS (wctx P) s (LS j).
Proof.
  intros c P e s j I R. split; [intros l; simpl; tauto|]. split; [simpl; auto|].
  destruct (rv_cont _ _ _ _ R) as [[_ Pa]|Pn]; [left; auto|]. right. split; [simpl; auto|]. split; [|intros; simpl; eauto].
  intros v y l G D T. split; auto. eapply R; eauto.
Qed.
(** Where receivers come from. *)
Lemma win_PR : forall s this l, tgt s this l -> win (wctx (PR s this)) s l.
Proof.
  intros s this l T o O. simpl. destruct (h_view o) eqn:V.
  - split; [intros; left; auto|]. intros ot Ot D. right. left. exists l, o, ot. auto.
  - left; auto.
Qed.
Lemma tgt_cont_num : forall s this l k o, typed s -> getv this s = Some (MRef l k) -> obj l s = Some o -> plain_vars o = false ->
  forall x, ~ tgt s this x.
Proof.
  intros s this l k o T G O Pl x (v & y & V & D & Ty). assert (v = MRef l k) by congruence. subst. simpl in D.
  destruct D as (o1 & O1 & D). assert (o1 = o) by congruence. subst. rewrite Pl in D.
  pose proof (read_elem_num _ _ _ _ _ T D). congruence.
Qed.
Lemma cont_PR : forall e F s this l k, INV e F s -> getv this s = Some (MRef l k) -> apart_of s this -> ~ PR s this l.
Proof.
  intros e F s this l k I G A H. assert (L : live l s) by (eapply (getv_held this); eauto; reflexivity).
  apply live_obj in L as [o O]. pose proof I as (_ & Ty & _).
  assert (N : ~ tgt s this l).
  { destruct (plain_vars o) eqn:Pl; [|eapply tgt_cont_num; eauto]. apply A. exists k, o. auto. }
  destruct H as [H|[(l1 & o1 & ot & H1 & H2 & H3 & H4 & H5)|H]]; [tauto| |apply obj_lt in O; lia].
  assert (ot = o) by congruence. subst ot. destruct (plain_vars o) eqn:Pl.
  - apply plain_varlike in Pl. congruence.
  - eapply tgt_cont_num; eauto.
Qed.
Definition GR (s : state) (j : nat) : Prop := U \/ anchored s (LS j).
Lemma RV_exists : forall e s j, INV e [] s -> j < length (stk s) -> GR s j -> exists c P, RV c P s (LS j).
Proof.
  intros e s j I L [u|A].
  - exists (mkctx (fun _ => True) (fun _ => True) (fun _ => False)), (fun _ => True). constructor; simpl; auto.
    + split; [simpl; tauto|]. split; [apply goodU_LS|]. split; [simpl; auto|]. intros l k G. split; [eauto|].
      intros o O P. split; [simpl; auto|]. split; [apply ok_tl, ok_cell; auto|auto].
    + intros v y l _ _ _. split; auto. intros o _. simpl. destruct (h_view o); auto.
  - assert (Ap : apart_of s (LS j)) by (intros l C; apply A; auto).
    exists (cR s (LS j)), (PR s (LS j)). constructor; simpl; auto.
    + split; [simpl; tauto|]. split; [apply goodU_LS|]. split; [simpl; auto|]. intros l k G. split; [eauto|].
      intros o O P. assert (C : cont s (LS j) l) by (exists k, o; auto). split; [simpl; auto|].
      split; [apply ok_tl, ok_cell; auto|]. left. split; [apply ok_cell; auto|].
      destruct (A l C) as [Pr _]. split; auto. eapply cont_PR; eauto.
    + intros v y l G D T. assert (Tg : tgt s (LS j) l) by (exists v, y; auto). split; [left; auto|apply win_PR; auto].
    + intros l H. right. right. auto.
    + intros l o [H|H] O; auto. right. destruct H as (k & o1 & _ & O1 & P1). assert (o1 = o) by congruence. subst. apply plain_varlike; auto.
    + right. intros l k G. eapply cont_PR; eauto.
Qed.
Lemma GR_bump : forall s j v, GR s j -> GR (bump v s) j.
Proof. intros s j v [H|H]; [left; auto|right; apply anch_bump; auto]. Qed.
Lemma GR_push : forall s j v, j < length (stk s) -> GR s j -> GR (push_s v s) j.
Proof. intros s j v L [H|H]; [left; auto|right; apply anch_push; auto]. Qed.

(** * The simple methods *)
Lemma resize_top : forall e s j n, INV e [] s -> j < length (stk s) -> GR s j -> post full e [] s none anyp (resize (LS j) n s).
Proof.
  intros e s j n I L G. destruct (RV_exists _ _ _ I L G) as (c & P & R).
  eapply post_top. apply rv_resize; eauto.
Qed.
Lemma array_top : forall e s j, INV e [] s -> j < length (stk s) -> GR s j -> post full e [] s none anyp (array (LS j) s).
Proof.
  intros e s j I L G. destruct (RV_exists _ _ _ I L G) as (c & P & R).
  eapply post_top. apply rv_array; eauto.
Qed.
Lemma presize_top : forall e s j n, INV e [] s -> j < length (stk s) -> GR s j -> post full e [] s none anyp (presize (LS j) n s).
Proof.
  intros e s j n I L G. destruct (RV_exists _ _ _ I L G) as (c & P & R). unfold presize.
  eapply post_top with (c := c) (Q := anyp). eapply post_rs; [apply rs_size_of; [eauto|apply okU_LS]|auto|]. intros m _.
  eapply post_seq; [apply rv_resize; eauto|]. intros u s1 I1 P1 O1.
  eapply post_any. apply rv_resize with (P := P); auto.
  eapply rv_direct; eauto; [apply R|apply goodU_LS|eapply under_fp; eauto; simpl; auto].
Qed.
Lemma take_post : forall c e F s n, INV e F s -> ~ cK c n -> post c e F s own anyp (take (LS n) s).
Proof.
  intros c e F s n I K. unfold take. eapply post_rs; [apply rs_get; apply okU_LS|auto|]. intros x X; cbv beta in X.
  unfold bind. rewrite (put_eq _ _ _ MNil X). simpl. split; [|split; [|exact Logic.I]].
  - change (INV e (x :: F) (putv (LS n) MNil s)). apply INV_putv; [apply INV_add0; auto|auto|exact Logic.I].
  - apply (fp_putv c (LS n)). simpl. auto.
Qed.
Lemma pop_top : forall e s j, INV e [] s -> j < length (stk s) -> GR s j -> post full e [] s own anyp (pop (LS j) s).
Proof.
  intros e s j I L G. destruct (RV_exists _ _ _ I L G) as (c & P & R). unfold pop.
  eapply post_rs; [apply rs_size_of; [eauto|apply okU_LS]|auto|]. intros n _.
  eapply post_yields; [apply yields_at; [eauto|apply okU_LS]|auto|]. intros r _ Hr I1.
  eapply post_scoped with (c' := full) (Q := anyp); simpl; auto. intros I2.
  eapply post_rs; [apply rs_size_of; [eauto|apply okU_LS]|auto|]. intros n' _.
  eapply post_seq; [eapply post_full; apply rv_resize; auto; apply RV_push, RV_bump; eauto|]. intros u s1 I3 P3 _.
  apply take_post; auto.
Qed.
Lemma assign_top : forall e s j q, INV e [] s -> post full e [] s none anyp (assign (LS j) (LS q) s).
Proof.
  intros e s j q I. destruct (getv (LS j) s) as [v|] eqn:G.
  - destruct (nonref_or v) as [N|(l & i & ->)].
    + rewrite (assign_nonref_eq _ _ _ v); auto. eapply post_any, assign_plain_post; auto; [apply goodU_LS|simpl; auto|apply okU_LS].
    + apply (post_full _ still). eapply assign_ref_post; eauto; try (simpl; tauto); [|apply okU_LS].
      intros o _. simpl. destruct (h_view o); auto.
  - unfold assign. eapply post_rs; [apply rs_get; apply okU_LS|auto|]. intros v V; cbv beta in V. congruence.
Qed.
Lemma with_copy_top : forall A e s q (f : lval -> M A) H, INV e [] s ->
  (forall x, INV e [] (push_s x (bump x s)) -> post full e [] (push_s x (bump x s)) H anyp (f (LS (length (stk s))) (push_s x (bump x s)))) ->
  post full e [] s H anyp ((let! x := copy_of (LS q) in scoped x f) s).
Proof.
  intros A e s q f H I K.
  eapply post_yields; [apply yields_copy_of; [eauto|apply okU_LS]|auto|]. intros x _ Hx I1.
  eapply post_scoped with (c' := full) (Q := anyp); simpl; auto. rewrite bump_stk. apply K.
Qed.
Lemma clear_top : forall e s j, INV e [] s -> post full e [] s none anyp (clear (LS j) s).
Proof.
  intros e s j I. unfold clear, assign_value. eapply post_scoped with (c' := full) (Q := anyp);
    [apply INV_add0; auto|apply assign_top|auto|auto|auto|intros; exact Logic.I].
Qed.
End Top.
