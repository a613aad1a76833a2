(** The array methods keep the invariant. *)
From Coq Require Import ZArith Bool List String Lia.
From Verif Require Import Base StrModel ValModel NumModel AllocModel MemModel MemProof MemFun MemEq MemDeref MemTriple MemOps MemArr.
Import ListNotations.
Local Open Scope list_scope.
Local Open Scope mem_scope.
Local Notation length := List.length.

Section Meth.
Variable U : Prop.
Notation post := (post U).
Notation goodU := (goodU U).
Notation okU := (okU U).
Notation rcv := (rcv U).

(** * Binary search *)
Lemma yields_rs : forall A (m : M A) (f : A -> M mvar) s Q R, rs U m s Q -> (forall a, Q a -> yields U (f a) s R) ->
  yields U (bind m f) s R.
Proof.
  intros A m f s Q R H K. unfold yields, bind, rs in *. destruct (m s) as [a s1|m' s1|k|]; auto.
  destruct H as [-> H]. apply K. auto.
Qed.
Lemma rs_scoped : forall A B (m : M mvar) (body : lval -> M A) (f : A -> M B) s R Q,
  sound s -> yields U m s R ->
  (forall x, R x -> held x s -> rs U (body (LS (length (stk s)))) (push_s x (bump x s)) (fun _ => True)) ->
  (forall a, rs U (f a) s Q) ->
  rs U (let! x := m in let! b := scoped x body in f b) s Q.
Proof.
  intros A B m body f s R Q S Y Hb Hf. unfold rs, bind, yields in *. destruct (m s) as [x s1|e s1|k|]; auto.
  destruct Y as (-> & Hx & Rx). specialize (Hb x Rx Hx).
  assert (L : length (stk (bump x s)) = length (stk s)) by (rewrite bump_stk; auto).
  assert (RB : release [x] (bump x s) = ROk tt s) by (apply release_bump; auto; apply S).
  destruct (body (LS (length (stk s))) (push_s x (bump x s))) as [a s2|e s2|k|] eqn:E.
  - destruct Hb as [-> _]. rewrite (scoped_ok _ x body (bump x s) a x (bump x s) s); [|rewrite L; exact E|auto|auto]. apply Hf.
  - subst. rewrite (scoped_throw _ x body (bump x s) e x (bump x s) s); [|rewrite L; exact E|auto|auto]. auto.
  - unfold scoped. fold (push_s x (bump x s)). rewrite L, E. exact Hb.
  - unfold scoped. fold (push_s x (bump x s)). rewrite L, E. exact I.
Qed.
Lemma yields_weaken : forall m s (Q R : mvar -> Prop), yields U m s Q -> (forall a, Q a -> R a) -> yields U m s R.
Proof. intros m s Q R H K. unfold yields in *. destruct (m s); auto. intuition. Qed.
Lemma okU_key : forall s l o i, obj l s = Some o -> h_ty o = HPair -> okU (LK l (h_gen o) i) s.
Proof. intros s l o i O T. left. exists o. split; auto. split; auto. rewrite T. reflexivity. Qed.
Lemma yields_key : forall s this i, sound s -> okU this s ->
  yields U (let! k := key_ptr this i in copy_of k) s (fun _ => True).
Proof.
  intros s this i S K. eapply yields_rs; [apply rs_key_ptr; auto|]. intros k (l & o & j & -> & _ & O & T).
  eapply yields_weaken; [apply yields_copy_of; [auto|eapply okU_key; eauto]|auto].
Qed.
Lemma rs_compare : forall (f : val -> val -> outcome bool) s a p, (forall x y, no_uaf (f x y)) ->
  sound s -> okU a s -> okU p s ->
  rs U (let! x := get a in let! y := get p in let! x := value x in let! y := value y in lift (f x y)) s (fun _ => True).
Proof.
  intros f s a p Hf S Ka Kp.
  eapply rs_bind; [apply rs_get; auto|]. intros x X; cbv beta in X.
  eapply rs_bind; [apply rs_get; auto|]. intros y Y; cbv beta in Y.
  eapply rs_bind; [apply rs_value; auto; eapply getv_held; eauto|]. intros vx _.
  eapply rs_bind; [apply rs_value; auto; eapply getv_held; eauto|]. intros vy _.
  eapply rs_weaken; [apply rs_lift; apply Hf|auto].
Qed.
Lemma rs_binary : forall s this p, sound s -> okU this s -> okU p s -> rs U (binary this p) s (fun _ => True).
Proof.
  intros s this p S K Kp. unfold binary.
  eapply rs_bind; [apply rs_size_of; auto|]. intros n _. destruct (_ =? _)%Z; [apply rs_ret; auto|].
  eapply rs_bind; [apply rs_is_array_of; auto|]. intros b _. generalize 0%Z.
  generalize (Datatypes.S (Z.to_nat n)). intros fuel. revert n. induction fuel; intros n z; simpl; [apply rs_stuck|].
  destruct (z =? n)%Z; [apply rs_ret; auto|].
  eapply rs_scoped with (R := fun _ => True); auto.
  - destruct b; [apply yields_key; auto|]. eapply yields_weaken; [apply yields_at; auto|auto].
  - intros x _ Hx. apply rs_compare with (f := vlt); [apply vlt_no_uaf| |apply okU_LS|apply okU_push, okU_bump; auto].
    apply sound_push; [apply sound_bump; auto|apply held_bump; auto].
  - intros [|]; apply IHfuel.
Qed.

(** * The loops *)
Definition keep (c : ctx) (this : lval) : Prop :=
  match this with LS j => cK c j | LC l _ _ | LK l _ _ => ~ cX c l end.
Definition noG (c : ctx) : Prop := forall l, ~ cG c l.
(** Elements may be written through [this], again and again. *)
Definition covS (c : ctx) (s : state) (this : lval) : Prop :=
  noG c /\ tl this s /\
  ((forall l, cX c l) \/
   (keep c this /\ own0 c (fun _ => True) s this /\ forall l k, getv this s = Some (MRef l k) -> ~ cX c l)).
Lemma covS_cov : forall c s this, covS c s this -> cov c s this.
Proof.
  intros c s this (G & _ & H) v y l V D T. split; auto. destruct H as [H|(_ & H & _)].
  - intros o O. destruct (h_view o); auto.
  - eapply H; eauto.
Qed.
Lemma keep_getv : forall c s s' this x, fp c s s' -> keep c this -> tl this s -> getv this s' = Some x -> getv this s = Some x.
Proof.
  intros c s s' this x P K T G. eapply fp_getv; eauto. destruct this; simpl in *; auto; split; tauto.
Qed.
Lemma der_held : forall v s y, sound s -> held v s -> der_spec v s y -> held y s.
Proof.
  intros v s y S H D. destruct v as [| | |l i| |]; simpl in D; try (subst; auto; fail).
  destruct D as (o & O & D). destruct (plain_vars o).
  - destruct D as (k & N & _). destruct S as (_ & _ & S). eapply S; eauto. eapply in_contents_snd; eauto.
  - pose proof (rs_read_elem False s l (Z.of_nat i) S (H l eq_refl)) as R. unfold rs in R. rewrite D in R. apply R.
Qed.
Lemma covS_step : forall c e F s s' this, covS c s this -> fp c s s' -> sound s -> INV e F s' -> covS c s' this.
Proof.
  intros c e F s s' this (G & T & H) P S I'. split; auto. split; [eapply tl_fp; eauto|].
  destruct H as [H|(K & H & X)]; [left; auto|]. right. split; auto. split.
  - intros v y l V D Ty. pose proof (keep_getv _ _ _ _ _ P K T V) as V0. split; auto.
    assert (D0 : der_spec v s y).
    { destruct v as [| | |k i| |]; auto. specialize (X _ _ V0). simpl in D |- *. destruct D as (o & O & D).
      assert (Hk : live k s) by (pose proof (getv_held _ _ _ S V0) as Hh; apply Hh; reflexivity).
      apply live_obj in Hk as [o0 O0].
      destruct (fp_obj _ _ _ _ _ P (obj_lt _ _ _ O0) O) as (o1 & O1 & R). assert (o1 = o0) by congruence. subst o1.
      destruct R as (RT & _ & _ & R). destruct (R X) as [Ro|[Rd _]].
      2:{ exfalso. destruct (plain_vars o) eqn:Pv.
          - unfold plain_vars in Pv. destruct (h_view o); congruence.
          - pose proof (read_elem_num _ _ _ _ _ (proj1 (proj2 I')) D). congruence. }
      subst. exists o0. split; auto. destruct (plain_vars o0); auto.
      exfalso. pose proof (read_elem_num _ _ _ _ _ (proj1 (proj2 I')) D). congruence. }
    destruct (H v y l V0 D0 Ty) as [_ W]. eapply win_step; eauto.
    eapply der_held; eauto. eapply getv_held; eauto.
  - intros l k V. eapply X. eapply keep_getv; eauto.
Qed.
Lemma covS_bump : forall c s this v, covS c s this -> covS c (bump v s) this.
Proof.
  intros c s this v (G & T & H). split; auto. split; [apply tl_bump; auto|]. destruct H as [H|(K & H & X)]; auto. right.
  split; auto. split.
  - intros w y l W D Ty. rewrite getv_bump in W. apply der_bump in D. destruct (H w y l W D Ty). split; auto. apply win_bump; auto.
  - intros l k. rewrite getv_bump. apply X.
Qed.
Lemma covS_push : forall c s this v, under this s -> covS c s this -> covS c (push_s v s) this.
Proof.
  intros c s this v Un (G & T & H). split; auto. split; [apply tl_push; auto|]. destruct H as [H|(K & H & X)]; auto. right.
  split; auto. split.
  - intros w y l W D Ty. rewrite getv_push in W by auto. apply der_push in D. destruct (H w y l W D Ty). split; auto.
  - intros l k. rewrite getv_push by auto. apply X.
Qed.
Lemma move_post : forall c e F s this i j, INV e F s -> goodU c F s this -> under this s -> covS c s this ->
  post c e F s none anyp ((let! x := at_int this j in set_at this i x) s).
Proof.
  intros c e F s this i j I K Un C.
  eapply post_yields; [apply yields_at; [eauto|eapply goodU_okU; eauto]|auto|]. intros x _ Hx I1.
  apply set_at_post; auto.
  - apply okU_bump. eapply goodU_okU; eauto.
  - apply under_bump. auto.
  - apply covS_cov, covS_bump. auto.
Qed.
Lemma bind_assoc : forall A B C (m : M A) (f : A -> M B) (g : B -> M C) s,
  (let! x := m in let! y := f x in g y) s = (let! y := (let! x := m in f x) in g y) s.
Proof. intros. unfold bind. destruct (m s); auto. Qed.
Lemma shift_up_post : forall n c e F s this i, INV e F s -> goodU c F s this -> under this s -> covS c s this ->
  post c e F s none anyp (shift_up this n i s).
Proof.
  induction n; intros c e F s this i I K Un C; [apply post_ret; [auto|exact Logic.I]|].
  simpl. rewrite bind_assoc. eapply post_seq; [apply move_post; eauto|]. intros u s1 I1 P1 _.
  apply IHn; auto.
  - eapply goodU_step with (G := []); eauto.
  - eapply under_fp; eauto.
  - eapply covS_step; eauto.
Qed.
Lemma shift_down_post : forall n c e F s this i, INV e F s -> goodU c F s this -> under this s -> covS c s this ->
  post c e F s none anyp (shift_down this n i s).
Proof.
  induction n; intros c e F s this i I K Un C; [apply post_ret; [auto|exact Logic.I]|].
  simpl. rewrite bind_assoc. eapply post_seq; [apply move_post; eauto|]. intros u s1 I1 P1 _.
  apply IHn; auto.
  - eapply goodU_step with (G := []); eauto.
  - eapply under_fp; eauto.
  - eapply covS_step; eauto.
Qed.
(** For [this] that is not a reference and stays put. *)
Definition covN (c : ctx) (s : state) (this : lval) : Prop :=
  noG c /\ tl this s /\ ((U /\ forall l, cX c l) \/ (keep c this /\ own1 c (fun _ => True) s this)).
Lemma covN_covS : forall c s this, covN c s this -> covS c s this.
Proof.
  intros c s this (G & T & [[_ H]|[K O]]); split; auto; split; auto. right. split; auto. split; [apply own1_own0; auto|].
  intros l k V. exfalso. destruct (O _ V) as [N _]. eapply N; eauto.
Qed.
Lemma covN_step : forall c s s' this, covN c s this -> fp c s s' -> sound s -> covN c s' this.
Proof.
  intros c s s' this (G & T & H) P S. split; auto. split; [eapply tl_fp; eauto|]. destruct H as [H|[K O]]; auto.
  right. split; auto. eapply own1_step; eauto. intros x. eapply keep_getv; eauto.
Qed.
Lemma covN_bump : forall c s this v, covN c s this -> covN c (bump v s) this.
Proof.
  intros c s this v (G & T & H). split; auto. split; [apply tl_bump; auto|]. destruct H as [H|[K O]]; auto.
  right. split; auto.
  intros x. rewrite getv_bump. intros X. destruct (O x X) as [N A]. split; auto. intros l Tl. destruct (A l Tl). split; auto.
  apply win_bump; auto.
Qed.
Lemma covN_push : forall c s this v, under this s -> covN c s this -> covN c (push_s v s) this.
Proof.
  intros c s this v Un (G & T & H). split; auto. split; [apply tl_push; auto|]. destruct H as [H|[K O]]; auto.
  right. split; auto.
  intros x. rewrite getv_push by auto. intros X. destruct (O x X) as [N A]. split; auto.
Qed.
Lemma key_good : forall c F s this l o j, goodU c F s this -> covN c s this ->
  eff_of this s (MPtr l) -> obj l s = Some o -> h_ty o = HPair ->
  goodU c F s (LK l (h_gen o) j) /\ wr c (LK l (h_gen o) j).
Proof.
  intros c F s this l o j K (G & T & H) (v & V & E) Ob Ty.
  assert (Okl : ok_lv (LK l (h_gen o) j) s) by (exists o; rewrite Ty; auto).
  destruct H as [[Hu H]|[Kp O]]; [split; [split; [apply ok_tl; auto|auto]|simpl; auto]|].
  destruct (O v V) as [N A]. assert (v = MPtr l). { destruct v; simpl in E; auto; try congruence; exfalso; eapply N; eauto. }
  subst v. destruct (A l eq_refl) as [_ W]. specialize (W o Ob). split.
  - split; [apply ok_tl; auto|]. destruct K as [_ [K|K]]; [|auto]. left.
    split; auto. split; [|auto].
    destruct this as [n|k g i|k g i]; simpl in *.
    + eapply P_slot; eauto.
    + destruct K as (_ & Pr & _). destruct (obj k s) as [ok|] eqn:Ok; [|discriminate].
      destruct (Nat.eqb (h_gen ok) g); [|discriminate]. destruct (nth_error (h_cells ok) i) as [[a b]|] eqn:Nn; inversion V; subst.
      eapply P_cell; eauto; [eapply in_contents_snd; eauto|reflexivity].
    + destruct K as (_ & Pr & _). destruct (obj k s) as [ok|] eqn:Ok; [|discriminate].
      destruct (Nat.eqb (h_gen ok) g); [|discriminate]. destruct (nth_error (h_cells ok) i) as [[a b]|] eqn:Nn; inversion V; subst.
      eapply P_cell; eauto; [eapply in_contents_fst; eauto|reflexivity].
  - simpl. destruct (h_view o); [apply W; rewrite Ty; reflexivity|auto].
Qed.
(** Copying [src] to a key. *)
Lemma key_assign_post : forall c e F s this x i, INV e (x :: F) s -> goodU c F s this -> under this s -> covN c s this ->
  post c e F s none anyp (scoped x (fun p => let! dst := key_ptr this i in assign_plain dst p) s).
Proof.
  intros c e F s this x i I K Un C. eapply post_scoped with (c' := c) (Q := anyp); auto. intros I1.
  assert (K1 : goodU c F (push_s x s) this) by (apply goodU_push; auto).
  assert (C1 : covN c (push_s x s) this) by (apply covN_push; auto).
  eapply post_rs; [apply rs_key_ptr; [eauto|eapply goodU_okU; eauto]|auto|].
  intros k (l & o & j & -> & E & O & T).
  destruct (key_good c F (push_s x s) this l o j K1 C1 E O T) as [G W].
  apply assign_plain_post; auto. apply okU_LS.
Qed.
Lemma shift_up_pairs_post : forall n c e F s this i, INV e F s -> goodU c F s this -> under this s -> covN c s this ->
  post c e F s none anyp (shift_up_pairs this n i s).
Proof.
  induction n; intros c e F s this i I K Un C; [apply post_ret; [auto|exact Logic.I]|].
  simpl. rewrite bind_assoc. eapply post_yields; [apply yields_key; [eauto|eapply goodU_okU; eauto]|auto|].
  intros x _ Hx I1.
  eapply post_seq; [apply key_assign_post; eauto using goodU_bump, under_bump, covN_bump|]. intros u s1 I2 P1 _.
  assert (P0 : fp c s s1) by (eapply fp_trans; [apply fp_bump|eauto]).
  assert (K1 : goodU c F s1 this) by (eapply goodU_step with (G := []); eauto).
  assert (Un1 : under this s1) by (eapply under_fp; eauto).
  assert (C1 : covN c s1 this) by (eapply covN_step; eauto).
  rewrite bind_assoc. eapply post_seq; [apply move_post; eauto using covN_covS|]. intros u2 s2 I3 P2 _.
  apply IHn; auto.
  - eapply goodU_step with (G := []); eauto.
  - eapply under_fp; eauto.
  - eapply covN_step; eauto.
Qed.
Lemma clear_temp_post : forall c e F s a, INV e (a :: F) s -> (forall l i, a = MRef l i -> win c s l /\ ~ cG c l) ->
  post c e F s none anyp (scoped a (fun r => clear r) s).
Proof.
  intros c e F s a I A. unfold clear, assign_value.
  destruct (nonref_or a) as [N|(l & i & ->)].
  - eapply post_scoped with (c' := andK c (fun j => j < length (stk s))) (Q := anyp); simpl; auto. intros I1.
    eapply post_scoped with (c' := andK c (fun j => j < length (stk s))) (Q := anyp);
      [apply INV_add0; auto|intros I2|simpl; auto|simpl; auto|simpl; auto|intros; exact Logic.I].
   
    assert (G : getv (LS (length (stk s))) (push_s MNil (push_s a s)) = Some a).
    { rewrite getv_push by (simpl; rewrite app_length; simpl; lia). apply getv_push_new. }
    rewrite (assign_nonref_eq _ _ _ a); auto.
    apply assign_plain_post; auto; [apply goodU_LS| |apply okU_LS]. simpl. lia.
  - destruct (A l i eq_refl) as [W G]. eapply post_scoped with (c' := orK c (length (stk s))) (Q := anyp); simpl; auto. intros I1.
    eapply post_scoped with (c' := orK c (length (stk s))) (Q := anyp);
      [apply INV_add0; auto|intros I2|simpl; auto|simpl; auto|simpl; auto|intros; exact Logic.I].
    eapply assign_ref_post; [auto| |simpl; auto|exact G| |apply okU_LS].
    + rewrite getv_push by (simpl; rewrite app_length; simpl; lia). apply getv_push_new.
    + apply (win_X c); auto.
Qed.
(** The rest of [insert] on a map, after the resize. *)
Lemma pair_tail_post : forall c e F s this p idx, INV e F s -> goodU c F s this -> under this s -> covN c s this -> okU p s -> 
  (forall s', fp c s s' -> INV e F s' -> okU p s') ->
  post c e F s none anyp
    ((let! n := size_of this in
      shift_up_pairs this (Z.to_nat (n - 1 - idx)) (n - 1) ;;
      let! x := copy_of p in
      scoped x (fun q => let! dst := key_ptr this idx in assign_plain dst q) ;;
      let! r := at_int this idx in
      scoped r (fun r => clear r)) s).
Proof.
  intros c e F s this p idx I K Un C Kp Kp'.
  eapply post_rs; [apply rs_size_of; [eauto|eapply goodU_okU; eauto]|auto|]. intros n _.
  eapply post_seq; [apply shift_up_pairs_post; eauto|]. intros u s1 I1 P1 _.
  assert (K1 : goodU c F s1 this) by (eapply goodU_step with (G := []); eauto).
  assert (Un1 : under this s1) by (eapply under_fp; eauto).
  assert (C1 : covN c s1 this) by (eapply covN_step; eauto).
  rewrite bind_assoc. eapply post_seq with (Q1 := anyp).
  { eapply post_yields; [apply yields_copy_of; eauto|auto|]. intros x _ Hx I2.
    apply key_assign_post; eauto using goodU_bump, under_bump, covN_bump. }
  intros u2 s2 I2 P2 _.
  assert (K2 : goodU c F s2 this) by (eapply goodU_step with (G := []); eauto).
  assert (Un2 : under this s2) by (eapply under_fp; eauto).
  assert (C2 : covN c s2 this) by (eapply covN_step; eauto).
  eapply post_yields; [apply yields_at; [eauto|eapply goodU_okU; eauto]|auto|].
  intros a (v & y & V & D & T & _) Ha I3.
  apply clear_temp_post; auto. intros l i ->. simpl in T.
  pose proof (covS_cov _ _ _ (covN_covS _ _ _ C2)) as CC. destruct (CC v y l V D) as [W G]; auto.
Qed.
End Meth.
