(** Subscripts, [push], [insert], [remove], [copy], [shift], [append], views and keyed
    subscripts on a variable or temporary keep the invariant. *)
From Coq Require Import ZArith Bool List String Lia.
From Verif Require Import Base StrModel ValModel NumModel AllocModel MemModel MemProof MemFun MemEq MemDeref MemTriple MemOps MemArr MemMeth MemTop.
Import ListNotations.
Local Open Scope list_scope.
Local Open Scope mem_scope.
Local Notation length := List.length.

Lemma size_of_ref : forall p s l k o m n, getv p s = Some (MRef l k) -> obj l s = Some o -> plain_vars o = true ->
  size_of p s = ROk m s -> size_of (LC l (h_gen o) k) s = ROk n s -> n = m.
Proof.
  intros p s l k o m n G O Pl. unfold size_of, bind. rewrite (get_eq _ _ _ G).
  unfold eff at 1, bind, get_obj. rewrite (proj1 (obj_live _ _ _) O). rewrite Pl.
  destruct (nth_error (h_cells o) k) as [[a x]|] eqn:N; [|discriminate].
  assert (G2 : getv (LC l (h_gen o) k) s = Some x).
  { simpl. rewrite O, Nat.eqb_refl, N. reflexivity. }
  rewrite (get_eq _ _ _ G2). destruct x; simpl; intros A B; try discriminate; try (congruence).
Qed.

Section Call.
Variable U : Prop.
Notation post := (post U).
Notation goodU := (goodU U).
Notation okU := (okU U).
Notation rcv := (rcv U).
Notation RV := (RV U).
Notation GR := (GR U).

Definition loose : ctx := mkctx (fun _ => True) (fun _ => False) (fun _ => False).
Lemma win_all : forall c s l, (forall x, cX c x) -> win c s l.
Proof. intros c s l H o _. destruct (h_view o); auto. Qed.
(** A receiver whose lvalue need not be watched. *)
Definition easy (this : lval) : Prop := U \/ exists j, this = LS j.
Lemma easy_good : forall c F s this, easy this -> tl this s -> goodU c F s this.
Proof. intros c F s this [H|[j ->]] T; [split; auto|apply goodU_LS]. Qed.
Lemma easy_ok : forall s this, easy this -> okU this s.
Proof. intros s this [H|[j ->]]; [right; auto|apply okU_LS]. Qed.
Lemma covS_all : forall c s this, (forall x, cX c x) -> noG c -> tl this s -> covS c s this.
Proof. intros c s this H G T. split; auto. Qed.

Lemma spread_post : forall fuel c e F s this q idx i, INV e F s -> goodU c F s this -> under this s -> covS c s this ->
  post c e F s none anyp (spread this (LS q) idx fuel i s).
Proof.
  induction fuel; intros c e F s this q idx i I K Un C; [apply post_stuck|].
  simpl. eapply post_rs; [apply rs_size_of; [eauto|apply okU_LS]|auto|]. intros m _.
  destruct (_ <=? _)%Z; [apply post_ret; [auto|exact Logic.I]|].
  rewrite bind_assoc. eapply post_seq; [apply move_post; eauto|]. intros u s1 I1 P1 _.
  apply IHfuel; auto.
  - eapply goodU_step with (G := []); eauto.
  - eapply under_fp; eauto.
  - eapply covS_step; eauto.
Qed.
Lemma read_index_post : forall e F s q i m, INV e F s -> q < length (stk s) -> size_of (LS q) s = ROk m s -> (i < m)%Z ->
  post loose e F s own anyp (index_int (LS q) i s).
Proof.
  intros e F s q i m I L Sz Hi. destruct (getv (LS q) s) as [v|] eqn:G; [|simpl in G; apply nth_error_None in G; lia].
  destruct (nonref_or v) as [N|(l & k & ->)].
  - eapply post_any, index_int_post with (P := fun _ => True); auto; [apply goodU_LS| |split; simpl; auto].
    intros w W. assert (w = v) by congruence. subst w.
    assert (A : wr loose (LS q) /\ own1 loose (fun _ => True) s (LS q) /\
       ((forall l, True -> cX loose l /\ cG loose l) \/ (forall n, size_of (LS q) s = ROk n s -> (i < n)%Z))).
    { split; [simpl; auto|]. split.
      - intros x X. assert (x = v) by congruence. subst. split; auto. intros. split; auto. apply win_all. simpl. auto.
      - right. intros n Hn. assert (n = m) by congruence. lia. }
    destruct v; auto. exfalso. eapply N; eauto.
  - apply (post_ctx U _ still); [|simpl; auto..].
    eapply post_any, index_int_post with (P := fun _ => True); auto; [apply goodU_LS| |split; simpl; auto].
    intros w W. assert (w = MRef l k) by congruence. subst w. intros o O Pl. split; [simpl; auto|]. split; [|split].
    + split; [apply ok_tl, ok_cell; auto|]. left. split; [apply ok_cell; auto|]. split; [|simpl; auto].
      eapply P_slot; eauto; simpl; auto.
    + intros. split; auto. apply win_all. simpl. auto.
    + right. intros n Hn. assert (n = m) by (eapply size_of_ref; eauto). lia.
Qed.
Lemma fill_post : forall fuel e F s this q idx i, INV e F s -> easy this -> tl this s -> under this s -> q < length (stk s) ->
  post loose e F s none anyp (fill this (LS q) idx fuel i s).
Proof.
  induction fuel; intros e F s this q idx i I E T Un L; [apply post_stuck|].
  simpl. unfold bind at 1. pose proof (rs_size_of U s (LS q) (INV_sound _ _ _ I) (okU_LS _ _ _)) as SZ. unfold rs in SZ.
  destruct (size_of (LS q) s) as [m s'|x s'|k|] eqn:Sz; [|subst; apply post_throw; auto|exact SZ|exact Logic.I].
  destruct SZ as [-> _]. destruct (Z.leb_spec m i); [apply post_ret; [auto|exact Logic.I]|].
  eapply post_bind; [eapply read_index_post; eauto|]. intros x s1 I1 P1 _.
  assert (T1 : tl this s1) by (eapply tl_fp; eauto).
  assert (Un1 : under this s1) by (eapply under_fp; eauto).
  eapply post_seq with (Q1 := anyp).
  { apply set_at_post; auto; [apply easy_ok; auto|]. apply covS_cov, covS_all; simpl; auto. intros l; simpl; tauto. }
  intros u s2 I2 P2 _. apply IHfuel; auto.
  - eapply tl_fp; eauto.
  - eapply under_fp; eauto.
  - rewrite (fp_len _ _ _ P2), (fp_len _ _ _ P1). auto.
Qed.

Lemma post_thru : forall A B c e F s (H1 : A -> list mvar) Q1 (H2 : B -> list mvar) Q2 (m : M A) (f : A -> M B),
  post c e F s H1 Q1 (m s) ->
  (forall a s1, INV e (H1 a ++ F) s1 -> fp c s s1 -> Q1 a s1 -> post full e F s1 H2 Q2 (f a s1)) ->
  post full e F s H2 Q2 (bind m f s).
Proof.
  intros A B c e F s H1 Q1 H2 Q2 m f P K. unfold bind. destruct (m s) as [a s1|m' s1|k|]; simpl in P; auto.
  - destruct P as (P1 & P2 & P3). eapply post_from; [|eauto]. eapply fp_weaken; eauto; simpl; tauto.
  - destruct P as (P1 & P2). simpl. split; auto. eapply fp_weaken; eauto; simpl; tauto.
Qed.

Lemma insert_post : forall c P e s this q idx, INV e [] s -> RV c P s this -> easy this -> q < length (stk s) ->
  post full e [] s none anyp (insert this (LS q) idx s).
Proof.
  intros c P e s this q idx I R E L. unfold insert.
  pose proof (easy_ok s this E) as K.
  assert (T : tl this s) by (destruct (rv_rcv _ _ _ _ _ R) as (_ & [T _] & _); auto).
  assert (Un : under this s) by apply (rv_rcv _ _ _ _ _ R).
  eapply post_rs; [apply rs_size_of; eauto|auto|]. intros n _. destruct (_ <? _)%Z; [apply post_throw; auto|].
  eapply post_rs; [apply rs_is_array_of; eauto|auto|]. intros isv _.
  assert (Tail : forall n (m : M unit), (forall s1, INV e [] s1 -> tl this s1 -> under this s1 -> q < length (stk s1) ->
      own1 c P s1 this -> post full e [] s1 none anyp (m s1)) -> post full e [] s none anyp ((resize this n ;; m) s)).
  { intros z m H. eapply post_thru; [apply rv_resize; eauto|]. intros u s1 I1 P1 O1.
    apply H; auto; [eapply tl_fp; eauto|eapply under_fp; eauto|rewrite (fp_len _ _ _ P1); auto]. }
  assert (CS : forall c s1, (forall x, cX c x) -> noG c -> tl this s1 -> covS c s1 this) by (intros; apply covS_all; auto).
  assert (NG : noG loose) by (intros l; simpl; tauto).
  destruct isv.
  { eapply post_rs; [apply rs_size_of; eauto|auto|]. intros n1 _. apply Tail. intros s1 I1 T1 Un1 L1 _.
    eapply post_rs; [apply rs_size_of; eauto using easy_ok|auto|]. intros n2 _.
    eapply post_thru; [apply (shift_up_post U) with (c := loose); auto; [apply easy_good; auto|apply CS; simpl; auto]|].
    intros u s2 I2 P2 _. eapply post_full with (c := loose). apply set_at_copy_post; auto.
    - apply easy_ok; auto.
    - eapply under_fp; eauto.
    - apply covS_cov, CS; simpl; auto. eapply tl_fp; eauto.
    - apply okU_LS. }
  eapply post_rs; [apply rs_is_array_of; eauto|auto|]. intros isp _. destruct isp.
  { eapply post_rs; [apply rs_size_of; eauto|auto|]. intros n1 _. apply Tail. intros s1 I1 T1 Un1 L1 O1.
    eapply post_full with (c := still). apply (pair_tail_post U _ _ _ _ this (LS q) idx I1); auto; try (intros; apply okU_LS).
    - apply easy_good; auto.
    - split; [intros l; simpl; tauto|]. split; auto. destruct E as [u|[j ->]]; [left; split; simpl; auto|right]. split; [simpl; auto|].
      intros x X. destruct (O1 x X) as [N A]. split; auto. intros. split; auto. apply win_all. simpl; auto. }
  eapply post_rs; [apply rs_size_of; eauto|auto|]. intros n1 _.
  eapply post_rs; [apply rs_size_of; [eauto|apply okU_LS]|auto|]. intros m1 _.
  destruct (negb _); [apply post_ub; discriminate|]. apply Tail. intros s1 I1 T1 Un1 L1 _.
  eapply post_rs; [apply rs_size_of; eauto using easy_ok|auto|]. intros n2 _.
  eapply post_thru; [apply spread_post with (c := loose); auto; [apply easy_good; auto|apply CS; simpl; auto]|].
  intros u s2 I2 P2 _. eapply post_rs; [apply rs_size_of; [eauto|apply okU_LS]|auto|]. intros m2 _.
  eapply post_full with (c := loose). apply fill_post; auto; [eapply tl_fp; eauto|eapply under_fp; eauto|rewrite (fp_len _ _ _ P2); auto].
Qed.

(** * Maps found as elements *)
Definition pairy (s : state) (this : lval) : Prop :=
  exists l o, getv this s = Some (MPtr l) /\ obj l s = Some o /\ obj_type o s = ROk HPair s.
Lemma pairy_is : forall s this c, pairy s this -> is_array_of this c s = ROk (9 =? c)%Z s.
Proof.
  intros s this c (l & o & G & O & T). unfold is_array_of, heap_of, atype_of, bind. rewrite (get_eq _ _ _ G). simpl.
  rewrite (get_eq _ _ _ G). simpl. unfold bind, get_obj. rewrite (proj1 (obj_live _ _ _) O). rewrite T. reflexivity.
Qed.
Lemma insert_pair_post : forall c P e s l0 g k q idx, INV e [] s -> RV c P s (LC l0 g k) -> ~ P l0 -> pairy s (LC l0 g k) ->
  post c e [] s none anyp (insert (LC l0 g k) (LS q) idx s).
Proof.
  intros c P e s l0 g k q idx I R NP Pr. unfold insert.
  destruct (rv_rcv _ _ _ _ _ R) as (W & K & Un & _). pose proof (goodU_okU _ _ _ _ _ K) as Kok.
  eapply post_rs; [apply rs_size_of; eauto|auto|]. intros n _. destruct (_ <? _)%Z; [apply post_throw; auto|].
  unfold bind at 1. rewrite (pairy_is _ _ 8 Pr). change (9 =? 8)%Z with false. cbv iota.
  unfold bind at 1. rewrite (pairy_is _ _ 9 Pr). change (9 =? 9)%Z with true. cbv iota.
  eapply post_rs; [apply rs_size_of; eauto|auto|]. intros n1 _.
  eapply post_seq; [apply rv_resize; eauto|]. intros u s1 I1 P1 O1.
  assert (K1 : goodU c [] s1 (LC l0 g k)) by (eapply goodU_step with (G := []); eauto).
  set (c2 := mkctx P (fun _ => False) (cK c)).
  apply (post_ctx U _ c2); [|simpl; intros; apply R; auto|simpl; tauto|simpl; auto].
  apply pair_tail_post; auto; try (intros; apply okU_LS).
  - eapply goodU_mono; eauto; simpl; [intros; apply R; auto|tauto].
  - split; [intros l; simpl; tauto|]. split; [apply K1|]. right. split; [simpl; auto|].
    assert (O2 : own1 (wctx P) P s1 (LC l0 g k)).
    { apply (own1_W c); [|exact O1]. apply (rvX_fp c c P s s1); auto; apply R. }
    intros x X. destruct (O2 x X) as [N A]. split; auto. intros l Tl. destruct (A l Tl). split; auto.
Qed.

(** * Subscripts and push *)
Definition GI (s : state) (j : nat) : Prop := U \/ apart_of s (LS j).
Lemma GI_bump : forall s j v, GI s j -> GI (bump v s) j.
Proof. intros s j v [H|H]; [left; auto|right; apply apart_bump; auto]. Qed.
Lemma GI_push : forall s j v, j < length (stk s) -> GI s j -> GI (push_s v s) j.
Proof. intros s j v L [H|H]; [left; auto|right; apply apart_push; auto]. Qed.
Lemma index_top : forall e s j i, INV e [] s -> j < length (stk s) -> GI s j ->
  post full e [] s own anyp (index_int (LS j) i s).
Proof.
  intros e s j i I L G. destruct (getv (LS j) s) as [v|] eqn:V; [|simpl in V; apply nth_error_None in V; lia].
  destruct (nonref_or v) as [N|(l & k & ->)].
  - eapply post_any, index_int_post with (P := fun _ => True); auto; [apply goodU_LS| |split; simpl; auto].
    intros w W. assert (w = v) by congruence. subst w.
    assert (A : wr full (LS j) /\ own1 full (fun _ => True) s (LS j) /\
       ((forall l, True -> cX full l /\ cG full l) \/ (forall n, size_of (LS j) s = ROk n s -> (i < n)%Z))).
    { split; [simpl; auto|]. split; [|left; simpl; auto].
      intros x X. assert (x = v) by congruence. subst. split; auto. intros. split; auto. apply win_all. simpl. auto. }
    destruct v; auto. exfalso. eapply N; eauto.
  - destruct G as [u|A].
    + eapply post_any, index_int_post with (P := fun _ => True); auto; [apply goodU_LS| |split; simpl; auto].
      intros w W. assert (w = MRef l k) by congruence. subst w. intros o O Pl. split; [simpl; auto|]. split; [|split].
      * split; [apply ok_tl, ok_cell; auto|auto].
      * intros. split; auto. apply win_all. simpl. auto.
      * left. simpl. auto.
    + set (c := mkctx (fun x => PR s (LS j) x \/ cont s (LS j) x) (PR s (LS j)) (fun _ => True)).
      apply (post_full U _ c).
      eapply post_any, index_int_post with (P := PR s (LS j)); auto; [apply goodU_LS| |].
      2:{ intros x Hx. assert (PR s (LS j) x) by (right; right; auto). simpl. auto. }
      intros w W. assert (w = MRef l k) by congruence. subst w. intros o O Pl.
      split; [right; exists k, o; auto|]. split; [|split].
      * split; [apply ok_tl, ok_cell; auto|]. left. split; [apply ok_cell; auto|]. split.
        -- eapply P_slot; eauto; simpl; auto.
        -- simpl. eapply cont_PR; eauto.
      * intros x X Nx l' T'. assert (Tg : tgt s (LS j) l').
        { exists (MRef l k), x. split; auto. split; auto. simpl. exists o. split; auto. rewrite Pl.
          simpl in X. rewrite O, Nat.eqb_refl in X. destruct (nth_error (h_cells o) k) as [[a b]|]; inversion X; subst. eauto. }
        split; [left; auto|]. eapply win_mono; [|apply win_PR; eauto]. simpl. auto.
      * left. simpl. auto.
Qed.
Lemma push_top : forall e s j q, INV e [] s -> j < length (stk s) -> GI s j -> post full e [] s none anyp (push (LS j) (LS q) s).
Proof.
  intros e s j q I L G. unfold push.
  eapply post_rs; [apply rs_defined; [eauto|apply okU_LS]|auto|]. intros d _.
  eapply post_rs; [apply rs_type_of; [eauto|apply okU_LS]|auto|]. intros t _.
  assert (Go : post full e [] s none anyp ((let! x := copy_of (LS q) in
             scoped x (fun q0 =>
               let! n := size_of (LS j) in
               let! r := index_int (LS j) n in
               scoped r (fun r => assign r q0))) s)).
  { apply with_copy_top; auto. intros x I1. set (s1 := push_s x (bump x s)) in *.
    assert (L1 : j < length (stk s1)) by (unfold s1; simpl; rewrite app_length, bump_stk; simpl; lia).
    eapply post_rs; [apply rs_size_of; [eauto|apply okU_LS]|auto|]. intros n _.
    eapply post_bind; [apply index_top; auto; apply GI_push, GI_bump; auto; rewrite bump_stk; auto|].
    intros r s2 I2 P2 _. eapply post_scoped with (c' := full) (Q := anyp); simpl; auto. intros I3. apply assign_top; auto. }
  destruct (negb d).
  - destruct (negb _); [|exact Go]. apply with_copy_top; auto. intros x I1. apply assign_top; auto.
  - eapply post_rs; [apply rs_type_of; [eauto|apply okU_LS]|auto|]. intros u _.
    destruct (_ && _)%bool; [apply post_throw; auto|exact Go].
Qed.
Lemma insert_top : forall e s j q idx, INV e [] s -> j < length (stk s) -> q < length (stk s) -> GR s j ->
  post full e [] s none anyp (insert (LS j) (LS q) idx s).
Proof.
  intros e s j q idx I L Lq G. destruct (RV_exists _ _ _ _ I L G) as (c & P & R).
  eapply insert_post; eauto. right. eauto.
Qed.
Lemma append_top : forall e s j q, INV e [] s -> j < length (stk s) -> q < length (stk s) -> GR s j ->
  post full e [] s none anyp (append (LS j) (LS q) s).
Proof.
  intros e s j q I L Lq G. unfold append.
  eapply post_rs; [apply rs_size_of; [eauto|apply okU_LS]|auto|]. intros n _. apply insert_top; auto.
Qed.
End Call.
