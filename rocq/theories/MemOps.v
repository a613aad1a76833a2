(** The basic operations keep the invariant: dereferencing, assignment, element access. *)
From Coq Require Import ZArith Bool List String Lia.
From Verif Require Import Base StrModel ValModel NumModel AllocModel MemModel MemProof MemFun MemEq MemDeref MemTriple.
Import ListNotations.
Local Open Scope list_scope.
Local Open Scope mem_scope.
Local Notation length := List.length.

Lemma INV_putv_same : forall e F s v x old, INV e F s -> getv v s = Some old -> target x = target old -> tl v s ->
  INV e F (putv v x s).
Proof.
  intros e F s v x old (I & T & E) G X K. split; [|split].
  - eapply inv_same; eauto using putv_mem_length, putv_rc.
    + intros. rewrite live_putv. tauto.
    + intros. pose proof (tot_put v x old F s l G) as P. unfold tot in *. simpl in P.
      rewrite (occ1_target x old) in P by auto. lia.
  - apply typed_putv; auto.
  - rewrite putv_mem_length. auto.
Qed.
Lemma cell_occ_none : forall c i k x, (forall l, cell_occ l c = 0) -> nth_error c i = Some (k, x) ->
  target k = None /\ target x = None.
Proof.
  intros c i k x H N.
  assert (A : forall l, occ1 l k + occ1 l x = 0).
  { intros l. pose proof (cell_occ_sn l c i (k, x) (MNil, MNil) N) as B. rewrite H in B. simpl in B.
    change (occ1 l MNil) with 0 in B. lia. }
  split.
  - destruct (target k) as [l|] eqn:T; auto. specialize (A l). unfold occ1 in A. rewrite T, Nat.eqb_refl in A. lia.
  - destruct (target x) as [l|] eqn:T; auto. specialize (A l). unfold occ1 in A. rewrite T, Nat.eqb_refl in A. lia.
Qed.
Lemma read_elem_num : forall l i s x s', typed s -> read_elem l i s = ROk x s' -> target x = None.
Proof.
  intros l i s x s' T. unfold read_elem, elem_at, bind, get_obj, ret, own_int, ub, stuck.
  assert (A : forall t j, match nth_error (mem s) t with
     | Some (Some o) => match nth_error (h_cells o) j with
         | Some (_, MJunk) => RUB Uninit
         | Some (_, x) => if varlike (h_ty o) then RStuck else ROk x s
         | None => RUB OutOfBounds end
     | _ => RUB UseAfterFree end = ROk x s' -> target x = None).
  { intros t j. destruct (nth_error (mem s) t) as [[o|]|] eqn:O; try discriminate.
    destruct (nth_error (h_cells o) j) as [[k y]|] eqn:N; [|discriminate].
    assert (D : varlike (h_ty o) = false -> target y = None).
    { intros V. eapply (cell_occ_none (h_cells o) j k y); auto. intros. apply (T t); auto. apply obj_live. auto. }
    destruct (varlike (h_ty o)) eqn:V; destruct y; try discriminate; intros E; inversion E; subst; auto. }
  destruct (nth_error (mem s) l) as [[o|]|]; try discriminate.
  destruct (h_view o) as [t|].
  - destruct (nth_error (h_cells o) 0) as [[? []]|]; try discriminate. destruct x0; try discriminate.
    destruct (_ <? _)%Z; try discriminate.
    intros H. apply (A t (Z.to_nat (i + z))). rewrite <- H.
    destruct (nth_error (mem s) t) as [[o'|]|]; auto.
    destruct (nth_error (h_cells o') (Z.to_nat (i + z))) as [[? []]|]; auto; destruct (varlike (h_ty o')); auto.
  - destruct (_ <? _)%Z; try discriminate.
    intros H. apply (A l (Z.to_nat i)). rewrite <- H.
    destruct (nth_error (mem s) l) as [[o'|]|]; auto.
    destruct (nth_error (h_cells o') (Z.to_nat i)) as [[? []]|]; auto; destruct (varlike (h_ty o')); auto.
Qed.
Lemma target_nonref : forall x, target x = None -> nonref x.
Proof. intros x H l i ->. discriminate. Qed.
Lemma plain_varlike : forall o, plain_vars o = true -> varlike (h_ty o) = true.
Proof. unfold plain_vars. intros o. destruct (h_view o); auto. discriminate. Qed.
Lemma getv_unpush : forall v n s x, getv v (unpush n s) = Some x -> getv v s = Some x.
Proof.
  intros v n s x H. destruct v; simpl in *; auto.
  rewrite <- H. symmetry. apply nth_error_firstn_lt. apply ne_lt in H. rewrite firstn_length in H. lia.
Qed.
Lemma ok_cell : forall l s o i, obj l s = Some o -> plain_vars o = true -> ok_lv (LC l (h_gen o) i) s.
Proof. intros. exists o. auto using plain_varlike. Qed.
Lemma getv_fun : forall v s a b, getv v s = Some a -> getv v s = Some b -> a = b.
Proof. intros. congruence. Qed.
Lemma getv_putv_inv : forall v x y s, getv v (putv v x s) = Some y -> y = x.
Proof.
  intros v x y s H. destruct v as [i|l g i|l g i]; simpl in *.
  - destruct (Nat.lt_ge_cases i (length (stk s))).
    + rewrite sn_same in H by auto. congruence.
    + rewrite sn_none in H by auto. apply ne_lt in H. lia.
  - rewrite obj_put_cell in H. destruct (obj l s) as [o|]; [|discriminate]. rewrite Nat.eqb_refl in H.
    destruct (nth_error (h_cells o) i) as [c|] eqn:N.
    + simpl in H. destruct (Nat.eqb (h_gen o) g); [|discriminate].
      rewrite sn_same in H by (eapply ne_lt; eauto). simpl in H. congruence.
    + destruct (Nat.eqb (h_gen o) g); [|discriminate]. rewrite N in H. discriminate.
  - rewrite obj_put_cell in H. destruct (obj l s) as [o|]; [|discriminate]. rewrite Nat.eqb_refl in H.
    destruct (nth_error (h_cells o) i) as [c|] eqn:N.
    + simpl in H. destruct (Nat.eqb (h_gen o) g); [|discriminate].
      rewrite sn_same in H by (eapply ne_lt; eauto). simpl in H. congruence.
    + destruct (Nat.eqb (h_gen o) g); [|discriminate]. rewrite N in H. discriminate.
Qed.

Section Ops.
Variable U : Prop.
Notation post := (post U).
Notation goodU := (goodU U).
Notation okU := (okU U).

(** What [dereference] gives: where the var is, and its value, which [this] now has. *)
Definition dereffed (this : lval) (s : state) (r : lval) (s' : state) : Prop :=
  tl r s' /\
  exists v, getv this s = Some v /\
  ((nonref v /\ r = this /\ s' = s) \/
   (exists l i o y, v = MRef l i /\ obj l s = Some o /\
      r = (if plain_vars o then LC l (h_gen o) i else this) /\
      der_spec v s y /\ nonref y /\ (plain_vars o = false -> target y = None) /\
      (forall x, getv this s' = Some x -> x = y) /\ (forall x, getv r s' = Some x -> x = y))).

Lemma deref_post : forall c e F s this, INV e F s -> goodU c F s this -> wr c this ->
  post c e F s none (fun r s' => dereffed this s r s') (dereference this s).
Proof.
  intros c e F s this I K W. unfold dereference.
  eapply post_rs; [apply rs_get; eapply goodU_okU; eauto|auto|]. intros v V.
  destruct v as [|z|l|l i| |] eqn:Ev;
    try (apply post_ret; [auto|]; split; [apply K|]; eexists; split; [eauto|left; split; [unfold nonref; congruence|auto]]).
  assert (Hl : held (MRef l i) s) by (eapply getv_held; eauto).
  eapply post_rs; [apply rs_get_obj; apply Hl; reflexivity|auto|]. intros o O. cbv beta in O.
  destruct (plain_vars o) eqn:P.
  - destruct (lval_eqb (LC l (h_gen o) i) this) eqn:Eq.
    + unfold bind. rewrite (put_eq _ _ _ MBad V). simpl. split; [|apply fp_putv; auto].
      exists (fun k => e k + occ1 k (MRef l i)). split; [|right; reflexivity].
      apply INV_lose. apply (INV_putv e F s this MBad); [apply INV_add0; auto|auto|apply K].
    + unfold bind at 1. rewrite (put_eq _ _ _ (MPtr l) V).
      set (s1 := putv this (MPtr l) s).
      assert (I1 : INV e F s1) by (eapply INV_putv_same; eauto; apply K).
      assert (P1 : fp c s s1) by (apply fp_putv; auto).
      eapply post_from; [exact P1|].
      assert (K1 : goodU c F s1 this) by (eapply goodU_step with (G := []); eauto).
      destruct (obj_putv this (MPtr l) s l o O) as (o1 & O1 & T1 & V1 & G1 & _). fold s1 in O1.
      set (r := LC l (h_gen o) i) in *.
      assert (R1 : ok_lv r s1).
      { exists o1. split; auto. split; auto. rewrite T1. apply plain_varlike; auto. }
      eapply post_yields with (Q := fun x => getv r s1 = Some x); [apply yields_copy_of; [eauto|left; auto]|auto|].
      intros y Y Hy I2.
      assert (Yr : getv r s = Some y).
      { unfold s1 in Y. destruct (getv r s) as [z|] eqn:Z.
        - rewrite (getv_putv_other this r _ _ _ V) in Y; congruence.
        - exfalso. simpl in Z, Y. rewrite O in Z. unfold s1 in Y.
          pose proof (obj_putv this (MPtr l) s l o O) as (o2 & O2 & _ & _ & G2 & _ & L2).
          rewrite O2, G2 in Y. rewrite Nat.eqb_refl in Z, Y.
          destruct (nth_error (h_cells o) i) eqn:N; [discriminate|]. apply nth_error_None in N.
          destruct (nth_error (h_cells o2) i) eqn:N2; [|discriminate]. apply ne_lt in N2. lia. }
      eapply post_bind with (H1 := none) (Q1 := fun _ s' =>
        nonref y /\ (forall x, getv this s' = Some x -> x = y) /\ (forall x, getv r s' = Some x -> x = y)).
      * eapply post_scoped with (c' := c) (Q := fun _ s2 => nonref y /\
          thin (bump y (putv this y (push_s y (bump y s1)))) s2); auto.
        -- intros I3. eapply post_rs; [apply rs_get; apply okU_LS|auto|]. intros y' Y'.
           rewrite getv_push_new in Y'. inversion Y'; subst y'.
           assert (K3 : goodU c F (push_s y (bump y s1)) this) by (apply goodU_push, goodU_bump; auto).
           eapply post_seq.
           ++ apply replace_ok; eauto; [|apply K3|eapply goodU_okU; eauto].
              apply held_push, held_bump; auto.
           ++ intros u s2 I4 P4 (old & Old & Th).
              assert (K4 : goodU c F s2 this) by (eapply goodU_step with (G := []); eauto).
              eapply post_rs; [apply rs_get; eapply goodU_okU; eauto|auto|]. intros z Z.
              assert (z = y).
              { apply (thin_getv _ _ _ _ Th) in Z. rewrite getv_bump in Z. apply getv_putv_inv in Z. auto. }
              subst z. destruct y; try (apply post_ret; [auto|split; [unfold nonref; congruence|auto]]).
              apply post_stuck.
        -- intros u s2 s3 [N2 Th] I4 P4 Th' I5 P5. split; auto. split; intros x X.
           ++ apply (thin_getv _ _ _ _ Th') in X. apply getv_unpush in X.
              apply (thin_getv _ _ _ _ Th) in X. rewrite getv_bump in X. apply getv_putv_inv in X. auto.
           ++ apply (thin_getv _ _ _ _ Th') in X. apply getv_unpush in X.
              apply (thin_getv _ _ _ _ Th) in X. rewrite getv_bump in X.
              assert (A : getv this (push_s y (bump y s1)) = Some (MPtr l)).
              { rewrite getv_push, getv_bump. { unfold s1. eapply getv_putv_same; eauto. }
                eapply (under_len _ s); [rewrite bump_stk; unfold s1; apply putv_stk_length|]. eapply getv_under; eauto. }
              assert (B : getv r (push_s y (bump y s1)) = Some y) by (rewrite getv_push, getv_bump; simpl; auto).
              rewrite (getv_putv_other this r _ _ _ A) in X; congruence.
      * intros u s3 I3 P3 (N3 & X1 & X2). apply post_ret; auto. split.
        -- apply (tl_fp _ _ _ _ P3). apply tl_bump. apply ok_tl. auto.
        -- exists (MRef l i). split; auto. right. exists l, i, o, y. rewrite P.
           split; [auto|]. split; [auto|]. split; [auto|].
           split; [|split; [auto|split; [congruence|split; auto]]].
           exists o. split; auto. rewrite P. simpl in Yr. rewrite O, Nat.eqb_refl in Yr.
           destruct (nth_error (h_cells o) i) as [[k y']|] eqn:N; inversion Yr; subst. eauto.
  - pose proof (rs_read_elem U s l (Z.of_nat i) (INV_sound _ _ _ I) (Hl l eq_refl)) as R. unfold rs in R.
    unfold bind at 1. destruct (read_elem l (Z.of_nat i) s) as [x s'|m s'|k|] eqn:RE; auto.
    2:{ subst. simpl. split; [exists e; auto|apply fp_refl]. }
    destruct R as [-> Hx].
    assert (Tx : target x = None) by (eapply read_elem_num; eauto; apply I).
    eapply post_seq; [apply replace_ok; eauto; [apply K|eapply goodU_okU; eauto]|].
    intros u s2 I2 P2 (old & Old & Th).
    assert (Z : forall z, getv this s2 = Some z -> z = x).
    { intros z Z. apply (thin_getv _ _ _ _ Th) in Z. rewrite getv_bump in Z. apply getv_putv_inv in Z. auto. }
    apply post_ret; auto. split.
    + apply (tl_fp _ _ _ _ P2). apply K.
    + exists (MRef l i). split; auto. right. exists l, i, o, x. rewrite P.
      split; [auto|]. split; [auto|]. split; [auto|].
      split; [|split; [apply target_nonref; auto|split; [auto|split; auto]]].
      exists o. rewrite P. auto.
Qed.

(** * Changing an object *)
Lemma INV_set_mem : forall e F F' s l o o', INV e F s -> obj l s = Some o ->
  (forall k, occ k (contents o') + occ k F' = occ k (contents o) + occ k F) -> dense_ok o' ->
  INV e F' (set_mem l o' s).
Proof.
  intros e F F' s l o o' (I & T & E) O H D. pose proof (obj_lt _ _ _ O) as L. split; [|split].
  - eapply inv_same; eauto; simpl.
    + apply sn_length.
    + intros k. rewrite !live_obj. setoid_rewrite obj_set_mem; auto. destruct (Nat.eqb_spec l k); [subst|tauto].
      split; intros _; eauto.
    + intros k. unfold tot. simpl. apply obj_live in O. pose proof (occm_sn k _ _ _ (Some o') O) as A. simpl in A.
      specialize (H k). lia.
  - intros k o1. rewrite obj_set_mem by auto. destruct (Nat.eqb_spec l k); [|apply T]. intros X. inversion X; subst. auto.
  - simpl. rewrite sn_length. auto.
Qed.
Lemma fp_set_mem : forall c l o o' s, obj l s = Some o -> cX c l -> h_ty o' = h_ty o -> h_view o' = h_view o ->
  (h_gen o' = h_gen o /\ length (h_cells o') = length (h_cells o)) \/ cG c l -> fp c s (set_mem l o' s).
Proof.
  intros c l o o' s O HX T V G. unfold fp. simpl. rewrite sn_length. repeat split; auto.
  intros k o1 Hk H0. assert (H : obj k (set_mem l o' s) = Some o1) by (apply obj_live; exact H0).
  rewrite obj_set_mem in H by (eapply obj_lt; eauto). destruct (Nat.eqb_spec l k).
  - subst. inversion H; subst. exists o. apply obj_live in O. split; auto. unfold obj_rel. intuition.
  - apply obj_live in H. exists o1. split; auto. apply obj_rel_refl.
Qed.
(** Writing an element of [l] is allowed. *)
Definition win (c : ctx) (s : state) (l : nat) : Prop :=
  forall o, obj l s = Some o ->
  match h_view o with
  | None => cX c l
  | Some t => (varlike (h_ty o) = true -> cX c l) /\
              forall ot, obj t s = Some ot -> varlike (h_ty ot) = false -> cX c t
  end.
Lemma win_bump : forall c s l v, win c (bump v s) l <-> win c s l.
Proof.
  intros. unfold win. split; intros H o O.
  - rewrite <- (obj_bump v) in O. specialize (H o O). destruct (h_view o); auto. split; [tauto|]. intros ot Ot. apply H. rewrite obj_bump. auto.
  - rewrite obj_bump in O. specialize (H o O). destruct (h_view o); auto. split; [tauto|]. intros ot Ot. apply H. rewrite obj_bump in Ot. auto.
Qed.
Lemma win_push : forall c s l v, win c (push_s v s) l <-> win c s l.
Proof.
  intros. unfold win. split; intros H o O.
  - rewrite <- (obj_push v) in O. specialize (H o O). destruct (h_view o); auto.
  - rewrite obj_push in O. specialize (H o O). destruct (h_view o); auto.
Qed.
Lemma win_step : forall c c' s s' l, fp c' s s' -> sound s -> live l s -> win c s l -> win c s' l.
Proof.
  intros c c' s s' l P S L W o' O'. apply live_obj in L as [o O].
  destruct (fp_obj _ _ _ _ _ P (obj_lt _ _ _ O) O') as (o1 & O1 & R). assert (o1 = o) by congruence. subst.
  destruct R as (RT0 & RV & _). rewrite RV, RT0. specialize (W o O). destruct (h_view o) as [t|] eqn:V; auto.
  split; [tauto|].
  intros ot' Ot D. pose proof (view_live _ _ _ _ S O V) as Lt. apply live_obj in Lt as [ot Ot0].
  destruct (fp_obj _ _ _ _ _ P (obj_lt _ _ _ Ot0) Ot) as (o2 & O2 & R). assert (o2 = ot) by congruence. subst.
  destruct R as (RT & _). apply (proj2 W ot); auto. congruence.
Qed.
Lemma win_mono : forall c c' s l, (forall l, cX c l -> cX c' l) -> win c s l -> win c' s l.
Proof. intros c c' s l H W o O. specialize (W o O). destruct (h_view o); auto. destruct W. split; eauto. Qed.

Lemma dense_set : forall o i k x, dense_ok o -> target x = None ->
  (exists y, nth_error (h_cells o) i = Some (k, y)) -> dense_ok (set_cells o (set_nth (h_cells o) i (k, x))) /\
  (varlike (h_ty o) = false -> forall n, cell_occ n (set_nth (h_cells o) i (k, x)) = 0).
Proof.
  intros o i k x D T [y N].
  assert (A : varlike (h_ty o) = false -> forall n, cell_occ n (set_nth (h_cells o) i (k, x)) = 0).
  { intros V n. pose proof (cell_occ_sn n _ _ _ (k, x) N) as B. simpl in B.
    assert (C : occ1 n x = 0) by (unfold occ1; rewrite T; auto). rewrite (proj1 D V n) in B. lia. }
  split; auto. split; [exact A|apply D].
Qed.
(** An element of a dense array may be written whatever the context says. *)
Lemma fp_set_dense : forall c l o o' s, obj l s = Some o -> varlike (h_ty o) = false -> h_ty o' = h_ty o -> h_view o' = h_view o ->
  h_gen o' = h_gen o -> length (h_cells o') = length (h_cells o) -> (forall v k, target v = Some k -> In v (contents o) -> In v (contents o')) ->
  fp c s (set_mem l o' s).
Proof.
  intros c l o o' s O D T V G Le H. unfold fp. simpl. rewrite sn_length. repeat split; auto.
  intros k o1 Hk H0. assert (H1 : obj k (set_mem l o' s) = Some o1) by (apply obj_live; exact H0).
  rewrite obj_set_mem in H1 by (eapply obj_lt; eauto). destruct (Nat.eqb_spec l k).
  - subst. inversion H1; subst. exists o. apply obj_live in O. split; auto. unfold obj_rel. intuition.
  - apply obj_live in H1. exists o1. split; auto. apply obj_rel_refl.
Qed.
Lemma write_elem_keeps : forall c e F s l i x, INV e F s -> live l s ->
  post c e F s none (fun _ s' => forall k, live k s -> live k s') (write_elem l i x s).
Proof.
  intros c e F s l i x I L. unfold write_elem.
  eapply post_rs with (Q := fun p => live (fst p) s); [|auto|].
  { unfold elem_at. eapply rs_bind; [apply rs_get_obj; auto|]. intros o O. cbv beta in O.
    eapply rs_bind with (Q := fun p => live (fst p) s).
    - destruct (h_view o) as [t|] eqn:V.
      + eapply rs_bind; [apply rs_own_int|]. intros z _. apply rs_ret. simpl. eapply view_live; eauto.
      + apply rs_ret. simpl. auto.
    - intros [t j] H. destruct (_ <? _)%Z; [apply rs_ub; discriminate|apply rs_ret; auto]. }
  intros [t j] Lt. simpl in Lt.
  eapply post_rs; [apply rs_get_obj; auto|auto|]. intros o O. cbv beta in O.
  destruct (nth_error (h_cells o) j) as [[k y]|] eqn:N; [|apply post_ub; discriminate].
  destruct (varlike (h_ty o)) eqn:V; [apply post_stuck|].
  pose proof I as (_ & Ty & _). pose proof (Ty _ _ O) as D.
  destruct (dense_set o j k (MNum x) D eq_refl) as [D1 D2]; eauto.
  unfold set_obj. simpl. fold (set_mem t (set_cells o (set_nth (h_cells o) j (k, MNum x))) s). split; [|split].
  - eapply INV_set_mem; eauto. intros n. rewrite !occ_contents. simpl. rewrite D2, (proj1 D) by auto. reflexivity.
  - eapply fp_set_dense; eauto; [simpl; apply sn_length|]. intros v n Tv Iv.
    unfold contents in *. apply in_app_or in Iv as [Iv|Iv]; apply in_or_app; [exfalso|right; auto].
    pose proof (occ_in n v (flat_map (fun c => [fst c; snd c]) (h_cells o)) Iv Tv). pose proof (proj1 D V n) as Z. unfold cell_occ in Z. lia.
  - intros n Ln. apply live_obj. apply live_obj in Ln as [on On]. rewrite obj_set_mem by (eapply obj_lt; eauto). destruct (Nat.eqb t n); eauto.
Qed.

Lemma write_elem_post : forall c e F s l i x, INV e F s -> live l s -> post c e F s none anyp (write_elem l i x s).
Proof. intros. eapply post_weaken; [apply write_elem_keeps; auto|intros; exact Logic.I]. Qed.
Lemma copy_elems_post : forall n c e F s l l' i, INV e F s -> live l s -> live l' s ->
  post c e F s none anyp (copy_elems l l' n i s).
Proof.
  induction n; intros c e F s l l' i I L L'; cbn [copy_elems]; [apply post_ret; [auto|exact Logic.I]|].
  eapply post_rs; [apply rs_read_elem; eauto|auto|]. intros x _.
  destruct x; try apply post_stuck. eapply post_seq; [apply write_elem_keeps; auto|]. intros u s1 I1 P1 Lv. cbv beta in Lv.
  apply IHn; auto.
Qed.
Lemma set_view_post : forall c e F s l l' p, INV e F s -> live l s -> live l' s -> okU p s ->
  post c e F s none anyp (set_view l l' p s).
Proof.
  intros c e F s l l' p I L L' K. unfold set_view.
  eapply post_rs; [apply rs_get_obj; auto|auto|]. intros o O. cbv beta in O.
  eapply post_rs; [apply rs_get_obj; auto|auto|]. intros o' O'. cbv beta in O'.
  eapply post_rs; [eapply rs_obj_type; eauto|auto|]. intros t _.
  eapply post_rs with (Q := fun _ => True); [|auto|].
  { destruct (Nat.eqb _ _); [|apply rs_ret; auto]. eapply rs_bind; [apply rs_obj_size|]. intros n _. apply rs_ret. auto. }
  intros one _. destruct one.
  - assert (D : forall t, post c e F s none anyp ((let! x := cast_var t p in write_elem l 0 x) s)).
    { intros t0. eapply post_rs; [apply rs_cast_var; eauto|auto|]. intros x _. apply write_elem_post; auto. }
    destruct t as [[]|]; auto; apply post_stuck.
  - eapply post_rs; [eapply rs_obj_type; eauto|auto|]. intros t' _.
    destruct (negb _); [apply post_throw; auto|].
    eapply post_rs; [apply rs_obj_size|auto|]. intros n _. destruct (_ =? _)%Z; [apply post_ub; discriminate|].
    assert (D : post c e F s none anyp ((let! n' := obj_size o' in copy_elems l l' (Z.to_nat n') 0) s)).
    { eapply post_rs; [apply rs_obj_size|auto|]. intros n' _. apply copy_elems_post; auto. }
    destruct t as [[]|]; auto; apply post_throw; auto.
Qed.
Lemma assign_plain_post : forall c e F s this p, INV e F s -> goodU c F s this -> wr c this -> okU p s ->
  post c e F s none anyp (assign_plain this p s).
Proof.
  intros c e F s this p I K W Kp. unfold assign_plain.
  eapply post_rs; [apply rs_get; eapply goodU_okU; eauto|auto|]. intros t T; cbv beta in T.
  eapply post_rs with (Q := fun _ => True); [|auto|].
  { destruct t as [| |l| | |]; try (apply rs_ret; exact Logic.I).
    eapply rs_bind; [apply rs_heap_of; eauto|]. intros h (x & E & Hx & ->).
    apply rs_copyable; eauto.
    - pose proof (getv_held _ _ _ (INV_sound _ _ _ I) T) as H. apply H. reflexivity.
    - intros k Ek. destruct x; inversion Ek; subst. apply Hx. reflexivity. }
  intros b _. destruct b.
  { destruct t as [| |l| | |]; try apply post_stuck.
    eapply post_rs; [apply rs_heap_of; eauto|auto|]. intros h (x & E & Hx & ->).
    destruct x as [| |l'| | |]; try apply post_stuck. apply set_view_post; auto.
    pose proof (getv_held _ _ _ (INV_sound _ _ _ I) T) as H. apply H. reflexivity. }
  eapply post_rs; [apply rs_get; auto|auto|]. intros x X; cbv beta in X.
  assert (Hx : held x s) by (eapply getv_held; eauto).
  assert (G : post c e F s none anyp ((replace this x ;; (let! _ := dereference this in ret tt)) s)).
  { eapply post_seq; [apply replace_ok; eauto; [apply K|eapply goodU_okU; eauto]|].
    intros u s1 I1 P1 _.
    eapply post_seq; [apply deref_post; auto; eapply goodU_step with (G := []); eauto|].
    intros r s2 I2 P2 _. apply post_ret; auto. exact Logic.I. }
  destruct t; auto. apply post_stuck.
Qed.

Lemma assign_nonref_eq : forall this p s t, getv this s = Some t -> nonref t -> assign this p s = assign_plain this p s.
Proof.
  intros. unfold assign, bind at 1. rewrite (get_eq _ _ _ H). destruct t; auto. exfalso. eapply H0; eauto.
Qed.
Lemma assign_ref_post : forall c e F s j p l i, INV e F s -> getv (LS j) s = Some (MRef l i) ->
  cK c j -> ~ cG c l -> win c s l -> okU p s ->
  post c e F s none anyp (assign (LS j) p s).
Proof.
  intros c e F s j p l i I G K NG W Kp. unfold assign, bind at 1. rewrite (get_eq _ _ _ G).
  assert (Hl : live l s) by (eapply (getv_held (LS j)); eauto; reflexivity).
  eapply post_rs; [apply rs_get_obj; auto|auto|]. intros o O. cbv beta in O.
  eapply post_rs; [eapply rs_obj_type; eauto|auto|]. intros ty _.
  assert (D : forall t, post c e F s none anyp ((let! x := cast_var t p in write_elem l (Z.of_nat i) x) s)).
  { intros t. eapply post_rs; [apply rs_cast_var; eauto|auto|]. intros x _. apply write_elem_post; auto. }
  assert (Pl : post c e F s none anyp ((if plain_vars o then
        let! x := copy_of p in scoped x (fun p' => assign_plain (LC l (h_gen o) i) p') else stuck) s)).
  { destruct (plain_vars o) eqn:P; [|apply post_stuck].
    eapply post_yields; [apply yields_copy_of; eauto|auto|]. intros x X Hx I1; cbv beta in X.
    eapply post_scoped with (c' := c) (Q := anyp); auto.
    intros I2. apply assign_plain_post; auto.
    - apply goodU_push, goodU_bump. split; [apply ok_tl, ok_cell; auto|]. left. split; [apply ok_cell; auto|].
      split; [|auto]. eapply P_slot; eauto; reflexivity.
    - simpl. specialize (W o O). unfold plain_vars in P. destruct (h_view o); [discriminate|auto].
    - apply okU_LS. }
  destruct ty as [[]|]; auto.
Qed.

Definition cov (c : ctx) (s : state) (this : lval) : Prop :=
  forall v y l, getv this s = Some v -> der_spec v s y -> target y = Some l -> win c s l /\ ~ cG c l.
Lemma der_bump : forall v s w y, der_spec v (bump w s) y <-> der_spec v s y.
Proof.
  intros. destruct v; simpl; try tauto. setoid_rewrite obj_bump. setoid_rewrite read_elem_bump.
  split; intros (o & O & H); exists o; split; auto; destruct (plain_vars o); auto;
    destruct (read_elem l (Z.of_nat i) s) eqn:R; inversion H; subst; auto.
  pose proof (reader_read_elem l (Z.of_nat i) s) as RR. rewrite R in RR. congruence.
Qed.
Lemma der_push : forall v s w y, der_spec v (push_s w s) y <-> der_spec v s y.
Proof.
  intros. destruct v; simpl; try tauto. setoid_rewrite obj_push. setoid_rewrite read_elem_push.
  split; intros (o & O & H); exists o; split; auto; destruct (plain_vars o); auto;
    destruct (read_elem l (Z.of_nat i) s) eqn:R; inversion H; subst; auto.
  pose proof (reader_read_elem l (Z.of_nat i) s) as RR. rewrite R in RR. congruence.
Qed.
Lemma nonref_or : forall v, nonref v \/ exists l i, v = MRef l i.
Proof. intros []; try (left; unfold nonref; congruence). right; eauto. Qed.
Definition andK (c : ctx) (P : nat -> Prop) : ctx := mkctx (cX c) (cG c) (fun j => P j /\ cK c j).
Definition orK (c : ctx) (n : nat) : ctx := mkctx (cX c) (cG c) (fun j => j = n \/ cK c j).
Lemma win_X : forall c c' s l, cX c' = cX c -> win c s l -> win c' s l.
Proof. unfold win. intros c c' s l E. rewrite E. auto. Qed.

(** Assigning to a temporary that refers to an element (or holds a copy). *)
Lemma assign_temp_post : forall c e F s a p, INV e (a :: F) s ->
  (forall l i, a = MRef l i -> win c s l /\ ~ cG c l) ->
  okU p (push_s a s) ->
  post c e F s none anyp (scoped a (fun q => assign q p) s).
Proof.
  intros c e F s a p I A Kp. destruct (nonref_or a) as [N|(l & i & ->)].
  - eapply post_scoped with (c' := andK c (fun j => j < length (stk s))) (Q := anyp); simpl; auto.
    intros I1. rewrite (assign_nonref_eq _ _ _ a); auto; [|apply getv_push_new].
    apply assign_plain_post; auto; [apply goodU_LS|]. simpl. lia.
  - destruct (A l i eq_refl) as [W G]. eapply post_scoped with (c' := orK c (length (stk s))) (Q := anyp); simpl; auto.
    intros I1. eapply assign_ref_post; [auto|apply getv_push_new|simpl; auto|auto| |auto].
    apply (win_X c); auto.
Qed.
Lemma set_at_post : forall c e F s this i x, INV e (x :: F) s -> okU this s -> under this s -> cov c s this ->
  post c e F s none anyp (set_at this i x s).
Proof.
  intros c e F s this i x I K Un C. unfold set_at.
  eapply post_scoped with (c' := c) (Q := anyp); auto. intros I1.
  assert (K1 : okU this (push_s x s)) by (destruct K; [left; apply ok_push; auto|right; auto]).
  eapply post_yields; [apply yields_at; eauto|auto|].
  intros a (v & y & V & Y & T & _) Ha I2. rewrite getv_push in V by auto. apply der_push in Y.
  apply assign_temp_post; auto.
  - intros l k ->. simpl in T. destruct (C v y l V Y) as [W G]; auto.
  - apply okU_LS.
Qed.
Lemma set_at_copy_post : forall c e F s this i p, INV e F s -> okU this s -> under this s -> cov c s this -> okU p s ->
  post c e F s none anyp (set_at_copy this i p s).
Proof.
  intros c e F s this i p I K Un C Kp. unfold set_at_copy.
  eapply post_yields; [apply yields_copy_of; eauto|auto|]. intros x X Hx I1; cbv beta in X.
  apply set_at_post; auto.
  - destruct K; [left; apply ok_bump; auto|right; auto].
  - apply (under_len _ s); [rewrite bump_stk; auto|auto].
  - intros v y l V Y T. rewrite getv_bump in V. apply der_bump in Y. destruct (C v y l V Y T). split; auto.
    apply win_bump. auto.
Qed.
End Ops.
