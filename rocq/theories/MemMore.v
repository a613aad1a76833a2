(** The remaining methods on a variable or temporary. *)
From Coq Require Import ZArith Bool List String Lia.
From Verif Require Import Base StrModel ValModel NumModel AllocModel MemModel MemProof MemFun MemEq MemDeref MemTriple MemOps MemArr MemMeth MemTop MemCall.
Import ListNotations.
Local Open Scope list_scope.
Local Open Scope mem_scope.
Local Notation length := List.length.

(** [j] leads to [l]. *)
Definition grip (s : state) (j l : nat) : Prop :=
  exists v, getv (LS j) s = Some v /\
  (target v = Some l \/ exists l0 o, target v = Some l0 /\ l0 <> l /\ obj l0 s = Some o /\ In (MPtr l) (contents o)).
Definition only (l : nat) : ctx := mkctx (fun x => x = l) (fun x => x = l) (fun _ => True).
Lemma grip_eff : forall s j l, eff_of (LS j) s (MPtr l) -> grip s j l.
Proof.
  intros s j l (v & G & E). exists v. split; auto. destruct v as [| | |l0 k| |]; simpl in E; try discriminate.
  - inversion E; subst. auto.
  - destruct E as (o & O & E). destruct (plain_vars o).
    + destruct E as (a & N & _). destruct (Nat.eq_dec l0 l); [subst; auto|]. right. exists l0, o. split; auto. split; auto.
      split; auto. eapply in_contents_snd; eauto.
    + discriminate.
Qed.
Lemma grip_live : forall e F s j l, INV e F s -> grip s j l -> live l s.
Proof.
  intros e F s j l I (v & G & [T|(l0 & o & T & N & O & C)]).
  - eapply (getv_held (LS j)); eauto.
  - destruct (INV_sound _ _ _ I) as (_ & _ & S). eapply S; eauto.
Qed.
Lemma grip_step : forall e F s s' j l, fp (only l) s s' -> INV e F s' -> grip s j l -> grip s' j l.
Proof.
  intros e F s s' j l P I (v & G & H).
  assert (G' : getv (LS j) s' = Some v) by (simpl in *; rewrite <- G; apply (fp_slot _ _ _ j P); simpl; auto).
  exists v. split; auto. destruct H as [T|(l0 & o & T & N & O & C)]; auto. right.
  assert (L : live l0 s') by (eapply (getv_held (LS j)); eauto). apply live_obj in L as [o' O'].
  destruct (fp_obj _ _ _ _ _ P (obj_lt _ _ _ O) O') as (o1 & O1 & (_ & _ & _ & R)). simpl in R.
  assert (o1 = o) by congruence. subst o1. exists l0, o'. split; auto. split; auto. split; auto.
  destruct (R N) as [->|[_ R1]]; auto. eapply R1; eauto. reflexivity.
Qed.
Lemma grip_bump : forall s j l v, grip s j l -> grip (bump v s) j l.
Proof.
  intros s j l v (w & G & H). exists w. rewrite getv_bump. split; auto. destruct H as [T|(l0 & o & H)]; auto. right.
  exists l0, o. rewrite obj_bump. auto.
Qed.
Lemma grip_push : forall s j l v, grip s j l -> grip (push_s v s) j l.
Proof.
  intros s j l v (w & G & H). exists w. rewrite getv_push by (eapply getv_under; eauto). split; auto.
Qed.
Lemma grip_prot : forall c F s j l, grip s j l -> cK c j -> (forall x, cX c x -> x = l) -> Prot c F s l.
Proof.
  intros c F s j l (v & G & [T|(l0 & o & T & N & O & C)]) K X; [eapply P_slot; eauto|].
  apply (P_cell c F s l0 o (MPtr l) l); [eapply P_slot; eauto|intros H; apply N; auto|auto|auto|reflexivity].
Qed.

Section More.
Variable U : Prop.
Notation post := (post U).
Notation goodU := (goodU U).
Notation okU := (okU U).
Notation rcv := (rcv U).
Notation RV := (RV U).
Notation GR := (GR U).

(** * Copies *)
Lemma attach_all_INV : forall l e F s, INV e F s -> (forall v, In v l -> held v s) ->
  exists s', attach_all l s = ROk tt s' /\ INV e (l ++ F) s' /\ mem s' = mem s /\ stk s' = stk s.
Proof.
  induction l; intros e F s I H; [exists s; auto|]. simpl. unfold bind.
  rewrite attach_eq by (apply H; simpl; auto). assert (Ha : held a s) by (apply H; simpl; auto).
  destruct (IHl e (a :: F) (bump a s)) as (s' & A & B & C & D).
  - apply INV_bump; auto.
  - intros v V. apply held_bump. apply H. simpl; auto.
  - exists s'. fold (attach_all l). rewrite A. split; auto. split; [|rewrite C, D, bump_mem, bump_stk; auto].
    eapply INV_perm; eauto. intros k. simpl. rewrite !occ_app. simpl. lia.
Qed.
Lemma cell_occ_split : forall k n c, cell_occ k (firstn n c) + cell_occ k (skipn n c) = cell_occ k c.
Proof. intros. rewrite <- cell_occ_app, firstn_skipn. reflexivity. Qed.
Lemma copy_cells_post : forall c e F s l o, INV e F s -> obj l s = Some o ->
  post c e F s own (fun h s' => exists t, h = MPtr t) (copy_cells o s).
Proof.
  intros c e F s l o I O. unfold copy_cells.
  eapply post_rs; [apply rs_new_cells|auto|]. intros cs Z; cbv beta in Z.
  destruct (Nat.ltb _ _); [apply post_ub; discriminate|].
  set (cs' := firstn (h_size o) (h_cells o)).
  destruct (attach_all_INV (flat_map (fun c => [fst c; snd c]) cs') e F s I) as (s' & A & B & C & D).
  { intros v V. destruct (INV_sound _ _ _ I) as (_ & _ & S). eapply S; eauto. unfold contents. apply in_or_app. left.
    apply in_flat_map in V as (x & X1 & X2). apply in_flat_map. exists x. split; auto.
    rewrite <- (firstn_skipn (h_size o)). apply in_or_app. auto. }
  unfold bind. rewrite A. unfold new_obj.
  set (o' := mkobj (h_ty o) (h_size o) 0 (cs' ++ skipn (h_size o) cs) None). fold (new_st o' s').
  pose proof I as (_ & Ty & _). destruct (Ty _ _ O) as [D1 D2].
  assert (Z' : forall k n, cell_occ k (skipn n cs) = 0) by (intros k n; pose proof (cell_occ_split k n cs); rewrite Z in *; lia).
  simpl. split; [|split].
  - apply INV_new.
    + eapply INV_perm; eauto. intros k. rewrite !occ_app, occ_contents. simpl. rewrite cell_occ_app, Z'. unfold cell_occ. lia.
    + split; simpl; [|congruence]. intros V k. rewrite cell_occ_app, Z'. specialize (D1 V k).
      pose proof (cell_occ_split k (h_size o) (h_cells o)). fold cs' in H. lia.
  - eapply fp_trans; [apply fp_mem; eauto|apply fp_new].
  - eauto.
Qed.
Lemma copy_post : forall c e F s j, INV e F s -> post c e F s own anyp (copy (LS j) s).
Proof.
  intros c e F s j I. unfold copy.
  eapply post_rs; [apply rs_heap_of; [eauto|apply okU_LS]|auto|]. intros h (x & _ & Hx & E).
  destruct h as [l|].
  2:{ eapply post_any, post_yield; [apply yields_copy_of; [eauto|apply okU_LS]|auto]. }
  assert (L : live l s) by (apply Hx; subst; destruct x; try discriminate; inversion E; reflexivity).
  eapply post_rs; [apply rs_get_obj; auto|auto|]. intros o O; cbv beta in O.
  destruct (h_view o) as [t|] eqn:V; [|eapply post_any, copy_cells_post; eauto].
  assert (Lt : live t s).
  { destruct (INV_sound _ _ _ I) as (_ & _ & S). eapply (S l o (MPtr t)); eauto. unfold contents. rewrite V.
    apply in_or_app. right. simpl. auto. }
  eapply post_rs; [apply rs_get_obj; auto|auto|]. intros ot Ot; cbv beta in Ot. cbv zeta.
  eapply post_rs; [apply rs_new_cells|auto|]. intros cs Z; cbv beta in Z.
  destruct (Nat.ltb _ _); [apply post_ub; discriminate|].
  eapply post_bind; [eapply copy_cells_post; eauto|]. intros h s1 I1 P1 (t' & ->).
  unfold new_obj. set (n := odim o * 2 + 1). set (o' := mkobj (HE TInt) n 0 (firstn n (h_cells o) ++ skipn n cs) (Some t')).
  fold (new_st o' s1). simpl.
  pose proof I as (_ & Ty & _). destruct (Ty _ _ O) as [D1 D2].
  assert (Tn : varlike (h_ty o) = false) by (rewrite D2 by congruence; reflexivity).
  assert (Zc : forall k, cell_occ k (firstn n (h_cells o) ++ skipn n cs) = 0).
  { intros k. rewrite cell_occ_app. pose proof (cell_occ_split k n (h_cells o)). rewrite (D1 Tn k) in H.
    pose proof (cell_occ_split k n cs). rewrite Z in H0. lia. }
  split; [|split; [apply fp_new|exact Logic.I]]. apply INV_new.
  - eapply INV_perm; eauto. intros k. rewrite occ_app, occ_contents. simpl. rewrite Zc. unfold own. simpl. lia.
  - split; simpl; auto.
Qed.

(** * Views *)
Lemma rs_desc_loop : forall sh s, rs U (desc_loop sh) s (fun _ => True).
Proof.
  induction sh; intros s; simpl; [apply rs_ret; auto|]. eapply rs_bind; [apply IHsh|]. intros [r p] _.
  destruct (in_int _); [apply rs_ret; auto|apply rs_ub; discriminate].
Qed.
Lemma map_occ0 : forall k l, cell_occ k (map (fun z => (MNil, MNum (VInt z))) l) = 0.
Proof. induction l; [reflexivity|]. simpl map. rewrite cell_occ_cons, IHl. reflexivity. Qed.
Lemma view_post : forall c e F s j sh off, INV e F s -> post c e F s own anyp (view (LS j) sh off s).
Proof.
  intros c e F s j sh off I. unfold view.
  eapply post_rs; [apply rs_heap_of; [eauto|apply okU_LS]|auto|]. intros h (x & _ & Hx & E).
  destruct h as [l|]; [|apply post_throw; auto].
  assert (L : live l s) by (apply Hx; subst; destruct x; try discriminate; inversion E; reflexivity).
  eapply post_rs; [apply rs_get_obj; auto|auto|]. intros o O; cbv beta in O.
  eapply post_rs with (Q := fun p => live (fst p) s); [|auto|].
  { destruct (h_view o) as [t|] eqn:V; [|apply rs_ret; auto].
    eapply rs_bind; [apply rs_own_int|]. intros z _. apply rs_ret. simpl.
    destruct (INV_sound _ _ _ I) as (_ & _ & S). eapply (S l o (MPtr t)); eauto. unfold contents. rewrite V.
    apply in_or_app. right. simpl. auto. }
  intros [t off0] Lt. simpl in Lt.
  eapply post_rs; [apply rs_get_obj; auto|auto|]. intros ot Ot; cbv beta in Ot.
  destruct (varlike (h_ty ot)); [apply post_stuck|]. destruct (h_view ot); [apply post_stuck|].
  destruct sh as [|d0 sh]; [apply post_throw; auto|].
  eapply post_rs; [apply rs_desc_loop|auto|]. intros [d p] _.
  destruct (_ || _)%bool; [apply post_ub; discriminate|]. destruct (_ <? _)%Z; [apply post_throw; auto|]. cbv zeta.
  eapply post_rs; [apply rs_new_cells|auto|]. intros cs Z; cbv beta in Z.
  unfold bind. rewrite attach_eq by (intros k Hk; simpl in Hk; inversion Hk; subst; auto).
  unfold new_obj. set (n := length ((off0 + off)%Z :: d)).
  set (o' := mkobj (HE TInt) n 0 (map (fun z => (MNil, MNum (VInt z))) ((off0 + off)%Z :: d) ++ skipn n cs) (Some t)).
  fold (new_st o' (bump (MPtr t) s)).
  assert (Zc : forall k, cell_occ k (h_cells o') = 0).
  { intros k. change (h_cells o') with (map (fun z => (MNil, MNum (VInt z))) ((off0 + off)%Z :: d) ++ skipn n cs).
    rewrite cell_occ_app, map_occ0. pose proof (cell_occ_split k n cs). rewrite Z in H. lia. }
  split; [|split; [eapply fp_trans; [apply fp_bump|apply fp_new]|exact Logic.I]].
  apply INV_new.
  - eapply INV_perm with (F := MPtr t :: F).
    + apply INV_bump; auto. intros k Hk. simpl in Hk. inversion Hk; subst; auto.
    + intros k. rewrite occ_app, occ_contents, Zc. simpl. reflexivity.
  - split; [intros _; exact Zc|reflexivity].
Qed.

(** * Strings *)
Lemma write_chars_post : forall str c e F s l i, INV e F s -> live l s -> cX c l ->
  (forall o, obj l s = Some o -> varlike (h_ty o) = false) -> post c e F s none anyp (write_chars l i str s).
Proof.
  induction str; intros c e F s l i I L X Ty; [apply post_ret; [auto|exact Logic.I]|]. simpl.
  eapply post_rs; [apply rs_get_obj; auto|auto|]. intros o O; cbv beta in O.
  destruct (Nat.leb_spec (length (h_cells o)) i); [apply post_ub; discriminate|].
  set (o' := set_cells o (set_nth (h_cells o) i (MNil, MNum (VChar a)))).
  pose proof I as (_ & T & _). destruct (T _ _ O) as [D1 D2]. specialize (D1 (Ty o O)).
  assert (Z : forall k, cell_occ k (set_nth (h_cells o) i (MNil, MNum (VChar a))) = 0).
  { intros k. apply ne_some in H as [y Y]. pose proof (cell_occ_sn k _ _ _ (MNil, MNum (VChar a)) Y) as A. rewrite D1 in A.
    change (occ1 k (fst (MNil, MNum (VChar a)))) with 0 in A. change (occ1 k (snd (MNil, MNum (VChar a)))) with 0 in A. lia. }
  assert (I1 : INV e F (set_mem l o' s)).
  { eapply INV_set_mem; eauto.
    - intros k. rewrite !occ_contents. simpl. rewrite Z, D1. reflexivity.
    - split; simpl; auto. }
  unfold bind, set_obj. fold (set_mem l o' s).
  eapply post_from with (s1 := set_mem l o' s); [eapply fp_set_mem; eauto; left; split; auto; simpl; apply sn_length|].
  apply IHstr; auto.
  - apply live_obj. exists o'. rewrite obj_set_mem by (eapply obj_lt; eauto). rewrite Nat.eqb_refl. auto.
  - intros o1. rewrite obj_set_mem by (eapply obj_lt; eauto). rewrite Nat.eqb_refl. intros E. inversion E; subst. apply (Ty o); auto.
Qed.
Lemma heap_append_post : forall c e F s l str, INV e F s -> live l s -> cX c l -> cG c l ->
  (forall s', INV e F s' -> fp c s s' -> live l s') -> post c e F s none anyp (heap_append l str s).
Proof.
  intros c e F s l str I L X G H. unfold heap_append.
  eapply post_rs; [apply rs_get_obj; auto|auto|]. intros o O; cbv beta in O.
  destruct (is_char (h_ty o)) eqn:Ch; [|apply post_stuck].
  eapply post_seq; [apply heap_resize_post; auto|]. intros u s1 I1 P1 _. apply write_chars_post; auto.
  intros o1 O1. destruct (fp_obj _ _ _ _ _ P1 (obj_lt _ _ _ O) O1) as (o2 & O2 & (R & _)). rewrite R.
  assert (o2 = o) by congruence. subst. destruct (h_ty o) as [[]|]; try discriminate; reflexivity.
Qed.
Lemma alloc_nothrow : forall n m, allocSize n <> Throw m.
Proof.
  assert (A : forall f a b m, alloc_loop f a b <> Throw m).
  { induction f; simpl; intros; try discriminate. destruct (0 <? a)%Z; auto. discriminate. }
  intros n m. unfold allocSize. destruct (n <? 0)%Z; [discriminate|].
  match goal with |- context [(?a <=? 2)%Z] => destruct (a <=? 2)%Z end; [discriminate|apply A].
Qed.
Lemma heap_append_nothrow : forall l str s m s', heap_append l str s <> RThrow m s'.
Proof.
  intros l str s m s'. unfold heap_append, bind at 1, get_obj. destruct (nth_error (mem s) l) as [[o|]|]; try discriminate.
  destruct (is_char (h_ty o)); [|discriminate].
  assert (W : forall str i s, write_chars l i str s <> RThrow m s').
  { induction str0; intros i s0; [discriminate|]. simpl. unfold bind, get_obj.
    destruct (nth_error (mem s0) l) as [[o1|]|]; try discriminate. destruct (Nat.leb _ _); [discriminate|].
    unfold set_obj. apply IHstr0. }
  unfold bind, heap_resize, bind, get_obj. destruct (nth_error (mem s) l) as [[o1|]|]; try discriminate.
  destruct (allocSize _) eqn:A; simpl; try discriminate; [|exfalso; eapply alloc_nothrow; eauto].
  destruct (_ <? _)%Z; [apply W|]. destruct (_ && _)%bool; [discriminate|apply W].
Qed.
Lemma heap_resize_nothrow : forall l n s m s', heap_resize l n s <> RThrow m s'.
Proof.
  intros l n s m s'. unfold heap_resize, bind, get_obj. destruct (nth_error (mem s) l) as [[o1|]|]; try discriminate.
  destruct (allocSize _) eqn:A; simpl; try discriminate; [|exfalso; eapply alloc_nothrow; eauto].
  destruct (_ <? _)%Z; [discriminate|]. destruct (_ && _)%bool; discriminate.
Qed.
Lemma string_var_post : forall c e F s str, INV e F s -> (forall x, length (mem s) <= x -> cX c x /\ cG c x) ->
  post c e F s own anyp (string_var str s).
Proof.
  intros c e F s str I C. unfold string_var.
  eapply post_bind; [apply new_heap_post; auto|]. intros h s1 I1 P1 (o & -> & -> & _).
  assert (Lv : forall s', INV e (MPtr (length (mem s)) :: F) s' -> live (length (mem s)) s').
  { intros s' I'. eapply (INV_held _ _ _ (MPtr (length (mem s)))); eauto; simpl; auto. }
  assert (P : post c e (MPtr (length (mem s)) :: F) (new_st o s) none anyp (heap_append (length (mem s)) str (new_st o s))).
  { destruct (C (length (mem s)) (Nat.le_refl _)). apply heap_append_post; auto. }
  unfold bind. destruct (heap_append (length (mem s)) str (new_st o s)) as [u s2|m s2|k|] eqn:E; auto.
  exfalso. eapply heap_append_nothrow; eauto.
Qed.

Lemma own1_held : forall c P s this x, own1 c P s this -> getv this s = Some x -> nonref x.
Proof. intros c P s this x O G. apply (O x G). Qed.
Lemma live_held : forall x s l, held x s -> Some l = match x with MPtr l => Some l | _ => None end -> live l s.
Proof. intros x s l H E. apply H. destruct x; try discriminate. inversion E. reflexivity. Qed.
Lemma append_str_top : forall e s j str, INV e [] s -> j < length (stk s) -> GR s j ->
  post full e [] s none anyp (append_str (LS j) str s).
Proof.
  intros e s j str I L G. unfold append_str.
  eapply post_seq; [apply array_top; eauto|]. intros u s1 I1 P1 _.
  eapply post_rs; [apply rs_heap_of; [eauto|apply okU_LS]|auto|]. intros h (x & E & Hx & Ex).
  destruct h as [l|]; [|apply post_ub; discriminate].
  assert (Gr : grip s1 j l). { destruct x; try discriminate. inversion Ex; subst. apply grip_eff; auto. }
  apply (post_full U _ (only l)). apply heap_append_post; simpl; auto.
  - eapply grip_live; eauto.
  - intros s' I' P'. eapply grip_live; eauto. eapply grip_step; eauto.
Qed.

(** * shift *)
Lemma heap_shift_post : forall e s j l, INV e [] s -> grip s j l -> post full e [] s own anyp (heap_shift l s).
Proof.
  intros e s j l I Gr. unfold heap_shift. pose proof (grip_live _ _ _ _ _ I Gr) as L.
  eapply post_rs; [apply rs_get_obj; auto|auto|]. intros o O; cbv beta in O.
  destruct (h_cells o) as [|d rest] eqn:Cells; [apply post_ub; discriminate|].
  destruct (h_size o) as [|n]; [apply post_ub; discriminate|].
  assert (Hx : held (snd d) s).
  { destruct (INV_sound _ _ _ I) as (_ & _ & S). eapply S; eauto. destruct d as [a b]. eapply (in_contents_snd o 0 a). rewrite Cells. reflexivity. }
  assert (Main : post full e [] s own anyp
     ((attach (snd d) ;;
       (if varlike (h_ty o)
         then
           let! o := get_obj l in
           set_obj l (set_cells o (firstn n rest ++ (MNil, MNil) :: skipn n rest)) ;;
           release [fst d; snd d]
         else set_obj l (set_cells o (firstn n rest ++ match nth_error (d :: rest) n with Some d => [d] | None => [] end ++ skipn n rest))) ;;
        heap_resize l n ;;
        ret (snd d)) s)).
  { set (x := snd d) in *. unfold bind at 1. rewrite attach_eq by auto.
    assert (I1 : INV e [x] (bump x s)) by (apply INV_bump; auto).
    eapply post_from; [apply (fp_bump full x)|].
    assert (Gr1 : grip (bump x s) j l) by (apply grip_bump; auto).
    assert (O1 : obj l (bump x s) = Some o) by (rewrite obj_bump; auto).
    assert (Last : forall s2, INV e [x] s2 -> fp (only l) (bump x s) s2 -> post full e [] s2 own anyp ((heap_resize l n ;; ret x) s2)).
    { intros s2 I2 P2. assert (Gr2 : grip s2 j l) by (eapply grip_step; eauto).
      assert (Q : post full e [x] s2 none (fun _ s' => resized l n s2 s') (heap_resize l n s2)).
      { apply heap_resize_post; simpl; auto. eapply grip_live; eauto. }
      unfold bind. destruct (heap_resize l n s2) as [u s3|m s3|k|] eqn:E; auto.
      - destruct Q as (Q1 & Q2 & _). split; [exact Q1|]. split; [auto|exact Logic.I].
      - exfalso. eapply heap_resize_nothrow; eauto. }
    pose proof I as (_ & T & _). destruct (T _ _ O) as [D1 D2].
    unfold bind at 1. destruct (varlike (h_ty o)) eqn:V.
    - unfold bind at 1, get_obj. rewrite (proj1 (obj_live _ _ _) O1). unfold bind at 1, set_obj.
      set (o' := set_cells o (firstn n rest ++ (MNil, MNil) :: skipn n rest)). fold (set_mem l o' (bump x s)).
      assert (I2 : INV e ([fst d; x] ++ [x]) (set_mem l o' (bump x s))).
      { eapply INV_set_mem; eauto.
        - intros k. rewrite !occ_contents. unfold o'. simpl h_cells. simpl h_view. rewrite Cells.
          rewrite cell_occ_cons, cell_occ_app, cell_occ_cons. pose proof (cell_occ_split k n rest).
          simpl occ. change (occ1 k MNil) with 0. simpl fst. simpl snd. change (occ1 k MNil) with 0. fold x. lia.
        - split; simpl; [congruence|auto]. }
      destruct (release_INV _ _ _ _ I2) as (s3 & R1 & R2 & R3 & R4). rewrite R1.
      assert (P3 : fp (only l) (bump x s) s3).
      { eapply fp_trans; [|eapply gone_fp; eauto]. eapply fp_set_mem; [eauto|reflexivity|reflexivity|reflexivity|right; reflexivity]. }
      eapply post_from; [eapply fp_weaken; [exact P3|simpl; auto|simpl; auto|simpl; tauto]|]. apply Last; auto.
    - unfold set_obj. set (o' := set_cells o _). fold (set_mem l o' (bump x s)).
      assert (Z : forall k, cell_occ k (h_cells o') = 0).
      { intros k. unfold o'. simpl h_cells. specialize (D1 eq_refl). rewrite !cell_occ_app.
        pose proof (D1 k) as E. rewrite Cells, cell_occ_cons in E. pose proof (cell_occ_split k n rest).
        destruct (nth_error (d :: rest) n) as [d'|] eqn:N; [|change (cell_occ k []) with 0; lia].
        assert (cell_occ k [d'] = 0).
        { destruct d' as [a b]. assert (A : forall v, In v [a; b] -> occ1 k v = 0).
          { intros v Hv. unfold occ1. destruct (target v) as [t|] eqn:Tv; auto. destruct (Nat.eqb_spec t k); auto. subst t. exfalso.
            pose proof (D1 k) as E'. rewrite Cells in E'. unfold cell_occ in E'.
            assert (1 <= occ k (flat_map (fun c => [fst c; snd c]) (d :: rest))); [|lia].
            eapply occ_in; eauto. apply in_flat_map. exists (a, b). split; [eapply nth_error_In; eauto|exact Hv]. }
          rewrite cell_occ_cons. change (cell_occ k []) with 0. simpl. rewrite !A; simpl; auto. }
        lia. }
      assert (I2 : INV e [x] (set_mem l o' (bump x s))).
      { eapply INV_set_mem; eauto.
        - intros k. rewrite !occ_contents, Z. rewrite (D1 eq_refl). reflexivity.
        - split; simpl; auto. }
      assert (P3 : fp (only l) (bump x s) (set_mem l o' (bump x s))) by (eapply fp_set_mem; [eauto|reflexivity|reflexivity|reflexivity|right; reflexivity]).
      eapply post_from; [eapply fp_weaken; [exact P3|simpl; auto|simpl; auto|simpl; tauto]|]. apply Last; auto. }
  destruct d as [a b]. simpl in *. destruct b; try exact Main. apply post_ub. discriminate.
Qed.
Lemma shift_top : forall e s j, INV e [] s -> post full e [] s own anyp (shift (LS j) s).
Proof.
  intros e s j I. unfold shift.
  eapply post_rs; [apply rs_heap_of; [eauto|apply okU_LS]|auto|]. intros h (x & E & Hx & Ex).
  destruct h as [l|].
  - apply (heap_shift_post e s j); auto. destruct x; try discriminate. inversion Ex; subst. apply grip_eff; auto.
  - eapply post_any, post_yield; [apply yields_copy_of; [eauto|apply okU_LS]|auto].
Qed.

(** * remove *)
Lemma remove_top : forall e s j idx, INV e [] s -> j < length (stk s) -> GR s j -> post full e [] s own anyp (remove (LS j) idx s).
Proof.
  intros e s j idx I L G. destruct (RV_exists _ _ _ _ I L G) as (c & P & R). unfold remove.
  destruct (_ <? _)%Z; [apply post_ub; discriminate|].
  eapply post_rs; [apply rs_size_of; [eauto|apply okU_LS]|auto|]. intros n _.
  destruct (_ <? _)%Z; [apply post_throw; auto|].
  eapply post_yields; [apply yields_at; [eauto|apply okU_LS]|auto|]. intros a _ Ha I1.
  eapply post_thru with (c := nothing) (Q1 := anyp) (H1 := own).
  { eapply post_scoped with (c' := nothing) (Q := anyp); simpl; auto. intros I2. apply copy_post; auto. }
  intros r s1 I2 P1 _. simpl in I2.
  assert (I2' : INV e [] (push_s r s1)) by (apply INV_push; auto).
  eapply post_scoped with (c' := full) (Q := anyp); simpl; auto. intros I3.
  assert (R1 : RV c P (push_s r s1) (LS j)).
  { apply RV_push. apply (RV_step2 U c P e e [a] [r] (bump a s) s1 j); auto; [apply RV_bump; auto|apply fp_nothing; auto]. }
  set (s2 := push_s r s1) in *.
  eapply post_rs; [apply rs_size_of; [eauto|apply okU_LS]|auto|]. intros n1 _.
  eapply post_thru with (c := wctx P) (Q1 := anyp) (H1 := none).
  { apply (shift_down_post U); auto; [apply goodU_LS|destruct (rv_rcv _ _ _ _ _ R1) as (_ & _ & Un & _); exact Un|eapply RV_covS; eauto]. }
  intros u s3 I4 P4 _. assert (R3 : RV c P s3 (LS j)) by (apply (RV_step U c P e s2 s3 j); auto).
  eapply post_rs; [apply rs_size_of; [eauto|apply okU_LS]|auto|]. intros n2 _.
  eapply post_seq; [eapply post_full; apply rv_resize; eauto|]. intros u' s4 I5 P5 _.
  apply take_post; auto.
Qed.
End More.
