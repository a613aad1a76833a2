(** New arrays, resizing and subscripts keep the invariant. *)
From Coq Require Import ZArith Bool List String Lia.
From Verif Require Import Base StrModel ValModel NumModel AllocModel MemModel MemProof MemFun MemEq MemDeref MemTriple MemOps.
Import ListNotations.
Local Open Scope list_scope.
Local Open Scope mem_scope.
Local Notation length := List.length.

Definition new_st (o : hobj) (s : state) : state :=
  {| mem := mem s ++ [Some o]; rc := rc s ++ [1]; stk := stk s |}.
Lemma obj_new : forall o s l, obj l (new_st o s) = if Nat.eqb l (length (mem s)) then Some o else obj l s.
Proof.
  intros. unfold obj, new_st. simpl. destruct (Nat.eqb_spec l (length (mem s))).
  - subst. rewrite nth_error_app2, Nat.sub_diag by lia. reflexivity.
  - destruct (Nat.lt_ge_cases l (length (mem s))).
    + rewrite nth_error_app1 by auto. reflexivity.
    + replace (nth_error (mem s ++ [Some o]) l) with (@None (option hobj)).
      * replace (nth_error (mem s) l) with (@None (option hobj)); auto. symmetry. apply nth_error_None. auto.
      * symmetry. apply nth_error_None. rewrite app_length. simpl. lia.
Qed.
Lemma getv_new : forall v o s x, getv v s = Some x -> getv v (new_st o s) = Some x.
Proof.
  intros v o s x H. destruct v as [i|l g i|l g i]; simpl in *; auto;
    (rewrite obj_new; destruct (Nat.eqb_spec l (length (mem s))); auto;
     subst; destruct (obj (length (mem s)) s) eqn:O; [apply obj_lt in O; lia|discriminate]).
Qed.
Lemma fp_new : forall c o s, fp c s (new_st o s).
Proof.
  intros. unfold fp. simpl. rewrite app_length. repeat split; auto; [lia|].
  intros l o' L H. rewrite nth_error_app1 in H by auto. exists o'. split; auto. apply obj_rel_refl.
Qed.
Lemma INV_new : forall e F s o, INV e (contents o ++ F) s -> dense_ok o -> INV e (MPtr (length (mem s)) :: F) (new_st o s).
Proof.
  intros e F s o (I & T & E) D. pose proof I as [L H]. split; [split|split].
  - simpl. rewrite !app_length. simpl. lia.
  - intros l. unfold tot, rcount. simpl. rewrite occm_app. simpl. specialize (H l). unfold tot, rcount in H.
    rewrite occ_app in H. unfold occ1. simpl target. cbv iota.
    destruct (Nat.lt_trichotomy l (length (mem s))) as [Lt|[Eq|Gt]].
    + rewrite nth_error_app1 by auto. rewrite app_nth1 by lia.
      replace (Nat.eqb (length (mem s)) l) with false by (symmetry; apply Nat.eqb_neq; lia).
      destruct (nth_error (mem s) l) as [[o1|]|]; lia.
    + subst. rewrite nth_error_app2, Nat.sub_diag by lia. simpl. rewrite app_nth2 by lia.
      rewrite L, Nat.sub_diag. simpl. rewrite Nat.eqb_refl.
      replace (nth_error (mem s) (length (mem s))) with (@None (option hobj)) in H by (symmetry; apply nth_error_None; lia).
      rewrite (E (length (mem s))) by lia. lia.
    + replace (nth_error (mem s) l) with (@None (option hobj)) in H by (symmetry; apply nth_error_None; lia).
      replace (nth_error (mem s ++ [Some o]) l) with (@None (option hobj)).
      * replace (Nat.eqb (length (mem s)) l) with false by (symmetry; apply Nat.eqb_neq; lia). lia.
      * symmetry. apply nth_error_None. rewrite app_length. simpl. lia.
  - intros l o1. rewrite obj_new. destruct (Nat.eqb l (length (mem s))); [|apply T]. intros X; inversion X; subst; auto.
  - simpl. rewrite app_length. intros. apply E. simpl in *. lia.
Qed.
Lemma occ_zero_INV : forall e F G s, INV e F s -> (forall k, occ k G = 0) -> INV e (G ++ F) s.
Proof. intros. eapply INV_perm; eauto. intros. rewrite occ_app, H0. reflexivity. Qed.

Lemma fp_getv : forall c s s' v x, fp c s s' ->
  match v with LS j => cK c j | LC l _ _ | LK l _ _ => ~ cX c l /\ tl v s end ->
  getv v s' = Some x -> getv v s = Some x.
Proof.
  intros c s s' v x P H G. destruct v as [j|l g i|l g i]; simpl in *.
  - rewrite <- G. symmetry. apply (fp_slot _ _ _ _ P). auto.
  - destruct (obj l s') as [o|] eqn:O; [|discriminate]. destruct H as [NX [L V]].
    destruct (fp_obj _ _ _ _ _ P L O) as (o0 & O0 & R). destruct R as (_ & _ & _ & R).
    rewrite O0. destruct (R NX) as [->|[R1 _]]; auto. rewrite (V _ O0) in R1. discriminate.
  - destruct (obj l s') as [o|] eqn:O; [|discriminate]. destruct H as [NX [L V]].
    destruct (fp_obj _ _ _ _ _ P L O) as (o0 & O0 & R). destruct R as (_ & _ & _ & R).
    rewrite O0. destruct (R NX) as [->|[R1 _]]; auto. rewrite (V _ O0) in R1. discriminate.
Qed.
Lemma under_fp : forall c s s' v, fp c s s' -> under v s -> under v s'.
Proof. intros c s s' v H X. apply (under_len _ s); auto. apply (fp_len _ _ _ H). Qed.
Lemma under_bump : forall v w s, under v s -> under v (bump w s).
Proof. intros. apply (under_len _ s); auto. rewrite bump_stk. auto. Qed.
Lemma under_push : forall v w s, under v s -> under v (push_s w s).
Proof. destruct v; simpl; auto. intros. rewrite app_length. simpl. lia. Qed.

Definition wctx (W : nat -> Prop) : ctx := mkctx W (fun _ => False) (fun _ => True).

Section Arr.
Variable U : Prop.
Notation post := (post U).
Notation goodU := (goodU U).
Notation okU := (okU U).

Lemma okU_bump : forall v w s, okU v s -> okU v (bump w s).
Proof. intros v w s [H|H]; [left; apply ok_bump; auto|right; auto]. Qed.
Lemma okU_push : forall v w s, okU v s -> okU v (push_s w s).
Proof. intros v w s [H|H]; [left; apply ok_push; auto|right; auto]. Qed.
Lemma okU_getv : forall v s x, tl v s -> getv v s = Some x -> okU v s.
Proof. intros. left. eapply tl_ok; eauto. Qed.

Definition fresh_from (n : nat) (s' : state) (l : nat) : Prop :=
  n <= l /\ l < length (mem s') /\ (forall o, obj l s' = Some o -> h_view o = None).

Lemma new_heap_post : forall c e F s t n, INV e F s ->
  post c e F s own (fun h s' => exists o, h = MPtr (length (mem s)) /\ s' = new_st o s /\ h_ty o = t /\ h_size o = n /\ h_view o = None)
    (new_heap t n s).
Proof.
  intros c e F s t n I. unfold new_heap.
  eapply post_rs; [apply rs_new_cells|auto|]. intros cs Z; cbv beta in Z.
  unfold new_obj. simpl. fold (new_st (mkobj t n 0 cs None) s). split; [|split].
  - apply INV_new; [|split; [intros _; exact Z|simpl; congruence]]. apply occ_zero_INV; auto. intros k. rewrite occ_contents. simpl. rewrite Z. reflexivity.
  - apply fp_new.
  - exists (mkobj t n 0 cs None). auto.
Qed.

Lemma become_array_post : forall c e F s v n, INV e F s -> okU v s -> tl v s -> wr c v -> under v s ->
  (forall x, getv v s = Some x -> target x = None) ->
  (forall l, length (mem s) <= l -> cX c l) ->
  post c e F s none (fun _ s' => forall x, getv v s' = Some x -> exists l, x = MPtr l /\ fresh_from (length (mem s)) s' l)
    (become_array v n s).
Proof.
  intros c e F s v n I K T W Un Tx Fr. unfold become_array.
  eapply post_yields; [apply yields_copy_of; eauto|auto|]. intros x X Hx I1; cbv beta in X.
  assert (Nx : target x = None) by auto.
  assert (B : bump x s = s) by (unfold bump; rewrite Nx; reflexivity). rewrite B in *.
  eapply post_scoped with (c' := c) (Q := fun _ s2 => forall x, getv v s2 = Some x -> exists l, x = MPtr l /\ fresh_from (length (mem s)) s2 l); auto.
  - intros I2. eapply post_rs; [apply rs_get; apply okU_LS|auto|]. intros y Y; cbv beta in Y.
    eapply post_rs; [apply rs_type_for|auto|]. intros t _.
    eapply post_bind; [apply new_heap_post; auto|]. intros h s1 I3 P3 (o & Eh & Es & _ & _ & Ov). subst.
    set (sp := push_s x s) in *. simpl in I3. change (length (mem sp)) with (length (mem s)) in *.
    assert (V : getv v (new_st o sp) = Some x) by (apply getv_new; unfold sp; rewrite getv_push; auto).
    assert (T1 : tl v (new_st o sp)) by (eapply (tl_fp c sp); [apply fp_new|apply tl_push; auto]).
    unfold bind. rewrite (put_eq _ _ _ (MPtr (length (mem s))) V).
    set (s3 := putv v (MPtr (length (mem s))) (new_st o sp)).
    assert (I4 : INV e F s3).
    { eapply INV_drop0; [|exact Nx]. apply INV_putv; auto. }
    eapply post_from with (s1 := s3); [apply fp_putv; auto|].
    assert (V3 : getv v s3 = Some (MPtr (length (mem s)))) by (eapply getv_putv_same; eauto).
    assert (T3 : tl v s3) by (eapply (tl_fp c); [apply fp_putv; auto|auto]).
    assert (U3 : under v s3) by (eapply getv_under; eauto).
    assert (LC_lt : forall l g i, v = LC l g i \/ v = LK l g i -> l < length (mem s)).
    { intros l g i [-> | ->]; apply T. }
    set (l0 := length (mem s)) in *.
    assert (NV : forall o', obj l0 s3 = Some o' -> h_view o' = None).
    { intros o' O'. destruct (obj_putv v (MPtr l0) (new_st o sp) l0 o) as (o2 & O2 & _ & V2 & _).
      - rewrite obj_new. change (length (mem sp)) with l0. rewrite Nat.eqb_refl. auto.
      - fold s3 in O2. congruence. }
    eapply post_weaken with (Q := fun _ s4 => fp (wctx (fun l => l = l0)) s3 s4).
    + assert (PP : post (wctx (fun l => l = l0)) e F s3 none anyp (set_at_copy v 0 (LS (length (stk s))) s3)).
      { apply set_at_copy_post; auto; [eapply okU_getv; eauto| |apply okU_LS].
        intros w y' l Vw Dw Tw. assert (w = MPtr l0) by congruence. subst. simpl in Dw. subst y'. inversion Tw; subst l. split.
        - intros o' O'. rewrite (NV o' O'). reflexivity.
        - simpl. auto. }
      destruct (set_at_copy v 0 (LS (length (stk s))) s3) as [a s4|m s4|k|]; simpl in PP |- *; auto.
      * destruct PP as (A1 & A2 & A3). split; auto. split; auto.
        eapply fp_weaken; [exact A2| |simpl; tauto|simpl; auto]. simpl. intros l ->. apply Fr. unfold l0. lia.
      * destruct PP as (A1 & A2). split; auto.
        eapply fp_weaken; [exact A2| |simpl; tauto|simpl; auto]. simpl. intros l ->. apply Fr. unfold l0. lia.
    + intros u s4 I5 P5 P6 z Z. apply (fp_getv _ _ _ _ _ P6) in Z.
      2:{ destruct v as [j|l g i|l g i]; simpl; auto;
          (assert (l < length (mem s)) by (eapply LC_lt; eauto); split; [fold l0 in H; lia|exact T3]). }
      exists l0. split; [congruence|]. split; [unfold l0; lia|].
      assert (L3 : l0 < length (mem s3)).
      { unfold s3. rewrite putv_mem_length. simpl. rewrite app_length. fold l0. simpl. lia. }
      split; [pose proof (fp_mlen _ _ _ P6); lia|].
      intros o' O'. destruct (fp_obj _ _ _ _ _ P6 L3 O') as (o3 & O3 & R). destruct R as (_ & -> & _). eauto.
  - intros u s2 s3 Q I2 P2 Th I3 P3 z Z. apply (thin_getv _ _ _ _ Th) in Z. apply getv_unpush in Z.
    destruct (Q z Z) as (l & -> & A & B1 & C). exists l. split; auto. split; auto. destruct Th as (T1 & T2 & T3). split.
    + rewrite T2. auto.
    + intros o O. apply T3 in O. apply C. auto.
Qed.

(** The receiver of a method. *)
Definition rcv (c : ctx) (F : list mvar) (s : state) (this : lval) : Prop :=
  wr c this /\ goodU c F s this /\ under this s /\
  forall l k, getv this s = Some (MRef l k) ->
    (exists j, this = LS j) /\
    forall o, obj l s = Some o -> plain_vars o = true -> cX c l /\ goodU c F s (LC l (h_gen o) k).
(** The arrays it denotes are in [P] and may be written. *)
Definition own0 (c : ctx) (P : nat -> Prop) (s : state) (this : lval) : Prop :=
  forall v y l, getv this s = Some v -> der_spec v s y -> target y = Some l -> P l /\ win c s l.
Definition own1 (c : ctx) (P : nat -> Prop) (s : state) (this : lval) : Prop :=
  forall x, getv this s = Some x -> nonref x /\ forall l, target x = Some l -> P l /\ win c s l.
Definition cfresh (c : ctx) (P : nat -> Prop) (s : state) : Prop := forall l, length (mem s) <= l -> cX c l /\ P l.

Lemma der_nonref : forall v s y, nonref v -> der_spec v s y -> y = v.
Proof. intros v s y N D. destruct v; simpl in D; auto. exfalso. eapply N; eauto. Qed.
Lemma own1_own0 : forall c P s this, own1 c P s this -> own0 c P s this.
Proof. intros c P s this H v y l V D T. destruct (H v V) as [N A]. rewrite (der_nonref _ _ _ N D) in T. auto. Qed.
Lemma own0_own1 : forall c P s this, own0 c P s this -> (forall x, getv this s = Some x -> nonref x) -> own1 c P s this.
Proof.
  intros c P s this H N x X. split; auto. intros l T. apply (H x x l); auto.
  specialize (N x X). destruct x; simpl; auto. exfalso. eapply N; eauto.
Qed.
Lemma rcv_nonref : forall c F s this, wr c this -> goodU c F s this -> under this s ->
  (forall x, getv this s = Some x -> nonref x) -> rcv c F s this.
Proof.
  intros c F s this W K Un N. repeat (split; [assumption|]). intros l k G. exfalso. eapply N; eauto.
Qed.
Lemma cfresh_step : forall c c' P s s', fp c' s s' -> cfresh c P s -> cfresh c P s'.
Proof. intros c c' P s s' H Fr l L. apply Fr. pose proof (fp_mlen _ _ _ H). lia. Qed.

(** A var found through a reference in a stack var, or the var itself. *)
Definition apart (r this : lval) : Prop := r = this \/ exists j l g i, this = LS j /\ r = LC l g i.
Lemma deref_rcv : forall c e F s this, INV e F s -> rcv c F s this ->
  post c e F s none (fun r s' => dereffed this s r s' /\ wr c r /\ goodU c F s' r /\ under r s' /\
      apart r this /\ rcv c F s' this /\
      (forall x, getv this s' = Some x -> nonref x) /\ (forall x, getv r s' = Some x -> nonref x))
    (dereference this s).
Proof.
  intros c e F s this I (W & K & Un & R). eapply post_weaken; [apply deref_post; auto|].
  intros r s' I' P D. split; auto. pose proof D as (T & v & V & H).
  assert (K' : goodU c F s' this) by (eapply goodU_step with (G := []); eauto).
  assert (Un' : under this s') by (eapply under_fp; eauto).
  destruct H as [(N & -> & ->)|(l & i & o & y & -> & O & Er & Dy & Ny & _ & X1 & X2)].
  - assert (N' : forall x, getv this s = Some x -> nonref x) by (intros; congruence).
    repeat (split; [assumption|]). split; [left; auto|]. split; [apply rcv_nonref; auto|auto].
  - destruct (R l i V) as [[j Ej] RR].
    assert (N1 : forall x, getv this s' = Some x -> nonref x) by (intros x X; rewrite (X1 x X); auto).
    assert (N2 : forall x, getv r s' = Some x -> nonref x) by (intros x X; rewrite (X2 x X); auto).
    destruct (plain_vars o) eqn:Pl.
    + destruct (RR o O Pl) as [CX G]. subst r.
      split; [exact CX|]. split; [eapply goodU_step with (G := []); eauto|]. split; [simpl; auto|].
      split; [right; subst; eauto 6|]. split; [apply rcv_nonref; auto|auto].
    + subst r. split; [auto|]. split; [auto|]. split; [auto|]. split; [left; auto|]. split; [apply rcv_nonref; auto|auto].
Qed.
(** After dereferencing, [this] denotes the same array. *)
Lemma deref_own : forall c c' P s this r s', sound s -> fp c' s s' -> dereffed this s r s' ->
  own0 c P s this -> own1 c P s' this /\ own1 c P s' r.
Proof.
  intros c c' P s this r s' S H (T & v & V & D) O.
  destruct D as [(N & -> & ->)|(l & i & o & y & -> & Ob & Er & Dy & Ny & _ & X1 & X2)].
  - assert (own1 c P s this) by (apply own0_own1; auto; intros; congruence). auto.
  - assert (A : forall l, target y = Some l -> P l /\ win c s' l).
    { intros k Tk. destruct (O _ y k V Dy Tk) as [A B]. split; auto. eapply win_step; eauto.
      assert (Hy : held y s); [|apply Hy; auto].
      simpl in Dy. destruct Dy as (o1 & O1 & Dy). assert (o1 = o) by congruence. subst o1. destruct (plain_vars o).
      - destruct Dy as (k' & Nk & _). destruct S as (_ & _ & S). eapply S; eauto. eapply in_contents_snd; eauto.
      - pose proof (rs_read_elem False s l (Z.of_nat i) S) as R. unfold rs in R. rewrite Dy in R. apply R.
        apply live_obj; eauto. }
    split; intros x X; [rewrite (X1 x X)|rewrite (X2 x X)]; auto.
Qed.

(** Resizing an object. *)
Lemma terminate_len : forall t n c, length (terminate t n c) = length c.
Proof. intros. unfold terminate. destruct (is_char t); auto. apply sn_length. Qed.
Lemma terminate_var : forall t n c, varlike t = true -> terminate t n c = c.
Proof. intros t n c V. destruct t as [[]|]; simpl in V; try discriminate; reflexivity. Qed.
Lemma cell_occ_set0 : forall k c i, (forall k, cell_occ k c = 0) -> cell_occ k (set_nth c i (MNil, NUL)) = 0.
Proof.
  intros k c i H. destruct (Nat.lt_ge_cases i (length c)).
  - destruct (ne_some _ c i H0) as [[a b] N]. pose proof (cell_occ_sn k _ _ _ (MNil, NUL) N) as A. rewrite H in A.
    simpl in A. change (occ1 k MNil) with 0 in A. change (occ1 k NUL) with 0 in A. lia.
  - rewrite sn_none by auto. auto.
Qed.
Lemma terminate_occ : forall k t n c, (varlike t = false -> forall k, cell_occ k c = 0) ->
  cell_occ k (terminate t n c) = cell_occ k c.
Proof.
  intros k t n c H. unfold terminate. destruct (is_char t) eqn:C; auto.
  assert (V : varlike t = false) by (destruct t as [[]|]; simpl in *; auto; discriminate).
  rewrite H by auto. apply cell_occ_set0. auto.
Qed.
Definition resized (l n : nat) (s s' : state) : Prop :=
  exists o o', obj l s = Some o /\ s' = set_mem l o' s /\ h_ty o' = h_ty o /\ h_view o' = h_view o /\ h_size o' = n /\
    ((h_gen o' = S (h_gen o)) \/
     (h_gen o' = h_gen o /\ h_cells o' = terminate (h_ty o) n (h_cells o))).
Lemma heap_resize_post : forall c e F s l n, INV e F s -> live l s -> cX c l -> cG c l ->
  post c e F s none (fun _ s' => resized l n s s') (heap_resize l n s).
Proof.
  intros c e F s l n I L HX HG. unfold heap_resize.
  eapply post_rs; [apply rs_get_obj; auto|auto|]. intros o O; cbv beta in O.
  eapply post_rs; [apply rs_lift; apply alloc_no_uaf|auto|]. intros z _.
  pose proof I as (_ & Ty & _). pose proof (Ty _ _ O) as D.
  assert (G : forall o', h_ty o' = h_ty o -> h_view o' = h_view o -> h_size o' = n ->
     (forall k, cell_occ k (h_cells o') = cell_occ k (h_cells o)) ->
     (h_gen o' = S (h_gen o)) \/ (h_gen o' = h_gen o /\ h_cells o' = terminate (h_ty o) n (h_cells o)) ->
     post c e F s none (fun _ s' => resized l n s s') (set_obj l o' s)).
  { intros o' H1 H2 H2' H3 H4. unfold set_obj. simpl. fold (set_mem l o' s). split; [|split].
    - eapply INV_set_mem; eauto.
      + intros k. rewrite !occ_contents, H3, H2. reflexivity.
      + split; [intros V k; rewrite H3; apply D; congruence|rewrite H1, H2; apply D].
    - eapply fp_set_mem; eauto.
    - exists o, o'. auto 10. }
  destruct (_ <? _)%Z.
  - apply G; simpl; auto. intros k. rewrite terminate_occ.
    + rewrite cell_occ_app, occ_fresh. lia.
    + intros V k'. rewrite cell_occ_app, occ_fresh, (proj1 D); auto.
  - destruct (_ && _)%bool; [apply post_ub; discriminate|]. apply G; simpl; auto.
    intros k. apply terminate_occ. apply D.
Qed.
Lemma resized_getv : forall l n s s' v x y, resized l n s s' -> tl v s -> getv v s = Some y -> getv v s' = Some x -> x = y.
Proof.
  intros l n s s' v x y (o & o' & O & -> & T & V & Sz & H) K Y G.
  assert (A : forall k g o1 o2, (if Nat.eqb l k then Some o' else obj k s) = Some o1 -> Nat.eqb (h_gen o1) g = true ->
     (forall o, obj k s = Some o -> varlike (h_ty o) = true) -> obj k s = Some o2 -> Nat.eqb (h_gen o2) g = true -> h_cells o1 = h_cells o2).
  { intros k g o1 o2 E1 G1 Vl E2 G2. destruct (Nat.eqb_spec l k).
    - subst. inversion E1; subst. assert (o2 = o) by congruence. subst. apply Nat.eqb_eq in G1, G2.
      destruct H as [H|[_ H]]; [lia|]. rewrite H. apply terminate_var. auto.
    - congruence. }
  destruct v as [j|k g i|k g i]; simpl in *; [congruence| |];
    (rewrite obj_set_mem in G by (eapply obj_lt; eauto);
     destruct (if Nat.eqb l k then Some o' else obj k s) as [o1|] eqn:E1; [|discriminate];
     destruct (Nat.eqb (h_gen o1) g) eqn:G1; [|discriminate];
     destruct (obj k s) as [o2|] eqn:E2; [|discriminate];
     destruct (Nat.eqb (h_gen o2) g) eqn:G2; [|discriminate];
     rewrite (A k g o1 o2) in G; auto; [congruence|rewrite E2; auto|rewrite E2; apply K]).
Qed.

Lemma win_new : forall c P s o, cfresh c P s -> h_view o = None -> win c (new_st o s) (length (mem s)).
Proof.
  intros c P s o Fr V o'. rewrite obj_new, Nat.eqb_refl. intros E. inversion E; subst. rewrite V. apply Fr. lia.
Qed.
Lemma fresh_own : forall c P s s' this, cfresh c P s ->
  (forall x, getv this s' = Some x -> exists l, x = MPtr l /\ fresh_from (length (mem s)) s' l) -> own1 c P s' this.
Proof.
  intros c P s s' this Fr H x X. destruct (H x X) as (l & -> & A & B & C). split; [unfold nonref; congruence|].
  intros k T. inversion T; subst. destruct (Fr k A) as [CX HP]. split; auto.
  intros o O. rewrite (C o O). auto.
Qed.
Lemma own1_step : forall c c' P s s' this, fp c' s s' -> sound s -> own1 c P s this ->
  (forall x, getv this s' = Some x -> getv this s = Some x) -> own1 c P s' this.
Proof.
  intros c c' P s s' this H S O E x X. destruct (O x (E x X)) as [N A]. split; auto.
  intros l T. destruct (A l T). split; auto. eapply win_step; eauto.
  eapply (getv_held this); eauto.
Qed.

(** The var found by [dereference] becomes an array; if it is not [this] itself, [this] is a
    stack var and keeps its value. *)
Lemma become_own : forall c P e F s this r n v, INV e F s -> goodU c F s r -> wr c r -> under r s -> apart r this ->
  getv r s = Some v -> target v = None -> cfresh c P s -> own1 c P s this ->
  post c e F s none (fun _ s' => own1 c P s' this) (become_array r n s).
Proof.
  intros c P e F s this r n v I K W Un Ap V Tv Fr O. destruct Ap as [->|(j & l & g & i & -> & ->)].
  - eapply post_weaken; [apply become_array_post; auto|].
    + eapply goodU_okU; eauto.
    + apply K.
    + intros x X. assert (x = v) by congruence. subst. auto.
    + intros l L. apply Fr. auto.
    + intros u s2 I2 P2 Q. cbv beta in Q. eapply fresh_own; eauto.
  - set (c1 := mkctx (cX c) (cG c) (fun k => k = j \/ cK c k)).
    assert (PP : post c1 e F s none anyp (become_array (LC l g i) n s)).
    { eapply post_weaken; [apply become_array_post; auto|intros; exact Logic.I].
      - eapply goodU_okU; eauto.
      - apply K.
      - intros x X. assert (x = v) by congruence. subst. auto.
      - intros k L. apply Fr. auto. }
    destruct (become_array (LC l g i) n s) as [a s2|m s2|k|]; simpl in PP |- *; auto.
    + destruct PP as (A1 & A2 & _). split; auto. split.
      * eapply fp_weaken; [exact A2|auto|auto|simpl; auto].
      * eapply own1_step; [exact A2|eauto|auto|].
        intros x X. eapply (fp_getv c1); eauto. simpl. auto.
    + destruct PP as (A1 & A2). split; auto. eapply fp_weaken; [exact A2|auto|auto|simpl; auto].
Qed.
Lemma new_own : forall c P e F s this r t n v, INV e F s -> goodU c F s r -> wr c r -> under r s -> apart r this ->
  getv r s = Some v -> target v = None -> cfresh c P s -> own1 c P s this ->
  post c e F s none (fun _ s' => own1 c P s' this /\ own1 c P s' r) ((let! h := new_heap t n in put r h) s).
Proof.
  intros c P e F s this r t n v I K W Un Ap V Tv Fr O.
  eapply post_bind; [apply new_heap_post; auto|]. intros h s1 I1 P1 (o & -> & -> & Ty & Sz & Vw). simpl in I1.
  set (l0 := length (mem s)) in *.
  assert (V1 : getv r (new_st o s) = Some v) by (apply getv_new; auto).
  rewrite (put_eq _ _ _ (MPtr l0) V1).
  assert (K1 : goodU c F (new_st o s) r) by (eapply goodU_step with (G := [MPtr l0]); eauto).
  assert (Rn : own1 c P (putv r (MPtr l0) (new_st o s)) r).
  { intros x X. apply getv_putv_inv in X. subst. split; [unfold nonref; congruence|].
    intros l T. inversion T; subst. split; [apply Fr; unfold l0; lia|].
    intros o' O'. destruct (obj_putv r (MPtr l0) (new_st o s) l0 o) as (o2 & O2 & _ & V2 & _).
    - rewrite obj_new. fold l0. rewrite Nat.eqb_refl. auto.
    - assert (o2 = o') by congruence. subst. rewrite V2, Vw. apply Fr. unfold l0; lia. }
  simpl. split; [|split; [apply fp_putv; auto|split; [|auto]]].
  - eapply INV_drop0; [|exact Tv]. apply INV_putv; auto. apply K1.
  - destruct Ap as [->|(j & l & g & i & -> & ->)]; auto.
    assert (P2 : fp c s (putv (LC l g i) (MPtr l0) (new_st o s))) by (eapply fp_trans; [apply P1|apply fp_putv; auto]).
    eapply own1_step; [exact P2|eauto|auto|].
    intros x X. simpl in *. rewrite put_cell_stk in X. exact X.
Qed.
Lemma array_post : forall c P e F s this, INV e F s -> rcv c F s this -> own0 c P s this -> cfresh c P s ->
  post c e F s none (fun _ s' => own1 c P s' this) (array this s).
Proof.
  intros c P e F s this I R O Fr. unfold array.
  eapply post_bind; [apply deref_rcv; eauto|]. intros r s1 I1 P1 (D & Wr & Kr & Ur & Ap & Rt & N1 & N2).
  destruct (deref_own c c P s this r s1 (INV_sound _ _ _ I) P1 D O) as [O1 O2].
  pose proof (cfresh_step _ _ _ _ _ P1 Fr) as Fr1.
  eapply post_rs; [apply rs_heap_of; [eauto|eapply goodU_okU; eauto]|auto|].
  intros h (x & (v & V & Ev) & Hx & ->).
  assert (x = v). { specialize (N2 v V). destruct v; simpl in Ev; auto. exfalso. eapply N2; eauto. } subst x.
  destruct v; try (eapply become_own; eauto; reflexivity); try (apply post_ret; auto).
  exfalso. eapply (N2 (MRef l i)); eauto.
Qed.
Lemma resize_post : forall c P e F s this n, INV e F s -> rcv c F s this -> own0 c P s this -> cfresh c P s ->
  (forall l, P l -> cX c l /\ cG c l) ->
  post c e F s none (fun _ s' => own1 c P s' this) (resize this n s).
Proof.
  intros c P e F s this n I R O Fr PG. unfold resize. destruct (_ <? _)%Z; [apply post_ub; discriminate|].
  eapply post_bind; [apply deref_rcv; eauto|]. intros r s1 I1 P1 (D & Wr & Kr & Ur & Ap & Rt & N1 & N2).
  destruct (deref_own c c P s this r s1 (INV_sound _ _ _ I) P1 D O) as [O1 O2].
  pose proof (cfresh_step _ _ _ _ _ P1 Fr) as Fr1.
  eapply post_rs; [apply rs_heap_of; [eauto|eapply goodU_okU; eauto]|auto|].
  intros h (x & (v & V & Ev) & Hx & ->).
  assert (x = v). { specialize (N2 v V). destruct v; simpl in Ev; auto. exfalso. eapply N2; eauto. } subst x.
  assert (Z : target v = None -> post c e F s1 none (fun _ s' => own1 c P s' this)
     ((let! x := get r in
       match x with
       | MNil => let! h := new_heap (HE TVar) (Z.to_nat n) in put r h
       | _ => if (1 <? n)%Z then become_array r (Z.to_nat n) else ret tt
       end) s1)).
  { intros Tv. unfold bind at 1. rewrite (get_eq _ _ _ V).
    assert (B : post c e F s1 none (fun _ s' => own1 c P s' this) ((if (1 <? n)%Z then become_array r (Z.to_nat n) else ret tt) s1)).
    { destruct (1 <? n)%Z; [eapply become_own; eauto|apply post_ret; auto]. }
    destruct v; auto. eapply post_weaken; [eapply new_own; eauto|]. cbv beta. tauto. }
  destruct v; try (apply Z; reflexivity).
  - eapply post_rs; [apply rs_heap_of; [eauto|eapply goodU_okU; apply Rt]|auto|].
    intros h (x & (w & Vw & Ew) & Hxw & ->).
    assert (x = w). { specialize (N1 w Vw). destruct w; simpl in Ew; auto. exfalso. eapply N1; eauto. } subst x.
    destruct w; try (apply post_ub; discriminate).
    destruct (O1 _ Vw) as [_ O1']. destruct (O1' l0 eq_refl) as [Pl Wl]. destruct (PG _ Pl) as [PX PGr].
    eapply post_weaken; [apply heap_resize_post; auto|].
    intros u s2 I2 P2 Rz. cbv beta in Rz. eapply own1_step; eauto.
    intros y Y. rewrite (resized_getv _ _ _ _ _ _ _ Rz (proj1 (proj1 (proj2 Rt))) Vw Y). auto.
  - exfalso. eapply (N2 (MRef l i)); eauto.
Qed.

Lemma rcv_own : forall c P F s this, wr c this -> goodU c F s this -> under this s -> own1 c P s this -> rcv c F s this.
Proof. intros c P F s this W K Un O. apply rcv_nonref; auto. intros x X. apply (O x X). Qed.
(** [this] keeps being a receiver. *)
Lemma rcv_keep : forall c P F e G s s' this, rcv c F s this -> fp c s s' -> INV e (G ++ F) s' -> own1 c P s' this -> rcv c F s' this.
Proof.
  intros c P F e G s s' this (W & K & Un & _) H I O. eapply rcv_own; eauto.
  - eapply goodU_step; eauto.
  - eapply under_fp; eauto.
Qed.
Lemma index_plain_post : forall c P e F s this i, INV e F s -> wr c this -> goodU c F s this -> under this s ->
  own1 c P s this -> cfresh c P s ->
  ((forall l, P l -> cX c l /\ cG c l) \/ (forall n, size_of this s = ROk n s -> (i < n)%Z)) ->
  post c e F s own (fun a s' => own1 c P s' this /\ forall l, target a = Some l -> P l /\ win c s' l) (index_plain this i s).
Proof.
  intros c P e F s this i I W K Un O Fr G. unfold index_plain.
  assert (R : rcv c F s this) by (eapply rcv_own; eauto).
  unfold bind at 1. pose proof (rs_size_of U s this (INV_sound _ _ _ I) (goodU_okU _ _ _ _ _ K)) as SZ. unfold rs in SZ.
  destruct (size_of this s) as [n s'|m s'|k|] eqn:Sz; auto.
  2:{ subst. simpl. split; [exists e; auto|apply fp_refl]. }
  destruct SZ as [-> _].
  eapply post_seq with (Q1 := fun _ s' => own1 c P s' this).
  - destruct (n <=? i)%Z eqn:Le; [|apply post_ret; auto].
    destruct (in_int _); [|apply post_ub; discriminate].
    destruct G as [G|G]; [|specialize (G n eq_refl); apply Z.leb_le in Le; lia].
    apply resize_post; auto. apply own1_own0; auto.
  - intros u s1 I1 P1 O1.
    assert (R1 : rcv c F s1 this) by (eapply rcv_keep with (G := []); eauto).
    pose proof (cfresh_step _ _ _ _ _ P1 Fr) as Fr1.
    eapply post_seq; [apply array_post with (P := P); auto; apply own1_own0; auto|].
    intros u2 s2 I2 P2 O2. cbv beta in O2.
    assert (R2 : rcv c F s2 this) by (eapply rcv_keep with (G := []); eauto).
    eapply post_weaken; [apply post_yield; [apply yields_reference; [eauto|eapply goodU_okU; apply R2]|auto]|].
    intros a s3 I3 P3 (-> & x & l & X & T & Ea). destruct (O2 x X) as [N A]. split.
    + eapply own1_step; [apply (fp_bump c a)|eauto|auto|]. intros y. rewrite getv_bump. auto.
    + intros l' T'. assert (l' = l). { subst a. destruct (0 <=? i)%Z; simpl in T'; congruence. } subst l'.
      destruct (A l T). split; auto. apply win_bump. auto.
Qed.

(** The var an int subscript works on. *)
Definition idx_ok (c : ctx) (P : nat -> Prop) (F : list mvar) (s : state) (this : lval) (i : Z) : Prop :=
  forall v, getv this s = Some v ->
  match v with
  | MRef l k => forall o, obj l s = Some o -> plain_vars o = true ->
      cX c l /\ goodU c F s (LC l (h_gen o) k) /\ 
      (forall x, getv (LC l (h_gen o) k) s = Some x -> nonref x -> forall l', target x = Some l' -> P l' /\ win c s l') /\
      ((forall l, P l -> cX c l /\ cG c l) \/ (forall n, size_of (LC l (h_gen o) k) s = ROk n s -> (i < n)%Z))
  | _ => wr c this /\ own1 c P s this /\
      ((forall l, P l -> cX c l /\ cG c l) \/ (forall n, size_of this s = ROk n s -> (i < n)%Z))
  end.
Lemma index_int_post : forall c P e F s this i, INV e F s -> goodU c F s this -> under this s ->
  idx_ok c P F s this i -> cfresh c P s ->
  post c e F s own (fun a s' => forall l, target a = Some l -> P l /\ win c s' l) (index_int this i s).
Proof.
  intros c P e F s this i I K Un Ix Fr. unfold index_int. destruct (_ <? _)%Z; [apply post_throw; auto|].
  eapply post_rs; [apply rs_get; eapply goodU_okU; eauto|auto|]. intros v V; cbv beta in V.
  specialize (Ix v V). destruct v as [| | |l k| |].
  4:{ assert (Hl : held (MRef l k) s) by (eapply getv_held; eauto).
      eapply post_rs; [apply rs_get_obj; apply Hl; reflexivity|auto|]. intros o O; cbv beta in O.
      destruct (plain_vars o) eqn:Pl; [|apply post_throw; auto].
      destruct (Ix o O Pl) as (CX & Kc & Ow & G).
      eapply post_rs; [apply rs_get; eapply goodU_okU; eauto|auto|]. intros x X; cbv beta in X.
      assert (B : nonref x -> post c e F s own (fun a s' => forall l, target a = Some l -> P l /\ win c s' l)
                  (index_plain (LC l (h_gen o) k) i s)).
      { intros N. eapply post_weaken; [apply index_plain_post with (P := P); auto; [simpl; auto|]|].
        - intros y Y. assert (y = x) by congruence. subst y. split; auto. intros l' T'. eapply Ow; eauto.
        - cbv beta. tauto. }
      destruct x; try (apply B; unfold nonref; congruence). apply post_stuck. }
  all: destruct Ix as (Wr & O1 & G); (eapply post_weaken; [apply index_plain_post with (P := P); auto|cbv beta; tauto]).
Qed.
End Arr.
