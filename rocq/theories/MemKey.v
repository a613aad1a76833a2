(** Keyed subscripts and [unshift] on a variable or temporary. *)
From Coq Require Import ZArith Bool List String Lia.
From Verif Require Import Base StrModel ValModel NumModel AllocModel MemModel MemProof MemFun MemEq MemDeref MemTriple MemOps MemArr MemMeth MemTop MemCall MemMore.
Import ListNotations.
Local Open Scope list_scope.
Local Open Scope mem_scope.
Local Notation length := List.length.

Lemma pairy_bump : forall s r v, pairy s r -> pairy (bump v s) r.
Proof.
  intros s r v (l & o & G & O & T). exists l, o. rewrite getv_bump, obj_bump. split; auto. split; auto.
  assert (M : mem (bump v s) = mem s) by (unfold bump; destruct (target v); reflexivity).
  unfold obj_type, bind, get_obj in *. destruct (h_view o) as [t|]; [rewrite M|inversion T; reflexivity].
  destruct (nth_error (mem s) t) as [[o1|]|]; inversion T; reflexivity.
Qed.
Lemma pairy_push : forall s r v, pairy s r -> pairy (push_s v s) r.
Proof.
  intros s r v (l & o & G & O & T). exists l, o. rewrite getv_push, obj_push by (eapply getv_under; eauto). split; auto. split; auto.
  unfold obj_type, bind, get_obj in *. destruct (h_view o) as [t|]; [change (mem (push_s v s)) with (mem s)|inversion T; reflexivity].
  destruct (nth_error (mem s) t) as [[o1|]|]; inversion T; reflexivity.
Qed.
Lemma pairy_new : forall r s v u s', getv r s = Some v -> (let! h := new_heap HPair 0 in put r h) s = ROk u s' -> pairy s' r.
Proof.
  intros r s v u s' G. unfold new_heap, new_cells, bind. destruct (allocSize _) as [z| | |]; simpl; try discriminate.
  destruct (z <? 0)%Z; [discriminate|]. simpl. set (o := mkobj _ _ _ _ _). fold (new_st o s).
  rewrite (put_eq _ _ _ (MPtr (length (mem s))) (getv_new _ o _ _ G)). intros E. inversion E; subst s'. clear E.
  destruct (obj_putv r (MPtr (length (mem s))) (new_st o s) (length (mem s)) o) as (o' & O & T & V & _).
  { rewrite obj_new, Nat.eqb_refl. reflexivity. }
  exists (length (mem s)), o'. split; [eapply getv_putv_same; apply getv_new; eauto|]. split; auto.
  unfold obj_type. rewrite V, T. reflexivity.
Qed.
Lemma pairy_atype : forall r s l s', getv r s = Some (MPtr l) -> atype_of r s = ROk 9%Z s' -> pairy s r.
Proof.
  intros r s l s' G. unfold atype_of, bind at 1. rewrite (get_eq _ _ _ G). unfold eff, bind, ret at 1, get_obj.
  destruct (nth_error (mem s) l) as [[o|]|] eqn:O; try discriminate. apply obj_live in O.
  destruct (obj_type o s) as [t s1| | |] eqn:T; try discriminate. simpl. intros E. inversion E; subst.
  destruct t as [[]|]; try discriminate. exists l, o. split; auto. split; auto. rewrite T. f_equal.
  unfold obj_type, bind, get_obj in T. destruct (h_view o) as [t|]; [destruct (nth_error (mem s) t) as [[o1|]|]|]; inversion T; auto.
Qed.

(** The element a receiver refers to is nothing, an array, or nothing is known. *)
Definition no_scalar (s : state) (this : lval) : Prop :=
  forall l k o a x, getv this s = Some (MRef l k) -> obj l s = Some o -> plain_vars o = true ->
    nth_error (h_cells o) k = Some (a, x) -> x = MNil \/ exists t, x = MPtr t.

Section Key.
Variable U : Prop.
Notation post := (post U).
Notation goodU := (goodU U).
Notation okU := (okU U).
Notation rcv := (rcv U).
Notation RV := (RV U).
Notation GR := (GR U).
Notation easy := (easy U).

Definition GK (s : state) (j : nat) : Prop := U \/ (anchored s (LS j) /\ no_scalar s (LS j)).
Lemma GK_GR : forall s j, GK s j -> GR s j.
Proof. intros s j [H|[H _]]; [left; auto|right; auto]. Qed.

Definition fitting (P : nat -> Prop) (s : state) (r : lval) : Prop :=
  easy r \/ exists l g k, r = LC l g k /\ ~ P l /\ pairy s r.
Definition lookup (v p : lval) : M mvar :=
  let! dp := defined p in
  if negb dp then ret MNil else
  let! index := binary v p in
  let! n := size_of v in
  (if (n <=? index)%Z then (let! x := copy_of p in scoped x (fun q => insert v q index))
   else
     let! k := key_ptr v index in
     let! a := get k in let! y := get p in
     let! a := value a in let! y := value y in
     let! ne := lift (vneq a y) in
     if ne : bool then (let! x := copy_of p in scoped x (fun q => insert v q index))
     else ret tt) ;;
  reference v index.
Lemma rv_ok : forall c P s r, RV c P s r -> okU r s.
Proof. intros c P s r R. destruct (rv_rcv _ _ _ _ _ R) as (_ & K & _). eapply goodU_okU; eauto. Qed.
Lemma lookup_insert : forall c P e s r q idx, INV e [] s -> RV c P s r -> fitting P s r ->
  post full e [] s none (fun _ s' => okU r s') ((let! x := copy_of (LS q) in scoped x (fun q => insert r q idx)) s).
Proof.
  intros c P e s r q idx I R [E|(l & g & k & -> & N & Pr)].
  - eapply post_weaken; [apply with_copy_top; auto|intros; apply easy_ok; auto].
    intros x I1. eapply insert_post; eauto; [apply RV_push, RV_bump; eauto|]. simpl. rewrite app_length, bump_stk. simpl. lia.
  - apply (post_full U _ c). eapply post_yields; [apply yields_copy_of; [eauto|apply okU_LS]|auto|]. intros x _ Hx I1.
    eapply post_scoped with (c' := c) (Q := anyp); auto.
    + intros I2. eapply insert_pair_post; eauto; [apply RV_push, RV_bump; auto|apply pairy_push, pairy_bump; auto].
    + intros u s2 s3 _ _ _ _ I3 P3. simpl in I3.
      assert (K : goodU c [] (bump x s) (LC l g k)) by (apply goodU_bump, (rv_rcv _ _ _ _ _ R)).
      eapply goodU_okU. eapply goodU_step with (G := []); eauto.
Qed.
Lemma lookup_post : forall c P e s r q, INV e [] s -> RV c P s r -> fitting P s r ->
  post full e [] s own anyp (lookup r (LS q) s).
Proof.
  intros c P e s r q I R Ft. unfold lookup. pose proof (rv_ok _ _ _ _ R) as K.
  eapply post_rs; [apply rs_defined; [eauto|apply okU_LS]|auto|]. intros dp _. destruct (negb dp).
  { apply post_ret; [apply INV_add0; auto|exact Logic.I]. }
  eapply post_rs; [apply rs_binary; eauto; apply okU_LS|auto|]. intros idx _.
  eapply post_rs; [apply rs_size_of; eauto|auto|]. intros n _.
  eapply post_seq with (Q1 := fun _ s' => okU r s').
  - destruct (_ <=? _)%Z; [eapply lookup_insert; eauto|].
    eapply post_rs; [apply rs_key_ptr; eauto|auto|]. intros kp (l & o & i & -> & _ & O & T).
    assert (Kk : okU (LK l (h_gen o) i) s) by (eapply okU_key; eauto).
    eapply post_rs; [apply rs_get; auto|auto|]. intros a A; cbv beta in A.
    eapply post_rs; [apply rs_get; apply okU_LS|auto|]. intros y Y; cbv beta in Y.
    eapply post_rs; [apply rs_value; eauto using getv_held|auto|]. intros va _.
    eapply post_rs; [apply rs_value; eauto using getv_held|auto|]. intros vy _.
    eapply post_rs; [apply rs_lift; apply vneq_no_uaf|auto|]. intros ne _.
    destruct ne; [eapply lookup_insert; eauto|]. apply post_ret; auto.
  - intros u s1 I1 P1 K1. cbv beta in K1. eapply post_any, post_yield; [apply yields_reference; eauto|auto].
Qed.

Lemma index_var_top : forall e s j q, INV e [] s -> j < length (stk s) -> GK s j ->
  post full e [] s own anyp (index_var (LS j) (LS q) s).
Proof.
  intros e s j q I L G. destruct (RV_exists _ _ _ _ I L (GK_GR _ _ G)) as (c & P & R).
  unfold index_var. eapply post_thru; [apply deref_rcv; [eauto|apply R]|].
  intros r s1 I1 P1 (D & W & K & Un & Ap & Rc & N1 & N2). simpl in I1.
  destruct (deref_own c c P s (LS j) r s1 (INV_sound _ _ _ I) P1 D (rv_own0 _ _ _ _ _ R)) as [O1 O2].
  assert (Rr : RV c P s1 r) by (eapply rv_direct; eauto).
  assert (Unj : under (LS j) s1) by (eapply under_fp; eauto; simpl; auto).
  assert (Rt : RV c P s1 (LS j)) by (apply (rv_direct U c c P s s1 (LS j) (LS j)); auto; [apply (rv_rcv _ _ _ _ _ R)|apply goodU_LS]).
  pose proof (rv_ok _ _ _ _ Rr) as Kr.
  assert (Kind : easy r \/ exists l g k, r = LC l g k /\ ~ P l /\ (forall x, getv r s1 = Some x -> x = MNil \/ exists t, x = MPtr t)).
  { destruct D as (T & v & V & D). destruct D as [(Nv & -> & ->)|(l & i & o & y & -> & O & Er & Dy & Ny & _ & _ & Gr)]; [left; right; eauto|].
    destruct (plain_vars o) eqn:Pl; [|left; right; eauto].
    destruct (rv_cont _ _ _ _ _ R) as [[u _]|Pn]; [left; left; auto|].
    destruct G as [u|[_ Ns]]; [left; left; auto|]. right. exists l, (h_gen o), i. split; auto. split; [eauto|].
    intros x X. rewrite (Gr x X). simpl in Dy. destruct Dy as (o1 & Oo1 & Dy). assert (o1 = o) by congruence. subst o1.
    rewrite Pl in Dy. destruct Dy as (a & Na & _). eapply Ns; eauto. }
  eapply post_rs; [apply rs_defined; eauto|auto|]. intros d (x & (v & V & Ev) & Ed).
  assert (Ex : x = v). { pose proof (N2 _ V) as Nv. destruct v; simpl in Ev; auto. exfalso. eapply Nv; eauto. }
  subst x. cbv zeta. fold (lookup r (LS q)).
  assert (Fit : forall s2, pairy s2 r -> fitting P s2 r).
  { intros s2 Pr. destruct Kind as [E|(l & g & k & -> & NP & _)]; [left; auto|]. right. exists l, g, k. auto. }
  destruct (negb d) eqn:Nd.
  { assert (v = MNil). { subst d. rewrite negb_involutive in Nd. destruct v; try discriminate. reflexivity. }
    subst v. rewrite bind_assoc.
    pose proof (new_own U c P e [] s1 (LS j) r HPair 0 MNil I1 K W Un Ap V eq_refl (rv_cfresh _ _ _ _ _ Rr) O1) as Np.
    unfold bind at 1. destruct ((let! h := new_heap HPair 0 in put r h) s1) as [u s2|m s2|k|] eqn:E; auto.
    - destruct Np as (I2 & P2 & _ & O3). simpl in I2. eapply post_from; [eapply fp_weaken; [exact P2|simpl; auto|simpl; auto|simpl; tauto]|].
      eapply lookup_post with (c := c); eauto; [|apply Fit; eapply pairy_new; eauto].
      eapply rv_direct; [exact Rr|exact P2|auto| | |auto].
      + eapply goodU_step with (G := []); eauto.
      + eapply under_fp; eauto.
    - destruct Np as (I2 & P2). split; auto. eapply fp_weaken; [exact P2|simpl; auto|simpl; auto|simpl; tauto]. }
  eapply post_rs; [apply rs_heap_of; eauto|auto|]. intros h (x & (v' & V' & Ev') & Hx & Eh).
  assert (v' = v) by congruence. subst v'.
  assert (Ex : x = v). { pose proof (N2 _ V) as Nv. destruct v; simpl in Ev'; auto. exfalso. eapply Nv; eauto. }
  subst x. destruct h as [l|].
  2:{ eapply lookup_post; eauto. destruct Kind as [E|(l & g & k & -> & NP & Ns)]; [left; auto|]. exfalso.
      destruct (Ns _ V) as [->|[t ->]]; [|discriminate]. subst d. discriminate. }
  assert (v = MPtr l). { destruct v; try discriminate. inversion Eh; reflexivity. } subst v.
  assert (At : rs U (atype_of r) s1 (fun t => t = 9%Z -> pairy s1 r)).
  { pose proof (rs_atype_of U s1 r (INV_sound _ _ _ I1) Kr) as A. unfold rs in *. destruct (atype_of r s1) as [t s2|m s2|k|] eqn:E; auto.
    destruct A as [-> _]. split; auto. intros ->. eapply pairy_atype; eauto. }
  eapply post_rs; [exact At|auto|]. intros t Ht. destruct (Z.eqb_spec t 9).
  { eapply lookup_post; eauto. }
  eapply post_rs; [apply rs_cast_var; [eauto|apply okU_LS]|auto|]. intros i _.
  destruct i; try apply post_stuck. eapply post_top with (c := c).
  apply index_int_post with (P := P); auto; [apply goodU_LS| |eapply rv_cfresh; eauto].
  intros w Vw. pose proof (N1 _ Vw) as Nw.
  assert (A : wr c (LS j) /\ own1 c P s1 (LS j) /\
     ((forall l, P l -> cX c l /\ cG c l) \/ (forall n, size_of (LS j) s1 = ROk n s1 -> (z < n)%Z))).
  { split; [apply R|]. split; auto. left. apply R. }
  destruct w; auto. exfalso. eapply Nw; eauto.
Qed.

(** * unshift *)
(** The invariant with some references lost; as many variables as in [s]. *)
Definition lossy {A} (s : state) (H : A -> list mvar) (r : res A) : Prop :=
  match r with
  | ROk a s' => (exists e', INV e' (H a) s') /\ length (stk s') = length (stk s)
  | RThrow _ s' => (exists e', INV e' [] s') /\ length (stk s') = length (stk s)
  | RUB k => k <> UseAfterFree \/ U
  | RStuck => True
  end.
Lemma post_lossy : forall A c e s (H : A -> list mvar) Q r, post c e [] s H Q r -> lossy s H r.
Proof.
  intros A c e s H Q r P. destruct r; simpl in *; auto.
  - destruct P as (P & Q1 & _). rewrite app_nil_r in P. split; [eauto|apply Q1].
  - destruct P as ((e' & P & _) & Q1). split; [eauto|apply Q1].
Qed.
Lemma lossy_from : forall A s s' (H : A -> list mvar) r, length (stk s') = length (stk s) -> lossy s' H r -> lossy s H r.
Proof. intros A s s' H r L P. destruct r; simpl in *; auto; destruct P; split; auto; congruence. Qed.
Lemma lossy_seq : forall A B c e s (m : M A) (f : A -> M B) H1 Q1 H2,
  post c e [] s H1 Q1 (m s) ->
  (forall a s', INV e (H1 a) s' -> fp c s s' -> Q1 a s' -> lossy s' H2 (f a s')) ->
  lossy s H2 ((let! a := m in f a) s).
Proof.
  intros A B c e s m f H1 Q1 H2 P K. unfold bind. destruct (m s) as [a s'|m' s'|k|]; simpl in P; auto.
  - destruct P as (P1 & P2 & P3). rewrite app_nil_r in P1. eapply lossy_from; [apply P2|]. apply K; auto.
  - destruct P as ((e' & P & _) & Q). split; [eauto|apply Q].
Qed.
Lemma lossy_rs : forall A B e s (m : M A) (f : A -> M B) Q H, rs U m s Q -> INV e [] s ->
  (forall a, Q a -> lossy s H (f a s)) -> lossy s H ((let! a := m in f a) s).
Proof.
  intros A B e s m f Q H R I K. unfold bind, rs in *. destruct (m s) as [a s'|m' s'|k|]; auto.
  - destruct R as [-> R]. auto.
  - subst s'. split; eauto.
Qed.
Lemma lossy_scoped : forall A v e s (f : lval -> M A) H, INV e [v] s ->
  (INV e [] (push_s v s) -> lossy (push_s v s) H (f (LS (length (stk s))) (push_s v s))) ->
  lossy s H (scoped v f s).
Proof.
  intros A v e s f H I K. apply (proj1 (INV_push _ _ _ _)) in I. specialize (K I). unfold scoped. fold (push_s v s).
  destruct (f (LS (length (stk s))) (push_s v s)) as [a s2|m s2|k|]; simpl in *; auto;
    destruct K as [[e' K1] K2]; rewrite app_length in K2; simpl in K2.
  - destruct (leave_post e' (H a) s2 (length (stk s)) K1) as (s3 & A1 & A2 & (A3 & _)); [lia|].
    unfold bind. rewrite A1. simpl. split; [eauto|]. simpl in A3. rewrite A3. simpl. apply firstn_length_le. lia.
  - destruct (leave_post e' [] s2 (length (stk s)) K1) as (s3 & A1 & A2 & (A3 & _)); [lia|].
    unfold bind. rewrite A1. simpl. split; [eauto|]. simpl in A3. rewrite A3. simpl. apply firstn_length_le. lia.
Qed.
Lemma cell_occ_nth : forall k n c d, nth_error c n = Some d ->
  cell_occ k c = cell_occ k (firstn n c) + (occ1 k (fst d) + occ1 k (snd d)) + cell_occ k (skipn (S n) c).
Proof.
  intros k n c d N. rewrite <- (firstn_skipn n c) at 1. rewrite cell_occ_app.
  assert (E : skipn n c = d :: skipn (S n) c).
  { clear -N. revert c N. induction n; intros [|x c] N; simpl in *; try discriminate; [inversion N; reflexivity|]. apply IHn; auto. }
  rewrite E, cell_occ_cons. lia.
Qed.
Lemma heap_unshift_loss : forall e s j l q, INV e [] s -> grip s j l -> lossy s none (heap_unshift l (LS q) s).
Proof.
  intros e s j l q I Gr. unfold heap_unshift. pose proof (grip_live _ _ _ _ _ I Gr) as L.
  eapply lossy_rs; [apply rs_get_obj; auto|eauto|]. intros o O; cbv beta in O.
  eapply lossy_seq; [apply heap_resize_post with (c := only l); simpl; eauto|]. intros u s1 I1 P1 _. simpl in I1. clear o O.
  assert (Gr1 : grip s1 j l) by (eapply grip_step; eauto). pose proof (grip_live _ _ _ _ _ I1 Gr1) as L1.
  eapply lossy_rs; [apply rs_get_obj; auto|eauto|]. intros o O; cbv beta in O.
  set (n := h_size o - 1). pose proof I1 as (_ & T & _). destruct (T _ _ O) as [D1 D2].
  assert (Vars : h_ty o = HE TVar -> lossy s1 none
    ((if Nat.leb (length (h_cells o)) n then ub OutOfBounds else
      set_obj l (set_cells o ((MNil, MNil) :: firstn n (h_cells o) ++ skipn (S n) (h_cells o))) ;;
      (let! x := copy_of (LS q) in scoped x (fun q => assign_plain (LC l (h_gen o) 0) q))) s1)).
  { intros Ty. destruct (Nat.leb_spec (length (h_cells o)) n); [left; discriminate|].
    destruct (nth_error (h_cells o) n) as [d|] eqn:N; [|apply nth_error_None in N; lia].
    unfold bind at 1, set_obj. set (o' := set_cells o _). fold (set_mem l o' s1).
    assert (I2 : INV e ([fst d; snd d]) (set_mem l o' s1)).
    { eapply INV_set_mem; eauto.
      - intros k. rewrite !occ_contents. change (h_cells o') with ((MNil, MNil) :: firstn n (h_cells o) ++ skipn (S n) (h_cells o)). change (h_view o') with (h_view o).
        rewrite (cell_occ_nth k n (h_cells o) d N), cell_occ_cons, cell_occ_app. change (occ1 k (fst (MNil, MNil))) with 0.
        change (occ1 k (snd (MNil, MNil))) with 0. change (occ k (none u)) with 0. simpl occ. lia.
      - split; simpl; [intros V; rewrite Ty in V; discriminate|auto]. }
    apply INV_lose in I2. apply INV_lose in I2.
    assert (P2 : fp (only l) s1 (set_mem l o' s1)) by (eapply fp_set_mem; [eauto|reflexivity|reflexivity|reflexivity|right; reflexivity]).
    assert (Gr2 : grip (set_mem l o' s1) j l) by (eapply grip_step; eauto).
    assert (O2 : obj l (set_mem l o' s1) = Some o') by (rewrite obj_set_mem, Nat.eqb_refl by (eapply obj_lt; eauto); reflexivity).
    set (s2 := set_mem l o' s1) in *.
    eapply lossy_from with (s' := s2); [apply P2|].
    set (c := mkctx (fun x => x = l) (fun _ => False) (fun _ => True)).
    eapply post_lossy with (c := c) (Q := anyp). eapply post_yields; [apply yields_copy_of; [eauto|apply okU_LS]|eauto|].
    intros x _ Hx I3. eapply post_scoped with (c' := c) (Q := anyp); simpl; auto. intros I4.
    eapply post_any, assign_plain_post; auto; [|simpl; auto|apply okU_LS].
    apply goodU_push, goodU_bump.
    assert (Kc : ok_lv (LC l (h_gen o) 0) s2) by (exists o'; repeat split; auto; unfold o'; simpl; rewrite Ty; reflexivity).
    split; [apply ok_tl; auto|]. left. split; [auto|].
    split; [apply (grip_prot _ _ _ j); simpl; auto|simpl; tauto]. }
  assert (Dense : forall t, t <> TVar -> h_ty o = HE t -> lossy s1 none
    ((let! x := get_as t (LS q) in
      if Nat.leb (length (h_cells o)) n then ub OutOfBounds else
      set_obj l (set_cells o ((MNil, MNum x) :: firstn n (h_cells o) ++ skipn (S n) (h_cells o)))) s1)).
  { intros t Nt Ty. eapply lossy_rs; [apply rs_get_as; [eauto|apply okU_LS]|eauto|]. intros x _.
    destruct (Nat.leb_spec (length (h_cells o)) n); [left; discriminate|].
    assert (V : varlike (h_ty o) = false) by (rewrite Ty; destruct t; auto; congruence).
    destruct (nth_error (h_cells o) n) as [d|] eqn:N; [|apply nth_error_None in N; lia].
    unfold set_obj. set (o' := set_cells o _). fold (set_mem l o' s1).
    assert (Z : forall k, cell_occ k (h_cells o') = 0).
    { intros k. change (h_cells o') with ((MNil, MNum x) :: firstn n (h_cells o) ++ skipn (S n) (h_cells o)). specialize (D1 V k). rewrite (cell_occ_nth k n (h_cells o) d N) in D1.
      rewrite cell_occ_cons, cell_occ_app. change (occ1 k (fst (MNil, MNum x))) with 0. change (occ1 k (snd (MNil, MNum x))) with 0. lia. }
    split; [|reflexivity]. exists e. eapply INV_set_mem; eauto.
    - intros k. rewrite !occ_contents, Z, (D1 V). reflexivity.
    - split; simpl; auto. }
  destruct (h_ty o) as [t|] eqn:Ty; [|split; eauto].
  destruct t; try (apply Dense; [discriminate|reflexivity]). apply Vars; auto.
Qed.
Lemma unshift_loss : forall e s j q, INV e [] s -> j < length (stk s) -> GR s j -> lossy s none (unshift (LS j) (LS q) s).
Proof.
  intros e s j q I L G. unfold unshift.
  eapply lossy_rs; [apply rs_defined; [eauto|apply okU_LS]|eauto|]. intros d _. destruct (negb d).
  { eapply post_lossy with (c := full) (Q := anyp). apply with_copy_top; [exact I|]. intros x I1. apply assign_top; auto. }
  eapply lossy_rs; [apply rs_heap_of; [eauto|apply okU_LS]|eauto|]. intros h _.
  eapply lossy_seq with (H1 := none) (Q1 := anyp) (c := full) (e := e).
  { destruct h; [apply post_ret; [exact I|exact Logic.I]|eapply post_any, array_top; eauto]. }
  intros u s1 I1 P1 _. simpl in I1.
  eapply lossy_rs; [apply rs_heap_of; [eauto|apply okU_LS]|eauto|]. intros h1 (x & E & Hx & Ex).
  destruct h1 as [l|]; [|left; discriminate].
  assert (Gr : grip s1 j l). { destruct x; try discriminate. inversion Ex; subst. apply grip_eff; auto. }
  pose proof (yields_copy_of U (LS q) s1 (INV_sound _ _ _ I1) (okU_LS _ _ _)) as Y.
  unfold bind. unfold yields in Y. destruct (copy_of (LS q) s1) as [y s2|m s2|k|]; auto.
  - destruct Y as (-> & Hy & _). eapply lossy_from with (s' := bump y s1); [rewrite bump_stk; reflexivity|].
    eapply lossy_scoped; [apply INV_bump; [exact I1|exact Hy]|]. intros I2. apply (heap_unshift_loss e _ j); [exact I2|].
    apply grip_push, grip_bump; auto.
  - subst s2. split; eauto.
Qed.
End Key.
