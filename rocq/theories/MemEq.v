(** Reading never goes wrong; references and dereferencing as equations. *)
From Coq Require Import ZArith Bool List String Lia.
From Verif Require Import Base StrModel ValModel NumModel AllocModel MemModel MemProof MemFun.
Import ListNotations.
Local Open Scope list_scope.
Local Open Scope mem_scope.
Local Notation length := List.length.

(** * Sound states: nothing that is held has been freed *)
Definition sound (s : state) : Prop :=
  cnt_ok s /\ (forall v, In v (stk s) -> held v s) /\
  (forall l o v, obj l s = Some o -> In v (contents o) -> held v s).
Lemma inv_sound : forall e F s, Inv e F s -> sound s.
Proof.
  intros e F s H. split; [eapply inv_cnt; eauto|]. split.
  - intros v Hv l T. eapply inv_stk; eauto.
  - intros l o v O Hv k T. apply obj_live in O. eapply inv_cell; eauto.
Qed.
Lemma inv_held : forall e F s v, Inv e F s -> In v F -> held v s.
Proof. intros e F s v H Hv l T. eapply inv_flight; eauto. Qed.
Lemma sound_bump : forall v s, sound s -> held v s -> sound (bump v s).
Proof.
  intros v s (C & S & O) H. split; [apply cnt_bump; auto|]. split.
  - rewrite bump_stk. intros. apply held_bump. auto.
  - intros l o w. rewrite obj_bump. intros. apply held_bump. eauto.
Qed.
Lemma sound_push : forall v s, sound s -> held v s -> sound (push_s v s).
Proof.
  intros v s (C & S & O) H. split; [apply cnt_push; auto|]. split.
  - simpl. intros w Hw. apply held_push. apply in_app_or in Hw. destruct Hw as [Hw|[<-|[]]]; auto.
  - intros l o w. rewrite obj_push. intros. apply held_push. eauto.
Qed.

(** An lvalue that does not dangle. *)
Definition ok_lv (v : lval) (s : state) : Prop :=
  match v with
  | LS _ => True
  | LC l g _ | LK l g _ => exists o, obj l s = Some o /\ h_gen o = g /\ varlike (h_ty o) = true
  end.

(** * Safe readers *)
(** [U]: a use after free through a dangling lvalue is tolerated. *)
Section Tolerant.
Variable U : Prop.
Definition okU (v : lval) (s : state) : Prop := ok_lv v s \/ U.
Definition rs {A} (m : M A) (s : state) (Q : A -> Prop) : Prop :=
  match m s with
  | ROk a s' => s' = s /\ Q a
  | RThrow _ s' => s' = s
  | RUB k => k <> UseAfterFree \/ U
  | RStuck => True
  end.
Lemma rs_ret : forall A (a : A) s (Q : A -> Prop), Q a -> rs (ret a) s Q.
Proof. intros. split; auto. Qed.
Lemma rs_throw : forall A m s (Q : A -> Prop), rs (throw m) s Q.
Proof. intros. reflexivity. Qed.
Lemma rs_ub : forall A k s (Q : A -> Prop), k <> UseAfterFree -> rs (ub k) s Q.
Proof. intros. left. exact H. Qed.
Lemma rs_stuck : forall A s (Q : A -> Prop), rs stuck s Q.
Proof. intros. exact I. Qed.
Lemma rs_bind : forall A B (m : M A) (f : A -> M B) s Q R, rs m s Q -> (forall a, Q a -> rs (f a) s R) -> rs (bind m f) s R.
Proof.
  intros A B m f s Q R H K. unfold rs, bind in *. destruct (m s); auto.
  - destruct H; subst. apply K; auto.
Qed.
Lemma rs_weaken : forall A (m : M A) s (Q R : A -> Prop), rs m s Q -> (forall a, Q a -> R a) -> rs m s R.
Proof. intros. unfold rs in *. destruct (m s); intuition. Qed.
Definition no_uaf {A} (o : outcome A) : Prop := o <> UB UseAfterFree.
Lemma rs_lift : forall A (o : outcome A) s, no_uaf o -> rs (lift o) s (fun a => o = Ok a).
Proof.
  intros. destruct o; simpl; unfold rs; simpl; auto. left. intros ->. apply H. reflexivity.
Qed.
Lemma rs_get_obj : forall l s, live l s -> rs (get_obj l) s (fun o => obj l s = Some o).
Proof.
  intros l s H. apply live_obj in H as [o O]. unfold rs. rewrite (get_obj_eq _ _ _ O). auto.
Qed.
Lemma rs_get : forall v s, okU v s -> rs (get v) s (fun x => getv v s = Some x).
Proof.
  intros v s H. unfold rs. destruct (get v s) eqn:E; auto.
  - apply get_inv in E. intuition.
  - exfalso. eapply get_throw; eauto.
  - destruct H as [H|H]; [left|right; exact H].
    intros ->. destruct v as [i|l g i|l g i]; simpl in *; unfold bind in *.
    + destruct (nth_error (stk s) i); discriminate.
    + destruct H as (o & O & G & _). rewrite (get_obj_eq _ _ _ O), G, Nat.eqb_refl in E. simpl in E.
      destruct (nth_error (h_cells o) i) as [[]|]; discriminate.
    + destruct H as (o & O & G & _). rewrite (get_obj_eq _ _ _ O), G, Nat.eqb_refl in E. simpl in E.
      destruct (nth_error (h_cells o) i) as [[]|]; discriminate.
Qed.
Lemma in_contents_snd : forall o i k x, nth_error (h_cells o) i = Some (k, x) -> In x (contents o).
Proof.
  intros. unfold contents. apply in_or_app. left. apply in_flat_map. exists (k, x). split; simpl; auto.
  eapply nth_error_In; eauto.
Qed.
Lemma in_contents_fst : forall o i k x, nth_error (h_cells o) i = Some (k, x) -> In k (contents o).
Proof.
  intros. unfold contents. apply in_or_app. left. apply in_flat_map. exists (k, x). split; simpl; auto.
  eapply nth_error_In; eauto.
Qed.
Lemma in_contents_view : forall o t, h_view o = Some t -> In (MPtr t) (contents o).
Proof. intros. unfold contents. rewrite H. apply in_or_app. right. simpl. auto. Qed.
Lemma getv_held : forall v s x, sound s -> getv v s = Some x -> held x s.
Proof.
  intros v s x (C & S & O) H. destruct v as [i|l g i|l g i]; simpl in *.
  - apply S. eapply nth_error_In; eauto.
  - destruct (obj l s) as [o|] eqn:E; [|discriminate]. destruct (Nat.eqb (h_gen o) g); [|discriminate].
    destruct (nth_error (h_cells o) i) as [[k y]|] eqn:N; inversion H; subst.
    eapply O; eauto. eapply in_contents_snd; eauto.
  - destruct (obj l s) as [o|] eqn:E; [|discriminate]. destruct (Nat.eqb (h_gen o) g); [|discriminate].
    destruct (nth_error (h_cells o) i) as [[k y]|] eqn:N; inversion H; subst.
    eapply O; eauto. eapply in_contents_fst; eauto.
Qed.
Lemma view_live : forall s l o t, sound s -> obj l s = Some o -> h_view o = Some t -> live t s.
Proof. intros s l o t (C & S & O) H V. eapply O; eauto. apply in_contents_view; eauto. reflexivity. Qed.

Ltac rsd := first
  [ apply rs_throw | apply rs_stuck | (apply rs_ub; discriminate)
  | match goal with |- rs (match ?x with _ => _ end) _ _ => destruct x eqn:? end ].
Lemma rs_own_int : forall o i s, rs (own_int o i) s (fun _ => True).
Proof.
  intros. unfold rs, own_int. destruct (nth_error (h_cells o) i) as [[? []]|]; auto; try (left; discriminate).
  destruct x; auto; left; discriminate.
Qed.
Lemma rs_shape : forall o i s, rs (shape_i o i) s (fun _ => True).
Proof. intros. unfold shape_i. destruct (Nat.leb _ _); [apply rs_throw|apply rs_own_int]. Qed.
Lemma rs_stride : forall o i s, rs (stride_i o i) s (fun _ => True).
Proof. intros. unfold stride_i. destruct (Nat.leb _ _); [apply rs_throw|apply rs_own_int]. Qed.
Lemma rs_obj_type : forall s l o, sound s -> obj l s = Some o -> rs (obj_type o) s (fun _ => True).
Proof.
  intros. unfold obj_type. destruct (h_view o) as [t|] eqn:V; [|apply rs_ret; auto].
  eapply rs_bind; [apply rs_get_obj; eapply view_live; eauto|]. intros. apply rs_ret. auto.
Qed.
Lemma rs_obj_size : forall s o, rs (obj_size o) s (fun _ => True).
Proof.
  intros. unfold obj_size. destruct (h_view o) as [t|] eqn:V; [|apply rs_ret; auto].
  eapply rs_bind; [apply rs_stride|]. intros. eapply rs_bind; [apply rs_shape|]. intros.
  destruct (in_int _); [apply rs_ret; auto|apply rs_ub; discriminate].
Qed.
Lemma rs_elem_at : forall s l i, sound s -> live l s -> rs (elem_at l i) s (fun p => live (fst p) s).
Proof.
  intros. unfold elem_at. eapply rs_bind; [apply rs_get_obj; auto|]. intros o O. simpl in O.
  eapply rs_bind with (Q := fun p => live (fst p) s).
  - destruct (h_view o) as [t|] eqn:V.
    + eapply rs_bind; [apply rs_own_int|]. intros. apply rs_ret. simpl. eapply view_live; eauto.
    + apply rs_ret. auto.
  - intros [t j] T. destruct (Z.ltb j 0); [apply rs_ub; discriminate|apply rs_ret; auto].
Qed.
Lemma rs_read_elem : forall s l i, sound s -> live l s -> rs (read_elem l i) s (fun x => held x s).
Proof.
  intros s l i S L. unfold read_elem. eapply rs_bind; [apply rs_elem_at; auto|]. intros [t j] T. simpl in T.
  eapply rs_bind; [apply rs_get_obj; auto|]. intros o O. simpl in O.
  destruct (nth_error (h_cells o) j) as [[k x]|] eqn:N; [|apply rs_ub; discriminate].
  assert (H : held x s) by (eapply S; eauto; eapply in_contents_snd; eauto).
  destruct x; try (apply rs_ub; discriminate); destruct (varlike (h_ty o)); try apply rs_stuck; apply rs_ret; auto.
Qed.
(** What [eff] gives: the var itself or the content of its cell. *)
Definition eff_spec (v : mvar) (s : state) (x : mvar) : Prop :=
  match v with
  | MRef l i => exists o, obj l s = Some o /\
      if plain_vars o
      then exists k, nth_error (h_cells o) i = Some (k, x) /\ (forall l' i', x <> MRef l' i')
      else x = v
  | _ => x = v
  end.
Lemma rs_eff : forall s v, sound s -> held v s -> rs (eff v) s (fun x => eff_spec v s x /\ held x s).
Proof.
  intros s v S H. unfold eff. destruct v as [|x|l|l i| |]; try (apply rs_ret; split; [reflexivity|auto]; fail).
  eapply rs_bind; [apply rs_get_obj; apply H; reflexivity|]. intros o O. simpl in O.
  destruct (plain_vars o) eqn:P.
  - destruct (nth_error (h_cells o) i) as [[k x]|] eqn:N; [|apply rs_ub; discriminate].
    assert (Hx : held x s) by (eapply S; eauto; eapply in_contents_snd; eauto).
    assert (forall l' i', x <> MRef l' i' -> eff_spec (MRef l i) s x -> rs (ret x) s (fun x0 => eff_spec (MRef l i) s x0 /\ held x0 s))
      by (intros; apply rs_ret; auto).
    destruct x; try apply rs_stuck;
      (apply rs_ret; split; auto; exists o; split; auto; rewrite P; exists k; split; auto; intros; discriminate).
  - apply rs_ret. split; auto. exists o. split; auto. rewrite P. reflexivity.
Qed.
Lemma eff_nonref : forall v s, (forall l i, v <> MRef l i) -> eff v s = ROk v s.
Proof. intros. destruct v; try reflexivity. exfalso. eapply H; eauto. Qed.

Definition eff_of (this : lval) (s : state) (x : mvar) : Prop :=
  exists v, getv this s = Some v /\ eff_spec v s x.
Lemma rs_get_eff : forall s this, sound s -> okU this s ->
  rs (let! v := get this in eff v) s (fun x => eff_of this s x /\ held x s).
Proof.
  intros s this S K. eapply rs_bind; [apply rs_get; auto|]. intros v V. cbv beta in V.
  eapply rs_weaken; [apply rs_eff; auto; eapply getv_held; eauto|].
  intros x [E H]. split; auto. exists v. auto.
Qed.
Lemma rs_assoc : forall A B C (m : M A) (f : A -> M B) (g : B -> M C) s Q,
  rs (let! y := (let! x := m in f x) in g y) s Q -> rs (let! x := m in let! y := f x in g y) s Q.
Proof. intros. unfold rs, bind in *. destruct (m s); auto. Qed.

Lemma rs_defined : forall s this, sound s -> okU this s ->
  rs (defined this) s (fun b => exists x, eff_of this s x /\ b = negb (is_nil x)).
Proof.
  intros. unfold defined. apply rs_assoc. eapply rs_bind; [apply rs_get_eff; auto|].
  intros x [E H1]. apply rs_ret. eauto.
Qed.
Lemma rs_type_of : forall s this, sound s -> okU this s -> rs (type_of this) s (fun _ => True).
Proof.
  intros. unfold type_of. apply rs_assoc. eapply rs_bind; [apply rs_get_eff; auto|].
  intros x [E H1]. destruct x; try (apply rs_ret; exact I); try (apply rs_ub; discriminate).
  eapply rs_bind; [apply rs_get_obj; apply H1; reflexivity|]. intros o O. cbv beta in O.
  eapply rs_bind; [eapply rs_obj_type; eauto|]. intros. apply rs_ret. auto.
Qed.
Lemma rs_atype_of : forall s this, sound s -> okU this s -> rs (atype_of this) s (fun _ => True).
Proof.
  intros. unfold atype_of. apply rs_assoc. eapply rs_bind; [apply rs_get_eff; auto|].
  intros x [E H1]. destruct x; try (apply rs_ret; exact I); try (apply rs_ub; discriminate); try apply rs_throw.
  - eapply rs_bind; [apply rs_get_obj; apply H1; reflexivity|]. intros o O. cbv beta in O.
    eapply rs_bind; [eapply rs_obj_type; eauto|]. intros. apply rs_ret. auto.
  - eapply rs_bind; [apply rs_get_obj; apply H1; reflexivity|]. intros o O. cbv beta in O.
    eapply rs_bind; [eapply rs_obj_type; eauto|]. intros. apply rs_ret. auto.
Qed.
Lemma rs_size_of : forall s this, sound s -> okU this s -> rs (size_of this) s (fun _ => True).
Proof.
  intros. unfold size_of. apply rs_assoc. eapply rs_bind; [apply rs_get_eff; auto|].
  intros x [E H1]. destruct x; try (apply rs_ret; exact I).
  eapply rs_bind; [apply rs_get_obj; apply H1; reflexivity|]. intros o O. apply rs_obj_size.
Qed.
Lemma rs_heap_of : forall s this, sound s -> okU this s ->
  rs (heap_of this) s (fun h => exists x, eff_of this s x /\ held x s /\
     h = match x with MPtr l => Some l | _ => None end).
Proof.
  intros. unfold heap_of. apply rs_assoc. eapply rs_bind; [apply rs_get_eff; auto|].
  intros x [E H1]. destruct x; apply rs_ret; eauto.
Qed.
Lemma rs_is_array_of : forall s this c, sound s -> okU this s ->
  rs (is_array_of this c) s (fun b => b = true -> exists l, eff_of this s (MPtr l) /\ live l s).
Proof.
  intros. unfold is_array_of. eapply rs_bind; [apply rs_heap_of; auto|].
  intros h (x & E & Hx & ->).
  destruct x; try (apply rs_ret; intros; discriminate).
  eapply rs_bind; [apply rs_atype_of; auto|]. intros. apply rs_ret. intros _. exists l. split; [auto|].
  apply Hx. reflexivity.
Qed.
Lemma rs_mapM : forall A B (f : A -> M B) s l (Q : B -> Prop), (forall a, In a l -> rs (f a) s Q) ->
  rs (mapM f l) s (fun _ => True).
Proof.
  induction l; simpl; intros; [apply rs_ret; auto|].
  eapply rs_bind; [apply H; auto|]. intros.
  eapply rs_bind; [eapply IHl; eauto|]. intros. apply rs_ret. auto.
Qed.
Lemma firstn_in : forall A n (l : list A) x, In x (firstn n l) -> In x l.
Proof. induction n; destruct l; simpl; intros; auto; try contradiction. destruct H; auto. Qed.
Lemma rs_read_val : forall f s v, sound s -> held v s -> rs (read_val f v) s (fun _ => True).
Proof.
  induction f; intros s v S H; simpl; [apply rs_stuck|].
  eapply rs_bind; [apply rs_eff; auto|]. intros x [E Hx].
  destruct x; try (apply rs_ret; exact I); try (apply rs_ub; discriminate); try apply rs_stuck.
  - eapply rs_bind; [apply rs_get_obj; apply Hx; reflexivity|]. intros o O. simpl in O.
    assert (Hc : forall c, In c (firstn (h_size o) (h_cells o)) -> held (fst c) s /\ held (snd c) s).
    { intros c Hc. apply firstn_in in Hc. destruct S as (_ & _ & S).
      split; eapply S; eauto; unfold contents; apply in_or_app; left; apply in_flat_map; exists c; simpl; auto. }
    destruct (h_view o); [apply rs_stuck|].
    destruct (h_ty o).
    + eapply rs_bind. { eapply rs_mapM with (Q := fun _ => True). intros. apply IHf; auto. apply Hc; auto. }
      intros. apply rs_ret. auto.
    + eapply rs_bind. { eapply rs_mapM with (Q := fun _ => True). intros.
        eapply rs_bind; [apply IHf; auto; apply Hc; auto|]. intros.
        eapply rs_bind; [apply IHf; auto; apply Hc; auto|]. intros. apply rs_ret. auto. }
      intros. apply rs_ret. auto.
  - eapply rs_bind; [apply rs_read_elem; auto; apply Hx; reflexivity|]. intros x _.
    destruct x; try apply rs_stuck. apply rs_ret. auto.
Qed.
Lemma rs_value : forall s v, sound s -> held v s -> rs (value v) s (fun _ => True).
Proof. intros. unfold value. apply (rs_read_val _ s v); auto. Qed.
End Tolerant.
