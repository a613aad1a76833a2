(** Properties of views in memory: C135. *)
From Coq Require Import ZArith Bool List String Lia.
From Verif Require Import Base StrModel ValModel NumModel MemModel MemProof MemFun MemEq MemTriple MemDeref MemArr MemElem MemOps MemArrays ArrSpec ArrFacts MemViewSpec.
Import ListNotations.
Local Open Scope list_scope.
Local Open Scope mem_scope.
Local Notation length := List.length.

(** * Shapes *)
Lemma described_shape : forall sh d z, nth_error sh d = Some z -> nth_error (described sh) (2 * d) = Some z.
Proof.
  induction sh; intros [|d] z H; simpl in *; try discriminate; auto. replace (d + S (d + 0)) with (S (2 * d)) by lia. apply IHsh. auto.
Qed.
Lemma view_dim : forall o t n, h_view o = Some t -> h_size o = S (2 * n) -> odim o = n.
Proof. intros o t n V S. unfold odim. rewrite V, S. simpl. rewrite Nat.sub_0_r. replace (n + (n + 0)) with (2 * n) by lia. apply Nat.div2_double. Qed.
Definition desc_of (o : hobj) (off : nat) (sh : list Z) : Prop :=
  forall i z, nth_error (Z.of_nat off :: described sh) i = Some z -> exists c, nth_error (h_cells o) i = Some (c, MNum (VInt z)).
Lemma own_desc : forall o off sh i z s, desc_of o off sh -> nth_error (Z.of_nat off :: described sh) i = Some z -> own_int o i s = ROk z s.
Proof. intros o off sh i z s D N. destruct (D i z N) as [c C]. unfold own_int. rewrite C. reflexivity. Qed.
Lemma shape_desc : forall o off sh d z s, desc_of o off sh -> h_size o = S (2 * length sh) -> nth_error sh d = Some z -> shape_i o d s = ROk z s.
Proof.
  intros o off sh d z s D S N. unfold shape_i. assert (L : d < length sh) by (apply nth_error_Some; congruence).
  destruct (Nat.leb_spec (h_size o) (2 * d + 1)); [lia|]. eapply own_desc; eauto. replace (2 * d + 1) with (Datatypes.S (2 * d)) by lia. simpl nth_error at 1. apply described_shape; auto.
Qed.
Lemma view_size : forall o t off sh s, h_view o = Some t -> desc_of o off sh -> h_size o = S (2 * length sh) -> sh <> [] -> in_int (elements sh) = true ->
  obj_size o s = ROk (elements sh) s.
Proof.
  intros o t off sh s V D S N B. destruct sh as [|d sh]; [congruence|]. unfold obj_size. rewrite V. unfold bind at 1, stride_i. rewrite S.
  destruct (Nat.leb_spec (Datatypes.S (2 * length (d :: sh))) (2 * 0 + 2)); [simpl in *; lia|]. rewrite (own_desc _ _ _ _ (elements sh) s D) by reflexivity.
  unfold bind. rewrite (shape_desc _ _ _ 0 d s D S eq_refl). simpl in B. rewrite Z.mul_comm, B. reflexivity.
Qed.
Lemma same_shape_desc : forall o o' t' off off' sh s, desc_of o off sh -> h_size o = S (2 * length sh) -> desc_of o' off' sh -> h_size o' = S (2 * length sh) -> h_view o' = Some t' ->
  forall n d, n + d = length sh -> same_shape o o' n d s = ROk true s.
Proof.
  intros o o' t' off off' sh s D S D' S' V. induction n; intros d E; [reflexivity|]. cbn [same_shape].
  destruct (nth_error sh d) as [z|] eqn:N; [|apply nth_error_None in N; lia].
  unfold bind at 1. rewrite (shape_desc _ _ _ _ _ _ D S N). rewrite V. unfold bind. rewrite (shape_desc _ _ _ _ _ _ D' S' N). rewrite Z.eqb_refl. apply IHn. lia.
Qed.

(** * What [shaped] gives *)
Definition has_shape (s : state) (l t off : nat) (sh : list Z) (o : hobj) : Prop :=
  nth_error (mem s) l = Some (Some o) /\ sh <> [] /\ odim o = length sh /\
  (forall s1, obj_size o s1 = ROk (elements sh) s1) /\
  (forall s1, mem s1 = mem s -> obj_type o s1 = match nth_error (mem s) t with Some (Some ot) => ROk (h_ty ot) s1 | _ => RUB UseAfterFree end) /\
  match h_view o with
  | Some u => u = t /\ h_size o = S (2 * length sh) /\ desc_of o off sh
  | None => l = t /\ off = 0 /\ length sh = 1
  end.
Lemma shaped_has : forall s l t off sh, shaped s l t off sh -> in_int (elements sh) = true -> exists o, has_shape s l t off sh o.
Proof.
  intros s l t off sh [[N (o & O & V & S & D)]|(-> & -> & o & O & V & ->)] B; exists o; unfold has_shape; (split; [exact O|]).
  - split; [exact N|]. split; [eapply view_dim; eauto|]. split; [intros; eapply view_size; eauto|]. rewrite V. split; [|split; [reflexivity|split; assumption]].
    intros s1 M. unfold obj_type, bind, get_obj. rewrite V, M. destruct (nth_error (mem s) t) as [[ot|]|]; reflexivity.
  - split; [discriminate|]. split; [unfold odim; rewrite V; reflexivity|]. split; [intros; unfold obj_size; rewrite V; simpl; rewrite Z.mul_1_r; reflexivity|]. rewrite V.
    split; [|split; [reflexivity|split; reflexivity]]. intros s1 M. unfold obj_type. rewrite V, O. reflexivity.
Qed.
Lemma shaped_copyable : forall s l l' t t' off off' sh o o' ot ot', has_shape s l t off sh o -> has_shape s l' t' off' sh o' -> h_view o = Some t ->
  nth_error (mem s) t = Some (Some ot) -> nth_error (mem s) t' = Some (Some ot') -> h_ty ot = h_ty ot' ->
  forall s1, mem s1 = mem s -> copyable l (Some l') s1 = ROk true s1.
Proof.
  intros s l l' t t' off off' sh o o' ot ot' (O & N & Di & Si & Ty & H) (O' & _ & Di' & Si' & Ty' & H') V Ot Ot' E s1 M.
  unfold copyable. unfold bind at 1, get_obj at 1. rewrite M, O, V. unfold bind at 1, get_obj at 1. rewrite M, O'.
  unfold bind at 1. rewrite (Ty s1 M), Ot. unfold bind at 1. rewrite (Ty' s1 M), Ot', E, Z.eqb_refl. rewrite Di, Di', Nat.eqb_refl. change (negb true) with false. cbv iota.
  destruct (Nat.eqb_spec (length sh) 1); cbv iota.
  - rewrite (bind_ok _ _ _ _ _ _ _ (Si s1)), (bind_ok _ _ _ _ _ _ _ (Si' s1)), Z.eqb_refl. reflexivity.
  - rewrite V in H. destruct H as (_ & S & D). destruct (h_view o') as [u|] eqn:V'; [|destruct H' as (_ & _ & X); congruence]. destruct H' as (_ & S' & D').
    eapply (same_shape_desc o o' u off off' sh); eauto.
Qed.
Lemma elem_shape : forall s l t off sh o, has_shape s l t off sh o -> forall i s1, nth_error (mem s1) l = Some (Some o) -> elem_at l (Z.of_nat i) s1 = ROk (t, off + i) s1.
Proof.
  intros s l t off sh o (O & N & _ & _ & _ & H) i s1 M. unfold elem_at, bind, get_obj. rewrite M. destruct (h_view o) as [u|].
  - destruct H as (-> & S & D). rewrite (own_desc _ _ _ 0 (Z.of_nat off) s1 D eq_refl). simpl. destruct (Z.ltb_spec (Z.of_nat i + Z.of_nat off) 0); [lia|].
    unfold ret. f_equal. f_equal. lia.
  - destruct H as (-> & -> & _). simpl. destruct (Z.ltb_spec (Z.of_nat i) 0); [lia|]. unfold ret. rewrite Nat2Z.id. reflexivity.
Qed.

(** * Copying, as a loop over lists *)
Fixpoint fwd (same : bool) (cs cs' : list mvar) (off off' i n : nat) : list mvar :=
  match n with
  | O => cs
  | S n => fwd same (set_nth cs (off + i) (nth (off' + i) (if same then cs else cs') MJunk)) cs' off off' (S i) n
  end.
Lemma fwd_src : forall n cs a b off off' i, fwd true cs a off off' i n = fwd true cs b off off' i n.
Proof. induction n; intros; simpl; auto. Qed.
Lemma fwd_length : forall same n cs cs' off off' i, length (fwd same cs cs' off off' i n) = length cs.
Proof. induction n; intros; simpl; auto. rewrite IHn. apply sn_length. Qed.
Lemma sn_nth_error : forall A (l : list A) i x k, i < length l -> nth_error (set_nth l i x) k = if Nat.eqb k i then Some x else nth_error l k.
Proof. intros A l i x k L. destruct (Nat.eqb_spec k i); [subst; apply sn_same; auto|apply sn_other; auto]. Qed.
Definition inside (off n k : nat) : bool := Nat.leb off k && Nat.ltb k (off + n).
Lemma nth_some : forall A (l : list A) k d, k < length l -> nth_error l k = Some (nth k l d).
Proof. induction l; intros [|k] d H; simpl in *; try lia; auto. apply IHl. lia. Qed.
Lemma fwd_apart : forall n cs cs' off off' i k, off + i + n <= length cs -> off' + i + n <= length cs' ->
  nth_error (fwd false cs cs' off off' i n) k = if inside (off + i) n k then nth_error cs' (off' + (k - off)) else nth_error cs k.
Proof.
  induction n; intros cs cs' off off' i k B B'; simpl.
  - unfold inside. destruct (Nat.leb_spec (off + i) k); simpl; auto. destruct (Nat.ltb_spec k (off + i + 0)); auto. lia.
  - rewrite IHn by (rewrite ?sn_length; lia). rewrite sn_nth_error by lia. unfold inside.
    destruct (Nat.leb_spec (off + S i) k), (Nat.ltb_spec k (off + S i + n)), (Nat.leb_spec (off + i) k), (Nat.ltb_spec k (off + i + S n)), (Nat.eqb_spec k (off + i)); simpl; auto; try lia.
    subst k. replace (off' + (off + i - off)) with (off' + i) by lia. symmetry. apply nth_some. lia.
Qed.
Lemma fwd_down : forall n cs cs' off off' i k, off <= off' -> off' + i + n <= length cs ->
  nth_error (fwd true cs cs' off off' i n) k = if inside (off + i) n k then nth_error cs (off' + (k - off)) else nth_error cs k.
Proof.
  induction n; intros cs cs' off off' i k D B; simpl.
  - unfold inside. destruct (Nat.leb_spec (off + i) k); simpl; auto. destruct (Nat.ltb_spec k (off + i + 0)); auto. lia.
  - rewrite IHn by (rewrite ?sn_length; lia). rewrite !sn_nth_error by lia. unfold inside.
    destruct (Nat.leb_spec (off + S i) k), (Nat.ltb_spec k (off + S i + n)), (Nat.leb_spec (off + i) k), (Nat.ltb_spec k (off + i + S n)), (Nat.eqb_spec k (off + i)), (Nat.eqb_spec (off' + (k - off)) (off + i)); simpl; auto; try lia.
    + subst k. replace (off' + (off + i - off)) with (off' + i) by lia. symmetry. apply nth_some. lia.
    + subst k. replace (off' + (off + i - off)) with (off' + i) by lia. symmetry. apply nth_some. lia.
Qed.
(** Copying to higher places of the same array repeats what is between the two starts. *)
Lemma fwd_up : forall d off' cs0, 0 < d -> forall n cs cs' i k, off' + d + i + n <= length cs -> length cs = length cs0 ->
  (forall k, nth_error cs k = if inside (off' + d) i k then nth_error cs0 (off' + Nat.modulo (k - (off' + d)) d) else nth_error cs0 k) ->
  nth_error (fwd true cs cs' (off' + d) off' i n) k = if inside (off' + d) (i + n) k then nth_error cs0 (off' + Nat.modulo (k - (off' + d)) d) else nth_error cs0 k.
Proof.
  intros d off' cs0 Hd. induction n; intros cs cs' i k B L H; simpl.
  - rewrite Nat.add_0_r. apply H.
  - replace (i + S n) with (S i + n) by lia. apply IHn; [rewrite sn_length; lia|rewrite sn_length; auto|]. intros j. rewrite sn_nth_error by lia.
    assert (R : Some (nth (off' + i) cs MJunk) = nth_error cs0 (off' + Nat.modulo i d)).
    { rewrite <- nth_some by lia. rewrite H. unfold inside. destruct (Nat.leb_spec (off' + d) (off' + i)); simpl.
      - destruct (Nat.ltb_spec (off' + i) (off' + d + i)); [|lia]. f_equal. f_equal. replace i with (off' + i - (off' + d) + 1 * d) at 2 by lia. symmetry. apply Nat.mod_add. lia.
      - f_equal. rewrite Nat.mod_small by lia. reflexivity. }
    destruct (Nat.eqb_spec j (off' + d + i)).
    + subst j. rewrite R. unfold inside. destruct (Nat.leb_spec (off' + d) (off' + d + i)), (Nat.ltb_spec (off' + d + i) (off' + d + S i)); simpl; try lia.
      replace (off' + d + i - (off' + d)) with i by lia. reflexivity.
    + rewrite H. unfold inside. destruct (Nat.leb_spec (off' + d) j), (Nat.ltb_spec j (off' + d + i)), (Nat.ltb_spec j (off' + d + S i)); simpl; auto; lia.
Qed.

(** * Copying, in memory *)
Definition element_of (s : state) (l t off : nat) : Prop :=
  exists o, nth_error (mem s) l = Some (Some o) /\
  match h_view o with
  | Some u => u = t /\ exists c, nth_error (h_cells o) 0 = Some (c, MNum (VInt (Z.of_nat off)))
  | None => l = t /\ off = 0
  end.
Lemma element_at : forall s l t off i, element_of s l t off -> elem_at l (Z.of_nat i) s = ROk (t, off + i) s.
Proof.
  intros s l t off i (o & O & H). unfold elem_at, bind, get_obj. rewrite O. destruct (h_view o) as [u|].
  - destruct H as (-> & c & C). unfold own_int. rewrite C. simpl. destruct (Z.ltb_spec (Z.of_nat i + Z.of_nat off) 0); [lia|].
    unfold ret. f_equal. f_equal. lia.
  - destruct H as (-> & ->). simpl. destruct (Z.ltb_spec (Z.of_nat i) 0); [lia|]. unfold ret. rewrite Nat2Z.id. reflexivity.
Qed.
Definition with_obj (t : nat) (o : hobj) (s : state) : state := {| mem := set_nth (mem s) t (Some o); rc := rc s; stk := stk s |}.
Lemma element_with : forall s l t off u ou ou', element_of s l t off -> nth_error (mem s) u = Some (Some ou) -> h_view ou = None -> h_view ou' = None ->
  element_of (with_obj u ou' s) l t off.
Proof.
  intros s l t off u ou ou' (o & O & H) U V V'. unfold element_of, with_obj. simpl. destruct (Nat.eq_dec u l).
  - subst. rewrite sn_same by (apply nth_error_Some; congruence). exists ou'. split; auto. assert (o = ou) by congruence. subst. rewrite V in H. rewrite V'. auto.
  - rewrite sn_other by auto. eauto.
Qed.
Lemma sn_id : forall A (l : list A) i x, nth_error l i = Some x -> set_nth l i x = l.
Proof. induction l; intros [|i] x H; simpl in *; try discriminate; [congruence|]. f_equal. auto. Qed.
Lemma with_obj_self : forall t o s, nth_error (mem s) t = Some (Some o) -> with_obj t o s = s.
Proof. intros t o [m r k]. unfold with_obj. simpl. intros H. rewrite sn_id by auto. reflexivity. Qed.
Lemma with_obj_twice : forall t a b s, with_obj t a (with_obj t b s) = with_obj t a s.
Proof. intros t a b [m r k]. unfold with_obj. simpl. rewrite sn_twice. reflexivity. Qed.
Definition alike (o o' : hobj) : Prop := h_ty o' = h_ty o /\ h_size o' = h_size o /\ h_gen o' = h_gen o /\ h_view o' = h_view o /\ map fst (h_cells o') = map fst (h_cells o).
Lemma map_sn : forall A B (f : A -> B) l i x, map f (set_nth l i x) = set_nth (map f l) i (f x).
Proof. induction l; intros [|i] x; simpl; auto. f_equal. auto. Qed.
Lemma copy_elems_runs : forall l l' t t' off off' n i s ot ot', element_of s l t off -> element_of s l' t' off' ->
  nth_error (mem s) t = Some (Some ot) -> h_view ot = None -> varlike (h_ty ot) = false ->
  nth_error (mem s) t' = Some (Some ot') -> h_view ot' = None -> varlike (h_ty ot') = false ->
  off + i + n <= length (h_cells ot) ->
  (forall k, i <= k < i + n -> exists c v, nth_error (h_cells ot') (off' + k) = Some (c, MNum v)) ->
  exists o2, copy_elems l l' n (Z.of_nat i) s = ROk tt (with_obj t o2 s) /\ alike ot o2 /\
    map snd (h_cells o2) = fwd (Nat.eqb t t') (map snd (h_cells ot)) (map snd (h_cells ot')) off off' i n.
Proof.
  intros l l' t t' off off'. induction n; intros i s ot ot' El El' O V D O' V' D' B Num.
  - exists ot. simpl. rewrite with_obj_self by auto. split; [reflexivity|]. split; [repeat split|reflexivity].
  - cbn [copy_elems]. destruct (Num i) as (c' & v & C'); [lia|].
    assert (Rd : read_elem l' (Z.of_nat i) s = ROk (MNum v) s).
    { unfold read_elem. rewrite (bind_ok _ _ _ _ _ _ _ (element_at _ _ _ _ i El')). unfold bind, get_obj. rewrite O', C', D'. reflexivity. }
    rewrite (bind_ok _ _ _ _ _ _ _ Rd).
    destruct (nth_error (h_cells ot) (off + i)) as [[c x]|] eqn:C; [|apply nth_error_None in C; lia].
    set (o1 := set_cells ot (set_nth (h_cells ot) (off + i) (c, MNum v))).
    assert (Wr : write_elem l (Z.of_nat i) v s = ROk tt (with_obj t o1 s)).
    { unfold write_elem. rewrite (bind_ok _ _ _ _ _ _ _ (element_at _ _ _ _ i El)). unfold bind, get_obj. rewrite O, C, D. reflexivity. }
    rewrite (bind_ok _ _ _ _ _ _ _ Wr).
    assert (Lt : t < length (mem s)) by (apply nth_error_Some; congruence).
    assert (Al : alike ot o1).
    { unfold alike, o1. simpl. repeat split. rewrite map_sn. simpl. apply sn_id. rewrite nth_error_map, C. reflexivity. }
    set (o1' := if Nat.eqb t t' then o1 else ot').
    assert (O1 : nth_error (mem (with_obj t o1 s)) t = Some (Some o1)) by (simpl; apply sn_same; auto).
    assert (O1' : nth_error (mem (with_obj t o1 s)) t' = Some (Some o1')).
    { unfold o1'. destruct (Nat.eqb_spec t t'); [subst; auto|]. simpl. rewrite sn_other by auto. auto. }
    replace (Z.of_nat i + 1)%Z with (Z.of_nat (S i)) by lia.
    destruct (IHn (S i) (with_obj t o1 s) o1 o1') as (o2 & E2 & A2 & F2); auto.
    + eapply element_with; eauto.
    + eapply element_with; eauto.
    + unfold o1'. destruct (Nat.eqb t t'); auto.
    + unfold o1'. destruct (Nat.eqb t t'); auto.
    + unfold o1. simpl. rewrite sn_length. lia.
    + intros k Hk. destruct (Num k) as (ck & vk & Ck); [lia|]. unfold o1'. destruct (Nat.eqb_spec t t'); [|eauto]. subst t'. assert (ot' = ot) by congruence. subst ot'.
      unfold o1. simpl. rewrite sn_nth_error by (apply nth_error_Some; congruence). destruct (Nat.eqb (off' + k) (off + i)); eauto.
    + exists o2. rewrite E2, with_obj_twice. split; [reflexivity|]. split; [unfold alike in *; intuition congruence|]. rewrite F2. cbn [fwd].
      assert (Sn : map snd (h_cells o1) = set_nth (map snd (h_cells ot)) (off + i) (nth (off' + i) (if Nat.eqb t t' then map snd (h_cells ot) else map snd (h_cells ot')) MJunk)).
      { unfold o1. simpl. rewrite map_sn. simpl. f_equal. symmetry. apply nth_error_nth. destruct (Nat.eqb_spec t t'); [subst t'; assert (ot' = ot) by congruence; subst ot'|]; rewrite nth_error_map, C'; reflexivity. }
      rewrite Sn. unfold o1'. destruct (Nat.eqb_spec t t'); auto. subst t'. assert (ot' = ot) by congruence. subst ot'.
      apply fwd_src.
Qed.

(** * The statement *)
Lemma has_element : forall s l t off sh o, has_shape s l t off sh o -> element_of s l t off.
Proof.
  intros s l t off sh o (O & N & _ & _ & _ & H). exists o. split; [exact O|]. destruct (h_view o).
  - destruct H as (-> & _ & D). split; auto.
  - tauto.
Qed.
Lemma element_mem : forall s s1 l t off, mem s1 = mem s -> element_of s l t off -> element_of s1 l t off.
Proof. unfold element_of. intros s s1 l t off ->. auto. Qed.
Definition params (l' : nat) (s : state) : state := push_s (MPtr l') (bump (MPtr l') s).
Lemma params_mem : forall l' s, mem (params l' s) = mem s. Proof. intros. reflexivity. Qed.
Lemma params_with : forall l' t o s, with_obj t o (params l' s) = params l' (with_obj t o s). Proof. reflexivity. Qed.
Lemma assign_to_view : forall s j k l l' t t' off off' sh o o' ot ot', sound s -> variable s j (MPtr l) -> variable s k (MPtr l') ->
  has_shape s l t off sh o -> has_shape s l' t' off' sh o' -> h_view o = Some t ->
  nth_error (mem s) t = Some (Some ot) -> nth_error (mem s) t' = Some (Some ot') -> h_ty ot = h_ty ot' ->
  assign (LS j) (LS (length (stk s))) (params l' s) = set_view l l' (LS (length (stk s))) (params l' s).
Proof.
  intros s j k l l' t t' off off' sh o o' ot ot' Sd Vj Vk H H' V O O' E. unfold variable in *. set (p := LS (length (stk s))).
  assert (Gj : get (LS j) (params l' s) = ROk (MPtr l) (params l' s)).
  { apply get_eq. unfold params. simpl. rewrite nth_error_app1; [exact Vj|]. apply nth_error_Some. congruence. }
  assert (Gp : get p (params l' s) = ROk (MPtr l') (params l' s)).
  { apply get_eq. unfold params, p. simpl. rewrite nth_error_app2, Nat.sub_diag by lia. reflexivity. }
  assert (Hp : heap_of p (params l' s) = ROk (Some l') (params l' s)) by (unfold heap_of; rewrite (bind_ok _ _ _ _ _ _ _ Gp); reflexivity).
  unfold assign. rewrite (bind_ok _ _ _ _ _ _ _ Gj). unfold assign_plain. rewrite (bind_ok _ _ _ _ _ _ _ Gj).
  assert (C : (let! h := heap_of p in copyable l h) (params l' s) = ROk true (params l' s)).
  { rewrite (bind_ok _ _ _ _ _ _ _ Hp). eapply (shaped_copyable s l l' t t' off off' sh o o' ot ot'); eauto. }
  rewrite (bind_ok _ _ _ _ _ _ _ C). rewrite (bind_ok _ _ _ _ _ _ _ Hp). reflexivity.
Qed.
Lemma exec_to_view : forall s j k l l' f, sound s -> variable s j (MPtr l) -> variable s k (MPtr l') ->
  assign (LS j) (LS (length (stk s))) (params l' s) = f (params l' s) ->
  exec (SAssign (EVar j) (EVar k)) s = match scoped (MPtr l') (fun _ => f) (bump (MPtr l') s) with ROk _ s' => leave (length (stk s)) s' | RThrow m s' => (leave (length (stk s)) ;; throw m) s' | RUB u => RUB u | RStuck => RStuck end.
Proof.
  intros s j k l l' f Sd Vj Vk A. change (exec (SAssign (EVar j) (EVar k)) s) with (finish (length (stk s)) (body (length (stk s)) (SAssign (EVar j) (EVar k))) s). unfold finish.
  change (body (length (stk s)) (SAssign (EVar j) (EVar k))) with (let! p := eval (length (stk s)) (EVar k) in let! v := eval (length (stk s)) (EVar j) in with_copy p (assign v)).
  rewrite (bind_ok _ _ _ _ _ _ _ (eval_var s k _ _ Vk eq_refl s)). rewrite (bind_ok _ _ _ _ _ _ _ (eval_var s j _ _ Vj eq_refl s)). unfold with_copy.
  rewrite (bind_ok _ _ _ _ _ _ _ (copy_of_eq (LS k) s (MPtr l') Sd Vk)). unfold scoped. rewrite bump_stk. fold (push_s (MPtr l') (bump (MPtr l') s)). fold (params l' s).
  replace {| mem := mem (bump (MPtr l') s); rc := rc (bump (MPtr l') s); stk := stk s ++ [MPtr l'] |} with (params l' s) by (unfold params, push_s; rewrite bump_stk; reflexivity).
  rewrite A. reflexivity.
Qed.
Lemma leave_none : forall s, leave (length (stk s)) s = ROk tt s.
Proof. intros [m r k]. unfold leave. simpl. rewrite skipn_all, firstn_all. reflexivity. Qed.
Lemma exec_view_ok : forall s j k l l' f s2, sound s -> variable s j (MPtr l) -> variable s k (MPtr l') ->
  assign (LS j) (LS (length (stk s))) (params l' s) = f (params l' s) -> f (params l' s) = ROk tt (params l' s2) -> cnt_ok s2 -> live l' s2 -> stk s2 = stk s ->
  exec (SAssign (EVar j) (EVar k)) s = ROk tt s2.
Proof.
  intros s j k l l' f s2 Sd Vj Vk A F Cn Li St. rewrite (exec_to_view _ _ _ _ _ f Sd Vj Vk A).
  rewrite (scoped_ok _ (MPtr l') (fun _ => f) (bump (MPtr l') s) tt (MPtr l') (bump (MPtr l') s2) s2); [rewrite <- St; apply leave_none|exact F|rewrite !bump_stk; congruence|].
  apply release_bump; auto. intros q Q. inversion Q. subst. auto.
Qed.
Lemma exec_view_throw : forall s j k l l' f m, sound s -> variable s j (MPtr l) -> variable s k (MPtr l') ->
  assign (LS j) (LS (length (stk s))) (params l' s) = f (params l' s) -> f (params l' s) = RThrow m (params l' s) -> cnt_ok s -> live l' s ->
  exec (SAssign (EVar j) (EVar k)) s = RThrow m s.
Proof.
  intros s j k l l' f m Sd Vj Vk A F Cn Li. rewrite (exec_to_view _ _ _ _ _ f Sd Vj Vk A).
  rewrite (scoped_throw _ (MPtr l') (fun _ => f) (bump (MPtr l') s) m (MPtr l') (bump (MPtr l') s) s); [unfold bind; rewrite leave_none; reflexivity|exact F|reflexivity|].
  apply release_bump; auto. intros q Q. inversion Q. subst. auto.
Qed.
(** What [set_view] does when shapes match and there is more than one element. *)
Lemma set_view_step : forall s l l' p t t' off off' sh o o' ot ot' ty, has_shape s l t off sh o -> has_shape s l' t' off' sh o' ->
  nth_error (mem s) t = Some (Some ot) -> nth_error (mem s) t' = Some (Some ot') -> h_ty ot = HE ty -> h_ty ot' = HE ty -> (length sh <> 1 \/ elements sh <> 1%Z) ->
  forall s1, mem s1 = mem s -> set_view l l' p s1 = (if Z.eqb (elements sh) 0 then RUB DivByZero else
    match ty with TFloat | TDouble => copy_elems l l' (Z.to_nat (elements sh)) 0 s1 | _ => RThrow "Set::vector: Unknown type" s1 end).
Proof.
  intros s l l' p t t' off off' sh o o' ot ot' ty (O & N & Di & Si & Ty & H) (O' & _ & Di' & Si' & Ty' & H') Ot Ot' T T' More s1 M.
  assert (Go : get_obj l s1 = ROk o s1) by (unfold get_obj; rewrite M, O; reflexivity).
  assert (Go' : get_obj l' s1 = ROk o' s1) by (unfold get_obj; rewrite M, O'; reflexivity).
  pose proof (Ty s1 M) as Ty1. rewrite Ot, T in Ty1. pose proof (Ty' s1 M) as Ty1'. rewrite Ot', T' in Ty1'.
  unfold set_view. rewrite (bind_ok _ _ _ _ _ _ _ Go), (bind_ok _ _ _ _ _ _ _ Go'), (bind_ok _ _ _ _ _ _ _ Ty1).
  assert (One : (if Nat.eqb (odim o') 1 then let! n' := obj_size o' in ret (n' =? 1)%Z else ret false) s1 = ROk false s1).
  { rewrite Di'. destruct (Nat.eqb_spec (length sh) 1); [|reflexivity]. rewrite (bind_ok _ _ _ _ _ _ _ (Si' s1)). unfold ret. f_equal. apply Z.eqb_neq. tauto. }
  rewrite (bind_ok _ _ _ _ _ _ _ One). rewrite (bind_ok _ _ _ _ _ _ _ Ty1'). rewrite Z.eqb_refl. change (negb true) with false. cbv iota.
  rewrite (bind_ok _ _ _ _ _ _ _ (Si s1)). destruct (Z.eqb (elements sh) 0); [reflexivity|].
  destruct ty; try reflexivity; rewrite (bind_ok _ _ _ _ _ _ _ (Si' s1)); reflexivity.
Qed.

(** * C135 *)
Lemma matching_gives : forall s j k t off t' off' sh ty cs cs', reachable s -> matching s j k t off t' off' sh ty cs cs' ->
  exists l l' o o' ot ot', sound s /\ cnt_ok s /\ live l' s /\ variable s j (MPtr l) /\ variable s k (MPtr l') /\
    has_shape s l t off sh o /\ has_shape s l' t' off' sh o' /\
    nth_error (mem s) t = Some (Some ot) /\ h_view ot = None /\ h_ty ot = HE ty /\ map snd (h_cells ot) = cs /\
    nth_error (mem s) t' = Some (Some ot') /\ h_view ot' = None /\ h_ty ot' = HE ty /\ map snd (h_cells ot') = cs' /\
    assign (LS j) (LS (length (stk s))) (params l' s) = set_view l l' (LS (length (stk s))) (params l' s) /\
    set_view l l' (LS (length (stk s))) (params l' s) = (if Z.eqb (elements sh) 0 then RUB DivByZero else
    match ty with TFloat | TDouble => copy_elems l l' (Z.to_nat (elements sh)) 0 (params l' s) | _ => RThrow "Set::vector: Unknown type" (params l' s) end).
Proof.
  intros s j k t off t' off' sh ty cs cs' R (l & l' & Vj & Vk & Vw & Sh' & (ot & Ot & W & T & C) & (ot' & Ot' & W' & T' & C') & B & More).
  destruct (reachable_INV _ R) as [e I]. pose proof (INV_sound _ _ _ I) as Sd.
  destruct (shaped_has s l t off sh (or_introl Vw) B) as [o H]. destruct (shaped_has s l' t' off' sh Sh' B) as [o' H'].
  assert (V : h_view o = Some t). { destruct Vw as (_ & q & Q & V & _). destruct H as (O & _). congruence. }
  assert (Lv : held (MPtr l') s) by (apply (getv_held (LS k)); auto).
  exists l, l', o, o', ot, ot'. split; [exact Sd|]. split; [apply Sd|]. split; [apply Lv; reflexivity|]. split; [exact Vj|]. split; [exact Vk|]. split; [exact H|]. split; [exact H'|].
  split; [exact Ot|]. split; [exact W|]. split; [exact T|]. split; [exact C|]. split; [exact Ot'|]. split; [exact W'|]. split; [exact T'|]. split; [exact C'|]. split.
  - eapply assign_to_view; eauto. congruence.
  - eapply set_view_step; eauto.
Qed.
Lemma mods : forall A B (f : A -> B) l k, nth_error (map f l) k = option_map f (nth_error l k).
Proof. intros. apply nth_error_map. Qed.
Lemma copies : forall s j k t off t' off' sh ty cs cs', reachable s -> matching s j k t off t' off' sh ty cs cs' -> ty = TFloat \/ ty = TDouble ->
  forall n, 0 < n -> elements sh = Z.of_nat n -> off + n <= length cs -> (forall i, i < n -> exists v, nth_error cs' (off' + i) = Some (MNum v)) ->
  exists s', exec (SAssign (EVar j) (EVar k)) s = ROk tt s' /\ only_storage t s s' /\ storage s' t ty (fwd (Nat.eqb t t') cs cs' off off' 0 n).
Proof.
  intros s j k t off t' off' sh ty cs cs' R Ma Tf n Pn En Fit Num.
  destruct (matching_gives _ _ _ _ _ _ _ _ _ _ _ R Ma) as (l & l' & o & o' & ot & ot' & Sd & Cn & Li & Vj & Vk & H & H' & O & W & T & C & O' & W' & T' & C' & A & Sv).
  assert (D : varlike (HE ty) = false) by (destruct Tf; subst; reflexivity).
  rewrite En in Sv. destruct (Z.eqb_spec (Z.of_nat n) 0); [lia|]. rewrite Nat2Z.id in Sv.
  destruct (copy_elems_runs l l' t t' off off' n 0 (params l' s) ot ot') as (o2 & E2 & (A1 & A2 & A3 & A4 & A5) & F2); auto.
  - apply (element_mem s); auto. eapply has_element; eauto.
  - apply (element_mem s); auto. eapply has_element; eauto.
  - rewrite T. auto.
  - rewrite T'. auto.
  - rewrite <- (map_length snd), C. lia.
  - intros i Hi. destruct (Num i) as [v Hv]; [lia|]. rewrite <- C', mods in Hv. destruct (nth_error (h_cells ot') (off' + i)) as [[c x]|]; simpl in Hv; inversion Hv. subst. eauto.
  - assert (E : set_view l l' (LS (length (stk s))) (params l' s) = ROk tt (params l' (with_obj t o2 s))) by (rewrite Sv; destruct Tf; subst ty; exact E2).
    assert (Lt : t < length (mem s)) by (apply nth_error_Some; congruence).
    exists (with_obj t o2 s). split; [|split].
    + eapply exec_view_ok; eauto.
      * destruct Cn as [Cl Cp]. split; [simpl; rewrite sn_length; auto|]. intros q Q. assert (X : live q s).
        { destruct Q as [q0 Q]. unfold live. simpl in Q. destruct (Nat.eq_dec t q); [subst; eauto|rewrite sn_other in Q by auto; eauto]. }
        apply Cp in X. exact X.
      * unfold live in *. simpl. destruct (Nat.eq_dec t l'); [subst; rewrite sn_same by auto; eauto|rewrite sn_other by auto; auto].
    + unfold only_storage. simpl. split; [reflexivity|]. split; [reflexivity|]. split; [apply sn_length|]. split; [intros q Q; apply sn_other; auto|].
      intros q Q. exists o2. rewrite sn_same by auto. assert (q = ot) by congruence. subst. repeat split; auto.
    + exists o2. simpl. rewrite sn_same by auto. rewrite A4, A1, T, F2, C, C'. auto.
Qed.
(** Assigning to a view of float or double copies the elements of the array assigned, from
    another array or from further on in the same one, and changes nothing else. *)
Theorem C135_assign_to_view : forall s j k t off t' off' sh ty cs cs', reachable s -> matching s j k t off t' off' sh ty cs cs' -> ty = TFloat \/ ty = TDouble ->
  forall n, 0 < n -> elements sh = Z.of_nat n -> off + n <= length cs -> (forall i, i < n -> exists v, nth_error cs' (off' + i) = Some (MNum v)) ->
  t' <> t \/ off <= off' ->
  exists s' cs2, exec (SAssign (EVar j) (EVar k)) s = ROk tt s' /\ only_storage t s s' /\ storage s' t ty cs2 /\
    forall i, nth_error cs2 i = if Nat.leb off i && Nat.ltb i (off + n) then nth_error cs' (off' + (i - off)) else nth_error cs i.
Proof.
  intros s j k t off t' off' sh ty cs cs' R Ma Tf n Pn En Fit Num Ov.
  destruct (copies _ _ _ _ _ _ _ _ _ _ _ R Ma Tf n Pn En Fit Num) as (s' & E & Oy & St). exists s', (fwd (Nat.eqb t t') cs cs' off off' 0 n).
  split; [exact E|]. split; [exact Oy|]. split; [exact St|]. intros i.
  assert (L' : off' + n <= length cs'). { destruct (Num (n - 1)) as [v Hv]; [lia|]. assert (off' + (n - 1) < length cs') by (apply nth_error_Some; congruence). lia. }
  destruct (Nat.eqb_spec t t').
  - subst t'. destruct Ov as [|Ov]; [congruence|]. assert (cs' = cs). { destruct Ma as (l & l' & _ & _ & _ & _ & (a & A & _ & _ & <-) & (b & B & _ & _ & <-) & _). congruence. } subst cs'.
    rewrite fwd_down by lia. unfold inside. rewrite Nat.add_0_r. reflexivity.
  - rewrite fwd_apart by lia. unfold inside. rewrite Nat.add_0_r. reflexivity.
Qed.
(** From further back in the same array the elements between the two starts are repeated. *)
Theorem C135_overlap : forall s j k t off off' sh ty cs, reachable s -> matching s j k t off t off' sh ty cs cs -> ty = TFloat \/ ty = TDouble ->
  forall n, 0 < n -> elements sh = Z.of_nat n -> off + n <= length cs -> (forall i, i < n -> exists v, nth_error cs (off' + i) = Some (MNum v)) ->
  off' < off ->
  exists s' cs2, exec (SAssign (EVar j) (EVar k)) s = ROk tt s' /\ only_storage t s s' /\ storage s' t ty cs2 /\
    forall i, nth_error cs2 i = if Nat.leb off i && Nat.ltb i (off + n) then nth_error cs (off' + Nat.modulo (i - off) (off - off')) else nth_error cs i.
Proof.
  intros s j k t off off' sh ty cs R Ma Tf n Pn En Fit Num Ov.
  destruct (copies _ _ _ _ _ _ _ _ _ _ _ R Ma Tf n Pn En Fit Num) as (s' & E & Oy & St). rewrite Nat.eqb_refl in St. exists s', (fwd true cs cs off off' 0 n).
  split; [exact E|]. split; [exact Oy|]. split; [exact St|]. intros i.
  pose proof (fwd_up (off - off') off' cs ltac:(lia) n cs cs 0 i) as U. replace (off' + (off - off')) with off in U by lia.
  apply U; auto; [lia|]. intros q. unfold inside. destruct (Nat.leb_spec off q), (Nat.ltb_spec q (off + 0)); simpl; auto; lia.
Qed.
(** Other types of element throw and change nothing. *)
Theorem C135_other_types : forall s j k t off t' off' sh ty cs cs', reachable s -> matching s j k t off t' off' sh ty cs cs' -> ty <> TFloat -> ty <> TDouble ->
  elements sh <> 0%Z -> exec (SAssign (EVar j) (EVar k)) s = RThrow "Set::vector: Unknown type" s.
Proof.
  intros s j k t off t' off' sh ty cs cs' R Ma Nf Nd Ne.
  destruct (matching_gives _ _ _ _ _ _ _ _ _ _ _ R Ma) as (l & l' & o & o' & ot & ot' & Sd & Cn & Li & Vj & Vk & H & H' & O & W & T & C & O' & W' & T' & C' & A & Sv).
  apply Z.eqb_neq in Ne. rewrite Ne in Sv. eapply exec_view_throw; eauto. rewrite Sv. destruct ty; congruence.
Qed.
(** Two empty views of the same shape divide by zero. *)
Theorem C135_empty : forall s j k t off t' off' sh ty cs cs', reachable s -> matching s j k t off t' off' sh ty cs cs' ->
  elements sh = 0%Z -> exec (SAssign (EVar j) (EVar k)) s = RUB DivByZero.
Proof.
  intros s j k t off t' off' sh ty cs cs' R Ma Ze.
  destruct (matching_gives _ _ _ _ _ _ _ _ _ _ _ R Ma) as (l & l' & o & o' & ot & ot' & Sd & Cn & Li & Vj & Vk & H & H' & O & W & T & C & O' & W' & T' & C' & A & Sv).
  rewrite Ze in Sv. change (0 =? 0)%Z with true in Sv. cbv iota in Sv. rewrite (exec_to_view _ _ _ _ _ _ Sd Vj Vk A). unfold scoped.
  fold (push_s (MPtr l') (bump (MPtr l') s)). fold (params l' s). rewrite Sv. reflexivity.
Qed.

(** * Shapes that differ *)
Lemma same_shape_false : forall o o' t' off off' sh sh' s, desc_of o off sh -> h_size o = S (2 * length sh) -> desc_of o' off' sh' -> h_size o' = S (2 * length sh') -> h_view o' = Some t' -> length sh' = length sh ->
  forall n d, n + d = length sh -> skipn d sh' <> skipn d sh -> same_shape o o' n d s = ROk false s.
Proof.
  intros o o' t' off off' sh sh' s D S D' S' V L. induction n; intros d E Ne; cbn [same_shape].
  - exfalso. apply Ne. rewrite !skipn_all2 by lia. reflexivity.
  - destruct (nth_error sh d) as [z|] eqn:N; [|apply nth_error_None in N; lia]. destruct (nth_error sh' d) as [z'|] eqn:N'; [|apply nth_error_None in N'; lia].
    unfold bind at 1. rewrite (shape_desc _ _ _ _ _ _ D S N). rewrite V. unfold bind. rewrite (shape_desc _ _ _ _ _ _ D' S' N').
    destruct (Z.eqb_spec z z'); [|reflexivity]. subst. apply IHn; [lia|]. intros X. apply Ne. clear - N N' X. revert sh sh' N N' X. induction d; intros [|a l] [|a' l'] N N' X; simpl in *; try discriminate; try congruence.
    apply IHd; auto.
Qed.
Lemma hcode_inj : forall a b, hcode (HE a) = hcode (HE b) -> a = b.
Proof. destruct a, b; simpl; intros; auto; discriminate. Qed.
Lemma differing_copyable : forall s l l' t t' off off' sh sh' o o' ot ot' ty ty', has_shape s l t off sh o -> has_shape s l' t' off' sh' o' -> h_view o = Some t ->
  nth_error (mem s) t = Some (Some ot) -> nth_error (mem s) t' = Some (Some ot') -> h_ty ot = HE ty -> h_ty ot' = HE ty' -> sh' <> sh \/ ty' <> ty ->
  forall s1, mem s1 = mem s -> copyable l (Some l') s1 = ROk false s1.
Proof.
  intros s l l' t t' off off' sh sh' o o' ot ot' ty ty' (O & N & Di & Si & Ty & H) (O' & N' & Di' & Si' & Ty' & H') V Ot Ot' E E' Df s1 M.
  unfold copyable. unfold bind at 1, get_obj at 1. rewrite M, O, V. unfold bind at 1, get_obj at 1. rewrite M, O'.
  unfold bind at 1. rewrite (Ty s1 M), Ot. unfold bind at 1. rewrite (Ty' s1 M), Ot', E, E'.
  destruct (Z.eqb_spec (hcode (HE ty)) (hcode (HE ty'))) as [Eq|]; [|reflexivity]. apply hcode_inj in Eq. subst ty'. destruct Df as [Df|]; [|congruence]. change (negb true) with false. cbv iota.
  rewrite Di, Di'. destruct (Nat.eqb_spec (length sh) (length sh')) as [El|]; [|reflexivity]. change (negb true) with false. cbv iota.
  destruct (Nat.eqb_spec (length sh) 1); cbv iota.
  - rewrite (bind_ok _ _ _ _ _ _ _ (Si s1)), (bind_ok _ _ _ _ _ _ _ (Si' s1)). unfold ret. f_equal. apply Z.eqb_neq. intros X. apply Df.
    destruct sh as [|a [|]], sh' as [|a' [|]]; simpl in *; try discriminate; try lia. f_equal. lia.
  - rewrite V in H. destruct H as (_ & S & D). destruct (h_view o') as [u|] eqn:V'; [|destruct H' as (_ & _ & X); congruence]. destruct H' as (_ & S' & D').
    eapply (same_shape_false o o' u off off' sh sh'); eauto.
Qed.
(** Anything else that is assigned to the variable takes the place of the view: no elements are
    copied. *)
Theorem C135_otherwise : forall s j k l t off sh ty cs x, reachable s -> variable s j (MPtr l) -> view_at s l t off sh -> storage s t ty cs -> in_int (elements sh) = true ->
  variable s k x -> unlike s sh ty x ->
  exists s', exec (SAssign (EVar j) (EVar k)) s = ROk tt s' /\ stk s' = set_nth (stk s) j x /\ only_fewer s s'.
Proof.
  intros s j k l t off sh ty cs x R Vj Vw (ot & Ot & W & T & C) B Vk Un. destruct (reachable_INV _ R) as [e I]. pose proof (INV_sound _ _ _ I) as Sd.
  assert (Nx : nonref x) by (destruct Un as [->|[[v ->]|(? & ? & ? & ? & ? & ? & -> & _)]]; intros ? ? X; discriminate).
  assert (Dx : forall s1, der_spec x s1 x) by (intros; destruct x; try reflexivity; exfalso; eapply Nx; reflexivity).
  set (s2 := push_s x (bump x s)).
  assert (Hx : held x s) by (apply (getv_held (LS k)); auto).
  assert (Lj : j < length (stk s)) by (eapply ne_lt; eauto).
  assert (Gj : getv (LS j) s2 = Some (MPtr l)) by (simpl; rewrite bump_stk, nth_error_app1; auto).
  assert (Gk : nth_error (stk s2) (length (stk s)) = Some x) by (simpl; rewrite bump_stk, nth_error_app2, Nat.sub_diag by auto; reflexivity).
  assert (Nc : no_copying s2 (MPtr l) (LS (length (stk s)))).
  { unfold no_copying. assert (M2 : mem s2 = mem s) by (simpl; apply bump_mem).
    assert (Hh : heap_of (LS (length (stk s))) s2 = ROk (match x with MPtr l' => Some l' | _ => None end) s2).
    { unfold heap_of. rewrite (bind_ok _ _ _ _ _ _ _ (get_eq (LS (length (stk s))) _ _ Gk)). destruct Un as [->|[[v ->]|(? & ? & ? & ? & ? & ? & -> & _)]]; reflexivity. }
    rewrite (bind_ok _ _ _ _ _ _ _ Hh). destruct (shaped_has s l t off sh (or_introl Vw) B) as [o H].
    assert (V : h_view o = Some t). { destruct Vw as (_ & q & Q & V & _). destruct H as (O & _). congruence. }
    assert (No : copyable l None s2 = ROk false s2). { unfold copyable. destruct H as (O & _). unfold bind at 1, get_obj. rewrite M2, O, V. reflexivity. }
    destruct Un as [->|[[v ->]|(l' & t' & off' & sh' & ty' & cs' & -> & Sh' & (ot' & Ot' & W' & T' & C') & B' & Df)]]; [exact No|exact No|].
    destruct (shaped_has s l' t' off' sh' Sh' B') as [o' H']. eapply (differing_copyable s l l' t t' off off' sh sh' o o' ot ot'); eauto. }
  destruct (assign_plain_keeps_gen e [] s2 (LS j) (length (stk s)) x x (MPtr l)) as (s3 & E3 & I3 & Sh3); auto.
  - apply INV_push, INV_bump; auto.
  - exact Logic.I.
  - intros ? ? X. discriminate.
  - intros X. inversion X. lia.
  - intros ? ? ? ->. exfalso. eapply Nx. reflexivity.
  - intros s1 _ (St & _). simpl. rewrite St. simpl. apply sn_same. rewrite app_length, bump_stk. simpl. lia.
  - assert (E3' : assign (LS j) (LS (length (stk (bump x s)))) s2 = ROk tt s3).
    { rewrite (assign_nonref_eq _ _ _ _ Gj) by (intros ? ? X; discriminate). rewrite bump_stk. exact E3. }
    assert (Sh3' : shrunk (push_s x (varset j x s)) s3).
    { eapply shrunk_trans; [|exact Sh3]. unfold shrunk, obj, s2, varset; simpl. rewrite bump_mem, bump_stk, sn_app1; auto. }
    destruct (scoped_gives _ x (assign (LS j)) e [] (bump x s) tt s3 x (varset j x s) E3' I3 Sh3') as (s4 & E4 & I4 & Sh4).
    + simpl. rewrite bump_stk, sn_length. reflexivity.
    + destruct Sh4 as (St4 & Lm4 & Ob4). exists s4. split; [|split; [exact St4|]].
      2: { intros m o Om. assert (Q : obj m s4 = Some o) by (unfold obj; rewrite Om; reflexivity). apply Ob4 in Q. unfold obj in Q. simpl in Q. destruct (nth_error (mem s) m) as [[?|]|]; congruence. }
      change (exec (SAssign (EVar j) (EVar k)) s) with (finish (length (stk s)) (body (length (stk s)) (SAssign (EVar j) (EVar k))) s). unfold finish.
      change (body (length (stk s)) (SAssign (EVar j) (EVar k))) with (let! p := eval (length (stk s)) (EVar k) in let! v := eval (length (stk s)) (EVar j) in with_copy p (assign v)).
      rewrite (bind_ok _ _ _ _ _ _ _ (eval_var s k _ _ Vk eq_refl s)). rewrite (bind_ok _ _ _ _ _ _ _ (eval_var s j _ _ Vj eq_refl s)). unfold with_copy.
      rewrite (bind_ok _ _ _ _ _ _ _ (copy_of_eq (LS k) s x Sd Vk)). rewrite E4. replace (length (stk s)) with (length (stk s4)) by (rewrite St4; simpl; apply sn_length). apply leave_none.
Qed.

(** Six doubles, two views of three of them and a view of two rows of two; an array of four doubles;
    two views of an array of int, and two empty views. *)
Definition dbl (z : Z) : val := VDouble (float_of_Z 53 1024 z).
Definition view_prog : list stmt :=
  [SInit (map (fun z => ENum (dbl z)) [10; 20; 30; 40; 50; 60]%Z); SDecl (EView (EVar 0) [3%Z] 1); SDecl (EView (EVar 0) [3%Z] 0);
   SDecl (EView (EVar 0) [2%Z; 2%Z] 1); SInit (map (fun z => ENum (dbl z)) [1; 2; 3; 4]%Z); SDecl (EView (EVar 4) [2%Z; 2%Z] 0);
   SInit (map (fun z => ENum (VInt z)) [7; 8; 9]%Z); SDecl (EView (EVar 6) [2%Z] 0); SDecl (EView (EVar 6) [2%Z] 1);
   SDecl (EView (EVar 0) [0%Z] 0); SDecl (EView (EVar 4) [0%Z] 1)].
Definition s_views : state := Eval vm_compute in match run view_prog start with ROk _ s => s | _ => start end.
Lemma views_reached : reachable s_views. Proof. exists view_prog. vm_compute. reflexivity. Qed.
Definition cells_of (t : nat) : list mvar := match nth_error (mem s_views) t with Some (Some o) => map snd (h_cells o) | _ => [] end.
Lemma view_found : forall s l t off sh o, sh <> [] -> nth_error (mem s) l = Some (Some o) -> h_view o = Some t -> h_size o = S (2 * length sh) ->
  firstn (S (2 * length sh)) (map snd (h_cells o)) = map (fun z => MNum (VInt z)) (Z.of_nat off :: described sh) -> view_at s l t off sh.
Proof.
  intros s l t off sh o Ns O V Sz F. split; [exact Ns|]. exists o. split; [exact O|]. split; [exact V|]. split; [exact Sz|]. intros i z N.
  assert (N' : nth_error (firstn (S (2 * length sh)) (map snd (h_cells o))) i = Some (MNum (VInt z))) by (rewrite F, nth_error_map, N; reflexivity).
  assert (G : nth_error (map snd (h_cells o)) i = Some (MNum (VInt z))).
  { rewrite <- (firstn_skipn (S (2 * length sh)) (map snd (h_cells o))). rewrite nth_error_app1; auto. apply nth_error_Some. congruence. }
  rewrite nth_error_map in G. destruct (nth_error (h_cells o) i) as [[c x]|]; simpl in G; inversion G. eauto.
Qed.
Ltac shape_found := eapply view_found; [discriminate|reflexivity|reflexivity|reflexivity|reflexivity].
Ltac store_found := eexists; split; [reflexivity|]; repeat split.
Ltac match_found := do 2 eexists; split; [reflexivity|]; split; [reflexivity|]; split; [shape_found|]; split; [left; shape_found|]; split; [store_found|]; split; [store_found|]; split; [reflexivity|].
Lemma by_places : forall A n (l : list A) f, length f = n -> n <= length l -> (forall i, i < n -> nth_error l i = nth_error f i) -> firstn n l = f.
Proof.
  intros A n. induction n; intros l [|x f] Lf Ll H; simpl in *; try discriminate; auto. destruct l as [|y l]; [simpl in Ll; lia|]. pose proof (H 0 ltac:(lia)) as X. simpl in X. inversion X. subst. f_equal.
  apply IHn; [lia|simpl in Ll; lia|]. intros i Hi. apply (H (S i)). lia.
Qed.
Ltac places := apply by_places; [reflexivity| |intros [|[|[|[|[|[|?]]]]]] ?; [..|lia]; match goal with H : forall i, nth_error ?l i = _ |- nth_error ?l ?i = _ => rewrite H; reflexivity end].
Ltac numbers_found := let i := fresh in intros i ?; do 4 (destruct i as [|i]; [eexists; reflexivity|]); lia.
Lemma storage_length : forall s t ty cs, storage s t ty cs -> forall s' cs', storage s' t ty cs' -> only_storage t s s' -> length cs' = length cs.
Proof.
  intros s t ty cs (o & O & _ & _ & <-) s' cs' (o' & O' & _ & _ & <-) (_ & _ & _ & _ & H). destruct (H o O) as (q & Q & _ & _ & _ & _ & F). assert (q = o') by congruence. subst. rewrite !map_length. rewrite <- (map_length fst (h_cells o')), F. apply map_length.
Qed.
(** Two rows of two, from an array apart; and three elements from one place further on. *)
Example C135_example : exists s' cs2, exec (SAssign (EVar 3) (EVar 5)) s_views = ROk tt s' /\ only_storage 0 s_views s' /\ storage s' 0 TDouble cs2 /\
  firstn 6 cs2 = map (fun z => MNum (dbl z)) [10; 1; 2; 3; 4; 60]%Z.
Proof.
  destruct (C135_assign_to_view s_views 3 5 0 1 4 0 [2; 2]%Z TDouble (cells_of 0) (cells_of 4) views_reached) with (n := 4) as (s' & cs2 & E & Oy & St & H); auto; try lia.
  - match_found. left. discriminate.
  - vm_compute. lia.
  - numbers_found.
  - exists s', cs2. split; [exact E|]. split; [exact Oy|]. split; [exact St|].
    assert (L : length cs2 = 8) by (rewrite (storage_length s_views 0 TDouble (cells_of 0) ltac:(store_found) s' cs2 St Oy); reflexivity). places. lia.
Qed.
Example C135_down_example : exists s' cs2, exec (SAssign (EVar 2) (EVar 1)) s_views = ROk tt s' /\ only_storage 0 s_views s' /\ storage s' 0 TDouble cs2 /\
  firstn 6 cs2 = map (fun z => MNum (dbl z)) [20; 30; 40; 40; 50; 60]%Z.
Proof.
  destruct (C135_assign_to_view s_views 2 1 0 0 0 1 [3]%Z TDouble (cells_of 0) (cells_of 0) views_reached) with (n := 3) as (s' & cs2 & E & Oy & St & H); auto; try lia.
  - match_found. right. discriminate.
  - vm_compute. lia.
  - numbers_found.
  - exists s', cs2. split; [exact E|]. split; [exact Oy|]. split; [exact St|].
    assert (L : length cs2 = 8) by (rewrite (storage_length s_views 0 TDouble (cells_of 0) ltac:(store_found) s' cs2 St Oy); reflexivity). places. lia.
Qed.
Example C135_overlap_example : exists s' cs2, exec (SAssign (EVar 1) (EVar 2)) s_views = ROk tt s' /\ only_storage 0 s_views s' /\ storage s' 0 TDouble cs2 /\
  firstn 6 cs2 = map (fun z => MNum (dbl z)) [10; 10; 10; 10; 50; 60]%Z.
Proof.
  destruct (C135_overlap s_views 1 2 0 1 0 [3]%Z TDouble (cells_of 0) views_reached) with (n := 3) as (s' & cs2 & E & Oy & St & H); auto; try lia.
  - match_found. right. discriminate.
  - vm_compute. lia.
  - numbers_found.
  - exists s', cs2. split; [exact E|]. split; [exact Oy|]. split; [exact St|].
    assert (L : length cs2 = 8) by (rewrite (storage_length s_views 0 TDouble (cells_of 0) ltac:(store_found) s' cs2 St Oy); reflexivity). places. lia.
Qed.
Example C135_other_example : exec (SAssign (EVar 7) (EVar 8)) s_views = RThrow "Set::vector: Unknown type" s_views.
Proof.
  apply (C135_other_types s_views 7 8 6 0 6 1 [2]%Z TInt (cells_of 6) (cells_of 6) views_reached); try discriminate. match_found. right. discriminate.
Qed.
Example C135_empty_example : exec (SAssign (EVar 9) (EVar 10)) s_views = RUB DivByZero.
Proof.
  apply (C135_empty s_views 9 10 0 0 4 1 [0]%Z TDouble (cells_of 0) (cells_of 4) views_reached); try reflexivity. match_found. right. discriminate.
Qed.
(** A view of rows takes the place of one of three elements, which goes. *)
Example C135_otherwise_example : exists s', exec (SAssign (EVar 1) (EVar 5)) s_views = ROk tt s' /\ stk s' = set_nth (stk s_views) 1 (MPtr 5) /\ only_fewer s_views s'.
Proof.
  apply (C135_otherwise s_views 1 5 1 0 1 [3]%Z TDouble (cells_of 0) (MPtr 5) views_reached); try reflexivity.
  - shape_found.
  - store_found.
  - right. right. exists 5, 4, 0, [2; 2]%Z, TDouble, (cells_of 4). split; [reflexivity|]. split; [left; shape_found|]. split; [store_found|]. split; [reflexivity|]. left. discriminate.
Qed.
