(** The array methods as functions on the contents of one array: what every element is
    afterwards, everything else being as before, up to arrays given up. *)
From Coq Require Import ZArith Bool List String Lia.
From Verif Require Import Base StrModel ValModel NumModel AllocModel AllocProof MemModel MemProof MemFun MemEq MemDeref MemTriple MemOps MemArr MemElem.
Import ListNotations.
Local Open Scope list_scope.
Local Open Scope mem_scope.
Local Notation length := List.length.

Lemma bind_seq : forall A B (m : M A) (f : A -> M unit) (g : M B) s s', (let! x := m in f x) s = ROk tt s' ->
  (let! x := m in (f x ;; g)) s = g s'.
Proof. intros A B m f g s s' H. unfold bind in *. destruct (m s); try discriminate. rewrite H. reflexivity. Qed.

(** * Contents of an object *)
Definition val_at (o : hobj) (k : nat) : option mvar := option_map snd (nth_error (h_cells o) k).
Definition key_at (o : hobj) (k : nat) : option mvar := option_map fst (nth_error (h_cells o) k).
Definition alike (o o' : hobj) : Prop :=
  h_ty o' = h_ty o /\ h_size o' = h_size o /\ h_gen o' = h_gen o /\ h_view o' = h_view o /\
  length (h_cells o') = length (h_cells o).
Lemma alike_refl : forall o, alike o o. Proof. unfold alike; auto. Qed.
Lemma alike_trans : forall a b c, alike a b -> alike b c -> alike a c.
Proof. unfold alike. intros a b c (?&?&?&?&?) (?&?&?&?&?). repeat split; congruence. Qed.
Lemma val_at_lt : forall o k v, val_at o k = Some v -> k < length (h_cells o).
Proof. unfold val_at. intros o k v H. destruct (nth_error (h_cells o) k) eqn:N; [|discriminate]. eapply ne_lt; eauto. Qed.
Lemma val_at_some : forall o k, k < length (h_cells o) -> exists v, val_at o k = Some v.
Proof. intros o k H. unfold val_at. destruct (ne_some _ _ _ H) as [c N]. rewrite N. simpl. eauto. Qed.
Lemma val_at_cell : forall o k v, val_at o k = Some v -> exists c, nth_error (h_cells o) k = Some (c, v).
Proof. unfold val_at. intros o k v H. destruct (nth_error (h_cells o) k) as [[c x]|]; simpl in H; inversion H; subst; eauto. Qed.
Definition set_val (o : hobj) (i : nat) (y : mvar) : hobj :=
  match nth_error (h_cells o) i with
  | Some (k, _) => set_cells o (set_nth (h_cells o) i (k, y))
  | None => o
  end.
Lemma set_val_alike : forall o i y, alike o (set_val o i y).
Proof.
  intros. unfold set_val. destruct (nth_error (h_cells o) i) as [[k v]|]; [|apply alike_refl]. unfold alike; simpl. rewrite sn_length. auto.
Qed.
Lemma set_val_at : forall o i y k, i < length (h_cells o) -> val_at (set_val o i y) k = if Nat.eqb k i then Some y else val_at o k.
Proof.
  intros o i y k L. unfold set_val. destruct (ne_some _ _ _ L) as [[c v] N]. rewrite N. unfold val_at; simpl.
  destruct (Nat.eqb_spec k i) as [->|D]; [rewrite sn_same by auto; reflexivity|rewrite sn_other by auto; reflexivity].
Qed.
Lemma set_val_key : forall o i y k, key_at (set_val o i y) k = key_at o k.
Proof.
  intros o i y k. unfold set_val. destruct (nth_error (h_cells o) i) as [[c v]|] eqn:N; auto. unfold key_at; simpl.
  destruct (Nat.eq_dec k i) as [->|D]; [rewrite sn_same by (eapply ne_lt; eauto); rewrite N; reflexivity|rewrite sn_other by auto; reflexivity].
Qed.
Lemma set_val_putv : forall o i y c old l g s, obj l s = Some o -> nth_error (h_cells o) i = Some (c, old) ->
  putv (LC l g i) y s = set_mem l (set_val o i y) s.
Proof. intros. rewrite (putv_cell_eq _ _ _ _ _ _ _ _ H H0). unfold set_val. rewrite H0. reflexivity. Qed.

(** * One array changed *)
Definition became (l : nat) (o' : hobj) (s s' : state) : Prop := shrunk (set_mem l o' s) s' /\ obj l s' = Some o'.
Lemma became_trans : forall l o1 o2 s s1 s2, l < length (mem s) -> became l o1 s s1 -> became l o2 s1 s2 -> became l o2 s s2.
Proof.
  intros l o1 o2 s s1 s2 L [A A'] [B B']. split; auto. eapply shrunk_trans; [|exact B].
  rewrite <- (set_mem_twice l o1 o2 s). apply shrunk_set_mem; auto. simpl. rewrite sn_length. auto.
Qed.
Lemma became_refl : forall l o s, obj l s = Some o -> became l o s s.
Proof. intros l o s O. split; auto. rewrite set_mem_id; auto. apply shrunk_refl. Qed.
Lemma became_stk : forall l o s s', became l o s s' -> stk s' = stk s.
Proof. intros l o s s' [(A & _) _]. exact A. Qed.
Lemma became_len : forall l o s s', became l o s s' -> length (mem s') = length (mem s).
Proof. intros l o s s' [(_ & A & _) _]. rewrite A. simpl. apply sn_length. Qed.
Lemma became_other : forall l o s s' k o', l < length (mem s) -> became l o s s' -> k <> l -> obj k s' = Some o' -> obj k s = Some o'.
Proof.
  intros l o s s' k o' L [(_ & _ & A) _] D K. apply A in K. rewrite obj_set_mem in K by auto.
  destruct (Nat.eqb_spec l k); [congruence|auto].
Qed.
(** From a shrunk state with a variable that holds the array. *)
Lemma became_held : forall e F l o' s s' j v, shrunk (set_mem l o' s) s' -> INV e F s' -> nth_error (stk s) j = Some v -> target v = Some l ->
  l < length (mem s) -> became l o' s s'.
Proof.
  intros e F l o' s s' j v Sh I N T L. split; auto.
  eapply (shrunk_obj e F _ s' j v l o' Sh I); auto. rewrite obj_set_mem by auto. rewrite Nat.eqb_refl. reflexivity.
Qed.
Lemma became_held_other : forall e F l o' s s' j v k o, became l o' s s' -> INV e F s' -> nth_error (stk s) j = Some v -> target v = Some k ->
  l < length (mem s) -> k <> l -> obj k s = Some o -> obj k s' = Some o.
Proof.
  intros e F l o' s s' j v k o [Sh _] I N T L D O.
  eapply (shrunk_obj e F _ s' j v k o Sh I); auto. rewrite obj_set_mem by auto.
  destruct (Nat.eqb_spec l k); [congruence|auto].
Qed.

(** Elements that an assignment replaces (rather than assigning through them). *)
Definition okcells (s : state) (o : hobj) : Prop :=
  varlike (h_ty o) = true -> forall k v, val_at o k = Some v -> nonref v /\ not_view s v.
Lemma not_view_became : forall l o o' s s' v, obj l s = Some o -> h_view o' = None -> became l o' s s' -> not_view s v -> not_view s' v.
Proof.
  intros l o o' s s' v O V B N k ok E K. destruct (Nat.eq_dec k l) as [->|D].
  - destruct B as [_ B]. congruence.
  - apply (N k ok E). eapply became_other; eauto. eapply obj_lt; eauto.
Qed.
Lemma okcells_became : forall l o o' s s' a, obj l s = Some o -> h_view o' = None -> became l o' s s' -> okcells s a -> okcells s' a.
Proof. intros l o o' s s' a O V B Ok Vl k v H. destruct (Ok Vl k v H). split; auto. eapply not_view_became; eauto. Qed.
Lemma okcells_set : forall s o i y, okcells s o -> i < length (h_cells o) -> (varlike (h_ty o) = true -> nonref y /\ not_view s y) -> okcells s (set_val o i y).
Proof.
  intros s o i y Ok L H V k v E. destruct (set_val_alike o i y) as (T & _). rewrite T in V. rewrite set_val_at in E by auto.
  destruct (Nat.eqb k i); [inversion E; subst; auto|]. eauto.
Qed.

(** A value as an element of a given type of array. *)
Definition fits_type (t : hty) (v : mvar) : Prop :=
  match t with
  | HE TVar | HPair => True
  | HE t => exists u, v = MNum u /\ ety_of u = t
  end.
Lemma cast_self : forall u, ety_of u <> TVar -> cast (ety_of u) u = Ok u.
Proof. intros [] H; simpl in *; congruence. Qed.
Lemma conv_elem : forall s l o m v, obj l s = Some o -> h_view o = None -> okcells s o -> val_at o m = Some v ->
  fits_type (h_ty o) v -> conv s (h_ty o) (MRef l m) v.
Proof.
  intros s l o m v O V Ok A T. destruct (val_at_cell _ _ _ A) as [c N].
  assert (Dv : varlike (h_ty o) = true -> der_spec (MRef l m) s v /\ nonref v).
  { intros Vl. destruct (Ok Vl m v A) as [Nr _]. split; auto. exists o. split; auto. unfold plain_vars. rewrite V, Vl. eauto. }
  assert (Dd : varlike (h_ty o) = false -> forall u, v = MNum u -> der_spec (MRef l m) s (MNum u)).
  { intros Vl u ->. exists o. split; auto. unfold plain_vars. rewrite V, Vl. unfold read_elem, elem_at.
    rewrite (bind_ok _ _ _ _ s (l, m) s).
    - rewrite (bind_ok _ _ _ _ _ _ _ (get_obj_eq _ _ _ O)). rewrite N, Vl. reflexivity.
    - rewrite (bind_ok _ _ _ _ _ _ _ (get_obj_eq _ _ _ O)). rewrite V. unfold bind, ret. destruct (Z.ltb_spec (Z.of_nat m) 0); [lia|].
      rewrite Nat2Z.id. reflexivity. }
  destruct (h_ty o) as [[]|] eqn:Ht; simpl in *; auto; destruct T as (u & E & Eu); exists u, u; (split; [apply Dd; auto|]); split; auto;
    destruct u; simpl in Eu; try discriminate; reflexivity.
Qed.

(** * Moving one element *)
Lemma move_became : forall e F s j l i m o v, INV e F s ->
  nth_error (stk s) j = Some (MPtr l) -> obj l s = Some o -> h_view o = None -> okcells s o ->
  val_at o m = Some v -> fits_type (h_ty o) v -> i < length (h_cells o) -> (varlike (h_ty o) = true -> i <> m) ->
  exists s', (let! x := at_int (LS j) (Z.of_nat m) in set_at (LS j) (Z.of_nat i) x) s = ROk tt s' /\ INV e F s' /\
    became l (set_val o i v) s s' /\ okcells s' (set_val o i v).
Proof.
  intros e F s j l i m o v I Nj O V Ok A T L D. destruct (val_at_some _ _ L) as [old Ho]. destruct (val_at_cell _ _ _ Ho) as [c N].
  destruct (move_gives e F s j l i m o c old v I Nj O V N) as (s' & E & I' & Sh).
  - intros Vl. destruct (Ok Vl _ _ Ho) as [P Q]. split; auto. split; auto. intros E. apply (D Vl). congruence.
  - apply conv_elem; auto.
  - rewrite (set_val_putv _ _ _ _ _ _ _ _ O N) in Sh. assert (B : became l (set_val o i v) s s').
    { eapply became_held; eauto. eapply obj_lt; eauto. }
    exists s'. split; auto. split; auto. split; auto. destruct (set_val_alike o i v) as (_ & _ & _ & Hv & _).
    apply (okcells_became l o (set_val o i v) s s'); auto; [congruence|]. apply okcells_set; auto. intros Vl. apply (Ok Vl m v A).
Qed.

(** * The shifting loops *)
Lemma shift_down_gives : forall n e F s j l b o, INV e F s ->
  nth_error (stk s) j = Some (MPtr l) -> obj l s = Some o -> h_view o = None -> okcells s o ->
  b + n < length (h_cells o) -> (forall k v, b < k <= b + n -> val_at o k = Some v -> fits_type (h_ty o) v) ->
  exists s' o', shift_down (LS j) n (Z.of_nat (S b)) s = ROk tt s' /\ INV e F s' /\ became l o' s s' /\ okcells s' o' /\ alike o o' /\
    (forall k, val_at o' k = if (b <=? k)%nat && (k <? b + n)%nat then val_at o (S k) else val_at o k) /\ (forall k, key_at o' k = key_at o k).
Proof.
  induction n as [|n IH]; intros e F s j l b o I Nj O V Ok L T.
  - exists s, o. split; [reflexivity|]. split; auto. split; [apply became_refl; auto|]. split; auto. split; [apply alike_refl|].
    split; auto. intros k. destruct (Nat.leb_spec b k); destruct (Nat.ltb_spec k (b + 0)); simpl; auto. lia.
  - destruct (val_at_some o (S b)) as [v Hv]; [lia|].
    destruct (move_became e F s j l b (S b) o v I Nj O V Ok Hv) as (s1 & E1 & I1 & B1 & Ok1); [apply (T (S b)); auto; lia|lia|lia|].
    destruct (set_val_alike o b v) as (A1 & A2 & A3 & A4 & A5).
    destruct (IH e F s1 j l (S b) (set_val o b v)) as (s' & o' & E2 & I2 & B2 & Ok2 & Al & H & Hk); auto.
    + rewrite (became_stk _ _ _ _ B1); auto.
    + apply B1.
    + congruence.
    + rewrite A5. lia.
    + intros k w K Hk. rewrite A1. rewrite set_val_at in Hk by lia. destruct (Nat.eqb_spec k b); [lia|]. apply (T k w); auto; lia.
    + exists s', o'. split; [|split; [auto|split; [|split; [auto|split; [|split]]]]].
      * change (shift_down (LS j) (S n) (Z.of_nat (S b))) with
          (let! x := at_int (LS j) (Z.of_nat (S b)) in set_at (LS j) (Z.of_nat (S b) - 1) x ;; shift_down (LS j) n (Z.of_nat (S b) + 1)).
        replace (Z.of_nat (S b) - 1)%Z with (Z.of_nat b) by lia. replace (Z.of_nat (S b) + 1)%Z with (Z.of_nat (S (S b))) by lia.
        rewrite (bind_seq _ _ _ _ _ _ _ E1). exact E2.
      * eapply became_trans; eauto. eapply obj_lt; eauto.
      * eapply alike_trans; [|exact Al]. unfold alike; auto.
      * intros k. rewrite H. rewrite !set_val_at by lia.
        destruct (Nat.leb_spec (S b) k); destruct (Nat.ltb_spec k (S b + n)); destruct (Nat.leb_spec b k); destruct (Nat.ltb_spec k (b + S n));
          destruct (Nat.eqb_spec (S k) b); destruct (Nat.eqb_spec k b); simpl; try lia; auto. subst. congruence.
      * intros k. rewrite Hk. apply set_val_key.
Qed.
(** [shift_up] moves the elements [b .. b+n-1] up by one, from the top. *)
Lemma shift_up_gives : forall n e F s j l b o, INV e F s ->
  nth_error (stk s) j = Some (MPtr l) -> obj l s = Some o -> h_view o = None -> okcells s o ->
  b + n < length (h_cells o) -> (forall k v, b <= k < b + n -> val_at o k = Some v -> fits_type (h_ty o) v) ->
  exists s' o', shift_up (LS j) n (Z.of_nat (b + n)) s = ROk tt s' /\ INV e F s' /\ became l o' s s' /\ okcells s' o' /\ alike o o' /\
    forall k, val_at o' k = if (b <? k)%nat && (k <=? b + n)%nat then val_at o (k - 1) else val_at o k.
Proof.
  induction n as [|n IH]; intros e F s j l b o I Nj O V Ok L T.
  - exists s, o. split; [reflexivity|]. split; auto. split; [apply became_refl; auto|]. split; auto. split; [apply alike_refl|].
    intros k. destruct (Nat.ltb_spec b k); destruct (Nat.leb_spec k (b + 0)); simpl; auto. lia.
  - destruct (val_at_some o (b + n)) as [v Hv]; [lia|].
    destruct (move_became e F s j l (b + S n) (b + n) o v I Nj O V Ok Hv) as (s1 & E1 & I1 & B1 & Ok1); [apply (T (b + n)); auto; lia|lia|lia|].
    destruct (set_val_alike o (b + S n) v) as (A1 & A2 & A3 & A4 & A5).
    destruct (IH e F s1 j l b (set_val o (b + S n) v)) as (s' & o' & E2 & I2 & B2 & Ok2 & Al & H); auto.
    + rewrite (became_stk _ _ _ _ B1); auto.
    + apply B1.
    + congruence.
    + rewrite A5. lia.
    + intros k w K Hk. rewrite A1. rewrite set_val_at in Hk by lia. destruct (Nat.eqb_spec k (b + S n)); [lia|]. apply (T k w); auto; lia.
    + exists s', o'. split; [|split; [auto|split; [|split; [auto|split]]]].
      * change (shift_up (LS j) (S n) (Z.of_nat (b + S n))) with
          (let! x := at_int (LS j) (Z.of_nat (b + S n) - 1) in set_at (LS j) (Z.of_nat (b + S n)) x ;; shift_up (LS j) n (Z.of_nat (b + S n) - 1)).
        replace (Z.of_nat (b + S n) - 1)%Z with (Z.of_nat (b + n)) by lia.
        rewrite (bind_seq _ _ _ _ _ _ _ E1). exact E2.
      * eapply became_trans; eauto. eapply obj_lt; eauto.
      * eapply alike_trans; [|exact Al]. unfold alike; auto.
      * intros k. rewrite H. rewrite !set_val_at by lia.
        destruct (Nat.ltb_spec b k); destruct (Nat.leb_spec k (b + n)); destruct (Nat.leb_spec k (b + S n));
          destruct (Nat.eqb_spec (k - 1) (b + S n)); destruct (Nat.eqb_spec k (b + S n)); simpl; try lia; auto.
        subst. replace (b + S n - 1) with (b + n) by lia. congruence.
Qed.

(** * Resizing *)
Definition grown (n : nat) (o o' : hobj) : Prop :=
  h_ty o' = h_ty o /\ h_view o' = h_view o /\ h_size o' = n /\
  (n + (if is_char (h_ty o) then 1 else 0) <= length (h_cells o')) /\
  exists k, h_cells o' = terminate (h_ty o) n (h_cells o ++ repeat (fresh (h_ty o)) k).
Lemma alloc_ex : forall t n, (Z.of_nat n < 2 ^ 30)%Z -> exists c, allocSize (Z.of_nat n + (if is_char t then 1 else 0)) = Base.Ok c /\
  (Z.of_nat n + (if is_char t then 1 else 0) <= c)%Z.
Proof.
  intros t n H. eexists. split; [apply allocSize_ok; destruct (is_char t); lia|].
  set (k := (Z.of_nat n + (if is_char t then 1 else 0))%Z). assert (0 < Z.max k 8)%Z by lia.
  pose proof (Z.log2_up_spec (Z.max k 8)). lia.
Qed.
Lemma heap_resize_gives : forall e F s l n o, INV e F s -> obj l s = Some o -> (Z.of_nat n < 2 ^ 30)%Z ->
  exists o', heap_resize l n s = ROk tt (set_mem l o' s) /\ INV e F (set_mem l o' s) /\ grown n o o'.
Proof.
  intros e F s l n o I O Hn. destruct (alloc_ex (h_ty o) n Hn) as (c & E & Hc).
  pose proof I as (_ & Ty & _). pose proof (Ty _ _ O) as D.
  assert (P : forall o', h_ty o' = h_ty o -> h_view o' = h_view o -> (forall k, cell_occ k (h_cells o') = cell_occ k (h_cells o)) -> INV e F (set_mem l o' s)).
  { intros o' H1 H2 H3. eapply INV_set_mem; eauto.
    - intros k. rewrite !occ_contents, H3, H2. reflexivity.
    - split; [intros V k; rewrite H3; apply D; congruence|rewrite H1, H2; apply D]. }
  unfold heap_resize. rewrite (bind_ok _ _ _ _ _ _ _ (get_obj_eq _ _ _ O)). rewrite E. rewrite (bind_ok _ _ (lift (Base.Ok c)) _ s c s eq_refl).
  destruct (Z.ltb_spec (Z.of_nat (length (h_cells o))) c) as [H|H].
  - eexists. split; [reflexivity|]. split.
    + apply P; auto. intros k. simpl h_cells. rewrite terminate_occ.
      * rewrite cell_occ_app, occ_fresh. lia.
      * intros V k'. rewrite cell_occ_app, occ_fresh, (proj1 D); auto.
    + unfold grown; simpl. repeat split; auto.
      * rewrite terminate_len, app_length, repeat_length. destruct (is_char (h_ty o)); lia.
      * eauto.
  - destruct (is_char (h_ty o)) eqn:C; simpl andb.
    + destruct (Nat.leb_spec (length (h_cells o)) n); [lia|]. eexists. split; [reflexivity|]. split.
      * apply P; auto. intros k. apply terminate_occ. apply D.
      * unfold grown; simpl. rewrite C. repeat split; auto; [rewrite terminate_len; lia|]. exists 0. simpl. rewrite app_nil_r. auto.
    + eexists. split; [reflexivity|]. split.
      * apply P; auto. intros k. apply terminate_occ. apply D.
      * unfold grown; simpl. rewrite C. repeat split; auto; [rewrite terminate_len; lia|]. exists 0. simpl. rewrite app_nil_r. auto.
Qed.
Lemma term_other : forall t n c k, (is_char t = true -> k <> n) -> nth_error (terminate t n c) k = nth_error c k.
Proof. intros t n c k H. unfold terminate. destruct (is_char t); auto. apply sn_other. intros E; apply H; auto. Qed.
Lemma grown_len : forall n o o', grown n o o' -> length (h_cells o) <= length (h_cells o').
Proof. intros n o o' (_ & _ & _ & _ & k & E). rewrite E, terminate_len, app_length. lia. Qed.
Lemma grown_val : forall n o o' k, grown n o o' -> k < length (h_cells o) -> (is_char (h_ty o) = true -> k <> n) -> val_at o' k = val_at o k.
Proof. intros n o o' k (_ & _ & _ & _ & m & E) L H. unfold val_at. rewrite E, term_other by auto. rewrite nth_error_app1; auto. Qed.
Lemma grown_key : forall n o o' k, grown n o o' -> k < length (h_cells o) -> (is_char (h_ty o) = true -> k <> n) -> key_at o' k = key_at o k.
Proof. intros n o o' k (_ & _ & _ & _ & m & E) L H. unfold key_at. rewrite E, term_other by auto. rewrite nth_error_app1; auto. Qed.
Lemma grown_nul : forall n o o', grown n o o' -> is_char (h_ty o) = true -> val_at o' n = Some NUL.
Proof.
  intros n o o' (_ & _ & _ & L & m & E) C. rewrite C in L. unfold val_at. rewrite E in *. rewrite terminate_len in L. unfold terminate. rewrite C.
  rewrite sn_same by lia. reflexivity.
Qed.
Lemma grown_new : forall n o o' k v, grown n o o' -> length (h_cells o) <= k -> (is_char (h_ty o) = true -> k <> n) ->
  val_at o' k = Some v -> v = snd (fresh (h_ty o)).
Proof.
  intros n o o' k v (_ & _ & _ & _ & m & E) L H. unfold val_at. rewrite E, term_other by auto. rewrite nth_error_app2 by auto.
  destruct (nth_error (repeat _ m) _) as [c|] eqn:N; [|discriminate]. apply nth_error_In, repeat_spec in N. subst. simpl. congruence.
Qed.
Lemma grown_okcells : forall s l o o' n s', obj l s = Some o -> h_view o = None -> grown n o o' -> okcells s o -> became l o' s s' -> okcells s' o'.
Proof.
  intros s l o o' n s' O V G Ok B Vl k v H. destruct G as (T & Vw & G). rewrite T in Vl.
  assert (C : is_char (h_ty o) = false) by (destruct (h_ty o) as [[]|]; simpl in *; auto; discriminate).
  destruct (Nat.lt_ge_cases k (length (h_cells o))) as [L|L].
  - rewrite (grown_val n o o') in H; [|split; auto|auto|congruence]. destruct (Ok Vl k v H) as [P Q]. split; auto.
    apply (not_view_became l o o' s s'); auto. congruence.
  - apply (grown_new n o o') in H; [|split; auto|auto|congruence]. unfold fresh in H. rewrite Vl in H. simpl in H. subst.
    split; intros ? ? ?; discriminate.
Qed.
Lemma resize_became : forall e F s j l n o, INV e F s -> nth_error (stk s) j = Some (MPtr l) -> obj l s = Some o -> (Z.of_nat n < 2 ^ 30)%Z ->
  exists o' s', resize (LS j) (Z.of_nat n) s = ROk tt s' /\ s' = set_mem l o' s /\ INV e F s' /\ became l o' s s' /\ grown n o o'.
Proof.
  intros e F s j l n o I N O H. destruct (heap_resize_gives e F s l n o I O H) as (o' & R & I' & G).
  exists o', (set_mem l o' s). rewrite (ptr_resize s (LS j) l N) by lia. rewrite Nat2Z.id. split; auto. split; auto. split; auto. split; auto.
  split; [apply shrunk_refl|]. rewrite obj_set_mem by (eapply obj_lt; eauto). rewrite Nat.eqb_refl. reflexivity.
Qed.

(** * The loops of the dense insertion *)
Lemma set_at_became : forall e F s j l i o x y, INV e (x :: F) s ->
  nth_error (stk s) j = Some (MPtr l) -> obj l s = Some o -> h_view o = None -> okcells s o ->
  i < length (h_cells o) -> conv s (h_ty o) x y -> (varlike (h_ty o) = true -> x <> MRef l i) ->
  exists s', set_at (LS j) (Z.of_nat i) x s = ROk tt s' /\ INV e F s' /\ became l (set_val o i y) s s'.
Proof.
  intros e F s j l i o x y I Nj O V Ok L Cv D. destruct (val_at_some _ _ L) as [old Ho]. destruct (val_at_cell _ _ _ Ho) as [c N].
  destruct (set_at_gives e F s j l i o c old x y I Nj O V N) as (s' & E & I' & Sh); auto.
  - intros Vl. destruct (Ok Vl _ _ Ho) as [P Q]. auto.
  - rewrite (set_val_putv _ _ _ _ _ _ _ _ O N) in Sh. exists s'. split; auto. split; auto. eapply became_held; eauto. eapply obj_lt; eauto.
Qed.
Lemma spread_gives : forall n e F s j l b o q lp op m fuel, INV e F s ->
  nth_error (stk s) j = Some (MPtr l) -> obj l s = Some o -> h_view o = None -> varlike (h_ty o) = false ->
  nth_error (stk s) q = Some (MPtr lp) -> lp <> l -> obj lp s = Some op -> h_view op = None -> h_size op = m ->
  b + m + n <= length (h_cells o) -> (forall k v, b <= k < b + n -> val_at o k = Some v -> fits_type (h_ty o) v) -> n < fuel ->
  exists s' o', spread (LS j) (LS q) (Z.of_nat b) fuel (Z.of_nat (b + m + n) - 1) s = ROk tt s' /\ INV e F s' /\ became l o' s s' /\ alike o o' /\
    forall k, val_at o' k = if (b + m <=? k)%nat && (k <? b + m + n)%nat then val_at o (k - m) else val_at o k.
Proof.
  induction n as [|n IH]; intros e F s j l b o q lp op m fuel I Nj O V Vl Nq D P Vp Sz L T Fu; (destruct fuel as [|fuel]; [lia|]).
  - exists s, o. split.
    + simpl spread. rewrite (bind_ok _ _ _ _ _ _ _ (ptr_size s (LS q) lp Nq op P Vp)). rewrite Sz.
      destruct (Z.leb_spec (Z.of_nat (b + m + 0) - 1) (Z.of_nat b + Z.of_nat m - 1)); [reflexivity|lia].
    + split; auto. split; [apply became_refl; auto|]. split; [apply alike_refl|].
      intros k. destruct (Nat.leb_spec (b + m) k); destruct (Nat.ltb_spec k (b + m + 0)); simpl; auto. lia.
  - destruct (val_at_some o (b + n)) as [v Hv]; [lia|].
    assert (Ok : okcells s o) by (intros X; congruence).
    destruct (move_became e F s j l (b + m + n) (b + n) o v I Nj O V Ok Hv) as (s1 & E1 & I1 & B1 & _); [apply (T (b + n)); auto; lia|lia|congruence|].
    destruct (set_val_alike o (b + m + n) v) as (A1 & A2 & A3 & A4 & A5).
    pose proof (obj_lt _ _ _ O) as Ll.
    destruct (IH e F s1 j l b (set_val o (b + m + n) v) q lp op m fuel) as (s' & o' & E2 & I2 & B2 & Al & H); auto; try lia.
    + rewrite (became_stk _ _ _ _ B1); auto.
    + apply B1.
    + congruence.
    + congruence.
    + rewrite (became_stk _ _ _ _ B1); auto.
    + eapply became_held_other; eauto.
    + intros k w K Hk. rewrite A1. rewrite set_val_at in Hk by lia. destruct (Nat.eqb_spec k (b + m + n)) as [->|X]; [inversion Hk; subst; apply (T (b + n)); auto; lia|]. apply (T k w); auto; lia.
    + exists s', o'. split; [|split; [auto|split; [|split]]].
      * simpl spread. rewrite (bind_ok _ _ _ _ _ _ _ (ptr_size s (LS q) lp Nq op P Vp)). rewrite Sz.
        destruct (Z.leb_spec (Z.of_nat (b + m + S n) - 1) (Z.of_nat b + Z.of_nat m - 1)); [lia|].
        replace (Z.of_nat (b + m + S n) - 1 - Z.of_nat m)%Z with (Z.of_nat (b + n)) by lia.
        replace (Z.of_nat (b + m + S n) - 1)%Z with (Z.of_nat (b + m + n)) by lia.
        rewrite (bind_seq _ _ _ _ _ _ _ E1). exact E2.
      * eapply became_trans; eauto.
      * eapply alike_trans; [|exact Al]. unfold alike; auto.
      * intros k. rewrite H. rewrite !set_val_at by lia.
        destruct (Nat.leb_spec (b + m) k); destruct (Nat.ltb_spec k (b + m + n)); destruct (Nat.ltb_spec k (b + m + S n));
          destruct (Nat.eqb_spec (k - m) (b + m + n)); destruct (Nat.eqb_spec k (b + m + n)); simpl; try lia; auto.
        all: subst k; replace (b + m + n - m) with (b + n) in * by lia; congruence.
Qed.
(** The i-th element of an array, converted. *)
Definition converted (t : hty) (op : hobj) (i : nat) (y : mvar) : Prop :=
  exists t' v u, t = HE t' /\ val_at op i = Some (MNum v) /\ cast t' v = Base.Ok u /\ y = MNum u.
Lemma der_cell : forall s l o i v, obj l s = Some o -> h_view o = None -> val_at o i = Some v -> nonref v -> v <> MJunk ->
  der_spec (MRef l i) s v.
Proof.
  intros s l o i v O V A Nr Nj. destruct (val_at_cell _ _ _ A) as [c N]. exists o. split; auto. unfold plain_vars. rewrite V.
  destruct (varlike (h_ty o)) eqn:Vl; eauto. unfold read_elem, elem_at.
  rewrite (bind_ok _ _ _ _ s (l, i) s).
  - rewrite (bind_ok _ _ _ _ _ _ _ (get_obj_eq _ _ _ O)). rewrite N, Vl. destruct v; try congruence; reflexivity.
  - rewrite (bind_ok _ _ _ _ _ _ _ (get_obj_eq _ _ _ O)). rewrite V. unfold bind, ret. destruct (Z.ltb_spec (Z.of_nat i) 0); [lia|].
    rewrite Nat2Z.id. reflexivity.
Qed.
Lemma conv_src : forall s lp op i t y, obj lp s = Some op -> h_view op = None -> varlike t = false -> converted t op i y -> conv s t (MRef lp i) y.
Proof.
  intros s lp op i t y O V Vl (t' & v & u & -> & A & C & E).
  assert (D : der_spec (MRef lp i) s (MNum v)) by (eapply der_cell; eauto; [intros ? ? ?|]; discriminate).
  destruct t'; simpl in *; try discriminate; eauto 10.
Qed.
Lemma fill_gives : forall n e F s j l b o q lp op m a fuel g, INV e F s ->
  nth_error (stk s) j = Some (MPtr l) -> obj l s = Some o -> h_view o = None -> varlike (h_ty o) = false ->
  nth_error (stk s) q = Some (MPtr lp) -> lp <> l -> obj lp s = Some op -> h_view op = None -> h_size op = m ->
  (forall i, i < m -> converted (h_ty o) op i (g i)) -> a + n = m ->
  b + m <= length (h_cells o) -> n < fuel ->
  exists s' o', fill (LS j) (LS q) (Z.of_nat b) fuel (Z.of_nat a) s = ROk tt s' /\ INV e F s' /\ became l o' s s' /\ alike o o' /\
    forall k, val_at o' k = if (b + a <=? k)%nat && (k <? b + m)%nat then Some (g (k - b)) else val_at o k.
Proof.
  induction n as [|n IH]; intros e F s j l b o q lp op m a fuel g I Nj O V Vl Nq D P Vp Sz Cv An L Fu; (destruct fuel as [|fuel]; [lia|]).
  - exists s, o. split.
    + simpl fill. rewrite (bind_ok _ _ _ _ _ _ _ (ptr_size s (LS q) lp Nq op P Vp)). rewrite Sz.
      destruct (Z.leb_spec (Z.of_nat m) (Z.of_nat a)); [reflexivity|lia].
    + split; auto. split; [apply became_refl; auto|]. split; [apply alike_refl|].
      intros k. destruct (Nat.leb_spec (b + a) k); destruct (Nat.ltb_spec k (b + m)); simpl; auto. lia.
  - pose proof (INV_sound _ _ _ I) as Sd. pose proof (obj_lt _ _ _ O) as Ll.
    assert (Ok : okcells s o) by (intros X; congruence).
    assert (E0 : index_int (LS q) (Z.of_nat a) s = ROk (MRef lp a) (bump (MPtr lp) s)).
    { rewrite <- (Nat2Z.id a) at 2. eapply (index_in_ptr s (LS q) lp (Z.of_nat a) op); auto. lia. }
    change (bump (MPtr lp) s) with (bump (MRef lp a) s) in E0.
    destruct (set_at_became e F (bump (MRef lp a) s) j l (b + a) o (MRef lp a) (g a)) as (s1 & E1 & I1 & B1); auto; try lia.
    + apply INV_bump; auto. apply (held_ptr (LS q)); auto.
    + apply conv_bump. eapply conv_src; eauto. apply Cv. lia.
    + congruence.
    + assert (B1' : became l (set_val o (b + a) (g a)) s s1).
      { destruct B1 as [B1 B1']. split; [|exact B1']. eapply shrunk_trans; [|exact B1]. apply shrunk_set_mem; auto. apply shrunk_bump. }
      clear B1. destruct (set_val_alike o (b + a) (g a)) as (A1 & A2 & A3 & A4 & A5).
      assert (P1 : obj lp s1 = Some op) by (eapply became_held_other; eauto).
      destruct (IH e F s1 j l b (set_val o (b + a) (g a)) q lp op m (S a) fuel g) as (s' & o' & E2 & I2 & B2 & Al & H); auto; try lia.
      * rewrite (became_stk _ _ _ _ B1'); auto.
      * apply B1'.
      * congruence.
      * congruence.
      * rewrite (became_stk _ _ _ _ B1'); auto.
      * intros i Hi. rewrite A1. auto.
      * exists s', o'. split; [|split; [auto|split; [|split]]].
        -- simpl fill. rewrite (bind_ok _ _ _ _ _ _ _ (ptr_size s (LS q) lp Nq op P Vp)). rewrite Sz.
           destruct (Z.leb_spec (Z.of_nat m) (Z.of_nat a)); [lia|].
           rewrite (bind_ok _ _ _ _ _ _ _ E0). replace (Z.of_nat b + Z.of_nat a)%Z with (Z.of_nat (b + a)) by lia.
           rewrite (bind_ok _ _ _ _ _ _ _ E1). replace (Z.of_nat a + 1)%Z with (Z.of_nat (S a)) by lia. exact E2.
        -- eapply became_trans; eauto.
        -- eapply alike_trans; [|exact Al]. unfold alike; auto.
        -- intros k. rewrite H. rewrite !set_val_at by lia.
           destruct (Nat.leb_spec (b + S a) k); destruct (Nat.ltb_spec k (b + m)); destruct (Nat.leb_spec (b + a) k);
             destruct (Nat.eqb_spec k (b + a)); simpl; try lia; auto.
           subst k. replace (b + a - b) with a by lia. reflexivity.
Qed.
