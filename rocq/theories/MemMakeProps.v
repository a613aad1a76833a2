(** Properties of making and moving views in memory: C137 to C140. *)
From Coq Require Import ZArith Bool List String Lia.
From Coq.Floats Require Import SpecFloat.
From Verif Require Import Base StrModel ValModel NumModel MemModel MemProof MemFun MemEq MemTriple MemDeref MemArr MemElem MemOps MemList MemThrow MemArrays MemScalar MemMore MemInit MemRun ArrSpec ArrFacts MemViewSpec MemViewProps MemMakeSpec.
Import ListNotations.
Local Open Scope list_scope.
Local Open Scope mem_scope.
Local Notation length := List.length.

(** * Making a view *)
Lemma desc_loop_gives : forall sh s, (forall n, in_int (elements (skipn n sh)) = true) -> desc_loop sh s = ROk (described sh, elements sh) s.
Proof.
  induction sh as [|d sh IH]; intros s B; [reflexivity|]. cbn [desc_loop]. rewrite (bind_ok _ _ _ _ s (described sh, elements sh) s).
  - pose proof (B 0) as B0. simpl in B0. rewrite Z.mul_comm, B0. simpl. rewrite Z.mul_comm. reflexivity.
  - apply IH. intros n. apply (B (S n)).
Qed.
Lemma cells_gives : forall t n s, (Z.of_nat n < 2 ^ 30)%Z -> exists c, new_cells t n s = ROk c s.
Proof.
  intros t n s Sm. destruct (alloc_ex t n Sm) as (c & Ec & Hc). unfold new_cells. rewrite Ec. rewrite (bind_ok _ _ (lift (Base.Ok c)) _ s c s eq_refl).
  destruct (Z.ltb_spec c 0); [destruct (is_char t); lia|eauto].
Qed.
Lemma described_length : forall sh, length (described sh) = 2 * length sh.
Proof. induction sh; simpl; lia. Qed.
Definition view_obj (t : nat) (off : Z) (sh : list Z) (o : hobj) : Prop :=
  h_ty o = HE TInt /\ h_size o = S (2 * length sh) /\ h_view o = Some t /\ exists more, h_cells o = map (fun z => (MNil, MNum (VInt z))) (off :: described sh) ++ more.
Definition held_by_view (t : nat) (o : hobj) (s : state) : state := new_st o (bump (MPtr t) s).
Lemma view_makes : forall s j l t off sh0 sh d o ot, nth_error (stk s) j = Some (MPtr l) -> has_shape s l t off sh0 o -> nth_error (mem s) t = Some (Some ot) ->
  varlike (h_ty ot) = false -> h_view ot = None -> sh <> [] -> small (S (2 * length sh)) -> countable sh (Z.of_nat off + d) ->
  if (Z.of_nat (h_size ot) <? elements sh + (Z.of_nat off + d))%Z then view (LS j) sh d s = RThrow "View::setStrides(): Array too small for view" s
  else exists o', view (LS j) sh d s = ROk (MPtr (length (mem s))) (held_by_view t o' s) /\ view_obj t (Z.of_nat off + d) sh o'.
Proof.
  intros s j l t off sh0 sh d o ot Nj (O & _ & _ & _ & _ & Hv) Ot Ty Vt Ns Sm (B1 & B2 & B3).
  assert (Oo : obj l s = Some o) by (unfold obj; rewrite O; reflexivity). assert (Oot : obj t s = Some ot) by (unfold obj; rewrite Ot; reflexivity).
  assert (St : view (LS j) sh d s = (let! (desc, p) := desc_loop sh in
      if negb (in_int (Z.of_nat off + d)) || negb (in_int (p + (Z.of_nat off + d))) then ub SignedOverflow else
      if (Z.of_nat (h_size ot) <? p + (Z.of_nat off + d))%Z then throw "View::setStrides(): Array too small for view" else
      let! c := new_cells (HE TInt) (length ((Z.of_nat off + d)%Z :: desc)) in
      attach (MPtr t) ;;
      new_obj (mkobj (HE TInt) (length ((Z.of_nat off + d)%Z :: desc)) 0 (map (fun z => (MNil, MNum (VInt z))) ((Z.of_nat off + d)%Z :: desc) ++ skipn (length ((Z.of_nat off + d)%Z :: desc)) c) (Some t))) s).
  { unfold view. rewrite (bind_ok _ _ _ _ _ _ _ (ptr_heap s (LS j) l Nj)). rewrite (bind_ok _ _ _ _ _ _ _ (get_obj_eq _ _ _ Oo)).
    rewrite (bind_ok _ _ _ _ s (t, Z.of_nat off) s).
    - cbv beta iota. rewrite (bind_ok _ _ _ _ _ _ _ (get_obj_eq _ _ _ Oot)). rewrite Ty, Vt. destruct sh; [congruence|reflexivity].
    - destruct (h_view o) as [u|].
      + destruct Hv as (-> & _ & De). rewrite (bind_ok _ _ _ _ s (Z.of_nat off) s); [reflexivity|]. eapply own_desc; [exact De|reflexivity].
      + destruct Hv as (-> & -> & _). reflexivity. }
  rewrite St, (bind_ok _ _ _ _ _ _ _ (desc_loop_gives sh s B1)). cbv beta iota. rewrite B2, B3. cbn [negb orb].
  destruct (Z.ltb_spec (Z.of_nat (h_size ot)) (elements sh + (Z.of_nat off + d))); [reflexivity|].
  cbn [length]. rewrite described_length. destruct (cells_gives (HE TInt) (S (2 * length sh)) s Sm) as [c C]. rewrite (bind_ok _ _ _ _ _ _ _ C).
  rewrite (bind_ok _ _ _ _ s tt (bump (MPtr t) s)) by (apply attach_eq; intros k K; inversion K; subst; exists ot; exact Ot).
  eexists. split.
  - unfold new_obj, held_by_view, new_st. rewrite bump_mem. reflexivity.
  - unfold view_obj. cbn [h_ty h_size h_view h_cells]. split; [reflexivity|]. split; [reflexivity|]. split; [reflexivity|]. eexists. reflexivity.
Qed.
Lemma view_obj_at : forall s l t off sh o, nth_error (mem s) l = Some (Some o) -> view_obj t (Z.of_nat off) sh o -> sh <> [] -> view_at s l t off sh.
Proof.
  intros s l t off sh o O (T & Sz & V & more & C) Ns. split; auto. exists o. split; auto. split; auto. split; auto. intros i z N. exists MNil.
  rewrite C, nth_error_app1; [|rewrite map_length; eapply nth_error_Some; congruence]. rewrite nth_error_map, N. reflexivity.
Qed.
Lemma holders_bump : forall s l k, l < length (rc s) -> holders (bump (MPtr l) s) k = holders s k + (if Nat.eqb k l then 1 else 0).
Proof.
  intros s l k L. unfold holders, bump, upd_rc, rcount. simpl. destruct (Nat.eqb_spec k l) as [->|N].
  - erewrite nth_error_nth by (apply sn_same; auto). lia.
  - destruct (nth_error (rc s) k) as [x|] eqn:E.
    + rewrite (nth_error_nth _ _ 0 E). erewrite nth_error_nth by (rewrite sn_other by auto; exact E). lia.
    + apply nth_error_None in E. rewrite !nth_overflow; auto. rewrite sn_length. auto.
Qed.
Lemma rc_of : forall e F s, INV e F s -> length (rc s) = length (mem s).
Proof. intros e F s I. apply (INV_sound _ _ _ I). Qed.
Lemma decl_throws : forall f s m, eval (length (stk s)) f s = RThrow m s -> exec (SDecl f) s = RThrow m s.
Proof. intros f s m E. unfold exec, declare, keep_value. unfold bind at 1. rewrite E. unfold bind. rewrite MemViewProps.leave_none. reflexivity. Qed.
Lemma eval_view : forall nv k sh d s x, variable s k x -> nv = length (stk s) -> eval nv (EView (EVar k) sh d) s = (let! x := view (LS k) sh d in temp x) s.
Proof.
  intros nv k sh d s x V ->. change (eval (length (stk s)) (EView (EVar k) sh d)) with (let! v := eval (length (stk s)) (EVar k) in let! x := view v sh d in temp x).
  rewrite (bind_ok _ _ _ _ _ _ _ (eval_var s k _ _ V eq_refl s)). reflexivity.
Qed.

(** Taking a view of an array of numbers or of a view of one makes a variable that shows the
    elements of the storage from the sum of the offsets; nothing is copied. *)
Theorem C137_view_of_array : forall s k l t off sh0 ty cs n sh d, reachable s -> variable s k (MPtr l) -> shaped s l t off sh0 -> in_int (elements sh0) = true ->
  storage s t ty cs -> ty <> TVar -> size_at s t n -> sh <> [] -> small (S (2 * length sh)) -> countable sh (Z.of_nat off + d) ->
  (0 <= Z.of_nat off + d)%Z -> (elements sh + (Z.of_nat off + d) <= Z.of_nat n)%Z ->
  exists s', exec (SDecl (EView (EVar k) sh d)) s = ROk tt s' /\ one_more s s' /\ view_at s' (length (mem s)) t (Z.to_nat (Z.of_nat off + d)) sh /\
    forall i, i < length (mem s) -> holders s' i = holders s i + (if Nat.eqb i t then 1 else 0).
Proof.
  intros s k l t off sh0 ty cs n sh d R V Sh B St Ty (ot' & Ot' & Sz) Ns Sm C P Fit. destruct (shaped_has _ _ _ _ _ Sh B) as [o Ho]. destruct St as (ot & Ot & Vt & Tt & Cs).
  assert (ot' = ot) by congruence. subst ot'. destruct (reachable_INV s R) as [e I].
  pose proof (view_makes s k l t off sh0 sh d o ot V Ho Ot) as M. rewrite Tt in M. specialize (M ltac:(destruct ty; simpl; congruence) Vt Ns Sm C).
  destruct (Z.ltb_spec (Z.of_nat (h_size ot)) (elements sh + (Z.of_nat off + d))); [lia|]. destruct M as (o' & E & Vo).
  exists (push_s (MPtr (length (mem s))) (held_by_view t o' s)).
  assert (Nl : nth_error (mem (held_by_view t o' s)) (length (mem s)) = Some (Some o')) by (unfold held_by_view, new_st; simpl; rewrite nth_error_app2, Nat.sub_diag by auto; reflexivity).
  split; [|split; [|split]].
  - apply declare_gives; auto. rewrite (eval_view _ k sh d s _ V eq_refl). rewrite (bind_ok _ _ _ _ _ _ _ E). unfold temp, push_s, held_by_view, new_st. simpl. reflexivity.
  - unfold one_more, push_s, held_by_view, new_st. simpl. split; [reflexivity|]. split; [rewrite app_length; simpl; lia|].
    intros i L. rewrite nth_error_app1; auto.
  - apply (view_obj_at _ _ _ _ _ o'); auto. rewrite Z2Nat.id by auto. auto.
  - intros i L. rewrite <- holders_bump by (rewrite (rc_of _ _ _ I); apply nth_error_Some; congruence).
    unfold holders, push_s, held_by_view, new_st. cbn [rc]. rewrite app_nth1; auto. simpl. rewrite sn_length, (rc_of _ _ _ I). auto.
Qed.
(** What does not fit is refused; so is a shape without dimensions, and a view of a number. *)
Theorem C137_too_large : forall s k l t off sh0 ty cs n sh d, reachable s -> variable s k (MPtr l) -> shaped s l t off sh0 -> in_int (elements sh0) = true ->
  storage s t ty cs -> ty <> TVar -> size_at s t n -> sh <> [] -> small (S (2 * length sh)) -> countable sh (Z.of_nat off + d) ->
  (Z.of_nat n < elements sh + (Z.of_nat off + d))%Z -> exec (SDecl (EView (EVar k) sh d)) s = RThrow "View::setStrides(): Array too small for view" s.
Proof.
  intros s k l t off sh0 ty cs n sh d R V Sh B St Ty (ot' & Ot' & Sz) Ns Sm C Fit. destruct (shaped_has _ _ _ _ _ Sh B) as [o Ho]. destruct St as (ot & Ot & Vt & Tt & Cs).
  assert (ot' = ot) by congruence. subst ot'.
  pose proof (view_makes s k l t off sh0 sh d o ot V Ho Ot) as M. rewrite Tt in M. specialize (M ltac:(destruct ty; simpl; congruence) Vt Ns Sm C).
  destruct (Z.ltb_spec (Z.of_nat (h_size ot)) (elements sh + (Z.of_nat off + d))); [|lia].
  apply decl_throws. rewrite (eval_view _ k sh d s _ V eq_refl). unfold bind. rewrite M. reflexivity.
Qed.
Theorem C137_no_dimension : forall s k l t off sh0 ty cs d, reachable s -> variable s k (MPtr l) -> shaped s l t off sh0 -> in_int (elements sh0) = true ->
  storage s t ty cs -> ty <> TVar -> exec (SDecl (EView (EVar k) [] d)) s = RThrow "View::setStrides(): view must have dim > 0" s.
Proof.
  intros s k l t off sh0 ty cs d R V Sh B St Ty. destruct (shaped_has _ _ _ _ _ Sh B) as (o & O & _ & _ & _ & _ & Hv). destruct St as (ot & Ot & Vt & Tt & Cs).
  assert (Oo : obj l s = Some o) by (unfold obj; rewrite O; reflexivity). assert (Oot : obj t s = Some ot) by (unfold obj; rewrite Ot; reflexivity).
  apply decl_throws. rewrite (eval_view _ k [] d s _ V eq_refl). unfold bind at 1. unfold view.
  rewrite (bind_ok _ _ _ _ _ _ _ (ptr_heap s (LS k) l V)). rewrite (bind_ok _ _ _ _ _ _ _ (get_obj_eq _ _ _ Oo)).
  rewrite (bind_ok _ _ _ _ s (t, Z.of_nat off) s).
  - cbv beta iota. rewrite (bind_ok _ _ _ _ _ _ _ (get_obj_eq _ _ _ Oot)). rewrite Tt, Vt. destruct ty; try congruence; reflexivity.
  - destruct (h_view o) as [u|].
    + destruct Hv as (-> & _ & De). rewrite (bind_ok _ _ _ _ s (Z.of_nat off) s); [reflexivity|]. eapply own_desc; [exact De|reflexivity].
    + destruct Hv as (-> & -> & _). reflexivity.
Qed.
Theorem C137_of_number : forall s k x sh d, reachable s -> variable s k x -> x = MNil \/ (exists v, x = MNum v) ->
  exec (SDecl (EView (EVar k) sh d)) s = RThrow "var::view: Input not an array" s.
Proof.
  intros s k x sh d R V X. apply decl_throws. rewrite (eval_view _ k sh d s _ V eq_refl). unfold bind at 1. unfold view.
  rewrite (bind_ok _ _ _ _ s None s); [reflexivity|]. destruct X as [->|[v ->]]; unfold heap_of; rewrite (bind_ok _ _ _ _ _ _ _ (get_eq (LS k) _ _ V)); reflexivity.
Qed.

(** * Moving a view *)
Lemma exec_stmt_ok : forall st (g : lval -> M unit) j s w s1, exec st s = finish (length (stk s)) (let! v := eval (length (stk s)) (EVar j) in g v) s -> variable s j w ->
  g (LS j) s = ROk tt s1 -> stk s1 = stk s -> exec st s = ROk tt s1.
Proof.
  intros st g j s w s1 E V G St. rewrite E. unfold finish. rewrite (bind_ok _ _ _ _ _ _ _ (eval_var s j _ _ V eq_refl s)). rewrite G, <- St. apply MemViewProps.leave_none.
Qed.
Lemma exec_stmt_throw : forall st (g : lval -> M unit) j s w m, exec st s = finish (length (stk s)) (let! v := eval (length (stk s)) (EVar j) in g v) s -> variable s j w ->
  g (LS j) s = RThrow m s -> exec st s = RThrow m s.
Proof.
  intros st g j s w m E V G. rewrite E. unfold finish. rewrite (bind_ok _ _ _ _ _ _ _ (eval_var s j _ _ V eq_refl s)). rewrite G. unfold bind. rewrite MemViewProps.leave_none. reflexivity.
Qed.
Definition moved (o : hobj) (n : Z) : hobj := set_cells o (set_nth (h_cells o) 0 (MNil, MNum (VInt n))).
Lemma offset_step : forall s j l t off sh n d, variable s j (MPtr l) -> view_at s l t off sh -> in_int (elements sh) = true -> size_at s t n -> in_int (d + elements sh) = true ->
  exists o, nth_error (mem s) l = Some (Some o) /\ h_view o = Some t /\
  set_offset (LS j) d s = if (Z.of_nat n <? d + elements sh)%Z then RThrow "View::offset(): offset too large" s else ROk tt (with_obj l (moved o d) s).
Proof.
  intros s j l t off sh n d V [Ns (o & O & Vw & Sz & De)] B (ot & Ot & Zt) Bd. exists o. split; auto. split; auto.
  assert (Oo : obj l s = Some o) by (unfold obj; rewrite O; reflexivity). assert (Oot : obj t s = Some ot) by (unfold obj; rewrite Ot; reflexivity).
  unfold set_offset. rewrite (bind_ok _ _ _ _ _ _ _ (ptr_heap s (LS j) l V)). rewrite (bind_ok _ _ _ _ _ _ _ (get_obj_eq _ _ _ Oo)). rewrite Vw.
  rewrite (bind_ok _ _ _ _ _ _ _ (get_obj_eq _ _ _ Oot)). rewrite (bind_ok _ _ _ _ _ _ _ (view_size o t off sh s Vw De Sz Ns B)). rewrite Bd, Zt. cbn [negb].
  destruct (Z.of_nat n <? d + elements sh)%Z; [reflexivity|]. destruct (De 0 _ eq_refl) as [c Hc]. rewrite Hc. reflexivity.
Qed.
Lemma offset_reads : forall s j l t off sh, variable s j (MPtr l) -> view_at s l t off sh -> offset_of (LS j) s = ROk (Z.of_nat off) s.
Proof.
  intros s j l t off sh V [Ns (o & O & Vw & Sz & De)]. assert (Oo : obj l s = Some o) by (unfold obj; rewrite O; reflexivity).
  unfold offset_of. rewrite (bind_ok _ _ _ _ _ _ _ (ptr_heap s (LS j) l V)). rewrite (bind_ok _ _ _ _ _ _ _ (get_obj_eq _ _ _ Oo)). rewrite Vw. eapply own_desc; [exact De|reflexivity].
Qed.
Lemma moved_view : forall s l t off sh o d, view_at s l t off sh -> nth_error (mem s) l = Some (Some o) -> (0 <= d)%Z -> view_at (with_obj l (moved o d) s) l t (Z.to_nat d) sh.
Proof.
  intros s l t off sh o d [Ns (o1 & O1 & Vw & Sz & De)] O P. assert (o1 = o) by congruence. subst o1. split; auto. exists (moved o d).
  assert (L : l < length (mem s)) by (apply nth_error_Some; congruence). split; [unfold with_obj; simpl; apply sn_same; auto|]. split; [exact Vw|]. split; [exact Sz|].
  intros [|i] z N.
  - simpl in N. inversion N. rewrite Z2Nat.id by auto. exists MNil. unfold moved. cbn [h_cells set_cells]. apply sn_same. destruct (De 0 _ eq_refl) as [c Hc]. apply nth_error_Some. congruence.
  - destruct (De (S i) z N) as [c Hc]. exists c. unfold moved. cbn [h_cells set_cells]. rewrite sn_other by lia. exact Hc.
Qed.
Lemma moved_first : forall s l o d, nth_error (mem s) l = Some (Some o) -> only_first l s (with_obj l (moved o d) s).
Proof.
  intros s l o d O. assert (L : l < length (mem s)) by (apply nth_error_Some; congruence). split; [reflexivity|]. split; [reflexivity|]. split; [simpl; apply sn_length|]. split.
  - intros k N. simpl. apply sn_other. auto.
  - intros o1 O1. assert (o1 = o) by congruence. subst o1. exists (moved o d). split; [simpl; apply sn_same; auto|]. cbn. repeat (split; [reflexivity|]). destruct (h_cells o); reflexivity.
Qed.

(** Setting the offset of a view moves that view, whatever its offset was, and nothing else: not the
    elements, and no other view of the same storage.  A place at which it would end
    beyond the array is refused. *)
Theorem C138_offset : forall s j l t off sh n d, reachable s -> variable s j (MPtr l) -> view_at s l t off sh -> in_int (elements sh) = true -> size_at s t n ->
  in_int (d + elements sh) = true -> (0 <= d)%Z -> (d + elements sh <= Z.of_nat n)%Z ->
  exists s', exec (SOffset (EVar j) d) s = ROk tt s' /\ view_at s' l t (Z.to_nat d) sh /\ only_first l s s'.
Proof.
  intros s j l t off sh n d R V Vw B Sz Bd P Fit. destruct (offset_step s j l t off sh n d V Vw B Sz Bd) as (o & O & _ & E).
  destruct (Z.ltb_spec (Z.of_nat n) (d + elements sh)); [lia|]. exists (with_obj l (moved o d) s).
  split; [eapply (exec_stmt_ok (SOffset (EVar j) d) (fun v => set_offset v d)); eauto; reflexivity|]. split; [eapply moved_view; eauto|apply moved_first; auto].
Qed.
Theorem C138_too_far : forall s j l t off sh n d, reachable s -> variable s j (MPtr l) -> view_at s l t off sh -> in_int (elements sh) = true -> size_at s t n ->
  in_int (d + elements sh) = true -> (Z.of_nat n < d + elements sh)%Z -> exec (SOffset (EVar j) d) s = RThrow "View::offset(): offset too large" s.
Proof.
  intros s j l t off sh n d R V Vw B Sz Bd Fit. destruct (offset_step s j l t off sh n d V Vw B Sz Bd) as (o & O & _ & E).
  destruct (Z.ltb_spec (Z.of_nat n) (d + elements sh)); [|lia]. eapply (exec_stmt_throw (SOffset (EVar j) d) (fun v => set_offset v d)); eauto. reflexivity.
Qed.
(** [advance] moves it by that many elements, back if negative. *)
Theorem C138_advance : forall s j l t off sh n d, reachable s -> variable s j (MPtr l) -> view_at s l t off sh -> in_int (elements sh) = true -> size_at s t n ->
  in_int (Z.of_nat off + d) = true -> in_int (Z.of_nat off + d + elements sh) = true -> (0 <= Z.of_nat off + d)%Z -> (Z.of_nat off + d + elements sh <= Z.of_nat n)%Z ->
  exists s', exec (SAdvance (EVar j) d) s = ROk tt s' /\ view_at s' l t (Z.to_nat (Z.of_nat off + d)) sh /\ only_first l s s'.
Proof.
  intros s j l t off sh n d R V Vw B Sz Ba Bd P Fit. destruct (offset_step s j l t off sh n (Z.of_nat off + d) V Vw B Sz Bd) as (o & O & _ & E).
  destruct (Z.ltb_spec (Z.of_nat n) (Z.of_nat off + d + elements sh)); [lia|]. exists (with_obj l (moved o (Z.of_nat off + d)) s).
  split; [|split; [eapply moved_view; eauto|apply moved_first; auto]]. eapply (exec_stmt_ok (SAdvance (EVar j) d) (fun v => advance v d)); [reflexivity|exact V| |reflexivity].
  unfold advance. rewrite (bind_ok _ _ _ _ _ _ _ (offset_reads s j l t off sh V Vw)). rewrite Ba. exact E.
Qed.
Theorem C138_advance_too_far : forall s j l t off sh n d, reachable s -> variable s j (MPtr l) -> view_at s l t off sh -> in_int (elements sh) = true -> size_at s t n ->
  in_int (Z.of_nat off + d) = true -> in_int (Z.of_nat off + d + elements sh) = true -> (Z.of_nat n < Z.of_nat off + d + elements sh)%Z ->
  exec (SAdvance (EVar j) d) s = RThrow "View::offset(): offset too large" s.
Proof.
  intros s j l t off sh n d R V Vw B Sz Ba Bd Fit. destruct (offset_step s j l t off sh n (Z.of_nat off + d) V Vw B Sz Bd) as (o & O & _ & E).
  destruct (Z.ltb_spec (Z.of_nat n) (Z.of_nat off + d + elements sh)); [|lia]. eapply (exec_stmt_throw (SAdvance (EVar j) d) (fun v => advance v d)); [reflexivity|exact V|].
  unfold advance. rewrite (bind_ok _ _ _ _ _ _ _ (offset_reads s j l t off sh V Vw)). rewrite Ba. exact E.
Qed.
(** What is not a view cannot be moved. *)
Theorem C138_not_a_view : forall s j x d, reachable s -> variable s j x -> x = MNil \/ (exists v, x = MNum v) \/ (exists l t xs, x = MPtr l /\ array_at s l t xs) ->
  exec (SOffset (EVar j) d) s = RThrow "var::offset(): not a view" s /\ (in_int d = true -> exec (SAdvance (EVar j) d) s = RThrow "var::offset(): not a view" s).
Proof.
  intros s j x d R V X.
  assert (Both : offset_of (LS j) s = ROk 0%Z s /\ forall n, set_offset (LS j) n s = RThrow "var::offset(): not a view" s).
  { destruct X as [->|[[v ->]|(l & t & xs & -> & o & O & Vw & _)]].
    - assert (H : heap_of (LS j) s = ROk None s) by (unfold heap_of; rewrite (bind_ok _ _ _ _ _ _ _ (get_eq (LS j) _ _ V)); reflexivity).
      split; [unfold offset_of|intros n; unfold set_offset]; rewrite (bind_ok _ _ _ _ _ _ _ H); reflexivity.
    - assert (H : heap_of (LS j) s = ROk None s) by (unfold heap_of; rewrite (bind_ok _ _ _ _ _ _ _ (get_eq (LS j) _ _ V)); reflexivity).
      split; [unfold offset_of|intros n; unfold set_offset]; rewrite (bind_ok _ _ _ _ _ _ _ H); reflexivity.
    - assert (Oo : obj l s = Some o) by (unfold obj; rewrite O; reflexivity).
      split; [unfold offset_of|intros n; unfold set_offset]; rewrite (bind_ok _ _ _ _ _ _ _ (ptr_heap s (LS j) l V)); rewrite (bind_ok _ _ _ _ _ _ _ (get_obj_eq _ _ _ Oo)); rewrite Vw; reflexivity. }
  destruct Both as [A S]. split; [eapply (exec_stmt_throw (SOffset (EVar j) d) (fun v => set_offset v d)); eauto; reflexivity|].
  intros B. eapply (exec_stmt_throw (SAdvance (EVar j) d) (fun v => advance v d)); [reflexivity|exact V|]. unfold advance. rewrite (bind_ok _ _ _ _ _ _ _ A). rewrite Z.add_0_l, B. apply S.
Qed.

(** * A new array and its view *)
Lemma elements_app : forall a b, elements (a ++ b) = (elements a * elements b)%Z.
Proof. induction a as [|d a IH]; intros b; cbn [elements app]; [destruct (elements b); reflexivity|]. rewrite IH, Z.mul_assoc. reflexivity. Qed.
Lemma count_gives : forall sh p s, (forall n, in_int (p * elements (firstn n sh)) = true) -> count_cells sh p s = ROk (p * elements sh)%Z s.
Proof.
  induction sh as [|d sh IH]; intros p s B; cbn [count_cells elements]; [rewrite Z.mul_1_r; reflexivity|].
  pose proof (B 1) as B1. cbn [firstn elements] in B1. rewrite Z.mul_1_r in B1. rewrite B1. rewrite IH.
  - rewrite Z.mul_assoc. reflexivity.
  - intros n. specialize (B (S n)). cbn [firstn elements] in B. rewrite Z.mul_assoc in B. exact B.
Qed.
Definition more (ms : list (option hobj)) (s : state) : state := {| mem := mem s ++ ms; rc := rc s; stk := stk s |}.
Lemma nonneg_in : forall z, (0 <= z < 2 ^ 30)%Z -> in_int z = true.
Proof. intros z [A B]. unfold in_int. apply andb_true_iff. split; apply Z.leb_le; unfold INT_MIN, INT_MAX; lia. Qed.
(** The number the new array begins with. *)
Definition number_for (x : mvar) : mvar := match x with MNil => MNum (VFloat (S754_zero false)) | _ => x end.
Lemma number_for_scalar : forall x, scalar x -> exists v, number_for x = MNum v /\ number v = true.
Proof. intros x [->|(v & -> & N)]; [exists (VFloat (S754_zero false))|exists v]; auto. Qed.
Lemma new_view_scalar : forall e s q x v sh, INV e [] s -> nth_error (stk s) q = Some x -> scalar x -> number_for x = MNum v -> sh <> [] -> small (S (2 * length sh)) ->
  (forall n, in_int (elements (firstn n sh)) = true) -> (forall n, in_int (elements (skipn n sh)) = true) -> (0 <= elements sh < 2 ^ 30)%Z ->
  exists s2 o o1 ov, new_view sh (LS q) s = ROk (MPtr (S (length (mem s)))) s2 /\ INV e [MPtr (S (length (mem s)))] s2 /\
    shrunk (more [Some o1; Some ov] s) s2 /\ newly (HE (ety_of v)) 1 o /\ grown (Z.to_nat (elements sh)) (set_val o 0 (MNum v)) o1 /\ view_obj (length (mem s)) 0 sh ov.
Proof.
  intros e s q x v sh I N Sc Nf Ns Sm Bf Bs Rg. pose proof (INV_sound _ _ _ I) as Sd. set (l := length (mem s)).
  assert (Nv : number v = true) by (destruct (number_for_scalar x Sc) as (w & W1 & W2); congruence).
  assert (Scv : scalar (MNum v)) by (right; eauto).
  set (sa := push_s (MNum v) s). assert (Ia : INV e [] sa) by (apply INV_push; apply (INV_bump e [] s (MNum v) I); intros k K; inversion K).
  assert (Na : nth_error (stk sa) (length (stk s)) = Some (MNum v)) by (unfold sa; simpl; rewrite nth_error_app2, Nat.sub_diag by auto; reflexivity).
  destruct (become_array_gives e sa (length (stk s)) (MNum v) 1 Ia Na Scv) as (o & s1 & E1 & I1 & Sh1 & Nw); [lia|lia|]. change (length (mem sa)) with l in *.
  assert (Lq : length (stk s) < length (stk sa)) by (eapply ne_lt; eauto).
  destruct (upd_obj e [] _ l (set_val o 0 (MNum v)) sa s1 Lq eq_refl Sh1 I1) as [N1 O1].
  destruct (resize_became e [] s1 (length (stk s)) l (Z.to_nat (elements sh)) _ I1 N1 O1) as (o1 & s2 & E2 & -> & I2 & B2 & G); [rewrite Z2Nat.id; lia|].
  rewrite Z2Nat.id in E2 by lia.
  assert (N2 : nth_error (stk (set_mem l o1 s1)) (length (stk s)) = Some (MPtr l)) by exact N1.
  assert (Ll : l < length (mem s1)) by (eapply obj_lt; eauto).
  assert (M2 : nth_error (mem (set_mem l o1 s1)) l = Some (Some o1)) by (simpl; apply sn_same; auto).
  destruct Nw as (T & Nw). destruct G as (Gt & Gv & Gs & G).
  assert (Al : h_view (set_val o 0 (MNum v)) = h_view o /\ h_ty (set_val o 0 (MNum v)) = h_ty o) by (unfold set_val; destruct (nth_error (h_cells o) 0) as [[]|]; auto).
  assert (Vo : h_view o1 = None) by (rewrite Gv, (proj1 Al); exact (proj1 (proj2 Nw))). assert (To : h_ty o1 = HE (ety_of v)) by (rewrite Gt, (proj2 Al); exact T).
  assert (Sho : shaped (set_mem l o1 s1) l l 0 [Z.of_nat (h_size o1)]) by (right; split; [reflexivity|]; split; [reflexivity|]; exists o1; auto).
  destruct (shaped_has _ _ _ _ _ Sho) as [o1' Ho]; [rewrite Gs, Z2Nat.id by lia; apply nonneg_in; simpl; lia|]. pose proof (proj1 Ho) as O1'. assert (o1' = o1) by congruence. subst o1'.
  pose proof (view_makes _ _ _ _ _ _ sh 0 o1 o1 N2 Ho M2) as Mk. rewrite To in Mk.
  specialize (Mk ltac:(destruct v; try discriminate; reflexivity) Vo Ns Sm). rewrite Gs, Z2Nat.id, !Z.add_0_r in Mk by lia.
  assert (Lm1 : length (mem s1) = S l) by (destruct Sh1 as (_ & -> & _); simpl; rewrite app_length; simpl; unfold l; lia).
  assert (Ct : countable sh 0) by (split; [exact Bs|split; [reflexivity|rewrite Z.add_0_r; apply nonneg_in; lia]]). specialize (Mk Ct). rewrite Z.ltb_irrefl in Mk.
  destruct Mk as (ov & E3 & Vv). simpl Z.of_nat in Vv.
  replace (length (mem (set_mem l o1 s1))) with (S l) in E3 by (simpl; rewrite sn_length; auto).
  pose proof (MemMore.view_post False MemTop.full e [] (set_mem l o1 s1) (length (stk s)) sh 0 I2) as P3. rewrite E3 in P3. destruct P3 as (I3 & _).
  destruct (scoped_gives mvar (MNum v) (fun v => array v ;; own_var v (resize v (elements sh)) ;; view v sh 0) e [MPtr (S l)] s (MPtr (S l)) (held_by_view l ov (set_mem l o1 s1)) (MPtr l) (more [Some o1; Some ov] s)) as (s2 & E4 & I4 & Sh4).
  - fold sa. rewrite (bind_ok _ _ _ _ sa tt s1).
    + rewrite (bind_ok _ _ _ _ s1 tt (set_mem l o1 s1)); [exact E3|]. unfold own_var. rewrite (bind_ok _ _ _ _ _ _ _ (get_eq (LS (length (stk s))) _ _ N1)). exact E2.
    + unfold array. rewrite (bind_ok _ _ _ _ _ _ _ (deref_nonref (LS (length (stk s))) _ _ Na (scalar_nonref _ Scv))). rewrite (bind_ok _ _ _ _ _ _ _ (scalar_heap sa _ _ Na Scv)). exact E1.
  - exact I3.
  - destruct Sh1 as (St1 & _ & Ob1). unfold shrunk, obj in *. simpl in *. split; [|split].
    + rewrite St1. simpl. rewrite sn_app2. reflexivity.
    + rewrite !app_length, sn_length, Lm1. simpl. unfold l. lia.
    + intros k ok Ok. destruct (Nat.lt_ge_cases k (length (set_nth (mem s1) l (Some o1)))) as [L|L].
      * rewrite nth_error_app1 in Ok by auto. rewrite sn_length, Lm1 in L. destruct (Nat.eq_dec k l) as [->|Nk].
        -- rewrite sn_same in Ok by auto. unfold l in *. rewrite nth_error_app2, Nat.sub_diag by auto. exact Ok.
        -- rewrite sn_other in Ok by auto. apply Ob1 in Ok. assert (k < l) by lia. rewrite nth_error_app1 in * by auto. exact Ok.
      * rewrite nth_error_app2 in Ok by auto. rewrite sn_length, Lm1 in *. assert (k = S l \/ S l < k) as [->|K] by lia.
        -- rewrite Nat.sub_diag in Ok. rewrite nth_error_app2 by (fold l; lia). fold l. replace (S l - l) with 1 by lia. exact Ok.
        -- destruct (k - S l) as [|m] eqn:Em; [lia|]. simpl in Ok. destruct m; discriminate.
  - reflexivity.
  - exists s2, o, o1, ov. split; [|split; [exact I4|split; [exact Sh4|]]].
    + unfold new_view. rewrite (bind_ok _ _ _ _ s (elements sh) s) by (rewrite (count_gives sh 1 s); [rewrite Z.mul_1_l; reflexivity|intros n; rewrite Z.mul_1_l; auto]).
      rewrite (bind_ok _ _ _ _ _ _ _ (scalar_defined s q x N Sc)). rewrite (bind_ok _ _ _ _ s (MNum v) s); [exact E4|].
      destruct Sc as [->|(w & -> & Nw')]; [simpl in Nf; inversion Nf; reflexivity|]. simpl in Nf. inversion Nf; subst w. change (copy_of (LS q) s = ROk (MNum v) s). exact (copy_of_eq (LS q) s _ Sd N).
    + split; [exact (conj T Nw)|]. split; [exact (conj Gt (conj Gv (conj Gs G)))|exact Vv].
Qed.
Lemma junk_cells : forall o v, newly (HE (ety_of v)) 1 o -> number v = true -> ety_of v <> TChar -> exists m, map snd (h_cells (set_val o 0 (MNum v))) = MNum v :: repeat MJunk m.
Proof.
  intros o v (T & _ & _ & L & Hv & _) Nv Nc. assert (C : is_char (HE (ety_of v)) = false) by (destruct v; simpl in *; congruence).
  assert (Fr : snd (fresh (HE (ety_of v))) = MJunk) by (destruct v; try discriminate; reflexivity).
  rewrite C in *. unfold val_at in Hv. unfold set_val. destruct (h_cells o) as [|[k x] cs] eqn:Ec; [simpl in L; lia|]. simpl. exists (length cs). f_equal.
  assert (A : forall i c, nth_error cs i = Some c -> snd c = MJunk).
  { intros i c N. specialize (Hv (S i) (snd c)). simpl in Hv. rewrite N in Hv. destruct (Hv eq_refl) as [E|[E _]]; [congruence|discriminate]. }
  clear - A. induction cs as [|c cs IH]; [reflexivity|]. simpl. f_equal; [apply (A 0 c eq_refl)|]. apply IH. intros i d N. apply (A (S i) d N).
Qed.
Lemma eval_new : forall e s f x sh, INV e [] s -> operand s f x -> scalar x ->
  exists q s1, INV e [] s1 /\ temps s s1 /\ nth_error (stk s1) q = Some x /\ INV e [] (push_s x s1) /\
  eval (length (stk s)) (ENew sh f) s = (let! r := scoped x (fun q => new_view sh q) in temp r) s1.
Proof.
  intros e s f x sh I O Sc. destruct (operand_gives e s s f x I (temps_refl s) O) as (q & s1 & E & I1 & T & _ & N). exists q, s1. split; auto. split; auto. split; auto. split.
  - apply INV_push. assert (H : held x s1) by (apply (getv_held (LS q)); [eauto|exact N]). pose proof (INV_bump e [] s1 x I1 H) as P. rewrite scalar_bump in P by auto. exact P.
  - change (eval (length (stk s)) (ENew sh f)) with (let! p := eval (length (stk s)) f in let! y := copy_of p in let! x := scoped y (fun q => new_view sh q) in temp x).
    rewrite (bind_ok _ _ _ _ _ _ _ E). rewrite (bind_ok _ _ _ _ _ _ _ (copy_of_eq (LS q) s1 x (INV_sound _ _ _ I1) N)). rewrite scalar_bump by auto. reflexivity.
Qed.

(** [view(shape, x)] of a number makes an array of that type with as many elements as the shape has,
    of which the first is the number and the others are not initialised, and returns a view of all
    of it. *)
Theorem C139_of_number : forall s f x v sh, reachable s -> operand s f x -> begins x v -> ety_of v <> TChar -> sh <> [] -> small (S (2 * length sh)) ->
  (forall n, in_int (elements (firstn n sh)) = true) -> (forall n, in_int (elements (skipn n sh)) = true) -> (0 <= elements sh < 2 ^ 30)%Z ->
  exists s' m, exec (SDecl (ENew sh f)) s = ROk tt s' /\ two_more s s' /\ view_at s' (S (length (mem s))) (length (mem s)) 0 sh /\
    size_at s' (length (mem s)) (Z.to_nat (elements sh)) /\ storage s' (length (mem s)) (ety_of v) (MNum v :: repeat MJunk m) /\ (elements sh <= 1 + Z.of_nat m)%Z.
Proof.
  intros s f x v sh R O Bg Nc Ns Sm Bf Bs Rg. destruct (reachable_INV s R) as [e I].
  assert (Sc : scalar x /\ number_for x = MNum v).
  { inversion Bg; subst; split; try reflexivity; [|left; reflexivity]. right. exists v. split; auto. apply (reachable_number s f (MNum v) v); auto. reflexivity. }
  destruct Sc as [Sc Nf]. assert (Nv : number v = true) by (destruct (number_for_scalar x Sc) as (w & W1 & W2); congruence).
  destruct (eval_new e s f x sh I O Sc) as (q & s1 & I1 & T1 & N1 & I2 & E1). set (l := length (mem s)).
  assert (M1 : length (mem s1) = l) by (destruct T1 as [-> _]; reflexivity).
  destruct (new_view_scalar e (push_s x s1) (length (stk s1)) x v sh I2) as (s2 & o & o1 & ov & E2 & I3 & Sh2 & Nw & G & Vv); auto; [simpl; rewrite nth_error_app2, Nat.sub_diag by auto; reflexivity|].
  simpl mem in *. rewrite M1 in *.
  destruct (scoped_gives mvar x (fun q => new_view sh q) e [MPtr (S l)] s1 (MPtr (S l)) s2 x (more [Some o1; Some ov] s1)) as (s3 & E3 & I4 & Sh3); auto.
  set (s0 := push_s MNil s1).
  destruct (MemInit.keep_gives e s (let! v := eval (length (stk s)) (ENew sh f) in take v) s0 (push_s (MPtr (S l)) s3) (length (stk s1)) (MPtr (S l)) [Some o1; Some ov]) as (s' & E4 & I5 & Sh4).
  - rewrite (bind_ok _ _ _ _ s (LS (length (stk s1))) (push_s (MPtr (S l)) s3)).
    + assert (Lr : nth_error (stk (push_s (MPtr (S l)) s3)) (length (stk s1)) = Some (MPtr (S l))) by (destruct Sh3 as (St & _); simpl in *; rewrite St, nth_error_app2, Nat.sub_diag by auto; reflexivity).
      unfold take. rewrite (bind_ok _ _ _ _ _ _ _ (get_eq (LS (length (stk s1))) _ _ Lr)).
      rewrite (bind_ok _ _ _ _ _ _ _ (put_eq (LS (length (stk s1))) _ _ MNil Lr)). reflexivity.
    + rewrite E1. rewrite (bind_ok _ _ _ _ _ _ _ E3). unfold temp. destruct Sh3 as (St & _). simpl in St. rewrite St. unfold push_s. rewrite St. reflexivity.
  - apply INV_push. exact I4.
  - destruct T1 as [Mm [ws W]]. split; [exact Mm|]. exists (ws ++ [MNil]). unfold s0. simpl. rewrite W, app_assoc. reflexivity.
  - destruct T1 as [_ [ws W]]. rewrite W, app_length. lia.
  - unfold s0. simpl. rewrite app_length. simpl. lia.
  - unfold s0. destruct Sh3 as (St & Lm & Ob). unfold shrunk, obj in *. simpl in *. split; [rewrite sn_app2, St; reflexivity|]. split; [exact Lm|exact Ob].
  - destruct (junk_cells o v Nw Nv Nc) as [m Jm].
    destruct G as (Gt & Gv & Gs & Gl & kk & Gc). destruct Nw as (T & _ & Vo & _).
    assert (Al : h_view (set_val o 0 (MNum v)) = h_view o /\ h_ty (set_val o 0 (MNum v)) = h_ty o) by (unfold set_val; destruct (nth_error (h_cells o) 0) as [[]|]; auto).
    rewrite (proj2 Al), T in *. rewrite (proj1 Al), Vo in *.
    destruct Sh4 as (St & Lm & Ob). simpl in St, Lm, Ob.
    assert (Ov : obj (S l) s' = Some ov).
    { eapply (shrunk_obj e [] (MemInit.adds (MPtr (S l)) [Some o1; Some ov] s) s' (length (stk s)) (MPtr (S l))); [unfold shrunk; simpl; auto|exact I5|simpl; rewrite nth_error_app2, Nat.sub_diag by auto; reflexivity|reflexivity|].
      unfold obj, adds. cbn [mem]. rewrite nth_error_app2 by (fold l; lia). fold l. replace (S l - l) with 1 by lia. reflexivity. }
    assert (Oo : obj l s' = Some o1).
    { destruct (view_live s' (S l) ov l (INV_sound _ _ _ I5) Ov) as [o2 O2]; [apply Vv|]. assert (O2' : obj l s' = Some o2) by (unfold obj; rewrite O2; reflexivity). rewrite O2'.
      apply Ob in O2'. unfold obj in O2'. simpl in O2'. rewrite nth_error_app2 in O2' by (fold l; lia). fold l in O2'. rewrite Nat.sub_diag in O2'. simpl in O2'. congruence. }
    assert (Fr : fresh (HE (ety_of v)) = (MNil, MJunk)) by (destruct v; try discriminate; reflexivity).
    assert (C : is_char (HE (ety_of v)) = false) by (destruct v; simpl in *; congruence).
    exists s', (m + kk). split; [exact E4|]. split; [|split; [|split; [|split]]].
    + split; [exact St|]. split; [rewrite Lm, app_length; simpl; fold l; lia|]. intros k ok L Ok. assert (Ok' : obj k s' = Some ok) by (unfold obj; rewrite Ok; reflexivity).
      apply Ob in Ok'. unfold obj in Ok'. simpl in Ok'. rewrite nth_error_app1 in Ok' by auto. destruct (nth_error (mem s) k) as [[y|]|]; congruence.
    + apply (view_obj_at _ _ _ _ _ ov); auto. apply obj_live; auto.
    + exists o1. split; [apply obj_live; auto|exact Gs].
    + exists o1. split; [apply obj_live; auto|]. split; [exact Gv|]. split; [exact Gt|]. rewrite Gc. unfold terminate. rewrite C, map_app, Jm, Fr. simpl. f_equal.
      rewrite repeat_app. f_equal. clear. induction kk; simpl; congruence.
    + rewrite C in Gl. rewrite Gc in Gl. unfold terminate in Gl. rewrite C, app_length, repeat_length in Gl. rewrite <- (map_length snd (h_cells (set_val _ _ _))), Jm in Gl. simpl in Gl. rewrite repeat_length in Gl. lia.
Qed.
Lemma more_set : forall ms l o v s, more ms (set_mem l o (bump v s)) = {| mem := set_nth (mem s) l (Some o) ++ ms; rc := rc (bump v s); stk := stk s |}.
Proof. intros. unfold more, set_mem. simpl. rewrite bump_mem, bump_stk. reflexivity. Qed.
Lemma new_view_array : forall e s q l o sh, INV e [] s -> nth_error (stk s) q = Some (MPtr l) -> obj l s = Some o -> h_view o = None -> varlike (h_ty o) = false ->
  sh <> [] -> small (S (2 * length sh)) ->
  (forall n, in_int (elements (firstn n sh)) = true) -> (forall n, in_int (elements (skipn n sh)) = true) -> (0 <= elements sh < 2 ^ 30)%Z ->
  exists s2 o1 ov, new_view sh (LS q) s = ROk (MPtr (length (mem s))) s2 /\ INV e [MPtr (length (mem s))] s2 /\
    shrunk (more [Some ov] (set_mem l o1 s)) s2 /\ grown (Z.to_nat (elements sh)) o o1 /\ view_obj l 0 sh ov.
Proof.
  intros e s q l o sh I N O Vo Vl Ns Sm Bf Bs Rg. pose proof (INV_sound _ _ _ I) as Sd.
  assert (H : held (MPtr l) s) by (apply (getv_held (LS q)); auto).
  set (sa := push_s (MPtr l) (bump (MPtr l) s)). assert (Ia : INV e [] sa) by (apply INV_push, INV_bump; auto).
  assert (Lb : length (stk (bump (MPtr l) s)) = length (stk s)) by (rewrite bump_stk; reflexivity).
  assert (Na : nth_error (stk sa) (length (stk s)) = Some (MPtr l)) by (unfold sa; simpl; rewrite nth_error_app2, Nat.sub_diag by auto; reflexivity).
  assert (Oa : obj l sa = Some o) by exact O.
  destruct (resize_became e [] sa (length (stk s)) l (Z.to_nat (elements sh)) o Ia Na Oa) as (o1 & s2 & E2 & -> & I2 & B2 & G); [rewrite Z2Nat.id; lia|].
  rewrite Z2Nat.id in E2 by lia.
  assert (N2 : nth_error (stk (set_mem l o1 sa)) (length (stk s)) = Some (MPtr l)) by exact Na.
  assert (Ll : l < length (mem s)) by (eapply obj_lt; eauto).
  assert (M2 : nth_error (mem (set_mem l o1 sa)) l = Some (Some o1)) by (simpl; apply sn_same; auto).
  pose proof G as (Gt & Gv & Gs & _).
  assert (Vo1 : h_view o1 = None) by (rewrite Gv; exact Vo).
  assert (Sho : shaped (set_mem l o1 sa) l l 0 [Z.of_nat (h_size o1)]) by (right; split; [reflexivity|]; split; [reflexivity|]; exists o1; auto).
  destruct (shaped_has _ _ _ _ _ Sho) as [o1' Ho]; [rewrite Gs, Z2Nat.id by lia; apply nonneg_in; simpl; lia|]. pose proof (proj1 Ho) as O1'. assert (o1' = o1) by congruence. subst o1'.
  pose proof (view_makes _ _ _ _ _ _ sh 0 o1 o1 N2 Ho M2) as Mk. rewrite Gt in Mk.
  specialize (Mk Vl Vo1 Ns Sm). rewrite Gs, Z2Nat.id, !Z.add_0_r in Mk by lia.
  assert (Ct : countable sh 0) by (split; [exact Bs|split; [reflexivity|rewrite Z.add_0_r; apply nonneg_in; lia]]). specialize (Mk Ct). rewrite Z.ltb_irrefl in Mk.
  destruct Mk as (ov & E3 & Vv). simpl Z.of_nat in Vv.
  replace (length (mem (set_mem l o1 sa))) with (length (mem s)) in E3 by (simpl; rewrite sn_length; reflexivity).
  pose proof (view_post False MemTop.full e [] (set_mem l o1 sa) (length (stk s)) sh 0 I2) as P3. rewrite E3 in P3. destruct P3 as (I3 & _).
  destruct (scoped_gives mvar (MPtr l) (fun v => array v ;; own_var v (resize v (elements sh)) ;; view v sh 0) e [MPtr (length (mem s))] (bump (MPtr l) s) (MPtr (length (mem s))) (held_by_view l ov (set_mem l o1 sa)) (MPtr l) (more [Some ov] (set_mem l o1 s))) as (s2 & E4 & I4 & Sh4).
  - fold sa. rewrite Lb. rewrite (bind_ok _ _ _ _ sa tt sa) by (apply (ptr_array sa (LS (length (stk s))) l Na)).
    rewrite (bind_ok _ _ _ _ sa tt (set_mem l o1 sa)); [exact E3|]. unfold own_var. rewrite (bind_ok _ _ _ _ _ _ _ (get_eq (LS (length (stk s))) _ _ Na)). exact E2.
  - exact I3.
  - unfold shrunk, obj. simpl. auto.
  - reflexivity.
  - exists s2, o1, ov. split; [|split; [exact I4|split; [exact Sh4|split; [exact G|exact Vv]]]].
    unfold new_view. rewrite (bind_ok _ _ _ _ s (elements sh) s) by (rewrite (count_gives sh 1 s); [rewrite Z.mul_1_l; reflexivity|intros n; rewrite Z.mul_1_l; auto]).
    rewrite (bind_ok _ _ _ _ s true s) by (unfold defined; rewrite (bind_ok _ _ _ _ _ _ _ (get_eq (LS q) _ _ N)); reflexivity).
    rewrite (bind_ok _ _ _ _ _ _ _ (copy_of_eq (LS q) s _ Sd N)). exact E4.
Qed.
(** Of an array it resizes that very array, under all its names, and views it. *)
Theorem C139_of_array : forall s k l ty xs sh, reachable s -> variable s k (MPtr l) -> array_at s l (HE ty) xs -> ty <> TVar -> sh <> [] -> small (S (2 * length sh)) ->
  (forall n, in_int (elements (firstn n sh)) = true) -> (forall n, in_int (elements (skipn n sh)) = true) -> (0 <= elements sh < 2 ^ 30)%Z ->
  exists s' ys, exec (SDecl (ENew sh (EVar k))) s = ROk tt s' /\ stk s' = stk s ++ [MPtr (length (mem s))] /\ length (mem s') = S (length (mem s)) /\ others l s s' /\
    view_at s' (length (mem s)) l 0 sh /\ array_at s' l (HE ty) ys /\ Z.of_nat (length ys) = elements sh /\
    firstn (Nat.min (length xs) (length ys)) ys = firstn (Nat.min (length xs) (length ys)) xs.
Proof.
  intros s k l ty xs sh R V A Ty Ns Sm Bf Bs Rg. destruct (variable_array s k l _ xs R V A) as (e & o & I & O & Vo & To & So & Lc & Ll & Hc).
  pose proof (INV_sound _ _ _ I) as Sd. assert (H : held (MPtr l) s) by (apply (getv_held (LS k)); auto).
  set (sb := push_s (MPtr l) (bump (MPtr l) s)). assert (Ib : INV e [] sb) by (apply INV_push, INV_bump; auto).
  assert (Lb : length (stk (bump (MPtr l) s)) = length (stk s)) by (rewrite bump_stk; reflexivity).
  assert (Nb : nth_error (stk sb) (length (stk s)) = Some (MPtr l)) by (unfold sb; simpl; rewrite nth_error_app2, Nat.sub_diag by auto; reflexivity).
  destruct (new_view_array e sb (length (stk s)) l o sh Ib Nb O Vo) as (s2 & o1 & ov & E2 & I2 & Sh2 & G & Vv); auto; [rewrite To; destruct ty; simpl; congruence|].
  change (length (mem sb)) with (length (mem s)) in *.
  destruct (scoped_gives mvar (MPtr l) (fun q => new_view sh q) e [MPtr (length (mem s))] (bump (MPtr l) s) (MPtr (length (mem s))) s2 (MPtr l) (more [Some ov] (set_mem l o1 s))) as (s3 & E3 & I3 & Sh3); [fold sb; rewrite Lb; exact E2|exact I2|exact Sh2|reflexivity|].
  destruct Sh3 as (St & Lm & Ob). simpl in St, Lm.
  set (s' := push_s (MPtr (length (mem s))) s3). assert (I4 : INV e [] s') by (apply INV_push; auto).
  assert (Ov : obj (length (mem s)) s' = Some ov).
  { change (obj (length (mem s)) s3 = Some ov). eapply (shrunk_obj_flight e [MPtr (length (mem s))] (more [Some ov] (set_mem l o1 s)) s3 (MPtr (length (mem s)))); [unfold shrunk; simpl; auto|exact I3|left; reflexivity|reflexivity|].
    unfold obj. simpl. rewrite nth_error_app2 by (rewrite sn_length; auto). rewrite sn_length, Nat.sub_diag. reflexivity. }
  assert (Oo : obj l s' = Some o1).
  { destruct (view_live s' _ ov l (INV_sound _ _ _ I4) Ov) as [o2 O2]; [apply Vv|]. assert (O2' : obj l s3 = Some o2) by (unfold obj; simpl in O2; rewrite O2; reflexivity).
    change (obj l s3 = Some o1). rewrite O2'. apply Ob in O2'. unfold obj in O2'. simpl in O2'. rewrite nth_error_app1, sn_same in O2' by (auto; rewrite sn_length; auto). congruence. }
  destruct (grown_array s l o o1 s' xs _ O Vo So Lc Hc G Oo) as (ys & A' & Ln & F). rewrite To in A'. exists s', ys. split; [|split; [|split; [|split; [|split; [|split; [|split]]]]]].
  - apply declare_gives; auto.
    change (eval (length (stk s)) (ENew sh (EVar k))) with (let! p := eval (length (stk s)) (EVar k) in let! y := copy_of p in let! x := scoped y (fun q => new_view sh q) in temp x).
    rewrite (bind_ok _ _ _ _ _ _ _ (eval_var s k _ _ V eq_refl s)). rewrite (bind_ok _ _ _ _ _ _ _ (copy_of_eq (LS k) s _ Sd V)). rewrite (bind_ok _ _ _ _ _ _ _ E3). unfold temp, push_s. rewrite St. reflexivity.
  - unfold s'. simpl. rewrite St. reflexivity.
  - unfold s'. simpl. rewrite Lm, app_length, sn_length. simpl. lia.
  - split; [unfold s'; simpl; rewrite Lm, app_length, sn_length; lia|]. intros i oi Ni Li Oi. assert (Oi' : obj i s3 = Some oi) by (unfold obj; simpl in Oi; rewrite Oi; reflexivity).
    apply Ob in Oi'. unfold obj in Oi'. simpl in Oi'. rewrite nth_error_app1 in Oi' by (rewrite sn_length; auto). rewrite sn_other in Oi' by auto. destruct (nth_error (mem s) i) as [[y|]|]; congruence.
  - apply (view_obj_at _ _ _ _ _ ov); auto. apply obj_live; auto.
  - exact A'.
  - rewrite Ln, Z2Nat.id; lia.
  - rewrite Ln. exact F.
Qed.
(** A negative number of elements fails an assertion. *)
Theorem C139_negative : forall s k x sh, reachable s -> variable s k x -> x = MNil \/ (exists v, x = MNum v) \/ (exists l t xs, x = MPtr l /\ array_at s l t xs) ->
  (forall n, in_int (elements (firstn n sh)) = true) -> (elements sh < 0)%Z -> exec (SDecl (ENew sh (EVar k))) s = RUB AssertFail.
Proof.
  intros s k x sh R V X Bf Ng. destruct (reachable_INV s R) as [e I]. pose proof (INV_sound _ _ _ I) as Sd.
  assert (Sc : scalar x \/ exists l, x = MPtr l) by (destruct X as [->|[[v ->]|(l & t & xs & -> & _)]]; [left; left; auto|left; right; exists v; split; auto; eapply reachable_variable; eauto|eauto]).
  assert (H : held x s) by (apply (getv_held (LS k)); auto).
  set (sb := push_s x (bump x s)). assert (Ib : INV e [] sb) by (apply INV_push, INV_bump; auto). pose proof (INV_sound _ _ _ Ib) as Sb.
  assert (Lb : length (stk (bump x s)) = length (stk s)) by (rewrite bump_stk; reflexivity).
  assert (Nb : nth_error (stk sb) (length (stk s)) = Some x) by (unfold sb; simpl; rewrite bump_stk, nth_error_app2, Nat.sub_diag by auto; reflexivity).
  assert (Rs : forall v s1, (exists l, nth_error (stk s1) v = Some (MPtr l)) -> own_var (LS v) (resize (LS v) (elements sh)) s1 = RUB AssertFail).
  { intros v s1 [l N]. unfold own_var. rewrite (bind_ok _ _ _ _ _ _ _ (get_eq (LS v) _ _ N)). unfold resize. destruct (Z.ltb_spec (elements sh) 0); [reflexivity|lia]. }
  assert (Nv : new_view sh (LS (length (stk s))) sb = RUB AssertFail).
  { unfold new_view. rewrite (bind_ok _ _ _ _ sb (elements sh) sb) by (rewrite (count_gives sh 1 sb); [rewrite Z.mul_1_l; reflexivity|intros n; rewrite Z.mul_1_l; auto]).
    destruct Sc as [Sc|[l ->]].
    - rewrite (bind_ok _ _ _ _ _ _ _ (scalar_defined sb _ x Nb Sc)). destruct (number_for_scalar x Sc) as (v & Nf & Nu). assert (Scv : scalar (MNum v)) by (right; eauto).
      rewrite (bind_ok _ _ _ _ sb (MNum v) sb).
      + set (sc := push_s (MNum v) sb). assert (Ic : INV e [] sc) by (apply INV_push; apply (INV_bump e [] sb (MNum v) Ib); intros j J; inversion J).
        assert (Nc : nth_error (stk sc) (length (stk sb)) = Some (MNum v)) by (unfold sc; simpl; rewrite nth_error_app2, Nat.sub_diag by auto; reflexivity).
        assert (Lc : length (stk sb) < length (stk sc)) by (eapply ne_lt; eauto).
        destruct (become_array_gives e sc (length (stk sb)) (MNum v) 1 Ic Nc Scv) as (o & s1 & E1 & I1 & Sh1 & Nw); [lia|lia|].
        destruct (upd_obj e [] _ _ (set_val o 0 (MNum v)) sc s1 Lc eq_refl Sh1 I1) as [N1 _].
        unfold scoped. fold (push_s (MNum v) sb). fold sc. rewrite (bind_ok _ _ _ _ sc tt s1).
        * unfold bind. rewrite Rs by eauto. reflexivity.
        * unfold array. rewrite (bind_ok _ _ _ _ _ _ _ (deref_nonref (LS (length (stk sb))) _ _ Nc (scalar_nonref _ Scv))). rewrite (bind_ok _ _ _ _ _ _ _ (scalar_heap sc _ _ Nc Scv)). exact E1.
      + destruct Sc as [->|(w & -> & Nw')]; [simpl in Nf; inversion Nf; reflexivity|]. simpl in Nf. inversion Nf; subst w. change (copy_of (LS (length (stk s))) sb = ROk (MNum v) sb). exact (copy_of_eq (LS (length (stk s))) sb _ Sb Nb).
    - rewrite (bind_ok _ _ _ _ sb true sb) by (unfold defined; rewrite (bind_ok _ _ _ _ _ _ _ (get_eq (LS (length (stk s))) _ _ Nb)); reflexivity).
      rewrite (bind_ok _ _ _ _ _ _ _ (copy_of_eq (LS (length (stk s))) sb _ Sb Nb)). unfold scoped. fold (push_s (MPtr l) (bump (MPtr l) sb)). set (sc := push_s (MPtr l) (bump (MPtr l) sb)).
      assert (Nc : nth_error (stk sc) (length (stk (bump (MPtr l) sb))) = Some (MPtr l)) by (unfold sc; simpl; rewrite nth_error_app2, Nat.sub_diag by auto; reflexivity).
      rewrite (bind_ok _ _ _ _ sc tt sc) by (apply (ptr_array sc (LS _) l Nc)). unfold bind. rewrite Rs by eauto. reflexivity. }
  unfold exec, declare, keep_value.
  change (eval (length (stk s)) (ENew sh (EVar k))) with (let! p := eval (length (stk s)) (EVar k) in let! y := copy_of p in let! x := scoped y (fun q => new_view sh q) in temp x).
  assert (E : (let! p := eval (length (stk s)) (EVar k) in let! y := copy_of p in let! x := scoped y (fun q => new_view sh q) in temp x) s = RUB AssertFail).
  { rewrite (bind_ok _ _ _ _ _ _ _ (eval_var s k _ _ V eq_refl s)). rewrite (bind_ok _ _ _ _ _ _ _ (copy_of_eq (LS k) s _ Sd V)).
    unfold bind, scoped. fold (push_s x (bump x s)). fold sb. rewrite Lb. rewrite Nv. reflexivity. }
  unfold bind at 1. rewrite E. reflexivity.
Qed.

(** * Arrays of a shape *)
Lemma set_view_elem : forall e s r lv t off i ov ot c old v, INV e [] s -> nth_error (stk s) r = Some (MPtr lv) -> nth_error (mem s) lv = Some (Some ov) -> h_view ov = Some t ->
  element_of s lv t off -> nth_error (mem s) t = Some (Some ot) -> h_ty ot = HE (ety_of v) -> number v = true -> nth_error (h_cells ot) (off + i) = Some (c, old) ->
  set_at (LS r) (Z.of_nat i) (MNum v) s = ROk tt (with_obj t (set_cells ot (set_nth (h_cells ot) (off + i) (c, MNum v))) s).
Proof.
  intros e s r lv t off i ov ot c old v I Nr Ov Vw El Ot Ty Nv C. set (o1 := set_cells ot (set_nth (h_cells ot) (off + i) (c, MNum v))).
  set (s1 := push_s (MNum v) s). assert (I1 : INV e [] s1) by (apply INV_push; apply (INV_bump e [] s (MNum v) I); intros j J; inversion J). pose proof (INV_sound _ _ _ I1) as S1.
  assert (N1 : nth_error (stk s1) r = Some (MPtr lv)) by (unfold s1; simpl; rewrite nth_error_app1; auto; eapply ne_lt; eauto).
  assert (H1 : held (MPtr lv) s1) by (apply (held_ptr (LS r)); auto).
  assert (At : at_int (LS r) (Z.of_nat i) s1 = ROk (MRef lv i) (bump (MPtr lv) s1)) by (rewrite (at_int_ptr s1 (LS r) lv _ S1 N1) by lia; rewrite Nat2Z.id; reflexivity).
  assert (Vl : varlike (HE (ety_of v)) = false) by (destruct v; try discriminate; reflexivity).
  unfold set_at. apply (scoped_ok _ _ _ s tt (MNum v) (with_obj t o1 s)); [|reflexivity|reflexivity]. fold s1. rewrite (bind_ok _ _ _ _ _ _ _ At).
  apply (scoped_ok _ _ _ _ tt (MRef lv i) (bump (MPtr lv) (push_s (MNum v) (with_obj t o1 s)))).
  - set (s2 := push_s (MRef lv i) (bump (MPtr lv) s1)). unfold assign.
    assert (N2 : nth_error (stk s2) (length (stk (bump (MPtr lv) s1))) = Some (MRef lv i)) by (unfold s2; simpl; rewrite nth_error_app2, Nat.sub_diag by auto; reflexivity).
    rewrite (bind_ok _ _ _ _ _ _ _ (get_eq (LS (length (stk (bump (MPtr lv) s1)))) _ _ N2)).
    assert (Ov2 : obj lv s2 = Some ov) by (unfold obj; simpl; rewrite Ov; reflexivity). assert (Ot2 : obj t s2 = Some ot) by (unfold obj; simpl; rewrite Ot; reflexivity).
    rewrite (bind_ok _ _ _ _ _ _ _ (get_obj_eq _ _ _ Ov2)).
    rewrite (bind_ok _ _ _ _ s2 (HE (ety_of v)) s2) by (unfold obj_type; rewrite Vw; rewrite (bind_ok _ _ _ _ _ _ _ (get_obj_eq _ _ _ Ot2)); rewrite Ty; reflexivity).
    assert (Np : getv (LS (length (stk s))) s2 = Some (MNum v)).
    { unfold s2, s1. simpl. rewrite <- app_assoc, nth_error_app2, Nat.sub_diag by auto. reflexivity. }
    assert (Cs : cast_var (ety_of v) (LS (length (stk s))) s2 = ROk v s2).
    { rewrite (cast_var_eq _ _ _ (MNum v) v Np) by (split; [reflexivity|intros ? ? ?; discriminate] || reflexivity). destruct v; try discriminate; reflexivity. }
    assert (W : write_elem lv (Z.of_nat i) v s2 = ROk tt (push_s (MRef lv i) (bump (MPtr lv) (push_s (MNum v) (with_obj t o1 s))))).
    { unfold write_elem. rewrite (bind_ok _ _ _ _ _ _ _ (element_at s2 lv t off i (element_mem s s2 _ _ _ eq_refl El))). rewrite (bind_ok _ _ _ _ _ _ _ (get_obj_eq _ _ _ Ot2)). rewrite C, Ty, Vl. reflexivity. }
    destruct v; try discriminate; cbn [ety_of] in *; (rewrite (bind_ok _ _ _ _ _ _ _ Cs); exact W).
  - reflexivity.
  - set (s3 := push_s (MNum v) (with_obj t o1 s)).
    assert (Ck : cnt_ok s1) by apply S1.
    assert (Ck3 : cnt_ok s3).
    { split; [simpl; rewrite sn_length; apply (proj1 Ck)|]. intros k [x X]. apply (proj2 Ck). simpl in X. destruct (Nat.eq_dec t k) as [->|N]; [exists ot; exact Ot|]. rewrite sn_other in X by auto. exists x. exact X. }
    assert (H3 : held (MRef lv i) s3).
    { intros k K. inversion K; subst k. destruct (H1 lv eq_refl) as [x X]. simpl in X. destruct (Nat.eq_dec t lv) as [->|N]; [exists o1; simpl; apply sn_same; apply nth_error_Some; congruence|]. exists x. simpl. rewrite sn_other by auto. exact X. }
    change (bump (MPtr lv) s3) with (bump (MRef lv i) s3). rewrite release_drop by (apply shared_bump; auto). rewrite drop_bump by auto. reflexivity.
Qed.
Lemma fill_view : forall n e s r p lv t off i ov ot v, INV e [] s -> nth_error (stk s) r = Some (MPtr lv) -> nth_error (stk s) p = Some (MNum v) ->
  nth_error (mem s) lv = Some (Some ov) -> h_view ov = Some t -> element_of s lv t off -> nth_error (mem s) t = Some (Some ot) -> h_view ot = None -> h_ty ot = HE (ety_of v) -> number v = true ->
  off + i + n <= length (h_cells ot) ->
  exists o2, fill_from (LS r) (LS p) n (Z.of_nat i) s = ROk tt (with_obj t o2 s) /\ INV e [] (with_obj t o2 s) /\ MemViewProps.alike ot o2 /\
    forall k, nth_error (map snd (h_cells o2)) k = if (off + i <=? k)%nat && (k <? off + i + n)%nat then Some (MNum v) else nth_error (map snd (h_cells ot)) k.
Proof.
  induction n as [|n IH]; intros e s r p lv t off i ov ot v I Nr Np Ov Vw El Ot Vt Ty Nv B.
  - exists ot. simpl. rewrite with_obj_self by auto. split; [reflexivity|]. split; [exact I|]. split; [repeat split|]. intros k. destruct (Nat.leb_spec (off + i) k); destruct (Nat.ltb_spec k (off + i + 0)); simpl; try lia; reflexivity.
  - cbn [fill_from]. destruct (nth_error (h_cells ot) (off + i)) as [[c old]|] eqn:C; [|apply nth_error_None in C; lia].
    set (o1 := set_cells ot (set_nth (h_cells ot) (off + i) (c, MNum v))).
    assert (E1 : set_at_copy (LS r) (Z.of_nat i) (LS p) s = ROk tt (with_obj t o1 s)).
    { unfold set_at_copy. rewrite (bind_ok _ _ _ _ _ _ _ (copy_of_eq (LS p) s _ (INV_sound _ _ _ I) Np)). exact (set_view_elem e s r lv t off i ov ot c old v I Nr Ov Vw El Ot Ty Nv C). }
    rewrite (bind_ok _ _ _ _ _ _ _ E1).
    assert (I1 : INV e [] (with_obj t o1 s)).
    { pose proof (fill_from_post False 1 e s r p (Z.of_nat i) I ltac:(eapply ne_lt; eauto)) as P. cbn [fill_from] in P. rewrite (bind_ok _ _ _ _ _ _ _ E1) in P. exact (proj1 P). }
    assert (Lt : t < length (mem s)) by (apply nth_error_Some; congruence).
    assert (Ntv : t <> lv) by (intros ->; congruence).
    replace (Z.of_nat i + 1)%Z with (Z.of_nat (S i)) by lia.
    destruct (IH e (with_obj t o1 s) r p lv t off (S i) ov o1 v) as (o2 & E2 & I2 & A2 & F2); auto.
    + simpl. rewrite sn_other by auto. exact Ov.
    + eapply element_with; eauto.
    + simpl. apply sn_same; auto.
    + unfold o1. simpl. rewrite sn_length. lia.
    + exists o2. rewrite with_obj_twice in E2, I2. split; [exact E2|]. split; [exact I2|].
      assert (Al : MemViewProps.alike ot o1) by (unfold MemViewProps.alike, o1; simpl; repeat split; rewrite map_sn; simpl; apply sn_id; rewrite nth_error_map, C; reflexivity).
      split; [unfold MemViewProps.alike in *; intuition congruence|]. intros k. rewrite F2. unfold o1. simpl h_cells. rewrite map_sn, sn_nth_error by (rewrite map_length; lia).
      destruct (Nat.leb_spec (off + S i) k); destruct (Nat.ltb_spec k (off + S i + n)); destruct (Nat.leb_spec (off + i) k); destruct (Nat.ltb_spec k (off + i + S n)); destruct (Nat.eqb_spec k (off + i)); simpl; try lia; reflexivity.
Qed.
Lemma firstn_all_same : forall A (x : A) n l, (forall i, i < n -> nth_error l i = Some x) -> firstn n l = repeat x n.
Proof.
  induction n as [|n IH]; intros l H; [reflexivity|]. pose proof (H 0 ltac:(lia)) as H0. destruct l as [|y l]; [discriminate|]. simpl in *. inversion H0. f_equal. apply IH. intros i L. apply (H (S i)). lia.
Qed.
Lemma shape_with_scalar : forall e s r p v sh, INV e [] s -> nth_error (stk s) r = Some MNil -> nth_error (stk s) p = Some (MNum v) -> number v = true -> sh <> [] -> small (S (2 * length sh)) ->
  (forall n, in_int (elements (firstn n sh)) = true) -> (forall n, in_int (elements (skipn n sh)) = true) -> (0 <= elements sh < 2 ^ 30)%Z ->
  exists s' o2 ov, shape_with (LS r) sh (LS p) s = ROk tt s' /\ INV e [] s' /\ shrunk (upd r (MPtr (S (length (mem s)))) [Some o2; Some ov] s) s' /\ view_obj (length (mem s)) 0 sh ov /\
    h_view o2 = None /\ h_ty o2 = HE (ety_of v) /\ h_size o2 = Z.to_nat (elements sh) /\ firstn (Z.to_nat (elements sh)) (map snd (h_cells o2)) = repeat (MNum v) (Z.to_nat (elements sh)).
Proof.
  intros e s r p v sh I Nr Np Nv Ns Sm Bf Bs Rg. set (l := length (mem s)). assert (Scv : scalar (MNum v)) by (right; eauto).
  assert (Lr : r < length (stk s)) by (eapply ne_lt; eauto). assert (Lp : p < length (stk s)) by (eapply ne_lt; eauto).
  assert (Ia : INV e [] (push_s (MNum v) s)) by (apply INV_push, INV_add0; auto).
  destruct (new_view_scalar e (push_s (MNum v) s) (length (stk s)) (MNum v) v sh Ia) as (s2 & o & o1 & ov & E2 & I2 & Sh2 & Nw & G & Vv); auto; [simpl; rewrite nth_error_app2, Nat.sub_diag by auto; reflexivity|].
  simpl mem in *. fold l in E2, I2, Vv.
  destruct (scoped_gives mvar (MNum v) (fun q => new_view sh q) e [MPtr (S l)] s (MPtr (S l)) s2 (MNum v) (more [Some o1; Some ov] s)) as (s3 & E3 & I3 & Sh3); auto.
  assert (L3 : length (stk s3) = length (stk s)) by (destruct Sh3 as (-> & _); reflexivity). assert (N3 : nth_error (stk s3) r = Some MNil) by (destruct Sh3 as (-> & _); exact Nr).
  set (s3' := push_s (MPtr (S l)) s3). assert (I3' : INV e [] s3') by (apply INV_push; exact I3).
  assert (N3' : nth_error (stk s3') r = Some MNil) by (unfold s3'; simpl; rewrite nth_error_app1 by lia; exact N3).
  assert (Nx : nth_error (stk s3') (length (stk s3)) = Some (MPtr (S l))) by (unfold s3'; simpl; rewrite nth_error_app2, Nat.sub_diag by auto; reflexivity).
  destruct (assign_plain_gives e [] s3' (LS r) (length (stk s3)) (MPtr (S l)) (MPtr (S l)) MNil I3') as (s4 & E4 & I4 & Sh4); auto.
  { exact Logic.I. }
  { intros ? ? ?; discriminate. }
  { apply not_view_nil. }
  { intros K. inversion K. lia. }
  { reflexivity. }
  { intros ? ? ?; discriminate. }
  { intros ? ? ? K; discriminate. }
  { intros ? ? ? [K|K]; discriminate. }
  destruct (scoped_gives unit (MPtr (S l)) (fun q => assign (LS r) q) e [] s3 tt s4 (MPtr (S l)) (upd r (MPtr (S l)) [] s3)) as (s5 & E5 & I5 & Sh5); auto.
  { fold s3'. rewrite (assign_nonref_eq (LS r) _ s3' MNil N3') by (intros ? ? ?; discriminate). exact E4. }
  { destruct Sh4 as (A & B & C). unfold shrunk, obj in *. simpl in *. rewrite app_nil_r. rewrite sn_app1 in A by lia. auto. }
  { simpl. apply sn_length. }
  destruct Sh5 as (St5 & Lm5 & Ob5). destruct Sh3 as (St3 & Lm3 & Ob3). simpl in St5, Lm5, St3, Lm3. rewrite app_nil_r in Lm5. rewrite St3 in St5. rewrite Lm3 in Lm5. rewrite app_length in Lm5. simpl in Lm5. fold l in Lm5.
  assert (Ob : forall k ok, obj k s5 = Some ok -> obj k (more [Some o1; Some ov] s) = Some ok).
  { intros k ok K. apply Ob3. apply Ob5 in K. unfold obj in *. simpl in K. rewrite app_nil_r in K. exact K. }
  assert (N5 : nth_error (stk s5) r = Some (MPtr (S l))) by (rewrite St5; apply sn_same; auto).
  assert (Ov : obj (S l) s5 = Some ov).
  { assert (L : live (S l) s5) by (eapply (getv_held (LS r)); [eapply INV_sound; eauto|exact N5|reflexivity]). apply live_obj in L as [y Y]. rewrite Y. apply Ob in Y. unfold obj, more in Y. cbn [mem] in Y.
    rewrite nth_error_app2 in Y by (fold l; lia). fold l in Y. replace (S l - l) with 1 in Y by lia. simpl in Y. congruence. }
  assert (Oo : obj l s5 = Some o1).
  { destruct (view_live s5 (S l) ov l (INV_sound _ _ _ I5) Ov) as [y Y]; [apply Vv|]. assert (Y' : obj l s5 = Some y) by (unfold obj; rewrite Y; reflexivity). rewrite Y'.
    apply Ob in Y'. unfold obj, more in Y'. cbn [mem] in Y'. rewrite nth_error_app2 in Y' by (fold l; lia). fold l in Y'. rewrite Nat.sub_diag in Y'. simpl in Y'. congruence. }
  destruct G as (Gt & Gv & Gs & Gl & kk & Gc). destruct Nw as (T & _ & Vo & _).
  assert (Al : h_view (set_val o 0 (MNum v)) = h_view o /\ h_ty (set_val o 0 (MNum v)) = h_ty o) by (unfold set_val; destruct (nth_error (h_cells o) 0) as [[]|]; auto).
  rewrite (proj2 Al), T in *. rewrite (proj1 Al), Vo in *. apply obj_live in Ov. apply obj_live in Oo.
  destruct (view_obj_at s5 (S l) l 0 sh ov Ov Vv Ns) as (_ & ov' & O' & V' & S' & D'). assert (ov' = ov) by congruence. subst ov'.
  destruct (fill_view (Z.to_nat (elements sh)) e s5 r p (S l) l 0 0 ov o1 v I5 N5) as (o2 & E6 & I6 & A6 & F6); auto.
  { rewrite St5. assert (r <> p) by (intros ->; congruence). rewrite sn_other; auto. }
  { exists ov. split; auto. rewrite V'. split; auto. }
  { simpl. destruct (is_char _); lia. }
  exists (with_obj l o2 s5), o2, ov. destruct A6 as (A1 & A2 & A3 & A4 & A5).
  split; [|split; [exact I6|split; [|split; [exact Vv|]]]].
  - unfold shape_with. rewrite (bind_ok _ _ _ _ _ _ _ (copy_of_eq (LS p) s _ (INV_sound _ _ _ I) Np)). cbn [bump target]. rewrite (bind_ok _ _ _ _ _ _ _ E3). rewrite (bind_ok _ _ _ _ _ _ _ E5).
    rewrite (bind_ok _ _ _ _ s5 (elements sh) s5); [exact E6|]. unfold size_of. rewrite (bind_ok _ _ _ _ _ _ _ (get_eq (LS r) _ _ N5)).
    rewrite (bind_ok _ _ _ _ s5 (MPtr (S l)) s5) by reflexivity. rewrite (bind_ok _ _ _ _ _ _ _ (get_obj_eq (S l) s5 ov ltac:(unfold obj; rewrite Ov; reflexivity))).
    apply (view_size ov l 0 sh s5); auto. apply nonneg_in; auto.
  - unfold shrunk, with_obj, upd, obj in *. simpl. split; [exact St5|]. split; [rewrite sn_length, app_length, Lm5; simpl; fold l; lia|]. intros k ok K. destruct (Nat.eq_dec k l) as [->|Nk].
    + rewrite sn_same in K by (rewrite Lm5; lia). unfold l. rewrite nth_error_app2, Nat.sub_diag by auto. exact K.
    + rewrite sn_other in K by auto. apply Ob in K. simpl in K. destruct (Nat.lt_ge_cases k l); [rewrite nth_error_app1 in * by auto; exact K|].
      rewrite nth_error_app2 in * by auto. fold l in K. fold l. destruct (k - l) as [|m] eqn:Em; [lia|exact K].
  - split; [congruence|]. split; [congruence|]. split; [congruence|]. apply firstn_all_same. intros i Li. rewrite F6. simpl. destruct (Nat.ltb_spec i (Z.to_nat (elements sh))); [reflexivity|lia].
Qed.

(** [var({d, ..}, x)] of a number is a new array with as many elements of the type as the shape has,
    of which every one is the number, and the value is a view of all of it of that shape. *)
Theorem C140_filled : forall s f v sh, reachable s -> operand s f (MNum v) -> sh <> [] -> small (S (2 * length sh)) ->
  (forall n, in_int (elements (firstn n sh)) = true) -> (forall n, in_int (elements (skipn n sh)) = true) -> (0 <= elements sh < 2 ^ 30)%Z ->
  exists s' cs, exec (SShape sh f) s = ROk tt s' /\ two_more s s' /\ view_at s' (S (length (mem s))) (length (mem s)) 0 sh /\
    size_at s' (length (mem s)) (Z.to_nat (elements sh)) /\ storage s' (length (mem s)) (ety_of v) cs /\
    firstn (Z.to_nat (elements sh)) cs = repeat (MNum v) (Z.to_nat (elements sh)).
Proof.
  intros s f v sh R O Ns Sm Bf Bs Rg. destruct (reachable_INV s R) as [e I]. set (l := length (mem s)).
  assert (Nv : number v = true) by (apply (reachable_number s f (MNum v) v); auto; reflexivity).
  destruct (operand_gives e s s f (MNum v) I (temps_refl s) O) as (q & s2 & E2 & I2 & T2 & _ & Nq).
  set (s0 := push_s MNil s2). set (r := length (stk s2)). assert (Lq : q < r) by (eapply ne_lt; eauto).
  assert (I0 : INV e [] s0) by (apply INV_push, INV_add0; auto). assert (M0 : length (mem s0) = l) by (destruct T2 as [M _]; unfold s0; simpl; rewrite M; reflexivity).
  assert (Nr : nth_error (stk s0) r = Some MNil) by (unfold s0; simpl; rewrite nth_error_app2, Nat.sub_diag by auto; reflexivity).
  assert (Nq0 : nth_error (stk s0) q = Some (MNum v)) by (unfold s0; simpl; rewrite nth_error_app1; auto).
  assert (L0 : length (stk s0) = S r) by (unfold s0; simpl; rewrite app_length; simpl; fold r; lia).
  set (s1 := push_s (MNum v) s0). assert (I1 : INV e [] s1) by (apply INV_push, INV_add0; auto).
  destruct (shape_with_scalar e s1 r (length (stk s0)) v sh I1) as (s3 & o2 & ov & E3 & I3 & Sh3 & Vv & Vo & To & So & Fo); auto.
  { change (nth_error (stk s0 ++ [MNum v]) r = Some MNil). rewrite nth_error_app1 by lia. exact Nr. }
  { change (nth_error (stk s0 ++ [MNum v]) (length (stk s0)) = Some (MNum v)). rewrite nth_error_app2, Nat.sub_diag by auto. reflexivity. }
  change (mem s1) with (mem s0) in *. rewrite M0 in *.
  destruct (with_copy_upd e s0 q (MNum v) r (MPtr (S l)) [Some o2; Some ov] (shape_with (LS r) sh) s3) as (s4 & E4 & I4 & Sh4); auto; [lia|].
  assert (N4 : nth_error (stk s4) r = Some (MPtr (S l))) by (destruct Sh4 as (-> & _); apply (sn_same _ (stk s0) r); rewrite L0; auto).
  destruct (keep_gives e s (init_shape (length (stk s)) sh f) s0 s4 r (MPtr (S l)) [Some o2; Some ov]) as (s' & E5 & I5 & Sh5); auto.
  - unfold init_shape. rewrite (bind_ok _ _ _ _ _ _ _ E2). change (temp MNil s2) with (ROk (LS r) s0). rewrite (bind_ok _ _ _ _ s2 (LS r) s0) by reflexivity. rewrite (bind_ok _ _ _ _ _ _ _ E4).
    unfold take. rewrite (bind_ok _ _ _ _ _ _ _ (get_eq (LS r) _ _ N4)). rewrite (bind_ok _ _ _ _ _ _ _ (put_eq (LS r) s4 _ MNil N4)). reflexivity.
  - apply (temps_push s s2 MNil T2).
  - unfold r. destruct T2 as [_ [ws ->]]. rewrite app_length. lia.
  - destruct Sh5 as (St & Lm & Ob). simpl in St, Lm, Ob.
    assert (Ov : obj (S l) s' = Some ov).
    { eapply (shrunk_obj e [] (MemInit.adds (MPtr (S l)) [Some o2; Some ov] s) s' (length (stk s)) (MPtr (S l))); [unfold shrunk; simpl; auto|exact I5|simpl; rewrite nth_error_app2, Nat.sub_diag by auto; reflexivity|reflexivity|].
      unfold obj, adds. cbn [mem]. rewrite nth_error_app2 by (fold l; lia). fold l. replace (S l - l) with 1 by lia. reflexivity. }
    assert (Oo : obj l s' = Some o2).
    { destruct (view_live s' (S l) ov l (INV_sound _ _ _ I5) Ov) as [y Y]; [apply Vv|]. assert (Y' : obj l s' = Some y) by (unfold obj; rewrite Y; reflexivity). rewrite Y'.
      apply Ob in Y'. unfold obj in Y'. simpl in Y'. rewrite nth_error_app2 in Y' by (fold l; lia). fold l in Y'. rewrite Nat.sub_diag in Y'. simpl in Y'. congruence. }
    exists s', (map snd (h_cells o2)). split; [exact E5|]. split; [|split; [|split; [|split]]].
    + split; [exact St|]. split; [rewrite Lm, app_length; simpl; fold l; lia|]. intros k ok L Ok. assert (Ok' : obj k s' = Some ok) by (unfold obj; rewrite Ok; reflexivity).
      apply Ob in Ok'. unfold obj in Ok'. simpl in Ok'. rewrite nth_error_app1 in Ok' by auto. destruct (nth_error (mem s) k) as [[y|]|]; congruence.
    + apply (view_obj_at _ _ _ _ _ ov); auto. apply obj_live; auto.
    + exists o2. split; [apply obj_live; auto|exact So].
    + exists o2. split; [apply obj_live; auto|]. auto.
    + exact Fo.
Qed.

Ltac prods := let n := fresh in intros n; do 4 (destruct n as [|n]; [reflexivity|]); simpl; try rewrite skipn_nil; try rewrite firstn_nil; reflexivity.
Ltac counted := split; [prods|split; reflexivity].
Ltac sized := eexists; split; reflexivity.
Definition s_numbers : state := Eval vm_compute in match run [SDecl (ENum (VInt 5)); SDecl ENil; SInit (map (fun z => ENum (VInt z)) [7; 8; 9]%Z)] start with ROk _ s => s | _ => start end.
Lemma numbers_reached : reachable s_numbers. Proof. exists [SDecl (ENum (VInt 5)); SDecl ENil; SInit (map (fun z => ENum (VInt z)) [7; 8; 9]%Z)]. vm_compute. reflexivity. Qed.
(** Two rows of two of the elements from the second, through a view that begins at the second. *)
Example C137_example : exists s', exec (SDecl (EView (EVar 1) [2; 2]%Z 1)) s_views = ROk tt s' /\ one_more s_views s' /\ view_at s' (length (mem s_views)) 0 2 [2; 2]%Z /\ holders s' 0 = S (holders s_views 0).
Proof.
  destruct (C137_view_of_array s_views 1 1 0 1 [3]%Z TDouble (cells_of 0) 6 [2; 2]%Z 1 views_reached) as (s' & E & A & B & C); auto; try discriminate; try reflexivity; try lia.
  - left. shape_found.
  - store_found.
  - sized.
  - counted.
  - exists s'. split; [exact E|]. split; [exact A|]. split; [exact B|]. rewrite C by (vm_compute; lia). apply Nat.add_1_r.
Qed.
Example C137_too_large_example : exec (SDecl (EView (EVar 1) [3; 2]%Z 0)) s_views = RThrow "View::setStrides(): Array too small for view" s_views.
Proof.
  apply (C137_too_large s_views 1 1 0 1 [3]%Z TDouble (cells_of 0) 6 [3; 2]%Z 0 views_reached); try discriminate; try reflexivity.
  - left. shape_found.
  - store_found.
  - sized.
  - counted.
Qed.
Example C137_no_dimension_example : exec (SDecl (EView (EVar 3) [] 0)) s_views = RThrow "View::setStrides(): view must have dim > 0" s_views.
Proof. apply (C137_no_dimension s_views 3 3 0 1 [2; 2]%Z TDouble (cells_of 0) 0 views_reached); try discriminate; try reflexivity; [left; shape_found|store_found]. Qed.
Example C137_of_number_example : exec (SDecl (EView (EVar 0) [1]%Z 0)) s_numbers = RThrow "var::view: Input not an array" s_numbers.
Proof. apply (C137_of_number s_numbers 0 (MNum (VInt 5)) [1]%Z 0 numbers_reached); [reflexivity|right; eauto]. Qed.
Example C138_offset_example : exists s', exec (SOffset (EVar 1) 3) s_views = ROk tt s' /\ view_at s' 1 0 3 [3]%Z /\ only_first 1 s_views s'.
Proof. apply (C138_offset s_views 1 1 0 1 [3]%Z 6 3 views_reached); try discriminate; try reflexivity; [shape_found|sized]. Qed.
Example C138_too_far_example : exec (SOffset (EVar 1) 4) s_views = RThrow "View::offset(): offset too large" s_views.
Proof. apply (C138_too_far s_views 1 1 0 1 [3]%Z 6 4 views_reached); try discriminate; try reflexivity; [shape_found|sized]. Qed.
Example C138_advance_example : exists s', exec (SAdvance (EVar 3) 1) s_views = ROk tt s' /\ view_at s' 3 0 2 [2; 2]%Z /\ only_first 3 s_views s'.
Proof. apply (C138_advance s_views 3 3 0 1 [2; 2]%Z 6 1 views_reached); try discriminate; try reflexivity; [shape_found|sized]. Qed.
Example C138_advance_too_far_example : exec (SAdvance (EVar 3) 2) s_views = RThrow "View::offset(): offset too large" s_views.
Proof. apply (C138_advance_too_far s_views 3 3 0 1 [2; 2]%Z 6 2 views_reached); try discriminate; try reflexivity; [shape_found|sized]. Qed.
Lemma numbers_array : array_at s_numbers 0 (HE TInt) (map (fun z => MNum (VInt z)) [7; 8; 9]%Z).
Proof. eexists. split; [reflexivity|]. repeat split. Qed.
Example C138_not_a_view_example : exec (SOffset (EVar 2) 0) s_numbers = RThrow "var::offset(): not a view" s_numbers /\ exec (SAdvance (EVar 0) 1) s_numbers = RThrow "var::offset(): not a view" s_numbers.
Proof.
  split.
  - refine (proj1 (C138_not_a_view s_numbers 2 (MPtr 0) 0 numbers_reached eq_refl _)). right. right. exists 0, (HE TInt). eexists. split; [reflexivity|exact numbers_array].
  - refine (proj2 (C138_not_a_view s_numbers 0 (MNum (VInt 5)) 1 numbers_reached eq_refl _) eq_refl). right. left. eauto.
Qed.
(** Of six ints only the first is initialised. *)
Example C139_of_number_example : exists s' m, exec (SDecl (ENew [2; 3]%Z (EVar 0))) s_numbers = ROk tt s' /\ two_more s_numbers s' /\ view_at s' 2 1 0 [2; 3]%Z /\
  size_at s' 1 6 /\ storage s' 1 TInt (MNum (VInt 5) :: repeat MJunk m) /\ (6 <= 1 + Z.of_nat m)%Z.
Proof.
  apply (C139_of_number s_numbers (EVar 0) (MNum (VInt 5)) (VInt 5) [2; 3]%Z numbers_reached); try discriminate; try prods; try (vm_compute; intuition congruence); [apply op_var; reflexivity|constructor].
Qed.
(** The array of three is made four long, and the view shows it as two rows. *)
Example C139_of_array_example : exists s' ys, exec (SDecl (ENew [2; 2]%Z (EVar 2))) s_numbers = ROk tt s' /\ view_at s' 1 0 0 [2; 2]%Z /\ array_at s' 0 (HE TInt) ys /\ length ys = 4 /\ firstn 3 ys = map (fun z => MNum (VInt z)) [7; 8; 9]%Z.
Proof.
  destruct (C139_of_array s_numbers 2 0 TInt _ [2; 2]%Z numbers_reached eq_refl numbers_array) as (s' & ys & E & _ & _ & _ & V & A & L & F); [discriminate|discriminate|reflexivity|prods|prods|split; [discriminate|reflexivity]|].
  simpl in L. assert (L' : length ys = 4) by lia. rewrite L' in F. exists s', ys. auto.
Qed.
Example C139_negative_example : exec (SDecl (ENew [2; -3]%Z (EVar 0))) s_numbers = RUB AssertFail.
Proof. apply (C139_negative s_numbers 0 (MNum (VInt 5)) [2; -3]%Z numbers_reached); [reflexivity|right; left; eauto|prods|reflexivity]. Qed.
Example C140_example : exists s' cs, exec (SShape [3; 2]%Z (ENum (dbl 4))) s_numbers = ROk tt s' /\ two_more s_numbers s' /\ view_at s' 2 1 0 [3; 2]%Z /\ size_at s' 1 6 /\
  storage s' 1 TDouble cs /\ firstn 6 cs = repeat (MNum (dbl 4)) 6.
Proof.
  apply (C140_filled s_numbers (ENum (dbl 4)) (dbl 4) [3; 2]%Z numbers_reached); try discriminate; try prods; try (vm_compute; intuition congruence). apply op_num. reflexivity.
Qed.
