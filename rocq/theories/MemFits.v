(** Storage: the size of an array stays within its allocation. *)
From Coq Require Import ZArith Bool List String Lia.
From Verif Require Import Base StrModel ValModel NumModel AllocModel AllocProof MemModel MemProof MemFun.
Import ListNotations.
Local Open Scope list_scope.
Local Open Scope mem_scope.
Local Notation length := List.length.

(** Below 2^30 elements the cells are there, with one more for a string. *)
Definition room (t : hty) (n c : nat) : Prop :=
  (Z.of_nat n < 2 ^ 30)%Z -> n + (if is_char t then 1 else 0) <= c.
Definition fits (o : hobj) : Prop := room (h_ty o) (h_size o) (length (h_cells o)).
Definition J (s : state) : Prop := forall l o, nth_error (mem s) l = Some (Some o) -> fits o.
Definition keeps {A} (m : M A) (Q : A -> Prop) : Prop := forall s, J s ->
  match m s with
  | ROk a s' => J s' /\ Q a
  | RThrow _ s' => J s'
  | _ => True
  end.
Definition anyq {A} (a : A) : Prop := True.
Lemma keeps_bind : forall A B (m : M A) (f : A -> M B) Q Q', keeps m Q -> (forall a, Q a -> keeps (f a) Q') -> keeps (bind m f) Q'.
Proof.
  intros A B m f Q Q' K1 K2 s I. unfold bind. specialize (K1 s I). destruct (m s); auto. destruct K1. apply K2; auto.
Qed.
Lemma keeps_ret : forall A (a : A) (Q : A -> Prop), Q a -> keeps (ret a) Q.
Proof. intros A a Q H s I. simpl. auto. Qed.
Lemma keeps_throw : forall A m (Q : A -> Prop), keeps (throw m) Q.
Proof. intros A m Q s I. simpl. auto. Qed.
Lemma keeps_ub : forall A k (Q : A -> Prop), keeps (ub k) Q.
Proof. intros A k Q s I. simpl. auto. Qed.
Lemma keeps_stuck : forall A (Q : A -> Prop), keeps stuck Q.
Proof. intros A Q s I. simpl. auto. Qed.
Lemma keeps_weaken : forall A (m : M A) (Q Q' : A -> Prop), keeps m Q -> (forall a, Q a -> Q' a) -> keeps m Q'.
Proof. intros A m Q Q' K H s I. specialize (K s I). destruct (m s); auto. destruct K. auto. Qed.
Lemma keeps_any : forall A (m : M A) (Q : A -> Prop), keeps m Q -> keeps m anyq.
Proof. intros. eapply keeps_weaken; eauto. intros; exact Logic.I. Qed.
Lemma keeps_lift : forall A (o : outcome A), keeps (lift o) anyq.
Proof. intros A [a|m|k|] s I; simpl; auto. split; auto; exact Logic.I. Qed.
Lemma keeps_get_obj : forall l, keeps (get_obj l) fits.
Proof. intros l s I. unfold get_obj. destruct (nth_error (mem s) l) as [[o|]|] eqn:E; auto. split; auto. eapply I; eauto. Qed.
Lemma J_mem : forall s s', mem s' = mem s -> J s -> J s'.
Proof. intros s s' E H l o O. rewrite E in O. eauto. Qed.
Lemma J_set : forall s l o, J s -> fits o -> J {| mem := set_nth (mem s) l (Some o); rc := rc s; stk := stk s |}.
Proof.
  intros s l o H F k o' O. simpl in O. destruct (Nat.eq_dec l k).
  - subst k. assert (L : l < length (set_nth (mem s) l (Some o))) by (apply nth_error_Some; congruence). rewrite sn_length in L.
    rewrite sn_same in O by auto. inversion O; subst. auto.
  - rewrite sn_other in O by auto. eauto.
Qed.
Lemma keeps_set_obj : forall l o, fits o -> keeps (set_obj l o) anyq.
Proof. intros l o F s I. unfold set_obj. split; [apply J_set; auto|exact Logic.I]. Qed.
Lemma keeps_new_obj : forall o, fits o -> keeps (new_obj o) anyq.
Proof.
  intros o F s I. unfold new_obj. split; [|exact Logic.I]. intros l o' O. simpl in O. destruct (Nat.lt_ge_cases l (length (mem s))).
  - rewrite nth_error_app1 in O by auto. eauto.
  - rewrite nth_error_app2 in O by auto. destruct (l - length (mem s)) as [|[|k]]; simpl in O; inversion O; subst; auto.
Qed.
Lemma fits_cells : forall o c, fits o -> length c = length (h_cells o) -> fits (set_cells o c).
Proof. intros o c F L. unfold fits in *. simpl. rewrite L. auto. Qed.

(** * Every operation *)
Create HintDb kp.
Lemma keeps_assoc : forall A B C (m : M A) (f : A -> M B) (g : B -> M C) Q,
  keeps (bind m (fun x => bind (f x) g)) Q -> keeps (bind (bind m f) g) Q.
Proof.
  intros A B C m f g Q H s I. specialize (H s I).
  replace (bind (bind m f) g s) with (bind m (fun x => bind (f x) g) s); auto. unfold bind. destruct (m s); auto.
Qed.
Ltac kp :=
  cbv beta iota zeta;
  lazymatch goal with
  | |- keeps (bind (get_obj _) _) _ => eapply keeps_bind; [apply keeps_get_obj|intros; kp]
  | |- keeps (bind (new_cells _ _) _) _ => idtac
  | |- keeps (bind (bind _ _) _) _ => apply keeps_assoc; kp
  | |- keeps (bind _ _) _ => apply (keeps_bind _ _ _ _ anyq); [kp|intros; kp]
  | |- keeps (ret _) _ => apply keeps_ret; try exact Logic.I
  | |- keeps (throw _) _ => apply keeps_throw
  | |- keeps (ub _) _ => apply keeps_ub
  | |- keeps stuck _ => apply keeps_stuck
  | |- keeps (lift _) _ => apply keeps_lift
  | |- keeps (get_obj _) _ => apply keeps_get_obj
  | |- keeps (match ?x with _ => _ end) _ => destruct x eqn:?; kp
  | |- keeps (scoped _ _) _ => idtac
  | |- keeps _ _ => first [solve [eauto with kp]|idtac]
  end.
Lemma keeps_get : forall v, keeps (get v) anyq.
Proof. intros [i|l g i|l g i]; simpl; kp. intros s I. simpl. destruct (nth_error (stk s) i); auto. split; auto; exact Logic.I. Qed.
#[local] Hint Resolve keeps_get : kp.
Lemma fits_nth : forall o i c x, fits o -> nth_error (h_cells o) i = Some c -> fits (set_cells o (set_nth (h_cells o) i x)).
Proof. intros. apply fits_cells; auto. apply sn_length. Qed.
Lemma keeps_put : forall v x, keeps (put v x) anyq.
Proof.
  intros [i|l g i|l g i] x; simpl; kp; try (apply keeps_set_obj; eapply fits_nth; eauto).
  intros s I. simpl. destruct (Nat.ltb _ _); auto. split; [eapply J_mem; eauto; reflexivity|exact Logic.I].
Qed.
#[local] Hint Resolve keeps_put : kp.
Lemma keeps_attach : forall v, keeps (attach v) anyq.
Proof.
  intros v. unfold attach. kp. intros s I. split; [eapply J_mem; eauto; reflexivity|exact Logic.I].
Qed.
#[local] Hint Resolve keeps_attach : kp.
Lemma keeps_release : forall w, keeps (release w) anyq.
Proof.
  intros w s I. unfold release. generalize (S (length w + weight (mem s))). intros f. revert w s I.
  induction f; intros w s I; simpl; auto. destruct w as [|v w]; simpl; [split; auto; exact Logic.I|].
  destruct (target v) as [l|]; [|apply IHf; auto].
  destruct (nth_error (mem s) l) as [[o|]|] eqn:E; auto.
  destruct (nth l (rc s) 0) as [|[|n]]; auto.
  - apply IHf. intros k o' O. simpl in O. destruct (Nat.eq_dec l k).
    + subst k. rewrite sn_same in O by (eapply ne_lt; eauto). discriminate.
    + rewrite sn_other in O by auto. eauto.
  - apply IHf. intros k o' O. eauto.
Qed.
#[local] Hint Resolve keeps_release : kp.
Lemma keeps_leave : forall i, keeps (leave i) anyq.
Proof. intros i s I. unfold leave. apply keeps_release. eapply J_mem; eauto; reflexivity. Qed.
#[local] Hint Resolve keeps_leave : kp.
Lemma keeps_scoped : forall A v (f : lval -> M A) Q, (forall i, keeps (f (LS i)) Q) -> keeps (scoped v f) Q.
Proof.
  intros A v f Q K s I. unfold scoped.
  assert (I1 : J {| mem := mem s; rc := rc s; stk := stk s ++ [v] |}) by (eapply J_mem; eauto; reflexivity).
  specialize (K (length (stk s)) _ I1). destruct (f (LS (length (stk s))) _) as [a s'|m s'|k|]; auto.
  - destruct K as [K1 K2]. unfold bind. pose proof (keeps_leave (length (stk s)) s' K1) as L.
    destruct (leave (length (stk s)) s') as [u s2|m s2|k|]; auto. destruct L. simpl. auto.
  - unfold bind. pose proof (keeps_leave (length (stk s)) s' K) as L.
    destruct (leave (length (stk s)) s') as [u s2|m2 s2|k|]; auto. destruct L. simpl. auto.
Qed.
Ltac ks := kp; try (apply keeps_scoped; intros; ks); try (first [solve [eauto with kp]|idtac]).
Lemma keeps_take : forall v, keeps (take v) anyq.
Proof. intros; unfold take; ks. Qed.
Lemma keeps_copy_of : forall v, keeps (copy_of v) anyq.
Proof. intros; unfold copy_of; ks. Qed.
Lemma keeps_replace : forall v x, keeps (replace v x) anyq.
Proof. intros; unfold replace; ks. Qed.
#[local] Hint Resolve keeps_take keeps_copy_of keeps_replace : kp.
Lemma alloc_room : forall t n c, allocSize (Z.of_nat n + (if is_char t then 1 else 0)) = Ok c ->
  (Z.of_nat n < 2 ^ 30)%Z -> (Z.of_nat n + (if is_char t then 1 else 0) <= c)%Z.
Proof.
  intros t n c E H. rewrite allocSize_ok in E by (destruct (is_char t); lia). inversion E.
  set (k := (Z.of_nat n + (if is_char t then 1 else 0))%Z). assert (0 < Z.max k 8)%Z by lia.
  pose proof (Z.log2_up_spec (Z.max k 8)). lia.
Qed.
Lemma term_length : forall t n c, length (terminate t n c) = length c.
Proof. intros t n c. unfold terminate. destruct (is_char t); auto. apply sn_length. Qed.
Lemma keeps_new_cells : forall t n, keeps (new_cells t n) (fun c => room t n (length c)).
Proof.
  intros t n s I. unfold new_cells, bind, lift. destruct (allocSize _) as [c| | |] eqn:E; simpl; auto.
  destruct (c <? 0)%Z eqn:L; simpl; auto. split; auto. intros H. rewrite term_length, repeat_length.
  pose proof (alloc_room t n c E H). destruct (is_char t); lia.
Qed.
#[local] Hint Resolve keeps_new_cells : kp.
Lemma keeps_new_heap : forall t n, keeps (new_heap t n) anyq.
Proof. intros. unfold new_heap. eapply keeps_bind; [apply keeps_new_cells|]. intros c R. apply keeps_new_obj. exact R. Qed.
Lemma keeps_heap_resize : forall l n, keeps (heap_resize l n) anyq.
Proof.
  intros l n s I. unfold heap_resize, bind. pose proof (keeps_get_obj l s I) as G. unfold get_obj in *.
  destruct (nth_error (mem s) l) as [[o|]|]; auto. destruct G as [_ F]. unfold lift.
  destruct (allocSize _) as [c|m|k|] eqn:E; simpl; auto.
  destruct (Z.ltb_spec (Z.of_nat (length (h_cells o))) c).
  - apply keeps_set_obj; auto. unfold fits, room. simpl. rewrite term_length, app_length, repeat_length.
    intros Hn. pose proof (alloc_room _ _ _ E Hn). destruct (is_char (h_ty o)); lia.
  - destruct (is_char (h_ty o) && Nat.leb (length (h_cells o)) n) eqn:B; simpl; auto.
    apply keeps_set_obj; auto. unfold fits, room. simpl. rewrite term_length. intros Hn. pose proof (alloc_room _ _ _ E Hn).
    destruct (is_char (h_ty o)); lia.
Qed.
#[local] Hint Resolve keeps_new_heap keeps_heap_resize : kp.
Lemma keeps_own_int : forall o i, keeps (own_int o i) anyq.
Proof. intros o i s I. unfold own_int. destruct (nth_error (h_cells o) i) as [[a [|[]| | | |]]|]; simpl; auto. split; auto; exact Logic.I. Qed.
#[local] Hint Resolve keeps_own_int : kp.
Lemma keeps_shape : forall o d, keeps (shape_i o d) anyq.
Proof. intros; unfold shape_i; ks. Qed.
Lemma keeps_stride : forall o d, keeps (stride_i o d) anyq.
Proof. intros; unfold stride_i; ks. Qed.
#[local] Hint Resolve keeps_shape keeps_stride : kp.
Lemma keeps_obj_type : forall o, keeps (obj_type o) anyq.
Proof. intros; unfold obj_type; ks. Qed.
Lemma keeps_obj_size : forall o, keeps (obj_size o) anyq.
Proof. intros; unfold obj_size; ks. Qed.
Lemma keeps_elem_at : forall l i, keeps (elem_at l i) anyq.
Proof. intros; unfold elem_at; ks. Qed.
#[local] Hint Resolve keeps_obj_type keeps_obj_size keeps_elem_at : kp.
Lemma keeps_read_elem : forall l i, keeps (read_elem l i) anyq.
Proof. intros; unfold read_elem; ks. Qed.
Lemma keeps_write_elem : forall l i x, keeps (write_elem l i x) anyq.
Proof. intros; unfold write_elem; ks. apply keeps_set_obj. eapply fits_nth; eauto. Qed.
Lemma keeps_eff : forall v, keeps (eff v) anyq.
Proof. intros; unfold eff; ks. Qed.
#[local] Hint Resolve keeps_read_elem keeps_write_elem keeps_eff : kp.
Lemma keeps_defined : forall v, keeps (defined v) anyq.
Proof. intros; unfold defined; ks. Qed.
Lemma keeps_type_of : forall v, keeps (type_of v) anyq.
Proof. intros; unfold type_of; ks. Qed.
Lemma keeps_size_of : forall v, keeps (size_of v) anyq.
Proof. intros; unfold size_of; ks. Qed.
Lemma keeps_heap_of : forall v, keeps (heap_of v) anyq.
Proof. intros; unfold heap_of; ks. Qed.
Lemma keeps_atype_of : forall v, keeps (atype_of v) anyq.
Proof. intros; unfold atype_of; ks. Qed.
#[local] Hint Resolve keeps_defined keeps_type_of keeps_size_of keeps_heap_of keeps_atype_of : kp.
Lemma keeps_is_array_of : forall v c, keeps (is_array_of v c) anyq.
Proof. intros; unfold is_array_of; ks. Qed.
#[local] Hint Resolve keeps_is_array_of : kp.
Lemma keeps_mapM : forall A B (f : A -> M B) l, (forall a, keeps (f a) anyq) -> keeps (mapM f l) anyq.
Proof. intros A B f l H. induction l; simpl; ks. Qed.
#[local] Hint Resolve keeps_mapM : kp.
Lemma keeps_read_val : forall f v, keeps (read_val f v) anyq.
Proof.
  induction f; intros v; simpl; ks; apply keeps_mapM; intros; ks.
Qed.
Lemma keeps_value : forall v, keeps (value v) anyq.
Proof. intros v s I. unfold value. apply keeps_read_val; auto. Qed.
#[local] Hint Resolve keeps_value : kp.
Lemma keeps_cast_var : forall t p, keeps (cast_var t p) anyq.
Proof. intros; unfold cast_var; ks. Qed.
#[local] Hint Resolve keeps_cast_var : kp.
Lemma keeps_same_shape : forall n o o' d, keeps (same_shape o o' n d) anyq.
Proof. induction n; intros; simpl; ks. Qed.
#[local] Hint Resolve keeps_same_shape : kp.
Lemma keeps_copyable : forall l h, keeps (copyable l h) anyq.
Proof. intros; unfold copyable; ks. Qed.
#[local] Hint Resolve keeps_copyable : kp.
Lemma keeps_dereference : forall v, keeps (dereference v) anyq.
Proof. intros; unfold dereference; ks. Qed.
#[local] Hint Resolve keeps_dereference : kp.
Lemma keeps_copy_elems : forall n l l' i, keeps (copy_elems l l' n i) anyq.
Proof. induction n; intros; simpl; ks. Qed.
#[local] Hint Resolve keeps_copy_elems : kp.
Lemma keeps_set_view : forall l l' p, keeps (set_view l l' p) anyq.
Proof. intros; unfold set_view; ks. Qed.
#[local] Hint Resolve keeps_set_view : kp.
Lemma keeps_assign_plain : forall v p, keeps (assign_plain v p) anyq.
Proof. intros; unfold assign_plain; ks. Qed.
#[local] Hint Resolve keeps_assign_plain : kp.
Lemma keeps_assign : forall v p, keeps (assign v p) anyq.
Proof. intros; unfold assign; ks. Qed.
#[local] Hint Resolve keeps_assign : kp.
Lemma keeps_assign_copy : forall v p, keeps (assign_copy v p) anyq.
Proof. intros; unfold assign_copy; ks. Qed.
Lemma keeps_assign_value : forall v p, keeps (assign_value v p) anyq.
Proof. intros; unfold assign_value; ks. Qed.
Lemma keeps_reference : forall v i, keeps (reference v i) anyq.
Proof. intros; unfold reference; ks. Qed.
#[local] Hint Resolve keeps_assign_copy keeps_assign_value keeps_reference : kp.
Lemma keeps_at_int : forall v i, keeps (at_int v i) anyq.
Proof. intros; unfold at_int; ks. Qed.
#[local] Hint Resolve keeps_at_int : kp.
Lemma keeps_set_at : forall v i x, keeps (set_at v i x) anyq.
Proof. intros; unfold set_at; ks. Qed.
#[local] Hint Resolve keeps_set_at : kp.
Lemma keeps_set_at_copy : forall v i x, keeps (set_at_copy v i x) anyq.
Proof. intros; unfold set_at_copy; ks. Qed.
Lemma keeps_type_for : forall v, keeps (type_for v) anyq.
Proof. intros; unfold type_for; ks. Qed.
#[local] Hint Resolve keeps_set_at_copy keeps_type_for : kp.
Lemma keeps_become_array : forall v n, keeps (become_array v n) anyq.
Proof. intros; unfold become_array; ks. Qed.
#[local] Hint Resolve keeps_become_array : kp.
Lemma keeps_array : forall v, keeps (array v) anyq.
Proof. intros; unfold array; ks. Qed.
Lemma keeps_resize : forall v n, keeps (resize v n) anyq.
Proof. intros; unfold resize; ks. Qed.
#[local] Hint Resolve keeps_array keeps_resize : kp.
Lemma keeps_index_plain : forall v n, keeps (index_plain v n) anyq.
Proof. intros; unfold index_plain; ks. Qed.
#[local] Hint Resolve keeps_index_plain : kp.
Lemma keeps_index_int : forall v n, keeps (index_int v n) anyq.
Proof. intros; unfold index_int; ks. Qed.
#[local] Hint Resolve keeps_index_int : kp.
Lemma keeps_push : forall v p, keeps (push v p) anyq.
Proof. intros; unfold push; ks. Qed.
Lemma keeps_pop : forall v, keeps (pop v) anyq.
Proof. intros; unfold pop; ks. Qed.
Lemma keeps_clear : forall v, keeps (clear v) anyq.
Proof. intros; unfold clear; ks. Qed.
Lemma keeps_key_ptr : forall v i, keeps (key_ptr v i) anyq.
Proof. intros; unfold key_ptr; ks. Qed.
#[local] Hint Resolve keeps_push keeps_pop keeps_clear keeps_key_ptr : kp.
Lemma keeps_shift_up : forall n v i, keeps (shift_up v n i) anyq.
Proof. induction n; intros; simpl; ks. Qed.
Lemma keeps_shift_up_pairs : forall n v i, keeps (shift_up_pairs v n i) anyq.
Proof. induction n; intros; simpl; ks. Qed.
Lemma keeps_spread : forall f v p idx i, keeps (spread v p idx f i) anyq.
Proof. induction f; intros; simpl; ks. Qed.
Lemma keeps_fill : forall f v p idx i, keeps (fill v p idx f i) anyq.
Proof. induction f; intros; simpl; ks. Qed.
#[local] Hint Resolve keeps_shift_up keeps_shift_up_pairs keeps_spread keeps_fill : kp.
Lemma keeps_insert : forall v p i, keeps (insert v p i) anyq.
Proof. intros; unfold insert; ks. Qed.
#[local] Hint Resolve keeps_insert : kp.
Lemma keeps_append : forall v p, keeps (append v p) anyq.
Proof. intros; unfold append; ks. Qed.
Lemma keeps_attach_all : forall l, keeps (attach_all l) anyq.
Proof. induction l; simpl; ks. Qed.
#[local] Hint Resolve keeps_append keeps_attach_all : kp.
Lemma room_filled : forall t n (cs c : list (mvar * mvar)), room t n (length c) -> length cs = n -> room t n (length (cs ++ skipn n c)).
Proof. intros t n cs c R L H. specialize (R H). rewrite app_length, skipn_length. lia. Qed.
Lemma keeps_copy_cells : forall o, keeps (copy_cells o) anyq.
Proof.
  intros o. unfold copy_cells. eapply keeps_bind; [apply keeps_new_cells|]. intros c R. cbv beta in R. ks.
  apply keeps_new_obj. unfold fits. simpl. apply room_filled; auto. apply Nat.ltb_ge in Heqb. pose proof (firstn_le_length (h_size o) (h_cells o)). lia.
Qed.
#[local] Hint Resolve keeps_copy_cells : kp.
Lemma keeps_copy : forall v, keeps (copy v) anyq.
Proof.
  intros v. unfold copy. ks. apply (keeps_bind _ _ _ _ (fun c => room (HE TInt) (odim a0 * 2 + 1) (length c))); [apply keeps_new_cells|]. intros c R. cbv beta in R. ks.
  apply keeps_new_obj. unfold fits. simpl h_ty. simpl h_size. simpl h_cells. apply room_filled; auto.
  match goal with H : Nat.ltb _ _ = false |- _ => apply Nat.ltb_ge in H end.
  match goal with |- length (firstn ?n ?l) = _ => pose proof (firstn_le_length n l) end. lia.
Qed.
#[local] Hint Resolve keeps_copy : kp.
Lemma keeps_shift_down : forall n v i, keeps (shift_down v n i) anyq.
Proof. induction n; intros; simpl; ks. Qed.
#[local] Hint Resolve keeps_shift_down : kp.
Lemma keeps_remove : forall v i, keeps (remove v i) anyq.
Proof. intros; unfold remove; ks. Qed.
Lemma firstn_mid : forall (n : nat) (rest : list (mvar * mvar)) d, n <= length rest ->
  length (firstn n rest ++ d :: skipn n rest) = S (length rest).
Proof. intros. rewrite app_length. simpl. rewrite firstn_length, skipn_length. lia. Qed.
Lemma fits_mid : forall o c rest n d, fits o -> h_cells o = c :: rest -> h_size o = S n -> fits (set_cells o (firstn n rest ++ d :: skipn n rest)).
Proof.
  intros o c rest n d F E S. unfold fits, room in *. simpl in *. rewrite E, S in F. rewrite S. intros H. specialize (F H). simpl in F.
  rewrite firstn_mid by lia. lia.
Qed.
Lemma keeps_heap_shift : forall l, keeps (heap_shift l) anyq.
Proof.
  intros l s I. unfold heap_shift. unfold bind at 1. pose proof (keeps_get_obj l s I) as G. unfold get_obj in *.
  destruct (nth_error (mem s) l) as [[o|]|] eqn:E; auto. destruct G as [_ F].
  destruct (h_cells o) as [|d rest] eqn:Cells; simpl; auto. destruct (h_size o) as [|n] eqn:Sz; simpl; auto.
  match goal with |- match (match snd d with MNil => ?X s | _ => _ end) with _ => _ end => idtac | _ => idtac end.
  assert (Main : forall x, match ((attach x ;;
        (if varlike (h_ty o)
         then
           let! o := get_obj l in
           set_obj l (set_cells o (firstn n rest ++ (MNil, MNil) :: skipn n rest)) ;;
           release [fst d; snd d]
         else set_obj l (set_cells o (firstn n rest ++ match nth_error (d :: rest) n with Some d => [d] | None => [] end ++ skipn n rest))) ;;
        heap_resize l n ;;
        ret x) s) with ROk a s' => J s' /\ anyq a | RThrow _ s' => J s' | _ => True end).
  { intros x. unfold bind at 1. unfold attach.
    assert (At : forall s1, mem s1 = mem s -> J s1 ->
      match (((if varlike (h_ty o)
         then
           let! o := get_obj l in
           set_obj l (set_cells o (firstn n rest ++ (MNil, MNil) :: skipn n rest)) ;;
           release [fst d; snd d]
         else set_obj l (set_cells o (firstn n rest ++ match nth_error (d :: rest) n with Some d => [d] | None => [] end ++ skipn n rest))) ;;
        heap_resize l n ;;
        ret x) s1) with ROk a s' => J s' /\ anyq a | RThrow _ s' => J s' | _ => True end).
    { intros s1 M1 I1. destruct (varlike (h_ty o)).
      - unfold bind at 1 2. unfold get_obj. rewrite M1, E.
        assert (K : keeps (set_obj l (set_cells o (firstn n rest ++ (MNil, MNil) :: skipn n rest)) ;; release [fst d; snd d]) anyq).
        { eapply keeps_bind; [apply keeps_set_obj; eapply fits_mid; eauto|]. intros; apply keeps_release. }
        specialize (K s1 I1). destruct ((set_obj l _ ;; release _) s1); auto. destruct K as [K _].
        assert (K2 : keeps (heap_resize l n ;; ret x) anyq) by ks. apply K2; auto.
      - assert (K : keeps (set_obj l (set_cells o (firstn n rest ++ match nth_error (d :: rest) n with Some d => [d] | None => [] end ++ skipn n rest)) ;; heap_resize l n ;; ret x) anyq).
        { eapply keeps_bind; [apply keeps_set_obj|intros; ks].
          destruct (nth_error (d :: rest) n) as [d'|] eqn:N; [eapply fits_mid; eauto|].
          apply nth_error_None in N. simpl in N. unfold fits, room in *. simpl in *. rewrite Cells, Sz in F. rewrite Sz. intros H. specialize (F H).
          simpl in F. lia. }
        apply K; auto. }
    destruct (target x); [|apply At; auto].
    unfold bind at 1. destruct (get_obj n0 s) as [a s1|m s1|k|] eqn:G; auto.
    - unfold get_obj in G. destruct (nth_error (mem s) n0) as [[o1|]|]; inversion G; subst. apply At; auto.
    - unfold get_obj in G. destruct (nth_error (mem s) n0) as [[o1|]|]; inversion G; subst. }
  destruct (snd d) eqn:Sd; try apply Main; simpl; auto.
Qed.
#[local] Hint Resolve keeps_remove keeps_heap_shift : kp.
Lemma keeps_shift : forall v, keeps (shift v) anyq.
Proof. intros; unfold shift; ks. Qed.
Lemma keeps_get_as : forall t p, keeps (get_as t p) anyq.
Proof. intros; unfold get_as; ks. Qed.
#[local] Hint Resolve keeps_shift keeps_get_as : kp.
Lemma cells_front : forall (c : list (mvar * mvar)) n x, n < length c -> length (x :: firstn n c ++ skipn (S n) c) = length c.
Proof. intros c n x H. transitivity (S (length (firstn n c ++ skipn (S n) c))); [reflexivity|]. rewrite app_length, firstn_length, skipn_length. lia. Qed.
Lemma keeps_heap_unshift : forall l p, keeps (heap_unshift l p) anyq.
Proof.
  intros l p. unfold heap_unshift. ks.
  all: try (apply keeps_set_obj; apply fits_cells; auto; apply cells_front; apply Nat.leb_gt; assumption).
Qed.
#[local] Hint Resolve keeps_heap_unshift : kp.
Lemma keeps_unshift : forall v p, keeps (unshift v p) anyq.
Proof. intros; unfold unshift; ks. Qed.
Lemma keeps_write_chars : forall str l i, keeps (write_chars l i str) anyq.
Proof. induction str; intros; simpl; ks. apply keeps_set_obj. apply fits_cells; auto. apply sn_length. Qed.
#[local] Hint Resolve keeps_unshift keeps_write_chars : kp.
Lemma keeps_heap_append : forall l str, keeps (heap_append l str) anyq.
Proof. intros; unfold heap_append; ks. Qed.
#[local] Hint Resolve keeps_heap_append : kp.
Lemma keeps_append_str : forall v str, keeps (append_str v str) anyq.
Proof. intros; unfold append_str; ks. Qed.
Lemma keeps_string_var : forall str, keeps (string_var str) anyq.
Proof. intros; unfold string_var; ks. Qed.
#[local] Hint Resolve keeps_append_str keeps_string_var : kp.
Lemma keeps_binary_search : forall f v p b lo hi, keeps (binary_search v p b f lo hi) anyq.
Proof. induction f; intros; simpl; ks. Qed.
#[local] Hint Resolve keeps_binary_search : kp.
Lemma keeps_binary : forall v p, keeps (binary v p) anyq.
Proof. intros; unfold binary; ks. Qed.
#[local] Hint Resolve keeps_binary : kp.
Lemma keeps_index_var : forall v p, keeps (index_var v p) anyq.
Proof. intros; unfold index_var; ks. Qed.
Lemma keeps_desc_loop : forall sh, keeps (desc_loop sh) anyq.
Proof. induction sh; simpl; ks. Qed.
#[local] Hint Resolve keeps_index_var keeps_desc_loop : kp.
Lemma keeps_view : forall v sh off, keeps (view v sh off) anyq.
Proof.
  intros; unfold view; ks.
  all: match goal with |- keeps (bind (new_cells ?t ?n) _) _ => apply (keeps_bind _ _ _ _ (fun c => room t n (length c))); [apply keeps_new_cells|] end;
    intros c R; cbv beta in R; ks; apply keeps_new_obj; unfold fits; match goal with |- room (h_ty (mkobj ?t ?n ?g (?cs ++ ?k) ?v)) _ _ => change (room t n (length (cs ++ k))) end; apply room_filled; auto; rewrite map_length; reflexivity.
Qed.
Lemma keeps_temp : forall x, keeps (temp x) anyq.
Proof. intros x s I. unfold temp. split; [eapply J_mem; eauto; reflexivity|exact Logic.I]. Qed.
#[local] Hint Resolve keeps_view keeps_temp : kp.
Lemma keeps_at_key : forall v q, keeps (at_key v q) anyq.
Proof. intros; unfold at_key; ks. Qed.
Lemma keeps_key_of : forall v i, keeps (key_of v i) anyq.
Proof. intros; unfold key_of; ks. Qed.
Lemma keeps_arith_value : forall op v q, keeps (arith_value op v q) anyq.
Proof. intros; unfold arith_value; ks. Qed.
#[local] Hint Resolve keeps_at_key keeps_key_of keeps_arith_value : kp.
Lemma keeps_arith_var : forall op v q, keeps (arith_var op v q) anyq.
Proof. intros; unfold arith_var; ks. Qed.
Lemma keeps_on_elem : forall op l i y, keeps (on_elem op l i y) anyq.
Proof. intros; unfold on_elem; ks. Qed.
#[local] Hint Resolve keeps_on_elem : kp.
Lemma keeps_each_elem : forall op t l p n i, keeps (each_elem op t l p n i) anyq.
Proof. induction n; intros; simpl; ks. Qed.
Lemma keeps_scale_elems : forall l y n i, keeps (scale_elems l y n i) anyq.
Proof. induction n; intros; simpl; ks. Qed.
Lemma keeps_pair_elems : forall op l off l' n i, keeps (pair_elems op l off l' n i) anyq.
Proof. induction n; intros; simpl; ks. Qed.
#[local] Hint Resolve keeps_each_elem keeps_scale_elems keeps_pair_elems : kp.
Lemma keeps_rows : forall op l step l' n' n i, keeps (rows op l step l' n' n i) anyq.
Proof. induction n; intros; simpl; ks. Qed.
#[local] Hint Resolve keeps_rows : kp.
Lemma keeps_arith_array : forall op l p, keeps (arith_array op l p) anyq.
Proof. intros; unfold arith_array; ks. Qed.
#[local] Hint Resolve keeps_arith_array : kp.
Lemma keeps_arith_to : forall op v q, keeps (arith_to op v q) anyq.
Proof. intros; unfold arith_to; ks. Qed.
#[local] Hint Resolve keeps_arith_var keeps_arith_to : kp.
Lemma keeps_own_var : forall v m, keeps m anyq -> keeps (own_var v m) anyq.
Proof. intros v m K. unfold own_var. ks. Qed.
Lemma keeps_count_cells : forall sh p, keeps (count_cells sh p) anyq.
Proof. induction sh; intros p; simpl; ks. Qed.
#[local] Hint Resolve keeps_own_var keeps_count_cells : kp.
Lemma keeps_new_view : forall sh p, keeps (new_view sh p) anyq.
Proof. intros; unfold new_view; ks. Qed.
Lemma keeps_offset_of : forall v, keeps (offset_of v) anyq.
Proof. intros; unfold offset_of; ks. Qed.
Lemma keeps_set_offset : forall v n, keeps (set_offset v n) anyq.
Proof. intros; unfold set_offset; ks. apply keeps_set_obj. apply fits_cells; auto. apply sn_length. Qed.
#[local] Hint Resolve keeps_new_view keeps_offset_of keeps_set_offset : kp.
Lemma keeps_advance : forall v n, keeps (advance v n) anyq.
Proof. intros; unfold advance; ks. Qed.
#[local] Hint Resolve keeps_advance : kp.
Lemma keeps_eval : forall e nv, keeps (eval nv e) anyq.
Proof. induction e; intros nv; simpl; ks. Qed.
#[local] Hint Resolve keeps_eval : kp.
Lemma keeps_presize : forall v n, keeps (presize v n) anyq.
Proof. intros; unfold presize; ks. Qed.
#[local] Hint Resolve keeps_presize : kp.
Lemma keeps_element_of : forall nv e, keeps (element_of nv e) anyq.
Proof. intros; unfold element_of; ks. Qed.
#[local] Hint Resolve keeps_element_of : kp.
Lemma keeps_elements_of : forall es nv, keeps (elements_of nv es) anyq.
Proof. induction es; intros nv; simpl; ks. Qed.
Lemma keeps_push_all : forall ps v, keeps (push_all v ps) anyq.
Proof. induction ps; intros v; simpl; unfold own_var, with_copy; ks. Qed.
Lemma keeps_fill_from : forall n v p i, keeps (fill_from v p n i) anyq.
Proof. induction n; intros v p i; simpl; ks. Qed.
#[local] Hint Resolve keeps_elements_of keeps_push_all keeps_fill_from : kp.
Lemma keeps_fill_with : forall v n p, keeps (fill_with v n p) anyq.
Proof. intros; unfold fill_with, own_var; ks. Qed.
#[local] Hint Resolve keeps_fill_with : kp.
Lemma keeps_init_list : forall nv es, keeps (init_list nv es) anyq.
Proof. intros; unfold init_list; ks. Qed.
Lemma keeps_init_fill : forall nv n e, keeps (init_fill nv n e) anyq.
Proof. intros; unfold init_fill, with_copy; ks. Qed.
Lemma keeps_shape_with : forall v sh p, keeps (shape_with v sh p) anyq.
Proof. intros; unfold shape_with; ks. Qed.
#[local] Hint Resolve keeps_shape_with : kp.
Lemma keeps_init_shape : forall nv sh e, keeps (init_shape nv sh e) anyq.
Proof. intros; unfold init_shape, with_copy; ks. Qed.
Lemma keeps_body : forall nv t, keeps (body nv t) anyq.
Proof. intros nv t. destruct t; simpl; unfold own_var, with_copy; ks. Qed.
Lemma keeps_exec : forall t, keeps (exec t) anyq.
Proof.
  intros t s I. unfold exec.
  assert (Fin : match finish (length (stk s)) (body (length (stk s)) t) s with ROk a s' => J s' /\ anyq a | RThrow _ s' => J s' | _ => True end).
  { unfold finish. pose proof (keeps_body (length (stk s)) t s I) as K. destruct (body (length (stk s)) t s); auto.
    - apply keeps_leave. apply K.
    - assert (K2 : keeps (leave (length (stk s)) ;; throw m) (@anyq unit)) by ks. apply K2; auto. }
  assert (Keep : forall m, keeps m anyq -> match keep_value (length (stk s)) m s with ROk a s' => J s' /\ anyq a | RThrow _ s' => J s' | _ => True end).
  { intros m K. unfold keep_value. specialize (K s I). destruct (m s) as [a s1|k s1|k|]; auto.
    + assert (K2 : keeps (leave (length (stk s)) ;; (let! _ := temp a in ret tt)) anyq) by ks. apply K2; apply K.
    + assert (K2 : keeps (leave (length (stk s)) ;; throw k) (@anyq unit)) by ks. apply K2; auto. }
  destruct t; auto.
  - apply Keep. ks.
  - apply Keep, keeps_init_list.
  - apply Keep, keeps_init_fill.
  - apply keeps_leave; auto.
  - apply Keep, keeps_init_shape.
Qed.
Lemma keeps_run : forall l, keeps (run l) anyq.
Proof.
  induction l; intros s I; simpl; [split; auto; exact Logic.I|]. pose proof (keeps_exec a s I) as K.
  destruct (exec a s); auto; apply IHl; [apply K|auto].
Qed.
Lemma J_start : J start.
Proof. intros l o H. destruct l; discriminate. Qed.
