(** Inserting an array into itself. *)
From Coq Require Import ZArith Bool List String Lia.
From Verif Require Import Base StrModel ValModel NumModel AllocModel AllocProof MemModel MemProof MemFun MemEq MemDeref MemTriple MemOps MemArr MemMore MemKey MemElem MemMeth MemList MemRun ArrSpec MemArrays MemCopy MemThrow.
Import ListNotations.
Local Open Scope list_scope.
Local Open Scope mem_scope.
Local Notation length := List.length.

(** The capacity after a resize. *)
Definition enlarged (cap : nat) (t : hty) (n : nat) (cap' : nat) : Prop :=
  exists c, allocSize (Z.of_nat n + (if is_char t then 1 else 0)) = Base.Ok c /\ cap' = Nat.max cap (Z.to_nat c).
Lemma resize_cap : forall s l n o o', obj l s = Some o -> (Z.of_nat n < 2 ^ 30)%Z -> heap_resize l n s = ROk tt (set_mem l o' s) -> enlarged (length (h_cells o)) (h_ty o) n (length (h_cells o')).
Proof.
  intros s l n o o' O Sm E. destruct (alloc_ex (h_ty o) n Sm) as (c & Ec & Hc). exists c. split; auto. pose proof (obj_lt _ _ _ O) as Ll.
  assert (G : forall o2, set_mem l o2 s = set_mem l o' s -> o' = o2).
  { intros o2 X. pose proof (f_equal (obj l) X) as Y. rewrite !obj_set_mem, !Nat.eqb_refl in Y by auto. congruence. }
  unfold heap_resize in E. rewrite (bind_ok _ _ _ _ _ _ _ (get_obj_eq _ _ _ O)) in E. rewrite Ec in E.
  rewrite (bind_ok _ _ (lift (Base.Ok c)) _ s c s eq_refl) in E. cbv zeta in E. destruct (Z.ltb_spec (Z.of_nat (length (h_cells o))) c) as [H|H].
  - unfold set_obj in E. match type of E with ROk tt ?a = _ => change a with (set_mem l (mkobj (h_ty o) n (S (h_gen o)) (terminate (h_ty o) n (h_cells o ++ repeat (fresh (h_ty o)) (Z.to_nat c - length (h_cells o)))) (h_view o)) s) in E end.
    match type of E with ROk tt ?a = ROk tt ?c => assert (X : a = c) by congruence end. apply G in X. subst o'. simpl. rewrite terminate_len, app_length, repeat_length. lia.
  - destruct (is_char (h_ty o) && Nat.leb (length (h_cells o)) n); [discriminate|].
    unfold set_obj in E. match type of E with ROk tt ?a = _ => change a with (set_mem l (mkobj (h_ty o) n (h_gen o) (terminate (h_ty o) n (h_cells o)) (h_view o)) s) in E end.
    match type of E with ROk tt ?a = ROk tt ?c => assert (X : a = c) by congruence end. apply G in X. subst o'. simpl. rewrite terminate_len. lia.
Qed.

(** One step of the loop reads element [i] and stores it [b] further on. *)
Lemma self_step : forall e s j q l o b i v, INV e [] s -> nth_error (stk s) j = Some (MPtr l) -> nth_error (stk s) q = Some (MPtr l) ->
  obj l s = Some o -> h_view o = None -> varlike (h_ty o) = false -> i < h_size o -> val_at o i = Some v -> fits_type (h_ty o) v ->
  (b + i < length (h_cells o) ->
     exists s', (let! x := index_int (LS q) (Z.of_nat i) in set_at (LS j) (Z.of_nat b + Z.of_nat i) x) s = ROk tt s' /\ INV e [] s' /\ became l (set_val o (b + i) v) s s') /\
  (length (h_cells o) <= b + i -> (let! x := index_int (LS q) (Z.of_nat i) in set_at (LS j) (Z.of_nat b + Z.of_nat i) x) s = RUB OutOfBounds).
Proof.
  intros e s j q l o b i v I Nj Nq O V Vl Li Hv Ft. pose proof (INV_sound _ _ _ I) as Sd. pose proof (obj_lt _ _ _ O) as Ll.
  assert (Ok : okcells s o) by (intros X; congruence). set (x := MRef l i).
  assert (E0 : index_int (LS q) (Z.of_nat i) s = ROk x (bump x s)).
  { unfold x. rewrite <- (Nat2Z.id i) at 2. change (bump (MRef l i) s) with (bump (MPtr l) s). eapply (index_in_ptr s (LS q) l (Z.of_nat i) o); auto. lia. }
  assert (Hx : held x s) by (apply (held_ptr (LS q)); auto). pose proof (conv_elem s l o i v O V Ok Hv Ft) as Cv.
  replace (Z.of_nat b + Z.of_nat i)%Z with (Z.of_nat (b + i)) by lia. split; intros L.
  - destruct (set_at_became e [] (bump x s) j l (b + i) o x v) as (s1 & E1 & I1 & B1); auto.
    + apply INV_bump; auto.
    + apply conv_bump; auto.
    + congruence.
    + exists s1. split; [rewrite (bind_ok _ _ _ _ _ _ _ E0); exact E1|]. split; auto.
  - rewrite (bind_ok _ _ _ _ _ _ _ E0). unfold set_at, scoped at 1. fold (push_s x (bump x s)). set (s1 := push_s x (bump x s)).
    assert (I1 : INV e [] s1) by (apply INV_push, INV_bump; auto). pose proof (INV_sound _ _ _ I1) as Sd1.
    assert (N1 : nth_error (stk s1) j = Some (MPtr l)) by (unfold s1; simpl; rewrite nth_error_app1; auto; apply ne_lt in Nj; auto).
    rewrite (bind_ok _ _ _ _ _ _ _ (at_int_ptr s1 (LS j) l (Z.of_nat (b + i)) Sd1 N1 (Nat2Z.is_nonneg _))). rewrite Nat2Z.id.
    set (r := MRef l (b + i)). unfold scoped. fold (push_s r (bump r s1)). set (s2 := push_s r (bump r s1)).
    assert (I2 : INV e [] s2) by (apply INV_push, INV_bump; auto; apply (held_ptr (LS j)); auto).
    assert (O2 : obj l s2 = Some o) by exact O.
    change (bump (MRef l (b + i)) s1) with (bump r s1) in *. 
    assert (Gr : getv (LS (length (stk (bump r s1)))) s2 = Some r) by apply getv_push_new.
    assert (Nx : nth_error (stk s2) (length (stk (bump x s))) = Some x).
    { unfold s2, s1; simpl. rewrite <- app_assoc, nth_error_app2, Nat.sub_diag by auto. reflexivity. }
    assert (Cv2 : conv s2 (h_ty o) x v) by (apply conv_push, conv_bump, conv_push, conv_bump; auto).
    unfold assign. rewrite (bind_ok _ _ _ _ _ _ _ (get_eq _ _ _ Gr)). unfold r. rewrite (bind_ok _ _ _ _ _ _ _ (get_obj_eq _ _ _ O2)).
    rewrite (bind_ok _ _ (obj_type o) _ s2 (h_ty o) s2); [|unfold obj_type; rewrite V; reflexivity].
    assert (W : forall u, write_elem l (Z.of_nat (b + i)) u s2 = RUB OutOfBounds).
    { intros u. unfold write_elem. assert (Ea : elem_at l (Z.of_nat (b + i)) s2 = ROk (l, b + i) s2).
      { rewrite (elem_at_eq l (Z.of_nat (b + i)) s2 l (Z.of_nat (b + i))); [rewrite Nat2Z.id; auto| |lia]. exists o. rewrite V. auto. }
      rewrite (bind_ok _ _ _ _ _ _ _ Ea). rewrite (bind_ok _ _ _ _ _ _ _ (get_obj_eq _ _ _ O2)).
      rewrite (proj2 (nth_error_None (h_cells o) (b + i)) L). reflexivity. }
    assert (Den : forall t, h_ty o = HE t -> (exists v0 u, der_spec x s2 (MNum v0) /\ cast t v0 = Base.Ok u /\ v = MNum u) ->
       (let! u := cast_var t (LS (length (stk (bump x s)))) in write_elem l (Z.of_nat (b + i)) u) s2 = RUB OutOfBounds).
    { intros t E (v0 & u & D & C & ->). rewrite (bind_ok _ _ _ _ s2 u s2); [apply W|]. rewrite (cast_var_eq t (LS (length (stk (bump x s)))) s2 x v0 Nx D), C. reflexivity. }
    assert (Z : forall A B (m : M A) (f : A -> M B), m s2 = RUB OutOfBounds -> bind m f s2 = RUB OutOfBounds) by (intros A B m f X; unfold bind; rewrite X; auto).
    destruct (h_ty o) as [[]|] eqn:Ty; try discriminate; rewrite (Den _ eq_refl Cv2); reflexivity.
Qed.

(** The whole loop: [g] is the sequence of values written. *)
Lemma fill_self : forall k e s j q l o b m i fuel g, INV e [] s -> nth_error (stk s) j = Some (MPtr l) -> nth_error (stk s) q = Some (MPtr l) ->
  obj l s = Some o -> h_view o = None -> varlike (h_ty o) = false -> h_size o = m -> i + k = m -> 1 <= b -> b + i <= length (h_cells o) -> k < fuel ->
  (forall p, p < b + i -> val_at o p = Some (g p)) -> (forall p, fits_type (h_ty o) (g p)) -> (forall p, g (b + p) = g p) ->
  (b + m <= length (h_cells o) ->
     exists s' o', fill (LS j) (LS q) (Z.of_nat b) fuel (Z.of_nat i) s = ROk tt s' /\ INV e [] s' /\ became l o' s s' /\ alike o o' /\
       (forall p, p < b + m -> val_at o' p = Some (g p)) /\ (forall p, b + m <= p -> val_at o' p = val_at o p)) /\
  (length (h_cells o) < b + m -> fill (LS j) (LS q) (Z.of_nat b) fuel (Z.of_nat i) s = RUB OutOfBounds).
Proof.
  induction k as [|k IH]; intros e s j q l o b m i fuel g I Nj Nq O V Vl Sz Im Hb Li Fu Hg Ft Per; (destruct fuel as [|fuel]; [lia|]).
  - split; [intros L|lia]. exists s, o. split; [|split; [auto|split; [apply became_refl; auto|split; [apply alike_refl|split; auto]]]].
    + simpl fill. rewrite (bind_ok _ _ _ _ _ _ _ (ptr_size s (LS q) l Nq o O V)). rewrite Sz. destruct (Z.leb_spec (Z.of_nat m) (Z.of_nat i)); [reflexivity|lia].
    + intros p Hp. apply Hg. lia.
  - destruct (self_step e s j q l o b i (g i) I Nj Nq O V Vl) as [A B]; [lia|apply Hg; lia|apply Ft|].
    assert (E : forall r, (let! x := index_int (LS q) (Z.of_nat i) in set_at (LS j) (Z.of_nat b + Z.of_nat i) x) s = r ->
      fill (LS j) (LS q) (Z.of_nat b) (S fuel) (Z.of_nat i) s = match r with ROk _ s1 => fill (LS j) (LS q) (Z.of_nat b) fuel (Z.of_nat (S i)) s1 | RThrow ms s1 => RThrow ms s1 | RUB u => RUB u | RStuck => RStuck end).
    { intros r <-. simpl fill. rewrite (bind_ok _ _ _ _ _ _ _ (ptr_size s (LS q) l Nq o O V)). rewrite Sz. destruct (Z.leb_spec (Z.of_nat m) (Z.of_nat i)); [lia|].
      replace (Z.of_nat i + 1)%Z with (Z.of_nat (S i)) by lia. unfold bind. destruct (index_int (LS q) (Z.of_nat i) s); auto. }
    pose proof (obj_lt _ _ _ O) as Ll.
    destruct (Nat.lt_ge_cases (b + i) (length (h_cells o))) as [L|L].
    + destruct (A L) as (s1 & E1 & I1 & B1). rewrite (E _ E1). destruct (set_val_alike o (b + i) (g i)) as (A1 & A2 & A3 & A4 & A5).
      pose proof (became_stk _ _ _ _ B1) as St.
      destruct (IH e s1 j q l (set_val o (b + i) (g i)) b m (S i) fuel g) as [P Q]; auto; try lia; try (clear Per Hg Ft; congruence).
      * apply B1.
      * intros p Hp. rewrite set_val_at by auto. destruct (Nat.eqb_spec p (b + i)); [subst; rewrite (Per i); reflexivity|apply Hg; lia].
      * intros p. rewrite A1. apply Ft.
      * split; [|intros X; apply Q; lia]. intros X. destruct P as (s' & o' & E2 & I2 & B2 & Al & H1 & H2); [lia|].
        exists s', o'. split; auto. split; auto. split; [eapply became_trans; eauto|]. split; [eapply alike_trans; eauto; apply set_val_alike|]. split; auto.
        intros p Hp. rewrite H2 by auto. rewrite set_val_at by auto. destruct (Nat.eqb_spec p (b + i)); [lia|auto].
    + rewrite (E _ (B L)). split; [lia|auto].
Qed.

(** [a.insert(a, b)] for [1 <= b]: the elements from [b] on become a repetition of the first
    [b], as many as twice the old size; they must fit the storage as it is after the resize. *)
Lemma insert_self_gives : forall e s j p l o b g, INV e [] s ->
  nth_error (stk s) j = Some (MPtr l) -> nth_error (stk s) p = Some (MPtr l) -> obj l s = Some o -> h_view o = None -> varlike (h_ty o) = false ->
  h_size o <= length (h_cells o) -> (Z.of_nat (2 * h_size o) < 2 ^ 30)%Z -> 1 <= b <= h_size o ->
  (forall i, i < b -> val_at o i = Some (g i)) -> (forall i, fits_type (h_ty o) (g i)) -> (forall i, g (b + i) = g i) ->
  exists cap, enlarged (length (h_cells o)) (h_ty o) (2 * h_size o) cap /\
    (b + 2 * h_size o <= cap ->
       exists s' o', insert (LS j) (LS p) (Z.of_nat b) s = ROk tt s' /\ INV e [] s' /\ became l o' s s' /\
         h_ty o' = h_ty o /\ h_view o' = None /\ h_size o' = 2 * h_size o /\ length (h_cells o') = cap /\
         (forall i, i < b + 2 * h_size o -> val_at o' i = Some (g i))) /\
    (cap < b + 2 * h_size o -> insert (LS j) (LS p) (Z.of_nat b) s = RUB OutOfBounds).
Proof.
  intros e s j p l o b g I Nj Np O V Vl Cp Sm Lb Hg Ft Per. set (n := h_size o) in *. pose proof (obj_lt _ _ _ O) as Ll.
  destruct (resize_became e [] s j l (2 * n) o I Nj O) as (o1 & s1 & E1 & Es1 & I1 & B1 & G1); [lia|].
  assert (Cap : enlarged (length (h_cells o)) (h_ty o) (2 * n) (length (h_cells o1))).
  { apply (resize_cap s l (2 * n) o o1); auto. rewrite (ptr_resize s (LS j) l Nj) in E1 by lia. rewrite Nat2Z.id in E1. rewrite E1. subst. auto. }
  exists (length (h_cells o1)). split; auto.
  pose proof (became_stk _ _ _ _ B1) as St1. pose proof B1 as [_ O1]. pose proof G1 as (T1 & V1 & S1 & C1 & _).
  assert (C1' : 2 * n <= length (h_cells o1)) by (destruct (is_char (h_ty o)); lia).
  assert (V1' : h_view o1 = None) by congruence.
  assert (N1 : nth_error (stk s1) j = Some (MPtr l)) by (rewrite St1; auto).
  assert (P1 : nth_error (stk s1) p = Some (MPtr l)) by (rewrite St1; auto).
  assert (G1v : forall k, k < n -> val_at o1 k = val_at o k) by (intros k K; apply (grown_val (2 * n)); auto; lia).
  assert (R : forall r, fill (LS j) (LS p) (Z.of_nat b) (S (2 * n)) (Z.of_nat 0) s1 = r -> insert (LS j) (LS p) (Z.of_nat b) s = r).
  { intros r Er. unfold insert. rewrite (bind_ok _ _ _ _ _ _ _ (ptr_size s (LS j) l Nj o O V)). fold n. rewrite size_ltb by lia.
    rewrite (bind_ok _ _ _ _ _ _ _ (ptr_is_array s (LS j) l Nj o 8 O V)).
    assert (H8 : (hcode (h_ty o) =? 8)%Z = false) by (destruct (h_ty o) as [[]|]; simpl in Vl; try discriminate; reflexivity).
    assert (H9 : (hcode (h_ty o) =? 9)%Z = false) by (destruct (h_ty o) as [[]|]; simpl in Vl; try discriminate; reflexivity).
    rewrite H8. rewrite (bind_ok _ _ _ _ _ _ _ (ptr_is_array s (LS j) l Nj o 9 O V)). rewrite H9.
    rewrite (bind_ok _ _ _ _ _ _ _ (ptr_size s (LS j) l Nj o O V)). fold n.
    rewrite (bind_ok _ _ _ _ _ _ _ (ptr_size s (LS p) l Np o O V)). fold n. replace (Z.of_nat n + Z.of_nat n)%Z with (Z.of_nat (2 * n)) by lia.
    assert (Ii : in_int (Z.of_nat (2 * n)) = true) by (unfold in_int, INT_MIN, INT_MAX; apply andb_true_iff; split; apply Z.leb_le; lia).
    rewrite Ii. change (negb true) with false. cbv iota.
    rewrite (bind_ok _ _ _ _ _ _ _ E1). rewrite (bind_ok _ _ _ _ _ _ _ (ptr_size s1 (LS j) l N1 o1 O1 V1')). rewrite S1, Nat2Z.id.
    rewrite (bind_ok _ _ _ _ s1 tt s1).
    - rewrite (bind_ok _ _ _ _ _ _ _ (ptr_size s1 (LS p) l P1 o1 O1 V1')). rewrite S1, Nat2Z.id. exact Er.
    - cbn [spread]. rewrite (bind_ok _ _ _ _ _ _ _ (ptr_size s1 (LS p) l P1 o1 O1 V1')). rewrite S1.
      destruct (Z.leb_spec (Z.of_nat (2 * n) - 1) (Z.of_nat b + Z.of_nat (2 * n) - 1)); [reflexivity|lia]. }
  destruct (fill_self (2 * n) e s1 j p l o1 b (2 * n) 0 (S (2 * n)) g I1 N1 P1 O1 V1') as [A B]; auto; try lia; try (clear Per Hg Ft G1v; congruence).
  { intros i Hi. rewrite G1v by lia. apply Hg. lia. }
  { rewrite T1. auto. }
  split; [|intros X; apply R, B; auto]. intros X. destruct (A X) as (s' & o' & E2 & I2 & B2 & (A1 & A2 & A3 & A4 & A5) & H1 & H2).
  exists s', o'. split; [apply R; auto|]. split; auto. split; [eapply became_trans; eauto|]. repeat split; auto; congruence.
Qed.
