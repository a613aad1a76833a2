(** Property C122: what comes out of a transfer. *)
From Coq Require Import ZArith Bool List String Lia.
From Verif Require Import Base StrModel ValModel NumModel AllocModel AllocProof MemModel MemProof MemFun MemEq MemDeref MemTriple MemOps MemArr MemMore MemKey MemElem MemMeth MemList MemRun MemFits ArrSpec MemArrays MemCopy MemThrow MemSelf MemScalar MemText ArrFacts ArrProps ScalarProps MemInit MemMaps InitProps CurlModel.
Import ListNotations.
Local Open Scope list_scope.
Local Open Scope mem_scope.
Local Notation length := List.length.
Local Notation concat := List.concat.

(** Bytes as elements of a string. *)
Definition chars (cs : str) : list mvar := map (fun c => MNum (VChar c)) cs.

Lemma declare_string : forall s c, reachable s -> small (length c) ->
  exists s', exec (SDecl (EStr c)) s = ROk tt s' /\ (exists o, mem s' = mem s ++ [Some o]) /\ stk s' = stk s ++ [MPtr (length (mem s))] /\
    array_at s' (length (mem s)) (HE TChar) (chars c) /\ terminated s' (length (mem s)).
Proof.
  intros s c R Sm. destruct (reachable_INV s R) as [e I]. destruct (string_gives e [] s c I Sm) as (o & E & I1 & T & V & Sz & Vl & Nl).
  exists (push_s (MPtr (length (mem s))) (new_st o s)).
  assert (O : obj (length (mem s)) (push_s (MPtr (length (mem s))) (new_st o s)) = Some o).
  { apply obj_live. simpl. rewrite nth_error_app2, Nat.sub_diag by auto. reflexivity. }
  split; [|split; [|split; [|split]]].
  - apply declare_gives; auto. simpl. rewrite (bind_ok _ _ _ _ _ _ _ E). reflexivity.
  - exists o. reflexivity.
  - reflexivity.
  - apply (string_array _ _ o); auto. apply val_at_lt in Nl. lia.
  - eapply nul_terminated; [exact O|]. rewrite Sz. auto.
Qed.

(** The arrays there were are as they were, as far as still allocated. *)
Definition kept (s s' : state) : Prop :=
  length (mem s) <= length (mem s') /\ forall k o, k < length (mem s) -> nth_error (mem s') k = Some (Some o) -> nth_error (mem s) k = Some (Some o).

Lemma end_of_variable : forall s x y, reachable s -> stk s = x ++ [y] ->
  exists s', exec SEnd s = ROk tt s' /\ stk s' = x /\ length (mem s') = length (mem s) /\ forall k o, nth_error (mem s') k = Some (Some o) -> nth_error (mem s) k = Some (Some o).
Proof.
  intros s x y R St. destruct (reachable_INV s R) as [e I].
  destruct (leave_gives e [] s [y] {| mem := mem s; rc := rc s; stk := x |} I) as (s' & E & I' & A & B & C).
  - unfold shrunk, ext; simpl. rewrite St. auto.
  - exists s'. split; [|split; [exact A|split; [exact B|]]].
    + unfold exec. rewrite St, app_length. simpl. simpl in E. replace (length x + 1 - 1) with (length x) by lia. auto.
    + intros k o O. apply obj_live in O. apply C in O. apply obj_live in O. exact O.
Qed.

Lemma callback_gives : forall s d l cs c, reachable s -> d = length (stk s) - 1 -> (exists x, stk s = x ++ [MPtr l]) -> array_at s l (HE TChar) (chars cs) -> small (S (length cs + length c)) ->
  exists s', write_callback d c s = ROk tt s' /\ reachable s' /\ stk s' = stk s /\ array_at s' l (HE TChar) (chars (cs ++ c)) /\ terminated s' l /\
    length (mem s) <= length (mem s') /\ (forall k o, k <> l -> k < length (mem s) -> nth_error (mem s') k = Some (Some o) -> nth_error (mem s) k = Some (Some o)).
Proof.
  intros s d l cs c R -> [x St] A Sm. unfold small in Sm.
  destruct (declare_string s c R) as (s1 & E1 & [o1 M1] & S1 & A1 & T1); [unfold small; lia|].
  assert (R1 : reachable s1) by (eapply reachable_step; eauto). pose proof (array_lt _ _ _ _ A) as Ll.
  assert (Al : array_at s1 l (HE TChar) (chars cs)). { destruct A as (o & O & P). exists o. split; auto. rewrite M1, nth_error_app1; auto. }
  assert (Lx : length (stk s) = S (length x)) by (rewrite St, app_length; simpl; lia).
  assert (V1 : variable s1 (length (stk s) - 1) (MPtr l)).
  { unfold variable. rewrite Lx, S1, St, <- app_assoc. replace (S (length x) - 1) with (length x) by lia. rewrite nth_error_app2, Nat.sub_diag by auto. reflexivity. }
  assert (V2 : variable s1 (S (length (stk s) - 1)) (MPtr (length (mem s)))).
  { unfold variable. replace (S (length (stk s) - 1)) with (length (stk s)) by lia. rewrite S1, nth_error_app2, Nat.sub_diag by auto. reflexivity. }
  destruct (C14_append_to_dense s1 (length (stk s) - 1) l (HE TChar) (chars cs) (S (length (stk s) - 1)) (length (mem s)) (HE TChar) (chars c) (chars c)) as (s2 & E2 & A2 & (S2 & L2 & F2) & T2); auto.
  - intros [|]; discriminate.
  - apply Forall_forall. intros y Y. apply in_map_iff in Y as (z & <- & _). exists (VChar z). split; auto. split; auto. discriminate.
  - lia.
  - clear. unfold chars. induction c; simpl; constructor; auto. exists (VChar a), (VChar a). auto.
  - unfold chars, small. rewrite !map_length. lia.
  - assert (R2 : reachable s2) by (eapply reachable_step; eauto).
    destruct (end_of_variable s2 (stk s) (MPtr (length (mem s))) R2) as (s3 & E3 & S3 & L3 & F3); [congruence|].
    assert (R3 : reachable s3) by (eapply reachable_step; eauto). destruct (reachable_INV s3 R3) as [e3 I3].
    assert (Lv : live l s3). { destruct (INV_sound _ _ _ I3) as (_ & S & _); apply (S (MPtr l)); [|reflexivity]. rewrite S3, St. apply in_or_app. simpl; auto. }
    apply live_obj in Lv as [o3 O3]. apply obj_live in O3. pose proof (F3 _ _ O3) as O2.
    exists s3. split; [|split; [auto|split; [auto|split; [|split; [|split]]]]].
    + unfold write_callback, bind. rewrite E1, E2. exact E3.
    + unfold chars in *. rewrite map_app. destruct A2 as (o & O & P). assert (o = o3) by congruence. subst o. exists o3. auto.
    + destruct (T2 eq_refl) as (o & k & O & N). assert (o = o3) by congruence. subst o. exists o3, k. auto.
    + rewrite L3, L2, M1, app_length. lia.
    + intros k o K Lk O. apply F3, F2 in O; auto. rewrite M1, nth_error_app1 in O; auto.
Qed.
Lemma callbacks_give : forall cs s d l ds, reachable s -> d = length (stk s) - 1 -> (exists x, stk s = x ++ [MPtr l]) -> array_at s l (HE TChar) (chars ds) -> terminated s l -> small (S (length ds + length (concat cs))) ->
  exists s', callbacks d cs s = ROk tt s' /\ reachable s' /\ stk s' = stk s /\ array_at s' l (HE TChar) (chars (ds ++ concat cs)) /\ terminated s' l /\
    length (mem s) <= length (mem s') /\ (forall k o, k <> l -> k < length (mem s) -> nth_error (mem s') k = Some (Some o) -> nth_error (mem s) k = Some (Some o)).
Proof.
  induction cs as [|c cs IH]; intros s d l ds R D St A T Sm.
  - exists s. simpl. rewrite app_nil_r. auto 10.
  - unfold small in Sm. simpl in Sm. rewrite app_length in Sm.
    destruct (callback_gives s d l ds c R D St A) as (s1 & E1 & R1 & S1 & A1 & T1 & L1 & F1); [unfold small; lia|].
    destruct (IH s1 d l (ds ++ c)) as (s2 & E2 & R2 & S2 & A2 & T2 & L2 & F2); auto; try (rewrite S1; auto); [unfold small; rewrite app_length; lia|].
    exists s2. split; [|split; [auto|split; [congruence|split; [|split; [auto|split; [lia|]]]]]].
    + cbn [callbacks]. unfold bind. rewrite E1. exact E2.
    + simpl. rewrite app_assoc. auto.
    + intros k o K Lk O. apply F1; auto. apply F2; auto. lia.
Qed.

(** A transfer returns the blocks one after the other, as a new string that ends in a NUL; the
    other variables, and the arrays there were, are as they were. *)
Theorem C122_transfer : forall s cs, reachable s -> small (S (length (concat cs))) ->
  exists s' l, transfer cs None s = ROk tt s' /\ stk s' = stk s ++ [MPtr l] /\ length (mem s) <= l /\
    array_at s' l (HE TChar) (chars (concat cs)) /\ terminated s' l /\ kept s s'.
Proof.
  intros s cs R Sm.
  destruct (declare_string s [] R) as (s1 & E1 & [o1 M1] & S1 & A1 & T1); [unfold small; simpl; lia|].
  assert (R1 : reachable s1) by (eapply reachable_step; eauto). set (l := length (mem s)) in *.
  destruct (callbacks_give cs s1 (length (stk s)) l [] R1) as (s2 & E2 & R2 & S2 & A2 & T2 & L2 & F2); auto.
  { rewrite S1, app_length. simpl. lia. }
  { eauto. }
  destruct (reachable_INV s2 R2) as [e I2]. assert (N2 : nth_error (stk s2) (length (stk s)) = Some (MPtr l)) by (rewrite S2, S1, nth_error_app2, Nat.sub_diag by auto; reflexivity).
  assert (H2 : held (MPtr l) s2) by (apply (getv_held (LS (length (stk s)))); auto; eapply INV_sound; eauto).
  assert (I3 : INV e [MPtr l] (bump (MPtr l) s2)) by (apply INV_bump; auto).
  destruct (leave_gives e [MPtr l] (bump (MPtr l) s2) [MPtr l] {| mem := mem s2; rc := rc (bump (MPtr l) s2); stk := stk s |} I3) as (s3 & E3 & I4 & A3 & B3 & C3).
  { unfold shrunk, ext; simpl. rewrite ?bump_stk, S2, S1. split; auto. }
  simpl in A3, B3, E3. pose proof (proj1 (INV_push _ _ _ _) I4) as I5. exists (push_s (MPtr l) s3), l.
  assert (Lv : live l (push_s (MPtr l) s3)).
  { destruct (INV_sound _ _ _ I5) as (_ & S & _). apply (S (MPtr l)); [|reflexivity]. simpl. apply in_or_app. simpl; auto. }
  apply live_obj in Lv as [o3 O3]. assert (O2 : obj l s2 = Some o3) by (apply (C3 l o3) in O3; exact O3). apply obj_live in O3, O2.
  split; [|split; [simpl; congruence|split; [auto|split; [|split]]]].
  - unfold transfer, keep_value. unfold bind at 1. rewrite E1. unfold bind at 1. rewrite E2.
    unfold copy_of. rewrite (bind_ok _ _ _ _ _ _ _ (get_eq (LS (length (stk s))) _ _ N2)).
    rewrite (bind_ok _ _ _ _ _ _ _ (attach_eq _ _ H2)). simpl. unfold bind. rewrite E3. reflexivity.
  - destruct A2 as (o & O & P). assert (o = o3) by congruence. subst o. exists o3. auto.
  - destruct T2 as (o & k & O & N). assert (o = o3) by congruence. subst o. exists o3, k. auto.
  - split; [simpl; rewrite B3; rewrite M1, app_length in L2; simpl in L2; lia|]. intros k o K O. assert (Ok : obj k s3 = Some o) by (apply obj_live; exact O). apply C3 in Ok. apply obj_live in Ok. simpl in Ok.
    assert (O1 : nth_error (mem s1) k = Some (Some o)) by (apply F2; auto; [unfold l; lia|rewrite M1, app_length; simpl; lia]). rewrite M1, nth_error_app1 in O1; auto.
Qed.
(** A transfer that fails throws, whatever was received: no variable is made. *)
Theorem C122_failure : forall s cs e, reachable s -> small (S (length (concat cs))) ->
  exists s', transfer cs (Some e) s = RThrow e s' /\ stk s' = stk s /\ kept s s'.
Proof.
  intros s cs m R Sm.
  destruct (declare_string s [] R) as (s1 & E1 & [o1 M1] & S1 & A1 & T1); [unfold small; simpl; lia|].
  assert (R1 : reachable s1) by (eapply reachable_step; eauto). set (l := length (mem s)) in *.
  destruct (callbacks_give cs s1 (length (stk s)) l [] R1) as (s2 & E2 & R2 & S2 & A2 & T2 & L2 & F2); auto.
  { rewrite S1, app_length. simpl. lia. }
  { eauto. }
  destruct (reachable_INV s2 R2) as [e I2].
  destruct (leave_gives e [] s2 [MPtr l] {| mem := mem s2; rc := rc s2; stk := stk s |} I2) as (s3 & E3 & I4 & A3 & B3 & C3).
  { unfold shrunk, ext; simpl. rewrite S2, S1. auto. }
  simpl in A3, B3, E3. exists s3. split; [|split; [auto|split]].
  - unfold transfer, keep_value. unfold bind at 1. rewrite E1. unfold bind at 1. rewrite E2. simpl. unfold bind. rewrite E3. reflexivity.
  - rewrite B3. rewrite M1, app_length in L2. simpl in L2. lia.
  - intros k o K O. apply obj_live in O. apply C3 in O. apply obj_live in O. simpl in O.
    assert (O1 : nth_error (mem s1) k = Some (Some o)) by (apply F2; auto; [unfold l; lia|rewrite M1, app_length; simpl; lia]). rewrite M1, nth_error_app1 in O1; auto.
Qed.

Definition s_curl : state := Eval vm_compute in match run [SDecl (EStr [104]%Z); SDecl ENil; SPush (EVar 1) (EVar 0)] start with ROk _ s => s | _ => start end.
Lemma curl_reached : reachable s_curl.
Proof. exists [SDecl (EStr [104]%Z); SDecl ENil; SPush (EVar 1) (EVar 0)]. reflexivity. Qed.
(** Three blocks, one of them empty and one with a NUL; the second variable is an array that shares
    the first, of which nothing changes. *)
Example C122_example :
  (exists s' l, transfer [[97; 0]; []; [98]]%Z None s_curl = ROk tt s' /\ stk s' = stk s_curl ++ [MPtr l] /\ length (mem s_curl) <= l /\
    array_at s' l (HE TChar) [MNum (VChar 97); MNum (VChar 0); MNum (VChar 98)] /\ terminated s' l /\ kept s_curl s') /\
  (exists s', transfer [[97; 0]; []; [98]]%Z (Some "Couldn't resolve host name"%string) s_curl = RThrow "Couldn't resolve host name" s' /\ stk s' = stk s_curl /\ kept s_curl s').
Proof.
  split.
  - apply (C122_transfer s_curl [[97; 0]; []; [98]]%Z curl_reached). reflexivity.
  - apply (C122_failure s_curl [[97; 0]; []; [98]]%Z _ curl_reached). reflexivity.
Qed.

Print Assumptions C122_transfer.
Print Assumptions C122_failure.
