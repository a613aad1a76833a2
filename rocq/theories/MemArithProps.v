(** Properties of arithmetic in place on arrays in memory: C136. *)
From Coq Require Import ZArith Bool List String Lia.
From Verif Require Import Base StrModel ValModel NumModel AllocModel ArithModel ArithSpec ArithProof MemModel MemProof MemFun MemEq MemDeref MemTriple MemArr MemElem MemOps MemList MemArrays MemThrow MemOp ArrSpec ArrFacts MemViewSpec MemViewProps MemArithSpec.
Import ListNotations.
Local Open Scope list_scope.
Local Open Scope mem_scope.
Local Notation length := List.length.

(** * Statements *)
Lemma with_push : forall t o x s, with_obj t o (push_s x (bump x s)) = push_s x (bump x (with_obj t o s)).
Proof. intros. unfold bump. destruct (target x); reflexivity. Qed.
Lemma with_live : forall t o ot s q, nth_error (mem s) t = Some (Some ot) -> live q (with_obj t o s) <-> live q s.
Proof.
  intros t o ot s q O. assert (t < length (mem s)) by (apply nth_error_Some; congruence). unfold live. simpl. destruct (Nat.eq_dec t q).
  - subst. rewrite sn_same by auto. split; eauto.
  - rewrite sn_other by auto. tauto.
Qed.
Lemma with_cnt : forall t o ot s, nth_error (mem s) t = Some (Some ot) -> cnt_ok s -> cnt_ok (with_obj t o s).
Proof.
  intros t o ot s O [Cl Cp]. split; [simpl; rewrite sn_length; auto|]. intros q Q. apply (proj1 (with_live t o ot s q O)) in Q. apply Cp in Q. exact Q.
Qed.
Lemma leave_back : forall s x s1, cnt_ok s -> held x s -> s1 = s \/ s1 = push_s x (bump x s) -> leave (length (stk s)) s1 = ROk tt s.
Proof.
  intros s x s1 C H [->| ->]; [apply leave_none|]. rewrite <- (bump_stk x s). rewrite (leave_eq x (bump x s) _ eq_refl). apply release_bump; auto.
Qed.
Section Runs.
Variables (op : aop) (e : nat -> nat) (s : state) (j l : nat) (f : expr) (x : mvar).
Hypothesis I : INV e [] s.
Hypothesis Vj : variable s j (MPtr l).
Hypothesis Of : operand s f x.
Lemma exec_arith_with : exists q s1, eval (length (stk s)) f s = ROk (LS q) s1 /\ nth_error (stk s1) q = Some x /\ held x s /\ (s1 = s \/ s1 = push_s x (bump x s)) /\
  sound s1 /\ temps s s1 /\
  exec (SOp op (EVar j) f) s = finish (length (stk s)) (fun _ => with_copy (LS q) (arith_to op (LS j)) s1) s /\
  (forall s2 p, temps s1 s2 -> arith_to op (LS j) p s2 = arith_array op l p s2).
Proof.
  destruct (operand_exact e s f x I Of) as (q & s1 & E1 & Nq & Hx & C). exists q, s1. split; [exact E1|]. split; [exact Nq|]. split; [exact Hx|]. split; [exact C|].
  assert (I1 : INV e [] s1) by (destruct C as [->| ->]; auto; apply INV_push, INV_bump; auto).
  assert (T1 : temps s s1) by (destruct C as [->| ->]; [apply temps_refl|apply temps_push, temps_refl]).
  split; [exact (INV_sound _ _ _ I1)|]. split; [exact T1|]. split.
  - change (exec (SOp op (EVar j) f) s) with (finish (length (stk s)) (let! p := eval (length (stk s)) f in let! v := eval (length (stk s)) (EVar j) in with_copy p (arith_to op v)) s). unfold finish.
    rewrite (bind_ok _ _ _ _ _ _ _ E1). rewrite (bind_ok _ _ _ _ _ _ _ (eval_var s j _ _ Vj eq_refl s1)). reflexivity.
  - intros s2 p T2. unfold arith_to. rewrite (bind_ok _ _ _ _ s2 (Some l) s2); [reflexivity|].
    unfold heap_of. rewrite (bind_ok _ _ _ _ _ _ _ (get_eq (LS j) s2 (MPtr l) (temps_slot _ _ _ _ T2 (temps_slot _ _ _ _ T1 Vj)))). reflexivity.
Qed.
Lemma exec_arith_ok : forall t ot (Q : hobj -> Prop), nth_error (mem s) t = Some (Some ot) ->
  (forall s1 q, temps s s1 -> nth_error (stk s1) q = Some x -> exists o2, arith_array op l (LS q) s1 = ROk tt (with_obj t o2 s1) /\ Q o2) ->
  exists o2, exec (SOp op (EVar j) f) s = ROk tt (with_obj t o2 s) /\ Q o2.
Proof.
  intros t ot Q O H. destruct exec_arith_with as (q & s1 & _ & Nq & Hx & C & Sd1 & T1 & Ex & A).
  pose proof (INV_sound _ _ _ I) as Sd. destruct Sd as (Cn & _). destruct Sd1 as (Cn1 & Sd1').
  assert (O1 : nth_error (mem s1) t = Some (Some ot)) by (destruct T1 as [-> _]; auto).
  destruct (H (push_s x (bump x s1)) (length (stk s1))) as (o2 & E2 & Q2); [apply temps_push; auto|simpl; rewrite bump_stk, nth_error_app2, Nat.sub_diag by auto; reflexivity|].
  assert (W : with_copy (LS q) (arith_to op (LS j)) s1 = ROk tt (with_obj t o2 s1)).
  { unfold with_copy. rewrite (bind_ok _ _ _ _ _ _ _ (copy_of_eq (LS q) s1 x (conj Cn1 Sd1') Nq)).
    eapply scoped_ok with (v' := x) (s1 := bump x (with_obj t o2 s1)).
    - rewrite A by (apply temps_push, temps_refl). rewrite bump_stk, E2, with_push. reflexivity.
    - rewrite !bump_stk. reflexivity.
    - apply release_bump; [eapply with_cnt; eauto|]. intros q0 Q0. apply (with_live t o2 ot); auto. assert (Hq : held x s1) by (apply (getv_held (LS q)); [split; auto|exact Nq]). auto. }
  exists o2. split; [|exact Q2]. rewrite Ex. unfold finish. rewrite W. apply (leave_back (with_obj t o2 s) x).
  - eapply with_cnt; eauto.
  - intros q0 Q0. apply (with_live t o2 ot); auto.
  - destruct C as [->| ->]; [left; reflexivity|right; apply with_push].
Qed.
Lemma exec_arith_throws : forall msg, (forall s1 q, temps s s1 -> nth_error (stk s1) q = Some x -> arith_array op l (LS q) s1 = RThrow msg s1) ->
  exec (SOp op (EVar j) f) s = RThrow msg s.
Proof.
  intros msg H. destruct exec_arith_with as (q & s1 & E1 & Nq & Hx & C & Sd1 & T1 & -> & A). unfold finish.
  assert (I1 : INV e [] s1) by (destruct C as [->| ->]; auto; apply INV_push, INV_bump; auto).
  rewrite (with_copy_throws e s1 q x (arith_to op (LS j)) msg); auto.
  - unfold bind. rewrite (leave_exact e s x s1); auto.
  - rewrite A by (apply temps_push, temps_refl). apply H; [apply temps_push; auto|]. simpl. rewrite bump_stk, nth_error_app2, Nat.sub_diag by auto. reflexivity.
Qed.
Lemma exec_arith_ub : forall u, (forall s1 q, temps s s1 -> nth_error (stk s1) q = Some x -> arith_array op l (LS q) s1 = RUB u) ->
  exec (SOp op (EVar j) f) s = RUB u.
Proof.
  intros u H. destruct exec_arith_with as (q & s1 & E1 & Nq & Hx & C & Sd1 & T1 & -> & A). unfold finish, with_copy.
  rewrite (bind_ok _ _ _ _ _ _ _ (copy_of_eq (LS q) s1 x Sd1 Nq)). unfold scoped. fold (push_s x (bump x s1)).
  rewrite A by (apply temps_push, temps_refl). rewrite H; [reflexivity|apply temps_push; auto|]. simpl. rewrite bump_stk, nth_error_app2, Nat.sub_diag by auto. reflexivity.
Qed.
End Runs.

(** * Loops over a list *)
Inductive runs (op : aop) (src : nat -> list mvar -> val -> Prop) : list mvar -> nat -> nat -> list mvar -> Prop :=
| run_none : forall cs a, runs op src cs a 0 cs
| run_one : forall cs a n u y r cs', src a cs y -> nth_error cs a = Some (MNum u) -> op_by op y u r -> runs op src (set_nth cs a (MNum r)) (S a) n cs' -> runs op src cs a (S n) cs'.
Lemma runs_inv : forall op src cs a n cs', runs op src cs a n cs' ->
  match n with
  | O => cs' = cs
  | S n => exists u y r, src a cs y /\ nth_error cs a = Some (MNum u) /\ op_by op y u r /\ runs op src (set_nth cs a (MNum r)) (S a) n cs'
  end.
Proof. intros op src cs a n cs' R. destruct R as [cs a|cs a n u y r cs' Sy Na B R]; [reflexivity|]. exists u, y, r. auto. Qed.
(** Reading the right operand from a place that may have changed. *)
Lemma runs_places : forall op g n cs a cs',
  operated op (among a n) (fun k y => nth_error (if Nat.leb k (g k) then cs else cs') (g k) = Some (MNum y)) cs cs' ->
  runs op (fun k cs y => nth_error cs (g k) = Some (MNum y)) cs a n cs'.
Proof.
  intros op g. induction n; intros cs a cs' (L & H1 & H2).
  - replace cs' with cs; [constructor|]. apply List.nth_ext with (d := MNil) (d' := MNil); auto. intros k K. assert (E : nth_error cs' k = nth_error cs k) by (apply H2; unfold among; lia).
    rewrite (nth_some _ cs k MNil) in E by lia. rewrite (nth_some _ cs' k MNil) in E by lia. congruence.
  - destruct (H1 a) as (u & y & r & Na & Sy & B & Nr); [unfold among; lia|].
    assert (La : a < length cs) by (apply nth_error_Some; congruence).
    apply run_one with (u := u) (y := y) (r := r); auto.
    + destruct (Nat.leb_spec a (g a)); auto. rewrite <- H2; auto. unfold among. lia.
    + apply IHn. split; [rewrite sn_length; auto|]. split.
      * intros k K. unfold among in K. destruct (H1 k) as (u' & y' & r' & N' & S' & B' & R'); [unfold among; lia|]. exists u', y', r'. split; [rewrite sn_other by lia; auto|]. split; [|auto].
        destruct (Nat.leb_spec k (g k)); auto. rewrite sn_other by lia. auto.
      * intros k K. rewrite sn_nth_error by auto. destruct (Nat.eqb_spec k a); [subst; auto|]. apply H2. unfold among in *. lia.
Qed.
Lemma runs_fixed : forall op src n cs a cs', operated op (among a n) src cs cs' -> runs op (fun k _ y => src k y) cs a n cs'.
Proof.
  intros op src. induction n; intros cs a cs' (L & H1 & H2).
  - replace cs' with cs; [constructor|]. apply List.nth_ext with (d := MNil) (d' := MNil); auto. intros k K. assert (E : nth_error cs' k = nth_error cs k) by (apply H2; unfold among; lia).
    rewrite (nth_some _ cs k MNil) in E by lia. rewrite (nth_some _ cs' k MNil) in E by lia. congruence.
  - destruct (H1 a) as (u & y & r & Na & Sy & B & Nr); [unfold among; lia|].
    assert (La : a < length cs) by (apply nth_error_Some; congruence).
    apply run_one with (u := u) (y := y) (r := r); auto. apply IHn. split; [rewrite sn_length; auto|]. split.
    + intros k K. unfold among in K. destruct (H1 k) as (u' & y' & r' & N' & S' & B' & R'); [unfold among; lia|]. exists u', y', r'. split; [rewrite sn_other by lia; auto|auto].
    + intros k K. rewrite sn_nth_error by auto. destruct (Nat.eqb_spec k a); [subst; auto|]. apply H2. unfold among in *. lia.
Qed.

(** * Loops in memory *)
Definition put (o : hobj) (k : nat) (c : mvar) (r : val) : hobj := set_cells o (set_nth (h_cells o) k (c, MNum r)).
Lemma put_alike : forall o k c x r, nth_error (h_cells o) k = Some (c, x) -> alike o (put o k c r) /\ map snd (h_cells (put o k c r)) = set_nth (map snd (h_cells o)) k (MNum r).
Proof.
  intros o k c x r C. split; [|unfold put; simpl; rewrite map_sn; reflexivity]. unfold alike, put. simpl. split; [reflexivity|]. split; [reflexivity|]. split; [reflexivity|]. split; [reflexivity|].
  rewrite map_sn. simpl. apply sn_id. rewrite nth_error_map, C. reflexivity.
Qed.
Lemma alike_trans : forall a b c, alike a b -> alike b c -> alike a c.
Proof. unfold alike. intuition congruence. Qed.
Lemma on_elem_runs : forall op l t off i s ot c u y r, element_of s l t off -> nth_error (mem s) t = Some (Some ot) -> varlike (h_ty ot) = false ->
  nth_error (h_cells ot) (off + i) = Some (c, MNum u) -> num_op op u y = Ok r ->
  on_elem op l (Z.of_nat i) y s = ROk tt (with_obj t (put ot (off + i) c r) s).
Proof.
  intros op l t off i s ot c u y r El O D C N. unfold on_elem.
  assert (Rd : read_elem l (Z.of_nat i) s = ROk (MNum u) s).
  { unfold read_elem. rewrite (bind_ok _ _ _ _ _ _ _ (element_at _ _ _ _ i El)). unfold bind, get_obj. rewrite O, C, D. reflexivity. }
  rewrite (bind_ok _ _ _ _ _ _ _ Rd). rewrite N. unfold lift, bind at 1. cbv iota beta. unfold ret. cbv iota beta.
  unfold write_elem. rewrite (bind_ok _ _ _ _ _ _ _ (element_at _ _ _ _ i El)). unfold bind, get_obj. rewrite O, C, D. reflexivity.
Qed.
Definition of_type (ty : ety) (cs : list mvar) : Prop := forall k v, nth_error cs k = Some (MNum v) -> ety_of v = ty.
Lemma type_number : forall v, ety_of v <> TVar -> is_number v.
Proof. intros [] H; simpl in *; auto; congruence. Qed.
Lemma of_type_set : forall op ty cs k u y r, of_type ty cs -> ty <> TVar -> nth_error cs k = Some (MNum u) -> op_by op y u r -> of_type ty (set_nth cs k (MNum r)).
Proof.
  intros op ty cs k u y r H Nt Nk B i v Nv. assert (L : k < length cs) by (apply nth_error_Some; congruence). rewrite sn_nth_error in Nv by auto.
  destruct (Nat.eqb_spec i k); [|eauto]. inversion Nv. subst. destruct (result_ety op u y v) as [E _]; [apply type_number; rewrite (H _ _ Nk); auto|auto|]. rewrite E. eauto.
Qed.
Section Loop.
Variables (op : aop) (src : nat -> list mvar -> val -> Prop) (t base : nat) (ty : ety) (f : nat -> nat -> M unit) (P : state -> Prop).
Hypothesis Nt : ty <> TVar.
Hypothesis f_none : forall i s, f 0 i s = ROk tt s.
Hypothesis f_one : forall n i s ot c u y r, P s -> nth_error (mem s) t = Some (Some ot) -> h_view ot = None -> h_ty ot = HE ty -> src (base + i) (map snd (h_cells ot)) y ->
  nth_error (h_cells ot) (base + i) = Some (c, MNum u) -> ety_of u = ty -> op_by op y u r -> of_type ty (map snd (h_cells ot)) ->
  f (S n) i s = f n (S i) (with_obj t (put ot (base + i) c r) s).
Hypothesis P_keeps : forall s ot o', P s -> nth_error (mem s) t = Some (Some ot) -> h_view ot = None -> alike ot o' -> P (with_obj t o' s).
Lemma loop_runs : forall n i s ot cs', P s -> nth_error (mem s) t = Some (Some ot) -> h_view ot = None -> h_ty ot = HE ty -> of_type ty (map snd (h_cells ot)) ->
  runs op src (map snd (h_cells ot)) (base + i) n cs' ->
  exists o2, f n i s = ROk tt (with_obj t o2 s) /\ alike ot o2 /\ map snd (h_cells o2) = cs'.
Proof.
  induction n; intros i s ot cs' Ps O V T Ot R; apply runs_inv in R.
  - subst cs'. exists ot. rewrite f_none, with_obj_self by auto. split; [reflexivity|]. split; [repeat split|reflexivity].
  - destruct R as (u & y & r & Sy & Nk & B & R). pose proof Nk as Nk'. rewrite nth_error_map in Nk'. destruct (nth_error (h_cells ot) (base + i)) as [[c v]|] eqn:C; simpl in Nk'; inversion Nk'. subst v.
    destruct (put_alike ot (base + i) c (MNum u) r C) as [A Mp]. rewrite <- Mp in R.
    assert (Lt : t < length (mem s)) by (apply nth_error_Some; congruence).
    rewrite (f_one n i s ot c u y r) by eauto. replace (S (base + i)) with (base + S i) in R by lia.
    destruct (IHn (S i) (with_obj t (put ot (base + i) c r) s) (put ot (base + i) c r) cs') as (o2 & E2 & A2 & C2).
    + eapply P_keeps; eauto.
    + simpl. apply sn_same; auto.
    + destruct A as (_ & _ & _ & A & _). congruence.
    + destruct A as (A & _). congruence.
    + rewrite Mp. eapply of_type_set; eauto.
    + exact R.
    + exists o2. rewrite E2, with_obj_twice. split; [reflexivity|]. split; [eapply alike_trans; eauto|exact C2].
Qed.
End Loop.
Lemma element_alike : forall s l t off u ou ou', element_of s l t off -> nth_error (mem s) u = Some (Some ou) -> h_view ou = None -> alike ou ou' -> element_of (with_obj u ou' s) l t off.
Proof. intros. eapply element_with; eauto. destruct H2 as (_ & _ & _ & A & _). congruence. Qed.
(** The number the right operand is taken as. *)
Lemma op_cast : forall op w u r, is_number u -> op_by op w u r -> exists y, cast (ety_of u) w = Ok y /\ num_op op u y = Ok r.
Proof.
  intros op w u r N (w' & T & R). destruct (taken_cast u w w' N T) as [C Ty]. exists w'. split; auto. apply (num_op_ok op u w' w' r N); auto. apply taken_same; auto.
Qed.
Lemma each_elem_runs : forall op ty l t off q x n s ot cs' (src : list mvar -> val -> Prop) (P : state -> Prop), ty <> TVar ->
  P s -> element_of s l t off -> nth_error (stk s) q = Some x -> nth_error (mem s) t = Some (Some ot) -> h_view ot = None -> h_ty ot = HE ty -> of_type ty (map snd (h_cells ot)) ->
  (forall s ot o', P s -> nth_error (mem s) t = Some (Some ot) -> h_view ot = None -> alike ot o' -> P (with_obj t o' s)) ->
  (forall s ot y, P s -> nth_error (mem s) t = Some (Some ot) -> h_view ot = None -> h_ty ot = HE ty -> src (map snd (h_cells ot)) y -> der_spec x s (MNum y)) ->
  runs op (fun _ => src) (map snd (h_cells ot)) off n cs' ->
  exists o2, each_elem op ty l (LS q) n 0 s = ROk tt (with_obj t o2 s) /\ alike ot o2 /\ map snd (h_cells o2) = cs'.
Proof.
  intros op ty l t off q x n s ot cs' src P Nt Ps El Nq O V T Ty Kp Sr R. replace off with (off + 0) in R by lia. change 0%Z with (Z.of_nat 0).
  apply (loop_runs op (fun _ => src) t off ty (fun n i => each_elem op ty l (LS q) n (Z.of_nat i)) (fun s => P s /\ element_of s l t off /\ nth_error (stk s) q = Some x)); auto.
  - clear s ot O V T Ty R Ps El Nq. intros m i s ot c u y r (Ps & El & Nq) O V T Sy C Tu B Ty. cbn [each_elem].
    destruct (op_cast op y u r) as (z & Cz & Nz); [apply type_number; congruence|auto|]. rewrite Tu in Cz.
    rewrite (bind_ok _ _ _ _ s z s).
    2:{ rewrite (cast_var_eq ty (LS q) s x y Nq); [rewrite Cz; reflexivity|]. eapply Sr; eauto. }
    rewrite (bind_ok _ _ _ _ _ _ _ (on_elem_runs op l t off i s ot c u z r El O ltac:(rewrite T; destruct ty; auto; congruence) C Nz)).
    replace (Z.of_nat i + 1)%Z with (Z.of_nat (S i)) by lia. reflexivity.
  - intros s0 ot0 o' (Ps0 & El0 & Nq0) O0 V0 A. split; [eapply Kp; eauto|]. split; [eapply element_alike; eauto|exact Nq0].
Qed.
Lemma scale_elems_runs : forall ty l t off n s ot cs' w z, ty <> TVar -> element_of s l t off -> nth_error (mem s) t = Some (Some ot) -> h_view ot = None -> h_ty ot = HE ty -> of_type ty (map snd (h_cells ot)) ->
  cast ty w = Ok z -> runs Mul (fun _ _ y => y = w) (map snd (h_cells ot)) off n cs' ->
  exists o2, scale_elems l z n 0 s = ROk tt (with_obj t o2 s) /\ alike ot o2 /\ map snd (h_cells o2) = cs'.
Proof.
  intros ty l t off n s ot cs' w z Nt El O V T Ty Cz R. replace off with (off + 0) in R by lia. change 0%Z with (Z.of_nat 0).
  apply (loop_runs Mul (fun _ _ y => y = w) t off ty (fun n i => scale_elems l z n (Z.of_nat i)) (fun s => element_of s l t off)); auto.
  - clear s ot O V T Ty R El. intros m i s ot c u y r El O V T -> C Tu B Ty. cbn [scale_elems].
    destruct (op_cast Mul w u r) as (z' & Cz' & Nz); [apply type_number; congruence|auto|]. assert (z' = z) by congruence. subst z'.
    rewrite (bind_ok _ _ _ _ _ _ _ (on_elem_runs Mul l t off i s ot c u z r El O ltac:(rewrite T; destruct ty; auto; congruence) C Nz)).
    replace (Z.of_nat i + 1)%Z with (Z.of_nat (S i)) by lia. reflexivity.
  - intros. eapply element_alike; eauto.
Qed.
(** The numbers on the right are in storage [t'], which may be the same. *)
Definition right_in (s : state) (t' : nat) (ty : ety) (cs2 : list mvar) (t : nat) : Prop :=
  t' = t \/ exists o', nth_error (mem s) t' = Some (Some o') /\ h_view o' = None /\ h_ty o' = HE ty /\ map snd (h_cells o') = cs2.
Lemma pair_elems_runs : forall op ty l t off b l' t' off' cs2 n s ot cs', ty <> TVar -> element_of s l t off -> element_of s l' t' off' -> right_in s t' ty cs2 t -> of_type ty cs2 ->
  nth_error (mem s) t = Some (Some ot) -> h_view ot = None -> h_ty ot = HE ty -> of_type ty (map snd (h_cells ot)) ->
  runs op (fun a cs y => nth_error (if Nat.eqb t' t then cs else cs2) (off' + (a - (off + b))) = Some (MNum y)) (map snd (h_cells ot)) (off + b) n cs' ->
  exists o2, pair_elems op l (Z.of_nat b) l' n 0 s = ROk tt (with_obj t o2 s) /\ alike ot o2 /\ map snd (h_cells o2) = cs'.
Proof.
  intros op ty l t off b l' t' off' cs2 n s ot cs' Nt El El' Ri Ty2 O V T Ty R. change 0%Z with (Z.of_nat 0).
  apply (loop_runs op (fun a cs y => nth_error (if Nat.eqb t' t then cs else cs2) (off' + (a - (off + b))) = Some (MNum y)) t (off + b) ty (fun n i => pair_elems op l (Z.of_nat b) l' n (Z.of_nat i))
           (fun s => element_of s l t off /\ element_of s l' t' off' /\ right_in s t' ty cs2 t)); auto.
  - clear s ot O V T Ty R El El' Ri. intros m i s ot c u y r (El & El' & Ri) O V T Sy C Tu B Ty. cbn [pair_elems]. replace (off + b + i - (off + b)) with i in Sy by lia.
    assert (D : varlike (HE ty) = false) by (destruct ty; auto; congruence).
    assert (Rd : read_elem l' (Z.of_nat i) s = ROk (MNum y) s /\ ety_of y = ty).
    { unfold read_elem. rewrite (bind_ok _ _ _ _ _ _ _ (element_at _ _ _ _ i El')). unfold bind, get_obj. destruct (Nat.eqb_spec t' t).
      - subst t'. rewrite O. split; [|eauto]. rewrite nth_error_map in Sy. destruct (nth_error (h_cells ot) (off' + i)) as [[c' v']|]; simpl in Sy; inversion Sy. rewrite T, D. reflexivity.
      - destruct Ri as [|(o' & O' & V' & T' & <-)]; [congruence|]. rewrite O'. split; [|eauto]. rewrite nth_error_map in Sy. destruct (nth_error (h_cells o') (off' + i)) as [[c' v']|]; simpl in Sy; inversion Sy. rewrite T', D. reflexivity. }
    destruct Rd as [Rd Yt]. rewrite (bind_ok _ _ _ _ _ _ _ Rd). replace (Z.of_nat b + Z.of_nat i)%Z with (Z.of_nat (b + i)) by lia.
    assert (Nz : num_op op u y = Ok r). { destruct B as (y' & Tk & Rs). apply (num_op_ok op u y y' r); auto. apply type_number. congruence. }
    replace (off + b + i) with (off + (b + i)) in * by lia.
    rewrite (bind_ok _ _ _ _ _ _ _ (on_elem_runs op l t off (b + i) s ot c u y r El O ltac:(rewrite T; auto) C Nz)).
    replace (Z.of_nat i + 1)%Z with (Z.of_nat (S i)) by lia. reflexivity.
  - intros s0 ot0 o' (A & B & C) O0 V0 Al. split; [eapply element_alike; eauto|]. split; [eapply element_alike; eauto|]. destruct C as [C|(q & Q & C)]; [left; auto|].
    destruct (Nat.eq_dec t' t); [left; auto|]. right. exists q. simpl. rewrite sn_other by auto. auto.
  - rewrite Nat.add_0_r. exact R.
Qed.
(** Rows: what is left of the old list, after some of them. *)
Definition mid (cs cs' : list mvar) (a : nat) : list mvar := firstn a cs' ++ skipn a cs.
Lemma mid_length : forall cs cs' a, length cs' = length cs -> length (mid cs cs' a) = length cs.
Proof. intros. unfold mid. rewrite app_length, firstn_length, skipn_length. lia. Qed.
Lemma mid_nth : forall cs cs' a k, length cs' = length cs -> nth_error (mid cs cs' a) k = if Nat.ltb k a then nth_error cs' k else nth_error cs k.
Proof.
  intros cs. induction cs as [|c cs]; intros [|c' cs'] a k L; simpl in L; try discriminate.
  - unfold mid. rewrite firstn_nil, skipn_nil. destruct (Nat.ltb k a); reflexivity.
  - destruct a; [reflexivity|]. destruct k; [reflexivity|]. simpl. change (firstn a cs' ++ skipn a cs) with (mid cs cs' a). rewrite IHcs by lia. reflexivity.
Qed.
Lemma rows_mid : forall op cs2 off step m ops off' cs cs' r, 0 < step -> m <= step -> r < ops ->
  operated op (in_rows off step m ops) (fun k y => nth_error cs2 (off' + Nat.modulo (k - off) step) = Some (MNum y)) cs cs' ->
  operated op (among (off + step * r) m) (fun k y => nth_error cs2 (off' + (k - (off + step * r))) = Some (MNum y)) (mid cs cs' (off + step * r)) (mid cs cs' (off + step * S r)).
Proof.
  intros op cs2 off step m ops off' cs cs' r Ps Lm Lr (L & H1 & H2). assert (Bd : step * S r <= ops * step) by nia. rewrite Nat.mul_succ_r in *.
  assert (Md : forall k, off + step * r <= k < off + step * r + step -> (k - off) mod step = k - (off + step * r)).
  { intros k K. replace (k - off) with (k - (off + step * r) + r * step) by lia. rewrite Nat.mod_add by lia. apply Nat.mod_small. lia. }
  split; [rewrite !mid_length; auto|]. split.
  - intros k K. unfold among in K. destruct (H1 k) as (u & y & w & A & B & C & D); [unfold in_rows, among; rewrite Md by lia; lia|]. rewrite Md in B by lia.
    exists u, y, w. rewrite !mid_nth by auto. destruct (Nat.ltb_spec k (off + step * r)); [lia|]. destruct (Nat.ltb_spec k (off + (step * r + step))); [|lia]. auto.
  - intros k K. unfold among in K. rewrite !mid_nth by auto. destruct (Nat.ltb_spec k (off + step * r)), (Nat.ltb_spec k (off + (step * r + step))); auto; try lia.
    apply H2. unfold in_rows. rewrite Md by lia. lia.
Qed.
Lemma rows_runs : forall op ty l t off step l' t' off' cs2 m ops cs cs', ty <> TVar -> t' <> t -> of_type ty cs2 -> 0 < step -> m <= step ->
  operated op (in_rows off step m ops) (fun k y => nth_error cs2 (off' + Nat.modulo (k - off) step) = Some (MNum y)) cs cs' ->
  forall n i s ot, i + n = ops -> element_of s l t off -> element_of s l' t' off' -> right_in s t' ty cs2 t ->
  nth_error (mem s) t = Some (Some ot) -> h_view ot = None -> h_ty ot = HE ty -> of_type ty (map snd (h_cells ot)) -> map snd (h_cells ot) = mid cs cs' (off + step * i) ->
  exists o2, rows op l (Z.of_nat step) l' m n (Z.of_nat i) s = ROk tt (with_obj t o2 s) /\ alike ot o2 /\ map snd (h_cells o2) = mid cs cs' (off + step * ops).
Proof.
  intros op ty l t off step l' t' off' cs2 m ops cs cs' Nt Dt Ty2 Ps Lm H. induction n; intros i s ot E El El' Ri O V T Ty Mi.
  - exists ot. simpl. rewrite with_obj_self by auto. split; [reflexivity|]. split; [repeat split|]. replace ops with i by lia. exact Mi.
  - cbn [rows]. replace (Z.of_nat step * Z.of_nat i)%Z with (Z.of_nat (step * i)) by lia.
    pose proof (rows_mid op cs2 off step m ops off' cs cs' i Ps Lm ltac:(lia) H) as Hr. rewrite <- Mi in Hr.
    destruct (pair_elems_runs op ty l t off (step * i) l' t' off' cs2 m s ot (mid cs cs' (off + step * S i))) as (o2 & E2 & A2 & C2); auto.
    { destruct (Nat.eqb_spec t' t); [congruence|]. apply runs_fixed in Hr. exact Hr. }
    rewrite (bind_ok _ _ _ _ _ _ _ E2). replace (Z.of_nat i + 1)%Z with (Z.of_nat (S i)) by lia. assert (Lt : t < length (mem s)) by (apply nth_error_Some; congruence).
    pose proof A2 as (A21 & _ & _ & A24 & _).
    assert (Ty' : of_type ty (map snd (h_cells o2))).
    { intros k v Nv. rewrite C2 in Nv. rewrite mid_nth in Nv by apply H. destruct (Nat.ltb_spec k (off + step * S i)) as [Lk|Lk].
      - destruct H as (L & H1 & H2). destruct (Nat.ltb_spec k (off + step * i)) as [Lk2|Lk2].
        + apply (Ty k). rewrite Mi, mid_nth by auto. destruct (Nat.ltb_spec k (off + step * i)); [auto|lia].
        + destruct Hr as (_ & Hr1 & Hr2). assert (Dk : among (off + step * i) m k \/ ~ among (off + step * i) m k) by (unfold among; lia). destruct Dk as [Dk|Dk].
          * destruct (Hr1 k Dk) as (u & y & w & Nu & _ & B & Nw). rewrite mid_nth in Nw by auto. destruct (Nat.ltb_spec k (off + step * S i)); [|lia]. assert (w = v) by congruence. subst.
            destruct (result_ety op u y v) as [Eu _]; [apply type_number; rewrite (Ty _ _ Nu); auto|auto|]. rewrite Eu. eapply Ty; eauto.
          * specialize (Hr2 k Dk). rewrite mid_nth in Hr2 by auto. destruct (Nat.ltb_spec k (off + step * S i)); [|lia]. eapply Ty. rewrite <- Hr2. exact Nv.
      - apply (Ty k). rewrite Mi, mid_nth by apply H. destruct (Nat.ltb_spec k (off + step * i)); [nia|auto]. }
    destruct (IHn (S i) (with_obj t o2 s) o2) as (o3 & E3 & A3 & C3); auto; try lia; try congruence.
    + eapply element_alike; eauto.
    + eapply element_alike; eauto.
    + destruct Ri as [|(q & Q & C)]; [congruence|]. right. exists q. simpl. rewrite sn_other by auto. auto.
    + simpl. apply sn_same; auto.
    + exists o3. rewrite E3, with_obj_twice. split; [reflexivity|]. split; [eapply alike_trans; eauto|exact C3].
Qed.

(** * Which loop *)
Lemma described_stride : forall sh d, d < length sh -> nth_error (described sh) (2 * d + 1) = Some (elements (skipn (S d) sh)).
Proof.
  induction sh as [|a r IH]; intros d L; simpl in L; [lia|]. destruct d; [reflexivity|]. replace (2 * S d + 1) with (S (S (2 * d + 1))) by lia. cbn [described nth_error]. rewrite IH by lia. reflexivity.
Qed.
Section Chosen.
Variables (s : state) (l t off : nat) (sh : list Z) (o ot : hobj) (ty : ety).
Hypothesis H : has_shape s l t off sh o.
Hypothesis Oo : nth_error (mem s) t = Some (Some ot).
Hypothesis T : h_ty ot = HE ty.
Hypothesis Nt : ty <> TVar.
Variables (s1 : state) (p : lval).
Hypothesis M : mem s1 = mem s.
Lemma arith_one : forall op, heap_of p s1 = ROk None s1 -> size_of p s1 = ROk 1%Z s1 ->
  arith_array op l p s1 = match op with
    | Mul => match ty with
             | TFloat | TDouble => (let! y := cast_var ty p in scale_elems l y (Z.to_nat (elements sh)) 0) s1
             | _ => RThrow "Mul::scal: Unknown type" s1
             end
    | _ => each_elem op ty l p (Z.to_nat (elements sh)) 0 s1
    end.
Proof.
  intros op Hh Hs. destruct H as (Ol & N & Di & Si & Ty & _). assert (Go : get_obj l s1 = ROk o s1) by (unfold get_obj; rewrite M, Ol; reflexivity).
  pose proof (Ty s1 M) as Ty1. rewrite Oo, T in Ty1. unfold arith_array. rewrite (bind_ok _ _ _ _ _ _ _ Go), (bind_ok _ _ _ _ _ _ _ Ty1), (bind_ok _ _ _ _ _ _ _ Hh), (bind_ok _ _ _ _ _ _ _ Hs).
  unfold bind at 1, ret at 1. change (Nat.eqb 1 1 && (1 =? 1)%Z) with true. cbv iota beta.
  assert (G : forall A (x y : A), match ty with TVar => x | _ => y end = y) by (intros; destruct ty; congruence).
  destruct ty; try congruence; rewrite (bind_ok _ _ _ _ _ _ _ (Si s1)); destruct op; reflexivity.
Qed.
Lemma arith_none : forall op, heap_of p s1 = ROk None s1 -> size_of p s1 = ROk 0%Z s1 -> arith_array op l p s1 = RThrow "var::atype(): Undefined" s1.
Proof.
  intros op Hh Hs. destruct H as (Ol & N & Di & Si & Ty & _). assert (Go : get_obj l s1 = ROk o s1) by (unfold get_obj; rewrite M, Ol; reflexivity).
  pose proof (Ty s1 M) as Ty1. rewrite Oo, T in Ty1. unfold arith_array. rewrite (bind_ok _ _ _ _ _ _ _ Go), (bind_ok _ _ _ _ _ _ _ Ty1), (bind_ok _ _ _ _ _ _ _ Hh), (bind_ok _ _ _ _ _ _ _ Hs).
  unfold bind at 1, ret at 1. change (Nat.eqb 1 1 && (0 =? 1)%Z) with false. cbv iota beta. rewrite Di. destruct (Nat.ltb_spec (length sh) 1); [destruct sh; simpl in *; [congruence|lia]|].
  destruct ty; congruence || reflexivity.
Qed.
Variables (l' t' off' : nat) (sh' : list Z) (o' ot' : hobj) (ty' : ety).
Hypothesis H' : has_shape s l' t' off' sh' o'.
Hypothesis O' : nth_error (mem s) t' = Some (Some ot').
Hypothesis T' : h_ty ot' = HE ty'.
Hypothesis Sv : several sh'.
Hypothesis Hh : heap_of p s1 = ROk (Some l') s1.
Lemma stride_row : length sh' < length sh -> stride_i o (length sh - length sh' - 1) s1 = ROk (row sh sh') s1.
Proof.
  intros L. destruct H as (Ol & N & Di & Si & Ty & V). destruct H' as (_ & N' & _). assert (L' : 1 <= length sh') by (destruct sh'; simpl; [congruence|lia]).
  destruct (h_view o) as [u|] eqn:Vw; [|lia]. destruct V as (_ & Sz & D). unfold stride_i. rewrite Sz. destruct (Nat.leb_spec (S (2 * length sh)) (2 * (length sh - length sh' - 1) + 2)); [lia|].
  eapply own_desc; eauto. unfold row. remember (length sh - length sh' - 1) as d eqn:Ed. replace (length sh - length sh') with (S d) by lia. assert (Ld : d < length sh) by lia. replace (2 * d + 2) with (S (2 * d + 1)) by lia. apply described_stride; auto.
Qed.
Lemma arith_two : forall op,
  arith_array op l p s1 =
    if Nat.ltb (length sh) (length sh') then RThrow "var::broadcast: input dimension too large" s1
    else if negb (hcode (HE ty) =? hcode (HE ty'))%Z then RThrow "var::broadcast: types must match (for now)" s1
    else if (row sh sh' =? 0)%Z then RUB DivByZero
    else match Z.to_nat (Z.quot (elements sh) (row sh sh')), op, ty with
         | O, _, _ => ROk tt s1
         | _, Div, _ => RStuck
         | ops, _, (TFloat | TDouble) => rows op l (row sh sh') l' (Z.to_nat (elements sh')) ops 0 s1
         | _, _, _ => RThrow (unknown_vector op) s1
         end.
Proof.
  intros op. pose proof H as (Ol & N & Di & Si & Ty & V). pose proof H' as (Ol' & N' & Di' & Si' & Ty' & _).
  assert (Go : get_obj l s1 = ROk o s1) by (unfold get_obj; rewrite M, Ol; reflexivity). assert (Go' : get_obj l' s1 = ROk o' s1) by (unfold get_obj; rewrite M, Ol'; reflexivity).
  pose proof (Ty s1 M) as Ty1. rewrite Oo, T in Ty1. pose proof (Ty' s1 M) as Ty1'. rewrite O', T' in Ty1'.
  assert (Hs : size_of p s1 = ROk (elements sh') s1).
  { unfold heap_of in Hh. unfold size_of. unfold bind in *. destruct (get p s1) as [v s2| | |]; try discriminate. destruct (eff v s2) as [w s3| | |]; try discriminate. destruct w; try discriminate.
    unfold ret in Hh. inversion Hh. subst. rewrite Go'. apply Si'. }
  unfold arith_array. rewrite (bind_ok _ _ _ _ _ _ _ Go), (bind_ok _ _ _ _ _ _ _ Ty1), (bind_ok _ _ _ _ _ _ _ Hh), (bind_ok _ _ _ _ _ _ _ Hs).
  rewrite (bind_ok _ _ _ _ s1 (odim o') s1); [|rewrite (bind_ok _ _ _ _ _ _ _ Go'); reflexivity].
  assert (One : Nat.eqb (odim o') 1 && (elements sh' =? 1)%Z = false).
  { rewrite Di'. destruct (Nat.eqb_spec (length sh') 1); [|reflexivity]. apply Z.eqb_neq. destruct Sv; auto. }
  rewrite One. rewrite Di, Di'. cbv iota.
  assert (St : (if Nat.ltb (length sh') (length sh) then stride_i o (length sh - length sh' - 1) else ret (elements sh)) s1 = if Nat.ltb (length sh) (length sh') then (if Nat.ltb (length sh') (length sh) then stride_i o (length sh - length sh' - 1) else ret (elements sh)) s1 else ROk (row sh sh') s1).
  { destruct (Nat.ltb_spec (length sh) (length sh')) as [L|L]; [reflexivity|]. destruct (Nat.ltb_spec (length sh') (length sh)) as [L2|L2]; [apply stride_row; auto|].
    unfold row. replace (length sh - length sh') with 0 by lia. reflexivity. }
  destruct (Nat.ltb (length sh) (length sh')); [destruct ty; congruence || reflexivity|].
  destruct ty eqn:Et; try congruence; rewrite (bind_ok _ _ _ _ _ _ _ Go'), (bind_ok _ _ _ _ _ _ _ Ty1'); (destruct (negb _); [reflexivity|]);
    rewrite (bind_ok _ _ _ _ _ _ _ (Si s1)), (bind_ok _ _ _ _ _ _ _ St); (destruct (row sh sh' =? 0)%Z; [reflexivity|]); cbv zeta; destruct (Z.to_nat (Z.quot (elements sh) (row sh sh'))); try reflexivity; destruct op; reflexivity.
Qed.
End Chosen.

(** * C136 *)
Lemma array_gives : forall s j t off sh ty cs, reachable s -> array_var s j t off sh ty cs ->
  exists e l o ot, INV e [] s /\ variable s j (MPtr l) /\ has_shape s l t off sh o /\ element_of s l t off /\
    nth_error (mem s) t = Some (Some ot) /\ h_view ot = None /\ h_ty ot = HE ty /\ map snd (h_cells ot) = cs /\ (ty <> TVar -> of_type ty cs).
Proof.
  intros s j t off sh ty cs R (l & Vj & Sh & (ot & Ot & W & T & C) & B). destruct (reachable_INV _ R) as [e I]. destruct (shaped_has s l t off sh Sh B) as [o H].
  exists e, l, o, ot. split; [exact I|]. split; [exact Vj|]. split; [exact H|]. split; [eapply has_element; eauto|]. split; [exact Ot|]. split; [exact W|]. split; [exact T|]. split; [exact C|].
  intros Nt k v Nv. destruct (reachable_dense s R) as [D _]. specialize (D t ot Ot). rewrite <- C, nth_error_map in Nv. destruct (nth_error (h_cells ot) k) as [c|] eqn:Nc; simpl in Nv; inversion Nv.
  pose proof (MemDense.typed_nth _ _ _ D Nc) as Cc. unfold MemDense.cell_ok in Cc. rewrite T in Cc. destruct (varlike (HE ty)) eqn:Vl; [destruct ty; try discriminate; congruence|].
  destruct Cc as [_ [J|(v' & E & Ty)]]; congruence.
Qed.
Lemma changed : forall s t ty cs ot o2 cs', nth_error (mem s) t = Some (Some ot) -> h_view ot = None -> h_ty ot = HE ty -> map snd (h_cells ot) = cs -> alike ot o2 -> map snd (h_cells o2) = cs' ->
  only_storage t s (with_obj t o2 s) /\ storage (with_obj t o2 s) t ty cs'.
Proof.
  intros s t ty cs ot o2 cs' O V T C (A1 & A2 & A3 & A4 & A5) C2. assert (Lt : t < length (mem s)) by (apply nth_error_Some; congruence). split.
  - unfold only_storage. simpl. split; [reflexivity|]. split; [reflexivity|]. split; [apply sn_length|]. split; [intros q Q; apply sn_other; auto|].
    intros q Q. exists o2. rewrite sn_same by auto. assert (q = ot) by congruence. subst. repeat split; auto.
  - exists o2. simpl. rewrite sn_same by auto. rewrite A4, A1. auto.
Qed.
Lemma single : forall q x s w, nth_error (stk s) q = Some x -> der_spec x s (MNum w) -> heap_of (LS q) s = ROk None s /\ size_of (LS q) s = ROk 1%Z s.
Proof.
  intros q x s w Nq D. destruct (der_value x s w D) as (a & E & V & Nn & Np). unfold heap_of, size_of. rewrite !(bind_ok _ _ _ _ _ _ _ (get_eq (LS q) _ _ Nq)), !(bind_ok _ _ _ _ _ _ _ E).
  destruct a; try (split; reflexivity); congruence.
Qed.
Lemma temps_element : forall s s1 l t off, temps s s1 -> element_of s l t off -> element_of s1 l t off.
Proof. intros s s1 l t off [M _]. apply element_mem; auto. Qed.
Lemma denotes_with : forall t o' s x y, denotes s x y -> (forall i, x <> MRef t i) -> denotes (with_obj t o' s) x y.
Proof.
  intros t o' s x y D N. destruct x; auto. unfold denotes in *. destruct D as (o & k & O & D). exists o, k. split; [|exact D]. simpl. rewrite sn_other; auto. intros ->. eapply N; eauto.
Qed.
Lemma cast_floating : forall ty w, floating ty -> is_number w -> exists z, cast ty w = Ok z.
Proof. intros ty w [->| ->] N; destruct w; simpl in N; try contradiction; eexists; reflexivity. Qed.
(** Place [k] of the storage, read through a reference. *)
Lemma place_der : forall s x t k ot ty w, place s x t k -> nth_error (mem s) t = Some (Some ot) -> h_view ot = None -> h_ty ot = HE ty -> ty <> TVar -> nth_error (map snd (h_cells ot)) k = Some (MNum w) -> der_spec x s (MNum w).
Proof.
  intros s x t k ot ty w (l & i & off & sh & -> & Sh & ->) O V T Nt N. assert (D : varlike (HE ty) = false) by (destruct ty; auto; congruence).
  assert (El : element_of s l t off /\ exists o, nth_error (mem s) l = Some (Some o) /\ plain_vars o = false).
  { destruct Sh as [[Ns (o & Ol & Vo & Sz & Ds)]|(-> & -> & o & Ol & Vo & ->)].
    - split; [|exists o; split; auto; unfold plain_vars; rewrite Vo; reflexivity]. exists o. split; auto. rewrite Vo. split; [reflexivity|]. apply (Ds 0). reflexivity.
    - split; [exists o; rewrite Vo; auto|]. exists o. split; auto. assert (o = ot) by congruence. subst. unfold plain_vars. rewrite Vo, T. auto. }
  destruct El as [El (o & Ol & Pl)]. exists o. split; [apply obj_live; auto|]. rewrite Pl. unfold read_elem. rewrite (bind_ok _ _ _ _ _ _ _ (element_at _ _ _ _ i El)). unfold bind, get_obj. rewrite O.
  rewrite nth_error_map in N. destruct (nth_error (h_cells ot) (off + i)) as [[c v]|]; simpl in N; inversion N. rewrite T, D. reflexivity.
Qed.
Lemma place_temps : forall s s1 x t k, mem s1 = mem s -> place s x t k -> place s1 x t k.
Proof. intros s s1 x t k E (l & i & off & sh & X & Sh & K). exists l, i, off, sh. split; auto. split; auto. unfold shaped, view_at in *. rewrite E. exact Sh. Qed.
Lemma place_with : forall s x t k ot o', place s x t k -> nth_error (mem s) t = Some (Some ot) -> h_view ot = None -> alike ot o' -> place (with_obj t o' s) x t k.
Proof.
  intros s x t k ot o' (l & i & off & sh & X & Sh & K) O V (_ & A2 & _ & A4 & _). exists l, i, off, sh. split; auto. split; auto. assert (Lt : t < length (mem s)) by (apply nth_error_Some; congruence).
  destruct Sh as [[Ns (o & Ol & Vo & Sz & Ds)]|(-> & -> & o & Ol & Vo & ->)].
  - left. split; auto. exists o. simpl. rewrite sn_other by (intros ->; congruence). auto.
  - right. split; auto. split; auto. exists o'. simpl. rewrite sn_same by auto. assert (o = ot) by congruence. subst. rewrite A2, A4. auto.
Qed.
Lemma scaled_by : forall ty l t off q x n s1 ot cs' w, floating ty -> element_of s1 l t off -> nth_error (mem s1) t = Some (Some ot) -> h_view ot = None -> h_ty ot = HE ty -> of_type ty (map snd (h_cells ot)) ->
  nth_error (stk s1) q = Some x -> der_spec x s1 (MNum w) -> is_number w -> runs Mul (fun _ _ y => y = w) (map snd (h_cells ot)) off n cs' ->
  exists o2, match ty with
             | TFloat | TDouble => (let! y := cast_var ty (LS q) in scale_elems l y n 0) s1
             | _ => RThrow "Mul::scal: Unknown type" s1
             end = ROk tt (with_obj t o2 s1) /\ alike ot o2 /\ map snd (h_cells o2) = cs'.
Proof.
  intros ty l t off q x n s1 ot cs' w Fl El O V T Ty Nq D Nw R. destruct (cast_floating ty w Fl Nw) as [z Cz]. assert (Nt : ty <> TVar) by (destruct Fl; subst; discriminate).
  destruct (scale_elems_runs ty l t off n s1 ot cs' w z Nt El O V T Ty Cz R) as (o2 & E2 & A2 & C2). exists o2. split; auto.
  assert (X : (let! y := cast_var ty (LS q) in scale_elems l y n 0) s1 = ROk tt (with_obj t o2 s1)).
  { rewrite (bind_ok _ _ _ _ s1 z s1); [exact E2|]. rewrite (cast_var_eq ty (LS q) s1 x w Nq D). rewrite Cz. reflexivity. }
  destruct Fl as [F|F]; rewrite F in *; exact X.
Qed.
(** An array or view with a number: every element takes part with that number. *)
Theorem C136_number : forall op s j t off sh ty cs f x w n cs', reachable s -> array_var s j t off sh ty cs -> ty <> TVar -> elements sh = Z.of_nat n ->
  operand s f x -> denotes s x (MNum w) -> is_number w -> (forall i, x <> MRef t i) -> (op = Mul -> floating ty) ->
  operated op (among off n) (fun _ y => y = w) cs cs' ->
  exists s', exec (SOp op (EVar j) f) s = ROk tt s' /\ only_storage t s s' /\ storage s' t ty cs'.
Proof.
  intros op s j t off sh ty cs f x w n cs' R Ar Nt En Of Dx Nw Nx Fl Op.
  destruct (array_gives _ _ _ _ _ _ _ R Ar) as (e & l & o & ot & I & Vj & H & El & O & V & T & C & Ty). specialize (Ty Nt).
  assert (Rn : runs op (fun _ _ y => y = w) (map snd (h_cells ot)) off n cs') by (rewrite C; apply (runs_fixed op (fun _ y => y = w)); auto).
  destruct (exec_arith_ok op e s j l f x I Vj Of t ot (fun o2 => alike ot o2 /\ map snd (h_cells o2) = cs') O) as (o2 & E & A2 & C2).
  - intros s1 q Tm Nq. pose proof Tm as [M _]. pose proof (temps_denotes _ _ _ _ Tm Dx) as D1. destruct (single q x s1 w Nq (proj1 (denotes_der _ _ _ D1))) as [Hh Hs].
    rewrite (arith_one s l t off sh o ot ty H O T Nt s1 (LS q) M op Hh Hs). rewrite En, Nat2Z.id.
    assert (O1 : nth_error (mem s1) t = Some (Some ot)) by (rewrite M; auto). pose proof (temps_element _ _ _ _ _ Tm El) as El1.
    assert (E : op = Mul \/ op <> Mul) by (destruct op; auto; right; discriminate). destruct E as [->|Nm].
    + apply (scaled_by ty l t off q x n s1 ot cs' w); auto; [rewrite C; auto|apply denotes_der; auto].
    + destruct (each_elem_runs op ty l t off q x n s1 ot cs' (fun _ y => y = w) (fun s => denotes s x (MNum w))) as (o2 & E2 & A2 & C2); auto.
      * rewrite C; auto.
      * intros s0 ot0 o' D0 O0 V0 A. apply denotes_with; auto.
      * intros s0 ot0 y D0 O0 V0 T0 ->. apply denotes_der; auto.
      * exists o2. split; auto. destruct op; try congruence; exact E2.
  - destruct (changed s t ty cs ot o2 cs' O V T C A2 C2) as [S1 S2]. exists (with_obj t o2 s). auto.
Qed.
(** An element of the array itself on the right is read again for each element: it has its old
    value up to its own place and its new value after that. *)
Theorem C136_own_element : forall op s j t off sh ty cs f x k w n cs', reachable s -> array_var s j t off sh ty cs -> ty <> TVar -> elements sh = Z.of_nat n ->
  operand s f x -> place s x t k -> nth_error cs k = Some (MNum w) -> op <> Mul ->
  operated op (among off n) (fun i y => nth_error (if Nat.leb i k then cs else cs') k = Some (MNum y)) cs cs' ->
  exists s', exec (SOp op (EVar j) f) s = ROk tt s' /\ only_storage t s s' /\ storage s' t ty cs'.
Proof.
  intros op s j t off sh ty cs f x k w n cs' R Ar Nt En Of Px Nw Nm Op.
  destruct (array_gives _ _ _ _ _ _ _ R Ar) as (e & l & o & ot & I & Vj & H & El & O & V & T & C & Ty). specialize (Ty Nt).
  assert (Rn : runs op (fun _ cs y => nth_error cs k = Some (MNum y)) (map snd (h_cells ot)) off n cs') by (rewrite C; apply (runs_places op (fun _ => k)); auto).
  destruct (exec_arith_ok op e s j l f x I Vj Of t ot (fun o2 => alike ot o2 /\ map snd (h_cells o2) = cs') O) as (o2 & E & A2 & C2).
  - intros s1 q Tm Nq. pose proof Tm as [M _]. assert (O1 : nth_error (mem s1) t = Some (Some ot)) by (rewrite M; auto). pose proof (temps_element _ _ _ _ _ Tm El) as El1. pose proof (place_temps s s1 x t k M Px) as P1.
    destruct (single q x s1 w Nq) as [Hh Hs]; [eapply place_der; eauto; rewrite C; auto|].
    rewrite (arith_one s l t off sh o ot ty H O T Nt s1 (LS q) M op Hh Hs). rewrite En, Nat2Z.id.
    destruct (each_elem_runs op ty l t off q x n s1 ot cs' (fun cs y => nth_error cs k = Some (MNum y)) (fun s => place s x t k)) as (o2 & E2 & A2 & C2); auto.
    + rewrite C; auto.
    + intros s0 ot0 o' P0 O0 V0 A. eapply place_with; eauto.
    + intros s0 ot0 y P0 O0 V0 T0 Ny. eapply place_der; eauto.
    + exists o2. split; auto. destruct op; try congruence; exact E2.
  - destruct (changed s t ty cs ot o2 cs' O V T C A2 C2) as [S1 S2]. exists (with_obj t o2 s). auto.
Qed.
(** Multiplication reads it once. *)
Theorem C136_own_factor : forall s j t off sh ty cs f x k w n cs', reachable s -> array_var s j t off sh ty cs -> floating ty -> elements sh = Z.of_nat n ->
  operand s f x -> place s x t k -> nth_error cs k = Some (MNum w) ->
  operated Mul (among off n) (fun _ y => y = w) cs cs' ->
  exists s', exec (SOp Mul (EVar j) f) s = ROk tt s' /\ only_storage t s s' /\ storage s' t ty cs'.
Proof.
  intros s j t off sh ty cs f x k w n cs' R Ar Fl En Of Px Nw Op. assert (Nt : ty <> TVar) by (destruct Fl; subst; discriminate).
  destruct (array_gives _ _ _ _ _ _ _ R Ar) as (e & l & o & ot & I & Vj & H & El & O & V & T & C & Ty). specialize (Ty Nt).
  assert (Rn : runs Mul (fun _ _ y => y = w) (map snd (h_cells ot)) off n cs') by (rewrite C; apply (runs_fixed Mul (fun _ y => y = w)); auto).
  destruct (exec_arith_ok Mul e s j l f x I Vj Of t ot (fun o2 => alike ot o2 /\ map snd (h_cells o2) = cs') O) as (o2 & E & A2 & C2).
  - intros s1 q Tm Nq. pose proof Tm as [M _]. assert (O1 : nth_error (mem s1) t = Some (Some ot)) by (rewrite M; auto). pose proof (temps_element _ _ _ _ _ Tm El) as El1. pose proof (place_temps s s1 x t k M Px) as P1.
    assert (D1 : der_spec x s1 (MNum w)) by (eapply place_der; eauto; rewrite C; auto). destruct (single q x s1 w Nq D1) as [Hh Hs].
    rewrite (arith_one s l t off sh o ot ty H O T Nt s1 (LS q) M Mul Hh Hs). rewrite En, Nat2Z.id.
    apply (scaled_by ty l t off q x n s1 ot cs' w); auto; [rewrite C; auto|apply type_number; rewrite (Ty _ _ Nw); auto].
  - destruct (changed s t ty cs ot o2 cs' O V T C A2 C2) as [S1 S2]. exists (with_obj t o2 s). auto.
Qed.
(** ** Two arrays *)
Lemma shape_split : forall d sh, elements sh = (elements (firstn d sh) * elements (skipn d sh))%Z.
Proof. induction d; intros [|a sh]; try (cbn [firstn skipn elements]; lia). cbn [firstn skipn elements]. rewrite (IHd sh). lia. Qed.
Lemma heap_ptr : forall q s l, nth_error (stk s) q = Some (MPtr l) -> heap_of (LS q) s = ROk (Some l) s.
Proof. intros q s l N. unfold heap_of. rewrite (bind_ok _ _ _ _ _ _ _ (get_eq (LS q) _ _ N)). reflexivity. Qed.
Lemma floating_rows : forall ty op A (a r : A) m, floating ty -> op <> Div -> match op with Div => r | _ => match ty with TFloat | TDouble => a | _ => m end end = a.
Proof. intros ty op A a r m [->| ->] N; destruct op; congruence || reflexivity. Qed.
(** Each row of the left operand, which has at least the dimensions of the right one, takes part
    with all of the right one. *)
Theorem C136_rows : forall op s j k t off sh ty cs t' off' sh' cs2 step m ops cs', reachable s -> array_var s j t off sh ty cs -> array_var s k t' off' sh' ty cs2 -> floating ty -> op <> Div ->
  several sh' -> length sh' <= length sh -> t' <> t -> row sh sh' = Z.of_nat step -> elements sh' = Z.of_nat m -> elements (firstn (length sh - length sh') sh) = Z.of_nat ops -> 0 < step -> m <= step ->
  operated op (in_rows off step m ops) (fun k y => nth_error cs2 (off' + Nat.modulo (k - off) step) = Some (MNum y)) cs cs' ->
  exists s', exec (SOp op (EVar j) (EVar k)) s = ROk tt s' /\ only_storage t s s' /\ storage s' t ty cs'.
Proof.
  intros op s j k t off sh ty cs t' off' sh' cs2 step m ops cs' R Ar Ar' Fl Nd Sv Ld Dt Er Em Eo Ps Lm Op. assert (Nt : ty <> TVar) by (destruct Fl; subst; discriminate).
  destruct (array_gives _ _ _ _ _ _ _ R Ar) as (e & l & o & ot & I & Vj & H & El & O & V & T & C & Ty). specialize (Ty Nt).
  destruct (array_gives _ _ _ _ _ _ _ R Ar') as (e' & l' & o' & ot' & _ & Vk & H' & El' & O' & V' & T' & C' & Ty'). specialize (Ty' Nt).
  destruct (exec_arith_ok op e s j l (EVar k) (MPtr l') I Vj (op_var s k _ Vk) t ot (fun o2 => alike ot o2 /\ map snd (h_cells o2) = cs') O) as (o2 & E & A2 & C2).
  - intros s1 q Tm Nq. pose proof Tm as [M _]. assert (O1 : nth_error (mem s1) t = Some (Some ot)) by (rewrite M; auto). pose proof (temps_element _ _ _ _ _ Tm El) as El1. pose proof (temps_element _ _ _ _ _ Tm El') as El1'.
    rewrite (arith_two s l t off sh o ot ty H O T Nt s1 (LS q) M l' t' off' sh' o' ot' ty H' O' T' Sv (heap_ptr q s1 l' Nq)).
    destruct (Nat.ltb_spec (length sh) (length sh')); [lia|]. rewrite Z.eqb_refl. change (negb true) with false. cbv iota. rewrite Er. destruct (Z.eqb_spec (Z.of_nat step) 0); [lia|].
    assert (Eq : Z.to_nat (Z.quot (elements sh) (Z.of_nat step)) = ops).
    { rewrite (shape_split (length sh - length sh')). fold (row sh sh'). rewrite Er, Eo. rewrite Z.quot_mul by lia. apply Nat2Z.id. }
    rewrite Eq, Em, Nat2Z.id.
    destruct (rows_runs op ty l t off step l' t' off' cs2 m ops cs cs' Nt Dt Ty' Ps Lm Op ops 0 s1 ot) as (o2 & E2 & A2 & C2); auto.
    + right. exists ot'. rewrite M. auto.
    + rewrite C; auto.
    + rewrite C. rewrite Nat.mul_0_r, Nat.add_0_r. apply List.nth_ext with (d := MNil) (d' := MNil); [rewrite mid_length; auto; apply Op|]. intros i Hi.
      assert (E : nth_error (mid cs cs' off) i = nth_error cs i).
      { rewrite mid_nth by apply Op. destruct (Nat.ltb_spec i off); auto. apply Op. unfold in_rows, among. lia. }
      rewrite (nth_some _ cs i MNil) in E by lia. rewrite (nth_some _ _ i MNil) in E by (rewrite mid_length; auto; apply Op). congruence.
    + assert (Fin : mid cs cs' (off + step * ops) = cs').
      { apply List.nth_ext with (d := MNil) (d' := MNil); [rewrite mid_length; [symmetry|]; apply Op|]. intros i Hi. rewrite mid_length in Hi by apply Op. assert (L : length cs' = length cs) by apply Op.
        assert (E : nth_error (mid cs cs' (off + step * ops)) i = nth_error cs' i).
        { rewrite mid_nth by auto. destruct (Nat.ltb_spec i (off + step * ops)); auto. symmetry. apply Op. unfold in_rows, among. lia. }
        rewrite (nth_some _ cs' i MNil) in E by lia. rewrite (nth_some _ _ i MNil) in E by (rewrite mid_length; auto). congruence. }
      rewrite Fin in C2. exists o2. split; auto. destruct ops as [|ops]; [exact E2|].
      cbv zeta. rewrite floating_rows by auto. exact E2.
  - destruct (changed s t ty cs ot o2 cs' O V T C A2 C2) as [S1 S2]. exists (with_obj t o2 s). auto.
Qed.
(** With as many dimensions on both sides, as many elements take part as there are on the right,
    whatever the size of the left operand. *)
Lemma paired_gen : forall op s j k t off sh ty cs t' off' sh' cs2 m cs', reachable s -> array_var s j t off sh ty cs -> array_var s k t' off' sh' ty cs2 -> floating ty -> op <> Div ->
  several sh' -> length sh' = length sh -> elements sh <> 0%Z -> elements sh' = Z.of_nat m ->
  runs op (fun a cs y => nth_error (if Nat.eqb t' t then cs else cs2) (off' + (a - off)) = Some (MNum y)) cs off m cs' ->
  exists s', exec (SOp op (EVar j) (EVar k)) s = ROk tt s' /\ only_storage t s s' /\ storage s' t ty cs'.
Proof.
  intros op s j k t off sh ty cs t' off' sh' cs2 m cs' R Ar Ar' Fl Nd Sv Ld Nz Em Rn. assert (Nt : ty <> TVar) by (destruct Fl; subst; discriminate).
  destruct (array_gives _ _ _ _ _ _ _ R Ar) as (e & l & o & ot & I & Vj & H & El & O & V & T & C & Ty). specialize (Ty Nt).
  destruct (array_gives _ _ _ _ _ _ _ R Ar') as (e' & l' & o' & ot' & _ & Vk & H' & El' & O' & V' & T' & C' & Ty'). specialize (Ty' Nt).
  destruct (exec_arith_ok op e s j l (EVar k) (MPtr l') I Vj (op_var s k _ Vk) t ot (fun o2 => alike ot o2 /\ map snd (h_cells o2) = cs') O) as (o2 & E & A2 & C2).
  - intros s1 q Tm Nq. pose proof Tm as [M _]. assert (O1 : nth_error (mem s1) t = Some (Some ot)) by (rewrite M; auto). pose proof (temps_element _ _ _ _ _ Tm El) as El1. pose proof (temps_element _ _ _ _ _ Tm El') as El1'.
    rewrite (arith_two s l t off sh o ot ty H O T Nt s1 (LS q) M l' t' off' sh' o' ot' ty H' O' T' Sv (heap_ptr q s1 l' Nq)).
    destruct (Nat.ltb_spec (length sh) (length sh')); [lia|]. rewrite Z.eqb_refl. change (negb true) with false. cbv iota.
    assert (Er : row sh sh' = elements sh) by (unfold row; rewrite Ld, Nat.sub_diag; reflexivity). rewrite Er. destruct (Z.eqb_spec (elements sh) 0); [lia|].
    rewrite Z.quot_same by auto. change (Z.to_nat 1) with 1. cbv iota zeta. rewrite floating_rows by auto.
    rewrite Em, Nat2Z.id. cbn [rows]. rewrite Z.mul_0_r. change 0%Z with (Z.of_nat 0) at 1.
    destruct (pair_elems_runs op ty l t off 0 l' t' off' cs2 m s1 ot cs') as (o2 & E2 & A2 & C2); auto.
    + right. exists ot'. rewrite M. auto.
    + rewrite C; auto.
    + rewrite C, Nat.add_0_r. exact Rn.
    + exists o2. split; auto. rewrite (bind_ok _ _ _ _ _ _ _ E2). reflexivity.
  - destruct (changed s t ty cs ot o2 cs' O V T C A2 C2) as [S1 S2]. exists (with_obj t o2 s). auto.
Qed.
Theorem C136_paired : forall op s j k t off sh ty cs t' off' sh' cs2 m cs', reachable s -> array_var s j t off sh ty cs -> array_var s k t' off' sh' ty cs2 -> floating ty -> op <> Div ->
  several sh' -> length sh' = length sh -> elements sh <> 0%Z -> elements sh' = Z.of_nat m -> t' <> t ->
  operated op (among off m) (fun k y => nth_error cs2 (off' + (k - off)) = Some (MNum y)) cs cs' ->
  exists s', exec (SOp op (EVar j) (EVar k)) s = ROk tt s' /\ only_storage t s s' /\ storage s' t ty cs'.
Proof.
  intros op s j k t off sh ty cs t' off' sh' cs2 m cs' R Ar Ar' Fl Nd Sv Ld Nz Em Dt Op. eapply paired_gen; eauto. destruct (Nat.eqb_spec t' t); [congruence|].
  apply (runs_fixed op (fun k y => nth_error cs2 (off' + (k - off)) = Some (MNum y))). exact Op.
Qed.
(** Two views of the same storage, or an array and a view of it: elements of the right operand from
    further back have changed when they are read. *)
Theorem C136_same_storage : forall op s j k t off sh ty cs off' sh' m cs', reachable s -> array_var s j t off sh ty cs -> array_var s k t off' sh' ty cs -> floating ty -> op <> Div ->
  several sh' -> length sh' = length sh -> elements sh <> 0%Z -> elements sh' = Z.of_nat m ->
  operated op (among off m) (fun k y => nth_error (if Nat.leb off off' then cs else cs') (off' + (k - off)) = Some (MNum y)) cs cs' ->
  exists s', exec (SOp op (EVar j) (EVar k)) s = ROk tt s' /\ only_storage t s s' /\ storage s' t ty cs'.
Proof.
  intros op s j k t off sh ty cs off' sh' m cs' R Ar Ar' Fl Nd Sv Ld Nz Em (L & H1 & H2). eapply paired_gen; eauto. rewrite Nat.eqb_refl.
  apply (runs_places op (fun a => off' + (a - off))). split; [exact L|]. split; [|exact H2]. intros i Hi. destruct (H1 i Hi) as (u & y & r & A & B & D). exists u, y, r. split; auto. split; auto. unfold among in Hi.
  destruct (Nat.leb_spec i (off' + (i - off))), (Nat.leb_spec off off'); auto; lia.
Qed.
(** More numbers on the right than there is storage: the program writes past its end. *)
Lemma float_op : forall op u y ty, floating ty -> op <> Div -> ety_of u = ty -> ety_of y = ty -> exists r, num_op op u y = Ok r /\ ety_of r = ty.
Proof.
  intros op u y ty [->| ->] Nd Eu Ey; destruct u; try discriminate; destruct y; try discriminate; destruct op; try congruence; eexists; split; reflexivity.
Qed.
Lemma pair_elems_over : forall op ty l t off l' t' off' cs2 n i s ot, floating ty -> op <> Div -> element_of s l t off -> element_of s l' t' off' -> t' <> t -> right_in s t' ty cs2 t -> of_type ty cs2 ->
  nth_error (mem s) t = Some (Some ot) -> h_view ot = None -> h_ty ot = HE ty -> of_type ty (map snd (h_cells ot)) ->
  (forall a, i <= a < i + n -> exists v, nth_error cs2 (off' + a) = Some (MNum v)) -> (forall a, a < length (h_cells ot) -> exists v, nth_error (map snd (h_cells ot)) a = Some (MNum v)) ->
  length (h_cells ot) < off + i + n -> 0 < n ->
  pair_elems op l 0 l' n (Z.of_nat i) s = RUB OutOfBounds.
Proof.
  intros op ty l t off l' t' off' cs2 n. induction n; intros i s ot Fl Nd El El' Dt Ri Ty2 O V T Ty N2 N1 Ov Pn; [lia|]. assert (D : varlike (HE ty) = false) by (destruct Fl; subst; reflexivity).
  cbn [pair_elems]. destruct (N2 i) as [y Ny]; [lia|]. pose proof Ri as Ri'. destruct Ri' as [|(o' & O' & V' & T' & C')]; [congruence|].
  assert (Rd : read_elem l' (Z.of_nat i) s = ROk (MNum y) s).
  { unfold read_elem. rewrite (bind_ok _ _ _ _ _ _ _ (element_at _ _ _ _ i El')). unfold bind, get_obj. rewrite O'. rewrite <- C', nth_error_map in Ny. destruct (nth_error (h_cells o') (off' + i)) as [[c v]|]; simpl in Ny; inversion Ny. rewrite T', D. reflexivity. }
  rewrite (bind_ok _ _ _ _ _ _ _ Rd). rewrite Z.add_0_l. destruct (nth_error (h_cells ot) (off + i)) as [[c v]|] eqn:C.
  - assert (Li : off + i < length (h_cells ot)) by (apply nth_error_Some; congruence). destruct (N1 _ Li) as [u Nu]. pose proof Nu as Nu'. rewrite nth_error_map, C in Nu'. simpl in Nu'. inversion Nu'. subst v.
    destruct (float_op op u y ty Fl Nd (Ty _ _ Nu) (Ty2 _ _ Ny)) as (r & Nr & Er).
    rewrite (bind_ok _ _ _ _ _ _ _ (on_elem_runs op l t off i s ot c u y r El O ltac:(rewrite T; auto) C Nr)). replace (Z.of_nat i + 1)%Z with (Z.of_nat (S i)) by lia.
    destruct (put_alike ot (off + i) c (MNum u) r C) as [A Mp]. assert (Lp : length (h_cells (put ot (off + i) c r)) = length (h_cells ot)) by (unfold put; simpl; apply sn_length).
    assert (Lt : t < length (mem s)) by (apply nth_error_Some; congruence).
    apply (IHn (S i) _ (put ot (off + i) c r)); auto.
    + eapply element_alike; eauto.
    + eapply element_alike; eauto.
    + right. exists o'. simpl. rewrite sn_other by auto. auto.
    + simpl. apply sn_same; auto.
    + intros a w Nw. rewrite Mp, sn_nth_error in Nw by (rewrite map_length; auto). destruct (Nat.eqb a (off + i)); [inversion Nw; subst; auto|eauto].
    + intros a Ha. apply N2. lia.
    + intros a Ha. rewrite Lp in Ha. rewrite Mp, sn_nth_error by (rewrite map_length; auto). destruct (Nat.eqb a (off + i)); eauto.
    + lia.
    + lia.
  - assert (Ub : on_elem op l (Z.of_nat i) y s = RUB OutOfBounds).
    { unfold on_elem, bind at 1, read_elem. rewrite (bind_ok _ _ _ _ _ _ _ (element_at _ _ _ _ i El)). unfold bind, get_obj. rewrite O, C. reflexivity. }
    unfold bind at 1. rewrite Ub. reflexivity.
Qed.
Theorem C136_past_the_end : forall op s j k t off sh ty cs t' off' sh' cs2 m, reachable s -> array_var s j t off sh ty cs -> array_var s k t' off' sh' ty cs2 -> floating ty -> op <> Div ->
  several sh' -> length sh' = length sh -> elements sh <> 0%Z -> elements sh' = Z.of_nat m -> t' <> t ->
  (forall a, a < m -> exists v, nth_error cs2 (off' + a) = Some (MNum v)) -> (forall a, a < length cs -> exists v, nth_error cs a = Some (MNum v)) -> length cs < off + m -> 0 < m ->
  exec (SOp op (EVar j) (EVar k)) s = RUB OutOfBounds.
Proof.
  intros op s j k t off sh ty cs t' off' sh' cs2 m R Ar Ar' Fl Nd Sv Ld Nz Em Dt N2 N1 Ov Pm. assert (Nt : ty <> TVar) by (destruct Fl; subst; discriminate).
  destruct (array_gives _ _ _ _ _ _ _ R Ar) as (e & l & o & ot & I & Vj & H & El & O & V & T & C & Ty). specialize (Ty Nt).
  destruct (array_gives _ _ _ _ _ _ _ R Ar') as (e' & l' & o' & ot' & _ & Vk & H' & El' & O' & V' & T' & C' & Ty'). specialize (Ty' Nt).
  apply (exec_arith_ub op e s j l (EVar k) (MPtr l') I Vj (op_var s k _ Vk)). intros s1 q Tm Nq. pose proof Tm as [M _]. assert (O1 : nth_error (mem s1) t = Some (Some ot)) by (rewrite M; auto).
  pose proof (temps_element _ _ _ _ _ Tm El) as El1. pose proof (temps_element _ _ _ _ _ Tm El') as El1'.
  rewrite (arith_two s l t off sh o ot ty H O T Nt s1 (LS q) M l' t' off' sh' o' ot' ty H' O' T' Sv (heap_ptr q s1 l' Nq)).
  destruct (Nat.ltb_spec (length sh) (length sh')); [lia|]. rewrite Z.eqb_refl. change (negb true) with false. cbv iota.
  assert (Er : row sh sh' = elements sh) by (unfold row; rewrite Ld, Nat.sub_diag; reflexivity). rewrite Er. destruct (Z.eqb_spec (elements sh) 0); [lia|].
  rewrite Z.quot_same by auto. change (Z.to_nat 1) with 1. cbv iota zeta. rewrite floating_rows by auto.
  rewrite Em, Nat2Z.id. cbn [rows]. rewrite Z.mul_0_r. unfold bind at 1. change 0%Z with (Z.of_nat 0) at 2.
  rewrite (pair_elems_over op ty l t off l' t' off' cs2 m 0 s1 ot); auto.
  - right. exists ot'. rewrite M. auto.
  - rewrite C; auto.
  - intros a Ha. apply N2. lia.
  - intros a Ha. rewrite C. apply N1. rewrite <- C, map_length. auto.
  - rewrite <- (map_length snd), C. lia.
Qed.
(** ** What throws, and leaves everything as it was *)
Lemma vector_thrown : forall ty op A (a r m : A), ty <> TVar -> ~ floating ty -> op <> Div -> match op with Div => r | _ => match ty with TFloat | TDouble => a | _ => m end end = m.
Proof. intros ty op A a r m Nt N Nd. unfold floating in N. destruct ty; try (exfalso; apply N; auto; fail); try congruence; destruct op; congruence || reflexivity. Qed.
Theorem C136_factor_types : forall s j t off sh ty cs f x w, reachable s -> array_var s j t off sh ty cs -> ty <> TVar -> ~ floating ty ->
  operand s f x -> denotes s x (MNum w) -> exec (SOp Mul (EVar j) f) s = RThrow "Mul::scal: Unknown type" s.
Proof.
  intros s j t off sh ty cs f x w R Ar Nt Nf Of Dx. destruct (array_gives _ _ _ _ _ _ _ R Ar) as (e & l & o & ot & I & Vj & H & El & O & V & T & C & Ty).
  apply (exec_arith_throws Mul e s j l f x I Vj Of). intros s1 q Tm Nq. pose proof Tm as [M _]. pose proof (temps_denotes _ _ _ _ Tm Dx) as D1. destruct (single q x s1 w Nq (proj1 (denotes_der _ _ _ D1))) as [Hh Hs].
  rewrite (arith_one s l t off sh o ot ty H O T Nt s1 (LS q) M Mul Hh Hs). unfold floating in Nf. destruct ty; try reflexivity; exfalso; apply Nf; auto.
Qed.
Theorem C136_undefined : forall op s j t off sh ty cs f, reachable s -> array_var s j t off sh ty cs -> ty <> TVar -> operand s f MNil ->
  exec (SOp op (EVar j) f) s = RThrow "var::atype(): Undefined" s.
Proof.
  intros op s j t off sh ty cs f R Ar Nt Of. destruct (array_gives _ _ _ _ _ _ _ R Ar) as (e & l & o & ot & I & Vj & H & El & O & V & T & C & Ty).
  apply (exec_arith_throws op e s j l f MNil I Vj Of). intros s1 q Tm Nq. pose proof Tm as [M _].
  apply (arith_none s l t off sh o ot ty H O T Nt s1 (LS q) M op); unfold heap_of, size_of; rewrite (bind_ok _ _ _ _ _ _ _ (get_eq (LS q) _ _ Nq)); reflexivity.
Qed.
Lemma two_arrays : forall op s j k t off sh ty cs t' off' sh' ty' cs2, reachable s -> array_var s j t off sh ty cs -> array_var s k t' off' sh' ty' cs2 -> ty <> TVar -> several sh' ->
  exists e l l', INV e [] s /\ variable s j (MPtr l) /\ variable s k (MPtr l') /\
  forall s1 q, temps s s1 -> nth_error (stk s1) q = Some (MPtr l') -> arith_array op l (LS q) s1 =
    if Nat.ltb (length sh) (length sh') then RThrow "var::broadcast: input dimension too large" s1
    else if negb (hcode (HE ty) =? hcode (HE ty'))%Z then RThrow "var::broadcast: types must match (for now)" s1
    else if (row sh sh' =? 0)%Z then RUB DivByZero
    else match Z.to_nat (Z.quot (elements sh) (row sh sh')), op, ty with
         | O, _, _ => ROk tt s1
         | _, Div, _ => RStuck
         | ops, _, (TFloat | TDouble) => rows op l (row sh sh') l' (Z.to_nat (elements sh')) ops 0 s1
         | _, _, _ => RThrow (unknown_vector op) s1
         end.
Proof.
  intros op s j k t off sh ty cs t' off' sh' ty' cs2 R Ar Ar' Nt Sv.
  destruct (array_gives _ _ _ _ _ _ _ R Ar) as (e & l & o & ot & I & Vj & H & El & O & V & T & C & Ty).
  destruct (array_gives _ _ _ _ _ _ _ R Ar') as (e' & l' & o' & ot' & _ & Vk & H' & El' & O' & V' & T' & C' & Ty').
  exists e, l, l'. split; [exact I|]. split; [exact Vj|]. split; [exact Vk|]. intros s1 q [M _] Nq.
  apply (arith_two s l t off sh o ot ty H O T Nt s1 (LS q) M l' t' off' sh' o' ot' ty' H' O' T' Sv (heap_ptr q s1 l' Nq)).
Qed.
Theorem C136_dimensions : forall op s j k t off sh ty cs t' off' sh' ty' cs2, reachable s -> array_var s j t off sh ty cs -> array_var s k t' off' sh' ty' cs2 -> ty <> TVar -> several sh' ->
  length sh < length sh' -> exec (SOp op (EVar j) (EVar k)) s = RThrow "var::broadcast: input dimension too large" s.
Proof.
  intros op s j k t off sh ty cs t' off' sh' ty' cs2 R Ar Ar' Nt Sv Ld. destruct (two_arrays op _ _ _ _ _ _ _ _ _ _ _ _ _ R Ar Ar' Nt Sv) as (e & l & l' & I & Vj & Vk & E).
  apply (exec_arith_throws op e s j l (EVar k) (MPtr l') I Vj (op_var s k _ Vk)). intros s1 q Tm Nq. rewrite (E s1 q Tm Nq). destruct (Nat.ltb_spec (length sh) (length sh')); [reflexivity|lia].
Qed.
Theorem C136_types : forall op s j k t off sh ty cs t' off' sh' ty' cs2, reachable s -> array_var s j t off sh ty cs -> array_var s k t' off' sh' ty' cs2 -> ty <> TVar -> several sh' ->
  length sh' <= length sh -> ty' <> ty -> exec (SOp op (EVar j) (EVar k)) s = RThrow "var::broadcast: types must match (for now)" s.
Proof.
  intros op s j k t off sh ty cs t' off' sh' ty' cs2 R Ar Ar' Nt Sv Ld Dt. destruct (two_arrays op _ _ _ _ _ _ _ _ _ _ _ _ _ R Ar Ar' Nt Sv) as (e & l & l' & I & Vj & Vk & E).
  apply (exec_arith_throws op e s j l (EVar k) (MPtr l') I Vj (op_var s k _ Vk)). intros s1 q Tm Nq. rewrite (E s1 q Tm Nq). destruct (Nat.ltb_spec (length sh) (length sh')); [lia|].
  destruct (Z.eqb_spec (hcode (HE ty)) (hcode (HE ty'))) as [X|X]; [apply hcode_inj in X; congruence|reflexivity].
Qed.
Theorem C136_array_types : forall op s j k t off sh ty cs t' off' sh' cs2, reachable s -> array_var s j t off sh ty cs -> array_var s k t' off' sh' ty cs2 -> ty <> TVar -> ~ floating ty -> op <> Div -> several sh' ->
  length sh' <= length sh -> (0 < row sh sh')%Z -> (0 < elements (firstn (length sh - length sh') sh))%Z ->
  exec (SOp op (EVar j) (EVar k)) s = RThrow (vector_message op) s.
Proof.
  intros op s j k t off sh ty cs t' off' sh' cs2 R Ar Ar' Nt Nf Nd Sv Ld Pr Pe. destruct (two_arrays op _ _ _ _ _ _ _ _ _ _ _ _ _ R Ar Ar' Nt Sv) as (e & l & l' & I & Vj & Vk & E).
  apply (exec_arith_throws op e s j l (EVar k) (MPtr l') I Vj (op_var s k _ Vk)). intros s1 q Tm Nq. rewrite (E s1 q Tm Nq). destruct (Nat.ltb_spec (length sh) (length sh')); [lia|].
  rewrite Z.eqb_refl. change (negb true) with false. cbv iota. destruct (Z.eqb_spec (row sh sh') 0); [lia|].
  rewrite (shape_split (length sh - length sh')). fold (row sh sh'). rewrite Z.quot_mul by lia. destruct (Z.to_nat (elements (firstn (length sh - length sh') sh))) eqn:Eo; [lia|]. cbv zeta.
  rewrite vector_thrown by auto. reflexivity.
Qed.
(** An empty array or view on the left of an array divides by zero. *)
Theorem C136_empty : forall op s j k t off sh ty cs t' off' sh' cs2, reachable s -> array_var s j t off sh ty cs -> array_var s k t' off' sh' ty cs2 -> ty <> TVar -> several sh' ->
  length sh' <= length sh -> row sh sh' = 0%Z -> exec (SOp op (EVar j) (EVar k)) s = RUB DivByZero.
Proof.
  intros op s j k t off sh ty cs t' off' sh' cs2 R Ar Ar' Nt Sv Ld Er. destruct (two_arrays op _ _ _ _ _ _ _ _ _ _ _ _ _ R Ar Ar' Nt Sv) as (e & l & l' & I & Vj & Vk & E).
  apply (exec_arith_ub op e s j l (EVar k) (MPtr l') I Vj (op_var s k _ Vk)). intros s1 q Tm Nq. rewrite (E s1 q Tm Nq). destruct (Nat.ltb_spec (length sh) (length sh')); [lia|].
  rewrite Z.eqb_refl. change (negb true) with false. cbv iota. rewrite Er. reflexivity.
Qed.

(** Six doubles, with a view of two rows of two from the second and two views of three; arrays of
    two and of four doubles; three ints with a view of two; an undefined variable and two strings;
    eight doubles and nine. *)
Definition dbls (l : list Z) : list mvar := map (fun z => MNum (dbl z)) l.
Definition ints (l : list Z) : list mvar := map (fun z => MNum (VInt z)) l.
Definition init_dbls (l : list Z) : stmt := SInit (map (fun z => ENum (dbl z)) l).
Definition sum_prog : list stmt :=
  [init_dbls [10; 20; 30; 40; 50; 60]%Z; SDecl (EView (EVar 0) [2%Z; 2%Z] 1); init_dbls [1; 2]%Z; init_dbls [1; 2; 3; 4]%Z;
   SDecl (EView (EVar 0) [3%Z] 0); SDecl (EView (EVar 0) [3%Z] 1); SInit (map (fun z => ENum (VInt z)) [7; 8; 9]%Z); SDecl (EView (EVar 6) [2%Z] 0);
   SDecl ENil; SDecl (EStr []); SDecl (EStr [97; 98; 99]%Z); init_dbls [1; 2; 3; 4; 5; 6; 7; 8]%Z; init_dbls [1; 2; 3; 4; 5; 6; 7; 8; 9]%Z].
Definition s_sums : state := Eval vm_compute in match run sum_prog start with ROk _ s => s | _ => start end.
Lemma sums_reached : reachable s_sums. Proof. exists sum_prog. vm_compute. reflexivity. Qed.
Definition sums_of (t : nat) : list mvar := match nth_error (mem s_sums) t with Some (Some o) => map snd (h_cells o) | _ => [] end.
Ltac whole_found := eexists; split; [reflexivity|]; split; [right; split; [reflexivity|]; split; [reflexivity|]; eexists; split; [reflexivity|]; split; reflexivity|]; split; [store_found|reflexivity].
Ltac part_found := eexists; split; [reflexivity|]; split; [left; shape_found|]; split; [store_found|reflexivity].
Ltac place_done := do 3 eexists; split; [reflexivity|]; split; [reflexivity|]; refine (conj _ eq_refl); apply num_op_only; [exact Logic.I|exact Logic.I|first [exact Logic.I|split; discriminate]|first [exact Logic.I|split; discriminate]|vm_compute; reflexivity].
Ltac not_among P := exfalso; unfold in_rows, among in P; simpl in P; lia.
Ltac places_done := split; [reflexivity|]; split;
  [let k := fresh in let P := fresh in intros k P; do 8 (destruct k as [|k]; [first [place_done|not_among P]|]); not_among P
  |let k := fresh in let P := fresh in intros k P; do 8 (destruct k as [|k]; [first [reflexivity|exfalso; apply P; unfold in_rows, among; simpl; lia]|]); destruct k; reflexivity].
Ltac several_found := first [left; simpl; lia|right; vm_compute; discriminate].
Definition junks (n : nat) : list mvar := repeat MJunk n.

Example C136_number_example : exists s', exec (SOp Add (EVar 7) (ENum (VInt 5))) s_sums = ROk tt s' /\ only_storage 6 s_sums s' /\ storage s' 6 TInt (ints [12; 13; 9]%Z ++ junks 5).
Proof.
  apply (C136_number Add s_sums 7 6 0 [2%Z] TInt (sums_of 6) (ENum (VInt 5)) (MNum (VInt 5)) (VInt 5) 2); try reflexivity; try discriminate; try exact sums_reached.
  - part_found.
  - constructor. reflexivity.
  - places_done.
Qed.
Example C136_own_element_example : exists s', exec (SOp Sub (EVar 0) (EAt (EVar 0) 1)) s_sums = ROk tt s' /\ only_storage 0 s_sums s' /\ storage s' 0 TDouble (dbls [-10; 0; 30; 40; 50; 60]%Z ++ junks 2).
Proof.
  apply (C136_own_element Sub s_sums 0 0 0 [6%Z] TDouble (sums_of 0) (EAt (EVar 0) 1) (MRef 0 1) 1 (dbl 20) 6); try reflexivity; try discriminate; try exact sums_reached.
  - whole_found.
  - apply (op_at s_sums 0 0 1%Z); [reflexivity|lia].
  - do 4 eexists. split; [reflexivity|]. split; [right; split; [reflexivity|]; split; [reflexivity|]; eexists; split; [reflexivity|]; split; reflexivity|reflexivity].
  - places_done.
Qed.
Example C136_own_factor_example : exists s', exec (SOp Mul (EVar 5) (EAt (EVar 0) 1)) s_sums = ROk tt s' /\ only_storage 0 s_sums s' /\ storage s' 0 TDouble (dbls [10; 400; 600; 800; 50; 60]%Z ++ junks 2).
Proof.
  apply (C136_own_factor s_sums 5 0 1 [3%Z] TDouble (sums_of 0) (EAt (EVar 0) 1) (MRef 0 1) 1 (dbl 20) 3); try reflexivity; try discriminate; try exact sums_reached.
  - part_found.
  - right. reflexivity.
  - apply (op_at s_sums 0 0 1%Z); [reflexivity|lia].
  - do 4 eexists. split; [reflexivity|]. split; [right; split; [reflexivity|]; split; [reflexivity|]; eexists; split; [reflexivity|]; split; reflexivity|reflexivity].
  - places_done.
Qed.
Example C136_rows_example : exists s', exec (SOp Add (EVar 1) (EVar 2)) s_sums = ROk tt s' /\ only_storage 0 s_sums s' /\ storage s' 0 TDouble (dbls [10; 21; 32; 41; 52; 60]%Z ++ junks 2).
Proof.
  apply (C136_rows Add s_sums 1 2 0 1 [2%Z; 2%Z] TDouble (sums_of 0) 2 0 [2%Z] (sums_of 2) 2 2 2); try reflexivity; try discriminate; try exact sums_reached; try (simpl; lia).
  - part_found.
  - whole_found.
  - right. reflexivity.
  - several_found.
  - places_done.
Qed.
Example C136_paired_example : exists s', exec (SOp Add (EVar 4) (EVar 3)) s_sums = ROk tt s' /\ only_storage 0 s_sums s' /\ storage s' 0 TDouble (dbls [11; 22; 33; 44; 50; 60]%Z ++ junks 2).
Proof.
  apply (C136_paired Add s_sums 4 3 0 0 [3%Z] TDouble (sums_of 0) 3 0 [4%Z] (sums_of 3) 4); try reflexivity; try discriminate; try exact sums_reached; try (simpl; lia).
  - part_found.
  - whole_found.
  - right. reflexivity.
  - several_found.
  - places_done.
Qed.
Example C136_same_storage_example : exists s', exec (SOp Add (EVar 5) (EVar 4)) s_sums = ROk tt s' /\ only_storage 0 s_sums s' /\ storage s' 0 TDouble (dbls [10; 30; 60; 100; 50; 60]%Z ++ junks 2).
Proof.
  apply (C136_same_storage Add s_sums 5 4 0 1 [3%Z] TDouble (sums_of 0) 0 [3%Z] 3); try reflexivity; try discriminate; try exact sums_reached; try (simpl; lia).
  - part_found.
  - part_found.
  - right. reflexivity.
  - several_found.
  - places_done.
Qed.
Example C136_past_the_end_example : exec (SOp Sub (EVar 11) (EVar 12)) s_sums = RUB OutOfBounds.
Proof.
  apply (C136_past_the_end Sub s_sums 11 12 10 0 [8%Z] TDouble (sums_of 10) 11 0 [9%Z] (sums_of 11) 9); try reflexivity; try discriminate; try exact sums_reached; try (simpl; lia).
  - whole_found.
  - whole_found.
  - right. reflexivity.
  - several_found.
  - intros a A. do 9 (destruct a as [|a]; [eexists; reflexivity|]). lia.
  - intros a A. change (length (sums_of 10)) with 8 in A. do 8 (destruct a as [|a]; [eexists; reflexivity|]). lia.
Qed.
Example C136_factor_types_example : exec (SOp Mul (EVar 7) (ENum (VInt 2))) s_sums = RThrow "Mul::scal: Unknown type" s_sums.
Proof.
  apply (C136_factor_types s_sums 7 6 0 [2%Z] TInt (sums_of 6) (ENum (VInt 2)) (MNum (VInt 2)) (VInt 2)); try reflexivity; try discriminate; try exact sums_reached.
  - part_found.
  - intros [E|E]; discriminate E.
  - constructor. reflexivity.
Qed.
Example C136_undefined_example : exec (SOp Add (EVar 6) (EVar 8)) s_sums = RThrow "var::atype(): Undefined" s_sums.
Proof.
  apply (C136_undefined Add s_sums 6 6 0 [3%Z] TInt (sums_of 6)); try discriminate; try exact sums_reached.
  - whole_found.
  - constructor. reflexivity.
Qed.
Example C136_dimensions_example : exec (SOp Add (EVar 0) (EVar 1)) s_sums = RThrow "var::broadcast: input dimension too large" s_sums.
Proof.
  apply (C136_dimensions Add s_sums 0 1 0 0 [6%Z] TDouble (sums_of 0) 0 1 [2%Z; 2%Z] TDouble (sums_of 0)); try discriminate; try exact sums_reached; try (simpl; lia).
  - whole_found.
  - part_found.
  - several_found.
Qed.
Example C136_types_example : exec (SOp Add (EVar 0) (EVar 6)) s_sums = RThrow "var::broadcast: types must match (for now)" s_sums.
Proof.
  apply (C136_types Add s_sums 0 6 0 0 [6%Z] TDouble (sums_of 0) 6 0 [3%Z] TInt (sums_of 6)); try discriminate; try exact sums_reached; try (simpl; lia).
  - whole_found.
  - whole_found.
  - several_found.
Qed.
Example C136_array_types_example : exec (SOp Sub (EVar 6) (EVar 7)) s_sums = RThrow "Sub::vector: Unknown type" s_sums.
Proof.
  apply (C136_array_types Sub s_sums 6 7 6 0 [3%Z] TInt (sums_of 6) 6 0 [2%Z] (sums_of 6)); try discriminate; try exact sums_reached; try (simpl; lia); try reflexivity.
  - whole_found.
  - part_found.
  - intros [E|E]; discriminate E.
  - several_found.
Qed.
Example C136_empty_example : exec (SOp Add (EVar 9) (EVar 10)) s_sums = RUB DivByZero.
Proof.
  apply (C136_empty Add s_sums 9 10 8 0 [0%Z] TChar (sums_of 8) 9 0 [3%Z] (sums_of 9)); try discriminate; try exact sums_reached; try (simpl; lia); try reflexivity.
  - whole_found.
  - whole_found.
  - several_found.
Qed.
