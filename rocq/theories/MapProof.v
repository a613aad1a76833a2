(** Maps: association lists sorted by key. *)
From Coq Require Import ZArith Bool List Lia Sorting Permutation.
From Verif Require Import Base StrModel StrSpec StrProof ValModel ValSpec ValProof.
Import ListNotations.
Local Open Scope Z_scope.

Definition clt (a b : val * val) : Prop := lex (code (fst a)) (code (fst b)) = Lt.
Definition map_ok (l : list (val * val)) : Prop := StronglySorted clt l /\ Forall (fun p => key (fst p)) l.

(** Split a sorted list at a key. *)
Lemma map_split : forall l k, map_ok l -> exists l1 l2, l = l1 ++ l2 /\
  Forall (fun p => lex (code (fst p)) (code k) = Lt) l1 /\
  Forall (fun p => lex (code (fst p)) (code k) <> Lt) l2.
Proof.
  induction l as [|p l]; intros k [Hs Hk].
  - exists [], []. auto.
  - inversion Hs; subst. inversion Hk; subst.
    destruct (lex (code (fst p)) (code k)) eqn:E.
    + exists [], (p :: l). split; auto. split; auto. constructor; [congruence|].
      eapply Forall_impl; [|exact H2]. intros q Hq. unfold clt in Hq. apply lex_eq in E. rewrite E in Hq.
      rewrite lex_antisym, Hq. discriminate.
    + destruct (IHl k (conj H1 H4)) as (l1 & l2 & -> & Ha & Hb). exists (p :: l1), l2. auto.
    + exists [], (p :: l). split; auto. split; auto. constructor; [congruence|].
      eapply Forall_impl; [|exact H2]. intros q Hq. unfold clt in Hq.
      assert (lex (code k) (code (fst q)) = Lt).
      { eapply lex_trans; [|exact Hq]. rewrite lex_antisym, E. reflexivity. }
      rewrite lex_antisym, H. discriminate.
Qed.

Lemma map_binary : forall l1 l2 k, Forall (fun p : val * val => key (fst p)) (l1 ++ l2) -> key k ->
  Forall (fun p => lex (code (fst p)) (code k) = Lt) l1 ->
  Forall (fun p => lex (code (fst p)) (code k) <> Lt) l2 ->
  binary (map fst (l1 ++ l2)) k = Ok (Z.of_nat (length l1)).
Proof.
  intros l1 l2 k Hk Hkk H1 H2.
  apply (binary_bound (fun y => is_lt (lex (code y) (code k)))).
  - intros y Hy. apply key_lt_code; auto. apply in_map_iff in Hy. destruct Hy as (p & <- & Hp).
    rewrite Forall_forall in Hk. auto.
  - intros i y Hy. rewrite map_app in Hy. split; intros H.
    + destruct (Nat.lt_ge_cases i (length l1)); auto. exfalso.
      rewrite nth_error_app2 in Hy by (rewrite map_length; auto).
      apply nth_error_In in Hy. apply in_map_iff in Hy. destruct Hy as (p & <- & Hp).
      rewrite Forall_forall in H2. specialize (H2 p Hp). destruct (lex _ _); simpl in H; congruence.
    + rewrite nth_error_app1 in Hy by (rewrite map_length; auto).
      apply nth_error_In in Hy. apply in_map_iff in Hy. destruct Hy as (p & <- & Hp).
      rewrite Forall_forall in H1. rewrite (H1 p Hp). reflexivity.
  - rewrite map_length, app_length. lia.
Qed.

Lemma nth_error_mid : forall A (l1 l2 : list A) x, nth_error (l1 ++ x :: l2) (length l1) = Some x.
Proof. intros. rewrite nth_error_app2, Nat.sub_diag by lia. reflexivity. Qed.

Lemma key_defined : forall k, key k -> vdefined k = true.
Proof. intros k H. inversion H; reflexivity. Qed.

Lemma map_index_cases : forall junk l k, map_ok l -> key k ->
  (exists l1 kk vv l2, l = l1 ++ (kk, vv) :: l2 /\ code kk = code k /\
     map_index junk l k = Ok (l, Some (length l1))) \/
  (exists l1 l2, l = l1 ++ l2 /\ Forall (fun p => lex (code (fst p)) (code k) = Lt) l1 /\
     Forall (fun p => lex (code (fst p)) (code k) = Gt) l2 /\
     map_index junk l k = Ok (l1 ++ (k, VNil) :: l2, Some (length l1))).
Proof.
  intros junk l k [Hs Hl] Hk.
  destruct (map_split l k (conj Hs Hl)) as (l1 & l2 & -> & H1 & H2).
  pose proof (map_binary l1 l2 k Hl Hk H1 H2) as Hb.
  assert (Hins : insert_pair junk (l1 ++ l2) k (Z.of_nat (length l1)) = Ok (l1 ++ (k, VNil) :: l2)).
  { rewrite insert_pair_ok by (rewrite app_length; lia).
    rewrite firstn_app, Nat.sub_diag, firstn_all, skipn_app, Nat.sub_diag, skipn_all. simpl. rewrite app_nil_r. reflexivity. }
  unfold map_index. rewrite key_defined by auto. cbn [negb]. rewrite Hb. cbn [obind].
  destruct l2 as [|[kk vv] l2].
  - right. exists l1, []. rewrite app_nil_r in *. repeat split; auto.
    rewrite Z.leb_refl, Hins. cbn [obind]. rewrite Nat2Z.id. reflexivity.
  - rewrite app_length. cbn [length].
    destruct (Z.leb_spec (Z.of_nat (length l1 + S (length l2))) (Z.of_nat (length l1))); [lia|].
    rewrite Nat2Z.id, nth_error_mid.
    assert (Hkk : key kk).
    { rewrite Forall_forall in Hl. apply (Hl (kk, vv)). apply in_app_iff. right. left. auto. }
    rewrite key_neq_code by auto. cbn [obind].
    destruct (lex (code kk) (code k)) eqn:E; cbn [is_eq negb].
    + left. exists l1, kk, vv, l2. repeat split; auto. apply lex_eq. auto.
    + inversion H2; subst. cbn [fst] in *. congruence.
    + right. exists l1, ((kk, vv) :: l2). repeat split; auto.
      * constructor; auto. clear - Hs E.
        assert (Forall (clt (kk, vv)) l2).
        { clear - Hs. induction l1; simpl in Hs; inversion Hs; subst; auto. }
        eapply Forall_impl; [|exact H]. intros q Hq. unfold clt in Hq. cbn [fst] in Hq.
        rewrite lex_antisym.
        assert (lex (code k) (code (fst q)) = Lt).
        { eapply lex_trans; [|exact Hq]. rewrite lex_antisym, E. reflexivity. }
        rewrite H0. reflexivity.
      * rewrite Hins. cbn [obind]. reflexivity.
Qed.

Lemma map_put_cases : forall junk l k v, map_ok l -> key k ->
  (exists l1 kk vv l2, l = l1 ++ (kk, vv) :: l2 /\ code kk = code k /\
     map_put junk l k v = Ok (l1 ++ (kk, v) :: l2)) \/
  (exists l1 l2, l = l1 ++ l2 /\ Forall (fun p => lex (code (fst p)) (code k) = Lt) l1 /\
     Forall (fun p => lex (code (fst p)) (code k) = Gt) l2 /\
     map_put junk l k v = Ok (l1 ++ (k, v) :: l2)).
Proof.
  intros junk l k v Hl Hk. unfold map_put.
  destruct (map_index_cases junk l k Hl Hk) as [(l1 & kk & vv & l2 & -> & Hc & ->)|(l1 & l2 & -> & H1 & H2 & ->)].
  - left. exists l1, kk, vv, l2. repeat split; auto. cbn [obind]. rewrite nth_error_mid, set_nth_mid. reflexivity.
  - right. exists l1, l2. repeat split; auto. cbn [obind]. rewrite nth_error_mid, set_nth_mid. reflexivity.
Qed.

Lemma sorted_mid : forall l1 x l2, StronglySorted clt (l1 ++ x :: l2) <->
  StronglySorted clt (l1 ++ l2) /\ Forall (fun p => clt p x) l1 /\ Forall (clt x) l2.
Proof.
  induction l1 as [|a l1]; intros x l2; simpl.
  - split.
    + intros H. inversion H; subst. auto.
    + intros (H & _ & H'). constructor; auto.
  - split.
    + intros H. inversion H; subst. apply IHl1 in H2. destruct H2 as (A & B & C).
      apply Forall_app in H3. destruct H3 as [H3 H4]. inversion H4; subst.
      split; [constructor; auto; apply Forall_app; auto|]. split; auto.
    + intros (H & H1 & H2). inversion H; subst. inversion H1; subst. apply Forall_app in H5. destruct H5.
      constructor.
      * apply IHl1. auto.
      * apply Forall_app. split; auto.
Qed.

Lemma clt_code : forall k v k' v' p, code k = code k' -> (clt (k, v) p <-> clt (k', v') p) /\ (clt p (k, v) <-> clt p (k', v')).
Proof. intros. unfold clt. cbn [fst]. rewrite H. tauto. Qed.

Lemma map_put_ok : forall junk l k v l', map_ok l -> key k -> map_put junk l k v = Ok l' -> map_ok l'.
Proof.
  intros junk l k v l' Hl Hk H. destruct Hl as [Hs Hf].
  destruct (map_put_cases junk l k v (conj Hs Hf) Hk) as [(l1 & kk & vv & l2 & -> & Hc & E)|(l1 & l2 & -> & H1 & H2 & E)];
    rewrite E in H; inversion H; subst; clear H E.
  - split.
    + apply sorted_mid in Hs. apply sorted_mid. destruct Hs as (A & B & C). split; [auto|]. split; auto.
    + apply Forall_app in Hf. apply Forall_app. destruct Hf as [A B]. split; auto. inversion B; subst. constructor; auto.
  - split.
    + apply sorted_mid. split; auto. split.
      * exact H1.
      * eapply Forall_impl; [|exact H2]. intros q Hq. unfold clt. cbn [fst]. rewrite lex_antisym, Hq. reflexivity.
    + apply Forall_app in Hf. apply Forall_app. destruct Hf as [A B]. split; auto.
Qed.

(** Looking a key up. *)
Lemma at_var_cases : forall l k, map_ok l -> key k ->
  (exists l1 kk vv l2, l = l1 ++ (kk, vv) :: l2 /\ code kk = code k /\
     at_var (RVar (VMap l)) k = Ok vv) \/
  (Forall (fun p => code (fst p) <> code k) l /\ at_var (RVar (VMap l)) k = Ok VNil).
Proof.
  intros l k [Hs Hl] Hk.
  destruct (map_split l k (conj Hs Hl)) as (l1 & l2 & -> & H1 & H2).
  pose proof (map_binary l1 l2 k Hl Hk H1 H2) as Hb.
  unfold at_var. cbn [recv_val]. rewrite Hb. cbn [obind].
  assert (N1 : Forall (fun p => code (fst p) <> code k) l1).
  { eapply Forall_impl; [|exact H1]. intros q Hq E. cbv beta in *. rewrite E, lex_refl in Hq. discriminate. }
  destruct l2 as [|[kk vv] l2].
  - right. rewrite app_nil_r in *. rewrite Z.leb_refl. auto.
  - rewrite app_length. cbn [length].
    destruct (Z.leb_spec (Z.of_nat (length l1 + S (length l2))) (Z.of_nat (length l1))); [lia|].
    rewrite Nat2Z.id, nth_error_mid.
    assert (Hkk : key kk).
    { rewrite Forall_forall in Hl. apply (Hl (kk, vv)). apply in_app_iff. right. left. auto. }
    rewrite key_neq_code by auto. cbn [obind].
    destruct (lex (code kk) (code k)) eqn:E; cbn [is_eq negb].
    + left. exists l1, kk, vv, l2. repeat split; auto.
      * apply lex_eq. auto.
      * cbn [reference_read]. rewrite nth_error_mid. reflexivity.
    + inversion H2; subst. cbn [fst] in *. congruence.
    + right. split; auto. apply Forall_app. split; auto. constructor.
      * cbn [fst]. intros X. rewrite X, lex_refl in E. discriminate.
      * assert (Forall (clt (kk, vv)) l2) by (apply sorted_mid in Hs; tauto).
        eapply Forall_impl; [|exact H0]. intros q Hq. unfold clt in Hq. cbn [fst] in Hq.
        intros X. rewrite X in Hq. congruence.
Qed.

(** Sequences of assignments. *)
Fixpoint puts (junk : val * val) (l : list (val * val)) (ops : list (val * val)) : outcome (list (val * val)) :=
  match ops with
  | [] => Ok l
  | (k, v) :: t => let* l' := map_put junk l k v in puts junk l' t
  end.

Lemma assigns_puts : forall junk ops l, assigns junk (VMap l) ops = let* r := puts junk l ops in Ok (VMap r).
Proof.
  induction ops as [|[k v] ops]; intros l; auto. cbn [assigns puts assign].
  destruct (map_put junk l k v); cbn [obind]; auto.
Qed.
Lemma assigns_nil : forall junk ops, ops <> [] -> assigns junk VNil ops = let* r := puts junk [] ops in Ok (VMap r).
Proof.
  intros junk [|[k v] ops] H; [congruence|]. cbn [assigns puts assign].
  destruct (map_put junk [] k v); cbn [obind]; auto. apply assigns_puts.
Qed.

Lemma puts_app : forall junk a b l, puts junk l (a ++ b) = let* r := puts junk l a in puts junk r b.
Proof.
  induction a as [|[k v] a]; intros b l; auto. simpl. destruct (map_put junk l k v); cbn [obind]; auto.
Qed.

Definition keys_of (l : list (val * val)) : list val := map fst l.

(** State after a history of assignments. *)
Definition tracks (ops l : list (val * val)) : Prop :=
  map_ok l /\
  (forall kk v, In (kk, v) l -> exists pre k' post, ops = pre ++ (k', v) :: post /\ code k' = code kk /\
      Forall (fun p => code (fst p) <> code kk) post) /\
  (forall k v, In (k, v) ops -> exists kk v', In (kk, v') l /\ code kk = code k) /\
  (forall kk v, In (kk, v) l -> In kk (map fst ops)).

Lemma tracks_nil : tracks [] [].
Proof. split; [split; constructor|]. split; [|split]; intros ? ? []. Qed.

Lemma in_mid : forall A (x y : A) l1 l2, In x (l1 ++ y :: l2) <-> x = y \/ In x (l1 ++ l2).
Proof. intros. rewrite !in_app_iff. simpl. intuition. Qed.

Lemma tracks_put : forall junk ops l k v, tracks ops l -> key k ->
  exists l', map_put junk l k v = Ok l' /\ tracks (ops ++ [(k, v)]) l'.
Proof.
  intros junk ops l k v (Hok & T1 & T2 & T3) Hk.
  assert (Hother : forall l1 l2 x, map_ok (l1 ++ x :: l2) -> forall q, In q (l1 ++ l2) -> code (fst q) <> code (fst x)).
  { intros l1 l2 x [Hs _] q Hq E. apply sorted_mid in Hs. destruct Hs as (_ & A & B).
    apply in_app_iff in Hq. rewrite Forall_forall in A, B. destruct Hq as [Hq|Hq].
    - specialize (A q Hq). unfold clt in A. rewrite E, lex_refl in A. discriminate.
    - specialize (B q Hq). unfold clt in B. rewrite E, lex_refl in B. discriminate. }
  destruct (map_put_cases junk l k v Hok Hk) as [(l1 & kk & vv & l2 & El & Hc & E)|(l1 & l2 & El & H1 & H2 & E)];
    eexists; (split; [exact E|]); pose proof (map_put_ok junk l k v _ Hok Hk E) as Hok'; subst l; split; auto.
  - split; [|split].
    + intros kq vq Hq. apply in_mid in Hq. destruct Hq as [Hq|Hq].
      * inversion Hq; subst. exists ops, k, []. repeat split; auto.
      * assert (Hne : code kq <> code kk) by (apply (Hother l1 l2 (kk, vv) Hok (kq, vq) Hq)).
        destruct (T1 kq vq) as (pre & k' & post & -> & Hck & Hpost).
        { apply in_mid. auto. }
        exists pre, k', (post ++ [(k, v)]). rewrite <- app_assoc. repeat split; auto.
        apply Forall_app. split; auto. constructor; auto. cbn [fst]. congruence.
    + intros kq vq Hq. apply in_app_iff in Hq. destruct Hq as [Hq|[Hq|[]]].
      * destruct (T2 kq vq Hq) as (k2 & v2 & H2 & H3). apply in_mid in H2. destruct H2 as [H2|H2].
        -- inversion H2; subst. exists kk, v. split; auto. apply in_mid. auto.
        -- exists k2, v2. split; auto. apply in_mid. auto.
      * inversion Hq; subst. exists kk, vq. split; auto. apply in_mid. auto.
    + intros kq vq Hq. rewrite map_app, in_app_iff. left. apply in_mid in Hq. destruct Hq as [Hq|Hq].
      * inversion Hq; subst. apply (T3 kk vv). apply in_mid. auto.
      * apply (T3 kq vq). apply in_mid. auto.
  - split; [|split].
    + intros kq vq Hq. apply in_mid in Hq. destruct Hq as [Hq|Hq].
      * inversion Hq; subst. exists ops, k, []. repeat split; auto.
      * assert (Hne : code kq <> code k) by (apply (Hother l1 l2 (k, v) Hok' (kq, vq) Hq)).
        destruct (T1 kq vq Hq) as (pre & k' & post & -> & Hck & Hpost).
        exists pre, k', (post ++ [(k, v)]). rewrite <- app_assoc. repeat split; auto.
        apply Forall_app. split; auto.
    + intros kq vq Hq. apply in_app_iff in Hq. destruct Hq as [Hq|[Hq|[]]].
      * destruct (T2 kq vq Hq) as (k2 & v2 & H3 & H4). exists k2, v2. split; auto. apply in_mid. auto.
      * inversion Hq; subst. exists kq, vq. split; auto. apply in_mid. auto.
    + intros kq vq Hq. rewrite map_app, in_app_iff. apply in_mid in Hq. destruct Hq as [Hq|Hq].
      * inversion Hq; subst. right. left. auto.
      * left. apply (T3 kq vq). auto.
Qed.

Lemma tracks_puts : forall junk ops2 ops1 l, tracks ops1 l -> Forall (fun p => key (fst p)) ops2 ->
  exists l', puts junk l ops2 = Ok l' /\ tracks (ops1 ++ ops2) l'.
Proof.
  induction ops2 as [|[k v] ops2]; intros ops1 l T H.
  - exists l. rewrite app_nil_r. auto.
  - inversion H; subst. destruct (tracks_put junk ops1 l k v T H2) as (l1 & E & T1).
    destruct (IHops2 _ _ T1 H3) as (l' & E' & T').
    exists l'. cbn [puts]. rewrite E. cbn [obind]. split; auto. rewrite <- app_assoc in T'. exact T'.
Qed.

(** Two sorted lists with the same entries are equal. *)
Lemma sorted_perm_unique : forall l m, StronglySorted clt l -> StronglySorted clt m ->
  (forall x, In x l <-> In x m) -> l = m.
Proof.
  induction l as [|a l]; intros m Hl Hm H.
  - destruct m as [|b m]; auto. exfalso. apply (H b). left; auto.
  - destruct m as [|b m]; [exfalso; apply (H a); left; auto|].
    inversion Hl; subst. inversion Hm; subst.
    assert (irr : forall x, ~ clt x x) by (intros x; unfold clt; rewrite lex_refl; discriminate).
    assert (asym : forall x y, clt x y -> clt y x -> False).
    { intros x y A B. apply (irr x). unfold clt in *. eapply lex_trans; eauto. }
    assert (a = b).
    { destruct (proj1 (H a) (or_introl eq_refl)) as [|Ha]; auto.
      destruct (proj2 (H b) (or_introl eq_refl)) as [|Hb]; auto.
      exfalso. rewrite Forall_forall in H3, H5. eapply asym; [apply (H3 b Hb)|apply (H5 a Ha)]. }
    subst b. f_equal. apply IHl; auto. intros x. split; intros Hx.
    + destruct (proj1 (H x) (or_intror Hx)) as [E|]; auto. subst.
      rewrite Forall_forall in H3. exfalso. eapply irr; eauto.
    + destruct (proj2 (H x) (or_intror Hx)) as [E|]; auto. subst.
      rewrite Forall_forall in H5. exfalso. eapply irr; eauto.
Qed.
