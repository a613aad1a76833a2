(** Lemmas about XML escaping, reading and writing. *)
From Coq Require Import ZArith Bool List String Lia Permutation Sorting.
From Verif Require Import Base StrModel StrSpec StrProof Utf8Proof LineProof ValModel ValSpec ValProof MapProof EqProof ValProps JsonModel JsonProof XmlModel XmlSpec.
Import ListNotations.
Local Open Scope list_scope.
Local Open Scope Z_scope.
Local Notation length := List.length.

(** ** Escaping *)
Lemma escape_denotes : forall s, denotes (escape_str s) s.
Proof.
  induction s as [|c s]; [constructor|]. unfold escape_str in *. cbn [map List.concat]. unfold escape_char at 1.
  destruct (Z.eqb_spec c 38); [subst; apply d_entity; auto; simpl; tauto|].
  destruct (Z.eqb_spec c 60); [subst; apply d_entity; auto; simpl; tauto|].
  destruct (Z.eqb_spec c 62); [subst; apply d_entity; auto; simpl; tauto|].
  destruct (Z.eqb_spec c 39); [subst; apply d_entity; auto; simpl; tauto|].
  destruct (Z.eqb_spec c 34); [subst; apply d_entity; auto; simpl; tauto|].
  cbn [app]. apply d_plain; auto. simpl. intuition.
Qed.

Lemma entity_head : forall e c, In (e, c) entities -> exists e', e = 38 :: e'.
Proof. intros e c H. simpl in H. repeat (destruct H as [H|H]; [inversion H; subst; cbn; eexists; reflexivity|]). destruct H. Qed.

Lemma entity_unique : forall e c s e' c' s', In (e, c) entities -> In (e', c') entities ->
  e ++ s = e' ++ s' -> e = e' /\ c = c' /\ s = s'.
Proof.
  intros e c s e' c' s' H H' E. simpl in H, H'.
  repeat (destruct H as [H|H]; [inversion H; subst;
    repeat (destruct H' as [H'|H']; [inversion H'; subst; cbn in E; inversion E; subst; auto|]); destruct H'|]).
  destruct H.
Qed.

Lemma denotes_fun : forall s t, denotes s t -> forall t', denotes s t' -> t = t'.
Proof.
  induction 1 as [|c s t Hc Hs IH|e c s t He Hs IH]; intros t' H'.
  - inversion H'; auto. destruct (entity_head _ _ H0) as [e' ->]. discriminate.
  - inversion H'; subst.
    + f_equal. auto.
    + destruct (entity_head _ _ H0) as [e' ->]. inversion H; subst. exfalso. apply Hc. simpl. auto.
  - inversion H'; subst.
    + destruct (entity_head _ _ He) as [e' ->]. discriminate.
    + destruct (entity_head _ _ He) as [e' ->]. inversion H; subst. exfalso. apply H0. simpl. auto.
    + destruct (entity_unique _ _ _ _ _ _ H0 He H) as (-> & -> & ->). f_equal. auto.
Qed.

Lemma escape_clean : forall s, Forall (fun c => ~ In c [60; 62; 39; 34]) (escape_str s).
Proof.
  induction s as [|c s]; [constructor|]. unfold escape_str in *. cbn [map List.concat]. apply Forall_app. split; auto.
  unfold escape_char.
  destruct (Z.eqb_spec c 38); [cbn; repeat constructor; simpl; intuition discriminate|].
  destruct (Z.eqb_spec c 60); [cbn; repeat constructor; simpl; intuition discriminate|].
  destruct (Z.eqb_spec c 62); [cbn; repeat constructor; simpl; intuition discriminate|].
  destruct (Z.eqb_spec c 39); [cbn; repeat constructor; simpl; intuition discriminate|].
  destruct (Z.eqb_spec c 34); [cbn; repeat constructor; simpl; intuition discriminate|].
  repeat constructor. simpl. intuition.
Qed.

Lemma escape_newline : forall s, ~ In 10 s -> ~ In 10 (escape_str s).
Proof.
  induction s as [|c s]; intros H; [auto|]. unfold escape_str in *. cbn [map List.concat]. rewrite in_app_iff.
  intros [Hc|Hs]; [|apply IHs in Hs; auto; intro; apply H; simpl; auto].
  unfold escape_char in Hc.
  destruct (Z.eqb_spec c 38); [cbn in Hc; intuition discriminate|].
  destruct (Z.eqb_spec c 60); [cbn in Hc; intuition discriminate|].
  destruct (Z.eqb_spec c 62); [cbn in Hc; intuition discriminate|].
  destruct (Z.eqb_spec c 39); [cbn in Hc; intuition discriminate|].
  destruct (Z.eqb_spec c 34); [cbn in Hc; intuition discriminate|].
  destruct Hc as [Hc|[]]. subst. apply H. simpl. auto.
Qed.

(** ** Attributes *)
Lemma vstr_inj : forall s t, vstr s = vstr t -> s = t.
Proof.
  intros s t E. inversion E as [E']. revert t E E'. induction s; destruct t; intros; try discriminate; auto.
  inversion E'; subst. f_equal. apply IHs; auto. unfold vstr. f_equal; auto.
Qed.

Lemma NoDup_codes : forall l, map_ok l -> NoDup l.
Proof.
  intros l [H _]. induction H; constructor; auto. intros Hin. rewrite Forall_forall in H0.
  specialize (H0 _ Hin). unfold clt in H0. rewrite lex_refl in H0. discriminate.
Qed.

Lemma attrs_assigned : forall a, Forall (fun p => chars (fst p) /\ nul_free (fst p)) a -> NoDup (map fst a) ->
  exists v, assigns (VNil, VNil) VNil (map (fun p => (vstr (fst p), vstr (snd p))) a) = Ok v /\ attrs_held v a.
Proof.
  intros a Hk Hd. destruct a as [|p0 a0]; [exists VNil; split; reflexivity|]. set (a := p0 :: a0) in *.
  set (ops := map (fun p : str * str => (vstr (fst p), vstr (snd p))) a).
  assert (Hne : ops <> []) by (subst ops a; discriminate).
  rewrite assigns_nil by auto.
  assert (Hk' : Forall (fun p => key (fst p)) ops).
  { subst ops. rewrite Forall_map. eapply Forall_impl; [|exact Hk]. intros p [A B]. apply key_string; auto. }
  destruct (tracks_puts (VNil, VNil) ops [] [] tracks_nil Hk') as (l & -> & Hok & T1 & T2 & T3).
  exists (VMap l). split; [reflexivity|]. unfold attrs_held. subst a. cbn [app] in *. exists l. split; auto.
  split; [apply sorted_map_ok; auto|]. fold ops.
  assert (Hinj : forall k v k' v', In (k, v) ops -> In (k', v') ops -> code k = code k' -> k = k').
  { intros k v k' v' H1 H2 E. subst ops. apply in_map_iff in H1, H2.
    destruct H1 as (x & E1 & H1), H2 as (y & E2 & H2). inversion E1; inversion E2; subst.
    rewrite Forall_forall in Hk. destruct (Hk x H1) as [A1 A2], (Hk y H2) as [B1 B2].
    unfold vstr in E. rewrite !code_string in E. inversion E as [E']. apply map_uchar_inj in E'; auto. rewrite E'. auto. }
  assert (Hd' : forall k v v', In (k, v) ops -> In (k, v') ops -> v = v').
  { intros k v v' H1 H2. subst ops. apply in_map_iff in H1, H2.
    destruct H1 as (x & E1 & H1), H2 as (y & E2 & H2). inversion E1; inversion E2; subst.
    apply vstr_inj in H4. assert (x = y); [|subst; auto].
    clear - Hd H1 H2 H4. revert Hd H1 H2 H4. generalize (p0 :: a0). intros l Hd. induction l as [|z l]; intros; [destruct H1|].
    cbn [map] in Hd. inversion Hd; subst.
    assert (A : forall q, In q l -> In (fst q) (map fst l)) by (intros; apply in_map; auto).
    destruct H1 as [<-|H1], H2 as [<-|H2]; auto.
    - exfalso. apply H3. rewrite <- H4. auto.
    - exfalso. apply H3. rewrite H4. auto. }
  apply NoDup_Permutation.
  - apply NoDup_codes. auto.
  - subst ops. clear - Hd. generalize dependent (p0 :: a0). intros l Hd. induction l; simpl; [constructor|].
    inversion Hd; subst. constructor; auto. intros Hin. apply in_map_iff in Hin. destruct Hin as (x & E & Hx).
    inversion E as [[E1 E2]]. apply H1. rewrite in_map_iff. exists x. split; auto.
    apply vstr_inj. unfold vstr. f_equal. auto.
  - intros [k v]. split; intros H.
    + destruct (T1 k v H) as (pre & k' & post & E & Hc & _).
      assert (Hin : In (k', v) ops) by (rewrite E; apply in_app_iff; simpl; auto).
      destruct (proj1 (in_map_iff _ _ _) (T3 k v H)) as ([kk vv] & <- & Hkk). cbn [fst].
      rewrite (Hinj _ _ _ _ Hkk Hin); auto. 
    + destruct (T2 k v H) as (kk & v' & H1 & H2).
      destruct (T1 kk v' H1) as (pre & k' & post & E & Hc & _).
      assert (Hin : In (k', v') ops) by (rewrite E; apply in_app_iff; simpl; auto).
      assert (k' = k) by (eapply Hinj; eauto; congruence). subst k'.
      assert (v' = v) by (eapply Hd'; eauto). subst v'.
      destruct (proj1 (in_map_iff _ _ _) (T3 kk v H1)) as ([kk' vv] & E3 & Hkk). cbn [fst] in E3. subst kk'.
      rewrite (Hinj _ _ _ _ H Hkk); auto.
Qed.

(** ** Reading *)
(** Representation using only objects numbered from [lo] on. *)
Inductive hb (lo : nat) (st : list xelem) : item -> node -> Prop :=
| hb_text s : hb lo st (IText s) (Text s)
| hb_elem id e n a k : (lo <= id)%nat -> nth_error st id = Some e -> x_name e = vstr n -> attrs_held (x_attr e) a ->
    Forall2 (hb lo st) (x_data e) k -> hb lo st (IElem id) (Elem n a k).

Lemma node_ind2 : forall (P : node -> Prop), (forall s, P (Text s)) ->
  (forall n a k, Forall P k -> P (Elem n a k)) -> forall n, P n.
Proof.
  intros P Ht He. fix IH 1. intros [s|n a k]; [apply Ht|]. apply He.
  induction k; constructor; auto.
Qed.

Lemma hb_holds : forall n lo st i, hb lo st i n -> holds st i n.
Proof.
  induction n as [s|n a k IH] using node_ind2; intros lo st i H; inversion H as [|id e ? ? ? L1 L2 L3 L4 F]; subst; [constructor|].
  econstructor; eauto. clear H L2.
  revert IH. induction F; intros IH; constructor; inversion IH; subst; eauto.
Qed.

Lemma hb_frame : forall n lo lo' st st' i, hb lo st i n -> (lo' <= lo)%nat ->
  (forall j, (lo <= j)%nat -> (j < length st)%nat -> nth_error st' j = nth_error st j) -> hb lo' st' i n.
Proof.
  induction n as [s|n a k IH] using node_ind2; intros lo lo' st st' i H Hl Hf; inversion H as [|id e ? ? ? L1 L2 L3 L4 F]; subst; [constructor|].
  apply hb_elem with e; auto.
  - lia.
  - rewrite Hf; auto. apply nth_error_Some. congruence.
  - clear H L2. revert IH. induction F; intros IH; constructor; inversion IH; subst; eauto.
Qed.

Lemma Forall2_weaken : forall A B (P Q : A -> B -> Prop) l m, (forall a b, P a b -> Q a b) -> Forall2 P l m -> Forall2 Q l m.
Proof. induction 2; constructor; auto. Qed.

Definition all_events (l : list node) : list event := List.concat (map events l).
Lemma events_elem : forall n a k, events (Elem n a k) = EStart n a :: all_events k ++ [EEnd n].
Proof.
  intros. cbn [events]. do 2 f_equal. unfold all_events. induction k; auto. cbn [map List.concat]. f_equal. auto.
Qed.

Lemma handles_app : forall a b s, handles s (a ++ b) = let* s' := handles s a in handles s' b.
Proof.
  induction a as [|e a]; intros; auto. cbn [app handles]. destruct (handle s e); auto. cbn [obind]. apply IHa.
Qed.


(** Appending items to the data of an object. *)
Definition addl (st : list xelem) (id : nat) (l : list item) : list xelem :=
  match nth_error st id with
  | None => st
  | Some e => set_nth st id {| x_name := x_name e; x_attr := x_attr e; x_data := x_data e ++ l |}
  end.
Lemma push_addl : forall st id i, push_data st id i = addl st id [i].
Proof. reflexivity. Qed.

Lemma set_nth_length : forall A (l : list A) i x, length (set_nth l i x) = length l.
Proof. induction l; destruct i; simpl; auto. Qed.
Lemma set_nth_app : forall A (l m : list A) i x, (i < length l)%nat -> set_nth (l ++ m) i x = set_nth l i x ++ m.
Proof. induction l; destruct i; simpl; intros; try lia; auto. f_equal. apply IHl. lia. Qed.
Lemma set_nth_mid : forall A (l m : list A) y x, set_nth (l ++ y :: m) (length l) x = l ++ x :: m.
Proof. induction l; simpl; intros; auto. f_equal. auto. Qed.
Lemma set_nth_same : forall A (l : list A) i x, (i < length l)%nat -> nth_error (set_nth l i x) i = Some x.
Proof. induction l; destruct i; simpl; intros; try lia; auto. apply IHl. lia. Qed.
Lemma set_nth_other : forall A (l : list A) i j x, i <> j -> nth_error (set_nth l i x) j = nth_error l j.
Proof. induction l; destruct i, j; simpl; intros; try lia; auto. Qed.
Lemma set_nth_twice : forall A (l : list A) i x y, set_nth (set_nth l i x) i y = set_nth l i y.
Proof. induction l; destruct i; simpl; intros; auto. f_equal. auto. Qed.

Lemma addl_length : forall st id l, length (addl st id l) = length st.
Proof. intros. unfold addl. destruct (nth_error st id); auto. apply set_nth_length. Qed.
Lemma addl_app : forall st m id l, (id < length st)%nat -> addl (st ++ m) id l = addl st id l ++ m.
Proof.
  intros st m id l H. unfold addl. rewrite nth_error_app1 by auto.
  destruct (nth_error st id) eqn:E; auto. apply set_nth_app. auto.
Qed.
Lemma addl_mid : forall st e l, addl (st ++ [e]) (length st) l = st ++ [{| x_name := x_name e; x_attr := x_attr e; x_data := x_data e ++ l |}].
Proof.
  intros. unfold addl. rewrite nth_error_app2, Nat.sub_diag by auto. cbn [nth_error]. rewrite set_nth_mid. reflexivity.
Qed.
Lemma addl_other : forall st id l j, j <> id -> nth_error (addl st id l) j = nth_error st j.
Proof. intros. unfold addl. destruct (nth_error st id); auto. apply set_nth_other. auto. Qed.
Lemma addl_addl : forall st id a b, addl (addl st id a) id b = addl st id (a ++ b).
Proof.
  intros. unfold addl. destruct (nth_error st id) eqn:E; [|rewrite E; auto].
  assert (H : (id < length st)%nat) by (apply nth_error_Some; congruence).
  rewrite set_nth_same by auto. cbn [x_name x_attr x_data]. rewrite set_nth_twice, <- app_assoc. auto.
Qed.
Lemma addl_nil : forall st id, addl st id [] = st.
Proof.
  intros. unfold addl. destruct (nth_error st id) eqn:E; auto. rewrite app_nil_r.
  assert (H : forall l i (x : xelem), nth_error l i = Some x -> set_nth l i x = l).
  { induction l; destruct i; simpl; intros; try discriminate; auto; [congruence|f_equal; auto]. }
  destruct x. apply H. auto.
Qed.

Definition mkx st stack root : xstate := {| xs_store := st; xs_stack := stack; xs_root := root |}.

Definition reads (n : node) : Prop := forall st top rest root, (top < length st)%nat ->
  exists i new, handles (mkx st (Some (top :: rest)) root) (events n) =
      Ok (mkx (addl st top [i] ++ new) (Some (top :: rest)) root) /\
    hb (length st) (addl st top [i] ++ new) i n.

Lemma reads_kids : forall k, Forall reads k -> forall st top rest root, (top < length st)%nat ->
  exists items new, handles (mkx st (Some (top :: rest)) root) (all_events k) =
      Ok (mkx (addl st top items ++ new) (Some (top :: rest)) root) /\
    Forall2 (hb (length st) (addl st top items ++ new)) items k.
Proof.
  induction 1 as [|n k Hn Hk IH]; intros st top rest root Ht.
  - exists [], []. cbn [all_events map List.concat handles]. rewrite addl_nil, app_nil_r. split; auto.
  - unfold all_events. cbn [map List.concat]. rewrite handles_app.
    destruct (Hn st top rest root Ht) as (i & new & -> & Hi). cbn [obind].
    destruct (IH (addl st top [i] ++ new) top rest root) as (items & new' & E & Hit).
    { rewrite app_length, addl_length. lia. }
    exists (i :: items), (new ++ new'). unfold all_events in E. rewrite E.
    rewrite addl_app, addl_addl by (rewrite addl_length; auto). cbn [app].
    rewrite <- app_assoc. split; [auto|]. constructor.
    + eapply hb_frame; [exact Hi|auto|]. intros j Hj1 Hj2.
      rewrite app_length, addl_length in Hj2.
      rewrite (nth_error_app2 (addl st top (i :: items))), (nth_error_app2 (addl st top [i])) by (rewrite addl_length; auto).
      rewrite !addl_length.
      apply nth_error_app1. lia.
    + rewrite addl_app, addl_addl in Hit by (rewrite addl_length; auto). cbn [app] in Hit. rewrite <- app_assoc in Hit.
      rewrite app_length, addl_length in Hit.
      eapply Forall2_weaken; [|exact Hit]. intros x y Hxy. eapply hb_frame; [exact Hxy|lia|auto].
Qed.

Lemma start_elem : forall st stack root name atts, atts_ok (Elem name atts []) ->
  (match stack with Some [] => False | Some (t :: _) => (t < length st)%nat | None => True end) ->
  exists v, attrs_held v atts /\
    start_element (mkx st stack root) name atts =
    Ok (mkx ((match stack with Some (t :: _) => addl st t [IElem (length st)] | _ => st end) ++
               [{| x_name := vstr name; x_attr := v; x_data := [] |}])
            (Some (length st :: match stack with Some l => l | None => [] end))
            (match stack with None => Some (length st) | _ => root end)).
Proof.
  intros st stack root name atts Ha Hs. inversion Ha; subst.
  destruct (attrs_assigned atts) as (v & Ev & Hv); auto. exists v. split; auto.
  unfold start_element. cbn [mkx xs_store xs_stack xs_root].
  destruct stack as [[|t rest]|]; [destruct Hs| |]; cbn [obind]; rewrite Ev; cbn [obind].
  - rewrite push_addl, addl_app by auto. rewrite nth_error_app2 by (rewrite addl_length; auto).
    rewrite addl_length, Nat.sub_diag. cbn [nth_error blank x_data].
    assert (E : forall x, set_nth (addl st t [IElem (length st)] ++ [blank]) (length st) x = addl st t [IElem (length st)] ++ [x]).
    { intros x. rewrite <- (addl_length st t [IElem (length st)]) at 2. rewrite set_nth_mid. reflexivity. }
    rewrite E. reflexivity.
  - rewrite nth_error_app2, Nat.sub_diag by auto. cbn [nth_error blank x_data]. rewrite set_nth_mid. reflexivity.
Qed.

Lemma end_elem : forall st top rest root e n, nth_error st top = Some e -> x_name e = vstr n ->
  end_element (mkx st (Some (top :: rest)) root) n = Ok (mkx st (Some rest) root).
Proof.
  intros. unfold end_element. cbn [mkx xs_store xs_stack xs_root]. rewrite H, H0, vneq_str.
  destruct (list_eq_dec Z.eq_dec n n); [|congruence]. reflexivity.
Qed.

Lemma reads_all : forall n, atts_ok n -> reads n.
Proof.
  induction n as [s|name atts kids IH] using node_ind2; intros Hn st top rest root Ht.
  - exists (IText s), []. rewrite app_nil_r. cbn [events handles handle char_data mkx xs_stack obind].
    split; [reflexivity|constructor].
  - inversion Hn; subst. rewrite events_elem. cbn [handles handle].
    assert (H0 : atts_ok (Elem name atts [])) by (constructor; auto).
    destruct (start_elem st (Some (top :: rest)) root name atts H0 Ht) as (v & Hv & ->). cbn [obind].
    set (e0 := {| x_name := vstr name; x_attr := v; x_data := [] |}).
    set (base := addl st top [IElem (length st)]).
    assert (Lb : length base = length st) by apply addl_length.
    rewrite handles_app.
    destruct (reads_kids kids ltac:(rewrite Forall_forall in *; auto) (base ++ [e0]) (length st) (top :: rest) root) as (items & new & E & F).
    { rewrite app_length. simpl. lia. }
    rewrite E. cbn [obind handles handle]. clear E. rewrite <- Lb in F |- *. rewrite addl_mid in F |- *.
    set (e1 := {| x_name := x_name e0; x_attr := x_attr e0; x_data := x_data e0 ++ items |}) in *.
    assert (N1 : nth_error ((base ++ [e1]) ++ new) (length base) = Some e1).
    { rewrite nth_error_app1 by (rewrite app_length; simpl; lia). rewrite nth_error_app2, Nat.sub_diag by auto. reflexivity. }
    rewrite (end_elem _ _ _ _ e1) by auto. cbn [obind].
    exists (IElem (length base)), (e1 :: new).
    assert (Eb : addl st top [IElem (length base)] = base) by (subst base; rewrite addl_length; auto).
    rewrite Eb. rewrite <- app_assoc in *. cbn [app] in *. split; [reflexivity|].
    apply hb_elem with e1; auto. subst e1. cbn [x_data e0 app].
    rewrite app_length in F. eapply Forall2_weaken; [|exact F]. intros x y Hxy. eapply hb_frame; [exact Hxy|simpl; lia|auto].
Qed.

Lemma read_document : forall name atts kids, atts_ok (Elem name atts kids) ->
  exists st id, handles xs_init (events (Elem name atts kids)) = Ok (mkx st (Some []) (Some id)) /\
    holds st (IElem id) (Elem name atts kids).
Proof.
  intros name atts kids Hn. inversion Hn; subst. rewrite events_elem. cbn [handles handle].
  assert (H0 : atts_ok (Elem name atts [])) by (constructor; auto).
  change xs_init with (mkx [] None None).
  destruct (start_elem [] None None name atts H0 I) as (v & Hv & ->). cbn [obind app List.length].
  set (e0 := {| x_name := vstr name; x_attr := v; x_data := [] |}).
  rewrite handles_app.
  destruct (reads_kids kids ltac:(rewrite Forall_forall in *; intros; apply reads_all; auto) [e0] 0%nat [] (Some 0%nat)) as (items & new & E & F).
  { simpl. lia. }
  rewrite E. cbn [obind handles handle]. clear E.
  change (addl [e0] 0 items) with [{| x_name := x_name e0; x_attr := x_attr e0; x_data := x_data e0 ++ items |}] in *.
  set (e1 := {| x_name := x_name e0; x_attr := x_attr e0; x_data := x_data e0 ++ items |}) in *.
  rewrite (end_elem _ _ _ _ e1) by reflexivity. cbn [obind].
  eexists; eexists. split; [reflexivity|]. apply h_elem with e1; auto.
  subst e1. cbn [x_data e0 app] in *. eapply Forall2_weaken; [|exact F]. intros. eapply hb_holds; eauto.
Qed.

(** ** Unfinished documents *)
Fixpoint depth (l : list event) : Z :=
  match l with
  | [] => 0
  | EStart _ _ :: t => 1 + depth t
  | EEnd _ :: t => -1 + depth t
  | EChars _ :: t => depth t
  end.
Lemma depth_app : forall a b, depth (a ++ b) = depth a + depth b.
Proof. induction a as [|[] a]; intros; cbn [app depth]; auto; rewrite IHa; lia. Qed.
Lemma depth_all : forall k, Forall (fun n => depth (events n) = 0) k -> depth (all_events k) = 0.
Proof.
  induction 1; auto. unfold all_events in *. cbn [map List.concat]. rewrite depth_app. lia.
Qed.
Lemma depth_events : forall n, depth (events n) = 0.
Proof.
  induction n as [s|name atts kids IH] using node_ind2; auto. rewrite events_elem. cbn [depth].
  rewrite depth_app, depth_all by auto. cbn [depth]. lia.
Qed.

Definition dips (n : node) : Prop := forall p q, events n = p ++ q -> 0 <= depth p.
Lemma dips_all : forall k, Forall dips k -> forall p q, all_events k = p ++ q -> 0 <= depth p.
Proof.
  induction 1 as [|n k Hn Hk IH]; intros p q E.
  - symmetry in E. apply app_eq_nil in E. destruct E. subst. simpl. lia.
  - unfold all_events in E. cbn [map List.concat] in E.
    destruct (le_lt_dec (length (events n)) (length p)).
    + assert (exists p', p = events n ++ p' /\ List.concat (map events k) = p' ++ q).
      { clear - E l. revert p E l. generalize (events n). intros l0. induction l0; intros p E L; [exists p; auto|].
        destruct p; [simpl in L; lia|]. inversion E; subst. destruct (IHl0 p H1) as (p' & -> & ?); [simpl in L; lia|].
        exists p'. auto. }
      destruct H as (p' & -> & E'). rewrite depth_app, depth_events. specialize (IH _ _ E'). lia.
    + assert (exists q', events n = p ++ q').
      { clear - E l. revert p E l. generalize (events n). intros l0. induction l0; intros p E L; [simpl in L; lia|].
        destruct p; [exists (a :: l0); auto|]. inversion E; subst. destruct (IHl0 p H1) as (q' & ->); [simpl in L; lia|].
        exists q'. auto. }
      destruct H as (q' & E'). eapply Hn; eauto.
Qed.
Lemma dips_events : forall n, dips n.
Proof.
  induction n as [s|name atts kids IH] using node_ind2; intros p q E.
  - cbn [events] in E. destruct p as [|x p]; [simpl; lia|]. inversion E as [[E1 E2]]. symmetry in E2.
    apply app_eq_nil in E2. destruct E2. subst. simpl. lia.
  - rewrite events_elem in E. destruct p as [|x p]; [simpl; lia|]. inversion E as [[E1 E2]]. subst x. cbn [depth].
    destruct q as [|y q _] using rev_ind.
    + rewrite app_nil_r in E2. subst p. rewrite depth_app, depth_all; [simpl; lia|].
      apply Forall_forall. intros. apply depth_events.
    + rewrite app_assoc in E2. apply app_inj_tail in E2. destruct E2 as [E2 _].
      pose proof (dips_all kids IH p q E2). lia.
Qed.
Lemma prefix_open : forall name atts kids p q, events (Elem name atts kids) = p ++ q -> p <> [] -> q <> [] -> 0 < depth p.
Proof.
  intros name atts kids p q E Hp Hq. rewrite events_elem in E. destruct p as [|x p]; [congruence|].
  inversion E as [[E1 E2]]. subst x. cbn [depth].
  destruct q as [|y q _] using rev_ind; [congruence|].
  rewrite app_assoc in E2. apply app_inj_tail in E2. destruct E2 as [E2 _].
  assert (Forall dips kids) by (apply Forall_forall; intros; apply dips_events).
  pose proof (dips_all kids H p q E2). lia.
Qed.

Definition stack_size (s : xstate) : Z := match xs_stack s with Some l => Z.of_nat (length l) | None => 0 end.
Lemma handle_depth : forall s e s', handle s e = Ok s' -> stack_size s' = stack_size s + depth [e].
Proof.
  intros s e s' H. destruct e; cbn [handle depth] in *.
  - unfold start_element in H. apply obind_ok in H. destruct H as ([[st stack] root] & E & H).
    apply obind_ok in H. destruct H as (v & _ & H). destruct (nth_error _ _); inversion H; subst. unfold stack_size. cbn [xs_stack].
    destruct (xs_stack s) as [[|t r]|]; inversion E; subst; simpl List.length; lia.
  - unfold end_element in H. unfold stack_size. destruct (xs_stack s) as [[|t r]|]; try discriminate.
    destruct (nth_error _ _); try discriminate. apply obind_ok in H. destruct H as ([|] & _ & H); inversion H; subst.
    cbn [xs_stack List.length]. lia.
  - unfold char_data in H. unfold stack_size. destruct (xs_stack s) as [[|t r]|] eqn:E; inversion H; subst. cbn [xs_stack List.length]. lia.
Qed.
Lemma handles_depth : forall l s s', handles s l = Ok s' -> stack_size s' = stack_size s + depth l.
Proof.
  induction l as [|e l]; intros s s' H; cbn [handles] in H; [inversion H; simpl; lia|].
  apply obind_ok in H. destruct H as (s1 & H1 & H2). apply handle_depth in H1. apply IHl in H2.
  change (e :: l) with ([e] ++ l). rewrite depth_app. lia.
Qed.

(** ** Writing *)
Lemma map_char_of' : forall s, map char_of (map VChar s) = s.
Proof. apply map_char_of. Qed.
Lemma name_nul : forall s, Forall name_char s -> nul_free s.
Proof. intros s H. unfold nul_free. intros Hin. rewrite Forall_forall in H. apply (H 0 Hin). simpl. auto. Qed.

Lemma write_attrs_ok : forall a, Forall (fun p => is_name (fst p)) a ->
  exists w, write_attrs (map (fun p => (vstr (fst p), vstr (snd p))) a) = Ok w /\ attrs_text w a.
Proof.
  induction 1 as [|[k v] a [Hk1 Hk2] Ha (w & E & Hw)]; [exists []; split; [auto|constructor]|].
  cbn [map write_attrs fst snd] in *. unfold vstr at 1 2. cbn [c_str_of escape]. rewrite !map_char_of, c_str_id by (apply name_nul; auto).
  cbn [obind]. rewrite E. cbn [obind]. eexists. split; [reflexivity|].
  change (txt "=""") with [61; 34]. apply at_cons; auto; [split; auto|apply escape_denotes].
Qed.

Definition kids_loop := fix kids (l : list val) : outcome str :=
  match l with
  | [] => Ok []
  | x :: t => let* s := (let* r := write_elem x in match r with Some s => Ok s | None => escape x end) in
              let* r := kids t in Ok (s ++ r)
  end.

Definition writes (n : node) : Prop :=
  match n with
  | Text s => write_elem (vstr s) = Ok None
  | Elem _ _ _ => exists w, write_elem (as_val n) = Ok (Some w) /\ elem_text w n
  end.

Lemma kids_ok : forall k, Forall writes k -> exists w, kids_loop (map as_val k) = Ok w /\ content_text w k.
Proof.
  induction 1 as [|n k Hn Hk (w & E & Hw)]; [exists []; split; [auto|constructor]|].
  cbn [map kids_loop]. destruct n as [s|name atts kids]; cbn [writes] in Hn.
  - cbn [as_val]. rewrite Hn. cbn [obind]. unfold vstr at 1. cbn [escape]. rewrite map_char_of. cbn [obind].
    rewrite E. cbn [obind]. eexists. split; [reflexivity|]. apply ct_text; auto. apply escape_denotes.
  - destruct Hn as (v & E1 & Hv). rewrite E1. cbn [obind]. rewrite E. cbn [obind]. eexists. split; [reflexivity|].
    apply ct_elem; auto.
Qed.

Lemma write_text : forall s, write_elem (vstr s) = Ok None.
Proof. intros s. unfold vstr. destruct s as [|a [|b [|c [|d [|]]]]]; reflexivity. Qed.

Lemma writes_all : forall n, names_ok n -> writes n.
Proof.
  induction n as [s|name atts kids IH] using node_ind2; intros H; [apply write_text|].
  inversion H as [|? ? ? [Hn1 Hn2] Ha Hk]; subst.
  assert (F : Forall writes kids) by (rewrite Forall_forall in *; auto).
  destruct (kids_ok kids F) as (b & Eb & Hb). cbn [writes as_val].
  destruct (write_attrs_ok atts Ha) as (w & Ew & Hw).
  assert (Hat : write_attr (match atts with [] => VNil | _ => VMap (map (fun p => (vstr (fst p), vstr (snd p))) atts) end) = Ok w).
  { destruct atts; [inversion Hw; subst; reflexivity|]. exact Ew. }
  cbn [write_elem]. fold kids_loop.
  destruct kids as [|k0 ks].
  - unfold write_parts. rewrite vneq_str. destruct (list_eq_dec Z.eq_dec (txt "text") (txt "text")); [|congruence]. cbn [obind].
    unfold vstr at 1. cbn [c_str_of]. rewrite map_char_of, c_str_id by (apply name_nul; auto). cbn [obind].
    rewrite Hat. cbn [obind vdefined negb]. eexists. split; [reflexivity|]. change (txt " />") with [32; 47; 62].
    apply et_empty; auto. split; auto.
  - set (ks' := k0 :: ks) in *. unfold write_parts. rewrite vneq_str. destruct (list_eq_dec Z.eq_dec (txt "text") (txt "text")); [|congruence]. cbn [obind].
    unfold vstr at 1. cbn [c_str_of]. rewrite map_char_of, c_str_id by (apply name_nul; auto). cbn [obind].
    rewrite Hat. cbn [obind vdefined negb]. rewrite Eb. cbn [obind]. eexists. split; [reflexivity|].
    change (txt "</") with [60; 47]. apply et_full; auto. split; auto.
Qed.
