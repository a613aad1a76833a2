(** Termination and safety of the JSON reader. *)
From Coq Require Import ZArith Bool List Lia ZifyBool String.
From Coq.Floats Require Import SpecFloat.
From Verif Require Import Base StrModel StrSpec StrProof ValModel ValSpec ValProof MapProof NumModel JsonModel.
Import ListNotations.
Local Notation length := List.length.
Local Open Scope list_scope.
Local Open Scope Z_scope.

Definition L (s : jstream) : nat := length (js_rest s).

(** Outcomes other than running on for ever or touching memory wrongly. *)
Definition tame {A} (o : outcome A) : Prop :=
  match o with
  | Ok _ | Throw _ => True
  | UB k => k = TypePun \/ k = SignedOverflow
  | Fuel => False
  end.

(** * Stream steps *)
Lemma s_get_some : forall s c s', s_get s = (Some c, s') -> L s = S (L s') /\ js_rest s = c :: js_rest s' /\
  js_eof s' = js_eof s /\ js_fail s' = js_fail s /\ js_ff s' = js_ff s /\ js_good s = true.
Proof.
  intros s c s' H. unfold s_get in H. destruct (js_good s) eqn:G; [|inversion H].
  destruct (js_rest s) as [|d t] eqn:E; [inversion H|].
  destruct (js_ff s && (d =? -1)); inversion H; subst; clear H.
  unfold L. rewrite E. simpl. rewrite !orb_false_r. repeat split; auto.
Qed.
Lemma s_get_le : forall s o s', s_get s = (o, s') -> (L s' <= L s)%nat.
Proof.
  intros s o s' H. unfold s_get in H. unfold L.
  destruct (js_good s); [|inversion H; subst; simpl; auto].
  destruct (js_rest s) as [|d t] eqn:E; [inversion H; subst; simpl; auto|].
  destruct (js_ff s && (d =? -1)); inversion H; subst; simpl; auto.
Qed.
Lemma s_get_good : forall s c t, js_rest s = c :: t -> js_good s = true -> js_ff s && (c =? -1) = false ->
  s_get s = (Some c, {| js_rest := t; js_eof := false; js_fail := false; js_ff := js_ff s |}).
Proof.
  intros s c t H G F. unfold s_get. rewrite G, H, F. unfold js_set. rewrite !orb_false_r.
  unfold js_good in G. destruct (js_eof s), (js_fail s); try discriminate. reflexivity.
Qed.

Lemma s_peek_cases : forall s c s', s_peek s = (c, s') -> js_rest s' = js_rest s /\
  ((s' = s /\ js_good s = true /\ exists t, js_rest s = c :: t /\ js_ff s && (c =? -1) = false) \/
   (c = -1 /\ js_good s' = false)).
Proof.
  intros s c s' H. unfold s_peek in H. destruct (js_good s) eqn:G.
  - destruct (js_rest s) as [|d t] eqn:E.
    + inversion H; subst. simpl. split; auto. right. split; auto. unfold js_good. simpl. rewrite orb_true_r. auto.
    + destruct (js_ff s && (d =? -1)) eqn:F; inversion H; subst; simpl.
      * split; auto. right. split; auto. unfold js_good. simpl. rewrite orb_true_r. auto.
      * rewrite E. split; auto. left. eauto.
  - inversion H; subst. simpl. split; auto. right. split; auto. unfold js_good. simpl. rewrite !orb_true_r. auto.
Qed.

Lemma j_peek_ok : forall f s, (L s < f)%nat -> exists c s', j_peek f s = Ok (c, s') /\ (L s' <= L s)%nat /\
  ((js_good s' = true /\ exists t, js_rest s' = c :: t /\ js_ff s' && (c =? -1) = false) \/
   (c = -1 /\ js_good s' = false)).
Proof.
  induction f; intros s H; [lia|]. cbn [j_peek]. destruct (s_peek s) as [c s'] eqn:E.
  apply s_peek_cases in E. destruct E as (Er & [(-> & G & t & Et & F)|(-> & G)]).
  - destruct (isspace c) eqn:Ec.
    + rewrite (s_get_good s c t) by auto. cbn [snd].
      destruct (IHf {| js_rest := t; js_eof := false; js_fail := false; js_ff := js_ff s |}) as (c' & s' & E & Hl & Hc).
      { unfold L in *. rewrite Et in H. simpl in *. lia. }
      exists c', s'. split; auto. split; auto. unfold L in *. rewrite Et. simpl in *. lia.
    + exists c, s. split; auto. split; auto. left. eauto.
  - exists (-1), s'. cbn [isspace]. change (isspace (-1)) with false. cbv iota. split; auto.
    split; [unfold L; rewrite Er; auto|]. right; auto.
Qed.
Lemma jpeek_ok : forall s, exists c s', jpeek s = Ok (c, s') /\ (L s' <= L s)%nat /\
  ((js_good s' = true /\ exists t, js_rest s' = c :: t /\ js_ff s' && (c =? -1) = false) \/
   (c = -1 /\ js_good s' = false)).
Proof. intros. apply j_peek_ok. unfold L. lia. Qed.

(** * Strings and raw values *)
Lemma string_loop_tame : forall f acc s, (L s < f)%nat ->
  match string_loop f acc s with
  | Ok (_, s') => (L s' <= L s)%nat
  | Throw _ => True
  | _ => False
  end.
Proof.
  induction f; intros acc s H; [lia|]. cbn [string_loop]. destruct (s_get s) as [[c|] s1] eqn:E; auto.
  apply s_get_some in E. destruct E as (E1 & _).
  destruct (c =? 34); [lia|]. destruct (c =? 92).
  - destruct (s_get s1) as [o s2] eqn:E2. apply s_get_le in E2. destruct (char_or_eof o =? 34); auto.
    specialize (IHf (acc ++ [34]) s2). destruct (string_loop f (acc ++ [34]) s2) as [[? ?]| | |]; auto; lia.
  - specialize (IHf (acc ++ [c]) s1). destruct (string_loop f (acc ++ [c]) s1) as [[? ?]| | |]; auto; lia.
Qed.
Lemma doString_tame : forall s, match doString s with
  | Ok (_, s') => (L s' < L s)%nat
  | Throw _ => True
  | _ => False
  end.
Proof.
  intros. unfold doString. destruct (s_get s) as [o s1] eqn:E.
  destruct o as [c|]; cbn [char_or_eof].
  - apply s_get_some in E. destruct E as (E1 & _). destruct (negb (c =? 34)); auto.
    pose proof (string_loop_tame (S (length (js_rest s1))) [] s1). unfold L in *.
    destruct (string_loop _ [] s1) as [[? ?]| | |]; auto; lia.
  - simpl. auto.
Qed.

Lemma raw_loop_tame : forall f acc s, (L s < f)%nat -> exists v s', raw_loop f acc s = Ok (v, s') /\
  (L s' <= L s)%nat /\ (v = acc \/ (L s' < L s)%nat).
Proof.
  induction f; intros acc s H; [lia|]. cbn [raw_loop]. destruct (s_get s) as [[c|] s1] eqn:E.
  - apply s_get_some in E. destruct E as (E1 & _).
    destruct (isspace c); [eexists _, _; split; [reflexivity|]; split; [lia|right; lia]|].
    destruct (delim c); [eexists _, _; split; [reflexivity|]; split; [lia|right; lia]|].
    destruct (IHf (acc ++ [c]) s1) as (v & s' & -> & Hl & _); [lia|].
    exists v, s'. split; auto. split; [lia|right; lia].
  - apply s_get_le in E. exists acc, s1. auto.
Qed.

Lemma vneq_str : forall a b, vneq (vstr a) (vstr b) = Ok (if list_eq_dec Z.eq_dec a b then false else true).
Proof.
  intros. unfold vstr. cbn [vneq vtype]. change (negb (0 =? 0)) with false. cbv iota.
  unfold vsize. cbn [vtype hsize]. change (0 =? 0) with true. cbv iota. rewrite !map_length.
  destruct (Z.eqb_spec (Z.of_nat (length a)) (Z.of_nat (length b))); cbn [negb].
  - cbn [own_elems]. rewrite elems_neq_chars by (auto; lia). reflexivity.
  - destruct (list_eq_dec Z.eq_dec a b); auto. subst. congruence.
Qed.
Lemma str_eq_ok : forall a b, str_eq a b = Ok (if list_eq_dec Z.eq_dec a b then true else false).
Proof. intros. unfold str_eq, veq. rewrite vneq_str. cbn [obind]. destruct (list_eq_dec Z.eq_dec a b); auto. Qed.
Lemma vlt_str : forall a b, vlt (vstr a) (vstr b) = Ok (strcmp_lt (c_str a) (c_str b)).
Proof.
  intros. unfold vstr. cbn [vlt vtype]. change (negb (0 =? 0)) with false. cbv iota.
  cbn [vdefined negb own_char iface_char andb cstring]. rewrite !map_char_of. reflexivity.
Qed.

Lemma raw_value_tame : forall v, match raw_value v with Ok _ => v <> [] | Throw _ => True | _ => False end.
Proof.
  intros. unfold raw_value. rewrite !str_eq_ok. cbn [obind].
  destruct (list_eq_dec Z.eq_dec v (txt "true"%string)); [subst; discriminate|].
  destruct (list_eq_dec Z.eq_dec v (txt "false"%string)); [subst; discriminate|].
  destruct (list_eq_dec Z.eq_dec v (txt "null"%string)); [subst; discriminate|].
  destruct v; [simpl; auto|]. destruct (vdefined _); auto. discriminate.
Qed.
Lemma doRaw_tame : forall s, match doRaw s with
  | Ok (_, s') => (L s' < L s)%nat
  | Throw _ => True
  | _ => False
  end.
Proof.
  intros. unfold doRaw. destruct (raw_loop_tame (S (length (js_rest s))) [] s) as (v & s' & -> & Hl & Hv).
  { unfold L. lia. }
  cbn [obind]. pose proof (raw_value_tame v) as R. destruct (raw_value v); cbn [obind]; auto.
  destruct Hv; [congruence|lia].
Qed.

(** * Objects and arrays *)
Definition strkeys (l : list (val * val)) : Prop := Forall (fun p => exists s, fst p = vstr s) l.
Definition str_or_nil (k : val) : Prop := k = VNil \/ exists s, k = vstr s.

Lemma assign_tame : forall l k v, strkeys l -> str_or_nil k ->
  exists l', assign (VNil, VNil) (VMap l) k v = Ok (VMap l') /\ strkeys l'.
Proof.
  intros l k v Hl Hk. unfold assign, map_put, map_index. destruct Hk as [->|[s ->]].
  { simpl. eauto. }
  change (negb (vdefined (vstr s))) with false. cbv iota.
  assert (B : exists p, binary (map fst l) (vstr s) = Ok p /\ 0 <= p <= Z.of_nat (length l)).
  { unfold binary. rewrite map_length. destruct (Z.eqb_spec (Z.of_nat (length l)) 0).
    - exists 0. split; auto. lia.
    - destruct (binary_loop_total (S (length l)) (fun x => vlt x (vstr s)) (map fst l) 0 (Z.of_nat (length l)))
        as (p & E & Hp); try lia.
      + intros x Hx. apply in_map_iff in Hx. destruct Hx as (y & <- & Hy).
        unfold strkeys in Hl. rewrite Forall_forall in Hl. destruct (Hl y Hy) as [q ->]. rewrite vlt_str. eexists; eauto.
      + rewrite map_length. lia.
      + exists p. split; auto. }
  destruct B as (p & -> & Hp). cbn [obind].
  assert (Hi : forall n, (n <= length l)%nat -> strkeys (firstn n l ++ (vstr s, VNil) :: skipn n l)).
  { intros n Hn. unfold strkeys in *. apply Forall_app. rewrite <- (firstn_skipn n l) in Hl. apply Forall_app in Hl.
    destruct Hl. split; auto. constructor; auto. simpl. eauto. }
  assert (Hset : forall l' n kk, strkeys l' -> (exists q, kk = vstr q) -> strkeys (set_nth l' n (kk, v))).
  { unfold strkeys. induction l' as [|x l' IH]; intros n kk A B; simpl; auto. destruct n; inversion A; subst; constructor; auto. }
  destruct (Z.leb_spec (Z.of_nat (length l)) p).
  - assert (p = Z.of_nat (length l)) by lia. subst p. rewrite insert_pair_ok by lia. cbn [obind].
    rewrite Nat2Z.id, firstn_all, skipn_all, nth_error_mid. cbn [obind]. eexists; split; [reflexivity|]. apply Hset; eauto.
    specialize (Hi (length l)). rewrite firstn_all, skipn_all in Hi. auto.
  - destruct (nth_error l (Z.to_nat p)) as [[kk vv]|] eqn:E.
    2:{ apply nth_error_None in E. lia. }
    assert (Hkk : exists q, kk = vstr q).
    { apply nth_error_In in E. unfold strkeys in Hl. rewrite Forall_forall in Hl. apply (Hl _ E). }
    destruct Hkk as [q ->]. rewrite vneq_str. cbn [obind]. destruct (list_eq_dec Z.eq_dec q s); cbn [obind].
    + rewrite E. cbn [obind]. eexists; split; [reflexivity|]. apply Hset; eauto.
    + assert (Ei := insert_pair_ok (VNil, VNil) l (vstr s) (Z.to_nat p) ltac:(lia)). rewrite Z2Nat.id in Ei by lia. rewrite Ei. cbn [obind].
      assert (En : nth_error (firstn (Z.to_nat p) l ++ (vstr s, VNil) :: skipn (Z.to_nat p) l) (Z.to_nat p) = Some (vstr s, VNil)).
      { replace (Z.to_nat p) with (length (firstn (Z.to_nat p) l)) at 3 by (rewrite firstn_length; lia).
        apply nth_error_mid. }
      rewrite En. cbn [obind]. eexists; split; [reflexivity|]. apply Hset; eauto. apply Hi. lia.
Qed.

Lemma cast_tame : forall t x, tame (cast t x).
Proof.
  intros t x. destruct t, x; simpl; auto; try (destruct t; simpl; auto; fail);
    try (destruct (float_trunc f) as [z|]; [destruct (_ && _)|]; simpl; auto; fail);
    try (destruct t; simpl; auto; unfold cast_str;
         match goal with |- tame (match option_map _ ?o with _ => _ end) => destruct o; simpl; auto end; fail).
Qed.
Lemma push_tame : forall a x, tame (push a x).
Proof.
  intros a x. destruct a; cbn [push]; try (destruct (negb _); simpl; auto; fail); try (simpl; auto; fail).
  destruct t; cbn [push]; try (simpl; auto; fail);
    match goal with |- tame (obind (cast ?t ?x) _) => pose proof (cast_tame t x); destruct (cast t x); simpl; auto end.
Qed.

Lemma parser_tame : forall f,
  (forall s, (2 * L s + 2 <= f)%nat ->
     match doValue f s with Ok (_, s') => (L s' < L s)%nat | o => tame o end) /\
  (forall l k s, strkeys l -> str_or_nil k -> (2 * L s + 3 <= f)%nat ->
     match object_loop f (VMap l) k s with Ok (_, s') => (L s' <= L s)%nat | o => tame o end) /\
  (forall a s, (2 * L s + 3 <= f)%nat ->
     match array_loop f a s with Ok (_, s') => (L s' <= L s)%nat | o => tame o end).
Proof.
  induction f as [|f (IV & IO & IA)]; [repeat split; intros; lia|]. repeat split.
  - intros s H. cbn [doValue]. destruct (jpeek_ok s) as (c & s1 & -> & Hl & Hc). cbn [obind].
    destruct (Z.eqb_spec c 123).
    { destruct Hc as [(G & t & Et & F)|(-> & _)]; [|lia]. rewrite (s_get_good s1 c t) by auto.
      subst c. cbn [char_or_eof]. change (negb (123 =? 123)) with false. cbv iota.
      set (s2 := {| js_rest := t; js_eof := _; js_fail := _; js_ff := _ |}).
      assert (L s1 = S (L s2)) by (unfold L, s2; rewrite Et; reflexivity).
      specialize (IO [] VNil s2 ltac:(constructor) ltac:(left; auto) ltac:(lia)).
      destruct (object_loop f (VMap []) VNil s2) as [[? ?]| | |]; auto. lia. }
    destruct (Z.eqb_spec c 91).
    { destruct Hc as [(G & t & Et & F)|(-> & _)]; [|lia]. rewrite (s_get_good s1 c t) by auto.
      subst c. cbn [char_or_eof]. change (negb (91 =? 91)) with false. cbv iota.
      set (s2 := {| js_rest := t; js_eof := _; js_fail := _; js_ff := _ |}).
      assert (L s1 = S (L s2)) by (unfold L, s2; rewrite Et; reflexivity).
      specialize (IA VNil s2 ltac:(lia)).
      destruct (array_loop f VNil s2) as [[? ?]| | |]; auto. lia. }
    destruct (c =? 34).
    { pose proof (doString_tame s1) as D. destruct (doString s1) as [[? ?]| | |]; cbn [obind]; simpl; auto; try tauto. lia. }
    pose proof (doRaw_tame s1) as D. destruct (doRaw s1) as [[? ?]| | |]; simpl; auto; try tauto. lia.
  - intros l k s Hl0 Hk H. cbn [object_loop]. destruct (js_fail s); [auto|].
    destruct (jpeek_ok s) as (c & s1 & -> & Hl & Hc). cbn [obind].
    destruct (c =? 125).
    { destruct (s_get s1) as [o s2] eqn:E. apply s_get_le in E. cbn [snd]. lia. }
    destruct (c =? 34).
    { pose proof (doString_tame s1) as D. destruct (doString s1) as [[k' s2]| | |]; cbn [obind]; simpl; auto; try tauto.
      specialize (IO l (vstr k') s2 Hl0 ltac:(right; eauto) ltac:(lia)).
      destruct (object_loop f (VMap l) (vstr k') s2) as [[? ?]| | |]; auto. lia. }
    destruct (Z.eqb_spec c 58).
    { destruct Hc as [(G & t & Et & F)|(-> & _)]; [|lia]. rewrite (s_get_good s1 c t) by auto. cbn [snd].
      set (s2 := {| js_rest := t; js_eof := _; js_fail := _; js_ff := _ |}).
      assert (L s1 = S (L s2)) by (unfold L, s2; rewrite Et; reflexivity).
      specialize (IV s2 ltac:(lia)). destruct (doValue f s2) as [[v s3]| | |]; cbn [obind]; auto.
      destruct (assign_tame l k v Hl0 Hk) as (l' & -> & Hl'). cbn [obind].
      specialize (IO l' k s3 Hl' Hk ltac:(lia)). destruct (object_loop f (VMap l') k s3) as [[? ?]| | |]; auto. lia. }
    destruct (Z.eqb_spec c 44); [|simpl; auto].
    destruct Hc as [(G & t & Et & F)|(-> & _)]; [|lia]. rewrite (s_get_good s1 c t) by auto. cbn [snd].
    set (s2 := {| js_rest := t; js_eof := _; js_fail := _; js_ff := _ |}).
    assert (L s1 = S (L s2)) by (unfold L, s2; rewrite Et; reflexivity).
    specialize (IO l VNil s2 Hl0 ltac:(left; auto) ltac:(lia)).
    destruct (object_loop f (VMap l) VNil s2) as [[? ?]| | |]; auto. lia.
  - intros a s H. cbn [array_loop]. destruct (js_fail s); [auto|].
    destruct (jpeek_ok s) as (c & s1 & -> & Hl & Hc). cbn [obind].
    destruct (c =? 93).
    { destruct (s_get s1) as [o s2] eqn:E. apply s_get_le in E. cbn [snd]. lia. }
    destruct (Z.eqb_spec c 44).
    { destruct Hc as [(G & t & Et & F)|(-> & _)]; [|lia]. rewrite (s_get_good s1 c t) by auto. cbn [snd].
      set (s2 := {| js_rest := t; js_eof := _; js_fail := _; js_ff := _ |}).
      assert (L s1 = S (L s2)) by (unfold L, s2; rewrite Et; reflexivity).
      specialize (IA a s2 ltac:(lia)). destruct (array_loop f a s2) as [[? ?]| | |]; auto. lia. }
    specialize (IV s1 ltac:(lia)). destruct (doValue f s1) as [[v s3]| | |]; cbn [obind]; auto.
    pose proof (push_tame a v) as P. destruct (push a v) as [a'| | |]; cbn [obind]; auto.
    specialize (IA a' s3 ltac:(lia)). destruct (array_loop f a' s3) as [[? ?]| | |]; auto. lia.
Qed.
