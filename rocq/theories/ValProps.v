(** Properties C19 - C29: comparison, maps, sorting, searching. *)
From Coq Require Import ZArith Bool List Lia Sorting Permutation.
From Coq.Floats Require Import SpecFloat.
From Verif Require Import Base StrModel StrSpec StrProof ValModel ValSpec ValProof MapProof EqProof.
Import ListNotations.
Local Open Scope Z_scope.

(** * C19 *)
Theorem C19_strict_total_order :
  (forall a, key a -> vlt a a = Ok false) /\
  (forall a b c, key a -> key b -> key c -> less a b -> less b c -> less a c) /\
  (forall a b, key a -> key b ->
     is_ok (vlt a b) /\ is_ok (vlt b a) /\ is_ok (veq a b) /\
     exactly_one (less a b) (less b a) (equal a b)).
Proof.
  split; [|split].
  - intros a Ha. rewrite key_lt_code by auto. rewrite lex_refl. reflexivity.
  - intros a b c Ha Hb Hc H1 H2. apply key_less in H1; auto. apply key_less in H2; auto.
    apply key_less; auto. eapply lex_trans; eauto.
  - intros a b Ha Hb. rewrite !key_lt_code, key_eq_code by auto.
    split; [eexists; eauto|]. split; [eexists; eauto|]. split; [eexists; eauto|].
    unfold exactly_one, less, equal. rewrite !key_lt_code, key_eq_code by auto.
    rewrite (lex_antisym (code a) (code b)).
    destruct (lex (code a) (code b)); cbn [is_lt is_eq CompOpp].
    + right. right. repeat split; congruence.
    + left. repeat split; congruence.
    + right. left. repeat split; congruence.
Qed.
(** Equal keys are interchangeable on either side of <. *)
Theorem C19_equal_congruent : forall a a' b, key a -> key a' -> key b -> equal a a' ->
  vlt a b = vlt a' b /\ vlt b a = vlt b a'.
Proof.
  intros a a' b Ha Ha' Hb H. apply key_equal in H; auto. rewrite !key_lt_code by auto. rewrite H. auto.
Qed.
(** The domain cannot be widened to NaN or to strings with embedded NUL. *)
Theorem C19_nan_refuted : exists a, vlt a a = Ok false /\ veq a a = Ok false.
Proof. exists (VDouble S754_nan). split; reflexivity. Qed.
Theorem C19_embedded_nul_refuted : exists s t, chars s /\ chars t /\
  vlt (VArr TChar (map VChar s)) (VArr TChar (map VChar t)) = Ok false /\
  vlt (VArr TChar (map VChar t)) (VArr TChar (map VChar s)) = Ok false /\
  veq (VArr TChar (map VChar s)) (VArr TChar (map VChar t)) = Ok false.
Proof.
  exists [97;0;98], [97;0;99].
  split; [intros c0 H0; simpl in H0; intuition lia|].
  split; [intros c0 H0; simpl in H0; intuition lia|].
  repeat split.
Qed.
Example C19_example : key (VArr TChar (map VChar [97;-1])) /\ key (VDouble (S754_finite false 3 0)) /\ key (VInt 3) /\
  less (VArr TChar (map VChar [97;98])) (VArr TChar (map VChar [97;-1])) /\
  less (VInt 3) (VDouble (S754_finite false 1 0)).
Proof.
  repeat split; try reflexivity; try constructor; try discriminate.
  - intros c H. simpl in H. intuition lia.
  - intros H. simpl in H. intuition discriminate.
Qed.

(** * C20 *)
Fixpoint lt_list (l m : list val) : outcome bool :=
  match l, m with
  | x :: l', y :: m' => let* r := vlt x y in if r : bool then Ok true else lt_list l' m'
  | _, _ => Ok false
  end.
Lemma vlt_arr : forall t l u m, (t <> TChar \/ u <> TChar) ->
  vlt (VArr t l) (VArr u m) = lt_list l m.
Proof.
  intros t l u m H. cbn [vlt vtype]. change (negb (0 =? 0)) with false. cbv iota. cbn [vdefined negb].
  assert (E : own_char (VArr t l) && iface_char (VArr u m) = false).
  { destruct H; destruct t; destruct u; try congruence; reflexivity. }
  rewrite E. cbn [hsize own_elems]. clear E.
  assert (forall n, n = Z.to_nat (Z.min (Z.of_nat (length l)) (Z.of_nat (length m))) -> n = Nat.min (length l) (length m)) by lia.
  remember (Z.to_nat (Z.min (Z.of_nat (length l)) (Z.of_nat (length m)))) as n.
  assert (En : n = Nat.min (length l) (length m)) by lia. clear Heqn H0 H. revert m n En.
  induction l as [|x l]; intros m n En.
  - simpl in En. subst. reflexivity.
  - destruct m as [|y m].
    + simpl in En. subst. reflexivity.
    + simpl in En. subst. cbn [lt_list]. destruct (vlt x y) as [[|]| | |]; cbn [obind]; auto.
Qed.

(** On two arrays that are not both strings, < means: smaller at some common position. *)
Theorem C20_lt_means_smaller_somewhere : forall t l u m, (t <> TChar \/ u <> TChar) ->
  Forall key l -> Forall key m ->
  is_ok (vlt (VArr t l) (VArr u m)) /\
  (less (VArr t l) (VArr u m) <->
   exists i x y, nth_error l i = Some x /\ nth_error m i = Some y /\ less x y).
Proof.
  intros t l u m H Hl Hm. unfold less. rewrite vlt_arr by auto. clear t u H.
  revert m Hm. induction Hl as [|x l Hx Hl]; intros m Hm.
  - simpl. split; [eexists; eauto|]. split; [discriminate|]. intros (i & a & b & Hi & _). destruct i; discriminate.
  - destruct Hm as [|y m Hy Hm].
    + simpl. split; [eexists; eauto|]. split; [discriminate|]. intros (i & a & b & _ & Hi & _). destruct i; discriminate.
    + cbn [lt_list]. rewrite key_lt_code by auto. cbn [obind]. destruct (lex (code x) (code y)) eqn:E; cbn [is_lt].
      2:{ split; [eexists; eauto|]. split; auto. intros _. exists 0%nat, x, y. repeat split; auto. rewrite key_lt_code, E by auto. reflexivity. }
      all: destruct (IHHl m Hm) as [H1 H2]; split; auto; rewrite H2; split.
      1,3: intros (i & a & b & Ha & Hb & Hab); exists (S i), a, b; auto.
      all: intros (i & a & b & Ha & Hb & Hab); destruct i as [|i]; [|exists i, a, b; auto].
      all: simpl in Ha, Hb; inversion Ha; inversion Hb; subst; rewrite key_lt_code, E in Hab by auto; discriminate.
Qed.
(** For every length from two on, < is not asymmetric. *)
Theorem C20_not_asymmetric : forall n, (2 <= n)%nat -> exists l m, length l = n /\ length m = n /\
  less (VArr TInt l) (VArr TInt m) /\ less (VArr TInt m) (VArr TInt l).
Proof.
  intros n Hn. exists (VInt 1 :: VInt 2 :: repeat (VInt 0) (n-2)), (VInt 2 :: VInt 1 :: repeat (VInt 0) (n-2)).
  assert (K : Forall key (repeat (VInt 0) (n-2))).
  { apply Forall_forall. intros x Hx. apply repeat_spec in Hx. subst. constructor. }
  split; [simpl; rewrite repeat_length; lia|]. split; [simpl; rewrite repeat_length; lia|].
  split; apply C20_lt_means_smaller_somewhere; try (left; discriminate); repeat (constructor; auto).
  - exists 0%nat, (VInt 1), (VInt 2). repeat split.
  - exists 1%nat, (VInt 1), (VInt 2). repeat split.
Qed.
(** ... and not transitive. *)
Theorem C20_not_transitive : exists a b c, less a b /\ less b c /\ ~ less a c.
Proof.
  exists (VArr TInt [VInt 5; VInt 5]), (VArr TInt [VInt 0; VInt 9]), (VArr TInt [VInt 1; VInt 1]).
  repeat split; try reflexivity. discriminate.
Qed.
(** On arrays of length one it is the order of the elements. *)
Theorem C20_length_one : forall t x u y, (t <> TChar \/ u <> TChar) -> key x -> key y ->
  vlt (VArr t [x]) (VArr u [y]) = vlt x y.
Proof.
  intros. rewrite vlt_arr by auto. cbn [lt_list]. rewrite key_lt_code by auto. cbn [obind]. destruct (is_lt _); auto.
Qed.

(** * C21 *)
Theorem C21_equality_structural : forall a b, solid a -> solid b ->
  is_ok (veq a b) /\ (equal a b <-> same a b).
Proof.
  intros a b Ha Hb. unfold equal, veq. destruct (vneq_decides a Ha b Hb) as [[-> S]|[-> S]]; cbn.
  - split; [eexists; eauto|tauto].
  - split; [eexists; eauto|]. split; [discriminate|tauto].
Qed.
Theorem C21_equivalence :
  (forall a, solid a -> nan_free a -> equal a a) /\
  (forall a b, solid a -> solid b -> equal a b -> equal b a) /\
  (forall a b c, solid a -> solid b -> solid c -> equal a b -> equal b c -> equal a c).
Proof.
  split; [|split].
  - intros a Ha Hn. apply C21_equality_structural; auto. apply same_refl; auto.
  - intros a b Ha Hb H. apply C21_equality_structural; auto. apply C21_equality_structural in H; auto. apply same_sym; auto.
  - intros a b c Ha Hb Hc H1 H2. apply C21_equality_structural; auto.
    apply C21_equality_structural in H1; auto. apply C21_equality_structural in H2; auto. eapply same_trans; eauto.
Qed.
(** The element types of arrays do not matter, and keys of maps do not either. *)
Theorem C21_types_and_keys_ignored :
  (forall t u, veq (VArr t []) (VArr u []) = Ok true) /\
  (forall l m, solid (VMap l) -> nan_free (VMap l) -> map snd l = map snd m -> veq (VMap l) (VMap m) = Ok true).
Proof.
  split; [reflexivity|]. intros l m H N E.
  assert (H' : solid (VMap m)) by (inversion H; subst; constructor; rewrite <- E; auto).
  apply C21_equality_structural; auto. constructor. rewrite <- E.
  apply Forall2_refl_in. inversion H; inversion N; subst. rewrite Forall_forall in *. intros x Hx. apply same_refl. auto.
Qed.
Example C21_example :
  veq (VArr TVar [VInt 1; VArr TChar [VChar 97]]) (VArr TVar [VInt 1; VArr TChar [VChar 97]]) = Ok true /\
  veq (VMap [(VInt 1, VInt 5)]) (VMap [(VInt 2, VInt 5)]) = Ok true /\
  veq (VInt 1) (VLong 1) = Ok false.
Proof. repeat split. Qed.

(** * C22 *)
Theorem C22_compare_nil :
  (forall v, vtype v <> 0 -> veq v VNil = Ok false /\ veq VNil v = Ok false) /\
  (forall v, vtype v = 0 -> vsize v = 0 -> veq VNil v = UB NullDeref) /\
  (forall v, vtype v = 0 -> vsize v <> 0 -> veq VNil v = Ok false /\ veq v VNil = Ok false) /\
  (forall t, veq (VArr t []) VNil = Ok true) /\ veq (VMap []) VNil = Ok true /\
  (forall v, vtype v = 0 -> vlt VNil v = UB NullDeref /\ vlt v VNil = UB NullDeref).
Proof.
  split; [|split; [|split; [|split; [|split]]]].
  - intros v H. destruct v; try (simpl in H; congruence); split; reflexivity.
  - intros v Ht Hs. unfold veq, vneq. rewrite Ht, Hs. reflexivity.
  - intros v Ht Hs. assert (D : vsize VNil = 0) by reflexivity.
    assert (N : vneq VNil v = Ok true).
    { cbn [vneq]. rewrite Ht, D. change (negb (vtype VNil =? 0)) with false. cbv iota.
      destruct (Z.eqb_spec 0 (vsize v)); [congruence|reflexivity]. }
    assert (M : vneq v VNil = Ok true).
    { destruct v; try (simpl in Ht; discriminate); try (exfalso; apply Hs; reflexivity).
      - rewrite vneq_arr. rewrite Ht. cbn [vtype negb Z.eqb]. change (vsize VNil) with 0.
        destruct (Z.eqb_spec (vsize (VArr t l)) 0); [congruence|reflexivity].
      - rewrite vneq_map. rewrite Ht. cbn [vtype negb Z.eqb]. change (vsize VNil) with 0.
        destruct (Z.eqb_spec (vsize (VMap l)) 0); [congruence|reflexivity].
      - cbn [vneq]. rewrite Ht. cbn [vtype negb Z.eqb]. change (vsize VNil) with 0.
        destruct (Z.eqb_spec (vsize (VView desc t data)) 0); [congruence|reflexivity]. }
    unfold veq. rewrite N, M. auto.
  - reflexivity.
  - reflexivity.
  - intros v Ht. split.
    + unfold vlt. rewrite Ht. reflexivity.
    + destruct v; try (simpl in Ht; discriminate); reflexivity.
Qed.
Example C22_example : veq VNil (VArr TChar []) = UB NullDeref /\ veq (VArr TChar []) VNil = Ok true.
Proof. split; reflexivity. Qed.

(** * C23 *)
(** Whatever the comparisons answer, the search ends at a position inside the array. *)
Theorem C23_binary_total : forall l x, (forall y, In y l -> is_ok (vlt y x)) ->
  exists p, binary l x = Ok p /\ 0 <= p <= Z.of_nat (length l).
Proof.
  intros l x H. unfold binary. destruct (Z.eqb_spec (Z.of_nat (length l)) 0); [exists 0; split; auto; lia|].
  destruct (binary_loop_total (S (length l)) (fun y => vlt y x) l 0 (Z.of_nat (length l)) H ltac:(lia) ltac:(lia) ltac:(lia)) as (p & Hp & ?).
  eauto.
Qed.
(** On a list where the smaller elements come first it is the lower bound. *)
Theorem C23_binary_lower_bound : forall l x,
  (forall y, In y l -> is_ok (vlt y x)) ->
  (forall i j y z, (i < j)%nat -> nth_error l i = Some y -> nth_error l j = Some z -> less z x -> less y x) ->
  exists p, binary l x = Ok (Z.of_nat p) /\ lower_bound less l x p.
Proof.
  intros l x Hok Hs.
  set (lt := fun y => match vlt y x with Ok true => true | _ => false end).
  assert (Hlt : forall y, lt y = true <-> less y x).
  { intros y. unfold lt, less. destruct (vlt y x) as [[|]| | |]; split; congruence. }
  destruct (partition_point lt l) as (n & Hn & Hp).
  { intros i j a b Hij Ha Hb Hb'. apply Hlt. apply Hlt in Hb'. eapply Hs; eauto. }
  exists n. split.
  - apply (binary_bound lt); auto. intros y Hy. destruct (Hok y Hy) as [b Hb]. unfold lt. rewrite Hb. destruct b; auto.
  - split; auto. split; intros i y Hi Hy.
    + apply Hlt. apply (Hp i); auto.
    + intros L. apply Hlt in L. apply (Hp i) in L; auto. lia.
Qed.
(** In particular on strictly increasing keys. *)
Theorem C23_binary_sorted_keys : forall l x, Forall key l -> key x -> StronglySorted less l ->
  exists p, binary l x = Ok (Z.of_nat p) /\ lower_bound less l x p.
Proof.
  intros l x Hl Hx Hs. apply C23_binary_lower_bound.
  - intros y Hy. rewrite Forall_forall in Hl. rewrite key_lt_code by auto. eexists; eauto.
  - intros i j y z Hij Hy Hz Hzx.
    assert (less y z).
    { clear - Hs Hij Hy Hz. revert i j Hij Hy Hz. induction Hs; intros i j Hij Hy Hz; [destruct i; discriminate|].
      destruct i as [|i]; destruct j as [|j]; try lia; simpl in *.
      - inversion Hy; subst. rewrite Forall_forall in H. apply H. eapply nth_error_In; eauto.
      - apply (IHHs i j); auto; lia. }
    rewrite Forall_forall in Hl.
    destruct C19_strict_total_order as (_ & T & _). eapply T; [| | |exact H|exact Hzx]; auto; apply Hl; eapply nth_error_In; eauto.
Qed.
Example C23_example : binary [VInt 1; VInt 3; VInt 3; VInt 7] (VInt 3) = Ok 1 /\ binary [VInt 9; VInt 3; VInt 1] (VInt 3) = Ok 0.
Proof. split; reflexivity. Qed.

(** * C24 *)
Lemma sorted_map_ok : forall l, sorted_map l <-> map_ok l.
Proof.
  intros l. unfold sorted_map, map_ok.
  assert (F : Forall key (map fst l) <-> Forall (fun p => key (fst p)) l).
  { rewrite !Forall_forall. split; intros H x Hx.
    - apply H. apply in_map. auto.
    - apply in_map_iff in Hx. destruct Hx as (p & <- & Hp). auto. }
  rewrite F. split; intros [A B]; split; auto.
  - clear F. induction l; simpl in *; [constructor|]. inversion A; subst. inversion B; subst. constructor; auto.
    rewrite Forall_forall in *. intros p Hp. unfold clt. apply key_less; auto. apply H4. apply in_map. auto.
  - clear F. induction l; simpl in *; [constructor|]. inversion A; subst. inversion B; subst. constructor; auto.
    rewrite Forall_forall in *. intros x Hx. apply in_map_iff in Hx. destruct Hx as (p & <- & Hp).
    apply key_less; auto. apply H2. auto.
Qed.

Lemma sorted_distinct : forall l, Forall key l -> StronglySorted less l -> distinct_keys l.
Proof.
  induction l; intros K S; simpl; auto. inversion K; subst. inversion S; subst. split; auto.
  intros k Hk E. rewrite Forall_forall in *. specialize (H4 k Hk). apply key_less in H4; auto.
  apply key_equal in E; auto. rewrite E, lex_refl in H4. discriminate.
Qed.

(** Any program of keyed assignments: reading gives the value last assigned, nil if none;
    the keys are kept strictly increasing, one per distinct key. *)
Theorem C24_finite_map : forall junk ops, ops <> [] -> Forall key (map fst ops) ->
  exists l, assigns junk VNil ops = Ok (VMap l) /\
    sorted_map l /\ distinct_keys (map fst l) /\
    (forall k, In k (map fst ops) -> exists kk, In kk (map fst l) /\ equal kk k) /\
    (forall kk, In kk (map fst l) -> In kk (map fst ops)) /\
    (forall k, key k ->
       (exists v, last_bound ops k v /\ at_var (RVar (VMap l)) k = Ok v) \/
       (unbound ops k /\ at_var (RVar (VMap l)) k = Ok VNil)).
Proof.
  intros junk ops Hne Hk.
  assert (Hk' : Forall (fun p => key (fst p)) ops).
  { rewrite Forall_forall in *. intros p Hp. apply Hk. apply in_map. auto. }
  destruct (tracks_puts junk ops [] [] tracks_nil Hk') as (l & E & Hok & T1 & T2 & T3).
  exists l. rewrite assigns_nil by auto. rewrite E. cbn [obind app] in *. split; auto.
  assert (S : sorted_map l) by (apply sorted_map_ok; auto).
  split; auto. destruct S as [SK SS]. split; [apply sorted_distinct; auto|].
  assert (kl : forall kk v, In (kk, v) l -> key kk).
  { intros kk v Hin. rewrite Forall_forall in SK. apply SK. change kk with (fst (kk, v)). apply in_map. auto. }
  assert (ko : forall kk v, In (kk, v) ops -> key kk).
  { intros kk v Hin. rewrite Forall_forall in Hk. apply Hk. change kk with (fst (kk, v)). apply in_map. auto. }
  split; [|split].
  - intros k Hin. apply in_map_iff in Hin. destruct Hin as ([k0 v0] & <- & Hin). cbn [fst] in *.
    destruct (T2 k0 v0 Hin) as (kk & v' & H1 & H2). exists kk. split; [change kk with (fst (kk, v')); apply in_map; auto|].
    apply key_equal; eauto.
  - intros kk Hin. apply in_map_iff in Hin. destruct Hin as ([k0 v0] & <- & Hin). cbn [fst]. eapply T3; eauto.
  - intros k Kk. destruct (at_var_cases l k Hok Kk) as [(l1 & kk & vv & l2 & El & Hc & Ea)|(Hn & Ea)].
    + left. exists vv. split; auto.
      assert (Hin : In (kk, vv) l) by (rewrite El; apply in_app_iff; right; left; auto).
      destruct (T1 kk vv Hin) as (pre & k' & post & Eo & Hck & Hp).
      exists pre, k', post. split; auto. split.
      * apply key_equal; auto; [|congruence]. eapply ko. rewrite Eo. apply in_app_iff. right. left. eauto.
      * intros k'' v'' Hin' He. apply key_equal in He; auto.
        -- rewrite Forall_forall in Hp. apply (Hp (k'', v'') Hin'). cbn [fst]. congruence.
        -- eapply ko. rewrite Eo. apply in_app_iff. right. right. eauto.
    + right. split; auto. intros k' v' Hin He. apply key_equal in He; eauto.
      destruct (T2 k' v' Hin) as (kk & v2 & H1 & H2). rewrite Forall_forall in Hn.
      apply (Hn (kk, v2) H1). cbn [fst]. congruence.
Qed.
Example C24_example : let s x := VArr TChar [VChar x] in
  let ops := [(s 98, VInt 1); (s 97, VInt 2); (VInt 5, VInt 3); (s 98, VInt 4)] in
  Forall key (map fst ops) /\
  assigns (VNil, VNil) VNil ops = Ok (VMap [(s 97, VInt 2); (s 98, VInt 4); (VInt 5, VInt 3)]).
Proof.
  split; [|reflexivity]. repeat constructor; intros.
  all: try (apply (key_string [98]) || apply (key_string [97])).
  all: try (intros c H; simpl in H; intuition lia); try (intros H; simpl in H; intuition discriminate).
Qed.

(** * C25 *)
Theorem C25_order_independent : forall junk junk' ops ops', Forall key (map fst ops) -> distinct_keys (map fst ops) ->
  Permutation ops ops' -> assigns junk VNil ops = assigns junk' VNil ops'.
Proof.
  intros junk junk' ops ops' Hk Hd Hp.
  destruct ops as [|o ops]; [apply Permutation_nil in Hp; subst; reflexivity|].
  set (ops1 := o :: ops) in *. assert (N1 : ops1 <> []) by discriminate.
  assert (N2 : ops' <> []) by (intros ->; apply Permutation_sym, Permutation_nil in Hp; discriminate).
  assert (K1 : Forall (fun p => key (fst p)) ops1).
  { rewrite Forall_forall in *. intros p Hp'. apply Hk. apply in_map. auto. }
  assert (K2 : Forall (fun p => key (fst p)) ops').
  { rewrite Forall_forall in *. intros p Hp'. apply K1. eapply Permutation_in; [apply Permutation_sym; exact Hp|]; auto. }
  destruct (tracks_puts junk ops1 [] [] tracks_nil K1) as (l & E & [Hs Hok] & T1 & T2 & T3).
  destruct (tracks_puts junk' ops' [] [] tracks_nil K2) as (m & E' & [Hs' Hok'] & T1' & T2' & T3').
  rewrite !assigns_nil, E, E' by auto. cbn [obind app] in *. do 2 f_equal.
  (* in the assignments a code determines the entry *)
  assert (D : forall k v k' v', In (k, v) ops1 -> In (k', v') ops1 -> code k = code k' -> (k, v) = (k', v')).
  { clear - Hd K1. induction ops1 as [|[a b] o1]; intros k v k' v' H1 H2 Hc; [destruct H1|].
    cbn [map fst distinct_keys] in Hd. destruct Hd as [Hd1 Hd2]. inversion K1; subst. cbn [fst] in *.
    rewrite Forall_forall in H4.
    assert (KK : forall x y, In (x, y) o1 -> key x) by (intros x y Hin; apply (H4 (x, y) Hin)).
    destruct H1 as [H1|H1]; destruct H2 as [H2|H2].
    - congruence.
    - inversion H1; subst. exfalso. apply (Hd1 k'); [change k' with (fst (k', v')); apply in_map; auto|].
      apply key_equal; eauto.
    - inversion H2; subst. exfalso. apply (Hd1 k); [change k with (fst (k, v)); apply in_map; auto|].
      apply key_equal; eauto.
    - apply IHo1; auto. apply Forall_forall. auto. }
  assert (Q : forall os n, (forall kk v, In (kk, v) n -> exists pre k' post, os = pre ++ (k', v) :: post /\ code k' = code kk /\
                 Forall (fun p => code (fst p) <> code kk) post) ->
      (forall k v, In (k, v) os -> exists kk v', In (kk, v') n /\ code kk = code k) ->
      (forall kk v, In (kk, v) n -> In kk (map fst os)) ->
      (forall x, In x os <-> In x ops1) -> forall x, In x n <-> In x ops1).
  { intros os n A B C I [k v]. split; intros H.
    - destruct (A k v H) as (pre & k' & post & -> & Hc & _).
      pose proof (C k v H) as H1. apply in_map_iff in H1. destruct H1 as ([k1 v1] & Hk1 & H1). cbn [fst] in Hk1. subst k1.
      assert (H2 : In (k', v) (pre ++ (k', v) :: post)) by (apply in_app_iff; right; left; auto).
      apply I in H1. apply I in H2. pose proof (D _ _ _ _ H2 H1 Hc) as X. inversion X; subst. auto.
    - apply I in H. destruct (B k v H) as (kk & v' & H1 & H2).
      destruct (A kk v' H1) as (pre & k' & post & Eo & Hc & _).
      pose proof (C kk v' H1) as H3. apply in_map_iff in H3. destruct H3 as ([k1 v1] & Hk1 & H3). cbn [fst] in Hk1. subst k1.
      assert (H4 : In (k', v') os) by (rewrite Eo; apply in_app_iff; right; left; auto).
      apply I in H. apply I in H3. apply I in H4.
      pose proof (D _ _ _ _ H3 H H2) as X. pose proof (D _ _ _ _ H4 H3 Hc) as Y. inversion X; inversion Y; subst. auto. }
  apply sorted_perm_unique; auto.
  intros x. rewrite (Q ops1 l T1 T2 T3 (fun x => iff_refl _)).
  rewrite (Q ops' m T1' T2' T3').
  - tauto.
  - intros y. split; apply Permutation_in; auto. apply Permutation_sym; auto.
Qed.
Example C25_example : distinct_keys [VInt 2; VInt 1; VLong 2] /\
  assigns (VNil, VNil) VNil [(VInt 2, VInt 0); (VInt 1, VNil); (VLong 2, VInt 7)] =
  assigns (VNil, VNil) VNil [(VLong 2, VInt 7); (VInt 1, VNil); (VInt 2, VInt 0)].
Proof. split; [|reflexivity]. simpl. repeat split; intros k H; repeat (destruct H as [<-|H]; [discriminate|]); destruct H. Qed.

(** * C26 *)
Theorem C26_missing_key : forall junk l k, sorted_map l -> key k -> unbound l k ->
  at_var (RVar (VMap l)) k = Ok VNil /\
  exists l1 l2, l = l1 ++ l2 /\ map_index junk l k = Ok (l1 ++ (k, VNil) :: l2, Some (length l1)) /\
    sorted_map (l1 ++ (k, VNil) :: l2).
Proof.
  intros junk l k Hs Hk Hu. pose proof Hs as Hok. apply sorted_map_ok in Hok.
  assert (kl : forall kk v, In (kk, v) l -> key kk).
  { intros kk v Hin. destruct Hok as [_ F]. rewrite Forall_forall in F. apply (F (kk, v) Hin). }
  split.
  - destruct (at_var_cases l k Hok Hk) as [(l1 & kk & vv & l2 & El & Hc & Ea)|(Hn & Ea)]; auto.
    exfalso. assert (Hin : In (kk, vv) l) by (rewrite El; apply in_app_iff; right; left; auto).
    apply (Hu kk vv Hin). apply key_equal; eauto.
  - destruct (map_index_cases junk l k Hok Hk) as [(l1 & kk & vv & l2 & El & Hc & Ea)|(l1 & l2 & El & H1 & H2 & Ea)].
    + exfalso. assert (Hin : In (kk, vv) l) by (rewrite El; apply in_app_iff; right; left; auto).
      apply (Hu kk vv Hin). apply key_equal; eauto.
    + exists l1, l2. split; auto. split; auto. apply sorted_map_ok.
      eapply map_put_ok with (junk := junk) (l := l) (k := k) (v := VNil); auto.
      unfold map_put. rewrite Ea. cbn [obind]. rewrite nth_error_mid, set_nth_mid. reflexivity.
Qed.
Theorem C26_present_key : forall junk l k kk v, sorted_map l -> key k -> In (kk, v) l -> equal kk k ->
  at_var (RVar (VMap l)) k = Ok v /\
  exists i, map_index junk l k = Ok (l, Some i) /\ nth_error l i = Some (kk, v).
Proof.
  intros junk l k kk v Hs Hk Hin He. pose proof Hs as Hok. apply sorted_map_ok in Hok.
  assert (kl : forall kk v, In (kk, v) l -> key kk).
  { intros k0 v0 H0. destruct Hok as [_ F]. rewrite Forall_forall in F. apply (F (k0, v0) H0). }
  apply key_equal in He; eauto.
  assert (U : forall l1 k1 v1 l2, l = l1 ++ (k1, v1) :: l2 -> code k1 = code k -> (k1, v1) = (kk, v)).
  { intros l1 k1 v1 l2 El Hc. destruct Hok as [Hss _]. rewrite El in Hss, Hin.
    apply sorted_mid in Hss. destruct Hss as (_ & A & B). apply in_mid in Hin. destruct Hin as [->|Hin]; auto.
    exfalso. rewrite Forall_forall in A, B. apply in_app_iff in Hin. destruct Hin as [Hin|Hin].
    - specialize (A _ Hin). unfold clt in A. cbn [fst] in A. rewrite He, <- Hc, lex_refl in A. discriminate.
    - specialize (B _ Hin). unfold clt in B. cbn [fst] in B. rewrite He, <- Hc, lex_refl in B. discriminate. }
  split.
  - destruct (at_var_cases l k Hok Hk) as [(l1 & k1 & v1 & l2 & El & Hc & Ea)|(Hn & Ea)].
    + pose proof (U _ _ _ _ El Hc) as X. inversion X; subst. auto.
    + exfalso. rewrite Forall_forall in Hn. apply (Hn _ Hin). auto.
  - destruct (map_index_cases junk l k Hok Hk) as [(l1 & k1 & v1 & l2 & El & Hc & Ea)|(l1 & l2 & El & H1 & H2 & Ea)].
    + exists (length l1). split; auto. rewrite <- (U _ _ _ _ El Hc), El. apply nth_error_mid.
    + exfalso. rewrite Forall_forall in H1, H2. rewrite El in Hin. apply in_app_iff in Hin. destruct Hin as [Hin|Hin].
      * specialize (H1 _ Hin). cbn [fst] in H1. rewrite He, lex_refl in H1. discriminate.
      * specialize (H2 _ Hin). cbn [fst] in H2. rewrite He, lex_refl in H2. discriminate.
Qed.
Theorem C26_nil_key : forall junk l, map_index junk l VNil = Ok (l, None).
Proof. reflexivity. Qed.
Example C26_example : map_index (VNil, VNil) [(VInt 1, VInt 9)] (VInt 2) = Ok ([(VInt 1, VInt 9); (VInt 2, VNil)], Some 1%nat)
  /\ sorted_map [(VInt 1, VInt 9)] /\ unbound [(VInt 1, VInt 9)] (VInt 2).
Proof.
  split; [reflexivity|]. split; [split; repeat constructor|]. intros k v [H|[]]. inversion H. discriminate.
Qed.

(** * C27 *)
Theorem C27_nested_at_reads_outer : forall outer i k1 inner k2 j kk v,
  nth_error outer i = Some (k1, VMap inner) -> sorted_map inner -> key k2 ->
  nth_error inner j = Some (kk, v) -> equal kk k2 ->
  at_var (RRef outer i) k2 = match nth_error outer j with Some (_, w) => Ok w | None => UB OutOfBounds end.
Proof.
  intros outer i k1 inner k2 j kk v Hi Hs Hk Hj He.
  pose proof Hs as Hok. apply sorted_map_ok in Hok.
  destruct (nth_error_split inner j Hj) as (l1 & l2 & El & Hl).
  assert (Kk : key kk).
  { destruct Hok as [_ F]. rewrite Forall_forall in F. apply (F (kk, v)). eapply nth_error_In; eauto. }
  apply key_equal in He; auto.
  unfold at_var. cbn [recv_val]. rewrite (nth_error_nth outer i _ Hi). cbn [snd].
  assert (B : binary (map fst inner) k2 = Ok (Z.of_nat j)).
  { rewrite El, <- Hl. apply map_binary; auto.
    - rewrite <- El. apply Hok.
    - destruct Hok as [Hss _]. rewrite El in Hss. apply sorted_mid in Hss. destruct Hss as (_ & A & _).
      eapply Forall_impl; [|exact A]. intros q Hq. unfold clt in Hq. cbn [fst] in Hq. rewrite <- He. auto.
    - constructor; [cbn [fst]; rewrite He, lex_refl; discriminate|].
      destruct Hok as [Hss _]. rewrite El in Hss. apply sorted_mid in Hss. destruct Hss as (_ & _ & A).
      eapply Forall_impl; [|exact A]. intros q Hq. unfold clt in Hq. cbn [fst] in Hq. rewrite <- He.
      rewrite lex_antisym, Hq. discriminate. }
  rewrite B. cbn [obind].
  assert (j < length inner)%nat by (apply nth_error_Some; congruence).
  destruct (Z.leb_spec (Z.of_nat (length inner)) (Z.of_nat j)); [lia|].
  rewrite Nat2Z.id, Hj. rewrite key_neq_code by auto. rewrite He, lex_refl. cbn [is_eq negb obind].
  reflexivity.
Qed.
(** So m["a"].at("x") is not m["a"]["x"]. *)
Theorem C27_refuted : exists outer i k2 v, at_var (RRef outer i) k2 <> Ok v /\
  at_var (RVar (recv_val (RRef outer i))) k2 = Ok v /\ sorted_map outer.
Proof.
  exists [(VInt 1, VMap [(VInt 5, VInt 50)]); (VInt 2, VInt 7)], 0%nat, (VInt 5), (VInt 50).
  split; [discriminate|]. split; [reflexivity|]. split; repeat constructor.
Qed.

(** * C28 *)
Theorem C28_sort : forall v (P : val -> Prop) lt, Forall P (elems v) ->
  (forall x y, P x -> P y -> vlt x y = Ok (lt x y)) -> strict_weak P lt ->
  exists r, sort v = Ok (VArr TVar r) /\ Permutation (elems v) r /\
    StronglySorted (fun a b => lt b a = false) r.
Proof.
  intros v P lt Hv Hlt SW. unfold sort.
  destruct (sort_loop_ok P lt Hlt SW (elems v) [] Hv (Forall_nil _) (SSorted_nil _)) as (r & E & Hp & Hs & _).
  exists r. rewrite E. cbn [obind]. rewrite app_nil_r in Hp. auto.
Qed.
(** Numbers and strings, also mixed. *)
Theorem C28_sort_keys : forall v, Forall key (elems v) ->
  exists r, sort v = Ok (VArr TVar r) /\ Permutation (elems v) r /\ StronglySorted (fun a b => ~ less b a) r.
Proof.
  intros v Hv.
  destruct (C28_sort v key (fun a b => is_lt (lex (code a) (code b))) Hv) as (r & E & Hp & Hs).
  - intros. apply key_lt_code; auto.
  - constructor.
    + intros x _. rewrite lex_refl. reflexivity.
    + intros x y z _ _ _ A B. destruct (lex (code x) (code y)) eqn:E1; try discriminate.
      destruct (lex (code y) (code z)) eqn:E2; try discriminate. rewrite (lex_trans _ _ _ E1 E2). reflexivity.
    + intros x y z _ _ _ A. destruct (lex (code x) (code z)) eqn:E1; try discriminate.
      destruct (lex (code x) (code y)) eqn:E2; auto.
      * right. apply lex_eq in E2. rewrite <- E2, E1. reflexivity.
      * right. rewrite (lex_trans (code y) (code x) (code z)); auto. rewrite lex_antisym, E2. reflexivity.
  - exists r. split; auto. split; auto.
    assert (Hr : Forall key r).
    { rewrite Forall_forall in *. intros x Hx. apply Hv. eapply Permutation_in; [apply Permutation_sym; exact Hp|]; auto. }
    clear - Hs Hr. induction Hs; constructor; inversion Hr; subst; auto.
    rewrite Forall_forall in *. intros b Hb. unfold less. rewrite key_lt_code; auto. rewrite (H b Hb). discriminate.
Qed.
Example C28_example : sort (VArr TInt [VInt 3; VInt 1; VInt 2; VInt 1]) = Ok (VArr TVar [VInt 1; VInt 1; VInt 2; VInt 3]).
Proof. reflexivity. Qed.

(** * C29 *)
Theorem C29_index_first_match : forall v x, (forall l, v <> VMap l) -> Forall solid (elems v) -> solid x ->
  (exists i y, index v x = Ok (Z.of_nat i) /\ nth_error (elems v) i = Some y /\ equal y x /\
     forall j z, (j < i)%nat -> nth_error (elems v) j = Some z -> ~ equal z x) \/
  (index v x = Ok (-1) /\ forall y, In y (elems v) -> ~ equal y x).
Proof.
  intros v x Hm Hv Hx.
  assert (E : index v x = index_loop (elems v) 0 x) by (destruct v; try reflexivity; exfalso; eapply Hm; reflexivity).
  rewrite E. clear E Hm.
  assert (G : forall l s, Forall solid l ->
    (exists i y, index_loop l s x = Ok (s + Z.of_nat i) /\ nth_error l i = Some y /\ equal y x /\
       forall j z, (j < i)%nat -> nth_error l j = Some z -> ~ equal z x) \/
    (index_loop l s x = Ok (-1) /\ forall y, In y l -> ~ equal y x)).
  { induction l as [|y l]; intros s Hl.
    - right. split; auto.
    - inversion Hl; subst. cbn [index_loop].
      destruct (C21_equality_structural y x H1 Hx) as [[b Hb] _]. rewrite Hb. cbn [obind]. destruct b.
      + left. exists 0%nat, y. repeat split; auto; [f_equal; lia|]. intros; lia.
      + destruct (IHl (s + 1) H2) as [(i & z & A & B & C & D)|(A & B)].
        * left. exists (S i), z. repeat split; auto.
          -- rewrite A. f_equal. lia.
          -- intros [|j] w Hj Hw; [simpl in Hw; inversion Hw; subst; unfold equal; congruence|].
             apply (D j); auto; lia.
        * right. split; auto. intros w [<-|Hw]; [unfold equal; congruence|auto]. }
  destruct (G (elems v) 0 Hv) as [(i & y & A & B & C & D)|H]; [left|right; auto].
  exists i, y. auto.
Qed.
Theorem C29_index_map : forall l k, sorted_map l -> key k ->
  (exists i kk v, index (VMap l) k = Ok (Z.of_nat i) /\ nth_error l i = Some (kk, v) /\ equal kk k) \/
  (index (VMap l) k = Ok (-1) /\ unbound l k).
Proof.
  intros l k Hs Hk. pose proof Hs as [Hss Hl]%sorted_map_ok.
  destruct (map_split l k (conj Hss Hl)) as (l1 & l2 & -> & H1 & H2).
  pose proof (map_binary l1 l2 k Hl Hk H1 H2) as Hb.
  unfold index. rewrite Hb. cbn [obind].
  assert (kl : forall kk v, In (kk, v) (l1 ++ l2) -> key kk).
  { intros kk v Hin. rewrite Forall_forall in Hl. apply (Hl (kk, v) Hin). }
  destruct l2 as [|[kk vv] l2].
  - right. rewrite app_nil_r in *. rewrite Z.ltb_irrefl. split; auto.
    intros k' v' Hin He. apply key_equal in He; eauto. rewrite Forall_forall in H1. specialize (H1 _ Hin).
    cbn [fst] in H1. rewrite He, lex_refl in H1. discriminate.
  - rewrite app_length. cbn [length].
    destruct (Z.ltb_spec (Z.of_nat (length l1)) (Z.of_nat (length l1 + S (length l2)))); [|lia].
    rewrite Nat2Z.id, nth_error_mid.
    assert (Hkk : key kk) by (eapply kl; apply in_app_iff; right; left; eauto).
    rewrite key_eq_code by auto. cbn [obind].
    destruct (lex (code kk) (code k)) eqn:E; cbn [is_eq].
    + left. exists (length l1), kk, vv. split; auto. split; [apply nth_error_mid|].
      apply key_equal; auto. apply lex_eq; auto.
    + inversion H2; subst. cbn [fst] in *. congruence.
    + right. split; auto. intros k' v' Hin He. apply key_equal in He; eauto.
      apply in_mid in Hin. destruct Hin as [Hin|Hin].
      * inversion Hin; subst. rewrite He, lex_refl in E. discriminate.
      * apply sorted_mid in Hss. destruct Hss as (_ & A & B). rewrite Forall_forall in A, B.
        apply in_app_iff in Hin. destruct Hin as [Hin|Hin].
        -- rewrite Forall_forall in H1. specialize (H1 _ Hin). cbn [fst] in H1. rewrite He, lex_refl in H1. discriminate.
        -- specialize (B _ Hin). unfold clt in B. cbn [fst] in B. rewrite He in B. congruence.
Qed.
Example C29_example : index (VArr TInt [VInt 5; VInt 7; VInt 7]) (VInt 7) = Ok 1 /\ index (VMap [(VInt 3, VNil); (VInt 8, VNil)]) (VInt 8) = Ok 1
  /\ index (VInt 4) (VInt 5) = Ok (-1).
Proof. repeat split. Qed.

(** * C51: views compare by their descriptors *)
Theorem C51_views_ignore_data : forall d t l t' l', veq (VView d t l) (VView d t' l') = Ok true.
Proof.
  intros d t l t' l'. unfold veq. cbn [vneq vtype Z.eqb negb vsize]. unfold vsize. cbn [vtype Z.eqb hsize]. rewrite Z.eqb_refl. cbn [negb own_elems].
  induction d as [|x d IH]; cbn [map obind] in *; auto. cbn [vdefined negb]. cbn [scalar_neq]. rewrite Z.eqb_refl. cbn [negb]. exact IH.
Qed.
Theorem C51_different_descriptors : forall d d' t l t' l', length d = length d' -> d <> d' -> veq (VView d t l) (VView d' t' l') = Ok false.
Proof.
  intros d d' t l t' l' Hl Hd. unfold veq. cbn [vneq vtype Z.eqb negb]. destruct (vsize (VView d t l) =? vsize (VView d' t' l')); cbn [negb]; [|reflexivity].
  cbn [own_elems]. revert d' Hl Hd. induction d as [|x d IH]; intros [|y d'] Hl Hd; try discriminate; [congruence|]. cbn [map vdefined negb scalar_neq].
  destruct (Z.eqb_spec x y); cbn [negb]; [|reflexivity]. subst y. apply IH; [simpl in Hl; lia|congruence].
Qed.
(** So two views showing different numbers are equal and two showing the same are not. *)
Example C51_ex : veq (VView [0; 2; 1] TInt [VInt 1; VInt 2]) (VView [0; 2; 1] TInt [VInt 8; VInt 9]) = Ok true /\ veq (VView [0; 1; 1] TInt [VInt 5; VInt 5]) (VView [1; 1; 1] TInt [VInt 5; VInt 5]) = Ok false.
Proof. split; reflexivity. Qed.

Print Assumptions C19_strict_total_order.
Print Assumptions C19_equal_congruent.
Print Assumptions C20_lt_means_smaller_somewhere.
Print Assumptions C20_not_asymmetric.
Print Assumptions C20_not_transitive.
Print Assumptions C20_length_one.
Print Assumptions C21_equality_structural.
Print Assumptions C21_equivalence.
Print Assumptions C21_types_and_keys_ignored.
Print Assumptions C22_compare_nil.
Print Assumptions C23_binary_total.
Print Assumptions C23_binary_lower_bound.
Print Assumptions C23_binary_sorted_keys.
Print Assumptions C24_finite_map.
Print Assumptions C25_order_independent.
Print Assumptions C26_missing_key.
Print Assumptions C26_present_key.
Print Assumptions C26_nil_key.
Print Assumptions C27_nested_at_reads_outer.
Print Assumptions C27_refuted.
Print Assumptions C28_sort.
Print Assumptions C28_sort_keys.
Print Assumptions C29_index_first_match.
Print Assumptions C29_index_map.
