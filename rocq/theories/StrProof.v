(** Lemmas about split, join, strip. *)
From Coq Require Import ZArith Bool List Lia.
From Verif Require Import Base StrModel StrSpec.
Import ListNotations.
Local Open Scope Z_scope.

Lemma c_str_id : forall s, nul_free s -> c_str s = s.
Proof.
  induction s; simpl; intros H; auto.
  destruct (Z.eqb_spec a 0).
  - exfalso. apply H. left. auto.
  - f_equal. apply IHs. intros Hin. apply H. right. auto.
Qed.

Lemma nul_free_app : forall a b, nul_free (a ++ b) <-> nul_free a /\ nul_free b.
Proof. unfold nul_free. intros. rewrite in_app_iff. tauto. Qed.

Lemma prefixb_spec : forall p s, prefixb p s = true <-> exists t, s = p ++ t.
Proof.
  induction p; simpl; intros s.
  - split; eauto.
  - destruct s; [split; [discriminate|intros [t Ht]; discriminate]|].
    rewrite andb_true_iff, Z.eqb_eq, IHp. split.
    + intros [-> [t ->]]. eauto.
    + intros [t Ht]. inversion Ht. eauto.
Qed.

Lemma strstr_some : forall s p k, strstr s p = Some k ->
  exists post, s = firstn k s ++ p ++ post /\ (k <= length s)%nat /\
   forall pre post', s = pre ++ p ++ post' -> (k <= length pre)%nat.
Proof.
  induction s; simpl; intros p k H.
  - destruct (prefixb p []) eqn:E; [|discriminate]. inversion H; subst.
    apply prefixb_spec in E. destruct E as [t Ht]. exists t. repeat split; simpl; auto.
    intros; lia.
  - destruct (prefixb p (a :: s)) eqn:E.
    + inversion H; subst. apply prefixb_spec in E. destruct E as [t Ht].
      exists t. repeat split; simpl; auto; intros; lia.
    + destruct (strstr s p) as [k'|] eqn:E'; [|discriminate]. simpl in H. inversion H; subst.
      destruct (IHs p k' E') as (post & H1 & H2 & H3).
      exists post. simpl. repeat split; try lia.
      * f_equal. exact H1.
      * intros pre post' Hs. destruct pre as [|b pre].
        -- exfalso. assert (prefixb p (a :: s) = true) by (apply prefixb_spec; eauto). congruence.
        -- simpl. inversion Hs. specialize (H3 pre post' ltac:(assumption)). lia.
Qed.

Lemma strstr_none : forall s p, strstr s p = None -> ~ occurs p s.
Proof.
  induction s; simpl; intros p H [pre [post Hs]].
  - destruct (prefixb p []) eqn:E; [discriminate|].
    symmetry in Hs. apply app_eq_nil in Hs. destruct Hs as [_ Hs]. apply app_eq_nil in Hs. destruct Hs; subst.
    simpl in E. discriminate.
  - destruct (prefixb p (a :: s)) eqn:E; [discriminate|].
    destruct (strstr s p) eqn:E'; [discriminate|].
    destruct pre as [|b pre].
    + assert (prefixb p (a :: s) = true) by (apply prefixb_spec; eauto). congruence.
    + inversion Hs; subst. apply (IHs p E'). exists pre, post. auto.
Qed.

Lemma leftmost_of_strstr : forall s p k, p <> [] -> strstr s p = Some k -> leftmost p (firstn k s).
Proof.
  intros s p k Hp H pre post Heq.
  destruct (strstr_some s p k H) as (post0 & H1 & H2 & H3).
  assert (Hl : (k <= length pre)%nat).
  { apply (H3 pre (post ++ post0)). rewrite H1 at 1. rewrite app_assoc, Heq.
    rewrite !app_assoc. reflexivity. }
  assert (Hlen : length (firstn k s ++ p) = length (pre ++ p ++ post)) by congruence.
  rewrite !app_length, firstn_length_le in Hlen by auto.
  destruct post; auto. simpl in Hlen. lia.
Qed.

Lemma glue_cons : forall sep x l, l <> [] -> glue sep (x :: l) = x ++ sep ++ glue sep l.
Proof. intros. destruct l; [congruence|]. reflexivity. Qed.

(** Unlimited split. *)
Lemma split_loop_unl : forall f sep source r, sep <> [] -> (length source < f)%nat ->
  exists ps last, split_loop f sep 0 source r = Ok (r ++ ps, last) /\
    source = glue sep (ps ++ [last]) /\ Forall (leftmost sep) ps /\ ~ occurs sep last.
Proof.
  induction f; intros sep source r Hsep Hf; [lia|].
  cbn [split_loop]. destruct (strstr source sep) as [k|] eqn:E.
  - destruct (strstr_some _ _ _ E) as (post & H1 & H2 & H3).
    cbn [negb andb Z.eqb].
    assert (Hsk : skipn (k + length sep) source = post).
    { rewrite H1 at 1. rewrite app_assoc, skipn_app.
      rewrite skipn_all2 by (rewrite app_length, firstn_length_le by auto; lia).
      rewrite app_length, firstn_length_le by auto. replace (k + length sep - (k + length sep))%nat with 0%nat by lia. reflexivity. }
    rewrite Hsk.
    assert (Hlen : (length post < f)%nat).
    { assert (length source = k + length sep + length post)%nat.
      { rewrite H1 at 1. rewrite !app_length, firstn_length_le by auto. lia. }
      destruct sep; [congruence|]. simpl in *. lia. }
    destruct (IHf sep post (r ++ [firstn k source]) Hsep Hlen) as (ps & last & Hr & Hg & Hl & Hn).
    exists (firstn k source :: ps), last. split; [|split; [|split]].
    + change (negb (0 =? 0)) with false. cbn [andb]. rewrite Hr, <- app_assoc. reflexivity.
    + rewrite <- app_comm_cons, glue_cons by (destruct ps; discriminate). rewrite H1 at 1. rewrite Hg. reflexivity.
    + constructor; auto. eapply leftmost_of_strstr; eauto.
    + auto.
  - exists [], source. rewrite app_nil_r. repeat split; auto. apply strstr_none. auto.
Qed.

Lemma split_loop_lim : forall f sep source r n, sep <> [] -> (length source < f)%nat ->
  2 <= n -> Z.of_nat (length r) < n - 1 ->
  forall ps last, split_loop f sep 0 source r = Ok (r ++ ps, last) -> source = glue sep (ps ++ [last]) ->
  let k := Z.to_nat (n - 1 - Z.of_nat (length r)) in
  split_loop f sep n source r =
   if (length ps <? k)%nat then Ok (r ++ ps, last)
   else Ok (r ++ firstn k ps, glue sep (skipn k (ps ++ [last]))).
Proof.
  induction f; intros sep source r n Hsep Hf Hn Hr ps last Hu Hg k; [lia|].
  cbn [split_loop] in *. destruct (strstr source sep) as [j|] eqn:E.
  - destruct (strstr_some _ _ _ E) as (post & H1 & H2 & H3).
    assert (Hsk : skipn (j + length sep) source = post).
    { rewrite H1 at 1. rewrite app_assoc, skipn_app.
      rewrite skipn_all2 by (rewrite app_length, firstn_length_le by auto; lia).
      rewrite app_length, firstn_length_le by auto. replace (j + length sep - (j + length sep))%nat with 0%nat by lia. reflexivity. }
    rewrite Hsk in *.
    assert (Hlen : (length post < f)%nat).
    { assert (length source = j + length sep + length post)%nat.
      { rewrite H1 at 1. rewrite !app_length, firstn_length_le by auto. lia. }
      destruct sep; [congruence|]. simpl in *. lia. }
    change (negb (0 =? 0)) with false in Hu. cbn [andb] in Hu.
    destruct (split_loop_unl f sep post (r ++ [firstn j source]) Hsep Hlen) as (ps' & last' & Hr' & Hg' & _ & _).
    rewrite Hr' in Hu. inversion Hu as [[He Hl]]. subst last'.
    rewrite <- app_assoc in He. apply app_inv_head in He. simpl in He. subst ps.
    destruct (Z.eqb_spec n 0); [lia|]. cbn [negb andb].
    rewrite app_length. simpl length.
    destruct (Z.leb_spec (n - 1) (Z.of_nat (length r + 1))).
    + (* limit reached *)
      assert (k = 1%nat) by (unfold k; lia). rewrite H0. simpl. rewrite <- Hg'. reflexivity.
    + specialize (IHf sep post (r ++ [firstn j source]) n Hsep Hlen Hn).
      rewrite app_length in IHf. simpl length in IHf.
      specialize (IHf ltac:(lia) ps' last Hr' Hg').
      cbv zeta in IHf. rewrite IHf.
      assert (Hk : k = S (Z.to_nat (n - 1 - Z.of_nat (length r + 1)))) by (unfold k; lia).
      rewrite Hk. set (k' := Z.to_nat (n - 1 - Z.of_nat (length r + 1))).
      simpl length. change (S (length ps') <? S k')%nat with (length ps' <? k')%nat.
      destruct (length ps' <? k')%nat; simpl; rewrite <- app_assoc; reflexivity.
  - inversion Hu as [[He Hl]]. rewrite <- (app_nil_r r) in He at 1. apply app_inv_head in He. subst ps last.
    destruct (Nat.ltb_spec (length (@nil str)) k); [rewrite app_nil_r; auto|]. simpl in H. unfold k in H. lia.
Qed.

Lemma glue_app1 : forall sep l x, l <> [] -> glue sep (l ++ [x]) = glue sep l ++ sep ++ x.
Proof.
  induction l; intros x H; [congruence|]. destruct l as [|b l].
  - reflexivity.
  - rewrite <- app_comm_cons, glue_cons by (destruct l; discriminate).
    rewrite IHl by discriminate. rewrite (glue_cons sep a (b :: l)) by discriminate.
    rewrite <- !app_assoc. reflexivity.
Qed.

(** Splitting by the empty separator. *)
Lemma strstr_nil : forall s, strstr s [] = Some 0%nat.
Proof. destruct s; reflexivity. Qed.

Lemma split_empty_diverges : forall f source r, split_loop f [] 0 source r = Fuel.
Proof.
  induction f; intros; auto. cbn [split_loop]. rewrite strstr_nil. simpl.
  change (negb (0 =? 0)) with false. cbn [andb]. apply IHf.
Qed.

(** The dense insertion loop. *)
Lemma set_nth_length : forall A (l : list A) i x, length (set_nth l i x) = length l.
Proof. induction l; destruct i; simpl; intros; auto. Qed.

Lemma set_nth_app2 : forall A (a b : list A) x i, (length a <= i)%nat ->
  set_nth (a ++ b) i x = a ++ set_nth b (i - length a) x.
Proof.
  induction a; simpl; intros; [rewrite Nat.sub_0_r; auto|].
  destruct i; [lia|]. simpl. f_equal. apply IHa. lia.
Qed.

Lemma set_nth_app1 : forall A (a b : list A) x i, (i < length a)%nat ->
  set_nth (a ++ b) i x = set_nth a i x ++ b.
Proof.
  induction a; simpl; intros; [lia|]. destruct i; simpl; auto. f_equal. apply IHa. lia.
Qed.

Lemma set_nth_mid : forall A (a b : list A) x y, set_nth (a ++ y :: b) (length a) x = a ++ x :: b.
Proof. intros. rewrite set_nth_app2 by lia. rewrite Nat.sub_diag. reflexivity. Qed.

Lemma nth_set_nth : forall A (l : list A) i j x d,
  nth j (set_nth l i x) d = if (j =? i)%nat && (i <? length l)%nat then x else nth j l d.
Proof.
  induction l; simpl; intros.
  - destruct i; simpl; destruct j; rewrite ?andb_false_r; reflexivity.
  - destruct i.
    + destruct j; reflexivity.
    + destruct j; simpl; auto. rewrite IHl. reflexivity.
Qed.

(** Extensionality on lists by nth. *)
Lemma list_ext : forall A (d : A) a b, length a = length b ->
  (forall i, (i < length a)%nat -> nth i a d = nth i b d) -> a = b.
Proof.
  induction a; destruct b; simpl; intros; try lia; auto.
  f_equal; [apply (H0 0%nat); lia|]. apply IHa; [lia|]. intros i Hi. apply (H0 (S i)). lia.
Qed.

Lemma shift_up_length : forall A n (a : list A) k i lo d, length (shift_up a k i lo d n) = length a.
Proof. induction n; simpl; intros; auto. rewrite IHn, set_nth_length. auto. Qed.

(** n steps starting at i: cells i, i-1, ..., i-n+1 receive the cell k below. *)
Lemma shift_up_nth : forall A n (a : list A) k i lo d j, (n <= i + 1 - k)%nat -> (i < length a)%nat ->
  (1 <= k)%nat ->
  nth j (shift_up a k i lo d n) d =
   if (i + 1 - n <=? j)%nat && (j <=? i)%nat then nth (j - k) a d else nth j a d.
Proof.
  induction n; intros a k i lo d j Hn Hi Hk1.
  - simpl. rewrite Nat.sub_0_r.
    destruct (Nat.leb_spec (i+1) j); simpl; auto. destruct (Nat.leb_spec j i); auto. lia.
  - simpl. destruct n as [|n].
    + simpl. rewrite nth_set_nth. destruct (Nat.eqb_spec j i).
      * subst. destruct (Nat.ltb_spec i (length a)); [|lia]. simpl.
        replace (i + 1 - 1)%nat with i by lia. rewrite Nat.leb_refl. reflexivity.
      * simpl. destruct (Nat.leb_spec (i+1-1) j); simpl; auto. destruct (Nat.leb_spec j i); auto. lia.
    + rewrite IHn by (rewrite ?set_nth_length; lia).
      rewrite !nth_set_nth.
      destruct (Nat.leb_spec (i - 1 + 1 - S n) j); destruct (Nat.leb_spec j (i-1)); cbn [andb].
      * destruct (Nat.leb_spec (i+1-S (S n)) j); [|lia]. destruct (Nat.leb_spec j i); [|lia]. cbn [andb].
        destruct (Nat.eqb_spec (j-k) i); [lia|]. reflexivity.
      * destruct (Nat.leb_spec (i+1-S (S n)) j); [|lia]. destruct (Nat.leb_spec j i); cbn [andb].
        -- assert (j = i) by lia. subst. rewrite Nat.eqb_refl. destruct (Nat.ltb_spec i (length a)); [reflexivity|lia].
        -- destruct (Nat.eqb_spec j i); [lia|]. reflexivity.
      * destruct (Nat.leb_spec (i+1-S (S n)) j); [lia|]. cbn [andb].
        destruct (Nat.eqb_spec j i); [lia|]. reflexivity.
      * lia.
Qed.

Lemma copy_in_length : forall A (x a : list A) i, length (copy_in a x i) = length a.
Proof. induction x; simpl; intros; auto. rewrite IHx, set_nth_length. auto. Qed.

Lemma copy_in_nth : forall A (x a : list A) i d j, (i + length x <= length a)%nat ->
  nth j (copy_in a x i) d = if (i <=? j)%nat && (j <? i + length x)%nat then nth (j - i) x d else nth j a d.
Proof.
  induction x; intros b i d j H; simpl in *.
  - destruct (Nat.leb_spec i j); destruct (Nat.ltb_spec j (i+0)); simpl; auto; lia.
  - rewrite IHx by (rewrite set_nth_length; lia). rewrite nth_set_nth.
    destruct (Nat.leb_spec (S i) j); destruct (Nat.ltb_spec j (S i + length x)); cbn [andb].
    + destruct (Nat.leb_spec i j); [|lia]. destruct (Nat.ltb_spec j (i + S (length x))); [|lia]. cbn [andb].
      replace (j - i)%nat with (S (j - S i)) by lia. reflexivity.
    + destruct (Nat.eqb_spec j i); [lia|]. cbn [andb].
      destruct (Nat.ltb_spec j (i + S (length x))); [lia|]. rewrite andb_false_r. reflexivity.
    + destruct (Nat.eqb_spec j i).
      * subst. destruct (Nat.ltb_spec i (length b)); [|lia]. rewrite Nat.leb_refl.
        destruct (Nat.ltb_spec i (i + S (length x))); [|lia]. cbn [andb]. rewrite Nat.sub_diag. reflexivity.
      * cbn [andb]. destruct (Nat.leb_spec i j); [lia|]. reflexivity.
    + lia.
Qed.

Lemma dense_insert_spec : forall A (junk : A) a x i, (i <= length a)%nat ->
  dense_insert junk a x i = firstn i a ++ x ++ skipn i a.
Proof.
  intros A junk a x i Hi. unfold dense_insert.
  set (n := length a). set (k := length x).
  destruct x as [|x0 xs].
  - simpl in k. subst k. simpl. rewrite app_nil_r, Nat.add_0_r.
    assert (H0 : forall m (b : list A) j, length b = n -> (j < n \/ m = 0)%nat -> (m <= j + 1)%nat -> shift_up b 0 j i junk m = b).
    { induction m; simpl; intros b j Hb Hj Hm; auto. rewrite Nat.sub_0_r.
      assert (Hset : set_nth b j (nth j b junk) = b).
      { apply (list_ext _ junk); rewrite set_nth_length; auto. intros t Ht. rewrite nth_set_nth.
        destruct (Nat.eqb_spec t j); simpl; subst; auto. destruct (Nat.ltb_spec j (length b)); auto. }
      rewrite Hset. apply IHm; auto; lia. }
    rewrite H0; auto.
    + unfold n. rewrite firstn_skipn. reflexivity.
    + unfold n. destruct a; simpl in *; lia.
    + unfold n in *. lia.
  - set (x := x0 :: xs) in *. assert (Hk : (1 <= k)%nat) by (unfold k, x; simpl; lia).
    assert (Hn : n = length a) by reflexivity. assert (Hk' : k = length x) by reflexivity.
    set (b := a ++ repeat junk k).
    assert (Hb : length b = (n + k)%nat) by (unfold b; rewrite app_length, repeat_length; lia).
    apply (list_ext _ junk).
    + rewrite copy_in_length, shift_up_length, Hb, !app_length, firstn_length_le, skipn_length by lia. lia.
    + intros j Hj. rewrite copy_in_length, shift_up_length, Hb in Hj.
      rewrite copy_in_nth by (rewrite shift_up_length, Hb; fold k; lia). fold k.
      rewrite shift_up_nth by lia.
      destruct (Nat.leb_spec i j); destruct (Nat.ltb_spec j (i + k)); cbn [andb].
      * rewrite app_nth2 by (rewrite firstn_length_le; lia). rewrite firstn_length_le by lia.
        rewrite app_nth1 by (fold k; lia). reflexivity.
      * rewrite app_nth2 by (rewrite firstn_length_le; lia). rewrite firstn_length_le by lia.
        rewrite app_nth2 by (fold k; lia). fold k.
        destruct (Nat.leb_spec (n + k - 1 + 1 - (n - i)) j); [|lia].
        destruct (Nat.leb_spec j (n + k - 1)); [|lia]. cbn [andb].
        unfold b. rewrite app_nth1 by lia.
        rewrite <- (firstn_skipn i a) at 1. rewrite app_nth2 by (rewrite firstn_length_le; lia).
        rewrite firstn_length_le by lia. f_equal. lia.
      * destruct (Nat.leb_spec (n + k - 1 + 1 - (n - i)) j); [lia|]. cbn [andb].
        rewrite app_nth1 by (rewrite firstn_length_le; lia).
        unfold b. rewrite app_nth1 by lia.
        rewrite <- (firstn_skipn i a) at 1. rewrite app_nth1 by (rewrite firstn_length_le; lia). reflexivity.
      * lia.
Qed.

Lemma join_loop_spec : forall l sep r, join_loop false sep l r = r ++ concat (map (fun x => sep ++ x) l).
Proof.
  induction l; intros; simpl; [rewrite app_nil_r; auto|].
  rewrite !dense_insert_spec by lia. rewrite !firstn_all, !skipn_all, !app_nil_r.
  rewrite IHl. rewrite <- !app_assoc. reflexivity.
Qed.

Lemma glue_concat : forall sep x l, glue sep (x :: l) = x ++ concat (map (fun y => sep ++ y) l).
Proof.
  intros sep x l. revert x. induction l; intros; [simpl; rewrite app_nil_r; auto|].
  rewrite glue_cons by discriminate. rewrite IHl. simpl. rewrite <- app_assoc. reflexivity.
Qed.

Lemma join_spec : forall l sep, nul_free sep -> join l sep = glue sep l.
Proof.
  intros l sep H. unfold join. rewrite c_str_id by auto.
  destruct l; [reflexivity|]. cbn [join_loop]. rewrite dense_insert_spec by (simpl; lia).
  simpl firstn. simpl skipn. rewrite app_nil_r. simpl app.
  rewrite join_loop_spec, glue_concat. reflexivity.
Qed.

(** Whitespace. *)
Lemma isspace_white : forall c, isspace c = true <-> white c.
Proof.
  intros c. unfold isspace, white. simpl. rewrite orb_true_iff, andb_true_iff, Z.eqb_eq, !Z.leb_le. split; intros H.
  - assert (c = 32 \/ c = 9 \/ c = 10 \/ c = 11 \/ c = 12 \/ c = 13) by lia. intuition.
  - intuition; lia.
Qed.
Lemma isspace_not_white : forall c, isspace c = false <-> ~ white c.
Proof. intros. rewrite <- isspace_white. destruct (isspace c); split; intros; congruence. Qed.

Lemma skip_space_spec : forall p, exists a, p = a ++ skip_space p /\ all_white a /\
  (skip_space p = [] \/ exists c t, skip_space p = c :: t /\ ~ white c).
Proof.
  induction p as [|c p]; simpl.
  - exists []. repeat split; auto. intros c [].
  - destruct (isspace c) eqn:E.
    + destruct IHp as (a & H1 & H2 & H3). exists (c :: a). simpl. split; [f_equal; auto|]. split; auto.
      intros d [<-|Hd]; [apply isspace_white; auto|auto].
    + exists []. simpl. repeat split; [intros d []|]. right. exists c, p. split; auto. apply isspace_not_white. auto.
Qed.

Lemma take_word_spec : forall p w r, take_word p = (w, r) -> p = w ++ r /\ no_white w /\
  (r = [] \/ exists c t, r = c :: t /\ white c).
Proof.
  induction p as [|c p]; simpl; intros w r H.
  - inversion H; subst. repeat split; auto. intros c [].
  - destruct (isspace c) eqn:E.
    + inversion H; subst. repeat split; [intros d []|]. right. exists c, p. split; auto. apply isspace_white; auto.
    + destruct (take_word p) as [w' r'] eqn:E'. inversion H; subst.
      destruct (IHp w' r eq_refl) as (H1 & H2 & H3). subst p. repeat split; auto.
      intros d [<-|Hd]; [apply isspace_not_white; auto|auto].
Qed.

Lemma words_skip : forall a p ws, all_white a -> words p ws -> words (a ++ p) ws.
Proof.
  intros a p ws Ha H. inversion H; subst.
  - apply words_none. intros c Hc. apply in_app_iff in Hc. destruct Hc; auto.
  - rewrite app_assoc. apply words_one; auto. intros c Hc. apply in_app_iff in Hc. destruct Hc; auto.
Qed.

(** A non-white suffix start. *)
Definition at_word (p : str) : Prop := p = [] \/ exists c t, p = c :: t /\ ~ white c.

Lemma wsplit_step : forall p, p <> [] -> at_word p ->
  exists w r a q, take_word p = (w, r) /\ w <> [] /\ no_white w /\ r = a ++ q /\ q = skip_space r /\ all_white a /\ at_word q /\
     (r = [] \/ exists c t, r = c :: t /\ white c) /\
     p = w ++ r /\ (length q < length p)%nat.
Proof.
  intros p Hp Hw. destruct Hw as [Hw|(c & t & -> & Hc)]; [congruence|].
  destruct (take_word (c :: t)) as [w r] eqn:E.
  destruct (take_word_spec _ _ _ E) as (H1 & H2 & H3).
  destruct (skip_space_spec r) as (a & Ha & Hb & Hd).
  exists w, r, a, (skip_space r).
  assert (w <> []).
  { intros ->. simpl in H1. destruct H3 as [->|(c' & t' & -> & Hc')]; [discriminate|]. inversion H1; subst. auto. }
  repeat split; auto.
  rewrite H1. rewrite Ha at 2. rewrite !app_length. destruct w; [congruence|]. simpl. lia.
Qed.

Lemma wsplit_loop_unl : forall f p r, (length p < f)%nat -> at_word p ->
  exists ws, wsplit_loop f 0 p r = Ok (r ++ ws) /\ words p ws.
Proof.
  induction f; intros p r Hf Hp; [lia|]. cbn [wsplit_loop].
  destruct p as [|c t] eqn:Ep.
  - exists []. rewrite app_nil_r. split; auto. apply words_none. intros c [].
  - rewrite <- Ep in *. assert (Hne : p <> []) by (rewrite Ep; discriminate).
    destruct (wsplit_step p Hne Hp) as (w & rr & a & q & Ht & Hw & Hnw & Hr & Hq & Ha & Hat & Hrw & Hpe & Hl).
    rewrite Ht. cbv zeta. rewrite <- Hq.
    replace (match w with [] => r | _ :: _ => r ++ [w] end) with (r ++ [w]) by (destruct w; [congruence|reflexivity]).
    change (negb (0 =? 0)) with false. cbn [andb].
    destruct (IHf q (r ++ [w]) ltac:(lia) Hat) as (ws & H1 & H2).
    exists (w :: ws). rewrite H1. rewrite <- app_assoc. split; auto.
    rewrite Hpe. change (w ++ rr) with ([] ++ w ++ rr). apply words_one; auto.
    + intros x [].
    + rewrite Hr. apply words_skip; auto.
Qed.

(** [words] is functional. *)
Lemma words_white_nil : forall s ws, words s ws -> all_white s -> ws = [].
Proof.
  intros s ws H Hs. inversion H; subst; auto. exfalso.
  destruct w as [|c w]; [congruence|].
  apply (H2 c); [left; auto|]. apply Hs. apply in_app_iff. right. left. auto.
Qed.

Lemma split_first_nonwhite : forall a a' x y, all_white a -> all_white a' -> at_word x -> at_word y -> x <> [] -> y <> [] ->
  a ++ x = a' ++ y -> a = a' /\ x = y.
Proof.
  induction a as [|c a]; intros a' x y Ha Ha' Hx Hy Hxn Hyn H.
  - destruct a' as [|c' a']; auto. simpl in H. destruct Hx as [|(d & t & -> & Hd)]; [congruence|].
    inversion H; subst. exfalso. apply Hd. apply Ha'. left. auto.
  - destruct a' as [|c' a'].
    + simpl in H. destruct Hy as [|(d & t & -> & Hd)]; [congruence|].
      inversion H; subst. exfalso. apply Hd. apply Ha. left. auto.
    + simpl in H. inversion H; subst. destruct (IHa a' x y) as [-> ->]; auto.
      * intros d Hd. apply Ha. right. auto.
      * intros d Hd. apply Ha'. right. auto.
Qed.

Lemma split_word : forall w w' r r', no_white w -> no_white w' ->
  (r = [] \/ exists c t, r = c :: t /\ white c) -> (r' = [] \/ exists c t, r' = c :: t /\ white c) ->
  w ++ r = w' ++ r' -> w = w' /\ r = r'.
Proof.
  induction w as [|c w]; intros w' r r' Hw Hw' Hr Hr' H.
  - destruct w' as [|c' w']; auto. simpl in H. destruct Hr as [->|(d & t & -> & Hd)]; [discriminate|].
    inversion H; subst. exfalso. apply (Hw' c'); auto. left. auto.
  - destruct w' as [|c' w'].
    + simpl in H. destruct Hr' as [->|(d & t & -> & Hd)]; [discriminate|].
      inversion H; subst. exfalso. apply (Hw d); auto. left. auto.
    + simpl in H. inversion H; subst. destruct (IHw w' r r') as [-> ->]; auto.
      * intros d Hd. apply Hw. right. auto.
      * intros d Hd. apply Hw'. right. auto.
Qed.

Lemma words_fun : forall s ws, words s ws -> forall ws', words s ws' -> ws = ws'.
Proof.
  induction 1; intros ws' H'.
  - symmetry. eapply words_white_nil; eauto.
  - inversion H'; subst.
    + exfalso. destruct w as [|c w]; [congruence|]. apply (H1 c); [left; auto|]. apply H4.
      apply in_app_iff. right. left. auto.
    + assert (at_word (w ++ rest)).
      { destruct w as [|c w]; [congruence|]. right. exists c, (w ++ rest). split; auto. apply H1. left; auto. }
      assert (at_word (w0 ++ rest0)).
      { destruct w0 as [|c w0]; [congruence|]. right. exists c, (w0 ++ rest0). split; auto. apply H7. left; auto. }
      destruct (split_first_nonwhite a0 a (w0 ++ rest0) (w ++ rest)) as [-> He]; auto.
      { destruct w0; [congruence|discriminate]. }
      { destruct w; [congruence|discriminate]. }
      destruct (split_word _ _ _ _ H7 H1 H8 H2 He) as [-> ->].
      f_equal. auto.
Qed.

(** Limited whitespace split. *)
Lemma wsplit_loop_lim : forall f p r n ws, (length p < f)%nat -> at_word p -> words p ws ->
  2 <= n -> Z.of_nat (length r) < n - 1 ->
  let k := Z.to_nat (n - 1 - Z.of_nat (length r)) in
  if (length ws <=? k)%nat then wsplit_loop f n p r = Ok (r ++ ws)
  else exists rest, wsplit_loop f n p r = Ok (r ++ firstn k ws ++ [rest]) /\ at_word rest /\ words rest (skipn k ws) /\
        exists front, p = front ++ rest.
Proof.
  induction f; intros p r n ws Hf Hp Hws Hn Hr k; [lia|]. cbn [wsplit_loop].
  destruct p as [|c t] eqn:Ep.
  - assert (ws = []) by (eapply words_white_nil; eauto; intros ? []). subst ws. simpl. rewrite app_nil_r. auto.
  - rewrite <- Ep in *. assert (Hne : p <> []) by (rewrite Ep; discriminate).
    destruct (wsplit_step p Hne Hp) as (w & rr & a & q & Ht & Hw & Hnw & Hrr & Hq & Ha & Hat & Hrw & Hpe & Hl).
    rewrite Ht. cbv zeta. rewrite <- Hq.
    assert (Hwsq : exists wq, words q wq).
    { destruct (wsplit_loop_unl (S (length q)) q [] ltac:(lia) Hat) as (wq & _ & ?). eauto. }
    destruct Hwsq as [wq Hwq].
    assert (ws = w :: wq).
    { eapply words_fun; [exact Hws|]. rewrite Hpe. change (w ++ rr) with ([] ++ w ++ rr). apply words_one; auto.
      - intros x [].
      - rewrite Hrr. apply words_skip; auto. }
    subst ws.
    replace (match w with [] => r | _ :: _ => r ++ [w] end) with (r ++ [w]) by (destruct w; [congruence|reflexivity]).
    destruct (Z.eqb_spec n 0); [lia|]. cbn [negb andb].
    rewrite app_length. cbn [length].
    destruct (Z.leb_spec (n - 1) (Z.of_nat (length r + 1))).
    + assert (Hk : k = 1%nat) by (unfold k; lia). rewrite Hk.
      destruct q as [|q0 q'] eqn:Eq.
      * assert (wq = []) by (eapply words_white_nil; eauto; intros ? []). subst wq. simpl.
        destruct f; [lia|]. reflexivity.
      * rewrite <- Eq in *.
        destruct wq as [|x wq].
        { exfalso. inversion Hwq; subst. destruct Hat as [|(d & tt & Hd & Hnd)]; [congruence|].
          apply Hnd. apply H0. rewrite Hd. left. auto. }
        simpl. exists q. rewrite <- app_assoc. repeat split; auto.
        exists (w ++ a). rewrite Hpe, Hrr, app_assoc. reflexivity.
    + specialize (IHf q (r ++ [w]) n wq ltac:(lia) Hat Hwq Hn).
      rewrite app_length in IHf. cbn [length] in IHf. specialize (IHf ltac:(lia)).
      cbv zeta in IHf.
      assert (Hk : k = S (Z.to_nat (n - 1 - Z.of_nat (length r + 1)))) by (unfold k; lia).
      rewrite Hk. set (k' := Z.to_nat (n - 1 - Z.of_nat (length r + 1))) in *.
      change (S (length wq) <=? S k')%nat with (length wq <=? k')%nat.
      destruct (length wq <=? k')%nat.
      * rewrite IHf. rewrite <- app_assoc. reflexivity.
      * destruct IHf as (rest & H1 & H2 & H3 & front & H4). exists rest. rewrite H1. split; [|split; [|split]]; auto.
        -- cbn [firstn]. rewrite <- app_assoc. reflexivity.
        -- exists (w ++ a ++ front). rewrite Hpe, Hrr, H4, <- !app_assoc. reflexivity.
Qed.

(** A limit of 1 (or a negative one) acts like 2. *)
Lemma wsplit_loop_low : forall f p r n, n <= 1 -> n <> 0 -> (r <> [] \/ at_word p) ->
  (length p < f)%nat -> wsplit_loop f n p r = wsplit_loop f 2 p r.
Proof.
  intros f p r n Hn Hn0 Hc Hf. destruct f; [lia|]. cbn [wsplit_loop]. destruct p as [|c t] eqn:Ep; auto.
  rewrite <- Ep in *. destruct (take_word p) as [w rr] eqn:Ht.
  set (r' := match w with [] => r | _ :: _ => r ++ [w] end).
  assert (Hr' : (1 <= length r')%nat).
  { unfold r'. destruct w.
    - destruct Hc as [Hc|Hc]; [destruct r; [congruence|simpl; lia]|].
      destruct (wsplit_step p ltac:(rewrite Ep; discriminate) Hc) as (w2 & ? & ? & ? & Ht2 & Hw2 & _).
      rewrite Ht in Ht2. inversion Ht2; subst. congruence.
    - rewrite app_length. simpl. lia. }
  destruct (Z.eqb_spec n 0); [lia|]. cbn [negb andb].
  destruct (Z.leb_spec (n-1) (Z.of_nat (length r'))); [|lia].
  change (negb (2 =? 0)) with true. cbn [andb].
  destruct (Z.leb_spec (2-1) (Z.of_nat (length r'))); [|lia].
  destruct (skip_space rr); [|reflexivity].
  destruct f; reflexivity.
Qed.

(** Strip. *)
Lemma count_space_split : forall a t, all_white a -> (t = [] \/ exists c u, t = c :: u /\ ~ white c) ->
  count_space (a ++ t) = length a.
Proof.
  induction a as [|c a]; simpl; intros t Ha Ht.
  - destruct Ht as [->|(c & u & -> & Hc)]; auto. simpl. apply isspace_not_white in Hc. rewrite Hc. auto.
  - assert (isspace c = true) by (apply isspace_white, Ha; left; auto). rewrite H. f_equal. apply IHa; auto.
    intros d Hd. apply Ha. right. auto.
Qed.

Lemma strip_ok : forall a t b, all_white a -> all_white b -> t <> [] ->
  ~ white (hd 0 t) -> ~ white (last t 0) -> strip_inplace (a ++ t ++ b) = Ok t.
Proof.
  intros a t b Ha Hb Ht Hh Hl. unfold strip_inplace.
  assert (L : count_space (a ++ t ++ b) = length a).
  { apply count_space_split; auto. right. destruct t as [|c u]; [congruence|]. simpl. eauto. }
  assert (T : count_space (rev (a ++ t ++ b)) = length b).
  { rewrite !rev_app_distr, <- app_assoc. rewrite count_space_split.
    - apply rev_length.
    - intros c Hc. apply Hb. apply in_rev. auto.
    - right. destruct (exists_last Ht) as (u & c & ->). rewrite rev_app_distr. simpl.
      rewrite last_last in Hl. eauto. }
  rewrite L, T. rewrite !app_length.
  set (nz := Z.of_nat (length a + (length t + length b)) - Z.of_nat (length a) - Z.of_nat (length b)).
  assert (Hnz : nz = Z.of_nat (length t)) by (unfold nz; lia).
  rewrite Hnz. rewrite Nat2Z.id.
  destruct (Z.ltb_spec (Z.of_nat (length t)) 0); [lia|].
  assert (Hmm : memmove_down (a ++ t ++ b) (length a) (length t) = t ++ skipn (length t) (a ++ t ++ b)).
  { unfold memmove_down. rewrite skipn_app, skipn_all, Nat.sub_diag. simpl.
    rewrite firstn_app, Nat.sub_diag, firstn_all. simpl. rewrite app_nil_r. reflexivity. }
  destruct (Z.ltb_spec 0 (Z.of_nat (length a))).
  - cbn [obind]. rewrite Hmm.
    destruct (Z.eqb_spec (Z.of_nat (length t)) (Z.of_nat (length a + (length t + length b)))); [lia|].
    rewrite firstn_app, Nat.sub_diag, firstn_all. simpl. rewrite app_nil_r. reflexivity.
  - cbn [obind]. assert (a = []) by (destruct a; simpl in *; [auto|lia]). subst a. simpl.
    destruct (Z.eqb_spec (Z.of_nat (length t)) (Z.of_nat (length t + length b))).
    + assert (b = []) by (destruct b; simpl in *; [auto|lia]). subst b. rewrite app_nil_r. auto.
    + rewrite firstn_app, Nat.sub_diag, firstn_all. simpl. rewrite app_nil_r. reflexivity.
Qed.

Lemma strip_blank : forall s, s <> [] -> all_white s -> strip_inplace s = UB BadSize.
Proof.
  intros s Hs Hw. unfold strip_inplace.
  assert (L : count_space s = length s) by (rewrite <- (app_nil_r s) at 1; apply count_space_split; auto).
  assert (T : count_space (rev s) = length s).
  { rewrite <- (app_nil_r (rev s)) at 1. rewrite count_space_split, rev_length; auto. intros c Hc. apply Hw. apply in_rev. auto. }
  rewrite L, T. assert (0 < length s)%nat by (destruct s; [congruence|simpl; lia]).
  destruct (Z.ltb_spec 0 (Z.of_nat (length s))); [|lia].
  destruct (Z.ltb_spec (Z.of_nat (length s) - Z.of_nat (length s) - Z.of_nat (length s)) 0); [|lia]. reflexivity.
Qed.

(** Every string is blank or has a stripped core. *)
Lemma strip_decompose : forall s, (all_white s) \/
  exists a t b, s = a ++ t ++ b /\ all_white a /\ all_white b /\ t <> [] /\ ~ white (hd 0 t) /\ ~ white (last t 0).
Proof.
  intros s. destruct (skip_space_spec s) as (a & H1 & H2 & H3).
  destruct H3 as [H3|(c & u & H3 & H4)].
  - left. rewrite H1, H3, app_nil_r. auto.
  - right. rewrite H3 in H1.
    destruct (skip_space_spec (rev (c :: u))) as (b & K1 & K2 & K3).
    destruct K3 as [K3|(d & v & K3 & K4)].
    + exfalso. apply H4. rewrite K3, app_nil_r in K1. apply K2. rewrite <- K1. apply in_rev. rewrite rev_involutive. left; auto.
    + rewrite K3 in K1.
      assert (E : c :: u = rev v ++ [d] ++ rev b).
      { rewrite <- (rev_involutive (c :: u)), K1, rev_app_distr. simpl. rewrite <- app_assoc. reflexivity. }
      exists a, (rev v ++ [d]), (rev b).
      repeat split; auto.
      * rewrite H1, E, <- app_assoc. reflexivity.
      * intros x Hx. apply K2. apply in_rev. auto.
      * destruct (rev v); discriminate.
      * destruct (rev v) as [|e v'] eqn:Ev.
        -- simpl in *. inversion E; subst. auto.
        -- simpl in *. inversion E; subst. auto.
      * rewrite last_last. auto.
Qed.
