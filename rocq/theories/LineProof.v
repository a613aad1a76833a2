(** Lemmas about getline and text files. *)
From Coq Require Import ZArith Bool List Lia.
From Verif Require Import Base StrModel StrSpec StrProof.
Import ListNotations.
Local Open Scope Z_scope.

Lemma buf_resize_length : forall b n, length (buf_resize b n) = S n.
Proof.
  intros. unfold buf_resize. rewrite set_nth_length, firstn_length, app_length, repeat_length. lia.
Qed.

Lemma buf_resize_prefix : forall pre b n, (length pre <= n)%nat ->
  exists b', buf_resize (pre ++ b) n = pre ++ b'.
Proof.
  intros pre b n H. unfold buf_resize. rewrite <- app_assoc.
  rewrite firstn_app. rewrite firstn_all2 by lia. rewrite set_nth_app2 by lia. eauto.
Qed.

Definition mk (l : str) (e : bool) : istream := {| is_rest := l; is_eof := e |}.

(** Reading from the middle of a line: [pre] is already in the buffer. *)
Lemma getline_loop_line : forall line f pre b rest size,
  ~ In 10 line -> (length line < f)%nat -> (length pre < size)%nat -> length (pre ++ b) = S size ->
  exists b', getline_loop f (mk (line ++ 10 :: rest) false) (pre ++ b) (length pre) size =
    Ok ((pre ++ line) ++ b', length (pre ++ line), mk rest false).
Proof.
  induction line as [|c line]; intros f pre b rest size Hn Hf Hp Hb.
  - destruct f; [simpl in Hf; lia|]. cbn. exists b. rewrite app_nil_r. reflexivity.
  - destruct f; [simpl in Hf; lia|]. cbn [getline_loop app mk is_eof is_get is_rest].
    destruct (Z.eqb_spec c 10); [exfalso; apply Hn; left; auto|].
    destruct (Nat.leb_spec (length (pre ++ b)) (length pre)); [lia|].
    destruct b as [|b0 b]; [rewrite app_nil_r in Hb; lia|].
    rewrite set_nth_mid.
    assert (E : pre ++ c :: b = (pre ++ [c]) ++ b) by (rewrite <- app_assoc; reflexivity).
    assert (L : S (length pre) = length (pre ++ [c])) by (rewrite app_length; simpl; lia).
    assert (Hn' : ~ In 10 line) by (intros X; apply Hn; right; auto).
    assert (R : pre ++ c :: line = (pre ++ [c]) ++ line) by (rewrite <- app_assoc; reflexivity).
    rewrite E, L, R.
    destruct (Nat.eqb_spec (length (pre ++ [c])) size) as [En|En].
    + destruct (buf_resize_prefix (pre ++ [c]) b ((size + 1) * 2 - 1)) as [b' Hb']; [lia|].
      rewrite Hb'. apply IHline; auto; [simpl in Hf; lia|lia|].
      rewrite <- Hb', buf_resize_length. reflexivity.
    + apply IHline; auto; [simpl in Hf; lia| |].
      * rewrite <- L. rewrite <- L in En. lia.
      * rewrite <- app_assoc. rewrite app_length in *. simpl in *. lia.
Qed.

(** An unterminated last line picks up the EOF as a char. *)
Lemma getline_loop_last : forall line f pre b size,
  ~ In 10 line -> (S (length line) < f)%nat -> (length pre < size)%nat -> length (pre ++ b) = S size ->
  exists b', getline_loop f (mk line false) (pre ++ b) (length pre) size =
    Ok ((pre ++ line ++ [-1]) ++ b', length (pre ++ line ++ [-1]), mk [] true).
Proof.
  induction line as [|c line]; intros f pre b size Hn Hf Hp Hb.
  - destruct f; [simpl in Hf; lia|]. cbn [getline_loop app mk is_eof is_get is_rest].
    change (-1 =? 10) with false. cbv iota.
    destruct (Nat.leb_spec (length (pre ++ b)) (length pre)); [lia|].
    destruct b as [|b0 b]; [rewrite app_nil_r in Hb; lia|].
    rewrite set_nth_mid.
    assert (E : pre ++ -1 :: b = (pre ++ [-1]) ++ b) by (rewrite <- app_assoc; reflexivity).
    assert (L : S (length pre) = length (pre ++ [-1])) by (rewrite app_length; simpl; lia).
    rewrite E, L.
    destruct f; [simpl in Hf; lia|]. cbn [getline_loop is_eof].
    destruct (Nat.eqb_spec (length (pre ++ [-1])) size) as [En|En].
    + destruct (buf_resize_prefix (pre ++ [-1]) b ((size + 1) * 2 - 1)) as [b' Hb']; [lia|].
      rewrite Hb'. exists b'. reflexivity.
    + exists b. reflexivity.
  - destruct f; [simpl in Hf; lia|]. cbn [getline_loop app mk is_eof is_get is_rest].
    destruct (Z.eqb_spec c 10); [exfalso; apply Hn; left; auto|].
    destruct (Nat.leb_spec (length (pre ++ b)) (length pre)); [lia|].
    destruct b as [|b0 b]; [rewrite app_nil_r in Hb; lia|].
    rewrite set_nth_mid.
    assert (E : pre ++ c :: b = (pre ++ [c]) ++ b) by (rewrite <- app_assoc; reflexivity).
    assert (L : S (length pre) = length (pre ++ [c])) by (rewrite app_length; simpl; lia).
    assert (Hn' : ~ In 10 line) by (intros X; apply Hn; right; auto).
    assert (R : pre ++ c :: line ++ [-1] = (pre ++ [c]) ++ line ++ [-1]) by (rewrite <- app_assoc; reflexivity).
    rewrite E, L, R.
    destruct (Nat.eqb_spec (length (pre ++ [c])) size) as [En|En].
    + destruct (buf_resize_prefix (pre ++ [c]) b ((size + 1) * 2 - 1)) as [b' Hb']; [lia|].
      rewrite Hb'. apply IHline; auto; [simpl in Hf; lia|lia|].
      rewrite <- Hb', buf_resize_length. reflexivity.
    + apply IHline; auto; [simpl in Hf; lia| |].
      * rewrite <- L. rewrite <- L in En. lia.
      * rewrite <- app_assoc. rewrite app_length in *. simpl in *. lia.
Qed.

Lemma firstn_buf_resize : forall x b, firstn (length x) (buf_resize (x ++ b) (length x)) = x.
Proof.
  intros x b. destruct (buf_resize_prefix x b (length x)) as [b' ->]; [lia|].
  rewrite firstn_app, Nat.sub_diag, firstn_all. simpl. apply app_nil_r.
Qed.

Lemma getline_line : forall old line rest f, ~ In 10 line -> (length line < f)%nat ->
  getline f old (mkis (line ++ 10 :: rest)) = Ok (Some line, mkis rest).
Proof.
  intros old line rest f Hn Hf. unfold getline.
  assert (P : is_peek (mkis (line ++ 10 :: rest)) = mk (line ++ 10 :: rest) false) by (destruct line; reflexivity).
  rewrite P. cbn [mk is_eof].
  assert (H63 : (length (@nil Z) < 63)%nat) by (simpl; lia).
  destruct (getline_loop_line line f [] (buf_resize (old ++ [0]) 63) rest 63 Hn Hf H63 (buf_resize_length _ _)) as [b' H].
  cbn [app length] in H. unfold mk in *.
  cbv zeta. rewrite H. cbn [obind]. rewrite firstn_buf_resize. reflexivity.
Qed.

Lemma getline_last : forall old line f, line <> [] -> ~ In 10 line -> (S (length line) < f)%nat ->
  getline f old (mkis line) = Ok (Some (line ++ [-1]), mk [] true).
Proof.
  intros old line f Hne Hn Hf. unfold getline.
  assert (P : is_peek (mkis line) = mk line false) by (destruct line; [congruence|reflexivity]).
  rewrite P. cbn [mk is_eof].
  assert (H63 : (length (@nil Z) < 63)%nat) by (simpl; lia).
  destruct (getline_loop_last line f [] (buf_resize (old ++ [0]) 63) 63 Hn Hf H63 (buf_resize_length _ _)) as [b' H].
  cbn [app length] in H. unfold mk in *.
  cbv zeta. rewrite H. cbn [obind]. rewrite firstn_buf_resize. reflexivity.
Qed.

Lemma getline_eof : forall old f e, getline f old (mk [] e) = Ok (None, mk [] true).
Proof. reflexivity. Qed.

(** Whole files. *)

Lemma txt_read_loop_spec : forall l n f o last, Forall (fun x => ~ In 10 x) l -> ~ In 10 last ->
  (length l + 1 < n)%nat ->
  txt_read_loop n (mkis (lines l ++ last)) f o =
    Ok (o ++ l ++ match last with [] => [] | _ => [last ++ [-1]] end).
Proof.
  induction l as [|x l]; intros n f o last Hl Hlast Hn.
  - cbn [lines map concat app]. destruct n; [lia|]. cbn [txt_read_loop].
    destruct last as [|c last].
    + cbn. rewrite app_nil_r. reflexivity.
    + rewrite getline_last; [|discriminate|auto|simpl; lia]. cbn [obind].
      destruct n; [simpl in Hn; lia|]. cbn. reflexivity.
  - destruct n; [lia|]. cbn [txt_read_loop]. inversion Hl; subst.
    assert (E : lines (x :: l) ++ last = x ++ 10 :: (lines l ++ last)).
    { unfold lines. cbn [map concat]. rewrite <- !app_assoc. reflexivity. }
    rewrite E. rewrite getline_line; auto.
    + cbn [obind]. rewrite IHl; auto; [|simpl in Hn; lia]. rewrite <- !app_assoc. reflexivity.
    + cbn [mkis is_rest]. rewrite app_length. lia.
Qed.

Lemma lines_length : forall l, (length l <= length (lines l))%nat.
Proof.
  induction l; simpl; [lia|]. unfold lines in *. cbn [map concat]. rewrite !app_length. simpl. lia.
Qed.

Lemma txt_read_spec : forall l last, Forall (fun x => ~ In 10 x) l -> ~ In 10 last ->
  txt_read (lines l ++ last) = Ok (l ++ match last with [] => [] | _ => [last ++ [-1]] end).
Proof.
  intros l last Hl Hlast. unfold txt_read. rewrite txt_read_loop_spec; auto.
  rewrite app_length. pose proof (lines_length l). lia.
Qed.

(** Every byte sequence is a list of terminated lines and an unterminated rest. *)
Lemma lines_decompose : forall s, exists l last, s = lines l ++ last /\ Forall (fun x => ~ In 10 x) l /\ ~ In 10 last.
Proof.
  induction s as [|c s].
  - exists [], []. repeat split; auto.
  - destruct IHs as (l & last & -> & Hl & Hlast). destruct (Z.eq_dec c 10).
    + subst. exists ([] :: l), last. repeat split; auto.
    + destruct l as [|x l].
      * exists [], (c :: last). repeat split; auto. intros [?|?]; auto.
      * exists ((c :: x) :: l), last. inversion Hl; subst. repeat split; auto. constructor; auto. intros [?|?]; auto.
Qed.
