(** Property C38: varstream. *)
From Coq Require Import ZArith Bool List Lia ZifyBool.
From Verif Require Import Base StrModel StrSpec StrProof StreamModel.
Import ListNotations.
Local Open Scope Z_scope.

(** * Specification: a tape with a reading head

    [past] is what has been read (last character first), [future] what has not. *)
Inductive status := Good | AtEnd | Failed.
Record tape := { past : list Z; future : list Z; st : status }.
Definition tape_of (p f : list Z) (s : status) : tape := {| past := p; future := f; st := s |}.

(** Writing appends to the end; reading and looking deliver the character under the head;
    at the end they report end-of-file.  A failed stream refuses everything until cleared;
    after looking past the end one may still step back or seek.  Seeking to a position inside the
    string moves the head there; at the end or beyond the head stays where it is.  Seeking for
    writing moves the same head, but the end stays reported.  There is no relative seeking, and no telling the position. *)
Definition tape_step (t : tape) (o : sop) : option Z * tape :=
  match o, st t with
  | Clear, _ => (None, tape_of (past t) (future t) Good)
  | Put c, Good => (None, tape_of (past t) (future t ++ [c]) Good)
  | Get, Good => match future t with
                 | c :: f => (Some c, tape_of (c :: past t) f Good)
                 | [] => (Some EOF, tape_of (past t) [] Failed)
                 end
  | Peek, Good => match future t with
                  | c :: _ => (Some c, t)
                  | [] => (Some EOF, tape_of (past t) [] AtEnd)
                  end
  | Unget, (Good | AtEnd) => match past t with
                             | c :: p => (None, tape_of p (c :: future t) Good)
                             | [] => (None, tape_of [] (future t) Failed)
                             end
  | Seek p, (Good | AtEnd) =>
      let all := rev (past t) ++ future t in
      if p <? Z.of_nat (length all) then (None, tape_of (rev (firstn (Z.to_nat p) all)) (skipn (Z.to_nat p) all) Good)
      else (None, tape_of (past t) (future t) Good)
  | SeekPut p, (Good | AtEnd) =>
      let all := rev (past t) ++ future t in
      if p <? Z.of_nat (length all) then (None, tape_of (rev (firstn (Z.to_nat p) all)) (skipn (Z.to_nat p) all) (st t))
      else (None, t)
  | Tell, Good => (Some (-1), t)
  | Tell, _ => (Some (-1), tape_of (past t) (future t) Failed)
  | (Put _ | Unget | Seek _ | SeekRel _ | SeekPut _), _ => (None, tape_of (past t) (future t) Failed)
  | (Get | Peek), _ => (Some EOF, tape_of (past t) (future t) Failed)
  end.
Fixpoint tape_run (t : tape) (ops : list sop) : list (option Z) * tape :=
  match ops with
  | [] => ([], t)
  | o :: r => let (x, t) := tape_step t o in
              let (xs, t) := tape_run t r in (x :: xs, t)
  end.

(** Characters a varstream can carry: all but the byte 0xFF. *)
Definition plain (c : Z) : Prop := -128 <= c <= 127 /\ c <> -1.
Definition plain_op (o : sop) : Prop := match o with Put c => plain c | Seek p | SeekPut p => 0 <= p < 2 ^ 31 | _ => True end.

(** * Refinement *)
Definition status_of (v : varstream) : status :=
  if vs_fail v || vs_bad v then Failed else if vs_eof v then AtEnd else Good.
Definition rel (v : varstream) (t : tape) : Prop :=
  vb_str (vs_buf v) = rev (past t) ++ future t /\
  vb_ind (vs_buf v) = Z.of_nat (length (past t)) /\
  status_of v = st t /\
  Forall plain (past t) /\ Forall plain (future t).

Lemma wrap_to_int : forall c, -128 <= c <= 127 -> wrap_char (to_int c) = c.
Proof.
  intros c H. unfold wrap_char, wrap, to_int.
  change (2 ^ (8-1)) with 128. change (2^8) with 256.
  rewrite Zplus_mod_idemp_l. rewrite Z.mod_small by lia. lia.
Qed.
Lemma to_int_not_eof : forall c, to_int c =? EOF = false.
Proof. intros. unfold to_int, EOF. pose proof (Z.mod_pos_bound c 256). lia. Qed.

Lemma char_at_mid : forall p c f, char_at (rev p ++ c :: f) (Z.of_nat (length p)) = Some c.
Proof.
  intros. unfold char_at. replace (Z.of_nat (length p) <? 0) with false by lia.
  rewrite Nat2Z.id, nth_error_app2; rewrite rev_length; [|lia]. rewrite Nat.sub_diag. reflexivity.
Qed.

Lemma wrap32 : forall z, - 2 ^ 31 <= z < 2 ^ 31 -> wrap 32 z = z.
Proof. intros z H. unfold wrap. change (2 ^ (32 - 1)) with (2 ^ 31). change (2 ^ 32) with (2 * 2 ^ 31). rewrite Z.mod_small by lia. lia. Qed.

Lemma step_rel : forall v t o, rel v t -> plain_op o ->
  fst (step v o) = fst (tape_step t o) /\ rel (snd (step v o)) (snd (tape_step t o)).
Proof.
  intros v [p f s] o (Hs & Hi & Ht & Hp & Hf) Ho. simpl in *.
  destruct v as [[str ind] e fl b]. unfold status_of in Ht. simpl in *. subst str ind.
  destruct o; unfold step, tape_step; simpl.
  - (* Put *)
    unfold put, good. simpl. destruct e, fl, b; simpl in *; subst s; simpl;
      try (split; [reflexivity|]; unfold rel, status_of; simpl; rewrite ?orb_true_r; auto; fail).
    unfold overflow. rewrite to_int_not_eof. cbn [negb]. cbv iota. rewrite to_int_not_eof.
    split; [reflexivity|]. unfold rel, status_of; simpl. rewrite wrap_to_int by apply Ho.
    rewrite app_assoc. repeat split; auto. apply Forall_app. auto.
  - (* Get *)
    unfold get, good. simpl. destruct e, fl, b; simpl in *; subst s; simpl;
      try (split; [reflexivity|]; unfold rel, status_of; simpl; auto; fail).
    unfold uflow, size. cbn [vb_str vb_ind].
    rewrite app_length, rev_length. destruct f as [|c f].
    + replace (_ <? _) with false by (simpl; lia). split; [reflexivity|]. unfold rel, status_of; simpl; auto.
    + replace (_ <? _) with true by (simpl; lia). rewrite char_at_mid.
      inversion Hf; subst. pose proof H1 as Hpl. destruct H1 as [_ Hc]. replace (c =? EOF) with false by (unfold EOF; lia).
      split; [reflexivity|]. unfold rel, status_of; simpl. rewrite <- app_assoc. simpl.
      repeat split; auto; try lia.
  - (* Peek *)
    unfold peek, good. simpl. destruct e, fl, b; simpl in *; subst s; simpl;
      try (split; [reflexivity|]; unfold rel, status_of; simpl; auto; fail).
    unfold underflow, size. cbn [vb_str vb_ind].
    rewrite app_length, rev_length. destruct f as [|c f].
    + replace (_ <? _) with false by (simpl; lia). split; [reflexivity|]. unfold rel, status_of; simpl; auto.
    + replace (_ <? _) with true by (simpl; lia). rewrite char_at_mid.
      inversion Hf; subst. pose proof H1 as Hpl. destruct H1 as [_ Hc]. replace (c =? EOF) with false by (unfold EOF; lia).
      split; [reflexivity|]. unfold rel, status_of; simpl. repeat split; auto.
  - (* Unget *)
    unfold unget, good. simpl. destruct e, fl, b; simpl in *; subst s; simpl;
      try (split; [reflexivity|]; unfold rel, status_of; simpl; auto; fail);
    unfold pbackfail; cbn [vb_str vb_ind]; destruct p as [|c p]; simpl length;
      try (split; [reflexivity|]; unfold rel, status_of; simpl; auto; fail);
    (replace (0 <? _) with true by lia; simpl rev; rewrite <- app_assoc;
     replace (Z.of_nat (S (length p)) - 1) with (Z.of_nat (length p)) by lia;
     cbn [app]; rewrite char_at_mid; inversion Hp; subst; destruct H1 as [Hc1 Hc];
     replace (c =? EOF) with false by (unfold EOF; lia);
     split; [reflexivity|]; unfold rel, status_of; simpl; repeat split; auto;
     constructor; auto; split; auto).
  - (* Clear *)
    split; [reflexivity|]. unfold rel, status_of; simpl. auto.
  - (* Seek *)
    assert (Hall : Forall plain (rev p ++ f)) by (apply Forall_app; split; auto; apply Forall_rev; auto).
    assert (Hpos : p0 <? Z.of_nat (length (rev p ++ f)) = true -> length (rev (firstn (Z.to_nat p0) (rev p ++ f))) = Z.to_nat p0).
    { intros H. rewrite rev_length, firstn_length. lia. }
    assert (Hw : wrap 32 p0 = p0) by (unfold plain_op in Ho; apply wrap32; change (2 ^ 31) with 2147483648 in *; lia).
    unfold seekg, good. simpl. destruct e, fl, b; simpl in *; subst s; simpl;
      try (split; [reflexivity|]; unfold rel, status_of; simpl; auto; fail);
    (unfold seekpos, size; cbn [vb_str vb_ind]; rewrite Hw; destruct (p0 <? Z.of_nat (length (rev p ++ f))) eqn:L;
     (replace (p0 =? -1) with false by lia; split; [reflexivity|]; unfold rel, status_of; simpl;
      first [ solve [auto] | rewrite rev_involutive, firstn_skipn, (Hpos eq_refl), Z2Nat.id by lia; rewrite <- (firstn_skipn (Z.to_nat p0)) in Hall; apply Forall_app in Hall as [H1 H2]; repeat split; auto; apply Forall_rev; auto])).
  - (* SeekRel *)
    unfold seekg_rel, good. simpl. destruct e, fl, b; simpl in *; subst s; simpl; split; try reflexivity; unfold rel, status_of; simpl; auto.
  - (* Tell *)
    unfold tellg, good. simpl. destruct e, fl, b; simpl in *; subst s; simpl; split; try reflexivity; unfold rel, status_of; simpl; auto.
  - (* SeekPut *)
    assert (Hall : Forall plain (rev p ++ f)) by (apply Forall_app; split; auto; apply Forall_rev; auto).
    assert (Hpos : p0 <? Z.of_nat (length (rev p ++ f)) = true -> length (rev (firstn (Z.to_nat p0) (rev p ++ f))) = Z.to_nat p0).
    { intros H. rewrite rev_length, firstn_length. lia. }
    assert (Hw : wrap 32 p0 = p0) by (unfold plain_op in Ho; apply wrap32; change (2 ^ 31) with 2147483648 in *; lia).
    unfold seekp, good. simpl. destruct e, fl, b; simpl in *; subst s; simpl;
      try (split; [reflexivity|]; unfold rel, status_of; simpl; auto; fail);
    (unfold seekpos, size; cbn [vb_str vb_ind]; rewrite Hw; destruct (p0 <? Z.of_nat (length (rev p ++ f))) eqn:L;
     (replace (p0 =? -1) with false by lia; split; [reflexivity|]; unfold rel, status_of; simpl;
      first [ solve [auto] | rewrite rev_involutive, firstn_skipn, (Hpos eq_refl), Z2Nat.id by lia; rewrite <- (firstn_skipn (Z.to_nat p0)) in Hall; apply Forall_app in Hall as [H1 H2]; repeat split; auto; apply Forall_rev; auto])).
Qed.

(** Any interleaving of writing, reading, looking, putting back, seeking and clearing behaves as on
    the tape: same characters delivered, and the string is what lies on both sides of
    the head. *)
Theorem C38_behaves_as_tape : forall s ops, Forall plain s -> Forall plain_op ops ->
  let (outs, v) := run (open_stream s) ops in
  let (outs', t) := tape_run (tape_of [] s Good) ops in
  outs = outs' /\ vb_str (vs_buf v) = rev (past t) ++ future t.
Proof.
  intros s ops Hs Ho.
  assert (R : rel (open_stream s) (tape_of [] s Good)) by (unfold rel, status_of; simpl; auto).
  revert R. generalize (open_stream s) as v, (tape_of [] s Good) as t. clear Hs s.
  induction Ho as [|o ops Ho Hops IH]; intros v t R; simpl.
  - split; auto. apply R.
  - destruct (step_rel v t o R Ho) as [E R'].
    destruct (step v o) as [x v1]. destruct (tape_step t o) as [x' t1]. simpl in *.
    specialize (IH v1 t1 R'). destruct (run v1 ops). destruct (tape_run t1 ops). destruct IH. subst. auto.
Qed.

(** Characters written come out once, in order: writing [w] and then reading as many
    characters as there are delivers the old content followed by [w]; the next read reports
    end-of-file. *)
Lemma run_app : forall ops1 ops2 v, run v (ops1 ++ ops2) =
  (fst (run v ops1) ++ fst (run (snd (run v ops1)) ops2), snd (run (snd (run v ops1)) ops2)).
Proof.
  induction ops1; intros; simpl.
  - destruct (run v ops2); auto.
  - destruct (step v a). rewrite IHops1. destruct (run v0 ops1). simpl. destruct (run v1 ops2). auto.
Qed.
Lemma tape_run_app : forall ops1 ops2 t, tape_run t (ops1 ++ ops2) =
  (fst (tape_run t ops1) ++ fst (tape_run (snd (tape_run t ops1)) ops2),
   snd (tape_run (snd (tape_run t ops1)) ops2)).
Proof.
  induction ops1; intros; simpl.
  - destruct (tape_run t ops2); auto.
  - destruct (tape_step t a). rewrite IHops1. destruct (tape_run t0 ops1). simpl.
    destruct (tape_run t1 ops2). auto.
Qed.
Lemma tape_puts : forall w p f, tape_run (tape_of p f Good) (map Put w) =
  (repeat None (length w), tape_of p (f ++ w) Good).
Proof.
  induction w; intros; simpl; [rewrite app_nil_r; auto|].
  rewrite IHw, <- app_assoc. auto.
Qed.
Lemma tape_gets : forall f p g, tape_run (tape_of p (f ++ g) Good) (repeat Get (length f)) =
  (map Some f, tape_of (rev f ++ p) g Good).
Proof.
  induction f; intros; simpl; auto.
  unfold tape_step. simpl. rewrite IHf. rewrite <- app_assoc. auto.
Qed.
Lemma Forall_put : forall w, Forall plain w -> Forall plain_op (map Put w).
Proof. induction 1; simpl; constructor; auto. Qed.
Lemma Forall_get : forall n, Forall plain_op (repeat Get n).
Proof. induction n; simpl; constructor; simpl; auto. Qed.

Theorem C38_fifo : forall s w, Forall plain s -> Forall plain w ->
  fst (run (open_stream s) (map Put w ++ repeat Get (length (s ++ w)) ++ [Get])) =
  repeat None (length w) ++ map Some (s ++ w) ++ [Some EOF].
Proof.
  intros s w Hs Hw.
  assert (Ho : Forall plain_op (map Put w ++ repeat Get (length (s ++ w)) ++ [Get])).
  { apply Forall_app. split; [apply Forall_put; auto|]. apply Forall_app. split; [apply Forall_get|].
    constructor; simpl; auto. }
  pose proof (C38_behaves_as_tape s _ Hs Ho) as H.
  destruct (run (open_stream s) _) as [outs v]. rewrite tape_run_app, tape_puts in H.
  cbn [fst snd] in H.
  rewrite tape_run_app in H.
  pose proof (tape_gets (s ++ w) [] []) as G. rewrite app_nil_r in G. rewrite G in H.
  simpl in H. destruct H. auto.
Qed.

(** Putting a character back and reading again delivers it again and leaves the stream as
    it was, in every state some program leads to. *)
Theorem C38_put_back : forall s ops c v v1, Forall plain s -> Forall plain_op ops ->
  snd (run (open_stream s) ops) = v -> get v = (c, v1) -> c <> EOF ->
  get (unget v1) = (c, v1).
Proof.
  intros s ops c v v1 Hs Ho Hv Hg Hc.
  assert (R : exists t, rel v t).
  { subst v. clear Hg. assert (R : rel (open_stream s) (tape_of [] s Good)) by (unfold rel, status_of; simpl; auto).
    revert R. generalize (open_stream s) as v, (tape_of [] s Good) as t. clear Hs s.
    induction Ho as [|o ops Ho Hops IH]; intros v t R; simpl; eauto.
    destruct (step_rel v t o R Ho) as [E R'].
    destruct (step v o) as [x v2]. destruct (tape_step t o) as [x' t2]. simpl in *.
    specialize (IH v2 t2 R'). destruct (run v2 ops). auto. }
  destruct R as [[p f s0] (R1 & R2 & R3 & R4 & R5)]. simpl in *. clear Hv Hs Ho.
  destruct v as [[str ind] e fl b]. simpl in *. subst str ind.
  unfold get, good in Hg. simpl in Hg. destruct e, fl, b; simpl in Hg; try (inversion Hg; congruence).
  unfold uflow, size in Hg. cbn [vb_str vb_ind] in Hg. rewrite app_length, rev_length in Hg.
  destruct f as [|d f].
  { replace (_ <? _) with false in Hg by (simpl; lia). inversion Hg. congruence. }
  replace (_ <? _) with true in Hg by (simpl; lia). rewrite char_at_mid in Hg.
  destruct (d =? EOF) eqn:Ed; inversion Hg; subst; [congruence|]. clear Hg.
  unfold with_buf, set_ind; simpl. unfold unget, good; simpl. unfold pbackfail; simpl.
  replace (0 <? _) with true by lia.
  replace (Z.of_nat (length p) + 1 - 1) with (Z.of_nat (length p)) by lia. rewrite char_at_mid, Ed.
  unfold with_buf, set_ind; simpl. unfold get, good; simpl. unfold uflow, size; simpl.
  rewrite app_length, rev_length. replace (_ <? _) with true by (simpl; lia).
  rewrite char_at_mid, Ed. reflexivity.
Qed.

(** The byte 0xFF ends the reading although characters follow it. *)
Theorem C38_ff_reads_as_eof : forall s t, Forall plain s ->
  fst (run (open_stream (s ++ -1 :: t)) (repeat Get (length s) ++ [Get])) = map Some s ++ [Some EOF] /\
  fst (run (open_stream (s ++ -1 :: t)) (repeat Get (length s) ++ [Get; Get])) = map Some s ++ [Some EOF; Some EOF].
Proof.
  intros s t Hs.
  assert (G : forall f p, Forall plain f ->
    run {| vs_buf := {| vb_str := rev p ++ f ++ -1 :: t; vb_ind := Z.of_nat (length p) |};
           vs_eof := false; vs_fail := false; vs_bad := false |} (repeat Get (length f)) =
    (map Some f, {| vs_buf := {| vb_str := rev p ++ f ++ -1 :: t; vb_ind := Z.of_nat (length p + length f) |};
           vs_eof := false; vs_fail := false; vs_bad := false |})).
  { induction f as [|c f]; intros p Hf.
    - simpl. rewrite Nat.add_0_r. reflexivity.
    - inversion Hf; subst. destruct H1 as [_ Hc]. cbn [length repeat run step]. unfold get, good. simpl.
      unfold uflow, size. simpl. rewrite app_length, rev_length. simpl.
      replace (_ <? _) with true by lia. rewrite char_at_mid. replace (c =? EOF) with false by (unfold EOF; lia).
      unfold with_buf, set_ind; simpl.
      specialize (IHf (c :: p) H2). cbn [rev length] in IHf. rewrite <- app_assoc in IHf. cbn [app] in IHf.
      replace (Z.of_nat (length p) + 1) with (Z.of_nat (S (length p))) by lia. rewrite IHf.
      f_equal. f_equal. f_equal. lia. }
  specialize (G s [] Hs). simpl in G.
  assert (K : get {| vs_buf := {| vb_str := s ++ -1 :: t; vb_ind := Z.of_nat (length s) |};
                     vs_eof := false; vs_fail := false; vs_bad := false |} =
              (EOF, {| vs_buf := {| vb_str := s ++ -1 :: t; vb_ind := Z.of_nat (length s) + 1 |};
                       vs_eof := true; vs_fail := true; vs_bad := false |})).
  { unfold get, good. simpl. unfold uflow, size. simpl. rewrite app_length. simpl.
    replace (_ <? _) with true by lia.
    pose proof (char_at_mid (rev s) (-1) t) as M. rewrite rev_involutive, rev_length in M. rewrite M. reflexivity. }
  rewrite !run_app. unfold open_stream. rewrite G. cbn [fst snd run step]. rewrite K.
  split; reflexivity.
Qed.

(** A varstream opened on a string appends: nothing of the string is overwritten. *)
Theorem C38_writes_append : forall s w, Forall plain w ->
  vb_str (vs_buf (write (open_stream s) w)) = s ++ w.
Proof.
  intros s w Hw. unfold open_stream. generalize 0 as i. revert s. induction Hw as [|c w Hc Hw IH]; intros s i; simpl.
  - rewrite app_nil_r; auto.
  - unfold put, good; simpl. unfold overflow. rewrite to_int_not_eof. simpl. rewrite to_int_not_eof.
    unfold with_buf; simpl. rewrite IH. rewrite wrap_to_int by apply Hc. rewrite <- app_assoc. reflexivity.
Qed.

(** Seeking: the next character read is the one at the position. *)
Theorem C38_seek : forall s ops p c v, Forall plain s -> Forall plain_op ops -> 0 <= p < 2 ^ 31 ->
  snd (run (open_stream s) ops) = v -> vs_fail v = false -> vs_bad v = false -> nth_error (vb_str (vs_buf v)) (Z.to_nat p) = Some c ->
  exists w, get (seekg v p) = (c, w) /\ vb_str (vs_buf w) = vb_str (vs_buf v) /\ good w = true.
Proof.
  intros s ops p c v Hs Ho Hp Hv Hf Hb Hc.
  assert (R : exists t, rel v t).
  { subst v. clear Hc Hf Hb. assert (R : rel (open_stream s) (tape_of [] s Good)) by (unfold rel, status_of; simpl; auto).
    revert R. generalize (open_stream s) as v, (tape_of [] s Good) as t. clear Hs s.
    induction Ho as [|o ops Ho Hops IH]; intros v t R; simpl; eauto.
    destruct (step_rel v t o R Ho) as [E R'].
    destruct (step v o) as [x v2]. destruct (tape_step t o) as [x' t2]. simpl in *.
    specialize (IH v2 t2 R'). destruct (run v2 ops). auto. }
  destruct R as [t (R1 & R2 & _ & R4 & R5)]. destruct v as [[str ind] e fl b]. simpl in *. subst fl b.
  assert (L : p < Z.of_nat (length str)). { assert (nth_error str (Z.to_nat p) <> None) as H by congruence. apply nth_error_Some in H. lia. }
  assert (P : plain c). { apply nth_error_In in Hc. rewrite R1 in Hc. apply in_app_iff in Hc as [Hc|Hc]; [apply in_rev in Hc|]; [rewrite Forall_forall in R4|rewrite Forall_forall in R5]; auto. }
  unfold seekg, good. simpl. unfold seekpos, size. simpl. replace (p <? Z.of_nat (length str)) with true by lia. replace (p =? -1) with false by lia. rewrite wrap32 by (change (2 ^ 31) with 2147483648 in *; lia).
  unfold get, good, with_buf, set_ind. simpl. unfold uflow, size. simpl. replace (p <? Z.of_nat (length str)) with true by lia. unfold char_at. replace (p <? 0) with false by lia. rewrite Hc.
  destruct P as [_ P]. replace (c =? EOF) with false by (unfold EOF; lia). eexists. split; [reflexivity|]. auto.
Qed.
(** Seeking to the end, or beyond it, does nothing and is no failure: reading goes on where it was. *)
Theorem C38_seek_to_end : forall v p, good v = true -> size (vs_buf v) <= p -> seekg v p = v.
Proof.
  intros [[str ind] e fl b] p G L. unfold seekg, good in *. simpl in *. destruct e, fl, b; try discriminate. simpl. unfold seekpos. replace (p <? size _) with false by lia. unfold size in *. simpl in *. replace (p =? -1) with false by lia. reflexivity.
Qed.
(** A position before the start is taken, and the next read fails with an exception inside the
    stream: the position -1 at once counts as a failure as well, which can be cleared. *)
Theorem C38_seek_negative : forall v p, good v = true -> - 2 ^ 31 <= p < 0 ->
  (good (seekg v p) = true <-> p <> -1) /\
  fst (get (seekg v p)) = EOF /\ fst (get (clear (seekg v p))) = EOF /\ vs_bad (snd (get (clear (seekg v p)))) = true.
Proof.
  intros [[str ind] e fl b] p G L. unfold seekg, good in *. simpl in *. destruct e, fl, b; try discriminate. simpl. unfold seekpos, size. simpl. rewrite wrap32 by (change (2 ^ 31) with 2147483648 in *; lia). replace (p <? Z.of_nat (length str)) with true by lia.
  destruct (p =? -1) eqn:E; simpl; unfold get, good, uflow, size, char_at; simpl;
    rewrite ?(proj2 (Z.ltb_lt p (Z.of_nat (length str)))), ?(proj2 (Z.ltb_lt p 0)) by lia;
    (split; [split; [intros; try discriminate; lia|intros; auto; lia]|auto]).
Qed.
(** The position is kept in 32 bits: a position far before the start is a position inside. *)
Theorem C38_seek_wraps : forall v k p, good v = true -> 0 < k -> 0 <= p < size (vs_buf v) -> p < 2 ^ 31 ->
  seekg v (p - k * 2 ^ 32) = seekg v p.
Proof.
  intros [[str ind] e fl b] k p G K L B. unfold seekg, good in *. simpl in *. destruct e, fl, b; try discriminate. simpl. unfold seekpos, size in *. simpl in *.
  change (Z.pow_pos 2 32) with 4294967296 in *. replace (p - k * 4294967296 <? Z.of_nat (length str)) with true by lia. replace (p <? Z.of_nat (length str)) with true by lia.
  replace (p - k * 4294967296 =? -1) with false by lia. replace (p =? -1) with false by lia.
  f_equal. f_equal. unfold wrap. change (2 ^ (32 - 1)) with 2147483648. change (2 ^ 32) with 4294967296.
  change (Z.pow_pos 2 32) with 4294967296. replace (p - k * 4294967296 + 2147483648) with (p + 2147483648 + (-k) * 4294967296) by lia. rewrite Z_mod_plus_full. reflexivity.
Qed.
(** Relative seeking fails wherever it goes, and the position cannot be asked for. *)
Theorem C38_no_relative_seek : forall v o, vs_fail (seekg_rel v o) = true /\ vs_buf (seekg_rel v o) = vs_buf v /\
  fst (tellg v) = -1 /\ vs_buf (snd (tellg v)) = vs_buf v /\ (good v = true -> snd (tellg v) = v).
Proof. intros [[str ind] e fl b] o. unfold seekg_rel, tellg, good. destruct e, fl, b; simpl; repeat split; intros; auto; discriminate. Qed.
(** Seeking for writing does not move where the next character goes, which is always the end; it
    moves where the next one is read. *)
Theorem C38_seek_for_writing : forall s ops p c d v, Forall plain s -> Forall plain_op ops -> 0 <= p < 2 ^ 31 -> plain d ->
  snd (run (open_stream s) ops) = v -> good v = true -> nth_error (vb_str (vs_buf v)) (Z.to_nat p) = Some c ->
  let w := put (seekp v p) d in
  vb_str (vs_buf w) = vb_str (vs_buf v) ++ [d] /\ good w = true /\ fst (get w) = c.
Proof.
  intros s ops p c d v Hs Ho Hp Hd Hv Hg Hc.
  assert (Hf : vs_fail v = false /\ vs_bad v = false /\ vs_eof v = false) by (unfold good in Hg; destruct (vs_eof v), (vs_fail v), (vs_bad v); auto).
  destruct Hf as (Hf & Hb & He).
  assert (P : plain c).
  { assert (R : rel (open_stream s) (tape_of [] s Good)) by (unfold rel, status_of; simpl; auto).
    assert (exists t, rel v t) as [t (R1 & _ & _ & R4 & R5)].
    { subst v. clear Hc Hf Hb He Hg. revert R. generalize (open_stream s) as v, (tape_of [] s Good) as t. clear Hs s.
      induction Ho as [|o ops Ho Hops IH]; intros v t R; simpl; eauto.
      destruct (step_rel v t o R Ho) as [E R']. destruct (step v o) as [x v2]. destruct (tape_step t o) as [x' t2]. simpl in *.
      specialize (IH v2 t2 R'). destruct (run v2 ops). auto. }
    apply nth_error_In in Hc. rewrite R1 in Hc. apply in_app_iff in Hc as [Hc|Hc]; [apply in_rev in Hc|]; [rewrite Forall_forall in R4|rewrite Forall_forall in R5]; auto. }
  clear Ho Hs Hv. destruct v as [[str ind] e fl b]. simpl in *. subst fl b e.
  assert (L : p < Z.of_nat (length str)). { assert (nth_error str (Z.to_nat p) <> None) as H by congruence. apply nth_error_Some in H. lia. }
  unfold seekp. simpl. unfold seekpos, size. simpl. replace (p <? Z.of_nat (length str)) with true by lia. replace (p =? -1) with false by lia. rewrite wrap32 by (change (2 ^ 31) with 2147483648 in *; lia).
  unfold put, good. simpl. unfold overflow. rewrite to_int_not_eof. cbn [negb]. cbv iota. rewrite to_int_not_eof. simpl. rewrite wrap_to_int by apply Hd.
  split; [reflexivity|]. split; [reflexivity|].
  unfold get, good. simpl. unfold uflow, size, char_at. simpl. rewrite app_length. replace (p <? Z.of_nat (length str + length [d])) with true by (simpl; lia).
  replace (p <? 0) with false by lia. rewrite nth_error_app1 by lia. rewrite Hc. destruct P as [_ P]. replace (c =? EOF) with false by (unfold EOF; lia). reflexivity.
Qed.
(** The bits an operation leaves: those of the end of the file, of failure and of an exception inside
    the stream.  First for a stream that has some set. *)
Definition bits (v : varstream) : bool * bool * bool := (vs_eof v, vs_fail v, vs_bad v).
Theorem C38_bits_kept : forall v c p, good v = false ->
  bits (snd (get v)) = (vs_eof v, true, vs_bad v) /\ bits (snd (peek v)) = (vs_eof v, true, vs_bad v) /\ bits (put v c) = (vs_eof v, true, vs_bad v) /\
  bits (snd (tellg v)) = (vs_eof v, true, vs_bad v) /\
  (vs_fail v || vs_bad v = true -> bits (unget v) = (false, true, vs_bad v) /\ bits (seekg v p) = (false, true, vs_bad v) /\
     bits (seekg_rel v p) = (false, true, vs_bad v) /\ seekp v p = v) /\
  (vs_fail v || vs_bad v = false -> bits (seekp v p) = (true, (p =? -1), false) /\ bits (seekg v p) = (false, (p =? -1), false) /\ bits (seekg_rel v p) = (false, true, false)).
Proof.
  intros [[str ind] e fl b] c p G. unfold good in G. simpl in G.
  unfold get, peek, put, tellg, unget, seekg, seekg_rel, seekp, seekpos, seekoff, bits, good, size. simpl.
  destruct e, fl, b; try discriminate; simpl; destruct (p <? Z.of_nat (length str)); simpl; destruct (p =? -1); simpl; repeat split; try discriminate.
Qed.
Theorem C38_bits_set : forall v c p, good v = true -> let b := vs_buf v in
  (vb_ind b < 0 -> bits (snd (get v)) = (false, true, true) /\ bits (snd (peek v)) = (false, false, true)) /\
  (size b <= vb_ind b -> bits (snd (get v)) = (true, true, false) /\ bits (snd (peek v)) = (true, false, false)) /\
  (forall d, 0 <= vb_ind b -> nth_error (vb_str b) (Z.to_nat (vb_ind b)) = Some d -> d <> EOF -> bits (snd (get v)) = (false, false, false) /\ bits (snd (peek v)) = (false, false, false)) /\
  (vb_ind b <= 0 -> bits (unget v) = (false, false, true)) /\
  bits (put v c) = (false, false, false) /\ bits (seekg v p) = (false, (p =? -1), false) /\ bits (seekp v p) = (false, (p =? -1), false) /\
  bits (seekg_rel v p) = (false, true, false) /\ bits (snd (tellg v)) = (false, false, false).
Proof.
  intros [[str ind] e fl b] c p G. unfold good in G. simpl in G. destruct e, fl, b; try discriminate. cbv zeta. simpl vs_buf. unfold size. simpl vb_ind. simpl vb_str. split; [|split; [|split; [|split]]].
  - intros L. unfold get, peek, good, uflow, underflow, size, char_at. simpl. replace (ind <? Z.of_nat (length str)) with true by lia. replace (ind <? 0) with true by lia. split; reflexivity.
  - intros L. unfold get, peek, good, uflow, underflow, size, char_at. simpl. replace (ind <? Z.of_nat (length str)) with false by lia. split; reflexivity.
  - intros d L N D. assert (H : nth_error str (Z.to_nat ind) <> None) by congruence. apply nth_error_Some in H.
    unfold get, peek, good, uflow, underflow, size, char_at. simpl. replace (ind <? Z.of_nat (length str)) with true by lia. replace (ind <? 0) with false by lia. rewrite N.
    replace (d =? EOF) with false by (symmetry; apply Z.eqb_neq; auto). split; reflexivity.
  - intros L. unfold unget, good, pbackfail. simpl. replace (0 <? ind) with false by lia. reflexivity.
  - unfold put, seekg, seekg_rel, seekp, tellg, seekpos, seekoff, bits, good, size, overflow. simpl. rewrite to_int_not_eof. simpl. rewrite to_int_not_eof.
    destruct (p <? Z.of_nat (length str)), (p =? -1); simpl; repeat split.
Qed.
Example C38_bits_example :
  let v := snd (run (open_stream [104; 105]) [Get; Get]) in good v = true /\ bits (snd (get v)) = (true, true, false) /\ bits (snd (peek v)) = (true, false, false) /\
  bits (seekp (snd (peek v)) (-1)) = (true, true, false) /\ bits (snd (get (seekg v (-5)))) = (false, true, true) /\ bits (unget (open_stream [104])) = (false, false, true).
Proof. repeat split. Qed.

Example C38_seek_example_2 :
  fst (run (open_stream [104;105;33]) [Tell; Get; SeekPut 2; Put 46; Get; Get; Seek (1 - 2 ^ 32); Get; Seek (-1); Get; Clear; Get]) =
    [Some (-1); Some 104; None; None; Some 33; Some 46; None; Some 105; None; Some EOF; None; Some EOF] /\
  fst (run (open_stream [104;105;33]) [SeekRel 1; Get; Clear; Get]) = [None; Some EOF; None; Some 104].
Proof. split; reflexivity. Qed.

Example C38_seek_example :
  let v := snd (run (open_stream [104;105;33]) [Get; Get; Get; Get; Clear]) in
  fst (run (open_stream [104;105;33]) [Get; Seek 2; Get; Seek 0; Get; Seek 3; Get; Seek (-2); Get]) = [Some 104; None; Some 33; None; Some 104; None; Some 105; None; Some EOF] /\
  vs_fail v = false /\ vs_bad v = false /\ fst (get (seekg v 1)) = 105 /\ good v = true /\ size (vs_buf v) = 3.
Proof. repeat split. Qed.
Example C38_example :
  Forall plain [104;105] /\
  run (open_stream [104;105]) [Get; Put 33; Unget; Get; Get; Get; Get] =
  ([Some 104; None; None; Some 104; Some 105; Some 33; Some EOF],
   {| vs_buf := {| vb_str := [104;105;33]; vb_ind := 3 |}; vs_eof := true; vs_fail := true; vs_bad := false |}).
Proof. split; [repeat (constructor; [unfold plain; lia|]); constructor | reflexivity]. Qed.

Print Assumptions C38_behaves_as_tape.
Print Assumptions C38_fifo.
Print Assumptions C38_put_back.
Print Assumptions C38_ff_reads_as_eof.
Print Assumptions C38_writes_append.
