(** Properties of the call stack in an error: C141. *)
From Coq Require Import ZArith Bool List String Ascii Lia.
From Verif Require Import BtModel BtSpec.
Import ListNotations.
Local Open Scope list_scope.
Local Open Scope nat_scope.
Local Notation length := List.length.

Lemma strchr_at : forall a c b, ~ In c a -> strchr (a ++ c :: b) c = Some (length a).
Proof.
  induction a as [|x a IH]; intros c b H; simpl; [rewrite Ascii.eqb_refl; reflexivity|]. destruct (Ascii.eqb_spec x c); [exfalso; apply H; left; auto|].
  rewrite IH; auto. intros K. apply H. right. auto.
Qed.
Lemma strchr_none : forall a c, ~ In c a -> strchr a c = None.
Proof.
  induction a as [|x a IH]; intros c H; simpl; [reflexivity|]. destruct (Ascii.eqb_spec x c); [exfalso; apply H; left; auto|].
  rewrite IH; auto. intros K. apply H. right. auto.
Qed.
Lemma strchr_before : forall a c b, In c a -> exists n, strchr (a ++ b) c = Some n /\ n < length a.
Proof.
  induction a as [|x a IH]; intros c b H; [destruct H|]. simpl. destruct (Ascii.eqb_spec x c); [exists 0; split; [auto|lia]|].
  destruct H as [H|H]; [congruence|]. destruct (IH c b H) as (n0 & -> & L). exists (S n0). split; [auto|lia].
Qed.
Lemma skip_over : forall A (a b : list A) x, skipn (length a + 1) (a ++ x :: b) = b.
Proof. intros. rewrite skipn_app. replace (length a + 1 - length a) with 1 by lia. rewrite skipn_all2 by lia. reflexivity. Qed.
(** The second bracket is not right after the first. *)
Lemma second_bracket : forall file rest, ~ In "("%char file -> hd_error rest <> Some ")"%char \/ In ")"%char file ->
  match strchr (file ++ "("%char :: rest) ")" with Some p2 => Nat.eqb p2 (length file + 1) | None => false end = false.
Proof.
  intros file rest Nf H. destruct (in_dec ascii_dec ")"%char file) as [Y|N].
  - destruct (strchr_before file ")"%char ("("%char :: rest) Y) as (n & -> & L). apply Nat.eqb_neq. lia.
  - destruct H as [H|H]; [|contradiction]. destruct (in_dec ascii_dec ")"%char rest) as [Y|N'].
    + apply in_split in Y as (a & b & E). revert H E. destruct (in_dec ascii_dec ")"%char a).
      * intros H E. destruct (strchr_before (file ++ "("%char :: a) ")"%char (")"%char :: b)) as (n & En & L); [apply in_or_app; right; right; auto|].
        rewrite <- app_assoc in En. simpl in En. rewrite <- E in En. rewrite En. apply Nat.eqb_neq. intros ->.
        assert (K : nth_error (file ++ "("%char :: rest) (length file + 1) = Some ")"%char).
        { clear - En. revert En. generalize (length file + 1). generalize (file ++ "("%char :: rest). induction l as [|x l IH]; intros n; simpl; [discriminate|].
          destruct (Ascii.eqb_spec x ")"%char); [intros K; inversion K; subst; reflexivity|]. destruct (strchr l ")") eqn:E; [|discriminate]. intros K. inversion K; subst. simpl. apply IH. auto. }
        rewrite nth_error_app2 in K by lia. replace (length file + 1 - length file) with 1 in K by lia. simpl in K. apply H. destruct rest; auto.
      * intros H ->. replace (file ++ "("%char :: a ++ ")"%char :: b) with ((file ++ "("%char :: a) ++ ")"%char :: b) by (rewrite <- app_assoc; reflexivity).
        rewrite strchr_at by (intros K; apply in_app_or in K as [K|[K|K]]; [auto|discriminate|auto]). rewrite app_length. simpl. apply Nat.eqb_neq. destruct a; simpl in *; [congruence|lia].
    + rewrite strchr_none; auto. intros K. apply in_app_or in K as [K|[K|K]]; [auto|discriminate|auto].
Qed.
Lemma frame_named : forall dm s name ok t b, names s name -> prints dm name ok t ->
  frame dm s b = BDone ({| b_out := b_out b ++ newline ++ txt "  " ++ t; b_live := b_live b + (if ok && negb (b_buf b) then 1 else 0); b_buf := ok |}, false).
Proof.
  intros dm s name ok t b (file & rest & -> & Nf & Nn & Nh) P. unfold frame. rewrite strchr_at by auto. rewrite second_bracket; auto.
  - rewrite skip_over, strchr_at by auto. rewrite firstn_app, Nat.sub_diag, firstn_all, firstn_O, app_nil_r.
    inversion P as [n u D|n u D|n u D|n u D]; subst; rewrite D; simpl; repeat f_equal; try lia; destruct (b_buf b); simpl; lia.
  - destruct Nh as [Nh|Nh]; auto. left. destruct name; simpl in *; [discriminate|auto].
Qed.
Lemma frame_nameless : forall dm s b, nameless s -> frame dm s b = BDone ({| b_out := b_out b ++ txt "(undefined)"; b_live := b_live b; b_buf := b_buf b |}, true).
Proof.
  intros dm s b (file & rest & -> & Nf & Nc). unfold frame. rewrite strchr_at by auto.
  replace (file ++ "("%char :: ")"%char :: rest) with ((file ++ ["("%char]) ++ ")"%char :: rest) by (rewrite <- app_assoc; reflexivity).
  rewrite strchr_at by (intros K; apply in_app_or in K as [K|[K|[]]]; [auto|discriminate]). rewrite app_length, Nat.eqb_refl. reflexivity.
Qed.
Lemma frame_odd : forall dm s b, odd s -> frame dm s b = BNull.
Proof.
  intros dm s b [N|(file & rest & -> & Nf & Np & Nh)]; unfold frame; [rewrite strchr_none; auto|]. rewrite strchr_at by auto. rewrite second_bracket by auto.
  rewrite skip_over, strchr_none; auto.
Qed.
Fixpoint gained (before : bool) (oks : list bool) : nat :=
  match oks with [] => 0 | ok :: l => (if ok && negb before then 1 else 0) + gained ok l end.
Lemma last_more : forall A l (x d : A), last (x :: l) d = last l x.
Proof. induction l as [|y l IH]; intros x d; [reflexivity|]. change (last (x :: y :: l) d) with (last (y :: l) d). rewrite (IH y d), (IH y x). reflexivity. Qed.
Lemma gained_lost : forall oks (before : bool), (if before then 1 else 0) + gained before oks = (if last oks before then 1 else 0) + lost before oks.
Proof.
  induction oks as [|ok oks IH]; intros before; [simpl; lia|]. cbn [gained lost]. specialize (IH ok). rewrite last_more. destruct ok, before; simpl in *; lia.
Qed.
Lemma frames_told : forall dm symbols oks ts, told dm symbols oks ts -> forall b l,
  frames dm (symbols ++ l) b = frames dm l {| b_out := b_out b ++ lines ts; b_live := b_live b + gained (b_buf b) oks; b_buf := last oks (b_buf b) |}.
Proof.
  induction 1 as [|s name ok t symbols oks ts N P T IH]; intros b l.
  - simpl. unfold lines. simpl. rewrite app_nil_r, Nat.add_0_r. destruct b; reflexivity.
  - cbn [app frames]. rewrite (frame_named dm s name ok t b N P). rewrite IH. cbn [b_out b_live b_buf gained]. f_equal. f_equal.
    + unfold lines. simpl. rewrite <- !app_assoc. simpl. reflexivity.
    + lia.
    + symmetry. apply last_more.
Qed.

(** If every symbol has a name the text is the number of frames and a line for each, in order, and
    a block of memory is lost for every run of names that are not demangled. *)
Theorem C141_text : forall dm symbols oks ts, told dm symbols oks ts ->
  backTrace dm (Some symbols) = BDone (heading (length symbols) ++ lines ts, lost true oks).
Proof.
  intros dm symbols oks ts T. unfold backTrace. pose proof (fun b => frames_told dm symbols oks ts T b []) as F. rewrite app_nil_r in F. rewrite F. cbn [frames b_out b_live b_buf].
  pose proof (gained_lost oks true) as G. do 2 f_equal. destruct (last oks true); lia.
Qed.
(** The first empty name ends the text, and everything allocated is lost. *)
Theorem C141_nameless : forall dm symbols oks ts s l, told dm symbols oks ts -> nameless s ->
  backTrace dm (Some (symbols ++ s :: l)) = BDone (heading (length symbols + S (length l)) ++ lines ts ++ txt "(undefined)", 1 + lost true oks + (if last oks true then 1 else 0)).
Proof.
  intros dm symbols oks ts s l T N. unfold backTrace. rewrite (frames_told dm symbols oks ts T). cbn [frames]. rewrite frame_nameless by auto. cbn [b_out b_live b_buf].
  rewrite app_length. cbn [List.length]. pose proof (gained_lost oks true) as G. do 2 f_equal; [|destruct (last oks true); simpl; lia]. unfold heading. rewrite <- !app_assoc. reflexivity.
Qed.
(** The first symbol of another form writes through a null pointer, so no error is thrown. *)
Theorem C141_odd : forall dm symbols oks ts s l, told dm symbols oks ts -> odd s -> backTrace dm (Some (symbols ++ s :: l)) = BNull.
Proof. intros dm symbols oks ts s l T N. unfold backTrace. rewrite (frames_told dm symbols oks ts T). cbn [frames]. rewrite frame_odd by auto. reflexivity. Qed.
Lemma first_split : forall c (s : text), In c s -> exists a b, s = a ++ c :: b /\ ~ In c a.
Proof.
  induction s as [|x s IH]; intros H; [destruct H|]. destruct (Ascii.ascii_dec x c) as [->|N]; [exists [], s; auto|]. destruct H as [H|H]; [congruence|]. destruct (IH H) as (a & b & -> & Na).
  exists (x :: a), b. split; auto. intros [K|K]; auto.
Qed.
(** There is no other form. *)
Theorem C141_forms : forall s, (exists name, names s name) \/ nameless s \/ odd s.
Proof.
  intros s. destruct (in_dec ascii_dec "("%char s) as [Y|N]; [|right; right; left; auto]. destruct (first_split _ _ Y) as (file & rest & -> & Nf).
  assert (D : hd_error rest = Some ")"%char /\ ~ In ")"%char file \/ (hd_error rest <> Some ")"%char \/ In ")"%char file)).
  { destruct (in_dec ascii_dec ")"%char file); auto. destruct rest as [|x rest]; [right; left; discriminate|]. destruct (ascii_dec x ")"%char) as [->|Nx]; [left; auto|right; left; simpl; congruence]. }
  destruct D as [[D1 D2]|D].
  - right. left. destruct rest as [|x rest]; [discriminate|]. simpl in D1. inversion D1; subst. exists file, rest. auto.
  - destruct (in_dec ascii_dec "+"%char rest) as [P|P].
    + destruct (first_split _ _ P) as (name & more & -> & Nn). left. exists name, file, more. split; auto. split; auto. split; auto. destruct D as [D|D]; auto. left. destruct name; simpl in *; auto. discriminate.
    + right. right. right. exists file, rest. auto.
Qed.

(** A demangler that knows one name. *)
Definition dm1 : demangler := fun name => if list_eq_dec ascii_dec name (txt "_Z3foov") then (0%Z, txt "foo()") else ((-2)%Z, []).
Definition frame1 : text := txt "./a.out(_Z3foov+0x2b) [0x4011]".
Definition frame2 : text := txt "./a.out(main+0x15) [0x4020]".
Definition frame3 : text := txt "./a.out(+0x77) [0x4080]".
Ltac named_by f n r := exists (txt f), (txt r); split; [reflexivity|]; split; [vm_compute; intuition discriminate|]; split; [vm_compute; intuition discriminate|]; left; discriminate.
Lemma told3 : told dm1 [frame1; frame2; frame3; frame1] [true; false; false; true] [txt "foo()"; txt "main"; []; txt "foo()"].
Proof.
  apply told_more with (txt "_Z3foov"); [named_by "./a.out"%string "_Z3foov"%string "0x2b) [0x4011]"%string|apply pr_demangled; reflexivity|].
  apply told_more with (txt "main"); [named_by "./a.out"%string "main"%string "0x15) [0x4020]"%string|eapply pr_other; reflexivity|].
  apply told_more with []; [named_by "./a.out"%string ""%string "0x77) [0x4080]"%string|eapply pr_other; reflexivity|].
  apply told_more with (txt "_Z3foov"); [named_by "./a.out"%string "_Z3foov"%string "0x2b) [0x4011]"%string|apply pr_demangled; reflexivity|constructor].
Qed.
(** One block is lost, with the two frames that have no mangled name. *)
Example C141_text_example : backTrace dm1 (Some [frame1; frame2; frame3; frame1]) =
  BDone (newline ++ txt "Call stack (size 4):" ++ newline ++ txt "  foo()" ++ newline ++ txt "  main" ++ newline ++ txt "  " ++ newline ++ txt "  foo()", 1).
Proof. rewrite (C141_text dm1 _ _ _ told3). reflexivity. Qed.
Example C141_nameless_example : backTrace dm1 (Some ([frame1; frame2; frame3; frame1] ++ txt "./a.out() [0x1]" :: [frame2])) =
  BDone (newline ++ txt "Call stack (size 6):" ++ newline ++ txt "  foo()" ++ newline ++ txt "  main" ++ newline ++ txt "  " ++ newline ++ txt "  foo()(undefined)", 3).
Proof.
  rewrite (C141_nameless dm1 _ _ _ (txt "./a.out() [0x1]") [frame2] told3); [reflexivity|]. exists (txt "./a.out"), (txt " [0x1]"). split; [reflexivity|]. split; vm_compute; intuition discriminate.
Qed.
(** A symbol as on another system, which has no brackets. *)
Example C141_odd_example : backTrace dm1 (Some ([frame1; frame2; frame3; frame1] ++ [txt "0   a.out   0x4011 _Z3foov + 43"])) = BNull.
Proof. apply (C141_odd dm1 _ _ _ _ [] told3). left. vm_compute. intuition discriminate. Qed.
Example C141_forms_example : odd (txt "[0x4011]") /\ odd (txt "a.out(main) [0x4011]").
Proof. split; [left; vm_compute; intuition discriminate|]. right. exists (txt "a.out"), (txt "main) [0x4011]"). split; [reflexivity|]. split; [vm_compute; intuition discriminate|]. split; [vm_compute; intuition discriminate|left; discriminate]. Qed.
