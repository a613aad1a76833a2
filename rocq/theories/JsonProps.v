(** Properties C39 - C43, C59, C60: the JSON reader and writer. *)
From Coq Require Import ZArith Bool List Lia ZifyBool String Sorting.
From Coq.Floats Require Import SpecFloat.
From Verif Require Import Base StrModel StrSpec StrProof ValModel ValSpec ValProof MapProof EqProof
  NumModel JsonModel JsonSpec JsonProof JsonRound.
Import ListNotations.
Local Notation length := List.length.
Local Open Scope list_scope.
Local Open Scope Z_scope.

(** * C39 *)

(** For every byte sequence and either kind of stream, reading finishes: with a value, an
    exception, or one of two conversions whose stored number is meaningless.  No memory is
    touched wrongly. *)
Theorem C39_reading_finishes : forall ff s,
  (exists v, parse ff s = Ok v) \/ (exists m, parse ff s = Throw m) \/
  parse ff s = UB TypePun \/ parse ff s = UB SignedOverflow.
Proof.
  intros ff s. unfold parse. destruct (parser_tame (2 * length s + 4)) as (T & _).
  unfold read_var. simpl js_rest. specialize (T (js_open ff s) ltac:(unfold L; simpl; lia)).
  destruct (doValue _ (js_open ff s)) as [[v s']|m|k|]; cbn [obind].
  - left; eauto.
  - right; left; eauto.
  - simpl in T. destruct T; subst; auto.
  - destruct T.
Qed.

(** No bracket, no meaningless number. *)
Definition quiet {A} (o : outcome A) : Prop := match o with UB _ => False | _ => True end.
Definition shrinks (s' s : jstream) : Prop := forall c, In c (js_rest s') -> In c (js_rest s).
Lemma shrinks_trans : forall a b c, shrinks a b -> shrinks b c -> shrinks a c.
Proof. unfold shrinks. auto. Qed.
Lemma get_shrinks : forall s o s', s_get s = (o, s') -> shrinks s' s.
Proof.
  intros s o s' H c Hc. unfold s_get in H. destruct (js_good s); [|inversion H; subst; auto].
  destruct (js_rest s) as [|d t] eqn:E; [inversion H; subst; auto|].
  destruct (js_ff s && (d =? -1)); inversion H; subst; right; auto.
Qed.
Lemma j_peek_shrinks : forall f s c s', j_peek f s = Ok (c, s') -> shrinks s' s.
Proof.
  induction f; intros s c s' H; [discriminate|]. cbn [j_peek] in H. destruct (s_peek s) as [d s1] eqn:E.
  apply s_peek_cases in E. destruct E as (E & _). destruct (isspace d).
  - destruct (s_get s1) as [o s2] eqn:E2. apply get_shrinks in E2. apply IHf in H. simpl in H.
    intros x Hx. rewrite <- E. auto.
  - inversion H; subst. intros x Hx. rewrite <- E. auto.
Qed.
Lemma jpeek_shrinks : forall s c s', jpeek s = Ok (c, s') -> shrinks s' s /\ (c <> -1 -> In c (js_rest s')).
Proof.
  intros s c s' H. split; [eapply j_peek_shrinks; eauto|]. intros Hc.
  destruct (jpeek_ok s) as (c' & s1 & E & _ & X). rewrite E in H. inversion H; subst.
  destruct X as [(_ & t & -> & _)|(-> & _)]; [left; auto|congruence].
Qed.
Lemma string_loop_shrinks : forall f acc s r s', string_loop f acc s = Ok (r, s') -> shrinks s' s.
Proof.
  induction f; intros acc s r s' H; [discriminate|]. cbn [string_loop] in H.
  destruct (s_get s) as [[c|] s1] eqn:E; [|discriminate]. apply get_shrinks in E.
  destruct (c =? 34); [inversion H; subst; auto|]. destruct (c =? 92).
  - destruct (s_get s1) as [o s2] eqn:E2. apply get_shrinks in E2. destruct (_ =? 34); [|discriminate].
    apply IHf in H. eapply shrinks_trans; eauto. eapply shrinks_trans; eauto.
  - apply IHf in H. eapply shrinks_trans; eauto.
Qed.
Lemma doString_shrinks : forall s r s', doString s = Ok (r, s') -> shrinks s' s.
Proof.
  intros s r s' H. unfold doString in H. destruct (s_get s) as [o s1] eqn:E. apply get_shrinks in E.
  destruct (negb _); [discriminate|]. apply string_loop_shrinks in H. eapply shrinks_trans; eauto.
Qed.
Lemma raw_loop_shrinks : forall f acc s r s', raw_loop f acc s = Ok (r, s') -> shrinks s' s.
Proof.
  induction f; intros acc s r s' H; [discriminate|]. cbn [raw_loop] in H.
  destruct (s_get s) as [[c|] s1] eqn:E; apply get_shrinks in E; [|inversion H; subst; auto].
  destruct (isspace c); [inversion H; subst; auto|]. destruct (delim c); [inversion H; subst; auto|].
  apply IHf in H. eapply shrinks_trans; eauto.
Qed.
Lemma doRaw_shrinks : forall s r s', doRaw s = Ok (r, s') -> shrinks s' s.
Proof.
  intros s r s' H. unfold doRaw in H. apply obind_ok in H. destruct H as ([v s1] & H1 & H2).
  apply obind_ok in H2. destruct H2 as (x & _ & H2). inversion H2; subst. eapply raw_loop_shrinks; eauto.
Qed.
Lemma no_array_quiet : forall f,
  (forall s, ~ In 91 (js_rest s) -> quiet (doValue f s) /\ forall v s', doValue f s = Ok (v, s') -> shrinks s' s) /\
  (forall l k s, strkeys l -> str_or_nil k -> ~ In 91 (js_rest s) ->
     quiet (object_loop f (VMap l) k s) /\ forall v s', object_loop f (VMap l) k s = Ok (v, s') -> shrinks s' s).
Proof.
  induction f as [|f (IV & IO)]; [split; intros; split; simpl; auto; discriminate|]. split.
  - intros s H. cbn [doValue]. destruct (jpeek s) as [[c s1]| | |] eqn:Ep; cbn [obind];
      try (split; simpl; auto; intros; discriminate).
    2:{ destruct (jpeek_ok s) as (? & ? & E & _). congruence. }
    apply jpeek_shrinks in Ep. destruct Ep as [Hs Hc].
    destruct (c =? 123).
    { destruct (s_get s1) as [o s2] eqn:E. apply get_shrinks in E.
      destruct (negb _); [split; simpl; auto; intros; discriminate|].
      destruct (IO [] VNil s2 ltac:(constructor) ltac:(left; auto)) as [Q1 Q2]; [intros X; apply H, Hs, E, X|].
      split; auto. intros. eapply shrinks_trans; [eapply Q2; eauto|]. eapply shrinks_trans; eauto. }
    destruct (Z.eqb_spec c 91).
    { exfalso. apply H. apply Hs. subst. apply Hc. discriminate. }
    destruct (c =? 34).
    { pose proof (doString_tame s1) as D. destruct (doString s1) as [[r s2]| | |] eqn:E; cbn [obind]; try tauto;
        (split; [simpl; auto|]; intros v s' X; inversion X; subst).
      apply doString_shrinks in E. eapply shrinks_trans; eauto. }
    pose proof (doRaw_tame s1) as D. destruct (doRaw s1) as [[r s2]| | |] eqn:E; try tauto;
      (split; [simpl; auto|]; intros v s' X; inversion X; subst).
    apply doRaw_shrinks in E. eapply shrinks_trans; eauto.
  - intros l k s Hl Hk H. cbn [object_loop]. destruct (js_fail s).
    { split; [simpl; auto|]. intros v s' X; inversion X; subst. unfold shrinks; auto. }
    destruct (jpeek s) as [[c s1]| | |] eqn:Ep; cbn [obind];
      try (split; simpl; auto; intros; discriminate).
    2:{ destruct (jpeek_ok s) as (? & ? & E & _). congruence. }
    apply jpeek_shrinks in Ep. destruct Ep as [Hs _].
    destruct (s_get s1) as [o s2] eqn:Eg. apply get_shrinks in Eg. cbn [snd].
    assert (Hs2 : shrinks s2 s) by (eapply shrinks_trans; eauto).
    assert (N2 : ~ In 91 (js_rest s2)) by (intros X; apply H, Hs2, X).
    destruct (c =? 125). { split; [simpl; auto|]. intros v s' X; inversion X; subst. auto. }
    destruct (c =? 34).
    { pose proof (doString_tame s1) as D. destruct (doString s1) as [[r s3]| | |] eqn:E; cbn [obind]; try tauto.
      - apply doString_shrinks in E. assert (Hs3 : shrinks s3 s) by (eapply shrinks_trans; eauto).
        destruct (IO l (vstr r) s3 Hl ltac:(right; eauto)) as [Q1 Q2]; [intros X; apply H, Hs3, X|].
        split; auto. intros. eapply shrinks_trans; [eapply Q2; eauto|]; auto.
      - split; simpl; auto. intros; discriminate. }
    destruct (c =? 58).
    { destruct (IV s2 N2) as [Q1 Q2]. destruct (doValue f s2) as [[v s3]| | |]; cbn [obind];
        try (split; [simpl; auto|intros; discriminate]).
      assert (Hs3 : shrinks s3 s) by (eapply shrinks_trans; [eapply Q2; eauto|]; auto).
      destruct (assign_tame l k v Hl Hk) as (l' & -> & Hl'). cbn [obind].
      destruct (IO l' k s3 Hl' Hk) as [Q3 Q4]; [intros X; apply H, Hs3, X|].
      split; auto. intros. eapply shrinks_trans; [eapply Q4; eauto|]; auto. }
    destruct (c =? 44); [|split; simpl; auto; intros; discriminate].
    destruct (IO l VNil s2 Hl ltac:(left; auto) N2) as [Q1 Q2].
    split; auto. intros. eapply shrinks_trans; [eapply Q2; eauto|]; auto.
Qed.

Theorem C39_without_arrays : forall ff s, ~ In 91 s ->
  (exists v, parse ff s = Ok v) \/ (exists m, parse ff s = Throw m).
Proof.
  intros ff s H. destruct (C39_reading_finishes ff s) as [X|[X|X]]; auto.
  assert (Q : quiet (parse ff s)).
  { unfold parse, read_var. destruct (no_array_quiet (2 * length s + 4)) as (T & _).
    destruct (T (js_open ff s) H) as [Q _]. simpl js_rest. destruct (doValue _ (js_open ff s)) as [[? ?]| | |]; simpl; auto. }
  destruct X as [X|X]; rewrite X in Q; destruct Q.
Qed.
(** With arrays the exceptional outcomes do occur: null stored into an array of numbers, and
    a number too large for the element type. *)
Theorem C39_value_or_exception_refuted : exists s1 s2,
  parse false s1 = UB TypePun /\ parse false s2 = UB SignedOverflow.
Proof. exists (txt "[1 2 null ]"), (txt "[1 2 99999999999999999999 ]"). split; vm_compute; reflexivity. Qed.
Example C39_example :
  parse true (txt "{""k"" : [""a"", {""x"":-3.14 }] }") =
    Ok (VMap [(vstr [107], VArr TVar [vstr [97]; VMap [(vstr [120], VLong (-3))]])]) /\
  parse true (txt "{""k"" : ]") = Throw "Unrecognised JSON raw value: " /\
  ~ In 91 (txt "{""k"" : 3}") /\ parse true (txt "{""k"" : 3,}") = Ok (VMap [(vstr [107], VLong 3)]).
Proof. repeat split; try (vm_compute; reflexivity). vm_compute. intuition discriminate. Qed.

(** * C40 *)
Theorem C40_round_trip : forall ff fmtf v, json_ok ff v -> parse ff (format fmtf v 0) = Ok v.
Proof.
  intros ff fmtf v H. unfold parse.
  destruct (json_reads ff fmtf v H 0%nat [] [] (all_white_nil)) as (f0 & R).
  { intros _. simpl. auto. }
  specialize (R f0 (Nat.le_refl _)). cbn [app] in R. rewrite app_nil_r in R.
  rewrite (read_var_from (js_open ff (format fmtf v 0)) f0 (Ok (v, left ff v []))); auto. discriminate.
Qed.
(** The same inside a larger text: what follows is left in the stream, except that a number
    or null takes the character after it along. *)
Theorem C40_round_trip_in_context : forall ff fmtf v rest, json_ok ff v ->
  (forall z, v = VLong z \/ v = VNil -> exists d t, rest = d :: t /\ (white d \/ In d [44; 91; 93; 123; 125])) ->
  read_var (js_open ff (format fmtf v 0 ++ rest)) =
  Ok (v, js_open ff (match v with VLong _ | VNil => tl rest | _ => rest end)).
Proof.
  intros ff fmtf v rest H Hr.
  destruct (json_reads ff fmtf v H 0%nat rest [] (all_white_nil)) as (f0 & R).
  { intros Hv. destruct v; try discriminate;
      [destruct (Hr 0 ltac:(auto)) as (d & t & -> & Hd)|destruct (Hr z ltac:(auto)) as (d & t & -> & Hd)];
      (destruct Hd as [Hd|Hd]; [left; apply isspace_white; auto|right; unfold delim; simpl in Hd; lia]). }
  specialize (R f0 (Nat.le_refl _)). cbn [app] in R.
  erewrite (read_var_from _ f0); [|exact R|discriminate].
  f_equal. f_equal. unfold left, mk, js_open.
  destruct v; try reflexivity; cbn [raw after];
    [destruct (Hr 0 ltac:(auto)) as (d & t & -> & Hd)|destruct (Hr z ltac:(auto)) as (d & t & -> & Hd)]; reflexivity.
Qed.
(** The restrictions are needed. *)
Theorem C40_numeric_head_refuted : exists v fmtf, v = VArr TVar [VLong 5; VNil] /\ parse false (format fmtf v 0) <> Ok v.
Proof. eexists _, (fun _ => []). split; [reflexivity|]. vm_compute. discriminate. Qed.
Theorem C40_int_becomes_long : forall ff fmtf z, INT_MIN <= z <= INT_MAX ->
  parse ff (format fmtf (VInt z) 0) = Ok (VLong z).
Proof.
  intros ff fmtf z H. apply (C40_round_trip ff fmtf (VLong z)). constructor.
  unfold INT_MIN, INT_MAX, LONG_MIN, LONG_MAX in *. lia.
Qed.
Theorem C40_empty_array_becomes_nil : forall ff fmtf, parse ff (format fmtf (VArr TVar []) 0) = Ok VNil.
Proof. intros [|] fmtf; reflexivity. Qed.
Example C40_example : json_ok false
  (VMap [(vstr [97], VArr TVar [VNil; VLong (-7); VMap []]); (vstr [98; -1], vstr [104; 105])]).
Proof.
  constructor.
  - split; repeat constructor.
    all: try (simpl in *; lia). all: intros X; simpl in X; intuition discriminate.
  - repeat constructor; eexists; split; try reflexivity; intros c Hc; simpl in Hc; intuition (try lia; try discriminate).
  - constructor; [|constructor; [|constructor]].
    + cbn [snd]. constructor; simpl; auto; try constructor; [|repeat constructor].
      constructor. unfold LONG_MIN, LONG_MAX. lia.
    + cbn [snd]. constructor. intros c Hc; simpl in Hc; intuition (try lia; try discriminate).
Qed.

(** * C41 *)
Lemma get_mk_cases : forall ff s, (exists s', s_get (mk ff s) = (None, s')) \/
  (exists c t, s = c :: t /\ s_get (mk ff s) = (Some c, mk ff t)).
Proof.
  intros ff [|c t]; [left; eexists; reflexivity|]. unfold s_get. cbn.
  destruct (ff && (c =? -1)); [left; eauto|right; eauto].
Qed.
Lemma string_loop_shorter : forall f s acc ff r s',
  string_loop f acc (mk ff s) = Ok (r, s') ->
  (length r <= length acc + length s - 1)%nat /\ (s <> [] ) /\
  (length r = (length acc + length s - 1)%nat -> exists t, s = t ++ [34] /\ ~ In 34 t /\ ~ In 92 t /\ r = acc ++ t).
Proof.
  induction f; intros s acc ff r s' H; [discriminate|]. cbn [string_loop] in H.
  destruct (get_mk_cases ff s) as [(x & E)|(c & s0 & -> & E)]; rewrite E in H; [discriminate|]. rename s0 into s. clear E.
  destruct (Z.eqb_spec c 34).
  { inversion H; subst. simpl. split; [lia|]. split; [discriminate|]. intros E.
    assert (s = []) by (destruct s; auto; simpl in E; lia). subst. exists []. rewrite app_nil_r. auto. }
  destruct (Z.eqb_spec c 92).
  { destruct (get_mk_cases ff s) as [(x & E)|(d & s0 & -> & E)]; rewrite E in H; cbn [char_or_eof] in H; [discriminate|].
    rename s0 into s. clear E.
    destruct (d =? 34); [|discriminate]. apply IHf in H. destruct H as (H & Hn & _). rewrite app_length in H.
    simpl in *. split; [lia|]. split; [discriminate|]. lia. }
  apply IHf in H. destruct H as (H & Hn & E). rewrite app_length in *. simpl in *.
  assert (length s <> 0)%nat by (destruct s; simpl; congruence).
  split; [lia|]. split; [discriminate|]. intros X. destruct E as (t & -> & A & B & ->); [lia|].
  exists (c :: t). rewrite <- app_assoc. simpl. repeat split; auto; intros [Y|Y]; auto.
Qed.
Theorem C41_not_escaped : forall ff fmtf s, In 34 s \/ In 92 s \/ In 0 s ->
  parse ff (format fmtf (vstr s) 0) <> Ok (vstr s).
Proof.
  intros ff fmtf s Hs H. unfold parse in H. apply obind_ok in H. destruct H as ([v s'] & H & E). inversion E; subst. clear E.
  unfold vstr at 1 in H. cbn [format] in H. rewrite map_char_of in H.
  change (js_open ff (34 :: c_str s ++ [34])) with (mk ff ([] ++ 34 :: c_str s ++ [34])) in H.
  unfold read_var in H. remember (2 * _ + 4)%nat as f eqn:Ef. clear Ef. destruct f; [discriminate|]. cbn [doValue] in H.
  rewrite (jpeek_mk ff [] 34) in H by (first [apply all_white_nil | destruct ff; reflexivity]).
  cbn [obind] in H. change (34 =? 123) with false in H. change (34 =? 91) with false in H.
  change (34 =? 34) with true in H. cbv iota in H. apply obind_ok in H. destruct H as ([r s1] & H & E).
  inversion E; subst. clear E. unfold doString in H. rewrite get_mk in H by (destruct ff; reflexivity).
  cbn [char_or_eof] in H. change (negb (34 =? 34)) with false in H. cbv iota in H.
  apply string_loop_shorter in H. destruct H as (Hle & _ & Heq).
  assert (r = s).
  { assert (X : map char_of (map VChar r) = map char_of (map VChar s)) by congruence. rewrite !map_char_of in X. auto. }
  subst r. rewrite app_length in *. simpl in *.
  assert (Hc : (length (c_str s) <= length s)%nat).
  { clear. induction s; simpl; auto. destruct (a =? 0); simpl; lia. }
  assert (Hc0 : length (c_str s) = length s -> ~ In 0 s).
  { clear. induction s; simpl; auto. destruct (Z.eqb_spec a 0); simpl; [lia|]. intros X [Y|Y]; [auto|]. apply IHs; auto. }
  assert (length (c_str s) = length s) by lia.
  destruct Heq as (t & E & A & B & C); [lia|]. subst t.
  destruct Hs as [Hs|[Hs|Hs]]; auto. apply Hc0; auto.
Qed.
(** ... although it is read back when written with the quote escaped by hand. *)
Example C41_example : In 34 [97; 34; 98] /\
  parse false (format (fun _ => []) (vstr [97; 34; 98]) 0) = Ok (vstr [97]) /\
  parse false [34; 97; 92; 34; 98; 34] = Ok (vstr [97; 34; 98]) /\
  parse false (format (fun _ => []) (vstr [97; 92; 98]) 0) = Throw "Unrecognised JSON string escape".
Proof. repeat split; try (vm_compute; reflexivity). simpl. auto. Qed.

(** * C42 *)
Lemma parse_raw : forall ff t c t' v, t = c :: t' -> Forall raw_char t -> c <> 34 -> raw_value t = Ok v -> parse ff t = Ok v.
Proof.
  intros ff t c t' v Ht Hc Hq Hv. unfold parse.
  rewrite (read_var_from (js_open ff t) 1 (Ok (v, ended ff))); [reflexivity| |discriminate].
  cbn [doValue]. subst t. change (js_open ff (c :: t')) with (mk ff ([] ++ c :: t')).
  inversion Hc as [|? ? (H1 & H2 & H3) _]; subst.
  rewrite jpeek_mk by (try apply all_white_nil; auto; lia). cbn [obind]. unfold delim in H2.
  replace (c =? 123) with false by lia. replace (c =? 91) with false by lia. replace (c =? 34) with false by lia.
  replace (c :: t') with ((c :: t') ++ []) by apply app_nil_r. apply (doRaw_mk ff _ [] v); simpl; auto.
Qed.
Theorem C42_integers_exact : forall ff z s, LONG_MIN <= z <= LONG_MAX -> decimal_text z s -> parse ff s = Ok (VLong z).
Proof.
  intros ff z s Hz Hs. destruct (decimal_raw z s Hs Hz) as (A & B & c & t & E & Hc).
  eapply parse_raw; eauto. unfold digit in Hc. lia.
Qed.
Theorem C42_written_as_decimal : forall fmtf z ind, decimal_text z (format fmtf (VLong z) ind).
Proof. intros. apply dec_spec. Qed.
Theorem C42_fractions_truncated : forall ff d f, Forall digit d -> d <> [] -> Forall digit f ->
  (number_of d <= LONG_MAX -> parse ff (d ++ 46 :: f) = Ok (VLong (number_of d))) /\
  (number_of d <= - LONG_MIN -> parse ff (45 :: d ++ 46 :: f) = Ok (VLong (- number_of d))).
Proof.
  intros ff d f Hd Hn Hf.
  destruct (extract_long_digits d (46 :: f) Hd Hn eq_refl) as [E1 E2].
  assert (Hraw : forall c, digit c -> raw_char c).
  { intros c Hc. unfold digit in Hc. unfold raw_char, isspace, delim. lia. }
  assert (R : Forall raw_char (d ++ 46 :: f)).
  { apply Forall_app. split; [eapply Forall_impl; [|exact Hd]; auto|].
    constructor; [unfold raw_char; repeat split; auto; discriminate|]. eapply Forall_impl; [|exact Hf]; auto. }
  destruct d as [|c d]; [congruence|]. inversion Hd; subst. split; intros H.
  - eapply parse_raw; [reflexivity|exact R|unfold digit in H1; lia|].
    cbn [app]. rewrite digits_not_true by auto. unfold toNumber. change (c :: d ++ 46 :: f) with ((c :: d) ++ 46 :: f). rewrite E1 by auto. reflexivity.
  - eapply parse_raw; [reflexivity| |discriminate|].
    + constructor; [unfold raw_char; repeat split; auto; discriminate|exact R].
    + rewrite digits_not_true by auto. unfold toNumber. rewrite E2 by auto. reflexivity.
Qed.
Example C42_example : decimal_text (-120) [45;49;50;48] /\ parse false (txt "-120") = Ok (VLong (-120)) /\
  parse false (txt "3.14") = Ok (VLong 3) /\ parse false (txt "-9223372036854775808.5") = Ok (VLong LONG_MIN).
Proof.
  split; [|repeat split; vm_compute; reflexivity].
  exists [49;50;48]. repeat split; try discriminate.
  - repeat constructor; discriminate.
  - right. repeat split.
Qed.

(** The three words, after any white space. *)
Lemma parse_word : forall ff w t c t', all_white w -> t = c :: t' -> Forall raw_char t -> c <> 34 -> parse ff (w ++ t) = raw_value t.
Proof.
  intros ff w t c t' Hw Ht Hc Hq. unfold parse.
  rewrite (read_var_from (js_open ff (w ++ t)) 1 (let* r := raw_value t in Ok (r, ended ff))).
  - destruct (raw_value t); reflexivity.
  - cbn [doValue]. subst t. change (js_open ff (w ++ c :: t')) with (mk ff (w ++ c :: t')).
    inversion Hc as [|? ? (H1 & H2 & H3) _]; subst.
    rewrite jpeek_mk by (auto; lia). cbn [obind]. unfold delim in H2.
    replace (c =? 123) with false by lia. replace (c =? 91) with false by lia. replace (c =? 34) with false by lia.
    replace (c :: t') with ((c :: t') ++ []) by apply app_nil_r. unfold doRaw. rewrite raw_loop_mk; [|auto|exact Logic.I|simpl; rewrite app_length; lia].
    cbn [obind app]. rewrite app_nil_r. reflexivity.
  - unfold raw_value. rewrite !str_eq_ok. cbn [obind]. repeat (destruct (list_eq_dec Z.eq_dec _ _); [discriminate|]).
    destruct (vdefined (toNumber t)); discriminate.
Qed.
Theorem C42_words : forall ff w, all_white w ->
  parse ff (w ++ txt "true") = Ok (VInt 1) /\ parse ff (w ++ txt "false") = Ok (VInt 0) /\ parse ff (w ++ txt "null") = Ok VNil.
Proof.
  intros ff w Hw. assert (R : forall t, t = "true"%string \/ t = "false"%string \/ t = "null"%string -> Forall raw_char (txt t)).
  { intros t Ht. destruct Ht as [Ht|[Ht|Ht]]; subst t; repeat constructor; discriminate. }
  split; [|split]; (erewrite parse_word; [|exact Hw|reflexivity|apply R; auto|discriminate]); vm_compute; reflexivity.
Qed.
(** Any other word that cannot be the beginning of a number is rejected. *)
Theorem C42_other_words : forall ff w c t, all_white w -> Forall raw_char (c :: t) -> c <> 34 -> ~ digit c -> ~ In c [43; 45; 46] ->
  c :: t <> txt "true" -> c :: t <> txt "false" -> c :: t <> txt "null" -> exists m, parse ff (w ++ c :: t) = Throw m.
Proof.
  intros ff w c t Hw Hr Hq Hd Hs H1 H2 H3. rewrite (parse_word ff w (c :: t) c t) by auto. unfold raw_value. rewrite !str_eq_ok. cbn [obind].
  repeat (destruct (list_eq_dec Z.eq_dec _ _); [congruence|]). inversion Hr as [|? ? (R1 & R2 & R3) _]; subst.
  assert (D : isdigit c = false) by (unfold digit in Hd; unfold isdigit; lia).
  assert (S : (c =? 45) = false /\ (c =? 43) = false /\ (c =? 46) = false) by (cbn [In] in Hs; lia). destruct S as (S1 & S2 & S3).
  assert (V : vs_text (c :: t) = c :: vs_text t) by (cbn [vs_text]; replace (c =? -1) with false by lia; reflexivity).
  unfold toNumber, extract_long, extract_double, extract_float. rewrite V. cbn [skip_space]. rewrite R1. cbn [take_sign]. rewrite S1, S2. cbn [take_digits]. rewrite D. cbn [fst].
  rewrite S3. cbn [app vdefined]. eexists. reflexivity.
Qed.
Example C42_words_example : parse false (txt "  false") = Ok (VInt 0) /\ parse false (txt "nul") = Throw "Unrecognised JSON raw value: " /\
  parse true (txt "Infinity") = Throw "Unrecognised JSON raw value: ".
Proof. split; [|split]; vm_compute; reflexivity. Qed.

(** * C43 *)
Definition intish (a : val) : Prop := a = VNil \/ (exists z, a = VLong z) \/ (exists l, a = VArr TLong l).
Lemma intish_push : forall a z, intish a -> exists a', push a (VLong z) = Ok a' /\ intish a'.
Proof.
  intros a z [->|[(y & ->)|(l & ->)]]; eexists; split; try reflexivity; unfold intish; eauto.
Qed.
Lemma array_ints_throw : forall ff l, l <> [] -> Forall (fun z => LONG_MIN <= z <= LONG_MAX) l -> forall a w, intish a ->
  all_white w ->
  exists m f0, forall f, (f0 <= f)%nat ->
    array_loop f a (mk ff (w ++ sep_items (map dec l) ++ [93])) = Throw m.
Proof.
  intros ff l Hn Hl. induction Hl as [|z l Hz Hl IH]; [congruence|]. intros a w Ha Hw.
  destruct (decimal_raw z (dec z) (dec_spec z) Hz) as (Hr & Hv & c & t & E & Hc).
  destruct (intish_push a z Ha) as (a' & Hp & Ha').
  assert (Step : forall rest R, (rest = [93] \/ exists r, rest = 44 :: r) ->
     (exists f0, forall f, (f0 <= f)%nat -> array_loop f a' (mk ff (tl rest)) = R) ->
     exists f0, forall f, (f0 <= f)%nat -> array_loop f a (mk ff (w ++ dec z ++ rest)) = R).
  { intros rest R Hrest HR.
    apply (array_value ff (fun _ => []) w a (VLong z) 0%nat rest a' R); auto.
    - constructor; auto.
    - apply json_reads. constructor; auto.
    - intros _. destruct Hrest as [->|(r & ->)]; simpl; auto.
    - unfold left. cbn [raw]. destruct Hrest as [->|(r & ->)]; auto. }
  destruct l as [|y l].
  - exists "Unrecognised JSON raw value: "%string. cbn [map sep_items].
    apply Step; auto. cbn [tl].
    exists 2%nat. intros f Hf. destruct f; [lia|]. destruct f; [lia|]. destruct ff; reflexivity.
  - destruct (IH ltac:(discriminate) a' [32] Ha') as (m & f0 & H).
    { intros x [<-|[]]. unfold white; simpl; auto. }
    exists m. cbn [map sep_items]. rewrite <- !app_assoc. apply Step.
    + right. eexists. reflexivity.
    + exists f0. exact H.
Qed.
Lemma dense_throws : forall ff l, l <> [] -> Forall (fun z => LONG_MIN <= z <= LONG_MAX) l ->
  exists m, parse ff (91 :: sep_items (map dec l) ++ [93]) = Throw m.
Proof.
  intros ff l Hn Hl. destruct (array_ints_throw ff l Hn Hl VNil [] ltac:(left; auto) all_white_nil) as (m & f0 & H).
  exists m. unfold parse. rewrite (read_var_from _ (S f0) (Throw m)); [reflexivity| |discriminate].
  cbn [doValue]. change (js_open ff (91 :: sep_items (map dec l) ++ [93])) with (mk ff ([] ++ 91 :: sep_items (map dec l) ++ [93])).
  rewrite jpeek_mk by (try apply all_white_nil; destruct ff; reflexivity). cbn [obind].
  change (91 =? 123) with false. change (91 =? 91) with true. cbv iota.
  rewrite get_mk by (destruct ff; reflexivity). cbn [char_or_eof]. change (negb (91 =? 91)) with false. cbv iota.
  apply H; auto.
Qed.
(** Not only for two or more elements: one suffices. *)
Theorem C43_dense_arrays_do_not_read_back : forall ff fmtf l, l <> [] ->
  (Forall (fun z => INT_MIN <= z <= INT_MAX) l ->
     exists m, parse ff (format fmtf (VArr TInt (map VInt l)) 0) = Throw m) /\
  (Forall (fun z => LONG_MIN <= z <= LONG_MAX) l ->
     exists m, parse ff (format fmtf (VArr TLong (map VLong l)) 0) = Throw m).
Proof.
  intros ff fmtf l Hn. split; intros Hl; cbn [format]; rewrite map_map; cbn [format].
  - apply dense_throws; auto. eapply Forall_impl; [|exact Hl]. cbv beta. unfold INT_MIN, INT_MAX, LONG_MIN, LONG_MAX. intros; lia.
  - apply dense_throws; auto.
Qed.
Example C43_example : parse true (format (fun _ => []) (VArr TInt [VInt 1; VInt 2]) 0) = Throw "Unrecognised JSON raw value: " /\
  format (fun _ => []) (VArr TInt [VInt 1; VInt 2]) 0 = txt "[1, 2]".
Proof. split; vm_compute; reflexivity. Qed.

(** * C59 *)
(** An object that breaks off after a number is accepted as if it were complete. *)
Theorem C59_truncated_object_accepted : forall ff s z, plain_text ff s -> LONG_MIN <= z <= LONG_MAX ->
  parse ff (txt "{""" ++ s ++ txt """: " ++ dec z) = Ok (VMap [(vstr s, VLong z)]).
Proof.
  intros ff s z Hs Hz. unfold parse.
  assert (Ha : assign (VNil, VNil) (VMap []) (vstr s) (VLong z) = Ok (VMap [(vstr s, VLong z)])) by reflexivity.
  destruct (object_entry ff (fun _ => []) [] [] VNil s (VLong z) 0%nat [] [(vstr s, VLong z)] (Ok (VMap [(vstr s, VLong z)], ended ff)) all_white_nil Hs) as (f0 & H).
  - apply json_reads. constructor; auto.
  - intros _. simpl. auto.
  - exact Ha.
  - exists 1%nat. intros f Hf. destruct f; [lia|]. reflexivity.
  - cbn [app format] in H. rewrite app_nil_r in H.
    rewrite (read_var_from _ (S f0) (Ok (VMap [(vstr s, VLong z)], ended ff))); [reflexivity| |discriminate].
    cbn [doValue]. change (js_open ff (txt "{""" ++ s ++ txt """: " ++ dec z)) with (mk ff ([] ++ 123 :: 34 :: s ++ 34 :: 58 :: 32 :: dec z)).
    rewrite jpeek_mk by (try apply all_white_nil; destruct ff; reflexivity). cbn [obind].
    change (123 =? 123) with true. cbv iota.
    rewrite get_mk by (destruct ff; reflexivity). cbn [char_or_eof]. change (negb (123 =? 123)) with false. cbv iota.
    apply H; auto.
Qed.
(** The complete object reads as the same value, so the two texts cannot be told apart. *)
Theorem C59_same_as_complete : forall ff s z, plain_text ff s -> LONG_MIN <= z <= LONG_MAX ->
  parse ff (txt "{""" ++ s ++ txt """: " ++ dec z) =
  parse ff (format (fun _ => []) (VMap [(vstr s, VLong z)]) 0).
Proof.
  intros ff s z Hs Hz. rewrite C59_truncated_object_accepted by auto. symmetry. apply C40_round_trip.
  constructor.
  - split; [|repeat constructor]. constructor; [|constructor]. constructor.
    + intros c Hc. apply Hs in Hc. lia.
    + intros X. apply Hs in X. lia.
  - constructor; [|constructor]. exists s. auto.
  - constructor; [|constructor]. constructor. auto.
Qed.
Example C59_example : parse false (txt "{""port"": 80") = Ok (VMap [(vstr (txt "port"), VLong 80)]).
Proof. vm_compute. reflexivity. Qed.

(** * C60 *)
(** An array holding one number reads as the number itself. *)
Theorem C60_singleton_number_array_collapses : forall ff z, LONG_MIN <= z <= LONG_MAX ->
  parse ff (txt "[" ++ dec z ++ txt " ]") = Ok (VLong z).
Proof.
  intros ff z Hz. unfold parse.
  destruct (array_value ff (fun _ => []) [] VNil (VLong z) 0%nat [32;93] (VLong z) (Ok (VLong z, mk ff [])) all_white_nil) as (f0 & H).
  - constructor; auto.
  - apply json_reads. constructor; auto.
  - intros _. simpl. auto.
  - reflexivity.
  - unfold left. cbn [raw after]. apply (array_close ff []). apply all_white_nil.
  - cbn [app format] in H.
    rewrite (read_var_from _ (S f0) (Ok (VLong z, mk ff []))); [reflexivity| |discriminate].
    cbn [doValue]. change (js_open ff (txt "[" ++ dec z ++ txt " ]")) with (mk ff ([] ++ 91 :: dec z ++ [32; 93])).
    rewrite jpeek_mk by (try apply all_white_nil; destruct ff; reflexivity). cbn [obind].
    change (91 =? 123) with false. change (91 =? 91) with true. cbv iota.
    rewrite get_mk by (destruct ff; reflexivity). cbn [char_or_eof]. change (negb (91 =? 91)) with false. cbv iota.
    apply H; auto.
Qed.
Example C60_example : parse false (txt "[-12 ]") = Ok (VLong (-12)) /\ parse false (txt "[-12 4 ]") = Ok (VArr TLong [VLong (-12); VLong 4]).
Proof. split; vm_compute; reflexivity. Qed.

Print Assumptions C39_reading_finishes.
Print Assumptions C39_without_arrays.
Print Assumptions C39_value_or_exception_refuted.
Print Assumptions C40_round_trip.
Print Assumptions C40_round_trip_in_context.
Print Assumptions C40_numeric_head_refuted.
Print Assumptions C40_int_becomes_long.
Print Assumptions C40_empty_array_becomes_nil.
Print Assumptions C41_not_escaped.
Print Assumptions C42_integers_exact.
Print Assumptions C42_written_as_decimal.
Print Assumptions C42_fractions_truncated.
Print Assumptions C43_dense_arrays_do_not_read_back.
Print Assumptions C59_truncated_object_accepted.
Print Assumptions C59_same_as_complete.
Print Assumptions C60_singleton_number_array_collapses.
