(** Properties C30 - C37: strings. *)
From Coq Require Import ZArith Bool List Lia.
From Verif Require Import Base StrModel StrSpec StrProof Utf8Proof LineProof.
Import ListNotations.
Local Open Scope Z_scope.

(** C30: splitting by a non-empty separator terminates, the pieces glued with the
    separator are the string, each piece ends at the first occurrence of the separator
    and the last one has no occurrence; [join] is the gluing. *)
Theorem C30_split_join : forall s sep fuel, nul_free s -> nul_free sep -> sep <> [] ->
  (length s < fuel)%nat ->
  exists ps lst, split fuel s sep 0 = Ok (ps ++ [lst]) /\
    glue sep (ps ++ [lst]) = s /\ join (ps ++ [lst]) sep = s /\
    Forall (leftmost sep) ps /\ (forall p, In p (ps ++ [lst]) -> ~ occurs sep p).
Proof.
  intros s sep fuel Hs Hp Hne Hf. unfold split. rewrite !c_str_id by auto.
  change (negb (0 =? 1)) with true. cbv iota.
  destruct (split_loop_unl fuel sep s [] Hne Hf) as (ps & lst & H1 & H2 & H3 & H4).
  rewrite H1. exists ps, lst. cbn [obind app]. repeat split; auto.
  - rewrite join_spec by auto. auto.
  - intros p Hin (pre & post & E). apply in_app_iff in Hin. destruct Hin as [Hin|[<-|[]]].
    + rewrite Forall_forall in H3. specialize (H3 p Hin pre (post ++ sep)).
      rewrite E, <- !app_assoc in H3. specialize (H3 eq_refl).
      apply app_eq_nil in H3. tauto.
    + apply H4. exists pre, post. auto.
Qed.

(** join alone, for any pieces. *)
Theorem C30_join_glue : forall l sep, nul_free sep -> join l sep = glue sep l.
Proof. exact join_spec. Qed.

(** A limit n >= 1 keeps the first n-1 pieces and leaves the rest of the string in the
    last one. *)
Theorem C30_split_limit : forall s sep fuel n ps, nul_free s -> nul_free sep -> sep <> [] ->
  (length s < fuel)%nat -> (1 <= n)%nat -> split fuel s sep 0 = Ok ps ->
  let lim := if (length ps <=? n)%nat then ps
             else firstn (n - 1) ps ++ [glue sep (skipn (n - 1) ps)] in
  split fuel s sep (Z.of_nat n) = Ok lim /\ (length lim <= n)%nat /\ glue sep lim = s.
Proof.
  intros s sep fuel n ps Hs Hp Hne Hf Hn Hsp lim. revert Hsp. unfold split. rewrite !c_str_id by auto.
  change (negb (0 =? 1)) with true. cbv iota.
  destruct (split_loop_unl fuel sep s [] Hne Hf) as (qs & lst & H1 & H2 & H3 & H4).
  rewrite H1. cbn [obind app]. intros Hsp. inversion Hsp; subst ps; clear Hsp.
  assert (Hlen : length (qs ++ [lst]) = S (length qs)) by (rewrite app_length; simpl; lia).
  assert (Hlim : (length lim <= n)%nat /\ glue sep lim = s).
  { unfold lim. destruct (Nat.leb_spec (length (qs ++ [lst])) n); [auto|].
    split.
    - rewrite app_length, firstn_length_le by lia. simpl. lia.
    - rewrite H2. destruct n as [|n]; [lia|]. replace (S n - 1)%nat with n by lia.
      assert (G : forall l k, (k < length l)%nat -> glue sep (firstn k l ++ [glue sep (skipn k l)]) = glue sep l).
      { induction l as [|x l]; intros k Hk; [simpl in Hk; lia|]. destruct k; [reflexivity|].
        cbn [firstn skipn app]. simpl in Hk. rewrite (glue_cons sep x (firstn k l ++ _)) by (intros E; apply app_eq_nil in E; destruct E; discriminate).
        rewrite IHl by lia. destruct l; [simpl in Hk; lia|]. rewrite (glue_cons sep x) by discriminate. reflexivity. }
      apply G. lia. }
  split; [|exact Hlim].
  destruct (Z.eqb_spec (Z.of_nat n) 1) as [E|E].
  - assert (n = 1%nat) by lia. subst n. cbn [negb obind app]. unfold lim.
    rewrite Hlen. destruct qs as [|q qs]; [simpl in *; rewrite H2; auto|].
    simpl Nat.leb. cbv iota. simpl. rewrite H2. reflexivity.
  - cbn [negb]. pose proof (split_loop_lim fuel sep s [] (Z.of_nat n) Hne Hf ltac:(lia) ltac:(simpl; lia) qs lst H1 H2) as L.
    cbv zeta in L. cbn [length app] in L. replace (Z.to_nat (Z.of_nat n - 1 - Z.of_nat 0)) with (n - 1)%nat in L by lia.
    rewrite L. unfold lim. rewrite Hlen.
    destruct (Nat.ltb_spec (length qs) (n - 1)); destruct (Nat.leb_spec (S (length qs)) n); try lia; cbn [obind]; auto.
    + assert (n - 1 = length qs)%nat by lia. rewrite H5, firstn_all, skipn_app, skipn_all, Nat.sub_diag. reflexivity.
    + rewrite firstn_app. replace (n - 1 - length qs)%nat with 0%nat by lia. simpl. rewrite app_nil_r. reflexivity.
Qed.

(** "a::b:c::" split by "::" *)
Example C30_example : split 20 [97;58;58;98;58;99;58;58] [58;58] 0 = Ok [[97]; [98;58;99]; []]
  /\ split 20 [97;58;58;98;58;99;58;58] [58;58] 2 = Ok [[97]; [98;58;99;58;58]]
  /\ nul_free [97;58;58;98;58;99;58;58] /\ nul_free [58;58].
Proof. repeat split; unfold nul_free; intros H; simpl in H; intuition discriminate. Qed.

(** C31 *)
Theorem C31_split_empty_never_returns : forall fuel s, split fuel s [] 0 = Fuel.
Proof. intros. unfold split. change (negb (0 =? 1)) with true. cbv iota. rewrite split_empty_diverges. reflexivity. Qed.

(** With a limit it does return: n-1 empty pieces and the whole string. *)
Theorem C31_split_empty_limited : forall fuel s n, nul_free s -> (1 <= n)%nat -> (n <= fuel)%nat ->
  split fuel s [] (Z.of_nat n) = Ok (repeat [] (n - 1) ++ [s]).
Proof.
  intros fuel s n Hs Hn Hf. unfold split. rewrite (c_str_id s) by auto. cbn [c_str].
  destruct (Z.eqb_spec (Z.of_nat n) 1).
  - assert (n = 1%nat) by lia. subst. reflexivity.
  - cbn [negb].
    assert (H : forall f r, Z.of_nat (length r) < Z.of_nat n - 1 -> (n - 1 - length r <= f)%nat ->
       split_loop f [] (Z.of_nat n) s r = Ok (r ++ repeat [] (n - 1 - length r), s)).
    { induction f; intros r Hr Hfr; [lia|]. cbn [split_loop]. rewrite strstr_nil.
      cbn [firstn length Nat.add skipn]. destruct (Z.eqb_spec (Z.of_nat n) 0); [lia|]. cbn [negb andb].
      rewrite app_length. cbn [length].
      destruct (Z.leb_spec (Z.of_nat n - 1) (Z.of_nat (length r + 1))).
      - replace (n - 1 - length r)%nat with 1%nat by lia. reflexivity.
      - rewrite IHf; rewrite ?app_length; cbn [length]; try lia.
        replace (n - 1 - length r)%nat with (S (n - 1 - (length r + 1))) by lia.
        rewrite <- app_assoc. reflexivity. }
    rewrite H by (simpl; lia). cbn [obind length app]. rewrite Nat.sub_0_r. reflexivity.
Qed.
Example C31_example : split 10 [97;98] [] 3 = Ok [[]; []; [97;98]].
Proof. reflexivity. Qed.

(** C32: the words of the string; [Ok []] stands for nil. *)
Theorem C32_wsplit_words : forall s fuel, nul_free s -> (length s < fuel)%nat ->
  exists ws, wsplit fuel s 0 = Ok ws /\ words s ws /\ (forall ws', words s ws' -> ws' = ws) /\
    (ws = [] <-> all_white s).
Proof.
  intros s fuel Hs Hf. unfold wsplit. rewrite c_str_id by auto.
  destruct (skip_space_spec s) as (a & H1 & H2 & H3).
  assert (Hl : (length (skip_space s) < fuel)%nat).
  { assert (length s = length a + length (skip_space s))%nat by (rewrite H1 at 1; apply app_length). lia. }
  destruct (wsplit_loop_unl fuel (skip_space s) [] Hl H3) as (ws & H4 & H5).
  exists ws. cbn [app] in H4. rewrite H4.
  assert (W : words s ws) by (rewrite H1; apply words_skip; auto).
  repeat split; auto.
  - intros ws' W'. eapply words_fun; eauto.
  - intros ->. inversion W; auto.
  - intros Hw. eapply words_white_nil; eauto.
Qed.

(** A limit n >= 2: the first n-1 words and, if there are more, one last piece holding the
    rest of the string from its next word on (trailing white space included). *)
Theorem C32_wsplit_limit : forall s fuel n ws, nul_free s -> (length s < fuel)%nat -> (2 <= n)%nat -> words s ws ->
  if (length ws <=? n - 1)%nat then wsplit fuel s (Z.of_nat n) = Ok ws
  else exists front rest, wsplit fuel s (Z.of_nat n) = Ok (firstn (n - 1) ws ++ [rest]) /\
     s = front ++ rest /\ words rest (skipn (n - 1) ws) /\ ~ white (hd 0 rest).
Proof.
  intros s fuel n ws Hs Hf Hn W. unfold wsplit. rewrite c_str_id by auto.
  destruct (skip_space_spec s) as (a & H1 & H2 & H3).
  assert (Hl : (length (skip_space s) < fuel)%nat).
  { assert (length s = length a + length (skip_space s))%nat by (rewrite H1 at 1; apply app_length). lia. }
  destruct (wsplit_loop_unl fuel (skip_space s) [] Hl H3) as (ws' & H4 & H5).
  assert (ws = ws') by (eapply words_fun; [exact W|]; rewrite H1; apply words_skip; auto). subst ws'.
  pose proof (wsplit_loop_lim fuel (skip_space s) [] (Z.of_nat n) ws Hl H3 H5 ltac:(lia) ltac:(simpl; lia)) as L.
  cbv zeta in L. cbn [length app] in L. replace (Z.to_nat (Z.of_nat n - 1 - Z.of_nat 0)) with (n - 1)%nat in L by lia.
  destruct (Nat.leb_spec (length ws) (n-1)); auto.
  destruct L as (rest & L1 & L2 & L3 & front & L4).
  exists (a ++ front), rest. repeat split; auto.
  - rewrite H1 at 1. rewrite L4, app_assoc. reflexivity.
  - destruct L2 as [->|(c & t & -> & Hc)]; [simpl; unfold white; simpl; intuition discriminate|exact Hc].
Qed.

(** A limit of 1, and any negative limit, behaves as 2: it can give two pieces. *)
Theorem C32_wsplit_limit_one : forall s fuel n, nul_free s -> (length s < fuel)%nat -> n <= 1 -> n <> 0 ->
  wsplit fuel s n = wsplit fuel s 2.
Proof.
  intros s fuel n Hs Hf Hn Hn0. unfold wsplit. rewrite c_str_id by auto.
  destruct (skip_space_spec s) as (a & H1 & H2 & H3).
  apply wsplit_loop_low; auto.
  assert (length s = length a + length (skip_space s))%nat by (rewrite H1 at 1; apply app_length). lia.
Qed.
(** " ab c  d " *)
Example C32_example : wsplit 20 [32;97;98;32;99;32;32;100;32] 0 = Ok [[97;98];[99];[100]]
  /\ wsplit 20 [32;97;98;32;99;32;32;100;32] 2 = Ok [[97;98];[99;32;32;100;32]]
  /\ wsplit 20 [32;97;98;32;99;32;32;100;32] 1 = Ok [[97;98];[99;32;32;100;32]].
Proof. repeat split. Qed.

(** C33 *)
Theorem C33_strip_exact : forall a t b, all_white a -> all_white b -> t <> [] ->
  ~ white (hd 0 t) -> ~ white (last t 0) -> strip_inplace (a ++ t ++ b) = Ok t.
Proof. exact strip_ok. Qed.

Theorem C33_strip_cases : forall s,
  (s = [] /\ strip_inplace s = Ok []) \/
  (s <> [] /\ all_white s /\ strip_inplace s = UB BadSize) \/
  (exists a t b, s = a ++ t ++ b /\ all_white a /\ all_white b /\ t <> [] /\ ~ white (hd 0 t) /\ ~ white (last t 0)
     /\ strip_inplace s = Ok t).
Proof.
  intros s. destruct (strip_decompose s) as [H|(a & t & b & -> & Ha & Hb & Ht & Hh & Hl)].
  - destruct s as [|c s]; [left; auto|]. right. left. split; [discriminate|]. split; auto. apply strip_blank; auto. discriminate.
  - right. right. exists a, t, b. repeat split; auto. apply strip_ok; auto.
Qed.

(** The out-of-place form never delivers a stripped string: it writes to freed storage
    (or trips the assert on a blank string) unless the string is empty. *)
Theorem C33_strip_outofplace_refuted : forall s r, strip_outofplace s = Ok r -> s = [] /\ r = [].
Proof.
  intros s r H. unfold strip_outofplace in H.
  destruct (strip_decompose s) as [Hw|(a & t & b & -> & Ha & Hb & Ht & Hh & Hl)].
  - assert (L : count_space s = length s) by (rewrite <- (app_nil_r s) at 1; apply count_space_split; auto).
    assert (T : count_space (rev s) = length s).
    { rewrite <- (app_nil_r (rev s)) at 1. rewrite count_space_split, rev_length; auto. intros c Hc. apply Hw. apply in_rev. auto. }
    rewrite L, T in H. destruct s; [inversion H; auto|]. exfalso. cbn [length] in H.
    destruct (Z.ltb_spec (Z.of_nat (S (length s)) - Z.of_nat (S (length s)) - Z.of_nat (S (length s))) 0); [discriminate|lia].
  - exfalso.
    assert (L : count_space (a ++ t ++ b) = length a).
    { apply count_space_split; auto. right. destruct t as [|c u]; [congruence|]. simpl. eauto. }
    assert (T : count_space (rev (a ++ t ++ b)) = length b).
    { rewrite !rev_app_distr, <- app_assoc. rewrite count_space_split.
      - apply rev_length.
      - intros c Hc. apply Hb. apply in_rev. auto.
      - right. destruct (exists_last Ht) as (u & c & ->). rewrite rev_app_distr. simpl.
        rewrite last_last in Hl. eauto. }
    rewrite L, T, !app_length in H.
    assert (0 < length t)%nat by (destruct t; [congruence|simpl; lia]).
    destruct (Z.ltb_spec (Z.of_nat (length a + (length t + length b)) - Z.of_nat (length a) - Z.of_nat (length b)) 0); [lia|].
    destruct (Z.eqb_spec (Z.of_nat (length a + (length t + length b)) - Z.of_nat (length a) - Z.of_nat (length b)) 0); [lia|].
    discriminate.
Qed.
Example C33_example : strip_inplace [32;9;97;32;98;10] = Ok [97;32;98] /\ strip_inplace [32;32] = UB BadSize
  /\ strip_outofplace [32;97] = UB UseAfterFree.
Proof. repeat split. Qed.

(** C34 *)
Theorem C34_case : forall s, chars s ->
  length (str_toupper s) = length s /\ length (str_tolower s) = length s /\
  str_toupper (str_toupper s) = str_toupper s /\ str_tolower (str_tolower s) = str_tolower s /\
  str_tolower (str_toupper s) = str_tolower s /\ str_toupper (str_tolower s) = str_toupper s /\
  (forall i, (i < length s)%nat ->
     (97 <= nth i s 0 <= 122 -> nth i (str_toupper s) 0 = nth i s 0 - 32) /\
     (~ 97 <= nth i s 0 <= 122 -> nth i (str_toupper s) 0 = nth i s 0) /\
     (65 <= nth i s 0 <= 90 -> nth i (str_tolower s) 0 = nth i s 0 + 32) /\
     (~ 65 <= nth i s 0 <= 90 -> nth i (str_tolower s) 0 = nth i s 0)).
Proof.
  intros s _. unfold str_toupper, str_tolower. rewrite !map_length, !map_map.
  assert (D : forall c, (97 <= c <= 122 \/ ~ 97 <= c <= 122) /\ (65 <= c <= 90 \/ ~ 65 <= c <= 90)) by (intros; lia).
  assert (U1 : forall c, 97 <= c <= 122 -> c_toupper c = c - 32).
  { intros c H. unfold c_toupper. destruct (Z.leb_spec 97 c), (Z.leb_spec c 122); cbn [andb]; lia. }
  assert (U2 : forall c, ~ 97 <= c <= 122 -> c_toupper c = c).
  { intros c H. unfold c_toupper. destruct (Z.leb_spec 97 c), (Z.leb_spec c 122); cbn [andb]; lia. }
  assert (L1 : forall c, 65 <= c <= 90 -> c_tolower c = c + 32).
  { intros c H. unfold c_tolower. destruct (Z.leb_spec 65 c), (Z.leb_spec c 90); cbn [andb]; lia. }
  assert (L2 : forall c, ~ 65 <= c <= 90 -> c_tolower c = c).
  { intros c H. unfold c_tolower. destruct (Z.leb_spec 65 c), (Z.leb_spec c 90); cbn [andb]; lia. }
  split; [reflexivity|]. split; [reflexivity|].
  split; [|split; [|split; [|split]]].
  - apply map_ext. intros c. destruct (D c) as [[H|H] _].
    + rewrite (U1 c H). apply U2. lia.
    + rewrite !(U2 c H). reflexivity.
  - apply map_ext. intros c. destruct (D c) as [_ [H|H]].
    + rewrite (L1 c H). apply L2. lia.
    + rewrite !(L2 c H). reflexivity.
  - apply map_ext. intros c. destruct (D c) as [[H|H] _].
    + rewrite (U1 c H), (L1 (c - 32)), (L2 c) by lia. lia.
    + rewrite !(U2 c H). reflexivity.
  - apply map_ext. intros c. destruct (D c) as [_ [H|H]].
    + rewrite (L1 c H), (U1 (c + 32)), (U2 c) by lia. lia.
    + rewrite !(L2 c H). reflexivity.
  - intros i Hi.
    assert (N : forall f : Z -> Z, nth i (map f s) 0 = f (nth i s 0)).
    { intros f. rewrite (nth_indep _ 0 (f 0)) by (rewrite map_length; auto). apply map_nth. }
    rewrite !N. auto.
Qed.
Example C34_example : str_toupper [97;90;-61;49] = [65;90;-61;49] /\ chars [97;90;-61;49].
Proof. split; [reflexivity|]. intros c H. simpl in H. intuition lia. Qed.

(** C35 *)
Theorem C35_len_code_points : forall cps, Forall (fun cp => 0 <= cp < 1114112) cps ->
  len (concat (map utf8_enc cps)) = Ok (Z.of_nat (length cps)).
Proof.
  intros cps H. destruct (utf8_enc_cut cps H) as [H1 H2]. unfold len.
  destruct (len_loop_spec (S (length (concat (map utf8_enc cps)))) [] (concat (map utf8_enc cps)) 0 H2 ltac:(lia)) as [(n & H3 & H4)|(H3 & H4)].
  - cbn [app length] in H4. rewrite (utf8_cut_fun _ _ H3 _ H1) in H4. exact H4.
  - exfalso. eapply H3; eauto.
Qed.

Theorem C35_len_total : forall s, chars s ->
  (exists n, 0 <= n /\ utf8_cut s n /\ len s = Ok n) \/ ((forall n, ~ utf8_cut s n) /\ len s = Ok (-1)).
Proof.
  intros s H. unfold len.
  destruct (len_loop_spec (S (length s)) [] s 0 H ltac:(lia)) as [(n & H3 & H4)|(H3 & H4)].
  - left. exists n. cbn [app length] in H4. split; [eapply utf8_cut_nonneg; eauto|]. auto.
  - right. auto.
Qed.
Example C35_example : len (concat (map utf8_enc [97; 233; 8364; 128512])) = Ok 4 /\ len [-61] = Ok (-1).
Proof. split; reflexivity. Qed.

(** C36: one line at a time, for any previous content of the variable. *)
Theorem C36_getline_line : forall old line rest fuel, ~ In 10 line -> (length line < fuel)%nat ->
  getline fuel old (mkis (line ++ 10 :: rest)) = Ok (Some line, mkis rest).
Proof. exact getline_line. Qed.
Theorem C36_getline_unterminated : forall old line fuel, line <> [] -> ~ In 10 line -> (S (length line) < fuel)%nat ->
  exists is', getline fuel old (mkis line) = Ok (Some (line ++ [-1]), is') /\
    forall old' fuel', exists is'', getline fuel' old' is' = Ok (None, is'').
Proof.
  intros. eexists. split; [apply getline_last; auto|]. intros. eexists. apply getline_eof.
Qed.
Theorem C36_getline_eof : forall old fuel, exists is', getline fuel old (mkis []) = Ok (None, is').
Proof. intros. eexists. apply getline_eof. Qed.
(** Reading everything: whatever the content, the reader ends without leaving its buffer
    and returns the terminated lines, plus the rest and 0xFF if there is a rest. *)
Theorem C36_read_all : forall content, exists ls rest,
  content = lines ls ++ rest /\ Forall (fun x => ~ In 10 x) ls /\ ~ In 10 rest /\
  txt_read content = Ok (ls ++ match rest with [] => [] | _ => [rest ++ [-1]] end).
Proof.
  intros content. destruct (lines_decompose content) as (ls & rest & -> & H1 & H2).
  exists ls, rest. repeat split; auto. apply txt_read_spec; auto.
Qed.
Example C36_example : txt_read [97;98;10;10;99] = Ok [[97;98]; []; [99;-1]].
Proof. vm_compute. reflexivity. Qed.

(** C37 *)
Theorem C37_write_read : forall l, Forall (fun s => nul_free s /\ ~ In 10 s) l ->
  txt_read (txt_write l) = Ok (map (fun s => [34] ++ s ++ [34]) l).
Proof.
  intros l H.
  assert (E : txt_write l = lines (map (fun s => [34] ++ s ++ [34]) l) ++ []).
  { rewrite app_nil_r. unfold txt_write, lines. rewrite map_map. f_equal. apply map_ext_in.
    intros s Hs. rewrite Forall_forall in H. destruct (H s Hs). rewrite c_str_id by auto.
    rewrite <- !app_assoc. reflexivity. }
  rewrite E, txt_read_spec.
  - rewrite app_nil_r. reflexivity.
  - apply Forall_forall. intros x Hx. apply in_map_iff in Hx. destruct Hx as (s & <- & Hs).
    rewrite Forall_forall in H. destruct (H s Hs) as [_ Hn]. simpl. rewrite in_app_iff. simpl. intuition discriminate.
  - auto.
Qed.
Example C37_example : txt_read (txt_write [[97]; []]) = Ok [[34;97;34]; [34;34]].
Proof. vm_compute. reflexivity. Qed.

Print Assumptions C30_split_join.
Print Assumptions C30_join_glue.
Print Assumptions C30_split_limit.
Print Assumptions C31_split_empty_never_returns.
Print Assumptions C31_split_empty_limited.
Print Assumptions C32_wsplit_words.
Print Assumptions C32_wsplit_limit.
Print Assumptions C32_wsplit_limit_one.
Print Assumptions C33_strip_exact.
Print Assumptions C33_strip_cases.
Print Assumptions C33_strip_outofplace_refuted.
Print Assumptions C34_case.
Print Assumptions C35_len_code_points.
Print Assumptions C35_len_total.
Print Assumptions C36_getline_line.
Print Assumptions C36_getline_unterminated.
Print Assumptions C36_getline_eof.
Print Assumptions C36_read_all.
Print Assumptions C37_write_read.
