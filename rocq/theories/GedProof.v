(** Lemmas for the GEDCOM reader. *)
From Coq Require Import ZArith Bool List Lia ZifyBool Sorting String.
From Verif Require Import Base StrModel StrSpec StrProof StrProps LineProof ValModel ValSpec ValProof MapProof ValProps
  NumModel JsonModel JsonSpec JsonProof JsonRound IniModel IniSpec IniProof GedModel GedSpec.
Import ListNotations.
Local Notation length := List.length.
Local Open Scope list_scope.
Local Open Scope Z_scope.

(** * Lines *)
Lemma glue_cons' : forall sep x l, glue sep (x :: l) = x ++ match l with [] => [] | _ => sep ++ glue sep l end.
Proof. intros. destruct l; simpl; auto. rewrite app_nil_r. auto. Qed.
Lemma glue_in : forall sep l c, In c (glue sep l) -> In c sep \/ exists x, In x l /\ In c x.
Proof.
  induction l as [|x l]; intros c H; [contradiction|]. rewrite glue_cons' in H. apply in_app_iff in H.
  destruct H as [H|H]; [right; exists x; split; [left|]; auto|]. destruct l as [|y l]; [contradiction|].
  apply in_app_iff in H. destruct H as [H|H]; auto. destruct (IHl c H) as [|(z & Hz & Hc)]; auto. right. exists z. split; [right|]; auto.
Qed.
Lemma glue_unique : forall c P Q, P <> [] -> Q <> [] -> Forall (fun q => ~ In c q) P -> Forall (fun q => ~ In c q) Q ->
  glue [c] P = glue [c] Q -> P = Q.
Proof.
  induction P as [|p P]; intros Q HP HQ FP FQ E; [congruence|]. destruct Q as [|q Q]; [congruence|].
  inversion FP; inversion FQ; subst. destruct Q as [|q' Q].
  - cbn [glue] in E. apply glue_single in E; auto. destruct E; subst. auto.
  - assert (E' : glue [c] (q :: q' :: Q) = q ++ c :: glue [c] (q' :: Q)) by reflexivity. rewrite E' in E.
    apply glue_head in E; auto. destruct E as (-> & Hn & E). f_equal. apply IHP; auto; discriminate.
Qed.
Lemma digit_not : forall d c, Forall digit d -> c < 48 -> ~ In c d.
Proof. intros d c H Hc X. rewrite Forall_forall in H. apply H in X. unfold digit in X. lia. Qed.
Lemma text_clean : forall ln, good_line ln -> nul_free (text ln) /\ ~ In 10 (text ln).
Proof.
  intros [d ws] (Hn & Hd & Hl & Hw). cbn [fst snd] in *. unfold nul_free, text. cbn [fst snd].
  split; intros X; apply glue_in in X; destruct X as [[X|[]]|(x & [->|Hx] & Hc)]; try discriminate;
    try (eapply digit_not in Hc; eauto; lia); rewrite Forall_forall in Hw; apply Hw in Hx; destruct Hx as (? & ? & ? & ?); auto.
Qed.
Lemma split_text : forall ln, good_line ln -> split (S (length (text ln))) (text ln) [32] 0 = Ok (fst ln :: snd ln).
Proof.
  intros ln H. destruct (text_clean ln H) as [H0 H1]. destruct (split_pieces (text ln) 32 H0) as (p & P & -> & G & F); [lia|].
  f_equal. apply (glue_unique 32); auto; try discriminate. destruct H as (Hn & Hd & Hl & Hw). constructor.
  - apply digit_not; auto. lia.
  - eapply Forall_impl; [|exact Hw]. intros w (_ & _ & _ & X). auto.
Qed.
Lemma number_nonneg : forall d, Forall digit d -> 0 <= number_of d.
Proof.
  induction 1; cbn [number_of]; [lia|]. unfold digit in H.
  assert (0 <= 10 ^ Z.of_nat (length l)) by (apply Z.pow_nonneg; lia). nia.
Qed.
Lemma level_nonneg : forall ln, good_line ln -> 0 <= level ln.
Proof. intros ln (_ & H & _). apply number_nonneg. auto. Qed.
Lemma cast_int_str : forall s, cast_int (vstr s) = match extract_int s with Some z => Ok z | None => Throw "basic_ios::clear: iostream error" end.
Proof.
  intros. unfold cast_int, cast, vstr, cast_str. rewrite map_char_of. destruct (extract_int s); reflexivity.
Qed.
Lemma cast_level : forall ln, good_line ln -> cast_int (vstr (fst ln)) = Ok (level ln).
Proof.
  intros ln (Hn & Hd & Hl & Hw). rewrite cast_int_str. unfold extract_int.
  destruct (extract_long_digits (fst ln) [] Hd Hn Logic.I) as [E _]. rewrite app_nil_r in E.
  pose proof (number_nonneg _ Hd). unfold level in *. rewrite E by (unfold INT_MAX, LONG_MAX in *; lia).
  unfold in_int. replace (_ && _) with true; auto. unfold INT_MAX, INT_MIN in *. lia.
Qed.

(** The state in front of lines: the fields are the words of the line just read. *)
Definition st (ls : list line) (tail : str) (fs : list str) (inds fams : list val) (im fm : val) : ged :=
  mkged (mkis (lines (map text ls) ++ tail)) (VArr TVar (map vstr fs)) inds fams im fm.
Lemma readLine_any : forall ln ls tail f inds fams im fm, good_line ln ->
  readLine (mkged (mkis (lines (map text (ln :: ls)) ++ tail)) f inds fams im fm) =
  Ok (level ln, st ls tail (snd ln) inds fams im fm).
Proof.
  intros. destruct (text_clean ln H) as [H0 H1]. unfold readLine. cbn [g_is is_rest mkis].
  replace (lines (map text (ln :: ls)) ++ tail) with (text ln ++ 10 :: (lines (map text ls) ++ tail))
    by (unfold lines; cbn [map List.concat]; rewrite <- !app_assoc; reflexivity).
  rewrite getline_line; auto; [|rewrite app_length; cbn [length]; lia].
  cbn [obind]. rewrite split_text by auto. cbn [obind map]. unfold shift_field. cbn [set_is g_field]. cbn [obind].
  rewrite cast_level by auto. reflexivity.
Qed.
Lemma readLine_next : forall ln ls tail fs inds fams im fm, good_line ln ->
  readLine (st (ln :: ls) tail fs inds fams im fm) = Ok (level ln, st ls tail (snd ln) inds fams im fm).
Proof. intros. apply readLine_any. auto. Qed.

(** * Tags *)
Definition code_of : list (string * Z) :=
  [("CONT", CONT); ("CONC", CONC); ("HEAD", HEAD); ("TRLR", TRLR); ("INDI", INDI); ("FAM", FAM); ("SUBM", SUBM);
   ("NAME", NAME); ("TITL", TITL); ("SEX", SEX); ("FAMC", FAMC); ("FAMS", FAMS); ("BIRT", BIRT); ("DEAT", DEAT);
   ("CHR", CHR); ("BURI", BURI); ("PLAC", PLAC); ("DATE", DATE); ("OCCU", OCCU); ("NOTE", NOTE); ("HUSB", HUSB);
   ("WIFE", WIFE); ("CHIL", CHIL); ("MARR", MARR); ("DIV", DIV); ("REFN", REFN)]%string.
Lemma tagged_words : forall t ln, tagged t ln = true -> snd ln = txt t :: args ln.
Proof.
  intros t [d ws] H. unfold tagged, args in *. cbn [snd] in *. destruct ws as [|w ws]; [discriminate|].
  destruct (list_eq_dec Z.eq_dec w (txt t)); [subst; reflexivity|discriminate].
Qed.
Lemma code_tag : forall t c, In (t, c) code_of -> knownToken (vstr (txt t)) = Ok true /\ token_code (vstr (txt t)) = Ok c.
Proof.
  intros t c H. repeat (destruct H as [H|H]; [injection H as <- <-; split; vm_compute; reflexivity|]). contradiction.
Qed.
Lemma code_exists : forall t, In t tags -> exists c, In (t, c) code_of.
Proof.
  intros t H. repeat (destruct H as [H|H]; [subst; eexists; unfold code_of; cbn [In]; eauto 30|]). contradiction.
Qed.
Lemma code_tags : forall t c, In (t, c) code_of -> In t tags.
Proof. intros t c H. apply (in_map fst) in H. exact H. Qed.
Lemma code_inj : forall a b ca cb, In (a, ca) code_of -> In (b, cb) code_of ->
  (if list_eq_dec Z.eq_dec (txt a) (txt b) then true else false) = (ca =? cb).
Proof.
  assert (X : forallb (fun p => forallb (fun q => Bool.eqb (if list_eq_dec Z.eq_dec (txt (fst p)) (txt (fst q)) then true else false)
    (snd p =? snd q)) code_of) code_of = true) by (vm_compute; reflexivity).
  intros a b ca cb Ha Hb. rewrite forallb_forall in X. apply X in Ha. rewrite forallb_forall in Ha. apply Ha in Hb.
  apply eqb_prop in Hb. exact Hb.
Qed.
Lemma known_line : forall ln, known ln -> exists c t, snd ln = txt t :: args ln /\ In (t, c) code_of /\
  knownToken (vstr (txt t)) = Ok true /\ token_code (vstr (txt t)) = Ok c /\
  (forall s k, In (s, k) code_of -> tagged s ln = (c =? k)).
Proof.
  intros ln (t & Ht & E). destruct (code_exists t Ht) as (c & Hc). exists c, t. pose proof (tagged_words t ln E) as W.
  destruct (code_tag t c Hc) as [A B]. repeat split; auto. intros s k Hk. unfold tagged. rewrite W. apply code_inj; auto.
Qed.

(** * Loops that skip lines: they stop at the first line above a level. *)
Lemma first_below : forall L pre, Forall (fun x : line => L <= level x) pre \/
  exists p1 x p2, pre = p1 ++ x :: p2 /\ Forall (fun x : line => L <= level x) p1 /\ level x < L.
Proof.
  induction pre as [|y pre]; [left; constructor|]. destruct (Z.le_gt_cases L (level y)) as [H|H].
  - destruct IHpre as [F|(p1 & x & p2 & -> & F & Hx)]; [left; auto|].
    right. exists (y :: p1), x, p2. repeat split; auto.
  - right. exists [], y, pre. repeat split; auto.
Qed.
Lemma doHeader_lands : forall pre fuel L ln post tail fs inds fams im fm, (length pre < fuel)%nat ->
  Forall good_line pre -> Forall (fun x => L <= level x) pre -> good_line ln -> level ln < L ->
  doHeader fuel L (st (pre ++ ln :: post) tail fs inds fams im fm) = Ok (level ln, st post tail (snd ln) inds fams im fm).
Proof.
  induction pre as [|x pre]; intros fuel L ln post tail fs inds fams im fm Hf Hg Hl G Hn;
    (destruct fuel as [|fuel]; [cbn [length] in Hf; lia|]); cbn [doHeader app].
  - rewrite readLine_next by auto. cbn [obind]. replace (L <=? level ln) with false by lia. reflexivity.
  - inversion Hg; inversion Hl; subst. rewrite readLine_next by auto. cbn [obind]. replace (L <=? level x) with true by lia.
    apply IHpre; auto. cbn [length] in Hf. lia.
Qed.
Lemma doContinue_lands : forall pre fuel L tok c ln post tail fs inds fams im fm, (length pre < fuel)%nat -> token_code tok = Ok c ->
  Forall good_line pre -> Forall (fun x => L <= level x) pre -> good_line ln -> level ln < L ->
  doContinue fuel L tok (st (pre ++ ln :: post) tail fs inds fams im fm) = Ok (level ln, st post tail (snd ln) inds fams im fm).
Proof.
  induction pre as [|x pre]; intros fuel L tok c ln post tail fs inds fams im fm Hf Ht Hg Hl G Hn;
    (destruct fuel as [|fuel]; [cbn [length] in Hf; lia|]); cbn [doContinue app]; rewrite Ht; cbn [obind].
  - rewrite readLine_next by auto. cbn [obind]. replace (L <=? level ln) with false by lia. reflexivity.
  - inversion Hg; inversion Hl; subst. rewrite readLine_next by auto. cbn [obind]. replace (L <=? level x) with true by lia.
    eapply IHpre; eauto. cbn [length] in Hf. lia.
Qed.

Lemma shift_words : forall ls tail w fs inds fams im fm,
  shift_field (st ls tail (w :: fs) inds fams im fm) = Ok (vstr w, st ls tail fs inds fams im fm).
Proof. reflexivity. Qed.
Ltac in_codes := unfold code_of; cbn [In]; auto 40.

(** The inner step of a turn: the next line, or what doContinue stops at. *)
Lemma step_lands : forall pre fuel cur tok c ln post tail fs inds fams im fm, (length pre < fuel)%nat -> token_code tok = Ok c ->
  Forall good_line pre -> good_line ln -> ((c =? CONT) || (c =? CONC) = true -> level ln < level cur) ->
  exists p1 y p2, pre ++ [ln] = p1 ++ y :: p2 /\
    ((c =? CONT) || (c =? CONC) = true -> Forall (fun x => level cur <= level x) p1) /\
    ((c =? CONT) || (c =? CONC) = false -> p1 = []) /\
    (if (c =? CONT) || (c =? CONC) then doContinue fuel (level cur) tok (st (pre ++ ln :: post) tail fs inds fams im fm)
     else readLine (st (pre ++ ln :: post) tail fs inds fams im fm)) = Ok (level y, st (p2 ++ post) tail (snd y) inds fams im fm).
Proof.
  intros pre fuel cur tok c ln post tail fs inds fams im fm Hf Ht Hg G Hn.
  destruct ((c =? CONT) || (c =? CONC)).
  - specialize (Hn eq_refl). destruct (first_below (level cur) pre) as [F|(p1 & x & p2 & -> & F & Hx)].
    + exists pre, ln, []. split; [auto|]. split; [auto|]. split; [discriminate|].
      rewrite (doContinue_lands pre fuel (level cur) tok c); auto.
    + apply Forall_app in Hg. destruct Hg as [Hg1 Hg2]. inversion Hg2; subst.
      exists p1, x, (p2 ++ [ln]). split; [rewrite <- app_assoc; reflexivity|]. split; [auto|]. split; [discriminate|].
      rewrite <- !app_assoc. cbn [app]. rewrite (doContinue_lands p1 fuel (level cur) tok c); auto.
      rewrite app_length in Hf. lia.
  - destruct pre as [|x pre].
    + exists [], ln, []. split; [auto|]. split; [auto|]. split; [auto|]. cbn [app]. apply readLine_next; auto.
    + inversion Hg; subst. exists [], x, (pre ++ [ln]). split; [auto|]. split; [auto|]. split; [auto|].
      rewrite <- app_assoc. cbn [app]. apply readLine_next; auto.
Qed.

(** Either the last line, or one before it. *)
Lemma split_last : forall (pre : list line) ln p1 y p2, pre ++ [ln] = p1 ++ y :: p2 ->
  (pre = p1 /\ y = ln /\ p2 = []) \/ exists q, p2 = q ++ [ln] /\ pre = p1 ++ y :: q.
Proof.
  intros pre ln p1 y p2 E. destruct p2 as [|z p2] using rev_ind.
  - apply app_inj_tail in E. destruct E; subst. auto.
  - right. clear IHp2. replace (p1 ++ y :: p2 ++ [z]) with ((p1 ++ y :: p2) ++ [z]) in E by (rewrite <- app_assoc; reflexivity).
    apply app_inj_tail in E. destruct E; subst. exists p2. auto.
Qed.

Lemma doBirth_lands : forall k pre fuel L cur ln post tail inds fams im fm, (length pre <= k)%nat -> (S (length pre) < fuel)%nat ->
  known cur -> L <= level cur ->
  Forall good_line pre -> Forall known pre -> Forall (fun x => L <= level x) pre -> good_line ln -> level ln < L ->
  doBirth fuel L (level cur) (st (pre ++ ln :: post) tail (snd cur) inds fams im fm) =
    Ok (level ln, st post tail (snd ln) inds fams im fm).
Proof.
  induction k; intros pre fuel L cur ln post tail inds fams im fm Hk Hf Kc Lc Hg Hkn Hl G Hn;
    (destruct fuel as [|fuel]; [cbn [length] in Hf; lia|]); cbn [doBirth];
    destruct (known_line cur Kc) as (c & t & W & Hc & T1 & T2 & Tg); rewrite W, shift_words; cbn [obind]; rewrite T1; cbn [obind negb];
    rewrite T2; cbn [obind];
    destruct (step_lands pre fuel cur _ c ln post tail (args cur) inds fams im fm ltac:(lia) T2 Hg G ltac:(lia))
      as (p1 & y & p2 & E & _ & _ & ->); cbn [obind]; destruct (split_last _ _ _ _ _ E) as [(-> & -> & ->)|(q & -> & ->)];
    try (cbn [app]; replace (L <=? level ln) with false by lia; reflexivity).
  - rewrite app_length in Hk. cbn [length] in Hk. lia.
  - rewrite app_length in *. cbn [length] in *. apply Forall_app in Hg. destruct Hg as [_ Hg]. inversion Hg; subst.
    apply Forall_app in Hkn. destruct Hkn as [_ Hkn]. inversion Hkn; subst.
    apply Forall_app in Hl. destruct Hl as [_ Hl]. inversion Hl; subst.
    replace (L <=? level y) with true by lia. rewrite <- app_assoc. cbn [app]. apply IHk; auto; lia.
Qed.

(** * A person *)
Definition person (a b c : val) : val := VMap [pair_of "NAME" a; pair_of "SEX" b; pair_of "TITL" c].
Lemma put_name : forall inds a b c x, put_entry (inds ++ [person a b c]) (length inds) "NAME" x = Ok (inds ++ [person x b c]).
Proof.
  intros. unfold put_entry. rewrite nth_error_mid.
  replace (assign (VNil, VNil) (person a b c) (vstr (txt "NAME")) x) with (Ok (person x b c)) by (vm_compute; reflexivity).
  cbn [obind]. rewrite set_nth_mid. reflexivity.
Qed.
Lemma put_sex : forall inds a b c x, put_entry (inds ++ [person a b c]) (length inds) "SEX" x = Ok (inds ++ [person a x c]).
Proof.
  intros. unfold put_entry. rewrite nth_error_mid.
  replace (assign (VNil, VNil) (person a b c) (vstr (txt "SEX")) x) with (Ok (person a x c)) by (vm_compute; reflexivity).
  cbn [obind]. rewrite set_nth_mid. reflexivity.
Qed.
Lemma put_titl : forall inds a b c x, put_entry (inds ++ [person a b c]) (length inds) "TITL" x = Ok (inds ++ [person a b x]).
Proof.
  intros. unfold put_entry. rewrite nth_error_mid.
  replace (assign (VNil, VNil) (person a b c) (vstr (txt "TITL")) x) with (Ok (person a b x)) by (vm_compute; reflexivity).
  cbn [obind]. rewrite set_nth_mid. reflexivity.
Qed.
Lemma str_of_vstr : forall s, str_of (vstr s) = s.
Proof. intros. unfold str_of, vstr. apply map_char_of. Qed.
Lemma join_words : forall ls tail fs inds fams im fm, join_field (st ls tail fs inds fams im fm) = Ok (vstr (glue [32] fs)).
Proof.
  intros. unfold join_field, st. cbn [g_field]. rewrite map_map. rewrite (map_ext _ (fun x => x)) by apply str_of_vstr. rewrite map_id.
  rewrite C30_join_glue; auto. intros [X|[]]. discriminate.
Qed.
Definition person_line (ln : line) : Prop :=
  good_line ln /\ 1 <= level ln /\ known ln /\ (one_of ["NAME"; "TITL"; "SEX"]%string ln -> level ln = 1) /\
  (one_of ["CONT"; "CONC"]%string ln -> 2 <= level ln).
Definition later (t : string) (body : list line) (v : val) : val := match last_text t body with VNil => v | x => x end.
Lemma later_cons : forall t ln body v, later t (ln :: body) v = later t body (if tagged t ln then vstr (glue [32] (args ln)) else v).
Proof. intros. unfold later. cbn [last_text]. destruct (last_text t body); auto. destruct (tagged t ln); auto. Qed.
Lemma later_skip : forall t p body v, Forall (fun ln => tagged t ln = false) p -> later t (p ++ body) v = later t body v.
Proof. induction p; intros body v H; auto. inversion H; subst. cbn [app]. rewrite later_cons, H2. auto. Qed.
Lemma one_of_in : forall t l ln, In t l -> tagged t ln = true -> one_of l ln.
Proof. intros. exists t. auto. Qed.
(** Deeper lines say nothing about name, sex and title. *)
Lemma deep_silent : forall t p, In t ["NAME"; "TITL"; "SEX"]%string -> Forall person_line p -> Forall (fun x => 2 <= level x) p ->
  Forall (fun ln => tagged t ln = false) p.
Proof.
  intros t p Ht Hp Hl. rewrite Forall_forall in *. intros x Hx. destruct (Hp x Hx) as (_ & _ & _ & H & _). specialize (Hl x Hx).
  cbv beta in Hl. destruct (tagged t x) eqn:E; auto. exfalso. assert (level x = 1) by (apply H; eapply one_of_in; eauto). lia.
Qed.

Lemma read_first : forall pre ln post tail fs inds fams im fm, Forall good_line pre -> good_line ln ->
  exists y p2, pre ++ [ln] = y :: p2 /\
    readLine (st (pre ++ ln :: post) tail fs inds fams im fm) = Ok (level y, st (p2 ++ post) tail (snd y) inds fams im fm).
Proof.
  intros pre ln post tail fs inds fams im fm Hg G. destruct pre as [|x pre].
  - exists ln, []. split; [reflexivity|]. cbn [app]. apply readLine_next; auto.
  - inversion Hg; subst. exists x, (pre ++ [ln]). split; [reflexivity|]. rewrite <- app_assoc. cbn [app]. apply readLine_next; auto.
Qed.
(** An event: the deeper lines after it are skipped. *)
Lemma event_lands : forall pre fuel ln post tail fs inds fams im fm, (S (length pre) < fuel)%nat ->
  Forall good_line pre -> Forall known pre -> Forall (fun x => 1 <= level x) pre -> good_line ln -> level ln <= 1 ->
  exists p1 y p2, pre ++ [ln] = p1 ++ y :: p2 /\ Forall (fun x => 2 <= level x) p1 /\
    (let* (level, g) := readLine (st (pre ++ ln :: post) tail fs inds fams im fm) in
     if 1 <? level then doBirth fuel level level g else Ok (level, g)) = Ok (level y, st (p2 ++ post) tail (snd y) inds fams im fm).
Proof.
  intros pre fuel ln post tail fs inds fams im fm Hf Hg Hk Hl G Hn.
  destruct (read_first pre ln post tail fs inds fams im fm Hg G) as (y & p2 & E & ->). cbn [obind].
  destruct (Z.ltb_spec 1 (level y)) as [Hy|Hy]; [|exists [], y, p2; split; [exact E|]; split; [constructor|reflexivity]].
  destruct pre as [|x pre]; [injection E as <- <-; lia|]. injection E as <- <-. inversion Hg; inversion Hk; inversion Hl; subst.
  destruct (first_below (level x) pre) as [F|(p1 & y & p2 & -> & F & Hy')].
  - exists (x :: pre), ln, []. split; [reflexivity|]. split.
    { constructor; [lia|]. eapply Forall_impl; [|exact F]. cbv beta. intros; lia. }
    rewrite <- app_assoc. cbn [app]. apply (doBirth_lands (length pre)); auto; cbn [length] in *; lia.
  - exists (x :: p1), y, (p2 ++ [ln]). split; [cbn [app]; rewrite <- app_assoc; reflexivity|]. split.
    { constructor; [lia|]. eapply Forall_impl; [|exact F]. cbv beta. intros; lia. }
    assert (Gy : good_line y) by (match goal with H : Forall good_line (p1 ++ _) |- _ => apply Forall_app in H; destruct H as [_ H]; inversion H; auto end).
    assert (Fg : Forall good_line p1) by (match goal with H : Forall good_line (p1 ++ _) |- _ => apply Forall_app in H; apply H end).
    assert (Fk : Forall known p1) by (match goal with H : Forall known (p1 ++ _) |- _ => apply Forall_app in H; apply H end).
    rewrite <- !app_assoc. cbn [app]. cbn [length] in Hf. rewrite app_length in Hf.
    apply (doBirth_lands (length p1)); auto; lia.
Qed.
Lemma person_goods : forall p, Forall person_line p -> Forall good_line p /\ Forall known p /\ Forall (fun x => 1 <= level x) p.
Proof. intros p H. repeat split; (eapply Forall_impl; [|exact H]); intros x (A & B & C & _); auto. Qed.

Lemma doIndividual_step : forall pre fuel cur co t ln post tail inds a b c fams im fm, (S (length pre) < fuel)%nat ->
  person_line cur -> Forall person_line pre -> good_line ln -> level ln <= 1 ->
  token_code (vstr (txt t)) = Ok co -> (forall s k, In (s, k) code_of -> tagged s cur = (co =? k)) ->
  let g := st (pre ++ ln :: post) tail (args cur) (inds ++ [person a b c]) fams im fm in
  let store k :=
      let* x := join_field g in
      let* l := put_entry (g_inds g) (length inds) k x in
      readLine (set_inds g l) in
  let a' := if tagged "NAME" cur then vstr (glue [32] (args cur)) else a in
  let b' := if tagged "SEX" cur then vstr (glue [32] (args cur)) else b in
  let c' := if tagged "TITL" cur then vstr (glue [32] (args cur)) else c in
  exists p1 y p2, pre ++ [ln] = p1 ++ y :: p2 /\ Forall (fun x => 2 <= level x) p1 /\
     (if co =? NAME then store "NAME"%string
      else if co =? TITL then store "TITL"%string
      else if co =? SEX then store "SEX"%string
      else if (co =? BIRT) || (co =? DEAT) || (co =? CHR) || (co =? BURI) then
        let* (level, g) := readLine g in
        if 1 <? level then doBirth fuel level level g else Ok (level, g)
      else if (co =? CONT) || (co =? CONC) then doContinue fuel (level cur) (vstr (txt t)) g
      else readLine g) = Ok (level y, st (p2 ++ post) tail (snd y) (inds ++ [person a' b' c']) fams im fm).
Proof.
  intros pre fuel cur co t ln post tail inds a b c fams im fm Hf (Gc & Lc & Kc & Nc & Cc) Hp G Hn T2 Tg g store a' b' c'.
  destruct (person_goods pre Hp) as (P1 & P2 & P3).
  subst a' b' c'. rewrite (Tg "NAME"%string NAME), (Tg "SEX"%string SEX), (Tg "TITL"%string TITL) by in_codes.
  assert (ST : forall k inds', put_entry (inds ++ [person a b c]) (length inds) k (vstr (glue [32] (args cur))) = Ok inds' ->
    exists y p2, pre ++ [ln] = y :: p2 /\ store k = Ok (level y, st (p2 ++ post) tail (snd y) inds' fams im fm)).
  { intros k inds' E. subst store g. rewrite join_words. cbn [obind]. cbn [st g_inds]. fold st. rewrite E. cbn [obind].
    apply (read_first pre ln post tail (args cur) inds' fams im fm); auto. }
  destruct (Z.eqb_spec co NAME) as [->|NN].
  { destruct (ST "NAME"%string _ (put_name _ _ _ _ _)) as (y & p2 & E & X). exists [], y, p2. split; [exact E|]. split; [constructor|]. exact X. }
  destruct (Z.eqb_spec co TITL) as [->|NT].
  { destruct (ST "TITL"%string _ (put_titl _ _ _ _ _)) as (y & p2 & E & X). exists [], y, p2. split; [exact E|]. split; [constructor|]. exact X. }
  destruct (Z.eqb_spec co SEX) as [->|NS].
  { destruct (ST "SEX"%string _ (put_sex _ _ _ _ _)) as (y & p2 & E & X). exists [], y, p2. split; [exact E|]. split; [constructor|]. exact X. }
  clear ST. subst store.
  destruct ((co =? BIRT) || (co =? DEAT) || (co =? CHR) || (co =? BURI)).
  { apply (event_lands pre fuel ln post tail (args cur)); auto. }
  assert (CL : (co =? CONT) || (co =? CONC) = true -> 2 <= level cur).
  { intros CC. apply Cc. apply orb_true_iff in CC. destruct CC as [CC|CC]; [exists "CONT"%string|exists "CONC"%string];
    (split; [cbn [In]; auto|]); [rewrite (Tg "CONT"%string CONT) by in_codes|rewrite (Tg "CONC"%string CONC) by in_codes]; auto. }
  destruct (step_lands pre fuel cur (vstr (txt t)) co ln post tail (args cur) (inds ++ [person a b c]) fams im fm ltac:(lia) T2 P1 G)
    as (p1 & y & p2 & E & D1 & D2 & X); [intros CC; specialize (CL CC); lia|].
  exists p1, y, p2. split; [exact E|]. split; [|exact X].
  destruct ((co =? CONT) || (co =? CONC)) eqn:CC; [|rewrite D2; auto].
  eapply Forall_impl; [|exact (D1 eq_refl)]. cbv beta. intros x Hx. specialize (CL eq_refl). lia.
Qed.

Lemma doIndividual_lands : forall k pre fuel cur ln post tail inds a b c fams im fm, (length pre <= k)%nat -> (S (S (length pre)) < fuel)%nat ->
  person_line cur -> Forall person_line pre -> good_line ln -> level ln < 1 ->
  doIndividual fuel 1 (level cur) (length inds) (st (pre ++ ln :: post) tail (snd cur) (inds ++ [person a b c]) fams im fm) =
    Ok (level ln, st post tail (snd ln)
          (inds ++ [person (later "NAME" (cur :: pre) a) (later "SEX" (cur :: pre) b) (later "TITL" (cur :: pre) c)]) fams im fm).
Proof.
  induction k; intros pre fuel cur ln post tail inds a b c fams im fm Hk Hf HP Hp G Hn;
    (destruct fuel as [|fuel]; [cbn [length] in Hf; lia|]); cbn [doIndividual];
    destruct (known_line cur (proj1 (proj2 (proj2 HP)))) as (co & t & W & Hc & T1 & T2 & Tg);
    rewrite W, shift_words; cbn [obind]; rewrite T1; cbn [obind negb];
    rewrite T2; cbn [obind];
    destruct (doIndividual_step pre fuel cur co t ln post tail inds a b c fams im fm ltac:(lia) HP Hp G ltac:(lia) T2 Tg)
      as (p1 & y & p2 & E & D & X); cbv zeta in X; rewrite X; cbn [obind]; rewrite !later_cons;
    (destruct (split_last _ _ _ _ _ E) as [(-> & -> & ->)|(q & -> & ->)]).
  2: { exfalso. rewrite app_length in Hk. cbn [length] in Hk. lia. }
  1,2: replace (1 <=? level ln) with false by lia; rewrite <- (app_nil_r p1), !later_skip
     by (apply deep_silent; auto; cbn [In]; auto); reflexivity.
  rewrite app_length in *. cbn [length] in *. apply Forall_app in Hp. destruct Hp as [Hp1 Hp2]. inversion Hp2; subst.
  replace (1 <=? level y) with true by (destruct H1 as (_ & ? & _); lia).
  rewrite <- app_assoc. cbn [app]. rewrite IHk; auto; try lia.
  rewrite !later_skip by (apply deep_silent; auto; cbn [In]; auto). reflexivity.
Qed.

(** The lines before a line of level 1. *)
Lemma doIndividual_reaches : forall k pre fuel cur ln post tail inds a b c fams im fm, (length pre <= k)%nat -> (S (S (length pre)) < fuel)%nat ->
  person_line cur -> Forall person_line pre -> good_line ln -> level ln = 1 ->
  exists fuel', (fuel <= fuel' + S (length pre))%nat /\
  doIndividual fuel 1 (level cur) (length inds) (st (pre ++ ln :: post) tail (snd cur) (inds ++ [person a b c]) fams im fm) =
    doIndividual fuel' 1 1 (length inds) (st post tail (snd ln)
          (inds ++ [person (later "NAME" (cur :: pre) a) (later "SEX" (cur :: pre) b) (later "TITL" (cur :: pre) c)]) fams im fm).
Proof.
  induction k; intros pre fuel cur ln post tail inds a b c fams im fm Hk Hf HP Hp G Hn;
    (destruct fuel as [|fuel]; [cbn [length] in Hf; lia|]); cbn [doIndividual];
    destruct (known_line cur (proj1 (proj2 (proj2 HP)))) as (co & t & W & Hc & T1 & T2 & Tg);
    rewrite W, shift_words; cbn [obind]; rewrite T1; cbn [obind negb];
    rewrite T2; cbn [obind];
    destruct (doIndividual_step pre fuel cur co t ln post tail inds a b c fams im fm ltac:(lia) HP Hp G ltac:(lia) T2 Tg)
      as (p1 & y & p2 & E & D & X); cbv zeta in X; rewrite X; cbn [obind]; rewrite !later_cons;
    (destruct (split_last _ _ _ _ _ E) as [(-> & -> & ->)|(q & -> & ->)]).
  2: { exfalso. rewrite app_length in Hk. cbn [length] in Hk. lia. }
  1,2: replace (1 <=? level ln) with true by lia; rewrite Hn; exists fuel; split; [lia|]; rewrite <- (app_nil_r p1), !later_skip
     by (apply deep_silent; auto; cbn [In]; auto); reflexivity.
  rewrite app_length in *. cbn [length] in *. apply Forall_app in Hp. destruct Hp as [Hp1 Hp2]. inversion Hp2; subst.
  replace (1 <=? level y) with true by (destruct H1 as (_ & ? & _); lia).
  rewrite <- app_assoc. cbn [app].
  match goal with |- context [person ?A ?B ?C] => destruct (IHk q fuel y ln post tail inds A B C fams im fm) as (f' & F1 & F2); auto; try lia end.
  exists f'. split; [lia|]. etransitivity; [exact F2|].
  rewrite !later_skip by (apply deep_silent; auto; cbn [In]; auto). reflexivity.
Qed.
(** A line of level 1 with an unknown tag ends the record, and the rest of that line is left. *)
Lemma doIndividual_unknown : forall fuel n ln post tail inds fams im fm, (0 < fuel)%nat -> snd ln <> [] -> knownToken (vstr (hd [] (snd ln))) = Ok false ->
  doIndividual fuel 1 1 n (st post tail (snd ln) inds fams im fm) = Ok (1, st post tail (args ln) inds fams im fm).
Proof.
  intros fuel n [d ws] post tail inds fams im fm Hf Hw Hu. destruct fuel as [|fuel]; [lia|]. unfold args. cbn [snd] in *. destruct ws as [|w ws]; [congruence|].
  cbn [doIndividual hd tl] in *. rewrite shift_words. cbn [obind]. rewrite Hu. reflexivity.
Qed.

(** * A family *)
Definition fam (a b c : val) : val := VMap [pair_of "CHIL" a; pair_of "HUSB" b; pair_of "WIFE" c].
Lemma put_husb : forall l a b c x, put_entry (l ++ [fam a b c]) (length l) "HUSB" x = Ok (l ++ [fam a x c]).
Proof.
  intros. unfold put_entry. rewrite nth_error_mid.
  replace (assign (VNil, VNil) (fam a b c) (vstr (txt "HUSB")) x) with (Ok (fam a x c)) by (vm_compute; reflexivity).
  cbn [obind]. rewrite set_nth_mid. reflexivity.
Qed.
Lemma put_wife : forall l a b c x, put_entry (l ++ [fam a b c]) (length l) "WIFE" x = Ok (l ++ [fam a b x]).
Proof.
  intros. unfold put_entry. rewrite nth_error_mid.
  replace (assign (VNil, VNil) (fam a b c) (vstr (txt "WIFE")) x) with (Ok (fam a b x)) by (vm_compute; reflexivity).
  cbn [obind]. rewrite set_nth_mid. reflexivity.
Qed.
Lemma push_collected : forall l z, push (collected l) (VInt z) = Ok (collected (l ++ [z])).
Proof.
  intros [|x [|y l]] z; try reflexivity. cbn [collected app push cast obind map]. rewrite map_app. reflexivity.
Qed.
Lemma push_chil : forall l xs b c z, push_entry (l ++ [fam (collected xs) b c]) (length l) "CHIL" (VInt z) =
  Ok (l ++ [fam (collected (xs ++ [z])) b c]).
Proof.
  intros. unfold push_entry. rewrite nth_error_mid.
  replace (subscript (fam (collected xs) b c) (vstr (txt "CHIL"))) with (Ok (fam (collected xs) b c, collected xs))
    by (generalize (collected xs); intros; vm_compute; reflexivity).
  cbn [obind]. rewrite push_collected. cbn [obind].
  replace (assign (VNil, VNil) (fam (collected xs) b c) (vstr (txt "CHIL")) (collected (xs ++ [z]))) with (Ok (fam (collected (xs ++ [z])) b c))
    by (generalize (collected xs); generalize (collected (xs ++ [z])); intros; vm_compute; reflexivity).
  cbn [obind]. rewrite set_nth_mid. reflexivity.
Qed.

(** The map from references to numbers. *)
Definition refs_map (m : val) (refs : list (list Z)) : Prop :=
  (refs = [] /\ m = VNil) \/
  (refs <> [] /\ exists l, m = VMap l /\ map_ok l /\
     forall x, word x -> lookup l (vstr x) = option_map VInt (last_pos x refs 0)).
Lemma last_pos_snoc : forall refs x y n, last_pos x (refs ++ [y]) n =
  if list_eq_dec Z.eq_dec y x then Some (n + Z.of_nat (length refs)) else last_pos x refs n.
Proof.
  induction refs as [|z refs]; intros x y n; cbn [last_pos app length].
  - destruct (list_eq_dec Z.eq_dec y x); auto. f_equal. lia.
  - rewrite IHrefs. destruct (list_eq_dec Z.eq_dec y x); auto. f_equal. lia.
Qed.
Lemma refs_map_add : forall m refs x, refs_map m refs -> word x ->
  exists m', assign (VNil, VNil) m (vstr x) (VInt (Z.of_nat (length refs))) = Ok m' /\ refs_map m' (refs ++ [x]).
Proof.
  intros m refs x H (Wc & Wn & _).
  assert (X : forall l, map_ok l -> (forall y, word y -> lookup l (vstr y) = option_map VInt (last_pos y refs 0)) ->
    exists l', map_put (VNil, VNil) l (vstr x) (VInt (Z.of_nat (length refs))) = Ok l' /\ refs_map (VMap l') (refs ++ [x])).
  { intros l Hl Hk. destruct (map_put_lookup (VNil, VNil) l (vstr x) (VInt (Z.of_nat (length refs))) Hl (vstr_key x Wc Wn))
      as (l' & E & Hl' & _ & _ & L). exists l'. split; auto. right. split; [destruct refs; discriminate|]. exists l'. split; auto. split; auto.
    intros y Hy. rewrite L, last_pos_snoc. rewrite same_code_str by (auto; apply Hy). destruct (list_eq_dec Z.eq_dec x y); auto. }
  destruct H as [(-> & ->)|(Hr & l & -> & Hl & Hk)].
  - destruct (X [] map_ok_nil) as (l' & E & R); [intros y Hy; reflexivity|]. exists (VMap l'). split; auto. unfold assign. rewrite E. reflexivity.
  - destruct (X l Hl Hk) as (l' & E & R). exists (VMap l'). split; auto. unfold assign. rewrite E. reflexivity.
Qed.
Lemma refs_map_at : forall m refs x, refs_map m refs -> refs <> [] -> word x ->
  at_var (RVar m) (vstr x) = Ok (match last_pos x refs 0 with Some n => VInt n | None => VNil end).
Proof.
  intros m refs x [(-> & ->)|(Hr & l & -> & Hl & Hk)] Hn Hw; [congruence|].
  rewrite at_var_lookup; auto; [|apply vstr_key; apply Hw]. rewrite Hk by auto. destruct (last_pos x refs 0); reflexivity.
Qed.

Definition family_line (refs : list (list Z)) (ln : line) : Prop :=
  good_line ln /\ 1 <= level ln /\ known ln /\
  (one_of ["HUSB"; "WIFE"; "CHIL"]%string ln -> level ln = 1 /\ args ln <> [] /\ refs <> []).
Definition married (body : list line) : Prop :=
  forall pre ln post, body = pre ++ ln :: post -> tagged "MARR" ln = true -> exists next t, post = next :: t /\ 2 <= level next.
Definition lastm (l : list Z) (v : val) : val := match rev l with [] => v | z :: _ => VInt z end.
Lemma lastm_app : forall a b v, lastm (a ++ b) v = lastm b (lastm a v).
Proof. intros. unfold lastm. rewrite rev_app_distr. destruct (rev b); reflexivity. Qed.
Lemma referred_skip : forall t refs p body, Forall (fun ln => tagged t ln = false) p -> referred t refs (p ++ body) = referred t refs body.
Proof. induction p; intros body H; auto. inversion H; subst. cbn [app referred]. rewrite H2. cbn [app]. auto. Qed.
Lemma deep_silent_f : forall t refs p, In t ["HUSB"; "WIFE"; "CHIL"]%string -> Forall (family_line refs) p -> Forall (fun x => 2 <= level x) p ->
  Forall (fun ln => tagged t ln = false) p.
Proof.
  intros t refs p Ht Hp Hl. rewrite Forall_forall in *. intros x Hx. destruct (Hp x Hx) as (_ & _ & _ & H). specialize (Hl x Hx).
  cbv beta in Hl. destruct (tagged t x) eqn:E; auto. exfalso. assert (level x = 1) by (apply H; eapply one_of_in; eauto). lia.
Qed.
Lemma family_goods : forall refs p, Forall (family_line refs) p -> Forall good_line p /\ Forall known p /\ Forall (fun x => 1 <= level x) p.
Proof. intros refs p H. repeat split; (eapply Forall_impl; [|exact H]); intros x (A & B & C & _); auto. Qed.
Definition ones (t : string) (refs : list (list Z)) (ln : line) : list Z := referred t refs [ln].
Lemma referred_cons : forall t refs ln body, referred t refs (ln :: body) = ones t refs ln ++ referred t refs body.
Proof. intros. unfold ones. cbn [referred]. rewrite app_nil_r. reflexivity. Qed.

Lemma doFamily_step : forall pre fuel cur co ln post tail fams xs b c inds im fm refs, (S (length pre) < fuel)%nat ->
  family_line refs cur -> Forall (family_line refs) pre -> married (cur :: pre) -> refs_map im refs -> good_line ln -> level ln <= 1 ->
  (forall s k, In (s, k) code_of -> tagged s cur = (co =? k)) ->
  let g := st (pre ++ ln :: post) tail (args cur) inds (fams ++ [fam (collected xs) b c]) im fm in
  let member (put : list val -> val -> outcome (list val)) :=
      let* (indiv, g) := shift_field g in
      let* x := at_var (RVar (g_imap g)) indiv in
      if vdefined x then
        let* z := cast_int x in
        let* l := put (g_fams g) (VInt z) in
        readLine (set_fams g l)
      else readLine g in
  exists p1 y p2, pre ++ [ln] = p1 ++ y :: p2 /\ Forall (fun x => 2 <= level x) p1 /\
     (if co =? HUSB then member (fun l x => put_entry l (length fams) "HUSB" x)
      else if co =? WIFE then member (fun l x => put_entry l (length fams) "WIFE" x)
      else if co =? CHIL then member (fun l x => push_entry l (length fams) "CHIL" x)
      else if co =? MARR then let* (level, g) := readLine g in doBirth fuel level level g
      else readLine g) = Ok (level y, st (p2 ++ post) tail (snd y) inds
         (fams ++ [fam (collected (xs ++ ones "CHIL" refs cur)) (lastm (ones "HUSB" refs cur) b) (lastm (ones "WIFE" refs cur) c)]) im fm).
Proof.
  intros pre fuel cur co ln post tail fams xs b c inds im fm refs Hf (Gc & Lc & Kc & Mc) Hp Hm Hr G Hn Tg g member.
  destruct (family_goods refs pre Hp) as (P1 & P2 & P3). unfold ones. cbn [referred].
  rewrite (Tg "HUSB"%string HUSB), (Tg "WIFE"%string WIFE), (Tg "CHIL"%string CHIL) by in_codes.
  assert (ST : forall t put f', one_of ["HUSB"; "WIFE"; "CHIL"]%string cur -> tagged t cur = true ->
     (forall z, put (fams ++ [fam (collected xs) b c]) (VInt z) = Ok (f' [z])) -> f' [] = fams ++ [fam (collected xs) b c] ->
     exists y p2, pre ++ [ln] = y :: p2 /\ member put = Ok (level y, st (p2 ++ post) tail (snd y) inds
       (f' (match last_pos (hd [] (args cur)) refs 0 with Some n => [n] | None => [] end)) im fm)).
  { intros t put f' Ho Ht Hput Hnil. destruct (Mc Ho) as (_ & Ha & Hre). subst member g. cbv beta.
    pose proof (tagged_words t cur Ht) as W. destruct (args cur) as [|x ar] eqn:EA; [congruence|].
    assert (Wx : word x). { destruct Gc as (_ & _ & _ & Gw). rewrite W in Gw. inversion Gw; subst. inversion H2; auto. }
    rewrite shift_words. cbn [obind]. cbn [st g_imap]. fold st. rewrite (refs_map_at im refs x Hr Hre Wx). cbn [obind hd].
    destruct (last_pos x refs 0) as [n|]; cbn [vdefined].
    - replace (cast_int (VInt n)) with (Ok n) by reflexivity. cbn [obind]. cbn [st g_fams]. rewrite Hput. cbn [obind].
      apply (read_first pre ln post tail ar inds (f' [n]) im fm); auto.
    - rewrite Hnil. apply (read_first pre ln post tail ar inds (fams ++ [fam (collected xs) b c]) im fm); auto. }
  destruct (Z.eqb_spec co HUSB) as [->|NH].
  { destruct (ST "HUSB"%string (fun l x => put_entry l (length fams) "HUSB" x) (fun q => fams ++ [fam (collected xs) (lastm q b) c])) as (y & p2 & E & X).
    - exists "HUSB"%string. split; [cbn [In]; auto|]. rewrite (Tg "HUSB"%string HUSB) by in_codes. reflexivity.
    - rewrite (Tg "HUSB"%string HUSB) by in_codes. reflexivity.
    - intros z. apply put_husb.
    - reflexivity.
    - exists [], y, p2. split; [exact E|]. split; [constructor|]. rewrite X. cbn [app]. rewrite !app_nil_r. reflexivity. }
  destruct (Z.eqb_spec co WIFE) as [->|NW].
  { destruct (ST "WIFE"%string (fun l x => put_entry l (length fams) "WIFE" x) (fun q => fams ++ [fam (collected xs) b (lastm q c)])) as (y & p2 & E & X).
    - exists "WIFE"%string. split; [cbn [In]; auto|]. rewrite (Tg "WIFE"%string WIFE) by in_codes. reflexivity.
    - rewrite (Tg "WIFE"%string WIFE) by in_codes. reflexivity.
    - intros z. apply put_wife.
    - reflexivity.
    - exists [], y, p2. split; [exact E|]. split; [constructor|]. rewrite X. cbn [app]. rewrite !app_nil_r. reflexivity. }
  destruct (Z.eqb_spec co CHIL) as [->|NC].
  { destruct (ST "CHIL"%string (fun l x => push_entry l (length fams) "CHIL" x) (fun q => fams ++ [fam (collected (xs ++ q)) b c])) as (y & p2 & E & X).
    - exists "CHIL"%string. split; [cbn [In]; auto|]. rewrite (Tg "CHIL"%string CHIL) by in_codes. reflexivity.
    - rewrite (Tg "CHIL"%string CHIL) by in_codes. reflexivity.
    - intros z. apply push_chil.
    - rewrite app_nil_r. reflexivity.
    - exists [], y, p2. split; [exact E|]. split; [constructor|]. rewrite X. cbn [app]. rewrite !app_nil_r. reflexivity. }
  clear ST. subst member. cbn [app]. rewrite !app_nil_r. cbn [lastm rev app].
  destruct (Z.eqb_spec co MARR) as [->|NM].
  - destruct (Hm [] cur pre eq_refl) as (nx & t & -> & Hx). { rewrite (Tg "MARR"%string MARR) by in_codes. reflexivity. }
    destruct (event_lands (nx :: t) fuel ln post tail (args cur) inds (fams ++ [fam (collected xs) b c]) im fm Hf P1 P2 P3 G Hn) as (p1 & y & p2 & E & D & X).
    exists p1, y, p2. split; [exact E|]. split; [exact D|]. subst g. rewrite <- X. cbn [app]. inversion P1; subst.
    rewrite readLine_next by auto. cbn [obind]. replace (1 <? level nx) with true by lia. reflexivity.
  - destruct (read_first pre ln post tail (args cur) inds (fams ++ [fam (collected xs) b c]) im fm P1 G) as (y & p2 & E & X).
    exists [], y, p2. split; [exact E|]. split; [constructor|]. exact X.
Qed.
Lemma married_suffix : forall a b, married (a ++ b) -> married b.
Proof. intros a b H pre ln post E Ht. apply (H (a ++ pre) ln post); auto. rewrite E, app_assoc. reflexivity. Qed.

Lemma doFamily_lands : forall k pre fuel cur ln post tail fams xs b c inds im fm refs, (length pre <= k)%nat -> (S (S (length pre)) < fuel)%nat ->
  family_line refs cur -> Forall (family_line refs) pre -> married (cur :: pre) -> refs_map im refs -> good_line ln -> level ln < 1 ->
  doFamily fuel 1 (level cur) (length fams) (st (pre ++ ln :: post) tail (snd cur) inds (fams ++ [fam (collected xs) b c]) im fm) =
    Ok (level ln, st post tail (snd ln) inds
          (fams ++ [fam (collected (xs ++ referred "CHIL" refs (cur :: pre))) (lastm (referred "HUSB" refs (cur :: pre)) b)
                        (lastm (referred "WIFE" refs (cur :: pre)) c)]) im fm).
Proof.
  induction k; intros pre fuel cur ln post tail fams xs b c inds im fm refs Hk Hf HP Hp Hm Hr G Hn;
    (destruct fuel as [|fuel]; [cbn [length] in Hf; lia|]); cbn [doFamily];
    destruct (known_line cur (proj1 (proj2 (proj2 HP)))) as (co & t & W & Hc & T1 & T2 & Tg);
    rewrite W, shift_words; cbn [obind]; rewrite T1; cbn [obind negb];
    rewrite T2; cbn [obind];
    destruct (doFamily_step pre fuel cur co ln post tail fams xs b c inds im fm refs ltac:(lia) HP Hp Hm Hr G ltac:(lia) Tg)
      as (p1 & y & p2 & E & D & X); cbv zeta in X; rewrite X; cbn [obind]; rewrite !referred_cons, !lastm_app, !app_assoc;
    (destruct (split_last _ _ _ _ _ E) as [(-> & -> & ->)|(q & -> & ->)]).
  2: { exfalso. rewrite app_length in Hk. cbn [length] in Hk. lia. }
  1,2: replace (1 <=? level ln) with false by lia; rewrite <- (app_nil_r p1), !referred_skip
     by (eapply deep_silent_f; eauto; cbn [In]; auto); cbn [referred lastm rev]; rewrite app_nil_r; reflexivity.
  rewrite app_length in *. cbn [length] in *. apply Forall_app in Hp. destruct Hp as [Hp1 Hp2]. inversion Hp2; subst.
  replace (1 <=? level y) with true by (destruct H1 as (_ & ? & _); lia).
  rewrite <- !app_assoc. cbn [app]. rewrite app_assoc. rewrite IHk with (refs := refs); auto; try lia.
  - rewrite !referred_skip by (eapply deep_silent_f; eauto; cbn [In]; auto). rewrite <- !app_assoc. reflexivity.
  - apply (married_suffix (cur :: p1)). exact Hm.
Qed.

Lemma doFamily_reaches : forall k pre fuel cur ln post tail fams xs b c inds im fm refs, (length pre <= k)%nat -> (S (S (length pre)) < fuel)%nat ->
  family_line refs cur -> Forall (family_line refs) pre -> married (cur :: pre) -> refs_map im refs -> good_line ln -> level ln = 1 ->
  exists fuel', (fuel <= fuel' + S (length pre))%nat /\
  doFamily fuel 1 (level cur) (length fams) (st (pre ++ ln :: post) tail (snd cur) inds (fams ++ [fam (collected xs) b c]) im fm) =
    doFamily fuel' 1 1 (length fams) (st post tail (snd ln) inds
          (fams ++ [fam (collected (xs ++ referred "CHIL" refs (cur :: pre))) (lastm (referred "HUSB" refs (cur :: pre)) b)
                        (lastm (referred "WIFE" refs (cur :: pre)) c)]) im fm).
Proof.
  induction k; intros pre fuel cur ln post tail fams xs b c inds im fm refs Hk Hf HP Hp Hm Hr G Hn;
    (destruct fuel as [|fuel]; [cbn [length] in Hf; lia|]); cbn [doFamily];
    destruct (known_line cur (proj1 (proj2 (proj2 HP)))) as (co & t & W & Hc & T1 & T2 & Tg);
    rewrite W, shift_words; cbn [obind]; rewrite T1; cbn [obind negb];
    rewrite T2; cbn [obind];
    destruct (doFamily_step pre fuel cur co ln post tail fams xs b c inds im fm refs ltac:(lia) HP Hp Hm Hr G ltac:(lia) Tg)
      as (p1 & y & p2 & E & D & X); cbv zeta in X; rewrite X; cbn [obind]; rewrite !referred_cons, !lastm_app, !app_assoc;
    (destruct (split_last _ _ _ _ _ E) as [(-> & -> & ->)|(q & -> & ->)]).
  2: { exfalso. rewrite app_length in Hk. cbn [length] in Hk. lia. }
  1,2: replace (1 <=? level ln) with true by lia; rewrite Hn; exists fuel; split; [lia|]; rewrite <- (app_nil_r p1), !referred_skip
     by (eapply deep_silent_f; eauto; cbn [In]; auto); cbn [referred lastm rev]; rewrite app_nil_r; reflexivity.
  rewrite app_length in *. cbn [length] in *. apply Forall_app in Hp. destruct Hp as [Hp1 Hp2]. inversion Hp2; subst.
  replace (1 <=? level y) with true by (destruct H1 as (_ & ? & _); lia).
  rewrite <- !app_assoc. cbn [app].
  match goal with |- context [fam (collected ?A) ?B ?C] => destruct (IHk q fuel y ln post tail fams A B C inds im fm refs) as (f' & F1 & F2); auto; try lia end.
  - apply (married_suffix (cur :: p1)). exact Hm.
  - exists f'. split; [lia|]. etransitivity; [exact F2|].
    rewrite !referred_skip by (eapply deep_silent_f; eauto; cbn [In]; auto). rewrite <- !app_assoc. reflexivity.
Qed.
Lemma doFamily_unknown : forall fuel n ln post tail inds fams im fm, (0 < fuel)%nat -> snd ln <> [] -> knownToken (vstr (hd [] (snd ln))) = Ok false ->
  doFamily fuel 1 1 n (st post tail (snd ln) inds fams im fm) = Ok (1, st post tail (args ln) inds fams im fm).
Proof.
  intros fuel n [d ws] post tail inds fams im fm Hf Hw Hu. destruct fuel as [|fuel]; [lia|]. unfold args. cbn [snd] in *. destruct ws as [|w ws]; [congruence|].
  cbn [doFamily hd tl] in *. rewrite shift_words. cbn [obind]. rewrite Hu. reflexivity.
Qed.
(** A marriage followed by a line of level 1: all lines up to the end of the record are skipped. *)
Lemma doFamily_marriage : forall fuel n m y pre ln post tail inds fams im fm, (S (length pre) < fuel)%nat ->
  tagged "MARR" m = true -> good_line y -> level y = 1 -> known y ->
  Forall good_line pre -> Forall known pre -> Forall (fun x => 1 <= level x) pre -> good_line ln -> level ln < 1 ->
  doFamily (S fuel) 1 1 n (st (y :: pre ++ ln :: post) tail (snd m) inds fams im fm) = Ok (level ln, st post tail (snd ln) inds fams im fm).
Proof.
  intros fuel n m y pre ln post tail inds fams im fm Hf Hm G Ly Ky P1 P2 P3 Gl Ll. cbn [doFamily]. rewrite (tagged_words _ _ Hm). rewrite shift_words. cbn [obind].
  destruct (code_tag "MARR" MARR) as [K1 K2]; [in_codes|]. rewrite K1. cbn [obind negb]. rewrite K2. cbn [obind]. cbv zeta.
  change (MARR =? HUSB) with false. change (MARR =? WIFE) with false. change (MARR =? CHIL) with false. change (MARR =? MARR) with true. cbv iota.
  rewrite readLine_next by auto. cbn [obind]. 
  rewrite (doBirth_lands (length pre) pre fuel (level y) y) by (auto; try lia; rewrite Ly; auto). cbn [obind].
  replace (1 <=? level ln) with false by lia. reflexivity.
Qed.

(** * The file *)
Definition plain_tag (w : list Z) : Prop := exists c t, w = c :: t /\ c <> 64.
Lemma first_at : forall ls tail w fs inds fams im fm,
  hd 0 w = 64 -> first_char (st ls tail (w :: fs) inds fams im fm) = Ok (VChar 64, st ls tail (w :: fs) inds fams im fm).
Proof. intros. destruct w as [|c w]; [discriminate|]. cbn [hd] in H. subst. reflexivity. Qed.
Lemma first_other : forall ls tail c w fs inds fams im fm,
  first_char (st ls tail ((c :: w) :: fs) inds fams im fm) = Ok (VChar c, st ls tail ((c :: w) :: fs) inds fams im fm).
Proof. reflexivity. Qed.
Lemma head_line : forall zero extra ws, good_head zero extra -> Forall word ws -> good_line (zero, ws ++ extra) /\ level (zero, ws ++ extra) = 0.
Proof.
  intros zero extra ws (A & B & C & D) W. split; [|exact C]. repeat split; auto; cbn [fst snd].
  - unfold level. cbn [fst]. rewrite C. unfold INT_MAX. lia.
  - apply Forall_app. auto.
Qed.
Lemma word_txt : forall t, In t tags -> word (txt t).
Proof.
  assert (X : forallb (fun t => forallb (fun c => (33 <=? c) && (c <=? 126)) (txt t)) tags = true) by (vm_compute; reflexivity).
  intros t Ht. rewrite forallb_forall in X. apply X in Ht. rewrite forallb_forall in Ht.
  assert (Y : forall c, In c (txt t) -> 33 <= c <= 126) by (intros c Hc; apply Ht in Hc; lia).
  split; [|split; [|split]].
  - intros c Hc. apply Y in Hc. lia.
  - intros Hc. apply Y in Hc. lia.
  - intros Hc. apply Y in Hc. lia.
  - intros Hc. apply Y in Hc. lia.
Qed.
Lemma entry_head : forall before e, good_entry before e -> exists ln, entry_lines e = ln :: e_body e /\
  snd ln = e_xref e :: txt (kind_tag (e_kind e)) :: e_extra e /\ good_line ln /\ level ln = 0.
Proof.
  intros before e (Hh & Hw & _). eexists. split; [reflexivity|]. split; [reflexivity|].
  apply (head_line (e_zero e) (e_extra e) [e_xref e; txt (kind_tag (e_kind e))]); auto. constructor; auto. constructor; auto.
  apply word_txt. destruct (e_kind e); cbn [kind_tag tags In]; auto 40.
Qed.
Lemma person_refs_snoc : forall before e, person_refs (before ++ [e]) = person_refs before ++ (if is_person e then [e_xref e] else []).
Proof. intros. unfold person_refs. rewrite filter_app, map_app. cbn [filter]. destruct (is_person e); reflexivity. Qed.
Lemma persons_snoc : forall before e, persons (before ++ [e]) = persons before ++ (if is_person e then [person_value (e_body e)] else []).
Proof. intros. unfold persons. rewrite filter_app, map_app. cbn [filter]. destruct (is_person e); reflexivity. Qed.
Lemma families_snoc : forall es b e, families b (es ++ [e]) =
  families b es ++ (if is_family e then [family_value (person_refs (b ++ es)) (e_body e)] else []).
Proof.
  induction es as [|x es]; intros b e; cbn [families app].
  - rewrite !app_nil_r. reflexivity.
  - rewrite IHes, <- !app_assoc. reflexivity.
Qed.
Lemma persons_length : forall es, length (persons es) = length (person_refs es).
Proof. intros. unfold persons, person_refs. rewrite !map_length. reflexivity. Qed.
Definition family_refs (es : list entry) : list (list Z) := map e_xref (filter is_family es).
Lemma family_refs_snoc : forall before e, family_refs (before ++ [e]) = family_refs before ++ (if is_family e then [e_xref e] else []).
Proof. intros. unfold family_refs. rewrite filter_app, map_app. cbn [filter]. destruct (is_family e); reflexivity. Qed.
Lemma families_length : forall es b, length (families b es) = length (family_refs es).
Proof.
  induction es as [|x es]; intros b; auto. cbn [families]. rewrite app_length, IHes. unfold family_refs. cbn [filter].
  destruct (is_family x); reflexivity.
Qed.

Lemma below_split : forall body, below body -> exists cur t, body = cur :: t /\ level cur = 1 /\ good_line cur /\
  Forall good_line t /\ Forall (fun x => 1 <= level x) t.
Proof.
  intros body ((cur & t & -> & H) & F). inversion F; subst. exists cur, t. repeat split; try apply H2; auto;
    (eapply Forall_impl; [|exact H3]); intros x X; apply X.
Qed.

Lemma doFile_prefix : forall es before fuel tail im fm y0 post c0 rest,
  (forall b e a, before ++ es = b ++ e :: a -> good_entry b e) -> good_line y0 -> level y0 = 0 ->
  refs_map im (person_refs before) -> refs_map fm (family_refs before) ->
  List.concat (map entry_lines es) ++ y0 :: post = c0 :: rest -> (length rest + 3 < fuel)%nat ->
  exists fuel' im' fm', doFile fuel 0 0 (st rest tail (snd c0) (persons before) (families [] before) im fm) =
      doFile fuel' 0 0 (st post tail (snd y0) (persons (before ++ es)) (families [] (before ++ es)) im' fm') /\ (length post + 3 < fuel')%nat /\
    refs_map im' (person_refs (before ++ es)) /\ refs_map fm' (family_refs (before ++ es)).
Proof.
  induction es as [|e es]; intros before fuel tail im fm y0 post c0 rest He Gy Ly Hi Hm E Hf.
  - cbn [map List.concat app] in E. injection E as <- <-. rewrite app_nil_r. exists fuel, im, fm. split; [reflexivity|]. split; [lia|auto].
  - destruct fuel as [|fuel]; [apply (f_equal (@length _)) in E; rewrite app_length in E; cbn [length] in E; lia|]. cbn [doFile]. assert (Ge : good_entry before e) by (apply (He before e es); reflexivity).
    destruct (entry_head before e Ge) as (ln & El & Ew & Gl & Ll). cbn [map List.concat] in E. rewrite El in E. cbn [app] in E.
    injection E as <- <-. rewrite Ew. destruct Ge as (Hg & Hw & Hx & Hb).
    assert (NX : exists x0 more, List.concat (map entry_lines es) ++ y0 :: post = x0 :: more /\ good_line x0 /\ level x0 = 0).
    { destruct es as [|e' es].
      - exists y0, post. split; [reflexivity|]. auto.
      - assert (Ge' : good_entry (before ++ [e]) e') by (apply (He (before ++ [e]) e' es); rewrite <- app_assoc; reflexivity).
        destruct (entry_head _ _ Ge') as (ln' & El' & _ & Gl' & Ll'). cbn [map List.concat]. rewrite El'. eexists _, _. split; [reflexivity|]. auto. }
    destruct NX as (x0 & more & EN & G0 & L0). rewrite <- app_assoc, EN. rewrite <- app_assoc, EN in Hf. rewrite app_length in Hf. cbn [length] in Hf.
    assert (LP : (length post <= length more)%nat) by (apply (f_equal (@length _)) in EN; rewrite app_length in EN; cbn [length] in EN; lia).
    assert (IH : forall fuel im fm, refs_map im (person_refs (before ++ [e])) -> refs_map fm (family_refs (before ++ [e])) -> (length more + 3 < fuel)%nat ->
      exists fuel' im' fm', doFile fuel 0 0 (st more tail (snd x0) (persons (before ++ [e])) (families [] (before ++ [e])) im fm) =
        doFile fuel' 0 0 (st post tail (snd y0) (persons (before ++ e :: es)) (families [] (before ++ e :: es)) im' fm') /\ (length post + 3 < fuel')%nat /\
        refs_map im' (person_refs (before ++ e :: es)) /\ refs_map fm' (family_refs (before ++ e :: es))).
    { intros fuel' im' fm' H1 H2 H3. replace (before ++ e :: es) with ((before ++ [e]) ++ es) by (rewrite <- app_assoc; reflexivity).
      apply (IHes (before ++ [e]) fuel' tail im' fm' y0 post x0 more); auto. intros b e1 a E1. apply (He b e1 a). rewrite <- E1, <- app_assoc. reflexivity. }
    rewrite first_at by auto. cbn [obind]. change (veq (VChar 64) (VChar 64)) with (Ok true). cbn [obind].
    rewrite shift_words. cbn [obind]. rewrite shift_words. cbn [obind].
    destruct (e_kind e) eqn:EK; cbn [kind_tag].
    + destruct (code_tag "SUBM" SUBM) as [K1 K2]; [in_codes|]. rewrite K1. cbn [obind negb]. rewrite K2. cbn [obind].
      change (SUBM =? SUBM) with true. cbv iota. destruct (below_split _ Hb) as (cur & t & Eb & L1 & G1 & G2 & G3). rewrite Eb in *.
      cbn [app length] in *. rewrite readLine_next by auto. cbn [obind]. unfold doSubmitter. rewrite L1.
      rewrite (doHeader_lands t fuel 1) by (auto; lia). cbn [obind]. cbv beta zeta. change (0 <=? 0) with true. cbv iota.
      specialize (IH fuel im fm). rewrite person_refs_snoc, family_refs_snoc, persons_snoc, families_snoc in IH. unfold is_person, is_family in IH. rewrite EK in IH.
      rewrite !app_nil_r in IH. apply IH; auto. lia.
    + destruct (code_tag "INDI" INDI) as [K1 K2]; [in_codes|]. rewrite K1. cbn [obind negb]. rewrite K2. cbn [obind].
      change (INDI =? SUBM) with false. change (INDI =? INDI) with true. cbv iota.
      change individual with (Ok (person VNil VNil VNil)). cbn [obind].
      cbn [st g_inds g_imap set_inds set_imap g_is g_field g_fams g_fmap]. rewrite persons_length.
      destruct (refs_map_add im (person_refs before) (e_xref e) Hi Hw) as (im' & Ea & Hi'). rewrite Ea. cbn [obind].
      destruct Hb as [Hb Hp]. destruct (below_split _ Hb) as (cur & t & Eb & L1 & G1 & G2 & G3). rewrite Eb in *. cbn [app length] in *.
      match goal with |- context [readLine ?G] =>
        change G with (st (cur :: t ++ x0 :: more) tail (e_extra e) (persons before ++ [person VNil VNil VNil]) (families [] before) im' fm) end.
      rewrite readLine_next by auto. cbn [obind].
      assert (PL : Forall person_line (cur :: t)).
      { apply Forall_forall. intros x X. rewrite Forall_forall in Hp. destruct (Hp x X) as (A & B & C).
        assert (GX : good_line x /\ 1 <= level x) by (destruct X as [<-|X]; [split; [exact G1|lia]|]; rewrite Forall_forall in G2, G3; auto).
        split; [apply GX|split; [apply GX|auto]]. }
      inversion PL; subst. rewrite <- persons_length.
      match goal with |- context [doIndividual fuel (level cur) (level cur) ?k ?g] =>
        replace (doIndividual fuel (level cur) (level cur) k g) with (doIndividual fuel 1 (level cur) k g) by (rewrite L1; reflexivity) end.
      rewrite (doIndividual_lands (length t) t fuel cur x0 more) by (auto; lia). cbn [obind]. cbv beta zeta. change (0 <=? 0) with true. cbv iota.
      specialize (IH fuel im' fm). rewrite person_refs_snoc, family_refs_snoc, persons_snoc, families_snoc in IH. unfold is_person, is_family in IH. rewrite EK in IH.
      rewrite !app_nil_r in IH. rewrite Eb in IH. unfold later.
      replace (person (match last_text "NAME" (cur :: t) with VNil => VNil | x => x end) (match last_text "SEX" (cur :: t) with VNil => VNil | x => x end)
        (match last_text "TITL" (cur :: t) with VNil => VNil | x => x end)) with (person_value (cur :: t)).
      2: { unfold person_value, person. destruct (last_text "NAME" (cur :: t)), (last_text "SEX" (cur :: t)), (last_text "TITL" (cur :: t)); reflexivity. }
      apply IH; auto. lia.
    + destruct (code_tag "FAM" FAM) as [K1 K2]; [in_codes|]. rewrite K1. cbn [obind negb]. rewrite K2. cbn [obind].
      change (FAM =? SUBM) with false. change (FAM =? INDI) with false. change (FAM =? FAM) with true. cbv iota.
      change family with (Ok (fam (collected []) VNil VNil)). cbn [obind].
      cbn [st g_inds g_imap set_fams set_fmap g_is g_field g_fams g_fmap]. rewrite families_length.
      destruct (refs_map_add fm (family_refs before) (e_xref e) Hm Hw) as (fm' & Ea & Hm'). rewrite Ea. cbn [obind].
      destruct Hb as (Hb & Hp & Hma). destruct (below_split _ Hb) as (cur & t & Eb & L1 & G1 & G2 & G3). rewrite Eb in *. cbn [app length] in *.
      match goal with |- context [readLine ?G] =>
        change G with (st (cur :: t ++ x0 :: more) tail (e_extra e) (persons before) (families [] before ++ [fam (collected []) VNil VNil]) im fm') end.
      rewrite readLine_next by auto. cbn [obind].
      assert (PL : Forall (family_line (person_refs before)) (cur :: t)).
      { apply Forall_forall. intros x X. rewrite Forall_forall in Hp. destruct (Hp x X) as (A & B).
        assert (GX : good_line x /\ 1 <= level x) by (destruct X as [<-|X]; [split; [exact G1|lia]|]; rewrite Forall_forall in G2, G3; auto).
        split; [apply GX|split; [apply GX|auto]]. }
      inversion PL; subst. rewrite <- (families_length before []).
      match goal with |- context [doFamily fuel (level cur) (level cur) ?k ?g] =>
        replace (doFamily fuel (level cur) (level cur) k g) with (doFamily fuel 1 (level cur) k g) by (rewrite L1; reflexivity) end.
      rewrite (doFamily_lands (length t) t fuel cur x0 more) with (refs := person_refs before) by (auto; lia). cbn [obind]. cbv beta zeta. change (0 <=? 0) with true. cbv iota.
      specialize (IH fuel im fm'). rewrite person_refs_snoc, family_refs_snoc, persons_snoc, families_snoc in IH. unfold is_person, is_family in IH. rewrite EK in IH.
      rewrite !app_nil_r in IH. rewrite Eb in IH. apply IH; auto. lia.
Qed.

Lemma line_lengths : forall ls, (length ls <= length (lines (map text ls)))%nat.
Proof. intros. rewrite <- (map_length text ls). apply lines_length. Qed.

Lemma trailer_line : forall zero extra, good_head zero extra -> good_line (zero, txt "TRLR" :: extra) /\ level (zero, txt "TRLR" :: extra) = 0.
Proof.
  intros zero extra H. apply (head_line zero extra [txt "TRLR"] H). constructor; [apply word_txt; cbn [tags In]; auto 40|constructor].
Qed.
(** Reading a header and records, up to a line of level 0. *)
Lemma ged_read_prefix : forall zero extra header es y0 post tail, good_head zero extra -> below header ->
  (forall before e after, es = before ++ e :: after -> good_entry before e) -> good_line y0 -> level y0 = 0 ->
  exists fuel im fm, ged_read (lines (map text ((zero, txt "HEAD" :: extra) :: header ++ List.concat (map entry_lines es) ++ y0 :: post)) ++ tail) =
      (let* g := doFile fuel 0 0 (st post tail (snd y0) (persons es) (families [] es) im fm) in Ok (g_value g)) /\
    (length post + 3 < fuel)%nat /\ refs_map im (person_refs es) /\ refs_map fm (family_refs es).
Proof.
  intros zero extra header es y0 post tail Hz Hb He Gy Ly. unfold ged_read, loadFile, ged_start.
  set (T := List.concat (map entry_lines es) ++ y0 :: post).
  assert (NX : exists x0 more, T = x0 :: more /\ good_line x0 /\ level x0 = 0).
  { unfold T. destruct es as [|e es].
    - exists y0, post. split; [reflexivity|]. auto.
    - destruct (entry_head _ _ (He [] e es eq_refl)) as (ln' & El' & _ & Gl' & Ll'). cbn [map List.concat]. rewrite El'. eexists _, _. split; [reflexivity|]. auto. }
  destruct NX as (x0 & more & EN & G0 & L0).
  destruct (below_split _ Hb) as (cur & t & Eb & L1 & G1 & G2 & G3).
  destruct (head_line zero extra [txt "HEAD"] Hz) as [A B]; [constructor; [apply word_txt; cbn [tags In]; auto 40|constructor]|].
  cbn [app] in A, B.
  rewrite readLine_any by exact A. cbn [obind]. rewrite B.
  assert (LEN : (length header + length T + 1 <= length (lines (map text ((zero, txt "HEAD" :: extra) :: header ++ T)) ++ tail))%nat).
  { rewrite app_length. pose proof (line_lengths ((zero, txt "HEAD" :: extra) :: header ++ T)) as X. cbn [length] in X. rewrite app_length in X. lia. }
  remember (length (lines (map text ((zero, txt "HEAD" :: extra) :: header ++ T)) ++ tail)) as B0 eqn:EB0.
  assert (EF : exists fuel, (4 + 3 * B0)%nat = S fuel /\ (length header + length T + 3 < fuel)%nat) by (exists (3 + 3 * B0)%nat; lia).
  destruct EF as (fuel & -> & FU). clear EB0.
  cbn [doFile]. cbn [snd]. change (txt "HEAD") with [72; 69; 65; 68]. rewrite first_other. cbn [obind].
  change (veq (VChar 72) (VChar 64)) with (Ok false). cbn [obind]. rewrite shift_words. cbn [obind].
  change (knownToken (vstr [72; 69; 65; 68])) with (knownToken (vstr (txt "HEAD"))).
  change (token_code (vstr [72; 69; 65; 68])) with (token_code (vstr (txt "HEAD"))).
  destruct (code_tag "HEAD" HEAD) as [K1 K2]; [in_codes|]. rewrite K1. cbn [obind negb]. rewrite K2. cbn [obind].
  change (HEAD =? HEAD) with true. cbv iota. rewrite Eb, EN in *. cbn [app]. rewrite readLine_next by auto. cbn [obind]. rewrite L1.
  cbn [length] in FU. rewrite (doHeader_lands t fuel 1) by (auto; lia). cbn [obind]. rewrite L0. change (0 <=? 0) with true. cbv iota.
  destruct (doFile_prefix es [] fuel tail VNil VNil y0 post x0 more) as (f' & im & fm & E & I & F & F2); auto; try (left; auto); try lia.
  change (persons []) with (@nil val) in E. change (families [] []) with (@nil val) in E. exists f', im, fm. split; [rewrite E; reflexivity|]. auto.
Qed.
Lemma g_value_records : forall fs is f im fm ps, g_value (mkged is f ps fs im fm) = file_of_records fs ps.
Proof. intros. unfold g_value. cbn [g_fams g_inds]. destruct fs, ps; reflexivity. Qed.
Lemma ged_read_doc : forall d tail, good_doc d -> ged_read (lines (map text (doc_lines d)) ++ tail) = Ok (file_value (d_entries d)).
Proof.
  intros d tail (Hz & Hb & Ht & He). unfold doc_lines. destruct (trailer_line _ _ Ht) as [G L].
  destruct (ged_read_prefix (d_zero d) (d_extra d) (d_header d) (d_entries d) (d_zero' d, txt "TRLR" :: d_extra' d) [] tail Hz Hb He G L) as (fuel & im & fm & E & F & _).
  etransitivity; [exact E|]. clear E.
  destruct fuel as [|fuel]; [lia|]. cbn [doFile]. cbn [snd]. change (txt "TRLR") with [84; 82; 76; 82]. rewrite first_other. cbn [obind].
  change (veq (VChar 84) (VChar 64)) with (Ok false). cbn [obind]. rewrite shift_words. cbn [obind].
  change (knownToken (vstr [84; 82; 76; 82])) with (knownToken (vstr (txt "TRLR"))).
  change (token_code (vstr [84; 82; 76; 82])) with (token_code (vstr (txt "TRLR"))).
  destruct (code_tag "TRLR" TRLR) as [K1 K2]; [in_codes|]. rewrite K1. cbn [obind negb]. rewrite K2. cbn [obind].
  change (TRLR =? HEAD) with false. change (TRLR =? TRLR) with true. cbv iota. cbn [obind]. unfold st. rewrite g_value_records. reflexivity.
Qed.
