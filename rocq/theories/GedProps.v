(** GEDCOM files: C80 to C85. *)
From Coq Require Import ZArith Bool List Lia ZifyBool Sorting String.
From Verif Require Import Base StrModel StrSpec StrProof StrProps LineProof ValModel ValSpec ValProof MapProof ValProps
  NumModel JsonModel JsonSpec IniModel IniProof GedModel GedSpec GedProof GedTotal.
Import ListNotations.
Local Notation length := List.length.
Local Open Scope list_scope.
Local Open Scope Z_scope.

(** * C80: a file in the form of the standard gives the records it describes. *)
Theorem C80_document : forall d tail, good_doc d -> ged_read (lines (map text (doc_lines d)) ++ tail) = Ok (file_value (d_entries d)).
Proof. exact ged_read_doc. Qed.

(** * C81: any file *)
Theorem C81_any_file : forall content, chars content -> nul_free content -> content <> [] ->
  (exists v, ged_read content = Ok v /\ file_shape v) \/ (exists m, ged_read content = Throw m /\ m <> "not modelled"%string) \/
  ged_read content = UB BadSize.
Proof.
  intros content Hc Hn Hne. destruct (ged_read_ends content Hc Hn) as [H|[_ H]]; [|congruence].
  destruct (ged_read content) as [v|m|k|]; cbn [ends] in H; [left; eauto|right; left; eauto|right; right; subst; auto|contradiction].
Qed.
(** A file with nothing in it: the level is read from a nil. *)
Theorem C81_empty : ged_read [] = UB TypePun.
Proof. vm_compute. reflexivity. Qed.

(** * C82: tags that are not in the list *)
Definition unknown_word (w : list Z) : Prop := word w /\ forall t, In t tags -> w <> txt t.
Lemma unknown_word_token : forall w, unknown_word w -> knownToken (vstr w) = Ok false.
Proof. intros w [(A & B & _) H]. apply unknown_token; auto. split; auto. Qed.
(** The lines of a record up to some line of level 1. *)
Definition begun (before : list entry) (e : entry) : Prop :=
  good_head (e_zero e) (e_extra e) /\ word (e_xref e) /\ hd 0 (e_xref e) = 64 /\
  (e_kind e = Person /\ (e_body e = [] \/ person_lines (e_body e)) \/
   e_kind e = Family /\ (e_body e = [] \/ family_lines (person_refs before) (e_body e))).

Lemma doFile_person : forall fuel rest tail xref extra cur inds fams im fm refs, refs_map im refs -> length inds = length refs -> word xref -> hd 0 xref = 64 ->
  good_line cur ->
  exists im', refs_map im' (refs ++ [xref]) /\
  doFile (S fuel) 0 0 (st (cur :: rest) tail (xref :: txt "INDI" :: extra) inds fams im fm) =
  (let* (_, g) := doIndividual fuel (level cur) (level cur) (length inds) (st rest tail (snd cur) (inds ++ [person VNil VNil VNil]) fams im' fm) in doFile fuel 0 0 g).
Proof.
  intros fuel rest tail xref extra cur inds fams im fm refs Hi Hl Hw Hx G.
  destruct (refs_map_add im refs xref Hi Hw) as (im' & Ea & Hi'). exists im'. split; auto. cbn [doFile].
  rewrite first_at by auto. cbn [obind]. change (veq (VChar 64) (VChar 64)) with (Ok true). cbn [obind].
  rewrite shift_words. cbn [obind]. rewrite shift_words. cbn [obind].
  destruct (code_tag "INDI" INDI) as [K1 K2]; [in_codes|]. rewrite K1. cbn [obind negb]. rewrite K2. cbn [obind].
  change (INDI =? SUBM) with false. change (INDI =? INDI) with true. cbv iota.
  change individual with (Ok (person VNil VNil VNil)). cbn [obind]. cbn [st g_inds g_imap]. rewrite <- Hl in Ea. rewrite Ea. cbn [obind].
  match goal with |- context [readLine ?G] => change G with (st (cur :: rest) tail extra (inds ++ [person VNil VNil VNil]) fams im' fm) end.
  rewrite readLine_next by auto. cbn [obind]. change (0 <=? 0) with true. reflexivity.
Qed.
Lemma doFile_family : forall fuel rest tail xref extra cur inds fams im fm refs, refs_map fm refs -> length fams = length refs -> word xref -> hd 0 xref = 64 ->
  good_line cur ->
  exists fm', refs_map fm' (refs ++ [xref]) /\
  doFile (S fuel) 0 0 (st (cur :: rest) tail (xref :: txt "FAM" :: extra) inds fams im fm) =
  (let* (_, g) := doFamily fuel (level cur) (level cur) (length fams) (st rest tail (snd cur) inds (fams ++ [fam (collected []) VNil VNil]) im fm') in doFile fuel 0 0 g).
Proof.
  intros fuel rest tail xref extra cur inds fams im fm refs Hi Hl Hw Hx G.
  destruct (refs_map_add fm refs xref Hi Hw) as (fm' & Ea & Hi'). exists fm'. split; auto. cbn [doFile].
  rewrite first_at by auto. cbn [obind]. change (veq (VChar 64) (VChar 64)) with (Ok true). cbn [obind].
  rewrite shift_words. cbn [obind]. rewrite shift_words. cbn [obind].
  destruct (code_tag "FAM" FAM) as [K1 K2]; [in_codes|]. rewrite K1. cbn [obind negb]. rewrite K2. cbn [obind].
  change (FAM =? SUBM) with false. change (FAM =? INDI) with false. change (FAM =? FAM) with true. cbv iota.
  change family with (Ok (fam (collected []) VNil VNil)). cbn [obind]. cbn [st g_fams g_fmap]. rewrite <- Hl in Ea. rewrite Ea. cbn [obind].
  match goal with |- context [readLine ?G] => change G with (st (cur :: rest) tail extra inds (fams ++ [fam (collected []) VNil VNil]) im fm') end.
  rewrite readLine_next by auto. cbn [obind]. change (0 <=? 0) with true. reflexivity.
Qed.
(** What is left of a line, read as a line of level 0. *)
Lemma doFile_rest : forall fuel tail fs inds fams im fm, (0 < fuel)%nat ->
  (fs = [] -> exists f', doFile fuel 0 0 (st [] tail fs inds fams im fm) = Ok (mkged (mkis tail) f' inds fams im fm)) /\
  (forall a b, fs = a :: b -> hd 0 a <> 64 -> unknown_word a ->
     exists f', doFile fuel 0 0 (st [] tail fs inds fams im fm) = Ok (mkged (mkis tail) f' inds fams im fm)) /\
  (forall a, fs = [a] -> hd 0 a = 64 -> doFile fuel 0 0 (st [] tail fs inds fams im fm) = UB BadSize).
Proof.
  intros fuel tail fs inds fams im fm Hf. destruct fuel as [|fuel]; [lia|]. cbn [doFile]. split; [|split].
  - intros ->. unfold first_char. cbn [st g_field map obind]. change (veq VNil (VChar 64)) with (Ok false). cbn [obind].
    unfold shift_field. cbn [st set_field g_field obind].
    replace (knownToken (VArr TVar [VNil])) with (Ok false) by (vm_compute; reflexivity). eexists. reflexivity.
  - intros a b -> Ha Hu. destruct a as [|c a].
    + unfold first_char. cbn [st g_field map vstr obind]. change (veq (VChar 0) (VChar 64)) with (Ok false). cbn [obind].
      unfold shift_field. cbn [st set_field g_field obind].
      replace (knownToken (VArr TChar [VChar 0])) with (Ok false) by (vm_compute; reflexivity). eexists. reflexivity.
    + rewrite first_other. cbn [obind]. change (veq (VChar c) (VChar 64)) with (Ok (negb (negb (c =? 64)))). cbn [hd] in Ha.
      replace (c =? 64) with false by lia. cbn [obind negb]. rewrite shift_words. cbn [obind]. rewrite unknown_word_token by auto.
      eexists. reflexivity.
  - intros a -> Ha. rewrite first_at by auto. cbn [obind]. change (veq (VChar 64) (VChar 64)) with (Ok true). cbn [obind].
    rewrite shift_words. cbn [obind]. reflexivity.
Qed.

Lemma begun_then : forall es e u tail im fm fuel, begun es e -> good_line u -> level u = 1 -> snd u <> [] -> unknown_word (hd [] (snd u)) ->
  refs_map im (person_refs es) -> refs_map fm (family_refs es) -> (length (e_body e) + 4 < fuel)%nat ->
  exists fuel' im' fm', (0 < fuel')%nat /\
    doFile fuel 0 0 (st (e_body e ++ [u]) tail (e_xref e :: txt (kind_tag (e_kind e)) :: e_extra e) (persons es) (families [] es) im fm) =
    doFile fuel' 0 0 (st [] tail (args u) (persons (es ++ [e])) (families [] (es ++ [e])) im' fm').
Proof.
  intros es e u tail im fm fuel (Hh & Hw & Hx & HK) Gu Lu Nu Uu Hi Hm Hf. apply unknown_word_token in Uu.
  destruct fuel as [|fuel]; [lia|].
  rewrite persons_snoc, families_snoc. unfold is_person, is_family. destruct HK as [(-> & Hb)|(-> & Hb)]; cbn [kind_tag]; rewrite app_nil_r.
  - destruct Hb as [Eb|(Hb & Hp)].
    + rewrite Eb. cbn [app]. destruct (doFile_person fuel [] tail (e_xref e) (e_extra e) u (persons es) (families [] es) im fm _ Hi (persons_length es) Hw Hx Gu)
        as (im' & _ & ->). rewrite Lu, doIndividual_unknown by (auto; lia). cbn [obind]. exists fuel, im', fm. split; [lia|reflexivity].
    + destruct (below_split _ Hb) as (cur & t & Eb & L1 & G1 & G2 & G3). rewrite Eb in *. cbn [app length] in *.
      assert (PL : Forall person_line (cur :: t)).
      { apply Forall_forall. intros x X. rewrite Forall_forall in Hp. destruct (Hp x X) as (A & B & C).
        assert (GX : good_line x /\ 1 <= level x) by (destruct X as [<-|X]; [split; [exact G1|lia]|]; rewrite Forall_forall in G2, G3; auto).
        split; [apply GX|split; [apply GX|auto]]. }
      inversion PL; subst.
      destruct (doFile_person fuel (t ++ [u]) tail (e_xref e) (e_extra e) cur (persons es) (families [] es) im fm _ Hi (persons_length es) Hw Hx G1)
        as (im' & _ & ->).
      replace (doIndividual fuel (level cur) (level cur)) with (doIndividual fuel 1 (level cur)) by (rewrite L1; reflexivity).
      destruct (doIndividual_reaches (length t) t fuel cur u [] tail (persons es) VNil VNil VNil (families [] es) im' fm) as (f' & F1 & ->); auto; try lia.
      rewrite doIndividual_unknown by (auto; lia). cbn [obind]. exists fuel, im', fm. split; [lia|]. unfold later.
      replace (person (match last_text "NAME" (cur :: t) with VNil => VNil | x => x end) (match last_text "SEX" (cur :: t) with VNil => VNil | x => x end)
        (match last_text "TITL" (cur :: t) with VNil => VNil | x => x end)) with (person_value (cur :: t)); [reflexivity|].
      unfold person_value, person. destruct (last_text "NAME" (cur :: t)), (last_text "SEX" (cur :: t)), (last_text "TITL" (cur :: t)); reflexivity.
  - pose proof (families_length es []) as FL. destruct Hb as [Eb|(Hb & Hp & Hma)].
    + rewrite Eb. cbn [app]. destruct (doFile_family fuel [] tail (e_xref e) (e_extra e) u (persons es) (families [] es) im fm _ Hm FL Hw Hx Gu)
        as (fm' & _ & ->). rewrite Lu, doFamily_unknown by (auto; lia). cbn [obind]. exists fuel, im, fm'. split; [lia|reflexivity].
    + destruct (below_split _ Hb) as (cur & t & Eb & L1 & G1 & G2 & G3). rewrite Eb in *. cbn [app length] in *.
      assert (PL : Forall (family_line (person_refs es)) (cur :: t)).
      { apply Forall_forall. intros x X. rewrite Forall_forall in Hp. destruct (Hp x X) as (A & B).
        assert (GX : good_line x /\ 1 <= level x) by (destruct X as [<-|X]; [split; [exact G1|lia]|]; rewrite Forall_forall in G2, G3; auto).
        split; [apply GX|split; [apply GX|auto]]. }
      inversion PL; subst.
      destruct (doFile_family fuel (t ++ [u]) tail (e_xref e) (e_extra e) cur (persons es) (families [] es) im fm _ Hm FL Hw Hx G1)
        as (fm' & _ & ->).
      replace (doFamily fuel (level cur) (level cur)) with (doFamily fuel 1 (level cur)) by (rewrite L1; reflexivity).
      destruct (doFamily_reaches (length t) t fuel cur u [] tail (families [] es) [] VNil VNil (persons es) im fm' (person_refs es)) as (f' & F1 & ->); auto; try lia.
      rewrite doFamily_unknown by (auto; lia). cbn [obind]. exists fuel, im, fm'. split; [lia|reflexivity].
Qed.

Section unknown.
Variables (zero : list Z) (extra : list (list Z)) (header : list line) (es : list entry) (e : entry) (u : line) (tail : list Z).
Hypotheses (Hz : good_head zero extra) (Hh : below header)
  (He : forall before x after, es = before ++ x :: after -> good_entry before x) (Hb : begun es e)
  (Hg : good_line u) (Hl : level u = 1) (Hn : snd u <> []) (Hu : unknown_word (hd [] (snd u))).
Let file := lines (map text ((zero, txt "HEAD" :: extra) :: header ++ List.concat (map entry_lines es) ++ entry_lines e ++ [u])) ++ tail.

Lemma unknown_reads : exists fuel im fm, (0 < fuel)%nat /\
  ged_read file = let* g := doFile fuel 0 0 (st [] tail (args u) (persons (es ++ [e])) (families [] (es ++ [e])) im fm) in Ok (g_value g).
Proof.
  assert (G0 : good_line (e_zero e, e_xref e :: txt (kind_tag (e_kind e)) :: e_extra e) /\ level (e_zero e, e_xref e :: txt (kind_tag (e_kind e)) :: e_extra e) = 0).
  { destruct Hb as (A & B & _). apply (head_line (e_zero e) (e_extra e) [e_xref e; txt (kind_tag (e_kind e))] A). constructor; auto. constructor; auto.
    apply word_txt. destruct (e_kind e); cbn [kind_tag tags In]; auto 40. }
  destruct G0 as [G0 L0].
  destruct (ged_read_prefix zero extra header es _ (e_body e ++ [u]) tail Hz Hh He G0 L0) as (fuel & im & fm & E & F & I & J).
  rewrite app_length in F. cbn [length] in F.
  destruct (begun_then es e u tail im fm fuel Hb Hg Hl Hn Hu I J ltac:(lia)) as (f' & im' & fm' & F' & E').
  exists f', im', fm'. split; auto. etransitivity; [exact E|]. cbn [snd]. rewrite E'. reflexivity.
Qed.
(** Nothing after the line is read: the file seems to end there. *)
Theorem C82_cut_short : args u = [] \/ (hd 0 (hd [] (args u)) <> 64 /\ unknown_word (hd [] (args u))) ->
  ged_read file = Ok (file_value (es ++ [e])).
Proof.
  intros HA. destruct unknown_reads as (fuel & im & fm & F & ->).
  destruct (doFile_rest fuel tail (args u) (persons (es ++ [e])) (families [] (es ++ [e])) im fm F) as (A & B & _).
  assert (X : exists f', doFile fuel 0 0 (st [] tail (args u) (persons (es ++ [e])) (families [] (es ++ [e])) im fm) =
    Ok (mkged (mkis tail) f' (persons (es ++ [e])) (families [] (es ++ [e])) im fm)).
  { destruct (args u) as [|a b]; [auto|]. destruct HA as [HA|[H1 H2]]; [discriminate|]. cbn [hd] in *. eapply B; eauto. }
  destruct X as (f' & ->). cbn [obind]. rewrite g_value_records. reflexivity.
Qed.
(** A single cross reference on the line: undefined behaviour. *)
Theorem C82_undefined : length (args u) = 1%nat -> hd 0 (hd [] (args u)) = 64 -> ged_read file = UB BadSize.
Proof.
  intros H1 H2. destruct unknown_reads as (fuel & im & fm & F & ->).
  destruct (args u) as [|a [|b c]]; try discriminate.
  destruct (doFile_rest fuel tail [a] (persons (es ++ [e])) (families [] (es ++ [e])) im fm F) as (_ & _ & B). rewrite (B a eq_refl H2). reflexivity.
Qed.
End unknown.

(** Records of other kinds, at level 0. *)
Definition ends_reading (ws : list (list Z)) : Prop := ws = [] \/ (hd 0 (hd [] ws) <> 64 /\ unknown_word (hd [] ws)).
Definition other_words (ws rest : list (list Z)) : Prop :=
  (exists x t, ws = x :: txt t :: rest /\ hd 0 x = 64 /\ In t tags /\ ~ In t ["SUBM"; "INDI"; "FAM"]%string) \/
  (exists t, ws = txt t :: rest /\ In t tags /\ ~ In t ["HEAD"; "TRLR"]%string).
Lemma doFile_other : forall fuel tail ws rest inds fams im fm, other_words ws rest ->
  doFile (S fuel) 0 0 (st [] tail ws inds fams im fm) = doFile fuel 0 0 (st [] tail rest inds fams im fm).
Proof.
  intros fuel tail ws rest inds fams im fm [(x & t & -> & Hx & Ht & Hno)|(t & -> & Ht & Hno)]; cbn [doFile].
  - rewrite first_at by auto. cbn [obind]. change (veq (VChar 64) (VChar 64)) with (Ok true). cbn [obind].
    rewrite shift_words. cbn [obind]. rewrite shift_words. cbn [obind].
    destruct (code_exists t Ht) as (c & Hc). destruct (code_tag t c Hc) as [K1 K2]. rewrite K1. cbn [obind negb]. rewrite K2. cbn [obind].
    assert (X : (c =? SUBM) = false /\ (c =? INDI) = false /\ (c =? FAM) = false).
    { clear - Hc Hno. cbn [In] in Hno.
      repeat (destruct Hc as [Hc|Hc]; [injection Hc as <- <-; try (repeat split; reflexivity); exfalso; apply Hno; auto 8|]). contradiction. }
    destruct X as (-> & -> & ->). change (0 <=? 0) with true. reflexivity.
  - assert (N : exists c w, txt t = c :: w /\ c <> 64).
    { clear - Ht. repeat (destruct Ht as [<-|Ht]; [eexists _, _; split; [reflexivity|discriminate]|]). contradiction. }
    destruct N as (ch & w & Ew & Nc). rewrite Ew. rewrite first_other. cbn [obind].
    change (veq (VChar ch) (VChar 64)) with (Ok (negb (negb (ch =? 64)))). replace (ch =? 64) with false by lia. cbn [obind negb].
    rewrite <- Ew. rewrite shift_words. cbn [obind].
    destruct (code_exists t Ht) as (c & Hc). destruct (code_tag t c Hc) as [K1 K2]. rewrite K1. cbn [obind negb]. rewrite K2. cbn [obind].
    assert (X : (c =? HEAD) = false /\ (c =? TRLR) = false).
    { clear - Hc Hno. cbn [In] in Hno.
      repeat (destruct Hc as [Hc|Hc]; [injection Hc as <- <-; try (repeat split; reflexivity); exfalso; apply Hno; auto 8|]). contradiction. }
    destruct X as (-> & ->). change (0 <=? 0) with true. reflexivity.
Qed.
Section other.
Variables (zero : list Z) (extra : list (list Z)) (header : list line) (es : list entry) (u : line) (tail : list Z).
Hypotheses (Hz : good_head zero extra) (Hh : below header)
  (He : forall before x after, es = before ++ x :: after -> good_entry before x) (Hg : good_line u) (Hl : level u = 0).
Let file := lines (map text ((zero, txt "HEAD" :: extra) :: header ++ List.concat (map entry_lines es) ++ [u])) ++ tail.
Let reads : exists fuel im fm,
  ged_read file = let* g := doFile (S (S fuel)) 0 0 (st [] tail (snd u) (persons es) (families [] es) im fm) in Ok (g_value g).
Proof.
  destruct (ged_read_prefix zero extra header es u [] tail Hz Hh He Hg Hl) as (fuel & im & fm & E & F & _). cbn [length] in F.
  destruct fuel as [|[|fuel]]; [lia|lia|]. exists fuel, im, fm. exact E.
Qed.
(** Here too the file seems to end. *)
Theorem C82_record : ends_reading (snd u) \/ (exists x t rest, snd u = x :: t :: rest /\ hd 0 x = 64 /\ unknown_word t) \/
    (exists rest, other_words (snd u) rest /\ ends_reading rest) ->
  ged_read file = Ok (file_value es).
Proof.
  intros H. destruct reads as (fuel & im & fm & ->).
  assert (ER : forall f ws, ends_reading ws -> exists f', doFile (S f) 0 0 (st [] tail ws (persons es) (families [] es) im fm) =
    Ok (mkged (mkis tail) f' (persons es) (families [] es) im fm)).
  { intros f ws W. destruct (doFile_rest (S f) tail ws (persons es) (families [] es) im fm ltac:(lia)) as (A & B & _).
    destruct ws as [|a b]; [auto|]. destruct W as [W|[W1 W2]]; [discriminate|]. cbn [hd] in *. eapply B; eauto. }
  assert (X : exists f', doFile (S (S fuel)) 0 0 (st [] tail (snd u) (persons es) (families [] es) im fm) =
    Ok (mkged (mkis tail) f' (persons es) (families [] es) im fm)).
  { destruct H as [H|[(x & t & rest & -> & Hx & Ht)|(rest & H & W)]].
    - apply ER; auto.
    - cbn [doFile]. rewrite first_at by auto. cbn [obind]. change (veq (VChar 64) (VChar 64)) with (Ok true). cbn [obind].
      rewrite shift_words. cbn [obind]. rewrite shift_words. cbn [obind]. rewrite unknown_word_token by auto. eexists. reflexivity.
    - rewrite (doFile_other _ _ _ _ _ _ _ _ H). apply ER; auto. }
  destruct X as (f' & ->). cbn [obind]. rewrite g_value_records. reflexivity.
Qed.
Theorem C82_record_undefined : (exists a, snd u = [a] /\ hd 0 a = 64) \/ (exists a, other_words (snd u) [a] /\ hd 0 a = 64) ->
  ged_read file = UB BadSize.
Proof.
  intros H. destruct reads as (fuel & im & fm & ->).
  assert (ER : forall f a, hd 0 a = 64 -> doFile (S f) 0 0 (st [] tail [a] (persons es) (families [] es) im fm) = UB BadSize).
  { intros f a W. destruct (doFile_rest (S f) tail [a] (persons es) (families [] es) im fm ltac:(lia)) as (_ & _ & B). apply (B a); auto. }
  destruct H as [(a & -> & H)|(a & O & H)]; [|rewrite (doFile_other _ _ _ _ _ _ _ _ O)]; rewrite ER by auto; reflexivity.
Qed.
End other.

(** * C83: a marriage without further lines of its own *)
(** The other lines of the family up to the end of its record are lost. *)
Theorem C83_marriage_swallows : forall zero extra header es e pre m y rest zero' extra' tail,
  good_head zero extra -> below header -> (forall before x after, es = before ++ x :: after -> good_entry before x) ->
  good_head (e_zero e) (e_extra e) -> word (e_xref e) -> hd 0 (e_xref e) = 64 -> e_kind e = Family ->
  e_body e = pre ++ m :: y :: rest -> pre = [] \/ family_lines (person_refs es) pre ->
  good_line m -> level m = 1 -> tagged "MARR" m = true -> level y = 1 ->
  Forall (fun ln => good_line ln /\ known ln /\ 1 <= level ln) (y :: rest) -> good_head zero' extra' ->
  ged_read (lines (map text ((zero, txt "HEAD" :: extra) :: header ++ List.concat (map entry_lines es) ++ entry_lines e ++ [(zero', txt "TRLR" :: extra')])) ++ tail) =
    Ok (file_of_records (families [] es ++ [family_value (person_refs es) pre]) (persons es)).
Proof.
  intros zero extra header es e pre m y rest zero' extra' tail Hz Hh He Hg Hw Hx HK Eb Hpre Gm Lm Tm Ly Hr Ht.
  assert (G0 : good_line (e_zero e, e_xref e :: txt (kind_tag (e_kind e)) :: e_extra e) /\ level (e_zero e, e_xref e :: txt (kind_tag (e_kind e)) :: e_extra e) = 0).
  { apply (head_line (e_zero e) (e_extra e) [e_xref e; txt (kind_tag (e_kind e))] Hg). constructor; auto. constructor; auto.
    apply word_txt. destruct (e_kind e); cbn [kind_tag tags In]; auto 40. }
  destruct G0 as [G0 L0]. destruct (trailer_line _ _ Ht) as [GT LT].
  destruct (ged_read_prefix zero extra header es _ (e_body e ++ [(zero', txt "TRLR" :: extra')]) tail Hz Hh He G0 L0) as (fuel & im & fm & E & F & I & J).
  etransitivity; [exact E|]. clear E. cbn [snd]. rewrite HK, Eb in *. cbn [kind_tag] in *. rewrite !app_length in F. cbn [length] in F. rewrite <- app_assoc. cbn [app].
  inversion Hr as [|? ? (Gy & Ky & _) Hr']; subst.
  assert (P1 : Forall good_line rest) by (eapply Forall_impl; [|exact Hr']; intros ? X; apply X).
  assert (P2 : Forall known rest) by (eapply Forall_impl; [|exact Hr']; intros ? X; apply X).
  assert (P3 : Forall (fun x => 1 <= level x) rest) by (eapply Forall_impl; [|exact Hr']; intros ? X; apply X).
  pose proof (families_length es []) as FL. destruct fuel as [|fuel]; [lia|].
  assert (END : forall fuel fams im fm, (0 < fuel)%nat ->
    (let* g := doFile fuel 0 0 (st [] tail (txt "TRLR" :: extra') (persons es) fams im fm) in Ok (g_value g)) = Ok (file_of_records fams (persons es))).
  { intros f0 fams im0 fm0 H0. destruct f0 as [|f0]; [lia|]. cbn [doFile]. change (txt "TRLR") with [84; 82; 76; 82]. rewrite first_other. cbn [obind].
    change (veq (VChar 84) (VChar 64)) with (Ok false). cbn [obind]. rewrite shift_words. cbn [obind].
    change (knownToken (vstr [84; 82; 76; 82])) with (knownToken (vstr (txt "TRLR"))).
    change (token_code (vstr [84; 82; 76; 82])) with (token_code (vstr (txt "TRLR"))).
    destruct (code_tag "TRLR" TRLR) as [K1 K2]; [in_codes|]. rewrite K1. cbn [obind negb]. rewrite K2. cbn [obind].
    change (TRLR =? HEAD) with false. change (TRLR =? TRLR) with true. cbv iota. cbn [obind]. unfold st. rewrite g_value_records. reflexivity. }
  destruct Hpre as [->|(Hb & Hp & Hma)].
  - cbn [app length] in *.
    destruct (doFile_family fuel (y :: rest ++ [(zero', txt "TRLR" :: extra')]) tail (e_xref e) (e_extra e) m (persons es) (families [] es) im fm _ J FL Hw Hx Gm)
      as (fm' & _ & ->). rewrite Lm. destruct fuel as [|fuel]; [lia|].
    rewrite (doFamily_marriage fuel _ m y rest) by (auto; lia). cbn [obind]. cbn [snd]. apply END. lia.
  - destruct (below_split _ Hb) as (cur & t & Eb' & L1 & G1 & G2 & G3). subst pre. cbn [app length] in *.
    assert (PL : Forall (family_line (person_refs es)) (cur :: t)).
    { apply Forall_forall. intros x X. rewrite Forall_forall in Hp. destruct (Hp x X) as (A & B).
      assert (GX : good_line x /\ 1 <= level x) by (destruct X as [<-|X]; [split; [exact G1|lia]|]; rewrite Forall_forall in G2, G3; auto).
      split; [apply GX|split; [apply GX|auto]]. }
    inversion PL; subst.
    destruct (doFile_family fuel (t ++ m :: y :: rest ++ [(zero', txt "TRLR" :: extra')]) tail (e_xref e) (e_extra e) cur (persons es) (families [] es) im fm _ J FL Hw Hx G1)
      as (fm' & _ & ->).
    replace (doFamily fuel (level cur) (level cur)) with (doFamily fuel 1 (level cur)) by (rewrite L1; reflexivity).
    destruct (doFamily_reaches (length t) t fuel cur m (y :: rest ++ [(zero', txt "TRLR" :: extra')]) tail (families [] es) [] VNil VNil (persons es) im fm' (person_refs es)) as (f' & F1 & ->); auto; try lia.
    destruct f' as [|f']; [lia|]. rewrite (doFamily_marriage f' _ m y rest) by (auto; lia). cbn [obind snd]. apply END. lia.
Qed.

(** * C84: families before persons *)
(** A family that names a member before any person has been read: the reader throws. *)
Theorem C84_family_first : forall zero extra header es e pre m tail,
  good_head zero extra -> below header -> (forall before x after, es = before ++ x :: after -> good_entry before x) ->
  person_refs es = [] -> good_head (e_zero e) (e_extra e) -> word (e_xref e) -> hd 0 (e_xref e) = 64 -> e_kind e = Family ->
  e_body e = pre ++ [m] -> pre = [] \/ family_lines [] pre ->
  good_line m -> level m = 1 -> one_of ["HUSB"; "WIFE"; "CHIL"]%string m -> args m <> [] ->
  exists msg, ged_read (lines (map text ((zero, txt "HEAD" :: extra) :: header ++ List.concat (map entry_lines es) ++ entry_lines e)) ++ tail) = Throw msg.
Proof.
  intros zero extra header es e pre m tail Hz Hh He Hnone Hg Hw Hx HK Eb Hpre Gm Lm Om Am.
  assert (G0 : good_line (e_zero e, e_xref e :: txt (kind_tag (e_kind e)) :: e_extra e) /\ level (e_zero e, e_xref e :: txt (kind_tag (e_kind e)) :: e_extra e) = 0).
  { apply (head_line (e_zero e) (e_extra e) [e_xref e; txt (kind_tag (e_kind e))] Hg). constructor; auto. constructor; auto.
    apply word_txt. destruct (e_kind e); cbn [kind_tag tags In]; auto 40. }
  destruct G0 as [G0 L0].
  destruct (ged_read_prefix zero extra header es _ (e_body e) tail Hz Hh He G0 L0) as (fuel & im & fm & E & F & I & J).
  exists "var::at(): uninitialised"%string.
  etransitivity; [exact E|]. clear E. cbn [snd]. rewrite HK, Eb in *. cbn [kind_tag] in *. rewrite !app_length in F. cbn [length] in F.
  rewrite Hnone in I. destruct I as [[_ ->]|[I _]]; [|congruence].
  assert (MEM : forall f0 n tail inds fams fm, (0 < f0)%nat -> doFamily f0 1 1 n (st [] tail (snd m) inds fams VNil fm) = Throw "var::at(): uninitialised"%string).
  { intros f0 n tl inds fams fm0 H0. destruct f0 as [|f0]; [lia|]. destruct Om as (t & Ht & Tm). cbn [doFamily]. rewrite (tagged_words _ _ Tm). rewrite shift_words. cbn [obind].
    destruct (args m) as [|x ar]; [congruence|]. cbv zeta.
    destruct Ht as [<-|[<-|[<-|[]]]];
      [destruct (code_tag "HUSB" HUSB) as [K1 K2]; [in_codes|]|destruct (code_tag "WIFE" WIFE) as [K1 K2]; [in_codes|]|destruct (code_tag "CHIL" CHIL) as [K1 K2]; [in_codes|]];
      rewrite K1; cbn [obind negb]; rewrite K2; cbn [obind]; reflexivity. }
  pose proof (families_length es []) as FL. destruct fuel as [|fuel]; [lia|].
  destruct Hpre as [->|(Hb & Hp & Hma)].
  - cbn [app length] in *.
    destruct (doFile_family fuel [] tail (e_xref e) (e_extra e) m (persons es) (families [] es) VNil fm _ J FL Hw Hx Gm) as (fm' & _ & ->).
    rewrite Lm, MEM by lia. reflexivity.
  - destruct (below_split _ Hb) as (cur & t & Eb' & L1 & G1 & G2 & G3). subst pre. cbn [app length] in *.
    assert (PL : Forall (family_line []) (cur :: t)).
    { apply Forall_forall. intros x X. rewrite Forall_forall in Hp. destruct (Hp x X) as (A & B).
      assert (GX : good_line x /\ 1 <= level x) by (destruct X as [<-|X]; [split; [exact G1|lia]|]; rewrite Forall_forall in G2, G3; auto).
      split; [apply GX|split; [apply GX|auto]]. }
    inversion PL; subst.
    destruct (doFile_family fuel (t ++ [m]) tail (e_xref e) (e_extra e) cur (persons es) (families [] es) VNil fm _ J FL Hw Hx G1) as (fm' & _ & ->).
    replace (doFamily fuel (level cur) (level cur)) with (doFamily fuel 1 (level cur)) by (rewrite L1; reflexivity).
    destruct (doFamily_reaches (length t) t fuel cur m [] tail (families [] es) [] VNil VNil (persons es) VNil fm' []) as (f' & F1 & ->); auto; try lia; [left; auto|].
    rewrite MEM by lia. reflexivity.
Qed.

(** * C85: a file that could not be opened *)
(** The reader never comes back. *)
Lemma getline_failed_never : forall fuel buf read size, (read < size)%nat -> length buf = S size -> getline_failed fuel buf read size = Fuel.
Proof.
  induction fuel; intros buf read size H L; auto. cbn [getline_failed].
  replace (Nat.leb (length buf) read) with false by (symmetry; apply Nat.leb_gt; lia). cbv zeta.
  assert (LS : length (set_nth buf read (-1)) = S size) by (rewrite set_nth_length; auto).
  destruct (Nat.eqb_spec (S read) size) as [E|E]; [|apply IHfuel; auto; lia].
  apply IHfuel; [lia|]. unfold buf_resize. rewrite set_nth_length, firstn_length, ?app_length, ?firstn_length, ?repeat_length, ?LS. cbn [length]. lia.
Qed.
Theorem C85_unopened : forall fuel, loadFile_failed fuel = Fuel.
Proof. intros. unfold loadFile_failed. rewrite getline_failed_never; auto. lia. Qed.

(** * Examples *)
Definition ln (l : string) (ws : list string) : line := (txt l, map txt ws).
Definition word_b (w : list Z) : bool := forallb (fun c => (-128 <=? c) && (c <=? 127) && negb (existsb (Z.eqb c) [0; 10; 32])) w.
Definition good_b (ln : line) : bool :=
  match fst ln with [] => false | _ => true end && forallb isdigit (fst ln) && (level ln <=? INT_MAX) && forallb word_b (snd ln).
Lemma word_b_ok : forall w, word_b w = true -> word w.
Proof.
  intros w H. unfold word_b in H. rewrite forallb_forall in H.
  assert (X : forall c, In c w -> -128 <= c <= 127 /\ c <> 0 /\ c <> 10 /\ c <> 32) by (intros c Hc; apply H in Hc; cbn [existsb] in Hc; lia).
  split; [intros c Hc; apply X; auto|]. split; [|split]; intros Hc; apply X in Hc; lia.
Qed.
Lemma words_ok : forall ws, forallb word_b ws = true -> Forall word ws.
Proof. intros ws H. rewrite forallb_forall in H. apply Forall_forall. intros w Hw. apply word_b_ok. auto. Qed.
Lemma digits_ok : forall d, forallb isdigit d = true -> Forall digit d.
Proof. intros d H. rewrite forallb_forall in H. apply Forall_forall. intros c Hc. apply H in Hc. unfold isdigit in Hc. unfold digit. lia. Qed.
Lemma good_b_ok : forall ln, good_b ln = true -> good_line ln.
Proof.
  intros l H. unfold good_b in H. rewrite !andb_true_iff in H. destruct H as (((A & B) & C) & D).
  split; [destruct (fst l); discriminate|]. split; [apply digits_ok; auto|]. split; [lia|apply words_ok; auto].
Qed.
Definition known_b (ln : line) : bool := existsb (fun t => tagged t ln) tags.
Lemma known_b_ok : forall ln, known_b ln = true -> known ln.
Proof. intros l H. unfold known_b in H. apply existsb_exists in H. exact H. Qed.
Lemma not_one_of : forall ts ln, existsb (fun t => tagged t ln) ts = false -> ~ one_of ts ln.
Proof. intros ts l H X. unfold one_of in X. apply existsb_exists in X. congruence. Qed.
Lemma below_b : forall x t, level x = 1 -> forallb (fun y => good_b y && (1 <=? level y)) (x :: t) = true -> below (x :: t).
Proof.
  intros x t L H. split; [eauto|]. rewrite forallb_forall in H. apply Forall_forall. intros y Hy. apply H in Hy. apply andb_true_iff in Hy.
  destruct Hy as [A B]. split; [apply good_b_ok; auto|lia].
Qed.
Lemma person_lines_b : forall x t, level x = 1 -> forallb (fun y => good_b y && (1 <=? level y)) (x :: t) = true ->
  forallb (fun y => known_b y && (negb (existsb (fun t => tagged t y) ["NAME"; "TITL"; "SEX"]%string) || (level y =? 1)) &&
    (negb (existsb (fun t => tagged t y) ["CONT"; "CONC"]%string) || (2 <=? level y))) (x :: t) = true -> person_lines (x :: t).
Proof.
  intros x t L H K. split; [apply below_b; auto|]. rewrite forallb_forall in K. apply Forall_forall. intros y Hy. apply K in Hy.
  rewrite !andb_true_iff in Hy. destruct Hy as ((A & B) & C). split; [apply known_b_ok; auto|].
  split; intros O; unfold one_of in O; apply existsb_exists in O; rewrite O in *; cbn [negb orb] in *; lia.
Qed.
Lemma family_lines_b : forall refs x t, refs <> [] -> level x = 1 -> forallb (fun y => good_b y && (1 <=? level y)) (x :: t) = true ->
  forallb (fun y => known_b y && negb (tagged "MARR" y) &&
    (negb (existsb (fun t => tagged t y) ["HUSB"; "WIFE"; "CHIL"]%string) || ((level y =? 1) && match args y with [] => false | _ => true end))) (x :: t) = true ->
  family_lines refs (x :: t).
Proof.
  intros refs x t R L H K. rewrite forallb_forall in K. split; [apply below_b; auto|]. split.
  - apply Forall_forall. intros y Hy. apply K in Hy. rewrite !andb_true_iff in Hy. destruct Hy as ((A & B) & C). split; [apply known_b_ok; auto|].
    intros O. unfold one_of in O; apply existsb_exists in O; rewrite O in C; cbn [negb orb] in C. apply andb_true_iff in C. destruct C as [C D].
    split; [lia|]. split; auto. destruct (args y); discriminate.
  - intros pre y post E T. exfalso. assert (Hy : In y (x :: t)) by (rewrite E; apply in_or_app; right; left; auto).
    apply K in Hy. rewrite T in Hy. cbn [negb] in Hy. rewrite andb_false_r in Hy. discriminate.
Qed.
Lemma good_head_0 : forall ws, forallb word_b ws = true -> good_head (txt "0") ws.
Proof. intros ws H. split; [discriminate|]. split; [repeat constructor; discriminate|]. split; [reflexivity|apply words_ok; auto]. Qed.

Definition anna : entry := mkentry (txt "0") Person (txt "@I1@") []
  [ln "1" ["NAME"; "Anna"; "/Berg/"]; ln "1" ["BIRT"]; ln "2" ["DATE"; "1"; "JAN"; "1900"]; ln "1" ["SEX"; "F"]]%string.
Definition carl : entry := mkentry (txt "0") Person (txt "@I2@") [] [ln "1" ["NAME"; "Carl"]]%string.
Definition dora : entry := mkentry (txt "0") Person (txt "@I3@") [] [ln "1" ["NAME"; "Dora"]]%string.
Definition bergs : entry := mkentry (txt "0") Family (txt "@F1@") []
  [ln "1" ["WIFE"; "@I1@"]; ln "1" ["HUSB"; "@I9@"]; ln "1" ["CHIL"; "@I3@"]; ln "1" ["CHIL"; "@I2@"]]%string.
Definition head1 : list line := [ln "1" ["CHAR"; "ASCII"]]%string.
Definition tree : document := mkdoc (txt "0") [] head1 [anna; carl; dora; bergs] (txt "0") [].
Lemma anna_ok : forall b, good_entry b anna.
Proof.
  intros b. split; [apply good_head_0; reflexivity|]. split; [apply word_b_ok; reflexivity|]. split; [reflexivity|]. apply person_lines_b; reflexivity.
Qed.
Lemma carl_ok : forall b, good_entry b carl.
Proof.
  intros b. split; [apply good_head_0; reflexivity|]. split; [apply word_b_ok; reflexivity|]. split; [reflexivity|]. apply person_lines_b; reflexivity.
Qed.
Lemma dora_ok : forall b, good_entry b dora.
Proof.
  intros b. split; [apply good_head_0; reflexivity|]. split; [apply word_b_ok; reflexivity|]. split; [reflexivity|]. apply person_lines_b; reflexivity.
Qed.
Lemma head1_ok : below head1.
Proof. apply below_b; reflexivity. Qed.
Lemma cons_eq : forall (A : Type) (x y : A) l m, x :: l = y :: m -> x = y /\ l = m.
Proof. intros A x y l m H. injection H as -> ->. auto. Qed.
Lemma tree_ok : good_doc tree.
Proof.
  split; [apply good_head_0; reflexivity|]. split; [exact head1_ok|]. split; [apply good_head_0; reflexivity|].
  intros b e a E. change (d_entries tree) with [anna; carl; dora; bergs] in E.
  destruct b as [|b1 b]; cbn [app] in E; apply cons_eq in E; destruct E as [<- E]; [apply anna_ok|].
  destruct b as [|b2 b]; cbn [app] in E; apply cons_eq in E; destruct E as [<- E]; [apply carl_ok|].
  destruct b as [|b3 b]; cbn [app] in E; apply cons_eq in E; destruct E as [<- E]; [apply dora_ok|].
  destruct b as [|b4 b]; cbn [app] in E; apply cons_eq in E; destruct E as [<- E]; [|destruct b; discriminate].
  split; [apply good_head_0; reflexivity|]. split; [apply word_b_ok; reflexivity|]. split; [reflexivity|]. apply family_lines_b; try reflexivity. discriminate.
Qed.
Example C80_example : good_doc tree /\ ged_read (lines (map text (doc_lines tree))) =
  Ok (VMap [kv "Family" (VArr TVar [VMap [kv "CHIL" (VArr TInt [VInt 2; VInt 1]); kv "HUSB" VNil; kv "WIFE" (VInt 0)]]);
            kv "Individual" (VArr TVar [VMap [kv "NAME" (vstr (txt "Anna /Berg/")); kv "SEX" (vstr (txt "F")); kv "TITL" VNil];
                                        VMap [kv "NAME" (vstr (txt "Carl")); kv "SEX" VNil; kv "TITL" VNil];
                                        VMap [kv "NAME" (vstr (txt "Dora")); kv "SEX" VNil; kv "TITL" VNil]])]).
Proof. split; [exact tree_ok|]. vm_compute. reflexivity. Qed.
(** Files that are read, that throw, and that go wrong. *)
Example C81_example :
  (exists v, ged_read (file_of ["0 HEAD"; "1 CHAR x"; "0 @F@ FAM"; "1 DIV"; "0 TRLR"]%string) = Ok v) /\
  (exists m, ged_read (file_of [" 0 HEAD"]%string) = Throw m) /\
  ged_read (file_of ["0 HEAD"; "1 CHAR x"; "0 @I@ INDI"; "1"]%string) = UB BadSize.
Proof. split; [|split]; [eexists|eexists|]; vm_compute; reflexivity. Qed.

Lemma carl_begun : begun [anna] carl.
Proof.
  split; [apply good_head_0; reflexivity|]. split; [apply word_b_ok; reflexivity|]. split; [reflexivity|]. left. split; [reflexivity|]. right.
  apply person_lines_b; reflexivity.
Qed.
Lemma anna_first : forall before x after, [anna] = before ++ x :: after -> good_entry before x.
Proof. intros [|b1 b] x a E; cbn [app] in E; apply cons_eq in E; destruct E as [<- E]; [apply anna_ok|]. destruct b; discriminate. Qed.
Lemma unknown_b : forall w, word_b w && forallb (fun t => if list_eq_dec Z.eq_dec w (txt t) then false else true) tags = true -> unknown_word w.
Proof.
  intros w H. apply andb_true_iff in H. destruct H as [A B]. split; [apply word_b_ok; auto|]. intros t Ht E. rewrite forallb_forall in B. apply B in Ht.
  destruct (list_eq_dec Z.eq_dec w (txt t)); congruence.
Qed.
(** The persons after Carl are not there, whatever follows. *)
Example C82_example : forall tail,
  ged_read (file_of ["0 HEAD"; "1 CHAR ASCII"; "0 @I1@ INDI"; "1 NAME Anna /Berg/"; "1 BIRT"; "2 DATE 1 JAN 1900"; "1 SEX F"; "0 @I2@ INDI"; "1 NAME Carl";
                     "1 RESI Bern"]%string ++ tail) = Ok (file_value [anna; carl]) /\
  ged_read (file_of ["0 HEAD"; "1 CHAR ASCII"; "0 @I1@ INDI"; "1 NAME Anna /Berg/"; "1 BIRT"; "2 DATE 1 JAN 1900"; "1 SEX F"; "0 @I2@ INDI"; "1 NAME Carl";
                     "1 SOUR @S1@"]%string ++ tail) = UB BadSize.
Proof.
  intros tail. split.
  - apply (C82_cut_short (txt "0") [] head1 [anna] carl (ln "1" ["RESI"; "Bern"]%string) tail).
    + apply good_head_0; reflexivity.
    + exact head1_ok.
    + exact anna_first.
    + exact carl_begun.
    + apply good_b_ok; reflexivity.
    + reflexivity.
    + discriminate.
    + apply unknown_b; reflexivity.
    + right. split; [discriminate|apply unknown_b; reflexivity].
  - apply (C82_undefined (txt "0") [] head1 [anna] carl (ln "1" ["SOUR"; "@S1@"]%string) tail).
    + apply good_head_0; reflexivity.
    + exact head1_ok.
    + exact anna_first.
    + exact carl_begun.
    + apply good_b_ok; reflexivity.
    + reflexivity.
    + discriminate.
    + apply unknown_b; reflexivity.
    + reflexivity.
    + reflexivity.
Qed.
Example C82_record_example : forall tail,
  ged_read (file_of ["0 HEAD"; "1 CHAR ASCII"; "0 @I1@ INDI"; "1 NAME Anna /Berg/"; "1 BIRT"; "2 DATE 1 JAN 1900"; "1 SEX F"; "0 @N1@ NOTE A note"]%string ++ tail) =
    Ok (file_value [anna]) /\
  ged_read (file_of ["0 HEAD"; "1 CHAR ASCII"; "0 @I1@ INDI"; "1 NAME Anna /Berg/"; "1 BIRT"; "2 DATE 1 JAN 1900"; "1 SEX F"; "0 @S1@ SOUR"]%string ++ tail) =
    Ok (file_value [anna]) /\
  ged_read (file_of ["0 HEAD"; "1 CHAR ASCII"; "0 @I1@ INDI"; "1 NAME Anna /Berg/"; "1 BIRT"; "2 DATE 1 JAN 1900"; "1 SEX F"; "0 NOTE @N1@"]%string ++ tail) =
    UB BadSize.
Proof.
  intros tail. split; [|split].
  - apply (C82_record (txt "0") [] head1 [anna] (ln "0" ["@N1@"; "NOTE"; "A"; "note"]%string) tail).
    + apply good_head_0; reflexivity.
    + exact head1_ok.
    + exact anna_first.
    + apply good_b_ok; reflexivity.
    + reflexivity.
    + right. right. exists (map txt ["A"; "note"]%string). split.
      * left. exists (txt "@N1@"), "NOTE"%string. split; [reflexivity|]. split; [reflexivity|]. split; [cbn [tags In]; auto 40|]. cbn [In]. intuition discriminate.
      * right. split; [discriminate|apply unknown_b; reflexivity].
  - apply (C82_record (txt "0") [] head1 [anna] (ln "0" ["@S1@"; "SOUR"]%string) tail).
    + apply good_head_0; reflexivity.
    + exact head1_ok.
    + exact anna_first.
    + apply good_b_ok; reflexivity.
    + reflexivity.
    + right. left. exists (txt "@S1@"), (txt "SOUR"), []. split; [reflexivity|]. split; [reflexivity|apply unknown_b; reflexivity].
  - apply (C82_record_undefined (txt "0") [] head1 [anna] (ln "0" ["NOTE"; "@N1@"]%string) tail).
    + apply good_head_0; reflexivity.
    + exact head1_ok.
    + exact anna_first.
    + apply good_b_ok; reflexivity.
    + reflexivity.
    + right. exists (txt "@N1@"). split; [|reflexivity]. right. exists "NOTE"%string. split; [reflexivity|]. split; [cbn [tags In]; auto 40|]. cbn [In]. intuition discriminate.
Qed.
(** A marriage without a date: the child is lost; with a date it is there. *)
Definition marriage (d : list string) : list Z :=
  file_of (["0 HEAD"; "1 CHAR ASCII"; "0 @I1@ INDI"; "1 NAME Anna /Berg/"; "1 BIRT"; "2 DATE 1 JAN 1900"; "1 SEX F"; "0 @F1@ FAM"; "1 WIFE @I1@"; "1 MARR"]%string ++ d ++
           ["1 CHIL @I1@"; "0 TRLR"]%string).
Example C83_example :
  ged_read (marriage []) = Ok (file_of_records [VMap [kv "CHIL" VNil; kv "HUSB" VNil; kv "WIFE" (VInt 0)]] (persons [anna])) /\
  ged_read (marriage ["2 DATE 1920"]%string) = Ok (file_of_records [VMap [kv "CHIL" (VInt 0); kv "HUSB" VNil; kv "WIFE" (VInt 0)]] (persons [anna])).
Proof.
  split.
  - pose proof (C83_marriage_swallows (txt "0") [] head1 [anna]
      (mkentry (txt "0") Family (txt "@F1@") [] [ln "1" ["WIFE"; "@I1@"]; ln "1" ["MARR"]; ln "1" ["CHIL"; "@I1@"]]%string)
      [ln "1" ["WIFE"; "@I1@"]]%string (ln "1" ["MARR"]%string) (ln "1" ["CHIL"; "@I1@"]%string) [] (txt "0") [] []) as T.
    rewrite app_nil_r in T. apply T; clear T; try reflexivity.
    + apply good_head_0; reflexivity.
    + exact head1_ok.
    + exact anna_first.
    + apply good_head_0; reflexivity.
    + apply word_b_ok; reflexivity.
    + right. apply family_lines_b; try reflexivity. discriminate.
    + apply good_b_ok; reflexivity.
    + constructor; [|constructor]. split; [apply good_b_ok; reflexivity|]. split; [apply known_b_ok; reflexivity|]. vm_compute. discriminate.
    + apply good_head_0; reflexivity.
  - vm_compute. reflexivity.
Qed.
Example C84_example : forall tail, exists msg,
  ged_read (file_of ["0 HEAD"; "1 CHAR ASCII"; "0 @F1@ FAM"; "1 WIFE @I1@"]%string ++ tail) = Throw msg.
Proof.
  intros tail.
  apply (C84_family_first (txt "0") [] head1 [] (mkentry (txt "0") Family (txt "@F1@") [] [ln "1" ["WIFE"; "@I1@"]]%string) [] (ln "1" ["WIFE"; "@I1@"]%string) tail);
    try reflexivity; auto.
  - apply good_head_0; reflexivity.
  - exact head1_ok.
  - intros [|] x a E; discriminate.
  - apply good_head_0; reflexivity.
  - apply word_b_ok; reflexivity.
  - apply good_b_ok; reflexivity.
  - exists "WIFE"%string. split; [cbn [In]; auto|reflexivity].
  - discriminate.
Qed.
(** ... and an empty file that does open is another matter: C81_empty. *)
Example C85_example : loadFile_failed 1000 = Fuel /\ ged_read (file_of ["0 TRLR"]%string) = Ok VNil.
Proof. split; vm_compute; reflexivity. Qed.
