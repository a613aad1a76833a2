(** Properties of command line options (config.cpp). *)
From Coq Require Import ZArith Bool List ListDec Lia ZifyBool String Floats.SpecFloat.
From Verif Require Import Base ValModel ValSpec ValProof ValProps StrModel StrSpec StrProof JsonModel IniModel MapProof IniProof OptModel OptSpec OptProof.
Import ListNotations.
Local Notation length := List.length.
Local Open Scope list_scope.
Local Open Scope Z_scope.

Definition strings (l : list str) : val := match l with [] => VNil | _ => VArr TVar (map vstr l) end.
Ltac use L := match type of L with ?x = _ => match goal with |- context [parse_loop ?a ?b] => change (parse_loop a b) with x end end; rewrite L.
Lemma NoDup_dec_z : forall l : list Z, NoDup l \/ ~ NoDup l.
Proof. intros l. destruct (ListDec.NoDup_dec Z.eq_dec l); auto. Qed.
Lemma holds_nil : holds [] (fun _ => None).
Proof. split; [|split; [reflexivity|intros p []]]. apply sorted_map_ok. split; constructor. Qed.
(** Options as declared. *)
Lemma declared : forall fmtf name ds, proper ds -> ds <> [] -> exists o l, declares fmtf (option_new name) ds = Ok o /\ o_name o = name /\ o_string o = string_of ds /\
  (Forall (fun d => nul_free (snd (fst d))) ds -> o_usage o = map (help_line fmtf) ds) /\ o_opts o = VMap l /\ holds l (decl_value ds).
Proof.
  intros fmtf name ds P Hd. destruct (declares_ok fmtf ds (option_new name) (fun _ => None) (proj1 P) (or_introl eq_refl) holds_nil) as (o & E & A & B & C & D & F).
  destruct (D Hd) as (l & Hl). rewrite Hl in F. exists o, l. split; auto. split; auto. split; auto. split; auto. split; auto.
  destruct F as (F1 & F2 & F3). split; auto. split; auto. intros c. rewrite F2. destruct (decl_value ds c); auto.
Qed.

(** C90: options used as they were declared give the map of their values and the plain words. *)
Theorem C90_parse : forall fmtf name argv0 ds items tail rest, proper ds -> ds <> [] -> Forall (ok_item ds) items -> ending tail rest -> NoDup (flags_in (uses items)) ->
  exists o m, declares fmtf (option_new name) ds = Ok o /\ parse o argv0 (line items ++ tail) = Ok (Done (VMap m) (strings (plains items ++ rest))) /\
    sorted_map m /\ (forall k, In k (map fst m) <-> exists c, In c (map decl_char ds) /\ k = VChar c) /\
    forall c t v, In (c, t, v) ds -> at_var (RVar (VMap m)) (VChar c) = Ok (value (uses items) c v).
Proof.
  intros fmtf name argv0 ds items tail rest P Hd F T N. destruct (declared fmtf name ds P Hd) as (o & l & E & _ & Es & _ & Eo & H).
  destruct (loop_ok (uses items) l (decl_value ds) [] H (uses_ok ds items P F) N) as (m & L & M1 & M2 & M3). rewrite app_nil_r in L.
  exists o, m. split; auto. split.
  - unfold parse. rewrite Es, Eo, (getopt_items ds P items tail F), (getopt_ending ds tail rest T). cbn [fst snd]. rewrite app_nil_r, L. cbn [parse_loop obind].
    unfold strings. destruct (plains items ++ rest); reflexivity.
  - split; [apply sorted_map_ok; auto|]. split.
    + intros k. split.
      * intros Hk. apply in_map_iff in Hk. destruct Hk as (p & <- & Hp). destruct (M3 p Hp) as (c & Hc). exists c. split; auto.
        specialize (M2 c). destruct (lookup m (VChar c)) eqn:Lc.
        -- destruct (decl_value ds c) eqn:Dc; [|discriminate]. eapply decl_value_some; eauto.
        -- exfalso. apply (lookup_none_inv _ _ Lc p Hp). rewrite Hc. auto.
      * intros (c & Hc & ->). apply in_map_iff in Hc. destruct Hc as ([[x t] v] & <- & Hin). cbn [decl_char fst].
        specialize (M2 x). rewrite (decl_value_in ds x t v (proj1 P) Hin) in M2. cbn [option_map] in M2. apply lookup_some_in in M2. destruct M2 as (kk & Hp & Hk).
        destruct (M3 _ Hp) as (y & Hy). cbn [fst] in Hy. apply in_map_iff. eexists. split; [|exact Hp]. cbn [fst]. subst kk. unfold code in Hk. cbn in Hk. injection Hk as Hk. f_equal. lia.
    + intros c t v Hin. rewrite at_var_lookup by (auto using key_char). rewrite M2, (decl_value_in ds c t v (proj1 P) Hin). reflexivity.
Qed.

(** Three options: a flag, a text and a number. *)
Example ex_ds : list decl := [(118, txt "verbose", VNil); (111, txt "output", vstr (txt "out")); (110, txt "count", VInt 3)].
Example ex_ds_proper : proper ex_ds.
Proof.
  split; [cbn; repeat (constructor; [cbn; intuition lia|]); constructor|].
  repeat (constructor; [split; [cbn; lia|cbn; intuition lia]|]). constructor.
Qed.
(** -vofile a -n 5 -o last -- -v *)
Example ex_items : list item := [Group [118] (Some (111, true, txt "file")); Plain (txt "a"); Group [] (Some (110, false, txt "5")); Group [] (Some (111, false, txt "last"))].
Example ex_items_ok : Forall (ok_item ex_ds) ex_items.
Proof.
  assert (is_flag ex_ds 118) by (exists (txt "verbose"); left; reflexivity).
  assert (takes ex_ds 111) by (exists (txt "output"), (vstr (txt "out")); split; [right; left; reflexivity|discriminate]).
  assert (takes ex_ds 110) by (exists (txt "count"), (VInt 3); split; [right; right; left; reflexivity|discriminate]).
  constructor; [split; [constructor; auto|split; [auto|discriminate]]|]. constructor; [right; discriminate|].
  constructor; [split; [constructor|split; [auto|discriminate]]|]. constructor; [|constructor]. split; [constructor|split; [auto|discriminate]].
Qed.
Example C90_example : forall fmtf, exists o m, declares fmtf (option_new (txt "Prog")) ex_ds = Ok o /\
  parse o (txt "prog") (line ex_items ++ [txt "--"; txt "-v"]) = Ok (Done (VMap m) (VArr TVar [vstr (txt "a"); vstr (txt "-v")])) /\
  at_var (RVar (VMap m)) (VChar 118) = Ok (VInt 1) /\ at_var (RVar (VMap m)) (VChar 111) = Ok (vstr (txt "last")) /\ at_var (RVar (VMap m)) (VChar 110) = Ok (vstr (txt "5")).
Proof.
  intros fmtf. destruct (C90_parse fmtf (txt "Prog") (txt "prog") ex_ds ex_items [txt "--"; txt "-v"] [txt "-v"] ex_ds_proper) as (o & m & E & Pa & _ & _ & V); try discriminate;
    [exact ex_items_ok|right; reflexivity|repeat constructor; cbn; intuition lia|].
  exists o, m. split; auto. split; [exact Pa|]. split; [apply (V 118 (txt "verbose") VNil); left; reflexivity|].
  split; [apply (V 111 (txt "output") (vstr (txt "out"))); right; left; reflexivity|apply (V 110 (txt "count") (VInt 3)); right; right; left; reflexivity].
Qed.

(** C91: a flag given twice is not taken for a flag but for an option without its argument: parse
    throws, whatever follows. *)
Theorem C91_repeated_flag : forall fmtf name argv0 ds items more, proper ds -> ds <> [] -> Forall (ok_item ds) items -> ~ NoDup (flags_in (uses items)) ->
  exists o, declares fmtf (option_new name) ds = Ok o /\ parse o argv0 (line items ++ more) = Throw "at argument ... optarg is null".
Proof.
  intros fmtf name argv0 ds items more P Hd F N. destruct (declared fmtf name ds P Hd) as (o & l & E & _ & Es & _ & Eo & H).
  exists o. split; auto. unfold parse. rewrite Es, Eo, (getopt_items ds P items more F).
  rewrite (loop_repeat (uses items) l (decl_value ds) _ H (uses_ok ds items P F) N). reflexivity.
Qed.
Example C91_example : forall fmtf, exists o, declares fmtf (option_new (txt "Prog")) ex_ds = Ok o /\
  parse o (txt "prog") [txt "-v"; txt "a"; txt "-v"] = Throw "at argument ... optarg is null".
Proof.
  intros fmtf. apply (C91_repeated_flag fmtf (txt "Prog") (txt "prog") ex_ds [Group [118] None; Plain (txt "a"); Group [118] None] [] ex_ds_proper); [discriminate| |].
  - assert (is_flag ex_ds 118) by (exists (txt "verbose"); left; reflexivity). constructor; [split; [discriminate|constructor; auto]|]. constructor; [right; discriminate|]. constructor; [split; [discriminate|constructor; auto]|constructor].
  - intros N. inversion N as [|? ? X _]. apply X. left. reflexivity.
Qed.

Lemma help_usage : forall fmtf o argv0 ds, ds <> [] -> o_string o = string_of ds -> o_usage o = map (help_line fmtf) ds -> Forall (fun d => nul_free (help_line fmtf d)) ds ->
  usage_text o argv0 = help fmtf (o_name o) argv0 ds.
Proof.
  intros fmtf o argv0 ds Hd Hs Hu F. unfold usage_text, help. rewrite Hs, Hu. cbn [app]. do 4 f_equal.
  assert (X : map (fun l => c_str l ++ [10]) (map (help_line fmtf) ds) = map (fun d => help_line fmtf d ++ [10]) ds).
  { rewrite map_map. apply map_ext_in. intros d Hin. rewrite Forall_forall in F. rewrite c_str_id; auto. }
  rewrite X. clear X.
  assert (S : forall A (a b : A), match string_of ds with [] => a | _ :: _ => b end = match ds with [] => a | _ :: _ => b end).
  { intros A a b. destruct ds as [|[[c t] v] ds']; [reflexivity|]. unfold string_of. cbn [map List.concat]. rewrite spelled_eq. reflexivity. }
  change (List.concat (map spelled ds)) with (string_of ds). rewrite <- S. destruct (string_of ds); reflexivity.
Qed.
Lemma help_line_free : forall fmtf d, nul_free (help_line fmtf d) -> nul_free (snd (fst d)).
Proof. intros fmtf [[c t] v] H X. cbn [snd fst] in X. apply H. destruct v; cbn [help_line]; apply in_app_iff; right; right; apply in_app_iff; right; auto; apply in_app_iff; auto. Qed.

(** C92: an undeclared option, or an option at the end without its argument, prints the help and
    ends the program with status 0, whatever follows it. *)
Theorem C92_mistake : forall fmtf name argv0 ds items fs bad, proper ds -> ds <> [] -> Forall (fun d => nul_free (help_line fmtf d)) ds ->
  Forall (ok_item ds) items -> mistake ds fs bad ->
  exists o, declares fmtf (option_new name) ds = Ok o /\
    (NoDup (flags_in (uses items) ++ fs) -> parse o argv0 (line items ++ bad) = Ok (Exits (help fmtf name argv0 ds))) /\
    (~ NoDup (flags_in (uses items) ++ fs) -> parse o argv0 (line items ++ bad) = Throw "at argument ... optarg is null").
Proof.
  intros fmtf name argv0 ds items fs bad P Hd HL F M. destruct (declared fmtf name ds P Hd) as (o & l & E & En & Es & Eu & Eo & H).
  exists o. split; auto. unfold parse. rewrite Es, Eo, (getopt_items ds P items bad F).
  destruct (getopt_mistake ds P fs bad M) as (e & Me). rewrite Me, app_assoc.
  assert (Hfs : Forall (is_flag ds) fs) by (destruct M; auto).
  assert (U : Forall (okuse (decl_value ds)) (uses items ++ flagged fs)).
  { apply Forall_app. split; [apply uses_ok; auto|]. destruct fs as [|f fs]; [constructor|].
    pose proof (uses_ok ds [Group (f :: fs) None] P) as X. unfold uses in X. cbn [map List.concat uses_of] in X. rewrite app_nil_r in X. apply X. constructor; [split; [discriminate|auto]|constructor]. }
  assert (FA : forall a b, flags_in (a ++ flagged b) = flags_in a ++ b).
  { induction a as [|[x y] a IHa]; intros b; [|cbn [app flags_in]; destruct y; rewrite IHa; auto]. cbn [app flags_in]. induction b; cbn; auto. f_equal. auto. }
  split; intros N; rewrite <- FA in N.
  - destruct (loop_ok _ l _ ((63, None) :: e) H U N) as (l' & L & _). use L. cbn [parse_loop]. rewrite veq_char. cbn [obind Z.eqb Pos.eqb].
    rewrite (help_usage fmtf o argv0 ds); [rewrite En; reflexivity|auto|auto| |auto]. apply Eu. eapply Forall_impl; [apply help_line_free|exact HL].
  - pose proof (loop_repeat _ l _ ((63, None) :: e) H U N) as L. use L. reflexivity.
Qed.
Example C92_example : forall fmtf, exists o, declares fmtf (option_new (txt "Prog")) ex_ds = Ok o /\
  parse o (txt "prog") [txt "-vx"; txt "-v"] = Ok (Exits (txt "Prog" ++ 10 :: txt "Usage: prog -[vo:n:] [args] (see 'man 3 getopt')" ++ 10 ::
    txt " -v verbose" ++ 10 :: txt " -o output [" ++ 34 :: txt "out" ++ 34 :: txt "]" ++ 10 :: txt " -n count [3]" ++ [10])).
Proof.
  intros fmtf. destruct (C92_mistake fmtf (txt "Prog") (txt "prog") ex_ds [] [118] [txt "-vx"; txt "-v"] ex_ds_proper) as (o & E & A & _); [discriminate| | | |].
  - repeat (constructor; [intros X; vm_compute in X; repeat (destruct X as [X|X]; [discriminate|]); destruct X|]). constructor.
  - constructor.
  - apply (undeclared ex_ds [118] 120 [] [txt "-v"]); [repeat constructor; exists (txt "verbose"); left; reflexivity|cbn; intuition lia|discriminate].
  - exists o. split; auto. apply A. repeat constructor. intros [].
Qed.
(** Every command line is of one of these kinds, so parse never does anything else. *)
Theorem C92_lines : forall ds words, exists items, Forall (ok_item ds) items /\
  ((exists tail rest, ending tail rest /\ words = line items ++ tail) \/ (exists fs bad, mistake ds fs bad /\ words = line items ++ bad)).
Proof. intros ds words. apply (line_cases ds (length words)). lia. Qed.
Theorem C92_total : forall fmtf name argv0 ds words, proper ds -> ds <> [] -> exists o, declares fmtf (option_new name) ds = Ok o /\
  ((exists m args, parse o argv0 words = Ok (Done (VMap m) args)) \/ (exists text, parse o argv0 words = Ok (Exits text)) \/ parse o argv0 words = Throw "at argument ... optarg is null").
Proof.
  intros fmtf name argv0 ds words P Hd. destruct (C92_lines ds words) as (items & F & [(tail & rest & T & ->)|(fs & bad & M & ->)]).
  - destruct (first_repeat (uses items)) as [N|(pre & c & post & Eu & N & I)].
    + destruct (C90_parse fmtf name argv0 ds items tail rest P Hd F T N) as (o & m & E & Pa & _). exists o. split; auto. left. eauto.
    + assert (~ NoDup (flags_in (uses items))).
      { rewrite Eu. intros X. assert (FA : forall a b, flags_in (a ++ b) = flags_in a ++ flags_in b) by (induction a as [|[x y] a IHa]; intros b; auto; cbn [app flags_in]; destruct y; rewrite IHa; auto).
        rewrite FA in X. cbn [flags_in] in X. apply NoDup_remove_2 in X. apply X. apply in_app_iff. auto. }
      destruct (C91_repeated_flag fmtf name argv0 ds items tail P Hd F H) as (o & E & Pa). exists o. auto.
  - destruct (declared fmtf name ds P Hd) as (o & l & E & _ & Es & _ & Eo & H). exists o. split; auto. unfold parse. rewrite Es, Eo, (getopt_items ds P items bad F).
    destruct (getopt_mistake ds P fs bad M) as (e & Me). rewrite Me, app_assoc.
    assert (Hfs : Forall (is_flag ds) fs) by (destruct M; auto).
    assert (U : Forall (okuse (decl_value ds)) (uses items ++ flagged fs)).
    { apply Forall_app. split; [apply uses_ok; auto|]. destruct fs as [|f fs]; [constructor|].
      pose proof (uses_ok ds [Group (f :: fs) None] P) as X. unfold uses in X. cbn [map List.concat uses_of] in X. rewrite app_nil_r in X. apply X. constructor; [split; [discriminate|auto]|constructor]. }
    destruct (NoDup_dec_z (flags_in (uses items ++ flagged fs))) as [N|N].
    + destruct (loop_ok _ l _ ((63, None) :: e) H U N) as (l' & L & _). use L. cbn [parse_loop]. rewrite veq_char. cbn [obind Z.eqb Pos.eqb]. right. left. eauto.
    + right. right. pose proof (loop_repeat _ l _ ((63, None) :: e) H U N) as L. use L. reflexivity.
Qed.
Example C92_total_example : forall fmtf, exists o m, declares fmtf (option_new (txt "Prog")) ex_ds = Ok o /\ parse o (txt "prog") [] = Ok (Done (VMap m) VNil).
Proof.
  intros fmtf. destruct (C90_parse fmtf (txt "Prog") (txt "prog") ex_ds [] [] [] ex_ds_proper) as (o & m & E & Pa & _); try discriminate; try constructor; auto. exists o, m. auto.
Qed.
