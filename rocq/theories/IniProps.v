(** Properties C44, C45, C61: ini files and configurations. *)
From Coq Require Import ZArith Bool List Lia ZifyBool Sorting String.
From Coq.Floats Require Import SpecFloat.
From Verif Require Import Base StrModel StrSpec StrProof StrProps LineProof ValModel ValSpec ValProof MapProof ValProps
  NumModel JsonModel JsonSpec JsonProof JsonRound IniModel IniSpec IniProof.
Import ListNotations.
Local Notation length := List.length.
Local Open Scope list_scope.
Local Open Scope Z_scope.

Lemma good_sub : forall a t b, good (a ++ t ++ b) -> good t.
Proof. intros a t b [H1 H2]. split; [intros c Hc; apply H1|intros X; apply H2]; rewrite !in_app_iff; auto. Qed.
Lemma trimmed_good : forall K k, trimmed K k -> good K -> good k.
Proof. intros K k (a & b & -> & _) H. eapply good_sub; eauto. Qed.
Lemma line_means_good : forall raw it, line_means raw it -> good raw ->
  match it with Skip => True | Sec n => good n | Bind k _ => good k end.
Proof.
  intros raw it H Hg. destruct H; auto.
  - change (a ++ 91 :: name ++ 93 :: r) with (a ++ [91] ++ name ++ [93] ++ r) in Hg. rewrite app_assoc in Hg. eapply good_sub; eauto.
  - eapply trimmed_good; eauto. apply (good_sub [] K (61 :: V)). auto.
  - eapply trimmed_good; eauto. apply (good_sub [] K (58 :: V)). auto.
  - eapply trimmed_good; eauto. apply (good_sub [] K (61 :: V ++ 61 :: R)). auto.
  - eapply trimmed_good; eauto. apply (good_sub [] K (58 :: V ++ 58 :: R)). auto.
Qed.
Lemma clean_good : forall s, clean s -> good s.
Proof. intros s (A & B & _). split; auto. Qed.
Lemma good_app : forall a b, good a -> good b -> good (a ++ b).
Proof.
  intros a b [A1 A2] [B1 B2]. split; [intros c Hc; apply in_app_iff in Hc; destruct Hc; auto|].
  intros X. apply in_app_iff in X. destruct X; auto.
Qed.
Lemma good_nil : good [].
Proof. split; [intros c []|intros []]. Qed.

(** One line through the abstract state. *)
Lemma line_step : forall raw it bs m sec, good raw -> line_means raw it -> holds bs m -> good sec ->
  exists m', ini_line (m, sec) raw = Ok (m', match it with Sec n => n | _ => sec end) /\
    holds (bs ++ match it with Bind k v => [(sec, k, v)] | _ => [] end) m'.
Proof.
  intros raw it bs m sec Hg Hl Hm Hs. rewrite (ini_line_ok raw it) by (auto; apply Hg).
  pose proof (line_means_good raw it Hl Hg) as Hi. destruct it; cbn [line_effect fst snd].
  - exists m. rewrite app_nil_r. auto.
  - exists m. rewrite app_nil_r. auto.
  - destruct (holds_bind bs m sec k v Hm Hs Hi) as (m' & -> & Hm'). exists m'. auto.
Qed.
(** The loop is a fold over the lines. *)
Fixpoint ini_fold (ls : list (list Z)) (st : val * list Z) : outcome (val * list Z) :=
  match ls with
  | [] => Ok st
  | f :: t => let* st := ini_line st f in ini_fold t st
  end.
Lemma ini_fold_app : forall a b st, ini_fold (a ++ b) st = let* st := ini_fold a st in ini_fold b st.
Proof. induction a; intros b st; auto. cbn [app ini_fold]. destruct (ini_line st a); cbn [obind]; auto. Qed.
Definition last_line (last : list Z) : list (list Z) := match last with [] => [] | _ => [last ++ [-1]] end.
Lemma lines_cons : forall x l r, lines (x :: l) ++ r = x ++ 10 :: (lines l ++ r).
Proof. intros. unfold lines. simpl. rewrite <- !app_assoc. reflexivity. Qed.
Lemma ini_loop_fold : forall ls last n f st, Forall (fun x => ~ In 10 x) ls -> ~ In 10 last -> (length ls + 1 < n)%nat ->
  ini_loop n (mkis (lines ls ++ last)) f st = ini_fold (ls ++ last_line last) st.
Proof.
  induction ls as [|x ls]; intros last n f st Hls Hl Hn; (destruct n; [lia|]).
  - cbn [app lines map List.concat ini_loop]. change (lines [] ++ last) with last. destruct last as [|c last].
    + reflexivity.
    + rewrite getline_last by (auto; try discriminate; simpl; lia). cbn [obind last_line ini_fold].
      destruct (ini_line st ((c :: last) ++ [-1])); cbn [obind]; auto. destruct n; [simpl in Hn; lia|]. reflexivity.
  - inversion Hls; subst. rewrite lines_cons. cbn [ini_loop app ini_fold].
    rewrite getline_line by (auto; simpl; rewrite app_length; simpl; lia). cbn [obind].
    destruct (ini_line st x); cbn [obind]; auto. apply IHls; auto. simpl in Hn. lia.
Qed.
Lemma ini_read_fold : forall ls last, Forall (fun x => ~ In 10 x) ls -> ~ In 10 last ->
  ini_read (lines ls ++ last) = let* (m, _) := ini_fold (ls ++ last_line last) (VNil, []) in Ok m.
Proof.
  intros ls last Hls Hl. unfold ini_read. rewrite ini_loop_fold; auto. rewrite app_length. pose proof (lines_length ls). lia.
Qed.
Lemma fold_means : forall sec ls bs, means sec ls bs -> Forall good ls -> good sec ->
  forall bs0 m, holds bs0 m ->
  exists m' sec', ini_fold ls (m, sec) = Ok (m', sec') /\ good sec' /\ holds (bs0 ++ bs) m' /\ Forall good_b bs.
Proof.
  intros sec ls bs H. induction H; intros Hc Hs bs0 m Hm; cbn [ini_fold].
  - exists m, sec. rewrite app_nil_r. auto.
  - inversion Hc; subst. destruct (line_step raw Skip bs0 m sec H3 H Hm Hs) as (m1 & -> & H1). rewrite app_nil_r in H1. cbn [obind].
    apply IHmeans; auto.
  - inversion Hc; subst. destruct (line_step raw (Sec name) bs0 m sec H3 H Hm Hs) as (m1 & -> & H1). rewrite app_nil_r in H1. cbn [obind].
    apply IHmeans; auto. apply (line_means_good _ _ H H3).
  - inversion Hc; subst. destruct (line_step raw (Bind k v) bs0 m sec H3 H Hm Hs) as (m1 & -> & H1). cbn [obind].
    destruct (IHmeans H4 Hs _ m1 H1) as (m' & sec' & E & G & Hh & F). exists m', sec'. rewrite <- app_assoc in Hh.
    split; [auto|]. split; [auto|]. split; [auto|]. constructor; auto. split; auto. apply (line_means_good _ _ H H3).
Qed.
Lemma clean_lines : forall ls, Forall clean ls -> Forall (fun x => ~ In 10 x) ls /\ Forall good ls.
Proof.
  intros ls H. split; eapply Forall_impl; try exact H; cbv beta; intros x Hx; [apply Hx|apply clean_good; auto].
Qed.

(** Literal membership goals. *)
Ltac lits := vm_compute; repeat split; intros;
  repeat match goal with H : In _ _ |- _ => vm_compute in H end; intuition (subst; try discriminate; try lia; auto).

(** * C44 *)
(** The content is lines plus a possibly unterminated last one; the latter counts with the
    byte 0xFF at its end. *)
Theorem C44_read : forall ls last bs, Forall clean ls -> clean last ->
  means [] (ls ++ match last with [] => [] | _ => [last ++ [-1]] end) bs ->
  exists r, ini_read (lines ls ++ last) = Ok r /\ denotes bs r.
Proof.
  intros ls last bs Hls Hl Hm. destruct (clean_lines ls Hls) as [H10 Hg].
  rewrite ini_read_fold by (auto; apply Hl).
  destruct (fold_means [] _ bs Hm) with (bs0 := @nil binding) (m := VNil) as (m' & sec' & E & _ & Hh & F).
  - apply Forall_app. split; auto. destruct last; constructor; auto. apply good_app; [apply clean_good; auto|].
    split; [intros c [<-|[]]; lia|intros [X|[]]; discriminate].
  - apply good_nil.
  - apply holds_nil.
  - exists m'. change (last_line last) with (match last with [] => [] | _ => [last ++ [-1]] end). rewrite E. cbn [obind].
    split; auto. apply holds_denotes; auto.
Qed.
(** The usual case. *)
Corollary C44_terminated_file : forall ls bs, Forall clean ls -> means [] ls bs ->
  exists r, ini_read (lines ls) = Ok r /\ denotes bs r.
Proof.
  intros ls bs H Hm. rewrite <- (app_nil_r (lines ls)). apply C44_read; auto.
  - split; [intros c []|split; intros []].
  - rewrite app_nil_r. auto.
Qed.
(** Looking an entry up in the result. *)
Lemma read_holds : forall ls bs, Forall clean ls -> means [] ls bs ->
  exists r, ini_read (lines ls) = Ok r /\ holds bs r /\ Forall good_b bs.
Proof.
  intros ls bs Hls Hm. destruct (clean_lines ls Hls) as [H10 Hg].
  pose proof (ini_read_fold ls [] H10 (fun x => match x with end)) as E. rewrite !app_nil_r in E. rewrite E.
  destruct (fold_means [] ls bs Hm Hg good_nil [] VNil holds_nil) as (m' & sec' & -> & _ & Hh & F). cbn [obind]. eauto.
Qed.
Theorem C44_lookup : forall ls bs s k v, Forall clean ls -> means [] ls bs -> last_binding bs s k v ->
  exists r sec, ini_read (lines ls) = Ok r /\ at_var (RVar r) (vstr s) = Ok sec /\ at_var (RVar sec) (vstr k) = Ok (vstr v).
Proof.
  intros ls bs s k v Hls Hm Hb. destruct (read_holds ls bs Hls Hm) as (r & E & Hh & F).
  assert (G : good s /\ good k).
  { apply last_binding_in in Hb. rewrite Forall_forall in F. apply (F _ Hb). }
  destruct G as [[Gs1 Gs2] [Gk1 Gk2]]. pose proof (holds_wf2 _ _ Hh) as Hw. destruct Hh as (H0 & Hok & Hin & HL & _).
  assert (L : look2 r (vstr s) (vstr k) = Some (vstr v)) by (apply HL; auto; split; auto).
  unfold look2 in L. destruct (lookup (outer r) (vstr s)) as [x|] eqn:El; [|discriminate].
  destruct H0 as [[-> ->]|(_ & l & ->)]; [discriminate|]. cbn [outer] in *.
  pose proof (lookup_inner_ok (VMap l) (vstr s) x Hw El) as [->|(i & -> & Hi)]; [discriminate|].
  exists (VMap l), (VMap i). split; [auto|].
  rewrite at_var_lookup, El by (auto; apply vstr_key; auto). split; [auto|].
  rewrite at_var_lookup by (auto; apply vstr_key; auto). cbn [outer] in L. rewrite L. auto.
Qed.
(** A file with a line that is neither: rejected. *)
Theorem C44_reject : forall ls bs bad rest, Forall clean ls -> clean bad -> Forall clean rest -> means [] ls bs ->
  bad_section bad \/ bad_entry bad -> exists msg, ini_read (lines (ls ++ bad :: rest)) = Throw msg.
Proof.
  intros ls bs bad rest Hls Hb Hr Hm Hbad.
  assert (Hall : Forall clean (ls ++ bad :: rest)) by (apply Forall_app; split; auto).
  destruct (clean_lines _ Hall) as [H10 _]. destruct (clean_lines ls Hls) as [_ Hg].
  pose proof (ini_read_fold _ [] H10 (fun x => match x with end)) as E. rewrite !app_nil_r in E. rewrite E.
  rewrite ini_fold_app.
  destruct (fold_means [] ls bs Hm Hg good_nil [] VNil holds_nil) as (m' & sec' & -> & _ & Hh & F). cbn [obind ini_fold].
  destruct (ini_line_bad bad (m', sec')) as (msg & ->); [apply (clean_good _ Hb)|auto|]. exists msg. reflexivity.
Qed.
(** A blank line that is not empty is the blank strip of C36: undefined. *)
Theorem C44_blank_line : forall ls bs c w rest, Forall clean ls -> clean (c :: w) -> Forall clean rest -> means [] ls bs ->
  all_white (c :: w) -> exists u, ini_read (lines (ls ++ (c :: w) :: rest)) = UB u.
Proof.
  intros ls bs c w rest Hls Hb Hr Hm Hbad.
  assert (Hall : Forall clean (ls ++ (c :: w) :: rest)) by (apply Forall_app; split; auto).
  destruct (clean_lines _ Hall) as [H10 _]. destruct (clean_lines ls Hls) as [_ Hg].
  pose proof (ini_read_fold _ [] H10 (fun x => match x with end)) as E. rewrite !app_nil_r in E. rewrite E.
  rewrite ini_fold_app.
  destruct (fold_means [] ls bs Hm Hg good_nil [] VNil holds_nil) as (m' & sec' & -> & _ & Hh & F). cbn [obind ini_fold].
  unfold ini_line. rewrite strip_blank by (auto; discriminate). exists BadSize. reflexivity.
Qed.
Example C44_example_lines :
  let ls := [txt "; pets"%string; txt " [dogs]"%string; txt " name = Rex "%string; txt "legs:4"%string; []; txt "name=Rover"%string] in
  Forall clean ls /\
  means [] ls [(txt "dogs", txt "name", txt "Rex"); (txt "dogs", txt "legs", txt "4"); (txt "dogs", txt "name", txt "Rover")]%string /\
  ini_read (lines ls) = Ok (VMap [(vstr (txt "dogs"), VMap [(vstr (txt "legs"), vstr (txt "4")); (vstr (txt "name"), vstr (txt "Rover"))])])%string.
Proof.
  intros ls. split; [|split].
  - unfold ls. repeat (apply Forall_cons || apply Forall_nil); (split; [|split]); unfold chars, nul_free; intros; lits.
  - unfold ls. apply m_skip.
    { apply lm_comment. exists [], 59, (txt " pets"%string). unfold all_white, white. repeat split; auto; lits. }
    apply (m_sec _ _ (txt "dogs"%string)).
    { apply (lm_section [32] (txt "dogs"%string) []); unfold all_white, white; lits. }
    apply m_bind.
    { apply (lm_equals (txt " name ") (txt " Rex "))%string; try lits.
      - exists [32], 110, (txt "ame = Rex "%string). unfold all_white, white. repeat split; auto; lits.
      - exists [32], [32]. unfold all_white, white. repeat split; auto; try lits; right; lits.
      - exists [32], [32]. unfold all_white, white. repeat split; auto; try lits; right; lits. }
    apply m_bind.
    { apply (lm_colon (txt "legs") (txt "4"))%string; try lits.
      - exists [], 108, (txt "egs:4"%string). unfold all_white, white. repeat split; auto; lits.
      - exists [], []. unfold all_white, white. repeat split; auto; try lits; right; lits.
      - exists [], []. unfold all_white, white. repeat split; auto; try lits; right; lits. }
    apply m_skip; [constructor|]. apply m_bind; [|constructor].
    apply (lm_equals (txt "name") (txt "Rover"))%string; try lits.
    + exists [], 110, (txt "ame=Rover"%string). unfold all_white, white. repeat split; auto; lits.
    + exists [], []. unfold all_white, white. repeat split; auto; try lits; right; lits.
    + exists [], []. unfold all_white, white. repeat split; auto; try lits; right; lits.
  - vm_compute. reflexivity.
Qed.
Example C44_example_bad : bad_entry (txt "just words"%string) /\
  ini_read (lines [txt "a=1"; txt "just words"]%string) = Throw "inifile::read(): couldn't split" /\
  ini_read (lines [txt "a=1"; txt "  "]%string) = UB BadSize /\
  ini_read (txt "a=1"%string) = Ok (VMap [(vstr [], VMap [(vstr (txt "a"), vstr (txt "1" ++ [-1]))])]%string).
Proof.
  split; [|repeat split; vm_compute; reflexivity]. split; [|split; lits].
  exists [], 106, (txt "ust words"%string). unfold all_white, white. repeat split; auto; lits.
Qed.

(** * C45 *)
Definition config_op (st : val * val) (op : cop) : outcome (val * val) :=
  let (c, sec) := st in
  match op with
  | OFile content => let* c := configFile c content in Ok (c, sec)
  | OSection o => configSection c (sec_val o)
  | OSet k v => let* c := configSet c sec (vstr k) v in Ok (c, sec)
  | OGet k => let* (c, _) := config_get c sec (vstr k) in Ok (c, sec)
  end.
Fixpoint config_run (ops : list cop) (st : val * val) : outcome (val * val) :=
  match ops with
  | [] => Ok st
  | op :: t => let* st := config_op st op in config_run t st
  end.
Lemma section_keeps : forall cs m o, chas cs m -> (forall s, o = Some s -> clean s) ->
  exists m' x, subscript m (sec_val o) = Ok (m', x) /\ chas cs m'.
Proof.
  intros cs m o Hc Ho. pose proof Hc as (Hw & _). destruct o as [s|].
  - specialize (Ho s eq_refl). destruct Ho as (Hs1 & Hs2 & _).
    destruct (subscript_ok m (vstr s) Hw (vstr_key s Hs1 Hs2)) as (m' & E & A & B & C). exists m'. eexists. split; [exact E|].
    eapply chas_same; eauto.
  - destruct (subscript_nil m Hw) as (m' & E & A & B & C). exists m'. eexists. split; [exact E|].
    eapply chas_same; eauto.
Qed.
Lemma get_keeps : forall cs m o k, chas cs m -> (forall s, o = Some s -> clean s) -> clean k ->
  exists m' x, config_get m (sec_val o) (vstr k) = Ok (m', x) /\ chas cs m' /\
    forall s, o = Some s ->
      (forall v, last_binding cs s k v -> x = v) /\ ((forall v, ~ In (s, k, v) cs) -> x = VNil).
Proof.
  intros cs m o k Hc Ho (Hk1 & Hk2 & _). pose proof Hc as (Hw & _ & HL & HN). destruct o as [s|].
  - specialize (Ho s eq_refl). destruct Ho as (Hs1 & Hs2 & _).
    destruct (find_entry m (vstr s) (vstr k) Hw (vstr_key s Hs1 Hs2) (vstr_key k Hk1 Hk2)) as (m' & E & A & B & C & D).
    exists m', (or_nil (look2 m (vstr s) (vstr k))). split; [|split; [eapply chas_same; eauto|]].
    + unfold config_get. cbn [sec_val]. rewrite E. cbn [obind]. destruct (look2 m (vstr s) (vstr k)) as [v|].
      * destruct D as (Hd & n & j & Hn & -> & Ej). rewrite Hd. cbn [obind]. destruct (Z.eqb_spec n (-1)); [lia|].
        rewrite Ej. reflexivity.
      * destruct D as [->|D]; [reflexivity|]. rewrite D. destruct (vdefined _); reflexivity.
    + intros s' X. inversion X; subst s'. split.
      * intros v Hv. rewrite (HL s k v); auto; split; auto.
      * intros Hn. rewrite HN; auto; split; auto.
  - destruct (subscript_nil m Hw) as (m' & E & A & B & C). exists m', VNil. split; [|split; [eapply chas_same; eauto|]].
    + unfold config_get. cbn [sec_val]. rewrite E. reflexivity.
    + intros s X. discriminate.
Qed.
Lemma run_means : forall o ops cs o', cmeans o ops cs o' -> forall cs0 m, chas cs0 m -> (forall s, o = Some s -> clean s) ->
  exists m', config_run ops (m, sec_val o) = Ok (m', sec_val o') /\ chas (cs0 ++ cs) m' /\ (forall s, o' = Some s -> clean s).
Proof.
  intros o ops cs o' H. induction H; intros cs0 m Hc Ho; cbn [config_run config_op].
  - exists m. rewrite app_nil_r. auto.
  - destruct (read_holds ls bs H H0) as (r & E & Hh & F). unfold configFile. rewrite E. cbn [obind].
    destruct (chas_merge cs0 m bs r Hc Hh) as (m1 & -> & Hc1). cbn [obind].
    destruct (IHcmeans _ m1 Hc1 Ho) as (m' & E' & Hc' & Ho'). exists m'. split; [auto|]. rewrite <- app_assoc in Hc'. auto.
  - destruct (section_keeps cs0 m o1 Hc H) as (m1 & x & E & Hc1). unfold configSection. rewrite E. cbn [obind].
    apply IHcmeans; auto.
  - destruct (chas_set cs0 m s k v Hc (clean_good _ (Ho s eq_refl)) (clean_good _ H)) as (m1 & E & Hc1).
    unfold configSet. cbn [sec_val vstr vdefined] in *. rewrite E. cbn [obind].
    destruct (IHcmeans _ m1 Hc1 Ho) as (m' & E' & Hc' & Ho'). exists m'. split; [auto|]. rewrite <- app_assoc in Hc'. auto.
  - unfold configSet. cbn [sec_val vdefined obind]. apply IHcmeans; auto.
  - destruct (get_keeps cs0 m o k Hc Ho H) as (m1 & x & E & Hc1 & _). rewrite E. cbn [obind]. apply IHcmeans; auto.
Qed.
Lemma ctor_chas : forall o, (forall s, o = Some s -> clean s) -> exists m, config_ctor VNil (sec_val o) = Ok (m, sec_val o) /\ chas [] m.
Proof.
  intros o Ho. assert (Hc : chas [] (VMap [])).
  { split; [split; [right; eauto|split; [apply map_ok_nil|constructor]]|]. split; [eexists; reflexivity|]. split.
    - intros s k v _ _ H. apply last_binding_in in H. destruct H.
    - reflexivity. }
  destruct (section_keeps [] (VMap []) o Hc Ho) as (m & x & E & H). exists m. split; auto.
  unfold config_ctor. change (vdefined VNil) with false. cbn iota. change (subscript VNil VNil) with (@Ok (val * val) (VMap [], VNil)).
  cbn [obind]. unfold configSection. rewrite E. reflexivity.
Qed.

(** Any program of file reads, section changes, settings and lookups: each entry is what
    was bound last, whichever way, and nil when never bound. *)
Theorem C45_last_wins : forall o ops cs o', (forall s, o = Some s -> clean s) -> cmeans o ops cs o' ->
  exists c0 c, config_ctor VNil (sec_val o) = Ok (c0, sec_val o) /\ config_run ops (c0, sec_val o) = Ok (c, sec_val o') /\
    forall s k, clean s -> clean k ->
      (forall v, last_binding cs s k v -> exists c', config_get c (vstr s) (vstr k) = Ok (c', v)) /\
      ((forall v, ~ In (s, k, v) cs) -> exists c', config_get c (vstr s) (vstr k) = Ok (c', VNil)).
Proof.
  intros o ops cs o' Ho Hm. destruct (ctor_chas o Ho) as (c0 & E0 & H0).
  destruct (run_means o ops cs o' Hm [] c0 H0 Ho) as (c & E & Hc & _). exists c0, c. split; [auto|]. split; [auto|].
  intros s k Hs Hk. destruct (get_keeps cs c (Some s) k Hc) as (c' & x & Eg & _ & Hx); auto.
  { intros s' X. inversion X; subst. auto. }
  destruct (Hx s eq_refl) as [Hx1 Hx2]. cbn [sec_val] in Eg. split.
  - intros v Hv. exists c'. rewrite (Hx1 v Hv) in Eg. auto.
  - intros Hn. exists c'. rewrite (Hx2 Hn) in Eg. auto.
Qed.
(** The numeric lookup: the value converted, or the default. *)
Theorem C45_default : forall o ops cs o' t d, (forall s, o = Some s -> clean s) -> cmeans o ops cs o' ->
  exists c0 c, config_ctor VNil (sec_val o) = Ok (c0, sec_val o) /\ config_run ops (c0, sec_val o) = Ok (c, sec_val o') /\
    forall s k, clean s -> clean k ->
      (forall v, last_binding cs s k v -> exists c', config_num t c (vstr s) (vstr k) d = let* r := cast t v in Ok (c', r)) /\
      ((forall v, ~ In (s, k, v) cs) -> exists c', config_num t c (vstr s) (vstr k) d = Ok (c', d)).
Proof.
  intros o ops cs o' t d Ho Hm. destruct (ctor_chas o Ho) as (c0 & E0 & H0).
  destruct (run_means o ops cs o' Hm [] c0 H0 Ho) as (c & E & Hc & _). exists c0, c. split; [auto|]. split; [auto|].
  intros s k (Hs1 & Hs2 & _) (Hk1 & Hk2 & _). pose proof Hc as (Hw & _ & HL & HN).
  destruct (find_entry c (vstr s) (vstr k) Hw (vstr_key s Hs1 Hs2) (vstr_key k Hk1 Hk2)) as (m' & E' & A & B & C & D).
  unfold config_num. rewrite E'. cbn [obind]. split.
  - intros v Hv. rewrite (HL s k v) in D by (auto; split; auto). exists m'.
    destruct D as (-> & n & j & Hn & -> & Ej). cbn [obind]. destruct (Z.eqb_spec n (-1)); [lia|]. rewrite Ej. reflexivity.
  - intros Hn. rewrite (HN s k) in D by (auto; split; auto). exists m'.
    destruct D as [->|D]; [reflexivity|]. rewrite D. destruct (vdefined _); reflexivity.
Qed.
Example C45_example :
  let f1 := [txt "[net]"; txt "port=80"; txt "host=a"]%string in
  let f2 := [txt "[net]"; txt "port=81"]%string in
  exists c0 c, config_ctor VNil VNil = Ok (c0, VNil) /\
    config_run [OFile (lines f1); OFile (lines f2); OSection (Some (txt "net"%string)); OGet (txt "x"%string); OSet (txt "host"%string) (VInt 7)] (c0, VNil)
      = Ok (c, vstr (txt "net"%string)) /\
    (exists c', config_get c (vstr (txt "net")) (vstr (txt "port")) = Ok (c', vstr (txt "81")))%string /\
    (exists c', config_get c (vstr (txt "net")) (vstr (txt "host")) = Ok (c', VInt 7))%string /\
    (exists c', config_num TInt c (vstr (txt "net")) (vstr (txt "speed")) (VInt 5) = Ok (c', VInt 5))%string.
Proof.
  eexists. eexists. split; [vm_compute; reflexivity|]. split; [vm_compute; reflexivity|].
  repeat split; eexists; vm_compute; reflexivity.
Qed.
(** The hypothesis of C45 for such a program. *)
Example C45_example_means : forall bs, means [] [txt "[net]"; txt "port=80"]%string bs ->
  cmeans None [OFile (lines [txt "[net]"; txt "port=80"]%string); OSection (Some (txt "net"%string)); OSet (txt "host"%string) (VInt 7)]
    (map (fun b => match b with (s, k, v) => (s, k, vstr v) end) bs ++ [(txt "net", txt "host", VInt 7)]%string) (Some (txt "net"%string)).
Proof.
  intros bs H. apply cm_file; auto.
  - repeat (apply Forall_cons || apply Forall_nil); (split; [|split]); unfold chars, nul_free; intros; lits.
  - apply cm_section; [intros s X; inversion X; subst; (split; [|split]); unfold chars, nul_free; intros; lits|].
    apply cm_set; [(split; [|split]); unfold chars, nul_free; intros; lits|]. constructor.
Qed.

(** * C61 *)
(** What [inifile::write] makes of anything whose first section is a map with an entry is
    rejected by [inifile::read]; in particular everything read from a file with a binding. *)
Theorem C61_write_not_readable : forall fmtf k p t l,
  ini_read (ini_write fmtf ((k, VMap (p :: t)) :: l)) = Throw "inifile::read(): couldn't split".
Proof.
  intros fmtf k [k1 x1] t l. unfold ini_write. cbn [map snd List.concat]. cbn [format]. rewrite <- !app_comm_cons, <- !app_assoc.
  cbn [app]. rewrite <- !app_assoc. unfold ini_read. set (rest := spaces (0 + 2) ++ _). clearbody rest.
  cbn [length Nat.add]. cbn [ini_loop]. change (123 :: 10 :: rest) with ([123] ++ 10 :: rest). rewrite getline_line by (simpl; try lia; intuition discriminate).
  cbn [obind]. reflexivity.
Qed.
Theorem C61_read_write_read : forall fmtf ls bs, Forall clean ls -> means [] ls bs -> bs <> [] ->
  exists l, ini_read (lines ls) = Ok (VMap l) /\ exists msg, ini_read (ini_write fmtf l) = Throw msg.
Proof.
  intros fmtf ls bs Hls Hm Hne. destruct (C44_terminated_file ls bs Hls Hm) as (r & E & [[X _]|(l & _ & -> & _ & Hmem)]); [tauto|].
  exists l. split; [auto|]. 
  destruct (read_holds ls bs Hls Hm) as (r & E' & Hh & F). rewrite E in E'. inversion E'; subst r.
  destruct l as [|[kk x] l].
  { exfalso. destruct bs as [|[[s k] v] bs]; [auto|]. destruct (binding_dec _ ((s, k, v) :: bs) s k) as [(w & Hw)|Hw]; [|eapply Hw; left; eauto].
    destruct Hh as (_ & _ & _ & HL & _). rewrite Forall_forall in F. destruct (F _ (or_introl eq_refl)) as [Gs Gk].
    specialize (HL s k w Gs Gk Hw). discriminate. }
  destruct (proj1 (Hmem kk x) (or_introl eq_refl)) as (s & -> & (k & v & Hb) & (i & -> & _ & Hi)).
  destruct (binding_dec _ bs s k) as [(w & Hw)|Hw]; [|exfalso; eapply Hw; eauto].
  assert (Hin : In (vstr k, vstr w) i) by (apply Hi; eauto). destruct i as [|p i]; [destruct Hin|].
  eexists. apply C61_write_not_readable.
Qed.
Example C61_example : ini_write (fun _ => []) [(vstr (txt "dogs"), VMap [(vstr (txt "legs"), vstr (txt "4"))])]%string
  = txt "{" ++ [10] ++ txt "  ""legs"": ""4""" ++ [10] ++ txt "}" ++ [10].
Proof. reflexivity. Qed.

Print Assumptions C44_read.
Print Assumptions C44_terminated_file.
Print Assumptions C44_lookup.
Print Assumptions C44_reject.
Print Assumptions C44_blank_line.
Print Assumptions C45_last_wins.
Print Assumptions C45_default.
Print Assumptions C61_write_not_readable.
Print Assumptions C61_read_write_read.
