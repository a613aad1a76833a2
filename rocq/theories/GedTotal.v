(** Reading ends for every file, and what it leaves is well formed. *)
From Coq Require Import ZArith Bool List Lia ZifyBool Sorting String.
From Verif Require Import Base StrModel StrSpec StrProof StrProps LineProof ValModel ValSpec ValProof MapProof ValProps
  NumModel JsonModel JsonSpec IniModel IniProof GedModel GedSpec GedProof.
Import ListNotations.
Local Notation length := List.length.
Local Open Scope list_scope.
Local Open Scope Z_scope.

(** Every outcome that the code can have: a value, an exception, or [shift] of an empty array. *)
Definition ends {A} (P : A -> Prop) (r : outcome A) : Prop :=
  match r with Ok x => P x | Throw m => m <> "not modelled"%string | UB k => k = BadSize | Fuel => False end.
Lemma ends_bind : forall A B (P : A -> Prop) (Q : B -> Prop) r f, ends P r -> (forall x, P x -> ends Q (f x)) -> ends Q (obind r f).
Proof. intros A B P Q [x|m|k|] f H K; cbn [obind ends] in *; auto. Qed.

Definition okw (w : list Z) : Prop := chars w /\ nul_free w.
Definition index_map (m : val) (n : nat) : Prop :=
  m = VNil \/ exists l, m = VMap l /\ map_ok l /\ forall p, In p l -> exists z, snd p = VInt z /\ member_of n z.
(** The stream and the fields. *)
Definition fields (g : ged) (fs : list (list Z)) : Prop :=
  g_field g = VArr TVar (map vstr fs) /\ Forall okw fs /\
  (exists r e, g_is g = mk r e /\ (r <> [] -> e = false) /\ okw r).
Definition records (inds fams : list val) (im fm : val) : Prop :=
  Forall person_shape inds /\ Forall (family_shape (length inds)) fams /\
  index_map im (length inds) /\ index_map fm (length fams).
Definition left_to_read (g : ged) (fs : list (list Z)) : nat := (3 * length (is_rest (g_is g)) + length fs)%nat.
Definition same_records (g g' : ged) : Prop :=
  g_inds g' = g_inds g /\ g_fams g' = g_fams g /\ g_imap g' = g_imap g /\ g_fmap g' = g_fmap g.

Lemma same_refl : forall g, same_records g g.
Proof. intros. unfold same_records. auto. Qed.
Lemma same_trans : forall a b c, same_records a b -> same_records b c -> same_records a c.
Proof. intros a b c (A & B & C & D) (A' & B' & C' & D'). unfold same_records. rewrite A', B', C', D'. auto. Qed.

Lemma okw_app : forall a b, okw (a ++ b) -> okw a /\ okw b.
Proof.
  intros a b [H1 H2]. split; split.
  - intros c Hc. apply H1, in_or_app. auto.
  - intros Hc. apply H2, in_or_app. auto.
  - intros c Hc. apply H1, in_or_app. auto.
  - intros Hc. apply H2, in_or_app. auto.
Qed.
Lemma okw_glue : forall c ps, okw (glue [c] ps) -> Forall okw ps.
Proof.
  induction ps as [|p [|q ps]]; intros H; [constructor| |].
  - constructor; [exact H|constructor].
  - cbn [glue] in H. apply okw_app in H. destruct H as [A B]. constructor; auto. apply IHps. apply (okw_app [c]). exact B.
Qed.
Lemma glue_length : forall c p ps, (length ps <= length (glue [c] (p :: ps)))%nat.
Proof.
  intros c p ps. revert p. induction ps as [|q ps]; intros p; [cbn [length]; lia|].
  change (glue [c] (p :: q :: ps)) with (p ++ [c] ++ glue [c] (q :: ps)). rewrite !app_length. specialize (IHps q). cbn [length] in *. lia.
Qed.

Definition reads (g : ged) (fs : list (list Z)) (r : Z * ged) : Prop :=
  exists fs', fields (snd r) fs' /\ (left_to_read (snd r) fs' < left_to_read g fs)%nat /\ same_records g (snd r).

Lemma cast_int_ends : forall w, ends (fun _ => True) (cast_int (vstr w)).
Proof.
  intros. unfold cast_int. cbn [cast vstr]. unfold cast_str. destruct (extract_int _); cbn [option_map obind ends]; auto. discriminate.
Qed.
Lemma shift_fields : forall g fs, fields g fs ->
  ends (fun r => exists w fs', fs = w :: fs' /\ fst r = vstr w /\ okw w /\ fields (snd r) fs' /\ g_is (snd r) = g_is g /\ same_records g (snd r)) (shift_field g).
Proof.
  intros g fs (Hf & Hw & Hr). unfold shift_field. rewrite Hf. destruct fs as [|w fs]; cbn [map ends]; auto.
  inversion Hw; subst. exists w, fs. split; auto. split; auto. split; auto. split; [|split; [reflexivity|unfold same_records; auto]]. split; auto.
Qed.

(** A line, as the stream delivers it. *)
Lemma getline_ends : forall r e, (r <> [] -> e = false) -> okw r ->
  (r = [] /\ getline (2 + length r) [] (mk r e) = Ok (None, mk [] true)) \/
  exists s r' e', getline (2 + length r) [] (mk r e) = Ok (Some s, mk r' e') /\ (r' <> [] -> e' = false) /\ okw r' /\ okw s /\
    (length s + 3 * length r' < 3 * length r)%nat.
Proof.
  intros r e He Hr. destruct r as [|c r]; [left; split; [auto|apply getline_eof]|right].
  rewrite He by discriminate. change (mk (c :: r) false) with (mkis (c :: r)). remember (c :: r) as s eqn:Es.
  assert (Hs : s <> []) by (subst; discriminate). clear c r Es He.
  destruct (lines_decompose s) as (l & last & E & Hl & Hlast). destruct l as [|x l].
  - unfold lines in E. cbn [map List.concat app] in E. subst last. exists (s ++ [-1]), [], true.
    rewrite getline_last by (auto; lia). split; [reflexivity|]. split; [congruence|]. split; [split; [intros ? []|intros []]|].
    destruct Hr as [Hc Hn]. split.
    + split; [intros c Hc'; apply in_app_or in Hc'; destruct Hc' as [X|[<-|[]]]; [auto|lia]|intros X; apply in_app_or in X; destruct X as [X|[X|[]]]; [auto|lia]].
    + rewrite app_length. destruct s; [congruence|]. cbn [length]. lia.
  - unfold lines in E. cbn [map List.concat] in E. rewrite <- !app_assoc in E. cbn [app] in E. inversion Hl; subst.
    match goal with |- context [x ++ 10 :: ?R] => exists x, R, false end.
    rewrite getline_line by (auto; rewrite app_length; lia). split; [reflexivity|]. split; [auto|].
    destruct (okw_app _ _ Hr) as [A B]. split; [apply (okw_app [10]); exact B|]. split; auto.
    match goal with |- context [x ++ 10 :: ?R] => generalize R end. intros R. rewrite app_length. cbn [length]. lia.
Qed.
Lemma readLine_ends : forall g fs, fields g fs -> ends (reads g fs) (readLine g).
Proof.
  intros g fs (Hf & Hw & r & e & Hg & He & Hr). unfold readLine. rewrite Hg. cbn [mk is_rest].
  destruct (getline_ends r e He Hr) as [(-> & ->)|(s & r' & e' & -> & He' & Hr' & Hs & Hlen)]; cbn [obind].
  - eapply ends_bind; [apply (shift_fields (set_is g (mk [] true) (g_field g)) fs)|].
    + split; [exact Hf|]. split; [exact Hw|]. exists [], true. split; [reflexivity|]. split; [congruence|auto].
    + intros (x & g') (w & fs' & -> & Ex & _ & F & Ei & S). cbn [fst snd] in *. subst x.
      eapply ends_bind; [apply cast_int_ends|]. intros z _. cbn [ends]. exists fs'. cbn [snd]. split; auto. split; [|exact S].
      unfold left_to_read. rewrite Ei, Hg. cbn. lia.
  - destruct (split_pieces s 32 (proj2 Hs) ltac:(lia)) as (p & P & Es & Gs & _). rewrite Es. cbn [obind].
    eapply ends_bind; [apply (shift_fields (set_is g (mk r' e') (VArr TVar (map vstr (p :: P)))) (p :: P))|].
    + split; [reflexivity|]. split; [apply (okw_glue 32); rewrite Gs; exact Hs|]. exists r', e'. auto.
    + intros (x & g') (w & fs' & Ew & Ex & _ & F & Ei & S). cbn [fst snd] in *. subst x. injection Ew as <- <-.
      eapply ends_bind; [apply cast_int_ends|]. intros z _. cbn [ends]. exists P. cbn [snd]. split; auto. split; [|exact S].
      unfold left_to_read. rewrite Ei, Hg. cbn [set_is g_is mk is_rest].
      pose proof (glue_length 32 p P) as X. rewrite Gs in X. lia.
Qed.

(** Tokens. *)
Lemma assigns_nil : forall j p ops, assigns j VNil (p :: ops) = assigns j (VMap []) (p :: ops).
Proof. intros j [k v] ops. reflexivity. Qed.
Lemma token_map_ok : exists l, token_map = Ok (VMap l) /\ map_ok l /\ (forall p, In p l -> (exists z, snd p = VInt z) /\ exists t, In t tags /\ fst p = vstr (txt t)).
Proof.
  assert (K : forallb (fun p => match snd p with VInt _ => true | _ => false end) token_entries = true) by reflexivity.
  set (V := fun p : val * val => (exists z, snd p = VInt z) /\ exists t, In t tags /\ fst p = vstr (txt t)).
  assert (G : forall ops l, map_ok l -> (forall p, In p l -> V p) -> Forall (fun p => key (fst p) /\ V p) ops ->
    ops <> [] \/ l <> [] -> exists l', assigns (VNil, VNil) (VMap l) ops = Ok (VMap l') /\ map_ok l' /\ (forall p, In p l' -> V p)).
  { induction ops as [|[k v] ops]; intros l Hl Hv Ho Hne; [exists l; auto|]. inversion Ho as [|? ? [Hk Hz] Ho']; subst.
    destruct (map_put_lookup (VNil, VNil) l k v Hl Hk) as (l' & E & Hl' & Hn & Hin & _). cbn [assigns assign]. rewrite E. cbn [obind].
    apply IHops; auto. intros p Hp. destruct (Hin p Hp) as [X|[X [Y|Y]]]; auto; split; try (rewrite X; exact (proj1 Hz)); [rewrite Y; exact (proj2 Hz)|].
    apply in_map_iff in Y. destruct Y as (p' & <- & Y). apply (Hv p' Y). }
  destruct (G token_entries []) as (l & E & A & B); [apply map_ok_nil|intros ? []| |left; discriminate|].
  - apply Forall_forall. intros p Hp.
    assert (Y : exists t, In t tags /\ fst p = vstr (txt t)).
    { clear - Hp. repeat (destruct Hp as [Hp|Hp]; [subst p; eexists; split; [|reflexivity]; cbn [tags In]; auto 40|]). contradiction. }
    split; [|split; auto].
    + destruct Y as (t & Ht & ->). apply vstr_key; apply (word_txt t Ht).
    + rewrite forallb_forall in K. apply K in Hp. destruct (snd p); try discriminate. eauto.
  - exists l. split; [|auto]. rewrite <- E. unfold token_map, token_entries. apply assigns_nil.
Qed.
Lemma lookup_values : forall (P : val -> Prop) l k, (forall p, In p l -> P (snd p)) -> match lookup l k with Some v => P v | None => True end.
Proof. intros P l k H. induction l as [|[a v] l]; cbn [lookup]; auto. destruct (same_code a k); [apply (H (a, v)); left; auto|]. apply IHl. intros p Hp. apply H. right. auto. Qed.
Lemma token_total : forall w, okw w -> exists b, knownToken (vstr w) = Ok b /\ (b = true -> exists c, token_code (vstr w) = Ok c).
Proof.
  intros w [Hc Hn]. destruct token_map_ok as (l & E & Hl & Hv). unfold knownToken, token_code. rewrite E. cbn [obind].
  rewrite at_var_lookup by (auto; apply vstr_key; auto). cbn [obind].
  eexists. split; [reflexivity|]. pose proof (lookup_values (fun v => exists z, v = VInt z) l (vstr w) (fun p Hp => proj1 (Hv p Hp))) as L.
  destruct (map_index_lookup (VNil, VNil) l (vstr w) Hl (vstr_key w Hc Hn)) as (l1 & kk & l2 & Em & _).
  unfold subscript. rewrite Em. cbn [obind]. rewrite nth_error_mid. cbn [obind].
  destruct (lookup l (vstr w)); [destruct L as [z ->]|cbn [or_nil vdefined]; discriminate]. intros _. exists z. reflexivity.
Qed.

(** A word that is no tag is no token. *)
Lemma unknown_token : forall w, okw w -> (forall t, In t tags -> w <> txt t) -> knownToken (vstr w) = Ok false.
Proof.
  intros w [Hc Hn] Hu. destruct token_map_ok as (l & E & Hl & Hv). unfold knownToken. rewrite E. cbn [obind].
  rewrite at_var_lookup by (auto; apply vstr_key; auto). cbn [obind]. replace (lookup l (vstr w)) with (@None val); [reflexivity|]. symmetry.
  clear E Hl. induction l as [|[a v] l]; auto. cbn [lookup]. destruct (same_code a (vstr w)) eqn:S.
  - exfalso. apply same_code_true in S. destruct (Hv (a, v) (or_introl eq_refl)) as (_ & t & Ht & Ea). cbn [fst] in Ea. subst a.
    apply (Hu t Ht). symmetry. apply vstr_code; auto. apply (word_txt t Ht).
  - apply IHl. intros p Hp. apply Hv. right. auto.
Qed.

(** * The loops *)
Lemma reads_then : forall g fs g1 fs1 r, fields g1 fs1 -> (left_to_read g1 fs1 <= left_to_read g fs)%nat -> same_records g g1 ->
  reads g1 fs1 r -> reads g fs r.
Proof.
  intros g fs g1 fs1 r F L S (fs' & F' & L' & S'). exists fs'. split; auto. split; [lia|]. eapply same_trans; eauto.
Qed.
Lemma reads_weaken : forall g fs g1 fs1 o, (left_to_read g1 fs1 <= left_to_read g fs)%nat -> same_records g g1 ->
  ends (reads g1 fs1) o -> ends (reads g fs) o.
Proof.
  intros g fs g1 fs1 [r|m|k|] L S H; cbn [ends] in *; auto. destruct H as (fs' & F' & L' & S'). exists fs'. split; auto. split; [lia|].
  eapply same_trans; eauto.
Qed.
Lemma shift_left : forall g g' w fs', g_is g' = g_is g -> (left_to_read g' fs' < left_to_read g (w :: fs'))%nat.
Proof. intros. unfold left_to_read. rewrite H. cbn [length]. lia. Qed.

Lemma doHeader_ends : forall fuel L g fs, fields g fs -> (left_to_read g fs < fuel)%nat -> ends (reads g fs) (doHeader fuel L g).
Proof.
  induction fuel; intros L g fs F H; [lia|]. cbn [doHeader]. eapply ends_bind; [apply readLine_ends; eauto|].
  intros (l & g1) (fs1 & F1 & L1 & S1). cbn [snd] in *. destruct (L <=? l).
  - eapply reads_weaken; [| |apply IHfuel]; eauto; lia.
  - exists fs1. auto.
Qed.
Lemma doContinue_ends : forall fuel L w g fs, okw w -> knownToken (vstr w) = Ok true -> fields g fs -> (left_to_read g fs < fuel)%nat ->
  ends (reads g fs) (doContinue fuel L (vstr w) g).
Proof.
  induction fuel; intros L w g fs Hw Hk F H; [lia|]. cbn [doContinue].
  destruct (token_total w Hw) as (b & Eb & Ec). rewrite Hk in Eb. injection Eb as <-. destruct (Ec eq_refl) as (c & E). rewrite E. cbn [obind].
  eapply ends_bind; [apply readLine_ends; eauto|].
  intros (l & g1) (fs1 & F1 & L1 & S1). cbn [snd] in *. destruct (L <=? l).
  - eapply reads_weaken; [| |apply IHfuel]; eauto; lia.
  - exists fs1. auto.
Qed.
(** The beginning of a turn: a token. *)
Lemma token_step : forall A (Q : A -> Prop) g fs (stop : ged -> outcome A) (go : val -> Z -> ged -> outcome A), fields g fs ->
  (forall w fs' g', fs = w :: fs' -> fields g' fs' -> g_is g' = g_is g -> same_records g g' -> ends Q (stop g')) ->
  (forall w fs' g' c, fs = w :: fs' -> okw w -> knownToken (vstr w) = Ok true -> fields g' fs' -> g_is g' = g_is g -> same_records g g' ->
     ends Q (go (vstr w) c g')) ->
  ends Q (let* (token, g) := shift_field g in let* known := knownToken token in
          if negb known then stop g else let* c := token_code token in go token c g).
Proof.
  intros A Q g fs stop go F Hs Hg. eapply ends_bind; [apply shift_fields; eauto|].
  intros (x & g1) (w & fs' & E & Ex & Hw & F1 & Ei & S). cbn [fst snd] in *. subst x.
  destruct (token_total w Hw) as (b & Eb & Ec). rewrite Eb. cbn [obind]. destruct b; cbn [negb].
  - destruct (Ec eq_refl) as (c & ->). cbn [obind]. eapply Hg; eauto.
  - eapply Hs; eauto.
Qed.
Lemma doBirth_ends : forall fuel L l g fs, fields g fs -> (left_to_read g fs < fuel)%nat -> ends (reads g fs) (doBirth fuel L l g).
Proof.
  induction fuel; intros L l g fs F H; [lia|]. cbn [doBirth].
  apply (token_step _ (reads g fs) g fs (fun g => Ok (l, g)) (fun token c g => let* (level, g) := if (c =? CONT) || (c =? CONC) then doContinue fuel l token g
                       else readLine g in if L <=? level then doBirth fuel L level g else Ok (level, g))); auto.
  - intros w fs' g' -> F' Ei S. cbn [ends]. exists fs'. split; auto. split; auto. apply shift_left. auto.
  - intros w fs' g' c -> Hw Hk F' Ei S. pose proof (shift_left g g' w fs' Ei) as X.
    eapply ends_bind with (P := reads g' fs').
    + destruct ((c =? CONT) || (c =? CONC)); [apply doContinue_ends; auto; lia|apply readLine_ends; auto].
    + intros (l2 & g2) (fs2 & F2 & L2 & S2). cbn [snd] in *. destruct (L <=? l2).
      * eapply reads_weaken; [| |apply IHfuel]; eauto; try lia. eapply same_trans; eauto.
      * exists fs2. split; auto. split; [cbn [snd]; lia|]. eapply same_trans; eauto.
Qed.

Definition recs (g : ged) : Prop := records (g_inds g) (g_fams g) (g_imap g) (g_fmap g).
Definition goes (g : ged) (fs : list (list Z)) (r : Z * ged) : Prop :=
  exists fs', fields (snd r) fs' /\ (left_to_read (snd r) fs' < left_to_read g fs)%nat /\ recs (snd r) /\
    length (g_inds (snd r)) = length (g_inds g) /\ length (g_fams (snd r)) = length (g_fams g).
Lemma reads_goes : forall g fs g1 fs1 o, fields g1 fs1 -> (left_to_read g1 fs1 <= left_to_read g fs)%nat -> recs g1 ->
  length (g_inds g1) = length (g_inds g) -> length (g_fams g1) = length (g_fams g) ->
  ends (reads g1 fs1) o -> ends (goes g fs) o.
Proof.
  intros g fs g1 fs1 [r|m|k|] F L R A B H; cbn [ends] in *; auto. destruct H as (fs' & F' & L' & (S1 & S2 & S3 & S4)). exists fs'.
  split; auto. split; [lia|]. unfold recs. rewrite S1, S2, S3, S4. auto.
Qed.
Lemma goes_weaken : forall g fs g1 fs1 o, (left_to_read g1 fs1 <= left_to_read g fs)%nat ->
  length (g_inds g1) = length (g_inds g) -> length (g_fams g1) = length (g_fams g) ->
  ends (goes g1 fs1) o -> ends (goes g fs) o.
Proof.
  intros g fs g1 fs1 [r|m|k|] L A B H; cbn [ends] in *; auto. destruct H as (fs' & F' & L' & R & A' & B'). exists fs'.
  split; auto. split; [lia|]. split; auto. split; congruence.
Qed.
Lemma fields_records : forall g fs, fields g fs -> forall l, fields (set_inds g l) fs /\ fields (set_fams g l) fs.
Proof. intros g fs F l. split; exact F. Qed.
Lemma same_recs : forall g g', same_records g g' -> recs g -> recs g'.
Proof. intros g g' (A & B & C & D) R. unfold recs. rewrite A, B, C, D. exact R. Qed.

Lemma last_record : forall (l : list val) n, length l = S n -> exists l' x, l = l' ++ [x] /\ length l' = n.
Proof.
  intros l n H. destruct (exists_last (l := l)) as (l' & x & ->); [destruct l; discriminate|]. exists l', x. split; auto.
  rewrite app_length in H. cbn [length] in H. lia.
Qed.
Lemma store_person : forall l n k x, length l = S n -> Forall person_shape l -> textual x -> In k ["NAME"; "TITL"; "SEX"]%string ->
  exists l', put_entry l n k x = Ok l' /\ Forall person_shape l' /\ length l' = length l.
Proof.
  intros l n k x Hl Hp Hx Hk. destruct (last_record l n Hl) as (l' & y & -> & <-). apply Forall_app in Hp. destruct Hp as [Hp Hy].
  inversion Hy as [|? ? (a & b & c & -> & Ha & Hb & Hc) _]; subst.
  change (VMap [pair_of "NAME" a; pair_of "SEX" b; pair_of "TITL" c]) with (person a b c) in *.
  assert (X : forall a b c, textual a -> textual b -> textual c -> Forall person_shape (l' ++ [person a b c]) /\ length (l' ++ [person a b c]) = S (length l')).
  { intros a' b' c' A B C. split; [apply Forall_app; split; auto; constructor; auto; exists a', b', c'; auto|rewrite app_length; cbn [length]; lia]. }
  destruct Hk as [<-|[<-|[<-|[]]]]; [rewrite put_name|rewrite put_titl|rewrite put_sex]; (eexists; split; [reflexivity|]; rewrite Hl; apply X; auto).
Qed.
Lemma join_ends : forall g fs, fields g fs -> join_field g = Ok (vstr (join fs [32])).
Proof. intros g fs (F & _). unfold join_field. rewrite F. rewrite map_map. rewrite (map_ext _ (fun x => x)) by apply str_of_vstr. rewrite map_id. reflexivity. Qed.

Lemma doIndividual_ends : forall fuel L l n g fs, fields g fs -> (left_to_read g fs < fuel)%nat -> recs g -> length (g_inds g) = S n ->
  ends (goes g fs) (doIndividual fuel L l n g).
Proof.
  induction fuel; intros L l n g fs F H R Hn; [lia|]. cbn [doIndividual].
  apply (token_step _ (goes g fs) g fs (fun g => Ok (l, g)) (fun token c g =>
    let store k := let* x := join_field g in let* l := put_entry (g_inds g) n k x in readLine (set_inds g l) in
    let* (level, g) :=
      if c =? NAME then store "NAME"%string
      else if c =? TITL then store "TITL"%string
      else if c =? SEX then store "SEX"%string
      else if (c =? BIRT) || (c =? DEAT) || (c =? CHR) || (c =? BURI) then
        let* (level, g) := readLine g in
        if L <? level then doBirth fuel level level g else Ok (level, g)
      else if (c =? CONT) || (c =? CONC) then doContinue fuel l token g
      else readLine g in
    if L <=? level then doIndividual fuel L level n g else Ok (level, g))); auto.
  - intros w fs' g' -> F' Ei S. cbn [ends]. exists fs'. split; auto. split; [apply shift_left; auto|]. split; [eapply same_recs; eauto|].
    destruct S as (A & B & _). cbn [snd]. rewrite A, B. auto.
  - intros w fs' g' c -> Hw Hk F' Ei S. pose proof (shift_left g g' w fs' Ei) as X. pose proof (same_recs _ _ S R) as R'.
    assert (SA : length (g_inds g') = length (g_inds g) /\ length (g_fams g') = length (g_fams g)) by (destruct S as (A & B & _); rewrite A, B; auto).
    destruct SA as [SA SB]. cbv beta zeta.
    assert (ST : forall k, In k ["NAME"; "TITL"; "SEX"]%string -> ends (goes g' fs')
      (let* x := join_field g' in let* l := put_entry (g_inds g') n k x in readLine (set_inds g' l))).
    { intros k Hin. rewrite (join_ends g' fs' F'). cbn [obind].
      destruct (store_person (g_inds g') n k (vstr (join fs' [32])) ltac:(congruence) (proj1 R') ltac:(right; eauto) Hin) as (l' & E & Hp & Hl'). rewrite E. cbn [obind].
      apply (reads_goes g' fs' (set_inds g' l') fs'); auto; [|apply readLine_ends; exact F'].
      destruct R' as (_ & R2 & R3 & R4). unfold recs, records. cbn [set_inds g_inds g_fams g_imap g_fmap]. rewrite Hl'. auto. }
    assert (RD : forall o, ends (reads g' fs') o -> ends (goes g' fs') o) by (intros o; apply reads_goes; auto).
    eapply ends_bind with (P := goes g' fs').
    + destruct (c =? NAME); [apply (ST "NAME"%string); cbn [In]; auto|]. destruct (c =? TITL); [apply (ST "TITL"%string); cbn [In]; auto|]. destruct (c =? SEX); [apply (ST "SEX"%string); cbn [In]; auto|].
      apply RD. destruct ((c =? BIRT) || (c =? DEAT) || (c =? CHR) || (c =? BURI)).
      * eapply ends_bind; [apply readLine_ends; eauto|]. intros (l1 & g1) (fs1 & F1 & L1 & S1). cbn [snd] in *. destruct (L <? l1).
        -- eapply reads_weaken; [| |apply doBirth_ends]; eauto; lia.
        -- exists fs1. auto.
      * destruct ((c =? CONT) || (c =? CONC)); [apply doContinue_ends; auto; lia|apply readLine_ends; auto].
    + intros (l2 & g2) (fs2 & F2 & L2 & R2 & A2 & B2). cbn [snd] in *. destruct (L <=? l2).
      * eapply goes_weaken; [| | |apply IHfuel]; eauto; try lia; congruence.
      * exists fs2. cbn [snd]. split; auto. split; [lia|]. split; auto. split; congruence.
Qed.

Lemma store_family : forall m l n z, length l = S n -> Forall (family_shape m) l -> member_of m z ->
  (exists l', put_entry l n "HUSB" (VInt z) = Ok l' /\ Forall (family_shape m) l' /\ length l' = length l) /\
  (exists l', put_entry l n "WIFE" (VInt z) = Ok l' /\ Forall (family_shape m) l' /\ length l' = length l) /\
  (exists l', push_entry l n "CHIL" (VInt z) = Ok l' /\ Forall (family_shape m) l' /\ length l' = length l).
Proof.
  intros m l n z Hl Hp Hz. destruct (last_record l n Hl) as (l' & y & -> & <-). apply Forall_app in Hp. destruct Hp as [Hp Hy].
  inversion Hy as [|? ? (a & b & c & -> & Ha & Hb & Hc) _]; subst.
  change (VMap [pair_of "CHIL" (collected a); pair_of "HUSB" b; pair_of "WIFE" c]) with (fam (collected a) b c) in *.
  assert (X : forall a b c, Forall (member_of m) a -> one_member m b -> one_member m c ->
    Forall (family_shape m) (l' ++ [fam (collected a) b c]) /\ length (l' ++ [fam (collected a) b c]) = S (length l')).
  { intros a' b' c' A B C. split; [apply Forall_app; split; auto; constructor; auto; exists a', b', c'; auto|rewrite app_length; cbn [length]; lia]. }
  assert (Z1 : one_member m (VInt z)) by (right; eauto).
  split; [|split]; [rewrite put_husb|rewrite put_wife|rewrite push_chil]; (eexists; split; [reflexivity|]; rewrite Hl; apply X; auto).
  apply Forall_app. auto.
Qed.
Lemma index_map_at : forall m n w, index_map m n -> okw w -> ends (fun x => x = VNil \/ exists z, x = VInt z /\ member_of n z) (at_var (RVar m) (vstr w)).
Proof.
  intros m n w [->|(l & -> & Hl & Hv)] [Hc Hn]; [cbn [at_var recv_val ends]; discriminate|].
  rewrite at_var_lookup by (auto; apply vstr_key; auto). cbn [ends].
  pose proof (lookup_values (fun v => exists z, v = VInt z /\ member_of n z) l (vstr w) Hv) as L.
  destruct (lookup l (vstr w)); cbn [or_nil]; auto.
Qed.
Lemma doFamily_ends : forall fuel L l n g fs, fields g fs -> (left_to_read g fs < fuel)%nat -> recs g -> length (g_fams g) = S n ->
  ends (goes g fs) (doFamily fuel L l n g).
Proof.
  induction fuel; intros L l n g fs F H R Hn; [lia|]. cbn [doFamily].
  apply (token_step _ (goes g fs) g fs (fun g => Ok (l, g)) (fun token c g =>
    let member (put : list val -> val -> outcome (list val)) :=
      let* (indiv, g) := shift_field g in
      let* x := at_var (RVar (g_imap g)) indiv in
      if vdefined x then
        let* z := cast_int x in
        let* l := put (g_fams g) (VInt z) in
        readLine (set_fams g l)
      else readLine g in
    let* (level, g) :=
      if c =? HUSB then member (fun l x => put_entry l n "HUSB" x)
      else if c =? WIFE then member (fun l x => put_entry l n "WIFE" x)
      else if c =? CHIL then member (fun l x => push_entry l n "CHIL" x)
      else if c =? MARR then let* (level, g) := readLine g in doBirth fuel level level g
      else readLine g in
    if L <=? level then doFamily fuel L level n g else Ok (level, g))); auto.
  - intros w fs' g' -> F' Ei SS. cbn [ends]. exists fs'. split; auto. split; [apply shift_left; auto|]. split; [eapply same_recs; eauto|].
    destruct SS as (A & B & _). cbn [snd]. rewrite A, B. auto.
  - intros w fs' g' c -> Hw Hk F' Ei SS. pose proof (shift_left g g' w fs' Ei) as X. pose proof (same_recs _ _ SS R) as R'.
    assert (SA : length (g_inds g') = length (g_inds g) /\ length (g_fams g') = length (g_fams g)) by (destruct SS as (A & B & _); rewrite A, B; auto).
    destruct SA as [SA SB]. cbv beta zeta.
    assert (RD : forall o, ends (reads g' fs') o -> ends (goes g' fs') o) by (intros o; apply reads_goes; auto).
    assert (ST : forall put : list val -> val -> outcome (list val), (forall l z, length l = S n -> Forall (family_shape (length (g_inds g'))) l -> member_of (length (g_inds g')) z ->
        exists l', put l (VInt z) = Ok l' /\ Forall (family_shape (length (g_inds g'))) l' /\ length l' = length l) -> ends (goes g' fs')
      (let* (indiv, g) := shift_field g' in
      let* x := at_var (RVar (g_imap g)) indiv in
      if vdefined x then
        let* z := cast_int x in
        let* l := put (g_fams g) (VInt z) in
        readLine (set_fams g l)
      else readLine g)).
    { intros put Hput. eapply ends_bind; [apply shift_fields; eauto|]. intros (x & g1) (w1 & fs1 & -> & Ex & Hw1 & F1 & Ei1 & S1). cbn [fst snd] in *. subst x.
      pose proof (same_recs _ _ S1 R') as R1. destruct S1 as (A1 & B1 & C1 & D1).
      pose proof (shift_left g' g1 w1 fs1 Ei1) as X1.
      eapply ends_bind; [apply (index_map_at _ (length (g_inds g'))); auto; rewrite C1; apply R'|].
      intros x [->|(z & -> & Hz)]; cbn [vdefined].
      - apply (reads_goes g' (w1 :: fs1) g1 fs1); auto; try congruence; try lia. apply readLine_ends; auto.
      - change (cast_int (VInt z)) with (Ok z). cbn [obind]. rewrite B1.
        destruct (Hput (g_fams g') z ltac:(congruence) ltac:(apply R') Hz) as (l' & E & Hf & Hl'). rewrite E. cbn [obind].
        apply (reads_goes g' (w1 :: fs1) (set_fams g1 l') fs1); auto; try (cbn [set_fams g_inds g_fams]; congruence);
          try (unfold left_to_read in *; cbn [set_fams g_is]; lia); [|apply readLine_ends; exact F1].
        destruct R1 as (R1 & _ & R3 & R4). unfold recs, records. cbn [set_fams g_inds g_fams g_imap g_fmap]. rewrite A1 in *. rewrite Hl', <- B1. auto. }
    eapply ends_bind with (P := goes g' fs').
    + destruct (c =? HUSB); [apply (ST (fun l x => put_entry l n "HUSB" x)); intros; apply store_family; auto|].
      destruct (c =? WIFE); [apply (ST (fun l x => put_entry l n "WIFE" x)); intros; apply store_family; auto|].
      destruct (c =? CHIL); [apply (ST (fun l x => push_entry l n "CHIL" x)); intros; apply store_family; auto|].
      apply RD. destruct (c =? MARR); [|apply readLine_ends; auto].
      eapply ends_bind; [apply readLine_ends; eauto|]. intros (l1 & g1) (fs1 & F1 & L1 & S1). cbn [snd] in *.
      eapply reads_weaken; [| |apply doBirth_ends]; eauto; lia.
    + intros (l2 & g2) (fs2 & F2 & L2 & R2 & A2 & B2). cbn [snd] in *. destruct (L <=? l2).
      * eapply goes_weaken; [| | |apply IHfuel]; eauto; try lia; congruence.
      * exists fs2. cbn [snd]. split; auto. split; [lia|]. split; auto. split; congruence.
Qed.

(** * The file *)
Lemma family_shape_more : forall n m l, (n <= m)%nat -> Forall (family_shape n) l -> Forall (family_shape m) l.
Proof.
  intros n m l H. apply Forall_impl. intros v (a & b & c & -> & A & B & C). exists a, b, c. split; auto.
  assert (M : forall z, member_of n z -> member_of m z) by (unfold member_of; intros; lia).
  split; [eapply Forall_impl; [|exact A]; auto|]. split; [destruct B as [->|(z & -> & B)]|destruct C as [->|(z & -> & C)]]; [left|right|left|right]; eauto.
Qed.
Lemma index_map_more : forall m n w, index_map m n -> okw w ->
  exists m', assign (VNil, VNil) m (vstr w) (VInt (Z.of_nat n)) = Ok m' /\ index_map m' (S n).
Proof.
  intros m n w H [Hc Hn].
  assert (X : forall l, map_ok l -> (forall p, In p l -> exists z, snd p = VInt z /\ member_of n z) ->
    exists l', map_put (VNil, VNil) l (vstr w) (VInt (Z.of_nat n)) = Ok l' /\ index_map (VMap l') (S n)).
  { intros l Hl Hv. destruct (map_put_lookup (VNil, VNil) l (vstr w) (VInt (Z.of_nat n)) Hl (vstr_key w Hc Hn)) as (l' & E & Hl' & _ & Hin & _).
    exists l'. split; auto. right. exists l'. split; auto. split; auto. intros p Hp. destruct (Hin p Hp) as [Y|[Y _]].
    - destruct (Hv p Y) as (z & -> & Hz). exists z. split; auto. unfold member_of in *. lia.
    - rewrite Y. exists (Z.of_nat n). split; auto. unfold member_of. lia. }
  destruct H as [->|(l & -> & Hl & Hv)]; [destruct (X [] map_ok_nil) as (l' & E & Y); [intros ? []|]|destruct (X l Hl Hv) as (l' & E & Y)];
    (exists (VMap l'); split; [unfold assign; rewrite E; reflexivity|exact Y]).
Qed.
Lemma goes_reads_recs : forall g fs r, reads g fs r -> recs g -> goes g fs r.
Proof.
  intros g fs r (fs' & F & L & S) R. exists fs'. split; auto. split; auto. split; [eapply same_recs; eauto|]. destruct S as (A & B & _). rewrite A, B. auto.
Qed.
Lemma first_fields : forall g w fs, fields g (w :: fs) ->
  (exists c s, w = c :: s /\ first_char g = Ok (VChar c, g)) \/ (w = [] /\ first_char g = Ok (VChar 0, set_field g (VArr TVar (vstr [0] :: map vstr fs)))).
Proof.
  intros g w fs (F & _). unfold first_char. rewrite F. destruct w as [|c s]; [right; split; reflexivity|left; exists c, s; split; reflexivity].
Qed.
Lemma doFile_ends : forall fuel L l g fs, fields g fs -> (left_to_read g fs < fuel)%nat -> recs g -> ends recs (doFile fuel L l g).
Proof.
  induction fuel; intros L l g fs F H R; [lia|]. cbn [doFile]. cbv zeta.
  assert (NEXT : forall l1 g1 fs1, fields g1 fs1 -> (left_to_read g1 fs1 < left_to_read g fs)%nat -> recs g1 ->
    ends recs (if L <=? l1 then doFile fuel L l1 g1 else Ok g1)).
  { intros l1 g1 fs1 F1 L1 R1. destruct (L <=? l1); [apply (IHfuel _ _ _ fs1); auto; lia|exact R1]. }
  assert (GOES : forall l0 g1 fs1 (o : outcome (Z * ged)), (left_to_read g1 fs1 <= left_to_read g fs)%nat -> ends (goes g1 fs1) o ->
     ends recs (let* (_, g2) := o in if L <=? l0 then doFile fuel L l0 g2 else Ok g2)).
  { intros l0 g1 fs1 o L1 E. eapply ends_bind; [exact E|]. intros (l2 & g2) (fs2 & F2 & L2 & R2 & _). apply (NEXT _ _ fs2); auto. cbn [snd] in *. lia. }
  destruct fs as [|w fs].
  { destruct F as (F & _ & _). unfold first_char. rewrite F. cbn [map obind]. change (veq VNil (VChar 64)) with (Ok false). cbn [obind].
    unfold shift_field. cbn [set_field g_field obind].
    replace (knownToken (VArr TVar [VNil])) with (Ok false) by (vm_compute; reflexivity). exact R. }
  destruct (first_fields g w fs F) as [(c0 & s0 & Ew & ->)|(-> & ->)]; cbn [obind].
  2: { change (veq (VChar 0) (VChar 64)) with (Ok false). cbn [obind]. unfold shift_field. cbn [set_field g_field obind].
       replace (knownToken (vstr [0])) with (Ok false) by (vm_compute; reflexivity). exact R. }
  change (veq (VChar c0) (VChar 64)) with (Ok (negb (negb (c0 =? 64)))). cbn [obind]. destruct (negb (negb (c0 =? 64))).
  - eapply ends_bind; [apply shift_fields; eauto|]. intros (x & g1) (w1 & fs1 & E1 & Ex & Hw1 & F1 & Ei1 & S1). cbn [fst snd] in *. subst x. injection E1 as <- <-.
    pose proof (same_recs _ _ S1 R) as R1. pose proof (shift_left g g1 w fs Ei1) as X1.
    apply (token_step _ recs g1 fs (fun g => Ok g) (fun token c g =>
      if c =? SUBM then
        let* (l0, g) := readLine g in
        let* (_, g) := doSubmitter fuel l0 g in if L <=? l then doFile fuel L l g else Ok g
      else if c =? INDI then
        let* entity := individual in
        let* m := assign (VNil, VNil) (g_imap g) (vstr w) (VInt (Z.of_nat (length (g_inds g)))) in
        let* (l0, g0) := readLine (set_inds (set_imap g m) (g_inds g ++ [entity])) in
        let* (_, g) := doIndividual fuel l0 l0 (length (g_inds g)) g0 in if L <=? l then doFile fuel L l g else Ok g
      else if c =? FAM then
        let* entity := family in
        let* m := assign (VNil, VNil) (g_fmap g) (vstr w) (VInt (Z.of_nat (length (g_fams g)))) in
        let* (l0, g0) := readLine (set_fams (set_fmap g m) (g_fams g ++ [entity])) in
        let* (_, g) := doFamily fuel l0 l0 (length (g_fams g)) g0 in if L <=? l then doFile fuel L l g else Ok g
      else if L <=? l then doFile fuel L l g else Ok g)); auto.
    + intros w2 fs2 g2 -> F2 Ei2 S2. exact (same_recs _ _ S2 R1).
    + intros w2 fs2 g2 c -> Hw2 Hk2 F2 Ei2 S2. pose proof (same_recs _ _ S2 R1) as R2. pose proof (shift_left g1 g2 w2 fs2 Ei2) as X2. cbv beta.
      destruct (c =? SUBM).
      { eapply ends_bind; [apply readLine_ends; eauto|]. intros (l3 & g3) (fs3 & F3 & L3 & S3). cbn [snd] in *.
        apply (GOES l g3 fs3); [lia|]. apply (reads_goes g3 fs3 g3 fs3); auto; [eapply same_recs; eauto|]. apply doHeader_ends; auto. lia. }
      destruct (c =? INDI).
      { change individual with (Ok (person VNil VNil VNil)). cbn [obind]. destruct R2 as (P2 & Q2 & I2 & J2).
        destruct (index_map_more (g_imap g2) (length (g_inds g2)) w I2 Hw1) as (m & Em & Hm). rewrite Em. cbn [obind].
        set (g3 := set_inds (set_imap g2 m) (g_inds g2 ++ [person VNil VNil VNil])).
        assert (LEN : length (g_inds g3) = S (length (g_inds g2))) by (subst g3; cbn [set_inds g_inds]; rewrite app_length; cbn [length]; lia).
        assert (R3 : recs g3).
        { unfold recs, records. rewrite LEN. subst g3. cbn [set_inds set_imap g_inds g_fams g_imap g_fmap]. split; [|split; [|split]]; auto.
          - apply Forall_app. split; auto. constructor; auto. exists VNil, VNil, VNil. split; [reflexivity|]. unfold textual. auto.
          - eapply family_shape_more; [|exact Q2]. lia. }
        assert (F3 : fields g3 fs2) by exact F2. assert (X3 : left_to_read g3 fs2 = left_to_read g2 fs2) by reflexivity.
        eapply ends_bind; [apply readLine_ends; exact F3|]. intros (l4 & g4) (fs4 & F4 & L4 & S4). cbn [snd] in *.
        apply (GOES l g4 fs4); [lia|]. apply doIndividual_ends; auto; [lia|eapply same_recs; eauto|]. destruct S4 as (-> & _). exact LEN. }
      destruct (c =? FAM).
      { change family with (Ok (fam (collected []) VNil VNil)). cbn [obind]. destruct R2 as (P2 & Q2 & I2 & J2).
        destruct (index_map_more (g_fmap g2) (length (g_fams g2)) w J2 Hw1) as (m & Em & Hm). rewrite Em. cbn [obind].
        set (g3 := set_fams (set_fmap g2 m) (g_fams g2 ++ [fam (collected []) VNil VNil])).
        assert (LEN : length (g_fams g3) = S (length (g_fams g2))) by (subst g3; cbn [set_fams g_fams]; rewrite app_length; cbn [length]; lia).
        assert (R3 : recs g3).
        { unfold recs, records. rewrite LEN. subst g3. cbn [set_fams set_fmap g_inds g_fams g_imap g_fmap]. split; [|split; [|split]]; auto.
          apply Forall_app. split; auto. constructor; auto. exists [], VNil, VNil. split; [reflexivity|]. unfold one_member. auto. }
        assert (F3 : fields g3 fs2) by exact F2. assert (X3 : left_to_read g3 fs2 = left_to_read g2 fs2) by reflexivity.
        eapply ends_bind; [apply readLine_ends; exact F3|]. intros (l4 & g4) (fs4 & F4 & L4 & S4). cbn [snd] in *.
        apply (GOES l g4 fs4); [lia|]. apply doFamily_ends; auto; [lia|eapply same_recs; eauto|]. destruct S4 as (_ & -> & _). exact LEN. }
      apply (NEXT _ _ fs2); auto. lia.
  - apply (token_step _ recs g (w :: fs) (fun g => Ok g) (fun token c g =>
      if c =? HEAD then
        let* (l0, g) := readLine g in
        let* (level, g) := doHeader fuel l0 g in if L <=? level then doFile fuel L level g else Ok g
      else if c =? TRLR then Ok g
      else if L <=? l then doFile fuel L l g else Ok g)); auto.
    + intros w2 fs2 g2 E2 F2 Ei2 S2. exact (same_recs _ _ S2 R).
    + intros w2 fs2 g2 c E2 Hw2 Hk2 F2 Ei2 S2. rewrite E2 in *. pose proof (same_recs _ _ S2 R) as R2. pose proof (shift_left g g2 w2 fs2 Ei2) as X2. cbv beta.
      destruct (c =? HEAD).
      { eapply ends_bind; [apply readLine_ends; eauto|]. intros (l3 & g3) (fs3 & F3 & L3 & S3). cbn [snd] in *.
        eapply ends_bind; [apply doHeader_ends; eauto; lia|]. intros (l4 & g4) (fs4 & F4 & L4 & S4). cbn [snd] in *.
        apply (NEXT _ _ fs4); auto; [lia|]. eapply same_recs; [exact S4|]. eapply same_recs; eauto. }
      destruct (c =? TRLR); [exact R2|]. apply (NEXT _ _ fs2); auto.
Qed.

Theorem ged_read_ends : forall content, chars content -> nul_free content -> ends file_shape (ged_read content) \/ ged_read content = UB TypePun /\ content = [].
Proof.
  intros content Hc Hn. destruct content as [|c content]; [right; split; vm_compute; reflexivity|left].
  unfold ged_read, loadFile, ged_start. remember (c :: content) as s eqn:Es.
  eapply ends_bind with (P := fun r => exists fs', fields (snd r) fs' /\ (left_to_read (snd r) fs' < 4 + 3 * length s)%nat /\ recs (snd r)).
  - unfold readLine. cbn [g_is mkis is_rest]. destruct (getline_ends s false ltac:(auto) (conj Hc Hn)) as [(E & _)|(x & r' & e' & E & He' & Hr' & Hx & Hlen)]; [subst; discriminate|].
    change (mk s false) with (mkis s) in E. rewrite E. cbn [obind].
    destruct (split_pieces x 32 (proj2 Hx) ltac:(lia)) as (p & P & Ep & Gp & _). rewrite Ep. cbn [obind].
    set (g := set_is _ _ _). eapply ends_bind; [apply (shift_fields g (p :: P))|].
    + split; [reflexivity|]. split; [apply (okw_glue 32); rewrite Gp; exact Hx|]. exists r', e'. auto.
    + intros (y & g') (w & fs' & Ew & Ey & _ & F & Ei & S). cbn [fst snd] in *. subst y. injection Ew as <- <-.
      eapply ends_bind; [apply cast_int_ends|]. intros z _. cbn [ends]. exists P. cbn [snd]. split; auto. split.
      * unfold left_to_read. rewrite Ei. subst g. cbn [set_is g_is mk is_rest]. pose proof (glue_length 32 p P) as X. rewrite Gp in X. lia.
      * eapply same_recs; [exact S|]. subst g. unfold recs, records. cbn [set_is g_inds g_fams g_imap g_fmap].
        split; [constructor|]. split; [constructor|]. split; left; reflexivity.
  - intros (l & g) (fs & F & L & R). cbn [snd] in *. eapply ends_bind; [apply (doFile_ends _ l l g fs); auto|].
    intros g' (P & Q & _). cbn [ends]. exists (g_fams g'), (g_inds g'). split; [|auto]. unfold g_value, file_of_records. destruct (g_fams g'), (g_inds g'); reflexivity.
Qed.
