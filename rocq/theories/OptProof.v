(** Proofs about getopt and the loop over its results. *)
From Coq Require Import ZArith Bool List Lia ZifyBool String Floats.SpecFloat.
From Verif Require Import Base ValModel ValSpec ValProof StrModel StrSpec StrProof JsonModel IniModel MapProof IniProof OptModel OptSpec.
Import ListNotations.
Local Notation length := List.length.
Local Open Scope list_scope.
Local Open Scope Z_scope.

Lemma spelled_eq : forall c t v, spelled (c, t, v) = [c] ++ (if vdefined v then [58] else []).
Proof. intros c t []; reflexivity. Qed.
(** * Option strings *)
Definition string_of (ds : list decl) : str := List.concat (map spelled ds).
Lemma kind_pass : forall d ds c, decl_char d <> c -> c <> 58 -> kind_of (string_of (d :: ds)) c = kind_of (string_of ds) c.
Proof.
  intros [[x t] v] ds c Hd Hc. cbn [decl_char fst] in Hd. unfold string_of. cbn [map List.concat]. rewrite spelled_eq. destruct (vdefined v); cbn [app kind_of].
  - replace (x =? c) with false by lia. replace (58 =? c) with false by lia. reflexivity.
  - replace (x =? c) with false by lia. reflexivity.
Qed.
Lemma string_head : forall ds, proper ds -> match string_of ds with 58 :: _ => False | _ => True end.
Proof.
  intros [|[[x t] v] ds] [_ F]; [exact Logic.I|]. inversion F as [|? ? [_ Hx] _]; subst. cbn [decl_char fst] in Hx.
  unfold string_of. cbn [map List.concat]. rewrite spelled_eq. cbn [app]. 
  assert (x <> 58) by (intros ->; apply Hx; left; auto). destruct x as [|p|p]; auto.
  repeat (destruct p as [p|p|]; auto; try (exfalso; congruence)).
Qed.
Lemma kind_here : forall c t v ds, proper ((c, t, v) :: ds) -> kind_of (string_of ((c, t, v) :: ds)) c = if vdefined v then KArg else KFlag.
Proof.
  intros c t v ds [N F]. inversion N; inversion F; subst. assert (P : proper ds) by (split; auto). apply string_head in P.
  unfold string_of in *. cbn [map List.concat]. rewrite spelled_eq. destruct (vdefined v); cbn [app kind_of]; rewrite Z.eqb_refl; auto.
  destruct (List.concat (map spelled ds)) as [|y s]; auto. destruct y as [|p|p]; auto. repeat (destruct p as [p|p|]; auto; try contradiction).
Qed.
Lemma proper_tl : forall d ds, proper (d :: ds) -> proper ds.
Proof. intros d ds [N F]. inversion N; inversion F; subst. split; auto. Qed.
Lemma kind_declared : forall ds c t v, proper ds -> In (c, t, v) ds -> opt_kind (string_of ds) c = if vdefined v then KArg else KFlag.
Proof.
  intros ds c t v P Hin. assert (Hc : option_char c) by (destruct P as [_ F]; rewrite Forall_forall in F; apply (F _ Hin)).
  destruct Hc as [_ Hc]. assert (c <> 58 /\ c <> 59) as [C1 C2] by (split; intros ->; apply Hc; simpl; auto).
  unfold opt_kind. replace ((c =? 58) || (c =? 59)) with false by lia.
  revert P Hin. induction ds as [|d ds IH]; intros P Hin; [destruct Hin|]. destruct Hin as [->|Hin]; [apply kind_here; auto|].
  rewrite kind_pass; auto; [apply IH; auto; eapply proper_tl; eauto|].
  destruct P as [N _]. inversion N as [|? ? N1 _]; subst. intros E. apply N1. rewrite E. apply (in_map decl_char _ _ Hin).
Qed.
Lemma kind_undeclared : forall ds c, proper ds -> ~ In c (map decl_char ds) -> opt_kind (string_of ds) c = KBad.
Proof.
  intros ds c P Hn. unfold opt_kind. destruct ((c =? 58) || (c =? 59)) eqn:E; auto. clear P.
  induction ds as [|d ds IH]; auto. rewrite kind_pass; [apply IH; intros X; apply Hn; right; auto|intros X; apply Hn; left; auto|lia].
Qed.
Lemma kind_flag : forall ds c, proper ds -> is_flag ds c -> opt_kind (string_of ds) c = KFlag.
Proof. intros ds c P (t & H). rewrite (kind_declared ds c t VNil P H). reflexivity. Qed.
Lemma kind_takes : forall ds c, proper ds -> takes ds c -> opt_kind (string_of ds) c = KArg.
Proof. intros ds c P (t & v & H & Hv). rewrite (kind_declared ds c t v P H). destruct v; auto; congruence. Qed.

(** * getopt *)
Section Line.
Variable ds : list decl.
Hypothesis P : proper ds.
Notation os := (string_of ds).
Definition flagged (fs : str) : list event := map (fun f => (f, None)) fs.
Lemma cluster_flags : forall fs cs next, Forall (is_flag ds) fs ->
  cluster os (fs ++ cs) next = (flagged fs ++ fst (cluster os cs next), snd (cluster os cs next)).
Proof.
  induction fs as [|f fs IH]; intros cs next F; [simpl; destruct (cluster os cs next); auto|]. inversion F; subst.
  cbn [app cluster]. rewrite kind_flag by auto. rewrite IH by auto. reflexivity.
Qed.
Lemma takes_char : forall c, takes ds c -> option_char c.
Proof. intros c (t & v & H & _). destruct P as [_ F]. rewrite Forall_forall in F. apply (F _ H). Qed.
Lemma flag_char : forall c, is_flag ds c -> option_char c.
Proof. intros c (t & H). destruct P as [_ F]. rewrite Forall_forall in F. apply (F _ H). Qed.
Lemma char_no_dash : forall c, option_char c -> c <> 45.
Proof. intros c [_ H] ->. apply H. simpl. auto. Qed.
Lemma getopt_group : forall cs rest, cs <> [] -> cs <> [45] ->
  getopt os ((45 :: cs) :: rest) = let (e, used) := cluster os cs (hd_error rest) in
    match rest with _ :: rest' => let (e', left) := getopt os (if used then rest' else rest) in (e ++ e', left) | [] => (e, []) end.
Proof.
  intros cs rest H1 H2. destruct cs as [|c cs]; [congruence|]. cbn [getopt].
  destruct c as [|p|p]; auto. repeat (destruct p as [p|p|]; auto). destruct cs; [congruence|auto].
Qed.
Lemma getopt_plain : forall w rest, w = [45] \/ hd 0 w <> 45 -> getopt os (w :: rest) = let (e, left) := getopt os rest in (e, w :: left).
Proof.
  intros w rest H. destruct w as [|c cs]; auto. cbn [getopt]. destruct cs as [|c2 cs].
  - destruct c as [|p|p]; auto. repeat (destruct p as [p|p|]; auto).
  - destruct H as [H|H]; [discriminate|]. cbn [hd] in H. destruct c as [|p|p]; auto. repeat (destruct p as [p|p|]; auto); congruence.
Qed.
Lemma getopt_items : forall l rest, Forall (ok_item ds) l ->
  getopt os (line l ++ rest) = (uses l ++ fst (getopt os rest), plains l ++ snd (getopt os rest)).
Proof.
  induction l as [|i l IH]; intros rest F; [cbn; destruct (getopt os rest); auto|]. inversion F as [|? ? Hi F']; subst. specialize (IH rest F').
  unfold line, uses, plains in *. cbn [map List.concat]. rewrite <- !app_assoc.
  destruct i as [fs [[[c j] w]|]|w]; cbn [render uses_of plain_of ok_item] in *.
  - destruct Hi as (H1 & H2 & H3). pose proof (char_no_dash c (takes_char c H2)) as Dc. destruct j.
    + specialize (H3 eq_refl). cbn [app]. rewrite getopt_group; [|destruct fs; discriminate|destruct fs as [|f [|]]; cbn; try discriminate; congruence].
      rewrite cluster_flags by auto. cbn [cluster]. rewrite kind_takes by auto. destruct w as [|x w]; [congruence|]. cbn [fst snd].
      destruct (List.concat (map render l) ++ rest) as [|y r] eqn:E; [|rewrite IH; unfold flagged; rewrite <- !app_assoc; reflexivity].
      apply app_eq_nil in E. destruct E as [_ ->]. cbn [getopt fst snd] in *. injection IH as <- <-. rewrite !app_nil_r. unfold flagged. reflexivity.
    + cbn [app]. rewrite getopt_group; [|destruct fs; discriminate|destruct fs as [|f [|]]; cbn; try discriminate; congruence].
      rewrite cluster_flags by auto. cbn [cluster hd_error]. rewrite kind_takes by auto. cbn [fst snd].
      rewrite IH. unfold flagged. rewrite <- !app_assoc. reflexivity.
  - destruct Hi as (H1 & H2). cbn [app]. rewrite getopt_group; auto.
    + rewrite <- (app_nil_r fs) at 1. rewrite cluster_flags by auto. cbn [cluster fst snd]. rewrite app_nil_r.
      destruct (List.concat (map render l) ++ rest) as [|y r] eqn:E; [|rewrite IH; unfold flagged; rewrite <- ?app_assoc; reflexivity].
      apply app_eq_nil in E. destruct E as [_ ->]. cbn [getopt fst snd] in *. injection IH as <- <-. rewrite !app_nil_r. unfold flagged. reflexivity.
    + intros ->. inversion H2; subst. apply (char_no_dash 45); auto. apply flag_char; auto.
  - cbn [app]. rewrite getopt_plain by auto. rewrite IH. reflexivity.
Qed.
Lemma getopt_ending : forall tail rest, ending tail rest -> getopt os tail = ([], rest).
Proof. intros tail rest [[-> ->]| ->]; reflexivity. Qed.
Lemma getopt_mistake : forall fs words, mistake ds fs words -> exists e, fst (getopt os words) = flagged fs ++ (63, None) :: e.
Proof.
  intros fs words H. destruct H as [fs b more words F Hb Hm|fs c F Hc].
  - rewrite getopt_group; [|destruct fs; discriminate|].
    + rewrite cluster_flags by auto. cbn [cluster]. rewrite kind_undeclared by auto. destruct (cluster os more (hd_error words)) as [e u]. cbn [fst snd].
      destruct words as [|w ws]; cbn [fst]; [exists e; auto|]. destruct (getopt os (if u then ws else w :: ws)) as [e' lft]. exists (e ++ e').
      cbn [fst]. rewrite <- app_assoc. reflexivity.
    + destruct fs as [|f [|]]; cbn [app]; try discriminate. intros E. injection E as -> ->. apply Hm; auto.
  - pose proof (char_no_dash c (takes_char c Hc)) as Dc.
    rewrite getopt_group; [|destruct fs; discriminate|destruct fs as [|f [|]]; cbn; try discriminate; congruence].
    rewrite cluster_flags by auto. cbn [cluster hd_error]. rewrite kind_takes by auto. cbn [fst snd]. exists []. reflexivity.
Qed.
(** Every line is well formed or has a first mistake. *)
Lemma declared_dec : forall c, In c (map decl_char ds) \/ ~ In c (map decl_char ds).
Proof. intros c. destruct (in_dec Z.eq_dec c (map decl_char ds)); auto. Qed.
Lemma declared_cases : forall c, In c (map decl_char ds) -> is_flag ds c \/ takes ds c.
Proof.
  intros c H. apply in_map_iff in H. destruct H as ([[x t] v] & <- & H). cbn [decl_char fst]. destruct v; [left; exists t; auto|..]; right; exists t; eexists; (split; [exact H|discriminate]).
Qed.
(** The characters of a word. *)
Lemma chars_cases : forall cs, exists fs, Forall (is_flag ds) fs /\
  (cs = fs \/ (exists c w, cs = fs ++ c :: w /\ takes ds c) \/ (exists b w, cs = fs ++ b :: w /\ ~ In b (map decl_char ds))).
Proof.
  induction cs as [|c cs (fs & F & H)]; [exists []; auto|]. destruct (declared_dec c) as [D|D].
  - destruct (declared_cases c D) as [G|G].
    + exists (c :: fs). split; [auto|]. destruct H as [->|[(x & w & -> & T)|(b & w & -> & N)]]; [auto|right; left; exists x, w; auto|right; right; exists b, w; auto].
    + exists []. split; auto. right. left. exists c, cs. auto.
  - exists []. split; auto. right. right. exists c, cs. auto.
Qed.
Lemma line_cases : forall n words, (length words <= n)%nat -> exists l, Forall (ok_item ds) l /\
  ((exists tail rest, ending tail rest /\ words = line l ++ tail) \/ (exists fs bad, mistake ds fs bad /\ words = line l ++ bad)).
Proof.
  induction n; intros words Hn.
  { destruct words; [|cbn [length] in Hn; lia]. exists []. split; auto. left. exists [], []. split; [left|]; auto. }
  destruct words as [|w words]. { exists []. split; auto. left. exists [], []. split; [left|]; auto. }
  cbn [length] in Hn.
  assert (K : forall i more, Forall (ok_item ds) [i] -> w :: words = render i ++ more -> (length more <= n)%nat -> exists l, Forall (ok_item ds) l /\
    ((exists tail rest, ending tail rest /\ w :: words = line l ++ tail) \/ (exists fs bad, mistake ds fs bad /\ w :: words = line l ++ bad))).
  { intros i more Hi E Hm. destruct (IHn more Hm) as (l & F & H). exists (i :: l). split; [inversion Hi; auto|]. rewrite E.
    unfold line in *. cbn [map List.concat]. destruct H as [(tail & rest & E1 & ->)|(fs & bad & E1 & ->)]; [left; exists tail, rest|right; exists fs, bad]; rewrite <- app_assoc; auto. }
  destruct w as [|c cs]; [apply (K (Plain []) words); auto; [|lia]; constructor; auto; right; cbn; lia|].
  destruct (Z.eq_dec c 45) as [->|Hc]; [|apply (K (Plain (c :: cs)) words); auto; [|lia]; constructor; auto; right; auto].
  destruct cs as [|c cs]; [apply (K (Plain [45]) words); auto; [|lia]; constructor; auto; left; auto|].
  destruct (list_eq_dec Z.eq_dec (c :: cs) [45]) as [E|E].
  { rewrite E. exists []. split; auto. left. exists ([45; 45] :: words), words. split; [right|]; auto. }
  destruct (chars_cases (c :: cs)) as (fs & F & [H|[(x & w & H & T)|(b & w & H & N)]]).
  - apply (K (Group fs None) words); [|rewrite H; auto|lia]. constructor; auto. split; auto. rewrite <- H. discriminate.
  - rewrite H in *. destruct w as [|y w].
    + destruct words as [|w words].
      * exists []. split; auto. right. exists fs, [45 :: fs ++ [x]]. split; [apply missing; auto|auto].
      * apply (K (Group fs (Some (x, false, w))) words); [|auto|cbn [length] in Hn; lia]. constructor; auto. split; auto. split; auto. discriminate.
    + apply (K (Group fs (Some (x, true, y :: w))) words); [|auto|lia]. constructor; auto. split; auto. split; auto. discriminate.
  - rewrite H in *. exists []. split; auto. right. exists fs, ((45 :: fs ++ b :: w) :: words). split; [|auto]. apply undeclared; auto. intros -> -> ->. apply E. reflexivity.
Qed.
End Line.

(** * The loop *)
Definition holds (l : list (val * val)) (cur : Z -> option val) : Prop :=
  map_ok l /\ (forall c, lookup l (VChar c) = cur c) /\ (forall p, In p l -> exists c, fst p = VChar c).
Lemma same_char : forall a b, same_code (VChar a) (VChar b) = (a =? b).
Proof.
  intros a b. destruct (a =? b) eqn:E; [apply same_code_true; unfold code; cbn; f_equal; f_equal; lia|].
  apply same_code_false. unfold code. cbn. intros X. injection X as X. lia.
Qed.
Lemma holds_put : forall l cur c v, holds l cur -> exists l', map_put (VNil, VNil) l (VChar c) v = Ok l' /\ holds l' (fun x => if c =? x then Some v else cur x).
Proof.
  intros l cur c v (H1 & H2 & H3). destruct (map_put_lookup (VNil, VNil) l (VChar c) v H1 (key_char c)) as (l' & E & M & _ & I & L).
  exists l'. split; auto. split; auto. split; [intros x; rewrite L, same_char, H2; auto|].
  intros p Hp. destruct (I p Hp) as [X|(_ & [X|X])]; [auto|eauto|]. apply in_map_iff in X. destruct X as (q & <- & Hq). auto.
Qed.
Lemma holds_get : forall l cur c v, holds l cur -> cur c = Some v -> subscript (VMap l) (VChar c) = Ok (VMap l, v).
Proof.
  intros l cur c v (H1 & H2 & H3) Hc. unfold subscript. rewrite <- H2 in Hc.
  destruct (map_index_cases (VNil, VNil) l (VChar c) H1 (key_char c)) as [(l1 & kk & vv & l2 & E & Hk & ->)|(l1 & l2 & E & A & B & _)].
  - cbn [obind]. rewrite E, nth_error_mid. subst l. rewrite lookup_mid in Hc by auto.
    replace (same_code kk (VChar c)) with true in Hc by (symmetry; apply same_code_true; auto). congruence.
  - exfalso. rewrite lookup_none in Hc; [discriminate|]. intros p Hp X. subst l. apply in_app_iff in Hp. rewrite Forall_forall in A, B.
    destruct Hp as [Hp|Hp]; [specialize (A p Hp)|specialize (B p Hp)]; cbv beta in *; rewrite X, lex_refl in *; discriminate.
Qed.
Definition okuse (cur : Z -> option val) (u : Z * option str) : Prop :=
  match u with (c, None) => cur c = Some VNil /\ c <> 63 | (c, Some _) => (exists v, cur c = Some v /\ v <> VNil) /\ c <> 63 end.
Lemma veq_char : forall a b, veq (VChar a) (VChar b) = Ok (a =? b).
Proof. intros a b. unfold veq. cbn. rewrite negb_involutive. reflexivity. Qed.
Lemma loop_ok : forall us l cur more, holds l cur -> Forall (okuse cur) us -> NoDup (flags_in us) ->
  exists l', parse_loop (VMap l) (us ++ more) = parse_loop (VMap l') more /\ holds l' (fun c => option_map (value us c) (cur c)).
Proof.
  induction us as [|[c a] us IH]; intros l cur more H F N.
  { exists l. split; auto. destruct H as (H1 & H2 & H3). split; auto. split; auto. intros c. rewrite H2. destruct (cur c); auto. }
  inversion F as [|? ? Hu F']; subst. cbn [app parse_loop]. rewrite veq_char.
  assert (exists v x, cur c = Some v /\ (if vdefined v then opt_arg a else Ok (VInt 1)) = Ok x /\ x = match a with Some w => vstr w | None => VInt 1 end /\ c <> 63) as (v & x & Hc & Hx & Ex & Hq).
  { destruct a as [w|]; cbn [okuse] in Hu.
    - destruct Hu as ((v & Hv & Hn) & Hq). exists v, (vstr w). split; auto. split; auto. destruct v; auto; congruence.
    - destruct Hu as (Hv & Hq). exists VNil, (VInt 1). auto. }
  replace (c =? 63) with false by lia. cbn [obind]. rewrite (holds_get l cur c v H Hc). cbn [obind]. rewrite Hx. cbn [obind assign].
  destruct (holds_put l cur c x H) as (l' & E & H'). rewrite E. cbn [obind].
  destruct (IH l' (fun y => if c =? y then Some x else cur y) more H') as (l2 & E2 & H2).
  - rewrite Forall_forall in *. intros [c2 a2] Hin. specialize (F' _ Hin). cbn [okuse] in *. destruct a2 as [w2|].
    + destruct F' as ((v2 & Hv2 & Hn2) & Hq2). split; auto. destruct (c =? c2) eqn:E12; [|eauto]. exists x. split; auto. rewrite Ex. destruct a; discriminate.
    + destruct F' as (Hv2 & Hq2). split; auto. destruct (c =? c2) eqn:E12; auto. assert (c = c2) by lia. subst c2. exfalso. destruct a as [w|].
      * destruct Hu as ((v3 & Hv3 & Hn3) & _). congruence.
      * cbn [flags_in] in N. inversion N as [|? ? N1 _]; subst. apply N1. clear - Hin. induction us as [|[x y] us IH]; [destruct Hin|].
        destruct Hin as [E|Hin]; [injection E as -> ->; left; auto|]. cbn [flags_in]. destruct y; [auto|right; auto].
  - cbn [flags_in] in N. destruct a; [auto|inversion N; auto].
  - exists l2. split; auto. destruct H2 as (A & B & C). split; auto. split; auto. intros y. rewrite B. cbn [value].
    destruct (c =? y) eqn:Ecy; [|destruct (cur y); auto]. assert (y = c) by lia. subst y. rewrite Hc. cbn [option_map]. rewrite Ex. destruct a; reflexivity.
Qed.
Lemma value_defined : forall us c v, (v <> VNil \/ In c (flags_in us)) -> value us c v <> VNil.
Proof.
  induction us as [|[x a] us IH]; intros c v H; cbn [value]; [destruct H as [H|[]]; auto|].
  apply IH. destruct (x =? c) eqn:E; [left; destruct a; discriminate|]. destruct H as [H|H]; auto. right. cbn [flags_in] in H. destruct a; auto. destruct H as [H|H]; [lia|auto].
Qed.
Lemma first_repeat : forall us, NoDup (flags_in us) \/ exists pre c post, us = pre ++ (c, None) :: post /\ NoDup (flags_in pre) /\ In c (flags_in pre).
Proof.
  assert (A : forall a b, flags_in (a ++ b) = flags_in a ++ flags_in b).
  { induction a as [|[x y] a IHa]; intros b; auto. cbn [app flags_in]. destruct y; rewrite IHa; auto. }
  intros us. induction us as [|[x a] us IH] using rev_ind; [left; constructor|].
  destruct IH as [N|(pre & c & post & -> & N & I)].
  - destruct a as [w|]; [left; rewrite A; cbn [flags_in]; rewrite app_nil_r; auto|].
    destruct (in_dec Z.eq_dec x (flags_in us)) as [D|D]; [right; exists us, x, []; auto|]. left. rewrite A. cbn [flags_in].
    apply NoDup_rev in N. rewrite <- (rev_involutive (flags_in us ++ [x])). apply NoDup_rev. rewrite rev_app_distr. cbn. constructor; auto. rewrite <- in_rev. auto.
  - right. exists pre, c, (post ++ [(x, a)]). rewrite <- app_assoc. auto.
Qed.
Lemma loop_repeat : forall us l cur more, holds l cur -> Forall (okuse cur) us -> ~ NoDup (flags_in us) ->
  parse_loop (VMap l) (us ++ more) = Throw "at argument ... optarg is null".
Proof.
  intros us l cur more H F N. destruct (first_repeat us) as [X|(pre & c & post & -> & Np & I)]; [contradiction|].
  apply Forall_app in F. destruct F as [F1 F2]. inversion F2 as [|? ? Hu _]; subst. destruct Hu as [Hc Hq]. rewrite <- app_assoc. cbn [app].
  destruct (loop_ok pre l cur ((c, None) :: post ++ more) H F1 Np) as (l' & -> & H'). cbn [parse_loop]. rewrite veq_char. replace (c =? 63) with false by lia. cbn [obind].
  rewrite (holds_get l' _ c (value pre c VNil) H') by (rewrite Hc; reflexivity). cbn [obind].
  pose proof (value_defined pre c VNil (or_intror I)) as D. destruct (value pre c VNil); try congruence; reflexivity.
Qed.

(** * Declarations *)
Fixpoint declares (fmtf : spec_float -> str) (o : option_state) (ds : list decl) : outcome option_state :=
  match ds with [] => Ok o | (c, t, v) :: ds => let* o := declare fmtf o c t v in declares fmtf o ds end.
Fixpoint decl_value (ds : list decl) (c : Z) : option val :=
  match ds with [] => None | (x, _, v) :: t => if x =? c then Some v else decl_value t c end.
Lemma decl_value_none : forall ds c, ~ In c (map decl_char ds) -> decl_value ds c = None.
Proof. induction ds as [|[[x t] v] ds IH]; intros c H; auto. cbn [decl_value]. cbn [map decl_char fst In] in H. replace (x =? c) with false by (symmetry; apply Z.eqb_neq; tauto). auto. Qed.
Lemma decl_value_in : forall ds c t v, NoDup (map decl_char ds) -> In (c, t, v) ds -> decl_value ds c = Some v.
Proof.
  induction ds as [|[[x t'] v'] ds IH]; intros c t v N H; [destruct H|]. inversion N as [|? ? N1 N2]; subst. cbn [decl_value]. destruct H as [H|H].
  - injection H as -> -> ->. rewrite Z.eqb_refl. auto.
  - assert (x <> c) by (intros ->; apply N1; exact (in_map decl_char _ _ H)). replace (x =? c) with false by lia. eauto.
Qed.
Lemma decl_value_some : forall ds c v, decl_value ds c = Some v -> In c (map decl_char ds).
Proof. induction ds as [|[[x t] v'] ds IH]; intros c v H; [discriminate|]. cbn [decl_value] in H. destruct (x =? c) eqn:E; [left; cbn; lia|right; eauto]. Qed.
Lemma help_line_eq : forall fmtf c t v, nul_free t -> help_line fmtf (c, t, v) =
  txt " -" ++ [c] ++ txt " " ++ c_str t ++ (if vdefined v then txt " [" ++ format fmtf v 0 ++ txt "]" else []).
Proof. intros fmtf c t v H. rewrite c_str_id by auto. destruct v; cbn [help_line vdefined]; rewrite ?app_nil_r; reflexivity. Qed.
Lemma declares_ok : forall fmtf ds o cur, NoDup (map decl_char ds) -> (o_opts o = VNil \/ exists l, o_opts o = VMap l) ->
  holds (outer (o_opts o)) cur ->
  exists o', declares fmtf o ds = Ok o' /\ o_name o' = o_name o /\ o_string o' = o_string o ++ string_of ds /\ (Forall (fun d => nul_free (snd (fst d))) ds -> o_usage o' = o_usage o ++ map (help_line fmtf) ds) /\
    (ds <> [] -> exists l, o_opts o' = VMap l) /\ holds (outer (o_opts o')) (fun c => match decl_value ds c with Some v => Some v | None => cur c end).
Proof.
  induction ds as [|[[c t] v] ds IH]; intros o cur N O H.
  { exists o. cbn. rewrite !app_nil_r. split; auto. split; auto. split; auto. split; auto. split; [congruence|auto]. }
  inversion N as [|? ? N1 N2]; subst.
  destruct (holds_put (outer (o_opts o)) cur c v H) as (l' & E & H').
  cbn [declares]. unfold declare.
  assert (X : assign (VNil, VNil) (o_opts o) (VChar c) v = Ok (VMap l')) by (destruct O as [O|(l & O)]; rewrite O in *; cbn [assign outer] in *; rewrite E; reflexivity).
  rewrite X. cbn [obind].
  match goal with |- context [declares fmtf ?o1 ds] => destruct (IH o1 (fun x => if c =? x then Some v else cur x) N2 (or_intror (ex_intro _ l' eq_refl)) H') as (o' & A & B1 & B2 & B3 & B4 & B5) end.
  exists o'. split; [exact A|]. split; [auto|]. cbn [o_string o_usage o_name o_opts] in *.
  split; [rewrite B2; unfold string_of; cbn [map List.concat]; rewrite spelled_eq, <- !app_assoc; reflexivity|].
  split; [intros F; inversion F as [|? ? F1 F2]; subst; rewrite B3, <- app_assoc by auto; cbn [map]; rewrite help_line_eq by auto; reflexivity|].
  split.
  - intros _. destruct ds as [|d ds]; [|apply B4; discriminate]. cbn [declares] in A. injection A as <-. exists l'. reflexivity.
  - destruct B5 as (C1 & C2 & C3). split; auto. split; auto. intros x. rewrite C2. cbn [decl_value]. destruct (decl_value ds x) eqn:D; [|destruct (c =? x); auto].
    assert (c <> x) by (intros ->; apply N1; eapply decl_value_some; eauto). replace (c =? x) with false by lia. auto.
Qed.
Lemma uses_ok : forall ds l, proper ds -> Forall (ok_item ds) l -> Forall (okuse (decl_value ds)) (uses l).
Proof.
  intros ds l P F. assert (A : forall c, is_flag ds c -> okuse (decl_value ds) (c, None)).
  { intros c (t & H). cbn [okuse]. split; [eapply decl_value_in; [apply P|eauto]|]. destruct P as [_ P2]. rewrite Forall_forall in P2. destruct (P2 _ H) as [_ X]. intros ->. apply X. simpl. auto. }
  assert (B : forall c w, takes ds c -> okuse (decl_value ds) (c, Some w)).
  { intros c w (t & v & H & Hv). cbn [okuse]. split; [exists v; split; auto; eapply decl_value_in; [apply P|eauto]|]. destruct P as [_ P2]. rewrite Forall_forall in P2. destruct (P2 _ H) as [_ X]. intros ->. apply X. simpl. auto. }
  induction F as [|i l Hi F IH]; [constructor|]. unfold uses. cbn [map List.concat]. apply Forall_app. split; [|exact IH].
  destruct i as [fs [[[c j] w]|]|w]; cbn [uses_of ok_item] in *; [destruct Hi as (Hf & Ht & _); apply Forall_app; split; [|constructor; auto]|destruct Hi as (_ & Hf)|constructor];
    apply Forall_map; eapply Forall_impl; try exact Hf; auto.
Qed.
