(** What the JSON reader makes of the writer's output. *)
From Coq Require Import ZArith Bool List Lia ZifyBool String Sorting.
From Coq.Floats Require Import SpecFloat.
From Verif Require Import Base StrModel StrSpec StrProof ValModel ValSpec ValProof MapProof EqProof
  NumModel JsonModel JsonSpec JsonProof.
Import ListNotations.
Local Notation length := List.length.
Local Open Scope list_scope.
Local Open Scope Z_scope.

(** * Fuel *)
Lemma parser_mono : forall f,
  (forall s f', (f <= f')%nat -> doValue f s <> Fuel -> doValue f' s = doValue f s) /\
  (forall o k s f', (f <= f')%nat -> object_loop f o k s <> Fuel -> object_loop f' o k s = object_loop f o k s) /\
  (forall a s f', (f <= f')%nat -> array_loop f a s <> Fuel -> array_loop f' a s = array_loop f a s).
Proof.
  induction f as [|f (IV & IO & IA)].
  { repeat split; intros; exfalso; apply H0; reflexivity. }
  repeat split.
  - intros s f' Hf H. destruct f' as [|f']; [lia|]. cbn [doValue] in *.
    destruct (jpeek s) as [[c s1]| | |]; cbn [obind] in *; auto.
    destruct (c =? 123).
    { destruct (s_get s1) as [o s2]. destruct (negb _); auto. apply IO; auto. lia. }
    destruct (c =? 91).
    { destruct (s_get s1) as [o s2]. destruct (negb _); auto. apply IA; auto. lia. }
    auto.
  - intros o k s f' Hf H. destruct f' as [|f']; [lia|]. cbn [object_loop] in *.
    destruct (js_fail s); auto. destruct (jpeek s) as [[c s1]| | |]; cbn [obind] in *; auto.
    destruct (c =? 125); auto. destruct (c =? 34).
    { destruct (doString s1) as [[? ?]| | |]; cbn [obind] in *; auto. apply IO; auto; lia. }
    destruct (c =? 58).
    { assert (Hv : doValue f (snd (s_get s1)) <> Fuel) by (intros E; rewrite E in H; apply H; reflexivity).
      rewrite (IV _ f') by (auto; lia).
      destruct (doValue f (snd (s_get s1))) as [[? ?]| | |]; cbn [obind] in *; auto.
      destruct (assign _ _ _ _); cbn [obind] in *; auto. apply IO; auto; lia. }
    destruct (c =? 44); auto. apply IO; auto; lia.
  - intros a s f' Hf H. destruct f' as [|f']; [lia|]. cbn [array_loop] in *.
    destruct (js_fail s); auto. destruct (jpeek s) as [[c s1]| | |]; cbn [obind] in *; auto.
    destruct (c =? 93); auto. destruct (c =? 44); [apply IA; auto; lia|].
    assert (Hv : doValue f s1 <> Fuel) by (intros E; rewrite E in H; apply H; reflexivity).
    rewrite (IV _ f') by (auto; lia).
    destruct (doValue f s1) as [[? ?]| | |]; cbn [obind] in *; auto.
    destruct (push _ _); cbn [obind] in *; auto. apply IA; auto; lia.
Qed.

(** A result reached with some fuel is the result of [read_var]. *)
Lemma read_var_from : forall s f o, doValue f s = o -> o <> Fuel -> read_var s = o.
Proof.
  intros s f o H Hn. unfold read_var. set (F := (2 * length (js_rest s) + 4)%nat).
  assert (HF : doValue F s <> Fuel).
  { destruct (parser_tame F) as (T & _). specialize (T s ltac:(unfold L, F; lia)).
    intros E. rewrite E in T. exact T. }
  destruct (Nat.le_ge_cases f F).
  - rewrite <- H. apply parser_mono; auto. congruence.
  - rewrite <- H. symmetry. apply parser_mono; auto.
Qed.

(** * Streams of known content *)
Section Stream.
Variable ff : bool.
Definition mk (r : str) : jstream := {| js_rest := r; js_eof := false; js_fail := false; js_ff := ff |}.
Definition ended : jstream := {| js_rest := []; js_eof := true; js_fail := true; js_ff := ff |}.

Lemma get_mk : forall c r, ff && (c =? -1) = false -> s_get (mk (c :: r)) = (Some c, mk r).
Proof. intros. apply s_get_good; auto. Qed.

Lemma peek_mk : forall c r, ff && (c =? -1) = false -> s_peek (mk (c :: r)) = (c, mk (c :: r)).
Proof. intros c r H. unfold s_peek, mk, js_good. simpl. rewrite H. reflexivity. Qed.

Lemma isspace_white : forall c, isspace c = true <-> white c.
Proof. intros. unfold isspace, white. simpl. lia. Qed.

Lemma jpeek_mk : forall w c r, all_white w -> isspace c = false -> ff && (c =? -1) = false ->
  jpeek (mk (w ++ c :: r)) = Ok (c, mk (c :: r)).
Proof.
  intros w c r Hw Hc Hf. unfold jpeek. simpl js_rest.
  assert (G : forall w, all_white w -> forall n, (length w < n)%nat ->
    j_peek n (mk (w ++ c :: r)) = Ok (c, mk (c :: r))).
  { clear Hw w. induction w as [|d w]; intros Hw n Hn; (destruct n; [simpl in Hn; lia|]); cbn [j_peek app].
    - rewrite peek_mk by auto. rewrite Hc. reflexivity.
    - assert (Hd : isspace d = true) by (apply isspace_white, Hw; left; auto).
      assert (Hd' : ff && (d =? -1) = false) by (unfold isspace in Hd; lia).
      rewrite peek_mk by auto. rewrite Hd. rewrite get_mk by auto.
      cbn [snd]. apply IHw; [intros x Hx; apply Hw; right; auto|simpl in Hn; lia]. }
  apply G; auto. rewrite app_length. simpl. lia.
Qed.

Lemma string_loop_mk : forall s acc rest n, plain_text ff s -> (length s < n)%nat ->
  string_loop n acc (mk (s ++ 34 :: rest)) = Ok (acc ++ s, mk rest).
Proof.
  induction s as [|c s]; intros acc rest n Hs Hn; (destruct n; [simpl in Hn; lia|]); cbn [string_loop app].
  - rewrite get_mk by (destruct ff; reflexivity). change (34 =? 34) with true. cbv iota. rewrite app_nil_r. reflexivity.
  - destruct (Hs c ltac:(left; auto)) as (_ & _ & H1 & H2 & H3).
    rewrite get_mk by (destruct ff; auto; simpl; specialize (H3 eq_refl); lia).
    replace (c =? 34) with false by lia. replace (c =? 92) with false by lia.
    rewrite IHs; [|intros x Hx; apply Hs; right; auto|simpl in Hn; lia]. rewrite <- app_assoc. reflexivity.
Qed.
Lemma doString_mk : forall s rest, plain_text ff s ->
  doString (mk (34 :: s ++ 34 :: rest)) = Ok (s, mk rest).
Proof.
  intros s rest Hs. unfold doString. rewrite get_mk by (destruct ff; reflexivity). cbn [char_or_eof].
  change (negb (34 =? 34)) with false. cbv iota. rewrite string_loop_mk; auto.
  simpl js_rest. rewrite app_length. simpl. lia.
Qed.

(** Raw values end at white space, a delimiter or the end of the stream, and take that
    character along. *)
Definition stops (rest : str) : Prop := match rest with [] => True | d :: _ => isspace d = true \/ delim d = true end.
Definition after (rest : str) : jstream := match rest with [] => ended | _ :: t => mk t end.
Definition raw_char (c : Z) : Prop := isspace c = false /\ delim c = false /\ c <> -1.

Lemma raw_loop_mk : forall t acc rest n, Forall raw_char t -> stops rest -> (length t < n)%nat ->
  raw_loop n acc (mk (t ++ rest)) = Ok (acc ++ t, after rest).
Proof.
  induction t as [|c t]; intros acc rest n Ht Hr Hn; (destruct n; [simpl in Hn; lia|]); cbn [raw_loop app].
  - rewrite app_nil_r. destruct rest as [|d rest]; [reflexivity|]. simpl in Hr.
    rewrite get_mk by (destruct Hr as [Hr|Hr]; unfold isspace, delim in Hr; lia).
    destruct (isspace d); [reflexivity|]. destruct Hr as [Hr|Hr]; [discriminate|]. rewrite Hr. reflexivity.
  - inversion Ht; subst. destruct H1 as (H1 & H3 & H4).
    rewrite get_mk by lia. rewrite H1, H3. rewrite IHt; auto; [|simpl in Hn; lia]. rewrite <- app_assoc. reflexivity.
Qed.
Lemma doRaw_mk : forall t rest v, Forall raw_char t -> stops rest -> raw_value t = Ok v ->
  doRaw (mk (t ++ rest)) = Ok (v, after rest).
Proof.
  intros t rest v Ht Hr Hv. unfold doRaw. rewrite raw_loop_mk; auto.
  - cbn [obind app]. rewrite Hv. reflexivity.
  - simpl. rewrite app_length. lia.
Qed.

(** * Numbers *)
Lemma take_digits_app : forall d r, Forall digit d -> match r with [] => True | c :: _ => isdigit c = false end ->
  take_digits (d ++ r) = (d, r).
Proof.
  induction d as [|c d]; intros r Hd Hr; cbn [app].
  - destruct r as [|c r]; auto. cbn [take_digits]. rewrite Hr. reflexivity.
  - inversion Hd; subst. cbn [take_digits]. unfold digit in H1. replace (isdigit c) with true by (unfold isdigit; lia).
    rewrite IHd by auto. reflexivity.
Qed.
Lemma digits_value_number : forall d a, digits_value a d = a * 10 ^ Z.of_nat (length d) + number_of d.
Proof.
  induction d as [|c d]; intros a; cbn [digits_value number_of length].
  - change (10 ^ Z.of_nat 0) with 1. lia.
  - rewrite IHd. rewrite Nat2Z.inj_succ, Z.pow_succ_r by lia. ring.
Qed.

Lemma digits_not_true : forall t, match t with c :: _ => digit c \/ c = 45 | [] => False end ->
  raw_value t = if vdefined (toNumber t) then Ok (toNumber t) else Throw "Unrecognised JSON raw value: ".
Proof.
  intros t Ht. unfold raw_value. rewrite !str_eq_ok. cbn [obind].
  destruct t as [|c t]; [tauto|].
  destruct (list_eq_dec Z.eq_dec (c :: t) (txt "true")) as [E|]; [inversion E; subst; unfold digit in Ht; lia|].
  destruct (list_eq_dec Z.eq_dec (c :: t) (txt "false")) as [E|]; [inversion E; subst; unfold digit in Ht; lia|].
  destruct (list_eq_dec Z.eq_dec (c :: t) (txt "null")) as [E|]; [inversion E; subst; unfold digit in Ht; lia|].
  reflexivity.
Qed.

Lemma vs_text_id : forall s, ~ In (-1) s -> vs_text s = s.
Proof.
  induction s; intros H; simpl; auto. destruct (Z.eqb_spec a (-1)); [exfalso; apply H; left; auto|].
  rewrite IHs; auto. intros X. apply H. right; auto.
Qed.
Lemma vs_text_prefix : forall s t, ~ In (-1) s -> vs_text (s ++ t) = s ++ vs_text t.
Proof.
  induction s; intros t H; simpl; auto. destruct (Z.eqb_spec a (-1)); [exfalso; apply H; left; auto|].
  rewrite IHs; auto. intros X. apply H. right; auto.
Qed.
Lemma digits_no_eof : forall d, Forall digit d -> ~ In (-1) d.
Proof. intros d H X. rewrite Forall_forall in H. apply H in X. unfold digit in X. lia. Qed.

Lemma extract_long_digits : forall d r, Forall digit d -> d <> [] ->
  match r with [] => True | c :: _ => isdigit c = false end ->
  (number_of d <= LONG_MAX -> extract_long (d ++ r) = Some (number_of d)) /\
  (number_of d <= - LONG_MIN -> extract_long (45 :: d ++ r) = Some (- number_of d)).
Proof.
  intros d r Hd Hn Hr.
  assert (Hp : 0 <= number_of d).
  { clear Hn Hr. induction Hd; cbn [number_of]; [lia|]. unfold digit in H.
    assert (0 <= 10 ^ Z.of_nat (length l)) by (apply Z.pow_nonneg; lia). nia. }
  assert (Hr' : match vs_text r with [] => True | c :: _ => isdigit c = false end).
  { destruct r as [|c r]; simpl; auto. destruct (c =? -1); auto. }
  destruct d as [|c d]; [congruence|]. inversion Hd; subst. unfold digit in H1.
  split; intros H; unfold extract_long.
  - rewrite vs_text_prefix by (apply digits_no_eof; auto). cbn [app skip_space].
    replace (isspace c) with false by (unfold isspace; lia).
    cbn [take_sign]. replace (c =? 45) with false by lia. replace (c =? 43) with false by lia.
    change (c :: d ++ vs_text r) with ((c :: d) ++ vs_text r). rewrite take_digits_app by auto. cbn [fst].
    rewrite digits_value_number. replace (0 * _ + _) with (number_of (c :: d)) by ring.
    unfold in_long. replace (_ && _) with true; auto. unfold LONG_MIN in *. lia.
  - cbn [app vs_text]. change (45 =? -1) with false. cbv iota. cbn [skip_space]. change (isspace 45) with false. cbv iota.
    change (c :: d ++ r) with ((c :: d) ++ r). 
    assert (E : vs_text ((c :: d) ++ r) = (c :: d) ++ vs_text r) by (apply vs_text_prefix, digits_no_eof; auto).
    cbn [app vs_text] in E. rewrite E.
    cbn [take_sign]. change (45 =? 45) with true. cbv iota.
    change (c :: d ++ vs_text r) with ((c :: d) ++ vs_text r). rewrite take_digits_app by auto. cbn [fst].
    rewrite digits_value_number. replace (0 * _ + _) with (number_of (c :: d)) by ring.
    unfold in_long. replace (_ && _) with true; auto. unfold LONG_MIN, LONG_MAX in *. lia.
Qed.

(** The decimal writer. *)
Lemma number_of_app : forall a b, number_of (a ++ b) = number_of a * 10 ^ Z.of_nat (length b) + number_of b.
Proof.
  induction a; intros; cbn [app number_of]; [lia|]. rewrite IHa, app_length, Nat2Z.inj_add, Z.pow_add_r by lia. ring.
Qed.
Lemma udec_spec : forall f z acc, 0 <= z < 2 ^ Z.of_nat f -> (0 < f)%nat ->
  exists d, udec f z acc = d ++ acc /\ Forall digit d /\ d <> [] /\ number_of d = z /\ (hd 0 d = 48 -> d = [48]).
Proof.
  induction f; intros z acc Hz Hf; [lia|]. cbn [udec]. destruct (Z.ltb_spec z 10).
  - exists [48 + z]. repeat split; auto; try discriminate.
    + constructor; auto. unfold digit. lia.
    + cbn [number_of length]. change (10 ^ Z.of_nat 0) with 1. lia.
    + simpl. intros E. f_equal. lia.
  - assert (Hd : 0 < z / 10 < 2 ^ Z.of_nat f).
    { rewrite Nat2Z.inj_succ, Z.pow_succ_r in Hz by lia. split; [apply Z.div_str_pos; lia|].
      apply Z.div_lt_upper_bound; lia. }
    assert (0 < f)%nat by (destruct f; [change (2 ^ Z.of_nat 0) with 1 in Hd; lia|lia]).
    destruct (IHf (z / 10) ((48 + z mod 10) :: acc) ltac:(lia) H0) as (d & E & D & N & V & Hh).
    pose proof (Z.mod_pos_bound z 10 ltac:(lia)).
    exists (d ++ [48 + z mod 10]). rewrite E, <- app_assoc. split; auto. split.
    { apply Forall_app. split; auto. constructor; auto. unfold digit. lia. }
    split; [destruct d; discriminate|]. split.
    { rewrite number_of_app. cbn [number_of length]. rewrite V. change (10 ^ Z.of_nat 1) with 10.
      change (10 ^ Z.of_nat 0) with 1. pose proof (Z.div_mod z 10 ltac:(lia)). lia. }
    intros Hz0. destruct d as [|c d]; [congruence|]. simpl in Hz0. specialize (Hh Hz0). inversion Hh; subst.
    simpl in V. change (48 - 48) with 0 in V. lia.
Qed.
Lemma dec_spec : forall z, decimal_text z (dec z).
Proof.
  intros z. unfold dec, decimal_text. destruct (Z.ltb_spec z 0).
  - assert (P : 0 < - z) by lia. destruct (Z.log2_spec (- z) P) as [A B].
    pose proof (Z.log2_nonneg (- z)).
    destruct (udec_spec (Z.to_nat (Z.log2 (- z) + 1)) (- z) []) as (d & E & D & N & V & Hh).
    + rewrite Z2Nat.id by lia. change (Z.log2 (- z) + 1) with (Z.succ (Z.log2 (-z))). lia.
    + lia.
    + exists d. rewrite E, app_nil_r. repeat split; auto.
  - assert (Hz : 0 <= z < 2 ^ Z.of_nat (Z.to_nat (Z.log2 z + 1))).
    { pose proof (Z.log2_nonneg z). rewrite Z2Nat.id by lia. destruct (Z.eq_dec z 0); [subst; simpl; lia|].
      destruct (Z.log2_spec z ltac:(lia)) as [A B]. change (Z.log2 z + 1) with (Z.succ (Z.log2 z)). lia. }
    destruct (udec_spec (Z.to_nat (Z.log2 z + 1)) z [] Hz) as (d & E & D & N & V & Hh).
    { pose proof (Z.log2_nonneg z). lia. }
    exists d. rewrite E, app_nil_r. repeat split; auto.
Qed.

Lemma decimal_raw : forall z s, decimal_text z s -> LONG_MIN <= z <= LONG_MAX ->
  Forall raw_char s /\ raw_value s = Ok (VLong z) /\ (exists c t, s = c :: t /\ (digit c \/ c = 45)).
Proof.
  intros z s (d & Hd & Hn & _ & H) Hz.
  assert (Hraw : forall c, digit c -> raw_char c).
  { intros c Hc. unfold digit in Hc. unfold raw_char, isspace, delim. lia. }
  destruct (extract_long_digits d [] Hd Hn I) as [E1 E2]. rewrite app_nil_r in E1, E2.
  destruct d as [|c d]; [congruence|]. inversion Hd; subst.
  destruct H as [(H0 & -> & V)|(H0 & -> & V)]; split.
  - eapply Forall_impl; [|exact Hd]; auto.
  - split; [|eauto]. rewrite digits_not_true by auto. unfold toNumber. rewrite E1 by lia. cbn [vdefined]. rewrite V. reflexivity.
  - constructor; [unfold raw_char; repeat split; auto; discriminate|]. eapply Forall_impl; [|exact Hd]; auto.
  - split; [|eauto]. rewrite digits_not_true by auto. unfold toNumber. rewrite E2 by (unfold LONG_MIN in *; lia).
    cbn [vdefined]. f_equal. f_equal. lia.
Qed.

(** * The round trip *)
Definition raw (v : val) : bool := match v with VNil | VLong _ => true | _ => false end.
Definition ends (v : val) (rest : str) : Prop := raw v = true -> stops rest.
Definition left (v : val) (rest : str) : jstream := if raw v then after rest else mk rest.

Variable fmtf : spec_float -> str.
Definition reads (v : val) : Prop := forall ind rest w, all_white w -> ends v rest ->
  exists f0, forall f, (f0 <= f)%nat -> doValue f (mk (w ++ format fmtf v ind ++ rest)) = Ok (v, left v rest).

Lemma all_white_app : forall a b, all_white a -> all_white b -> all_white (a ++ b).
Proof. intros a b Ha Hb c Hc. apply in_app_iff in Hc. destruct Hc; auto. Qed.
Lemma all_white_nil : all_white [].
Proof. intros c []. Qed.
Lemma all_white_cons : forall c w, white c -> all_white w -> all_white (c :: w).
Proof. intros c w Hc Hw x [->|Hx]; auto. Qed.
Lemma white_nl : white 10.
Proof. unfold white. simpl. auto. Qed.
Lemma all_white_spaces : forall n, all_white (spaces n).
Proof. intros n c H. apply repeat_spec in H. subst. unfold white. simpl. auto. Qed.

Lemma c_str_text : forall s, plain_text ff s -> c_str s = s.
Proof. intros s H. apply c_str_id. intros X. apply H in X. lia. Qed.

Lemma reads_raw : forall v t c t', (forall ind, format fmtf v ind = t) -> raw v = true ->
  t = c :: t' -> Forall raw_char t -> c <> 34 -> raw_value t = Ok v -> reads v.
Proof.
  intros v t c t' Hf Hr Ht Hc Hq Hv ind rest w Hw He. exists 1%nat. intros f Hf0. destruct f; [lia|].
  rewrite Hf. cbn [doValue]. rewrite Ht in *. cbn [app].
  inversion Hc as [|? ? (H1 & H2 & H3) _]; subst. rewrite jpeek_mk by (auto; lia). cbn [obind].
  unfold delim in H2. replace (c =? 123) with false by lia. replace (c =? 91) with false by lia.
  replace (c =? 34) with false by lia.
  change (c :: t' ++ rest) with ((c :: t') ++ rest).
  unfold left. rewrite Hr. apply doRaw_mk; auto.
Qed.
Lemma reads_str : forall s, plain_text ff s -> reads (vstr s).
Proof.
  intros s Hs ind rest w Hw He. exists 1%nat. intros f Hf. destruct f; [lia|].
  unfold vstr. cbn [format]. rewrite map_char_of, c_str_text by auto. cbn [app]. rewrite <- app_assoc. cbn [app].
  cbn [doValue]. rewrite jpeek_mk by (auto; destruct ff; reflexivity). cbn [obind].
  change (34 =? 123) with false. change (34 =? 91) with false. change (34 =? 34) with true. cbv iota.
  rewrite doString_mk by auto. reflexivity.
Qed.

(** First characters. *)
Lemma format_head : forall v ind, json_ok ff v -> exists c t, format fmtf v ind = c :: t /\
  isspace c = false /\ ff && (c =? -1) = false /\ c <> 93 /\ c <> 44.
Proof.
  intros v ind H. destruct H.
  - exists 110, (txt "ull"). repeat split; try discriminate. destruct ff; reflexivity.
  - destruct (decimal_raw z (dec z) (dec_spec z) H) as (Hr & _ & c & t & E & Hc).
    exists c, t. cbn [format]. unfold digit in Hc. repeat split; auto; try (unfold isspace); lia.
  - eexists _, _. split; [reflexivity|]. repeat split; try discriminate. destruct ff; reflexivity.
  - eexists _, _. split; [reflexivity|]. repeat split; try discriminate. destruct ff; reflexivity.
  - eexists _, _. split; [reflexivity|]. repeat split; try discriminate. destruct ff; reflexivity.
Qed.

(** The items of an array. *)
Fixpoint items (iIndent : nat) (l : list val) : str :=
  match l with
  | [] => []
  | x :: t => spaces (iIndent + 2) ++ format fmtf x (iIndent + 2) ++
              match t with [] => [] | _ :: _ => [44] end ++ [10] ++ items iIndent t
  end.
Lemma format_arr : forall l ind, format fmtf (VArr TVar l) ind = 91 :: 10 :: items ind l ++ spaces ind ++ [93].
Proof.
  intros. cbn [format]. f_equal. f_equal. f_equal. induction l; auto. cbn [items]. rewrite <- IHl. reflexivity.
Qed.
Fixpoint mitems (iIndent : nat) (l : list (val * val)) : str :=
  match l with
  | [] => []
  | (k, x) :: t => [10] ++ spaces (iIndent + 2) ++ format fmtf k 0 ++ [58; 32] ++
                   format fmtf x (iIndent + 2) ++
                   match t with [] => [] | _ :: _ => [44] end ++ mitems iIndent t
  end.
Lemma format_map : forall l ind, format fmtf (VMap l) ind =
  123 :: mitems ind l ++ match l with [] => [] | _ :: _ => 10 :: spaces ind end ++ [125].
Proof.
  intros. cbn [format]. f_equal. f_equal. induction l as [|[k x] l]; auto. cbn [mitems]. rewrite <- IHl. reflexivity.
Qed.

Lemma array_close : forall w rest a, all_white w ->
  exists f0, forall f, (f0 <= f)%nat -> array_loop f a (mk (w ++ 93 :: rest)) = Ok (a, mk rest).
Proof.
  intros w rest a Hw. exists 1%nat. intros f Hf. destruct f; [lia|]. cbn [array_loop]. simpl js_fail. cbv iota.
  rewrite jpeek_mk by (auto; destruct ff; reflexivity). cbn [obind]. change (93 =? 93) with true. cbv iota.
  rewrite get_mk by (destruct ff; reflexivity). reflexivity.
Qed.
Lemma array_comma : forall w r a R, all_white w ->
  (exists f0, forall f, (f0 <= f)%nat -> array_loop f a (mk r) = R) ->
  exists f0, forall f, (f0 <= f)%nat -> array_loop f a (mk (w ++ 44 :: r)) = R.
Proof.
  intros w r a R Hw (f0 & H). exists (S f0). intros f Hf. destruct f; [lia|]. cbn [array_loop]. simpl js_fail. cbv iota.
  rewrite jpeek_mk by (auto; destruct ff; reflexivity). cbn [obind]. change (44 =? 93) with false.
  change (44 =? 44) with true. cbv iota.
  rewrite get_mk by (destruct ff; reflexivity). cbn [snd]. apply H. lia.
Qed.
Lemma array_value : forall w a x ind rest a' R, all_white w -> json_ok ff x -> reads x -> ends x rest ->
  push a x = Ok a' -> 
  (exists f0, forall f, (f0 <= f)%nat -> array_loop f a' (left x rest) = R) ->
  exists f0, forall f, (f0 <= f)%nat -> array_loop f a (mk (w ++ format fmtf x ind ++ rest)) = R.
Proof.
  intros w a x ind rest a' R Hw Hj Hx He Hp (f1 & H1).
  destruct (Hx ind rest [] all_white_nil He) as (f2 & H2). cbn [app] in H2.
  exists (S (Nat.max f1 f2)). intros f Hf. destruct f; [lia|]. cbn [array_loop]. simpl js_fail. cbv iota.
  destruct (format_head x ind Hj) as (c & t & E & Hc1 & Hc2 & Hc3 & Hc4). specialize (H2 f ltac:(lia)).
  rewrite E in *. cbn [app] in *. rewrite jpeek_mk by auto. cbn [obind].
  replace (c =? 93) with false by lia. replace (c =? 44) with false by lia.
  rewrite H2. cbn [obind]. rewrite Hp. cbn [obind]. apply H1. lia.
Qed.

Lemma array_items : forall l, Forall (fun x => json_ok ff x /\ reads x) l -> forall done w tail ind R,
  all_white w ->
  (forall w', all_white w' -> exists f0, forall f, (f0 <= f)%nat -> array_loop f (VArr TVar (done ++ l)) (mk (w' ++ tail)) = R) ->
  exists f0, forall f, (f0 <= f)%nat -> array_loop f (VArr TVar done) (mk (w ++ items ind l ++ tail)) = R.
Proof.
  induction 1 as [|x l [Hj Hx] Hl IH]; intros done w tail ind R Hw Hk.
  - cbn [items app]. rewrite app_nil_r in Hk. auto.
  - cbn [items]. rewrite app_assoc_reverse.
    rewrite (app_assoc w). rewrite <- !app_assoc. rewrite (app_assoc w).
    assert (Hpush : push (VArr TVar done) x = Ok (VArr TVar (done ++ [x]))) by reflexivity.
    assert (Hk' : forall w', all_white w' ->
       exists f0, forall f, (f0 <= f)%nat -> array_loop f (VArr TVar (done ++ [x])) (mk (w' ++ items ind l ++ tail)) = R).
    { intros w' Hw'. apply IH; auto. intros w'' Hw''. rewrite <- app_assoc. cbn [app]. auto. }
    assert (Hww : all_white (w ++ spaces (ind + 2))) by (apply all_white_app; auto; apply all_white_spaces).
    destruct l as [|y l].
    + cbn [app]. eapply array_value; eauto.
      * intros _. simpl. auto.
      * unfold left. destruct (raw x); cbn [after].
        -- apply (Hk' [] all_white_nil).
        -- apply (Hk' [10]). apply all_white_cons; [apply white_nl|apply all_white_nil].
    + cbn [app]. eapply array_value; eauto.
      * intros _. simpl. auto.
      * unfold left. destruct (raw x); cbn [after].
        -- apply (Hk' [10]). apply all_white_cons; [apply white_nl|apply all_white_nil].
        -- apply (array_comma []); [apply all_white_nil|]. apply (Hk' [10]). apply all_white_cons; [apply white_nl|apply all_white_nil].
Qed.

Lemma reads_arr : forall x l, ~ is_number x -> Forall (fun x => json_ok ff x /\ reads x) (x :: l) ->
  reads (VArr TVar (x :: l)).
Proof.
  intros x l Hnum Hl ind rest w Hw He. inversion Hl as [|? ? [Hj Hx] Hl']; subst.
  assert (G : exists f0, forall f, (f0 <= f)%nat ->
     array_loop f VNil (mk ([10] ++ items ind (x :: l) ++ spaces ind ++ [93] ++ rest)) = Ok (VArr TVar (x :: l), mk rest)).
  { (* the first element makes the array; then as in array_items *)
    assert (Hpush : push VNil x = Ok (VArr TVar [x])).
    { inversion Hj; subst; try reflexivity. simpl in Hnum. tauto. }
    assert (Hk' : forall w', all_white w' ->
       exists f0, forall f, (f0 <= f)%nat -> array_loop f (VArr TVar [x]) (mk (w' ++ items ind l ++ spaces ind ++ [93] ++ rest)) = Ok (VArr TVar (x :: l), mk rest)).
    { intros w' Hw'. apply array_items; auto. intros w'' Hw''. cbn [app]. rewrite app_assoc.
      apply array_close. apply all_white_app; auto. apply all_white_spaces. }
    cbn [items]. rewrite <- !app_assoc. rewrite (app_assoc [10]).
    assert (Hww : all_white ([10] ++ spaces (ind + 2))) by (apply all_white_app; [apply all_white_cons; [apply white_nl|apply all_white_nil]|apply all_white_spaces]).
    destruct l as [|y l].
    + cbn [app]. eapply (array_value (10 :: spaces (ind + 2))); eauto.
      * intros _. simpl. auto.
      * unfold left. destruct (raw x); cbn [after].
        -- apply (Hk' [] all_white_nil).
        -- apply (Hk' [10]). apply all_white_cons; [apply white_nl|apply all_white_nil].
    + cbn [app]. eapply (array_value (10 :: spaces (ind + 2))); eauto.
      * intros _. simpl. auto.
      * unfold left. destruct (raw x); cbn [after].
        -- apply (Hk' [10]). apply all_white_cons; [apply white_nl|apply all_white_nil].
        -- apply (array_comma []); [apply all_white_nil|]. apply (Hk' [10]). apply all_white_cons; [apply white_nl|apply all_white_nil]. }
  destruct G as (f0 & G). exists (S f0). intros f Hf. destruct f; [lia|].
  rewrite format_arr. cbn [app]. rewrite <- !app_assoc. cbn [doValue].
  rewrite jpeek_mk by (auto; destruct ff; reflexivity). cbn [obind].
  change (91 =? 123) with false. change (91 =? 91) with true. cbv iota.
  rewrite get_mk by (destruct ff; reflexivity). cbn [char_or_eof]. change (negb (91 =? 91)) with false. cbv iota.
  apply G. lia.
Qed.

(** Maps. *)
Lemma object_close : forall w rest o k, all_white w ->
  exists f0, forall f, (f0 <= f)%nat -> object_loop f o k (mk (w ++ 125 :: rest)) = Ok (o, mk rest).
Proof.
  intros w rest o k Hw. exists 1%nat. intros f Hf. destruct f; [lia|]. cbn [object_loop]. simpl js_fail. cbv iota.
  rewrite jpeek_mk by (auto; destruct ff; reflexivity). cbn [obind]. change (125 =? 125) with true. cbv iota.
  rewrite get_mk by (destruct ff; reflexivity). reflexivity.
Qed.
Lemma object_comma : forall w r o k R, all_white w ->
  (exists f0, forall f, (f0 <= f)%nat -> object_loop f o VNil (mk r) = R) ->
  exists f0, forall f, (f0 <= f)%nat -> object_loop f o k (mk (w ++ 44 :: r)) = R.
Proof.
  intros w r o k R Hw (f0 & H). exists (S f0). intros f Hf. destruct f; [lia|]. cbn [object_loop]. simpl js_fail. cbv iota.
  rewrite jpeek_mk by (auto; destruct ff; reflexivity). cbn [obind]. change (44 =? 125) with false.
  change (44 =? 34) with false. change (44 =? 58) with false. change (44 =? 44) with true. cbv iota.
  rewrite get_mk by (destruct ff; reflexivity). cbn [snd]. apply H. lia.
Qed.
Lemma object_entry : forall w l k s x ind rest l' R, all_white w -> plain_text ff s -> reads x -> ends x rest ->
  assign (VNil, VNil) (VMap l) (vstr s) x = Ok (VMap l') ->
  (exists f0, forall f, (f0 <= f)%nat -> object_loop f (VMap l') (vstr s) (left x rest) = R) ->
  exists f0, forall f, (f0 <= f)%nat ->
    object_loop f (VMap l) k (mk (w ++ 34 :: s ++ 34 :: 58 :: 32 :: format fmtf x ind ++ rest)) = R.
Proof.
  intros w l k s x ind rest l' R Hw Hs Hx He Ha (f1 & H1).
  assert (W32 : all_white [32]) by (intros c [<-|[]]; unfold white; simpl; auto).
  destruct (Hx ind rest [32] W32 He) as (f2 & H2). cbn [app] in H2.
  exists (S (S (Nat.max f1 f2))). intros f Hf. destruct f; [lia|]. destruct f; [lia|].
  cbn [object_loop]. simpl js_fail. cbv iota.
  rewrite jpeek_mk by (auto; destruct ff; reflexivity). cbn [obind]. change (34 =? 125) with false.
  change (34 =? 34) with true. cbv iota. rewrite doString_mk by auto. cbn [obind]. simpl js_fail. cbv iota.
  assert (J : jpeek (mk (58 :: 32 :: format fmtf x ind ++ rest)) = Ok (58, mk (58 :: 32 :: format fmtf x ind ++ rest))).
  { apply (jpeek_mk [] 58); [apply all_white_nil | reflexivity | destruct ff; reflexivity]. }
  rewrite J. cbn [obind].
  change (58 =? 125) with false. change (58 =? 34) with false. change (58 =? 58) with true. cbv iota.
  rewrite get_mk by (destruct ff; reflexivity). cbn [snd]. rewrite H2 by lia. cbn [obind]. rewrite Ha. cbn [obind].
  apply H1. lia.
Qed.

Lemma assign_last : forall l k x, map_ok (l ++ [(k, x)]) -> assign (VNil, VNil) (VMap l) k x = Ok (VMap (l ++ [(k, x)])).
Proof.
  intros l k x [Hs Hk]. pose proof Hk as Hk'. apply Forall_app in Hk'. destruct Hk' as [Hkl Hkk]. inversion Hkk; subst. simpl in H1.
  apply sorted_mid in Hs. destruct Hs as (Hs & Hlt & _). rewrite app_nil_r in Hs.
  unfold assign. destruct (map_put_cases (VNil, VNil) l k x (conj Hs Hkl) H1) as [(l1 & kk & vv & l2 & -> & Hc & E)|(l1 & l2 & -> & A & B & E)]; rewrite E; cbn [obind].
  - exfalso. apply Forall_app in Hlt. destruct Hlt as [_ Hlt]. inversion Hlt as [|? ? Hx0 _]; subst. unfold clt in Hx0. cbn [fst] in Hx0.
    rewrite Hc, lex_refl in Hx0. discriminate.
  - destruct l2 as [|p l2]; [rewrite app_nil_r; reflexivity|].
    exfalso. apply Forall_app in Hlt. destruct Hlt as [_ Hlt]. inversion Hlt as [|? ? Hx0 _]; subst. inversion B as [|? ? Hx1 _]; subst.
    unfold clt in Hx0. cbn [fst] in Hx0. congruence.
Qed.

Lemma object_items : forall l, Forall (fun p => (exists s, fst p = vstr s /\ plain_text ff s) /\ reads (snd p)) l ->
  forall done w k ind rest, all_white w -> map_ok (done ++ l) ->
  exists f0, forall f, (f0 <= f)%nat ->
    object_loop f (VMap done) k (mk (w ++ mitems ind l ++ 10 :: spaces ind ++ 125 :: rest)) = Ok (VMap (done ++ l), mk rest).
Proof.
  induction 1 as [|[kk x] l [(s & Hs & Hp) Hx] Hl IH]; intros done w k ind rest Hw Hok.
  - cbn [mitems app]. rewrite app_nil_r. rewrite app_comm_cons, app_assoc. apply object_close.
    apply all_white_app; auto. apply all_white_cons; [apply white_nl|apply all_white_spaces].
  - simpl in Hs, Hx. subst kk. cbn [mitems]. rewrite <- !app_assoc.
    assert (Hww : all_white (w ++ [10] ++ spaces (ind + 2))).
    { apply all_white_app; auto. apply all_white_app; [apply all_white_cons; [apply white_nl|apply all_white_nil]|apply all_white_spaces]. }
    replace (format fmtf (vstr s) 0) with (34 :: s ++ [34]).
    2:{ unfold vstr. cbn [format]. rewrite map_char_of, c_str_text by auto. reflexivity. }
    match goal with |- exists f0, forall f, _ -> object_loop f _ _ (mk ?t) = _ =>
      replace t with ((w ++ [10] ++ spaces (ind + 2)) ++ 34 :: s ++ 34 :: 58 :: 32 :: format fmtf x (ind + 2) ++
        (match l with [] => [] | _ :: _ => [44] end ++ mitems ind l ++ 10 :: spaces ind ++ 125 :: rest)) end.
    2:{ rewrite <- !app_assoc. cbn [app]. rewrite <- !app_assoc. reflexivity. }
    assert (Hok1 : map_ok ((done ++ [(vstr s, x)]) ++ l)) by (rewrite <- app_assoc; exact Hok).
    assert (Ha : assign (VNil, VNil) (VMap done) (vstr s) x = Ok (VMap (done ++ [(vstr s, x)]))).
    { apply assign_last. destruct Hok1 as [A B]. apply Forall_app in B. destruct B as [B _]. split; auto.
      clear -A. revert A. generalize (done ++ [(vstr s, x)]). intros q A. induction q; [constructor|].
      inversion A; subst. constructor; auto. apply Forall_app in H2. apply H2. }
    eapply object_entry; eauto.
    + intros _. destruct l; simpl; auto.
    + destruct l as [|y l].
      * cbn [mitems app]. unfold left. destruct (raw x); cbn [after].
        -- apply object_close. apply all_white_spaces.
        -- rewrite app_comm_cons. apply object_close. apply all_white_cons; [apply white_nl|apply all_white_spaces].
      * cbn [app]. unfold left.
        replace (done ++ (vstr s, x) :: y :: l) with ((done ++ [(vstr s, x)]) ++ y :: l) by (rewrite <- app_assoc; reflexivity).
        destruct (raw x); cbn [after].
        -- apply (IH (done ++ [(vstr s, x)]) []); auto. apply all_white_nil.
        -- apply (object_comma []); [apply all_white_nil|]. apply (IH (done ++ [(vstr s, x)]) []); auto. apply all_white_nil.
Qed.

Lemma sorted_map_ok : forall l, sorted_map l -> map_ok l.
Proof.
  intros l [Hk Hs]. split.
  - induction l as [|p l]; [constructor|]. simpl in Hk, Hs. inversion Hk; subst. inversion Hs; subst. constructor; auto.
    rewrite Forall_forall in *. intros q Hq. apply key_less; auto.
    + apply H2. apply in_map; auto.
    + apply H4. apply in_map. auto.
  - rewrite Forall_forall in *. intros p Hp. apply Hk. apply in_map; auto.
Qed.

Lemma reads_map : forall l, sorted_map l ->
  Forall (fun p => (exists s, fst p = vstr s /\ plain_text ff s) /\ reads (snd p)) l -> reads (VMap l).
Proof.
  intros l Hl Hr ind rest w Hw He.
  assert (G : exists f0, forall f, (f0 <= f)%nat ->
     object_loop f (VMap []) VNil (mk (mitems ind l ++ match l with [] => [] | _ :: _ => 10 :: spaces ind end ++ [125] ++ rest)) = Ok (VMap l, mk rest)).
  { destruct l as [|p l].
    - cbn [mitems app]. apply (object_close []). apply all_white_nil.
    - rewrite <- app_comm_cons. apply (object_items (p :: l) Hr [] []); [apply all_white_nil|]. apply sorted_map_ok; auto. }
  destruct G as (f0 & G). exists (S f0). intros f Hf. destruct f; [lia|].
  rewrite format_map. cbn [app]. rewrite <- !app_assoc. cbn [doValue].
  rewrite jpeek_mk by (auto; destruct ff; reflexivity). cbn [obind].
  change (123 =? 123) with true. cbv iota.
  rewrite get_mk by (destruct ff; reflexivity). cbn [char_or_eof]. change (negb (123 =? 123)) with false. cbv iota.
  apply G. lia.
Qed.

Lemma json_reads : forall v, json_ok ff v -> reads v.
Proof.
  induction v using val_ind2; intros Hj; try (inversion Hj; fail).
  - (* nil *)
    eapply (reads_raw VNil (txt "null") 110 (txt "ull")); try reflexivity; try discriminate.
    repeat (constructor; [unfold raw_char; repeat split; discriminate|]). constructor.
  - (* long *)
    inversion Hj; subst. destruct (decimal_raw z (dec z) (dec_spec z) H0) as (Hr & Hv & c & t & E & Hc).
    eapply (reads_raw (VLong z) (dec z) c t); auto. unfold digit in Hc. lia.
  - inversion Hj; subst.
    + apply reads_str; auto.
    + apply reads_arr; auto. inversion H; subst. constructor; auto. rewrite Forall_forall in *. auto.
  - inversion Hj; subst. apply reads_map; auto. rewrite Forall_forall in *. intros p Hp. split; auto. apply H; auto.
Qed.

End Stream.
