(** Property C148: the number that a text is converted to. *)
From Coq Require Import ZArith Bool List Lia ZifyBool String.
From Coq.Floats Require Import SpecFloat.
From Verif Require Import Base StrModel StrSpec StrProof ValModel ValSpec ValProof MapProof EqProof
  NumModel JsonModel JsonSpec JsonProof JsonRound.
Import ListNotations.
Local Notation length := List.length.
Local Open Scope list_scope.
Local Open Scope Z_scope.

(** * What is written *)
(** An optional sign: is it a minus? *)
Inductive sign_text : bool -> list Z -> Prop :=
| sg_none : sign_text false []
| sg_plus : sign_text false [43]
| sg_minus : sign_text true [45].
(** An optional point and the digits after it. *)
Inductive frac_text : list Z -> list Z -> Prop :=
| fr_none : frac_text [] []
| fr_point : forall fp, Forall digit fp -> frac_text fp (46 :: fp).
(** An optional exponent; none means 0. *)
Inductive exp_text : Z -> list Z -> Prop :=
| ex_none : exp_text 0 []
| ex_some : forall c (neg : bool) sg d, c = 101 \/ c = 69 -> sign_text neg sg -> Forall digit d -> d <> [] ->
    exp_text (if neg then - number_of d else number_of d) (c :: sg ++ d).
(** What follows does not carry the number on. *)
Definition ends (fr ex rest : list Z) : Prop :=
  match rest with
  | [] => True
  | c :: _ => ~ digit c /\ (ex = [] -> c <> 101 /\ c <> 69 /\ (fr = [] -> c <> 46))
  end.
(** The floating point number nearest to (-1)^neg * m * 10^k: a whole number is rounded, a
    fraction is the rounded quotient of two whole numbers.  Zero keeps its sign. *)
Definition nearest (prec emax : Z) (neg : bool) (m k : Z) : spec_float :=
  if m =? 0 then S754_zero neg
  else if k <? 0 then SFdiv prec emax (S754_finite neg (Z.to_pos m) 0) (S754_finite false (Z.to_pos (10 ^ (- k))) 0)
  else binary_normalize prec emax (if neg then - (m * 10 ^ k) else m * 10 ^ k) 0 neg.
Definition io_error : string := "basic_ios::clear: iostream error".
(** Overflow counts as failure. *)
Definition finite_or_throw (k : spec_float -> val) (f : spec_float) : outcome val :=
  match f with S754_infinity _ => Throw io_error | _ => Ok (k f) end.

(** * Lemmas *)
Lemma isdigit_digit : forall c, isdigit c = true <-> digit c.
Proof. intros c. unfold isdigit, digit. lia. Qed.
Lemma number_nonneg : forall d, Forall digit d -> 0 <= number_of d.
Proof.
  induction 1; cbn [number_of]; [lia|]. unfold digit in H.
  assert (0 <= 10 ^ Z.of_nat (length l)) by (apply Z.pow_nonneg; lia). nia.
Qed.
Lemma white_isspace : forall c, white c -> isspace c = true /\ c <> -1.
Proof. intros c H. unfold white in H. cbn in H. unfold isspace. lia. Qed.
Lemma skip_white : forall sp r, all_white sp -> skip_space (sp ++ r) = skip_space r.
Proof.
  induction sp as [|c sp IH]; intros r H; [reflexivity|]. cbn [app skip_space].
  destruct (white_isspace c (H c (or_introl eq_refl))) as [-> _]. apply IH. intros x X. apply H. right; exact X.
Qed.
Lemma white_no_eof : forall sp, all_white sp -> ~ In (-1) sp.
Proof. intros sp H X. apply H in X. apply white_isspace in X. tauto. Qed.
Lemma sign_no_eof : forall b sg, sign_text b sg -> ~ In (-1) sg.
Proof. intros b sg H X. destruct H; cbn in X; lia. Qed.
Lemma exp_no_eof : forall e ex, exp_text e ex -> ~ In (-1) ex.
Proof.
  intros e ex H X. destruct H as [|c neg sg d C G D N]; [exact X|]. destruct X as [X|X]; [lia|].
  apply in_app_iff in X. destruct X as [X|X]; [eapply sign_no_eof; eauto|eapply digits_no_eof; eauto].
Qed.
Lemma frac_no_eof : forall fp fr, frac_text fp fr -> ~ In (-1) fr.
Proof. intros fp fr H X. destruct H as [|fp D]; [exact X|]. destruct X as [X|X]; [lia|eapply digits_no_eof; eauto]. Qed.
Lemma frac_digits : forall fp fr, frac_text fp fr -> Forall digit fp.
Proof. intros fp fr H. destruct H; auto. Qed.
(** A text that starts with neither a space nor a sign. *)
Definition plain (r : list Z) : Prop := match r with [] => True | c :: _ => isspace c = false /\ c <> 45 /\ c <> 43 end.
Lemma sign_taken : forall b sg r, sign_text b sg -> plain r -> take_sign (skip_space (sg ++ r)) = (b, r).
Proof.
  intros b sg r H P. destruct H; cbn [app]; [|reflexivity|reflexivity].
  destruct r as [|c r]; [reflexivity|]. destruct P as (P1 & P2 & P3). cbn [skip_space]. rewrite P1. cbn [take_sign].
  apply Z.eqb_neq in P2, P3. rewrite P2, P3. reflexivity.
Qed.
Lemma sign_taken0 : forall b sg r, sign_text b sg -> plain r -> take_sign (sg ++ r) = (b, r).
Proof.
  intros b sg r H P. destruct H; cbn [app]; [|reflexivity|reflexivity].
  destruct r as [|c r]; [reflexivity|]. destruct P as (P1 & P2 & P3). cbn [take_sign].
  apply Z.eqb_neq in P2, P3. rewrite P2, P3. reflexivity.
Qed.
Lemma digits_plain : forall d r, Forall digit d -> d <> [] -> plain (d ++ r).
Proof. intros d r D N. destruct d as [|c d]; [congruence|]. inversion D; subst. unfold digit in H1. cbn. unfold isspace. lia. Qed.
Lemma dec_nearest : forall prec emax neg m k, 0 <= m -> dec_float prec emax neg m k = nearest prec emax neg m k.
Proof.
  intros prec emax neg m k M. unfold nearest. destruct m as [|p|p]; [reflexivity| |lia]. cbn [dec_float Z.eqb].
  destruct (Z.ltb_spec k 0).
  - destruct (Z.leb_spec 0 k); [lia|]. assert (0 < 10 ^ (- k)) by (apply Z.pow_pos_nonneg; lia).
    destruct (10 ^ (- k)); [lia|reflexivity|lia].
  - destruct (Z.leb_spec 0 k); [|lia]. assert (0 < Z.pos p * 10 ^ k) by (apply Z.mul_pos_pos; [lia|apply Z.pow_pos_nonneg; lia]).
    destruct (Z.pos p * 10 ^ k); [lia| |lia]. destruct neg; reflexivity.
Qed.

Section read.
Variables (sp sg ip fp fr ex rest : list Z) (neg : bool) (prec emax : Z).
Hypothesis Wsp : all_white sp.
Hypothesis Wsg : sign_text neg sg.
Hypothesis Wip : Forall digit ip.
Hypothesis Wfr : frac_text fp fr.
Hypothesis Wd : ip ++ fp <> [].

Lemma mantissa_taken : forall r : list Z, match r with [] => True | c :: _ => isdigit c = false /\ (fr = [] -> c <> 46) end ->
  extract_float prec emax (sp ++ sg ++ ip ++ fr ++ r) =
  match take_exponent (vs_text r) with
  | None => None
  | Some e => match nearest prec emax neg (number_of (ip ++ fp)) (e - Z.of_nat (length fp)) with
              | S754_infinity _ => None | f => Some f end
  end.
Proof.
  intros r Hr. unfold extract_float.
  rewrite (vs_text_prefix sp) by (apply white_no_eof; assumption).
  rewrite (vs_text_prefix sg) by (eapply sign_no_eof; eassumption).
  rewrite (vs_text_prefix ip) by (apply digits_no_eof; assumption).
  rewrite (vs_text_prefix fr) by (eapply frac_no_eof; eassumption).
  rewrite skip_white by assumption.
  assert (Hv : match vs_text r with [] => True | c :: _ => isdigit c = false /\ (fr = [] -> c <> 46) end).
  { destruct r as [|c r]; cbn [vs_text]; [exact I|]. destruct (c =? -1); [exact I|exact Hr]. }
  rewrite (sign_taken neg).
  2: exact Wsg.
  2: { destruct ip as [|c ip']; [|apply (digits_plain (c :: ip')); [assumption|discriminate]].
       inversion Wfr as [E1 E2|fp' D E1 E2]; subst; [cbn in Wd; congruence|cbn; unfold isspace; lia]. }
  rewrite take_digits_app.
  2: assumption.
  2: { inversion Wfr as [E1 E2|fp' D E1 E2]; subst; cbn [app]; [|reflexivity]. destruct (vs_text r); [exact I|tauto]. }
  assert (F : match fr ++ vs_text r with c :: t => if c =? 46 then take_digits t else ([], fr ++ vs_text r) | [] => ([], []) end = (fp, vs_text r)).
  { inversion Wfr as [E1 E2|fp' D E1 E2]; subst; cbn [app].
    - destruct (vs_text r) as [|c t]; [reflexivity|]. destruct Hv as [_ Hv]. specialize (Hv eq_refl). apply Z.eqb_neq in Hv. rewrite Hv. reflexivity.
    - cbn [Z.eqb Pos.eqb]. apply take_digits_app; [assumption|]. destruct (vs_text r); [exact I|tauto]. }
  rewrite F. destruct (ip ++ fp) as [|c d] eqn:E; [congruence|]. rewrite <- E. clear F.
  destruct (take_exponent (vs_text r)) as [e|]; [|reflexivity].
  rewrite digits_value_number. replace (0 * _ + _) with (number_of (ip ++ fp)) by ring.
  rewrite dec_nearest; [destruct nearest; reflexivity|]. apply number_nonneg, Forall_app. split; [assumption|]. eapply frac_digits; eassumption.
Qed.
Lemma number_taken : forall e, exp_text e ex -> ends fr ex rest ->
  extract_float prec emax (sp ++ sg ++ ip ++ fr ++ ex ++ rest) =
  match nearest prec emax neg (number_of (ip ++ fp)) (e - Z.of_nat (length fp)) with
  | S754_infinity _ => None | f => Some f end.
Proof.
  intros e He Hr.
  assert (Hd : match rest with [] => True | c :: _ => isdigit c = false end).
  { destruct rest as [|c t]; [exact I|]. destruct Hr as [Hr _]. rewrite <- isdigit_digit in Hr. destruct (isdigit c); congruence. }
  rewrite mantissa_taken.
  - assert (T : take_exponent (vs_text (ex ++ rest)) = Some e); [|rewrite T; reflexivity].
    rewrite vs_text_prefix by (eapply exp_no_eof; eassumption).
    inversion He as [E1 E2|c n s d C G D N E1 E2]; subst; cbn [app].
    + destruct rest as [|c t]; [reflexivity|]. destruct Hr as [_ Hr]. destruct (Hr eq_refl) as (N1 & N2 & _).
      cbn [vs_text]. destruct (c =? -1); [reflexivity|]. cbn [take_exponent]. apply Z.eqb_neq in N1, N2. rewrite N1, N2. reflexivity.
    + cbn [take_exponent]. replace ((c =? 101) || (c =? 69)) with true by lia. rewrite <- app_assoc.
      rewrite (sign_taken0 n) by (try assumption; apply digits_plain; assumption).
      rewrite take_digits_app.
      2: assumption.
      2: { destruct rest as [|c' t]; cbn [vs_text]; [exact I|]. destruct (c' =? -1); [exact I|exact Hd]. }
      cbn [fst]. destruct d as [|c' d']; [congruence|]. rewrite digits_value_number. replace (0 * _ + _) with (number_of (c' :: d')) by ring. reflexivity.
  - inversion He as [E1 E2|c n s d C G D N E1 E2]; subst; cbn [app].
    + destruct rest as [|c t]; [exact I|]. split; [exact Hd|]. destruct Hr as [_ Hr]. apply (Hr eq_refl).
    + unfold isdigit. split; [lia|intros _; lia].
Qed.
End read.

(** * C148 *)
(** White space, a sign, digits with or without a point, and an exponent: the conversion gives the
    nearest double or float, and throws when that overflows.  What follows is ignored. *)
Theorem C148_decimal : forall sp neg sg ip fp fr e ex rest, all_white sp -> sign_text neg sg -> Forall digit ip -> frac_text fp fr ->
  ip ++ fp <> [] -> exp_text e ex -> ends fr ex rest ->
  cast TDouble (vstr (sp ++ sg ++ ip ++ fr ++ ex ++ rest)) =
    finite_or_throw VDouble (nearest 53 1024 neg (number_of (ip ++ fp)) (e - Z.of_nat (length fp))) /\
  cast TFloat (vstr (sp ++ sg ++ ip ++ fr ++ ex ++ rest)) =
    finite_or_throw VFloat (nearest 24 128 neg (number_of (ip ++ fp)) (e - Z.of_nat (length fp))).
Proof.
  intros sp neg sg ip fp fr e ex rest A B C D E F G. unfold vstr. cbn [cast]. rewrite map_char_of. unfold cast_str.
  rewrite !(number_taken sp sg ip fp fr ex rest neg _ _ A B C D E e F G). unfold finite_or_throw.
  split; destruct nearest; reflexivity.
Qed.
(** A whole number, however it is written, converts as the long does. *)
Theorem C148_whole : forall sp neg sg ip fp fr e ex rest, all_white sp -> sign_text neg sg -> Forall digit ip -> frac_text fp fr ->
  ip ++ fp <> [] -> exp_text e ex -> ends fr ex rest -> number_of (ip ++ fp) <> 0 -> Z.of_nat (length fp) <= e ->
  forall z, z = (if neg then -1 else 1) * (number_of (ip ++ fp) * 10 ^ (e - Z.of_nat (length fp))) ->
  forall f, cast TDouble (VLong z) = Ok (VDouble f) -> (forall b, f <> S754_infinity b) ->
  cast TDouble (vstr (sp ++ sg ++ ip ++ fr ++ ex ++ rest)) = cast TDouble (VLong z).
Proof.
  intros sp neg sg ip fp fr e ex rest A B C D E F G N L z Z f Hf Hi.
  destruct (C148_decimal sp neg sg ip fp fr e ex rest A B C D E F G) as [-> _].
  assert (K : nearest 53 1024 neg (number_of (ip ++ fp)) (e - Z.of_nat (length fp)) = f).
  { unfold nearest. destruct (Z.eqb_spec (number_of (ip ++ fp)) 0); [congruence|]. destruct (Z.ltb_spec (e - Z.of_nat (length fp)) 0); [lia|].
    cbn [cast cast_Z] in Hf. unfold float_of_Z in Hf. injection Hf as <-. rewrite Z.
    assert (0 < number_of (ip ++ fp)).
    { assert (0 <= number_of (ip ++ fp)) by (apply number_nonneg, Forall_app; split; [assumption|eapply frac_digits; eassumption]). lia. }
    assert (0 < number_of (ip ++ fp) * 10 ^ (e - Z.of_nat (length fp))) by (apply Z.mul_pos_pos; [lia|apply Z.pow_pos_nonneg; lia]).
    destruct neg.
    - replace (-1 * _) with (- (number_of (ip ++ fp) * 10 ^ (e - Z.of_nat (length fp)))) by ring. destruct (number_of (ip ++ fp) * _); [lia|reflexivity|lia].
    - rewrite Z.mul_1_l. reflexivity. }
  rewrite K, Hf. unfold finite_or_throw. destruct f; try reflexivity. exfalso. apply (Hi s). reflexivity.
Qed.
(** A letter e with no exponent behind it makes the conversion throw; the number in front is lost. *)
Theorem C148_bare_exponent : forall sp neg sg ip fp fr c n2 sg2 rest, all_white sp -> sign_text neg sg -> Forall digit ip -> frac_text fp fr ->
  ip ++ fp <> [] -> c = 101 \/ c = 69 -> sign_text n2 sg2 ->
  match rest with [] => True | c' :: _ => ~ digit c' /\ c' <> 43 /\ c' <> 45 end ->
  cast TDouble (vstr (sp ++ sg ++ ip ++ fr ++ c :: sg2 ++ rest)) = Throw io_error /\
  cast TFloat (vstr (sp ++ sg ++ ip ++ fr ++ c :: sg2 ++ rest)) = Throw io_error.
Proof.
  intros sp neg sg ip fp fr c n2 sg2 rest A B C D E F G H. unfold vstr. cbn [cast]. rewrite map_char_of. unfold cast_str.
  assert (T : take_exponent (vs_text (c :: sg2 ++ rest)) = None).
  { cbn [vs_text]. replace (c =? -1) with false by lia. rewrite vs_text_prefix by (eapply sign_no_eof; eassumption).
    cbn [take_exponent]. replace ((c =? 101) || (c =? 69)) with true by lia.
    assert (T1 : take_sign (sg2 ++ vs_text rest) = (n2, vs_text rest)).
    { destruct G; cbn [app]; [|reflexivity|reflexivity]. destruct rest as [|x t]; [reflexivity|]. cbn [vs_text]. destruct (x =? -1); [reflexivity|].
      cbn [take_sign]. destruct H as (_ & P & Q). apply Z.eqb_neq in P, Q. rewrite P, Q. reflexivity. }
    rewrite T1. destruct rest as [|x t]; [reflexivity|]. cbn [vs_text]. destruct (x =? -1); [reflexivity|].
    destruct H as (P & _). rewrite <- isdigit_digit in P. cbn [take_digits]. destruct (isdigit x); [congruence|reflexivity]. }
  rewrite !(mantissa_taken sp sg ip fp fr neg _ _ A B C D E) by (unfold isdigit; split; [lia|intros _; lia]).
  rewrite T. split; reflexivity.
Qed.
(** Text in which neither a digit nor a point follows the space and the sign is no number: all four
    conversions throw. *)
Theorem C148_no_number : forall t sp neg sg rest, In t [TInt; TLong; TFloat; TDouble] -> all_white sp -> sign_text neg sg ->
  match rest with [] => True | c :: _ => ~ digit c /\ c <> 46 /\ c <> 43 /\ c <> 45 /\ ~ white c end ->
  cast t (vstr (sp ++ sg ++ rest)) = Throw io_error.
Proof.
  intros t sp neg sg rest T A B R.
  assert (P : plain (vs_text rest) /\ fst (take_digits (vs_text rest)) = [] /\ snd (take_digits (vs_text rest)) = vs_text rest /\
    match vs_text rest with c :: t => if c =? 46 then take_digits t else ([], vs_text rest) | [] => ([], []) end = ([], vs_text rest)).
  { destruct rest as [|c r]; [repeat split|]. cbn [vs_text]. destruct (c =? -1); [repeat split|].
    destruct R as (R1 & R2 & R3 & R4 & R5). rewrite <- isdigit_digit in R1. cbn [take_digits plain].
    assert (isspace c = false) by (unfold white in R5; cbn in R5; unfold isspace; lia).
    apply Z.eqb_neq in R2. rewrite R2. destruct (isdigit c); [congruence|]. auto. }
  destruct P as (P1 & P2 & P3 & P4).
  assert (S1 : take_sign (skip_space (vs_text (sp ++ sg ++ rest))) = (neg, vs_text rest)).
  { rewrite (vs_text_prefix sp) by (apply white_no_eof; assumption). rewrite (vs_text_prefix sg) by (eapply sign_no_eof; eassumption).
    rewrite skip_white by assumption. apply sign_taken; assumption. }
  assert (EL : extract_long (sp ++ sg ++ rest) = None) by (unfold extract_long; rewrite S1, P2; reflexivity).
  assert (EF : forall p m, extract_float p m (sp ++ sg ++ rest) = None).
  { intros p m. unfold extract_float. rewrite S1. destruct (take_digits (vs_text rest)) as [a b] eqn:Q. cbn [fst snd] in P2, P3. subst a b. rewrite P4. reflexivity. }
  unfold vstr. destruct T as [<-|[<-|[<-|[<-|[]]]]]; cbn [cast]; rewrite map_char_of; unfold cast_str, extract_int; rewrite ?EL, ?EF; reflexivity.
Qed.

(** * Examples *)
(** "1.5", " -2.50e+1x" and "3" *)
Example C148_decimal_ex : cast TDouble (vstr [49; 46; 53]) = Ok (VDouble (S754_finite false 6755399441055744 (-52))) /\
  nearest 53 1024 false (number_of [49; 53]) (0 - 1) = S754_finite false 6755399441055744 (-52) /\
  (all_white [] /\ sign_text false [] /\ Forall digit [49] /\ frac_text [53] [46; 53] /\ exp_text 0 [] /\ ends [46; 53] [] []) /\
  cast TDouble (vstr [32; 45; 50; 46; 53; 48; 101; 43; 49; 120]) = Ok (VDouble (S754_finite true 7036874417766400 (-48))) /\
  exp_text 1 [101; 43; 49].
Proof.
  split; [vm_compute; reflexivity|]. split; [vm_compute; reflexivity|]. split.
  - split; [intros c []|]. split; [constructor|]. split; [repeat constructor; unfold digit; lia|]. split; [constructor; repeat constructor; unfold digit; lia|]. split; [constructor|exact I].
  - split; [vm_compute; reflexivity|]. apply (ex_some 101 false [43] [49]); [left; reflexivity|constructor|repeat constructor; unfold digit; lia|discriminate].
Qed.
(** "2.5e1" is 25; "1e999" throws. *)
Example C148_whole_ex : cast TDouble (vstr [50; 46; 53; 101; 49]) = cast TDouble (VLong 25) /\
  cast TDouble (vstr [49; 101; 57; 57; 57]) = Throw io_error /\
  25 = 1 * (number_of ([50] ++ [53]) * 10 ^ (1 - Z.of_nat (length [53]))).
Proof. split; [vm_compute; reflexivity|]. split; vm_compute; reflexivity. Qed.
(** "1e" and "1e+x" throw, although "1" and "1x" do not. *)
Example C148_bare_exponent_ex : cast TDouble (vstr [49; 101]) = Throw io_error /\ cast TDouble (vstr [49; 101; 43; 120]) = Throw io_error /\
  cast TDouble (vstr [49; 120]) = cast TDouble (VLong 1).
Proof. repeat split. Qed.
(** "-x" *)
Example C148_no_number_ex : cast TDouble (vstr [45; 120]) = Throw io_error /\ cast TInt (vstr []) = Throw io_error /\ sign_text true [45] /\ ~ digit 120 /\ ~ white 120.
Proof. split; [reflexivity|]. split; [reflexivity|]. split; [constructor|]. unfold digit, white. cbn. lia. Qed.
