(** Lemmas about var::len and case conversion. *)
From Coq Require Import ZArith Bool List Lia.
From Verif Require Import Base StrModel StrSpec.
Import ListNotations.
Local Open Scope Z_scope.

(** All chars, for exhaustive checks of the bit tests. *)
Definition all_chars : list Z := map (fun n => Z.of_nat n - 128) (seq 0 256).
Lemma all_chars_in : forall c, -128 <= c <= 127 -> In c all_chars.
Proof.
  intros c H. unfold all_chars. apply in_map_iff. exists (Z.to_nat (c + 128)).
  split; [lia|]. apply in_seq. lia.
Qed.

Definition lead_ok (c : Z) : bool :=
  let b := byte c in
  Bool.eqb (Z.land c 128 =? 0) (b <? 128) &&
  Bool.eqb (Z.land c 192 =? 128) ((128 <=? b) && (b <? 192)) &&
  Bool.eqb (Z.land c 224 =? 192) ((192 <=? b) && (b <? 224)) &&
  Bool.eqb (Z.land c 240 =? 224) ((224 <=? b) && (b <? 240)) &&
  Bool.eqb (Z.land c 248 =? 240) ((240 <=? b) && (b <? 248)) &&
  (0 <=? b) && (b <? 256).

Lemma lead_all : forallb lead_ok all_chars = true.
Proof. vm_compute. reflexivity. Qed.

Lemma lead_spec : forall c, -128 <= c <= 127 ->
  (Z.land c 128 =? 0) = (byte c <? 128) /\
  (Z.land c 192 =? 128) = ((128 <=? byte c) && (byte c <? 192)) /\
  (Z.land c 224 =? 192) = ((192 <=? byte c) && (byte c <? 224)) /\
  (Z.land c 240 =? 224) = ((224 <=? byte c) && (byte c <? 240)) /\
  (Z.land c 248 =? 240) = ((240 <=? byte c) && (byte c <? 248)) /\
  0 <= byte c < 256.
Proof.
  intros c H. pose proof lead_all as L. rewrite forallb_forall in L. specialize (L c (all_chars_in c H)).
  unfold lead_ok in L. rewrite !andb_true_iff, !eqb_true_iff, Z.leb_le, Z.ltb_lt in L. tauto.
Qed.

Lemma is_cont_dec : forall c, -128 <= c <= 127 -> (Z.land c 192 =? 128) = true <-> is_cont c.
Proof.
  intros c H. destruct (lead_spec c H) as (_ & -> & _). unfold is_cont.
  rewrite andb_true_iff, Z.leb_le, Z.ltb_lt. tauto.
Qed.
Lemma is_cont_dec0 : forall c, -128 <= c <= 127 -> (Z.land c 192 =? 128) = false <-> ~ is_cont c.
Proof. intros c H. rewrite <- (is_cont_dec c H). destruct (Z.land c 192 =? 128); split; congruence. Qed.

(** The outcome of utf8len at the start of a non-empty rest followed by the NUL. *)
Lemma utf8len_spec : forall s, s <> [] -> chars s ->
  (exists q t, s = q ++ t /\ utf8_seq q /\ utf8len (s ++ [0]) = Ok (Z.of_nat (length q))) \/
  (utf8len (s ++ [0]) = Ok 0 /\ forall q t, utf8_seq q -> s <> q ++ t).
Proof.
  intros s Hs Hc. destruct s as [|a s]; [congruence|].
  assert (Ha : -128 <= a <= 127) by (apply Hc; left; auto).
  assert (Hs' : chars s) by (intros x Hx; apply Hc; right; auto).
  assert (Hz : Z.land 0 192 =? 128 = false) by reflexivity.
  unfold utf8len. cbn [app rd nth_error obind].
  destruct (lead_spec a Ha) as (E1 & E2 & E3 & E4 & E5 & E6). rewrite E1, E3, E4, E5.
  destruct (Z.ltb_spec (byte a) 128) as [L1|L1].
  { left. exists [a], s. repeat split; auto. constructor. lia. }
  destruct (Z.leb_spec 192 (byte a)) as [L2|L2]; cbn [andb].
  2:{ right. destruct (Z.leb_spec 224 (byte a)); [lia|]. destruct (Z.leb_spec 240 (byte a)); [lia|]. cbn [andb].
      split; [reflexivity|]. intros q t Hq E. inversion Hq; subst; inversion E; subst; lia. }
  destruct (Z.ltb_spec (byte a) 224) as [L3|L3].
  { (* two bytes *)
    change (Z.to_nat (2 - 1)) with 1%nat. cbn [Z.eqb utf8_cont]. change (2 =? 0) with false. cbv iota.
    destruct s as [|b s].
    - right. cbn. split; auto. intros q t Hq E. inversion Hq; subst; inversion E; subst; lia.
    - assert (Hb : -128 <= b <= 127) by (apply Hs'; left; auto).
      unfold rd. cbn [app nth_error obind]. destruct (Z.land b 192 =? 128) eqn:Eb; cbn [negb obind].
      + left. exists [a; b], s. repeat split; auto. constructor; [lia|]. apply is_cont_dec; auto.
      + right. split; auto. apply is_cont_dec0 in Eb; auto.
        intros q t Hq E. inversion Hq; subst; inversion E; subst; try lia. auto. }
  destruct (Z.leb_spec 224 (byte a)) as [L4|L4]; [|lia]. cbn [andb].
  destruct (Z.ltb_spec (byte a) 240) as [L5|L5].
  { change (3 =? 0) with false. cbv iota. change (Z.to_nat (3 - 1)) with 2%nat. cbn [utf8_cont].
    destruct s as [|b s].
    - right. cbn. split; auto. intros q t Hq E. inversion Hq; subst; inversion E; subst; lia.
    - assert (Hb : -128 <= b <= 127) by (apply Hs'; left; auto).
      unfold rd. cbn [app nth_error obind]. destruct (Z.land b 192 =? 128) eqn:Eb; cbn [negb obind].
      + destruct s as [|c s].
        * right. cbn. split; auto. intros q t Hq E. inversion Hq; subst; inversion E; subst; lia.
        * assert (Hcc : -128 <= c <= 127) by (apply Hs'; right; left; auto).
          cbn [app nth_error obind]. destruct (Z.land c 192 =? 128) eqn:Ec; cbn [negb obind].
          -- left. exists [a; b; c], s. repeat split; auto. constructor; [lia| |]; apply is_cont_dec; auto.
          -- right. split; auto. apply is_cont_dec0 in Ec; auto.
             intros q t Hq E. inversion Hq; subst; inversion E; subst; try lia. auto.
      + right. split; auto. apply is_cont_dec0 in Eb; auto.
        intros q t Hq E. inversion Hq; subst; inversion E; subst; try lia. auto. }
  destruct (Z.leb_spec 240 (byte a)) as [L6|L6]; [|lia]. cbn [andb].
  destruct (Z.ltb_spec (byte a) 248) as [L7|L7].
  { change (4 =? 0) with false. cbv iota. change (Z.to_nat (4 - 1)) with 3%nat. cbn [utf8_cont].
    destruct s as [|b s].
    - right. cbn. split; auto. intros q t Hq E. inversion Hq; subst; inversion E; subst; lia.
    - assert (Hb : -128 <= b <= 127) by (apply Hs'; left; auto).
      unfold rd. cbn [app nth_error obind]. destruct (Z.land b 192 =? 128) eqn:Eb; cbn [negb obind].
      + destruct s as [|c s].
        * right. cbn. split; auto. intros q t Hq E. inversion Hq; subst; inversion E; subst; lia.
        * assert (Hcc : -128 <= c <= 127) by (apply Hs'; right; left; auto).
          cbn [app nth_error obind]. destruct (Z.land c 192 =? 128) eqn:Ec; cbn [negb obind].
          -- destruct s as [|d s].
             ++ right. cbn. split; auto. intros q t Hq E. inversion Hq; subst; inversion E; subst; lia.
             ++ assert (Hd : -128 <= d <= 127) by (apply Hs'; right; right; left; auto).
                cbn [app nth_error obind]. destruct (Z.land d 192 =? 128) eqn:Ed; cbn [negb obind].
                ** left. exists [a; b; c; d], s. repeat split; auto. constructor; [lia| | |]; apply is_cont_dec; auto.
                ** right. split; auto. apply is_cont_dec0 in Ed; auto.
                   intros q t Hq E. inversion Hq; subst; inversion E; subst; try lia. auto.
          -- right. split; auto. apply is_cont_dec0 in Ec; auto.
             intros q t Hq E. inversion Hq; subst; inversion E; subst; try lia. auto.
      + right. split; auto. apply is_cont_dec0 in Eb; auto.
        intros q t Hq E. inversion Hq; subst; inversion E; subst; try lia. auto. }
  change (0 =? 0) with true. cbv iota. right. split; auto.
  intros q t Hq E. inversion Hq; subst; inversion E; subst; lia.
Qed.

Lemma utf8_seq_prefix : forall q q' t t', utf8_seq q -> utf8_seq q' -> q ++ t = q' ++ t' -> q = q' /\ t = t'.
Proof. intros q q' t t' H H' E. inversion H; subst; inversion H'; subst; inversion E; subst; auto; exfalso; lia. Qed.

Lemma utf8_seq_len : forall q, utf8_seq q -> (1 <= length q)%nat.
Proof. intros q H. inversion H; simpl; lia. Qed.

Lemma len_loop_spec : forall f done rest code, chars rest -> (length rest < f)%nat ->
  (exists n, utf8_cut rest n /\ len_loop f (done ++ rest) (Z.of_nat (length done)) code = Ok (code + n)) \/
  ((forall n, ~ utf8_cut rest n) /\ len_loop f (done ++ rest) (Z.of_nat (length done)) code = Ok (-1)).
Proof.
  induction f; intros done rest code Hc Hf; [lia|]. cbn [len_loop].
  destruct rest as [|a r] eqn:Er.
  - rewrite app_nil_r. rewrite Z.ltb_irrefl, Z.eqb_refl. left. exists 0. split; [constructor|]. f_equal. lia.
  - rewrite <- Er in *. assert (Hne : rest <> []) by (rewrite Er; discriminate).
    assert (Hlen : (0 < length rest)%nat) by (rewrite Er; simpl; lia).
    rewrite app_length. destruct (Z.ltb_spec (Z.of_nat (length done)) (Z.of_nat (length done + length rest))); [|lia].
    rewrite Nat2Z.id. rewrite <- app_assoc, skipn_app, skipn_all, Nat.sub_diag. cbn [skipn app].
    destruct (utf8len_spec rest Hne Hc) as [(q & t & Hq & Hs & Hl)|(Hl & Hn)].
    + rewrite Hl. cbn [obind]. pose proof (utf8_seq_len q Hs).
      destruct (Z.eqb_spec (Z.of_nat (length q)) 0); [lia|].
      assert (Hct : chars t) by (intros x Hx; apply Hc; rewrite Hq; apply in_app_iff; auto).
      assert (Hft : (length t < f)%nat) by (rewrite Hq, app_length in Hf; lia).
      specialize (IHf (done ++ q) t (code + 1) Hct Hft).
      rewrite app_length, Nat2Z.inj_add in IHf. rewrite <- app_assoc, <- Hq in IHf.
      destruct IHf as [(n0 & H1 & H2)|(H1 & H2)].
      * left. exists (n0 + 1). split; [rewrite Hq; constructor; auto|]. rewrite H2. f_equal. lia.
      * right. split; auto. intros m Hm. inversion Hm as [E|q' s' m' Hq' Hs' E].
        -- congruence.
        -- destruct (utf8_seq_prefix q q' t s' Hs Hq') as [-> ->]; [congruence|]. eapply H1; eauto.
    + right. rewrite Hl. cbn [obind]. split; auto.
      intros m Hm. inversion Hm as [E|q' s' m' Hq' Hs' E]; [congruence|]. eapply Hn; eauto.
Qed.

Lemma utf8_cut_fun : forall s n, utf8_cut s n -> forall m, utf8_cut s m -> n = m.
Proof.
  induction 1; intros m Hm.
  - inversion Hm as [|q s n Hq Hs E]; auto. apply utf8_seq_len in Hq. destruct q; simpl in *; [lia|discriminate].
  - inversion Hm as [E|q' s' m' Hq' Hs' E].
    + apply utf8_seq_len in H. destruct q; simpl in *; [lia|discriminate].
    + destruct (utf8_seq_prefix _ _ _ _ Hq' H E) as [-> ->]. rewrite (IHutf8_cut _ Hs'). auto.
Qed.

Lemma utf8_cut_nonneg : forall s n, utf8_cut s n -> 0 <= n.
Proof. induction 1; lia. Qed.

Lemma byte_schar : forall b, 0 <= b < 256 -> byte (schar b) = b /\ -128 <= schar b <= 127.
Proof. intros b H. unfold byte, schar. destruct (Z.ltb_spec b 128).
  - destruct (Z.ltb_spec b 0); lia.
  - destruct (Z.ltb_spec (b - 256) 0); lia. Qed.

Lemma utf8_enc_seq : forall cp, 0 <= cp < 1114112 -> utf8_seq (utf8_enc cp) /\ chars (utf8_enc cp).
Proof.
  intros cp H. unfold utf8_enc.
  assert (M1 : 0 <= cp mod 64 < 64) by (apply Z.mod_pos_bound; lia).
  assert (M2 : 0 <= (cp / 64) mod 64 < 64) by (apply Z.mod_pos_bound; lia).
  assert (M3 : 0 <= (cp / 4096) mod 64 < 64) by (apply Z.mod_pos_bound; lia).
  destruct (Z.ltb_spec cp 128); [|destruct (Z.ltb_spec cp 2048); [|destruct (Z.ltb_spec cp 65536)]].
  - split; [constructor; unfold byte; destruct (Z.ltb_spec cp 0); lia|].
    intros c [<-|[]]. lia.
  - assert (D : 0 <= cp / 64 < 32) by (split; [apply Z.div_pos; lia|apply Z.div_lt_upper_bound; lia]).
    destruct (byte_schar (192 + cp / 64)) as [B1 C1]; [lia|].
    destruct (byte_schar (128 + cp mod 64)) as [B2 C2]; [lia|].
    split; [constructor; [rewrite B1|unfold is_cont; rewrite B2]; lia|].
    intros c [<-|[<-|[]]]; auto.
  - assert (D : 0 <= cp / 4096 < 16) by (split; [apply Z.div_pos; lia|apply Z.div_lt_upper_bound; lia]).
    destruct (byte_schar (224 + cp / 4096)) as [B1 C1]; [lia|].
    destruct (byte_schar (128 + (cp / 64) mod 64)) as [B2 C2]; [lia|].
    destruct (byte_schar (128 + cp mod 64)) as [B3 C3]; [lia|].
    split; [constructor; [rewrite B1|unfold is_cont; rewrite B2|unfold is_cont; rewrite B3]; lia|].
    intros c [<-|[<-|[<-|[]]]]; auto.
  - assert (D : 0 <= cp / 262144 < 8) by (split; [apply Z.div_pos; lia|apply Z.div_lt_upper_bound; lia]).
    destruct (byte_schar (240 + cp / 262144)) as [B1 C1]; [lia|].
    destruct (byte_schar (128 + (cp / 4096) mod 64)) as [B2 C2]; [lia|].
    destruct (byte_schar (128 + (cp / 64) mod 64)) as [B3 C3]; [lia|].
    destruct (byte_schar (128 + cp mod 64)) as [B4 C4]; [lia|].
    split; [constructor; [rewrite B1|unfold is_cont; rewrite B2|unfold is_cont; rewrite B3|unfold is_cont; rewrite B4]; lia|].
    intros c [<-|[<-|[<-|[<-|[]]]]]; auto.
Qed.

Lemma utf8_enc_cut : forall l, Forall (fun cp => 0 <= cp < 1114112) l ->
  utf8_cut (concat (map utf8_enc l)) (Z.of_nat (length l)) /\ chars (concat (map utf8_enc l)).
Proof.
  induction 1 as [|cp l H Hl [I1 I2]].
  - split; [constructor|intros c []].
  - destruct (utf8_enc_seq cp H) as [S1 S2]. split.
    + cbn [map concat length]. rewrite Nat2Z.inj_succ. unfold Z.succ. constructor; auto.
    + cbn [map concat]. intros c Hc. apply in_app_iff in Hc. destruct Hc; auto.
Qed.
