(** Lemmas for ini files and configurations. *)
From Coq Require Import ZArith Bool List Lia ZifyBool Sorting.
From Verif Require Import Base StrModel StrSpec StrProof StrProps LineProof ValModel ValSpec ValProof MapProof ValProps
  NumModel JsonModel JsonSpec JsonProof JsonRound IniModel IniSpec.
Import ListNotations.
Local Open Scope Z_scope.

(** * Maps as lookup functions *)
Definition same_code (a b : val) : bool := if list_eq_dec Z.eq_dec (code a) (code b) then true else false.
Lemma same_code_true : forall a b, same_code a b = true <-> code a = code b.
Proof. intros. unfold same_code. destruct (list_eq_dec _ _ _); split; congruence. Qed.
Lemma same_code_false : forall a b, same_code a b = false <-> code a <> code b.
Proof. intros. unfold same_code. destruct (list_eq_dec _ _ _); split; congruence. Qed.
Fixpoint lookup (l : list (val * val)) (k : val) : option val :=
  match l with
  | [] => None
  | (kk, v) :: t => if same_code kk k then Some v else lookup t k
  end.
Lemma lookup_app_none : forall l1 l2 k, (forall p, In p l1 -> code (fst p) <> code k) -> lookup (l1 ++ l2) k = lookup l2 k.
Proof.
  induction l1 as [|[kk v] l1]; intros l2 k H; auto. cbn [app lookup].
  replace (same_code kk k) with false by (symmetry; apply same_code_false; apply (H (kk, v)); left; auto).
  apply IHl1. intros p Hp. apply H. right; auto.
Qed.
Lemma lookup_none : forall l k, (forall p, In p l -> code (fst p) <> code k) -> lookup l k = None.
Proof. intros l k H. rewrite <- (app_nil_r l). rewrite lookup_app_none; auto. Qed.
Lemma lookup_none_inv : forall l k, lookup l k = None -> forall p, In p l -> code (fst p) <> code k.
Proof.
  induction l as [|[kk v] l]; intros k H p Hp; [destruct Hp|]. cbn [lookup] in H.
  destruct (same_code kk k) eqn:E; [discriminate|]. apply same_code_false in E. destruct Hp as [<-|Hp]; auto.
Qed.
Lemma lookup_some_in : forall l k v, lookup l k = Some v -> exists kk, In (kk, v) l /\ code kk = code k.
Proof.
  induction l as [|[kk w] l]; intros k v H; [discriminate|]. cbn [lookup] in H.
  destruct (same_code kk k) eqn:E.
  - inversion H; subst. exists kk. split; [left; auto|]. apply same_code_true; auto.
  - destruct (IHl k v H) as (k' & A & B). exists k'. split; auto. right; auto.
Qed.
Lemma lookup_code : forall l a b, code a = code b -> lookup l a = lookup l b.
Proof.
  induction l as [|[kk v] l]; intros a b H; auto. cbn [lookup]. unfold same_code. rewrite H. rewrite (IHl a b H). reflexivity.
Qed.
Lemma other_codes : forall l1 x l2, map_ok (l1 ++ x :: l2) -> forall q, In q (l1 ++ l2) -> code (fst q) <> code (fst x).
Proof.
  intros l1 x l2 [Hs _] q Hq E. apply sorted_mid in Hs. destruct Hs as (_ & A & B).
  apply in_app_iff in Hq. rewrite Forall_forall in A, B. destruct Hq as [Hq|Hq].
  - specialize (A q Hq). unfold clt in A. rewrite E, lex_refl in A. discriminate.
  - specialize (B q Hq). unfold clt in B. rewrite E, lex_refl in B. discriminate.
Qed.
Lemma lookup_mid : forall l1 kk x l2 k, map_ok (l1 ++ (kk, x) :: l2) ->
  lookup (l1 ++ (kk, x) :: l2) k = if same_code kk k then Some x else lookup (l1 ++ l2) k.
Proof.
  intros l1 kk x l2 k H. pose proof (other_codes l1 (kk, x) l2 H) as O. cbn [fst] in O.
  destruct (same_code kk k) eqn:E.
  - apply same_code_true in E. rewrite lookup_app_none.
    + cbn [lookup]. replace (same_code kk k) with true by (symmetry; apply same_code_true; auto). reflexivity.
    + intros p Hp. rewrite <- E. apply O. apply in_app_iff; auto.
  - clear - E. induction l1 as [|[k1 v1] l1]; cbn [app lookup]; [rewrite E; reflexivity|].
    destruct (same_code k1 k); auto.
Qed.
Lemma lookup_in : forall l kk x, map_ok l -> In (kk, x) l -> lookup l kk = Some x.
Proof.
  intros l kk x H Hin. apply in_split in Hin. destruct Hin as (l1 & l2 & ->).
  rewrite lookup_mid by auto. replace (same_code kk kk) with true by (symmetry; apply same_code_true; auto). reflexivity.
Qed.

Definition or_nil (o : option val) : val := match o with Some v => v | None => VNil end.
Lemma at_var_lookup : forall l k, map_ok l -> key k -> at_var (RVar (VMap l)) k = Ok (or_nil (lookup l k)).
Proof.
  intros l k H Hk. destruct (at_var_cases l k H Hk) as [(l1 & kk & vv & l2 & -> & Hc & ->)|(Hn & ->)].
  - rewrite lookup_mid by auto. replace (same_code kk k) with true by (symmetry; apply same_code_true; auto). reflexivity.
  - rewrite lookup_none; auto. intros p Hp. rewrite Forall_forall in Hn. apply Hn. auto.
Qed.
Lemma map_ok_replace : forall l1 kk x y l2, map_ok (l1 ++ (kk, x) :: l2) -> map_ok (l1 ++ (kk, y) :: l2).
Proof.
  intros l1 kk x y l2 [Hs Hf]. split.
  - apply sorted_mid in Hs. apply sorted_mid. destruct Hs as (A & B & C). split; [auto|]. split; auto.
  - apply Forall_app in Hf. apply Forall_app. destruct Hf as [A B]. split; auto. inversion B; subst. constructor; auto.
Qed.
Lemma map_index_lookup : forall junk l k, map_ok l -> key k ->
  exists l1 kk l2, map_index junk l k = Ok (l1 ++ (kk, or_nil (lookup l k)) :: l2, Some (length l1)) /\
    code kk = code k /\ (kk = k \/ In kk (map fst l)) /\
    (forall p, In p (l1 ++ l2) -> In p l) /\
    forall x, map_ok (l1 ++ (kk, x) :: l2) /\
      forall k', lookup (l1 ++ (kk, x) :: l2) k' = if same_code k k' then Some x else lookup l k'.
Proof.
  intros junk l k Hl Hk.
  destruct (map_index_cases junk l k Hl Hk) as [(l1 & kk & vv & l2 & -> & Hc & E)|(l1 & l2 & -> & H1 & H2 & E)].
  - exists l1, kk, l2. rewrite lookup_mid by auto.
    replace (same_code kk k) with true by (symmetry; apply same_code_true; auto). cbn [or_nil].
    split; [exact E|]. split; [auto|]. split; [right; rewrite map_app; apply in_app_iff; right; left; auto|].
    split; [intros p Hp; apply in_mid; auto|].
    intros x. assert (Hx : map_ok (l1 ++ (kk, x) :: l2)) by (eapply map_ok_replace; eauto). split; auto.
    intros k'. rewrite lookup_mid by auto. rewrite (lookup_mid _ _ vv) by auto. unfold same_code. rewrite Hc.
    destruct (list_eq_dec _ _ _); auto.
  - exists l1, k, l2.
    assert (Hn : lookup (l1 ++ l2) k = None).
    { apply lookup_none. intros p Hp X. apply in_app_iff in Hp. rewrite Forall_forall in H1, H2.
      destruct Hp as [Hp|Hp]; [specialize (H1 p Hp)|specialize (H2 p Hp)]; cbv beta in *; rewrite X, lex_refl in *; discriminate. }
    rewrite Hn. cbn [or_nil]. split; [exact E|]. split; [auto|]. split; [auto|]. split; [auto|].
    assert (Hm : map_ok (l1 ++ (k, VNil) :: l2)).
    { destruct Hl as [Hs Hf]. split.
      - apply sorted_mid. split; auto. split; [exact H1|]. eapply Forall_impl; [|exact H2]. intros q Hq. unfold clt. cbn [fst].
        rewrite lex_antisym, Hq. reflexivity.
      - apply Forall_app in Hf. apply Forall_app. destruct Hf as [A B]. split; auto. }
    intros x. assert (Hx : map_ok (l1 ++ (k, x) :: l2)) by (eapply map_ok_replace; eauto). split; auto.
    intros k'. rewrite lookup_mid by auto. reflexivity.
Qed.
Lemma map_put_lookup : forall junk l k v, map_ok l -> key k ->
  exists l', map_put junk l k v = Ok l' /\ map_ok l' /\ l' <> [] /\
    (forall p, In p l' -> In p l \/ (snd p = v /\ (fst p = k \/ In (fst p) (map fst l)))) /\
    forall k', lookup l' k' = if same_code k k' then Some v else lookup l k'.
Proof.
  intros junk l k v Hl Hk. destruct (map_index_lookup junk l k Hl Hk) as (l1 & kk & l2 & E & Hc & Hkk & Hin & H).
  exists (l1 ++ (kk, v) :: l2). unfold map_put. rewrite E. cbn [obind]. rewrite nth_error_mid, set_nth_mid.
  destruct (H v) as [A B]. split; [reflexivity|]. split; [auto|].
  split; [destruct l1; discriminate|]. split; auto. intros p Hp. apply in_mid in Hp. destruct Hp as [->|Hp]; auto.
Qed.

(** * Two-level maps *)
Definition inner_ok (v : val) : Prop := v = VNil \/ exists i, v = VMap i /\ map_ok i.
Definition outer (m : val) : list (val * val) := match m with VMap l => l | _ => [] end.
Definition wf2 (m : val) : Prop := (m = VNil \/ exists l, m = VMap l) /\ map_ok (outer m) /\ Forall (fun p => inner_ok (snd p)) (outer m).
Definition look2 (m s k : val) : option val :=
  match lookup (outer m) s with Some i => lookup (outer i) k | None => None end.
Lemma look2_nil : forall s k, look2 VNil s k = None.
Proof. reflexivity. Qed.
Lemma lookup_inner_ok : forall m s i, wf2 m -> lookup (outer m) s = Some i -> inner_ok i.
Proof.
  intros m s i (_ & _ & H) E. apply lookup_some_in in E. destruct E as (kk & Hin & _). rewrite Forall_forall in H.
  apply (H _ Hin).
Qed.
Lemma map_ok_nil : map_ok [].
Proof. split; constructor. Qed.
Lemma inner_ok_map : forall v, inner_ok v -> map_ok (outer v).
Proof. intros v [->|(i & -> & H)]; auto. apply map_ok_nil. Qed.
Lemma assign_inner : forall junk i k v, inner_ok i -> key k ->
  exists l, assign junk i k v = Ok (VMap l) /\ map_put junk (outer i) k v = Ok l /\ map_ok l /\
    forall k', lookup l k' = if same_code k k' then Some v else lookup (outer i) k'.
Proof.
  intros junk i k v Hi Hk. destruct (map_put_lookup junk (outer i) k v (inner_ok_map _ Hi) Hk) as (l & E & Ho & _ & _ & Hl).
  exists l. destruct Hi as [->|(j & -> & _)]; cbn [assign outer] in *; rewrite E; auto.
Qed.
Lemma assign2_ok : forall junk m s k v, wf2 m -> key s -> key k ->
  exists l1 kk l l2, assign2 junk m s k v = Ok (VMap (l1 ++ (kk, VMap l) :: l2)) /\
    wf2 (VMap (l1 ++ (kk, VMap l) :: l2)) /\ code kk = code s /\ (kk = s \/ In kk (map fst (outer m))) /\
    (forall p, In p (l1 ++ l2) -> In p (outer m)) /\
    map_put junk (outer (or_nil (lookup (outer m) s))) k v = Ok l /\
    (forall s', lookup (l1 ++ (kk, VMap l) :: l2) s' = if same_code s s' then Some (VMap l) else lookup (outer m) s') /\
    (forall s' k', look2 (VMap (l1 ++ (kk, VMap l) :: l2)) s' k' =
       if same_code s s' && same_code k k' then Some v else look2 m s' k').
Proof.
  intros junk m s k v Hm Hs Hk. pose proof Hm as (Hm0 & Hok & Hin).
  destruct (map_index_lookup junk (outer m) s Hok Hs) as (l1 & kk & l2 & E & Hc & Hkk & Hsub & H).
  assert (Hi : inner_ok (or_nil (lookup (outer m) s))).
  { destruct (lookup (outer m) s) eqn:El; [eapply lookup_inner_ok; eauto|left; auto]. }
  destruct (assign_inner junk (or_nil (lookup (outer m) s)) k v Hi Hk) as (l & Ea & Ep & Hl & Hll).
  exists l1, kk, l, l2. destruct (H (VMap l)) as [Ho Hlk].
  split.
  { assert (X : assign2 junk m s k v = (let* (l, p) := map_index junk (outer m) s in
      match p with None => Ok (VMap l) | Some i => match nth_error l i with None => UB OutOfBounds
        | Some (kk, inner) => let* inner := assign junk inner k v in Ok (VMap (set_nth l i (kk, inner))) end end)).
    { destruct Hm0 as [->|(ll & ->)]; reflexivity. }
    rewrite X, E. cbn [obind]. rewrite nth_error_mid. rewrite Ea. cbn [obind]. rewrite set_nth_mid. reflexivity. }
  split.
  { split; [right; eauto|]. split; [exact Ho|]. cbn [outer]. apply Forall_forall. intros p Hp. apply in_mid in Hp.
    destruct Hp as [->|Hp]; [right; exists l; auto|]. rewrite Forall_forall in Hin. apply Hin. auto. }
  split; [auto|]. split; [auto|]. split; [auto|]. split; [auto|]. split; [exact Hlk|].
  intros s' k'. unfold look2. cbn [outer]. rewrite Hlk. destruct (same_code s s') eqn:Es; cbn [andb]; auto.
  cbn [outer]. rewrite Hll. apply same_code_true in Es. rewrite <- (lookup_code _ _ _ Es).
  destruct (same_code k k'); auto. destruct (lookup (outer m) s); reflexivity.
Qed.

(** * Strings as keys *)
Lemma vstr_key : forall s, chars s -> nul_free s -> key (vstr s).
Proof. intros. constructor; auto. Qed.
Lemma vstr_code : forall s t, chars s -> chars t -> code (vstr s) = code (vstr t) -> s = t.
Proof.
  intros s t Hs Ht H. unfold vstr in H. rewrite !code_string in H. inversion H as [H']. clear H. revert t Ht H'.
  induction s; destruct t; intros Ht H'; try discriminate; auto. simpl in H'. inversion H'. f_equal.
  - assert (-128 <= a <= 127) by (apply Hs; left; auto). assert (-128 <= z <= 127) by (apply Ht; left; auto).
    unfold uchar in H0. Z.div_mod_to_equations. lia.
  - apply IHs; auto; intros c Hc; [apply Hs|apply Ht]; right; auto.
Qed.
Lemma vstr_inj : forall s t, vstr s = vstr t -> s = t.
Proof.
  intros s t H. assert (X : map char_of (map VChar s) = map char_of (map VChar t)) by (unfold vstr in H; congruence).
  rewrite !map_char_of in X. auto.
Qed.

(** * Lines *)
Lemma cut_prefix : forall (a K V X : list Z) c, K ++ c :: V = a ++ X -> ~ In c a ->
  exists K', K = a ++ K' /\ X = K' ++ c :: V.
Proof.
  induction a as [|d a]; intros K V X c H Hn.
  - exists K. auto.
  - destruct K as [|e K]; simpl in H; inversion H; subst.
    + exfalso. apply Hn. left; auto.
    + destruct (IHa K V X c H2) as (K' & -> & ->); [intros Y; apply Hn; right; auto|]. exists K'. auto.
Qed.
Lemma cut_suffix : forall (b K V X : list Z) c, K ++ c :: V = X ++ b -> ~ In c b ->
  exists V', V = V' ++ b /\ X = K ++ c :: V'.
Proof.
  intros b K V X c H Hn. apply (f_equal (@rev Z)) in H. rewrite !rev_app_distr in H. simpl in H. rewrite <- app_assoc in H. simpl in H.
  destruct (cut_prefix (rev b) (rev V) (rev K) (rev X) c H) as (V' & E1 & E2).
  - intros Y. apply Hn. apply in_rev. auto.
  - apply (f_equal (@rev Z)) in E1. rewrite rev_app_distr, !rev_involutive in E1.
    apply (f_equal (@rev Z)) in E2. rewrite rev_app_distr in E2. simpl in E2. rewrite <- app_assoc in E2. rewrite !rev_involutive in E2.
    exists (rev V'). auto.
Qed.
Lemma first_nonwhite : forall a a' c d r r', all_white a -> all_white a' -> ~ white c -> ~ white d ->
  a ++ c :: r = a' ++ d :: r' -> a = a' /\ c = d /\ r = r'.
Proof.
  induction a as [|x a]; intros a' c d r r' Ha Ha' Hc Hd H; destruct a' as [|y a']; simpl in H; inversion H; subst; auto.
  - exfalso. apply Hc. apply Ha'. left; auto.
  - exfalso. apply Hd. apply Ha. left; auto.
  - destruct (IHa a' c d r r') as (-> & -> & ->); auto; intros z Hz; [apply Ha|apply Ha']; right; auto.
Qed.
Lemma strip_of_trimmed : forall K k, trimmed K k -> (all_white K -> K = []) -> strip_inplace K = Ok k.
Proof.
  intros K k (a & b & -> & Ha & Hb & Hk) Hw. destruct Hk as [->|[H1 H2]].
  - rewrite Hw; [reflexivity|]. apply all_white_app; auto.
  - destruct k as [|c k].
    + rewrite Hw; [reflexivity|]. apply all_white_app; auto.
    + apply C33_strip_exact; auto. discriminate.
Qed.
Lemma line_strip : forall raw P, first_is raw P -> exists a t b c t', raw = a ++ t ++ b /\ all_white a /\ all_white b /\
  t = c :: t' /\ P c /\ ~ white c /\ ~ white (last t 0) /\ strip_inplace raw = Ok t.
Proof.
  intros raw P (a0 & c0 & r0 & E0 & Ha0 & Hc0 & HP).
  destruct (C33_strip_cases raw) as [(-> & _)|[(_ & Hw & _)|(a & t & b & E & Ha & Hb & Ht & Hh & Hl & Hs)]].
  - destruct a0; discriminate.
  - exfalso. apply Hc0. apply Hw. rewrite E0. apply in_app_iff. right. left. auto.
  - destruct t as [|c t]; [congruence|]. simpl in Hh.
    assert (c0 = c).
    { rewrite E in E0. simpl in E0. apply first_nonwhite in E0; auto. destruct E0 as (_ & -> & _). auto. }
    subst c0. exists a, (c :: t), b, c, t. auto 9.
Qed.
Lemma trimmed_left : forall a K k, trimmed (a ++ K) k -> all_white a -> trimmed K k.
Proof.
  intros a K k (x & y & E & Hx & Hy & Hk) Ha. destruct k as [|c k].
  - exists K, []. rewrite app_nil_r. split; [auto|]. split; [|split; [apply all_white_nil|auto]].
    simpl in E. assert (W : all_white (a ++ K)) by (rewrite E; apply all_white_app; auto).
    intros z Hz. apply W. apply in_app_iff; auto.
  - destruct Hk as [Hk|[H1 H2]]; [discriminate|]. simpl in H1.
    symmetry in E. cbn [app] in E. destruct (cut_prefix a x (k ++ y) K c E) as (x' & -> & ->).
    { intros Y. apply H1. apply Ha. auto. }
    exists x', y. split; [auto|]. split; [|auto]. intros z Hz. apply Hx. apply in_app_iff; auto.
Qed.
Lemma trimmed_right : forall b K k, trimmed (K ++ b) k -> all_white b -> trimmed K k.
Proof.
  intros b K k (x & y & E & Hx & Hy & Hk) Hb. destruct k as [|c k].
  - exists K, []. rewrite app_nil_r. split; [auto|]. split; [|split; [apply all_white_nil|auto]].
    simpl in E. assert (W : all_white (K ++ b)) by (rewrite E; apply all_white_app; auto).
    intros z Hz. apply W. apply in_app_iff; auto.
  - destruct Hk as [Hk|[H1 H2]]; [discriminate|].
    destruct (exists_last (l := c :: k) ltac:(discriminate)) as (k' & d & Ek). rewrite Ek in *. rewrite last_last in H2.
    symmetry in E. rewrite <- app_assoc in E. rewrite app_assoc in E. cbn [app] in E.
    destruct (cut_suffix b (x ++ k') y K d E) as (y' & -> & ->).
    { intros Y. apply H2. apply Hb. auto. }
    exists x, y'. split; [rewrite <- !app_assoc; reflexivity|]. split; [auto|]. split; [intros z Hz; apply Hy; apply in_app_iff; auto|].
    right. rewrite last_last. auto.
Qed.
Lemma index_loop_char : forall q p i c, ~ In c p -> index_loop (map VChar (p ++ c :: q)) i (VChar c) = Ok (i + Z.of_nat (length p)).
Proof.
  induction p as [|d p]; intros i c H; cbn [app map index_loop].
  - unfold veq. simpl. rewrite Z.eqb_refl. cbn. f_equal. lia.
  - unfold veq. simpl. destruct (Z.eqb_spec d c); [exfalso; apply H; left; auto|]. cbn [negb obind].
    rewrite IHp by (intros X; apply H; right; auto). f_equal. lia.
Qed.
Lemma index_loop_no_char : forall p i c, ~ In c p -> index_loop (map VChar p) i (VChar c) = Ok (-1).
Proof.
  induction p as [|d p]; intros i c H; cbn [map index_loop]; auto.
  unfold veq. simpl. destruct (Z.eqb_spec d c); [exfalso; apply H; left; auto|]. cbn [negb obind].
  apply IHp. intros X; apply H; right; auto.
Qed.

Lemma glue_head : forall c p P K R, ~ In c p -> ~ In c K -> glue [c] (p :: P) = K ++ c :: R ->
  p = K /\ P <> [] /\ glue [c] P = R.
Proof.
  intros c p P K R Hp HK H. destruct P as [|q P].
  - simpl in H. exfalso. apply Hp. rewrite H. apply in_app_iff. right. left. auto.
  - change (glue [c] (p :: q :: P)) with (p ++ [c] ++ glue [c] (q :: P)) in H. cbn [app] in H.
    revert K HK H. induction p as [|x p]; intros K HK H; destruct K as [|y K]; simpl in H.
    + inversion H. repeat split; auto. discriminate.
    + inversion H. exfalso. apply HK. left; auto.
    + inversion H. exfalso. apply Hp. left; auto.
    + inversion H; subst. destruct (IHp ltac:(intros X; apply Hp; right; auto) K ltac:(intros X; apply HK; right; auto) H2) as (-> & A & B). auto.
Qed.
Lemma glue_single : forall c p P s, ~ In c s -> glue [c] (p :: P) = s -> P = [] /\ p = s.
Proof.
  intros c p P s Hs H. destruct P as [|q P]; auto.
  exfalso. apply Hs. rewrite <- H. change (glue [c] (p :: q :: P)) with (p ++ [c] ++ glue [c] (q :: P)).
  apply in_app_iff. right. left. auto.
Qed.
Lemma occurs_char : forall c s, ~ occurs [c] s -> ~ In c s.
Proof. intros c s H X. apply in_split in X. destruct X as (a & b & ->). apply H. exists a, b. auto. Qed.
Lemma split_pieces : forall s c, nul_free s -> c <> 0 -> exists p P, split (S (length s)) s [c] 0 = Ok (p :: P) /\
  glue [c] (p :: P) = s /\ Forall (fun q => ~ In c q) (p :: P).
Proof.
  intros s c Hs Hc.
  destruct (C30_split_join s [c] (S (length s)) Hs) as (ps & lst & E & G & _ & _ & O); auto; try discriminate.
  { intros [X|[]]. auto. }
  assert (F : Forall (fun q => ~ In c q) (ps ++ [lst])).
  { apply Forall_forall. intros q Hq. apply occurs_char. auto. }
  destruct (ps ++ [lst]) as [|p P] eqn:EP; [destruct ps; discriminate|]. exists p, P. auto.
Qed.
Lemma split_none : forall s c, nul_free s -> c <> 0 -> ~ In c s -> split (S (length s)) s [c] 0 = Ok [s].
Proof.
  intros s c Hs Hc Hn. destruct (split_pieces s c Hs Hc) as (p & P & -> & G & _).
  apply glue_single in G; auto. destruct G as [-> ->]. reflexivity.
Qed.
Lemma split_two : forall K V c, nul_free (K ++ c :: V) -> c <> 0 -> ~ In c K -> ~ In c V ->
  split (S (length (K ++ c :: V))) (K ++ c :: V) [c] 0 = Ok [K; V].
Proof.
  intros K V c Hs Hc HK HV. destruct (split_pieces _ c Hs Hc) as (p & P & -> & G & F). inversion F; subst.
  apply glue_head in G; auto. destruct G as (-> & Hn & G). destruct P as [|q P]; [congruence|].
  apply glue_single in G; auto. destruct G as [-> ->]. reflexivity.
Qed.
Lemma split_more : forall K V R c, nul_free (K ++ c :: V ++ c :: R) -> c <> 0 -> ~ In c K -> ~ In c V ->
  exists P, split (S (length (K ++ c :: V ++ c :: R))) (K ++ c :: V ++ c :: R) [c] 0 = Ok (K :: V :: P).
Proof.
  intros K V R c Hs Hc HK HV. destruct (split_pieces _ c Hs Hc) as (p & P & -> & G & F). inversion F; subst.
  apply glue_head in G; auto. destruct G as (-> & Hn & G). destruct P as [|q P]; [congruence|]. inversion H2; subst.
  apply glue_head in G; auto. destruct G as (-> & Hn' & G). eauto.
Qed.

(** What [ini_line] does with each kind of line. *)
Definition line_effect (st : val * list Z) (it : item) : outcome (val * list Z) :=
  match it with
  | Skip => Ok st
  | Sec name => Ok (fst st, name)
  | Bind k v => let* m := assign2 (VNil, VNil) (fst st) (vstr (snd st)) (vstr k) (vstr v) in Ok (m, snd st)
  end.
Lemma nul_free_sub : forall a t b, nul_free (a ++ t ++ b) -> nul_free t.
Proof. intros a t b H X. apply H. apply in_app_iff. right. apply in_app_iff. auto. Qed.

Lemma kv_ends : forall a t b K V c d t', a ++ t ++ b = K ++ c :: V -> all_white a -> all_white b -> ~ white c ->
  t = d :: t' -> ~ white d -> ~ white (last t 0) ->
  exists K' V', K = a ++ K' /\ V = V' ++ b /\ t = K' ++ c :: V' /\
    (all_white K' -> K' = []) /\ (all_white V' -> V' = []).
Proof.
  intros a t b K V c d t' E Ha Hb Hc Ht Hd Hl. symmetry in E.
  destruct (cut_prefix a K V (t ++ b) c E) as (K' & -> & E1); [intros X; apply Hc; auto|]. symmetry in E1.
  destruct (cut_suffix b K' V t c E1) as (V' & -> & E2); [intros X; apply Hc; auto|].
  exists K', V'. repeat split; auto.
  - destruct K' as [|e K']; auto. intros W. exfalso. apply Hd. apply W. rewrite Ht in E2. inversion E2. left; auto.
  - intros W. destruct V' as [|x V'] using rev_ind; auto. exfalso. apply Hl. rewrite E2.
    replace (K' ++ c :: V' ++ [x]) with ((K' ++ c :: V') ++ [x]) by (rewrite <- app_assoc; reflexivity).
    rewrite last_last. apply W. apply in_app_iff. right. left. auto.
Qed.

Lemma in_sub : forall (x : Z) a l b, ~ In x (a ++ l ++ b) -> ~ In x l.
Proof. intros x a l b H X. apply H. apply in_app_iff. right. apply in_app_iff. auto. Qed.

Lemma ini_line_ok : forall raw it st, nul_free raw -> line_means raw it -> ini_line st raw = line_effect st it.
Proof.
  intros raw it [m sec] Hn H. destruct H; cbn [line_effect fst snd].
  - reflexivity.
  - destruct (line_strip raw _ H) as (a & t & b & c & t' & -> & Ha & Hb & -> & Hc & Hw & Hl & Hs).
    unfold ini_line. rewrite Hs. cbn [obind]. replace ((c =? 59) || (c =? 35)) with true by lia. reflexivity.
  - assert (W91 : ~ white 91) by (unfold white; simpl; intuition discriminate).
    assert (W93 : ~ white 93) by (unfold white; simpl; intuition discriminate).
    assert (F : first_is (a ++ 91 :: name ++ 93 :: r) (fun c => c = 91)).
    { exists a, 91, (name ++ 93 :: r). auto. }
    destruct (line_strip _ _ F) as (a' & t & b & c & t' & E & Ha & Hb & Et & -> & Hw & Hl & Hs).
    assert (E1 : (91 :: name) ++ 93 :: r = t ++ b).
    { subst t. pose proof E as E'. apply first_nonwhite in E'; auto. destruct E' as (_ & _ & E3). cbn [app]. rewrite E3. reflexivity. }
    destruct (cut_suffix b (91 :: name) r t 93 E1) as (r' & -> & E2); [intros X; apply W93; apply Hb; auto|].
    unfold ini_line. rewrite Hs. cbn [obind]. rewrite E2. cbn [app].
    change ((91 =? 59) || (91 =? 35)) with false. change (91 =? 91) with true. cbv iota.
    unfold index. change (elems (vstr (91 :: name ++ 93 :: r'))) with (map VChar ((91 :: name) ++ 93 :: r')).
    assert (I : index_loop (map VChar ((91 :: name) ++ 93 :: r')) 0 (VChar 93) = Ok (0 + Z.of_nat (length (91 :: name)))).
    { apply index_loop_char. intros [X|X]; [discriminate|auto]. }
    unfold vstr. rewrite I. cbn [obind]. replace (0 + Z.of_nat (length (91 :: name)) =? -1) with false by lia.
    rewrite Z.add_0_l, Nat2Z.id.
    change (91 :: name ++ 93 :: r') with ((91 :: name) ++ 93 :: r').
    rewrite firstn_app, Nat.sub_diag, firstn_all, firstn_O, app_nil_r. reflexivity.
  - destruct (line_strip _ _ H) as (a & t & b & c & t' & E & Ha & Hb & Et & Hc & Hw & Hl & Hs).
    assert (W : ~ white 61) by (unfold white; simpl; intuition discriminate). symmetry in E.
    destruct (kv_ends a t b K V 61 c t' E Ha Hb W Et Hw Hl) as (K' & V' & -> & -> & E2 & WK & WV).
    unfold ini_line. rewrite Hs. cbn [obind]. rewrite Et. simpl in Hc.
    replace ((c =? 59) || (c =? 35)) with false by lia. replace (c =? 91) with false by lia. rewrite <- Et, E2.
    rewrite split_two.
    + cbn [obind length Nat.ltb Nat.leb nth].
      rewrite (strip_of_trimmed K' k) by (auto; eapply trimmed_left; eauto).
      rewrite (strip_of_trimmed V' v) by (auto; eapply trimmed_right; eauto). reflexivity.
    + rewrite <- E2. rewrite <- E in Hn. apply nul_free_sub in Hn. auto.
    + discriminate.
    + intros X. apply H0. apply in_app_iff; auto.
    + intros X. apply H1. apply in_app_iff; auto.
  - destruct (line_strip _ _ H) as (a & t & b & c & t' & E & Ha & Hb & Et & Hc & Hw & Hl & Hs).
    assert (W : ~ white 58) by (unfold white; simpl; intuition discriminate). symmetry in E.
    destruct (kv_ends a t b K V 58 c t' E Ha Hb W Et Hw Hl) as (K' & V' & -> & -> & E2 & WK & WV).
    unfold ini_line. rewrite Hs. cbn [obind]. rewrite Et. simpl in Hc.
    replace ((c =? 59) || (c =? 35)) with false by lia. replace (c =? 91) with false by lia. rewrite <- Et, E2.
    assert (Nf : nul_free (K' ++ 58 :: V')) by (rewrite <- E2; rewrite <- E in Hn; apply nul_free_sub in Hn; auto).
    rewrite split_none; auto; try discriminate.
    2:{ intros X. apply H0. rewrite !in_app_iff in *. simpl in X. intuition discriminate. }
    cbn [obind length Nat.ltb Nat.leb nth].
    rewrite split_two; auto; try discriminate.
    + cbn [obind length Nat.ltb Nat.leb nth].
      rewrite (strip_of_trimmed K' k) by (auto; eapply trimmed_left; eauto).
      rewrite (strip_of_trimmed V' v) by (auto; eapply trimmed_right; eauto). reflexivity.
    + intros X. apply H1. apply in_app_iff; auto.
    + intros X. apply H2. apply in_app_iff; auto.
  - destruct (line_strip _ _ H) as (a & t & b & c & t' & E & Ha & Hb & Et & Hc & Hw & Hl & Hs).
    assert (W : ~ white 61) by (unfold white; simpl; intuition discriminate). symmetry in E.
    destruct (kv_ends a t b K (V ++ 61 :: R) 61 c t' E Ha Hb W Et Hw Hl) as (K' & VR & -> & EV & E2 & WK & WV).
    destruct (cut_suffix b V R VR 61 EV) as (R' & -> & ->); [intros X; apply W; auto|].
    unfold ini_line. rewrite Hs. cbn [obind]. rewrite Et. simpl in Hc.
    replace ((c =? 59) || (c =? 35)) with false by lia. replace (c =? 91) with false by lia. rewrite <- Et, E2.
    destruct (split_more K' V R' 61) as (P & ->); auto; try discriminate.
    + rewrite <- E2. rewrite <- E in Hn. apply nul_free_sub in Hn. auto.
    + intros X. apply H0. apply in_app_iff; auto.
    + cbn [obind length Nat.ltb Nat.leb nth].
      rewrite (strip_of_trimmed K' k) by (auto; eapply trimmed_left; eauto).
      rewrite (strip_of_trimmed V v) by auto. reflexivity.
  - destruct (line_strip _ _ H) as (a & t & b & c & t' & E & Ha & Hb & Et & Hc & Hw & Hl & Hs).
    assert (W : ~ white 58) by (unfold white; simpl; intuition discriminate). symmetry in E.
    destruct (kv_ends a t b K (V ++ 58 :: R) 58 c t' E Ha Hb W Et Hw Hl) as (K' & VR & -> & EV & E2 & WK & WV).
    destruct (cut_suffix b V R VR 58 EV) as (R' & -> & ->); [intros X; apply W; auto|].
    unfold ini_line. rewrite Hs. cbn [obind]. rewrite Et. simpl in Hc.
    replace ((c =? 59) || (c =? 35)) with false by lia. replace (c =? 91) with false by lia. rewrite <- Et, E2.
    assert (Nf : nul_free (K' ++ 58 :: V ++ 58 :: R')) by (rewrite <- E2; rewrite <- E in Hn; apply nul_free_sub in Hn; auto).
    rewrite split_none; auto; try discriminate.
    2:{ intros X. apply H0. rewrite !in_app_iff in *. simpl in X. rewrite in_app_iff in X. simpl in X. intuition discriminate. }
    cbn [obind length Nat.ltb Nat.leb nth].
    destruct (split_more K' V R' 58) as (P & ->); auto; try discriminate.
    + intros X. apply H1. apply in_app_iff; auto.
    + cbn [obind length Nat.ltb Nat.leb nth].
      rewrite (strip_of_trimmed K' k) by (auto; eapply trimmed_left; eauto).
      rewrite (strip_of_trimmed V v) by auto. reflexivity.
Qed.
Lemma ini_line_bad : forall raw st, nul_free raw -> bad_section raw \/ bad_entry raw -> exists m, ini_line st raw = Throw m.
Proof.
  intros raw [m sec] Hn [[H H93]|(H & H61 & H58)];
    destruct (line_strip _ _ H) as (a & t & b & c & t' & E & Ha & Hb & Et & Hc & Hw & Hl & Hs);
    unfold ini_line; rewrite Hs; cbn [obind]; rewrite Et; simpl in Hc; subst raw.
  - subst c. change ((91 =? 59) || (91 =? 35)) with false. change (91 =? 91) with true. cbv iota. rewrite <- Et.
    unfold index, vstr. change (elems (VArr TChar (map VChar t))) with (map VChar t).
    rewrite index_loop_no_char by (eapply in_sub; eauto). cbn. eauto.
  - replace ((c =? 59) || (c =? 35)) with false by lia. replace (c =? 91) with false by lia. rewrite <- Et.
    assert (Nf : nul_free t) by (eapply nul_free_sub; eauto).
    rewrite split_none; auto; try discriminate; [|eapply in_sub; eauto]. cbn [obind length Nat.ltb Nat.leb].
    rewrite split_none; auto; try discriminate; [|eapply in_sub; eauto]. cbn [obind length Nat.ltb Nat.leb]. eauto.
Qed.

(** * Whole files *)
Definition good (s : list Z) : Prop := chars s /\ nul_free s.
Definition good_b (b : binding) : Prop := match b with (s, k, _) => good s /\ good k end.

Lemma binding_dec : forall (V : Type) (bs : list (list Z * list Z * V)) s k,
  (exists v, last_binding bs s k v) \/ (forall v, ~ In (s, k, v) bs).
Proof.
  intros V. induction bs as [|[[s' k'] v'] bs]; intros s k; [right; intros v []|].
  destruct (IHbs s k) as [(v & pre & post & -> & H)|H].
  - left. exists v, ((s', k', v') :: pre), post. auto.
  - destruct (list_eq_dec Z.eq_dec s' s); [destruct (list_eq_dec Z.eq_dec k' k)|]; subst.
    + left. exists v', [], bs. auto.
    + right. intros v [X|X]; [congruence|]. eapply H; eauto.
    + right. intros v [X|X]; [congruence|]. eapply H; eauto.
Qed.
Lemma last_binding_in : forall (V : Type) (bs : list (list Z * list Z * V)) s k v, last_binding bs s k v -> In (s, k, v) bs.
Proof. intros V bs s k v (pre & post & -> & _). apply in_app_iff. right. left. auto. Qed.
Lemma last_binding_fun : forall (V : Type) (bs : list (list Z * list Z * V)) s k v w, last_binding bs s k v -> last_binding bs s k w -> v = w.
Proof.
  intros V bs s k v w (p1 & q1 & E1 & H1) (p2 & q2 & E2 & H2). subst bs. revert p2 E2. induction p1 as [|b p1]; intros p2 E2.
  - destruct p2 as [|b p2]; simpl in E2; inversion E2; auto. subst. exfalso. eapply H1. apply in_app_iff. right. left. reflexivity.
  - destruct p2 as [|b' p2]; simpl in E2; inversion E2; subst.
    + exfalso. eapply H2. apply in_app_iff. right. left. reflexivity.
    + eauto.
Qed.
Lemma last_binding_snoc : forall (V : Type) (bs : list (list Z * list Z * V)) s k v s' k' v',
  last_binding (bs ++ [(s, k, v)]) s' k' v' <->
  (s' = s /\ k' = k /\ v' = v) \/ ((s', k') <> (s, k) /\ last_binding bs s' k' v').
Proof.
  intros V bs s k v s' k' v'. split.
  - intros (pre & post & E & H). destruct post as [|x post] using rev_ind.
    + apply app_inj_tail in E. destruct E as [-> E]. inversion E; subst. auto.
    + clear IHpost. rewrite app_comm_cons, app_assoc in E. apply app_inj_tail in E. destruct E as [-> <-]. right. split.
      * intros X. inversion X; subst. eapply H. apply in_app_iff. right. left. reflexivity.
      * exists pre, post. split; auto. intros w Hw. eapply H. apply in_app_iff. left. exact Hw.
  - intros [(-> & -> & ->)|[Hne (pre & post & -> & H)]].
    + exists bs, []. auto.
    + exists pre, (post ++ [(s, k, v)]). rewrite <- app_assoc. split; auto. intros w Hw. apply in_app_iff in Hw.
      destruct Hw as [Hw|[Hw|[]]]; [eapply H; eauto|]. inversion Hw; subst. auto.
Qed.

(** The state after a list of bindings. *)
Definition holds (bs : list binding) (m : val) : Prop :=
  ((m = VNil /\ bs = []) \/ (bs <> [] /\ exists l, m = VMap l)) /\ map_ok (outer m) /\
  (forall kk x, In (kk, x) (outer m) -> exists s i, kk = vstr s /\ chars s /\ x = VMap i /\ map_ok i /\ has_section bs s /\
     forall k2 y, In (k2, y) i -> exists k, k2 = vstr k /\ chars k) /\
  (forall s k v, good s -> good k -> last_binding bs s k v -> look2 m (vstr s) (vstr k) = Some (vstr v)) /\
  (forall s k, good s -> good k -> (forall v, ~ In (s, k, v) bs) -> look2 m (vstr s) (vstr k) = None).
Lemma holds_nil : holds [] VNil.
Proof.
  split; [left; auto|]. split; [apply map_ok_nil|]. split; [intros kk x []|]. split.
  - intros s k v _ _ H. apply last_binding_in in H. destruct H.
  - reflexivity.
Qed.
Lemma holds_wf2 : forall bs m, holds bs m -> wf2 m.
Proof.
  intros bs m (H0 & Hok & Hin & _). split; [|split; auto].
  - destruct H0 as [[-> _]|(_ & l & ->)]; eauto.
  - apply Forall_forall. intros [kk x] Hx. destruct (Hin kk x Hx) as (s & i & _ & _ & -> & Hi & _). right. exists i. auto.
Qed.
Lemma same_code_refl : forall k, same_code k k = true.
Proof. intros. apply same_code_true. auto. Qed.
Lemma same_code_str : forall s t, chars s -> chars t -> same_code (vstr s) (vstr t) = if list_eq_dec Z.eq_dec s t then true else false.
Proof.
  intros s t Hs Ht. destruct (list_eq_dec Z.eq_dec s t); [subst; apply same_code_refl|].
  apply same_code_false. intros X. apply n. apply vstr_code; auto.
Qed.

Lemma holds_bind : forall bs m s k v, holds bs m -> good s -> good k ->
  exists m', assign2 (VNil, VNil) m (vstr s) (vstr k) (vstr v) = Ok m' /\ holds (bs ++ [(s, k, v)]) m'.
Proof.
  intros bs m s k v Hm [Hs1 Hs2] [Hk1 Hk2]. pose proof (holds_wf2 _ _ Hm) as Hw. destruct Hm as (H0 & Hok & Hin & HL & HN).
  destruct (assign2_ok (VNil, VNil) m (vstr s) (vstr k) (vstr v) Hw (vstr_key s Hs1 Hs2) (vstr_key k Hk1 Hk2))
    as (l1 & kk & l & l2 & E & Hw' & Hc & Hkk & Hsub & Hput & Hlk & Hl2).
  exists (VMap (l1 ++ (kk, VMap l) :: l2)). split; [exact E|].
  assert (Ekk : kk = vstr s).
  { destruct Hkk as [Hkk|Hkk]; auto. apply in_map_iff in Hkk. destruct Hkk as ((k1 & x1) & X & Hx). cbn [fst] in X. subst k1.
    destruct (Hin kk x1 Hx) as (s' & _ & -> & Hs' & _). apply vstr_code in Hc; auto. subst. auto. }
  subst kk.
  set (i0 := or_nil (lookup (outer m) (vstr s))) in *.
  assert (Hi0 : forall k2 y, In (k2, y) (outer i0) -> exists k, k2 = vstr k /\ chars k).
  { unfold i0. destruct (lookup (outer m) (vstr s)) eqn:El; [|intros ? ? []]. apply lookup_some_in in El.
    destruct El as (kk & Hx & _). destruct (Hin kk v0 Hx) as (_ & i & _ & _ & -> & _ & _ & X). exact X. }
  assert (Hiok : map_ok (outer i0)).
  { unfold i0. destruct (lookup (outer m) (vstr s)) eqn:El; [|apply map_ok_nil]. eapply inner_ok_map. apply (lookup_inner_ok m (vstr s)); auto. }
  split; [|split; [|split; [|split]]].
  - right. split; [destruct bs; discriminate|eauto].
  - destruct Hw' as (_ & X & _). exact X.
  - intros kk x Hx. cbn [outer] in Hx. apply in_mid in Hx. destruct Hx as [Hx|Hx].
    + inversion Hx; subst. exists s, l. split; [auto|]. split; [auto|]. split; [auto|].
      destruct (map_put_lookup (VNil, VNil) (outer i0) (vstr k) (vstr v) Hiok (vstr_key k Hk1 Hk2)) as (l' & E' & Ho & _ & Hp & _).
      rewrite Hput in E'. inversion E'; subst l'. split; [auto|]. split.
      { exists k, v. apply in_app_iff. right. left. auto. }
      intros k2 y Hy. destruct (Hp _ Hy) as [X|[_ [X|X]]]; cbn [fst] in X.
      * eauto.
      * subst. eauto.
      * apply in_map_iff in X. destruct X as ((k3 & y3) & X & Hy3). cbn [fst] in X. subst. eauto.
    + destruct (Hin kk x (Hsub _ Hx)) as (s' & i & -> & A & -> & B & (k' & v' & C) & D).
      exists s', i. split; [auto|]. split; [auto|]. split; [auto|]. split; [auto|]. split; [|auto]. exists k', v'. apply in_app_iff. auto.
  - intros s' k' v' [Hg1 Hg2] [Hg3 Hg4] HL'. rewrite Hl2, !same_code_str by auto. apply last_binding_snoc in HL'.
    destruct HL' as [(-> & -> & ->)|[Hne HL']].
    + destruct (list_eq_dec Z.eq_dec s s); [|congruence]. destruct (list_eq_dec Z.eq_dec k k); [|congruence]. reflexivity.
    + destruct (list_eq_dec Z.eq_dec s s'); [destruct (list_eq_dec Z.eq_dec k k')|]; subst; cbn [andb]; try congruence;
        (apply HL; [split|split|]; auto).
  - intros s' k' [Hg1 Hg2] [Hg3 Hg4] Hno. rewrite Hl2, !same_code_str by auto.
    destruct (list_eq_dec Z.eq_dec s s'); [destruct (list_eq_dec Z.eq_dec k k')|]; subst; cbn [andb].
    + exfalso. eapply Hno. apply in_app_iff. right. left. reflexivity.
    + apply HN; try split; auto. intros w Hw0. eapply Hno. apply in_app_iff. left. exact Hw0.
    + apply HN; try split; auto. intros w Hw0. eapply Hno. apply in_app_iff. left. exact Hw0.
Qed.

Lemma sorted_map_unique : forall l m, sorted_map l -> sorted_map m -> (forall p q, In (p, q) l <-> In (p, q) m) -> l = m.
Proof.
  intros l m Hl Hm H. apply ValProps.sorted_map_ok in Hl, Hm. destruct Hl as [Hl _], Hm as [Hm _].
  apply sorted_perm_unique; auto. intros [p q]. apply H.
Qed.

Lemma holds_denotes : forall bs m, Forall good_b bs -> holds bs m -> denotes bs m.
Proof.
  intros bs m Hg (H0 & Hok & Hin & HL & HN). destruct H0 as [[-> ->]|(Hne & l & ->)]; [left; auto|].
  cbn [outer] in *. rewrite Forall_forall in Hg.
  assert (K : forall kk x, In (kk, x) l -> key kk).
  { intros kk x Hx. destruct Hok as [_ F]. rewrite Forall_forall in F. apply (F (kk, x) Hx). }
  assert (vstr_nf : forall s, key (vstr s) -> nul_free s).
  { intros s X. inversion X. assert (s0 = s) by (apply vstr_inj; unfold vstr; congruence). subst. auto. }
  assert (Sec : forall s i, chars s -> In (vstr s, VMap i) l -> map_ok i ->
     (forall k2 y, In (k2, y) i -> exists k, k2 = vstr k /\ chars k) -> section_map bs s (VMap i)).
  { intros s i Hs Hx Hi Hik. exists i. split; [auto|]. split; [apply ValProps.sorted_map_ok; auto|].
    assert (gs : good s) by (split; auto; eapply vstr_nf, K; eauto).
    assert (E : lookup l (vstr s) = Some (VMap i)) by (apply lookup_in; auto).
    assert (Ki : forall kk x, In (kk, x) i -> key kk).
    { intros kk x Hx'. destruct Hi as [_ F]. rewrite Forall_forall in F. apply (F (kk, x) Hx'). }
    intros kk x. split.
    - intros Hkx. destruct (Hik kk x Hkx) as (k & -> & Hk). exists k.
      assert (gk : good k) by (split; auto; eapply vstr_nf, Ki; eauto).
      assert (E2 : look2 (VMap l) (vstr s) (vstr k) = Some x).
      { unfold look2. cbn [outer]. rewrite E. cbn [outer]. apply lookup_in; auto. }
      destruct (binding_dec _ bs s k) as [(v & Hb)|Hb].
      + rewrite (HL s k v gs gk Hb) in E2. inversion E2. eauto.
      + rewrite (HN s k gs gk Hb) in E2. discriminate.
    - intros (k & v & -> & -> & Hb).
      assert (gk : good k) by (apply last_binding_in in Hb; apply (Hg _ Hb)).
      pose proof (HL s k v gs gk Hb) as E2. unfold look2 in E2. cbn [outer] in E2. rewrite E in E2. cbn [outer] in E2.
      apply lookup_some_in in E2. destruct E2 as (kk & Hkk & Hc). destruct (Hik _ _ Hkk) as (k' & -> & Hk').
      apply vstr_code in Hc; [subst; auto|auto|apply gk]. }
  right. exists l. split; [auto|]. split; [auto|]. split; [apply ValProps.sorted_map_ok; auto|].
  intros kk x. split.
  - intros Hx. destruct (Hin kk x Hx) as (s & i & -> & Hs & -> & Hi & Hsec & Hik). exists s. split; [auto|]. split; [auto|]. auto.
  - intros (s & -> & (k & v & Hb) & (l' & -> & Hsl & Hmem)).
    assert (gs : good s) by apply (Hg _ Hb). assert (gk : good k) by apply (Hg _ Hb).
    destruct (binding_dec _ bs s k) as [(w & Hw)|Hw]; [|exfalso; eapply Hw; eauto].
    pose proof (HL s k w gs gk Hw) as E2. unfold look2 in E2. cbn [outer] in E2.
    destruct (lookup l (vstr s)) as [y|] eqn:E; [|discriminate].
    apply lookup_some_in in E. destruct E as (kk & Hkk & Hc). destruct (Hin _ _ Hkk) as (s' & i & -> & Hs' & -> & Hi & _ & Hik).
    apply vstr_code in Hc; [|auto|apply gs]. subst s'.
    destruct (Sec s i Hs' Hkk Hi Hik) as (i' & X & Hsi & Hmi). inversion X; subst i'.
    assert (i = l').
    { apply sorted_map_unique; auto. intros p q. rewrite Hmi, Hmem. tauto. }
    subst. auto.
Qed.

(** * Merging configurations *)
Lemma last_binding_app : forall (V : Type) (a b : list (list Z * list Z * V)) s k v,
  last_binding (a ++ b) s k v <-> last_binding b s k v \/ ((forall w, ~ In (s, k, w) b) /\ last_binding a s k v).
Proof.
  intros V a b. revert a. induction b as [|[[s1 k1] v1] b] using rev_ind; intros a s k v.
  - rewrite app_nil_r. split; [intros H; right; split; auto|]. intros [H|[_ H]]; auto. apply last_binding_in in H. destruct H.
  - rewrite app_assoc, !last_binding_snoc, IHb. split.
    + intros [H|[Hn [H|[Hb H]]]]; [left; left; auto|left; right; auto|]. right. split; auto. intros w Hw.
      apply in_app_iff in Hw. destruct Hw as [Hw|[Hw|[]]]; [eapply Hb; eauto|]. inversion Hw; subst. auto.
    + intros [[H|[Hn H]]|[Hb H]]; [left; auto|right; auto|]. right. split.
      * intros X. inversion X; subst. eapply Hb. apply in_app_iff. right. left. reflexivity.
      * right. split; auto. intros w Hw. eapply Hb. apply in_app_iff. left. eauto.
Qed.
Lemma lookup_cons : forall k x t k', lookup ((k, x) :: t) k' = if same_code k k' then Some x else lookup t k'.
Proof. intros. cbn [lookup fst snd]. unfold same_code. destruct (list_eq_dec _ _ _); auto. Qed.
Lemma map_ok_tail : forall p t, map_ok (p :: t) -> map_ok t.
Proof. intros p t [H F]. inversion F; subst. apply StronglySorted_inv in H. split; tauto. Qed.
Lemma head_fresh : forall k x t k', map_ok ((k, x) :: t) -> same_code k k' = true -> lookup t k' = None.
Proof.
  intros k x t k' H E. apply lookup_none. intros p Hp X. apply same_code_true in E.
  eapply (other_codes [] (k, x) t); eauto. cbn [fst]. congruence.
Qed.
Lemma key_head : forall k x t, map_ok ((k, x) :: t) -> key k.
Proof. intros k x t [_ F]. inversion F; subst. auto. Qed.
Definition is_map (m : val) : Prop := exists l, m = VMap l.
Lemma merge_entries_ok : forall s l m, map_ok l -> key s -> wf2 m -> is_map m ->
  exists m', merge_entries m s l = Ok m' /\ wf2 m' /\ is_map m' /\
    forall s' k', look2 m' s' k' = if same_code s s' then match lookup l k' with Some v => Some v | None => look2 m s' k' end
                                   else look2 m s' k'.
Proof.
  intros s. induction l as [|[k x] t]; intros m Hl Hs Hm Hmap.
  - exists m. split; [auto|]. split; [auto|]. split; [auto|]. intros. destruct (same_code s s'); auto.
  - cbn [merge_entries].
    destruct (assign2_ok (VNil, VNil) m s k x Hm Hs (key_head _ _ _ Hl)) as (l1 & kk & l & l2 & -> & Hw & _ & _ & _ & _ & _ & H2).
    cbn [obind]. destruct (IHt _ (map_ok_tail _ _ Hl) Hs Hw) as (m' & E & Hw' & Hi' & H'); [eexists; reflexivity|].
    exists m'. split; [auto|]. split; [auto|]. split; [auto|]. intros s' k'. rewrite H', H2, lookup_cons.
    destruct (same_code s s'); cbn [andb]; auto. destruct (same_code k k') eqn:Ek; auto.
    rewrite (head_fresh _ _ _ _ Hl Ek). auto.
Qed.
Lemma merge_sections_ok : forall l m, map_ok l -> Forall (fun p => inner_ok (snd p)) l -> wf2 m -> is_map m ->
  exists m', merge_sections m l = Ok m' /\ wf2 m' /\ is_map m' /\
    forall s' k', look2 m' s' k' = match look2 (VMap l) s' k' with Some v => Some v | None => look2 m s' k' end.
Proof.
  induction l as [|[s i] t]; intros m Hl Hf Hm Hmap.
  - exists m. auto.
  - inversion Hf as [|? ? Hi Hf']; subst. cbn [snd] in Hi. cbn [merge_sections].
    assert (Hstep : exists m1, match i with VMap s0 => merge_entries m s s0 | _ => Ok m end = Ok m1 /\ wf2 m1 /\ is_map m1 /\
      forall s' k', look2 m1 s' k' = if same_code s s' then match lookup (outer i) k' with Some v => Some v | None => look2 m s' k' end
                                     else look2 m s' k').
    { destruct Hi as [->|(l0 & -> & Hl0)].
      - exists m. split; [auto|]. split; [auto|]. split; [auto|]. intros. cbn [outer lookup]. destruct (same_code s s'); auto.
      - apply merge_entries_ok; auto. eapply key_head; eauto. }
    destruct Hstep as (m1 & E1 & Hw1 & Hi1 & H1).
    destruct (IHt m1 (map_ok_tail _ _ Hl) Hf' Hw1 Hi1) as (m' & E & Hw' & Hi' & H').
    exists m'. split.
    { destruct Hi as [->|(l0 & -> & Hl0)].
      - inversion E1; subst. auto.
      - rewrite E1. cbn [obind]. auto. }
    split; [auto|]. split; [auto|]. intros s' k'. rewrite H', H1. unfold look2. cbn [outer]. rewrite lookup_cons.
    destruct (same_code s s') eqn:Es; auto. rewrite (head_fresh _ _ _ _ Hl Es). auto.
Qed.
Lemma subscript_ok : forall m s, wf2 m -> key s -> exists m', subscript m s = Ok (m', or_nil (lookup (outer m) s)) /\
  wf2 m' /\ is_map m' /\ forall s' k', look2 m' s' k' = look2 m s' k'.
Proof.
  intros m s Hm Hs. pose proof Hm as (Hm0 & Hok & Hin).
  destruct (map_index_lookup (VNil, VNil) (outer m) s Hok Hs) as (l1 & kk & l2 & E & Hc & Hkk & Hsub & H).
  exists (VMap (l1 ++ (kk, or_nil (lookup (outer m) s)) :: l2)). destruct (H (or_nil (lookup (outer m) s))) as [Ho Hl].
  split.
  { destruct Hm0 as [->|(ll & ->)]; cbn [subscript outer] in *; rewrite E; cbn [obind]; rewrite nth_error_mid; auto. }
  split.
  { split; [right; eauto|]. split; [exact Ho|]. cbn [outer]. apply Forall_forall. intros p Hp. apply in_mid in Hp.
    destruct Hp as [->|Hp]; [|rewrite Forall_forall in Hin; auto]. cbn [snd].
    destruct (lookup (outer m) s) eqn:El; [eapply lookup_inner_ok; eauto|left; auto]. }
  split; [eexists; reflexivity|]. intros s' k'. unfold look2. cbn [outer]. rewrite Hl.
  destruct (same_code s s') eqn:Es; auto. apply same_code_true in Es. rewrite <- (lookup_code _ _ _ Es).
  destruct (lookup (outer m) s); auto.
Qed.
Lemma subscript_nil : forall m, wf2 m -> exists m', subscript m VNil = Ok (m', VNil) /\
  wf2 m' /\ is_map m' /\ forall s' k', look2 m' s' k' = look2 m s' k'.
Proof.
  intros m Hm. pose proof Hm as (Hm0 & Hok & Hin). exists (VMap (outer m)).
  split; [destruct Hm0 as [->|(ll & ->)]; reflexivity|]. split; [|split; [eexists; reflexivity|reflexivity]].
  split; [right; eauto|]. auto.
Qed.
Lemma index_lookup : forall i k, map_ok i -> key k ->
  exists n, index (VMap i) k = Ok n /\ (n = -1 <-> lookup i k = None).
Proof.
  intros i k Hi Hk. destruct (ValProps.C29_index_map i k) as [(n & kk & v & E & Hn & He)|[E Hu]]; auto; try (apply ValProps.sorted_map_ok; auto).
  - exists (Z.of_nat n). split; [auto|]. split; [lia|]. intros X. exfalso.
    apply nth_error_In in Hn. eapply (lookup_none_inv _ _ X _ Hn). cbn [fst].
    assert (key kk) by (destruct Hi as [_ F]; rewrite Forall_forall in F; apply (F _ Hn)).
    apply key_equal; auto.
  - exists (-1). split; [auto|]. split; [|auto]. intros _. apply lookup_none. intros [p q] Hp X. cbn [fst] in X.
    assert (key p) by (destruct Hi as [_ F]; rewrite Forall_forall in F; apply (F _ Hp)).
    eapply Hu; eauto. apply key_equal; auto.
Qed.

(** The state of a configuration with the given bindings. *)
Definition chas (cs : list cbinding) (m : val) : Prop :=
  wf2 m /\ is_map m /\
  (forall s k v, good s -> good k -> last_binding cs s k v -> look2 m (vstr s) (vstr k) = Some v) /\
  (forall s k, good s -> good k -> (forall v, ~ In (s, k, v) cs) -> look2 m (vstr s) (vstr k) = None).
Lemma chas_same : forall cs m m', chas cs m -> wf2 m' -> is_map m' -> (forall s' k', look2 m' s' k' = look2 m s' k') -> chas cs m'.
Proof.
  intros cs m m' (_ & _ & A & B) Hw Hi H. split; [auto|]. split; [auto|]. split; intros; rewrite H; auto.
Qed.
Lemma chas_set : forall cs m s k v, chas cs m -> good s -> good k ->
  exists m', assign2 (VNil, VNil) m (vstr s) (vstr k) v = Ok m' /\ chas (cs ++ [(s, k, v)]) m'.
Proof.
  intros cs m s k v (Hw & _ & HL & HN) [Hs1 Hs2] [Hk1 Hk2].
  destruct (assign2_ok (VNil, VNil) m (vstr s) (vstr k) v Hw (vstr_key s Hs1 Hs2) (vstr_key k Hk1 Hk2))
    as (l1 & kk & l & l2 & E & Hw' & _ & _ & _ & _ & _ & Hl2).
  eexists. split; [exact E|]. split; [auto|]. split; [eexists; reflexivity|]. split.
  - intros s' k' v' [Hg1 Hg2] [Hg3 Hg4] HL'. rewrite Hl2, !same_code_str by auto. apply last_binding_snoc in HL'.
    destruct HL' as [(-> & -> & ->)|[Hne HL']].
    + destruct (list_eq_dec Z.eq_dec s s); [|congruence]. destruct (list_eq_dec Z.eq_dec k k); [|congruence]. reflexivity.
    + destruct (list_eq_dec Z.eq_dec s s'); [destruct (list_eq_dec Z.eq_dec k k')|]; subst; cbn [andb]; try congruence;
        (apply HL; [split|split|]; auto).
  - intros s' k' [Hg1 Hg2] [Hg3 Hg4] Hno. rewrite Hl2, !same_code_str by auto.
    destruct (list_eq_dec Z.eq_dec s s'); [destruct (list_eq_dec Z.eq_dec k k')|]; subst; cbn [andb].
    + exfalso. eapply Hno. apply in_app_iff. right. left. reflexivity.
    + apply HN; try split; auto. intros w Hw0. eapply Hno. apply in_app_iff. left. exact Hw0.
    + apply HN; try split; auto. intros w Hw0. eapply Hno. apply in_app_iff. left. exact Hw0.
Qed.
Definition inj (b : binding) : cbinding := match b with (s, k, v) => (s, k, vstr v) end.
Lemma last_inj : forall bs s k x, last_binding (map inj bs) s k x -> exists v, x = vstr v /\ last_binding bs s k v.
Proof.
  intros bs s k x (pre & post & E & H). apply map_eq_app in E. destruct E as (p1 & p2 & -> & <- & E).
  destruct p2 as [|[[s1 k1] v1] p2]; [discriminate|]. cbn [map inj] in E. inversion E; subst. exists v1. split; auto.
  exists p1, p2. split; auto. intros w Hw. apply (H (vstr w)). apply in_map_iff. exists (s, k, w). auto.
Qed.
Lemma chas_merge : forall cs m bs r, chas cs m -> holds bs r ->
  exists m', match r with VMap l => merge_sections m l | _ => Ok m end = Ok m' /\ chas (cs ++ map inj bs) m'.
Proof.
  intros cs m bs r (Hw & Hi & HL & HN) Hr. pose proof (holds_wf2 _ _ Hr) as (_ & Hok & Hin).
  destruct Hr as (H0 & _ & _ & RL & RN). destruct H0 as [[-> ->]|(_ & l & ->)].
  - exists m. cbn [map]. rewrite app_nil_r. split; [auto|]. split; [auto|]. split; [auto|]. auto.
  - destruct (merge_sections_ok l m Hok Hin Hw Hi) as (m' & E & Hw' & Hi' & H). exists m'. split; [auto|].
    split; [auto|]. split; [auto|]. split.
    + intros s k v Hs Hk Hb. rewrite H. apply last_binding_app in Hb. destruct Hb as [Hb|[Hn Hb]].
      * apply last_inj in Hb. destruct Hb as (w & -> & Hb). rewrite (RL s k w); auto.
      * rewrite RN; auto. intros w Hw0. apply (Hn (vstr w)). apply in_map_iff. exists (s, k, w). auto.
    + intros s k Hs Hk Hn. rewrite H, RN, HN; auto.
      * intros v Hv. apply (Hn v). apply in_app_iff. auto.
      * intros v Hv. apply (Hn (vstr v)). apply in_app_iff. right. apply in_map_iff. exists (s, k, v). auto.
Qed.
Lemma sec_cases : forall m s, wf2 m -> let x := or_nil (lookup (outer m) s) in
  x = VNil \/ exists i, x = VMap i /\ map_ok i.
Proof.
  intros m s Hm x. unfold x. destruct (lookup (outer m) s) eqn:El; [|left; auto]. apply (lookup_inner_ok m s); auto.
Qed.
(** A lookup in a section. *)
Lemma find_entry : forall m s k, wf2 m -> key s -> key k -> exists m',
  subscript m s = Ok (m', or_nil (lookup (outer m) s)) /\ wf2 m' /\ is_map m' /\
  (forall s' k', look2 m' s' k' = look2 m s' k') /\
  match look2 m s k with
  | None => vdefined (or_nil (lookup (outer m) s)) = false \/ index (or_nil (lookup (outer m) s)) k = Ok (-1)
  | Some v => vdefined (or_nil (lookup (outer m) s)) = true /\ exists n j, n <> -1 /\
      index (or_nil (lookup (outer m) s)) k = Ok n /\ subscript (or_nil (lookup (outer m) s)) k = Ok (j, v)
  end.
Proof.
  intros m s k Hm Hs Hk. destruct (subscript_ok m s Hm Hs) as (m' & E & Hw & Hi & H). exists m'.
  split; [auto|]. split; [auto|]. split; [auto|]. split; [auto|].
  pose proof (sec_cases m s Hm) as X. cbv zeta in X. unfold look2.
  destruct (lookup (outer m) s) as [x|]; cbn [or_nil] in *; [|left; reflexivity].
  destruct X as [->|(i & -> & Hok)]; [left; reflexivity|]. cbn [outer].
  destruct (index_lookup i k Hok Hk) as (n & En & Hn). rewrite En.
  destruct (lookup i k) as [v|] eqn:El.
  - split; [reflexivity|]. 
    destruct (map_index_lookup (VNil, VNil) i k Hok Hk) as (l1 & kk & l2 & Em & _).
    exists n, (VMap (l1 ++ (kk, v) :: l2)). split; [intros X; apply Hn in X; discriminate|]. split; [auto|].
    cbn [subscript]. rewrite Em. cbn [obind]. rewrite nth_error_mid, El. reflexivity.
  - right. f_equal. apply Hn. auto.
Qed.
