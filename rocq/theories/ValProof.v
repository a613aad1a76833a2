(** Comparison of keys: everything is reduced to the lexicographic order of code lists. *)
From Coq Require Import ZArith Bool List Lia.
From Coq.Floats Require Import SpecFloat.
From Verif Require Import Base StrModel StrSpec StrProof ValModel ValSpec.
Import ListNotations.
Local Open Scope Z_scope.

(** Lexicographic comparison of integer lists. *)
Fixpoint lex (a b : list Z) : comparison :=
  match a, b with
  | [], [] => Eq
  | [], _ :: _ => Lt
  | _ :: _, [] => Gt
  | x :: a', y :: b' => match x ?= y with Eq => lex a' b' | c => c end
  end.

Lemma lex_refl : forall a, lex a a = Eq.
Proof. induction a; simpl; auto. rewrite Z.compare_refl. auto. Qed.
Lemma lex_eq : forall a b, lex a b = Eq -> a = b.
Proof.
  induction a; destruct b; simpl; intros H; try discriminate; auto.
  destruct (Z.compare_spec a z); try discriminate. subst. f_equal. auto.
Qed.
Lemma lex_antisym : forall a b, lex b a = CompOpp (lex a b).
Proof.
  induction a; destruct b; simpl; auto. rewrite (Z.compare_antisym a z).
  destruct (a ?= z); simpl; auto.
Qed.
Lemma lex_trans : forall a b c, lex a b = Lt -> lex b c = Lt -> lex a c = Lt.
Proof.
  induction a; destruct b; destruct c; simpl; intros H1 H2; try discriminate; auto.
  destruct (Z.compare_spec a z); try discriminate; destruct (Z.compare_spec z z0); try discriminate; subst.
  - rewrite Z.compare_refl. eauto.
  - apply Z.compare_lt_iff in H0. rewrite H0. auto.
  - apply Z.compare_lt_iff in H. rewrite H. auto.
  - assert (a < z0) by lia. apply Z.compare_lt_iff in H3. rewrite H3. auto.
Qed.

Definition is_lt (c : comparison) : bool := match c with Lt => true | _ => false end.
Definition is_eq (c : comparison) : bool := match c with Eq => true | _ => false end.

(** Floats. *)
Definition fcode (f : spec_float) : list Z :=
  match f with
  | S754_zero _ => [0; 0; 0]
  | S754_infinity true => [-2; 0; 0]
  | S754_infinity false => [2; 0; 0]
  | S754_nan => [3; 0; 0]
  | S754_finite true m e => [-1; - e; Z.neg m]
  | S754_finite false m e => [1; e; Z.pos m]
  end.

Lemma SFcompare_lex : forall f g, f <> S754_nan -> g <> S754_nan -> SFcompare f g = Some (lex (fcode f) (fcode g)).
Proof.
  intros f g Hf Hg.
  destruct f as [sf|sf| |sf mf ef]; try congruence; destruct g as [sg|sg| |sg mg eg]; try congruence;
    destruct sf; try destruct sg; try reflexivity; cbn [SFcompare fcode lex].
  - change (-1 ?= -1) with Eq. cbv iota. rewrite (Z.compare_opp ef eg), (Z.compare_antisym ef eg).
    destruct (ef ?= eg); cbn [CompOpp]; auto.
    change (Pos.compare_cont Eq mf mg) with (Pos.compare mf mg).
    change (Z.neg mf ?= Z.neg mg) with (CompOpp (Pos.compare mf mg)). destruct (Pos.compare mf mg); reflexivity.
  - change (1 ?= 1) with Eq. cbv iota. destruct (ef ?= eg); auto.
    change (Pos.compare_cont Eq mf mg) with (Pos.compare mf mg).
    change (Z.pos mf ?= Z.pos mg) with (Pos.compare mf mg). destruct (Pos.compare mf mg); reflexivity.
Qed.

Lemma SFltb_lex : forall f g, f <> S754_nan -> g <> S754_nan -> SFltb f g = is_lt (lex (fcode f) (fcode g)).
Proof. intros. unfold SFltb. rewrite SFcompare_lex by auto. destruct (lex _ _); reflexivity. Qed.
Lemma SFeqb_lex : forall f g, f <> S754_nan -> g <> S754_nan -> SFeqb f g = is_eq (lex (fcode f) (fcode g)).
Proof. intros. unfold SFeqb. rewrite SFcompare_lex by auto. destruct (lex _ _); reflexivity. Qed.

(** Strings. *)
Lemma uchar_inj : forall x y, -128 <= x <= 127 -> -128 <= y <= 127 -> uchar x = uchar y -> x = y.
Proof.
  unfold uchar. intros x y Hx Hy H.
  pose proof (Z.div_mod x 256 ltac:(lia)). pose proof (Z.div_mod y 256 ltac:(lia)).
  assert (-1 <= x / 256 <= 0) by (split; [apply Z.div_le_lower_bound|apply Z.lt_succ_r, Z.div_lt_upper_bound]; lia).
  assert (-1 <= y / 256 <= 0) by (split; [apply Z.div_le_lower_bound|apply Z.lt_succ_r, Z.div_lt_upper_bound]; lia).
  lia.
Qed.

Lemma chars_cons : forall c s, chars (c :: s) -> -128 <= c <= 127 /\ chars s.
Proof. intros c s H. split; [apply H; left; auto|intros x Hx; apply H; right; auto]. Qed.

Lemma strcmp_lex : forall a b, chars a -> chars b -> strcmp_lt a b = is_lt (lex (map uchar a) (map uchar b)).
Proof.
  induction a; destruct b; intros Ha Hb; auto. simpl.
  apply chars_cons in Ha. apply chars_cons in Hb. destruct Ha as [Ha1 Ha2]. destruct Hb as [Hb1 Hb2].
  destruct (Z.eqb_spec a z).
  - subst. rewrite Z.compare_refl. auto.
  - destruct (Z.compare_spec (uchar a) (uchar z)).
    + exfalso. apply n. apply uchar_inj; auto.
    + simpl. destruct (Z.ltb_spec (uchar a) (uchar z)); auto; lia.
    + simpl. destruct (Z.ltb_spec (uchar a) (uchar z)); auto; lia.
Qed.

Lemma map_uchar_inj : forall a b, chars a -> chars b -> map uchar a = map uchar b -> a = b.
Proof.
  induction a; destruct b; simpl; intros Ha Hb H; try discriminate; auto.
  apply chars_cons in Ha. apply chars_cons in Hb. destruct Ha. destruct Hb. inversion H. f_equal; auto. apply uchar_inj; auto.
Qed.

Definition code (v : val) : list Z :=
  vtype v :: match v with
  | VChar z | VInt z | VLong z => [z]
  | VFloat f | VDouble f => fcode f
  | VArr _ l => map (fun x => uchar (char_of x)) l
  | _ => []
  end.

Lemma map_char_of : forall s, map char_of (map VChar s) = s.
Proof. induction s; simpl; f_equal; auto. Qed.
Lemma code_string : forall t s, code (VArr t (map VChar s)) = 0 :: map uchar s.
Proof. intros. unfold code. simpl. rewrite map_map. reflexivity. Qed.

Lemma key_lt_code : forall a b, key a -> key b -> vlt a b = Ok (is_lt (lex (code a) (code b))).
Proof.
  intros a b Ha Hb. destruct Ha as [x|x|x|x Hx|x Hx|s Hs Hn]; destruct Hb as [y|y|y|y Hy|y Hy|t Ht Hm];
    try reflexivity; try (cbn; rewrite ?SFltb_lex by auto; reflexivity).
  1-3: cbn; f_equal; unfold Z.ltb; destruct (x ?= y); reflexivity.
  cbn [vlt vtype]. change (negb (0 =? 0)) with false. cbv iota.
  cbn [vdefined negb own_char iface_char andb]. rewrite !code_string. cbn [cstring].
  rewrite !map_char_of, !c_str_id by auto. rewrite strcmp_lex by auto. reflexivity.
Qed.

(** neq on two char arrays of equal length *)
Lemma elems_neq_chars : forall b s t, vdefined b = true -> length s = length t ->
  (fix go (l m : list val) {struct l} : outcome bool :=
    match l with
    | [] => Ok false
    | x :: l' =>
       if negb (vdefined b) then UB NullDeref else
       match m with
       | [] => Throw range_error
       | y :: m' => let* r := vneq x y in if r : bool then Ok true else go l' m'
       end
    end) (map VChar s) (map VChar t) = Ok (if list_eq_dec Z.eq_dec s t then false else true).
Proof.
  intros b s t Hb. rewrite Hb. revert t. induction s; destruct t; intros Hl; try discriminate; auto.
  cbn [map negb vneq vtype vsize]. change (1 =? 1) with true. cbn [negb Z.eqb]. change (1 =? 1) with true.
  change (1 =? 0) with false. cbv iota. cbn [negb scalar_neq obind].
  change (1 =? 1) with true. cbn [negb].
  destruct (Z.eqb_spec a z); cbn [negb].
  - subst. simpl in IHs. rewrite IHs by (simpl in Hl; lia).
    destruct (list_eq_dec Z.eq_dec s t), (list_eq_dec Z.eq_dec (z :: s) (z :: t)); first [reflexivity | exfalso; congruence].
  - destruct (list_eq_dec Z.eq_dec (a :: s) (z :: t)); first [reflexivity | exfalso; congruence].
Qed.

Lemma key_neq_code : forall a b, key a -> key b -> vneq a b = Ok (negb (is_eq (lex (code a) (code b)))).
Proof.
  intros a b Ha Hb. destruct Ha as [x|x|x|x Hx|x Hx|s Hs Hn]; destruct Hb as [y|y|y|y Hy|y Hy|t Ht Hm];
    try reflexivity; try (cbn; rewrite ?SFeqb_lex by auto; reflexivity).
  1-3: cbn; destruct (Z.eqb_spec x y); [subst; rewrite Z.compare_refl; reflexivity|];
       destruct (Z.compare_spec x y); try reflexivity; lia.
  rewrite !code_string. cbn [vneq vtype]. change (negb (0 =? 0)) with false. cbv iota.
  unfold vsize. cbn [vtype hsize]. change (0 =? 0) with true. cbv iota. rewrite !map_length.
  cbn [lex]. change (0 ?= 0) with Eq. cbv iota.
  destruct (Z.eqb_spec (Z.of_nat (length s)) (Z.of_nat (length t))).
  - cbn [negb own_elems]. rewrite elems_neq_chars by (auto; lia).
    destruct (list_eq_dec Z.eq_dec s t).
    + subst. rewrite lex_refl. reflexivity.
    + destruct (lex (map uchar s) (map uchar t)) eqn:E; auto.
      apply lex_eq in E. apply map_uchar_inj in E; auto. congruence.
  - cbn [negb]. destruct (lex (map uchar s) (map uchar t)) eqn:E; auto.
    apply lex_eq in E. apply map_uchar_inj in E; auto. subst. congruence.
Qed.

Lemma key_eq_code : forall a b, key a -> key b -> veq a b = Ok (is_eq (lex (code a) (code b))).
Proof. intros. unfold veq. rewrite key_neq_code by auto. cbn. rewrite negb_involutive. reflexivity. Qed.

Lemma key_less : forall a b, key a -> key b -> less a b <-> lex (code a) (code b) = Lt.
Proof.
  intros a b Ha Hb. unfold less. rewrite key_lt_code by auto. destruct (lex _ _); simpl; split; intros H; congruence.
Qed.
Lemma key_equal : forall a b, key a -> key b -> equal a b <-> code a = code b.
Proof.
  intros a b Ha Hb. unfold equal. rewrite key_eq_code by auto. split.
  - destruct (lex _ _) eqn:E; simpl; intros H; try discriminate. apply lex_eq. auto.
  - intros ->. rewrite lex_refl. reflexivity.
Qed.

(** Binary search. *)
Lemma binary_loop_total : forall f less l lo hi, (forall x, In x l -> is_ok (less x)) ->
  0 <= lo <= hi -> hi <= Z.of_nat (length l) -> hi - lo < Z.of_nat f ->
  exists p, binary_loop f less l lo hi = Ok p /\ lo <= p <= hi.
Proof.
  induction f; intros less l lo hi Hok Hlo Hhi Hf; [lia|]. cbn [binary_loop].
  destruct (Z.eqb_spec lo hi); [exists hi; split; auto; lia|].
  assert (Hd : 0 <= (hi - lo) / 2 < hi - lo) by (split; [apply Z.div_pos|apply Z.div_lt_upper_bound]; lia).
  destruct (Z.ltb_spec ((hi - lo) / 2 + lo) 0); [lia|].
  destruct (nth_error l (Z.to_nat ((hi - lo) / 2 + lo))) as [x|] eqn:E.
  2:{ apply nth_error_None in E. lia. }
  destruct (Hok x (nth_error_In _ _ E)) as [b Hb]. rewrite Hb. cbn [obind]. destruct b.
  - destruct (IHf less l ((hi - lo) / 2 + lo + 1) hi Hok ltac:(lia) Hhi ltac:(lia)) as (p & Hp & ?).
    exists p. split; auto. lia.
  - destruct (IHf less l lo ((hi - lo) / 2 + lo) Hok ltac:(lia) ltac:(lia) ltac:(lia)) as (p & Hp & ?).
    exists p. split; auto. lia.
Qed.

(** If [lt] holds on a prefix, the search finds its end. *)
Lemma binary_loop_bound : forall f (lt : val -> bool) l n lo hi,
  (forall i x, nth_error l i = Some x -> (lt x = true <-> Z.of_nat i < n)) ->
  0 <= lo <= hi -> hi <= Z.of_nat (length l) -> hi - lo < Z.of_nat f -> lo <= n <= hi ->
  binary_loop f (fun x => Ok (lt x)) l lo hi = Ok n.
Proof.
  induction f; intros lt l n lo hi Hn Hlo Hhi Hf Hr; [lia|]. cbn [binary_loop].
  destruct (Z.eqb_spec lo hi); [f_equal; lia|].
  assert (Hd : 0 <= (hi - lo) / 2 < hi - lo) by (split; [apply Z.div_pos|apply Z.div_lt_upper_bound]; lia).
  destruct (Z.ltb_spec ((hi - lo) / 2 + lo) 0); [lia|].
  destruct (nth_error l (Z.to_nat ((hi - lo) / 2 + lo))) as [x|] eqn:E.
  2:{ apply nth_error_None in E. lia. }
  cbn [obind]. destruct (lt x) eqn:L.
  - apply (Hn _ _ E) in L. apply IHf; auto; lia.
  - assert (~ Z.of_nat (Z.to_nat ((hi - lo) / 2 + lo)) < n).
    { intros X. apply (Hn _ _ E) in X. congruence. }
    apply IHf; auto; lia.
Qed.

Lemma binary_loop_ext : forall f g h l lo hi, (forall x, In x l -> g x = h x) ->
  binary_loop f g l lo hi = binary_loop f h l lo hi.
Proof.
  induction f; intros g h l lo hi H; auto. cbn [binary_loop].
  destruct (lo =? hi); auto. destruct (if _ <? 0 then None else _) as [x|] eqn:E; auto.
  assert (In x l) by (destruct (_ <? 0); [discriminate|eapply nth_error_In; eauto]).
  rewrite (H x) by auto. destruct (h x) as [b| | |]; cbn [obind]; auto.
  destruct b; apply IHf; auto.
Qed.

Lemma binary_bound : forall (lt : val -> bool) l n x, (forall y, In y l -> vlt y x = Ok (lt y)) ->
  (forall i y, nth_error l i = Some y -> (lt y = true <-> (i < n)%nat)) -> (n <= length l)%nat ->
  binary l x = Ok (Z.of_nat n).
Proof.
  intros lt l n x Hlt Hn Hl. unfold binary. destruct (Z.eqb_spec (Z.of_nat (length l)) 0).
  - f_equal. lia.
  - rewrite (binary_loop_ext _ _ (fun y => Ok (lt y))) by auto.
    apply binary_loop_bound; try lia.
    intros i y H. rewrite (Hn i y H). lia.
Qed.

(** Where a prefix ends: for a list partitioned by [p]. *)
Lemma partition_point : forall (p : val -> bool) l,
  (forall i j x y, (i < j)%nat -> nth_error l i = Some x -> nth_error l j = Some y -> p y = true -> p x = true) ->
  exists n, (n <= length l)%nat /\ forall i y, nth_error l i = Some y -> (p y = true <-> (i < n)%nat).
Proof.
  induction l as [|x l]; intros H.
  - exists 0%nat. split; auto. intros i y E. destruct i; discriminate.
  - destruct IHl as (n & Hn & Hp).
    { intros i j a b Hij Ha Hb Hpb. apply (H (S i) (S j) a b); auto; lia. }
    destruct (p x) eqn:E.
    + exists (S n). split; [simpl; lia|]. intros i y Hy. destruct i as [|i].
      * simpl in Hy. inversion Hy; subst. rewrite E. split; auto; lia.
      * simpl in Hy. rewrite (Hp i y Hy). lia.
    + exists 0%nat. split; [lia|]. intros i y Hy. split; [|lia]. intros Hpy. exfalso.
      destruct i as [|i]; [simpl in Hy; inversion Hy; subst; congruence|].
      simpl in Hy. assert (p x = true) by (apply (H 0%nat (S i) x y); auto; lia). congruence.
Qed.

(** Insertion. *)
Lemma shift1_up : forall A n (a : list A) i d, shift1 a i d n = shift_up a 1 i 0 d n.
Proof. induction n; intros; simpl; auto. Qed.
Lemma shift_up_lo : forall A n (a : list A) k i lo lo' d, shift_up a k i lo d n = shift_up a k i lo' d n.
Proof. induction n; intros; simpl; auto. Qed.

Lemma insert_gap : forall A (junk : A) l x i, (i <= length l)%nat ->
  set_nth (open_gap junk l i) i x = firstn i l ++ x :: skipn i l.
Proof.
  intros A junk l x i Hi.
  assert (E : set_nth (open_gap junk l i) i x = dense_insert junk l [x] i).
  { unfold open_gap, dense_insert. cbn [repeat length copy_in]. rewrite shift1_up, app_length. cbn [length].
    rewrite (shift_up_lo _ _ _ _ _ 0 i). replace (length l + 1 - 1 - i)%nat with (length l - i)%nat by lia.
    reflexivity. }
  rewrite E, dense_insert_spec by auto. reflexivity.
Qed.

Lemma insert_var_ok : forall junk l x i, (i <= length l)%nat ->
  insert_var junk l x (Z.of_nat i) = Ok (firstn i l ++ x :: skipn i l).
Proof.
  intros. unfold insert_var. destruct (Z.ltb_spec (Z.of_nat (length l)) (Z.of_nat i)); [lia|].
  destruct (Z.ltb_spec (Z.of_nat i) 0); [lia|]. rewrite Nat2Z.id, insert_gap by auto. reflexivity.
Qed.
Lemma insert_pair_ok : forall junk l k i, (i <= length l)%nat ->
  insert_pair junk l k (Z.of_nat i) = Ok (firstn i l ++ (k, VNil) :: skipn i l).
Proof.
  intros. unfold insert_pair. destruct (Z.ltb_spec (Z.of_nat (length l)) (Z.of_nat i)); [lia|].
  destruct (Z.ltb_spec (Z.of_nat i) 0); [lia|]. rewrite Nat2Z.id, insert_gap by auto. reflexivity.
Qed.
