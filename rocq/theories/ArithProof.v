(** Lemmas for the arithmetic of numbers. *)
From Coq Require Import ZArith Bool List String Lia Zquot.
From Coq.Floats Require Import SpecFloat.
From Verif Require Import Base StrModel ValModel NumModel EqProof ArithModel ArithSpec.
Import ListNotations.
Local Open Scope list_scope.
Local Open Scope Z_scope.
Local Notation length := List.length.

Lemma z_op_exact : forall op a b r, exact op a b r -> z_op op a b = Ok r.
Proof.
  intros [] a b r H; cbn in *; subst; auto. destruct H as (B & m & E & L & S). destruct (Z.eqb_spec b 0); [contradiction|]. f_equal.
  symmetry. apply (Zquot_mod_unique_full a b r m); auto. unfold Remainder. lia.
Qed.
Lemma z_op_only : forall op a b r, z_op op a b = Ok r -> exact op a b r.
Proof.
  intros [] a b r H; cbn in *; try congruence. destruct (Z.eqb_spec b 0) as [|B]; [discriminate|]. injection H as <-. split; auto.
  exists (Z.rem a b). split; [apply Z.quot_rem'|]. pose proof (Z.rem_bound_abs a b B). split; auto. destruct (Z_le_gt_dec 0 a).
  - left. split; auto. pose proof (Z.rem_nonneg a b B l). auto.
  - right. split; [|lia]. pose proof (Z.rem_nonpos a b B ltac:(lia)). auto.
Qed.
Lemma z_op_zero : forall op a b k, z_op op a b = UB k <-> op = Div /\ b = 0 /\ k = DivByZero.
Proof.
  intros [] a b k; cbn; split; intros H; try discriminate H; try (destruct H as (H & _); discriminate H).
  - destruct (Z.eqb_spec b 0); [injection H as <-; auto|discriminate].
  - destruct H as (_ & -> & ->). reflexivity.
Qed.
Lemma in_int_iff : forall z, in_int z = true <-> int_range z.
Proof. intros. unfold in_int, int_range, INT_MIN, INT_MAX. rewrite andb_true_iff, !Z.leb_le. lia. Qed.
Lemma in_long_iff : forall z, in_long z = true <-> long_range z.
Proof. intros. unfold in_long, long_range, LONG_MIN, LONG_MAX. rewrite andb_true_iff, !Z.leb_le. lia. Qed.
Lemma wrap_is : forall bits z w, 0 < bits -> wrapped (2 ^ bits) z w -> wrap bits z = w.
Proof.
  intros bits z w B (R & k & E). unfold wrap. assert (P : 2 ^ bits = 2 * 2 ^ (bits - 1)) by (rewrite <- Z.pow_succ_r by lia; f_equal; lia).
  assert (0 < 2 ^ (bits - 1)) by (apply Z.pow_pos_nonneg; lia).
  subst z. replace (w + 2 ^ bits * k + 2 ^ (bits - 1)) with (w + 2 ^ (bits - 1) + k * 2 ^ bits) by ring.
  rewrite Z.mod_add by lia. rewrite Z.mod_small by lia. ring.
Qed.
Lemma wrap_wrapped : forall bits z, 0 < bits -> wrapped (2 ^ bits) z (wrap bits z).
Proof.
  intros bits z B. unfold wrapped, wrap. assert (P : 2 ^ bits = 2 * 2 ^ (bits - 1)) by (rewrite <- Z.pow_succ_r by lia; f_equal; lia).
  assert (0 < 2 ^ (bits - 1)) by (apply Z.pow_pos_nonneg; lia). pose proof (Z.mod_pos_bound (z + 2 ^ (bits - 1)) (2 ^ bits) ltac:(lia)).
  split; [lia|]. exists ((z + 2 ^ (bits - 1)) / 2 ^ bits). pose proof (Z.div_mod (z + 2 ^ (bits - 1)) (2 ^ bits) ltac:(lia)). lia.
Qed.
Lemma wrap_id : forall bits z, 0 < bits -> - 2 ^ (bits - 1) <= z < 2 ^ (bits - 1) -> wrap bits z = z.
Proof.
  intros bits z B H. apply wrap_is; auto. assert (P : 2 ^ bits = 2 * 2 ^ (bits - 1)) by (rewrite <- Z.pow_succ_r by lia; f_equal; lia).
  split; [lia|]. exists 0. lia.
Qed.
Lemma wrap_char_is : forall z w, wrapped 256 z w -> wrap_char z = w.
Proof. intros. apply (wrap_is 8); [lia|assumption]. Qed.
Lemma wrap_char_small : forall z, char_range z -> wrap_char z = z.
Proof. intros z H. apply wrap_id; [lia|]. unfold char_range in H. change (2 ^ (8 - 1)) with 128. lia. Qed.
Lemma wrap_int_small : forall z, int_range z -> wrap_int z = z.
Proof. intros z H. apply wrap_id; [lia|]. unfold int_range in H. change (2 ^ (32 - 1)) with 2147483648. lia. Qed.
Lemma wrap_long_small : forall z, long_range z -> wrap_long z = z.
Proof. intros z H. apply wrap_id; [lia|]. unfold long_range in H. change (2 ^ (64 - 1)) with 9223372036854775808. lia. Qed.

Lemma trunc_part : forall f z, integer_part f z <-> float_trunc f = Some z.
Proof.
  intros [s|s| |s m e] z; cbn [integer_part float_trunc]; try (split; [intros []|discriminate]); [split; congruence|].
  set (a := if 0 <=? e then Z.pos m * 2 ^ e else Z.pos m / 2 ^ (- e)).
  assert (K : forall mag, (0 <= mag /\ (exists n d, n > 0 /\ d > 0 /\ Z.pos m * 2 ^ Z.max 0 e = n /\ 2 ^ Z.max 0 (- e) = d /\ mag * d <= n < (mag + 1) * d)) <-> mag = a).
  { intros mag. subst a. destruct (Z.leb_spec 0 e).
    - rewrite Z.max_r by lia. rewrite Z.max_l by lia. assert (0 < 2 ^ e) by (apply Z.pow_pos_nonneg; lia). change (2 ^ 0) with 1. split.
      + intros (_ & n & d & _ & _ & <- & <- & B). lia.
      + intros ->. split; [lia|]. exists (Z.pos m * 2 ^ e), 1. lia.
    - rewrite Z.max_l by lia. rewrite Z.max_r by lia. assert (0 < 2 ^ (- e)) by (apply Z.pow_pos_nonneg; lia). change (2 ^ 0) with 1. split.
      + intros (_ & n & d & _ & _ & <- & <- & B). apply (Z.div_unique _ _ _ (Z.pos m - mag * 2 ^ (- e))); [left|]; lia.
      + intros ->. split; [apply Z.div_pos; lia|]. exists (Z.pos m * 1), (2 ^ (- e)).
        pose proof (Z.div_mod (Z.pos m) (2 ^ (- e)) ltac:(lia)). pose proof (Z.mod_pos_bound (Z.pos m) (2 ^ (- e)) ltac:(lia)).
        split; [lia|]. split; [lia|]. split; auto. split; auto. nia. }
  destruct s; rewrite K; split; intros H; try (f_equal; lia); try (injection H as H; lia).
Qed.
Lemma cast_F_in : forall t f z lo hi, float_trunc f = Some z -> lo <= z <= hi ->
  (t = TChar /\ lo = -128 /\ hi = 127 \/ t = TInt /\ lo = INT_MIN /\ hi = INT_MAX \/ t = TLong /\ lo = LONG_MIN /\ hi = LONG_MAX) ->
  cast_F t f = Ok (match t with TChar => VChar z | TInt => VInt z | _ => VLong z end).
Proof.
  intros t f z lo hi E R [(-> & -> & ->)|[(-> & -> & ->)|(-> & -> & ->)]]; unfold cast_F; rewrite E;
    match goal with |- (if ?b then _ else _) = _ => replace b with true; [reflexivity|symmetry; apply andb_true_iff; rewrite !Z.leb_le; auto] end.
Qed.
Ltac same_number H := cbn in H; match type of H with vtype ?y = _ => destruct y; try discriminate H | _ = vtype ?y => destruct y; try discriminate H end.

Lemma taken_cast : forall x y y', is_number x -> taken_as x y y' -> cast (ety_of x) y = Ok y' /\ vtype y' = vtype x.
Proof.
  intros x y y' N T. destruct T as [x y E|a y z w E Y W|a z R|a z w W|a y z Y R|a y f z Y P R|a y f z Y P R|a y f z Y P R|a f|a f|a y z Y|a y z Y].
  - destruct x; try contradiction N; same_number E; split; reflexivity.
  - destruct Y as [-> | ->]; cbn; rewrite (wrap_char_is _ _ W); auto.
  - cbn. rewrite wrap_int_small by (unfold int_range; unfold char_range in R; lia). auto.
  - cbn. assert (K : wrap_int z = w) by (apply (wrap_is 32); [lia|exact W]). rewrite K. auto.
  - destruct Y as [-> | ->]; cbn; rewrite (wrap_long_small _ R); auto.
  - apply trunc_part in P. destruct Y as [-> | ->]; (split; [|reflexivity]);
      apply (cast_F_in TChar f z (-128) 127 P R); auto.
  - apply trunc_part in P. destruct Y as [-> | ->]; (split; [|reflexivity]);
      apply (cast_F_in TInt f z INT_MIN INT_MAX P R); auto.
  - apply trunc_part in P. destruct Y as [-> | ->]; (split; [|reflexivity]);
      apply (cast_F_in TLong f z LONG_MIN LONG_MAX P R); auto.
  - split; reflexivity.
  - split; reflexivity.
  - destruct Y as [->|[->| ->]]; split; reflexivity.
  - destruct Y as [->|[->| ->]]; split; reflexivity.
Qed.
Lemma char_exact_int : forall op a b r, char_range a -> char_range b -> exact op a b r -> int_range r.
Proof.
  intros op a b r A B E. unfold char_range, int_range in *. destruct op; cbn in E; [lia|lia| |].
  - assert (Z.abs r <= 128 * 128) by (subst r; rewrite Z.abs_mul; apply Z.mul_le_mono_nonneg; lia). lia.
  - destruct E as (Z0 & m & -> & L & S).
    assert (Z.abs r <= 200); [|lia]. destruct (Z_le_gt_dec (Z.abs r) 200); auto. exfalso.
    assert (Z.abs (b * r) >= 201) by (rewrite Z.abs_mul; pose proof (Z.mul_le_mono_nonneg 1 (Z.abs b) 201 (Z.abs r) ltac:(lia) ltac:(lia) ltac:(lia) ltac:(lia)); lia).
    lia.
Qed.
Lemma num_op_ok : forall op x y y' r, is_number x -> taken_as x y y' -> result op x y' r -> num_op op x y = Ok r.
Proof.
  intros op x y y' r N T Rs. destruct (taken_cast x y y' N T) as (E & _).
  destruct Rs as [a b r c Ra Rb X Rc (k & K)|a b r X R|a b r X R|a b r X|a b r X]; cbn [num_op ety_of] in *; rewrite E; cbn [obind]; unfold s_op;
    try rewrite (z_op_exact _ _ _ _ X); cbn [obind].
  - pose proof (char_exact_int _ _ _ _ Ra Rb X) as I. apply in_int_iff in I. rewrite I. cbn [obind].
    rewrite (wrap_char_is r c); auto. split; [unfold char_range in Rc; lia|exists k; auto].
  - apply in_int_iff in R. rewrite R. reflexivity.
  - apply in_long_iff in R. rewrite R. reflexivity.
  - destruct op; cbn in *; subst; reflexivity.
  - destruct op; cbn in *; subst; reflexivity.
Qed.
Lemma cast_taken : forall x y y', is_number x -> is_number y -> holds y -> cast (ety_of x) y = Ok y' -> taken_as x y y'.
Proof.
  assert (F1 : forall t f y', cast_F t f = Ok y' -> match t with
    | TChar => exists z, y' = VChar z /\ integer_part f z /\ char_range z
    | TInt => exists z, y' = VInt z /\ integer_part f z /\ int_range z
    | TLong => exists z, y' = VLong z /\ integer_part f z /\ long_range z
    | _ => True end).
  { intros t f y'. unfold cast_F. destruct t; auto; destruct (float_trunc f) as [z|] eqn:E; try discriminate; apply trunc_part in E;
      match goal with |- (if ?b then _ else _) = _ -> _ => destruct b eqn:B; try discriminate end; intros [= <-]; exists z; (split; [reflexivity|]); (split; [exact E|]);
      apply andb_true_iff in B; rewrite !Z.leb_le in B; [exact B| |]; unfold int_range, long_range; unfold INT_MIN, INT_MAX, LONG_MIN, LONG_MAX in B; lia. }
  intros x y y' Nx Ny H E.
  destruct x as [|a|a|a|a|a| | |]; try contradiction Nx; destruct y as [|b|b|b|b|b| | |]; try contradiction Ny; cbn [ety_of cast] in E;
    try (injection E as <-; apply taken_same; reflexivity).
  all: try (apply F1 in E; cbn in E; destruct E as (z & -> & P & R)).
  all: try (injection E as <-).
  - eapply taken_char; [discriminate|left; reflexivity|apply (wrap_wrapped 8); lia].
  - eapply taken_char; [discriminate|right; reflexivity|apply (wrap_wrapped 8); lia].
  - eapply taken_char_f; eauto.
  - eapply taken_char_f; eauto.
  - rewrite wrap_int_small by (cbn in H; unfold int_range; unfold char_range in H; lia). apply taken_int_c. exact H.
  - apply taken_int_l. apply (wrap_wrapped 32). lia.
  - eapply taken_int_f; eauto.
  - eapply taken_int_f; eauto.
  - assert (R : long_range b) by (cbn in H; unfold long_range; unfold char_range in H; lia). rewrite wrap_long_small by exact R. apply taken_long; auto.
  - assert (R : long_range b) by (cbn in H; unfold long_range; unfold int_range in H; lia). rewrite wrap_long_small by exact R. apply taken_long; auto.
  - eapply taken_long_f; eauto.
  - eapply taken_long_f; eauto.
  - apply taken_float_i. auto.
  - apply taken_float_i. auto.
  - apply taken_float_i. auto.
  - apply taken_float_d.
  - apply taken_double_i. auto.
  - apply taken_double_i. auto.
  - apply taken_double_i. auto.
  - apply taken_double_f.
Qed.
Lemma taken_holds : forall x y y', holds y -> taken_as x y y' -> holds y'.
Proof.
  intros x y y' H T. destruct T; cbn; auto.
  - match goal with W : wrapped _ _ _ |- _ => destruct W; unfold char_range; lia end.
  - unfold int_range; unfold char_range in *; lia.
  - match goal with W : wrapped _ _ _ |- _ => destruct W; unfold int_range; lia end.
Qed.
Lemma num_op_only : forall op x y r, is_number x -> is_number y -> holds x -> holds y -> num_op op x y = Ok r -> op_by op y x r.
Proof.
  intros op x y r Nx Ny Hx Hy E. destruct (cast (ety_of x) y) as [y'| | |] eqn:C; [|destruct x; try contradiction Nx; cbn [num_op ety_of] in *; rewrite C in E; discriminate E..].
  pose proof (cast_taken x y y' Nx Ny Hy C) as T. pose proof (taken_holds _ _ _ Hy T) as Hy'. exists y'. split; [exact T|].
  destruct x as [|a|a|a|a|a| | |]; try contradiction Nx; cbn [num_op ety_of] in *; rewrite C in E; cbn [obind] in E; destruct y' as [|b|b|b|b|b| | |]; try discriminate E; unfold s_op in E.
  - destruct (z_op op a b) as [v| | |] eqn:O; cbn [obind] in E; try discriminate E. destruct (in_int v); [|discriminate E]. injection E as <-.
    apply z_op_only in O. destruct (wrap_wrapped 8 v ltac:(lia)) as (R & k & K). eapply res_char; eauto. unfold char_range. change (2 ^ 8) with 256 in R. unfold wrap_char. lia.
  - destruct (z_op op a b) as [v| | |] eqn:O; cbn [obind] in E; try discriminate E. destruct (in_int v) eqn:I; [|discriminate E]. injection E as <-.
    apply z_op_only in O. apply in_int_iff in I. apply res_int; auto.
  - destruct (z_op op a b) as [v| | |] eqn:O; cbn [obind] in E; try discriminate E. destruct (in_long v) eqn:I; [|discriminate E]. injection E as <-.
    apply z_op_only in O. apply in_long_iff in I. apply res_long; auto.
  - injection E as <-. apply res_float. destruct op; reflexivity.
  - injection E as <-. apply res_double. destruct op; reflexivity.
Qed.
Lemma result_type : forall op x y r, result op x y r -> vtype r = vtype x.
Proof. intros op x y r []; reflexivity. Qed.
Lemma op_by_num : forall op x y r, is_number x -> op_by op y x r -> num_op op x y = Ok r /\ vtype r = vtype x.
Proof. intros op x y r N (y' & T & R). split; [eapply num_op_ok; eauto|eapply result_type; eauto]. Qed.

(** * One pass over an array *)
Lemma scalar_number : forall op b y x out, is_number x -> scalar op b y x out = store out (num_op op x y).
Proof. intros op b y x out N. destruct x; try contradiction N; reflexivity. Qed.
Lemma number_size : forall y, is_number y -> is_view y = false /\ vsize y =? 1 = true.
Proof. intros y N. destruct y; try contradiction N; auto. Qed.
Lemma over_ok : forall f l lo r, Forall2 (fun p o => f (fst p) (snd p) = (o, Ok tt)) (combine l lo) r -> length l = length lo -> over f l lo = (r, Ok tt).
Proof.
  intros f l. induction l as [|x l IH]; intros [|o lo] r F L; try discriminate L; inversion F as [|p o' ps rs E F']; subst; cbn [over]; auto.
  cbn in E. rewrite E. injection L as L. rewrite (IH lo _ F' L). reflexivity.
Qed.

(** * Multiplying by minus one *)
Lemma digits2_xO : forall p, Z.pos (digits2_pos p~0) = Z.pos (digits2_pos p) + 1.
Proof. intros. cbn [digits2_pos]. lia. Qed.
Lemma canon : forall prec emax m e, bounded prec emax m e = true -> fexp prec emax (Z.pos (digits2_pos m) + e) = e /\ (e <=? emax - prec) = true.
Proof. intros prec emax m e H. unfold bounded in H. apply andb_true_iff in H as (C & L). split; auto. apply Zeq_bool_eq. exact C. Qed.
Lemma shr_none : forall prec emax m e, bounded prec emax m e = true -> shr_fexp prec emax (Z.pos m) e loc_Exact = ({| shr_m := Z.pos m; shr_r := false; shr_s := false |}, e).
Proof. intros prec emax m e H. apply canon in H as (C & _). unfold shr_fexp, Zdigits2. rewrite C, Z.sub_diag. reflexivity. Qed.
Lemma opp_double : forall f, valid_binary 53 1024 f = true -> SFmul 53 1024 f (binary_normalize 53 1024 (-1) 0 false) = SFopp f.
Proof.
  intros [s|s| |s m e] V; try reflexivity.
  change (binary_normalize 53 1024 (-1) 0 false) with (S754_finite true 4503599627370496 (-52)). cbn [SFmul SFopp]. cbn [valid_binary] in V.
  replace (xorb s true) with (negb s) by (destruct s; reflexivity). unfold binary_round_aux.
  assert (K : shr_fexp 53 1024 (Z.pos (m * 4503599627370496)) (e + -52) loc_Exact = ({| shr_m := Z.pos m; shr_r := false; shr_s := false |}, e)).
  { rewrite Pos.mul_comm. cbn [Pos.mul]. unfold shr_fexp, Zdigits2. rewrite !digits2_xO.
    match goal with |- shr _ _ (fexp _ _ ?u - _) = _ => replace u with (Z.pos (digits2_pos m) + e) by lia end. rewrite (proj1 (canon _ _ _ _ V)).
    replace (e - (e + -52)) with 52 by lia. cbn [shr]. replace (e + -52 + 52) with e by lia. reflexivity. }
  rewrite K. cbn [shr_m shr_r shr_s loc_of_shr_record round_nearest_even]. rewrite (shr_none _ _ _ _ V). cbn [shr_m]. rewrite (proj2 (canon _ _ _ _ V)). reflexivity.
Qed.
Lemma opp_float : forall f, valid_binary 24 128 f = true -> SFmul 24 128 f (binary_normalize 24 128 (-1) 0 false) = SFopp f.
Proof.
  intros [s|s| |s m e] V; try reflexivity.
  change (binary_normalize 24 128 (-1) 0 false) with (S754_finite true 8388608 (-23)). cbn [SFmul SFopp]. cbn [valid_binary] in V.
  replace (xorb s true) with (negb s) by (destruct s; reflexivity). unfold binary_round_aux.
  assert (K : shr_fexp 24 128 (Z.pos (m * 8388608)) (e + -23) loc_Exact = ({| shr_m := Z.pos m; shr_r := false; shr_s := false |}, e)).
  { rewrite Pos.mul_comm. cbn [Pos.mul]. unfold shr_fexp, Zdigits2. rewrite !digits2_xO.
    match goal with |- shr _ _ (fexp _ _ ?u - _) = _ => replace u with (Z.pos (digits2_pos m) + e) by lia end. rewrite (proj1 (canon _ _ _ _ V)).
    replace (e - (e + -23)) with 23 by lia. cbn [shr]. replace (e + -23 + 23) with e by lia. reflexivity. }
  rewrite K. cbn [shr_m shr_r shr_s loc_of_shr_record round_nearest_even]. rewrite (shr_none _ _ _ _ V). cbn [shr_m]. rewrite (proj2 (canon _ _ _ _ V)). reflexivity.
Qed.
