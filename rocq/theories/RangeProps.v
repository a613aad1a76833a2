(** C58: ranges. *)
From Coq Require Import ZArith Bool List Lia ZifyBool Sorting.
From Coq.Floats Require Import SpecFloat.
From Verif Require Import Base StrModel ValModel NumModel ArithModel RangeModel ArithSpec ArithProof.
Import ListNotations.
Local Open Scope Z_scope.

(** How a list of ints comes back: nothing is nil and one number is a scalar. *)
Definition int_result (l : list Z) : val :=
  match l with [] => VNil | [x] => VInt x | _ => VArr TInt (map VInt l) end.
Lemma int_result_push : forall l x, Z.of_nat (length l) < 2^30 -> range_push (int_result l) (VInt x) = Ok (int_result (l ++ [x])).
Proof.
  intros l x Hl. unfold range_push. 
  assert (S : vsize (int_result l) < 2^30).
  { destruct l as [|a [|b l]]; [vm_compute; auto|vm_compute; auto|]. unfold vsize, int_result. cbn [vtype Z.eqb hsize]. rewrite map_length. auto. }
  replace (2^30 <=? vsize (int_result l)) with false by lia.
  destruct l as [|a [|b l]]; [reflexivity|reflexivity|]. cbn [int_result push cast obind app]. cbn [map app]. rewrite map_app. reflexivity.
Qed.
Lemma test_int : forall incl lo hi, range_test incl (VInt lo) (VInt hi) = Ok (if incl then lo <=? hi else lo <? hi).
Proof. intros [] lo hi; unfold range_test; [|reflexivity]. change (vlt (VInt hi) (VInt lo)) with (Ok (hi <? lo)). cbn [obind]. f_equal. lia. Qed.

Lemma add_int : forall a s, add_step (VInt a) (VInt s) = if in_int (a + s) then Ok (VInt (a + s)) else UB SignedOverflow.
Proof. intros a s. unfold add_step, num_op, cast, s_op, z_op. cbn [obind]. destruct (in_int (a + s)); reflexivity. Qed.
(** The last value computed is the first not to pass the test. *)
Lemma range_run : forall (incl : bool) hi st (n : nat) lo (acc : list Z), 0 < st -> INT_MIN <= lo ->
  (forall k, 0 <= k < Z.of_nat n -> (if incl then lo + k * st <=? hi else lo + k * st <? hi) = true) ->
  (if incl then lo + Z.of_nat n * st <=? hi else lo + Z.of_nat n * st <? hi) = false ->
  lo + Z.of_nat n * st <= INT_MAX -> Z.of_nat (length acc) + Z.of_nat n <= 2^30 -> forall fuel, (n < fuel)%nat ->
  range_loop fuel incl (VInt lo) (VInt hi) (VInt st) (int_result acc) = Ok (int_result (acc ++ map (fun k => lo + Z.of_nat k * st) (seq 0 n))).
Proof.
  intros incl hi st n. induction n; intros lo acc Hst Hlo H1 H2 H3 H4 fuel Hf; (destruct fuel; [lia|]); cbn [range_loop]; rewrite test_int; cbn [obind].
  - rewrite Z.mul_0_l, Z.add_0_r in H2. rewrite H2. cbn [seq map]. rewrite app_nil_r. auto.
  - pose proof (H1 0 ltac:(lia)) as T. rewrite Z.mul_0_l, Z.add_0_r in T. rewrite T. rewrite int_result_push by lia. cbn [obind]. rewrite add_int.
    replace (in_int (lo + st)) with true by (unfold in_int; nia). cbn [obind].
    rewrite IHn.
    + rewrite <- app_assoc. cbn [seq map app]. rewrite Z.mul_0_l, Z.add_0_r, <- seq_shift, map_map. do 3 f_equal. f_equal. apply map_ext. intros k. lia.
    + auto.
    + lia.
    + intros k Hk. replace (lo + st + k * st) with (lo + (k + 1) * st) by lia. apply H1. lia.
    + replace (lo + st + Z.of_nat n * st) with (lo + Z.of_nat (S n) * st) by lia. auto.
    + lia.
    + rewrite app_length. cbn [length]. lia.
    + lia.
Qed.
Lemma steps_sorted : forall st lo n, 0 < st -> StronglySorted Z.lt (map (fun k => lo + Z.of_nat k * st) (seq 0 n)).
Proof.
  intros st lo n Hst. generalize 0%nat. induction n; intros a; cbn [seq map]; constructor; auto.
  rewrite Forall_forall. intros x Hx. apply in_map_iff in Hx. destruct Hx as (k & <- & Hk). apply in_seq in Hk. nia.
Qed.
Lemma steps_in : forall (test : Z -> bool) st lo n x, 0 < st -> (forall k, 0 <= k < Z.of_nat n -> test (lo + k * st) = true) ->
  (forall k, Z.of_nat n <= k -> test (lo + k * st) = false) ->
  In x (map (fun k => lo + Z.of_nat k * st) (seq 0 n)) <-> exists k, 0 <= k /\ x = lo + k * st /\ test x = true.
Proof.
  intros test st lo n x Hst H1 H2. rewrite in_map_iff. split.
  - intros (k & <- & Hk). apply in_seq in Hk. exists (Z.of_nat k). split; [lia|]. split; auto. apply H1. lia.
  - intros (k & Hk & -> & T). exists (Z.to_nat k). split; [lia|]. apply in_seq. destruct (Z_lt_dec k (Z.of_nat n)); [lia|]. rewrite H2 in T by lia. discriminate.
Qed.

(** The values are exactly lo, lo + step, ... below hi, in order; the value after the last
    must be an int as well. *)
Theorem C58_irange : forall lo hi st, 0 < st -> INT_MIN <= lo -> hi <= INT_MAX - st -> hi - lo <= 2^30 * st ->
  lo <= INT_MAX ->
  exists l, (forall fuel, (length l < fuel)%nat -> irange fuel (VInt lo) (VInt hi) (VInt st) = Ok (int_result l)) /\
    StronglySorted Z.lt l /\ forall x, In x l <-> exists k, 0 <= k /\ x = lo + k * st /\ x < hi.
Proof.
  intros lo hi st Hst Hlo Hhi Hn Hlm. set (n := Z.to_nat ((hi - lo + st - 1) / st)).
  assert (D : lo < hi -> st * ((hi - lo + st - 1) / st) <= hi - lo + st - 1 < st * ((hi - lo + st - 1) / st) + st).
  { intros. pose proof (Z.div_mod (hi - lo + st - 1) st ltac:(lia)). pose proof (Z.mod_pos_bound (hi - lo + st - 1) st Hst). lia. }
  assert (N : hi <= lo -> (hi - lo + st - 1) / st <= 0).
  { intros. apply Z.lt_succ_r. apply Z.div_lt_upper_bound; lia. }
  assert (P : lo < hi -> 0 <= (hi - lo + st - 1) / st) by (intros; apply Z.div_pos; lia).
  assert (H1 : forall k, 0 <= k < Z.of_nat n -> (lo + k * st <? hi) = true) by (intros k Hk; destruct (Z_lt_dec lo hi); [specialize (D l); nia|specialize (N ltac:(lia)); lia]).
  assert (H2 : forall k, Z.of_nat n <= k -> (lo + k * st <? hi) = false) by (intros k Hk; destruct (Z_lt_dec lo hi); [specialize (D l); specialize (P l); nia|nia]).
  exists (map (fun k => lo + Z.of_nat k * st) (seq 0 n)). split; [|split; [apply steps_sorted; auto|]].
  - intros fuel Hf. rewrite map_length, seq_length in Hf. unfold irange. change VNil with (int_result []). rewrite (range_run false hi st n); auto.
    + apply H2. lia.
    + destruct (Z_lt_dec lo hi); [specialize (D l); specialize (P l); lia|specialize (N ltac:(lia)); lia].
    + cbn [length]. destruct (Z_lt_dec lo hi); [specialize (D l); specialize (P l); nia|specialize (N ltac:(lia)); lia].
  - intros x. rewrite (steps_in (fun x => x <? hi)) by auto. split; intros (k & A & B & C); exists k; (split; [auto|split; [auto|lia]]).
Qed.
Theorem C58_range : forall lo hi st, 0 < st -> INT_MIN <= lo -> hi <= INT_MAX - st -> hi - lo < 2^30 * st ->
  lo <= INT_MAX ->
  exists l, (forall fuel, (length l < fuel)%nat -> range fuel (VInt lo) (VInt hi) (VInt st) = Ok (int_result l)) /\
    StronglySorted Z.lt l /\ forall x, In x l <-> exists k, 0 <= k /\ x = lo + k * st /\ x <= hi.
Proof.
  intros lo hi st Hst Hlo Hhi Hn Hlm. set (n := Z.to_nat ((hi - lo + st) / st)).
  assert (D : lo <= hi -> st * ((hi - lo + st) / st) <= hi - lo + st < st * ((hi - lo + st) / st) + st).
  { intros. pose proof (Z.div_mod (hi - lo + st) st ltac:(lia)). pose proof (Z.mod_pos_bound (hi - lo + st) st Hst). lia. }
  assert (N : hi < lo -> (hi - lo + st) / st <= 0).
  { intros. apply Z.lt_succ_r. apply Z.div_lt_upper_bound; lia. }
  assert (P : lo <= hi -> 0 <= (hi - lo + st) / st) by (intros; apply Z.div_pos; lia).
  assert (H1 : forall k, 0 <= k < Z.of_nat n -> (lo + k * st <=? hi) = true) by (intros k Hk; destruct (Z_le_dec lo hi); [specialize (D l); nia|specialize (N ltac:(lia)); lia]).
  assert (H2 : forall k, Z.of_nat n <= k -> (lo + k * st <=? hi) = false) by (intros k Hk; destruct (Z_le_dec lo hi); [specialize (D l); specialize (P l); nia|nia]).
  exists (map (fun k => lo + Z.of_nat k * st) (seq 0 n)). split; [|split; [apply steps_sorted; auto|]].
  - intros fuel Hf. rewrite map_length, seq_length in Hf. unfold range. change VNil with (int_result []). rewrite (range_run true hi st n); auto.
    + apply H2. lia.
    + destruct (Z_le_dec lo hi); [specialize (D l); specialize (P l); lia|specialize (N ltac:(lia)); lia].
    + cbn [length]. destruct (Z_le_dec lo hi); [specialize (D l); specialize (P l); nia|specialize (N ltac:(lia)); lia].
  - intros x. rewrite (steps_in (fun x => x <=? hi)) by auto. split; intros (k & A & B & C); exists k; (split; [auto|split; [auto|lia]]).
Qed.
(** A step that is not positive never gets there. *)
Lemma never : forall (incl : bool) hi st fuel lo r, st <= 0 -> (if incl then lo <=? hi else lo <? hi) = true ->
  forall v, range_loop fuel incl (VInt lo) (VInt hi) (VInt st) r <> Ok v.
Proof.
  intros incl hi st fuel. induction fuel; intros lo r Hst H v; cbn [range_loop]; [discriminate|]. rewrite test_int, H. cbn [obind].
  destruct (range_push _ _); cbn [obind]; try discriminate. rewrite add_int. destruct (in_int (lo + st)); cbn [obind]; try discriminate.
  apply IHfuel; auto. destruct incl; lia.
Qed.
Theorem C58_no_progress : forall lo hi st fuel v, st <= 0 ->
  (lo < hi -> irange fuel (VInt lo) (VInt hi) (VInt st) <> Ok v) /\ (lo <= hi -> range fuel (VInt lo) (VInt hi) (VInt st) <> Ok v).
Proof. intros lo hi st fuel v Hst. split; intros H; apply never; auto; lia. Qed.
(** Bounds of different types compare by type: an int range up to a long never ends, a long
    range up to an int is empty. *)
Theorem C58_mixed_types : forall lo hi st fuel v, 
  irange fuel (VInt lo) (VLong hi) (VInt st) <> Ok v /\ irange (S fuel) (VLong lo) (VInt hi) (VInt st) = Ok VNil.
Proof.
  intros lo hi st fuel v. split; [|reflexivity]. unfold irange. generalize VNil as r. revert lo. induction fuel; intros lo r; cbn [range_loop]; [discriminate|].
  change (range_test false (VInt lo) (VLong hi)) with (Ok true). cbn [obind].
  destruct (range_push _ _); cbn [obind]; try discriminate. rewrite add_int. destruct (in_int (lo + st)); cbn [obind]; try discriminate. apply IHfuel.
Qed.
(** The same for longs. *)
(** How a list of longs comes back: nothing is nil and one number is a scalar. *)
Definition long_result (l : list Z) : val :=
  match l with [] => VNil | [x] => VLong x | _ => VArr TLong (map VLong l) end.
Lemma long_result_push : forall l x, Z.of_nat (length l) < 2^30 -> range_push (long_result l) (VLong x) = Ok (long_result (l ++ [x])).
Proof.
  intros l x Hl. unfold range_push. 
  assert (S : vsize (long_result l) < 2^30).
  { destruct l as [|a [|b l]]; [vm_compute; auto|vm_compute; auto|]. unfold vsize, long_result. cbn [vtype Z.eqb hsize]. rewrite map_length. auto. }
  replace (2^30 <=? vsize (long_result l)) with false by lia.
  destruct l as [|a [|b l]]; [reflexivity|reflexivity|]. cbn [long_result push cast obind app]. cbn [map app]. rewrite map_app. reflexivity.
Qed.
Lemma test_long : forall incl lo hi, range_test incl (VLong lo) (VLong hi) = Ok (if incl then lo <=? hi else lo <? hi).
Proof. intros [] lo hi; unfold range_test; [|reflexivity]. change (vlt (VLong hi) (VLong lo)) with (Ok (hi <? lo)). cbn [obind]. f_equal. lia. Qed.

(** A step of either type. *)
Definition a_step (sv : Z -> val) (st : Z) : Prop := sv = VInt /\ INT_MIN <= st <= INT_MAX \/ sv = VLong.
Lemma add_long : forall sv a s, a_step sv s -> add_step (VLong a) (sv s) = if in_long (a + s) then Ok (VLong (a + s)) else UB SignedOverflow.
Proof.
  intros sv a s [[-> H] | ->]; unfold add_step, num_op, cast, cast_Z, s_op, z_op; cbn [obind]; [rewrite wrap_long_small by (revert H; unfold long_range, INT_MIN, INT_MAX; lia)|];
    destruct (in_long (a + s)); reflexivity.
Qed.
(** The last value computed is the first not to pass the test. *)
Lemma range_run_long : forall sv (incl : bool) hi st (n : nat) lo (acc : list Z), a_step sv st -> 0 < st -> LONG_MIN <= lo ->
  (forall k, 0 <= k < Z.of_nat n -> (if incl then lo + k * st <=? hi else lo + k * st <? hi) = true) ->
  (if incl then lo + Z.of_nat n * st <=? hi else lo + Z.of_nat n * st <? hi) = false ->
  lo + Z.of_nat n * st <= LONG_MAX -> Z.of_nat (length acc) + Z.of_nat n <= 2^30 -> forall fuel, (n < fuel)%nat ->
  range_loop fuel incl (VLong lo) (VLong hi) (sv st) (long_result acc) = Ok (long_result (acc ++ map (fun k => lo + Z.of_nat k * st) (seq 0 n))).
Proof.
  intros sv incl hi st n. induction n; intros lo acc Sv Hst Hlo H1 H2 H3 H4 fuel Hf; (destruct fuel; [lia|]); cbn [range_loop]; rewrite test_long; cbn [obind].
  - rewrite Z.mul_0_l, Z.add_0_r in H2. rewrite H2. cbn [seq map]. rewrite app_nil_r. auto.
  - pose proof (H1 0 ltac:(lia)) as T. rewrite Z.mul_0_l, Z.add_0_r in T. rewrite T. rewrite long_result_push by lia. cbn [obind]. rewrite add_long by auto.
    replace (in_long (lo + st)) with true by (unfold in_long; nia). cbn [obind].
    rewrite IHn.
    + rewrite <- app_assoc. cbn [seq map app]. rewrite Z.mul_0_l, Z.add_0_r, <- seq_shift, map_map. do 3 f_equal. f_equal. apply map_ext. intros k. lia.
    + auto.
    + auto.
    + lia.
    + intros k Hk. replace (lo + st + k * st) with (lo + (k + 1) * st) by lia. apply H1. lia.
    + replace (lo + st + Z.of_nat n * st) with (lo + Z.of_nat (S n) * st) by lia. auto.
    + lia.
    + rewrite app_length. cbn [length]. lia.
    + lia.
Qed.
(** The values are exactly lo, lo + step, ... below hi, in order; the value after the last
    must be a long as well; the step is an int or a long. *)
Theorem C58_irange_long : forall sv lo hi st, a_step sv st -> 0 < st -> LONG_MIN <= lo -> hi <= LONG_MAX - st -> hi - lo <= 2^30 * st ->
  lo <= LONG_MAX ->
  exists l, (forall fuel, (length l < fuel)%nat -> irange fuel (VLong lo) (VLong hi) (sv st) = Ok (long_result l)) /\
    StronglySorted Z.lt l /\ forall x, In x l <-> exists k, 0 <= k /\ x = lo + k * st /\ x < hi.
Proof.
  intros sv lo hi st Sv Hst Hlo Hhi Hn Hlm. set (n := Z.to_nat ((hi - lo + st - 1) / st)).
  assert (D : lo < hi -> st * ((hi - lo + st - 1) / st) <= hi - lo + st - 1 < st * ((hi - lo + st - 1) / st) + st).
  { intros. pose proof (Z.div_mod (hi - lo + st - 1) st ltac:(lia)). pose proof (Z.mod_pos_bound (hi - lo + st - 1) st Hst). lia. }
  assert (N : hi <= lo -> (hi - lo + st - 1) / st <= 0).
  { intros. apply Z.lt_succ_r. apply Z.div_lt_upper_bound; lia. }
  assert (P : lo < hi -> 0 <= (hi - lo + st - 1) / st) by (intros; apply Z.div_pos; lia).
  assert (H1 : forall k, 0 <= k < Z.of_nat n -> (lo + k * st <? hi) = true) by (intros k Hk; destruct (Z_lt_dec lo hi); [specialize (D l); nia|specialize (N ltac:(lia)); lia]).
  assert (H2 : forall k, Z.of_nat n <= k -> (lo + k * st <? hi) = false) by (intros k Hk; destruct (Z_lt_dec lo hi); [specialize (D l); specialize (P l); nia|nia]).
  exists (map (fun k => lo + Z.of_nat k * st) (seq 0 n)). split; [|split; [apply steps_sorted; auto|]].
  - intros fuel Hf. rewrite map_length, seq_length in Hf. unfold irange. change VNil with (long_result []). rewrite (range_run_long sv false hi st n); auto.
    + apply H2. lia.
    + destruct (Z_lt_dec lo hi); [specialize (D l); specialize (P l); lia|specialize (N ltac:(lia)); lia].
    + cbn [length]. destruct (Z_lt_dec lo hi); [specialize (D l); specialize (P l); nia|specialize (N ltac:(lia)); lia].
  - intros x. rewrite (steps_in (fun x => x <? hi)) by auto. split; intros (k & A & B & C); exists k; (split; [auto|split; [auto|lia]]).
Qed.
Theorem C58_range_long : forall sv lo hi st, a_step sv st -> 0 < st -> LONG_MIN <= lo -> hi <= LONG_MAX - st -> hi - lo < 2^30 * st ->
  lo <= LONG_MAX ->
  exists l, (forall fuel, (length l < fuel)%nat -> range fuel (VLong lo) (VLong hi) (sv st) = Ok (long_result l)) /\
    StronglySorted Z.lt l /\ forall x, In x l <-> exists k, 0 <= k /\ x = lo + k * st /\ x <= hi.
Proof.
  intros sv lo hi st Sv Hst Hlo Hhi Hn Hlm. set (n := Z.to_nat ((hi - lo + st) / st)).
  assert (D : lo <= hi -> st * ((hi - lo + st) / st) <= hi - lo + st < st * ((hi - lo + st) / st) + st).
  { intros. pose proof (Z.div_mod (hi - lo + st) st ltac:(lia)). pose proof (Z.mod_pos_bound (hi - lo + st) st Hst). lia. }
  assert (N : hi < lo -> (hi - lo + st) / st <= 0).
  { intros. apply Z.lt_succ_r. apply Z.div_lt_upper_bound; lia. }
  assert (P : lo <= hi -> 0 <= (hi - lo + st) / st) by (intros; apply Z.div_pos; lia).
  assert (H1 : forall k, 0 <= k < Z.of_nat n -> (lo + k * st <=? hi) = true) by (intros k Hk; destruct (Z_le_dec lo hi); [specialize (D l); nia|specialize (N ltac:(lia)); lia]).
  assert (H2 : forall k, Z.of_nat n <= k -> (lo + k * st <=? hi) = false) by (intros k Hk; destruct (Z_le_dec lo hi); [specialize (D l); specialize (P l); nia|nia]).
  exists (map (fun k => lo + Z.of_nat k * st) (seq 0 n)). split; [|split; [apply steps_sorted; auto|]].
  - intros fuel Hf. rewrite map_length, seq_length in Hf. unfold range. change VNil with (long_result []). rewrite (range_run_long sv true hi st n); auto.
    + apply H2. lia.
    + destruct (Z_le_dec lo hi); [specialize (D l); specialize (P l); lia|specialize (N ltac:(lia)); lia].
    + cbn [length]. destruct (Z_le_dec lo hi); [specialize (D l); specialize (P l); nia|specialize (N ltac:(lia)); lia].
  - intros x. rewrite (steps_in (fun x => x <=? hi)) by auto. split; intros (k & A & B & C); exists k; (split; [auto|split; [auto|lia]]).
Qed.
(** A step that is not positive never gets there. *)
Lemma never_long : forall sv (incl : bool) hi st fuel lo r, a_step sv st -> st <= 0 -> (if incl then lo <=? hi else lo <? hi) = true ->
  forall v, range_loop fuel incl (VLong lo) (VLong hi) (sv st) r <> Ok v.
Proof.
  intros sv incl hi st fuel. induction fuel; intros lo r Sv Hst H v; cbn [range_loop]; [discriminate|]. rewrite test_long, H. cbn [obind].
  destruct (range_push _ _); cbn [obind]; try discriminate. rewrite add_long by auto. destruct (in_long (lo + st)); cbn [obind]; try discriminate.
  apply IHfuel; auto. destruct incl; lia.
Qed.
Theorem C58_no_progress_long : forall sv lo hi st fuel v, a_step sv st -> st <= 0 ->
  (lo < hi -> irange fuel (VLong lo) (VLong hi) (sv st) <> Ok v) /\ (lo <= hi -> range fuel (VLong lo) (VLong hi) (sv st) <> Ok v).
Proof. intros sv lo hi st fuel v Sv Hst. split; intros H; apply never_long; auto; lia. Qed.
Example C58_long_example : a_step VInt 3 /\ a_step VLong 3 /\ irange 9 (VLong 3000000000) (VLong 3000000007) (VInt 3) = Ok (long_result [3000000000; 3000000003; 3000000006]) /\
  range 9 (VLong (-2)) (VLong 4) (VLong 3) = Ok (long_result [-2; 1; 4]) /\ irange 9 (VLong 5) (VLong 6) (VInt 1) = Ok (VLong 5).
Proof. split; [left; split; [reflexivity|unfold INT_MIN, INT_MAX; lia]|]. split; [right; reflexivity|]. repeat split. Qed.
(** The same for floating point numbers: the values are those obtained by adding the step again and again,
    with its rounding, as long as they pass the test. *)
Inductive ftype := Single | Double.
Definition fval (f : ftype) : spec_float -> val := match f with Single => VFloat | Double => VDouble end.
Definition fety (f : ftype) : ety := match f with Single => TFloat | Double => TDouble end.
Definition plus (f : ftype) : spec_float -> spec_float -> spec_float := match f with Single => SFadd 24 128 | Double => SFadd 53 1024 end.
Definition less (x y : spec_float) : Prop := SFcompare x y = Some Lt.
Fixpoint nth_value (f : ftype) (lo st : spec_float) (k : nat) : spec_float := match k with O => lo | S k => plus f (nth_value f lo st k) st end.
Definition float_result (f : ftype) (l : list spec_float) : val :=
  match l with [] => VNil | [x] => fval f x | _ => VArr (fety f) (map (fval f) l) end.
(** The step as a number of that type. *)
Definition step_is (f : ftype) (s : val) (st : spec_float) : Prop := s = fval f st \/ (exists z, s = VInt z /\ cast (fety f) s = Ok (fval f st)).
Definition passes (incl : bool) (x hi : spec_float) : Prop := if incl then ~ less hi x else less x hi.
Lemma float_result_push : forall f l x, Z.of_nat (length l) < 2^30 -> range_push (float_result f l) (fval f x) = Ok (float_result f (l ++ [x])).
Proof.
  intros f l x Hl. unfold range_push.
  assert (S : vsize (float_result f l) < 2^30).
  { destruct l as [|a [|b l]]; [vm_compute; auto|destruct f; vm_compute; auto|]. unfold vsize, float_result. destruct f; cbn [fety fval vtype Z.eqb hsize]; rewrite map_length; auto. }
  replace (2^30 <=? vsize (float_result f l)) with false by lia.
  destruct l as [|a [|b l]]; [destruct f; reflexivity|destruct f; reflexivity|]. destruct f; cbn [float_result fety fval push cast obind app map]; rewrite map_app; reflexivity.
Qed.
Lemma SFltb_less : forall x y, SFltb x y = true <-> less x y.
Proof. intros x y. unfold SFltb, less. destruct (SFcompare x y) as [[]|]; split; intros H; congruence. Qed.
Lemma test_float : forall f incl lo hi, exists b, range_test incl (fval f lo) (fval f hi) = Ok b /\ (b = true <-> passes incl lo hi).
Proof.
  intros f [] lo hi; unfold range_test, passes.
  - exists (negb (SFltb hi lo)). split; [destruct f; reflexivity|]. rewrite <- SFltb_less. destruct (SFltb hi lo); cbn [negb]; split; intros H; try congruence; elim H; reflexivity.
  - exists (SFltb lo hi). split; [destruct f; reflexivity|]. apply SFltb_less.
Qed.
Lemma add_float : forall f s st x, step_is f s st -> add_step (fval f x) s = Ok (fval f (plus f x st)).
Proof.
  intros f s st x [-> | (z & -> & C)]; destruct f; cbn [fval fety plus] in *; unfold add_step, num_op; try rewrite C; reflexivity.
Qed.
Lemma nth_value_next : forall f lo st k, nth_value f (plus f lo st) st k = nth_value f lo st (S k).
Proof. intros f lo st k. induction k; cbn [nth_value] in *; [reflexivity|]. rewrite IHk. reflexivity. Qed.
Lemma float_run : forall f incl hi s st n lo acc, step_is f s st -> (forall k, (k < n)%nat -> passes incl (nth_value f lo st k) hi) -> ~ passes incl (nth_value f lo st n) hi ->
  Z.of_nat (length acc) + Z.of_nat n <= 2^30 -> forall fuel, (n < fuel)%nat ->
  range_loop fuel incl (fval f lo) (fval f hi) s (float_result f acc) = Ok (float_result f (acc ++ map (nth_value f lo st) (seq 0 n))).
Proof.
  intros f incl hi s st n. induction n as [|n IHn]; intros lo acc Hs H1 H2 H3 fuel Hf; (destruct fuel; [lia|]); cbn [range_loop]; destruct (test_float f incl lo hi) as (b & -> & Hb); cbn [obind].
  - destruct b; [elim H2; apply Hb; reflexivity|]. cbn [seq map]. rewrite app_nil_r. reflexivity.
  - rewrite (proj2 Hb (H1 0%nat ltac:(lia))). rewrite float_result_push by lia. cbn [obind]. rewrite (add_float f s st) by exact Hs. cbn [obind].
    rewrite IHn; [|exact Hs| | | |lia].
    + rewrite <- app_assoc. cbn [seq map app]. rewrite <- seq_shift, map_map. do 3 f_equal. f_equal. apply map_ext. intros k. apply nth_value_next.
    + intros k Hk. rewrite nth_value_next. apply H1. lia.
    + rewrite nth_value_next. exact H2.
    + rewrite app_length. cbn [length]. lia.
Qed.
Theorem C58_float : forall f lo hi s st n, step_is f s st -> Z.of_nat n <= 2^30 -> forall fuel, (n < fuel)%nat ->
  ((forall k, (k < n)%nat -> less (nth_value f lo st k) hi) -> ~ less (nth_value f lo st n) hi ->
     irange fuel (fval f lo) (fval f hi) s = Ok (float_result f (map (nth_value f lo st) (seq 0 n)))) /\
  ((forall k, (k < n)%nat -> ~ less hi (nth_value f lo st k)) -> less hi (nth_value f lo st n) ->
     range fuel (fval f lo) (fval f hi) s = Ok (float_result f (map (nth_value f lo st) (seq 0 n)))).
Proof.
  intros f lo hi s st n Hs Hn fuel Hf. split; intros H1 H2; unfold irange, range; change VNil with (float_result f []); rewrite (float_run f _ hi s st n lo []); auto.
Qed.
(** If the values never fail the test the call does not return. *)
Lemma float_never : forall f incl hi s st, step_is f s st -> forall fuel lo r v, (forall k, passes incl (nth_value f lo st k) hi) -> range_loop fuel incl (fval f lo) (fval f hi) s r <> Ok v.
Proof.
  intros f incl hi s st Hs. induction fuel as [|fuel IH]; intros lo r v H; cbn [range_loop]; [discriminate|]. destruct (test_float f incl lo hi) as (b & -> & Hb). cbn [obind].
  rewrite (proj2 Hb (H 0%nat)). destruct (range_push _ _); cbn [obind]; try discriminate. rewrite (add_float f s st) by exact Hs. cbn [obind]. apply IH. intros k. rewrite nth_value_next. apply H.
Qed.
(** That is so if the step is too small to make a difference, and if the end of a range is not a number. *)
Theorem C58_float_no_progress : forall f lo hi s st fuel v, step_is f s st ->
  (plus f lo st = lo -> less lo hi -> irange fuel (fval f lo) (fval f hi) s <> Ok v) /\
  (plus f lo st = lo -> ~ less hi lo -> range fuel (fval f lo) (fval f hi) s <> Ok v) /\
  range fuel (fval f lo) (fval f S754_nan) s <> Ok v.
Proof.
  intros f lo hi s st fuel v Hs. assert (K : plus f lo st = lo -> forall k, nth_value f lo st k = lo) by (intros P k; induction k as [|k IH]; cbn [nth_value]; [reflexivity|rewrite IH; exact P]).
  split; [|split].
  - intros P L. apply (float_never f false hi s st Hs). intros k. rewrite K by exact P. exact L.
  - intros P L. apply (float_never f true hi s st Hs). intros k. rewrite K by exact P. exact L.
  - apply (float_never f true S754_nan s st Hs). intros k. cbn [passes]. unfold less, SFcompare. discriminate.
Qed.
(** A range with one argument counts from 0, and from 1 with the end included. *)
Theorem C58_from_zero : forall n fuel, 0 <= n <= 2^30 -> n < Z.of_nat fuel ->
  irange_to fuel (VInt n) = Ok (int_result (map Z.of_nat (seq 0 (Z.to_nat n)))) /\
  range_to fuel (VInt n) = Ok (int_result (map Z.of_nat (seq 1 (Z.to_nat n)))).
Proof.
  intros n fuel Hn Hf. unfold irange_to, range_to, num_op, cast, s_op, z_op. cbn [obind]. rewrite Z.sub_diag. change (in_int 0) with true. cbn [obind]. change (in_int (0 + 1)) with true. cbn [obind].
  assert (M : 2^30 < INT_MAX) by reflexivity. split; unfold irange, range; change VNil with (int_result []).
  - rewrite (range_run false n 1 (Z.to_nat n)); try lia; [|unfold INT_MIN; lia|cbn [length]; lia]. cbn [app]. do 2 f_equal. apply map_ext. intros k. lia.
  - rewrite (range_run true n 1 (Z.to_nat n)); try lia; [|unfold INT_MIN; lia|cbn [length]; lia]. cbn [app]. rewrite <- seq_shift, map_map. do 2 f_equal. apply map_ext. intros k. lia.
Qed.
Example C58_from_zero_example : irange_to 9 (VInt 4) = Ok (int_result [0; 1; 2; 3]) /\ range_to 9 (VInt 4) = Ok (int_result [1; 2; 3; 4]) /\ range_to 9 (VInt 0) = Ok VNil.
Proof. repeat split. Qed.
(** 0.1 added up three times is more than 0.3; 2^53 + 1 is 2^53. *)
Definition tenth : spec_float := SFdiv 53 1024 (float_of_Z 53 1024 1) (float_of_Z 53 1024 10).
Example C58_float_example : step_is Double (VDouble tenth) tenth /\ step_is Single (VInt 1) (float_of_Z 24 128 1) /\
  range 9 (VFloat (float_of_Z 24 128 1)) (VFloat (float_of_Z 24 128 3)) (VInt 1) = Ok (VArr TFloat (map (fun z => VFloat (float_of_Z 24 128 z)) [1; 2; 3])) /\
  (let three := SFdiv 53 1024 (float_of_Z 53 1024 3) (float_of_Z 53 1024 10) in less three (nth_value Double (float_of_Z 53 1024 0) tenth 3) /\
   exists l, range 9 (VDouble (float_of_Z 53 1024 0)) (VDouble three) (VDouble tenth) = Ok (VArr TDouble l) /\ length l = 3%nat) /\
  (let b := float_of_Z 53 1024 (2^53) in plus Double b (float_of_Z 53 1024 1) = b /\ less b (float_of_Z 53 1024 (2^53 + 8))).
Proof. split; [left; reflexivity|]. split; [right; exists 1; split; reflexivity|]. split; [reflexivity|]. split; [split; [reflexivity|eexists; split; reflexivity]|]. split; reflexivity. Qed.
Example C58_ex : irange 9 (VInt 2) (VInt 9) (VInt 3) = Ok (int_result [2; 5; 8]) /\ range 9 (VInt 2) (VInt 8) (VInt 3) = Ok (int_result [2; 5; 8]) /\
  irange 9 (VInt 2) (VInt 8) (VInt 3) = Ok (int_result [2; 5]) /\ irange 9 (VInt 0) (VInt 1) (VInt 1) = Ok (VInt 0) /\
  irange 9 (VInt 0) (VInt 0) (VInt 1) = Ok VNil /\ irange 9 (VInt 0) (VInt 1) (VInt 0) = Fuel.
Proof. repeat split. Qed.
Print Assumptions C58_irange.
Print Assumptions C58_mixed_types.
