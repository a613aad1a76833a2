(** C02, C03. *)
From Coq Require Import ZArith Bool List Lia.
From Verif Require Import Base AllocModel AllocProof.
Local Open Scope Z_scope.

(** The capacity is a power of two, large enough, and no smaller power of two that is at
    least 8 would do. *)
Theorem C02_alloc_least_power_of_two : forall n, 0 <= n <= 2^30 ->
  exists k, 0 <= k /\ allocSize n = Ok (2 ^ k) /\ n <= 2 ^ k /\ 8 <= 2 ^ k /\
            (forall j, 0 <= j -> n <= 2 ^ j -> 8 <= 2 ^ j -> 2 ^ k <= 2 ^ j).
Proof.
  intros n H. exists (Z.log2_up (Z.max n 8)).
  pose proof (Z.log2_log2_up_spec (Z.max n 8) ltac:(lia)) as [_ Hu].
  repeat split; try lia.
  - apply Z.log2_up_nonneg.
  - apply allocSize_ok; auto.
  - intros j Hj H1 H2. apply Z.pow_le_mono_r; [lia|].
    rewrite <- (Z.log2_up_pow2 j) by lia. apply Z.log2_up_le_mono. lia.
Qed.
Print Assumptions C02_alloc_least_power_of_two.

(** Above 2^30 the int wraps: the "capacity" is INT_MIN. *)
Theorem C02_alloc_wraps : forall n, 2^30 < n <= INT_MAX -> allocSize n = Ok INT_MIN.
Proof. exact allocSize_wrap. Qed.
Print Assumptions C02_alloc_wraps.

(** Consequence for [resize]: an array that already has storage keeps its old, too small
    capacity although its size is set to n; a fresh array trips an assertion. *)
Theorem C02_resize_beyond_limit : forall cap n, 2^30 < n <= INT_MAX -> 0 < cap ->
  resize_cap false cap n = Ok (cap, false) /\ resize_cap false 0 n = UB AssertFail.
Proof.
  intros cap n H Hc. unfold resize_cap. rewrite (allocSize_wrap n H).
  destruct (Z.eqb_spec cap 0); [lia|]. simpl. unfold INT_MIN.
  destruct (Z.ltb_spec cap (-(2^31))); [lia|]. auto.
Qed.
Print Assumptions C02_resize_beyond_limit.

Example C02_example : allocSize 0 = Ok 8 /\ allocSize 8 = Ok 8 /\ allocSize 9 = Ok 16 /\ allocSize 1000 = Ok 1024
  /\ allocSize (2^30) = Ok (2^30) /\ allocSize (2^30+1) = Ok (-2^31).
Proof. repeat split. Qed.

(** Growing one element at a time to n elements re-allocates at most log2 n times (and
    exactly ceil(log2 n) - 3 times for n >= 8). *)
Theorem C03_growth_amortised : forall n, 1 <= Z.of_nat n <= 2^30 ->
  exists cap cnt, grow false n = Ok (cap, cnt) /\ Z.of_nat n <= cap /\ 0 <= cnt <= Z.log2 (Z.of_nat n) /\
                  (8 <= Z.of_nat n -> cnt = Z.log2_up (Z.of_nat n) - 3).
Proof.
  intros n H. rewrite grow_spec by lia. destruct n; [simpl in H; lia|].
  unfold grown_cap. rewrite Z.add_0_r.
  set (N := Z.of_nat (S n)) in *.
  pose proof (Z.log2_log2_up_spec (Z.max N 8) ltac:(lia)) as [_ Hu].
  pose proof (log2_up_ge3 (Z.max N 8) ltac:(lia)).
  do 2 eexists. split; [reflexivity|]. split; [lia|]. split.
  - split; [lia|]. destruct (Z.leb_spec 8 N).
    + rewrite Z.max_l by lia. pose proof (Z.le_log2_up_succ_log2 N). lia.
    + rewrite Z.max_r by lia. change (Z.log2_up 8) with 3. pose proof (Z.log2_nonneg N). lia.
  - intros H8. rewrite Z.max_l by lia. reflexivity.
Qed.
Print Assumptions C03_growth_amortised.

(** The same for strings, which need one more cell for the terminator. *)
Theorem C03_growth_amortised_string : forall n, 1 <= Z.of_nat n < 2^30 ->
  exists cap cnt, grow true n = Ok (cap, cnt) /\ Z.of_nat n < cap /\ 0 <= cnt <= Z.log2 (Z.of_nat n).
Proof.
  intros n H. rewrite grow_spec by lia. destruct n; [simpl in H; lia|].
  unfold grown_cap.
  set (N := Z.of_nat (S n)) in *.
  pose proof (Z.log2_log2_up_spec (Z.max (N+1) 8) ltac:(lia)) as [_ Hu].
  pose proof (log2_up_ge3 (Z.max (N+1) 8) ltac:(lia)).
  do 2 eexists. split; [reflexivity|]. split; [lia|].
  split; [lia|]. destruct (Z.leb_spec 8 (N+1)).
  - rewrite Z.max_l by lia. rewrite Z.log2_up_eqn by lia. rewrite Z.add_1_r, Z.pred_succ. lia.
  - rewrite Z.max_r by lia. change (Z.log2_up 8) with 3. pose proof (Z.log2_nonneg N). lia.
Qed.
Print Assumptions C03_growth_amortised_string.

Example C03_example : grow false 100 = Ok (128, 4) /\ grow true 8 = Ok (16, 1).
Proof. split; vm_compute; reflexivity. Qed.
