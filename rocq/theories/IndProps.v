(** C01. *)
From Coq Require Import ZArith Bool Lia.
From Verif Require Import Base IndModel.
Local Open Scope Z_scope.

Theorem C01_ind_not_involutive : forall x,
  LONG_MIN <= x < LONG_MAX ->
  exists y, ind_not x = Ok y /\ LONG_MIN <= y < LONG_MAX + 1 /\
            (x <> LONG_MIN -> ind_not y = Ok x) /\ ind_bool y = negb (ind_bool x).
Proof.
  intros x H. unfold ind_not, in_long.
  assert (E1 : (LONG_MIN <=? x + 1) && (x + 1 <=? LONG_MAX) = true)
    by (apply andb_true_intro; unfold LONG_MIN, LONG_MAX in *; lia).
  assert (E2 : (LONG_MIN <=? - (x + 1)) && (- (x + 1) <=? LONG_MAX) = true)
    by (apply andb_true_intro; unfold LONG_MIN, LONG_MAX in *; lia).
  rewrite E1, E2. eexists; split; [reflexivity|]. split; [unfold LONG_MIN, LONG_MAX in *; lia|].
  split.
  - intros Hx.
    assert (E3 : (LONG_MIN <=? - (x + 1) + 1) && (- (x + 1) + 1 <=? LONG_MAX) = true)
      by (apply andb_true_intro; unfold LONG_MIN, LONG_MAX in *; lia).
    assert (E4 : (LONG_MIN <=? - (- (x + 1) + 1)) && (- (- (x + 1) + 1) <=? LONG_MAX) = true)
      by (apply andb_true_intro; unfold LONG_MIN, LONG_MAX in *; lia).
    rewrite E3, E4. f_equal; lia.
  - unfold ind_bool. destruct (Z.ltb_spec (-(x+1)) 0); destruct (Z.ltb_spec x 0); simpl; lia || reflexivity.
Qed.
Print Assumptions C01_ind_not_involutive.

(** The boolean test, and the two excluded end points: negating the largest value
    overflows; the smallest one can be negated but its negation cannot be undone. *)
Theorem C01_ind_bool_spec : forall x, ind_bool x = true <-> 0 <= x.
Proof. intros x. unfold ind_bool. destruct (Z.ltb_spec x 0); split; intros; try lia; try discriminate; auto. Qed.
Print Assumptions C01_ind_bool_spec.

Theorem C01_ind_not_overflow : forall x,
  LONG_MIN <= x <= LONG_MAX -> (ind_not x = UB SignedOverflow <-> x = LONG_MAX).
Proof.
  intros x H. split.
  - intros E. destruct (Z.eq_dec x LONG_MAX); auto.
    destruct (C01_ind_not_involutive x) as (y & Hy & _); [unfold LONG_MIN, LONG_MAX in *; lia|]. congruence.
  - intros ->. reflexivity.
Qed.
Print Assumptions C01_ind_not_overflow.

(** [++] and [--] undo each other where they are defined, and a step forward on one side is a step back
    on the other: positions counted from the end run against those from the start. *)
Theorem C01_steps : forall x, LONG_MIN <= x < LONG_MAX ->
  ind_inc x = Ok (x + 1) /\ ind_dec (x + 1) = Ok x /\
  (x + 1 < LONG_MAX -> exists y, ind_not x = Ok y /\ ind_not (x + 1) = ind_dec y).
Proof.
  intros x H. assert (In : forall z, LONG_MIN <= z <= LONG_MAX -> in_long z = true) by (intros z Hz; unfold in_long; apply andb_true_intro; split; apply Z.leb_le; lia).
  assert (B : LONG_MIN = - LONG_MAX - 1) by reflexivity. unfold ind_inc, ind_dec, ind_not. split; [|split].
  - rewrite In by lia. reflexivity.
  - rewrite In by lia. f_equal. lia.
  - intros Hx. exists (- (x + 1)). rewrite !In by lia. split; [reflexivity|]. f_equal. lia.
Qed.
Theorem C01_steps_overflow : ind_inc LONG_MAX = UB SignedOverflow /\ ind_dec LONG_MIN = UB SignedOverflow.
Proof. split; reflexivity. Qed.
Example C01_steps_example : LONG_MIN <= 5 < LONG_MAX /\ ind_inc 5 = Ok 6 /\ ind_not 5 = Ok (-6) /\ ind_not 6 = Ok (-7) /\ ind_dec (-6) = Ok (-7).
Proof. unfold LONG_MIN, LONG_MAX. repeat split; simpl; lia. Qed.
Example C01_example : ind_not 5 = Ok (-6) /\ ind_not (-6) = Ok 5 /\ ind_bool 0 = true /\ ind_bool (-1) = false.
Proof. repeat split. Qed.
Example C01_example_end : ind_not LONG_MIN = Ok LONG_MAX.
Proof. reflexivity. Qed.
