(** Lemmas about storage growth. *)
From Coq Require Import ZArith Bool List Lia.
From Verif Require Import Base AllocModel.
Local Open Scope Z_scope.

Lemma wrap_int_id : forall x, INT_MIN <= x <= INT_MAX -> wrap_int x = x.
Proof.
  intros x H. unfold wrap_int, wrap, INT_MIN, INT_MAX in *.
  rewrite Z.mod_small; lia.
Qed.


Lemma log2_half : forall n, 2 <= n -> Z.log2 n = Z.log2 (n / 2) + 1.
Proof.
  intros n H. replace (n/2) with (Z.shiftr n 1) by (rewrite Z.shiftr_div_pow2 by lia; reflexivity).
  rewrite Z.log2_shiftr by lia.
  pose proof (Z.log2_le_mono 2 n ltac:(lia)) as Hl. change (Z.log2 2) with 1 in Hl. lia.
Qed.

Lemma alloc_loop_ok : forall f n s,
  0 < n < 2 ^ Z.of_nat f -> 1 <= s -> s * 2 ^ (Z.log2 n + 1) <= 2 ^ 30 ->
  alloc_loop (S f) n s = Ok (s * 2 ^ (Z.log2 n + 1)).
Proof.
  induction f; intros n s Hn Hs Hb.
  - change (2 ^ Z.of_nat 0) with 1 in Hn. lia.
  - change (alloc_loop (S (S f)) n s) with
      (if 0 <? n then alloc_loop (S f) (Z.shiftr n 1) (wrap_int (2 * s)) else Ok s).
    destruct (Z.ltb_spec 0 n); [|lia].
    replace (Z.shiftr n 1) with (n/2) by (rewrite Z.shiftr_div_pow2 by lia; reflexivity).
    assert (Hl : 0 <= Z.log2 n) by apply Z.log2_nonneg.
    assert (H1 : 1 <= 2 ^ Z.log2 n) by (apply (Z.pow_le_mono_r 2 0); lia).
    rewrite Z.pow_add_r in * by lia. change (2^1) with 2 in *.
    assert (H2s : 2 * s <= 2^30) by (etransitivity; [|exact Hb]; nia).
    rewrite wrap_int_id by (unfold INT_MIN, INT_MAX; lia).
    destruct (Z.eq_dec n 1) as [->|Hn1].
    + change (1/2) with 0. change (2 ^ Z.log2 1) with 1. cbn [alloc_loop Z.ltb]. change (0 <? 0) with false. cbn iota. f_equal. lia.
    + rewrite (log2_half n) in * by lia.
      assert (0 < n / 2) by (apply Z.div_str_pos; lia).
      assert (0 <= Z.log2 (n/2)) by apply Z.log2_nonneg.
      rewrite Z.pow_add_r in * by lia. change (2^1) with 2 in *.
      rewrite IHf.
      * rewrite Z.pow_add_r by lia. f_equal. change (2^1) with 2. ring.
      * split; [auto|]. apply Z.div_lt_upper_bound; [lia|].
        rewrite Nat2Z.inj_succ, Z.pow_succ_r in Hn by lia. lia.
      * lia.
      * rewrite Z.pow_add_r by lia. change (2^1) with 2. nia.
Qed.

Lemma allocSize_ok : forall n, 0 <= n <= 2^30 ->
  allocSize n = Ok (2 ^ Z.log2_up (Z.max n 8)).
Proof.
  intros n H. unfold allocSize.
  destruct (Z.ltb_spec n 0); [lia|].
  set (m := if n <? 8 then 8 else n).
  assert (Hm : m = Z.max n 8) by (unfold m; destruct (Z.ltb_spec n 8); lia).
  rewrite Hm. clear m Hm. set (m := Z.max n 8).
  assert (8 <= m <= 2^30) by (unfold m; lia).
  destruct (Z.leb_spec m 2); [lia|].
  assert (E : Z.log2 (m-1) + 1 = Z.log2_up m).
  { rewrite Z.log2_up_eqn by lia. rewrite <- Z.sub_1_r. lia. }
  rewrite (alloc_loop_ok 32); rewrite ?E.
  - f_equal. lia.
  - change (2 ^ Z.of_nat 32) with (2^32). lia.
  - lia.
  - rewrite Z.mul_1_l. apply Z.pow_le_mono_r; [lia|].
    change 30 with (Z.log2_up (2^30)) at 1. apply Z.log2_up_le_mono. lia.
Qed.

(** Beyond 2^30 the shifted int becomes INT_MIN. *)
Lemma alloc_loop_wrap : forall k f n s,
  2 ^ Z.of_nat k <= n < 2 ^ (Z.of_nat k + 1) -> s = 2 ^ (30 - Z.of_nat k) -> (k <= 30)%nat ->
  (k < f)%nat -> alloc_loop (S f) n s = Ok INT_MIN.
Proof.
  induction k; intros f n s Hn Hs Hk Hf.
  - simpl in Hn. assert (n = 1) by lia. subst n.
    destruct f; [lia|]. subst s. reflexivity.
  - destruct f; [lia|].
    change (alloc_loop (S (S f)) n s) with
      (if 0 <? n then alloc_loop (S f) (Z.shiftr n 1) (wrap_int (2 * s)) else Ok s).
    assert (0 < 2 ^ Z.of_nat (S k)) by (apply Z.pow_pos_nonneg; lia).
    destruct (Z.ltb_spec 0 n); [|lia].
    replace (Z.shiftr n 1) with (n/2) by (rewrite Z.shiftr_div_pow2 by lia; reflexivity).
    assert (Hs2 : 2 * s = 2 ^ (30 - Z.of_nat k)).
    { subst s. replace (30 - Z.of_nat k) with (1 + (30 - Z.of_nat (S k))) by lia.
      rewrite Z.pow_add_r by lia. reflexivity. }
    assert (2 ^ (30 - Z.of_nat k) <= 2^30) by (apply Z.pow_le_mono_r; lia).
    assert (0 < 2 ^ (30 - Z.of_nat k)) by (apply Z.pow_pos_nonneg; lia).
    rewrite wrap_int_id by (unfold INT_MIN, INT_MAX; lia).
    apply IHk; try lia.
    rewrite Nat2Z.inj_succ in Hn. unfold Z.succ in Hn. rewrite !Z.pow_add_r in Hn by lia.
    rewrite Z.pow_add_r by lia. change (2^1) with 2 in *.
    split; [apply Z.div_le_lower_bound; lia | apply Z.div_lt_upper_bound; lia].
Qed.

Lemma allocSize_wrap : forall n, 2^30 < n <= INT_MAX -> allocSize n = Ok INT_MIN.
Proof.
  intros n H. unfold allocSize, INT_MAX in *.
  destruct (Z.ltb_spec n 0); [lia|]. destruct (Z.ltb_spec n 8); [lia|].
  destruct (Z.leb_spec n 2); [lia|].
  apply (alloc_loop_wrap 30); try lia.
Qed.

(** Growth trace. *)
Definition grown_cap (c : bool) (n : nat) : Z :=
  match n with O => 0 | _ => 2 ^ Z.log2_up (Z.max (Z.of_nat n + if c then 1 else 0) 8) end.

Lemma log2_up_ge3 : forall a, 8 <= a -> 3 <= Z.log2_up a.
Proof. intros a H. change 3 with (Z.log2_up 8). apply Z.log2_up_le_mono. lia. Qed.

Lemma log2_up_succ_cases : forall a, 8 <= a ->
  Z.log2_up (a+1) = Z.log2_up a \/ Z.log2_up (a+1) = Z.log2_up a + 1.
Proof.
  intros a H. pose proof (Z.log2_up_succ_le a). pose proof (Z.log2_up_le_mono a (a+1) ltac:(lia)).
  unfold Z.succ in *. lia.
Qed.

Lemma grow_spec : forall c n, Z.of_nat n + (if c : bool then 1 else 0) <= 2^30 ->
  grow c n = Ok (grown_cap c n,
     match n with O => 0 | _ => Z.log2_up (Z.max (Z.of_nat n + if c then 1 else 0) 8) - 3 end).
Proof.
  induction n; intros H; [reflexivity|].
  cbn [grow]. rewrite IHn by lia. cbn [obind].
  unfold resize_cap.
  set (sz := if c then Z.of_nat (S n) + 1 else Z.of_nat (S n)).
  assert (Hsz : sz = Z.of_nat (S n) + (if c then 1 else 0)) by (unfold sz; destruct c; lia).
  rewrite (allocSize_ok sz) by (rewrite Hsz; destruct c; lia).
  cbn [obind]. unfold grown_cap. rewrite <- Hsz.
  set (L := Z.log2_up (Z.max sz 8)).
  assert (HL : 3 <= L) by (apply log2_up_ge3; lia).
  assert (0 < 2 ^ L) by (apply Z.pow_pos_nonneg; lia).
  destruct n as [|n].
  - simpl (0 =? 0). cbn iota. destruct (Z.ltb_spec (2^L) 0); [lia|]. cbn [obind].
    assert (HL0 : L = 3) by (unfold L; rewrite Hsz; destruct c; reflexivity).
    rewrite HL0. reflexivity.
  - set (L0 := Z.log2_up (Z.max (Z.of_nat (S n) + (if c then 1 else 0)) 8)).
    assert (HL0 : 3 <= L0) by (apply log2_up_ge3; lia).
    assert (Hc : L = L0 \/ L = L0 + 1).
    { unfold L, L0. rewrite Hsz.
      destruct (Z.leb_spec 8 (Z.of_nat (S n) + (if c then 1 else 0))).
      - rewrite (Z.max_l _ 8), (Z.max_l _ 8) by lia.
        replace (Z.of_nat (S (S n)) + (if c then 1 else 0)) with ((Z.of_nat (S n) + (if c then 1 else 0)) + 1) by lia.
        apply log2_up_succ_cases; lia.
      - left. rewrite (Z.max_r _ 8), (Z.max_r _ 8) by lia. reflexivity. }
    assert (0 < 2 ^ L0) by (apply Z.pow_pos_nonneg; lia).
    destruct (Z.eqb_spec (2^L0) 0); [lia|]. cbn [obind].
    destruct Hc as [->| ->].
    + rewrite Z.ltb_irrefl. cbn [obind]. reflexivity.
    + assert (2 ^ L0 < 2 ^ (L0+1)) by (apply Z.pow_lt_mono_r; lia).
      destruct (Z.ltb_spec (2^L0) (2^(L0+1))); [|lia]. cbn [obind]. f_equal. f_equal. lia.
Qed.
