(** Lemmas for the product of matrices, the largest magnitude and the sorting of rows. *)
From Coq Require Import ZArith Bool List Lia ZifyBool.
From Verif Require Import Base StrModel StrProof GeoModel GeoSpec GeoProof FunProof PolyProof.
Import ListNotations.
Local Notation length := List.length.
Local Open Scope Z_scope.

Section Mat.
Variable A : Type.
Implicit Types (m : mem A) (o : opd).

(** * Loops that can run out of bounds *)
Definition sound m (r : outcome (mem A)) : Prop := r = UB OutOfBounds \/ exists m', r = Ok m' /\ same_size A m m'.
Lemma loop_sound : forall m0 body n i m, same_size A m0 m ->
  (forall k m, i <= k < i + Z.of_nat n -> same_size A m0 m -> sound m0 (body k m)) -> sound m0 (loop A n i body m).
Proof.
  intros m0 body n. induction n; intros i m S H; cbn [loop]; [right; eauto|].
  destruct (H i m) as [E|(m' & E & S')]; [lia|auto| |]; rewrite E; cbn [obind]; [left; auto|]. apply IHn; auto. intros k m1 Hk. apply H. lia.
Qed.
Lemma loop_over : forall m0 body n i m k0, same_size A m0 m -> i <= k0 < i + Z.of_nat n ->
  (forall k m, i <= k < i + Z.of_nat n -> same_size A m0 m -> sound m0 (body k m)) ->
  (forall m, same_size A m0 m -> body k0 m = UB OutOfBounds) -> loop A n i body m = UB OutOfBounds.
Proof.
  intros m0 body n. induction n; intros i m k0 S Hk H HB; [lia|]. cbn [loop].
  destruct (H i m) as [E|(m' & E & S')]; [lia|auto| |]; [rewrite E; auto|].
  destruct (Z.eq_dec i k0) as [->|Hne]; [rewrite HB by auto; auto|]. rewrite E. cbn [obind]. apply (IHn (i + 1) m' k0); auto; [lia|]. intros k m1 Hk1. apply H. lia.
Qed.
Lemma for_sound : forall m0 body n m, same_size A m0 m ->
  (forall k m, 0 <= k < n -> same_size A m0 m -> sound m0 (body k m)) -> sound m0 (for_to A n body m).
Proof. intros m0 body n m S H. apply loop_sound; auto. intros k m1 Hk. apply H. lia. Qed.
Lemma for_over : forall m0 body n m k0, same_size A m0 m -> 0 <= k0 < n ->
  (forall k m, 0 <= k < n -> same_size A m0 m -> sound m0 (body k m)) ->
  (forall m, same_size A m0 m -> body k0 m = UB OutOfBounds) -> for_to A n body m = UB OutOfBounds.
Proof. intros m0 body n m k0 S Hk H HB. apply (loop_over m0 body _ 0 m k0); auto; [lia|]. intros k m1 Hk1. apply H. lia. Qed.
Lemma same_size_sym : forall m m', same_size A m m' -> same_size A m' m.
Proof. intros m m' [H1 H2]. split; auto. Qed.

(** * The product *)
(** The pairs of cells along a row of the first and a column, of step [N], of the second. *)
Fixpoint cells2 m (x : nat) (px : Z) (y : nat) (py N : Z) (n : nat) : list (option A * option A) :=
  match n with O => [] | S n => (cell m x px, cell m y py) :: cells2 m x (px + 1) y (py + N) N n end.
Lemma gemmCell_ok : forall add mul m x y N n px py s, 0 <= px -> px + Z.of_nat n <= Z.of_nat (length (arr A m x)) ->
  (forall t, 0 <= t < Z.of_nat n -> 0 <= py + N * t < Z.of_nat (length (arr A m y))) ->
  exists v, gemmCell A add mul m x px y py N n s = Ok v /\ odot A add mul s (cells2 m x px y py N n) = Some v.
Proof.
  intros add mul m x y N n. induction n; intros px py s H1 H2 H3; [exists s; auto|].
  destruct (cell_some A m x px) as (a & Ea); [lia|]. destruct (cell_some A m y py) as (b & Eb); [specialize (H3 0); lia|].
  destruct (IHn (px + 1) (py + N) (add s (mul a b))) as (v & E & V); try lia.
  { intros t Ht. specialize (H3 (t + 1)). lia. }
  exists v. cbn [gemmCell cells2]. rewrite !rd_cell, Ea, Eb. cbn [obind]. split; auto.
Qed.
Lemma gemmCell_sound : forall add mul m x y N n px py s, gemmCell A add mul m x px y py N n s = UB OutOfBounds \/ exists v, gemmCell A add mul m x px y py N n s = Ok v.
Proof.
  intros add mul m x y N n. induction n; intros px py s; cbn [gemmCell]; [eauto|]. rewrite !rd_cell.
  destruct (cell m x px); cbn [obind]; auto. destruct (cell m y py); cbn [obind]; auto.
Qed.
Lemma cells2_ext : forall m m' x y N n px py, (forall j, cell m' x j = cell m x j) -> (forall j, cell m' y j = cell m y j) ->
  cells2 m' x px y py N n = cells2 m x px y py N n.
Proof. intros m m' x y N n. induction n; intros; cbn [cells2]; auto. rewrite H, H0, IHn; auto. Qed.
Lemma gemm_ok : forall zero add mul M N K a pa b pb c pc m, 1 <= M -> 1 <= N -> 1 <= K ->
  0 <= pa -> pa + M * K <= Z.of_nat (length (arr A m a)) -> 0 <= pb -> pb + K * N <= Z.of_nat (length (arr A m b)) ->
  0 <= pc -> pc + M * N <= Z.of_nat (length (arr A m c)) -> c <> a -> c <> b ->
  exists m', gemm A zero add mul M N K a pa b pb c pc m = Ok m' /\
    upd A m m' c (fun j => pc <= j < pc + N * M)
      (fun j => odot A add mul zero (cells2 m a (pa + (j - pc) / N * K) b (pb + (j - pc) mod N) N (Z.to_nat K))).
Proof.
  intros zero add mul M N K a pa b pb c pc m HM HN HK Ha La Hb Lb Hc Lc Hca Hcb. unfold gemm.
  replace ((M <? 1) || (N <? 1) || (K <? 1)) with false by lia.
  apply for_blocks; [lia|lia|]. intros i m1 Hi U1.
  match goal with |- exists _, for_to A N ?body m1 = _ /\ upd A m1 _ c _ ?F =>
    destruct (for_cells A m1 c (pc + N * i) F body N) as (m' & E & U) end; [lia| |exists m'; split; auto].
  intros j m2 Hj U2.
  destruct (gemmCell_ok add mul m2 a b N (Z.to_nat K) (pa + i * K) (pb + j) zero) as (v & E & V).
  - nia.
  - rewrite (upd_len _ _ _ _ _ _ _ U2), (upd_len _ _ _ _ _ _ _ U1). nia.
  - intros t Ht. rewrite (upd_len _ _ _ _ _ _ _ U2), (upd_len _ _ _ _ _ _ _ U1). nia.
  - rewrite E. cbn [obind]. replace (pc + i * N + j) with (pc + N * i + j) by lia. apply wr_upd.
    + rewrite (upd_len _ _ _ _ _ _ _ U2), (upd_len _ _ _ _ _ _ _ U1). nia.
    + rewrite <- V. f_equal. replace (pc + N * i + j - pc) with (i * N + j) by lia. rewrite (md i N j), (dv i N j) by lia.
      symmetry. apply cells2_ext; intros; rewrite (upd_in _ _ _ _ _ _ _ _ U2) by auto; apply (upd_in _ _ _ _ _ _ _ _ U1); auto.
Qed.
Lemma wr_sound : forall m0 m a i x, same_size A m0 m -> sound m0 (wr A m a i x).
Proof.
  intros m0 m a i x S. destruct ((i <? 0) || (Z.of_nat (length (arr A m a)) <=? i)) eqn:E.
  - left. unfold wr. rewrite E. auto.
  - right. destruct (wr_ok A m a i x) as (m' & E' & S' & _); [lia|]. exists m'. split; auto. eapply same_size_trans; eauto.
Qed.
Lemma gemm_sound : forall zero add mul M N K a pa b pb c pc m0 m, 1 <= M -> 1 <= N -> 1 <= K -> same_size A m0 m ->
  sound m0 (gemm A zero add mul M N K a pa b pb c pc m).
Proof.
  intros zero add mul M N K a pa b pb c pc m0 m HM HN HK S. unfold gemm. replace ((M <? 1) || (N <? 1) || (K <? 1)) with false by lia.
  apply for_sound; auto. intros i m1 Hi S1. apply for_sound; auto. intros j m2 Hj S2.
  destruct (gemmCell_sound add mul m2 a b N (Z.to_nat K) (pa + i * K) (pb + j) zero) as [->|(v & ->)]; cbn [obind]; [left; auto|apply wr_sound; auto].
Qed.
Lemma gemm_over : forall zero add mul M N K a pa b pb c pc m, 1 <= M -> 1 <= N -> 1 <= K -> 0 <= pc -> Z.of_nat (length (arr A m c)) < pc + M * N ->
  gemm A zero add mul M N K a pa b pb c pc m = UB OutOfBounds.
Proof.
  intros zero add mul M N K a pa b pb c pc m HM HN HK Hc L. unfold gemm. replace ((M <? 1) || (N <? 1) || (K <? 1)) with false by lia.
  assert (B : forall i j m2, same_size A m m2 -> sound m
    (let* s := gemmCell A add mul m2 a (pa + i * K) b (pb + j) N (Z.to_nat K) zero in wr A m2 c (pc + i * N + j) s)).
  { intros i j m2 S2. destruct (gemmCell_sound add mul m2 a b N (Z.to_nat K) (pa + i * K) (pb + j) zero) as [->|(v & ->)]; cbn [obind]; [left; auto|apply wr_sound; auto]. }
  apply (for_over m _ M m (M - 1)); [apply same_size_refl|lia| |].
  - intros i m1 Hi S1. apply for_sound; auto.
  - intros m1 S1. apply (for_over m _ N m1 (N - 1)); auto; [lia|].
    intros m2 S2. destruct (gemmCell_sound add mul m2 a b N (Z.to_nat K) (pa + (M - 1) * K) (pb + (N - 1)) zero) as [->|(v & ->)]; cbn [obind]; auto.
    unfold wr. destruct S2 as [_ S2]. rewrite <- S2. replace ((_ <? 0) || _) with true by nia. auto.
Qed.

(** The broadcaster, with other last dimensions in the result. *)
Lemma arith_gen : forall sc vector m i1 x o r d1 d2 d3 off1 offx offo (S : Z -> Z -> Prop) F, fits m i1 (r ++ d1) off1 -> fits m x d2 offx -> fits m o (r ++ d3) offo ->
  d2 <> [1] -> length d1 = length d2 -> length d3 = length d2 -> (forall k j, S k j \/ ~ S k j) ->
  (forall k m', 0 <= k < prod r -> upd A m m' (o_arr o) (fun j => exists t, 0 <= t < k /\ S t j) F ->
     exists m'', vector (prod d1 * k) x 0 (prod d3 * k) m' = Ok m'' /\ upd A m' m'' (o_arr o) (S k) F) ->
  exists m', arith_broadcast A sc vector m i1 (Arr A x) o = Ok m' /\ upd A m m' (o_arr o) (fun j => exists t, 0 <= t < prod r /\ S t j) F.
Proof.
  intros sc vector m i1 x o r d1 d2 d3 off1 offx offo S F H1 Hx Ho Hd L1 L3 D HV.
  pose proof (fits_nonnil _ _ _ _ _ Hx) as Hne. pose proof (fits_pos _ _ _ _ _ H1) as Hpos. apply positive_app in Hpos. destruct Hpos as [Pr Pd].
  pose proof (fits_pos _ _ _ _ _ Ho) as Hpos. apply positive_app in Hpos. destruct Hpos as [_ Pd3].
  pose proof (prod_pos _ Pr). pose proof (prod_pos _ Pd). pose proof (prod_pos _ Pd3).
  pose proof (fits_prod _ _ _ _ _ H1) as F1. rewrite prod_app in F1. pose proof (fits_prod _ _ _ _ _ Ho) as Fo. rewrite prod_app in Fo.
  unfold arith_broadcast. cbn [rhs_size rhs_dim]. rewrite (fits_size _ _ _ _ _ Hx). cbn [obind]. rewrite (fits_dim _ _ _ _ _ Hx).
  destruct ((Z.of_nat (length d2) =? 1) && (prod d2 =? 1)) eqn:E1.
  { exfalso. apply Hd. destruct d2 as [|e [|]]; cbn [length] in E1; try lia. cbn [prod] in E1. f_equal. lia. }
  replace (dim i1 <? Z.of_nat (length d2)) with false by (rewrite (fits_dim _ _ _ _ _ H1), app_length; lia).
  destruct (step_ok A m i1 r d1 off1 (Z.of_nat (length d2)) H1) as [->|X]; [lia| |subst d1; destruct d2; [congruence|discriminate]]. cbn [obind].
  destruct (step_ok A m o r d3 offo (Z.of_nat (length d2)) Ho) as [->|X]; [lia| |subst d3; destruct d2; [congruence|discriminate]]. cbn [obind].
  rewrite (fits_size _ _ _ _ _ H1). cbn [obind]. rewrite prod_app. unfold idiv.
  destruct (prod d1 =? 0) eqn:E3; [lia|]. cbn [obind]. rewrite Z.quot_mul by lia.
  apply for_upd; [lia|auto|]. intros k m' Hk U.
  rewrite imul_in by (apply in_int_small; nia). cbn [obind]. rewrite imul_in by (apply in_int_small; nia). cbn [obind]. apply HV; auto.
Qed.
Lemma arith_over : forall sc vector m i1 x o r d1 d2 d3 off1 offx offo k0, fits m i1 (r ++ d1) off1 -> fits m x d2 offx -> fits m o (r ++ d3) offo ->
  d2 <> [1] -> length d1 = length d2 -> length d3 = length d2 -> 0 <= k0 < prod r ->
  (forall k m', 0 <= k < prod r -> same_size A m m' -> sound m (vector (prod d1 * k) x 0 (prod d3 * k) m')) ->
  (forall m', same_size A m m' -> vector (prod d1 * k0) x 0 (prod d3 * k0) m' = UB OutOfBounds) ->
  arith_broadcast A sc vector m i1 (Arr A x) o = UB OutOfBounds.
Proof.
  intros sc vector m i1 x o r d1 d2 d3 off1 offx offo k0 H1 Hx Ho Hd L1 L3 Hk0 HS HV.
  pose proof (fits_nonnil _ _ _ _ _ Hx) as Hne. pose proof (fits_pos _ _ _ _ _ H1) as Hpos. apply positive_app in Hpos. destruct Hpos as [Pr Pd].
  pose proof (fits_pos _ _ _ _ _ Ho) as Hpos. apply positive_app in Hpos. destruct Hpos as [_ Pd3].
  pose proof (prod_pos _ Pr). pose proof (prod_pos _ Pd). pose proof (prod_pos _ Pd3).
  pose proof (fits_prod _ _ _ _ _ H1) as F1. rewrite prod_app in F1. pose proof (fits_prod _ _ _ _ _ Ho) as Fo. rewrite prod_app in Fo.
  unfold arith_broadcast. cbn [rhs_size rhs_dim]. rewrite (fits_size _ _ _ _ _ Hx). cbn [obind]. rewrite (fits_dim _ _ _ _ _ Hx).
  destruct ((Z.of_nat (length d2) =? 1) && (prod d2 =? 1)) eqn:E1.
  { exfalso. apply Hd. destruct d2 as [|e [|]]; cbn [length] in E1; try lia. cbn [prod] in E1. f_equal. lia. }
  replace (dim i1 <? Z.of_nat (length d2)) with false by (rewrite (fits_dim _ _ _ _ _ H1), app_length; lia).
  destruct (step_ok A m i1 r d1 off1 (Z.of_nat (length d2)) H1) as [->|X]; [lia| |subst d1; destruct d2; [congruence|discriminate]]. cbn [obind].
  destruct (step_ok A m o r d3 offo (Z.of_nat (length d2)) Ho) as [->|X]; [lia| |subst d3; destruct d2; [congruence|discriminate]]. cbn [obind].
  rewrite (fits_size _ _ _ _ _ H1). cbn [obind]. rewrite prod_app. unfold idiv.
  destruct (prod d1 =? 0) eqn:E3; [lia|]. cbn [obind]. rewrite Z.quot_mul by lia.
  apply (for_over m _ (prod r) m k0); [apply same_size_refl|auto| |].
  - intros k m' Hk S. rewrite imul_in by (apply in_int_small; nia). cbn [obind]. rewrite imul_in by (apply in_int_small; nia). cbn [obind]. apply HS; auto.
  - intros m' S. rewrite imul_in by (apply in_int_small; nia). cbn [obind]. rewrite imul_in by (apply in_int_small; nia). cbn [obind]. apply HV; auto.
Qed.
End Mat.
