(** Lemmas for poly, concatenate, dot and swap. *)
From Coq Require Import ZArith Bool List Lia ZifyBool Ring_theory Ring.
From Verif Require Import Base StrModel StrProof GeoModel GeoSpec GeoProof FunProof.
Import ListNotations.
Local Open Scope Z_scope.

Lemma firstn_snoc : forall B (l : list B) k x, nth_error l k = Some x -> firstn (S k) l = firstn k l ++ [x].
Proof.
  induction l; intros [|k] x H; try discriminate.
  - inversion H. reflexivity.
  - cbn [firstn app]. f_equal. apply (IHl k). exact H.
Qed.
Section PolyRing.
Variable A : Type.
Variables (zero one : A) (add mul sub : A -> A -> A) (opp : A -> A).
Hypothesis Rth : ring_theory zero one add mul sub opp eq.
Add Ring ARing : Rth.
Local Notation sum_to := (sum_to A add).
Local Notation pmul := (pmul A add mul).
Local Notation pone := (pone A zero one).
Local Notation minus_root := (minus_root A zero one opp).
Local Notation from_roots := (from_roots A zero one add mul opp).

Lemma sum_to_zero : forall n g, (forall i, (i <= n)%nat -> g i = zero) -> sum_to n g = zero.
Proof. induction n; intros g H; cbn [GeoSpec.sum_to]; [apply H; lia|]. rewrite IHn by (intros; apply H; lia). rewrite H by lia. ring. Qed.
(** Multiplication by x - r. *)
Lemma pmul_root : forall p r k, pmul p (minus_root r) k =
  sub (match k with O => zero | S k => p k end) (mul r (p k)).
Proof.
  intros p r [|k]; unfold GeoSpec.pmul.
  - cbn [GeoSpec.sum_to Nat.sub GeoSpec.minus_root]. ring.
  - cbn [GeoSpec.sum_to]. replace (S k - S k)%nat with O by lia. cbn [GeoSpec.minus_root].
    destruct k.
    + cbn [GeoSpec.sum_to Nat.sub GeoSpec.minus_root]. ring.
    + cbn [GeoSpec.sum_to]. rewrite sum_to_zero.
      * replace (S (S k) - S k)%nat with 1%nat by lia. cbn [GeoSpec.minus_root]. ring.
      * intros i Hi. replace (S (S k) - i)%nat with (S (S (k - i)))%nat by lia. cbn [GeoSpec.minus_root]. ring.
Qed.
Lemma from_roots_snoc : forall rs r, from_roots (rs ++ [r]) = pmul (from_roots rs) (minus_root r).
Proof. intros. unfold GeoSpec.from_roots. rewrite fold_left_app. reflexivity. Qed.
Lemma from_roots_high : forall rs k, (length rs < k)%nat -> from_roots rs k = zero.
Proof.
  induction rs as [|r rs] using rev_ind; intros k Hk.
  - unfold GeoSpec.from_roots. cbn [fold_left]. destruct k; [simpl in Hk; lia|]. reflexivity.
  - rewrite app_length in Hk. cbn [length] in Hk. rewrite from_roots_snoc, pmul_root. destruct k; [lia|].
    rewrite !IHrs by lia. ring.
Qed.
Lemma from_roots_lead : forall rs, from_roots rs (length rs) = one.
Proof.
  induction rs as [|r rs] using rev_ind; [reflexivity|]. rewrite app_length, Nat.add_comm, from_roots_snoc, pmul_root.
  cbn [length Nat.add]. rewrite IHrs, from_roots_high by lia. ring.
Qed.

(** Cells [q .. q + n] of [o] hold the coefficients, highest first. *)
Definition holds (m : mem A) (o : nat) (q : Z) (rs : list A) : Prop :=
  forall j, (j <= length rs)%nat -> cell m o (q + Z.of_nat j) = Some (from_roots rs (length rs - j)).
Lemma poly_inner_ok : forall a pi o q rs r n j tmp0 m, a <> o -> cell m a pi = Some r -> (j + n = length rs + 1)%nat ->
  0 <= q -> q + Z.of_nat (length rs) + 1 < Z.of_nat (length (arr A m o)) ->
  (1 <= n -> tmp0 = from_roots rs (length rs - j))%nat ->
  (forall t, (t <= j)%nat -> (t <= length rs + 1)%nat -> cell m o (q + Z.of_nat t) = Some (from_roots (rs ++ [r]) (length rs + 1 - t))) ->
  (forall t, (j < t <= length rs)%nat -> cell m o (q + Z.of_nat t) = Some (from_roots rs (length rs - t))) ->
  ((1 <= n)%nat -> cell m o (q + Z.of_nat (length rs) + 1) = Some zero) ->
  exists m', poly_inner A sub mul a pi o q n (Z.of_nat j) tmp0 m = Ok m' /\ same_size A m m' /\ holds m' o q (rs ++ [r]) /\
    (forall b c, b <> o \/ c < q \/ q + Z.of_nat (length rs) + 1 < c -> cell m' b c = cell m b c).
Proof.
  intros a pi o q rs r n. induction n; intros j tmp0 m Hao Ha Hjn Hq Hlen Ht0 Hnew Hold Hz.
  - exists m. split; auto. split; [apply same_size_refl|]. split; auto. intros t Ht. rewrite app_length in *. cbn [length] in *. apply Hnew; lia.
  - cbn [poly_inner]. rewrite !rd_cell.
    set (tmp1 := if (S j <=? length rs)%nat then from_roots rs (length rs - S j) else zero).
    assert (E1 : cell m o (q + (Z.of_nat j + 1)) = Some tmp1).
    { unfold tmp1. destruct (Nat.leb_spec (S j) (length rs)).
      - rewrite <- Hold by lia. f_equal. lia.
      - rewrite <- Hz by lia. f_equal. lia. }
    rewrite E1. cbn [obind]. rewrite Ha. cbn [obind].
    destruct (wr_ok A m o (q + (Z.of_nat j + 1)) (sub tmp1 (mul r tmp0))) as (m1 & W & S1 & C1); [lia|].
    rewrite W. cbn [obind]. replace (Z.of_nat j + 1) with (Z.of_nat (S j)) in * by lia.
    assert (New : sub tmp1 (mul r tmp0) = from_roots (rs ++ [r]) (length rs + 1 - S j)).
    { rewrite from_roots_snoc, pmul_root. rewrite Ht0 by lia. replace (length rs + 1 - S j)%nat with (length rs - j)%nat by lia.
      unfold tmp1. destruct (Nat.leb_spec (S j) (length rs)).
      - replace (length rs - j)%nat with (S (length rs - S j)) by lia. reflexivity.
      - replace (length rs - j)%nat with O by lia. reflexivity. }
    destruct (IHn (S j) tmp1 m1) as (m2 & E2 & S2 & H2 & F2); auto.
    + rewrite C1. destruct (Nat.eqb_spec a o); [congruence|]. auto.
    + lia.
    + destruct S1 as [_ S1]. rewrite <- S1. auto.
    + intros Hn. unfold tmp1. destruct (Nat.leb_spec (S j) (length rs)); [auto|lia].
    + intros t Ht Ht2. rewrite C1, Nat.eqb_refl. cbn [andb]. destruct (Z.eqb_spec (q + Z.of_nat t) (q + Z.of_nat (S j))).
      * assert (t = S j) by lia. subst t. rewrite New. auto.
      * apply Hnew; lia.
    + intros t Ht. rewrite C1, Nat.eqb_refl. cbn [andb]. replace (q + Z.of_nat t =? q + Z.of_nat (S j)) with false by lia. apply Hold. lia.
    + intros Hn. rewrite C1, Nat.eqb_refl. cbn [andb]. replace (q + Z.of_nat (length rs) + 1 =? q + Z.of_nat (S j)) with false by lia. apply Hz. lia.
    + exists m2. split; auto. split; [eapply same_size_trans; eauto|]. split; auto.
      intros b c Hb. rewrite F2 by auto. rewrite C1. destruct (Nat.eqb_spec b o); cbn [andb]; auto.
      replace (c =? q + Z.of_nat (S j)) with false by lia. auto.
Qed.
Lemma polyt_ok : forall rs a p o q m, a <> o -> 0 <= q -> q + Z.of_nat (length rs) < Z.of_nat (length (arr A m o)) ->
  (forall t, (t < length rs)%nat -> cell m a (p + Z.of_nat t) = nth_error rs t) ->
  exists m', polyt A zero one sub mul (Z.of_nat (length rs)) a p o q m = Ok m' /\ same_size A m m' /\ holds m' o q rs /\
    (forall b c, b <> o \/ c < q \/ q + Z.of_nat (length rs) < c -> cell m' b c = cell m b c).
Proof.
  intros rs a p o q m Hao Hq Hlen Hr. unfold polyt.
  destruct (wr_ok A m o q one) as (m1 & W & S1 & C1); [lia|]. rewrite W. cbn [obind].
  match goal with |- context [for_to A ?n ?body m1] =>
    destruct (for_inv A (fun k m' => 0 <= k <= n -> same_size A m m' /\ holds m' o q (firstn (Z.to_nat k) rs) /\
      (forall b c, b <> o \/ c < q \/ q + n < c -> cell m' b c = cell m b c)) body n m1) as (m' & E & P) end.
  - lia.
  - intros _. split; auto. split.
    + change (Z.to_nat 0) with O. cbn [firstn]. intros j Hj. cbn [length] in *. assert (j = O) by lia. subst j.
      rewrite C1, Nat.eqb_refl. cbn [andb]. rewrite Z.add_0_r, Z.eqb_refl. reflexivity.
    + intros b c Hb. rewrite C1. destruct (Nat.eqb_spec b o); cbn [andb]; auto. replace (c =? q) with false by lia. auto.
  - intros k m2 Hk HP. destruct HP as (S2 & H2 & F2); [lia|].
    set (pre := firstn (Z.to_nat k) rs) in *. assert (Lp : length pre = Z.to_nat k) by (apply firstn_length_le; lia).
    assert (Len : length (arr A m2 o) = length (arr A m o)) by (destruct S2 as [_ S2]; rewrite S2; auto).
    destruct (wr_ok A m2 o (q + (k + 1)) zero) as (m3 & W3 & S3 & C3); [lia|]. rewrite W3. cbn [obind].
    assert (Len3 : length (arr A m3 o) = length (arr A m2 o)) by (destruct S3 as [_ S3]; rewrite S3; auto).
    assert (H3 : forall j, (j <= length pre)%nat -> cell m3 o (q + Z.of_nat j) = Some (from_roots pre (length pre - j))).
    { intros j Hj. rewrite C3, Nat.eqb_refl. cbn [andb]. replace (q + Z.of_nat j =? q + (k + 1)) with false by lia. auto. }
    rewrite rd_cell. pose proof (H3 O ltac:(lia)) as H30. rewrite Z.add_0_r in H30. rewrite H30. cbn [obind].
    destruct (nth_error rs (Z.to_nat k)) as [r|] eqn:Er; [|apply nth_error_None in Er; lia].
    replace (Z.to_nat (k + 1)) with (S (length pre)) by lia.
    destruct (poly_inner_ok a (p + k) o q pre r (S (length pre)) 0 (from_roots pre (length pre - 0)) m3) as (m4 & E4 & S4 & H4 & F4); auto; try lia.
    + rewrite C3. destruct (Nat.eqb_spec a o); [congruence|]. cbn [andb]. rewrite F2 by auto. rewrite <- Er.
      rewrite <- Hr by lia. f_equal. lia.
    + intros t Ht _. assert (t = O) by lia. subst t. rewrite Z.add_0_r, H30. f_equal. rewrite !Nat.sub_0_r. rewrite from_roots_lead.
      replace (length pre + 1)%nat with (length (pre ++ [r])) by (rewrite app_length; auto). rewrite from_roots_lead. auto.
    + intros t Ht. apply H3. lia.
    + intros _. rewrite C3, Nat.eqb_refl. cbn [andb]. replace (q + Z.of_nat (length pre) + 1 =? q + (k + 1)) with true by lia. auto.
    + exists m4. split; auto. intros _. split; [eapply same_size_trans; [exact S2|eapply same_size_trans; eauto]|]. split.
      * replace (firstn (S (length pre)) rs) with (pre ++ [r]); auto.
        rewrite Lp. symmetry. apply firstn_snoc. auto.
      * intros b c Hb. rewrite F4 by lia. rewrite C3. destruct (Nat.eqb_spec b o); cbn [andb]; auto.
        replace (c =? q + (k + 1)) with false by lia. auto.
  - exists m'. split; auto. destruct (P ltac:(lia)) as (P1 & P2 & P3). rewrite Nat2Z.id, firstn_all in P2. auto.
Qed.
End PolyRing.

Section More.
Variable A : Type.
Implicit Types (m : mem A) (o : opd).
Fixpoint vals m (a : nat) (p : Z) (n : nat) : list A :=
  match n with
  | O => []
  | S n => match cell m a p with Some x => x :: vals m a (p + 1) n | None => [] end
  end.
Lemma vals_ok : forall m a n p, 0 <= p -> p + Z.of_nat n <= Z.of_nat (length (arr A m a)) ->
  length (vals m a p n) = n /\ forall t, (t < n)%nat -> nth_error (vals m a p n) t = cell m a (p + Z.of_nat t).
Proof.
  intros m a n. induction n; intros p Hp Hn; [split; [auto|lia]|]. cbn [vals].
  destruct (cell_some A m a p) as (x & Ex); [lia|]. rewrite Ex. destruct (IHn (p + 1)) as [H1 H2]; [lia|lia|]. split; [cbn [length]; auto|].
  intros [|t] Ht; cbn [nth_error].
  - rewrite Z.add_0_r. auto.
  - rewrite H2 by lia. f_equal. lia.
Qed.
Lemma vals_ext : forall m m' a n p, (forall j, cell m' a j = cell m a j) -> vals m' a p n = vals m a p n.
Proof. intros m m' a n. induction n; intros p H; cbn [vals]; auto. rewrite H. destruct (cell m a p); auto. rewrite IHn; auto. Qed.
(** The subview of one row. *)
Lemma subview_row : forall m i r d off k, fits m i (r ++ [d]) off -> 0 <= k < prod r ->
  subview A m i 1 (d * k) = Ok (mkop (o_arr i) (Some ((off + d * k) :: dims [d]))) /\
  fits m (mkop (o_arr i) (Some ((off + d * k) :: dims [d]))) [d] (off + d * k).
Proof.
  intros m i r d off k H Hk. pose proof (fits_prod _ _ _ _ _ H) as F. rewrite prod_app in F. cbn [prod] in F.
  pose proof (fits_pos _ _ _ _ _ H) as P. apply positive_app in P. destruct P as [_ P]. assert (1 <= d) by (inversion P; auto).
  destruct (mkview_fits A m i (r ++ [d]) off [d] (d * k) H) as [E1 E2]; auto; try discriminate; cbn [prod]; try nia.
  split; auto. unfold subview. replace (1 <? 1) with false by reflexivity. rewrite (fits_shapes A m i (r ++ [d]) off H). cbn [obind].
  rewrite (fits_dim A m i _ _ H), app_length. cbn [length].
  replace (Z.to_nat (Z.of_nat (length r + 1) - 1)) with (length r) by lia. rewrite skipn_app_len. auto.
Qed.
Lemma last_snoc : forall (r : list Z) d, last (r ++ [d]) 0 = d.
Proof. intros. apply last_last. Qed.

Section PolyNew.
Variables (zero one : A) (add mul sub : A -> A -> A) (opp : A -> A).
Hypothesis Rth : ring_theory zero one add mul sub opp eq.
Lemma poly_rows_ok : forall m i o r n offi offo, fits m i (r ++ [n]) offi -> fits m o (r ++ [n + 1]) offo -> o_arr i <> o_arr o ->
  exists m', unary_broadcast A 1 (poly_vector A zero one sub mul i o) m i o = Ok m' /\
    upd A m m' (o_arr o) (fun j => offo <= j < offo + prod (r ++ [n + 1]))
      (fun j => Some (from_roots A zero one add mul opp (vals m (o_arr i) (offi + n * ((j - offo) / (n + 1))) (Z.to_nat n))
                        (Z.to_nat (n - (j - offo) mod (n + 1))))).
Proof.
  intros m i o r n offi offo Hi Ho Hd.
  pose proof (fits_pos _ _ _ _ _ Hi) as P. apply positive_app in P. destruct P as [Pr P]. assert (Hn : 1 <= n) by (inversion P; auto). clear P.
  pose proof (fits_prod _ _ _ _ _ Hi) as Fi. pose proof (fits_prod _ _ _ _ _ Ho) as Fo. rewrite prod_app in Fi, Fo. cbn [prod] in Fi, Fo.
  apply (unary_ok A 1 _ m i o r [n] [n + 1] offi offo); auto; [discriminate|].
  intros k m' Hk U. cbn [prod] in *. rewrite !Z.mul_1_r in *.
  assert (Hi' : fits m' i (r ++ [n]) offi) by (eapply same_fits; [apply U|auto]).
  assert (Ho' : fits m' o (r ++ [n + 1]) offo) by (eapply same_fits; [apply U|auto]).
  unfold poly_vector. rewrite (fits_dim _ _ _ _ _ Hi). 
  replace (dim o) with (Z.of_nat (length (r ++ [n]))) by (rewrite (fits_dim _ _ _ _ _ Ho), !app_length; auto).
  replace (Z.of_nat (length (r ++ [n])) - (Z.of_nat (length (r ++ [n])) - 1)) with 1 by lia.
  destruct (subview_row m' i r n offi k Hi' Hk) as [-> Fiv]. cbn [obind].
  destruct (subview_row m' o r (n + 1) offo k Ho' Hk) as [-> Fov]. cbn [obind].
  rewrite (shape_last A m' _ [] n _ Fiv). cbn [obind]. rewrite (fits_offset _ _ _ _ _ Fiv), (fits_offset _ _ _ _ _ Fov). cbn [o_arr].
  assert (Ei : forall j, cell m' (o_arr i) j = cell m (o_arr i) j) by (intros; apply (upd_in _ _ _ _ _ _ _ _ U); auto).
  unfold hsize in *.
  destruct (vals_ok m' (o_arr i) (Z.to_nat n) (offi + n * k)) as [V1 V2]; [nia|rewrite (upd_len _ _ _ _ _ _ _ U); nia|].
  destruct (polyt_ok A zero one add mul sub opp Rth (vals m' (o_arr i) (offi + n * k) (Z.to_nat n)) (o_arr i) (offi + n * k) (o_arr o) (offo + (n + 1) * k) m') as (m'' & E & S2 & H2 & F2).
  - auto.
  - nia.
  - rewrite V1, (upd_len _ _ _ _ _ _ _ U). nia.
  - intros t Ht. rewrite V1 in Ht. rewrite V2 by auto. auto.
  - rewrite V1 in *. replace (Z.of_nat (Z.to_nat n)) with n in * by lia. exists m''. split; [exact E|].
    split; auto. split.
    + intros j Hj. assert (Em : (j - offo) mod (n + 1) = j - (offo + (n + 1) * k)) by (apply block_mod; lia).
      assert (Ed : (j - offo) / (n + 1) = k) by (symmetry; apply (Z.div_unique _ _ k (j - (offo + (n + 1) * k))); lia).
      rewrite Em, Ed. specialize (H2 (Z.to_nat (j - (offo + (n + 1) * k)))). rewrite V1 in H2.
      replace (offo + (n + 1) * k + Z.of_nat (Z.to_nat (j - (offo + (n + 1) * k)))) with j in H2 by lia. rewrite H2 by lia.
      f_equal. rewrite (vals_ext m m') by auto. f_equal. lia.
    + intros b j Hb. apply F2. destruct Hb; [auto|lia].
Qed.
End PolyNew.

(** * Dot with a vector *)
Definition odot (add mul : A -> A -> A) (zero : A) (l : list (option A * option A)) : option A :=
  fold_left (fun s p => lift2 add s (lift2 mul (fst p) (snd p))) l (Some zero).
Fixpoint rows2 m (x : nat) (px : Z) (y : nat) (py : Z) (n : nat) : list (option A * option A) :=
  match n with O => [] | S n => (cell m x px, cell m y py) :: rows2 m x (px + 1) y (py + 1) n end.
Lemma dotArray_ok : forall add mul m x y n px py s, 0 <= px -> px + Z.of_nat n <= Z.of_nat (length (arr A m x)) ->
  0 <= py -> py + Z.of_nat n <= Z.of_nat (length (arr A m y)) ->
  exists v, dotArray A add mul m x px y py n s = Ok v /\ odot add mul s (rows2 m x px y py n) = Some v.
Proof.
  intros add mul m x y n. induction n; intros px py s H1 H2 H3 H4; [exists s; auto|].
  destruct (cell_some A m x px) as (a & Ea); [lia|]. destruct (cell_some A m y py) as (b & Eb); [lia|].
  destruct (IHn (px + 1) (py + 1) (add s (mul a b))) as (v & E & V); try lia.
  exists v. cbn [dotArray rows2]. rewrite !rd_cell, Ea, Eb. cbn [obind]. split; auto.
Qed.
Lemma rows2_ext : forall m m' x y n px py, (forall j, cell m' x j = cell m x j) -> (forall j, cell m' y j = cell m y j) ->
  rows2 m' x px y py n = rows2 m x px y py n.
Proof. intros m m' x y n. induction n; intros; cbn [rows2]; auto. rewrite H, H0, IHn; auto. Qed.
Lemma dot_ok : forall fuel zero add mul m i1 x o r n off1 offx offo, fits m i1 (r ++ [n]) off1 -> fits m x [n] offx -> fits m o (r ++ [1]) offo ->
  n <> 1 -> o_arr o <> o_arr i1 -> o_arr o <> o_arr x ->
  exists m', dot_broadcast A fuel zero add mul m i1 (Arr A x) o = Ok m' /\
    upd A m m' (o_arr o) (fun j => offo <= j < offo + prod (r ++ [1]))
      (fun j => odot add mul zero (rows2 m (o_arr i1) (off1 + n * (j - offo)) (o_arr x) offx (Z.to_nat n))).
Proof.
  intros fuel zero add mul m i1 x o r n off1 offx offo H1 Hx Ho Hn Ho1 Hox.
  pose proof (fits_pos _ _ _ _ _ H1) as P. apply positive_app in P. destruct P as [Pr P]. assert (Hn1 : 1 <= n) by (inversion P; auto). clear P.
  pose proof (prod_pos _ Pr) as Pr1.
  pose proof (fits_prod _ _ _ _ _ H1) as F1. pose proof (fits_prod _ _ _ _ _ Ho) as Fo. pose proof (fits_prod _ _ _ _ _ Hx) as Fx.
  rewrite prod_app in F1, Fo. cbn [prod] in F1, Fo, Fx. unfold hsize in *.
  unfold dot_broadcast. cbn [rhs_size rhs_dim]. rewrite (fits_size _ _ _ _ _ Hx), (fits_dim _ _ _ _ _ Hx). cbn [obind length prod].
  replace ((Z.of_nat 1 =? 1) && (n * 1 =? 1)) with false by lia.
  unfold arith_broadcast. cbn [rhs_size rhs_dim]. rewrite (fits_size _ _ _ _ _ Hx), (fits_dim _ _ _ _ _ Hx). cbn [obind length prod].
  replace ((Z.of_nat 1 =? 1) && (n * 1 =? 1)) with false by lia.
  replace (dim i1 <? Z.of_nat 1) with false by (rewrite (fits_dim _ _ _ _ _ H1), app_length; cbn [length]; lia).
  destruct (step_ok A m i1 r [n] off1 (Z.of_nat 1) H1 eq_refl) as [->|?]; [|discriminate]. cbn [obind].
  destruct (step_ok A m o r [1] offo (Z.of_nat 1) Ho eq_refl) as [->|?]; [|discriminate]. cbn [obind].
  rewrite (fits_size _ _ _ _ _ H1). cbn [obind]. rewrite prod_app. cbn [prod]. rewrite !Z.mul_1_r. unfold idiv.
  replace (n =? 0) with false by lia. cbn [obind]. rewrite Z.quot_mul by lia.
  rewrite prod_app. cbn [prod]. replace (prod r * (1 * 1)) with (prod r) by lia.
  apply for_cells; [lia|]. intros k m' Hk U.
  rewrite imul_in by (apply in_int_small; nia). cbn [obind]. rewrite imul_in by (apply in_int_small; nia). cbn [obind].
  unfold dot_vector. replace (is_same i1 o) with false.
  2:{ unfold is_same. destruct (Nat.eqb_spec (o_arr i1) (o_arr o)); auto. congruence. }
  assert (Hx' : fits m' x [n] offx) by (eapply same_fits; [apply U|auto]).
  rewrite (fits_dim _ _ _ _ _ Hx'). cbn [length]. replace (Z.of_nat 1 =? 1) with true by reflexivity.
  rewrite (fits_size _ _ _ _ _ Hx'). cbn [obind prod]. rewrite Z.mul_1_r.
  rewrite (fits_offset _ _ _ _ _ H1), (fits_offset _ _ _ _ _ Hx), (fits_offset _ _ _ _ _ Ho).
  destruct (dotArray_ok add mul m' (o_arr i1) (o_arr x) (Z.to_nat n) (off1 + n * k) (offx + 0) zero) as (v & E & V);
    try (rewrite ?(upd_len _ _ _ _ _ _ _ U); nia).
  rewrite E. cbn [obind]. replace (1 * k) with k by lia. apply wr_upd.
  - rewrite (upd_len _ _ _ _ _ _ _ U). nia.
  - rewrite <- V. f_equal. replace (offo + k - offo) with k by lia. rewrite Z.add_0_r. symmetry. apply rows2_ext; intros; apply (upd_in _ _ _ _ _ _ _ _ U); auto.
Qed.

(** * Swap *)
Lemma blas_swap_ok : forall n x px y py m, 0 <= n -> 0 <= px -> px + n <= Z.of_nat (length (arr A m x)) ->
  0 <= py -> py + n <= Z.of_nat (length (arr A m y)) -> (x <> y \/ px + n <= py \/ py + n <= px) ->
  exists m', blas_swap A n x px y py m = Ok m' /\ same_size A m m' /\
    (forall k, 0 <= k < n -> cell m' x (px + k) = cell m y (py + k) /\ cell m' y (py + k) = cell m x (px + k)) /\
    (forall b j, (b <> x \/ j < px \/ px + n <= j) -> (b <> y \/ j < py \/ py + n <= j) -> cell m' b j = cell m b j).
Proof.
  intros n x px y py m Hn Hx Hx2 Hy Hy2 Hd. unfold blas_swap.
  match goal with |- context [for_to A ?n ?body m] =>
    destruct (for_inv A (fun t m' => 0 <= t <= n -> same_size A m m' /\
    (forall k, 0 <= k < t -> cell m' x (px + k) = cell m y (py + k) /\ cell m' y (py + k) = cell m x (px + k)) /\
    (forall b j, (b <> x \/ j < px \/ px + t <= j) -> (b <> y \/ j < py \/ py + t <= j) -> cell m' b j = cell m b j)) body n m) as (m' & E & P) end.
  - auto.
  - intros _. split; [apply same_size_refl|]. split; [intros; lia|auto].
  - intros t m1 Ht HP. destruct HP as (S1 & H1 & F1); [lia|].
    assert (Lx : length (arr A m1 x) = length (arr A m x)) by (destruct S1 as [_ S1]; rewrite S1; auto).
    assert (Ly : length (arr A m1 y) = length (arr A m y)) by (destruct S1 as [_ S1]; rewrite S1; auto).
    rewrite !rd_cell. rewrite (F1 x (px + t)) by lia. rewrite (F1 y (py + t)) by lia.
    destruct (cell_some A m x (px + t)) as (a & Ea); [lia|]. destruct (cell_some A m y (py + t)) as (b & Eb); [lia|].
    rewrite Ea, Eb. cbn [obind].
    destruct (wr_ok A m1 x (px + t) b) as (m2 & W2 & S2 & C2); [lia|]. rewrite W2. cbn [obind].
    assert (Ly2 : length (arr A m2 y) = length (arr A m1 y)) by (destruct S2 as [_ S2]; rewrite S2; auto).
    destruct (wr_ok A m2 y (py + t) a) as (m3 & W3 & S3 & C3); [lia|]. exists m3. split; auto. intros _.
    split; [eapply same_size_trans; [exact S1|eapply same_size_trans; eauto]|]. split.
    + intros k Hk. rewrite !C3, !C2. rewrite !Nat.eqb_refl. cbn [andb]. destruct (Z.eq_dec k t) as [->|Hne].
      * rewrite !Z.eqb_refl. rewrite Ea, Eb. split; auto. destruct (Nat.eqb_spec x y); cbn [andb]; auto.
        replace (px + t =? py + t) with false by lia. auto.
      * destruct (H1 k ltac:(lia)) as [K1 K2]. replace (px + k =? px + t) with false by lia. replace (py + k =? py + t) with false by lia.
        replace (Nat.eqb x y && (px + k =? py + t)) with false by (destruct (Nat.eqb_spec x y); cbn [andb]; auto; lia).
        replace (Nat.eqb y x && (py + k =? px + t)) with false by (destruct (Nat.eqb_spec y x); cbn [andb]; auto; lia). auto.
    + intros c j Hc1 Hc2. rewrite C3, C2.
      replace (Nat.eqb c y && (j =? py + t)) with false by (destruct (Nat.eqb_spec c y); cbn [andb]; auto; lia).
      replace (Nat.eqb c x && (j =? px + t)) with false by (destruct (Nat.eqb_spec c x); cbn [andb]; auto; lia).
      apply F1; lia.
  - exists m'. split; auto. apply P. lia.
Qed.
(** Running over the end of the array. *)
Lemma loop_ub : forall (Q : mem A -> Prop) body e n i m k, (Z.of_nat k < Z.of_nat n) -> Q m ->
  (forall t m', i <= t < i + Z.of_nat k -> Q m' -> (exists m'', body t m' = Ok m'' /\ Q m'') \/ body t m' = UB e) ->
  (forall m', Q m' -> body (i + Z.of_nat k) m' = UB e) -> loop A n i body m = UB e.
Proof.
  intros Q body e n. induction n; intros i m k Hk HQ H1 H2; [lia|]. cbn [loop]. destruct k.
  - rewrite Z.add_0_r in H2. rewrite H2; auto.
  - destruct (H1 i m) as [(m'' & -> & HQ')| ->]; [lia|auto| |auto]. cbn [obind]. apply (IHn (i + 1) m'' k); [lia|auto| |].
    + intros t m' Ht. apply H1. lia.
    + intros m' HQ2. rewrite <- H2 with (m' := m') by auto. f_equal. lia.
Qed.
Lemma rd_or : forall m a i, (exists x, rd A m a i = Ok x) \/ rd A m a i = UB OutOfBounds.
Proof. intros. rewrite rd_cell. destruct (cell m a i); eauto. Qed.
Lemma wr_or : forall m a i x, (exists m', wr A m a i x = Ok m' /\ same_size A m m') \/ wr A m a i x = UB OutOfBounds.
Proof.
  intros m a i x. unfold wr. destruct ((i <? 0) || (Z.of_nat (length (arr A m a)) <=? i)) eqn:E; auto.
  left. destruct (wr_ok A m a i x) as (m' & E' & S & _); [lia|]. unfold wr in E'. rewrite E in E'. eauto.
Qed.
Lemma swap_body_or : forall x i y j m, (exists m', (let* a := rd A m x i in let* b := rd A m y j in let* m := wr A m x i b in wr A m y j a) = Ok m' /\ same_size A m m')
  \/ (let* a := rd A m x i in let* b := rd A m y j in let* m := wr A m x i b in wr A m y j a) = UB OutOfBounds.
Proof.
  intros x i y j m. destruct (rd_or m x i) as [(a & ->)| ->]; [|auto]. cbn [obind].
  destruct (rd_or m y j) as [(b & ->)| ->]; [|auto]. cbn [obind].
  destruct (wr_or m x i b) as [(m1 & -> & S1)| ->]; [|auto]. cbn [obind].
  destruct (wr_or m1 y j a) as [(m2 & -> & S2)| ->]; [|auto]. left. exists m2. split; auto. eapply same_size_trans; eauto.
Qed.
Lemma blas_swap_or : forall n x px y py m, (exists m', blas_swap A n x px y py m = Ok m' /\ same_size A m m') \/ blas_swap A n x px y py m = UB OutOfBounds.
Proof.
  intros n x px y py. unfold blas_swap, for_to. generalize (Z.to_nat n) as t. intros t. generalize 0 as i. induction t; intros i m; cbn [loop].
  - left. exists m. split; auto. apply same_size_refl.
  - destruct (swap_body_or x (px + i) y (py + i) m) as [(m1 & -> & S1)| ->]; [|auto]. cbn [obind].
    destruct (IHt (i + 1) m1) as [(m2 & E2 & S2)|E2]; [|auto]. left. exists m2. split; auto. eapply same_size_trans; eauto.
Qed.
Lemma blas_swap_ub : forall n x px y py m, 0 <= px -> 1 <= n -> Z.of_nat (length (arr A m x)) < px + n -> blas_swap A n x px y py m = UB OutOfBounds.
Proof.
  intros n x px y py m Hp Hn Hl. unfold blas_swap, for_to.
  apply loop_ub with (Q := fun m' => same_size A m m') (k := Z.to_nat (n - 1)).
  - lia.
  - apply same_size_refl.
  - intros t m' Ht S. destruct (swap_body_or x (px + t) y (py + t) m') as [(m1 & E & S1)|E]; [|auto]. left. exists m1. split; auto. eapply same_size_trans; eauto.
  - intros m' [_ S]. rewrite rd_cell. unfold cell. replace (px + (0 + Z.of_nat (Z.to_nat (n - 1))) <? 0) with false by lia.
    destruct (nth_error _ _) eqn:E; auto. exfalso. assert (X : nth_error (nth x m' []) (Z.to_nat (px + (0 + Z.of_nat (Z.to_nat (n - 1))))) <> None) by congruence.
    apply nth_error_Some in X. specialize (S x). unfold arr in *. lia.
Qed.
Lemma swap_over : forall m a b r n offa offb, fits m a (r ++ [n]) offa -> fits m b (r ++ [n]) offb -> 2 <= prod r ->
  hsize A m a < offa + prod (r ++ [n]) + n -> swap_vars A m a b = UB OutOfBounds.
Proof.
  intros m a b r n offa offb Ha Hb Hr Hend.
  pose proof (fits_pos _ _ _ _ _ Ha) as P. apply positive_app in P. destruct P as [Pr P]. assert (Hn1 : 1 <= n) by (inversion P; auto). clear P.
  pose proof (fits_prod _ _ _ _ _ Ha) as Fa. pose proof (fits_prod _ _ _ _ _ Hb) as Fb. rewrite prod_app in *. cbn [prod] in *. rewrite Z.mul_1_r in *.
  assert (Hne : r <> []) by (intros ->; cbn [prod] in Hr; lia). destruct r as [|r0 r]; [congruence|]. clear Hne.
  unfold swap_vars. rewrite (fits_dim _ _ _ _ _ Ha). rewrite app_length. cbn [length].
  replace (Z.of_nat (S (length r) + 1) - 1 <? 0) with false by lia. replace (0 <? Z.of_nat (S (length r) + 1) - 1) with true by lia.
  assert (St : forall o off, fits m o ((r0 :: r) ++ [n]) off -> stride o (Z.of_nat (S (length r) + 1) - 1 - 1) = Ok n).
  { intros o off H. rewrite (fits_stride A m o ((r0 :: r) ++ [n]) off) by (auto; rewrite app_length; cbn [length]; lia).
    replace (S (Z.to_nat (Z.of_nat (S (length r) + 1) - 1 - 1))) with (length (r0 :: r)) by (cbn [length]; lia).
    rewrite skipn_app_len. cbn [prod]. f_equal. lia. }
  rewrite (St a offa Ha), (St b offb Hb). cbn [obind]. rewrite (fits_size _ _ _ _ _ Ha), prod_app. cbn [obind]. unfold idiv.
  replace (n =? 0) with false by lia. cbn [obind prod]. rewrite Z.mul_1_r, Z.quot_mul by lia. unfold for_to.
  assert (Fit : forall m', same_size A m m' -> fits m' a ((r0 :: r) ++ [n]) offa) by (intros m' S; eapply same_fits; eauto).
  apply loop_ub with (Q := fun m' => same_size A m m') (k := 1%nat).
  - cbn [prod] in Hr. lia.
  - apply same_size_refl.
  - intros t m' Ht S. assert (t = 0) by lia. subst t.
    replace (imul n 0) with (Ok 0) by (unfold imul; rewrite Z.mul_0_r; reflexivity). cbn [obind].
    unfold swap_vector. rewrite (fits_size _ _ _ _ _ (Fit m' S)). cbn [obind].
    destruct (blas_swap_or (prod ((r0 :: r) ++ [n])) (o_arr a) (offset a + 0) (o_arr b) (offset b + 0) m') as [(m2 & -> & S2)| ->]; [|auto].
    left. exists m2. split; auto. eapply same_size_trans; eauto.
  - intros m' S. change (0 + Z.of_nat 1) with 1. replace (imul n 1) with (Ok n).
    2:{ unfold imul. rewrite Z.mul_1_r. rewrite in_int_small; auto. cbn [prod] in *. nia. }
    cbn [obind]. unfold swap_vector. rewrite (fits_size _ _ _ _ _ (Fit m' S)). cbn [obind]. rewrite (fits_offset _ _ _ _ _ Ha).
    apply blas_swap_ub; try nia; rewrite prod_app; cbn [prod] in *; try nia.
    pose proof (same_hsize A m m' a S) as X. unfold hsize in *. nia.
Qed.

(** * Concatenate *)
(** Element [c] of the rows [l] (array, first cell, length) put one after the other. *)
Fixpoint pick m (l : list (nat * Z * Z)) (c : Z) : option A :=
  match l with
  | [] => None
  | (a, p, n) :: t => if c <? n then cell m a (p + c) else pick m t (c - n)
  end.
Fixpoint total (l : list (nat * Z * Z)) : Z := match l with [] => 0 | (_, _, n) :: t => n + total t end.
Definition rowop (x : nat * Z * Z) : opd := mkop (fst (fst x)) (Some (snd (fst x) :: dims [snd x])).
Definition goodrow m (ao : nat) (x : nat * Z * Z) : Prop := fits m (rowop x) [snd x] (snd (fst x)) /\ fst (fst x) <> ao.
Lemma pick_ext : forall m m' l c, (forall a p n, In (a, p, n) l -> forall j, cell m' a j = cell m a j) -> pick m' l c = pick m l c.
Proof.
  intros m m' l. induction l as [|((a & p) & n) l]; intros c H; cbn [pick]; auto. rewrite (H a p n) by (left; auto).
  destruct (c <? n); auto. apply IHl. intros. eapply H. right. eauto.
Qed.
Lemma cat_vector_ok : forall ov q to l m sum, fits m ov [to] q -> Forall (goodrow m (o_arr ov)) l -> 0 <= sum -> sum + total l <= to ->
  exists m', cat_vector A m (map rowop l) ov sum = Ok m' /\
    upd A m m' (o_arr ov) (fun j => q + sum <= j < q + sum + total l) (fun j => pick m l (j - (q + sum))).
Proof.
  intros ov q to l. induction l as [|((a & p) & n) l]; intros m sum Hov HF Hs Ht; cbn [total map cat_vector] in *.
  - exists m. split; auto. apply upd_refl. intros; lia.
  - inversion HF as [|? ? [Hr Hne] HF']; subst. cbn [fst snd] in *. change (rowop (a, p, n)) with (mkop a (Some (p :: dims [n]))) in *.
    pose proof (fits_pos _ _ _ _ _ Hr) as P. assert (Hn : 1 <= n) by (inversion P; auto).
    pose proof (fits_prod _ _ _ _ _ Hr) as Fr. pose proof (fits_prod _ _ _ _ _ Hov) as Fo. cbn [prod] in Fr, Fo. unfold hsize in *. cbn [o_arr fst snd] in Fr.
    assert (Ht0 : 0 <= total l).
    { clear - HF'. induction HF' as [|((a & p) & n) l [H _] _ IH]; cbn [total]; [lia|]. cbn [snd] in H. destruct H as (_ & P & _). inversion P; lia. }
    replace (is_same _ ov) with false.
    2:{ unfold is_same. cbn [o_arr]. destruct (Nat.eqb_spec a (o_arr ov)); auto. congruence. }
    pose proof (shape_last A m _ [] n _ Hr) as SL. rewrite SL. cbn [obind o_arr].
    pose proof (fits_offset _ _ _ _ _ Hr) as OF. cbn [fst snd] in OF. rewrite OF, (fits_offset _ _ _ _ _ Hov).
    destruct (blas2_ok A (fun _ x => x) n a p (o_arr ov) (q + sum) m) as (m1 & E1 & U1); try lia; auto.
    rewrite E1. cbn [obind]. rewrite iadd_in by (apply in_int_small; lia). cbn [obind].
    destruct (IHl m1 (sum + n)) as (m2 & E2 & U2).
    + eapply same_fits; [apply U1|auto].
    + eapply Forall_impl; [|exact HF']. intros x [X1 X2]. split; auto. eapply same_fits; [apply U1|auto].
    + lia.
    + lia.
    + exists m2. split; auto.
      assert (U1' : upd A m m1 (o_arr ov) (fun j => q + sum <= j < q + sum + n) (fun j => pick m ((a, p, n) :: l) (j - (q + sum)))).
      { eapply upd_ext2; [|exact U1]. intros j Hj. cbn beta. cbn [pick]. replace (j - (q + sum) <? n) with true by lia.
        destruct (cell_some A m (o_arr ov) j) as (z & ->); [lia|]. destruct (cell m a (p + (j - (q + sum)))); auto. }
      assert (U2' : upd A m1 m2 (o_arr ov) (fun j => q + (sum + n) <= j < q + (sum + n) + total l) (fun j => pick m ((a, p, n) :: l) (j - (q + sum)))).
      { eapply upd_ext2; [|exact U2]. intros j Hj. cbn beta. cbn [pick]. replace (j - (q + sum) <? n) with false by lia.
        rewrite (pick_ext m m1).
        - f_equal. lia.
        - intros a' p' n' Hin j'. apply (upd_in _ _ _ _ _ _ _ _ U1). left. intros ->.
          rewrite Forall_forall in HF'. destruct (HF' _ Hin) as [_ X]. cbn [fst] in X. congruence. }
      eapply upd_ext; [|eapply upd_trans; [|exact U1'|exact U2']]; intros j; cbn beta; lia.
Qed.
(** The inputs: variable, offset and length of the rows. *)
Definition inp : Type := opd * Z * Z.
Definition good_in m (r : list Z) (x : inp) : Prop := fits m (fst (fst x)) (r ++ [snd x]) (snd (fst x)).
Definition rowat (i : Z) (x : inp) : nat * Z * Z := (o_arr (fst (fst x)), snd (fst x) + snd x * i, snd x).
Fixpoint width (l : list inp) : Z := match l with [] => 0 | x :: t => snd x + width t end.
Lemma total_rowat : forall i l, total (map (rowat i) l) = width l.
Proof. induction l as [|x l]; cbn [map total rowat width]; auto. rewrite IHl. auto. Qed.
Lemma cat_check_ok : forall m r n0 l sum, Forall (good_in m r) l -> 0 <= sum -> sum + width l <= INT_MAX ->
  cat_check A m (r ++ [n0]) (length (r ++ [n0])) (map (fun x => fst (fst x)) l) sum = Ok (sum + width l).
Proof.
  intros m r n0 l. induction l as [|((o & off) & n) l]; intros sum HF Hs Hm; cbn [map cat_check width fst snd] in *.
  - rewrite Z.add_0_r. auto.
  - inversion HF as [|? ? Hg HF']; subst. unfold good_in in Hg. cbn [fst snd] in Hg.
    assert (W : 0 <= width l).
    { clear - HF'. induction HF' as [|((a & p) & n) l H _ IH]; cbn [width snd]; [lia|]. unfold good_in in H. cbn [fst snd] in H.
      destruct H as (_ & P & _). apply positive_app in P. destruct P as [_ P]. inversion P; lia. }
    assert (Hn : 1 <= n).
    { pose proof (fits_pos _ _ _ _ _ Hg) as P. apply positive_app in P. destruct P as [_ P]. inversion P; auto. }
    replace (length (r ++ [n0]) - 1)%nat with (length r) by (rewrite app_length; cbn [length]; lia).
    match goal with |- context [obind (?f (length r) 0) _] => 
      assert (G : forall k d, (d + k = length r)%nat -> f k (Z.of_nat d) = Ok tt) end.
    { induction k; intros d Hd; auto. rewrite (fits_shape A m o (r ++ [n]) off) by (auto; rewrite app_length; cbn [length]; lia). cbn [obind].
      rewrite Nat2Z.id, !app_nth1 by lia. rewrite Z.eqb_refl. replace (Z.of_nat d + 1) with (Z.of_nat (S d)) by lia. apply IHk. lia. }
    change 0 with (Z.of_nat 0). rewrite G by lia. cbn [obind]. rewrite (shape_last A m o r n off Hg). cbn [obind].
    rewrite iadd_in by (apply in_int_small; lia). cbn [obind]. rewrite IHl by (auto; lia). f_equal. lia.
Qed.
Lemma cat_rows_ok : forall m r i l, Forall (good_in m r) l -> 0 <= i < prod r ->
  cat_rows A m (Z.of_nat (length r)) i (map (fun x => fst (fst x)) l) = Ok (map rowop (map (rowat i) l)).
Proof.
  intros m r i l HF Hi. induction HF as [|((o & off) & n) l Hg HF IH]; cbn [map cat_rows fst snd]; auto.
  unfold good_in in Hg. cbn [fst snd] in Hg.
  assert (Hn : 1 <= n).
  { pose proof (fits_pos _ _ _ _ _ Hg) as P. apply positive_app in P. destruct P as [_ P]. inversion P; auto. }
  assert (E : (let* step := if 0 <? Z.of_nat (length r) then stride o (Z.of_nat (length r) - 1) else Ok 0 in imul step i) = Ok (n * i)).
  { pose proof (fits_prod _ _ _ _ _ Hg) as F. rewrite prod_app in F. cbn [prod] in F. destruct r as [|r0 r].
    - cbn [length prod] in *. replace (0 <? Z.of_nat 0) with false by reflexivity. cbn [obind]. replace i with 0 by lia. rewrite Z.mul_0_r. reflexivity.
    - replace (0 <? Z.of_nat (length (r0 :: r))) with true by (cbn [length]; lia).
      rewrite (fits_stride A m o ((r0 :: r) ++ [n]) off) by (auto; rewrite app_length; cbn [length]; lia).
      replace (S (Z.to_nat (Z.of_nat (length (r0 :: r)) - 1))) with (length (r0 :: r)) by (cbn [length]; lia).
      rewrite skipn_app_len. cbn [obind prod]. rewrite Z.mul_1_r. rewrite imul_in; auto. apply in_int_small. nia. }
  destruct (if 0 <? Z.of_nat (length r) then stride o (Z.of_nat (length r) - 1) else Ok 0) as [st| | |]; try discriminate.
  cbn [obind] in *. rewrite E. cbn [obind]. rewrite (fits_dim _ _ _ _ _ Hg), app_length. cbn [length].
  replace (Z.of_nat (length r + 1) - Z.of_nat (length r)) with 1 by lia.
  destruct (subview_row m o r n off i Hg Hi) as [-> _]. cbn [obind]. rewrite IH. reflexivity.
Qed.
Lemma cat_new_ok : forall z m r l, l <> [] -> Forall (good_in m r) l -> prod r * width l <= INT_MAX ->
  exists m' o, cat_new A z m (map (fun x => fst (fst x)) l) = Ok (m', o) /\ o_arr o = length m /\ fits m' o (r ++ [width l]) 0 /\
    (forall b j, b <> length m -> cell m' b j = cell m b j) /\
    (forall i c, 0 <= i < prod r -> 0 <= c < width l -> cell m' (length m) (width l * i + c) = pick m (map (rowat i) l) c).
Proof.
  intros z m r l Hne HF Hm. destruct l as [|((o0 & off0) & n0) l0]; [congruence|]. clear Hne.
  assert (Hg0 : fits m o0 (r ++ [n0]) off0) by (inversion HF; auto).
  assert (HF0 : Forall (good_in m r) l0) by (inversion HF; auto).
  remember (@cons inp (o0, off0, n0) l0) as l eqn:El.
  assert (Pr : positive r). { pose proof (fits_pos _ _ _ _ _ Hg0) as P. apply positive_app in P. tauto. }
  pose proof (prod_pos _ Pr) as Hr1.
  assert (Hn0 : 1 <= n0). { pose proof (fits_pos _ _ _ _ _ Hg0) as P. apply positive_app in P. destruct P as [_ P]. inversion P; auto. }
  assert (W0 : 0 <= width l0).
  { clear - HF0.
    induction HF0 as [|((a & p) & n) l H _ IH]; cbn [width snd]; [lia|]. unfold good_in in H. cbn [fst snd] in H.
    destruct H as (_ & P & _). apply positive_app in P. destruct P as [_ P]. inversion P; lia. }
  assert (W : width l = n0 + width l0) by (rewrite El; reflexivity).
  set (sh := r ++ [width l]). assert (Psh : prod sh = prod r * width l) by (unfold sh; rewrite prod_app; cbn [prod]; lia).
  destruct (alloc_view_ok A z m sh) as [EA FA]; [unfold sh; destruct r; discriminate| | |].
  { apply positive_app. split; auto. constructor; [lia|constructor]. }
  { rewrite Psh. exact Hm. }
  set (m1 := m ++ [repeat z (Z.to_nat (prod sh))]) in *. set (o := mkop (length m) (Some (0 :: dims sh))) in *.
  assert (E1 : cat_alloc A z m (map (fun x => fst (fst x)) l) = Ok (m1, o)).
  { unfold cat_alloc. rewrite El. cbn [map fst snd]. rewrite (fits_shapes A m o0 _ _ Hg0). cbn [obind]. rewrite last_snoc.
    rewrite cat_check_ok by (first [assumption|lia|rewrite W in Hm; nia]). cbn [obind].
    rewrite removelast_last. rewrite <- W. exact EA. }
  assert (HF1 : Forall (good_in m1 r) l).
  { eapply Forall_impl; [|exact HF]. intros x X. apply fits_app. auto. }
  assert (Harr : forall x, In x l -> o_arr (fst (fst x)) <> length m).
  { intros x Hx. rewrite Forall_forall in HF. specialize (HF x Hx). apply fits_lt in HF. lia. }
  assert (Ho : forall m', same_size A m1 m' -> fits m' o sh 0) by (intros m' S; eapply same_fits; eauto).
  unfold cat_new. rewrite E1. cbn [obind]. assert (Ed0 : dim o = Z.of_nat (length r + 1)) by (rewrite (fits_dim _ _ _ _ _ FA); unfold sh; rewrite app_length; auto).
  rewrite !Ed0.
  replace (Z.of_nat (length r + 1) - 1) with (Z.of_nat (length r)) by lia.
  replace (Z.of_nat (length r) <? 0) with false by lia.
  assert (St : exists st, (if 0 <? Z.of_nat (length r) then stride o (Z.of_nat (length r) - 1) else Ok 0) = Ok st /\ (forall i, 0 <= i < prod r -> imul st i = Ok (width l * i))
     /\ (if 0 <? Z.of_nat (length r) then let* n := size A m1 o in idiv n st else Ok 1) = Ok (prod r)).
  { destruct r as [|r0 r].
    - cbn [length]. replace (0 <? Z.of_nat 0) with false by reflexivity. exists 0. split; auto. split; auto. intros i Hi. cbn [prod] in Hi.
      replace i with 0 by lia. rewrite Z.mul_0_r. reflexivity.
    - replace (0 <? Z.of_nat (length (r0 :: r))) with true by (cbn [length]; lia).
      rewrite (fits_stride A m1 o sh 0) by (auto; unfold sh; rewrite app_length; cbn [length]; lia).
      replace (S (Z.to_nat (Z.of_nat (length (r0 :: r)) - 1))) with (length (r0 :: r)) by (cbn [length]; lia).
      unfold sh at 1. rewrite skipn_app_len. exists (width l). split; [cbn [prod]; f_equal; lia|]. split.
      + intros i Hi. apply imul_in. apply in_int_small. nia.
      + rewrite (fits_size _ _ _ _ _ FA). cbn [obind]. rewrite Psh. unfold idiv. replace (width l =? 0) with false by lia.
        rewrite Z.quot_mul by lia. auto. }
  destruct St as (st & Es & Est & En). rewrite Es. cbn [obind]. rewrite En. cbn [obind].
  replace (Z.of_nat (length r + 1) - Z.of_nat (length r)) with 1 by lia.
  match goal with |- context [for_to A (prod r) ?body m1] =>
    destruct (for_blocks A m1 (length m) 0 (width l) (fun j => pick m (map (rowat (j / width l)) l) (j mod width l)) body (prod r)) as (m2 & E2 & U2) end.
  - lia.
  - lia.
  - intros i m' Hi U. pose proof U as (S & _ & _).
    rewrite (cat_rows_ok m' r i l); auto.
    2:{ eapply Forall_impl; [|exact HF1]. intros x X. eapply same_fits; eauto. }
    cbn [obind]. rewrite Est by auto. cbn [obind].
    destruct (subview_row m' o r (width l) 0 i (Ho m' S) Hi) as [-> Fov]. cbn [obind].
    destruct (cat_vector_ok (mkop (length m) (Some ((0 + width l * i) :: dims [width l]))) (0 + width l * i) (width l) (map (rowat i) l) m' 0) as (m'' & E & U').
    + auto.
    + apply Forall_forall. intros x Hx. apply in_map_iff in Hx. destruct Hx as (y & <- & Hy). split.
      * unfold rowop, rowat. cbn [fst snd]. rewrite Forall_forall in HF1. specialize (HF1 y Hy).
        assert (G : fits m' (fst (fst y)) (r ++ [snd y]) (snd (fst y))) by (eapply same_fits; eauto).
        destruct (subview_row m' _ r _ _ i G Hi) as [_ X]. exact X.
      * cbn [rowat fst o_arr]. auto.
    + lia.
    + rewrite total_rowat. lia.
    + exists m''. split; [exact E|]. rewrite total_rowat in U'. rewrite Z.add_0_r in U'. cbn [o_arr] in U'.
      eapply upd_ext2; [|exact U']. intros j Hj. cbn beta.
      assert (Em : j mod width l = j - (0 + width l * i)) by (rewrite <- (block_mod j 0 (width l) i) by lia; f_equal; lia).
      assert (Ed : j / width l = i) by (symmetry; apply (Z.div_unique _ _ i (j - (0 + width l * i))); lia).
      rewrite Em, Ed. apply pick_ext. intros a p n Hin j'. apply in_map_iff in Hin. destruct Hin as (y & Ey & Hy).
      assert (Ha : a <> length m). { inversion Ey. apply Harr. auto. }
      rewrite (upd_in _ _ _ _ _ _ _ _ U) by auto. apply cell_new. auto.
  - rewrite E2. cbn [obind]. exists m2, o. split; auto. split; auto. split; [apply Ho; apply U2|]. split.
    + intros b j Hb. rewrite (upd_in _ _ _ _ _ _ _ _ U2) by auto. apply cell_new. auto.
    + intros i c Hi Hc. destruct U2 as (_ & U2 & _). rewrite U2 by nia.
      rewrite (Z.mul_comm (width l) i). rewrite md, dv by lia. auto.
Qed.
Lemma pick_at : forall m i pre x post c, Forall (fun y => 0 <= snd y) pre -> 0 <= c < snd x ->
  pick m (map (rowat i) (pre ++ x :: post)) (width pre + c) = cell m (o_arr (fst (fst x))) (snd (fst x) + snd x * i + c).
Proof.
  intros m i pre x post c HF Hc. induction HF as [|y pre Hy HF IH]; cbn [app map pick rowat width].
  - replace (0 + c <? snd x) with true by lia. f_equal.
  - assert (0 <= width pre). { clear - HF. induction HF; cbn [width]; lia. }
    replace (snd y + width pre + c <? snd y) with false by lia. rewrite <- IH. f_equal. lia.
Qed.
End More.
