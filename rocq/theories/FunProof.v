(** Lemmas for the array functions. *)
From Coq Require Import ZArith Bool List Lia ZifyBool.
From Verif Require Import Base StrModel StrProof GeoModel GeoSpec GeoProof.
Import ListNotations.
Local Open Scope Z_scope.

Section Fun.
Variable A : Type.
Implicit Types (m : mem A) (o : opd).

(** The cells of array [a] in [S] hold [F], everything else is as before. *)
Definition upd m m' (a : nat) (S : Z -> Prop) (F : Z -> option A) : Prop :=
  same_size A m m' /\ (forall j, S j -> cell m' a j = F j) /\ (forall b j, b <> a \/ ~ S j -> cell m' b j = cell m b j).
Lemma upd_refl : forall m a (S : Z -> Prop) F, (forall j, ~ S j) -> upd m m a S F.
Proof. intros m a S F H. split; [apply same_size_refl|]. split; [intros j X; exfalso; exact (H j X)|auto]. Qed.
Lemma upd_trans : forall m m1 m2 a (S1 S2 : Z -> Prop) F, (forall j, S2 j \/ ~ S2 j) -> upd m m1 a S1 F -> upd m1 m2 a S2 F ->
  upd m m2 a (fun j => S1 j \/ S2 j) F.
Proof.
  intros m m1 m2 a S1 S2 F D (A1 & A2 & A3) (B1 & B2 & B3). split; [eapply same_size_trans; eauto|]. split.
  - intros j H. destruct (D j); auto. rewrite B3 by auto. apply A2. tauto.
  - intros b j [H|H]; [rewrite B3, A3; auto|]. rewrite B3 by tauto. apply A3. tauto.
Qed.
Lemma upd_ext : forall m m' a (S T : Z -> Prop) F, (forall j, S j <-> T j) -> upd m m' a S F -> upd m m' a T F.
Proof.
  intros m m' a S T F H (A1 & A2 & A3). split; auto. split.
  - intros j X. apply A2. apply H. auto.
  - intros b j [X|X]; apply A3; auto. right. intros Y. apply X. apply H. auto.
Qed.
Lemma upd_ext2 : forall m m' a (S : Z -> Prop) F G, (forall j, S j -> F j = G j) -> upd m m' a S F -> upd m m' a S G.
Proof. intros m m' a S F G H (A1 & A2 & A3). split; auto. split; auto. intros j X. rewrite <- H by auto. auto. Qed.
Lemma wr_upd : forall m a i x F, 0 <= i < Z.of_nat (length (arr A m a)) -> F i = Some x ->
  exists m', wr A m a i x = Ok m' /\ upd m m' a (eq i) F.
Proof.
  intros m a i x F H HF. destruct (wr_ok A m a i x H) as (m' & E & Hs & Hc). exists m'. split; auto. split; auto. split.
  - intros j <-. rewrite Hc, Nat.eqb_refl, Z.eqb_refl. auto.
  - intros b j Hb. rewrite Hc. destruct (Nat.eqb_spec b a), (Z.eqb_spec j i); cbn [andb]; auto. subst. destruct Hb; congruence.
Qed.
Lemma loop_upd : forall m0 a (S : Z -> Z -> Prop) F body n i, (forall k j, S k j \/ ~ S k j) ->
  (forall k m, i <= k < i + Z.of_nat n -> upd m0 m a (fun j => exists t, i <= t < k /\ S t j) F ->
     exists m', body k m = Ok m' /\ upd m m' a (S k) F) ->
  exists m', loop A n i body m0 = Ok m' /\ upd m0 m' a (fun j => exists t, i <= t < i + Z.of_nat n /\ S t j) F.
Proof.
  intros m0 a S F body n i D H.
  destruct (loop_inv A (fun k m => i <= k -> upd m0 m a (fun j => exists t, i <= t < k /\ S t j) F) body n i m0) as (m' & E & P).
  - intros _. apply upd_refl. intros j (t & Ht & _). lia.
  - intros k m Hk HP. destruct (H k m Hk) as (m' & E & U); [apply HP; lia|]. exists m'. split; auto. intros _.
    eapply upd_ext; [|eapply upd_trans; [apply D|apply HP; lia|exact U]].
    intros j. cbn beta. split.
    + intros [(t & Ht & X)|X]; [exists t; split; [lia|auto]|exists k; split; [lia|auto]].
    + intros (t & Ht & X). destruct (Z.eq_dec t k); [subst; auto|]. left. exists t. split; [lia|auto].
  - exists m'. split; auto. apply P. lia.
Qed.
Lemma for_upd : forall m0 a (S : Z -> Z -> Prop) F body n, 0 <= n -> (forall k j, S k j \/ ~ S k j) ->
  (forall k m, 0 <= k < n -> upd m0 m a (fun j => exists t, 0 <= t < k /\ S t j) F ->
     exists m', body k m = Ok m' /\ upd m m' a (S k) F) ->
  exists m', for_to A n body m0 = Ok m' /\ upd m0 m' a (fun j => exists t, 0 <= t < n /\ S t j) F.
Proof.
  intros m0 a S F body n Hn D H. unfold for_to. destruct (loop_upd m0 a S F body (Z.to_nat n) 0 D) as (m' & E & U).
  - intros k m Hk. apply H. lia.
  - exists m'. split; auto. eapply upd_ext; [|exact U]. intros j. cbn beta. split; intros (t & Ht & X); exists t; split; auto; lia.
Qed.
(** The common case: round [k] writes cell [q + k]. *)
Lemma for_cells : forall m0 a q F body n, 0 <= n -> 
  (forall k m, 0 <= k < n -> upd m0 m a (fun j => q <= j < q + k) F -> exists m', body k m = Ok m' /\ upd m m' a (eq (q + k)) F) ->
  exists m', for_to A n body m0 = Ok m' /\ upd m0 m' a (fun j => q <= j < q + n) F.
Proof.
  intros m0 a q F body n Hn H. destruct (for_upd m0 a (fun k j => q + k = j) F body n) as (m' & E & U); auto; try (intros; lia).
  - intros k m Hk U. apply H; auto. eapply upd_ext; [|exact U]. intros j. cbn beta. split.
    + intros (t & Ht & X). lia.
    + intros X. exists (j - q). lia.
  - exists m'. split; auto. eapply upd_ext; [|exact U]. intros j. cbn beta. split.
    + intros (t & Ht & X). lia.
    + intros X. exists (j - q). lia.
Qed.
(** Blocks of [w] cells. *)
Lemma for_blocks : forall m0 a q w F body n, 0 <= n -> 1 <= w ->
  (forall k m, 0 <= k < n -> upd m0 m a (fun j => q <= j < q + w * k) F ->
     exists m', body k m = Ok m' /\ upd m m' a (fun j => q + w * k <= j < q + w * k + w) F) ->
  exists m', for_to A n body m0 = Ok m' /\ upd m0 m' a (fun j => q <= j < q + w * n) F.
Proof.
  intros m0 a q w F body n Hn Hw H.
  assert (X : forall k j, 0 <= k -> q <= j < q + w * k <-> exists t, 0 <= t < k /\ q + w * t <= j < q + w * t + w).
  { intros k j Hk. split.
    - intros Hj. exists ((j - q) / w). pose proof (Z.div_mod (j - q) w). pose proof (Z.mod_pos_bound (j - q) w).
      assert (0 <= (j - q) / w) by (apply Z.div_pos; lia). assert ((j - q) / w < k) by (apply Z.div_lt_upper_bound; lia). lia.
    - intros (t & Ht & Hj). nia. }
  destruct (for_upd m0 a (fun k j => q + w * k <= j < q + w * k + w) F body n) as (m' & E & U); auto; try (intros; lia).
  - intros k m Hk U. apply H; auto. eapply upd_ext; [|exact U]. intros j. symmetry. apply X. lia.
  - exists m'. split; auto. eapply upd_ext; [|exact U]. intros j. symmetry. apply X. lia.
Qed.
Lemma upd_in : forall m m' a (S : Z -> Prop) F b j, upd m m' a S F -> b <> a \/ ~ S j -> cell m' b j = cell m b j.
Proof. intros m m' a S F b j (_ & _ & H). auto. Qed.
Lemma upd_len : forall m m' a (S : Z -> Prop) F b, upd m m' a S F -> length (arr A m' b) = length (arr A m b).
Proof. intros m m' a S F b ((_ & H) & _). symmetry. auto. Qed.
Lemma upd_only : forall m m' a q n F, upd m m' a (fun j => q <= j < q + n) F -> only m m' a q n.
Proof. intros m m' a q n F (_ & _ & H) b j Hb. apply H. destruct Hb; [auto|right; lia]. Qed.
Lemma in_int_range : forall x, - INT_MAX <= x <= INT_MAX -> in_int x = true.
Proof. intros x H. unfold in_int, INT_MIN, INT_MAX in *. lia. Qed.

(** * Elementwise *)
Lemma unary0_ok : forall f g m i o sh offi offo, (forall x, f x = Ok (g x)) -> fits m i sh offi -> fits m o sh offo ->
  (o_arr i <> o_arr o \/ offo <= offi \/ offi + prod sh <= offo) ->
  exists m', unary_broadcast0 A f m i o = Ok m' /\
    upd m m' (o_arr o) (fun j => offo <= j < offo + prod sh) (fun j => option_map g (cell m (o_arr i) (offi + (j - offo)))).
Proof.
  intros f g m i o sh offi offo Hf Hi Ho Hd. pose proof (fits_prod _ _ _ _ _ Hi) as Fi. pose proof (fits_prod _ _ _ _ _ Ho) as Fo.
  unfold unary_broadcast0. rewrite (fits_size _ _ _ _ _ Hi). cbn [obind]. apply for_cells; [lia|].
  intros k m' Hk U. rewrite (fits_offset _ _ _ _ _ Hi), (fits_offset _ _ _ _ _ Ho).
  rewrite rd_cell. rewrite (upd_in _ _ _ _ _ _ _ U) by lia.
  destruct (fits_cell A m i sh offi k Hi Hk) as (x & Ex). rewrite Ex. cbn [obind]. rewrite Hf. cbn [obind].
  apply wr_upd; [rewrite (upd_len _ _ _ _ _ _ U); unfold hsize in Fo; lia|].
  replace (offo + k - offo) with k by lia. rewrite Ex. auto.
Qed.

(** * Blas *)
Lemma blas2_ok : forall f n x px y py m, 0 <= n -> 0 <= px -> px + n <= Z.of_nat (length (arr A m x)) ->
  0 <= py -> py + n <= Z.of_nat (length (arr A m y)) -> (x <> y \/ py <= px \/ px + n <= py) ->
  exists m', blas2 A f n x px y py m = Ok m' /\
    upd m m' y (fun j => py <= j < py + n) (fun j => lift2 f (cell m y j) (cell m x (px + (j - py)))).
Proof.
  intros f n x px y py m Hn Hx Hx2 Hy Hy2 Hd. unfold blas2. apply for_cells; [lia|].
  intros k m' Hk U. rewrite !rd_cell. rewrite (upd_in _ _ _ _ _ _ _ U) by lia. rewrite (upd_in _ _ _ _ _ _ _ U) by lia.
  destruct (cell_some A m y (py + k)) as (a & Ea); [lia|]. destruct (cell_some A m x (px + k)) as (b & Eb); [lia|].
  rewrite Ea, Eb. cbn [obind]. apply wr_upd; [rewrite (upd_len _ _ _ _ _ _ U); lia|].
  replace (py + k - py) with k by lia. rewrite Ea, Eb. auto.
Qed.

(** * Arithmetic broadcasting *)
Lemma skipn_app_len : forall (r d : list Z), skipn (length r) (r ++ d) = d.
Proof. intros. rewrite skipn_app, skipn_all, Nat.sub_diag. auto. Qed.
Lemma step_ok : forall m o r d off n2, fits m o (r ++ d) off -> n2 = Z.of_nat (length d) ->
  (if 0 <? dim o - n2 then stride o (dim o - n2 - 1) else size A m o) = Ok (prod d) \/ d = [].
Proof.
  intros m o r d off n2 H ->. rewrite (fits_dim _ _ _ _ _ H). rewrite app_length.
  destruct (0 <? Z.of_nat (length r + length d) - Z.of_nat (length d)) eqn:E.
  - left. rewrite (fits_stride A m o (r ++ d) off) by (auto; rewrite app_length; lia). f_equal. f_equal.
    replace (S (Z.to_nat (Z.of_nat (length r + length d) - Z.of_nat (length d) - 1))) with (length r) by lia. apply skipn_app_len.
  - assert (r = []) by (destruct r; auto; cbn [length] in E; lia). subst. left. rewrite (fits_size _ _ _ _ _ H). auto.
Qed.
Lemma fits_nonnil : forall m o sh off, fits m o sh off -> sh <> [].
Proof. intros m o sh off H. destruct H; auto. Qed.
Lemma fits_pos : forall m o sh off, fits m o sh off -> positive sh.
Proof. intros m o sh off (_ & H & _). auto. Qed.
Lemma arith_ok : forall sc vector m i1 x o r d off1 offx offo F, fits m i1 (r ++ d) off1 -> fits m x d offx -> fits m o (r ++ d) offo ->
  d <> [1] ->
  (forall k m', 0 <= k < prod r -> upd m m' (o_arr o) (fun j => offo <= j < offo + prod d * k) F ->
     exists m'', vector (prod d * k) x 0 (prod d * k) m' = Ok m'' /\
        upd m' m'' (o_arr o) (fun j => offo + prod d * k <= j < offo + prod d * k + prod d) F) ->
  exists m', arith_broadcast A sc vector m i1 (Arr A x) o = Ok m' /\
    upd m m' (o_arr o) (fun j => offo <= j < offo + prod (r ++ d)) F.
Proof.
  intros sc vector m i1 x o r d off1 offx offo F H1 Hx Ho Hd HV.
  pose proof (fits_nonnil _ _ _ _ Hx) as Hne. pose proof (fits_pos _ _ _ _ H1) as Hpos. apply positive_app in Hpos. destruct Hpos as [Pr Pd].
  pose proof (prod_pos _ Pr). pose proof (prod_pos _ Pd). pose proof (fits_prod _ _ _ _ _ H1) as F1. rewrite prod_app in F1.
  unfold arith_broadcast. cbn [rhs_size rhs_dim]. rewrite (fits_size _ _ _ _ _ Hx). cbn [obind]. rewrite (fits_dim _ _ _ _ _ Hx).
  destruct ((Z.of_nat (length d) =? 1) && (prod d =? 1)) eqn:E1.
  { exfalso. apply Hd. destruct d as [|e [|]]; cbn [length] in E1; try lia. cbn [prod] in E1. f_equal. lia. }
  replace (dim i1 <? Z.of_nat (length d)) with false by (rewrite (fits_dim _ _ _ _ _ H1), app_length; lia).
  destruct (step_ok m i1 r d off1 _ H1 eq_refl) as [->|?]; [|congruence]. cbn [obind].
  destruct (step_ok m o r d offo _ Ho eq_refl) as [->|?]; [|congruence]. cbn [obind].
  rewrite (fits_size _ _ _ _ _ H1). cbn [obind]. rewrite prod_app. unfold idiv.
  destruct (prod d =? 0) eqn:E3; [lia|]. cbn [obind]. rewrite Z.quot_mul by lia.
  rewrite (Z.mul_comm (prod r)).
  apply for_blocks; [lia|lia|]. intros k m' Hk U.
  rewrite imul_in by (apply in_int_small; nia). cbn [obind]. apply HV; auto.
Qed.
(** The right operand, at (j - off) modulo its size. *)
Definition bcast m (f : A -> A -> A) (y : nat) (offy : Z) (x : nat) (offx : Z) (w j : Z) : option A :=
  lift2 f (cell m y j) (cell m x (offx + (j - offy) mod w)).
Lemma block_mod : forall j q w k, 1 <= w -> q + w * k <= j < q + w * k + w -> (j - q) mod w = j - (q + w * k).
Proof. intros j q w k Hw Hj. symmetry. apply (Z.mod_unique _ _ k); lia. Qed.
Lemma axpy_like : forall f m l x r d offl offx m' k, fits m l (r ++ d) offl -> fits m x d offx ->
  apart l x offl offx (prod (r ++ d)) (prod d) -> 0 <= k < prod r ->
  upd m m' (o_arr l) (fun j => offl <= j < offl + prod d * k) (bcast m f (o_arr l) offl (o_arr x) offx (prod d)) ->
  exists m'', blas2 A f (prod d) (o_arr x) (offx + 0) (o_arr l) (offl + prod d * k) m' = Ok m'' /\
    upd m' m'' (o_arr l) (fun j => offl + prod d * k <= j < offl + prod d * k + prod d) (bcast m f (o_arr l) offl (o_arr x) offx (prod d)).
Proof.
  intros f m l x r d offl offx m' k Hl Hx Ha Hk U.
  pose proof (fits_prod _ _ _ _ _ Hl) as Fl. pose proof (fits_prod _ _ _ _ _ Hx) as Fx. rewrite prod_app in *. unfold hsize in *.
  unfold apart in Ha.
  assert (K : (offl = offx /\ prod r * prod d = prod d) -> k = 0) by nia.
  destruct (blas2_ok f (prod d) (o_arr x) (offx + 0) (o_arr l) (offl + prod d * k) m') as (m'' & E & U').
  - lia.
  - lia.
  - rewrite (upd_len _ _ _ _ _ _ U). lia.
  - nia.
  - rewrite (upd_len _ _ _ _ _ _ U). nia.
  - destruct Ha as [Ha|[Ha|[Ha|Ha]]]; [left; congruence|right; nia|right; nia|]. rewrite K by auto. right. lia.
  - exists m''. split; auto. eapply upd_ext2; [|exact U']. intros j Hj. cbn beta. unfold bcast.
    rewrite (block_mod j offl (prod d) k) by lia. rewrite (upd_in _ _ _ _ _ _ _ U) by (right; lia). f_equal.
    rewrite (upd_in _ _ _ _ _ _ _ U).
    + f_equal. lia.
    + destruct Ha as [Ha|[Ha|[Ha|Ha]]]; [left; congruence|right; nia|right; nia|]. right. rewrite K by auto. lia.
Qed.
Lemma is_same_refl : forall o, is_same o o = true.
Proof. intros. unfold is_same. rewrite Nat.eqb_refl, Z.eqb_refl. auto. Qed.
Lemma addsub_ok : forall f m l x r d offl offx, fits m l (r ++ d) offl -> fits m x d offx -> d <> [1] ->
  apart l x offl offx (prod (r ++ d)) (prod d) ->
  exists m', addsub_inplace A f m l (Arr A x) = Ok m' /\
    upd m m' (o_arr l) (fun j => offl <= j < offl + prod (r ++ d)) (bcast m f (o_arr l) offl (o_arr x) offx (prod d)).
Proof.
  intros f m l x r d offl offx Hl Hx Hd Ha. unfold addsub_inplace, addsub.
  apply (arith_ok f _ m l x l r d offl offx offl); auto. intros k m' Hk U.
  unfold axpy_vector. rewrite is_same_refl. cbn [negb].
  assert (Hx' : fits m' x d offx) by (eapply same_fits; [apply U|auto]).
  rewrite (fits_size _ _ _ _ _ Hx'). cbn [obind]. rewrite (fits_offset _ _ _ _ _ Hx), (fits_offset _ _ _ _ _ Hl).
  apply (axpy_like f m l x r d offl offx); auto.
Qed.
Lemma set_ok : forall m l x r d offl offx, fits m l (r ++ d) offl -> fits m x d offx -> d <> [1] ->
  apart l x offl offx (prod (r ++ d)) (prod d) ->
  exists m', set_inplace A m l (Arr A x) = Ok m' /\
    upd m m' (o_arr l) (fun j => offl <= j < offl + prod (r ++ d)) (bcast m (fun _ y => y) (o_arr l) offl (o_arr x) offx (prod d)).
Proof.
  intros m l x r d offl offx Hl Hx Hd Ha. unfold set_inplace.
  apply (arith_ok _ _ m l x l r d offl offx offl); auto. intros k m' Hk U.
  unfold set_vector. assert (Hx' : fits m' x d offx) by (eapply same_fits; [apply U|auto]).
  rewrite (fits_size _ _ _ _ _ Hx'). cbn [obind]. rewrite (fits_offset _ _ _ _ _ Hx), (fits_offset _ _ _ _ _ Hl).
  apply (axpy_like _ m l x r d offl offx); auto.
Qed.
Lemma mul_ok : forall mul m l x r d offl offx, fits m l (r ++ d) offl -> fits m x d offx -> d <> [1] ->
  apart l x offl offx (prod (r ++ d)) (prod d) ->
  exists m', mul_broadcast A mul m l (Arr A x) l = Ok m' /\
    upd m m' (o_arr l) (fun j => offl <= j < offl + prod (r ++ d)) (bcast m (fun a b => mul b a) (o_arr l) offl (o_arr x) offx (prod d)).
Proof.
  intros mul m l x r d offl offx Hl Hx Hd Ha. unfold mul_broadcast. cbn [rhs_size rhs_dim].
  rewrite (fits_size _ _ _ _ _ Hx). cbn [obind]. rewrite (fits_dim _ _ _ _ _ Hx).
  destruct ((Z.of_nat (length d) =? 1) && (prod d =? 1)) eqn:E1.
  { exfalso. apply Hd. destruct d as [|e [|]]; cbn [length] in E1; try lia. cbn [prod] in E1. f_equal. lia. }
  apply (arith_ok _ _ m l x l r d offl offx offl); auto. intros k m' Hk U.
  unfold mul_vector. rewrite is_same_refl. assert (Hx' : fits m' x d offx) by (eapply same_fits; [apply U|auto]).
  rewrite (fits_size _ _ _ _ _ Hx'). cbn [obind]. rewrite (fits_offset _ _ _ _ _ Hx), (fits_offset _ _ _ _ _ Hl).
  apply (axpy_like _ m l x r d offl offx); auto.
Qed.
(** Out of place multiplication: the output is a fresh array. *)
Lemma mul_out_ok : forall mul m l x o r d offl offx offo, fits m l (r ++ d) offl -> fits m x d offx -> fits m o (r ++ d) offo -> d <> [1] ->
  o_arr o <> o_arr l -> o_arr o <> o_arr x ->
  exists m', mul_broadcast A mul m l (Arr A x) o = Ok m' /\
    upd m m' (o_arr o) (fun j => offo <= j < offo + prod (r ++ d))
      (fun j => lift2 mul (cell m (o_arr x) (offx + (j - offo) mod prod d)) (cell m (o_arr l) (offl + (j - offo)))).
Proof.
  intros mul m l x o r d offl offx offo Hl Hx Ho Hd Hol Hox. unfold mul_broadcast. cbn [rhs_size rhs_dim].
  rewrite (fits_size _ _ _ _ _ Hx). cbn [obind]. rewrite (fits_dim _ _ _ _ _ Hx).
  destruct ((Z.of_nat (length d) =? 1) && (prod d =? 1)) eqn:E1.
  { exfalso. apply Hd. destruct d as [|e [|]]; cbn [length] in E1; try lia. cbn [prod] in E1. f_equal. lia. }
  apply (arith_ok _ _ m l x o r d offl offx offo); auto. intros k m' Hk U.
  unfold mul_vector. replace (is_same l o) with false.
  2:{ unfold is_same. destruct (Nat.eqb_spec (o_arr l) (o_arr o)); auto. congruence. }
  assert (Hx' : fits m' x d offx) by (eapply same_fits; [apply U|auto]).
  rewrite (fits_size _ _ _ _ _ Hx'). cbn [obind]. rewrite (fits_offset _ _ _ _ _ Hx), (fits_offset _ _ _ _ _ Hl), (fits_offset _ _ _ _ _ Ho).
  pose proof (fits_prod _ _ _ _ _ Hl) as Fl. pose proof (fits_prod _ _ _ _ _ Hx) as Fx. pose proof (fits_prod _ _ _ _ _ Ho) as Fo.
  rewrite prod_app in *. unfold hsize in *.
  apply for_cells; [lia|]. intros t m2 Ht U2. rewrite !rd_cell.
  rewrite (upd_in _ _ _ _ _ _ _ U2) by auto. rewrite (upd_in _ _ _ _ _ _ _ U) by auto.
  rewrite (upd_in _ _ _ _ _ _ _ U2) by auto. rewrite (upd_in _ _ _ _ _ _ _ U) by auto.
  destruct (cell_some A m (o_arr x) (offx + 0 + t)) as (a & Ea); [lia|].
  destruct (cell_some A m (o_arr l) (offl + prod d * k + t)) as (b & Eb); [nia|].
  rewrite Ea, Eb. cbn [obind]. apply wr_upd.
  - rewrite (upd_len _ _ _ _ _ _ U2), (upd_len _ _ _ _ _ _ U). nia.
  - rewrite (block_mod _ offo (prod d) k) by lia.
    replace (offx + (offo + prod d * k + t - (offo + prod d * k))) with (offx + 0 + t) by lia.
    replace (offl + (offo + prod d * k + t - offo)) with (offl + prod d * k + t) by lia. rewrite Ea, Eb. auto.
Qed.
(** A scalar on the right. *)
Lemma arith_scal_ok : forall sc vector m l x sh offl, fits m l sh offl ->
  exists m', arith_broadcast A sc vector m l (Scal A x) l = Ok m' /\
    upd m m' (o_arr l) (fun j => offl <= j < offl + prod sh) (fun j => option_map (fun a => sc a x) (cell m (o_arr l) j)).
Proof.
  intros sc vector m l x sh offl Hl. unfold arith_broadcast. cbn [rhs_size rhs_dim obind].
  replace ((1 =? 1) && (1 =? 1)) with true by reflexivity. pose proof (fits_prod _ _ _ _ _ Hl) as Fl.
  rewrite (fits_size _ _ _ _ _ Hl). cbn [obind rhs_cast]. rewrite (fits_offset _ _ _ _ _ Hl). apply for_cells; [lia|].
  intros k m' Hk U. rewrite rd_cell, (upd_in _ _ _ _ _ _ _ U) by lia.
  destruct (fits_cell A m l sh offl k Hl Hk) as (y & Ey). rewrite Ey. cbn [obind]. apply wr_upd.
  - rewrite (upd_len _ _ _ _ _ _ U). unfold hsize in *. lia.
  - rewrite Ey. auto.
Qed.
Lemma mul_scal_ok : forall mul m l x sh offl, fits m l sh offl ->
  exists m', mul_broadcast A mul m l (Scal A x) l = Ok m' /\
    upd m m' (o_arr l) (fun j => offl <= j < offl + prod sh) (fun j => option_map (fun a => mul x a) (cell m (o_arr l) j)).
Proof.
  intros mul m l x sh offl Hl. unfold mul_broadcast. cbn [rhs_size rhs_dim obind].
  replace ((1 =? 1) && (1 =? 1)) with true by reflexivity. pose proof (fits_prod _ _ _ _ _ Hl) as Fl.
  unfold mul_scale. rewrite is_same_refl.
  rewrite (fits_size _ _ _ _ _ Hl). cbn [obind rhs_cast]. rewrite (fits_offset _ _ _ _ _ Hl). apply for_cells; [lia|].
  intros k m' Hk U. rewrite rd_cell, (upd_in _ _ _ _ _ _ _ U) by lia.
  destruct (fits_cell A m l sh offl k Hl Hk) as (y & Ey). rewrite Ey. cbn [obind]. apply wr_upd.
  - rewrite (upd_len _ _ _ _ _ _ U). unfold hsize in *. lia.
  - rewrite Ey. auto.
Qed.

(** * Allocation *)
Lemma fold_imul : forall sh p, positive sh -> 1 <= p -> p * prod sh <= INT_MAX ->
  fold_left (fun p d => let* p := p in imul p d) sh (Ok p) = Ok (p * prod sh).
Proof.
  induction sh; intros p Hp H1 Hm; cbn [fold_left prod].
  - rewrite Z.mul_1_r. auto.
  - inversion Hp; subst. pose proof (prod_pos _ H3). cbn [prod] in Hm. cbn [obind].
    rewrite imul_in by (apply in_int_small; nia). rewrite IHsh by (auto; nia). f_equal. lia.
Qed.
Lemma alloc_view_ok : forall z m sh, sh <> [] -> positive sh -> prod sh <= INT_MAX ->
  alloc_view A z m sh = Ok (m ++ [repeat z (Z.to_nat (prod sh))], mkop (length m) (Some (0 :: dims sh))) /\
  fits (m ++ [repeat z (Z.to_nat (prod sh))]) (mkop (length m) (Some (0 :: dims sh))) sh 0.
Proof.
  intros z m sh Hne Hp Hm. pose proof (prod_pos _ Hp). unfold alloc_view.
  rewrite fold_imul by (auto; lia). rewrite Z.mul_1_l. cbn [obind].
  destruct (prod sh <? 0) eqn:E; [lia|].
  assert (Hs : Z.of_nat (length (nth (length m) (m ++ [repeat z (Z.to_nat (prod sh))]) [])) = prod sh).
  { rewrite app_nth2, Nat.sub_diag by lia. cbn [nth]. rewrite repeat_length. lia. }
  split.
  - unfold mkview. cbn [o_arr o_ip offset]. unfold hsize, arr. cbn [o_arr]. rewrite Hs.
    unfold offset. cbn [o_ip]. rewrite view_ctor_run by (auto; lia). reflexivity.
  - split; [auto|]. split; [auto|]. split; [lia|]. cbn [o_arr o_ip]. rewrite Hs. split; [lia|auto].
Qed.
Lemma alloc_like_ok : forall z m i sh off, fits m i sh off ->
  fits (fst (alloc_like A z m i)) (snd (alloc_like A z m i)) sh off /\ fits (fst (alloc_like A z m i)) i sh off /\
  o_arr (snd (alloc_like A z m i)) = length m /\
  (forall b j, b <> length m -> cell (fst (alloc_like A z m i)) b j = cell m b j).
Proof.
  intros z m i sh off H. unfold alloc_like. cbn [fst snd o_arr].
  split; [|split; [|split]].
  - destruct H as (A1 & A2 & A3 & A4 & A5). split; [auto|]. split; [auto|]. split; [auto|]. cbn [o_arr o_ip].
    rewrite app_nth2, Nat.sub_diag by lia. cbn [nth]. rewrite repeat_length. unfold arr. auto.
  - apply fits_app. auto.
  - auto.
  - intros b j Hb. unfold cell. destruct (Nat.ltb_spec b (length m)).
    + rewrite app_nth1 by auto. auto.
    + rewrite (nth_overflow m) by lia. rewrite nth_overflow by (rewrite app_length; cbn [length]; lia). auto.
Qed.
Lemma cell_new : forall m x b j, b <> length m -> cell (m ++ [x]) b j = cell m b j.
Proof.
  intros m x b j Hb. unfold cell. destruct (Nat.ltb_spec b (length m)).
  - rewrite app_nth1 by auto. auto.
  - rewrite (nth_overflow m) by lia. rewrite nth_overflow by (rewrite app_length; cbn [length]; lia). auto.
Qed.

(** * Unary broadcasting over the trailing dimensions *)
Lemma unary_ok : forall mDim vector m i o r d e offi offo F, fits m i (r ++ d) offi -> fits m o (r ++ e) offo ->
  mDim = Z.of_nat (length d) -> d <> [] -> length e = length d ->
  (forall k m', 0 <= k < prod r -> upd m m' (o_arr o) (fun j => offo <= j < offo + prod e * k) F ->
     exists m'', vector (prod d * k) (prod e * k) m' = Ok m'' /\
        upd m' m'' (o_arr o) (fun j => offo + prod e * k <= j < offo + prod e * k + prod e) F) ->
  exists m', unary_broadcast A mDim vector m i o = Ok m' /\
    upd m m' (o_arr o) (fun j => offo <= j < offo + prod (r ++ e)) F.
Proof.
  intros mDim vector m i o r d e offi offo F Hi Ho -> Hd He HV.
  pose proof (fits_pos _ _ _ _ Hi) as Hpos. apply positive_app in Hpos. destruct Hpos as [Pr Pd].
  pose proof (fits_pos _ _ _ _ Ho) as Hpos. apply positive_app in Hpos. destruct Hpos as [_ Pe].
  pose proof (prod_pos _ Pr). pose proof (prod_pos _ Pd). pose proof (prod_pos _ Pe).
  pose proof (fits_prod _ _ _ _ _ Hi) as Fi. pose proof (fits_prod _ _ _ _ _ Ho) as Fo. rewrite prod_app in Fi, Fo.
  unfold unary_broadcast.
  replace (dim i <? Z.of_nat (length d)) with false by (rewrite (fits_dim _ _ _ _ _ Hi), app_length; lia).
  destruct (step_ok m i r d offi _ Hi eq_refl) as [->|?]; [|congruence]. cbn [obind].
  destruct (step_ok m o r e offo (Z.of_nat (length d)) Ho) as [->|X]; [lia| |subst e; destruct d; [congruence|discriminate]]. cbn [obind].
  rewrite (fits_size _ _ _ _ _ Hi). cbn [obind]. rewrite prod_app. unfold idiv.
  destruct (prod d =? 0) eqn:E3; [lia|]. cbn [obind]. rewrite Z.quot_mul by lia.
  rewrite prod_app, (Z.mul_comm (prod r) (prod e)).
  apply for_blocks; [lia|lia|]. intros k m' Hk U.
  rewrite imul_in by (apply in_int_small; nia). cbn [obind].
  rewrite imul_in by (apply in_int_small; nia). cbn [obind]. apply HV; auto.
Qed.

(** * Sum *)
Fixpoint row m (a : nat) (p : Z) (n : nat) : list (option A) :=
  match n with O => [] | S n => cell m a p :: row m a (p + 1) n end.
Definition osum (add : A -> A -> A) (zero : A) (l : list (option A)) : option A :=
  fold_left (lift2 add) l (Some zero).
Lemma sumArray_ok : forall add m a n p s, 0 <= p -> p + Z.of_nat n <= Z.of_nat (length (arr A m a)) ->
  exists v, sumArray A add m a n p s = Ok v /\ osum add s (row m a p n) = Some v.
Proof.
  intros add m a n. induction n; intros p s Hp Hn; [exists s; auto|].
  destruct (cell_some A m a p) as (x & Ex); [lia|]. destruct (IHn (p + 1) (add s x)) as (v & E & V); [lia|lia|].
  exists v. cbn [sumArray row]. rewrite rd_cell, Ex. cbn [obind]. split; auto.
Qed.
Lemma row_ext : forall m m' a n p, (forall j, p <= j < p + Z.of_nat n -> cell m' a j = cell m a j) -> row m' a p n = row m a p n.
Proof. intros m m' a n. induction n; intros p H; cbn [row]; auto. rewrite H by lia. f_equal. apply IHn. intros. apply H. lia. Qed.
Lemma shape_last : forall m o r d off, fits m o (r ++ [d]) off -> shape A m o (-1) = Ok d.
Proof.
  intros m o r d off H. rewrite (fits_shape_neg A m o (r ++ [d]) off) by (auto; rewrite app_length; cbn [length]; lia).
  f_equal. rewrite app_length. cbn [length].
  replace (Z.to_nat (Z.of_nat (length r + 1) + -1)) with (length r) by lia. rewrite app_nth2, Nat.sub_diag by lia. auto.
Qed.
Lemma sum_ok : forall add zero m i o r n offi offo, fits m i (r ++ [n]) offi -> fits m o (r ++ [1]) offo -> o_arr o <> o_arr i ->
  exists m', unary_broadcast A 1 (sum_vector A zero add i o) m i o = Ok m' /\
    upd m m' (o_arr o) (fun j => offo <= j < offo + prod (r ++ [1]))
      (fun j => osum add zero (row m (o_arr i) (offi + n * (j - offo)) (Z.to_nat n))).
Proof.
  intros add zero m i o r n offi offo Hi Ho Hd.
  apply (unary_ok 1 _ m i o r [n] [1] offi offo); auto; [discriminate|].
  intros k m' Hk U. cbn [prod] in *. replace (n * 1) with n by lia. replace (1 * 1 * k) with k by lia.
  pose proof (fits_prod _ _ _ _ _ Hi) as Fi. pose proof (fits_prod _ _ _ _ _ Ho) as Fo. rewrite prod_app in Fi, Fo. cbn [prod] in Fi, Fo.
  pose proof (fits_pos _ _ _ _ Hi) as Hpos. apply positive_app in Hpos. destruct Hpos as [Pr Pd]. inversion Pd; subst.
  unfold sum_vector. rewrite (shape_last m' i r n offi) by (eapply same_fits; [apply U|auto]). cbn [obind].
  rewrite (fits_offset _ _ _ _ _ Hi), (fits_offset _ _ _ _ _ Ho). unfold hsize in *.
  destruct (sumArray_ok add m' (o_arr i) (Z.to_nat n) (offi + n * k) zero) as (v & Ev & V); [nia|rewrite (upd_len _ _ _ _ _ _ U); nia|].
  rewrite Ev. cbn [obind].
  destruct (wr_upd m' (o_arr o) (offo + k) v (fun j => osum add zero (row m (o_arr i) (offi + n * (j - offo)) (Z.to_nat n)))) as (m'' & E & U2).
  - rewrite (upd_len _ _ _ _ _ _ U). lia.
  - replace (offo + k - offo) with k by lia. rewrite <- V. f_equal. symmetry. apply row_ext. intros j _. apply (upd_in _ _ _ _ _ _ _ U). auto.
  - exists m''. split; auto. eapply upd_ext; [|exact U2]. intros j. cbn beta. lia.
Qed.

(** * Transpose *)
Lemma md : forall c R r, 0 <= r < R -> (c * R + r) mod R = r.
Proof. intros. symmetry. apply (Z.mod_unique _ _ c); lia. Qed.
Lemma dv : forall c R r, 0 <= r < R -> (c * R + r) / R = c.
Proof. intros. symmetry. apply (Z.div_unique _ _ c r); lia. Qed.
Definition tpos (rows cols k : Z) : Z := (k mod rows) * cols + k / rows.
Lemma outOfPlace_ok : forall m a p R C b q, 1 <= R -> 1 <= C -> 0 <= p -> p + R * C <= Z.of_nat (length (arr A m a)) ->
  0 <= q -> q + R * C <= Z.of_nat (length (arr A m b)) -> a <> b ->
  exists m', outOfPlace A a p R C b q m = Ok m' /\
    upd m m' b (fun j => q <= j < q + R * C) (fun j => cell m a (p + tpos R C (j - q))).
Proof.
  intros m a p R C b q HR HC Hp Hp2 Hq Hq2 Hab. unfold outOfPlace.
  destruct (for_upd m b (fun r j => q <= j < q + R * C /\ (j - q) mod R = r) (fun j => cell m a (p + tpos R C (j - q)))
    (fun r m => for_to A C (fun c m => let* x := rd A m a (p + (r * C + c)) in wr A m b (q + (c * R + r)) x) m) R) as (m' & E & U).
  - lia.
  - intros k j. lia.
  - intros r m' Hr U.
    destruct (for_upd m' b (fun c j => q + (c * R + r) = j) (fun j => cell m a (p + tpos R C (j - q)))
      (fun c m => let* x := rd A m a (p + (r * C + c)) in wr A m b (q + (c * R + r)) x) C) as (m'' & E & U2).
    + lia.
    + intros k j. lia.
    + intros c m2 Hc U2. rewrite rd_cell, (upd_in _ _ _ _ _ _ _ U2), (upd_in _ _ _ _ _ _ _ U) by auto.
      destruct (cell_some A m a (p + (r * C + c))) as (x & Ex); [nia|]. rewrite Ex. cbn [obind].
      destruct (wr_upd m2 b (q + (c * R + r)) x (fun j => cell m a (p + tpos R C (j - q)))) as (m3 & E3 & U3).
      * rewrite (upd_len _ _ _ _ _ _ U2), (upd_len _ _ _ _ _ _ U). nia.
      * rewrite <- Ex. f_equal. f_equal. unfold tpos. replace (q + (c * R + r) - q) with (c * R + r) by lia.
        rewrite (md c R r), (dv c R r) by lia. lia.
      * exists m3. split; auto.
    + exists m''. split; auto. eapply upd_ext; [|exact U2]. intros j. cbn beta. split.
      * intros (c & Hc & <-). split; [nia|]. replace (q + (c * R + r) - q) with (c * R + r) by lia.
        apply md. lia.
      * intros [Hj Hm]. exists ((j - q) / R). pose proof (Z.div_mod (j - q) R). split; [|lia].
        split; [apply Z.div_pos; lia|apply Z.div_lt_upper_bound; lia].
  - exists m'. split; auto. eapply upd_ext; [|exact U]. intros j. cbn beta. split.
    + intros (t & _ & X & _). auto.
    + intros X. exists ((j - q) mod R). split; [apply Z.mod_pos_bound; lia|auto].
Qed.
End Fun.
