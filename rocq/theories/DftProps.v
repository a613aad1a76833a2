(** Properties of the Fourier transform functor (dft-kiss.cpp). *)
From Coq Require Import ZArith Bool List Lia ZifyBool String.
From Verif Require Import Base StrModel StrProof GeoModel GeoSpec GeoProof FunProof PolyProof GeoProps MatProof MatProps DftModel DftSpec.
Import ListNotations.
Local Notation length := List.length.
Local Open Scope list_scope.
Local Open Scope Z_scope.

Section Rows.
Variable A : Type.
Lemma vals_same : forall (m m' : mem A) a n p, (forall j, cell m' a j = cell m a j) -> vals A m' a p n = vals A m a p n.
Proof. intros m m' a n. induction n; intros p H; cbn [vals]; auto. rewrite H, IHn by auto. auto. Qed.
Lemma rows_ok : forall d tr (m : mem A) i o r n w offi offo, fits m i (r ++ [n]) offi -> fits m o (r ++ [w]) offo -> o_arr o <> o_arr i ->
  d_config d = true -> 1 <= d_in d -> (forall l, Z.of_nat (length l) = d_in d -> Z.of_nat (length (tr l)) = w) ->
  offi + n * (prod r - 1) + d_in d <= Z.of_nat (length (arr A m (o_arr i))) ->
  exists m', unary_broadcast A 1 (dft_vector A d tr i o) m i o = Ok m' /\ upd A m m' (o_arr o) (fun j => offo <= j < offo + prod (r ++ [w]))
    (fun j => nth_error (tr (vals A m (o_arr i) (offi + n * ((j - offo) / w)) (Z.to_nat (d_in d)))) (Z.to_nat ((j - offo) mod w))).
Proof.
  intros d tr m i o r n w offi offo Hi Ho Hne Hc Hin HL Hlen. apply (unary_ok A 1 _ m i o r [n] [w] offi offo); auto; [discriminate|].
  intros k m' Hk U. cbn [prod] in *. rewrite !Z.mul_1_r in *.
  pose proof (fits_prod _ _ _ _ _ Hi) as Fi. pose proof (fits_prod _ _ _ _ _ Ho) as Fo. rewrite prod_app in Fi, Fo. cbn [prod] in Fi, Fo.
  pose proof (fits_pos _ _ _ _ _ Hi) as Hpos. apply positive_app in Hpos. destruct Hpos as [Pr Pd]. inversion Pd; subst.
  pose proof (fits_pos _ _ _ _ _ Ho) as Hpos. apply positive_app in Hpos. destruct Hpos as [_ Pw]. inversion Pw; subst.
  unfold dft_vector. unfold is_same. replace (Nat.eqb (o_arr i) (o_arr o)) with false by lia. cbn [andb]. rewrite Hc. cbn [negb].
  rewrite (fits_offset _ _ _ _ _ Hi), (fits_offset _ _ _ _ _ Ho). unfold hsize in *.
  assert (0 <= n * k <= n * (prod r - 1)) by nia. assert (0 <= w * k) by nia. assert (w * k + w <= prod r * w) by nia.
  rewrite rd_row_ok by (rewrite ?(upd_len _ _ _ _ _ _ _ U); lia). cbn [obind].
  destruct (vals_ok A m (o_arr i) (Z.to_nat (d_in d)) (offi + n * k)) as [V1 V2]; [lia|lia|].
  rewrite (vals_same m m') by (intros j; apply (upd_in _ _ _ _ _ _ _ _ U); auto).
  set (l := tr (vals A m (o_arr i) (offi + n * k) (Z.to_nat (d_in d)))). assert (Ll : Z.of_nat (length l) = w) by (apply HL; rewrite V1; lia).
  destruct (wr_row_ok A (o_arr o) l (offo + w * k) m') as (m'' & E & U2); [lia|rewrite (upd_len _ _ _ _ _ _ _ U); nia|].
  exists m''. split; [exact E|]. rewrite Ll in U2. eapply upd_ext2; [|exact U2]. intros j Hj. cbn beta.
  assert (Em : (j - offo) mod w = j - (offo + w * k)) by (symmetry; apply (Z.mod_unique _ _ k); lia).
  assert (Ed : (j - offo) / w = k) by (symmetry; apply (Z.div_unique _ _ k (j - (offo + w * k))); lia). rewrite Em, Ed. reflexivity.
Qed.
End Rows.

Section Transform.
Variable A : Type.
Lemma sizes_ctor : forall ty inv size rd w, sizes ty inv size rd w ->
  1 <= rd /\ 1 <= w /\ exists d, dft_ctor size inv ty = Ok d /\ d_config d = true /\ d_in d = rd /\ d_oSize d = w /\ d_inverse d = inv /\
    (if inv then d_inverseType d else d_forward d) = goes_in ty inv /\ (if inv then d_forward d else d_inverseType d) = comes_out ty inv.
Proof.
  intros ty inv size rd w H. destruct H as [h Hh|h Hh|inv n Hn]; (split; [lia|split; [lia|]]); (eexists; split; [reflexivity|]); cbn [d_config d_in d_oSize d_inverse d_inverseType d_forward goes_in comes_out].
  1,2: rewrite (Z.mul_comm 2 h), Z.quot_mul by lia; rewrite Z.even_mul; cbn [Z.even]; rewrite orb_true_r; auto 10.
  destruct inv; auto 10.
Qed.
Lemma dtype_refl : forall t, dtype_eqb t t = true.
Proof. destruct t; reflexivity. Qed.
Lemma into_ok : forall d tr div num (m : mem A) i o r n w offi offo ti to, fits m i (r ++ [n]) offi -> fits m o (r ++ [w]) offo -> o_arr o <> o_arr i ->
  d_config d = true -> 1 <= d_in d -> d_oSize d = w -> (forall l, Z.of_nat (length l) = d_in d -> Z.of_nat (length (tr l)) = w) ->
  ti = (if d_inverse d then d_inverseType d else d_forward d) -> to = (if d_inverse d then d_forward d else d_inverseType d) ->
  offi + n * (prod r - 1) + d_in d <= Z.of_nat (length (arr A m (o_arr i))) ->
  exists m', dft_scalar A d tr div num ti to m i o = Ok m' /\ upd A m m' (o_arr o) (fun j => offo <= j < offo + prod (r ++ [w]))
    (fun j => nth_error (scaled (d_inverse d) div (num w) (tr (vals A m (o_arr i) (offi + n * ((j - offo) / w)) (Z.to_nat (d_in d))))) (Z.to_nat ((j - offo) mod w))).
Proof.
  intros d tr div num m i o r n w offi offo ti to Hi Ho Hne Hc Hin Hw HL -> -> Hlen. unfold dft_scalar. rewrite !dtype_refl. cbn [negb].
  destruct (rows_ok A d tr m i o r n w offi offo) as (m1 & E1 & U1); auto. rewrite E1. cbn [obind]. unfold scaled.
  destruct (d_inverse d); [|eauto].
  assert (Fo : fits m1 o (r ++ [w]) offo) by (eapply same_fits; [apply U1|auto]).
  edestruct (arith_scal_ok A div) as (m2 & E2 & U2); [exact Fo|]. rewrite Hw, E2. exists m2. split; [auto|].
  destruct U1 as (S1 & V1 & K1), U2 as (S2 & V2 & K2). split; [eapply same_size_trans; eauto|]. split.
  - intros j Hj. rewrite V2 by auto. rewrite V1 by auto. rewrite nth_error_map. reflexivity.
  - intros b j Hb. rewrite K2, K1 by auto. auto.
Qed.
Lemma shown_rows : forall (m m' : mem A) i o r n w rd offi offo (g : list A -> list A), fits m' o (r ++ [w]) offo -> 1 <= rd ->
  (forall l, Z.of_nat (length l) = rd -> Z.of_nat (length (g l)) = w) ->
  (forall j, offo <= j < offo + prod (r ++ [w]) -> cell m' (o_arr o) j = nth_error (g (vals A m (o_arr i) (offi + n * ((j - offo) / w)) (Z.to_nat rd))) (Z.to_nat ((j - offo) mod w))) ->
  forall ir xs, in_range r ir -> Z.of_nat (length xs) = rd -> cells_are m (o_arr i) (offi + n * place r ir) xs -> row_is m' o ir (g xs).
Proof.
  intros m m' i o r n w rd offi offo g Fo Hrd HL V ir xs Hir Hl Hx k Hk. pose proof (HL xs Hl) as Lg.
  pose proof (fits_pos _ _ _ _ _ Fo) as Hpos. apply positive_app in Hpos. destruct Hpos as [Pr Pw]. apply Forall_inv in Pw.
  assert (Rt : in_range (r ++ [w]) (ir ++ [Z.of_nat k])) by (apply Forall2_app; [auto|constructor; [lia|constructor]]).
  rewrite (shown_in A m' o _ _ _ Fo Rt). pose proof (place_range _ _ Rt). rewrite V by lia.
  rewrite place_app by (apply in_range_length; auto). cbn [prod place].
  replace (offo + (place r ir * (w * 1) + (Z.of_nat k * 1 + 0)) - offo) with (place r ir * w + Z.of_nat k) by lia.
  rewrite Z.div_add_l, (Z.div_small (Z.of_nat k)), Z.add_0_r by lia. rewrite (Z.add_comm (place r ir * w)), Z.mod_add, Z.mod_small by lia.
  rewrite <- Hl, !Nat2Z.id, vals_is by exact Hx. reflexivity.
Qed.
Lemma scaled_length : forall inv div (n : A) l, length (scaled inv div n l) = length l.
Proof. intros [|] div n l; [apply map_length|auto]. Qed.

Lemma reads_on : forall d z tr div num (m : mem A) i r n off ti to inv rd w, fits m i (r ++ [n]) off -> 1 <= rd -> 1 <= w -> prod r * w <= INT_MAX ->
  d_config d = true -> d_in d = rd -> d_oSize d = w -> d_inverse d = inv -> (if inv then d_inverseType d else d_forward d) = ti -> (if inv then d_forward d else d_inverseType d) = to ->
  (forall l, Z.of_nat (length l) = rd -> Z.of_nat (length (tr l)) = w) -> off + n * (prod r - 1) + rd <= Z.of_nat (length (nth (o_arr i) m [])) ->
  exists m' o, dft_new A d z tr div num ti m i = Ok (m', o) /\ shapes A m' o = Ok (r ++ [w]) /\ kept m m' /\
    forall ir xs, in_range r ir -> Z.of_nat (length xs) = rd -> cells_are m (o_arr i) (off + n * place r ir) xs ->
      row_is m' o ir (scaled inv div (num w) (tr xs)).
Proof.
  intros d z tr div num m i r n off ti to inv rd w Hi Hrd Hw Hmax Dc Di Do Dv Dti Dto HL Hlen.
  pose proof (fits_lt _ _ _ _ _ Hi) as Lt. pose proof (fits_pos _ _ _ _ _ Hi) as Hpos. apply positive_app in Hpos. destruct Hpos as [Pr Pd].
  destruct (alloc_view_ok A z m (r ++ [w])) as [EA FA]; [destruct r; discriminate|apply Forall_app; auto|rewrite prod_app; cbn [prod]; lia|].
  set (x := repeat z _) in *. set (o := mkop _ _) in *. assert (Fi : fits (m ++ [x]) i (r ++ [n]) off) by (apply fits_app; auto).
  destruct (into_ok d tr div num (m ++ [x]) i o r n w off 0 ti to) as (m' & E & U); auto.
  - cbn [o o_arr]. lia.
  - lia.
  - rewrite Di. auto.
  - rewrite Dv, Dti. auto.
  - rewrite Dv, Dto. auto.
  - unfold arr. rewrite app_nth1 by auto. lia.
  - exists m', o. unfold dft_new, dft_alloc. rewrite (fits_shapes _ _ _ _ _ Hi). cbn [obind].
    rewrite app_length. cbn [length]. replace (length r + 1 - 1)%nat with (length r + 0)%nat by lia. rewrite firstn_app_2. cbn [firstn]. rewrite app_nil_r, Do.
    rewrite EA. cbn [obind]. rewrite Dv, Dto, E. cbn [obind]. split; [auto|].
    assert (Fo' : fits m' o (r ++ [w]) 0) by (eapply same_fits; [apply U|auto]).
    split; [apply (fits_shapes A m' o _ _ Fo')|]. split; [eapply upd_new_kept; exact U|]. rewrite Dv, Di in U.
    intros ir xs Hir Hl Hx. destruct U as (_ & U & _).
    apply (shown_rows (m ++ [x]) m' i o r n w rd off 0 (fun l => scaled inv div (num w) (tr l)) Fo' Hrd); auto.
    + intros l Hl'. rewrite scaled_length. auto.
    + intros k Hk. rewrite cell_app_old by auto. auto.
Qed.

(** C96: nothing compares the length of the rows with the size of the transform; it reads on. *)
Theorem C96_reads_on : forall z tr div num (m : mem A) i r n off ty inv size rd w, fits m i (r ++ [n]) off -> sizes ty inv size rd w -> prod r * w <= INT_MAX ->
  (forall l, Z.of_nat (length l) = rd -> Z.of_nat (length (tr l)) = w) -> off + n * (prod r - 1) + rd <= Z.of_nat (length (nth (o_arr i) m [])) ->
  exists d m' o, dft_ctor size inv ty = Ok d /\ dft_new A d z tr div num (goes_in ty inv) m i = Ok (m', o) /\ shapes A m' o = Ok (r ++ [w]) /\ kept m m' /\
    forall ir xs, in_range r ir -> Z.of_nat (length xs) = rd -> cells_are m (o_arr i) (off + n * place r ir) xs ->
      row_is m' o ir (scaled inv div (num w) (tr xs)).
Proof.
  intros z tr div num m i r n off ty inv size rd w Hi HS Hmax HL Hlen. destruct (sizes_ctor _ _ _ _ _ HS) as (Hrd & Hw & d & Ec & Dc & Di & Do & Dv & Dti & Dto).
  exists d. destruct (reads_on d z tr div num m i r n off (goes_in ty inv) (comes_out ty inv) inv rd w) as (m' & o & H); auto. exists m', o. auto.
Qed.

(** C95 *)
Theorem C95_transform : forall z tr div num (m : mem A) i r n off ty inv size rd w, fits m i (r ++ [n]) off -> sizes ty inv size rd w -> rd <= n -> prod r * w <= INT_MAX ->
  (forall l, Z.of_nat (length l) = rd -> Z.of_nat (length (tr l)) = w) ->
  exists d m' o, dft_ctor size inv ty = Ok d /\ dft_new A d z tr div num (goes_in ty inv) m i = Ok (m', o) /\ shapes A m' o = Ok (r ++ [w]) /\ kept m m' /\
    forall ir xs, in_range r ir -> Z.of_nat (length xs) = n -> row_is m i ir xs ->
      row_is m' o ir (scaled inv div (num w) (tr (firstn (Z.to_nat rd) xs))).
Proof.
  intros z tr div num m i r n off ty inv size rd w Hi HS Hn Hmax HL. pose proof (sizes_ctor _ _ _ _ _ HS) as (Hrd & Hw & _).
  pose proof (fits_prod _ _ _ _ _ Hi) as Fi. rewrite prod_app in Fi. cbn [prod] in Fi. unfold hsize in Fi.
  destruct (C96_reads_on z tr div num m i r n off ty inv size rd w Hi HS Hmax HL) as (d & m' & o & E1 & E2 & E3 & E4 & H); [unfold arr in *; nia|].
  exists d, m', o. do 4 (split; [assumption|]). intros ir xs Hir Hl Hrow. assert (Lf : length (firstn (Z.to_nat rd) xs) = Z.to_nat rd) by (rewrite firstn_length; lia).
  apply H; [auto|lia|]. intros k Hk. rewrite Lf in Hk. rewrite (row_cells A m i r n off ir xs) by (auto; lia).
  symmetry. rewrite <- (firstn_skipn (Z.to_nat rd) xs) at 2. rewrite nth_error_app1 by lia. reflexivity.
Qed.
Theorem C95_into : forall tr div num (m : mem A) i o r n offi offo ty inv size rd w, fits m i (r ++ [n]) offi -> fits m o (r ++ [w]) offo -> o_arr o <> o_arr i ->
  sizes ty inv size rd w -> rd <= n -> (forall l, Z.of_nat (length l) = rd -> Z.of_nat (length (tr l)) = w) ->
  exists d m', dft_ctor size inv ty = Ok d /\ dft_scalar A d tr div num (goes_in ty inv) (comes_out ty inv) m i o = Ok m' /\ shapes A m' o = Ok (r ++ [w]) /\
    (forall b j, b <> o_arr o \/ j < offo \/ offo + prod (r ++ [w]) <= j -> cell m' b j = cell m b j) /\
    forall ir xs, in_range r ir -> Z.of_nat (length xs) = n -> row_is m i ir xs ->
      row_is m' o ir (scaled inv div (num w) (tr (firstn (Z.to_nat rd) xs))).
Proof.
  intros tr div num m i o r n offi offo ty inv size rd w Hi Ho Hne HS Hn HL. destruct (sizes_ctor _ _ _ _ _ HS) as (Hrd & Hw & d & Ec & Dc & Di & Do & Dv & Dti & Dto).
  pose proof (fits_prod _ _ _ _ _ Hi) as Fi. rewrite prod_app in Fi. cbn [prod] in Fi. unfold hsize in Fi.
  destruct (into_ok d tr div num m i o r n w offi offo (goes_in ty inv) (comes_out ty inv)) as (m' & E & U); auto.
  - lia.
  - rewrite Di. auto.
  - rewrite Dv, Dti. auto.
  - rewrite Dv, Dto. auto.
  - nia.
  - exists d, m'. split; [auto|]. split; [auto|]. assert (Fo' : fits m' o (r ++ [w]) offo) by (eapply same_fits; [apply U|auto]).
    split; [apply (fits_shapes A m' o _ _ Fo')|]. rewrite Dv, Di in U. destruct U as (_ & U & K). split; [intros b j Hb; apply K; lia|].
    intros ir xs Hir Hl Hrow. assert (Lf : length (firstn (Z.to_nat rd) xs) = Z.to_nat rd) by (rewrite firstn_length; lia).
    apply (shown_rows m m' i o r n w rd offi offo (fun l => scaled inv div (num w) (tr l)) Fo' Hrd); auto.
    + intros l Hl'. rewrite scaled_length. auto.
    + lia.
    + intros k Hk. rewrite Lf in Hk. rewrite (row_cells A m i r n offi ir xs) by (auto; lia).
      symmetry. rewrite <- (firstn_skipn (Z.to_nat rd) xs) at 2. rewrite nth_error_app1 by lia. reflexivity.
Qed.

Lemma unary_over : forall vector (m : mem A) i o r n w offi offo k0, fits m i (r ++ [n]) offi -> fits m o (r ++ [w]) offo -> 0 <= k0 < prod r ->
  (forall k m', 0 <= k < prod r -> same_size A m m' -> sound A m (vector (n * k) (w * k) m')) ->
  (forall m', same_size A m m' -> vector (n * k0) (w * k0) m' = UB OutOfBounds) ->
  unary_broadcast A 1 vector m i o = UB OutOfBounds.
Proof.
  intros vector m i o r n w offi offo k0 Hi Ho Hk0 HS HV.
  pose proof (fits_pos _ _ _ _ _ Hi) as Hpos. apply positive_app in Hpos. destruct Hpos as [Pr Pd]. apply Forall_inv in Pd.
  pose proof (fits_pos _ _ _ _ _ Ho) as Hpos. apply positive_app in Hpos. destruct Hpos as [_ Pw]. apply Forall_inv in Pw.
  pose proof (fits_prod _ _ _ _ _ Hi) as Fi. pose proof (fits_prod _ _ _ _ _ Ho) as Fo. rewrite prod_app in Fi, Fo. cbn [prod] in Fi, Fo. rewrite Z.mul_1_r in Fi, Fo.
  unfold unary_broadcast. replace (dim i <? 1) with false by (rewrite (fits_dim _ _ _ _ _ Hi), app_length; cbn [length]; lia).
  destruct (step_ok A m i r [n] offi 1 Hi eq_refl) as [->|?]; [|discriminate]. cbn [obind].
  destruct (step_ok A m o r [w] offo 1 Ho eq_refl) as [->|?]; [|discriminate]. cbn [obind prod]. rewrite !Z.mul_1_r.
  rewrite (fits_size _ _ _ _ _ Hi). cbn [obind]. rewrite prod_app. cbn [prod]. rewrite Z.mul_1_r. unfold idiv.
  destruct (n =? 0) eqn:E3; [lia|]. cbn [obind]. rewrite Z.quot_mul by lia.
  apply (for_over A m _ (prod r) m k0); [apply same_size_refl|auto| |].
  - intros k m' Hk S'. rewrite imul_in by (apply in_int_small; nia). cbn [obind]. rewrite imul_in by (apply in_int_small; nia). cbn [obind]. apply HS; auto.
  - intros m' S'. rewrite imul_in by (apply in_int_small; nia). cbn [obind]. rewrite imul_in by (apply in_int_small; nia). cbn [obind]. apply HV; auto.
Qed.
Lemma rd_row_over : forall (m : mem A) a n p, 0 <= p <= Z.of_nat (length (arr A m a)) -> Z.of_nat (length (arr A m a)) < p + Z.of_nat n -> rd_row A m a p n = UB OutOfBounds.
Proof.
  intros m a n. induction n; intros p Hp Hn; [lia|]. cbn [rd_row]. rewrite rd_cell.
  destruct (Z.eq_dec p (Z.of_nat (length (arr A m a)))) as [E|E].
  - replace (cell m a p) with (@None A); [reflexivity|]. symmetry. unfold cell, arr in *. destruct (p <? 0); [reflexivity|]. apply nth_error_None. lia.
  - destruct (cell_some A m a p) as (x & Ex); [lia|]. rewrite Ex. cbn [obind]. rewrite IHn by lia. reflexivity.
Qed.
(** C96 *)
Theorem C96_overrun : forall z tr div num (m : mem A) i r n off ty inv size rd w, fits m i (r ++ [n]) off -> sizes ty inv size rd w -> prod r * w <= INT_MAX ->
  (forall l, Z.of_nat (length l) = rd -> Z.of_nat (length (tr l)) = w) -> Z.of_nat (length (nth (o_arr i) m [])) < off + n * (prod r - 1) + rd ->
  exists d, dft_ctor size inv ty = Ok d /\ dft_new A d z tr div num (goes_in ty inv) m i = UB OutOfBounds.
Proof.
  intros z tr div num m i r n off ty inv size rd w Hi HS Hmax HL Hlen. destruct (sizes_ctor _ _ _ _ _ HS) as (Hrd & Hw & d & Ec & Dc & Di & Do & Dv & Dti & Dto).
  exists d. split; [auto|]. pose proof (fits_lt _ _ _ _ _ Hi) as Lt. pose proof (fits_pos _ _ _ _ _ Hi) as Hpos. apply positive_app in Hpos. destruct Hpos as [Pr Pd].
  pose proof (prod_pos _ Pr). apply Forall_inv in Pd. pose proof (fits_prod _ _ _ _ _ Hi) as Fp. rewrite prod_app in Fp. cbn [prod] in Fp. unfold hsize, arr in Fp.
  destruct (alloc_view_ok A z m (r ++ [w])) as [EA FA]; [destruct r; discriminate|apply Forall_app; auto|rewrite prod_app; cbn [prod]; lia|].
  unfold dft_new, dft_alloc. rewrite (fits_shapes _ _ _ _ _ Hi). cbn [obind].
  rewrite app_length. cbn [length]. replace (length r + 1 - 1)%nat with (length r + 0)%nat by lia. rewrite firstn_app_2. cbn [firstn]. rewrite app_nil_r, Do.
  rewrite EA. cbn [obind]. set (x := repeat z _) in *. set (o := mkop _ _) in *. assert (Fi : fits (m ++ [x]) i (r ++ [n]) off) by (apply fits_app; auto).
  unfold dft_scalar. rewrite Dv, Dti, Dto, !dtype_refl. cbn [negb].
  assert (La : arr A (m ++ [x]) (o_arr i) = nth (o_arr i) m []) by (unfold arr; rewrite app_nth1 by auto; auto).
  assert (Lo : Z.of_nat (length (arr A (m ++ [x]) (o_arr o))) = prod r * w).
  { unfold arr, o. cbn [o_arr]. rewrite app_nth2, Nat.sub_diag by lia. cbn [nth]. unfold x. rewrite repeat_length, prod_app. cbn [prod]. lia. }
  assert (Hs : is_same i o = false) by (unfold is_same, o; cbn [o_arr]; replace (Nat.eqb (o_arr i) (length m)) with false by lia; reflexivity).
  rewrite (unary_over _ (m ++ [x]) i o r n w off 0 (prod r - 1)); [reflexivity|auto|auto|lia| |].
  - intros k m' Hk S'. unfold dft_vector. rewrite Hs, Dc. cbn [negb]. rewrite (fits_offset _ _ _ _ _ Fi), (fits_offset _ _ _ _ _ FA).
    assert (0 <= n * k <= n * (prod r - 1)) by nia. assert (0 <= w * k) by nia. assert (w * k + w <= prod r * w) by nia.
    pose proof (eq_sym (proj2 S' (o_arr i))) as Li. pose proof (eq_sym (proj2 S' (o_arr o))) as Lo'. fold (arr A m' (o_arr i)) in Li. fold (arr A (m ++ [x]) (o_arr i)) in Li.
    fold (arr A m' (o_arr o)) in Lo'. fold (arr A (m ++ [x]) (o_arr o)) in Lo'. rewrite La in Li.
    destruct (Z_le_gt_dec (off + n * k + rd) (Z.of_nat (length (nth (o_arr i) m [])))) as [L|L].
    + rewrite rd_row_ok by (rewrite ?Li; lia). cbn [obind]. right.
      destruct (vals_ok A m' (o_arr i) (Z.to_nat (d_in d)) (off + n * k)) as [V1 V2]; [lia|rewrite Li; lia|].
      match goal with |- context [tr ?l] => set (t := tr l); assert (Lt' : Z.of_nat (length t) = w) by (apply HL; rewrite V1; lia) end.
      destruct (wr_row_ok A (o_arr o) t (0 + w * k) m') as (m'' & E & U2); [lia|rewrite Lo'; lia|].
      exists m''. split; [auto|]. eapply same_size_trans; [exact S'|apply U2].
    + left. rewrite rd_row_over; [reflexivity|rewrite Li; nia|rewrite Li; lia].
  - intros m' S'. unfold dft_vector. rewrite Hs, Dc. cbn [negb]. rewrite (fits_offset _ _ _ _ _ Fi).
    pose proof (eq_sym (proj2 S' (o_arr i))) as Li. fold (arr A m' (o_arr i)) in Li. fold (arr A (m ++ [x]) (o_arr i)) in Li. rewrite La in Li.
    rewrite rd_row_over; [reflexivity|rewrite Li; nia|rewrite Li; lia].
Qed.
Theorem C96_odd : forall z tr div num (m : mem A) i r n off inv h, fits m i (r ++ [n]) off -> 0 <= h -> prod r * (2 * h + 1) <= INT_MAX ->
  exists d, dft_ctor (2 * h + 1) inv DFloat = Ok d /\ dft_new A d z tr div num (goes_in DFloat inv) m i = UB NullDeref.
Proof.
  intros z tr div num m i r n off inv h Hi Hh Hmax. eexists. split; [reflexivity|].
  pose proof (fits_lt _ _ _ _ _ Hi) as Lt. pose proof (fits_pos _ _ _ _ _ Hi) as Hpos. apply positive_app in Hpos. destruct Hpos as [Pr Pd].
  pose proof (prod_pos _ Pr). apply Forall_inv in Pd. pose proof (fits_prod _ _ _ _ _ Hi) as Fp. rewrite prod_app in Fp. cbn [prod] in Fp. unfold hsize, arr in Fp.
  assert (Eq : Z.quot (2 * h + 1) 2 = h) by (rewrite Z.quot_div_nonneg by lia; symmetry; apply (Z.div_unique _ _ h 1); lia).
  set (w := if inv then 2 * h + 1 else h + 1). assert (Hw : 1 <= w <= 2 * h + 1) by (unfold w; destruct inv; lia).
  destruct (alloc_view_ok A z m (r ++ [w])) as [EA FA]; [destruct r; discriminate|apply Forall_app; split; [auto|constructor; [lia|constructor]]|rewrite prod_app; cbn [prod]; nia|].
  unfold dft_new, dft_alloc. rewrite (fits_shapes _ _ _ _ _ Hi). cbn [obind].
  rewrite app_length. cbn [length]. replace (length r + 1 - 1)%nat with (length r + 0)%nat by lia. rewrite firstn_app_2. cbn [firstn d_oSize d_inverse d_forward d_inverseType]. rewrite app_nil_r, Eq.
  fold w. rewrite EA. cbn [obind]. set (x := repeat z _) in *. set (o := mkop _ _) in *. assert (Fi : fits (m ++ [x]) i (r ++ [n]) off) by (apply fits_app; auto).
  unfold dft_scalar. cbn [d_inverse d_inverseType d_forward]. replace (goes_in DFloat inv) with (if inv then DCFloat else DFloat) by (destruct inv; reflexivity). rewrite !dtype_refl. cbn [negb].
  assert (Hs : is_same i o = false) by (unfold is_same, o; cbn [o_arr]; replace (Nat.eqb (o_arr i) (length m)) with false by lia; reflexivity).
  assert (Eb : unary_broadcast A 1 (dft_vector A (mkdft (Z.even (2 * h + 1)) DFloat DCFloat w inv (if inv then h + 1 else 2 * h + 1) w) tr i o) (m ++ [x]) i o = UB NullDeref); [|unfold w in *; rewrite Eb; reflexivity].
  pose proof (fits_prod _ _ _ _ _ Fi) as Fp2. rewrite prod_app in Fp2. cbn [prod] in Fp2.
  unfold unary_broadcast. replace (dim i <? 1) with false by (rewrite (fits_dim _ _ _ _ _ Hi), app_length; cbn [length]; lia).
  destruct (step_ok A (m ++ [x]) i r [n] off 1 Fi eq_refl) as [->|?]; [|discriminate]. cbn [obind].
  destruct (step_ok A (m ++ [x]) o r [w] 0 1 FA eq_refl) as [->|?]; [|discriminate]. cbn [obind prod]. rewrite !Z.mul_1_r.
  rewrite (fits_size _ _ _ _ _ Fi). cbn [obind]. rewrite prod_app. cbn [prod]. rewrite Z.mul_1_r. unfold idiv.
  destruct (n =? 0) eqn:E3; [lia|]. cbn [obind]. rewrite Z.quot_mul by lia. unfold for_to. destruct (Z.to_nat (prod r)) eqn:En; [lia|]. cbn [loop].
  rewrite !imul_in by (rewrite Z.mul_0_r; reflexivity). cbn [obind]. rewrite !Z.mul_0_r. unfold dft_vector at 1. rewrite Hs. cbn [d_config]. rewrite Z.even_add, Z.even_mul. reflexivity.
Qed.
Theorem C96_in_place : forall tr div num (m : mem A) i r n off inv size, fits m i (r ++ [n]) off ->
  exists d, dft_ctor size inv DCFloat = Ok d /\ dft_scalar A d tr div num DCFloat DCFloat m i i = Throw "DFTBase::vector(): not implemented".
Proof.
  intros tr div num m i r n off inv size Hi. eexists. split; [reflexivity|]. unfold dft_scalar. cbn [d_inverse d_inverseType d_forward].
  replace (if inv then DCFloat else DCFloat) with DCFloat by (destruct inv; reflexivity). cbn [dtype_eqb negb].
  pose proof (fits_pos _ _ _ _ _ Hi) as Hpos. apply positive_app in Hpos. destruct Hpos as [Pr Pd].
  pose proof (prod_pos _ Pr). apply Forall_inv in Pd.
  unfold unary_broadcast. replace (dim i <? 1) with false by (rewrite (fits_dim _ _ _ _ _ Hi), app_length; cbn [length]; lia).
  destruct (step_ok A m i r [n] off 1 Hi eq_refl) as [->|?]; [|discriminate]. cbn [obind prod]. rewrite !Z.mul_1_r.
  rewrite (fits_size _ _ _ _ _ Hi). cbn [obind]. rewrite prod_app. cbn [prod]. rewrite Z.mul_1_r. unfold idiv.
  destruct (n =? 0) eqn:E3; [lia|]. cbn [obind]. rewrite Z.quot_mul by lia. unfold for_to. destruct (Z.to_nat (prod r)) eqn:En; [lia|]. cbn [loop].
  rewrite !imul_in by (rewrite Z.mul_0_r; reflexivity). cbn [obind]. rewrite !Z.mul_0_r. unfold dft_vector at 1. replace (is_same i i) with true; [reflexivity|]. symmetry.
  unfold is_same. rewrite Nat.eqb_refl. rewrite Z.eqb_refl. reflexivity.
Qed.
Theorem C96_types : forall tr div num (m : mem A) i o ty inv size ti to d, dft_ctor size inv ty = Ok d ->
  (ty = DFloat \/ ty = DCFloat) /\
  (ti <> goes_in ty inv -> dft_scalar A d tr div num ti to m i o = Throw "DFTBase::scalar: wrong input type") /\
  (ti = goes_in ty inv -> to <> comes_out ty inv -> dft_scalar A d tr div num ti to m i o = Throw "DFTBase::scalar: wrong output type").
Proof.
  intros tr div num m i o ty inv size ti to d E. destruct ty; try discriminate E; injection E as <-; (split; [auto|]); unfold dft_scalar; cbn [d_inverse d_inverseType d_forward];
    destruct inv, ti, to; cbn; split; intros; congruence.
Qed.
Theorem C96_construct : forall ty inv size, match ty with
  | DFloat | DCFloat => exists d, dft_ctor size inv ty = Ok d
  | DDouble | DCDouble => dft_ctor size inv ty = Throw "DFTBase::DFTBase: Kiss FFT float only"
  | DOther => dft_ctor size inv ty = Throw "DFTBase::DFTBase: Unknown type" end.
Proof. intros [| | | |] inv size; cbn; eauto. Qed.
End Transform.

(** Two rows of five values through a transform of size four that sums and takes the differences. *)
Definition demo_tr (l : list Z) : list Z := match l with [a; b; c; d] => [a + b + c + d; a - c; a - b + c - d] | _ => [0; 0; 0] end.
Definition demo_inv (l : list Z) : list Z := match l with [a; b; c] => [a + b + c; a - b; a + b - c; a - c] | _ => [0; 0; 0; 0] end.
Example C95_ex : let m := [[1; 2; 3; 4; 9; 5; 6; 7; 8; 9]] in let i := mkop 0 (Some [0; 2; 5; 5; 1]) in
  fits m i ([2] ++ [5]) 0 /\ sizes DFloat false 4 4 3 /\ row_is m i [1] [5; 6; 7; 8; 9] /\
  (let* d := dft_ctor 4 false DFloat in dft_new Z d 0 demo_tr Z.div (fun k => k) DFloat m i) = Ok (m ++ [[10; -2; -2; 26; -2; -2]], mkop 1 (Some [0; 2; 3; 3; 1])).
Proof.
  split; [fit|]. split; [apply (real_forward 2); lia|]. split; [intros [|[|[|[|[|k]]]]] Hk; [reflexivity..|cbn [length] in Hk; lia]|]. vm_compute; reflexivity.
Qed.
Example C95_inverse_ex : let m := [[10; -2; -2]; [0; 0; 0; 0; 7]] in let i := mkop 0 None in let o := mkop 1 (Some [0; 4; 1]) in
  fits m i ([] ++ [3]) 0 /\ fits m o ([] ++ [4]) 0 /\ sizes DFloat true 4 3 4 /\
  (let* d := dft_ctor 4 true DFloat in dft_scalar Z d demo_inv Z.div (fun k => k) DCFloat DFloat m i o) = Ok [[10; -2; -2]; [1; 3; 2; 3; 7]].
Proof. split; [fit|]. split; [fit|]. split; [apply (real_inverse 2); lia|]. vm_compute; reflexivity. Qed.
(** Rows of three values: the first transform takes the first value of the next row, the second
    what lies behind the view, or behind the array. *)
Example C96_ex : let m := [[1; 2; 3; 4; 5; 6; 100]; [1; 2; 3; 4; 5; 6]] in let i := mkop 0 (Some [0; 2; 3; 3; 1]) in let j := mkop 1 (Some [0; 2; 3; 3; 1]) in
  fits m i ([2] ++ [3]) 0 /\ fits m j ([2] ++ [3]) 0 /\ sizes DFloat false 4 4 3 /\
  (let* d := dft_ctor 4 false DFloat in dft_new Z d 0 demo_tr Z.div (fun k => k) DFloat m i) = Ok (m ++ [[10; -2; -2; 115; -2; -95]], mkop 2 (Some [0; 2; 3; 3; 1])) /\
  (let* d := dft_ctor 4 false DFloat in dft_new Z d 0 demo_tr Z.div (fun k => k) DFloat m j) = UB OutOfBounds /\
  (let* d := dft_ctor 3 false DFloat in dft_new Z d 0 demo_tr Z.div (fun k => k) DFloat m j) = UB NullDeref /\
  (let* d := dft_ctor 3 false DCFloat in dft_scalar Z d demo_tr Z.div (fun k => k) DCFloat DCFloat m j j) = Throw "DFTBase::vector(): not implemented" /\
  (let* d := dft_ctor 4 false DFloat in dft_new Z d 0 demo_tr Z.div (fun k => k) DDouble m i) = Throw "DFTBase::scalar: wrong input type".
Proof. split; [fit|]. split; [fit|]. split; [apply (real_forward 2); lia|]. do 4 (split; [vm_compute; reflexivity|]). vm_compute; reflexivity. Qed.
