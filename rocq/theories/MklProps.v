(** Properties C124 and C125: the implementations over the Math Kernel Library do what the others
    do. *)
From Coq Require Import ZArith Bool List Lia ZifyBool String.
From Verif Require Import Base StrModel StrProof GeoModel GeoSpec GeoProof FunProof CycleProof PolyProof GeoProps MatProof MatProps DftModel DftSpec DftProps MklModel.
Import ListNotations.
Local Notation length := List.length.
Local Open Scope list_scope.
Local Open Scope Z_scope.

Section Loops.
Variable A : Type.
Lemma loop_ext : forall f g n i (m : mem A), (forall k m, f k m = g k m) -> loop A n i f m = loop A n i g m.
Proof. intros f g n. induction n; intros i m H; cbn [loop]; auto. rewrite H. destruct (g i m); cbn [obind]; auto. Qed.
Lemma unary_ext : forall mDim f g (m : mem A) i o, (forall a b m, f a b m = g a b m) -> unary_broadcast A mDim f m i o = unary_broadcast A mDim g m i o.
Proof.
  intros mDim f g m i o H. unfold unary_broadcast. destruct (dim i <? mDim); auto.
  destruct (if 0 <? dim i - mDim then stride i (dim i - mDim - 1) else size A m i) as [si| | |]; cbn [obind]; auto.
  destruct (if 0 <? dim o - mDim then stride o (dim o - mDim - 1) else size A m o) as [so| | |]; cbn [obind]; auto.
  destruct (size A m i) as [n| | |]; cbn [obind]; auto. destruct (idiv n si) as [c| | |]; cbn [obind]; auto.
  unfold for_to. apply loop_ext. intros k m'. destruct (imul si k); cbn [obind]; auto. destruct (imul so k); cbn [obind]; auto.
Qed.
Lemma same_cells : forall m m' : mem A, same_size A m m' -> (forall a j, cell m a j = cell m' a j) -> m = m'.
Proof.
  intros m m' [L S] H. apply (nth_ext _ _ [] []); [auto|]. intros a Ha. pose proof (S a) as La. unfold arr in La.
  assert (G : forall l l' : list A, length l' = length l -> (forall k, nth_error l k = nth_error l' k) -> l = l').
  { clear. induction l as [|x l IH]; intros [|y l'] E K; try discriminate; auto. pose proof (K O) as K0. injection K0 as <-. f_equal. apply IH; [injection E; auto|]. intros k. apply (K (S k)). }
  apply G; auto. intros k. specialize (H a (Z.of_nat k)). unfold cell in H. replace (Z.of_nat k <? 0) with false in H by lia. rewrite Nat2Z.id in H. exact H.
Qed.
Lemma upd_unique : forall (m m1 m2 : mem A) a (P : Z -> Prop) F, (forall j, P j \/ ~ P j) -> upd A m m1 a P F -> upd A m m2 a P F -> m1 = m2.
Proof.
  intros m m1 m2 a P F D (S1 & V1 & K1) (S2 & V2 & K2). apply same_cells.
  - eapply same_size_trans; [apply same_size_sym; exact S1|exact S2].
  - intros b j. destruct (Nat.eq_dec b a) as [->|N]; [|rewrite K1, K2 by auto; auto].
    destruct (D j) as [H|H]; [rewrite V1, V2 by auto|rewrite K1, K2 by auto]; auto.
Qed.

Lemma imatcopy_ok : forall (m : mem A) a p R C, 1 <= R -> 1 <= C -> 0 <= p -> p + R * C <= Z.of_nat (length (arr A m a)) ->
  exists m', imatcopy A R C a p C R m = Ok m' /\ upd A m m' a (fun j => p <= j < p + R * C) (fun j => cell m a (p + tpos R C (j - p))).
Proof.
  intros m a p R C HR HC Hp Hl. unfold imatcopy.
  apply for_blocks; [lia|lia|]. intros c m1 Hc U1.
  destruct (for_blocks A m1 a (p + R * c) 1 (fun j => cell m a (p + tpos R C (j - p))) (fun r m' => let* x := rd A m a (p + (r * C + c)) in wr A m' a (p + (c * R + r)) x) R) as (m2 & E2 & U2); [lia|lia| |].
  - intros r m2 Hr U2. rewrite rd_cell. destruct (cell_some A m a (p + (r * C + c))) as (x & Ex); [nia|]. rewrite Ex. cbn [obind].
    destruct (wr_upd A m2 a (p + (c * R + r)) x (fun j => cell m a (p + tpos R C (j - p)))) as (m3 & E3 & U3).
    + rewrite (upd_len _ _ _ _ _ _ _ U2), (upd_len _ _ _ _ _ _ _ U1). nia.
    + rewrite <- Ex. f_equal. f_equal. unfold tpos. replace (p + (c * R + r) - p) with (c * R + r) by lia. rewrite (md c R r), (dv c R r) by lia. lia.
    + exists m3. split; auto. eapply upd_ext; [|exact U3]. intros j. cbn beta. lia.
  - exists m2. split; auto. eapply upd_ext; [|exact U2]. intros j. cbn beta. lia.
Qed.
End Loops.

Section Transposes.
Variable A : Type.
(** A transposition gives the same array, and leaves the same memory, with either implementation. *)
Theorem C124_new : forall (z : A) fuel (m : mem A) i sh off, fits m i sh off -> transpose_new_mkl A z m i = transpose_new A z fuel m i.
Proof.
  intros z fuel m i sh off Hi. pose proof (fits_lt _ _ _ _ _ Hi) as Lt. unfold transpose_new_mkl, transpose_new.
  destruct (transpose_alloc A z m i) as [[m1 o]| | |] eqn:E; cbn [obind]; auto.
  assert (Ho : o_arr o = length m).
  { unfold transpose_alloc in E. rewrite (fits_shapes A m i _ _ Hi) in E. cbn [obind] in E. destruct (length sh <? 2)%nat; [discriminate|]. unfold alloc_view in E.
    match type of E with obind ?e _ = _ => destruct e as [n| | |]; cbn [obind] in E; try discriminate end. destruct (n <? 0); [discriminate|].
    unfold mkview in E. repeat match type of E with obind (obind ?e _) _ = _ => destruct e; cbn [obind] in E; try discriminate | context [if ?b then _ else _] => destruct b; cbn [obind] in E; try discriminate end.
    all: injection E as _ <-; reflexivity. }
  rewrite (unary_ext A 2 (transpose_vector_mkl A i o) (transpose_vector A fuel i o)); auto.
  intros x y m'. unfold transpose_vector_mkl, transpose_vector, is_same. rewrite Ho. replace (Nat.eqb (o_arr i) (length m)) with false by lia. reflexivity.
Qed.
Theorem C124_in_place : forall fuel (m : mem A) i r R C off, fits m i (r ++ [R; C]) off -> (Z.to_nat (R * C) <= fuel)%nat ->
  transpose_inplace_mkl A m i = transpose_inplace A fuel m i.
Proof.
  intros fuel m i r R C off Hi Hf. unfold transpose_inplace_mkl, transpose_inplace. pose proof (fits_prod _ _ _ _ _ Hi) as P.
  pose proof (fits_pos _ _ _ _ _ Hi) as Hpos. apply positive_app in Hpos. destruct Hpos as [Pr Pd]. pose proof (prod_pos _ Pr) as Pr1.
  inversion Pd as [|? ? HR X]; subst. inversion X as [|? ? HC _]; subst. clear X. rewrite prod_app, prod2 in P. unfold hsize in P.
  set (F := fun j => cell m (o_arr i) (off + ((j - off) / (R * C)) * (R * C) + tpos R C ((j - off) mod (R * C)))).
  assert (G : forall vector, (forall k m', 0 <= k < prod r -> upd A m m' (o_arr i) (fun j => off <= j < off + R * C * k) F ->
      exists m'', vector (R * C * k) (R * C * k) m' = Ok m'' /\
        upd A m' m'' (o_arr i) (fun j => off + R * C * k <= j < off + R * C * k + R * C) (fun j => cell m' (o_arr i) (off + R * C * k + tpos R C (j - (off + R * C * k))))) ->
    exists m', unary_broadcast A 2 vector m i i = Ok m' /\ upd A m m' (o_arr i) (fun j => off <= j < off + prod (r ++ [R; C])) F).
  { intros vector H. apply (unary_ok A 2 vector m i i r [R; C] [R; C] off off F); auto; [discriminate|].
    intros k m' Hk U. rewrite !prod2 in *. destruct (H k m' Hk U) as (m'' & E & U'). exists m''. split; auto. eapply upd_ext2; [|exact U']. intros j Hj. cbn beta. unfold F.
    assert (Em : (j - off) mod (R * C) = j - (off + R * C * k)) by (apply block_mod; [nia|lia]).
    assert (Ed : (j - off) / (R * C) = k) by (symmetry; apply (Z.div_unique _ _ k (j - (off + R * C * k))); lia).
    rewrite Em, Ed. rewrite (upd_in _ _ _ _ _ _ _ _ U).
    - f_equal. lia.
    - right. pose proof (tpos_range R C (j - (off + R * C * k)) HR HC). nia. }
  assert (Shape : forall m' f, fits m' i (r ++ [R; C]) off -> (let* rows := shape A m' i (dim i - 2) in let* cols := shape A m' i (dim i - 1) in f rows cols) = f R C :> outcome (mem A)).
  { intros m' f Fi'. rewrite (fits_dim _ _ _ _ _ Hi), app_length. cbn [length].
    rewrite !(fits_shape A m' i (r ++ [R; C]) off) by (auto; rewrite app_length; cbn [length]; lia). cbn [obind].
    replace (Z.to_nat (Z.of_nat (length r + 2) - 2)) with (length r) by lia. replace (Z.to_nat (Z.of_nat (length r + 2) - 1)) with (S (length r)) by lia.
    rewrite !app_nth2 by lia. rewrite Nat.sub_diag. replace (S (length r) - length r)%nat with 1%nat by lia. reflexivity. }
  destruct (G (transpose_vector_mkl A i i)) as (m1 & E1 & U1).
  { intros k m' Hk U. assert (Fi' : fits m' i (r ++ [R; C]) off) by (eapply same_fits; [apply U|auto]).
    unfold transpose_vector_mkl. rewrite (Shape m' _ Fi'), is_same_refl, (fits_offset _ _ _ _ _ Hi).
    apply imatcopy_ok; auto; [nia|rewrite (upd_len _ _ _ _ _ _ _ U); nia]. }
  destruct (G (transpose_vector A fuel i i)) as (m2 & E2 & U2).
  { intros k m' Hk U. assert (Fi' : fits m' i (r ++ [R; C]) off) by (eapply same_fits; [apply U|auto]).
    unfold transpose_vector. rewrite (Shape m' _ Fi'), is_same_refl, (fits_offset _ _ _ _ _ Hi).
    apply inPlace_ok; auto; [nia|nia|rewrite (upd_len _ _ _ _ _ _ _ U); nia]. }
  rewrite E1, E2. assert (m1 = m2) as -> by (apply (upd_unique A m m1 m2 _ _ _) with (2 := U1) (3 := U2); intros j; lia). reflexivity.
Qed.
(** So what is read of a transposed array is what C54 and C55 say. *)
Theorem C124_transposes : forall (z : A) (m : mem A) i r R C off, fits m i (r ++ [R; C]) off ->
  (exists m' o, transpose_new_mkl A z m i = Ok (m', o) /\ shapes A m' o = Ok (r ++ [C; R]) /\ kept m m' /\
     forall ir a b, in_range r ir -> 0 <= a < R -> 0 <= b < C -> shown m' o (ir ++ [b; a]) = shown m i (ir ++ [a; b])) /\
  exists m', transpose_inplace_mkl A m i = Ok (m', mkop (o_arr i) (Some (off :: dims (r ++ [C; R])))) /\ only m m' (o_arr i) off (prod (r ++ [R; C])) /\
    forall ir a b, in_range r ir -> 0 <= a < R -> 0 <= b < C ->
      shown m' (mkop (o_arr i) (Some (off :: dims (r ++ [C; R])))) (ir ++ [b; a]) = shown m i (ir ++ [a; b]).
Proof.
  intros z m i r R C off Hi. split.
  - rewrite (C124_new z 0 m i _ off Hi). apply (C54_transpose_new A z 0 m i r R C off Hi).
  - rewrite (C124_in_place (Z.to_nat (R * C)) m i r R C off Hi (Nat.le_refl _)).
    apply (C55_transpose_in_place A (Z.to_nat (R * C)) m i r R C off Hi (Nat.le_refl _)).
Qed.
End Transposes.
Example C124_example : fits m2 (v223 0) ([2] ++ [2; 3]) 0 /\ fits m2 (mkop 1 None) [6] 0 /\
  match transpose_new_mkl Z 0 m2 (v223 0) with Ok (m', o) => nth 3 m' [] = [0; 3; 1; 4; 2; 5; 6; 9; 7; 10; 8; 11] | _ => False end /\
  transpose_new_mkl Z 0 m2 (mkop 1 None) = Throw "Transpose::alloc: dimension < 2" /\
  match transpose_inplace_mkl Z m2 (v223 0) with Ok (m', o) => nth 0 m' [] = [0; 3; 1; 4; 2; 5; 6; 9; 7; 10; 8; 11] /\ o = mkop 0 (Some [0; 2; 6; 3; 2; 2; 1]) | _ => False end.
Proof. split; [fit|]. split; [fit|]. vm_compute. auto. Qed.

Section Dft.
Variable A : Type.
(** The sizes it takes: any, and real and complex numbers in either precision. *)
Inductive any_size : dtype -> bool -> Z -> Z -> Z -> dtype -> dtype -> Prop :=
| any_real_forward : forall n, 1 <= n -> any_size DFloat false n n (n / 2 + 1) DFloat DCFloat
| any_real_inverse : forall n, 1 <= n -> any_size DFloat true n (n / 2 + 1) n DCFloat DFloat
| any_double_forward : forall n, 1 <= n -> any_size DDouble false n n (n / 2 + 1) DDouble DCDouble
| any_double_inverse : forall n, 1 <= n -> any_size DDouble true n (n / 2 + 1) n DCDouble DDouble
| any_complex : forall inv n, 1 <= n -> any_size DCFloat inv n n n DCFloat DCFloat
| any_complex_double : forall inv n, 1 <= n -> any_size DCDouble inv n n n DCDouble DCDouble.
Lemma any_ctor : forall ty inv size rd w ti to, any_size ty inv size rd w ti to ->
  1 <= rd /\ 1 <= w /\ exists d, dft_ctor_mkl None size inv ty = Ok d /\ d_config d = true /\ d_in d = rd /\ d_oSize d = w /\ d_inverse d = inv /\
    (if inv then d_inverseType d else d_forward d) = ti /\ (if inv then d_forward d else d_inverseType d) = to.
Proof.
  intros ty inv size rd w ti to H. assert (Q : forall n, 1 <= n -> n ÷ 2 = n / 2 /\ 0 <= n / 2) by (intros n Hn; split; [apply Z.quot_div_nonneg; lia|apply Z.div_pos; lia]).
  destruct H as [n Hn|n Hn|n Hn|n Hn|inv n Hn|inv n Hn]; destruct (Q n Hn) as [Q1 Q2]; (split; [lia|split; [lia|]]); (eexists; split; [reflexivity|]);
    cbn [d_config d_in d_oSize d_inverse d_inverseType d_forward]; rewrite ?Q1; auto 10; destruct inv; auto 10.
Qed.
Lemma no_report : forall d tr i o x y (m : mem A), d_config d = true -> dft_vector_mkl A d (fun _ => None) tr i o x y m = dft_vector A d tr i o x y m.
Proof. intros d tr i o x y m H. unfold dft_vector_mkl, dft_vector. rewrite H. reflexivity. Qed.
Lemma no_report_new : forall d z tr div num ti (m : mem A) i, d_config d = true -> dft_new_mkl A d z (fun _ => None) tr div num ti m i = dft_new A d z tr div num ti m i.
Proof.
  intros d z tr div num ti m i H. unfold dft_new_mkl, dft_new. destruct (dft_alloc A d z m i) as [[m1 o]| | |]; cbn [obind]; auto.
  unfold dft_scalar_mkl, dft_scalar. rewrite (unary_ext A 1 (dft_vector_mkl A d (fun _ => None) tr i o) (dft_vector A d tr i o)); [reflexivity|]. intros. apply no_report. auto.
Qed.
(** C125: rows of any size are transformed, each into a row of a new array; of a row longer than the
    transform the first values are taken; the inverse is divided by the number of values. *)
Theorem C125_transform : forall z tr div num (m : mem A) i r n off ty inv size rd w ti to, fits m i (r ++ [n]) off -> any_size ty inv size rd w ti to -> rd <= n -> prod r * w <= INT_MAX ->
  (forall l, Z.of_nat (length l) = rd -> Z.of_nat (length (tr l)) = w) ->
  exists d m' o, dft_ctor_mkl None size inv ty = Ok d /\ dft_new_mkl A d z (fun _ => None) tr div num ti m i = Ok (m', o) /\ shapes A m' o = Ok (r ++ [w]) /\ kept m m' /\
    forall ir xs, in_range r ir -> Z.of_nat (length xs) = n -> row_is m i ir xs ->
      row_is m' o ir (scaled inv div (num w) (tr (firstn (Z.to_nat rd) xs))).
Proof.
  intros z tr div num m i r n off ty inv size rd w ti to Hi HS Hn Hmax HL. destruct (any_ctor _ _ _ _ _ _ _ HS) as (Hrd & Hw & d & Ec & Dc & Di & Do & Dv & Dti & Dto).
  pose proof (fits_prod _ _ _ _ _ Hi) as Fi. rewrite prod_app in Fi. cbn [prod] in Fi. unfold hsize in Fi.
  destruct (reads_on A d z tr div num m i r n off ti to inv rd w) as (m' & o & E2 & E3 & E4 & H); auto; [unfold arr in *; nia|].
  exists d, m', o. rewrite no_report_new by auto. do 4 (split; [assumption|]). intros ir xs Hir Hl Hrow. assert (Lf : length (firstn (Z.to_nat rd) xs) = Z.to_nat rd) by (rewrite firstn_length; lia).
  apply H; [auto|lia|]. intros k Hk. rewrite Lf in Hk. rewrite (row_cells A m i r n off ir xs) by (auto; lia).
  symmetry. rewrite <- (firstn_skipn (Z.to_nat rd) xs) at 2. rewrite nth_error_app1 by lia. reflexivity.
Qed.
(** Where both work they give the same. *)
Theorem C125_same : forall z tr div num (m : mem A) i ty inv size rd w ti, sizes ty inv size rd w ->
  exists d d', dft_ctor size inv ty = Ok d /\ dft_ctor_mkl None size inv ty = Ok d' /\
    dft_new_mkl A d' z (fun _ => None) tr div num ti m i = dft_new A d z tr div num ti m i.
Proof.
  intros z tr div num m i ty inv size rd w ti HS.
  assert (E : exists d, dft_ctor size inv ty = Ok d /\ dft_ctor_mkl None size inv ty = Ok d /\ d_config d = true).
  { destruct HS as [h Hh|h Hh|v n Hn]; (eexists; split; [reflexivity|]); cbn [dft_ctor_mkl dft_ctor obind d_config]; rewrite ?Z.even_mul; auto. }
  destruct E as (d & E1 & E2 & E3). exists d, d. split; auto. split; auto. apply no_report_new. auto.
Qed.
(** What the library reports against a row is thrown, and so is what it reports against the size. *)
Theorem C125_reports : forall z st tr div num (m : mem A) i r n off ty inv size rd w ti to k e, fits m i (r ++ [n]) off -> any_size ty inv size rd w ti to -> rd <= n -> prod r * w <= INT_MAX ->
  (forall l, Z.of_nat (length l) = rd -> Z.of_nat (length (tr l)) = w) -> 0 <= k < prod r ->
  (forall xs, Z.of_nat (length xs) = rd -> cells_are m (o_arr i) (off + n * k) xs -> st xs = Some e) ->
  (forall k' xs, 0 <= k' < k -> Z.of_nat (length xs) = rd -> cells_are m (o_arr i) (off + n * k') xs -> st xs = None) ->
  (exists d, dft_ctor_mkl None size inv ty = Ok d /\ dft_new_mkl A d z st tr div num ti m i = Throw e) /\
  forall e', dft_ctor_mkl (Some e') size inv ty = Throw e'.
Proof.
  intros z st tr div num m i r n off ty inv size rd w ti to k e Hi HS Hn Hmax HL Hk Hst Hok. split; [|intros e'; destruct HS; reflexivity].
  destruct (any_ctor _ _ _ _ _ _ _ HS) as (Hrd & Hw & d & Ec & Dc & Di & Do & Dv & Dti & Dto). exists d. split; auto.
  pose proof (fits_lt _ _ _ _ _ Hi) as Lt. pose proof (fits_pos _ _ _ _ _ Hi) as Hpos. apply positive_app in Hpos. destruct Hpos as [Pr Pd]. apply Forall_inv in Pd.
  destruct (alloc_view_ok A z m (r ++ [w])) as [EA FA]; [destruct r; discriminate|apply Forall_app; auto|rewrite prod_app; cbn [prod]; lia|].
  unfold dft_new_mkl, dft_alloc. rewrite (fits_shapes _ _ _ _ _ Hi). cbn [obind].
  rewrite app_length. cbn [length]. replace (length r + 1 - 1)%nat with (length r + 0)%nat by lia. rewrite firstn_app_2. cbn [firstn]. rewrite app_nil_r, Do. rewrite EA. cbn [obind].
  set (x := repeat z _) in *. set (o := mkop _ _) in *. assert (Fi : fits (m ++ [x]) i (r ++ [n]) off) by (apply fits_app; auto).
  unfold dft_scalar_mkl. rewrite Dv, Dti, Dto, !dtype_refl. cbn [negb].
  assert (EB : unary_broadcast A 1 (dft_vector_mkl A d st tr i o) (m ++ [x]) i o = Throw e); [|rewrite EB; reflexivity].
  pose proof (fits_prod _ _ _ _ _ Fi) as Pi. pose proof (fits_prod _ _ _ _ _ FA) as Po. rewrite prod_app in Pi, Po. cbn [prod] in Pi, Po. rewrite Z.mul_1_r in Pi, Po. unfold hsize in *.
  unfold unary_broadcast. replace (dim i <? 1) with false by (rewrite (fits_dim _ _ _ _ _ Hi), app_length; cbn [length]; lia).
  destruct (step_ok A (m ++ [x]) i r [n] off 1 Fi eq_refl) as [->|?]; [|discriminate]. cbn [obind].
  destruct (step_ok A (m ++ [x]) o r [w] 0 1 FA eq_refl) as [->|?]; [|discriminate]. cbn [obind prod]. rewrite !Z.mul_1_r.
  rewrite (fits_size _ _ _ _ _ Fi). cbn [obind]. rewrite prod_app. cbn [prod]. rewrite Z.mul_1_r. unfold idiv.
  destruct (n =? 0) eqn:E3; [lia|]. cbn [obind]. rewrite Z.quot_mul by lia. unfold for_to.
  (* every step before [k] keeps the input and the sizes *)
  set (body := fun (k : Z) (m0 : mem A) => _).
  assert (Row : forall q m', 0 <= q < prod r -> same_size A (m ++ [x]) m' -> (forall j, cell m' (o_arr i) j = cell m (o_arr i) j) ->
    exists xs, Z.of_nat (length xs) = rd /\ cells_are m (o_arr i) (off + n * q) xs /\
      body q m' = match st xs with Some e => Throw e | None => wr_row A m' (o_arr o) (w * q) (tr xs) end).
  { intros q m' Hq S' C'. pose proof (proj2 S' (o_arr i)) as Li. fold (arr A m' (o_arr i)) in Li. fold (arr A (m ++ [x]) (o_arr i)) in Li.
    assert (0 <= n * q <= n * (prod r - 1)) by nia. assert (0 <= w * q) by nia. assert (w * q + w <= prod r * w) by nia.
    destruct (vals_ok A m' (o_arr i) (Z.to_nat (d_in d)) (off + n * q)) as [V1 V2]; [lia|rewrite <- Li; lia|].
    exists (vals A m' (o_arr i) (off + n * q) (Z.to_nat (d_in d))). split; [rewrite V1; lia|]. split; [intros t Ht; rewrite <- C'; symmetry; apply V2; lia|].
    unfold body. rewrite imul_in by (apply in_int_small; nia). cbn [obind]. rewrite imul_in by (apply in_int_small; nia). cbn [obind].
    unfold dft_vector_mkl, is_same, o. cbn [o_arr]. replace (Nat.eqb (o_arr i) (length m)) with false by lia. cbn [andb].
    rewrite (fits_offset _ _ _ _ _ Hi). rewrite rd_row_ok by (rewrite <- ?Li; lia). cbn [obind]. reflexivity. }
  assert (L : forall c q m', 0 <= q -> q <= k -> (Z.to_nat (prod r) = c + Z.to_nat q)%nat -> same_size A (m ++ [x]) m' -> (forall j, cell m' (o_arr i) j = cell m (o_arr i) j) ->
    loop A c q body m' = Throw e).
  { induction c; intros q m' Hq Hqk Hc S' C'; [lia|]. cbn [loop]. destruct (Row q m' ltac:(lia) S' C') as (xs & Lx & Cx & ->).
    destruct (Z.eq_dec q k) as [->|Ne]; [rewrite (Hst xs Lx Cx); reflexivity|]. rewrite (Hok q xs ltac:(lia) Lx Cx).
    pose proof (proj2 S' (o_arr o)) as Lo. fold (arr A m' (o_arr o)) in Lo. fold (arr A (m ++ [x]) (o_arr o)) in Lo.
    assert (w * q + w <= prod r * w) by nia.
    destruct (wr_row_ok A (o_arr o) (tr xs) (w * q) m') as (m'' & E & U2); [nia|rewrite <- Lo, (HL xs Lx); lia|]. rewrite E. cbn [obind].
    apply IHc; try lia; [eapply same_size_trans; [exact S'|apply U2]|]. intros j. rewrite (upd_in _ _ _ _ _ _ _ _ U2); [auto|]. left. cbn [o o_arr]. lia. }
  apply L; try lia; [apply same_size_refl|]. intros j. apply cell_app_old. auto.
Qed.
(** The rest is as in C96: nothing is transformed in place, and types are asked for. *)
Theorem C125_refuses : forall st tr div num (m : mem A) i o r n off ty inv size rd w ti to t t', fits m i (r ++ [n]) off -> any_size ty inv size rd w ti to ->
  exists d, dft_ctor_mkl None size inv ty = Ok d /\
    (t <> ti -> dft_scalar_mkl A d st tr div num t t' m i o = Throw "DFTBase::scalar: wrong input type") /\
    (t' <> to -> dft_scalar_mkl A d st tr div num ti t' m i o = Throw "DFTBase::scalar: wrong output type") /\
    (ti = to -> dft_scalar_mkl A d st tr div num ti to m i i = Throw "DFTBase::vector(): not implemented").
Proof.
  intros st tr div num m i o r n off ty inv size rd w ti to t t' Hi HS. destruct (any_ctor _ _ _ _ _ _ _ HS) as (Hrd & Hw & d & Ec & Dc & Di & Do & Dv & Dti & Dto).
  exists d. split; auto. unfold dft_scalar_mkl. rewrite Dv, Dti, Dto, !dtype_refl. cbn [negb].
  assert (N : forall a b, a <> b -> dtype_eqb a b = false) by (intros [] []; cbn; congruence).
  split; [intros H; rewrite (N t ti H); reflexivity|]. split; [intros H; rewrite (N t' to H); reflexivity|]. intros _.
  pose proof (fits_pos _ _ _ _ _ Hi) as Hpos. apply positive_app in Hpos. destruct Hpos as [Pr Pd]. pose proof (prod_pos _ Pr). apply Forall_inv in Pd.
  unfold unary_broadcast. replace (dim i <? 1) with false by (rewrite (fits_dim _ _ _ _ _ Hi), app_length; cbn [length]; lia).
  destruct (step_ok A m i r [n] off 1 Hi eq_refl) as [->|?]; [|discriminate]. cbn [obind prod]. rewrite !Z.mul_1_r.
  rewrite (fits_size _ _ _ _ _ Hi). cbn [obind]. rewrite prod_app. cbn [prod]. rewrite Z.mul_1_r. unfold idiv.
  destruct (n =? 0) eqn:E3; [lia|]. cbn [obind]. rewrite Z.quot_mul by lia. unfold for_to. destruct (Z.to_nat (prod r)) eqn:En; [lia|]. cbn [loop].
  rewrite !imul_in by (rewrite Z.mul_0_r; reflexivity). cbn [obind]. rewrite !Z.mul_0_r. unfold dft_vector_mkl at 1. rewrite is_same_refl. reflexivity.
Qed.
End Dft.
(** Two rows of three doubles through a transform of size three, which kiss has not; then a library
    that refuses rows with a 5 in them. *)
Definition demo_three (l : list Z) : list Z := match l with [a; b; c] => [a + b + c; a - b] | _ => [0; 0] end.
Example C125_example : let m := [[1; 2; 3; 4; 5; 6]] in let i := mkop 0 (Some [0; 2; 3; 3; 1]) in
  fits m i ([2] ++ [3]) 0 /\ any_size DDouble false 3 3 2 DDouble DCDouble /\
  (let* d := dft_ctor_mkl None 3 false DDouble in dft_new_mkl Z d 0 (fun _ => None) demo_three Z.div (fun k => k) DDouble m i) = Ok (m ++ [[6; -1; 15; -1]], mkop 1 (Some [0; 2; 2; 2; 1])) /\
  (let* d := dft_ctor_mkl None 3 false DDouble in
     dft_new_mkl Z d 0 (fun l => if existsb (Z.eqb 5) l then Some "no fives"%string else None) demo_three Z.div (fun k => k) DDouble m i) = Throw "no fives" /\
  (let* d := dft_ctor 3 false DFloat in dft_new Z d 0 demo_three Z.div (fun k => k) DFloat m i) = UB NullDeref.
Proof. split; [fit|]. split; [apply (any_double_forward 3); lia|]. vm_compute. auto. Qed.

Print Assumptions C124_new.
Print Assumptions C124_in_place.
Print Assumptions C125_transform.
Print Assumptions C125_reports.
