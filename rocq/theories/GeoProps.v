(** Views, broadcasting and array functions: C48-C50, C52-C57 and C62-C69. *)
From Coq Require Import ZArith Bool List Lia ZifyBool Ring_theory String.
From Verif Require Import Base StrModel StrProof GeoModel GeoSpec GeoProof FunProof CycleProof PolyProof.
Import ListNotations.
Local Notation length := List.length.
Local Open Scope list_scope.
Local Open Scope Z_scope.

Lemma mkview_inv : forall A (m : mem A) o sh k v, mkview A m o sh k = Ok v ->
  sh <> [] /\ o_arr v = o_arr o /\ o_ip v = Some ((offset o + k) :: dims sh) /\ prod sh + (offset o + k) <= hsize A m o.
Proof.
  intros A m o sh k v H. unfold mkview in H. destruct (view_ctor _ _ _ _) as [ip| | |] eqn:E; try discriminate. cbn [obind] in H.
  apply view_ctor_ok in E. destruct E as (H1 & -> & H3). inversion H. cbn [o_arr o_ip]. auto.
Qed.
Lemma accepted : forall A (m : mem A) o sh k v, mkview A m o sh k = Ok v -> positive sh -> 0 <= offset o + k -> hsize A m o <= INT_MAX ->
  fits m v sh (offset o + k).
Proof.
  intros A m o sh k v H Hp Ho Hi. apply mkview_inv in H. destruct H as (H1 & H2 & H3 & H4).
  split; [auto|]. split; [auto|]. split; [auto|]. rewrite H2. unfold hsize, arr in *. split; [lia|auto].
Qed.

(** * C48 *)
Theorem C48_view_indexing : forall A (m : mem A) o sh k v, mkview A m o sh k = Ok v -> positive sh -> 0 <= offset o + k -> hsize A m o <= INT_MAX ->
  (forall idx, in_range sh idx ->
     paren A m v idx = Ok (offset o + k + place sh idx) /\ 0 <= offset o + k + place sh idx < Z.of_nat (length (nth (o_arr o) m []))) /\
  (forall i j, in_range sh i -> in_range sh j -> paren A m v i = paren A m v j -> i = j) /\
  (forall c, offset o + k <= c < offset o + k + prod sh -> exists idx, in_range sh idx /\ paren A m v idx = Ok c) /\
  (forall d, 0 <= d < Z.of_nat (length sh) -> shape A m v d = Ok (nth (Z.to_nat d) sh 0) /\ stride v d = Ok (prod (skipn (S (Z.to_nat d)) sh))).
Proof.
  intros A m o sh k v H Hp Ho Hi. pose proof (accepted _ _ _ _ _ _ H Hp Ho Hi) as F. pose proof (fits_prod _ _ _ _ _ F) as P.
  apply mkview_inv in H. destruct H as (_ & Ha & _ & _). unfold hsize, arr in *. rewrite Ha in P.
  split; [|split; [|split]].
  - intros idx Hr. pose proof (place_range _ _ Hr). split; [apply (paren_in A m v sh); auto|lia].
  - intros i j Hri Hrj E. rewrite (paren_in A m v sh _ i F Hri), (paren_in A m v sh _ j F Hrj) in E.
    apply (place_inj sh); auto. inversion E. lia.
  - intros c Hc. destruct (place_onto sh (c - (offset o + k)) Hp) as (idx & Hr & Hpl); [lia|]. exists idx. split; auto.
    rewrite (paren_in A m v sh _ idx F Hr). f_equal. lia.
  - intros d Hd. split; [apply (fits_shape A m v sh _ d F Hd)|apply (fits_stride A m v sh _ d F Hd)].
Qed.
(** Out of range: an exception, unless the first index times its stride is not an int,
    which is computed before the check. *)
Theorem C48_out_of_range : forall A (m : mem A) o sh k v idx, mkview A m o sh k = Ok v -> positive sh -> 0 <= offset o + k -> hsize A m o <= INT_MAX ->
  length idx = length sh -> ~ in_range sh idx ->
  (INT_MIN <= hd 0 idx * prod (tl sh) <= INT_MAX -> exists msg, paren A m v idx = Throw msg) /\
  (~ INT_MIN <= hd 0 idx * prod (tl sh) <= INT_MAX -> paren A m v idx = UB SignedOverflow).
Proof.
  intros A m o sh k v idx H Hp Ho Hi Hl Hr. pose proof (accepted _ _ _ _ _ _ H Hp Ho Hi) as F.
  pose proof (paren_out A m v sh _ idx F Hl Hr) as X. unfold in_int in X. split; intros B.
  - destruct ((INT_MIN <=? _) && (_ <=? INT_MAX)) eqn:E; [auto|lia].
  - destruct ((INT_MIN <=? _) && (_ <=? INT_MAX)) eqn:E; [lia|auto].
Qed.
(** A 2 x 3 view at offset 4 of an array of twelve. *)
Definition m12 : mem Z := [[0; 1; 2; 3; 4; 5; 6; 7; 8; 9; 10; 11]].
Definition v23 : opd := mkop 0 (Some [4; 2; 3; 3; 1]).
Example C48_ex : mkview Z m12 (mkop 0 None) [2; 3] 4 = Ok v23 /\ positive [2; 3] /\ 0 <= offset (mkop 0 None) + 4 /\ hsize Z m12 (mkop 0 None) <= INT_MAX /\
  in_range [2; 3] [1; 2] /\ ~ in_range [2; 3] [1; 3] /\ ~ in_range [2; 3] [2000000000; 0] /\
  paren Z m12 v23 [1; 2] = Ok 9 /\ paren Z m12 v23 [1; 3] = Throw "var::bounds()" /\ paren Z m12 v23 [2000000000; 0] = UB SignedOverflow.
Proof.
  split; [reflexivity|]. split; [repeat constructor; lia|]. split; [vm_compute; discriminate|]. split; [vm_compute; discriminate|].
  split; [repeat constructor; lia|].
  split; [intros H; inversion H as [|? ? ? ? ? X]; inversion X; lia|]. split; [intros H; inversion H; lia|]. repeat split.
Qed.

(** * C49 *)
Theorem C49_view_inside : forall A (m : mem A) o sh k v, mkview A m o sh k = Ok v ->
  Forall (fun d => 0 <= d) sh -> 0 <= offset o + k ->
  offset v = offset o + k /\ offset v + prod sh <= Z.of_nat (length (nth (o_arr v) m [])) /\ 0 <= prod sh.
Proof.
  intros A m o sh k v H Hp Ho. apply mkview_inv in H. destruct H as (H1 & H2 & H3 & H4). 
  assert (E : offset v = offset o + k) by (unfold offset at 1; rewrite H3; reflexivity). rewrite E, H2. unfold hsize, arr in H4.
  split; auto. split; [lia|]. apply prod_nonneg. auto.
Qed.
Theorem C49_fitting_accepted : forall A (m : mem A) o sh k, sh <> [] -> positive sh -> 0 <= offset o + k -> offset o + k + prod sh <= hsize A m o -> hsize A m o <= INT_MAX ->
  mkview A m o sh k = Ok (mkop (o_arr o) (Some ((offset o + k) :: dims sh))).
Proof. intros A m o sh k Hne Hp Ho Hs Hi. unfold mkview. rewrite view_ctor_run by (auto; lia). reflexivity. Qed.
Theorem C49_too_large_throws : forall A (m : mem A) o sh k, sh <> [] -> positive sh -> 0 <= offset o + k -> hsize A m o < offset o + k + prod sh ->
  offset o + k + prod sh <= INT_MAX ->
  mkview A m o sh k = Throw "View::setStrides(): Array too small for view".
Proof.
  intros A m o sh k Hne Hp Ho Hs Hi. pose proof (prod_pos _ Hp). unfold mkview, view_ctor.
  rewrite iadd_in by (apply in_int_small; lia). cbn [obind]. unfold setStrides.
  destruct (Z.of_nat (length sh) <? 1) eqn:El; [destruct sh; [congruence|cbn [length] in El; lia]|].
  rewrite fill_dims_nil. destruct (strides_loop_run sh [] (offset o + k)) as (ip & p & E); [rewrite app_nil_r; auto|rewrite app_nil_r; lia|].
  change 1 with (prod []) at 1. rewrite E. cbn [obind]. apply strides_loop_ok in E. rewrite app_nil_r in E. destruct E as [-> ->].
  cbn [nth]. rewrite iadd_in by (apply in_int_small; lia). cbn [obind].
  destruct (hsize A m o <? prod sh + (offset o + k)) eqn:Eh; [auto|lia].
Qed.
(** Moving a view keeps it inside when the new offset is not negative. *)
Theorem C49_set_offset : forall hs sh old k ip, positive sh -> sh <> [] -> prod sh <= INT_MAX -> 0 <= k ->
  set_offset hs (old :: dims sh) k = Ok ip -> ip = k :: dims sh /\ k + prod sh <= hs.
Proof.
  intros hs sh old k ip Hp Hne Hi Hk H. pose proof (prod_pos _ Hp). unfold set_offset in H. rewrite v_size_dims in H by (auto; apply in_int_small; lia). cbn [obind] in H.
  destruct (iadd k (prod sh)) as [e| | |] eqn:E; try discriminate. cbn [obind] in H. unfold iadd in E. destruct (in_int (k + prod sh)); inversion E; subst.
  destruct (hs <? k + prod sh) eqn:X; inversion H. split; [reflexivity|lia].
Qed.
(** Any negative offset is accepted; the first element is then a cell before the array. *)
Theorem C49_negative_offset_refuted : forall A (m : mem A) a sh k, positive sh -> sh <> [] -> prod sh <= Z.of_nat (length (nth a m [])) <= INT_MAX ->
  INT_MIN <= k < 0 -> exists v, mkview A m (mkop a None) sh k = Ok v /\ paren A m v (map (fun _ => 0) sh) = Ok k.
Proof.
  intros A m a sh k Hp Hne Hs Hk. pose proof (prod_pos _ Hp) as P1. exists (mkop a (Some (k :: dims sh))).
  assert (V : mkview A m (mkop a None) sh k = Ok (mkop a (Some (k :: dims sh)))).
  { unfold mkview. cbn [offset o_ip o_arr]. unfold view_ctor. cbn [offset]. change (offset (mkop a None)) with 0.
    rewrite iadd_in by (unfold in_int, INT_MIN, INT_MAX in *; lia). cbn [obind]. unfold setStrides.
    destruct (Z.of_nat (length sh) <? 1) eqn:El; [destruct sh; [congruence|cbn [length] in El; lia]|].
    rewrite fill_dims_nil. destruct (strides_loop_run sh [] (0 + k)) as (ip & p & E); [rewrite app_nil_r; auto|rewrite app_nil_r; lia|].
    change 1 with (prod []) at 1. rewrite E. cbn [obind]. apply strides_loop_ok in E. rewrite app_nil_r in E. destruct E as [-> ->].
    cbn [nth]. rewrite iadd_in by (unfold in_int, INT_MIN, INT_MAX in *; lia). cbn [obind].
    unfold hsize, arr. cbn [o_arr]. destruct (Z.of_nat (length (nth a m [])) <? prod sh + (0 + k)) eqn:Eh; [lia|auto]. }
  split; auto.
  set (v := mkop a (Some (k :: dims sh))).
  assert (Sh : forall d, 0 <= d < Z.of_nat (length sh) -> bounds A m v d 0 = Ok tt /\ exists s, stride v d = Ok s).
  { intros d Hd. split.
    - unfold bounds, shape. replace (d <? 0) with false by lia. cbn [v o_ip]. unfold v. cbn [o_ip]. rewrite v_shape_dims by auto. cbn [obind].
      assert (1 <= nth (Z.to_nat d) sh 0). { unfold positive in Hp. rewrite Forall_forall in Hp. apply Hp. apply nth_In. lia. }
      replace ((0 <? 0) || (nth (Z.to_nat d) sh 0 <=? 0)) with false by lia. auto.
    - unfold stride, v. cbn [o_ip]. rewrite v_stride_dims by auto. eauto. }
  assert (Dim : dim v = Z.of_nat (length sh)) by (unfold dim, v; cbn [o_ip]; apply v_dim_dims).
  destruct sh as [|d0 sh]; [congruence|]. unfold paren. cbn [map].
  destruct (Sh 0) as [B [s Es]]; [cbn [length]; lia|]. rewrite Es. cbn [obind]. unfold imul at 1. rewrite Z.mul_0_l. cbn [in_int]. change (in_int 0) with true. cbn [obind].
  rewrite B. cbn [obind]. rewrite Dim. cbn [length]. rewrite Nat2Z.id. replace (S (length sh) - 1)%nat with (length sh) by lia.
  assert (Lp : forall n l (d : nat), length l = n -> (d + n = S (length sh))%nat -> paren_loop A m v n (Z.of_nat d) (map (fun _ : Z => 0) l) 0 = Ok 0).
  { induction n; intros l d Hl Hd; [reflexivity|]. destruct l; [discriminate|]. cbn [paren_loop map].
    destruct (Sh (Z.of_nat d)) as [B' [s' Es']]; [cbn [length]; lia|]. rewrite B', Es'. cbn [obind].
    unfold imul. rewrite Z.mul_0_l. change (in_int 0) with true. cbn [obind]. change (iadd 0 0) with (Ok 0). cbn [obind].
    replace (Z.of_nat d + 1) with (Z.of_nat (S d)) by lia. apply IHn; [simpl in Hl; lia|lia]. }
  change 1 with (Z.of_nat 1). rewrite Lp by auto. cbn [obind]. unfold offset, v. cbn [o_ip v_offset nth]. unfold v_offset. cbn [nth].
  rewrite iadd_in by (unfold in_int, INT_MIN, INT_MAX in *; lia). f_equal.
Qed.
(** With a negative dimension the size itself is negative. *)
Theorem C49_negative_shape_refuted : exists (m : mem Z) v, mkview Z m (mkop 0 None) [-5] 2 = Ok v /\ size Z m v = Ok (-5).
Proof. exists m12, (mkop 0 (Some [2; -5; 1])). split; reflexivity. Qed.
Example C49_ex : mkview Z m12 (mkop 0 None) [2; 0] 4 = Ok (mkop 0 (Some [4; 2; 0; 0; 1])) /\ mkview Z m12 (mkop 0 None) [4; 3] 0 = Ok (mkop 0 (Some [0; 4; 3; 3; 1])) /\
  mkview Z m12 (mkop 0 None) [4; 3] 1 = Throw "View::setStrides(): Array too small for view" /\
  set_offset 12 (4 :: dims [2; 3]) 6 = Ok (6 :: dims [2; 3]) /\ (exists e, set_offset 12 (4 :: dims [2; 3]) 7 = Throw e) /\
  mkview Z m12 (mkop 0 None) [2; 3] (-4) = Ok (mkop 0 (Some [-4; 2; 3; 3; 1])).
Proof. repeat split. eexists. reflexivity. Qed.

(** * C50 *)
Theorem C50_view_of_view : forall A (m : mem A) o sh k v sh2 k2 w, mkview A m o sh k = Ok v -> mkview A m v sh2 k2 = Ok w ->
  o_arr w = o_arr o /\ offset w = offset o + k + k2 /\
  (positive sh -> positive sh2 -> 0 <= offset o + k -> 0 <= offset o + k + k2 -> hsize A m o <= INT_MAX ->
   forall i j, in_range sh i -> in_range sh2 j -> place sh i = k2 + place sh2 j ->
     paren A m w j = paren A m v i /\ shown m w j = shown m v i).
Proof.
  intros A m o sh k v sh2 k2 w H1 H2. pose proof (mkview_inv _ _ _ _ _ _ H1) as (N1 & A1 & I1 & P1). pose proof (mkview_inv _ _ _ _ _ _ H2) as (N2 & A2 & I2 & P2).
  assert (Ov : offset v = offset o + k) by (unfold offset; rewrite I1; reflexivity). rewrite Ov in *.
  split; [congruence|]. split; [unfold offset at 1; rewrite I2; reflexivity|].
  intros Hp Hp2 Ho Ho2 Hi i j Hri Hrj E.
  pose proof (accepted _ _ _ _ _ _ H1 Hp Ho Hi) as F1.
  assert (F2 : fits m w sh2 (offset o + k + k2)).
  { rewrite <- Ov in *. apply accepted; auto. unfold hsize in *. rewrite A1. auto. }
  assert (P : paren A m w j = paren A m v i).
  { rewrite (paren_in A m v sh _ i F1 Hri), (paren_in A m w sh2 _ j F2 Hrj). f_equal. lia. }
  split; auto. unfold shown. rewrite P, A2. auto.
Qed.
(** A subview keeps the trailing dimensions. *)
Theorem C50_subview : forall A (m : mem A) v r d off ir, fits m v (r ++ d) off -> d <> [] -> in_range r ir ->
  exists w, subview A m v (Z.of_nat (length d)) (place r ir * prod d) = Ok w /\ shapes A m w = Ok d /\
    forall id, in_range d id -> shown m w id = shown m v (ir ++ id).
Proof.
  intros A m v r d off ir F Hd Hr. pose proof (fits_prod _ _ _ _ _ F) as P. pose proof (place_range _ _ Hr) as R. rewrite prod_app in P.
  pose proof (fits_pos _ _ _ _ _ F) as Ps. apply positive_app in Ps. destruct Ps as [Pr Pd]. pose proof (prod_pos _ Pd).
  destruct (mkview_fits A m v (r ++ d) off d (place r ir * prod d) F) as [E1 E2]; auto; try nia.
  eexists. split; [|split].
  - unfold subview. replace (Z.of_nat (length d) <? 1) with false by (destruct d; [congruence|cbn [length]; lia]).
    rewrite (fits_shapes A m v _ _ F). cbn [obind]. rewrite (fits_dim A m v _ _ F), app_length.
    replace (Z.to_nat (Z.of_nat (length r + length d) - Z.of_nat (length d))) with (length r) by lia. rewrite skipn_app_len. exact E1.
  - eapply fits_shapes. exact E2.
  - intros id Hid. rewrite (shown_in A m _ d _ id E2 Hid). rewrite (shown_in A m v (r ++ d) off (ir ++ id) F) by (apply Forall2_app; auto).
    cbn [o_arr]. f_equal. rewrite place_app by (apply in_range_length; auto). lia.
Qed.
(** The check is against the array: the inner view may show cells the outer does not. *)
Theorem C50_inner_may_exceed_outer : exists (m : mem Z) v w, mkview Z m (mkop 0 None) [2] 1 = Ok v /\ mkview Z m v [3] 1 = Ok w /\
  shown m w [2] = Some 4 /\ forall i, in_range [2] [i] -> shown m v [i] <> Some 4.
Proof.
  exists m12, (mkop 0 (Some [1; 2; 1])), (mkop 0 (Some [2; 3; 1])). split; [reflexivity|]. split; [reflexivity|]. split; [reflexivity|].
  intros i H. inversion H as [|? ? ? ? Hi]; subst. assert (C : i = 0 \/ i = 1) by lia. destruct C as [-> | ->]; vm_compute; discriminate.
Qed.
Example C50_ex : mkview Z m12 v23 [3] 2 = Ok (mkop 0 (Some [6; 3; 1])) /\ in_range [2; 3] [1; 0] /\ in_range [3] [1] /\ place [2; 3] [1; 0] = 2 + place [3] [1] /\
  shown m12 (mkop 0 (Some [6; 3; 1])) [1] = shown m12 v23 [1; 0] /\ fits m12 v23 ([2] ++ [3]) 4 /\ in_range [2] [1].
Proof.
  split; [reflexivity|]. split; [repeat constructor; lia|]. split; [repeat constructor; lia|]. split; [reflexivity|]. split; [reflexivity|].
  split; [|repeat constructor; lia]. split; [discriminate|]. split; [repeat constructor; lia|]. split; [lia|]. split; [vm_compute; split; discriminate|]. right. reflexivity.
Qed.

(** * C52 *)
Lemma upd_new_kept : forall A (m : mem A) x m' S F, upd A (m ++ [x]) m' (length m) S F -> kept m m'.
Proof. intros A m x m' S F U b j Hb. rewrite (upd_in _ _ _ _ _ _ _ _ U) by lia. apply cell_app_old. auto. Qed.
Theorem C52_elementwise_new : forall A (z : A) f g (m : mem A) i sh off, (forall x, f x = Ok (g x)) -> fits m i sh off ->
  exists m' o, unary_new A z f m i = Ok (m', o) /\ shapes A m' o = shapes A m i /\ kept m m' /\
    forall idx, in_range sh idx -> shown m' o idx = option_map g (shown m i idx).
Proof.
  intros A z f g m i sh off Hf Hi. pose proof (fits_lt _ _ _ _ _ Hi) as Lt.
  destruct (alloc_like_ok A z m i sh off Hi) as (Fo & Fi & Ea & _). unfold unary_new. cbn [alloc_like] in *. unfold alloc_like in *. cbn [fst snd o_arr] in *.
  set (o := mkop (length m) (o_ip i)) in *. set (m1 := m ++ [repeat z (length (arr A m (o_arr i)))]) in *.
  destruct (unary0_ok A f g m1 i o sh off off Hf Fi Fo) as (m' & E & U); [left; cbn [o o_arr]; lia|]. rewrite E. cbn [obind].
  assert (Fo' : fits m' o sh off) by (eapply same_fits; [apply U|auto]).
  exists m', o. split; auto. split; [rewrite (fits_shapes A m' o sh off), (fits_shapes A m i sh off); auto|]. split; [eapply upd_new_kept; exact U|].
  intros idx Hr. pose proof (place_range _ _ Hr). rewrite (shown_in A m' o sh off), (shown_in A m i sh off) by auto.
  destruct U as (_ & U & _). rewrite U by lia. f_equal. unfold m1. rewrite cell_app_old by auto. f_equal. lia.
Qed.
Theorem C52_elementwise_inplace : forall A f g (m : mem A) i sh off, (forall x, f x = Ok (g x)) -> fits m i sh off ->
  exists m', unary_broadcast0 A f m i i = Ok m' /\ shapes A m' i = shapes A m i /\ only m m' (o_arr i) off (prod sh) /\
    forall idx, in_range sh idx -> shown m' i idx = option_map g (shown m i idx).
Proof.
  intros A f g m i sh off Hf Hi. destruct (unary0_ok A f g m i i sh off off Hf Hi Hi) as (m' & E & U); [lia|].
  assert (F' : fits m' i sh off) by (eapply same_fits; [apply U|auto]).
  exists m'. split; auto. split; [rewrite (fits_shapes A m' i sh off), (fits_shapes A m i sh off); auto|]. split; [eapply upd_only; exact U|].
  intros idx Hr. pose proof (place_range _ _ Hr). rewrite (shown_in A m' i sh off), (shown_in A m i sh off) by auto.
  destruct U as (_ & U & _). rewrite U by lia. f_equal. f_equal. lia.
Qed.
(** A function the element type does not support throws on a non-empty array and does
    nothing to an empty one. *)
Theorem C52_unsupported : forall A (f : A -> outcome A) msg (m : mem A) i sh off, (forall x, f x = Throw msg) -> fits m i sh off ->
  unary_broadcast0 A f m i i = Throw msg.
Proof.
  intros A f msg m i sh off Hf Hi. pose proof (fits_prod _ _ _ _ _ Hi) as P. unfold unary_broadcast0. rewrite (fits_size _ _ _ _ _ Hi). cbn [obind]. unfold for_to.
  destruct (Z.to_nat (prod sh)) as [|n] eqn:E; [lia|]. cbn [loop]. rewrite rd_cell, (fits_offset _ _ _ _ _ Hi).
  destruct (fits_cell A m i sh off 0 Hi) as (x & ->); [lia|]. cbn [obind]. rewrite Hf. auto.
Qed.
Example C52_ex : (forall x : Z, (fun x => Ok (x * x)) x = Ok (x * x)) /\ fits m12 v23 [2; 3] 4 /\
  match unary_new Z 0 (fun x => Ok (x * x)) m12 v23 with Ok (m', o) => shown m' o [1; 1] = Some 64 /\ shown m' v23 [1; 1] = Some 8 | _ => False end.
Proof. split; [reflexivity|]. split; [apply C50_ex|]. vm_compute. auto. Qed.

(** * C53 *)
Lemma bcast_shown : forall A (m m' : mem A) f l x r d offl offx, fits m l (r ++ d) offl -> fits m x d offx ->
  upd A m m' (o_arr l) (fun j => offl <= j < offl + prod (r ++ d)) (bcast A m f (o_arr l) offl (o_arr x) offx (prod d)) ->
  only m m' (o_arr l) offl (prod (r ++ d)) /\ shapes A m' l = shapes A m l /\
  forall ir id, in_range r ir -> in_range d id -> shown m' l (ir ++ id) = lift2 f (shown m l (ir ++ id)) (shown m x id).
Proof.
  intros A m m' f l x r d offl offx Hl Hx U.
  assert (F' : fits m' l (r ++ d) offl) by (eapply same_fits; [apply U|auto]).
  split; [eapply upd_only; exact U|]. split; [rewrite (fits_shapes A m' l _ _ F'), (fits_shapes A m l _ _ Hl); auto|].
  intros ir id Hir Hid. assert (Hr : in_range (r ++ d) (ir ++ id)) by (apply Forall2_app; auto). pose proof (place_range _ _ Hr).
  pose proof (place_range _ _ Hid).
  rewrite (shown_in A m' l _ _ _ F' Hr), (shown_in A m l _ _ _ Hl Hr), (shown_in A m x _ _ _ Hx Hid).
  destruct U as (_ & U & _). rewrite U by lia. unfold bcast. f_equal. f_equal.
  rewrite place_app by (apply in_range_length; auto).
  replace (offl + (place r ir * prod d + place d id) - offl) with (place r ir * prod d + place d id) by lia. rewrite md by lia. auto.
Qed.
(** [l += x] and [l -= x]; [f] is the addition or subtraction of the element type. *)
Theorem C53_add_sub_broadcast : forall A (f : A -> A -> A) (m : mem A) l x r d offl offx, fits m l (r ++ d) offl -> fits m x d offx -> d <> [1] ->
  apart l x offl offx (prod (r ++ d)) (prod d) ->
  exists m', addsub_inplace A f m l (Arr A x) = Ok m' /\ only m m' (o_arr l) offl (prod (r ++ d)) /\ shapes A m' l = shapes A m l /\
    forall ir id, in_range r ir -> in_range d id -> shown m' l (ir ++ id) = lift2 f (shown m l (ir ++ id)) (shown m x id).
Proof.
  intros A f m l x r d offl offx Hl Hx Hd Ha. destruct (addsub_ok A f m l x r d offl offx Hl Hx Hd Ha) as (m' & E & U).
  exists m'. split; auto. eapply bcast_shown; eauto.
Qed.
Theorem C53_mul_broadcast : forall A (mul : A -> A -> A) (m : mem A) l x r d offl offx, fits m l (r ++ d) offl -> fits m x d offx -> d <> [1] ->
  apart l x offl offx (prod (r ++ d)) (prod d) ->
  exists m', mul_broadcast A mul m l (Arr A x) l = Ok m' /\ only m m' (o_arr l) offl (prod (r ++ d)) /\ shapes A m' l = shapes A m l /\
    forall ir id, in_range r ir -> in_range d id -> shown m' l (ir ++ id) = lift2 (fun a b => mul b a) (shown m l (ir ++ id)) (shown m x id).
Proof.
  intros A mul m l x r d offl offx Hl Hx Hd Ha. destruct (mul_ok A mul m l x r d offl offx Hl Hx Hd Ha) as (m' & E & U).
  exists m'. split; auto. eapply bcast_shown; eauto.
Qed.
Theorem C53_set_broadcast : forall A (m : mem A) l x r d offl offx, fits m l (r ++ d) offl -> fits m x d offx -> d <> [1] ->
  apart l x offl offx (prod (r ++ d)) (prod d) ->
  exists m', set_inplace A m l (Arr A x) = Ok m' /\ only m m' (o_arr l) offl (prod (r ++ d)) /\ shapes A m' l = shapes A m l /\
    forall ir id, in_range r ir -> in_range d id -> shown m' l (ir ++ id) = shown m x id.
Proof.
  intros A m l x r d offl offx Hl Hx Hd Ha. destruct (set_ok A m l x r d offl offx Hl Hx Hd Ha) as (m' & E & U).
  exists m'. split; auto. destruct (bcast_shown A m m' _ l x r d offl offx Hl Hx U) as (B1 & B2 & B3). split; auto. split; auto.
  intros ir id Hir Hid. rewrite B3 by auto. assert (Hr : in_range (r ++ d) (ir ++ id)) by (apply Forall2_app; auto).
  rewrite (shown_in A m l _ _ _ Hl Hr). pose proof (place_range _ _ Hr).
  destruct (fits_cell A m l _ _ (place (r ++ d) (ir ++ id)) Hl) as (y & ->); [lia|]. destruct (shown m x id); auto.
Qed.
(** Scalars on the right combine with every cell. *)
Theorem C53_scalar : forall A (f mul : A -> A -> A) (m : mem A) l x sh off, fits m l sh off ->
  (exists m', addsub_inplace A f m l (Scal A x) = Ok m' /\ only m m' (o_arr l) off (prod sh) /\
     forall idx, in_range sh idx -> shown m' l idx = option_map (fun a => f a x) (shown m l idx)) /\
  (exists m', mul_broadcast A mul m l (Scal A x) l = Ok m' /\ only m m' (o_arr l) off (prod sh) /\
     forall idx, in_range sh idx -> shown m' l idx = option_map (fun a => mul x a) (shown m l idx)).
Proof.
  intros A f mul m l x sh off Hl. split.
  - destruct (arith_scal_ok A f (axpy_vector A f l l) m l x sh off Hl) as (m' & E & U). exists m'. split; auto. split; [eapply upd_only; exact U|].
    assert (F' : fits m' l sh off) by (eapply same_fits; [apply U|auto]).
    intros idx Hr. pose proof (place_range _ _ Hr). rewrite (shown_in A m' l _ _ _ F' Hr), (shown_in A m l _ _ _ Hl Hr). destruct U as (_ & U & _). apply U. lia.
  - destruct (mul_scal_ok A mul m l x sh off Hl) as (m' & E & U). exists m'. split; auto. split; [eapply upd_only; exact U|].
    assert (F' : fits m' l sh off) by (eapply same_fits; [apply U|auto]).
    intros idx Hr. pose proof (place_range _ _ Hr). rewrite (shown_in A m' l _ _ _ F' Hr), (shown_in A m l _ _ _ Hl Hr). destruct U as (_ & U & _). apply U. lia.
Qed.
(** Out of place multiplication. *)
Theorem C53_mul_new : forall A (mul : A -> A -> A) (m : mem A) l x o r d offl offx offo, fits m l (r ++ d) offl -> fits m x d offx -> fits m o (r ++ d) offo ->
  d <> [1] -> o_arr o <> o_arr l -> o_arr o <> o_arr x ->
  exists m', mul_broadcast A mul m l (Arr A x) o = Ok m' /\ only m m' (o_arr o) offo (prod (r ++ d)) /\
    forall ir id, in_range r ir -> in_range d id -> shown m' o (ir ++ id) = lift2 mul (shown m x id) (shown m l (ir ++ id)).
Proof.
  intros A mul m l x o r d offl offx offo Hl Hx Ho Hd Hol Hox.
  destruct (mul_out_ok A mul m l x o r d offl offx offo Hl Hx Ho Hd Hol Hox) as (m' & E & U). exists m'. split; auto. split; [eapply upd_only; exact U|].
  assert (F' : fits m' o (r ++ d) offo) by (eapply same_fits; [apply U|auto]).
  intros ir id Hir Hid. assert (Hr : in_range (r ++ d) (ir ++ id)) by (apply Forall2_app; auto). pose proof (place_range _ _ Hr). pose proof (place_range _ _ Hid).
  rewrite (shown_in A m' o _ _ _ F' Hr), (shown_in A m l _ _ _ Hl Hr), (shown_in A m x _ _ _ Hx Hid). destruct U as (_ & U & _). rewrite U by lia.
  rewrite place_app by (apply in_range_length; auto).
  replace (offo + (place r ir * prod d + place d id) - offo) with (place r ir * prod d + place d id) by lia. rewrite md by lia. auto.
Qed.
(** A 2 x 2 x 3 array and a 2 x 3 one. *)
Definition m2 : mem Z := [[0; 1; 2; 3; 4; 5; 6; 7; 8; 9; 10; 11]; [10; 20; 30; 40; 50; 60]; repeat 0 12].
Definition v223 (a : nat) : opd := mkop a (Some [0; 2; 6; 2; 3; 3; 1]).
Definition w23 : opd := mkop 1 (Some [0; 2; 3; 3; 1]).
Ltac fit := split; [discriminate|]; split; [repeat constructor; lia|]; split; [lia|]; split; [vm_compute; split; discriminate|];
  first [right; reflexivity|left; split; [reflexivity|]; split; reflexivity].
Example C53_ex : fits m2 (v223 0) ([2] ++ [2; 3]) 0 /\ fits m2 w23 [2; 3] 0 /\ fits m2 (v223 2) ([2] ++ [2; 3]) 0 /\
  apart (v223 0) w23 0 0 12 6 /\ apart (v223 0) (v223 0) 0 0 12 12 /\
  addsub_inplace Z Z.add m2 (v223 0) (Arr Z w23) = Ok [[10; 21; 32; 43; 54; 65; 16; 27; 38; 49; 60; 71]; [10; 20; 30; 40; 50; 60]; repeat 0 12] /\
  mul_broadcast Z Z.mul m2 (v223 0) (Arr Z w23) (v223 2) = Ok [nth 0 m2 []; nth 1 m2 []; [0; 20; 60; 120; 200; 300; 60; 140; 240; 360; 500; 660]].
Proof. split; [fit|]. split; [fit|]. split; [fit|]. split; [left; discriminate|]. split; [right; right; right; auto|]. split; reflexivity. Qed.

(** * C62: a one-element array on the right is read as a number *)
Theorem C62_one_element_rhs : forall A (f mul : A -> A -> A) (m : mem A) l x sh offl offx, fits m l sh offl -> fits m x [1] offx ->
  addsub_inplace A f m l (Arr A x) = UB TypePun /\ set_inplace A m l (Arr A x) = UB TypePun /\ mul_broadcast A mul m l (Arr A x) l = UB TypePun.
Proof.
  intros A f mul m l x sh offl offx Hl Hx. pose proof (fits_prod _ _ _ _ _ Hl) as P.
  unfold addsub_inplace, addsub, set_inplace, mul_broadcast, mul_scale, arith_broadcast. cbn [rhs_size rhs_dim rhs_cast].
  rewrite (fits_size _ _ _ _ _ Hx), (fits_dim _ _ _ _ _ Hx), (fits_size _ _ _ _ _ Hl), (fits_offset _ _ _ _ _ Hl). cbn [obind length prod].
  replace ((Z.of_nat 1 =? 1) && (1 * 1 =? 1)) with true by reflexivity. unfold for_to.
  destruct (Z.to_nat (prod sh)) as [|n] eqn:E; [lia|]. cbn [loop]. rewrite rd_cell.
  destruct (fits_cell A m l sh offl 0 Hl) as (y & ->); [lia|]. cbn [obind]. auto.
Qed.
Example C62_ex : fits [[1; 2; 3]; [5]] (mkop 0 None) [3] 0 /\ fits [[1; 2; 3]; [5]] (mkop 1 None) [1] 0.
Proof. split; fit. Qed.

(** * C63: a + b and a - b on arrays *)
Theorem C63_sum_of_arrays_asserts : forall A (z : A) f (m : mem A) l x r d offl offx, fits m l (r ++ d) offl -> fits m x d offx -> d <> [1] ->
  addsub_new A z f m l (Arr A x) = UB AssertFail.
Proof.
  intros A z f m l x r d offl offx Hl Hx Hd. pose proof (fits_lt _ _ _ _ _ Hl) as Lt.
  destruct (alloc_like_ok A z m l (r ++ d) offl Hl) as (Fo & Fl & Ea & _). unfold addsub_new. unfold alloc_like in *. cbn [fst snd o_arr] in *.
  set (o := mkop (length m) (o_ip l)) in *. set (m1 := m ++ [repeat z (length (arr A m (o_arr l)))]) in *.
  assert (Fx : fits m1 x d offx) by (apply fits_app; auto).
  pose proof (fits_nonnil _ _ _ _ _ Hx) as Hne. pose proof (fits_pos _ _ _ _ _ Hl) as Hpos. apply positive_app in Hpos. destruct Hpos as [Pr Pd].
  pose proof (prod_pos _ Pr). pose proof (prod_pos _ Pd).
  unfold addsub, arith_broadcast. cbn [rhs_size rhs_dim]. rewrite (fits_size _ _ _ _ _ Fx). cbn [obind]. rewrite (fits_dim _ _ _ _ _ Fx).
  destruct ((Z.of_nat (length d) =? 1) && (prod d =? 1)) eqn:E1.
  { exfalso. apply Hd. destruct d as [|e [|]]; cbn [length] in E1; try lia. cbn [prod] in E1. f_equal. lia. }
  replace (dim l <? Z.of_nat (length d)) with false by (rewrite (fits_dim _ _ _ _ _ Hl), app_length; lia).
  destruct (step_ok A m1 l r d offl _ Fl eq_refl) as [->|?]; [|congruence]. cbn [obind].
  destruct (step_ok A m1 o r d offl _ Fo eq_refl) as [->|?]; [|congruence]. cbn [obind].
  rewrite (fits_size _ _ _ _ _ Fl). cbn [obind]. rewrite prod_app. unfold idiv.
  destruct (prod d =? 0) eqn:E3; [lia|]. cbn [obind]. rewrite Z.quot_mul by lia. unfold for_to.
  destruct (Z.to_nat (prod r)) as [|n] eqn:E4; [lia|]. cbn [loop]. unfold imul. rewrite Z.mul_0_r. change (in_int 0) with true. cbn [obind].
  unfold axpy_vector. replace (is_same l o) with false; [reflexivity|].
  unfold is_same. cbn [o o_arr]. unfold o. cbn [o_arr]. destruct (Nat.eqb_spec (o_arr l) (length m)); [lia|auto].
Qed.
Example C63_ex : fits m2 (v223 0) ([2] ++ [2; 3]) 0 /\ fits m2 w23 [2; 3] 0 /\ [2; 3] <> [1].
Proof. split; [fit|]. split; [fit|discriminate]. Qed.

(** * C54 *)
Lemma prod2 : forall a b, prod [a; b] = a * b.
Proof. intros. cbn [prod]. lia. Qed.
Lemma place2 : forall a b i j, place [a; b] [i; j] = i * b + j.
Proof. intros. cbn [place prod]. lia. Qed.
Lemma transpose_new_ok : forall A (z : A) fuel (m : mem A) i r R C off, fits m i (r ++ [R; C]) off ->
  exists m' o, transpose_new A z fuel m i = Ok (m', o) /\ fits m' o (r ++ [C; R]) 0 /\ Z.of_nat (length (arr A m' (o_arr o))) = prod (r ++ [C; R]) /\
    shapes A m' o = Ok (r ++ [C; R]) /\ kept m m' /\
    forall ir a b, in_range r ir -> 0 <= a < R -> 0 <= b < C -> shown m' o (ir ++ [b; a]) = shown m i (ir ++ [a; b]).
Proof.
  intros A z fuel m i r R C off Hi. pose proof (fits_lt _ _ _ _ _ Hi) as Lt. pose proof (fits_prod _ _ _ _ _ Hi) as P.
  pose proof (fits_pos _ _ _ _ _ Hi) as Hpos. apply positive_app in Hpos. destruct Hpos as [Pr Pd]. pose proof (prod_pos _ Pr) as Pr1.
  inversion Pd as [|? ? HR X]; subst. inversion X as [|? ? HC _]; subst. clear X.
  rewrite prod_app, prod2 in P.
  assert (Psh : prod (r ++ [C; R]) = prod r * (R * C)) by (rewrite prod_app, prod2; lia).
  destruct (alloc_view_ok A z m (r ++ [C; R])) as [EA FA]; [destruct r; discriminate| |rewrite Psh; unfold hsize in P; lia|].
  { apply positive_app. split; auto. constructor; [auto|constructor; [auto|constructor]]. }
  set (m1 := m ++ [repeat z (Z.to_nat (prod (r ++ [C; R])))]) in *. set (o := mkop (length m) (Some (0 :: dims (r ++ [C; R])))) in *.
  assert (Fi : fits m1 i (r ++ [R; C]) off) by (apply fits_app; auto).
  unfold transpose_new, transpose_alloc. rewrite (fits_shapes A m i _ _ Hi). cbn [obind]. rewrite app_length. cbn [length].
  replace (length r + 2 <? 2)%nat with false by (symmetry; apply Nat.ltb_ge; lia).
  replace (length r + 2 - 2)%nat with (length r) by lia. rewrite firstn_app, firstn_all, Nat.sub_diag. cbn [firstn]. rewrite app_nil_r.
  rewrite !app_nth2 by lia. replace (length r + 2 - 1 - length r)%nat with 1%nat by lia. rewrite Nat.sub_diag. cbn [nth].
  rewrite EA. cbn [obind].
  destruct (unary_ok A 2 (transpose_vector A fuel i o) m1 i o r [R; C] [C; R] off 0
    (fun j => cell m1 (o_arr i) (off + (j / (R * C)) * (R * C) + tpos R C (j mod (R * C))))) as (m' & E & U); auto.
  { discriminate. }
  { intros k m' Hk U. rewrite !prod2 in *. replace (C * R) with (R * C) in * by lia.
    assert (Fi' : fits m' i (r ++ [R; C]) off) by (eapply same_fits; [apply U|auto]).
    unfold transpose_vector. rewrite (fits_dim _ _ _ _ _ Hi), app_length. cbn [length].
    rewrite !(fits_shape A m' i (r ++ [R; C]) off) by (auto; rewrite app_length; cbn [length]; lia). cbn [obind].
    replace (Z.to_nat (Z.of_nat (length r + 2) - 2)) with (length r) by lia. replace (Z.to_nat (Z.of_nat (length r + 2) - 1)) with (S (length r)) by lia.
    rewrite !app_nth2 by lia. rewrite Nat.sub_diag. replace (S (length r) - length r)%nat with 1%nat by lia. cbn [nth].
    replace (is_same i o) with false.
    2:{ unfold is_same, o. cbn [o_arr]. destruct (Nat.eqb_spec (o_arr i) (length m)); [lia|auto]. }
    rewrite (fits_offset _ _ _ _ _ Hi), (fits_offset _ _ _ _ _ FA). unfold hsize in P.
    pose proof (fits_prod _ _ _ _ _ FA) as PA. rewrite Psh in PA. unfold hsize in PA.
    assert (La : length (arr A m1 (o_arr i)) = length (arr A m (o_arr i))) by (unfold arr, m1; rewrite app_nth1 by auto; auto).
    destruct (outOfPlace_ok A m' (o_arr i) (off + R * C * k) R C (o_arr o) (0 + R * C * k)) as (m'' & E & U').
    - auto.
    - auto.
    - nia.
    - rewrite (upd_len _ _ _ _ _ _ _ U), La. nia.
    - nia.
    - rewrite (upd_len _ _ _ _ _ _ _ U). nia.
    - unfold o. cbn [o_arr]. lia.
    - exists m''. split; auto. eapply upd_ext2; [|exact U']. intros j Hj. cbn beta.
      assert (Em : j mod (R * C) = j - (0 + R * C * k)) by (rewrite <- (block_mod j 0 (R * C) k) by (try nia; lia); f_equal; lia).
      assert (Ed : j / (R * C) = k) by (symmetry; apply (Z.div_unique _ _ k (j - (0 + R * C * k))); lia).
      rewrite Em, Ed. rewrite (upd_in _ _ _ _ _ _ _ _ U) by (left; unfold o; cbn [o_arr]; lia). f_equal. lia. }
  rewrite E. cbn [obind]. exists m', o. assert (Fo' : fits m' o (r ++ [C; R]) 0) by (eapply same_fits; [apply U|auto]).
  split; auto. split; [auto|].
  split; [rewrite (upd_len _ _ _ _ _ _ _ U); unfold arr, m1, o; cbn [o_arr]; rewrite app_nth2, Nat.sub_diag by lia; cbn [nth]; rewrite repeat_length, Psh; nia|]. split; [apply (fits_shapes A m' o _ _ Fo')|]. split; [eapply upd_new_kept; exact U|].
  intros ir a b Hir Ha Hb.
  assert (R1 : in_range (r ++ [C; R]) (ir ++ [b; a])) by (apply Forall2_app; auto).
  assert (R2 : in_range (r ++ [R; C]) (ir ++ [a; b])) by (apply Forall2_app; auto).
  rewrite (shown_in A m' o _ _ _ Fo' R1), (shown_in A m i _ _ _ Hi R2). pose proof (place_range _ _ R1) as B1.
  destruct U as (_ & U & _). rewrite U by lia. rewrite !place_app by (apply in_range_length; auto). rewrite !place2, !prod2.
  replace (C * R) with (R * C) by lia. rewrite Z.add_0_l. rewrite md, dv by nia. unfold tpos. rewrite md, dv by lia.
  unfold m1. rewrite cell_app_old by auto. f_equal. lia.
Qed.
Theorem C54_transpose_new : forall A (z : A) fuel (m : mem A) i r R C off, fits m i (r ++ [R; C]) off ->
  exists m' o, transpose_new A z fuel m i = Ok (m', o) /\ shapes A m' o = Ok (r ++ [C; R]) /\ kept m m' /\
    forall ir a b, in_range r ir -> 0 <= a < R -> 0 <= b < C -> shown m' o (ir ++ [b; a]) = shown m i (ir ++ [a; b]).
Proof.
  intros A z fuel m i r R C off Hi. destruct (transpose_new_ok A z fuel m i r R C off Hi) as (m' & o & E & _ & _ & H). exists m', o. auto.
Qed.
Theorem C54_dimension_one_throws : forall A (z : A) fuel (m : mem A) i n off, fits m i [n] off ->
  transpose_new A z fuel m i = Throw "Transpose::alloc: dimension < 2".
Proof. intros A z fuel m i n off Hi. unfold transpose_new, transpose_alloc. rewrite (fits_shapes A m i _ _ Hi). reflexivity. Qed.
Example C54_ex : fits m2 (v223 0) ([2] ++ [2; 3]) 0 /\ fits m2 (mkop 1 None) [6] 0 /\
  match transpose_new Z 0 0 m2 (v223 0) with Ok (m', o) => nth 3 m' [] = [0; 3; 1; 4; 2; 5; 6; 9; 7; 10; 8; 11] | _ => False end.
Proof. split; [fit|]. split; [fit|vm_compute; reflexivity]. Qed.

(** * C55 *)
Lemma set_dims_shape : forall pre d t x, set_nth (dims pre ++ d :: t) (2 * length pre) x = dims pre ++ x :: t.
Proof. intros. rewrite set_nth_app2 by (rewrite dims_length; lia). rewrite dims_length, Nat.sub_diag. reflexivity. Qed.
Lemma dims_snoc2 : forall r a b, exists pre, length pre = (2 * length r)%nat /\ dims (r ++ [a; b]) = pre ++ [a; b; b; 1] /\
  (forall a' b', a' * b' = a * b -> exists pre', dims (r ++ [a'; b']) = pre ++ [a'; b'; b'; 1] /\ pre' = pre).
Proof.
  induction r as [|d r]; intros a b.
  - exists []. split; auto. split; [cbn [app dims prod]; repeat f_equal; lia|]. intros a' b' _. exists []. split; [cbn [app dims prod]; repeat f_equal; lia|auto].
  - destruct (IHr a b) as (pre & H1 & H2 & H3). exists (d :: prod (r ++ [a; b]) :: pre). cbn [app dims length]. rewrite H2. split; [cbn [length]; lia|]. split; auto.
    intros a' b' E. destruct (H3 a' b' E) as (pre' & H4 & ->). exists (d :: prod (r ++ [a; b]) :: pre). split; auto. rewrite H4.
    rewrite !prod_app, !prod2, E. auto.
Qed.
Theorem C55_transpose_in_place : forall A fuel (m : mem A) i r R C off, fits m i (r ++ [R; C]) off -> (Z.to_nat (R * C) <= fuel)%nat ->
  exists m', transpose_inplace A fuel m i = Ok (m', mkop (o_arr i) (Some (off :: dims (r ++ [C; R])))) /\
    only m m' (o_arr i) off (prod (r ++ [R; C])) /\
    forall ir a b, in_range r ir -> 0 <= a < R -> 0 <= b < C ->
      shown m' (mkop (o_arr i) (Some (off :: dims (r ++ [C; R])))) (ir ++ [b; a]) = shown m i (ir ++ [a; b]).
Proof.
  intros A fuel m i r R C off Hi Hf. pose proof (fits_prod _ _ _ _ _ Hi) as P.
  pose proof (fits_pos _ _ _ _ _ Hi) as Hpos. apply positive_app in Hpos. destruct Hpos as [Pr Pd]. pose proof (prod_pos _ Pr) as Pr1.
  inversion Pd as [|? ? HR X]; subst. inversion X as [|? ? HC _]; subst. clear X.
  assert (Psh : prod (r ++ [C; R]) = prod r * (R * C)) by (rewrite prod_app, prod2; lia).
  rewrite prod_app, prod2 in P. unfold hsize in P.
  set (v := mkop (o_arr i) (Some (off :: dims (r ++ [C; R])))).
  destruct (unary_ok A 2 (transpose_vector A fuel i i) m i i r [R; C] [R; C] off off
    (fun j => cell m (o_arr i) (off + ((j - off) / (R * C)) * (R * C) + tpos R C ((j - off) mod (R * C))))) as (m' & E & U); auto.
  { discriminate. }
  { intros k m' Hk U. rewrite !prod2 in *.
    assert (Fi' : fits m' i (r ++ [R; C]) off) by (eapply same_fits; [apply U|auto]).
    unfold transpose_vector. rewrite (fits_dim _ _ _ _ _ Hi), app_length. cbn [length].
    rewrite !(fits_shape A m' i (r ++ [R; C]) off) by (auto; rewrite app_length; cbn [length]; lia). cbn [obind].
    replace (Z.to_nat (Z.of_nat (length r + 2) - 2)) with (length r) by lia. replace (Z.to_nat (Z.of_nat (length r + 2) - 1)) with (S (length r)) by lia.
    rewrite !app_nth2 by lia. rewrite Nat.sub_diag. replace (S (length r) - length r)%nat with 1%nat by lia. cbn [nth].
    rewrite is_same_refl. rewrite (fits_offset _ _ _ _ _ Hi).
    destruct (inPlace_ok A R C HR HC m' (o_arr i) (off + R * C * k) fuel) as (m'' & E & U').
    - nia.
    - nia.
    - rewrite (upd_len _ _ _ _ _ _ _ U). nia.
    - auto.
    - exists m''. split; auto. eapply upd_ext2; [|exact U']. intros j Hj. cbn beta.
      assert (Em : (j - off) mod (R * C) = j - (off + R * C * k)) by (apply block_mod; [nia|lia]).
      assert (Ed : (j - off) / (R * C) = k) by (symmetry; apply (Z.div_unique _ _ k (j - (off + R * C * k))); lia).
      rewrite Em, Ed. rewrite (upd_in _ _ _ _ _ _ _ _ U).
      + f_equal. lia.
      + right. pose proof (tpos_range R C (j - (off + R * C * k)) HR HC). nia. }
  exists m'. split; [|split].
  - unfold transpose_inplace. rewrite E. cbn [obind].
    pose proof Hi as (_ & _ & _ & _ & [(_ & _ & X)|EI]).
    { exfalso. apply (f_equal (@length Z)) in X. rewrite app_length in X. cbn [length] in X. lia. }
    rewrite EI. rewrite v_dim_dims, app_length. cbn [length].
    assert (L2 : Z.of_nat (length (r ++ [R; C])) = Z.of_nat (length r) + 2) by (rewrite app_length; cbn [length]; lia).
    rewrite !v_stride_dims by lia. rewrite !v_shape_dims by lia. cbn [obind].
    replace (Z.to_nat (Z.of_nat (length r + 2) - 2)) with (length r) by lia. replace (Z.to_nat (Z.of_nat (length r + 2) - 1)) with (S (length r)) by lia.
    rewrite !app_nth2 by lia. rewrite Nat.sub_diag. replace (S (length r) - length r)%nat with 1%nat by lia. cbn [nth].
    rewrite (skipn_all2 (r ++ [R; C])) by (rewrite app_length; cbn [length]; lia). cbn [prod].
    rewrite imul_in by (apply in_int_small; nia). cbn [obind]. do 3 f_equal. unfold v. f_equal. f_equal.
    destruct (dims_snoc2 r R C) as (pre & H1 & H2 & H3). destruct (H3 C R ltac:(lia)) as (_ & H4 & _). rewrite H2, H4.
    replace (Z.to_nat ((Z.of_nat (length r + 2) - 1) * 2 + 1)) with (S (length pre + 2)) by lia.
    replace (Z.to_nat ((Z.of_nat (length r + 2) - 2) * 2 + 1)) with (S (length pre)) by lia.
    replace (Z.to_nat ((Z.of_nat (length r + 2) - 2) * 2 + 2)) with (S (length pre + 1)) by lia.
    cbn [set_nth]. f_equal. rewrite !set_nth_app2 by lia.
    replace (length pre + 2 - length pre)%nat with 2%nat by lia. replace (length pre + 1 - length pre)%nat with 1%nat by lia. rewrite Nat.sub_diag.
    cbn [set_nth]. rewrite Z.mul_1_r. reflexivity.
  - apply (upd_only A m m' (o_arr i) off (prod (r ++ [R; C]))) in U. auto.
  - intros ir a b Hir Ha Hb.
    assert (R1 : in_range (r ++ [C; R]) (ir ++ [b; a])) by (apply Forall2_app; auto).
    assert (R2 : in_range (r ++ [R; C]) (ir ++ [a; b])) by (apply Forall2_app; auto).
    assert (Fv : fits m' v (r ++ [C; R]) off).
    { destruct U as ((_ & Len) & _). specialize (Len (o_arr i)). unfold arr in *. split; [destruct r; discriminate|]. split.
      - apply positive_app. split; auto. constructor; [auto|constructor; [auto|constructor]].
      - split; [lia|]. unfold v. cbn [o_arr o_ip]. rewrite <- Len, Psh. split; [lia|auto]. }
    fold v. rewrite (shown_in A m' v _ _ _ Fv R1), (shown_in A m i _ _ _ Hi R2). pose proof (place_range _ _ R1) as B1. rewrite Psh in B1.
    destruct U as (_ & U & _). unfold v. cbn [o_arr]. rewrite U by (rewrite prod_app, prod2; lia). rewrite !place_app by (apply in_range_length; auto). rewrite !place2, !prod2.
    replace (off + (place r ir * (C * R) + (b * R + a)) - off) with (place r ir * (R * C) + (b * R + a)) by lia. rewrite md, dv by nia. unfold tpos. rewrite md, dv by lia.
    f_equal. lia.
Qed.
(** The two transposes agree element by element. *)
Corollary C55_same_as_out_of_place : forall A (z : A) fuel (m : mem A) i r R C off, fits m i (r ++ [R; C]) off -> (Z.to_nat (R * C) <= fuel)%nat ->
  exists m1 o1 m2 o2, transpose_new A z fuel m i = Ok (m1, o1) /\ transpose_inplace A fuel m i = Ok (m2, o2) /\
    forall ir a b, in_range r ir -> 0 <= a < R -> 0 <= b < C -> shown m2 o2 (ir ++ [b; a]) = shown m1 o1 (ir ++ [b; a]).
Proof.
  intros A z fuel m i r R C off Hi Hf. destruct (C54_transpose_new A z fuel m i r R C off Hi) as (m1 & o1 & E1 & _ & _ & H1).
  destruct (C55_transpose_in_place A fuel m i r R C off Hi Hf) as (m2 & E2 & _ & H2).
  eexists m1, o1, m2, _. split; auto. split; [exact E2|]. intros. rewrite H1, H2; auto.
Qed.
Example C55_ex : fits m2 (v223 0) ([2] ++ [2; 3]) 0 /\ (Z.to_nat (2 * 3) <= 6)%nat /\
  match transpose_inplace Z 6 m2 (v223 0) with Ok (m', o) => nth 0 m' [] = [0; 3; 1; 4; 2; 5; 6; 9; 7; 10; 8; 11] /\ o_ip o = Some [0; 2; 6; 3; 2; 2; 1] | _ => False end.
Proof. split; [fit|]. split; [vm_compute; lia|]. vm_compute. auto. Qed.

(** * C56 *)
Theorem C56_poly : forall A (z zero one : A) add mul sub opp (m : mem A) i r n off, ring_theory zero one add mul sub opp eq ->
  fits m i (r ++ [n]) off -> prod r * (n + 1) <= INT_MAX ->
  exists m' o, poly_new A z zero one sub mul m i = Ok (m', o) /\ shapes A m' o = Ok (r ++ [n + 1]) /\ kept m m' /\
    forall ir rs, in_range r ir -> Z.of_nat (length rs) = n -> row_is m i ir rs ->
      row_is m' o ir (map (fun j => from_roots A zero one add mul opp rs (length rs - j)) (seq 0 (length rs + 1))) /\
      shown m' o (ir ++ [0]) = Some one.
Proof.
  intros A z zero one add mul sub opp m i r n off Rth Hi Hm. pose proof (fits_lt _ _ _ _ _ Hi) as Lt. pose proof (fits_prod _ _ _ _ _ Hi) as P.
  pose proof (fits_pos _ _ _ _ _ Hi) as Hpos. apply positive_app in Hpos. destruct Hpos as [Pr Pd]. pose proof (prod_pos _ Pr) as Pr1.
  assert (Hn : 1 <= n) by (inversion Pd; auto). rewrite prod_app in P. cbn [prod] in P. unfold hsize in P.
  assert (Psh : prod (r ++ [n + 1]) = prod r * (n + 1)) by (rewrite prod_app; cbn [prod]; lia).
  destruct (alloc_view_ok A z m (r ++ [n + 1])) as [EA FA]; [destruct r; discriminate| |rewrite Psh; lia|].
  { apply positive_app. split; auto. constructor; [lia|constructor]. }
  set (m1 := m ++ [repeat z (Z.to_nat (prod (r ++ [n + 1])))]) in *. set (o := mkop (length m) (Some (0 :: dims (r ++ [n + 1])))) in *.
  assert (Fi : fits m1 i (r ++ [n]) off) by (apply fits_app; auto).
  unfold poly_new. rewrite (fits_shapes A m i _ _ Hi). cbn [obind]. rewrite last_snoc, removelast_last.
  rewrite iadd_in by (apply in_int_small; nia). cbn [obind]. rewrite EA. cbn [obind].
  destruct (poly_rows_ok A zero one add mul sub opp Rth m1 i o r n off 0 Fi FA) as (m' & E & U); [unfold o; cbn [o_arr]; lia|].
  rewrite E. cbn [obind]. exists m', o. assert (Fo' : fits m' o (r ++ [n + 1]) 0) by (eapply same_fits; [apply U|auto]).
  split; auto. split; [apply (fits_shapes A m' o _ _ Fo')|]. split; [eapply upd_new_kept; exact U|].
  intros ir rs Hir Hrs Hrow. pose proof (place_range _ _ Hir) as Rir.
  assert (V : vals A m1 (o_arr i) (off + n * place r ir) (Z.to_nat n) = rs).
  { assert (La : length (arr A m1 (o_arr i)) = length (arr A m (o_arr i))) by (unfold arr, m1; rewrite app_nth1 by auto; auto).
    destruct (vals_ok A m1 (o_arr i) (Z.to_nat n) (off + n * place r ir)) as [V1 V2]; [nia|rewrite La; nia|].
    apply (nth_ext _ _ z z); [lia|]. intros t Ht. rewrite V1 in Ht. specialize (V2 t Ht). specialize (Hrow t ltac:(lia)).
    assert (Rt : in_range (r ++ [n]) (ir ++ [Z.of_nat t])) by (apply Forall2_app; [auto|constructor; [lia|constructor]]).
    rewrite (shown_in A m i _ _ _ Hi Rt) in Hrow. rewrite place_app in Hrow by (apply in_range_length; auto). cbn [prod place] in Hrow.
    unfold m1 in V2. rewrite cell_app_old in V2 by auto.
    replace (off + (place r ir * (n * 1) + (Z.of_nat t * 1 + 0))) with (off + n * place r ir + Z.of_nat t) in Hrow by lia.
    apply nth_error_nth'  with (d := z) in Ht as Ht'; [|lia] || idtac.
    assert (X : nth_error (vals A m1 (o_arr i) (off + n * place r ir) (Z.to_nat n)) t = nth_error rs t) by (rewrite <- Hrow; exact V2).
    rewrite !(nth_error_nth' _ z) in X by lia. inversion X. auto. }
  assert (Main : forall j, (j <= length rs)%nat -> shown m' o (ir ++ [Z.of_nat j]) = Some (from_roots A zero one add mul opp rs (length rs - j))).
  { intros j Hj. assert (Rt : in_range (r ++ [n + 1]) (ir ++ [Z.of_nat j])) by (apply Forall2_app; [auto|constructor; [lia|constructor]]).
    rewrite (shown_in A m' o _ _ _ Fo' Rt). pose proof (place_range _ _ Rt). destruct U as (_ & U & _). rewrite U by lia.
    rewrite place_app by (apply in_range_length; auto). cbn [prod place].
    replace (0 + (place r ir * ((n + 1) * 1) + (Z.of_nat j * 1 + 0)) - 0) with (place r ir * (n + 1) + Z.of_nat j) by lia.
    rewrite md, dv by lia. rewrite V. f_equal. f_equal. lia. }
  split.
  - intros j Hj. rewrite map_length, seq_length in Hj. rewrite Main by lia. rewrite nth_error_map.
    rewrite (nth_error_nth' _ O) by (rewrite seq_length; lia). rewrite seq_nth by lia. reflexivity.
  - change 0 with (Z.of_nat 0). rewrite Main by lia. rewrite Nat.sub_0_r. f_equal. apply (from_roots_lead A zero one add mul sub opp Rth).
Qed.
(** (x - 2) (x - 3) = x^2 - 5 x + 6. *)
Example C56_ex : ring_theory 0 1 Z.add Z.mul Z.sub Z.opp eq /\ fits [[2; 3]] (mkop 0 None) ([] ++ [2]) 0 /\ row_is [[2; 3]] (mkop 0 None) [] [2; 3] /\
  map (fun j => from_roots Z 0 1 Z.add Z.mul Z.opp [2; 3] (2 - j)) (seq 0 3) = [1; -5; 6].
Proof.
  split; [constructor; intros; ring|]. split; [fit|]. split; [|reflexivity]. intros [|[|k]] Hk; try reflexivity. cbn [length] in Hk. lia.
Qed.

(** * C57 *)
Lemma scalarAlloc_ok : forall A (z : A) (m : mem A) i r n off, fits m i (r ++ [n]) off ->
  exists x o, scalarAlloc A z m i = Ok (m ++ [x], o) /\ o_arr o = length m /\ fits (m ++ [x]) o (r ++ [1]) 0.
Proof.
  intros A z m i r n off Hi. pose proof (fits_prod _ _ _ _ _ Hi) as P. pose proof (fits_pos _ _ _ _ _ Hi) as Hpos. apply positive_app in Hpos. destruct Hpos as [Pr Pd].
  pose proof (prod_pos _ Pr) as Pr1. assert (Hn : 1 <= n) by (inversion Pd; auto). rewrite prod_app in P. cbn [prod] in P.
  unfold scalarAlloc. rewrite (fits_dim _ _ _ _ _ Hi), app_length. cbn [length].
  destruct (1 <? Z.of_nat (length r + 1)) eqn:E.
  - rewrite (fits_shapes A m i _ _ Hi). cbn [obind]. rewrite app_length. cbn [length]. replace (length r + 1 - 1)%nat with (length r) by lia.
    rewrite firstn_app, firstn_all, Nat.sub_diag. cbn [firstn]. rewrite app_nil_r.
    destruct (alloc_view_ok A z m (r ++ [1])) as [EA FA]; [destruct r; discriminate| |rewrite prod_app; cbn [prod]; nia|].
    { apply positive_app. split; auto. constructor; [lia|constructor]. }
    eexists _, _. split; [exact EA|]. split; auto.
  - assert (r = []) by (destruct r; auto; cbn [length] in E; lia). subst r. exists [z], (mkop (length m) None). split; auto. split; auto.
    cbn [app]. split; [discriminate|]. split; [constructor; [lia|constructor]|]. split; [lia|]. cbn [o_arr o_ip]. rewrite app_nth2, Nat.sub_diag by lia. cbn [nth length prod].
    split; [split; [lia|vm_compute; discriminate]|]. left. auto.
Qed.
Lemma row_sum : forall A (add : A -> A -> A) (m : mem A) a xs p s, (forall k, (k < length xs)%nat -> cell m a (p + Z.of_nat k) = nth_error xs k) ->
  osum A add s (row A m a p (length xs)) = Some (fold_left add xs s).
Proof.
  intros A add m a xs. induction xs as [|x xs]; intros p s H; [reflexivity|]. cbn [length row]. unfold osum. cbn [fold_left].
  pose proof (H O ltac:(cbn [length]; lia)) as H0. rewrite Z.add_0_r in H0. rewrite H0. cbn [nth_error lift2]. apply IHxs.
  intros k Hk. change (nth_error xs k) with (nth_error (x :: xs) (S k)). rewrite <- (H (S k)) by (cbn [length]; lia). f_equal. lia.
Qed.
Lemma row_cells : forall A (m : mem A) i r n off ir xs, fits m i (r ++ [n]) off -> in_range r ir -> Z.of_nat (length xs) = n -> row_is m i ir xs ->
  forall k, (k < length xs)%nat -> cell m (o_arr i) (off + n * place r ir + Z.of_nat k) = nth_error xs k.
Proof.
  intros A m i r n off ir xs Hi Hir Hl Hrow k Hk. rewrite <- (Hrow k Hk).
  assert (Rt : in_range (r ++ [n]) (ir ++ [Z.of_nat k])) by (apply Forall2_app; [auto|constructor; [lia|constructor]]).
  rewrite (shown_in A m i _ _ _ Hi Rt). rewrite place_app by (apply in_range_length; auto). cbn [prod place]. f_equal. lia.
Qed.
Theorem C57_sum : forall A (z zero : A) add (m : mem A) i r n off, fits m i (r ++ [n]) off ->
  exists m' o, sum_new A z zero add m i = Ok (m', o) /\ shapes A m' o = Ok (r ++ [1]) /\ kept m m' /\
    forall ir xs, in_range r ir -> Z.of_nat (length xs) = n -> row_is m i ir xs -> shown m' o (ir ++ [0]) = Some (fold_left add xs zero).
Proof.
  intros A z zero add m i r n off Hi. pose proof (fits_lt _ _ _ _ _ Hi) as Lt.
  destruct (scalarAlloc_ok A z m i r n off Hi) as (x & o & EA & Eo & FA).
  assert (Fi : fits (m ++ [x]) i (r ++ [n]) off) by (apply fits_app; auto).
  unfold sum_new. rewrite EA. cbn [obind].
  destruct (sum_ok A add zero (m ++ [x]) i o r n off 0 Fi FA) as (m' & E & U); [lia|]. rewrite E. cbn [obind]. exists m', o.
  assert (Fo' : fits m' o (r ++ [1]) 0) by (eapply same_fits; [apply U|auto]).
  split; auto. split; [apply (fits_shapes A m' o _ _ Fo')|]. split; [rewrite Eo in U; eapply upd_new_kept; exact U|].
  intros ir xs Hir Hl Hrow. assert (Rt : in_range (r ++ [1]) (ir ++ [0])) by (apply Forall2_app; [auto|constructor; [lia|constructor]]).
  rewrite (shown_in A m' o _ _ _ Fo' Rt). pose proof (place_range _ _ Rt). destruct U as (_ & U & _). rewrite U by lia.
  rewrite place_app by (apply in_range_length; auto). cbn [prod place].
  replace (0 + (place r ir * (1 * 1) + (0 * 1 + 0)) - 0) with (place r ir) by lia.
  replace (Z.to_nat n) with (length xs) by lia. apply row_sum. intros k Hk. rewrite cell_app_old by auto. eapply row_cells; eauto.
Qed.
(** An empty array divides by zero. *)
Theorem C57_sum_of_empty : forall A (z zero : A) add (m : mem A) a, nth a m [] = [] -> (a < length m)%nat ->
  sum_new A z zero add m (mkop a None) = UB DivByZero.
Proof.
  intros A z zero add m a H Ha. unfold sum_new, scalarAlloc. cbn [dim o_ip]. unfold dim. cbn [o_ip]. cbn [Z.ltb Z.compare Pos.compare Pos.compare_cont obind].
  unfold unary_broadcast, dim. cbn [o_ip]. cbn [Z.ltb Z.compare Z.sub Z.opp Z.add Z.pos_sub obind]. unfold size, hsize, arr. cbn [o_ip o_arr].
  rewrite app_nth1 by auto. rewrite H. reflexivity.
Qed.
Example C57_ex : fits m2 w23 ([2] ++ [3]) 0 /\ row_is m2 w23 [1] [40; 50; 60] /\ fits m2 (mkop 1 None) ([] ++ [6]) 0 /\ row_is m2 (mkop 1 None) [] [10; 20; 30; 40; 50; 60] /\
  match sum_new Z 0 0 Z.add m2 w23 with Ok (m', o) => shown m' o [1; 0] = Some 150 | _ => False end.
Proof.
  split; [fit|]. split; [intros [|[|[|k]]] Hk; try reflexivity; cbn [length] in Hk; lia|]. split; [fit|].
  split; [intros [|[|[|[|[|[|k]]]]]] Hk; try reflexivity; cbn [length] in Hk; lia|]. vm_compute. reflexivity.
Qed.

(** * C64: a right operand longer than the left *)
Lemma blas2_ub : forall A (f : A -> A -> A) n x px y py (m : mem A), 0 <= py -> 1 <= n -> Z.of_nat (length (arr A m y)) < py + n ->
  blas2 A f n x px y py m = UB OutOfBounds.
Proof.
  intros A f n x px y py m Hp Hn Hl. unfold blas2, for_to.
  apply loop_ub with (Q := fun m' => same_size A m m') (k := Z.to_nat (n - 1)).
  - lia.
  - apply same_size_refl.
  - intros t m' Ht S. destruct (rd_or A m' y (py + t)) as [(a & ->)| ->]; [|auto]. cbn [obind].
    destruct (rd_or A m' x (px + t)) as [(b & ->)| ->]; [|auto]. cbn [obind].
    destruct (wr_or A m' y (py + t) (f a b)) as [(m1 & -> & S1)| ->]; [|auto]. left. exists m1. split; auto. eapply same_size_trans; eauto.
  - intros m' [_ S]. rewrite rd_cell. unfold cell. replace (py + (0 + Z.of_nat (Z.to_nat (n - 1))) <? 0) with false by lia.
    destruct (nth_error _ _) eqn:E; auto. exfalso. assert (X : nth_error (nth y m' []) (Z.to_nat (py + (0 + Z.of_nat (Z.to_nat (n - 1))))) <> None) by congruence.
    apply nth_error_Some in X. specialize (S y). unfold arr in *. lia.
Qed.
Theorem C64_longer_right_operand : forall A (f : A -> A -> A) (m : mem A) l x n k offl offx, fits m l [n] offl -> fits m x [k] offx -> k <> 1 ->
  hsize A m l < offl + k -> addsub_inplace A f m l (Arr A x) = UB OutOfBounds.
Proof.
  intros A f m l x n k offl offx Hl Hx Hk Hover. pose proof (fits_prod _ _ _ _ _ Hl) as Pl. pose proof (fits_prod _ _ _ _ _ Hx) as Px. cbn [prod] in *.
  unfold addsub_inplace, addsub, arith_broadcast. cbn [rhs_size rhs_dim]. rewrite (fits_size _ _ _ _ _ Hx), (fits_dim _ _ _ _ _ Hx). cbn [obind length prod].
  replace ((Z.of_nat 1 =? 1) && (k * 1 =? 1)) with false by lia. rewrite (fits_dim _ _ _ _ _ Hl). cbn [length].
  replace (Z.of_nat 1 <? Z.of_nat 1) with false by reflexivity. replace (0 <? Z.of_nat 1 - Z.of_nat 1) with false by reflexivity.
  rewrite (fits_size _ _ _ _ _ Hl). cbn [obind prod]. unfold idiv. replace (n * 1 =? 0) with false by lia. cbn [obind]. rewrite Z.quot_same by lia.
  unfold for_to. cbn [Z.to_nat Pos.to_nat]. change (Pos.to_nat 1) with 1%nat. cbn [loop]. unfold imul. rewrite Z.mul_0_r. change (in_int 0) with true. cbn [obind].
  unfold axpy_vector. rewrite is_same_refl. cbn [negb]. rewrite (fits_size _ _ _ _ _ Hx). cbn [obind prod]. rewrite (fits_offset _ _ _ _ _ Hl), (fits_offset _ _ _ _ _ Hx).
  rewrite blas2_ub; auto; try lia. unfold hsize in Hover. lia.
Qed.
Example C64_ex : fits [[1; 2]; [3; 4; 5]] (mkop 0 None) [2] 0 /\ fits [[1; 2]; [3; 4; 5]] (mkop 1 None) [3] 0 /\
  addsub_inplace Z Z.add [[1; 2]; [3; 4; 5]] (mkop 0 None) (Arr Z (mkop 1 None)) = UB OutOfBounds.
Proof. split; [fit|]. split; [fit|vm_compute; reflexivity]. Qed.

(** * C65: swap *)
Theorem C65_swap_vectors : forall A (m : mem A) a b n offa offb, fits m a [n] offa -> fits m b [n] offb ->
  (o_arr a <> o_arr b \/ offa + n <= offb \/ offb + n <= offa) ->
  exists m', swap_vars A m a b = Ok m' /\ forall k, 0 <= k < n -> shown m' a [k] = shown m b [k] /\ shown m' b [k] = shown m a [k].
Proof.
  intros A m a b n offa offb Ha Hb Hd. pose proof (fits_prod _ _ _ _ _ Ha) as Pa. pose proof (fits_prod _ _ _ _ _ Hb) as Pb. cbn [prod] in *. unfold hsize in *.
  destruct (blas_swap_ok A n (o_arr a) offa (o_arr b) offb m) as (m' & E & S & H & _); try lia.
  exists m'. split.
  - unfold swap_vars. rewrite (fits_dim _ _ _ _ _ Ha). cbn [length]. cbn [Z.of_nat Z.sub Z.opp Z.add Z.pos_sub Pos.of_succ_nat Z.ltb Z.compare obind].
    unfold for_to. change (Z.to_nat 1) with 1%nat. cbn [loop]. change (imul 0 0) with (Ok 0). cbn [obind].
    unfold swap_vector. rewrite (fits_size _ _ _ _ _ Ha), (fits_offset _ _ _ _ _ Ha), (fits_offset _ _ _ _ _ Hb). cbn [obind prod]. rewrite Z.mul_1_r, !Z.add_0_r, E. auto.
  - intros k Hk. assert (R : in_range [n] [k]) by (constructor; [auto|constructor]).
    assert (Fa : fits m' a [n] offa) by (eapply same_fits; eauto). assert (Fb : fits m' b [n] offb) by (eapply same_fits; eauto).
    rewrite (shown_in A m' a _ _ _ Fa R), (shown_in A m' b _ _ _ Fb R), (shown_in A m a _ _ _ Ha R), (shown_in A m b _ _ _ Hb R). cbn [place prod].
    destruct (H k Hk) as [H1 H2]. replace (k * 1 + 0) with k by lia. auto.
Qed.
(** Matrices of two or more rows run over the end. *)
Theorem C65_swap_matrices : forall A (m : mem A) a b r n offa offb, fits m a (r ++ [n]) offa -> fits m b (r ++ [n]) offb -> 2 <= prod r ->
  hsize A m a < offa + prod (r ++ [n]) + n -> swap_vars A m a b = UB OutOfBounds.
Proof. exact swap_over. Qed.
Example C65_ex : fits m2 (v223 0) ([2; 2] ++ [3]) 0 /\ fits m2 (v223 2) ([2; 2] ++ [3]) 0 /\ 2 <= prod [2; 2] /\ hsize Z m2 (v223 0) < 0 + prod ([2; 2] ++ [3]) + 3 /\
  fits m2 (mkop 0 None) [12] 0 /\ fits m2 (mkop 2 None) [12] 0 /\
  swap_vars Z m2 (mkop 0 None) (mkop 2 None) = Ok [repeat 0 12; nth 1 m2 []; nth 0 m2 []].
Proof. split; [fit|]. split; [fit|]. split; [vm_compute; discriminate|]. split; [reflexivity|]. split; [fit|]. split; [fit|vm_compute; reflexivity]. Qed.

(** * C66: dot with a vector *)
Lemma rows2_dot : forall A (add mul : A -> A -> A) (m : mem A) x y xs ys px py s, length xs = length ys ->
  (forall k, (k < length xs)%nat -> cell m x (px + Z.of_nat k) = nth_error xs k) ->
  (forall k, (k < length ys)%nat -> cell m y (py + Z.of_nat k) = nth_error ys k) ->
  odot A add mul s (rows2 A m x px y py (length xs)) = Some (fold_left (fun s p => add s (mul (fst p) (snd p))) (combine xs ys) s).
Proof.
  intros A add mul m x y xs. induction xs as [|a xs]; intros [|b ys] px py s Hl H1 H2; try discriminate; [reflexivity|].
  cbn [length rows2 combine]. unfold odot. cbn [fold_left fst snd].
  pose proof (H1 O ltac:(cbn [length]; lia)) as E1. pose proof (H2 O ltac:(cbn [length]; lia)) as E2. rewrite Z.add_0_r in E1, E2. rewrite E1, E2. cbn [nth_error lift2].
  apply IHxs; [simpl in Hl; lia| |].
  - intros k Hk. change (nth_error xs k) with (nth_error (a :: xs) (S k)). rewrite <- (H1 (S k)) by (cbn [length]; lia). f_equal. lia.
  - intros k Hk. change (nth_error ys k) with (nth_error (b :: ys) (S k)). rewrite <- (H2 (S k)) by (cbn [length]; lia). f_equal. lia.
Qed.
Theorem C66_dot_vector : forall A fuel (z zero : A) add mul (m : mem A) i x r n off offx, fits m i (r ++ [n]) off -> fits m x [n] offx -> n <> 1 ->
  exists m' o, dot_new A fuel z zero add mul m i (Arr A x) = Ok (m', o) /\ shapes A m' o = Ok (r ++ [1]) /\ kept m m' /\
    forall ir xs ys, in_range r ir -> Z.of_nat (length xs) = n -> row_is m i ir xs -> length ys = length xs -> row_is m x [] ys ->
      shown m' o (ir ++ [0]) = Some (fold_left (fun s p => add s (mul (fst p) (snd p))) (combine xs ys) zero).
Proof.
  intros A fuel z zero add mul m i x r n off offx Hi Hx Hn. pose proof (fits_lt _ _ _ _ _ Hi) as Lt. pose proof (fits_lt _ _ _ _ _ Hx) as Lx.
  destruct (scalarAlloc_ok A z m i r n off Hi) as (w & o & EA & Eo & FA).
  assert (Fi : fits (m ++ [w]) i (r ++ [n]) off) by (apply fits_app; auto). assert (Fx : fits (m ++ [w]) x [n] offx) by (apply fits_app; auto).
  unfold dot_new. replace (dot_alloc A z m i (Arr A x)) with (scalarAlloc A z m i) by (unfold dot_alloc; cbn [rhs_dim]; rewrite (fits_dim _ _ _ _ _ Hx); reflexivity).
  rewrite EA. cbn [obind].
  destruct (dot_ok A fuel zero add mul (m ++ [w]) i x o r n off offx 0 Fi Fx FA Hn) as (m' & E & U); [lia|lia|]. rewrite E. cbn [obind]. exists m', o.
  assert (Fo' : fits m' o (r ++ [1]) 0) by (eapply same_fits; [apply U|auto]).
  split; auto. split; [apply (fits_shapes A m' o _ _ Fo')|]. split; [rewrite Eo in U; eapply upd_new_kept; exact U|].
  intros ir xs ys Hir Hl Hrow Hly Hry. assert (Rt : in_range (r ++ [1]) (ir ++ [0])) by (apply Forall2_app; [auto|constructor; [lia|constructor]]).
  rewrite (shown_in A m' o _ _ _ Fo' Rt). pose proof (place_range _ _ Rt). destruct U as (_ & U & _). rewrite U by lia.
  rewrite place_app by (apply in_range_length; auto). cbn [prod place].
  replace (0 + (place r ir * (1 * 1) + (0 * 1 + 0)) - 0) with (place r ir) by lia.
  replace (Z.to_nat n) with (length xs) by lia. apply rows2_dot; auto; intros k Hk; rewrite cell_app_old by auto.
  - eapply row_cells; eauto.
  - rewrite <- (row_cells A m x [] n offx [] ys) by (auto; first [constructor|lia]). f_equal. cbn [place]. lia.
Qed.
(** With one element on the right the call never returns. *)
Theorem C66_dot_one_element_diverges : forall A fuel (z zero : A) add mul (m : mem A) i r n off y, fits m i (r ++ [n]) off ->
  ((exists s, y = Scal A s) \/ exists x offx, y = Arr A x /\ fits m x [1] offx) -> dot_new A fuel z zero add mul m i y = Fuel.
Proof.
  intros A fuel z zero add mul m i r n off y Hi Hy.
  destruct (scalarAlloc_ok A z m i r n off Hi) as (w & o & EA & Eo & FA).
  assert (Fi : fits (m ++ [w]) i (r ++ [n]) off) by (apply fits_app; auto). pose proof (fits_prod _ _ _ _ _ Fi) as P.
  unfold dot_new. replace (dot_alloc A z m i y) with (scalarAlloc A z m i).
  2:{ unfold dot_alloc. replace (rhs_dim A y) with 1; [reflexivity|]. destruct Hy as [(s & ->)|(x & offx & -> & Hx)]; [auto|]. cbn [rhs_dim].
      rewrite (fits_dim _ _ _ _ _ Hx). reflexivity. }
  rewrite EA. cbn [obind]. unfold dot_broadcast.
  assert (S1 : rhs_size A (m ++ [w]) y = Ok 1 /\ rhs_dim A y = 1).
  { destruct Hy as [(s & ->)|(x & offx & -> & Hx)]; [auto|]. assert (Fx : fits (m ++ [w]) x [1] offx) by (apply fits_app; auto). cbn [rhs_size rhs_dim].
    rewrite (fits_size _ _ _ _ _ Fx), (fits_dim _ _ _ _ _ Fx). auto. }
  destruct S1 as [-> ->]. cbn [obind]. replace ((1 =? 1) && (1 =? 1)) with true by reflexivity.
  rewrite (fits_size _ _ _ _ _ Fi). cbn [obind]. unfold for_to. destruct (Z.to_nat (prod (r ++ [n]))) as [|k] eqn:E; [lia|]. cbn [loop].
  rewrite rd_cell, (fits_offset _ _ _ _ _ Fi). destruct (fits_cell A (m ++ [w]) i _ _ 0 Fi) as (v & ->); [lia|]. cbn [obind].
  assert (D : forall f, dot_elem A f v y = Fuel) by (induction f; auto). rewrite D. auto.
Qed.
Example C66_ex : fits m2 w23 ([2] ++ [3]) 0 /\ fits m2 (mkop 1 (Some [1; 3; 1])) [3] 1 /\ row_is m2 w23 [1] [40; 50; 60] /\ row_is m2 (mkop 1 (Some [1; 3; 1])) [] [20; 30; 40] /\
  match dot_new Z 0 0 0 Z.add Z.mul m2 w23 (Arr Z (mkop 1 (Some [1; 3; 1]))) with Ok (m', o) => shown m' o [1; 0] = Some 4700 | _ => False end.
Proof.
  split; [fit|]. split; [fit|]. split; [intros [|[|[|k]]] Hk; try reflexivity; cbn [length] in Hk; lia|].
  split; [intros [|[|[|k]]] Hk; try reflexivity; cbn [length] in Hk; lia|]. vm_compute. reflexivity.
Qed.

(** * C67: concatenate *)
(** [l] lists the inputs with offset and row length. *)
Theorem C67_concatenate : forall A (z : A) (m : mem A) r (l : list (opd * Z * Z)), l <> [] ->
  Forall (fun x => fits m (fst (fst x)) (r ++ [snd x]) (snd (fst x))) l ->
  prod r * fold_right (fun x s => snd x + s) 0 l <= INT_MAX ->
  exists m' o, cat_new A z m (map (fun x => fst (fst x)) l) = Ok (m', o) /\ shapes A m' o = Ok (r ++ [fold_right (fun x s => snd x + s) 0 l]) /\ kept m m' /\
    forall pre x post ir c, l = pre ++ x :: post -> in_range r ir -> 0 <= c < snd x ->
      shown m' o (ir ++ [fold_right (fun x s => snd x + s) 0 pre + c]) = shown m (fst (fst x)) (ir ++ [c]).
Proof.
  intros A z m r l Hne HF Hm.
  assert (W : forall l, width l = fold_right (fun x s => snd x + s) 0 l) by (induction l0; cbn [width fold_right]; auto; rewrite IHl0; auto).
  rewrite <- W in *. destruct (cat_new_ok A z m r l Hne HF Hm) as (m' & o & E & Eo & Fo & K & H).
  exists m', o. split; auto. split; [apply (fits_shapes A m' o _ _ Fo)|]. split; [intros b j Hb; apply K; lia|].
  intros pre x post ir c El Hir Hc. rewrite <- W.
  assert (Fx : fits m (fst (fst x)) (r ++ [snd x]) (snd (fst x))) by (rewrite Forall_forall in HF; apply HF; rewrite El; apply in_elt).
  assert (N : Forall (fun y : opd * Z * Z => 0 <= snd y) l).
  { eapply Forall_impl; [|exact HF]. intros y (_ & Py & _). apply positive_app in Py. destruct Py as [_ Py]. inversion Py; lia. }
  assert (Wl : width l = width pre + (snd x + width post)).
  { rewrite El. clear. induction pre; cbn [app width]; [lia|]. rewrite IHpre. lia. }
  assert (NN : forall l, Forall (fun y : opd * Z * Z => 0 <= snd y) l -> 0 <= width l) by (intros l0 H0; induction H0; cbn [width]; lia).
  rewrite El in N. apply Forall_app in N. destruct N as [N1 N2]. inversion N2 as [|? ? Nx N3]; subst x0 l0. pose proof (NN _ N1). pose proof (NN _ N3).
  assert (R1 : in_range (r ++ [width l]) (ir ++ [width pre + c])) by (apply Forall2_app; [auto|constructor; [lia|constructor]]).
  assert (R2 : in_range (r ++ [snd x]) (ir ++ [c])) by (apply Forall2_app; [auto|constructor; [lia|constructor]]).
  rewrite (shown_in A m' o _ _ _ Fo R1), (shown_in A m _ _ _ _ Fx R2). rewrite Eo. rewrite !place_app by (apply in_range_length; auto). cbn [prod place].
  pose proof (place_range _ _ Hir).
  replace (0 + (place r ir * (width l * 1) + ((width pre + c) * 1 + 0))) with (width l * place r ir + (width pre + c)) by lia.
  rewrite H by lia. rewrite El. rewrite pick_at by auto. f_equal. lia.
Qed.
Example C67_ex : Forall (fun x => fits m2 (fst (fst x)) ([2] ++ [snd x]) (snd (fst x))) [(mkop 0 (Some [2; 2; 2; 2; 1]), 2, 2); (w23, 0, 3)] /\
  match cat_new Z 0 m2 [mkop 0 (Some [2; 2; 2; 2; 1]); w23] with Ok (m', o) => nth 3 m' [] = [2; 3; 10; 20; 30; 4; 5; 40; 50; 60] | _ => False end.
Proof. split; [constructor; [|constructor; [|constructor]]; cbn [fst snd]; fit|vm_compute; reflexivity]. Qed.

Print Assumptions C48_view_indexing.
Print Assumptions C49_negative_offset_refuted.
Print Assumptions C53_mul_new.
Print Assumptions C55_same_as_out_of_place.
Print Assumptions C56_poly.
Print Assumptions C66_dot_vector.
Print Assumptions C67_concatenate.
