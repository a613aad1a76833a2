(** Lemmas for views and array functions. *)
From Coq Require Import ZArith Bool List Lia ZifyBool.
From Verif Require Import Base StrModel StrProof GeoModel GeoSpec.
Import ListNotations.
Local Open Scope Z_scope.

(** * Shapes *)
Lemma prod_pos : forall sh, positive sh -> 1 <= prod sh.
Proof. induction 1; cbn [prod]; [lia|nia]. Qed.
Lemma prod_nonneg : forall sh, Forall (fun d => 0 <= d) sh -> 0 <= prod sh.
Proof. induction 1; cbn [prod]; [lia|nia]. Qed.
Lemma prod_app : forall a b, prod (a ++ b) = prod a * prod b.
Proof. induction a; intros b; cbn [prod app]; [destruct (prod b); auto|rewrite IHa; lia]. Qed.
Lemma positive_app : forall a b, positive (a ++ b) <-> positive a /\ positive b.
Proof. intros. apply Forall_app. Qed.
Lemma place_range : forall sh idx, in_range sh idx -> 0 <= place sh idx < prod sh.
Proof. induction 1; cbn [prod place]; [lia|nia]. Qed.
Lemma place_app : forall r d ir id, length ir = length r -> place (r ++ d) (ir ++ id) = place r ir * prod d + place d id.
Proof.
  induction r; intros d [|i ir] id H; try discriminate; cbn [app place].
  - lia.
  - rewrite IHr by (simpl in H; lia). rewrite prod_app. lia.
Qed.
Lemma in_range_app : forall r d ir id, length ir = length r -> in_range (r ++ d) (ir ++ id) <-> in_range r ir /\ in_range d id.
Proof.
  intros r d ir id H. split.
  - revert ir H. induction r; intros [|i ir] H X; try discriminate; cbn [app] in X.
    + split; [constructor|auto].
    + inversion X; subst. destruct (IHr ir) as [A B]; [simpl in H; lia|auto|]. split; [constructor; auto|auto].
  - intros [A B]. apply Forall2_app; auto.
Qed.
Lemma in_range_length : forall sh idx, in_range sh idx -> length idx = length sh.
Proof. induction 1; cbn [length]; auto. Qed.
Lemma place_inj : forall sh i j, in_range sh i -> in_range sh j -> place sh i = place sh j -> i = j.
Proof.
  intros sh i j H. revert j. induction H as [|d x sh i Hd Hr IH]; intros j Hj E.
  - inversion Hj; auto.
  - inversion Hj as [|? y ? j' Hy Hj']; subst. cbn [place] in E.
    pose proof (place_range _ _ Hr). pose proof (place_range _ _ Hj').
    assert (x = y) by nia. subst. f_equal. apply IH; auto. lia.
Qed.
Lemma place_onto : forall sh k, positive sh -> 0 <= k < prod sh -> exists idx, in_range sh idx /\ place sh idx = k.
Proof.
  induction sh as [|d sh]; intros k Hp Hk; cbn [prod] in Hk.
  - exists []. split; [constructor|]. cbn [place]. lia.
  - inversion Hp as [|? ? Hd Hp']; subst. pose proof (prod_pos sh Hp').
    destruct (IHsh (k mod prod sh) Hp') as (idx & H1 & H2); [apply Z.mod_pos_bound; lia|].
    exists (k / prod sh :: idx). split.
    + constructor; auto. split; [apply Z.div_pos; lia|]. apply Z.div_lt_upper_bound; lia.
    + cbn [place]. rewrite H2. rewrite Z.mul_comm. symmetry. apply Z.div_mod. lia.
Qed.
(** Splitting a tuple. *)
Lemma in_range_split : forall r d idx, in_range (r ++ d) idx -> exists ir id, idx = ir ++ id /\ in_range r ir /\ in_range d id.
Proof. intros r d idx H. apply Forall2_app_inv_l in H. destruct H as (ir & id & A & B & ->). eauto. Qed.

Lemma skipn_cons : forall (sh : list Z) k, (k < length sh)%nat -> skipn k sh = nth k sh 0 :: skipn (S k) sh.
Proof. induction sh; intros [|k] H; simpl in H; try lia; [reflexivity|]. cbn [skipn nth]. apply IHsh. lia. Qed.
(** * Descriptors *)
Lemma dims_length : forall sh, length (dims sh) = (2 * length sh)%nat.
Proof. induction sh; cbn [dims length]; lia. Qed.
Lemma dims_shape : forall sh k, (k < length sh)%nat -> nth (2 * k) (dims sh) 0 = nth k sh 0.
Proof.
  induction sh; intros k Hk; [simpl in Hk; lia|]. destruct k; [reflexivity|].
  replace (2 * S k)%nat with (S (S (2 * k))) by lia. cbn [dims nth]. apply IHsh. simpl in Hk. lia.
Qed.
Lemma dims_stride : forall sh k, (k < length sh)%nat -> nth (2 * k + 1) (dims sh) 0 = prod (skipn (S k) sh).
Proof.
  induction sh; intros k Hk; [simpl in Hk; lia|]. destruct k; [reflexivity|].
  replace (2 * S k + 1)%nat with (S (S (2 * k + 1))) by lia. cbn [dims nth skipn]. apply IHsh. simpl in Hk. lia.
Qed.
Lemma fill_length : forall sh, length (fill_shape sh) = (2 * length sh)%nat.
Proof. induction sh; cbn [fill_shape length]; lia. Qed.
Lemma fill_app : forall a b, fill_shape (a ++ b) = fill_shape a ++ fill_shape b.
Proof. induction a; intros; cbn [app fill_shape]; [auto|rewrite IHa; auto]. Qed.
Lemma imul_ok : forall a b r, imul a b = Ok r -> r = a * b /\ in_int (a * b) = true.
Proof. intros a b r. unfold imul. destruct (in_int (a * b)) eqn:E; [|discriminate]. intros H; inversion H. auto. Qed.
Lemma imul_in : forall a b, in_int (a * b) = true -> imul a b = Ok (a * b).
Proof. intros a b H. unfold imul. rewrite H. auto. Qed.
Lemma iadd_in : forall a b, in_int (a + b) = true -> iadd a b = Ok (a + b).
Proof. intros a b H. unfold iadd. rewrite H. auto. Qed.
Lemma in_int_small : forall x, 0 <= x <= INT_MAX -> in_int x = true.
Proof. intros x H. unfold in_int, INT_MIN, INT_MAX in *. lia. Qed.
Lemma strides_loop_ok : forall pre post o ip p, strides_loop (length pre) (o :: fill_shape pre ++ dims post) (prod post) = Ok (ip, p) ->
  ip = o :: dims (pre ++ post) /\ p = prod (pre ++ post).
Proof.
  induction pre as [|d pre] using rev_ind; intros post o ip p H.
  - cbn [length strides_loop fill_shape app] in H. inversion H; auto.
  - rewrite app_length, Nat.add_comm in H. cbn [length Nat.add strides_loop] in H.
    rewrite fill_app in H. cbn [fill_shape] in H. rewrite <- app_assoc in H. cbn [app] in H.
    assert (E : set_nth (o :: fill_shape pre ++ d :: 0 :: dims post) (2 * length pre + 2) (prod post)
              = o :: fill_shape pre ++ dims (d :: post)).
    { replace (2 * length pre + 2)%nat with (S (2 * length pre + 1)) by lia. cbn [set_nth]. f_equal.
      rewrite set_nth_app2 by (rewrite fill_length; lia). f_equal. rewrite fill_length.
      replace (2 * length pre + 1 - 2 * length pre)%nat with 1%nat by lia. reflexivity. }
    rewrite E in H. clear E.
    assert (E2 : nth (2 * length pre + 1) (o :: fill_shape pre ++ dims (d :: post)) 0 = d).
    { replace (2 * length pre + 1)%nat with (S (2 * length pre)) by lia. cbn [nth].
      rewrite app_nth2 by (rewrite fill_length; lia). rewrite fill_length, Nat.sub_diag. reflexivity. }
    rewrite E2 in H. destruct (imul (prod post) d) as [p'| | |] eqn:Ei; try discriminate. cbn [obind] in H.
    apply imul_ok in Ei. destruct Ei as [-> _].
    replace (prod post * d) with (prod (d :: post)) in H by (cbn [prod]; lia).
    apply IHpre in H. rewrite <- app_assoc. exact H.
Qed.
(** With positive dimensions and the product an int nothing overflows. *)
Lemma strides_loop_run : forall pre post o, positive (pre ++ post) -> prod (pre ++ post) <= INT_MAX ->
  exists ip p, strides_loop (length pre) (o :: fill_shape pre ++ dims post) (prod post) = Ok (ip, p).
Proof.
  induction pre as [|d pre] using rev_ind; intros post o Hp Hm; [eexists; eexists; reflexivity|].
  rewrite app_length, Nat.add_comm. cbn [length Nat.add strides_loop].
  rewrite fill_app. cbn [fill_shape]. rewrite <- app_assoc. cbn [app].
  assert (E : set_nth (o :: fill_shape pre ++ d :: 0 :: dims post) (2 * length pre + 2) (prod post)
            = o :: fill_shape pre ++ dims (d :: post)).
  { replace (2 * length pre + 2)%nat with (S (2 * length pre + 1)) by lia. cbn [set_nth]. f_equal.
    rewrite set_nth_app2 by (rewrite fill_length; lia). f_equal. rewrite fill_length.
    replace (2 * length pre + 1 - 2 * length pre)%nat with 1%nat by lia. reflexivity. }
  rewrite E. clear E.
  assert (E2 : nth (2 * length pre + 1) (o :: fill_shape pre ++ dims (d :: post)) 0 = d).
  { replace (2 * length pre + 1)%nat with (S (2 * length pre)) by lia. cbn [nth].
    rewrite app_nth2 by (rewrite fill_length; lia). rewrite fill_length, Nat.sub_diag. reflexivity. }
  rewrite E2. rewrite <- app_assoc in Hp, Hm. cbn [app] in Hp, Hm.
  rewrite imul_in.
  - cbn [obind]. replace (prod post * d) with (prod (d :: post)) by (cbn [prod]; lia). apply IHpre; auto.
  - apply in_int_small. apply positive_app in Hp. destruct Hp as [Hp1 Hp2]. pose proof (prod_pos _ Hp1). pose proof (prod_pos _ Hp2).
    rewrite prod_app in Hm. cbn [prod] in *. nia.
Qed.
Lemma fill_dims_nil : forall sh, fill_shape sh = fill_shape sh ++ dims [].
Proof. intros. rewrite app_nil_r. auto. Qed.
Lemma view_ctor_ok : forall hs old sh off ip, view_ctor hs old sh off = Ok ip ->
  sh <> [] /\ ip = (old + off) :: dims sh /\ prod sh + (old + off) <= hs.
Proof.
  intros hs old sh off ip H. unfold view_ctor in H. destruct (iadd old off) as [o| | |] eqn:Eo; try discriminate. cbn [obind] in H.
  assert (o = old + off) by (unfold iadd in Eo; destruct (in_int _); inversion Eo; auto). subst o.
  unfold setStrides in H. destruct (Z.of_nat (length sh) <? 1) eqn:El; [discriminate|].
  rewrite fill_dims_nil in H. change 1 with (prod []) in H.
  destruct (strides_loop _ _ (prod [])) as [[ip' p]| | |] eqn:Es; try discriminate. cbn [obind] in H.
  apply strides_loop_ok in Es. rewrite app_nil_r in Es. destruct Es as [-> ->].
  cbn [nth] in H. unfold iadd in H. destruct (in_int (prod sh + (old + off))); try discriminate. cbn [obind] in H.
  destruct (hs <? prod sh + (old + off)) eqn:Eh; inversion H; subst. split; [destruct sh; [discriminate|congruence]|]. split; auto. lia.
Qed.
Lemma view_ctor_run : forall hs old sh off, sh <> [] -> positive sh -> 0 <= old + off -> prod sh + (old + off) <= hs -> hs <= INT_MAX ->
  view_ctor hs old sh off = Ok ((old + off) :: dims sh).
Proof.
  intros hs old sh off Hne Hp Ho Hs Hm. pose proof (prod_pos _ Hp). unfold view_ctor.
  rewrite iadd_in by (apply in_int_small; lia). cbn [obind]. unfold setStrides.
  destruct (Z.of_nat (length sh) <? 1) eqn:El; [destruct sh; [congruence|simpl in El; lia]|].
  rewrite fill_dims_nil. destruct (strides_loop_run sh [] (old + off)) as (ip & p & E); [rewrite app_nil_r; auto|rewrite app_nil_r; lia|].
  change 1 with (prod []) at 1. rewrite E. cbn [obind]. apply strides_loop_ok in E. rewrite app_nil_r in E. destruct E as [-> ->].
  cbn [nth]. rewrite iadd_in by (apply in_int_small; lia). cbn [obind].
  destruct (hs <? prod sh + (old + off)) eqn:Eh; [lia|auto].
Qed.
Lemma v_shape_dims : forall off sh k, 0 <= k < Z.of_nat (length sh) -> v_shape (off :: dims sh) k = Ok (nth (Z.to_nat k) sh 0).
Proof.
  intros off sh k Hk. unfold v_shape. cbn [length]. rewrite dims_length.
  destruct ((k * 2 + 1 <? 0) || (Z.of_nat (S (2 * length sh)) <=? k * 2 + 1)) eqn:E; [lia|].
  f_equal. replace (Z.to_nat (k * 2 + 1)) with (S (2 * Z.to_nat k)) by lia. cbn [nth]. apply dims_shape. lia.
Qed.
Lemma v_stride_dims : forall off sh k, 0 <= k < Z.of_nat (length sh) -> v_stride (off :: dims sh) k = Ok (prod (skipn (S (Z.to_nat k)) sh)).
Proof.
  intros off sh k Hk. unfold v_stride. cbn [length]. rewrite dims_length.
  destruct ((k * 2 + 2 <? 0) || (Z.of_nat (S (2 * length sh)) <=? k * 2 + 2)) eqn:E; [lia|].
  f_equal. replace (Z.to_nat (k * 2 + 2)) with (S (2 * Z.to_nat k + 1)) by lia. cbn [nth]. apply dims_stride. lia.
Qed.
Lemma v_dim_dims : forall off sh, v_dim (off :: dims sh) = Z.of_nat (length sh).
Proof.
  intros. unfold v_dim. cbn [length]. rewrite dims_length.
  replace (Z.of_nat (S (2 * length sh)) - 1) with (Z.of_nat (length sh) * 2) by lia. apply Z.div_mul. lia.
Qed.
Lemma v_size_dims : forall off sh, sh <> [] -> in_int (prod sh) = true -> v_size (off :: dims sh) = Ok (prod sh).
Proof.
  intros off sh Hne Hi. unfold v_size. destruct sh as [|d sh]; [congruence|].
  rewrite v_stride_dims by (cbn [length]; lia). rewrite v_shape_dims by (cbn [length]; lia). cbn [obind]. change (Z.to_nat 0) with 0%nat.
  cbn [skipn nth prod] in *. rewrite imul_in by (rewrite Z.mul_comm; auto). f_equal. lia.
Qed.

(** * Fitting operands *)
Section Fits.
Variable A : Type.
Implicit Types (m : mem A) (o : opd).
Lemma fits_prod : forall m o sh off, fits m o sh off -> 1 <= prod sh /\ 0 <= off /\ off + prod sh <= hsize A m o /\ hsize A m o <= INT_MAX.
Proof. intros m o sh off (H1 & H2 & H3 & H4 & _). pose proof (prod_pos _ H2). unfold hsize, arr. lia. Qed.
Lemma fits_dim : forall m o sh off, fits m o sh off -> dim o = Z.of_nat (length sh).
Proof.
  intros m o sh off (H1 & H2 & H3 & H4 & [(E & _ & ->)|E]); unfold dim; rewrite E; [reflexivity|apply v_dim_dims].
Qed.
Lemma fits_offset : forall m o sh off, fits m o sh off -> offset o = off.
Proof. intros m o sh off (H1 & H2 & H3 & H4 & [(E & -> & ->)|E]); unfold offset; rewrite E; reflexivity. Qed.
Lemma fits_size : forall m o sh off, fits m o sh off -> size A m o = Ok (prod sh).
Proof.
  intros m o sh off H. pose proof (fits_prod _ _ _ _ H). destruct H as (H1 & H2 & H3 & H4 & [(E & -> & ->)|E]); unfold size; rewrite E.
  - unfold hsize, arr. cbn [prod]. f_equal. lia.
  - apply v_size_dims; auto. apply in_int_small. lia.
Qed.
Lemma fits_shape : forall m o sh off k, fits m o sh off -> 0 <= k < Z.of_nat (length sh) -> shape A m o k = Ok (nth (Z.to_nat k) sh 0).
Proof.
  intros m o sh off k H Hk. unfold shape. destruct (k <? 0) eqn:Ek; [lia|].
  destruct H as (H1 & H2 & H3 & H4 & [(E & -> & ->)|E]); rewrite E.
  - cbn [length] in Hk. destruct (0 <? k) eqn:X; [lia|]. replace k with 0 by lia. reflexivity.
  - apply v_shape_dims; auto.
Qed.
Lemma fits_shape_neg : forall m o sh off k, fits m o sh off -> - Z.of_nat (length sh) <= k < 0 ->
  shape A m o k = Ok (nth (Z.to_nat (Z.of_nat (length sh) + k)) sh 0).
Proof.
  intros m o sh off k H Hk. rewrite <- (fits_shape m o sh off (Z.of_nat (length sh) + k)) by (auto; lia).
  unfold shape. rewrite (fits_dim _ _ _ _ H). destruct (k <? 0) eqn:Ek; [|lia]. destruct (Z.of_nat (length sh) + k <? 0) eqn:X; [lia|]. auto.
Qed.
Lemma fits_stride : forall m o sh off k, fits m o sh off -> 0 <= k < Z.of_nat (length sh) -> stride o k = Ok (prod (skipn (S (Z.to_nat k)) sh)).
Proof.
  intros m o sh off k H Hk. unfold stride.
  destruct H as (H1 & H2 & H3 & H4 & [(E & -> & ->)|E]); rewrite E.
  - cbn [length] in Hk. destruct (0 <? k) eqn:X; [lia|]. replace k with 0 by lia. reflexivity.
  - apply v_stride_dims; auto.
Qed.
Lemma shape_loop_ok : forall m o sh off n k, fits m o sh off -> (k + n = length sh)%nat ->
  shape_loop A m o n (Z.of_nat k) = Ok (skipn k sh).
Proof.
  intros m o sh off n. induction n; intros k H Hk; cbn [shape_loop].
  - rewrite skipn_all2 by lia. auto.
  - rewrite (fits_shape m o sh off) by (auto; lia). cbn [obind].
    replace (Z.of_nat k + 1) with (Z.of_nat (S k)) by lia. rewrite IHn by (auto; lia). cbn [obind]. f_equal.
    rewrite Nat2Z.id. symmetry. apply skipn_cons. lia.
Qed.
Lemma fits_shapes : forall m o sh off, fits m o sh off -> shapes A m o = Ok sh.
Proof.
  intros m o sh off H. unfold shapes. rewrite (fits_dim _ _ _ _ H), Nat2Z.id. change 0 with (Z.of_nat 0).
  rewrite (shape_loop_ok m o sh off) by (auto; lia). reflexivity.
Qed.
Lemma mkview_fits : forall m o sh off sh2 k, fits m o sh off -> sh2 <> [] -> positive sh2 -> 0 <= off + k -> off + k + prod sh2 <= hsize A m o ->
  mkview A m o sh2 k = Ok (mkop (o_arr o) (Some ((off + k) :: dims sh2))) /\
  fits m (mkop (o_arr o) (Some ((off + k) :: dims sh2))) sh2 (off + k).
Proof.
  intros m o sh off sh2 k H Hne Hp Hk Hs. pose proof (fits_prod _ _ _ _ H) as F. split.
  - unfold mkview. rewrite (fits_offset _ _ _ _ H). rewrite view_ctor_run by (auto; lia). reflexivity.
  - split; [auto|]. split; [auto|]. split; [auto|]. cbn [o_arr o_ip]. split; [unfold hsize, arr in *; lia|auto].
Qed.

(** The indexing expression. *)
Lemma bounds_in : forall m o sh off k i, fits m o sh off -> 0 <= k < Z.of_nat (length sh) -> 0 <= i < nth (Z.to_nat k) sh 0 ->
  bounds A m o k i = Ok tt.
Proof. intros m o sh off k i H Hk Hi. unfold bounds. rewrite (fits_shape m o sh off) by auto. cbn [obind]. 
  destruct ((i <? 0) || (nth (Z.to_nat k) sh 0 <=? i)) eqn:E; [lia|auto]. Qed.
Lemma bounds_out : forall m o sh off k i, fits m o sh off -> 0 <= k < Z.of_nat (length sh) -> ~ 0 <= i < nth (Z.to_nat k) sh 0 ->
  exists msg, bounds A m o k i = Throw msg.
Proof. intros m o sh off k i H Hk Hi. unfold bounds. rewrite (fits_shape m o sh off) by auto. cbn [obind]. 
  destruct ((i <? 0) || (nth (Z.to_nat k) sh 0 <=? i)) eqn:E; [eauto|lia]. Qed.
Lemma positive_skipn : forall k sh, positive sh -> positive (skipn k sh).
Proof. intros k sh H. rewrite <- (firstn_skipn k sh) in H. apply positive_app in H. tauto. Qed.
Lemma paren_loop_in : forall m o pre sh off idx, fits m o (pre ++ sh) off -> in_range sh idx -> forall p,
  0 <= p -> p + prod sh <= INT_MAX ->
  paren_loop A m o (length sh) (Z.of_nat (length pre)) idx p = Ok (p + place sh idx).
Proof.
  intros m o pre sh. revert pre. induction sh as [|d sh]; intros pre off idx H Hr p Hp Hm; inversion Hr as [|? i ? is Hi Hr']; subst.
  - cbn [length paren_loop place]. f_equal. lia.
  - cbn [length paren_loop].
    assert (Hn : nth (Z.to_nat (Z.of_nat (length pre))) (pre ++ d :: sh) 0 = d).
    { rewrite Nat2Z.id, app_nth2, Nat.sub_diag by lia. auto. }
    rewrite (bounds_in m o (pre ++ d :: sh) off) by (first [eassumption|rewrite app_length; simpl; lia|rewrite Hn; assumption]). cbn [obind].
    rewrite (fits_stride m o (pre ++ d :: sh) off) by (auto; rewrite app_length; simpl; lia). cbn [obind].
    rewrite Nat2Z.id. replace (skipn (S (length pre)) (pre ++ d :: sh)) with sh.
    2:{ rewrite skipn_app, skipn_all2 by lia. replace (S (length pre) - length pre)%nat with 1%nat by lia. reflexivity. }
    assert (Hpos : positive sh).
    { destruct H as (_ & H & _). apply positive_app in H. destruct H as [_ H]. inversion H; auto. }
    pose proof (prod_pos _ Hpos). pose proof (place_range _ _ Hr'). cbn [prod] in Hm.
    rewrite imul_in by (apply in_int_small; nia). cbn [obind]. rewrite iadd_in by (apply in_int_small; nia). cbn [obind].
    specialize (IHsh (pre ++ [d]) off is). rewrite app_length in IHsh. cbn [length] in IHsh.
    replace (Z.of_nat (length pre) + 1) with (Z.of_nat (length pre + 1)) by lia. rewrite IHsh.
    + cbn [place]. f_equal. lia.
    + rewrite <- app_assoc. auto.
    + auto.
    + nia.
    + nia.
Qed.
Lemma paren_in : forall m o sh off idx, fits m o sh off -> in_range sh idx -> paren A m o idx = Ok (off + place sh idx).
Proof.
  intros m o sh off idx H Hr. pose proof (fits_prod _ _ _ _ H) as F. pose proof (place_range _ _ Hr) as P.
  destruct sh as [|d sh]; [destruct H as (X & _); congruence|]. inversion Hr as [|? i ? is Hi Hr']; subst.
  unfold paren. rewrite (fits_stride m o (d :: sh) off) by (auto; simpl; lia). cbn [obind skipn]. change (Z.to_nat 0) with 0%nat.
  cbn [skipn]. cbn [prod place] in *.
  assert (Hpos : positive sh) by (destruct H as (_ & H & _); inversion H; auto). pose proof (prod_pos _ Hpos). pose proof (place_range _ _ Hr').
  rewrite imul_in by (apply in_int_small; nia). cbn [obind].
  rewrite (bounds_in m o (d :: sh) off) by (auto; simpl; lia). cbn [obind].
  rewrite (fits_dim _ _ _ _ H). cbn [length]. rewrite Nat2Z.id. replace (S (length sh) - 1)%nat with (length sh) by lia.
  change 1 with (Z.of_nat (length [d])). rewrite (paren_loop_in m o [d] sh off is) by (auto; nia). cbn [obind].
  rewrite (fits_offset _ _ _ _ H). rewrite iadd_in by (apply in_int_small; lia). f_equal. lia.
Qed.
Lemma paren_loop_out : forall m o pre sh off idx, fits m o (pre ++ sh) off -> length idx = length sh -> ~ in_range sh idx -> forall p,
  0 <= p -> p + prod sh <= INT_MAX ->
  exists msg, paren_loop A m o (length sh) (Z.of_nat (length pre)) idx p = Throw msg.
Proof.
  intros m o pre sh. revert pre. induction sh as [|d sh]; intros pre off idx H Hl Hr p Hp Hm; destruct idx as [|i is]; try discriminate.
  - exfalso. apply Hr. constructor.
  - cbn [length paren_loop].
    assert (Hn : nth (Z.to_nat (Z.of_nat (length pre))) (pre ++ d :: sh) 0 = d).
    { rewrite Nat2Z.id, app_nth2, Nat.sub_diag by lia. auto. }
    assert (Hpos : positive sh).
    { destruct H as (_ & H & _). apply positive_app in H. destruct H as [_ H]. inversion H; auto. }
    pose proof (prod_pos _ Hpos). cbn [prod] in Hm.
    assert (C : 0 <= i < d \/ ~ 0 <= i < d) by lia. destruct C as [C|C].
    + rewrite (bounds_in m o (pre ++ d :: sh) off) by (first [eassumption|rewrite app_length; simpl; lia|rewrite Hn; assumption]). cbn [obind].
      rewrite (fits_stride m o (pre ++ d :: sh) off) by (auto; rewrite app_length; simpl; lia). cbn [obind].
      rewrite Nat2Z.id. replace (skipn (S (length pre)) (pre ++ d :: sh)) with sh.
      2:{ rewrite skipn_app, skipn_all2 by lia. replace (S (length pre) - length pre)%nat with 1%nat by lia. reflexivity. }
      rewrite imul_in by (apply in_int_small; nia). cbn [obind]. rewrite iadd_in by (apply in_int_small; nia). cbn [obind].
      specialize (IHsh (pre ++ [d]) off is). rewrite app_length in IHsh. cbn [length] in IHsh.
      replace (Z.of_nat (length pre) + 1) with (Z.of_nat (length pre + 1)) by lia. apply IHsh.
      * rewrite <- app_assoc. auto.
      * simpl in Hl. lia.
      * intros X. apply Hr. constructor; auto.
      * nia.
      * nia.
    + destruct (bounds_out m o (pre ++ d :: sh) off (Z.of_nat (length pre)) i) as (msg & ->); auto; [rewrite app_length; simpl; lia|rewrite Hn; auto|].
      exists msg. reflexivity.
Qed.
Lemma paren_out : forall m o sh off idx, fits m o sh off -> length idx = length sh -> ~ in_range sh idx ->
  if in_int (hd 0 idx * prod (tl sh)) then exists msg, paren A m o idx = Throw msg else paren A m o idx = UB SignedOverflow.
Proof.
  intros m o sh off idx H Hl Hr. pose proof (fits_prod _ _ _ _ H) as F.
  destruct sh as [|d sh]; [destruct H as (X & _); congruence|]. destruct idx as [|i is]; [discriminate|]. cbn [hd tl].
  unfold paren. rewrite (fits_stride m o (d :: sh) off) by (auto; simpl; lia). cbn [obind skipn]. change (Z.to_nat 0) with 0%nat.
  cbn [skipn]. unfold imul. destruct (in_int (i * prod sh)) eqn:E; [|reflexivity]. cbn [obind].
  assert (Hpos : positive sh) by (destruct H as (_ & H & _); inversion H; auto). pose proof (prod_pos _ Hpos).
  assert (C : 0 <= i < d \/ ~ 0 <= i < d) by lia. destruct C as [C|C].
  - rewrite (bounds_in m o (d :: sh) off) by (auto; simpl; lia). cbn [obind].
    rewrite (fits_dim _ _ _ _ H). cbn [length]. rewrite Nat2Z.id. replace (S (length sh) - 1)%nat with (length sh) by lia.
    change 1 with (Z.of_nat (length [d])). cbn [prod] in F.
    destruct (paren_loop_out m o [d] sh off is) with (p := i * prod sh) as (msg & ->); auto; try nia.
    + intros X. apply Hr. constructor; auto.
    + exists msg. reflexivity.
  - destruct (bounds_out m o (d :: sh) off 0 i) as (msg & ->); auto; [simpl; lia|]. exists msg. reflexivity.
Qed.
Lemma shown_in : forall m o sh off idx, fits m o sh off -> in_range sh idx -> shown m o idx = cell m (o_arr o) (off + place sh idx).
Proof. intros m o sh off idx H Hr. unfold shown. rewrite (paren_in m o sh off); auto. Qed.

(** * Cells *)
Lemma rd_cell : forall m a i, rd A m a i = match cell m a i with Some x => Ok x | None => UB OutOfBounds end.
Proof. intros. unfold rd, cell, arr. destruct (i <? 0); auto. Qed.
Lemma cell_some : forall m a i, 0 <= i < Z.of_nat (length (arr A m a)) -> exists x, cell m a i = Some x.
Proof.
  intros m a i H. unfold cell. destruct (i <? 0) eqn:E; [lia|]. unfold arr in H.
  destruct (nth_error (nth a m []) (Z.to_nat i)) eqn:X; eauto. apply nth_error_None in X. lia.
Qed.
Lemma cell_bound : forall m a i x, cell m a i = Some x -> 0 <= i < Z.of_nat (length (arr A m a)).
Proof.
  intros m a i x H. unfold cell in H. destruct (i <? 0) eqn:E; [discriminate|]. unfold arr.
  assert (nth_error (nth a m []) (Z.to_nat i) <> None) by congruence. apply nth_error_Some in H0. lia.
Qed.
Definition same_size m m' : Prop := length m = length m' /\ forall b, length (arr A m b) = length (arr A m' b).
Lemma same_size_refl : forall m, same_size m m.
Proof. split; auto. Qed.
Lemma same_size_trans : forall a b c, same_size a b -> same_size b c -> same_size a c.
Proof. intros a b c [H1 H2] [H3 H4]. split; [congruence|]. intros. rewrite H2. auto. Qed.
Lemma nth_set : forall B (l : list B) i x j d, (i < length l)%nat -> nth j (set_nth l i x) d = if Nat.eqb j i then x else nth j l d.
Proof.
  induction l; intros i x j d H; [simpl in H; lia|]. destruct i, j; cbn [set_nth nth Nat.eqb]; auto. apply IHl. simpl in H. lia.
Qed.
Lemma nth_error_set : forall B (l : list B) i x j, (i < length l)%nat -> nth_error (set_nth l i x) j = if Nat.eqb j i then Some x else nth_error l j.
Proof.
  induction l; intros i x j H; [simpl in H; lia|]. destruct i, j; cbn [set_nth nth_error Nat.eqb]; auto. apply IHl. simpl in H. lia.
Qed.
Lemma wr_ok : forall m a i x, 0 <= i < Z.of_nat (length (arr A m a)) -> exists m', wr A m a i x = Ok m' /\ same_size m m' /\
  forall b j, cell m' b j = if Nat.eqb b a && (j =? i) then Some x else cell m b j.
Proof.
  intros m a i x H. unfold wr. destruct ((i <? 0) || (Z.of_nat (length (arr A m a)) <=? i)) eqn:E; [lia|].
  assert (Ha : (a < length m)%nat).
  { destruct (Nat.ltb_spec a (length m)); auto. unfold arr in H. rewrite nth_overflow in H by lia. simpl in H. lia. }
  eexists. split; [reflexivity|]. split.
  - split; [rewrite set_nth_length; auto|]. intros b. unfold arr. rewrite nth_set by auto.
    destruct (Nat.eqb_spec b a); auto. subst. rewrite set_nth_length. auto.
  - intros b j. unfold cell. rewrite nth_set by auto. destruct (Nat.eqb_spec b a); cbn [andb]; auto. subst.
    unfold arr in *. destruct (j <? 0) eqn:Ej; [destruct (Z.eqb_spec j i); auto; lia|].
    rewrite nth_error_set by lia. destruct (Z.eqb_spec j i), (Nat.eqb_spec (Z.to_nat j) (Z.to_nat i)); auto; try lia.
Qed.
Lemma loop_inv : forall (P : Z -> mem A -> Prop) body n i m, P i m ->
  (forall k m, i <= k < i + Z.of_nat n -> P k m -> exists m', body k m = Ok m' /\ P (k + 1) m') ->
  exists m', loop A n i body m = Ok m' /\ P (i + Z.of_nat n) m'.
Proof.
  intros P body n. induction n; intros i m HP H.
  - exists m. replace (i + Z.of_nat 0) with i by lia. auto.
  - destruct (H i m) as (m1 & E & H1); [lia|auto|]. destruct (IHn (i + 1) m1 H1) as (m2 & E2 & H2).
    + intros k m' Hk. apply H. lia.
    + exists m2. cbn [loop]. rewrite E. cbn [obind]. split; auto. replace (i + Z.of_nat (S n)) with (i + 1 + Z.of_nat n) by lia. auto.
Qed.
Lemma for_inv : forall (P : Z -> mem A -> Prop) body n m, 0 <= n -> P 0 m ->
  (forall k m, 0 <= k < n -> P k m -> exists m', body k m = Ok m' /\ P (k + 1) m') ->
  exists m', for_to A n body m = Ok m' /\ P n m'.
Proof.
  intros P body n m Hn HP H. unfold for_to. destruct (loop_inv P body (Z.to_nat n) 0 m HP) as (m' & E & H').
  - intros k m' Hk. apply H. lia.
  - exists m'. split; auto. replace (0 + Z.of_nat (Z.to_nat n)) with n in H' by lia. auto.
Qed.
Lemma same_hsize : forall m m' o, same_size m m' -> hsize A m o = hsize A m' o.
Proof. intros m m' o [_ H]. unfold hsize. rewrite H. auto. Qed.
Lemma same_fits : forall m m' o sh off, same_size m m' -> fits m o sh off -> fits m' o sh off.
Proof.
  intros m m' o sh off [_ H] (A1 & A2 & A3 & A4 & A5). unfold arr in H. rewrite H in A4, A5. split; [auto|]. split; [auto|]. split; auto.
Qed.
Lemma cell_app_old : forall m x b j, (b < length m)%nat -> cell (m ++ [x]) b j = cell m b j.
Proof. intros m x b j H. unfold cell. rewrite app_nth1 by auto. auto. Qed.
Lemma fits_app : forall m x o sh off, fits m o sh off -> fits (m ++ [x]) o sh off.
Proof.
  intros m x o sh off H. pose proof (fits_prod _ _ _ _ H) as F.
  assert (Ha : (o_arr o < length m)%nat).
  { destruct (Nat.ltb_spec (o_arr o) (length m)); auto. unfold hsize, arr in F. rewrite nth_overflow in F by lia. simpl in F. lia. }
  destruct H as (A1 & A2 & A3 & A4 & A5). split; [auto|]. split; [auto|]. split; [auto|]. rewrite app_nth1 by auto. auto.
Qed.
Lemma fits_lt : forall m o sh off, fits m o sh off -> (o_arr o < length m)%nat.
Proof.
  intros m o sh off H. pose proof (fits_prod _ _ _ _ H) as F.
  destruct (Nat.ltb_spec (o_arr o) (length m)); auto. unfold hsize, arr in F. rewrite nth_overflow in F by lia. simpl in F. lia.
Qed.
Lemma fits_cell : forall m o sh off k, fits m o sh off -> 0 <= k < prod sh -> exists x, cell m (o_arr o) (off + k) = Some x.
Proof. intros m o sh off k H Hk. pose proof (fits_prod _ _ _ _ H) as F. apply cell_some. unfold hsize in F. lia. Qed.
End Fits.
