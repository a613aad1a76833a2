(** Products of matrices, magnitudes and sorting of rows: C86 to C88. *)
From Coq Require Import ZArith Bool List Lia ZifyBool String Permutation Sorting.
From Verif Require Import Base StrModel StrProof GeoModel GeoSpec GeoProof FunProof PolyProof GeoProps MatProof.
Import ListNotations.
Local Notation length := List.length.
Local Open Scope list_scope.
Local Open Scope Z_scope.

(** * C86: the product of matrices *)
(** [l] is column [j] of [o]. *)
Definition column_is {A} (m : mem A) (o : opd) (j : Z) (l : list A) : Prop :=
  forall k, (k < length l)%nat -> shown m o [Z.of_nat k; j] = nth_error l k.
Definition inner {A} (zero : A) (add mul : A -> A -> A) (xs ys : list A) : A :=
  fold_left (fun s p => add s (mul (fst p) (snd p))) (combine xs ys) zero.

Lemma cells2_dot : forall A (add mul : A -> A -> A) (m : mem A) x y N xs ys px py s, length xs = length ys ->
  (forall k, (k < length xs)%nat -> cell m x (px + Z.of_nat k) = nth_error xs k) ->
  (forall k, (k < length ys)%nat -> cell m y (py + N * Z.of_nat k) = nth_error ys k) ->
  odot A add mul s (cells2 A m x px y py N (length xs)) = Some (inner s add mul xs ys).
Proof.
  intros A add mul m x y N xs. induction xs as [|a xs]; intros [|b ys] px py s Hl H1 H2; try discriminate; [reflexivity|].
  cbn [length cells2 combine]. unfold odot, inner. cbn [combine fold_left fst snd].
  pose proof (H1 O ltac:(cbn [length]; lia)) as E1. pose proof (H2 O ltac:(cbn [length]; lia)) as E2.
  replace (px + Z.of_nat 0) with px in E1 by lia. replace (py + N * Z.of_nat 0) with py in E2 by lia. rewrite E1, E2. cbn [nth_error lift2].
  apply IHxs; [simpl in Hl; lia| |].
  - intros k Hk. change (nth_error xs k) with (nth_error (a :: xs) (S k)). rewrite <- (H1 (S k)) by (cbn [length]; lia). f_equal. lia.
  - intros k Hk. change (nth_error ys k) with (nth_error (b :: ys) (S k)). rewrite <- (H2 (S k)) by (cbn [length]; lia). f_equal. lia.
Qed.
Lemma dot_alloc2 : forall A (z : A) (m : mem A) a b r R K K' N offa offb, fits m a (r ++ [R; K]) offa -> fits m b [K'; N] offb -> prod (r ++ [R; N]) <= INT_MAX ->
  let w := repeat z (Z.to_nat (prod (r ++ [R; N]))) in let o := mkop (length m) (Some (0 :: dims (r ++ [R; N]))) in
  dot_alloc A z m a (Arr A b) = Ok (m ++ [w], o) /\ fits (m ++ [w]) o (r ++ [R; N]) 0.
Proof.
  intros A z m a b r R K K' N offa offb Ha Hb Hm w o.
  pose proof (fits_pos _ _ _ _ _ Ha) as P. apply positive_app in P. destruct P as [Pr P]. inversion P as [|? ? P1 _]; subst.
  pose proof (fits_pos _ _ _ _ _ Hb) as Pb. inversion Pb as [|? ? _ Pb']; subst. inversion Pb' as [|? ? P2 _]; subst.
  assert (Ps : positive (r ++ [R; N])) by (apply Forall_app; split; [auto|repeat constructor; auto]).
  destruct (alloc_view_ok A z m (r ++ [R; N])) as [E F]; auto; [destruct r; discriminate|]. split; [|exact F].
  unfold dot_alloc. cbn [rhs_dim]. rewrite (fits_dim _ _ _ _ _ Hb). cbn [length]. change (Z.of_nat 2 =? 1) with false. change (Z.of_nat 2 =? 2) with true. cbv iota.
  rewrite (fits_dim _ _ _ _ _ Ha), app_length. cbn [length]. replace (Z.of_nat (length r + 2) <? 2) with false by lia.
  rewrite (fits_shapes A m a _ _ Ha). cbn [obind]. rewrite (fits_shape A m b [K'; N] offb 1 Hb) by (cbn [length]; lia). cbn [obind].
  change (nth (Z.to_nat 1) [K'; N] 0) with N.
  replace (removelast (r ++ [R; K]) ++ [N]) with (r ++ [R; N]); [exact E|]. change [R; K] with ([R] ++ [K]). rewrite app_assoc, removelast_last, <- app_assoc. reflexivity.
Qed.
(** A matrix with M rows of K times one with K rows of N. *)
Theorem C86_product : forall A fuel (z zero : A) add mul (m : mem A) a b M K N offa offb, fits m a [M; K] offa -> fits m b [K; N] offb -> M * N <= INT_MAX ->
  exists m' o, dot_new A fuel z zero add mul m a (Arr A b) = Ok (m', o) /\ shapes A m' o = Ok [M; N] /\ kept m m' /\
    forall i j xs ys, 0 <= i < M -> 0 <= j < N -> Z.of_nat (length xs) = K -> row_is m a [i] xs -> length ys = length xs -> column_is m b j ys ->
      shown m' o [i; j] = Some (inner zero add mul xs ys).
Proof.
  intros A fuel z zero add mul m a b M K N offa offb Ha Hb Hm. pose proof (fits_lt _ _ _ _ _ Ha) as La. pose proof (fits_lt _ _ _ _ _ Hb) as Lb.
  destruct (dot_alloc2 A z m a b [] M K K N offa offb) as [EA FO]; auto; [cbn [app prod]; lia|]. cbn [app] in *.
  set (w := repeat z _) in *. set (o := mkop _ _) in *.
  assert (Fa : fits (m ++ [w]) a [M; K] offa) by (apply fits_app; auto). assert (Fb : fits (m ++ [w]) b [K; N] offb) by (apply fits_app; auto).
  unfold dot_new. rewrite EA. cbn [obind]. unfold dot_broadcast. cbn [rhs_size rhs_dim]. rewrite (fits_size _ _ _ _ _ Fb), (fits_dim _ _ _ _ _ Fb). cbn [obind length].
  change (Z.of_nat 2 =? 1) with false. cbn [andb].
  pose proof (fits_pos _ _ _ _ _ Ha) as P. inversion P as [|? ? P1 P']; subst. inversion P' as [|? ? P2 _]; subst.
  pose proof (fits_pos _ _ _ _ _ Hb) as Pb. inversion Pb as [|? ? _ Pb']; subst. inversion Pb' as [|? ? P3 _]; subst.
  pose proof (fits_prod _ _ _ _ _ Fa) as Qa. pose proof (fits_prod _ _ _ _ _ Fb) as Qb. pose proof (fits_prod _ _ _ _ _ FO) as Qo. cbn [prod] in Qa, Qb, Qo. unfold hsize in *.
  destruct (arith_gen A mul (dot_vector A zero add mul a o) (m ++ [w]) a b o [] [M; K] [K; N] [M; N] offa offb 0 (fun k j => 0 <= j < 0 + N * M)
    (fun j => odot A add mul zero (cells2 A (m ++ [w]) (o_arr a) (offa + (j - 0) / N * K) (o_arr b) (offb + (j - 0) mod N) N (Z.to_nat K)))) as (m' & E & U); auto;
    try discriminate; try (intros; lia).
  { intros k m1 Hk U. cbn [prod] in Hk. assert (k = 0) by lia. subst k. rewrite !Z.mul_0_r.
    assert (m1s : same_size A (m ++ [w]) m1) by apply U. assert (Fa1 : fits m1 a [M; K] offa) by (eapply same_fits; eauto).
    assert (Fb1 : fits m1 b [K; N] offb) by (eapply same_fits; eauto).
    unfold dot_vector. replace (is_same a o) with false by (unfold is_same; replace (Nat.eqb (o_arr a) (o_arr o)) with false; [auto|symmetry; apply Nat.eqb_neq; cbn [o o_arr]; lia]).
    rewrite (fits_dim _ _ _ _ _ Fb1). cbn [length]. change (Z.of_nat 2 =? 1) with false. change (Z.of_nat 2 =? 2) with true. cbv iota.
    rewrite (fits_shape A m1 a [M; K] offa 1 Fa1), (fits_shape A m1 a [M; K] offa 0 Fa1), (fits_shape A m1 b [K; N] offb 0 Fb1), (fits_shape A m1 b [K; N] offb 1 Fb1) by (cbn [length]; lia).
    cbn [obind]. change (nth (Z.to_nat 1) [M; K] 0) with K. change (nth (Z.to_nat 0) [K; N] 0) with K. change (nth (Z.to_nat 0) [M; K] 0) with M. change (nth (Z.to_nat 1) [K; N] 0) with N.
    rewrite Z.eqb_refl. cbn [negb]. rewrite (fits_offset _ _ _ _ _ Fa1), (fits_offset _ _ _ _ _ Fb1). cbn [o offset o_ip v_offset nth]. rewrite !Z.add_0_r.
    destruct (gemm_ok A zero add mul M N K (o_arr a) offa (o_arr b) offb (length m) (offset o) m1) as (m2 & E2 & U2); auto;
      try (rewrite ?(upd_len _ _ _ _ _ _ _ U); lia); try (cbn [o offset o_ip v_offset nth]; rewrite ?(upd_len _ _ _ _ _ _ _ U); cbn [o o_arr] in Qo; lia).
    cbn [o offset o_ip v_offset nth] in E2, U2. unfold offset in E2, U2. cbn [o o_ip v_offset nth] in E2, U2. exists m2. split; [exact E2|].
    eapply upd_ext2; [|exact U2]. intros j Hj. cbn beta. f_equal.
    apply cells2_ext; intros t; apply (upd_in _ _ _ _ _ _ _ _ U); left; cbn [o o_arr]; lia. }
  rewrite E. cbn [obind]. exists m', o. assert (Fo' : fits m' o [M; N] 0) by (eapply same_fits; [apply U|auto]).
  split; auto. split; [apply (fits_shapes A m' o _ _ Fo')|]. split; [eapply upd_new_kept; exact U|].
  intros i j xs ys Hi Hj Hl Hrow Hly Hcol.
  assert (Rt : in_range [M; N] [i; j]) by (constructor; [lia|constructor; [lia|constructor]]).
  rewrite (shown_in A m' o _ _ _ Fo' Rt). pose proof (place_range _ _ Rt) as PR. cbn [prod place] in *.
  destruct U as (_ & U & _). rewrite U by (exists 0; split; nia). clear U.
  replace (0 + (i * (N * 1) + (j * 1 + 0)) - 0) with (i * N + j) by lia. rewrite (md i N j), (dv i N j) by lia.
  replace (Z.to_nat K) with (length xs) by lia. apply cells2_dot; auto; intros k Hk; rewrite cell_app_old by auto.
  - rewrite <- (Hrow k Hk). rewrite (shown_in A m a [M; K] offa ([i] ++ [Z.of_nat k]) Ha) by (repeat (constructor; [lia|]); constructor). cbn [app place prod]. f_equal. lia.
  - rewrite <- (Hcol k Hk). rewrite (shown_in A m b [K; N] offb [Z.of_nat k; j] Hb) by (repeat (constructor; [lia|]); constructor). cbn [app place prod]. f_equal. lia.
Qed.
(** Rows of the first of another length than the columns of the second. *)
Theorem C86_mismatch : forall A fuel (z zero : A) add mul (m : mem A) a b M K K' N offa offb, fits m a [M; K] offa -> fits m b [K'; N] offb -> M * N <= INT_MAX -> K <> K' ->
  dot_new A fuel z zero add mul m a (Arr A b) = Throw "Dot::vector: Shapes not compatible".
Proof.
  intros A fuel z zero add mul m a b M K K' N offa offb Ha Hb Hm HK. pose proof (fits_lt _ _ _ _ _ Ha) as La. pose proof (fits_lt _ _ _ _ _ Hb) as Lb.
  destruct (dot_alloc2 A z m a b [] M K K' N offa offb) as [EA FO]; auto; [cbn [app prod]; lia|]. cbn [app] in *.
  set (w := repeat z _) in *. set (o := mkop _ _) in *.
  assert (Fa : fits (m ++ [w]) a [M; K] offa) by (apply fits_app; auto). assert (Fb : fits (m ++ [w]) b [K'; N] offb) by (apply fits_app; auto).
  pose proof (fits_pos _ _ _ _ _ Ha) as P. inversion P as [|? ? P1 P']; subst. inversion P' as [|? ? P2 _]; subst.
  unfold dot_new. rewrite EA. cbn [obind]. unfold dot_broadcast. cbn [rhs_size rhs_dim]. rewrite (fits_size _ _ _ _ _ Fb), (fits_dim _ _ _ _ _ Fb). cbn [obind length].
  change (Z.of_nat 2 =? 1) with false. cbn [andb].
  unfold arith_broadcast. cbn [rhs_size rhs_dim]. rewrite (fits_size _ _ _ _ _ Fb), (fits_dim _ _ _ _ _ Fb), (fits_dim _ _ _ _ _ Fa). cbn [obind length].
  change (Z.of_nat 2 =? 1) with false. cbn [andb]. change (Z.of_nat 2 <? Z.of_nat 2) with false. change (0 <? Z.of_nat 2 - Z.of_nat 2) with false. cbv iota.
  rewrite (fits_size _ _ _ _ _ Fa). rewrite (fits_dim _ _ _ _ _ FO). cbn [obind length]. change (0 <? Z.of_nat 2 - Z.of_nat 2) with false. cbv iota. rewrite (fits_size _ _ _ _ _ FO). cbn [obind].
  pose proof (fits_prod _ _ _ _ _ Fa) as Qa. pose proof (fits_prod _ _ _ _ _ FO) as Qo. cbn [prod] in *. unfold hsize in *.
  unfold idiv. replace (M * (K * 1) =? 0) with false by nia. cbn [obind]. rewrite Z.quot_same by nia.
  unfold for_to. change (Z.to_nat 1) with 1%nat. cbn [loop]. unfold imul. rewrite !Z.mul_0_r. cbn [obind in_int].
  change (in_int 0) with true. cbv iota. cbn [obind].
  unfold dot_vector. replace (is_same a o) with false by (unfold is_same; replace (Nat.eqb (o_arr a) (o_arr o)) with false; [auto|symmetry; apply Nat.eqb_neq; cbn [o o_arr]; lia]).
  rewrite (fits_dim _ _ _ _ _ Fb). cbn [length]. change (Z.of_nat 2 =? 1) with false. change (Z.of_nat 2 =? 2) with true. cbv iota.
  rewrite (fits_shape A _ a [M; K] offa 1 Fa), (fits_shape A _ b [K'; N] offb 0 Fb) by (cbn [length]; lia). cbn [obind].
  change (nth (Z.to_nat 1) [M; K] 0) with K. change (nth (Z.to_nat 0) [K'; N] 0) with K'. replace (K =? K') with false by lia. reflexivity.
Qed.
(** A one dimensional array times a matrix, and a second operand of three or more dimensions. *)
Theorem C86_dimensions : forall A fuel (z zero : A) add mul (m : mem A) a b sa sb offa offb, fits m a sa offa -> fits m b sb offb ->
  (length sb = 2%nat -> length sa = 1%nat -> dot_new A fuel z zero add mul m a (Arr A b) = Throw "Dot::alloc: var1 dimension < 2") /\
  ((2 < length sb)%nat -> dot_new A fuel z zero add mul m a (Arr A b) = Throw "Dot::alloc: var2 dimension > 2").
Proof.
  intros A fuel z zero add mul m a b sa sb offa offb Ha Hb. unfold dot_new, dot_alloc. cbn [rhs_dim].
  rewrite (fits_dim _ _ _ _ _ Ha), (fits_dim _ _ _ _ _ Hb). split.
  - intros -> ->. reflexivity.
  - intros H. replace (Z.of_nat (length sb) =? 1) with false by lia. replace (Z.of_nat (length sb) =? 2) with false by lia. reflexivity.
Qed.
Definition w32 : opd := mkop 1 (Some [0; 3; 2; 2; 1]).
(** [0 1 2; 3 4 5] times [10 20; 30 40; 50 60]. *)
Example C86_ex : let a := mkop 0 (Some [0; 2; 3; 3; 1]) in
  fits m2 a [2; 3] 0 /\ fits m2 w32 [3; 2] 0 /\ 2 * 2 <= INT_MAX /\
  row_is m2 a [1] [3; 4; 5] /\ column_is m2 w32 0 [10; 30; 50] /\ inner 0 Z.add Z.mul [3; 4; 5] [10; 30; 50] = 400 /\
  dot_new Z 0 0 0 Z.add Z.mul m2 a (Arr Z w32) = Ok (m2 ++ [[130; 160; 400; 520]], mkop 3 (Some [0; 2; 2; 2; 1])).
Proof.
  split; [fit|]. split; [fit|]. split; [vm_compute; discriminate|].
  split; [intros [|[|[|k]]] Hk; [reflexivity..|cbn [length] in Hk; lia]|].
  split; [intros [|[|[|k]]] Hk; [reflexivity..|cbn [length] in Hk; lia]|].
  split; vm_compute; reflexivity.
Qed.
Example C86_mismatch_ex : let a := mkop 0 (Some [0; 3; 2; 2; 1]) in
  fits m2 a [3; 2] 0 /\ fits m2 w32 [3; 2] 0 /\ dot_new Z 0 0 0 Z.add Z.mul m2 a (Arr Z w32) = Throw "Dot::vector: Shapes not compatible".
Proof. split; [fit|]. split; [fit|]. vm_compute. reflexivity. Qed.
Example C86_dimensions_ex : let a := mkop 0 None in
  fits m2 a [12] 0 /\ fits m2 w32 [3; 2] 0 /\ fits m2 (v223 0) [2; 2; 3] 0 /\
  dot_new Z 0 0 0 Z.add Z.mul m2 a (Arr Z w32) = Throw "Dot::alloc: var1 dimension < 2" /\
  dot_new Z 0 0 0 Z.add Z.mul m2 w32 (Arr Z (v223 0)) = Throw "Dot::alloc: var2 dimension > 2".
Proof. split; [fit|]. split; [fit|]. split; [fit|]. split; vm_compute; reflexivity. Qed.

(** * C87: the product of three dimensional arrays and matrices *)
Section Stack.
Variable A : Type.
Lemma stack_vector : forall zero add mul (m1 : mem A) a b o P R K K' N offa offb i x y, fits m1 a [P; R; K] offa -> fits m1 b [K'; N] offb -> o_arr o <> o_arr a ->
  dot_vector A zero add mul a o i b x y m1 =
  if R =? K' then gemm A zero add mul P N R (o_arr a) (offa + i) (o_arr b) (offb + x) (o_arr o) (offset o + y) m1 else Throw "Dot::vector: Shapes not compatible".
Proof.
  intros zero add mul m1 a b o P R K K' N offa offb i x y Fa Fb Ho. unfold dot_vector.
  replace (is_same a o) with false by (unfold is_same; replace (Nat.eqb (o_arr a) (o_arr o)) with false; [auto|symmetry; apply Nat.eqb_neq; auto]).
  rewrite (fits_dim _ _ _ _ _ Fb). cbn [length]. change (Z.of_nat 2 =? 1) with false. change (Z.of_nat 2 =? 2) with true. cbv iota.
  rewrite (fits_shape A m1 a [P; R; K] offa 1 Fa), (fits_shape A m1 a [P; R; K] offa 0 Fa), (fits_shape A m1 b [K'; N] offb 0 Fb), (fits_shape A m1 b [K'; N] offb 1 Fb) by (cbn [length]; lia).
  cbn [obind]. change (nth (Z.to_nat 1) [P; R; K] 0) with R. change (nth (Z.to_nat 0) [K'; N] 0) with K'. change (nth (Z.to_nat 0) [P; R; K] 0) with P. change (nth (Z.to_nat 1) [K'; N] 0) with N.
  rewrite (fits_offset _ _ _ _ _ Fa), (fits_offset _ _ _ _ _ Fb). destruct (R =? K'); reflexivity.
Qed.
End Stack.
(** P matrices of R rows of K, R being K, times a matrix of K rows: with P at most R, the first P rows of each
    matrix of the result are the products, the others keep the value of fresh cells. *)
Theorem C87_stack : forall A fuel (z zero : A) add mul (m : mem A) a b P K N offa offb, fits m a [P; K; K] offa -> fits m b [K; N] offb -> P * K * N <= INT_MAX -> P <= K ->
  exists m' o, dot_new A fuel z zero add mul m a (Arr A b) = Ok (m', o) /\ shapes A m' o = Ok [P; K; N] /\ kept m m' /\
    (forall p i j xs ys, 0 <= p < P -> 0 <= i < P -> 0 <= j < N -> Z.of_nat (length xs) = K -> row_is m a [p; i] xs -> length ys = length xs -> column_is m b j ys ->
      shown m' o [p; i; j] = Some (inner zero add mul xs ys)) /\
    (forall p i j, 0 <= p < P -> P <= i < K -> 0 <= j < N -> shown m' o [p; i; j] = Some z).
Proof.
  intros A fuel z zero add mul m a b P K N offa offb Ha Hb Hm HP. pose proof (fits_lt _ _ _ _ _ Ha) as La. pose proof (fits_lt _ _ _ _ _ Hb) as Lb.
  destruct (dot_alloc2 A z m a b [P] K K K N offa offb) as [EA FO]; auto; [cbn [app prod]; lia|]. cbn [app] in *.
  set (w := repeat z _) in *. set (o := mkop _ _) in *.
  assert (Fa : fits (m ++ [w]) a [P; K; K] offa) by (apply fits_app; auto). assert (Fb : fits (m ++ [w]) b [K; N] offb) by (apply fits_app; auto).
  unfold dot_new. rewrite EA. cbn [obind]. unfold dot_broadcast. cbn [rhs_size rhs_dim]. rewrite (fits_size _ _ _ _ _ Fb), (fits_dim _ _ _ _ _ Fb). cbn [obind length].
  change (Z.of_nat 2 =? 1) with false. cbn [andb].
  pose proof (fits_pos _ _ _ _ _ Ha) as Pa. inversion Pa as [|? ? P1 P']; subst. inversion P' as [|? ? P2 _]; subst.
  pose proof (fits_pos _ _ _ _ _ Hb) as Pb. inversion Pb as [|? ? _ Pb']; subst. inversion Pb' as [|? ? P3 _]; subst.
  pose proof (fits_prod _ _ _ _ _ Fa) as Qa. pose proof (fits_prod _ _ _ _ _ Fb) as Qb. pose proof (fits_prod _ _ _ _ _ FO) as Qo. cbn [prod] in Qa, Qb, Qo. unfold hsize in *.
  assert (PK : P * K <= K * K) by nia. assert (KN : P * N <= K * N) by nia.
  set (F := fun j => odot A add mul zero (cells2 A (m ++ [w]) (o_arr a) (offa + K * K * (j / (K * N)) + (j - K * N * (j / (K * N))) / N * K)
     (o_arr b) (offb + (j - K * N * (j / (K * N))) mod N) N (Z.to_nat K))).
  destruct (arith_gen A mul (dot_vector A zero add mul a o) (m ++ [w]) a b o [P] [K; K] [K; N] [K; N] offa offb 0 (fun k j => K * N * k <= j < K * N * k + N * P) F) as (m' & E & U); auto;
    try discriminate; try (intros; lia).
  { intros k m1 Hk U. cbn [prod] in *. rewrite !Z.mul_1_r in *. 
    assert (m1s : same_size A (m ++ [w]) m1) by apply U. assert (Fa1 : fits m1 a [P; K; K] offa) by (eapply same_fits; eauto).
    assert (Fb1 : fits m1 b [K; N] offb) by (eapply same_fits; eauto).
    rewrite (stack_vector A zero add mul m1 a b o P K K K N offa offb) by (auto; cbn [o o_arr]; lia). rewrite Z.eqb_refl, Z.add_0_r.
    pose proof (Z.mul_le_mono_nonneg_l (k + 1) P (K * K) ltac:(nia) ltac:(lia)) as I1. pose proof (Z.mul_le_mono_nonneg_l (k + 1) P (K * N) ltac:(nia) ltac:(lia)) as I2.
    destruct (gemm_ok A zero add mul P N K (o_arr a) (offa + K * K * k) (o_arr b) offb (o_arr o) (K * N * k) m1) as (m2 & E2 & U2); auto;
      try (rewrite ?(upd_len _ _ _ _ _ _ _ U)); lazymatch goal with |- exists _, _ => idtac | _ => first [lia|cbn [o o_arr]; lia|apply Z.add_nonneg_nonneg; [lia|]; apply Z.mul_nonneg_nonneg; nia|apply Z.mul_nonneg_nonneg; nia] end.
    replace (offset o + K * N * k) with (K * N * k) by reflexivity. exists m2. split; [exact E2|].
    eapply upd_ext2; [|exact U2]. intros j Hj. cbn beta. unfold F.
    assert (Hq : j / (K * N) = k) by (symmetry; apply (Z.div_unique_pos j (K * N) k (j - K * N * k)); nia). rewrite Hq. f_equal.
    apply cells2_ext; intros t; apply (upd_in _ _ _ _ _ _ _ _ U); left; cbn [o o_arr]; lia. }
  rewrite E. cbn [obind]. exists m', o. assert (Fo' : fits m' o [P; K; N] 0) by (eapply same_fits; [apply U|auto]).
  split; auto. split; [apply (fits_shapes A m' o _ _ Fo')|]. split; [eapply upd_new_kept; exact U|]. cbn [prod] in U. rewrite !Z.mul_1_r in U.
  destruct U as (_ & U & Uo). split.
  - intros p i j xs ys Hp Hi Hj Hl Hrow Hly Hcol.
    rewrite (shown_in A m' o _ _ _ Fo') by (repeat (constructor; [lia|]); constructor). cbn [place prod].
    replace (0 + (p * (K * (N * 1)) + (i * (N * 1) + (j * 1 + 0)))) with (K * N * p + (i * N + j)) by lia.
    assert (B : 0 <= i * N + j < P * N) by nia.
    rewrite U by (exists p; lia). unfold F.
    assert (Hq : (K * N * p + (i * N + j)) / (K * N) = p) by (symmetry; apply (Z.div_unique_pos _ (K * N) p (i * N + j)); nia). rewrite Hq.
    replace (K * N * p + (i * N + j) - K * N * p) with (i * N + j) by lia. rewrite (md i N j), (dv i N j) by lia.
    replace (Z.to_nat K) with (length xs) by lia. apply cells2_dot; auto; intros k Hk; rewrite cell_app_old by auto.
    + rewrite <- (Hrow k Hk). rewrite (shown_in A m a [P; K; K] offa ([p; i] ++ [Z.of_nat k]) Ha) by (repeat (constructor; [lia|]); constructor). cbn [app place prod]. f_equal. lia.
    + rewrite <- (Hcol k Hk). rewrite (shown_in A m b [K; N] offb [Z.of_nat k; j] Hb) by (repeat (constructor; [lia|]); constructor). cbn [app place prod]. f_equal. lia.
  - intros p i j Hp Hi Hj.
    rewrite (shown_in A m' o _ _ _ Fo') by (repeat (constructor; [lia|]); constructor). cbn [place prod].
    replace (0 + (p * (K * (N * 1)) + (i * (N * 1) + (j * 1 + 0)))) with (K * N * p + (i * N + j)) by lia.
    assert (B : P * N <= i * N + j < K * N) by nia. pose proof (Z.mul_le_mono_nonneg_l (p + 1) P (K * N) ltac:(nia) ltac:(lia)) as I2.
    rewrite Uo.
    + unfold cell. replace (K * N * p + (i * N + j) <? 0) with false by nia. cbn [o o_arr]. rewrite app_nth2, Nat.sub_diag by lia. cbn [nth]. unfold w.
      apply nth_error_repeat. cbn [prod]. nia.
    + right. intros (t & Ht & Hr). assert (t < p \/ t = p \/ p < t) as [C|[->|C]] by lia; [|nia|].
      * pose proof (Z.mul_le_mono_nonneg_l (t + 1) p (K * N) ltac:(nia) ltac:(lia)). nia.
      * pose proof (Z.mul_le_mono_nonneg_l (p + 1) t (K * N) ltac:(nia) ltac:(lia)). nia.
Qed.
(** More matrices than they have rows: the last product is written past the end of the result. *)
Theorem C87_overrun : forall A fuel (z zero : A) add mul (m : mem A) a b P K N offa offb, fits m a [P; K; K] offa -> fits m b [K; N] offb -> P * K * N <= INT_MAX -> K < P ->
  dot_new A fuel z zero add mul m a (Arr A b) = UB OutOfBounds.
Proof.
  intros A fuel z zero add mul m a b P K N offa offb Ha Hb Hm HP. pose proof (fits_lt _ _ _ _ _ Ha) as La. pose proof (fits_lt _ _ _ _ _ Hb) as Lb.
  destruct (dot_alloc2 A z m a b [P] K K K N offa offb) as [EA FO]; auto; [cbn [app prod]; lia|]. cbn [app] in *.
  set (w := repeat z _) in *. set (o := mkop _ _) in *.
  assert (Fa : fits (m ++ [w]) a [P; K; K] offa) by (apply fits_app; auto). assert (Fb : fits (m ++ [w]) b [K; N] offb) by (apply fits_app; auto).
  unfold dot_new. rewrite EA. cbn [obind]. unfold dot_broadcast. cbn [rhs_size rhs_dim]. rewrite (fits_size _ _ _ _ _ Fb), (fits_dim _ _ _ _ _ Fb). cbn [obind length].
  change (Z.of_nat 2 =? 1) with false. cbn [andb].
  pose proof (fits_pos _ _ _ _ _ Ha) as Pa. inversion Pa as [|? ? P1 P']; subst. inversion P' as [|? ? P2 _]; subst.
  pose proof (fits_pos _ _ _ _ _ Hb) as Pb. inversion Pb as [|? ? _ Pb']; subst. inversion Pb' as [|? ? P3 _]; subst.
  rewrite (arith_over A mul (dot_vector A zero add mul a o) (m ++ [w]) a b o [P] [K; K] [K; N] [K; N] offa offb 0 (P - 1)); auto; try discriminate.
  - cbn [prod]. lia.
  - intros k m1 Hk S. rewrite (stack_vector A zero add mul m1 a b o P K K K N offa offb); [|eapply same_fits; eauto|eapply same_fits; eauto|cbn [o o_arr]; lia].
    rewrite Z.eqb_refl. apply gemm_sound; auto.
  - intros m1 S. rewrite (stack_vector A zero add mul m1 a b o P K K K N offa offb); [|eapply same_fits; eauto|eapply same_fits; eauto|cbn [o o_arr]; lia].
    rewrite Z.eqb_refl. cbn [prod]. replace (offset o + K * (N * 1) * (P - 1)) with (K * N * (P - 1)) by (replace (offset o) with 0 by reflexivity; lia).
    assert (KN : K * N < P * N) by nia. apply gemm_over; auto; [apply Z.mul_nonneg_nonneg; nia|].
    destruct S as [_ S]. unfold hsize in S. rewrite <- S. unfold arr. cbn [o o_arr]. rewrite app_nth2, Nat.sub_diag by lia. cbn [nth]. unfold w. rewrite repeat_length. cbn [prod].
    rewrite Z2Nat.id by nia. nia.
Qed.
(** Rows are asked to be as many as the second operand's, whatever their length. *)
Theorem C87_mismatch : forall A fuel (z zero : A) add mul (m : mem A) a b P R K K' N offa offb, fits m a [P; R; K] offa -> fits m b [K'; N] offb -> P * R * N <= INT_MAX -> R <> K' ->
  dot_new A fuel z zero add mul m a (Arr A b) = Throw "Dot::vector: Shapes not compatible".
Proof.
  intros A fuel z zero add mul m a b P R K K' N offa offb Ha Hb Hm HK. pose proof (fits_lt _ _ _ _ _ Ha) as La. pose proof (fits_lt _ _ _ _ _ Hb) as Lb.
  destruct (dot_alloc2 A z m a b [P] R K K' N offa offb) as [EA FO]; auto; [cbn [app prod]; lia|]. cbn [app] in *.
  set (w := repeat z _) in *. set (o := mkop _ _) in *.
  assert (Fa : fits (m ++ [w]) a ([P] ++ [R; K]) offa) by (apply fits_app; auto). assert (Fb : fits (m ++ [w]) b [K'; N] offb) by (apply fits_app; auto).
  pose proof (fits_pos _ _ _ _ _ Ha) as Pa. inversion Pa as [|? ? P1 P']; subst. inversion P' as [|? ? P2 P'']; subst. inversion P'' as [|? ? P4 _]; subst.
  unfold dot_new. rewrite EA. cbn [obind]. unfold dot_broadcast. cbn [rhs_size rhs_dim]. rewrite (fits_size _ _ _ _ _ Fb), (fits_dim _ _ _ _ _ Fb). cbn [obind length].
  change (Z.of_nat 2 =? 1) with false. cbn [andb].
  pose proof (fits_prod _ _ _ _ _ Fa) as Qa. pose proof (fits_prod _ _ _ _ _ FO) as Qo. cbn [app prod] in Qa, Qo. unfold hsize in *.
  unfold arith_broadcast. cbn [rhs_size rhs_dim]. rewrite (fits_size _ _ _ _ _ Fb), (fits_dim _ _ _ _ _ Fb), (fits_dim _ _ _ _ _ Fa). cbn [obind length app].
  change (Z.of_nat 2 =? 1) with false. cbn [andb]. change (Z.of_nat 3 <? Z.of_nat 2) with false. cbv iota.
  destruct (step_ok A _ a [P] [R; K] offa (Z.of_nat 2) Fa) as [E1|X]; [reflexivity| |discriminate].
  destruct (step_ok A _ o [P] [R; N] 0 (Z.of_nat 2) FO) as [E2|X]; [reflexivity| |discriminate].
  rewrite (fits_dim _ _ _ _ _ Fa) in E1. cbn [app length] in E1. rewrite E1. cbn [obind]. rewrite E2. cbn [obind]. rewrite (fits_size _ _ _ _ _ Fa). cbn [obind app prod].
  unfold idiv. replace (R * (K * 1) =? 0) with false by nia. cbn [obind]. rewrite Z.quot_mul by nia.
  unfold for_to. destruct (Z.to_nat P) eqn:EP; [lia|]. cbn [loop]. unfold imul. rewrite !Z.mul_0_r. change (in_int 0) with true. cbv iota. cbn [obind].
  rewrite (stack_vector A zero add mul _ a b o P R K K' N offa offb); auto; [|cbn [o o_arr]; lia]. replace (R =? K') with false by lia. reflexivity.
Qed.
(** Two matrices of two rows; one of two rows and a column of zeros; three matrices of two rows;
    two matrices of two rows of three times a matrix of three rows, whose shapes do match. *)
Definition m87 : mem Z := [[1; 2; 3; 4; 5; 6; 7; 8; 9; 10; 11; 12]; [1; 0; 0; 1; 1; 1]].
Definition e22 : opd := mkop 1 (Some [0; 2; 2; 2; 1]).
Example C87_stack_ex : let a := mkop 0 (Some [0; 2; 4; 2; 2; 2; 1]) in let a1 := mkop 0 (Some [0; 1; 4; 2; 2; 2; 1]) in
  fits m87 a [2; 2; 2] 0 /\ fits m87 a1 [1; 2; 2] 0 /\ fits m87 e22 [2; 2] 0 /\ 2 * 2 * 2 <= INT_MAX /\
  row_is m87 a [1; 0] [5; 6] /\ column_is m87 e22 1 [0; 1] /\
  dot_new Z 0 77 0 Z.add Z.mul m87 a (Arr Z e22) = Ok (m87 ++ [[1; 2; 3; 4; 5; 6; 7; 8]], mkop 2 (Some [0; 2; 4; 2; 2; 2; 1])) /\
  dot_new Z 0 77 0 Z.add Z.mul m87 a1 (Arr Z e22) = Ok (m87 ++ [[1; 2; 77; 77]], mkop 2 (Some [0; 1; 4; 2; 2; 2; 1])).
Proof.
  split; [fit|]. split; [fit|]. split; [fit|]. split; [vm_compute; discriminate|].
  split; [intros [|[|k]] Hk; [reflexivity..|cbn [length] in Hk; lia]|].
  split; [intros [|[|k]] Hk; [reflexivity..|cbn [length] in Hk; lia]|].
  split; vm_compute; reflexivity.
Qed.
Example C87_overrun_ex : let a := mkop 0 (Some [0; 3; 4; 2; 2; 2; 1]) in
  fits m87 a [3; 2; 2] 0 /\ fits m87 e22 [2; 2] 0 /\ dot_new Z 0 77 0 Z.add Z.mul m87 a (Arr Z e22) = UB OutOfBounds.
Proof. split; [fit|]. split; [fit|]. vm_compute. reflexivity. Qed.
Example C87_mismatch_ex : let a := mkop 0 (Some [0; 2; 6; 2; 3; 3; 1]) in let b := mkop 1 (Some [0; 3; 2; 2; 1]) in
  fits m87 a [2; 2; 3] 0 /\ fits m87 b [3; 2] 0 /\ dot_new Z 0 77 0 Z.add Z.mul m87 a (Arr Z b) = Throw "Dot::vector: Shapes not compatible".
Proof. split; [fit|]. split; [fit|]. vm_compute. reflexivity. Qed.

(** * C88: magnitudes *)
Theorem C88_asum : forall A (z zero : A) add abs (m : mem A) i r n off, fits m i (r ++ [n]) off ->
  exists m' o, asum_new A z zero add abs m i = Ok (m', o) /\ shapes A m' o = Ok (r ++ [1]) /\ kept m m' /\
    forall ir xs, in_range r ir -> Z.of_nat (length xs) = n -> row_is m i ir xs -> shown m' o (ir ++ [0]) = Some (fold_left add (map abs xs) zero).
Proof.
  intros A z zero add abs m i r n off H. destruct (C57_sum A z zero (fun s x => add s (abs x)) m i r n off H) as (m' & o & E & S & K & V).
  exists m', o. split; [exact E|]. split; [auto|]. split; [auto|]. intros ir xs Hir Hl Hrow. rewrite (V ir xs Hir Hl Hrow). f_equal.
  clear. revert zero. induction xs; intros zero; cbn [map fold_left]; auto.
Qed.
(** [k] is the place of the first of the largest of [l]; [gt x y]: x is larger than y. *)
Definition first_largest {A} (gt : A -> A -> bool) (l : list A) (k : nat) : Prop :=
  exists x, nth_error l k = Some x /\ (forall j y, nth_error l j = Some y -> gt y x = false) /\ (forall j y, (j < k)%nat -> nth_error l j = Some y -> gt x y = true).
Definition ordered {A} (gt : A -> A -> bool) : Prop :=
  (forall x, gt x x = false) /\ (forall x y z, gt x y = true -> gt y z = true -> gt x z = true) /\ (forall x y z, gt x y = false -> gt y z = false -> gt x z = false).
Section Largest.
Variable A : Type.
Fixpoint imax (gt : A -> A -> bool) (l : list A) (k at_ : Z) (best : A) : Z :=
  match l with [] => at_ | x :: l => if gt x best then imax gt l (k + 1) k x else imax gt l (k + 1) at_ best end.
Lemma imax_ok : forall gt l pre at_ best, ordered gt -> first_largest gt pre at_ -> nth_error pre at_ = Some best ->
  exists k, imax gt l (Z.of_nat (length pre)) (Z.of_nat at_) best = Z.of_nat k /\ first_largest gt (pre ++ l) k.
Proof.
  intros gt l. induction l as [|x l IH]; intros pre at_ best O H Hb; [exists at_; rewrite app_nil_r; auto|].
  cbn [imax]. destruct O as (O1 & O2 & O3). destruct H as (b & Hb' & H1 & H2). rewrite Hb in Hb'. injection Hb' as <-.
  assert (La : (at_ < length pre)%nat) by (apply nth_error_Some; congruence).
  replace (Z.of_nat (length pre) + 1) with (Z.of_nat (length (pre ++ [x]))) by (rewrite app_length; cbn [length]; lia).
  change (x :: l) with ([x] ++ l). rewrite app_assoc. destruct (gt x best) eqn:G.
  - apply IH; [repeat split; auto| |rewrite nth_error_app2, Nat.sub_diag by lia; auto].
    exists x. split; [rewrite nth_error_app2, Nat.sub_diag by lia; auto|]. 
    assert (Q : forall j y, nth_error pre j = Some y -> gt x y = true).
    { intros j y Hy. destruct (gt x y) eqn:G'; auto. rewrite (O3 x y best G' (H1 j y Hy)) in G. discriminate. }
    split; [|intros j y Hj Hy; rewrite nth_error_app1 in Hy by lia; eauto].
    intros j y Hy. destruct (Nat.lt_ge_cases j (length pre)) as [C|C].
    + rewrite nth_error_app1 in Hy by lia. destruct (gt y x) eqn:G'; auto. pose proof (O2 _ _ _ (Q _ _ Hy) G') as X. rewrite O1 in X. discriminate.
    + rewrite nth_error_app2 in Hy by lia. destruct (j - length pre)%nat as [|[|]]; cbn in Hy; try discriminate. injection Hy as <-. auto.
  - apply IH; [repeat split; auto| |rewrite nth_error_app1 by lia; auto].
    exists best. split; [rewrite nth_error_app1 by lia; auto|]. split; [|intros j y Hj Hy; rewrite nth_error_app1 in Hy by lia; eauto].
    intros j y Hy. destruct (Nat.lt_ge_cases j (length pre)) as [C|C]; [rewrite nth_error_app1 in Hy by lia; eauto|].
    rewrite nth_error_app2 in Hy by lia. destruct (j - length pre)%nat as [|[|]]; cbn in Hy; try discriminate. injection Hy as <-. auto.
Qed.
Lemma iamaxArray_ok : forall gt (m : mem A) a n p k at_ best, 0 <= p -> p + Z.of_nat n <= Z.of_nat (length (arr A m a)) ->
  iamaxArray A gt m a n p k at_ best = Ok (imax gt (vals A m a p n) k at_ best).
Proof.
  intros gt m a n. induction n; intros p k at_ best Hp Hn; [reflexivity|]. cbn [iamaxArray vals]. rewrite rd_cell.
  destruct (cell_some A m a p) as (x & Ex); [lia|]. rewrite Ex. cbn [obind imax]. destruct (gt x best); apply IHn; lia.
Qed.
Definition imax_of (gt : A -> A -> bool) (l : list A) : Z := match l with [] => -1 | x :: t => imax gt t 1 0 x end.
Lemma iamax_ok : forall gt long_ (m : mem A) i o r n offi offo, fits m i (r ++ [n]) offi -> fits m o (r ++ [1]) offo -> o_arr o <> o_arr i ->
  exists m', unary_broadcast A 1 (iamax_vector A gt long_ i o) m i o = Ok m' /\
    upd A m m' (o_arr o) (fun j => offo <= j < offo + prod (r ++ [1]))
      (fun j => Some (long_ (imax_of gt (vals A m (o_arr i) (offi + n * (j - offo)) (Z.to_nat n))))).
Proof.
  intros gt long_ m i o r n offi offo Hi Ho Hd.
  apply (unary_ok A 1 _ m i o r [n] [1] offi offo); auto; [discriminate|].
  intros k m' Hk U. cbn [prod] in *. replace (n * 1) with n by lia. replace (1 * 1 * k) with k by lia.
  pose proof (fits_prod _ _ _ _ _ Hi) as Fi. pose proof (fits_prod _ _ _ _ _ Ho) as Fo. rewrite prod_app in Fi, Fo. cbn [prod] in Fi, Fo.
  pose proof (fits_pos _ _ _ _ _ Hi) as Hpos. apply positive_app in Hpos. destruct Hpos as [Pr Pd]. inversion Pd; subst.
  unfold iamax_vector. replace (is_same i o) with false by (unfold is_same; replace (Nat.eqb (o_arr i) (o_arr o)) with false; [auto|symmetry; apply Nat.eqb_neq; auto]).
  rewrite (shape_last A m' i r n offi) by (eapply same_fits; [apply U|auto]). cbn [obind].
  rewrite (fits_offset _ _ _ _ _ Hi), (fits_offset _ _ _ _ _ Ho). unfold hsize in *. replace (n <? 1) with false by lia. rewrite rd_cell.
  destruct (cell_some A m' (o_arr i) (offi + n * k)) as (x & Ex); [rewrite (upd_len _ _ _ _ _ _ _ U); nia|]. rewrite Ex. cbn [obind].
  rewrite iamaxArray_ok by (rewrite ?(upd_len _ _ _ _ _ _ _ U); nia). cbn [obind].
  set (F := fun j => Some (long_ (imax_of gt (vals A m (o_arr i) (offi + n * (j - offo)) (Z.to_nat n))))).
  destruct (wr_upd A m' (o_arr o) (offo + k) (long_ (imax gt (vals A m' (o_arr i) (offi + n * k + 1) (Z.to_nat (n - 1))) 1 0 x)) F) as (m'' & E & U2).
  - rewrite (upd_len _ _ _ _ _ _ _ U). lia.
  - unfold F. replace (offo + k - offo) with k by lia. do 2 f_equal.
    rewrite <- (vals_ext A m m') by (intros; apply (upd_in _ _ _ _ _ _ _ _ U); auto). replace (Z.to_nat n) with (S (Z.to_nat (n - 1))) by lia. cbn [vals]. rewrite Ex. reflexivity.
  - exists m''. split; auto. eapply upd_ext; [|exact U2]. intros j. cbn beta. lia.
Qed.
End Largest.
Lemma vals_is : forall A (m : mem A) a xs p, (forall k, (k < length xs)%nat -> cell m a (p + Z.of_nat k) = nth_error xs k) -> vals A m a p (length xs) = xs.
Proof.
  intros A m a xs. induction xs as [|x xs]; intros p H; [reflexivity|]. cbn [length vals]. pose proof (H O ltac:(cbn [length]; lia)) as E.
  replace (p + Z.of_nat 0) with p in E by lia. rewrite E. cbn [nth_error]. f_equal. apply IHxs. intros k Hk.
  change (nth_error xs k) with (nth_error (x :: xs) (S k)). rewrite <- (H (S k)) by (cbn [length]; lia). f_equal. lia.
Qed.
Theorem C88_iamax : forall A gt long_ (m : mem A) i r n off, fits m i (r ++ [n]) off -> ordered gt ->
  exists m' o, iamax_new A gt long_ m i = Ok (m', o) /\ shapes A m' o = Ok (r ++ [1]) /\ kept m m' /\
    forall ir xs, in_range r ir -> Z.of_nat (length xs) = n -> row_is m i ir xs ->
      exists k, first_largest gt xs k /\ shown m' o (ir ++ [0]) = Some (long_ (Z.of_nat k)).
Proof.
  intros A gt long_ m i r n off Hi HO. pose proof (fits_lt _ _ _ _ _ Hi) as Lt.
  destruct (scalarAlloc_ok A (long_ 0) m i r n off Hi) as (x & o & EA & Eo & FA).
  assert (Fi : fits (m ++ [x]) i (r ++ [n]) off) by (apply fits_app; auto).
  unfold iamax_new. rewrite EA. cbn [obind].
  destruct (iamax_ok A gt long_ (m ++ [x]) i o r n off 0 Fi FA) as (m' & E & U); [lia|]. rewrite E. cbn [obind]. exists m', o.
  assert (Fo' : fits m' o (r ++ [1]) 0) by (eapply same_fits; [apply U|auto]).
  split; auto. split; [apply (fits_shapes A m' o _ _ Fo')|]. split; [rewrite Eo in U; eapply upd_new_kept; exact U|].
  intros ir xs Hir Hl Hrow. assert (Rt : in_range (r ++ [1]) (ir ++ [0])) by (apply Forall2_app; [auto|constructor; [lia|constructor]]).
  pose proof (fits_pos _ _ _ _ _ Hi) as Hpos. apply positive_app in Hpos. destruct Hpos as [Pr Pd]. inversion Pd; subst.
  destruct xs as [|y t]; [cbn [length] in *; lia|].
  destruct (imax_ok A gt t [y] 0 y HO) as (k & Ek & Hk); [|reflexivity|].
  { exists y. split; [reflexivity|]. split; [|intros; lia]. intros [|[|j]] y' Hy'; cbn in Hy'; try discriminate. injection Hy' as <-. apply HO. }
  exists k. split; [exact Hk|].
  rewrite (shown_in A m' o _ _ _ Fo' Rt). pose proof (place_range _ _ Rt). destruct U as (_ & U & _). rewrite U by lia.
  rewrite place_app by (apply in_range_length; auto). cbn [prod place].
  replace (0 + (place r ir * (1 * 1) + (0 * 1 + 0)) - 0) with (place r ir) by lia.
  rewrite Nat2Z.id, vals_is; [unfold imax_of; do 2 f_equal; exact Ek|].
  intros j Hj. rewrite cell_app_old by auto. eapply row_cells; eauto.
Qed.
Lemma magnitude_ordered : ordered (fun x y => Z.abs y <? Z.abs x).
Proof. split; [|split]; intros; lia. Qed.
Example C88_ex : let m := [[3; -7; 2; 7; 1; 0; -4; 4]] in let i := mkop 0 (Some [0; 2; 4; 4; 1]) in
  fits m i ([2] ++ [4]) 0 /\ row_is m i [0] [3; -7; 2; 7] /\ row_is m i [1] [1; 0; -4; 4] /\
  asum_new Z 0 0 Z.add Z.abs m i = Ok (m ++ [[19; 9]], mkop 1 (Some [0; 2; 1; 1; 1])) /\
  iamax_new Z (fun x y => Z.abs y <? Z.abs x) (fun k => k) m i = Ok (m ++ [[1; 2]], mkop 1 (Some [0; 2; 1; 1; 1])).
Proof.
  split; [fit|]. split; [intros [|[|[|[|k]]]] Hk; [reflexivity..|cbn [length] in Hk; lia]|].
  split; [intros [|[|[|[|k]]]] Hk; [reflexivity..|cbn [length] in Hk; lia]|]. split; vm_compute; reflexivity.
Qed.

(** * C89: sorting *)
Section Sorting.
Variable A : Type.
Lemma rd_row_ok : forall (m : mem A) a n p, 0 <= p -> p + Z.of_nat n <= Z.of_nat (length (arr A m a)) -> rd_row A m a p n = Ok (vals A m a p n).
Proof.
  intros m a n. induction n; intros p Hp Hn; [reflexivity|]. cbn [rd_row vals]. rewrite rd_cell.
  destruct (cell_some A m a p) as (x & Ex); [lia|]. rewrite Ex. cbn [obind]. rewrite IHn by lia. reflexivity.
Qed.
Lemma wr_row_ok : forall a l p (m : mem A), 0 <= p -> p + Z.of_nat (length l) <= Z.of_nat (length (arr A m a)) ->
  exists m', wr_row A m a p l = Ok m' /\ upd A m m' a (fun j => p <= j < p + Z.of_nat (length l)) (fun j => nth_error l (Z.to_nat (j - p))).
Proof.
  intros a l. induction l as [|x l IH]; intros p m Hp Hl; cbn [wr_row length] in *.
  - exists m. split; auto. split; [apply same_size_refl|]. split; [intros; lia|auto].
  - destruct (wr_upd A m a p x (fun _ => Some x)) as (m1 & E1 & U1); [lia|auto|]. rewrite E1. cbn [obind].
    destruct (IH (p + 1) m1) as (m' & E & U); [lia|rewrite (upd_len _ _ _ _ _ _ _ U1); lia|]. exists m'. split; auto.
    destruct U1 as (S1 & V1 & O1). destruct U as (S2 & V2 & O2). split; [eapply same_size_trans; eauto|]. split.
    + intros j Hj. destruct (Z.eq_dec j p) as [->|Hne].
      * rewrite O2 by lia. rewrite V1 by auto. replace (p - p) with 0 by lia. reflexivity.
      * rewrite V2 by lia. replace (Z.to_nat (j - p)) with (S (Z.to_nat (j - (p + 1)))) by lia. reflexivity.
    + intros b j Hb. rewrite O2 by lia. apply O1. lia.
Qed.
Lemma is_same_refl : forall o, is_same o o = true.
Proof. intros o. unfold is_same. rewrite Nat.eqb_refl, Z.eqb_refl. reflexivity. Qed.
Lemma sort_inplace_ok : forall sort_ (m : mem A) i r n off, fits m i (r ++ [n]) off -> (forall l, length (sort_ l) = length l) ->
  exists m', sort_inplace A sort_ m i = Ok m' /\ upd A m m' (o_arr i) (fun j => off <= j < off + prod (r ++ [n]))
    (fun j => nth_error (sort_ (vals A m (o_arr i) (off + n * ((j - off) / n)) (Z.to_nat n))) (Z.to_nat ((j - off) mod n))).
Proof.
  intros sort_ m i r n off Hi HL. apply (unary_ok A 1 _ m i i r [n] [n] off off); auto; [discriminate|].
  intros k m' Hk U. cbn [prod] in *. rewrite !Z.mul_1_r in *.
  pose proof (fits_prod _ _ _ _ _ Hi) as Fi. rewrite prod_app in Fi. cbn [prod] in Fi.
  pose proof (fits_pos _ _ _ _ _ Hi) as Hpos. apply positive_app in Hpos. destruct Hpos as [Pr Pd]. inversion Pd; subst.
  assert (Hi' : fits m' i (r ++ [n]) off) by (eapply same_fits; [apply U|auto]).
  unfold sort_vector. replace (dim i - (dim i - 1)) with 1 by lia. destruct (subview_row A m' i r n off k Hi' Hk) as [-> Fv]. cbn [obind].
  rewrite is_same_refl. cbn [negb]. rewrite (shape_last A m' _ [] n _ Fv). cbn [obind]. rewrite (fits_offset _ _ _ _ _ Fv). cbn [o_arr]. unfold hsize in *.
  assert (Lk : off + n * k + n <= Z.of_nat (length (arr A m (o_arr i)))) by nia. assert (0 <= n * k) by nia.
  rewrite rd_row_ok by (rewrite ?(upd_len _ _ _ _ _ _ _ U); lia). cbn [obind].
  destruct (vals_ok A m (o_arr i) (Z.to_nat n) (off + n * k)) as [V1 V2]; [lia|lia|].
  assert (EV : vals A m' (o_arr i) (off + n * k) (Z.to_nat n) = vals A m (o_arr i) (off + n * k) (Z.to_nat n)).
  { destruct U as (_ & _ & Uo). clear V1 V2. assert (G : forall t p, off + n * k <= p -> vals A m' (o_arr i) p t = vals A m (o_arr i) p t); [|apply G; lia].
    induction t; intros p Hp; cbn [vals]; auto. rewrite Uo by lia. destruct (cell m (o_arr i) p); auto. rewrite IHt by lia. auto. }
  rewrite EV. destruct (wr_row_ok (o_arr i) (sort_ (vals A m (o_arr i) (off + n * k) (Z.to_nat n))) (off + n * k) m') as (m'' & E & U2).
  - lia.
  - rewrite HL, V1, (upd_len _ _ _ _ _ _ _ U). lia.
  - exists m''. split; [exact E|]. rewrite HL, V1, Z2Nat.id in U2 by lia. eapply upd_ext2; [|exact U2]. intros j Hj. cbn beta.
    assert (Em : (j - off) mod n = j - (off + n * k)) by (symmetry; apply (Z.mod_unique _ _ k); lia).
    assert (Ed : (j - off) / n = k) by (symmetry; apply (Z.div_unique _ _ k (j - (off + n * k))); lia). rewrite Em, Ed. reflexivity.
Qed.
End Sorting.
(** std::sort given, sorting an array in place sorts each row and changes nothing else. *)
Theorem C89_sort : forall A (le : A -> A -> Prop) sort_ (m : mem A) i r n off, fits m i (r ++ [n]) off ->
  (forall l, Permutation l (sort_ l) /\ StronglySorted le (sort_ l)) ->
  exists m', sort_inplace A sort_ m i = Ok m' /\ only m m' (o_arr i) off (prod (r ++ [n])) /\
    forall ir xs, in_range r ir -> Z.of_nat (length xs) = n -> row_is m i ir xs ->
      exists ys, row_is m' i ir ys /\ Permutation xs ys /\ StronglySorted le ys.
Proof.
  intros A le sort_ m i r n off Hi HS.
  destruct (sort_inplace_ok A sort_ m i r n off Hi) as (m' & E & U); [intros l; symmetry; apply Permutation_length, HS|].
  exists m'. split; [exact E|]. assert (Hi' : fits m' i (r ++ [n]) off) by (eapply same_fits; [apply U|auto]). destruct U as (_ & V & O).
  split; [intros b j Hb; apply O; lia|]. intros ir xs Hir Hl Hrow. destruct (HS xs) as [P S]. exists (sort_ xs). split; [|auto].
  pose proof (Permutation_length P) as LP. intros k Hk.
  assert (Rt : in_range (r ++ [n]) (ir ++ [Z.of_nat k])) by (apply Forall2_app; [auto|constructor; [lia|constructor]]).
  rewrite (shown_in A m' i _ _ _ Hi' Rt). pose proof (place_range _ _ Rt) as PR. rewrite V by lia.
  rewrite place_app in * by (apply in_range_length; auto). cbn [prod place] in *.
  replace (off + (place r ir * (n * 1) + (Z.of_nat k * 1 + 0)) - off) with (place r ir * n + Z.of_nat k) by lia. rewrite md, dv by lia.
  rewrite Nat2Z.id. replace (Z.to_nat n) with (length xs) by lia. rewrite vals_is; auto. intros j Hj. eapply row_cells; eauto.
Qed.
(** Sorting into a new array is refused. *)
Theorem C89_not_in_place : forall A (z : A) sort_ (m : mem A) i r n off, fits m i (r ++ [n]) off ->
  sort_new A z sort_ m i = Throw "Sort::vector: in place only for the moment".
Proof.
  intros A z sort_ m i r n off Hi. pose proof (fits_lt _ _ _ _ _ Hi) as Lt. destruct (alloc_like_ok A z m i (r ++ [n]) off Hi) as (Fo & Fl & Ea & _).
  unfold sort_new. unfold alloc_like in *. cbn [fst snd o_arr] in *.
  set (o := mkop (length m) (o_ip i)) in *. set (m1 := m ++ [repeat z (length (arr A m (o_arr i)))]) in *.
  pose proof (fits_pos _ _ _ _ _ Hi) as Hpos. apply positive_app in Hpos. destruct Hpos as [Pr Pd]. pose proof (prod_pos _ Pr). inversion Pd; subst.
  unfold unary_broadcast. replace (dim i <? 1) with false by (rewrite (fits_dim _ _ _ _ _ Hi), app_length; cbn [length]; lia).
  destruct (step_ok A m1 i r [n] off 1 Fl eq_refl) as [->|?]; [|discriminate]. cbn [obind].
  destruct (step_ok A m1 o r [n] off 1 Fo eq_refl) as [->|?]; [|discriminate]. cbn [obind]. rewrite (fits_size _ _ _ _ _ Fl). cbn [obind].
  rewrite prod_app. cbn [prod]. unfold idiv. replace (n * 1 =? 0) with false by lia. cbn [obind]. rewrite Z.quot_mul by lia. unfold for_to.
  destruct (Z.to_nat (prod r)) as [|t] eqn:E4; [lia|]. cbn [loop]. unfold imul. rewrite Z.mul_0_r. change (in_int 0) with true. cbv iota. cbn [obind].
  unfold sort_vector. replace (dim i - (dim i - 1)) with 1 by lia. replace (dim o - (dim i - 1)) with 1 by (unfold dim; cbn [o o_ip]; lia).
  destruct (subview_row A m1 i r n off 0 Fl) as [E1 _]; [lia|]. destruct (subview_row A m1 o r n off 0 Fo) as [E2 _]; [lia|]. rewrite !Z.mul_0_r in *.
  rewrite E1. cbn [obind]. rewrite E2. cbn [obind]. unfold is_same. cbn [o_arr o]. replace (Nat.eqb (o_arr i) (length m)) with false by (symmetry; apply Nat.eqb_neq; lia). reflexivity.
Qed.
(** Insertion sort stands for std::sort. *)
Fixpoint ins (x : Z) (l : list Z) : list Z := match l with [] => [x] | y :: t => if x <=? y then x :: l else y :: ins x t end.
Definition isort (l : list Z) : list Z := fold_right ins [] l.
Lemma isort_ok : forall l, Permutation l (isort l) /\ StronglySorted Z.le (isort l).
Proof.
  assert (P : forall x l, Permutation (x :: l) (ins x l)).
  { intros x l. induction l as [|y t]; cbn [ins]; auto. destruct (x <=? y); auto. rewrite perm_swap. constructor. auto. }
  induction l as [|x l [I1 I2]]; [split; constructor|]. cbn [isort fold_right]. fold (isort l). split; [rewrite <- P; constructor; auto|].
  clear I1. induction (isort l) as [|y t IH]; cbn [ins]; [repeat constructor|]. inversion I2 as [|? ? S F]; subst. destruct (x <=? y) eqn:E.
  - constructor; auto. constructor; [lia|]. eapply Forall_impl; [|exact F]. intros; cbn beta in *; lia.
  - constructor; auto. eapply Permutation_Forall; [apply P|]. constructor; [lia|auto].
Qed.
Example C89_ex : let m := [[9; 3; -7; 2; 1; 0; -4; 5]] in let i := mkop 0 (Some [1; 2; 3; 3; 1]) in
  fits m i ([2] ++ [3]) 1 /\ row_is m i [0] [3; -7; 2] /\ (forall l, Permutation l (isort l) /\ StronglySorted Z.le (isort l)) /\
  sort_inplace Z isort m i = Ok [[9; -7; 2; 3; -4; 0; 1; 5]] /\ sort_new Z 0 isort m i = Throw "Sort::vector: in place only for the moment".
Proof.
  split; [fit|]. split; [intros [|[|[|k]]] Hk; [reflexivity..|cbn [length] in Hk; lia]|]. split; [apply isort_ok|]. split; vm_compute; reflexivity.
Qed.
