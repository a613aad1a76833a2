(** Property of functors of N arguments: C145. *)
From Coq Require Import ZArith Bool List String Lia ZifyBool.
From Verif Require Import Base StrModel StrProof GeoModel GeoSpec GeoProof FunProof PolyProof MatProps NaryModel.
Import ListNotations.
Local Open Scope Z_scope.
Local Notation length := List.length.

(** * Specification *)
(** An input: the type of its elements, the array or view, where that begins, and the dimensions after
    the common ones. *)
Record input := mkinput { i_type : Z; i_opd : opd; i_off : Z; i_tail : list Z }.
Section Spec.
Context {A : Type}.
(** The common dimensions are [r]. *)
Definition placed (m : mem A) (r : list Z) (x : input) : Prop := fits m (i_opd x) (r ++ i_tail x) (i_off x).
(** Part [i] of an input is [xs]. *)
Definition part (m : mem A) (i : Z) (x : input) (xs : list A) : Prop :=
  Z.of_nat (length xs) = prod (i_tail x) /\
  forall j, (j < length xs)%nat -> nth_error xs j = cell m (o_arr (i_opd x)) (i_off x + prod (i_tail x) * i + Z.of_nat j).
(** The content of one argument, and of all. *)
Inductive arg_reads (m : mem A) : arg A -> list A -> Prop :=
| ar_val : forall x, arg_reads m (Val x) [x]
| ar_row : forall v t off xs, fits m v t off -> Z.of_nat (length xs) = prod t ->
    (forall j, (j < length xs)%nat -> nth_error xs j = cell m (o_arr v) (off + Z.of_nat j)) -> arg_reads m (Row v) xs.
Inductive reads (m : mem A) : args A -> list (list A) -> Prop :=
| r_one : forall x, reads m (One x) [[x]]
| r_nums : forall l, reads m (Nums l) (map (fun x => [x]) l)
| r_vars : forall l xs, Forall2 (arg_reads m) l xs -> reads m (Vars l) xs.
(** No argument is a view of array [a]. *)
Definition apart (iv : args A) (a : nat) : Prop := match iv with Vars l => forall v, In (Row v) l -> o_arr v <> a | _ => True end.
(** The output is [n] cells of array [a] from [c] on. *)
Inductive writes (m : mem A) : out -> nat -> Z -> Z -> Prop :=
| w_row : forall v t off, fits m v t off -> writes m (ORow v) (o_arr v) off (prod t)
| w_elem : forall a c x, cell m a c = Some x -> writes m (OElem a c) a c 1.
(** [vector] puts [F] of the content of its arguments into the [n] cells of its output, if they are no
    part of the arguments. *)
Definition computes (n : Z) (F : list (list A) -> Z -> A) (vector : args A -> out -> mem A -> outcome (mem A)) : Prop :=
  forall m iv ov a c xs, reads m iv xs -> writes m ov a c n -> apart iv a ->
  exists m', vector iv ov m = Ok m' /\ (forall b, length (nth b m' []) = length (nth b m [])) /\ length m' = length m /\
    (forall j, 0 <= j < n -> cell m' a (c + j) = Some (F xs j)) /\ only m m' a c n.
(** A single number can be pushed after an array, but no array after a number. *)
Definition in_order (l : list input) : Prop :=
  match l with [] => False | x :: _ => i_tail x <> [] \/ forall y, In y l -> i_tail y = [] end.
End Spec.
Definition given (l : list input) : list (Z * opd) := map (fun x => (i_type x, i_opd x)) l.

(** * Proofs *)
Section Facts.
Variable A : Type.
Implicit Types m : mem A.
Lemma tail_pos : forall m o r t off, fits m o (r ++ t) off -> positive r /\ positive t /\ 1 <= prod r /\ 1 <= prod t /\ 0 <= off /\ off + prod r * prod t <= hsize A m o /\ hsize A m o <= INT_MAX.
Proof.
  intros m o r t off H. pose proof (fits_prod _ _ _ _ _ H) as F. rewrite prod_app in F. pose proof (fits_pos _ _ _ _ _ H) as P. apply positive_app in P. destruct P as [P1 P2].
  pose proof (prod_pos _ P1). pose proof (prod_pos _ P2). tauto.
Qed.
Lemma subview_tail : forall m o r t off k, fits m o (r ++ t) off -> t <> [] -> 0 <= k < prod r ->
  subview A m o (Z.of_nat (length t)) (prod t * k) = Ok (mkop (o_arr o) (Some ((off + prod t * k) :: dims t))) /\
  fits m (mkop (o_arr o) (Some ((off + prod t * k) :: dims t))) t (off + prod t * k).
Proof.
  intros m o r t off k H Ne Hk. destruct (tail_pos _ _ _ _ _ H) as (P1 & P2 & L1 & L2 & O & F1 & F2).
  destruct (mkview_fits A m o (r ++ t) off t (prod t * k) H) as [E1 E2]; auto; try nia.
  split; auto. unfold subview. replace (Z.of_nat (length t) <? 1) with false by (destruct t; [congruence|cbn [length]; lia]).
  rewrite (fits_shapes A m o (r ++ t) off H). cbn [obind]. rewrite (fits_dim A m o _ _ H), app_length.
  replace (Z.to_nat (Z.of_nat (length r + length t) - Z.of_nat (length t))) with (length r) by lia. rewrite skipn_app_len. auto.
Qed.
Lemma step_is : forall m o r t off, fits m o (r ++ t) off ->
  exists st, (if 0 <? Z.of_nat (length r) then stride o (Z.of_nat (length r) - 1) else Ok 0) = Ok st /\ (forall i, 0 <= i < prod r -> imul st i = Ok (prod t * i)) /\
    (if 0 <? Z.of_nat (length r) then let* n := size A m o in idiv n st else Ok 1) = Ok (prod r).
Proof.
  intros m o r t off H. destruct (tail_pos _ _ _ _ _ H) as (P1 & P2 & L1 & L2 & O & F1 & F2). destruct r as [|r0 r].
  - cbn [length]. replace (0 <? Z.of_nat 0) with false by reflexivity. exists 0. split; auto. split; auto. intros i Hi. cbn [prod] in Hi.
    replace i with 0 by lia. rewrite Z.mul_0_r. reflexivity.
  - replace (0 <? Z.of_nat (length (r0 :: r))) with true by (cbn [length]; lia).
    rewrite (fits_stride A m o ((r0 :: r) ++ t) off) by (auto; rewrite app_length; cbn [length]; lia).
    replace (S (Z.to_nat (Z.of_nat (length (r0 :: r)) - 1))) with (length (r0 :: r)) by (cbn [length]; lia).
    rewrite skipn_app_len. exists (prod t). split; auto. split.
    + intros i Hi. apply imul_in. apply in_int_small. nia.
    + rewrite (fits_size _ _ _ _ _ H). cbn [obind]. rewrite prod_app. unfold idiv. replace (prod t =? 0) with false by lia. rewrite Z.quot_mul by lia. auto.
Qed.
(** The content of a part. *)
Fixpoint run_of m (a : nat) (p : Z) (n : nat) : list A :=
  match n with O => [] | S n => match cell m a p with Some x => x :: run_of m a (p + 1) n | None => [] end end.
Lemma run_is : forall m a n p, (forall j, 0 <= j < Z.of_nat n -> exists x, cell m a (p + j) = Some x) ->
  length (run_of m a p n) = n /\ forall j, (j < n)%nat -> nth_error (run_of m a p n) j = cell m a (p + Z.of_nat j).
Proof.
  intros m a n. induction n; intros p H; cbn [run_of]; [split; [auto|intros; lia]|].
  destruct (H 0 ltac:(lia)) as [x E]. rewrite Z.add_0_r in E. rewrite E. destruct (IHn (p + 1)) as [L N].
  { intros j Hj. destruct (H (j + 1) ltac:(lia)) as [y Y]. exists y. rewrite <- Y. f_equal. lia. }
  split; [cbn [length]; lia|]. intros [|j] Hj; cbn [nth_error]; [rewrite Z.add_0_r; auto|]. rewrite N by lia. f_equal. lia.
Qed.
Definition part_of m (i : Z) (x : input) : list A := run_of m (o_arr (i_opd x)) (i_off x + prod (i_tail x) * i) (Z.to_nat (prod (i_tail x))).
Lemma part_cells : forall m r x i j, placed m r x -> 0 <= i < prod r -> 0 <= j < prod (i_tail x) ->
  exists y, cell m (o_arr (i_opd x)) (i_off x + prod (i_tail x) * i + j) = Some y.
Proof.
  intros m r x i j H Hi Hj. destruct (tail_pos _ _ _ _ _ H) as (P1 & P2 & L1 & L2 & O & F1 & F2). apply cell_some.
  assert (prod (i_tail x) * i + j < prod r * prod (i_tail x)) by nia. unfold hsize in F1. nia.
Qed.
Lemma part_is : forall m r x i, placed m r x -> 0 <= i < prod r -> part m i x (part_of m i x).
Proof.
  intros m r x i H Hi. destruct (tail_pos _ _ _ _ _ H) as (P1 & P2 & L1 & L2 & O & F1 & F2).
  destruct (run_is m (o_arr (i_opd x)) (Z.to_nat (prod (i_tail x))) (i_off x + prod (i_tail x) * i)) as [L N].
  { intros j Hj. eapply part_cells; eauto. lia. }
  split; unfold part_of; [rewrite L; lia|]. rewrite L. exact N.
Qed.
Lemma nth_ext : forall B (xs ys : list B), (forall j, nth_error xs j = nth_error ys j) -> xs = ys.
Proof.
  intros B xs. induction xs as [|x xs IH]; intros [|y ys] H; auto; try (specialize (H 0%nat); discriminate).
  pose proof (H 0%nat) as E. inversion E; subst. f_equal. apply IH. intros j. apply (H (S j)).
Qed.
Lemma part_unique : forall m i x xs ys, part m i x xs -> part m i x ys -> xs = ys.
Proof.
  intros m i x xs ys [L1 N1] [L2 N2]. apply nth_ext. intros j. destruct (Nat.lt_ge_cases j (length xs)).
  - rewrite N1, N2 by lia. auto.
  - rewrite !(proj2 (nth_error_None _ _)) by lia. auto.
Qed.
Lemma parts_unique : forall m i l xs ys, Forall2 (part m i) l xs -> Forall2 (part m i) l ys -> xs = ys.
Proof. intros m i l xs ys H. revert ys. induction H; intros ys G; inversion G; subst; auto. f_equal; [eapply part_unique; eauto|auto]. Qed.
Lemma part_same : forall m m' i x xs, (forall j, cell m' (o_arr (i_opd x)) j = cell m (o_arr (i_opd x)) j) -> part m' i x xs -> part m i x xs.
Proof. intros m m' i x xs E [L N]. split; auto. intros j Hj. rewrite N by auto. auto. Qed.

(** One argument. *)
Lemma arg_is : forall m r x i, placed m r x -> 0 <= i < prod r ->
  exists a xs, (let* step := if 0 <? Z.of_nat (length r) then stride (i_opd x) (Z.of_nat (length r) - 1) else Ok 0 in
                if dim (i_opd x) =? Z.of_nat (length r) then let* y := elem A m (i_opd x) i in Ok (Val y)
                else let* k := imul step i in let* v := subview A m (i_opd x) (dim (i_opd x) - Z.of_nat (length r)) k in Ok (Row v)) = Ok a /\
    arg_reads m a xs /\ part m i x xs /\ (forall v, a = Row v -> o_arr v = o_arr (i_opd x)) /\
    match i_tail x with [] => exists y, a = Val y /\ xs = [y] | _ => exists v, a = Row v end.
Proof.
  intros m r x i H Hi. destruct (step_is _ _ _ _ _ H) as (st & Es & Ei & _). pose proof (part_is m r x i H Hi) as [L N].
  rewrite Es. cbn [obind]. rewrite (fits_dim A m _ _ _ H), app_length. destruct (i_tail x) as [|t0 t] eqn:Et.
  - cbn [length]. replace (Z.of_nat (length r + 0) =? Z.of_nat (length r)) with true by lia. cbn [prod] in L, N.
    destruct (part_cells m r x i 0 H Hi) as [y Y]; [rewrite Et; cbn [prod]; lia|]. rewrite Et in Y. cbn [prod] in Y.
    exists (Val y), [y]. split; [|split; [constructor|split; [|split; [intros; discriminate|eauto]]]].
    + unfold elem. rewrite (fits_size _ _ _ _ _ H), prod_app, Et. cbn [prod obind]. replace ((i <? 0) || (prod r * 1 <=? i)) with false by lia.
      rewrite (fits_offset _ _ _ _ _ H), rd_cell. replace (i_off x + i) with (i_off x + 1 * i + 0) by lia. rewrite Y. reflexivity.
    + split; [rewrite Et; reflexivity|]. rewrite Et. cbn [prod length]. intros j Hj. replace j with 0%nat by lia. cbn [nth_error]. rewrite <- Y. f_equal.
  - replace (Z.of_nat (length r + length (t0 :: t)) =? Z.of_nat (length r)) with false by (cbn [length]; lia).
    replace (Z.of_nat (length r + length (t0 :: t)) - Z.of_nat (length r)) with (Z.of_nat (length (t0 :: t))) by lia.
    rewrite Ei by auto. cbn [obind]. unfold placed in H. rewrite Et in *.
    destruct (subview_tail m _ r (t0 :: t) _ i H ltac:(discriminate) Hi) as [E F]. rewrite E. cbn [obind].
    exists (Row (mkop (o_arr (i_opd x)) (Some ((i_off x + prod (t0 :: t) * i) :: dims (t0 :: t))))), (part_of m i x).
    split; auto. split; [|split; [split; rewrite Et; auto|split; [|eauto]]].
    + eapply ar_row; eauto.
    + intros v Ev. inversion Ev. reflexivity.
Qed.
Lemma collect_step : forall m r x l i iv a, placed m r x -> 0 <= i < prod r ->
  (let* step := if 0 <? Z.of_nat (length r) then stride (i_opd x) (Z.of_nat (length r) - 1) else Ok 0 in
                if dim (i_opd x) =? Z.of_nat (length r) then let* y := elem A m (i_opd x) i in Ok (Val y)
                else let* k := imul step i in let* v := subview A m (i_opd x) (dim (i_opd x) - Z.of_nat (length r)) k in Ok (Row v)) = Ok a ->
  collect A m (Z.of_nat (length r)) i (map i_opd (x :: l)) iv = (let* iv := push_arg A iv a in collect A m (Z.of_nat (length r)) i (map i_opd l) iv).
Proof.
  intros m r x l i iv a H Hi E. cbn [map collect]. destruct (step_is _ _ _ _ _ H) as (st & Es & _). rewrite Es in *. cbn [obind] in *. rewrite E. reflexivity.
Qed.
Lemma collect_vars : forall m r i, 0 <= i < prod r -> forall l acc, Forall (placed m r) l ->
  exists bs xs, collect A m (Z.of_nat (length r)) i (map i_opd l) (Vars acc) = Ok (Vars (acc ++ bs)) /\ Forall2 (arg_reads m) bs xs /\ Forall2 (part m i) l xs /\
    forall v, In (Row v) bs -> exists x, In x l /\ o_arr v = o_arr (i_opd x).
Proof.
  intros m r i Hi l. induction l as [|x l IH]; intros acc H.
  - exists [], []. cbn [map collect]. rewrite app_nil_r. split; auto. split; [constructor|]. split; [constructor|]. intros v [].
  - inversion H as [|? ? H1 H2]; subst. destruct (arg_is m r x i H1 Hi) as (a & xs & E & R & P & Av & _).
    rewrite (collect_step m r x l i _ a H1 Hi E). cbn [push_arg obind]. destruct (IH (acc ++ [a]) H2) as (bs & ys & E2 & R2 & P2 & Av2).
    exists (a :: bs), (xs :: ys). rewrite E2, <- app_assoc. split; auto. split; [constructor; auto|]. split; [constructor; auto|].
    intros v [->|Hv]; [exists x; split; [left; auto|auto]|]. destruct (Av2 v Hv) as (y & ? & ?). exists y. split; [right; auto|auto].
Qed.
Lemma collect_nums : forall m r i, 0 <= i < prod r -> forall l acc, Forall (placed m r) l -> (forall y, In y l -> i_tail y = []) ->
  exists vs, collect A m (Z.of_nat (length r)) i (map i_opd l) (Nums acc) = Ok (Nums (acc ++ vs)) /\ Forall2 (part m i) l (map (fun x => [x]) vs).
Proof.
  intros m r i Hi l. induction l as [|x l IH]; intros acc H T.
  - exists []. cbn [map collect]. rewrite app_nil_r. split; [reflexivity|constructor].
  - inversion H as [|? ? H1 H2]; subst. destruct (arg_is m r x i H1 Hi) as (a & xs & E & R & P & Av & Tx). rewrite (T x (or_introl eq_refl)) in Tx. destruct Tx as (y & -> & ->).
    rewrite (collect_step m r x l i _ (Val y) H1 Hi E). cbn [push_arg obind]. destruct (IH (acc ++ [y]) H2) as (vs & E2 & P2); [intros z Hz; apply T; right; auto|].
    exists (y :: vs). rewrite E2, <- app_assoc. split; auto. cbn [map]. constructor; auto.
Qed.
Lemma collect_all : forall m r i l, 0 <= i < prod r -> Forall (placed m r) l -> in_order l ->
  exists iv xs, collect A m (Z.of_nat (length r)) i (map i_opd l) Undef = Ok iv /\ reads m iv xs /\ Forall2 (part m i) l xs /\
    forall a, (forall x, In x l -> o_arr (i_opd x) <> a) -> apart iv a.
Proof.
  intros m r i l Hi H O. destruct l as [|x l]; [destruct O|]. inversion H as [|? ? H1 H2]; subst. destruct (arg_is m r x i H1 Hi) as (a & xs & E & R & P & Av & Tx).
  rewrite (collect_step m r x l i _ a H1 Hi E). destruct (i_tail x) as [|t0 t] eqn:Et.
  - destruct Tx as (y & -> & ->). cbn [push_arg obind]. destruct O as [O|O]; [congruence|]. destruct l as [|x2 l].
    + exists (One y), [[y]]. split; auto. split; [constructor|]. split; [constructor; [exact P|constructor]|]. intros a _. exact Logic.I.
    + inversion H2 as [|? ? H3 H4]; subst. destruct (arg_is m r x2 i H3 Hi) as (a2 & xs2 & E2 & R2 & P2 & Av2 & Tx2).
      rewrite (O x2) in Tx2 by (right; left; auto). destruct Tx2 as (y2 & -> & ->).
      rewrite (collect_step m r x2 l i _ (Val y2) H3 Hi E2). cbn [push_arg obind].
      destruct (collect_nums m r i Hi l [y; y2] H4) as (vs & E3 & P3); [intros z Hz; apply O; right; right; auto|].
      exists (Nums ([y; y2] ++ vs)), (map (fun x => [x]) ([y; y2] ++ vs)). split; auto. split; [constructor|]. split; [cbn [map app]; constructor; [exact P|constructor; [exact P2|exact P3]]|]. intros a _. exact Logic.I.
  - destruct Tx as (v & ->). cbn [push_arg obind]. destruct (collect_vars m r i Hi l [Row v] H2) as (bs & ys & E2 & R2 & P2 & Av2).
    exists (Vars ([Row v] ++ bs)), (xs :: ys). split; auto. split; [constructor; constructor; auto|]. split; [constructor; auto|].
    intros a Na w [Hw|Hw].
    + inversion Hw; subst. rewrite (Av w eq_refl). apply Na. left. auto.
    + destruct (Av2 w Hw) as (y & Hy & ->). apply Na. right. auto.
Qed.
End Facts.

(** * C145 *)
(** Part [i] of the output is [F] of the parts [i] of the inputs. *)
Theorem C145_broadcast : forall A m r l o off w ty F (vector : args A -> out -> mem A -> outcome (mem A)),
  Forall (placed m r) l -> in_order l -> (forall x, In x l -> i_type x = ty) -> fits m o (r ++ w) off -> (forall x, In x l -> o_arr (i_opd x) <> o_arr o) ->
  computes (prod w) F vector ->
  exists m', nary_broadcast A (Z.of_nat (length w)) vector m (given l) o = Ok m' /\ only m m' (o_arr o) off (prod (r ++ w)) /\
    (forall b, length (nth b m' []) = length (nth b m [])) /\
    forall i xs j, 0 <= i < prod r -> Forall2 (part m i) l xs -> 0 <= j < prod w -> cell m' (o_arr o) (off + prod w * i + j) = Some (F xs j).
Proof.
  intros A m r l o off w ty F vector Hl Or Ty Ho Na Cv. destruct (tail_pos _ _ _ _ _ _ Ho) as (P1 & P2 & L1 & L2 & O & F1 & F2).
  unfold nary_broadcast. replace (match given l with [] => true | (t0, _) :: t => forallb (fun x => t0 =? fst x) t end) with true.
  2:{ destruct l as [|x l]; auto. cbn [given map]. symmetry. apply forallb_forall. intros y Hy. apply in_map_iff in Hy. destruct Hy as (z & <- & Hz). cbn [fst].
      rewrite (Ty x) by (left; auto). rewrite (Ty z) by (right; auto). apply Z.eqb_refl. }
  rewrite (fits_dim A m o _ _ Ho), app_length. replace (Z.of_nat (length r + length w) - Z.of_nat (length w)) with (Z.of_nat (length r)) by lia.
  replace (Z.of_nat (length r) <? 0) with false by lia. destruct (step_is _ _ _ _ _ _ Ho) as (st & Es & Ei & En). rewrite Es. cbn [obind]. rewrite En. cbn [obind].
  replace (map snd (given l)) with (map i_opd l) by (unfold given; rewrite map_map; reflexivity).
  match goal with |- context [for_to A (prod r) ?body m] =>
    destruct (for_blocks A m (o_arr o) off (prod w) (fun j => Some (F (map (part_of A m ((j - off) / prod w)) l) ((j - off) mod prod w))) body (prod r)) as (m2 & E2 & U2) end.
  - lia.
  - lia.
  - intros i m' Hi U. pose proof U as (S & _ & _).
    assert (Hl' : Forall (placed m' r) l) by (eapply Forall_impl; [|exact Hl]; intros x X; eapply same_fits; eauto).
    assert (Ho' : fits m' o (r ++ w) off) by (eapply same_fits; eauto).
    destruct (collect_all A m' r i l Hi Hl' Or) as (iv & xs & E & R & P & Ap). rewrite E. cbn [obind].
    assert (Px : xs = map (part_of A m i) l).
    { apply (parts_unique A m i l).
      - clear - P U Na. assert (X : forall x, In x l -> forall j, cell m' (o_arr (i_opd x)) j = cell m (o_arr (i_opd x)) j) by (intros x Hx j; apply (upd_in _ _ _ _ _ _ _ _ U); left; auto).
        clear - P X. induction P; constructor; [eapply part_same; [|eauto]; apply X; left; auto|]. apply IHP. intros z Hz. apply X. right. auto.
      - clear - Hl Hi. induction Hl; constructor; auto. eapply part_is; eauto. }
    assert (G : exists ov, (if Z.of_nat (length r + length w) =? Z.of_nat (length r)
                   then (let* n := size A m' o in if n <=? i then Throw "not modelled" else Ok (OElem (o_arr o) (offset o + i)))
                   else let* k := imul st i in let* v := subview A m' o (Z.of_nat (length r + length w) - Z.of_nat (length r)) k in Ok (ORow v)) = Ok ov /\
                   writes m' ov (o_arr o) (off + prod w * i) (prod w)).
    { destruct w as [|w0 w].
      - cbn [length]. replace (Z.of_nat (length r + 0) =? Z.of_nat (length r)) with true by lia. rewrite app_nil_r in Ho'. rewrite (fits_size _ _ _ _ _ Ho'). cbn [obind].
        replace (prod r <=? i) with false by lia. rewrite (fits_offset _ _ _ _ _ Ho'). cbn [prod]. replace (off + 1 * i) with (off + i) by lia. eexists. split; [reflexivity|].
        destruct (fits_cell A m' o r off i Ho' Hi) as [x X]. econstructor; eauto.
      - replace (Z.of_nat (length r + length (w0 :: w)) =? Z.of_nat (length r)) with false by (cbn [length]; lia). rewrite Ei by auto. cbn [obind].
        replace (Z.of_nat (length r + length (w0 :: w)) - Z.of_nat (length r)) with (Z.of_nat (length (w0 :: w))) by lia.
        destruct (subview_tail A m' o r (w0 :: w) off i Ho' ltac:(discriminate) Hi) as [E3 F3]. rewrite E3. cbn [obind]. eexists. split; [reflexivity|].
        apply (w_row m' _ _ _ F3). }
    destruct G as (ov & -> & W). cbn [obind]. destruct (Cv m' iv ov _ _ xs R W (Ap _ Na)) as (m'' & E4 & Sz & Ln & Cl & On). exists m''. split; auto.
    split; [split; auto; intros b; symmetry; apply Sz|]. split.
    + intros j Hj. replace j with (off + prod w * i + (j - (off + prod w * i))) at 1 by lia. rewrite Cl by lia. rewrite Px.
      assert (Ed : (j - off) / prod w = i) by (symmetry; apply (Z.div_unique _ _ i (j - (off + prod w * i))); lia).
      assert (Em : (j - off) mod prod w = j - (off + prod w * i)) by (symmetry; apply (Z.mod_unique _ _ i (j - (off + prod w * i))); lia).
      rewrite Ed, Em. reflexivity.
    + intros b j Hb. apply On. destruct Hb as [Hb|Hb]; auto. right. lia.
  - exists m2. split; auto. destruct U2 as ([Sm Sl] & Cl & Ot). split; [|split].
    + intros b j Hb. apply Ot. rewrite prod_app in Hb. destruct Hb as [Hb|Hb]; auto. right. lia.
    + intros b. symmetry. apply Sl.
    + intros i xs j Hi Hx Hj. assert (prod w * i + j < prod w * prod r) by nia. rewrite Cl by nia.
      assert (Ed : (off + prod w * i + j - off) / prod w = i) by (symmetry; apply (Z.div_unique _ _ i j); lia).
      assert (Em : (off + prod w * i + j - off) mod prod w = j) by (symmetry; apply (Z.mod_unique _ _ i j); lia).
      rewrite Ed, Em. f_equal. f_equal. apply (parts_unique A m i l); auto. clear - Hl Hi. induction Hl; constructor; auto. eapply part_is; eauto.
Qed.
(** Called with the inputs only, a functor gives a new array like the first. *)
Theorem C145_new : forall A z m r x l F (vector : args A -> out -> mem A -> outcome (mem A)),
  Forall (placed m r) (x :: l) -> in_order (x :: l) -> (forall y, In y l -> i_type y = i_type x) -> computes (prod (i_tail x)) F vector ->
  exists m' o, nary_new A z (Z.of_nat (length (i_tail x))) vector m (i_type x, i_opd x) (given l) = Ok (m', o) /\ o_arr o = length m /\
    fits m' o (r ++ i_tail x) (i_off x) /\ (forall b j, (b < length m)%nat -> cell m' b j = cell m b j) /\
    forall i xs j, 0 <= i < prod r -> Forall2 (part m i) (x :: l) xs -> 0 <= j < prod (i_tail x) -> cell m' (length m) (i_off x + prod (i_tail x) * i + j) = Some (F xs j).
Proof.
  intros A z m r x l F vector Hl Or Ty Cv. unfold nary_new, alloc_like. cbn [snd].
  set (m1 := m ++ [repeat z (length (arr A m (o_arr (i_opd x))))]). set (o := mkop (length m) (o_ip (i_opd x))).
  assert (Hl1 : Forall (placed m1 r) (x :: l)) by (eapply Forall_impl; [|exact Hl]; intros y Y; apply fits_app; exact Y).
  assert (Lt : forall y, In y (x :: l) -> (o_arr (i_opd y) < length m)%nat) by (intros y Hy; rewrite Forall_forall in Hl; eapply fits_lt; apply (Hl y Hy)).
  assert (Ho : fits m1 o (r ++ i_tail x) (i_off x)).
  { inversion Hl as [|? ? (N & P & O & B & D) _]; subst. split; auto. split; auto. split; auto. unfold m1, o. cbn [o_arr o_ip]. rewrite app_nth2, Nat.sub_diag by lia. cbn [nth].
    rewrite repeat_length. split; auto. }
  destruct (C145_broadcast A m1 r (x :: l) o (i_off x) (i_tail x) (i_type x) F vector Hl1 Or) as (m' & E & On & Sz & Cl); auto.
  - intros y [<-|Hy]; auto.
  - intros y Hy. cbn [o_arr o]. specialize (Lt y Hy). lia.
  - cbn [given map] in E. unfold given. rewrite E. cbn [obind]. exists m', o. split; auto. split; auto.
    assert (Old : forall b j, (b < length m)%nat -> cell m' b j = cell m b j).
    { intros b j Hb. rewrite (On b j) by (left; cbn [o_arr o]; lia). apply cell_app_old. auto. }
    split; [|split; auto].
    + destruct Ho as (N & P & O & B & D). split; auto. split; auto. split; auto. rewrite !Sz. auto.
    + intros i xs j Hi Hx Hj. apply (Cl i xs j); auto. clear - Hx Lt. induction Hx as [|y ys l' l'' P Hx IH]; constructor.
      * destruct P as [L N]. split; auto. intros j Hj. rewrite N by auto. symmetry. apply cell_app_old. apply Lt. left. auto.
      * apply IH. intros z' Hz. apply Lt. right. auto.
Qed.
(** What it refuses: inputs of different types, an output of too few dimensions; the functor that has
    no [vector]; and an array after a single number. *)
Theorem C145_types : forall A mDim vector (m : mem A) x l y o, In y l -> i_type y <> i_type x ->
  nary_broadcast A mDim vector m (given (x :: l)) o = Throw "var::broadcast: types must match (for now)".
Proof.
  intros A mDim vector m x l y o Hy Ne. unfold nary_broadcast. cbn [given map].
  replace (forallb (fun z => i_type x =? fst z) (map (fun x => (i_type x, i_opd x)) l)) with false; auto.
  symmetry. apply not_true_iff_false. intros T. rewrite forallb_forall in T. specialize (T (i_type y, i_opd y)). cbn [fst] in T.
  rewrite (proj2 (Z.eqb_neq _ _)) in T by congruence. discriminate T. apply in_map_iff. exists y. auto.
Qed.
Lemma types_match : forall l ty, (forall x, In x l -> i_type x = ty) -> match given l with [] => true | (t0, _) :: t => forallb (fun x => t0 =? fst x) t end = true.
Proof.
  intros [|x l] ty Ty; auto. cbn [given map]. apply forallb_forall. intros y Hy. apply in_map_iff in Hy. destruct Hy as (z & <- & Hz). cbn [fst].
  rewrite (Ty x) by (left; auto). rewrite (Ty z) by (right; auto). apply Z.eqb_refl.
Qed.
Theorem C145_dimension : forall A mDim vector (m : mem A) l o sh off ty, (forall x, In x l -> i_type x = ty) -> fits m o sh off -> Z.of_nat (length sh) < mDim ->
  nary_broadcast A mDim vector m (given l) o = Throw "var::broadcast: input dimension too small".
Proof.
  intros A mDim vector m l o sh off ty Ty Ho L. unfold nary_broadcast. rewrite (types_match l ty Ty). rewrite (fits_dim A m o _ _ Ho). replace (Z.of_nat (length sh) - mDim <? 0) with true by lia. reflexivity.
Qed.
Lemma first_op : forall A (m : mem A) r l o off w ty vector, (forall x, In x l -> i_type x = ty) -> fits m o (r ++ w) off ->
  exists n ov, nary_broadcast A (Z.of_nat (length w)) vector m (given l) o =
    (let* m := (let* iv := collect A m (Z.of_nat (length r)) 0 (map i_opd l) Undef in vector iv ov m) in n m).
Proof.
  intros A m r l o off w ty vector Ty Ho. destruct (tail_pos _ _ _ _ _ _ Ho) as (P1 & P2 & L1 & L2 & O & F1 & F2).
  unfold nary_broadcast. rewrite (types_match l ty Ty).
  rewrite (fits_dim A m o _ _ Ho), app_length. replace (Z.of_nat (length r + length w) - Z.of_nat (length w)) with (Z.of_nat (length r)) by lia.
  replace (Z.of_nat (length r) <? 0) with false by lia. destruct (step_is _ _ _ _ _ _ Ho) as (st & Es & Ei & En). rewrite Es. cbn [obind]. rewrite En. cbn [obind].
  replace (map snd (given l)) with (map i_opd l) by (unfold given; rewrite map_map; reflexivity).
  unfold for_to. destruct (Z.to_nat (prod r)) as [|n] eqn:Ez; [lia|]. cbn [loop].
  assert (H0 : 0 <= 0 < prod r) by lia. destruct w as [|w0 w].
  - cbn [length]. replace (Z.of_nat (length r + 0) =? Z.of_nat (length r)) with true by lia. rewrite app_nil_r in Ho. rewrite (fits_size _ _ _ _ _ Ho). cbn [obind].
    replace (prod r <=? 0) with false by lia. eexists (fun m => loop A n (0 + 1) _ m), _. reflexivity.
  - replace (Z.of_nat (length r + length (w0 :: w)) =? Z.of_nat (length r)) with false by (cbn [length]; lia). rewrite Ei by auto. cbn [obind].
    replace (Z.of_nat (length r + length (w0 :: w)) - Z.of_nat (length r)) with (Z.of_nat (length (w0 :: w))) by lia.
    destruct (subview_tail A m o r (w0 :: w) off 0 Ho ltac:(discriminate) H0) as [E3 F3]. rewrite E3. cbn [obind].
    eexists (fun m => loop A n (0 + 1) _ m), _. reflexivity.
Qed.
Theorem C145_no_vector : forall A (m : mem A) r l o off w ty, Forall (placed m r) l -> in_order l -> (forall x, In x l -> i_type x = ty) -> fits m o (r ++ w) off ->
  nary_broadcast A (Z.of_nat (length w)) (default_vector A) m (given l) o = Throw "UnaryFunctor: not a vector operation".
Proof.
  intros A m r l o off w ty Hl Or Ty Ho. destruct (first_op A m r l o off w ty (default_vector A) Ty Ho) as (n & ov & ->). destruct (tail_pos _ _ _ _ _ _ Ho) as (_ & _ & L1 & _).
  destruct (collect_all A m r 0 l) as (iv & xs & -> & _); auto; lia.
Qed.
Theorem C145_array_after_number : forall A (m : mem A) r x y l o off w ty vector, Forall (placed m r) (x :: y :: l) -> i_tail x = [] -> i_tail y <> [] ->
  (forall z, In z (x :: y :: l) -> i_type z = ty) -> fits m o (r ++ w) off ->
  nary_broadcast A (Z.of_nat (length w)) vector m (given (x :: y :: l)) o = Throw "push(): Incompatible types".
Proof.
  intros A m r x y l o off w ty vector Hl Tx Ty Ht Ho. destruct (first_op A m r (x :: y :: l) o off w ty vector Ht Ho) as (n & ov & ->). destruct (tail_pos _ _ _ _ _ _ Ho) as (_ & _ & L1 & _).
  inversion Hl as [|? ? H1 H2]; subst. inversion H2 as [|? ? H3 H4]; subst. assert (H0 : 0 <= 0 < prod r) by lia.
  destruct (arg_is A m r x 0 H1 H0) as (a & xs & E & _ & _ & _ & Ta). rewrite Tx in Ta. destruct Ta as (u & -> & _).
  rewrite (collect_step A m r x (y :: l) 0 _ _ H1 H0 E). cbn [push_arg obind].
  destruct (arg_is A m r y 0 H3 H0) as (b & ys & E2 & _ & _ & _ & Tb). destruct (i_tail y) as [|t0 t]; [congruence|]. destruct Tb as (v & ->).
  rewrite (collect_step A m r y l 0 _ _ H3 H0 E2). reflexivity.
Qed.
(** After two numbers or more it is undefined behaviour: the array is read as a number. *)
Theorem C145_array_after_numbers : forall A (m : mem A) r x y l1 z l2 o off w ty vector, Forall (placed m r) (x :: y :: l1 ++ z :: l2) ->
  (forall u, In u (x :: y :: l1) -> i_tail u = []) -> i_tail z <> [] ->
  (forall u, In u (x :: y :: l1 ++ z :: l2) -> i_type u = ty) -> fits m o (r ++ w) off ->
  nary_broadcast A (Z.of_nat (length w)) vector m (given (x :: y :: l1 ++ z :: l2)) o = UB TypePun.
Proof.
  intros A m r x y l1 z l2 o off w ty vector Hl Ts Tz Ht Ho. destruct (first_op A m r (x :: y :: l1 ++ z :: l2) o off w ty vector Ht Ho) as (n & ov & ->).
  destruct (tail_pos _ _ _ _ _ _ Ho) as (_ & _ & L1 & _). assert (H0 : 0 <= 0 < prod r) by lia.
  inversion Hl as [|? ? H1 H2]; subst. inversion H2 as [|? ? H3 H4]; subst. apply Forall_app in H4. destruct H4 as [H4 H5]. inversion H5 as [|? ? H6 H7]; subst.
  destruct (arg_is A m r x 0 H1 H0) as (a & xs & E & _ & _ & _ & Ta). rewrite (Ts x) in Ta by (left; auto). destruct Ta as (u & -> & _).
  rewrite (collect_step A m r x _ 0 _ _ H1 H0 E). cbn [push_arg obind].
  destruct (arg_is A m r y 0 H3 H0) as (b & ys & E2 & _ & _ & _ & Tb). rewrite (Ts y) in Tb by (right; left; auto). destruct Tb as (u2 & -> & _).
  rewrite (collect_step A m r y _ 0 _ _ H3 H0 E2). cbn [push_arg obind].
  assert (G : forall acc, collect A m (Z.of_nat (length r)) 0 (map i_opd (l1 ++ z :: l2)) (Nums acc) = UB TypePun).
  { assert (T1 : forall u, In u l1 -> i_tail u = []) by (intros v Hv; apply Ts; right; right; auto). clear - T1 H4 H6 Tz H0.
    induction l1 as [|c l1 IH]; intros acc.
    - destruct (arg_is A m r z 0 H6 H0) as (b & ys & E2 & _ & _ & _ & Tb). destruct (i_tail z) as [|t0 t]; [congruence|]. destruct Tb as (v & ->).
      cbn [app]. rewrite (collect_step A m r z l2 0 _ _ H6 H0 E2). reflexivity.
    - inversion H4 as [|? ? H8 H9]; subst. destruct (arg_is A m r c 0 H8 H0) as (a & xs & E & _ & _ & _ & Ta). rewrite (T1 c) in Ta by (left; auto). destruct Ta as (u & -> & _).
      cbn [app]. rewrite (collect_step A m r c _ 0 _ _ H8 H0 E). cbn [push_arg obind]. apply IH; auto. intros v Hv. apply T1. right. auto. }
  rewrite G. reflexivity.
Qed.
(** An output whose parts are empty is a division by zero. *)
Theorem C145_empty : forall A vector (m : mem A) l a off r w ty, (forall x, In x l -> i_type x = ty) -> r <> [] -> prod w = 0 ->
  nary_broadcast A (Z.of_nat (length w)) vector m (given l) (mkop a (Some (off :: dims (r ++ w)))) = UB DivByZero.
Proof.
  intros A vector m l a off r w ty Ty Nr Pw. unfold nary_broadcast. rewrite (types_match l ty Ty). unfold dim. cbn [o_ip]. rewrite v_dim_dims, app_length.
  replace (Z.of_nat (length r + length w) - Z.of_nat (length w)) with (Z.of_nat (length r)) by lia. assert (Lr : (0 < length r)%nat) by (destruct r; [congruence|cbn [length]; lia]).
  replace (Z.of_nat (length r) <? 0) with false by lia. replace (0 <? Z.of_nat (length r)) with true by lia. unfold stride. cbn [o_ip].
  rewrite v_stride_dims by (rewrite app_length; lia). replace (S (Z.to_nat (Z.of_nat (length r) - 1))) with (length r) by lia. rewrite skipn_app_len, Pw. cbn [obind].
  unfold size. cbn [o_ip]. rewrite v_size_dims; [|destruct r; [congruence|discriminate]|rewrite prod_app, Pw, Z.mul_0_r; reflexivity]. reflexivity.
Qed.

(** A functor for examples: the last of its inputs first. *)
Definition content (m : mem Z) (x : arg Z) : list Z :=
  match x with Val y => [y] | Row v => run_of Z m (o_arr v) (offset v) (Z.to_nat (match size Z m v with Ok n => n | _ => 0 end)) end.
Definition contents (m : mem Z) (iv : args Z) : list (list Z) :=
  match iv with Undef => [] | One x => [[x]] | Nums l => map (fun x => [x]) l | Vars l => map (content m) l end.
Definition put_all (n : Z) (F : list (list Z) -> Z -> Z) (iv : args Z) (ov : out) (m : mem Z) : outcome (mem Z) :=
  let (a, c) := match ov with ORow v => (o_arr v, offset v) | OElem a c => (a, c) end in
  wr_row Z m a c (map (fun j => F (contents m iv) (Z.of_nat j)) (seq 0 (Z.to_nat n))).
Lemma reads_contents : forall m iv xs, reads m iv xs -> contents m iv = xs.
Proof.
  intros m iv xs R. destruct R as [x|l|l xs R]; auto. cbn [contents]. induction R as [|a ys l xs H R IH]; auto. cbn [map]. f_equal; auto.
  destruct H as [x|v t off ys Fi L N]; auto. cbn [content]. rewrite (fits_size _ _ _ _ _ Fi), (fits_offset _ _ _ _ _ Fi).
  destruct (run_is Z m (o_arr v) (Z.to_nat (prod t)) off) as [L2 N2].
  { intros j Hj. eapply fits_cell; eauto. pose proof (fits_prod _ _ _ _ _ Fi). lia. }
  apply nth_ext. intros j. destruct (Nat.lt_ge_cases j (length ys)).
  - rewrite N, N2 by lia. auto.
  - rewrite !(proj2 (nth_error_None _ _)) by lia. auto.
Qed.
Lemma nth_seq : forall n s j, (j < n)%nat -> nth_error (seq s n) j = Some (s + j)%nat.
Proof. induction n; intros s j H; [lia|]. destruct j; cbn [seq nth_error]; [f_equal; lia|]. rewrite IHn by lia. f_equal. lia. Qed.
Lemma put_all_computes : forall n F, computes n F (put_all n F).
Proof.
  intros n F m iv ov a c xs R W Ap. unfold put_all. rewrite (reads_contents _ _ _ R).
  assert (G : 0 <= c /\ 0 <= n /\ c + n <= Z.of_nat (length (arr Z m a)) /\ match ov with ORow v => (o_arr v, offset v) | OElem a c => (a, c) end = (a, c)).
  { destruct W as [v t off Fi|a c x C].
    - rewrite (fits_offset _ _ _ _ _ Fi). pose proof (fits_prod _ _ _ _ _ Fi) as P. unfold hsize in P. split; [lia|]. split; [lia|]. split; [lia|auto].
    - apply cell_bound in C. split; [lia|]. split; [lia|]. split; [lia|auto]. }
  destruct G as (G1 & G2 & G3 & ->). destruct (wr_row_ok Z a (map (fun j => F xs (Z.of_nat j)) (seq 0 (Z.to_nat n))) c m) as (m' & E & (Sl & Sc) & Cl & Ot); auto.
  { rewrite map_length, seq_length. lia. }
  exists m'. split; auto. split; [intros b; symmetry; apply Sc|]. split; [auto|]. rewrite map_length, seq_length in *. split.
  - intros j Hj. rewrite Cl by lia. rewrite nth_error_map. replace (c + j - c) with j by lia. rewrite nth_seq by lia.
    cbn [option_map]. f_equal. f_equal. lia.
  - intros b j Hb. apply Ot. lia.
Qed.
(** The test of /repo/test/test-math.cpp 32-41, 165-185, with numbers for its decimals. *)
Definition nary_test (rows : list (list Z)) (j : Z) : Z := nth (Z.to_nat (Z.of_nat (length rows) - 1 - j)) (nth 0 rows []) 0.
Definition m3 : mem Z := [[0; 12; 14; 1; 12; 14; 2; 12; 14; 3; 12; 14]; [0; 22; 1; 22; 2; 22; 3; 22]; [10; 22; 33; 44]].
Definition in1 : input := mkinput 5 (mkop 0 (Some (0 :: dims [4; 3]))) 0 [3].
Definition in2 : input := mkinput 5 (mkop 1 (Some (0 :: dims [4; 2]))) 0 [2].
Definition in3 : input := mkinput 5 (mkop 2 None) 0 [].
Ltac placed := split; [discriminate|]; split; [repeat (constructor; [lia|]); constructor|]; split; [cbn; lia|]; split; [cbn; unfold INT_MAX; cbn; lia|cbn; auto].
Lemma placed3 : Forall (placed m3 [4]) [in1; in2; in3].
Proof. repeat (apply Forall_cons; [placed|]). apply Forall_nil. Qed.
Example C145_example : exists m' o, nary_new Z 0 1 (put_all 3 nary_test) m3 (5, i_opd in1) (given [in2; in3]) = Ok (m', o) /\
  nth 3 m' [] = [14; 12; 0; 14; 12; 1; 14; 12; 2; 14; 12; 3] /\ o_arr o = 3%nat /\
  forall i xs j, 0 <= i < 4 -> Forall2 (part m3 i) [in1; in2; in3] xs -> 0 <= j < 3 -> cell m' 3 (0 + 3 * i + j) = Some (nary_test xs j).
Proof.
  destruct (C145_new Z 0 m3 [4] in1 [in2; in3] nary_test (put_all 3 nary_test) placed3) as (m' & o & E & Oa & Fi & Old & Cl).
  - left. discriminate.
  - intros y [<-|[<-|[]]]; reflexivity.
  - apply put_all_computes.
  - exists m', o. split; [exact E|]. split; [|split; [exact Oa|exact Cl]]. change (i_tail in1) with [3] in E. vm_compute in E. injection E as <- _. reflexivity.
Qed.
Example C145_in_place_example : exists m', nary_broadcast Z 0 (put_all 1 (fun rows _ => fold_right Z.add 0 (List.concat rows))) m3 (given [in3; in3]) (mkop 1 (Some (2 :: dims [4]))) = Ok m' /\
  only m3 m' 1 2 4 /\ nth 1 m' [] = [0; 22; 20; 44; 66; 88; 3; 22].
Proof.
  destruct (C145_broadcast Z m3 [4] [in3; in3] (mkop 1 (Some (2 :: dims [4]))) 2 [] 5 (fun rows _ => fold_right Z.add 0 (List.concat rows)) (put_all 1 (fun rows _ => fold_right Z.add 0 (List.concat rows))))
    as (m' & E & On & _ & _).
  - repeat (apply Forall_cons; [placed|]). apply Forall_nil.
  - right. intros y [<-|[<-|[]]]; reflexivity.
  - intros y [<-|[<-|[]]]; reflexivity.
  - placed.
  - intros y [<-|[<-|[]]]; discriminate.
  - apply put_all_computes.
  - exists m'. split; [exact E|]. split; [exact On|]. vm_compute in E. injection E as <-. reflexivity.
Qed.
Definition in4 : input := mkinput 4 (mkop 2 None) 0 [].
Example C145_refused_example : let F := put_all 3 nary_test in let o := mkop 0 (Some (0 :: dims [4; 3])) in
  nary_broadcast Z 1 F m3 (given [in1; in4]) o = Throw "var::broadcast: types must match (for now)" /\
  nary_broadcast Z 3 F m3 (given [in1; in2]) o = Throw "var::broadcast: input dimension too small" /\
  nary_broadcast Z 1 (default_vector Z) m3 (given [in2; in3]) o = Throw "UnaryFunctor: not a vector operation" /\
  nary_broadcast Z 1 F m3 (given [in3; in2]) o = Throw "push(): Incompatible types" /\
  nary_broadcast Z 1 F m3 (given [in3; in3; in2]) o = UB TypePun /\
  nary_broadcast Z 1 F m3 (given [in1; in2]) (mkop 0 (Some (0 :: dims [4; 0]))) = UB DivByZero.
Proof.
  cbv zeta. assert (P : fits m3 (mkop 0 (Some (0 :: dims [4; 3]))) ([4] ++ [3]) 0) by placed.
  split; [apply (C145_types Z 1 _ m3 in1 [in4] in4); [left; auto|discriminate]|].
  split; [apply (C145_dimension Z 3 _ m3 [in1; in2] _ [4; 3] 0 5); [intros y [<-|[<-|[]]]; reflexivity|placed|cbn; lia]|].
  split; [apply (C145_no_vector Z m3 [4] [in2; in3] _ 0 [3] 5); [repeat (apply Forall_cons; [placed|]); apply Forall_nil|left; discriminate|intros y [<-|[<-|[]]]; reflexivity|exact P]|].
  split; [apply (C145_array_after_number Z m3 [4] in3 in2 [] _ 0 [3] 5); [repeat (apply Forall_cons; [placed|]); apply Forall_nil|reflexivity|discriminate|intros y [<-|[<-|[]]]; reflexivity|exact P]|].
  split; [apply (C145_array_after_numbers Z m3 [4] in3 in3 [] in2 [] _ 0 [3] 5); [repeat (apply Forall_cons; [placed|]); apply Forall_nil|intros y [<-|[<-|[]]]; reflexivity|discriminate|intros y [<-|[<-|[<-|[]]]]; reflexivity|exact P]|].
  apply (C145_empty Z _ m3 [in1; in2] 0 0 [4] [0] 5); [intros y [<-|[<-|[]]]; reflexivity|discriminate|reflexivity].
Qed.
