(** Properties C133 (sums, sums of magnitudes, largest magnitude) and C134 (powers), by type. *)
From Coq Require Import ZArith Bool List String Arith Lia.
From Verif Require Import Base CplxModel CplxProps RedModel.
Import ListNotations.
Local Open Scope string_scope.
Local Open Scope list_scope.
Local Notation length := List.length.

Section Props.
Variable K : reals.
Notation num := (num K). Notation store := (store K). Notation cvar := (cvar K).
Notation holds := (holds K). Notation becomes := (becomes K). Notation adds := (adds K).
Variable add : num -> num -> num.
Variable magnitude : num -> num.
Variable above : num -> num -> bool.
Variable power : num -> num -> num.
Variable zero : ety -> num.
Hypothesis add_ty : forall x y, nty x = nty y -> nty (add x y) = nty x.
Hypothesis magnitude_ty : forall x, nty (magnitude x) = nty x.
Hypothesis power_ty : forall x y, nty x = nty y -> nty (power x y) = nty x.
Hypothesis zero_ty : forall t, nty (zero t) = t.

(** [s] is the sum from the left of [z] and the elements of [xs]. *)
Inductive total : num -> list num -> num -> Prop :=
| total_none z : total z [] z
| total_next z x xs s : total (add z x) xs s -> total z (x :: xs) s.

(** * Lemmas *)
Lemma accumulate_ok f m a t xs : holds m a t xs -> (forall x, nty x = t -> nty (f x) = t) ->
  forall ys i s, nty s = t -> (forall j y, nth_error ys j = Some y -> nth_error xs (i + j) = Some y) ->
  exists r, accumulate K add f m a (length ys) i s = Ok r /\ total s (map f ys) r /\ nty r = t.
Proof.
  intros H Hf ys. induction ys as [|y ys IH]; intros i s Hs Hy.
  - exists s. repeat split; auto. constructor.
  - cbn [length accumulate map]. assert (Ey : nth_error xs i = Some y) by (rewrite <- (Nat.add_0_r i); apply Hy; reflexivity).
    rewrite (holds_rd _ _ _ _ _ _ _ H Ey). cbn [obind].
    assert (Ty : nty y = t) by (eapply holds_ty; eauto).
    destruct (IH (S i) (add s (f y))) as (r & E & T & N).
    + rewrite add_ty; auto. rewrite Hf; auto.
    + intros j z Hz. replace (S i + j) with (i + S j) by lia. apply Hy. exact Hz.
    + exists r. repeat split; auto. now constructor.
Qed.
Lemma accumulate_all f m a t xs : holds m a t xs -> (forall x, nty x = t -> nty (f x) = t) ->
  exists r, accumulate K add f m a (length xs) 0 (zero t) = Ok r /\ total (zero t) (map f xs) r /\ nty r = t.
Proof. intros H Hf. apply (accumulate_ok f m a t xs H Hf); auto. Qed.
Lemma row m a t xs {X} (v : nat -> outcome X) : holds m a t xs -> xs <> [] -> one_row K m (Arr a) v = v (length xs).
Proof.
  intros H Hn. unfold one_row. cbn [vsize]. rewrite (holds_arr _ _ _ _ _ H). cbn [obind snd]. rewrite map_length.
  destruct xs; [congruence|reflexivity].
Qed.
Lemma no_row m a t {X} (v : nat -> outcome X) : holds m a t [] -> one_row K m (Arr a) v = UB DivByZero.
Proof. intros H. unfold one_row. cbn [vsize]. rewrite (holds_arr _ _ _ _ _ H). reflexivity. Qed.
Lemma atype_arr m a t xs : holds m a t xs -> atype K m (Arr a) = Ok t.
Proof. intros H. cbn [atype]. now rewrite (holds_arr _ _ _ _ _ H). Qed.
Lemma get_ref m a t xs i x : holds m a t xs -> nth_error xs i = Some x -> get K t m (Ref a i) = Ok x.
Proof. intros H Hi. cbn [get]. rewrite (holds_arr _ _ _ _ _ H). cbn [obind fst]. rewrite ety_eqb_refl. eapply holds_rd; eauto. Qed.

(** * C133 *)
(** The sum of an array of float, double or [cfloat] is the sum of its elements, from the left. *)
Theorem C133_sum : forall m a t xs, holds m a t xs -> t = EFloat \/ t = EDouble \/ t = ECFloat -> xs <> [] ->
  exists s, sum K add zero m (Arr a) = Ok (m, Imm s) /\ total (zero t) xs s.
Proof.
  intros m a t xs H Ht Hn. destruct xs as [|x xs]; [congruence|].
  assert (Tx : nty x = t) by (eapply (holds_ty _ _ _ _ _ 0); eauto; reflexivity).
  assert (Nd : t <> ECDouble) by (destruct Ht as [-> | [-> | ->]]; discriminate).
  destruct (accumulate_all (fun x => x) m a t (x :: xs) H (fun _ e => e)) as (r & E & T & N). rewrite map_id in T.
  exists r. split; auto. unfold sum, scalar_alloc. cbn [at_ dereference obind assign].
  rewrite (holds_rd _ _ _ _ _ 0 x H eq_refl). cbn [obind].
  replace (number K m x) with (m, Imm x) by (destruct x; cbn in *; congruence). cbn [obind].
  unfold sum_scalar. rewrite (ftype_arr _ _ _ _ _ H Nd). cbn [obind]. rewrite (row _ _ _ _ _ H Hn), (atype_arr _ _ _ _ H). cbn [obind].
  destruct Ht as [-> | [-> | ->]]; rewrite E; cbn [obind put]; rewrite Tx, N; reflexivity.
Qed.
(** The sum of an array of [cdouble] is its first element. *)
Theorem C133_sum_cdouble : forall m a x xs, holds m a ECDouble (x :: xs) ->
  exists m', sum K add zero m (Arr a) = Ok (m', Arr (length m)) /\ adds m m' ECDouble [x].
Proof.
  intros m a x xs H. assert (Tx : nty x = ECDouble) by (eapply (holds_ty _ _ _ _ _ 0); eauto; reflexivity).
  unfold sum, scalar_alloc. cbn [at_ dereference obind assign]. rewrite (holds_rd _ _ _ _ _ 0 x H eq_refl). cbn [obind].
  replace (number K m x) with (m ++ [(ECDouble, [Some x])], @Arr K (length m)) by (destruct x; cbn in *; congruence). cbn [obind].
  set (m1 := m ++ _). assert (H1 : holds m1 a ECDouble (x :: xs)) by now apply holds_app.
  assert (H2 : holds m1 (length m) ECDouble [x]) by now apply holds_last.
  unfold sum_scalar. rewrite (ftype_cd _ _ _ _ H1). cbn [obind get]. rewrite (holds_arr _ _ _ _ _ H1). cbn [obind fst ety_eqb].
  rewrite (holds_rd _ _ _ _ _ 0 x H1 eq_refl). cbn [obind put]. rewrite (holds_arr _ _ _ _ _ H2). cbn [obind fst]. rewrite Tx. cbn [ety_eqb].
  destruct (wr_ok _ _ _ _ _ 0 x H2) as (m' & E & B); [cbn; lia|auto|]. rewrite E. cbn [obind]. exists m'. split; auto.
  cbn [set_nth] in B. eapply becomes_last; eauto.
Qed.
(** A number, of any type but int, is its own sum; an element, too. *)
Theorem C133_sum_number : forall m n a t xs i x, nty n <> EInt -> nty n <> ECDouble ->
  holds m a t xs -> nth_error xs i = Some x -> t <> EInt -> t <> ECDouble ->
  sum K add zero m (Imm n) = Ok (m, Imm n) /\ sum K add zero m (Ref a i) = Ok (m, Imm x).
Proof.
  intros m n a t xs i x N1 N2 H Hi T1 T2. split; [destruct n; cbn in *; congruence|].
  assert (Tx : nty x = t) by (eapply holds_ty; eauto).
  unfold sum, scalar_alloc. unfold at_. cbn [dereference]. rewrite (holds_rd _ _ _ _ _ _ _ H Hi). cbn [obind].
  replace (number K m x) with (m, @Imm K x) by (destruct x; cbn in *; congruence). cbn [obind at_ Nat.eqb assign dereference].
  unfold sum_scalar. rewrite (ftype_ref _ _ _ _ _ _ H). cbn [obind]. 
  destruct t; try congruence; rewrite (get_ref _ _ _ _ _ _ H Hi); cbn [obind put]; rewrite Tx; reflexivity.
Qed.
(** There is no sum of ints; the sum of an empty array reads its first element. *)
Theorem C133_sum_none : forall m a b t x xs, holds m a EInt (x :: xs) -> holds m b t [] ->
  sum K add zero m (Arr a) = Throw "Sum::vector: Unknown type" /\
  sum K add zero m (Arr b) = UB OutOfBounds.
Proof.
  intros m a b t x xs Ha Hb. split.
  - assert (Tx : nty x = EInt) by (eapply (holds_ty _ _ _ _ _ 0); eauto; reflexivity).
    unfold sum, scalar_alloc. cbn [at_ dereference obind assign]. rewrite (holds_rd _ _ _ _ _ 0 x Ha eq_refl). cbn [obind].
    replace (number K m x) with (m, @Imm K x) by (destruct x; cbn in *; congruence). cbn [obind].
    unfold sum_scalar. rewrite (ftype_arr _ _ _ _ _ Ha) by discriminate. cbn [obind].
    rewrite (row _ _ _ _ _ Ha) by discriminate. rewrite (atype_arr _ _ _ _ Ha). reflexivity.
  - unfold sum, scalar_alloc. cbn [at_ dereference obind assign]. unfold rd. rewrite (holds_arr _ _ _ _ _ Hb). reflexivity.
Qed.

(** The sum of magnitudes of floats and doubles. *)
Theorem C133_asum : forall m a t xs, holds m a t xs -> t = EFloat \/ t = EDouble -> xs <> [] ->
  exists s, asum K add magnitude zero m (Arr a) = Ok (m, Imm s) /\ total (zero t) (map magnitude xs) s.
Proof.
  intros m a t xs H Ht Hn.
  assert (Nd : t <> ECDouble) by (destruct Ht as [-> | ->]; discriminate).
  destruct (accumulate_all magnitude m a t xs H) as (r & E & T & N). { intros x <-. apply magnitude_ty. }
  exists r. split; auto. unfold asum, asum_alloc. rewrite (atype_arr _ _ _ _ H). cbn [obind].
  unfold asum_scalar. rewrite (ftype_arr _ _ _ _ _ H Nd). cbn [obind]. rewrite (row _ _ _ _ _ H Hn), (atype_arr _ _ _ _ H). cbn [obind].
  destruct Ht as [-> | ->]; rewrite E; cbn [obind put]; cbn [nty]; rewrite N; reflexivity.
Qed.
(** Complex numbers have none, although [ASum::alloc] provides for it: arrays of [cfloat] throw,
    and for a [cfloat] and for any array of [cdouble] a complex number is stored where there is
    only space for a real one. *)
Theorem C133_asum_complex : forall m a b n x xs y ys, holds m a ECFloat (x :: xs) -> holds m b ECDouble (y :: ys) -> nty n = ECFloat ->
  asum K add magnitude zero m (Arr a) = Throw "ASum::vector: Unknown type" /\
  asum K add magnitude zero m (Imm n) = UB TypePun /\
  asum K add magnitude zero m (Arr b) = UB TypePun.
Proof.
  intros m a b n x xs y ys Ha Hb Hn. split; [|split].
  - unfold asum, asum_alloc. rewrite (atype_arr _ _ _ _ Ha). cbn [obind].
    unfold asum_scalar. rewrite (ftype_arr _ _ _ _ _ Ha) by discriminate. cbn [obind].
    rewrite (row _ _ _ _ _ Ha) by discriminate. rewrite (atype_arr _ _ _ _ Ha). reflexivity.
  - unfold asum, asum_alloc. cbn [atype]. rewrite Hn. cbn [obind]. unfold asum_scalar, ftype. cbn [vtype atype]. rewrite Hn. cbn [obind ety_eqb get].
    rewrite Hn. cbn [ety_eqb obind put nty]. rewrite magnitude_ty, Hn. reflexivity.
  - assert (Ty : nty y = ECDouble) by (eapply (holds_ty _ _ _ _ _ 0); eauto; reflexivity).
    unfold asum, asum_alloc. rewrite (atype_arr _ _ _ _ Hb). cbn [obind].
    unfold asum_scalar. rewrite (ftype_cd _ _ _ _ Hb). cbn [obind get]. rewrite (holds_arr _ _ _ _ _ Hb). cbn [obind fst ety_eqb].
    rewrite (holds_rd _ _ _ _ _ 0 y Hb eq_refl). cbn [obind put nty]. rewrite magnitude_ty, Ty. reflexivity.
Qed.
Theorem C133_asum_none : forall m a b t x xs, holds m a EInt (x :: xs) -> holds m b t [] -> t <> ECDouble ->
  asum K add magnitude zero m (Arr a) = Throw "ASum::vector: Unknown type" /\
  asum K add magnitude zero m (Arr b) = UB DivByZero.
Proof.
  intros m a b t x xs Ha Hb Ht. split.
  - unfold asum, asum_alloc. rewrite (atype_arr _ _ _ _ Ha). cbn [obind].
    unfold asum_scalar. rewrite (ftype_arr _ _ _ _ _ Ha) by discriminate. cbn [obind].
    rewrite (row _ _ _ _ _ Ha) by discriminate. rewrite (atype_arr _ _ _ _ Ha). reflexivity.
  - unfold asum, asum_alloc. rewrite (atype_arr _ _ _ _ Hb). cbn [obind].
    unfold asum_scalar. rewrite (ftype_arr _ _ _ _ _ Hb) by auto. cbn [obind]. now rewrite (no_row _ _ _ _ Hb).
Qed.

(** The place of the largest magnitude: the first one that no other is above. *)
Definition largest (xs : list num) (j : nat) : Prop :=
  exists y, nth_error xs j = Some y /\
    (forall i x, nth_error xs i = Some x -> above x y = false) /\
    (forall i x, i < j -> nth_error xs i = Some x -> above y x = true).
Hypothesis above_irr : forall x, above x x = false.
Hypothesis above_tr : forall x y z, above x y = true -> above y z = true -> above x z = true.
Hypothesis above_co : forall x y z, above x z = true -> above x y = true \/ above y z = true.

Lemma scan_ok m a t xs : holds m a t xs -> forall n i best y, i + n = length xs -> best < i ->
  nth_error xs best = Some y ->
  (forall j x, j < i -> nth_error xs j = Some x -> above x y = false) ->
  (forall j x, j < best -> nth_error xs j = Some x -> above y x = true) ->
  exists r, scan K above m a n i best y = Ok r /\ largest xs r.
Proof.
  intros H n. induction n as [|n IH]; intros i best y L Hb Ey H1 H2.
  - exists best. split; auto. exists y. split; auto. split; auto.
    intros j x Hx. apply (H1 j); auto. assert (j < length xs) by (apply nth_error_Some; congruence). lia.
  - cbn [scan]. destruct (nth_error xs i) as [z|] eqn:Ez; [|apply nth_error_None in Ez; lia].
    rewrite (holds_rd _ _ _ _ _ _ _ H Ez). cbn [obind]. destruct (above z y) eqn:A.
    + apply IH; auto; try lia.
      * intros j x Hj Hx. destruct (Nat.eq_dec j i) as [->|]; [rewrite Ez in Hx; injection Hx as <-; apply above_irr|].
        destruct (above x z) eqn:B; auto. rewrite <- (H1 j x); [symmetry; eapply above_tr; eauto|lia|auto].
      * intros j x Hj Hx. destruct (above_co z x y A) as [B|B]; auto. rewrite (H1 j x) in B; auto. discriminate.
    + apply IH; auto; try lia. intros j x Hj Hx. destruct (Nat.eq_dec j i) as [->|]; [congruence|]. apply (H1 j); auto. lia.
Qed.
Theorem C133_iamax : forall m a t xs, holds m a t xs -> t = EFloat \/ t = EDouble \/ t = ECFloat -> xs <> [] ->
  exists j, iamax K above m (Arr a) = Ok j /\ largest xs j.
Proof.
  intros m a t xs H Ht Hn. unfold iamax. rewrite (row _ _ _ _ _ H Hn).
  assert (Nd : t <> ECDouble) by (destruct Ht as [-> | [-> | ->]]; discriminate).
  rewrite (ftype_arr _ _ _ _ _ H Nd). cbn [obind]. rewrite (atype_arr _ _ _ _ H). cbn [obind].
  destruct xs as [|x xs]; [congruence|].
  assert (E : match t with EInt => Throw "IAMax::vector: Unknown type" | _ => let* y := rd K m a 0 in scan K above m a (length (x :: xs) - 1) 1 0 y end
    = scan K above m a (length xs) 1 0 x).
  { rewrite (holds_rd _ _ _ _ _ 0 x H eq_refl). cbn [obind length]. rewrite Nat.sub_succ, Nat.sub_0_r. destruct Ht as [-> | [-> | ->]]; reflexivity. }
  rewrite E. apply (scan_ok m a t (x :: xs) H); auto; try (cbn; lia).
  - intros [|j] z Hj Hz; [|lia]. injection Hz as <-. apply above_irr.
Qed.
(** For [cdouble] an assertion fails, although [IAMax::vector] has a case for it; so it does for
    any number.  Ints are refused. *)
Theorem C133_iamax_none : forall m a b c t n x xs y ys, holds m a ECDouble (x :: xs) -> holds m b EInt (y :: ys) -> holds m c t [] ->
  iamax K above m (Arr a) = UB AssertFail /\ iamax K above m (Imm n) = UB AssertFail /\
  iamax K above m (Arr b) = Throw "IAMax::vector: Unknown type" /\ iamax K above m (Arr c) = UB DivByZero.
Proof.
  intros m a b c t n x xs y ys Ha Hb Hc. unfold iamax. split; [|split; [|split]].
  - rewrite (row _ _ _ _ _ Ha) by discriminate. now rewrite (ftype_cd _ _ _ _ Ha).
  - unfold one_row, ftype. cbn [vsize vtype atype obind Nat.eqb]. destruct (ety_eqb (nty n) ECDouble); reflexivity.
  - rewrite (row _ _ _ _ _ Hb) by discriminate. rewrite (ftype_arr _ _ _ _ _ Hb) by discriminate. cbn [obind].
    now rewrite (atype_arr _ _ _ _ Hb).
  - now rewrite (no_row _ _ _ _ Hc).
Qed.

(** * C134 *)
(** The exponent as a number of type [t]: the imaginary part only survives between [cfloat]s. *)
Definition exponent (t : ety) (n : num) : num := if ety_eqb (nty n) t then n else convert K t n.
Lemma exponent_ty t n : nty (exponent t n) = t.
Proof. unfold exponent. destruct (ety_eqb (nty n) t) eqn:E; [now apply ety_eqb_iff|apply convert_ty]. Qed.
Lemma cast_exponent t n m : nty n <> ECDouble -> cast K t m (Imm n) = Ok (exponent t n).
Proof.
  intros Hn. unfold exponent, cast. cbn [vtype obind get]. destruct (ety_eqb (nty n) t) eqn:E.
  - apply ety_eqb_iff in E. subst t. replace (match nty n with ECDouble => None | _ => Some (nty n) end) with (Some (nty n)) by (destruct (nty n); congruence).
    now rewrite Nat.eqb_refl.
  - replace (Nat.eqb _ _) with false; [now rewrite ety_eqb_refl|]. destruct t, n; cbn in *; congruence.
Qed.
Lemma number_imm m (n : num) : nty n <> ECDouble -> number K m n = (m, Imm n).
Proof. destruct n; cbn; congruence. Qed.
Lemma assign_cell m c i s cells n : nth_error m c = Some (s, cells) -> i < length cells -> nty n = s -> s <> ECDouble ->
  assign_number K m (Ref c i) n = Ok (set_nth m c (s, set_nth cells i (Some n)), Ref c i).
Proof.
  intros Hc Hi Hn Hs. unfold assign_number. rewrite number_imm by congruence.
  cbn [assign]. unfold arr. rewrite Hc. cbn [obind fst].
  assert (C : cast K s m (Imm n) = Ok n).
  { rewrite cast_exponent by congruence. unfold exponent. now rewrite Hn, ety_eqb_refl. }
  rewrite C. cbn [obind]. unfold wr, arr. rewrite Hc. cbn [obind fst snd]. apply Nat.ltb_lt in Hi. rewrite Hi. reflexivity.
Qed.
Lemma cells_next (ys : list num) cells i y : nth_error ys i = Some y -> length cells = length ys ->
  set_nth (map Some (firstn i ys) ++ skipn i cells) i (Some y) = map Some (firstn (S i) ys) ++ skipn (S i) cells.
Proof.
  revert cells i. induction ys as [|z ys IH]; intros cells [|i] E L; try discriminate.
  - destruct cells; [discriminate|]. injection E as ->. reflexivity.
  - destruct cells as [|c cells]; [discriminate|]. cbn [firstn skipn map app set_nth]. f_equal. apply IH; auto.
Qed.
(** The loop over the elements, for an output that is the base or another array. *)
Lemma pow_loop m a t xs c cells n : holds m a t xs -> t = EFloat \/ t = EDouble \/ t = ECFloat -> nty n <> ECDouble ->
  nth_error m c = Some (t, cells) -> length cells = length xs ->
  exists m', pow_scalar K power m (Arr a) (Imm n) (Arr c) = Ok (m', Arr c) /\
    becomes m m' c t (map (fun x => power x (exponent t n)) xs).
Proof.
  intros H Ht Hn Hc Hl.
  assert (Nd : t <> ECDouble) by (destruct Ht as [-> | [-> | ->]]; discriminate).
  unfold pow_scalar. rewrite (ftype_arr _ _ _ _ _ H Nd). cbn [obind vsize]. rewrite (holds_arr _ _ _ _ _ H).
  cbn [obind snd Nat.eqb]. rewrite map_length.
  set (f := fun x => power x (exponent t n)). set (fin := map f xs). assert (Lf : length fin = length xs) by apply map_length.
  assert (Tf : forall x, nty x = t -> nty (f x) = t). { intros x Tx. unfold f. rewrite power_ty; auto. now rewrite exponent_ty. }
  set (P := fun k m' => nth_error m' c = Some (t, map Some (firstn k fin) ++ skipn k cells) /\
                        length m' = length m /\ forall b, b <> c -> nth_error m' b = nth_error m b).
  match goal with |- context [each K ?g m (seq 0 (length xs))] =>
    destruct (each_inv K P g m (length xs) 0) as (m' & E & B) end.
  - unfold P. cbn. auto.
  - intros i m1 Hi (B & L & O). cbn in Hi.
    destruct (nth_error xs i) as [x|] eqn:Ex; [|apply nth_error_None in Ex; lia].
    assert (Tx : nty x = t) by (eapply (holds_ty K m a); eauto).
    assert (Lc : length (map Some (firstn i fin) ++ skipn i cells) = length xs).
    { rewrite app_length, map_length, firstn_length, skipn_length, Lf. lia. }
    assert (A : exists h, nth_error m1 a = Some (t, h) /\ nth_error h i = Some (Some x)).
    { destruct H as [H _]. destruct (Nat.eq_dec a c) as [->|Hac].
      - rewrite B. eexists. split; [reflexivity|]. rewrite H in Hc. injection Hc as <-.
        rewrite nth_error_app2; rewrite map_length, firstn_length; [|lia].
        replace (i - Nat.min i (length fin)) with 0 by lia.
        assert (S' : nth_error (skipn i (map Some xs)) 0 = nth_error (map Some xs) i).
        { clear. revert i. induction xs as [|z zs IH]; intros [|i]; auto. apply IH. }
        rewrite S', nth_error_map, Ex. reflexivity.
      - rewrite O, H by auto. eexists. split; [reflexivity|]. now rewrite nth_error_map, Ex. }
    destruct A as (h & A1 & A2).
    cbn [at_ dereference obind]. unfold ftype. cbn [vtype atype]. unfold arr at 1 2. rewrite A1. cbn [obind fst].
    assert (G : get K t m1 (Ref a i) = Ok x).
    { cbn [get]. unfold rd, arr. rewrite A1. cbn [obind fst snd]. rewrite ety_eqb_refl, A2. reflexivity. }
    exists (set_nth m1 c (t, set_nth (map Some (firstn i fin) ++ skipn i cells) i (Some (f x)))). split.
    + replace (if ety_eqb t ECDouble then Some ECDouble else Some t) with (Some t) by (destruct t; try reflexivity; congruence).
      unfold pow_number. rewrite G. cbn [obind]. rewrite cast_exponent by auto. cbn [obind].
      fold (f x). rewrite (assign_cell m1 c i t _ (f x) B); auto; [|lia].
      destruct Ht as [-> | [-> | ->]]; reflexivity.
    + assert (Hlt : c < length m1) by (apply nth_error_Some; congruence). unfold P. split; [|split].
      * rewrite nth_set_same by auto. rewrite cells_next; auto; [|congruence]. unfold fin. now rewrite nth_error_map, Ex.
      * now rewrite length_set.
      * intros b Hb. rewrite nth_set_other; auto.
  - exists m'. split; [rewrite E; reflexivity|]. destruct B as (B & L & O). cbn in B. split; [|auto]. split.
    + rewrite B, <- Lf at 1. rewrite firstn_all. rewrite skipn_all2 by lia. now rewrite app_nil_r.
    + apply Forall_forall. intros y Hy. apply in_map_iff in Hy. destruct Hy as (x & <- & Hx).
      apply Tf. destruct H as [_ F]. rewrite Forall_forall in F. auto.
Qed.
(** An array of float, double or [cfloat] to the power of a number: every element, in a new array
    or in place. *)
Theorem C134_elements : forall m a t xs n, holds m a t xs -> t = EFloat \/ t = EDouble \/ t = ECFloat -> nty n <> ECDouble ->
  exists m' m'', pow K power m (Arr a) (Imm n) = Ok (m', Arr (length m)) /\ adds m m' t (map (fun x => power x (exponent t n)) xs) /\
    pow_in_place K power m (Arr a) (Imm n) = Ok (m'', Arr a) /\ becomes m m'' a t (map (fun x => power x (exponent t n)) xs).
Proof.
  intros m a t xs n H Ht Hn.
  assert (H1 : holds (m ++ [(t, repeat (fresh K t) (length xs))]) a t xs) by now apply holds_app.
  destruct (pow_loop _ a t xs (length m) (repeat (fresh K t) (length xs)) n H1 Ht Hn) as (m' & E & B).
  { rewrite nth_error_app2 by lia. now rewrite Nat.sub_diag. } { apply repeat_length. }
  destruct (pow_loop m a t xs a (map Some xs) n H Ht Hn) as (m'' & E' & B'). { apply H. } { apply map_length. }
  exists m', m''. unfold pow. rewrite (plain_alloc_arr _ _ _ _ _ H). cbn [obind].
  split; auto. split; [|auto]. eapply becomes_last; eauto.
Qed.
(** Two numbers. *)
Theorem C134_numbers : forall m x n, nty x <> EInt -> nty x <> ECDouble -> nty n <> ECDouble ->
  pow K power m (Imm x) (Imm n) = Ok (m, Imm (power x (exponent (nty x) n))).
Proof.
  intros m x n H1 H2 Hn. unfold pow, plain_alloc. cbn [copy obind assign dereference]. unfold pow_scalar, ftype. cbn [vtype atype obind].
  replace (ety_eqb (nty x) ECDouble) with false by (destruct x; cbn in *; congruence). unfold pow_number. cbn [get]. rewrite ety_eqb_refl. cbn [obind].
  rewrite cast_exponent by auto. cbn [obind]. assert (T : nty (power x (exponent (nty x) n)) = nty x) by (rewrite power_ty; auto; now rewrite exponent_ty).
  unfold assign_number. rewrite number_imm by congruence.
  destruct (nty x); try congruence; reflexivity.
Qed.
(** An array of [cdouble]: the power of its first element, a single number; in place the others
    are lost. *)
Theorem C134_cdouble : forall m a x xs y q, holds m a ECDouble (x :: xs) -> right_of K m y q ->
  (exists m' b, pow K power m (Arr a) y = Ok (m', Arr b) /\ holds m' b ECDouble [power x q]) /\
  (exists m' b, pow_in_place K power m (Arr a) y = Ok (m', Arr b) /\ holds m' b ECDouble [power x q]).
Proof.
  intros m a x xs y q H R. assert (Tx : nty x = ECDouble) by (eapply (holds_ty _ _ _ _ _ 0); eauto; reflexivity).
  assert (S' : forall m1 c, holds m1 a ECDouble (x :: xs) -> right_of K m1 y q ->
    pow_scalar K power m1 (Arr a) y (Arr c) = Ok (m1 ++ [(ECDouble, [Some (power x q)])], Arr (length m1))).
  { intros m1 c H1 R1. destruct (right_cast K _ _ _ R1) as (C & Tq). unfold pow_scalar. rewrite (ftype_cd _ _ _ _ H1). cbn [obind]. unfold pow_number.
    cbn [get]. rewrite (holds_arr _ _ _ _ _ H1). cbn [obind fst ety_eqb]. rewrite (holds_rd _ _ _ _ _ 0 x H1 eq_refl). cbn [obind]. rewrite C. cbn [obind].
    unfold assign_number. assert (T : nty (power x q) = ECDouble) by (rewrite power_ty; congruence).
    replace (number K m1 (power x q)) with (m1 ++ [(ECDouble, [Some (power x q)])], @Arr K (length m1)) by (destruct (power x q); cbn in *; congruence). reflexivity. }
  assert (T : nty (power x q) = ECDouble). { destruct (right_cast K _ _ _ R) as (_ & Tq). rewrite power_ty; congruence. }
  split.
  - unfold pow. rewrite (plain_alloc_arr _ _ _ _ _ H). cbn [obind].
    rewrite S' by (try apply holds_app; try apply right_app; auto). do 2 eexists. split; [reflexivity|]. now apply holds_last.
  - unfold pow_in_place. rewrite S' by auto. do 2 eexists. split; [reflexivity|]. now apply holds_last.
Qed.
(** Ints have no powers, and there are none between arrays. *)
Theorem C134_none : forall m a b c t s n xs ys zs z, holds m a t xs -> xs <> [] -> t <> ECDouble -> holds m b s ys -> 2 <= length ys ->
  holds m c EInt (z :: zs) -> 
  pow K power m (Arr c) (Imm n) = Throw "Pow::scalar: Unknown type" /\
  pow K power m (Arr a) (Arr b) = Throw (if ety_eqb t s then "BinaryFunctor: not a vector operation" else "var::broadcast: types must match (for now)").
Proof.
  intros m a b c t s n xs ys zs z Ha Hn Ht Hb Hl Hc. split.
  - unfold pow. rewrite (plain_alloc_arr _ _ _ _ _ Hc). cbn [obind]. set (m1 := m ++ _).
    assert (H1 : holds m1 c EInt (z :: zs)) by now apply holds_app.
    unfold pow_scalar. rewrite (ftype_arr _ _ _ _ _ H1) by discriminate. cbn [obind vsize]. rewrite (holds_arr _ _ _ _ _ H1).
    cbn [obind snd Nat.eqb map length seq each at_ dereference]. rewrite (ftype_ref _ _ _ _ _ _ H1). reflexivity.
  - unfold pow. rewrite (plain_alloc_arr _ _ _ _ _ Ha). cbn [obind]. set (m1 := m ++ _).
    assert (H1 : holds m1 a t xs) by now apply holds_app. assert (H2 : holds m1 b s ys) by now apply holds_app.
    unfold pow_scalar. rewrite (ftype_arr _ _ _ _ _ H1) by auto. cbn [obind vsize]. rewrite (holds_arr _ _ _ _ _ H1), (holds_arr _ _ _ _ _ H2).
    cbn [obind snd]. rewrite !map_length. replace (Nat.eqb (length ys) 1) with false by (symmetry; apply Nat.eqb_neq; lia).
    rewrite (atype_arr _ _ _ _ H1), (atype_arr _ _ _ _ H2). cbn [obind]. destruct (ety_eqb t s); cbn [negb]; auto.
    destruct xs; [congruence|]. reflexivity.
Qed.
End Props.

(** * Examples over whole numbers *)
Definition r_add := w_add CAdd.
Definition r_abs (x : num wholes) : num wholes :=
  match x with NFloat a => @NFloat wholes (Z.abs a) | NDouble a => @NDouble wholes (Z.abs a) | _ => x end.
Definition r_size (x : num wholes) : Z :=
  match x with
  | NInt a | NFloat a | NDouble a => Z.abs a
  | NCFloat a b | NCDouble a b => (Z.abs a + Z.abs b)%Z
  end.
Definition r_above (x y : num wholes) : bool := (r_size y <? r_size x)%Z.
(** The power by the real part of the exponent, of each part. *)
Definition r_pow (x y : num wholes) : num wholes :=
  let e := match y with NInt a | NFloat a | NDouble a | NCFloat a _ | NCDouble a _ => a end in
  match x with
  | NInt a => @NInt wholes (a ^ e)%Z | NFloat a => @NFloat wholes (a ^ e)%Z | NDouble a => @NDouble wholes (a ^ e)%Z
  | NCFloat a b => @NCFloat wholes (a ^ e)%Z (b ^ e)%Z | NCDouble a b => @NCDouble wholes (a ^ e)%Z (b ^ e)%Z
  end.
Definition r_zero (t : ety) : num wholes :=
  match t with
  | EInt => @NInt wholes 0%Z | EFloat => @NFloat wholes 0%Z | EDouble => @NDouble wholes 0%Z
  | ECFloat => cf 0 0 | ECDouble => cd 0 0
  end.
Definition fl (a : Z) : num wholes := @NFloat wholes a.
(** Floats, [cdouble]s, [cfloat]s, ints and nothing. *)
Definition r_mem : store wholes :=
  [(EFloat, [Some (fl 1); Some (fl (-5)); Some (fl 5)]); (ECDouble, [Some (cd 1 2); Some (cd 3 4)]);
   (ECFloat, [Some (cf 1 2); Some (cf 3 (-4))]); (EInt, [Some (@NInt wholes 3%Z)]); (EFloat, [])].

Example C133_example :
  (forall x y, nty x = nty y -> nty (r_add x y) = nty x) /\ (forall x, nty (r_abs x) = nty x) /\ (forall t, nty (r_zero t) = t) /\
  (forall x, r_above x x = false) /\ (forall x y z, r_above x y = true -> r_above y z = true -> r_above x z = true) /\
  (forall x y z, r_above x z = true -> r_above x y = true \/ r_above y z = true) /\
  holds wholes r_mem 0 EFloat [fl 1; fl (-5); fl 5] /\ holds wholes r_mem 1 ECDouble [cd 1 2; cd 3 4] /\
  holds wholes r_mem 2 ECFloat [cf 1 2; cf 3 (-4)] /\ holds wholes r_mem 3 EInt [@NInt wholes 3%Z] /\ holds wholes r_mem 4 EFloat [] /\
  sum wholes r_add r_zero r_mem (Arr 0) = Ok (r_mem, Imm (fl 1)) /\
  sum wholes r_add r_zero r_mem (Arr 1) = Ok (r_mem ++ [(ECDouble, [Some (cd 1 2)])], Arr 5) /\
  sum wholes r_add r_zero r_mem (Arr 2) = Ok (r_mem, Imm (cf 4 (-2))) /\
  sum wholes r_add r_zero r_mem (Ref 0 2) = Ok (r_mem, Imm (fl 5)) /\
  asum wholes r_add r_abs r_zero r_mem (Arr 0) = Ok (r_mem, Imm (fl 11)) /\
  asum wholes r_add r_abs r_zero r_mem (Arr 1) = UB TypePun /\
  asum wholes r_add r_abs r_zero r_mem (Arr 2) = Throw "ASum::vector: Unknown type" /\
  iamax wholes r_above r_mem (Arr 0) = Ok 1 /\ iamax wholes r_above r_mem (Arr 2) = Ok 1 /\
  iamax wholes r_above r_mem (Arr 1) = UB AssertFail.
Proof.
  split; [intros [ ] [ ]; cbn; congruence|]. split; [intros [ ]; reflexivity|]. split; [intros [ ]; reflexivity|].
  unfold r_above. split; [intros; lia|]. split; [intros; lia|]. split; [intros; lia|].
  split; [w_holds|]. split; [w_holds|]. split; [w_holds|]. split; [w_holds|]. split; [w_holds|]. repeat split.
Qed.
Example C134_example :
  (forall x y, nty x = nty y -> nty (r_pow x y) = nty x) /\
  pow wholes r_pow r_mem (Arr 0) (Imm (@NInt wholes 2%Z)) = Ok (r_mem ++ [(EFloat, [Some (fl 1); Some (fl 25); Some (fl 25)])], Arr 5) /\
  pow_in_place wholes r_pow r_mem (Arr 0) (Imm (@NInt wholes 2%Z)) = Ok (set_nth r_mem 0 (EFloat, [Some (fl 1); Some (fl 25); Some (fl 25)]), Arr 0) /\
  pow wholes r_pow r_mem (Imm (fl 3)) (Imm (@NInt wholes 2%Z)) = Ok (r_mem, Imm (fl 9)) /\
  right_of wholes r_mem (Imm (@NInt wholes 2%Z)) (cd 2 0) /\
  pow_in_place wholes r_pow r_mem (Arr 1) (Imm (@NInt wholes 2%Z)) = Ok (r_mem ++ [(ECDouble, [Some (cd 1 4)])], Arr 5) /\
  pow wholes r_pow r_mem (Arr 3) (Imm (fl 2)) = Throw "Pow::scalar: Unknown type" /\
  pow wholes r_pow r_mem (Arr 2) (Arr 2) = Throw "BinaryFunctor: not a vector operation" /\
  pow wholes r_pow r_mem (Arr 2) (Arr 0) = Throw "var::broadcast: types must match (for now)".
Proof.
  split; [intros [ ] [ ]; cbn; congruence|]. split; [reflexivity|]. split; [reflexivity|]. split; [reflexivity|].
  split; [apply (right_number wholes r_mem (@NInt wholes 2%Z)); discriminate|]. repeat split.
Qed.
Print Assumptions C133_sum.
Print Assumptions C133_sum_cdouble.
Print Assumptions C133_sum_number.
Print Assumptions C133_sum_none.
Print Assumptions C133_asum.
Print Assumptions C133_asum_complex.
Print Assumptions C133_asum_none.
Print Assumptions C133_iamax.
Print Assumptions C133_iamax_none.
Print Assumptions C134_elements.
Print Assumptions C134_numbers.
Print Assumptions C134_cdouble.
Print Assumptions C134_none.
