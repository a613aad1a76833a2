(** Properties C126-C130: complex numbers. *)
From Coq Require Import ZArith Bool List String Arith Lia.
From Verif Require Import Base CplxModel.
Import ListNotations.
Local Open Scope string_scope.
Local Open Scope list_scope.
Local Notation length := List.length.

Section Props.
Variable K : reals.
Notation num := (num K). Notation store := (store K). Notation cvar := (cvar K).

(** The array [a] is of type [t] and its elements are [xs]. *)
Definition holds (m : store) (a : nat) (t : ety) (xs : list num) : Prop :=
  nth_error m a = Some (t, map Some xs) /\ Forall (fun x => nty x = t) xs.
(** [m'] is [m], except that the array [a] has the elements [xs]. *)
Definition becomes (m m' : store) (a : nat) (t : ety) (xs : list num) : Prop :=
  holds m' a t xs /\ length m' = length m /\ forall b, b <> a -> nth_error m' b = nth_error m b.
(** [m'] is [m] with one more array. *)
Definition adds (m m' : store) (t : ety) (xs : list num) : Prop :=
  m' = m ++ [(t, map Some xs)] /\ Forall (fun x => nty x = t) xs.

Lemma nth_set_same {X} (l : list X) i x : i < length l -> nth_error (set_nth l i x) i = Some x.
Proof. revert i; induction l; intros [|i] H; simpl in *; try lia; auto. apply IHl; lia. Qed.
Lemma nth_set_other {X} (l : list X) i j x : j <> i -> nth_error (set_nth l i x) j = nth_error l j.
Proof. revert i j; induction l; intros [|i] [|j] H; simpl in *; auto; try lia. Qed.
Lemma length_set {X} (l : list X) i x : length (set_nth l i x) = length l.
Proof. revert i; induction l; intros [|i]; simpl; auto. Qed.
Lemma map_set (l : list num) i x : map Some (set_nth l i x) = set_nth (map Some l) i (Some x).
Proof. revert i; induction l; intros [|i]; simpl; auto. now rewrite IHl. Qed.
Lemma forall_set {X} (P : X -> Prop) (l : list X) i x : Forall P l -> P x -> Forall P (set_nth l i x).
Proof. intros H Hx; revert i; induction H; intros [|i]; simpl; auto. Qed.

Lemma holds_arr m a t xs : holds m a t xs -> arr K m a = Ok (t, map Some xs).
Proof. intros [H _]. unfold arr. now rewrite H. Qed.
Lemma holds_rd m a t xs i x : holds m a t xs -> nth_error xs i = Some x -> rd K m a i = Ok x.
Proof.
  intros H Hi. unfold rd. rewrite (holds_arr _ _ _ _ H); simpl.
  rewrite nth_error_map, Hi. reflexivity.
Qed.
Lemma holds_ty m a t xs i x : holds m a t xs -> nth_error xs i = Some x -> nty x = t.
Proof. intros [_ H] Hi. rewrite Forall_forall in H. apply H. eapply nth_error_In; eauto. Qed.
Lemma holds_lt m a t xs : holds m a t xs -> a < length m.
Proof. intros [H _]. apply nth_error_Some. now rewrite H. Qed.
Lemma holds_app m m' a t xs : holds m a t xs -> holds (m ++ m') a t xs.
Proof. intros H. pose proof (holds_lt _ _ _ _ H). destruct H as [H F]. split; auto. now rewrite nth_error_app1. Qed.
Lemma wr_ok m a t xs i x :
  holds m a t xs -> i < length xs -> nty x = t ->
  exists m', wr K m a i x = Ok m' /\ becomes m m' a t (set_nth xs i x).
Proof.
  intros H Hi Hx. pose proof (holds_lt _ _ _ _ H) as L. unfold wr. rewrite (holds_arr _ _ _ _ H); simpl.
  rewrite map_length. destruct (Nat.ltb_spec i (length xs)); [|lia].
  eexists; split; [reflexivity|]. repeat split.
  - rewrite nth_set_same by auto. now rewrite map_set.
  - apply forall_set; auto. apply H.
  - now rewrite length_set.
  - intros b Hb. now rewrite nth_set_other.
Qed.
Lemma ety_eqb_refl t : ety_eqb t t = true. Proof. now destruct t. Qed.
Lemma ety_eqb_iff t s : ety_eqb t s = true <-> t = s.
Proof. destruct t, s; simpl; split; congruence. Qed.

(** * C126: comparison. *)
Variable differ less : num -> num -> bool.

Lemma heap_at_cd m a xs i x :
  holds m a ECDouble xs -> nth_error xs i = Some x ->
  heap_at K m a i = Ok (m ++ [(ECDouble, [Some x])], Arr (length m)).
Proof.
  intros H Hi. unfold heap_at. rewrite (holds_arr _ _ _ _ H); simpl. rewrite nth_error_map, Hi; simpl.
  pose proof (holds_ty _ _ _ _ _ _ H Hi). destruct x; simpl in *; try discriminate. reflexivity.
Qed.
Lemma holds_last m t x : nty x = t -> holds (m ++ [(t, [Some x])]) (length m) t [x].
Proof. intros. split; auto. rewrite nth_error_app2 by lia. now rewrite Nat.sub_diag. Qed.

(** [!=] (and so [==]) on two arrays of [cdouble] of the same number of elements, single numbers
    among them, never returns: whatever depth of calls is allowed is exceeded. *)
Theorem C126_never_returns : forall fuel m a b xs ys,
  holds m a ECDouble xs -> holds m b ECDouble ys -> xs <> [] -> length xs = length ys ->
  neq K differ fuel m (Arr a) (Arr b) = Fuel.
Proof.
  induction fuel as [|k IH]; intros m a b xs ys Ha Hb Hn Hl; [reflexivity|].
  cbn [neq]. cbn [vtype]. cbn [obind ety_code]. rewrite Nat.eqb_refl. cbn [negb vsize].
  rewrite (holds_arr _ _ _ _ Ha), (holds_arr _ _ _ _ Hb). cbn [obind snd].
  rewrite !map_length, Hl, Nat.eqb_refl. cbn [negb].
  destruct xs as [|x xs]; [congruence|]. destruct ys as [|y ys]; [discriminate|].
  cbn [length seq first_true].
  rewrite (heap_at_cd m a _ 0 x Ha eq_refl). cbn [obind].
  rewrite (heap_at_cd (m ++ [(ECDouble, [Some x])]) b _ 0 y (holds_app _ _ _ _ _ Hb) eq_refl). cbn [obind].
  rewrite (IH _ _ _ [x] [y]); auto; try discriminate.
  - apply holds_app. apply holds_last. apply (holds_ty _ _ _ _ 0 _ Ha eq_refl).
  - apply holds_last. apply (holds_ty _ _ _ _ 0 _ Hb eq_refl).
Qed.
(** Nor does [<], whatever the numbers of elements, if neither is empty. *)
Theorem C126_less_never_returns : forall fuel m a b xs ys,
  holds m a ECDouble xs -> holds m b ECDouble ys -> xs <> [] -> ys <> [] ->
  lt K less fuel m (Arr a) (Arr b) = Fuel.
Proof.
  induction fuel as [|k IH]; intros m a b xs ys Ha Hb Hn Hn'; [reflexivity|].
  cbn [lt]. cbn [vtype]. cbn [obind ety_code]. rewrite Nat.eqb_refl. cbn [negb vsize].
  rewrite (holds_arr _ _ _ _ Ha), (holds_arr _ _ _ _ Hb). cbn [obind snd].
  rewrite !map_length.
  destruct xs as [|x xs]; [congruence|]. destruct ys as [|y ys]; [congruence|].
  cbn [length Nat.min seq first_true].
  rewrite (heap_at_cd m a _ 0 x Ha eq_refl). cbn [obind].
  rewrite (heap_at_cd (m ++ [(ECDouble, [Some x])]) b _ 0 y (holds_app _ _ _ _ _ Hb) eq_refl). cbn [obind].
  rewrite (IH _ _ _ [x] [y]); auto; try discriminate.
  - apply holds_app. apply holds_last. apply (holds_ty _ _ _ _ 0 _ Ha eq_refl).
  - apply holds_last. apply (holds_ty _ _ _ _ 0 _ Hb eq_refl).
Qed.
(** Arrays of any types with different numbers of elements are unequal, and so are arrays and
    numbers. *)
Theorem C126_different : forall fuel m a b t s xs ys n,
  holds m a t xs -> holds m b s ys -> length xs <> length ys ->
  neq K differ (S fuel) m (Arr a) (Arr b) = Ok true /\
  neq K differ (S fuel) m (Arr a) (Imm n) = Ok true /\
  neq K differ (S fuel) m (Imm n) (Arr a) = Ok true.
Proof.
  intros fuel m a b t s xs ys n Ha Hb Hl. repeat split.
  - cbn [neq vtype obind ety_code]. rewrite Nat.eqb_refl. cbn [negb vsize].
    rewrite (holds_arr _ _ _ _ Ha), (holds_arr _ _ _ _ Hb). cbn [obind snd]. rewrite !map_length.
    destruct (Nat.eqb_spec (length xs) (length ys)); [lia|reflexivity].
  - now destruct n.
  - now destruct n.
Qed.
(** References to elements compare as the numbers do, [cdouble] included. *)
Theorem C126_elements : forall fuel m a b t xs ys i j x y,
  holds m a t xs -> holds m b t ys -> nth_error xs i = Some x -> nth_error ys j = Some y ->
  neq K differ (S fuel) m (Ref a i) (Ref b j) = Ok (differ x y) /\
  lt K less (S fuel) m (Ref a i) (Ref b j) = Ok (less x y).
Proof.
  intros fuel m a b t xs ys i j x y Ha Hb Hi Hj. split.
  - cbn [neq vtype]. rewrite (holds_arr _ _ _ _ Ha), (holds_arr _ _ _ _ Hb). cbn [obind fst vsize get].
    rewrite Nat.eqb_refl. cbn [negb Nat.eqb].
    rewrite (holds_arr _ _ _ _ Ha), (holds_arr _ _ _ _ Hb). cbn [obind fst]. rewrite ety_eqb_refl.
    rewrite (holds_rd _ _ _ _ _ _ Ha Hi), (holds_rd _ _ _ _ _ _ Hb Hj). reflexivity.
  - cbn [lt vtype]. rewrite (holds_arr _ _ _ _ Ha), (holds_arr _ _ _ _ Hb). cbn [obind fst vsize get].
    rewrite Nat.eqb_refl. cbn [negb Nat.eqb].
    rewrite (holds_arr _ _ _ _ Ha), (holds_arr _ _ _ _ Hb). cbn [obind fst]. rewrite ety_eqb_refl.
    rewrite (holds_rd _ _ _ _ _ _ Ha Hi), (holds_rd _ _ _ _ _ _ Hb Hj). reflexivity.
Qed.
Lemma heap_at_other m a t xs i x :
  holds m a t xs -> t <> ECDouble -> nth_error xs i = Some x -> heap_at K m a i = Ok (m, Imm x).
Proof.
  intros H Ht Hi. unfold heap_at. rewrite (holds_arr _ _ _ _ H); simpl. rewrite nth_error_map, Hi; simpl.
  pose proof (holds_ty _ _ _ _ _ _ H Hi). destruct x; simpl in *; congruence.
Qed.
Lemma neq_imm fuel m x y : nty x = nty y -> neq K differ (S fuel) m (Imm x) (Imm y) = Ok (differ x y).
Proof.
  intros H. cbn [neq vtype obind vsize get]. rewrite H, Nat.eqb_refl. cbn [negb Nat.eqb].
  rewrite ety_eqb_refl. reflexivity.
Qed.
Lemma first_true_exists f l b : (forall i, In i l -> f i = Ok (b i)) -> first_true f l = Ok (existsb b l).
Proof.
  induction l as [|i l IH]; intros H; [reflexivity|]. cbn [first_true existsb].
  rewrite (H i (or_introl eq_refl)). cbn [obind]. destruct (b i); [reflexivity|]. cbn [orb]. apply IH.
  intros j Hj. apply H. now right.
Qed.
(** An undefined variable has no heap to call: an array with elements differs from it and an empty one
    does not, but only with the array on the left. *)
Theorem C126_undefined : forall fuel m a t xs, holds m a t xs ->
  neq K differ (S fuel) m (Arr a) Nil = Ok (negb (Nat.eqb (length xs) 0)) /\
  neq K differ (S fuel) m Nil (Arr a) = (if Nat.eqb (length xs) 0 then UB NullDeref else Ok true) /\
  neq K differ (S fuel) m Nil Nil = UB NullDeref /\
  lt K less (S fuel) m (Arr a) Nil = UB NullDeref /\ lt K less (S fuel) m Nil (Arr a) = UB NullDeref.
Proof.
  intros fuel m a t xs [H _]. cbn [neq lt vtype obind vsize]. unfold arr. rewrite H. cbn [obind snd]. rewrite map_length.
  destruct (length xs) as [|n]; cbn; repeat split.
Qed.
(** Arrays of any other type of number differ when two elements at the same place do. *)
Theorem C126_other_arrays : forall fuel m a b t xs ys,
  holds m a t xs -> holds m b t ys -> t <> ECDouble -> length xs = length ys ->
  exists r, neq K differ (S (S fuel)) m (Arr a) (Arr b) = Ok r /\
  (r = true <-> exists i x y, nth_error xs i = Some x /\ nth_error ys i = Some y /\ differ x y = true).
Proof.
  intros fuel m a b t xs ys Ha Hb Ht Hl.
  set (f := fun i => match nth_error xs i, nth_error ys i with Some x, Some y => differ x y | _, _ => false end).
  exists (existsb f (seq 0 (length xs))). split.
  - change (neq K differ (S (S fuel)) m (Arr a) (Arr b)) with
      (let* sx := vsize K m (Arr a) in let* sy := vsize K m (Arr b) in
       if negb (Nat.eqb sx sy) then Ok true else
       first_true (fun i => let* (m1, u) := heap_at K m a i in
                            let* (m2, v) := heap_at K m1 b i in
                            neq K differ (S fuel) m2 u v) (seq 0 sx)).
    cbn [vsize]. rewrite (holds_arr _ _ _ _ Ha), (holds_arr _ _ _ _ Hb). cbn [obind snd].
    rewrite !map_length, Hl, Nat.eqb_refl. cbn [negb]. apply first_true_exists.
    intros i Hi. apply in_seq in Hi.
    destruct (nth_error xs i) as [x|] eqn:Ex; [|apply nth_error_None in Ex; lia].
    destruct (nth_error ys i) as [y|] eqn:Ey; [|apply nth_error_None in Ey; lia].
    rewrite (heap_at_other _ _ _ _ _ _ Ha Ht Ex). cbn [obind].
    rewrite (heap_at_other _ _ _ _ _ _ Hb Ht Ey). cbn [obind].
    unfold f. rewrite Ex, Ey. apply neq_imm.
    rewrite (holds_ty _ _ _ _ _ _ Ha Ex), (holds_ty _ _ _ _ _ _ Hb Ey). reflexivity.
  - rewrite existsb_exists. unfold f. split.
    + intros (i & _ & H). destruct (nth_error xs i) as [x|] eqn:Ex; [|discriminate].
      destruct (nth_error ys i) as [y|] eqn:Ey; [|discriminate]. eauto 6.
    + intros (i & x & y & Ex & Ey & H). exists i. rewrite Ex, Ey. split; auto.
      apply in_seq. assert (i < length xs) by (apply nth_error_Some; congruence). lia.
Qed.

(** * C127: conversion and assignment. *)
Lemma code_same t s : Nat.eqb (ety_code (Some t)) (ety_code (Some s)) = ety_eqb t s.
Proof. now destruct t, s. Qed.
Lemma cast_ref_same m a t xs i x :
  holds m a t xs -> nth_error xs i = Some x -> t <> ECDouble -> cast K t m (Ref a i) = Ok x.
Proof.
  intros H Hi Ht. unfold cast. cbn [vtype get]. rewrite (holds_arr _ _ _ _ H). cbn [obind fst].
  replace (match t with ECDouble => None | _ => Some t end) with (Some t) by (destruct t; congruence).
  rewrite Nat.eqb_refl, ety_eqb_refl. eapply holds_rd; eauto.
Qed.
Lemma cast_ref_other m a s xs i x t :
  holds m a s xs -> nth_error xs i = Some x -> (t <> s \/ t = ECDouble) -> cast K t m (Ref a i) = Ok (convert K t x).
Proof.
  intros H Hi Ht. unfold cast. cbn [vtype get]. rewrite (holds_arr _ _ _ _ H). cbn [obind fst].
  rewrite ety_eqb_refl.
  replace (Nat.eqb _ _) with false.
  - rewrite (holds_rd _ _ _ _ _ _ H Hi). reflexivity.
  - destruct t, s; try reflexivity; destruct Ht; congruence.
Qed.
Lemma convert_ty t x : nty (convert K t x) = t.
Proof. destruct x, t; reflexivity. Qed.
Lemma assign_ref m a i t xs x n :
  holds m a t xs -> i < length xs -> cast K t m x = Ok n -> nty n = t ->
  exists m', assign K m (Ref a i) x = Ok (m', Ref a i) /\ becomes m m' a t (set_nth xs i n).
Proof.
  intros H Hi Hc Hn. destruct (wr_ok _ _ _ _ _ _ H Hi Hn) as (m' & E & B).
  exists m'. split; auto. cbn [assign]. rewrite (holds_arr _ _ _ _ H). cbn [obind fst].
  rewrite Hc. cbn [obind]. rewrite E. reflexivity.
Qed.

(** An element of an array that is not of [cdouble] is copied whole to an element of an array of
    the same type, the imaginary part of a [cfloat] included. *)
Theorem C127_copied : forall m a b t xs ys i j y,
  holds m a t xs -> i < length xs -> holds m b t ys -> nth_error ys j = Some y -> t <> ECDouble ->
  exists m', assign K m (Ref a i) (Ref b j) = Ok (m', Ref a i) /\ becomes m m' a t (set_nth xs i y).
Proof.
  intros. eapply assign_ref; eauto. eapply cast_ref_same; eauto. eapply holds_ty; eauto.
Qed.
(** An element of an array of [cdouble] loses its imaginary part in the same situation. *)
Theorem C127_imaginary_lost : forall m a b xs ys i j re im,
  holds m a ECDouble xs -> i < length xs -> holds m b ECDouble ys -> nth_error ys j = Some (NCDouble re im) ->
  exists m', assign K m (Ref a i) (Ref b j) = Ok (m', Ref a i) /\ becomes m m' a ECDouble (set_nth xs i (NCDouble re (d0 K))).
Proof.
  intros. eapply assign_ref; eauto. erewrite cast_ref_other by eauto. reflexivity.
Qed.
(** The real part of a number as an int, a float and a double. *)
Definition as_int (n : num) : tI K :=
  match n with NInt i => i | NFloat r | NCFloat r _ => f2i K r | NDouble r | NCDouble r _ => d2i K r end.
Definition as_float (n : num) : tF K :=
  match n with NInt i => i2f K i | NFloat r | NCFloat r _ => r | NDouble r | NCDouble r _ => d2f K r end.
Definition as_double (n : num) : tD K :=
  match n with NInt i => i2d K i | NFloat r | NCFloat r _ => f2d K r | NDouble r | NCDouble r _ => r end.
(** The number of type [t] with that real part and without an imaginary part. *)
Definition real_as (t : ety) (n : num) : num :=
  match t with
  | EInt => NInt (as_int n) | EFloat => NFloat (as_float n) | EDouble => NDouble (as_double n)
  | ECFloat => NCFloat (as_float n) (f0 K) | ECDouble => NCDouble (as_double n) (d0 K)
  end.
Lemma convert_real t n : convert K t n = real_as t n.
Proof. destruct n, t; reflexivity. Qed.
Lemma real_as_ty t n : nty (real_as t n) = t.
Proof. destruct t; reflexivity. Qed.
(** Between arrays of different types the real part is all that is stored. *)
Theorem C127_real_part : forall m a b t s xs ys i j y,
  holds m a t xs -> i < length xs -> holds m b s ys -> nth_error ys j = Some y -> t <> s ->
  exists m', assign K m (Ref a i) (Ref b j) = Ok (m', Ref a i) /\ becomes m m' a t (set_nth xs i (real_as t y)).
Proof.
  intros. eapply assign_ref; eauto. erewrite cast_ref_other by eauto. now rewrite convert_real.
  apply real_as_ty.
Qed.
(** The same holds for a variable with a number, except that a [cfloat] goes whole into an array
    of [cfloat]. *)
Theorem C127_number : forall m a t xs i n,
  holds m a t xs -> i < length xs -> nty n <> ECDouble ->
  exists m', assign K m (Ref a i) (Imm n) = Ok (m', Ref a i) /\
  becomes m m' a t (set_nth xs i (if ety_eqb (nty n) t then n else real_as t n)).
Proof.
  intros m a t xs i n H Hi Hn. eapply assign_ref; eauto.
  - unfold cast. cbn [vtype obind get]. destruct (ety_eqb (nty n) t) eqn:E.
    + apply ety_eqb_iff in E. subst t.
      replace (match nty n with ECDouble => None | _ => Some (nty n) end) with (Some (nty n)) by (destruct n; simpl in *; congruence).
      now rewrite Nat.eqb_refl.
    + replace (Nat.eqb _ _) with false.
      * rewrite ety_eqb_refl. cbn [obind]. now rewrite convert_real.
      * destruct n, t; simpl in *; congruence.
  - destruct (ety_eqb (nty n) t) eqn:E; [now apply ety_eqb_iff|apply real_as_ty].
Qed.
(** A variable with a [cdouble] (the first element, if there are more) goes whole into an array of
    [cdouble]; into an array of another type nothing sensible is stored: the pointer to its
    storage is taken for the number. *)
Theorem C127_cdouble_variable : forall m a b t xs ys i y,
  holds m a t xs -> i < length xs -> holds m b ECDouble (y :: ys) ->
  (t = ECDouble -> exists m', assign K m (Ref a i) (Arr b) = Ok (m', Ref a i) /\ becomes m m' a t (set_nth xs i y)) /\
  (t <> ECDouble -> assign K m (Ref a i) (Arr b) = UB TypePun).
Proof.
  intros m a b t xs ys i y Ha Hi Hb. split; intros Ht.
  - subst t. eapply assign_ref; eauto.
    + unfold cast. cbn [vtype obind ety_code get]. rewrite Nat.eqb_refl, (holds_arr _ _ _ _ Hb). cbn [obind fst].
      rewrite ety_eqb_refl. eapply holds_rd; [exact Hb|reflexivity].
    + eapply (holds_ty _ _ _ _ 0); [exact Hb|reflexivity].
  - cbn [assign]. rewrite (holds_arr _ _ _ _ Ha). cbn [obind fst]. unfold cast. cbn [vtype obind vsize].
    rewrite (holds_arr _ _ _ _ Hb). destruct t; try reflexivity. congruence.
Qed.
(** Taking an element into a variable of its own keeps both parts; what is then stored from that
    variable is the whole number.  So a detour saves what [C127_imaginary_lost] loses. *)
Theorem C127_detour : forall m a b xs ys i j y,
  holds m a ECDouble xs -> i < length xs -> holds m b ECDouble ys -> nth_error ys j = Some y ->
  exists m1 v m2, assign K m Nil (Ref b j) = Ok (m1, v) /\ assign K m1 (Ref a i) v = Ok (m2, Ref a i) /\
  holds m2 a ECDouble (set_nth xs i y).
Proof.
  intros m a b xs ys i j y Ha Hi Hb Hj.
  assert (Ty : nty y = ECDouble) by (eapply holds_ty; eauto).
  assert (H1 : holds (m ++ [(ECDouble, [Some y])]) a ECDouble xs) by now apply holds_app.
  assert (H2 : holds (m ++ [(ECDouble, [Some y])]) (length m) ECDouble [y]) by now apply holds_last.
  destruct (proj1 (C127_cdouble_variable _ _ _ _ _ _ _ _ H1 Hi H2) eq_refl) as (m2 & E & B).
  exists (m ++ [(ECDouble, [Some y])]), (Arr (length m)), m2. repeat split; try apply B; auto.
  cbn [assign dereference]. rewrite (holds_rd _ _ _ _ _ _ Hb Hj). cbn [obind].
  destruct y; simpl in *; try discriminate. reflexivity.
Qed.

(** * C128: arithmetic. *)
Variable apply : cop -> num -> num -> num.
Hypothesis apply_ty : forall op x y, nty x = nty y -> nty (apply op x y) = nty x.

(** What the right operand contributes to an operation on [cdouble]: a variable its first element,
    a number or an element its real part. *)
Inductive right_of (m : store) : cvar -> num -> Prop :=
| right_cdouble b q qs : holds m b ECDouble (q :: qs) -> right_of m (Arr b) q
| right_number n : nty n <> ECDouble -> right_of m (Imm n) (real_as ECDouble n)
| right_element b t qs j q : holds m b t qs -> nth_error qs j = Some q -> right_of m (Ref b j) (real_as ECDouble q).
Lemma right_cast m y q : right_of m y q -> cast K ECDouble m y = Ok q /\ nty q = ECDouble.
Proof.
  intros [b q' qs H|n H|b t qs j q' H Hj].
  - split; [|eapply (holds_ty _ _ _ _ 0); [exact H|reflexivity]].
    unfold cast. cbn [vtype obind ety_code get]. rewrite Nat.eqb_refl, (holds_arr _ _ _ _ H). cbn [obind fst].
    rewrite ety_eqb_refl. eapply holds_rd; [exact H|reflexivity].
  - split; [|reflexivity]. unfold cast. cbn [vtype obind ety_code get].
    replace (Nat.eqb _ _) with false by (destruct n; reflexivity). rewrite ety_eqb_refl. cbn [obind].
    now rewrite convert_real.
  - split; [|reflexivity]. rewrite (cast_ref_other _ _ _ _ _ _ _ H Hj) by auto. now rewrite convert_real.
Qed.
Lemma right_app m m' y q : right_of m y q -> right_of (m ++ m') y q.
Proof.
  intros [b q' qs H|n H|b t qs j q' H Hj].
  - eapply right_cdouble. apply holds_app; eauto.
  - now apply right_number.
  - apply right_element with (t := t) (qs := qs); auto. now apply holds_app.
Qed.
Lemma ftype_cd m a xs : holds m a ECDouble xs -> ftype K m (Arr a) = Ok (Some ECDouble).
Proof. intros H. unfold ftype. cbn [vtype obind atype]. now rewrite (holds_arr _ _ _ _ H). Qed.
Lemma op_cd op m a xs x y q c zs z :
  holds m a ECDouble (x :: xs) -> right_of m y q -> holds m c ECDouble (z :: zs) ->
  exists m', op_scalar K apply op m (Arr a) y (Arr c) = Ok (m', Arr c) /\ becomes m m' c ECDouble (apply op x q :: zs).
Proof.
  intros Ha Hq Hc. destruct (right_cast _ _ _ Hq) as [Q Tq].
  assert (Tx : nty x = ECDouble) by (eapply (holds_ty _ _ _ _ 0); [exact Ha|reflexivity]).
  assert (T : nty (apply op x q) = ECDouble) by (rewrite apply_ty; congruence).
  destruct (wr_ok _ _ _ _ 0 _ Hc (Nat.lt_0_succ _) T) as (m' & E & B).
  exists m'. split; [|exact B].
  unfold op_scalar. rewrite (ftype_cd _ _ _ Ha). cbn [obind]. unfold number_op. cbn [get].
  rewrite (holds_arr _ _ _ _ Ha). cbn [obind fst]. rewrite ety_eqb_refl.
  rewrite (holds_rd _ _ _ _ 0 x Ha eq_refl). cbn [obind]. rewrite Q. cbn [obind put].
  rewrite (holds_arr _ _ _ _ Hc). cbn [obind fst]. rewrite T, ety_eqb_refl, E. reflexivity.
Qed.

(** [a += b] and so on changes the first element of an array of [cdouble] and no other. *)
Theorem C128_assigns_first : forall op m a x xs y q,
  holds m a ECDouble (x :: xs) -> right_of m y q ->
  exists m', operator_assign K apply op m (Arr a) y = Ok (m', Arr a) /\ becomes m m' a ECDouble (apply op x q :: xs).
Proof. intros. unfold operator_assign. eapply op_cd; eauto. Qed.

Lemma plain_alloc_arr m a t xs :
  holds m a t xs -> plain_alloc K m (Arr a) = Ok (m ++ [(t, repeat (fresh K t) (length xs))], Arr (length m)).
Proof.
  intros H. unfold plain_alloc, copy. rewrite (holds_arr _ _ _ _ H). cbn [obind fst snd assign dereference].
  now rewrite map_length.
Qed.
Lemma map_repeat_some (x : num) n : repeat (Some x) n = map Some (repeat x n).
Proof. induction n; simpl; congruence. Qed.
Lemma forall_repeat {X} (P : X -> Prop) x n : P x -> Forall P (repeat x n).
Proof. intros; induction n; simpl; auto. Qed.
Lemma becomes_last m m1 m' t x (xs : list num) :
  m1 = m ++ [x] -> becomes m1 m' (length m) t xs -> adds m m' t xs.
Proof.
  intros E [[H F] [L O]]. split; auto. subst m1.
  apply nth_ext with (d := x) (d' := x). { rewrite app_length in L. rewrite L, app_length. reflexivity. }
  intros n Hn. rewrite L, app_length in Hn. simpl in Hn.
  destruct (Nat.eq_dec n (length m)) as [->|Hd].
  - erewrite nth_error_nth by eauto. rewrite app_nth2 by lia. now rewrite Nat.sub_diag.
  - specialize (O n Hd). rewrite nth_error_app1 in O by lia. rewrite app_nth1 by lia.
    destruct (nth_error m n) as [z|] eqn:E; [|apply nth_error_None in E; lia].
    erewrite nth_error_nth by eauto. erewrite nth_error_nth by eauto. reflexivity.
Qed.
(** [a + b] and so on gives an array as long as [a], of which the first element is the result and
    all the others are zero. *)
Theorem C128_first_of_result : forall op m a x xs y q,
  holds m a ECDouble (x :: xs) -> right_of m y q ->
  exists m' , operator_ K apply op m (Arr a) y = Ok (m', Arr (length m)) /\
  adds m m' ECDouble (apply op x q :: repeat (NCDouble (d0 K) (d0 K)) (length xs)).
Proof.
  intros op m a x xs y q Ha Hq. unfold operator_. rewrite (plain_alloc_arr _ _ _ _ Ha). cbn [obind fresh length repeat].
  rewrite map_repeat_some.
  set (m1 := m ++ [(ECDouble, Some (NCDouble (d0 K) (d0 K)) :: map Some (repeat (NCDouble (d0 K) (d0 K)) (length xs)))]).
  assert (Hc : holds m1 (length m) ECDouble (NCDouble (d0 K) (d0 K) :: repeat (NCDouble (d0 K) (d0 K)) (length xs))).
  { split. - unfold m1. rewrite nth_error_app2 by lia. now rewrite Nat.sub_diag.
    - constructor; [reflexivity|]. now apply forall_repeat. }
  destruct (op_cd op m1 a xs x y q (length m) _ _ (holds_app _ _ _ _ _ Ha) (right_app _ _ _ _ Hq) Hc) as (m' & E & B).
  exists m'. split; auto. eapply becomes_last; eauto.
Qed.
(** Neither is what elementwise arithmetic would give. *)
Theorem C128_not_elementwise : forall op m a x x2 xs q,
  holds m a ECDouble (x :: x2 :: xs) -> nty q <> ECDouble ->
  apply op x2 (real_as ECDouble q) <> x2 ->
  exists m', operator_assign K apply op m (Arr a) (Imm q) = Ok (m', Arr a) /\
  ~ holds m' a ECDouble (map (fun e => apply op e (real_as ECDouble q)) (x :: x2 :: xs)).
Proof.
  intros op m a x x2 xs q Ha Hq Hd.
  destruct (C128_assigns_first op m a x (x2 :: xs) (Imm q) _ Ha (right_number m q Hq)) as (m' & E & B).
  exists m'. split; auto. intros [H _]. destruct B as [[B _] _]. rewrite B in H. cbn [map] in H.
  injection H as H _. now symmetry in H.
Qed.
(** A number on the left and a variable with a [cdouble] on the right: the pointer to the storage
    of the right operand is taken for a number. *)
Theorem C128_cdouble_on_the_right : forall op m n b q qs,
  holds m b ECDouble (q :: qs) -> nty n <> ECDouble -> operator_ K apply op m (Imm n) (Arr b) = UB TypePun.
Proof.
  intros op m n b q qs Hb Hn. unfold operator_, plain_alloc. cbn [copy obind assign dereference].
  unfold op_scalar, ftype. cbn [vtype atype obind].
  replace (ety_eqb (nty n) ECDouble) with false by (destruct n; simpl in *; congruence).
  unfold number_op. cbn [get]. rewrite ety_eqb_refl. cbn [obind]. unfold cast. cbn [vtype obind vsize].
  rewrite (holds_arr _ _ _ _ Hb). destruct n; try reflexivity. simpl in Hn; congruence.
Qed.

Lemma each_inv (P : nat -> store -> Prop) f m n k :
  P k m -> (forall i m, k <= i < k + n -> P i m -> exists m', f m i = Ok m' /\ P (S i) m') ->
  exists m', each K f m (seq k n) = Ok m' /\ P (k + n) m'.
Proof.
  revert m k. induction n as [|n IH]; intros m k H Hf; cbn [seq each].
  - exists m. rewrite Nat.add_0_r. auto.
  - destruct (Hf k m) as (m1 & E & H1); [lia|auto|]. rewrite E. cbn [obind].
    destruct (IH m1 (S k) H1) as (m' & E' & H').
    + intros i m2 Hi. apply Hf. lia.
    + exists m'. split; auto. now replace (k + S n) with (S k + n) by lia.
Qed.
(** [zs] with its first [k] elements replaced by those of [ys]. *)
Definition half (ys zs : list num) (k : nat) : list num := firstn k ys ++ skipn k zs.
Lemma half_set ys zs k y :
  length ys = length zs -> nth_error ys k = Some y -> set_nth (half ys zs k) k y = half ys zs (S k).
Proof.
  unfold half. revert zs k. induction ys as [|y0 ys IH]; intros [|z zs] k L E; simpl in *; try discriminate.
  - destruct k; discriminate.
  - destruct k as [|k].
    + simpl in E. injection E as ->. reflexivity.
    + cbn [firstn skipn app set_nth]. f_equal. apply IH; auto.
Qed.
Lemma half_length ys zs k : length ys = length zs -> length (half ys zs k) = length zs.
Proof.
  unfold half. revert zs k. induction ys as [|y0 ys IH]; intros [|z zs] [|k] L; simpl in *; try discriminate; auto.
Qed.
Lemma half_nth ys zs k i : length ys = length zs -> k <= i -> nth_error (half ys zs k) i = nth_error zs i.
Proof.
  unfold half. revert zs k i. induction ys as [|y0 ys IH]; intros [|z zs] [|k] [|i] L H; simpl in *; try discriminate; try lia; auto.
  apply IH; lia.
Qed.
Lemma half_all ys zs : length ys = length zs -> half ys zs (length zs) = ys.
Proof. intros L. unfold half. rewrite <- L, firstn_all, L, skipn_all. apply app_nil_r. Qed.
Lemma becomes_trans m m1 m2 a t xs ys : becomes m m1 a t xs -> becomes m1 m2 a t ys -> becomes m m2 a t ys.
Proof.
  intros (H1 & L1 & O1) (H2 & L2 & O2). repeat split; try apply H2; try congruence.
  intros b Hb. rewrite O2, O1; auto.
Qed.
Lemma becomes_refl m a t xs : holds m a t xs -> becomes m m a t xs.
Proof. intros H. repeat split; try apply H. Qed.

(** For an array of [cfloat] on the left every element takes part, as long as the operation is not
    a multiplication; that one is refused. *)
Theorem C128_cfloat_number : forall op m a xs n,
  holds m a ECFloat xs -> nty n <> ECDouble ->
  (op <> CMul -> exists m', operator_assign K apply op m (Arr a) (Imm n) = Ok (m', Arr a) /\
     becomes m m' a ECFloat (map (fun x => apply op x (if ety_eqb (nty n) ECFloat then n else real_as ECFloat n)) xs)) /\
  (op = CMul -> operator_assign K apply op m (Arr a) (Imm n) = Throw "Mul::scal: Unknown type").
Proof.
  intros op m a xs n Ha Hn.
  assert (E0 : operator_assign K apply op m (Arr a) (Imm n) = cfloat_broadcast K apply op m a (Imm n) (Arr a)).
  { unfold operator_assign, op_scalar, ftype. cbn [vtype atype obind]. rewrite (holds_arr _ _ _ _ Ha).
    cbn [obind fst ety_eqb]. reflexivity. }
  rewrite E0. unfold cfloat_broadcast. cbn [vsize]. rewrite (holds_arr _ _ _ _ Ha). cbn [obind Nat.eqb snd].
  rewrite map_length. split.
  2:{ intros ->. reflexivity. }
  intros Ho.
  set (q := if ety_eqb (nty n) ECFloat then n else real_as ECFloat n).
  assert (Tq : nty q = ECFloat).
  { unfold q. destruct (ety_eqb (nty n) ECFloat) eqn:E; [now apply ety_eqb_iff|reflexivity]. }
  assert (Cq : forall m, cast K ECFloat m (Imm n) = Ok q).
  { intros m'. unfold q, cast. cbn [vtype obind get]. rewrite code_same.
    destruct (ety_eqb (nty n) ECFloat) eqn:E.
    - apply ety_eqb_iff in E. rewrite E. reflexivity.
    - replace (ety_eqb ECFloat (nty n)) with false by (destruct n; simpl in *; congruence).
      rewrite ety_eqb_refl. cbn [obind]. now rewrite convert_real. }
  set (ys := map (fun x => apply op x q) xs).
  assert (Ly : length ys = length xs) by apply map_length.
  destruct (each_inv (fun k m' => becomes m m' a ECFloat (half ys xs k))
    (fun m i => let* (m1, tmp) := at_ K m (Arr a) i in
                let* (m2, xi) := at_ K m1 (Arr a) i in
                let* (m3, _) := number_op K apply op ECFloat m2 xi (Imm n) tmp in Ok m3) m (length xs) 0) as (m' & E & B).
  - unfold half. simpl. now apply becomes_refl.
  - intros i m1 Hi B. cbn [at_ dereference obind].
    destruct (nth_error xs i) as [x|] eqn:Ex; [|apply nth_error_None in Ex; lia].
    assert (Ey : nth_error ys i = Some (apply op x q)) by (unfold ys; now rewrite nth_error_map, Ex).
    assert (Eh : nth_error (half ys xs i) i = Some x) by (rewrite half_nth; auto).
    assert (Tx : nty x = ECFloat) by (eapply holds_ty; eauto).
    destruct (wr_ok m1 a ECFloat (half ys xs i) i (apply op x q)) as (m2 & E2 & B2).
    + apply B.
    + rewrite half_length; auto. lia.
    + rewrite apply_ty; congruence.
    + exists m2. split.
      * unfold number_op. cbn [get]. rewrite (holds_arr _ _ _ _ (proj1 B)). cbn [obind fst]. rewrite ety_eqb_refl.
        rewrite (holds_rd _ _ _ _ _ _ (proj1 B) Eh). cbn [obind]. rewrite Cq. cbn [obind put].
        rewrite (holds_arr _ _ _ _ (proj1 B)). cbn [obind fst]. rewrite apply_ty by congruence.
        rewrite Tx, ety_eqb_refl, E2. reflexivity.
      * rewrite (half_set _ _ _ _ Ly Ey) in B2. eapply becomes_trans; eauto.
  - exists m'. split.
    + destruct op; try congruence; rewrite E; reflexivity.
    + simpl in B. rewrite half_all in B; auto.
Qed.
(** Of two arrays of [cfloat] only [+=] is possible. *)
Theorem C128_cfloat_arrays : forall op m a b xs ys,
  holds m a ECFloat xs -> holds m b ECFloat ys -> length xs = length ys -> length xs > 1 -> a <> b ->
  match op with
  | CAdd => exists m', operator_assign K apply op m (Arr a) (Arr b) = Ok (m', Arr a) /\
      becomes m m' a ECFloat (map (fun p => apply CAdd (fst p) (snd p)) (combine xs ys))
  | CSub => operator_assign K apply op m (Arr a) (Arr b) = Throw "Sub::vector: Unknown type"
  | CMul => operator_assign K apply op m (Arr a) (Arr b) = Throw "Mul::vector: Unknown type"
  | CDiv => operator_assign K apply op m (Arr a) (Arr b) = Throw "BinaryFunctor: not a vector operation"
  end.
Proof.
  intros op m a b xs ys Ha Hb L Hn Hab.
  assert (E0 : operator_assign K apply op m (Arr a) (Arr b) = cfloat_broadcast K apply op m a (Arr b) (Arr a)).
  { unfold operator_assign, op_scalar, ftype. cbn [vtype atype obind]. rewrite (holds_arr _ _ _ _ Ha).
    cbn [obind fst ety_eqb]. reflexivity. }
  rewrite E0. unfold cfloat_broadcast. cbn [vsize atype].
  rewrite (holds_arr _ _ _ _ Ha), (holds_arr _ _ _ _ Hb). cbn [obind snd fst].
  rewrite !map_length. destruct (Nat.eqb_spec (length ys) 1); [lia|]. cbn [ety_eqb negb].
  destruct (Nat.eqb_spec (length xs) 0); [lia|]. rewrite Nat.eqb_refl.
  destruct op; try reflexivity.
  set (zs := map (fun p => apply CAdd (fst p) (snd p)) (combine xs ys)).
  assert (Lz : length zs = length xs) by (unfold zs; rewrite map_length, combine_length; lia).
  unfold axpy. rewrite (holds_arr _ _ _ _ Hb). cbn [obind snd]. rewrite map_length, <- L.
  destruct (each_inv (fun k m' => becomes m m' a ECFloat (half zs xs k))
    (fun m i => let* p := rd K m a i in let* q := rd K m b i in wr K m a i (apply CAdd p q)) m (length xs) 0) as (m' & E & B).
  - unfold half. simpl. now apply becomes_refl.
  - intros i m1 Hi B.
    destruct (nth_error xs i) as [x|] eqn:Ex; [|apply nth_error_None in Ex; lia].
    destruct (nth_error ys i) as [y|] eqn:Ey; [|apply nth_error_None in Ey; lia].
    assert (Ez : nth_error zs i = Some (apply CAdd x y)).
    { unfold zs. rewrite nth_error_map.
      assert (C : nth_error (combine xs ys) i = Some (x, y)); [|now rewrite C].
      clear - Ex Ey. revert ys i Ex Ey. induction xs; intros [|y0 ys] [|i] Ex Ey; simpl in *; try discriminate; auto. congruence. }
    assert (Eh : nth_error (half zs xs i) i = Some x) by (rewrite half_nth; auto).
    assert (Tx : nty x = ECFloat) by (eapply (holds_ty m a); eauto).
    assert (Tyy : nty y = ECFloat) by (eapply (holds_ty m b); eauto).
    assert (Hb1 : holds m1 b ECFloat ys).
    { destruct B as (_ & _ & O). split; [|apply Hb]. rewrite O by auto. apply Hb. }
    destruct (wr_ok m1 a ECFloat (half zs xs i) i (apply CAdd x y)) as (m2 & E2 & B2).
    + apply B.
    + rewrite half_length; auto. lia.
    + rewrite apply_ty; congruence.
    + exists m2. split.
      * rewrite (holds_rd _ _ _ _ _ _ (proj1 B) Eh). cbn [obind].
        rewrite (holds_rd _ _ _ _ _ _ Hb1 Ey). cbn [obind]. exact E2.
      * rewrite (half_set _ _ _ _ Lz Ez) in B2. eapply becomes_trans; eauto.
  - exists m'. split.
    + rewrite E. reflexivity.
    + simpl in B. rewrite half_all in B; auto.
Qed.

(** * C129: functions of one argument. *)
(** [sin], [sqrt] and so on ([f] gives a number of the type of its argument) of an array of
    [cdouble] are the function of its first element, a single number. *)
Theorem C129_first_only : forall f m a x xs,
  holds m a ECDouble (x :: xs) -> nty (f x) = ECDouble ->
  exists m' b, call K (plain_alloc K) true f m (Arr a) = Ok (m', Arr b) /\ holds m' b ECDouble [f x] /\ holds m' a ECDouble (x :: xs).
Proof.
  intros f m a x xs Ha Hf. unfold call. rewrite (plain_alloc_arr _ _ _ _ Ha). cbn [obind].
  set (m1 := m ++ _). assert (Ha1 : holds m1 a ECDouble (x :: xs)) by now apply holds_app.
  unfold function_scalar. rewrite (ftype_cd _ _ _ Ha1). cbn [obind]. unfold element_function.
  rewrite (ftype_cd _ _ _ Ha1). cbn [obind get]. rewrite (holds_arr _ _ _ _ Ha1). cbn [obind fst ety_eqb].
  rewrite (holds_rd _ _ _ _ 0 x Ha1 eq_refl). cbn [obind]. unfold assign_number.
  exists (m1 ++ [(ECDouble, [Some (f x)])]), (length m1). split; [|split].
  - destruct (f x); simpl in *; try discriminate. reflexivity.
  - now apply holds_last.
  - now apply holds_app.
Qed.
(** [real], [abs] and so on ([f] gives a real number) likewise: the result is one number. *)
Theorem C129_first_only_real : forall f m a x xs,
  holds m a ECDouble (x :: xs) -> nty (f x) = EDouble ->
  exists m', call K (real_alloc K) true f m (Arr a) = Ok (m', Imm (f x)) /\ holds m' a ECDouble (x :: xs).
Proof.
  intros f m a x xs Ha Hf. unfold call, real_alloc. cbn [vsize atype]. rewrite (holds_arr _ _ _ _ Ha). cbn [obind fst].
  set (m1 := m ++ _). assert (Ha1 : holds m1 a ECDouble (x :: xs)) by now apply holds_app.
  unfold function_scalar. rewrite (ftype_cd _ _ _ Ha1). cbn [obind]. unfold element_function.
  rewrite (ftype_cd _ _ _ Ha1). cbn [obind get]. rewrite (holds_arr _ _ _ _ Ha1). cbn [obind fst ety_eqb].
  rewrite (holds_rd _ _ _ _ 0 x Ha1 eq_refl). cbn [obind]. unfold assign_number.
  exists m1. split; auto. destruct (f x); simpl in *; try discriminate. reflexivity.
Qed.
Lemma ftype_arr m a t xs : holds m a t xs -> t <> ECDouble -> ftype K m (Arr a) = Ok None.
Proof.
  intros H Ht. unfold ftype. cbn [vtype obind atype]. rewrite (holds_arr _ _ _ _ H). cbn [obind fst].
  destruct t; try reflexivity. congruence.
Qed.
Lemma ftype_ref m a t xs i : holds m a t xs -> ftype K m (Ref a i) = Ok (Some t).
Proof.
  intros H. unfold ftype. cbn [vtype obind atype]. rewrite (holds_arr _ _ _ _ H). cbn [obind fst].
  now destruct t.
Qed.
(** [floor] has no case for complex numbers. *)
Theorem C129_floor : forall f m a t x xs,
  holds m a t (x :: xs) -> t = ECFloat \/ t = ECDouble ->
  call K (plain_alloc K) false f m (Arr a) = Throw "#F##::scalar: Unknown type".
Proof.
  intros f m a t x xs Ha Ht. unfold call. rewrite (plain_alloc_arr _ _ _ _ Ha). cbn [obind].
  set (m1 := m ++ _). assert (Ha1 : holds m1 a t (x :: xs)) by now apply holds_app.
  unfold function_scalar. destruct Ht as [-> | ->].
  - rewrite (ftype_arr _ _ _ _ Ha1) by discriminate. cbn [obind vsize]. rewrite (holds_arr _ _ _ _ Ha1).
    cbn [obind snd map length seq each at_ dereference]. unfold element_function.
    rewrite (ftype_ref _ _ _ _ 0 Ha1). reflexivity.
  - rewrite (ftype_cd _ _ _ Ha1). cbn [obind]. unfold element_function. rewrite (ftype_cd _ _ _ Ha1). reflexivity.
Qed.

(** An output array of [n] elements of type [s] of which nothing is read before it is written. *)
Lemma elementwise f m a t s xs c cells :
  holds m a t xs -> a <> c -> t = EFloat \/ t = EDouble \/ t = ECFloat -> s <> ECDouble ->
  (forall x, nty x = t -> nty (f x) = s) ->
  nth_error m c = Some (s, cells) -> length cells = length xs ->
  exists m', function_scalar K true f m (Arr a) (Arr c) = Ok (m', Arr c) /\ becomes m m' c s (map f xs).
Proof.
  intros Ha Hac Ht Hs Hf Hc Hl.
  assert (Ht' : t <> ECDouble) by (destruct Ht as [-> | [-> | ->]]; discriminate).
  unfold function_scalar. rewrite (ftype_arr _ _ _ _ Ha Ht'). cbn [obind vsize]. rewrite (holds_arr _ _ _ _ Ha).
  cbn [obind snd]. rewrite map_length.
  set (fin := map f xs). assert (Lf : length fin = length xs) by apply map_length.
  set (P := fun k m' => nth_error m' c = Some (s, map Some (firstn k fin) ++ skipn k cells) /\
                        length m' = length m /\ forall b, b <> c -> nth_error m' b = nth_error m b).
  match goal with |- context [each K ?g m (seq 0 (length xs))] =>
    destruct (each_inv P g m (length xs) 0) as (m' & E & B) end.
  - unfold P. simpl. auto.
  - intros i m1 Hi (B & L & O). simpl in Hi.
    destruct (nth_error xs i) as [x|] eqn:Ex; [|apply nth_error_None in Ex; lia].
    assert (Tx : nty x = t) by (eapply (holds_ty m a); eauto).
    assert (Ha1 : holds m1 a t xs) by (split; [rewrite O by auto; apply Ha|apply Ha]).
    cbn [at_ dereference obind]. unfold element_function. rewrite (ftype_ref _ _ _ _ i Ha1). cbn [obind].
    assert (G : get K t m1 (Ref a i) = Ok x).
    { cbn [get]. rewrite (holds_arr _ _ _ _ Ha1). cbn [obind fst]. rewrite ety_eqb_refl. eapply holds_rd; eauto. }
    assert (N : number K m1 (f x) = (m1, Imm (f x))).
    { specialize (Hf x Tx). destruct (f x); simpl in *; congruence. }
    assert (A : assign_number K m1 (Ref c i) (f x) =
                Ok (set_nth m1 c (s, set_nth (map Some (firstn i fin) ++ skipn i cells) i (Some (f x))), Ref c i)).
    { unfold assign_number. rewrite N. cbn [assign]. unfold arr. rewrite B. cbn [obind fst].
      assert (C : cast K s m1 (Imm (f x)) = Ok (f x)).
      { unfold cast. cbn [vtype obind get]. rewrite (Hf x Tx).
        replace (match s with ECDouble => None | _ => Some s end) with (Some s) by (destruct s; congruence).
        now rewrite Nat.eqb_refl, ety_eqb_refl. }
      rewrite C. cbn [obind]. unfold wr, arr. rewrite B. cbn [obind fst snd].
      rewrite app_length, map_length, firstn_length, skipn_length, Lf.
      replace (Nat.ltb i _) with true; [reflexivity|]. symmetry. apply Nat.ltb_lt. lia. }
    eexists. split.
    + destruct Ht as [-> | [-> | ->]]; rewrite G; cbn [obind]; rewrite A; reflexivity.
    + unfold P. assert (Hlt : c < length m1) by (apply nth_error_Some; congruence).
      split; [|split].
      * rewrite nth_set_same by auto. do 2 f_equal.
        assert (Ef : nth_error fin i = Some (f x)) by (unfold fin; now rewrite nth_error_map, Ex).
        clear - Ef Hl Lf Hi. revert Ef Hl Lf Hi. generalize (length xs) as n. revert cells i.
        induction fin as [|y ys IH]; intros cells [|i] n Ef Hl Lf Hi; simpl in *; try discriminate.
        { destruct cells; simpl in *; [lia|]. injection Ef as ->. reflexivity. }
        destruct cells; simpl in *; [lia|]. f_equal. apply (IH cells i (n - 1)); auto; lia.
      * now rewrite length_set.
      * intros b Hb. rewrite nth_set_other; auto.
  - exists m'. split.
    + rewrite E. reflexivity.
    + destruct B as (B & L & O). simpl in B. repeat split; auto.
      * rewrite B, <- Lf at 1. rewrite firstn_all. rewrite skipn_all2 by lia. now rewrite app_nil_r.
      * apply Forall_forall. intros y Hy. apply in_map_iff in Hy. destruct Hy as (x & <- & Hx).
        apply Hf. destruct Ha as [_ F]. rewrite Forall_forall in F. auto.
Qed.
(** Functions of an array of floats, doubles or [cfloat] give an array of the function of every
    element; the argument stays as it is. *)
Theorem C129_elementwise : forall f m a t xs,
  holds m a t xs -> t = EFloat \/ t = EDouble \/ t = ECFloat -> (forall x, nty x = t -> nty (f x) = t) ->
  exists m', call K (plain_alloc K) true f m (Arr a) = Ok (m', Arr (length m)) /\ adds m m' t (map f xs).
Proof.
  intros f m a t xs Ha Ht Hf. unfold call. rewrite (plain_alloc_arr _ _ _ _ Ha). cbn [obind].
  assert (Ha1 : holds (m ++ [(t, repeat (fresh K t) (length xs))]) a t xs) by now apply holds_app.
  destruct (elementwise f _ a t t xs (length m) (repeat (fresh K t) (length xs)) Ha1) as (m' & E & B); auto.
  - pose proof (holds_lt _ _ _ _ Ha). lia.
  - destruct Ht as [-> | [-> | ->]]; discriminate.
  - rewrite nth_error_app2 by lia. now rewrite Nat.sub_diag.
  - apply repeat_length.
  - exists m'. split; auto. eapply becomes_last; eauto.
Qed.
(** [real], [imag], [abs], [arg], [norm] of an array of [cfloat] give an array of floats. *)
Theorem C129_real_elementwise : forall f m a xs,
  holds m a ECFloat xs -> (forall x, nty x = ECFloat -> nty (f x) = EFloat) ->
  exists m', call K (real_alloc K) true f m (Arr a) = Ok (m', Arr (length m)) /\ adds m m' EFloat (map f xs).
Proof.
  intros f m a xs Ha Hf. unfold call, real_alloc. cbn [vsize atype]. rewrite (holds_arr _ _ _ _ Ha). cbn [obind fst snd].
  rewrite map_length. set (cells := firstn _ _).
  assert (Ha1 : holds (m ++ [(EFloat, cells)]) a ECFloat xs) by now apply holds_app.
  destruct (elementwise f _ a ECFloat EFloat xs (length m) cells Ha1) as (m' & E & B); auto; try discriminate.
  - pose proof (holds_lt _ _ _ _ Ha). lia.
  - rewrite nth_error_app2 by lia. now rewrite Nat.sub_diag.
  - unfold cells. rewrite firstn_length. cbn [length]. rewrite repeat_length. lia.
  - exists m'. split; auto. eapply becomes_last; eauto.
Qed.

(** * C130: copies of arrays of complex numbers. *)
(** [copy] throws on every array of complex numbers, so also on a variable with one [cdouble]. *)
Theorem C130_copy_throws : forall m a t xs,
  holds m a t xs -> t = ECFloat \/ t = ECDouble -> copy K m (Arr a) false = Throw "Heap::copy(): Unknown type".
Proof.
  intros m a t xs Ha Ht. unfold copy. rewrite (holds_arr _ _ _ _ Ha). cbn [obind fst snd].
  destruct Ht as [-> | ->]; reflexivity.
Qed.
(** Other arrays of numbers are copied, and a later assignment to an element of the copy does not
    reach the original. *)
Theorem C130_copy : forall m a t xs i y,
  holds m a t xs -> t <> ECFloat -> t <> ECDouble -> i < length xs -> nty y <> ECDouble ->
  exists m1 c m2, copy K m (Arr a) false = Ok (m1, Arr c) /\ holds m1 c t xs /\
  assign K m1 (Ref c i) (Imm y) = Ok (m2, Ref c i) /\ holds m2 a t xs.
Proof.
  intros m a t xs i y Ha H1 H2 Hi Hy.
  assert (E : copy K m (Arr a) false = Ok (m ++ [(t, map Some xs)], Arr (length m))).
  { unfold copy. rewrite (holds_arr _ _ _ _ Ha). cbn [obind fst snd]. destruct t; try reflexivity; congruence. }
  assert (Hc : holds (m ++ [(t, map Some xs)]) (length m) t xs).
  { split; [|apply Ha]. rewrite nth_error_app2 by lia. now rewrite Nat.sub_diag. }
  destruct (C127_number _ _ _ _ _ _ Hc Hi Hy) as (m2 & E2 & B).
  exists (m ++ [(t, map Some xs)]), (length m), m2. repeat split; auto; try apply Hc; try apply Ha.
  destruct B as (_ & _ & O). rewrite O by (pose proof (holds_lt _ _ _ _ Ha); lia).
  rewrite nth_error_app1 by (eapply holds_lt; eauto). apply Ha.
Qed.
(** [var(n, x)] makes [n] copies of a number and refuses a variable with a [cdouble]; of a
    reference to an element of type [cdouble] only the first element gets the imaginary part. *)
Theorem C130_of_size : forall m a b n t xs ys i x re im,
  holds m a t xs -> t <> ECDouble -> nth_error xs i = Some x -> n > 1 ->
  holds m b ECDouble ys -> nth_error ys i = Some (NCDouble re im) ->
  (exists m', var_of_size K m n (Ref a i) = Ok (m', Arr (length m)) /\ adds m m' t (repeat x n)) /\
  (exists m', var_of_size K m n (Imm x) = Ok (m', Arr (length m)) /\ adds m m' t (repeat x n)) /\
  var_of_size K m n (Arr b) = Throw "initialise ctor: cannot init from array" /\
  (exists m', var_of_size K m n (Ref b i) = Ok (m', Arr (length m)) /\
     adds m m' ECDouble (NCDouble re im :: repeat (NCDouble re (d0 K)) (n - 1))).
Proof.
  intros m a b n t xs ys i x re im Ha Ht Hx Hn Hb Hy.
  assert (Tx : nty x = t) by (eapply (holds_ty m a); eauto).
  assert (R : repeat x n = x :: repeat x (n - 1)) by (destruct n; [lia|]; simpl; now rewrite Nat.sub_0_r).
  assert (N1 : Nat.eqb n 1 = false) by (apply Nat.eqb_neq; lia).
  split; [|split; [|split]].
  - unfold var_of_size. cbn [vtype get].
    rewrite (holds_arr _ _ _ _ Ha). cbn [obind fst]. rewrite N1, ety_eqb_refl, (holds_rd _ _ _ _ _ _ Ha Hx). cbn [obind].
    rewrite (cast_ref_same _ _ _ _ _ _ Ha Hx Ht). cbn [obind]. eexists. split; [reflexivity|].
    rewrite R. split; [cbn [map]; now rewrite map_repeat_some|]. constructor; auto. now apply forall_repeat.
  - unfold var_of_size, cast. cbn [vtype get obind]. rewrite N1, Tx, ety_eqb_refl. cbn [obind].
    replace (match t with ECDouble => None | _ => Some t end) with (Some t) by (destruct t; congruence).
    rewrite Nat.eqb_refl. cbn [obind]. eexists. split; [reflexivity|].
    rewrite R. split; [cbn [map]; now rewrite map_repeat_some|]. constructor; auto. now apply forall_repeat.
  - reflexivity.
  - unfold var_of_size. cbn [vtype get].
    rewrite (holds_arr _ _ _ _ Hb). cbn [obind fst]. rewrite N1, ety_eqb_refl, (holds_rd _ _ _ _ _ _ Hb Hy). cbn [obind].
    rewrite (cast_ref_other _ _ _ _ _ _ ECDouble Hb Hy) by auto. cbn [obind convert]. eexists. split; [reflexivity|].
    split; [cbn [map]; now rewrite map_repeat_some|]. constructor; auto. now apply forall_repeat.
Qed.
End Props.

(** * Examples: whole numbers in the place of the real ones. *)
Definition wholes : reals := mkreals Z Z Z id id id id id id 0%Z 0%Z.
Definition w_differ (x y : num wholes) : bool :=
  match x, y with
  | NInt a, NInt b | NFloat a, NFloat b | NDouble a, NDouble b => negb (Z.eqb a b)
  | NCFloat a b, NCFloat c d | NCDouble a b, NCDouble c d => negb (Z.eqb a c && Z.eqb b d)
  | _, _ => true
  end.
Definition w_add (op : cop) (x y : num wholes) : num wholes :=
  match x, y with
  | NInt a, NInt b => @NInt wholes (a + b)%Z
  | NFloat a, NFloat b => @NFloat wholes (a + b)%Z
  | NDouble a, NDouble b => @NDouble wholes (a + b)%Z
  | NCFloat a b, NCFloat c d => @NCFloat wholes (a + c)%Z (b + d)%Z
  | NCDouble a b, NCDouble c d => @NCDouble wholes (a + c)%Z (b + d)%Z
  | _, _ => x
  end.
Definition w_norm (x : num wholes) : num wholes :=
  match x with
  | NCFloat a b => @NFloat wholes (a * a + b * b)%Z
  | NCDouble a b => @NDouble wholes (a * a + b * b)%Z
  | _ => x
  end.
Definition w_conj (x : num wholes) : num wholes :=
  match x with NCFloat a b => @NCFloat wholes a (- b)%Z | NCDouble a b => @NCDouble wholes a (- b)%Z | _ => x end.
Definition cf (a b : Z) : num wholes := @NCFloat wholes a b.
Definition cd (a b : Z) : num wholes := @NCDouble wholes a b.
(** An array of two [cdouble], a single one, and two arrays of [cfloat]. *)
Definition w_mem : store wholes :=
  [(ECDouble, [Some (cd 1 2); Some (cd 3 4)]); (ECDouble, [Some (cd 5 6)]);
   (ECFloat, [Some (cf 1 2); Some (cf 3 4)]); (ECFloat, [Some (cf 1 2); Some (cf 3 5)])].
Ltac w_holds := split; [reflexivity|repeat constructor].

Example C126_undefined_example : neq wholes w_differ 5 w_mem (Arr 1) Nil = Ok true /\ neq wholes w_differ 5 [(EInt, [])] (Arr 0) Nil = Ok false /\
  neq wholes w_differ 5 [(EInt, [])] Nil (Arr 0) = UB NullDeref.
Proof. repeat split. Qed.
Example C126_example :
  holds wholes w_mem 0 ECDouble [cd 1 2; cd 3 4] /\ holds wholes w_mem 1 ECDouble [cd 5 6] /\
  holds wholes w_mem 2 ECFloat [cf 1 2; cf 3 4] /\ holds wholes w_mem 3 ECFloat [cf 1 2; cf 3 5] /\
  (* a variable with a number and itself *)
  neq wholes w_differ 20 w_mem (Arr 1) (Arr 1) = Fuel /\
  lt wholes w_differ 20 w_mem (Arr 0) (Arr 1) = Fuel /\
  neq wholes w_differ 1 w_mem (Arr 0) (Arr 1) = Ok true /\
  neq wholes w_differ 1 w_mem (Ref 0 0) (Ref 0 1) = Ok true /\
  neq wholes w_differ 2 w_mem (Arr 2) (Arr 3) = Ok true /\
  neq wholes w_differ 2 w_mem (Arr 2) (Arr 2) = Ok false.
Proof.
  repeat match goal with |- _ /\ _ => split end; try solve [w_holds]; try reflexivity.
Qed.
Example C127_example :
  let after m o x := match assign wholes m o x with Ok (m', _) => nth_error m' 0 | _ => None end in
  after w_mem (Ref 0 0) (Ref 0 1) = Some (ECDouble, [Some (cd 3 0); Some (cd 3 4)]) /\
  after w_mem (Ref 0 0) (Arr 1) = Some (ECDouble, [Some (cd 5 6); Some (cd 3 4)]) /\
  after w_mem (Ref 0 0) (Ref 2 1) = Some (ECDouble, [Some (cd 3 0); Some (cd 3 4)]) /\
  after w_mem (Ref 0 0) (Imm (cf 7 8)) = Some (ECDouble, [Some (cd 7 0); Some (cd 3 4)]) /\
  assign wholes w_mem (Ref 2 0) (Ref 2 1) =
    Ok (set_nth w_mem 2 (ECFloat, [Some (cf 3 4); Some (cf 3 4)]), Ref 2 0) /\
  assign wholes w_mem (Ref 2 0) (Arr 1) = UB TypePun.
Proof. repeat split. Qed.
Example C128_example :
  (forall op x y, nty x = nty y -> nty (w_add op x y) = nty x) /\
  right_of wholes w_mem (Imm (cf 7 8)) (cd 7 0) /\
  operator_ wholes w_add CAdd w_mem (Arr 0) (Arr 1) =
    Ok (w_mem ++ [(ECDouble, [Some (cd 6 8); Some (cd 0 0)])], Arr 4) /\
  operator_assign wholes w_add CAdd w_mem (Arr 0) (Arr 1) =
    Ok (set_nth w_mem 0 (ECDouble, [Some (cd 6 8); Some (cd 3 4)]), Arr 0) /\
  operator_assign wholes w_add CAdd w_mem (Arr 2) (Imm (cf 7 8)) =
    Ok (set_nth w_mem 2 (ECFloat, [Some (cf 8 10); Some (cf 10 12)]), Arr 2) /\
  operator_assign wholes w_add CAdd w_mem (Arr 2) (Arr 3) =
    Ok (set_nth w_mem 2 (ECFloat, [Some (cf 2 4); Some (cf 6 9)]), Arr 2) /\
  operator_ wholes w_add CAdd w_mem (Imm (cf 7 8)) (Arr 1) = UB TypePun.
Proof.
  split; [|split].
  - intros op [ ] [ ]; simpl; congruence.
  - apply (right_number wholes w_mem (cf 7 8)). discriminate.
  - repeat split.
Qed.
Example C129_example :
  (forall x : num wholes, nty x = ECFloat -> nty (w_norm x) = EFloat) /\
  call wholes (real_alloc wholes) true w_norm w_mem (Arr 2) = Ok (w_mem ++ [(EFloat, [Some (@NFloat wholes 5%Z); Some (@NFloat wholes 25%Z)])], Arr 4) /\
  match call wholes (plain_alloc wholes) true w_conj w_mem (Arr 2) with Ok (m, Arr a) => nth_error m a | _ => None end =
    Some (ECFloat, [Some (cf 1 (-2)); Some (cf 3 (-4))]) /\
  match call wholes (real_alloc wholes) true w_norm w_mem (Arr 0) with Ok (_, v) => v | _ => Nil end = Imm (@NDouble wholes 5%Z) /\
  match call wholes (plain_alloc wholes) true w_conj w_mem (Arr 0) with Ok (m, Arr a) => nth_error m a | _ => None end =
    Some (ECDouble, [Some (cd 1 (-2))]) /\
  call wholes (plain_alloc wholes) false w_conj w_mem (Arr 2) = Throw "#F##::scalar: Unknown type".
Proof. split; [intros [ ]; simpl; congruence|]. repeat split. Qed.
Example C130_example :
  copy wholes w_mem (Arr 1) false = Throw "Heap::copy(): Unknown type" /\
  copy wholes [(EInt, [Some (@NInt wholes 3%Z)])] (Arr 0) false =
    Ok ([(EInt, [Some (@NInt wholes 3%Z)]); (EInt, [Some (@NInt wholes 3%Z)])], Arr 1) /\
  var_of_size wholes w_mem 3 (Imm (cf 7 8)) = Ok (w_mem ++ [(ECFloat, [Some (cf 7 8); Some (cf 7 8); Some (cf 7 8)])], Arr 4) /\
  var_of_size wholes w_mem 3 (Ref 0 1) = Ok (w_mem ++ [(ECDouble, [Some (cd 3 4); Some (cd 3 0); Some (cd 3 0)])], Arr 4) /\
  var_of_size wholes w_mem 3 (Arr 1) = Throw "initialise ctor: cannot init from array".
Proof. repeat split. Qed.
