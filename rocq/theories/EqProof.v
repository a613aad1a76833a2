(** Structural equality, and sorting. *)
From Coq Require Import ZArith Bool List Lia Sorting Permutation.
From Coq.Floats Require Import SpecFloat.
From Verif Require Import Base StrModel StrSpec StrProof ValModel ValSpec ValProof.
Import ListNotations.
Local Open Scope Z_scope.

(** Induction on values through their elements. *)
Section ValInd.
  Variable P : val -> Prop.
  Hypothesis Hnil : P VNil.
  Hypothesis Hchar : forall z, P (VChar z).
  Hypothesis Hint : forall z, P (VInt z).
  Hypothesis Hlong : forall z, P (VLong z).
  Hypothesis Hfloat : forall f, P (VFloat f).
  Hypothesis Hdouble : forall f, P (VDouble f).
  Hypothesis Harr : forall t l, Forall P l -> P (VArr t l).
  Hypothesis Hmap : forall l, Forall (fun p => P (fst p) /\ P (snd p)) l -> P (VMap l).
  Hypothesis Hview : forall d t l, Forall P l -> P (VView d t l).
  Fixpoint val_ind2 (v : val) : P v :=
    match v with
    | VNil => Hnil
    | VChar z => Hchar z
    | VInt z => Hint z
    | VLong z => Hlong z
    | VFloat f => Hfloat f
    | VDouble f => Hdouble f
    | VArr t l => Harr t l ((fix go l : Forall P l :=
        match l with [] => Forall_nil P | x :: l' => Forall_cons x (val_ind2 x) (go l') end) l)
    | VMap l => Hmap l ((fix go l : Forall (fun p => P (fst p) /\ P (snd p)) l :=
        match l with [] => Forall_nil (fun p => P (fst p) /\ P (snd p))
        | p :: l' => @Forall_cons _ (fun p => P (fst p) /\ P (snd p)) p l'
            (match p return P (fst p) /\ P (snd p) with (a, b) => conj (val_ind2 a) (val_ind2 b) end) (go l') end) l)
    | VView d t l => Hview d t l ((fix go l : Forall P l :=
        match l with [] => Forall_nil P | x :: l' => Forall_cons x (val_ind2 x) (go l') end) l)
    end.
End ValInd.

(** The element loop of [vneq], stated once for arrays and maps. *)
Fixpoint neq_list (def : bool) (l m : list val) : outcome bool :=
  match l with
  | [] => Ok false
  | x :: l' =>
    if negb def then UB NullDeref else
    match m with
    | [] => Throw range_error
    | y :: m' => let* r := vneq x y in if r : bool then Ok true else neq_list def l' m'
    end
  end.

Lemma vneq_arr : forall t l b, vneq (VArr t l) b =
  if negb (vtype (VArr t l) =? vtype b) then Ok true else
  if negb (vsize (VArr t l) =? vsize b) then Ok true else neq_list (vdefined b) l (own_elems b).
Proof.
  intros. cbn [vneq]. destruct (negb _); auto. destruct (negb _); auto.
  generalize (own_elems b). induction l; intros m; auto. cbn [neq_list].
  destruct (negb (vdefined b)); auto. destruct m; auto.
  destruct (vneq a v) as [[|]| | |]; cbn [obind]; auto.
Qed.
Lemma vneq_map : forall l b, vneq (VMap l) b =
  if negb (vtype (VMap l) =? vtype b) then Ok true else
  if negb (vsize (VMap l) =? vsize b) then Ok true else neq_list (vdefined b) (map snd l) (own_elems b).
Proof.
  intros. cbn [vneq]. destruct (negb _); auto. destruct (negb _); auto.
  generalize (own_elems b). induction l as [|[k x] l]; intros m; auto. cbn [neq_list map snd].
  destruct (negb (vdefined b)); auto. destruct m; auto.
  destruct (vneq x v) as [[|]| | |]; cbn [obind]; auto.
Qed.

Definition decides (a b : val) : Prop :=
  (vneq a b = Ok false /\ same a b) \/ (vneq a b = Ok true /\ ~ same a b).

Lemma neq_list_spec : forall l m, Forall (fun x => forall y, solid y -> decides x y) l -> Forall solid m ->
  length l = length m ->
  (neq_list true l m = Ok false /\ Forall2 same l m) \/ (neq_list true l m = Ok true /\ ~ Forall2 same l m).
Proof.
  induction l as [|x l]; destruct m as [|y m]; intros Hl Hm Hlen; try discriminate.
  - left. split; auto.
  - inversion Hl; subst. inversion Hm; subst. cbn [neq_list negb].
    destruct (H1 y H3) as [[E S]|[E S]]; rewrite E; cbn [obind].
    + destruct (IHl m H2 H4 ltac:(simpl in Hlen; lia)) as [[E' S']|[E' S']]; rewrite E'.
      * left. split; auto.
      * right. split; auto. intros X. inversion X; subst. auto.
    + right. split; auto. intros X. inversion X; subst. auto.
Qed.

Lemma Forall2_length : forall A B (R : A -> B -> Prop) l m, Forall2 R l m -> length l = length m.
Proof. induction 1; simpl; auto. Qed.

Lemma SFeqb_true : forall f g, SFeqb f g = true <-> SFcompare f g = Some Eq.
Proof. intros. unfold SFeqb. destruct (SFcompare f g) as [[| |]|]; split; congruence. Qed.

Lemma same_type : forall a b, same a b -> vtype a = vtype b.
Proof. destruct 1; reflexivity. Qed.
Lemma same_size : forall a b, same a b -> vsize a = vsize b.
Proof.
  destruct 1; unfold vsize; cbn; auto; apply Forall2_length in H; rewrite ?map_length in H; lia.
Qed.

Lemma vneq_decides : forall a, solid a -> forall b, solid b -> decides a b.
Proof.
  induction a using val_ind2; intros Ha b Hb.
  - inversion Ha.
  - destruct Hb; try (right; split; [reflexivity|intros X; inversion X]).
    unfold decides. cbn. destruct (Z.eqb_spec z z0); [left; subst; split; [auto|constructor]|right; split; auto; intros X; inversion X; congruence].
  - destruct Hb; try (right; split; [reflexivity|intros X; inversion X]).
    unfold decides. cbn. destruct (Z.eqb_spec z z0); [left; subst; split; [auto|constructor]|right; split; auto; intros X; inversion X; congruence].
  - destruct Hb; try (right; split; [reflexivity|intros X; inversion X]).
    unfold decides. cbn. destruct (Z.eqb_spec z z0); [left; subst; split; [auto|constructor]|right; split; auto; intros X; inversion X; congruence].
  - destruct Hb; try (right; split; [reflexivity|intros X; inversion X]).
    unfold decides. cbn. destruct (SFeqb f f0) eqn:E.
    + left. split; auto. constructor. apply SFeqb_true. auto.
    + right. split; auto. intros X. inversion X; subst. apply SFeqb_true in H1. congruence.
  - destruct Hb; try (right; split; [reflexivity|intros X; inversion X]).
    unfold decides. cbn. destruct (SFeqb f f0) eqn:E.
    + left. split; auto. constructor. apply SFeqb_true. auto.
    + right. split; auto. intros X. inversion X; subst. apply SFeqb_true in H1. congruence.
  - inversion Ha; subst. unfold decides. rewrite vneq_arr.
    destruct (Z.eqb_spec (vtype (VArr t l)) (vtype b)); cbn [negb].
    2:{ right. split; auto. intros X. apply same_type in X. congruence. }
    destruct (Z.eqb_spec (vsize (VArr t l)) (vsize b)); cbn [negb].
    2:{ right. split; auto. intros X. apply same_size in X. congruence. }
    assert (Hl : Forall (fun x => forall y, solid y -> decides x y) l).
    { rewrite Forall_forall in *. intros x Hx y Hy. apply H; auto. }
    unfold vsize in e0. destruct Hb; try discriminate; cbn in e0; cbn [vdefined own_elems].
    + destruct (neq_list_spec l l0 Hl H0 ltac:(lia)) as [[E S]|[E S]]; rewrite E.
      * left. split; auto. constructor; auto.
      * right. split; auto. intros X. inversion X; subst. auto.
    + destruct (neq_list_spec l (map snd l0) Hl H0 ltac:(rewrite map_length; lia)) as [[E S]|[E S]]; rewrite E.
      * left. split; auto. constructor; auto.
      * right. split; auto. intros X. inversion X; subst. auto.
  - inversion Ha; subst. unfold decides. rewrite vneq_map.
    destruct (Z.eqb_spec (vtype (VMap l)) (vtype b)); cbn [negb].
    2:{ right. split; auto. intros X. apply same_type in X. congruence. }
    destruct (Z.eqb_spec (vsize (VMap l)) (vsize b)); cbn [negb].
    2:{ right. split; auto. intros X. apply same_size in X. congruence. }
    assert (Hl : Forall (fun x => forall y, solid y -> decides x y) (map snd l)).
    { rewrite Forall_forall in *. intros x Hx y Hy. specialize (H1 x Hx). apply in_map_iff in Hx. destruct Hx as (p & <- & Hp).
      apply (H p Hp); auto. }
    unfold vsize in e0. destruct Hb; try discriminate; cbn in e0; cbn [vdefined own_elems].
    + destruct (neq_list_spec (map snd l) l0 Hl H0 ltac:(rewrite map_length; lia)) as [[E S]|[E S]]; rewrite E.
      * left. split; auto. constructor; auto.
      * right. split; auto. intros X. inversion X; subst. auto.
    + destruct (neq_list_spec (map snd l) (map snd l0) Hl H0 ltac:(rewrite !map_length; lia)) as [[E S]|[E S]]; rewrite E.
      * left. split; auto. constructor; auto.
      * right. split; auto. intros X. inversion X; subst. auto.
  - inversion Ha.
Qed.

(** == is an equivalence on NaN-free solid values. *)
Lemma SFcompare_nan : forall f g c, SFcompare f g = Some c -> f <> S754_nan /\ g <> S754_nan.
Proof. intros [|[]| |[] ? ?] [|[]| |[] ? ?] c H; simpl in H; split; congruence. Qed.

Lemma Forall2_refl_in : forall A (R : A -> A -> Prop) l, Forall (fun x => R x x) l -> Forall2 R l l.
Proof. induction 1; auto. Qed.

Lemma same_refl : forall a, nan_free a -> same a a.
Proof.
  induction a using val_ind2; intros Ha; inversion Ha; subst; try constructor.
  - rewrite SFcompare_lex, lex_refl by auto. auto.
  - rewrite SFcompare_lex, lex_refl by auto. auto.
  - apply Forall2_refl_in. rewrite Forall_forall in *. intros x Hx. apply H; auto.
  - apply Forall2_refl_in. rewrite Forall_forall in *. intros x Hx. specialize (H1 x Hx).
    apply in_map_iff in Hx. destruct Hx as (p & <- & Hp). apply (H p Hp); auto.
Qed.

Lemma same_sym : forall a b, same a b -> same b a.
Proof.
  assert (L : forall l m, Forall (fun x => forall y, same x y -> same y x) l -> Forall2 same l m -> Forall2 same m l).
  { intros l m H F. induction F; auto. inversion H; subst. constructor; auto. }
  induction a using val_ind2; intros b Hb; inversion Hb; subst; try constructor.
  - destruct (SFcompare_nan _ _ _ H0). rewrite SFcompare_lex in * by auto. rewrite lex_antisym.
    inversion H0. rewrite H3. reflexivity.
  - destruct (SFcompare_nan _ _ _ H0). rewrite SFcompare_lex in * by auto. rewrite lex_antisym.
    inversion H0. rewrite H3. reflexivity.
  - apply L; auto.
  - apply L; auto.
  - apply L; auto. rewrite Forall_forall in *. intros x Hx. apply in_map_iff in Hx. destruct Hx as (p & <- & Hp). apply (H p Hp).
  - apply L; auto. rewrite Forall_forall in *. intros x Hx. apply in_map_iff in Hx. destruct Hx as (p & <- & Hp). apply (H p Hp).
Qed.

Lemma same_trans : forall a b c, same a b -> same b c -> same a c.
Proof.
  assert (L : forall l m n, Forall (fun x => forall y z, same x y -> same y z -> same x z) l ->
     Forall2 same l m -> Forall2 same m n -> Forall2 same l n).
  { intros l m n H F. revert n. induction F; intros n G; inversion G; subst; auto. inversion H; subst. constructor; eauto. }
  assert (S : forall f g h, SFcompare f g = Some Eq -> SFcompare g h = Some Eq -> SFcompare f h = Some Eq).
  { intros f g h A B. destruct (SFcompare_nan _ _ _ A). destruct (SFcompare_nan _ _ _ B).
    rewrite SFcompare_lex in * by auto. inversion A. inversion B. apply lex_eq in H4. apply lex_eq in H5.
    rewrite H4, H5, lex_refl. auto. }
  induction a using val_ind2; intros b c Hb Hc; inversion Hb; subst; inversion Hc; subst; try constructor; eauto.
  all: eapply L; [|eassumption|eassumption].
  all: rewrite Forall_forall in *; intros x Hx; apply in_map_iff in Hx; destruct Hx as (p & <- & Hp); apply (H p Hp).
Qed.

(** Sorting. *)
Section Sort.
  Variable P : val -> Prop.
  Variable lt : val -> val -> bool.
  Hypothesis Hlt : forall x y, P x -> P y -> vlt x y = Ok (lt x y).
  Hypothesis SW : strict_weak P lt.

  Definition le (a b : val) : Prop := lt b a = false.

  Lemma sort_loop_ok : forall l r, Forall P l -> Forall P r -> StronglySorted le r ->
    exists r', sort_loop l r = Ok r' /\ Permutation (l ++ r) r' /\ StronglySorted le r' /\ Forall P r'.
  Proof.
    induction l as [|x l]; intros r Hl Hr Hs.
    - exists r. repeat split; auto.
    - inversion Hl; subst. cbn [sort_loop].
      assert (Hp : exists n, (n <= length r)%nat /\ forall i y, nth_error r i = Some y -> (lt y x = true <-> (i < n)%nat)).
      { apply (partition_point (fun y => lt y x)). intros i j a b Hij Ha Hb Hb'.
        assert (Pa : P a) by (rewrite Forall_forall in Hr; eapply Hr, nth_error_In; eauto).
        assert (Pb : P b) by (rewrite Forall_forall in Hr; eapply Hr, nth_error_In; eauto).
        assert (Hab : le a b).
        { clear - Hs Hij Ha Hb. revert i j Hij Ha Hb. induction Hs; intros i j Hij Ha Hb; [destruct i; discriminate|].
          destruct i as [|i]; destruct j as [|j]; try lia.
          - simpl in *. inversion Ha; subst. rewrite Forall_forall in H. apply H. eapply nth_error_In; eauto.
          - simpl in *. apply (IHHs i j); auto; lia. }
        destruct (sw_neg _ _ SW b a x Pb Pa H1 Hb'); auto. unfold le in Hab. congruence. }
      destruct Hp as (n & Hn & Hp).
      assert (Hb : binary r x = Ok (Z.of_nat n)).
      { apply (binary_bound (fun y => lt y x)); auto. intros y Hy. apply Hlt; auto. rewrite Forall_forall in Hr; auto. }
      rewrite Hb. cbn [obind]. rewrite insert_var_ok by auto. cbn [obind].
      set (r1 := firstn n r) in *. set (r2 := skipn n r) in *.
      assert (Er : r = r1 ++ r2) by (symmetry; apply firstn_skipn).
      assert (L1 : length r1 = n) by (apply firstn_length_le; auto).
      assert (P1 : Forall (fun y => lt y x = true) r1).
      { apply Forall_forall. intros y Hy. apply In_nth_error in Hy. destruct Hy as [i Hi].
        assert (i < length r1)%nat by (apply nth_error_Some; congruence).
        apply (Hp i); [|lia]. rewrite Er, nth_error_app1; auto. }
      assert (P2 : Forall (fun y => lt y x = false) r2).
      { apply Forall_forall. intros y Hy. apply In_nth_error in Hy. destruct Hy as [i Hi].
        destruct (lt y x) eqn:E; auto. apply (Hp (n + i)%nat) in E; [lia|].
        rewrite Er, nth_error_app2 by lia. rewrite <- Hi. f_equal. lia. }
      assert (Hr12 : Forall P r1 /\ Forall P r2) by (apply Forall_app; rewrite <- Er; auto).
      destruct Hr12 as [Hr1 Hr2].
      destruct (IHl (r1 ++ x :: r2)) as (r' & E & Hperm & Hsort & HP); auto.
      { apply Forall_app. split; auto. }
      { clear - Hs Er P1 P2 Hr1 Hr2 H1 SW. rewrite Er in Hs. clear Er.
        revert Hs P1 Hr1. generalize r1 as a. induction a as [|y a]; intros Hs P1 Hr1; simpl in *.
        - constructor; auto.
        - inversion Hs; subst. inversion P1; subst. inversion Hr1; subst. constructor; auto.
          apply Forall_app in H3. destruct H3. apply Forall_app. split; auto. constructor; auto.
          unfold le. destruct (lt x y) eqn:E; auto.
          pose proof (sw_trans _ _ SW x y x H1 H6 H1 E H4) as T. rewrite (sw_irrefl _ _ SW x H1) in T. discriminate. }
      exists r'. split; auto. split; auto.
      eapply Permutation_trans; [|exact Hperm]. rewrite Er at 1.
      change ((x :: l) ++ r1 ++ r2) with (x :: l ++ r1 ++ r2).
      rewrite app_assoc. rewrite app_assoc. apply Permutation_middle.
  Qed.
End Sort.
