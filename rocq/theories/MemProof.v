(** Counting the holders of arrays; [release] keeps the counts right. *)
From Coq Require Import ZArith Bool List String Lia.
From Verif Require Import Base StrModel ValModel NumModel AllocModel MemModel.
Import ListNotations.
Local Open Scope list_scope.
Local Open Scope mem_scope.
Local Notation length := List.length.

(** * Lists *)
Lemma sn_length : forall A (l : list A) i x, length (set_nth l i x) = length l.
Proof. induction l; destruct i; simpl; auto. Qed.
Lemma sn_same : forall A (l : list A) i x, (i < length l)%nat -> nth_error (set_nth l i x) i = Some x.
Proof. induction l; destruct i; simpl; intros; try lia; auto. apply IHl; lia. Qed.
Lemma sn_other : forall A (l : list A) i j x, i <> j -> nth_error (set_nth l i x) j = nth_error l j.
Proof. induction l; destruct i, j; simpl; intros; auto; try congruence. Qed.
Lemma sn_twice : forall A (l : list A) i x y, set_nth (set_nth l i x) i y = set_nth l i y.
Proof. induction l; destruct i; simpl; intros; auto. f_equal; auto. Qed.
Lemma sn_id : forall A (l : list A) i x, nth_error l i = Some x -> set_nth l i x = l.
Proof. induction l; destruct i; simpl; intros; try congruence. f_equal; auto. Qed.
Lemma sn_swap : forall A (l : list A) i j x y, i <> j ->
  set_nth (set_nth l i x) j y = set_nth (set_nth l j y) i x.
Proof. induction l; destruct i, j; simpl; intros; auto; try congruence. f_equal; auto. Qed.
Lemma sn_none : forall A (l : list A) i x, (length l <= i)%nat -> set_nth l i x = l.
Proof. induction l; destruct i; simpl; intros; auto; try lia. f_equal; apply IHl; lia. Qed.
Lemma sn_nth : forall A (l : list A) i j x d,
  nth j (set_nth l i x) d = if (Nat.eqb i j && Nat.ltb j (length l))%bool then x else nth j l d.
Proof.
  induction l; destruct i, j; simpl; intros; auto.
  - destruct (Nat.eqb i j); auto.
  - rewrite IHl. reflexivity.
Qed.
Lemma ne_lt : forall A (l : list A) i x, nth_error l i = Some x -> (i < length l)%nat.
Proof. intros. apply nth_error_Some. congruence. Qed.
Lemma ne_some : forall A (l : list A) i, (i < length l)%nat -> exists x, nth_error l i = Some x.
Proof. intros. destruct (nth_error l i) eqn:E; eauto. apply nth_error_None in E. lia. Qed.

(** * Counting *)
Definition occ1 (l : nat) (v : mvar) : nat :=
  match target v with Some k => if Nat.eqb k l then 1 else 0 | None => 0 end.
Fixpoint occ (l : nat) (vs : list mvar) : nat :=
  match vs with [] => 0 | v :: t => occ1 l v + occ l t end.
Definition occo (l : nat) (o : option hobj) : nat :=
  match o with Some o => occ l (contents o) | None => 0 end.
Fixpoint occm (l : nat) (m : list (option hobj)) : nat :=
  match m with [] => 0 | o :: t => occo l o + occm l t end.

Lemma occ_app : forall l a b, occ l (a ++ b) = occ l a + occ l b.
Proof. induction a; simpl; intros; auto. rewrite IHa. lia. Qed.
Lemma occm_app : forall l a b, occm l (a ++ b) = occm l a + occm l b.
Proof. induction a; simpl; intros; auto. rewrite IHa. lia. Qed.
Lemma occ_in : forall l v vs, In v vs -> target v = Some l -> 1 <= occ l vs.
Proof.
  induction vs; simpl; intros; [contradiction|]. destruct H.
  - subst. unfold occ1. rewrite H0, Nat.eqb_refl. lia.
  - specialize (IHvs H H0). lia.
Qed.
Lemma occ_sn : forall k vs i x y, nth_error vs i = Some x ->
  occ k (set_nth vs i y) + occ1 k x = occ k vs + occ1 k y.
Proof.
  induction vs; destruct i; simpl; intros; try congruence.
  - inversion H; subst. lia.
  - specialize (IHvs _ _ y H). lia.
Qed.
Lemma occm_sn : forall k m i x y, nth_error m i = Some x ->
  occm k (set_nth m i y) + occo k x = occm k m + occo k y.
Proof.
  induction m; destruct i; simpl; intros; try congruence.
  - inversion H; subst. lia.
  - specialize (IHm _ _ y H). lia.
Qed.
Lemma occm_in : forall k m i o, nth_error m i = Some (Some o) -> occ k (contents o) <= occm k m.
Proof.
  induction m; destruct i; simpl; intros; try congruence.
  - inversion H; subst. simpl. lia.
  - specialize (IHm _ _ H). lia.
Qed.

Definition cell_occ (k : nat) (c : list (mvar * mvar)) : nat := occ k (flat_map (fun c => [fst c; snd c]) c).
Lemma cell_occ_app : forall k a b, cell_occ k (a ++ b) = cell_occ k a + cell_occ k b.
Proof. intros. unfold cell_occ. rewrite flat_map_app, occ_app. reflexivity. Qed.
Lemma cell_occ_cons : forall k c b, cell_occ k (c :: b) = occ1 k (fst c) + occ1 k (snd c) + cell_occ k b.
Proof. intros. unfold cell_occ. simpl. lia. Qed.
Lemma cell_occ_sn : forall k c i x y, nth_error c i = Some x ->
  cell_occ k (set_nth c i y) + (occ1 k (fst x) + occ1 k (snd x)) =
  cell_occ k c + (occ1 k (fst y) + occ1 k (snd y)).
Proof.
  induction c; destruct i; simpl; intros; try congruence.
  - inversion H; subst. rewrite !cell_occ_cons. lia.
  - rewrite !cell_occ_cons. specialize (IHc _ _ y H). lia.
Qed.
Definition view_occ (k : nat) (v : option nat) : nat :=
  match v with Some t => occ1 k (MPtr t) | None => 0 end.
Lemma occ_contents : forall k o, occ k (contents o) = cell_occ k (h_cells o) + view_occ k (h_view o).
Proof. intros. unfold contents. rewrite occ_app. unfold cell_occ. destruct (h_view o); simpl; lia. Qed.
Lemma occ_fresh : forall k t n, cell_occ k (repeat (fresh t) n) = 0.
Proof.
  induction n; [reflexivity|]. simpl. rewrite cell_occ_cons, IHn. unfold fresh.
  destruct (varlike t); reflexivity.
Qed.

(** * The invariant *)
(** Holders of [l]: stack, values under way, live objects. *)
Definition tot (l : nat) (F : list mvar) (s : state) : nat :=
  occ l (stk s) + occ l F + occm l (mem s).
Definition live (l : nat) (s : state) : Prop := exists o, nth_error (mem s) l = Some (Some o).
Definition rcount (l : nat) (s : state) : nat := nth l (rc s) 0.

Definition Inv (e : nat -> nat) (F : list mvar) (s : state) : Prop :=
  length (rc s) = length (mem s) /\
  forall l, match nth_error (mem s) l with
            | Some (Some _) => rcount l s = tot l F s + e l /\ 0 < rcount l s
            | _ => tot l F s = 0
            end.

Lemma inv_live : forall e F s l, Inv e F s -> 1 <= tot l F s -> live l s.
Proof.
  intros e F s l [_ H] T. specialize (H l). unfold live.
  destruct (nth_error (mem s) l) as [[o|]|]; eauto; lia.
Qed.
Lemma inv_stk : forall e F s v l, Inv e F s -> In v (stk s) -> target v = Some l -> live l s.
Proof.
  intros. apply (inv_live e F); auto. pose proof (occ_in _ _ _ H0 H1). unfold tot. lia.
Qed.
Lemma inv_flight : forall e F s v l, Inv e F s -> In v F -> target v = Some l -> live l s.
Proof.
  intros. apply (inv_live e F); auto. pose proof (occ_in _ _ _ H0 H1). unfold tot. lia.
Qed.
Lemma inv_cell : forall e F s i o v l, Inv e F s -> nth_error (mem s) i = Some (Some o) ->
  In v (contents o) -> target v = Some l -> live l s.
Proof.
  intros. apply (inv_live e F); auto. pose proof (occ_in _ _ _ H1 H2).
  pose proof (occm_in l _ _ _ H0). unfold tot. lia.
Qed.

(** The invariant depends on the holders only through their number. *)
Lemma inv_same : forall e F F' s s', Inv e F s ->
  length (mem s') = length (mem s) -> rc s' = rc s ->
  (forall l, live l s <-> live l s') ->
  (forall l, tot l F' s' = tot l F s) -> Inv e F' s'.
Proof.
  intros e F F' s s' [L H] Lm R Lv T. split; [congruence|]. intros l. specialize (H l).
  rewrite T. unfold rcount in *. rewrite R.
  pose proof (Lv l) as E. unfold live in E.
  destruct (nth_error (mem s) l) as [[o|]|] eqn:A; destruct (nth_error (mem s') l) as [[o'|]|] eqn:B; auto.
  all: try (destruct E as [E _]; destruct E as [? E]; [eauto|congruence]).
  all: try (destruct E as [_ E]; destruct E as [? E]; [eauto|congruence]).
Qed.
Lemma inv_perm : forall e F F' s, Inv e F s -> (forall l, occ l F' = occ l F) -> Inv e F' s.
Proof.
  intros. eapply inv_same; eauto. { intros; tauto. } intros. unfold tot. rewrite H0. reflexivity.
Qed.
Lemma inv_drop0 : forall e v F s, Inv e (v :: F) s -> target v = None -> Inv e F s.
Proof. intros. eapply inv_perm; eauto. intros. simpl. unfold occ1. rewrite H0. lia. Qed.
Lemma inv_add0 : forall e v F s, Inv e F s -> target v = None -> Inv e (v :: F) s.
Proof. intros. eapply inv_perm; eauto. intros. simpl. unfold occ1. rewrite H0. lia. Qed.

(** * Footprints *)
(** Between two states: objects are freed or unchanged, except that those in [X] may have
    changed cells and size, and those in [G] may have been re-allocated; stack slots in [K]
    are unchanged.  The numbers in a dense array may always have changed: a view that is
    assigned to writes them wherever they are. *)
Record ctx := mkctx { cX : nat -> Prop; cG : nat -> Prop; cK : nat -> Prop }.
Definition obj_rel (X G : Prop) (o o' : hobj) : Prop :=
  h_ty o' = h_ty o /\ h_view o' = h_view o /\
  (~ G -> h_gen o' = h_gen o /\ length (h_cells o') = length (h_cells o)) /\
  (~ X -> o' = o \/ varlike (h_ty o) = false /\ forall v l, target v = Some l -> In v (contents o) -> In v (contents o')).
Definition fp (c : ctx) (s s' : state) : Prop :=
  length (mem s) <= length (mem s') /\
  length (stk s') = length (stk s) /\
  (forall l o', l < length (mem s) -> nth_error (mem s') l = Some (Some o') ->
     exists o, nth_error (mem s) l = Some (Some o) /\ obj_rel (cX c l) (cG c l) o o') /\
  (forall j, cK c j -> nth_error (stk s') j = nth_error (stk s) j).

Lemma obj_rel_refl : forall X G o, obj_rel X G o o.
Proof. unfold obj_rel; intuition. Qed.
Lemma obj_rel_trans : forall X G a b c, obj_rel X G a b -> obj_rel X G b c -> obj_rel X G a c.
Proof.
  intros X G a b c (T1 & V1 & G1 & X1) (T2 & V2 & G2 & X2). unfold obj_rel.
  split; [congruence|]. split; [congruence|]. split.
  - intros N. destruct (G1 N), (G2 N). split; congruence.
  - intros N. destruct (X1 N) as [->|[D1 H1]], (X2 N) as [->|[D2 H2]]; auto. right. split; auto. intros v l Hv Hi. eauto.
Qed.
Lemma fp_refl : forall c s, fp c s s.
Proof.
  intros. unfold fp; repeat split; auto. intros. exists o'. split; auto. apply obj_rel_refl.
Qed.
Lemma fp_trans : forall c a b d, fp c a b -> fp c b d -> fp c a d.
Proof.
  intros c a b d (L1 & S1 & O1 & K1) (L2 & S2 & O2 & K2).
  unfold fp; repeat split; try lia.
  - intros l o' Hl H. destruct (O2 l o') as (o1 & A & B); auto; [lia|].
    destruct (O1 l o1) as (o0 & A0 & B0); auto. exists o0. split; auto. eapply obj_rel_trans; eauto.
  - intros. rewrite K2, K1; auto.
Qed.
Lemma fp_weaken : forall c c' s s', fp c s s' ->
  (forall l, cX c l -> cX c' l) -> (forall l, cG c l -> cG c' l) -> (forall j, cK c' j -> cK c j) ->
  fp c' s s'.
Proof.
  intros c c' s s' (L & S & O & K) HX HG HK. unfold fp; repeat split; auto.
  intros l o' Hl H. destruct (O l o') as (o & A & B); auto. exists o. split; auto.
  unfold obj_rel in *. intuition.
Qed.
Definition nothing : ctx := mkctx (fun _ => False) (fun _ => False) (fun _ => True).
Lemma fp_nothing : forall c s s', fp nothing s s' -> fp c s s'.
Proof. intros. eapply fp_weaken; eauto; simpl; tauto. Qed.
Lemma fp_live : forall c s s' l, fp c s s' -> l < length (mem s) -> live l s' -> live l s.
Proof. intros c s s' l (_ & _ & O & _) Hl [o' H]. destruct (O l o') as (o & A & _); auto. exists o; auto. Qed.

(** Between two states: objects are freed or unchanged. *)
Definition gone (s s' : state) : Prop :=
  length (mem s') = length (mem s) /\ stk s' = stk s /\
  forall l o, nth_error (mem s') l = Some (Some o) -> nth_error (mem s) l = Some (Some o).
Lemma gone_refl : forall s, gone s s.
Proof. unfold gone; auto. Qed.
Lemma gone_fp : forall c s s', gone s s' -> fp c s s'.
Proof.
  intros c s s' (L & S & H). unfold fp. rewrite L, S. repeat split; auto. intros l o' _ O. exists o'. split; auto. apply obj_rel_refl.
Qed.

(** * release *)
Lemma weight_sn : forall m l o, nth_error m l = Some (Some o) ->
  weight (set_nth m l None) + length (contents o) = weight m.
Proof.
  induction m; destruct l; simpl; intros; try congruence.
  - inversion H; subst. simpl. lia.
  - specialize (IHm _ _ H). lia.
Qed.

Lemma release_loop_ok : forall fuel w e F s, Inv e (w ++ F) s ->
  length w + weight (mem s) < fuel ->
  exists s', release_loop fuel w s = ROk tt s' /\ Inv e F s' /\ gone s s' /\ stk s' = stk s /\
             length (mem s') = length (mem s).
Proof.
  induction fuel; intros w e F s H Hf; [lia|].
  destruct w as [|v w].
  { exists s. split; [reflexivity|]. split; [exact H|]. split; [apply gone_refl|auto]. }
  simpl. destruct (target v) as [l|] eqn:T.
  2:{ destruct (IHfuel w e F s) as (s' & A); [|simpl in Hf; lia|].
      - apply (inv_drop0 e v); auto.
      - eauto. }
  assert (Lv : live l s) by (apply (inv_flight e (v :: w ++ F) s v); simpl; auto).
  destruct Lv as [o Ho]. rewrite Ho.
  pose proof H as [HL HI]. pose proof (HI l) as Hl. rewrite Ho in Hl. destruct Hl as [Hc Hp].
  assert (Hlt : l < length (mem s)) by (eapply ne_lt; eauto).
  unfold rcount in Hc, Hp. unfold tot in Hc. simpl in Hc. unfold occ1 in Hc at 1. rewrite T, Nat.eqb_refl in Hc.
  destruct (nth l (rc s) 0) as [|[|n]] eqn:R; [lia| |].
  - (* freed *)
    pose proof (occm_in l _ _ _ Ho) as Hin.
    edestruct (IHfuel (contents o ++ w) e F) as (s' & A & B & C & D & E); cycle 2.
    { exists s'. split; [exact A|]. split; auto. split; [|split; [exact D|]].
      - destruct C as (C1 & C2 & C3). simpl in *. rewrite sn_length in *.
        unfold gone; repeat split; auto.
        intros k o' Hm. pose proof (C3 k o' Hm) as P.
        destruct (Nat.eq_dec l k) as [<-|Ne].
        + rewrite sn_same in P; [congruence|auto].
        + rewrite sn_other in P; eauto.
      - simpl in E. rewrite sn_length in E. auto. }
    + split; simpl; [rewrite !sn_length; auto|].
      intros k. specialize (HI k). unfold tot, rcount in *. simpl in *.
      pose proof (occm_sn k _ _ _ None Ho) as Hm. simpl in Hm.
      destruct (Nat.eq_dec l k) as [<-|Ne].
      * rewrite sn_same by auto. rewrite !occ_app in *. lia.
      * rewrite sn_other by auto. rewrite sn_nth.
        replace (Nat.eqb l k) with false by (symmetry; apply Nat.eqb_neq; auto). simpl.
        assert (Z1 : occ1 k v = 0).
        { unfold occ1. rewrite T. replace (Nat.eqb l k) with false by (symmetry; apply Nat.eqb_neq; auto). auto. }
        rewrite !occ_app in *. rewrite Z1 in HI.
        destruct (nth_error (mem s) k) as [[o1|]|]; lia.
    + simpl. rewrite app_length. pose proof (weight_sn _ _ _ Ho). simpl in Hf. lia.
  - (* counted down *)
    edestruct (IHfuel w e F) as (s' & A & B & C & D & E); cycle 2.
    { exists s'. split; [exact A|]. split; auto. }
    + split; simpl; [rewrite !sn_length; auto|].
      intros k. specialize (HI k). unfold tot, rcount in *. simpl in *. rewrite sn_nth.
      destruct (Nat.eq_dec l k) as [<-|Ne].
      * rewrite Nat.eqb_refl. rewrite HL. replace (Nat.ltb l (length (mem s))) with true by (symmetry; apply Nat.ltb_lt; auto).
        simpl. rewrite Ho. lia.
      * replace (Nat.eqb l k) with false by (symmetry; apply Nat.eqb_neq; auto). simpl.
        assert (Z1 : occ1 k v = 0).
        { unfold occ1. rewrite T. replace (Nat.eqb l k) with false by (symmetry; apply Nat.eqb_neq; auto). auto. }
        rewrite Z1 in HI. auto.
    + simpl. simpl in Hf. lia.
Qed.
Lemma release_ok : forall w e F s, Inv e (w ++ F) s ->
  exists s', release w s = ROk tt s' /\ Inv e F s' /\ gone s s' /\ stk s' = stk s /\
             length (mem s') = length (mem s).
Proof. intros. apply release_loop_ok; auto. Qed.
