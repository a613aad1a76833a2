(** From the invariant to the properties as specified. *)
From Coq Require Import ZArith Bool List String Lia.
From Verif Require Import Base StrModel ValModel NumModel AllocModel MemModel MemProof MemFun MemEq MemDeref MemTriple MemOps MemArr MemMeth MemTop MemCall MemMore MemKey MemRun MemSpec.
Import ListNotations.
Local Open Scope list_scope.
Local Open Scope mem_scope.
Local Notation length := List.length.

(** * Counting *)
Lemma hit_occ : forall l x, hit l x = occ1 l x.
Proof. intros l x. destruct x; reflexivity. Qed.
Lemma hits_occ : forall l v, list_sum (map (hit l) v) = occ l v.
Proof. induction v; simpl; auto. rewrite hit_occ. rewrite <- IHv. reflexivity. Qed.
Lemma hits_in_occ : forall l o, hits_in l o = occo l o.
Proof.
  intros l [o|]; [|reflexivity]. simpl. rewrite occ_contents. f_equal.
  induction (h_cells o) as [|c r IH]; [reflexivity|]. rewrite cell_occ_cons. simpl. rewrite <- IH, !hit_occ. reflexivity.
Qed.
Lemma holders_tot : forall l s, holders l s = tot l [] s.
Proof.
  intros l s. unfold holders, tot. rewrite hits_occ. simpl. rewrite Nat.add_0_r. f_equal.
  induction (mem s); simpl; auto. rewrite hits_in_occ. rewrite <- IHl0. reflexivity.
Qed.
Lemma refers_target : forall x l, refers x l <-> target x = Some l.
Proof.
  intros x l. unfold refers. destruct x; simpl; split; intros H; try discriminate; try (destruct H as [H|[k H]]; discriminate).
  - destruct H as [H|[k H]]; inversion H; auto.
  - inversion H; auto.
  - destruct H as [H|[k H]]; inversion H; auto.
  - inversion H; eauto.
Qed.
Lemma inside_contents : forall s k l, inside s k l <-> exists o v, obj k s = Some o /\ In v (contents o) /\ target v = Some l.
Proof.
  intros s k l. unfold inside, contents. split.
  - intros (o & O & H). apply obj_live in O. exists o. destruct H as [V|(c & C & [R|R])].
    + exists (MPtr l). split; auto. split; auto. apply in_or_app. right. rewrite V. left; auto.
    + exists (fst c). split; auto. split; [|apply refers_target; auto]. apply in_or_app. left. apply in_flat_map. exists c. split; auto. left; auto.
    + exists (snd c). split; auto. split; [|apply refers_target; auto]. apply in_or_app. left. apply in_flat_map. exists c. split; auto. right; left; auto.
  - intros (o & v & O & V & T). exists o. split; [apply obj_live; auto|]. apply in_app_or in V as [V|V].
    + right. apply in_flat_map in V as (c & C & V). exists c. split; auto. destruct V as [<-|[<-|[]]]; [left|right]; apply refers_target; auto.
    + left. destruct (h_view o); [|destruct V]. destruct V as [<-|[]]. simpl in T. congruence.
Qed.
Lemma INV_spec : forall e s, INV e [] s -> forall l,
  (0 < holders l s -> allocated l s) /\
  (forall o, nth_error (mem s) l = Some (Some o) -> exists n, count l s n /\ n = holders l s + e l /\ 0 < n).
Proof.
  intros e s ((L & H) & T & E) l. specialize (H l). rewrite holders_tot. unfold allocated, count. split.
  - intros P. destruct (nth_error (mem s) l) as [[o|]|]; [eauto|lia|lia].
  - intros o O. rewrite O in H. destruct H as [H1 H2]. exists (rcount l s). split; [|auto].
    unfold rcount. apply nth_error_nth'. rewrite L. apply nth_error_Some. congruence.
Qed.

(** * Release *)
Lemma occ_ex : forall l vs, 0 < occ l vs -> exists v, In v vs /\ target v = Some l.
Proof.
  induction vs; simpl; intros H; [lia|]. unfold occ1 in H. destruct (target a) as [k|] eqn:T.
  - destruct (Nat.eqb_spec k l).
    + subst. exists a. auto.
    + destruct IHvs as (v & A & B); [lia|]. exists v. auto.
  - destruct IHvs as (v & A & B); [lia|]. exists v. auto.
Qed.
Lemma occm_ex : forall l m, 0 < occm l m -> exists k o, nth_error m k = Some (Some o) /\ 0 < occ l (contents o).
Proof.
  induction m; simpl; intros H; [lia|]. destruct (Nat.eq_dec (occo l a) 0) as [Z|Z].
  - destruct IHm as (k & o & A & B); [lia|]. exists (S k), o. auto.
  - destruct a as [o|]; simpl in Z; [|congruence]. exists 0, o. split; auto. lia.
Qed.
Lemma max_live : forall (s : state) (rank : nat -> nat) l, allocated l s -> exists m, allocated m s /\ forall k, allocated k s -> rank k <= rank m.
Proof.
  intros s rank l0 L0.
  assert (B : forall n, (exists m, m < n /\ allocated m s /\ forall k, k < n -> allocated k s -> rank k <= rank m) \/ (forall k, k < n -> ~ allocated k s)).
  { induction n; [right; intros; lia|].
    assert (D : allocated n s \/ ~ allocated n s).
    { unfold allocated. destruct (nth_error (mem s) n) as [[o|]|]; [left; eauto|right; intros [o H]; discriminate|right; intros [o H]; discriminate]. }
    destruct IHn as [(m & M1 & M2 & M3)|N].
    - left. destruct D as [D|D].
      + destruct (le_lt_dec (rank n) (rank m)).
        * exists m. split; [lia|]. split; auto. intros k K A. destruct (Nat.eq_dec k n); [subst; auto|apply M3; auto; lia].
        * exists n. split; [lia|]. split; auto. intros k K A. destruct (Nat.eq_dec k n); [subst; auto|]. specialize (M3 k). assert (k < n) by lia. specialize (M3 H A). lia.
      + exists m. split; [lia|]. split; auto. intros k K A. destruct (Nat.eq_dec k n); [subst; contradiction|apply M3; auto; lia].
    - destruct D as [D|D].
      + left. exists n. split; [lia|]. split; auto. intros k K A. destruct (Nat.eq_dec k n); [subst; auto|]. exfalso. apply (N k); auto. lia.
      + right. intros k K A. destruct (Nat.eq_dec k n); [subst; auto|]. apply (N k); auto. lia. }
  assert (Lt : forall k, allocated k s -> k < length (mem s)) by (intros k [o O]; apply nth_error_Some; congruence).
  destruct (B (length (mem s))) as [(m & M1 & M2 & M3)|N]; [|exfalso; apply (N l0); auto].
  exists m. split; auto.
Qed.
Lemma released : forall s, INV (fun _ => 0) [] s -> stk s = [] -> acyclic s -> forall l, ~ allocated l s.
Proof.
  intros s I S (rank & R) l A. destruct (max_live s rank l A) as (m & (o & O) & M).
  destruct (proj2 (INV_spec _ _ I m) o O) as (n & _ & N & P). rewrite holders_tot in N. unfold tot in N. rewrite S in N. simpl in N.
  destruct (occm_ex m (mem s)) as (k & ok & K1 & K2); [lia|]. destruct (occ_ex _ _ K2) as (v & V1 & V2).
  assert (In1 : inside s k m) by (apply inside_contents; exists ok, v; split; [apply obj_live; auto|auto]).
  specialize (R _ _ In1). assert (allocated k s) by (exists ok; auto). specialize (M k H). lia.
Qed.

(** * Guards *)
Lemma plain_of_vars : forall s l o, obj l s = Some o -> plain_vars o = true -> of_vars s l.
Proof.
  intros s l o O P. exists o. split; [apply obj_live; auto|]. unfold plain_vars in P. destruct (h_view o); [discriminate|].
  split; auto. destruct (h_ty o) as [[]|]; auto; discriminate.
Qed.
Lemma cont_element : forall s j l k o, getv (LS j) s = Some (MRef l k) -> obj l s = Some o -> plain_vars o = true -> element_ref s j l k.
Proof. intros s j l k o G O P. split; [exact G|eapply plain_of_vars; eauto]. Qed.
Lemma tgt_element : forall s j l k o x, getv (LS j) s = Some (MRef l k) -> obj l s = Some o -> plain_vars o = true ->
  tgt s (LS j) x -> exists y, element s l k y /\ refers y x.
Proof.
  intros s j l k o x G O P (v & y & V & D & T). assert (v = MRef l k) by congruence. subst v. simpl in D.
  destruct D as (o1 & O1 & D). assert (o1 = o) by congruence. subst o1. rewrite P in D. destruct D as (a & N & _).
  exists y. split; [exists o, a; split; [apply obj_live; auto|auto]|apply refers_target; auto].
Qed.
Lemma guard_apart : forall s j, not_itself s j -> apart_of s (LS j).
Proof.
  intros s j H l (k & o & G & O & P) T. destruct (tgt_element _ _ _ _ _ _ G O P T) as (y & Y & R).
  apply (H l k y); auto. eapply cont_element; eauto.
Qed.
Lemma kept_prot : forall s j avoid l, kept_by_others s j avoid l ->
  (forall n, n < length (mem s) -> cX (cR s (LS j)) n -> avoid n) -> Prot (cR s (LS j)) [] s l.
Proof.
  intros s j avoid l K A. induction K as [i v l2 Ni V R|m l2 K IH Av Ins].
  - apply P_slot with (j := i) (v := v); auto; [simpl; congruence|apply refers_target; auto].
  - apply inside_contents in Ins as (om & v & Om & V & T). eapply P_cell; eauto. intros X. apply Av. apply A; auto. eapply obj_lt; eauto.
Qed.
Lemma guard_anchored : forall s j, container_kept s j -> anchored s (LS j).
Proof.
  intros s j H l (k & o & G & O & P). destruct (H l k (cont_element _ _ _ _ _ G O P)) as [N K]. split.
  - eapply kept_prot; [exact K|]. simpl. intros n Ln [[X|[X|X]]|X].
    + right. destruct (tgt_element _ _ _ _ _ _ G O P X) as (y & Y & R). exists y. auto.
    + right. destruct X as (t & ot & o2 & Tg & Ot & Vt & _ & _). destruct (tgt_element _ _ _ _ _ _ G O P Tg) as (y & Y & R).
      exists y. split; auto. right. exists t, ot. split; auto. split; auto. apply obj_live; auto.
    + lia.
    + left. destruct X as (k' & o2 & G2 & _). congruence.
  - intros T. destruct (tgt_element _ _ _ _ _ _ G O P T) as (y & Y & R). apply (N y); auto.
Qed.
Lemma guard_no_scalar : forall s j, not_scalar s j -> no_scalar s (LS j).
Proof.
  intros s j H l k o a x G O P N. apply (H l k x); [eapply cont_element; eauto|]. exists o, a. split; auto. apply obj_live; auto.
Qed.
Lemma guarded_eval : forall e nv s, guarded_expr nv e s -> ok_eval False nv e s.
Proof.
  induction e as [n| |x|str|e IHe i|e1 IHe1 e2 IHe2|e IHe i|e IHe|e IHe|e IHe|e IHe i|e IHe sh off|e1 IHe1 e2 IHe2|e IHe i|op e1 IHe1 e2 IHe2|e1 IHe1 e2 IHe2|e1 IHe1 e2 IHe2|sh e IHe]; intros nv s H; simpl in *; auto.
  - destruct H as [H1 H2]. split; auto. intros j s1 E. right. apply guard_apart; eauto.
  - destruct H as [H1 H2]. split; auto. intros j s1 E. destruct (H2 j s1 E) as [H3 H4]. split; auto.
    intros q s2 E2. destruct (H4 _ _ E2). right. split; [apply guard_anchored|apply guard_no_scalar]; auto.
  - destruct H as [H1 H2]. split; auto. intros j s1 E. right. apply guard_anchored; eauto.
  - destruct H as [H1 H2]. split; auto. intros j s1 E. right. apply guard_anchored; eauto.
  - destruct H as [H1 H2]. split; eauto.
  - destruct H as [H1 H2]. split; eauto.
  - destruct H as [H1 H2]. split; eauto.
  - destruct H as [H1 H2]. split; auto. intros j s1 E. destruct (H2 j s1 E) as [H3 H4]. split; auto.
    intros q s2 E2. right. apply guard_anchored. eauto.
  - destruct H as [H1 H2]. split; auto. intros j s1 E. right. apply guard_apart; eauto.
Qed.
Lemma guarded_ok : forall t s, guarded_stmt t s -> ok_stmt False (length (stk s)) t s.
Proof.
  intros t s H.
  assert (Two : forall nv e f (g g' : state -> nat -> Prop), (forall s j, g s j -> g' s j) ->
    (guarded_expr nv e s /\ (forall j s1, eval nv e s = ROk (LS j) s1 -> guarded_expr nv f s1 /\ (forall q s2, eval nv f s1 = ROk q s2 -> g s2 j))) ->
    two_recv False nv e f s g').
  { intros nv e f g g' G [H1 H2]. split; [apply guarded_eval; auto|]. intros j s1 E. destruct (H2 j s1 E) as [H3 H4].
    split; [apply guarded_eval; auto|]. intros q s2 E2. apply G. eauto. }
  assert (Li : forall es nv s, guarded_list nv es s -> ok_list False nv es s).
  { induction es as [|e es IH]; intros nv s0 G; simpl in *; auto. destruct G as [G1 G2]. split; [apply guarded_eval; auto|]. eauto. }
  destruct t as [e|e f|e|e f|e f i|e f|e str|e f|e n|e n|e|e|op e f|es|n e| |e n|e n|sh e]; simpl in *; auto using guarded_eval;
    try (eapply Two; [|exact H]; intros s1 j G; right; auto using guard_apart, guard_anchored; fail);
    destruct H as [H1 H2]; (split; [apply guarded_eval; auto|]); try (intros j s1 E; right; apply guard_anchored; eauto; fail); try (intros j s1 E; right; apply guard_apart; eauto; fail).
  all: intros q s1 E; apply guarded_eval; eauto.
Qed.
Lemma guarded_ok_run : forall l s, guarded_run l s -> ok_run False l s.
Proof.
  induction l; intros s H; simpl in *; auto. destruct H as [H1 H2]. split; [apply guarded_ok; auto|].
  destruct (exec a s); auto.
Qed.
Lemma lossless_careful : forall l s, lossless l s -> careful l s.
Proof.
  intros l s H. exact H.
Qed.
