(** The in-place transpose follows the cycles of a permutation. *)
From Coq Require Import ZArith Bool List Lia ZifyBool FinFun.
From Verif Require Import Base StrModel StrProof GeoModel GeoSpec GeoProof FunProof.
Import ListNotations.
Local Open Scope Z_scope.

Section Perm.
Variables (L : Z) (f : Z -> Z).
Hypothesis f_range : forall k, 0 <= k < L -> 0 <= f k < L.
Hypothesis f_inj : forall a b, 0 <= a < L -> 0 <= b < L -> f a = f b -> a = b.
Definition it (t : nat) (k : Z) : Z := Nat.iter t f k.
Lemma it_S : forall t k, it (S t) k = f (it t k).
Proof. reflexivity. Qed.
Lemma it_add : forall a b k, it (a + b) k = it a (it b k).
Proof. induction a; intros; cbn [Nat.add]; auto. rewrite !it_S, IHa. auto. Qed.
Lemma it_range : forall t k, 0 <= k < L -> 0 <= it t k < L.
Proof. induction t; intros k H; [exact H|]. rewrite it_S. auto. Qed.
Lemma it_inj : forall t a b, 0 <= a < L -> 0 <= b < L -> it t a = it t b -> a = b.
Proof. induction t; intros a b Ha Hb H; [exact H|]. rewrite !it_S in H. apply f_inj in H; auto using it_range. Qed.
Lemma it_back : forall a b k, 0 <= k < L -> (a < b)%nat -> it a k = it b k -> it (b - a) k = k.
Proof.
  intros a b k Hk Hab H. symmetry. apply (it_inj a); auto using it_range.
  rewrite <- it_add. rewrite H. f_equal. lia.
Qed.
Lemma period : forall k, 0 <= k < L -> exists P, (1 <= P <= Z.to_nat L)%nat /\ it P k = k /\ forall t, (1 <= t < P)%nat -> it t k <> k.
Proof.
  intros k Hk.
  assert (E : exists t, (1 <= t <= Z.to_nat L)%nat /\ it t k = k).
  { destruct (existsb (fun t => it t k =? k) (seq 1 (Z.to_nat L))) eqn:X.
    - apply existsb_exists in X. destruct X as (t & Ht & Et). apply in_seq in Ht. exists t. split; lia.
    - exfalso.
      assert (N : NoDup (map (fun t => it t k) (seq 0 (S (Z.to_nat L))))).
      { apply NoDup_nth with (d := 0). intros i j Hi Hj Hij. rewrite map_length, seq_length in Hi, Hj.
        assert (Y : forall u v, (u < v)%nat -> (v < S (Z.to_nat L))%nat -> it u k = it v k -> False).
        { intros u v Huv Hv H. apply it_back in H; auto.
          assert (existsb (fun t => it t k =? k) (seq 1 (Z.to_nat L)) = true); [|congruence].
          apply existsb_exists. exists (v - u)%nat. split; [apply in_seq; lia|lia]. }
        rewrite !(nth_indep _ 0 (it 0 k)) in Hij by (rewrite map_length, seq_length; auto).
        rewrite !(map_nth (fun t => it t k)) in Hij. rewrite !seq_nth in Hij by auto. cbn [Nat.add] in Hij.
        destruct (Nat.lt_trichotomy i j) as [H|[H|H]]; auto; exfalso; eauto. }
      assert (I : incl (map (fun t => it t k) (seq 0 (S (Z.to_nat L)))) (map Z.of_nat (seq 0 (Z.to_nat L)))).
      { intros x Hx. apply in_map_iff in Hx. destruct Hx as (t & <- & _). apply in_map_iff.
        pose proof (it_range t k Hk). exists (Z.to_nat (it t k)). split; [lia|apply in_seq; lia]. }
      pose proof (NoDup_incl_length N I). rewrite !map_length, !seq_length in H. lia. }
  destruct E as (t & Ht & Et).
  assert (Least : forall n, (exists P, (1 <= P <= n)%nat /\ it P k = k /\ forall t, (1 <= t < P)%nat -> it t k <> k) \/ (forall t, (1 <= t <= n)%nat -> it t k <> k)).
  { induction n; [right; lia|]. destruct IHn as [(P & HP & X)|H]; [left; exists P; split; [lia|auto]|].
    destruct (Z.eq_dec (it (S n) k) k) as [E|E].
    - left. exists (S n). split; [lia|]. split; auto. intros u Hu. apply H. lia.
    - right. intros u Hu. destruct (Nat.eq_dec u (S n)); [subst; auto|apply H; lia]. }
  destruct (Least (Z.to_nat L)) as [(P & HP & X)|H]; [exists P; auto|]. exfalso. apply (H t); auto.
Qed.
Lemma it_mul : forall P k q, it P k = k -> it (q * P) k = k.
Proof. intros P k q H. induction q; auto. cbn [Nat.mul]. rewrite it_add, IHq. auto. Qed.
(** Cycles close. *)
Lemma cycle_sym : forall k t s, 0 <= k < L -> it t k = s -> exists u, it u s = k.
Proof.
  intros k t s Hk H. destruct (period k Hk) as (P & HP & EP & _). exists (t * P - t)%nat. subst s. rewrite <- it_add.
  replace (t * P - t + t)%nat with (t * P)%nat by nia. apply it_mul. auto.
Qed.
Lemma it_mod : forall k P t, it P k = k -> (1 <= P)%nat -> it t k = it (t mod P) k.
Proof.
  intros k P t H HP. rewrite (Nat.div_mod t P) at 1 by lia. rewrite Nat.add_comm, it_add. f_equal. rewrite Nat.mul_comm. apply it_mul. auto.
Qed.
End Perm.

Lemma tpos_range : forall m n k, 1 <= m -> 1 <= n -> 0 <= k < m * n -> 0 <= tpos m n k < m * n.
Proof.
  intros m n k Hm Hn Hk. unfold tpos. pose proof (Z.mod_pos_bound k m). assert (0 <= k / m) by (apply Z.div_pos; lia).
  assert (k / m < n) by (apply Z.div_lt_upper_bound; lia). nia.
Qed.
Lemma tpos_inv : forall m n k, 1 <= m -> 1 <= n -> 0 <= k < m * n -> tpos n m (tpos m n k) = k.
Proof.
  intros m n k Hm Hn Hk. unfold tpos at 1. unfold tpos. assert (0 <= k / m) by (apply Z.div_pos; lia).
  assert (k / m < n) by (apply Z.div_lt_upper_bound; lia). rewrite md, dv by lia. pose proof (Z.div_mod k m). lia.
Qed.
Lemma tpos_inj : forall m n a b, 1 <= m -> 1 <= n -> 0 <= a < m * n -> 0 <= b < m * n -> tpos m n a = tpos m n b -> a = b.
Proof. intros m n a b Hm Hn Ha Hb E. rewrite <- (tpos_inv m n a), <- (tpos_inv m n b) by auto. congruence. Qed.

Section InPlace.
Variable A : Type.
Variables (R C : Z).
Hypothesis HR : 1 <= R.
Hypothesis HC : 1 <= C.
(** Cell [k] goes to cell [go k]. *)
Let go := tpos C R.
Let L := R * C.
Let go_range : forall k, 0 <= k < L -> 0 <= go k < L.
Proof. intros k Hk. unfold go, L in *. rewrite Z.mul_comm. apply tpos_range; auto. lia. Qed.
Let go_inj : forall a b, 0 <= a < L -> 0 <= b < L -> go a = go b -> a = b.
Proof. intros a b Ha Hb. unfold go, L in *. apply tpos_inj; auto; lia. Qed.
Lemma HL0 : 0 <= L.
Proof. unfold L. nia. Qed.

Lemma cycle_min_ok : forall s P, 0 <= s < L -> (1 <= P)%nat -> it go P s = s -> (forall t, (1 <= t < P)%nat -> it go t s <> s) ->
  forall d t fuel, (t + d = P)%nat -> (1 <= d)%nat -> (d <= fuel)%nat -> 
  exists b, cycle_min fuel R C s (it go t s) = Ok b /\ (b = true <-> exists u, (t <= u < P)%nat /\ it go u s < s).
Proof.
  intros s P Hs HP EP Hmin d. induction d; intros t fuel Ht Hd Hf; [lia|]. destruct fuel; [lia|]. cbn [cycle_min].
  destruct (it go t s <? s) eqn:E.
  - exists true. split; auto. split; auto. intros _. exists t. lia.
  - change ((it go t s mod C) * R + it go t s / C) with (it go (S t) s).
    destruct (it go (S t) s =? s) eqn:E2.
    + assert (d = 0%nat). { destruct d; auto. exfalso. apply (Hmin (S t)); lia. }
      exists false. split; auto. split; [discriminate|]. intros (u & Hu & Hl). assert (u = t) by lia. subst u. lia.
    + assert (d <> 0)%nat. { intros ->. replace (S t) with P in E2 by lia. lia. }
      destruct (IHd (S t) fuel) as (b & Eb & Hb); [lia|lia|lia|]. exists b. split; auto. rewrite Hb. split.
      * intros (u & Hu & Hl). exists u. split; [lia|auto].
      * intros (u & Hu & Hl). exists u. split; [|auto]. destruct (Nat.eq_dec u t); [subst; lia|lia].
Qed.
Implicit Types m : mem A.
Lemma cycle_swap_ok : forall m0 a p s P, 0 <= s < L -> 0 <= p -> p + L <= Z.of_nat (length (arr A m0 a)) ->
  (1 <= P)%nat -> it go P s = s -> (forall t, (1 <= t < P)%nat -> it go t s <> s) ->
  forall d t fuel m temp, (t + d = P)%nat -> (1 <= d)%nat -> (d <= fuel)%nat ->
  same_size A m0 m -> Some temp = cell m0 a (p + it go (t - 1) s) ->
  (forall u, (1 <= u < t)%nat -> cell m a (p + it go u s) = cell m0 a (p + it go (u - 1) s)) ->
  (forall b j, (b <> a \/ forall u, (1 <= u < t)%nat -> j <> p + it go u s) -> cell m b j = cell m0 b j) ->
  exists m', cycle_swap A fuel R C s (it go t s) a p temp m = Ok m' /\ same_size A m0 m' /\
    (forall u, (1 <= u <= P)%nat -> cell m' a (p + it go u s) = cell m0 a (p + it go (u - 1) s)) /\
    (forall b j, (b <> a \/ forall u, (1 <= u <= P)%nat -> j <> p + it go u s) -> cell m' b j = cell m0 b j).
Proof.
  intros m0 a p s P Hs Hp Hp2 HP EP Hmin.
  assert (Dist : forall u v, (u < v)%nat -> (v < P)%nat -> it go u s <> it go v s).
  { intros u v Huv Hv E. apply (it_back L go go_range go_inj) in E; auto. apply (Hmin (v - u)%nat); [lia|auto]. }
  intros d. induction d; intros t fuel m temp Ht Hd Hf Hsz Htemp Hdone Hrest; [lia|]. destruct fuel; [lia|]. cbn [cycle_swap].
  pose proof (it_range L go go_range t s Hs) as Rt.
  assert (Len : length (arr A m a) = length (arr A m0 a)) by (destruct Hsz as [_ Hsz]; rewrite Hsz; auto).
  assert (Old : cell m a (p + it go t s) = cell m0 a (p + it go t s)).
  { apply Hrest. right. intros u Hu E. apply (Dist u t); [lia|lia|lia]. }
  rewrite rd_cell, Old. destruct (cell_some A m0 a (p + it go t s)) as (x & Ex); [lia|]. rewrite Ex. cbn [obind].
  destruct (wr_ok A m a (p + it go t s) temp) as (m1 & E1 & S1 & C1); [lia|]. rewrite E1. cbn [obind].
  change ((it go t s mod C) * R + it go t s / C) with (it go (S t) s).
  destruct (it go (S t) s =? s) eqn:E2.
  - assert (d = 0%nat). { destruct d; auto. exfalso. apply (Hmin (S t)); lia. } subst d.
    assert (HSt : S t = P) by lia. rewrite HSt, EP.
    assert (Len1 : length (arr A m1 a) = length (arr A m a)) by (destruct S1 as [_ S1]; rewrite S1; auto).
    rewrite rd_cell. destruct (cell_some A m1 a (p + s)) as (y & Ey); [lia|]. rewrite Ey. cbn [obind].
    destruct (wr_ok A m1 a (p + s) x) as (m2 & E3 & S2 & C2); [lia|]. exists m2. split; auto.
    split; [eapply same_size_trans; [exact Hsz|eapply same_size_trans; eauto]|]. split.
    + intros u Hu. rewrite C2, Nat.eqb_refl. cbn [andb]. destruct (Nat.eq_dec u P) as [->|Hne].
      * rewrite EP, Z.eqb_refl. replace (P - 1)%nat with t by lia. auto.
      * replace (p + it go u s =? p + s) with false by (specialize (Hmin u); lia).
        rewrite C1, Nat.eqb_refl. cbn [andb]. destruct (Nat.eq_dec u t) as [->|Hnt].
        -- rewrite Z.eqb_refl. auto.
        -- specialize (Dist u t ltac:(lia) ltac:(lia)). replace (p + it go u s =? p + it go t s) with false by lia. apply Hdone. lia.
    + intros b j Hb. rewrite C2. destruct (Nat.eqb_spec b a) as [->|Hba]; cbn [andb].
      * destruct Hb as [Hb|Hb]; [congruence|]. pose proof (Hb P ltac:(lia)) as X. rewrite EP in X. replace (j =? p + s) with false by lia.
        rewrite C1, Nat.eqb_refl. cbn [andb].
        assert (j <> p + it go t s). { destruct t; [exact X|]. apply Hb. lia. }
        replace (j =? p + it go t s) with false by lia. apply Hrest. right. intros u Hu. apply Hb. lia.
      * rewrite C1. destruct (Nat.eqb_spec b a); [congruence|]. cbn [andb]. apply Hrest. auto.
  - assert (d <> 0)%nat. { intros ->. replace (S t) with P in E2 by lia. lia. }
    apply IHd; try lia.
    + eapply same_size_trans; eauto.
    + replace (S t - 1)%nat with t by lia. congruence.
    + intros u Hu. rewrite C1, Nat.eqb_refl. cbn [andb]. destruct (Nat.eq_dec u t) as [->|Hnt].
      * rewrite Z.eqb_refl. auto.
      * specialize (Dist u t ltac:(lia) ltac:(lia)). replace (p + it go u s =? p + it go t s) with false by lia. apply Hdone. lia.
    + intros b j Hb. rewrite C1. destruct (Nat.eqb_spec b a) as [->|Hba]; cbn [andb].
      * destruct Hb as [Hb|Hb]; [congruence|]. destruct (Z.eqb_spec j (p + it go t s)) as [->|Hne].
        -- destruct t.
           ++ cbn [it Nat.iter] in *. change (it go 0 s) with s in *. cbn [Nat.sub] in Htemp. change (it go 0 s) with s in *. auto.
           ++ exfalso. apply (Hb (S t)); lia.
        -- apply Hrest. right. intros u Hu. apply Hb. lia.
      * apply Hrest. auto.
Qed.

Lemma inPlace_ok : forall m a p fuel, L <= INT_MAX -> 0 <= p -> p + L <= Z.of_nat (length (arr A m a)) -> (Z.to_nat L <= fuel)%nat ->
  exists m', inPlace A fuel a p R C m = Ok m' /\
    upd A m m' a (fun j => p <= j < p + R * C) (fun j => cell m a (p + tpos R C (j - p))).
Proof.
  intros m a p fuel HI Hp Hp2 Hf. unfold inPlace. rewrite imul_in by (apply in_int_small; fold L; pose proof HL0; lia).
  cbn [obind]. fold L. assert (HL1 : 1 <= L) by (unfold L; nia).
  destruct (loop_inv A (fun s m' => 1 <= s <= L -> same_size A m m' /\
     (forall k, 0 <= k < L -> (exists t, it go t k < s) -> cell m' a (p + go k) = cell m a (p + k)) /\
     (forall k, 0 <= k < L -> (forall t, s <= it go t k) -> cell m' a (p + k) = cell m a (p + k)) /\
     (forall b j, b <> a \/ ~ p <= j < p + L -> cell m' b j = cell m b j))
     (cycle_step A fuel R C a p) (Z.to_nat (L - 1)) 1 m) as (m' & E & HI').
  - intros _. split; [apply same_size_refl|]. split; [|auto].
    intros k Hk (t & Ht). pose proof (it_range L go go_range t k Hk).
    assert (it go t k = 0) by lia. destruct (cycle_sym L go go_range go_inj k t 0 Hk) as (u & Hu); auto.
    assert (Z0 : go 0 = 0) by (unfold go, tpos; rewrite Z.mod_0_l, Z.div_0_l by lia; lia).
    assert (Zu : it go u 0 = 0). { clear - Z0. induction u; auto. rewrite it_S, IHu. auto. }
    replace k with 0 by lia. rewrite Z0. auto.
  - intros s m' Hs0 HP. assert (Hs : 1 <= s < L) by lia. destruct HP as (Hsz & H1 & H2 & H3); [lia|].
    assert (Len : length (arr A m' a) = length (arr A m a)) by (destruct Hsz as [_ Hsz]; rewrite Hsz; auto).
    unfold cycle_step. rewrite rd_cell. destruct (cell_some A m' a (p + s)) as (x & Ex); [lia|]. rewrite Ex. cbn [obind].
    destruct (period L go go_range go_inj s) as (P & HP & EP & Hmin); [lia|].
    destruct (cycle_min_ok s P) with (d := P) (t := 0%nat) (fuel := fuel) as (b & Eb & Hb); try lia; auto.
    change (it go 0 s) with s in Eb. rewrite Eb. cbn [obind].
    destruct b.
    + destruct Hb as [Hb _]. destruct (Hb eq_refl) as (u & Hu & Hlt). exists m'. split; auto. intros _. split; auto. split.
      * intros k Hk (t & Ht). apply H1; auto. destruct (Z.eq_dec (it go t k) s) as [X|X]; [|exists t; lia].
        exists (u + t)%nat. rewrite it_add, X. auto.
      * split; auto. intros k Hk Hge. apply H2; auto. intros t. specialize (Hge t). lia.
    + assert (Hge : forall u, s <= it go u s).
      { intros u. rewrite (it_mod go s P u EP) by lia. destruct (Z.ltb_spec (it go (u mod P) s) s); auto.
        destruct Hb as [_ Hb]. discriminate Hb. exists (u mod P)%nat. split; auto. pose proof (Nat.mod_upper_bound u P ltac:(lia)). lia. }
      destruct (cycle_swap_ok m' a p s P) with (d := P) (t := 0%nat) (fuel := fuel) (m := m') (temp := x) as (m'' & E & Hs2 & G1 & G2); try lia; auto.
      { apply same_size_refl. }
      all: try (cbn [Nat.sub]; change (it go 0 s) with s; auto; fail).
      all: try (intros; lia).
      change (it go 0 s) with s in E. rewrite E. exists m''. split; auto. intros _. split; [eapply same_size_trans; eauto|].
      assert (Cyc : forall k, 0 <= k < L -> (exists t, it go t k = s) -> exists u, (u < P)%nat /\ it go u s = k).
      { intros k Hk (t & Ht). destruct (cycle_sym L go go_range go_inj k t s Hk Ht) as (u & Hu).
        exists (u mod P)%nat. split; [apply Nat.mod_upper_bound; lia|]. rewrite <- (it_mod go s P u EP) by lia. auto. }
      split; [|split].
      * intros k Hk (t & Ht). destruct (Z.ltb_spec (it go t k) s) as [Hl|Hl].
        -- rewrite G2; [apply H1; eauto|]. right. intros u Hu X.
           assert (X' : it go 1 k = it go u s) by (change (it go 1 k) with (go k); lia).
           destruct u as [|u]; [lia|]. change (S u) with (1 + u)%nat in X'. rewrite it_add in X'.
           apply (it_inj L go go_range go_inj) in X'; auto; [|apply (it_range L go go_range); lia].
           subst k. rewrite <- it_add in Hl. specialize (Hge (t + u)%nat). lia.
        -- destruct (Cyc k Hk) as (u & Hu & Eu); [exists t; lia|].
           specialize (G1 (S u) ltac:(lia)). rewrite it_S, Eu in G1. replace (S u - 1)%nat with u in G1 by lia. rewrite Eu in G1. rewrite G1.
           apply H2; auto. intros v. rewrite <- Eu, <- it_add. apply Hge.
      * intros k Hk Hk2. rewrite G2; [apply H2; auto; intros t; specialize (Hk2 t); lia|].
        right. intros u Hu X. assert (k = it go u s) by lia. destruct (cycle_sym L go go_range go_inj s u k) as (v & Hv); [lia|auto|].
        specialize (Hk2 v). lia.
      * intros b j Hb2. rewrite G2; [auto|]. destruct Hb2; [auto|]. right. intros u Hu X.
        pose proof (it_range L go go_range u s). lia.
  - exists m'. split; auto. replace (1 + Z.of_nat (Z.to_nat (L - 1))) with L in HI' by lia.
    destruct (HI' ltac:(lia)) as (Hsz & H1 & H2 & H3). split; auto. split.
    + intros j Hj. set (k := tpos R C (j - p)).
      assert (Hk : 0 <= k < L) by (apply tpos_range; auto; lia).
      rewrite <- H1; auto.
      * f_equal. unfold k, go. rewrite tpos_inv by (auto; lia). lia.
      * exists 0%nat. cbn [it Nat.iter]. change (it go 0 k) with k. lia.
    + intros b j Hb. apply H3. unfold L. auto.
Qed.
End InPlace.
