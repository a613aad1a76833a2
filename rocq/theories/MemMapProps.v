(** Properties of maps held in memory: C74 to C79. *)
From Coq Require Import ZArith Bool List String Lia Sorting.
From Verif Require Import Base StrModel ValModel NumModel MemModel MemProof MemFun MemEq MemDeref MemTriple MemArr MemKey MemElem MemList MemArrays MemText MemScalar ValSpec ValProof ArrSpec ArrFacts MemMapSpec MemMap MemLook MemMaps ArrProps.
Import ListNotations.
Local Open Scope list_scope.
Local Open Scope mem_scope.
Local Notation length := List.length.

Lemma moved_unchanged : forall l o' s b0 s', moved l o' b0 s' -> l < length (mem b0) -> (exists ms, mem b0 = mem s ++ ms) -> unchanged_but l s s'.
Proof.
  intros l o' s b0 s' Mv L [ms E] k o N Lk O. apply obj_live in O. assert (Q : obj k b0 = Some o) by (eapply moved_other; eauto; rewrite E, app_length; lia).
  apply obj_live in Q. rewrite E, nth_error_app1 in Q; auto.
Qed.
Lemma self_app : forall s : state, exists ms, mem s = mem s ++ ms.
Proof. intros s. exists []. rewrite app_nil_r. auto. Qed.
Lemma holds_mapping : forall s j l kvs, reachable s -> holds_map s j l kvs -> exists e o, INV e [] s /\ mapping s l o kvs.
Proof. intros s j l kvs R (V & En & So & Rf). destruct (reachable_INV s R) as [e I]. destruct (entries_mapping s l kvs R En Rf) as [o M]. eauto. Qed.

(** ** Keys and values *)
Definition keys_ok (kvs : list (val * mvar)) : Prop := Forall (fun kv => key (fst kv)) kvs.
Lemma entries_keys : forall s l kvs, entries s l kvs -> keys_ok kvs.
Proof.
  intros s l kvs (ms & _ & F). unfold keys_ok. induction F as [|m kv ms kvs [[K _] _] F IH]; constructor; auto.
Qed.
Lemma eq_code : forall a b, key a -> key b -> equal a b <-> code a = code b. Proof. intros; apply key_equal; auto. Qed.
Lemma ordered_codes : forall kvs a k v b k' v', ordered kvs -> keys_ok kvs -> kvs = a ++ (k, v) :: b -> In (k', v') kvs -> code k' = code k -> v' = v.
Proof.
  intros kvs a k v b k' v' So Ko -> Hin Ec. unfold ordered in So. unfold keys_ok in Ko. rewrite Forall_forall in Ko.
  assert (Kk : key k) by (apply (Ko (k, v)); apply in_or_app; right; left; auto).
  assert (Kk' : key k') by (apply (Ko (k', v')); auto).
  assert (Nl : ~ less k k' /\ ~ less k' k). { rewrite !key_less by auto. rewrite Ec, lex_refl. split; discriminate. }
  apply in_app_or in Hin as [Hin|[Hin|Hin]].
  - exfalso. apply (proj2 Nl). clear - So Hin. induction a as [|p a IH]; [contradiction|]. simpl in So. inversion So; subst. destruct Hin as [->|Hin]; [|auto].
    rewrite Forall_forall in H2. apply H2. rewrite map_app. apply in_or_app. right. left. reflexivity.
  - congruence.
  - exfalso. apply (proj1 Nl). rewrite map_app in So. apply (in_map fst) in Hin. simpl in *. clear - So Hin. induction (map fst a) as [|p q IH]; simpl in *; inversion So; subst; [|auto].
    rewrite Forall_forall in H2. auto.
Qed.
Lemma value_unique : forall kvs k v v', ordered kvs -> keys_ok kvs -> key k -> value_of kvs k v -> value_of kvs k v' -> v = v'.
Proof.
  intros kvs k v v' So Ko K (a & Ha & Ea) (b & Hb & Eb). pose proof Ko as Ko'. unfold keys_ok in Ko'. rewrite Forall_forall in Ko'.
  apply eq_code in Ea; [|apply (Ko' _ Ha)|auto]. apply eq_code in Eb; [|apply (Ko' _ Hb)|auto].
  destruct (in_split _ _ Hb) as (x & y & E). eapply ordered_codes; eauto. congruence.
Qed.
Lemma bound_values : forall k z kvs kvs', ordered kvs -> keys_ok kvs -> key k -> bound_to k z kvs kvs' ->
  value_of kvs' k z /\ forall k2 v, key k2 -> ~ equal k2 k -> value_of kvs' k2 v <-> value_of kvs k2 v.
Proof.
  intros k z kvs kvs' So Ko K B. unfold keys_ok in Ko. rewrite Forall_forall in Ko. destruct B as [a k' w b E Q|a b E F1 F2].
  - split; [exists k'; split; auto; apply in_or_app; right; left; auto|]. intros k2 v K2 N.
    assert (Kk : key k') by (apply (Ko (k', w)); rewrite E; apply in_or_app; right; left; auto).
    assert (Ne : ~ equal k' k2). { rewrite eq_code in * by auto. intros X. apply N. congruence. }
    subst kvs. split; intros (k3 & Hin & Eq); exists k3; split; auto; apply in_app_or in Hin as [Hin|[Hin|Hin]]; apply in_or_app; auto; try (right; right; auto; fail).
    + inversion Hin; subst. contradiction.
    + inversion Hin; subst. contradiction.
  - split; [exists k; split; [apply in_or_app; right; left; auto|apply eq_code; auto]|]. intros k2 v K2 N. subst kvs.
    split; intros (k3 & Hin & Eq); exists k3; (split; [|auto]); apply in_app_or in Hin; apply in_or_app; (destruct Hin as [Hin|Hin]; [auto|]).
    + destruct Hin as [Hin|Hin]; [|auto]. inversion Hin; subst. exfalso. apply N. apply eq_code in Eq; auto. apply eq_code; auto.
    + right. right. auto.
Qed.
Lemma looked_values : forall k kvs i kvs' v, ordered kvs -> keys_ok kvs -> key k -> looked_up k kvs i kvs' -> value_of kvs k v ->
  kvs' = kvs /\ exists k', nth_error kvs i = Some (k', v).
Proof.
  intros k kvs i kvs' v So Ko K Lu (k2 & Hin & Eq). pose proof Ko as Ko'. unfold keys_ok in Ko'. rewrite Forall_forall in Ko'. pose proof (Ko' _ Hin) as K2. simpl in K2.
  apply eq_code in Eq; auto. destruct Lu as [a k' w b E Q|a b E F1 F2].
  - split; auto. exists k'. assert (Kk : key k') by (apply (Ko' (k', w)); rewrite E; apply in_or_app; right; left; auto). apply eq_code in Q; auto.
    assert (v = w) by (eapply (ordered_codes kvs a k' w b k2); eauto; congruence). subst. rewrite nth_error_app2, Nat.sub_diag by auto. reflexivity.
  - exfalso. rewrite Forall_forall in F1, F2. rewrite E in Hin. apply in_app_or in Hin as [Hin|Hin].
    + apply F1 in Hin. simpl in Hin. apply key_less in Hin; auto. rewrite Eq, lex_refl in Hin. discriminate.
    + apply F2 in Hin. simpl in Hin. apply key_less in Hin; auto. rewrite Eq, lex_refl in Hin. discriminate.
Qed.
Lemma key_expr_key : forall s l ek k, key_expr s l ek k -> key k.
Proof. intros s l ek k H. destruct H as [ek x y k Op D [K _] X|cs K Sm]; auto. Qed.

(** * C74: the subscript by a key *)
Theorem C74_subscript_by_key : forall s j l kvs ek k, reachable s -> holds_map s j l kvs -> small (S (length kvs)) -> key_expr s l ek k ->
  exists s' i kvs', exec (SDecl (EKey (EVar j) ek)) s = ROk tt s' /\ looked_up k kvs i kvs' /\
    stk s' = stk s ++ [MRef l i] /\ holds_map s' j l kvs' /\ unchanged_but l s s'.
Proof.
  intros s j l kvs ek k R H Sm Ke. destruct (holds_mapping s j l kvs R H) as (e & o & I & M). destruct H as (V & En & So & Rf).
  destruct (key_decl e s j l ek k o kvs I V M So Sm Ke) as (s' & o' & i & kvs' & E & I' & Mv & St & M' & Lu & So'). exists s', i, kvs'. split; auto. split; auto. split; auto.
  destruct (mapping_entries _ _ _ _ M') as [En' Rf']. split.
  - split; [|auto]. unfold variable. rewrite St, nth_error_app1; auto. eapply ne_lt; eauto.
  - eapply moved_unchanged; eauto using self_app. destruct M as (O & _). eapply obj_lt; eauto.
Qed.
Lemma holds_value : forall s j l kvs k v, reachable s -> holds_map s j l kvs -> In (k, v) kvs -> v <> MJunk.
Proof.
  intros s j l kvs k v R (_ & (ms & M & F) & _) X.
  assert (Y : exists a, In (a, v) ms).
  { clear M. induction F as [|[a b] kv ms kvs [_ E] F IH]; [contradiction|]. destruct X as [X|X]; [subst kv; simpl in E; subst b; exists a; left; auto|destruct (IH X) as [c C]; exists c; right; auto]. }
  destruct Y as [a Y]. eapply reachable_map_value; eauto.
Qed.
(** It refers to the value of the key, which is undefined if the key was not there. *)
Theorem C74_reference_to_the_value : forall s j l kvs ek k v, reachable s -> holds_map s j l kvs -> small (S (length kvs)) -> key_expr s l ek k ->
  value_of kvs k v ->
  exists s' i, exec (SDecl (EKey (EVar j) ek)) s = ROk tt s' /\ stk s' = stk s ++ [MRef l i] /\ denotes s' (MRef l i) v /\ holds_map s' j l kvs /\ unchanged_but l s s'.
Proof.
  intros s j l kvs ek k v R H Sm Ke Hv. assert (Nj : v <> MJunk) by (destruct Hv as (k' & Hv & _); apply (holds_value s j l kvs k' v R H Hv)). destruct (C74_subscript_by_key s j l kvs ek k R H Sm Ke) as (s' & i & kvs' & E & Lu & St & H' & Un).
  pose proof H as (_ & En & So & _). destruct (looked_values k kvs i kvs' v So (entries_keys _ _ _ En) (key_expr_key _ _ _ _ Ke) Lu Hv) as (-> & k' & Nk).
  exists s', i. do 2 (split; auto). split; [|auto]. destruct (holds_mapping s' j l kvs) as (e' & o' & I' & M'); auto.
  { eapply reachable_step; eauto. }
  destruct M' as (O' & V' & T' & Oks & Sz & Lc & Ce). destruct (Ce _ _ Nk) as (c & Nc & _). simpl in Nc. exists o', c. apply obj_live in O'. split; auto. split; auto.
  split; [rewrite Sz; eapply ne_lt; eauto|]. split; auto. split; auto. destruct (Oks _ _ Nc) as (_ & _ & P & _). exact P.
Qed.
Theorem C74_reference_to_a_new_entry : forall s j l kvs ek k, reachable s -> holds_map s j l kvs -> small (S (length kvs)) -> key_expr s l ek k ->
  (forall v, ~ value_of kvs k v) ->
  exists s' i a b, exec (SDecl (EKey (EVar j) ek)) s = ROk tt s' /\ stk s' = stk s ++ [MRef l i] /\ denotes s' (MRef l i) MNil /\ unchanged_but l s s' /\
    kvs = a ++ b /\ i = length a /\ holds_map s' j l (a ++ (k, MNil) :: b).
Proof.
  intros s j l kvs ek k R H Sm Ke Hv. destruct (C74_subscript_by_key s j l kvs ek k R H Sm Ke) as (s' & i & kvs' & E & Lu & St & H' & Un).
  destruct Lu as [a k' v b Ek Q|a b Ek F1 F2]; [exfalso; apply (Hv v); exists k'; split; auto; rewrite Ek; apply in_or_app; right; left; auto|].
  exists s', (length a), a, b. do 2 (split; auto). split; [|auto 10]. destruct (holds_mapping s' j l (a ++ (k, MNil) :: b)) as (e' & o' & I' & M'); auto.
  { eapply reachable_step; eauto. }
  destruct M' as (O' & V' & T' & Oks & Sz & Lc & Ce). destruct (Ce (length a) (k, MNil)) as (c & Nc & _); [rewrite nth_error_app2, Nat.sub_diag by auto; reflexivity|].
  simpl in Nc. exists o', c. apply obj_live in O'. split; auto. split; auto.
  split; [rewrite Sz, app_length; simpl; lia|]. split; auto. split; discriminate.
Qed.

(** * C75: assigning to a key *)
Theorem C75_assignment_by_key : forall s j l kvs ek k ev P, reachable s -> holds_map s j l kvs -> small (S (length kvs)) -> key_expr s l ek k -> value_expr s l ev P -> no_view s ev ->
  exists s' z kvs', exec (SAssign (EKey (EVar j) ek) ev) s = ROk tt s' /\ P s' z /\ bound_to k z kvs kvs' /\
    stk s' = stk s /\ holds_map s' j l kvs' /\ unchanged_but l s s'.
Proof.
  intros s j l kvs ek k ev P R H Sm Ke Ve Nw. destruct (holds_mapping s j l kvs R H) as (e & o & I & M). destruct H as (V & En & So & Rf).
  destruct (key_assign e s j l ek k ev P o kvs I V M So Sm Ke Ve) as (s' & o' & z & kvs' & E & I' & Mv & St & En' & Bt & So' & HP & M'). exists s', z, kvs'. split; auto. split; auto. split; auto. split; auto.
  split; [|eapply moved_unchanged; eauto using self_app; destruct M as (O & _); eapply obj_lt; eauto].
  split; [unfold variable; rewrite St; auto|]. split; auto. split; auto. apply (mapping_entries s' l o' kvs'). apply M'.
  destruct Ve as [ev x y Op D X|cs Sc].
  - destruct Nw as [[cs ->]|Nw]; [inversion Op|]. left. subst z. eauto.
  - right. intros (x & y & Op & _). inversion Op.
Qed.
(** Afterwards the key has that value, and every other key the value it had. *)
Theorem C75_values_after_assignment : forall s j l kvs ek k ev P, reachable s -> holds_map s j l kvs -> small (S (length kvs)) -> key_expr s l ek k -> value_expr s l ev P -> no_view s ev ->
  exists s' z kvs', exec (SAssign (EKey (EVar j) ek) ev) s = ROk tt s' /\ P s' z /\ holds_map s' j l kvs' /\
    (forall v, value_of kvs' k v <-> v = z) /\ forall k2 v, key k2 -> ~ equal k2 k -> value_of kvs' k2 v <-> value_of kvs k2 v.
Proof.
  intros s j l kvs ek k ev P R H Sm Ke Ve Nw. destruct (C75_assignment_by_key s j l kvs ek k ev P R H Sm Ke Ve Nw) as (s' & z & kvs' & E & HP & Bt & St & H' & Un).
  pose proof H as (_ & En & So & _). pose proof H' as (_ & En' & So' & _). pose proof (key_expr_key _ _ _ _ Ke) as K.
  destruct (bound_values k z kvs kvs' So (entries_keys _ _ _ En) K Bt) as [B1 B2]. exists s', z, kvs'. do 3 (split; auto). split; auto.
  intros v. split; [|intros ->; auto]. intros Hv. eapply value_unique; eauto. eapply entries_keys; eauto.
Qed.

(** * C76: an undefined variable becomes a map *)
Definition became_map (s : state) (j : nat) (l : nat) (s' : state) : Prop :=
  length (mem s) <= l /\ unchanged_but l s s' /\ forall i, i <> j -> i < length (stk s) -> nth_error (stk s') i = nth_error (stk s) i.
Theorem C76_subscript_makes_a_map : forall s j ek k, reachable s -> variable s j MNil -> key_expr s (length (mem s)) ek k ->
  exists s' l, exec (SDecl (EKey (EVar j) ek)) s = ROk tt s' /\ became_map s j l s' /\ length (stk s') = S (length (stk s)) /\ nth_error (stk s') (length (stk s)) = Some (MRef l 0) /\
    holds_map s' j l [(k, MNil)].
Proof.
  intros s j ek k R V Ke. destruct (reachable_INV s R) as [e I]. assert (Lj : j < length (stk s)) by (eapply ne_lt; eauto).
  destruct (new_key_decl e s j ek k I V Ke) as (s' & l & o' & b0 & E & I' & Ll & St & Eb & Mv & Lb & M'). exists s', l. split; auto.
  destruct (mapping_entries _ _ _ _ M') as [En' Rf']. split; [|split; [|split; [|split; [|split; [|split]]]]]; auto.
  - split; auto. split; [eapply moved_unchanged; eauto|]. intros i Hi Li. rewrite St, nth_error_app1 by (rewrite sn_length; auto). apply sn_other; auto.
  - rewrite St, app_length, sn_length. simpl. lia.
  - rewrite St, nth_error_app2, sn_length, Nat.sub_diag by (rewrite sn_length; auto). reflexivity.
  - unfold variable. rewrite St, nth_error_app1 by (rewrite sn_length; auto). apply sn_same; auto.
  - repeat constructor.
Qed.
Theorem C76_assignment_makes_a_map : forall s j ek k ev P, reachable s -> variable s j MNil -> key_expr s (length (mem s)) ek k -> value_expr s (length (mem s)) ev P -> no_view s ev -> ev <> EVar j ->
  exists s' l z, exec (SAssign (EKey (EVar j) ek) ev) s = ROk tt s' /\ P s' z /\ became_map s j l s' /\ length (stk s') = length (stk s) /\ holds_map s' j l [(k, z)].
Proof.
  intros s j ek k ev P R V Ke Ve Nw Nv. destruct (reachable_INV s R) as [e I]. assert (Lj : j < length (stk s)) by (eapply ne_lt; eauto).
  destruct (new_key_assign e s j ek k ev P I V Ke Ve Nv) as (s' & l & o' & z & b0 & E & I' & Ll & St & Eb & Mv & Lb & En' & HP & M'). exists s', l, z. split; auto.
  split; auto. split; [|split; [|split; [|split; [|split]]]]; auto.
  - split; auto. split; [eapply moved_unchanged; eauto|]. intros i Hi Li. rewrite St. apply sn_other; auto.
  - rewrite St. apply sn_length.
  - unfold variable. rewrite St. apply sn_same; auto.
  - repeat constructor.
  - apply (mapping_entries s' l o' [(k, z)]). apply M'. destruct Ve as [ev x y Op D X|cs Sc].
    + destruct Nw as [[cs ->]|Nw]; [inversion Op|]. left. subst z. eauto.
    + right. intros (x & y & Op & _). inversion Op.
Qed.

(** * C77: reading a key *)
Lemma map_cell : forall s l o kvs i k v, mapping s l o kvs -> nth_error kvs i = Some (k, v) -> der_spec (MRef l i) s v /\ nonref v.
Proof.
  intros s l o kvs i k v (O & V & T & Oks & Sz & Lc & Ce) N. destruct (Ce _ _ N) as (c & Nc & _). simpl in Nc. destruct (Oks _ _ Nc) as (_ & _ & P & _). split; auto.
  exists o. split; auto. unfold plain_vars. rewrite V, T. simpl. exists c. split; auto.
Qed.
Lemma looked_nth : forall k kvs i kvs', looked_up k kvs i kvs' -> exists k' v, nth_error kvs' i = Some (k', v) /\ (value_of kvs k v \/ v = MNil).
Proof.
  intros k kvs i kvs' [a k' v b E Q|a b E _ _].
  - exists k', v. rewrite E, nth_error_app2, Nat.sub_diag by auto. split; auto. left. exists k'. split; auto. apply in_or_app. right. left. auto.
  - exists k, MNil. rewrite nth_error_app2, Nat.sub_diag by auto. auto.
Qed.
Theorem C77_reading_by_key : forall s c old j l kvs ek k, reachable s -> holds_map s j l kvs -> small (S (length kvs)) -> key_expr s l ek k ->
  variable s c old -> assignable s old -> c <> j ->
  exists s' v i kvs', exec (SAssign (EVar c) (EKey (EVar j) ek)) s = ROk tt s' /\ looked_up k kvs i kvs' /\ (value_of kvs k v \/ (forall w, ~ value_of kvs k w) /\ v = MNil) /\
    stk s' = replaced (stk s) c v /\ holds_map s' j l kvs' /\ unchanged_but l s s'.
Proof.
  intros s c old j l kvs ek k R H Sm Ke Vc As Nc. destruct (holds_mapping s j l kvs R H) as (e & o & I & M). destruct H as (V & En & So & Rf).
  assert (Ll : l < length (mem s)) by (destruct M as (O & _); eapply obj_lt; eauto).
  destruct (eval_key e s s j l ek k o kvs I (grew_refl s) V M Ll So Sm Ke) as (s1 & r & o' & i & kvs' & E1 & I1 & Nr & Mv & M1 & Lu & So' & Lr).
  destruct (looked_nth _ _ _ _ Lu) as (k' & v & Nv & Hv). destruct (map_cell _ _ _ _ _ _ _ M1 Nv) as [D Nf].
  apply assignable_ok in As as [No Nw]. pose proof Mv as (O1 & ms & ws & St1 & Lm1 & Ob1). simpl in St1.
  destruct (assign_var_gives e s (EKey (EVar j) ek) s1 r ws (MRef l i) v c old) as (s' & E & I' & Sh); auto.
  { intros m a -> Oa. destruct (Nat.eq_dec m l) as [->|Nm]; [destruct M1 as (O2 & V2 & _); congruence|].
    assert (Lm : live m s) by (eapply inv_stk; [apply I|eapply nth_error_In; exact Vc|reflexivity]). apply live_obj in Lm as [a' Oa'].
    assert (obj m s = Some a) by (eapply moved_other; eauto using obj_lt). apply (Nw m a); auto. }
  destruct Sh as (A & B & C). simpl in A, B. assert (Lc : c < length (stk s)) by (eapply ne_lt; eauto).
  assert (Vj : variable s' j (MPtr l)) by (unfold variable; rewrite A, sn_other; auto).
  assert (O' : obj l s' = Some o').
  { assert (Lv : live l s') by (eapply inv_stk; [apply I'|eapply nth_error_In; exact Vj|reflexivity]). apply live_obj in Lv as [a Oa]. rewrite Oa. apply C in Oa. unfold obj in Oa, O1. simpl in Oa. congruence. }
  assert (M' : mapping s' l o' kvs') by (apply (mapping_within e [] s1 s'); auto; split; auto).
  exists s', v, i, kvs'. split; auto. split; auto. split.
  { destruct Hv as [Hv| ->]; auto. destruct Lu as [a k2 w b Ea Q|a b Ea F1 F2].
    - left. rewrite Ea, nth_error_app2, Nat.sub_diag in Nv by auto. simpl in Nv. inversion Nv; subst. exists k'. split; auto. apply in_or_app. right. left. auto.
    - right. split; auto. intros w (k3 & Hin & Eq). pose proof (entries_keys _ _ _ En) as Ko. unfold keys_ok in Ko. rewrite Forall_forall in Ko. pose proof (Ko _ Hin) as K3. simpl in K3.
      pose proof (key_expr_key _ _ _ _ Ke) as K. apply eq_code in Eq; auto. rewrite Ea in Hin. rewrite Forall_forall in F1, F2.
      apply in_app_or in Hin as [Hin|Hin]; [apply F1 in Hin|apply F2 in Hin]; simpl in Hin; apply key_less in Hin; auto; rewrite Eq, lex_refl in Hin; discriminate. }
  split; [rewrite A; symmetry; apply replaced_sn; auto|]. destruct (mapping_entries _ _ _ _ M') as [En' Rf'].
  split; [split; auto|]. intros m a Nm Lm Om. apply obj_live in Om. apply C in Om. apply obj_live. eapply moved_other; eauto.
Qed.
(** Reading a key that is there changes nothing else. *)
Theorem C77_reading_a_key_that_is_there : forall s c old j l kvs ek k v, reachable s -> holds_map s j l kvs -> small (S (length kvs)) -> key_expr s l ek k ->
  variable s c old -> assignable s old -> c <> j -> value_of kvs k v ->
  exists s', exec (SAssign (EVar c) (EKey (EVar j) ek)) s = ROk tt s' /\ variable s' c v /\ stk s' = replaced (stk s) c v /\ holds_map s' j l kvs /\ unchanged_but l s s'.
Proof.
  intros s c old j l kvs ek k v R H Sm Ke Vc As Nc Hv. destruct (C77_reading_by_key s c old j l kvs ek k R H Sm Ke Vc As Nc) as (s' & w & i & kvs' & E & Lu & Hw & St & H' & Un).
  pose proof H as (_ & En & So & _). pose proof (entries_keys _ _ _ En) as Ko. pose proof (key_expr_key _ _ _ _ Ke) as K.
  destruct (looked_values k kvs i kvs' v So Ko K Lu Hv) as (-> & _). assert (w = v) by (destruct Hw as [Hw|[Hw _]]; [apply (value_unique kvs k w v So Ko K Hw Hv)|exfalso; apply (Hw v Hv)]). subst w.
  exists s'. split; auto. split; [|auto]. unfold variable. rewrite St, replaced_sn, sn_same; auto; eapply ne_lt; eauto.
Qed.

(** * C78: undefined keys, and keys of arrays *)
Lemma decl_any : forall e s f s2 r v ws, INV e [] s2 -> eval (length (stk s)) f s = ROk (LS r) s2 -> named f = false -> nth_error (stk s2) r = Some v -> length (stk s) <= r ->
  stk s2 = stk s ++ ws -> exists s', exec (SDecl f) s = ROk tt s' /\ INV e [] s' /\ shrunk {| mem := mem s2; rc := rc s2; stk := stk s ++ [v] |} s'.
Proof.
  intros e s f s2 r v ws I2 E2 Nf Nr Lr St2. set (s3 := putv (LS r) MNil s2).
  assert (I3 : INV e [v] s3). { apply INV_putv; [apply INV_add0; auto|auto|exact Logic.I]. }
  assert (Lr2 : r < length (stk s2)) by (eapply ne_lt; eauto).
  destruct (leave_gives e [v] s3 (skipn (length (stk s)) (stk s3)) {| mem := mem s3; rc := rc s3; stk := stk s |} I3) as (s4 & E4 & I4 & Sh4).
  { unfold shrunk, ext; simpl. split; auto. rewrite <- (firstn_skipn (length (stk s)) (set_nth (stk s2) r MNil)) at 1. f_equal.
    apply nth_ext. intros n. rewrite nth_firstn. destruct (Nat.ltb_spec n (length (stk s))).
    - rewrite sn_other by lia. rewrite St2, nth_error_app1; auto.
    - symmetry. apply nth_error_None. auto. }
  pose proof Sh4 as (A4 & B4 & C4). simpl in A4, B4. exists (push_s v s4). split; [|split; [apply INV_push; auto|]].
  - unfold exec, declare, keep_value.
    assert (X : (let! v := eval (length (stk s)) f in if named f then copy_of v else take v) s = ROk v s3).
    { rewrite (bind_ok _ _ _ _ _ _ _ E2). replace (if named f then copy_of (LS r) else take (LS r)) with (take (LS r)) by (rewrite Nf; reflexivity).
      unfold take. rewrite (bind_ok _ _ _ _ _ _ _ (get_eq (LS r) _ _ Nr)). rewrite (bind_ok _ _ _ _ _ _ _ (put_eq (LS r) s2 v MNil Nr)). reflexivity. }
    rewrite X. simpl in E4. rewrite (bind_ok _ _ _ _ _ _ _ E4). reflexivity.
  - unfold shrunk; simpl. rewrite A4. auto.
Qed.
Lemma subscript_read : forall e s j l ek x v, INV e [] s -> variable s j (MPtr l) -> operand s ek x -> held v s ->
  (forall q t, INV e [] t -> temps s t -> nth_error (stk t) q = Some x -> index_var (LS j) (LS q) t = ROk v (bump v t)) ->
  exists s', exec (SDecl (EKey (EVar j) ek)) s = ROk tt s' /\ INV e [] s' /\ stk s' = stk s ++ [v] /\ within s s'.
Proof.
  intros e s j l ek x v I Vj Op Hv Ix.
  destruct (operand_gives e s s ek x I (temps_refl s) Op) as (q & s2 & E2 & I2 & T2 & _ & Nq). pose proof (INV_sound _ _ _ I2) as Sd2. assert (Hx : held x s2) by (apply (getv_held (LS q)); auto).
  set (s3 := push_s x (bump x s2)). assert (T3 : temps s s3) by (apply temps_push; auto).
  assert (I3 : INV e [] s3) by (apply INV_push, INV_bump; auto).
  assert (Hv3 : held v s3). { intros m Hm. apply Hv in Hm. apply live_obj in Hm as [a Oa]. apply live_obj. exists a. rewrite (temps_obj s s3 m T3). auto. }
  destruct (scoped_exact _ x (fun q => index_var (LS j) q) e [v] (bump x s2) v (bump v s3) x) as (s5 & E5 & I5 & Sh5).
  - rewrite bump_stk. apply Ix; auto. simpl. rewrite bump_stk, nth_error_app2, Nat.sub_diag by auto. reflexivity.
  - apply INV_bump; auto.
  - rewrite !bump_stk. simpl. rewrite bump_stk. reflexivity.
  - rewrite bump_mem, bump_stk in Sh5. pose proof Sh5 as (A5 & B5 & C5). simpl in A5, B5. destruct T2 as [M2 [ws S2]]. rewrite bump_mem, M2 in B5.
    destruct (decl_any e s (EKey (EVar j) ek) (push_s v s5) (length (stk s5)) v (ws ++ [v])) as (s' & E & I' & Sh).
    + apply INV_push; auto.
    + change (eval (length (stk s)) (EKey (EVar j) ek)) with (let! v := eval (length (stk s)) (EVar j) in let! p := eval (length (stk s)) ek in let! y := copy_of p in let! x := scoped y (fun q => index_var v q) in temp x).
      rewrite (bind_ok _ _ _ _ _ _ _ (eval_var s j _ _ Vj eq_refl s)). rewrite (bind_ok _ _ _ _ _ _ _ E2). rewrite (bind_ok _ _ _ _ _ _ _ (copy_of_eq (LS q) s2 x Sd2 Nq)).
      rewrite (bind_ok _ _ _ _ _ _ _ E5). reflexivity.
    + reflexivity.
    + simpl. rewrite nth_error_app2, Nat.sub_diag by auto. reflexivity.
    + rewrite A5, S2, app_length. lia.
    + simpl. rewrite A5, S2, app_assoc. reflexivity.
    + exists s'. split; auto. split; auto. destruct Sh as (A & B & C). simpl in A, B. split; auto. split; [lia|].
      intros k o K. apply C in K. unfold obj in K. simpl in K. apply (C5 k o) in K. unfold obj in *. simpl in K. rewrite bump_mem, M2 in K. exact K.
Qed.
Lemma nil_defined : forall s q x, nth_error (stk s) q = Some x -> denotes s x MNil -> proper s x MNil -> defined (LS q) s = ROk false s.
Proof.
  intros s q x N D H. unfold defined. rewrite (bind_ok _ _ _ _ _ _ _ (get_eq (LS q) _ _ N)).
  rewrite (bind_ok _ _ (eff x) _ s MNil s); [reflexivity|].
  destruct x as [| | |l i| |]; simpl in D; try discriminate; try contradiction; auto. destruct D as (o & c & O & V & L & Nc & J & Nr).
  pose proof (H l i o eq_refl O) as P. apply obj_live in O. simpl. rewrite (bind_ok _ _ _ _ _ _ _ (get_obj_eq _ _ _ O)). unfold plain_vars. rewrite V.
  destruct (varlike (h_ty o)) eqn:T; [rewrite Nc; reflexivity|]. exfalso.
  assert (Nh : ~ holds_vars (h_ty o)) by (intros [X|X]; rewrite X in T; discriminate). apply P in Nh. destruct Nh as (w & X & _). discriminate X.
Qed.
(** A key that is not defined has no entry: the result is undefined, and nothing is added. *)
Theorem C78_undefined_key : forall s j l kvs ek x, reachable s -> holds_map s j l kvs -> operand s ek x -> denotes s x MNil ->
  exists s', exec (SDecl (EKey (EVar j) ek)) s = ROk tt s' /\ stk s' = stk s ++ [MNil] /\ holds_map s' j l kvs /\ unchanged_but l s s'.
Proof.
  intros s j l kvs ek x R H Op D. pose proof (reachable_proper _ _ _ R D) as Pr. destruct (holds_mapping s j l kvs R H) as (e & o & I & M). destruct H as (V & En & So & Rf). pose proof M as (O & Vo & T & _).
  destruct (subscript_read e s j l ek x MNil I V Op) as (s' & E & I' & St & W).
  - intros m Hm. discriminate.
  - intros q t It Tt Nq. assert (Nj : nth_error (stk t) j = Some (MPtr l)) by (eapply temps_slot; eauto). assert (Ot : obj l t = Some o) by (rewrite (temps_obj s t l Tt); auto).
    unfold index_var. rewrite (bind_ok _ _ _ _ _ _ _ (ptr_deref t (LS j) l Nj)). rewrite (bind_ok _ _ _ _ _ _ _ (ptr_defined t (LS j) l Nj)). cbv zeta. change (negb true) with false. cbv iota.
    rewrite (bind_ok _ _ _ _ _ _ _ (ptr_heap t (LS j) l Nj)). rewrite (bind_ok _ _ _ _ _ _ _ (ptr_atype t (LS j) l Nj o Ot Vo)). rewrite T. change (hcode HPair =? 9)%Z with true. cbv iota.
    rewrite (bind_ok _ _ _ _ _ _ _ (nil_defined t q x Nq (temps_denotes s t x MNil Tt D) ltac:(destruct Tt as [Em _]; unfold proper; rewrite Em; exact Pr))). reflexivity.
  - exists s'. split; auto. split; auto. assert (Vj : variable s' j (MPtr l)) by (unfold variable; rewrite St, nth_error_app1; [auto|eapply ne_lt; eauto]).
    destruct W as [Lm W]. assert (O' : obj l s' = Some o).
    { assert (Lv : live l s') by (eapply inv_stk; [apply I'|eapply nth_error_In; exact Vj|reflexivity]). apply live_obj in Lv as [a Oa]. rewrite Oa. apply W in Oa. congruence. }
    assert (M' : mapping s' l o kvs) by (apply (mapping_within e [] s s'); auto; split; auto). destruct (mapping_entries _ _ _ _ M') as [En' Rf'].
    split; [split; auto|]. intros m a Nm Lm' Om. apply obj_live in Om. apply W in Om. apply obj_live. auto.
Qed.
(** An array that is not a map is indexed by the key as an integer. *)
Theorem C78_key_of_an_array : forall s j l t xs ek x i, reachable s -> variable s j (MPtr l) -> array_at s l t xs -> t <> HPair -> operand s ek x -> denotes s x (MNum (VInt (Z.of_nat i))) ->
  i < length xs ->
  exists s', exec (SDecl (EKey (EVar j) ek)) s = ROk tt s' /\ stk s' = stk s ++ [MRef l i] /\ array_at s' l t xs /\ unchanged_but l s s'.
Proof.
  intros s j l t xs ek x i R V A Nt Op D Li. pose proof (key_int (Z.of_nat i)) as K. destruct (variable_array _ _ _ _ _ R V A) as (e & o & I & O & Vo & Ty & Sz & Lc & Ll & H).
  destruct (subscript_read e s j l ek x (MRef l i) I V Op) as (s' & E & I' & St & W).
  - intros m Hm. inversion Hm; subst. apply live_obj. eauto.
  - intros q u Iu Tu Nq. assert (Nj : nth_error (stk u) j = Some (MPtr l)) by (eapply temps_slot; eauto). assert (Ot : obj l u = Some o) by (rewrite (temps_obj s u l Tu); auto).
    unfold index_var. rewrite (bind_ok _ _ _ _ _ _ _ (ptr_deref u (LS j) l Nj)). rewrite (bind_ok _ _ _ _ _ _ _ (ptr_defined u (LS j) l Nj)). cbv zeta. change (negb true) with false. cbv iota.
    rewrite (bind_ok _ _ _ _ _ _ _ (ptr_heap u (LS j) l Nj)). rewrite (bind_ok _ _ _ _ _ _ _ (ptr_atype u (LS j) l Nj o Ot Vo)).
    replace (hcode (h_ty o) =? 9)%Z with false by (rewrite Ty; destruct t as [[]|]; auto; congruence).
    assert (Du : denotes u x (MNum (VInt (Z.of_nat i)))) by (eapply temps_denotes; eauto).
    assert (Rk : reads_key u (MNum (VInt (Z.of_nat i))) (VInt (Z.of_nat i))) by (split; auto).
    rewrite (bind_ok _ _ (cast_var TInt (LS q)) _ u (VInt (Z.of_nat i)) u).
    + rewrite (index_in_ptr u (LS j) l (Z.of_nat i) o); auto; [rewrite Nat2Z.id; reflexivity|eapply INV_sound; eauto|lia].
    + unfold cast_var. rewrite (bind_ok _ _ _ _ _ _ _ (get_eq (LS q) _ _ Nq)).
      destruct (eff_denotes e [] u x _ _ Iu Du Rk) as [Ef|(l' & i' & -> & Ef & _)]; rewrite (bind_ok _ _ _ _ _ _ _ Ef); cbv iota; [reflexivity|].
      rewrite (bind_ok _ _ _ _ _ _ _ (value_key e [] u _ _ _ Iu Du Rk)). reflexivity.
  - exists s'. split; auto. split; auto. destruct W as [Lm W]. split.
    + assert (O' : obj l s' = Some o).
      { assert (Lv : live l s') by (eapply inv_stk; [apply I'|rewrite St; apply in_or_app; left; eapply nth_error_In; exact V|reflexivity]). apply live_obj in Lv as [a Oa]. rewrite Oa. apply W in Oa. congruence. }
      destruct A as (o1 & A1 & A2). apply obj_live in A1. assert (o1 = o) by congruence. subst. exists o. split; auto. apply obj_live. auto.
    + intros m a Nm Lm' Om. apply obj_live in Om. apply W in Om. apply obj_live. auto.
Qed.

(** * Examples *)
Local Open Scope Z_scope.
Definition text (cs : list Z) : val := VArr TChar (map VChar cs).
(** Three entries, a string and an undefined variable. *)
Definition dict : list stmt :=
  [SDecl ENil; SAssign (EKey (EVar 0) (EStr [97])) (ENum (VInt 1)); SAssign (EKey (EVar 0) (EStr [98])) (ENum (VInt 2)); SAssign (EKey (EVar 0) (EStr [100])) (ENum (VInt 3));
   SDecl (EStr [98]); SDecl ENil].
Definition s_dict : state := Eval vm_compute in after dict.
Definition abd : list (val * mvar) := [(text [97], MNum (VInt 1)); (text [98], MNum (VInt 2)); (text [100], MNum (VInt 3))].
Lemma dict_reached : reachable s_dict. Proof. exists dict. vm_compute. reflexivity. Qed.
Ltac text_key := apply key_string; [let c := fresh in let H := fresh in intros c H; repeat destruct H as [<-|H]; [..|destruct H]; split; discriminate
                                   |let H := fresh in intros H; repeat destruct H as [H|H]; [..|destruct H]; discriminate H].
Lemma reads_text : forall s m cs, key (text cs) -> array_at s m (HE TChar) (map (fun c => MNum (VChar c)) cs) -> reads_key s (MPtr m) (text cs).
Proof. intros s m cs K A. split; auto. right. exists m, cs. auto. Qed.
Ltac in_order := unfold ordered; simpl; repeat (apply SSorted_cons; [|repeat (apply Forall_cons; [vm_compute; reflexivity|]); apply Forall_nil]); apply SSorted_nil.
Lemma plain_value : forall s x, target x = None -> assignable s x.
Proof. intros s x T. split; [intros k i ->; discriminate|intros k o ->; discriminate]. Qed.
Lemma plain_array : forall s m o, nth_error (mem s) m = Some (Some o) -> h_view o = None -> assignable s (MPtr m).
Proof. intros s m o O V. split; [discriminate|]. intros k a E A. injection E as <-. congruence. Qed.
Ltac assigned := first [apply plain_value; reflexivity|eapply plain_array; reflexivity].
Ltac refill := let o := fresh in let c := fresh in let O := fresh in let C := fresh in intros o c O C; vm_compute in O; injection O as <-; cbn [h_cells] in C;
  repeat destruct C as [<-|C]; try contradiction; (split; assigned).
Lemma dict_map : holds_map s_dict 0 1 abd.
Proof.
  split; [reflexivity|]. split; [|split; [in_order|refill]].
  exists [(MPtr 0, MNum (VInt 1)); (MPtr 2, MNum (VInt 2)); (MPtr 3, MNum (VInt 3))]. split; [found|].
  repeat (apply Forall2_cons; [split; [apply reads_text; [text_key|found]|reflexivity]|]). apply Forall2_nil.
Qed.

Lemma key_b : key_expr s_dict 1 (EVar 1) (text [98]).
Proof. apply (ke_operand s_dict 1 (EVar 1) (MPtr 4) (MPtr 4)); [constructor; reflexivity|reflexivity|apply reads_text; [text_key|found]|discriminate]. Qed.
Lemma key_c : forall l, key_expr s_dict l (EStr [99]) (text [99]).
Proof. intros l. apply (ke_string s_dict l [99]); [text_key|reflexivity]. Qed.
Ltac in_dict := eexists; split; [first [left; reflexivity|right; left; reflexivity|right; right; left; reflexivity]|vm_compute; reflexivity].
Example C74_example : exists s' i kvs', exec (SDecl (EKey (EVar 0) (EStr [99]))) s_dict = ROk tt s' /\ looked_up (text [99]) abd i kvs' /\
  stk s' = stk s_dict ++ [MRef 1 i] /\ holds_map s' 0 1 kvs' /\ unchanged_but 1 s_dict s'.
Proof. apply (C74_subscript_by_key s_dict 0 1 abd (EStr [99]) (text [99]) dict_reached dict_map eq_refl (key_c 1)). Qed.
Example C74_value_example : exists s' i, exec (SDecl (EKey (EVar 0) (EVar 1))) s_dict = ROk tt s' /\ stk s' = stk s_dict ++ [MRef 1 i] /\
  denotes s' (MRef 1 i) (MNum (VInt 2)) /\ holds_map s' 0 1 abd /\ unchanged_but 1 s_dict s'.
Proof. apply (C74_reference_to_the_value s_dict 0 1 abd (EVar 1) (text [98]) (MNum (VInt 2)) dict_reached dict_map eq_refl key_b). in_dict. Qed.
Lemma no_c : forall v, ~ value_of abd (text [99]) v.
Proof. intros v (k & H & E). repeat destruct H as [H|H]; try contradiction; injection H as <- <-; vm_compute in E; discriminate. Qed.
Example C74_new_example : exists s' i a b, exec (SDecl (EKey (EVar 0) (EStr [99]))) s_dict = ROk tt s' /\ stk s' = stk s_dict ++ [MRef 1 i] /\ denotes s' (MRef 1 i) MNil /\ unchanged_but 1 s_dict s' /\
  abd = a ++ b /\ i = length a /\ holds_map s' 0 1 (a ++ (text [99], MNil) :: b).
Proof. apply (C74_reference_to_a_new_entry s_dict 0 1 abd (EStr [99]) (text [99]) dict_reached dict_map eq_refl (key_c 1) no_c). Qed.
Lemma value_string : forall l, value_expr s_dict l (EVar 1) (fun _ z => z = MPtr 4).
Proof. intros l. apply (ve_operand s_dict l (EVar 1) (MPtr 4) (MPtr 4)); [constructor; reflexivity|reflexivity|discriminate]. Qed.
Lemma string_no_view : no_view s_dict (EVar 1).
Proof. right. intros x y Op D. inversion Op; subst. unfold variable in *. vm_compute in H0. injection H0 as <-. simpl in D. subst y. eapply plain_array; reflexivity. Qed.
Example C75_example : exists s' z kvs', exec (SAssign (EKey (EVar 0) (EStr [99])) (EVar 1)) s_dict = ROk tt s' /\ z = MPtr 4 /\ bound_to (text [99]) z abd kvs' /\
  stk s' = stk s_dict /\ holds_map s' 0 1 kvs' /\ unchanged_but 1 s_dict s'.
Proof. apply (C75_assignment_by_key s_dict 0 1 abd (EStr [99]) (text [99]) (EVar 1) _ dict_reached dict_map eq_refl (key_c 1) (value_string 1) string_no_view). Qed.
Example C75_values_example : exists s' z kvs', exec (SAssign (EKey (EVar 0) (EVar 1)) (EVar 1)) s_dict = ROk tt s' /\ z = MPtr 4 /\ holds_map s' 0 1 kvs' /\
  (forall v, value_of kvs' (text [98]) v <-> v = z) /\ forall k2 v, key k2 -> ~ equal k2 (text [98]) -> value_of kvs' k2 v <-> value_of abd k2 v.
Proof. apply (C75_values_after_assignment s_dict 0 1 abd (EVar 1) (text [98]) (EVar 1) _ dict_reached dict_map eq_refl key_b (value_string 1) string_no_view). Qed.
Example C76_example : exists s' l, exec (SDecl (EKey (EVar 2) (EStr [99]))) s_dict = ROk tt s' /\ became_map s_dict 2 l s' /\ length (stk s') = S (length (stk s_dict)) /\
  nth_error (stk s') (length (stk s_dict)) = Some (MRef l 0) /\ holds_map s' 2 l [(text [99], MNil)].
Proof. apply (C76_subscript_makes_a_map s_dict 2 (EStr [99]) (text [99]) dict_reached eq_refl (key_c _)). Qed.
Example C76_assignment_example : exists s' l z, exec (SAssign (EKey (EVar 2) (EStr [99])) (EVar 1)) s_dict = ROk tt s' /\ z = MPtr 4 /\ became_map s_dict 2 l s' /\
  length (stk s') = length (stk s_dict) /\ holds_map s' 2 l [(text [99], z)].
Proof. apply (C76_assignment_makes_a_map s_dict 2 (EStr [99]) (text [99]) (EVar 1) _ dict_reached eq_refl (key_c _) (value_string _) string_no_view); discriminate. Qed.
Example C77_example : exists s' v i kvs', exec (SAssign (EVar 2) (EKey (EVar 0) (EStr [99]))) s_dict = ROk tt s' /\ looked_up (text [99]) abd i kvs' /\
  (value_of abd (text [99]) v \/ (forall w, ~ value_of abd (text [99]) w) /\ v = MNil) /\ stk s' = replaced (stk s_dict) 2 v /\ holds_map s' 0 1 kvs' /\ unchanged_but 1 s_dict s'.
Proof. apply (C77_reading_by_key s_dict 2 MNil 0 1 abd (EStr [99]) (text [99]) dict_reached dict_map eq_refl (key_c 1) eq_refl); [apply plain_value; reflexivity|discriminate]. Qed.
Example C77_there_example : exists s', exec (SAssign (EVar 2) (EKey (EVar 0) (EVar 1))) s_dict = ROk tt s' /\ variable s' 2 (MNum (VInt 2)) /\
  stk s' = [MPtr 1; MPtr 4; MNum (VInt 2)] /\ holds_map s' 0 1 abd /\ unchanged_but 1 s_dict s'.
Proof. apply (C77_reading_a_key_that_is_there s_dict 2 MNil 0 1 abd (EVar 1) (text [98]) (MNum (VInt 2)) dict_reached dict_map eq_refl key_b eq_refl); [apply plain_value; reflexivity|discriminate|in_dict]. Qed.
Example C78_example : exists s', exec (SDecl (EKey (EVar 0) (EVar 2))) s_dict = ROk tt s' /\ stk s' = stk s_dict ++ [MNil] /\ holds_map s' 0 1 abd /\ unchanged_but 1 s_dict s'.
Proof. apply (C78_undefined_key s_dict 0 1 abd (EVar 2) MNil dict_reached dict_map); [constructor; reflexivity|reflexivity]. Qed.
Example C78_array_example : exists s', exec (SDecl (EKey (EVar 0) (ENum (VInt 1)))) s_two = ROk tt s' /\ stk s' = stk s_two ++ [MRef 0 1] /\
  array_at s' 0 (HE TChar) [MNum (VChar 97); MNum (VChar 98); MNum (VChar 99)] /\ unchanged_but 0 s_two s'.
Proof.
  apply (C78_key_of_an_array s_two 0 0 (HE TChar) [MNum (VChar 97); MNum (VChar 98); MNum (VChar 99)] (ENum (VInt 1)) (MNum (VInt 1)) 1%nat two_reached eq_refl); [found|discriminate|constructor; reflexivity|reflexivity|simpl; lia].
Qed.

(** * C79: what does not hold *)
(** [m\[k\] = m\[k2\]] with a new key in front of the other throws, and leaves something that is not a
    value under the new key: the value on the right is a reference by position, evaluated first. *)
Theorem C79_assigning_an_own_entry_refuted : exists s j l kvs ek k ek2 k2 v msg s' m, reachable s /\ holds_map s j l kvs /\ small (S (length kvs)) /\ key_expr s l ek k /\
  key_expr s l ek2 k2 /\ value_of kvs k2 v /\ exec (SAssign (EKey (EVar j) ek) (EKey (EVar j) ek2)) s = RThrow msg s' /\
  variable s' j (MPtr l) /\ map_at s' l m /\ In MBad (map snd m).
Proof.
  exists s_dict, 0%nat, 1%nat, abd, (EStr [65]), (text [65]), (EStr [97]), (text [97]), (MNum (VInt 1)). do 2 eexists.
  exists [(MPtr 6, MBad); (MPtr 0, MNum (VInt 1)); (MPtr 2, MNum (VInt 2)); (MPtr 3, MNum (VInt 3))].
  split; [exact dict_reached|]. split; [exact dict_map|]. split; [reflexivity|]. split; [apply (ke_string s_dict 1 [65]); [text_key|reflexivity]|].
  split; [apply (ke_string s_dict 1 [97]); [text_key|reflexivity]|]. split; [in_dict|]. split; [vm_compute; reflexivity|]. split; [reflexivity|]. split; [found|].
  left. reflexivity.
Qed.
(** A map shares the strings of its keys: appending to the variable the key came from puts the keys
    out of order. *)
Definition shared_key : list stmt :=
  [SDecl (EStr [97]); SDecl ENil; SAssign (EKey (EVar 1) (EVar 0)) (ENum (VInt 1)); SAssign (EKey (EVar 1) (EStr [97; 98])) (ENum (VInt 2))].
Definition s_shared_key : state := Eval vm_compute in after shared_key.
Theorem C79_changing_a_key_refuted : exists s j l kvs a cs s' kvs', reachable s /\ holds_map s j l kvs /\ a <> j /\ exec (SAppendStr (EVar a) cs) s = ROk tt s' /\
  variable s' j (MPtr l) /\ entries s' l kvs' /\ ~ ordered kvs'.
Proof.
  exists s_shared_key, 1%nat, 1%nat, [(text [97], MNum (VInt 1)); (text [97; 98], MNum (VInt 2))], 0%nat, [99]. eexists. exists [(text [97; 99], MNum (VInt 1)); (text [97; 98], MNum (VInt 2))].
  split; [exists shared_key; vm_compute; reflexivity|]. split; [|split; [discriminate|split; [vm_compute; reflexivity|split; [reflexivity|split]]]].
  - split; [reflexivity|]. split; [|split; [in_order|refill]]. exists [(MPtr 0, MNum (VInt 1)); (MPtr 2, MNum (VInt 2))]. split; [found|].
    repeat (apply Forall2_cons; [split; [apply reads_text; [text_key|found]|reflexivity]|]). apply Forall2_nil.
  - exists [(MPtr 0, MNum (VInt 1)); (MPtr 2, MNum (VInt 2))]. split; [found|].
    repeat (apply Forall2_cons; [split; [apply reads_text; [text_key|found]|reflexivity]|]). apply Forall2_nil.
  - intros H. unfold ordered in H. simpl in H. inversion H as [|x xs _ F]; subst. inversion F as [|y ys L _]; subst. vm_compute in L. discriminate.
Qed.
