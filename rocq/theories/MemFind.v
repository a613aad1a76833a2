(** Finding a key without adding it, and the keys of a map. *)
From Coq Require Import ZArith Bool List String Sorting Lia.
From Verif Require Import Base StrModel ValModel NumModel MemModel ValSpec ValProof MapProof MemProof MemFun MemEq MemDeref MemTriple MemElem MemList MemKey MemArr ArrSpec MemArrays MemMap MemMapSpec MemLook MemMaps MemMapProps.
Import ListNotations.
Local Open Scope list_scope.
Local Open Scope mem_scope.
Local Notation length := List.length.

Lemma position : forall ks k, Forall key ks -> StronglySorted less ks -> key k ->
  exists i, ValModel.binary ks k = Ok (Z.of_nat i) /\ i <= length ks /\
    forall n kk, nth_error ks n = Some kk -> if (n <? i)%nat then lex (code kk) (code k) = Lt else lex (code kk) (code k) <> Lt.
Proof.
  intros ks k Ky So Kk. rewrite Forall_forall in Ky. set (l0 := map (fun w => (w, VNil)) ks).
  assert (M0 : map fst l0 = ks) by (unfold l0; rewrite map_map; simpl; apply map_id).
  assert (Mo : map_ok l0).
  { split.
    - unfold l0. clear - So Ky. induction ks as [|a ks IH]; simpl; constructor.
      + apply IH; [intros x Hx; apply Ky; right; auto|inversion So; auto].
      + inversion So; subst. rewrite Forall_forall in H2 |- *. intros p Hp. apply in_map_iff in Hp. destruct Hp as (w & <- & Hw). unfold clt; simpl.
        apply key_less; auto; apply Ky; simpl; auto.
    - unfold l0. rewrite Forall_forall. intros p Hp. apply in_map_iff in Hp. destruct Hp as (w & <- & Hw). simpl. auto. }
  destruct (map_split l0 k Mo) as (l1 & l2 & E0 & H1 & H2). exists (length l1). split; [|split].
  - rewrite <- M0. rewrite E0. apply map_binary; auto. rewrite <- E0. apply Mo.
  - rewrite <- M0, map_length, E0, app_length. lia.
  - intros n kk Nn. assert (Q : nth_error l0 n = Some (kk, VNil)) by (unfold l0; rewrite nth_error_map, Nn; reflexivity). rewrite E0 in Q.
    destruct (Nat.ltb_spec n (length l1)).
    + rewrite nth_error_app1 in Q by auto. apply nth_error_In in Q. rewrite Forall_forall in H1. apply (H1 _ Q).
    + rewrite nth_error_app2 in Q by auto. apply nth_error_In in Q. rewrite Forall_forall in H2. apply (H2 _ Q).
Qed.
Lemma at_key_gives : forall e s j l q o kvs x y k, INV e [] s -> nth_error (stk s) j = Some (MPtr l) -> mapping s l o kvs -> ordered kvs ->
  nth_error (stk s) q = Some x -> denotes s x y -> reads_key s y k ->
  (exists i k' v, nth_error kvs i = Some (k', v) /\ equal k' k /\ at_key (LS j) (LS q) s = ROk (MRef l i) (bump (MRef l i) s)) \/
  ((forall v, ~ value_of kvs k v) /\ at_key (LS j) (LS q) s = ROk MNil s).
Proof.
  intros e s j l q o kvs x y k I Nj (O & V & T & Oks & Sz & Lc & Ce) So Nq D R. pose proof (INV_sound _ _ _ I) as Sd. pose proof (proj1 R) as Kk.
  assert (Kr : keys_read s o (map fst kvs)).
  { split; [rewrite map_length; auto|]. intros n kk Nn. rewrite nth_error_map in Nn. destruct (nth_error kvs n) as [kv|] eqn:E; [|discriminate]. inversion Nn; subst kk.
    destruct (Ce _ _ E) as (c & A & B). eauto. }
  assert (Ky : forall n kk, nth_error (map fst kvs) n = Some kk -> key kk) by (intros n kk Nn; destruct (proj2 Kr _ _ Nn) as (? & ? & _ & [Q _]); exact Q).
  assert (Kf : Forall key (map fst kvs)) by (rewrite Forall_forall; intros kk Hin; apply In_nth_error in Hin as [n Hn]; eauto).
  destruct (position (map fst kvs) k Kf So Kk) as (i & Eb & Li & Nth). rewrite map_length in Li.
  assert (Fm : firm s (LS j) l) by (split; [exact Nj|exact Logic.I]).
  assert (Step : at_key (LS j) (LS q) s = (if (Z.of_nat (h_size o) <=? Z.of_nat i)%Z then ret MNil else
    let! k := key_ptr (LS j) (Z.of_nat i) in let! a := get k in let! y := get (LS q) in let! a := MemModel.value a in let! y := MemModel.value y in
    let! ne := lift (vneq a y) in if ne : bool then ret MNil else reference (LS j) (Z.of_nat i)) s).
  { unfold at_key. rewrite (bind_ok _ _ _ _ _ _ _ (ptr_defined s (LS j) l Nj)). change (negb true) with false. cbv iota.
    rewrite (bind_ok _ _ _ _ _ _ _ (ptr_heap s (LS j) l Nj)). cbv iota.
    rewrite (bind_ok _ _ _ _ s tt s); [|rewrite (bind_ok _ _ _ _ _ _ _ (ptr_atype s (LS j) l Nj o O V)); rewrite T; reflexivity].
    rewrite (bind_ok _ _ _ _ _ _ _ (binary_gives e s (LS j) l q o (map fst kvs) x y k _ I Fm O V T Kr Nq D R Eb)).
    rewrite (bind_ok _ _ _ _ _ _ _ (ptr_size s (LS j) l Nj o O V)). reflexivity. }
  assert (Abs : (forall n kk, nth_error (map fst kvs) n = Some kk -> lex (code kk) (code k) <> Eq) -> forall v, ~ value_of kvs k v).
  { intros H v (k' & Hin & Eq). apply (in_map fst) in Hin. simpl in Hin. apply In_nth_error in Hin as [n Hn]. apply (H _ _ Hn). apply eq_code in Eq; eauto. rewrite Eq. apply lex_refl. }
  destruct (Z.leb_spec (Z.of_nat (h_size o)) (Z.of_nat i)).
  - right. split; [|rewrite Step; reflexivity]. apply Abs. intros n kk Hn. pose proof (ne_lt _ _ _ _ Hn) as Ln. rewrite map_length in Ln. specialize (Nth _ _ Hn).
    destruct (Nat.ltb_spec n i); [rewrite Nth; discriminate|lia].
  - destruct (ne_some _ kvs i) as [[kk v] Nk]; [lia|]. destruct (Ce _ _ Nk) as (c & Nc & Rc). simpl in Nc, Rc.
    assert (Nk' : nth_error (map fst kvs) i = Some kk) by (rewrite nth_error_map, Nk; reflexivity).
    assert (Gk : getv (LK l (h_gen o) i) s = Some c) by (simpl; rewrite O, Nat.eqb_refl, Nc; reflexivity).
    rewrite (bind_ok _ _ _ _ _ _ _ (key_ptr_eq s (LS j) l i o Nj O T ltac:(lia))) in Step. rewrite (bind_ok _ _ _ _ _ _ _ (get_eq _ _ _ Gk)) in Step.
    rewrite (bind_ok _ _ _ _ _ _ _ (get_eq (LS q) _ _ Nq)) in Step. rewrite (bind_ok _ _ _ _ _ _ _ (value_key e [] s c c kk I (proj1 (key_nonref _ _ _ Rc)) Rc)) in Step.
    rewrite (bind_ok _ _ _ _ _ _ _ (value_key e [] s x y k I D R)) in Step.
    pose proof (key_neq_code kk k (Ky _ _ Nk') Kk) as En.
    rewrite (bind_ok _ _ _ _ s (negb (is_eq (lex (code kk) (code k)))) s) in Step by (rewrite En; reflexivity).
    pose proof (Nth _ _ Nk') as Nlt. rewrite Nat.ltb_irrefl in Nlt. destruct (lex (code kk) (code k)) eqn:El; [|congruence|].
    + left. exists i, kk, v. split; auto. split; [apply key_equal; eauto; apply lex_eq; auto|]. rewrite Step. cbv beta iota delta [is_eq negb].
      rewrite (ptr_reference s (LS j) l Sd Nj) by lia. rewrite Nat2Z.id. reflexivity.
    + right. split; [|rewrite Step; reflexivity]. apply Abs. intros n kn Hn. specialize (Nth _ _ Hn). destruct (Nat.ltb_spec n i) as [|Ln]; [rewrite Nth; discriminate|].
      destruct (Nat.eq_dec n i) as [->|Dn]; [congruence|].
      assert (Lt1 : lex (code kk) (code kn) = Lt).
      { apply key_less; eauto. clear - So Nk' Hn Ln Dn. unfold ordered in So. assert (L : i < n) by lia. clear Ln Dn. revert So Nk' Hn L. generalize (map fst kvs) as ks. revert i.
        induction n; intros i ks So Nk Nn L; [lia|]. destruct ks as [|a ks]; [discriminate|]. inversion So; subst. simpl in Nn. destruct i.
        - inversion Nk; subst. rewrite Forall_forall in H2. apply H2. eapply nth_error_In; eauto.
        - apply (IHn i ks); auto. lia. }
      assert (Lt2 : lex (code k) (code kn) = Lt) by (eapply lex_trans; [rewrite lex_antisym, El; reflexivity|exact Lt1]).
      rewrite lex_antisym, Lt2. discriminate.
Qed.

(** [m.at(k)] for a variable: what a search of the map gives is what the declared variable gets. *)
Lemma find_decl : forall e s j l ek k o kvs, INV e [] s -> variable s j (MPtr l) -> mapping s l o kvs -> ordered kvs -> key_expr s l ek k ->
  exists v s', exec (SDecl (EFind (EVar j) ek)) s = ROk tt s' /\ INV e [] s' /\ stk s' = stk s ++ [v] /\ length (mem s) <= length (mem s') /\
    (forall m a, m < length (mem s) -> obj m s' = Some a -> obj m s = Some a) /\
    ((exists i k' w, nth_error kvs i = Some (k', w) /\ equal k' k /\ v = MRef l i) \/ (forall w, ~ value_of kvs k w) /\ v = MNil).
Proof.
  intros e s j l ek k o kvs I Vj Mp So Ke. pose proof Mp as (O & _). pose proof (obj_lt _ _ _ O) as Ll.
  destruct (key_grew e s s l ek k I (grew_refl s) Ll Ke) as (q & s2 & x & y & E2 & I2 & G2 & Nq & D & R & X).
  pose proof (INV_sound _ _ _ I2) as Sd2. assert (Hx : held x s2) by (apply (getv_held (LS q)); auto). pose proof Sd2 as (Cn2 & _).
  assert (Nj : nth_error (stk s2) j = Some (MPtr l)) by (eapply grew_slot; eauto).
  set (s3 := push_s x (bump x s2)). assert (T3 : temps s2 s3) by apply temps_push, temps_refl. assert (I3 : INV e [] s3) by (apply INV_push, INV_bump; auto).
  assert (M3 : mapping s3 l o kvs) by (apply (mapping_grew e [] s); auto; eapply grew_trans; [exact G2|apply grew_temps; auto]).
  assert (Nx3 : nth_error (stk s3) (length (stk s2)) = Some x) by (simpl; rewrite bump_stk, nth_error_app2, Nat.sub_diag by auto; reflexivity).
  assert (At : exists v, at_key (LS j) (LS (length (stk (bump x s2)))) s3 = ROk v (bump v s3) /\ held v s3 /\
    ((exists i k' w, nth_error kvs i = Some (k', w) /\ equal k' k /\ v = MRef l i) \/ (forall w, ~ value_of kvs k w) /\ v = MNil)).
  { rewrite bump_stk. destruct (at_key_gives e s3 j l (length (stk s2)) o kvs x y k) as [(i & k' & w & A & B & C)|[A C]]; auto.
    - eapply temps_slot; eauto.
    - eapply temps_denotes; eauto.
    - eapply grew_key; [apply grew_temps; exact T3|auto].
    - exists (MRef l i). split; auto. split; [|left; exists i, k', w; auto]. intros m Hm. inversion Hm; subst. apply live_obj. exists o. apply M3.
    - exists MNil. split; auto. split; [discriminate|auto]. }
  destruct At as (v & Ev & Hv & Cs).
  destruct (scoped_exact _ x (fun q => at_key (LS j) q) e [v] (bump x s2) v (bump v s3) x) as (s5 & E5 & I5 & Sh5).
  - exact Ev.
  - apply INV_bump; auto.
  - rewrite !bump_stk. simpl. rewrite bump_stk. reflexivity.
  - rewrite bump_mem, bump_stk in Sh5. pose proof Sh5 as (A5 & B5 & C5). simpl in A5, B5. destruct G2 as [[ms M2] [ws S2]]. rewrite bump_mem in B5.
    destruct (decl_any e s (EFind (EVar j) ek) (push_s v s5) (length (stk s5)) v (ws ++ [v])) as (s' & E & I' & Sh).
    + apply INV_push; auto.
    + change (eval (length (stk s)) (EFind (EVar j) ek)) with (let! v := eval (length (stk s)) (EVar j) in let! p := eval (length (stk s)) ek in let! y := copy_of p in let! x := scoped y (fun q => at_key v q) in temp x).
      rewrite (bind_ok _ _ _ _ _ _ _ (eval_var s j _ _ Vj eq_refl s)). rewrite (bind_ok _ _ _ _ _ _ _ E2). rewrite (bind_ok _ _ _ _ _ _ _ (copy_of_eq (LS q) s2 x Sd2 Nq)).
      rewrite (bind_ok _ _ _ _ _ _ _ E5). reflexivity.
    + reflexivity.
    + simpl. rewrite nth_error_app2, Nat.sub_diag by auto. reflexivity.
    + rewrite A5, S2, app_length. lia.
    + simpl. rewrite A5, S2, app_assoc. reflexivity.
    + exists v, s'. split; auto. split; auto. destruct Sh as (A & B & C). simpl in A, B. split; auto. split; [rewrite B, B5, M2, app_length; lia|]. split; [|auto].
      intros m a Lm K. apply C in K. unfold obj in K. simpl in K. apply (C5 m a) in K. unfold obj in *. simpl in K. rewrite bump_mem, M2, nth_error_app1 in K by auto. exact K.
Qed.
