(** Reading keys and searching a map. *)
From Coq Require Import ZArith Bool List String Sorting Lia.
From Verif Require Import Base StrModel ValModel NumModel MemModel ValSpec ValProof MapProof MemProof MemFun MemEq MemDeref MemTriple MemElem MemList MemKey ArrSpec MemArrays MemMap MemMapSpec.
Import ListNotations.
Local Open Scope list_scope.
Local Open Scope mem_scope.
Local Notation length := List.length.

(** * Reading *)
Lemma array_at_mem : forall s s' l t xs, mem s' = mem s -> array_at s l t xs -> array_at s' l t xs.
Proof. intros s s' l t xs E A. unfold array_at. rewrite E. exact A. Qed.
Lemma reads_key_mem : forall s s' y k, mem s' = mem s -> reads_key s y k -> reads_key s' y k.
Proof.
  intros s s' y k E [K [H|(l & cs & Y & Ek & A)]]; split; auto. right. exists l, cs. split; auto. split; auto. eapply array_at_mem; eauto.
Qed.
Lemma mapM_chars : forall f cells cs s, map snd cells = map (fun c => MNum (VChar c)) cs ->
  mapM (fun c : mvar * mvar => read_val (S f) (snd c)) cells s = ROk (map VChar cs) s.
Proof.
  intros f cells. induction cells as [|c cells IH]; intros [|z cs] s E; try discriminate; [reflexivity|].
  simpl in E. inversion E as [[E1 E2]]. cbn [mapM map]. rewrite E1. rewrite (bind_ok _ _ _ _ s (VChar z) s) by reflexivity.
  rewrite (bind_ok _ _ _ _ _ _ _ (IH cs s E2)). reflexivity.
Qed.
Lemma read_val_key : forall f x y k s, eff x s = ROk y s -> reads_key s y k -> read_val (S (S f)) x s = ROk k s.
Proof.
  intros f x y k s E [K [[Nk ->]|(l & cs & -> & -> & A)]].
  - change (read_val (S (S f)) x) with (let! e := eff x in match e with
      | MNil => ret VNil | MNum x => ret x
      | MRef l i => let! x := read_elem l (Z.of_nat i) in match x with MNum y => ret y | _ => stuck end
      | MPtr l => let! o := get_obj l in match h_view o with
         | None => match h_ty o with
            | HPair => let! kv := mapM (fun c => let! k := read_val (S f) (fst c) in let! w := read_val (S f) (snd c) in ret (k, w)) (firstn (h_size o) (h_cells o)) in ret (VMap kv)
            | HE t => let! xs := mapM (fun c => read_val (S f) (snd c)) (firstn (h_size o) (h_cells o)) in ret (VArr t xs) end
         | Some _ => stuck end
      | MBad => stuck | MJunk => ub Uninit end).
    rewrite (bind_ok _ _ _ _ _ _ _ E). reflexivity.
  - change (read_val (S (S f)) x) with (let! e := eff x in match e with
      | MNil => ret VNil | MNum x => ret x
      | MRef l i => let! x := read_elem l (Z.of_nat i) in match x with MNum y => ret y | _ => stuck end
      | MPtr l => let! o := get_obj l in match h_view o with
         | None => match h_ty o with
            | HPair => let! kv := mapM (fun c => let! k := read_val (S f) (fst c) in let! w := read_val (S f) (snd c) in ret (k, w)) (firstn (h_size o) (h_cells o)) in ret (VMap kv)
            | HE t => let! xs := mapM (fun c => read_val (S f) (snd c)) (firstn (h_size o) (h_cells o)) in ret (VArr t xs) end
         | Some _ => stuck end
      | MBad => stuck | MJunk => ub Uninit end).
    rewrite (bind_ok _ _ _ _ _ _ _ E). cbv iota. destruct A as (o & O & V & T & Sz & Ce). apply obj_live in O.
    rewrite (bind_ok _ _ _ _ _ _ _ (get_obj_eq _ _ _ O)). rewrite V, T.
    rewrite (bind_ok _ _ _ _ s (map VChar cs) s); [reflexivity|]. apply mapM_chars. rewrite <- firstn_map, Sz. exact Ce.
Qed.
Lemma eff_denotes : forall e F s x y k, INV e F s -> denotes s x y -> reads_key s y k -> eff x s = ROk y s \/ (exists l i, x = MRef l i /\ eff x s = ROk x s /\ read_elem l (Z.of_nat i) s = ROk y s /\ y = MNum k).
Proof.
  intros e F s x y k I D R. destruct x as [| | |l i| |]; simpl in D; try contradiction; try (subst y; left; reflexivity).
  destruct D as (o & c & O & V & L & N & J & Nr). apply obj_live in O. simpl. rewrite (bind_ok _ _ _ _ _ _ _ (get_obj_eq _ _ _ O)).
  destruct (plain_vars o) eqn:P.
  - left. rewrite N. destruct y; try reflexivity. exfalso. eapply Nr; eauto.
  - right. exists l, i. split; auto. split; auto.
    assert (Dr : der_spec (MRef l i) s y) by (apply (der_cell s l o i y O V); auto; unfold val_at; rewrite N; reflexivity).
    destruct Dr as (o' & O' & Dr). assert (o' = o) by congruence. subst o'. rewrite P in Dr. split; auto.
    destruct R as [_ [[_ ->]|(l' & cs & -> & _)]]; auto. exfalso.
    destruct I as (_ & Ty & _). specialize (Ty l o O). unfold plain_vars in P. rewrite V in P.
    pose proof (proj1 Ty P l') as X. rewrite (cell_occ_nth l' i _ _ N) in X. simpl in X. rewrite (occ1_same l' (MPtr l') eq_refl) in X. lia.
Qed.
Lemma value_key : forall e F s x y k, INV e F s -> denotes s x y -> reads_key s y k -> MemModel.value x s = ROk k s.
Proof.
  intros e F s x y k I D R. unfold MemModel.value. destruct (eff_denotes e F s x y k I D R) as [E|(l & i & -> & E & Rd & ->)].
  - apply (read_val_key _ x y k); auto.
  - change (read_val (S (S (List.length (mem s)))) (MRef l i)) with (let! e := eff (MRef l i) in match e with
      | MNil => ret VNil | MNum x => ret x
      | MRef l i => let! x := read_elem l (Z.of_nat i) in match x with MNum y => ret y | _ => stuck end
      | MPtr l => let! o := get_obj l in match h_view o with
         | None => match h_ty o with
            | HPair => let! kv := mapM (fun c => let! k := read_val (S (length (mem s))) (fst c) in let! w := read_val (S (length (mem s))) (snd c) in ret (k, w)) (firstn (h_size o) (h_cells o)) in ret (VMap kv)
            | HE t => let! xs := mapM (fun c => read_val (S (length (mem s))) (snd c)) (firstn (h_size o) (h_cells o)) in ret (VArr t xs) end
         | Some _ => stuck end
      | MBad => stuck | MJunk => ub Uninit end).
    rewrite (bind_ok _ _ _ _ _ _ _ E). cbv iota. rewrite (bind_ok _ _ _ _ _ _ _ Rd). reflexivity.
Qed.
Lemma key_nonref : forall s y k, reads_key s y k -> denotes s y y /\ nonref y /\ y <> MNil.
Proof. intros s y k [K [[N ->]|(l & cs & -> & -> & A)]]; (split; [reflexivity|]); split; try discriminate; intros ? ? ?; discriminate. Qed.
Lemma key_not_view : forall s y k, reads_key s y k -> not_view s y.
Proof. intros s y k [K [[N ->]|(l & cs & -> & -> & A)]] l0 o0 E O; inversion E; subst. destruct A as (o & A & V & _). apply obj_live in A. congruence. Qed.

(** * Searching *)
Definition keys_read (s : state) (o : hobj) (ks : list val) : Prop :=
  length ks = h_size o /\ forall i k, nth_error ks i = Some k -> exists c v, nth_error (h_cells o) i = Some (c, v) /\ reads_key s c k.
Lemma binary_search_gives : forall f e s this l q o ks x y k lo hi z, INV e [] s -> firm s this l -> obj l s = Some o -> h_view o = None -> h_ty o = HPair ->
  keys_read s o ks -> nth_error (stk s) q = Some x -> denotes s x y -> reads_key s y k ->
  (0 <= lo <= hi)%Z -> (hi <= Z.of_nat (length ks))%Z -> ValModel.binary_loop f (fun w => vlt w k) ks lo hi = Ok z ->
  binary_search this (LS q) true f lo hi s = ROk z s.
Proof.
  induction f as [|f IH]; intros e s this l q o ks x y k lo hi z I Fm O V T Kr Nq D R Lo Hi E; [discriminate|].
  cbn [binary_search ValModel.binary_loop] in *. destruct (Z.eqb_spec lo hi) as [->|Ne]; [inversion E; reflexivity|].
  assert (P : (lo <= (hi - lo) / 2 + lo < hi)%Z).
  { pose proof (Z.div_pos (hi - lo) 2). pose proof (Z.div_lt (hi - lo) 2). lia. }
  rewrite (Z.quot_div_nonneg (hi - lo) 2) by lia. set (pos := ((hi - lo) / 2 + lo)%Z) in *.
  destruct (Z.ltb_spec pos 0); [lia|]. destruct Kr as [Lk Kr]. destruct (nth_error ks (Z.to_nat pos)) as [kk|] eqn:Nk; [|discriminate].
  destruct (Kr _ _ Nk) as (c & v & Nc & Rc). pose proof (INV_sound _ _ _ I) as Sd. pose proof Sd as (Cn & _).
  destruct (pair_copy s this l (Z.to_nat pos) o c v Sd (proj1 Fm) O T) as [E1 Hc]; auto.
  { apply ne_lt in Nk. lia. }
  rewrite Z2Nat.id in E1 by lia. cbv zeta. rewrite (bind_ok _ _ _ _ _ _ _ E1).
  destruct (vlt kk k) as [b| | |] eqn:Vl; try discriminate. cbn [obind] in E.
  assert (E2 : scoped c (fun x => let! a := get x in let! y := get (LS q) in let! a := MemModel.value a in let! y := MemModel.value y in lift (vlt a y)) (bump c s) = ROk b s).
  { set (s1 := push_s c (bump c s)). assert (I1 : INV e [] s1) by (apply INV_push, INV_bump; auto).
    assert (T1 : temps s s1) by (apply temps_push, temps_refl). assert (M1 : mem s1 = mem s) by apply T1.
    assert (G1 : getv (LS (length (stk (bump c s)))) s1 = Some c) by apply getv_push_new.
    eapply scoped_ok with (v' := c) (s1 := bump c s); [|reflexivity|apply release_bump; auto]. fold s1.
    rewrite (bind_ok _ _ _ _ _ _ _ (get_eq _ _ _ G1)). rewrite (bind_ok _ _ _ _ _ _ _ (get_eq (LS q) _ _ (temps_slot _ _ _ _ T1 Nq))).
    rewrite (bind_ok _ _ _ _ _ _ _ (value_key e [] s1 c c kk I1 (proj1 (key_nonref s1 c kk (reads_key_mem s s1 c kk M1 Rc))) (reads_key_mem s s1 c kk M1 Rc))).
    rewrite (bind_ok _ _ _ _ _ _ _ (value_key e [] s1 x y k I1 (temps_denotes _ _ _ _ T1 D) (reads_key_mem s s1 y k M1 R))). rewrite Vl. reflexivity. }
  rewrite (bind_ok _ _ _ _ _ _ _ E2). destruct b; eapply (IH e s this l q o ks x y k); eauto; try (split; auto); lia.
Qed.
Lemma binary_gives : forall e s this l q o ks x y k z, INV e [] s -> firm s this l -> obj l s = Some o -> h_view o = None -> h_ty o = HPair ->
  keys_read s o ks -> nth_error (stk s) q = Some x -> denotes s x y -> reads_key s y k -> ValModel.binary ks k = Ok z ->
  MemModel.binary this (LS q) s = ROk z s.
Proof.
  intros e s this l q o ks x y k z I Fm O V T Kr Nq D R E. unfold MemModel.binary. unfold ValModel.binary in E. pose proof (proj1 Kr) as Lk.
  rewrite (bind_ok _ _ _ _ _ _ _ (ptr_size s this l (proj1 Fm) o O V)). rewrite <- Lk.
  destruct (Z.eqb_spec (Z.of_nat (length ks)) 0); [inversion E; reflexivity|].
  rewrite (bind_ok _ _ _ _ _ _ _ (ptr_is_array s this l (proj1 Fm) o 9 O V)). rewrite T. change (hcode HPair =? 9)%Z with true. rewrite Nat2Z.id.
  eapply (binary_search_gives (S (length ks)) e s this l q o ks x y k); eauto; lia.
Qed.

(** * The keyed subscript of a map *)
Lemma scoped_exact : forall A v (body : lval -> M A) e F s a s1 v', body (LS (length (stk s))) (push_s v s) = ROk a s1 -> INV e F s1 -> stk s1 = stk s ++ [v'] ->
  exists s2, scoped v body s = ROk a s2 /\ INV e F s2 /\ shrunk {| mem := mem s1; rc := rc s1; stk := stk s |} s2.
Proof.
  intros A v body e F s a s1 v' B I St. eapply scoped_gives; [exact B|exact I| |reflexivity].
  pose proof (stk_push_inv s v' s1 St) as E. rewrite <- E. apply shrunk_refl.
Qed.
Lemma okpairs_push : forall w s o, okpairs s o -> okpairs (push_s w s) o.
Proof. intros w s o Ok k c N. destruct (Ok k c N) as (A & B & C & D). split; auto. Qed.
Lemma scoped_insert : forall e s this l q x y o idx, INV e [] s -> firm s this l -> nth_error (stk s) q = Some x ->
  obj l s = Some o -> h_view o = None -> h_ty o = HPair -> okpairs s o -> h_size o <= length (h_cells o) -> idx <= h_size o ->
  (Z.of_nat (h_size o) + 1 < 2 ^ 30)%Z -> denotes s x y -> (forall i, x <> MRef l i) -> not_view s y ->
  exists s' o', (let! x := copy_of (LS q) in scoped x (fun p => insert this p (Z.of_nat idx))) s = ROk tt s' /\ INV e [] s' /\ became l o' s s' /\ firm s' this l /\ okpairs s' o' /\
    h_ty o' = HPair /\ h_view o' = None /\ h_size o' = S (h_size o) /\ S (h_size o) <= length (h_cells o') /\
    forall k, k < S (h_size o) -> nth_error (h_cells o') k =
      if (k <? idx)%nat then nth_error (h_cells o) k else if (k =? idx)%nat then Some (y, MNil) else nth_error (h_cells o) (k - 1).
Proof.
  intros e s this l q x y o idx I Fm Nq O V T Ok C Li Sm D X Nv. pose proof (INV_sound _ _ _ I) as Sd. pose proof (obj_lt _ _ _ O) as Ll.
  assert (Hx : held x s) by (apply (getv_held (LS q)); auto). set (s1 := push_s x (bump x s)).
  assert (T1 : temps s s1) by (apply temps_push, temps_refl).
  destruct (insert_pair_gives e s1 this l (length (stk s)) x y o idx) as (s2 & o' & E2 & I2 & B2 & Fm2 & Ok2 & H1 & H2 & H3 & H4 & H5); auto.
  - apply INV_push, INV_bump; auto.
  - apply firm_push, firm_bump; auto.
  - unfold s1. rewrite <- (bump_stk x s). apply getv_push_new.
  - rewrite (temps_obj _ _ _ T1); auto.
  - apply okpairs_push, okpairs_bump; auto.
  - eapply temps_denotes; eauto.
  - apply not_view_push, not_view_bump; auto.
  - rewrite (bind_ok _ _ _ _ _ _ _ (copy_of_eq (LS q) s x Sd Nq)).
    destruct (scoped_exact _ x (fun p => insert this p (Z.of_nat idx)) e [] (bump x s) tt s2 x) as (s3 & E3 & I3 & Sh3); auto.
    + rewrite bump_stk. exact E2.
    + rewrite (became_stk _ _ _ _ B2). reflexivity.
    + pose proof B2 as [(St2 & Lm2 & Ob2) O2].
      assert (Sh : shrunk (set_mem l o' s) s3).
      { eapply shrunk_trans; [|exact Sh3]. unfold shrunk. simpl. rewrite bump_stk. split; auto. split; [rewrite Lm2; simpl; rewrite bump_mem; reflexivity|].
        intros k ok Ok'. assert (Q : obj k s2 = Some ok) by exact Ok'. apply Ob2 in Q. unfold s1 in Q. unfold obj, set_mem in Q |- *. simpl in *. rewrite bump_mem in Q. exact Q. }
      destruct (firm_shrunk e [] s s3 this l o' Fm Ll Sh I3) as [B3 Fm3].
      exists s3, o'. split; auto. split; auto. split; auto. split; auto. split; [|auto].
      intros k c N. destruct (Ok2 k c N) as (P1 & P2 & P3 & P4).
      assert (Tr : forall w, not_view s2 w -> not_view s3 w). { intros w Hw m om E Om. apply (proj2 (proj2 Sh3)) in Om. apply (Hw m om E). exact Om. }
      split; auto.
Qed.
Lemma lookup_gives : forall e s this l q o ks x y k, INV e [] s -> firm s this l -> obj l s = Some o -> h_view o = None -> h_ty o = HPair ->
  okpairs s o -> h_size o <= length (h_cells o) -> (Z.of_nat (h_size o) + 1 < 2 ^ 30)%Z ->
  keys_read s o ks -> StronglySorted less ks -> nth_error (stk s) q = Some x -> denotes s x y -> reads_key s y k -> (forall i, x <> MRef l i) ->
  exists s' o' i, lookup this (LS q) s = ROk (MRef l i) (bump (MPtr l) s') /\ INV e [] s' /\ became l o' s s' /\ firm s' this l /\ okpairs s' o' /\
    h_ty o' = HPair /\ h_view o' = None /\ h_size o' <= length (h_cells o') /\
    ((s' = s /\ o' = o /\ exists kk, nth_error ks i = Some kk /\ equal kk k) \/
     (h_size o' = S (h_size o) /\ i <= h_size o /\ (forall n kk, nth_error ks n = Some kk -> if (n <? i)%nat then less kk k else less k kk) /\
      forall n, n < S (h_size o) -> nth_error (h_cells o') n =
        if (n <? i)%nat then nth_error (h_cells o) n else if (n =? i)%nat then Some (y, MNil) else nth_error (h_cells o) (n - 1))).
Proof.
  intros e s this l q o ks x y k I Fm O V T Oks C Sm Kr So Nq D R X. pose proof (INV_sound _ _ _ I) as Sd. pose proof (obj_lt _ _ _ O) as Ll.
  pose proof (proj1 R) as Kk. pose proof (proj1 Kr) as Lk.
  assert (Ky : forall n kk, nth_error ks n = Some kk -> key kk) by (intros n kk Nn; destruct (proj2 Kr _ _ Nn) as (? & ? & _ & [Q _]); exact Q).
  set (l0 := map (fun w => (w, VNil)) ks).
  assert (M0 : map fst l0 = ks) by (unfold l0; rewrite map_map; simpl; apply map_id).
  assert (Mo : map_ok l0).
  { split.
    - unfold l0. clear - So Ky. induction ks as [|a ks IH]; simpl; constructor.
      + apply IH; [inversion So; auto|intros n kk Nn; apply (Ky (S n) kk); auto].
      + inversion So; subst. rewrite Forall_forall in H2 |- *. intros p Hp. apply in_map_iff in Hp. destruct Hp as (w & <- & Hw). unfold clt; simpl.
        apply key_less; auto; [apply (Ky 0 a); auto|]. apply In_nth_error in Hw as [n Hn]. apply (Ky (S n) w). auto.
    - unfold l0. rewrite Forall_forall. intros p Hp. apply in_map_iff in Hp. destruct Hp as (w & <- & Hw). simpl. apply In_nth_error in Hw as [n Hn]. eauto. }
  destruct (map_split l0 k Mo) as (l1 & l2 & E0 & H1 & H2).
  assert (Eb : ValModel.binary ks k = Ok (Z.of_nat (length l1))).
  { rewrite <- M0. rewrite E0. apply map_binary; auto. rewrite <- E0. apply Mo. }
  set (i := length l1) in *.
  assert (Len : length ks = i + length l2) by (rewrite <- M0, map_length, E0, app_length; reflexivity).
  assert (Nth : forall n kk, nth_error ks n = Some kk -> if (n <? i)%nat then lex (code kk) (code k) = Lt else lex (code kk) (code k) <> Lt).
  { intros n kk Nn. assert (Q : nth_error l0 n = Some (kk, VNil)) by (unfold l0; rewrite nth_error_map, Nn; reflexivity). rewrite E0 in Q.
    destruct (Nat.ltb_spec n i).
    - rewrite nth_error_app1 in Q by auto. apply nth_error_In in Q. rewrite Forall_forall in H1. apply (H1 _ Q).
    - rewrite nth_error_app2 in Q by auto. apply nth_error_In in Q. rewrite Forall_forall in H2. apply (H2 _ Q). }
  assert (Df : defined (LS q) s = ROk true s).
  { unfold defined. rewrite (bind_ok _ _ _ _ _ _ _ (get_eq (LS q) _ _ Nq)).
    destruct (eff_denotes e [] s x y k I D R) as [E|(l' & i' & -> & E & _)]; rewrite (bind_ok _ _ _ _ _ _ _ E); auto.
    destruct (key_nonref _ _ _ R) as (_ & _ & Nn). destruct y; try reflexivity. congruence. }
  unfold lookup. rewrite (bind_ok _ _ _ _ _ _ _ Df). change (negb true) with false. cbv iota.
  rewrite (bind_ok _ _ _ _ _ _ _ (binary_gives e s this l q o ks x y k _ I Fm O V T Kr Nq D R Eb)).
  rewrite (bind_ok _ _ _ _ _ _ _ (ptr_size s this l (proj1 Fm) o O V)).
  assert (Ins : (forall n kk, nth_error ks n = Some kk -> i <= n -> lex (code kk) (code k) = Gt) ->
     exists s' o', ((let! x := copy_of (LS q) in scoped x (fun p => insert this p (Z.of_nat i))) ;; reference this (Z.of_nat i)) s = ROk (MRef l i) (bump (MPtr l) s') /\
       INV e [] s' /\ became l o' s s' /\ firm s' this l /\ okpairs s' o' /\ h_ty o' = HPair /\ h_view o' = None /\ h_size o' <= length (h_cells o') /\
       h_size o' = S (h_size o) /\ i <= h_size o /\ (forall n kk, nth_error ks n = Some kk -> if (n <? i)%nat then less kk k else less k kk) /\
       forall n, n < S (h_size o) -> nth_error (h_cells o') n =
        if (n <? i)%nat then nth_error (h_cells o) n else if (n =? i)%nat then Some (y, MNil) else nth_error (h_cells o) (n - 1)).
  { intros Hg. destruct (scoped_insert e s this l q x y o i I Fm Nq O V T Oks C) as (s' & o' & E' & I' & B' & Fm' & Ok' & P1 & P2 & P3 & P4 & P5); auto; try lia.
    { eapply key_not_view; eauto. }
    exists s', o'. split; [|do 7 (split; [auto|]); [lia|split; [auto|split; [lia|split; [|auto]]]]].
    - rewrite (bind_ok _ _ _ _ _ _ _ E'). rewrite (ptr_reference s' this l (INV_sound _ _ _ I') (proj1 Fm')) by lia. rewrite Nat2Z.id. reflexivity.
    - intros n kk Nn. specialize (Nth n kk Nn). destruct (Nat.ltb_spec n i); apply key_less; eauto. rewrite lex_antisym, (Hg n kk) by auto. reflexivity. }
  destruct (Z.leb_spec (Z.of_nat (h_size o)) (Z.of_nat i)).
  - destruct Ins as (s' & o' & Q). { intros n kk Nn Ln. apply ne_lt in Nn. lia. }
    destruct Q as (Q1 & Q2 & Q3 & Q4 & Q5 & Q6 & Q7 & Q8 & Q9). exists s', o', i. do 8 (split; [auto|]). right. auto.
  - destruct (ne_some _ ks i) as [kk Nk]; [lia|]. destruct (proj2 Kr _ _ Nk) as (c & v & Nc & Rc).
    assert (Gk : getv (LK l (h_gen o) i) s = Some c) by (simpl; rewrite O, Nat.eqb_refl, Nc; reflexivity).
    assert (Step : forall A (g : bool -> M A) b, vneq kk k = Ok b -> (let! k := key_ptr this (Z.of_nat i) in let! a := get k in let! y := get (LS q) in let! a := MemModel.value a in let! y := MemModel.value y in
              let! ne := lift (vneq a y) in g ne) s = g b s).
    { intros A g b Eb'. rewrite (bind_ok _ _ _ _ _ _ _ (key_ptr_eq s this l i o (proj1 Fm) O T ltac:(lia))). rewrite (bind_ok _ _ _ _ _ _ _ (get_eq _ _ _ Gk)).
      rewrite (bind_ok _ _ _ _ _ _ _ (get_eq (LS q) _ _ Nq)). rewrite (bind_ok _ _ _ _ _ _ _ (value_key e [] s c c kk I (proj1 (key_nonref _ _ _ Rc)) Rc)).
      rewrite (bind_ok _ _ _ _ _ _ _ (value_key e [] s x y k I D R)). rewrite (bind_ok _ _ _ _ s b s); [reflexivity|]. rewrite Eb'. reflexivity. }
    pose proof (key_neq_code kk k (Ky _ _ Nk) Kk) as En. pose proof (Nth _ _ Nk) as Nlt. rewrite Nat.ltb_irrefl in Nlt.
    destruct (lex (code kk) (code k)) eqn:El; [|congruence|].
    + exists s, o, i. split.
      * unfold bind at 1. rewrite (Step unit _ _ En). cbv beta iota delta [is_eq negb ret]. rewrite (ptr_reference s this l Sd (proj1 Fm)) by lia. rewrite Nat2Z.id. reflexivity.
      * do 3 (split; [auto using became_refl|]). do 4 (split; [auto|]). left. split; auto. split; auto. exists kk. split; auto. apply key_equal; eauto. apply lex_eq; auto.
    + destruct Ins as (s' & o' & Q).
      { intros n kn Nn Ln. destruct (Nat.eq_dec n i) as [->|Dn]; [congruence|].
        assert (Lt1 : lex (code kk) (code kn) = Lt).
        { apply key_less; eauto. clear - So Nk Nn Ln Dn. assert (L : i < n) by lia. clear Ln Dn. revert ks So Nk Nn L. generalize i. clear i.
          induction n; intros i ks So Nk Nn L; [lia|]. destruct ks as [|a ks]; [discriminate|]. inversion So; subst. simpl in Nn. destruct i.
          - inversion Nk; subst. rewrite Forall_forall in H2. apply H2. eapply nth_error_In; eauto.
          - apply (IHn i ks); auto. lia. }
        assert (Lt2 : lex (code k) (code kn) = Lt) by (eapply lex_trans; [rewrite lex_antisym, El; reflexivity|exact Lt1]).
        rewrite lex_antisym, Lt2. reflexivity. }
      destruct Q as (Q1 & Q2 & Q3 & Q4 & Q5 & Q6 & Q7 & Q8 & Q9). exists s', o', i. split; [|do 7 (split; [auto|]); right; auto].
      unfold bind at 1. rewrite (Step unit _ _ En). cbv beta iota delta [is_eq negb]. exact Q1.
Qed.
