(** Proofs about listings of directories. *)
From Coq Require Import ZArith Bool List Lia ZifyBool String Permutation Sorted.
From Verif Require Import Base ValModel ValSpec ValProof ValProps StrModel StrSpec StrProof JsonModel IniModel MapProof IniProof PathModel PathSpec.
Import ListNotations.
Local Notation length := List.length.
Local Open Scope list_scope.
Local Open Scope Z_scope.

(** * Maps with texts as keys *)
Notation J := (VNil, VNil).
Definition text_ok (x : str) : Prop := chars x /\ nul_free x.
Definition vkeys (ops : list (str * val)) : list (val * val) := map (fun o => (vstr (fst o), snd o)) ops.
Lemma vstr_key : forall x, text_ok x -> key (vstr x).
Proof. intros x [A B]. apply key_string; auto. Qed.
Definition sholds (l : list (val * val)) (cur : str -> option val) : Prop :=
  map_ok l /\ (forall x, text_ok x -> lookup l (vstr x) = cur x) /\ (forall p, In p l -> exists x, text_ok x /\ fst p = vstr x).
Definition override (x : str) (v : val) (cur : str -> option val) : str -> option val := fun y => if list_eq_dec Z.eq_dec x y then Some v else cur y.
Lemma sholds_put : forall l cur x v, sholds l cur -> text_ok x -> exists l', map_put J l (vstr x) v = Ok l' /\ sholds l' (override x v cur).
Proof.
  intros l cur x v (H1 & H2 & H3) Hx. destruct (map_put_lookup J l (vstr x) v H1 (vstr_key x Hx)) as (l' & E & M & _ & I & L).
  exists l'. split; auto. split; auto. split.
  - intros y Hy. rewrite L, (same_code_str x y (proj1 Hx) (proj1 Hy)), H2 by auto. unfold override. destruct (list_eq_dec Z.eq_dec x y); auto.
  - intros p Hp. destruct (I p Hp) as [X|(_ & [X|X])]; [auto|eauto|]. apply in_map_iff in X. destruct X as (q & <- & Hq). auto.
Qed.
Fixpoint found (ops : list (str * val)) (x : str) : option val :=
  match ops with [] => None | (y, v) :: t => match found t x with Some w => Some w | None => if list_eq_dec Z.eq_dec y x then Some v else None end end.
Lemma sholds_assigns : forall ops l cur, sholds l cur -> Forall (fun o => text_ok (fst o)) ops ->
  exists l', assigns J (VMap l) (vkeys ops) = Ok (VMap l') /\ sholds l' (fun x => match found ops x with Some v => Some v | None => cur x end).
Proof.
  induction ops as [|[x v] ops IH]; intros l cur H F; [exists l; split; [reflexivity|exact H]|]. inversion F as [|? ? Fx F']; subst. cbn [fst] in Fx.
  destruct (sholds_put l cur x v H Fx) as (l1 & E & H1). destruct (IH l1 _ H1 F') as (l2 & E2 & H2). exists l2. split.
  - cbn [vkeys map fst snd assigns assign]. rewrite E. cbn [obind]. exact E2.
  - destruct H2 as (A & B & C). split; auto. split; auto. intros y Hy. rewrite (B y Hy). cbn [found]. destruct (found ops y); auto. unfold override. destruct (list_eq_dec Z.eq_dec x y); auto.
Qed.
Lemma found_in : forall ops x v, NoDup (map fst ops) -> In (x, v) ops -> found ops x = Some v.
Proof.
  assert (N : forall ops x, ~ In x (map fst ops) -> found ops x = None).
  { induction ops as [|[y v] ops IH]; intros x H; auto. cbn [found map fst In] in *. rewrite IH by tauto. destruct (list_eq_dec Z.eq_dec y x); [tauto|auto]. }
  induction ops as [|[y w] ops IH]; intros x v D H; [destruct H|]. inversion D; subst. cbn [found]. destruct H as [H|H].
  - injection H as -> ->. rewrite N by auto. destruct (list_eq_dec Z.eq_dec x x); congruence.
  - rewrite (IH x v) by auto. auto.
Qed.
Lemma found_some : forall ops x v, found ops x = Some v -> In x (map fst ops).
Proof. induction ops as [|[y w] ops IH]; intros x v H; [discriminate|]. cbn [found] in H. destruct (found ops x) eqn:E; [right; eauto|]. destruct (list_eq_dec Z.eq_dec y x); [left; auto|discriminate]. Qed.
Lemma sholds_nil : sholds [] (fun _ => None).
Proof. split; [apply map_ok_nil|split; [reflexivity|intros p []]]. Qed.
Lemma strings_map : forall ops, ops <> [] -> NoDup (map fst ops) -> Forall (fun o => text_ok (fst o)) ops ->
  exists m, assigns J VNil (vkeys ops) = Ok (VMap m) /\ sorted_map m /\ (forall k, In k (map fst m) <-> exists x, In x (map fst ops) /\ k = vstr x) /\
    forall x v, In (x, v) ops -> at_var (RVar (VMap m)) (vstr x) = Ok v.
Proof.
  intros ops Hn D F. destruct (sholds_assigns ops [] _ sholds_nil F) as (m & E & M1 & M2 & M3). exists m. split.
  { destruct ops as [|[x v] ops]; [congruence|]. exact E. }
  split; [apply sorted_map_ok; auto|]. rewrite Forall_forall in F. split.
  - intros k. split.
    + intros H. apply in_map_iff in H. destruct H as (p & <- & Hp). destruct (M3 p Hp) as (x & Hx & Ex). exists x. split; auto.
      specialize (M2 x Hx). destruct (found ops x) eqn:Fo; [eapply found_some; eauto|]. exfalso. apply (lookup_none_inv _ _ M2 p Hp). rewrite Ex. auto.
    + intros (x & Hx & ->). apply in_map_iff in Hx. destruct Hx as ([y v] & <- & Hin). cbn [fst]. specialize (F _ Hin). cbn [fst] in F.
      specialize (M2 y F). rewrite (found_in ops y v D Hin) in M2. apply lookup_some_in in M2. destruct M2 as (kk & Hk & Hc).
      destruct (M3 _ Hk) as (z & Hz & Ez). cbn [fst] in Ez. subst kk. apply vstr_code in Hc; [|apply Hz|apply F]. subst z. apply (in_map fst) in Hk. auto.
  - intros x v Hin. specialize (F _ Hin). cbn [fst] in F. rewrite at_var_lookup by (auto using vstr_key). rewrite (M2 x F), (found_in ops x v D Hin). reflexivity.
Qed.
(** A sorted map is determined by what it holds. *)
Lemma sorted_unique : forall l l', map_ok l -> map_ok l' -> (forall p, In p l <-> In p l') -> l = l'.
Proof.
  induction l as [|a l IH]; intros l' [S F] [S' F'] H.
  - destruct l' as [|b l']; auto. destruct (proj2 (H b) (or_introl eq_refl)).
  - destruct l' as [|b l']; [destruct (proj1 (H a) (or_introl eq_refl))|].
    inversion S as [|? ? S1 S2]; inversion S' as [|? ? S1' S2']; inversion F; inversion F'; subst. rewrite Forall_forall in S2, S2'.
    assert (irr : forall p, ~ clt p p) by (intros p X; unfold clt in X; rewrite lex_refl in X; discriminate).
    assert (a = b).
    { destruct (proj1 (H a) (or_introl eq_refl)) as [E|E]; auto. destruct (proj2 (H b) (or_introl eq_refl)) as [E'|E']; auto.
      specialize (S2 b E'). specialize (S2' a E). exfalso. apply (irr a). unfold clt in *. eapply lex_trans; eauto. }
    subst b. f_equal. apply IH; [split; auto|split; auto|]. intros p. split; intros Hp.
    + destruct (proj1 (H p) (or_intror Hp)) as [E|E]; auto. subst p. exfalso. apply (irr a). auto.
    + destruct (proj2 (H p) (or_intror Hp)) as [E|E]; auto. subst p. exfalso. apply (irr a). auto.
Qed.

(** * Paths *)
Lemma last_rev : forall (p : str), last p 0 = hd 0 (rev p).
Proof. intros p. rewrite <- (rev_involutive p) at 1. destruct (rev p) as [|c r]; auto. cbn [rev hd]. apply last_last. Qed.
Lemma join_slash : forall p x, join p x = slash p x.
Proof.
  intros p x. unfold join, slash. rewrite last_rev. destruct (rev p) as [|c r]; [reflexivity|]. cbn [hd].
  destruct (Z.eqb_spec c 47) as [->|H]; [reflexivity|]. destruct c as [|q|q]; auto. repeat (destruct q as [q|q|]; auto). congruence.
Qed.
Lemma before_slash_app : forall a b, ~ In 47 a -> before_slash (a ++ b) = (a ++ fst (before_slash b), snd (before_slash b)).
Proof.
  induction a as [|c a IH]; intros b H; [cbn [app]; destruct (before_slash b); auto|]. cbn [app before_slash].
  destruct (Z.eqb_spec c 47) as [->|N]; [exfalso; apply H; left; auto|]. rewrite IH by (intros X; apply H; right; auto). reflexivity.
Qed.
(** The reversed path of an entry: name, slash, rest. *)
Lemma rev_join : forall p x, p <> [] -> exists r, rev (join p x) = rev x ++ 47 :: r /\ strip_slashes (47 :: r) = strip_slashes (rev p).
Proof.
  intros p x Hp. unfold join. destruct (rev p) as [|c r] eqn:E.
  { apply (f_equal (@rev Z)) in E. rewrite rev_involutive in E. cbn in E. congruence. }
  destruct (Z.eqb_spec c 47) as [->|N].
  - exists r. cbn [app]. rewrite rev_app_distr, E. split; auto.
  - exists (rev p). replace (match c with 47 => [] | _ => [47] end) with [47] by (destruct c as [|q|q]; auto; repeat (destruct q as [q|q|]; auto); congruence).
    rewrite rev_app_distr, rev_app_distr. cbn [rev app]. rewrite <- app_assoc. split; [reflexivity|]. rewrite E. reflexivity.
Qed.
Lemma filename_join : forall p x, p <> [] -> ~ In 47 x -> filename (join p x) = x.
Proof.
  intros p x Hp Hx. unfold filename. destruct (rev_join p x Hp) as (r & -> & _). rewrite before_slash_app by (rewrite <- in_rev; auto).
  cbn [before_slash]. rewrite Z.eqb_refl. cbn [fst]. rewrite app_nil_r, rev_involutive. auto.
Qed.
Lemma strip_spec : forall r, exists k, r = repeat 47 k ++ strip_slashes r /\ hd 0 (strip_slashes r) <> 47.
Proof.
  induction r as [|c r (k & E & H)]; [exists 0%nat; split; [auto|discriminate]|]. cbn [strip_slashes]. destruct (Z.eqb_spec c 47) as [->|N].
  - exists (S k). cbn [repeat app]. rewrite <- E. auto.
  - exists 0%nat. auto.
Qed.
Lemma rev_repeat : forall (c : Z) k, rev (repeat c k) = repeat c k.
Proof. intros c k. induction k; auto. cbn [repeat rev]. rewrite IHk. clear. induction k; cbn; auto. f_equal. auto. Qed.
Lemma parent_join : forall p x, p <> [] -> ~ In 47 x -> exists k, (p = parent_path (join p x) ++ repeat 47 k \/ (p = repeat 47 (S k) /\ parent_path (join p x) = [47])) /\
  (parent_path (join p x) = [47] \/ last (parent_path (join p x)) 0 <> 47).
Proof.
  intros p x Hp Hx. unfold parent_path. destruct (rev_join p x Hp) as (r & -> & Es). rewrite before_slash_app by (rewrite <- in_rev; auto).
  cbn [before_slash]. rewrite Z.eqb_refl. cbn [snd]. rewrite Es. destruct (strip_spec (rev p)) as (k & E & H).
  apply (f_equal (@rev Z)) in E. rewrite rev_involutive, rev_app_distr, rev_repeat in E.
  destruct (strip_slashes (rev p)) as [|c s] eqn:D.
  - destruct k as [|k]; [cbn in E; congruence|]. exists k. split; [right; split; auto|auto].
  - exists k. split; [left; exact E|right]. rewrite last_rev, rev_involutive. auto.
Qed.
Lemma before_dot_spec : forall r, match before_dot r with Some (a, b) => exists e, a = e ++ [46] /\ r = a ++ b /\ ~ In 46 e | None => ~ In 46 r end.
Proof.
  induction r as [|c r IH]; [intros []|]. cbn [before_dot]. destruct (Z.eqb_spec c 46) as [->|N]; [exists []; auto|].
  destruct (before_dot r) as [[a b]|].
  - destruct IH as (e & -> & -> & He). exists (c :: e). split; auto. split; auto. intros [X|X]; [lia|auto].
  - intros [X|X]; [lia|auto].
Qed.
Lemma bits_parts : forall p x, p <> [] -> name_ok x -> nul_free p -> parts p x (bits (join p x)).
Proof.
  intros p x Hp (X1 & X2 & X3 & X4 & X5 & X6) Np. unfold bits, stem_extension. rewrite filename_join by auto.
  destruct (parent_join p x Hp X4) as (k & Pa & Pb). set (pp := parent_path (join p x)) in *.
  assert (Fp : nul_free pp). { destruct Pa as [E|[_ E]]; [|rewrite E; intros [H|[]]; discriminate]. intros H. apply Np. rewrite E. apply in_app_iff. auto. }
  destruct (list_eq_dec Z.eq_dec x [46; 46]) as [?|_]; [congruence|].
  pose proof (before_dot_spec (rev x)) as B. destruct (before_dot (rev x)) as [[a b]|].
  - destruct B as (e & -> & E & He). apply (f_equal (@rev Z)) in E. rewrite rev_involutive, rev_app_distr, rev_app_distr in E. cbn [rev app] in E.
    destruct b as [|c b].
    + exists pp, x, []. rewrite !c_str_id by (auto; intros []). split; auto. split; [eauto|]. split; auto. rewrite app_nil_r. split; auto. split; auto. split; [|congruence].
      intros _. rewrite E. cbn. rewrite <- in_rev. auto.
    + exists pp, (rev (c :: b)), (46 :: rev e). rewrite rev_app_distr. cbn [rev app] in *.
      assert (Fx : nul_free (rev b ++ [c]) /\ nul_free (46 :: rev e)) by (unfold nul_free in *; rewrite E in X3; split; intros H; apply X3; apply in_app_iff; auto).
      destruct Fx. rewrite !c_str_id by auto. split; auto. split; [eauto|]. split; auto. split; auto. split; [destruct (rev b); discriminate|]. split; [discriminate|].
      intros _. exists (rev e). split; auto. rewrite <- in_rev. auto.
  - exists pp, x, []. rewrite !c_str_id by (auto; intros []). split; auto. split; [eauto|]. split; auto. rewrite app_nil_r. split; auto. split; auto. split; [|congruence].
    intros _ H. apply B. rewrite <- in_rev. destruct x; [destruct H|right; auto].
Qed.

(** * Listings *)
Section Node.
Variable P : node -> Prop.
Hypothesis PF : P File.
Hypothesis PD : forall es, (forall x n, In (x, n) es -> P n) -> P (Dir es).
Fixpoint node_rec' (n : node) : P n :=
  match n with
  | File => PF
  | Dir es => PD es ((fix go (es : list (str * node)) : forall x n, In (x, n) es -> P n :=
      match es with
      | [] => fun x n H => match H with end
      | (y, m) :: t => fun x n H => match H with or_introl E => eq_ind m P (node_rec' m) n (f_equal snd E) | or_intror H => go t x n H end
      end) es)
  end.
End Node.
Lemma below_dir : forall p es, below p (Dir es) = List.concat (map (fun e => join p (fst e) :: below (join p (fst e)) (snd e)) es).
Proof. intros p es. cbn [below]. induction es as [|[x n] es IH]; auto. cbn [map List.concat fst snd app]. f_equal. f_equal. exact IH. Qed.
Lemma below_leads : forall n p q, In q (below p n) <-> exists xs m, leads n xs m /\ q = full p xs.
Proof.
  intros n. induction n as [|es IH] using node_rec'; intros p q.
  - split; [intros []|intros (xs & m & H & _); inversion H].
  - rewrite below_dir, in_concat. split.
    + intros (l & Hl & Hq). apply in_map_iff in Hl. destruct Hl as ([x n] & <- & Hin). cbn [fst snd] in Hq. rewrite join_slash in Hq. destruct Hq as [<-|Hq].
      * exists [x], n. split; [constructor; auto|reflexivity].
      * apply (IH x n Hin) in Hq. destruct Hq as (xs & m & Hm & ->). exists (x :: xs), m. split; [econstructor 2; eauto|reflexivity].
    + intros (xs & m & H & ->). inversion H as [? x n Hin|? x n xs' m' Hin Hm]; subst.
      * eexists. split; [apply in_map; exact Hin|]. left. cbn [fst]. apply join_slash.
      * eexists. split; [apply in_map; exact Hin|]. right. cbn [fst snd]. rewrite join_slash. apply (IH x n Hin). eauto.
Qed.
Definition tail_ok (s : str) : Prop := s = [] \/ hd 0 s = 47.
Lemma join_longer : forall p x, x <> [] -> last x 0 <> 47 -> forall y, join (join p x) y = join p x ++ 47 :: y.
Proof.
  intros p x Hx Hl y. rewrite (join_slash (join p x)). unfold slash.
  assert (E : last (join p x) 0 = last x 0).
  { rewrite !last_rev. unfold join. rewrite !rev_app_distr. destruct (rev x) as [|c r] eqn:R; [apply (f_equal (@rev Z)) in R; rewrite rev_involutive in R; cbn in R; congruence|reflexivity]. }
  rewrite E. replace (last x 0 =? 47) with false by lia. reflexivity.
Qed.
Lemma name_last : forall x, name_ok x -> x <> [] /\ last x 0 <> 47.
Proof.
  intros x (H & _ & _ & N & _). split; auto. rewrite last_rev. destruct (rev x) as [|c r] eqn:E; [cbn; lia|]. cbn [hd]. intros ->. apply N. apply in_rev. rewrite E. left. auto.
Qed.
Lemma full_below : forall xs q, Forall name_ok xs -> (exists p x, q = join p x /\ name_ok x) -> exists s, full q xs = q ++ s /\ (xs = [] -> s = []) /\ (xs <> [] -> s <> [] /\ hd 0 s = 47).
Proof.
  induction xs as [|y xs IH]; intros q F (p & x & -> & Hx); [exists []; cbn; rewrite app_nil_r; split; auto; split; congruence|].
  inversion F as [|? ? Hy F']; subst. cbn [full fold_left]. fold (full (slash (join p x) y) xs).
  destruct (IH (slash (join p x) y) F') as (s & E & _).
  { exists (join p x), y. rewrite <- join_slash. auto. }
  rewrite E, <- join_slash. destruct (name_last x Hx). rewrite join_longer by auto. exists (47 :: y ++ s). rewrite <- app_assoc. split; auto. split; [congruence|]. intros _. split; [discriminate|auto].
Qed.
Lemma leads_names : forall n xs m, wf n -> leads n xs m -> Forall name_ok xs.
Proof.
  intros n xs m W H. revert W. induction H as [es x n Hin|es x n xs m Hin H IH]; intros W; inversion W as [|? D A]; subst; destruct (A _ _ Hin) as [A1 A2]; constructor; auto.
Qed.
Lemma join_inj : forall p x y s s', ~ In 47 x -> ~ In 47 y -> tail_ok s -> tail_ok s' -> join p x ++ s = join p y ++ s' -> x = y.
Proof.
  intros p x y s s' Hx Hy Hs Hs' E. unfold join in E. rewrite <- !app_assoc in E. apply app_inv_head, app_inv_head in E.
  revert y Hy E. induction x as [|c x IH]; intros [|d y] Hy E; auto; cbn [app] in E.
  - exfalso. subst s. destruct Hs as [Hs|Hs]; [discriminate|]. cbn in Hs. apply Hy. left. auto.
  - exfalso. subst s'. destruct Hs' as [Ht|Ht]; [discriminate|]. cbn in Ht. apply Hx. left. auto.
  - injection E as -> E. f_equal. apply IH; auto; intros X; [apply Hx|apply Hy]; right; auto.
Qed.
Lemma under : forall p x n q, name_ok x -> wf n -> In q (below (join p x) n) -> exists s, q = join p x ++ s /\ s <> [] /\ hd 0 s = 47.
Proof.
  intros p x n q Hx W H. apply below_leads in H. destruct H as (xs & m & Hl & ->).
  destruct (full_below xs (join p x)) as (s & E & _ & Hs); [eapply leads_names; eauto|eauto|]. exists s. split; auto. apply Hs. inversion Hl; discriminate.
Qed.
Lemma NoDup_app' : forall (A : Type) (a b : list A), NoDup a -> NoDup b -> (forall x, In x a -> ~ In x b) -> NoDup (a ++ b).
Proof.
  induction a as [|x a IH]; intros b Ha Hb H; auto. inversion Ha; subst. cbn. constructor.
  - rewrite in_app_iff. intros [X|X]; [auto|]. apply (H x); [left; auto|auto].
  - apply IH; auto. intros y Hy. apply H. right. auto.
Qed.
Lemma below_distinct : forall n p, wf n -> NoDup (below p n).
Proof.
  intros n. induction n as [|es IH] using node_rec'; intros p W; [constructor|]. rewrite below_dir. inversion W as [|? D A]; subst. clear W.
  induction es as [|[x n] es IHes]; [constructor|]. cbn [map List.concat fst snd] in *. inversion D as [|? ? D1 D2]; subst.
  destruct (A x n (or_introl eq_refl)) as [Nx Wn].
  assert (Q : forall q, In q (join p x :: below (join p x) n) -> exists s, q = join p x ++ s /\ tail_ok s).
  { intros q [<-|Hq]; [exists []; rewrite app_nil_r; split; [auto|left; auto]|]. destruct (under p x n q Nx Wn Hq) as (s & -> & _ & Hs). exists s. split; [auto|right; auto]. }
  apply NoDup_app'.
  - constructor; [|apply (IH x n); [left; auto|auto]]. intros X. destruct (under p x n _ Nx Wn X) as (s & E & Hs & _). apply Hs.
    rewrite <- (app_nil_r (join p x)) in E at 1. apply app_inv_head in E. auto.
  - apply IHes; auto; intros; [eapply IH; [right; eauto|auto]|eapply A; right; eauto].
  - intros q Hq X. destruct (Q q Hq) as (s & -> & Hs). apply in_concat in X. destruct X as (l & Hl & X). apply in_map_iff in Hl. destruct Hl as ([y m] & <- & Hin). cbn [fst snd] in X.
    destruct (A y m (or_intror Hin)) as [Ny Wm].
    assert (exists s', join p x ++ s = join p y ++ s' /\ tail_ok s') as (s' & E & Hs').
    { destruct X as [X|X]; [exists []; rewrite app_nil_r; split; [auto|left; auto]|]. destruct (under p y m _ Ny Wm X) as (s' & E & _ & H'). exists s'. split; [auto|right; auto]. }
    apply join_inj in E; auto; [|apply Nx|apply Ny]. subst y. apply D1. change x with (fst (x, m)). apply in_map. auto.
Qed.
Lemma join_text : forall p x, text_ok p -> text_ok x -> text_ok (join p x).
Proof.
  intros p x [A B] [C D]. rewrite join_slash. unfold slash. destruct (last p 0 =? 47); (split; [intros c H|intros H]); apply in_app_iff in H; destruct H as [H|H]; auto; destruct H as [H|H]; auto; lia.
Qed.
Lemma full_ok : forall xs p, path_ok p -> Forall name_ok xs -> path_ok (full p xs).
Proof.
  induction xs as [|x xs IH]; intros p P F; auto. inversion F as [|? ? Hx F']; subst. cbn [full fold_left]. apply IH; auto. destruct P as (P1 & P2 & P3). destruct Hx as (_ & X2 & X3 & _).
  rewrite <- join_slash. destruct (join_text p x (conj P2 P3) (conj X2 X3)). split; auto. rewrite join_slash. unfold slash. destruct (last p 0 =? 47); destruct p; discriminate || congruence.
Qed.
Definition entry (iVal : bool) (p : str) : str * val := (p, if iVal then bits p else VNil).
Lemma enters_assigns : forall iVal ps m, Forall nul_free ps -> enters iVal m ps = assigns J m (vkeys (map (entry iVal) ps)).
Proof.
  induction ps as [|p ps IH]; intros m F; auto. inversion F as [|? ? Hp F']; subst. cbn [enters map vkeys assigns entry fst snd]. unfold enter. rewrite (c_str_id p) by auto.
  destruct (assign J m (vstr p) (if iVal then bits p else VNil)); cbn [obind]; auto.
Qed.
(** Every listing: the map of its paths. *)
Lemma enters_map : forall iVal ps, ps <> [] -> NoDup ps -> Forall text_ok ps ->
  exists m, enters iVal VNil ps = Ok (VMap m) /\ sorted_map m /\ (forall k, In k (map fst m) <-> exists q, In q ps /\ k = vstr q) /\
    forall q, In q ps -> at_var (RVar (VMap m)) (vstr q) = Ok (if iVal then bits q else VNil).
Proof.
  intros iVal ps Hn D F. assert (M : map fst (map (entry iVal) ps) = ps) by (rewrite map_map; apply map_id).
  destruct (strings_map (map (entry iVal) ps)) as (m & E & S & K & V); [destruct ps; [congruence|discriminate]|rewrite M; auto|apply Forall_map; auto|].
  exists m. rewrite M in K. rewrite enters_assigns by (eapply Forall_impl; [|exact F]; intros ? [_ X]; exact X). split; auto. split; auto. split; auto.
  intros q Hq. apply V. change (q, if iVal then bits q else VNil) with (entry iVal q). apply in_map. auto.
Qed.

(** * Trees *)
Definition sub (p : str) (n : node) : outcome val := match n with Dir _ => tree_of p n | File => Ok VNil end.
Fixpoint tree_go (p : str) (dir : val) (es : list (str * node)) : outcome val :=
  match es with
  | [] => Ok dir
  | (x, m) :: t =>
    let* v := sub (join p x) m in
    let* dir := assign J dir (vstr (c_str (filename (join p x)))) v in
    tree_go p dir t
  end.
Lemma tree_dir : forall p es, tree_of p (Dir es) = tree_go p VNil es.
Proof.
  intros p es. cbn [tree_of]. match goal with |- ?f VNil es = _ => set (go := f) end. generalize VNil as d.
  induction es as [|[x n] es IH]; intros d; auto. cbn [tree_go].
  transitivity (let* v := sub (join p x) n in let* dir := assign J d (vstr (c_str (filename (join p x)))) v in go dir es); [reflexivity|].
  destruct (sub (join p x) n) as [v| | |]; cbn [obind]; auto. destruct (assign J d (vstr (c_str (filename (join p x)))) v); cbn [obind]; auto.
Qed.
Lemma tree_go_assigns : forall p es ops d, p <> [] -> Forall2 (fun e o => fst e = fst o /\ sub (join p (fst e)) (snd e) = Ok (snd o)) es ops ->
  Forall (fun e => name_ok (fst e)) es -> tree_go p d es = assigns J d (vkeys ops).
Proof.
  intros p es ops d Hp H. revert d. induction H as [|[x n] [y v] es ops [E1 E2] H IH]; intros d F; auto. cbn [fst snd] in *. subst y.
  inversion F as [|? ? Fx F']; subst. cbn [fst] in Fx. destruct Fx as (X1 & X2 & X3 & X4 & _). cbn [tree_go vkeys map fst snd assigns]. rewrite E2. cbn [obind]. rewrite filename_join, c_str_id by auto.
  destruct (assign J d (vstr x) v); cbn [obind]; auto.
Qed.
Lemma join_ne : forall p x, p <> [] -> join p x <> [].
Proof. intros [|c p] x H; [congruence|discriminate]. Qed.
Lemma subs : forall p es, (forall x n, In (x, n) es -> exists v, sub (join p x) n = Ok v /\ shows n v) ->
  exists ops, Forall2 (fun e o => fst e = fst o /\ sub (join p (fst e)) (snd e) = Ok (snd o)) es ops /\ Forall2 (fun e o => fst e = fst o /\ shows (snd e) (snd o)) es ops.
Proof.
  induction es as [|[x n] es IH]; intros H; [exists []; split; constructor|]. destruct (H x n (or_introl eq_refl)) as (v & V1 & V2).
  destruct IH as (ops & A & B); [intros; apply H; right; auto|]. exists ((x, v) :: ops). split; constructor; auto.
Qed.
Lemma Forall2_fst : forall (A B : Type) (R : str * A -> str * B -> Prop) es ops, (forall a b, R a b -> fst a = fst b) -> Forall2 R es ops -> map fst es = map fst ops.
Proof. intros A B R es ops H F. induction F; cbn; auto. f_equal; auto. Qed.
Lemma Forall2_in_l : forall (A B : Type) (R : A -> B -> Prop) l l' a, Forall2 R l l' -> In a l -> exists b, In b l' /\ R a b.
Proof. intros A B R l l' a F H. induction F as [|x y l l' Hxy F IH]; [destruct H|]. destruct H as [->|H]; [exists y; split; [left|]; auto|]. destruct (IH H) as (b & Hb & Rb). exists b. split; [right|]; auto. Qed.
Lemma Forall2_in_r : forall (A B : Type) (R : A -> B -> Prop) l l' b, Forall2 R l l' -> In b l' -> exists a, In a l /\ R a b.
Proof. intros A B R l l' a F H. induction F as [|x y l l' Hxy F IH]; [destruct H|]. destruct H as [->|H]; [exists x; split; [left|]; auto|]. destruct (IH H) as (b & Hb & Rb). exists b. split; [right|]; auto. Qed.
Lemma sub_shows : forall n p, p <> [] -> wf n -> exists v, sub p n = Ok v /\ shows n v.
Proof.
  intros n. induction n as [|es IH] using node_rec'; intros p Hp W; [exists VNil; split; [reflexivity|constructor]|].
  inversion W as [|? D A]; subst. cbn [sub]. rewrite tree_dir.
  destruct es as [|e es0]; [exists VNil; split; [reflexivity|constructor]|]. remember (e :: es0) as es eqn:He.
  destruct (subs p es) as (ops & O1 & O2). { intros x n Hin. destruct (A x n Hin). apply (IH x n Hin); auto using join_ne. }
  assert (M : map fst es = map fst ops) by (eapply Forall2_fst; [|exact O2]; intros a b [X _]; exact X).
  assert (T : Forall (fun e => name_ok (fst e)) es) by (rewrite Forall_forall; intros [x n] Hin; apply (A x n Hin)).
  destruct (strings_map ops) as (m & E & S & K & V).
  - intros ->. inversion O2. congruence.
  - rewrite <- M. auto.
  - rewrite Forall_forall in *. intros [x v] Hin. destruct (Forall2_in_r _ _ _ _ _ _ O2 Hin) as ([y n] & Hy & Ey & _). cbn [fst] in *. subst y. destruct (T _ Hy) as (_ & T2 & T3 & _). split; auto.
  - exists (VMap m). rewrite (tree_go_assigns p es ops VNil Hp O1 T), E. split; auto. rewrite <- M in K. apply shows_dir; auto; [subst es; discriminate|].
    intros x n Hin. destruct (Forall2_in_l _ _ _ _ _ _ O2 Hin) as ([y v] & Hy & Ey & Sv). cbn [fst snd] in *. subst y. exists v. split; auto.
Qed.
Lemma same_entries : forall es es' x n, same (Dir es) (Dir es') ->
  (In (x, n) es -> exists n', In (x, n') es' /\ same n n') /\ (In (x, n) es' -> exists n', In (x, n') es /\ same n' n).
Proof.
  intros es es' x n H. inversion H as [|? es1 ? P F]; subst. split; intros Hin.
  - apply (Permutation_in _ P) in Hin. destruct (Forall2_in_l _ _ _ _ _ _ F Hin) as ([y n'] & Hy & E & S). cbn in *. subst y. eauto.
  - destruct (Forall2_in_r _ _ _ _ _ _ F Hin) as ([y n'] & Hy & E & S). cbn in *. subst y. apply (Permutation_in _ (Permutation_sym P)) in Hy. eauto.
Qed.
Lemma shows_same : forall n n' v v', same n n' -> shows n v -> shows n' v' -> v = v'.
Proof.
  intros n. induction n as [|es IH] using node_rec'; intros n' v v' Sa H H'.
  - inversion Sa; subst. inversion H; inversion H'; subst. auto.
  - assert (exists es', n' = Dir es') as (es' & ->) by (inversion Sa; eauto).
    assert (L : es = [] <-> es' = []).
    { inversion Sa as [|? es1 ? P F]; subst. split; intros ->; [apply Permutation_nil in P; subst; inversion F; auto|]. inversion F; subst. apply Permutation_sym, Permutation_nil in P. auto. }
    inversion H as [| |? m N S K V]; subst; inversion H' as [| |? m' N' S' K' V']; subst; auto; try solve [exfalso; apply N', L; auto | exfalso; apply N, L; auto].
    f_equal. apply sorted_map_ok in S. apply sorted_map_ok in S'.
    assert (G : forall l k w, map_ok l -> In (k, w) l -> at_var (RVar (VMap l)) k = Ok w).
    { intros l k w Ok Hin. rewrite at_var_lookup; auto; [|destruct Ok as [_ Ok]; rewrite Forall_forall in Ok; apply (Ok _ Hin)]. rewrite (lookup_in l k w); auto. }
    assert (I : forall (A B : Type) (l : list (A * B)) k, In k (map fst l) -> exists w, In (k, w) l) by (intros A B l k Hk; apply in_map_iff in Hk; destruct Hk as ([a b] & <- & Hk); eauto).
    apply sorted_unique; auto. intros [k w]. split; intros Hin.
    + destruct (proj1 (K k) (in_map fst _ _ Hin)) as (x & Hx & ->). destruct (I _ _ _ _ Hx) as (n & Hn).
      destruct (proj1 (same_entries es es' x n Sa) Hn) as (n1 & Hn1 & Sn). destruct (V x n Hn) as (v & Ev & Sv). destruct (V' x n1 Hn1) as (v1 & Ev1 & Sv1).
      assert (v = v1) by (eapply (IH x n); eauto). subst v1. rewrite (G m (vstr x) w) in Ev by auto. injection Ev as ->.
      assert (Hk : In (vstr x) (map fst m')) by (apply K'; exists x; split; auto; apply (in_map fst) in Hn1; auto).
      destruct (I _ _ _ _ Hk) as (w1 & Hw1). rewrite (G m' (vstr x) w1) in Ev1 by auto. injection Ev1 as ->. auto.
    + destruct (proj1 (K' k) (in_map fst _ _ Hin)) as (x & Hx & ->). destruct (I _ _ _ _ Hx) as (n1 & Hn1).
      destruct (proj2 (same_entries es es' x n1 Sa) Hn1) as (n & Hn & Sn). destruct (V x n Hn) as (v & Ev & Sv). destruct (V' x n1 Hn1) as (v1 & Ev1 & Sv1).
      assert (v = v1) by (eapply (IH x n); eauto). subst v1. rewrite (G m' (vstr x) w) in Ev1 by auto. injection Ev1 as ->.
      assert (Hk : In (vstr x) (map fst m)) by (apply K; exists x; split; auto; apply (in_map fst) in Hn; auto).
      destruct (I _ _ _ _ Hk) as (w1 & Hw1). rewrite (G m (vstr x) w1) in Ev by auto. injection Ev as ->. auto.
Qed.
