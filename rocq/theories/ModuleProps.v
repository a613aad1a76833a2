(** Properties of the loading of modules: C120. *)
From Coq Require Import Bool List String Arith Lia Permutation.
From Verif Require Import ModuleModel.
Import ListNotations.
Local Open Scope list_scope.
Local Notation length := List.length.

(** * What the system and the libraries ask for *)
(** Library [l] is open after the calls [t]: it was opened more often than closed. *)
Definition opens (l : nat) (t : list event) : nat := length (filter (fun e => match e with EOpen k => Nat.eqb k l | _ => false end) t).
Definition closes (l : nat) (t : list event) : nat := length (filter (fun e => match e with EClose k => Nat.eqb k l | _ => false end) t).
Definition is_open (l : nat) (t : list event) : Prop := closes l t < opens l t.
(** The calls that may follow the calls [t]: only instances that were made and not yet deleted can be
    used or deleted, and only while the code of their library is there; only an open library can
    make instances or be closed. *)
Definition allowed (t : list event) (e : event) : Prop :=
  match e with
  | EOpen _ => True
  | EMake i l => is_open l t /\ forall k, ~ In (EMake i k) t
  | EUse i | EDelete i => ~ In (EDelete i) t /\ exists l, In (EMake i l) t /\ is_open l t
  | EClose l => is_open l t
  end.
Definition fine (t : list event) : Prop := forall a e b, t = a ++ e :: b -> allowed a e.

(** * Proofs *)
Lemma look_split : forall x o m, look x m = Some o -> exists a b, m = a ++ (x, o) :: b /\ drop x m = a ++ b /\ forall q, put x q m = a ++ (x, q) :: b.
Proof.
  induction m as [|[y p] m IH]; simpl; intros H; [discriminate|]. destruct (Nat.eqb_spec x y) as [->|D].
  - inversion H; subst. exists [], m. auto.
  - destruct (IH H) as (a & b & -> & Dr & P). exists ((y, p) :: a), b. rewrite Dr. split; auto. split; auto. intros q. simpl. rewrite P. auto.
Qed.
Lemma opens_app : forall l a b, opens l (a ++ b) = opens l a + opens l b.
Proof. intros. unfold opens. rewrite filter_app, app_length. auto. Qed.
Lemma closes_app : forall l a b, closes l (a ++ b) = closes l a + closes l b.
Proof. intros. unfold closes. rewrite filter_app, app_length. auto. Qed.
Lemma deletes_open : forall l is, opens l (map EDelete is) = 0 /\ closes l (map EDelete is) = 0.
Proof. induction is; simpl; auto. Qed.
(** The modules of library [l]. *)
Definition of_lib (l : nat) (m : list (nat * object)) : nat := length (filter (fun p => Nat.eqb (o_lib (snd p)) l) m).
Definition held (m : list (nat * object)) : list nat := flat_map (fun p => o_inst (snd p)) m.
(** The libraries without a factory that a program opens. *)
Fixpoint left_open (libs : nat -> lib) (l : nat) (p : list op) : nat :=
  match p with
  | [] => 0
  | New _ k :: p => (if Nat.eqb k l then match libs k with NoFactory => 1 | _ => 0 end else 0) + left_open libs l p
  | _ :: p => left_open libs l p
  end.
(** The state of things after the calls [t]; [extra l] of the openings of [l] are lost. *)
Record inv (t : list event) (extra : nat -> nat) (w : world) : Prop := {
  i_fine : fine t;
  i_lib : forall x o i, In (x, o) (w_mods w) -> In i (o_inst o) -> In (EMake i (o_lib o)) t;
  i_dead : forall i, In i (held (w_mods w)) -> ~ In (EDelete i) t;
  i_nodup : NoDup (held (w_mods w));
  i_next : forall i l, In (EMake i l) t -> i < w_next w;
  i_open : forall l, opens l t = closes l t + of_lib l (w_mods w) + extra l;
  i_rest : forall i l, In (EMake i l) t -> In i (held (w_mods w)) \/ In (EDelete i) t;
  i_made : forall i, i < w_next w -> exists l, In (EMake i l) t
}.
Lemma fine_nil : fine [].
Proof. intros a e b H. destruct a; discriminate. Qed.
Lemma fine_app : forall t e, fine t -> allowed t e -> fine (t ++ [e]).
Proof.
  intros t e F A a f b E. destruct (exists_last (l := f :: b)) as (b' & g & X); [discriminate|]. rewrite X, app_assoc in E. apply app_inj_tail in E as [-> ->].
  destruct b' as [|h b']; simpl in X; inversion X; subst.
  - rewrite app_nil_r in A. auto.
  - apply (F a h b'). reflexivity.
Qed.
Lemma of_lib_app : forall l a b, of_lib l (a ++ b) = of_lib l a + of_lib l b.
Proof. intros. unfold of_lib. rewrite filter_app, app_length. auto. Qed.
Lemma of_lib_cons : forall l x o b, of_lib l ((x, o) :: b) = (if Nat.eqb (o_lib o) l then 1 else 0) + of_lib l b.
Proof. intros. unfold of_lib. simpl. destruct (Nat.eqb _ _); auto. Qed.
Lemma held_app : forall a b, held (a ++ b) = held a ++ held b.
Proof. intros. unfold held. apply flat_map_app. Qed.
(** Deleting the instances of a module, one after the other. *)
Lemma deletes_fine : forall l is t, fine t -> is_open l t -> NoDup is -> (forall i, In i is -> In (EMake i l) t /\ ~ In (EDelete i) t) -> fine (t ++ map EDelete is).
Proof.
  induction is as [|i is IH]; intros t F O N H; simpl; [rewrite app_nil_r; auto|].
  replace (t ++ EDelete i :: map EDelete is) with ((t ++ [EDelete i]) ++ map EDelete is) by (rewrite <- app_assoc; auto). inversion N; subst. apply IH; auto.
  - apply fine_app; auto. simpl. destruct (H i (or_introl eq_refl)). eauto.
  - unfold is_open in *. rewrite opens_app, closes_app. unfold opens, closes in *. simpl. lia.
  - intros j J. destruct (H j (or_intror J)) as [M D]. rewrite !in_app_iff. split; auto. intros [X|[X|[]]]; auto. inversion X; subst. contradiction.
Qed.

Lemma step_inv : forall libs c w w' u th t extra, (forall y x, c <> Copy y x) -> (forall i, c = Use i -> In i (held (w_mods w))) -> step libs c w = Some (w', u, th) -> inv t extra w ->
  inv (t ++ u) (fun l => extra l + left_open libs l [c]) w'.
Proof.
  intros libs c w w' u th t extra NC NU E [F Li De ND Ne Op Re Ma]. destruct w as [m n]. simpl in *.
  assert (Live : forall x o, In (x, o) m -> is_open (o_lib o) t).
  { intros x o I. unfold is_open. rewrite Op. apply in_split in I as (a & b & ->). rewrite of_lib_app, of_lib_cons, Nat.eqb_refl. lia. }
  assert (Hm : forall i x o, In (x, o) m -> In i (o_inst o) -> In i (held m)) by (intros i x o I J; apply in_flat_map; exists (x, o); auto).
  destruct c as [x l|x md|x|y x|i]; simpl in E.
  - destruct (look x m); [discriminate|]. unfold new in E. destruct (libs l) eqn:L; inversion E; subst; clear E; simpl.
    + rewrite app_nil_r. constructor; simpl; auto. intros k. rewrite Op. destruct (Nat.eqb l k); lia.
    + constructor; simpl; auto.
      * apply fine_app; simpl; auto.
      * intros y o i I J. apply in_app_iff. eauto.
      * intros i H I. apply in_app_iff in I as [I|[I|[]]]; [|discriminate]. apply (De i); auto.
      * intros i k I. apply in_app_iff in I as [I|[I|[]]]; [|discriminate]. eauto.
      * intros k. rewrite opens_app, closes_app, Op. unfold opens, closes. simpl. destruct (Nat.eqb l k); simpl; lia.
      * intros i k I. apply in_app_iff in I as [I|[I|[]]]; [|discriminate]. destruct (Re _ _ I); auto. right. apply in_app_iff. auto.
      * intros i H. destruct (Ma i H) as [k I]. exists k. apply in_app_iff. auto.
    + constructor; simpl; auto.
      * apply fine_app; simpl; auto.
      * intros y o i [I|I] J; [inversion I; subst; destruct J|]. apply in_app_iff. eauto.
      * intros i H I. apply in_app_iff in I as [I|[I|[]]]; [|discriminate]. apply (De i); auto.
      * intros i k I. apply in_app_iff in I as [I|[I|[]]]; [|discriminate]. eauto.
      * intros k. rewrite opens_app, closes_app, Op, of_lib_cons. unfold opens, closes. simpl. destruct (Nat.eqb l k); simpl; lia.
      * intros i k I. apply in_app_iff in I as [I|[I|[]]]; [|discriminate]. destruct (Re _ _ I); auto. right. apply in_app_iff. auto.
      * intros i H. destruct (Ma i H) as [k I]. exists k. apply in_app_iff. auto.
  - destruct (look x m) as [o|] eqn:Lk; [|discriminate]. apply look_split in Lk as (a & b & Em & Dr & Pu).
    assert (Z : forall f : nat -> nat, forall l, f l + 0 = f l) by (intros; lia).
    destruct md as [| |fits]; inversion E; subst w' u; clear E; simpl.
    + rewrite app_nil_r. constructor; simpl; auto. intros k. rewrite Op. lia.
    + rewrite app_nil_r. constructor; simpl; auto. intros k. rewrite Op. lia.
    + rewrite Pu. assert (Fr : forall k, ~ In (EMake n k) t) by (intros k I; apply Ne in I; lia).
      assert (Hh : forall i, In i (held (a ++ (x, mkobject (o_lib o) (o_inst o ++ [n])) :: b)) <-> In i (held m) \/ i = n).
      { intros i. rewrite Em, !held_app, !in_app_iff. unfold held. simpl. rewrite !in_app_iff. simpl. intuition. }
      constructor; simpl; auto.
      * apply fine_app; auto. simpl. split; auto. apply (Live x). rewrite Em. apply in_app_iff. simpl; auto.
      * intros y p i I J. apply in_app_iff in I as [I|[I|I]].
        -- apply in_app_iff. left. apply (Li y p); auto. rewrite Em. apply in_app_iff. auto.
        -- inversion I; subst; clear I. simpl in *. apply in_app_iff in J as [J|[J|[]]]; apply in_app_iff; simpl; subst; auto. left. apply (Li y o); auto. apply in_app_iff. simpl; auto.
        -- apply in_app_iff. left. apply (Li y p); auto. rewrite Em. apply in_app_iff. simpl; auto.
      * intros i H I. apply in_app_iff in I as [I|[I|[]]]; [|discriminate]. apply Hh in H as [H|H]; [apply (De i); auto|subst i].
        apply in_split in I as (t1 & t2 & Et). destruct (F _ _ _ Et) as (_ & k & I & _). apply (Fr k). rewrite Et. apply in_app_iff. auto.
      * assert (Nn : ~ In n (held m)). { intros I. apply in_flat_map in I as ([y p] & I & J). apply (Fr (o_lib p)). eapply Li; eauto. }
        rewrite Em, held_app in ND. rewrite Em, held_app in Nn. rewrite held_app. unfold held in *. simpl in *. rewrite app_assoc in ND. rewrite <- !app_assoc. simpl. rewrite app_assoc. apply NoDup_Add with (a := n) (l := (flat_map (fun p => o_inst (snd p)) a ++ o_inst o) ++ flat_map (fun p => o_inst (snd p)) b).
        -- apply Add_app.
        -- split; auto. rewrite !in_app_iff in *. intuition.
      * intros i k I. apply in_app_iff in I as [I|[I|[]]]; [apply Ne in I; lia|]. inversion I; subst. lia.
      * intros k. rewrite opens_app, closes_app, Op, Em, !of_lib_app, !of_lib_cons. unfold opens, closes. simpl. lia.
      * intros i k I. apply in_app_iff in I as [I|[I|[]]].
        -- destruct (Re _ _ I); [left; apply Hh; auto|right; apply in_app_iff; auto].
        -- inversion I; subst. left. apply Hh. auto.
      * intros i H. destruct (Nat.eq_dec i n) as [->|D]; [exists (o_lib o); apply in_app_iff; simpl; auto|]. destruct (Ma i) as [k I]; [lia|]. exists k. apply in_app_iff. auto.
  - destruct (look x m) as [o|] eqn:Lk; [|discriminate]. apply look_split in Lk as (a & b & Em & Dr & _). inversion E; subst w' u; clear E. rewrite Dr. unfold destroy.
    assert (In (x, o) m) as Ix by (rewrite Em; apply in_app_iff; simpl; auto).
    assert (ND' : NoDup (o_inst o) /\ NoDup (held (a ++ b)) /\ forall i, In i (o_inst o) -> ~ In i (held (a ++ b))).
    { rewrite Em, held_app in ND. unfold held in *. simpl in ND. rewrite flat_map_app.
      assert (P : Permutation.Permutation (flat_map (fun p => o_inst (snd p)) a ++ o_inst o ++ flat_map (fun p => o_inst (snd p)) b) (o_inst o ++ flat_map (fun p => o_inst (snd p)) a ++ flat_map (fun p => o_inst (snd p)) b)) by apply Permutation.Permutation_app_swap_app.
      apply (Permutation.Permutation_NoDup P) in ND. revert ND. generalize (o_inst o) as u, (flat_map (fun p => o_inst (snd p)) a ++ flat_map (fun p => o_inst (snd p)) b) as v. clear.
      induction u as [|i u IH]; simpl; intros v N; [repeat split; auto; constructor|]. inversion N; subst. destruct (IH v) as (A & B & C); auto. rewrite in_app_iff in *. repeat split; auto; [constructor; auto|]. intros j [->|J]; auto. }
    destruct ND' as (N1 & N2 & N3).
    assert (Hh : forall i, In i (held m) <-> In i (o_inst o) \/ In i (held (a ++ b))).
    { intros i. rewrite Em, !held_app, !in_app_iff. unfold held. simpl. rewrite !in_app_iff. tauto. }
    assert (Dl : forall i, In (EDelete i) (map EDelete (o_inst o)) <-> In i (o_inst o)).
    { intros i. rewrite in_map_iff. split; [intros (j & X & J); inversion X; subst; auto|eauto]. }
    assert (Mk : forall i k, ~ In (EMake i k) (map EDelete (o_inst o))) by (intros i k I; apply in_map_iff in I as (j & X & _); discriminate).
    constructor; simpl; auto.
    + rewrite app_assoc. apply fine_app.
      * apply deletes_fine with (o_lib o); auto; [apply (Live x); auto|]. intros i I. split; [apply (Li x); auto|]. apply De. apply Hh. auto.
      * simpl. unfold is_open. rewrite opens_app, closes_app. destruct (deletes_open (o_lib o) (o_inst o)) as [-> ->]. specialize (Live x o Ix). unfold is_open in Live. lia.
    + intros y p i I J. apply in_app_iff. left. apply (Li y p); auto. rewrite Em. apply in_app_iff in I. apply in_app_iff. simpl. tauto.
    + intros i H I. rewrite !in_app_iff in I. destruct I as [I|[I|[I|[]]]]; [|apply Dl in I; apply (N3 i); auto|discriminate]. apply (De i); auto. apply Hh. auto.
    + intros i k I. rewrite !in_app_iff in I. destruct I as [I|[I|[I|[]]]]; [eauto|destruct (Mk _ _ I)|discriminate].
    + intros k. rewrite !opens_app, !closes_app, Op, Em, !of_lib_app, !of_lib_cons. destruct (deletes_open k (o_inst o)) as [-> ->]. unfold opens, closes. simpl. destruct (Nat.eqb (o_lib o) k); simpl; lia.
    + intros i k I. rewrite !in_app_iff in I. destruct I as [I|[I|[I|[]]]]; [|destruct (Mk _ _ I)|discriminate]. destruct (Re _ _ I) as [H|H]; [|right; apply in_app_iff; auto]. apply Hh in H as [H|H]; auto. right. rewrite !in_app_iff. right. left. apply Dl. auto.
    + intros i H. destruct (Ma i H) as [k I]. exists k. apply in_app_iff. auto.
  - destruct (NC y x eq_refl).
  - destruct (Nat.ltb_spec i n); [|discriminate]. inversion E; subst w' u; clear E. specialize (NU i eq_refl). constructor; simpl; auto.
    + apply fine_app; auto. simpl. split; auto. apply in_flat_map in NU as ([y p] & I & J). exists (o_lib p). split; [eapply Li; eauto|eapply Live; eauto].
    + intros y p j I J. apply in_app_iff. eauto.
    + intros j J I. apply in_app_iff in I as [I|[I|[]]]; [|discriminate]. apply (De j); auto.
    + intros j k I. apply in_app_iff in I as [I|[I|[]]]; [|discriminate]. eauto.
    + intros k. rewrite opens_app, closes_app, Op. unfold opens, closes. simpl. lia.
    + intros j k I. apply in_app_iff in I as [I|[I|[]]]; [|discriminate]. destruct (Re _ _ I); auto. right. apply in_app_iff. auto.
    + intros j J. destruct (Ma j J) as [k I]. exists k. apply in_app_iff. auto.
Qed.

(** * C120 *)
(** Nothing is copied, and the program calls only instances that a module there is holds. *)
Fixpoint careful (libs : nat -> lib) (p : list op) (w : world) : Prop :=
  match p with
  | [] => True
  | c :: p => (match c with Copy _ _ => False | Use i => exists x o, In (x, o) (w_mods w) /\ In i (o_inst o) | _ => True end) /\
              (forall w' u th, step libs c w = Some (w', u, th) -> careful libs p w')
  end.
Lemma run_inv : forall libs p w w' u t extra, careful libs p w -> run libs p w = Some (w', u) -> inv t extra w -> inv (t ++ u) (fun l => extra l + left_open libs l p) w'.
Proof.
  induction p as [|c p IH]; intros w w' u t extra C E V; simpl in E.
  - inversion E; subst. rewrite app_nil_r. destruct V; constructor; auto. intros l. simpl. rewrite Nat.add_0_r. auto.
  - destruct (step libs c w) as [[[w1 u1] th]|] eqn:St; [|discriminate]. destruct (run libs p w1) as [[w2 u2]|] eqn:R; [|discriminate]. inversion E; subst. destruct C as [C1 C2].
    assert (V1 : inv (t ++ u1) (fun l => extra l + left_open libs l [c]) w1).
    { eapply step_inv; eauto.
      - intros y x ->. auto.
      - intros i ->. destruct C1 as (x & o & I & J). apply in_flat_map. exists (x, o). auto. }
    specialize (IH _ _ _ _ _ (C2 _ _ _ St) R V1). rewrite app_assoc. destruct IH as [F Li De ND Ne Op Re Ma]. constructor; auto. intros l. rewrite Op. cbn [left_open]. destruct c; simpl; lia.
Qed.
Lemma start_inv : inv [] (fun _ => 0) empty.
Proof. constructor; simpl; try tauto; try lia; try (apply fine_nil); try constructor. Qed.
(** Instances are used and deleted only while they are there and their code is; libraries are closed
    no more often than opened. *)
Theorem C120_fine : forall libs p w t, careful libs p empty -> run libs p empty = Some (w, t) -> fine t.
Proof. intros libs p w t C R. apply (i_fine _ _ _ (run_inv _ _ _ _ _ _ _ C R start_inv)). Qed.
(** An instance can be used exactly as long as there is the module that made it. *)
Theorem C120_lives : forall libs p w t, careful libs p empty -> run libs p empty = Some (w, t) ->
  forall i, allowed t (EUse i) <-> exists x o, In (x, o) (w_mods w) /\ In i (o_inst o).
Proof.
  intros libs p w t C R i. destruct (run_inv _ _ _ _ _ _ _ C R start_inv) as [F Li De ND Ne Op Re Ma]. simpl in *. split.
  - intros (D & l & M & _). destruct (Re _ _ M) as [H|H]; [|contradiction]. apply in_flat_map in H as ([x o] & I & J). eauto.
  - intros (x & o & I & J). split; [apply De; apply in_flat_map; exists (x, o); auto|]. exists (o_lib o). split; [eapply Li; eauto|]. unfold is_open. rewrite Op. apply in_split in I as (a & b & ->). rewrite of_lib_app, of_lib_cons, Nat.eqb_refl. lia.
Qed.
(** Each module holds the instances its own library made, and no other module holds them. *)
Theorem C120_owner : forall libs p w t, careful libs p empty -> run libs p empty = Some (w, t) ->
  NoDup (flat_map (fun q => o_inst (snd q)) (w_mods w)) /\ forall x o i, In (x, o) (w_mods w) -> In i (o_inst o) -> In (EMake i (o_lib o)) t.
Proof. intros libs p w t C R. destruct (run_inv _ _ _ _ _ _ _ C R start_inv) as [F Li De ND Ne Op Re Ma]. split; auto. Qed.
(** When no module is left each instance made was deleted, once, and every library is closed as often
    as it was opened, but for openings of a library without a factory, which are never closed. *)
Definition event_dec : forall a b : event, {a = b} + {a <> b}.
Proof. repeat decide equality. Defined.
Lemma fine_once : forall t, fine t -> forall i, count_occ event_dec t (EDelete i) <= 1.
Proof.
  intros t F i. destruct (in_dec event_dec (EDelete i) t) as [I|N]; [|apply (count_occ_not_In event_dec) in N; lia].
  assert (Z : forall (e : event) l, In e l -> exists c d, l = c ++ e :: d /\ ~ In e d).
  { clear. intros e. induction l as [|x l IH]; simpl; [tauto|]. intros H. destruct (in_dec event_dec e l) as [J|J].
    - destruct (IH J) as (c & d & -> & D). exists (x :: c), d. auto.
    - destruct H as [->|H]; [exists [], l; auto|contradiction]. }
  destruct (Z (EDelete i) t) as (c & d & Ed & Nd); [auto|]. rewrite Ed, count_occ_app. rewrite count_occ_cons_eq by auto.
  destruct (F _ _ _ Ed) as [Nc _]. apply (count_occ_not_In event_dec) in Nc, Nd. lia.
Qed.
Theorem C120_end : forall libs p w t, careful libs p empty -> run libs p empty = Some (w, t) -> w_mods w = [] ->
  (forall i l, In (EMake i l) t -> count_occ event_dec t (EDelete i) = 1) /\
  forall l, opens l t = closes l t + length (filter (fun c => match c with New _ k => Nat.eqb k l && match libs k with NoFactory => true | _ => false end | _ => false end) p).
Proof.
  intros libs p w t C R E. destruct (run_inv _ _ _ _ _ _ _ C R start_inv) as [F Li De ND Ne Op Re Ma]. simpl in *. rewrite E in *. split.
  - intros i l I. destruct (Re _ _ I) as [[]|D]. apply (count_occ_In event_dec) in D. pose proof (fine_once t F i). lia.
  - intros l. rewrite Op. simpl. rewrite Nat.add_0_r. f_equal. clear. induction p as [|[x k|x m|x|y x|i] p IH]; simpl; auto. destruct (Nat.eqb k l); simpl; [|auto]. destruct (libs k); simpl; auto.
Qed.
(** A copy of a module deletes the instances once more. *)
Theorem C120_copy_refuted : exists libs p w t, run libs p empty = Some (w, t) /\ ~ In (Use 0) p /\ w_mods w = [] /\ ~ fine t.
Proof.
  exists (fun _ => Present), [New 0 7; Create 0 (Instance true); Copy 1 0; End 1; End 0]. eexists. eexists. split; [reflexivity|]. simpl. split; [intuition discriminate|]. split; [reflexivity|].
  intros F. pose proof (fine_once _ F 0) as H. vm_compute in H. lia.
Qed.
(** Two modules of one library and one of another, a library without a factory, an instance of the
    wrong class, and an instance used while its module is there. *)
Definition test_libs (l : nat) : lib := match l with 0 => Present | 1 => NoFactory | 2 => Present | _ => Absent end.
Definition test_program : list op :=
  [New 0 0; Create 0 (Instance true); New 1 0; Create 1 (Instance false); New 2 1; New 3 5; New 4 2; Create 4 Null; Create 4 (Instance true); End 1; Use 0; Use 2; End 0; Use 2; End 4].
Example C120_example :
  careful test_libs test_program empty /\
  run test_libs test_program empty = Some ({| w_mods := []; w_next := 3 |},
    [EOpen 0; EMake 0 0; EOpen 0; EMake 1 0; EOpen 1; EOpen 2; EMake 2 2; EDelete 1; EClose 0; EUse 0; EUse 2; EDelete 0; EClose 0; EUse 2; EDelete 2; EClose 2]).
Proof.
  split; [|reflexivity]. unfold test_program.
  Ltac go := cbn [careful]; split; [first [exact Logic.I | solve [do 2 eexists; split; [left; reflexivity|simpl; auto]] | solve [do 2 eexists; split; [right; left; reflexivity|simpl; auto]]]|intros w' u th H; vm_compute in H; inversion H; subst; clear H].
  do 15 go. exact Logic.I.
Qed.
