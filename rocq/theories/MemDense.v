(** Types in memory: what the elements of arrays are. *)
From Coq Require Import ZArith Bool List String Lia.
From Verif Require Import Base StrModel ValModel NumModel ArithModel AllocModel MemModel MemProof MemFun.
Import ListNotations.
Local Open Scope list_scope.
Local Open Scope mem_scope.
Local Notation length := List.length.

Local Ltac conj := lazymatch goal with |- _ /\ _ => split; conj | _ => try exact Logic.I end.

(** * The invariant *)
(** A var: initialised, and a number if it says so. *)
Definition okv (x : mvar) : Prop := match x with MJunk => False | MNum v => number v = true | _ => True end.
(** A cell of an array of type [t]. *)
Definition cell_ok (t : hty) (c : mvar * mvar) : Prop :=
  if varlike t then okv (fst c) /\ okv (snd c)
  else fst c = MNil /\ (snd c = MJunk \/ exists v, snd c = MNum v /\ HE (ety_of v) = t).
Definition typed (o : hobj) : Prop := Forall (cell_ok (h_ty o)) (h_cells o) /\ (h_view o = None \/ h_ty o = HE TInt).
Definition live (s : state) (l : nat) (o : hobj) : Prop := nth_error (mem s) l = Some (Some o).
Definition D (s : state) : Prop := (forall l o, live s l o -> typed o) /\ Forall okv (stk s).
(** Arrays keep their type. *)
Definition ext (s s' : state) : Prop :=
  length (mem s) <= length (mem s') /\
  forall l o', l < length (mem s) -> live s' l o' -> exists o, live s l o /\ h_ty o' = h_ty o /\ h_view o' = h_view o.
Lemma ext_refl : forall s, ext s s.
Proof. intros s. split; auto. intros l o _ H. eauto. Qed.
Lemma ext_trans : forall a b c, ext a b -> ext b c -> ext a c.
Proof.
  intros a b c [L1 H1] [L2 H2]. split; [lia|]. intros l o Hl Ho. destruct (H2 l o) as (o1 & O1 & T1 & V1); auto; [lia|].
  destruct (H1 l o1) as (o2 & O2 & T2 & V2); auto. exists o2. conj; congruence.
Qed.
Lemma ext_mem : forall s s', mem s' = mem s -> ext s s'.
Proof. intros s s' E. split; [rewrite E; auto|]. unfold live. rewrite E. intros l o _ H. eauto. Qed.
(** What is known of places and arrays, whatever comes later. *)
Definition okl (s : state) (v : lval) : Prop :=
  match v with LS _ => True | LC l _ _ | LK l _ _ => l < length (mem s) /\ forall o, live s l o -> plain_vars o = true end.
Definition has_ty (s : state) (l : nat) (t : hty) : Prop := l < length (mem s) /\ forall o, live s l o -> h_ty o = t.
(** The array [l], or the one it is a view of, has type [t]. *)
Definition elt (s : state) (l : nat) (t : hty) : Prop := l < length (mem s) /\ forall o, live s l o -> match h_view o with None => h_ty o = t | Some u => has_ty s u t end.
Lemma okl_ext : forall s s' v, ext s s' -> okl s v -> okl s' v.
Proof.
  intros s s' [i|l g i|l g i] [L H]; simpl; auto; intros [Hl K]; (split; [lia|]); intros o O; destruct (H l o Hl O) as (o1 & O1 & T & V); specialize (K o1 O1); unfold plain_vars in *; rewrite T, V; auto.
Qed.
Lemma has_ext : forall s s' l t, ext s s' -> has_ty s l t -> has_ty s' l t.
Proof. intros s s' l t [L H] [Hl K]. split; [lia|]. intros o O. destruct (H l o Hl O) as (o1 & O1 & T & V). rewrite T. auto. Qed.
Lemma elt_ext : forall s s' l t, ext s s' -> elt s l t -> elt s' l t.
Proof.
  intros s s' l t E [Hl K]. pose proof E as [L H]. split; [lia|]. intros o O. destruct (H l o Hl O) as (o1 & O1 & T & V). specialize (K o1 O1). rewrite V, T. destruct (h_view o1); auto. eapply has_ext; eauto.
Qed.
Lemma live_lt : forall s l o, live s l o -> l < length (mem s).
Proof. intros s l o H. apply nth_error_Some. unfold live in H. congruence. Qed.
Lemma okl_LS : forall s i, okl s (LS i).
Proof. intros. exact Logic.I. Qed.
Lemma okl_plain : forall s l g i o, live s l o -> plain_vars o = true -> okl s (LC l g i) /\ okl s (LK l g i).
Proof. intros s l g i o O P. split; (split; [eapply live_lt; eauto|]; intros o' O'; unfold live in *; congruence). Qed.

(** * Keeping it *)
Definition keeps {A} (s0 : state) (m : M A) (Q : state -> A -> Prop) : Prop := forall s, ext s0 s -> D s ->
  match m s with
  | ROk a s' => D s' /\ ext s s' /\ Q s' a
  | RThrow _ s' => D s' /\ ext s s'
  | _ => True
  end.
Definition anyQ {A} : state -> A -> Prop := fun _ _ => True.
Definition vQ : state -> mvar -> Prop := fun _ x => okv x.
Definition lQ : state -> lval -> Prop := fun s v => okl s v.
Lemma keeps_bind : forall A B Q s0 (m : M A) (f : A -> M B) Q', keeps s0 m Q -> (forall s1 a, ext s0 s1 -> Q s1 a -> keeps s1 (f a) Q') -> keeps s0 (bind m f) Q'.
Proof.
  intros A B Q s0 m f Q' K1 K2 s E I. unfold bind. specialize (K1 s E I). destruct (m s) as [a s1|k s1|k|]; auto. destruct K1 as (D1 & E1 & Q1).
  assert (E2 : ext s0 s1) by (eapply ext_trans; eauto). specialize (K2 s1 a E2 Q1 s1 (ext_refl s1) D1). destruct (f a s1) as [b s2|k s2|k|]; auto.
  - destruct K2 as (? & ? & ?). conj; auto; eapply ext_trans; eauto.
  - destruct K2. split; auto. eapply ext_trans; eauto.
Qed.
Lemma keeps_assoc : forall A B C s0 (m : M A) (f : A -> M B) (g : B -> M C) Q,
  keeps s0 (bind m (fun x => bind (f x) g)) Q -> keeps s0 (bind (bind m f) g) Q.
Proof.
  intros A B C s0 m f g Q H s E I. specialize (H s E I).
  replace (bind (bind m f) g s) with (bind m (fun x => bind (f x) g) s); auto. unfold bind. destruct (m s); auto.
Qed.
Lemma keeps_ret : forall A s0 (a : A) (Q : state -> A -> Prop), (forall s, ext s0 s -> Q s a) -> keeps s0 (ret a) Q.
Proof. intros A s0 a Q H s E I. simpl. split; auto. split; [apply ext_refl|auto]. Qed.
Lemma keeps_throw : forall A s0 m (Q : state -> A -> Prop), keeps s0 (throw m) Q.
Proof. intros A s0 m Q s E I. simpl. split; auto. apply ext_refl. Qed.
Lemma keeps_ub : forall A s0 k (Q : state -> A -> Prop), keeps s0 (ub k) Q.
Proof. intros A s0 k Q s E I. exact Logic.I. Qed.
Lemma keeps_stuck : forall A s0 (Q : state -> A -> Prop), keeps s0 stuck Q.
Proof. intros A s0 Q s E I. exact Logic.I. Qed.
(** A function that only reads. *)
Lemma keeps_reads : forall A s0 (m : M A) (Q : state -> A -> Prop), reader m -> (forall s a, ext s0 s -> D s -> m s = ROk a s -> Q s a) -> keeps s0 m Q.
Proof.
  intros A s0 m Q R H s E I. specialize (R s). destruct (m s) as [a s1|k s1|k|] eqn:M; auto; subst s1.
  - split; auto. split; [apply ext_refl|auto].
  - split; auto. apply ext_refl.
Qed.
Lemma keeps_reader : forall A s0 (m : M A), reader m -> keeps s0 m anyQ.
Proof. intros A s0 m R. apply keeps_reads; auto. intros. exact Logic.I. Qed.
Lemma keeps_any : forall A s0 (m : M A) Q, keeps s0 m Q -> keeps s0 m anyQ.
Proof. intros A s0 m Q K s E I. specialize (K s E I). destruct (m s); auto. destruct K as (? & ? & _). conj; auto. Qed.
Lemma keeps_later : forall A s0 s1 (m : M A) Q, ext s0 s1 -> keeps s0 m Q -> keeps s1 m Q.
Proof. intros A s0 s1 m Q E K s E1 I. apply K; auto. eapply ext_trans; eauto. Qed.

Lemma D_set : forall s l o o', D s -> live s l o -> typed o' -> h_ty o' = h_ty o -> h_view o' = h_view o ->
  D {| mem := set_nth (mem s) l (Some o'); rc := rc s; stk := stk s |} /\ ext s {| mem := set_nth (mem s) l (Some o'); rc := rc s; stk := stk s |}.
Proof.
  intros s l o o' [I1 I2] O T Ty Vw. pose proof (live_lt _ _ _ O) as Hl. split; [split|split]; simpl; auto.
  - intros k x X. unfold live in X. simpl in X. destruct (Nat.eq_dec l k) as [->|N]; [rewrite sn_same in X by auto; inversion X; subst; auto|]. rewrite sn_other in X by auto. eauto.
  - rewrite sn_length. auto.
  - intros k x _ X. unfold live in X. simpl in X. destruct (Nat.eq_dec l k) as [->|N]; [rewrite sn_same in X by auto; inversion X; subst; eauto|]. rewrite sn_other in X by auto. eauto.
Qed.
Lemma keeps_new_obj : forall s0 o, typed o -> keeps s0 (new_obj o) vQ.
Proof.
  intros s0 o T s E [I1 I2]. unfold new_obj. split; [split|split; [split|exact Logic.I]]; simpl; auto.
  - intros l x X. unfold live in X. simpl in X. destruct (Nat.lt_ge_cases l (length (mem s))).
    + rewrite nth_error_app1 in X by auto. eauto.
    + rewrite nth_error_app2 in X by auto. destruct (l - length (mem s)) as [|[|k]]; simpl in X; inversion X; subst; auto.
  - rewrite app_length. simpl. lia.
  - intros l x Hl X. unfold live in X. simpl in X. rewrite nth_error_app1 in X by auto. eauto.
Qed.
Lemma D_mem : forall s s', mem s' = mem s -> Forall okv (stk s') -> D s -> D s'.
Proof. intros s s' E F [H _]. split; auto. unfold live. rewrite E. auto. Qed.
Lemma get_obj_live : forall l s o s', get_obj l s = ROk o s' -> s' = s /\ live s l o.
Proof. intros l s o s' H. unfold get_obj in H. unfold live. destruct (nth_error (mem s) l) as [[x|]|]; inversion H; subst; auto. Qed.
Lemma typed_nth : forall o i c, typed o -> nth_error (h_cells o) i = Some c -> cell_ok (h_ty o) c.
Proof. intros o i c [F _] N. rewrite Forall_forall in F. apply F. eapply nth_error_In; eauto. Qed.
Lemma dense_okv : forall t c, varlike t = false -> cell_ok t c -> snd c <> MJunk -> okv (snd c).
Proof.
  intros t c V C J. unfold cell_ok in C. rewrite V in C. destruct C as (_ & [C|(v & C & T)]); [contradiction|]. rewrite C. simpl. subst t. destruct v; simpl in *; auto; discriminate.
Qed.

(** * Every operation *)
Lemma okl_live : forall s l g i o, okl s (LC l g i) -> live s l o -> plain_vars o = true.
Proof. intros s l g i o [_ K] O. auto. Qed.
Lemma plain_varlike : forall o, plain_vars o = true -> varlike (h_ty o) = true /\ h_view o = None.
Proof. intros o H. unfold plain_vars in H. destruct (h_view o); [discriminate|auto]. Qed.
Lemma keeps_get : forall s0 v, okl s0 v -> keeps s0 (get v) vQ.
Proof.
  intros s0 v K. apply keeps_reads; [apply reader_get|]. intros s a E [I1 I2] G. apply (okl_ext _ _ _ E) in K. unfold vQ. destruct v as [i|l g i|l g i]; simpl in G.
  - destruct (nth_error (stk s) i) eqn:N; inversion G; subst. rewrite Forall_forall in I2. apply I2. eapply nth_error_In; eauto.
  - unfold bind, get_obj in G. destruct (nth_error (mem s) l) as [[o|]|] eqn:O; try discriminate. destruct (negb _); [discriminate|]. destruct (nth_error (h_cells o) i) as [[k x]|] eqn:N; inversion G; subst.
    pose proof (okl_live _ _ _ _ _ K O) as P. apply plain_varlike in P as [P _]. pose proof (typed_nth _ _ _ (I1 _ _ O) N) as C. unfold cell_ok in C. rewrite P in C. apply C.
  - unfold bind, get_obj in G. destruct (nth_error (mem s) l) as [[o|]|] eqn:O; try discriminate. destruct (negb _); [discriminate|]. destruct (nth_error (h_cells o) i) as [[k x]|] eqn:N; inversion G; subst.
    destruct K as [_ K]. specialize (K o O) as P. apply plain_varlike in P as [P _]. pose proof (typed_nth _ _ _ (I1 _ _ O) N) as C. unfold cell_ok in C. rewrite P in C. apply C.
Qed.
Lemma set_forall : forall A (P : A -> Prop) l i x, Forall P l -> P x -> Forall P (set_nth l i x).
Proof.
  intros A P l i x F H. apply Forall_forall. intros y Y. apply In_nth_error in Y as [k Y]. rewrite Forall_forall in F. destruct (Nat.lt_ge_cases i (length l)); [|rewrite sn_none in Y by auto; apply F; eapply nth_error_In; eauto].
  destruct (Nat.eq_dec i k) as [->|N]; [rewrite sn_same in Y by auto; inversion Y; subst; auto|]. rewrite sn_other in Y by auto. apply F. eapply nth_error_In; eauto.
Qed.
Lemma keeps_put : forall s0 v x, okl s0 v -> okv x -> keeps s0 (put v x) anyQ.
Proof.
  intros s0 v x K V s E I. apply (okl_ext _ _ _ E) in K. pose proof I as [I1 I2]. destruct v as [i|l g i|l g i]; simpl.
  - destruct (Nat.ltb _ _); auto. split; [apply (D_mem s); simpl; auto; apply set_forall; auto|]. split; [apply ext_mem; auto|exact Logic.I].
  - unfold bind, get_obj. destruct (nth_error (mem s) l) as [[o|]|] eqn:O; auto. destruct (negb _); simpl; auto. destruct (nth_error (h_cells o) i) as [[k y]|] eqn:N; simpl; auto.
    pose proof (okl_live _ _ _ _ _ K O) as P. apply plain_varlike in P as [P Vw]. pose proof (I1 _ _ O) as T.
    destruct (D_set s l o (set_cells o (set_nth (h_cells o) i (k, x))) I O) as [D' E']; auto; [|split; auto; split; auto; exact Logic.I].
    split; [|left; auto]. simpl. apply set_forall; [apply T|]. pose proof (typed_nth _ _ _ T N) as C. unfold cell_ok in *. rewrite P in *. simpl in *. tauto.
  - unfold bind, get_obj. destruct (nth_error (mem s) l) as [[o|]|] eqn:O; auto. destruct (negb _); simpl; auto. destruct (nth_error (h_cells o) i) as [[k y]|] eqn:N; simpl; auto.
    destruct K as [_ K]. specialize (K o O) as P. apply plain_varlike in P as [P Vw]. pose proof (I1 _ _ O) as T.
    destruct (D_set s l o (set_cells o (set_nth (h_cells o) i (x, y))) I O) as [D' E']; auto; [|split; auto; split; auto; exact Logic.I].
    split; [|left; auto]. simpl. apply set_forall; [apply T|]. pose proof (typed_nth _ _ _ T N) as C. unfold cell_ok in *. rewrite P in *. simpl in *. tauto.
Qed.
Lemma keeps_attach : forall s0 v, keeps s0 (attach v) anyQ.
Proof.
  intros s0 v s E I. unfold attach. destruct (target v) as [l|]; simpl; [|split; auto; split; [apply ext_refl|exact Logic.I]]. unfold bind, get_obj. destruct (nth_error (mem s) l) as [[o|]|]; auto.
  split; [apply (D_mem s); auto; simpl; apply I|]. split; [apply ext_mem; auto|exact Logic.I].
Qed.
Lemma keeps_release : forall s0 w, keeps s0 (release w) anyQ.
Proof.
  intros s0 w s E I. unfold release. generalize (S (length w + weight (mem s))). intros f. clear E. revert w s I.
  induction f; intros w s I; simpl; auto. destruct w as [|v w]; simpl; [split; auto; split; [apply ext_refl|exact Logic.I]|].
  destruct (target v) as [l|]; [|apply IHf; auto]. destruct (nth_error (mem s) l) as [[o|]|] eqn:O; auto. pose proof I as [I1 I2].
  destruct (nth l (rc s) 0) as [|[|n]]; auto.
  - match goal with |- match release_loop f ?w ?t with _ => _ end => assert (E1 : ext s t /\ D t) end.
    { assert (X : forall k x, live {| mem := set_nth (mem s) l None; rc := set_nth (rc s) l 0; stk := stk s |} k x -> live s k x).
      { intros k x X. unfold live in *. simpl in X. destruct (Nat.eq_dec l k) as [->|N]; [rewrite sn_same in X by (eapply ne_lt; eauto); discriminate|]. rewrite sn_other in X by auto. auto. }
      split; [split; simpl; [rewrite sn_length; auto|intros k x _ H; eauto]|split; simpl; auto]. intros k x H. eauto. }
    destruct E1 as [E1 D1]. specialize (IHf (contents o ++ w) _ D1). destruct (release_loop f _ _); auto; [destruct IHf as (? & ? & ?)|destruct IHf]; conj; auto; eapply ext_trans; eauto.
  - match goal with |- match release_loop f ?w ?t with _ => _ end => assert (E1 : ext s t /\ D t) by (split; [apply ext_mem; auto|apply (D_mem s); auto]) end.
    destruct E1 as [E1 D1]. specialize (IHf w _ D1). destruct (release_loop f _ _); auto.
Qed.
Lemma firstn_forall : forall A (P : A -> Prop) n l, Forall P l -> Forall P (firstn n l).
Proof. intros A P n l F. rewrite <- (firstn_skipn n l) in F. apply Forall_app in F. apply F. Qed.
Lemma skipn_forall : forall A (P : A -> Prop) n l, Forall P l -> Forall P (skipn n l).
Proof. intros A P n l F. rewrite <- (firstn_skipn n l) in F. apply Forall_app in F. apply F. Qed.
Lemma keeps_leave : forall s0 i, keeps s0 (leave i) anyQ.
Proof.
  intros s0 i s E I. unfold leave. set (t := {| mem := mem s; rc := rc s; stk := firstn i (stk s) |}).
  assert (D1 : D t) by (apply (D_mem s); auto; simpl; apply firstn_forall; apply I). assert (E1 : ext s t) by (apply ext_mem; auto).
  pose proof (keeps_release s (skipn i (stk s)) t E1 D1) as K. destruct (release _ t); auto.
Qed.
Lemma keeps_scoped : forall A s0 v (f : lval -> M A) (Q : state -> A -> Prop), okv v -> (forall s s' a, Q s a -> Q s' a) -> (forall i s1, ext s0 s1 -> keeps s1 (f (LS i)) Q) -> keeps s0 (scoped v f) Q.
Proof.
  intros A s0 v f Q V Qs K s E I. unfold scoped. set (t := {| mem := mem s; rc := rc s; stk := stk s ++ [v] |}).
  assert (D1 : D t) by (apply (D_mem s); auto; simpl; apply Forall_app; split; [apply I|auto]). assert (E1 : ext s t) by (apply ext_mem; auto).
  specialize (K (length (stk s)) s E t E1 D1). destruct (f (LS (length (stk s))) t) as [a s'|m s'|k|]; auto.
  - destruct K as (D2 & E2 & Q2). unfold bind. pose proof (keeps_leave s' (length (stk s)) s' (ext_refl _) D2) as L.
    destruct (leave (length (stk s)) s') as [u s2|m s2|k|]; auto; [destruct L as (D3 & E3 & _)|destruct L as (D3 & E3)]; (assert (E4 : ext s s2) by (apply (ext_trans s s'); auto; apply (ext_trans s t); auto)); simpl; conj; auto; eauto.
  - destruct K as (D2 & E2). unfold bind. pose proof (keeps_leave s' (length (stk s)) s' (ext_refl _) D2) as L.
    destruct (leave (length (stk s)) s') as [u s2|m2 s2|k|]; auto; [destruct L as (D3 & E3 & _)|destruct L as (D3 & E3)]; (assert (E4 : ext s s2) by (apply (ext_trans s s'); auto; apply (ext_trans s t); auto)); simpl; conj; auto.
Qed.
Lemma keeps_temp : forall s0 x, okv x -> keeps s0 (temp x) lQ.
Proof.
  intros s0 x V s E I. unfold temp. split; [apply (D_mem s); auto; simpl; apply Forall_app; split; [apply I|auto]|]. split; [apply ext_mem; auto|exact Logic.I].
Qed.

(** Arrays as they were when looked at. *)
Definition knows (s : state) (l : nat) (o : hobj) : Prop :=
  l < length (mem s) /\ forall o', live s l o' -> h_ty o' = h_ty o /\ h_view o' = h_view o.
Lemma knows_ext : forall s s' l o, ext s s' -> knows s l o -> knows s' l o.
Proof. intros s s' l o [L H] [Hl K]. split; [lia|]. intros o' O. destruct (H l o' Hl O) as (o1 & O1 & T & V). rewrite T, V. auto. Qed.
Lemma knows_live : forall s l o, live s l o -> knows s l o.
Proof. intros s l o O. split; [eapply live_lt; eauto|]. intros o' O'. unfold live in *. rewrite O in O'. inversion O'; auto. Qed.
Lemma okl_cell : forall s l o g i, knows s l o -> plain_vars o = true -> okl s (LC l g i).
Proof. intros s l o g i [Hl K] P. split; auto. intros o' O. destruct (K o' O) as [T V]. unfold plain_vars in *. rewrite T, V. auto. Qed.
Lemma okl_key : forall s l o g i, knows s l o -> plain_vars o = true -> okl s (LK l g i).
Proof. intros s l o g i [Hl K] P. split; auto. intros o' O. destruct (K o' O) as [T V]. unfold plain_vars in *. rewrite T, V. auto. Qed.
Definition gQ (l : nat) : state -> hobj -> Prop := fun s o => typed o /\ knows s l o.
Lemma keeps_get_obj : forall s0 l, keeps s0 (get_obj l) (gQ l).
Proof. intros s0 l. apply keeps_reads; [apply reader_get_obj|]. intros s o E I G. apply get_obj_live in G as [_ G]. split; [eapply I; eauto|apply knows_live; auto]. Qed.

Create HintDb dn.
Ltac up E :=
  match type of E with ext ?a ?b =>
    repeat match goal with
    | H : okl a _ |- _ => apply (okl_ext a b _ E) in H
    | H : knows a _ _ |- _ => apply (knows_ext a b _ _ E) in H
    | H : has_ty a _ _ |- _ => apply (has_ext a b _ _ E) in H
    | H : elt a _ _ |- _ => apply (elt_ext a b _ _ E) in H
    | H : gQ _ _ _ |- _ => destruct H
    | H : Forall (okl a) _ |- _ => apply (Forall_impl (okl b) (fun v K => okl_ext a b v E K)) in H
    end
  end.
Ltac fin := unfold vQ, lQ in *; auto with dn; try exact Logic.I; try (eapply okl_cell; [eassumption|assumption]).
Ltac dq m := let T := type of m in lazymatch T with
  | M mvar => uconstr:(vQ) | M lval => uconstr:(lQ) | _ => uconstr:(anyQ) end.
Ltac dp :=
  cbv beta iota zeta;
  lazymatch goal with
  | |- keeps _ (bind (bind _ _) _) _ => apply keeps_assoc; dp
  | |- keeps _ (bind (get_obj _) _) _ =>
      eapply keeps_bind; [apply keeps_get_obj|let s := fresh "s" in let o := fresh "o" in let E := fresh "E" in let T := fresh "T" in let K := fresh "K" in intros s o E [T K]; up E; clear E; dp]
  | |- keeps _ (bind (new_cells _ _) _) _ => idtac
  | |- keeps _ (bind ?m _) _ =>
      (first [eapply keeps_bind; [solve [eauto with dn nocore]|]
             |let q := dq m in eapply (keeps_bind _ _ q); [dp|]
             |idtac "bind" m]);
      lazymatch goal with |- keeps _ _ _ => idtac | _ =>
      (let s := fresh "s" in let a := fresh "a" in let E := fresh "E" in let Q := fresh "Q" in
       intros s a E Q; up E; clear E; unfold vQ, lQ in Q; dp) end
  | |- keeps _ (ret _) _ => apply keeps_ret; let s := fresh "s" in let E := fresh "E" in intros s E; up E; clear E; fin
  | |- keeps _ (throw _) _ => apply keeps_throw
  | |- keeps _ (ub _) _ => apply keeps_ub
  | |- keeps _ stuck _ => apply keeps_stuck
  | |- keeps _ (match ?x with _ => _ end) _ => destruct x eqn:?; dp
  | |- keeps _ (scoped _ _) _ =>
      apply keeps_scoped; [fin|intros; assumption|let i := fresh "i" in let s := fresh "s" in let E := fresh "E" in intros i s E; up E; clear E; dp]
  | |- keeps _ _ _ => first [solve [eauto with dn nocore]|idtac]
  | _ => idtac
  end.
#[local] Hint Extern 1 (okl _ (LS _)) => exact Logic.I : dn.
#[local] Hint Extern 1 (okl _ _) => assumption : dn.
#[local] Hint Extern 1 (okl _ (LC _ _ _)) => eapply okl_cell; [eassumption|assumption] : dn.
#[local] Hint Extern 1 (okv _) => first [assumption|exact Logic.I] : dn.
#[local] Hint Extern 20 (keeps _ _ anyQ) => eapply keeps_any : dn.
#[local] Hint Resolve keeps_get keeps_put keeps_attach keeps_release keeps_leave keeps_temp : dn.

Lemma keeps_lift : forall A s0 (o : outcome A), keeps s0 (lift o) anyQ.
Proof. intros. apply keeps_reader, reader_lift. Qed.
Lemma keeps_take : forall s0 v, okl s0 v -> keeps s0 (take v) vQ.
Proof. intros s0 v K. unfold take. dp. Qed.
Lemma keeps_copy_of : forall s0 v, okl s0 v -> keeps s0 (copy_of v) vQ.
Proof. intros s0 v K. unfold copy_of. dp. Qed.
Lemma keeps_replace : forall s0 v x, okl s0 v -> okv x -> keeps s0 (replace v x) anyQ.
Proof. intros s0 v x K V. unfold replace. dp. Qed.
#[local] Hint Resolve keeps_lift keeps_take keeps_copy_of keeps_replace : dn.

(** ** Reading *)
Lemma keeps_eff : forall s0 v, okv v -> keeps s0 (eff v) vQ.
Proof.
  intros s0 v V. apply keeps_reads; [apply reader_eff|]. intros s a E [I1 _] H. unfold vQ. unfold eff in H. destruct v as [|x|l|l i| |]; try (inversion H; subst; exact V).
  unfold bind in H. destruct (get_obj l s) as [o s1|? ?|?|] eqn:G; try discriminate. apply get_obj_live in G as [-> G]. destruct (plain_vars o) eqn:P; [|inversion H; subst; exact V].
  destruct (nth_error (h_cells o) i) as [c|] eqn:N; [|discriminate]. pose proof (typed_nth _ _ _ (I1 _ _ G) N) as C. apply plain_varlike in P as [P _]. unfold cell_ok in C. rewrite P in C. destruct C as [_ C]. destruct c as [k x]. simpl in C.
  destruct x; inversion H; subst; auto.
Qed.
Lemma read_elem_inv : forall l i s x s', read_elem l i s = ROk x s' -> exists o t j ot k, live s l o /\ live s t ot /\ varlike (h_ty ot) = false /\ nth_error (h_cells ot) j = Some (k, x) /\ x <> MJunk /\
  match h_view o with None => t = l | Some u => t = u end.
Proof.
  intros l i s x s' H. unfold read_elem, elem_at, bind in H. destruct (get_obj l s) as [o s1|? ?|?|] eqn:G; try discriminate. apply get_obj_live in G as [-> G].
  assert (X : forall t j, (let! o0 := get_obj t in match nth_error (h_cells o0) j with Some (_, MJunk) => ub Uninit | Some (_, x) => if varlike (h_ty o0) then stuck else ret x | None => ub OutOfBounds end) s = ROk x s' ->
    exists ot k, live s t ot /\ varlike (h_ty ot) = false /\ nth_error (h_cells ot) j = Some (k, x) /\ x <> MJunk).
  { intros t j X. unfold bind in X. destruct (get_obj t s) as [ot s1|? ?|?|] eqn:Gt; try discriminate. apply get_obj_live in Gt as [-> Gt]. destruct (nth_error (h_cells ot) j) as [[k y]|] eqn:N; [|discriminate].
    exists ot, k. destruct (varlike (h_ty ot)); [destruct y; discriminate|]. destruct y; inversion X; subst; conj; auto; discriminate. }
  destruct (h_view o) as [u|] eqn:Vw; simpl in H.
  - destruct (own_int o 0 s) as [z s1|? ?|?|] eqn:Z; try discriminate. pose proof (reader_own_int o 0 s) as R. rewrite Z in R. subst s1. simpl in H. destruct (_ <? 0)%Z; [discriminate|]. simpl in H.
    destruct (X _ _ H) as (ot & k & ? & ? & ? & ?). exists o, u, (Z.to_nat (i + z)), ot, k. rewrite Vw. conj; auto.
  - destruct (_ <? 0)%Z; [discriminate|]. simpl in H. destruct (X _ _ H) as (ot & k & ? & ? & ? & ?). exists o, l, (Z.to_nat i), ot, k. rewrite Vw. conj; auto.
Qed.
Lemma keeps_read_elem : forall s0 l i, keeps s0 (read_elem l i) vQ.
Proof.
  intros s0 l i. apply keeps_reads; [apply reader_read_elem|]. intros s x E [I1 _] H. apply read_elem_inv in H as (o & t & j & ot & k & O & T & V & N & J & _).
  apply (dense_okv (h_ty ot) (k, x) V); auto. eapply typed_nth; eauto.
Qed.
#[local] Hint Resolve keeps_eff keeps_read_elem : dn.
#[local] Hint Resolve reader_obj_size reader_defined reader_type_of reader_size_of reader_heap_of reader_atype_of reader_is_array_of reader_value reader_copyable reader_desc_loop reader_own_int reader_shape reader_stride reader_elem_at : dn.
#[local] Hint Extern 10 (keeps _ _ _) => apply keeps_reader : dn.

Lemma cast_type : forall t x y, cast t x = Ok y -> t <> TVar -> ety_of y = t.
Proof.
  assert (Z1 : forall t z y, cast_Z t z = Ok y -> t <> TVar -> ety_of y = t) by (intros t z y H N; destruct t; simpl in H; inversion H; auto; contradiction).
  assert (F1 : forall t z y, cast_F t z = Ok y -> t <> TVar -> ety_of y = t).
  { intros t z y H N. destruct t; unfold cast_F in H; try contradiction; try (inversion H; auto; fail); destruct (float_trunc z); try discriminate; destruct (_ && _); inversion H; auto. }
  assert (S1 : forall t z y, cast_str t z = Ok y -> t <> TVar -> ety_of y = t).
  { intros t z y H N. destruct t; unfold cast_str in H; try contradiction; match type of H with match option_map _ ?e with _ => _ end = _ => destruct e end; inversion H; auto. }
  intros t x y H N. destruct t; try contradiction; destruct x as [| | | | | |u l|m|]; simpl in H; try discriminate; eauto; try (inversion H; auto; fail); destruct u; try discriminate; eauto.
Qed.
Lemma num_op_number : forall op x y z, num_op op x y = Ok z -> number z = true.
Proof.
  intros op x y z H. destruct x; unfold num_op in H; try discriminate;
    match type of H with context [cast ?t y] => destruct (cast t y) as [c| | |] end; simpl in H; try discriminate; destruct c; try discriminate; try (inversion H; reflexivity);
    match type of H with context [s_op ?o ?r ?a ?b] => destruct (s_op o r a b) end; inversion H; reflexivity.
Qed.
Lemma lift_inv : forall A (o : outcome A) s a s', lift o s = ROk a s' -> o = Ok a.
Proof. intros A [a0|m|k|] s a s' H; inversion H; auto. Qed.
Definition tQ (t : ety) : state -> val -> Prop := fun _ y => ety_of y = t.
Lemma bind_inv : forall A B (m : M A) (f : A -> M B) s b s', bind m f s = ROk b s' -> exists a s1, m s = ROk a s1 /\ f a s1 = ROk b s'.
Proof. intros A B m f s b s' H. unfold bind in H. destruct (m s); try discriminate. eauto. Qed.
Lemma keeps_cast_var : forall s0 t p, t <> TVar -> keeps s0 (cast_var t p) (tQ t).
Proof.
  intros s0 t p N. apply keeps_reads; [apply reader_cast_var|]. intros s y E I H. unfold tQ. unfold cast_var in H.
  apply bind_inv in H as (v & s1 & _ & H). apply bind_inv in H as (e & s2 & _ & H).
  assert (X : forall s2, (let! x := value e in lift (cast t x)) s2 = ROk y s -> ety_of y = t).
  { intros s3 X. apply bind_inv in X as (x & s4 & _ & X). apply lift_inv in X. eapply cast_type; eauto. }
  destruct e; eauto. apply bind_inv in H as (o & s3 & _ & H). destruct (h_view o); [discriminate|]. destruct (h_ty o) as [[]|]; try discriminate. eauto.
Qed.
Lemma ety_eqb_eq : forall a b, ety_eqb a b = true -> a = b.
Proof. destruct a, b; simpl; intros; auto; discriminate. Qed.
Lemma keeps_get_as : forall s0 t p, keeps s0 (get_as t p) (tQ t).
Proof.
  intros s0 t p. apply keeps_reads; [apply reader_get_as|]. intros s y E I H. unfold tQ. unfold get_as in H.
  apply bind_inv in H as (v & s1 & G & H). pose proof (reader_get p s) as R. rewrite G in R. subst s1. clear G.
  apply bind_inv in H as (e & s2 & G & H). pose proof (reader_eff v s) as R. rewrite G in R. subst s2. clear G.
  destruct e as [|x|l|l i| |]; try discriminate.
  - destruct (ety_eqb (ety_of x) t) eqn:T; [|discriminate]. apply ety_eqb_eq in T. inversion H; subst; auto.
  - apply bind_inv in H as (o & s1 & G & H). apply get_obj_live in G as [-> G]. apply bind_inv in H as (ty & s1 & Ty & H). pose proof (reader_obj_type o s) as R. rewrite Ty in R. subst s1.
    destruct ty as [u|]; [|discriminate]. destruct (ety_eqb u t) eqn:T; [|discriminate]. apply ety_eqb_eq in T. subst u. apply bind_inv in H as (x & s1 & X & H). destruct x as [|z| | | |]; try discriminate. inversion H; subst. 
    apply read_elem_inv in X as (o1 & u & j & ot & k & O & U & V & N & J & W). assert (o1 = o) by (unfold live in *; congruence). subst o1.
    pose proof (proj1 I _ _ U) as C. apply (typed_nth _ j (k, MNum y)) in C; auto. unfold cell_ok in C. rewrite V in C. destruct C as (_ & [C|(v1 & C & C1)]); [discriminate|]. simpl in C. inversion C; subst v1.
    assert (h_ty ot = HE t); [|congruence]. unfold obj_type in Ty. destruct (h_view o) as [w|]; simpl in W; subst u.
    + apply bind_inv in Ty as (o2 & s2 & G2 & Ty). apply get_obj_live in G2 as [-> G2]. inversion Ty. unfold live in *. congruence.
    + inversion Ty. unfold live in *. congruence.
Qed.
Lemma keeps_obj_type : forall s0 l o, knows s0 l o -> keeps s0 (obj_type o) (fun s t => elt s l t).
Proof.
  intros s0 l o K. apply keeps_reads; [apply reader_obj_type|]. intros s t E I H. apply (knows_ext _ _ _ _ E) in K. destruct K as [Hl K]. split; auto. intros o' O. destruct (K o' O) as [T V]. rewrite T, V.
  unfold obj_type in H. destruct (h_view o) as [u|]; [|inversion H; auto]. apply bind_inv in H as (ou & s1 & G & H). apply get_obj_live in G as [-> G]. inversion H; subst.
  split; [eapply live_lt; eauto|]. intros x X. unfold live in *. congruence.
Qed.
(** ** Writing *)
Lemma keeps_write_elem : forall s0 l i x, elt s0 l (HE (ety_of x)) -> keeps s0 (write_elem l i x) anyQ.
Proof.
  intros s0 l i x K s E I. apply (elt_ext _ _ _ _ E) in K. unfold write_elem, elem_at, bind. unfold get_obj at 1. destruct (nth_error (mem s) l) as [[o|]|] eqn:O; auto.
  assert (X : forall t j, (forall ot, live s t ot -> h_ty ot = HE (ety_of x)) -> match (let! o0 := get_obj t in match nth_error (h_cells o0) j with Some (k, _) => if varlike (h_ty o0) then stuck else set_obj t (set_cells o0 (set_nth (h_cells o0) j (k, MNum x))) | None => ub OutOfBounds end) s with
    ROk a s' => D s' /\ ext s s' /\ anyQ s' a | RThrow _ s' => D s' /\ ext s s' | _ => True end).
  { intros t j Ht. unfold bind, get_obj. destruct (nth_error (mem s) t) as [[ot|]|] eqn:Ot; auto. destruct (nth_error (h_cells ot) j) as [[k y]|] eqn:N; simpl; auto. destruct (varlike (h_ty ot)) eqn:V; simpl; auto.
    pose proof (proj1 I _ _ Ot) as T. destruct (D_set s t ot (set_cells ot (set_nth (h_cells ot) j (k, MNum x))) I Ot) as [D' E']; auto; [|conj; auto].
    split; simpl; [|apply T]. apply set_forall; [apply T|]. pose proof (typed_nth _ _ _ T N) as C. unfold cell_ok in *. rewrite V in *. simpl in *. split; [tauto|]. right. exists x. split; auto. symmetry. auto. }
  destruct K as [_ K]. specialize (K o O). destruct (h_view o) as [u|]; simpl.
  - destruct (own_int o 0 s) as [z s1|? ?|?|] eqn:Z; simpl; auto.
    + pose proof (reader_own_int o 0 s) as R. rewrite Z in R. subst s1. destruct (_ <? 0)%Z; simpl; auto. apply X. apply K.
    + pose proof (reader_own_int o 0 s) as R. rewrite Z in R. subst. conj; auto. apply ext_refl.
  - destruct (_ <? 0)%Z; simpl; auto. apply X. intros ot Ot. unfold live in *. congruence.
Qed.
#[local] Hint Resolve keeps_write_elem keeps_obj_type keeps_get_as : dn.
Lemma fresh_ok : forall t n, Forall (cell_ok t) (repeat (fresh t) n).
Proof.
  intros t n. apply Forall_forall. intros c C. apply repeat_spec in C. subst c. unfold cell_ok, fresh. destruct (varlike t); simpl; auto.
Qed.
Lemma terminate_ok : forall t n c, Forall (cell_ok t) c -> Forall (cell_ok t) (terminate t n c).
Proof.
  intros t n c F. unfold terminate. destruct t as [[]|]; simpl; auto. apply set_forall; auto. unfold cell_ok. simpl. split; auto. right. exists (VChar 0). auto.
Qed.
Definition cQ (t : hty) : state -> list (mvar * mvar) -> Prop := fun _ c => Forall (cell_ok t) c.
Lemma keeps_new_cells : forall s0 t n, keeps s0 (new_cells t n) (cQ t).
Proof.
  intros s0 t n. apply keeps_reads; [apply reader_new_cells|]. intros s c E I H. unfold new_cells in H. apply bind_inv in H as (k & s1 & _ & H). destruct (k <? 0)%Z; inversion H; subst. apply terminate_ok, fresh_ok.
Qed.
Lemma keeps_new_heap : forall s0 t n, keeps s0 (new_heap t n) vQ.
Proof. intros. unfold new_heap. eapply keeps_bind; [apply keeps_new_cells|]. intros s c E C. apply keeps_new_obj. split; auto. Qed.
Lemma keeps_heap_resize : forall s0 l n, keeps s0 (heap_resize l n) anyQ.
Proof.
  intros s0 l n s E I. unfold heap_resize, bind. unfold get_obj. destruct (nth_error (mem s) l) as [[o|]|] eqn:O; auto. pose proof (proj1 I _ _ O) as T. unfold lift.
  destruct (allocSize _) as [c|m|k|]; simpl; auto; [|conj; auto; apply ext_refl].
  destruct (Z.of_nat (length (h_cells o)) <? c)%Z.
  - match goal with |- match set_obj l ?x s with _ => _ end => destruct (D_set s l o x I O) as [D' E'] end; auto; [|simpl; conj; auto]. split; simpl; [|apply T]. apply terminate_ok, Forall_app. split; [apply T|apply fresh_ok].
  - destruct (_ && _); simpl; auto.
    match goal with |- context [set_nth (mem s) l (Some ?x)] => destruct (D_set s l o x I O) as [D' E'] end; auto; [|conj; auto]. split; simpl; [|apply T]. apply terminate_ok, T.
Qed.
#[local] Hint Resolve keeps_new_heap keeps_heap_resize : dn.
Lemma keeps_dereference : forall s0 v, okl s0 v -> keeps s0 (dereference v) lQ.
Proof. intros s0 v K. unfold dereference. dp. Qed.
#[local] Hint Resolve keeps_dereference : dn.
Lemma keeps_copy_elems : forall n s0 l l' i t, elt s0 l (HE t) -> elt s0 l' (HE t) -> t <> TVar -> keeps s0 (copy_elems l l' n i) anyQ.
Proof.
  induction n; intros s0 l l' i t K K' N; simpl; [dp|].
  eapply keeps_bind with (Q := fun s x => forall y, x = MNum y -> ety_of y = t).
  { apply keeps_reads; [apply reader_read_elem|]. intros s x E [I1 _] H y ->. apply (elt_ext _ _ _ _ E) in K'.
    apply read_elem_inv in H as (o & u & j & ot & k & O & T & V & Nt & J & W). destruct K' as [_ K']. specialize (K' o O).
    assert (Ty : h_ty ot = HE t) by (destruct (h_view o); subst; [apply K'; auto|congruence]).
    pose proof (typed_nth _ _ _ (I1 _ _ T) Nt) as C. unfold cell_ok in C. rewrite V in C. destruct C as [_ [C|(v & C1 & C2)]]; simpl in *; [discriminate|]. congruence. }
  intros s x E Q. up E. eapply keeps_bind with (Q := anyQ).
  - destruct x; try apply keeps_stuck. apply keeps_write_elem. rewrite (Q _ eq_refl). auto.
  - intros s1 u E1 _. up E1. eapply IHn; eauto.
Qed.
Lemma keeps_set_view : forall s0 l l' p, keeps s0 (set_view l l' p) anyQ.
Proof.
  intros s0 l l' p. unfold set_view. eapply keeps_bind; [apply keeps_get_obj|]. intros s o E [T K]. up E. clear E.
  eapply keeps_bind; [apply keeps_get_obj|]. intros s1 o' E [T' K']. up E. clear E.
  eapply keeps_bind; [apply keeps_obj_type; eauto|]. intros s2 t E Kt. up E. clear E. cbv beta in Kt.
  eapply keeps_bind with (Q := anyQ).
  { destruct (Nat.eqb _ _); dp. }
  intros s3 one E _. up E. clear E. destruct one.
  - destruct t as [[]|]; try apply keeps_stuck;
      (eapply keeps_bind; [apply keeps_cast_var; discriminate|]; intros s4 x E Tx; up E; unfold tQ in Tx; apply keeps_write_elem; rewrite Tx; auto).
  - eapply keeps_bind; [apply keeps_obj_type; eauto|]. intros s4 t' E Kt'. up E. clear E. cbv beta in Kt'.
    destruct (hcode t =? hcode t')%Z eqn:Hc; simpl; [|apply keeps_throw].
    eapply keeps_bind with (Q := anyQ); [dp|]. intros s5 n E _. up E. clear E. destruct (n =? 0)%Z; [apply keeps_ub|].
    destruct t as [[]|], t' as [[]|]; try apply keeps_throw; try discriminate;
      (eapply keeps_bind with (Q := anyQ); [dp|]; intros s6 n' E _; up E; clear E; eapply keeps_copy_elems; eauto; discriminate).
Qed.
#[local] Hint Resolve keeps_set_view : dn.
Lemma keeps_assign_plain : forall s0 v p, okl s0 v -> okl s0 p -> keeps s0 (assign_plain v p) anyQ.
Proof. intros s0 v p K K1. unfold assign_plain. dp. Qed.
#[local] Hint Resolve keeps_assign_plain : dn.
Lemma keeps_cast_write : forall s0 l i t p, elt s0 l (HE t) -> t <> TVar -> keeps s0 (let! x := cast_var t p in write_elem l i x) anyQ.
Proof.
  intros s0 l i t p K N. eapply keeps_bind; [apply keeps_cast_var; auto|]. intros s x E T. up E. unfold tQ in T. apply keeps_write_elem. rewrite T. auto.
Qed.
Lemma keeps_assign : forall s0 v p, okl s0 v -> okl s0 p -> keeps s0 (assign v p) anyQ.
Proof.
  intros s0 v p K K1. unfold assign. eapply keeps_bind; [apply keeps_get; auto|]. intros s1 t E1 Q1. up E1. destruct t as [|x|l|l i| |]; try (dp; fail).
  eapply keeps_bind; [apply keeps_get_obj|]. intros s2 o E2 [T2 K2]. up E2. eapply keeps_bind; [apply keeps_obj_type; eauto|]. intros s3 ty E3 Q3. cbv beta in Q3. up E3.
  destruct ty as [[]|]; try (apply keeps_cast_write; auto; discriminate); dp.
Qed.
#[local] Hint Resolve keeps_assign : dn.
Lemma keeps_assign_copy : forall s0 v p, okl s0 v -> okl s0 p -> keeps s0 (assign_copy v p) anyQ.
Proof. intros; unfold assign_copy; dp. Qed.
Lemma keeps_assign_value : forall s0 v x, okl s0 v -> okv x -> keeps s0 (assign_value v x) anyQ.
Proof. intros; unfold assign_value; dp. Qed.
Lemma keeps_reference : forall s0 v i, okl s0 v -> keeps s0 (reference v i) vQ.
Proof. intros; unfold reference; dp. Qed.
#[local] Hint Resolve keeps_assign_copy keeps_assign_value keeps_reference : dn.
Lemma keeps_at_int : forall s0 v i, okl s0 v -> keeps s0 (at_int v i) vQ.
Proof. intros; unfold at_int; dp. Qed.
#[local] Hint Resolve keeps_at_int : dn.
Lemma keeps_set_at : forall s0 v i x, okl s0 v -> okv x -> keeps s0 (set_at v i x) anyQ.
Proof. intros; unfold set_at; dp. Qed.
#[local] Hint Resolve keeps_set_at : dn.
Lemma keeps_set_at_copy : forall s0 v i p, okl s0 v -> okl s0 p -> keeps s0 (set_at_copy v i p) anyQ.
Proof. intros; unfold set_at_copy; dp. Qed.
#[local] Hint Resolve keeps_set_at_copy reader_type_for : dn.
Lemma keeps_become_array : forall s0 v n, okl s0 v -> keeps s0 (become_array v n) anyQ.
Proof. intros; unfold become_array; dp. Qed.
#[local] Hint Resolve keeps_become_array : dn.
Lemma keeps_array : forall s0 v, okl s0 v -> keeps s0 (array v) anyQ.
Proof. intros; unfold array; dp. Qed.
Lemma keeps_resize : forall s0 v n, okl s0 v -> keeps s0 (resize v n) anyQ.
Proof. intros; unfold resize; dp. Qed.
#[local] Hint Resolve keeps_array keeps_resize : dn.
Lemma keeps_index_plain : forall s0 v n, okl s0 v -> keeps s0 (index_plain v n) vQ.
Proof. intros; unfold index_plain; dp. Qed.
#[local] Hint Resolve keeps_index_plain : dn.
Lemma keeps_index_int : forall s0 v n, okl s0 v -> keeps s0 (index_int v n) vQ.
Proof. intros; unfold index_int; dp. Qed.
#[local] Hint Resolve keeps_index_int : dn.
Lemma keeps_push : forall s0 v p, okl s0 v -> okl s0 p -> keeps s0 (push v p) anyQ.
Proof. intros; unfold push; dp. Qed.
Lemma keeps_pop : forall s0 v, okl s0 v -> keeps s0 (pop v) vQ.
Proof. intros; unfold pop; dp. Qed.
Lemma keeps_clear : forall s0 v, okl s0 v -> keeps s0 (clear v) anyQ.
Proof. intros; unfold clear; dp. Qed.
Lemma keeps_key_ptr : forall s0 v i, okl s0 v -> keeps s0 (key_ptr v i) lQ.
Proof.
  intros; unfold key_ptr; dp. unfold lQ. eapply okl_key; eauto. destruct T as [_ [T|T]]; [|congruence]. unfold plain_vars. rewrite T, Heqh. reflexivity.
Qed.
#[local] Hint Resolve keeps_push keeps_pop keeps_clear keeps_key_ptr : dn.
Lemma keeps_shift_up : forall n s0 v i, okl s0 v -> keeps s0 (shift_up v n i) anyQ.
Proof. induction n; intros; cbn [shift_up]; dp. Qed.
Lemma keeps_shift_up_pairs : forall n s0 v i, okl s0 v -> keeps s0 (shift_up_pairs v n i) anyQ.
Proof. induction n; intros; cbn [shift_up_pairs]; dp. Qed.
Lemma keeps_spread : forall f s0 v p idx i, okl s0 v -> okl s0 p -> keeps s0 (spread v p idx f i) anyQ.
Proof. induction f; intros; cbn [spread]; dp. Qed.
Lemma keeps_fill : forall f s0 v p idx i, okl s0 v -> okl s0 p -> keeps s0 (fill v p idx f i) anyQ.
Proof. induction f; intros; cbn [fill]; dp. Qed.
#[local] Hint Resolve keeps_shift_up keeps_shift_up_pairs keeps_spread keeps_fill : dn.
Lemma keeps_insert : forall s0 v p i, okl s0 v -> okl s0 p -> keeps s0 (insert v p i) anyQ.
Proof. intros; unfold insert; dp. Qed.
#[local] Hint Resolve keeps_insert : dn.
Lemma keeps_append : forall s0 v p, okl s0 v -> okl s0 p -> keeps s0 (append v p) anyQ.
Proof. intros; unfold append; dp. Qed.
Lemma keeps_attach_all : forall l s0, keeps s0 (attach_all l) anyQ.
Proof. induction l; intros; unfold attach_all in *; cbn [fold_right]; dp. Qed.
#[local] Hint Resolve keeps_append keeps_attach_all : dn.
Lemma keeps_copy_cells : forall s0 o, typed o -> keeps s0 (copy_cells o) vQ.
Proof.
  intros s0 o T. unfold copy_cells. eapply keeps_bind; [apply keeps_new_cells|]. intros s c E C. unfold cQ in C. dp.
  apply keeps_new_obj. split; auto. cbn [h_ty h_cells]. apply Forall_app. split; [apply firstn_forall, T|apply skipn_forall; auto].
Qed.
#[local] Hint Resolve keeps_copy_cells : dn.
Lemma keeps_copy : forall s0 v, okl s0 v -> keeps s0 (copy v) vQ.
Proof.
  intros s0 v K. unfold copy. dp.
  - eapply keeps_bind; [apply keeps_new_cells|]. intros s' c E C. unfold cQ in C. dp. apply keeps_new_obj. split; [|right; reflexivity]. cbn [h_ty h_cells]. apply Forall_app.
    split; [|apply skipn_forall; auto]. apply firstn_forall. destruct T as [T [T1|T1]]; [congruence|]. rewrite T1 in T. auto.
Qed.
#[local] Hint Resolve keeps_copy : dn.
Lemma keeps_shift_down : forall n s0 v i, okl s0 v -> keeps s0 (shift_down v n i) anyQ.
Proof. induction n; intros; cbn [shift_down]; dp. Qed.
#[local] Hint Resolve keeps_shift_down : dn.
Lemma keeps_remove : forall s0 v i, okl s0 v -> keeps s0 (remove v i) vQ.
Proof. intros; unfold remove; dp. Qed.
#[local] Hint Resolve keeps_remove : dn.
Lemma keeps_heap_shift : forall s0 l, keeps s0 (heap_shift l) vQ.
Proof.
  intros s0 l s E I. unfold heap_shift. unfold bind at 1. unfold get_obj at 1.
  destruct (nth_error (mem s) l) as [[o|]|] eqn:O; auto. pose proof (proj1 I _ _ O) as T.
  destruct (h_cells o) as [|d rest] eqn:Cells; simpl; auto. destruct (h_size o) as [|n] eqn:Sz; simpl; auto.
  assert (Td : cell_ok (h_ty o) d /\ Forall (cell_ok (h_ty o)) rest) by (destruct T as [T _]; rewrite Cells in T; inversion T; auto). destruct Td as [Td Tr].
  assert (Main : forall x, okv x -> match ((attach x ;;
        (if varlike (h_ty o)
         then
           let! o := get_obj l in
           set_obj l (set_cells o (firstn n rest ++ (MNil, MNil) :: skipn n rest)) ;;
           release [fst d; snd d]
         else set_obj l (set_cells o (firstn n rest ++ match nth_error (d :: rest) n with Some d => [d] | None => [] end ++ skipn n rest))) ;;
        heap_resize l n ;;
        ret x) s) with ROk a s' => D s' /\ ext s s' /\ vQ s' a | RThrow _ s' => D s' /\ ext s s' | _ => True end).
  { intros x V. assert (K : forall s1, ext s s1 -> D s1 -> live s1 l o ->
      match (((if varlike (h_ty o)
         then
           let! o := get_obj l in
           set_obj l (set_cells o (firstn n rest ++ (MNil, MNil) :: skipn n rest)) ;;
           release [fst d; snd d]
         else set_obj l (set_cells o (firstn n rest ++ match nth_error (d :: rest) n with Some d => [d] | None => [] end ++ skipn n rest))) ;;
        heap_resize l n ;;
        ret x) s1) with ROk a s' => D s' /\ ext s1 s' /\ vQ s' a | RThrow _ s' => D s' /\ ext s1 s' | _ => True end).
    { intros s1 E1 D1 O1.
      assert (K : forall c, Forall (cell_ok (h_ty o)) c -> forall m : M unit, (forall s2, ext s1 s2 -> keeps s2 m anyQ) -> match ((set_obj l (set_cells o c) ;; m) ;; heap_resize l n ;; ret x) s1 with ROk a s' => D s' /\ ext s1 s' /\ vQ s' a | RThrow _ s' => D s' /\ ext s1 s' | _ => True end).
      { intros c C m Hm. destruct (D_set s1 l o (set_cells o c) D1 O1) as [D2 E2]; auto; [split; simpl; [auto|apply T]|].
        unfold bind at 1 2. cbn [set_obj]. assert (K2 : keeps s1 (m ;; heap_resize l n ;; ret x) vQ).
        { apply (keeps_bind _ _ anyQ); [apply Hm, ext_refl|]. intros s2 u F _. dp. }
        specialize (K2 _ E2 D2). unfold bind at 1 in K2. unfold set_obj. destruct (m _) as [u s3|? s3|?|]; auto.
        - destruct ((heap_resize l n;; ret x) s3); auto; [destruct K2 as (? & ? & ?)|destruct K2]; conj; auto; eapply ext_trans; eauto.
        - destruct K2. conj; auto. eapply ext_trans; eauto. }
      destruct (varlike (h_ty o)) eqn:Vl.
      - unfold bind at 1 2. unfold get_obj. unfold live in O1. rewrite O1. apply (K (firstn n rest ++ (MNil, MNil) :: skipn n rest)).
        + apply Forall_app. split; [apply firstn_forall; auto|]. constructor; [unfold cell_ok; rewrite Vl; simpl; auto|apply skipn_forall; auto].
        + intros. apply keeps_release.
      - specialize (K (firstn n rest ++ match nth_error (d :: rest) n with Some d => [d] | None => [] end ++ skipn n rest)). 
        assert (C : Forall (cell_ok (h_ty o)) (firstn n rest ++ match nth_error (d :: rest) n with Some d => [d] | None => [] end ++ skipn n rest)).
        { apply Forall_app. split; [apply firstn_forall; auto|]. apply Forall_app. split; [|apply skipn_forall; auto]. destruct (nth_error (d :: rest) n) eqn:N; constructor; auto. apply nth_error_In in N. 
          assert (F : Forall (cell_ok (h_ty o)) (d :: rest)) by auto. rewrite Forall_forall in F. auto. }
        specialize (K C (ret tt)). unfold bind at 2 in K. unfold bind at 1 in K. unfold bind at 1. unfold set_obj in *. apply K. intros. dp. }
    unfold bind at 1. unfold attach. destruct (target x); simpl; [|apply K; auto; apply ext_refl].
    unfold bind at 1. unfold get_obj at 1. destruct (nth_error (mem s) n0) as [[o1|]|]; auto.
    match goal with |- match _ ?t with _ => _ end => apply (K t) end; [apply ext_mem; auto|apply (D_mem s); auto; apply I|exact O]. }
  assert (V : snd d <> MJunk -> okv (snd d)).
  { intros J. destruct (varlike (h_ty o)) eqn:Vl; [|eapply dense_okv; eauto]. unfold cell_ok in Td. rewrite Vl in Td. apply Td. }
  destruct (snd d) eqn:Sd; try (apply Main, V; discriminate); simpl; auto.
Qed.
#[local] Hint Resolve keeps_heap_shift : dn.
Lemma keeps_shift : forall s0 v, okl s0 v -> keeps s0 (shift v) vQ.
Proof. intros; unfold shift; dp. Qed.
#[local] Hint Resolve keeps_shift : dn.
(** An array is replaced by another of its type. *)
Lemma keeps_set_obj : forall A s l o o' (m : M A) Q, D s -> live s l o -> typed o' -> h_ty o' = h_ty o -> h_view o' = h_view o ->
  (forall s1, ext s s1 -> keeps s1 m Q) ->
  match (set_obj l o' ;; m) s with ROk a s' => D s' /\ ext s s' /\ Q s' a | RThrow _ s' => D s' /\ ext s s' | _ => True end.
Proof.
  intros A s l o o' m Q I O T Ty Vw K. destruct (D_set s l o o' I O) as [D' E']; auto. unfold bind. cbn [set_obj]. unfold set_obj.
  specialize (K _ E' _ (ext_refl _) D'). destruct (m _) as [a s2|? s2|?|]; auto; [destruct K as (? & ? & ?)|destruct K]; conj; auto; eapply ext_trans; eauto.
Qed.
Lemma front_ok : forall t n c x, Forall (cell_ok t) c -> cell_ok t x -> Forall (cell_ok t) (x :: firstn n c ++ skipn (S n) c).
Proof. intros t n c x F X. constructor; auto. apply Forall_app. split; [apply firstn_forall|apply skipn_forall]; auto. Qed.
Lemma keeps_heap_unshift : forall s0 l p, okl s0 p -> keeps s0 (heap_unshift l p) anyQ.
Proof.
  intros s0 l p K. unfold heap_unshift. eapply keeps_bind; [apply keeps_get_obj|]. intros s1 o1 E1 _. up E1. eapply keeps_bind; [apply keeps_heap_resize|]. intros s2 u E2 _. up E2. clear E1 E2 o1 s1 u s0.
  intros s E I. up E. unfold bind at 1. unfold get_obj at 1. destruct (nth_error (mem s) l) as [[o|]|] eqn:O; auto. pose proof (proj1 I _ _ O) as T. cbv zeta.
  assert (Dense : forall t, h_ty o = HE t -> t <> TVar -> match (let! x := get_as t p in if Nat.leb (length (h_cells o)) (h_size o - 1) then ub OutOfBounds else set_obj l (set_cells o ((MNil, MNum x) :: firstn (h_size o - 1) (h_cells o) ++ skipn (S (h_size o - 1)) (h_cells o)))) s with
    ROk a s' => D s' /\ ext s s' /\ anyQ s' a | RThrow _ s' => D s' /\ ext s s' | _ => True end).
  { intros t Ty N. unfold bind. pose proof (reader_get_as t p s) as R. pose proof (keeps_get_as s t p s (ext_refl s) I) as G. destruct (get_as t p s) as [x s1|? s1|?|]; auto. subst s1. destruct G as (_ & _ & G). unfold tQ in G.
    destruct (Nat.leb _ _); simpl; auto.
    match goal with |- context [set_nth (mem s) l (Some ?x)] => destruct (D_set s l o x I O) as [D' E'] end; auto; [|conj; auto]. split; [|apply T]. cbn [h_ty h_cells set_cells].
    apply front_ok; [apply T|]. unfold cell_ok. rewrite Ty. replace (varlike (HE t)) with false by (destruct t; auto; contradiction). simpl. split; auto. right. exists x. rewrite G. auto. }
  destruct (h_ty o) as [[]|] eqn:Ty; try (apply Dense; auto; discriminate).
  - destruct (Nat.leb _ _); simpl; auto.
    assert (Vw : h_view o = None) by (destruct T as [_ [T|T]]; congruence).
    apply (keeps_set_obj _ s l o); auto.
    + split; [|left; auto]. cbn [h_ty h_cells set_cells]. apply front_ok; [apply T|]. rewrite Ty. unfold cell_ok. simpl. auto.
    + intros s1 E1. up E1. assert (P : plain_vars o = true) by (unfold plain_vars; rewrite Vw, Ty; auto). pose proof (knows_live _ _ _ O) as Kn. up E1. dp.
  - simpl. conj; auto. apply ext_refl.
Qed.
#[local] Hint Resolve keeps_heap_unshift : dn.
Lemma keeps_unshift : forall s0 v p, okl s0 v -> okl s0 p -> keeps s0 (unshift v p) anyQ.
Proof. intros; unfold unshift; dp. Qed.
Lemma keeps_write_chars : forall str s0 l i, has_ty s0 l (HE TChar) -> keeps s0 (write_chars l i str) anyQ.
Proof.
  induction str as [|c str IH]; intros s0 l i H; cbn [write_chars]; [dp|]. intros s E I. up E. unfold bind at 1. unfold get_obj at 1. destruct (nth_error (mem s) l) as [[o|]|] eqn:O; auto. pose proof (proj1 I _ _ O) as T.
  destruct (Nat.leb _ _); simpl; auto. apply (keeps_set_obj _ s l o); auto.
  - split; [|apply T]. cbn [h_ty h_cells set_cells]. apply set_forall; [apply T|]. rewrite (proj2 H o O). unfold cell_ok. simpl. split; auto. right. exists (VChar c). auto.
  - intros s1 E1. up E1. apply IH; auto.
Qed.
Lemma keeps_heap_append : forall s0 l str, keeps s0 (heap_append l str) anyQ.
Proof.
  intros; unfold heap_append; dp. apply keeps_write_chars. destruct K as [Hl K]. split; auto. intros o' O. destruct (K o' O) as [Ty _]. rewrite Ty. destruct (h_ty o) as [[]|]; try discriminate. auto.
Qed.
#[local] Hint Resolve keeps_unshift keeps_heap_append : dn.
Lemma keeps_append_str : forall s0 v str, okl s0 v -> keeps s0 (append_str v str) anyQ.
Proof. intros; unfold append_str; dp. Qed.
Lemma keeps_string_var : forall s0 str, keeps s0 (string_var str) vQ.
Proof. intros; unfold string_var; dp. Qed.
#[local] Hint Resolve keeps_append_str keeps_string_var : dn.
Lemma keeps_binary_search : forall f s0 v p b lo hi, okl s0 v -> okl s0 p -> keeps s0 (binary_search v p b f lo hi) anyQ.
Proof. induction f; intros; cbn [binary_search]; dp. Qed.
#[local] Hint Resolve keeps_binary_search : dn.
Lemma keeps_binary : forall s0 v p, okl s0 v -> okl s0 p -> keeps s0 (binary v p) anyQ.
Proof. intros; unfold binary; dp. Qed.
#[local] Hint Resolve keeps_binary : dn.
#[local] Hint Resolve reader_cast_var : dn.
Lemma keeps_index_var : forall s0 v p, okl s0 v -> okl s0 p -> keeps s0 (index_var v p) vQ.
Proof. intros; unfold index_var; dp. Qed.
#[local] Hint Resolve keeps_index_var : dn.
Lemma keeps_view : forall s0 v sh off, okl s0 v -> keeps s0 (view v sh off) vQ.
Proof.
  intros; unfold view; dp. eapply keeps_bind; [apply keeps_new_cells|]. intros s5 c E C. unfold cQ in C. dp. apply keeps_new_obj. split; [|right; reflexivity]. cbn [h_ty h_cells].
  apply Forall_app. split; [|apply skipn_forall; auto]. apply Forall_forall. intros x X. apply in_map_iff in X as (y & X & _). subst x. unfold cell_ok. cbn [varlike fst snd]. split; auto. right. exists (VInt y). auto.
Qed.
#[local] Hint Resolve keeps_view : dn.
Lemma keeps_at_key : forall s0 v p, okl s0 v -> okl s0 p -> keeps s0 (at_key v p) vQ.
Proof. intros; unfold at_key; dp. Qed.
Lemma keeps_key_of : forall s0 v i, okl s0 v -> keeps s0 (key_of v i) vQ.
Proof. intros; unfold key_of; dp. Qed.
Definition nQ : state -> val -> Prop := fun _ r => number r = true.
Lemma keeps_arith_value : forall s0 op v p, okl s0 v -> okl s0 p -> keeps s0 (arith_value op v p) nQ.
Proof.
  intros s0 op v p H K. assert (L : forall s x y, keeps s (lift (num_op op x y)) nQ) by (intros s x y; apply keeps_reads; [apply reader_lift|]; intros s1 a E I G; apply lift_inv in G; eapply num_op_number; eauto).
  unfold arith_value. dp; apply L.
Qed.
#[local] Hint Resolve keeps_at_key keeps_key_of keeps_arith_value : dn.
Lemma keeps_arith_var : forall s0 op v q, okl s0 v -> okl s0 q -> keeps s0 (arith_var op v q) vQ.
Proof. intros; unfold arith_var; dp. Qed.
Lemma num_op_type : forall op x y r, num_op op x y = Ok r -> ety_of r = ety_of x.
Proof.
  intros op x y r H. unfold num_op in H. destruct x; try discriminate;
    match type of H with context [cast ?t y] => destruct (cast t y) as [w| | |]; simpl in H; try discriminate end;
    destruct w; try discriminate; try (match type of H with context [s_op ?a ?b ?c ?d] => destruct (s_op a b c d); simpl in H; try discriminate end); inversion H; reflexivity.
Qed.
Lemma keeps_read_typed : forall s0 l i t, elt s0 l (HE t) -> keeps s0 (read_elem l i) (fun s x => forall y, x = MNum y -> ety_of y = t).
Proof.
  intros s0 l i t K'. apply keeps_reads; [apply reader_read_elem|]. intros s x E [I1 _] H y ->. apply (elt_ext _ _ _ _ E) in K'.
  apply read_elem_inv in H as (o & u & j & ot & k & O & T & V & Nt & J & W). destruct K' as [_ K']. specialize (K' o O).
  assert (Ty : h_ty ot = HE t) by (destruct (h_view o); subst; [apply K'; auto|congruence]).
  pose proof (typed_nth _ _ _ (I1 _ _ T) Nt) as C. unfold cell_ok in C. rewrite V in C. destruct C as [_ [C|(v & C1 & C2)]]; simpl in *; [discriminate|]. congruence.
Qed.
Lemma keeps_on_elem : forall s0 op l i y t, elt s0 l (HE t) -> keeps s0 (on_elem op l i y) anyQ.
Proof.
  intros s0 op l i y t K. unfold on_elem. eapply keeps_bind; [apply keeps_read_typed; eauto|]. intros s x E Q. up E. clear E. cbv beta in Q.
  destruct x; try apply keeps_stuck. eapply keeps_bind with (Q := fun _ r => ety_of r = t).
  - apply keeps_reads; [apply reader_lift|]. intros s1 a E I G. apply lift_inv in G. rewrite (num_op_type _ _ _ _ G). auto.
  - intros s1 r E1 Tr. up E1. apply keeps_write_elem. rewrite Tr. auto.
Qed.
Lemma keeps_each_elem : forall n s0 op t l p i, elt s0 l (HE t) -> t <> TVar -> keeps s0 (each_elem op t l p n i) anyQ.
Proof.
  induction n; intros s0 op t l p i K N; simpl; [dp|]. eapply keeps_bind; [apply keeps_cast_var; auto|]. intros s y E _. up E. clear E.
  eapply keeps_bind; [eapply keeps_on_elem; eauto|]. intros s1 u E1 _. up E1. apply IHn; auto.
Qed.
Lemma keeps_scale_elems : forall n s0 t l y i, elt s0 l (HE t) -> keeps s0 (scale_elems l y n i) anyQ.
Proof.
  induction n; intros s0 t l y i K; simpl; [dp|].
  eapply keeps_bind; [eapply keeps_on_elem; eauto|]. intros s1 u E1 _. up E1. eapply IHn; eauto.
Qed.
Lemma keeps_pair_elems : forall n s0 op t l off l' i, elt s0 l (HE t) -> keeps s0 (pair_elems op l off l' n i) anyQ.
Proof.
  induction n; intros s0 op t l off l' i K; simpl; [dp|]. eapply keeps_bind with (Q := anyQ); [eapply keeps_reads; [apply reader_read_elem|intros; exact Logic.I]|]. intros s y E _. up E. clear E.
  eapply keeps_bind with (Q := anyQ); [destruct y; try apply keeps_stuck; eapply keeps_on_elem; eauto|]. intros s1 u E1 _. up E1. eapply IHn; eauto.
Qed.
Lemma keeps_rows : forall n s0 op t l step l' n' i, elt s0 l (HE t) -> keeps s0 (rows op l step l' n' n i) anyQ.
Proof.
  induction n; intros s0 op t l step l' n' i K; simpl; [dp|].
  eapply keeps_bind; [eapply keeps_pair_elems; eauto|]. intros s1 u E1 _. up E1. eapply IHn; eauto.
Qed.
Lemma keeps_arith_array : forall s0 op l p, okl s0 p -> keeps s0 (arith_array op l p) anyQ.
Proof.
  intros s0 op l p Kp. unfold arith_array. eapply keeps_bind; [apply keeps_get_obj|]. intros s o E [T K]. up E. clear E.
  eapply keeps_bind; [apply keeps_obj_type; eauto|]. intros s2 t E Kt. up E. clear E. cbv beta in Kt.
  eapply keeps_bind with (Q := anyQ); [dp|]. intros s3 h E _. up E. clear E.
  eapply keeps_bind with (Q := anyQ); [dp|]. intros s4 n' E _. up E. clear E.
  eapply keeps_bind with (Q := anyQ); [dp|]. intros s5 d' E _. up E. clear E.
  destruct t as [t|]; [|apply keeps_stuck]. assert (N : t = TVar \/ t <> TVar) by (destruct t; auto; right; discriminate). destruct N as [->|N]; [apply keeps_stuck|].
  assert (G : forall A (x y : A), match t with TVar => x | _ => y end = y) by (intros; destruct t; congruence).
  cut (keeps s5 (if Nat.eqb d' 1 && (n' =? 1)%Z then
      let! n := obj_size o in
      match op with
      | Mul => match t with
               | TFloat | TDouble => let! y := cast_var t p in scale_elems l y (Z.to_nat n) 0
               | _ => throw "Mul::scal: Unknown type"
               end
      | _ => each_elem op t l p (Z.to_nat n) 0
      end
    else if Nat.ltb (odim o) d' then throw "var::broadcast: input dimension too large" else
    match h with
    | None => throw "var::atype(): Undefined"
    | Some l' =>
      let! o' := get_obj l' in
      let! t' := obj_type o' in
      if negb (hcode (HE t) =? hcode t')%Z then throw "var::broadcast: types must match (for now)" else
      let! n := obj_size o in
      let! step := (if Nat.ltb d' (odim o) then stride_i o (odim o - d' - 1) else ret n) in
      if (step =? 0)%Z then ub DivByZero else
      let ops := Z.to_nat (Z.quot n step) in
      match ops, op, t with
      | O, _, _ => ret tt
      | _, Div, _ => stuck
      | _, _, (TFloat | TDouble) => rows op l step l' (Z.to_nat n') ops 0
      | _, _, _ => throw (unknown_vector op)
      end
    end) anyQ); [intros H; destruct t; exact H || congruence|].
  destruct (Nat.eqb d' 1 && (n' =? 1)%Z).
  - eapply keeps_bind with (Q := anyQ); [dp|]. intros s6 n E _. up E. clear E.
    assert (M : keeps s6 (let! y := cast_var t p in scale_elems l y (Z.to_nat n) 0) anyQ).
    { eapply keeps_bind; [apply keeps_cast_var; auto|]. intros s7 y E _. up E. eapply keeps_scale_elems; eauto. }
    destruct op; try (apply keeps_each_elem; auto). destruct t; auto; apply keeps_throw.
  - destruct (Nat.ltb _ _); [apply keeps_throw|]. destruct h as [l'|]; [|apply keeps_throw].
    eapply keeps_bind; [apply keeps_get_obj|]. intros s6 o' E [T' K']. up E. clear E.
    eapply keeps_bind; [apply keeps_obj_type; eauto|]. intros s7 t' E _. up E. clear E.
    destruct (negb _); [apply keeps_throw|].
    eapply keeps_bind with (Q := anyQ); [dp|]. intros s8 n E _. up E. clear E.
    eapply keeps_bind with (Q := anyQ); [destruct (Nat.ltb _ _); dp|]. intros s9 step E _. up E. clear E.
    destruct (step =? 0)%Z; [apply keeps_ub|]. cbv zeta. destruct (Z.to_nat (Z.quot n step)) as [|ops]; [dp|].
    destruct op; try apply keeps_stuck; destruct t; try apply keeps_throw; eapply keeps_rows; eauto.
Qed.
Lemma keeps_arith_to : forall s0 op v q, okl s0 v -> okl s0 q -> keeps s0 (arith_to op v q) anyQ.
Proof.
  intros; unfold arith_to. eapply keeps_bind with (Q := anyQ); [dp|]. intros s h E _. up E. clear E. destruct h as [l|]; [apply keeps_arith_array; auto|].
  eapply keeps_bind; [apply keeps_arith_value; auto|]. intros s1 r E N. up E. apply keeps_assign_value; auto.
Qed.
#[local] Hint Resolve keeps_arith_var keeps_arith_to : dn.
Lemma keeps_count_cells : forall sh s0 p, keeps s0 (count_cells sh p) anyQ.
Proof. induction sh; intros s0 p; simpl; dp. Qed.
#[local] Hint Resolve keeps_count_cells : dn.
Lemma keeps_new_view : forall s0 sh p, okl s0 p -> keeps s0 (new_view sh p) vQ.
Proof.
  intros s0 sh p Kp; unfold new_view, own_var. eapply keeps_bind with (Q := anyQ); [auto with dn|]. intros s1 n E _. up E. clear E.
  eapply keeps_bind with (Q := anyQ); [auto with dn|]. intros s2 d E _. up E. clear E.
  eapply keeps_bind with (Q := vQ); [destruct d; [apply keeps_copy_of; auto|apply keeps_ret; intros; reflexivity]|]. intros s3 x E X. apply keeps_scoped; auto. intros i s4 E4. dp.
Qed.
Lemma keeps_offset_of : forall s0 v, okl s0 v -> keeps s0 (offset_of v) anyQ.
Proof. intros; unfold offset_of; dp. Qed.
Lemma keeps_set_offset : forall s0 v n, okl s0 v -> keeps s0 (set_offset v n) anyQ.
Proof.
  intros s0 v n K. unfold set_offset. eapply keeps_bind with (Q := anyQ); [dp|]. intros s1 h E _. destruct h as [l|]; [|dp]. clear E.
  intros s E I. unfold bind at 1. unfold get_obj at 1. destruct (nth_error (mem s) l) as [[o|]|] eqn:O; auto. pose proof (proj1 I _ _ O) as T.
  destruct (h_view o) as [t|] eqn:V; [|simpl; split; auto; apply ext_refl]. unfold bind at 1. unfold get_obj at 1. destruct (nth_error (mem s) t) as [[ot|]|]; auto.
  unfold bind at 1. pose proof (reader_obj_size o s) as R. destruct (obj_size o s) as [k s2|k s2|k|]; auto; subst s2; [|split; auto; apply ext_refl].
  destruct (negb _); [exact Logic.I|]. destruct (Z.ltb _ _); [simpl; split; auto; apply ext_refl|].
  destruct (nth_error (h_cells o) 0) as [[a [|[]| | | |]]|]; try exact Logic.I.
  assert (Ty : h_ty o = HE TInt) by (destruct T as [_ [T|T]]; congruence).
  destruct (D_set s l o (set_cells o (set_nth (h_cells o) 0 (MNil, MNum (VInt n)))) I O) as [D' E']; auto.
  - split; [|apply T]. cbn [h_ty h_cells set_cells]. apply set_forall; [apply T|]. rewrite Ty. unfold cell_ok. simpl. split; auto. right. exists (VInt n). auto.
  - unfold set_obj. split; [exact D'|]. split; [exact E'|exact Logic.I].
Qed.
#[local] Hint Resolve keeps_new_view keeps_offset_of keeps_set_offset : dn.
Lemma keeps_advance : forall s0 v n, okl s0 v -> keeps s0 (advance v n) anyQ.
Proof. intros; unfold advance; dp. Qed.
#[local] Hint Resolve keeps_advance : dn.
Lemma keeps_eval : forall e s0 nv, keeps s0 (eval nv e) lQ.
Proof. induction e; intros s0 nv; cbn [eval]; dp. Qed.
#[local] Hint Resolve keeps_eval : dn.
Lemma keeps_presize : forall s0 v n, okl s0 v -> keeps s0 (presize v n) anyQ.
Proof. intros; unfold presize; dp. Qed.
#[local] Hint Resolve keeps_presize : dn.
Lemma keeps_element_of : forall s0 nv e, keeps s0 (element_of nv e) lQ.
Proof. intros; unfold element_of; dp. Qed.
#[local] Hint Resolve keeps_element_of : dn.
Definition lsQ : state -> list lval -> Prop := fun s ps => Forall (okl s) ps.
Lemma keeps_elements_of : forall es s0 nv, keeps s0 (elements_of nv es) lsQ.
Proof.
  induction es as [|e es IH]; intros s0 nv; cbn [elements_of]; [apply keeps_ret; intros; constructor|].
  eapply keeps_bind; [apply keeps_element_of|]. intros s1 p E1 P. unfold lQ in P. eapply keeps_bind; [apply IH|]. intros s2 ps E2 Ps. unfold lsQ in Ps. up E2.
  apply keeps_ret. intros s3 E3. up E3. constructor; auto.
Qed.
Lemma keeps_push_all : forall ps s0 v, okl s0 v -> Forall (okl s0) ps -> keeps s0 (push_all v ps) anyQ.
Proof.
  induction ps as [|p ps IH]; intros s0 v V F; cbn [push_all]; [dp|]. pose proof (Forall_inv F) as P. apply Forall_inv_tail in F.
  apply (keeps_bind _ _ anyQ); [unfold own_var, with_copy; dp|]. intros s1 u E1 _. up E1. apply IH; auto.
Qed.
Lemma keeps_fill_from : forall n s0 v p i, okl s0 v -> okl s0 p -> keeps s0 (fill_from v p n i) anyQ.
Proof. induction n; intros; cbn [fill_from]; dp. Qed.
#[local] Hint Resolve keeps_fill_from : dn.
Lemma keeps_fill_with : forall s0 v n p, okl s0 v -> okl s0 p -> keeps s0 (fill_with v n p) anyQ.
Proof. intros; unfold fill_with, own_var; dp. Qed.
#[local] Hint Resolve keeps_fill_with : dn.
Lemma keeps_init_list : forall s0 nv es, keeps s0 (init_list nv es) vQ.
Proof.
  intros; unfold init_list. eapply keeps_bind; [apply keeps_elements_of|]. intros s1 ps E1 Ps. unfold lsQ in Ps. eapply keeps_bind; [apply keeps_temp; exact Logic.I|]. intros s2 r E2 R. unfold lQ in R. up E2.
  eapply keeps_bind; [apply keeps_push_all; auto|]. intros s3 u E3 _. up E3. apply keeps_take; auto.
Qed.
Lemma keeps_init_fill : forall s0 nv n e, keeps s0 (init_fill nv n e) vQ.
Proof. intros; unfold init_fill, with_copy; dp. Qed.
Lemma keeps_shape_with : forall s0 v sh p, okl s0 v -> okl s0 p -> keeps s0 (shape_with v sh p) anyQ.
Proof. intros; unfold shape_with; dp. Qed.
#[local] Hint Resolve keeps_shape_with : dn.
Lemma keeps_init_shape : forall s0 nv sh e, keeps s0 (init_shape nv sh e) vQ.
Proof. intros; unfold init_shape, with_copy; dp. Qed.
Lemma keeps_body : forall s0 nv t, keeps s0 (body nv t) anyQ.
Proof. intros s0 nv t. destruct t; cbn [body]; unfold with_copy; dp. Qed.
Lemma keeps_exec : forall s0 t, keeps s0 (exec t) anyQ.
Proof.
  intros s0 t s E I. unfold exec.
  assert (Fin : match finish (length (stk s)) (body (length (stk s)) t) s with ROk a s' => D s' /\ ext s s' /\ anyQ s' a | RThrow _ s' => D s' /\ ext s s' | _ => True end).
  { unfold finish. pose proof (keeps_body s (length (stk s)) t s (ext_refl s) I) as K. destruct (body (length (stk s)) t s) as [a s1|m s1|k|]; auto.
    - destruct K as (D1 & E1 & _). pose proof (keeps_leave s1 (length (stk s)) s1 (ext_refl s1) D1) as L. destruct (leave _ s1); auto; [destruct L as (? & ? & ?)|destruct L]; conj; auto; eapply ext_trans; eauto.
    - destruct K as (D1 & E1). assert (K2 : keeps s1 (leave (length (stk s)) ;; throw m) (@anyQ unit)) by dp. specialize (K2 s1 (ext_refl s1) D1). destruct ((leave _ ;; throw m) s1); auto; [destruct K2 as (? & ? & ?)|destruct K2]; conj; auto; eapply ext_trans; eauto. }
  assert (Keep : forall m, keeps s m vQ -> match keep_value (length (stk s)) m s with ROk a s' => D s' /\ ext s s' /\ anyQ s' a | RThrow _ s' => D s' /\ ext s s' | _ => True end).
  { intros m K. unfold keep_value. specialize (K s (ext_refl s) I). destruct (m s) as [a s1|k s1|k|]; auto.
    + destruct K as (D1 & E1 & V). unfold vQ in V. assert (K2 : keeps s1 (leave (length (stk s)) ;; (let! _ := temp a in ret tt)) anyQ) by dp. specialize (K2 s1 (ext_refl s1) D1).
      destruct ((leave _ ;; _) s1); auto; [destruct K2 as (? & ? & ?)|destruct K2]; conj; auto; eapply ext_trans; eauto.
    + destruct K as (D1 & E1). assert (K2 : keeps s1 (leave (length (stk s)) ;; throw k) (@anyQ unit)) by dp. specialize (K2 s1 (ext_refl s1) D1). destruct ((leave _ ;; throw k) s1); auto; [destruct K2 as (? & ? & ?)|destruct K2]; conj; auto; eapply ext_trans; eauto. }
  destruct t; auto.
  - apply Keep. dp.
  - apply Keep, keeps_init_list.
  - apply Keep, keeps_init_fill.
  - apply (keeps_leave s0); auto.
  - apply Keep, keeps_init_shape.
Qed.
Lemma keeps_run : forall l s, D s -> match run l s with ROk _ s' | RThrow _ s' => D s' /\ ext s s' | _ => True end.
Proof.
  induction l as [|t l IH]; intros s I; simpl; [split; auto; apply ext_refl|]. pose proof (keeps_exec s t s (ext_refl s) I) as K.
  destruct (exec t s) as [a s1|k s1|k|]; auto; [destruct K as (D1 & E1 & _)|destruct K as (D1 & E1)]; specialize (IH s1 D1); destruct (run l s1); auto; destruct IH; split; auto; eapply ext_trans; eauto.
Qed.
Lemma D_start : D start.
Proof. split; simpl; auto. intros l o H. destruct l; discriminate. Qed.
