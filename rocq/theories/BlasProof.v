(** Loops that change cells one by one. *)
From Coq Require Import ZArith Bool List String Lia.
From Verif Require Import Base StrModel MemProof RootsModel RootsProof BlasModel.
Import ListNotations.
Local Open Scope nat_scope.
Local Open Scope out_scope.
Local Notation length := List.length.

Section Blas.
Context {F : Type}.
(** [b] is [a] with each cell [p] changed by [g p]. *)
Definition changed (g : nat -> F -> F) (a b : list F) : Prop :=
  length b = length a /\ forall p x, nth_error a p = Some x -> nth_error b p = Some (g p x).
Lemma changed_id : forall a, changed (fun _ x => x) a a.
Proof. split; auto. Qed.
Lemma changed_ext : forall g h a b, (forall p x, p < length a -> g p x = h p x) -> changed g a b -> changed h a b.
Proof. intros g h a b E [L H]. split; auto. intros p x N. rewrite <- E; auto. apply nth_error_Some. congruence. Qed.
Lemma changed_trans : forall g h a b c, changed g a b -> changed h b c -> changed (fun p x => h p (g p x)) a c.
Proof. intros g h a b c [L H] [L' H']. split; [congruence|]. auto. Qed.
Lemma count_changed : forall (body : nat -> list F -> outcome (list F)) (g : nat -> nat -> F -> F) len n i0 a, length a = len ->
  (forall i a, i0 <= i < i0 + n -> length a = len -> exists b, body i a = Ok b /\ changed (g i) a b) ->
  exists b, count n i0 body a = Ok b /\ changed (fun p x => fold_left (fun x i => g i p x) (seq i0 n) x) a b.
Proof.
  intros body g len n. induction n as [|n IH]; intros i0 a L H; simpl.
  - exists a. split; auto. apply changed_id.
  - destruct (H i0 a) as (b & E & C); [lia|auto|]. rewrite E. simpl. destruct (IH (S i0) b) as (c & Ec & Cc); [destruct C; congruence|intros i a' Hi; apply H; lia|].
    exists c. split; auto. exact (changed_trans _ _ _ _ _ C Cc).
Qed.
Lemma cell_changed : forall (a : list F) q f, q < length a -> exists b, cell a q f = Ok b /\ changed (fun p x => if Nat.eqb p q then f x else x) a b.
Proof.
  intros a q f L. unfold cell, rd. destruct (nth_error a q) as [y|] eqn:N; [|apply nth_error_None in N; lia]. simpl. unfold wr. destruct (Nat.ltb_spec q (length a)); [|lia].
  exists (set_nth a q (f y)). split; auto. split; [apply sn_length|]. intros p x Np. destruct (Nat.eqb_spec p q) as [->|D].
  - rewrite sn_same by auto. congruence.
  - rewrite sn_other; auto.
Qed.
(** A loop in which only step [t] does something. *)
Lemma fold_none : forall (f : F -> nat -> F) n i0 x, (forall i y, i0 <= i < i0 + n -> f y i = y) -> fold_left f (seq i0 n) x = x.
Proof. intros f n. induction n as [|n IH]; intros i0 x H; simpl; auto. rewrite H by lia. apply IH. intros i y Hi. apply H. lia. Qed.
Lemma fold_one : forall (f : F -> nat -> F) n i0 t x, i0 <= t < i0 + n -> (forall i y, i0 <= i < i0 + n -> i <> t -> f y i = y) -> fold_left f (seq i0 n) x = f x t.
Proof.
  intros f n. induction n as [|n IH]; intros i0 t x T H; [lia|]. simpl. destruct (Nat.eq_dec i0 t) as [->|D].
  - apply fold_none. intros i y Hi. apply H; lia.
  - rewrite (H i0) by lia. apply IH; [lia|]. intros i y Hi Di. apply H; lia.
Qed.
Lemma fold_ext : forall (f g : F -> nat -> F) l x, (forall y i, In i l -> f y i = g y i) -> fold_left f l x = fold_left g l x.
Proof. intros f g l. induction l as [|i l IH]; intros x H; simpl; auto. rewrite H by (left; auto). apply IH. intros y j J. apply H. right; auto. Qed.
(** One loop over the cells of a column, or of a vector. *)
Lemma column_changed : forall (body : nat -> list F -> outcome (list F)) (f : nat -> F -> F) len m off a, length a = len -> off + m <= len ->
  (forall i a, i < m -> length a = len -> body i a = cell a (i + off) (f i)) ->
  exists b, count m 0 body a = Ok b /\ changed (fun p x => if Nat.leb off p && Nat.ltb p (off + m) then f (p - off) x else x) a b.
Proof.
  intros body f len m off a L O H.
  destruct (count_changed body (fun i p x => if Nat.eqb p (i + off) then f i x else x) len m 0 a L) as (b & E & C).
  - intros i a' Hi La. rewrite H by (auto; lia). apply cell_changed. lia.
  - exists b. split; auto. eapply changed_ext; [|exact C]. intros p x Hp. cbv beta. destruct (Nat.leb_spec off p); simpl; [destruct (Nat.ltb_spec p (off + m))|].
    + rewrite (fold_one _ m 0 (p - off)) by (first [lia | intros i y Hi D; destruct (Nat.eqb_spec p (i + off)); [lia|reflexivity]]). destruct (Nat.eqb_spec p (p - off + off)); [reflexivity|lia].
    + apply fold_none. intros i y Hi. destruct (Nat.eqb_spec p (i + off)); [lia|reflexivity].
    + apply fold_none. intros i y Hi. destruct (Nat.eqb_spec p (i + off)); [lia|reflexivity].
Qed.
End Blas.
