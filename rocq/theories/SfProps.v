(** C131, C132: string functors over strings, arrays and maps. *)
From Coq Require Import ZArith Bool List String Lia.
From Verif Require Import Base StrModel StrSpec StrProof StrProps ValModel JsonModel SfModel.
Import ListNotations.
Local Open Scope string_scope.
Local Open Scope list_scope.
Local Open Scope Z_scope.
Local Notation length := List.length.

(** * What is expected *)
Definition upper_of (c d : Z) : Prop := (97 <= c <= 122 /\ d = c - 32) \/ (~ 97 <= c <= 122 /\ d = c).
Definition lower_of (c d : Z) : Prop := (65 <= c <= 90 /\ d = c + 32) \/ (~ 65 <= c <= 90 /\ d = c).
(** [t] is [s] without the white space around it; [s] is empty or has something else in it. *)
Definition stripped (s t : str) : Prop :=
  (s = [] /\ t = []) \/
  (exists a b, s = a ++ t ++ b /\ all_white a /\ all_white b /\ t <> [] /\ ~ white (hd 0 t) /\ ~ white (last t 0)).

(** Two trees of the same shape, with the same keys, whose strings are related by [R]. *)
Inductive mapped (R : str -> str -> Prop) : val -> val -> Prop :=
| mapped_string : forall s t, R s t -> mapped R (vstr s) (vstr t)
| mapped_array : forall l l', mapped_list R l l' -> mapped R (VArr TVar l) (VArr TVar l')
| mapped_map : forall l l', mapped_values R l l' -> mapped R (VMap l) (VMap l')
with mapped_list (R : str -> str -> Prop) : list val -> list val -> Prop :=
| mapped_nil : mapped_list R [] []
| mapped_cons : forall x y l l', mapped R x y -> mapped_list R l l' -> mapped_list R (x :: l) (y :: l')
with mapped_values (R : str -> str -> Prop) : list (val * val) -> list (val * val) -> Prop :=
| mapped_none : mapped_values R [] []
| mapped_value : forall k x y l l', mapped R x y -> mapped_values R l l' -> mapped_values R ((k, x) :: l) ((k, y) :: l').
Scheme mapped_ind2 := Induction for mapped Sort Prop
  with mapped_list_ind2 := Induction for mapped_list Sort Prop
  with mapped_values_ind2 := Induction for mapped_values Sort Prop.
Combined Scheme mapped_all from mapped_ind2, mapped_list_ind2, mapped_values_ind2.

Definition is_number (x : val) : Prop :=
  match x with VInt _ | VLong _ | VFloat _ | VDouble _ => True | _ => False end.

Section Functors.
Variables (se ma : str -> str -> option (list str)) (rp : str -> str -> str -> str).

(** What a functor makes of a string in place. *)
Definition changes (f : sfun) (s t : str) : Prop :=
  match f with
  | Upper => Forall2 upper_of s t
  | Lower => Forall2 lower_of s t
  | Strip => stripped s t
  | Search _ | Match _ => False
  | Replace re fmt => nul_free s /\ nul_free fmt /\ nul_free t /\ t = rp re s fmt
  end.
(** What a functor returns for a string. *)
Definition returns (f : sfun) (s : str) (v : val) : Prop :=
  let found r := match r with
    | None => v = VNil
    | Some gs => gs <> [] /\ Forall nul_free gs /\ v = VArr TVar (map vstr gs)
    end in
  match f with
  | Upper | Lower | Replace _ _ => exists t, changes f s t /\ v = vstr t
  | Strip => False
  | Search re => nul_free s /\ found (se re s)
  | Match re => nul_free s /\ found (ma re s)
  end.

(** * Lemmas *)
Lemma char_of_vstr : forall s, map char_of (map VChar s) = s.
Proof. intros s. rewrite map_map. cbn. apply map_id. Qed.
Lemma upper_map : forall s t, Forall2 upper_of s t -> t = str_toupper s.
Proof.
  induction 1 as [|c d s t H F IH]; auto. cbn. rewrite IH. f_equal. unfold c_toupper.
  destruct (Z.leb_spec 97 c), (Z.leb_spec c 122); cbn [andb]; destruct H as [[]|[]]; lia.
Qed.
Lemma lower_map : forall s t, Forall2 lower_of s t -> t = str_tolower s.
Proof.
  induction 1 as [|c d s t H F IH]; auto. cbn. rewrite IH. f_equal. unfold c_tolower.
  destruct (Z.leb_spec 65 c), (Z.leb_spec c 90); cbn [andb]; destruct H as [[]|[]]; lia.
Qed.
Lemma string_changes : forall f s t, changes f s t -> string_same rp f (vstr s) = (vstr t, Ok tt).
Proof.
  intros f s t H. destruct f; cbn in H |- *; rewrite ?char_of_vstr.
  - rewrite (upper_map _ _ H). reflexivity.
  - rewrite (lower_map _ _ H). reflexivity.
  - destruct H as [[-> ->]|(a & b & -> & ? & ? & ? & ? & ?)]; [reflexivity|]. rewrite C33_strip_exact by auto. reflexivity.
  - destruct H.
  - destruct H.
  - destruct H as (H1 & H2 & H3 & ->). rewrite (c_str_id s), (c_str_id fmt) by auto. rewrite c_str_id by auto. reflexivity.
Qed.
Lemma string_returns : forall f s v o, returns f s v -> string_new se ma rp f (vstr s) o = (v, Ok tt).
Proof.
  assert (G : forall gs, gs <> [] -> Forall nul_free gs -> groups (Some gs) = VArr TVar (map vstr gs)).
  { intros gs H F. destruct gs as [|g gs]; [congruence|]. unfold groups. f_equal. apply map_ext_in.
    rewrite Forall_forall in F. intros x Hx. rewrite c_str_id; auto. }
  intros f s v o H. destruct f; cbn in H |- *; rewrite ?char_of_vstr.
  - destruct H as (t & H & ->). rewrite (upper_map _ _ H). reflexivity.
  - destruct H as (t & H & ->). rewrite (lower_map _ _ H). reflexivity.
  - destruct H.
  - destruct H as (H1 & H2). rewrite c_str_id by auto. destruct (se re s) as [gs|]; [|subst; reflexivity].
    destruct H2 as (H2 & H3 & ->). rewrite G; auto.
  - destruct H as (H1 & H2). rewrite c_str_id by auto. destruct (ma re s) as [gs|]; [|subst; reflexivity].
    destruct H2 as (H2 & H3 & ->). rewrite G; auto.
  - destruct H as (t & (H1 & H2 & H3 & ->) & ->). rewrite (c_str_id s), (c_str_id fmt) by auto. rewrite c_str_id by auto. reflexivity.
Qed.

Lemma in_place_mapped : forall f,
  (forall x y, mapped (changes f) x y -> exists n, forall fuel top, (n <= fuel)%nat -> in_place rp fuel f top x = (y, Ok tt)) /\
  (forall l l', mapped_list (changes f) l l' -> exists n, forall fuel, (n <= fuel)%nat -> over (in_place rp fuel f false) l = (l', Ok tt)) /\
  (forall l l', mapped_values (changes f) l l' -> exists n, forall fuel, (n <= fuel)%nat -> over_values (in_place rp fuel f false) l = (l', Ok tt)).
Proof.
  intros f. apply mapped_all.
  - intros s t H. exists 1%nat. intros fuel top L. destruct fuel as [|k]; [lia|]. change (string_same rp f (vstr s) = (vstr t, Ok tt)). apply string_changes; auto.
  - intros l l' _ (n & IH). exists (S n). intros fuel top L. destruct fuel as [|k]; [lia|]. cbn [in_place]. rewrite IH by lia. reflexivity.
  - intros l l' _ (n & IH). exists (S n). intros fuel top L. destruct fuel as [|k]; [lia|]. cbn [in_place]. rewrite IH by lia. reflexivity.
  - exists O. reflexivity.
  - intros x y l l' _ (n & IH) _ (m & IH'). exists (n + m)%nat. intros fuel L. cbn [over]. rewrite IH, IH' by lia. reflexivity.
  - exists O. reflexivity.
  - intros k x y l l' _ (n & IH) _ (m & IH'). exists (n + m)%nat. intros fuel L. cbn [over_values]. rewrite IH, IH' by lia. reflexivity.
Qed.
Lemma over_stops : forall g pre pre' x x' e post, over g pre = (pre', Ok tt) -> g x = (x', e) -> e <> Ok tt ->
  over g (pre ++ x :: post) = (pre' ++ x' :: post, e).
Proof.
  induction pre as [|a pre IH]; intros pre' x x' e post H Hx He.
  - injection H as <-. cbn. rewrite Hx. destruct e as [[]| | |]; congruence.
  - cbn in H |- *. destruct (g a) as [a' [[]| | |]] eqn:E; try discriminate.
    destruct (over g pre) as [r e'] eqn:E'. injection H as <- ->. rewrite (IH r x x' e post); auto.
Qed.
Lemma over_values_stops : forall g pre pre' k x x' e post, over_values g pre = (pre', Ok tt) -> g x = (x', e) -> e <> Ok tt ->
  over_values g (pre ++ (k, x) :: post) = (pre' ++ (k, x') :: post, e).
Proof.
  induction pre as [|[ka a] pre IH]; intros pre' k x x' e post H Hx He.
  - injection H as <-. cbn. rewrite Hx. destruct e as [[]| | |]; congruence.
  - cbn in H |- *. destruct (g a) as [a' [[]| | |]] eqn:E; try discriminate.
    destruct (over_values g pre) as [r e'] eqn:E'. injection H as <- ->. rewrite (IH r k x x' e post); auto.
Qed.
Lemma over2_returns : forall f ss vs k, Forall2 (returns f) ss vs -> (1 <= k)%nat ->
  over2 (into se ma rp k f) (map vstr ss) (map (fun _ => VNil) ss) = (vs, Ok tt).
Proof.
  intros f ss vs k F L. destruct k as [|k]; [lia|]. induction F as [|s v ss vs H F IH]; auto.
  cbn [map over2]. change (into se ma rp (S k) f (vstr s) VNil) with (string_new se ma rp f (vstr s) VNil).
  rewrite (string_returns f s v VNil H), IH. reflexivity.
Qed.
Lemma over2_stops : forall f ss vs k x o' e post, Forall2 (returns f) ss vs -> (1 <= k)%nat ->
  into se ma rp k f x VNil = (o', e) -> e <> Ok tt ->
  snd (over2 (into se ma rp k f) (map vstr ss ++ x :: post) (map (fun _ => VNil) (map vstr ss ++ x :: post))) = e.
Proof.
  intros f ss vs k x o' e post F L Hx He. destruct k as [|k]; [lia|]. induction F as [|s v ss vs H F IH].
  - cbn [map app over2]. rewrite Hx. destruct e as [[]| | |]; try reflexivity. congruence.
  - cbn [map app over2]. change (into se ma rp (S k) f (vstr s) VNil) with (string_new se ma rp f (vstr s) VNil).
    rewrite (string_returns f s v VNil H). destruct (over2 _ _ _) as [r e'] eqn:E. cbn [snd]. exact IH.
Qed.
Lemma number_in_place : forall f x, is_number x -> forall fuel top, snd (in_place rp fuel f top x) = Fuel.
Proof. intros f x H. induction fuel as [|k IH]; intros top; [reflexivity|]. destruct x; try destruct H; cbn [in_place snd]; apply IH. Qed.
Lemma number_into : forall f x o, is_number x -> o <> VNil -> forall fuel, snd (into se ma rp fuel f x o) = Fuel.
Proof. intros f x o H Ho. induction fuel as [|k IH]; [reflexivity|]. destruct x; try destruct H; cbn [into]; destruct o; try congruence; apply IH. Qed.

(** * C131: arrays and maps *)

(** In place, every string of a tree of arrays and maps is changed, and nothing else. *)
Theorem C131_in_place : forall f x y, mapped (changes f) x y ->
  exists n, forall fuel top, (n <= fuel)%nat -> in_place rp fuel f top x = (y, Ok tt).
Proof. intros f. apply in_place_mapped. Qed.

(** An element that is undefined ends it; what is before it has been changed. *)
Theorem C131_undefined_element : forall f pre pre' post, mapped_list (changes f) pre pre' ->
  exists n, forall fuel top, (n <= fuel)%nat ->
    in_place rp fuel f top (VArr TVar (pre ++ VNil :: post)) = (VArr TVar (pre' ++ VNil :: post), Throw "var::atype(): Undefined").
Proof.
  intros f pre pre' post H. destruct (in_place_mapped f) as (_ & M & _). destruct (M _ _ H) as (n & E).
  exists (S (S n)). intros fuel top L. destruct fuel as [|[|k]]; try lia. remember (S k) as k'. cbn [in_place].
  rewrite (over_stops _ pre pre' VNil VNil (Throw "var::atype(): Undefined") post); [reflexivity|apply E; lia|subst k'; reflexivity|discriminate].
Qed.

Theorem C131_undefined_value : forall f pre pre' k post, mapped_values (changes f) pre pre' ->
  exists n, forall fuel top, (n <= fuel)%nat ->
    in_place rp fuel f top (VMap (pre ++ (k, VNil) :: post)) = (VMap (pre' ++ (k, VNil) :: post), Throw "var::atype(): Undefined").
Proof.
  intros f pre pre' k post H. destruct (in_place_mapped f) as (_ & _ & M). destruct (M _ _ H) as (n & E).
  exists (S (S n)). intros fuel top L. destruct fuel as [|[|m]]; try lia. remember (S m) as m'. cbn [in_place].
  rewrite (over_values_stops _ pre pre' k VNil VNil (Throw "var::atype(): Undefined") post); [reflexivity|apply E; lia|subst m'; reflexivity|discriminate].
Qed.
Theorem C131_undefined : forall f fuel top, (1 <= fuel)%nat ->
  in_place rp fuel f top VNil = (VNil, Throw "var::atype(): Undefined") /\ call se ma rp fuel f VNil = Throw "var::atype(): Undefined".
Proof. intros f fuel top L. destruct fuel; [lia|]. split; reflexivity. Qed.

(** Stripping a tree with a string that is blank but not empty moves a negative number of bytes. *)
Theorem C131_blank_element : forall pre pre' s post, mapped_list (changes Strip) pre pre' -> s <> [] -> all_white s ->
  exists n, forall fuel top, (n <= fuel)%nat ->
    in_place rp fuel Strip top (VArr TVar (pre ++ vstr s :: post)) = (VArr TVar (pre' ++ vstr s :: post), UB BadSize).
Proof.
  intros pre pre' s post H Hs Hw. destruct (in_place_mapped Strip) as (_ & M & _). destruct (M _ _ H) as (n & E).
  exists (S (S n)). intros fuel top L. destruct fuel as [|[|k]]; try lia. remember (S k) as k'. cbn [in_place].
  rewrite (over_stops _ pre pre' (vstr s) (vstr s) (UB BadSize) post); [reflexivity|apply E; lia| |discriminate].
  subst k'. change (string_same rp Strip (vstr s) = (vstr s, UB BadSize)). cbn. rewrite char_of_vstr.
  destruct (C33_strip_cases s) as [[? _]|[(_ & _ & ->)|(a & t & b & E' & _ & _ & Ht & Hh & _)]]; [congruence|reflexivity|].
  exfalso. apply Hh. destruct t as [|c t]; [congruence|]. apply Hw. rewrite E'. apply in_app_iff. right. left. reflexivity.
Qed.

(** A number: the functor calls itself for ever, in place or not, and so it does in place for a
    number in an array. *)
Theorem C131_number : forall f x fuel top, is_number x ->
  snd (in_place rp fuel f top x) = Fuel /\ call se ma rp fuel f x = Fuel.
Proof.
  intros f x fuel top H. split; [apply number_in_place; auto|]. unfold call.
  assert (A : alloc x <> VNil) by (destruct x; try destruct H; discriminate).
  pose proof (number_into f x (alloc x) H A fuel) as E. destruct (into se ma rp fuel f x (alloc x)) as [r e]. cbn [snd] in E. rewrite E. reflexivity.
Qed.
Theorem C131_number_element : forall f t x l fuel top, is_number x -> t <> TChar -> snd (in_place rp fuel f top (VArr t (x :: l))) = Fuel.
Proof.
  intros f t x l fuel top H Ht. destruct fuel as [|k]; [reflexivity|]. pose proof (number_in_place f x H k false) as E.
  assert (F : snd (in_place rp (S k) f top (VArr t (x :: l))) = snd (let (l', e) := over (in_place rp k f false) (x :: l) in (VArr t l', e))) by (destruct t; try congruence; reflexivity).
  rewrite F. cbn [over]. destruct (in_place rp k f false x) as [x' e]. cbn [snd] in E. rewrite E. reflexivity.
Qed.

(** A single char of its own changes case; one in an array is lost. *)
Theorem C131_char : forall c d, upper_of c d -> forall fuel, (1 <= fuel)%nat -> in_place rp fuel Upper true (VChar c) = (VChar d, Ok tt).
Proof.
  intros c d H fuel L. destruct fuel; [lia|]. cbn. pose proof (upper_map [c] [d] (Forall2_cons _ _ H (Forall2_nil _))) as E.
  injection E as ->. reflexivity.
Qed.
Theorem C131_char_lower : forall c d, lower_of c d -> forall fuel, (1 <= fuel)%nat -> in_place rp fuel Lower true (VChar c) = (VChar d, Ok tt).
Proof.
  intros c d H fuel L. destruct fuel; [lia|]. cbn. pose proof (lower_map [c] [d] (Forall2_cons _ _ H (Forall2_nil _))) as E.
  injection E as ->. reflexivity.
Qed.
Lemma isspace_white : forall c, isspace c = true <-> white c.
Proof. intros c. unfold isspace, white. cbn. lia. Qed.
Theorem C131_char_strip : forall c fuel, (1 <= fuel)%nat ->
  (white c -> snd (in_place rp fuel Strip true (VChar c)) = UB BadSize /\ snd (in_place rp fuel Strip false (VChar c)) = UB AssertFail) /\
  (~ white c -> in_place rp fuel Strip true (VChar c) = (VChar c, Ok tt) /\ snd (in_place rp fuel Strip false (VChar c)) = UB TypePun).
Proof.
  intros c fuel L. destruct fuel; [lia|]. cbn. destruct (isspace c) eqn:E.
  - split; [auto|]. intros H. exfalso. apply H, isspace_white, E.
  - split; [|auto]. intros H. apply isspace_white in H. congruence.
Qed.
(** A new value made of a single char is a string. *)
Theorem C131_new_char : forall f c v fuel, f = Upper \/ f = Lower -> returns f [c] v -> (1 <= fuel)%nat -> call se ma rp fuel f (VChar c) = Ok v.
Proof.
  intros f c v fuel Hf H L. destruct fuel as [|k]; [lia|]. pose proof (string_returns f [c] v (VChar c) H) as E.
  unfold call. cbn [into alloc]. destruct Hf as [-> | ->]; cbn in E |- *; injection E as <-; reflexivity.
Qed.
Theorem C131_char_element : forall f c pre pre' post post', f = Upper \/ f = Lower ->
  mapped_list (changes f) pre pre' -> mapped_list (changes f) post post' ->
  exists n, forall fuel top, (n <= fuel)%nat ->
    in_place rp fuel f top (VArr TVar (pre ++ VChar c :: post)) = (VArr TVar (pre' ++ vstr [] :: post'), Ok tt).
Proof.
  intros f c pre pre' post post' Hf H H'. destruct (in_place_mapped f) as (_ & M & _).
  destruct (M _ _ H) as (n & E). destruct (M _ _ H') as (m & E'). clear H.
  exists (S (S (n + m))). intros fuel top L. destruct fuel as [|[|k]]; try lia. remember (S k) as k'. cbn [in_place].
  assert (X : over (in_place rp k' f false) (pre ++ VChar c :: post) = (pre' ++ vstr [] :: post', Ok tt)); [|rewrite X; reflexivity].
  specialize (E k' ltac:(lia)). specialize (E' k' ltac:(lia)).
  assert (C : in_place rp k' f false (VChar c) = (vstr [], Ok tt)) by (subst k'; destruct Hf as [-> | ->]; reflexivity).
  clear - E E' C. revert pre' E. induction pre as [|a pre IH]; intros pre' E.
  - injection E as <-. cbn [app over]. rewrite C, E'. reflexivity.
  - cbn [over] in E. cbn [app over]. destruct (in_place rp k' f false a) as [a' [[]| | |]]; try discriminate.
    destruct (over (in_place rp k' f false) pre) as [r e] eqn:Er. injection E as <- ->. rewrite (IH r); auto.
Qed.

(** As a new value: an array of strings gives an array of results; a map gives the results under
    keys that are all undefined. *)
Theorem C131_new_array : forall f ss vs fuel, Forall2 (returns f) ss vs -> (2 <= fuel)%nat ->
  call se ma rp fuel f (VArr TVar (map vstr ss)) = Ok (VArr TVar vs).
Proof.
  intros f ss vs fuel F L. destruct fuel as [|k]; [lia|]. unfold call. destruct ss as [|s ss].
  - inversion F; subst. reflexivity.
  - cbn [alloc]. rewrite (map_map vstr (fun _ => VNil)). pose proof (over2_returns f (s :: ss) vs k F ltac:(lia)) as E.
    cbn [map] in E |- *. cbn [into]. rewrite E. reflexivity.
Qed.
Theorem C131_new_map : forall f ks ss vs fuel, Forall2 (returns f) ss vs -> length ks = length ss -> (2 <= fuel)%nat ->
  call se ma rp fuel f (VMap (combine ks (map vstr ss))) = Ok (VMap (map (fun v => (VNil, v)) vs)).
Proof.
  intros f ks ss vs fuel F Hl L. destruct fuel as [|k]; [lia|]. unfold call. cbn [alloc into].
  assert (Hs : map snd (combine ks (map vstr ss)) = map vstr ss).
  { clear F. revert ss Hl. induction ks as [|a ks IH]; intros [|s ss] Hl; try discriminate; auto. cbn. f_equal. apply IH. cbn in Hl. lia. }
  assert (Ho : map (fun _ => (VNil, VNil)) (combine ks (map vstr ss)) = map (fun _ : str => (VNil, VNil)) ss).
  { clear F Hs. revert ss Hl. induction ks as [|a ks IH]; intros [|s ss] Hl; try discriminate; auto. cbn. f_equal. apply IH. cbn in Hl. lia. }
  rewrite Hs, Ho, !map_map. cbn [fst snd].
  pose proof (over2_returns f ss vs k F ltac:(lia)) as E.
  assert (C : combine (map (fun _ : str => VNil) ss) vs = map (fun v => (VNil, v)) vs).
  { clear - F. induction F; cbn; congruence. }
  destruct ss as [|s ss]; [inversion F; subst; reflexivity|]. cbn [map] in E |- *. rewrite E. cbn [map] in C. rewrite C. reflexivity.
Qed.

Lemma new_stops : forall f ss vs x post fuel w, Forall2 (returns f) ss vs -> (2 <= fuel)%nat ->
  (forall k, into se ma rp (S k) f x VNil = (VNil, Throw w)) ->
  call se ma rp fuel f (VArr TVar (map vstr ss ++ x :: post)) = Throw w.
Proof.
  intros f ss vs x post fuel w F L Hx. destruct fuel as [|[|k]]; try lia. pose proof (Hx k) as X.
  pose proof (over2_stops f ss vs (S k) x _ _ post F ltac:(lia) X ltac:(discriminate)) as E.
  unfold call. cbn [alloc]. remember (S k) as k'. remember (map vstr ss ++ x :: post) as l eqn:El.
  destruct l as [|a l]; [destruct ss; discriminate|]. cbn [into]. remember (a :: l) as l0.
  replace (match l0 with [] => (VArr TVar (map (fun _ : val => VNil) l0), Ok tt) | _ :: _ => let (r, e) := over2 (into se ma rp k' f) l0 (map (fun _ : val => VNil) l0) in (VArr TVar r, e) end)
    with (let (r, e) := over2 (into se ma rp k' f) l0 (map (fun _ : val => VNil) l0) in (VArr TVar r, e)) by (subst l0; reflexivity).
  destruct (over2 _ _ _) as [r e]. cbn [snd] in E. rewrite E. reflexivity.
Qed.

(** As a new value, an array that has a number or a non-empty array or map in it throws, and so does
    one with an undefined element. *)
Theorem C131_new_nested : forall f ss vs x post fuel, Forall2 (returns f) ss vs ->
  (is_number x \/ (exists y l, x = VArr TVar (y :: l)) \/ (exists y l, x = VMap (y :: l))) -> (2 <= fuel)%nat ->
  call se ma rp fuel f (VArr TVar (map vstr ss ++ x :: post)) = Throw "var::at(): uninitialised".
Proof.
  intros f ss vs x post fuel F Hx L. eapply new_stops; eauto. intros k.
  destruct Hx as [H|[(y & l & ->)|(y & l & ->)]]; try reflexivity. destruct x; try destruct H; reflexivity.
Qed.
Theorem C131_new_undefined : forall f ss vs post fuel, Forall2 (returns f) ss vs -> (2 <= fuel)%nat ->
  call se ma rp fuel f (VArr TVar (map vstr ss ++ VNil :: post)) = Throw "var::atype(): Undefined".
Proof. intros f ss vs post fuel F L. eapply new_stops; eauto. Qed.

(** As a new value, stripping returns for arrays of empty strings only. *)
Theorem C131_new_strip_refuted : forall ss fuel r, call se ma rp fuel Strip (VArr TVar (map vstr ss)) = Ok r ->
  Forall (fun s => s = []) ss /\ r = VArr TVar (map vstr ss).
Proof.
  intros ss fuel r H. destruct fuel as [|k]; [discriminate|]. unfold call in H. cbn [alloc into] in H. rewrite map_map in H.
  destruct ss as [|s0 ss0]; [injection H as <-; auto|]. remember (s0 :: ss0) as ss.
  assert (M : forall ss r, over2 (into se ma rp k Strip) (map vstr ss) (map (fun _ => VNil) ss) = (r, Ok tt) ->
    Forall (fun s => s = []) ss /\ r = map vstr ss).
  { clear. destruct k as [|k].
    { intros [|s ss] r H; [injection H as <-; auto|discriminate]. }
    induction ss as [|s ss IH]; intros r H; [injection H as <-; auto|]. cbn [map over2] in H.
    change (into se ma rp (S k) Strip (vstr s) VNil) with (string_new se ma rp Strip (vstr s) VNil) in H.
    cbn [string_new bytes] in H. unfold vstr at 1 in H. cbn [bytes] in H. rewrite char_of_vstr in H.
    destruct (strip_outofplace s) as [t|m|u|] eqn:E; try discriminate.
    - apply C33_strip_outofplace_refuted in E. destruct E as (-> & ->). destruct (over2 _ _ _) as [r' e] eqn:Eo.
      injection H as <- ->. destruct (IH _ eq_refl) as (A & ->). auto.
    - destruct u; discriminate. }
  destruct (over2 (into se ma rp k Strip) (map vstr ss) (map (fun _ => VNil) ss)) as [r' e] eqn:Eo.
  assert (e = Ok tt /\ r = VArr TVar r') as (-> & ->).
  { subst ss. cbn [map] in Eo, H. destruct e as [[]| | |]; try discriminate. injection H as <-. auto. }
  destruct (M _ _ Eo) as (A & ->). auto.
Qed.

(** * C132: searching, matching and replacing *)
Theorem C132_string : forall f s v fuel, returns f s v -> (1 <= fuel)%nat -> call se ma rp fuel f (vstr s) = Ok v.
Proof.
  intros f s v fuel H L. destruct fuel as [|k]; [lia|]. unfold call.
  change (into se ma rp (S k) f (vstr s) (alloc (vstr s))) with (string_new se ma rp f (vstr s) (alloc (vstr s))).
  rewrite (string_returns f s v _ H). reflexivity.
Qed.
(** Searching, matching and replacing see a string up to its first NUL, and nothing of a single
    char. *)
Theorem C132_before_nul : forall f a b fuel, (match f with Search _ | Match _ | Replace _ _ => True | _ => False end) -> nul_free a ->
  (1 <= fuel)%nat -> call se ma rp fuel f (vstr (a ++ 0 :: b)) = call se ma rp fuel f (vstr a).
Proof.
  intros f a b fuel Hf Ha L. destruct fuel as [|k]; [lia|]. unfold call.
  assert (E : str_of (vstr (a ++ 0 :: b)) = str_of (vstr a)).
  { unfold str_of, vstr. rewrite !char_of_vstr. clear Hf. induction a as [|c a IH]; [reflexivity|]. cbn.
    destruct (Z.eqb_spec c 0); [exfalso; apply Ha; left; auto|]. f_equal. apply IH. intros X. apply Ha. right. auto. }
  change (into se ma rp (S k) f (vstr (a ++ 0 :: b)) (alloc (vstr (a ++ 0 :: b)))) with (string_new se ma rp f (vstr (a ++ 0 :: b)) (alloc (vstr (a ++ 0 :: b)))).
  change (into se ma rp (S k) f (vstr a) (alloc (vstr a))) with (string_new se ma rp f (vstr a) (alloc (vstr a))).
  unfold string_new. rewrite E. destruct f; try destruct Hf; reflexivity.
Qed.
Theorem C132_char : forall f c fuel, (match f with Search _ | Match _ | Replace _ _ => True | _ => False end) ->
  (1 <= fuel)%nat -> call se ma rp fuel f (VChar c) = call se ma rp fuel f (vstr []).
Proof. intros f c fuel Hf L. destruct fuel as [|k]; [lia|]. destruct f; try destruct Hf; reflexivity. Qed.

(** A new value does not depend on what is returned for other elements: the result for an element
    is that for the string on its own. *)
Theorem C132_elements : forall f ss vs fuel i, Forall2 (returns f) ss vs -> (2 <= fuel)%nat -> (i < length ss)%nat ->
  exists l, call se ma rp fuel f (VArr TVar (map vstr ss)) = Ok (VArr TVar l) /\ length l = length ss /\
    call se ma rp fuel f (vstr (nth i ss [])) = Ok (nth i l VNil).
Proof.
  intros f ss vs fuel i F L Hi. exists vs. split; [apply C131_new_array; auto|]. split; [clear - F; induction F; cbn; congruence|].
  apply C132_string; [|lia]. clear L. revert i Hi. induction F; intros [|i] Hi; cbn in *; auto; try lia. apply IHF. lia.
Qed.
End Functors.

(** * Examples: the expression is a plain text *)
Definition plain (re s : str) : option (list str) := option_map (fun _ => [re]) (strstr s re).
Definition whole (re s : str) : option (list str) := if prefixb re s && prefixb s re then Some [s] else None.
Definition first (re s fmt : str) : str :=
  match strstr s re with Some n => firstn n s ++ fmt ++ skipn (n + length re) s | None => s end.

(** ["ab", {"k": " c"}] *)
Example C131_example :
  let x := VArr TVar [vstr [97;98]; VMap [(vstr [107], vstr [32;99])]] in
  let y := VArr TVar [vstr [65;66]; VMap [(vstr [107], vstr [32;67])]] in
  let z := VArr TVar [vstr [97;98]; VMap [(vstr [107], vstr [99])]] in
  mapped (changes first Upper) x y /\ in_place first 5 Upper true x = (y, Ok tt) /\
  mapped (changes first Strip) x z /\ in_place first 5 Strip true x = (z, Ok tt) /\
  in_place first 5 Strip true (VArr TVar [vstr [32;97]; vstr [32]]) = (VArr TVar [vstr [97]; vstr [32]], UB BadSize) /\
  in_place first 5 Upper true (VArr TVar [vstr [97]; VNil]) = (VArr TVar [vstr [65]; VNil], Throw "var::atype(): Undefined") /\
  in_place first 5 Upper true (VArr TVar [VChar 97]) = (VArr TVar [vstr []], Ok tt) /\
  call plain whole first 5 Upper (VMap [(vstr [107], vstr [99])]) = Ok (VMap [(VNil, vstr [67])]) /\
  call plain whole first 5 Upper x = Throw "var::at(): uninitialised" /\
  call plain whole first 5 Strip (VArr TVar [vstr [97]]) = UB TypePun /\
  call plain whole first 5 Strip (VArr TVar [vstr []]) = Ok (VArr TVar [vstr []]) /\
  call plain whole first 5 Upper (VInt 3) = Fuel /\ snd (in_place first 5 Upper true (VArr TInt [VInt 3])) = Fuel.
Proof.
  cbv zeta. split.
  { apply mapped_array. repeat (apply mapped_cons || apply mapped_nil).
    - apply mapped_string. repeat constructor; lia.
    - apply mapped_map. repeat (apply mapped_value || apply mapped_none). apply mapped_string. cbn. constructor; [right; lia|]. repeat constructor; lia. }
  split; [reflexivity|]. split.
  { apply mapped_array. repeat (apply mapped_cons || apply mapped_nil).
    - apply mapped_string. right. exists [], []. repeat split; try (intros c []); try discriminate; unfold white; cbn; lia.
    - apply mapped_map. repeat (apply mapped_value || apply mapped_none). apply mapped_string. right. exists [32], [].
      repeat split; try (intros c []); try discriminate; unfold white; cbn; try lia. contradiction. }
  repeat split.
Qed.
Example C132_example :
  returns plain whole first (Search [98]) [97;98] (VArr TVar [vstr [98]]) /\
  call plain whole first 5 (Search [98]) (VArr TVar [vstr [97;98]; vstr [99]]) = Ok (VArr TVar [VArr TVar [vstr [98]]; VNil]) /\
  call plain whole first 5 (Match [98]) (vstr [97;98]) = Ok VNil /\
  call plain whole first 5 (Search [98]) (vstr [97;0;98]) = Ok VNil /\
  call plain whole first 5 (Search [98]) (VChar 98) = Ok VNil /\
  in_place first 5 (Replace [98] [120;121]) true (VArr TVar [vstr [97;98]; vstr [98;98]]) = (VArr TVar [vstr [97;120;121]; vstr [120;121;98]], Ok tt).
Proof.
  split.
  { cbn. split; [unfold nul_free; cbn; lia|]. split; [discriminate|]. split; [repeat constructor; unfold nul_free; cbn; lia|reflexivity]. }
  repeat split.
Qed.
Print Assumptions C131_in_place.
Print Assumptions C131_undefined_element.
Print Assumptions C131_undefined_value.
Print Assumptions C131_undefined.
Print Assumptions C131_blank_element.
Print Assumptions C131_number.
Print Assumptions C131_number_element.
Print Assumptions C131_char.
Print Assumptions C131_char_lower.
Print Assumptions C131_char_strip.
Print Assumptions C131_new_char.
Print Assumptions C131_char_element.
Print Assumptions C131_new_array.
Print Assumptions C131_new_map.
Print Assumptions C131_new_nested.
Print Assumptions C131_new_undefined.
Print Assumptions C131_new_strip_refuted.
Print Assumptions C132_string.
Print Assumptions C132_before_nul.
Print Assumptions C132_char.
Print Assumptions C132_elements.
