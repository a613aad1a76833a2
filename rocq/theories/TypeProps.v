(** Property of the names of types: C144. *)
From Coq Require Import ZArith Bool List String Ascii Lia.
From Verif Require Import Base StrModel ValModel NumModel MemModel MemProof MemFun MemEq MemDeref MemTriple MemArr MemKey MemElem MemList MemArrays MemText MemScalar ArrSpec ArrFacts
  MemCopy MemThrow MemMaps MemViewSpec TypeModel.
Import ListNotations.
Local Open Scope list_scope.
Local Open Scope mem_scope.
Local Notation length := List.length.

(** * Specification *)
(** The word for the type of a value: an undefined var is an array. *)
Inductive type_word : mvar -> string -> Prop :=
| tw_nil : type_word MNil "array"
| tw_array : forall l, type_word (MPtr l) "array"
| tw_char : forall c, type_word (MNum (VChar c)) "char"
| tw_int : forall z, type_word (MNum (VInt z)) "int"
| tw_long : forall z, type_word (MNum (VLong z)) "long"
| tw_float : forall f, type_word (MNum (VFloat f)) "float"
| tw_double : forall f, type_word (MNum (VDouble f)) "double".
(** The word for the type of the elements of an array. *)
Inductive elem_word : hty -> string -> Prop :=
| ew_char : elem_word (HE TChar) "char"
| ew_int : elem_word (HE TInt) "int"
| ew_long : elem_word (HE TLong) "long"
| ew_float : elem_word (HE TFloat) "float"
| ew_double : elem_word (HE TDouble) "double"
| ew_var : elem_word (HE TVar) "var"
| ew_pair : elem_word HPair "pair".
(** The elements of [l], which is an array or a view of one, are of type [t]. *)
Definition elem_type (s : state) (l : nat) (t : hty) : Prop :=
  exists o, nth_error (mem s) l = Some (Some o) /\
    match h_view o with
    | None => h_ty o = t
    | Some b => exists ob, nth_error (mem s) b = Some (Some ob) /\ h_ty ob = t
    end.
(** The one difference between [s] and [s'] is a new array [l], the string [n]. *)
Definition new_string (s : state) (l : nat) (n : string) (s' : state) : Prop :=
  l = length (mem s) /\ stk s' = stk s /\ length (mem s') = S (length (mem s)) /\
  (forall k, k < length (mem s) -> nth_error (mem s') k = nth_error (mem s) k) /\
  (forall k, k < length (rc s) -> nth_error (rc s') k = nth_error (rc s) k) /\
  array_at s' l (HE TChar) (map (fun c => MNum (VChar (Z.of_nat (nat_of_ascii c)))) (list_ascii_of_string n)).

(** * Proofs *)
Lemma chars_app : forall a b, chars (a ++ b)%string = chars a ++ chars b.
Proof. induction a as [|c a IH]; intros b; [reflexivity|]. unfold chars in *. simpl. f_equal. apply IH. Qed.
Lemma gives_string : forall s n, reachable s -> small (length (chars n)) -> exists s', string_var (chars n) s = ROk (MPtr (length (mem s))) s' /\ new_string s (length (mem s)) n s'.
Proof.
  intros s n R Sm. destruct (reachable_INV s R) as [e I]. destruct (string_gives e [] s (chars n) I Sm) as (o & E & I1 & T & V & Sz & Vl & Nl).
  exists (new_st o s). split; auto. split; auto. split; auto. split; [simpl; rewrite app_length; simpl; lia|].
  split; [intros k Lk; simpl; rewrite nth_error_app1; auto|]. split.
  - intros k Lk. simpl. rewrite nth_error_app1; auto.
  - replace (map (fun c => MNum (VChar (Z.of_nat (nat_of_ascii c)))) (list_ascii_of_string n)) with (map (fun c => MNum (VChar c)) (chars n)) by (unfold chars; rewrite map_map; auto).
    apply (string_array _ _ o); auto.
    + apply obj_live. simpl. rewrite nth_error_app2, Nat.sub_diag by auto. reflexivity.
    + apply val_at_lt in Nl. lia.
Qed.
Lemma word_name : forall y n s, type_word y n -> type_name (type_code y) s = ROk n s /\ small (length (chars n)).
Proof. intros y n s W. destruct W; split; reflexivity. Qed.
Lemma elem_name : forall t n s, elem_word t n -> type_name (hcode t) s = ROk n s /\ small (length (chars ("array[" ++ n ++ "]"))).
Proof. intros t n s W. destruct W; split; reflexivity. Qed.
Lemma type_is : forall s j x y, reachable s -> variable s j x -> denotes s x y -> type_of (LS j) s = ROk (type_code y) s.
Proof. intros s j x y R V D. apply (type_of_exact s j x y); auto. apply proper_exact, reachable_proper; auto. Qed.
Lemma heap_is : forall s j x y, reachable s -> variable s j x -> denotes s x y -> heap_of (LS j) s = ROk (match y with MPtr l => Some l | _ => None end) s.
Proof.
  intros s j x y R V D. pose proof (proper_exact _ _ _ (reachable_proper _ _ _ R D)) as Ex.
  destruct x; simpl in D; try contradiction; try (subst y; unfold heap_of; rewrite (bind_ok _ _ _ _ _ _ _ (get_eq (LS j) _ _ V)); reflexivity).
  destruct D as (o & k & O & Vw & Li & Nc & Nj & Nr). apply obj_live in O.
  rewrite (heap_of_ref s (LS j) l i o y); auto.
  - destruct (varlike (h_ty o)) eqn:Vl; auto. destruct (Ex l i o eq_refl O Vl) as (v & -> & _). reflexivity.
  - unfold val_at. rewrite Nc. reflexivity.
Qed.

(** * C144 *)
(** Exactly the codes of the types have names, and no two the same. *)
Theorem C144_names : forall t s,
  ((0 <= t <= 9)%Z -> exists n, type_name t s = ROk n s /\ forall t' s', type_name t' s' = ROk n s' -> t' = t) /\
  (~ (0 <= t <= 9)%Z -> type_name t s = RThrow "libube::typeStr(): Unknown type" s).
Proof.
  intros t s. split.
  - intros H. assert (C : t = 0%Z \/ t = 1%Z \/ t = 2%Z \/ t = 3%Z \/ t = 4%Z \/ t = 5%Z \/ t = 6%Z \/ t = 7%Z \/ t = 8%Z \/ t = 9%Z) by lia.
    repeat (destruct C as [->|C]); try subst t; (eexists; split; [reflexivity|]); intros t' s'; unfold type_name;
      repeat (match goal with |- context [(t' =? ?k)%Z] => destruct (Z.eqb_spec t' k); [subst; try reflexivity; discriminate|] end); discriminate.
  - intros H. unfold type_name. repeat (match goal with |- context [(t =? ?k)%Z] => destruct (Z.eqb_spec t k); [exfalso; subst; apply H; lia|] end). reflexivity.
Qed.
Theorem C144_typeStr : forall s j x y n, reachable s -> variable s j x -> denotes s x y -> type_word y n ->
  exists l s', type_str (LS j) s = ROk (MPtr l) s' /\ new_string s l n s'.
Proof.
  intros s j x y n R V D W. destruct (word_name y n s W) as [N Sm]. destruct (gives_string s n R Sm) as (s' & E & H). exists (length (mem s)), s'. split; auto.
  unfold type_str. rewrite (bind_ok _ _ _ _ _ _ _ (type_is _ _ _ _ R V D)). rewrite (bind_ok _ _ _ _ _ _ _ N). auto.
Qed.
Theorem C144_atypeStr_array : forall s j x l t n, reachable s -> variable s j x -> denotes s x (MPtr l) -> elem_type s l t -> elem_word t n ->
  exists m s', atype_str (LS j) s = ROk (MPtr m) s' /\ new_string s m ("array[" ++ n ++ "]") s'.
Proof.
  intros s j x l t n R V D (o & O & T) W. destruct (elem_name t n s W) as [N Sm]. destruct (gives_string s _ R Sm) as (s' & E & H). exists (length (mem s)), s'. split; auto.
  apply obj_live in O. unfold atype_str. rewrite (bind_ok _ _ _ _ _ _ _ (type_is _ _ _ _ R V D)). change (type_code (MPtr l) =? 0)%Z with true. cbv iota.
  rewrite (bind_ok _ _ _ _ _ _ _ (heap_is _ _ _ _ R V D)). cbv iota. rewrite (bind_ok _ _ _ _ _ _ _ (get_obj_eq _ _ _ O)).
  rewrite (bind_ok _ _ (obj_type o) _ s t s).
  - rewrite (bind_ok _ _ _ _ _ _ _ N). rewrite <- E. rewrite !chars_app. reflexivity.
  - unfold obj_type. destruct (h_view o) as [b|]; [|subst; reflexivity]. destruct T as (ob & Ob & <-). apply obj_live in Ob.
    rewrite (bind_ok _ _ _ _ _ _ _ (get_obj_eq _ _ _ Ob)). reflexivity.
Qed.
Theorem C144_atypeStr_number : forall s j x v n, reachable s -> variable s j x -> denotes s x (MNum v) -> type_word (MNum v) n ->
  exists l s', atype_str (LS j) s = ROk (MPtr l) s' /\ new_string s l n s'.
Proof.
  intros s j x v n R V D W. destruct (C144_typeStr s j x _ n R V D W) as (l & s' & E & H). exists l, s'. split; auto.
  unfold atype_str. rewrite (bind_ok _ _ _ _ _ _ _ (type_is _ _ _ _ R V D)). inversion W; subst v; exact E.
Qed.
(** [atypeStr] of an undefined var calls a method of a null pointer. *)
Theorem C144_atypeStr_undefined : forall s j x, reachable s -> variable s j x -> denotes s x MNil -> atype_str (LS j) s = RUB NullDeref.
Proof.
  intros s j x R V D. unfold atype_str. rewrite (bind_ok _ _ _ _ _ _ _ (type_is _ _ _ _ R V D)). change (type_code MNil =? 0)%Z with true. cbv iota.
  rewrite (bind_ok _ _ _ _ _ _ _ (heap_is _ _ _ _ R V D)). reflexivity.
Qed.

(** A map holding an array of vars, a number and an undefined entry; a view of an array of double;
    a string; an undefined variable; references to the entries. *)
Definition typed : list stmt :=
  [SDecl ENil; SAssign (EKey (EVar 0) (EStr [97%Z])) (ENum (VLong 5)); SInit (map (fun z => ENum (VDouble (float_of_Z 53 1024 z))) [1; 2; 3]%Z);
   SDecl (EView (EVar 1) [2%Z] 1); SDecl (EStr [104%Z; 105%Z]); SDecl ENil; SDecl (EKey (EVar 0) (EStr [97%Z])); SDecl (EKey (EVar 0) (EStr [98%Z]));
   SDecl ENil; SResize (EVar 7) 2; SAssign (EIdx (EVar 7) 1) (EVar 3); SDecl (EIdx (EVar 7) 1)].
Definition s_typed : state := Eval vm_compute in match run typed start with ROk _ s => s | _ => start end.
Lemma typed_reached : reachable s_typed.
Proof. exists typed. vm_compute. reflexivity. Qed.
Ltac found := eexists; eexists; split; [reflexivity|]; split; [reflexivity|]; split; [simpl; lia|]; split; [reflexivity|]; split; [discriminate|intros; discriminate].
Example C144_typeStr_example : exists l s', type_str (LS 5) s_typed = ROk (MPtr l) s' /\ new_string s_typed l "long" s'.
Proof. apply (C144_typeStr s_typed 5 (MRef 1 0) (MNum (VLong 5))); [exact typed_reached|reflexivity|found|constructor]. Qed.
Example C144_atypeStr_example : (exists l s', atype_str (LS 2) s_typed = ROk (MPtr l) s' /\ new_string s_typed l "array[double]" s') /\
  (exists l s', atype_str (LS 8) s_typed = ROk (MPtr l) s' /\ new_string s_typed l "array[char]" s') /\
  exists l s', atype_str (LS 0) s_typed = ROk (MPtr l) s' /\ new_string s_typed l "array[pair]" s'.
Proof.
  split; [|split].
  - apply (C144_atypeStr_array s_typed 2 (MPtr 3) 3 (HE TDouble) "double"); [exact typed_reached|reflexivity|reflexivity|eexists; split; [reflexivity|]|constructor].
    eexists. split; reflexivity.
  - apply (C144_atypeStr_array s_typed 8 (MRef 7 1) 4 (HE TChar) "char"); [exact typed_reached|reflexivity|found|eexists; split; reflexivity|constructor].
  - apply (C144_atypeStr_array s_typed 0 (MPtr 1) 1 HPair "pair"); [exact typed_reached|reflexivity|reflexivity|eexists; split; reflexivity|constructor].
Qed.
Example C144_number_example : exists l s', atype_str (LS 5) s_typed = ROk (MPtr l) s' /\ new_string s_typed l "long" s'.
Proof. apply (C144_atypeStr_number s_typed 5 (MRef 1 0) (VLong 5)); [exact typed_reached|reflexivity|found|constructor]. Qed.
Example C144_undefined_example : atype_str (LS 4) s_typed = RUB NullDeref /\ atype_str (LS 6) s_typed = RUB NullDeref.
Proof.
  split; [apply (C144_atypeStr_undefined s_typed 4 MNil); [exact typed_reached|reflexivity|reflexivity]|].
  apply (C144_atypeStr_undefined s_typed 6 (MRef 1 1)); [exact typed_reached|reflexivity|found].
Qed.
Example C144_names_example : type_name 7 s_typed = ROk "cdouble"%string s_typed /\ type_name 10 s_typed = RThrow "libube::typeStr(): Unknown type" s_typed.
Proof. split; [destruct (C144_names 7 s_typed) as [H _]; destruct (H ltac:(lia)) as (n & E & _); rewrite E; vm_compute in E; inversion E; reflexivity|]. apply C144_names. lia. Qed.
