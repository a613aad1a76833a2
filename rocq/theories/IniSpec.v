(** Specifications for ini files and configurations, independent of the model's helpers. *)
From Coq Require Import ZArith Bool List.
From Verif Require Import Base StrSpec ValModel ValSpec JsonModel.
Import ListNotations.
Local Open Scope Z_scope.

(** [k] is [K] without the blanks around it. *)
Definition trimmed (K k : list Z) : Prop :=
  exists a b, K = a ++ k ++ b /\ all_white a /\ all_white b /\
    (k = [] \/ (~ white (hd 0 k) /\ ~ white (last k 0))).

(** The first character that is not blank. *)
Definition first_is (raw : list Z) (P : Z -> Prop) : Prop :=
  exists a c r, raw = a ++ c :: r /\ all_white a /\ ~ white c /\ P c.

Inductive item := Skip | Sec (name : list Z) | Bind (k v : list Z).

(** What a line means.  59 ; 35 # 91 [ 93 ] 61 = 58 : *)
Inductive line_means : list Z -> item -> Prop :=
| lm_empty : line_means [] Skip
| lm_comment : forall raw, first_is raw (fun c => c = 59 \/ c = 35) -> line_means raw Skip
| lm_section : forall a name r, all_white a -> ~ In 93 name ->
    line_means (a ++ 91 :: name ++ 93 :: r) (Sec name)
| lm_equals : forall K V k v, first_is (K ++ 61 :: V) (fun c => ~ In c [59; 35; 91]) ->
    ~ In 61 K -> ~ In 61 V -> trimmed K k -> trimmed V v ->
    line_means (K ++ 61 :: V) (Bind k v)
| lm_colon : forall K V k v, first_is (K ++ 58 :: V) (fun c => ~ In c [59; 35; 91]) ->
    ~ In 61 (K ++ V) -> ~ In 58 K -> ~ In 58 V -> trimmed K k -> trimmed V v ->
    line_means (K ++ 58 :: V) (Bind k v)
(** everything from a second separator on is dropped *)
| lm_equals_more : forall K V R k v, first_is (K ++ 61 :: V ++ 61 :: R) (fun c => ~ In c [59; 35; 91]) ->
    ~ In 61 K -> ~ In 61 V -> trimmed K k -> trimmed V v -> (all_white V -> V = []) ->
    line_means (K ++ 61 :: V ++ 61 :: R) (Bind k v)
| lm_colon_more : forall K V R k v, first_is (K ++ 58 :: V ++ 58 :: R) (fun c => ~ In c [59; 35; 91]) ->
    ~ In 61 (K ++ V ++ R) -> ~ In 58 K -> ~ In 58 V -> trimmed K k -> trimmed V v -> (all_white V -> V = []) ->
    line_means (K ++ 58 :: V ++ 58 :: R) (Bind k v).

(** Lines the reader rejects. *)
Definition bad_section (raw : list Z) : Prop := first_is raw (fun c => c = 91) /\ ~ In 93 raw.
Definition bad_entry (raw : list Z) : Prop :=
  first_is raw (fun c => ~ In c [59; 35; 91]) /\ ~ In 61 raw /\ ~ In 58 raw.

(** The bindings (section, key, value) of a file, starting in section [sec]. *)
Definition binding := (list Z * list Z * list Z)%type.
Inductive means : list Z -> list (list Z) -> list binding -> Prop :=
| m_nil : forall sec, means sec [] []
| m_skip : forall sec raw t bs, line_means raw Skip -> means sec t bs -> means sec (raw :: t) bs
| m_sec : forall sec raw name t bs, line_means raw (Sec name) -> means name t bs -> means sec (raw :: t) bs
| m_bind : forall sec raw k v t bs, line_means raw (Bind k v) -> means sec t bs ->
    means sec (raw :: t) ((sec, k, v) :: bs).

Definition last_binding {V : Type} (bs : list (list Z * list Z * V)) (s k : list Z) (v : V) : Prop :=
  exists pre post, bs = pre ++ (s, k, v) :: post /\ forall v', ~ In (s, k, v') post.
Definition has_section (bs : list binding) (s : list Z) : Prop := exists k v, In (s, k, v) bs.

(** [m] is the map of the last values bound in section [s]. *)
Definition section_map (bs : list binding) (s : list Z) (m : val) : Prop :=
  exists l, m = VMap l /\ sorted_map l /\
    forall kk x, In (kk, x) l <-> exists k v, kk = vstr k /\ x = vstr v /\ last_binding bs s k v.
(** [r] is nil if there are no bindings, otherwise the map of the sections. *)
Definition denotes (bs : list binding) (r : val) : Prop :=
  (bs = [] /\ r = VNil) \/
  (exists l, bs <> [] /\ r = VMap l /\ sorted_map l /\
     forall kk x, In (kk, x) l <-> exists s, kk = vstr s /\ has_section bs s /\ section_map bs s x).

(** A well-formed line content. *)
Definition clean (s : list Z) : Prop := chars s /\ nul_free s /\ ~ In 10 s.

(** * Configurations *)
(** What a program does with a configuration: read a file, choose a section (None: the nil
    section), set an entry of the current section, look one up. *)
Inductive cop := OFile (content : list Z) | OSection (o : option (list Z)) | OSet (k : list Z) (v : val) | OGet (k : list Z).
Definition sec_val (o : option (list Z)) : val := match o with Some s => vstr s | None => VNil end.
Definition cbinding := (list Z * list Z * val)%type.
(** The bindings the operations make and the section chosen at the end. *)
Inductive cmeans : option (list Z) -> list cop -> list cbinding -> option (list Z) -> Prop :=
| cm_nil : forall o, cmeans o [] [] o
| cm_file : forall o ls bs ops cs o', Forall clean ls -> means [] ls bs -> cmeans o ops cs o' ->
    cmeans o (OFile (lines ls) :: ops) (map (fun b => match b with (s, k, v) => (s, k, vstr v) end) bs ++ cs) o'
| cm_section : forall o o1 ops cs o', (forall s, o1 = Some s -> clean s) -> cmeans o1 ops cs o' ->
    cmeans o (OSection o1 :: ops) cs o'
| cm_set : forall s k v ops cs o', clean k -> cmeans (Some s) ops cs o' ->
    cmeans (Some s) (OSet k v :: ops) ((s, k, v) :: cs) o'
| cm_set_nil : forall k v ops cs o', cmeans None ops cs o' -> cmeans None (OSet k v :: ops) cs o'
| cm_get : forall o k ops cs o', clean k -> cmeans o ops cs o' -> cmeans o (OGet k :: ops) cs o'.
