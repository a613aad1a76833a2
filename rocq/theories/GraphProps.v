(** Properties of the graph module: C119. *)
From Coq Require Import ZArith Bool String List Lia.
From Verif Require Import Base StrModel JsonModel JsonSpec JsonRound GraphModel.
Import ListNotations.
Local Open Scope Z_scope.
Local Open Scope list_scope.
Local Notation length := List.length.

(** Uses of a graph, and what they return: the vertices of the [addVertex] calls. *)
Inductive use := UVertex | UEdge (i j : Z).
Fixpoint uses (limit : Z) (l : list use) (g : graph) : outcome (list Z * graph) :=
  match l with
  | [] => Ok ([], g)
  | UVertex :: l => let (v, g) := addVertex g in
                    match uses limit l g with Ok (vs, g) => Ok (v :: vs, g) | Throw m => Throw m | UB k => UB k | Fuel => Fuel end
  | UEdge i j :: l => match addEdge limit g i j with Ok g => uses limit l g | Throw m => Throw m | UB k => UB k | Fuel => Fuel end
  end.
(** The vertices of a use are numbers below [limit], which is no more than a vector can hold. *)
Definition proper_use (limit : Z) (u : use) : Prop := match u with UVertex => True | UEdge i j => 0 <= i < limit /\ 0 <= j < limit end.
(** How many vertices there are after the uses [l], starting from [n]. *)
Definition after_use (n : Z) (u : use) : Z := match u with UVertex => n + 1 | UEdge i j => Z.max n (Z.max i j + 1) end.
Definition edges_of (l : list use) : list (Z * Z) := flat_map (fun u => match u with UVertex => [] | UEdge i j => [(i, j)] end) l.

Lemma unsigned_id : forall i, 0 <= i < 2 ^ 64 -> unsigned i = i.
Proof. intros i H. unfold unsigned. apply Z.mod_small. auto. Qed.
Lemma addEdge_gives : forall limit g i j, 0 <= g_n g -> 0 <= i < limit -> 0 <= j < limit -> limit < 2 ^ 63 ->
  addEdge limit g i j = Ok {| g_n := Z.max (g_n g) (Z.max i j + 1); g_edges := g_edges g ++ [(i, j)] |}.
Proof.
  intros limit g i j N I J L. unfold addEdge. rewrite !unsigned_id by lia. destruct (Z.leb_spec (g_n g) (Z.max i j)).
  - destruct (Z.ltb_spec limit (Z.max i j + 1)); [lia|]. cbn [obind]. destruct (Z.leb_spec (Z.max i j + 1) i), (Z.leb_spec (Z.max i j + 1) j); try lia. cbn [orb]. do 2 f_equal. lia.
  - cbn [obind]. destruct (Z.leb_spec (g_n g) i), (Z.leb_spec (g_n g) j); try lia. cbn [orb]. do 2 f_equal. lia.
Qed.

(** * C119 *)
(** The vertices are numbered from 0 in the order they are made; the edges are those added, in
    order, also between the same vertices. *)
Theorem C119_graph : forall limit, limit < 2 ^ 63 -> forall l g, 0 <= g_n g -> Forall (proper_use limit) l ->
  exists vs, uses limit l g = Ok (vs, {| g_n := fold_left after_use l (g_n g); g_edges := g_edges g ++ edges_of l |}).
Proof.
  intros limit L l. induction l as [|[|i j] l IH]; intros g N H; simpl.
  - exists []. rewrite app_nil_r. destruct g; reflexivity.
  - inversion H; subst. destruct (IH {| g_n := g_n g + 1; g_edges := g_edges g |}) as [vs E]; simpl; auto; [lia|]. rewrite E. eauto.
  - inversion H as [|? ? P H']; subst. destruct P as [I J]. rewrite addEdge_gives by auto. destruct (IH {| g_n := Z.max (g_n g) (Z.max i j + 1); g_edges := g_edges g ++ [(i, j)] |}) as [vs E]; simpl; auto; [lia|].
    rewrite E. simpl. rewrite <- app_assoc. eauto.
Qed.
(** Each vertex made is the number of vertices there were, whatever was done before. *)
Theorem C119_vertex : forall limit, limit < 2 ^ 63 -> forall l l', Forall (proper_use limit) l -> Forall (proper_use limit) l' ->
  exists vs vs' g, uses limit (l ++ UVertex :: l') new_graph = Ok (vs ++ fold_left after_use l 0 :: vs', g) /\ length vs = length (filter (fun u => match u with UVertex => true | _ => false end) l).
Proof.
  intros limit L l l' H H'. assert (X : forall g, 0 <= g_n g -> exists vs vs' g', uses limit (l ++ UVertex :: l') g = Ok (vs ++ fold_left after_use l (g_n g) :: vs', g') /\
    length vs = length (filter (fun u => match u with UVertex => true | _ => false end) l)); [|apply (X new_graph); simpl; lia].
  induction l as [|[|i j] l IH]; intros g N; simpl.
  - destruct (C119_graph limit L l' {| g_n := g_n g + 1; g_edges := g_edges g |}) as [vs E]; simpl; auto; [lia|]. rewrite E. exists [], vs. simpl. eauto.
  - inversion H; subst. destruct (IH ltac:(auto) {| g_n := g_n g + 1; g_edges := g_edges g |}) as (vs & vs' & g' & E & Ln); simpl; [lia|]. rewrite E. exists (g_n g :: vs), vs', g'. simpl. auto.
  - inversion H as [|? ? P Hl]; subst. destruct P as [I J]. rewrite addEdge_gives by auto. apply IH; auto. simpl. lia.
Qed.
(** The ends of the edges are vertices. *)
Definition sound (g : graph) : Prop := 0 <= g_n g /\ Forall (fun e => 0 <= fst e < g_n g /\ 0 <= snd e < g_n g) (g_edges g).
Theorem C119_ends : forall limit g i j g', sound g -> addEdge limit g i j = Ok g' -> sound g' /\ g_n g <= g_n g' /\ exists e, g_edges g' = g_edges g ++ [e].
Proof.
  intros limit g i j g' [N S] E. unfold addEdge in E. assert (U : 0 <= unsigned i /\ 0 <= unsigned j) by (unfold unsigned; split; apply Z.mod_pos_bound; lia).
  set (u := unsigned i) in *. set (v := unsigned j) in *. assert (P : 0 <= unsigned (Z.max u v + 1) <= Z.max u v + 1).
  { unfold unsigned. split; [apply Z.mod_pos_bound; lia|apply Z.mod_le; lia]. }
  assert (X : forall n, g_n g <= n -> (if (n <=? u) || (n <=? v) then UB OutOfBounds else Ok {| g_n := n; g_edges := g_edges g ++ [(u, v)] |}) = Ok g' ->
     sound g' /\ g_n g <= g_n g' /\ exists e, g_edges g' = g_edges g ++ [e]).
  { intros n Nn F. destruct (Z.leb_spec n u), (Z.leb_spec n v); simpl in F; try discriminate. inversion F; subst; clear F. split; [|split; [exact Nn|exists (u, v); reflexivity]].
    split; simpl; [lia|]. apply Forall_app. split; [|constructor; [simpl; lia|constructor]]. eapply Forall_impl; [|exact S]. intros [a b]; simpl; lia. }
  destruct (Z.leb_spec (g_n g) (Z.max u v)) as [M|M].
  - destruct (limit <? unsigned (Z.max u v + 1)); [discriminate|]. cbn [obind] in E. destruct (Z.leb_spec (g_n g) (unsigned (Z.max u v + 1))) as [Y|Y]; [apply (X _ Y E)|].
    (* the number of vertices would wrap around *)
    exfalso. assert (Z.max u v + 1 = 2 ^ 64).
    { assert (B : u < 2 ^ 64 /\ v < 2 ^ 64) by (unfold u, v, unsigned; split; apply Z.mod_pos_bound; lia). destruct (Z.eq_dec (Z.max u v + 1) (2 ^ 64)) as [|D]; auto. rewrite unsigned_id in Y by lia. lia. }
    rewrite H in E. change (unsigned (2 ^ 64)) with 0 in E. destruct (Z.leb_spec 0 u); [discriminate|lia].
  - cbn [obind] in E. apply (X (g_n g)); auto. lia.
Qed.
(** A vertex of -1, which [ind] uses for "no", empties the vector of vertices and then writes outside of
    it; the other negative numbers are refused. *)
Theorem C119_negative : forall limit g i j, 0 <= g_n g < 2 ^ 63 -> 0 <= limit < 2 ^ 63 -> - 2 ^ 63 <= i < 2 ^ 63 -> - 2 ^ 63 <= j < 2 ^ 63 -> i < 0 \/ j < 0 ->
  addEdge limit g i j = if (i =? -1) || (j =? -1) then UB OutOfBounds else Throw "vector::_M_default_append".
Proof.
  intros limit g i j N L I J H.
  assert (U : forall i, - 2 ^ 63 <= i < 2 ^ 63 -> unsigned i = if i <? 0 then i + 2 ^ 64 else i).
  { intros k K. destruct (Z.ltb_spec k 0); [|apply unsigned_id; lia]. unfold unsigned. symmetry. apply (Z.mod_unique_pos k (2 ^ 64) (-1)); lia. }
  unfold addEdge. rewrite (U i I), (U j J). set (u := if i <? 0 then i + 2 ^ 64 else i). set (v := if j <? 0 then j + 2 ^ 64 else j).
  assert (Hu : u = (if i <? 0 then i + 2 ^ 64 else i)) by reflexivity. assert (Hv : v = (if j <? 0 then j + 2 ^ 64 else j)) by reflexivity. clearbody u v.
  destruct (Z.leb_spec (g_n g) (Z.max u v)) as [M|M]; [|destruct (Z.ltb_spec i 0), (Z.ltb_spec j 0); lia].
  destruct (Z.eqb_spec i (-1)) as [Ei|Ei]; [|destruct (Z.eqb_spec j (-1)) as [Ej|Ej]].
  - assert (X : Z.max u v + 1 = 2 ^ 64) by (subst i; simpl in Hu; destruct (Z.ltb_spec j 0); lia). rewrite X. change (unsigned (2 ^ 64)) with 0. destruct (Z.ltb_spec limit 0); [lia|]. cbn [obind].
    destruct (Z.leb_spec 0 u); [reflexivity|destruct (Z.ltb_spec i 0); lia].
  - assert (X : Z.max u v + 1 = 2 ^ 64) by (subst j; simpl in Hv; destruct (Z.ltb_spec i 0); lia). rewrite X. change (unsigned (2 ^ 64)) with 0. destruct (Z.ltb_spec limit 0); [lia|]. cbn [obind].
    destruct (Z.leb_spec 0 u); [reflexivity|destruct (Z.ltb_spec i 0); lia].
  - rewrite unsigned_id by (destruct (Z.ltb_spec i 0), (Z.ltb_spec j 0); lia). destruct (Z.ltb_spec limit (Z.max u v + 1)); [reflexivity|]. destruct (Z.ltb_spec i 0), (Z.ltb_spec j 0); lia.
Qed.

(** * The file written *)
Lemma digits_split : forall a b c d r t, Forall digit a -> Forall digit b -> ~ digit c -> ~ digit d -> a ++ c :: r = b ++ d :: t -> a = b /\ c = d /\ r = t.
Proof.
  induction a as [|x a IH]; intros [|y b] c d r t A B C D E; simpl in E; inversion E; subst.
  - auto.
  - inversion B; contradiction.
  - inversion A; contradiction.
  - inversion A; inversion B; subst. destruct (IH b c d r t) as (-> & -> & ->); auto.
Qed.
Lemma dec_digits : forall z, 0 <= z -> Forall digit (dec z) /\ number_of (dec z) = z.
Proof. intros z H. destruct (dec_spec z) as (d & D & _ & _ & [(_ & -> & N)|(L & _)]); [auto|lia]. Qed.
(** A number is written in the text, up to the character that follows. *)
Lemma dec_split : forall x y c d r t, 0 <= x -> 0 <= y -> ~ digit c -> ~ digit d -> dec x ++ c :: r = dec y ++ d :: t -> x = y /\ c = d /\ r = t.
Proof.
  intros x y c d r t X Y C D E. destruct (dec_digits x X) as [Dx Nx]. destruct (dec_digits y Y) as [Dy Ny]. destruct (digits_split _ _ _ _ _ _ Dx Dy C D E) as (Eq & -> & ->). split; auto. congruence.
Qed.
(** The lines of a file. *)
Inductive line := LVertex (v : Z) | LEdge (e : Z * Z) | LEnd.
Definition line_text (l : line) : str := match l with LVertex v => vertex_line v | LEdge e => edge_line e | LEnd => txt "}" ++ [10] end.
Definition fine_line (l : line) : Prop := match l with LVertex v => 0 <= v | LEdge e => 0 <= fst e /\ 0 <= snd e | LEnd => True end.
Lemma line_split : forall a b r t, fine_line a -> fine_line b -> line_text a ++ r = line_text b ++ t -> a = b /\ r = t.
Proof.
  assert (D59 : ~ digit 59) by (unfold digit; lia). assert (D45 : ~ digit 45) by (unfold digit; lia). assert (D32 : ~ digit 32) by (unfold digit; lia).
  assert (Br : forall z r t, 0 <= z -> dec z ++ r = 125 :: t -> False).
  { intros z r t Z E. destruct (dec_spec z) as (d & D & Dn & _ & [(_ & H & _)|(L & _)]); [|lia]. rewrite H in E. destruct d as [|x d]; [contradiction|]. simpl in E. inversion E; subst. inversion D; subst. unfold digit in *. lia. }
  intros [v|[u v]|] [v'|[u' v']|] r t A B E; simpl in A, B; unfold line_text, vertex_line, edge_line in E; cbn [fst snd] in *; rewrite <- ?app_assoc in E; simpl in E.
  - apply dec_split in E as (-> & _ & E); auto. inversion E; auto.
  - apply dec_split in E as (_ & E & _); try discriminate; auto; lia.
  - destruct (Br _ _ _ A E).
  - apply dec_split in E as (_ & E & _); try discriminate; auto; lia.
  - apply dec_split in E as (-> & _ & E); auto; try lia. inversion E as [E']. apply dec_split in E' as (-> & _ & E'); auto; try lia. inversion E'; auto.
  - destruct (Br _ _ _ (proj1 A) E).
  - symmetry in E. destruct (Br _ _ _ B E).
  - symmetry in E. destruct (Br _ _ _ (proj1 B) E).
  - inversion E; auto.
Qed.
Lemma lines_split : forall a b, Forall fine_line a -> Forall fine_line b -> List.concat (map line_text a) = List.concat (map line_text b) -> a = b.
Proof.
  assert (Ne : forall l r, fine_line l -> [] = line_text l ++ r -> False).
  { intros [v|[u v]|] r F E; simpl in F; unfold line_text, vertex_line, edge_line in E; cbn [fst snd] in E; rewrite <- ?app_assoc in E; symmetry in E; [| |discriminate].
    - apply app_eq_nil in E as [_ E]. discriminate.
    - apply app_eq_nil in E as [_ E]. discriminate. }
  induction a as [|x a IH]; intros [|y b] A B E; simpl in E; auto.
  - inversion B; subst. destruct (Ne y _ ltac:(auto) E).
  - inversion A; subst. symmetry in E. destruct (Ne x _ ltac:(auto) E).
  - inversion A; inversion B; subst. apply line_split in E as [-> E]; auto. f_equal. auto.
Qed.
Definition lines_of (g : graph) : list line := map LVertex (numbers (Z.to_nat (g_n g)) 0) ++ map LEdge (g_edges g) ++ [LEnd].
Lemma text_lines : forall g, writeGraphViz g = txt "digraph G {" ++ [10] ++ List.concat (map line_text (lines_of g)).
Proof.
  intros g. unfold writeGraphViz, lines_of. rewrite !map_app, !concat_app, !map_map. simpl. reflexivity.
Qed.
Lemma numbers_spec : forall n i, numbers n i = map (fun k => i + Z.of_nat k) (seq 0 n).
Proof.
  induction n as [|n IH]; intros i; simpl; auto. rewrite Z.add_0_r. f_equal. rewrite IH, <- seq_shift, map_map. apply map_ext. intros k. lia.
Qed.
Lemma lines_fine : forall g, sound g -> Forall fine_line (lines_of g).
Proof.
  intros g [N S]. unfold lines_of. apply Forall_app. split; [|apply Forall_app; split].
  - rewrite numbers_spec, map_map. apply Forall_map. apply Forall_forall. intros k _. simpl. lia.
  - apply Forall_map. eapply Forall_impl; [|exact S]. intros [a b]; simpl; lia.
  - constructor; [exact Logic.I|constructor].
Qed.
(** The file tells the graph: two graphs with the same file have as many vertices and the same edges in
    the same order. *)
Theorem C119_file : forall g g', sound g -> sound g' -> writeGraphViz g = writeGraphViz g' -> g = g'.
Proof.
  intros g g' S S' E. rewrite !text_lines in E. do 2 apply app_inv_head in E. apply lines_split in E; auto using lines_fine.
  unfold lines_of in E.
  assert (X : forall a b c d, map LVertex a ++ map LEdge b ++ [LEnd] = map LVertex c ++ map LEdge d ++ [LEnd] -> a = c /\ b = d).
  { induction a as [|x a IH]; intros b [|y c] d H; simpl in H.
    - split; auto. revert d H. induction b as [|z b IH]; intros [|w d] H; simpl in H; auto; inversion H; subst; auto. f_equal. auto.
    - destruct b; discriminate.
    - destruct d; discriminate.
    - inversion H; subst. destruct (IH b c d) as [-> ->]; auto. }
  apply X in E as [En Ee]. destruct g as [n es], g' as [n' es']. simpl in *. subst es'. f_equal. apply (f_equal (@length _)) in En. rewrite !numbers_spec, !map_length, !seq_length in En. destruct S, S'. simpl in *. lia.
Qed.
(** Line by line. *)
Theorem C119_lines : forall g, writeGraphViz g = txt "digraph G {" ++ [10] ++ List.concat (map (fun k => dec (Z.of_nat k) ++ txt ";" ++ [10]) (seq 0 (Z.to_nat (g_n g)))) ++
  List.concat (map (fun e => dec (fst e) ++ txt "->" ++ dec (snd e) ++ txt " ;" ++ [10]) (g_edges g)) ++ txt "}" ++ [10].
Proof. intros g. unfold writeGraphViz. rewrite numbers_spec, map_map. reflexivity. Qed.

(** The calls of test-graph.cpp: the vertices are 0, 1 and 2, as in test-graph-ref.txt. *)
Definition test_uses : list use := [UVertex; UVertex; UVertex; UEdge 0 1; UEdge 0 1; UEdge 1 2; UEdge 2 0; UEdge 0 2].
Example C119_example :
  Forall (proper_use 1000) test_uses /\
  uses 1000 test_uses new_graph = Ok ([0; 1; 2], {| g_n := 3; g_edges := [(0, 1); (0, 1); (1, 2); (2, 0); (0, 2)] |}) /\
  sound {| g_n := 3; g_edges := [(0, 1); (0, 1); (1, 2); (2, 0); (0, 2)] |} /\
  writeGraphViz {| g_n := 2; g_edges := [(1, 0)] |} = txt "digraph G {" ++ [10] ++ txt "0;" ++ [10] ++ txt "1;" ++ [10] ++ txt "1->0 ;" ++ [10] ++ txt "}" ++ [10] /\
  uses 1000 [UEdge 0 5; UVertex] new_graph = Ok ([6], {| g_n := 7; g_edges := [(0, 5)] |}) /\
  addEdge 1000 {| g_n := 2; g_edges := [(1, 0)] |} 0 (-1) = UB OutOfBounds.
Proof.
  split; [|split; [reflexivity|split; [|repeat split]]].
  - unfold test_uses. repeat constructor; simpl; lia.
  - split; simpl; [lia|]. repeat constructor; simpl; lia.
Qed.
