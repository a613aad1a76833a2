(** Properties C46, C47, C68 - C70: XML files. *)
From Coq Require Import ZArith Bool List String Lia Permutation Sorting.
From Verif Require Import Base StrModel StrSpec StrProof Utf8Proof LineProof StrProps ValModel ValSpec ValProof ValProps JsonModel JsonProof XmlModel XmlSpec XmlProof.
Import ListNotations.
Local Open Scope list_scope.
Local Open Scope Z_scope.
Local Notation length := List.length.

(** C46: the escaped text has no markup character except in the five entities, and the
    only text it denotes is the original. *)
Theorem C46_escape : forall s,
  Forall (fun c => ~ In c [60; 62; 39; 34]) (escape_str s) /\
  (forall t, denotes (escape_str s) t <-> t = s).
Proof.
  intros s. split; [apply escape_clean|]. intros t. split; intros H.
  - eapply denotes_fun; eauto. apply escape_denotes.
  - subst. apply escape_denotes.
Qed.
(** Different texts have different escaped forms. *)
Theorem C46_injective : forall s t, escape_str s = escape_str t -> s = t.
Proof. intros s t E. apply (denotes_fun (escape_str s)); [apply escape_denotes|]. rewrite E. apply escape_denotes. Qed.
Example C46_example : escape_str (txt "a<b & ""c""") = txt "a&lt;b &amp; &quot;c&quot;" /\
  escape_str (txt "&lt;") = txt "&amp;lt;".
Proof. split; reflexivity. Qed.

(** C47: the events of a document make the reader build that document. *)
Theorem C47_reads_document : forall n, is_elem n -> atts_ok n ->
  exists st id, xml_parse (events n) = Ok (st, Some id) /\ holds st (IElem id) n.
Proof.
  intros [s|name atts kids] H Ha; [destruct H|]. destruct (read_document name atts kids Ha) as (st & id & E & Hh).
  exists st, id. unfold xml_parse. rewrite E. split; auto.
Qed.
(** An unfinished document is rejected, unless nothing at all was read. *)
Theorem C47_unclosed_rejected : forall n p q, is_elem n -> atts_ok n -> events n = p ++ q -> q <> [] ->
  xml_parse p = match p with [] => Ok ([], None) | _ => Throw "xmlfile::parse(): Short file?" end.
Proof.
  intros [s|name atts kids] p q H Ha E Hq; [destruct H|].
  destruct (read_document name atts kids Ha) as (st & id & Ed & _). rewrite E, handles_app in Ed.
  apply obind_ok in Ed. destruct Ed as (s1 & E1 & _). unfold xml_parse.
  destruct p as [|e p]; [reflexivity|]. rewrite E1. cbn [obind].
  pose proof (handles_depth _ _ _ E1) as D. pose proof (prefix_open _ _ _ _ _ E ltac:(discriminate) Hq) as Hp.
  unfold stack_size in D. cbn [xs_init xs_stack] in D.
  destruct (xs_stack s1) as [[|t r]|]; auto; cbn [List.length] in D; lia.
Qed.
(** An end tag closes the innermost open element exactly if it has its name. *)
Theorem C47_end_tag : forall st top rest root e n m, nth_error st top = Some e -> x_name e = vstr n ->
  end_element {| xs_store := st; xs_stack := Some (top :: rest); xs_root := root |} m =
  if list_eq_dec Z.eq_dec n m then Ok {| xs_store := st; xs_stack := Some rest; xs_root := root |}
  else Throw "Expat::endElementHandler: malformed xml".
Proof.
  intros. unfold end_element. cbn [xs_stack xs_store xs_root]. rewrite H, H0, vneq_str. cbn [obind].
  destruct (list_eq_dec Z.eq_dec n m); reflexivity.
Qed.
Definition sample : node :=
  Elem (txt "a") [(txt "z", txt "1"); (txt "b", txt "2")]
    [Text (txt "hi"); Elem (txt "c") [] [Elem (txt "d") [] []]; Text (txt "text")].
Example C47_example : is_elem sample /\ atts_ok sample /\ names_ok sample /\
  xml_parse (events sample) =
    Ok ([{| x_name := vstr (txt "a"); x_attr := VMap [(vstr (txt "b"), vstr (txt "2")); (vstr (txt "z"), vstr (txt "1"))];
            x_data := [IText (txt "hi"); IElem 1; IText (txt "text")] |};
         {| x_name := vstr (txt "c"); x_attr := VNil; x_data := [IElem 2] |};
         {| x_name := vstr (txt "d"); x_attr := VNil; x_data := [] |}], Some 0%nat) /\
  xml_parse (firstn 3 (events sample)) = Throw "xmlfile::parse(): Short file?".
Proof.
  split; [exact I|]. split; [|split; [|split; vm_compute; reflexivity]].
  - unfold sample. repeat constructor; try (cbn; unfold nul_free; cbn; intuition discriminate);
      match goal with H : In _ _ |- _ => cbn in H; intuition lia end.
  - unfold sample. repeat constructor; cbn; try discriminate; unfold name_char; cbn; intuition discriminate.
Qed.

(** C68: the pieces given to the parser are the lines without their ends, so that the
    parser sees the file without line breaks, and with a byte 0xFF (-1) after a last line
    that is not terminated. *)
Theorem C68_feed : forall content, exists ps, xml_feed content = Ok ps /\
  List.concat ps = filter (fun c => negb (c =? 10)) content ++
                   (if (last content 10 =? 10) then [] else [-1]).
Proof.
  intros content. destruct (lines_decompose content) as (ls & rest & -> & H1 & H2).
  exists (ls ++ match rest with [] => [] | _ => [rest ++ [-1]] end).
  split; [apply txt_read_spec; auto|]. rewrite filter_app, concat_app.
  assert (F : forall l, ~ In 10 l -> filter (fun c => negb (c =? 10)) l = l).
  { induction l; intros Hn; auto. cbn [filter]. destruct (Z.eqb_spec a 10); [exfalso; apply Hn; simpl; auto|].
    cbn [negb]. f_equal. apply IHl. intro. apply Hn. simpl. auto. }
  assert (FL : filter (fun c => negb (c =? 10)) (lines ls) = List.concat ls).
  { unfold lines. induction H1; auto. cbn [map List.concat]. rewrite !filter_app, F, IHForall by auto.
    cbn [filter]. change (10 =? 10) with true. cbn [negb]. rewrite app_nil_r. reflexivity. }
  rewrite FL, F by auto. rewrite <- app_assoc. f_equal.
  destruct rest as [|c rest]; cbn [app List.concat].
  - rewrite app_nil_r. destruct ls as [|l ls] using rev_ind; [reflexivity|].
    unfold lines. rewrite map_app, concat_app. cbn [map List.concat]. rewrite app_nil_r, app_assoc, last_last. reflexivity.
  - rewrite app_nil_r. f_equal. f_equal.
    assert (L : last (lines ls ++ c :: rest) 10 <> 10).
    { destruct (exists_last (l := c :: rest)) as (r & x & E); [discriminate|]. rewrite E, app_assoc, last_last.
      intros ->. apply H2. rewrite E. apply in_app_iff. simpl. auto. }
    destruct (Z.eqb_spec (last (lines ls ++ c :: rest) 10) 10); [contradiction|reflexivity].
Qed.
(** A tag broken between its name and an attribute is glued together. *)
Example C68_example :
  xml_feed (txt "<a" ++ [10] ++ txt "b='1'/>" ++ [10]) = Ok [txt "<a"; txt "b='1'/>"] /\
  xml_feed (txt "<a/>") = Ok [txt "<a/>" ++ [-1]].
Proof. split; vm_compute; reflexivity. Qed.

(** C69: what the writer writes for a document is a text of the XML grammar for that
    document, preceded by the declaration line and followed by a line end. *)
Theorem C69_writer_grammar : forall n, is_elem n -> names_ok n ->
  exists w, xml_write (as_val n) = Ok (txt "<?xml version=""1.0"" encoding=""UTF-8""?>" ++ [10] ++ w ++ [10]) /\ elem_text w n.
Proof.
  intros [s|name atts kids] H Hn; [destruct H|]. destruct (writes_all _ Hn) as (w & E & Hw).
  exists w. unfold xml_write. rewrite E. split; auto.
Qed.
(** Anything else than a four element array with "text" at position 2 is refused. *)
Theorem C69_not_element : forall v, (forall d t l, v <> VView d t l) ->
  (forall a b c d, v = VArr TVar [a; b; c; d] -> vneq c (vstr (txt "text")) = Ok true) ->
  (forall l, v <> VMap l) ->
  xml_write v = Throw "xmlwriter::write(): Top level not element".
Proof.
  intros v Hv Ha Hm. unfold xml_write. assert (E : write_elem v = Ok None); [|rewrite E; reflexivity].
  destruct v as [| | | | | |t l|l|]; try reflexivity; [|destruct (Hm l); auto|destruct (Hv desc t data); auto].
  destruct t; try reflexivity. destruct l as [|a [|b [|c [|d [|]]]]]; try reflexivity.
  cbn [write_elem]. unfold write_parts. rewrite (Ha a b c d) by auto. reflexivity.
Qed.
Example C69_example :
  xml_write (as_val sample) = Ok (declaration ++ [10] ++
    txt "<a z=""1"" b=""2"">hi<c><d /></c>text</a>" ++ [10]) /\
  xml_write (vstr (txt "text")) = Throw "xmlwriter::write(): Top level not element".
Proof. split; vm_compute; reflexivity. Qed.

(** C70: attribute values and data that are not strings do not appear in the file; a
    number is written as one NUL byte, and a string used directly as the data of an
    element is written as NUL bytes. *)
Definition scalar_val (v : val) : Prop := vtype v <> 0.
Theorem C70_numbers_lost : forall v, scalar_val v -> escape v = Ok [0].
Proof. intros v H. destruct v; try (exfalso; apply H; reflexivity); reflexivity. Qed.
Theorem C70_bare_data : forall name s, nul_free name ->
  write_elem (VArr TVar [vstr name; VNil; vstr (txt "text"); vstr s]) =
  Ok (Some ([60] ++ name ++ [62] ++ repeat 0 (length s) ++ [60; 47] ++ name ++ [62])).
Proof.
  intros name s Hn. unfold vstr at 3. cbn [write_elem].
  change (map VChar s) with (map VChar s).
  assert (K : kids_loop (map VChar s) = Ok (repeat 0 (length s))).
  { induction s; [reflexivity|]. cbn [map kids_loop List.length repeat write_elem obind escape].
    cbn [map kids_loop] in IHs. rewrite IHs. reflexivity. }
  fold kids_loop. unfold write_parts. rewrite vneq_str.
  destruct (list_eq_dec Z.eq_dec (txt "text") (txt "text")); [|congruence]. cbn [obind].
  unfold vstr at 1. cbn [c_str_of]. rewrite map_char_of, c_str_id by auto. cbn [obind write_attr].
  change (vsize VNil =? 0) with true. cbv iota. cbn [obind vdefined negb]. rewrite K. cbn [obind]. reflexivity.
Qed.
Example C70_example :
  xml_write (VArr TVar [vstr (txt "a"); VMap [(vstr (txt "n"), VInt 5)]; vstr (txt "text"); vstr (txt "hi")]) =
  Ok (declaration ++ [10] ++ txt "<a n=""" ++ [0] ++ txt """>" ++ [0; 0] ++ txt "</a>" ++ [10]).
Proof. vm_compute. reflexivity. Qed.

Print Assumptions C46_escape.
Print Assumptions C46_injective.
Print Assumptions C47_reads_document.
Print Assumptions C47_unclosed_rejected.
Print Assumptions C47_end_tag.
Print Assumptions C68_feed.
Print Assumptions C69_writer_grammar.
Print Assumptions C69_not_element.
Print Assumptions C70_numbers_lost.
Print Assumptions C70_bare_data.
