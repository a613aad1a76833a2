(** Properties of listings of directories (path.cpp). *)
From Coq Require Import ZArith Bool List Lia ZifyBool String Permutation.
From Verif Require Import Base ValModel ValSpec ValProof ValProps StrModel StrSpec StrProof JsonModel IniModel MapProof IniProof PathModel PathSpec PathProof.
Import ListNotations.
Local Notation length := List.length.
Local Open Scope list_scope.
Local Open Scope Z_scope.

Lemma map_join_distinct : forall p es, NoDup (map fst es) -> (forall x n, In (x, n) es -> name_ok x /\ wf n) -> NoDup (map (fun e => join p (fst e)) es).
Proof.
  intros p es D A. induction es as [|[x n] es IH]; [constructor|]. inversion D as [|? ? D1 D2]; subst. cbn [map fst] in *. constructor; [|apply IH; auto; intros; eapply A; right; eauto].
  intros X. apply in_map_iff in X. destruct X as ([y m] & E & Hin). cbn [fst] in E. apply D1.
  assert (y = x).
  { apply (join_inj p y x [] []); try (left; reflexivity); [apply (A y m); right; auto|apply (A x n); left; auto|rewrite !app_nil_r; auto]. }
  subst y. apply (in_map fst) in Hin. auto.
Qed.
(** C93: dir gives the entries of a directory by their paths, with nil or their parts. *)
Theorem C93_dir : forall p es iVal, path_ok p -> wf (Dir es) -> es <> [] ->
  exists m, dir p (Some (Dir es)) iVal = Ok (VMap m) /\ sorted_map m /\ (forall k, In k (map fst m) <-> exists x, In x (map fst es) /\ k = vstr (slash p x)) /\
    forall x n, In (x, n) es -> exists v, at_var (RVar (VMap m)) (vstr (slash p x)) = Ok v /\ (iVal = false -> v = VNil) /\ (iVal = true -> parts p x v).
Proof.
  intros p es iVal (P1 & P2 & P3) W Hn. inversion W as [|? D A]; subst.
  destruct (enters_map iVal (map (fun e => join p (fst e)) es)) as (m & E & S & K & V).
  - destruct es; [congruence|discriminate].
  - apply map_join_distinct; auto.
  - apply Forall_map, Forall_forall. intros [x n] Hin. cbn [fst]. destruct (A x n Hin) as [(_ & X2 & X3 & _) _]. apply join_text; split; auto.
  - exists m. split; [exact E|]. split; auto. split.
    + intros k. rewrite K. split.
      * intros (q & Hq & ->). apply in_map_iff in Hq. destruct Hq as (e & <- & He). exists (fst e). split; [apply in_map; auto|rewrite join_slash; auto].
      * intros (x & Hx & ->). apply in_map_iff in Hx. destruct Hx as (e & <- & He). exists (join p (fst e)). split; [apply in_map_iff; eauto|rewrite join_slash; auto].
    + intros x n Hin. eexists. split; [rewrite <- join_slash; apply V; apply in_map_iff; exists (x, n); auto|]. split; intros ->; auto. apply bits_parts; auto. apply (A x n Hin).
Qed.
Theorem C93_dir_other : forall p iVal, dir p (Some (Dir [])) iVal = Ok VNil /\ dir p None iVal = Throw "dir: path doesn't exist" /\ exists t, dir p (Some File) iVal = Throw t.
Proof. intros p iVal. split; auto. split; auto. eexists. reflexivity. Qed.
(** rdir gives everything below a directory. *)
Theorem C93_rdir : forall p es iVal, path_ok p -> wf (Dir es) -> es <> [] ->
  exists m, rdir p (Some (Dir es)) iVal = Ok (VMap m) /\ sorted_map m /\ (forall k, In k (map fst m) <-> exists xs n, leads (Dir es) xs n /\ k = vstr (full p xs)) /\
    forall xs x n, leads (Dir es) (xs ++ [x]) n -> exists v, at_var (RVar (VMap m)) (vstr (full p (xs ++ [x]))) = Ok v /\ (iVal = false -> v = VNil) /\ (iVal = true -> parts (full p xs) x v).
Proof.
  intros p es iVal P W Hn.
  assert (T : Forall text_ok (below p (Dir es))).
  { apply Forall_forall. intros q Hq. apply below_leads in Hq. destruct Hq as (xs & n & Hl & ->). destruct (full_ok xs p P (leads_names _ _ _ W Hl)) as (_ & A & B). split; auto. }
  destruct (enters_map iVal (below p (Dir es))) as (m & E & S & K & V); auto.
  - destruct es as [|[x n] es]; [congruence|]. rewrite below_dir. discriminate.
  - apply below_distinct. auto.
  - exists m. split; [exact E|]. split; auto. split.
    + intros k. rewrite K. split.
      * intros (q & Hq & ->). apply below_leads in Hq. destruct Hq as (xs & n & Hl & ->). eauto.
      * intros (xs & n & Hl & ->). exists (full p xs). split; auto. apply below_leads. eauto.
    + intros xs x n Hl. eexists. split; [apply V; apply below_leads; eauto|]. split; intros ->; auto.
      pose proof (leads_names _ _ _ W Hl) as Nm. apply Forall_app in Nm. destruct Nm as [N1 N2]. inversion N2; subst. destruct (full_ok xs p P N1) as (A & _ & B).
      unfold full. rewrite fold_left_app. cbn [fold_left]. rewrite <- join_slash. apply bits_parts; auto.
Qed.
Theorem C93_rdir_other : forall p iVal, path_ok p -> rdir p (Some (Dir [])) iVal = Ok VNil /\ rdir p None iVal = Throw "rdir: path doesn't exist" /\
  rdir p (Some File) iVal = Ok (VMap [(vstr p, if iVal then bits p else VNil)]).
Proof.
  intros p iVal (_ & P2 & P3). split; auto. split; auto. cbn [rdir is_directory negb]. unfold enter. rewrite c_str_id by auto.
  cbn [assign]. destruct (map_put_cases (VNil, VNil) [] (vstr p) (if iVal then bits p else VNil) map_ok_nil (vstr_key p (conj P2 P3))) as [(l1 & kk & vv & l2 & E & _)|(l1 & l2 & E & _ & _ & ->)].
  - destruct l1; discriminate.
  - symmetry in E. apply app_eq_nil in E. destruct E as [-> ->]. reflexivity.
Qed.
(** C94: tree gives nested maps, and does not depend on the order in which the system lists. *)
Theorem C94_tree : forall p es, path_ok p -> wf (Dir es) -> exists v, tree p (Some (Dir es)) = Ok v /\ shows (Dir es) v.
Proof. intros p es (P & _) W. apply (sub_shows (Dir es) p P W). Qed.
Theorem C94_order : forall p p' n n', path_ok p -> path_ok p' -> wf n -> wf n' -> same n n' -> n <> File -> tree p (Some n) = tree p' (Some n').
Proof.
  intros p p' n n' (P & _) (P' & _) W W' S Hn. destruct (sub_shows n p P W) as (v & E & H). destruct (sub_shows n' p' P' W') as (v' & E' & H').
  assert (v = v') by (eapply shows_same; eauto). subst v'. destruct n as [|es]; [congruence|]. inversion S; subst. cbn [tree sub] in *. congruence.
Qed.
Theorem C94_other : forall p, tree p None = Throw "tree: path doesn't exist" /\ exists t, tree p (Some File) = Throw t.
Proof. intros p. split; [reflexivity|eexists; reflexivity]. Qed.

(** A directory with a file, a directory with a file, and an empty directory. *)
Example ex_fs : list (str * node) := [(txt "b.tar.gz", File); (txt "src", Dir [(txt "x", File)]); (txt ".e", Dir [])].
Lemma ex_name : forall x, In x [txt "b.tar.gz"; txt "src"; txt ".e"; txt "x"] -> name_ok x.
Proof.
  intros x H. repeat (destruct H as [<-|H]; [split; [discriminate|split; [intros c Hc; cbn in Hc; intuition lia|split; [intros Hc; cbn in Hc; intuition lia|split; [intros Hc; cbn in Hc; intuition lia|split; discriminate]]]]|]). destruct H.
Qed.
Example ex_fs_wf : wf (Dir ex_fs).
Proof.
  constructor; [repeat (constructor; [cbn; intuition discriminate|]); constructor|].
  intros x n H. split; [apply ex_name; cbn in *; intuition congruence|].
  repeat (destruct H as [H|H]; [injection H as <- <-|]); [constructor| | |destruct H]; constructor.
  - repeat (constructor; [cbn; intuition discriminate|]). constructor.
  - intros x n [H|[]]. injection H as <- <-. split; [apply ex_name; cbn; auto|constructor].
  - constructor.
  - intros x n [].
Qed.
Lemma ex_path : path_ok (txt "d").
Proof. split; [discriminate|]. split; [intros c H|intros H]; cbn in H; intuition lia. Qed.
Example C93_example : dir (txt "d") (Some (Dir ex_fs)) true = Ok (VMap
  [(vstr (txt "d/.e"), VArr TVar [vstr (txt "d"); vstr (txt ".e"); vstr []]);
   (vstr (txt "d/b.tar.gz"), VArr TVar [vstr (txt "d"); vstr (txt "b.tar"); vstr (txt ".gz")]);
   (vstr (txt "d/src"), VArr TVar [vstr (txt "d"); vstr (txt "src"); vstr []])]) /\
  rdir (txt "d") (Some (Dir ex_fs)) false = Ok (VMap
  [(vstr (txt "d/.e"), VNil); (vstr (txt "d/b.tar.gz"), VNil); (vstr (txt "d/src"), VNil); (vstr (txt "d/src/x"), VNil)]) /\
  path_ok (txt "d") /\ wf (Dir ex_fs).
Proof. split; [reflexivity|]. split; [reflexivity|]. split; [apply ex_path|apply ex_fs_wf]. Qed.
Example C94_example : tree (txt "d") (Some (Dir ex_fs)) = Ok (VMap [(vstr (txt ".e"), VNil); (vstr (txt "b.tar.gz"), VNil); (vstr (txt "src"), VMap [(vstr (txt "x"), VNil)])]) /\
  same (Dir ex_fs) (Dir (rev ex_fs)) /\ tree (txt "/other/") (Some (Dir (rev ex_fs))) = tree (txt "d") (Some (Dir ex_fs)).
Proof.
  split; [reflexivity|]. split; [|reflexivity]. apply (same_dir ex_fs (rev ex_fs)); [apply Permutation_rev|].
  assert (R : forall n, same n n).
  { intros n. induction n as [|es IH] using node_rec'; [constructor|]. apply (same_dir es es); [reflexivity|]. induction es as [|[x n] es IHes]; constructor.
    - split; auto. apply (IH x n). left. auto.
    - apply IHes. intros. eapply IH. right. eauto. }
  repeat constructor; auto.
Qed.
