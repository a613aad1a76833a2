(** /repo/lube/graph.cpp, with boost::adjacency_list and boost::write_graphviz written from their
    sources (boost/graph/detail/adjacency_list.hpp, boost/graph/graphviz.hpp). *)
From Coq Require Import ZArith Bool String List.
From Verif Require Import Base StrModel JsonModel.
Import ListNotations.
Local Open Scope Z_scope.
Local Open Scope list_scope.
Local Open Scope out_scope.

(** graph.cpp 17-25: vertices are numbered, [g_n] is their number, edges are in a list in the order
    they were added, also between the same vertices (vecS).  The property of a vertex or an edge is
    a var, undefined, as nothing sets it. *)
Record graph := mkgraph { g_n : Z; g_edges : list (Z * Z) }.
Definition new_graph : graph := {| g_n := 0; g_edges := [] |}.

(** graph.cpp 54-60: [add_vertex]. *)
Definition addVertex (g : graph) : Z * graph := (g_n g, {| g_n := g_n g + 1; g_edges := g_edges g |}).
(** An [ind] as a vertex_descriptor, an unsigned number of 64 bits. *)
Definition unsigned (i : Z) : Z := i mod 2 ^ 64.
(** graph.cpp 47-52: [add_edge].  The vertices are made up to the larger of the two, x: the new
    number of vertices x + 1 is computed in 64 bits, and the vector refuses one above [limit],
    its max_size or the memory there is.  Then the edge is put in the lists of its ends. *)
Definition addEdge (limit : Z) (g : graph) (i j : Z) : outcome graph :=
  let u := unsigned i in
  let v := unsigned j in
  let x := Z.max u v in
  let* n := (if g_n g <=? x then
               let n := unsigned (x + 1) in
               if limit <? n then Throw "vector::_M_default_append" else Ok n
             else Ok (g_n g)) in
  if (n <=? u) || (n <=? v) then UB OutOfBounds
  else Ok {| g_n := n; g_edges := g_edges g ++ [(u, v)] |}.

(** graph.cpp 62-86: [LabelWriter] writes nothing for a var that has no NAME, and
    [write_graphviz] one line for each vertex and then for each edge. *)
Definition vertex_line (v : Z) : str := dec v ++ txt ";" ++ [10].
Definition edge_line (e : Z * Z) : str := dec (fst e) ++ txt "->" ++ dec (snd e) ++ txt " ;" ++ [10].
Fixpoint numbers (n : nat) (i : Z) : list Z := match n with O => [] | S n => i :: numbers n (i + 1) end.
Definition writeGraphViz (g : graph) : str :=
  txt "digraph G {" ++ [10] ++ List.concat (map vertex_line (numbers (Z.to_nat (g_n g)) 0)) ++ List.concat (map edge_line (g_edges g)) ++ txt "}" ++ [10].
