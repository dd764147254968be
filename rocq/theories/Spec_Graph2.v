(* Spec_Graph2.v -- what the named graphs, histories of a graph and placed copies are supposed to be. *)
From Verif Require Import Base Map Model_Containers Model_Graph Model_Graph2 Spec_Graph.
Local Open Scope Z_scope.

(* g is the simple graph on 0..n-1 whose edges, all of weight 1, are the pairs in E, and it reports e edges *)
Definition is_graph (g : graph) (n : Z) (E : Z -> Z -> Prop) (e : Z) : Prop :=
  gn g = n /\ good g /\ (forall i j v, entry i j v (gd g) <-> v = 1 /\ E i j) /\ gnedges g = e.

(* what a program does to a graph: it sets an edge, or asks for the neighbours of a vertex (nneighbors or neighbors) *)
Inductive gop := GSet (i j v : Z) | GAsk (i : Z).
Definition gop_do (g : graph) (o : gop) : graph := match o with GSet i j v => gset i j v g | GAsk i => snd (g_neighbors i g) end.
Definition ghist (n : Z) (os : list gop) : graph := fold_left gop_do os (gnew n).
(* the edges it set; the vertices it mentioned *)
Definition gwrites (os : list gop) : list (Z * Z * Z) := flat_map (fun o => match o with GSet i j v => [(i, j, v)] | GAsk _ => [] end) os.
Definition gmentions (i : Z) (o : gop) : Prop := match o with GSet a b _ => i = a \/ i = b | GAsk a => i = a end.
