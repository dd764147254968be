(* Model_Graph2.v -- combinatorial/sparse_graph.hpp: named graphs, matrices, equality, insertion and the other constructors.
   Model_Graph has the tables themselves.  Simplifications: KEY and TYPE are unbounded integers, tensors live on the CPU, and
   random(), whose edges come from a generator, is left out. *)
From Verif Require Import Base Map Model_Containers Model_Index Model_View Model_Tensor Model_Ops Model_RView Model_Graph.
Local Open Scope Z_scope.

(* trivial, edge, triangle, square, sparse_graph.hpp:105-115 *)
Definition g_trivial : graph := gof 1 [].
Definition g_edge : graph := gof 2 [(0, 1)].
Definition g_triangle : graph := gof 3 [(0, 1); (1, 2); (2, 0)].
Definition g_square : graph := gof 4 [(0, 1); (1, 2); (2, 3); (3, 0)].
(* complete(n), sparse_graph.hpp:117-123 *)
Definition g_complete (n : Z) : graph := gof n (flat_map (fun i => map (fun j => (i, j)) (zrange i)) (zrange n)).
(* cycle(n), sparse_graph.hpp:125-131 *)
Definition g_cycle (n : Z) : graph := gof n (map (fun i => (i, i + 1)) (zrange (n - 1)) ++ [(n - 1, 0)]).
(* star(m), sparse_graph.hpp:133-138: vector<pair>(m) throws length_error when m is negative *)
Definition g_star (m : Z) : res graph := if m <? 0 then Throw else Ok (gof (m + 1) (map (fun i => (0, i + 1)) (zrange m))).

(* sparse_graph(list), sparse_graph.hpp:54-57 and :67-70: the number of vertices is one more than the largest of 0 and the ends *)
Definition g_of_list (l : list (Z * Z)) : graph := gof (fold_left (fun t e => Z.max (Z.max (fst e) (snd e)) t) l 0 + 1) l.
(* sparse_graph(n,edges), sparse_graph.hpp:91-99; max() is that of tensors, TensorView_scalar_ops.inc:15-26 *)
Definition g_of_edges (n : Z) (e : view) (m : mem Z) : res graph :=
  match vdims e with
  | [d0; k] =>
      assrt (d0 =? 2)
        (do t <- tv_max (R := ZRing) Z.gtb e m;
         assrt (t <? n) (forZ k (fun i g => do a <- get_at e [0; i] m; do b <- get_at e [1; i] m; Ok (gset a b 1 g)) (gnew n)))
  | _ => Throw
  end.
(* sparse_graph(n,list,L), sparse_graph.hpp:80-88: after the edges, labels=L is an assignment to an empty default tensor, whose list
   of sides must equal that of L (TensorView.hpp:213-218); for an L without axes the assignment writes through a null pointer *)
Definition g_labelled (n : Z) (l : list (Z * Z)) (ldims : list Z) : res graph :=
  let g := gof n l in assrt (eqlb [] ldims) UB.
(* set_labels, sparse_graph.hpp:233-238 and set_degrees, :240-245; lab is the vector of labels *)
Definition g_set_labels (lab : list Z) (g : graph) : res graph :=
  assrt (Z.of_nat (length lab) =? gn g) (Ok (Graph (gn g) (gd g) (Some (fun i => [nth (Z.to_nat i) lab 0])) (gdeg g))).
Definition g_set_degrees (deg : list Z) (g : graph) : res graph :=
  assrt (Z.of_nat (length deg) =? gn g) (Ok (Graph (gn g) (gd g) (glab g) (Some (fun i => nth (Z.to_nat i) deg 0)))).

(* sparse_graph(x), sparse_graph.hpp:156-163 *)
Definition g_of_dense (x : view) (m : mem Z) : res graph :=
  match vdims x with
  | [a; b] => assrt (a =? b) (forZ a (fun i g => forZ (i + 1) (fun j g => do v <- get_at x [i; j] m; Ok (if v =? 0 then g else gset i j v g)) g) (gnew a))
  | _ => Throw
  end.
(* dense(), sparse_graph.hpp:165-170; the new tensor lives in block b *)
Definition g_dense (b : Z) (g : graph) (m : mem Z) : res (view * mem Z) :=
  let r := fresh_view b [gn g; gn g] in
  do m <- foldM (fun c m => put_at r [fst (fst c); snd (fst c)] (snd c) m) (mom_calls (gd g)) (alloc 0 b (asize [gn g; gn g]) m);
  Ok (r, m).

(* data[i] on the mutable table, by nneighbors and neighbors, sparse_graph.hpp:220-222, 247-253: an absent row is created empty *)
Definition mom_touch (i : Z) (m : mom) : mom := match mfind i m with Some _ => m | None => mset i [] m end.
Definition g_touch (i : Z) (g : graph) : graph := Graph (gn g) (mom_touch i (gd g)) (glab g) (gdeg g).
Definition g_nneighbors (i : Z) (g : graph) : Z * graph := (gnneighbors i (g_touch i g), g_touch i g).
Definition g_neighbors (i : Z) (g : graph) : list Z * graph := (gneighbors i (g_touch i g), g_touch i g).
(* operator==, sparse_graph.hpp:263-270, over map_of_maps.hpp:98-124.  Labels and degrees are tensors with one row for each vertex,
   compared by TensorView::operator==. *)
Definition same_upto {A} (eqb : A -> A -> bool) (n : Z) (f g : option (Z -> A)) : bool :=
  match f, g with
  | None, None => true
  | Some f, Some g => forallb (fun i => eqb (f i) (g i)) (zrange n)
  | _, _ => false
  end.
Definition g_eq (g h : graph) : bool :=
  (gn g =? gn h) && same_upto eqlb (gn g) (glab g) (glab h) && same_upto Z.eqb (gn g) (gdeg g) (gdeg h) && mom_eq (gd g) (gd h).

(* insert(H,v), sparse_graph.hpp:255-261 *)
Definition g_insert (H : graph) (v : list Z) (g : graph) : res graph :=
  assrt (forallb (fun p => p <? gn g) v)
    (foldM (fun c g => do a <- zget v (fst (fst c)); do b <- zget v (snd (fst c)); Ok (gset a b (snd c) g)) (gedges H) g).
