(* Model_Graph.v -- combinatorial/sparse_graph.hpp, containers/int_pool.hpp, combinatorial/FindPlantedSubgraphs.hpp,
   combinatorial/labeled_forest.hpp. *)
From Verif Require Import Base Map Model_Containers Model_Tree.
Local Open Scope Z_scope.

(* sparse_graph<int,int,LABEL>, sparse_graph.hpp:29-57.  data is a map_of_maps (Model_Containers.mom) whose tables are lists: a list
   stands for one particular iteration order of the hash tables, and the theorems hold for every order.  labels, when
   present, give each vertex a row of a tensor, here a list; degrees give each vertex a number. *)
Record graph := Graph { gn : Z; gd : mom; glab : option (Z -> list Z); gdeg : option (Z -> Z) }.
Definition gnew (n : Z) : graph := Graph n [] None None.
(* set(i,j,v), :228-231 *)
Definition gset (i j v : Z) (g : graph) : graph := Graph (gn g) (mom_set j i v (mom_set i j v (gd g))) (glab g) (gdeg g).
(* sparse_graph(n,list), :59-78 *)
Definition gof (n : Z) (l : list (Z * Z)) : graph := fold_left (fun g e => gset (fst e) (snd e) 1 g) l (gnew n).
(* is_neighbor, :224-226, which is is_filled of the base class, map_of_maps.hpp:74-80 (it names it unqualified, so a caller that wants
   the code to compile for KEY=int calls is_filled); operator() is inherited, map_of_maps.hpp:82-88 *)
Definition gneighbor (i j : Z) (g : graph) : bool := mom_filled i j (gd g).
Definition gget (i j : Z) (g : graph) : Z := mom_get i j (gd g).
(* nedges, sparse_graph.hpp:208-210 *)
Definition gnedges (g : graph) : Z := Z.quot (mom_size (gd g)) 2.
(* nneighbors, :220-222 and neighbors, :247-253.  Simplification: data[i] creates an empty row when there is none; no lookup
   changes, so the row is not recorded. *)
Definition gnneighbors (i : Z) (g : graph) : Z := Z.of_nat (length (mom_row i (gd g))).
Definition gneighbors (i : Z) (g : graph) : list Z := map fst (mom_row i (gd g)).
(* for_each_edge, :277-283: the arguments of the callback *)
Definition gedges (g : graph) : list (Z * Z * Z) := filter (fun c => fst (fst c) <=? snd (fst c)) (mom_calls (gd g)).

(* ---- int_pool: arr[0]=n, arr[i+1] is where vector i begins, arr[i+2] where it ends ---- *)
Record ipool := IPool { ipn : Z; iparr : buf }.
(* int_pool(n,m), int_pool.hpp:35-41 *)
Definition ip_new (n m : Z) : res ipool := do b <- bput (bnew (n + m + 2)) 0 n; do b <- bput b 1 (n + 2); Ok (IPool n b).
(* size_of(i), :106-109; operator()(i,j), :111-115 *)
Definition ip_size (p : ipool) (i : Z) : res Z := assrt (i <? ipn p) (do e <- bget (iparr p) (i + 2); do b <- bget (iparr p) (i + 1); Ok (e - b)).
Definition ip_get (p : ipool) (i j : Z) : res Z :=
  assrt (i <? ipn p) (do s <- ip_size p i; assrt (j <? s) (do b <- bget (iparr p) (i + 1); bget (iparr p) (b + j))).
(* as_int_pool, sparse_graph.hpp:173-189: the state of the loop is the array and tail *)
Definition ip_row (row : list Z) (bt : buf * Z) : res (buf * Z) :=
  foldM (fun x bt => do b <- bput (fst bt) (snd bt) x; Ok (b, snd bt + 1)) row bt.
Definition as_int_pool (g : graph) : res ipool :=
  do p <- ip_new (gn g) (2 * gnedges g);
  do b <- bput (iparr p) 1 (gn g + 2);
  do bt <- forZ (gn g) (fun i bt => do bt <- ip_row (map fst (mom_row i (gd g))) bt; do b <- bput (fst bt) (i + 2) (snd bt); Ok (b, snd bt)) (b, gn g + 2);
  Ok (IPool (gn g) (fst bt)).
(* sparse_graph(int_pool), :191-198 *)
Definition gof_pool (p : ipool) : res graph :=
  forZ (ipn p) (fun i g => do m <- ip_size p i; forZ m (fun j g => do x <- ip_get p i j; Ok (gset i x 1 g)) g) (gnew (ipn p)).

(* ---- greedy_spanning_tree, sparse_graph.hpp:289-314.  The vector<bool> matched is given by the list of its true positions; an
   index outside 0..n-1 is undefined.  k bounds the depth of the recursion. ---- *)
Definition in_n (n x : Z) : bool := (0 <=? x) && (x <? n).
Fixpoint gst (k : nat) (g : graph) (v : Z) (M : list Z) : res (tree Z * list Z) :=
  match k with
  | O => UB
  | S k =>
    do r <- foldM (fun p (s : list (Z * tree Z) * list Z) =>
      let '(ks, M) := s in
      if snd p =? 0 then Ok (ks, M)
      else if negb (in_n (gn g) (fst p)) then UB
      else if existsb (Z.eqb (fst p)) M then Ok (ks, M)
      else do ' (t, M) <- gst k g (fst p) (fst p :: M); Ok (ks ++ [(fst p, t)], M)) (mom_row v (gd g)) ([], M);
    Ok (Tree (fst r), snd r)
  end.
Definition greedy_spanning_tree (k : nat) (g : graph) (root : Z) : res (ltree Z) :=
  if negb (in_n (gn g) root) then UB else do r <- gst k g root [root]; Ok (root, fst r).

(* ---- FindPlantedSubgraphs ---- *)
(* contains_rooted_path_consisting_of, labeled_forest.hpp:36-47 *)
Definition forest_consists (x : list Z) (f : list (ltree Z)) : bool := existsb (lconsists Z.eqb x) f.
(* labels and degrees, FindPlantedSubgraphs.hpp:90-91: are v of H and w of G acceptable to each other? *)
Definition compatible (G H : graph) (v w : Z) : bool :=
  match glab G, glab H with Some lg, Some lh => if list_eq_dec Z.eq_dec (lg w) (lh v) then true else false | _, _ => true end &&
  match gdeg H with Some d => negb ((0 <=? d v) && negb (gnneighbors w G =? d v)) | None => true end.
(* assignment is a vector of n entries, -1 for none: reading and writing out of range is undefined *)
Definition asg := Z -> Z.
Definition aget (n : Z) (a : asg) (i : Z) : res Z := if in_n n i then Ok (a i) else UB.
Definition aset (n : Z) (a : asg) (i x : Z) : res asg := if in_n n i then Ok (fun j => if j =? i then x else a j) else UB.
(* std::find over the assignment: the first position holding w *)
Definition afind (n : Z) (a : asg) (w : Z) : option Z := find (fun i => a i =? w) (zrange n).
(* :93-98 and :101-107 *)
Definition check_H (G H : graph) (a : asg) (v w : Z) : res bool :=
  foldM (fun p (ok : bool) => if negb ok then Ok false else do x <- aget (gn H) a (fst p); Ok ((x =? -1) || (snd p =? gget w x G))) (mom_row v (gd H)) true.
Definition check_G (G H : graph) (a : asg) (v w : Z) : bool :=
  forallb (fun p => match afind (gn H) a (fst p) with None => true | Some q => snd p =? gget v q H end) (mom_row w (gd G)).
(* The forest `matches' while a node is being grown: the finished trees, then the tree under construction.  ctx lists the
   unfinished ancestors of the node, innermost first, each with its label and its finished children. *)
Definition plug (roots : list (ltree Z)) (ctx : list (Z * list (Z * tree Z))) (cur : ltree Z) : list (ltree Z) :=
  roots ++ [fold_left (fun cur f => (fst f, Tree (snd f ++ [cur]))) ctx cur].
(* make_subtree(node,m), :84-138.  node is the node labelled w in context ctx; the result is None when the function returns false
   (the node is then deleted by the caller) and otherwise the finished subtree.  nb i is G.neighbors(i): the table is copied
   first, so its order need not be that of G.data[i].  k bounds the depth. *)
Fixpoint make_subtree (k : nat) (G H : graph) (nb : Z -> list Z) (T : list (Z * Z)) (roots : list (ltree Z))
    (ctx : list (Z * list (Z * tree Z))) (a : asg) (w m : Z) : res (option (tree Z)) :=
  match k with
  | O => UB
  | S k =>
    assrt (m <? Z.of_nat (length T))
    (do vq <- zget T m; let v := fst vq in
     if negb (compatible G H v w) then Ok None else
     do ok <- check_H G H a v w;
     if negb ok then Ok None else
     if negb (check_G G H a v w) then Ok None else
     do a <- aset (gn H) a v w;
     if m =? gn H - 1 then Ok (if forest_consists (map a (zrange (gn H))) (plug roots ctx (-1, Tree [])) then None else Some (Tree []))
     else
       do nx <- zget T (m + 1); do pq <- zget T (snd nx); do newparent <- aget (gn H) a (fst pq);
       do ks <- foldM (fun w' ks =>
         match afind (gn H) a w' with
         | Some _ => Ok ks
         | None => do r <- make_subtree k G H nb T roots ((w, ks) :: ctx) a w' (m + 1); Ok (match r with None => ks | Some t => ks ++ [(w', t)] end)
         end) (nb newparent) [];
       Ok (match ks with [] => None | _ => Some (Tree ks) end))
  end.
(* constructor, :45-59 *)
Definition find_planted (k : nat) (G H : graph) (nb : Z -> list Z) : res (list (ltree Z)) :=
  do S <- greedy_spanning_tree k H 0;
  let T := indexed_depth_first S in
  forZ (gn G) (fun i roots => do r <- make_subtree k G H nb T roots [] (fun _ => -1) i 0; Ok (match r with None => roots | Some t => roots ++ [(i, t)] end)) [].
(* the rows of the tensor, :69-78: x[i] for i<n of every maximal path, in order *)
Definition planted_rows (n : Z) (f : list (ltree Z)) : res (list (list Z)) :=
  foldM (fun x out => do row <- foldM (fun i r => do e <- zget x i; Ok (r ++ [e])) (zrange n) []; Ok (out ++ [row])) (flat_map lmaximal f) [].
