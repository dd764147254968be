(* Model_Tree.v -- combinatorial/labeled_tree.hpp, combinatorial/PrefixTree.hpp, combinatorial/int_tree.hpp,
   containers/auto_array.hpp. *)
From Verif Require Import Base Model_Index Model_Containers.
Local Open Scope Z_scope.

Section Trees.
Context {A : Type} (eqb : A -> A -> bool).

(* PrefixTree, PrefixTree.hpp:25-34: a map from labels to subtrees, here in order of insertion (the hash table's own order is
   dealt with where trees are traversed).  labeled_tree, labeled_tree.hpp:23-43, is a label together with such a list of
   labelled subtrees.  Subtrees are owned, so they are held by value. *)
Inductive tree := Tree (kids : list (A * tree)).
Definition kids (t : tree) : list (A * tree) := let 'Tree k := t in k.
Definition ltree : Type := (A * tree)%type.

(* branchp(x), labeled_tree.hpp:89-93; branch(x), PrefixTree.hpp:85-89 *)
Fixpoint branch (x : A) (ks : list (A * tree)) : option tree :=
  match ks with [] => None | (k, t) :: ks => if eqb k x then Some t else branch x ks end.
(* branch(x) followed by an update f of the branch it refers to, labeled_tree.hpp:95-101; get_branch(x), PrefixTree.hpp:91-96 *)
Fixpoint with_branch (x : A) (f : tree -> tree) (ks : list (A * tree)) : list (A * tree) :=
  match ks with [] => [(x, f (Tree []))] | (k, t) :: ks => if eqb k x then (k, f t) :: ks else (k, t) :: with_branch x f ks end.
(* add_rooted_path(x), labeled_tree.hpp:107-110; add_path(x), PrefixTree.hpp:98-101 *)
Fixpoint add_path (x : list A) (t : tree) : tree :=
  match x with [] => t | a :: x => Tree (with_branch a (add_path x) (kids t)) end.
Definition ladd (x : list A) (t : ltree) : ltree := (fst t, add_path x (snd t)).
(* contains(x), labeled_tree.hpp:120-125; find(x), PrefixTree.hpp:59-64 *)
Fixpoint find_path (x : list A) (t : tree) : bool :=
  match x with [] => true | a :: x => match branch a (kids t) with None => false | Some t => find_path x t end end.
Definition lcontains (x : list A) (t : ltree) : bool := find_path x (snd t).

(* for_each_maximal_path, labeled_tree.hpp:169-180: the list of arguments the callback receives *)
Fixpoint maximal (t : tree) (prefix : list A) : list (list A) :=
  let 'Tree ks := t in
  match ks with [] => [prefix] | _ => flat_map (fun kt => maximal (snd kt) (prefix ++ [fst kt])) ks end.
Definition lmaximal (t : ltree) : list (list A) := maximal (snd t) ([] ++ [fst t]).
(* for_each_maximal_path, PrefixTree.hpp:103-115: the hash table may be walked in any order *)
Inductive visits : tree -> list A -> list (list A) -> Prop :=
| visits_leaf p : visits (Tree []) p [p]
| visits_node ks ks' p Ls : ks <> [] -> Permutation ks' ks -> Forall2 (fun kt L => visits (snd kt) (p ++ [fst kt]) L) ks' Ls -> visits (Tree ks) p (concat Ls).

(* contains_rooted_path_consisting_of(set), labeled_tree.hpp:132-148; the set is a list without repetitions *)
Definition set_erase (x : A) (s : list A) : list A := filter (fun y => negb (eqb y x)) s.
Fixpoint consists_t (t : tree) (l : A) (s : list A) : bool :=
  if existsb (eqb l) s then
    if (Z.of_nat (length s) =? 1) then true
    else let 'Tree ks := t in existsb (fun kt => consists_t (snd kt) (fst kt) (set_erase l s)) ks
  else false.
(* vector version, :127-130: the set of the entries *)
Fixpoint to_set (x : list A) : list A := match x with [] => [] | a :: x => if existsb (eqb a) x then to_set x else a :: to_set x end.
Definition lconsists (x : list A) (t : ltree) : bool := consists_t (snd t) (fst t) (to_set x).

(* depth_first, labeled_tree.hpp:182-187 *)
Fixpoint depth_first_t (t : tree) (l : A) : list A := let 'Tree ks := t in l :: flat_map (fun kt => depth_first_t (snd kt) (fst kt)) ks.
Definition depth_first (t : ltree) : list A := depth_first_t (snd t) (fst t).
(* indexed_depth_first(lambda,ix,old), labeled_tree.hpp:189-196: the callback arguments and the returned count *)
Fixpoint idf_t (t : tree) (l : A) (ix old : Z) : list (A * Z) * Z :=
  let 'Tree ks := t in
  (fix go (ks : list (A * tree)) (out : list (A * Z)) (j : Z) : list (A * Z) * Z :=
     match ks with [] => (out, j) | kt :: ks => let '(o, n) := idf_t (snd kt) (fst kt) (ix + j) ix in go ks (out ++ o) (j + n) end) ks [(l, old)] 1.
Definition indexed_depth_first (t : ltree) : list (A * Z) := fst (idf_t (snd t) (fst t) 0 (-1)).
End Trees.
Arguments tree A : clear implicits.
Arguments ltree A : clear implicits.

(* ---- auto_array<int>: abuf is the allocated array (memsize its length), asz is _size ---- *)
Record aarr := AArr { abuf : buf; asz : Z }.
(* auto_array(), auto_array.hpp:39-43; auto_array(n), :45-49 *)
Definition aa_new : aarr := AArr (bnew 1) 0.
Definition aa_sized (n : Z) : aarr := AArr (bnew n) n.
(* copy constructor, :55-59: allocates but copies no entry *)
Definition aa_copy (a : aarr) : aarr := AArr (bnew (blen (abuf a))) (asz a).
(* reserve(x), :77-85 *)
Definition aa_reserve (x : Z) (a : aarr) : res aarr :=
  if x <=? blen (abuf a) then Ok a
  else do b <- bcopy (abuf a) (blen (abuf a)) (bnew (Z.max x (2 * blen (abuf a)))) 0; Ok (AArr b (asz a)).
(* resize(n), :72-75 *)
Definition aa_resize (n : Z) (a : aarr) : res aarr :=
  do a <- (if blen (abuf a) <? n then aa_reserve n a else Ok a); Ok (AArr (abuf a) n).
(* get(i) and operator[](i), :95-108: beyond the end the array grows first; a negative index is a huge size_t *)
Definition aa_get (i : Z) (a : aarr) : res (Z * aarr) :=
  do a <- (if asz a <=? i then aa_resize (i + 1) a else Ok a); do v <- bget (abuf a) i; Ok (v, a).
(* set(i,x), :110-113 *)
Definition aa_set (i x : Z) (a : aarr) : res aarr :=
  do a <- (if asz a <=? i then aa_resize (i + 1) a else Ok a); do b <- bput (abuf a) i x; Ok (AArr b (asz a)).

(* ---- int_tree: node n at p: label, number of children, parent, then the positions of the children ---- *)
(* for(i<n) set(at+i,-1) *)
Definition clear_slots (at_ n : Z) (a : aarr) : res aarr := forZ n (fun i a => aa_set (at_ + i) (-1) a) a.
(* add_root(v,n), int_tree.hpp:146-155 *)
Definition add_root (v n : Z) (a : aarr) : res aarr :=
  assrt (asz a =? 0) (do a <- aa_resize (n + 3) a; do a <- aa_set 0 v a; do a <- aa_set 1 n a; do a <- aa_set 2 (-1) a; clear_slots 3 n a).
(* add_node(parent,i,v,n), :157-171: the position of the new node and the array *)
Definition add_node (parent i v n : Z) (a : aarr) : res (Z * aarr) :=
  do ' (m, a) <- aa_get (parent + 1) a; assrt (i <? m)
  (do ' (s, a) <- aa_get (parent + i + 3) a; assrt (s =? -1)
   (let tail := asz a in
    do a <- aa_set (parent + i + 3) tail a; do a <- aa_resize (tail + n + 3) a;
    do a <- aa_set tail v a; do a <- aa_set (tail + 1) n a; do a <- aa_set (tail + 2) parent a; do a <- clear_slots (tail + 3) n a; Ok (tail, a))).
(* labeled_tree::as_int_tree, labeled_tree.hpp:65-83: children of the node at p are added in turn, each with its subtree *)
Definition nkids {A} (t : tree A) : Z := Z.of_nat (length (kids t)).
Fixpoint ser (t : tree Z) (p : Z) (a : aarr) : res aarr :=
  let 'Tree ks := t in
  (fix go (ks : list (Z * tree Z)) (i : Z) (a : aarr) : res aarr :=
     match ks with [] => Ok a | kt :: ks => do ' (q, a) <- add_node p i (fst kt) (nkids (snd kt)) a; do a <- ser (snd kt) q a; go ks (i + 1) a end) ks 0 a.
Definition as_int_tree (t : ltree Z) : res aarr := do a <- add_root (fst t) (nkids (snd t)) aa_new; ser (snd t) 0 a.
(* reading in place.  Simplification: growth caused by reading beyond the end is dropped (it changes no entry). *)
Definition aa_read (a : aarr) (i : Z) : res Z := do vb <- aa_get i a; Ok (fst vb).
(* traverse(lambda,p), int_tree.hpp:173-178, where lambda records position, label, number of children and parent of the node;
   k bounds the depth *)
Fixpoint traverse (k : nat) (a : aarr) (p : Z) : res (list (Z * Z * Z * Z)) :=
  match k with
  | O => UB
  | S k =>
    do l <- aa_read a p; do n <- aa_read a (p + 1); do par <- aa_read a (p + 2);
    forZ n (fun i out => do q <- aa_read a (p + 3 + i); do o <- traverse k a q; Ok (out ++ o)) [(p, l, n, par)]
  end.
(* depth_first_traversal(p,r), :184-195 *)
Fixpoint int_depth_first (k : nat) (a : aarr) (p : Z) : res (list Z) :=
  match k with
  | O => UB
  | S k =>
    do l <- aa_read a p; do n <- aa_read a (p + 1);
    forZ n (fun i out => do q <- aa_read a (p + 3 + i); do o <- int_depth_first k a q; Ok (out ++ o)) [l]
  end.
