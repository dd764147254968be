(* Model_Plan.v -- planning of Einstein sums of any number of tensors: einsum/EinsumHelpers.hpp, einsum/EinsumForm.hpp,
   einsum/ContractionNode.hpp, einsum/ContractionTree.hpp and einsum/ContractionTrees.hpp, and the index sets of
   etree2/ctree_index_set.hpp and etree2/ctree.hpp.  Identifiers, positions and argument numbers are [nat] (they are ints
   that count elements of vectors); strings are lists of characters.  Printing is not modelled. *)
From Coq Require Import Ascii.
From Verif Require Import Base Model_Einsum.
Import ListNotations.
Local Open Scope nat_scope.

Definition str := list ascii.
(* std::string ==, and < (lexicographic, characters as unsigned char) *)
Fixpoint str_eqb (a b : str) : bool :=
  match a, b with [], [] => true | x :: a', y :: b' => Ascii.eqb x y && str_eqb a' b' | _, _ => false end.
Fixpoint str_ltb (a b : str) : bool :=
  match a, b with
  | _, [] => false
  | [], _ :: _ => true
  | x :: a', y :: b' => (nat_of_ascii x <? nat_of_ascii y)%nat || (Ascii.eqb x y && str_ltb a' b')
  end.

(* ---- ix_tuple and ix_set ---- *)
(* ix_tuple::contains, find -- einsum/EinsumHelpers.hpp:31-39 *)
Definition tup_contains (v : list nat) (x : nat) : bool := existsb (Nat.eqb x) v.
Fixpoint tup_pos (v : list nat) (x : nat) : option nat :=
  match v with [] => None | a :: v' => if Nat.eqb x a then Some 0 else option_map S (tup_pos v' x) end.
Definition tup_find (v : list nat) (x : nat) : res nat := match tup_pos v x with Some i => Ok i | None => Throw end.
(* v[i]=x *)
Fixpoint set_nth {A} (i : nat) (x : A) (v : list A) : list A :=
  match v, i with [], _ => [] | _ :: v', O => x :: v' | a :: v', S i' => a :: set_nth i' x v' end.
(* ix_tuple::unpack(mapping) -- einsum/EinsumHelpers.hpp:41-51: mapping[i] are the positions of the i'th element.  Reading an
   element beyond the tuple is undefined *)
Definition unpack (v : list nat) (mapping : list (list nat)) : res (list nat) :=
  let n := fold_left (fun n q => if (n <=? q)%nat then S q else n) (concat mapping) 0 in
  foldM (fun p r => do x <- vget v (fst p); Ok (fold_left (fun r q => set_nth q x r) (snd p) r))
    (combine (seq 0 (length mapping)) mapping) (repeat 0 n).
(* ix_tuple::operator< -- einsum/EinsumHelpers.hpp:53-62 *)
Fixpoint tup_lex (v w : list nat) : bool :=
  match v, w with a :: v', b :: w' => (a <? b)%nat || ((a =? b)%nat && tup_lex v' w') | _, _ => false end.
Definition tup_lt (v w : list nat) : bool :=
  (length v <? length w)%nat || ((length v =? length w)%nat && tup_lex v w).
(* ix_set: std::set<int> as a sorted list without repetitions; insert, and ix_set(vector) -- einsum/EinsumHelpers.hpp:99-102 *)
Fixpoint set_insert (x : nat) (s : list nat) : list nat :=
  match s with [] => [x] | a :: s' => if (x <? a)%nat then x :: s else if (x =? a)%nat then s else a :: set_insert x s' end.
Definition set_of (v : list nat) : list nat := fold_left (fun s x => set_insert x s) v [].
(* ix_set::order(loop_order) -- einsum/EinsumHelpers.hpp:129-134 *)
Definition set_order (s : list nat) (lo : list nat) : list nat := filter (tup_contains s) lo.

(* ---- EinsumForm ---- *)
(* the labels of the axes of one tensor, in order: a character, or a string in parentheses -- einsum/EinsumForm.hpp:135-146.
   [o] holds the characters read since an open parenthesis, in reverse *)
Fixpoint labels (s : str) (o : option str) : res (list str) :=
  match s, o with
  | [], None => Ok []
  | [], Some _ => Throw
  | c :: s', None => if Ascii.eqb c "("%char then labels s' (Some []) else do l <- labels s' None; Ok ([c] :: l)
  | c :: s', Some t => if Ascii.eqb c ")"%char then do l <- labels s' None; Ok (rev t :: l) else labels s' (Some (c :: t))
  end.
(* r[k].push_back(i) on a map<string,vector<int> >, a list sorted by its keys -- einsum/EinsumForm.hpp:137, :143 *)
Fixpoint map_push (k : str) (i : nat) (r : list (str * list nat)) : list (str * list nat) :=
  match r with
  | [] => [(k, [i])]
  | (k', v) :: r' => if str_eqb k k' then (k', v ++ [i]) :: r' else if str_ltb k k' then (k, [i]) :: r else (k', v) :: map_push k i r'
  end.
Definition group (l : list str) : list (str * list nat) :=
  fold_left (fun r p => map_push (snd p) (fst p) r) (combine (seq 0 (length l)) l) [].
(* dict: dict[tokens[i]]==i, so it is the search in tokens *)
Fixpoint tok_pos (t : str) (tokens : list str) : option nat :=
  match tokens with [] => None | a :: l => if str_eqb t a then Some 0 else option_map S (tok_pos t l) end.
(* the numbering of the labels -- einsum/EinsumForm.hpp:148-159 *)
Definition number (t : str) (tokens : list str) : nat * list str :=
  match tok_pos t tokens with Some i => (i, tokens) | None => (length tokens, tokens ++ [t]) end.
Fixpoint number_all (g : list (str * list nat)) (tokens : list str) : list nat * list (list nat) * list str :=
  match g with
  | [] => ([], [], tokens)
  | (t, v) :: g' => let '(i, tk) := number t tokens in let '(a, mp, tk') := number_all g' tk in (i :: a, v :: mp, tk')
  end.
(* tokenize(str) -- einsum/EinsumForm.hpp:129-162 *)
Definition tokenize (s : str) (tokens : list str) : res (list nat * list (list nat) * list str) :=
  do l <- labels s None; Ok (number_all (group l) tokens).
(* the tensors left of the arrow -- einsum/EinsumForm.hpp:50-57: a piece ends at a comma; what follows the last comma counts only if it is
   not empty.  [cur] holds the piece so far, in reverse *)
Fixpoint pieces (s : str) (cur : str) : list str :=
  match s with
  | [] => match cur with [] => [] | _ => [rev cur] end
  | c :: s' => if Ascii.eqb c ","%char then rev cur :: pieces s' [] else pieces s' (c :: cur)
  end.
Record form := Form { tokens : list str; args : list (list nat); maps : list (list (list nat)); occ : list (list nat);
  summations : list (list nat); transfers : list (list (nat * nat)); contr : list nat; conv : list nat }.
(* tokenizing the result and the other tensors -- einsum/EinsumForm.hpp:59-67 *)
Fixpoint tokenize_all (ss : list str) (tokens : list str) : res (list (list nat) * list (list (list nat)) * list str) :=
  match ss with
  | [] => Ok ([], [], tokens)
  | s :: ss' => do t1 <- tokenize s tokens; let '(a, mp, tk) := t1 in do t2 <- tokenize_all ss' tk; let '(al, ml, tk') := t2 in Ok (a :: al, mp :: ml, tk')
  end.
(* occurrences[i] -- einsum/EinsumForm.hpp:69-73 *)
Definition occ_of (al : list (list nat)) (i : nat) : list nat :=
  map fst (filter (fun p => tup_contains (snd p) i) (combine (seq 0 (length al)) al)).
(* a token "c?" -- einsum/EinsumForm.hpp:88 *)
Definition conv_token (t : str) : bool := match t with [c; _] => Ascii.eqb c "c"%char | _ => false end.
(* v[j].push_back(x) *)
Definition push_nth {A} (j : nat) (x : A) (v : list (list A)) : list (list A) :=
  match nth_error v j with Some l => set_nth j (l ++ [x]) v | None => v end.
(* the loop sorting the tokens into the four lists -- einsum/EinsumForm.hpp:78-106 *)
Definition classify (i : nat) (F : form) : res form :=
  do o <- vget (occ F) i; do t <- vget (tokens F) i;
  match o with
  | [] => UB
  | [j] => do a <- vget (args F) j; do k <- tup_find a i;
      Ok (Form (tokens F) (args F) (maps F) (occ F) (push_nth j k (summations F)) (transfers F) (contr F) (conv F))
  | j :: _ =>
      if (j =? 0)%nat then
        if conv_token t then
          assrt (length o =? 3)%nat (Ok (Form (tokens F) (args F) (maps F) (occ F) (summations F) (transfers F) (contr F) (conv F ++ [i])))
        else
          do v <- foldM (fun q v => do a <- vget (args F) q; do k <- tup_find a i; Ok (v ++ [(q, k)])) o [];
          Ok (Form (tokens F) (args F) (maps F) (occ F) (summations F) (transfers F ++ [v]) (contr F) (conv F))
      else Ok (Form (tokens F) (args F) (maps F) (occ F) (summations F) (transfers F) (contr F ++ [i]) (conv F))
  end.
(* EinsumForm(str) -- einsum/EinsumForm.hpp:42-109; args[0] is the result *)
Definition form_of (s : str) : res form :=
  match cut_arrow s with
  | None => Throw
  | Some (lhs, rhs) =>
      do t <- tokenize_all (rhs :: pieces lhs []) [];
      let '(al, ml, tk) := t in let n := length tk in
      foldM classify (seq 0 n) (Form tk al ml (map (occ_of al) (seq 0 n)) (repeat [] (length al)) [] [] [])
  end.

(* ---- ContractionNode ---- *)
(* nodes do not change once made, so shared pointers to them are the nodes themselves.  An argument has its number and
   indices; a contraction its index, children, indices, external and internal indices and level *)
Inductive cnode :=
| CArg (id : nat) (ix : list nat)
| CCon (c : nat) (ch : list cnode) (ix ext int : list nat) (lv : nat).
Definition n_ix (x : cnode) : list nat := match x with CArg _ ix => ix | CCon _ _ ix _ _ _ => ix end.
Definition n_lv (x : cnode) : nat := match x with CArg _ _ => 0 | CCon _ _ _ _ _ lv => lv end.
(* external_indices, internal_indices -- einsum/ContractionNode.hpp:29-33: those of an argument are all external *)
Definition n_ext (x : cnode) : list nat := match x with CArg _ ix => set_of ix | CCon _ _ _ ext _ _ => ext end.
Definition n_int (x : cnode) : list nat := match x with CArg _ _ => [] | CCon _ _ _ _ int _ => int end.
(* contains(i) -- einsum/ContractionNode.hpp:61-63 *)
Definition n_has (i : nat) (x : cnode) : bool := tup_contains (n_ix x) i.
(* the constructor from children -- einsum/ContractionNode.hpp:35-55 *)
Definition con_ix (c : nat) (ch : list cnode) : list nat :=
  fold_left (fun ix p => fold_left (fun ix q => if negb (q =? c)%nat && negb (tup_contains ix q) then ix ++ [q] else ix) (n_ix p) ix) ch [].
Definition con_node (c : nat) (ch : list cnode) : cnode :=
  let ix := con_ix c ch in
  CCon c ch ix (set_of (filter (fun p => forallb (n_has p) ch) ix)) (set_of (filter (fun p => negb (forallb (n_has p) ch)) ix))
    (S (fold_left (fun l p => Nat.max l (n_lv p)) ch 0)).

(* ---- ContractionTree ---- *)
(* levels: map<int,set<int> >, a list sorted by its keys *)
Record ctr := Ctr { root : option cnode; frontier : list cnode; levels : list (nat * list nat) }.
(* ContractionTree(form) -- einsum/ContractionTree.hpp:32-36: make_shared takes i by reference and i++ runs before it, so that
   argument j is given the number j+1.  The frontier is a set of pointers: its order is that of addresses, so [place] says where a
   new node goes *)
Definition insert_at (k : nat) (x : cnode) (l : list cnode) : list cnode := firstn k l ++ x :: skipn k l.
Definition leaves (al : list (list nat)) : list cnode := map (fun p => CArg (S (fst p)) (snd p)) (combine (seq 0 (length al)) al).
(* levels[l].insert(c) *)
Fixpoint lev_insert (l c : nat) (m : list (nat * list nat)) : list (nat * list nat) :=
  match m with
  | [] => [(l, [c])]
  | (k, s) :: m' => if (l =? k)%nat then (k, set_insert c s) :: m' else if (l <? k)%nat then (l, [c]) :: m else (k, s) :: lev_insert l c m'
  end.
(* add_contraction(c,token) -- einsum/ContractionTree.hpp:62-79; returns the new node too *)
Definition add_contraction (place c : nat) (t : ctr) : cnode * ctr :=
  let ch := filter (n_has c) (frontier t) in let x := con_node c ch in
  (x, Ctr (root t) (insert_at place x (filter (fun p => negb (n_has c p)) (frontier t))) (lev_insert (n_lv x) c (levels t))).
(* levelwise_equal(x) -- einsum/ContractionTree.hpp:42-50; find in a map *)
Fixpoint lev_find (l : nat) (m : list (nat * list nat)) : option (list nat) :=
  match m with [] => None | (k, s) :: m' => if (l =? k)%nat then Some s else lev_find l m' end.
Fixpoint nats_eqb (a b : list nat) : bool :=
  match a, b with [], [] => true | x :: a', y :: b' => (x =? y)%nat && nats_eqb a' b' | _, _ => false end.
Definition levelwise_equal (t x : ctr) : bool :=
  (length (levels t) =? length (levels x))%nat &&
  forallb (fun p => match lev_find (fst p) (levels x) with None => false | Some s => nats_eqb (snd p) s end) (levels t).

(* ---- ContractionTrees ---- *)
(* v.erase(v.begin()+i) *)
Definition erase_nth (i : nat) (v : list nat) : list nat := firstn i v ++ skipn (S i) v.
(* build_trees(tree,rem) -- einsum/ContractionTrees.hpp:45-62; [place] may depend on the contractions made so far, [path] *)
Fixpoint build_trees (fuel : nat) (place : list nat -> nat) (path : list nat) (t : ctr) (rem : list nat) (trees : list ctr) : list ctr :=
  match rem with
  | [] => if existsb (levelwise_equal t) trees then trees else trees ++ [t]
  | _ => match fuel with
         | O => trees
         | S fuel' =>
             fold_left (fun trees i =>
               let c := nth i rem 0 in
               let '(x, t1) := add_contraction (place (path ++ [c])) c t in
               let t2 := if (length rem =? 1)%nat then Ctr (Some x) (frontier t1) (levels t1) else t1 in
               build_trees fuel' place (path ++ [c]) t2 (erase_nth i rem) trees) (seq 0 (length rem)) trees
         end
  end.
(* ContractionTrees(form) -- einsum/ContractionTrees.hpp:35-39; fr is the first frontier: the arguments, in the order of their addresses *)
Definition trees_of (place : list nat -> nat) (fr : list cnode) (rem : list nat) : list ctr :=
  build_trees (length rem) place [] (Ctr None fr []) rem [].

(* ---- etree2: index sets ---- *)
(* ctree_index_set::contract(y,ix) -- etree2/ctree_index_set.hpp:45-50 *)
Definition set_erase (x : nat) (s : list nat) : list nat := filter (fun a => negb (x =? a)%nat) s.
Definition cset_contract (x y : list nat) (ix : nat) : list nat := set_erase ix (fold_left (fun s p => set_insert p s) y x).
(* minus(x) -- etree2/ctree_index_set.hpp:38-43 *)
Definition cset_minus (s x : list nat) : list nat := fold_left (fun s p => set_erase p s) x s.
(* permutations() -- etree2/ctree_index_set.hpp:52-68; the depth of the recursion is the size *)
Fixpoint cset_perms (n : nat) (s : list nat) : list (list nat) :=
  match s with
  | [x] => [[x]]
  | _ => match n with
         | O => []
         | S n' => flat_map (fun p => map (fun q => q ++ [p]) (cset_perms n' (set_erase p s))) s
         end
  end.
(* LoopTrees(ctr) and add_recursively(ctr,perms): the choices of loop orders, one list for each contraction -- etree2/LoopTrees.hpp:21-32,
   :34-55.  The loop trees made from them are not modelled *)
Fixpoint loop_orders (ls : list (list nat)) : list (list (list nat)) :=
  match ls with
  | [] => [[]]
  | s :: ls' => flat_map (fun p => map (cons p) (loop_orders ls')) (cset_perms (length s) s)
  end.
