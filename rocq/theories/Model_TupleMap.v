(* Model_TupleMap.v -- maps keyed by two to five indices: containers/double_map.hpp, triple_map.hpp, quadruple_map.hpp, quintuple_map.hpp.
   std::unordered_map is modelled as the library describes it: an array of buckets, a key being in the bucket of its hash value, found there with operator==; the number of
   buckets may change at any time.  size_t has 64 bits.  The types of the indices are arbitrary types with operator== and a hash function. *)
From Verif Require Import Base.
Local Open Scope Z_scope.

(* (h<<1)^g on size_t -- containers/double_map.hpp:57 *)
Definition hmix (h g : Z) : Z := Z.lxor (Z.shiftl h 1 mod 2 ^ 64) g.
Section Ix.
Context {A B C D E : Type} (ea : A -> A -> bool) (eb : B -> B -> bool) (ec : C -> C -> bool) (ed : D -> D -> bool) (ee : E -> E -> bool).
Context (ha : A -> Z) (hb : B -> Z) (hc : C -> Z) (hd : D -> Z) (he : E -> Z).
(* double_index -- containers/double_map.hpp:24-32, 41-43, 52-60 *)
Record ix2 := Ix2 { p1 : A; p2 : B }.
Definition ix2_eq (x y : ix2) : bool := ea (p1 x) (p1 y) && eb (p2 x) (p2 y).
Definition ix2_hash (x : ix2) : Z := hmix (ha (p1 x)) (hb (p2 x)).
(* triple_index -- containers/triple_map.hpp:24-39, 45-54 *)
Record ix3 := Ix3 { t1 : A; t2 : B; t3 : C }.
Definition ix3_eq (x y : ix3) : bool := ea (t1 x) (t1 y) && eb (t2 x) (t2 y) && ec (t3 x) (t3 y).
Definition ix3_hash (x : ix3) : Z := hmix (hmix (ha (t1 x)) (hb (t2 x))) (hc (t3 x)).
(* quadruple_index -- containers/quadruple_map.hpp:24-40, 46-56 *)
Record ix4 := Ix4 { q1 : A; q2 : B; q3 : C; q4 : D }.
Definition ix4_eq (x y : ix4) : bool := ea (q1 x) (q1 y) && eb (q2 x) (q2 y) && ec (q3 x) (q3 y) && ed (q4 x) (q4 y).
Definition ix4_hash (x : ix4) : Z := hmix (hmix (hmix (ha (q1 x)) (hb (q2 x))) (hc (q3 x))) (hd (q4 x)).
(* quintuple_index -- containers/quintuple_map.hpp:24-41, 47-58 *)
Record ix5 := Ix5 { v1 : A; v2 : B; v3 : C; v4 : D; v5 : E }.
Definition ix5_eq (x y : ix5) : bool := ea (v1 x) (v1 y) && eb (v2 x) (v2 y) && ec (v3 x) (v3 y) && ed (v4 x) (v4 y) && ee (v5 x) (v5 y).
Definition ix5_hash (x : ix5) : Z := hmix (hmix (hmix (hmix (ha (v1 x)) (hb (v2 x))) (hc (v3 x))) (hd (v4 x))) (he (v5 x)).
End Ix.
(* double_index::operator< -- containers/double_map.hpp:34-39; lt of the two types, a>b being b<a *)
Definition ix2_lt {A B} (la : A -> A -> bool) (lb : B -> B -> bool) (x y : ix2 (A := A) (B := B)) : bool :=
  if la (p1 x) (p1 y) then true else if la (p1 y) (p1 x) then false else if lb (p2 x) (p2 y) then true else false.

Section Map.
Context {K O : Type} (eqb : K -> K -> bool) (hash : K -> Z) (dflt : O).
(* the buckets; none of them before the first insertion, in the base class -- containers/double_map.hpp:68 *)
Definition umap : Type := list (list (K * O)).
Definition um_new : umap := [].
(* the bucket of a key, in the base class -- containers/double_map.hpp:68 *)
Definition um_bkt (u : umap) (k : K) : nat := Z.to_nat (hash k mod Z.of_nat (length u)).
(* a search in one bucket, in the base class -- containers/double_map.hpp:68 *)
Fixpoint b_find (k : K) (l : list (K * O)) : option O := match l with [] => None | (k', o) :: l' => if eqb k' k then Some o else b_find k l' end.
Definition um_find (k : K) (u : umap) : option O := b_find k (nth (um_bkt u k) u []).
(* a changed bucket, in the base class -- containers/double_map.hpp:68 *)
Fixpoint set_nth (n : nat) (b : list (K * O)) (u : umap) : umap := match u, n with [], _ => [] | _ :: u', 0%nat => b :: u' | c :: u', S n' => c :: set_nth n' b u' end.
(* insertion of a key that is not there, in the base class -- containers/double_map.hpp:68 *)
Definition um_add (k : K) (o : O) (u : umap) : umap := set_nth (um_bkt u k) ((k, o) :: nth (um_bkt u k) u []) u.
(* n buckets, in the base class -- containers/double_map.hpp:68 *)
Definition um_rehash (n : nat) (u : umap) : umap := fold_right (fun p => um_add (fst p) (snd p)) (repeat [] n) (concat u).
(* assignment to the object of a key that is there, in the base class -- containers/double_map.hpp:68 *)
Fixpoint b_set (k : K) (o : O) (l : list (K * O)) : list (K * O) := match l with [] => [] | (k', o') :: l' => if eqb k' k then (k', o) :: l' else (k', o') :: b_set k o l' end.
Definition um_put (k : K) (o : O) (u : umap) : umap := set_nth (um_bkt u k) (b_set k o (nth (um_bkt u k) u [])) u.
(* operator() -- containers/double_map.hpp:74-76, containers/triple_map.hpp:68-70, containers/quadruple_map.hpp:70-72, containers/quintuple_map.hpp:72-74: the object of the index, made by its default constructor when there is none;
   n is the number of buckets in case the library enlarges the table first *)
Definition um_ref (n : option nat) (k : K) (u : umap) : O * umap :=
  match um_find k u with
  | Some o => (o, u)
  | None => let u := match n with Some n => um_rehash (S n) u | None => match u with [] => um_rehash 1 u | _ => u end end in (dflt, um_add k dflt u)
  end.
(* M(i1,..)=o *)
Definition um_assign (n : option nat) (k : K) (o : O) (u : umap) : umap := um_put k o (snd (um_ref n k u)).
End Map.
