(* Model_Comb.v -- combinatorial/CombinationsB.hpp, combinatorial/CombinationsBank.hpp. *)
From Verif Require Import Base Model_Index Model_BG.
Local Open Scope Z_scope.

(* CombinationsB, CombinationsB.hpp:73-83.  The objects behind the pointers sub[i] are never changed once built, so they are
   held by value.  The constructor does not initialise N: None stands for a value that was never written. *)
Inductive comb := Comb (cn cm : Z) (cN : option Z) (csub : list comb).
Definition cn (c : comb) : Z := let 'Comb n _ _ _ := c in n.
Definition cm (c : comb) : Z := let 'Comb _ m _ _ := c in m.
Definition cN (c : comb) : option Z := let 'Comb _ _ N _ := c in N.
Definition csub (c : comb) : list comb := let 'Comb _ _ _ s := c in s.
(* reading N, and getN(), :88-90 *)
Definition getN (c : comb) : res Z := match cN c with Some v => Ok v | None => UB end.

(* Combination::shift, prepend, rest, :35-54; rest() of the empty vector asks for 2^64-1 entries *)
Definition shift (j : Z) (x : list Z) : list Z := map (fun v => v + j) x.
Definition prepend (j : Z) (x : list Z) : list Z := j :: x.
Definition crest (x : list Z) : res (list Z) := match x with [] => UB | _ :: x => Ok x end.

(* CombinationsB::for_each(fn), :116-129: the list of arguments fn is called on.  k bounds the depth of the object graph. *)
Fixpoint for_each (k : nat) (c : comb) : res (list (list Z)) :=
  match k with
  | O => UB
  | S k =>
    if cm c =? 1 then Ok (map (fun i => [i]) (zrange (cn c)))
    else foldM (fun i out => do s <- zget (csub c) i; do l <- for_each k s; Ok (out ++ map (fun x => prepend i (shift (i + 1) x)) l)) (zrange (cn c - cm c + 1)) []
  end.

(* the while loop of operator[], :97-102: the branch holding position i and the count t before it *)
Fixpoint locate (i j t : Z) (subs : list comb) : res (Z * Z * comb) :=
  match subs with
  | [] => UB
  | s :: subs => do N <- getN s; if t + N <=? i then locate i (j + 1) (t + N) subs else Ok (j, t, s)
  end.
(* operator[](i), :93-104; assert(i<N) ends the program, here Throw *)
Fixpoint at_index (k : nat) (c : comb) (i : Z) : res (list Z) :=
  match k with
  | O => UB
  | S k =>
    do N <- getN c; assrt (i <? N)
    (if cm c =? 1 then Ok [i]
     else do ' (j, t, s) <- locate i 0 0 (csub c); do x <- at_index k s (i - t); Ok (prepend j (shift (j + 1) x)))
  end.
(* index(v), :107-113 *)
Fixpoint index_of (k : nat) (c : comb) (v : list Z) : res Z :=
  match k with
  | O => UB
  | S k =>
    do v0 <- zget v 0;
    if (Z.of_nat (length v) =? 1) then Ok v0
    else
      do t <- foldM (fun i t => do s <- zget (csub c) i; do N <- getN s; Ok (t + N)) (zrange v0) 0;
      do s <- zget (csub c) v0; do r <- crest v; do u <- index_of k s (shift (- (v0 + 1)) r); Ok (t + u)
  end.

(* CombinationsBank, CombinationsBank.hpp:47-88: the two levels of hash maps as one association list *)
Definition bank := list (Z * Z * comb).
Fixpoint bfind (n m : Z) (b : bank) : option comb :=
  match b with [] => None | (n', m', c) :: b => if (n' =? n) && (m' =? m) then Some c else bfind n m b end.
(* C->N += sub->n on a storage that may hold no value *)
Definition oplus (a : option Z) (x : Z) : option Z := match a with Some v => Some (v + x) | None => None end.
(* get(n,m), :68-86.  junk is what the storage of N holds when the object is created (None: indeterminate).  k bounds the
   depth of the recursion, which for m<1 never ends. *)
Fixpoint cget (junk : option Z) (k : nat) (n m : Z) (b : bank) : res (comb * bank) :=
  match k with
  | O => UB
  | S k =>
    match bfind n m b with
    | Some c => Ok (c, b)
    | None =>
      if m =? 1 then let c := Comb n m (Some n) [] in Ok (c, (n, m, c) :: b)
      else
        do ' (N, subs, b) <- forZ (n - m + 1) (fun i st => let '(N, subs, b) := st in do ' (s, b) <- cget junk k (n - i - 1) (m - 1) b; Ok (oplus N (cn s), subs ++ [s], b)) (junk, [], b);
        let c := Comb n m N subs in Ok (c, (n, m, c) :: b)
    end
  end.
