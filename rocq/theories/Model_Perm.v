(* Model_Perm.v -- combinatorial/cpermutation.hpp.
   A permutation owns an array of n integers; here the array alone (Model_Containers.buf), n being its length.  A fresh
   array has no values, and reading an entry without a value or outside the array is undefined behaviour. *)
From Verif Require Import Base Model_Index Model_Containers.
Local Open Scope Z_scope.

(* for(i) result.p[f(i)]=g(i) *)
Definition fill (r : buf) (idx : list Z) (f g : Z -> res Z) : res buf := foldM (fun i r => do k <- f i; do v <- g i; bput r k v) idx r.
(* identity(n), Identity(n), :97-107; also permutation(n,fill_identity), :51-55 *)
Definition pidentity (n : Z) : res buf := fill (bnew n) (zrange n) Ok Ok.
(* permutation(vector), :63-67 *)
Definition pof (x : list Z) : res buf := fill (bnew (Z.of_nat (length x))) (zrange (Z.of_nat (length x))) Ok (zget x).
(* transposition(n,i,j), :109-115 *)
Definition ptransposition (n i j : Z) : res buf := do p <- pidentity n; do p <- bput p i j; bput p j i.
(* the integers a,a+1,...,b *)
Definition from_to (a b : Z) : list Z := map (Z.add a) (zrange (b - a + 1)).
(* contiguous_cycle(n,a,b), :117-131 *)
Definition pcontiguous_cycle (n a b : Z) : res buf :=
  let p := bnew n in
  if a <? b then
    do p <- fill p (from_to 1 (a - 1)) Ok Ok; do p <- fill p (from_to (b + 1) n) Ok Ok;
    do p <- fill p (from_to a (b - 1)) Ok (fun i => Ok (i + 1)); bput p (b - 1) a
  else
    do p <- fill p (from_to 1 (b - 1)) Ok Ok; do p <- fill p (from_to (a + 1) n) Ok Ok;
    do p <- fill p (from_to (b + 1) a) Ok (fun i => Ok (i - 1)); bput p (b - 1) a.
(* v.erase(v.begin()+t) *)
Definition verase (t : Z) (v : list Z) : res (list Z) := if (0 <=? t) && (t <? Z.of_nat (length v)) then Ok (firstn (Z.to_nat t) v ++ skipn (S (Z.to_nat t)) v) else UB.
(* random(n), :133-147; the drawn numbers are given, draw i lies between 0 and n-1-i *)
Definition prandom (n : Z) (draws : Z -> Z) : res buf :=
  do ' (p, _) <- forZ n (fun i st => let '(p, v) := st in do x <- zget v (draws i); do p <- bput p i x; do v <- verase (draws i) v; Ok (p, v)) (bnew n, zrange n);
  Ok p.

(* p(i) and p[i], :207-213 *)
Definition papply (p : buf) (i : Z) : res Z := bget p i.
(* inv(i), :215-220 *)
Fixpoint pinv_from (p : buf) (i j : Z) (k : nat) : res Z :=
  match k with O => Throw | S k => do v <- bget p j; if v =? i then Ok j else pinv_from p i (j + 1) k end.
Definition pinv_at (p : buf) (i : Z) : res Z := pinv_from p i 0 (length p).
(* operator==, :226-230 *)
Fixpoint peq_from (p x : buf) (j : Z) (k : nat) : res bool :=
  match k with O => Ok true | S k => do a <- bget p j; do b <- bget x j; if a =? b then peq_from p x (j + 1) k else Ok false end.
Definition peq (p x : buf) : res bool := if negb (blen p =? blen x) then Ok false else peq_from p x 0 (length p).
(* operator*, :242-246 *)
Definition pmul (p x : buf) : res buf := fill (bnew (blen p)) (zrange (blen p)) Ok (fun i => do k <- bget x i; bget p k).
(* operator*=, :248-251: in place *)
Definition pmul_assign (p x : buf) : res buf := forZ (blen p) (fun i p => do k <- bget p i; do v <- bget x k; bput p i v) p.
(* inverse(), inv(), operator!, :232-236, :253-262 *)
Definition pinverse (p : buf) : res buf := fill (bnew (blen p)) (zrange (blen p)) (bget p) Ok.
(* is_valid(), :264-271; the flags seen so far are the set of values flagged *)
Fixpoint pvalid_from (p : buf) (seen : list Z) (i : Z) (k : nat) : res bool :=
  match k with
  | O => Ok true
  | S k => do v <- bget p i; if (v <? 0) || (blen p - 1 <? v) || existsb (Z.eqb v) seen then Ok false else pvalid_from p (v :: seen) (i + 1) k
  end.
Definition pvalid (p : buf) : res bool := pvalid_from p [] 0 (length p).
(* reorder(x), :273-280 *)
Definition preorder {A} (p : buf) (x : list A) : res (list A) :=
  foldM (fun i r => do k <- bget p i; do v <- zget x k; Ok (r ++ [v])) (zrange (Z.of_nat (length x))) [].

(* ordering(n,less), :164-175.  The flags done are the set of positions flagged. *)
Definition pick (less : Z -> Z -> bool) (done : list Z) (n : Z) : Z :=
  fold_left (fun least j => if negb (existsb (Z.eqb j) done) && ((least =? -1) || less j least) then j else least) (zrange n) (-1).
Definition ordering_step (less : Z -> Z -> bool) (n : Z) (i : Z) (st : buf * list Z) : res (buf * list Z) :=
  let '(r, done) := st in
  let least := pick less done n in
  if (0 <=? least) && (least <? n) then do r <- bput r i least; Ok (r, least :: done) else UB.
Definition ordering_by (n : Z) (less : Z -> Z -> bool) : res buf := do ' (r, _) <- forZ n (ordering_step less n) (bnew n, []); Ok r.
(* ordering(v), :149-162, and reverse_ordering(v), :177-190: the same loops with v[j]<v[least] and v[j]>v[most]; all
   positions compared are inside v, so the default d is never used *)
Definition ordering {A} (lt : A -> A -> bool) (d : A) (v : list A) : res buf :=
  ordering_by (Z.of_nat (length v)) (fun j l => lt (nth (Z.to_nat j) v d) (nth (Z.to_nat l) v d)).
Definition reverse_ordering {A} (lt : A -> A -> bool) (d : A) (v : list A) : res buf :=
  ordering_by (Z.of_nat (length v)) (fun j m => lt (nth (Z.to_nat m) v d) (nth (Z.to_nat j) v d)).
