(* Spec_Mask.v -- what a mask holds and what aggregation by it means. *)
From Coq Require Import Sorted Permutation.
From Verif Require Import Base Model_Index Model_View Model_Tensor Model_RView Model_CView Model_Mask Spec_Index Spec_View Spec_Tensor Spec_RView Spec_CView.
Local Open Scope Z_scope.

Section MaskSpec.
Context {R : cring}.
Notation memR := (mem (car R)).
Notation C := (CxRing R).
Implicit Types (q : rmask (R := R)) (l : mlists (R := R)) (t : Z * Z * R) (ts : list (Z * Z * R)).

(* the entries (i,j,v) of a mask, row by row *)
Definition ltriples l : list (Z * Z * R) := flat_map (fun p => map (fun e => (fst p, fst e, snd e)) (snd p)) l.
Definition triples q : list (Z * Z * R) := ltriples (rm_lists q).
Definition swap t : Z * Z * R := (snd (fst t), fst (fst t), snd t).
(* the numbers of its rows *)
Definition keys l : list Z := map fst l.
(* the list of row i *)
Definition row l (i : Z) : list (Z * R) := flat_map (fun p => if fst p =? i then snd p else []) l.

(* q came about by pushing the entries ts, with any number of calls of inv and copies and moves in between *)
Inductive made : list (Z * Z * R) -> rmask -> Prop :=
| made_new : made [] rm_new
| made_push ts q i j (w : R) : made ts q -> made (ts ++ [(i, j, w)]) (rm_push i j w q)
| made_inv ts q : made ts q -> made ts (snd (rm_inverse q))
| made_copy ts q : made ts q -> made ts (rm_copy q)
| made_move ts q : made ts q -> made ts (fst (rm_move q)).
(* ... without copies or moves *)
Inductive grown : list (Z * Z * R) -> rmask -> Prop :=
| grown_new : grown [] rm_new
| grown_push ts q i j (w : R) : grown ts q -> grown (ts ++ [(i, j, w)]) (rm_push i j w q)
| grown_inv ts q : grown ts q -> grown ts (snd (rm_inverse q)).
(* n is the least number of places (not negative) that has room for all of l *)
Definition least (n : Z) (l : list Z) := (forall i, In i l -> i < n) /\ 0 <= n /\ (n = 0 \/ In (n - 1) l).

(* the sum over the entries (i,j,w) with i the first index of w times x at (j, the other indices) *)
Definition mask_sum (m : memR) (x : view) ts (ix : list Z) : C :=
  rsum (map (fun t => if fst (fst t) =? nth 0 ix 0 then cmul (celem m x (snd (fst t) :: tl ix)) (of_real (snd t)) else c0) ts).
(* all entries lie in n rows and nx columns *)
Definition within n nx ts := Forall (fun t : Z * Z * R => 0 <= fst (fst t) < n /\ 0 <= snd (fst t) < nx) ts.
(* the nonzero entries of a matrix, row by row *)
Definition nonzeros (isz : R -> bool) (f : Z -> Z -> R) (n k : Z) : list (Z * Z * R) :=
  filter (fun t => negb (isz (snd t))) (flat_map (fun i => map (fun j => (i, j, f i j)) (zrange k)) (zrange n)).
End MaskSpec.
(* the strides of the axes of v (without the complex one) are s times those of a row-major array; one axis: any stride *)
Definition evenly (v : view) (dims : list Z) := exists s, (s <> 0 \/ length dims = 1%nat) /\ removelast (vstr v) = strides_of s dims.
