(* Spec_Spaces.v -- inner products, lengths and spans, said without the model's loops *)
From Coq Require Import Reals.
From Verif Require Import Base Model_View Model_Tensor Model_Spaces Spec_Index Spec_View Spec_Tensor.
Local Open Scope Z_scope.

Section Vec.
Context (H : hfield).
Notation A := (hr H).
(* the inner product of two vectors with entries 0..n-1, conjugating the first *)
Definition ip (n : Z) (u v : Z -> A) : A := rsum (map (fun p => cmul (hconj H (u p)) (v p)) (zrange n)).
(* the square of the length of a vector *)
Definition len2 (n : Z) (v : Z -> A) : R := @rsum RRing (map (fun p => hsq H (v p)) (zrange n)).
(* entry p of the combination, with coefficients c, of the vectors Q 0 .. Q (k-1) *)
Definition comb (k : Z) (c : Z -> A) (Q : Z -> Z -> A) (p : Z) : A := rsum (map (fun j => cmul (c j) (Q j p)) (zrange k)).
(* what is left of v when its projections to Q 0 .. Q (k-1) are subtracted *)
Definition leftover (n k : Z) (Q : Z -> Z -> A) (v : Z -> A) (p : Z) : A := csub (v p) (comb k (fun j => ip n (Q j) v) Q p).
(* v is a combination of F 0 .. F (m-1) *)
Definition spanned (n m : Z) (F : Z -> Z -> A) (v : Z -> A) : Prop := exists d, forall p, 0 <= p < n -> v p = comb m d F p.
(* Q 0 .. Q (k-1) are orthogonal to each other and of length 1 *)
Definition orthonormal (n k : Z) (Q : Z -> Z -> A) : Prop :=
  forall i j, 0 <= i < k -> 0 <= j < k -> ip n (Q i) (Q j) = if i =? j then c1 else c0.
(* the matrix v has n rows and m columns, and column i is F i *)
Definition columns (mm : mem (car A)) (v : view) (n m : Z) (F : Z -> Z -> A) : Prop :=
  vdims v = [n; m] /\ forall p i, 0 <= p < n -> 0 <= i < m -> elem mm v [p; i] = Some (F i p).
End Vec.
