(* Spec_EinsumFn.v -- vocabulary for Einstein sums of two views, real and complex. *)
From Verif Require Import Base Model_Index Model_View Model_CView Spec_Index Spec_View Spec_Tensor Spec_CView Spec_Einsum Spec_Einsum2.
Local Open Scope Z_scope.

(* the letters that may name an axis *)
Definition worded (s : list ascii) : Prop := Forall (fun c => c <> "x"%char /\ c <> ","%char /\ c <> "-"%char /\ c <> "*"%char) s.
(* the letters of r that occur in an operand, those that do not, and the letters of the operands that are summed over *)
Definition carried (xs ys rs : list ascii) : list ascii := filter (isin (xs ++ ys)) (letters rs).
Definition spread (xs ys rs : list ascii) : list ascii := filter (notin (xs ++ ys)) (letters rs).
Definition contracted (xs ys rs : list ascii) : list ascii := filter (notin rs) (letters (xs ++ ys)).
(* a string with or without a final star *)
Definition marked (c : bool) (s : list ascii) : list ascii := if c then s ++ ["*"%char] else s.
(* xs,ys->rs with stars *)
Definition strc (cx cy cr : bool) (xs ys rs : list ascii) : list ascii := str2 (marked cx xs) (marked cy ys) (marked cr rs).
(* at the axes that letter c has in s, r has the sides and strides of v *)
Definition alike (r v : view) (s : list ascii) (c : ascii) : Prop :=
  forall p, nth_error s p = Some c -> nth_error (vdims r) p = nth_error (vdims v) p /\ nth_error (vstr r) p = nth_error (vstr v) p.
(* a complex view laid out by the letters s *)
Definition clettered (v : view) (s : list ascii) (D : ascii -> Z) : Prop := vdims v = map D s ++ [2] /\ length (vstr v) = S (length s).

Section Meaning.
Context {R : cring}.
Notation memR := (mem (car R)).
Notation C := (CxRing R).
(* the sum over the contracted letters of the products, at letter values e *)
Definition esum (m : memR) (x y : view) (xs ys rs : list ascii) (D e : ascii -> Z) : R :=
  let L := contracted xs ys rs in
  rsum (map (fun k => cmul (elem0 m x (map (over e L k) xs)) (elem0 m y (map (over e L k) ys))) (all_indices (map D L))).
Definition cj (b : bool) (z : C) : C := if b then conj z else z.
Definition cesum (cx cy : bool) (m : memR) (x y : view) (xs ys rs : list ascii) (D e : ascii -> Z) : C :=
  let L := contracted xs ys rs in
  rsum (map (fun k => cmul (cj cx (celem m x (map (over e L k) xs))) (cj cy (celem m y (map (over e L k) ys))) : C) (all_indices (map D L))).
(* m' is m with val e added to the complex element of r at every letter assignment e; nothing else changes *)
Definition cadds (m m' : memR) (r : view) (rs : list ascii) (D : ascii -> Z) (val : (ascii -> Z) -> C) : Prop :=
  readable m' r /\
  (forall e, fits D e rs -> celem m' r (map e rs) = cadd (celem m r (map e rs)) (val e)) /\
  (forall ix, in_range ix (map D rs) -> ~ coherent rs ix -> celem m' r ix = celem m r ix) /\
  untouched m m' r.
End Meaning.
