(* Spec_CView.v -- elements of complex views.  A complex view is a view with a last axis of side 2: index (ix,0) is the real
   part, (ix,1) the imaginary part of element ix. *)
From Verif Require Import Base Model_Index Model_View Model_CView Spec_Index Spec_View Spec_Tensor.
Local Open Scope Z_scope.

Section Ring.
Context {R : cring}.
Implicit Types (m : mem (car R)) (v r x : view).

(* v is a well-formed complex view of shape dims *)
Definition cshape v (dims : list Z) : Prop := vwf v /\ vdims v = dims ++ [2].
(* the complex element of v at ix *)
Definition celem m v (ix : list Z) : CxRing R := (elem0 m v (ix ++ [0]), elem0 m v (ix ++ [1])).
(* every complex element of r (of shape dims) is increased by g of its index; all other memory is as before *)
Definition cgains (r : view) (dims : list Z) (g : list Z -> CxRing R) m m' : Prop :=
  readable m' r /\ (forall ix, in_range ix dims -> celem m' r ix = cadd (celem m r ix) (g ix)) /\ untouched m m' r.
(* every complex element of r becomes g of its index; all other memory is as before *)
Definition cbecomes (r : view) (dims : list Z) (g : list Z -> CxRing R) m m' : Prop :=
  readable m' r /\ (forall ix, in_range ix dims -> celem m' r ix = g ix) /\ untouched m m' r.
End Ring.
