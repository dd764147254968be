(* Spec_XView.v -- where the elements of a view lie. *)
From Verif Require Import Base Spec_Index Spec_Shape Model_View.
Local Open Scope Z_scope.

(* the address of element ix *)
Definition xcell (v : view) (ix : list Z) : Z := voff v + place (vstr v) ix.
(* m' is m with the value at address (b,a) replaced by x *)
Definition replaced {V} (m : mem V) (b a : Z) (x : V) (m' : mem V) : Prop :=
  m' b a = Some x /\ forall b' a', b' <> b \/ a' <> a -> m' b' a' = m b' a'.
(* the same for two addresses in one block *)
Definition replaced2 {V} (m : mem V) (b a a2 : Z) (x x2 : V) (m' : mem V) : Prop :=
  m' b a = Some x /\ m' b a2 = Some x2 /\ forall b' a', b' <> b \/ (a' <> a /\ a' <> a2) -> m' b' a' = m b' a'.
