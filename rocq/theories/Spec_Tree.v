(* Spec_Tree.v -- independent vocabulary for C53-C55. *)
From Verif Require Import Base.
Local Open Scope Z_scope.
Section S.
Context {A : Type}.
Definition prefix (x y : list A) : Prop := exists z, y = x ++ z.
(* x is one of the paths (or the empty path) and no path properly extends it *)
Definition longest (ps : list (list A)) (x : list A) : Prop := In x ([] :: ps) /\ forall y, In y ps -> prefix x y -> y = x.
Definition reflects (eqb : A -> A -> bool) : Prop := forall a b, eqb a b = true <-> a = b.
End S.
(* a node of the flat form: position, label, number of children, position of the parent *)
Definition posn (n : Z * Z * Z * Z) : Z := let '(p, _, _, _) := n in p.
Definition parn (n : Z * Z * Z * Z) : Z := let '(_, _, _, q) := n in q.
Definition labn (n : Z * Z * Z * Z) : Z := let '(_, l, _, _) := n in l.
(* the parent index of the indexed traversal (-1 for the root) and the parent position of the flat form name the same node; G
   lists the positions of the nodes in depth-first order *)
Definition link (G : list Z) (old par : Z) : Prop := (old = -1 /\ par = -1) \/ (0 <= old /\ nth_error G (Z.to_nat old) = Some par).
Definition same_node (G : list Z) (lo : Z * Z) (n : Z * Z * Z * Z) : Prop := labn n = fst lo /\ link G (snd lo) (parn n).
