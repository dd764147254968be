(* Spec_Perm.v -- vocabulary for statements about permutations. *)
From Verif Require Import Base Model_Containers Model_Perm.
Local Open Scope Z_scope.

(* the array p holds f(0),...,f(n-1) *)
Definition holds (p : buf) (n : Z) (f : Z -> Z) : Prop := p = map (fun i => Some (f i)) (zrange n).
(* f maps 0,...,n-1 to itself, one to one *)
Definition into (n : Z) (f : Z -> Z) : Prop := forall i, 0 <= i < n -> 0 <= f i < n.
Definition inj (n : Z) (f : Z -> Z) : Prop := forall i j, 0 <= i < n -> 0 <= j < n -> f i = f j -> i = j.
Definition bij (n : Z) (f : Z -> Z) : Prop := into n f /\ inj n f.
(* p is a permutation of 0,...,n-1 *)
Definition perm_of (p : buf) (n : Z) : Prop := exists f, holds p n f /\ bij n f.
(* a strict weak order *)
Definition weak_order {A} (lt : A -> A -> bool) : Prop :=
  (forall a b, lt a b = true -> lt b a = false) /\ forall a b c, lt a b = true -> lt a c = true \/ lt c b = true.
