(* Spec_Components.v -- being connected, said without the search *)
From Verif Require Import Base.
Local Open Scope Z_scope.

(* y can be reached from x along nodes of l, each related to the next *)
Inductive reaches (R : Z -> Z -> bool) (l : list Z) : Z -> Z -> Prop :=
| reach_here x : In x l -> reaches R l x x
| reach_step x y z : reaches R l x y -> In z l -> R y z = true -> reaches R l x z.
(* a component coming earlier in the list *)
Definition before {X} (cs : list X) (c d : X) : Prop := exists l1 l2 l3, cs = l1 ++ c :: l2 ++ d :: l3.
