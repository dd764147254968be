(* Spec_Ops.v -- vocabulary for operations that return a new tensor. *)
From Verif Require Import Base Model_Index Model_View Model_Tensor Spec_Index Spec_View Spec_Tensor.
Local Open Scope Z_scope.

(* r is a new tensor in block b of shape dims holding f at every index, its elements in separate
   cells; memory outside block b is the same in m' as in m *)
Definition makes {V} (b : Z) (m m' : mem V) (r : view) (dims : list Z) (f : list Z -> V) : Prop :=
  vdims r = dims /\ vblk r = b /\ vwf r /\ distinct_cells r /\
  (forall ix, in_range ix dims -> elem m' r ix = Some (f ix)) /\
  (forall b' a, b' <> b -> m' b' a = m b' a).

(* entry by entry *)
Fixpoint zmap2 (f : Z -> Z -> Z) (x y : list Z) : list Z :=
  match x, y with a :: x', c :: y' => f a c :: zmap2 f x' y' | _, _ => [] end.
(* ix lies below / at or above the corner d in every direction *)
Definition below (ix d : list Z) : bool := forallb (fun p => fst p <? snd p) (combine ix d).
Definition beyond (ix d : list Z) : bool := forallb (fun p => snd p <=? fst p) (combine ix d).
