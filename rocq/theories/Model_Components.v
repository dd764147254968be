(* Model_Components.v -- ConnectedComponents of tensors/functions/BlockDiagonalize.hpp.
   TYPE is int (Z); a set<int> is the increasing list of its elements.  BlockDiagonalize itself is not modelled:
   it needs the abandoned class Tensor and Eigen's singular value decomposition. *)
From Verif Require Import Base.
Local Open Scope Z_scope.

(* set::insert -- used by range_set, tensors/functions/BlockDiagonalize.hpp:24-29 *)
Fixpoint set_insert (x : Z) (l : list Z) : list Z :=
  match l with
  | [] => [x]
  | y :: l' => if x <? y then x :: l else if x =? y then l else y :: set_insert x l'
  end.
(* range_set(n) -- tensors/functions/BlockDiagonalize.hpp:26-28 *)
Definition range_set (n : Z) : list Z := fold_left (fun s i => set_insert i s) (zrange n) [].
(* nodes.erase(y) -- tensors/functions/BlockDiagonalize.hpp:48, :70 *)
Definition set_erase (y : Z) (l : list Z) : list Z := filter (fun z => negb (z =? y)) l.

Section Components.
Context (condition : Z -> Z -> bool).
(* grow_component(comp,x): nodes and comp are threaded through -- tensors/functions/BlockDiagonalize.hpp:61-76.
   The while loop with its break is the second recursive call.  fuel bounds the depth; UB stands for running out,
   which does not happen when there are fewer nodes than fuel *)
Fixpoint grow_component (fuel : nat) (x : Z) (st : list Z * list Z) : res (list Z * list Z) :=
  match fuel with
  | O => UB
  | S f =>
      match find (condition x) (fst st) with
      | None => Ok st
      | Some y => do st1 <- grow_component f y (set_erase y (fst st), snd st ++ [y]); grow_component f x st1
      end
  end.
(* the constructor's loop -- tensors/functions/BlockDiagonalize.hpp:46-52; fuel as above *)
Fixpoint components_loop (fuel : nat) (nodes : list Z) (comps : list (list Z)) : res (list (list Z)) :=
  match nodes with
  | [] => Ok comps
  | x :: rest =>
      match fuel with
      | O => UB
      | S f => do ' (nodes', comp) <- grow_component (S (length rest)) x (rest, [x]); components_loop f nodes' (comps ++ [comp])
      end
  end.
(* ConnectedComponents(nodes,condition) -- tensors/functions/BlockDiagonalize.hpp:43-53 *)
Definition connected_components (nodes : list Z) : res (list (list Z)) := components_loop (length nodes) nodes [].
(* ConnectedComponents(n,condition) -- tensors/functions/BlockDiagonalize.hpp:55-56 *)
Definition connected_components_n (n : Z) : res (list (list Z)) := connected_components (range_set n).
End Components.
