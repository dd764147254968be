(* Specification vocabulary for products of block sparse matrices and the tables made from them. *)
From Coq Require Import ZArith List Bool Lia Sorting.Sorted.
Import ListNotations.
From Verif Require Import Base Model_Containers Model_Index Model_View Model_Tensor Spec_Tensor Model_Block Spec_Block Spec_Gather.
Open Scope Z_scope.

(* the entry (I,K) of the product of the matrices A and B stand for *)
Definition pentry {R : cring} (A B : bcm) (m : mem (car R)) (I K : Z) : R := rsum (map (fun J => cmul (bentry A m I J) (bentry B m J K)) (zrange (bmb A * bbm A))).
(* rows lists, for every first component i of the pairs, in increasing order, the second components that go with it, in
   increasing order and without repetition *)
Definition tabulates (rows : list (Z * list Z)) (pairs : list (Z * Z)) : Prop :=
  StronglySorted Z.lt (map fst rows) /\ (forall i js, In (i, js) rows -> js <> [] /\ StronglySorted Z.lt js) /\
  forall i j, In (i, j) pairs <-> exists js, In (i, js) rows /\ In j js.
