(* Specification vocabulary for block sparse matrices. *)
From Coq Require Import ZArith List Bool Lia.
Import ListNotations.
From Verif Require Import Base Model_Index Model_View Model_Tensor Spec_Index Spec_View Spec_Tensor Model_Block.
Open Scope Z_scope.

(* the entry at (I,J) of the matrix A stands for: the element of the block covering it, zero if there is none *)
Definition bentry {R : cring} (A : bcm) (m : mem (car R)) (I J : Z) : R :=
  match bc_offset A (I / bbn A) (J / bbm A) with
  | Ok t => elem0 m (bmx A) [t; I mod bbn A; J mod bbm A]
  | _ => c0
  end.
(* A was made from a mask of in-range pairs (repetitions allowed), with blocks of positive sides *)
Definition made_from (A : bcm) (mask : list (Z * Z)) : Prop :=
  exists nb mb bn bm b, A = bc_make nb mb bn bm mask b /\ 0 < bn /\ 0 < bm /\ 0 <= nb /\ 0 <= mb /\ Forall (fun p => 0 <= fst p < nb /\ 0 <= snd p < mb) mask.
(* a matrix argument of the given shape that the call may read *)
Definition operand {R : cring} (m : mem (car R)) (v : view) (n c : Z) : Prop := vwf v /\ vdims v = [n; c] /\ readable m v.
