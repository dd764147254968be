(* Spec_CuGather.v -- vocabulary for gathering on a graphics card. *)
From Verif Require Import Base Model_Index Model_View Model_Tensor Spec_Index Spec_View Spec_Tensor Spec_Cuda.
Local Open Scope Z_scope.

(* the sides after the first for which the gather is done: the last one below 1024, the others small enough for one launch *)
Definition gath_fits (ds : list Z) : Prop :=
  match ds with
  | [a] => 0 < a < 1024
  | [a; b] => 0 < a <= 65535 /\ 0 < b < 1024
  | [a; b; c] => 0 < a <= 65535 /\ 0 < b <= 65535 /\ 0 < c < 1024 /\ (64 < c -> 1024 / c <= b \/ 1024 / (c * b) <= a)
  | [a; b; c; d] => 0 < a <= 65535 /\ 0 < b /\ 0 < c /\ 0 < d <= 64 /\ c < 1024 / d /\ b < 1024 / (d * c)
  | _ => False
  end.
(* rows (target, [source; ..]) within no targets and ni sources, every target once *)
Definition rows_ok (no ni : Z) (qs : list (Z * list Z)) : Prop :=
  NoDup (map fst qs) /\ Forall (fun q => 0 <= fst q < no /\ Forall (fun j => 0 <= j < ni) (snd q)) qs.
(* every element of r has grown by the sum of the elements of x that the rows name *)
Definition gathered {R : cring} (qs : list (Z * list Z)) (r x : view) (m m' : mem (car R)) : Prop :=
  forall i ix, in_range (i :: ix) (vdims r) ->
    elem0 m' r (i :: ix) = cadd (elem0 m r (i :: ix)) (rsum (flat_map (fun q => if fst q =? i then map (fun j => elem0 m x (j :: ix)) (snd q) else []) qs)).
