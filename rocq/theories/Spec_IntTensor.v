(* Spec_IntTensor.v -- what an integer tensor is supposed to hold. *)
From Verif Require Import Base Model_Index Model_Containers Model_IntTensor Spec_Index.
Local Open Scope Z_scope.

(* t has the shape dims, in row-major order, and room for all of it; the room may be larger *)
Definition sized (t : nten) (dims : list Z) : Prop :=
  nd t = dims /\ dims <> [] /\ nonneg dims /\ ns t = strides_of 1 dims /\ prod dims <= nmem t <= blen (narr t).
(* ... and its element at every index ix is f ix *)
Definition has (t : nten) (dims : list Z) (f : list Z -> Z) : Prop :=
  sized t dims /\ forall ix, in_range ix dims -> nt_get t ix = Ok (f ix).
(* t has room for no more than its elements *)
Definition trim (t : nten) : Prop := nmem t = prod (nd t).

(* f with the value at ix replaced *)
Definition upd (f : list Z -> Z) (ix : list Z) (v : Z) (jx : list Z) : Z := if list_eq_dec Z.eq_dec jx ix then v else f jx.

(* blocks of rows on top of each other: the first n0 rows come from f0, the next n1 from f1, ... *)
Fixpoint stacked (l : list (Z * (list Z -> Z))) (ix : list Z) : Z :=
  match l, ix with
  | (n, f) :: l', i :: jx => if i <? n then f (i :: jx) else stacked l' (i - n :: jx)
  | _, _ => 0
  end.
Definition heights (l : list (Z * (list Z -> Z))) : Z := fold_right (fun p n => fst p + n) 0 l.
(* a block of one row *)
Definition one_row (g : list Z -> Z) : Z * (list Z -> Z) := (1, fun ix => g (tl ix)).

(* f with the entries of row i from column o on replaced by those of l *)
Definition row_put (f : list Z -> Z) (i o : Z) (l : list Z) (ix : list Z) : Z :=
  match ix with
  | [a; b] => if (a =? i) && (o <=? b) && (b <? o + Z.of_nat (length l)) then nth (Z.to_nat (b - o)) l 0 else f ix
  | _ => f ix
  end.
