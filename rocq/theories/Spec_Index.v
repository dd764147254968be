(* Spec_Index.v -- what shapes, indices and element positions mean, independent of the code. *)
From Verif Require Import Base.
Local Open Scope Z_scope.

(* ix is an in-range index of a tensor of shape dims *)
Definition in_range (ix dims : list Z) : Prop := Forall2 (fun i d => 0 <= i < d) ix dims.

(* number of elements: the number of in-range indices (see all_indices_* in Prop_Index) *)
Definition prod (dims : list Z) : Z := fold_right Z.mul 1 dims.
Global Arguments prod : simpl never.

(* row-major position of an index: mixed radix value *)
Fixpoint flat (ix dims : list Z) : Z :=
  match ix, dims with
  | i :: is, _ :: ds => i * prod ds + flat is ds
  | _, _ => 0
  end.

(* all in-range indices in row-major (= lexicographic) order *)
Fixpoint all_indices (dims : list Z) : list (list Z) :=
  match dims with
  | [] => [[]]
  | d :: ds => flat_map (fun i => map (cons i) (all_indices ds)) (zrange d)
  end.

(* strict lexicographic order on indices *)
Inductive lex_lt : list Z -> list Z -> Prop :=
| lex_head a b x y : a < b -> lex_lt (a :: x) (b :: y)
| lex_tail a x y : lex_lt x y -> lex_lt (a :: x) (a :: y).

Definition nonneg (dims : list Z) : Prop := Forall (fun d => 0 <= d) dims.
Definition positive (dims : list Z) : Prop := Forall (fun d => 0 < d) dims.

(* permutations of positions *)
Definition is_perm (p : list Z) : Prop := Permutation p (zrange (Z.of_nat (length p))).
Definition inverse_perm (p q : list Z) : Prop :=
  length q = length p /\ forall i j, zget p i = Ok j -> zget q j = Ok i.
