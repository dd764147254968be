(* Spec_Groups.v -- groups of axes: what it means to pick components and to split the axes into groups. *)
From Coq Require Sorted.
From Verif Require Import Base Model_Index Spec_Index.
Local Open Scope Z_scope.

(* the components of l at the positions listed in g *)
Definition comps (l g : list Z) : list Z := map (fun a => nth (Z.to_nat a) l 0) g.
(* the groups gs name every one of the k axes exactly once *)
Definition splits (gs : list (list Z)) (k : Z) : Prop := Permutation (concat gs) (zrange k).
(* the axes a, a+1, .., a+n-1 *)
Definition axis_run (a n : Z) : list Z := map (Z.add a) (zrange n).
(* the members of a set in the order a std::set<int> visits them *)
Definition is_set (s : list Z) : Prop := Sorted.StronglySorted Z.lt s.
(* the offsets of the elements of a tensor with shape d and strides s are 0, t, 2t, .., (n-1)t, each taken once *)
Definition one_progression (s d : list Z) (t n : Z) : Prop :=
  (forall ix, in_range ix d -> exists k, 0 <= k < n /\ dot s ix = t * k) /\
  forall k, 0 <= k < n -> exists ix, in_range ix d /\ dot s ix = t * k /\ forall jx, in_range jx d -> dot s jx = t * k -> jx = ix.
