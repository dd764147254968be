(* Spec_Shape.v -- what stride vectors and shapes are for, independent of the code. *)
From Verif Require Import Base Spec_Index.
Local Open Scope Z_scope.

(* the distance from the start of a tensor with strides s to its element ix *)
Definition place (s ix : list Z) : Z := fold_right Z.add 0 (map (fun p => fst p * snd p) (combine s ix)).

(* the elements of a tensor of shape dims lie in 0..N-1, where N is their number, without gaps and without overlap *)
Definition solid (s dims : list Z) : Prop :=
  (forall ix, in_range ix dims -> 0 <= place s ix < prod dims) /\
  (forall ix jx, in_range ix dims -> in_range jx dims -> place s ix = place s jx -> ix = jx) /\
  (forall a, 0 <= a < prod dims -> exists ix, in_range ix dims /\ place s ix = a).

(* axes (stride, side), each one stepping at least over all of the next *)
Fixpoint stepping (ax : list (Z * Z)) : Prop :=
  match ax with
  | a :: ((b :: _) as r) => fst b * snd b <= fst a /\ stepping r
  | _ => True
  end.

(* every stride is positive and larger than any distance that can be covered along the later axes *)
Fixpoint greedy (s dims : list Z) : Prop :=
  match s, dims with
  | x :: s', _ :: ds => 0 < x /\ (forall ix, in_range ix ds -> place s' ix < x) /\ greedy s' ds
  | [], [] => True
  | _, _ => False
  end.

(* neighbouring axes that can be walked as one: each stride is the next stride times the next side *)
Fixpoint run (s dims : list Z) : Prop :=
  match s, dims with
  | x :: ((y :: _) as s'), _ :: ((d :: _) as ds) => x = y * d /\ run s' ds
  | [_], [_] => True
  | _, _ => False
  end.

(* entrywise sum *)
Definition shift (x y : list Z) : list Z := map (fun p => fst p + snd p) (combine x y).
