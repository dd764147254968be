(* Spec_Cuda.v -- vocabulary for launches on a graphics card. *)
From Verif Require Import Base Model_Index Model_View Model_Tensor Spec_Index Spec_View Spec_Tensor.
Local Open Scope Z_scope.

(* the threads of each launch run in some order, the launches one after the other *)
Definition any_order {A} (plan orders : list (list A)) : Prop := Forall2 (@Permutation A) orders plan.
(* the shapes for which one launch covers everything *)
Definition cu_fits (dims : list Z) : Prop :=
  match dims with
  | [n] => 0 <= n < 1024 \/ (1024 < n <= 2147483647 /\ n mod 1024 = 0)
  | [a; b] => 0 < a <= 2147483647 /\ 0 < b /\ (b <= 1024 \/ (b mod 1024 = 0 /\ b / 1024 <= 65535))
  | [a; b; c] => 0 < a <= 2147483647 /\ 0 < b /\ 0 < c /\
      ((a * b * c < 128 /\ c <= 64) \/ (128 <= a * b * c /\ b * c < 128) \/
       (128 <= b * c /\ b <= 65535 /\ (c <= 1024 \/ (c mod 1024 = 0 /\ c / 1024 <= 65535))))
  | _ => False
  end.
(* every element of r has become f of itself and the elements of the xs of the same index, and nothing else has changed *)
Definition done {V} (f : V -> list V -> V) (r : view) (xs : list view) (m m' : mem V) : Prop :=
  (forall ix, in_range ix (vdims r) -> exists v us, elem m r ix = Some v /\ Forall2 (fun x u => elem m x ix = Some u) xs us /\
     elem m' r ix = Some (f v us)) /\
  untouched m m' r.
(* the elements that no thread of any launch reaches *)
Definition cu_missed (dims ix : list Z) : Prop :=
  match dims, ix with
  | [n], [i] => n = 1024 \/ (1024 < n /\ 1024 * (n / 1024) <= i)
  | [a; b], [i; j] => 1024 < b /\ (1024 * (b / 1024) <= j \/ (65535 < b / 1024 /\ b mod 1024 <= j))
  | [a; b; c], [i; j; k] => (a * b * c < 128 /\ 64 < c) \/ (128 <= b * c /\ 65535 < b) \/
      (1024 < c /\ (1024 * (c / 1024) <= k \/ (65535 < c / 1024 /\ c mod 1024 <= k)))
  | _, _ => True
  end.
(* the sides of the second and third axes for which the reduction along the second is done right *)
Definition reduce_fits (n1 n2 : Z) : Prop := n1 * n2 <= 2048 \/ (n2 mod 1024 = 0 /\ n1 * n2 <= 2 * (65535 * 1024)).
