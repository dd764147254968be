(* Spec_RView.v -- what operations on the fixed-rank views do to the elements, and the matrices that lists of
   rotations and scalings produce. *)
From Verif Require Import Base Model_Index Model_View Spec_Index Spec_View Spec_Tensor.
Local Open Scope Z_scope.

(* every element of r becomes g of its old value and of the old value of x at the same index;
   all other memory is as before *)
Definition updates {V} (g : V -> V -> V) (r x : view) (m m' : mem V) : Prop :=
  (forall ix v w, in_range ix (vdims r) -> elem m r ix = Some v -> elem m x ix = Some w -> elem m' r ix = Some (g v w)) /\
  untouched m m' r.
(* every element of r is increased by g of its index *)
Definition gains {R : cring} (r : view) (g : list Z -> R) (m m' : mem (car R)) : Prop :=
  (forall ix v, in_range ix (vdims r) -> elem m r ix = Some v -> elem m' r ix = Some (cadd v (g ix))) /\
  untouched m m' r.
(* every element of r becomes g of its index *)
Definition becomes {V} (r : view) (g : list Z -> V) (m m' : mem V) : Prop :=
  (forall ix, in_range ix (vdims r) -> elem m' r ix = Some (g ix)) /\ untouched m m' r.

(* r and x have the same shape and an element of r shares its cell at most with the same element of x *)
Definition zipable {V} (r x : view) (m : mem V) : Prop :=
  vwf r /\ vwf x /\ vdims x = vdims r /\ distinct_cells r /\ readable m r /\ readable m x /\ no_clobber r x.
(* r is an array of its own, disjoint from the arguments xs *)
Definition operands {V} (r : view) (xs : list view) (m : mem V) : Prop :=
  vwf r /\ distinct_cells r /\ readable m r /\ Forall (fun x => vwf x /\ readable m x /\ disjoint_views r x) xs.
(* memory outside both r and v is as before *)
Definition untouched2 {V} (m m' : mem V) (r v : view) : Prop :=
  forall b a, (forall ix, in_range ix (vdims r) -> vaddr r ix <> Ok (b, a)) -> (forall ix, in_range ix (vdims v) -> vaddr v ix <> Ok (b, a)) -> m' b a = m b a.

(* slices p and q of the tensor M, M[p] and M[q], replaced by a*M[p]+b*M[q] and s*(a*M[q]-b*M[p]) *)
Definition rotated {R : cring} (s : R) (op : Z * Z * (R * R)) (M : list Z -> R) : list Z -> R := fun ix =>
  match ix with
  | [] => M ix
  | i :: jx => let '(p, q, (a, b)) := op in
               if i =? q then cmul s (csub (cmul a (M (q :: jx))) (cmul b (M (p :: jx))))
               else if i =? p then cadd (cmul a (M (p :: jx))) (cmul b (M (q :: jx)))
               else M ix
  end.
(* slice p of M multiplied by c *)
Definition scaled {R : cring} (op : Z * R) (M : list Z -> R) : list Z -> R := fun ix =>
  match ix with [] => M ix | i :: jx => if i =? fst op then cmul (M ix) (snd op) else M ix end.
(* the sum of the squares of M[0],M[1],..,M[n-1] at jx *)
Definition sqsum {R : cring} (n : Z) (M : list Z -> R) (jx : list Z) : R := rsum (map (fun i => cmul (M (i :: jx)) (M (i :: jx))) (zrange n)).
