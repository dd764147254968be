(* Spec_Tensor.v -- vocabulary for statements about tensor contents. *)
From Verif Require Import Base Model_Index Model_View Model_Tensor Spec_Index Spec_View.
Local Open Scope Z_scope.

(* the element of tensor v at index ix in memory m (None: no such cell) *)
Definition elem {V} (m : mem V) (v : view) (ix : list Z) : option V :=
  match vaddr v ix with Ok (b, a) => m b a | _ => None end.
(* every element of v is in allocated memory *)
Definition readable {V} (m : mem V) (v : view) : Prop :=
  forall ix, in_range ix (vdims v) -> elem m v ix <> None.
(* memory outside the elements of v is the same in m' as in m *)
Definition untouched {V} (m m' : mem V) (v : view) : Prop :=
  forall b a, (forall ix, in_range ix (vdims v) -> vaddr v ix <> Ok (b, a)) -> m' b a = m b a.
(* an element of r shares its cell with an element of x only if both have the same index
   (so x may be r itself, or be disjoint from r) *)
Definition no_clobber (r x : view) : Prop :=
  forall ix jx, in_range ix (vdims r) -> in_range jx (vdims x) -> vaddr r ix = vaddr x jx -> ix = jx.
(* the two views have no cell in common *)
Definition disjoint_views (r x : view) : Prop :=
  forall ix jx, in_range ix (vdims r) -> in_range jx (vdims x) -> vaddr r ix <> vaddr x jx.

(* the layouts that view operations on fresh tensors produce: strides are not negative and fit in an
   int, and there is a positive stride unless the tensor has no dimensions *)
Definition plain_layout (v : view) : Prop :=
  length (vstr v) = length (vdims v) /\ nonneg (vdims v) /\
  Forall (fun s => 0 <= s < INT_MAX) (vstr v) /\ (vdims v = [] \/ Exists (fun s => 0 < s) (vstr v)).

(* the same element, 0 if there is none *)
Definition elem0 {R : cring} (m : mem (car R)) (v : view) (ix : list Z) : R :=
  match elem m v ix with Some x => x | None => c0 end.

(* the side of a list of tensors stacked along dimension d *)
Definition total_side (d : nat) (l : list view) : Z := fold_right Z.add 0 (map (fun x => nth d (vdims x) 0) l).
