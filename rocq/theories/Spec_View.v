(* Spec_View.v -- vocabulary for statements about views. *)
From Verif Require Import Base Model_Index Model_View Spec_Index.
Local Open Scope Z_scope.

(* an index with entry x inserted at position d / with the entry at position d dropped *)
Fixpoint ins (d : nat) (x : Z) (l : list Z) : list Z :=
  match d, l with
  | O, _ => x :: l
  | S d', a :: l' => a :: ins d' x l'
  | S _, [] => [x]
  end.
Fixpoint del (d : nat) (l : list Z) : list Z :=
  match d, l with
  | _, [] => []
  | O, _ :: l' => l'
  | S d', a :: l' => a :: del d' l'
  end.

(* a view whose stride vector matches its shape and whose sides are not negative *)
Definition vwf (v : view) : Prop := length (vstr v) = length (vdims v) /\ nonneg (vdims v).

(* v' shows, at every in-range index ix, the element of v at index f ix, which is in range for v *)
Definition shows (v' v : view) (f : list Z -> list Z) : Prop :=
  forall ix, in_range ix (vdims v') ->
    in_range (f ix) (vdims v) /\ vaddr v' ix = vaddr v (f ix).

(* distinct in-range indices address distinct cells *)
Definition distinct_cells (v : view) : Prop :=
  forall ix jx, in_range ix (vdims v) -> in_range jx (vdims v) -> vaddr v ix = vaddr v jx -> ix = jx.

(* every element lies in cells [0,n) of block b *)
Definition inside (v : view) (b n : Z) : Prop :=
  forall ix, in_range ix (vdims v) -> exists a, vaddr v ix = Ok (b, a) /\ 0 <= a < n.

(* arguments that the code does not check itself: positions and windows must be in range *)
Definition args_ok (o : vop) (v : view) : Prop :=
  match o with
  | OPermute p => is_perm p
  | OReshape d => nonneg d
  | OInsertDim _ n => 0 <= n
  | OFuse a b => a <> b
  | OSplit0 a b | OSplit1 a b => 0 <= a /\ 0 <= b
  | OSplit _ a => 0 < a
  | OCinflate _ n => 0 <= n
  | ORow i | OCol i => 0 <= i
  | ORows i n | OCols i n => 0 <= i /\ 0 <= n
  | OBlock d off => nonneg d /\ nonneg off
  | OSlice d i => exists n, zget (vdims v) d = Ok n /\ 0 <= i < n
  | OSlicePrefix ix => in_range ix (firstn (length ix) (vdims v))
  | OSlices d i n => exists m, zget (vdims v) d = Ok m /\ 0 <= i /\ 0 <= n /\ i + n <= m
  | _ => True
  end.
Definition is_broadcast (o : vop) : bool :=
  match o with OInsertDim _ _ | OCinflate _ _ => true | _ => false end.

(* a run of view operations in which every step has acceptable arguments *)
Inductive valid_run : list vop -> view -> view -> Prop :=
| vr_nil v : valid_run [] v v
| vr_cons o l v v' v'' : args_ok o v -> apply_vop o v = Ok v' -> valid_run l v' v'' ->
    valid_run (o :: l) v v''.

(* jx is ix with the entries at positions a and b exchanged *)
Definition exchanged (a b : nat) (ix jx : list Z) : Prop :=
  length jx = length ix /\ nth a jx 0 = nth b ix 0 /\ nth b jx 0 = nth a ix 0 /\
  forall k, k <> a -> k <> b -> nth k jx 0 = nth k ix 0.

(* jx lists the entries of ix in the order p: jx_k = ix_{p_k} *)
Definition permuted (p : list Z) (ix jx : list Z) : Prop :=
  length jx = length p /\ forall k, (k < length p)%nat -> nth k jx 0 = nth (Z.to_nat (nth k p 0)) ix 0.

(* the two views list the same cells in the same row-major order *)
Definition same_order (v' v : view) : Prop :=
  map (vaddr v') (all_indices (vdims v')) = map (vaddr v) (all_indices (vdims v)).

(* every element of v' is an element of v *)
Definition part_of (v' v : view) : Prop :=
  forall ix, in_range ix (vdims v') -> exists jx, in_range jx (vdims v) /\ vaddr v' ix = vaddr v jx.

(* positions js, strictly increasing and at least m *)
Fixpoint incr_from (m : nat) (js : list nat) : Prop :=
  match js with [] => True | j :: js' => (m <= j)%nat /\ incr_from (S j) js' end.
(* a shape without the entries at (increasing) positions js; an index with x re-inserted at those positions *)
Fixpoint dels (js : list nat) (l : list Z) : list Z :=
  match js with [] => l | j :: js' => del j (dels js' l) end.
Definition inss (js : list nat) (x : Z) (l : list Z) : list Z := fold_left (fun l j => ins j x l) js l.
