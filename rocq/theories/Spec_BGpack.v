(* Spec_BGpack.v -- what packs of tensors mean. *)
From Verif Require Import Base Model_Index Model_View Model_Tensor Spec_Index Spec_View Spec_Tensor Spec_Ops Model_BG Spec_BG Model_BGpack.
Require Import Sorting.Sorted.
Local Open Scope Z_scope.

(* the pack p has the part x under the key k *)
Definition has (p : pack) (k : Z) (x : bg) : Prop := p_get k p = Ok x.
(* the part that a history of insertions and removals leaves under the key k, where cur is the part there at the start: an insertion
   under a key in use changes nothing *)
Fixpoint left_at (k : Z) (cur : option bg) (h : list pop) : option bg :=
  match h with
  | [] => cur
  | Insert j x :: h => left_at k (if j =? k then match cur with Some y => Some y | None => Some x end else cur) h
  | Remove j :: h => left_at k (if j =? k then None else cur) h
  end.
(* l lists its keys in ascending order, each once *)
Definition ascending (l : list (Z * bg)) : Prop := StronglySorted Z.lt (map fst l).
(* a pack as insertions and removals produce it: each part has the batch size and the grid of the pack *)
Definition sound (p : pack) : Prop := ascending (parts p) /\ forall k x, has p k x -> exists c, shaped x (pb p) (pg p) c.
(* the same keys, and under each key tensors of the same shape *)
Definition alike (p x : pack) : Prop := (forall k, (exists a, has p k a) <-> (exists b, has x k b)) /\
  forall k a b, has p k a -> has x k b -> vdims (bv a) = vdims (bv b) /\ ng a = ng b.
(* parts that can be written to: their memory is there, the elements of a part have separate cells, and so have different parts *)
Definition writable {V} (m : mem V) (p : pack) : Prop :=
  (forall k a, has p k a -> plain_layout (bv a) /\ distinct_cells (bv a) /\ readable m (bv a)) /\
  forall k a j b, has p k a -> has p j b -> k <> j -> disjoint_views (bv a) (bv b).
Definition legible {V} (m : mem V) (p : pack) : Prop := forall k a, has p k a -> readable m (bv a).
(* a cell that p and x have in common is the same element of the part under the same key (so x may be p, or be apart from p) *)
Definition in_step (p x : pack) : Prop := forall k a j b ix jx, has p k a -> has x j b ->
  in_range ix (vdims (bv a)) -> in_range jx (vdims (bv b)) -> vaddr (bv a) ix = vaddr (bv b) jx -> k = j /\ ix = jx.
(* no cell in common *)
Definition apart (p x : pack) : Prop := forall k a j b, has p k a -> has x j b -> disjoint_views (bv a) (bv b).
(* in m' the elements of p are given by F from the element of p and the element of x in m; the rest of the memory is as before *)
Definition turns {R : cring} (F : R -> R -> R) (p x : pack) (m m' : mem (car R)) : Prop :=
  (forall k a b ix, has p k a -> has x k b -> in_range ix (vdims (bv a)) -> elem m' (bv a) ix = Some (F (elem0 m (bv a) ix) (elem0 m (bv b) ix))) /\
  (forall b c, (forall k a ix, has p k a -> in_range ix (vdims (bv a)) -> vaddr (bv a) ix <> Ok (b, c)) -> m' b c = m b c).
(* r is a new pack with the keys, shapes and grids of p, in blocks from nb on; the memory of the blocks before nb is as before *)
Definition builds {V} (nb : Z) (p r : pack) (m m' : mem V) : Prop :=
  alike p r /\ writable m' r /\ (forall k b, has r k b -> nb <= vblk (bv b)) /\ (forall b c, b < nb -> m' b c = m b c).
(* the strides of a new tensor of x's shape fit in an int *)
Definition small (p : pack) : Prop := forall k a, has p k a -> Forall (fun s => s < INT_MAX) (strides_of 1 (vdims (bv a))).
(* nothing lives in block nb or later *)
Definition free_from {V} (nb : Z) (m : mem V) : Prop := forall b a, nb <= b -> m b a = None.
