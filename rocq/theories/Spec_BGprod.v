(* Spec_BGprod.v -- what products and quotients of batched and gridded tensors mean. *)
From Verif Require Import Base Spec_Index Model_View Spec_View Model_Tensor Spec_Tensor Model_Threads Model_BG Spec_BG.
Local Open Scope Z_scope.
(* a place: a batch index, a grid index and an index inside the cell; all of those for B batches, grid gd and cells of
   shape cd *)
Definition place : Type := (Z * list Z * list Z)%type.
Definition all_places (B : Z) (gd cd : list Z) : list place := flat_map (fun c => map (pair c) (all_indices cd)) (all_cells B gd).
(* the index at which a tensor with b batches, grid g and cells of shape c has its element for a place: what it does not
   have (several batches, a grid, cells) does not count *)
Definition part (b : Z) (g c : list Z) (f : place) : list Z :=
  (if b =? 1 then 0 else fst (fst f)) :: (match g with [] => [] | _ => snd (fst f) end) ++ (match c with [] => [] | _ => snd f end).
Definition same_index (k l : list Z) : bool := if list_eq_dec Z.eq_dec k l then true else false.
Section S.
Context {R : cring}.
Notation memR := (mem (car R)).
(* the element of x for a place *)
Definition val (m : memR) (x : bg) (b : Z) (g c : list Z) (f : place) : R := elem0 m (bv x) (part b g c f).
(* m' is m with F f added, for every place f, to the element of r for f; nothing else is changed *)
Definition adds (m m' : memR) (r : bg) (b : Z) (g c : list Z) (B : Z) (gd cd : list Z) (F : place -> R) : Prop :=
  (forall k, in_range k (vdims (bv r)) ->
     elem m' (bv r) k = Some (cadd (elem0 m (bv r) k) (rsum (map F (filter (fun f => same_index (part b g c f) k) (all_places B gd cd)))))) /\
  untouched m m' (bv r).
(* r can be written, x can be read and lies elsewhere *)
Definition target_ok (m : memR) (r : bg) : Prop := distinct_cells (bv r) /\ readable m (bv r).
Definition source_ok (m : memR) (r x : bg) : Prop := readable m (bv x) /\ disjoint_views (bv r) (bv x).
End S.
(* the cases in which no two threads share views: the target has one batch, no second thread is allowed, or no grid *)
Definition calm (br : Z) (nt : Z) (gd : list Z) : Prop := br = 1 \/ nt <= 1 \/ gd = [].
(* r, x and y have these shapes, with batch sizes B or 1 and grids gd or none; r can be written; x and y lie elsewhere *)
Definition joined {R : cring} (m : mem (car R)) (r : bg) (br : Z) (gr cr : list Z) (x : bg) (bx : Z) (gx cx : list Z) (y : bg) (by_ : Z) (gy cy : list Z) (B : Z) (gd : list Z) (nt : Z) : Prop :=
  shaped r br gr cr /\ shaped x bx gx cx /\ shaped y by_ gy cy /\ 0 < br /\ 0 < bx /\ 0 < by_ /\ fits 1 [br; bx; by_] B /\ fits [] [gr; gx; gy] gd /\
  target_ok m r /\ source_ok m r x /\ source_ok m r y /\ calm br nt gd.
(* (r,m') is a new tensor in block k with element F f for the place f, the rest of the memory being that of m *)
Definition makes {R : cring} (m : mem (car R)) (k B : Z) (gd cd : list Z) (F : place -> R) (rm : bg * mem (car R)) : Prop :=
  shaped (fst rm) B gd cd /\ vblk (bv (fst rm)) = k /\
  (forall f, In f (all_places B gd cd) -> elem (snd rm) (bv (fst rm)) (part B gd cd f) = Some (F f)) /\
  (forall b a, b <> k -> snd rm b a = m b a).
(* sum over the elements of r *)
Definition over_elems {R : cring} (r : bg) (F : list Z -> R) : R := rsum (map F (all_indices (vdims (bv r)))).
