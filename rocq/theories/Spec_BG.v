(* Spec_BG.v -- what batches, grids and cells mean. *)
From Verif Require Import Base Spec_Index Model_View Spec_View Model_Threads Model_BG.
Local Open Scope Z_scope.
(* r is the common value of those entries of l that are not trivial *)
Definition fits {A} (trivial : A) (l : list A) (r : A) : Prop := In r l /\ forall a, In a l -> a = trivial \/ a = r.
(* x has batch size b, grid g and cells of shape c *)
Definition shaped (x : bg) (b : Z) (g c : list Z) : Prop :=
  vdims (bv x) = b :: g ++ c /\ ng x = Z.of_nat (length g) /\ vwf (bv x).
(* v is the cell of x (of batch size b, grid g and cell shape c) for batch index i and grid index ix, where an x
   without batches or without grid has the same cell for every i, every ix *)
Definition is_cell (x : bg) (i : Z) (ix : list Z) (v : view) : Prop :=
  exists b g c, shaped x b g c /\ vdims v = c /\ vwf v /\
    shows v (bv x) (fun jx => (if b =? 1 then 0 else i) :: (match g with [] => [] | _ => ix end) ++ jx).
(* what a trace shows: the calls with their arguments, and the events of the loop *)
Definition calls (tr : list event) : list (Z * list Z * list view) := flat_map (fun e => match e with Call b ix vs => [(b, ix, vs)] | _ => [] end) tr.
Definition called (tr : list event) : list (Z * list Z) := map fst (calls tr).
Definition returned (tr : list event) : Prop := In (Ev Return) tr.
(* every pair of a batch index and a grid index, in row-major order *)
Definition all_cells (B : Z) (gd : list Z) : list (Z * list Z) := flat_map (fun b => map (pair b) (all_indices gd)) (zrange B).
Definition right_cells (xs : list bg) (c : Z * list Z * list view) : Prop := Forall2 (fun x v => is_cell x (fst (fst c)) (snd (fst c)) v) xs (snd c).
(* an outcome decided by fits *)
Definition decides {A} (t : A) (l : list A) (o : res A) : Prop := (forall r, o = Ok r <-> fits t l r) /\ (o = Throw <-> ~ exists r, fits t l r).
(* x can be combined with others to batch size B and grid gd *)
Definition joins (B : Z) (gd : list Z) (x : bg) : Prop := exists b g c, shaped x b g c /\ (b = 1 \/ b = B) /\ (g = [] \/ g = gd).
(* the value of sequential: the target tensor has batch size one *)
Definition lone (xs : list bg) (target : Z) : Prop := exists x, zget xs target = Ok x /\ getb x = Ok 1.
(* call number b gets, for each tensor, the slice of batch b, or batch 0 if the tensor has only one batch *)
Definition right_slices (vs : list view) (b : Z) (c : Z * list view) : Prop :=
  fst c = b /\ Forall2 (fun v w => exists n d, vdims v = n :: d /\ vdims w = d /\ shows w v (fun jx => (if n =? 1 then 0 else b) :: jx)) vs (snd c).
