(* Model_BlockMul.v -- the product of two block sparse matrices and the tables made from their offsets:
   matrices/BlockCsparseMatrix.hpp, hpc/GatherMapB.hpp. *)
From Coq Require Import ZArith List Bool Lia.
Import ListNotations.
From Verif Require Import Base Map Model_Containers Model_Index Model_View Model_Tensor Model_Ops Model_Gather Model_Block.
Open Scope Z_scope.

(* offsets.rmap and offsets.cmap in the order in which std::map is walked, containers/double_indexed_map.hpp:28-29 *)
Definition walk (t : mom) : list (Z * zmap Z) := map (fun p => (fst p, by_key (snd p))) (by_key t).

(* the pairs for which R.offsets.set(p1.first,p2.first,t++) is called, :212-221 *)
Definition bc_mul_pairs (A B : bcm) : list (Z * Z) :=
  flat_map (fun p1 => flat_map (fun p2 =>
    if existsb (fun q1 => match mfind (fst q1) (snd p2) with Some _ => true | None => false end) (snd p1) then [(fst p1, fst p2)] else [])
    (walk (cmap (boffs B)))) (walk (Model_Containers.rmap (boffs A))).
Section Mul.
Context {R : cring}.
Notation memR := (mem (car R)).
(* operator*(x), :208-230.  R is default-constructed, :73: its members nblocks, mblocks, blockn, blockm (:43-46) are never
   given a value; un, um, ubn, ubm stand for what they happen to hold.  (Reading them, as block() does, is undefined
   behaviour strictly speaking; here they are read as some integers, the same each time.)  b is the memory block of R.mx.
   block(i,j) of the constant offsets table, :144-148. *)
Definition bc_mul_step (C A B : bcm) (i j k : Z) (m : memR) : res memR :=
  do r <- bc_block C i k; do x <- bc_block A i j; do y <- bc_block B j k; tv_add_mprod r x y m.
Definition bc_mul (un um ubn ubm : Z) (b : Z) (A B : bcm) (m : memR) : res (bcm * memR) :=
  let '(offs, t) := offsets_of (bc_mul_pairs A B) in
  let '(v, m) := zeros c0 b [t; bbn A; bbm B] m in
  let C := BCM un um ubn ubm v offs in
  do m <- foldM (fun p1 => foldM (fun p2 => foldM (fun q1 m =>
    match mfind (fst q1) (snd p2) with Some _ => bc_mul_step C A B (fst p1) (fst q1) (fst p2) m | None => Ok m end)
    (snd p1)) (walk (cmap (boffs B)))) (walk (Model_Containers.rmap (boffs A))) m;
  Ok (C, m).
End Mul.

(* GatherMapB(map<int,map<int,int>>), hpc/GatherMapB.hpp:172-195: the same steps as for a map of lists, with the keys of
   the inner maps *)
Definition gm_of_maps (t : mom) (oc ic ocn icn : Z) : res gmap :=
  gm_of_lists (map (fun p => (fst p, map fst (snd p))) (walk t)) oc ic ocn icn.
(* gather_mapL and gather_mapR, BlockCsparseMatrix.hpp:52-56 *)
Definition bc_gatherL (A : bcm) : res gmap := gm_of_maps (Model_Containers.rmap (boffs A)) 1 1 1 1.
Definition bc_gatherR (A : bcm) : res gmap := gm_of_maps (cmap (boffs A)) 1 1 1 1.
(* row_offsets, BlockCsparseMatrix.hpp:58-64: p.second.begin() of an empty map would be undefined.  The tensor of one axis as a list *)
Definition bc_row_offsets (A : bcm) : res (list Z) :=
  mapM (fun p => match snd p with [] => UB | q :: _ => Ok (snd q) end) (walk (Model_Containers.rmap (boffs A))).
