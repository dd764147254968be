(* Block sparse matrices (matrices/BlockCsparseMatrix.hpp) and the storage of sparse tensors
   (sparse/SparseIndexer2.hpp, sparse/SparseTensorView.hpp). *)
From Coq Require Import ZArith List Bool Lia.
Import ListNotations.
From Verif Require Import Base Map Model_Containers Model_Index Model_View Model_Tensor.
Open Scope Z_scope.

(* the offset table filled from a list of pairs: offsets.set(i,j,t++) for each of them --
   BlockCsparseMatrix(nblocks,mblocks,blockn,blockm,mask,...), :78-92, the pairs being the calls of
   mask.for_each; SparseIndexer2(list), sparse/SparseIndexer2.hpp:31-36, the pairs being the rows of the list.
   The second component is the counter. *)
Definition offsets_of (mask : list (Z * Z)) : dmap * Z :=
  fold_left (fun st p => let '(d, t) := st in (dm_set (fst p) (snd p) t d, t + 1)) mask (dm_new, 0).

(* ---- BlockCsparseMatrix (CPU); mx is the tensor of all blocks *)
Record bcm := BCM { bnb : Z; bmb : Z; bbn : Z; bbm : Z; bmx : view; boffs : dmap }.
(* the constructor; b is the memory block of the new tensor *)
Definition bc_make (nb mb bn bm : Z) (mask : list (Z * Z)) (b : Z) : bcm :=
  BCM nb mb bn bm (fresh_view b [Z.of_nat (length mask); bn; bm]) (fst (offsets_of mask)).
(* is_filled(i,j), :132-136; offset(i,j), :138-142; block(i,j), :144-148 *)
Definition bc_is_filled (A : bcm) (i j : Z) : bool :=
  match mfind i (Model_Containers.rmap (boffs A)) with None => false | Some r => match mfind j r with None => false | Some _ => true end end.
Definition bc_offset (A : bcm) (i j : Z) : res Z :=
  match mfind i (Model_Containers.rmap (boffs A)) with
  | None => Throw
  | Some r => match mfind j r with None => Throw | Some t => Ok t end
  end.
Definition bc_block (A : bcm) (i j : Z) : res view :=
  assrt (i <? bnb A) (assrt (j <? bmb A) (do t <- bc_offset A i j; slice 0 t (bmx A))).
Section Apply.
Context {R : cring}.
Notation memR := (mem (car R)).
(* apply_to(r,x), :168-185, over for_each_block, :150-153 *)
Definition bc_apply (A : bcm) (r x : view) (m : memR) : res memR :=
  match vdims x, vdims r with
  | [x0; x1], [r0; r1] =>
      assrt (x0 =? bmb A * bbm A) (assrt (r0 =? bnb A * bbn A) (assrt (x1 =? r1)
        (foldM (fun c m =>
           let '(i, j, t) := c in
           do b <- slice 0 t (bmx A);
           do rr <- rows (i * bbn A) (bbn A) r;
           do xx <- rows (j * bbm A) (bbm A) x;
           tv_add_mprod rr b xx m) (mom_calls (Model_Containers.rmap (boffs A))) m)))
  | _, _ => Throw
  end.
(* apply_transp_to(r,x), :188-205 *)
Definition bc_apply_transp (A : bcm) (r x : view) (m : memR) : res memR :=
  match vdims x, vdims r with
  | [x0; x1], [r0; r1] =>
      assrt (x0 =? bnb A * bbn A) (assrt (r0 =? bmb A * bbm A) (assrt (x1 =? r1)
        (foldM (fun c m =>
           let '(i, j, t) := c in
           do b <- slice 0 t (bmx A);
           do bt <- transp b;
           do rr <- rows (j * bbm A) (bbm A) r;
           do xx <- rows (i * bbn A) (bbn A) x;
           tv_add_mprod rr bt xx m) (mom_calls (Model_Containers.rmap (boffs A))) m)))
  | _, _ => Throw
  end.
End Apply.

(* ---- SparseIndexer2, sparse/SparseIndexer2.hpp:31-55: offset(i,j) reads the table, which answers 0 for an
   absent pair (containers/double_indexed_map.hpp:80-86) *)
Record sindex := SIndex { sitab : dmap; sinf : Z }.
Definition si_make (l : list (Z * Z)) : sindex := SIndex (fst (offsets_of l)) (snd (offsets_of l)).
Definition si_offset (s : sindex) (i j : Z) : Z := mom_get i j (Model_Containers.rmap (sitab s)).
Definition si_calls (s : sindex) : list (Z * Z * Z) := mom_calls (Model_Containers.rmap (sitab s)).
(* split_strides(ddims,split,nsparse), sparse/SparseTensorView.hpp:72-82; position i of the loop as the
   argument of the recursion *)
Fixpoint split_from (i split ns : Z) (dd : list Z) : list Z :=
  match dd with
  | [] => []
  | [_] => [1]
  | _ :: ((d :: _) as l) =>
      let r := split_from (i + 1) split ns l in
      (hd 0 r * d * (if i =? split - 1 then ns else 1)) :: r
  end.
Definition split_strides (dd : list Z) (split ns : Z) : res (list Z) :=
  assrt (0 <? Z.of_nat (length dd)) (Ok (split_from 0 split ns dd)).
(* SparseTensorView(dims,split,list), :42-64: dense sides, strides, sstride, index table *)
Record stv := STV { sdd : list Z; sds : list Z; sss : Z; sidx : sindex; sblk : Z }.
Definition stv_make (dd : list Z) (split : Z) (l : list (Z * Z)) (b : Z) : res stv :=
  let ix := si_make l in
  do ds <- split_strides dd split (sinf ix);
  do s <- zget ds split; do d <- zget dd split;
  Ok (STV dd ds (s * d) ix b).
(* dense_block(i0,i1), :92-94 *)
Definition stv_block (T : stv) (i j : Z) : view := View (sblk T) (si_offset (sidx T) i j * sss T) (sdd T) (sds T).
