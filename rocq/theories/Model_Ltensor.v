(* Model_Ltensor.v -- tensors whose leading dimensions are labelled as a batch and as a grid.
   tensors/Ltensor.hpp, tensors/DimLabels.hpp, tensors/LtensorSpec.hpp.
   Simplifications: no device field (CPU only); CNINE_CHECK_RANGE is compiled out by default and absent; int and
   size_t are Z; element types are an arbitrary commutative ring where arithmetic is used.  Printing, the
   conversions between element types, from IntTensor and from ATen, the memory-managed constructors and the hash
   are not modelled. *)
From Verif Require Import Base Model_Index Model_View Model_Tensor Model_Ops Model_RView.
Local Open Scope Z_scope.

(* DimLabels: _batched, _narray -- tensors/DimLabels.hpp:24-35 *)
Record dlabels := DL { batched : bool; narray : Z }.
(* the implicit conversion of bool to int *)
Definition b2z (b : bool) : Z := if b then 1 else 0.
(* DimLabels::set_batched, set_ngrid -- tensors/DimLabels.hpp:56-59, 74-77 *)
Definition set_batched (x : bool) (l : dlabels) : dlabels := DL x (narray l).
Definition set_ngrid (x : Z) (l : dlabels) : dlabels := DL (batched l) x.
(* gdims, gstrides -- tensors/DimLabels.hpp:65-72: chunk(_batched,_narray) *)
Definition dl_grid (l : dlabels) (x : list Z) : res (list Z) := vchunk (b2z (batched l)) (narray l) x.
(* cdims, cstrides -- tensors/DimLabels.hpp:83-90 *)
Definition dl_cell (l : dlabels) (x : list Z) : res (list Z) := vchunk (b2z (batched l) + narray l) (-1) x.
(* bcdims, bcstrides -- tensors/DimLabels.hpp:96-104 *)
Definition dl_bcell (l : dlabels) (x : list Z) : res (list Z) :=
  if batched l then do c <- vchunk (1 + narray l) (-1) x; do x0 <- zget x 0; Ok (vprepend x0 c)
  else vchunk (narray l) (-1) x.

(* Ltensor: a TensorView and its labels -- tensors/Ltensor.hpp:42-76 *)
Record ltensor := LT { lview : view; llab : dlabels }.
(* a member that builds its result from an array, dims and strides leaves the labels at their default
   -- tensors/Ltensor.hpp:94-95 *)
Definition plain (v : view) : ltensor := LT v (DL false 0).

(* ---- construction ---- *)
(* TensorView(dims,fcode,dev) -- tensors/TensorView.hpp:144-198: 0 zeros, 1 uninitialised, 2 ones, 3 the position
   in memory, 4 gaussian, anything else uninitialised.  junk gives the content of uninitialised memory, rnd the
   random numbers drawn, of_int the conversion of an index. *)
Definition new_cell {V} (zero one : V) (of_int : Z -> V) (rnd junk : Z -> V) (fcode a : Z) : V :=
  if fcode =? 0 then zero else if fcode =? 2 then one else if fcode =? 3 then of_int a
  else if fcode =? 4 then rnd a else junk a.
Definition new_mem {V} (zero one : V) (of_int : Z -> V) (rnd junk : Z -> V) (fcode b n : Z) (m : mem V) : mem V :=
  fun b' a => if b' =? b then (if (0 <=? a) && (a <? n) then Some (new_cell zero one of_int rnd junk fcode a) else None) else m b' a.
(* the static functions zero, raw, ones, gaussian pass these codes -- tensors/Ltensor.hpp:196-210 *)
Definition code_zero : Z := 0.
Definition code_raw : Z := 1.
Definition code_ones : Z := 1.
Definition code_gaussian : Z := 4.
(* the constructors with fill_zero, fill_raw, fill_ones, fill_sequential, fill_gaussian -- tensors/Ltensor.hpp:171-184 *)
Definition fill_code (k : nat) : Z := nth k [0; 1; 2; 3; 4] 1.

(* Gdims(b,d) and Gdims(b,d1,d2) -- include/Gdims.hpp:104-108, 124-129: b comes first, whatever its value *)
Definition bdims (b : Z) (d : list Z) : list Z := b :: d.
Definition bgdims (b : Z) (g d : list Z) : list Z := b :: g ++ d.
(* Ltensor(b,ddims,fcode,dev) -- tensors/Ltensor.hpp:100-102, labels(_b) converts the int to bool *)
Definition lt_b (blk b : Z) (d : list Z) : ltensor := LT (fresh_view blk (bdims b d)) (DL (negb (b =? 0)) 0).
(* Ltensor(b,gdims,ddims,fcode,dev) -- tensors/Ltensor.hpp:104-106; reset(b,gdims,ddims,..) :108-111 and the
   constructor with named parameters :137-143 build the same *)
Definition lt_bg (blk b : Z) (g d : list Z) : ltensor :=
  LT (fresh_view blk (bgdims b g d)) (DL (negb (b =? 0)) (Z.of_nat (length g))).
(* Ltensor(dims,labels,fcode,dev) -- tensors/Ltensor.hpp:117-119 *)
Definition lt_labelled (blk : Z) (dims : list Z) (l : dlabels) : ltensor := LT (fresh_view blk dims) l.

(* LtensorSpecBase: nbatch, adims, ddims -- tensors/LtensorSpec.hpp:29-53 (fill code and device left out) *)
Record lspec := LS { sbatch : Z; sgrid : list Z; sdims : list Z }.
(* tensors/LtensorSpec.hpp:46-51 *)
Definition spec_of (dims : list Z) (l : dlabels) : res lspec :=
  do nb <- (if batched l then zget dims 0 else Ok 0);
  do g <- vchunk (b2z (batched l)) (narray l) dims;
  do d <- vchunk (b2z (batched l) + narray l) (-1) dims;
  Ok (LS nb g d).
(* get_dims -- tensors/LtensorSpec.hpp:84-90 *)
Definition spec_dims (s : lspec) : list Z :=
  (if 0 <? sbatch s then [sbatch s] else []) ++ sgrid s ++ sdims s.
(* get_labels -- tensors/LtensorSpec.hpp:92-97 *)
Definition spec_labels (s : lspec) : dlabels := DL (0 <? sbatch s) (Z.of_nat (length (sgrid s))).
(* LtensorSpec::operator() -- tensors/LtensorSpec.hpp:138-140 *)
Definition lt_spec (blk : Z) (s : lspec) : ltensor := lt_labelled blk (spec_dims s) (spec_labels s).

(* copy, zeros_like -- tensors/Ltensor.hpp:260-265, 282-285 *)
Definition lt_copy {V} (z : V) (b : Z) (x : ltensor) (m : mem V) : res (ltensor * mem V) :=
  let r := fresh_view b (vdims (lview x)) in
  do m' <- tv_assign r (lview x) (Model_Tensor.alloc z b (asize (vdims (lview x))) m); Ok (LT r (llab x), m').

(* ---- batches ---- *)
(* is_batched, getb, nbatch -- tensors/Ltensor.hpp:406-418 *)
Definition nbatch (x : ltensor) : res Z := if batched (llab x) then zget (vdims (lview x)) 0 else Ok 1.
(* batch -- tensors/Ltensor.hpp:420-424 *)
Definition batch (i : Z) (x : ltensor) : res ltensor :=
  assrt (batched (llab x))
    (do s0 <- zget (vstr (lview x)) 0;
     do d <- vchunk 1 (-1) (vdims (lview x)); do s <- vchunk 1 (-1) (vstr (lview x));
     Ok (LT (View (vblk (lview x)) (voff (lview x) + s0 * i) d s) (set_batched false (llab x)))).
(* for_each_batch -- tensors/Ltensor.hpp:426-430 *)
Definition for_each_batch {S} (f : Z -> ltensor -> S -> res S) (x : ltensor) (st : S) : res S :=
  do B <- nbatch x; forZ B (fun b st => do y <- batch b x; f b y st) st.

(* ---- grid and cells ---- *)
(* nbgdims -- tensors/Ltensor.hpp:444-446 *)
Definition nbgdims (x : ltensor) : Z := b2z (batched (llab x)) + narray (llab x).
(* gdims, gstrides -- tensors/Ltensor.hpp:448-450, 461-463 *)
Definition gdims (x : ltensor) : res (list Z) := dl_grid (llab x) (vdims (lview x)).
Definition gstrides (x : ltensor) : res (list Z) := dl_grid (llab x) (vstr (lview x)).
(* total_bgdims -- tensors/Ltensor.hpp:456-459 *)
Definition total_bgdims (x : ltensor) : res Z :=
  if nbgdims x =? 0 then Ok 1
  else do d0 <- zget (vdims (lview x)) 0; do s0 <- zget (vstr (lview x)) 0;
       do sl <- zget (vstr (lview x)) (nbgdims x - 1); cdiv (d0 * s0) sl.
(* min_gstride -- tensors/Ltensor.hpp:465-468 *)
Definition min_gstride (x : ltensor) : res Z :=
  if nbgdims x =? 0 then Ok 0 else zget (vstr (lview x)) (nbgdims x - 1).
(* cdims, cstrides -- tensors/Ltensor.hpp:509-511, 518-520 *)
Definition cdims (x : ltensor) : res (list Z) := dl_cell (llab x) (vdims (lview x)).
Definition cstrides (x : ltensor) : res (list Z) := dl_cell (llab x) (vstr (lview x)).
(* ncdims, cdim, cstride -- tensors/Ltensor.hpp:505-507, 513-516, 522-525 *)
Definition ncdims (x : ltensor) : Z := ndims (lview x) - narray (llab x) - b2z (batched (llab x)).
Definition cdim (i : Z) (x : ltensor) : res Z :=
  assrt (i + nbgdims x <? ndims (lview x)) (zget (vdims (lview x)) (nbgdims x + i)).
Definition cstride (i : Z) (x : ltensor) : res Z :=
  assrt (i + nbgdims x <? ndims (lview x)) (zget (vstr (lview x)) (nbgdims x + i)).

(* cell(ix) -- tensors/Ltensor.hpp:470-477; the branch for batched tensors is never reached *)
Definition cell (ix : list Z) (x : ltensor) : res ltensor :=
  assrt (negb (batched (llab x))) (assrt (Z.of_nat (length ix) =? narray (llab x))
    (do gs <- gstrides x; do o <- offs gs ix; do d <- cdims x; do s <- cstrides x;
     Ok (LT (View (vblk (lview x)) (voff (lview x) + o) d s) (set_ngrid 0 (llab x))))).
(* cell(b,ix) -- tensors/Ltensor.hpp:479-484 *)
Definition cell_b (b : Z) (ix : list Z) (x : ltensor) : res ltensor :=
  assrt (batched (llab x))
    (do B <- nbatch x;
     assrt (b <? B) (assrt (Z.of_nat (length ix) =? narray (llab x))
       (do s0 <- zget (vstr (lview x)) 0; do gs <- gstrides x; do o <- offs gs ix; do d <- cdims x; do s <- cstrides x;
        Ok (LT (View (vblk (lview x)) (voff (lview x) + s0 * b + o) d s) (set_ngrid 0 (set_batched false (llab x))))))).
(* batched_cell(ix) -- tensors/Ltensor.hpp:539-542 *)
Definition batched_cell (ix : list Z) (x : ltensor) : res ltensor :=
  assrt (Z.of_nat (length ix) =? narray (llab x))
    (do gs <- gstrides x; do o <- offs gs ix; do d <- dl_bcell (llab x) (vdims (lview x)); do s <- dl_bcell (llab x) (vstr (lview x));
     Ok (LT (View (vblk (lview x)) (voff (lview x) + o) d s) (set_ngrid 0 (llab x)))).
(* for_each_cell -- tensors/Ltensor.hpp:486-491 and 493-499.  The index vector is converted to a Gindex, which keeps
   entries that are not negative, and those visited are not. *)
Definition for_each_cell {S} (f : list Z -> ltensor -> S -> res S) (x : ltensor) (st : S) : res S :=
  assrt (negb (batched (llab x)))
    (do g <- gdims x; foreach_index g (fun ix st => do y <- cell ix x; f ix y st) st).
Definition for_each_cell_b {S} (f : Z -> list Z -> ltensor -> S -> res S) (x : ltensor) (st : S) : res S :=
  assrt (batched (llab x))
    (do B <- nbatch x;
     forZ B (fun b st => do g <- gdims x; foreach_index g (fun ix st => do y <- cell_b b ix x; f b ix y st) st) st).

(* ---- the batch and the grid as one dimension ---- *)
(* batch_grid_fused_view2_of, batch_grid_fused_view3_of -- tensors/Ltensor.hpp:942-952, 962-972 (int and float; the
   complex ones :954-959, :974-979 double every stride) *)
Definition bg_fused2 (x : ltensor) : res view :=
  assrt (ncdims x =? 1)
    (do t <- total_bgdims x; do c0 <- cdim 0 x; do g <- min_gstride x; do s0 <- cstride 0 x;
     Ok (View (vblk (lview x)) (voff (lview x)) [t; c0] [g; s0])).
Definition bg_fused3 (x : ltensor) : res view :=
  assrt (ncdims x =? 2)
    (do t <- total_bgdims x; do c0 <- cdim 0 x; do c1 <- cdim 1 x;
     do g <- min_gstride x; do s0 <- cstride 0 x; do s1 <- cstride 1 x;
     Ok (View (vblk (lview x)) (voff (lview x)) [t; c0; c1] [g; s0; s1])).

(* the matrices mult multiplies: the rows of all cells of x below each other; of y one cell
   -- tensors/Ltensor.hpp:1010-1012 *)
Definition rows_view (x : ltensor) : res view :=
  do t <- total_bgdims x; do c0 <- cdim 0 x; do c1 <- cdim 1 x; do s0 <- cstride 0 x; do s1 <- cstride 1 x;
  Ok (View (vblk (lview x)) (voff (lview x)) [t * c0; c1] [s0; s1]).
Definition cell_view (y : ltensor) : res view :=
  do c0 <- cdim 0 y; do c1 <- cdim 1 y; do s0 <- cstride 0 y; do s1 <- cstride 1 y;
  Ok (View (vblk (lview y)) (voff (lview y)) [c0; c1] [s0; s1]).
(* mult(x,y) for float -- tensors/Ltensor.hpp:1006-1015; mprod and operator* :647-653 call it.  set_back and back
   read the last entry, which is UB for no dimensions *)
Definition lt_mult {R : cring} (b : Z) (x y : ltensor) (m : mem (car R)) : res (ltensor * mem (car R)) :=
  match vdims (lview x), vdims (lview y) with
  | _ :: _, _ :: _ =>
      let d := removelast (vdims (lview x)) ++ [last (vdims (lview y)) 0] in
      let r := lt_labelled b d (llab x) in
      do rv <- rows_view r; do xv <- rows_view x; do yv <- cell_view y;
      do m' <- rv2_AA rv xv yv (Model_Tensor.alloc c0 b (asize d) m);
      Ok (r, m')
  | _, _ => UB
  end.

(* ---- rows and columns ---- *)
(* row, rows -- tensors/Ltensor.hpp:677-687: as for TensorView *)
Definition lt_row (i : Z) (x : ltensor) : res ltensor := do v <- row i (lview x); Ok (plain v).
Definition lt_rows (i n : Z) (x : ltensor) : res ltensor := do v <- rows i n (lview x); Ok (plain v).
(* col, cols -- tensors/Ltensor.hpp:689-700: the last dimension of a tensor with any number of dimensions *)
Definition lt_col (i : Z) (x : ltensor) : res ltensor :=
  let v := lview x in let k := ndims v in
  assrt (0 <? k) (assrt (i <? last (vdims v) 0)
    (do d <- vchunk 0 (k - 1) (vdims v); do s <- vchunk 0 (k - 1) (vstr v);
     do sl <- zget (vstr v) (Z.of_nat (length (vstr v)) - 1);
     Ok (plain (View (vblk v) (voff v + sl * i) d s)))).
Definition lt_cols (i n : Z) (x : ltensor) : res ltensor :=
  let v := lview x in let k := ndims v in
  assrt (0 <? k) (assrt (i + n <=? last (vdims v) 0)
    (do d <- vset (k - 1) n (vdims v); do sl <- zget (vstr v) (Z.of_nat (length (vstr v)) - 1);
     Ok (plain (View (vblk v) (voff v + sl * i) d (vstr v))))).

(* ---- index manipulations ---- *)
(* diag(ix) -- tensors/Ltensor.hpp:726-738: as TensorView::diag(ix) *)
Definition lt_diag (ix : list Z) (x : ltensor) : res ltensor := do v <- diag_ix ix (lview x); Ok (plain v).
(* broadcast -- tensors/Ltensor.hpp:740-742 *)
Definition lt_broadcast (d n : Z) (x : ltensor) : res ltensor := do v <- insert_dim d n (lview x); Ok (plain v).
(* unsqueeze -- tensors/Ltensor.hpp:750-755 *)
Definition lt_unsqueeze (d : Z) (x : ltensor) : res ltensor :=
  let v := lview x in
  assrt (d <? ndims v)
    (do D <- vinsert d 1 (vdims v); do s <- zget (vstr v) d; do S <- vinsert d s (vstr v);
     Ok (plain (View (vblk v) (voff v) D S))).
(* split -- tensors/Ltensor.hpp:757-764: as TensorView::split *)
Definition lt_split (d a : Z) (x : ltensor) : res ltensor := do v <- split d a (lview x); Ok (plain v).
(* fuse -- tensors/Ltensor.hpp:766-778: the smallest stride is found (fuse_scan) and not used *)
Fixpoint fuse_scan (t s : Z) (ix : list Z) (v : view) : res (Z * Z) :=
  match ix with
  | [] => Ok (t, s)
  | i :: ix' =>
      assrt (i <? ndims v)
        (do d <- zget (vdims v) i; do u <- zget (vstr v) i; fuse_scan (t * d) (if u <? s then u else s) ix' v)
  end.
Definition lt_fuse (ix : list Z) (x : ltensor) : res ltensor :=
  let v := lview x in
  match ix with
  | [] => Throw
  | i0 :: ix0 =>
      assrt (i0 <? ndims v)
        (do t0 <- zget (vdims v) i0; do s0 <- zget (vstr v) i0;
         do ' (t, _) <- fuse_scan t0 s0 ix0 v;
         do D <- except (vdims v) ix0; do D' <- vset i0 t D;
         do S <- except (vstr v) ix0;
         Ok (plain (View (vblk v) (voff v) D' S)))
  end.
(* transp(), transp(a,b) -- tensors/Ltensor.hpp:780-788: as for TensorView *)
Definition lt_transp (x : ltensor) : res ltensor := do v <- transp (lview x); Ok (plain v).
Definition lt_transp_ab (a b : Z) (x : ltensor) : res ltensor := do v <- transp_ab a b (lview x); Ok (plain v).

(* ---- stacking ---- *)
(* stack(d,vector) -- tensors/Ltensor.hpp:821-839: as TensorView's *)
Definition lt_stack {R : cring} (b d : Z) (l : list ltensor) (m : mem (car R)) : res (ltensor * mem (car R)) :=
  do ' (r, m') <- tv_stack b d (map lview l) m; Ok (plain r, m').
(* stack(d,initializer_list) -- tensors/Ltensor.hpp:860-865: d is not passed on *)
Definition lt_stack_list {R : cring} (b d : Z) (l : list ltensor) (m : mem (car R)) : res (ltensor * mem (car R)) :=
  lt_stack b 0 l m.
(* stack(d,vector<reference_wrapper>) -- tensors/Ltensor.hpp:841-858: the dimension d is removed from the shape before
   its size is set *)
Definition lt_stack_refs {R : cring} (b d : Z) (l : list ltensor) (m : mem (car R)) : res (ltensor * mem (car R)) :=
  match map lview l with
  | [] => Throw
  | x0 :: _ =>
      assrt (d <? ndims x0)
        (do rem <- vremove d (vdims x0);
         do t <- foldM (fun x t => do n <- zget (vdims x) d; do r <- vremove d (vdims x);
                                   assrt (eqlb r rem) (Ok (t + n))) (map lview l) 0;
         do dd <- vset d t rem;
         let r := fresh_view b dd in
         do ' (_, m') <- foldM (fun x s => let '(t, m) := s in
                           do n <- zget (vdims x) d; do w <- slices d t n r;
                           do m' <- tv_add w x m; Ok (t + n, m')) (map lview l) (0, Model_Tensor.alloc c0 b (asize dd) m);
         Ok (plain r, m'))
  end.
