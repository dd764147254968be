(* Model_View.v -- TensorView as (block, offset, dims, strides) and its view operations.
   tensors/TensorView.hpp:113-131, tensors/TensorView_reshapes.inc, tensors/TensorView_subtensors.inc.
   Simplifications: no device field (CPU only); range-check macros (CNINE_CHECK_RANGE) are compiled
   out by default and hence absent; int/size_t are Z; negative vector subscripts are UB. *)
From Verif Require Import Base Model_Index.
Local Open Scope Z_scope.

(* TensorView: arr (memory block + offset, include/MemArr.hpp:37-136), dims, strides *)
Record view := View { vblk : Z; voff : Z; vdims : list Z; vstr : list Z }.

(* a fresh tensor of shape dims in block b: tensors/TensorView.hpp:144-198 (strides(GstridesB(_dims))) *)
Definition fresh_view (b : Z) (dims : list Z) : view := View b 0 dims (strides_of 1 dims).

(* address of an element: arr[strides.offs(ix)], tensors/TensorView_access.inc:19-83 *)
Definition vaddr (v : view) (ix : list Z) : res (Z * Z) :=
  do o <- offs (vstr v) ix; Ok (vblk v, voff v + o).

Definition ndims (v : view) : Z := Z.of_nat (length (vdims v)).

(* Gvec::set(i,x) -- include/gvectr.hpp:89-92 : this[i]=x, no check *)
Definition vset (i x : Z) (l : list Z) : res (list Z) :=
  if (i <? 0) || (Z.of_nat (length l) <=? i) then UB
  else Ok (set_nth (Z.to_nat i) x l).

(* ---- Permutations, TensorView_reshapes.inc:18-39 ---- *)
Definition transp (v : view) : res view :=
  assrt (2 <=? ndims v)
    (do d <- dims_transp (vdims v); do s <- strides_transp (vstr v); Ok (View (vblk v) (voff v) d s)).

Definition transp_ab (a b : Z) (v : view) : res view :=
  assrt (a <? ndims v) (assrt (b <? ndims v)
    (do da <- zget (vdims v) a; do db <- zget (vdims v) b;
     do d1 <- vset a db (vdims v); do d2 <- vset b da d1;
     do sa <- zget (vstr v) a; do sb <- zget (vstr v) b;
     do s1 <- vset a sb (vstr v); do s2 <- vset b sa s1;
     Ok (View (vblk v) (voff v) d2 s2))).

Definition permute_indices (p : list Z) (v : view) : res view :=
  do d <- vpermute p (vdims v); do s <- vpermute p (vstr v); Ok (View (vblk v) (voff v) d s).

(* ---- Reshaping ---- *)
(* TensorView_reshapes.inc:55-60 *)
Definition reshape (nd : list Z) (v : view) : res view :=
  assrt (asize nd =? asize (vdims v))
    (do r <- is_regular (vstr v) (vdims v);
     assrt r (Ok (View (vblk v) (voff v) nd (strides_of 1 nd)))).
(* TensorView_reshapes.inc:70-73 *)
Definition squeeze (d : Z) (v : view) : res view :=
  do n <- zget (vdims v) d;
  assrt (n =? 1)
    (do dd <- vremove d (vdims v); do ss <- vremove d (vstr v); Ok (View (vblk v) (voff v) dd ss)).
(* TensorView_reshapes.inc:75-78.  ifthen is a function, so strides[d-1] is evaluated also for d=0. *)
Definition unsqueeze (d : Z) (v : view) : res view :=
  do m <- memsize (vstr v) (vdims v);
  do sp <- zget (vstr v) (d - 1);
  let s := if d =? 0 then m else sp in
  do dd <- vinsert d 1 (vdims v); do ss <- vinsert d s (vstr v); Ok (View (vblk v) (voff v) dd ss).
(* TensorView_reshapes.inc:80-82 *)
Definition insert_dim (d n : Z) (v : view) : res view :=
  do dd <- vinsert d n (vdims v); do ss <- vinsert d 0 (vstr v); Ok (View (vblk v) (voff v) dd ss).
(* TensorView_reshapes.inc:196-202 *)
Definition fuse01 (v : view) : res view :=
  assrt (2 <=? ndims v)
    (do d <- vremove 1 (vdims v); do d0 <- zget d 0; do d1 <- zget (vdims v) 1;
     do d' <- vset 0 (d0 * d1) d; do s <- vremove 0 (vstr v);
     Ok (View (vblk v) (voff v) d' s)).
(* TensorView_reshapes.inc:205-215; strides(a), dims(a) (with parentheses) wrap negative arguments,
   strides[a] does not: a negative a is UB in either branch *)
Definition fuse_ab (a b : Z) (v : view) : res view :=
  assrt (a <? ndims v) (assrt (b <? ndims v)
    (do sa <- zget (vstr v) a; do sb <- zget (vstr v) b;
     do da <- zget (vdims v) a; do db <- zget (vdims v) b;
     if sa <? sb then
       assrt (da * sa =? sb)
         (do d1 <- vset a (da * db) (vdims v); do d2 <- vremove b d1; do s <- vremove b (vstr v);
          Ok (View (vblk v) (voff v) d2 s))
     else
       assrt (db * sb =? sa)
         (do d1 <- vset b (da * db) (vdims v); do d2 <- vremove a d1; do s <- vremove a (vstr v);
          Ok (View (vblk v) (voff v) d2 s)))).
(* TensorView_reshapes.inc:246-253 *)
Definition split0 (a b : Z) (v : view) : res view :=
  assrt (1 <=? ndims v)
    (do d0 <- zget (vdims v) 0;
     assrt (d0 =? a * b)
       (do d <- vinsert 0 a (vdims v); do d' <- vset 1 b d;
        do s0 <- zget (vstr v) 0; do s <- vinsert 0 (s0 * b) (vstr v);
        Ok (View (vblk v) (voff v) d' s))).
(* TensorView_reshapes.inc:255-262 *)
Definition split1 (a b : Z) (v : view) : res view :=
  assrt (2 <=? ndims v)
    (do d0 <- zget (vdims v) 1;
     assrt (d0 =? a * b)
       (do d <- vinsert 1 a (vdims v); do d' <- vset 2 b d;
        do s0 <- zget (vstr v) 1; do s <- vinsert 1 (s0 * b) (vstr v);
        Ok (View (vblk v) (voff v) d' s))).
(* TensorView_reshapes.inc:264-271 *)
Definition split (d a : Z) (v : view) : res view :=
  assrt (d <? ndims v)
    (do n <- zget (vdims v) d; do r <- crem n a;
     assrt (r =? 0)
       (do D <- vinsert (d + 1) a (vdims v); do q <- cdiv n a; do D' <- vset d q D;
        do s0 <- zget (vstr v) d; do S <- vinsert d (s0 * a) (vstr v);
        Ok (View (vblk v) (voff v) D' S))).
(* TensorView_reshapes.inc:273-280 *)
Definition cinflate (d n : Z) (v : view) : res view :=
  do m <- zget (vdims v) d;
  assrt ((m =? 1) || (m =? n))
    (if m =? n then Ok v
     else do dd <- vset d n (vdims v); do ss <- vset d 0 (vstr v); Ok (View (vblk v) (voff v) dd ss)).

(* ---- Sub-tensors, TensorView_subtensors.inc ---- *)
(* :18-22, :30-34 : only i<dims[.] is checked; a negative i is accepted *)
Definition row (i : Z) (v : view) : res view :=
  match vdims v, vstr v with
  | [d0; d1], [s0; s1] => assrt (i <? d0) (Ok (View (vblk v) (voff v + s0 * i) [d1] [s1]))
  | [_; _], _ => UB
  | _, _ => Throw
  end.
Definition col (i : Z) (v : view) : res view :=
  match vdims v, vstr v with
  | [d0; d1], [s0; s1] => assrt (i <? d1) (Ok (View (vblk v) (voff v + s1 * i) [d0] [s0]))
  | [_; _], _ => UB
  | _, _ => Throw
  end.
(* :24-28, :36-40 *)
Definition rows (i n : Z) (v : view) : res view :=
  match vdims v, vstr v with
  | [d0; d1], [s0; s1] => assrt (i + n <=? d0) (Ok (View (vblk v) (voff v + s0 * i) [n; d1] [s0; s1]))
  | [_; _], _ => UB
  | _, _ => Throw
  end.
Definition cols (i n : Z) (v : view) : res view :=
  match vdims v, vstr v with
  | [d0; d1], [s0; s1] => assrt (i + n <=? d1) (Ok (View (vblk v) (voff v + s1 * i) [d0; n] [s0; s1]))
  | [_; _], _ => UB
  | _, _ => Throw
  end.
(* :59-62 : Gdims<=Gdims is the lexicographic Gvec operator<= *)
Definition block_dims (d : list Z) (v : view) : res view :=
  assrt (gvec_le d (vdims v)) (Ok (View (vblk v) (voff v) d (vstr v))).
(* :64-67 : Gindex+Gdims is a Gindex, so <= is the elementwise Gindex::operator<= *)
Definition block_at (d off : list Z) (v : view) : res view :=
  do u <- gvec_add off d;
  assrt (gindex_le u (vdims v))
    (do o <- offs (vstr v) off; Ok (View (vblk v) (voff v + o) d (vstr v))).
(* :88-92 *)
Definition diag (v : view) : res view :=
  match vdims v, vstr v with
  | [d0; d1], [s0; s1] => assrt (d0 =? d1) (Ok (View (vblk v) (voff v) [d0] [s0 + s1]))
  | [_; _], _ => UB
  | _, _ => Throw
  end.
(* :112-115 *)
Definition slice (d i : Z) (v : view) : res view :=
  do s <- zget (vstr v) d;
  do dd <- vremove d (vdims v); do ss <- vremove d (vstr v);
  Ok (View (vblk v) (voff v + s * i) dd ss).
(* :117-120 *)
Definition slice_prefix (ix : list Z) (v : view) : res view :=
  let k := Z.of_nat (length ix) in
  do s1 <- vchunk 0 k (vstr v); do o <- offs s1 ix;
  do dd <- vchunk k (-1) (vdims v); do ss <- vchunk k (-1) (vstr v);
  Ok (View (vblk v) (voff v + o) dd ss).
(* :122-126 *)
Definition slices (d i n : Z) (v : view) : res view :=
  do s <- zget (vstr v) d; do dd <- vset d n (vdims v);
  Ok (View (vblk v) (voff v + s * i) dd (vstr v)).

(* cnine::except -- include/Cnine_base_helpers.hpp:112-131: copy the runs between the listed
   positions (meant to be increasing).  beg/tail are the remaining input and the copied output. *)
Fixpoint except_loop {A} (N last : Z) (ix : list Z) (beg : list A) (acc : list A) : res (list A) :=
  match ix with
  | [] => Ok (acc ++ (if last <? N then beg else []))
  | i :: ix' =>
      assrt (i <? N)
        (let len := i - last in
         if len <? 0 then UB
         else except_loop N (i + 1) ix' (skipn (S (Z.to_nat len)) beg) (acc ++ firstn (Z.to_nat len) beg))
  end.
Definition except {A} (l : list A) (ix : list Z) : res (list A) :=
  except_loop (Z.of_nat (length l)) 0 ix l [].

(* diag(ix) -- TensorView_subtensors.inc:94-106.  The sum of the strides is written at position ix[0]
   of the shortened stride vector, so ix[0] has to be the smallest listed position. *)
Fixpoint diag_sum (n s : Z) (ix : list Z) (v : view) : res Z :=
  match ix with
  | [] => Ok s
  | i :: ix' =>
      assrt (i <? ndims v)
        (do d <- zget (vdims v) i; assrt (d =? n) (do t <- zget (vstr v) i; diag_sum n (s + t) ix' v))
  end.
Definition diag_ix (ix : list Z) (v : view) : res view :=
  match ix with
  | [] => Throw
  | i0 :: ix0 =>
      assrt (i0 <? ndims v)
        (do n <- zget (vdims v) i0; do s0 <- zget (vstr v) i0;
         do s <- diag_sum n s0 ix0 v;
         do dd <- except (vdims v) ix0; do ss <- except (vstr v) ix0;
         do ss' <- vset i0 s ss;
         Ok (View (vblk v) (voff v) dd ss'))
  end.

(* The view operations a program can chain (C11) *)
Inductive vop :=
| OTransp | OTranspAB (a b : Z) | OPermute (p : list Z) | OReshape (d : list Z)
| OSqueeze (d : Z) | OUnsqueeze (d : Z) | OInsertDim (d n : Z) | OFuse (a b : Z)
| OSplit0 (a b : Z) | OSplit1 (a b : Z) | OSplit (d a : Z) | OCinflate (d n : Z)
| ORow (i : Z) | OCol (i : Z) | ORows (i n : Z) | OCols (i n : Z)
| OBlock (d off : list Z) | ODiag | OSlice (d i : Z) | OSlicePrefix (ix : list Z)
| OSlices (d i n : Z).

Definition apply_vop (o : vop) (v : view) : res view :=
  match o with
  | OTransp => transp v
  | OTranspAB a b => transp_ab a b v
  | OPermute p => permute_indices p v
  | OReshape d => reshape d v
  | OSqueeze d => squeeze d v
  | OUnsqueeze d => unsqueeze d v
  | OInsertDim d n => insert_dim d n v
  | OFuse a b => fuse_ab a b v
  | OSplit0 a b => split0 a b v
  | OSplit1 a b => split1 a b v
  | OSplit d a => split d a v
  | OCinflate d n => cinflate d n v
  | ORow i => row i v
  | OCol i => col i v
  | ORows i n => rows i n v
  | OCols i n => cols i n v
  | OBlock d off => block_at d off v
  | ODiag => diag v
  | OSlice d i => slice d i v
  | OSlicePrefix ix => slice_prefix ix v
  | OSlices d i n => slices d i n v
  end.
Definition run_vops (l : list vop) (v : view) : res view := foldM apply_vop l v.
