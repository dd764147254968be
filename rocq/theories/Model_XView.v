(* Model_XView.v -- views of float memory with any number of axes: class RtensorView (tensor_views/RtensorView.hpp) and its complex
   counterpart CtensorView (tensor_views/CtensorView.hpp).  A view is a record of Model_View: block, offset, dims, strides.  The second
   pointer arrc of a complex view is arr+co: both lie in one block (simplification).  float is an arbitrary commutative ring; int and
   size_t are unbounded.  rc says whether CNINE_RANGE_CHECKING is defined (include/Cnine_base.hpp:107-139), chk whether assert is compiled
   in.  The members with one to four indices differ only in the number of indices: here the index is a list. *)
From Verif Require Import Base Model_Index Model_View Model_Tensor Model_Groups Model_Shape.
Local Open Scope Z_scope.

(* CNINE_NDIMS_LEAST(n), include/Cnine_base.hpp:119: dims.size()<n compares a size_t with an int, so a negative n is huge *)
Definition xv_least {A} (rc : bool) (n : Z) (v : view) (k : res A) : res A :=
  if rc && ((n <? 0) || (zlen (vdims v) <? n)) then Throw else k.
(* CNINE_NDIMS_IS(n), include/Cnine_base.hpp:118 *)
Definition xv_is {A} (rc : bool) (n : Z) (v : view) (k : res A) : res A :=
  if rc && negb (zlen (vdims v) =? n) then Throw else k.
(* if(i0<0 || i1<0 || .. || i0>=dims[0] || i1>=dims[1] ..) throw: dims beyond its end is UB *)
Definition xv_check (rc : bool) (d ix : list Z) : res unit :=
  if negb rc then Ok tt
  else if existsb (fun i => i <? 0) ix then Throw
  else foldM (fun k _ => do i <- zget ix k; do n <- zget d k; if n <=? i then Throw else Ok tt) (zrange (zlen ix)) tt.
(* if(i<0 || i>=dims[k]) throw *)
Definition xv_check1 (rc : bool) (d : list Z) (k i : Z) : res unit :=
  if negb rc then Ok tt else if i <? 0 then Throw else do n <- zget d k; if n <=? i then Throw else Ok tt.

(* ---- RtensorView: access ---- *)
(* operator()(i0,..), tensor_views/RtensorView.hpp:81-103; set, :109-131; inc, :137-159 *)
Section Real.
Context {R : cring}.
Notation memR := (mem (car R)).
Definition xv_get (rc : bool) (v : view) (ix : list Z) (m : memR) : res (car R) :=
  do _ <- xv_check rc (vdims v) ix; do o <- gs_offs (vstr v) ix; load m (vblk v) (voff v + o).
Definition xv_set (rc : bool) (v : view) (ix : list Z) (x : car R) (m : memR) : res memR :=
  do _ <- xv_check rc (vdims v) ix; do o <- gs_offs (vstr v) ix; store m (vblk v) (voff v + o) x.
Definition xv_inc (rc : bool) (v : view) (ix : list Z) (x : car R) (m : memR) : res memR :=
  do _ <- xv_check rc (vdims v) ix; do o <- gs_offs (vstr v) ix;
  do a <- load m (vblk v) (voff v + o); store m (vblk v) (voff v + o) (cadd a x).

(* ---- CtensorView: access.  Complex numbers are pairs. ---- *)
(* operator()(i0,..), tensor_views/CtensorView.hpp:80-104 *)
Definition xc_get (rc : bool) (v : view) (co : Z) (ix : list Z) (m : memR) : res (car R * car R) :=
  do _ <- xv_check rc (vdims v) ix; do o <- gs_offs (vstr v) ix;
  do a <- load m (vblk v) (voff v + o); do b <- load m (vblk v) (voff v + co + o); Ok (a, b).
(* operator()(ix), tensor_views/CtensorView.hpp:106-110 *)
Definition xc_get_ix (chk rc : bool) (v : view) (co : Z) (ix : list Z) (m : memR) : res (car R * car R) :=
  do _ <- (if rc then check_range ix (vdims v) else Ok tt); do t <- gi_dot chk ix (vstr v);
  do a <- load m (vblk v) (voff v + t); do b <- load m (vblk v) (voff v + co + t); Ok (a, b).
(* set(i0,..,x), :116-142: with four indices the offset is that of the first three *)
Definition xc_set (rc : bool) (v : view) (co : Z) (ix : list Z) (x : car R * car R) (m : memR) : res memR :=
  do _ <- xv_check rc (vdims v) ix; do o <- gs_offs (vstr v) (firstn 3 ix);
  do m <- store m (vblk v) (voff v + o) (fst x); store m (vblk v) (voff v + co + o) (snd x).
(* inc(i0,..,x), :148-174 *)
Definition xc_inc (rc : bool) (v : view) (co : Z) (ix : list Z) (x : car R * car R) (m : memR) : res memR :=
  do _ <- xv_check rc (vdims v) ix; do o <- gs_offs (vstr v) ix;
  do a <- load m (vblk v) (voff v + o); do m <- store m (vblk v) (voff v + o) (cadd a (fst x));
  do b <- load m (vblk v) (voff v + co + o); store m (vblk v) (voff v + co + o) (cadd b (snd x)).
(* gtensor(), :232-238: R(dims,fill::raw) has asize entries; entry i is read at the index Gindex(i,strides) *)
Definition xc_gtensor (chk rc : bool) (v : view) (co : Z) (m : memR) : res (list (car R * car R)) :=
  foldM (fun i r => do ix <- unflat_str i (vstr v); do z <- xc_get_ix chk rc v co ix m; Ok (r ++ [z])) (zrange (asize (vdims v))) [].
End Real.

(* ---- RtensorView: other views ---- *)
(* view1 .. view6, tensor_views/RtensorView.hpp:188-216: the first k sides and strides *)
Definition xv_view (rc : bool) (k : Z) (v : view) : res view :=
  xv_is rc k v
    (do d <- copy_in k (vdims v) 0 0 (repeat 0 (Z.to_nat k)); do s <- copy_in k (vstr v) 0 0 (repeat 0 (Z.to_nat k));
     Ok (View (vblk v) (voff v) d s)).
(* flatten, :219-222 *)
Definition xv_flatten (rc : bool) (v : view) : res view :=
  xv_is rc 1 v (do s <- at_back (vstr v) 0; Ok (View (vblk v) (voff v) [asize (vdims v)] [s])).
(* matricize(n), :224-231: i<dims.size() compares an int with a size_t, so no side is read when n is negative *)
Definition xv_matricize (rc : bool) (n : Z) (v : view) : res view :=
  xv_least rc (n + 1) v
    (do d0 <- forZ n (fun i t => do d <- zget (vdims v) i; Ok (t * d)) 1;
     do d1 <- forZ (if n <? 0 then 0 else zlen (vdims v) - n) (fun i t => do d <- zget (vdims v) (n + i); Ok (t * d)) 1;
     do s <- zget (vstr v) (n - 1); Ok (View (vblk v) (voff v) [d0; d1] [s; 1])).

(* ---- slices: the offset is a multiple of a side, not of a stride ---- *)
(* slice0 .. slice3, tensor_views/RtensorView.hpp:237-263, tensor_views/CtensorView.hpp:190-216 (both pointers move alike) *)
Definition xv_slice (chk rc : bool) (k i : Z) (v : view) : res view :=
  xv_least rc (k + 1) v
    (do _ <- xv_check1 rc (vdims v) k i;
     do n <- zget (vdims v) k; do d <- vremove k (vdims v); do s <- gs_remove chk k (vstr v);
     Ok (View (vblk v) (voff v + i * n) d s)).
(* slice01, :265-272, and slice012, :274-283 *)
Definition xv_slice_front (rc : bool) (ix : list Z) (v : view) : res view :=
  let k := zlen ix in
  xv_least rc k v
    (do _ <- foldM (fun j _ => do i <- zget ix j; xv_check1 rc (vdims v) j i) (zrange k) tt;
     do o <- forZ k (fun j t => do i <- zget ix j; do n <- zget (vdims v) j; Ok (t + i * n)) 0;
     do d <- vchunk k (-1) (vdims v); do s <- gs_chunk k (-1) (vstr v);
     Ok (View (vblk v) (voff v + o) d s)).

(* ---- fusing axes ---- *)
(* fuse(i), tensor_views/RtensorView.hpp:290-297 *)
Definition xv_fuse (chk rc : bool) (i : Z) (v : view) : res view :=
  let i := if i <? 0 then zlen (vdims v) + i else i in
  xv_least rc (i + 2) v
    (do d <- vremove i (vdims v); do a <- zget (vdims v) i; do b <- zget (vdims v) (i + 1); do d <- vset i (a * b) d;
     do s <- gs_remove chk i (vstr v); Ok (View (vblk v) (voff v) d s)).
(* fuse01, :299-304; fuse12, :306-311: side k times the side after it, stride k dropped *)
Definition xv_fuse2 (chk rc : bool) (k : Z) (v : view) : res view :=
  xv_least rc (k + 2) v
    (do d <- vremove (k + 1) (vdims v); do a <- zget d k; do b <- zget (vdims v) (k + 1); do d <- vset k (a * b) d;
     do s <- gs_remove chk k (vstr v); Ok (View (vblk v) (voff v) d s)).
Definition xv_fuse01 (chk rc : bool) := xv_fuse2 chk rc 0.
Definition xv_fuse12 (chk rc : bool) := xv_fuse2 chk rc 1.
(* fuse23, :313-318: side 2 times side 1 *)
Definition xv_fuse23 (chk rc : bool) (v : view) : res view :=
  xv_least rc 4 v
    (do d <- vremove 3 (vdims v); do a <- zget d 2; do b <- zget (vdims v) 1; do d <- vset 2 (a * b) d;
     do s <- gs_remove chk 2 (vstr v); Ok (View (vblk v) (voff v) d s)).
(* fuse_all_but_last_two, :320-323; Rtensor3_view(arr,dims,strides), tensor_views/Rtensor3_view.hpp:62-71, asserts three sides.
   Gdims::fuse asserts that there are enough sides. *)
Definition xv_fuse_front (chk rc : bool) (v : view) : res view :=
  xv_least rc 3 v
    (let n := zlen (vdims v) - 2 in
     passert chk (0 <=? n)
       (do d <- dims_fuse 0 n (vdims v); do s <- gs_fuse 0 n (vstr v);
        passert chk (zlen d =? 3)
          (do d0 <- zget d 0; do d1 <- zget d 1; do d2 <- zget d 2; do s0 <- zget s 0; do s1 <- zget s 1; do s2 <- zget s 2;
           Ok (View (vblk v) (voff v) [d0; d1; d2] [s0; s1; s2])))).

(* ---- CtensorView ---- *)
(* as_real, tensor_views/CtensorView.hpp:67-70 *)
Definition xc_as_real (v : view) (co : Z) : res view :=
  assrt (co =? 1) (Ok (View (vblk v) (voff v) (vappend 2 (vdims v)) (gs_append 1 (vstr v)))).
