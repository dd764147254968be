(* Model_IView.v -- the fixed-rank integer views Itensor1_view, Itensor2_view and Itensor3_view, the generic vector view
   tensor1_view<TYPE>, and the integer tensors made from them (tensors/IntTensor.hpp).  As in Model_RView a view is a block, an
   offset, sides and strides; dev is left out (CPU only), int and TYPE are an arbitrary commutative ring (no overflow, no
   rounding), a failing assert or CNINE_ASSRT is Throw, CNINE_CHECK_RANGE is compiled out by default and absent.
   Element access operator()(i0,..), set(i0,..,x), inc(i0,..,x) is get_at, put_at, inc_at: tensor_views/Itensor1_view.hpp:73-93,
   tensor_views/Itensor2_view.hpp:83-103, tensor_views/Itensor3_view.hpp:73-93, tensor_views/tensor1_view.hpp:99-119. *)
From Verif Require Import Base Model_Index Model_View Model_Tensor Model_Ops Model_RView Model_Column.
Local Open Scope Z_scope.

(* is_regular: tensor_views/Itensor1_view.hpp:68-71 and tensor_views/tensor1_view.hpp:86-89; tensor_views/Itensor2_view.hpp:77-81;
   tensor_views/Itensor3_view.hpp:66-71 *)
Definition ireg1 (v : view) : bool := sd v 0 =? 1.
Definition ireg2 (v : view) : bool := (sd v 1 =? 1) && (sd v 0 =? nd v 1).
Definition ireg3 (v : view) : bool := (sd v 2 =? 1) && (sd v 1 =? nd v 2) && (sd v 0 =? nd v 1 * sd v 1).

(* ---- other views of the same memory ---- *)
(* block(i0,m0), tensor_views/Itensor1_view.hpp:95-97 and tensor_views/tensor1_view.hpp:142-144 *)
Definition iv1_block (v : view) (i0 m0 : Z) : view := View (vblk v) (voff v + i0 * sd v 0) [m0] [sd v 0].
(* block of a constant matrix, tensor_views/Itensor2_view.hpp:105-110 *)
Definition iv2_block_const (v : view) (i0 i1 m0 m1 : Z) : view :=
  View (vblk v) (voff v + i0 * sd v 0 + i1 * sd v 1)
       [if m0 <? 0 then nd v 0 - i0 else m0; if m1 <? 0 then nd v 1 - i1 else m1] [sd v 0; sd v 1].
(* block of a matrix, tensor_views/Itensor2_view.hpp:303-311 *)
Definition iv2_block (v : view) (i0 i1 m0 m1 : Z) : view :=
  View (vblk v) (voff v + i0 * sd v 0 + i1 * sd v 1)
       [if m0 =? -1 then nd v 0 - i0 else m0; if m1 =? -1 then nd v 1 - i1 else m1] [sd v 0; sd v 1].
(* rows, tensor_views/Itensor2_view.hpp:313-315 *)
Definition iv2_rows (v : view) (offs n : Z) : view := View (vblk v) (voff v + offs * sd v 0) [n; nd v 1] [sd v 0; sd v 1].
(* diag, transp, slice0, slice1, fuse01, tensor_views/Itensor2_view.hpp:281-301 *)
Definition iv2_diag (v : view) : res view := assrt (nd v 0 =? nd v 1) (Ok (View (vblk v) (voff v) [nd v 0] [sd v 0 + sd v 1])).
Definition iv2_transp (v : view) : view := View (vblk v) (voff v) [nd v 1; nd v 0] [sd v 1; sd v 0].
Definition iv2_slice0 (v : view) (i : Z) : view := View (vblk v) (voff v + i * sd v 0) [nd v 1] [sd v 1].
Definition iv2_slice1 (v : view) (i : Z) : view := View (vblk v) (voff v + i * sd v 1) [nd v 0] [sd v 0].
Definition iv2_fuse01 (v : view) : view := View (vblk v) (voff v) [nd v 0 * nd v 1] [sd v 1].
(* slice0, slice1, slice2, tensor_views/Itensor3_view.hpp:236-252 *)
Definition iv3_slice0 (v : view) (i : Z) : view := View (vblk v) (voff v + i * sd v 0) [nd v 1; nd v 2] [sd v 1; sd v 2].
Definition iv3_slice1 (v : view) (i : Z) : view := View (vblk v) (voff v + i * sd v 1) [nd v 0; nd v 2] [sd v 0; sd v 2].
Definition iv3_slice2 (v : view) (i : Z) : view := View (vblk v) (voff v + i * sd v 2) [nd v 0; nd v 1] [sd v 0; sd v 1].
(* fuse01, fuse12, tensor_views/Itensor3_view.hpp:254-262 *)
Definition iv3_fuse01 (v : view) : res view := assrt (ireg3 v) (Ok (View (vblk v) (voff v) [nd v 0 * nd v 1; nd v 2] [sd v 1; sd v 2])).
Definition iv3_fuse12 (v : view) : res view := assrt (ireg3 v) (Ok (View (vblk v) (voff v) [nd v 0; nd v 1 * nd v 2] [sd v 0; sd v 2])).
(* block, tensor_views/Itensor3_view.hpp:264-273 *)
Definition iv3_block (v : view) (i0 i1 i2 m0 m1 m2 : Z) : view :=
  View (vblk v) (voff v + i0 * sd v 0 + i1 * sd v 1 + i2 * sd v 2)
       [if m0 =? -1 then nd v 0 - i0 else m0; if m1 =? -1 then nd v 1 - i1 else m1; if m2 =? -1 then nd v 2 - i2 else m2]
       [sd v 0; sd v 1; sd v 2].
(* split0(x,i,j) of a vector, tensor_views/Itensor2_view.hpp:344-347 *)
Definition iv_split (x : view) (i j : Z) : res view := assrt (i * j =? nd x 0) (Ok (View (vblk x) (voff x) [i; j] [sd x 0 * j; sd x 0])).
(* split0(x,i,j), split1(x,i,j) of a matrix, tensor_views/Itensor3_view.hpp:304-312 *)
Definition iv_split0 (x : view) (i j : Z) : res view :=
  assrt (i * j =? nd x 0) (Ok (View (vblk x) (voff x) [i; j; nd x 1] [sd x 0 * j; sd x 0; sd x 1])).
Definition iv_split1 (x : view) (i j : Z) : res view :=
  assrt (i * j =? nd x 1) (Ok (View (vblk x) (voff x) [nd x 0; i; j] [sd x 0; sd x 1 * j; sd x 1])).

(* hash of a vector view, tensor_views/tensor1_view.hpp:255-263; hi and hv are hash<int> and hash<TYPE>, mix is (t^h)<<1 *)
Definition t1_hash {V} (hi : Z -> Z) (hv : V -> Z) (x : view) (m : mem V) : res Z :=
  forZ (nd x 0) (fun i t => do v <- load m (vblk x) (voff x + i * sd x 0); Ok (mix t (hv v))) (hi (nd x 0)).
(* repeat0(x,n), tensor_views/tensor1_view.hpp:243-247: one new cell in block b, shown n times *)
Definition t1_repeat0 {V} (b : Z) (x : V) (n : Z) (m : mem V) : view * mem V := (View b 0 [n] [0], alloc x b 1 m).

Section Ring.
Context {R : cring}.
Notation memR := (mem (car R)).

(* ---- vectors: Itensor1_view and tensor1_view<TYPE> ---- *)
(* operator=, tensor_views/tensor1_view.hpp:73-80 *)
Definition t1_assign (r x : view) (m : memR) : res memR := assrt (nd r 0 =? nd x 0) (nest1 (nd r 0) (zip_each f_set r x) m).
(* set(v), tensor_views/tensor1_view.hpp:146-150 *)
Definition t1_fill (r : view) (v : R) (m : memR) : res memR := nest1 (nd r 0) (fun ix => put_at r ix v) m.
(* set(x), tensor_views/Itensor1_view.hpp:103-113 and tensor_views/tensor1_view.hpp:152-162 *)
Definition iv1_set (r x : view) (m : memR) : res memR :=
  assrt (nd x 0 =? nd r 0)
    (if ireg1 r && ireg1 x then flat_loop f_set r [x] (nd r 0) m else nest1 (nd r 0) (zip_each f_set r x) m).
(* add(v), tensor_views/tensor1_view.hpp:168-172 *)
Definition t1_addv (r : view) (v : R) (m : memR) : res memR := nest1 (nd r 0) (fun ix => inc_at r ix v) m.
(* add(x), tensor_views/Itensor1_view.hpp:116-126 and tensor_views/tensor1_view.hpp:174-184: the branch for strided
   vectors calls set *)
Definition iv1_add (r x : view) (m : memR) : res memR :=
  assrt (nd x 0 =? nd r 0)
    (if ireg1 r && ireg1 x then flat_loop f_add1 r [x] (nd r 0) m else nest1 (nd r 0) (zip_each f_set r x) m).
(* add(x,c), tensor_views/Itensor1_view.hpp:128-138 *)
Definition iv1_addc (r x : view) (c : R) (m : memR) : res memR :=
  assrt (nd x 0 =? nd r 0)
    (if ireg1 r && ireg1 x then flat_loop (f_addc c) r [x] (nd r 0) m else nest1 (nd r 0) (zip_each (f_addc c) r x) m).
(* reduce, tensor_views/Itensor1_view.hpp:148-153 and tensor_views/tensor1_view.hpp:194-199; sum, tensor_views/tensor1_view.hpp:134-140 *)
Definition iv1_reduce (x : view) (m : memR) : res R := get_sum (nd x 0) (fun i => voff x + i * sd x 0) (vblk x) m.
(* broadcast(v), tensor_views/Itensor1_view.hpp:159-163 and tensor_views/tensor1_view.hpp:205-209 *)
Definition iv1_broadcast (r : view) (v : R) (m : memR) : res memR :=
  assrt (ireg1 r) (forZ (nd r 0) (fun i m => store m (vblk r) (voff r + i) v) m).

(* ---- matrices ---- *)
(* set(x), tensor_views/Itensor2_view.hpp:116-127 *)
Definition iv2_set (r x : view) (m : memR) : res memR :=
  assrt (nd x 0 =? nd r 0) (assrt (nd x 1 =? nd r 1)
    (if ireg2 r && ireg2 x then flat_loop f_set r [x] (nd r 0 * nd r 1) m
     else nest2 (nd x 0) (nd x 1) (zip_each f_set r x) m)).
(* add(x), tensor_views/Itensor2_view.hpp:130-141 *)
Definition iv2_add (r x : view) (m : memR) : res memR :=
  assrt (nd x 0 =? nd r 0) (assrt (nd x 1 =? nd r 1)
    (if ireg2 r && ireg2 x then flat_loop f_add1 r [x] (nd r 0 * sd r 0) m
     else nest2 (nd x 0) (nd x 1) (zip_each f_add1 r x) m)).
(* add(x,c), tensor_views/Itensor2_view.hpp:144-156 *)
Definition iv2_addc (r x : view) (c : R) (m : memR) : res memR :=
  assrt (nd x 0 =? nd r 0) (assrt (nd x 1 =? nd r 1)
    (if ireg2 r && ireg2 x then flat_loop (f_addc c) r [x] (nd r 0 * sd r 0) m
     else nest2 (nd r 0) (nd r 1) (zip_each (f_addc c) r x) m)).
(* add_matmul_AA, tensor_views/Itensor2_view.hpp:159-173 *)
Definition iv2_AA (r x y : view) (m : memR) : res memR :=
  assrt (nd x 0 =? nd r 0) (assrt (nd y 1 =? nd r 1) (assrt (nd y 0 =? nd x 1)
    (nest2 (nd r 0) (nd r 1) (fun ix m =>
       do t <- dotloop (nd x 1) (fun i => vaddr x [nth 0 ix 0; i]) (fun i => vaddr y [i; nth 1 ix 0]) m; inc_at r ix t m) m))).

(* ---- 3-tensors ---- *)
(* set(x), add(x), tensor_views/Itensor3_view.hpp:103-123: the sides are compared but not asserted *)
Definition iv3_set (r x : view) (m : memR) : res memR :=
  if same3 r x && ireg3 r && ireg3 x then flat_loop f_set r [x] (nd r 0 * nd r 1 * nd r 2) m
  else nest3 (nd x 0) (nd x 1) (nd x 2) (zip_each f_set r x) m.
Definition iv3_add (r x : view) (m : memR) : res memR :=
  if same3 r x && ireg3 r && ireg3 x then flat_loop f_add1 r [x] (nd r 0 * nd r 1 * nd r 2) m
  else nest3 (nd x 0) (nd x 1) (nd x 2) (zip_each f_add1 r x) m.
(* add_matmul_AA, tensor_views/Itensor3_view.hpp:125-142: the asserts and loops use n0 and n1 where n1 and n2 are meant *)
Definition iv3_AA (r x y : view) (m : memR) : res memR :=
  assrt (nd r 0 =? nd x 0) (assrt (nd x 1 =? nd r 1) (assrt (nd y 1 =? nd r 1) (assrt (nd y 0 =? nd x 2)
    (forZ (nd x 0) (fun bt => nest2 (nd r 0) (nd r 1) (fun ix m =>
       do t <- dotloop (nd x 2) (fun i => vaddr x [bt; nth 0 ix 0; i]) (fun i => vaddr y [i; nth 1 ix 0]) m;
       inc_at r (bt :: ix) t m)) m)))).

(* ---- conversions ---- *)
(* gtensor(), tensor_views/Itensor1_view.hpp:169-174, tensor_views/Itensor2_view.hpp:321-327, tensor_views/Itensor3_view.hpp:279-286,
   tensor_views/tensor1_view.hpp:215-220: a new row-major array in block b, whose cells hold junk z before they are written *)
Definition iv1_gtensor (z : R) (b : Z) (x : view) (m : memR) : res (view * memR) :=
  let '(r, m) := zeros z b [nd x 0] m in do m <- nest1 (nd x 0) (fun ix m => do v <- get_at x ix m; put_at r ix v m) m; Ok (r, m).
Definition iv2_gtensor (z : R) (b : Z) (x : view) (m : memR) : res (view * memR) :=
  let '(r, m) := zeros z b [nd x 0; nd x 1] m in
  do m <- nest2 (nd x 0) (nd x 1) (fun ix m => do v <- get_at x ix m; put_at r ix v m) m; Ok (r, m).
Definition iv3_gtensor (z : R) (b : Z) (x : view) (m : memR) : res (view * memR) :=
  let '(r, m) := zeros z b [nd x 0; nd x 1; nd x 2] m in
  do m <- nest3 (nd x 0) (nd x 1) (nd x 2) (fun ix m => do v <- get_at x ix m; put_at r ix v m) m; Ok (r, m).
(* IntTensor(x) of a vector, matrix or 3-tensor, tensors/IntTensor.hpp:671-674, :684-687, :705-708: an array of zeros to which the
   view is added through view1(), view2(), view3(), tensors/IntTensor.hpp:676-678, :689-695, :710-716 *)
Definition it_of1 (b : Z) (x : view) (m : memR) : res (view * memR) :=
  let '(r, m) := zeros c0 b [nd x 0] m in do m <- iv1_add r x m; Ok (r, m).
Definition it_of2 (b : Z) (x : view) (m : memR) : res (view * memR) :=
  let '(r, m) := zeros c0 b [nd x 0; nd x 1] m in do m <- iv2_add r x m; Ok (r, m).
Definition it_of3 (b : Z) (x : view) (m : memR) : res (view * memR) :=
  let '(r, m) := zeros c0 b [nd x 0; nd x 1; nd x 2] m in do m <- iv3_add r x m; Ok (r, m).
End Ring.
