(* Model_Column.v -- further operations of TensorView: columns of a matrix scaled by a vector, elementwise quotients,
   the leaky rectifier, adding a tensor along an axis, hash codes, and the fixed-rank views of a tensor (CPU).
   Memory, views and loops as in Model_Tensor.v; float is a commutative ring with a conjugate and a division. *)
From Verif Require Import Base Model_Index Model_View Model_Tensor Model_RView Model_CView.
Local Open Scope Z_scope.

Section Columns.
Context {R : cring}.
Variable cj : R -> R.            (* sconj, include/Cnine_base_helpers.hpp:31-35 *)
Variable dv : R -> R -> R.       (* operator/ of TYPE *)
Notation memR := (mem (car R)).

(* for(i<n) for(j<nc) arr[i*nc+j] op= x.arr[i*nc+j] . y.arr[j] -- tensors/TensorView.hpp:647-649 *)
Definition col_loop (f : R -> list R -> R) (r x y : view) (n nc : Z) (m : memR) : res memR :=
  forZ n (fun i => forZ nc (fun j =>
    rmw f (vblk r, voff r + (i * nc + j)) [(vblk x, voff x + (i * nc + j)); (vblk y, voff y + j)])) m.
(* the checks of the four functions, tensors/TensorView.hpp:637-645, 659-667, 684-692, 710-718.  dim(0) and dim(1) of a
   tensor with fewer axes read outside a vector *)
Definition col_op (f : R -> list R -> R) (r x y : view) (m : memR) : res memR :=
  assrt (length (vdims x) =? 2)%nat (assrt (length (vdims y) =? 1)%nat
    (do n <- zget (vdims r) 0; do nc <- zget (vdims r) 1; do x0 <- zget (vdims x) 0; do x1 <- zget (vdims x) 1; do y0 <- zget (vdims y) 0;
     assrt ((x0 =? n) && (x1 =? nc) && (y0 =? nc)) (col_loop f r x y n nc m))).
Definition f_cmul (v : R) (xs : list R) : R := match xs with [x; y] => cadd v (cmul x y) | _ => v end.
Definition f_cmulC (v : R) (xs : list R) : R := match xs with [x; y] => cadd v (cmul x (cj y)) | _ => v end.
Definition f_cdiv (v : R) (xs : list R) : R := match xs with [x; y] => cadd v (dv x y) | _ => v end.
(* add_scale_columns -- tensors/TensorView.hpp:636-655; add_mul_columns -- tensors/TensorView.hpp:657-680 (the same loop) *)
Definition tv_scale_columns (r x y : view) (m : memR) : res memR := col_op f_cmul r x y m.
(* add_mul_columns_XC -- tensors/TensorView.hpp:682-706 *)
Definition tv_mul_columns_XC (r x y : view) (m : memR) : res memR := col_op f_cmulC r x y m.
(* add_div_columns -- tensors/TensorView.hpp:708-731 *)
Definition tv_div_columns (r x y : view) (m : memR) : res memR := col_op f_cdiv r x y m.
(* add_column_inps_XC -- tensors/TensorView.hpp:734-759.  The size check is compiled out without range checks: absent *)
Definition tv_column_inps_XC (r x y : view) (m : memR) : res memR :=
  assrt (length (vdims r) =? 1)%nat
    (do r0 <- zget (vdims r) 0; do n <- zget (vdims x) 0; do nc <- zget (vdims x) 1;
     assrt (r0 =? nc)
       (forZ nc (fun i m =>
          do t <- forZ n (fun j t => do p <- vaddr x [j; i]; do u <- loadA m p; do q <- vaddr y [j; i]; do v <- loadA m q; Ok (cadd t (cmul u (cj v)))) c0;
          do p <- vaddr r [i]; rmw (fun _ _ => t) p [] m) m)).

(* add_div -- tensors/TensorView_cumulative_ops.inc:270-287; the check of shapes as for add_prod *)
Definition tv_add_div (r x y : view) (m : memR) : res memR := reg_or_each f_cdiv r [x; y] m.

(* add_ReLU -- tensors/TensorView_cumulative_ops.inc:304-315: pos and neg are the tests x>0 and x<0 *)
Variables (pos neg : R -> bool).
Definition b01 (b : bool) : R := if b then c1 else c0.
Definition f_relu (alpha : R) (v : R) (xs : list R) : R :=
  match xs with [x] => cadd v (cmul (cadd (b01 (pos x)) (cmul alpha (b01 (neg x)))) x) | _ => v end.
Definition tv_add_relu (r x : view) (alpha : R) (m : memR) : res memR := flat_loop (f_relu alpha) r [x] (asize (vdims r)) m.
(* add_ReLU_back(g,x,alpha) -- tensors/TensorView_cumulative_ops.inc:318-329: the signs are those of g; x is not read *)
Definition tv_add_relu_back (r g x : view) (alpha : R) (m : memR) : res memR := flat_loop (f_relu alpha) r [g] (asize (vdims r)) m.

(* add_broadcast(d,x) -- tensors/TensorView_cumulative_ops.inc:295-301: slice(d) is slice(Gindex(d)),
   tensors/TensorView_subtensors.inc:117-120 with include/Gindex.hpp:48-49, the d'th slice along the first axis *)
Definition tv_add_broadcast (r : view) (d : Z) (x : view) (m : memR) : res memR :=
  assrt (d <? ndims r)
    (do n <- zget (vdims r) d;
     forZ n (fun i m => do s <- slice_prefix [d] r; tv_add s x m) m).
End Columns.

(* ---- hash codes *)
(* t=(t^h)<<1 in size_t (64 bits) -- include/Gdims.hpp:528, tensors/TensorView.hpp:819, 822 *)
Definition mix (t h : Z) : Z := Z.shiftl (Z.lxor t h) 1 mod 2 ^ 64.
(* hash<Gdims> -- include/Gdims.hpp:526-530; hi is hash<int> *)
Definition hash_dims (hi : Z -> Z) (dims : list Z) : Z := fold_left (fun t d => mix t (hi d)) dims 0.
(* hash<TensorView> -- tensors/TensorView.hpp:814-825; hv is hash<TYPE> *)
Definition tv_hash {V} (hi : Z -> Z) (hv : V -> Z) (x : view) (m : mem V) : res Z :=
  do b <- is_regular (vstr x) (vdims x);
  if b then forZ (asize (vdims x)) (fun i t => do v <- load m (vblk x) (voff x + i); Ok (mix t (hv v))) (hash_dims hi (vdims x))
  else foreach_index (vdims x) (fun ix t => do p <- vaddr x ix; do v <- loadA m p; Ok (mix t (hv v))) (hash_dims hi (vdims x)).

(* ---- fixed-rank views.  A Rtensor view is the view record with one, two or three axes, as in Model_RView.v *)
(* view1(), view2(), view3() -- tensors/TensorView.hpp:300-313 with view1_of, view2_of, view3_of for int and float,
   tensors/TensorView.hpp:772-775, 781-784, 791-794.  Not modelled: the ones for double, which read doubles as floats *)
Definition viewk_of (k : nat) (x : view) : res view :=
  assrt (length (vdims x) =? k)%nat
    (do ds <- mapM (zget (vdims x)) (zrange (Z.of_nat k)); do ss <- mapM (zget (vstr x)) (zrange (Z.of_nat k));
     Ok (View (vblk x) (voff x) ds ss)).
(* the ones for complex<float>, tensors/TensorView.hpp:778-779, 787-789, 797-799: arr and arr+1 are the addresses of the
   real and imaginary part of the first element, the strides are doubled.  The complex memory seen as floats: *)
Definition as_floats {R : cring} (m : mem (CxRing R)) : mem R :=
  fun b a => match m b (a / 2) with Some z => Some (if a mod 2 =? 0 then fst z else snd z) | None => None end.
Definition cviewk_of (k : nat) (x : view) : res view :=
  assrt (length (vdims x) =? k)%nat
    (do ds <- mapM (zget (vdims x)) (zrange (Z.of_nat k)); do ss <- mapM (zget (vstr x)) (zrange (Z.of_nat k));
     Ok (View (vblk x) (2 * voff x) (ds ++ [2]) (map (Z.mul 2) ss ++ [1]))).
(* flat_view_of -- tensors/TensorView.hpp:801-803 *)
Definition flat_view_of (x : view) : res view :=
  do c <- is_contiguous (vstr x) (vdims x);
  assrt c (Ok (View (vblk x) (voff x) [asize (vdims x)] [1])).
