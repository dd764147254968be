(* Model_CuREinsum.v -- Einstein sums of two real arrays on a device: cuda/RtensorEinsumProducts.cu.  The functions get three pointers, the strides of x and y (those of
   the indices of the result, then those of the summed indices), the strides of r, the sides of the result and those of the summed indices; here lists.
   A function with p indices of the result and q summed ones is named p_q_0.  Functions of one p whose text differs only in the number of strides share a
   definition.  Launches as in Model_Cuda.  int is unbounded.  Statement of a thread, f_conv: the sum of the products read (starting from 0) is added to the
   element; without summed indices the one product is added.  Element type: any commutative ring. *)
From Verif Require Import Base Model_Index Model_View Model_Tensor Model_Einsum Model_Ops Model_RView Model_Convolve Model_Cuda Model_CuConv Model_CuBlas Model_CuRtensor.
Local Open Scope Z_scope.

(* REP_getix<0> with one index, cuda/RtensorEinsumProducts.cu:29-31; the others, :34-36, :43-58, :65-90, are those of Model_Cuda and Model_CuRtensor *)
Definition k_b (t : thread) : list Z := [bx t].
(* the kernels without an index, cuda/RtensorEinsumProducts.cu:97-99, :134-142, :192-201 *)
Definition k_none (t : thread) : list Z := [].
(* for(int j0=0; j0<J0; j0++) for(int j1=0; j1<J1; j1++), cuda/RtensorEinsumProducts.cu:196-199; one loop, :138-140; none, :98, :106, :116, :126 *)
Fixpoint re_loops (js : list Z) : list (list Z) := match js with [] => [[]] | n :: js => flat_map (fun j => map (cons j) (re_loops js)) (zrange n) end.
(* kernel<<<g,b>>>(..), cuda/RtensorEinsumProducts.cu:97-247: rarr[i.r]+=the sum over j of xarr[(i,j).x]*yarr[(i,j).y] *)
Definition re_launch (g b : Z * Z * Z) (co : thread -> list Z) (js : list Z) (x : addr) (xs : list Z) (y : addr) (ys : list Z) (r : addr) (rs : list Z) : list (addr * list addr) :=
  if cu_ok g b then map (fun t => (shift r (dot rs (co t)), flat_map (fun j => [shift x (dot xs (co t ++ j)); shift y (dot ys (co t ++ j))]) (re_loops js))) (cu_threads g b) else [].

(* Rtensor_addEinsum_0_0_0_cu, Rtensor_addEinsum_0_1_0_cu -- cuda/RtensorEinsumProducts.cu:258-261, :319-325 *)
Definition re_add_0 (js : list Z) (x : addr) (xs : list Z) (y : addr) (ys : list Z) (r : addr) : list (list (addr * list addr)) :=
  [re_launch (1, 1, 1) (1, 1, 1) k_none js x xs y ys r []].
(* Rtensor_addEinsum_0_2_0_cu -- cuda/RtensorEinsumProducts.cu:388-394: y0 is passed twice, and the kernel, :192-201, steps through y with y0 and x1 *)
Definition re_add_0_2 (js : list Z) (x : addr) (xs : list Z) (y : addr) (ys : list Z) (r : addr) : list (list (addr * list addr)) :=
  [re_launch (1, 1, 1) (1, 1, 1) k_none js x xs y [nth 0 ys 0; nth 1 xs 0] r []].
(* Rtensor_addEinsum_1_0_0_cu, _1_1_0_cu, _1_2_0_cu -- cuda/RtensorEinsumProducts.cu:263-272, :327-339, :396-408 *)
Definition re_add_1 (n0 : Z) (js : list Z) (x : addr) (xs : list Z) (y : addr) (ys : list Z) (r : addr) (rs : list Z) : list (list (addr * list addr)) :=
  if n0 <=? 1024 then [re_launch (1, 1, 1) (n0, 1, 1) k_t js x xs y ys r rs] else [re_launch (n0, 1, 1) (1, 1, 1) k_b js x xs y ys r rs].
(* Rtensor_addEinsum_2_0_0_cu, _2_1_0_cu, _2_2_0_cu -- cuda/RtensorEinsumProducts.cu:274-291, :341-359, :410-428 *)
Definition re_add_2 (n0 n1 : Z) (js : list Z) (x : addr) (xs : list Z) (y : addr) (ys : list Z) (r : addr) (rs : list Z) : list (list (addr * list addr)) :=
  if n0 * n1 <=? 1024 then [re_launch (1, 1, 1) (n0, n1, 1) k_tt js x xs y ys r rs]
  else if n1 <=? 1024 then [re_launch (n0, 1, 1) (n1, 1, 1) k_bt js x xs y ys r rs]
  else [re_launch (n0, n1, 1) (1, 1, 1) k_bb js x xs y ys r rs].
(* Rtensor_addEinsum_3_1_0_cu -- cuda/RtensorEinsumProducts.cu:361-385 *)
Definition re_add_3_1 (n0 n1 n2 : Z) (js : list Z) (x : addr) (xs : list Z) (y : addr) (ys : list Z) (r : addr) (rs : list Z) : list (list (addr * list addr)) :=
  if n0 * n1 * n2 <=? 1024 then [re_launch (1, 1, 1) (n0, n1, n2) k_ttt js x xs y ys r rs]
  else if n1 * n2 <=? 1024 then [re_launch (n0, 1, 1) (n1, n2, 1) k_btt js x xs y ys r rs]
  else if n2 <=? 1024 then [re_launch (n0, n1, 1) (n2, 1, 1) k_bbt js x xs y ys r rs]
  else [re_launch (n0, n1, n2) (1, 1, 1) k_bbb js x xs y ys r rs].
(* Rtensor_addEinsum_3_0_0_cu -- cuda/RtensorEinsumProducts.cu:293-316: for a small result the block is a row of n0*n1 threads *)
Definition re_add_3_0 (n0 n1 n2 : Z) (x : addr) (xs : list Z) (y : addr) (ys : list Z) (r : addr) (rs : list Z) : list (list (addr * list addr)) :=
  if n0 * n1 * n2 <=? 1024 then [re_launch (1, 1, 1) (n0 * n1, 1, 1) k_ttt [] x xs y ys r rs]
  else if n1 * n2 <=? 1024 then [re_launch (n0, 1, 1) (n1, n2, 1) k_btt [] x xs y ys r rs]
  else if n2 <=? 1024 then [re_launch (n0, n1, 1) (n2, 1, 1) k_bbt [] x xs y ys r rs]
  else [re_launch (n0, n1, n2) (1, 1, 1) k_bbb [] x xs y ys r rs].
(* Rtensor_addEinsum_3_2_0_cu -- cuda/RtensorEinsumProducts.cu:430-451: no return after a launch; the kernel, :234-247, steps through y with x4 in place of y4 *)
Definition re_add_3_2 (n0 n1 n2 : Z) (js : list Z) (x : addr) (xs : list Z) (y : addr) (ys : list Z) (r : addr) (rs : list Z) : list (list (addr * list addr)) :=
  let ys' := [nth 0 ys 0; nth 1 ys 0; nth 2 ys 0; nth 3 ys 0; nth 4 xs 0] in
  (if n0 * n1 * n2 <=? 1024 then [re_launch (1, 1, 1) (n0, n1, n2) k_ttt js x xs y ys' r rs] else []) ++
  (if n1 * n2 <=? 1024 then [re_launch (n0, 1, 1) (n1, n2, 1) k_btt js x xs y ys' r rs] else []) ++
  (if n2 <=? 1024 then [re_launch (n0, n1, 1) (n2, 1, 1) k_bbt js x xs y ys' r rs] else []) ++
  [re_launch (n0, n1, n2) (1, 1, 1) k_bbb js x xs y ys' r rs].
