(* Model_CuContract.v -- contractions and outer products of complex views on a device: the branches with dev==1 of tensor_views/BasicCtensorProducts.hpp and the
   kernels of cuda/BasicCtensorProducts.cu.  As in Model_CuComplex a cell of memory holds a complex number: the kernels use the same offset from arr and from
   arrc.  Launches as in Model_Cuda.  int is unbounded.  The statement of a thread, f_cgemm false false: the sum of the products of the pairs read (starting from
   0) is added to the element; in the kernels without sum the one product is added. *)
From Verif Require Import Base Model_Index Model_View Model_Tensor Model_Ops Model_RView Model_CView Model_Cuda Model_CuConv Model_CuBlas Model_CuComplex.
Local Open Scope Z_scope.

(* which coordinates the kernels use: BasicCproduct_4_1_3_kernel, cuda/BasicCtensorProducts.cu:26-42 *)
Definition k_bttt (t : thread) : list Z := [bx t; tx t; ty t; tz t].
(* BasicCproduct_4_2_2_kernel, cuda/BasicCtensorProducts.cu:45-61 (the kernel 4_3_1, :64-80, uses k_bbbt) *)
Definition k_bbtt (t : thread) : list Z := [bx t; by_ t; tx t; ty t].
(* kernel<<<g,b>>>(..): each thread adds the products over n positions of the summed index to one element; cuda/BasicCtensorProducts.cu:83-128 *)
Definition cc_launch (g b : Z * Z * Z) (co : thread -> list Z) (n : Z) (x : addr) (xs : list Z) (y : addr) (ys : list Z) (r : addr) (rs : list Z) : list (addr * list addr) :=
  if cu_ok g b then map (fun t => (shift r (dot rs (co t)), flat_map (fun i => [shift x (dot xs (co t ++ [i])); shift y (dot ys (co t ++ [i]))]) (zrange n))) (cu_threads g b) else [].
(* BasicCproduct_4_cu -- cuda/BasicCtensorProducts.cu:160-193: a tensor that is too large gives a message.  No index is summed: one position, strides 0 *)
Definition cu_cproduct_4 (n0 n1 n2 n3 : Z) (x : addr) (xs : list Z) (y : addr) (ys : list Z) (r : addr) (rs : list Z) : list (addr * list addr) :=
  let go g b co := cc_launch g b co 1 x (xs ++ [0]) y (ys ++ [0]) r rs in
  if n1 * n2 * n3 <=? 1024 then go (n0, 1, 1) (n1, n2, n3) k_bttt
  else if n2 * n3 <=? 1024 then go (n0, n1, 1) (n2, n3, 1) k_bbtt
  else if n3 <=? 1024 then go (n0, n1, n2) (n3, 1, 1) k_bbbt
  else [].
(* BasicCproduct_2_1_cu -- cuda/BasicCtensorProducts.cu:196-220 *)
Definition cu_cproduct_2_1 (n0 n1 n2 : Z) (x : addr) (xs : list Z) (y : addr) (ys : list Z) (r : addr) (rs : list Z) : list (addr * list addr) :=
  if n0 * n1 <=? 1024 then cc_launch (1, 1, 1) (n0, n1, 1) k_tt n2 x xs y ys r rs
  else if n1 <=? 1024 then cc_launch (n0, 1, 1) (n1, 1, 1) k_bt n2 x xs y ys r rs
  else [].
(* x.add_contract_aib_aib_ab_to(r,y) -- tensor_views/Ctensor3_view.hpp:263-274, tensor_views/BasicCtensorProducts.hpp:125-128 *)
Definition cu_contract (x r y : view) : res (list (addr * list addr)) :=
  assrt (nd r 0 =? nd x 0) (assrt (nd r 1 =? nd x 2) (assrt (nd y 0 =? nd x 0) (assrt (nd y 1 =? nd x 1) (assrt (nd y 2 =? nd x 2)
    (Ok (cu_cproduct_2_1 (nd x 0) (nd x 2) (nd x 1) (arr x) [sd x 0; sd x 2; sd x 1] (arr y) [sd y 0; sd y 2; sd y 1] (arr r) [sd r 0; sd r 1])))))).
(* r.add_expand_2(x,y) -- tensor_views/Ctensor4_view.hpp:145-157, tensor_views/BasicCtensorProducts.hpp:74-77 *)
Definition cu_expand_2 (r x y : view) : res (list (addr * list addr)) :=
  assrt (nd x 0 =? nd r 0) (assrt (nd x 1 =? nd r 1) (assrt (nd x 2 =? nd r 3) (assrt (nd y 0 =? nd x 1) (assrt (nd y 1 =? nd r 2) (assrt (nd y 2 =? nd x 2)
    (Ok (cu_cproduct_4 (nd r 0) (nd r 1) (nd r 2) (nd r 3) (arr x) [sd x 0; sd x 1; 0; sd x 2] (arr y) [0; sd y 0; sd y 1; sd y 2] (arr r) [sd r 0; sd r 1; sd r 2; sd r 3]))))))).
(* slice0 -- tensor_views/Ctensor4_view.hpp:172-174 *)
Definition cc_slice4 (v : view) (i : Z) : view := View (vblk v) (voff v + i * sd v 0) [nd v 1; nd v 2; nd v 3] [sd v 1; sd v 2; sd v 3].
(* slice0 -- tensor_views/Ctensor3_view.hpp:280-282 *)
Definition cc_slice3 (v : view) (i : Z) : view := View (vblk v) (voff v + i * sd v 0) [nd v 1; nd v 2] [sd v 1; sd v 2].
(* x.add_contract_abic_bic_abc_to(r,y) -- tensor_views/Ctensor4_view.hpp:161-166 with foreach_slice0 :110-118: the launches, in order *)
Definition cu_contract4 (x r y : view) : res (list (list (addr * list addr))) :=
  assrt (nd x 0 =? nd r 0) (mapM (fun i => cu_contract (cc_slice4 x i) (cc_slice3 r i) y) (zrange (nd x 0))).
