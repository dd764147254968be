(* Model_CuComplex.v -- complex views on a device: the branches with dev==1 of the products and sums of tensor_views/Ctensor2_view.hpp and
   tensor_views/Ctensor3_view.hpp.  All operands are on the device.  Products: a cuComplex* reads real and imaginary part as one number, so here a cell of
   memory holds a complex number and offsets and strides are halved.  Simplified: the operands have arrc=arr+1 and even offsets and strides.  Sums: a cell holds
   a float and a complex view has a last axis of side 2 (Model_CView).  A library call is one launch whose updates run in any order (Model_CuBlas); int is
   unbounded; cuBLAS is compiled in and _OBJFILE is not defined.  A failed assert and exit(-1) are Throw.  Elements: a commutative ring and the complex numbers
   over it. *)
From Verif Require Import Base Model_Index Model_View Model_Tensor Model_Ops Model_RView Model_CView Model_Cuda Model_CuConv Model_CuBlas.
Local Open Scope Z_scope.

(* cublasCgemm, CUBLAS_OP_C conjugates the factor (ca, cb: the first, the second operand); called from tensor_views/Ctensor2_view.hpp:180-183, :217-220, :251-254.
   alpha and beta are 1 *)
Definition cj {R : cring} (c : bool) (x : CxRing R) : CxRing R := if c then conj x else x.
(* the sum over the pairs of factors read for an element; same calls, tensor_views/Ctensor2_view.hpp:180-183 *)
Fixpoint cdots {R : cring} (ca cb : bool) (t : CxRing R) (us : list (CxRing R)) : CxRing R :=
  match us with x :: w :: us => cdots ca cb (cadd t (cmul (cj ca x) (cj cb w))) us | _ => t end.
(* C=alpha*sum+beta*C, tensor_views/Ctensor2_view.hpp:180-183 *)
Definition f_cgemm {R : cring} (ca cb : bool) (v : CxRing R) (us : list (CxRing R)) : CxRing R := cadd v (cdots ca cb c0 us).

(* add_matmul_AA -- tensor_views/Ctensor2_view.hpp:158-187: the sides are not compared, the strides of x and y not used.  add_matmul, add_mprod are the same.  f_cgemm false false *)
Definition cu_cmatmul_AA (r x y : view) : res (list (addr * list addr)) :=
  assrt (reg2 r) (gemm false false (nd r 1) (nd r 0) (nd x 1) (arr y) (nd y 1) (arr x) (nd x 1) (arr r) (nd r 1)).
(* add_matmul_AH -- tensor_views/Ctensor2_view.hpp:193-223.  f_cgemm true false *)
Definition cu_cmatmul_AH (r x y : view) : res (list (addr * list addr)) :=
  assrt (nd x 0 =? nd r 0) (assrt (nd y 0 =? nd r 1) (assrt (nd y 1 =? nd x 1) (assrt (reg2 r)
    (gemm true false (nd r 1) (nd r 0) (nd x 1) (arr y) (nd y 1) (arr x) (nd x 1) (arr r) (nd r 1))))).
(* add_matmul_HA -- tensor_views/Ctensor2_view.hpp:227-257.  f_cgemm false true *)
Definition cu_cmatmul_HA (r x y : view) : res (list (addr * list addr)) :=
  assrt (nd x 1 =? nd r 0) (assrt (nd y 1 =? nd r 1) (assrt (nd y 0 =? nd x 0) (assrt (reg2 r)
    (gemm false true (nd r 1) (nd r 0) (nd x 0) (arr y) (nd y 1) (arr x) (nd x 1) (arr r) (nd r 1))))).
(* add_mix_1_0 -- tensor_views/Ctensor3_view.hpp:170-211.  f_cgemm false false *)
Definition cu_cmix_1_0 (r x y : view) : res (list (addr * list addr)) :=
  assrt (nd y 0 =? nd x 1) (assrt (nd x 0 =? nd r 0) (assrt (nd y 1 =? nd r 1) (assrt (nd x 2 =? nd r 2) (assrt (reg3 r)
    (gemms false true (nd r 2) (nd r 1) (nd x 1) (arr x) (nd x 2) (sd x 0) (arr y) (nd y 1) 0 (arr r) (nd r 2) (sd r 0) (nd r 0)))))).

(* add(x) -- tensor_views/Ctensor2_view.hpp:138-152: n0*n1 floats are added.  f_axpy 1 *)
Definition cu_cadd2 (r x : view) : res (list (list (addr * list addr))) :=
  assrt (nd x 0 =? nd r 0) (assrt (nd x 1 =? nd r 1)
    (if nd x 0 * nd x 1 =? 0 then Ok []
     else if creg2 r && creg2 x then Ok [axpy (nd r 0 * nd r 1) (arr x) 1 (arr r) 1] else Throw)).
(* add(x) -- tensor_views/Ctensor3_view.hpp:152-166: n0*n1 floats are added, the third sides are not compared *)
Definition cu_cadd3 (r x : view) : res (list (list (addr * list addr))) :=
  assrt (nd x 0 =? nd r 0) (assrt (nd x 1 =? nd r 1)
    (if nd x 0 * nd x 1 =? 0 then Ok []
     else if creg3 r && creg3 x then Ok [axpy (nd r 0 * nd r 1) (arr x) 1 (arr r) 1] else Throw)).
