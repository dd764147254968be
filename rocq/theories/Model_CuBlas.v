(* Model_CuBlas.v -- matrix products and sums of fixed-rank real views on a device, done by the cuBLAS library: the branches with dev==1 of
   tensor_views/Rtensor1_view.hpp, Rtensor2_view.hpp, Rtensor3_view.hpp and inplace_times of tensors/TensorView.hpp.  All operands are on the device.  The
   library is not part of the repository; its calls are modelled after its documentation: matrices are stored by columns, element (i,j) of a matrix with
   leading dimension ld at i+j*ld; a call with a negative size or a leading dimension that is too small returns an error, on which CUBLAS_SAFE
   (include/Cnine_base_CUDA.hpp:30-54) ends the program: Throw.  A successful call is a list of updates of single elements, which the library does in any
   order (cu_exec of Model_Cuda).  Element type: any commutative ring. *)
From Verif Require Import Base Model_Index Model_View Model_Tensor Model_Ops Model_RView Model_Cuda Model_CuConv.
Local Open Scope Z_scope.

(* gemm: C=alpha*sum+C for an element of C and the pairs of factors read for it (tensor_views/Rtensor2_view.hpp:259-261) *)
Definition f_gemm {R : cring} (alpha v : R) (us : list R) : R := cadd v (cmul alpha (dots c0 us)).
(* axpy: y+=alpha*x (tensor_views/Rtensor1_view.hpp:188) *)
Definition f_axpy {R : cring} (alpha v : R) (us : list R) : R := match us with [x] => cadd v (cmul alpha x) | _ => v end.
(* pointer plus number, as in tensor_views/Rtensor2_view.hpp:467 *)
Definition shift (p : addr) (k : Z) : addr := (fst p, snd p + k).
(* the member arr, tensor_views/Rtensor2_view.hpp:51 *)
Definition arr (v : view) : addr := (vblk v, voff v).
(* element (i,j) of op(A), op=CUBLAS_OP_N or CUBLAS_OP_T (t=true); arguments of the calls tensor_views/Rtensor2_view.hpp:260-261, :290-291, :323-324 *)
Definition opat (t : bool) (A : addr) (ld i j : Z) : addr := if t then shift A (j + i * ld) else shift A (i + j * ld).
(* cublasSgemmStridedBatched(handle,ta,tb,m,n,k,&alpha,A,lda,sa,B,ldb,sb,&beta,C,ldc,sc,count) with beta=1; no file in the repository: called from
   tensor_views/Rtensor2_view.hpp:544-547 and tensor_views/Rtensor3_view.hpp:208-218 *)
Definition gemms (ta tb : bool) (m n k : Z) (A : addr) (lda sa : Z) (B : addr) (ldb sb : Z) (C : addr) (ldc sc count : Z) : res (list (addr * list addr)) :=
  if (0 <=? m) && (0 <=? n) && (0 <=? k) && (0 <=? count) && (Z.max 1 (if ta then k else m) <=? lda) && (Z.max 1 (if tb then n else k) <=? ldb) && (Z.max 1 m <=? ldc)
  then Ok (flat_map (fun b => flat_map (fun j => map (fun i =>
             (shift C (b * sc + (i + j * ldc)),
              flat_map (fun l => [opat ta (shift A (b * sa)) lda i l; opat tb (shift B (b * sb)) ldb l j]) (zrange k))) (zrange m)) (zrange n)) (zrange count))
  else Throw.
(* cublasSgemm(handle,ta,tb,m,n,k,&alpha,A,lda,B,ldb,&beta,C,ldc) with beta=1; called from tensor_views/Rtensor2_view.hpp:260-261, :290-291, :323-324 *)
Definition gemm (ta tb : bool) (m n k : Z) (A : addr) (lda : Z) (B : addr) (ldb : Z) (C : addr) (ldc : Z) : res (list (addr * list addr)) :=
  gemms ta tb m n k A lda 0 B ldb 0 C ldc 0 1.
(* cublasSaxpy(handle,n,&alpha,x,incx,y,incy); called from tensor_views/Rtensor1_view.hpp:188-203.  With a negative increment the array is passed from its other end *)
Definition axat (p : addr) (n inc i : Z) : addr := shift p (if 0 <=? inc then i * inc else (i + 1 - n) * inc).
Definition axpy (n : Z) (x : addr) (incx : Z) (y : addr) (incy : Z) : list (addr * list addr) := map (fun i => (axat y n incy i, [axat x n incx i])) (zrange n).

(* add_matmul_AA -- tensor_views/Rtensor2_view.hpp:238-264 *)
Definition cu_matmul_AA (r x y : view) : res (list (addr * list addr)) :=
  assrt (nd x 0 =? nd r 0) (assrt (nd y 1 =? nd r 1) (assrt (nd y 0 =? nd x 1) (assrt (sd r 1 =? 1) (assrt (sd x 1 =? 1) (assrt (sd y 1 =? 1)
    (gemm false false (nd r 1) (nd r 0) (nd x 1) (arr y) (sd y 0) (arr x) (sd x 0) (arr r) (sd r 0))))))).
(* add_matmul_AT -- tensor_views/Rtensor2_view.hpp:266-293; add_matmul_AH :295-297 is the same *)
Definition cu_matmul_AT (r x y : view) : res (list (addr * list addr)) :=
  assrt (nd x 0 =? nd r 0) (assrt (nd y 0 =? nd r 1) (assrt (nd y 1 =? nd x 1) (assrt (sd r 1 =? 1) (assrt (sd x 1 =? 1) (assrt (sd y 1 =? 1)
    (gemm true false (nd r 1) (nd r 0) (nd x 1) (arr y) (sd y 0) (arr x) (sd x 0) (arr r) (sd r 0))))))).
(* add_matmul_TA -- tensor_views/Rtensor2_view.hpp:299-326 *)
Definition cu_matmul_TA (r x y : view) : res (list (addr * list addr)) :=
  assrt (nd x 1 =? nd r 0) (assrt (nd y 0 =? nd x 0) (assrt (nd y 1 =? nd r 1) (assrt (sd r 1 =? 1) (assrt (sd x 1 =? 1) (assrt (sd y 1 =? 1)
    (gemm false true (nd r 1) (nd r 0) (nd y 0) (arr y) (sd y 0) (arr x) (sd x 0) (arr r) (sd r 0))))))).
(* add_mprod -- tensor_views/Rtensor2_view.hpp:220-236; CNINE_UNIMPL prints a message and goes on *)
Definition cu_mprod2 (r x y : view) : res (list (addr * list addr)) :=
  if reg2 r && reg2 x && reg2 y then cu_matmul_AA r x y
  else if reg2 r && reg2 x && tra2 y then cu_matmul_AT r x (rv2_transp y)
  else if reg2 r && tra2 x && reg2 y then cu_matmul_TA r (rv2_transp x) y
  else Ok [].
(* Rtensor3_view::add_mprod -- tensor_views/Rtensor3_view.hpp:192-221 *)
Definition cu_mprod3 (r x y : view) : res (list (addr * list addr)) :=
  assrt (nd r 0 =? nd y 0) (assrt (nd r 1 =? nd x 0) (assrt (nd r 2 =? nd y 2) (assrt (nd x 1 =? nd y 1)
    (if reg2 x then gemms false false (nd r 2) (nd r 1) (nd x 1) (arr y) (sd y 1) (sd y 0) (arr x) (sd x 0) 0 (arr r) (sd r 1) (sd r 0) (nd r 0)
     else if tra2 x then gemms false true (nd r 2) (nd r 1) (nd x 1) (arr y) (sd y 1) (sd y 0) (arr x) (sd x 1) 0 (arr r) (sd r 1) (sd r 0) (nd r 0)
     else Ok [])))).
(* add_broadcast0(x,alpha) -- tensor_views/Rtensor2_view.hpp:534-553; [one] is cuda_oneS, a device variable that holds 1.  The branch without a call prints a message *)
Definition cu_broadcast0 (one : addr) (r x : view) : res (list (addr * list addr)) :=
  assrt (nd x 0 =? nd r 1)
    (if (sd x 0 =? 1) && (sd r 1 =? 1) then gemms false false (nd r 1) 1 1 (arr x) (nd x 0) 0 one 1 0 (arr r) (nd x 0) (sd r 0) (nd r 0) else Ok []).
(* Rtensor1_view::add(x) and add(x,c) -- tensor_views/Rtensor1_view.hpp:183-205 *)
Definition cu_add1 (r x : view) : res (list (addr * list addr)) :=
  assrt (nd x 0 =? nd r 0) (if reg1 r && reg1 x then Ok (axpy (nd r 0) (arr x) 1 (arr r) 1) else Ok (axpy (nd r 0) (arr x) (sd x 0) (arr r) (sd r 0))).
(* Rtensor1_view::reduce -- tensor_views/Rtensor1_view.hpp:215-220: cublasSasum(n,x,inc) is the sum of the absolute values, 0 if n<=0 or inc<=0.  Elements: integers *)
Definition cu_reduce1 (v : view) (m : mem Z) : res Z :=
  if (nd v 0 <=? 0) || (sd v 0 <=? 0) then Ok 0
  else foldM (fun i t => do a <- loadA m (shift (arr v) (i * sd v 0)); Ok (t + Z.abs a)) (zrange (nd v 0)) 0.
(* inplace_times(c) -- tensors/TensorView.hpp:486-500: cublasSaxpy with both arrays the same; the branch for views that are not contiguous prints a message *)
Definition cu_times (v : view) : res (list (addr * list addr)) :=
  do c <- is_contiguous (vstr v) (vdims v); Ok (if c then axpy (asize (vdims v)) (arr v) 1 (arr v) 1 else []).
