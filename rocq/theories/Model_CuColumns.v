(* Model_CuColumns.v -- reductions that overwrite a matrix, broadcasts and scaled columns on a device: the branches with dev==1 of reduce0_destructively,
   reduce1_destructively and broadcast0 of tensor_views/Rtensor2_view.hpp, of reduce1_destructively of tensor_views/Rtensor3_view.hpp (with cuda/RtensorUtils.cu) and of add_scale_columns, add_mul_columns of tensors/TensorView.hpp.  All operands are
   on the device.  A library call or cudaMemcpy is one launch whose updates run in any order (Model_CuBlas); int is unbounded.  CNINE_UNIMPL prints a message:
   no launch.  Elements: a commutative ring. *)
From Verif Require Import Base Model_Index Model_View Model_Tensor Model_Ops Model_RView Model_Cuda Model_CuBlas Model_CuRtensor.
Local Open Scope Z_scope.

(* for(;a>0;a/=2) cublasSaxpy(a*s0,&alpha,arr+a*s0,1,arr,1) -- tensor_views/Rtensor2_view.hpp:468-469.  Simplified: at most k rounds; k=a suffices *)
Fixpoint cu_halve (k : nat) (a : Z) (v : view) : list (list (addr * list addr)) :=
  match k with
  | O => []
  | S k' => if 0 <? a then axpy (a * sd v 0) (shift (arr v) (a * sd v 0)) 1 (arr v) 1 :: cu_halve k' (a / 2) v else []
  end.
(* reduce0_destructively -- tensor_views/Rtensor2_view.hpp:463-474; statement arr[i]+=arr[a*s0+i] (alpha is 1) *)
Definition cu_reduce0 (v : view) : list (list (addr * list addr)) :=
  if reg2 v
  then let a := grow (Z.to_nat (nd v 0)) 1 (nd v 0) / 2 in
       axpy ((nd v 0 - a) * sd v 0) (shift (arr v) (a * sd v 0)) 1 (arr v) 1 :: cu_halve (Z.to_nat a) (a / 2) v
  else [].
(* reduce1_destructively -- tensor_views/Rtensor2_view.hpp:477-479 *)
Definition cu_reduce1d (v : view) : list (list (addr * list addr)) := cu_reduce0 (rv2_transp v).
(* reduce0_destructively_into(r) -- tensor_views/Rtensor2_view.hpp:435-439, with the sum of tensor_views/Rtensor1_view.hpp:183-193 (Model_CuBlas.cu_add1) *)
Definition cu_reduce0_into (v r : view) : res (list (list (addr * list addr))) :=
  assrt (nd r 0 =? nd v 1) (do l <- cu_add1 r (rv2_slice0 v 0); Ok (cu_reduce0 v ++ [l])).

(* batched_add_cu(rarr,arr,b,sb,n,s), cuda/RtensorUtils.cu:448-456, kernels :212-218 *)
Definition batched_add (r x : addr) (b sb n s : Z) : list (list (addr * list addr)) :=
  if n <=? 1024 then [rt_launch (b, 1, 1) (n, 1, 1) k_bt r [sb; s] x [sb; s]]
  else rt_launch (b, n / 1024, 1) (1024, 1, 1) k_bbt r [sb; s * 1024; s] x [sb; s * 1024; s] ::
       (if 0 <? n mod 1024
        then [rt_launch (b, 1, 1) (n mod 1024, 1, 1) k_bt (shift r ((n - n mod 1024) * s)) [sb; s] (shift x ((n - n mod 1024) * s)) [sb; s]]
        else []).
(* for(;a>0;a/=2) batched_add_cu(..) -- tensor_views/Rtensor3_view.hpp:381-382.  Simplified: at most k rounds; k=a suffices *)
Fixpoint cu_halve3 (k : nat) (a : Z) (v : view) : list (list (addr * list addr)) :=
  match k with
  | O => []
  | S k' => if 0 <? a then batched_add (arr v) (shift (arr v) (a * sd v 1)) (nd v 0) (sd v 0) (a * sd v 1) (sd v 2) ++ cu_halve3 k' (a / 2) v else []
  end.
(* Rtensor3_view::reduce1_destructively -- tensor_views/Rtensor3_view.hpp:374-389 *)
Definition cu_reduce3 (v : view) : list (list (addr * list addr)) :=
  if reg3 v
  then let a := grow (Z.to_nat (nd v 1)) 1 (nd v 1) / 2 in
       batched_add (arr v) (shift (arr v) (a * sd v 1)) (nd v 0) (sd v 0) ((nd v 1 - a) * sd v 1) (sd v 2) ++ cu_halve3 (Z.to_nat a) (a / 2) v
  else concat (map (fun i => cu_reduce0 (rv3_slice0 v i)) (zrange (nd v 0))).

(* for(; a<=n0/2; a*=2) cudaMemcpy(arr+a*n1,arr,a*n1 floats); if(n0>a) cudaMemcpy(arr+a*n1,arr,(n0-a)*n1 floats) -- tensor_views/Rtensor2_view.hpp:500-502.
   Simplified: at most k rounds; k=n0 suffices *)
Fixpoint cu_spread (k : nat) (a : Z) (v : view) : list (list (addr * list addr)) :=
  let last := if a <? nd v 0 then [axpy ((nd v 0 - a) * nd v 1) (arr v) 1 (shift (arr v) (a * nd v 1)) 1] else [] in
  match k with
  | O => last
  | S k' => if a <=? nd v 0 / 2 then axpy (a * nd v 1) (arr v) 1 (shift (arr v) (a * nd v 1)) 1 :: cu_spread k' (a * 2) v else last
  end.
(* broadcast0 -- tensor_views/Rtensor2_view.hpp:485-508; statement arr[..]=x.arr[..] *)
Definition cu_broadcast (v x : view) : res (list (list (addr * list addr))) :=
  assrt (nd x 0 =? nd v 1)
    (Ok (if reg2 v && reg1 x then axpy (nd v 1) (arr x) 1 (arr v) 1 :: cu_spread (Z.to_nat (nd v 0)) 1 v else [])).

(* cublasSdgmm(CUBLAS_SIDE_LEFT,nc,n,A,nc,y,1,C,nc) with C=A: by columns of length nc, C(j,i)=y(j)*A(j,i); called from tensors/TensorView.hpp:652, :674 *)
Definition f_dgmm {R : cring} (v : R) (us : list R) : R := match us with [y] => cmul y v | _ => v end.
(* the updates of that call, tensors/TensorView.hpp:652 *)
Definition dgmm (nc n : Z) (y A : addr) : list (addr * list addr) :=
  concat (map (fun i => map (fun j => (shift A (j + i * nc), [shift y j])) (zrange nc)) (zrange n)).
(* add_scale_columns(x,y), add_mul_columns(x,y) -- tensors/TensorView.hpp:636-680.  dim(0), dim(1) of the target: a matrix.  x is not used *)
Definition cu_scale_columns (r x y : view) : res (list (list (addr * list addr))) :=
  assrt (length (vdims x) =? 2)%nat (assrt (length (vdims y) =? 1)%nat
    (assrt ((nd x 0 =? nd r 0) && (nd x 1 =? nd r 1) && (nd y 0 =? nd r 1)) (Ok [dgmm (nd r 1) (nd r 0) (arr y) (arr r)]))).
