(* Model_CuRtensor.v -- copying, adding and summing fixed-rank real views on a device: the branches with dev==1 of set, add, sum0_into, avg0_into, sum1_into and
   add_ReLU of tensor_views/Rtensor1_view.hpp, Rtensor2_view.hpp, Rtensor3_view.hpp, with cuda/RtensorUtils.cu and cuda/CUDAhelpers.hpp.  All operands are on
   the device.  Launches as in Model_Cuda: a launch is the list of its threads' statements, run in any order; a launch outside the device's limits does
   nothing.  cudaMemcpy and cublasSaxpy are one launch (Model_CuBlas).  int is unbounded.  Element type: any type for set, any commutative ring for sums. *)
From Verif Require Import Base Model_Index Model_View Model_Tensor Model_Ops Model_RView Model_Cuda Model_CuBlas.
Local Open Scope Z_scope.

(* kernel<<<g,b>>>(r.arr,x.arr,xs..,rs..) with the strides given, cuda/RtensorUtils.cu:50-206; [co] picks the coordinates of the thread *)
Definition rt_launch (g b : Z * Z * Z) (co : thread -> list Z) (r : addr) (rs : list Z) (x : addr) (xs : list Z) : list (addr * list addr) :=
  if cu_ok g b then map (fun t => (shift r (dot rs (co t)), [shift x (dot xs (co t))])) (cu_threads g b) else [].
(* the kernels _bb and _bbb, cuda/RtensorUtils.cu:78-81, :137-140; the others are those of Model_Cuda *)
Definition k_bb (t : thread) : list Z := [bx t; by_ t].
Definition k_bbb (t : thread) : list Z := [bx t; by_ t; bz t].
(* Rtensor_copy_cu of vectors, cuda/RtensorUtils.cu:361-368 (Rtensor_add_cu :393-401 is the same with += and is called by nothing) *)
Definition rt_copy1 (r x : view) : list (list (addr * list addr)) :=
  let n := nd x 0 in
  if n <? 1024 then [rt_launch (0, 1, 1) (n, 1, 1) k_t (arr r) [sd r 0] (arr x) [sd x 0]]
  else [rt_launch (n / 1024, 1, 1) (1024, 1, 1) k_bt (arr r) [1024 * sd r 0; sd r 0] (arr x) [1024 * sd x 0; sd x 0];
        rt_launch (0, 1, 1) (n mod 1024, 1, 1) k_t (shift (arr r) ((n - n mod 1024) * sd r 0)) [sd r 0] (shift (arr x) (n - n mod 1024)) [sd x 0]].
(* dispatch of matrices, cuda/CUDAhelpers.hpp:29-62, with the kernels of cuda/RtensorUtils.cu:370-378, :403-411 *)
Definition rt_dispatch2 (r x : view) : list (addr * list addr) :=
  let n0 := nd x 0 in let n1 := nd x 1 in
  let go g b co i j := rt_launch g b co (arr r) [sd r i; sd r j] (arr x) [sd x i; sd x j] in
  if n0 * n1 <=? 1024 then go (1, 1, 1) (n0, n1, 1) k_tt 0%nat 1%nat
  else if n1 <=? 1024 then go (n0, 1, 1) (n1, 1, 1) k_bt 0%nat 1%nat
  else if n0 <=? 1024 then go (n1, 1, 1) (n0, 1, 1) k_bt 1%nat 0%nat
  else go (n0, n1, 1) (1, 1, 1) k_bb 0%nat 1%nat.
(* dispatch of 3-tensors, cuda/CUDAhelpers.hpp:65-128, with the kernels of cuda/RtensorUtils.cu:380-390, :423-445 *)
Definition rt_dispatch3 (r x : view) : list (addr * list addr) :=
  let n0 := nd x 0 in let n1 := nd x 1 in let n2 := nd x 2 in
  let go g b co i j k u v w := rt_launch g b co (arr r) [sd r u; sd r v; sd r w] (arr x) [sd x i; sd x j; sd x k] in
  if n0 * n1 * n2 <=? 1024 then go (1, 1, 1) (n0, n1, n2) k_ttt 0%nat 1%nat 2%nat 0%nat 1%nat 2%nat
  else if n1 * n2 <=? 1024 then go (n0, 1, 1) (n1, n2, 1) k_btt 0%nat 1%nat 2%nat 0%nat 1%nat 2%nat
  else if n0 * n2 <=? 1024 then go (n1, 1, 1) (n0, n2, 1) k_btt 1%nat 0%nat 2%nat 1%nat 0%nat 2%nat
  else if n0 * n1 <=? 1024 then go (n2, 1, 1) (n0, n1, 1) k_btt 2%nat 0%nat 1%nat 2%nat 0%nat 1%nat
  else if n2 <=? 1024 then go (n0, n1, 1) (n2, 1, 1) k_bbt 0%nat 1%nat 2%nat 0%nat 0%nat 2%nat
  else if n1 <=? 1024 then go (n0, n2, 1) (n1, 1, 1) k_bbt 1%nat 0%nat 2%nat 1%nat 0%nat 2%nat
  else if n0 <=? 1024 then go (n1, n2, 1) (n0, 1, 1) k_bbt 2%nat 0%nat 1%nat 2%nat 0%nat 1%nat
  else go (n0, n1, n2) (1, 1, 1) k_bbb 0%nat 1%nat 1%nat 0%nat 1%nat 1%nat.

(* Rtensor1_view::set(x) -- tensor_views/Rtensor1_view.hpp:161-171: the launches, statement r[..]=x[..].  cudaMemcpy of n floats: the updates of axpy *)
Definition cu_set1 (r x : view) : res (list (list (addr * list addr))) :=
  assrt (nd x 0 =? nd r 0) (Ok (if reg1 r && reg1 x then [axpy (nd r 0) (arr x) 1 (arr r) 1] else rt_copy1 r x)).
(* Rtensor2_view::set(x) -- tensor_views/Rtensor2_view.hpp:163-174 *)
Definition cu_set2 (r x : view) : res (list (list (addr * list addr))) :=
  assrt (nd x 0 =? nd r 0) (assrt (nd x 1 =? nd r 1)
    (Ok [if reg2 r && reg2 x then axpy (nd r 0 * nd r 1) (arr x) 1 (arr r) 1 else rt_dispatch2 r x])).
(* Rtensor2_view::add(x) -- tensor_views/Rtensor2_view.hpp:187-199: statement r[..]+=x[..] (cublasSaxpy with alpha=1 as well) *)
Definition cu_add2 (r x : view) : res (list (list (addr * list addr))) :=
  assrt (nd x 0 =? nd r 0) (assrt (nd x 1 =? nd r 1)
    (Ok (if nd x 0 * nd x 1 =? 0 then [] else [if reg2 r && reg2 x then axpy (nd r 0 * nd r 1) (arr x) 1 (arr r) 1 else rt_dispatch2 r x]))).
(* Rtensor2_view::add(x,c) -- tensor_views/Rtensor2_view.hpp:201-214: CNINE_CPUONLY (include/Cnine_base.hpp:180) ends the program on a device *)
Definition cu_addc2 (r x : view) : res (list (list (addr * list addr))) := Throw.
(* the condition of tensor_views/Rtensor3_view.hpp:132, :147, :158 *)
Definition reg_pair (r x : view) : bool :=
  (nd x 0 =? nd r 0) && (nd x 1 =? nd r 1) && (nd x 2 =? nd r 2) && reg3 r && reg3 x.
(* Rtensor3_view::set(x) -- tensor_views/Rtensor3_view.hpp:130-139; sides are not compared otherwise *)
Definition cu_set3 (r x : view) : res (list (list (addr * list addr))) :=
  Ok [if reg_pair r x then axpy (nd r 0 * nd r 1) (arr x) 1 (arr r) 1 else rt_dispatch3 r x].
(* Rtensor3_view::add(x) and add(x,c) -- tensor_views/Rtensor3_view.hpp:145-165: statement r[..]+=x[..] or r[..]+=c*x[..] *)
Definition cu_add3 (r x : view) : res (list (list (addr * list addr))) :=
  Ok [if reg_pair r x then axpy (nd r 0 * nd r 1 * nd r 2) (arr x) 1 (arr r) 1 else rt_dispatch3 r x].

(* Rtensor_sum0_into_kernel_0 and _1, cuda/RtensorUtils.cu:225-251: t=0; for i<n t+=arr[i*s0+j*s1]; rarr[j*rs0]+=t*c; [jo] is the number j of the thread's column *)
Definition f_sumc {R : cring} (c v : R) (us : list R) : R := cadd v (cmul (fold_left cadd us c0) c).
Definition sum0_launch (g b : Z * Z * Z) (jo : thread -> Z) (r : addr) (rs0 : Z) (x : addr) (s0 s1 n : Z) : list (addr * list addr) :=
  if cu_ok g b then map (fun t => (shift r (jo t * rs0), map (fun i => shift x (i * s0 + jo t * s1)) (zrange n))) (cu_threads g b) else [].
(* Rtensor_sum0_into_cu, cuda/RtensorUtils.cu:459-479, called by sum0_into and avg0_into -- tensor_views/Rtensor2_view.hpp:394-422 (c=1 and c=1/n0) *)
Definition cu_sum0 (r x : view) : res (list (list (addr * list addr))) :=
  let n := nd x 1 in
  assrt (nd r 0 =? n)
    (Ok (if n <=? 1024 then [sum0_launch (1, 1, 1) (n, 1, 1) tx (arr r) (sd r 0) (arr x) (sd x 0) (sd x 1) (nd x 0)]
         else sum0_launch (n / 1024, 1, 1) (1024, 1, 1) (fun t => bx t * 1024 + tx t) (arr r) (sd r 0) (arr x) (sd x 0) (sd x 1) (nd x 0) ::
              (if 0 <? n mod 1024
               then [sum0_launch (1, 1, 1) (n mod 1024, 1, 1) tx (shift (arr r) ((n - n mod 1024) * sd r 0)) (sd r 0)
                                 (shift (arr x) ((n - n mod 1024) * sd x 1)) (sd x 0) (sd x 1) (nd x 0)]
               else []))).
(* Rtensor3_view::sum1_into -- tensor_views/Rtensor3_view.hpp:253-268, Rtensor3_sum1_into_cu and its kernel, cuda/RtensorUtils.cu:254-260, :481-489.  CNINE_UNIMPL
   prints a message *)
Definition cu_sum1 (r x : view) : res (list (list (addr * list addr))) :=
  assrt (nd r 0 =? nd x 0) (assrt (nd r 1 =? nd x 2)
    (Ok (if nd x 2 <=? 1024
         then [if cu_ok (nd x 0, 1, 1) (nd x 2, 1, 1)
               then map (fun t => (shift (arr r) (bx t * sd r 0 + tx t * sd r 1),
                                   map (fun i => shift (arr x) (bx t * sd x 0 + i * sd x 1 + tx t * sd x 2)) (zrange (nd x 1))))
                        (cu_threads (nd x 0, 1, 1) (nd x 2, 1, 1))
               else []]
         else []))).

(* Rtensor_add_ReLU_kernel and Rtensor_add_ReLU_back_kernel, cuda/RtensorUtils.cu:322-334: the statement; [pos v] is v>0.  The old value of the target is not used *)
Definition f_relu {R : cring} (pos : R -> bool) (alpha v : R) (us : list R) : R := match us with [x] => if pos x then x else cmul alpha x | _ => v end.
Definition f_relu_back {R : cring} (pos : R -> bool) (alpha v : R) (us : list R) : R := match us with [g; x] => if pos x then g else cmul alpha g | _ => v end.
(* Rtensor_add_ReLU_cu and Rtensor_add_ReLU_back_cu, cuda/RtensorUtils.cu:560-581, called by tensor_views/Rtensor1_view.hpp:236-259 *)
Definition relu_launch (g b n0 : Z) (r : addr) (xs : list addr) : list (addr * list addr) :=
  if cu_ok (g, 1, 1) (b, 1, 1) then map (fun t => (shift r (n0 + (bx t * 32 + tx t)), map (fun x => shift x (n0 + (bx t * 32 + tx t))) xs)) (cu_threads (g, 1, 1) (b, 1, 1)) else [].
Definition cu_relu (r : view) (xs : list view) : res (list (list (addr * list addr))) :=
  let n := nd r 0 in
  assrt (forallb (fun x => (nd x 0 =? n)) xs) (assrt (forallb (fun x => sd x 0 =? 1) (r :: xs))
    (Ok ((if 32 <=? n then [relu_launch (n / 32) 32 0 (arr r) (map arr xs)] else []) ++
         (if 0 <? n mod 32 then [relu_launch 1 (n mod 32) (n / 32 * 32) (arr r) (map arr xs)] else [])))).
