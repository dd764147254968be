(* Model_Reconcile.v -- products of tensors that are on different devices: include/device_helpers.hpp and the products of tensors/TensorView.hpp that use it, for a real
   element type.  Device 0 is the host, 1 the graphics card; blocks, junk, ord and fuel as in Model_DevAssign.  The copies of x and y are the blocks nx and ny.  When both are
   made C++ does not say which is made first; here x is (they are independent of each other).  The copies are not freed. *)
From Verif Require Import Base Model_Index Model_View Model_Tensor Model_Cuda Model_DevAssign Model_Ops Model_RView Model_CuBlas.
Local Open Scope Z_scope.

Section S.
Context {R : cring} (junk : R) (ord : list (addr * list addr) -> list (addr * list addr)) (fuel : nat) (nx ny : Z).
Notation memR := (mem (car R)).
(* x itself, or TYPE(x,dev) -- include/device_helpers.hpp:41-50, tensors/TensorView.hpp:266-269 *)
Definition bring (nb rd xd : Z) (x : view) (m : memR) : res (view * memR) := if xd =? rd then Ok (x, m) else dev_copy junk ord fuel nb rd xd x m.
(* reconcile_devices(r,x,y,lambda) -- include/device_helpers.hpp:39-52; the overload :55-68 is the same *)
Definition reconcile (rd xd yd : Z) (lambda : view -> view -> view -> memR -> res memR) (r x y : view) (m : memR) : res memR :=
  do ' (x', m) <- bring nx rd xd x m; do ' (y', m) <- bring ny rd yd y m; lambda r x' y' m.
(* add_mprod -- tensors/TensorView.hpp:561-573, with add_matmul_AA, tensor_views/Rtensor2_view.hpp:238-264 *)
Definition rec_mprod (rd xd yd : Z) : view -> view -> view -> memR -> res memR :=
  reconcile rd xd yd (fun r x y m => if rd =? 0 then tv_add_mprod r x y m else assrt (is_mat r && is_mat x && is_mat y) (do plan <- cu_matmul_AA r x y; cu_exec (f_gemm c1) [ord plan] m)).
(* add_mprod_AH -- tensors/TensorView.hpp:576-588, with add_matmul_AT, tensor_views/Rtensor2_view.hpp:266-293 *)
Definition rec_mprod_AH (rd xd yd : Z) : view -> view -> view -> memR -> res memR :=
  reconcile rd xd yd (fun r x y m => if rd =? 0 then tv_add_mprod_AT r x y m else assrt (is_mat r && is_mat x && is_mat y) (do plan <- cu_matmul_AT r x y; cu_exec (f_gemm c1) [ord plan] m)).
(* add_mvprod -- tensors/TensorView.hpp:515-535; on the card the sides are tested, and CNINE_UNIMPL prints a message and goes on *)
Definition rec_mvprod (rd xd yd : Z) : view -> view -> view -> memR -> res memR :=
  reconcile rd xd yd (fun r x y m => if rd =? 0 then tv_add_mvprod r x y m
    else match vdims r, vdims x, vdims y with [r0], [x0; x1], [y0] => assrt ((x0 =? r0) && (x1 =? y0)) (Ok m) | _, _, _ => Throw end).
End S.
