(* Model_CuMixLast.v -- products along the last axis of complex views on a device: tensor_views/Ctensor3_view.hpp and tensor_views/Ctensor4_view.hpp.  As in
   Model_CuComplex a cell of memory holds a complex number, offsets and strides are halved, all operands are on the device. *)
From Verif Require Import Base Model_Index Model_View Model_Tensor Model_Ops Model_RView Model_CView Model_Cuda Model_CuConv Model_CuBlas Model_CuComplex.
Local Open Scope Z_scope.

(* fuse01 -- tensor_views/Ctensor3_view.hpp:292-294: s0 is dropped, no test that the slices follow each other *)
Definition cm3_fuse01 (v : view) : view := View (vblk v) (voff v) [nd v 0 * nd v 1; nd v 2] [sd v 1; sd v 2].
(* add_mix_2_0 -- tensor_views/Ctensor3_view.hpp:253-255.  f_cgemm false false *)
Definition cu_cmix_2_0 (r x y : view) : res (list (addr * list addr)) := cu_cmatmul_AA (cm3_fuse01 r) (cm3_fuse01 x) y.
(* add_mix_2_H -- tensor_views/Ctensor3_view.hpp:257-259.  f_cgemm true false *)
Definition cu_cmix_2_H (r x y : view) : res (list (addr * list addr)) := cu_cmatmul_AH (cm3_fuse01 r) (cm3_fuse01 x) y.
(* fuse01 -- tensor_views/Ctensor4_view.hpp:188-190 *)
Definition cm4_fuse01 (v : view) : view := View (vblk v) (voff v) [nd v 0 * nd v 1; nd v 2; nd v 3] [sd v 1; sd v 2; sd v 3].
(* add_mix_3_0 -- tensor_views/Ctensor4_view.hpp:135-137 *)
Definition cu_cmix_3_0 (r x y : view) : res (list (addr * list addr)) := cu_cmix_2_0 (cm4_fuse01 r) (cm4_fuse01 x) y.
(* add_mix_3_H -- tensor_views/Ctensor4_view.hpp:139-141 *)
Definition cu_cmix_3_H (r x y : view) : res (list (addr * list addr)) := cu_cmix_2_H (cm4_fuse01 r) (cm4_fuse01 x) y.
