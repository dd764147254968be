(* Model_CopyStrides.v -- copying a tensor with its strides: tensors/TensorView.hpp.  On the CPU.  The new array is block b (not in use before); it is not
   initialized: every cell holds [junk]. *)
From Verif Require Import Base Model_Index Model_View Model_Tensor.
Local Open Scope Z_scope.

(* copy_keeping_strides() -- tensors/TensorView.hpp:244-249, with the constructor :125-131: an array of strides.memsize(dims) cells, include/GstridesB.hpp:142-150,
   the sides and strides of x, and operator=, :213-218 *)
Definition copy_keeping_strides {V} (junk : V) (b : Z) (x : view) (m : mem V) : res (view * mem V) :=
  do n <- memsize (vstr x) (vdims x);
  let r := View b 0 (vdims x) (vstr x) in
  do m' <- tv_assign r x (alloc junk b n m); Ok (r, m').
(* TensorView(_dims,_strides,_dev) -- tensors/TensorView.hpp:133-138: a tensor of given strides over an array of strides.memsize(dims) cells *)
Definition new_strided {V} (junk : V) (b : Z) (dims strides : list Z) (m : mem V) : res (view * mem V) :=
  do n <- memsize strides dims; Ok (View b 0 dims strides, alloc junk b n m).
