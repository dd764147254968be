-Q theories Verif
theories/Base.v
theories/BaseFacts.v
theories/Model_Index.v
theories/Spec_Index.v
theories/Proofs_Axes.v
theories/Proofs_Index.v
theories/Prop_Index.v
theories/Model_View.v
theories/Spec_View.v
theories/Proofs_View.v
theories/Proofs_View2.v
theories/Prop_View.v
theories/Model_Tensor.v
theories/Spec_Tensor.v
theories/Proofs_Tensor.v
theories/Proofs_Tensor2.v
theories/Proofs_Tensor3.v
theories/Checks.v
theories/Proofs_Tensor4.v
theories/Prop_Tensor.v
theories/Model_Memory.v
theories/Proofs_Memory.v
theories/Prop_Memory.v
theories/Map.v
theories/Model_Containers.v
theories/Proofs_Containers.v
theories/Proofs_Containers2.v
theories/Proofs_Containers3.v
theories/Proofs_Containers4.v
theories/Prop_Containers.v
theories/Accum.v
theories/Model_Gather.v
theories/Proofs_Gather.v
theories/Proofs_Gather2.v
theories/Model_Gather2.v
theories/Spec_Gather.v
theories/Proofs_Gather3.v
theories/Proofs_Program.v
theories/Proofs_Program2.v
theories/Proofs_Program3.v
theories/Proofs_Gather4.v
theories/Proofs_Gather5.v
theories/Prop_Gather.v
theories/Model_Observer.v
theories/Spec_Observer.v
theories/Proofs_Observer.v
theories/Proofs_Observer2.v
theories/Prop_Observer.v
theories/Model_Memo.v
theories/Prop_Memo.v
theories/Model_Threads.v
theories/Spec_Threads.v
theories/Proofs_Threads.v
theories/Prop_Threads.v
theories/Model_BG.v
theories/Spec_BG.v
theories/Proofs_BG.v
theories/Proofs_BG2.v
theories/Proofs_BG3.v
theories/Prop_BG.v
theories/Model_Math.v
theories/Spec_Math.v
theories/Proofs_Math.v
theories/Proofs_Math2.v
theories/Proofs_Math3.v
theories/Proofs_Math4.v
theories/Prop_Math.v
theories/Model_Perm.v
theories/Spec_Perm.v
theories/Proofs_Perm.v
theories/Proofs_Perm2.v
theories/Prop_Perm.v
theories/Model_Comb.v
theories/Spec_Comb.v
theories/Proofs_Comb.v
theories/Prop_Comb.v
theories/Model_Tree.v
theories/Spec_Tree.v
theories/Proofs_Tree.v
theories/Proofs_Tree2.v
theories/Prop_Tree.v
theories/Model_Graph.v
theories/Spec_Graph.v
theories/Proofs_Graph.v
theories/Proofs_Graph2.v
theories/Proofs_Graph3.v
theories/Proofs_Graph4.v
theories/Proofs_Graph5.v
theories/Proofs_Graph6.v
theories/Prop_Graph.v
theories/Model_Sparse.v
theories/Spec_Sparse.v
theories/Proofs_Sparse.v
theories/Proofs_Sparse2.v
theories/Proofs_Sparse3.v
theories/Proofs_Sparse4.v
theories/Model_Block.v
theories/Proofs_Block.v
theories/Spec_Block.v
theories/Proofs_Block2.v
theories/Proofs_Sparse5.v
theories/Prop_Sparse.v
theories/Proofs_Block3.v
theories/Prop_Block.v
theories/Model_Einsum.v
theories/Spec_Einsum.v
theories/Spec_Einsum2.v
theories/Proofs_Einsum.v
theories/Proofs_Einsum2.v
theories/Proofs_Einsum3.v
theories/Proofs_Einsum4.v
theories/Proofs_Einsum5.v
theories/Proofs_Einsum6.v
theories/Proofs_Einsum7.v
theories/Proofs_Einsum8.v
theories/Proofs_Einsum9.v
theories/Prop_Einsum.v
theories/Model_Convolve.v
theories/Spec_Convolve.v
theories/Proofs_Convolve.v
theories/Proofs_Convolve2.v
theories/Proofs_Convolve3.v
theories/Prop_Convolve.v
theories/Model_JSON.v
theories/Spec_JSON.v
theories/Proofs_JSON.v
theories/Proofs_JSON2.v
theories/Prop_JSON.v
theories/Model_Convolve2D.v
theories/Spec_Convolve2D.v
theories/Proofs_Convolve2D.v
theories/Proofs_Convolve2D2.v
theories/Proofs_Convolve2D3.v
theories/Prop_Convolve2D.v
theories/Model_Ops.v
theories/Spec_Ops.v
theories/Proofs_Ops.v
theories/Proofs_Ops2.v
theories/Proofs_Ops3.v
theories/Proofs_Ops4.v
theories/Prop_Ops.v
theories/Model_RView.v
theories/Spec_RView.v
theories/Proofs_RView.v
theories/Proofs_RView2.v
theories/Proofs_RView3.v
theories/Proofs_RView4.v
theories/Proofs_RView5.v
theories/Proofs_RView6.v
theories/Prop_RView.v
theories/Model_CView.v
theories/Spec_CView.v
theories/Proofs_CView.v
theories/Proofs_CView2.v
theories/Proofs_CView3.v
theories/Proofs_CView4.v
theories/Proofs_CView5.v
theories/Prop_CView.v
theories/Model_RConv.v
theories/Spec_RConv.v
theories/Proofs_RConv.v
theories/Proofs_RConv2.v
theories/Proofs_RConv3.v
theories/Proofs_RConv4.v
theories/Proofs_RConv5.v
theories/Proofs_RConv6.v
theories/Prop_RConv.v
theories/Model_Plan.v
theories/Spec_Plan.v
theories/Proofs_Plan.v
theories/Proofs_Plan2.v
theories/Proofs_Plan3.v
theories/Proofs_Plan4.v
theories/Proofs_Plan5.v
theories/Prop_Plan.v
theories/Model_Ltensor.v
theories/Spec_Ltensor.v
theories/Proofs_Ltensor.v
theories/Proofs_Ltensor2.v
theories/Proofs_Ltensor3.v
theories/Prop_Ltensor.v
theories/Model_Gtensor.v
theories/Spec_Gtensor.v
theories/Proofs_Gtensor.v
theories/Proofs_Gtensor2.v
theories/Proofs_Gtensor3.v
theories/Proofs_Gtensor4.v
theories/Proofs_Gtensor5.v
theories/Prop_Gtensor.v
theories/Model_Spaces.v
theories/Spec_Spaces.v
theories/Proofs_Spaces.v
theories/Proofs_Spaces2.v
theories/Proofs_Spaces3.v
theories/Proofs_Spaces4.v
theories/Proofs_Spaces5.v
theories/Model_Components.v
theories/Spec_Components.v
theories/Proofs_Components.v
theories/Proofs_Spaces6.v
theories/Prop_Spaces.v
theories/Model_BGprod.v
theories/Spec_BGprod.v
theories/Proofs_BGprod.v
theories/Proofs_BGprod2.v
theories/Proofs_BGprod3.v
theories/Proofs_BGprod4.v
theories/Prop_BGprod.v
theories/Prop_BGprod2.v
theories/Prop_BGprod3.v
theories/Model_EinsumFn.v
theories/Spec_EinsumFn.v
theories/Proofs_EinsumFn.v
theories/Proofs_EinsumFn2.v
theories/Proofs_EinsumFn3.v
theories/Proofs_EinsumFn4.v
theories/Prop_EinsumFn.v
theories/Model_Column.v
theories/Proofs_Column.v
theories/Prop_Column.v
theories/Model_Mask.v
theories/Spec_Mask.v
theories/Proofs_Mask.v
theories/Proofs_Mask2.v
theories/Prop_Mask.v
theories/Model_Groups.v
theories/Spec_Groups.v
theories/Proofs_Groups.v
theories/Proofs_Groups2.v
theories/Proofs_Groups3.v
theories/Prop_Groups.v
theories/Model_Keyed.v
theories/Spec_Keyed.v
theories/Proofs_Keyed.v
theories/Proofs_Keyed2.v
theories/Proofs_Keyed3.v
theories/Prop_Keyed.v
theories/Model_ArgCache.v
theories/Spec_ArgCache.v
theories/Proofs_ArgCache.v
theories/Prop_ArgCache.v
theories/Model_HView.v
theories/Spec_HView.v
theories/Proofs_HView.v
theories/Proofs_HView2.v
theories/Proofs_HView3.v
theories/Prop_HView.v
theories/Model_BGpack.v
theories/Spec_BGpack.v
theories/Proofs_BGpack.v
theories/Prop_BGpack.v
theories/Model_PoolMem.v
theories/Spec_PoolMem.v
theories/Proofs_PoolMem.v
theories/Proofs_PoolMem2.v
theories/Prop_PoolMem.v
theories/Model_IView.v
theories/Proofs_IView.v
theories/Prop_IView.v
theories/Model_Graph2.v
theories/Spec_Graph2.v
theories/Proofs_Graph7.v
theories/Proofs_Graph8.v
theories/Prop_Graph2.v
theories/Model_IntTensor.v
theories/Spec_IntTensor.v
theories/Proofs_IntTensor.v
theories/Proofs_IntTensor2.v
theories/Prop_IntTensor.v
theories/Model_BlockMul.v
theories/Spec_BlockMul.v
theories/Proofs_BlockMul.v
theories/Proofs_BlockMul2.v
theories/Proofs_BlockMul3.v
theories/Proofs_BlockMul4.v
theories/Prop_BlockMul.v
theories/Model_Shape.v
theories/Spec_Shape.v
theories/Proofs_Shape.v
theories/Proofs_Shape2.v
theories/Proofs_Shape3.v
theories/Proofs_Shape4.v
theories/Prop_Shape.v
theories/Model_XView.v
theories/Spec_XView.v
theories/Proofs_XView.v
theories/Proofs_XView2.v
theories/Prop_XView.v
theories/Model_Cuda.v
theories/Spec_Cuda.v
theories/Proofs_Cuda.v
theories/Prop_Cuda.v
theories/Model_CuReduce.v
theories/Proofs_CuReduce.v
theories/Prop_CuReduce.v
theories/Model_CuGather.v
theories/Spec_CuGather.v
theories/Proofs_CuGather.v
theories/Prop_CuGather.v
theories/Model_CuConv.v
theories/Proofs_CuConv.v
theories/Prop_CuConv.v
theories/Model_DevAssign.v
theories/Proofs_DevAssign.v
theories/Prop_DevAssign.v
theories/Model_CuBlas.v
theories/Proofs_CuBlas.v
theories/Prop_CuBlas.v
theories/Model_CuRtensor.v
theories/Spec_CuRtensor.v
theories/Proofs_CuRtensor.v
theories/Prop_CuRtensor.v
theories/Model_CuColumns.v
theories/Proofs_CuColumns.v
theories/Prop_CuColumns.v
theories/Model_CuComplex.v
theories/Proofs_CuComplex.v
theories/Prop_CuComplex.v
theories/Model_CuMixLast.v
theories/Proofs_CuMixLast.v
theories/Prop_CuMixLast.v
theories/Model_CuContract.v
theories/Proofs_CuContract.v
theories/Prop_CuContract.v
theories/Model_CuREinsum.v
theories/Proofs_CuREinsum.v
theories/Prop_CuREinsum.v
theories/Model_CopyStrides.v
theories/Proofs_CopyStrides.v
theories/Prop_CopyStrides.v
theories/Model_Reconcile.v
theories/Proofs_Reconcile.v
theories/Prop_Reconcile.v
theories/Model_CuMask.v
theories/Proofs_CuMask.v
theories/Prop_CuMask.v
theories/Model_TupleMap.v
theories/Proofs_TupleMap.v
theories/Prop_TupleMap.v
theories/Model_Minivec.v
theories/Proofs_Minivec.v
theories/Prop_Minivec.v
