(* Model_DevAssign.v -- assigning and copying tensors between the host (device 0) and a graphics card (device 1): tensors/functions/TensorView_assign.hpp,
   the copying constructor and move_to_device of tensors/TensorView.hpp.  Host and device arrays are different blocks of one memory; which device a view is on
   is an argument.  Element type int, float or double.  New arrays are blocks nb, nb+1, ... (not in use before); their contents before the first write is [junk];
   temporary arrays are not freed.  Kernels as in Model_Cuda, with [ord] the order in which the threads of each launch run.  A call chain deeper than [fuel]
   exhausts the stack: UB. *)
From Verif Require Import Base Model_Index Model_View Model_Tensor Model_Cuda.
Local Open Scope Z_scope.

Section S.
Context {V : Type} (junk : V) (ord : list (addr * list addr) -> list (addr * list addr)).
(* TensorView_assign_copy -- tensors/functions/TensorView_assign.hpp:90-99: std::copy or cudaMemcpy of x.memsize() elements *)
Definition blit (r x : view) (m : mem V) : res (mem V) := do n <- memsize (vstr x) (vdims x); flat_loop f_set r [x] n m.
(* CUDA_STREAM(TensorView_assign_cu(r,x,stream)) -- cuda/TensorView_assign.cu:65-130 *)
Definition kernel (r x : view) (m : mem V) : res (mem V) := do plan <- cu_plan r [x]; cu_exec f_set (map ord plan) m.
(* TensorView_assign -- tensors/functions/TensorView_assign.hpp:37-87; r on device rd, x on device xd.  The new tensors: TensorView(xp,dev), see dev_copy below,
   and z with the sides
   and strides of rp.  The sides are compared first (also in operator=, tensors/TensorView.hpp:213-218) *)
Fixpoint dev_assign (fuel : nat) (nb rd xd : Z) (r x : view) (m : mem V) {struct fuel} : res (mem V) :=
  match fuel with
  | O => UB
  | S fuel =>
      assrt (eqlb (vdims r) (vdims x))
        (do m <- match vdims r with
                 | [] => if (rd =? 0) && (xd =? 0) then rmw f_set (vblk r, voff r) [(vblk x, voff x)] m else blit r x m
                 | _ => Ok m
                 end;
         if asize (vdims r) =? 0 then Ok m
         else
           do c <- is_contiguous (vstr r) (vdims r);
           if c && eqlb (vstr r) (vstr x) then blit r x m
           else
             do ' (rp, xp) <- co_scrunch r x;
             if (rd =? 0) && (xd =? 0) then add_loops f_set rp xp m
             else if rd =? 1 then
               (if xd =? 0
                then let z := fresh_view nb (vdims xp) in
                     do m <- dev_assign fuel (nb + 1) 1 0 z xp (alloc junk nb (asize (vdims xp)) m); kernel rp z m
                else kernel rp xp m)
             else
               do c <- is_contiguous (vstr rp) (vdims rp);
               if c then let z := View nb 0 (vdims rp) (vstr rp) in
                         do n <- memsize (vstr rp) (vdims rp);
                         do m <- kernel z xp (alloc junk nb n m); dev_assign fuel (nb + 1) 0 xd rp z m
               else let z := fresh_view nb (vdims xp) in
                    do m <- dev_assign fuel (nb + 1) 0 xd z xp (alloc junk nb (asize (vdims xp)) m); dev_assign fuel (nb + 1) 0 0 rp z m)
  end.
(* TensorView(x,_dev) -- tensors/TensorView.hpp:266-269: a row-major tensor on device d, assigned x *)
Definition dev_copy (fuel : nat) (nb d xd : Z) (x : view) (m : mem V) : res (view * mem V) :=
  let z := fresh_view nb (vdims x) in
  do m <- dev_assign fuel (nb + 1) d xd z x (alloc junk nb (asize (vdims x)) m); Ok (z, m).
(* move_to_device(d) -- tensors/TensorView.hpp:271-276: the array is replaced, sides and strides stay.  Result: the view after the call *)
Definition dev_move (fuel : nat) (nb d xd : Z) (x : view) (m : mem V) : res (view * mem V) :=
  if d =? xd then Ok (x, m) else do ' (z, m) <- dev_copy fuel nb d xd x m; Ok (View (vblk z) (voff z) (vdims x) (vstr x), m).
End S.
