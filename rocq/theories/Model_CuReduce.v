(* Model_CuReduce.v -- the reduction of a device view along its middle axis: cuda/RtensorReduce.cu.  Launches as in Model_Cuda: a launch is
   the list of its threads' statements (here arr[p]+=arr[q]), run in any order; a launch outside the device's limits does nothing. *)
From Verif Require Import Base Model_Index Model_View Model_Tensor Model_Cuda.
Local Open Scope Z_scope.

(* BatchedFold_kernel, cuda/RtensorReduce.cu:27-29 *)
Definition fold_kernel (b arr : Z) (g n : Z) (sb s0 offs : Z) : list (addr * list addr) :=
  if cu_ok (g, 1, 1) (n, 1, 1)
  then map (fun t => let p := arr + (bx t * sb + tx t * s0) in ((b, p), [(b, p + offs)])) (cu_threads (g, 1, 1) (n, 1, 1))
  else [].
(* BatchedFold_kernel1, :32-34 *)
Definition fold_kernel1 (b arr : Z) (g0 g1 n : Z) (sb s0 s1 offs : Z) : list (addr * list addr) :=
  if cu_ok (g0, g1, 1) (n, 1, 1)
  then map (fun t => let p := arr + (bx t * sb + by_ t * s0 + tx t * s1) in ((b, p), [(b, p + offs)])) (cu_threads (g0, g1, 1) (n, 1, 1))
  else [].
(* BatchedFold, :41-52: the second launch starts at arr again, only the offset of its source is moved *)
Definition batched_fold (b arr : Z) (nb sb n s offs : Z) : list (list (addr * list addr)) :=
  if n <=? 1024 then [fold_kernel b arr nb n sb s offs]
  else fold_kernel1 b arr nb (n / 1024) 1024 sb (s * 1024) s offs ::
       (if 0 <? n mod 1024 then [fold_kernel b arr nb (n mod 1024) sb s (offs + n / 1024 * 1024 * s)] else []).
(* int a=1; while(a<n) a*=2 -- :56.  fuel bounds the rounds; n rounds are more than enough *)
Fixpoint pow_above (fuel : nat) (a n : Z) : Z :=
  match fuel with O => a | S f => if a <? n then pow_above f (a * 2) n else a end.
(* while(a>0){BatchedFold(..); a/=2;} -- :61-64 *)
Fixpoint fold_down (fuel : nat) (a : Z) (step : Z -> list (list (addr * list addr))) : list (list (addr * list addr)) :=
  match fuel with O => [] | S f => if 0 <? a then step a ++ fold_down f (a / 2) step else [] end.
(* InplaceReduce1_cu, :55-66: all the launches.  x is a view with three sides; the offsets a*x.n2 and the stride x.s2 are used for the fused
   second and third axes, x.s1 is not used *)
Definition reduce1_plan (x : view) : res (list (list (addr * list addr))) :=
  match vdims x, vstr x with
  | [n0; n1; n2], [s0; s1; s2] =>
      let a := pow_above (Z.to_nat n1) 1 n1 / 2 in
      Ok (batched_fold (vblk x) (voff x) n0 s0 ((n1 - a) * n2) s2 (a * n2) ++
          fold_down (Z.to_nat n1) (a / 2) (fun a => batched_fold (vblk x) (voff x) n0 s0 (a * n2) s2 (a * n2)))
  | _, _ => UB
  end.
