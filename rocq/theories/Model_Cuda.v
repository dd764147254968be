(* Model_Cuda.v -- the CUDA kernels for assigning, adding and incrementing: cuda/TensorView_assign.cu, cuda/TensorView_add.cu,
   cuda/TensorView_inc.cu.  The three files have the same text up to the statement each thread executes, so they share one plan; the statement
   is a parameter.  A launch is the list of the statements of its threads.  The launches of one stream run one after the other and the
   threads of one launch in any order (the order is a parameter of the theorems).  Simplification: each thread's statement is one step, so
   races of threads that touch the same cell are not modelled beyond the order of the steps.  int is unbounded. *)
From Verif Require Import Base Model_Index Model_View Model_Tensor.
Local Open Scope Z_scope.

(* blockIdx and threadIdx of a thread *)
Record thread := Thr { bx : Z; by_ : Z; bz : Z; tx : Z; ty : Z; tz : Z }.
(* Launch limits of CUDA devices: a launch with another configuration fails.  The code does not look at the error, so nothing is executed.
   (Limits of all devices of compute capability 3.0 and later.) *)
Definition cu_ok (g b : Z * Z * Z) : bool :=
  let '(gx, gy, gz) := g in let '(nx, ny, nz) := b in
  (1 <=? gx) && (gx <=? 2147483647) && (1 <=? gy) && (gy <=? 65535) && (1 <=? gz) && (gz <=? 65535) &&
  (1 <=? nx) && (nx <=? 1024) && (1 <=? ny) && (ny <=? 1024) && (1 <=? nz) && (nz <=? 64) && (nx * ny * nz <=? 1024).
Definition cu_threads (g b : Z * Z * Z) : list thread :=
  let '(gx, gy, gz) := g in let '(nx, ny, nz) := b in
  flat_map (fun i => flat_map (fun j => flat_map (fun k => flat_map (fun u => flat_map (fun v => map (fun w => Thr i j k u v w) (zrange nz))
    (zrange ny)) (zrange nx)) (zrange gz)) (zrange gy)) (zrange gx).

(* which coordinates the kernels use, in the order of their stride arguments: cuda/TensorView_assign.cu:26-58, cuda/TensorView_add.cu:26-58,
   cuda/TensorView_inc.cu:26-58 *)
Definition k_t (t : thread) : list Z := [tx t].
Definition k_tt (t : thread) : list Z := [tx t; ty t].
Definition k_ttt (t : thread) : list Z := [tx t; ty t; tz t].
Definition k_bt (t : thread) : list Z := [bx t; tx t].
Definition k_btt (t : thread) : list Z := [bx t; tx t; ty t].
Definition k_bbt (t : thread) : list Z := [bx t; by_ t; tx t].
Definition k_bbbt (t : thread) : list Z := [bx t; by_ t; bz t; tx t].
(* kernel<<<g,b>>>(r.get_arr(),x.get_arr(),..): an argument (c,i) stands for c*strides[i] of each operand *)
Definition cu_args (k : list (Z * Z)) (v : view) : res (list Z) :=
  mapM (fun p => do s <- zget (vstr v) (snd p); Ok (fst p * s)) k.
Definition cu_launch (g b : Z * Z * Z) (co : thread -> list Z) (k : list (Z * Z)) (r : view) (xs : list view) : res (list (addr * list addr)) :=
  do rs <- cu_args k r; do ss <- mapM (fun x => do s <- cu_args k x; Ok (x, s)) xs;
  Ok (if cu_ok g b then map (fun t => ((vblk r, voff r + dot rs (co t)), map (fun p => (vblk (fst p), voff (fst p) + dot (snd p) (co t))) ss))
                            (cu_threads g b)
      else []).

(* TensorView_assign_cu, cuda/TensorView_assign.cu:65-130; TensorView_add_cu, cuda/TensorView_add.cu:65-130; TensorView_inc_cu (no x),
   cuda/TensorView_inc.cu:65-129: the launches, in order.  CNINE_UNIMPL (four axes or more) prints a message; for no axes nothing is done.
   The remainder is launched with the arrays' first elements. *)
Definition cu_plan (r : view) (xs : list view) : res (list (list (addr * list addr))) :=
  assrt (forallb (fun x => eqlb (vdims r) (vdims x)) xs)
    match vdims r with
    | [n] =>
        do p <- (if 1024 <? n then do l <- cu_launch (n / 1024, 1, 1) (1024, 1, 1) k_bt [(1024, 0); (1, 0)] r xs; Ok [l] else Ok []);
        do q <- (if 0 <? n mod 1024 then do l <- cu_launch (1, 1, 1) (n mod 1024, 1, 1) k_t [(1, 0)] r xs; Ok [l] else Ok []);
        Ok (p ++ q)
    | [a; b] =>
        if a * b <? 128 then do l <- cu_launch (1, 1, 1) (a, b, 1) k_tt [(1, 0); (1, 1)] r xs; Ok [l]
        else if b <=? 1024 then do l <- cu_launch (a, 1, 1) (b, 1, 1) k_bt [(1, 0); (1, 1)] r xs; Ok [l]
        else
          do l <- cu_launch (a, b / 1024, 1) (1024, 1, 1) k_bbt [(1, 0); (1024, 1); (1, 1)] r xs;
          if 0 <? b mod 1024 then do l' <- cu_launch (a, 1, 1) (b mod 1024, 1, 1) k_bt [(1, 0); (1, 1)] r xs; Ok [l; l'] else Ok [l]
    | [a; b; c] =>
        if a * b * c <? 128 then do l <- cu_launch (1, 1, 1) (a, b, c) k_ttt [(1, 0); (1, 1); (1, 2)] r xs; Ok [l]
        else if b * c <? 128 then do l <- cu_launch (a, 1, 1) (b, c, 1) k_btt [(1, 0); (1, 1); (1, 2)] r xs; Ok [l]
        else if c <=? 1024 then do l <- cu_launch (a, b, 1) (c, 1, 1) k_bbt [(1, 0); (1, 1); (1, 2)] r xs; Ok [l]
        else
          do l <- cu_launch (a, b, c / 1024) (1024, 1, 1) k_bbbt [(1, 0); (1, 1); (1024, 2); (1, 2)] r xs;
          if 0 <? c mod 1024 then do l' <- cu_launch (a, b, 1) (c mod 1024, 1, 1) k_bbt [(1, 0); (1, 1); (1, 2)] r xs; Ok [l; l'] else Ok [l]
    | _ => Ok []
    end.
(* execution of launches whose threads run in the given orders.  The statement of a thread is r[..]=x[..] (f_set), r[..]+=x[..] (f_add1) or
   r[..]+=x (no sources) *)
Definition cu_exec {V} (f : V -> list V -> V) (orders : list (list (addr * list addr))) (m : mem V) : res (mem V) :=
  foldM (fun l m => foldM (fun e => rmw f (fst e) (snd e)) l m) orders m.

(* ---- the callers, on device 1 ---- *)
(* TensorView::add(x), x a number -- tensors/TensorView_cumulative_ops.inc:24-38: the launches *)
Definition gpu_inc_plan {V} (eq0 : V -> bool) (r : view) (x : V) : res (list (list (addr * list addr))) :=
  if asize (vdims r) =? 0 then Ok [] else if eq0 x then Ok [] else do r' <- scrunch r; cu_plan r' [].
(* TensorView_add -- tensors/functions/TensorView_add.hpp:33-87, TYPE=int: the launches.  For float and double the contiguous case is a call
   of cublas (not modelled) *)
Definition gpu_add_plan (r x : view) : res (list (list (addr * list addr))) :=
  assrt (eqlb (vdims r) (vdims x))
    (if asize (vdims r) =? 0 then Ok []
     else
       do c <- is_contiguous (vstr r) (vdims r);
       if c && eqlb (vstr r) (vstr x) then cu_plan r [x]
       else do ' (rp, xp) <- co_scrunch r x; cu_plan rp [xp]).
