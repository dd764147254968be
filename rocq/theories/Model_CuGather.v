(* Model_CuGather.v -- gathering slices on a device: TensorView_gather_cu, cuda/TensorView_gather.cu.  Launches as in Model_Cuda: a launch is
   the list of its threads' statements, run in any order; a launch outside the device's limits does nothing.  The map arrives as the table
   that array_pool::to_tensor makes (Model_PoolMem).  x and r are on the device. *)
From Verif Require Import Base Model_Index Model_View Model_Tensor Model_Cuda Model_Containers.
Local Open Scope Z_scope.

(* row=ix+ix[i+1]; n=ix[i+2]-ix[i+1]-1; target=row[0]; row[j+1] for j<n -- cuda/TensorView_gather.cu:34-40, the same in every kernel *)
Definition g_row (T : buf) (i : Z) : res (Z * list Z) :=
  do a <- bget T (i + 1); do e <- bget T (i + 2); do t <- bget T a;
  do js <- mapM (fun j => bget T (a + (j + 1))) (zrange (e - a - 1)); Ok (t, js).
(* the kernels, :24-228: thread t handles row bx t of the map; its other coordinates, in the order of the axes *)
Definition g_t (t : thread) : list Z := [bx t; tx t].
Definition g_tt (t : thread) : list Z := [bx t; tx t; ty t].
Definition g_ttt (t : thread) : list Z := [bx t; tx t; ty t; tz t].
Definition g_bt (t : thread) : list Z := [bx t; by_ t; tx t].
Definition g_btt (t : thread) : list Z := [bx t; by_ t; tx t; ty t].
Definition g_bttt (t : thread) : list Z := [bx t; by_ t; tx t; ty t; tz t].
Definition g_bbt (t : thread) : list Z := [bx t; by_ t; bz t; tx t].
Definition g_bbtt (t : thread) : list Z := [bx t; by_ t; bz t; tx t; ty t].
Definition g_bbttt (t : thread) : list Z := [bx t; by_ t; bz t; tx t; ty t; tz t].
(* one thread: a=0; for j<n a+=xarr[row[j+1]*xs0+..]; rarr[target*rs0+..]+=a *)
Definition g_thread (rs xs : list Z) (r x : view) (T : buf) (c : list Z) : res (addr * list addr) :=
  match c with
  | [] => UB
  | i :: c => do ' (t, js) <- g_row T i; Ok ((vblk r, voff r + dot rs (t :: c)), map (fun j => (vblk x, voff x + dot xs (j :: c))) js)
  end.
Definition f_gather {R : cring} (v : R) (us : list R) : R := cadd v (fold_left cadd us c0).
Definition g_launch (g b : Z * Z * Z) (co : thread -> list Z) (rs xs : list Z) (r x : view) (T : buf) : res (list (addr * list addr)) :=
  if cu_ok g b then mapM (fun t => g_thread rs xs r x T (co t)) (cu_threads g b) else Ok [].
(* rarr[target*rs0+b0*rs1+b1*rs2+t0*rs3+t1*xs4..], :202 and :227: the kernels with two block axes and two or three thread axes use x's stride 4 *)
Definition g_mixed (r x : view) : res (list Z) := do s <- zget (vstr x) 4; vset 4 s (vstr r).

(* for(i=0; i<D-1 && i<3; i++) if(x.dim(D-1-i)<1024/total_threads) .. else break -- :252-261, over the sides from the last one on *)
Fixpoint g_tdims (k : nat) (total : Z) (rd : list Z) : list Z :=
  match k, rd with
  | S k', d :: rd' => if d <? 1024 / total then d :: g_tdims k' (total * d) rd' else []
  | _, _ => []
  end.
(* choosing the kernel, :263-337 *)
Definition g_kernel (r x : view) (n : Z) (T : buf) : res (list (addr * list addr)) :=
  let td := g_tdims 3 1 (rev (tl (vdims x))) in
  let rs := vstr r in let xs := vstr x in
  match Z.of_nat (length (vdims x)) - 1 - Z.of_nat (length td), td with
  | 0, [a] => g_launch (n, 1, 1) (a, 1, 1) g_t rs xs r x T
  | 0, [a; b] => g_launch (n, 1, 1) (b, a, 1) g_tt rs xs r x T
  | 0, [a; b; c] => g_launch (n, 1, 1) (c, b, a) g_ttt rs xs r x T
  | 1, [a] => do d1 <- zget (vdims x) 1; g_launch (n, d1, 1) (a, 1, 1) g_bt rs xs r x T
  | 1, [a; b] => do d1 <- zget (vdims x) 1; g_launch (n, d1, 1) (b, a, 1) g_btt rs xs r x T
  | 1, [a; b; c] => do d1 <- zget (vdims x) 1; g_launch (n, d1, 1) (c, b, a) g_bttt rs xs r x T
  | 2, [a] => do d1 <- zget (vdims x) 1; do d2 <- zget (vdims x) 2; g_launch (n, d1, d2) (a, 1, 1) g_bbt rs xs r x T
  | 2, [a; b] => do d1 <- zget (vdims x) 1; do d2 <- zget (vdims x) 2; do rs <- g_mixed r x; g_launch (n, d1, d2) (b, a, 1) g_bbtt rs xs r x T
  | 2, [a; b; c] => do d1 <- zget (vdims x) 1; do d2 <- zget (vdims x) 2; do rs <- g_mixed r x; g_launch (n, d1, d2) (c, b, a) g_bbttt rs xs r x T
  | ng, _ => if 2 <? ng then Throw else Ok []
  end.
(* TensorView_gather_cu, :234-337, for a map with n rows; every side positive (with a side 0 the C++ may divide by zero) *)
Definition gather_plan (r x : view) (n : Z) (T : buf) : res (list (addr * list addr)) :=
  assrt (length (vdims x) =? length (vdims r))%nat
  (assrt (2 <=? length (vdims r))%nat
  (assrt (eqlb (tl (vdims r)) (tl (vdims x)))
    (let D := Z.of_nat (length (vdims r)) in
     do last <- zget (vdims r) (D - 1);
     do ' (r, x) <- (if 1024 <? last then do r <- split (D - 1) 1024 r; do x <- split (D - 1) 1024 x; Ok (r, x) else Ok (r, x));
     g_kernel r x n T))).
