(* Model_Ops.v -- operations that return a new tensor: arithmetic operators, products, direct sums,
   initialising constructors, zip and map.  Every function takes the (unused) block b in which the
   result is allocated; CPU only, so devices and move_to_device are not modelled. *)
From Verif Require Import Base Model_Index Model_View Model_Tensor.
Local Open Scope Z_scope.

(* TensorView(dims,0,dev) -- tensors/TensorView.hpp:144-155; also zero()
   tensors/TensorView_constructors.hpp:109-111 and zeros_like() :165-167.  Simplified: elements of a general type, zero is z *)
Definition zeros {V} (z : V) (b : Z) (dims : list Z) (m : mem V) : view * mem V :=
  (fresh_view b dims, alloc z b (asize dims) m).

(* set(ix,x): arr[strides.offs(ix)]=x -- tensors/TensorView_access.inc:89-129; the range check is
   compiled out by default *)
Definition put_at {V} (r : view) (ix : list Z) (x : V) (m : mem V) : res (mem V) :=
  do p <- vaddr r ix; store m (fst p) (snd p) x.

(* ---- zip: tensors/TensorView_lambdas.inc:125-222 (two tensors), :226-348 (three) ----
   the lambda receives references: here the addresses of the elements *)
Fixpoint loops3 {S} (dims xs ys zs : list Z) (xo yo zo : Z) (body : Z -> Z -> Z -> S -> res S) (st : S) : res S :=
  match dims, xs, ys, zs with
  | [], _, _, _ => body xo yo zo st
  | n :: dims', x0 :: xs', y0 :: ys', z0 :: zs' =>
      forZ n (fun i => loops3 dims' xs' ys' zs' (xo + i * x0) (yo + i * y0) (zo + i * z0) body) st
  | _, _, _, _ => UB
  end.
(* :125-222 : nothing for rank 0, nested loops for ranks 1..5, for_each_index above *)
Definition zip2 {S} (x y : view) (lambda : addr -> addr -> S -> res S) (st : S) : res S :=
  assrt (eqlb (vdims x) (vdims y))
    match length (vdims x) with
    | O => Ok st
    | 1%nat | 2%nat | 3%nat | 4%nat | 5%nat =>
        loops2 (vdims x) (vstr x) (vstr y) (voff x) (voff y)
          (fun a c => lambda (vblk x, a) (vblk y, c)) st
    | _ => foreach_index (vdims x)
             (fun ix st => do p <- vaddr x ix; do q <- vaddr y ix; lambda p q st) st
    end.
(* :226-348 *)
Definition zip3 {S} (x y z : view) (lambda : addr -> addr -> addr -> S -> res S) (st : S) : res S :=
  assrt (eqlb (vdims x) (vdims y)) (assrt (eqlb (vdims x) (vdims z))
    match length (vdims x) with
    | O => Ok st
    | 1%nat | 2%nat | 3%nat | 4%nat | 5%nat =>
        loops3 (vdims x) (vstr x) (vstr y) (vstr z) (voff x) (voff y) (voff z)
          (fun a c d => lambda (vblk x, a) (vblk y, c) (vblk z, d)) st
    | _ => foreach_index (vdims x)
             (fun ix st => do p <- vaddr x ix; do q <- vaddr y ix; do t <- vaddr z ix; lambda p q t st) st
    end).
(* for_each(lambda(TYPE&)) :18-103 *)
Definition visit {S} (x : view) (lambda : addr -> S -> res S) (st : S) : res S :=
  match length (vdims x) with
  | O => Ok st
  | 1%nat | 2%nat | 3%nat | 4%nat | 5%nat =>
      loops1 (vdims x) (vstr x) (voff x) (fun a => lambda (vblk x, a)) st
  | _ => foreach_index (vdims x) (fun ix st => do p <- vaddr x ix; lambda p st) st
  end.
(* map(lambda(ix,element)) :351-357.  The result may have another element type: it lives in a second
   memory m' *)
Definition tv_map {V W} (z : W) (b : Z) (f : list Z -> V -> W) (x : view) (m : mem V) (m' : mem W) : res (view * mem W) :=
  let (r, m1) := zeros z b (vdims x) m' in
  do m2 <- foreach_index (vdims x)
             (fun ix m1 => do p <- vaddr x ix; do v <- loadA m p; do q <- vaddr r ix;
                           store m1 (fst q) (snd q) (f ix v)) m1;
  Ok (r, m2).

Section Ring.
Context {R : cring}.
Notation memR := (mem (car R)).

(* ---- tensors/TensorView_functions.hpp ---- *)
(* c+x and x+c -- tensors/TensorView_functions.hpp:28-40; eq0 is the test ==0 of add(const TYPE) *)
Definition op_add_scalar (eq0 : R -> bool) (b : Z) (x : view) (c : R) (m : memR) : res (view * memR) :=
  do ' (r, m1) <- tv_copy c0 b x m; do m2 <- tv_add_scalar eq0 r c m1; Ok (r, m2).
(* x+y :42-47 *)
Definition op_add (b : Z) (x y : view) (m : memR) : res (view * memR) :=
  do ' (r, m1) <- tv_copy c0 b x m; do m2 <- tv_add r y m1; Ok (r, m2).
(* -x :53-58 *)
Definition op_neg (b : Z) (x : view) (m : memR) : res (view * memR) :=
  let (r, m1) := zeros c0 b (vdims x) m in
  do m2 <- tv_addc r x (copp c1) m1; Ok (r, m2).
(* c-x :60-66 *)
Definition op_scalar_sub (eq0 : R -> bool) (b : Z) (c : R) (x : view) (m : memR) : res (view * memR) :=
  let (r, m1) := zeros c0 b (vdims x) m in
  do m2 <- tv_addc r x (copp c1) m1; do m3 <- tv_add_scalar eq0 r c m2; Ok (r, m3).
(* x-c :68-73 *)
Definition op_sub_scalar (eq0 : R -> bool) (b : Z) (x : view) (c : R) (m : memR) : res (view * memR) :=
  do ' (r, m1) <- tv_copy c0 b x m; do m2 <- tv_add_scalar eq0 r (copp c) m1; Ok (r, m2).
(* x-y :75-80 *)
Definition op_sub (b : Z) (x y : view) (m : memR) : res (view * memR) :=
  do ' (r, m1) <- tv_copy c0 b x m; do m2 <- tv_sub r y m1; Ok (r, m2).
(* x*c and c*x -- tensors/TensorView_functions.hpp:86-98, times(c) and operator*(c) of tensors/TensorView_gen_ops.inc:32-40 *)
Definition op_times (b : Z) (x : view) (c : R) (m : memR) : res (view * memR) :=
  let (r, m1) := zeros c0 b (vdims x) m in
  do m2 <- tv_addc r x c m1; Ok (r, m2).

(* Gdims::Mprod -- include/Gdims.hpp:249-254: x without its last side followed by y without its
   first.  R has x.size()+y.size()-2 entries: with an empty operand a negative size (bad_alloc) or,
   for the loops, size()-1 of size_t.  Simplified: an empty operand gives UB *)
Definition dims_mprod (dx dy : list Z) : res (list Z) :=
  match dx, dy with
  | _ :: _, _ :: dy' => Ok (removelast dx ++ dy')
  | _, _ => UB
  end.
(* x*y -- tensors/TensorView_functions.hpp:104-109, mprod(x,y) :111-116 *)
Definition op_mprod (b : Z) (x y : view) (m : memR) : res (view * memR) :=
  do d <- dims_mprod (vdims x) (vdims y);
  let (r, m1) := zeros c0 b d m in
  if 0 <? asize d then do m2 <- tv_add_mprod r x y m1; Ok (r, m2) else Ok (r, m1).

(* odot -- tensors/TensorView_gen_ops.inc:19-24 *)
Definition op_odot (b : Z) (x y : view) (m : memR) : res (view * memR) :=
  let (r, m1) := zeros c0 b (vdims x) m in
  do m2 <- zip3 x y r (fun p q t m => do u <- loadA m p; do v <- loadA m q;
                                      store m (fst t) (snd t) (cmul u v)) m1;
  Ok (r, m2).
(* sum(d) -- tensors/TensorView_gen_ops.inc:26-30 *)
Definition op_sum (b : Z) (d : Z) (x : view) (m : memR) : res (view * memR) :=
  do dd <- vremove d (vdims x);
  let (r, m1) := zeros c0 b dd m in
  do m2 <- tv_add_sum r d x m1; Ok (r, m2).

(* block(i0,m0) -- tensors/TensorView_subtensors.inc:69-72 *)
Definition block1 (i0 m0 : Z) (v : view) : res view :=
  assrt (ndims v =? 1) (block_at [m0] [i0] v).
(* x(ix): element read *)
Definition get_at (x : view) (ix : list Z) (m : memR) : res R := do p <- vaddr x ix; loadA m p.
(* add_tprod -- tensors/TensorView.hpp:594-630; other ranks than 1,2,3 only print a message
   (CNINE_UNIMPL, include/Cnine_base.hpp:57) *)
Definition tv_add_tprod (r x y : view) (m : memR) : res memR :=
  assrt (ndims x =? ndims y)
    match vdims x, vdims y with
    | [x0], [y0] =>
        do r0 <- vget (vdims r) 0;
        assrt (r0 =? x0 * y0)
          (forZ x0 (fun i m => do w <- block1 (i * y0) y0 r; do c <- get_at x [i] m; tv_addc w y c m) m)
    | [x0; x1], [y0; y1] =>
        do r0 <- vget (vdims r) 0; assrt (r0 =? x0 * y0) (
        do r1 <- vget (vdims r) 1; assrt (r1 =? x1 * y1) (
        forZ x0 (fun i => forZ x1 (fun j m =>
          do w <- block_at [y0; y1] [i * y0; j * y1] r; do c <- get_at x [i; j] m; tv_addc w y c m)) m))
    | [x0; x1; x2], [y0; y1; y2] =>
        do r0 <- vget (vdims r) 0; assrt (r0 =? x0 * y0) (
        do r1 <- vget (vdims r) 1; assrt (r1 =? x1 * y1) (
        do r2 <- vget (vdims r) 2; assrt (r2 =? x2 * y2) (
        forZ x0 (fun i => forZ x1 (fun j => forZ x2 (fun k m =>
          do w <- block_at [y0; y1; y2] [i * y0; j * y1; k * y2] r;
          do c <- get_at x [i; j; k] m; tv_addc w y c m))) m)))
    | _, _ => Ok m
    end.
(* tprod(Gdims,Gdims) -- include/Gdims.hpp:509-515 *)
Fixpoint zipmul (x y : list Z) : list Z :=
  match x, y with a :: x', c :: y' => a * c :: zipmul x' y' | _, _ => [] end.
Definition dims_tprod (dx dy : list Z) : res (list Z) :=
  assrt (length dx =? length dy)%nat (Ok (zipmul dx dy)).
(* kron -- tensors/TensorView_functions.hpp:131-136 *)
Definition op_kron (b : Z) (x y : view) (m : memR) : res (view * memR) :=
  do d <- dims_tprod (vdims x) (vdims y);
  let (r, m1) := zeros c0 b d m in
  do m2 <- tv_add_tprod r x y m1; Ok (r, m2).
(* oplus :139-146.  Gindex(x.get_dims()) is Gindex(const vector<int>&), include/Gindex.hpp:42-44,
   which drops negative entries *)
Definition op_oplus (b : Z) (x y : view) (m : memR) : res (view * memR) :=
  assrt (ndims x =? ndims y)
    (do d <- gvec_add (vdims x) (vdims y);
     let (r, m1) := zeros c0 b d m in
     do w1 <- block_dims (vdims x) r;
     do m2 <- tv_assign w1 x m1;
     do w2 <- block_at (vdims y) (filter (fun p => 0 <=? p) (vdims x)) r;
     do m3 <- tv_assign w2 y m2;
     Ok (r, m3)).

(* ---- initialising constructors: tensors/TensorView_constructors.hpp ---- *)
(* ones(): TensorView(dims,2,dev), tensors/TensorView.hpp:168-171; sequential(): :173-176.
   The block is uninitialised before the loop: modelled as zero-filled *)
Definition mk_ones (b : Z) (dims : list Z) (m : memR) : res (view * memR) :=
  let (r, m1) := zeros c0 b dims m in
  do m2 <- forZ (asize dims) (fun i m => store m b i c1) m1; Ok (r, m2).
Definition mk_sequential (of_int : Z -> R) (b : Z) (dims : list Z) (m : memR) : res (view * memR) :=
  let (r, m1) := zeros c0 b dims m in
  do m2 <- forZ (asize dims) (fun i m => store m b i (of_int i)) m1; Ok (r, m2).
(* fill_constant :63-69 *)
Definition mk_constant (v : R) (b : Z) (dims : list Z) (m : memR) : res (view * memR) :=
  let (r, m1) := zeros c0 b dims m in
  do m2 <- forZ (asize dims) (fun i m => store m b i v) m1; Ok (r, m2).
(* fill_identity :72-80, identity(dims) :133-135, identity(n) :129-131 and Identity(n)
   (tensors/TensorView_functions.hpp:272-275) *)
Definition mk_identity (b : Z) (dims : list Z) (m : memR) : res (view * memR) :=
  let (r, m1) := zeros c0 b dims m in
  match dims with
  | [n; n1] => assrt (n =? n1) (do m2 <- forZ n (fun i m => put_at r [i; i] c1 m) m1; Ok (r, m2))
  | _ => Throw
  end.
(* unit(n,i) :137-142, UnitVec(n,i) (tensors/TensorView_functions.hpp:277-282) *)
Definition mk_unit (b n i : Z) (m : memR) : res (view * memR) :=
  let (r, m1) := zeros c0 b [n] m in
  do m2 <- put_at r [i] c1 m1; Ok (r, m2).
(* vec(list) :181-192 and init(list) :220-229 *)
Definition mk_vec (b : Z) (l : list R) (m : memR) : res (view * memR) :=
  let n0 := Z.of_nat (length l) in
  assrt (0 <? n0)
    (let (r, m1) := zeros c0 b [n0] m in
     do ' (_, m2) <- foldM (fun p s => let '(i, m) := s in do m' <- put_at r [i] p m; Ok (i + 1, m')) l (0, m1);
     Ok (r, m2)).
(* the constructor from a list of lists :195-209 and init(list of lists) :232-246 *)
Definition mk_mat (b : Z) (l : list (list R)) (m : memR) : res (view * memR) :=
  match l with
  | [] => Throw
  | l0 :: _ =>
      let n0 := Z.of_nat (length l) in
      let n1 := Z.of_nat (length l0) in
      let (r, m1) := zeros c0 b [n0; n1] m in
      do ' (_, m2) <- foldM (fun p s => let '(i, m) := s in
            do ' (_, m') <- foldM (fun q s => let '(j, m) := s in
                                   do m' <- put_at r [i; j] q m; Ok (j + 1, m')) p (0, m);
            Ok (i + 1, m')) l (0, m1);
      Ok (r, m2)
  end.
(* init(v) :212-217 : rank 0; set(v) is tensors/TensorView_access.inc:95-99 *)
Definition mk_scalar (b : Z) (v : R) (m : memR) : res (view * memR) :=
  let (r, m1) := zeros c0 b [] m in
  do m2 <- store m1 (vblk r) (voff r) v; Ok (r, m2).

(* ---- scalar functions ---- *)
(* the member min() -- tensors/TensorView_scalar_ops.inc:28-39; lt a b is a<b *)
Definition tv_min (lt : R -> R -> bool) (r : view) (m : memR) : res R :=
  if asize (vdims r) =? 0 then Ok c0
  else do v0 <- load m (vblk r) (voff r); reduce (fun t v => if lt v t then v else t) r v0 m.
(* the free function min(x) -- tensors/TensorView_functions.hpp:162-165: it calls x.max() *)
Definition fn_min (gt : R -> R -> bool) (x : view) (m : memR) : res R := tv_max gt x m.
(* max_abs() -- tensors/TensorView_scalar_ops.inc:41-53, real types: starts from arr[0] itself *)
Definition tv_max_abs (gt : R -> R -> bool) (abs : R -> R) (r : view) (m : memR) : res R :=
  if asize (vdims r) =? 0 then Ok c0
  else do v0 <- load m (vblk r) (voff r); reduce (fun t v => if gt (abs v) t then abs v else t) r v0 m.
(* diff2(x) -- tensors/TensorView_scalar_ops.inc:156-179, real types: only the sizes are compared *)
Definition tv_diff2 (r x : view) (m : memR) : res R :=
  assrt (asize (vdims x) =? asize (vdims r))
    (do a <- is_regular (vstr r) (vdims r);
     do c <- (if a then is_regular (vstr x) (vdims x) else Ok false);
     if c then forZ (asize (vdims r)) (fun i t => do u <- load m (vblk x) (voff x + i);
                                                  do v <- load m (vblk r) (voff r + i);
                                                  Ok (cadd t (cmul (csub u v) (csub u v)))) c0
     else foreach_index (vdims r) (fun ix t => do p <- vaddr x ix; do u <- loadA m p;
                                               do q <- vaddr r ix; do v <- loadA m q;
                                               Ok (cadd t (cmul (csub u v) (csub u v)))) c0).
End Ring.
