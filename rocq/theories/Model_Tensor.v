(* Model_Tensor.v -- operations on the memory behind TensorViews.
   tensors/TensorView.hpp, tensors/TensorView_cumulative_ops.inc, tensors/TensorView_scalar_ops.inc,
   tensors/functions/TensorView_add.hpp, tensors/functions/TensorView_assign.hpp.
   Simplifications: CPU only (dev==0); int/size_t arithmetic is unbounded; the element type is an
   abstract commutative ring (float rounding is not modelled); CNINE_CHECK_* macros are compiled out
   by default and absent. *)
From Verif Require Import Base Model_Index Model_View.
Local Open Scope Z_scope.

Definition addr : Type := (Z * Z)%type.
Definition loadA {V} (m : mem V) (p : addr) : res V := load m (fst p) (snd p).
Fixpoint loads {V} (m : mem V) (ps : list addr) : res (list V) :=
  match ps with
  | [] => Ok []
  | p :: ps' => do v <- loadA m p; do vs <- loads m ps'; Ok (v :: vs)
  end.
(* one compound assignment "t op= e(s1,...,sk)": the cell t and the cells ss are read, t is written.
   Used for the bodies v+=x(ix), v+=c*x(ix), v-=x(ix), v+=x(ix)*y(ix), v=x(ix), v+=x, v*=c.
   (For the plain assignment v=x(ix) the model also reads v; this only demands that v is allocated,
   which storing to it demands anyway.) *)
Definition rmw {V} (f : V -> list V -> V) (t : addr) (ss : list addr) (m : mem V) : res (mem V) :=
  do v <- loadA m t; do xs <- loads m ss; store m (fst t) (snd t) (f v xs).

(* std::vector== on Gdims / GstridesB *)
Fixpoint eqlb (a b : list Z) : bool :=
  match a, b with
  | [], [] => true
  | x :: a', y :: b' => (x =? y) && eqlb a' b'
  | _, _ => false
  end.

Fixpoint mapM {A B} (f : A -> res B) (l : list A) : res (list B) :=
  match l with
  | [] => Ok []
  | a :: l' => do b <- f a; do bs <- mapM f l'; Ok (b :: bs)
  end.

(* the while loop of scrunch/co_scrunch: the current group (d,xs,ys) absorbs the next axis in
   stride order when both its strides continue the group *)
Fixpoint co_merge (d xs ys : Z) (ax : list (Z * (Z * Z))) : list (Z * (Z * Z)) :=
  match ax with
  | [] => [(d, (xs, ys))]
  | (d', (xs', ys')) :: ax' =>
      if (xs' =? xs * d) && (ys' =? ys * d) then co_merge (d * d') xs ys ax'
      else (d, (xs, ys)) :: co_merge d' xs' ys' ax'
  end.
Definition co_merge_all (ax : list (Z * (Z * Z))) : list (Z * (Z * Z)) :=
  match ax with [] => [] | (d, (xs, ys)) :: ax' => co_merge d xs ys ax' end.
(* TensorView::co_scrunch -- tensors/TensorView_reshapes.inc:112-139 *)
Definition co_scrunch (r y : view) : res (view * view) :=
  assrt (eqlb (vdims r) (vdims y))
    (do ax <- mapM (fun k => do xs <- vget (vstr r) k; do ys <- vget (vstr y) k;
                             do d <- vget (vdims r) k; Ok (d, (xs, ys)))
                   (ordering (vstr r));
     let ax' := rev (co_merge_all ax) in
     Ok (View (vblk r) (voff r) (map fst ax') (map (fun p => fst (snd p)) ax'),
         View (vblk y) (voff y) (map fst ax') (map (fun p => snd (snd p)) ax'))).
(* TensorView::scrunch -- tensors/TensorView_reshapes.inc:88-109 *)
Fixpoint merge (d s : Z) (ax : list (Z * Z)) : list (Z * Z) :=
  match ax with
  | [] => [(d, s)]
  | (d', s') :: ax' => if s' =? s * d then merge (d * d') s ax' else (d, s) :: merge d' s' ax'
  end.
Definition merge_all (ax : list (Z * Z)) : list (Z * Z) :=
  match ax with [] => [] | (d, s) :: ax' => merge d s ax' end.
Definition scrunch (r : view) : res view :=
  do ax <- mapM (fun k => do s <- vget (vstr r) k; do d <- vget (vdims r) k; Ok (d, s)) (ordering (vstr r));
  let ax' := rev (merge_all ax) in
  Ok (View (vblk r) (voff r) (map fst ax') (map snd ax')).

(* the explicit nested loops of TensorView_add_loops (tensors/functions/TensorView_add.hpp:96-155)
   and TensorView_assign_loops (tensors/functions/TensorView_assign.hpp:110-185), ranks 1..4 *)
Fixpoint loops2 {S} (dims rs xs : list Z) (ro xo : Z) (body : Z -> Z -> S -> res S) (st : S) : res S :=
  match dims, rs, xs with
  | [], _, _ => body ro xo st
  | n :: dims', r0 :: rs', x0 :: xs' =>
      forZ n (fun i => loops2 dims' rs' xs' (ro + i * r0) (xo + i * x0) body) st
  | _, _, _ => UB
  end.
Fixpoint loops1 {S} (dims rs : list Z) (ro : Z) (body : Z -> S -> res S) (st : S) : res S :=
  match dims, rs with
  | [], _ => body ro st
  | n :: dims', r0 :: rs' => forZ n (fun i => loops1 dims' rs' (ro + i * r0) body) st
  | _, _ => UB
  end.

Section Ops.
Context {V : Type}.

(* r.for_each([&](const Gindex& ix, TYPE& v){v op= e(x(ix),y(ix),...);})
   -- tensors/TensorView_lambdas.inc:116-119, over Gdims::for_each_index *)
Definition each (f : V -> list V -> V) (r : view) (xs : list view) (m : mem V) : res (mem V) :=
  foreach_index (vdims r)
    (fun ix m => do t <- vaddr r ix; do ss <- mapM (fun x => vaddr x ix) xs; rmw f t ss m) m.
(* for(i=0; i<n; i++) ptr[i] op= e(xptr[i],yptr[i]) *)
Definition flat_loop (f : V -> list V -> V) (r : view) (xs : list view) (n : Z) (m : mem V) : res (mem V) :=
  forZ n (fun i => rmw f (vblk r, voff r + i) (map (fun x => (vblk x, voff x + i)) xs)) m.
(* TensorView::for_each(lambda(TYPE&)) -- tensors/TensorView_lambdas.inc:18-103 *)
Definition each1 (f : V -> list V -> V) (r : view) (m : mem V) : res (mem V) :=
  match length (vdims r) with
  | O => Ok m
  | 1%nat | 2%nat | 3%nat | 4%nat | 5%nat =>
      loops1 (vdims r) (vstr r) (voff r) (fun a => rmw f (vblk r, a) []) m
  | _ => each f r [] m
  end.

(* TensorView_add_loops / TensorView_assign_loops; in the latter, ranks 2..4 with unit last strides
   and last side > 16 use std::copy for the last axis: modelled as the same ascending loop *)
Definition add_loops (f : V -> list V -> V) (r x : view) (m : mem V) : res (mem V) :=
  match length (vdims r) with
  | O => Ok m
  | 1%nat | 2%nat | 3%nat | 4%nat =>
      loops2 (vdims r) (vstr r) (vstr x) (voff r) (voff x)
        (fun a b => rmw f (vblk r, a) [(vblk x, b)]) m
  | _ => each f r [x] m
  end.

(* the common dispatch of TensorView_add (tensors/functions/TensorView_add.hpp:33-87) and
   TensorView_assign (tensors/functions/TensorView_assign.hpp:37-87) after the assertion on dims *)
Definition dispatch2 (f : V -> list V -> V) (r x : view) (m : mem V) : res (mem V) :=
  if asize (vdims r) =? 0 then Ok m
  else
    do c <- is_contiguous (vstr r) (vdims r);
    if c && eqlb (vstr r) (vstr x)
    then do n <- memsize (vstr x) (vdims x); flat_loop f r [x] n m
    else do ' (rp, xp) <- co_scrunch r x; add_loops f rp xp m.

(* the pattern of add(x,c), subtract, add_prod (tensors/TensorView_cumulative_ops.inc:49-212):
   a flat loop if all operands are row-major with equal strides, for_each otherwise *)
Fixpoint all_regular (r : view) (xs : list view) : res bool :=
  match xs with
  | [] => is_regular (vstr r) (vdims r)
  | x :: xs' => do a <- is_regular (vstr x) (vdims x); do b <- all_regular r xs';
                Ok (a && b && eqlb (vstr r) (vstr x))
  end.
Definition reg_or_each (f : V -> list V -> V) (r : view) (xs : list view) (m : mem V) : res (mem V) :=
  do b <- all_regular r xs;
  if b then flat_loop f r xs (asize (vdims r)) m else each f r xs m.
End Ops.

Section RingOps.
Context {R : cring}.
Notation memR := (mem (car R)).

Definition f_set {V} (v : V) (xs : list V) : V := hd v xs.
Definition f_addc (c : R) (v : R) (xs : list R) : R := match xs with [x] => cadd v (cmul c x) | _ => v end.
Definition f_sub (v : R) (xs : list R) : R := match xs with [x] => csub v x | _ => v end.
Definition f_subc (c : R) (v : R) (xs : list R) : R := match xs with [x] => csub v (cmul c x) | _ => v end.
Definition f_add1 (v : R) (xs : list R) : R := match xs with [x] => cadd v x | _ => v end.
Definition f_prod (v : R) (xs : list R) : R := match xs with [x; y] => cadd v (cmul x y) | _ => v end.

(* add(const TensorView& x) -- TensorView_cumulative_ops.inc:41-45, TensorView_add *)
Definition tv_add (r x : view) (m : memR) : res memR :=
  assrt (eqlb (vdims r) (vdims x)) (dispatch2 f_add1 r x m).
(* add(const TensorView& x, TYPE c) -- TensorView_cumulative_ops.inc:49-96.  assert(asize()==x.asize())
   is a C assert: a failing one aborts (Throw here) *)
Definition tv_addc (r x : view) (c : R) (m : memR) : res memR :=
  assrt (asize (vdims r) =? asize (vdims x)) (reg_or_each (f_addc c) r [x] m).
(* subtract -- :133-153 and :156-180 *)
Definition tv_sub (r x : view) (m : memR) : res memR :=
  assrt (asize (vdims r) =? asize (vdims x)) (reg_or_each f_sub r [x] m).
Definition tv_subc (r x : view) (c : R) (m : memR) : res memR :=
  assrt (asize (vdims r) =? asize (vdims x)) (reg_or_each (f_subc c) r [x] m).
(* add_prod -- :194-212; CNINE_DIMS_SAME (include/Cnine_base.hpp) throws on different shapes when
   range checking is on and is empty otherwise: modelled as absent *)
Definition tv_add_prod (r x y : view) (m : memR) : res memR := reg_or_each f_prod r [x; y] m.
(* add_sum -- :183-187 *)
Definition tv_add_sum (r : view) (d : Z) (x : view) (m : memR) : res memR :=
  assrt (d <? ndims x)
    (do n <- zget (vdims x) d;
     forZ n (fun i m => do s <- slice d i x; tv_add r s m) m).
(* add(const TYPE x) -- :24-38.  eq0 is the test x==0 *)
Definition tv_add_scalar (eq0 : R -> bool) (r : view) (x : R) (m : memR) : res memR :=
  if asize (vdims r) =? 0 then Ok m
  else if eq0 x then Ok m
  else do r' <- scrunch r; each1 (fun v _ => cadd v x) r' m.
End RingOps.

(* operator= -- tensors/TensorView.hpp:213-218 and TensorView_assign.  For rank 0 the element is set
   first, and the code then carries on with the general dispatch. *)
Definition tv_assign {V} (r x : view) (m : mem V) : res (mem V) :=
  assrt (eqlb (vdims r) (vdims x))
    (do m1 <- match vdims r with
              | [] => rmw f_set (vblk r, voff r) [(vblk x, voff x)] m
              | _ => Ok m
              end;
     dispatch2 f_set r x m1).

(* a fresh zero-filled block: TensorView(dims,0,dev), tensors/TensorView.hpp:144-153.
   Allocating block b with n cells; the caller picks a block not in use. *)
Definition alloc {V} (z : V) (b n : Z) (m : mem V) : mem V :=
  fun b' a' => if b' =? b then (if (0 <=? a') && (a' <? n) then Some z else None) else m b' a'.
(* copy() -- tensors/TensorView.hpp:232-236 *)
Definition tv_copy {V} (z : V) (b : Z) (x : view) (m : mem V) : res (view * mem V) :=
  let r := fresh_view b (vdims x) in
  do m' <- tv_assign r x (alloc z b (asize (vdims x)) m); Ok (r, m').

(* ---- in-place and scalar operations ---- *)
Section Whole.
Context {R : cring}.
Notation memR := (mem (car R)).
(* set_zero -- tensors/TensorView.hpp:470-483; CNINE_UNIMPL only prints a message
   (include/Cnine_base.hpp:57) *)
Definition tv_set_zero (r : view) (m : memR) : res memR :=
  do c <- is_contiguous (vstr r) (vdims r);
  if c then flat_loop (fun _ _ => c0) r [] (asize (vdims r)) m else Ok m.
(* inplace_times -- tensors/TensorView.hpp:486-500 *)
Definition tv_times (r : view) (c : R) (m : memR) : res memR :=
  do b <- is_contiguous (vstr r) (vdims r);
  if b then flat_loop (fun v _ => cmul v c) r [] (asize (vdims r)) m
  else each (fun v _ => cmul v c) r [] m.
(* reductions: t starts at t0; contiguous: arr[0..asize-1]; otherwise for_each.
   sum: tensors/TensorView_scalar_ops.inc:139-150, norm2: 95-109, max: 15-26 *)
Definition reduce {A} (g : A -> R -> A) (r : view) (t0 : A) (m : memR) : res A :=
  do b <- is_contiguous (vstr r) (vdims r);
  if b then forZ (asize (vdims r)) (fun i t => do v <- load m (vblk r) (voff r + i); Ok (g t v)) t0
  else foreach_index (vdims r) (fun ix t => do p <- vaddr r ix; do v <- loadA m p; Ok (g t v)) t0.
Definition tv_sum (r : view) (m : memR) : res R :=
  if asize (vdims r) =? 0 then Ok c0 else reduce (fun t v => cadd t v) r c0 m.
Definition tv_norm2 (r : view) (m : memR) : res R := reduce (fun t v => cadd t (cmul v v)) r c0 m.
(* max(): gt a b is the test a>b *)
Definition tv_max (gt : R -> R -> bool) (r : view) (m : memR) : res R :=
  if asize (vdims r) =? 0 then Ok c0
  else do v0 <- load m (vblk r) (voff r); reduce (fun t v => if gt v t then v else t) r v0 m.
(* inp(y) -- tensors/TensorView_scalar_ops.inc:57-73 *)
Definition tv_inp (x y : view) (m : memR) : res R :=
  assrt (eqlb (vdims x) (vdims y))
    (do a <- is_regular (vstr x) (vdims x); do b <- is_regular (vstr y) (vdims y);
     if a && b
     then forZ (asize (vdims x)) (fun i t => do u <- load m (vblk x) (voff x + i);
                                             do v <- load m (vblk y) (voff y + i); Ok (cadd t (cmul u v))) c0
     else foreach_index (vdims x) (fun ix t => do p <- vaddr x ix; do u <- loadA m p;
                                               do q <- vaddr y ix; do v <- loadA m q;
                                               Ok (cadd t (cmul u v))) c0).
End Whole.

(* operator== -- tensors/TensorView.hpp:430-450.  eqv is the element comparison.  The loop returns at
   the first difference; otherwise, also after CNINE_UNIMPL, true. *)
Fixpoint cmp_loop {V} (eqv : V -> V -> bool) (x y : view) (is : list Z) (m : mem V) : res bool :=
  match is with
  | [] => Ok true
  | i :: is' => do u <- load m (vblk x) (voff x + i); do v <- load m (vblk y) (voff y + i);
                if eqv u v then cmp_loop eqv x y is' m else Ok false
  end.
Definition tv_eq {V} (eqv : V -> V -> bool) (x y : view) (m : mem V) : res bool :=
  if negb (eqlb (vdims x) (vdims y)) then Ok false
  else
    do a <- is_regular (vstr x) (vdims x);
    (* && short-circuits *)
    do b <- (if a then is_regular (vstr y) (vdims y) else Ok false);
    if b then cmp_loop eqv x y (zrange (asize (vdims x))) m else Ok true.

(* ---- matrix products ---- *)
Section Mat.
Context {R : cring}.
Notation memR := (mem (car R)).
(* t=0; for(k=0; k<n; k++) t+=a(k)*b(k) *)
Definition dotloop (n : Z) (a b : Z -> res addr) (m : memR) : res R :=
  forZ n (fun k t => do p <- a k; do u <- loadA m p; do q <- b k; do v <- loadA m q;
                     Ok (cadd t (cmul u v))) c0.
(* r.inc(ix,t): arr[strides.offs(ix)]+=t -- tensors/TensorView_access.inc:135 *)
Definition inc_at (r : view) (ix : list Z) (t : R) (m : memR) : res memR :=
  do p <- vaddr r ix; rmw (fun v _ => cadd v t) p [] m.
Definition is_mat (v : view) : bool := (length (vdims v) =? 2)%nat.
Definition is_vec (v : view) : bool := (length (vdims v) =? 1)%nat.
(* add_mprod -- tensors/TensorView.hpp:561-573 with Rtensor2_view::add_matmul_AA
   (tensor_views/Rtensor2_view.hpp:238-254); the CNINE_NDIMS_IS_2 macros are compiled out, but view2()
   asserts ndims()==2 *)
Definition tv_add_mprod (r x y : view) (m : memR) : res memR :=
  match vdims r, vdims x, vdims y with
  | r0 :: r1 :: _, x0 :: x1 :: _, y0 :: y1 :: _ =>
      assrt ((x0 =? r0) && (y1 =? r1) && (x1 =? y0))
        (assrt (is_mat r && is_mat x && is_mat y)
          (forZ r0 (fun a => forZ r1 (fun b m =>
             do t <- dotloop x1 (fun i => vaddr x [a; i]) (fun i => vaddr y [i; b]) m;
             inc_at r [a; b] t m)) m))
  | _, _, _ => UB
  end.
(* add_mprod_AH for a real type -- tensors/TensorView.hpp:576-588, Rtensor2_view::add_matmul_AT
   (tensor_views/Rtensor2_view.hpp:266-297) *)
Definition tv_add_mprod_AT (r x y : view) (m : memR) : res memR :=
  match vdims r, vdims x, vdims y with
  | r0 :: r1 :: _, x0 :: x1 :: _, y0 :: y1 :: _ =>
      assrt ((x0 =? r0) && (y0 =? r1) && (x1 =? y1))
        (assrt (is_mat r && is_mat x && is_mat y)
          (forZ r0 (fun a => forZ r1 (fun b m =>
             do t <- dotloop x1 (fun i => vaddr x [a; i]) (fun i => vaddr y [b; i]) m;
             inc_at r [a; b] t m)) m))
  | _, _, _ => UB
  end.
(* add_mvprod -- tensors/TensorView.hpp:515-535 (element access through strides); other ranks than
   1,2,1 are rejected by the CNINE_NDIMS macros when checking is on: Throw here *)
Definition tv_add_mvprod (r x y : view) (m : memR) : res memR :=
  match vdims r, vdims x, vdims y with
  | [r0], [x0; x1], [y0] =>
      assrt ((x0 =? r0) && (x1 =? y0))
        (forZ r0 (fun i m =>
           do t <- dotloop x1 (fun k => vaddr x [i; k]) (fun k => vaddr y [k]) m;
           inc_at r [i] t m) m)
  | _, _, _ => Throw
  end.
(* add_mvprod_T -- tensors/TensorView.hpp:538-558: k runs to x.dims[1], and the second assertion
   compares y.dims[0] with itself *)
Definition tv_add_mvprod_T (r x y : view) (m : memR) : res memR :=
  match vdims r, vdims x, vdims y with
  | [r0], [x0; x1], [y0] =>
      assrt ((x1 =? r0) && (y0 =? y0))
        (forZ r0 (fun i m =>
           do t <- dotloop x1 (fun k => vaddr x [k; i]) (fun k => vaddr y [k]) m;
           inc_at r [i] t m) m)
  | _, _, _ => Throw
  end.
End Mat.

(* ---- stacking ---- *)
(* stack(d, vector) -- tensors/TensorView_constructors.hpp:254-272: all parts must agree outside d;
   the result is a fresh zero tensor, and each part is added into its window *)
Definition tv_stack {R : cring} (b : Z) (d : Z) (l : list view) (m : mem (car R)) : res (view * mem (car R)) :=
  match l with
  | [] => Throw
  | x0 :: _ =>
      assrt (d <? ndims x0)
        (do rem <- vremove d (vdims x0);
         do t <- foldM (fun x t => do n <- zget (vdims x) d; do r <- vremove d (vdims x);
                                   assrt (eqlb r rem) (Ok (t + n))) l 0;
         do dd <- vset d t (vdims x0);
         let R := fresh_view b dd in
         do ' (_, m') <- foldM (fun x s => let '(t, m) := s in
                           do n <- zget (vdims x) d; do w <- slices d t n R;
                           do m' <- tv_add w x m; Ok (t + n, m')) l (0, alloc c0 b (asize dd) m);
         Ok (R, m'))
  end.
