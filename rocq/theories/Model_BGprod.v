(* Model_BGprod.v -- cell-wise products and quotients of batched and gridded tensors: tensors/BGtensor_products.hpp, the
   traversal of cells and scalars tensors/functions/ForEachCellMultiScalar.hpp, and the views and norms of
   tensors/BGtensor.hpp.  The element type is a commutative ring with an involution cj (sconj: the identity for real
   types) and a division dv.  CPU only.  A call of a lambda is one step: interleavings inside the lambdas of two
   threads are not modelled. *)
From Verif Require Import Base Model_Index Model_View Model_Tensor Model_Threads Model_BG.
Local Open Scope Z_scope.

(* ---- traversals ---- *)
(* the calls of the lambda f that a finished traversal made, in their order, on the memory *)
Definition run_calls {V} (f : list view -> mem V -> res (mem V)) (l : list (Z * list Z * list view)) (m : mem V) : res (mem V) :=
  foldM (fun c m => f (snd c) m) l m.
Definition trace_calls (tr : list event) : list (Z * list Z * list view) :=
  flat_map (fun e => match e with Call b ix vs => [(b, ix, vs)] | Ev _ => [] end) tr.
(* a traversal of the tensors xs that has returned, given their reconciled batch size and grid: out is an outcome it can
   have.  This is for_each_cell_multi (ForEachCellMulti.hpp:26-120) and for_each_cell_multi_scalar
   (ForEachCellMultiScalar.hpp:27-65, :70-132, :137-189), which differs from it in handing over the last tensor(s) as
   references to scalars: for a tensor without cells this is the only element of the view of rank 0 made here.  (The
   reference is local to the thread, the view shared: with several threads and a grid the other views are shared all
   the same, and the calls go wrong, C44.) *)
Definition over_cells {V} (xs : list bg) (dB : res Z) (dg : res (list Z)) (target nt : Z) (f : list view -> mem V -> res (mem V)) (m : mem V) (out : res (mem V)) : Prop :=
  match (do B <- dB; do gd <- dg; Ok (B, gd)) with
  | Ok (B, gd) => exists tr, cell_trace xs B gd target nt tr /\ In (Ev Return) tr /\ out = run_calls f (trace_calls tr) m
  | Throw => out = Throw
  | UB => out = UB
  end.
Definition over_cells2 {V} (x y : bg) (target nt : Z) (f : list view -> mem V -> res (mem V)) (m : mem V) (out : res (mem V)) : Prop :=
  over_cells [x; y] (dominant_batch2 x y) (dominant_gdims2 x y) target nt f m out.
Definition over_cells3 {V} (x y z : bg) (target nt : Z) (f : list view -> mem V -> res (mem V)) (m : mem V) (out : res (mem V)) : Prop :=
  over_cells [x; y; z] (dominant_batch3 x y z) (dominant_gdims3 x y z) target nt f m out.
Definition over_cells4 {V} (x y z w : bg) (target nt : Z) (f : list view -> mem V -> res (mem V)) (m : mem V) (out : res (mem V)) : Prop :=
  over_cells [x; y; z; w] (dominant_batch4 x y z w) (dominant_gdims4 x y z w) target nt f m out.

Section Prod.
Context {R : cring}.
Variable cj : R -> R.            (* sconj, include/Cnine_base_helpers.hpp:31-35 *)
Variable dv : R -> R -> R.       (* operator/ of TYPE *)
Notation memR := (mem (car R)).

(* the scalar a view of rank 0 stands for: c of ForEachCellMultiScalar.hpp:120, z((z.dim(0)>1)*b) of
   ForEachCellMultiScalar.hpp:96 *)
Definition scalar (v : view) (m : memR) : res R := loadA m (vblk v, voff v).
(* add_CX -- tensors/TensorView_cumulative_ops.inc:99-120 *)
Definition f_addCX (c : R) (v : R) (xs : list R) : R := match xs with [x] => cadd v (cmul c (cj x)) | _ => v end.
Definition tv_add_CX (r x : view) (c : R) (m : memR) : res memR :=
  assrt (asize (vdims r) =? asize (vdims x)) (reg_or_each (f_addCX c) r [x] m).
(* add_prod_XC -- TensorView_cumulative_ops.inc:250-268 *)
Definition f_prodXC (v : R) (xs : list R) : R := match xs with [x; y] => cadd v (cmul x (cj y)) | _ => v end.
Definition tv_add_prod_XC (r x y : view) (m : memR) : res memR := reg_or_each f_prodXC r [x; y] m.
(* inp(x,y)=x.inp(y): the conjugate of x's element times y's -- tensors/TensorView_scalar_ops.inc:57-73 and
   tensors/TensorView_scalar_ops.inc:76-92,
   tensors/TensorView_functions.hpp:172-175 *)
Definition tv_cinp (x y : view) (m : memR) : res R :=
  assrt (eqlb (vdims x) (vdims y))
    (do a <- is_regular (vstr x) (vdims x); do b <- is_regular (vstr y) (vdims y);
     if a && b
     then forZ (asize (vdims x)) (fun i t => do u <- load m (vblk x) (voff x + i); do v <- load m (vblk y) (voff y + i); Ok (cadd t (cmul (cj u) v))) c0
     else foreach_index (vdims x) (fun ix t => do p <- vaddr x ix; do u <- loadA m p; do q <- vaddr y ix; do v <- loadA m q; Ok (cadd t (cmul (cj u) v))) c0).

(* ---- the lambdas ---- *)
(* r.add(y,g(c)) with c a scalar: BGtensor_products.hpp:37-39, BGtensor_products.hpp:41-43, BGtensor_products.hpp:66-68,
   BGtensor_products.hpp:93-95, BGtensor_products.hpp:102-104 *)
Definition do_addc (g : R -> R) (vs : list view) (m : memR) : res memR :=
  match vs with [r; y; c] => do v <- scalar c m; tv_addc r y (g v) m | _ => UB end.
(* r.add_CX(y,c): BGtensor_products.hpp:62-64 *)
Definition do_addCX (vs : list view) (m : memR) : res memR :=
  match vs with [r; y; c] => do v <- scalar c m; tv_add_CX r y v m | _ => UB end.
(* r.add_prod(x,y): BGtensor_products.hpp:45-47;  r.add_prod_XC(x,y): BGtensor_products.hpp:74-76 *)
Definition do_prod (vs : list view) (m : memR) : res memR := match vs with [r; x; y] => tv_add_prod r x y m | _ => UB end.
Definition do_prodXC (vs : list view) (m : memR) : res memR := match vs with [r; x; y] => tv_add_prod_XC r x y m | _ => UB end.
(* r+=inp(y,x) with r a scalar: BGtensor_products.hpp:70-72 *)
Definition do_inp (vs : list view) (m : memR) : res memR :=
  match vs with [x; y; r] => do t <- tv_cinp y x m; rmw (fun v _ => cadd v t) (vblk r, voff r) [] m | _ => UB end.
(* yg-=inp(x,rg)/sconj(y*y): BGtensor_products.hpp:112-115 *)
Definition do_div_back1 (vs : list view) (m : memR) : res memR :=
  match vs with
  | [rg; x; yg; y] => do t <- tv_cinp x rg m; do v <- scalar y m; rmw (fun u _ => csub u (dv t (cj (cmul v v)))) (vblk yg, voff yg) [] m
  | _ => UB
  end.
(* r.add_mprod(x,y): BGtensor_products.hpp:134-136;  r.add_mprod_AH(x,y): BGtensor_products.hpp:140-142,
   BGtensor_products.hpp:146-148, BGtensor_products.hpp:152-154, for real types *)
Definition do_mprod (vs : list view) (m : memR) : res memR := match vs with [r; x; y] => tv_add_mprod r x y m | _ => UB end.
Definition do_mprod_AH (vs : list view) (m : memR) : res memR := match vs with [r; x; y] => tv_add_mprod_AT r x y m | _ => UB end.

(* ---- operations ---- *)
Definition few_cells (r x y : bg) : bool := Z.b2z (has_cells x) + Z.b2z (has_cells y) + Z.b2z (has_cells r) <? 2.
(* add_prod, :34-49; CNINE_UNIMPL() only prints *)
Definition bg_add_prod (r x y : bg) (nt : Z) (m : memR) (out : res memR) : Prop :=
  if few_cells r x y then out = Ok m
  else if negb (has_cells x) then over_cells3 r y x 0 nt (do_addc (fun c => c)) m out
  else if negb (has_cells y) then over_cells3 r x y 0 nt (do_addc (fun c => c)) m out
  else over_cells3 r x y 0 nt do_prod m out.
(* add_prod_XC, :59-78; add_prod_back0(rg,y) and add_prod_back1(rg,x) are add_prod_XC(rg,y), add_prod_XC(rg,x), :51-57 *)
Definition bg_add_prod_XC (r x y : bg) (nt : Z) (m : memR) (out : res memR) : Prop :=
  if few_cells r x y then out = Ok m
  else if negb (has_cells x) then over_cells3 r y x 0 nt do_addCX m out
  else if negb (has_cells y) then over_cells3 r x y 0 nt (do_addc cj) m out
  else if negb (has_cells r) then over_cells3 x y r 2 nt do_inp m out
  else over_cells3 r x y 0 nt do_prodXC m out.
Definition bg_add_prod_back0 (r rg y : bg) := bg_add_prod_XC r rg y.
Definition bg_add_prod_back1 (r rg x : bg) := bg_add_prod_XC r rg x.
(* add_div, :90-97; add_div_back0, :99-106 *)
Definition bg_add_div (r x y : bg) (nt : Z) (m : memR) (out : res memR) : Prop :=
  if has_cells y then out = Throw else over_cells3 r x y 0 nt (do_addc (fun c => dv c1 c)) m out.
Definition bg_add_div_back0 (r x y : bg) (nt : Z) (m : memR) (out : res memR) : Prop :=
  if has_cells y then out = Throw else over_cells3 r x y 0 nt (do_addc (fun c => dv c1 (cj c))) m out.
(* rg.add_div_back1_to(yg,x,y), :108-117 *)
Definition bg_add_div_back1_to (rg yg x y : bg) (nt : Z) (m : memR) (out : res memR) : Prop :=
  if has_cells yg then out = Throw else if has_cells y then out = Throw
  else over_cells4 rg x yg y 2 nt do_div_back1 m out.
(* add_mprod, :133-137; add_mprod_back0, :139-143; add_mprod_back1, :145-149; add_mprod_AH, :151-155 *)
Definition bg_add_mprod (r x y : bg) (nt : Z) (m : memR) (out : res memR) : Prop := over_cells3 r x y 0 nt do_mprod m out.
Definition bg_add_mprod_back0 (r x y : bg) (nt : Z) (m : memR) (out : res memR) : Prop := over_cells3 r x y 0 nt do_mprod_AH m out.
Definition bg_add_mprod_back1 (r x y : bg) (nt : Z) (m : memR) (out : res memR) : Prop := over_cells3 r x y 0 nt do_mprod_AH m out.
Definition bg_add_mprod_AH (r x y : bg) (nt : Z) (m : memR) (out : res memR) : Prop := over_cells3 r x y 0 nt do_mprod_AH m out.

(* BGtensor(b,gdims,cdims,0,dev) -- BGtensor.hpp:50-53: a new zero tensor in block k *)
Definition bg_zero (k b : Z) (g c : list Z) (m : memR) : bg * memR :=
  (BG (fresh_view k (b :: g ++ c)) (Z.of_nat (length g)), alloc c0 k (asize (b :: g ++ c)) m).
(* the result of "R(dominant_batch(x,y),dominant_gdims(x,y),cd,0); op(R); return R" *)
Definition with_result (k : Z) (x y : bg) (cd : res (list Z)) (m : memR) (op : bg -> memR -> res memR -> Prop) (out : res (bg * memR)) : Prop :=
  match (do B <- dominant_batch2 x y; do gd <- dominant_gdims2 x y; do c <- cd; Ok (bg_zero k B gd c m)) with
  | Ok (r, m) => exists o, op r m o /\ out = (do m' <- o; Ok (r, m'))
  | Throw => out = Throw
  | UB => out = UB
  end.
(* operator*, :27-31; operator/, :84-88; mprod, :123-131 (cdim(i) is dims(1+ng+i)) *)
Definition bg_times (k : Z) (x y : bg) (nt : Z) (m : memR) (out : res (bg * memR)) : Prop :=
  with_result k x y (dominant_cdims2 x y) m (fun r => bg_add_prod r x y nt) out.
Definition bg_over (k : Z) (x y : bg) (nt : Z) (m : memR) (out : res (bg * memR)) : Prop :=
  with_result k x y (dominant_cdims2 x y) m (fun r => bg_add_div r x y nt) out.
Definition ncdims (x : bg) : Z := ndims (bv x) - ng x - 1.
Definition bg_mprod (k : Z) (x y : bg) (nt : Z) (m : memR) (out : res (bg * memR)) : Prop :=
  match (assrt ((ncdims x =? 2) && (ncdims y =? 2))
    (do a <- zget (vdims (bv x)) (1 + ng x); do n <- zget (vdims (bv x)) (2 + ng x);
     do n' <- zget (vdims (bv y)) (1 + ng y); do b <- zget (vdims (bv y)) (2 + ng y);
     assrt (n =? n') (Ok [a; b]))) with
  | Ok c => with_result k x y (Ok c) m (fun r => bg_add_mprod r x y nt) out
  | Throw => out = Throw
  | UB => out = UB
  end.
End Prod.

(* ---- views, BGtensor.hpp:239-328 ---- *)
(* BGtensor(arr,b,gdims,cdims,bstride,gstrides,cstrides) -- BGtensor.hpp:84-90 *)
Definition bg_parts (k o b : Z) (g c : list Z) (bs : Z) (gs cs : list Z) : res bg :=
  assrt (length g =? length gs)%nat (assrt (length c =? length cs)%nat
    (Ok (BG (View k o (b :: g ++ c) (bs :: gs ++ cs)) (Z.of_nat (length g))))).
(* batch(b), :239-241; cell(ix), :314-316; cell(b,ix), :318-320 *)
Definition bg_batch (x : bg) (b : Z) : res bg :=
  do s <- zget (vstr (bv x)) 0; do g <- gdims x; do c <- cdims x; do gs <- gstrides x; do cs <- cstrides x;
  bg_parts (vblk (bv x)) (voff (bv x) + b * s) 1 g c 0 gs cs.
Definition bg_cell (x : bg) (ix : list Z) : res bg :=
  do gs <- gstrides x; do o <- offs gs ix; do n <- getb x; do c <- cdims x; do s <- zget (vstr (bv x)) 0; do cs <- cstrides x;
  bg_parts (vblk (bv x)) (voff (bv x) + o) n [] c s [] cs.
Definition bg_cell1 (x : bg) (b : Z) (ix : list Z) : res bg :=
  do s <- zget (vstr (bv x)) 0; do gs <- gstrides x; do o <- offs gs ix; do c <- cdims x; do cs <- cstrides x;
  bg_parts (vblk (bv x)) (voff (bv x) + b * s + o) 1 [] c 0 [] cs.
(* transp(), :322-328, with Gdims::transp (include/Gdims.hpp:213-220) and GstridesB::transp (include/GstridesB.hpp:152-159):
   the last two entries change places *)
Definition swap_last {A} (l : list A) : res (list A) :=
  match rev l with a :: b :: t => Ok (rev t ++ [a; b]) | _ => Throw end.
Definition bg_transp (x : bg) : res bg :=
  assrt (ncdims x =? 2) (do d <- swap_last (vdims (bv x)); do s <- swap_last (vstr (bv x));
    Ok (BG (View (vblk (bv x)) (voff (bv x)) d s) (ng x))).
