(* Model_Convolve2D.v -- hpc/Convolve2D.hpp on CPU tensors (dev==0).  Element type: any commutative ring (the code has separate
   types for data and filter; one ring here). *)
From Verif Require Import Base Model_Index Model_View Model_Tensor Model_Einsum Model_Convolve.
Local Open Scope Z_scope.

(* v.slice(0,i).slice(0,j), hpc/Convolve2D.hpp:93, :96, :97, :111, :114, :115 *)
Definition slice2 (i j : Z) (v : view) : res view := do v1 <- slice 0 i v; slice 0 j v1.

Section Conv.
Context {R : cring}.
Notation memR := (mem (car R)).
(* d==2, hpc/Convolve2D.hpp:70-84; pads as [pad0], :73, :74; bounds as [jlo], [jhi], :78, :79 *)
Definition conv2_2 (r x w : view) (m : memR) : res memR :=
  assrt (ndims w =? 2)
    (do r0 <- gdim r 0; do x0 <- gdim x 0; do w0 <- gdim w 0; do r1 <- gdim r 1; do x1 <- gdim x 1; do w1 <- gdim w 1;
     let p0 := pad0 r0 x0 w0 in let p1 := pad0 r1 x1 w1 in
     forZ r0 (fun i0 => forZ r1 (fun i1 m =>
       do t <- forR (jlo p0 i0) (jhi p0 i0 x0 w0) (fun j0 => forR (jlo p1 i1) (jhi p1 i1 x1 w1) (fun j1 t =>
         do a <- vaddr x [i0 + j0 - p0; i1 + j1 - p1]; do u <- loadA m a; do b <- vaddr w [j0; j1]; do v <- loadA m b;
         Ok (cadd t (cmul u v)))) c0;
       set_at r [i0; i1] t m)) m).
(* d==3, hpc/Convolve2D.hpp:86-102 and d==4, :104-120: they differ in the product that is called *)
Definition conv2_34 (prod : view -> view -> view -> memR -> res memR) (r x w : view) (m : memR) : res memR :=
  assrt (ndims w =? 4)
    (do r0 <- gdim r 0; do x0 <- gdim x 0; do w0 <- gdim w 0; do r1 <- gdim r 1; do x1 <- gdim x 1; do w1 <- gdim w 1;
     let p0 := pad0 r0 x0 w0 in let p1 := pad0 r1 x1 w1 in
     forZ r0 (fun i0 => forZ r1 (fun i1 m =>
       do rr <- slice2 i0 i1 r;
       forR (jlo p0 i0) (jhi p0 i0 x0 w0) (fun j0 => forR (jlo p1 i1) (jhi p1 i1 x1 w1) (fun j1 m =>
         do ww <- slice2 j0 j1 w; do xx <- slice2 (i0 + j0 - p0) (i1 + j1 - p1) x; prod rr ww xx m)) m)) m).
(* one level of Convolve2D::operator()(r,x,w), hpc/Convolve2D.hpp:62-129; [rec] is the recursive call of :126 *)
Definition conv2_lvl (rec : view -> view -> view -> memR -> res memR) (r x w : view) (m : memR) : res memR :=
  let d := ndims r in
  assrt (ndims x =? d)
    (do wx <- gdim w 0; do wy <- gdim w 1;
     if d =? 2 then conv2_2 r x w m
     else if d =? 3 then conv2_34 tv_add_mvprod r x w m
     else if d =? 4 then conv2_34 tv_add_mprod r x w m
     else if d =? 5 then
       do r0 <- gdim r 0; do x0 <- gdim x 0;
       assrt (r0 =? x0) (forZ r0 (fun b m => do rr <- slice 0 b r; do xx <- slice 0 b x; rec rr xx w m) m)
     else Ok m).
(* the recursive call gets tensors of four dimensions, so two levels are all there are.  MultiLoop runs its bodies in
   sequence here; with threads they write to different slices of r *)
Definition convolve2 (r x w : view) (m : memR) : res memR := conv2_lvl (conv2_lvl (fun _ _ _ m => Ok m)) r x w m.

(* Convolve2D_back0, hpc/Convolve2D.hpp:135-154: x is the gradient of the input, r that of the result *)
Definition conv2_back0 (r x w : view) (m : memR) : res memR :=
  if ndims w =? 2 then
    do w0 <- gdim w 0; do w1 <- gdim w 1; do s0 <- zget (vstr w) 0; do s1 <- zget (vstr w) 1;
    convolve2 x r (View (vblk w) (voff w + (w0 - 1) * s0 + (w1 - 1) * s1) [w0; w1] [- s0; - s1]) m
  else assrt (ndims w =? 4)
    (do w0 <- gdim w 0; do w1 <- gdim w 1; do w2 <- gdim w 2; do w3 <- gdim w 3;
     do s0 <- zget (vstr w) 0; do s1 <- zget (vstr w) 1; do s2 <- zget (vstr w) 2; do s3 <- zget (vstr w) 3;
     convolve2 x r (View (vblk w) (voff w + (w0 - 1) * s0 + (w1 - 1) * s1) [w0; w1; w3; w2] [- s0; - s1; s3; s2]) m).
(* Convolve2D_back1, hpc/Convolve2D.hpp:157-177: w is the gradient of the filter *)
Definition back1_2lvl (rec : view -> view -> view -> memR -> res memR) (r x w : view) (m : memR) : res memR :=
  let d := ndims r in
  assrt (ndims x =? d)
    (if d =? 2 then convolve2 w x r m
     else assrt (ndims w =? 4)
       (if d =? 3 then do xx <- unsqueeze 2 x; do rr <- unsqueeze 3 r; convolve2 w xx rr m
        else if d =? 4 then do xx <- transp_ab 2 3 x; convolve2 w xx r m
        else if d =? 5 then
          do x0 <- gdim x 0;
          forZ x0 (fun b m => do rr <- slice 0 b r; do xx <- slice 0 b x; rec rr xx w m) m
        else Ok m)).
(* the slices of hpc/Convolve2D.hpp:174 have four dimensions.  The model runs the bodies of MultiLoop in sequence; run in parallel they race on w *)
Definition conv2_back1 (r x w : view) (m : memR) : res memR := back1_2lvl (back1_2lvl (fun _ _ _ m => Ok m)) r x w m.

(* a new tensor of zeros and the convolution into it, hpc/Convolve2D.hpp:36-38, :44-46, :49-51, :54-56; negative size: UB *)
Definition conv2_result (b : Z) (dims : list Z) (x w : view) (m : memR) : res (view * memR) :=
  if forallb (fun d => 0 <=? d) dims then
    let r := fresh_view b dims in do m <- convolve2 r x w (alloc c0 b (asize dims) m); Ok (r, m)
  else UB.
(* Convolve2D::operator()(x,w,pad0,pad1), hpc/Convolve2D.hpp:26-59, and convolve2d, :180-183, which calls it *)
Definition convolve2d (b : Z) (x w : view) (pa pb : Z) (m : memR) : res (view * memR) :=
  do x0 <- gdim x 0; do w0 <- gdim w 0; do x1 <- gdim x 1; do w1 <- gdim w 1;
  let I0 := if pa =? -1 then x0 else x0 + 2 * pa - w0 + 1 in
  let I1 := if pb =? -1 then x1 else x1 + 2 * pb - w1 + 1 in
  let d := ndims x in
  if d =? 2 then conv2_result b [I0; I1] x w m
  else assrt (ndims w =? 4)
    (do aout <- gdim w (-2);
     if d =? 3 then conv2_result b [I0; I1; aout] x w m
     else if d =? 4 then do x3 <- gdim x 3; conv2_result b [I0; I1; aout; x3] x w m
     else if d =? 5 then do x4 <- gdim x 4; conv2_result b [I0; I0; aout; x4] x w m
     else Ok (View b 0 [] [], m)).
End Conv.
