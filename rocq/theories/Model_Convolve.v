(* Model_Convolve.v -- hpc/Convolve1D.hpp on CPU tensors.  Element type: any commutative ring (the code has separate types
   for data and filter; one ring here).  The CUDA branches are absent from the code for these functions. *)
From Verif Require Import Base Model_Index Model_View Model_Tensor Model_Einsum.
Local Open Scope Z_scope.

(* dims(i), include/gvectr.hpp:80-83: a negative i counts from the end *)
Definition gdim (v : view) (i : Z) : res Z := if i <? 0 then zget (vdims v) (ndims v + i) else zget (vdims v) i.
(* int pad0=(r.dim(0)-x.dim(0)+w.dim(0)-1)/2, hpc/Convolve1D.hpp:37, :50, :65: int division truncates *)
Definition pad0 (R X W : Z) : Z := Z.quot (R - X + W - 1) 2.
(* bounds of the loop over j0, hpc/Convolve1D.hpp:40, :53, :68 *)
Definition jlo (p i : Z) : Z := Z.max 0 (p - i).
Definition jhi (p i X W : Z) : Z := Z.min W (X - i + p).

Section Conv.
Context {R : cring}.
Notation memR := (mem (car R)).
(* arr[strides.offs(i0)]=t, tensors/TensorView_access.inc *)
Definition set_at (r : view) (ix : list Z) (t : R) (m : memR) : res memR := do p <- vaddr r ix; rmw (fun _ _ => t) p [] m.
(* d==1, hpc/Convolve1D.hpp:34-45 *)
Definition conv_1 (r x w : view) (m : memR) : res memR :=
  assrt (ndims w =? 1)
    (do r0 <- gdim r 0; do x0 <- gdim x 0; do w0 <- gdim w 0; let p := pad0 r0 x0 w0 in
     forZ r0 (fun i m =>
       do t <- forR (jlo p i) (jhi p i x0 w0) (fun j t =>
         do a <- vaddr x [i + j - p]; do u <- loadA m a; do b <- vaddr w [j]; do v <- loadA m b; Ok (cadd t (cmul u v))) c0;
       set_at r [i] t m) m).
(* d==2, :47-60 and d==3, :62-75: they differ in the product that is called *)
Definition conv_23 (prod : view -> view -> view -> memR -> res memR) (r x w : view) (m : memR) : res memR :=
  assrt (ndims w =? 3)
    (do r0 <- gdim r 0; do x0 <- gdim x 0; do w0 <- gdim w 0; let p := pad0 r0 x0 w0 in
     forZ r0 (fun i m =>
       do rr <- slice 0 i r;
       forR (jlo p i) (jhi p i x0 w0) (fun j m =>
         do ww <- slice 0 j w; do xx <- slice 0 (i + j - p) x; prod rr ww xx m) m) m).
(* one level of Convolve1D::operator(), :27-84; [rec] is the recursive call of :81 *)
Definition conv_lvl (rec : view -> view -> view -> memR -> res memR) (r x w : view) (m : memR) : res memR :=
  let d := ndims r in
  assrt (ndims x =? d)
    (do w0 <- gdim w 0;
     if d =? 1 then conv_1 r x w m
     else if d =? 2 then conv_23 tv_add_mvprod r x w m
     else if d =? 3 then conv_23 tv_add_mprod r x w m
     else if d =? 5 then
       do r0 <- gdim r 0; do x0 <- gdim x 0;
       assrt (r0 =? x0) (forZ r0 (fun b m => do rr <- slice 0 b r; do xx <- slice 0 b x; rec rr xx w m) m)
     else Ok m).
(* the recursive call gets tensors of four dimensions, for which there is no further call.  MultiLoop: the sequential branch
   (the bodies do nothing, see C68_batched_refuted) *)
Definition convolve (r x w : view) (m : memR) : res memR := conv_lvl (conv_lvl (fun _ _ _ m => Ok m)) r x w m.

(* Convolve1D_back0, hpc/Convolve1D.hpp:90-108: x is the gradient of the input, r that of the result *)
Definition conv_back0 (r x w : view) (m : memR) : res memR :=
  if ndims w =? 1 then
    do w0 <- gdim w 0; do s0 <- zget (vstr w) 0;
    convolve x r (View (vblk w) (voff w + (w0 - 1) * s0) [w0] [- s0]) m
  else assrt (ndims w =? 3)
    (do w0 <- gdim w 0; do w1 <- gdim w 1; do w2 <- gdim w 2;
     do s0 <- zget (vstr w) 0; do s1 <- zget (vstr w) 1; do s2 <- zget (vstr w) 2;
     convolve x r (View (vblk w) (voff w + (w0 - 1) * s0) [w0; w2; w1] [- s0; s2; s1]) m).
(* Convolve1D_back1, hpc/Convolve1D.hpp:111-131: w is the gradient of the filter *)
Definition back1_lvl (rec : view -> view -> view -> memR -> res memR) (r x w : view) (m : memR) : res memR :=
  let d := ndims r in
  assrt (ndims x =? d)
    (if d =? 1 then convolve w x r m
     else assrt (ndims w =? 3)
       (if d =? 2 then do xx <- unsqueeze 1 x; do rr <- unsqueeze 2 r; convolve w xx rr m
        else if d =? 3 then do xx <- transp_ab 1 2 x; convolve w xx r m
        else if d =? 4 then
          do x0 <- gdim x 0;
          forZ x0 (fun b m => do rr <- slice 0 b r; do xx <- slice 0 b x; rec rr xx w m) m
        else Ok m)).
(* the slices of hpc/Convolve1D.hpp:128 have three dimensions.  The model runs the bodies of MultiLoop in sequence; run in parallel they race on w *)
Definition conv_back1 (r x w : view) (m : memR) : res memR := back1_lvl (back1_lvl (fun _ _ _ m => Ok m)) r x w m.

(* convolve1d, hpc/Convolve1D.hpp:134-165, default pad=0; a new tensor of negative size: UB *)
Definition conv_result (b : Z) (dims : list Z) (x w : view) (m : memR) : res (view * memR) :=
  if forallb (fun d => 0 <=? d) dims then
    let r := fresh_view b dims in do m <- convolve r x w (alloc c0 b (asize dims) m); Ok (r, m)
  else UB.
Definition convolve1d (b : Z) (x w : view) (pad : Z) (m : memR) : res (view * memR) :=
  do x0 <- gdim x 0; do w0 <- gdim w 0;
  let I0 := if pad =? -1 then x0 else x0 + 2 * pad - w0 + 1 in
  let d := ndims x in
  if d =? 1 then conv_result b [I0] x w m
  else assrt (ndims w =? 3)
    (do aout <- gdim w (-2);
     if d =? 2 then conv_result b [I0; aout] x w m
     else if d =? 3 then do x2 <- gdim x 2; conv_result b [I0; aout; x2] x w m
     else if d =? 4 then do x3 <- gdim x 3; conv_result b [I0; aout; x3] x w m
     else Ok (View b 0 [] [], m)).
End Conv.
