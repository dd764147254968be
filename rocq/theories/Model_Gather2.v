(* Model_Gather2.v -- hpc/GatherSlices.hpp and hpc/WeightedGatherMapB.hpp, CPU branches. *)
From Verif Require Import Base Map Model_Index Model_View Model_Tensor Model_Containers Model_Gather.
Local Open Scope Z_scope.

(* TensorView::co_scrunch_except -- tensors/TensorView_reshapes.inc:142-190.  Its loop over the remaining
   axes is the one of co_scrunch (:112-139, same text), applied to the views without the special axes. *)
Definition co_scrunch_except (r y : view) (rd yd : Z) : res (view * view) :=
  let yd := if yd =? -1 then rd else yd in
  let n := ndims r - 1 in
  assrt (ndims y - 1 =? n) (assrt (rd <? n) (assrt (yd <? n)
    (do rdims <- vremove rd (vdims r); do ydims <- vremove yd (vdims y);
     do rs <- vremove rd (vstr r); do ys <- vremove yd (vstr y);
     do ' (r', y') <- co_scrunch (View (vblk r) (voff r) rdims rs) (View (vblk y) (voff y) ydims ys);
     do d <- zget (vdims r) rd; do s <- zget (vstr r) rd; do e <- zget (vdims y) yd; do t <- zget (vstr y) yd;
     Ok (View (vblk r) (voff r) (d :: vdims r') (s :: vstr r'), View (vblk y) (voff y) (e :: vdims y') (t :: vstr y'))))).
(* the reordering at the start of naive, GatherSlices.hpp:174-206: axis d first, the others after it in order *)
Definition front (d : Z) (v : view) : res view :=
  do n <- zget (vdims v) d; do s <- zget (vstr v) d; do dd <- vremove d (vdims v); do ss <- vremove d (vstr v);
  Ok (View (vblk v) (voff v) (n :: dd) (s :: ss)).

Section Slices.
Context {R : cring}.
Notation memR := (mem (car R)).
(* for all i1,i2,...: R(i,i1,i2,...)+=X(j,i1,i2,...) with the axes dims, rs, xs behind the first *)
Definition slice_add (r x : view) (dims rs xs : list Z) (rs0 xs0 i j : Z) : memR -> res memR :=
  loops2 dims rs xs (voff r + i * rs0) (voff x + j * xs0) (fun a b => rmw f_add1 (vblk r, a) [(vblk x, b)]).
(* operator()(R,X,gmap,in_dim,out_dim), GatherSlices.hpp:62-170 *)
Definition gather_slices (_r _x : view) (g : gmap) (in_dim out_dim : Z) (m : memR) : res memR :=
  let out_dim := if out_dim =? -1 then in_dim else out_dim in
  do ' (r, x) <- co_scrunch_except _r _x out_dim in_dim;
  do d0 <- zget (vdims r) 0; do e0 <- zget (vdims x) 0;
  assrt (d0 =? gout g) (assrt (e0 =? gin g)
    match vdims x, vstr r, vstr x with
    | [_; d1], [rs0; rs1], [xs0; xs1] =>
        if (rs1 =? 1) && (xs1 =? 1) then gm_for_each (garr g) (fun i j => slice_add r x [d1] [rs1] [xs1] rs0 xs0 i j) m
        else gm_for_each (garr g) (fun i j => forZ d1 (fun s => rmw f_add1 (vblk r, voff r + j * rs0 + s * rs1) [(vblk x, voff x + i * xs0 + j * rs1)])) m
    | [_; d1; d2], [rs0; rs1; rs2], [xs0; xs1; xs2] =>
        if (rs2 =? 1) && (xs2 =? 1) then gm_for_each (garr g) (fun i j => slice_add r x [d1; d2] [rs1; rs2] [xs1; xs2] rs0 xs0 i j) m
        else gm_for_each (garr g) (fun i j => slice_add r x [d1; d2] [rs1; rs2] [xs1; xs2] rs0 xs0 j i) m
    | [_; d1; d2; _], [rs0; rs1; rs2; rs3], [xs0; xs1; xs2; xs3] => (* int d3=X.dims[2], GatherSlices.hpp:138 *)
        if (rs3 =? 1) && (xs3 =? 1) then gm_for_each (garr g) (fun i j => slice_add r x [d1; d2; d2] [rs1; rs2; rs3] [xs1; xs2; xs3] rs0 xs0 i j) m
        else gm_for_each (garr g) (fun i j => slice_add r x [d1; d2; d2] [rs1; rs2; rs3] [xs1; xs2; xs3] rs0 xs0 j i) m
    | _, _, _ => Ok m (* CNINE_UNIMPL() prints a message and goes on, :157 *)
    end).
(* naive(R,X,gmap,in_dim,out_dim), GatherSlices.hpp:172-234 *)
Definition gather_slices_naive (_r _x : view) (g : gmap) (in_dim out_dim : Z) (m : memR) : res memR :=
  let out_dim := if out_dim =? -1 then in_dim else out_dim in
  assrt (ndims _x =? ndims _r) (assrt (ndims _r <? 5)
    (do x <- front in_dim _x; do r <- front out_dim _r;
     match vdims x, vstr r, vstr x with
     | _ :: dims, rs0 :: rs, xs0 :: xs => gm_for_each (garr g) (fun i j => slice_add r x dims rs xs rs0 xs0 i j) m
     | _, _, _ => UB
     end)).
End Slices.

(* ---- WeightedGatherMapB.  A row holds source and weight alternately, the weight as the bit pattern of the
   float; a weight is therefore an integer here, with fl its value and fi its conversion to int. *)
(* WeightedGatherMapB(sources,targets,weights), hpc/WeightedGatherMapB.hpp:67-93, with push_back(i,s,w), :227-230 *)
Definition wg_of_vectors (ho : zmap Z -> zmap Z) (sources targets weights : list Z) : res apool :=
  assrt (length sources =? length targets)%nat
    (let ps := combine (combine sources weights) targets in
     let sizes := ho (count_targets (combine sources targets)) in
     let heads := map fst sizes in
     let mapping := combine heads (zrange (Z.of_nat (length sizes))) in
     do p <- hl_make true heads (map snd sizes);
     foldM (fun q p => do p <- hl_push_at (get0 (snd q) mapping) (fst (fst q)) p; hl_push_at (get0 (snd q) mapping) (snd (fst q)) p) ps p).
(* size_of, :192-194; src, :213-215; weight, :217-219 *)
Definition wg_size_of (p : apool) (i : Z) : res Z := do n <- hl_size_of p i; cdiv n 2.
Definition wg_src (p : apool) (i j : Z) : res Z := hl_get p i (2 * j).
Definition wg_weight (p : apool) (i j : Z) : res Z := hl_get p i (2 * j + 1).
(* set, :208-211: the weight is passed to a parameter of type int, which converts its value *)
Definition wg_set (fi : Z -> Z) (i j x w : Z) (p : apool) : res apool :=
  do p <- hl_set i (2 * j) x p; hl_set i (2 * j + 1) (fi w) p.
(* for_each, :237-245 *)
Definition wg_for_each {S} (p : apool) (f : Z -> Z -> Z -> S -> res S) (st : S) : res S :=
  forZ (ap_size p) (fun i st =>
    do M <- wg_size_of p i; do t <- hl_head p i;
    forZ M (fun j st => do s <- wg_src p i j; do w <- wg_weight p i j; f t s w st) st) st.
(* make_inv, :261-277; the column factors of the new map are 1 *)
Definition wg_make_inv (g : gmap) : res gmap :=
  do inv_map <- wg_for_each (garr g) (fun i j w m => Ok (mol_push j w (mol_push j i m))) [];
  do p <- ap_reserve (ap_size (garr g) + mol_tsize inv_map) ap_new;
  do p <- push_rows (by_key inv_map) p;
  Ok (GMap p (gin g) (gout g) 1 1 1 1 [] false).
(* sort, :280-303 *)
Definition wg_copy_row (fi : Z -> Z) (p : apool) (K q : Z) (r : apool) : res apool :=
  do r <- hl_push_raw (2 * K) r;
  let i := ap_size r - 1 in
  do t <- hl_head p q; do r <- hl_set_head i t r;
  forZ K (fun a r => do s <- wg_src p q a; do w <- wg_weight p q a; wg_set fi i a s w r) r.
Definition wg_sort (fi : Z -> Z) (g : gmap) : res gmap :=
  if gsorted g then Ok g else
  let p := garr g in
  do l <- forZ (ap_size p) (fun i m => do s <- wg_size_of p i; Ok (mol_push (- s) i m)) [];
  do r <- ap_reserve (atail p) ap_new;
  do r <- foldM (fun e r => foldM (wg_copy_row fi p (- fst e)) (snd e) r) (by_key l) r;
  Ok (gm_sorted_with g r true).
Section Weighted.
Context {R : cring} (fl : Z -> R).
Notation memR := (mem (car R)).
Definition f_addw (w : R) (u : R) (vs : list R) : R := match vs with [v] => cadd u (cmul w v) | _ => u end.
(* targt.add(x.slice0(s),w): Rtensor1_view::add(x,c), tensor_views/Rtensor1_view.hpp:195-205; targt.n0=x.n1 *)
Definition row_addw (r x : mview) (i j : Z) (w : R) (m : memR) : res memR :=
  forZ (n1 x) (fun k => rmw (f_addw w) (mcell r i k) [mcell x j k]) m.
(* weighted(), GatherRows.hpp:128-151 *)
Definition gather_weighted (_r _x : view) (g : gmap) (m : memR) : res memR :=
  do r <- view2 _r; do x <- view2 _x; do r <- split_cols (goc g) 1 r; do x <- split_cols (gic g) 1 x;
  forZ (ap_size (garr g)) (fun i m =>
    do t <- hl_head (garr g) i; do M <- wg_size_of (garr g) i;
    forZ M (fun j m => do s <- wg_src (garr g) i j; do w <- wg_weight (garr g) i j; row_addw r x t s (fl w) m) m) m.
(* operator()(r,x,g), GatherRows.hpp:40-81, when g is a WeightedGatherMapB: weighted() and then, without a
   return, the loop for unweighted maps, which uses the accessors of GatherMapB (they are not virtual).
   Weighted maps have no fixed-width parts of the base class. *)
Definition gather_rows_w (_r _x : view) (g : gmap) (m : memR) : res memR :=
  do r <- view2 _r; do a <- crem (n1 r) (goc g); assrt (a =? 0)
    (do x <- view2 _x; do b <- crem (n1 x) (gic g); assrt (b =? 0)
      (do m <- gather_weighted _r _x g m;
       if ap_size (garr g) =? 0 then Ok m else
       do r <- split_cols (goc g) (gocn g) r; do x <- split_cols (gic g) (gicn g) x;
       assrt (n1 r =? n1 x) (gather_loop r x (garr g) m))).
End Weighted.
