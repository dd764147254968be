(* Model_BG.v -- batched and gridded tensors (tensors/BGtensor.hpp, tensors/BatchedTensor.hpp), the reconciliation of
   batch sizes and grids (tensors/BGtensor_reconcilers.hpp) and the parallel traversal of cells
   (tensors/functions/ForEachCellMulti.hpp).  Element types and devices are left out. *)
From Verif Require Import Base Model_Index Model_View Model_Threads.
Local Open Scope Z_scope.

(* BGtensor: a tensor whose first index is the batch index, followed by ng grid indices, followed by the cell indices;
   tensors/BGtensor.hpp:28-44 *)
Record bg := BG { bv : view; ng : Z }.
(* getb, is_batched, has_grid, gdims, gstrides, has_cells, get_cdims, cstrides; BGtensor.hpp:227-308 *)
Definition getb (x : bg) : res Z := zget (vdims (bv x)) 0.
Definition is_batched (x : bg) : res bool := do b <- getb x; Ok (1 <? b).
Definition has_grid (x : bg) : bool := 0 <? ng x.
Definition gdims (x : bg) : res (list Z) := vchunk 1 (ng x) (vdims (bv x)).
Definition gstrides (x : bg) : res (list Z) := vchunk 1 (ng x) (vstr (bv x)).
Definition has_cells (x : bg) : bool := ng x + 1 <? Z.of_nat (length (vdims (bv x))).
Definition cdims (x : bg) : res (list Z) := if has_cells x then vchunk (1 + ng x) (-1) (vdims (bv x)) else Ok [].
Definition cstrides (x : bg) : res (list Z) := if has_cells x then vchunk (1 + ng x) (-1) (vstr (bv x)) else Ok [].

(* dominant_batch for two, three and four tensors; BGtensor_reconcilers.hpp:26-87 *)
Definition dominant_batch2 (x y : bg) : res Z :=
  do xb <- getb x; do yb <- getb y;
  if xb =? yb then Ok xb else if xb =? 1 then Ok yb else if yb =? 1 then Ok xb else Throw.
Definition dominant_batch3 (x y z : bg) : res Z :=
  do xb <- getb x; do yb <- getb y; do zb <- getb z;
  assrt ((0 <? xb) && (0 <? yb) && (0 <? zb))
  (let nb := Z.b2z (1 <? xb) + Z.b2z (1 <? yb) + Z.b2z (1 <? zb) in
   let all := assrt ((xb =? yb) && (xb =? zb)) (Ok xb) in
   if nb =? 0 then Ok 1
   else if nb =? 1 then Ok (Z.b2z (1 <? xb) * xb + Z.b2z (1 <? yb) * yb + Z.b2z (1 <? zb) * zb)
   else if nb =? 2 then
     (if xb =? 1 then assrt (yb =? zb) (Ok yb)
      else if yb =? 1 then assrt (xb =? zb) (Ok xb)
      else if zb =? 1 then assrt (xb =? yb) (Ok xb) else all)
   else all).
Definition dominant_batch4 (x y z w : bg) : res Z :=
  do xb <- getb x; do yb <- getb y; do zb <- getb z; do wb <- getb w;
  assrt ((0 <? xb) && (0 <? yb) && (0 <? zb) && (0 <? wb))
  (let B := 1 in
   let B := if 1 <? xb then xb else B in
   let B := if 1 <? yb then yb else B in
   let B := if 1 <? zb then zb else B in
   let B := if 1 <? wb then wb else B in
   assrt ((xb =? B) || (xb =? 1)) (assrt ((yb =? B) || (yb =? 1)) (assrt ((zb =? B) || (zb =? 1)) (assrt ((wb =? B) || (wb =? 1)) (Ok B))))).
(* equality and emptiness of shapes: operator== of vectors *)
Fixpoint shape_eqb (a b : list Z) : bool :=
  match a, b with [], [] => true | x :: a, y :: b => (x =? y) && shape_eqb a b | _, _ => false end.
Definition nonempty (a : list Z) : bool := match a with [] => false | _ => true end.
(* dominant_gdims, BGtensor_reconcilers.hpp:93-154; the lines 109 and 141 read zg=y.gdims() *)
Definition dominant_gdims2 (x y : bg) : res (list Z) :=
  do xg <- gdims x; do yg <- gdims y;
  if shape_eqb xg yg then Ok xg else if negb (has_grid x) then Ok yg else if negb (has_grid y) then Ok xg else Throw.
Definition dominant_gdims3 (x y z : bg) : res (list Z) :=
  do xg <- gdims x; do yg <- gdims y; do zg <- gdims y;
  let n := Z.b2z (nonempty xg) + Z.b2z (nonempty yg) + Z.b2z (nonempty zg) in
  let all := assrt (shape_eqb xg yg && shape_eqb xg zg) (Ok xg) in
  if n =? 0 then Ok []
  else if n =? 1 then (if nonempty xg then Ok xg else if nonempty yg then Ok yg else Ok zg)
  else if n =? 2 then
    (if negb (nonempty xg) then assrt (shape_eqb yg zg) (Ok yg)
     else if negb (nonempty yg) then assrt (shape_eqb xg zg) (Ok xg)
     else if negb (nonempty zg) then assrt (shape_eqb xg yg) (Ok xg) else all)
  else all.
Definition dominant_gdims4 (x y z w : bg) : res (list Z) :=
  do xg <- gdims x; do yg <- gdims y; do zg <- gdims y; do wg <- gdims w;
  let r := [] in
  let r := if nonempty xg then xg else r in
  let r := if nonempty yg then yg else r in
  let r := if nonempty zg then zg else r in
  let r := if nonempty wg then wg else r in
  let chk g k := assrt (negb (nonempty g) || shape_eqb g r) k in
  chk xg (chk yg (chk zg (chk wg (Ok r)))).
(* dominant_cdims, BGtensor_reconcilers.hpp:160-169 *)
Definition dominant_cdims2 (x y : bg) : res (list Z) :=
  do xg <- cdims x; do yg <- cdims y;
  if shape_eqb xg yg then Ok xg else if negb (has_cells x) then Ok yg else if negb (has_cells y) then Ok xg else Throw.

(* ---- for_each_cell_multi, tensors/functions/ForEachCellMulti.hpp:26-120, for a list of tensors ---- *)
(* What one body of the parallel loop does, step by step.  The views xcell, ycell, ... are declared outside the loop and
   shared by all the threads: Aim j o sets the data pointer of the j-th one to offset o (:61-62, :113-115), CallShared
   calls the lambda on them (:63, :116), CallOwn (:41, :87) on views made for the occasion. *)
Inductive mop := Aim (j : nat) (o : Z) | CallShared (b : Z) (ix : list Z) | CallOwn (b : Z) (ix : list Z) (vs : list view).
Fixpoint mapM {A B} (f : A -> res B) (l : list A) : res (list B) :=
  match l with [] => Ok [] | a :: l => do b <- f a; do r <- mapM f l; Ok (b :: r) end.
(* x.slice(0,(x.dim(0)>1)*b) *)
Definition batch_slice (b : Z) (x : bg) : res view := do d <- zget (vdims (bv x)) 0; slice 0 (Z.b2z (1 <? d) * b) (bv x).
(* the shared view xcell, :46 *)
Definition cell_view (x : bg) : res view := do d <- cdims x; do s <- cstrides x; Ok (View (vblk (bv x)) (voff (bv x)) d s).
(* x.arr+x_bstride*b+x_gstrides.offs(ix) with x_gstrides and x_bstride of :47-49 *)
Definition cell_pos (ngd : Z) (b : Z) (ix : list Z) (x : bg) : res Z :=
  do gs <- (if has_grid x then gstrides x else Ok (repeat 0 (Z.to_nat ngd)));
  do s0 <- zget (vstr (bv x)) 0; do ba <- is_batched x; do o <- offs gs ix;
  Ok (voff (bv x) + s0 * Z.b2z ba * b + o).
Fixpoint aims (j : nat) (os : list Z) : list mop := match os with [] => [] | o :: os => Aim j o :: aims (S j) os end.
Definition cell_ops (xs : list bg) (gd : list Z) (b i : Z) : res (list mop) :=
  do ix <- unflat i gd; do os <- mapM (cell_pos (Z.of_nat (length gd)) b ix) xs; Ok (aims 0 os ++ [CallShared b ix]).
Definition body (xs : list bg) (gd : list Z) (b : Z) : res (list mop) :=
  match gd with
  | [] => do vs <- mapM (batch_slice b) xs; Ok [CallOwn b [] vs]
  | _ => do l <- mapM (cell_ops xs gd b) (zrange (asize gd)); Ok (concat l)
  end.
(* the parallel loop with these bodies: Model_Threads with a body of several steps.  regs: the offsets of the shared
   views; pc k: the number of steps of its body that worker k has taken. *)
Inductive event := Ev (l : label) | Call (b : Z) (ix : list Z) (vs : list view).
Record cstate := CS { base : tstate; regs : list Z; pc : nat -> nat }.
Definition aimed (cells : list view) (rs : list Z) : list view :=
  map (fun p => View (vblk (fst p)) (snd p) (vdims (fst p)) (vstr (fst p))) (combine cells rs).
Definition do_op (cells : list view) (o : mop) (rs : list Z) : list event * list Z :=
  match o with
  | Aim j p => ([], set_nth j p rs)
  | CallShared b ix => ([Call b ix (aimed cells rs)], rs)
  | CallOwn b ix vs => ([Call b ix vs], rs)
  end.
Definition in_body (k : nat) (s : tstate) : bool :=
  match nth_error (wks s) k with Some u => match wpos u with WBody => true | _ => false end | None => false end.
Definition cstep (cells : list view) (bodies : list (list mop)) (n nt : Z) (w : who) (s : cstate) : option (list event * cstate) :=
  let outer := match tstep n nt w (base s) with None => None | Some (l, t) => Some (map Ev (seen l), CS t (regs s) (pc s)) end in
  match w with
  | Worker k =>
      if in_body k (base s) then
        match nth_error (nth k bodies []) (pc s k) with
        | Some o => let r := do_op cells o (regs s) in
            Some (fst r, CS (base s) (snd r) (fun j => if (j =? k)%nat then S (pc s k) else pc s j))
        | None => outer
        end
      else outer
  | _ => outer
  end.
Fixpoint cexec cells bodies (n nt : Z) (sch : list who) (s : cstate) : option (list event * cstate) :=
  match sch with
  | [] => Some ([], s)
  | w :: sch => match cstep cells bodies n nt w s with
      | None => None
      | Some (e, s) => match cexec cells bodies n nt sch s with None => None | Some (tr, s) => Some (e ++ tr, s) end
      end
  end.
(* the sequential branch of MultiLoop *)
Fixpoint run_ops (cells : list view) (l : list mop) (rs : list Z) : list event * list Z :=
  match l with [] => ([], rs) | o :: l => let r := do_op cells o rs in let q := run_ops cells l (snd r) in (fst r ++ fst q, snd q) end.
Fixpoint run_bodies (cells : list view) (nt b : Z) (bodies : list (list mop)) (rs : list Z) : list event :=
  match bodies with
  | [] => [Ev Return]
  | l :: bodies => let r := run_ops cells l rs in Ev (Begin b nt) :: fst r ++ Ev (Finish b nt) :: run_bodies cells nt (b + 1) bodies (snd r)
  end.
(* sequential=(target==0 && x.getb()==1)||(target==1 && y.getb()==1)||..., :35, :81 *)
Definition is_sequential (xs : list bg) (target : Z) : res bool :=
  if (target <? 0) || (Z.of_nat (length xs) <=? target) then Ok false
  else do x <- zget xs target; do b <- getb x; Ok (b =? 1).
(* the traces that can be observed at some moment of for_each_cell_multi(xs...,lambda,target) in a thread with limit nt,
   once the batch sizes and grids have been reconciled to B and gd *)
Definition cell_setup (xs : list bg) (B : Z) (gd : list Z) (target : Z) : res (list view * list (list mop) * bool) :=
  do s <- is_sequential xs target; do cells <- mapM cell_view xs; do bodies <- mapM (body xs gd) (zrange B); Ok (cells, bodies, s).
Definition cell_trace (xs : list bg) (B : Z) (gd : list Z) (target nt : Z) (tr : list event) : Prop :=
  exists cells bodies sequential, cell_setup xs B gd target = Ok (cells, bodies, sequential) /\
  let r0 := map voff cells in
  if sequential || (nt <=? 1) then exists rest, tr ++ rest = run_bodies cells nt 0 bodies r0
  else exists sch s, cexec cells bodies B nt sch (CS tstart r0 (fun _ => O)) = Some (tr, s).
Definition for_each_cell_multi2 (x y : bg) (target nt : Z) (tr : list event) : Prop :=
  exists B gd, dominant_batch2 x y = Ok B /\ dominant_gdims2 x y = Ok gd /\ cell_trace [x; y] B gd target nt tr.
Definition for_each_cell_multi3 (x y z : bg) (target nt : Z) (tr : list event) : Prop :=
  exists B gd, dominant_batch3 x y z = Ok B /\ dominant_gdims3 x y z = Ok gd /\ cell_trace [x; y; z] B gd target nt tr.

(* ---- BatchedTensor::for_each_batch_multi, tensors/BatchedTensor.hpp:68-87 (two tensors) and :90-98 (three) ----
   the calls of the lambda, as the arguments of each loop in index order; which loop runs in parallel is left out *)
Definition batch_call (b i j : Z) (r x : view) : res (Z * list view) := do v <- slice 0 i r; do u <- slice 0 j x; Ok (b, [v; u]).
Definition for_each_batch_multi2 (r x : view) : res (list (Z * list view)) :=
  do rb <- zget (vdims r) 0; do xb <- zget (vdims x) 0;
  if rb =? 1 then mapM (fun b => batch_call b 0 b r x) (zrange xb)
  else
    do first <- (if xb =? 1 then mapM (fun b => batch_call b b 0 r x) (zrange rb) else Ok []);
    do second <- mapM (fun b => batch_call b b b r x) (zrange rb);
    Ok (first ++ second).
Definition for_each_batch_multi3 (r x y : view) : res (list (Z * list view)) :=
  do rb <- zget (vdims r) 0; do xb <- zget (vdims x) 0; do yb <- zget (vdims y) 0;
  assrt (xb =? rb) (assrt (yb =? rb)
    (mapM (fun b => do v <- slice 0 b r; do u <- slice 0 b x; do t <- slice 0 b y; Ok (b, [v; u; t])) (zrange rb))).
