(* Model_Gather.v -- gather maps and the operations that apply them: hpc/GatherMapB.hpp,
   hpc/FixedkGatherMap.hpp, hpc/GatherMapPack.hpp, hpc/WeightedGatherMapB.hpp, hpc/GatherRows.hpp,
   hpc/TensorProgram.hpp.  CPU branches only (dev==0); logging and timers are left out. *)
From Verif Require Import Base Map Model_Index Model_View Model_Tensor Model_Containers.
Local Open Scope Z_scope.

(* iteration order of std::map: by increasing key *)
Fixpoint kinsert {V} (p : Z * V) (l : list (Z * V)) : list (Z * V) :=
  match l with [] => [p] | q :: l' => if fst p <=? fst q then p :: l else q :: kinsert p l' end.
Definition by_key {V} (l : list (Z * V)) : list (Z * V) := fold_right kinsert [] l.

(* ---- more of containers/hlists.hpp: push_back(len), :186-188; set_head, :112-115; set, :129-133 *)
Definition hl_push_raw (len : Z) (p : apool) : res apool := ap_push_raw (len + 1) p.
Definition hl_set_head (i v : Z) (p : apool) : res apool :=
  assrt (i <? ap_size p)
    (do a <- it_get (adir p) i 0; do b <- bput (amem p) a v; Ok (APool b (atail p) (adir p))).
Definition hl_set (i j v : Z) (p : apool) : res apool :=
  assrt (i <? ap_size p)
    (do len <- it_get (adir p) i 1; assrt (j <? len - 1)
       (do a <- it_get (adir p) i 0; do b <- bput (amem p) (a + j + 1) v; Ok (APool b (atail p) (adir p)))).

(* ---- GatherMapB, hpc/GatherMapB.hpp:28-59.  A FixedkGatherMap (hpc/FixedkGatherMap.hpp:26-120) is an
   integer matrix whose rows are (target,source,...,source): a list of rows.  on_device is left out. *)
Record gmap := GMap { garr : apool; gout : Z; gin : Z; goc : Z; gic : Z; gocn : Z; gicn : Z;
                      gfixed : list (list (list Z)); gsorted : bool }.
(* a map together with its cached inverse _inv, GatherMapB.hpp:36.  (The inverse has a cache of its own, not modelled.) *)
Record gobj := GObj { gm : gmap; ginv : option gmap }.
Definition gm_with (g : gmap) (p : apool) : gmap :=
  GMap p (gout g) (gin g) (goc g) (gic g) (gocn g) (gicn g) (gfixed g) (gsorted g).
Definition gm_sorted_with (g : gmap) (p : apool) (s : bool) : gmap :=
  GMap p (gout g) (gin g) (goc g) (gic g) (gocn g) (gicn g) (gfixed g) s.
(* GatherMapB(n_out,n_in), :74-75 *)
Definition gm_new (n_out n_in : Z) : gmap := GMap ap_new n_out n_in 1 1 1 1 [] false.

(* the common part of the constructors from pairs, :81-104 and :122-144; a pair is (source,target).
   ho is the iteration order of the unordered_map sizes. *)
Definition get0 (k : Z) (m : zmap Z) : Z := match mfind k m with Some c => c | None => 0 end.
Definition count_targets (ps : list (Z * Z)) : zmap Z :=
  fold_left (fun m p => mset (snd p) (get0 (snd p) m + 1) m) ps [].
Definition gm_fill (full : bool) (ho : zmap Z -> zmap Z) (ps : list (Z * Z)) : res apool :=
  let sizes := ho (count_targets ps) in
  let heads := map fst sizes in
  let mapping := combine heads (zrange (Z.of_nat (length sizes))) in
  do p <- hl_make full heads (map snd sizes);
  foldM (fun pr p => hl_push_at (get0 (snd pr) mapping) (fst pr) p) ps p.
Definition max_end (n0 : Z) (l : list Z) : Z := fold_left (fun n x => Z.max n (x + 1)) l n0.
(* GatherMapB(sources,targets), :77-105 *)
Definition gm_of_vectors (ho : zmap Z -> zmap Z) (sources targets : list Z) : res gmap :=
  assrt (length sources =? length targets)%nat
    (do p <- gm_fill true ho (combine sources targets);
     Ok (GMap p (max_end 0 targets) (max_end 0 sources) 1 1 1 1 [] false)).
(* GatherMapB(M,n_in,n_out), :108-145, with the rows (M(i,0),M(i,1)) of the two-column matrix as a list of
   pairs (source,target); -1 means "not given" *)
Definition gm_of_matrix (ho : zmap Z -> zmap Z) (ps : list (Z * Z)) (n_in n_out : Z) : res gmap :=
  let n_in := if n_in =? -1 then max_end n_in (map fst ps) else n_in in
  let n_out := if n_out =? -1 then max_end n_out (map snd ps) else n_out in
  assrt (forallb (fun p => (fst p <? n_in) && (snd p <? n_out)) ps)
    (do p <- gm_fill false ho ps; Ok (GMap p n_out n_in 1 1 1 1 [] false)).
(* GatherMapB(map_of_lists,out_columns,in_columns,out_columns_n,in_columns_n), :148-168.  The list is the
   map in iteration order (bump: include/Cnine_base_helpers.hpp, max). *)
Definition push_rows (l : list (Z * list Z)) (p : apool) : res apool := foldM (fun q p => hl_push (fst q) (snd q) p) l p.
Definition gm_of_lists (l : list (Z * list Z)) (oc ic ocn icn : Z) : res gmap :=
  do p <- ap_reserve (Z.of_nat (length l) + mol_tsize l) ap_new;
  do p <- push_rows l p;
  Ok (GMap p (max_end 0 (map fst l)) (max_end 0 (flat_map snd l)) oc ic ocn icn [] false).

(* for_each, :319-328 *)
Definition gm_for_each {S} (p : apool) (f : Z -> Z -> S -> res S) (st : S) : res S :=
  forZ (ap_size p) (fun i st =>
    do M <- hl_size_of p i; do t <- hl_head p i;
    forZ M (fun j st => do s <- hl_get p i j; f t s st) st) st.
(* push_back(t,vector), :349-352; set, :334-336 *)
Definition gm_push (t : Z) (v : list Z) (g : gobj) : res gobj :=
  do p <- hl_push t v (garr (gm g)); Ok (GObj (gm_sorted_with (gm g) p false) (ginv g)).
Definition gm_set (i j x : Z) (g : gobj) : res gobj :=
  do p <- hl_set i j x (garr (gm g)); Ok (GObj (gm_with (gm g) p) (ginv g)).
(* make_inv, :364-384: inv_map[j].push_back(i) *)
Definition make_inv (g : gmap) : res gmap :=
  do inv_map <- gm_for_each (garr g) (fun i j m => Ok (mol_push j i m)) [];
  do p <- ap_reserve (Z.of_nat (length inv_map) + mol_tsize inv_map) ap_new;
  do p <- push_rows (by_key inv_map) p;
  Ok (GMap p (gin g) (gout g) (gic g) (goc g) (gicn g) (gocn g) [] false).
(* inv(), :310-313: the inverse is made only once *)
Definition gm_inv (g : gobj) : res (gmap * gobj) :=
  match ginv g with
  | Some r => Ok (r, g)
  | None => do r <- make_inv (gm g); Ok (r, GObj (gm g) (Some r))
  end.
(* rows grouped by length: lengths[key(size_of(i))].push_back(i), :391-394 and :415-418 *)
Definition by_length (key : Z -> Z) (p : apool) : res (list (Z * list Z)) :=
  do l <- forZ (ap_size p) (fun i m => do s <- hl_size_of p i; Ok (mol_push (key s) i m)) [];
  Ok (by_key l).
(* copying row q of p to the end of r, :400-404 and :438-441 *)
Definition copy_row (p : apool) (K q : Z) (r : apool) : res apool :=
  do r <- hl_push_raw K r;
  let i := ap_size r - 1 in
  do t <- hl_head p q; do r <- hl_set_head i t r;
  forZ K (fun a r => do v <- hl_get p q a; hl_set i a v r) r.
(* sort(), :387-410 *)
Definition gm_sort (g : gmap) : res gmap :=
  if gsorted g then Ok g else
  let p := garr g in
  do lengths <- by_length Z.opp p;
  do r <- ap_reserve (atail p) ap_new;
  do r <- foldM (fun e r => foldM (copy_row p (- fst e)) (snd e) r) lengths r;
  Ok (gm_sorted_with g r true).
(* grade(min_size), :413-448: rows whose length occurs at least min_size times go to fixed-width maps
   (view_of(q) is the whole row with its head), the others stay *)
Definition gm_grade (min_size : Z) (g : gmap) : res gmap :=
  let p := garr g in
  do lengths <- by_length (fun s => s) p;
  let rem := fold_right Z.add 0 (map (fun e => if Z.of_nat (length (snd e)) <? min_size then (fst e + 1) * Z.of_nat (length (snd e)) else 0) lengths) in
  do r <- ap_reserve rem ap_new;
  do ' (fk, r) <- foldM (fun e st => let '(fk, r) := st in
     if min_size <=? Z.of_nat (length (snd e))
     then do rows <- mapM (ap_list p) (snd e); Ok (fk ++ [rows], r)
     else do r <- foldM (copy_row p (fst e)) (snd e) r; Ok (fk, r)) lengths (gfixed g, r);
  Ok (GMap r (gout g) (gin g) (goc g) (gic g) (gocn g) (gicn g) fk (gsorted g)).

(* ---- applying a map: hpc/GatherRows.hpp *)
(* Rtensor2_view: tensor_views/Rtensor2_view.hpp; TensorView::view2() asserts ndims()==2 *)
Record mview := MV { mb : Z; mo : Z; n0 : Z; n1 : Z; s0 : Z; s1 : Z }.
Definition view2 (v : view) : res mview :=
  match vdims v, vstr v with
  | [a; b], [s; t] => Ok (MV (vblk v) (voff v) a b s t)
  | [_; _], _ => UB
  | _, _ => Throw
  end.
Definition mcell (v : mview) (i k : Z) : addr := (mb v, mo v + i * s0 v + k * s1 v).
(* r.n0*=columns; r.n1=r.n1*columns_n/columns; r.s0/=columns -- GatherRows.hpp:59-66 *)
Definition split_cols (c cn : Z) (v : mview) : res mview :=
  if c =? 0 then UB else Ok (MV (mb v) (mo v) (n0 v * c) (Z.quot (n1 v * cn) c) (Z.quot (s0 v) c) (s1 v)).
Section Apply.
Context {R : cring}.
Notation memR := (mem (car R)).
(* r.slice0(i)+=x.slice0(j): slice0 (tensor_views/Rtensor2_view.hpp:568-571, range checks compiled out) and
   Rtensor1_view::add (tensor_views/Rtensor1_view.hpp:183-193); the branch for unit strides (stdadd) does the
   same additions in the same order *)
Definition row_add (r x : mview) (i j : Z) (m : memR) : res memR :=
  assrt (n1 x =? n1 r) (forZ (n1 r) (fun k => rmw f_add1 (mcell r i k) [mcell x j k]) m).
(* operator()(r,x,FixedkGatherMap), GatherRows.hpp:164-191; its in_columns and out_columns are 1, nothing sets them *)
Definition gather_fixed (r x : mview) (rows : list (list Z)) (m : memR) : res memR :=
  foldM (fun row m =>
    match row with
    | [] => UB
    | t :: ss => foldM (fun s => row_add r x t s) ss m
    end) rows m.
(* the loop GatherRows.hpp:73-80 *)
Definition gather_loop (r x : mview) (p : apool) (m : memR) : res memR :=
  forZ (ap_size p) (fun i m =>
    do t <- hl_head p i; do M <- hl_size_of p i;
    forZ M (fun j m => do s <- hl_get p i j; row_add r x t s m) m) m.
(* operator()(r,x,GatherMapB), GatherRows.hpp:40-81, for a map that is not a WeightedGatherMapB *)
Definition gather_rows (_r _x : view) (g : gmap) (m : memR) : res memR :=
  do r <- view2 _r; do a <- crem (n1 r) (goc g); assrt (a =? 0)
    (do x <- view2 _x; do b <- crem (n1 x) (gic g); assrt (b =? 0)
      (do m <- foldM (gather_fixed r x) (gfixed g) m;
       if ap_size (garr g) =? 0 then Ok m else
       do r <- split_cols (goc g) (gocn g) r; do x <- split_cols (gic g) (gicn g) x;
       assrt (n1 r =? n1 x) (gather_loop r x (garr g) m))).

(* ---- GatherMapPack, hpc/GatherMapPack.hpp: the maps and their offsets *)
Record gpack := GPack { pmaps : list gmap; pin : list Z; pout : list Z }.
(* GatherMapPack(vector), :64-92; the column factors have to agree as well *)
Definition pack_of_vector (v : list gmap) : res gpack :=
  match v with
  | [] => Throw
  | g0 :: _ =>
      do st <- foldM (fun g st => let '(io, oo, is, os) := st in
        assrt ((gin g =? gin g0) && (gic g =? gic g0) && (goc g =? goc g0) && (gicn g =? gicn g0) && (gocn g =? gocn g0))
          (Ok (io + gin g * gic g0, oo + gout g * goc g0, is ++ [io], os ++ [oo]))) v (0, 0, [], []);
      let '(_, _, is, os) := st in Ok (GPack v is os)
  end.
(* GatherMapPack(x), :40-50, and push_back(x), :52-62: the new map's own sizes are added to the last offsets *)
Definition pack_of (g : gmap) : gpack := GPack [g] [0] [0].
Definition pack_push (g : gmap) (P : gpack) : res gpack :=
  match pmaps P with
  | [] => UB
  | g0 :: _ =>
      assrt ((gin g =? gin g0) && (gic g =? gic g0) && (goc g =? goc g0) && (gicn g =? gicn g0) && (gocn g =? gocn g0))
        (Ok (GPack (pmaps P ++ [g]) (pin P ++ [last (pin P) 0 + gin g * gic g0]) (pout P ++ [last (pout P) 0 + gout g * goc g0])))
  end.
(* operator()(r,x,GatherMapPack), GatherRows.hpp:92-117.  MultiLoop may run the maps in parallel; the model
   runs them in order.  The view2 computations before the loop only feed an assertion. *)
Definition gather_pack (_r _x : view) (P : gpack) (m : memR) : res memR :=
  do r <- view2 _r; do x <- view2 _x;
  match pmaps P with
  | [] => Ok m
  | g0 :: _ =>
      do a <- crem (n1 r) (goc g0); assrt (a =? 0) (do b <- crem (n1 x) (gic g0); assrt (b =? 0)
        (do r' <- split_cols (goc g0) (gocn g0) r; do x' <- split_cols (gic g0) (gicn g0) x;
         assrt (n1 r' =? n1 x')
           (foldM (fun gio m => let '(g, io, oo) := gio in
              do rr <- rows oo (gout g) _r; do xx <- rows io (gin g) _x; gather_rows rr xx g m)
              (combine (combine (pmaps P) (pin P)) (pout P)) m)))
  end.

(* ---- TensorProgram<GatherRows,GatherMapB>, hpc/TensorProgram.hpp:32-142, TensorProgramHelpers.hpp:52-72 *)
Record instr := Instr { iout : Z; iin : Z; imap : gmap }.
Record tprog := TProg { pvars : list (list Z); pinput : Z; poutput : Z; pfrom_out : bool; pinstrs : list instr }.
(* TensorProgram(out_dims,in_dims), add_var, add_map: TensorProgram.hpp:49-81 *)
Definition tp_new (out_dims in_dims : list Z) : tprog := TProg [in_dims; out_dims] 0 1 false [].
Definition tp_add_var (d : list Z) (P : tprog) : tprog := TProg (pvars P ++ [d]) (pinput P) (poutput P) (pfrom_out P) (pinstrs P).
Definition tp_add_map (g : gmap) (out in_ : Z) (P : tprog) : tprog :=
  TProg (pvars P) (pinput P) (poutput P) (pfrom_out P) (pinstrs P ++ [Instr out in_ g]).
(* inv(), :129-142; the instruction's inverse swaps in and out, TensorProgramHelpers.hpp:70-72 *)
Definition tp_inv (P : tprog) : res tprog :=
  do is <- mapM (fun i => do g <- make_inv (imap i); Ok (Instr (iin i) (iout i) g)) (rev (pinstrs P));
  Ok (TProg (pvars P) (poutput P) (pinput P) (negb (pfrom_out P)) is).
(* scale_last, TensorProgram.hpp:195-199 *)
Definition scale_last (d : list Z) (nc : Z) : res (list Z) :=
  match rev d with [] => UB | x :: l => Ok (rev l ++ [x * nc]) end.
(* operator()(output,input), TensorProgram.hpp:87-126.  input and output are views (the Ltensor copies share their storage);
   the temporaries for the other variables are fresh zero tensors in the blocks listed in fresh. *)
Definition tp_run (P : tprog) (fresh : list Z) (output input : view) (m : memR) : res memR :=
  do vin <- zget (pvars P) (pinput P); do vout <- zget (pvars P) (poutput P);
  do nc <- (if pfrom_out P
            then match rev (vdims output), rev vout with a :: _, b :: _ => cdiv a b | _, _ => UB end
            else match rev (vdims input), rev vin with a :: _, b :: _ => cdiv a b | _, _ => UB end);
  do di <- scale_last vin nc; do dq <- scale_last vout nc;
  assrt (eqlb (vdims input) di) (assrt (eqlb (vdims output) dq)
    (do ' (vs, m) <- foldM (fun ib st => let '(vs, m) := st in let '(i, (d, b)) := ib in
        if i =? poutput P then Ok (vs ++ [output], m)
        else if i =? pinput P then Ok (vs ++ [input], m)
        else do dd <- scale_last d nc; Ok (vs ++ [fresh_view b dd], alloc c0 b (asize dd) m))
        (combine (zrange (Z.of_nat (length (pvars P)))) (combine (pvars P) fresh)) ([], m);
     foldM (fun i m =>
        assrt (iout i <? Z.of_nat (length (pvars P))) (assrt (iin i <? Z.of_nat (length (pvars P)))
          (do r <- zget vs (iout i); do x <- zget vs (iin i); gather_rows r x (imap i) m))) (pinstrs P) m)).
End Apply.
