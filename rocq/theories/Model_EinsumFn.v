(* Model_EinsumFn.v -- Einstein sums of two views: RtensorEinsumFn and CtensorEinsumFn with EinsumFnBase (CPU).
   int arithmetic unbounded; float is an arbitrary commutative ring, complex<float> the pairs over it.  A CtensorView
   is a view with one more axis of side 2 whose stride is arrc-arr, as in Model_CView.  The loops of the code are
   written out once for every number of axes; here they are one nest of loops over a list of sides. *)
From Coq Require Import Ascii.
From Verif Require Import Base Model_Index Model_View Model_Tensor Model_Einsum Model_RView Model_CView.
Local Open Scope Z_scope.

(* ---- reading the string: the same code in tensor_views/functions/RtensorEinsumFn.hpp:32-63 and
   tensor_views/functions/EinsumFnBase.hpp:35-75 *)
Definition xch : ascii := "x"%char.
(* find_all(str,c), tensor_views/functions/EinsumFnBase.hpp:109-118, tensor_views/functions/RtensorEinsumFn.hpp:86-95:
   the positions of c, which is replaced by 'x'.  Simplified: one pass (c is never 'x'); the positions are
   Model_Einsum.occs *)
Definition xblank (c : ascii) (s : list ascii) : list ascii := map (fun a => if Ascii.eqb a c then xch else a) s.
(* str.find_first_not_of('x') and the letter there, tensor_views/functions/EinsumFnBase.hpp:58-60 *)
Fixpoint xnext (s : list ascii) : option ascii :=
  match s with [] => None | a :: s' => if Ascii.eqb a xch then xnext s' else Some a end.
(* dstrides, sstrides, bstrides, tensor_views/functions/EinsumFnBase.hpp:27-29 *)
Record efn := EFn { e_d : list (list Z * list Z * list Z); e_s : list (list Z * list Z); e_b : list (list Z) }.
(* the loop over rstr, tensor_views/functions/EinsumFnBase.hpp:57-68, tensor_views/functions/RtensorEinsumFn.hpp:46-57;
   fuel bounds the passes (each one replaces a letter) *)
Fixpoint efn_r (fuel : nat) (rs xs ys : list ascii) (F : efn) : res (list ascii * list ascii * efn) :=
  match xnext rs with
  | None => Ok (xs, ys, F)
  | Some c =>
      match fuel with
      | O => UB
      | S fuel' =>
          let v := occs c rs 0 in
          if negb (has c xs) && negb (has c ys) then efn_r fuel' (xblank c rs) xs ys (EFn (e_d F) (e_s F) (e_b F ++ [v]))
          else efn_r fuel' (xblank c rs) (xblank c xs) (xblank c ys) (EFn (e_d F ++ [(v, occs c xs 0, occs c ys 0)]) (e_s F) (e_b F))
      end
  end.
(* the loop over xstr, tensor_views/functions/EinsumFnBase.hpp:70-75, tensor_views/functions/RtensorEinsumFn.hpp:59-64 *)
Fixpoint efn_x (fuel : nat) (xs ys : list ascii) (F : efn) : res efn :=
  match xnext xs with
  | None => Ok F
  | Some c =>
      match fuel with
      | O => UB
      | S fuel' => efn_x fuel' (xblank c xs) (xblank c ys) (EFn (e_d F) (e_s F ++ [(occs c xs 0, occs c ys 0)]) (e_b F))
      end
  end.
Definition efn_parse (xs ys rs : list ascii) : res efn :=
  do ' (xs', ys', F) <- efn_r (length rs) rs xs ys (EFn [] [] []); efn_x (length xs) xs' ys' F.
(* str.find(","), str.find("->"), substr, tensor_views/functions/EinsumFnBase.hpp:36-44: None when malformed *)
Definition split3 (str : list ascii) : option (list ascii * list ascii * list ascii) :=
  match cut_arrow str with
  | None => None
  | Some (xys, rs) => match cut_comma xys with None => None | Some (xs, ys) => Some (xs, ys, rs) end
  end.
(* RtensorEinsumFn(str), tensor_views/functions/RtensorEinsumFn.hpp:32-63: a malformed string is reported on the
   terminal and leaves the three vectors empty *)
Definition rfn_of (str : list ascii) : res efn :=
  match split3 str with None => Ok (EFn [] [] []) | Some (xs, ys, rs) => efn_parse xs ys rs end.
(* is_conj(str), tensor_views/functions/EinsumFnBase.hpp:100-106: back() of an empty string is UB *)
Definition is_conj (s : list ascii) : res (bool * list ascii) :=
  match rev s with
  | [] => UB
  | a :: t => if Ascii.eqb a "*"%char then Ok (true, rev (xch :: t)) else Ok (false, s)
  end.
(* EinsumFnBase(str), tensor_views/functions/EinsumFnBase.hpp:35-75: the function and xconj, yconj; a malformed string
   leaves the two flags uninitialised (None) *)
Definition cfn_of (str : list ascii) : res (efn * option (bool * bool)) :=
  match split3 str with
  | None => Ok (EFn [] [] [], None)
  | Some (xs, ys, rs) =>
      do ' (rc, rs) <- is_conj rs; do ' (xc, xs) <- is_conj xs; do ' (yc, ys) <- is_conj ys;
      do F <- efn_parse xs ys rs;
      Ok (F, Some (if rc then (negb xc, negb yc) else (xc, yc)))
  end.

(* ---- the loops *)
Fixpoint nest {S} (ds : list Z) (f : list Z -> S -> res S) (s : S) : res S :=
  match ds with [] => f [] s | d :: ds' => forZ d (fun i s => nest ds' (fun ix => f (i :: ix)) s) s end.
(* the sides and combined strides of dstrides: I=r.dims[first[0]], r.strides.combine(first), x.strides.combine(second),
   y.strides.combine(third), tensor_views/functions/RtensorEinsumFn.hpp:110-113; Gstrides::combine, include/Gstrides.hpp:167-174,
   is that of Model_Einsum.cmb (its assert is read as UB) *)
Definition d_par (l : list (list Z * list Z * list Z)) (r x y : view) : res (list (Z * Z * Z * Z)) :=
  mapM (fun p => do d <- dim_of r (fst (fst p)); do a <- cmb (vstr r) (fst (fst p)); do b <- cmb (vstr x) (snd (fst p)); do c <- cmb (vstr y) (snd p);
                 Ok (d, a, b, c)) l.
(* of sstrides, the sides being taken from vd and the strides from vx and vy *)
Definition s_par (l : list (list Z * list Z)) (vd vx vy : view) : res (list (Z * Z * Z)) :=
  mapM (fun p => do d <- dim_of vd (fst p); do a <- cmb (vstr vx) (fst p); do b <- cmb (vstr vy) (snd p); Ok (d, a, b)) l.
Definition d_I (q : Z * Z * Z * Z) := fst (fst (fst q)). Definition d_r (q : Z * Z * Z * Z) := snd (fst (fst q)).
Definition d_x (q : Z * Z * Z * Z) := snd (fst q). Definition d_y (q : Z * Z * Z * Z) := snd q.
Definition s_I (q : Z * Z * Z) := fst (fst q). Definition s_x (q : Z * Z * Z) := snd (fst q). Definition s_y (q : Z * Z * Z) := snd q.
Section Eval.
Context {R : cring}.
Notation memR := (mem (car R)).
Notation C := (CxRing R).
(* bloops(r,roffs,t), tensor_views/functions/RtensorEinsumFn.hpp:232-278: nothing for more than three axes *)
Definition rfn_b (F : efn) (r : view) (ro : Z) (t : R) (m : memR) : res memR :=
  if (3 <? length (e_b F))%nat then Ok m else
  do q <- p_sum (e_b F) r;
  nest (map fst q) (fun ix m => rmw (fun u _ => cadd u t) (vblk r, voff r + (ro + dot (map snd q) ix)) [] m) m.
(* sloops(r,x,y,ro,xo,yo), tensor_views/functions/RtensorEinsumFn.hpp:169-229: sides and strides are those of r *)
Definition rfn_s (F : efn) (r x y : view) (ro xo yo : Z) (m : memR) : res memR :=
  if (3 <? length (e_s F))%nat then Ok m else
  do q <- s_par (e_s F) r r r;
  do t <- nest (map s_I q) (fun ix t =>
            do u <- loadA m (vblk x, voff x + (xo + dot (map s_x q) ix));
            do v <- loadA m (vblk y, voff y + (yo + dot (map s_y q) ix)); Ok (cadd t (cmul u v))) c0;
  rfn_b F r ro t m.
(* operator()(r,x,y), tensor_views/functions/RtensorEinsumFn.hpp:101-164: nothing for more than three axes *)
Definition rfn_call (F : efn) (r x y : view) (m : memR) : res memR :=
  if (3 <? length (e_d F))%nat then Ok m else
  do q <- d_par (e_d F) r x y;
  nest (map d_I q) (fun ix m => rfn_s F r x y (dot (map d_r q) ix) (dot (map d_x q) ix) (dot (map d_y q) ix) m) m.

(* complex<TYPE>(x.arr[o],x.arrc[o]) or its conjugate, tensor_views/functions/CtensorEinsumFn.hpp:143-147 *)
Definition cload (cj : bool) (v : view) (o : Z) (m : memR) : res C :=
  do a <- loadA m (vblk v, voff v + o); do b <- loadA m (vblk v, voff v + o + coffs v);
  Ok (if cj then conj (a, b) else (a, b)).
(* bloops(r,roffs,t), tensor_views/functions/CtensorEinsumFn.hpp:304-357 *)
Definition cfn_b (F : efn) (r : view) (ro : Z) (t : C) (m : memR) : res memR :=
  if (3 <? length (e_b F))%nat then Ok m else
  do q <- p_sum (e_b F) r;
  nest (map fst q) (fun ix m =>
    do m1 <- rmw (fun u _ => cadd u (fst t)) (vblk r, voff r + (ro + dot (map snd q) ix)) [] m;
    rmw (fun u _ => cadd u (snd t)) (vblk r, voff r + (ro + dot (map snd q) ix) + coffs r) [] m1) m.
(* sloops(r,x,y,ro,xo,yo), tensor_views/functions/CtensorEinsumFn.hpp:138-300; with three contracted letters and
   xconj set, yconj is taken the wrong way round (tensor_views/functions/CtensorEinsumFn.hpp:260-276) *)
Definition ysign (F : efn) (xc yc : bool) : bool := if (length (e_s F) =? 3)%nat && xc then negb yc else yc.
Definition cfn_s (F : efn) (xc yc : bool) (r x y : view) (ro xo yo : Z) (m : memR) : res memR :=
  if (3 <? length (e_s F))%nat then Ok m else
  do q <- s_par (e_s F) x x y;
  do t <- nest (map s_I q) (fun ix (t : C) =>
            do u <- cload xc x (xo + dot (map s_x q) ix) m;
            do v <- cload (ysign F xc yc) y (yo + dot (map s_y q) ix) m; Ok (cadd t (cmul u v))) c0;
  cfn_b F r ro t m.
(* operator()(r,x,y), tensor_views/functions/CtensorEinsumFn.hpp:37-132: nothing for more than four axes; the flags
   are first read in sloops *)
Definition cfn_call (Fc : efn * option (bool * bool)) (r x y : view) (m : memR) : res memR :=
  let F := fst Fc in
  if (4 <? length (e_d F))%nat then Ok m else
  do q <- d_par (e_d F) r x y;
  nest (map d_I q) (fun ix m =>
    match snd Fc with
    | None => UB
    | Some (xc, yc) => cfn_s F xc yc r x y (dot (map d_r q) ix) (dot (map d_x q) ix) (dot (map d_y q) ix) m
    end) m.
End Eval.
