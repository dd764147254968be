(* Einstein summation: tensors/functions/EinsumForm1.hpp, EinsumForm2.hpp, Einsum1params.hpp, Einsum2params.hpp,
   Einsum1.hpp, Einsum2.hpp (CPU).  Integer arithmetic unbounded; elements in a commutative ring. *)
From Coq Require Import ZArith List Bool Ascii Lia.
Import ListNotations.
From Verif Require Import Base Model_Index Model_View Model_Tensor.
Open Scope Z_scope.

Definition us : ascii := "_"%char.
(* EinsumFormBase::find_all(str,c), EinsumForm1.hpp:30-39: the positions of c, which is replaced by '_'.
   Simplified: one pass instead of repeated find_first_of (c is never '_') *)
Fixpoint occs (c : ascii) (s : list ascii) (i : Z) : list Z :=
  match s with [] => [] | a :: s' => if Ascii.eqb a c then i :: occs c s' (i + 1) else occs c s' (i + 1) end.
Definition blank (c : ascii) (s : list ascii) : list ascii := map (fun a => if Ascii.eqb a c then us else a) s.
(* find_first_not_of('_') and the letter there *)
Fixpoint next_letter (s : list ascii) : option ascii :=
  match s with [] => None | a :: s' => if Ascii.eqb a us then next_letter s' else Some a end.
(* str.find(c)!=npos *)
Definition has (c : ascii) (s : list ascii) : bool := existsb (Ascii.eqb c) s.
(* for(auto q:v) ids[q]=t *)
Definition set_ids (v : list Z) (t : Z) (ids : list Z) : list Z :=
  map (fun p => if existsb (Z.eqb (fst p)) v then t else snd p) (combine (zrange (Z.of_nat (length ids))) ids).
(* splitting at the first "->" and at the first "," *)
Fixpoint cut_arrow (s : list ascii) : option (list ascii * list ascii) :=
  match s with
  | [] => None
  | a :: s' =>
      if Ascii.eqb a "-"%char && (match s' with b :: _ => Ascii.eqb b ">"%char | [] => false end) then Some ([], tl s')
      else match cut_arrow s' with None => None | Some (l, r) => Some (a :: l, r) end
  end.
Fixpoint cut_comma (s : list ascii) : option (list ascii * list ascii) :=
  match s with
  | [] => None
  | a :: s' => if Ascii.eqb a ","%char then Some ([], s') else match cut_comma s' with None => None | Some (l, r) => Some (a :: l, r) end
  end.

(* ---- EinsumForm1.  xr and gather are the two columns of the multivec, pairwise *)
Record form1 := Form1 { f1_xsum : list (list Z); f1_rsum : list (list Z); f1_xr : list (list Z * list Z); f1_gat : list (list Z * list Z);
                        f1_rids : list Z; f1_xids : list Z; f1_bc : list Z; f1_tail : Z }.
(* the first loop, :71-95; fuel bounds the number of passes (each one blanks a letter), running out of it is UB *)
Definition step1r (c : ascii) (v w : list Z) (inx : bool) (F : form1) : form1 :=
  let rids := set_ids v (f1_tail F) (f1_rids F) in
  if negb inx then Form1 (f1_xsum F) (f1_rsum F ++ [v]) (f1_xr F) (f1_gat F) rids (f1_xids F) (f1_bc F ++ [f1_tail F]) (f1_tail F + 1)
  else let xids := set_ids w (f1_tail F) (f1_xids F) in
       if negb (Ascii.eqb c "S"%char) then Form1 (f1_xsum F) (f1_rsum F) (f1_xr F ++ [(w, v)]) (f1_gat F) rids xids (f1_bc F) (f1_tail F + 1)
       else Form1 (f1_xsum F) (f1_rsum F) (f1_xr F) (f1_gat F ++ [(w, v)]) rids xids (f1_bc F) (f1_tail F + 1).
Fixpoint loop1r (fuel : nat) (rs xs : list ascii) (F : form1) : res (list ascii * form1) :=
  match next_letter rs with
  | None => Ok (xs, F)
  | Some c =>
      match fuel with
      | O => UB
      | S fuel' => loop1r fuel' (blank c rs) (if has c xs then blank c xs else xs) (step1r c (occs c rs 0) (occs c xs 0) (has c xs) F)
      end
  end.
(* the second loop, :98-106 *)
Definition step1x (v : list Z) (F : form1) : form1 :=
  Form1 (f1_xsum F ++ [v]) (f1_rsum F) (f1_xr F) (f1_gat F) (f1_rids F) (set_ids v (f1_tail F) (f1_xids F)) (f1_bc F) (f1_tail F + 1).
Fixpoint loop1x (fuel : nat) (xs : list ascii) (F : form1) : res form1 :=
  match next_letter xs with
  | None => Ok F
  | Some c => match fuel with O => UB | S fuel' => loop1x fuel' (blank c xs) (step1x (occs c xs 0) F) end
  end.
Definition zeros {A} (l : list A) : list Z := repeat 0 (length l).
(* EinsumForm1(str), :59-108 *)
Definition form1_of (str : list ascii) : res form1 :=
  match cut_arrow str with
  | None => Throw
  | Some (xs, rs) =>
      do ' (xs', F) <- loop1r (length rs) rs xs (Form1 [] [] [] [] (zeros rs) (zeros xs) [] 0);
      loop1x (length xs) xs' F
  end.

(* ---- EinsumForm2 *)
Definition tri : Type := (list Z * list Z * list Z)%type.
Record form2 := Form2 { f2_xsum : list (list Z); f2_ysum : list (list Z); f2_rsum : list (list Z);
                        f2_xr : list (list Z * list Z); f2_yr : list (list Z * list Z); f2_xy : list (list Z * list Z);
                        f2_tr : list tri; f2_conv : list tri; f2_trip : list tri;
                        f2_xgat : list (list Z * list Z); f2_ygat : list (list Z * list Z);
                        f2_xids : list Z; f2_yids : list Z; f2_rids : list Z; f2_bc : list Z; f2_tail : Z }.
Definition is_conv (c : ascii) : bool := Ascii.eqb c "U"%char || Ascii.eqb c "V"%char || Ascii.eqb c "W"%char.
(* the first loop, :67-119 *)
Definition step2r (c : ascii) (v xw yw : list Z) (inx iny : bool) (F : form2) : form2 :=
  let t := f2_tail F in
  let rids := set_ids v t (f2_rids F) in
  if inx then
    let xids := set_ids xw t (f2_xids F) in
    if iny then
      if Ascii.eqb c "*"%char then
        Form2 (f2_xsum F) (f2_ysum F) (f2_rsum F) (f2_xr F) (f2_yr F) (f2_xy F) (f2_tr F) (f2_conv F) (f2_trip F ++ [(xw, yw, v)]) (f2_xgat F) (f2_ygat F)
          xids (set_ids yw t (f2_yids F)) rids (f2_bc F) (t + 1)
      else if is_conv c then
        Form2 (f2_xsum F) (f2_ysum F) (f2_rsum F) (f2_xr F) (f2_yr F) (f2_xy F) (f2_tr F) (f2_conv F ++ [(xw, yw, v)]) (f2_trip F) (f2_xgat F) (f2_ygat F)
          xids (set_ids yw (t + 1) (f2_yids F)) rids (f2_bc F) (t + 2)
      else
        Form2 (f2_xsum F) (f2_ysum F) (f2_rsum F) (f2_xr F) (f2_yr F) (f2_xy F) (f2_tr F ++ [(xw, yw, v)]) (f2_conv F) (f2_trip F) (f2_xgat F) (f2_ygat F)
          xids (set_ids yw t (f2_yids F)) rids (f2_bc F) (t + 1)
    else if negb (Ascii.eqb c "S"%char) then
      Form2 (f2_xsum F) (f2_ysum F) (f2_rsum F) (f2_xr F ++ [(xw, v)]) (f2_yr F) (f2_xy F) (f2_tr F) (f2_conv F) (f2_trip F) (f2_xgat F) (f2_ygat F)
        xids (f2_yids F) rids (f2_bc F) (t + 1)
    else
      Form2 (f2_xsum F) (f2_ysum F) (f2_rsum F) (f2_xr F) (f2_yr F) (f2_xy F) (f2_tr F) (f2_conv F) (f2_trip F) (f2_xgat F ++ [(xw, v)]) (f2_ygat F)
        xids (f2_yids F) rids (f2_bc F) (t + 1)
  else if iny then
    if negb (Ascii.eqb c "S"%char) then
      Form2 (f2_xsum F) (f2_ysum F) (f2_rsum F) (f2_xr F) (f2_yr F ++ [(yw, v)]) (f2_xy F) (f2_tr F) (f2_conv F) (f2_trip F) (f2_xgat F) (f2_ygat F)
        (f2_xids F) (set_ids yw t (f2_yids F)) rids (f2_bc F) (t + 1)
    else
      Form2 (f2_xsum F) (f2_ysum F) (f2_rsum F) (f2_xr F) (f2_yr F) (f2_xy F) (f2_tr F) (f2_conv F) (f2_trip F) (f2_xgat F) (f2_ygat F ++ [(yw, v)])
        (f2_xids F) (set_ids yw t (f2_yids F)) rids (f2_bc F) (t + 1)
  else
    Form2 (f2_xsum F) (f2_ysum F) (f2_rsum F ++ [v]) (f2_xr F) (f2_yr F) (f2_xy F) (f2_tr F) (f2_conv F) (f2_trip F) (f2_xgat F) (f2_ygat F)
      (f2_xids F) (f2_yids F) rids (f2_bc F ++ [t]) (t + 1).
Definition blank_if (c : ascii) (s : list ascii) : list ascii := if has c s then blank c s else s.
Fixpoint loop2r (fuel : nat) (rs xs ys : list ascii) (F : form2) : res (list ascii * list ascii * form2) :=
  match next_letter rs with
  | None => Ok (xs, ys, F)
  | Some c =>
      match fuel with
      | O => UB
      | S fuel' => loop2r fuel' (blank c rs) (blank_if c xs) (blank_if c ys) (step2r c (occs c rs 0) (occs c xs 0) (occs c ys 0) (has c xs) (has c ys) F)
      end
  end.
(* the second loop, :121-140 *)
Definition step2x (v w : list Z) (iny : bool) (F : form2) : form2 :=
  let t := f2_tail F in
  if negb iny then
    Form2 (f2_xsum F ++ [v]) (f2_ysum F) (f2_rsum F) (f2_xr F) (f2_yr F) (f2_xy F) (f2_tr F) (f2_conv F) (f2_trip F) (f2_xgat F) (f2_ygat F)
      (set_ids v t (f2_xids F)) (f2_yids F) (f2_rids F) (f2_bc F) (t + 1)
  else
    Form2 (f2_xsum F) (f2_ysum F) (f2_rsum F) (f2_xr F) (f2_yr F) (f2_xy F ++ [(v, w)]) (f2_tr F) (f2_conv F) (f2_trip F) (f2_xgat F) (f2_ygat F)
      (set_ids v t (f2_xids F)) (set_ids w t (f2_yids F)) (f2_rids F) (f2_bc F) (t + 1).
Fixpoint loop2x (fuel : nat) (xs ys : list ascii) (F : form2) : res (list ascii * form2) :=
  match next_letter xs with
  | None => Ok (ys, F)
  | Some c => match fuel with O => UB | S fuel' => loop2x fuel' (blank c xs) (blank_if c ys) (step2x (occs c xs 0) (occs c ys 0) (has c ys) F) end
  end.
(* the third loop, :142-152 *)
Definition step2y (v : list Z) (F : form2) : form2 :=
  Form2 (f2_xsum F) (f2_ysum F ++ [v]) (f2_rsum F) (f2_xr F) (f2_yr F) (f2_xy F) (f2_tr F) (f2_conv F) (f2_trip F) (f2_xgat F) (f2_ygat F)
    (f2_xids F) (set_ids v (f2_tail F) (f2_yids F)) (f2_rids F) (f2_bc F) (f2_tail F + 1).
Fixpoint loop2y (fuel : nat) (ys : list ascii) (F : form2) : res form2 :=
  match next_letter ys with
  | None => Ok F
  | Some c => match fuel with O => UB | S fuel' => loop2y fuel' (blank c ys) (step2y (occs c ys 0) F) end
  end.
(* EinsumForm2(str), :52-154.  Simplified: the comma is looked for in the part before "->" (the code compares
   the two positions) *)
Definition form2_of (str : list ascii) : res form2 :=
  match cut_arrow str with
  | None => Throw
  | Some (xys, rs) =>
      match cut_comma xys with
      | None => Throw
      | Some (xs, ys) =>
          do ' (xs', ys', F) <- loop2r (length rs) rs xs ys (Form2 [] [] [] [] [] [] [] [] [] [] [] (zeros xs) (zeros ys) (zeros rs) [] 0);
          do ' (ys'', F) <- loop2x (length xs) xs' ys' F;
          loop2y (length ys) ys'' F
      end
  end.

(* ---- parameters.  GstridesB::combine(v), include/GstridesB.hpp:216-223 *)
Definition cmb (s : list Z) (v : list Z) : res Z := foldM (fun p t => do a <- zget s p; Ok (t + a)) v 0.
Definition dim_of (x : view) (v : list Z) : res Z := do p <- zget v 0; zget (vdims x) p.
(* an int[4] whose first entries are those of l; writing a fifth one is UB *)
Definition arr4 (d : Z) (l : list Z) : res (list Z) := if (length l <=? 4)%nat then Ok (l ++ repeat d (4 - length l)) else UB.
(* sum1, sum2, bcast: Einsum1params.hpp:43-57, Einsum2params.hpp:57-79: (dimension, combined stride) per entry *)
Definition p_sum (l : list (list Z)) (x : view) : res (list (Z * Z)) :=
  mapM (fun v => do d <- dim_of x v; do s <- cmb (vstr x) v; Ok (d, s)) l.
(* transfer1, Einsum1params.hpp:59-68, Einsum2params.hpp:81-90, and transfer2, :92-101: (dim, sx, sr) *)
Definition p_tr (l : list (list Z * list Z)) (x r : view) : res (list (Z * Z * Z)) :=
  mapM (fun p => do d <- dim_of r (snd p); do sx <- cmb (vstr x) (fst p); do sr <- cmb (vstr r) (snd p); Ok (d, sx, sr)) l.
(* transfer12, Einsum2params.hpp:103-113: (dim, sx, sy, sr) *)
Definition p_tr12 (l : list tri) (x y r : view) : res (list (Z * Z * Z * Z)) :=
  mapM (fun p => do d <- dim_of x (fst (fst p)); do sx <- cmb (vstr x) (fst (fst p)); do sy <- cmb (vstr y) (snd (fst p)); do sr <- cmb (vstr r) (snd p); Ok (d, sx, sy, sr)) l.
(* contract, Einsum2params.hpp:115-124, and convolve_back (sg = -1), :126-136: (dim, sx, sy) *)
Definition p_con (sg : Z) (l : list (list Z * list Z)) (x y : view) : res (list (Z * Z * Z)) :=
  mapM (fun p => do dx <- dim_of x (fst p); do dy <- dim_of y (snd p); do sx <- cmb (vstr x) (fst p); do sy <- cmb (vstr y) (snd p); Ok (Z.min dx dy, sg * sx, sy)) l.

Definition at0 (l : list Z) : Z := nth 0 l 0. Definition at1 (l : list Z) : Z := nth 1 l 0.
Definition at2 (l : list Z) : Z := nth 2 l 0. Definition at3 (l : list Z) : Z := nth 3 l 0.
(* for(i=lo; i<hi; i++) *)
Definition forR {S} (lo hi : Z) (f : Z -> S -> res S) (s : S) : res S := forZ (hi - lo) (fun k => f (lo + k)) s.

Section Eval.
Context {R : cring}.
Notation memR := (mem (car R)).
(* the triple loop summing cells of x *)
Definition sum3 (x : view) (o : Z) (d s : list Z) (m : memR) : res R :=
  forZ (at0 d) (fun i0 t => forZ (at1 d) (fun i1 t => forZ (at2 d) (fun i2 t =>
    do v <- loadA m (vblk x, voff x + (o + i0 * at0 s + i1 * at1 s + i2 * at2 s)); Ok (cadd t v)) t) t) c0.
(* the triple loop adding v to cells of r *)
Definition bcast3 (r : view) (o : Z) (d s : list Z) (v : R) (m : memR) : res memR :=
  forZ (at0 d) (fun i0 m => forZ (at1 d) (fun i1 m => forZ (at2 d) (fun i2 m =>
    rmw (fun u _ => cadd u v) (vblk r, voff r + (o + i0 * at0 s + i1 * at1 s + i2 * at2 s)) [] m) m) m) m.
Definition loop4 {S} (d : list Z) (f : Z -> Z -> Z -> Z -> S -> res S) (s : S) : res S :=
  forZ (at0 d) (fun t0 s => forZ (at1 d) (fun t1 s => forZ (at2 d) (fun t2 s => forZ (at3 d) (fun t3 s => f t0 t1 t2 t3 s) s) s) s) s.

(* ---- Einsum1 *)
Record par1 := Par1 { p1_td : list Z; p1_tx : list Z; p1_tr : list Z; p1_sd : list Z; p1_ss : list Z; p1_bd : list Z; p1_bs : list Z }.
(* add_einsum(r,x,params,xoffs,roffs), Einsum1.hpp:194-225; note tstride_x[3] in roffs_t *)
Definition ein1_loops (p : par1) (r x : view) (xo ro : Z) (m : memR) : res memR :=
  loop4 (p1_td p) (fun t0 t1 t2 t3 m =>
    let xt := xo + t0 * at0 (p1_tx p) + t1 * at1 (p1_tx p) + t2 * at2 (p1_tx p) + t3 * at3 (p1_tx p) in
    let rt := ro + t0 * at0 (p1_tr p) + t1 * at1 (p1_tr p) + t2 * at2 (p1_tr p) + t3 * at3 (p1_tx p) in
    do v <- sum3 x xt (p1_sd p) (p1_ss p) m;
    bcast3 r rt (p1_bd p) (p1_bs p) v m) m.
Definition mk_par1 (s b : list (Z * Z)) (t : list (Z * Z * Z)) : res par1 :=
  do sd <- arr4 1 (map fst s); do ss <- arr4 0 (map snd s);
  do bd <- arr4 1 (map fst b); do bs <- arr4 0 (map snd b);
  do td <- arr4 1 (map (fun q => fst (fst q)) t); do tx <- arr4 0 (map (fun q => snd (fst q)) t); do tr <- arr4 0 (map snd t);
  Ok (Par1 td tx tr sd ss bd bs).
Definition le3 {A} (l : list A) : bool := (length l <=? 3)%nat.
Definition le4 {A} (l : list A) : bool := (length l <=? 4)%nat.
(* add_einsum(r,x), Einsum1.hpp:116-138 *)
Definition ein1_add (F : form1) (r x : view) (m : memR) : res memR :=
  assrt (le3 (f1_xsum F)) (assrt (le3 (f1_rsum F)) (assrt (le4 (f1_xr F)) (assrt (length (f1_gat F) =? 0)%nat
    (do s <- p_sum (f1_xsum F) x; do b <- p_sum (f1_rsum F) r; do t <- p_tr (f1_xr F) x r;
     do p <- mk_par1 s b t; ein1_loops p r x 0 0 m)))).
Definition swp {A B} (p : A * B) : B * A := (snd p, fst p).
(* add_einsum_back(x,r), Einsum1.hpp:168-188 *)
Definition ein1_back (F : form1) (x r : view) (m : memR) : res memR :=
  assrt (le3 (f1_xsum F)) (assrt (le3 (f1_rsum F)) (assrt (le4 (f1_xr F))
    (do s <- p_sum (f1_rsum F) r; do b <- p_sum (f1_xsum F) x; do t <- p_tr (map swp (f1_xr F)) r x;
     do p <- mk_par1 s b t; ein1_loops p x r 0 0 m))).
(* the dimension of every id, from the ids and sides of an operand, Einsum1.hpp:45-51: -1 means not set yet *)
Definition set_dims (ids dims : list Z) (D : list Z) : res (list Z) :=
  foldM (fun i D => do id <- zget ids i; do d <- zget dims i; do c <- zget D id;
                    if c =? -1 then vset id d D else assrt (c =? d) (Ok D)) (zrange (Z.of_nat (length ids))) D.
(* operator()(x,rdims), Einsum1.hpp:41-61; b is the memory block of the result *)
Definition ein1_call (F : form1) (x : view) (rdims : list Z) (b : Z) (m : memR) : res (view * memR) :=
  assrt (length rdims =? length (f1_bc F))%nat
    (do D <- set_dims (f1_xids F) (vdims x) (repeat (-1) (Z.to_nat (f1_tail F)));
     do D <- foldM (fun i D => do id <- zget (f1_bc F) i; do d <- zget rdims i; vset id d D) (zrange (Z.of_nat (length (f1_bc F)))) D;
     do rd <- mapM (zget D) (f1_rids F);
     let r := fresh_view b rd in
     do m <- ein1_add F r x (alloc c0 b (asize rd) m); Ok (r, m)).

(* ---- Einsum2 *)
Record par2 := Par2 { p2_td : list Z; p2_tx : list Z; p2_ty : list Z; p2_tr : list Z; p2_xd : list Z; p2_xs : list Z; p2_yd : list Z; p2_ys : list Z;
                      p2_cd : list Z; p2_cx : list Z; p2_cy : list Z; p2_bd : list Z; p2_bs : list Z; p2_lim : list Z }.
Definition x4 (q : Z * Z * Z) : Z * Z * Z * Z := (fst (fst q), snd (fst q), 0, snd q).
Definition y4 (q : Z * Z * Z) : Z * Z * Z * Z := (fst (fst q), 0, snd (fst q), snd q).
Definition t_d (q : Z * Z * Z * Z) := fst (fst (fst q)). Definition t_x (q : Z * Z * Z * Z) := snd (fst (fst q)).
Definition t_y (q : Z * Z * Z * Z) := snd (fst q). Definition t_r (q : Z * Z * Z * Z) := snd q.
(* lim: 1 for the contraction entries with a convolution limiter *)
Definition mk_par2 (xs ys b : list (Z * Z)) (t : list (Z * Z * Z * Z)) (c : list (Z * Z * Z)) (lim : list Z) : res par2 :=
  do xd <- arr4 1 (map fst xs); do xss <- arr4 0 (map snd xs); do yd <- arr4 1 (map fst ys); do yss <- arr4 0 (map snd ys);
  do bd <- arr4 1 (map fst b); do bs <- arr4 0 (map snd b);
  do td <- arr4 1 (map t_d t); do tx <- arr4 0 (map t_x t); do ty <- arr4 0 (map t_y t); do tr <- arr4 0 (map t_r t);
  do cd <- arr4 1 (map (fun q => fst (fst q)) c); do cx <- arr4 0 (map (fun q => snd (fst q)) c); do cy <- arr4 0 (map snd c); do l <- arr4 0 lim;
  Ok (Par2 td tx ty tr xd xss yd yss cd cx cy bd bs l).
(* the five-fold body for one transfer index: Einsum2.hpp:248-275 (no limits), :302-335 (limits), given the ranges of the contraction loops *)
Definition ein2_body (p : par2) (r x y : view) (xt yt rt : Z) (lo hi : list Z) (m : memR) : res memR :=
  do t <- forR (at0 lo) (at0 hi) (fun c0 t => forR (at1 lo) (at1 hi) (fun c1 t => forR (at2 lo) (at2 hi) (fun c2 t =>
    let xc := xt + c0 * at0 (p2_cx p) + c1 * at1 (p2_cx p) + c2 * at2 (p2_cx p) in
    let yc := yt + c0 * at0 (p2_cy p) + c1 * at1 (p2_cy p) + c2 * at2 (p2_cy p) in
    do u <- sum3 x xc (p2_xd p) (p2_xs p) m;
    do v <- sum3 y yc (p2_yd p) (p2_ys p) m;
    Ok (cadd t (cmul u v))) t) t) c0;
  bcast3 r rt (p2_bd p) (p2_bs p) t m.
(* add_einsum(r,x,y,params), Einsum2.hpp:228-278; note tstride_x[3] in yoffs_t and roffs_t *)
Definition ein2_loops (p : par2) (r x y : view) (m : memR) : res memR :=
  loop4 (p2_td p) (fun t0 t1 t2 t3 m =>
    let xt := t0 * at0 (p2_tx p) + t1 * at1 (p2_tx p) + t2 * at2 (p2_tx p) + t3 * at3 (p2_tx p) in
    let yt := t0 * at0 (p2_ty p) + t1 * at1 (p2_ty p) + t2 * at2 (p2_ty p) + t3 * at3 (p2_tx p) in
    let rt := t0 * at0 (p2_tr p) + t1 * at1 (p2_tr p) + t2 * at2 (p2_tr p) + t3 * at3 (p2_tx p) in
    ein2_body p r x y xt yt rt [0; 0; 0] (p2_cd p) m) m.
(* add_einsum_convo_back0, Einsum2.hpp:281-337 *)
Definition lim_lo (l c t k : Z) : Z := if l =? 0 then 0 else Z.max (c - 1 - (t - 1 - k)) 0.
Definition lim_hi (l c k : Z) : Z := if l =? 0 then c else Z.min c (k + 1).
Definition ein2_conv_loops (p : par2) (r x y : view) (m : memR) : res memR :=
  loop4 (p2_td p) (fun t0 t1 t2 t3 m =>
    let xt := t0 * at0 (p2_tx p) + t1 * at1 (p2_tx p) + t2 * at2 (p2_tx p) + t3 * at3 (p2_tx p) in
    let yt := t0 * at0 (p2_ty p) + t1 * at1 (p2_ty p) + t2 * at2 (p2_ty p) + t3 * at3 (p2_tx p) in
    let rt := t0 * at0 (p2_tr p) + t1 * at1 (p2_tr p) + t2 * at2 (p2_tr p) + t3 * at3 (p2_tx p) in
    ein2_body p r x y xt yt rt
      [lim_lo (at0 (p2_lim p)) (at0 (p2_cd p)) (at0 (p2_td p)) t0; lim_lo (at1 (p2_lim p)) (at1 (p2_cd p)) (at1 (p2_td p)) t1; lim_lo (at2 (p2_lim p)) (at2 (p2_cd p)) (at2 (p2_td p)) t2]
      [lim_hi (at0 (p2_lim p)) (at0 (p2_cd p)) t0; lim_hi (at1 (p2_lim p)) (at1 (p2_cd p)) t1; lim_hi (at2 (p2_lim p)) (at2 (p2_cd p)) t2] m) m.
(* the assertions shared by make_params, make_params_back0 and make_params_back1, Einsum2.hpp:118-123, :158-163, :198-203 *)
Definition ein2_sizes (F : form2) {A} (k : res A) : res A :=
  assrt (le3 (f2_xsum F)) (assrt (le3 (f2_ysum F)) (assrt (le3 (f2_rsum F))
    (assrt (length (f2_tr F) + length (f2_xr F) + length (f2_yr F) + length (f2_conv F) <=? 4)%nat
      (assrt (length (f2_xy F) + length (f2_conv F) <=? 3)%nat (assrt (length (f2_trip F) <=? 1)%nat k))))).
(* columns of the multivec of triples *)
Definition c01 (p : tri) : list Z * list Z := fst p.
Definition c02 (p : tri) : list Z * list Z := (fst (fst p), snd p).
Definition c12 (p : tri) : list Z * list Z := (snd (fst p), snd p).
(* make_params, Einsum2.hpp:105-142 *)
Definition ein2_params (F : form2) (r x y : view) : res par2 :=
  ein2_sizes F
    (do s1 <- p_sum (f2_xsum F) x; do s2 <- p_sum (f2_ysum F) y; do b <- p_sum (f2_rsum F) r;
     do t1 <- p_tr (f2_xr F) x r; do t2 <- p_tr (map c02 (f2_conv F)) x r; do t3 <- p_tr (f2_yr F) y r; do t4 <- p_tr12 (f2_tr F) x y r;
     do k1 <- p_con 1 (f2_xy F) x y; do k2 <- p_con 1 (map c01 (f2_conv F)) x y;
     mk_par2 s1 s2 b (map x4 t1 ++ map x4 t2 ++ map y4 t3 ++ t4) (k1 ++ k2) []).
(* make_params_back0, Einsum2.hpp:145-182 *)
Definition ein2_params_back0 (F : form2) (x r y : view) : res par2 :=
  ein2_sizes F
    (do s1 <- p_sum (f2_rsum F) r; do s2 <- p_sum (f2_ysum F) y; do b <- p_sum (f2_xsum F) x;
     do t1 <- p_tr (map swp (map c02 (f2_conv F))) r x; do t2 <- p_tr (map swp (f2_xr F)) r x; do t3 <- p_tr (map swp (f2_xy F)) y x;
     do t4 <- p_tr12 (map (fun p => (snd p, snd (fst p), fst (fst p))) (f2_tr F)) r y x;
     do k1 <- p_con (-1) (map swp (map c12 (f2_conv F))) r y; do k2 <- p_con 1 (map swp (f2_yr F)) r y;
     mk_par2 s1 s2 b (map x4 t1 ++ map x4 t2 ++ map y4 t3 ++ t4) (k1 ++ k2) (repeat 1 (length (f2_conv F)))).
(* make_params_back1, Einsum2.hpp:185-222 *)
Definition ein2_params_back1 (F : form2) (y r x : view) : res par2 :=
  ein2_sizes F
    (do s1 <- p_sum (f2_rsum F) r; do s2 <- p_sum (f2_xsum F) x; do b <- p_sum (f2_ysum F) y;
     do t1 <- p_tr (map swp (f2_yr F)) r y; do t2 <- p_tr (map c01 (f2_conv F)) x y; do t3 <- p_tr (f2_xy F) x y;
     do t4 <- p_tr12 (map (fun p => (snd p, fst (fst p), snd (fst p))) (f2_tr F)) r x y;
     do k1 <- p_con 1 (map swp (f2_xr F)) r x; do k2 <- p_con 1 (map swp (map c02 (f2_conv F))) r x;
     mk_par2 s1 s2 b (map x4 t1 ++ map y4 t2 ++ map y4 t3 ++ t4) (k1 ++ k2) []).
(* add_einsum, add_einsum_back0, add_einsum_back1, Einsum2.hpp:80-99 *)
Definition ein2_add (F : form2) (r x y : view) (m : memR) : res memR := do p <- ein2_params F r x y; ein2_loops p r x y m.
Definition ein2_back0 (F : form2) (x r y : view) (m : memR) : res memR :=
  do p <- ein2_params_back0 F x r y;
  if (0 <? length (f2_conv F))%nat then ein2_conv_loops p x r y m else ein2_loops p x r y m.
Definition ein2_back1 (F : form2) (y r x : view) (m : memR) : res memR := do p <- ein2_params_back1 F y r x; ein2_loops p y r x m.
(* operator()(x,y,rdims), Einsum2.hpp:43-73 *)
Definition ein2_call (F : form2) (x y : view) (rdims : list Z) (b : Z) (m : memR) : res (view * memR) :=
  assrt (length rdims =? length (f2_bc F))%nat
    (do D <- set_dims (f2_xids F) (vdims x) (repeat (-1) (Z.to_nat (f2_tail F)));
     do D <- set_dims (f2_yids F) (vdims y) D;
     do D <- foldM (fun i D => do id <- zget (f2_bc F) i; do d <- zget rdims i; vset id d D) (zrange (Z.of_nat (length (f2_bc F)))) D;
     do rd <- mapM (zget D) (f2_rids F);
     do rd <- foldM (fun p rd => do dx <- dim_of x (fst (fst p)); do dy <- dim_of y (snd (fst p));
                                 foldM (fun j rd => vset j (dx - dy + 1) rd) (snd p) rd) (f2_conv F) rd;
     let r := fresh_view b rd in
     do m <- ein2_add F r x y (alloc c0 b (asize rd) m); Ok (r, m)).
End Eval.
