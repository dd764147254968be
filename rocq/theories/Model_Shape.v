(* Model_Shape.v -- stride vectors of class Gstrides (include/Gstrides.hpp), and the parts of shapes (include/Gdims.hpp), of
   the list class below them (include/gvectr.hpp) and of multi-indices (include/Gindex.hpp) that Model_Index leaves out.
   All are lists of Z; int and size_t are unbounded.  The functions that fill a fresh vector in loops are modelled by the same
   loops.  chk says whether assert is compiled in; CNINE_ASSRT always is (include/Cnine_base.hpp:49-50). *)
From Verif Require Import Base Model_Index Model_View Model_Tensor Model_Groups.
Local Open Scope Z_scope.

Notation zlen l := (Z.of_nat (length l)).
(* vector<int>(k): zeros; a negative k becomes a huge size_t and std::length_error is thrown *)
Definition raw (k : Z) : res (list Z) := if k <? 0 then Throw else Ok (repeat 0 (Z.to_nat k)).
(* for(int i=0; i<n; i++) R[r0+i]=x[x0+i] *)
Definition copy_in (n : Z) (x : list Z) (x0 : Z) (r0 : Z) (R : list Z) : res (list Z) :=
  forZ n (fun i R => do a <- zget x (x0 + i); vset (r0 + i) a R) R.
(* the same with a bound n that is a size_t difference: below zero it wraps around and the loop leaves the vectors *)
Definition copy_to (n : Z) (x : list Z) (x0 : Z) (r0 : Z) (R : list Z) : res (list Z) :=
  if n <? 0 then UB else copy_in n x x0 r0 R.

(* ---- Gstrides: construction ---- *)
(* Gstrides(i0), (i0,i1), .. (i0,..,i4), include/Gstrides.hpp:37-65: a vector of k entries, then one assignment per argument *)
Definition gs_put (k : Z) (xs : list Z) : res (list Z) := do R <- raw k; copy_in (zlen xs) xs 0 0 R.
Definition gs_1 (a : Z) : res (list Z) := gs_put 1 [a].
Definition gs_2 (a b : Z) : res (list Z) := gs_put 2 [a; b].
Definition gs_3 (a b c : Z) : res (list Z) := gs_put 3 [a; b; c].
Definition gs_4 (a b c d : Z) : res (list Z) := gs_put 4 [a; b; c; d].
Definition gs_5 (a b c d e : Z) : res (list Z) := gs_put 5 [a; b; c; d; e].
(* Gstrides(i0,..,i5), :67-74: vector<int>(5), six assignments *)
Definition gs_6 (a b c d e f : Z) : res (list Z) := gs_put 5 [a; b; c; d; e; f].
(* Gstrides(dims,s0), :77-85 *)
Definition gs_new (chk : bool) (dims : list Z) (s0 : Z) : res (list Z) :=
  let k := zlen dims in
  passert chk (0 <? k)
    (do R <- raw k;
     do R <- vset (k - 1) s0 R;
     foldM (fun i R => do s <- zget R (i + 1); do d <- zget dims (i + 1); vset i (s * d) R) (rev (zrange (k - 1))) R).

(* ---- Gstrides: access ---- *)
(* operator()(i), :94-97; Gvec::operator()(i), include/gvectr.hpp:80-83 *)
Definition at_end (s : list Z) (i : Z) : res Z := if i <? 0 then zget s (zlen s + i) else zget s i.
(* back(i), :99-101; Gvec::back(i), include/gvectr.hpp:85-87 *)
Definition at_back (s : list Z) (i : Z) : res Z := zget s (zlen s - 1 - i).
(* is_regular(dims), :103-112: from the last axis on, this[i]!=t returns false; t*=dims[i] *)
Definition gs_regular (s dims : list Z) : res bool :=
  assrt (length s =? length dims)%nat
    (do ' (_, ok) <- foldM (fun i (st : Z * bool) => let '(t, ok) := st in
        if ok then do a <- zget s i; if a =? t then do d <- zget dims i; Ok (t * d, true) else Ok (t, false) else Ok (t, false))
       (rev (zrange (zlen s))) (1, true);
     Ok ok).
(* is_contiguous(dims), :114-133: as often as there are positive strides, the first entry equal to t is found and zeroed *)
Fixpoint first_eq (t : Z) (v : list Z) : option nat :=
  match v with [] => None | x :: v' => if x =? t then Some 0%nat else option_map S (first_eq t v') end.
Fixpoint gs_eat (n : nat) (t : Z) (v dims : list Z) : res bool :=
  match n with
  | O => Ok true
  | S n' => match first_eq t v with
            | None => Ok false
            | Some a => do d <- vget dims a; gs_eat n' (t * d) (set_nth a 0 v) dims
            end
  end.
Definition gs_contig (s dims : list Z) : res bool :=
  assrt (length s =? length dims)%nat
    (do r <- gs_regular s dims;
     if r then Ok true else gs_eat (length (filter (fun x => 0 <? x) s)) 1 s dims).
(* memsize(dims), :135-141 *)
Definition gs_memsize (s dims : list Z) : res Z :=
  assrt (length s =? length dims)%nat
    (forZ (zlen s) (fun i t => do a <- zget s i; do d <- zget dims i; Ok (Z.max t (a * d))) 0).
(* operator()(ix), :143-149 *)
Definition gs_call (s ix : list Z) : res Z :=
  assrt (length ix <=? length s)%nat (forZ (zlen ix) (fun i t => do a <- zget s i; do b <- zget ix i; Ok (t + a * b)) 0).
(* offs(i0), .. offs(i0,..,i3), :151-165: no check of the number of arguments *)
Definition gs_offs (s ix : list Z) : res Z := forZ (zlen ix) (fun i t => do a <- zget s i; do b <- zget ix i; Ok (t + b * a)) 0.
(* combine(v), :167-174: p<size() compares an int with a size_t *)
Definition gs_combine (chk : bool) (s v : list Z) : res Z :=
  foldM (fun p t => passert chk (below p s) (do a <- zget s p; Ok (t + a))) v 0.

(* ---- Gstrides: operations ---- *)
(* fuse(a,n), :180-185 *)
Definition gs_fuse (a n : Z) (s : list Z) : res (list Z) :=
  do R <- raw (zlen s - n + 1);
  do R <- copy_in a s 0 0 R;
  copy_to (zlen s - (a + n - 1)) s (a + n - 1) a R.
(* remove(j), :187-202: j<size() compares an int with a size_t, so a negative j does not pass *)
Definition gs_remove (chk : bool) (j : Z) (s : list Z) : res (list Z) :=
  passert chk (below j s)
    (if zlen s =? 1 then Ok [1]
     else foldM (fun i R => if i =? (if j <? 0 then zlen s + j else j) then Ok R else do a <- zget s i; Ok (R ++ [a])) (zrange (zlen s)) []).
(* append(s), :204-208 *)
Definition gs_append (x : Z) (s : list Z) : list Z := s ++ [x].
(* chunk(beg,n), :210-216 *)
Definition gs_chunk (beg n : Z) (s : list Z) : res (list Z) :=
  let n := if n =? -1 then zlen s - beg else n in
  do R <- raw n; copy_in n s beg 0 R.
(* offs(j,source), :218-227: r=j/source[i]; t+=this[i]*r; j-=r*source[i] *)
Definition gs_convert (chk : bool) (j : Z) (source s : list Z) : res Z :=
  passert chk (length source =? length s)%nat
    (do ' (_, t) <- forZ (zlen s) (fun i (st : Z * Z) => let '(j, t) := st in
        do o <- zget source i; do r <- cdiv j o; do a <- zget s i; Ok (j - r * o, t + a * r)) (j, 0);
     Ok t).

(* ---- shapes of products: include/Gdims.hpp ---- *)
(* the loops of Mprod_AT, Mprod_TA, Mprod_TT, include/Gdims.hpp:256-275: R has x.size()+y.size()-2 entries; x is read from x0 on
   and y from y0 on; size()-1 is a size_t *)
Definition mprod_loops (x0 y0 : Z) (x y : list Z) : res (list Z) :=
  do R <- raw (zlen x + zlen y - 2);
  do R <- copy_to (zlen x - 1) x x0 0 R;
  copy_to (zlen y - 1) y y0 (zlen x - 1) R.
(* Mprod, :249-254, again as loops (Model_Ops.dims_mprod is its closed form) *)
Definition gd_mprod := mprod_loops 0 1.
Definition gd_mprod_AT := mprod_loops 0 0.
Definition gd_mprod_TA := mprod_loops 1 1.
Definition gd_mprod_TT := mprod_loops 1 0.
(* mvprod, :277-286: y.size()==d with d an int converted to size_t *)
Definition gd_mvprod (x y : list Z) : res (list Z) :=
  let d := zlen x - 1 in
  assrt (zlen y =? d)
    (do a <- vchunk 0 (d - 1) x; do b <- vchunk 0 (d - 1) y;
     assrt (eqlb a b)
       (do p <- zget x d; do q <- zget y (d - 1);
        assrt (p =? q)
          (do R <- raw d;
           do R <- copy_in (d - 1) x 0 0 R;
           do z <- zget x (d - 1); vset (d - 1) z R))).
(* transpose, :222-225 *)
Definition gd_transpose (chk : bool) (x : list Z) : res (list Z) :=
  passert chk (zlen x =? 2) (do b <- zget x 1; do a <- zget x 0; Ok [b; a]).
(* convolve, :227-233 *)
Definition gd_convolve (chk : bool) (x y : list Z) : res (list Z) :=
  passert chk (zlen x =? zlen y)
    (forZ (zlen x) (fun i R => do a <- zget R i; do b <- zget y i; vset i (a - (b - 1)) R) x).
(* unsqueeze(d), :209-211 *)
Definition gd_unsqueeze (d : Z) (x : list Z) : res (list Z) := vinsert d 1 x.

(* ---- joining lists: include/Gdims.hpp and include/gvectr.hpp ---- *)
(* Gdims(d1,d2), include/Gdims.hpp:98-102 *)
Definition gd_join (x y : list Z) : res (list Z) :=
  do R <- raw (zlen x + zlen y); do R <- copy_in (zlen x) x 0 0 R; copy_in (zlen y) y 0 (zlen x) R.
(* Gvec(x,y), include/gvectr.hpp:44-48; Gvec(x,v,y), :50-55, used by Gdims(d1,v,d2), include/Gdims.hpp:131-132; Gvec(b,x,y), :57-62 *)
Definition gv_join := gd_join.
Definition gv_mid (x : list Z) (v : Z) (y : list Z) : res (list Z) :=
  do R <- raw (zlen x + zlen y + 1); do R <- copy_in (zlen x) x 0 0 R; do R <- copy_in (zlen y) y 0 (zlen x + 1) R; vset (zlen x) v R.
Definition gv_front (b : Z) (x y : list Z) : res (list Z) :=
  do R <- raw (zlen x + zlen y + 1); do R <- vset 0 b R; do R <- copy_in (zlen x) x 0 1 R; copy_in (zlen y) y 0 (zlen x + 1) R.
(* Gdims(list of lists), include/Gdims.hpp:446-454: n is the total length, then one entry after the other *)
Definition gd_concat (ls : list (list Z)) : res (list Z) :=
  do R <- raw (fold_left (fun n p => n + zlen p) ls 0);
  do ' (R, _) <- foldM (fun p (st : list Z * Z) =>
      foldM (fun q (st : list Z * Z) => let '(R, i) := st in do R <- vset i q R; Ok (R, i + 1)) p st) ls (R, 0);
  Ok R.
(* extend(x), include/Gdims.hpp:239-243 *)
Definition gd_extend (x y : list Z) : list Z := fold_left (fun r p => r ++ [p]) y x.
(* static cat(..), include/gvectr.hpp:222-249: the arguments are integers or lists *)
Definition gv_cat_args (a0 : Z + list Z) (args : list (Z + list Z)) : list Z :=
  fold_left (fun v a => match a with inl d => v ++ [d] | inr l => fold_left (fun v d => v ++ [d]) l v end)
    args (match a0 with inl d => [d] | inr l => l end).
(* insert(j,list), include/gvectr.hpp:147-153, and insert(j,n,x), :155-162: std::copy with j<0 or j>size() is out of range *)
Definition gv_insert_list (j : Z) (x : list Z) (l : list Z) : res (list Z) :=
  if (j <? 0) || (zlen l <? j) then UB
  else do R <- raw (zlen l + zlen x); do R <- copy_in j l 0 0 R; do R <- copy_in (zlen x) x 0 j R; copy_in (zlen l - j) l j (j + zlen x) R.
Definition gv_insert_n (j n x : Z) (l : list Z) : res (list Z) :=
  if (j <? 0) || (zlen l <? j) then UB
  else do R <- raw (zlen l + n); do R <- copy_in j l 0 0 R; do R <- copy_in (zlen l - j) l j (j + n) R;
       forZ n (fun i R => vset (j + i) x R) R.

(* ---- entries of a list: include/gvectr.hpp ---- *)
(* set_back(x), :94-97, and set_back(i,x), :99-102 *)
Definition gv_set_back (i x : Z) (l : list Z) : res (list Z) := vset (zlen l - 1 - i) x l.
(* first, :104-106, and last, :108-110 *)
Definition gv_first (l : list Z) : res Z := zget l 0.
Definition gv_last (l : list Z) : res Z := zget l (zlen l - 1).
(* max, :116-118, and min, :120-122: std::max_element of an empty range is end(), dereferenced *)
Definition gv_max (l : list Z) : res Z :=
  match l with [] => UB | a :: r => Ok (fold_left (fun m x => if m <? x then x else m) r a) end.
Definition gv_min (l : list Z) : res Z :=
  match l with [] => UB | a :: r => Ok (fold_left (fun m x => if x <? m then x else m) r a) end.
(* operator*(x), :124-129 *)
Definition gv_times (x : Z) (l : list Z) : res (list Z) :=
  forZ (zlen l) (fun i R => do a <- zget l i; vset i (a * x) R) l.
(* to_vector, :68-74, Gdims::as_int64, include/Gdims.hpp:148-153, and to_vec, :462-465: the entries, converted *)
Definition gv_to_vector (l : list Z) : res (list Z) := do R <- raw (zlen l); copy_in (zlen l) l 0 0 R.

(* ---- multi-indices: include/Gindex.hpp ---- *)
(* Gindex(vector), :42-44: negative entries are dropped *)
Definition gi_of (x : list Z) : list Z := fold_left (fun r p => if 0 <=? p then r ++ [p] else r) x [].
(* cat(y), :146-151 *)
Definition gi_cat (x y : list Z) : res (list Z) := gd_join x y.
(* operator()(strides), :116-122 *)
Definition gi_dot (chk : bool) (ix s : list Z) : res Z :=
  passert chk (length ix <=? length s)%nat (forZ (zlen ix) (fun i t => do b <- zget ix i; do a <- zget s i; Ok (t + b * a)) 0).
(* operator==, :170-175 *)
Definition gi_eq (x y : list Z) : res bool :=
  if negb (length x =? length y)%nat then Ok false
  else forZ (zlen x) (fun i (ok : bool) => if ok then do a <- zget x i; do b <- zget y i; Ok (a =? b) else Ok false) true.
