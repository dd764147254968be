(* Model_Containers.v -- IntTensor (two-dimensional, growable), array_pool, hlists, map_of_lists,
   map_of_maps, double_indexed_map, bidirectional_map, multivec.  CPU (dev=0) branches only. *)
From Verif Require Import Base Map.
Local Open Scope Z_scope.

(* a heap array of int: None is an uninitialised cell.  Access out of bounds and use of an uninitialised
   value are undefined; copying an uninitialised cell is not counted as a use.  The arrays of the code
   have max(memsize,1) cells; the extra cell is never accessed and is left out. *)
Definition buf := list (option Z).
Definition blen (b : buf) : Z := Z.of_nat (length b).
Definition bnew (n : Z) : buf := repeat None (Z.to_nat n).
Definition bget (b : buf) (i : Z) : res Z := do o <- zget b i; match o with Some v => Ok v | None => UB end.
Fixpoint set_at {A} (i : nat) (v : A) (l : list A) : list A :=
  match l, i with [], _ => [] | _ :: l', O => v :: l' | x :: l', S i' => x :: set_at i' v l' end.
Definition bput (b : buf) (i : Z) (v : Z) : res buf :=
  if (0 <=? i) && (i <? blen b) then Ok (set_at (Z.to_nat i) (Some v) b) else UB.
(* arr[off+k]=v[k] for all k *)
Fixpoint bwrite (b : buf) (off : Z) (v : list Z) : res buf :=
  match v with [] => Ok b | x :: v' => do b' <- bput b off x; bwrite b' (off + 1) v' end.
(* vector R(len); R[k]=arr[off+k] *)
Fixpoint bread (b : buf) (off : Z) (len : nat) : res (list Z) :=
  match len with O => Ok [] | S n => do x <- bget b off; do r <- bread b (off + 1) n; Ok (x :: r) end.
(* std::copy(src,src+n,dst+at) into a buffer that does not alias src *)
Definition bcopy (src : buf) (n : Z) (dst : buf) (at_ : Z) : res buf :=
  if (0 <=? n) && (n <=? blen src) && (0 <=? at_) && (at_ + n <=? blen dst)
  then Ok (firstn (Z.to_nat at_) dst ++ firstn (Z.to_nat n) src ++ skipn (Z.to_nat (at_ + n)) dst)
  else if n =? 0 then Ok dst else UB.

(* ---- IntTensor with two dimensions, tensors/IntTensor.hpp: dims=(irows,icols), strides=(icols,1) as
   Gstrides(dims) computes them, memsize = length of ibuf. *)
Record itab := ITab { icols : Z; irows : Z; ibuf : buf }.
(* IntTensor(Gdims), :73-88 *)
Definition it_new (r c : Z) : itab := ITab c r (bnew (c * r)).
(* IntTensor(Gdims,fill_noalloc), :94 *)
Definition it_noalloc (r c : Z) : itab := ITab c r [].
(* capacity0(), :337-339; division by zero when there are no columns *)
Definition it_capacity (t : itab) : res Z := if icols t =? 0 then UB else Ok (Z.quot (blen (ibuf t)) (icols t)).
(* reserve0(n), :341-361 *)
Definition it_reserve (n : Z) (t : itab) : res itab :=
  do c <- it_capacity t;
  if n <=? c then Ok t else
  let m := n * icols t in let m := if m =? 0 then 1 else m in
  do b <- bcopy (ibuf t) (icols t * irows t) (bnew m) 0;
  Ok (ITab (icols t) (irows t) b).
(* resize0(n), :363-369 *)
Definition it_resize (n : Z) (t : itab) : res itab :=
  assrt (irows t <=? n)
    (do c <- it_capacity t;
     do t' <- (if c <? n then it_reserve n t else Ok t);
     Ok (ITab (icols t') n (ibuf t'))).
(* operator()(i0,i1), :494-498, and set(i0,i1,x), :569-573.  CNINE_CHECK_RANGE is empty unless
   CNINE_RANGE_CHECKING is defined; the arithmetic is what remains. *)
Definition it_get (t : itab) (i j : Z) : res Z := bget (ibuf t) (i * icols t + j).
Definition it_set (t : itab) (i j x : Z) : res itab :=
  do b <- bput (ibuf t) (i * icols t + j) x; Ok (ITab (icols t) (irows t) b).
(* row(i), :593-599 *)
Definition it_row (t : itab) (i : Z) : res (list Z) := bread (ibuf t) (i * icols t) (Z.to_nat (icols t)).
(* push_back(vector), :616-625 *)
Definition it_push (x : list Z) (t : itab) : res itab :=
  assrt (icols t =? Z.of_nat (length x))
    (let row := irows t in
     do c <- it_capacity t;
     do t <- (if c <=? row + 1 then it_reserve (2 * (row + 1)) t else Ok t);
     do b <- bwrite (ibuf t) (row * icols t) x;
     Ok (ITab (icols t) (row + 1) b)).
(* push_back(c,vector), :627-636 and push_back(c0,c1), :638-646: the same steps with the row given in
   pieces (the length assertion is on the assembled row) *)
Definition it_push1 (c : Z) (x : list Z) (t : itab) : res itab := it_push (c :: x) t.
Definition it_push2 (c0 c1 : Z) (t : itab) : res itab := it_push [c0; c1] t.
(* copy constructor, :177-190, and operator=, :251-270: capacity is trimmed to dims[0]*strides[0] *)
Definition it_copy (t : itab) : res itab :=
  do b <- bcopy (ibuf t) (icols t * irows t) (bnew (icols t * irows t)) 0;
  Ok (ITab (icols t) (irows t) b).
(* operator==, :581-587 *)
Definition it_eq (x y : itab) : res bool :=
  if negb ((icols x =? icols y) && (irows x =? irows y)) then Ok false else
  if negb (blen (ibuf x) =? blen (ibuf y)) then Ok false else
  (fix go (n : nat) (i : Z) : res bool :=
     match n with
     | O => Ok true
     | S n' => do a <- bget (ibuf x) i; do b <- bget (ibuf y) i; if a =? b then go n' (i + 1) else Ok false
     end) (length (ibuf x)) 0.

(* ---- array_pool, containers/array_pool.hpp (TYPE=int); memsize = length of amem *)
Record apool := APool { amem : buf; atail : Z; adir : itab }.
(* array_pool(), :77-78; array_pool(n), :80-81; array_pool(n,total,fill_reserve), :103-110 *)
Definition ap_new : apool := APool [] 0 (it_noalloc 0 2).
Definition ap_new_n (n : Z) : apool := APool [] 0 (it_new n 2).
Definition ap_new_reserve (n total : Z) : apool := APool (bnew total) 0 (it_new n 2).
(* reserve(n), :197-219 *)
Definition ap_reserve (n : Z) (p : apool) : res apool :=
  if n <=? blen (amem p) then Ok p
  else do b <- bcopy (amem p) (blen (amem p)) (bnew n) 0; Ok (APool b (atail p) (adir p)).
(* the growth test common to all push_backs *)
Definition ap_room (len : Z) (p : apool) : res apool :=
  if blen (amem p) <? atail p + len then ap_reserve (Z.max (2 * blen (amem p)) (atail p + len)) p else Ok p.
(* push_back(vector), :501-509; push_back(set), :524-535, with the set given as its sorted list *)
Definition ap_push (v : list Z) (p : apool) : res apool :=
  let len := Z.of_nat (length v) in
  do p <- ap_room len p;
  do b <- bwrite (amem p) (atail p) v;
  do d <- it_push2 (atail p) len (adir p);
  Ok (APool b (atail p + len) d).
(* push_back(len), :494-499 *)
Definition ap_push_raw (len : Z) (p : apool) : res apool :=
  do p <- ap_room len p;
  do d <- it_push2 (atail p) len (adir p);
  Ok (APool (amem p) (atail p + len) d).
(* size, :427; size_of, :457; max_size_of, :462-466 *)
Definition ap_size (p : apool) : Z := irows (adir p).
Definition ap_size_of (p : apool) (i : Z) : res Z := assrt (i <? ap_size p) (it_get (adir p) i 1).
Definition ap_max_size_of (p : apool) (i : Z) : res Z :=
  assrt (i <? ap_size p)
    (if i <? ap_size p - 1
     then do a <- it_get (adir p) (i + 1) 0; do b <- it_get (adir p) i 0; Ok (a - b)
     else do b <- it_get (adir p) i 0; Ok (atail p - b)).
(* operator()(i,j), :468-472; operator()(i), :480-488 *)
Definition ap_get (p : apool) (i j : Z) : res Z :=
  assrt (i <? ap_size p)
    (do len <- it_get (adir p) i 1; assrt (j <? len) (do a <- it_get (adir p) i 0; bget (amem p) (a + j))).
Definition ap_list (p : apool) (i : Z) : res (list Z) :=
  assrt (i <? ap_size p)
    (do a <- it_get (adir p) i 0; do len <- it_get (adir p) i 1;
     if len <? 0 then UB else bread (amem p) a (Z.to_nat len)).
(* push_back(i,v), :541-546 *)
Definition ap_push_at (i v : Z) (p : apool) : res apool :=
  assrt (i <? ap_size p)
    (do s <- ap_size_of p i; do ms <- ap_max_size_of p i;
     assrt (s <? ms)
       (do a <- it_get (adir p) i 0; do len <- it_get (adir p) i 1;
        do b <- bput (amem p) (a + len) v;
        do d <- it_set (adir p) i 1 (len + 1);
        Ok (APool b (atail p) d))).
(* copy constructor, :225-238, and operator=, :251-280 *)
Definition ap_copy (p : apool) : res apool :=
  do b <- bcopy (amem p) (atail p) (bnew (atail p)) 0;
  do d <- it_copy (adir p);
  Ok (APool b (atail p) d).
(* cat(list), :163-191; state of the loop is (a,R) *)
Definition ap_cat1 (p : apool) (st : Z * apool) : res (Z * apool) :=
  let '(a, R) := st in
  do d <- forZ (ap_size p) (fun i d =>
     do o <- it_get (adir p) i 0; do d <- it_set d (a + i) 0 (atail R + o);
     do l <- it_get (adir p) i 1; it_set d (a + i) 1 l) (adir R);
  do b <- bcopy (amem p) (atail p) (amem R) (atail R);
  Ok (a + ap_size p, APool b (atail R + atail p) d).
Definition ap_cat (l : list apool) : res apool :=
  let n := fold_right Z.add 0 (map ap_size l) in
  let s := fold_right Z.add 0 (map atail l) in
  do R <- ap_reserve s (ap_new_n n);
  do st <- foldM ap_cat1 l (0, R);
  Ok (snd st).
(* operator==, :597-608 *)
Definition ap_eq (x y : apool) : res bool :=
  if negb (ap_size x =? ap_size y) then Ok false else
  (fix go (n : nat) (i : Z) : res bool :=
     match n with
     | O => Ok true
     | S n' =>
         do len <- it_get (adir x) i 1; do ox <- it_get (adir x) i 0; do oy <- it_get (adir y) i 0;
         do leny <- it_get (adir y) i 1;
         if negb (len =? leny) then Ok false else
         do e <- (fix cells (k : nat) (j : Z) : res bool :=
           match k with
           | O => Ok true
           | S k' => do a <- bget (amem x) (ox + j); do b <- bget (amem y) (oy + j);
                     if a =? b then cells k' (j + 1) else Ok false
           end) (Z.to_nat len) 0;
         if e then go n' (i + 1) else Ok false
     end) (Z.to_nat (ap_size x)) 0.

(* ---- hlists, containers/hlists.hpp: an array_pool whose rows start with the head *)
(* push_back(x,vector), :190-199 *)
Definition hl_push (x : Z) (v : list Z) (p : apool) : res apool := ap_push (x :: v) p.
(* push_back(h,set), :201-211: i stays 0, every element is written to the same cell *)
Definition hl_push_set (h : Z) (s : list Z) (p : apool) : res apool :=
  let len := Z.of_nat (length s) + 1 in
  do p <- ap_room len p;
  do b <- bput (amem p) (atail p) h;
  do b <- foldM (fun x b => bput b (atail p + 1) x) s b;
  do d <- it_push2 (atail p) len (adir p);
  Ok (APool b (atail p + len) d).
(* constructors from heads and lengths, :40-50 (full=true) and :52-62 with fill_noalloc (full=false) *)
Definition hl_make (full : bool) (heads lengths : list Z) : res apool :=
  let n := Z.of_nat (length lengths) in
  let p := ap_new_reserve n (fold_right Z.add 0 lengths + n) in
  assrt (Z.of_nat (length heads) =? n)
    (forZ n (fun i p =>
       do h <- zget heads i; do len <- zget lengths i;
       do d <- it_set (adir p) i 0 (atail p);
       do d <- it_set d i 1 (if full then len + 1 else 1);
       do b <- bput (amem p) (atail p) h;
       Ok (APool b (atail p + (len + 1)) d)) p).
(* constructor from a map_of_lists, :64-77; the list is the map in iteration order *)
Definition hl_of_map (m : zmap (list Z)) : res apool :=
  let n := Z.of_nat (length m) in
  let ts := fold_right Z.add 0 (map (fun p => Z.of_nat (length (snd p))) m) in
  let p := ap_new_reserve n (n + ts) in
  do st <- foldM (fun e st => let '(i, p) := st in
    do d <- it_set (adir p) i 0 (atail p);
    do d <- it_set d i 1 (Z.of_nat (length (snd e)) + 1);
    do b <- bput (amem p) (atail p) (fst e);
    do b <- bwrite b (atail p + 1) (snd e);
    Ok (i + 1, APool b (atail p + (Z.of_nat (length (snd e)) + 1)) d)) m (0, p);
  Ok (snd st).
(* size_of, :102-105; head, :107-110; operator()(i,j), :123-127; operator()(i), :135-143; push_back(i,v), :217-219 *)
Definition hl_size_of (p : apool) (i : Z) : res Z := assrt (i <? ap_size p) (do l <- it_get (adir p) i 1; Ok (l - 1)).
Definition hl_head (p : apool) (i : Z) : res Z := assrt (i <? ap_size p) (do a <- it_get (adir p) i 0; bget (amem p) a).
Definition hl_get (p : apool) (i j : Z) : res Z :=
  assrt (i <? ap_size p)
    (do len <- it_get (adir p) i 1; assrt (j <? len - 1) (do a <- it_get (adir p) i 0; bget (amem p) (a + j + 1))).
Definition hl_list (p : apool) (i : Z) : res (list Z) :=
  assrt (i <? ap_size p)
    (do a <- it_get (adir p) i 0; do len <- it_get (adir p) i 1;
     if len - 1 <? 0 then UB else bread (amem p) (a + 1) (Z.to_nat (len - 1))).
Definition hl_push_at (i v : Z) (p : apool) : res apool := ap_push_at i v p.

(* ---- map_of_lists, containers/map_of_lists.hpp *)
Definition mol := zmap (list Z).
(* push_back, :78-82 *)
Definition mol_push (x y : Z) (m : mol) : mol :=
  match mfind x m with None => mset x [y] m | Some l => mset x (l ++ [y]) m end.
(* total/tsize, :57-69; for_each, :88-92: the calls made; for_each_in_list, :94-100 *)
Definition mol_tsize (m : mol) : Z := fold_right Z.add 0 (map (fun p => Z.of_nat (length (snd p))) m).
Definition mol_calls (m : mol) : list (Z * Z) := flat_map (fun p => map (pair (fst p)) (snd p)) m.
Definition mol_list (x : Z) (m : mol) : list Z := match mfind x m with None => [] | Some l => l end.

(* ---- map_of_maps, containers/map_of_maps.hpp *)
Definition mom := zmap (zmap Z).
Definition mom_row (i : Z) (m : mom) : zmap Z := match mfind i m with Some r => r | None => [] end.
(* set, :94-96: data[i][j]=x *)
Definition mom_set (i j x : Z) (m : mom) : mom := mset i (mset j x (mom_row i m)) m.
(* is_filled, :74-80; operator(), :82-88 (TYPE()=0) *)
Definition mom_filled (i j : Z) (m : mom) : bool :=
  match mfind i m with None => false | Some r => match mfind j r with None => false | Some _ => true end end.
Definition mom_get (i j : Z) (m : mom) : Z :=
  match mfind i m with None => 0 | Some r => match mfind j r with None => 0 | Some v => v end end.
(* size/nfilled, :60-72; for_each, :128-132 *)
Definition mom_size (m : mom) : Z := fold_right Z.add 0 (map (fun p => Z.of_nat (length (snd p))) m).
Definition mom_calls (m : mom) : list (Z * Z * Z) := flat_map (fun p => map (fun q => (fst p, fst q, snd q)) (snd p)) m.
(* subset_of, :111-122; operator==, :98-109 *)
Definition mom_subset (a b : mom) : bool :=
  forallb (fun p => match mfind (fst p) b with
    | None => false
    | Some r => forallb (fun q => match mfind (fst q) r with None => false | Some v => v =? snd q end) (snd p)
    end) a.
Definition mom_eq (a b : mom) : bool := mom_subset a b && mom_subset b a.

(* ---- double_indexed_map, containers/double_indexed_map.hpp.  for_each_in_columns, :108-112, calls
   make_cmap, :118-123, which assigns a row to an entry and does not compile for TYPE=int; the calls it
   would make are read off cmap. *)
Record dmap := DMap { rmap : mom; cmap : mom }.
Definition dm_new : dmap := DMap [] [].
(* set, :88-91 *)
Definition dm_set (i j x : Z) (m : dmap) : dmap := DMap (mom_set i j x (rmap m)) (mom_set j i x (cmap m)).
(* for_each_in_row, :103-106: rmap[x] creates an empty row; the calls, and the map afterwards *)
Definition dm_row_calls (i : Z) (m : dmap) : list (Z * Z) * dmap :=
  (mom_row i (rmap m), match mfind i (rmap m) with Some _ => m | None => DMap (mset i [] (rmap m)) (cmap m) end).
Definition dm_col_calls (j : Z) (m : dmap) : list (Z * Z) := mom_row j (cmap m).

(* ---- bidirectional_map, containers/bidirectional_map.hpp *)
Record bmap := BMap { fwd : zmap Z; bwd : zmap Z }.
Definition bm_new : bmap := BMap [] [].
(* emplace does nothing when the key is present *)
Definition memplace {V} (k : Z) (v : V) (m : zmap V) : zmap V := match mfind k m with Some _ => m | None => mset k v m end.
(* erase(key), :68-74; erase_backward(val), :76-82 *)
Definition bm_erase (k : Z) (m : bmap) : bmap :=
  match mfind k (fwd m) with None => m | Some v => BMap (merase k (fwd m)) (merase v (bwd m)) end.
Definition bm_erase_backward (v : Z) (m : bmap) : bmap :=
  match mfind v (bwd m) with None => m | Some k => BMap (merase k (fwd m)) (merase v (bwd m)) end.
(* insert(key,val), :52-62: fmap.erase(it) is undefined when erase_backward has already erased that entry *)
Definition bm_insert (k v : Z) (m : bmap) : res bmap :=
  match mfind k (fwd m) with
  | None => Ok (BMap (memplace k v (fwd m)) (memplace v k (bwd m)))
  | Some v' =>
      if v' =? v then Ok m else
      let m1 := bm_erase_backward v' m in
      match mfind k (fwd m1) with
      | None => UB
      | Some _ => let f := merase k (fwd m1) in Ok (BMap (memplace k v f) (memplace v k (bwd m1)))
      end
  end.

(* ---- multivec, containers/multivec.hpp *)
Definition mvec := list (list Z).
(* multivec(k), :48-51 *)
Definition mv_new (k : nat) : mvec := repeat [] k.
(* check_size, :78-83, and push_back, :85-99 *)
Definition mv_push (t : list Z) (m : mvec) : res mvec :=
  let m := match m with [] => mv_new (length t) | _ => m end in
  assrt (length m =? length t)%nat (Ok (map (fun p => fst p ++ [snd p]) (combine m t))).
(* size, :73-76; operator[], :101-106 *)
Definition mv_size (m : mvec) : Z := match m with [] => 0 | v :: _ => Z.of_nat (length v) end.
Fixpoint mv_get (m : mvec) (i : Z) : res (list Z) :=
  match m with [] => Ok [] | v :: m' => do x <- zget v i; do r <- mv_get m' i; Ok (x :: r) end.
