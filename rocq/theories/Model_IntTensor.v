(* Model_IntTensor.v -- IntTensor with any number of axes, tensors/IntTensor.hpp: construction, element access, copies,
   growth along the first axis, concatenation, comparison and rows.  CPU (dev=0) branches only; a tensor that is a view of
   another one (is_view) is left out, so that every array belongs to one tensor. *)
From Verif Require Import Base Map Model_Index Model_Tensor Model_Containers.
Local Open Scope Z_scope.

(* the fields dims, strides, memsize and arr, IntTensor.hpp:41-48.  narr is the whole array, with its max(memsize,1) cells;
   the null pointer is the empty array. *)
Record nten := NTen { nd : list Z; ns : list Z; nmem : Z; narr : buf }.

(* strides[0]*dims[0], as computed throughout IntTensor.hpp *)
Definition nt_size (t : nten) : res Z := do s <- zget (ns t) 0; do d <- zget (nd t) 0; Ok (s * d).
(* new int[std::max(n,1)], IntTensor.hpp:80 and the other allocations *)
Definition narray (n : Z) : buf := bnew (Z.max n 1).
(* Gdims(const int i0), include/Gdims.hpp:64-65, is BASE(i0), and Gvec takes over the constructors of std::vector
   (include/gvectr.hpp:30): vector(i0), a list of i0 zeros *)
Definition gdims_int (i0 : Z) : list Z := repeat 0 (Z.to_nat i0).

(* IntTensor(), IntTensor.hpp:68 *)
Definition nt_null : nten := NTen [] [] 0 [].
(* IntTensor(dims), :73-88, and IntTensor(dims,fill_raw), :97-98: strides(_dims) is Gstrides(dims), include/Gstrides.hpp:77-85,
   which asserts that there is an axis.  The validity of dims (only checked with CNINE_RANGE_CHECKING) is left to the caller. *)
Definition nt_new (dims : list Z) : res nten :=
  assrt (0 <? Z.of_nat (length dims))
    (let t := NTen dims (strides_of 1 dims) 0 [] in
     do m <- nt_size t;
     Ok (NTen dims (ns t) m (narray m))).
(* IntTensor(dims,fill_noalloc), :94-95 *)
Definition nt_noalloc (dims : list Z) : res nten :=
  assrt (0 <? Z.of_nat (length dims)) (Ok (NTen dims (strides_of 1 dims) 0 [])).
(* arr[i]=f(i) for i=0..n-1, IntTensor.hpp:103, :110, :117, :475: std::fill or a loop *)
Definition nfill (f : Z -> Z) (n : Z) (b : buf) : res buf := forZ n (fun i b => bput b i (f i)) b.
(* IntTensor(dims,fill_zero), (dims,fill_ones), (dims,fill_sequential), :100-119, and zero, zeros, ones, sequential, zeros_like,
   :133-161: the cells are 0, 1 or i *)
Definition nt_filled (f : Z -> Z) (dims : list Z) : res nten :=
  do t <- nt_new dims;
  do n <- nt_size t;
  do b <- nfill f n (narr t);
  Ok (NTen (nd t) (ns t) (nmem t) b).
Definition nt_zeros (dims : list Z) : res nten := nt_filled (fun _ => 0) dims.
Definition nt_ones (dims : list Z) : res nten := nt_filled (fun _ => 1) dims.
Definition nt_sequential (dims : list Z) : res nten := nt_filled (fun i => i) dims.

(* ix(strides), include/Gindex.hpp:116-122 *)
Definition nt_offs (t : nten) (ix : list Z) : res Z := assrt (length ix <=? length (ns t))%nat (Ok (dot (ns t) ix)).
(* operator()(ix), get(ix), set(ix,x), IntTensor.hpp:483-486, :520-523, :558-561 *)
Definition nt_get (t : nten) (ix : list Z) : res Z := do o <- nt_offs t ix; bget (narr t) o.
Definition nt_set (ix : list Z) (x : Z) (t : nten) : res nten :=
  do o <- nt_offs t ix; do b <- bput (narr t) o x; Ok (NTen (nd t) (ns t) (nmem t) b).
(* i0<0 || i0>=dims[0] || i1<0 || ...: true when some index is refused; dims[j] is read only if it is reached *)
Fixpoint nt_outside (ix dims : list Z) : res bool :=
  match ix with
  | [] => Ok false
  | i :: ix' => if i <? 0 then Ok true else
                match dims with [] => UB | d :: ds => if d <=? i then Ok true else nt_outside ix' ds end
  end.
(* the CNINE_CHECK_RANGE of the accessors with one to five ints; the ones with five ints compare dims.size() with 4,
   IntTensor.hpp:514, :551 *)
Definition nt_refused (t : nten) (ix : list Z) : res bool :=
  if negb (length (nd t) =? (if length ix =? 5 then 4 else length ix))%nat then Ok true else nt_outside ix (nd t).
(* operator()(i0,..), get(i0,..), set(i0,..,x), IntTensor.hpp:488-518, :525-555, :563-579.  rc says whether CNINE_RANGE_CHECKING is
   defined; without it a stride that is not there is read past the end of the list. *)
Definition nt_geti (rc : bool) (t : nten) (ix : list Z) : res Z :=
  do e <- (if rc then nt_refused t ix else Ok false);
  if e then Throw else if (length ix <=? length (ns t))%nat then bget (narr t) (dot (ns t) ix) else UB.
Definition nt_seti (rc : bool) (ix : list Z) (x : Z) (t : nten) : res nten :=
  do e <- (if rc then nt_refused t ix else Ok false);
  if e then Throw else
  if (length ix <=? length (ns t))%nat
  then do b <- bput (narr t) (dot (ns t) ix) x; Ok (NTen (nd t) (ns t) (nmem t) b) else UB.

(* IntTensor(vector<int>), IntTensor.hpp:167-171: the shape is Gdims(v.size()) *)
Definition nt_of_vector (rc : bool) (v : list Z) : res nten :=
  do t <- nt_new (gdims_int (Z.of_nat (length v)));
  forZ (Z.of_nat (length v)) (fun i t => do x <- zget v i; nt_seti rc [i] x t) t.

(* the copy constructors, :177-190, :192-204; the array may be null *)
Definition nt_copy (x : nten) : res nten :=
  do m <- nt_size x;
  do b <- bcopy (narr x) m (narray m) 0;
  Ok (NTen (nd x) (ns x) m b).
(* IntTensor(x,dev) and to_device(dev) for dev=0, :206-232, :320-322 *)
Definition nt_copy_dev (x : nten) : res nten :=
  do m <- nt_size x;
  let m := if m =? 0 then 1 else m in
  do b <- bcopy (narr x) m (narray m) 0;
  Ok (NTen (nd x) (ns x) m b).
(* operator=(const IntTensor&), :251-270, x another tensor: the old array is deleted, the rest is the copy constructor *)
Definition nt_assign (o x : nten) : res nten := nt_copy x.
(* t=t: arr is deleted and replaced by a new array before x.arr, the same member, is read; the new array is copied onto itself *)
Definition nt_assign_self (t : nten) : res nten := do m <- nt_size t; Ok (NTen (nd t) (ns t) m (narray m)).
(* IntTensor(IntTensor&&), :242-249: the new tensor and what is left of x *)
Definition nt_move (x : nten) : nten * nten := (x, NTen (nd x) (ns x) 0 []).
(* operator=(IntTensor&&), :272-284, for another tensor and for the tensor itself *)
Definition nt_move_assign (o x : nten) : nten * nten := (x, NTen (nd x) (ns x) (nmem x) []).
Definition nt_move_self (t : nten) : nten := NTen (nd t) (ns t) (nmem t) [].

(* capacity0(), reserve0(n), resize0(n), :337-369 *)
Definition nt_capacity (t : nten) : res Z := do s <- zget (ns t) 0; cdiv (nmem t) s.
Definition nt_reserve (n : Z) (t : nten) : res nten :=
  do c <- nt_capacity t;
  if n <=? c then Ok t else
  do s <- zget (ns t) 0;
  let m := n * s in let m := if m =? 0 then 1 else m in
  do a <- nt_size t;
  do b <- bcopy (narr t) a (narray m) 0;
  Ok (NTen (nd t) (ns t) m b).
(* dims[0]=n, IntTensor.hpp:368, :656; the strides stay as they are *)
Definition nt_setd0 (n : Z) (t : nten) : res nten :=
  match nd t with [] => UB | _ :: ds => Ok (NTen (n :: ds) (ns t) (nmem t) (narr t)) end.
Definition nt_resize (n : Z) (t : nten) : res nten :=
  do d <- zget (nd t) 0;
  assrt (d <=? n)
    (do c <- nt_capacity t;
     do t <- (if c <? n then nt_reserve n t else Ok t);
     nt_setd0 n t).
(* push_back_slice0(x), :648-664; the assertions compare dims[i+1] with x.dims[i] after the number of axes *)
Definition nt_push_slice (x : nten) (t : nten) : res nten :=
  assrt (length (nd t) =? S (length (nd x)))%nat
   (assrt (forallb (fun p => fst p =? snd p) (combine (tl (nd t)) (nd x)))
     (do c <- nt_capacity t;
      do d <- zget (nd t) 0;
      do t <- (if c <? d + 1 then nt_reserve (2 * (d + 1)) t else Ok t);
      do t <- nt_setd0 (d + 1) t;
      do s <- zget (ns t) 0;
      do b <- bcopy (narr x) s (narr t) (d * s);
      Ok (NTen (nd t) (ns t) (nmem t) b))).

(* Gtensor<int>: its shape and its array of dims.asize() cells in row-major order, include/Gtensor.hpp:46-92 *)
Record gten := GTen { gtd : list Z; gta : buf }.
(* IntTensor(Gtensor), :375-384: arr[i]=x.arr[i] for i<strides[0]*dims[0]; the entries are read *)
Definition nt_of_gtensor (x : gten) : res nten :=
  do t <- nt_new (gtd x);
  do n <- nt_size t;
  do b <- forZ n (fun i b => do v <- bget (gta x) i; bput b i v) (narr t);
  Ok (NTen (nd t) (ns t) (nmem t) b).
(* gtensor(), :386-394 *)
Definition nt_gtensor (t : nten) : res gten :=
  do n <- nt_size t;
  do b <- forZ n (fun i b => do v <- bget (narr t) i; bput b i v) (bnew (asize (nd t)));
  Ok (GTen (nd t) b).

(* cat(list), :396-420: R has the shape of the first tensor with the number of rows of all; a negative or wrong number of cells is
   not looked for *)
Definition nt_cat (l : list nten) : res nten :=
  assrt (0 <? Z.of_nat (length l))
    (do n <- foldM (fun p n => do d <- zget (nd p) 0; Ok (n + d)) l 0;
     do p <- zget l 0;
     do D <- match nd p with [] => UB | _ :: ds => Ok (n :: ds) end;
     do R <- nt_new D;
     do ' (b, _) <- foldM (fun p '(b, o) => do b <- bcopy (narr p) (asize (nd p)) b o; Ok (b, o + asize (nd p))) l (narr R, 0);
     Ok (NTen (nd R) (ns R) (nmem R) b)).

(* set(x), :464-470: CNINE_DIMS_SAME throws only when range checking is compiled in (rc) *)
Definition nt_set_from (rc : bool) (x t : nten) : res nten :=
  if rc && negb (if list_eq_dec Z.eq_dec (nd x) (nd t) then true else false) then Throw else
  do m <- nt_size t;
  do b <- bcopy (narr x) m (narr t) 0;
  Ok (NTen (nd t) (ns t) (nmem t) b).
(* set_zero(), :473-477 *)
Definition nt_set_zero (t : nten) : res nten :=
  do m <- nt_size t; do b <- nfill (fun _ => 0) m (narr t); Ok (NTen (nd t) (ns t) (nmem t) b).

(* operator==, :581-587 *)
(* its loop over the n cells from i on, :584-585 *)
Fixpoint beq_upto (n : nat) (i : Z) (x y : buf) : res bool :=
  match n with
  | O => Ok true
  | S n' => do a <- bget x i; do b <- bget y i; if a =? b then beq_upto n' (i + 1) x y else Ok false
  end.
Definition nt_eq (x y : nten) : res bool :=
  if list_eq_dec Z.eq_dec (nd x) (nd y) then
    if nmem x =? nmem y then beq_upto (Z.to_nat (nmem x)) 0 (narr x) (narr y) else Ok false
  else Ok false.

(* row(i,beg), :601-607, with its own range check; vector(n) of a negative n throws *)
Definition nt_row_from (rc : bool) (t : nten) (i beg : Z) : res (list Z) :=
  do e <- (if rc then if negb (length (nd t) =? 2)%nat then Ok true else nt_outside [i] (nd t) else Ok false);
  if e then Throw else
  do d <- zget (nd t) 1;
  if d - beg <? 0 then Throw else
  mapM (fun j => nt_geti rc t [i; j + beg]) (zrange (d - beg)).
(* row(i), :593-599 *)
Definition nt_row (rc : bool) (t : nten) (i : Z) : res (list Z) := nt_row_from rc t i 0.
(* set_row(i,list), :609-614 *)
Definition nt_set_row (rc : bool) (i : Z) (l : list Z) (t : nten) : res nten :=
  assrt (length (nd t) =? 2)%nat
    (do ' (t, _) <- foldM (fun x '(t, j) => do t <- nt_seti rc [i; j] x t; Ok (t, j + 1)) l (t, 0); Ok t).
