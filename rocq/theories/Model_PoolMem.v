(* Model_PoolMem.v -- array_pool as an object that owns memory: construction, growth, copies, moves, views,
   destruction and to_tensor (containers/array_pool.hpp).  CPU (dev=0) branches only; gpu_clone is left out. *)
From Verif Require Import Base Map Model_Containers.
Local Open Scope Z_scope.

(* The heap of integer arrays: None is an array that was never allocated or has been deleted.  pnext is the
   next unused name, so no name is handed out twice (the allocator's reuse of addresses is left out). *)
Record pheap := PHeap { parrs : Z -> option buf; pnext : Z }.
Definition pheap0 : pheap := PHeap (fun _ => None) 0.
(* the fields arr, memsize, tail, dir, is_view, array_pool.hpp:45-55; arr=None is the null pointer.  The array
   of dir belongs to dir alone, so dir is kept as a value; a moved-from IntTensor keeps its dims and has no array. *)
Record pobj := PObj { parr : option Z; pmem : Z; ptail : Z; pdir : itab; pview : bool }.

(* new TYPE[max(n,1)] holding b *)
Definition palloc (b : buf) (h : pheap) : Z * pheap :=
  (pnext h, PHeap (fun a => if a =? pnext h then Some b else parrs h a) (pnext h + 1)).
(* delete[] arr; a null pointer may be deleted, an array may not be deleted twice *)
Definition pfree (a : option Z) (h : pheap) : res pheap :=
  match a with
  | None => Ok h
  | Some i => match parrs h i with
              | Some _ => Ok (PHeap (fun a => if a =? i then None else parrs h a) (pnext h))
              | None => UB
              end
  end.
(* the cells reachable through arr: none through a null or dangling pointer, so every access is undefined *)
Definition pcells (a : option Z) (h : pheap) : buf :=
  match a with None => [] | Some i => match parrs h i with Some b => b | None => [] end end.
(* the array at arr after some of its cells were written *)
Definition pstore (a : option Z) (b : buf) (h : pheap) : pheap :=
  match a with
  | None => h
  | Some i => match parrs h i with
              | Some _ => PHeap (fun a => if a =? i then Some b else parrs h a) (pnext h)
              | None => h
              end
  end.
(* what the reading members of the class see *)
Definition pool_at (o : pobj) (h : pheap) : apool := APool (pcells (parr o) h) (ptail o) (pdir o).

(* array_pool(), array_pool.hpp:77-78 *)
Definition po_new : pobj := PObj None 0 0 (it_noalloc 0 2) false.
(* ~array_pool(), array_pool.hpp:66-71 *)
Definition po_delete (o : pobj) (h : pheap) : res pheap := if pview o then Ok h else pfree (parr o) h.
(* reserve(n), array_pool.hpp:197-219; the old array is deleted also when it belongs to another pool *)
Definition po_reserve (n : Z) (o : pobj) (h : pheap) : res (pobj * pheap) :=
  if n <=? pmem o then Ok (o, h) else
  do b <- match parr o with None => Ok (bnew n) | Some _ => bcopy (pcells (parr o) h) (pmem o) (bnew n) 0 end;
  do h <- pfree (parr o) h;
  let '(a, h) := palloc b h in
  Ok (PObj (Some a) n (ptail o) (pdir o) (pview o), h).
(* push_back(vector), array_pool.hpp:501-509 *)
Definition po_push (v : list Z) (o : pobj) (h : pheap) : res (pobj * pheap) :=
  let len := Z.of_nat (length v) in
  do ' (o, h) <- (if pmem o <? ptail o + len then po_reserve (Z.max (2 * pmem o) (ptail o + len)) o h else Ok (o, h));
  do b <- bwrite (pcells (parr o) h) (ptail o) v;
  do d <- it_push2 (ptail o) len (pdir o);
  Ok (PObj (parr o) (pmem o) (ptail o + len) d (pview o), pstore (parr o) b h).
(* set(i,j,v), array_pool.hpp:474-478 *)
Definition po_set (i j v : Z) (o : pobj) (h : pheap) : res pheap :=
  assrt (i <? irows (pdir o))
    (do len <- it_get (pdir o) i 1;
     assrt (j <? len)
       (do a <- it_get (pdir o) i 0;
        do b <- bput (pcells (parr o) h) (a + j) v;
        Ok (pstore (parr o) b h))).
(* array_pool(const array_pool&), array_pool.hpp:225-238, with dir=x.dir, IntTensor.hpp:251-270 *)
Definition po_copy (x : pobj) (h : pheap) : res (pobj * pheap) :=
  do b <- bcopy (pcells (parr x) h) (ptail x) (bnew (ptail x)) 0;
  let '(a, h) := palloc b h in
  do d <- it_copy (pdir x);
  Ok (PObj (Some a) (ptail x) (ptail x) d false, h).
(* an IntTensor after its array was taken, IntTensor.hpp:272-284: dims stay, arr is null *)
Definition it_gone (t : itab) : itab := ITab (icols t) (irows t) [].
(* array_pool(array_pool&&), array_pool.hpp:240-249; the second pool is what x becomes *)
Definition po_move (x : pobj) : pobj * pobj :=
  (PObj (parr x) (pmem x) (ptail x) (pdir x) (pview x), PObj None 0 0 (it_gone (pdir x)) (pview x)).
(* operator=(const array_pool&), array_pool.hpp:251-280, x another object: the own array goes first *)
Definition po_assign (o x : pobj) (h : pheap) : res (pobj * pheap) :=
  do h <- (if pview o then Ok h else pfree (parr o) h);
  do d <- it_copy (pdir x);
  do b <- bcopy (pcells (parr x) h) (ptail x) (bnew (ptail x)) 0;
  let '(a, h) := palloc b h in
  Ok (PObj (Some a) (ptail x) (ptail x) d false, h).
(* the same with x the object itself: the new arrays are copied onto themselves and stay uninitialised *)
Definition po_assign_self (o : pobj) (h : pheap) : res (pobj * pheap) :=
  do h <- (if pview o then Ok h else pfree (parr o) h);
  let '(a, h) := palloc (bnew (ptail o)) h in
  Ok (PObj (Some a) (ptail o) (ptail o) (it_new (irows (pdir o)) (icols (pdir o))) false, h).
(* operator=(array_pool&&), array_pool.hpp:283-298, x another object; tail and memsize of x stay *)
Definition po_move_assign (o x : pobj) (h : pheap) : res (pobj * pobj * pheap) :=
  do h <- (if pview o then Ok h else pfree (parr o) h);
  Ok (PObj (parr x) (pmem x) (ptail x) (pdir x) (pview x), PObj None (pmem x) (ptail x) (it_gone (pdir x)) (pview x), h).
(* the same with x the object itself *)
Definition po_move_assign_self (o : pobj) (h : pheap) : res (pobj * pheap) :=
  do h <- (if pview o then Ok h else pfree (parr o) h);
  Ok (PObj None (pmem o) (ptail o) (it_gone (pdir o)) (pview o), h).
(* view(), array_pool.hpp:305-316 *)
Definition po_view (x : pobj) : res pobj :=
  do d <- it_copy (pdir x); Ok (PObj (parr x) (pmem x) (ptail x) d true).

(* to_tensor(), array_pool.hpp:336-348: the cells of the one-dimensional result; every cell is written *)
Definition ap_to_tensor (p : apool) : res buf :=
  let n := ap_size p in
  do R <- bput (bnew (n + atail p + 2)) 0 n;
  do R <- forZ n (fun i R => do o <- it_get (adir p) i 0; bput R (i + 1) (n + 2 + o)) R;
  do R <- bput R (n + 1) (atail p + n + 2);
  bcopy (amem p) (atail p) R (n + 2).

(* programs over named pools.  A declaration needs an unused name and every other statement names in scope;
   this is the compiler's business, a program that breaks it is given no meaning (UB). *)
Inductive pcmd :=
  | PNew (k : Z) | PGrow (k n : Z) | PPushTo (k : Z) (v : list Z) | PSet (k i j v : Z)
  | PCopyTo (k j : Z) | PAssign (k j : Z) | PMoveTo (k j : Z) | PMoveAssign (k j : Z)
  | PView (k j : Z) | PDelete (k : Z).
Record pst := PSt { pobjs : Z -> option pobj; pmemory : pheap }.
Definition pst0 : pst := PSt (fun _ => None) pheap0.
Definition bindp (k : Z) (o : option pobj) (f : Z -> option pobj) : Z -> option pobj := fun j => if j =? k then o else f j.
Definition with_obj {A} (k : Z) (s : pst) (f : pobj -> res A) : res A := match pobjs s k with Some o => f o | None => UB end.
Definition if_new {A} (k : Z) (s : pst) (r : res A) : res A := match pobjs s k with None => r | Some _ => UB end.
Definition pexec (c : pcmd) (s : pst) : res pst :=
  let h := pmemory s in
  match c with
  | PNew k => if_new k s (Ok (PSt (bindp k (Some po_new) (pobjs s)) h))
  | PGrow k n => with_obj k s (fun o => do ' (o, h) <- po_reserve n o h; Ok (PSt (bindp k (Some o) (pobjs s)) h))
  | PPushTo k v => with_obj k s (fun o => do ' (o, h) <- po_push v o h; Ok (PSt (bindp k (Some o) (pobjs s)) h))
  | PSet k i j v => with_obj k s (fun o => do h <- po_set i j v o h; Ok (PSt (pobjs s) h))
  | PCopyTo k j => if_new k s (with_obj j s (fun x => do ' (o, h) <- po_copy x h; Ok (PSt (bindp k (Some o) (pobjs s)) h)))
  | PAssign k j => with_obj k s (fun o => with_obj j s (fun x =>
      do ' (o, h) <- (if k =? j then po_assign_self o h else po_assign o x h);
      Ok (PSt (bindp k (Some o) (pobjs s)) h)))
  | PMoveTo k j => if_new k s (with_obj j s (fun x =>
      let '(o, x) := po_move x in Ok (PSt (bindp j (Some x) (bindp k (Some o) (pobjs s))) h)))
  | PMoveAssign k j => with_obj k s (fun o => with_obj j s (fun x =>
      if k =? j then do ' (o, h) <- po_move_assign_self o h; Ok (PSt (bindp k (Some o) (pobjs s)) h)
      else do ' (o, x, h) <- po_move_assign o x h; Ok (PSt (bindp j (Some x) (bindp k (Some o) (pobjs s))) h)))
  | PView k j => if_new k s (with_obj j s (fun x => do o <- po_view x; Ok (PSt (bindp k (Some o) (pobjs s)) h)))
  | PDelete k => with_obj k s (fun o => do h <- po_delete o h; Ok (PSt (bindp k None (pobjs s)) h))
  end.
Definition prun (cs : list pcmd) (s : pst) : res pst := foldM pexec cs s.
(* size(), :427; operator()(i), :480-488; operator()(i,j), :468-472; to_tensor(), :336-348, of the pool named k *)
Definition psize (k : Z) (s : pst) : res Z := with_obj k s (fun o => Ok (ap_size (pool_at o (pmemory s)))).
Definition prow (k i : Z) (s : pst) : res (list Z) := with_obj k s (fun o => ap_list (pool_at o (pmemory s)) i).
Definition pentry (k i j : Z) (s : pst) : res Z := with_obj k s (fun o => ap_get (pool_at o (pmemory s)) i j).
Definition ptensor (k : Z) (s : pst) : res buf := with_obj k s (fun o => ap_to_tensor (pool_at o (pmemory s))).
