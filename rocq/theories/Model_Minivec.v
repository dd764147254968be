(* Model_Minivec.v -- the array containers/minivec.hpp: who owns which memory.  Device 0 is the host, 1 the graphics card.  An array is a number; the heap says on which device it is and
   what its cells hold.  Cells of a new array hold [junk].  Sizes are not negative. *)
From Verif Require Import Base.
Local Open Scope nat_scope.

Section S.
Context {V : Type} (junk : V) (plus : V -> V -> V).
(* the members arr (None: nullptr), _size and dev -- containers/minivec.hpp:28-31 *)
Record mvec := MV { mv_arr : option nat; mv_size : nat; mv_dev : Z }.
(* the heap (arrays numbered from mv_next on were never allocated) and the objects, numbered in the order of their construction; a simplification of ours for the memory that
   containers/minivec.hpp:33-36, 42-48 allocates and frees *)
Record mvst := MVst { mv_heap : nat -> option (Z * list V); mv_next : nat; mv_obj : nat -> option mvec; mv_cnt : nat }.
(* one entry of a map replaced; ours, for containers/minivec.hpp:28-36 *)
Definition put {A} (f : nat -> option A) (k : nat) (a : option A) : nat -> option A := fun j => if j =? k then a else f j.
(* before any object is made; ours, for containers/minivec.hpp:28-36 *)
Definition mv_start : mvst := MVst (fun _ => None) 0 (fun _ => None) 0.
(* a new object that owns a new array of max(n,1) cells -- containers/minivec.hpp:42-48; l is what its first n cells hold afterwards *)
Definition mv_make (n : nat) (d : Z) (l : list V) (s : mvst) : mvst :=
  MVst (put (mv_heap s) (mv_next s) (Some (d, l ++ skipn (length l) (repeat junk (Nat.max n 1))))) (S (mv_next s)) (put (mv_obj s) (mv_cnt s) (Some (MV (Some (mv_next s)) n d))) (S (mv_cnt s)).
(* object i, UB after its destruction; ours, for containers/minivec.hpp:33-36 *)
Definition mv_at (i : nat) (s : mvst) : res mvec := match mv_obj s i with Some o => Ok o | None => UB end.
(* the cells of an array, read on device d; through nullptr, or on another device than the array's, it is UB -- containers/minivec.hpp:117-123 *)
Definition mv_cells (o : mvec) (d : Z) (s : mvst) : res (list V) :=
  match mv_arr o with None => UB | Some a => match mv_heap s a with Some (d', l) => if (d' =? d)%Z then Ok l else UB | None => UB end end.
(* the first _size cells, as std::copy and cudaMemcpy read them -- containers/minivec.hpp:62-64, 81-88 *)
Definition mv_read (o : mvec) (s : mvst) : res (list V) := if mv_size o =? 0 then Ok [] else do l <- mv_cells o (mv_dev o) s; Ok (firstn (mv_size o) l).
(* minivec(n,dev) -- containers/minivec.hpp:42-48 *)
Definition mv_new (n : nat) (d : Z) (s : mvst) : res mvst := Ok (mv_make n d (repeat junk n) s).
(* minivec(x,dev) -- containers/minivec.hpp:79-89, for the devices 0 and 1 *)
Definition mv_copyto (i : nat) (d : Z) (s : mvst) : res mvst := do o <- mv_at i s; do l <- mv_read o s; Ok (mv_make (mv_size o) d l s).
(* minivec(x) -- containers/minivec.hpp:60-65 *)
Definition mv_copy (i : nat) (s : mvst) : res mvst := do o <- mv_at i s; mv_copyto i (mv_dev o) s.
(* minivec(std::move(x)) -- containers/minivec.hpp:67-71: dev is not taken over, so it is 0 *)
Definition mv_move (i : nat) (s : mvst) : res mvst :=
  do o <- mv_at i s;
  Ok (MVst (mv_heap s) (mv_next s) (put (put (mv_obj s) i (Some (MV None (mv_size o) (mv_dev o)))) (mv_cnt s) (Some (MV (mv_arr o) (mv_size o) 0%Z))) (S (mv_cnt s))).
(* delete[] arr or cudaFree(arr), nothing for nullptr -- containers/minivec.hpp:33-36; memory of the other device: UB *)
Definition mv_free (o : mvec) (s : mvst) : res mvst :=
  match mv_arr o with
  | None => Ok s
  | Some a => do l <- mv_cells o (mv_dev o) s; Ok (MVst (put (mv_heap s) a None) (mv_next s) (mv_obj s) (mv_cnt s))
  end.
(* ~minivec() -- containers/minivec.hpp:33-36 *)
Definition mv_del (i : nat) (s : mvst) : res mvst := do o <- mv_at i s; do s <- mv_free o s; Ok (MVst (mv_heap s) (mv_next s) (put (mv_obj s) i None) (mv_cnt s)).
(* move_to_device(dev) -- containers/minivec.hpp:91-107 *)
Definition mv_todev (i : nat) (d : Z) (s : mvst) : res mvst :=
  do o <- mv_at i s;
  if (mv_dev o =? d)%Z then Ok s
  else do l <- mv_read o s; do s' <- mv_free o s;
    Ok (MVst (put (mv_heap s') (mv_next s') (Some (d, l ++ skipn (length l) (repeat junk (Nat.max (mv_size o) 1))))) (S (mv_next s')) (put (mv_obj s') i (Some (MV (Some (mv_next s')) (mv_size o) d))) (mv_cnt s')).
(* operator[] -- containers/minivec.hpp:117-123, on the host; no range check *)
Definition mv_get (i k : nat) (s : mvst) : res V := do o <- mv_at i s; do l <- mv_cells o 0 s; match nth_error l k with Some v => Ok v | None => UB end.
(* cell k overwritten -- containers/minivec.hpp:125-127 *)
Fixpoint set_cell (k : nat) (v : V) (l : list V) : list V := match l, k with [], _ => [] | _ :: l', 0 => v :: l' | a :: l', S k' => a :: set_cell k' v l' end.
(* set(k,v), and operator[](k)=v -- containers/minivec.hpp:121-127 *)
Definition mv_set (i k : nat) (v : V) (s : mvst) : res mvst :=
  do w <- mv_get i k s; do o <- mv_at i s; do l <- mv_cells o 0 s;
  match mv_arr o with Some a => Ok (MVst (put (mv_heap s) a (Some (0%Z, set_cell k v l))) (mv_next s) (mv_obj s) (mv_cnt s)) | None => UB end.
(* inc(k,v) -- containers/minivec.hpp:129-131 *)
Definition mv_inc (i k : nat) (v : V) (s : mvst) : res mvst := do w <- mv_get i k s; mv_set i k (plus w v) s.
(* minivec(n,v,dev) -- containers/minivec.hpp:50-54: the member dev is passed on before it is initialized; dev0 is what it happens to hold.  std::fill writes to the array on the host *)
Definition mv_fill (dev0 : Z) (n : nat) (v : V) (d : Z) (s : mvst) : res mvst :=
  do s1 <- mv_new n dev0 s;
  if n =? 0 then mv_todev (mv_cnt s) d s1
  else do o <- mv_at (mv_cnt s) s1; do l <- mv_cells o 0 s1; mv_todev (mv_cnt s) d (mv_make n dev0 (repeat v n) s).
(* what a program may do with the objects -- containers/minivec.hpp:33-131 *)
Inductive mvop := MNew (n : nat) (d : Z) | MCopy (i : nat) | MCopyTo (i : nat) (d : Z) | MMove (i : nat) | MDel (i : nat) | MToDev (i : nat) (d : Z) | MSet (i k : nat) (v : V) | MInc (i k : nat) (v : V).
(* one call -- containers/minivec.hpp:33-131 *)
Definition mv_step (op : mvop) (s : mvst) : res mvst :=
  match op with
  | MNew n d => mv_new n d s | MCopy i => mv_copy i s | MCopyTo i d => mv_copyto i d s | MMove i => mv_move i s | MDel i => mv_del i s
  | MToDev i d => mv_todev i d s | MSet i k v => mv_set i k v s | MInc i k v => mv_inc i k v s
  end.
(* a history of calls -- containers/minivec.hpp:33-131 *)
Definition mv_run (ops : list mvop) : res mvst := foldM mv_step ops mv_start.
End S.
