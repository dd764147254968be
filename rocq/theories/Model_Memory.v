(* Model_Memory.v -- the pooled memory manager, include/SimpleMemoryManager.hpp. *)
From Verif Require Import Base.
Local Open Scope Z_scope.

(* SimpleMemoryBlock, SimpleMemoryManager.hpp:24-34.  bid is the identity of the list node, what a
   std::list iterator denotes. *)
Record block := Block { bid : nat; bbeg : Z; bsize : Z; bused : bool }.
(* the manager, :37-49: list of blocks, map from returned pointers (relative to arr) to list iterators,
   and the next node identity (a modelling device).  unordered_map is an association list. *)
Record mm := MM { msize : Z; mblocks : list block; mmap : list (Z * nat); mnext : nat }.

Definition INT32_MAX : Z := 2147483647.
(* int conversion of a size_t value: modulo 2^32, two's complement *)
Definition to_int32 (x : Z) : Z :=
  let y := x mod 4294967296 in if y <=? INT32_MAX then y else y - 4294967296.

(* constructor, :52-60 (the system malloc is assumed to succeed; arr is address 0 here) *)
Definition mm_init (sz : Z) : mm :=
  let s := (sz / 128) * 128 in
  let s := if s =? 0 then 1 else s in
  MM s [Block 0 0 s false] [] 1.

(* roundup(x,s)=((x-1)/s+1)*s in int arithmetic -- include/Cnine_base_helpers.hpp:12-14; overflow is UB *)
Definition roundup128 (x : Z) : res Z :=
  if x - 1 <? - INT32_MAX - 1 then UB
  else let r := (Z.quot (x - 1) 128 + 1) * 128 in if INT32_MAX <? r then UB else Ok r.

(* the search loop and the split of malloc, include/SimpleMemoryManager.hpp:96-110.  it->size<n compares size_t with int, so a negative
   n becomes huge and nothing fits. *)
Definition fits (n : Z) (b : block) : bool := negb (bused b) && (0 <=? n) && (n <=? bsize b).
Fixpoint take_block (fresh : nat) (n : Z) (l : list block) : option (block * list block) :=
  match l with
  | [] => None
  | b :: l' =>
      if fits n b then
        let b' := Block (bid b) (bbeg b) n true in
        Some (b', if n <? bsize b then b' :: Block fresh (bbeg b + n) (bsize b - n) false :: l' else b' :: l')
      else match take_block fresh n l' with
           | Some (r, l'') => Some (r, b :: l'')
           | None => None
           end
  end.
Definition map_set (p : Z) (i : nat) (l : list (Z * nat)) : list (Z * nat) :=
  (p, i) :: filter (fun q => negb (fst q =? p)) l.
(* malloc(const int _n), :93-112; Throw is "out of space" *)
Definition mm_malloc (_n : Z) (s : mm) : res (Z * mm) :=
  do n <- roundup128 _n;
  match take_block (mnext s) n (mblocks s) with
  | None => Throw
  | Some (b, l) => Ok (bbeg b, MM (msize s) l (map_set (bbeg b) (bid b) (mmap s)) (S (mnext s)))
  end.
(* alloc<TYPE>(const int n), :87-90: n*sizeof(TYPE) is computed in size_t and passed as int *)
Definition mm_alloc (sizeof n : Z) (s : mm) : res (Z * mm) :=
  mm_malloc (to_int32 ((n * sizeof) mod 18446744073709551616)) s.

(* split the list at the node with identity i *)
Fixpoint at_node (i : nat) (l : list block) : option (list block * block * list block) :=
  match l with
  | [] => None
  | b :: l' => if (bid b =? i)%nat then Some ([], b, l')
               else match at_node i l' with Some (p, x, q) => Some (b :: p, x, q) | None => None end
  end.
(* free(void* p), :115-142.  The hash-map iterator itt is dereferenced after the entry was erased; under
   the C++ rules that is undefined (strict=true), with common implementations it still yields the old
   value (strict=false).  A pointer without entry is undefined either way.  it!=blocks.end() always
   holds, and next->used is read also when next is blocks.end(): undefined. *)
Definition mm_free (strict : bool) (p : Z) (s : mm) : res mm :=
  match find (fun q => fst q =? p) (mmap s) with
  | None => UB
  | Some (_, i) =>
      if strict then UB else
      match at_node i (mblocks s) with
      | None => UB
      | Some (_, _, []) => UB
      | Some (pre, b, nx :: post) =>
          let '(sz, post) := if bused nx then (bsize b, nx :: post) else (bsize b + bsize nx, post) in
          let b' := Block (bid b) (bbeg b) sz false in
          let l := match rev pre with
                   | [] => b' :: post
                   | pv :: rpre =>
                       if bused pv then pre ++ b' :: post
                       else rev rpre ++ Block (bid pv) (bbeg pv) (bsize pv + sz) (bused pv) :: post
                   end in
          Ok (MM (msize s) l (filter (fun q => negb (fst q =? p)) (mmap s)) (mnext s))
      end
  end.
(* clear(), :144-148 *)
Definition mm_clear (s : mm) : mm := MM (msize s) [Block (mnext s) 0 (msize s) false] [] (S (mnext s)).

(* a client: requests and releases.  A request that throws leaves the manager as it was. *)
Inductive mop := Malloc (n : Z) | Free (p : Z).
(* live = the client's pointers with the sizes it asked for *)
Definition mstep (strict : bool) (o : mop) (st : mm * list (Z * Z)) : res (mm * list (Z * Z)) :=
  let '(s, live) := st in
  match o with
  | Malloc n => match mm_malloc n s with
                | Ok (p, s') => Ok (s', (p, n) :: live)
                | Throw => Ok (s, live)
                | UB => UB
                end
  | Free p => do s' <- mm_free strict p s; Ok (s', filter (fun q => negb (fst q =? p)) live)
  end.
Definition mrun (strict : bool) (h : list mop) (sz : Z) : res (mm * list (Z * Z)) :=
  foldM (mstep strict) h (mm_init sz, []).
