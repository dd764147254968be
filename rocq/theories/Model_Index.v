(* Model_Index.v -- shapes, strides and index arithmetic.
   Shapes (Gdims), stride vectors (GstridesB) and indices (Gindex) are lists of Z.
   Simplification: int/size_t are unbounded Z (no overflow), sides are meant to be >= 0. *)
From Verif Require Import Base.
Local Open Scope Z_scope.

(* C++ integer division and remainder: truncated, division by zero is UB. *)
Definition cdiv (a b : Z) : res Z := if b =? 0 then UB else Ok (Z.quot a b).
Definition crem (a b : Z) : res Z := if b =? 0 then UB else Ok (Z.rem a b).

(* Gdims::asize -- include/Gdims.hpp:174-178 *)
Definition asize (dims : list Z) : Z := fold_left Z.mul dims 1.

(* GstridesB(dims,s0) -- include/GstridesB.hpp:102-109; Gdims::strides -- include/Gdims.hpp:335-343.
   str[k-1]=s0; str[i]=str[i+1]*dims[i+1] from the back. *)
Fixpoint strides_of (s0 : Z) (dims : list Z) : list Z :=
  match dims with
  | [] => []
  | _ :: ds =>
      match strides_of s0 ds with
      | [] => [s0]
      | s1 :: ss => s1 * hd 0 ds :: s1 :: ss
      end
  end.

(* GstridesB::offs(ix) and operator()(ix) -- include/GstridesB.hpp:172-186 *)
Fixpoint dot (s ix : list Z) : Z :=
  match s, ix with
  | s0 :: ss, i0 :: is => s0 * i0 + dot ss is
  | _, _ => 0
  end.
Definition offs (s ix : list Z) : res Z :=
  assrt (length ix <=? length s)%nat (Ok (dot s ix)).

(* GstridesB::offs(i,ix) -- include/GstridesB.hpp:188-194.  The inner loop variable shadows the
   parameter i, and t starts at this[0]: the parameter is not used. size()-1 is a size_t
   subtraction, so for an empty stride vector the check always passes and this[0] is UB. *)
Definition offs_i (s : list Z) (i : Z) (ix : list Z) : res Z :=
  match s with
  | [] => UB
  | s0 :: ss => assrt (length ix <=? length ss)%nat (Ok (s0 + dot ss ix))
  end.

(* Gindex(a,dims) -- include/Gindex.hpp:77-83: from the last position, ix[i]=a%dims[i]; a=a/dims[i].
   Returns the index and the remaining a. *)
Fixpoint unflat_aux (a : Z) (dims : list Z) : res (list Z * Z) :=
  match dims with
  | [] => Ok ([], a)
  | d :: ds =>
      do p <- unflat_aux a ds;
      do r <- crem (snd p) d;
      do q <- cdiv (snd p) d;
      Ok (r :: fst p, q)
  end.
Definition unflat (a : Z) (dims : list Z) : res (list Z) := rmap fst (unflat_aux a dims).

(* Gindex(a,strides) -- include/Gindex.hpp:85-91: ix[0]=a/strides[0] (UB for no strides),
   ix[i]=(a%strides[i-1])/strides[i]. *)
Fixpoint unflat_str_tail (a sprev : Z) (ss : list Z) : res (list Z) :=
  match ss with
  | [] => Ok []
  | s :: ss' =>
      do r <- crem a sprev;
      do q <- cdiv r s;
      do l <- unflat_str_tail a s ss';
      Ok (q :: l)
  end.
Definition unflat_str (a : Z) (ss : list Z) : res (list Z) :=
  match ss with
  | [] => UB
  | s :: ss' => do q <- cdiv a s; do l <- unflat_str_tail a s ss'; Ok (q :: l)
  end.

(* Gindex::to_int and Gindex::operator()(dims) -- include/Gindex.hpp:124-144: from the last
   position, t+=ix[i]*s; s*=dims[i].  Returns (t,s).  Reading dims beyond its end is UB. *)
Fixpoint to_int_aux (ix dims : list Z) : res (Z * Z) :=
  match ix, dims with
  | [], _ => Ok (0, 1)
  | _ :: _, [] => UB
  | i :: is, d :: ds => do p <- to_int_aux is ds; Ok (fst p + i * snd p, snd p * d)
  end.
Definition to_int (ix dims : list Z) : res Z := rmap fst (to_int_aux ix dims).

(* Gdims::foreach_index -- include/Gdims.hpp:357-374 (for_each and for_each_index forward to it).
   decode: for j: ix[j]=t/strides[j]; t-=ix[j]*strides[j]. *)
Fixpoint decode (t : Z) (strides : list Z) : res (list Z) :=
  match strides with
  | [] => Ok []
  | s :: ss => do q <- cdiv t s; do l <- decode (t - q * s) ss; Ok (q :: l)
  end.
Definition foreach_index {S} (dims : list Z) (lambda : list Z -> S -> res S) (st : S) : res S :=
  match dims with
  | [] => Ok st
  | d0 :: _ =>
      let strides := strides_of 1 dims in
      let tot := hd 0 strides * d0 in
      forZ tot (fun i s => do ix <- decode i strides; lambda ix s) st
  end.

(* GstridesB::memsize -- include/GstridesB.hpp:142-150 *)
Fixpoint max_extent (s dims : list Z) (t : Z) : Z :=
  match s, dims with
  | s0 :: ss, d0 :: ds => max_extent ss ds (Z.max t (s0 * d0))
  | _, _ => t
  end.
Definition memsize (s dims : list Z) : res Z :=
  assrt (length s =? length dims)%nat
    (match s with
     | [] => Ok 1
     | _ => if asize dims =? 0 then Ok 0 else Ok (max_extent s dims 0)
     end).

(* GstridesB::is_regular -- include/GstridesB.hpp:236-245: scan from the last position with
   t=1; t*=dims[i].  Returns Some t if all positions matched so far. *)
Fixpoint regular_aux (s dims : list Z) : option Z :=
  match s, dims with
  | s0 :: ss, d0 :: ds =>
      match regular_aux ss ds with
      | Some t => if s0 =? t then Some (t * d0) else None
      | None => None
      end
  | _, _ => Some 1
  end.
Definition is_regular (s dims : list Z) : res bool :=
  assrt (length s =? length dims)%nat
    (Ok (match regular_aux s dims with Some _ => true | None => false end)).

(* GstridesB::is_contiguous -- include/GstridesB.hpp:247-266: nz = number of positive strides;
   nz times: find the first v[i]==t, zero it, t*=dims[i]. *)
Fixpoint find_take (t : Z) (v dims : list Z) : option (list Z * Z) :=
  match v, dims with
  | x :: v', d :: ds =>
      if x =? t then Some (0 :: v', d)
      else match find_take t v' ds with
           | Some (v'', d') => Some (x :: v'', d')
           | None => None
           end
  | _, _ => None
  end.
Fixpoint contig_loop (n : nat) (t : Z) (v dims : list Z) : bool :=
  match n with
  | O => true
  | S n' => match find_take t v dims with
            | None => false
            | Some (v', d) => contig_loop n' (t * d) v' dims
            end
  end.
Definition npos (v : list Z) : nat := length (filter (fun x => 0 <? x) v).
Definition is_contiguous (s dims : list Z) : res bool :=
  do r <- is_regular s dims;
  if r then Ok true else Ok (contig_loop (npos s) 1 s dims).

(* GstridesB::is_decreasing -- include/GstridesB.hpp:229-234 *)
Fixpoint is_decreasing (s : list Z) : bool :=
  match s with
  | a :: ((b :: _) as s') => if b >? a then false else is_decreasing s'
  | _ => true
  end.

(* Gvec::insert, remove, replace, prepend, append, cat, chunk, permute -- include/gvectr.hpp:139-219.
   std::copy with a bad range is UB. *)
Definition vinsert {A} (j : Z) (x : A) (l : list A) : res (list A) :=
  if (j <? 0) || (Z.of_nat (length l) <? j) then UB
  else Ok (firstn (Z.to_nat j) l ++ x :: skipn (Z.to_nat j) l).
(* remove: CNINE_ASSRT(j<size()) compares int with size_t, so a negative j becomes huge and throws *)
Definition vremove {A} (j : Z) (l : list A) : res (list A) :=
  assrt ((0 <=? j) && (j <? Z.of_nat (length l)))
    (Ok (firstn (Z.to_nat j) l ++ skipn (S (Z.to_nat j)) l)).
Definition vreplace {A} (j : Z) (x : A) (l : list A) : res (list A) :=
  assrt ((0 <=? j) && (j <? Z.of_nat (length l)))
    (Ok (firstn (Z.to_nat j) l ++ x :: skipn (S (Z.to_nat j)) l)).
Definition vprepend {A} (x : A) (l : list A) : list A := x :: l.
Definition vappend {A} (x : A) (l : list A) : list A := l ++ [x].
Definition vcat {A} (l1 l2 : list A) : list A := l1 ++ l2.
(* chunk(beg,n): beg<0 counts from the end, n==-1 means "to the end" *)
Definition vchunk {A} (beg n : Z) (l : list A) : res (list A) :=
  let k := Z.of_nat (length l) in
  let beg := if beg <? 0 then k + beg else beg in
  let n := if n =? -1 then k - beg else n in
  if (beg <? 0) || (n <? 0) || (k <? beg + n) then UB
  else Ok (firstn (Z.to_nat n) (skipn (Z.to_nat beg) l)).
Fixpoint gather {A} (l : list A) (p : list Z) : res (list A) :=
  match p with
  | [] => Ok []
  | i :: p' => do x <- zget l i; do r <- gather l p'; Ok (x :: r)
  end.
Definition vpermute {A} (p : list Z) (l : list A) : res (list A) :=
  assrt (length p =? length l)%nat (gather l p).

(* operator<= on Gvec: lexicographic -- include/gvectr.hpp:291-298 *)
Fixpoint gvec_le (x y : list Z) : bool :=
  match x, y with
  | [], _ => true
  | _ :: _, [] => false
  | a :: x', b :: y' => if a =? b then gvec_le x' y' else a <=? b
  end.
(* operator< on Gvec -- include/gvectr.hpp:282-289 *)
Fixpoint gvec_lt (x y : list Z) : bool :=
  match x, y with
  | [], [] => false
  | [], _ :: _ => true
  | _ :: _, [] => false
  | a :: x', b :: y' => if a =? b then gvec_lt x' y' else a <? b
  end.
(* Gindex::operator<=(vector) -- include/Gindex.hpp:177-182: elementwise *)
Fixpoint gindex_le (x y : list Z) : bool :=
  match x, y with
  | [], [] => true
  | a :: x', b :: y' => (a <=? b) && gindex_le x' y'
  | _, _ => false
  end.
(* Gvec::operator+ -- include/gvectr.hpp:131-137 ; Gindex::operator+ -- include/Gindex.hpp:162-168 *)
Fixpoint zipadd (x y : list Z) : list Z :=
  match x, y with
  | a :: x', b :: y' => (a + b) :: zipadd x' y'
  | _, _ => []
  end.
Definition gvec_add (x y : list Z) : res (list Z) :=
  assrt (length x =? length y)%nat (Ok (zipadd x y)).

(* Gdims::fuse(a,n) -- include/Gdims.hpp:198-207 (plain assert is compiled out in release builds;
   a bad range reads out of bounds, UB) *)
Definition dims_fuse (a n : Z) (l : list Z) : res (list Z) :=
  if (a <? 0) || (n <? 0) || (Z.of_nat (length l) <? a + n) then UB
  else Ok (firstn (Z.to_nat a) l
           ++ asize (firstn (Z.to_nat n) (skipn (Z.to_nat a) l))
           :: skipn (Z.to_nat (a + n)) l).
(* GstridesB::fuse(a,n) -- include/GstridesB.hpp:343-348: keeps strides[0..a) and [a+n-1..) *)
Definition strides_fuse (a n : Z) (l : list Z) : res (list Z) :=
  if (a <? 0) || (n <? 1) || (Z.of_nat (length l) <? a + n) then UB
  else Ok (firstn (Z.to_nat a) l ++ skipn (Z.to_nat (a + n - 1)) l).

(* Gdims::transp / GstridesB::transp -- include/Gdims.hpp:213-220, include/GstridesB.hpp:152-159:
   swap the last two.  Gdims uses assert, GstridesB CNINE_ASSRT; a shorter vector is UB / Throw. *)
Fixpoint swap_last2 {A} (l : list A) : list A :=
  match l with
  | [a; b] => [b; a]
  | a :: l' => a :: swap_last2 l'
  | [] => []
  end.
Definition dims_transp {A} (l : list A) : res (list A) :=
  if (length l <? 2)%nat then UB else Ok (swap_last2 l).
Definition strides_transp {A} (l : list A) : res (list A) :=
  assrt (2 <=? length l)%nat (Ok (swap_last2 l)).

(* GstridesB::ordering -- include/GstridesB.hpp:288-299: n times take the first minimum and
   overwrite it with INT_MAX. *)
Definition INT_MAX : Z := 2147483647.
Fixpoint argmin_aux (best : Z) (bi i : nat) (v : list Z) : nat :=
  match v with
  | [] => bi
  | x :: v' => if x <? best then argmin_aux x i (S i) v' else argmin_aux best bi (S i) v'
  end.
Definition argmin (v : list Z) : nat :=
  match v with [] => 0%nat | x :: v' => argmin_aux x 0 1 v' end.
Fixpoint set_nth {A} (i : nat) (x : A) (l : list A) : list A :=
  match l, i with
  | [], _ => []
  | _ :: l', O => x :: l'
  | a :: l', S i' => a :: set_nth i' x l'
  end.
Fixpoint ordering_loop (n : nat) (v : list Z) : list nat :=
  match n with
  | O => []
  | S n' => let j := argmin v in j :: ordering_loop n' (set_nth j INT_MAX v)
  end.
Definition ordering (s : list Z) : list nat := ordering_loop (length s) s.

(* GstridesB::descending_ordering -- include/GstridesB.hpp:301-312: first maximum, overwritten by 0 *)
Fixpoint argmax_aux (best : Z) (bi i : nat) (v : list Z) : nat :=
  match v with
  | [] => bi
  | x :: v' => if best <? x then argmax_aux x i (S i) v' else argmax_aux best bi (S i) v'
  end.
Definition argmax (v : list Z) : nat :=
  match v with [] => 0%nat | x :: v' => argmax_aux x 0 1 v' end.
Fixpoint desc_loop (n : nat) (v : list Z) : list nat :=
  match n with
  | O => []
  | S n' => let j := argmax v in j :: desc_loop n' (set_nth j 0 v)
  end.
Definition descending_ordering (s : list Z) : list nat := desc_loop (length s) s.

(* GindexSymm::operator()(i0,i1) -- include/GindexSymm.hpp:51-56; n1 = dims[1] *)
Definition symm_index (n1 i0 i1 : Z) : Z :=
  let a := if i0 <=? i1 then i0 else i1 in
  let b := if i0 <=? i1 then i1 else i0 in
  a * n1 - Z.quot (a * (a + 1)) 2 + b.
