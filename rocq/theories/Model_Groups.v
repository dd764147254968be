(* Model_Groups.v -- sets of axes (GindexSet), maps of axes (GindexMap), shapes and strides seen through them, views of a
   tensor by groups of axes, strides that form one progression, and range checks.
   A GindexSet is a std::set<int>: the strictly increasing list of its members.  A GindexMap is a list of lists of axes.
   The flag chk says whether assert() is compiled in (NDEBUG not set): assert is then taken to stop the call (Throw), and
   otherwise its condition is not evaluated.  CNINE_ASSRT always is. *)
From Verif Require Import Base Model_Index Model_View Model_Tensor.
Local Open Scope Z_scope.

Definition passert {A} (chk : bool) (c : bool) (k : res A) : res A := if chk then assrt c k else k.

(* set<int>::find(i)==end() is negb (mem_ax i s) -- used throughout include/GindexSet.hpp:47-69 *)
Definition mem_ax (i : Z) (s : list Z) : bool := existsb (Z.eqb i) s.
(* first -- include/GindexSet.hpp:32-34: dereferences begin(), UB for the empty set *)
Definition ax_first (s : list Z) : res Z := match s with [] => UB | a :: _ => Ok a end.
(* last and back -- include/GindexSet.hpp:36-38 and :71-73: dereference rbegin() *)
Fixpoint ax_last (s : list Z) : res Z := match s with [] => UB | [a] => Ok a | _ :: s' => ax_last s' end.
(* is_contiguous -- include/GindexSet.hpp:40-45: i starts at first()-1 and p is compared with the value before i++ *)
Fixpoint contig_from (i : Z) (s : list Z) : bool :=
  match s with [] => true | p :: s' => if negb (p =? i) then false else contig_from (i + 1) s' end.
Definition ax_contiguous (s : list Z) : res bool := do f <- ax_first s; Ok (contig_from (f - 1) s).
(* is_disjoint -- include/GindexSet.hpp:47-51 *)
Definition ax_disjoint (s y : list Z) : bool := forallb (fun p => negb (mem_ax p y)) s.
(* covers(n) -- include/GindexSet.hpp:53-57 *)
Definition ax_covers1 (s : list Z) (n : Z) : bool := forallb (fun i => mem_ax i s) (zrange n).
(* covers(n,x) -- include/GindexSet.hpp:59-63 *)
Definition ax_covers2 (s : list Z) (n : Z) (x : list Z) : bool := forallb (fun i => negb (negb (mem_ax i s) && negb (mem_ax i x))) (zrange n).
(* covers(n,x,y) -- include/GindexSet.hpp:65-69: x is tested twice, y never *)
Definition ax_covers3 (s : list Z) (n : Z) (x y : list Z) : bool :=
  forallb (fun i => negb (negb (mem_ax i s) && negb (mem_ax i x) && negb (mem_ax i x))) (zrange n).

(* p<size(), with p an int and size() a size_t: a negative p is converted to a huge number *)
Definition below (p : Z) (l : list Z) : bool := (0 <=? p) && (p <? Z.of_nat (length l)).
(* Gdims::select -- include/Gdims.hpp:292-299 *)
Definition dims_select (chk : bool) (d : list Z) (s : list Z) : res (list Z) :=
  foldM (fun p r => passert chk (below p d) (do x <- zget d p; Ok (r ++ [x]))) s [].
(* Gdims::unite -- include/Gdims.hpp:301-308 *)
Definition dims_unite (chk : bool) (d : list Z) (s : list Z) : res Z :=
  foldM (fun p r => passert chk (below p d) (do x <- zget d p; Ok (r * x))) s 1.
(* Gdims::combined(a,b) -- include/Gdims.hpp:190-196: the comparison b<=size() is unsigned *)
Definition dims_combined (chk : bool) (d : list Z) (a b : Z) : res Z :=
  passert chk ((a <=? b) && ((0 <=? b) && (b <=? Z.of_nat (length d))))
    (foldM (fun i t => do x <- zget d (a + i); Ok (t * x)) (zrange (b - a)) 1).

(* GindexMap::ndims -- include/GindexMap.hpp:36-41 *)
Definition map_ndims (mp : list (list Z)) : Z := fold_left (fun t p => t + Z.of_nat (length p)) mp 0.
(* Gdims::map -- include/Gdims.hpp:314-329 *)
Definition dims_map1 (d : list Z) (ix : list Z) : res Z :=
  match ix with
  | [] => Throw
  | a :: rest =>
      assrt (below a d)
        (do r <- zget d a;
         do _ <- foldM (fun b _ => assrt (below b d) (do y <- zget d b; assrt (y =? r) (Ok tt))) rest tt;
         Ok r)
  end.
Definition dims_map (d : list Z) (mp : list (list Z)) : res (list Z) :=
  assrt (map_ndims mp =? Z.of_nat (length d)) (foldM (fun ix r => do x <- dims_map1 d ix; Ok (r ++ [x])) mp []).
(* GstridesB::map -- include/GstridesB.hpp:268-282 *)
Definition strides_map1 (s : list Z) (ix : list Z) : res Z :=
  foldM (fun a t => assrt (below a s) (do x <- zget s a; Ok (t + x))) ix 0.
Definition strides_map (s : list Z) (mp : list (list Z)) : res (list Z) :=
  assrt (map_ndims mp =? Z.of_nat (length s)) (foldM (fun ix r => do x <- strides_map1 s ix; Ok (r ++ [x])) mp []).

(* GstridesB::offs(j,source) -- include/GstridesB.hpp:314-323 *)
Fixpoint offs_loop (s src : list Z) (j t : Z) : res Z :=
  match s, src with
  | a :: s', b :: src' => do r <- cdiv j b; offs_loop s' src' (j - r * b) (t + a * r)
  | _ :: _, [] => UB
  | [], _ => Ok t
  end.
Definition offs_from (chk : bool) (s : list Z) (j : Z) (src : list Z) : res Z :=
  passert chk (Nat.eqb (length src) (length s)) (offs_loop s src j 0).

(* GstridesB::fuser -- include/GstridesB.hpp:350-359: n==-1 never holds, p[0] of an empty ordering is UB *)
Fixpoint chains (s d : list Z) (p : list nat) : res bool :=
  match p with
  | a :: ((b :: _) as p') =>
      do sb <- vget s b; do sa <- vget s a; do da <- vget d a;
      if negb (sb =? sa * da) then Ok false else chains s d p'
  | _ => Ok true
  end.
Definition fuser (s d : list Z) : res (Z * Z) :=
  let p := ordering s in
  do p0 <- vget p 0;
  do ok <- chains s d p;
  if negb ok then Ok (0, -1)
  else do pl <- vget p (length s - 1);
       do s0 <- vget s p0; do sl <- vget s pl; do dl <- vget d pl;
       do c <- cdiv (sl * dl) s0; Ok (s0, c).
(* GstridesB::fusible -- include/GstridesB.hpp:329-341: the loop starts at i=0 and reads ordering[-1] *)
Definition fusible (s d : list Z) (o : list Z) : res bool :=
  assrt (Nat.eqb (length d) (length s)) (assrt (Nat.eqb (length o) (length s))
    (if Nat.eqb (length s) 0 then Ok true
     else do o0 <- zget o 0; assrt (o0 <? Z.of_nat (length s))
       (forZ (Z.of_nat (length s)) (fun i acc =>
          do oi <- zget o i;
          assrt (oi <? Z.of_nat (length s))
            (do op <- zget o (i - 1);
             do a <- zget s oi; do b <- zget s op; do e <- zget d op;
             Ok (acc && (a =? b * e)))) true))).

(* the constructors of a view from an array, a shape, strides and sets of axes: Rtensor1_view (tensor_views/Rtensor1_view.hpp:77-85),
   Rtensor2_view (tensor_views/Rtensor2_view.hpp:75-87), Itensor1_view (tensor_views/Itensor1_view.hpp:54-62), Itensor2_view
   (tensor_views/Itensor2_view.hpp:55-67), Ctensor1_view (tensor_views/Ctensor1_view.hpp:57-65), Ctensor2_view
   (tensor_views/Ctensor2_view.hpp:79-91), Ctensor3_view (tensor_views/Ctensor3_view.hpp:80-99), reached from
   RtensorA::view2 (legacy/backendA/RtensorA.hpp:1297-1299), IntTensor::view2 (tensors/IntTensor.hpp:697-699) and
   CtensorB::view1D/view2D/view3D (legacy/backendB/CtensorB.hpp:872-911).  The real views test with CNINE_ASSRT (chkv is true), the others
   with assert (chkv is chk).  The second array of the complex views is left out. *)
Definition groups_ok (x : view) (gs : list (list Z)) : res bool :=
  let k := Z.of_nat (length (vdims x)) in
  do reg <- is_regular (vstr x) (vdims x);
  if negb reg then Ok false
  else do c <- foldM (fun g ok => if ok : bool then ax_contiguous g else Ok false) gs true;
   if negb c then Ok false
   else Ok (match gs with
            | [a] => ax_covers1 a k
            | [a; b] => ax_disjoint a b && ax_covers2 a k b
            | [a; b; c] => ax_disjoint a b && ax_disjoint a c && ax_disjoint b c && ax_covers3 a k b c
            | _ => false
            end).
Definition group_view (chkv chk : bool) (x : view) (gs : list (list Z)) : res view :=
  do ok <- if chkv then groups_ok x gs else Ok true;
  if negb ok then Throw
  else do n <- foldM (fun g r => do c <- dims_unite chk (vdims x) g; Ok (r ++ [c])) gs [];
       do s <- foldM (fun g r => do l <- ax_last g; do c <- zget (vstr x) l; Ok (r ++ [c])) gs [];
       Ok (View (vblk x) (voff x) n s).

(* Gdims::check_in_range(ix,name) -- include/Gdims.hpp:388-392 *)
Definition check_in_range (d ix : list Z) : res unit :=
  if negb (Nat.eqb (length d) (length ix)) then Throw
  else if forallb (fun p => negb ((fst p <? 0) || (snd p <=? fst p))) (combine ix d) then Ok tt else Throw.
(* Gdims::check_in_range(i0,..,name), one to five indices -- include/Gdims.hpp:394-418; compiled in with CNINE_RANGE_CHECKING (rc) *)
Definition check_args (rc : bool) (d ix : list Z) : res unit :=
  if negb rc then Ok tt
  else if negb (Nat.eqb (length d) (length ix)) then Throw
  else foldM (fun k _ => do i <- zget ix k; if i <? 0 then Throw else do n <- zget d k; if n <=? i then Throw else Ok tt) (zrange (Z.of_nat (length ix))) tt.
(* Gdims::check_in_range_d -- include/Gdims.hpp:420-423: size()<=d with size() a size_t *)
Definition check_axis (rc : bool) (d : list Z) (a i0 : Z) : res unit :=
  if negb rc then Ok tt
  else if negb (below a d) || (i0 <? 0) then Throw
  else do n <- zget d a; if n <=? i0 then Throw else Ok tt.
(* Gindex::check_range, check_arange -- include/Gindex.hpp:187-201: two passes *)
Definition check_range (ix d : list Z) : res unit :=
  if negb (Nat.eqb (length ix) (length d)) then Throw
  else if negb (forallb (fun i => negb (i <? 0)) ix) then Throw
  else if forallb (fun p => negb (snd p <=? fst p)) (combine ix d) then Ok tt else Throw.
(* Gdims::check_eq, check_cell_eq -- include/Gdims.hpp:380-386, with Gvec::operator== *)
Definition check_eq (d x : list Z) : res unit := if eqlb d x then Ok tt else Throw.
(* Gdims::valid -- include/Gdims.hpp:180-184 *)
Definition dims_valid (d : list Z) : bool := forallb (fun p => negb (p <? 0)) d.
