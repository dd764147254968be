(* Sparse matrices: CSRmatrix, SparseRmatrix, BlockCsparseMatrix and the index table of SparseTensorView. *)
From Coq Require Import ZArith List Bool Lia.
Import ListNotations.
From Verif Require Import Base Map Model_BG Model_Containers.
Open Scope Z_scope.

(* CNINE_CHECK_RANGE(if(!c) throw ...): compiled in only when CNINE_RANGE_CHECKING is defined
   (include/Cnine_base.hpp:107-108); rc tells whether it is *)
Definition chk {A} (rc c : bool) (k : res A) : res A := if rc && negb c then Throw else k.

(* A dense matrix of dn rows and dm columns held in a fresh TensorView({n,m},0,0); set(i,j,v) writes the cell
   (tensors/TensorView.hpp: set).  Simplified: a cell outside the matrix is UB. *)
Record dense := Dense { dn : Z; dm : Z; dval : Z -> Z -> Z }.
Definition d_zero (n m : Z) : dense := Dense n m (fun _ _ => 0).
Definition d_set (i j v : Z) (R : dense) : res dense :=
  if (0 <=? i) && (i <? dn R) && (0 <=? j) && (j <? dm R)
  then Ok (Dense (dn R) (dm R) (fun a b => if (a =? i) && (b =? j) then v else dval R a b))
  else UB.

(* ---- CSRmatrix, matrices/CSRmatrix.hpp: an array_pool whose row i holds the column index and the value of
   each stored element in turn, and the sizes n, m.  An index is written through reinterpret_cast<int*> into a
   cell of the same width and read back the same way: a cell holds the integer.  Values are integers. *)
Record csr := CSR { cn : Z; cm : Z; cpool : apool }.
(* CSRmatrix(n,m), :63-64 *)
Definition csr_new (n m : Z) : csr := CSR n m (ap_new_n n).
(* CSRmatrix(Rtensor2_view), :109-132; x is the element function of the n by m view *)
Definition csr_of_dense (n m : Z) (x : Z -> Z -> Z) : res csr :=
  let A := ap_new_n n in
  do d <- it_resize n (adir A);
  let t := Z.of_nat (length (flat_map (fun i => filter (fun j => negb (x i j =? 0)) (zrange m)) (zrange n))) in
  do P <- ap_reserve (2 * t) (APool (amem A) (atail A) d);
  do P <- forZ n (fun i P =>
     do d <- it_set (adir P) i 0 (atail P);
     do ' (b, k) <- forZ m (fun j st =>
        let '(b, k) := st in
        if x i j =? 0 then Ok (b, k)
        else do b <- bput b (atail P + 2 * k) j;
             do b <- bput b (atail P + 2 * k + 1) (x i j);
             Ok (b, k + 1)) (amem P, 0);
     do d <- it_set d i 1 (2 * k);
     Ok (APool b (atail P + 2 * k) d)) (APool (amem P) 0 (adir P));
  Ok (CSR n m P).
(* size_of(i), :180-183 *)
Definition csr_size_of (rc : bool) (A : csr) (i : Z) : res Z :=
  chk rc (i <? cn A) (do s <- ap_size_of (cpool A) i; Ok (Z.quot s 2)).
(* for_each(lambda), :217-229 (CPU): the calls made, in order *)
Definition csr_row_calls (rc : bool) (A : csr) (i : Z) : res (list (Z * Z * Z)) :=
  do len <- csr_size_of rc A i;
  do offs <- it_get (adir (cpool A)) i 0;
  mapM (fun j => do c <- bget (amem (cpool A)) (offs + 2 * j);
                 do v <- bget (amem (cpool A)) (offs + 2 * j + 1); Ok (i, c, v)) (zrange len).
Definition csr_calls (rc : bool) (A : csr) : res (list (Z * Z * Z)) :=
  do l <- mapM (csr_row_calls rc A) (zrange (ap_size (cpool A))); Ok (concat l).
(* operator TensorView, :134-140 *)
Definition csr_dense (rc : bool) (A : csr) : res dense :=
  do l <- csr_calls rc A; foldM (fun c R => d_set (fst (fst c)) (snd (fst c)) (snd c) R) l (d_zero (cn A) (cm A)).
(* operator()(i,j), :191-201 *)
Definition csr_get (rc : bool) (A : csr) (i j : Z) : res Z :=
  chk rc (i <? cn A) (chk rc (i <? cm A)
    (assrt (i <? ap_size (cpool A))
      (do offs <- it_get (adir (cpool A)) i 0;
       do s <- it_get (adir (cpool A)) i 1;
       (fix go (k : nat) (a : Z) : res Z :=
          match k with
          | O => Throw
          | S k' => do c <- bget (amem (cpool A)) (offs + 2 * a);
                    if c =? j then bget (amem (cpool A)) (offs + 2 * a + 1) else go k' (a + 1)
          end) (Z.to_nat s) 0))).
(* set_at(i,k,j,v), :203-209 *)
Definition csr_set_at (rc : bool) (A : csr) (i k j v : Z) : res csr :=
  chk rc (i <? cn A)
    (do s <- csr_size_of rc A i;
     chk rc (k <? s)
       (do offs <- it_get (adir (cpool A)) i 0;
        do b <- bput (amem (cpool A)) (offs + 2 * k) j;
        do b <- bput b (offs + 2 * k + 1) v;
        Ok (CSR (cn A) (cm A) (APool b (atail (cpool A)) (adir (cpool A)))))).
(* make_transp(), :266-291; the counters are a vector of m ints, so an index outside [0,m) is UB *)
Definition cnt_get (m : Z) (len : Z -> Z) (j : Z) : res Z := if (0 <=? j) && (j <? m) then Ok (len j) else UB.
Definition cnt_inc (m : Z) (j : Z) (len : Z -> Z) : res (Z -> Z) :=
  do v <- cnt_get m len j; Ok (fun a => if a =? j then v + 1 else len a).
Definition csr_transp (rc : bool) (A : csr) : res csr :=
  let n := cn A in let m := cm A in
  do T <- ap_reserve (atail (cpool A)) (ap_new_n m);
  do calls <- csr_calls rc A;
  do len <- foldM (fun c len => cnt_inc m (snd (fst c)) len) calls (fun _ => 0);
  do T <- forZ m (fun i T =>
     do d <- it_set (adir T) i 0 (atail T);
     do l <- cnt_get m len i;
     do d <- it_set d i 1 (2 * l);
     Ok (APool (amem T) (atail T + 2 * l) d)) (APool (amem T) 0 (adir T));
  do st <- foldM (fun c st =>
     let '(b, len) := st in let '(i, j, v) := c in
     assrt (j <? ap_size T)
     (do offs <- it_get (adir T) j 0;
      do l <- cnt_get m len j;
      do b <- bput b (offs + 2 * l) i;
      do b <- bput b (offs + 2 * l + 1) v;
      do len <- cnt_inc m j len;
      Ok (b, len))) calls (amem T, fun _ => 0);
  Ok (CSR m n (APool (fst st) (atail T) (adir T))).
(* transp(), :261-264: the matrix with its cached transpose; a copy starts without one (:70-74), operator=
   keeps the cache of the left-hand side (:82-87), set_at leaves it alone *)
Record csrc := CSRC { cbase : csr; ccache : option csr }.
Definition csrc_transp (rc : bool) (A : csrc) : res (csr * csrc) :=
  match ccache A with
  | Some T => Ok (T, A)
  | None => do T <- csr_transp rc (cbase A); Ok (T, CSRC (cbase A) (Some T))
  end.
Definition csr_copy (A : csr) : res csr := do p <- ap_copy (cpool A); Ok (CSR (cn A) (cm A) p).
Definition csrc_assign (A : csrc) (x : csrc) : res csrc := do b <- csr_copy (cbase x); Ok (CSRC b (ccache A)).
Definition csrc_set_at (rc : bool) (A : csrc) (i k j v : Z) : res csrc :=
  do b <- csr_set_at rc (cbase A) i k j v; Ok (CSRC b (ccache A)).

(* ---- SparseRmatrix, matrices/SparseRmatrix.hpp: rows in a std::map<int,SparseVec*>, SparseVec a
   std::map<int,float>.  Simplified: the maps are association lists in insertion order instead of sorted
   order (the theorems do not depend on the order); values are integers. *)
Record srm := SRM { sn : Z; sm : Z; slists : mom }.
(* SparseRmatrix(n,m), :119-120 *)
Definition sr_new (n m : Z) : srm := SRM n m [].
(* set(i,j,v), :265-276 *)
Definition sr_set (i j v : Z) (A : srm) : res srm :=
  assrt (i <? sn A) (assrt (j <? sm A) (Ok (SRM (sn A) (sm A) (mom_set i j v (slists A))))).
(* operator()(i,j), :257-263, conditional_rowp(i), :292-297 *)
Definition sr_get (A : srm) (i j : Z) : res Z :=
  assrt (i <? sn A) (Ok (match mfind i (slists A) with
                         | None => 0
                         | Some r => match mfind j r with None => 0 | Some v => v end end)).
(* row(i), :278-290: both overloads insert an empty row for an absent index *)
Definition sr_row (i : Z) (A : srm) : res (zmap Z * srm) :=
  assrt (i <? sn A)
    (match mfind i (slists A) with
     | Some r => Ok (r, A)
     | None => Ok ([], SRM (sn A) (sm A) (mset i [] (slists A)))
     end).
(* size(), :250-255; forall_nonzero, :307-313 *)
Definition sr_size (A : srm) : Z := mom_size (slists A).
Definition sr_calls (A : srm) : list (Z * Z * Z) := mom_calls (slists A).
(* SparseVec::operator==, :46-53 *)
Definition sv_eq (a b : zmap Z) : bool :=
  forallb (fun p => match mfind (fst p) b with Some v => snd p =? v | None => false end) a.
(* std::map's operator!= on the rows (the class defines no operator!=, and the library is compiled as C++17):
   equal sizes and equal elements *)
Definition map_eq (a b : zmap Z) : bool := (length a =? length b)%nat && sv_eq a b.
(* SparseRmatrix::operator==, :227-236 *)
Definition sr_eq (a b : srm) : bool :=
  (sn a =? sn b) && (sm a =? sm b) && (length (slists a) =? length (slists b))%nat &&
  forallb (fun p => match mfind (fst p) (slists b) with Some r => map_eq (snd p) r | None => false end) (slists a).
(* transp(), :334-338 *)
Definition sr_transp (A : srm) : res srm :=
  foldM (fun c R => sr_set (snd (fst c)) (fst (fst c)) (snd c) R) (sr_calls A) (sr_new (sm A) (sn A)).
(* copy constructor, :126-133: every row is copied *)
Definition sr_copy (A : srm) : srm := SRM (sn A) (sm A) (fold_left (fun l p => mset (fst p) (snd p) l) (slists A) []).
(* from_list, :161-173; M is the list of its rows *)
Definition sr_from_list (M : list (Z * Z)) : res srm :=
  let n := fold_left (fun a p => Z.max (fst p) a) M 0 in
  let m := fold_left (fun a p => Z.max (snd p) a) M 0 in
  foldM (fun p R => sr_set (fst p) (snd p) 1 R) M (sr_new n m).
(* from_matrix, :175-184 *)
Definition sr_from_matrix (n m : Z) (x : Z -> Z -> Z) : res srm :=
  forZ n (fun i R => forZ m (fun j R => if 0 <? x i j then sr_set i j (x i j) R else Ok R) R) (sr_new n m).
(* SparseRmatrix(TensorView), :191-198 *)
Definition sr_of_dense (n m : Z) (x : Z -> Z -> Z) : res srm :=
  forZ n (fun i R => forZ m (fun j R => if x i j =? 0 then Ok R else sr_set i j (x i j) R) R) (sr_new n m).
(* dense(), :209-214 *)
Definition sr_dense (A : srm) : res dense :=
  foldM (fun c R => d_set (fst (fst c)) (snd (fst c)) (snd c) R) (sr_calls A) (d_zero (sn A) (sm A)).
(* csrmatrix(), :341-368: the result is default-constructed, so its sizes n and m stay 0 *)
Definition sr_csr (A : srm) : res csr :=
  do d <- it_resize (sn A) (adir ap_new);
  let t := fold_right Z.add 0 (map (fun p => 2 * Z.of_nat (length (snd p))) (slists A)) in
  do P <- ap_reserve t (APool [] 0 d);
  do ' (b, d, t) <- forZ (sn A) (fun i st =>
     let '(b, d, t) := st in
     do d <- it_set d i 0 t;
     match mfind i (slists A) with
     | None => do d <- it_set d i 1 0; Ok (b, d, t)
     | Some v =>
         do d <- it_set d i 1 (2 * Z.of_nat (length v));
         do ' (b, t) <- foldM (fun p st => let '(b, t) := st in
            do b <- bput b t (fst p); do b <- bput b (t + 1) (snd p); Ok (b, t + 2)) v (b, t);
         Ok (b, d, t)
     end) (amem P, adir P, 0);
  Ok (CSR 0 0 (APool b t d)).
