(* Model_Math.v -- math/Primes.hpp, frational.hpp, FFactorial.hpp, Factorial.hpp, cyclic.hpp, Determinant.hpp,
   combinatorial/DeltaFactor.hpp and algorithms/SortRowsUnique.hpp.
   Integers are unbounded except in Factorial and cyclic, where a signed overflow is undefined behaviour. *)
From Verif Require Import Base Map Model_Index Model_View.
Local Open Scope Z_scope.

(* ---- Primes, math/Primes.hpp:22-38 ---- *)
Record primes := Primes { plist : list Z; plimit : Z }.
Definition no_primes : primes := Primes [] 1.
(* while(x%p==0) {x/=p;}, :32; a loop that never ends is undefined behaviour.  The fuel |x|+1 suffices for every x
   other than 0, since |x| decreases. *)
Fixpoint divide_out (fuel : nat) (x p : Z) : res Z :=
  match fuel with
  | O => UB
  | S fuel => do r <- crem x p; if r =? 0 then do q <- cdiv x p; divide_out fuel q p else Ok x
  end.
(* for(auto p: *this){while(x%p==0) {x/=p;} if(x==1) break;}, :31-34 *)
Fixpoint strip (ps : list Z) (x : Z) : res Z :=
  match ps with
  | [] => Ok x
  | p :: ps => do x <- divide_out (S (Z.to_nat (Z.abs x))) x p; if x =? 1 then Ok x else strip ps x
  end.
(* extend(lim), :27-38 *)
Definition extend_step (i : Z) (l : list Z) : res (list Z) := do x <- strip l i; Ok (if 1 <? x then l ++ [x] else l).
Definition extend (lim : Z) (s : primes) : res primes :=
  if lim <=? plimit s then Ok s
  else do l <- foldM extend_step (map (Z.add (plimit s + 1)) (zrange (lim - plimit s))) (plist s); Ok (Primes l lim).
(* vector<int>::operator[] *)
Definition prime_at (i : Z) (s : primes) : res Z := zget (plist s) i.

(* ---- frational, math/frational.hpp:25-98: a map from primes to exponents.  The conversions to double and the string
   form are left out. ---- *)
Definition factors := list (Z * Z).
Definition expo (p : Z) (f : factors) : Z := match mfind p f with Some e => e | None => 0 end.
(* factors[p]+=e *)
Definition fadd (p e : Z) (f : factors) : factors := mset p (expo p f + e) f.
(* int i=0; while(x%p==0) {x/=p; i++;}, :35-36; for x==0 it never ends *)
Fixpoint divide_count (fuel : nat) (x p i : Z) : res (Z * Z) :=
  match fuel with
  | O => UB
  | S fuel => do r <- crem x p; if r =? 0 then do q <- cdiv x p; divide_count fuel q p (i + 1) else Ok (x, i)
  end.
(* the loop of :34-39 *)
Fixpoint factorise (ps : list Z) (x : Z) (f : factors) : res factors :=
  match ps with
  | [] => Ok f
  | p :: ps => do ' (x, i) <- divide_count (S (Z.to_nat (Z.abs x))) x p 0;
      let f := fadd p i f in if x =? 1 then Ok f else factorise ps x f
  end.
(* frational(x), :32-40, with the global table of primes *)
Definition frational_of (x : Z) (s : primes) : res (factors * primes) :=
  do s <- extend x s; do f <- factorise (plist s) x []; Ok (f, s).
(* p_not_one, q_not_one, :66-76 *)
Definition p_not_one (f : factors) : bool := existsb (fun x => 0 <? snd x) f.
Definition q_not_one (f : factors) : bool := existsb (fun x => snd x <? 0) f.
(* operator/, :82-87, operator*, :89-94 *)
Definition frdiv (f g : factors) : factors := fold_left (fun r x => fadd (fst x) (- snd x) r) g f.
Definition frmul (f g : factors) : factors := fold_left (fun r x => fadd (fst x) (snd x) r) g f.
(* operator*(int), :96-98;  frational(p,q), :42-46 *)
Definition frmul_int (f : factors) (y : Z) (s : primes) : res (factors * primes) := do ' (g, s) <- frational_of y s; Ok (frmul f g, s).
Definition frational_pq (p q : Z) (s : primes) : res (factors * primes) :=
  do ' (f, s) <- frational_of p s; do ' (g, s) <- frational_of q s; Ok (frdiv f g, s).

(* ---- FFactorial, math/FFactorial.hpp:24-46 ---- *)
Record ffact := FF { fvec : list factors; fprimes : primes }.
Definition ffact_new (s : primes) : res ffact := do ' (f, s) <- frational_of 1 s; Ok (FF [f] s).
Definition ffact_step (i : Z) (t : ffact) : res ffact :=
  do ' (f, s) <- frational_of i (fprimes t);
  do last <- zget (fvec t) (Z.of_nat (length (fvec t)) - 1);
  Ok (FF (fvec t ++ [frmul last f]) s).
(* extend(x), :38-44.  x<f.size() compares unsigned numbers, so it is false for a negative x; the loop then does nothing *)
Definition ffact_extend (x : Z) (t : ffact) : res ffact :=
  let m := Z.of_nat (length (fvec t)) in
  if (0 <=? x) && (x <? m) then Ok t
  else foldM ffact_step (map (Z.add m) (zrange (x - m + 1))) t.
Definition ffactorial (x : Z) (t : ffact) : res (factors * ffact) :=
  do t <- ffact_extend x t; do f <- zget (fvec t) x; Ok (f, t).

(* ---- DeltaFactor, combinatorial/DeltaFactor.hpp:53-78: a cache of factored rationals by three integers ---- *)
Definition dkey := (Z * Z * Z)%type.
Definition dkey_eqb (k l : dkey) : bool := let '(a, b, c) := k in let '(x, y, z) := l in (a =? x) && (b =? y) && (c =? z).
Record dfact := DF { dmap : list (dkey * factors); dff : ffact }.
Fixpoint dfind (k : dkey) (m : list (dkey * factors)) : option factors :=
  match m with [] => None | (l, f) :: m => if dkey_eqb l k then Some f else dfind k m end.
(* the maker, :60-68.  C++ leaves the order in which the four factorials are computed open; here it is left to right. *)
Definition delta_make (k : dkey) (t : ffact) : res (factors * ffact) :=
  let '(a, b, c) := k in
  do ' (r, t) <- ffactorial (a + b - c) t; do ' (u, t) <- ffactorial (a - b + c) t;
  do ' (v, t) <- ffactorial (- a + b + c) t; do ' (w, t) <- ffactorial (a + b + c + 1) t;
  Ok (frdiv (frmul (frmul r u) v) w, t).
(* squared(a,b,c), :74-76, through object_bank::operator(), containers/object_bank.hpp:45-51 *)
Definition delta_squared (k : dkey) (d : dfact) : res (factors * dfact) :=
  match dfind k (dmap d) with
  | Some f => Ok (f, d)
  | None => do ' (f, t) <- delta_make k (dff d); Ok (f, DF ((k, f) :: dmap d) t)
  end.

(* ---- machine integers ---- *)
Definition int_min : Z := -2147483648.
Definition int_max : Z := 2147483647.
Definition fits_int (x : Z) : bool := (int_min <=? x) && (x <=? int_max).
Definition chk (x : Z) : res Z := if fits_int x then Ok x else UB.

(* ---- Factorial, math/Factorial.hpp:22-41 ---- *)
Definition fact_new : list Z := [1].
Definition fact_step (i : Z) (l : list Z) : res (list Z) := do p <- zget l (i - 1); do x <- chk (p * i); Ok (l ++ [x]).
(* n<fact.size() compares unsigned numbers.  For a negative n, fact.resize(n+1) throws unless n is -1, when the table is
   emptied and fact[-1] read.  Entries not yet computed are not modelled: the loop fills the resized part in order. *)
Definition factorial (n : Z) (l : list Z) : res (Z * list Z) :=
  let m := Z.of_nat (length l) in
  if n <? -1 then Throw else if n <? 0 then UB
  else if n <? m then do x <- zget l n; Ok (x, l)
  else do l <- foldM fact_step (map (Z.add m) (zrange (n - m + 1))) l; do x <- zget l n; Ok (x, l).

(* ---- cyclic<int>, math/cyclic.hpp:23-60: the modulus n and the value v ---- *)
Record cyclic := Cyc { cn : Z; cv : Z }.
(* cyclic(n,v): v%n *)
Definition cyc (n v : Z) : res cyclic := do r <- crem v n; Ok (Cyc n r).
(* operator+, operator-, unary operator-, :50-60 *)
Definition cyc_add (x y : cyclic) : res cyclic := do s <- chk (cv x + cv y); cyc (cn x) s.
Definition cyc_sub (x y : cyclic) : res cyclic := do s <- chk (cv x - cv y); cyc (cn x) s.
Definition cyc_neg (x : cyclic) : res cyclic := do s <- chk (cn x - cv x); cyc (cn x) s.

(* ---- determinant, math/Determinant.hpp:22-32 ---- *)
Definition det_elem {R : cring} (m : mem R) (x : view) (i j : Z) : res R := do p <- vaddr x [i; j]; load m (fst p) (snd p).
Definition determinant {R : cring} (m : mem R) (x : view) : res R :=
  match vdims x with
  | [d0; d1] =>
      assrt (d0 =? d1) (assrt (d0 =? 3)
        (let e := det_elem m x in
         do x00 <- e 0 0; do x11 <- e 1 1; do x22 <- e 2 2; do x12 <- e 1 2; do x21 <- e 2 1;
         do x01 <- e 0 1; do x20 <- e 2 0; do x10 <- e 1 0; do x02 <- e 0 2;
         let det := cmul x00 (csub (cmul x11 x22) (cmul x12 x21)) in
         let det := cadd det (cmul x01 (csub (cmul x12 x20) (cmul x10 x22))) in
         let det := cadd det (cmul x02 (csub (cmul x10 x21) (cmul x11 x20))) in
         Ok det))
  | _ => Throw
  end.

(* ---- SortRowsUnique, algorithms/SortRowsUnique.hpp:26-53, for integer entries ----
   A row is a pointer, a length and a stride (tensor_views/tensor1_view.hpp:44-60); comparing two rows reads them. *)
Record row := Row { rb : Z; ro : Z; rn : Z; rs : Z }.
Fixpoint row_less_from (m : mem Z) (x y : row) (i : Z) (k : nat) : res bool :=
  match k with
  | O => Ok false
  | S k => do a <- load m (rb x) (ro x + i * rs x); do b <- load m (rb y) (ro y + i * rs y);
      if a <? b then Ok true else if b <? a then Ok false else row_less_from m x y (i + 1) k
  end.
(* tensor1_view::operator<, tensor1_view.hpp:121-128 *)
Definition row_less (m : mem Z) (x y : row) : res bool := assrt (rn x =? rn y) (row_less_from m x y 0 (Z.to_nat (rn x))).
(* std::set::insert: the elements are kept in ascending order and an element equivalent to a present one is dropped *)
Fixpoint set_insert (m : mem Z) (x : row) (s : list row) : res (list row) :=
  match s with
  | [] => Ok [x]
  | y :: s => do l <- row_less m x y;
      if (l : bool) then Ok (x :: y :: s)
      else do g <- row_less m y x; if (g : bool) then do s <- set_insert m x s; Ok (y :: s) else Ok (y :: s)
  end.
(* tensor1_view::operator=, tensor1_view.hpp:73-80 *)
Definition row_assign (x y : row) (m : mem Z) : res (mem Z) :=
  forZ (rn x) (fun i m => do v <- load m (rb y) (ro y + i * rs y); store m (rb x) (ro x + i * rs x) v) m.
(* the new matrix R is in block nb, a block not in use; its memory is not initialised: here it is filled with 0 *)
Definition alloc (nb n : Z) (m : mem Z) : mem Z := fun b a => if (b =? nb) && (0 <=? a) && (a <? n) then Some 0 else if b =? nb then None else m b a.
Definition sort_rows_unique (nb : Z) (x : view) (m : mem Z) : res (view * mem Z) :=
  match vdims x, vstr x with
  | [n; c], [s0; s1] =>
      do set <- forZ n (fun i s => set_insert m (Row (vblk x) (voff x + s0 * i) c s1) s) [];
      let k := Z.of_nat (length set) in
      let R := fresh_view nb [k; c] in
      do m <- foldM (fun p m => row_assign (Row nb (c * fst p) c 1) (snd p) m) (combine (zrange k) set) (alloc nb (k * c) m);
      Ok (R, m)
  | [_; _], _ => UB
  | _, _ => Throw
  end.
