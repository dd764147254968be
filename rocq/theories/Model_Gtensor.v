(* Model_Gtensor.v -- Gtensor<TYPE>: the stand-alone dense tensor that owns its array.
   include/Gtensor.hpp.
   Simplifications: CPU only (dev==0, so to_device(0) does nothing); int is unbounded Z; the element type
   is abstract; "delete arr" on an array obtained by new[] is taken to free that array (the standard calls
   it undefined); uninitialised cells hold some arbitrary value [junk] and reading them is not an error;
   CNINE_ASSERT, CNINE_ASSRT and assert all stop the call (Throw). *)
From Verif Require Import Base Model_Index Model_View Model_Tensor.
Local Open Scope Z_scope.

(* the heap: cells of the arrays, the arrays now allocated, and the next array name *)
Record heap (V : Type) := Heap { hmem : mem V; hlive : list Z; hnext : Z }.
Arguments Heap {V}. Arguments hmem {V}. Arguments hlive {V}. Arguments hnext {V}.
(* the fields k, ak, dims, strides, asize, memsize, arr (None: nullptr), is_view -- Gtensor.hpp:48-60.
   arr always points at the beginning of an array. *)
Record gtensor := GT { gk : Z; gak : Z; gdims : list Z; gstr : list Z; gasize : Z; gmemsize : Z;
                       garr : option Z; gisview : bool }.
(* the tensor as a shape with strides over its array (-1 stands for no array) *)
Definition gview (t : gtensor) : view :=
  View (match garr t with Some b => b | None => -1 end) 0 (gdims t) (gstr t).

(* roundup(x,s) -- include/Cnine_base_helpers.hpp:12-14 *)
Definition roundup (x s : Z) : Z := (Z.quot (x - 1) s + 1) * s.
(* make_strides() -- Gtensor.hpp:156-164.  Returns strides and memsize.  Without dimensions strides[-1] is
   written. *)
Definition make_strides (dims : list Z) : res (list Z * Z) :=
  match dims, strides_of 1 dims with
  | d0 :: _, s0 :: _ => Ok (strides_of 1 dims, s0 * d0)
  | _, _ => UB
  end.
(* make_strides(ak) -- :166-177, for the shape adims followed by dims with ak=|adims|.  If dims is empty,
   strides[ak] is beyond the end. *)
Definition make_strides_pad (adims dims : list Z) : res (list Z * Z) :=
  match adims with
  | [] => make_strides dims
  | a0 :: _ =>
      match dims, strides_of 1 dims with
      | d0 :: _, s0 :: _ =>
          let top := strides_of (roundup (s0 * d0) 32) adims in
          match top with
          | t0 :: _ => Ok (top ++ strides_of 1 dims, t0 * a0)
          | [] => UB
          end
      | _, _ => UB
      end
  end.

Section Heap.
Context {V : Type} (junk : V).
Notation heapV := (heap V).

(* new TYPE[n] -- a negative length throws std::bad_array_new_length *)
Definition new_arr (n : Z) (h : heapV) : res (Z * heapV) :=
  if n <? 0 then Throw
  else Ok (hnext h, Heap (alloc junk (hnext h) n (hmem h)) (hnext h :: hlive h) (hnext h + 1)).
(* delete arr -- deleting a null pointer does nothing, deleting a freed array is UB *)
Definition free_arr (p : option Z) (h : heapV) : res heapV :=
  match p with
  | None => Ok h
  | Some b =>
      if existsb (Z.eqb b) (hlive h)
      then Ok (Heap (fun b' a => if b' =? b then None else hmem h b' a)
                    (filter (fun b' => negb (b' =? b)) (hlive h)) (hnext h))
      else UB
  end.
(* arr[a] read and written *)
Definition rd (h : heapV) (t : gtensor) (a : Z) : res V :=
  match garr t with Some b => load (hmem h) b a | None => UB end.
Definition wr (t : gtensor) (a : Z) (v : V) (h : heapV) : res heapV :=
  match garr t with
  | Some b => do m <- store (hmem h) b a v; Ok (Heap m (hlive h) (hnext h))
  | None => UB
  end.
(* std::fill(arr,arr+n,v) *)
Definition fill_arr (t : gtensor) (n : Z) (v : V) (h : heapV) : res heapV := forZ n (fun i => wr t i v) h.
(* std::copy(x.arr+xo,x.arr+xo+n,t.arr+o): n ascending element copies *)
Definition copy_arr (x : gtensor) (xo : Z) (t : gtensor) (o n : Z) (h : heapV) : res heapV :=
  forZ n (fun i h => do v <- rd h x (xo + i); wr t (o + i) v h) h.

(* ---- constructors ---- *)
(* Gtensor(dims) -- :81-92; fill_raw :192-193 *)
Definition gnew (dims : list Z) (h : heapV) : res (gtensor * heapV) :=
  do ' (s, n) <- make_strides dims;
  do ' (b, h') <- new_arr n h;
  Ok (GT (Z.of_nat (length dims)) 0 dims s n n (Some b) false, h').
(* Gtensor(k,dims,strides,asize) -- :94-110 *)
Definition gnew_str (k : Z) (dims strides : list Z) (n : Z) (h : heapV) : res (gtensor * heapV) :=
  do ' (b, h') <- new_arr n h;
  Ok (GT k 0 dims strides n n (Some b) false, h').
(* Gtensor(adims,dims): an array of cells, each padded -- :112-124 *)
Definition gnew_array (adims dims : list Z) (h : heapV) : res (gtensor * heapV) :=
  do ' (s, n) <- make_strides_pad adims dims;
  do ' (b, h') <- new_arr n h;
  Ok (GT (Z.of_nat (length adims + length dims)) (Z.of_nat (length adims)) (adims ++ dims) s
         (asize (adims ++ dims)) n (Some b) false, h').
(* Gtensor(vector) -- :126-134 *)
Definition gnew_vec (v : list V) (h : heapV) : res (gtensor * heapV) :=
  let n := Z.of_nat (length v) in
  do ' (b, h1) <- new_arr n h;
  let t := GT 1 0 [n] [1] n n (Some b) false in
  do h2 <- forZ n (fun i h => do x <- zget v i; wr t i x h) h1;
  Ok (t, h2).
(* fill_zero -- :195-199; the array variant -- :246-251 *)
Definition gnew_const (c : V) (dims : list Z) (h : heapV) : res (gtensor * heapV) :=
  do ' (t, h1) <- gnew dims h; do h2 <- fill_arr t (gmemsize t) c h1; Ok (t, h2).
Definition gnew_array_const (c : V) (adims dims : list Z) (h : heapV) : res (gtensor * heapV) :=
  do ' (t, h1) <- gnew_array adims dims h; do h2 <- fill_arr t (gmemsize t) c h1; Ok (t, h2).
(* fill_identity -- :201-209 *)
Definition gnew_identity (zero one : V) (dims : list Z) (h : heapV) : res (gtensor * heapV) :=
  do ' (t, h1) <- gnew dims h;
  assrt (Z.of_nat (length dims) =? 2)
    (do d0 <- zget dims 0; do d1 <- zget dims 1;
     assrt (d0 =? d1)
       (do h2 <- fill_arr t (gmemsize t) zero h1;
        do h3 <- forZ d1 (fun i => wr t (i * (d0 + 1)) one) h2;
        Ok (t, h3))).
(* fill_sequential and fill_gaussian -- :211-216, :234-238: arr[i]=g(i) for i<asize, where g i is i or the
   i-th random draw; the array variants -- :257-278 *)
Definition gnew_by (g : Z -> V) (dims : list Z) (h : heapV) : res (gtensor * heapV) :=
  do ' (t, h1) <- gnew dims h; do h2 <- forZ (gasize t) (fun i => wr t i (g i)) h1; Ok (t, h2).
Definition gnew_array_by (g : Z -> V) (adims dims : list Z) (h : heapV) : res (gtensor * heapV) :=
  do ' (t, h1) <- gnew_array adims dims h; do h2 <- forZ (gasize t) (fun i => wr t i (g i)) h1; Ok (t, h2).
(* copy constructor -- :284-291, :293-299, and :301-317 on the CPU *)
Definition gcopy (x : gtensor) (h : heapV) : res (gtensor * heapV) :=
  do ' (t, h1) <- gnew_str (gk x) (gdims x) (gstr x) (gasize x) h;
  let t' := GT (gk t) (gak x) (gdims t) (gstr t) (gasize t) (gmemsize x) (garr t) false in
  do h2 <- copy_arr x 0 t' 0 (gmemsize x) h1; Ok (t', h2).
(* conversion from another element type -- :360-372; here the two types coincide and f converts *)
Definition gconvert (f : V -> V) (x : gtensor) (h : heapV) : res (gtensor * heapV) :=
  do ' (t, h1) <- gnew_str (gk x) (gdims x) (gstr x) (gasize x) h;
  do h2 <- forZ (gasize t) (fun i h => do v <- rd h x i; wr t i (f v) h) h1; Ok (t, h2).
(* the view constructor, flat_view and reshape_view -- :378-396.  Without dimensions strides[-1] is written
   before anything is checked. *)
Definition greshape_view (x : gtensor) (dims : list Z) : res gtensor :=
  do ' (s, n) <- make_strides dims;
  assrt (n =? gasize x)
    (Ok (GT (Z.of_nat (length dims)) 0 dims s n (gmemsize x) (garr x) true)).
Definition gflat_view (x : gtensor) : res gtensor := greshape_view x [gasize x].

(* ---- access ---- *)
(* int t=0; for(i=a; i<b; i++) t+=ix[i-a]*strides[i]; *)
Definition off_from (a b : Z) (ix s : list Z) (t0 : Z) : res Z :=
  forZ (b - a) (fun i t => do x <- zget ix i; do y <- zget s (a + i); Ok (t + x * y)) t0.
(* operator()(ix), get, set, inc -- :440-473 *)
Definition goff (t : gtensor) (ix : list Z) : res Z := off_from 0 (gk t) ix (gstr t) 0.
Definition gget (t : gtensor) (ix : list Z) (h : heapV) : res V := do o <- goff t ix; rd h t o.
Definition gset (t : gtensor) (ix : list Z) (v : V) (h : heapV) : res heapV := do o <- goff t ix; wr t o v h.
Definition ginc (plus : V -> V -> V) (t : gtensor) (ix : list Z) (v : V) (h : heapV) : res heapV :=
  do o <- goff t ix; do x <- rd h t o; wr t o (plus x v) h.
(* get, set, inc(ix1,ix2) -- :491-516 *)
Definition goff2 (t : gtensor) (ix1 ix2 : list Z) : res Z :=
  let u := Z.of_nat (length ix1) in
  do o <- off_from 0 u ix1 (gstr t) 0; off_from u (gk t) ix2 (gstr t) o.
Definition gget2 (t : gtensor) (ix1 ix2 : list Z) (h : heapV) : res V := do o <- goff2 t ix1 ix2; rd h t o.
Definition gset2 (t : gtensor) (ix1 ix2 : list Z) (v : V) (h : heapV) : res heapV :=
  do o <- goff2 t ix1 ix2; wr t o v h.
Definition ginc2 (plus : V -> V -> V) (t : gtensor) (ix1 ix2 : list Z) (v : V) (h : heapV) : res heapV :=
  do o <- goff2 t ix1 ix2; do x <- rd h t o; wr t o (plus x v) h.
(* (ix,i1), (ix,i1,i2), (ix,i1,i2,i3): js are the one to three last entries -- :522-622 *)
Definition goff_arr (t : gtensor) (ix js : list Z) : res Z :=
  let n := gk t - Z.of_nat (length js) in
  assrt (Z.of_nat (length ix) =? n)
    (do o <- off_from 0 n ix (gstr t) 0; off_from n (gk t) js (gstr t) o).
Definition gget_arr (t : gtensor) (ix js : list Z) (h : heapV) : res V := do o <- goff_arr t ix js; rd h t o.
Definition gset_arr (t : gtensor) (ix js : list Z) (v : V) (h : heapV) : res heapV :=
  do o <- goff_arr t ix js; wr t o v h.
(* (i0), (i0,i1), ..., (i0,..,i6) -- :630-845 *)
Definition goff_n (t : gtensor) (ix : list Z) : res Z :=
  assrt (gk t =? Z.of_nat (length ix)) (off_from 0 (Z.of_nat (length ix)) ix (gstr t) 0).
Definition gget_n (t : gtensor) (ix : list Z) (h : heapV) : res V := do o <- goff_n t ix; rd h t o.
Definition gset_n (t : gtensor) (ix : list Z) (v : V) (h : heapV) : res heapV := do o <- goff_n t ix; wr t o v h.
Definition ginc_n (plus : V -> V -> V) (t : gtensor) (ix : list Z) (v : V) (h : heapV) : res heapV :=
  do o <- goff_n t ix; do x <- rd h t o; wr t o (plus x v) h.
(* set(v), zero() -- :475-489, :872-875 *)
Definition gset_all (t : gtensor) (v : V) (h : heapV) : res heapV := fill_arr t (gmemsize t) v h.
(* slice(ix) -- :851-857 *)
Definition gslice (t : gtensor) (ix : list Z) (h : heapV) : res (gtensor * heapV) :=
  do d <- vchunk (Z.of_nat (length ix)) (-1) (gdims t);
  do ' (r, h1) <- gnew d h;
  do o <- off_from 0 (Z.of_nat (length ix)) ix (gstr t) 0;
  do h2 <- copy_arr t o r 0 (asize d) h1; Ok (r, h2).
(* set_slice(ix,x) -- :859-866 *)
Definition gset_slice (t : gtensor) (ix : list Z) (x : gtensor) (h : heapV) : res heapV :=
  do o <- off_from 0 (Z.of_nat (length ix)) ix (gstr t) 0;
  copy_arr x 0 t o (gasize x) h.

(* ---- elementwise operations over the first asize cells ---- *)
(* Gtensor R(dims); for(i<asize) R.arr[i]=f(arr[i]) *)
Definition gmap (f : V -> V) (t : gtensor) (h : heapV) : res (gtensor * heapV) :=
  do ' (r, h1) <- gnew (gdims t) h;
  do h2 <- forZ (gasize t) (fun i h => do v <- rd h t i; wr r i (f v) h) h1; Ok (r, h2).
(* Gtensor R(dims); for(i<asize) R.arr[i]=f(arr[i],x.arr[i]) *)
Definition gmap2 (f : V -> V -> V) (t x : gtensor) (h : heapV) : res (gtensor * heapV) :=
  do ' (r, h1) <- gnew (gdims t) h;
  do h2 <- forZ (gasize t) (fun i h => do v <- rd h t i; do w <- rd h x i; wr r i (f v w) h) h1; Ok (r, h2).
(* for(i<asize) arr[i]=f(arr[i]), f(arr[i],x.arr[i]), f(arr[i],x.arr[i],y.arr[i]) *)
Definition gupd (f : V -> V) (t : gtensor) (h : heapV) : res heapV :=
  forZ (gasize t) (fun i h => do v <- rd h t i; wr t i (f v) h) h.
Definition gupd2 (f : V -> V -> V) (t x : gtensor) (h : heapV) : res heapV :=
  forZ (gasize t) (fun i h => do v <- rd h t i; do w <- rd h x i; wr t i (f v w) h) h.
Definition gupd3 (f : V -> V -> V -> V) (t x y : gtensor) (h : heapV) : res heapV :=
  forZ (gasize t) (fun i h => do v <- rd h t i; do w <- rd h x i; do u <- rd h y i; wr t i (f v w u) h) h.
(* operator== -- :884-890; the loop stops at the first difference *)
Fixpoint eq_loop (eqv : V -> V -> bool) (t x : gtensor) (l : list Z) (h : heapV) : res bool :=
  match l with
  | [] => Ok true
  | i :: l' => do v <- rd h t i; do w <- rd h x i;
               if eqv v w then eq_loop eqv t x l' h else Ok false
  end.
Definition geq (eqv : V -> V -> bool) (t x : gtensor) (h : heapV) : res bool :=
  if gasize x =? gasize t then eq_loop eqv t x (zrange (gasize t)) h else Ok false.
(* TYPE t=0; for(i<asize) t+=f(arr[i],x.arr[i]) *)
Definition gsum2 (plus : V -> V -> V) (zero : V) (f : V -> V -> V) (t x : gtensor) (h : heapV) : res V :=
  forZ (gasize t) (fun i s => do v <- rd h t i; do w <- rd h x i; Ok (plus s (f v w))) zero.
End Heap.

Section Ring.
Context {R : cring} (conj : R -> R) (junk : R).
Notation heapR := (heap (car R)).
(* plus, minus, times, elementwise_times, conj -- :892-964; abs, real, elementwise_pow and
   elementwise_divide have the same loops *)
Definition gplus (t x : gtensor) (h : heapR) : res (gtensor * heapR) :=
  assrt (gasize t =? gasize x) (gmap2 junk cadd t x h).
Definition gminus (t x : gtensor) (h : heapR) : res (gtensor * heapR) :=
  assrt (gasize t =? gasize x) (gmap2 junk csub t x h).
Definition gtimes (c : R) (t : gtensor) (h : heapR) : res (gtensor * heapR) := gmap junk (cmul c) t h.
Definition gelem_times (t x : gtensor) (h : heapR) : res (gtensor * heapR) :=
  assrt (gasize t =? gasize x) (gmap2 junk cmul t x h).
Definition gconj (t : gtensor) (h : heapR) : res (gtensor * heapR) := gmap junk conj t h.
(* odot, odotc -- :1145-1161 *)
Definition godot (t x : gtensor) (h : heapR) : res (gtensor * heapR) :=
  assrt (eqlb (gdims t) (gdims x)) (gmap2 junk cmul t x h).
Definition godotc (t x : gtensor) (h : heapR) : res (gtensor * heapR) :=
  assrt (eqlb (gdims t) (gdims x)) (gmap2 junk (fun v w => cmul v (conj w)) t x h).
(* norm2, inp, inpc, diff2 -- :1085-1131 *)
Definition gnorm2 (t : gtensor) (h : heapR) : res R := gsum2 cadd c0 cmul t t h.
Definition ginp (t x : gtensor) (h : heapR) : res R :=
  assrt (gasize t =? gasize x) (gsum2 cadd c0 cmul t x h).
Definition ginpc (t x : gtensor) (h : heapR) : res R :=
  assrt (gasize t =? gasize x) (gsum2 cadd c0 (fun v w => cmul v (conj w)) t x h).
Definition gdiff2 (t x : gtensor) (h : heapR) : res R :=
  assrt (eqlb (gdims x) (gdims t))
    (assrt (gasize x =? gasize t) (gsum2 cadd c0 (fun v w => cmul (csub v w) (csub v w)) t x h)).
(* operator+=, operator-=, operator*= -- :1177-1204; add, addc, subc, subtract -- :1215-1253 *)
Definition gadd_in (t x : gtensor) (h : heapR) : res heapR :=
  assrt (gasize t =? gasize x) (gupd2 cadd t x h).
Definition gsub_in (t x : gtensor) (h : heapR) : res heapR :=
  assrt (gasize t =? gasize x) (gupd2 csub t x h).
Definition gmul_in (t x : gtensor) (h : heapR) : res heapR :=
  assrt (gasize t =? gasize x) (gupd2 cmul t x h).
Definition gscale_in (t : gtensor) (c : R) (h : heapR) : res heapR := gupd (fun v => cmul v c) t h.
Definition gadd_c (t x : gtensor) (c : R) (h : heapR) : res heapR :=
  assrt (gasize t =? gasize x) (gupd2 (fun v w => cadd v (cmul w c)) t x h).
Definition gaddc (t x : gtensor) (h : heapR) : res heapR :=
  assrt (gasize t =? gasize x) (gupd2 (fun v w => cadd v (conj w)) t x h).
Definition gaddc_c (t x : gtensor) (c : R) (h : heapR) : res heapR :=
  assrt (gasize t =? gasize x) (gupd2 (fun v w => cadd v (cmul (conj w) c)) t x h).
Definition gsubc_c (t x : gtensor) (c : R) (h : heapR) : res heapR :=
  assrt (gasize t =? gasize x) (gupd2 (fun v w => csub v (cmul (conj w) c)) t x h).
Definition gsub_c (t x : gtensor) (c : R) (h : heapR) : res heapR :=
  assrt (gasize t =? gasize x) (gupd2 (fun v w => csub v (cmul w c)) t x h).
(* add_odot, add_odotc -- :1255-1267 *)
Definition gadd_odot (t x y : gtensor) (h : heapR) : res heapR :=
  assrt (gasize x =? gasize t) (assrt (gasize y =? gasize t)
    (gupd3 (fun v w u => cadd v (cmul w u)) t x y h)).
Definition gadd_odotc (t x y : gtensor) (h : heapR) : res heapR :=
  assrt (gasize x =? gasize t) (assrt (gasize y =? gasize t)
    (gupd3 (fun v w u => cadd v (cmul w (conj u))) t x y h)).

(* ---- products ---- *)
(* TYPE t=0; for(p<P) t+=f(p); *)
Definition gdotp (P : Z) (f : Z -> res R) : res R := forZ P (fun p t => do v <- f p; Ok (cadd t v)) c0.
Definition gprod2 (x : res R) (y : res R) : res R := do v <- x; do w <- y; Ok (cmul v w).
(* operator* : matrix times vector or matrix -- :970-996 (and :999-1026) *)
Definition gmatmul (t x : gtensor) (h : heapR) : res (gtensor * heapR) :=
  assrt (Z.of_nat (length (gdims t)) =? 2)
    (do d0 <- zget (gdims t) 0; do d1 <- zget (gdims t) 1; do e0 <- zget (gdims x) 0;
     assrt (d1 =? e0)
       (if Z.of_nat (length (gdims x)) =? 1
        then do ' (r, h1) <- gnew junk [d0] h;
             do h2 <- forZ d0 (fun i h =>
                        do s <- gdotp d1 (fun p => gprod2 (gget_n t [i; p] h) (gget_n x [p] h));
                        gset_n r [i] s h) h1;
             Ok (r, h2)
        else assrt (Z.of_nat (length (gdims x)) =? 2)
            (do e1 <- zget (gdims x) 1;
             do ' (r, h1) <- gnew junk [d0; e1] h;
             do h2 <- forZ d0 (fun i => forZ e1 (fun j h =>
                        do s <- gdotp d1 (fun p => gprod2 (gget_n t [i; p] h) (gget_n x [p; j] h));
                        gset_n r [i; j] s h)) h1;
             Ok (r, h2)))).
(* matmul_TA and contract_0_0 -- :1029-1067 *)
Definition gmatmul_TA (t x : gtensor) (h : heapR) : res (gtensor * heapR) :=
  assrt (Z.of_nat (length (gdims t)) =? 2) (assrt (Z.of_nat (length (gdims x)) =? 2)
    (do P <- zget (gdims t) 0; do e0 <- zget (gdims x) 0;
     assrt (P =? e0)
       (do d0 <- zget (gdims t) 1; do d1 <- zget (gdims x) 1;
        do ' (r, h1) <- gnew junk [d0; d1] h;
        do h2 <- forZ d0 (fun i => forZ d1 (fun j h =>
                   do s <- gdotp P (fun p => gprod2 (gget_n t [p; i] h) (gget_n x [p; j] h));
                   gset_n r [i; j] s h)) h1;
        Ok (r, h2)))).
(* add_matmul(x,y) -- :1269-1288 *)
Definition gadd_matmul (t x y : gtensor) (h : heapR) : res heapR :=
  assrt (gk t =? gk x + gk y - 2)
    (do K <- zget (gdims x) (gk x - 1);
     do I <- cdiv (gasize x) K;
     do y0 <- zget (gdims y) 0;
     do J <- cdiv (gasize y) y0;
     assrt (y0 =? K) (assrt (gasize t =? I * J)
       (do sx <- zget (gstr x) (gk x - 2);
        do st <- zget (gstr t) (gk x - 2);
        do sy <- zget (gstr y) 0;
        forZ I (fun i => forZ J (fun j h =>
          do s <- gdotp K (fun p => gprod2 (rd h x (i * sx + p)) (rd h y (p * sy + j)));
          do v <- rd h t (st * i + j); wr t (st * i + j) (cadd v s) h)) h))).
(* add_matmul_AH(g,y) -- :1290-1309; the tensor changed is x *)
Definition gadd_matmul_AH (x g y : gtensor) (h : heapR) : res heapR :=
  assrt (gk g =? gk x + gk y - 2)
    (do K <- zget (gdims x) (gk x - 1);
     do I <- cdiv (gasize x) K;
     do y0 <- zget (gdims y) 0;
     do J <- cdiv (gasize y) y0;
     assrt (y0 =? K) (assrt (gasize g =? I * J)
       (do sx <- zget (gstr x) (gk x - 2);
        do st <- zget (gstr g) (gk x - 2);
        do sy <- zget (gstr y) 0;
        forZ I (fun i => forZ K (fun p h =>
          do s <- gdotp J (fun j => gprod2 (rd h g (st * i + j)) (rmap conj (rd h y (p * sy + j))));
          do v <- rd h x (sx * i + p); wr x (sx * i + p) (cadd v s) h)) h))).
(* add_matmul_HA(x,g) -- :1311-1330; the tensor changed is y *)
Definition gadd_matmul_HA (y x g : gtensor) (h : heapR) : res heapR :=
  assrt (gk g =? gk x + gk y - 2)
    (do K <- zget (gdims x) (gk x - 1);
     do I <- cdiv (gasize x) K;
     do y0 <- zget (gdims y) 0;
     do J <- cdiv (gasize y) y0;
     assrt (y0 =? K) (assrt (gasize g =? I * J)
       (do sx <- zget (gstr x) (gk x - 2);
        do st <- zget (gstr g) (gk x - 2);
        do sy <- zget (gstr y) 0;
        forZ K (fun p => forZ J (fun j h =>
          do s <- gdotp I (fun i => gprod2 (rmap conj (rd h x (i * sx + p))) (rd h g (st * i + j)));
          do v <- rd h y (p * sy + j); wr y (p * sy + j) (cadd v s) h)) h))).
End Ring.

(* ---- objects: assignment, moves, destruction ---- *)
Section Objects.
Context {V : Type} (junk : V).
(* a program state: the Gtensor objects now alive, by name, and the heap *)
Record gstate := GS { gobj : list (Z * gtensor); gheap : heap V }.
Fixpoint olook (o : list (Z * gtensor)) (i : Z) : res gtensor :=
  match o with [] => UB | (j, t) :: o' => if j =? i then Ok t else olook o' i end.
Fixpoint oput (i : Z) (t : gtensor) (o : list (Z * gtensor)) : list (Z * gtensor) :=
  match o with
  | [] => []
  | (j, u) :: o' => if j =? i then (j, t) :: o' else (j, u) :: oput i t o'
  end.
Definition odrop (i : Z) (o : list (Z * gtensor)) : list (Z * gtensor) := filter (fun p => negb (fst p =? i)) o.
Definition with_arr (t : gtensor) (p : option Z) : gtensor :=
  GT (gk t) (gak t) (gdims t) (gstr t) (gasize t) (gmemsize t) p (gisview t).
(* the destructor -- Gtensor.hpp:64-69 *)
Definition gdestroy (i : Z) (s : gstate) : res gstate :=
  do t <- olook (gobj s) i;
  do h <- (if gisview t then Ok (gheap s) else free_arr (garr t) (gheap s));
  Ok (GS (odrop i (gobj s)) h).
(* Gtensor i(dims), Gtensor i(adims,dims), Gtensor i(j), Gtensor i=j.reshape_view(dims): name i is new *)
Definition gdeclare (i : Z) (r : res (gtensor * heap V)) (s : gstate) : res gstate :=
  do ' (t, h) <- r; Ok (GS ((i, t) :: gobj s) h).
(* move constructor -- :319-326 *)
Definition gmove (i j : Z) (s : gstate) : res gstate :=
  do x <- olook (gobj s) j;
  Ok (GS ((i, x) :: oput j (with_arr x None) (gobj s)) (gheap s)).
(* operator=(const Gtensor& x) -- :328-343.  i and j may name the same object: x.arr is read after arr has
   been replaced.  is_view keeps its value. *)
Definition gassign (i j : Z) (s : gstate) : res gstate :=
  do t <- olook (gobj s) i;
  do x <- olook (gobj s) j;
  do h1 <- (if gisview t then Ok (gheap s) else free_arr (garr t) (gheap s));
  do ' (b, h2) <- new_arr junk (gmemsize x) h1;
  let t' := GT (gk x) (gak x) (gdims x) (gstr x) (gasize x) (gmemsize x) (Some b) (gisview t) in
  let o := oput i t' (gobj s) in
  do x' <- olook o j;
  do h3 <- copy_arr x' 0 t' 0 (gmemsize x) h2;
  Ok (GS o h3).
(* operator=(Gtensor&& x) -- :345-354.  x.arr is set to nullptr after arr has been overwritten. *)
Definition gmove_assign (i j : Z) (s : gstate) : res gstate :=
  do t <- olook (gobj s) i;
  do x <- olook (gobj s) j;
  do h1 <- (if gisview t then Ok (gheap s) else free_arr (garr t) (gheap s));
  let t' := GT (gk x) (gak x) (gdims x) (gstr x) (gasize x) (gmemsize x) (garr x) (gisview x) in
  let o := oput i t' (gobj s) in
  do x' <- olook o j;
  Ok (GS (oput j (with_arr x' None) o) h1).

(* statements of a program over Gtensor objects *)
Inductive gop :=
| GNew (i : Z) (dims : list Z)
| GNewArray (i : Z) (adims dims : list Z)
| GCopy (i j : Z)
| GMove (i j : Z)
| GAssign (i j : Z)
| GMoveAssign (i j : Z)
| GView (i j : Z) (dims : list Z)
| GSet (i : Z) (ix : list Z) (v : V)
| GDestroy (i : Z).
Definition gstep (o : gop) (s : gstate) : res gstate :=
  match o with
  | GNew i dims => gdeclare i (gnew junk dims (gheap s)) s
  | GNewArray i adims dims => gdeclare i (gnew_array junk adims dims (gheap s)) s
  | GCopy i j => do x <- olook (gobj s) j; gdeclare i (gcopy junk x (gheap s)) s
  | GMove i j => gmove i j s
  | GAssign i j => gassign i j s
  | GMoveAssign i j => gmove_assign i j s
  | GView i j dims => do x <- olook (gobj s) j;
                      gdeclare i (do t <- greshape_view x dims; Ok (t, gheap s)) s
  | GSet i ix v => do t <- olook (gobj s) i; do h <- gset t ix v (gheap s); Ok (GS (gobj s) h)
  | GDestroy i => gdestroy i s
  end.
Fixpoint grun (l : list gop) (s : gstate) : res gstate :=
  match l with [] => Ok s | o :: l' => do s' <- gstep o s; grun l' s' end.
End Objects.
