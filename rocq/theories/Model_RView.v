(* Model_RView.v -- the fixed-rank real views Rtensor1_view, Rtensor2_view and Rtensor3_view.
   A RtensorK_view (arr,n0..,s0..) is a view whose lists of sides and strides have K entries; its dev
   member is left out (CPU only).  float is an arbitrary commutative ring (rounding is not modelled), int
   arithmetic is unbounded, a failing CNINE_ASSRT or assert is Throw, CNINE_CHECK_RANGE is compiled out
   by default and absent. *)
From Verif Require Import Base Model_Index Model_View Model_Tensor Model_Ops.
Local Open Scope Z_scope.

(* the members n0,n1,n2 and s0,s1,s2 -- tensor_views/Rtensor1_view.hpp:52-55,
   tensor_views/Rtensor2_view.hpp:51-54, tensor_views/Rtensor3_view.hpp:46-49 *)
Definition nd (v : view) (k : nat) : Z := nth k (vdims v) 0.
Definition sd (v : view) (k : nat) : Z := nth k (vstr v) 0.

(* is_regular -- tensor_views/Rtensor1_view.hpp:105-108 *)
Definition reg1 (v : view) : bool := sd v 0 =? 1.
(* tensor_views/Rtensor2_view.hpp:97-101 *)
Definition reg2 (v : view) : bool := (sd v 1 =? 1) && (sd v 0 =? nd v 1).
(* is_transpose -- tensor_views/Rtensor2_view.hpp:103-107 *)
Definition tra2 (v : view) : bool := (sd v 1 =? nd v 0) && (sd v 0 =? 1).
(* tensor_views/Rtensor3_view.hpp:85-90 *)
Definition reg3 (v : view) : bool := (sd v 2 =? 1) && (sd v 1 =? nd v 2) && (sd v 0 =? nd v 1 * sd v 1).

(* operator()(i0,..): arr[s0*i0+..] -- tensor_views/Rtensor1_view.hpp:118-124,
   tensor_views/Rtensor2_view.hpp:117-123, tensor_views/Rtensor3_view.hpp:92-98.  The members set(i0,..,x) and inc(i0,..,x)
   (tensor_views/Rtensor2_view.hpp:125-137 and likewise in the other two classes) are put_at and inc_at *)
Definition get_at {V} (v : view) (ix : list Z) (m : mem V) : res V := do p <- vaddr v ix; loadA m p.

(* the nested loops for(i0..) for(i1..) for(i2..) written out in each member function *)
Definition nest1 {S} (n0 : Z) (body : list Z -> S -> res S) (st : S) : res S := forZ n0 (fun a => body [a]) st.
Definition nest2 {S} (n0 n1 : Z) (body : list Z -> S -> res S) (st : S) : res S :=
  forZ n0 (fun a => forZ n1 (fun b => body [a; b])) st.
Definition nest3 {S} (n0 n1 n2 : Z) (body : list Z -> S -> res S) (st : S) : res S :=
  forZ n0 (fun a => forZ n1 (fun b => forZ n2 (fun c => body [a; b; c]))) st.

(* ---- other views of the same memory ---- *)
(* Rtensor1_view::block -- tensor_views/Rtensor1_view.hpp:147-149 *)
Definition rv1_block (v : view) (i0 m0 : Z) : view := View (vblk v) (voff v + i0 * sd v 0) [m0] [sd v 0].
(* Rtensor2_view::block -- tensor_views/Rtensor2_view.hpp:139-144 (const) and :583-592 (the two differ for
   m0 or m1 below -1, where the second keeps the negative side) *)
Definition rv2_block (v : view) (i0 i1 m0 m1 : Z) : view :=
  View (vblk v) (voff v + i0 * sd v 0 + i1 * sd v 1)
       [if m0 <? 0 then nd v 0 - i0 else m0; if m1 <? 0 then nd v 1 - i1 else m1] [sd v 0; sd v 1].
(* cols -- tensor_views/Rtensor2_view.hpp:146-150 *)
Definition rv2_cols (v : view) (i1 m1 : Z) : view :=
  View (vblk v) (voff v + i1 * sd v 1) [nd v 0; if m1 <? 0 then nd v 1 - i1 else m1] [sd v 0; sd v 1].
(* rows -- tensor_views/Rtensor2_view.hpp:594-596 *)
Definition rv2_rows (v : view) (offs n : Z) : view := View (vblk v) (voff v + offs * sd v 0) [n; nd v 1] [sd v 0; sd v 1].
(* diag -- tensor_views/Rtensor2_view.hpp:559-562 *)
Definition rv2_diag (v : view) : res view := assrt (nd v 0 =? nd v 1) (Ok (View (vblk v) (voff v) [nd v 0] [sd v 0 + sd v 1])).
(* transp -- tensor_views/Rtensor2_view.hpp:564-566 *)
Definition rv2_transp (v : view) : view := View (vblk v) (voff v) [nd v 1; nd v 0] [sd v 1; sd v 0].
(* slice0 -- tensor_views/Rtensor2_view.hpp:568-571 *)
Definition rv2_slice0 (v : view) (i : Z) : view := View (vblk v) (voff v + i * sd v 0) [nd v 1] [sd v 1].
(* slice1 -- tensor_views/Rtensor2_view.hpp:573-576 *)
Definition rv2_slice1 (v : view) (i : Z) : view := View (vblk v) (voff v + i * sd v 1) [nd v 0] [sd v 0].
(* fuse01 -- tensor_views/Rtensor2_view.hpp:578-580: no test that the rows follow each other *)
Definition rv2_fuse01 (v : view) : view := View (vblk v) (voff v) [nd v 0 * nd v 1] [sd v 1].
(* diag01, diag02, diag12 -- tensor_views/Rtensor3_view.hpp:424-437 *)
Definition rv3_diag01 (v : view) : res view := assrt (nd v 0 =? nd v 1) (Ok (View (vblk v) (voff v) [nd v 0; nd v 2] [sd v 0 + sd v 1; sd v 2])).
Definition rv3_diag02 (v : view) : res view := assrt (nd v 0 =? nd v 2) (Ok (View (vblk v) (voff v) [nd v 0; nd v 1] [sd v 0 + sd v 2; sd v 1])).
Definition rv3_diag12 (v : view) : res view := assrt (nd v 1 =? nd v 2) (Ok (View (vblk v) (voff v) [nd v 0; nd v 1] [sd v 0; sd v 1 + sd v 2])).
(* transp01 -- tensor_views/Rtensor3_view.hpp:439-441 *)
Definition rv3_transp01 (v : view) : view := View (vblk v) (voff v) [nd v 1; nd v 0; nd v 2] [sd v 1; sd v 0; sd v 2].
(* slice0, slice1, slice2 -- tensor_views/Rtensor3_view.hpp:443-459 *)
Definition rv3_slice0 (v : view) (i : Z) : view := View (vblk v) (voff v + i * sd v 0) [nd v 1; nd v 2] [sd v 1; sd v 2].
Definition rv3_slice1 (v : view) (i : Z) : view := View (vblk v) (voff v + i * sd v 1) [nd v 0; nd v 2] [sd v 0; sd v 2].
Definition rv3_slice2 (v : view) (i : Z) : view := View (vblk v) (voff v + i * sd v 2) [nd v 0; nd v 1] [sd v 0; sd v 1].
(* fuse01, fuse12 -- tensor_views/Rtensor3_view.hpp:461-469 *)
Definition rv3_fuse01 (v : view) : res view := assrt (reg3 v) (Ok (View (vblk v) (voff v) [nd v 0 * nd v 1; nd v 2] [sd v 1; sd v 2])).
Definition rv3_fuse12 (v : view) : res view := assrt (reg3 v) (Ok (View (vblk v) (voff v) [nd v 0; nd v 1 * nd v 2] [sd v 0; sd v 2])).
(* block -- tensor_views/Rtensor3_view.hpp:471-480 *)
Definition rv3_block (v : view) (i0 i1 i2 m0 m1 m2 : Z) : view :=
  View (vblk v) (voff v + i0 * sd v 0 + i1 * sd v 1 + i2 * sd v 2)
       [if m0 =? -1 then nd v 0 - i0 else m0; if m1 =? -1 then nd v 1 - i1 else m1; if m2 =? -1 then nd v 2 - i2 else m2]
       [sd v 0; sd v 1; sd v 2].
(* split0(x,i,j), split1(x,i,j) -- tensor_views/Rtensor3_view.hpp:515-523 *)
Definition rv_split0 (x : view) (i j : Z) : res view :=
  assrt (i * j =? nd x 0) (Ok (View (vblk x) (voff x) [i; j; nd x 1] [sd x 0 * j; sd x 0; sd x 1])).
Definition rv_split1 (x : view) (i j : Z) : res view :=
  assrt (i * j =? nd x 1) (Ok (View (vblk x) (voff x) [nd x 0; i; j] [sd x 0; sd x 1 * j; sd x 1])).
(* repeat0, repeat1, repeat2 -- tensor_views/Rtensor3_view.hpp:525-535 *)
Definition rv_repeat0 (x : view) (n : Z) : view := View (vblk x) (voff x) [n; nd x 0; nd x 1] [0; sd x 0; sd x 1].
Definition rv_repeat1 (x : view) (n : Z) : view := View (vblk x) (voff x) [nd x 0; n; nd x 1] [sd x 0; 0; sd x 1].
Definition rv_repeat2 (x : view) (n : Z) : view := View (vblk x) (voff x) [nd x 0; nd x 1; n] [sd x 0; sd x 1; 0].

(* std::copy(p,p+n,q) between cells of memory, in ascending order -- as used in tensor_views/Rtensor2_view.hpp:490-495 *)
Definition flat_copy {V} (n sb so db d : Z) (m : mem V) : res (mem V) :=
  forZ n (fun i m => do v <- load m sb (so + i); store m db (d + i) v) m.

(* int a=1; while(a<n) a*=2; -- tensor_views/Rtensor2_view.hpp:450.  Simplified: at most k steps; k=n
   always suffices (a doubles) *)
Fixpoint grow (k : nat) (a n : Z) : Z :=
  match k with O => a | S k' => if a <? n then grow k' (a * 2) n else a end.

Section Ring.
Context {R : cring}.
Notation memR := (mem (car R)).

(* stdadd(p,p+n,q) -- include/Cnine_base_helpers.hpp:44-48 *)
Definition flat_add (n sb so db d : Z) (m : memR) : res memR :=
  forZ n (fun i m => do v <- load m sb (so + i); rmw (fun u _ => cadd u v) (db, d + i) [] m) m.
Definition zip_each (f : R -> list R -> R) (r x : view) (ix : list Z) (m : memR) : res memR :=
  do t <- vaddr r ix; do s <- vaddr x ix; rmw f t [s] m.

(* ---- assignment ---- *)
(* set(v) -- tensor_views/Rtensor1_view.hpp:155-159, tensor_views/Rtensor2_view.hpp:156-161,
   tensor_views/Rtensor3_view.hpp:122-128 *)
Definition rv1_fill (r : view) (v : R) (m : memR) : res memR := nest1 (nd r 0) (fun ix => put_at r ix v) m.
Definition rv2_fill (r : view) (v : R) (m : memR) : res memR := nest2 (nd r 0) (nd r 1) (fun ix => put_at r ix v) m.
Definition rv3_fill (r : view) (v : R) (m : memR) : res memR := nest3 (nd r 0) (nd r 1) (nd r 2) (fun ix => put_at r ix v) m.
(* operator= -- tensor_views/Rtensor1_view.hpp:91-99 *)
Definition rv1_assign (r x : view) (m : memR) : res memR :=
  assrt (nd r 0 =? nd x 0) (nest1 (nd r 0) (zip_each f_set r x) m).
(* set(x) -- tensor_views/Rtensor1_view.hpp:161-171 *)
Definition rv1_set (r x : view) (m : memR) : res memR :=
  assrt (nd x 0 =? nd r 0)
    (if reg1 r && reg1 x then flat_loop f_set r [x] (nd r 0) m else nest1 (nd r 0) (zip_each f_set r x) m).
(* tensor_views/Rtensor2_view.hpp:163-174 *)
Definition rv2_set (r x : view) (m : memR) : res memR :=
  assrt (nd x 0 =? nd r 0) (assrt (nd x 1 =? nd r 1)
    (if reg2 r && reg2 x then flat_loop f_set r [x] (nd r 0 * nd r 1) m
     else nest2 (nd x 0) (nd x 1) (zip_each f_set r x) m)).
(* tensor_views/Rtensor3_view.hpp:130-139: the sides are compared but not asserted *)
Definition same3 (r x : view) : bool := (nd x 0 =? nd r 0) && (nd x 1 =? nd r 1) && (nd x 2 =? nd r 2).
Definition rv3_set (r x : view) (m : memR) : res memR :=
  if same3 r x && reg3 r && reg3 x then flat_loop f_set r [x] (nd r 0 * nd r 1 * nd r 2) m
  else nest3 (nd x 0) (nd x 1) (nd x 2) (zip_each f_set r x) m.

(* ---- accumulation ---- *)
(* add(v) -- tensor_views/Rtensor1_view.hpp:177-181, tensor_views/Rtensor2_view.hpp:180-185 *)
Definition rv1_addv (r : view) (v : R) (m : memR) : res memR := nest1 (nd r 0) (fun ix => inc_at r ix v) m.
Definition rv2_addv (r : view) (v : R) (m : memR) : res memR := nest2 (nd r 0) (nd r 1) (fun ix => inc_at r ix v) m.
(* add(x) -- tensor_views/Rtensor1_view.hpp:183-193 *)
Definition rv1_add (r x : view) (m : memR) : res memR :=
  assrt (nd x 0 =? nd r 0)
    (if reg1 r && reg1 x then flat_loop f_add1 r [x] (nd r 0) m else nest1 (nd r 0) (zip_each f_add1 r x) m).
(* tensor_views/Rtensor2_view.hpp:187-199 *)
Definition rv2_add (r x : view) (m : memR) : res memR :=
  assrt (nd x 0 =? nd r 0) (assrt (nd x 1 =? nd r 1)
    (if nd x 0 * nd x 1 =? 0 then Ok m
     else if reg2 r && reg2 x then flat_loop f_add1 r [x] (nd r 0 * sd r 0) m
     else nest2 (nd x 0) (nd x 1) (zip_each f_add1 r x) m)).
(* tensor_views/Rtensor3_view.hpp:145-154 *)
Definition rv3_add (r x : view) (m : memR) : res memR :=
  if same3 r x && reg3 r && reg3 x then flat_loop f_add1 r [x] (nd r 0 * nd r 1 * nd r 2) m
  else nest3 (nd x 0) (nd x 1) (nd x 2) (zip_each f_add1 r x) m.
(* add(x,c) -- tensor_views/Rtensor1_view.hpp:195-205 *)
Definition rv1_addc (r x : view) (c : R) (m : memR) : res memR :=
  assrt (nd x 0 =? nd r 0)
    (if reg1 r && reg1 x then flat_loop (f_addc c) r [x] (nd r 0) m else nest1 (nd r 0) (zip_each (f_addc c) r x) m).
(* tensor_views/Rtensor2_view.hpp:201-214 *)
Definition rv2_addc (r x : view) (c : R) (m : memR) : res memR :=
  assrt (nd x 0 =? nd r 0) (assrt (nd x 1 =? nd r 1)
    (if nd x 0 * nd x 1 =? 0 then Ok m
     else if reg2 r && reg2 x then flat_loop (f_addc c) r [x] (nd r 0 * sd r 0) m
     else nest2 (nd r 0) (nd r 1) (zip_each (f_addc c) r x) m)).
(* tensor_views/Rtensor3_view.hpp:156-165: the branch for regular views calls stdadd without c *)
Definition rv3_addc (r x : view) (c : R) (m : memR) : res memR :=
  if same3 r x && reg3 r && reg3 x then flat_loop f_add1 r [x] (nd r 0 * nd r 1 * nd r 2) m
  else nest3 (nd x 0) (nd x 1) (nd x 2) (zip_each (f_addc c) r x) m.

(* ---- ReLU: gt0 is the test >0 ---- *)
(* (x>0)*a+alpha with a=1.0-alpha *)
Definition relu_slope (gt0 : R -> bool) (alpha x : R) : R :=
  cadd (cmul (if gt0 x then c1 else c0) (csub c1 alpha)) alpha.
(* add_ReLU -- tensor_views/Rtensor1_view.hpp:236-246: the factor is read at x.arr[i*s0], with the stride of r *)
Definition rv1_add_ReLU (gt0 : R -> bool) (r x : view) (alpha : R) (m : memR) : res memR :=
  assrt (nd r 0 =? nd x 0)
    (nest1 (nd r 0) (fun ix m => do s <- get_at x ix m; do v <- get_at (View (vblk x) (voff x) (vdims x) (vstr r)) ix m;
                                 inc_at r ix (cmul (relu_slope gt0 alpha s) v) m) m).
(* add_ReLU_back -- tensor_views/Rtensor1_view.hpp:248-259 *)
Definition rv1_add_ReLU_back (gt0 : R -> bool) (r g x : view) (alpha : R) (m : memR) : res memR :=
  assrt (nd r 0 =? nd g 0) (assrt (nd r 0 =? nd x 0)
    (nest1 (nd r 0) (fun ix m => do s <- get_at x ix m; do v <- get_at g ix m;
                                 inc_at r ix (cmul (relu_slope gt0 alpha s) v) m) m)).

(* ---- products ---- *)
(* add_matmul_AA -- tensor_views/Rtensor2_view.hpp:238-264 *)
Definition rv2_AA (r x y : view) (m : memR) : res memR :=
  assrt (nd x 0 =? nd r 0) (assrt (nd y 1 =? nd r 1) (assrt (nd y 0 =? nd x 1)
    (nest2 (nd r 0) (nd r 1) (fun ix m =>
       do t <- dotloop (nd x 1) (fun i => vaddr x [nth 0 ix 0; i]) (fun i => vaddr y [i; nth 1 ix 0]) m; inc_at r ix t m) m))).
(* add_matmul_AT -- tensor_views/Rtensor2_view.hpp:266-293; add_matmul_AH :295-297 is the same *)
Definition rv2_AT (r x y : view) (m : memR) : res memR :=
  assrt (nd x 0 =? nd r 0) (assrt (nd y 0 =? nd r 1) (assrt (nd y 1 =? nd x 1)
    (nest2 (nd r 0) (nd r 1) (fun ix m =>
       do t <- dotloop (nd x 1) (fun i => vaddr x [nth 0 ix 0; i]) (fun i => vaddr y [nth 1 ix 0; i]) m; inc_at r ix t m) m))).
(* add_matmul_TA -- tensor_views/Rtensor2_view.hpp:299-326 *)
Definition rv2_TA (r x y : view) (m : memR) : res memR :=
  assrt (nd x 1 =? nd r 0) (assrt (nd y 0 =? nd x 0) (assrt (nd y 1 =? nd r 1)
    (nest2 (nd r 0) (nd r 1) (fun ix m =>
       do t <- dotloop (nd x 0) (fun i => vaddr x [i; nth 0 ix 0]) (fun i => vaddr y [i; nth 1 ix 0]) m; inc_at r ix t m) m))).
(* add_mprod -- tensor_views/Rtensor2_view.hpp:220-236; CNINE_UNIMPL prints a message and goes on *)
Definition rv2_add_mprod (r x y : view) (m : memR) : res memR :=
  if reg2 r && reg2 x && reg2 y then rv2_AA r x y m
  else if reg2 r && reg2 x && tra2 y then rv2_AT r x (rv2_transp y) m
  else if reg2 r && tra2 x && reg2 y then rv2_TA r (rv2_transp x) y m
  else Ok m.
(* a.add_mprod_to(y,x) : y+=a*x -- tensor_views/Rtensor2_view.hpp:329-339 *)
Definition rv2_add_mprod_to (a y x : view) (m : memR) : res memR :=
  assrt (nd x 0 =? nd a 1) (assrt (nd y 0 =? nd a 0)
    (nest1 (nd a 0) (fun ix m =>
       do t <- dotloop (nd a 1) (fun i => vaddr a [nth 0 ix 0; i]) (fun i => vaddr x [i]) m; inc_at y ix t m) m)).
(* add_outer -- tensor_views/Rtensor2_view.hpp:342-349 *)
Definition rv2_add_outer (r x y : view) (m : memR) : res memR :=
  assrt (nd r 0 =? nd x 0) (assrt (nd r 1 =? nd y 0)
    (nest2 (nd x 0) (nd y 0) (fun ix m =>
       do u <- get_at x [nth 0 ix 0] m; do v <- get_at y [nth 1 ix 0] m; inc_at r ix (cmul u v) m) m)).
(* Rtensor3_view::add_matmul_AA -- tensor_views/Rtensor3_view.hpp:172-189, marked deprecated: the asserts and the
   loops use n0 and n1 of the batch where the sides of the matrices (n1 and n2) are meant *)
Definition rv3_AA (r x y : view) (m : memR) : res memR :=
  assrt (nd r 0 =? nd x 0) (assrt (nd x 1 =? nd r 1) (assrt (nd y 1 =? nd r 1) (assrt (nd y 0 =? nd x 2)
    (forZ (nd x 0) (fun bt => nest2 (nd r 0) (nd r 1) (fun ix m =>
       do t <- dotloop (nd x 2) (fun i => vaddr x [bt; nth 0 ix 0; i]) (fun i => vaddr y [i; nth 1 ix 0]) m;
       inc_at r (bt :: ix) t m)) m)))).
(* Rtensor3_view::add_mprod -- tensor_views/Rtensor3_view.hpp:192-203 *)
Definition rv3_add_mprod (r x y : view) (m : memR) : res memR :=
  assrt (nd r 0 =? nd y 0) (assrt (nd r 1 =? nd x 0) (assrt (nd r 2 =? nd y 2) (assrt (nd x 1 =? nd y 1)
    (forZ (nd r 0) (fun b => rv2_AA (rv3_slice0 r b) x (rv3_slice0 y b)) m)))).

(* ---- sums ---- *)
Definition get_sum (n : Z) (f : Z -> Z) (b : Z) (m : memR) : res R :=
  forZ n (fun i t => do v <- load m b (f i); Ok (cadd t v)) c0.
(* Rtensor1_view::sum, reduce -- tensor_views/Rtensor1_view.hpp:140-145 and :215-220 *)
Definition rv1_sum (x : view) (m : memR) : res R := get_sum (nd x 0) (fun i => voff x + i * sd x 0) (vblk x) m.
(* Rtensor2_view::sum -- tensor_views/Rtensor2_view.hpp:355-368 *)
Definition rv2_sum (x : view) (m : memR) : res R :=
  if reg2 x then get_sum (nd x 0 * nd x 1) (fun i => voff x + i) (vblk x) m
  else nest2 (nd x 0) (nd x 1) (fun ix t => do v <- get_at x ix m; Ok (cadd t v)) c0.
(* one entry of a reduction: the sum of the n elements x(f(0)),x(f(1)),.. (their addresses are written
   out, s0*i0+s1*i1+.., in the source) *)
Definition line_sum (x : view) (n : Z) (f : Z -> list Z) (m : memR) : res R :=
  forZ n (fun i t => do v <- get_at x (f i) m; Ok (cadd t v)) c0.
(* sum0_into -- tensor_views/Rtensor2_view.hpp:394-407 *)
Definition rv2_sum0_into (x r : view) (m : memR) : res memR :=
  assrt (nd r 0 =? nd x 1)
    (nest1 (nd x 1) (fun ix m => do t <- line_sum x (nd x 0) (fun i => [i; nth 0 ix 0]) m; inc_at r ix t m) m).
(* sum1_into, the overload for views that are not const -- tensor_views/Rtensor2_view.hpp:381-388 *)
Definition rv2_sum1_into (x r : view) (m : memR) : res memR :=
  assrt (nd r 0 =? nd x 0)
    (nest1 (nd x 0) (fun ix m => do t <- line_sum x (nd x 1) (fun j => [nth 0 ix 0; j]) m; inc_at r ix t m) m).
(* sum1_into, the const overload -- tensor_views/Rtensor2_view.hpp:424-433: asserts r.n0==n1 *)
Definition rv2_sum1_into_const (x r : view) (m : memR) : res memR :=
  assrt (nd r 0 =? nd x 1)
    (nest1 (nd x 0) (fun ix m => do t <- line_sum x (nd x 1) (fun j => [nth 0 ix 0; j]) m; inc_at r ix t m) m).
(* avg0_into -- tensor_views/Rtensor2_view.hpp:409-422; dv t n is the float division t/n *)
Definition rv2_avg0_into (dv : R -> Z -> R) (x r : view) (m : memR) : res memR :=
  assrt (nd r 0 =? nd x 1)
    (nest1 (nd x 1) (fun ix m => do t <- line_sum x (nd x 0) (fun i => [i; nth 0 ix 0]) m; inc_at r ix (dv t (nd x 0)) m) m).
(* sum0_into, sum1_into, sum2_into -- tensor_views/Rtensor3_view.hpp:227-238, :253-268, :283-294; avg0_into, avg1_into, avg2_into
   -- :240-251, :270-281, :296-307 are the same with t/n0, t/n1, t/n2: post t is what is added *)
Definition rv3_sum0_into (post : R -> R) (x r : view) (m : memR) : res memR :=
  assrt (nd r 0 =? nd x 1) (assrt (nd r 1 =? nd x 2)
    (nest2 (nd x 1) (nd x 2) (fun ix m =>
       do t <- line_sum x (nd x 0) (fun i => [i; nth 0 ix 0; nth 1 ix 0]) m; inc_at r ix (post t) m) m)).
Definition rv3_sum1_into (post : R -> R) (x r : view) (m : memR) : res memR :=
  assrt (nd r 0 =? nd x 0) (assrt (nd r 1 =? nd x 2)
    (nest2 (nd x 0) (nd x 2) (fun ix m =>
       do t <- line_sum x (nd x 1) (fun i => [nth 0 ix 0; i; nth 1 ix 0]) m; inc_at r ix (post t) m) m)).
Definition rv3_sum2_into (post : R -> R) (x r : view) (m : memR) : res memR :=
  assrt (nd r 0 =? nd x 0) (assrt (nd r 1 =? nd x 1)
    (nest2 (nd x 0) (nd x 1) (fun ix m =>
       do t <- line_sum x (nd x 2) (fun i => [nth 0 ix 0; nth 1 ix 0; i]) m; inc_at r ix (post t) m) m)).
(* sum01_into, avg01_into -- tensor_views/Rtensor3_view.hpp:309-319, :321-331 *)
Definition rv3_sum01_into (post : R -> R) (x r : view) (m : memR) : res memR :=
  assrt (nd r 0 =? nd x 2)
    (nest1 (nd x 2) (fun ix m =>
       do t <- nest2 (nd x 0) (nd x 1) (fun jx t => do v <- get_at x (jx ++ ix) m; Ok (cadd t v)) c0;
       inc_at r ix (post t) m) m).

(* ---- reductions that overwrite the tensor ---- *)
(* for(;a>0;a/=2) stdadd(arr+a*s0,arr+2*a*s0,arr) -- tensor_views/Rtensor2_view.hpp:452-453.  Simplified: at most k rounds;
   k=a suffices *)
Fixpoint halve (k : nat) (a : Z) (v : view) (m : memR) : res memR :=
  match k with
  | O => Ok m
  | S k' => if 0 <? a
            then do m1 <- flat_add (2 * a * sd v 0 - a * sd v 0) (vblk v) (voff v + a * sd v 0) (vblk v) (voff v) m;
                 halve k' (a / 2) v m1
            else Ok m
  end.
(* reduce0_destructively -- tensor_views/Rtensor2_view.hpp:447-461 *)
Definition rv2_reduce0 (v : view) (m : memR) : res memR :=
  if reg2 v
  then let a := grow (Z.to_nat (nd v 0)) 1 (nd v 0) / 2 in
       do m1 <- flat_add (nd v 0 * sd v 0 - a * sd v 0) (vblk v) (voff v + a * sd v 0) (vblk v) (voff v) m;
       halve (Z.to_nat a) (a / 2) v m1
  else nest1 (nd v 1) (fun ix m => do t <- line_sum v (nd v 0) (fun i => i :: ix) m; put_at v (0 :: ix) t m) m.
(* reduce1_destructively -- tensor_views/Rtensor2_view.hpp:477-479 *)
Definition rv2_reduce1 (v : view) (m : memR) : res memR := rv2_reduce0 (rv2_transp v) m.
(* reduce0_destructively_into, reduce1_destructively_into -- tensor_views/Rtensor2_view.hpp:435-445 *)
Definition rv2_reduce0_into (v r : view) (m : memR) : res memR :=
  assrt (nd r 0 =? nd v 1) (do m1 <- rv2_reduce0 v m; rv1_add r (rv2_slice0 v 0) m1).
Definition rv2_reduce1_into (v r : view) (m : memR) : res memR :=
  assrt (nd r 0 =? nd v 0) (do m1 <- rv2_reduce1 v m; rv1_add r (rv2_slice1 v 0) m1).
(* reduce0_destructively -- tensor_views/Rtensor3_view.hpp:353-355 *)
Definition rv3_reduce0 (v : view) (m : memR) : res memR := do w <- rv3_fuse12 v; rv2_reduce0 w m.
(* reduce1_destructively -- tensor_views/Rtensor3_view.hpp:357-372 *)
Definition rv3_reduce1 (v : view) (m : memR) : res memR :=
  if reg3 v then forZ (nd v 0) (fun i => rv2_reduce0 (rv3_slice0 v i)) m
  else nest2 (nd v 0) (nd v 2) (fun ix m =>
         do t <- line_sum v (nd v 1) (fun i => [nth 0 ix 0; i; nth 1 ix 0]) m; put_at v [nth 0 ix 0; 0; nth 1 ix 0] t m) m.
(* reduce2_destructively -- tensor_views/Rtensor3_view.hpp:393-395 *)
Definition rv3_reduce2 (v : view) (m : memR) : res memR := do w <- rv3_fuse01 v; rv2_reduce1 w m.
(* the _into forms -- tensor_views/Rtensor3_view.hpp:337-350 *)
Definition rv3_reduce0_into (v r : view) (m : memR) : res memR := do m1 <- rv3_reduce0 v m; rv2_add r (rv3_slice0 v 0) m1.
Definition rv3_reduce1_into (v r : view) (m : memR) : res memR := do m1 <- rv3_reduce1 v m; rv2_add r (rv3_slice1 v 0) m1.
Definition rv3_reduce2_into (v r : view) (m : memR) : res memR := do m1 <- rv3_reduce2 v m; rv2_add r (rv3_slice2 v 0) m1.

(* ---- broadcasting ---- *)
(* Rtensor1_view::broadcast -- tensor_views/Rtensor1_view.hpp:226-230 *)
Definition rv1_broadcast (r : view) (v : R) (m : memR) : res memR :=
  assrt (reg1 r) (forZ (nd r 0) (fun i m => store m (vblk r) (voff r + i) v) m).
(* int a=1; for(; a<=n0/2; a*=2) std::copy(arr,arr+a*n1,arr+a*n1); if(n0>a) std::copy(arr,arr+(n0-a)*n1,arr+a*n1)
   -- tensor_views/Rtensor2_view.hpp:491-495.  Simplified: at most k rounds; k=n0 suffices *)
Fixpoint spread (k : nat) (a : Z) (v : view) (m : memR) : res memR :=
  let last := if a <? nd v 0 then flat_copy ((nd v 0 - a) * nd v 1) (vblk v) (voff v) (vblk v) (voff v + a * nd v 1) m else Ok m in
  match k with
  | O => last
  | S k' => if a <=? nd v 0 / 2
            then do m1 <- flat_copy (a * nd v 1) (vblk v) (voff v) (vblk v) (voff v + a * nd v 1) m; spread k' (a * 2) v m1
            else last
  end.
(* broadcast0 -- tensor_views/Rtensor2_view.hpp:485-508 *)
Definition rv2_broadcast0 (v x : view) (m : memR) : res memR :=
  assrt (nd x 0 =? nd v 1)
    (if reg2 v && reg1 x
     then do m1 <- flat_copy (nd v 1) (vblk x) (voff x) (vblk v) (voff v) m; spread (Z.to_nat (nd v 0)) 1 v m1
     else forZ (nd v 1) (fun j m => do t <- get_at x [j] m; forZ (nd v 0) (fun i => put_at v [i; j] t) m) m).
(* broadcast1 -- tensor_views/Rtensor2_view.hpp:510-519 *)
Definition rv2_broadcast1 (v x : view) (m : memR) : res memR :=
  assrt (nd x 0 =? nd v 0)
    (forZ (nd v 0) (fun i m => do t <- get_at x [i] m; forZ (nd v 1) (fun j => put_at v [i; j] t) m) m).
(* add_broadcast0(x,alpha) -- tensor_views/Rtensor2_view.hpp:534-553: alpha is used by the GPU branch only *)
Definition rv2_add_broadcast0 (v x : view) (alpha : R) (m : memR) : res memR :=
  assrt (nd x 0 =? nd v 1)
    (if (sd x 0 =? 1) && (sd v 1 =? 1)
     then forZ (nd v 0) (fun i => flat_add (nd v 1) (vblk x) (voff x) (vblk v) (voff v + i * sd v 0)) m
     else forZ (nd v 1) (fun j m => do t <- get_at x [j] m; forZ (nd v 0) (fun i => inc_at v [i; j] t) m) m).
(* broadcast0 -- tensor_views/Rtensor3_view.hpp:401-405 *)
Definition rv3_broadcast0 (v x : view) (m : memR) : res memR :=
  assrt (nd x 0 =? nd v 1) (assrt (nd x 1 =? nd v 2) (do w <- rv3_fuse12 v; rv2_broadcast0 w (rv2_fuse01 x) m)).
(* broadcast1 -- tensor_views/Rtensor3_view.hpp:407-412 *)
Definition rv3_broadcast1 (v x : view) (m : memR) : res memR :=
  assrt (nd x 0 =? nd v 0) (assrt (nd x 1 =? nd v 2)
    (forZ (nd v 0) (fun i => rv2_broadcast0 (rv3_slice0 v i) (rv2_slice0 x i)) m)).
(* broadcast2 -- tensor_views/Rtensor3_view.hpp:414-418 *)
Definition rv3_broadcast2 (v x : view) (m : memR) : res memR :=
  assrt (nd x 0 =? nd v 0) (assrt (nd x 1 =? nd v 1) (do w <- rv3_fuse01 v; rv2_broadcast1 w (rv2_fuse01 x) m)).

(* ---- rotations and scalings of slices.  Simplified: the tensors of indices and coefficients are lists, one
   entry per slice, instead of views in the same memory ---- *)
(* GivensSomeSlicesFn on a matrix -- tensor_views/functions/GivensSomeSlicesFn.hpp:33-56 *)
Definition rv2_givens (x : view) (ops : list (Z * Z * (R * R))) (m : memR) : res memR :=
  foldM (fun op => let '(p, q, (a, b)) := op in
    nest1 (nd x 1) (fun ix m =>
      do t0 <- get_at x (p :: ix) m; do t1 <- get_at x (q :: ix) m;
      do m1 <- put_at x (p :: ix) (cadd (cmul a t0) (cmul b t1)) m;
      put_at x (q :: ix) (csub (cmul a t1) (cmul b t0)) m1)) ops m.
(* on a 3-tensor -- tensor_views/functions/GivensSomeSlicesFn.hpp:62-87: the second result is negated ("hack!!!") *)
Definition rv3_givens (x : view) (ops : list (Z * Z * (R * R))) (m : memR) : res memR :=
  foldM (fun op => let '(p, q, (a, b)) := op in
    nest2 (nd x 1) (nd x 2) (fun ix m =>
      do t0 <- get_at x (p :: ix) m; do t1 <- get_at x (q :: ix) m;
      do m1 <- put_at x (p :: ix) (cadd (cmul a t0) (cmul b t1)) m;
      put_at x (q :: ix) (copp (csub (cmul a t1) (cmul b t0))) m1)) ops m.
(* ScaleSomeSlicesFn -- tensor_views/functions/ScaleSomeSlicesFn.hpp:31-46 and :52-69 *)
Definition rv2_scale (x : view) (ops : list (Z * R)) (m : memR) : res memR :=
  foldM (fun op => nest1 (nd x 1) (fun ix m =>
    do t <- get_at x (fst op :: ix) m; put_at x (fst op :: ix) (cmul t (snd op)) m)) ops m.
Definition rv3_scale (x : view) (ops : list (Z * R)) (m : memR) : res memR :=
  foldM (fun op => nest2 (nd x 1) (nd x 2) (fun ix m =>
    do t <- get_at x (fst op :: ix) m; put_at x (fst op :: ix) (cmul t (snd op)) m)) ops m.
End Ring.
