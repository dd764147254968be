(* Model_CView.v -- the fixed-rank complex views Ctensor1_view .. Ctensor4_view.
   A CtensorK_view (arr,arrc,n0..,s0..) is a view with one more axis of side 2 at the end whose stride is
   arrc-arr: index (ix,0) is the real, (ix,1) the imaginary part of element ix.  Simplified: arr and arrc
   point into one block (every constructor from dims and strides sets arrc=arr+coffs).  float is an arbitrary
   commutative ring, complex<float> the pairs over it (no rounding, no NaN handling); CPU only, so dev is left out. *)
From Verif Require Import Base Model_Index Model_View Model_Tensor Model_Ops Model_RView.
Local Open Scope Z_scope.

(* complex<float>: +, * and - of std::complex, as used in tensor_views/Ctensor2_view.hpp:166-169 *)
Section Cplx.
Context (R : cring).
Add Ring RrCplx : (cth R).
Lemma cplx_theory : ring_theory (c0, c0) (c1, c0)
  (fun p q : R * R => (cadd (fst p) (fst q), cadd (snd p) (snd q)))
  (fun p q => (csub (cmul (fst p) (fst q)) (cmul (snd p) (snd q)), cadd (cmul (fst p) (snd q)) (cmul (snd p) (fst q))))
  (fun p q => (csub (fst p) (fst q), csub (snd p) (snd q))) (fun p => (copp (fst p), copp (snd p))) eq.
Proof. constructor; intros; repeat match goal with p : (_ * _)%type |- _ => destruct p end; cbn [fst snd]; f_equal; ring. Qed.
Definition CxRing : cring := CRing (R * R) _ _ _ _ _ _ cplx_theory.
End Cplx.

Section Ring.
Context {R : cring}.
Notation memR := (mem (car R)).
Notation C := (CxRing R).

(* std::conj *)
Definition conj (p : C) : C := (fst p, copp (snd p)).
(* a float as a factor of a complex number *)
Definition of_real (a : R) : C := (a, c0).
(* arrc-arr *)
Definition coffs (v : view) : Z := last (vstr v) 0.

(* operator()(i0,..) -- tensor_views/Ctensor1_view.hpp:71-74, tensor_views/Ctensor2_view.hpp:110-113,
   tensor_views/Ctensor3_view.hpp:111-114, tensor_views/Ctensor4_view.hpp:89-92 *)
Definition cget (v : view) (ix : list Z) (m : memR) : res C :=
  do a <- get_at v (ix ++ [0]) m; do b <- get_at v (ix ++ [1]) m; Ok (a, b).
(* set(i0,..,x) -- tensor_views/Ctensor1_view.hpp:76-80, tensor_views/Ctensor2_view.hpp:115-119,
   tensor_views/Ctensor3_view.hpp:116-120, tensor_views/Ctensor4_view.hpp:94-98 *)
Definition cput (v : view) (ix : list Z) (t : C) (m : memR) : res memR :=
  do m1 <- put_at v (ix ++ [0]) (fst t) m; put_at v (ix ++ [1]) (snd t) m1.
(* inc(i0,..,x) -- tensor_views/Ctensor1_view.hpp:82-86, tensor_views/Ctensor2_view.hpp:121-125,
   tensor_views/Ctensor3_view.hpp:122-126, tensor_views/Ctensor4_view.hpp:100-104 *)
Definition cinc (v : view) (ix : list Z) (t : C) (m : memR) : res memR :=
  do m1 <- inc_at v (ix ++ [0]) (fst t) m; inc_at v (ix ++ [1]) (snd t) m1.

(* is_regular -- tensor_views/Ctensor2_view.hpp:127-132 *)
Definition creg2 (v : view) : bool := (coffs v =? 1) && (sd v 1 =? 2) && (sd v 0 =? sd v 1 * nd v 1).
(* tensor_views/Ctensor3_view.hpp:128-134 *)
Definition creg3 (v : view) : bool := (coffs v =? 1) && (sd v 2 =? 2) && (sd v 1 =? sd v 2 * nd v 2) && (sd v 0 =? sd v 1 * nd v 1).

(* ---- addition and assignment ---- *)
(* add(x) -- tensor_views/Ctensor1_view.hpp:92-96 *)
Definition cv1_add (r x : view) (m : memR) : res memR :=
  assrt (nd r 0 =? nd x 0) (nest1 (nd r 0) (fun ix m => do u <- cget x ix m; cinc r ix u m) m).
(* add(x,c) -- tensor_views/Ctensor1_view.hpp:98-103; a real c is of_real c *)
Definition cv1_addc (r x : view) (c : C) (m : memR) : res memR :=
  assrt (nd r 0 =? nd x 0) (nest1 (nd r 0) (fun ix m => do u <- cget x ix m; cinc r ix (cmul u c) m) m).
(* operator= -- tensor_views/Ctensor1_view.hpp:109-114 *)
Definition cv1_assign (r x : view) (m : memR) : res memR :=
  assrt (nd r 0 =? nd x 0) (nest1 (nd r 0) (fun ix m => do u <- cget x ix m; cput r ix u m) m).
(* add(x) -- tensor_views/Ctensor2_view.hpp:138-152 (CNINE_UNIMPL prints a message and goes on) *)
Definition cv2_add (r x : view) (m : memR) : res memR :=
  assrt (nd x 0 =? nd r 0) (assrt (nd x 1 =? nd r 1)
    (if nd x 0 * nd x 1 =? 0 then Ok m
     else if creg2 r && creg2 x then flat_add (nd r 0 * sd r 0) (vblk x) (voff x) (vblk r) (voff r) m
     else nest2 (nd x 0) (nd x 1) (fun ix m => do u <- cget x ix m; cinc r ix u m) m)).
(* add(x) -- tensor_views/Ctensor3_view.hpp:152-166: the third sides are not compared *)
Definition cv3_add (r x : view) (m : memR) : res memR :=
  assrt (nd x 0 =? nd r 0) (assrt (nd x 1 =? nd r 1)
    (if nd x 0 * nd x 1 =? 0 then Ok m
     else if creg3 r && creg3 x then flat_add (nd r 0 * sd r 0) (vblk x) (voff x) (vblk r) (voff r) m
     else nest3 (nd x 0) (nd x 1) (nd x 2) (fun ix m => do u <- cget x ix m; cinc r ix u m) m)).

(* ---- products ---- *)
(* complex<float> t=0; for(i<n) t+=f(i)*g(i) -- tensor_views/Ctensor2_view.hpp:166-168 and alike *)
Definition cdot (n : Z) (f g : Z -> res C) : res C :=
  forZ n (fun i t => do u <- f i; do v <- g i; Ok (cadd t (cmul u v))) c0.
Definition cget_conj (v : view) (ix : list Z) (m : memR) : res C := do u <- cget v ix m; Ok (conj u).
(* add_matmul_AA -- tensor_views/Ctensor2_view.hpp:158-187; add_matmul :154-156 and add_mprod :189-191 call it.
   There is no test of the sides *)
Definition cv2_AA (r x y : view) (m : memR) : res memR :=
  nest2 (nd r 0) (nd r 1) (fun ix m =>
    do t <- cdot (nd x 1) (fun i => cget x [nth 0 ix 0; i] m) (fun i => cget y [i; nth 1 ix 0] m); cinc r ix t m) m.
(* add_matmul_AH -- tensor_views/Ctensor2_view.hpp:193-223 *)
Definition cv2_AH (r x y : view) (m : memR) : res memR :=
  assrt (nd x 0 =? nd r 0) (assrt (nd y 0 =? nd r 1) (assrt (nd y 1 =? nd x 1)
    (nest2 (nd r 0) (nd r 1) (fun ix m =>
       do t <- cdot (nd x 1) (fun i => cget x [nth 0 ix 0; i] m) (fun i => cget_conj y [nth 1 ix 0; i] m); cinc r ix t m) m))).
(* add_matmul_HA -- tensor_views/Ctensor2_view.hpp:227-257 *)
Definition cv2_HA (r x y : view) (m : memR) : res memR :=
  assrt (nd x 1 =? nd r 0) (assrt (nd y 1 =? nd r 1) (assrt (nd y 0 =? nd x 0)
    (nest2 (nd r 0) (nd r 1) (fun ix m =>
       do t <- cdot (nd x 0) (fun i => cget_conj x [i; nth 0 ix 0] m) (fun i => cget y [i; nth 1 ix 0] m); cinc r ix t m) m))).
(* add_matmul_NA -- tensor_views/Ctensor2_view.hpp:261-295: x is a real matrix *)
Definition cv2_NA (r x y : view) (m : memR) : res memR :=
  assrt (nd x 0 =? nd r 0) (assrt (nd y 1 =? nd r 1) (assrt (nd y 0 =? nd x 1)
    (nest2 (nd r 0) (nd r 1) (fun ix m =>
       do t <- cdot (nd x 1) (fun i => do a <- get_at x [nth 0 ix 0; i] m; Ok (of_real a)) (fun i => cget y [i; nth 1 ix 0] m);
       cinc r ix t m) m))).
(* add_mix_1_0 -- tensor_views/Ctensor3_view.hpp:170-211 *)
Definition cv3_mix_1_0 (r x y : view) (m : memR) : res memR :=
  assrt (nd y 0 =? nd x 1) (assrt (nd x 0 =? nd r 0) (assrt (nd y 1 =? nd r 1) (assrt (nd x 2 =? nd r 2)
    (nest3 (nd r 0) (nd r 1) (nd r 2) (fun ix m =>
       do t <- cdot (nd x 1) (fun i => cget x [nth 0 ix 0; i; nth 2 ix 0] m) (fun i => cget y [i; nth 1 ix 0] m); cinc r ix t m) m)))).
(* add_mix_1_H -- tensor_views/Ctensor3_view.hpp:215-249 *)
Definition cv3_mix_1_H (r x y : view) (m : memR) : res memR :=
  assrt (nd y 1 =? nd x 1) (assrt (nd x 0 =? nd r 0) (assrt (nd y 0 =? nd r 1) (assrt (nd x 2 =? nd r 2)
    (nest3 (nd r 0) (nd r 1) (nd r 2) (fun ix m =>
       do t <- cdot (nd x 1) (fun i => cget x [nth 0 ix 0; i; nth 2 ix 0] m) (fun i => cget_conj y [nth 1 ix 0; i] m); cinc r ix t m) m)))).
(* fuse01 -- tensor_views/Ctensor3_view.hpp:292-294: no test that the slices follow each other *)
Definition cv3_fuse01 (v : view) : view := View (vblk v) (voff v) [nd v 0 * nd v 1; nd v 2; 2] [sd v 1; sd v 2; coffs v].
(* add_mix_2_0, add_mix_2_H -- tensor_views/Ctensor3_view.hpp:253-259 *)
Definition cv3_mix_2_0 (r x y : view) (m : memR) : res memR := cv2_AA (cv3_fuse01 r) (cv3_fuse01 x) y m.
Definition cv3_mix_2_H (r x y : view) (m : memR) : res memR := cv2_AH (cv3_fuse01 r) (cv3_fuse01 x) y m.

(* BasicCproduct_2_1 -- tensor_views/BasicCtensorProducts.hpp:105-129.  Simplified: the pointers and strides it is given are
   those of complex views x and y of rank 3 and r of rank 2.  The running sum is stored inside the innermost loop *)
Definition cproduct_2_1 (n0 n1 n2 : Z) (x y r : view) (m : memR) : res memR :=
  nest2 n0 n1 (fun ix m =>
    do ' (_, m') <- forZ n2 (fun i s => let '(t, m) := s in
         do u <- cget x (ix ++ [i]) m; do v <- cget y (ix ++ [i]) m;
         let t' := cadd t (cmul u v) in do m1 <- cput r ix t' m; Ok (t', m1)) (c0, m);
    Ok m') m.
(* BasicCproduct_4 -- tensor_views/BasicCtensorProducts.hpp:54-78, likewise *)
Definition cproduct_4 (n0 n1 n2 n3 : Z) (x y r : view) (m : memR) : res memR :=
  forZ n0 (fun a => nest3 n1 n2 n3 (fun ix m =>
    do u <- cget x (a :: ix) m; do v <- cget y (a :: ix) m; cput r (a :: ix) (cmul u v) m)) m.
(* x.add_contract_aib_aib_ab_to(r,y) -- tensor_views/Ctensor3_view.hpp:263-274 *)
Definition cv3_swap12 (v : view) : view := View (vblk v) (voff v) [nd v 0; nd v 2; nd v 1; 2] [sd v 0; sd v 2; sd v 1; coffs v].
Definition cv3_contract (x r y : view) (m : memR) : res memR :=
  assrt (nd r 0 =? nd x 0) (assrt (nd r 1 =? nd x 2) (assrt (nd y 0 =? nd x 0) (assrt (nd y 1 =? nd x 1) (assrt (nd y 2 =? nd x 2)
    (cproduct_2_1 (nd x 0) (nd x 2) (nd x 1) (cv3_swap12 x) (cv3_swap12 y) r m))))).
(* r.add_expand_2(x,y) -- tensor_views/Ctensor4_view.hpp:145-157; the strides 0 repeat x along the third and y along the
   first axis *)
Definition cv4_expand_2 (r x y : view) (m : memR) : res memR :=
  assrt (nd x 0 =? nd r 0) (assrt (nd x 1 =? nd r 1) (assrt (nd x 2 =? nd r 3) (assrt (nd y 0 =? nd x 1) (assrt (nd y 1 =? nd r 2) (assrt (nd y 2 =? nd x 2)
    (cproduct_4 (nd r 0) (nd r 1) (nd r 2) (nd r 3)
       (View (vblk x) (voff x) [nd r 0; nd r 1; nd r 2; nd r 3; 2] [sd x 0; sd x 1; 0; sd x 2; coffs x])
       (View (vblk y) (voff y) [nd r 0; nd r 1; nd r 2; nd r 3; 2] [0; sd y 0; sd y 1; sd y 2; coffs y]) r m)))))).

(* ---- other views of the same memory ---- *)
(* slice0, slice1 -- tensor_views/Ctensor2_view.hpp:329-335 *)
Definition cv2_slice0 (v : view) (i : Z) : view := View (vblk v) (voff v + i * sd v 0) [nd v 1; 2] [sd v 1; coffs v].
Definition cv2_slice1 (v : view) (i : Z) : view := View (vblk v) (voff v + i * sd v 1) [nd v 0; 2] [sd v 0; coffs v].
(* fuse01 -- tensor_views/Ctensor2_view.hpp:337-339: the length is n0*s0 *)
Definition cv2_fuse01 (v : view) : view := View (vblk v) (voff v) [nd v 0 * sd v 0; 2] [sd v 1; coffs v].
(* transp -- tensor_views/Ctensor2_view.hpp:344-351 *)
Definition cv2_transp (v : view) : view := View (vblk v) (voff v) [nd v 1; nd v 0; 2] [sd v 1; sd v 0; coffs v].
(* split0(x,i,j), unsqueeze0(x), unsqueeze1(x) -- tensor_views/Ctensor2_view.hpp:380-392 *)
Definition cv1_split0 (x : view) (i j : Z) : res view :=
  assrt (i * j =? nd x 0) (Ok (View (vblk x) (voff x) [i; j; 2] [sd x 0 * j; sd x 0; coffs x])).
Definition cv1_unsqueeze0 (x : view) : view := View (vblk x) (voff x) [1; nd x 0; 2] [sd x 0 * nd x 0; sd x 0; coffs x].
Definition cv1_unsqueeze1 (x : view) : view := View (vblk x) (voff x) [nd x 0; 1; 2] [sd x 0; sd x 0; coffs x].
(* slice0, slice1, slice2 -- tensor_views/Ctensor3_view.hpp:280-290 *)
Definition cv3_slice0 (v : view) (i : Z) : view := View (vblk v) (voff v + i * sd v 0) [nd v 1; nd v 2; 2] [sd v 1; sd v 2; coffs v].
Definition cv3_slice1 (v : view) (i : Z) : view := View (vblk v) (voff v + i * sd v 1) [nd v 0; nd v 2; 2] [sd v 0; sd v 2; coffs v].
Definition cv3_slice2 (v : view) (i : Z) : view := View (vblk v) (voff v + i * sd v 2) [nd v 0; nd v 1; 2] [sd v 0; sd v 1; coffs v].
(* fuse12 -- tensor_views/Ctensor3_view.hpp:296-298 *)
Definition cv3_fuse12 (v : view) : view := View (vblk v) (voff v) [nd v 0; nd v 1 * nd v 2; 2] [sd v 0; sd v 2; coffs v].
(* flip -- tensor_views/Ctensor3_view.hpp:319-326 *)
Definition cv3_flip (v : view) : view :=
  View (vblk v) (voff v + (nd v 1 - 1) * sd v 1 + (nd v 2 - 1) * sd v 2) [nd v 0; nd v 1; nd v 2; 2] [sd v 0; - sd v 1; - sd v 2; coffs v].
(* unsqueeze0(x), unsqueeze1(x), unsqueeze2(x) -- tensor_views/Ctensor3_view.hpp:345-355: unsqueeze1 uses x.s1 where x.s0 is meant *)
Definition cv2_unsqueeze0 (x : view) : view := View (vblk x) (voff x) [1; nd x 0; nd x 1; 2] [sd x 0 * nd x 0; sd x 0; sd x 1; coffs x].
Definition cv2_unsqueeze1 (x : view) : view := View (vblk x) (voff x) [nd x 0; 1; nd x 1; 2] [sd x 1; sd x 1; sd x 1; coffs x].
Definition cv2_unsqueeze2 (x : view) : view := View (vblk x) (voff x) [nd x 0; nd x 1; 1; 2] [sd x 0; sd x 1; sd x 1; coffs x].
(* as_real -- tensor_views/Ctensor3_view.hpp:102-105 *)
Definition cv3_as_real (v : view) : res view :=
  assrt (coffs v =? 1) (Ok (View (vblk v) (voff v) [nd v 0; nd v 1; nd v 2; 2] [sd v 0; sd v 1; sd v 2; 1])).
(* slice0, fuse01, fuse23 -- tensor_views/Ctensor4_view.hpp:172-174, :188-190, :196-198 *)
Definition cv4_slice0 (v : view) (i : Z) : view :=
  View (vblk v) (voff v + i * sd v 0) [nd v 1; nd v 2; nd v 3; 2] [sd v 1; sd v 2; sd v 3; coffs v].
Definition cv4_fuse01 (v : view) : view := View (vblk v) (voff v) [nd v 0 * nd v 1; nd v 2; nd v 3; 2] [sd v 1; sd v 2; sd v 3; coffs v].
Definition cv4_fuse23 (v : view) : view := View (vblk v) (voff v) [nd v 0; nd v 1; nd v 2 * nd v 3; 2] [sd v 0; sd v 1; sd v 3; coffs v].
(* split2(x,n) -- tensor_views/Ctensor4_view.hpp:216-218: the third axis cut into ceil(n2/n) tiles of n; (n2-1)/n truncates *)
Definition cv3_split2 (x : view) (n : Z) : view :=
  View (vblk x) (voff x) [nd x 0; nd x 1; Z.quot (nd x 2 - 1) n + 1; n; 2] [sd x 0; sd x 1; sd x 2 * n; sd x 2; coffs x].

(* add_mix_1_0, add_mix_1_H, add_mix_3_0, add_mix_3_H -- tensor_views/Ctensor4_view.hpp:125-141 *)
Definition cv4_mix_1_0 (r x y : view) (m : memR) : res memR := cv3_mix_1_0 (cv4_fuse23 r) (cv4_fuse23 x) y m.
Definition cv4_mix_1_H (r x y : view) (m : memR) : res memR := cv3_mix_1_H (cv4_fuse23 r) (cv4_fuse23 x) y m.
Definition cv4_mix_3_0 (r x y : view) (m : memR) : res memR := cv3_mix_2_0 (cv4_fuse01 r) (cv4_fuse01 x) y m.
Definition cv4_mix_3_H (r x y : view) (m : memR) : res memR := cv3_mix_2_H (cv4_fuse01 r) (cv4_fuse01 x) y m.
(* x.add_contract_abic_bic_abc_to(r,y) -- tensor_views/Ctensor4_view.hpp:161-166 with foreach_slice0 :110-118 *)
Definition cv4_contract (x r y : view) (m : memR) : res memR :=
  assrt (nd x 0 =? nd r 0) (forZ (nd x 0) (fun i => cv3_contract (cv4_slice0 x i) (cv3_slice0 r i) y) m).
End Ring.
