(* Model_Spaces.v -- orthonormal bases: ColumnSpace, ComplementSpace, IntersectionSpace and random unitary matrices.
   Simplified: float and double are the real numbers of Coq's library and complex<..> the pairs of these, so
   there is no rounding, no overflow and no NaN; CPU only. *)
From Coq Require Import Reals Lra.
From Verif Require Import Base BaseFacts Model_Index Model_View Model_Tensor Model_Ops Model_CView.
Local Open Scope Z_scope.

(* the type double *)
Definition RRing : cring := CRing R R0 R1 Rplus Rmult Rminus Ropp RTheory.

(* TYPE with what the code uses of it: std::conj, conversion from double, std::norm (for real TYPE: the identity,
   the identity and the square), and their laws.  is_complex and complex_inner_type: include/Cnine_base.hpp *)
Record hfield := HField {
  hr : cring;
  hconj : hr -> hr;
  hinj : R -> hr;
  hsq : hr -> R;
  hconj_add : forall x y, hconj (cadd x y) = cadd (hconj x) (hconj y);
  hconj_mul : forall x y, hconj (cmul x y) = cmul (hconj x) (hconj y);
  hconj_conj : forall x, hconj (hconj x) = x;
  hconj_inj : forall a, hconj (hinj a) = hinj a;
  hinj_0 : hinj 0%R = c0;
  hinj_1 : hinj 1%R = c1;
  hinj_add : forall a b, hinj (a + b)%R = cadd (hinj a) (hinj b);
  hinj_mul : forall a b, hinj (a * b)%R = cmul (hinj a) (hinj b);
  hinj_eq : forall a b, hinj a = hinj b -> a = b;
  hsq_mul : forall x, hinj (hsq x) = cmul (hconj x) x;
  hsq_pos : forall x, (0 <= hsq x)%R;
  hsq_0 : forall x, hsq x = 0%R -> x = c0
}.

(* TYPE = double: the branches with !is_complex of tensors/TensorView_scalar_ops.inc:57-73, :95-109, :129-132 *)
Definition HReal : hfield.
Proof.
  refine (HField RRing (fun x => x) (fun x => x) (fun x => (x * x)%R) _ _ _ _ _ _ _ _ _ _ _ _); intros; auto.
  - cbn. nra.
  - cbn in *. nra.
Defined.
(* TYPE = complex<double>: the branches with is_complex, tensors/TensorView_scalar_ops.inc:75-92, :110-126, :133-137;
   std::norm(a+bi) is a*a+b*b *)
Definition HCplx : hfield.
Proof.
  refine (HField (CxRing RRing) (@conj RRing) (@of_real RRing) (fun x => (fst x * fst x + snd x * snd x)%R) _ _ _ _ _ _ _ _ _ _ _ _);
    cbn; unfold conj, of_real; cbn; intros;
    repeat match goal with x : (R * R)%type |- _ => destruct x end; cbn in *; auto; try (f_equal; ring).
  - injection H as H. exact H.
  - nra.
  - assert (r = 0 /\ r0 = 0)%R as [-> ->] by (split; nra). reflexivity.
Defined.

Section Field.
Context (H : hfield).
Notation A := (hr H).
Notation memA := (mem (car A)).

(* x.inp(y): the conjugate of x's element times y's -- tensors/TensorView_scalar_ops.inc:57-73 and :76-92;
   inp(x,y) tensors/TensorView_functions.hpp:172-175 *)
Definition tv_hinp (x y : view) (m : memA) : res A :=
  assrt (eqlb (vdims x) (vdims y))
    (do a <- is_regular (vstr x) (vdims x); do b <- is_regular (vstr y) (vdims y);
     if a && b
     then forZ (asize (vdims x)) (fun i t => do u <- load m (vblk x) (voff x + i);
                                             do v <- load m (vblk y) (voff y + i); Ok (cadd t (cmul (hconj H u) v))) c0
     else foreach_index (vdims x) (fun ix t => do p <- vaddr x ix; do u <- loadA m p;
                                               do q <- vaddr y ix; do v <- loadA m q;
                                               Ok (cadd t (cmul (hconj H u) v))) c0).
(* norm2() -- tensors/TensorView_scalar_ops.inc:93-125 *)
Definition tv_hnorm2 (x : view) (m : memA) : res R := reduce (fun t v => (t + hsq H v)%R) x 0%R m.
(* norm() -- tensors/TensorView_scalar_ops.inc:127-137 *)
Definition tv_hnorm (x : view) (m : memA) : res R := do t <- tv_hnorm2 x m; Ok (sqrt t).

(* one pass of the loop of the constructor of ColumnSpace: column i of M (a view obtained by const_cast, so
   that M itself is written) is made orthogonal to the ncols columns found so far and, unless almost 0,
   appended -- tensors/functions/ColumnSpace.hpp:35-45 *)
Definition cs_step (M T : view) (thr : R) (i : Z) (st : Z * memA) : res (Z * memA) :=
  let (ncols, m) := st in
  do c <- col i M;
  do m1 <- forZ ncols (fun j m => do t <- col j T; do s <- tv_hinp c t m; tv_subc c t s m) m;
  do norm <- tv_hnorm c m1;
  if Rlt_dec thr norm
  then do t <- col ncols T; do m2 <- tv_addc t c (hinj H (1 / norm)%R) m1; Ok (ncols + 1, m2)
  else Ok (ncols, m1).
(* ColumnSpace(M,threshold)() -- tensors/functions/ColumnSpace.hpp:29-48, :50-60.  T is allocated in block b
   before the assertion *)
Definition column_space (b : Z) (M : view) (thr : R) (m : memA) : res (view * memA) :=
  let (T, m0) := zeros c0 b (vdims M) m in
  match vdims M with
  | [n; mm] =>
      do ' (ncols, m1) <- forZ mm (cs_step M T thr) (0, m0);
      do r <- block_dims [n; ncols] T; Ok (r, m1)
  | _ => Throw
  end.

(* the loops of the constructor of ComplementSpace once its member M is a tensor of zeros: unit vector i (a new
   tensor, block b; a block freed at the end of a pass is used again in the next) is made orthogonal to the
   columns of A, then to those found so far, and appended unless almost 0
   -- tensors/functions/ComplementSpace.hpp:46-69.  10e-6 is 1/100000; TYPE is real here (threshold and norms are
   of type TYPE and are compared by >) *)
Definition comp_step (A0 M : view) (norms : Z -> R) (n k b : Z) (thr : R) (i : Z) (st : Z * memA) : res (Z * memA) :=
  let (ncols, m) := st in
  let (c, m0) := zeros c0 b [n] m in
  do m1 <- put_at c [i] c1 m0;
  do m2 <- forZ k (fun j m =>
             if Rlt_dec (1 / 100000) (norms j)
             then do t <- col j A0; do s <- tv_hinp c t m; tv_subc c t (cmul s (hinj H (/ norms j)%R)) m
             else Ok m) m1;
  do m3 <- forZ ncols (fun j m => do t <- col j M; do s <- tv_hinp c t m; tv_subc c t s m) m2;
  do norm <- tv_hnorm c m3;
  if Rlt_dec thr norm
  then do t <- col ncols M; do m4 <- tv_addc t c (hinj H (1 / norm)%R) m3; Ok (ncols + 1, m4)
  else Ok (ncols, m3).
(* operator() -- tensors/functions/ComplementSpace.hpp:74-80, with the member M and the loops before it *)
Definition complement_loop (A0 M : view) (norms : Z -> R) (n k b : Z) (thr : R) (m : memA) : res (view * memA) :=
  do ' (ncols, m1) <- forZ n (comp_step A0 M norms n k b thr) (0, m);
  do n0 <- zget (vdims M) 0;
  do r <- block_dims [n0; ncols] M; Ok (r, m1).
(* the norms of the columns of A -- tensors/functions/ComplementSpace.hpp:38-41; as a function of the column *)
Definition col_norms (A0 : view) (k : Z) (m : memA) : res (Z -> R) :=
  forZ k (fun i f => do c <- col i A0; do s <- tv_hnorm2 c m; Ok (fun j => if j =? i then s else f j)) (fun _ => 0%R).
(* ComplementSpace(A,threshold)() -- tensors/functions/ComplementSpace.hpp:30-72.  The member M is a default
   constructed TensorView, which has no dimensions; the only assignment operator of TensorView asserts equal
   dimensions and copies the elements (tensors/TensorView.hpp:213-218).  10e-5 is 1/10000.  Blocks: b for the
   column space, b1 for the tensor assigned from, b2 for the unit vectors *)
Definition complement_space (b b1 b2 : Z) (A1 : view) (thr : R) (m : memA) : res (view * memA) :=
  do ' (A0, m1) <- column_space b A1 (1 / 10000)%R m;
  match vdims A0 with
  | [n; k] =>
      do norms <- col_norms A0 k m1;
      let M := View b1 0 [] [] in
      let (Z0, m2) := zeros c0 b1 [n; n] m1 in
      assrt (eqlb (vdims M) (vdims Z0))
        (do m3 <- tv_assign M Z0 m2; complement_loop A0 M norms n k b2 thr m3)
  | _ => Throw
  end.
(* Identity<TYPE>(n) -- tensors/TensorView_functions.hpp:272-275 by tensors/TensorView_constructors.hpp:72-80 *)
Definition identity_new (b n : Z) (m : memA) : res (view * memA) :=
  let (r, m1) := zeros c0 b [n; n] m in
  do m2 <- forZ n (fun i m => put_at r [i; i] c1 m) m1; Ok (r, m2).
(* IntersectionSpace(X,Y)() -- tensors/functions/IntersectionSpace.hpp:32-44.  Blocks b..b+9 are new tensors.
   B.transp() and C.transp() are views *)
Definition intersection_space (b : Z) (X Y : view) (m : memA) : res (view * memA) :=
  match vdims X, vdims Y with
  | [a; c], [a'; c'] =>
      assrt (c =? c')
        (do Yt <- transp Y;
         do ' (B, m1) <- op_mprod b X Yt m;
         do Bt <- transp B;
         do ' (BB, m2) <- op_mprod (b + 1) B Bt m1;
         do ' (E, m3) <- identity_new (b + 2) a m2;
         do ' (D, m4) <- op_sub (b + 3) BB E m3;
         do ' (C, m5) <- complement_space (b + 4) (b + 5) (b + 6) D (1 / 10000)%R m4;
         do Ct <- transp C;
         do ' (P, m6) <- op_mprod (b + 7) Ct X m5;
         let T := View (b + 8) 0 [] [] in
         assrt (eqlb (vdims T) (vdims P)) (do m7 <- tv_assign T P m6; Ok (T, m7)))
  | _, _ => Throw
  end.

(* TensorView({N},4,0): a new tensor of random numbers f -- tensors/TensorView.hpp:144-148, :162-164, :178-189.
   The random numbers are arbitrary here *)
Definition filled (b n : Z) (f : Z -> A) (m : memA) : view * memA :=
  (fresh_view b [n], fun b' a' => if b' =? b then (if (0 <=? a') && (a' <? n) then Some (f a') else None) else m b' a').
(* one pass of the loop of random_unitary: random vector i is made orthogonal to the rows before and is written
   to row i -- tensors/TensorView_constructors.hpp:150-155.  v is in block bv and the product u*u.inp(v) in block
   bt; both are freed before they are allocated again.  Simplified: 1/0 (infinite in floating point, after which
   the row holds NaN) is UB here *)
Definition ru_step (r : view) (N : Z) (draw : Z -> Z -> A) (bv bt : Z) (i : Z) (m : memA) : res memA :=
  let (v, m0) := filled bv N (draw i) m in
  do m1 <- forZ i (fun j m => do u <- row j r; do s <- tv_hinp u v m; do ' (w, m') <- op_times bt u s m; tv_sub v w m') m0;
  do norm <- tv_hnorm v m1;
  if Req_EM_T norm 0 then UB
  else do t <- row i r; tv_addc t v (hinj H (1 / norm)%R) m1.
(* random_unitary(dims) -- tensors/TensorView_constructors.hpp:144-159 *)
Definition random_unitary (b bv bt : Z) (dims : list Z) (draw : Z -> Z -> A) (m : memA) : res (view * memA) :=
  let (r, m0) := zeros c0 b dims m in
  match dims with
  | [n0; n1] => assrt (n0 =? n1) (do m1 <- forZ n0 (ru_step r n0 draw bv bt) m0; Ok (r, m1))
  | _ => Throw
  end.
End Field.
