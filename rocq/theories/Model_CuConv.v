(* Model_CuConv.v -- convolution of fixed-rank real views on a device: cuda/RtensorConvolve2d.cu, cuda/RtensorConvolve3d.cu and the calls in
   tensor_views/functions/RtensorConvolve2d.hpp and RtensorConvolve3d.hpp.  Launches as in Model_Cuda; r, x, w are on the device.  An index
   expression i*s0+j*s1+.. over all strides of a view is [dat v [i; j; ..]].  Element type: any commutative ring. *)
From Verif Require Import Base Model_Index Model_View Model_Tensor Model_Ops Model_RView Model_Einsum Model_Convolve Model_Cuda.
Local Open Scope Z_scope.

(* arr+i*s0+j*s1+.. *)
Definition dat (v : view) (ix : list Z) : addr := (vblk v, voff v + dot (vstr v) ix).
(* float t=0; t+=x*w for each pair read; r+=t -- cuda/RtensorConvolve2d.cu:40-47 and the same in every kernel *)
Fixpoint dots {R : cring} (t : R) (us : list R) : R := match us with x :: w :: us => dots (cadd t (cmul x w)) us | _ => t end.
Definition f_conv {R : cring} (v : R) (us : list R) : R := cadd v (dots c0 us).
(* for(int j=lo; j<hi; j++) *)
Definition jlist (lo hi : Z) : list Z := map (Z.add lo) (zrange (hi - lo)).
(* the nested loops, the last one over the na input channels *)
Definition loop2 (J0 J1 : list Z) (na : Z) : list (Z * Z * Z) := flat_map (fun j0 => flat_map (fun j1 => map (fun a => (j0, j1, a)) (zrange na)) J1) J0.
Definition loop3 (J0 J1 J2 : list Z) (na : Z) : list (Z * Z * Z * Z) :=
  flat_map (fun j0 => flat_map (fun j1 => flat_map (fun j2 => map (fun a => (j0, j1, j2, a)) (zrange na)) J2) J1) J0.
(* the range of a loop: 0<=j<W in the kernels without padding, max(0,p-i)<=j<min(W,X-i+p) in those with *)
Definition jrange (padded : bool) (p i X W : Z) : list Z := if padded then jlist (jlo p i) (jhi p i X W) else zrange W.
Definition launch (g b : Z * Z * Z) (k : thread -> addr * list addr) : list (addr * list addr) := if cu_ok g b then map k (cu_threads g b) else [].

(* RtensorConvolve2d_kernel, the 4D kernels, cuda/RtensorConvolve2d.cu:32-48 (no padding: p0=p1=0) and :51-68 *)
Definition k2_4 (r x w : view) (padded : bool) (p0 p1 : Z) (t : thread) : addr * list addr :=
  let i0 := bx t in let i1 := by_ t in
  (dat r [i0; i1; bz t; tx t],
   flat_map (fun e => let '(j0, j1, a) := e in [dat x [i0 + j0 - p0; i1 + j1 - p1; a; tx t]; dat w [bz t; j0; j1; a]])
     (loop2 (jrange padded p0 i0 (nd x 0) (nd w 1)) (jrange padded p1 i1 (nd x 1) (nd w 2)) (nd w 3))).
(* the 5D kernels, :72-88 and :91-108: i0=blockIdx.y/rn2, i1=blockIdx.y%rn2 *)
Definition k2_5 (r x w : view) (padded : bool) (p0 p1 : Z) (t : thread) : addr * list addr :=
  let i0 := by_ t / nd r 2 in let i1 := by_ t mod nd r 2 in
  (dat r [bx t; i0; i1; bz t; tx t],
   flat_map (fun e => let '(j0, j1, a) := e in [dat x [bx t; i0 + j0 - p0; i1 + j1 - p1; a; tx t]; dat w [bz t; j0; j1; a]])
     (loop2 (jrange padded p0 i0 (nd x 1) (nd w 1)) (jrange padded p1 i1 (nd x 2) (nd w 2)) (nd w 3))).
(* RtensorConvolve2d::operator() with dev==1 -- RtensorConvolve2d.hpp:69-76, :98-101; RtensorConvolve2d_cu, cuda/RtensorConvolve2d.cu:119-141 *)
Definition rconv2_4_cu (r x w : view) : res (list (addr * list addr)) :=
  assrt (nd r 2 =? nd w 0) (assrt (nd x 2 =? nd w 3) (assrt (nd r 3 =? nd x 3)
    (let p0 := pad0 (nd r 0) (nd x 0) (nd w 1) in let p1 := pad0 (nd r 1) (nd x 1) (nd w 2) in
     Ok (launch (nd r 0, nd r 1, nd r 2) (nd r 3, 1, 1) (k2_4 r x w (negb ((p0 =? 0) && (p1 =? 0))) p0 p1))))).
(* RtensorConvolve2d.hpp:106-113, :120-122; cuda/RtensorConvolve2d.cu:143-165 *)
Definition rconv2_5_cu (r x w : view) : res (list (addr * list addr)) :=
  assrt (nd r 0 =? nd x 0) (assrt (nd r 3 =? nd w 0) (assrt (nd r 4 =? nd x 4) (assrt (nd x 3 =? nd w 3)
    (let p0 := pad0 (nd r 1) (nd x 1) (nd w 1) in let p1 := pad0 (nd r 2) (nd x 2) (nd w 2) in
     Ok (launch (nd r 0, nd r 1 * nd r 2, nd r 3) (nd r 4, 1, 1) (k2_5 r x w (negb ((p0 =? 0) && (p1 =? 0))) p0 p1)))))).

(* RtensorConvolve3d_kernel, cuda/RtensorConvolve3d.cu:34-53 and :55-75: 4D *)
Definition k3_4 (r x w : view) (padded : bool) (p0 p1 p2 : Z) (t : thread) : addr * list addr :=
  let i0 := bx t in let i1 := by_ t in let i2 := bz t in
  (dat r [i0; i1; i2; tx t],
   flat_map (fun e => let '(j0, j1, j2, a) := e in [dat x [i0 + j0 - p0; i1 + j1 - p1; i2 + j2 - p2; a]; dat w [tx t; j0; j1; j2; a]])
     (loop3 (jrange padded p0 i0 (nd x 0) (nd w 1)) (jrange padded p1 i1 (nd x 1) (nd w 2)) (jrange padded p2 i2 (nd x 2) (nd w 3)) (nd w 4))).
(* 5D, :81-100 and :103-123 *)
Definition k3_5 (r x w : view) (padded : bool) (p0 p1 p2 : Z) (t : thread) : addr * list addr :=
  let i0 := bx t in let i1 := by_ t in let i2 := bz t in
  (dat r [i0; i1; i2; tx t; ty t],
   flat_map (fun e => let '(j0, j1, j2, a) := e in [dat x [i0 + j0 - p0; i1 + j1 - p1; i2 + j2 - p2; a; ty t]; dat w [tx t; j0; j1; j2; a]])
     (loop3 (jrange padded p0 i0 (nd x 0) (nd w 1)) (jrange padded p1 i1 (nd x 1) (nd w 2)) (jrange padded p2 i2 (nd x 2) (nd w 3)) (nd w 4))).
(* 6D, :129-149 and :152-174: b=blockIdx.x/rn1, i0=blockIdx.x%rn1 *)
Definition k3_6 (r x w : view) (padded : bool) (p0 p1 p2 : Z) (t : thread) : addr * list addr :=
  let b := bx t / nd r 1 in let i0 := bx t mod nd r 1 in let i1 := by_ t in let i2 := bz t in
  (dat r [b; i0; i1; i2; tx t; ty t],
   flat_map (fun e => let '(j0, j1, j2, a) := e in [dat x [b; i0 + j0 - p0; i1 + j1 - p1; i2 + j2 - p2; a; ty t]; dat w [tx t; j0; j1; j2; a]])
     (loop3 (jrange padded p0 i0 (nd x 1) (nd w 1)) (jrange padded p1 i1 (nd x 2) (nd w 2)) (jrange padded p2 i2 (nd x 3) (nd w 3)) (nd w 4))).
(* RtensorConvolve3d::operator() with dev==1 -- RtensorConvolve3d.hpp:35-41, :67-70; RtensorConvolve3d_cu, cuda/RtensorConvolve3d.cu:188-211 *)
Definition rconv3_4_cu (r x w : view) : res (list (addr * list addr)) :=
  assrt (nd r 3 =? nd w 0) (assrt (nd x 3 =? nd w 4)
    (let p0 := pad0 (nd r 0) (nd x 0) (nd w 1) in let p1 := pad0 (nd r 1) (nd x 1) (nd w 2) in let p2 := pad0 (nd r 2) (nd x 2) (nd w 3) in
     Ok (launch (nd r 0, nd r 1, nd r 2) (nd r 3, 1, 1) (k3_4 r x w (negb ((p0 =? 0) && (p1 =? 0) && (p2 =? 0))) p0 p1 p2)))).
(* RtensorConvolve3d.hpp:75-82, :104-106; cuda/RtensorConvolve3d.cu:217-246: more than 1024 threads: a message *)
Definition rconv3_5_cu (r x w : view) : res (list (addr * list addr)) :=
  assrt (nd r 3 =? nd w 0) (assrt (nd x 3 =? nd w 4) (assrt (nd r 4 =? nd x 4)
    (let p0 := pad0 (nd r 0) (nd x 0) (nd w 1) in let p1 := pad0 (nd r 1) (nd x 1) (nd w 2) in let p2 := pad0 (nd r 2) (nd x 2) (nd w 3) in
     Ok (if nd r 3 * nd r 4 <=? 1024
         then launch (nd r 0, nd r 1, nd r 2) (nd r 3, nd r 4, 1) (k3_5 r x w (negb ((p0 =? 0) && (p1 =? 0) && (p2 =? 0))) p0 p1 p2) else [])))).
(* RtensorConvolve3d.hpp:111-119, :130-132; cuda/RtensorConvolve3d.cu:252-281 *)
Definition rconv3_6_cu (r x w : view) : res (list (addr * list addr)) :=
  assrt (nd r 0 =? nd x 0) (assrt (nd r 4 =? nd w 0) (assrt (nd r 5 =? nd x 5) (assrt (nd x 4 =? nd w 4)
    (let p0 := pad0 (nd r 1) (nd x 1) (nd w 1) in let p1 := pad0 (nd r 2) (nd x 2) (nd w 2) in let p2 := pad0 (nd r 3) (nd x 3) (nd w 3) in
     Ok (if nd r 4 * nd r 5 <=? 1024
         then launch (nd r 0 * nd r 1, nd r 2, nd r 3) (nd r 4, nd r 5, 1) (k3_6 r x w (negb ((p0 =? 0) && (p1 =? 0) && (p2 =? 0))) p0 p1 p2) else []))))).
