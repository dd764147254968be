(* Model_RConv.v -- convolution of fixed-rank real views, tensor_views/functions/RtensorConvolve2d.hpp,
   RtensorConvolve2dSparse.hpp, RtensorConvolve3d.hpp, RtensorConvolve3dSparse.hpp and RtensorConvolve3d_back0.hpp, on CPU
   views (dev==0; all arguments on the same device, so CNINE_CHECK_DEV3 passes).  A view of rank k is a [view] with k sides
   and k strides; n0,n1,.. and s0,s1,.. are [nd v 0], [nd v 1],.. and [sd v 0],..  Element type: any commutative ring. *)
From Verif Require Import Base Model_Index Model_View Model_Tensor Model_Ops Model_RView Model_Einsum Model_Convolve.
Local Open Scope Z_scope.

(* slice0(b) of views of rank 5 and 6 -- tensor_views/Rtensor5_view.hpp:205-209, tensor_views/Rtensor6_view.hpp:224-228; the
   index is in range at every call below *)
Definition rvN_slice0 (v : view) (i : Z) : view := View (vblk v) (voff v + i * sd v 0) (tl (vdims v)) (tl (vstr v)).
(* Rtensor5_view::slice2(i) -- tensor_views/Rtensor5_view.hpp:217-221 *)
Definition rv5_slice2 (v : view) (i : Z) : view :=
  View (vblk v) (voff v + i * sd v 2) [nd v 0; nd v 1; nd v 3; nd v 4] [sd v 0; sd v 1; sd v 3; sd v 4].

Section Conv.
Context {R : cring}.
Notation memR := (mem (car R)).

(* ---- RtensorConvolve2d ---- *)
(* Rtensor3_view r and x, Rtensor4_view w -- RtensorConvolve2d.hpp:34-65; paddings [pad0], :38, :39; bounds of the loops
   [jlo] and [jhi], :45, :51 *)
Definition rconv2_3 (r x w : view) (m : memR) : res memR :=
  assrt (nd r 2 =? nd w 0) (assrt (nd x 2 =? nd w 3)
    (let p0 := pad0 (nd r 0) (nd x 0) (nd w 1) in let p1 := pad0 (nd r 1) (nd x 1) (nd w 2) in
     forZ (nd r 0) (fun i0 => forZ (nd r 1) (fun i1 =>
       let RR := View (vblk r) (voff r + i0 * sd r 0 + i1 * sd r 1) [nd r 2] [sd r 2] in
       forR (jlo p0 i0) (jhi p0 i0 (nd x 0) (nd w 1)) (fun j0 =>
         if p1 =? 0 then
           rv2_add_mprod_to (View (vblk w) (voff w + j0 * sd w 1) [nd w 0; nd w 2 * nd w 3] [sd w 0; sd w 3]) RR
             (View (vblk x) (voff x + (i0 + j0 - p0) * sd x 0 + i1 * sd x 1) [nd w 2 * nd w 3] [sd x 2])
         else forR (jlo p1 i1) (jhi p1 i1 (nd x 1) (nd w 2)) (fun j1 =>
           rv2_add_mprod_to (View (vblk w) (voff w + j0 * sd w 1 + j1 * sd w 2) [nd w 0; nd w 3] [sd w 0; sd w 3]) RR
             (View (vblk x) (voff x + (i0 + j0 - p0) * sd x 0 + (i1 + j1 - p1) * sd x 1) [nd x 2] [sd x 2]))))) m)).
(* Rtensor4_view r and x -- RtensorConvolve2d.hpp:69-102 *)
Definition rconv2_4 (r x w : view) (m : memR) : res memR :=
  assrt (nd r 2 =? nd w 0) (assrt (nd x 2 =? nd w 3) (assrt (nd r 3 =? nd x 3)
    (let p0 := pad0 (nd r 0) (nd x 0) (nd w 1) in let p1 := pad0 (nd r 1) (nd x 1) (nd w 2) in
     forZ (nd r 0) (fun i0 => forZ (nd r 1) (fun i1 =>
       let RR := View (vblk r) (voff r + i0 * sd r 0 + i1 * sd r 1) [nd r 2; nd r 3] [sd r 2; sd r 3] in
       forR (jlo p0 i0) (jhi p0 i0 (nd x 0) (nd w 1)) (fun j0 =>
         if p1 =? 0 then
           rv2_add_mprod RR (View (vblk w) (voff w + j0 * sd w 1) [nd w 0; nd w 2 * nd w 3] [sd w 0; sd w 3])
             (View (vblk x) (voff x + (i0 + j0 - p0) * sd x 0 + i1 * sd x 1) [nd w 2 * nd x 2; nd x 3] [sd x 2; sd x 3])
         else forR (jlo p1 i1) (jhi p1 i1 (nd x 1) (nd w 2)) (fun j1 =>
           rv2_add_mprod RR (View (vblk w) (voff w + j0 * sd w 1 + j1 * sd w 2) [nd w 0; nd w 3] [sd w 0; sd w 3])
             (View (vblk x) (voff x + (i0 + j0 - p0) * sd x 0 + (i1 + j1 - p1) * sd x 1) [nd x 2; nd x 3] [sd x 2; sd x 3]))))) m))).
(* batches, Rtensor5_view r and x -- RtensorConvolve2d.hpp:106-123 *)
Definition rconv2_5 (r x w : view) (m : memR) : res memR :=
  assrt (nd r 0 =? nd x 0) (assrt (nd r 3 =? nd w 0) (assrt (nd r 4 =? nd x 4) (assrt (nd x 3 =? nd w 3)
    (forZ (nd x 0) (fun b => rconv2_4 (rvN_slice0 r b) (rvN_slice0 x b) w) m)))).
(* batches and blocks, Rtensor6_view r and x -- RtensorConvolve2d.hpp:127-146 *)
Definition rconv2_6 (r x w : view) (m : memR) : res memR :=
  assrt (nd r 0 =? nd x 0) (assrt (nd r 3 =? nd x 3) (assrt (nd r 4 =? nd w 0) (assrt (nd x 4 =? nd w 3) (assrt (nd r 5 =? nd x 5)
    (forZ (nd x 0) (fun b => forZ (nd x 3) (fun d =>
       rconv2_4 (rv5_slice2 (rvN_slice0 r b) d) (rv5_slice2 (rvN_slice0 x b) d) w)) m))))).
(* the members called on RtensorA arguments: a fresh tensor of zeros in block b, then the operator -- in convolve2D and
   convolve3D.  Sides are not negative here (the allocation of a negative size fails) *)
Definition rconv_result (b : Z) (dims : list Z) (op : view -> memR -> res memR) (m : memR) : res (view * memR) :=
  let r := fresh_view b dims in do m1 <- op r (alloc c0 b (asize dims) m); Ok (r, m1).
(* convolve2D(x,w,padding0,padding1) for x of rank 3, 4, 5 and 6 -- RtensorConvolve2d.hpp:155-187; None for the empty tensor
   returned for other ranks *)
Definition rconvolve2D (b : Z) (x w : view) (q0 q1 : Z) (m : memR) : res (option view * memR) :=
  let some r := do p <- r; Ok (Some (fst p), snd p) in
  assrt (ndims w =? 4)
    (if ndims x =? 3 then assrt (nd w 3 =? nd x 2)
       (some (rconv_result b [nd x 0 + 2 * q0 - nd w 1 + 1; nd x 1 + 2 * q1 - nd w 2 + 1; nd w 0] (fun r => rconv2_3 r x w) m))
     else if ndims x =? 4 then assrt (nd w 3 =? nd x 2)
       (some (rconv_result b [nd x 0 + 2 * q0 - nd w 1 + 1; nd x 1 + 2 * q1 - nd w 2 + 1; nd w 0; nd x 3] (fun r => rconv2_4 r x w) m))
     else if ndims x =? 5 then assrt (nd w 3 =? nd x 3)
       (some (rconv_result b [nd x 0; nd x 1 + 2 * q0 - nd w 1 + 1; nd x 2 + 2 * q1 - nd w 2 + 1; nd w 0; nd x 4] (fun r => rconv2_5 r x w) m))
     else if ndims x =? 6 then assrt (nd w 3 =? nd x 4)
       (some (rconv_result b [nd x 0; nd x 1 + 2 * q0 - nd w 1 + 1; nd x 2 + 2 * q1 - nd w 2 + 1; nd x 3; nd w 0; nd x 5] (fun r => rconv2_6 r x w) m))
     else Ok (None, m)).

(* ---- RtensorConvolve3d ---- *)
(* Rtensor4_view r and x, Rtensor5_view w -- RtensorConvolve3d.hpp:35-71; the upper bound of the j2 loop, :55, has w.n2 *)
Definition rconv3_4 (r x w : view) (m : memR) : res memR :=
  assrt (nd r 3 =? nd w 0) (assrt (nd x 3 =? nd w 4)
    (let p0 := pad0 (nd r 0) (nd x 0) (nd w 1) in let p1 := pad0 (nd r 1) (nd x 1) (nd w 2) in let p2 := pad0 (nd r 2) (nd x 2) (nd w 3) in
     forZ (nd r 0) (fun i0 => forZ (nd r 1) (fun i1 => forZ (nd r 2) (fun i2 =>
       let RR := View (vblk r) (voff r + i0 * sd r 0 + i1 * sd r 1 + i2 * sd r 2) [nd r 3] [sd r 3] in
       forR (jlo p0 i0) (jhi p0 i0 (nd x 0) (nd w 1)) (fun j0 => forR (jlo p1 i1) (jhi p1 i1 (nd x 1) (nd w 2)) (fun j1 =>
         if p2 =? 0 then
           rv2_add_mprod_to (View (vblk w) (voff w + j0 * sd w 1 + j1 * sd w 2) [nd w 0; nd w 3 * nd w 4] [sd w 0; sd w 4]) RR
             (View (vblk x) (voff x + (i0 + j0 - p0) * sd x 0 + (i1 + j1 - p1) * sd x 1 + i2 * sd x 2) [nd w 3 * nd w 4] [sd x 3])
         else forR (jlo p2 i2) (jhi p2 i2 (nd x 2) (nd w 2)) (fun j2 =>
           rv2_add_mprod_to (View (vblk w) (voff w + j0 * sd w 1 + j1 * sd w 2 + j2 * sd w 3) [nd w 0; nd w 4] [sd w 0; sd w 4]) RR
             (View (vblk x) (voff x + (i0 + j0 - p0) * sd x 0 + (i1 + j1 - p1) * sd x 1 + (i2 + j2 - p2) * sd x 2) [nd x 3] [sd x 3]))))))) m)).
(* Rtensor5_view r and x -- RtensorConvolve3d.hpp:75-107 *)
Definition rconv3_5 (r x w : view) (m : memR) : res memR :=
  assrt (nd r 3 =? nd w 0) (assrt (nd x 3 =? nd w 4) (assrt (nd r 4 =? nd x 4)
    (let p0 := pad0 (nd r 0) (nd x 0) (nd w 1) in let p1 := pad0 (nd r 1) (nd x 1) (nd w 2) in let p2 := pad0 (nd r 2) (nd x 2) (nd w 3) in
     forZ (nd r 0) (fun i0 => forZ (nd r 1) (fun i1 => forZ (nd r 2) (fun i2 =>
       let RR := View (vblk r) (voff r + i0 * sd r 0 + i1 * sd r 1 + i2 * sd r 2) [nd r 3; nd r 4] [sd r 3; sd r 4] in
       forR (jlo p0 i0) (jhi p0 i0 (nd x 0) (nd w 1)) (fun j0 => forR (jlo p1 i1) (jhi p1 i1 (nd x 1) (nd w 2)) (fun j1 =>
         forR (jlo p2 i2) (jhi p2 i2 (nd x 2) (nd w 3)) (fun j2 =>
           rv2_add_mprod RR (View (vblk w) (voff w + j0 * sd w 1 + j1 * sd w 2 + j2 * sd w 3) [nd w 0; nd w 4] [sd w 0; sd w 4])
             (View (vblk x) (voff x + (i0 + j0 - p0) * sd x 0 + (i1 + j1 - p1) * sd x 1 + (i2 + j2 - p2) * sd x 2) [nd x 3; nd x 4] [sd x 3; sd x 4]))))))) m))).
(* batches, Rtensor6_view r and x -- RtensorConvolve3d.hpp:111-133 *)
Definition rconv3_6 (r x w : view) (m : memR) : res memR :=
  assrt (nd r 0 =? nd x 0) (assrt (nd r 4 =? nd w 0) (assrt (nd r 5 =? nd x 5) (assrt (nd x 4 =? nd w 4)
    (forZ (nd x 0) (fun b => rconv3_5 (rvN_slice0 r b) (rvN_slice0 x b) w) m)))).
(* convolve3D(x,w,padding0,padding1,padding2) for x of rank 4, 5 and 6 -- RtensorConvolve3d.hpp:140-168 *)
Definition rconvolve3D (b : Z) (x w : view) (q0 q1 q2 : Z) (m : memR) : res (option view * memR) :=
  let some r := do p <- r; Ok (Some (fst p), snd p) in
  assrt (ndims w =? 5)
    (if ndims x =? 4 then assrt (nd w 4 =? nd x 3)
       (some (rconv_result b [nd x 0 + 2 * q0 - nd w 1 + 1; nd x 1 + 2 * q1 - nd w 2 + 1; nd x 2 + 2 * q2 - nd w 3 + 1; nd w 0] (fun r => rconv3_4 r x w) m))
     else if ndims x =? 5 then assrt (nd w 4 =? nd x 3)
       (some (rconv_result b [nd x 0 + 2 * q0 - nd w 1 + 1; nd x 1 + 2 * q1 - nd w 2 + 1; nd x 2 + 2 * q2 - nd w 3 + 1; nd w 0; nd x 4] (fun r => rconv3_5 r x w) m))
     else if ndims x =? 6 then assrt (nd w 4 =? nd x 4)
       (some (rconv_result b [nd x 0; nd x 1 + 2 * q0 - nd w 1 + 1; nd x 2 + 2 * q1 - nd w 2 + 1; nd x 3 + 2 * q2 - nd w 3 + 1; nd w 0; nd x 5] (fun r => rconv3_6 r x w) m))
     else Ok (None, m)).
(* the filter with its three spatial axes reversed and its channel axes exchanged -- RtensorConvolve3d_back0.hpp:27-29, :35-37, :43-45 *)
Definition rflip5 (w : view) : view :=
  View (vblk w) (voff w + (nd w 1 - 1) * sd w 1 + (nd w 2 - 1) * sd w 2 + (nd w 3 - 1) * sd w 3)
    [nd w 4; nd w 1; nd w 2; nd w 3; nd w 0] [sd w 4; - sd w 1; - sd w 2; - sd w 3; sd w 0].
(* the gradient of x from that of r, for rank 4, 5, 6 -- RtensorConvolve3d_back0.hpp:26-31, :34-39, :42-47 *)
Definition rconv3_back0 (rg xg w : view) (m : memR) : res memR :=
  if ndims xg =? 4 then rconv3_4 xg rg (rflip5 w) m
  else if ndims xg =? 5 then rconv3_5 xg rg (rflip5 w) m
  else rconv3_6 xg rg (rflip5 w) m.

(* ---- sparse filters ---- *)
(* the calls for_each makes, matrices/CSRmatrix.hpp, as a list of (row, column, value): the order is that of the rows *)
Definition calls := list (Z * Z * R).
(* Rtensor3_view r and x; n is w.n; the divisions of ints truncate -- RtensorConvolve2dSparse.hpp:32-58 *)
Definition rsconv2_3 (r x : view) (n : Z) (w : calls) (J0 J1 : Z) (m : memR) : res memR :=
  assrt (nd r 2 =? n)
    (let p0 := pad0 (nd r 0) (nd x 0) J0 in let p1 := pad0 (nd r 1) (nd x 1) J1 in let A := nd x 2 in
     forZ (nd r 0) (fun i0 => forZ (nd r 1) (fun i1 =>
       let RR := View (vblk r) (voff r + i0 * sd r 0 + i1 * sd r 1) [nd r 2] [sd r 2] in
       foldM (fun c m => let '(o, s, v) := c in
         if (J1 * A =? 0) then UB else
         let j0 := Z.quot s (J1 * A) in let j1 := Z.rem (Z.quot s A) J1 in
         if (i0 + j0 - p0 <? 0) || (i0 + j0 - p0 >=? nd x 0) then Ok m
         else if (i1 + j1 - p1 <? 0) || (i1 + j1 - p1 >=? nd x 1) then Ok m
         else do u <- Model_RView.get_at x [i0 + j0 - p0; i1 + j1 - p1; Z.rem s A] m; inc_at RR [o] (cmul v u) m) w)) m).
(* Rtensor4_view r and x -- RtensorConvolve2dSparse.hpp:61-91 *)
Definition rsconv2_4 (r x : view) (n : Z) (w : calls) (J0 J1 : Z) (m : memR) : res memR :=
  assrt (nd r 2 =? n) (assrt (nd r 3 =? nd x 3)
    (let p0 := pad0 (nd r 0) (nd x 0) J0 in let p1 := pad0 (nd r 1) (nd x 1) J1 in let A := nd x 2 in
     forZ (nd r 0) (fun i0 => forZ (nd r 1) (fun i1 =>
       let RR := View (vblk r) (voff r + i0 * sd r 0 + i1 * sd r 1) [nd r 2; nd r 3] [sd r 2; sd r 3] in
       foldM (fun c m => let '(o, s, v) := c in
         if (J1 * A =? 0) then UB else
         let j0 := Z.quot s (J1 * A) in let j1 := Z.rem (Z.quot s A) J1 in
         if (i0 + j0 - p0 <? 0) || (i0 + j0 - p0 >=? nd x 0) then Ok m
         else if (i1 + j1 - p1 <? 0) || (i1 + j1 - p1 >=? nd x 1) then Ok m
         else forZ (nd x 3) (fun k m =>
           do u <- Model_RView.get_at x [i0 + j0 - p0; i1 + j1 - p1; Z.rem s A; k] m; inc_at RR [o; k] (cmul v u) m) m) w)) m)).
(* batches -- RtensorConvolve2dSparse.hpp:94-110 *)
Definition rsconv2_5 (r x : view) (n : Z) (w : calls) (J0 J1 : Z) (m : memR) : res memR :=
  assrt (nd r 0 =? nd x 0) (assrt (nd r 3 =? n) (assrt (nd r 4 =? nd x 4)
    (forZ (nd x 0) (fun b => rsconv2_4 (rvN_slice0 r b) (rvN_slice0 x b) n w J0 J1) m))).
(* batches and blocks -- RtensorConvolve2dSparse.hpp:113-131 *)
Definition rsconv2_6 (r x : view) (n : Z) (w : calls) (J0 J1 : Z) (m : memR) : res memR :=
  assrt (nd r 0 =? nd x 0) (assrt (nd r 4 =? n) (assrt (nd r 3 =? nd x 3) (assrt (nd r 5 =? nd x 5)
    (forZ (nd x 0) (fun b => forZ (nd x 3) (fun d =>
       rsconv2_4 (rv5_slice2 (rvN_slice0 r b) d) (rv5_slice2 (rvN_slice0 x b) d) n w J0 J1)) m)))).
(* Rtensor4_view r and x -- RtensorConvolve3dSparse.hpp:37-68 *)
Definition rsconv3_4 (r x : view) (n : Z) (w : calls) (J0 J1 J2 : Z) (m : memR) : res memR :=
  assrt (nd r 3 =? n)
    (let p0 := pad0 (nd r 0) (nd x 0) J0 in let p1 := pad0 (nd r 1) (nd x 1) J1 in let p2 := pad0 (nd r 2) (nd x 2) J2 in let A := nd x 3 in
     forZ (nd r 0) (fun i0 => forZ (nd r 1) (fun i1 => forZ (nd r 2) (fun i2 =>
       let RR := View (vblk r) (voff r + i0 * sd r 0 + i1 * sd r 1 + i2 * sd r 2) [nd r 3] [sd r 3] in
       foldM (fun c m => let '(o, s, v) := c in
         if (J2 * A =? 0) || (J1 =? 0) then UB else
         let j2 := Z.rem (Z.quot s A) J2 in let t := Z.quot s (J2 * A) in let j1 := Z.rem t J1 in let j0 := Z.quot t J1 in
         if (i0 + j0 - p0 <? 0) || (i0 + j0 - p0 >=? nd x 0) then Ok m
         else if (i1 + j1 - p1 <? 0) || (i1 + j1 - p1 >=? nd x 1) then Ok m
         else if (i2 + j2 - p2 <? 0) || (i2 + j2 - p2 >=? nd x 2) then Ok m
         else do u <- Model_RView.get_at x [i0 + j0 - p0; i1 + j1 - p1; i2 + j2 - p2; Z.rem s A] m; inc_at RR [o] (cmul v u) m) w))) m).
(* Rtensor5_view r and x -- RtensorConvolve3dSparse.hpp:71-107 *)
Definition rsconv3_5 (r x : view) (n : Z) (w : calls) (J0 J1 J2 : Z) (m : memR) : res memR :=
  assrt (nd r 3 =? n) (assrt (nd r 4 =? nd x 4)
    (let p0 := pad0 (nd r 0) (nd x 0) J0 in let p1 := pad0 (nd r 1) (nd x 1) J1 in let p2 := pad0 (nd r 2) (nd x 2) J2 in let A := nd x 3 in
     forZ (nd r 0) (fun i0 => forZ (nd r 1) (fun i1 => forZ (nd r 2) (fun i2 =>
       let RR := View (vblk r) (voff r + i0 * sd r 0 + i1 * sd r 1 + i2 * sd r 2) [nd r 3; nd r 4] [sd r 3; sd r 4] in
       foldM (fun c m => let '(o, s, v) := c in
         if (J2 * A =? 0) || (J1 =? 0) then UB else
         let j2 := Z.rem (Z.quot s A) J2 in let t := Z.quot s (J2 * A) in let j1 := Z.rem t J1 in let j0 := Z.quot t J1 in
         if (i0 + j0 - p0 <? 0) || (i0 + j0 - p0 >=? nd x 0) then Ok m
         else if (i1 + j1 - p1 <? 0) || (i1 + j1 - p1 >=? nd x 1) then Ok m
         else if (i2 + j2 - p2 <? 0) || (i2 + j2 - p2 >=? nd x 2) then Ok m
         else forZ (nd x 4) (fun k m =>
           do u <- Model_RView.get_at x [i0 + j0 - p0; i1 + j1 - p1; i2 + j2 - p2; Z.rem s A; k] m; inc_at RR [o; k] (cmul v u) m) m) w))) m)).
(* batches -- RtensorConvolve3dSparse.hpp:110-128 *)
Definition rsconv3_6 (r x : view) (n : Z) (w : calls) (J0 J1 J2 : Z) (m : memR) : res memR :=
  assrt (nd r 0 =? nd x 0) (assrt (nd r 4 =? n) (assrt (nd r 5 =? nd x 5)
    (forZ (nd x 0) (fun b => rsconv3_5 (rvN_slice0 r b) (rvN_slice0 x b) n w J0 J1 J2) m))).
(* convolve2D(x,w,J0,J1,padding0,padding1) and convolve3D(x,w,J0,J1,J2,padding0,..); n and k are w.n and w.m --
   RtensorConvolve2dSparse.hpp:138-169, RtensorConvolve3dSparse.hpp:133-159 *)
Definition rsconvolve2D (b : Z) (x : view) (n k : Z) (w : calls) (J0 J1 q0 q1 : Z) (m : memR) : res (option view * memR) :=
  let some r := do p <- r; Ok (Some (fst p), snd p) in
  if ndims x =? 3 then assrt (k =? J0 * J1 * nd x 2)
    (some (rconv_result b [nd x 0 + 2 * q0 - J0 + 1; nd x 1 + 2 * q1 - J1 + 1; n] (fun r => rsconv2_3 r x n w J0 J1) m))
  else if ndims x =? 4 then assrt (k =? J0 * J1 * nd x 2)
    (some (rconv_result b [nd x 0 + 2 * q0 - J0 + 1; nd x 1 + 2 * q1 - J1 + 1; n; nd x 3] (fun r => rsconv2_4 r x n w J0 J1) m))
  else if ndims x =? 5 then assrt (k =? J0 * J1 * nd x 3)
    (some (rconv_result b [nd x 0; nd x 1 + 2 * q0 - J0 + 1; nd x 2 + 2 * q1 - J1 + 1; n; nd x 4] (fun r => rsconv2_5 r x n w J0 J1) m))
  else if ndims x =? 6 then assrt (k =? J0 * J1 * nd x 4)
    (some (rconv_result b [nd x 0; nd x 1 + 2 * q0 - J0 + 1; nd x 2 + 2 * q1 - J1 + 1; nd x 3; n; nd x 5] (fun r => rsconv2_6 r x n w J0 J1) m))
  else Ok (None, m).
Definition rsconvolve3D (b : Z) (x : view) (n k : Z) (w : calls) (J0 J1 J2 q0 q1 q2 : Z) (m : memR) : res (option view * memR) :=
  let some r := do p <- r; Ok (Some (fst p), snd p) in
  if ndims x =? 4 then assrt (k =? J0 * J1 * J2 * nd x 3)
    (some (rconv_result b [nd x 0 + 2 * q0 - J0 + 1; nd x 1 + 2 * q1 - J1 + 1; nd x 2 + 2 * q2 - J2 + 1; n] (fun r => rsconv3_4 r x n w J0 J1 J2) m))
  else if ndims x =? 5 then assrt (k =? J0 * J1 * J2 * nd x 3)
    (some (rconv_result b [nd x 0 + 2 * q0 - J0 + 1; nd x 1 + 2 * q1 - J1 + 1; nd x 2 + 2 * q2 - J2 + 1; n; nd x 4] (fun r => rsconv3_5 r x n w J0 J1 J2) m))
  else if ndims x =? 6 then assrt (k =? J0 * J1 * J2 * nd x 4)
    (some (rconv_result b [nd x 0; nd x 1 + 2 * q0 - J0 + 1; nd x 2 + 2 * q1 - J1 + 1; nd x 3 + 2 * q2 - J2 + 1; n; nd x 5] (fun r => rsconv3_6 r x n w J0 J1 J2) m))
  else Ok (None, m).
End Conv.
