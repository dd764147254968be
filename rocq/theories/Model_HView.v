(* Model_HView.v -- the fixed-rank views of more than three axes: Rtensor4_view .. Rtensor7_view, and the other
   views that Ctensor4_view .. Ctensor6_view give of their memory.  As in Model_RView a view is a list of
   sides n0,n1,.. and a list of strides s0,s1,..; a complex view has a last axis of side 2 whose stride is
   arrc-arr.  The classes spell out each member for each rank and axis; here the axis d is a parameter.
   CNINE_CHECK_RANGE is compiled out by default and absent; a failing assert or CNINE_ASSRT is Throw. *)
From Verif Require Import Base Model_Index Model_View Model_Tensor Model_Ops Model_RView Model_Gtensor.
Local Open Scope Z_scope.

(* a list without its entry d; the lists (n1,n2,..), (n0,n2,..) .. in the members cited below *)
Definition but {A} (d : nat) (l : list A) : list A := firstn d l ++ skipn (S d) l.

(* RtensorK_view(arr,dims,strides) -- tensor_views/Rtensor4_view.hpp:47-58, tensor_views/Rtensor5_view.hpp:48-61,
   tensor_views/Rtensor6_view.hpp:48-63, tensor_views/Rtensor7_view.hpp:48-65: the size is compared with
   [want], which is K except in Rtensor7_view where it is 6, then K entries are read *)
Definition hv_make (K want : Z) (b o : Z) (dims strides : list Z) : res view :=
  assrt (Z.of_nat (length dims) =? want)
    (do n <- foldM (fun i l => do x <- zget dims i; Ok (l ++ [x])) (zrange K) [];
     do s <- foldM (fun i l => do x <- zget strides i; Ok (l ++ [x])) (zrange K) [];
     Ok (View b o n s)).
Definition rv4_make := hv_make 4 4.
Definition rv5_make := hv_make 5 5.
Definition rv6_make := hv_make 6 6.
Definition rv7_make := hv_make 7 6.

(* slice0(i), slice1(i), .. -- tensor_views/Rtensor4_view.hpp:188-210, tensor_views/Rtensor5_view.hpp:205-233,
   tensor_views/Rtensor6_view.hpp:224-258, tensor_views/Rtensor7_view.hpp:224-264,
   tensor_views/Ctensor4_view.hpp:172-186, tensor_views/Ctensor5_view.hpp:169-187, tensor_views/Ctensor6_view.hpp:170-188 *)
Definition hv_slice (d : nat) (v : view) (i : Z) : view :=
  View (vblk v) (voff v + i * sd v d) (but d (vdims v)) (but d (vstr v)).
(* Ctensor6_view::slice5(i) -- tensor_views/Ctensor6_view.hpp:190-192 (the range above is for the others): the pointer to the imaginary
   parts advances by i*s4 while the one to the real parts advances by i*s5 *)
Definition cv6_slice5 (v : view) (i : Z) : view :=
  View (vblk v) (voff v + i * sd v 5) (but 5 (vdims v)) (firstn 5 (vstr v) ++ [sd v 6 + i * sd v 4 - i * sd v 5]).
(* slice01(i,j), slice02(i,j), .. with d<e -- tensor_views/Rtensor4_view.hpp:225-271, tensor_views/Rtensor5_view.hpp:252-330 *)
Definition hv_slice2 (d e : nat) (v : view) (i j : Z) : view :=
  View (vblk v) (voff v + i * sd v d + j * sd v e) (but d (but e (vdims v))) (but d (but e (vstr v))).
(* fuse01, fuse12, .. -- tensor_views/Rtensor4_view.hpp:212-222, tensor_views/Rtensor5_view.hpp:235-249,
   tensor_views/Rtensor6_view.hpp:260-278, tensor_views/Rtensor7_view.hpp:266-288,
   tensor_views/Ctensor4_view.hpp:188-198, tensor_views/Ctensor5_view.hpp:190-204, tensor_views/Ctensor6_view.hpp:195-213:
   no test that the axes follow each other in memory *)
Definition hv_fuse (d : nat) (v : view) : view :=
  View (vblk v) (voff v) (firstn d (vdims v) ++ nd v d * nd v (S d) :: skipn (S (S d)) (vdims v)) (but d (vstr v)).
(* block(i0,..,m0,..) -- tensor_views/Rtensor4_view.hpp:91-93, tensor_views/Rtensor5_view.hpp:94-96,
   tensor_views/Rtensor6_view.hpp:96-99, tensor_views/Rtensor7_view.hpp:94-97 *)
Definition hv_block (v : view) (i m : list Z) : view :=
  View (vblk v) (fold_left (fun o p => o + fst p * snd p) (combine i (vstr v)) (voff v)) m (vstr v).
(* as_real -- tensor_views/Ctensor4_view.hpp:80-83, tensor_views/Ctensor5_view.hpp:72-75, tensor_views/Ctensor6_view.hpp:74-77:
   the same memory with the real and imaginary parts as a last axis, which is how a complex view is written here *)
Definition cv_as_real (v : view) : res view := assrt (last (vstr v) 0 =? 1) (Ok v).

(* the loops for(i0..) for(i1..) .. *)
Fixpoint nestL {S} (n : list Z) (body : list Z -> S -> res S) (st : S) : res S :=
  match n with
  | [] => body [] st
  | n0 :: n' => forZ n0 (fun i => nestL n' (fun ix => body (i :: ix))) st
  end.

Section Ring.
Context {R : cring}.
Notation memR := (mem (car R)).

(* add(y) -- tensor_views/Rtensor4_view.hpp:99-109, tensor_views/Rtensor5_view.hpp:102-114,
   tensor_views/Rtensor6_view.hpp:105-119, tensor_views/Rtensor7_view.hpp:103-119 *)
Definition hv_add (r y : view) (m : memR) : res memR :=
  assrt (eqlb (vdims y) (vdims r)) (nestL (vdims r) (zip_each f_add1 r y) m).
(* r.add(y) for the rank of r, which is at least 3 *)
Definition add_any (r y : view) (m : memR) : res memR :=
  if (length (vdims r) =? 3)%nat then rv3_add r y m else hv_add r y m.

(* reduce0_destructively .. reduce3_destructively at rank 3+k -- tensor_views/Rtensor4_view.hpp:136-150,
   tensor_views/Rtensor5_view.hpp:141-155, tensor_views/Rtensor6_view.hpp:146-160, tensor_views/Rtensor7_view.hpp:146-160.
   There is no other axis than 0,1,2,3 (0,1,2 at rank 3); the model throws for those *)
Fixpoint hv_reduce (k : nat) (a : nat) (v : view) (m : memR) : res memR :=
  match k with
  | O => match a with
         | O => rv3_reduce0 v m
         | 1%nat => rv3_reduce1 v m
         | 2%nat => rv3_reduce2 v m
         | _ => Throw
         end
  | S k' => match a with
            | O => hv_reduce k' 0 (hv_fuse 1 v) m
            | 1%nat => hv_reduce k' 1 (hv_fuse 2 v) m
            | 2%nat => hv_reduce k' 1 (hv_fuse 0 v) m
            | 3%nat => hv_reduce k' 2 (hv_fuse 0 v) m
            | _ => Throw
            end
  end.
(* reduce0_destructively_into(r) .. -- tensor_views/Rtensor4_view.hpp:115-133, tensor_views/Rtensor5_view.hpp:120-138,
   tensor_views/Rtensor6_view.hpp:125-143, tensor_views/Rtensor7_view.hpp:125-143 *)
Definition hv_reduce_into (k a : nat) (v r : view) (m : memR) : res memR :=
  do m1 <- hv_reduce k a v m; add_any r (hv_slice a v 0) m1.

(* broadcast0(x), broadcast1(x), .. at rank 3+k; x has one axis less -- tensor_views/Rtensor4_view.hpp:156-182,
   tensor_views/Rtensor5_view.hpp:161-199, tensor_views/Rtensor6_view.hpp:166-218 (those of Rtensor7_view are commented out).
   At rank 3 the second axis of x is fused by rv3_broadcast0 itself.  x of three axes is fused by the
   Rtensor3_view members, which test that x is regular *)
Definition fuse_src (d : nat) (x : view) : res view :=
  if (length (vdims x) =? 3)%nat then match d with O => rv3_fuse01 x | _ => rv3_fuse12 x end else Ok (hv_fuse d x).
Fixpoint hv_broadcast (k : nat) (a : nat) (v x : view) (m : memR) : res memR :=
  match k with
  | O => match a with
         | O => rv3_broadcast0 v x m
         | 1%nat => rv3_broadcast1 v x m
         | 2%nat => rv3_broadcast2 v x m
         | _ => Throw
         end
  | S k' =>
      assrt (eqlb (vdims x) (but a (vdims v)))
        (match a with
         | O => do y <- fuse_src (S k') x; hv_broadcast k' 0 (hv_fuse (S (S k')) v) y m
         | 1%nat => do y <- fuse_src (S k') x; hv_broadcast k' 1 (hv_fuse (S (S k')) v) y m
         | S (S a') => do y <- fuse_src 0 x; hv_broadcast k' (S a') (hv_fuse 0 v) y m
         end)
  end.

(* gtensor() -- tensor_views/Rtensor4_view.hpp:278-286, tensor_views/Rtensor5_view.hpp:336-345,
   tensor_views/Rtensor6_view.hpp:366-376, tensor_views/Rtensor7_view.hpp:376-387: a new tensor of sides [td], which are those of the
   view except in Rtensor7_view where only six are given, filled element by element *)
Definition hv_gtensor_as (junk : R) (td : list Z) (v : view) (m : memR) (h : heap (car R)) : res (gtensor * heap (car R)) :=
  do ' (t, h1) <- gnew junk td h;
  do h2 <- nestL (vdims v) (fun ix h => do x <- get_at v ix m; gset_n t ix x h) h1;
  Ok (t, h2).
Definition hv_gtensor (junk : R) (v : view) := hv_gtensor_as junk (vdims v) v.
Definition rv7_gtensor (junk : R) (v : view) := hv_gtensor_as junk (firstn 6 (vdims v)) v.
End Ring.
