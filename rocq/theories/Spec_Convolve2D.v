(* Spec_Convolve2D.v -- what two-dimensional convolution and its gradients are, without reference to the code. *)
From Verif Require Import Base Model_View Spec_Index Spec_View Spec_Tensor Spec_Convolve.
Local Open Scope Z_scope.

Section S.
Context {R : cring}.
(* f on the n0 by n1 grid, zero elsewhere *)
Definition zpad2 (n0 n1 : Z) (f : Z -> Z -> R) (i0 i1 : Z) : R := zpad n0 (fun k0 => zpad n1 (f k0) i1) i0.
Definition sum_grid (n0 n1 : Z) (f : Z -> Z -> R) : R := sum_to n0 (fun i0 => sum_to n1 (f i0)).
(* correlation of x (X0 by X1) with the filter w (W0 by W1), p0 and p1 zeros before x *)
Definition corr2 (X0 X1 W0 W1 p0 p1 : Z) (x w : Z -> Z -> R) (i0 i1 : Z) : R :=
  sum_grid W0 W1 (fun j0 j1 => cmul (zpad2 X0 X1 x (i0 + j0 - p0) (i1 + j1 - p1)) (w j0 j1)).
(* its derivative in x(i0,i1), given the gradient g of the result (N0 by N1) *)
Definition corr2_dx (N0 N1 W0 W1 p0 p1 : Z) (g w : Z -> Z -> R) (i0 i1 : Z) : R :=
  sum_grid N0 N1 (fun k0 k1 => cmul (g k0 k1) (zpad2 W0 W1 w (i0 - k0 + p0) (i1 - k1 + p1))).
(* its derivative in w(j0,j1) *)
Definition corr2_dw (N0 N1 X0 X1 p0 p1 : Z) (g x : Z -> Z -> R) (j0 j1 : Z) : R :=
  sum_grid N0 N1 (fun k0 k1 => cmul (g k0 k1) (zpad2 X0 X1 x (k0 + j0 - p0) (k1 + j1 - p1))).
End S.
