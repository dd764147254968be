(* Spec_RConv.v -- two- and three-dimensional correlation with a bank of filters, without reference to the code. *)
From Verif Require Import Base Model_View Spec_Index Spec_View Spec_Tensor Spec_Convolve Spec_Convolve2D.
Local Open Scope Z_scope.

Section S.
Context {R : cring}.
(* sum over the J0 by J1 positions of the filter w of the products, over A channels, with x (X0 by X1) shifted by (p0,p1);
   outside its range x counts as zero *)
Definition bank2 (X0 X1 J0 J1 A p0 p1 : Z) (x w : Z -> Z -> Z -> R) (i0 i1 : Z) : R :=
  sum_grid J0 J1 (fun j0 j1 => zpad2 X0 X1 (fun q0 q1 => sum_to A (fun a => cmul (w j0 j1 a) (x q0 q1 a))) (i0 + j0 - p0) (i1 + j1 - p1)).
(* the same in three dimensions *)
Definition zpad3 (n0 n1 n2 : Z) (f : Z -> Z -> Z -> R) (i0 i1 i2 : Z) : R := zpad n0 (fun k0 => zpad2 n1 n2 (f k0) i1 i2) i0.
Definition sum_box (n0 n1 n2 : Z) (f : Z -> Z -> Z -> R) : R := sum_to n0 (fun i0 => sum_grid n1 n2 (f i0)).
Definition bank3 (X0 X1 X2 J0 J1 J2 A p0 p1 p2 : Z) (x w : Z -> Z -> Z -> Z -> R) (i0 i1 i2 : Z) : R :=
  sum_box J0 J1 J2 (fun j0 j1 j2 => zpad3 X0 X1 X2 (fun q0 q1 q2 => sum_to A (fun a => cmul (w j0 j1 j2 a) (x q0 q1 q2 a))) (i0 + j0 - p0) (i1 + j1 - p1) (i2 + j2 - p2)).
(* its derivative in x(i0,i1,i2,a), given the gradient g of the result (N0 by N1 by N2, with O channels); w o is the filter of channel o *)
Definition bank3_dx (N0 N1 N2 J0 J1 J2 O p0 p1 p2 : Z) (g : Z -> Z -> Z -> Z -> R) (w : Z -> Z -> Z -> Z -> R) (i0 i1 i2 : Z) : R :=
  sum_box N0 N1 N2 (fun k0 k1 k2 => sum_to O (fun o => cmul (g k0 k1 k2 o) (zpad3 J0 J1 J2 (w o) (i0 - k0 + p0) (i1 - k1 + p1) (i2 - k2 + p2)))).
End S.

(* the calls made for the stored elements of a sparse matrix, (row, column, value): all inside an n by k matrix; the matrix itself *)
Definition inside {V} (n k : Z) (w : list (Z * Z * V)) : Prop := forall o s v, In (o, s, v) w -> 0 <= o < n /\ 0 <= s < k.
Definition matrix_of {R : cring} (w : list (Z * Z * R)) (o s : Z) : R :=
  rsum (map (fun e => if (fst (fst e) =? o) && (snd (fst e) =? s) then snd e else c0) w).

(* a matrix stored row by row / column by column without gaps *)
Definition by_rows (n1 s0 s1 : Z) : Prop := s0 = n1 /\ s1 = 1.
Definition by_cols (n0 s0 s1 : Z) : Prop := s0 = 1 /\ s1 = n0.
(* layouts for which a matrix product r += a*b is carried out, a being O by K and b K by C: strides r0,r1 of r, a0,a1 of a, b0,b1 of b *)
Definition multiplies (O K C r0 r1 a0 a1 b0 b1 : Z) : Prop :=
  by_rows C r0 r1 /\ (by_rows K a0 a1 /\ by_rows C b0 b1 \/ by_rows K a0 a1 /\ by_cols K b0 b1 \/ by_cols O a0 a1 /\ by_rows C b0 b1).
(* J pieces of A elements with step s2, s1 apart, make up one run of J*A elements with step s2 *)
Definition run_on (s1 s2 A J : Z) : Prop := J <= 1 \/ s1 = A * s2.
