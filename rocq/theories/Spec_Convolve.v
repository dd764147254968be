(* Spec_Convolve.v -- what convolution and its gradients are, without reference to the code. *)
From Verif Require Import Base Model_View Spec_Index Spec_View Spec_Tensor.
Local Open Scope Z_scope.

Section S.
Context {R : cring}.
(* f on 0..n-1, zero elsewhere *)
Definition zpad (n : Z) (f : Z -> R) (i : Z) : R := if (0 <=? i) && (i <? n) then f i else c0.
Definition sum_to (n : Z) (f : Z -> R) : R := rsum (map f (zrange n)).
(* correlation of x (length X) with the filter w (length W), [pad] zeros before x *)
Definition corr (X W pad : Z) (x w : Z -> R) (i : Z) : R := sum_to W (fun j => cmul (zpad X x (i + j - pad)) (w j)).
(* its derivative in x(i), given the gradient g of the result (length N) *)
Definition corr_dx (N W pad : Z) (g w : Z -> R) (i : Z) : R := sum_to N (fun p => cmul (g p) (zpad W w (i - p + pad))).
(* its derivative in w(j) *)
Definition corr_dw (N X pad : Z) (g x : Z -> R) (j : Z) : R := sum_to N (fun p => cmul (g p) (zpad X x (p + j - pad))).
End S.
(* the padding that centres the filter: half of what is missing, rounded towards zero *)
Definition centred (N X W : Z) : Z := Z.quot (N - X + W - 1) 2.
(* length and padding of the result of a convolution asked for with [pad] zeros on both sides; -1 asks for a result as long as the input *)
Definition out_len (X W pad : Z) : Z := if pad =? -1 then X else X + 2 * pad - W + 1.
Definition out_pad (W pad : Z) : Z := if pad =? -1 then Z.quot (W - 1) 2 else pad.
(* the result may be written without disturbing the operands *)
Definition separate {V} (m : mem V) (r x w : view) : Prop :=
  readable m r /\ readable m x /\ readable m w /\ disjoint_views r x /\ disjoint_views r w.
