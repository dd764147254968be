(* Spec_Einsum2.v -- what einsum strings mean. *)
From Verif Require Import Base BaseFacts Model_Index Model_View Model_Tensor Spec_Index Spec_View Spec_Tensor Spec_Einsum.
Local Open Scope Z_scope.

(* ---- classes of letters.  One operand: letters of both, letters of a only *)
Definition shared (xs rs : list ascii) : list ascii := filter (isin xs) (letters rs).
Definition private (a b : list ascii) : list ascii := filter (notin b) (letters a).
(* two operands *)
Definition is_conv3 (xs ys rs : list ascii) (c : ascii) : bool := isin rs c && (isin xs c && isin ys c && convolved c).
Definition l_conv (xs ys rs : list ascii) : list ascii := filter (fun c => isin xs c && isin ys c && convolved c) (letters rs).
Definition l_all (xs ys rs : list ascii) : list ascii := filter (fun c => isin xs c && isin ys c && negb (convolved c)) (letters rs).
Definition l_xr (xs ys rs : list ascii) : list ascii := filter (fun c => isin xs c && notin ys c) (letters rs).
Definition l_yr (xs ys rs : list ascii) : list ascii := filter (fun c => notin xs c && isin ys c) (letters rs).
Definition l_r (xs ys rs : list ascii) : list ascii := filter (fun c => notin xs c && notin ys c) (letters rs).
Definition l_xy (xs ys rs : list ascii) : list ascii := filter (isin ys) (filter (notin rs) (letters xs)).
Definition l_x (xs ys rs : list ascii) : list ascii := filter (notin ys) (filter (notin rs) (letters xs)).
Definition l_y (xs ys rs : list ascii) : list ascii := filter (fun c => notin rs c && notin xs c) (letters ys).
(* 'S' is not a letter of both strings *)
Definition no_gather (xs rs : list ascii) : Prop := ~ (In "S"%char xs /\ In "S"%char rs).
(* 'S' is not a letter of the result and just one operand, '*' not one of all three *)
Definition ordinary (xs ys rs : list ascii) : Prop := (In "S"%char rs -> In "S"%char xs <-> In "S"%char ys) /\ ~ (In "*"%char xs /\ In "*"%char ys /\ In "*"%char rs).
(* the sides of equal letters are equal, except for convolved letters *)
Definition sides_agree (xs ys rs : list ascii) (Dx Dy Dr : ascii -> Z) : Prop := forall c, is_conv3 xs ys rs c = false ->
  (isin xs c = true -> isin ys c = true -> Dx c = Dy c) /\ (isin xs c = true -> isin rs c = true -> Dx c = Dr c) /\ (isin ys c = true -> isin rs c = true -> Dy c = Dr c).
(* the numbers of letters of each class the code checks *)
Definition few1 (xs rs : list ascii) : Prop := (length (shared xs rs) <= 4)%nat /\ (length (private rs xs) <= 3)%nat /\ (length (private xs rs) <= 3)%nat.
Definition few (xs ys rs : list ascii) : Prop :=
  (length (l_x xs ys rs) <= 3)%nat /\ (length (l_y xs ys rs) <= 3)%nat /\ (length (l_r xs ys rs) <= 3)%nat /\
  (length (l_all xs ys rs) + length (l_xr xs ys rs) + length (l_yr xs ys rs) + length (l_conv xs ys rs) <= 4)%nat /\
  (length (l_xy xs ys rs) + length (l_conv xs ys rs) <= 3)%nat.
(* the fourth letter of T, if there is one, has the same stride under f and g *)
Definition same_fourth (T : list ascii) (f g : ascii -> Z) : Prop := forall c, nth_error T 3 = Some c -> f c = g c.

Section Meaning.
Context {R : cring}.
Notation memR := (mem (car R)).
(* the sum of the elements of x at the letter values e, over all values of the letters in S *)
Definition summed (m : memR) (x : view) (xs S : list ascii) (D e : ascii -> Z) : R :=
  rsum (map (fun s => elem0 m x (map (over e S s) xs)) (all_indices (map D S))).
(* xs->rs at the letter values e *)
Definition einsum1 (m : memR) (x : view) (xs rs : list ascii) (D e : ascii -> Z) : R := summed m x xs (private xs rs) D e.
(* xs,ys->rs at the letter values e of r; k runs over the contracted letters and the offsets of the convolved ones *)
Definition einsum2 (m : memR) (x y : view) (xs ys rs : list ascii) (Dx Dy e : ascii -> Z) : R :=
  let C := l_xy xs ys rs ++ l_conv xs ys rs in
  rsum (map (fun k => let g := over (fun _ => 0) C k in
    cmul (summed m x xs (l_x xs ys rs) Dx (fun c => if is_conv3 xs ys rs c then e c + g c else if isin rs c then e c else g c))
         (summed m y ys (l_y xs ys rs) Dy (fun c => if is_conv3 xs ys rs c then g c else if isin rs c then e c else g c))) (all_indices (map Dy C))).
(* the gradient in y at the letter values e of y; k runs over letters shared by x and r only and the positions of the convolved ones *)
Definition einsum2_dy (m : memR) (r x : view) (xs ys rs : list ascii) (Dx Dr e : ascii -> Z) : R :=
  let C := l_xr xs ys rs ++ l_conv xs ys rs in
  rsum (map (fun k => let g := over (fun _ => 0) C k in
    cmul (summed m r rs (l_r xs ys rs) Dr (fun c => if is_conv3 xs ys rs c then g c else if isin ys c then e c else g c))
         (summed m x xs (l_x xs ys rs) Dx (fun c => if is_conv3 xs ys rs c then e c + g c else if isin ys c then e c else g c))) (all_indices (map Dr C))).
(* the gradient in x: only offsets g of convolved letters with a position e-g in r count *)
Definition einsum2_dx (m : memR) (r y : view) (xs ys rs : list ascii) (Dy Dr e : ascii -> Z) : R :=
  let C := l_conv xs ys rs ++ l_yr xs ys rs in
  rsum (map (fun k => let g := over (fun _ => 0) C k in
    cmul (summed m r rs (l_r xs ys rs) Dr (fun c => if is_conv3 xs ys rs c then e c - g c else if isin xs c then e c else g c))
         (summed m y ys (l_y xs ys rs) Dy (fun c => if is_conv3 xs ys rs c then g c else if isin xs c then e c else g c)))
    (filter (fun k => forallb (fun c => (0 <=? e c - over (fun _ => 0) C k c) && (e c - over (fun _ => 0) C k c <? Dr c)) (l_conv xs ys rs)) (all_indices (map Dy C)))).
(* m' is m with val e added to the element of r at every letter assignment e; the elements of r with different indices at equal letters,
   and all memory outside r, are unchanged *)
Definition adds (m m' : memR) (r : view) (rs : list ascii) (D : ascii -> Z) (val : (ascii -> Z) -> R) : Prop :=
  (forall e, fits D e rs -> elem m' r (map e rs) = Some (cadd (elem0 m r (map e rs)) (val e))) /\
  (forall ix, in_range ix (vdims r) -> ~ coherent rs ix -> elem m' r ix = elem m r ix) /\
  untouched m m' r.
(* r is a new contiguous tensor in block b with element val e at every assignment e and zero elsewhere; other blocks are unchanged *)
Definition returns (m m' : memR) (b : Z) (r : view) (rs : list ascii) (D : ascii -> Z) (val : (ascii -> Z) -> R) : Prop :=
  r = fresh_view b (map D rs) /\
  (forall e, fits D e rs -> elem m' r (map e rs) = Some (val e)) /\
  (forall ix, in_range ix (map D rs) -> ~ coherent rs ix -> elem m' r ix = Some c0) /\
  (forall b' a, b' <> b -> m' b' a = m b' a).
(* v is laid out by the letters s with sides D *)
Definition lettered (v : view) (s : list ascii) (D : ascii -> Z) : Prop := vdims v = map D s /\ length (vstr v) = length s.
End Meaning.
