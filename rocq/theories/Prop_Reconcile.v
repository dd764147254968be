(* Prop_Reconcile.v -- C198: products of real matrices and vectors that are on different devices (0 the host, 1 a graphics card).  The threads of a launch run in any order. *)
From Verif Require Import Base BaseFacts Model_Index Model_View Model_Tensor Model_Cuda Model_DevAssign Model_Ops Model_RView Model_CuBlas Model_Reconcile Spec_Index Spec_View Spec_Tensor Spec_Cuda
  Proofs_Index Proofs_View Proofs_Tensor Proofs_Tensor2 Proofs_Tensor3 Proofs_Cuda Proofs_DevAssign Spec_RView Proofs_CuBlas Proofs_Reconcile Prop_Tensor Prop_CuBlas Prop_CuRtensor.
Local Open Scope Z_scope.

Lemma sums {R : cring} (m m1 : mem (car R)) x x' y y' (i j : Z -> list Z) n : (forall jx, in_range jx (vdims x) -> elem m1 x' jx = elem m x jx) -> (forall jx, in_range jx (vdims y) -> elem m1 y' jx = elem m y jx) ->
  (forall k, 0 <= k < n -> in_range (i k) (vdims x) /\ in_range (j k) (vdims y)) ->
  rsum (map (fun k => cmul (elem0 m1 x' (i k)) (elem0 m1 y' (j k))) (zrange n)) = rsum (map (fun k => cmul (elem0 m x (i k)) (elem0 m y (j k))) (zrange n)).
Proof. intros A B H. f_equal. apply map_ext_in. intros k K. apply in_zrange in K. destruct (H k K) as [I J]. unfold elem0. now rewrite A, B. Qed.

(* r.add_mprod(x,y), r on the host, x and y anywhere.  An operand on another device than r must be stored row by row *)
Theorem C198_mprod_host_partial {R : cring} (junk : R) ord f nx ny xd yd r x y (m : mem (car R)) a n b : operands r [x; y] m -> vdims r = [a; b] -> vdims x = [a; n] -> vdims y = [n; b] ->
  movable 0 xd x -> movable 0 yd y -> (forall c, m nx c = None) -> (forall c, m ny c = None) -> nx <> ny ->
  exists m', rec_mprod junk ord (S f) nx ny 0 xd yd r x y m = Ok m' /\
    gains_with nx ny r (fun ix => rsum (map (fun k => cmul (elem0 m x [nth 0 ix 0; k]) (elem0 m y [k; nth 1 ix 0])) (zrange n))) m m'.
Proof.
  intros O Dr Dx Dy Mx My Nx Ny Ne. unfold rec_mprod.
  refine (reconcile_ok junk ord f nx ny 0 xd yd _ (fun m x y ix => rsum (map (fun k => cmul (elem0 m x [nth 0 ix 0; k]) (elem0 m y [k; nth 1 ix 0])) (zrange n))) r x y m O Mx My Nx Ny Ne _ _).
  - intros x' y' m1 (Wr & D & Rr_ & F) Ex _ Ey _. inversion F as [|? ? (Wx & Rx & Jx) F2]; subst. inversion F2 as [|? ? (Wy & Ry & Jy) _]; subst. cbn [Z.eqb].
    destruct (C17_matrix_product R r x' y' a n b m1) as (m' & E & A & U); try assumption; try congruence. exists m'. split; [exact E|]. split; [|exact U]. intros ix v I V. rewrite Dr in I. rng. now apply A.
  - intros x' y' m1 ix I A B. rewrite Dr in I. rng. cbn [nth]. apply (sums m m1 x x' y y' (fun k => [_; k]) (fun k => [k; _]) n A B). intros k K. rewrite Dx, Dy. split; inr.
Qed.
Print Assumptions C198_mprod_host_partial.
(* r.add_mprod_AH(x,y) *)
Theorem C198_mprod_AH_host_partial {R : cring} (junk : R) ord f nx ny xd yd r x y (m : mem (car R)) a n b : operands r [x; y] m -> vdims r = [a; b] -> vdims x = [a; n] -> vdims y = [b; n] ->
  movable 0 xd x -> movable 0 yd y -> (forall c, m nx c = None) -> (forall c, m ny c = None) -> nx <> ny ->
  exists m', rec_mprod_AH junk ord (S f) nx ny 0 xd yd r x y m = Ok m' /\
    gains_with nx ny r (fun ix => rsum (map (fun k => cmul (elem0 m x [nth 0 ix 0; k]) (elem0 m y [nth 1 ix 0; k])) (zrange n))) m m'.
Proof.
  intros O Dr Dx Dy Mx My Nx Ny Ne. unfold rec_mprod_AH.
  refine (reconcile_ok junk ord f nx ny 0 xd yd _ (fun m x y ix => rsum (map (fun k => cmul (elem0 m x [nth 0 ix 0; k]) (elem0 m y [nth 1 ix 0; k])) (zrange n))) r x y m O Mx My Nx Ny Ne _ _).
  - intros x' y' m1 (Wr & D & Rr_ & F) Ex _ Ey _. inversion F as [|? ? (Wx & Rx & Jx) F2]; subst. inversion F2 as [|? ? (Wy & Ry & Jy) _]; subst. cbn [Z.eqb].
    destruct (C17_matrix_product_AT R r x' y' a n b m1) as (m' & E & A & U); try assumption; try congruence. exists m'. split; [exact E|]. split; [|exact U]. intros ix v I V. rewrite Dr in I. rng. now apply A.
  - intros x' y' m1 ix I A B. rewrite Dr in I. rng. cbn [nth]. apply (sums m m1 x x' y y' (fun k => [_; k]) (fun k => [_; k]) n A B). intros k K. rewrite Dx, Dy. split; inr.
Qed.
Print Assumptions C198_mprod_AH_host_partial.
(* r.add_mvprod(x,y) *)
Theorem C198_mvprod_host_partial {R : cring} (junk : R) ord f nx ny xd yd r x y (m : mem (car R)) a n : operands r [x; y] m -> vdims r = [a] -> vdims x = [a; n] -> vdims y = [n] ->
  movable 0 xd x -> movable 0 yd y -> (forall c, m nx c = None) -> (forall c, m ny c = None) -> nx <> ny ->
  exists m', rec_mvprod junk ord (S f) nx ny 0 xd yd r x y m = Ok m' /\
    gains_with nx ny r (fun ix => rsum (map (fun k => cmul (elem0 m x [nth 0 ix 0; k]) (elem0 m y [k])) (zrange n))) m m'.
Proof.
  intros O Dr Dx Dy Mx My Nx Ny Ne. unfold rec_mvprod.
  refine (reconcile_ok junk ord f nx ny 0 xd yd _ (fun m x y ix => rsum (map (fun k => cmul (elem0 m x [nth 0 ix 0; k]) (elem0 m y [k])) (zrange n))) r x y m O Mx My Nx Ny Ne _ _).
  - intros x' y' m1 (Wr & D & Rr_ & F) Ex _ Ey _. inversion F as [|? ? (Wx & Rx & Jx) F2]; subst. inversion F2 as [|? ? (Wy & Ry & Jy) _]; subst. cbn [Z.eqb].
    destruct (C17_matrix_vector R r x' y' a n m1) as (m' & E & A & U); try assumption; try congruence. exists m'. split; [exact E|]. split; [|exact U]. intros ix v I V. rewrite Dr in I. rng. now apply A.
  - intros x' y' m1 ix I A B. rewrite Dr in I. rng. cbn [nth]. apply (sums m m1 x x' y y' (fun k => [_; k]) (fun k => [k]) n A B). intros k K. rewrite Dx, Dy. split; inr.
Qed.
Print Assumptions C198_mvprod_host_partial.
(* r.add_mprod(x,y) and r.add_mprod_AH(x,y), r on the card: the rows of all three matrices are stored without gaps between their elements *)
Theorem C198_mprod_device_partial {R : cring} (junk : R) ord f nx ny xd yd r x y (m : mem (car R)) a n b rs xs ys : (forall l, Permutation (ord l) l) -> operands r [x; y] m ->
  vdims r = [a; b] -> vdims x = [a; n] -> vdims y = [n; b] -> vstr r = [rs; 1] -> vstr x = [xs; 1] -> vstr y = [ys; 1] -> Z.max 1 b <= rs -> Z.max 1 n <= xs -> Z.max 1 b <= ys ->
  movable 1 xd x -> movable 1 yd y -> (forall c, m nx c = None) -> (forall c, m ny c = None) -> nx <> ny ->
  exists m', rec_mprod junk ord (S f) nx ny 1 xd yd r x y m = Ok m' /\
    gains_with nx ny r (fun ix => rsum (map (fun k => cmul (elem0 m x [nth 0 ix 0; k]) (elem0 m y [k; nth 1 ix 0])) (zrange n))) m m'.
Proof.
  intros Ho O Dr Dx Dy Sr Sx Sy Lr Lx Ly Mx My Nx Ny Ne. unfold rec_mprod.
  refine (reconcile_ok junk ord f nx ny 1 xd yd _ (fun m x y ix => rsum (map (fun k => cmul (elem0 m x [nth 0 ix 0; k]) (elem0 m y [k; nth 1 ix 0])) (zrange n))) r x y m O Mx My Nx Ny Ne _ _).
  - intros x' y' m1 O1 Ex Ex' Ey Ey'. rewrite Dx in Ex. rewrite Dy in Ey. rewrite Sx in Ex'. rewrite Sy in Ey'. cbn [Z.eqb]. unfold is_mat. rewrite Dr, Ex, Ey. cbn [length Nat.eqb andb assrt].
    destruct (C185_matmul_partial r x' y' m1 a n b rs xs ys O1 Dr Sr Ex' Ey' Lr) as (AA & _); [now rewrite Ex|now rewrite Ey|]. destruct (AA Ex Ey) as (plan & Ep & Hp). rewrite Ep. cbn [bind]. apply Hp. apply Ho.
  - intros x' y' m1 ix I A B. rewrite Dr in I. rng. cbn [nth]. apply (sums m m1 x x' y y' (fun k => [_; k]) (fun k => [k; _]) n A B). intros k K. rewrite Dx, Dy. split; inr.
Qed.
Print Assumptions C198_mprod_device_partial.
Theorem C198_mprod_AH_device_partial {R : cring} (junk : R) ord f nx ny xd yd r x y (m : mem (car R)) a n b rs xs ys : (forall l, Permutation (ord l) l) -> operands r [x; y] m ->
  vdims r = [a; b] -> vdims x = [a; n] -> vdims y = [b; n] -> vstr r = [rs; 1] -> vstr x = [xs; 1] -> vstr y = [ys; 1] -> Z.max 1 b <= rs -> Z.max 1 n <= xs -> Z.max 1 n <= ys ->
  movable 1 xd x -> movable 1 yd y -> (forall c, m nx c = None) -> (forall c, m ny c = None) -> nx <> ny ->
  exists m', rec_mprod_AH junk ord (S f) nx ny 1 xd yd r x y m = Ok m' /\
    gains_with nx ny r (fun ix => rsum (map (fun k => cmul (elem0 m x [nth 0 ix 0; k]) (elem0 m y [nth 1 ix 0; k])) (zrange n))) m m'.
Proof.
  intros Ho O Dr Dx Dy Sr Sx Sy Lr Lx Ly Mx My Nx Ny Ne. unfold rec_mprod_AH.
  refine (reconcile_ok junk ord f nx ny 1 xd yd _ (fun m x y ix => rsum (map (fun k => cmul (elem0 m x [nth 0 ix 0; k]) (elem0 m y [nth 1 ix 0; k])) (zrange n))) r x y m O Mx My Nx Ny Ne _ _).
  - intros x' y' m1 O1 Ex Ex' Ey Ey'. rewrite Dx in Ex. rewrite Dy in Ey. rewrite Sx in Ex'. rewrite Sy in Ey'. cbn [Z.eqb]. unfold is_mat. rewrite Dr, Ex, Ey. cbn [length Nat.eqb andb assrt].
    destruct (C185_matmul_partial r x' y' m1 a n b rs xs ys O1 Dr Sr Ex' Ey' Lr) as (_ & AT & _); [now rewrite Ex|now rewrite Ey|]. destruct (AT Ex Ey) as (plan & Ep & Hp). rewrite Ep. cbn [bind]. apply Hp. apply Ho.
  - intros x' y' m1 ix I A B. rewrite Dr in I. rng. cbn [nth]. apply (sums m m1 x x' y y' (fun k => [_; k]) (fun k => [_; k]) n A B). intros k K. rewrite Dx, Dy. split; inr.
Qed.
Print Assumptions C198_mprod_AH_device_partial.
(* Refuted for host matrices that are not stored row by row when r is on the card: the copy exhausts the stack *)
Theorem C198_to_device_refuted {R : cring} (junk : R) ord fuel nx ny yd r xb xo n k s t y (m : mem (car R)) : 1 <= n -> 1 < k < 2147483647 -> ~ (s = k /\ t = 1) ->
  rec_mprod junk ord fuel nx ny 1 0 yd r (View xb xo [n; k] [s; t]) y m = UB /\ rec_mprod_AH junk ord fuel nx ny 1 0 yd r (View xb xo [n; k] [s; t]) y m = UB.
Proof. intros Hn Hk H. unfold rec_mprod, rec_mprod_AH, reconcile, bring. change (0 =? 1) with false. cbv iota. now rewrite copy_forever. Qed.
Print Assumptions C198_to_device_refuted.
(* Refuted for r.add_mvprod(x,y), r on the card: nothing is computed *)
Theorem C198_mvprod_refuted {R : cring} (junk : R) ord fuel nx ny r x y (m : mem (car R)) a n : vdims r = [a] -> vdims x = [a; n] -> vdims y = [n] -> rec_mvprod junk ord fuel nx ny 1 1 1 r x y m = Ok m.
Proof. intros Dr Dx Dy. unfold rec_mvprod, reconcile, bring. change (1 =? 1) with true. change (1 =? 0) with false. cbn [bind]. rewrite Dr, Dx, Dy, !Z.eqb_refl. reflexivity. Qed.
Print Assumptions C198_mvprod_refuted.
(* sides that do not fit are rejected, wherever the operands are *)
Lemma reconcile_rejects {R : cring} (junk : R) ord f nx ny rd xd yd lambda r x y (m : mem (car R)) : operands r [x; y] m -> movable rd xd x -> movable rd yd y -> (forall e, m nx e = None) -> (forall e, m ny e = None) -> nx <> ny ->
  (forall x' y' m1, vdims x' = vdims x -> vdims y' = vdims y -> lambda r x' y' m1 = Throw) -> reconcile junk ord (S f) nx ny rd xd yd lambda r x y m = Throw.
Proof.
  intros (Wr & Dr & Rr_ & F) Mx My Nx Ny Ne H. inversion F as [|? ? (Wx & Rx & Jx) F2]; subst. inversion F2 as [|? ? (Wy & Ry & Jy) _]; subst.
  destruct (bring_ok junk ord f nx rd xd r x m Wr Rr_ Wx Rx Jx Mx Nx) as (x' & m1 & E1 & Dx & _ & _ & _ & _ & _ & U1).
  assert (N1 : forall e, m1 ny e = None) by (intro e; rewrite U1 by congruence; apply Ny).
  assert (Rr1 : readable m1 r) by (now apply (other_read r m m1 nx)). assert (Ry1 : readable m1 y) by (now apply (other_read y m m1 nx)).
  destruct (bring_ok junk ord f ny rd yd r y m1 Wr Rr1 Wy Ry1 Jy My N1) as (y' & m2 & E2 & Dy & _). unfold reconcile. rewrite E1. cbn [bind]. rewrite E2. cbn [bind]. now apply H.
Qed.
Theorem C198_rejects {R : cring} (junk : R) ord f nx ny rd xd yd r x y (m : mem (car R)) a b p q c d : operands r [x; y] m -> vdims r = [a; b] -> vdims x = [p; q] -> vdims y = [c; d] ->
  movable rd xd x -> movable rd yd y -> (forall e, m nx e = None) -> (forall e, m ny e = None) -> nx <> ny ->
  (p <> a \/ d <> b \/ q <> c -> rec_mprod junk ord (S f) nx ny rd xd yd r x y m = Throw) /\ (p <> a \/ c <> b \/ q <> d -> rec_mprod_AH junk ord (S f) nx ny rd xd yd r x y m = Throw).
Proof.
  intros O Er Ex Ey Mx My Nx Ny Ne. split; intro H; unfold rec_mprod, rec_mprod_AH; apply reconcile_rejects; try assumption; intros x' y' m1 Dx Dy; rewrite Ex in Dx; rewrite Ey in Dy; destruct (rd =? 0).
  - unfold tv_add_mprod. rewrite Er, Dx, Dy. replace ((p =? a) && (d =? b) && (q =? c)) with false by lia. reflexivity.
  - unfold is_mat, cu_matmul_AA, nd. rewrite Er, Dx, Dy. cbn [length Nat.eqb andb assrt nth]. destruct (Z.eqb_spec p a); [|reflexivity]. cbn [assrt]. destruct (Z.eqb_spec d b); [|reflexivity]. cbn [assrt]. destruct (Z.eqb_spec c q); [exfalso; lia|reflexivity].
  - unfold tv_add_mprod_AT. rewrite Er, Dx, Dy. replace ((p =? a) && (c =? b) && (q =? d)) with false by lia. reflexivity.
  - unfold is_mat, cu_matmul_AT, nd. rewrite Er, Dx, Dy. cbn [length Nat.eqb andb assrt nth]. destruct (Z.eqb_spec p a); [|reflexivity]. cbn [assrt]. destruct (Z.eqb_spec c b); [|reflexivity]. cbn [assrt]. destruct (Z.eqb_spec d q); [exfalso; lia|reflexivity].
Qed.
Print Assumptions C198_rejects.
Theorem C198_mvprod_rejects {R : cring} (junk : R) ord f nx ny rd xd yd r x y (m : mem (car R)) a p q c : operands r [x; y] m -> vdims r = [a] -> vdims x = [p; q] -> vdims y = [c] ->
  movable rd xd x -> movable rd yd y -> (forall e, m nx e = None) -> (forall e, m ny e = None) -> nx <> ny -> p <> a \/ q <> c -> rec_mvprod junk ord (S f) nx ny rd xd yd r x y m = Throw.
Proof.
  intros O Er Ex Ey Mx My Nx Ny Ne H. apply reconcile_rejects; try assumption; intros x' y' m1 Dx Dy; rewrite Ex in Dx; rewrite Ey in Dy; destruct (rd =? 0).
  - unfold tv_add_mvprod. rewrite Er, Dx, Dy. replace ((p =? a) && (q =? c)) with false by lia. reflexivity.
  - rewrite Er, Dx, Dy. replace ((p =? a) && (q =? c)) with false by lia. reflexivity.
Qed.
Print Assumptions C198_mvprod_rejects.

(* ---- the hypotheses can be met ---- *)
(* r in block 0, x in block 1, y in block 2, copies in blocks 4 and 5; x on the host, y on the card *)
Example C198_case_host : operands (View 0 0 [2; 2] [2; 1]) [View 1 0 [2; 3] [1; 2]; View 2 0 [3; 2] [2; 1]] cr_ramp /\ movable 0 0 (View 1 0 [2; 3] [1; 2]) /\ movable 0 1 (View 2 0 [3; 2] [2; 1]) /\ (forall c, cr_ramp 4 c = None) /\ (forall c, cr_ramp 5 c = None) /\
  match @rec_mprod ZRing 0 (@rev _) 1 4 5 0 0 1 (View 0 0 [2; 2] [2; 1]) (View 1 0 [2; 3] [1; 2]) (View 2 0 [3; 2] [2; 1]) cr_ramp with Ok m' => m' 0 3 = Some (-3 + (9 * 19 + 7 * 17 + 5 * 15)) /\ m' 5 1 = Some 19 /\ m' 4 0 = None | _ => False end.
Proof. split; [cr_op|]. split; [now left|]. split; [right; split; [discriminate|split; [reflexivity|repeat constructor]]|]. split; [reflexivity|]. split; [reflexivity|]. vm_compute. repeat split; reflexivity. Qed.
Example C198_case_device : operands (View 0 0 [2; 2] [3; 1]) [View 1 0 [2; 3] [3; 1]; View 2 0 [3; 2] [2; 1]] cr_ramp /\ (forall l : list (addr * list addr), Permutation (rev l) l) /\ movable 1 0 (View 1 0 [2; 3] [3; 1]) /\ movable 1 0 (View 2 0 [3; 2] [2; 1]) /\
  match @rec_mprod ZRing 0 (@rev _) 1 4 5 1 0 0 (View 0 0 [2; 2] [3; 1]) (View 1 0 [2; 3] [3; 1]) (View 2 0 [3; 2] [2; 1]) cr_ramp with Ok m' => m' 0 4 = Some (-4 + (7 * 19 + 6 * 17 + 5 * 15)) /\ m' 0 2 = Some (-2) | _ => False end.
Proof.
  split; [cr_op|]. split; [intro l; apply Permutation_sym, Permutation_rev|]. split; [right; split; [discriminate|split; [reflexivity|repeat constructor]]|]. split; [right; split; [discriminate|split; [reflexivity|repeat constructor]]|]. vm_compute. split; reflexivity.
Qed.
Example C198_case_AH : match @rec_mprod_AH ZRing 0 (@rev _) 1 4 5 1 0 0 (View 0 0 [2; 2] [3; 1]) (View 1 0 [2; 3] [3; 1]) (View 2 0 [2; 3] [3; 1]) cr_ramp with Ok m' => m' 0 4 = Some (-4 + (7 * 17 + 6 * 16 + 5 * 15)) | _ => False end /\
  match @rec_mprod_AH ZRing 0 (@rev _) 1 4 5 0 1 1 (View 0 0 [2; 2] [3; 1]) (View 1 0 [2; 3] [3; 1]) (View 2 0 [2; 3] [3; 1]) cr_ramp with Ok m' => m' 0 4 = Some (-4 + (7 * 17 + 6 * 16 + 5 * 15)) | _ => False end.
Proof. split; vm_compute; reflexivity. Qed.
Example C198_case_mvprod : operands (View 0 0 [2] [2]) [View 1 0 [2; 3] [3; 1]; View 2 0 [3] [1]] cr_ramp /\
  match @rec_mvprod ZRing 0 (@rev _) 1 4 5 0 1 1 (View 0 0 [2] [2]) (View 1 0 [2; 3] [3; 1]) (View 2 0 [3] [1]) cr_ramp with Ok m' => m' 0 2 = Some (-2 + (7 * 20 + 6 * 19 + 5 * 18)) | _ => False end.
Proof. split; [cr_op|]. vm_compute. reflexivity. Qed.
(* a transposed matrix on the host *)
Example C198_case_refuted : ~ (1 = 3 /\ 2 = 1) /\ @rec_mprod ZRing 0 (@rev _) 50 4 5 1 0 1 (View 0 0 [2; 2] [3; 1]) (View 1 0 [2; 3] [1; 2]) (View 2 0 [3; 2] [2; 1]) cr_ramp = UB.
Proof. split; [lia|]. apply C198_to_device_refuted; lia. Qed.
Example C198_case_rejects : vdims (View 1 0 [2; 2] [2; 1]) = [2; 2] /\ @rec_mprod ZRing 0 (@rev _) 1 4 5 0 1 1 (View 0 0 [2; 2] [3; 1]) (View 1 0 [2; 2] [2; 1]) (View 2 0 [3; 2] [2; 1]) cr_ramp = Throw /\
  @rec_mprod_AH ZRing 0 (@rev _) 1 4 5 1 0 1 (View 0 0 [2; 2] [3; 1]) (View 1 0 [2; 2] [2; 1]) (View 2 0 [3; 2] [2; 1]) cr_ramp = Throw /\ @rec_mvprod ZRing 0 (@rev _) 1 4 5 1 0 1 (View 0 0 [2] [3]) (View 1 0 [2; 2] [2; 1]) (View 2 0 [3] [1]) cr_ramp = Throw.
Proof. repeat split; vm_compute; reflexivity. Qed.
(* the same product on the host changes r *)
Example C198_case_mvprod_refuted : @rec_mvprod ZRing 0 (@rev _) 1 4 5 1 1 1 (View 0 0 [2] [2]) (View 1 0 [2; 3] [3; 1]) (View 2 0 [3] [1]) cr_ramp = Ok cr_ramp /\
  match @rec_mvprod ZRing 0 (@rev _) 1 4 5 0 0 0 (View 0 0 [2] [2]) (View 1 0 [2; 3] [3; 1]) (View 2 0 [3] [1]) cr_ramp with Ok m' => m' 0 2 <> cr_ramp 0 2 | _ => False end.
Proof. split; [now apply C198_mvprod_refuted with (a := 2) (n := 3)|]. vm_compute. discriminate. Qed.
