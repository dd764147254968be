(* Prop_HView.v -- C136..C140: views of four and more axes.  Elements are in an arbitrary commutative ring R
   (rounding is not modelled). *)
From Verif Require Import Base BaseFacts Model_Index Model_View Model_Tensor Model_Ops Model_RView Model_Gtensor Model_HView Spec_Index Spec_View Spec_Tensor Spec_RView Spec_Gtensor Spec_HView
  Proofs_Axes Proofs_Index Proofs_View Proofs_View2 Proofs_Tensor Proofs_Tensor2 Proofs_Tensor3 Proofs_Block3 Proofs_Convolve2 Proofs_RView Proofs_RView2 Proofs_RView3 Proofs_RView6 Proofs_HView Proofs_HView2 Proofs_HView3 Proofs_Sparse Checks Prop_Tensor Prop_RView.
Local Open Scope Z_scope.

(* ---- C136 ---- *)
Lemma take_all (l : list Z) : foldM (fun i (a : list Z) => do x <- zget l i; Ok (a ++ [x])) (zrange (Z.of_nat (length l))) [] = Ok l.
Proof.
  destruct (forZ_inv (fun i a => a = firstn (Z.to_nat i) l) (Z.of_nat (length l)) (fun i (a : list Z) => do x <- zget l i; Ok (a ++ [x])) []) as (a & E & H); [lia|reflexivity| |].
  - intros i a Hi ->. assert (G : zget l i = Ok (nth (Z.to_nat i) l 0)).
    { unfold zget, vget. destruct (Z.ltb_spec i 0); [lia|]. rewrite (nth_error_nth' l 0) by lia. reflexivity. }
    rewrite G. cbn [bind]. eexists. split; [reflexivity|]. replace (Z.to_nat (i + 1)) with (S (Z.to_nat i)) by lia. symmetry. destruct (cut1 l (Z.to_nat i)) as (l1 & p & l2 & Q & L); [lia|]. rewrite Q, <- L. rewrite (firstn_at l1 (p :: l2) (length l1)) by reflexivity. rewrite (nth_at l1 (p :: l2) (length l1) 0) by reflexivity.
    replace (S (length l1)) with (length l1 + 1)%nat by lia. rewrite firstn_app_2. reflexivity.
  - unfold forZ in E. rewrite E, H. now rewrite Nat2Z.id, firstn_all.
Qed.
Theorem C136_constructors : forall b o dims strides,
  (length dims = 4%nat -> length strides = 4%nat -> rv4_make b o dims strides = Ok (View b o dims strides)) /\
  (length dims = 5%nat -> length strides = 5%nat -> rv5_make b o dims strides = Ok (View b o dims strides)) /\
  (length dims = 6%nat -> length strides = 6%nat -> rv6_make b o dims strides = Ok (View b o dims strides)).
Proof.
  intros b o dims strides. unfold rv4_make, rv5_make, rv6_make, hv_make. repeat split; intros L1 L2; rewrite L1; cbn [Z.of_nat Pos.of_succ_nat Pos.succ Z.eqb Pos.eqb assrt].
  - pose proof (take_all dims) as T1. pose proof (take_all strides) as T2. rewrite L1 in T1. rewrite L2 in T2. cbn in T1, T2 |- *. rewrite T1. cbn [bind]. now rewrite T2.
  - pose proof (take_all dims) as T1. pose proof (take_all strides) as T2. rewrite L1 in T1. rewrite L2 in T2. cbn in T1, T2 |- *. rewrite T1. cbn [bind]. now rewrite T2.
  - pose proof (take_all dims) as T1. pose proof (take_all strides) as T2. rewrite L1 in T1. rewrite L2 in T2. cbn in T1, T2 |- *. rewrite T1. cbn [bind]. now rewrite T2.
Qed.
Print Assumptions C136_constructors.
(* the constructor for seven axes refuses seven sides, and reads past the end of six *)
Theorem C136_seven_refuted : forall b o dims strides,
  (length dims = 7%nat -> rv7_make b o dims strides = Throw) /\ (length dims = 6%nat -> rv7_make b o dims strides = UB).
Proof.
  intros b o dims strides. unfold rv7_make, hv_make. split; intro L; rewrite L; [reflexivity|].
  destruct dims as [|n0 [|n1 [|n2 [|n3 [|n4 [|n5 [|? ?]]]]]]]; try discriminate. reflexivity.
Qed.
Print Assumptions C136_seven_refuted.
Theorem C136_slices : forall d v i, vwf v -> (d < length (vdims v))%nat -> 0 <= i < nth d (vdims v) 0 ->
  vwf (hv_slice d v i) /\ vdims (hv_slice d v i) = del d (vdims v) /\ shows (hv_slice d v i) v (ins d i).
Proof. exact slice_shows. Qed.
Print Assumptions C136_slices.
Theorem C136_slices2 : forall d e v i j, vwf v -> (d < e)%nat -> (e < length (vdims v))%nat -> 0 <= i < nth d (vdims v) 0 -> 0 <= j < nth e (vdims v) 0 ->
  vwf (hv_slice2 d e v i j) /\ vdims (hv_slice2 d e v i j) = del d (del e (vdims v)) /\ shows (hv_slice2 d e v i j) v (fun ix => ins e j (ins d i ix)).
Proof. exact slice2_shows. Qed.
Print Assumptions C136_slices2.
(* the slice of a complex view with six axes along its last axis: real parts right, imaginary parts off by i*(s4-s5) *)
Theorem C136_complex_slice_refuted : forall v i jx, vwf v -> length (vdims v) = 7%nat -> nth 6 (vdims v) 0 = 2 -> 0 < i < nth 5 (vdims v) 0 ->
  nth 4 (vstr v) 0 <> nth 5 (vstr v) 0 -> in_range jx (firstn 5 (vdims v)) ->
  vaddr (cv6_slice5 v i) (jx ++ [0]) = vaddr v (jx ++ [i; 0]) /\ vaddr (cv6_slice5 v i) (jx ++ [1]) <> vaddr v (jx ++ [i; 1]).
Proof.
  intros [b o ds ss] i jx [Ws Wn] L N2 Hi Hs Hj. cbn [vdims vstr vblk voff] in *.
  destruct ds as [|n0 [|n1 [|n2 [|n3 [|n4 [|n5 [|n6 [|? ?]]]]]]]]; try discriminate. destruct ss as [|s0 [|s1 [|s2 [|s3 [|s4 [|s5 [|s6 [|? ?]]]]]]]]; try discriminate.
  pose proof (in_range_length _ _ Hj) as Lj. cbn in Lj. destruct jx as [|j0 [|j1 [|j2 [|j3 [|j4 [|? ?]]]]]]; try discriminate. cbn [nth] in *.
  unfold cv6_slice5, sd. cbn [vdims vstr vblk voff app firstn nth]. rewrite !vaddr_ok by reflexivity. cbn [vblk voff vstr dot]. split; [do 2 f_equal; ring|].
  intro Q. apply Hs. assert (K : forall x y : Z, Ok (b, x) = Ok (b, y) -> x = y) by (intros; congruence). apply K in Q. apply (Z.mul_reg_l _ _ i); [lia|]. lia.
Qed.
Print Assumptions C136_complex_slice_refuted.
(* fusing two axes that follow each other in memory shows every element once *)
Theorem C136_fuse : forall d v, vwf v -> (S d < length (vdims v))%nat -> joined v d ->
  let q := nth (S d) (vdims v) 0 in
  vwf (hv_fuse d v) /\ vdims (hv_fuse d v) = firstn d (vdims v) ++ (nth d (vdims v) 0 * q) :: skipn (S (S d)) (vdims v) /\
  shows (hv_fuse d v) v (unfused d q) /\
  forall ix, in_range ix (vdims v) -> in_range (fused d q ix) (vdims (hv_fuse d v)) /\ unfused d q (fused d q ix) = ix.
Proof. exact fuse_shows. Qed.
Print Assumptions C136_fuse.
(* fusing is not refused for other layouts, and then shows the wrong cells *)
Theorem C136_fuse_refuted : forall d v ix, vwf v -> (S d < length (vdims v))%nat -> ~ joined v d -> in_range ix (vdims v) -> nth d ix 0 = 1 -> nth (S d) ix 0 = 0 ->
  vaddr (hv_fuse d v) (fused d (nth (S d) (vdims v) 0) ix) <> vaddr v ix.
Proof. exact fuse_apart. Qed.
Print Assumptions C136_fuse_refuted.
Theorem C136_block : forall v i n, vwf v -> length i = length (vdims v) -> length n = length (vdims v) -> nonneg i -> nonneg n ->
  (forall k, (k < length (vdims v))%nat -> nth k i 0 + nth k n 0 <= nth k (vdims v) 0) ->
  vwf (hv_block v i n) /\ vdims (hv_block v i n) = n /\ shows (hv_block v i n) v (shifted i).
Proof. exact block_shows. Qed.
Print Assumptions C136_block.
(* a complex view is a real view with one more axis if its real and imaginary parts alternate, and refused otherwise *)
Theorem C136_as_real : forall v, (last (vstr v) 0 = 1 -> cv_as_real v = Ok v) /\ (last (vstr v) 0 <> 1 -> cv_as_real v = Throw).
Proof. intro v. unfold cv_as_real. split; intro H; [rewrite H; reflexivity|]. apply Z.eqb_neq in H. now rewrite H. Qed.
Print Assumptions C136_as_real.
Example C136_case : let v := View 1 4 [2; 3; 2; 2] [12; 4; 2; 1] in vwf v /\ joined v 1 /\ joined v 0 /\
  vaddr (hv_slice 2 v 1) [1; 2; 0] = vaddr v [1; 2; 1; 0] /\ vaddr (hv_slice2 1 3 v 2 1) [1; 0] = vaddr v [1; 2; 0; 1] /\
  vaddr (hv_fuse 1 v) [1; 5; 0] = vaddr v [1; 2; 1; 0] /\ vaddr (hv_block v [1; 1; 0; 0] [1; 2; 2; 1]) [0; 1; 1; 0] = vaddr v [1; 2; 1; 0].
Proof. split; [wf|]. repeat split. Qed.
Example C136_case_refuted : let v := View 1 4 [2; 3; 2; 2] [1; 2; 6; 12] in vwf v /\ ~ joined v 1 /\ in_range [0; 1; 0; 0] (vdims v) /\ vaddr (hv_fuse 1 v) [0; 2; 0] = Ok (1, 16) /\ vaddr v [0; 1; 0; 0] = Ok (1, 6) /\
  (let w := View 1 0 [1; 1; 1; 1; 2; 2; 2] [8; 8; 8; 8; 4; 2; 1] in vwf w /\ vaddr (cv6_slice5 w 1) [0; 0; 0; 0; 0; 1] = Ok (1, 5) /\ vaddr w [0; 0; 0; 0; 0; 1; 1] = Ok (1, 3)).
Proof. split; [wf|]. split; [cbv; discriminate|]. split; [repeat constructor; lia|]. split; [reflexivity|]. split; [reflexivity|]. split; [wf|]. split; reflexivity. Qed.

(* ---- C137 ---- *)
Theorem C137_add : forall (R : cring) r y (m : mem (car R)), zipable r y m -> exists m', hv_add r y m = Ok m' /\ updates cadd r y m m'.
Proof. exact @hadd_ok. Qed.
Print Assumptions C137_add.
Theorem C137_refused : forall (R : cring) r y (m : mem (car R)), vdims y <> vdims r -> hv_add r y m = Throw.
Proof. exact @hadd_refuses. Qed.
Print Assumptions C137_refused.
Example C137_case : let r := View 1 0 [2; 1; 2; 2] [4; 4; 2; 1] in let y := View 1 40 [2; 1; 2; 2] [1; 9; 2; 4] in zipable r y ex_mem /\
  exists m', hv_add (R := ZRing) r y ex_mem = Ok m' /\ elem m' r [1; 0; 1; 0] = Some (elem0 (R := ZRing) ex_mem r [1; 0; 1; 0] + elem0 (R := ZRing) ex_mem y [1; 0; 1; 0]).
Proof. split; [unfold zipable; split; [wf|split; [wf|split; [reflexivity|split; [by_check|split; [by_check|split; [by_check|by_check]]]]]]|]. eexists. split; [vm_compute; reflexivity|]. vm_compute. reflexivity. Qed.

(* ---- C138 ---- *)
Theorem C138_reduce : forall (R : cring) k a v (m : mem (car R)), vwf v -> length (vdims v) = (3 + k)%nat -> (a < 4)%nat -> (a < 3 + k)%nat -> distinct_cells v -> readable m v ->
  joined_except a v -> (a = 0%nat \/ a = (2 + k)%nat -> regular v) -> 2 <= nth a (vdims v) 0 ->
  exists m', hv_reduce k a v m = Ok m' /\ reduced rsum a v m m'.
Proof.
  intros R k a v m W L A1 A2 Hd Rv J Hr Hn. assert (Q : red_ready k a v m). { repeat (split; [assumption|]). intro H. apply regular_rowm; [now apply Hr|]. intro E. rewrite E in L. discriminate. }
  destruct (hreduce_ok k a v m Q Hn) as (m' & E & H). exists m'. split; [exact E|]. apply red_reduced; [lia|lia|exact H].
Qed.
Print Assumptions C138_reduce.
Theorem C138_reduce_into : forall (R : cring) k a v r (m : mem (car R)), vwf v -> length (vdims v) = (3 + k)%nat -> (a < 4)%nat -> (a < 3 + k)%nat -> distinct_cells v -> readable m v ->
  joined_except a v -> (a = 0%nat \/ a = (2 + k)%nat -> regular v) -> 2 <= nth a (vdims v) 0 ->
  vwf r -> vdims r = del a (vdims v) -> distinct_cells r -> readable m r -> disjoint_views r v ->
  exists m', hv_reduce_into k a v r m = Ok m' /\
    (forall jx u, in_range jx (vdims r) -> elem m r jx = Some u -> elem m' r jx = Some (cadd u (rsum (map (fun i => elem0 m v (ins a i jx)) (zrange (nth a (vdims v) 0)))))) /\ untouched2 m m' r v.
Proof.
  intros R k a v r m W L A1 A2 Hd Rv J Hr Hn. apply hreduce_into; [|exact Hn]. repeat (split; [assumption|]). intro H. apply regular_rowm; [now apply Hr|]. intro E. rewrite E in L. discriminate.
Qed.
Print Assumptions C138_reduce_into.
(* a single slice along the first axis is doubled *)
Theorem C138_single_refuted : forall (R : cring) k v (m : mem (car R)), vwf v -> length (vdims v) = (3 + k)%nat -> distinct_cells v -> readable m v -> regular v -> nth 0 (vdims v) 0 = 1 ->
  exists m', hv_reduce k 0 v m = Ok m' /\ reduced (fun l => cadd (rsum l) (rsum l)) 0 v m m'.
Proof.
  intros R k v m W L Hd Rv Hr Hn. assert (Hm : rowm v). { apply regular_rowm; [assumption|]. intro E. rewrite E in L. discriminate. }
  assert (Q : red_ready k 0 v m). { split; [assumption|]. split; [assumption|]. split; [lia|]. split; [lia|]. split; [assumption|]. split; [assumption|]. split; [now apply rowm_joined|]. intros _. exact Hm. }
  destruct (hreduce_one k v m Q Hn) as (m' & E & H). exists m'. split; [exact E|]. apply red_reduced; [lia|lia|exact H].
Qed.
Print Assumptions C138_single_refuted.
Example C138_case : let v := View 1 4 [2; 2; 3; 2] [12; 6; 2; 1] in let r := View 1 50 [2; 2; 2] [4; 2; 1] in vwf v /\ distinct_cells v /\ readable ex_mem v /\ regular v /\ joined_except 2 v /\
  vdims r = del 2 (vdims v) /\ disjoint_views r v /\
  exists m', hv_reduce (R := ZRing) 1 2 v ex_mem = Ok m' /\ elem m' v [1; 0; 0; 1] = Some (elem0 (R := ZRing) ex_mem v [1; 0; 0; 1] + (elem0 (R := ZRing) ex_mem v [1; 0; 1; 1] + (elem0 (R := ZRing) ex_mem v [1; 0; 2; 1] + 0))).
Proof.
  split; [wf|]. split; [by_check|]. split; [by_check|]. split; [reflexivity|]. split; [intros [|[|[|d]]] H1 H2 H3; cbn in H1; try lia; reflexivity|]. split; [reflexivity|]. split; [by_check|].
  eexists. split; [vm_compute; reflexivity|]. vm_compute. reflexivity.
Qed.
(* axes stored in another order: the sum is over the wrong cells *)
Example C138_case_refuted : let v := View 1 4 [2; 2; 3; 2] [1; 2; 4; 12] in vwf v /\ distinct_cells v /\ readable ex_mem v /\ ~ joined v 0 /\
  exists m', hv_reduce (R := ZRing) 1 2 v ex_mem = Ok m' /\ elem m' v [1; 0; 0; 1] <> Some (elem0 (R := ZRing) ex_mem v [1; 0; 0; 1] + (elem0 (R := ZRing) ex_mem v [1; 0; 1; 1] + (elem0 (R := ZRing) ex_mem v [1; 0; 2; 1] + 0))).
Proof.
  split; [wf|]. split; [by_check|]. split; [by_check|]. split; [cbv; discriminate|]. eexists. split; [vm_compute; reflexivity|]. vm_compute. discriminate.
Qed.

(* ---- C139 ---- *)
Theorem C139_broadcast : forall (R : cring) k a v x (m : mem (car R)), operands v [x] m -> length (vdims v) = (3 + k)%nat -> (a < 3 + k)%nat -> vdims x = del a (vdims v) ->
  joined_except a v -> (a = 0%nat \/ a = (2 + k)%nat -> regular v) -> regular x -> 1 <= nth a (vdims v) 0 ->
  exists m', hv_broadcast k a v x m = Ok m' /\ becomes v (fun ix => elem0 m x (del a ix)) m m'.
Proof.
  intros R k a v x m O L A Dx J Hr Hx Hn. apply hcast_ok. repeat (split; [assumption|]). split; [|split; [|assumption]].
  - intro H. apply regular_rowm; [now apply Hr|]. intro E. rewrite E in L. discriminate.
  - apply regular_rowm; [assumption|]. intro E. rewrite E in Dx. apply (f_equal (@length Z)) in Dx. rewrite del_length in Dx by lia. cbn in Dx. lia.
Qed.
Print Assumptions C139_broadcast.
Theorem C139_refused : forall (R : cring) k a v x (m : mem (car R)), vdims x <> del a (vdims v) -> hv_broadcast (S k) a v x m = Throw.
Proof. exact @hcast_refuses. Qed.
Print Assumptions C139_refused.
Example C139_case : let v := View 1 4 [2; 2; 3; 2] [12; 6; 2; 1] in let x := View 1 50 [2; 2; 2] [4; 2; 1] in operands v [x] ex_mem /\ vdims x = del 2 (vdims v) /\ regular v /\ regular x /\ joined_except 2 v /\
  exists m', hv_broadcast (R := ZRing) 1 2 v x ex_mem = Ok m' /\ elem m' v [1; 0; 2; 1] = elem ex_mem x [1; 0; 1].
Proof.
  split; [unfold operands; split; [wf|split; [by_check|split; [by_check|constructor; [split; [wf|split; by_check]|constructor]]]]|]. split; [reflexivity|]. split; [reflexivity|]. split; [reflexivity|].
  split; [intros [|[|[|d]]] H1 H2 H3; cbn in H1; try lia; reflexivity|]. eexists. split; [vm_compute; reflexivity|]. vm_compute. reflexivity.
Qed.
(* an argument with four axes stored in another order is not refused, and the wrong elements are copied *)
Example C139_case_refuted : let v := View 1 0 [2; 1; 2; 2; 2] [8; 8; 4; 2; 1] in let x := View 1 50 [1; 2; 2; 2] [8; 4; 20; 1] in operands v [x] ex_mem /\ vdims x = del 0 (vdims v) /\ regular v /\ ~ regular x /\
  exists m', hv_broadcast (R := ZRing) 2 0 v x ex_mem = Ok m' /\ elem m' v [1; 0; 0; 1; 0] <> elem ex_mem x [0; 0; 1; 0].
Proof.
  split; [unfold operands; split; [wf|split; [by_check|split; [by_check|constructor; [split; [wf|split; by_check]|constructor]]]]|]. split; [reflexivity|]. split; [reflexivity|]. split; [cbv; discriminate|].
  eexists. split; [vm_compute; reflexivity|]. vm_compute. discriminate.
Qed.

(* ---- C140 ---- *)
Theorem C140_gtensor : forall (R : cring) (junk : R) v (m : mem (car R)) (h : heap (car R)), vwf v -> vdims v <> [] -> readable m v -> heap_ok h ->
  exists t h', hv_gtensor junk v m h = Ok (t, h') /\ plain h' t (vdims v) /\ adds_array h t h' /\ forall ix, in_range ix (vdims v) -> gel h' t ix = elem m v ix.
Proof. exact @hgtensor_ok. Qed.
Print Assumptions C140_gtensor.
Theorem C140_seven_refuted : forall (R : cring) (junk : R) v (m : mem (car R)) (h : heap (car R)), vwf v -> length (vdims v) = 7%nat -> positive (vdims v) -> readable m v -> heap_ok h ->
  rv7_gtensor junk v m h = Throw.
Proof. exact @rv7_gtensor_throws. Qed.
Print Assumptions C140_seven_refuted.
Example C140_case : let v := View 1 4 [2; 1; 2; 2] [1; 9; 2; 4] in vwf v /\ readable ex_mem v /\ heap_ok (Heap (V := Z) (fun _ _ => None) [] 0) /\
  (let w := View 1 0 [1; 1; 1; 2; 1; 1; 1] [2; 2; 2; 1; 1; 1; 1] in vwf w /\ readable ex_mem w /\ positive (vdims w)) /\
  match hv_gtensor (R := ZRing) 0 v ex_mem (Heap (fun _ _ => None) [] 0) with Ok (t, h) => gel h t [1; 0; 1; 0] = elem ex_mem v [1; 0; 1; 0] | _ => False end.
Proof.
  split; [wf|]. split; [by_check|]. split; [split; [constructor|split; [intros b []|split; [cbn; lia|intros b a H; now elim H]]]|]. split; [split; [wf|split; [by_check|repeat constructor; lia]]|]. vm_compute. reflexivity.
Qed.
