(* Proofs_CuContract.v -- lemmas on contractions and outer products of complex views on a device. *)
From Verif Require Import Base BaseFacts Model_Index Model_View Model_Tensor Model_Ops Model_RView Model_CView Model_Einsum Model_Convolve Model_Cuda Model_CuConv Model_CuBlas Model_CuComplex Model_CuContract Spec_Index Spec_View Spec_Tensor Spec_Cuda
  Proofs_Axes Proofs_Index Proofs_View Proofs_Tensor Proofs_Tensor2 Proofs_Tensor3 Proofs_Convolve2 Proofs_Ops2 Proofs_Ops3 Proofs_Cuda Spec_RView Proofs_RView Proofs_CuConv Proofs_CuBlas Proofs_CuRtensor Proofs_CuColumns Proofs_CuComplex.
Local Open Scope Z_scope.

Lemma th_bttt a b c d : map k_bttt (cu_threads (a, 1, 1) (b, c, d)) = all_indices [a; b; c; d].
Proof.
  unfold cu_threads. change (zrange 1) with [0]. cbn [flat_map map app all_indices]. rewrite map_flat_map. apply flat_map_ext. intro i. rewrite !app_nil_r, !map_flat_map. apply flat_map_ext. intro j. rewrite !map_flat_map. apply flat_map_ext. intro k.
  rewrite !flat_map_single, !map_map. reflexivity.
Qed.
Lemma th_bbtt a b c d : map k_bbtt (cu_threads (a, b, 1) (c, d, 1)) = all_indices [a; b; c; d].
Proof.
  unfold cu_threads. change (zrange 1) with [0]. cbn [flat_map map app all_indices]. rewrite map_flat_map. apply flat_map_ext. intro i. rewrite !map_flat_map. apply flat_map_ext. intro j. rewrite !app_nil_r, !map_flat_map. apply flat_map_ext. intro k.
  rewrite !flat_map_single, !map_map. reflexivity.
Qed.
Lemma cc_launch_ok g b co n x xs y ys r rs d : cu_ok g b = true -> map co (cu_threads g b) = all_indices d ->
  cc_launch g b co n x xs y ys r rs = map (fun ix => (shift r (dot rs ix), flat_map (fun i => [shift x (dot xs (ix ++ [i])); shift y (dot ys (ix ++ [i]))]) (zrange n))) (all_indices d).
Proof. intros O E. unfold cc_launch. rewrite O, <- E, map_map. reflexivity. Qed.
Lemma shift_cell v (s : Z) ix : s = dot (vstr v) ix -> shift (arr v) s = cell v ix.
Proof. intros ->. reflexivity. Qed.
(* the shapes that the kernels cover *)
Lemma prod21_plan n0 n1 n2 x xs y ys r rs : 1 <= n0 <= 2147483647 -> 1 <= n1 <= 1024 ->
  cu_cproduct_2_1 n0 n1 n2 x xs y ys r rs = map (fun ix => (shift r (dot rs ix), flat_map (fun i => [shift x (dot xs (ix ++ [i])); shift y (dot ys (ix ++ [i]))]) (zrange n2))) (all_indices [n0; n1]).
Proof.
  intros H0 H1. unfold cu_cproduct_2_1. destruct (Z.leb_spec (n0 * n1) 1024) as [L|L].
  - apply cc_launch_ok; [apply ok_true; nia|apply th_tt].
  - destruct (Z.leb_spec n1 1024) as [L'|L']; [|lia]. apply cc_launch_ok; [apply ok_true; lia|apply th_bt].
Qed.
Lemma prod4_plan n0 n1 n2 n3 x xs y ys r rs : 1 <= n0 <= 2147483647 -> 1 <= n1 <= 65535 -> 1 <= n2 <= 65535 -> 1 <= n3 <= 1024 -> n3 <= 64 \/ 1024 < n1 * n2 * n3 ->
  cu_cproduct_4 n0 n1 n2 n3 x xs y ys r rs = map (fun ix => (shift r (dot rs ix), flat_map (fun i => [shift x (dot (xs ++ [0]) (ix ++ [i])); shift y (dot (ys ++ [0]) (ix ++ [i]))]) (zrange 1))) (all_indices [n0; n1; n2; n3]).
Proof.
  intros H0 H1 H2 H3 H4. unfold cu_cproduct_4. destruct (Z.leb_spec (n1 * n2 * n3) 1024) as [L|L].
  - assert (1 <= n1 * n2) by nia. apply cc_launch_ok; [apply ok_true; nia|apply th_bttt].
  - destruct (Z.leb_spec (n2 * n3) 1024) as [L'|L'].
    + apply cc_launch_ok; [apply ok_true; nia|apply th_bbtt].
    + destruct (Z.leb_spec n3 1024) as [L2|L2]; [|lia]. apply cc_launch_ok; [apply ok_true; lia|apply th_bbbt].
Qed.

Section S.
Context {R : cring}.
Notation C := (CxRing R).
Add Ring RrCuCon : (cth C).
Notation memC := (mem (car C)).
Implicit Types m : memC.
Lemma contract_dev x r y m a n b : operands r [x; y] m -> vdims r = [a; b] -> vdims x = [a; n; b] -> vdims y = [a; n; b] -> 1 <= a <= 2147483647 -> 1 <= b <= 1024 ->
  exists plan, cu_contract x r y = Ok plan /\ forall order, Permutation order plan -> exists m', cu_exec (f_cgemm false false) [order] m = Ok m' /\
    gains r (fun ix => rsum (map (fun i => cmul (elem0 m x [nth 0 ix 0; i; nth 1 ix 0]) (elem0 m y [nth 0 ix 0; i; nth 1 ix 0])) (zrange n))) m m'.
Proof.
  intros O Dr Dx Dy Ha Hb. pose proof O as (Wr & _ & _ & F). inversion F as [|? ? (Wx & _ & _) F2]; subst. inversion F2 as [|? ? (Wy & _ & _) _]; subst.
  unfold cu_contract, nd. rewrite Dr, Dx, Dy. cbn [nth]. rewrite !Z.eqb_refl. cbn [assrt]. rewrite prod21_plan by assumption. eexists. split; [reflexivity|]. intros order P.
  assert (Sr : exists s t, vstr r = [s; t]). { destruct Wr as [L _]. rewrite Dr in L. destruct (vstr r) as [|s [|t [|? ?]]]; try discriminate L. now exists s, t. }
  assert (Sx : exists s t u, vstr x = [s; t; u]). { destruct Wx as [L _]. rewrite Dx in L. destruct (vstr x) as [|s [|t [|u [|? ?]]]]; try discriminate L. now exists s, t, u. }
  assert (Sy : exists s t u, vstr y = [s; t; u]). { destruct Wy as [L _]. rewrite Dy in L. destruct (vstr y) as [|s [|t [|u [|? ?]]]]; try discriminate L. now exists s, t, u. }
  destruct Sr as (s & t & Sr). destruct Sx as (s1 & t1 & u1 & Sx). destruct Sy as (s2 & t2 & u2 & Sy).
  destruct (cgemm_gains false false r x y m (fun _ => zrange n) (fun ix i => [nth 0 ix 0; i; nth 1 ix 0]) (fun ix i => [nth 0 ix 0; i; nth 1 ix 0]) order O) as (m' & E & G).
  - intros ix k I Ik. apply in_zrange in Ik. rewrite Dr in I. rng. rewrite Dx, Dy. cbn [nth]. split; inr.
  - rewrite Dr. erewrite map_ext_in; [exact P|]. intros ix I. apply in_all_indices in I. rng. cbn [nth app]. unfold sd. rewrite Sr, Sx, Sy. cbn [nth]. f_equal.
    + symmetry. apply shift_cell. rewrite Sr. cbn [dot]. lia.
    + apply flat_map_ext. intro l. f_equal; [symmetry; apply shift_cell; rewrite Sx; cbn [dot]; lia|]. f_equal. symmetry. apply shift_cell. rewrite Sy. cbn [dot]. lia.
  - exists m'. split; [exact E|]. exact G.
Qed.
Lemma expand_dev r x y m a b d c : operands r [x; y] m -> vdims r = [a; b; d; c] -> vdims x = [a; b; c] -> vdims y = [b; d; c] -> 1 <= a <= 2147483647 -> 1 <= b <= 65535 -> 1 <= d <= 65535 -> 1 <= c <= 1024 -> c <= 64 \/ 1024 < b * d * c ->
  exists plan, cu_expand_2 r x y = Ok plan /\ forall order, Permutation order plan -> exists m', cu_exec (f_cgemm false false) [order] m = Ok m' /\
    gains r (fun ix => cmul (elem0 m x [nth 0 ix 0; nth 1 ix 0; nth 3 ix 0]) (elem0 m y [nth 1 ix 0; nth 2 ix 0; nth 3 ix 0])) m m'.
Proof.
  intros O Dr Dx Dy Ha Hb Hd Hc Hs. pose proof O as (Wr & _ & _ & F). inversion F as [|? ? (Wx & _ & _) F2]; subst. inversion F2 as [|? ? (Wy & _ & _) _]; subst.
  unfold cu_expand_2, nd. rewrite Dr, Dx, Dy. cbn [nth]. rewrite !Z.eqb_refl. cbn [assrt]. rewrite prod4_plan by assumption. eexists. split; [reflexivity|]. intros order P.
  assert (Sr : exists s t u v, vstr r = [s; t; u; v]). { destruct Wr as [L _]. rewrite Dr in L. destruct (vstr r) as [|s [|t [|u [|v [|? ?]]]]]; try discriminate L. now exists s, t, u, v. }
  assert (Sx : exists s t u, vstr x = [s; t; u]). { destruct Wx as [L _]. rewrite Dx in L. destruct (vstr x) as [|s [|t [|u [|? ?]]]]; try discriminate L. now exists s, t, u. }
  assert (Sy : exists s t u, vstr y = [s; t; u]). { destruct Wy as [L _]. rewrite Dy in L. destruct (vstr y) as [|s [|t [|u [|? ?]]]]; try discriminate L. now exists s, t, u. }
  destruct Sr as (s & t & u & v & Sr). destruct Sx as (s1 & t1 & u1 & Sx). destruct Sy as (s2 & t2 & u2 & Sy).
  destruct (cgemm_gains false false r x y m (fun _ => zrange 1) (fun ix _ => [nth 0 ix 0; nth 1 ix 0; nth 3 ix 0]) (fun ix _ => [nth 1 ix 0; nth 2 ix 0; nth 3 ix 0]) order O) as (m' & E & G).
  - intros ix k I _. rewrite Dr in I. rng. rewrite Dx, Dy. cbn [nth]. split; inr.
  - rewrite Dr. erewrite map_ext_in; [exact P|]. intros ix I. apply in_all_indices in I. rng. cbn [nth app]. unfold sd. rewrite Sr, Sx, Sy. cbn [nth]. f_equal.
    + symmetry. apply shift_cell. rewrite Sr. cbn [dot]. lia.
    + apply flat_map_ext. intro l. f_equal; [symmetry; apply shift_cell; rewrite Sx; cbn [dot]; lia|]. f_equal. symmetry. apply shift_cell. rewrite Sy. cbn [dot]. lia.
  - exists m'. split; [exact E|]. eapply gains_ext; [|exact G]. intros ix _. change (zrange 1) with [0]. cbn [map]. rewrite rsum_cons, rsum_nil. unfold cj. ring.
Qed.
Lemma contract4_dev x r y m e a n b : operands r [x; y] m -> vdims r = [e; a; b] -> vdims x = [e; a; n; b] -> vdims y = [a; n; b] -> 1 <= a <= 2147483647 -> 1 <= b <= 1024 ->
  exists plan, cu_contract4 x r y = Ok plan /\ forall orders, any_order plan orders -> exists m', cu_exec (f_cgemm false false) orders m = Ok m' /\
    gains r (fun ix => rsum (map (fun i => cmul (elem0 m x [nth 0 ix 0; nth 1 ix 0; i; nth 2 ix 0]) (elem0 m y [nth 1 ix 0; i; nth 2 ix 0])) (zrange n))) m m'.
Proof.
  intros O Dr Dx Dy Ha Hb. pose proof O as (Wr & _ & _ & F). inversion F as [|? ? (Wx & _ & _) F2]; subst. inversion F2 as [|? ? (Wy & _ & _) _]; subst.
  assert (Sr : exists s t u, vstr r = [s; t; u]). { destruct Wr as [L _]. rewrite Dr in L. destruct (vstr r) as [|s [|t [|u [|? ?]]]]; try discriminate L. now exists s, t, u. }
  assert (Sx : exists s t u v, vstr x = [s; t; u; v]). { destruct Wx as [L _]. rewrite Dx in L. destruct (vstr x) as [|s [|t [|u [|v [|? ?]]]]]; try discriminate L. now exists s, t, u, v. }
  assert (Sy : exists s t u, vstr y = [s; t; u]). { destruct Wy as [L _]. rewrite Dy in L. destruct (vstr y) as [|s [|t [|u [|? ?]]]]; try discriminate L. now exists s, t, u. }
  destruct Sr as (s & t & u & Sr). destruct Sx as (s1 & t1 & u1 & v1 & Sx). destruct Sy as (s2 & t2 & u2 & Sy).
  set (src := fun ix : list Z => flat_map (fun i => [cell x [nth 0 ix 0; nth 1 ix 0; i; nth 2 ix 0]; cell y [nth 1 ix 0; i; nth 2 ix 0]]) (zrange n)).
  assert (Pl : cu_contract4 x r y = Ok (map (fun i => map (fun ix => (cell r (i :: ix), src (i :: ix))) (all_indices [a; b])) (zrange e))).
  { unfold cu_contract4. unfold nd. rewrite Dr, Dx. cbn [nth]. rewrite Z.eqb_refl. cbn [assrt]. apply mapM_ok. apply Forall_forall. intros i _.
    unfold cu_contract, cc_slice4, cc_slice3, nd, sd. cbn [vdims vstr nth]. rewrite Dr, Dx, Dy, Sr, Sx, Sy. cbn [nth]. rewrite !Z.eqb_refl. cbn [assrt]. rewrite prod21_plan by assumption. f_equal. apply map_ext_in.
    intros ix I. apply in_all_indices in I. rng. unfold src. cbn [nth app]. f_equal.
    - unfold arr, shift, cell. cbn [vblk voff fst snd]. rewrite Sr. cbn [dot]. f_equal. lia.
    - apply flat_map_ext. intro l. unfold arr, shift, cell. cbn [vblk voff fst snd]. rewrite Sx, Sy. cbn [dot]. f_equal; [f_equal; lia|]. f_equal. f_equal. lia. }
  rewrite Pl. eexists. split; [reflexivity|]. intros orders P. apply order_concat in P.
  destruct (cgemm_gains false false r x y m (fun _ => zrange n) (fun ix i => [nth 0 ix 0; nth 1 ix 0; i; nth 2 ix 0]) (fun ix i => [nth 1 ix 0; i; nth 2 ix 0]) (concat orders) O) as (m' & E & G).
  - intros ix k I Ik. apply in_zrange in Ik. rewrite Dr in I. rng. rewrite Dx, Dy. cbn [nth]. split; inr.
  - rewrite Dr. rewrite P. fold src. cbn [all_indices]. rewrite <- flat_map_concat_map, map_flat_map. apply Permutation_refl'. apply flat_map_ext. intro i. now rewrite map_map.
  - exists m'. split; [|exact G]. rewrite exec_run in *. cbn [concat] in E. now rewrite app_nil_r in E.
Qed.
End S.
