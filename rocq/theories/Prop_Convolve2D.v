(* Prop_Convolve2D.v -- C78: two-dimensional convolution is zero-padded correlation; C79: its gradients are the adjoints. *)
From Verif Require Import Base BaseFacts Model_Index Model_View Model_Tensor Model_Einsum Model_Convolve Model_Convolve2D Spec_Index Spec_View Spec_Tensor Spec_Convolve Spec_Convolve2D
  Proofs_Index Proofs_View Proofs_View2 Proofs_Tensor Proofs_Tensor2 Proofs_Tensor3 Proofs_Einsum6 Proofs_Einsum7 Proofs_Convolve Proofs_Convolve2 Proofs_Convolve3 Proofs_Convolve2D Proofs_Convolve2D2 Proofs_Convolve2D3 Prop_Convolve.
Local Open Scope Z_scope.

(* ---- C78 *)
(* one channel: the result is overwritten *)
Theorem C78_one_channel (R : cring) r x w N0 N1 X0 X1 W0 W1 (m : mem (car R)) : vwf r -> vwf x -> vwf w -> vdims r = [N0; N1] -> vdims x = [X0; X1] -> vdims w = [W0; W1] -> distinct_cells r -> separate m r x w ->
  exists m', convolve2 r x w m = Ok m' /\ untouched m m' r /\ forall i j, 0 <= i < N0 -> 0 <= j < N1 -> elem m' r [i; j] =
    Some (corr2 X0 X1 W0 W1 (centred N0 X0 W0) (centred N1 X1 W1) (fun a b => elem0 m x [a; b]) (fun a b => elem0 m w [a; b]) i j).
Proof. intros Wr Wx Ww Er Ex Ew Dr (Rr & Rx & Rw & D1 & D2). destruct (conv2_2_ok (conv2_lvl (fun _ _ _ m => Ok m)) r x w N0 N1 X0 X1 W0 W1 m) as (m' & E & V & U); try assumption. eauto. Qed.
Print Assumptions C78_one_channel.
(* several channels: the correlations are added to the result *)
Theorem C78_channels (R : cring) r x w N0 N1 X0 X1 W0 W1 A B (m : mem (car R)) : vwf r -> vwf x -> vwf w -> vdims r = [N0; N1; B] -> vdims x = [X0; X1; A] -> vdims w = [W0; W1; B; A] -> distinct_cells r -> separate m r x w ->
  exists m', convolve2 r x w m = Ok m' /\ untouched m m' r /\ forall i j b v, 0 <= i < N0 -> 0 <= j < N1 -> 0 <= b < B -> elem m r [i; j; b] = Some v ->
    elem m' r [i; j; b] = Some (cadd v (sum_to A (fun a => corr2 X0 X1 W0 W1 (centred N0 X0 W0) (centred N1 X1 W1) (fun q0 q1 => elem0 m x [q0; q1; a]) (fun j0 j1 => elem0 m w [j0; j1; b; a]) i j))).
Proof.
  intros Wr Wx Ww Er Ex Ew Dr (Rr & Rx & Rw & D1 & D2). destruct (conv2_3_ok (conv2_lvl (fun _ _ _ m => Ok m)) r x w N0 N1 X0 X1 W0 W1 A B m) as (m' & E & V & U); try assumption.
  exists m'. split; [exact E|]. split; [exact U|]. intros i j b v Hi Hj Hb. apply (V [i; j; b]). rewrite Er. now apply in_range_3.
Qed.
Print Assumptions C78_channels.
Theorem C78_columns (R : cring) r x w N0 N1 X0 X1 W0 W1 A B C (m : mem (car R)) : vwf r -> vwf x -> vwf w -> vdims r = [N0; N1; B; C] -> vdims x = [X0; X1; A; C] -> vdims w = [W0; W1; B; A] -> distinct_cells r -> separate m r x w ->
  exists m', convolve2 r x w m = Ok m' /\ untouched m m' r /\ forall i j b c v, 0 <= i < N0 -> 0 <= j < N1 -> 0 <= b < B -> 0 <= c < C -> elem m r [i; j; b; c] = Some v ->
    elem m' r [i; j; b; c] = Some (cadd v (sum_to A (fun a => corr2 X0 X1 W0 W1 (centred N0 X0 W0) (centred N1 X1 W1) (fun q0 q1 => elem0 m x [q0; q1; a; c]) (fun j0 j1 => elem0 m w [j0; j1; b; a]) i j))).
Proof.
  intros Wr Wx Ww Er Ex Ew Dr (Rr & Rx & Rw & D1 & D2). destruct (conv2_4_ok (conv2_lvl (fun _ _ _ m => Ok m)) r x w N0 N1 X0 X1 W0 W1 A B C m) as (m' & E & V & U); try assumption.
  exists m'. split; [exact E|]. split; [exact U|]. intros i j b c v Hi Hj Hb Hc. apply (V [i; j; b; c]). rewrite Er. now apply in_range_4.
Qed.
Print Assumptions C78_columns.
(* a batch of tensors, one result each *)
Theorem C78_batches (R : cring) r x w M N0 N1 X0 X1 W0 W1 A B C (m : mem (car R)) : vwf r -> vwf x -> vwf w -> vdims r = [M; N0; N1; B; C] -> vdims x = [M; X0; X1; A; C] -> vdims w = [W0; W1; B; A] -> distinct_cells r -> separate m r x w ->
  exists m', convolve2 r x w m = Ok m' /\ untouched m m' r /\ forall e i j b c v, 0 <= e < M -> 0 <= i < N0 -> 0 <= j < N1 -> 0 <= b < B -> 0 <= c < C -> elem m r [e; i; j; b; c] = Some v ->
    elem m' r [e; i; j; b; c] = Some (cadd v (sum_to A (fun a => corr2 X0 X1 W0 W1 (centred N0 X0 W0) (centred N1 X1 W1) (fun q0 q1 => elem0 m x [e; q0; q1; a; c]) (fun j0 j1 => elem0 m w [j0; j1; b; a]) i j))).
Proof.
  intros Wr Wx Ww Er Ex Ew Dr (Rr & Rx & Rw & D1 & D2). destruct (conv2_5_ok r x w M N0 N1 X0 X1 W0 W1 A B C m) as (m' & E & V & U); try assumption.
  exists m'. split; [exact E|]. split; [exact U|]. intros e i j b c v He Hi Hj Hb Hc. apply (V [e; i; j; b; c]). rewrite Er. apply in_range_cons. split; [exact He|now apply in_range_4].
Qed.
Print Assumptions C78_batches.
(* convolve2d returns a new tensor *)
Theorem C78_convolve2d (R : cring) bk x w X0 X1 W0 W1 A B C pa pb (m : mem (car R)) : vwf x -> vwf w -> readable m x -> readable m w -> vblk x <> bk -> vblk w <> bk -> 0 <= out_len X0 W0 pa -> 0 <= out_len X1 W1 pb ->
  let N0 := out_len X0 W0 pa in let N1 := out_len X1 W1 pb in let p0 := out_pad W0 pa in let p1 := out_pad W1 pb in
  (vdims x = [X0; X1] -> vdims w = [W0; W1] -> exists m', convolve2d bk x w pa pb m = Ok (fresh_view bk [N0; N1], m') /\ (forall b' a, b' <> bk -> m' b' a = m b' a) /\
     forall i j, 0 <= i < N0 -> 0 <= j < N1 -> elem m' (fresh_view bk [N0; N1]) [i; j] = Some (corr2 X0 X1 W0 W1 p0 p1 (fun a b => elem0 m x [a; b]) (fun a b => elem0 m w [a; b]) i j)) /\
  (vdims x = [X0; X1; A] -> vdims w = [W0; W1; B; A] -> exists m', convolve2d bk x w pa pb m = Ok (fresh_view bk [N0; N1; B], m') /\ (forall b' a, b' <> bk -> m' b' a = m b' a) /\
     forall i j b, 0 <= i < N0 -> 0 <= j < N1 -> 0 <= b < B -> elem m' (fresh_view bk [N0; N1; B]) [i; j; b] = Some (sum_to A (fun a => corr2 X0 X1 W0 W1 p0 p1 (fun q0 q1 => elem0 m x [q0; q1; a]) (fun j0 j1 => elem0 m w [j0; j1; b; a]) i j))) /\
  (vdims x = [X0; X1; A; C] -> vdims w = [W0; W1; B; A] -> exists m', convolve2d bk x w pa pb m = Ok (fresh_view bk [N0; N1; B; C], m') /\ (forall b' a, b' <> bk -> m' b' a = m b' a) /\
     forall i j b c, 0 <= i < N0 -> 0 <= j < N1 -> 0 <= b < B -> 0 <= c < C -> elem m' (fresh_view bk [N0; N1; B; C]) [i; j; b; c] = Some (sum_to A (fun a => corr2 X0 X1 W0 W1 p0 p1 (fun q0 q1 => elem0 m x [q0; q1; a; c]) (fun j0 j1 => elem0 m w [j0; j1; b; a]) i j))).
Proof.
  intros Wx Ww Rx Rw Bx Bw H0 H1. cbn zeta. split; [|split]; intros Ex Ew.
  - unfold convolve2d. destruct (gdim2 x _ _ _ Ex) as [-> ->], (gdim2 w _ _ _ Ew) as [-> ->]. cbn [bind]. unfold ndims. rewrite Ex. nd. fold (out_len X0 W0 pa). fold (out_len X1 W1 pb).
    destruct (conv2_result_ok bk [out_len X0 W0 pa; out_len X1 W1 pb] x w m (fun ix => corr2 X0 X1 W0 W1 (out_pad W0 pa) (out_pad W1 pb) (fun a b => elem0 m x [a; b]) (fun a b => elem0 m w [a; b]) (nth 0 ix 0) (nth 1 ix 0))) as (m' & E & V & U); try assumption.
    + repeat constructor; assumption.
    + intros m0 Rr Rx0 Rw0 Kx Kw Wr Dr Dx Dw Z0. destruct (conv2_2_ok (conv2_lvl (fun _ _ _ m => Ok m)) (fresh_view bk [out_len X0 W0 pa; out_len X1 W1 pb]) x w (out_len X0 W0 pa) (out_len X1 W1 pb) X0 X1 W0 W1 m0) as (m' & E & V & U); try assumption; try reflexivity.
      exists m'. split; [exact E|]. split; [|exact U]. intros ix Hix. apply in_range_2_inv in Hix as (i & j & -> & Hi & Hj). rewrite (V i j Hi Hj). cbn [nth]. rewrite !out_centred. f_equal. apply corr2_ext; auto.
    + exists m'. split; [exact E|]. split; [exact U|]. intros i j Hi Hj. apply (V [i; j]). now apply in_range_2.
  - unfold convolve2d. destruct (gdim2 x _ _ _ Ex) as [-> ->], (gdim2 w _ _ _ Ew) as [-> ->]. cbn [bind]. unfold gdim, ndims. rewrite Ex, Ew. nd. change (zget [W0; W1; B; A] (4 + -2)) with (Ok B). cbn [Z.ltb Z.compare bind]. fold (out_len X0 W0 pa). fold (out_len X1 W1 pb).
    destruct (conv2_result_ok bk [out_len X0 W0 pa; out_len X1 W1 pb; B] x w m (cterm3 X0 X1 W0 W1 (out_pad W0 pa) (out_pad W1 pb) A (elem0 m x) (elem0 m w))) as (m' & E & V & U); try assumption.
    + destruct Ww as [_ Nw]. rewrite Ew in Nw. nonnegs.
    + intros m0 Rr Rx0 Rw0 Kx Kw Wr Dr Dx Dw Z0. destruct (conv2_3_ok (conv2_lvl (fun _ _ _ m => Ok m)) (fresh_view bk [out_len X0 W0 pa; out_len X1 W1 pb; B]) x w (out_len X0 W0 pa) (out_len X1 W1 pb) X0 X1 W0 W1 A B m0) as (m' & E & G); try assumption; try reflexivity.
      exists m'. split; [exact E|]. apply (gains_fresh m0 m' (fresh_view bk [out_len X0 W0 pa; out_len X1 W1 pb; B]) [out_len X0 W0 pa; out_len X1 W1 pb; B] _ _ eq_refl Z0 G). intros ix Hix. rewrite !out_centred. apply (cterm3_ext _ _ _ _ _ _ _ B _ _ _ _ _ _ _ Hix); auto.
    + exists m'. split; [exact E|]. split; [exact U|]. intros i j b Hi Hj Hb. apply (V [i; j; b]). now apply in_range_3.
  - unfold convolve2d. destruct (gdim2 x _ _ _ Ex) as [-> ->], (gdim2 w _ _ _ Ew) as [-> ->]. cbn [bind]. unfold gdim, ndims. rewrite Ex, Ew. nd. change (zget [W0; W1; B; A] (4 + -2)) with (Ok B). change (zget [X0; X1; A; C] 3) with (Ok C). cbn [Z.ltb Z.compare bind]. fold (out_len X0 W0 pa). fold (out_len X1 W1 pb).
    destruct (conv2_result_ok bk [out_len X0 W0 pa; out_len X1 W1 pb; B; C] x w m (cterm4 X0 X1 W0 W1 (out_pad W0 pa) (out_pad W1 pb) A (elem0 m x) (elem0 m w))) as (m' & E & V & U); try assumption.
    + destruct Ww as [_ Nw]. destruct Wx as [_ Nx]. rewrite Ew in Nw. rewrite Ex in Nx. nonnegs.
    + intros m0 Rr Rx0 Rw0 Kx Kw Wr Dr Dx Dw Z0. destruct (conv2_4_ok (conv2_lvl (fun _ _ _ m => Ok m)) (fresh_view bk [out_len X0 W0 pa; out_len X1 W1 pb; B; C]) x w (out_len X0 W0 pa) (out_len X1 W1 pb) X0 X1 W0 W1 A B C m0) as (m' & E & G); try assumption; try reflexivity.
      exists m'. split; [exact E|]. apply (gains_fresh m0 m' (fresh_view bk [out_len X0 W0 pa; out_len X1 W1 pb; B; C]) [out_len X0 W0 pa; out_len X1 W1 pb; B; C] _ _ eq_refl Z0 G). intros ix Hix. rewrite !out_centred. apply (cterm4_ext _ _ _ _ _ _ _ B C _ _ _ _ _ _ _ Hix); auto.
    + exists m'. split; [exact E|]. split; [exact U|]. intros i j b c Hi Hj Hb Hc. apply (V [i; j; b; c]). now apply in_range_4.
Qed.
Print Assumptions C78_convolve2d.
(* on a batch convolve2d makes a result without the batch dimension, so the call always throws *)
Theorem C78_batched_result_refuted (R : cring) bk x w x0 x1 x2 x3 x4 w0 w1 w2 w3 pa pb (m : mem (car R)) : vdims x = [x0; x1; x2; x3; x4] -> vdims w = [w0; w1; w2; w3] -> 0 <= out_len x0 w0 pa -> 0 <= w2 -> 0 <= x4 ->
  convolve2d bk x w pa pb m = Throw.
Proof.
  intros Ex Ew H0 H2 H4. unfold convolve2d. destruct (gdim2 x _ _ _ Ex) as [-> ->], (gdim2 w _ _ _ Ew) as [-> ->]. cbn [bind]. unfold gdim, ndims. rewrite Ex, Ew. nd. change (zget [w0; w1; w2; w3] (4 + -2)) with (Ok w2). change (zget [x0; x1; x2; x3; x4] 4) with (Ok x4). cbn [Z.ltb Z.compare bind]. fold (out_len x0 w0 pa).
  unfold conv2_result. rewrite forallb_nonneg by (repeat constructor; assumption). unfold convolve2, conv2_lvl, ndims. rewrite Ex. reflexivity.
Qed.
Print Assumptions C78_batched_result_refuted.
Lemma distinct_by v : forallb (fun ix => forallb (fun jx => match vaddr v ix, vaddr v jx with Ok a, Ok b => negb ((fst a =? fst b) && (snd a =? snd b)) || (if list_eq_dec Z.eq_dec ix jx then true else false) | _, _ => false end) (all_indices (vdims v))) (all_indices (vdims v)) = true -> distinct_cells v.
Proof.
  intros H ix jx Hi Hj E. rewrite forallb_forall in H. specialize (H ix (proj2 (in_all_indices _ _) Hi)). rewrite forallb_forall in H. specialize (H jx (proj2 (in_all_indices _ _) Hj)).
  rewrite E in H. destruct (vaddr v jx) as [[p q]| |]; try discriminate H. cbn in H. rewrite !Z.eqb_refl in H. cbn in H. now destruct (list_eq_dec Z.eq_dec ix jx).
Qed.
(* a 2 by 3 image stored by columns, a 2 by 2 filter, a result as large as the image *)
Example C78_case : let x := View 0 0 [2; 3] [1; 2] in let w := View 0 6 [2; 2] [2; 1] in let r := View 0 10 [2; 3] [3; 1] in let m := zm [1; 4; 2; 5; 3; 6; 1; 10; 100; 1000; 0; 0; 0; 0; 0; 0] in
  vwf x /\ vwf w /\ vwf r /\ distinct_cells r /\ separate m r x w /\ exists m', convolve2 (R := ZRing) r x w m = Ok m' /\ map (elem m' r) (all_indices [2; 3]) = map Some [5421; 6532; 603; 54; 65; 6] /\
  map (fun ix => corr2 (R := ZRing) 2 3 2 2 (centred 2 2 2) (centred 3 3 2) (fun a b => elem0 (R := ZRing) m x [a; b]) (fun a b => elem0 (R := ZRing) m w [a; b]) (nth 0 ix 0) (nth 1 ix 0)) (all_indices [2; 3]) = [5421; 6532; 603; 54; 65; 6].
Proof.
  cbn zeta. do 3 (split; [split; [reflexivity|repeat constructor; cbn; lia]|]). split; [apply distinct_by; reflexivity|].
  split; [repeat split; (apply readable_by; reflexivity) || (apply disjoint_by; reflexivity)|]. eexists. split; [vm_compute; reflexivity|]. split; vm_compute; reflexivity.
Qed.
(* two images in a batch *)
Example C78_case2 : let x := View 0 0 [2; 2; 2; 1; 1] [4; 2; 1; 1; 1] in let w := View 0 8 [1; 2; 1; 1] [2; 1; 1; 1] in let r := View 0 10 [2; 2; 1; 1; 1] [2; 1; 1; 1; 1] in let m := zm [1; 2; 3; 4; 5; 6; 7; 8; 1; 10; 1000; 1000; 1000; 1000] in
  separate m r x w /\ exists m', convolve2 (R := ZRing) r x w m = Ok m' /\ map (elem m' r) (all_indices [2; 2; 1; 1; 1]) = map Some [1021; 1043; 1065; 1087].
Proof. cbn zeta. split; [repeat split; (apply readable_by; reflexivity) || (apply disjoint_by; reflexivity)|]. eexists. split; [vm_compute; reflexivity|]. vm_compute. reflexivity. Qed.

(* ---- C79 *)
Theorem C79_adjoint (R : cring) N0 N1 X0 X1 W0 W1 p0 p1 (g x w : Z -> Z -> R) :
  sum_grid N0 N1 (fun k0 k1 => cmul (g k0 k1) (corr2 X0 X1 W0 W1 p0 p1 x w k0 k1)) = sum_grid X0 X1 (fun i0 i1 => cmul (x i0 i1) (corr2_dx N0 N1 W0 W1 p0 p1 g w i0 i1)) /\
  sum_grid N0 N1 (fun k0 k1 => cmul (g k0 k1) (corr2 X0 X1 W0 W1 p0 p1 x w k0 k1)) = sum_grid W0 W1 (fun j0 j1 => cmul (w j0 j1) (corr2_dw N0 N1 X0 X1 p0 p1 g x j0 j1)).
Proof. split; [apply adjoint2_x|apply adjoint2_w]. Qed.
Print Assumptions C79_adjoint.
Theorem C79_input_gradient (R : cring) r x w M N0 N1 X0 X1 W0 W1 A B C (m : mem (car R)) : vwf r -> vwf x -> vwf w -> distinct_cells x -> separate m x r w -> matching N0 X0 W0 -> matching N1 X1 W1 ->
  let p0 := centred N0 X0 W0 in let p1 := centred N1 X1 W1 in
  (vdims r = [N0; N1] -> vdims x = [X0; X1] -> vdims w = [W0; W1] -> exists m', conv2_back0 r x w m = Ok m' /\ untouched m m' x /\
     forall i j, 0 <= i < X0 -> 0 <= j < X1 -> elem m' x [i; j] = Some (corr2_dx N0 N1 W0 W1 p0 p1 (fun a b => elem0 m r [a; b]) (fun a b => elem0 m w [a; b]) i j)) /\
  (vdims r = [N0; N1; B] -> vdims x = [X0; X1; A] -> vdims w = [W0; W1; B; A] -> exists m', conv2_back0 r x w m = Ok m' /\ untouched m m' x /\
     forall i j a v, 0 <= i < X0 -> 0 <= j < X1 -> 0 <= a < A -> elem m x [i; j; a] = Some v ->
       elem m' x [i; j; a] = Some (cadd v (sum_to B (fun b => corr2_dx N0 N1 W0 W1 p0 p1 (fun k0 k1 => elem0 m r [k0; k1; b]) (fun j0 j1 => elem0 m w [j0; j1; b; a]) i j)))) /\
  (vdims r = [N0; N1; B; C] -> vdims x = [X0; X1; A; C] -> vdims w = [W0; W1; B; A] -> exists m', conv2_back0 r x w m = Ok m' /\ untouched m m' x /\
     forall i j a c v, 0 <= i < X0 -> 0 <= j < X1 -> 0 <= a < A -> 0 <= c < C -> elem m x [i; j; a; c] = Some v ->
       elem m' x [i; j; a; c] = Some (cadd v (sum_to B (fun b => corr2_dx N0 N1 W0 W1 p0 p1 (fun k0 k1 => elem0 m r [k0; k1; b; c]) (fun j0 j1 => elem0 m w [j0; j1; b; a]) i j)))) /\
  (vdims r = [M; N0; N1; B; C] -> vdims x = [M; X0; X1; A; C] -> vdims w = [W0; W1; B; A] -> exists m', conv2_back0 r x w m = Ok m' /\ untouched m m' x /\
     forall e i j a c v, 0 <= e < M -> 0 <= i < X0 -> 0 <= j < X1 -> 0 <= a < A -> 0 <= c < C -> elem m x [e; i; j; a; c] = Some v ->
       elem m' x [e; i; j; a; c] = Some (cadd v (sum_to B (fun b => corr2_dx N0 N1 W0 W1 p0 p1 (fun k0 k1 => elem0 m r [e; k0; k1; b; c]) (fun j0 j1 => elem0 m w [j0; j1; b; a]) i j)))).
Proof.
  intros Wr Wx Ww Dx (Rx & Rr & Rw & D1 & D2) [H0 H1] [H2 H3]. cbn zeta. rewrite <- (centred_sum N0 X0 W0 H0 H1), <- (centred_sum N1 X1 W1 H2 H3). split; [|split; [|split]]; intros Er Ex Ew.
  - destruct (back0_2d_ok r x w N0 N1 X0 X1 W0 W1 m) as (m' & E & V & U); try assumption. eauto.
  - destruct (back0_3d_ok r x w N0 N1 X0 X1 W0 W1 A B m) as (m' & E & V & U); try assumption. exists m'. split; [exact E|]. split; [exact U|]. intros i j a v Hi Hj Ha. apply (V [i; j; a]). rewrite Ex. now apply in_range_3.
  - destruct (back0_4d_ok r x w N0 N1 X0 X1 W0 W1 A B C m) as (m' & E & V & U); try assumption. exists m'. split; [exact E|]. split; [exact U|]. intros i j a c v Hi Hj Ha Hc. apply (V [i; j; a; c]). rewrite Ex. now apply in_range_4.
  - destruct (back0_5d_ok r x w M N0 N1 X0 X1 W0 W1 A B C m) as (m' & E & V & U); try assumption. exists m'. split; [exact E|]. split; [exact U|]. intros e i j a c v He Hi Hj Ha Hc. apply (V [e; i; j; a; c]). rewrite Ex. apply in_range_cons. split; [exact He|now apply in_range_4].
Qed.
Print Assumptions C79_input_gradient.
Section U.
Context {R : cring}.
Add Ring Rr79 : (cth R).
Lemma unit_eq2 : cadd (cadd (cmul (c1 : R) c0) c0) (cadd (cadd (cmul c0 c1) c0) c0) = cadd (cadd (cmul c1 c1) c0) (cadd (cadd (cmul c0 c0) c0) c0) -> (c1 : R) = c0.
Proof. intro Q. ring_simplify in Q. now symmetry. Qed.
End U.
(* when the sizes do not match along an axis, the gradient is that of a correlation shifted by one along it *)
Definition mismatched (N X W : Z) : Prop := Z.Odd (N - X + W - 1) /\ N <= X + W - 1 /\ X <= N + W - 1.
Theorem C79_input_gradient_shifted_refuted (R : cring) :
  (forall r x w N0 N1 X0 X1 W0 W1 (m : mem (car R)), vwf r -> vwf x -> vwf w -> distinct_cells x -> separate m x r w -> vdims r = [N0; N1] -> vdims x = [X0; X1] -> vdims w = [W0; W1] ->
     mismatched N0 X0 W0 -> matching N1 X1 W1 \/ mismatched N1 X1 W1 -> exists s, (s = 0 \/ s = 1) /\ (s = 1 -> mismatched N1 X1 W1) /\
     exists m', conv2_back0 r x w m = Ok m' /\ forall i j, 0 <= i < X0 -> 0 <= j < X1 -> elem m' x [i; j] = Some (corr2_dx N0 N1 W0 W1 (centred N0 X0 W0 + 1) (centred N1 X1 W1 + s) (fun a b => elem0 m r [a; b]) (fun a b => elem0 m w [a; b]) i j)) /\
  ((c1 : R) <> c0 -> exists r x w (m : mem (car R)), vwf r /\ vwf x /\ vwf w /\ distinct_cells x /\ separate m x r w /\ vdims r = [2; 1] /\ vdims x = [2; 1] /\ vdims w = [2; 1] /\
     exists m', conv2_back0 r x w m = Ok m' /\ elem m' x [0; 0] <> Some (corr2_dx 2 1 2 1 (centred 2 2 2) (centred 1 1 1) (fun a b => elem0 m r [a; b]) (fun a b => elem0 m w [a; b]) 0 0)).
Proof.
  split.
  - intros r x w N0 N1 X0 X1 W0 W1 m Wr Wx Ww Dx (Rx & Rr & Rw & D1 & D2) Er Ex Ew (M1 & M2 & M3) HB. destruct (back0_2d_ok r x w N0 N1 X0 X1 W0 W1 m) as (m' & E & V & U); try assumption. destruct HB as [[H0 H1]|HM].
    + exists 0. split; [now left|]. split; [discriminate|]. exists m'. split; [exact E|]. intros i j Hi Hj. rewrite (V i j Hi Hj). rewrite (centred_short N0 X0 W0 M1 M2 M3), (centred_sum N1 X1 W1 H0 H1). now rewrite Z.add_0_r.
    + exists 1. split; [now right|]. split; [now intros _|]. exists m'. split; [exact E|]. intros i j Hi Hj. rewrite (V i j Hi Hj). destruct HM as (K1 & K2 & K3). now rewrite (centred_short N0 X0 W0 M1 M2 M3), (centred_short N1 X1 W1 K1 K2 K3).
  - intro H. set (m := fun b a => if (b =? 0) && (0 <=? a) then nth_error [c0; c0; c1; c0; c1; c0] (Z.to_nat a) else None : option R).
    exists (View 0 2 [2; 1] [1; 1]), (View 0 0 [2; 1] [1; 1]), (View 0 4 [2; 1] [1; 1]), m.
    assert (Wf : forall o, vwf (View 0 o [2; 1] [1; 1])) by (intro; split; [reflexivity|repeat constructor; cbn; lia]). do 3 (split; [apply Wf|]).
    assert (Dc : distinct_cells (View 0 0 [2; 1] [1; 1])) by (apply (distinct_fresh 0 [2; 1]); repeat constructor; lia). split; [exact Dc|].
    assert (Rd : forall o, o = 0 \/ o = 2 \/ o = 4 -> readable m (View 0 o [2; 1] [1; 1])).
    { intros o Ho ix Hix. apply in_range_2_inv in Hix as (i & j & -> & Hi & Hj). assert (j = 0) as -> by lia. assert (i = 0 \/ i = 1) as [-> | ->] by lia; destruct Ho as [->|[->| ->]]; discriminate. }
    assert (Sp : separate m (View 0 0 [2; 1] [1; 1]) (View 0 2 [2; 1] [1; 1]) (View 0 4 [2; 1] [1; 1])) by (repeat split; auto; apply disjoint_by; reflexivity). split; [exact Sp|]. do 3 (split; [reflexivity|]).
    destruct Sp as (R1 & R2 & R3 & D1 & D2). destruct (back0_2d_ok (View 0 2 [2; 1] [1; 1]) (View 0 0 [2; 1] [1; 1]) (View 0 4 [2; 1] [1; 1]) 2 1 2 1 2 1 m) as (m' & E & V & U); auto. exists m'. split; [exact E|]. rewrite (V 0 0 ltac:(lia) ltac:(lia)).
    change (2 - 1 - centred 2 2 2) with 1. change (centred 2 2 2) with 0. change (1 - 1 - centred 1 1 1) with 0. change (centred 1 1 1) with 0. unfold corr2_dx, sum_grid, sum_to, zpad2, zpad. change (zrange 2) with [0; 1]. change (zrange 1) with [0]. cbn. intro Q. injection Q as Q. apply H. rewrite !rsum_cons, !rsum_nil in Q. clear -Q.
    apply unit_eq2. exact Q.
Qed.
Print Assumptions C79_input_gradient_shifted_refuted.
Theorem C79_filter_gradient (R : cring) r x w M N0 N1 X0 X1 W0 W1 A B C (m : mem (car R)) : vwf r -> vwf x -> vwf w -> distinct_cells w -> separate m w x r ->
  let p0 := centred N0 X0 W0 in let p1 := centred N1 X1 W1 in
  (vdims r = [N0; N1] -> vdims x = [X0; X1] -> vdims w = [W0; W1] -> exists m', conv2_back1 r x w m = Ok m' /\ untouched m m' w /\
     forall i j, 0 <= i < W0 -> 0 <= j < W1 -> elem m' w [i; j] = Some (corr2_dw N0 N1 X0 X1 p0 p1 (fun a b => elem0 m r [a; b]) (fun a b => elem0 m x [a; b]) i j)) /\
  (vdims r = [N0; N1; B] -> vdims x = [X0; X1; A] -> vdims w = [W0; W1; B; A] -> exists m', conv2_back1 r x w m = Ok m' /\ untouched m m' w /\
     forall i j b a v, 0 <= i < W0 -> 0 <= j < W1 -> 0 <= b < B -> 0 <= a < A -> elem m w [i; j; b; a] = Some v ->
       elem m' w [i; j; b; a] = Some (cadd v (corr2_dw N0 N1 X0 X1 p0 p1 (fun k0 k1 => elem0 m r [k0; k1; b]) (fun q0 q1 => elem0 m x [q0; q1; a]) i j))) /\
  (vdims r = [N0; N1; B; C] -> vdims x = [X0; X1; A; C] -> vdims w = [W0; W1; B; A] -> exists m', conv2_back1 r x w m = Ok m' /\ untouched m m' w /\
     forall i j b a v, 0 <= i < W0 -> 0 <= j < W1 -> 0 <= b < B -> 0 <= a < A -> elem m w [i; j; b; a] = Some v ->
       elem m' w [i; j; b; a] = Some (cadd v (sum_to C (fun c => corr2_dw N0 N1 X0 X1 p0 p1 (fun k0 k1 => elem0 m r [k0; k1; b; c]) (fun q0 q1 => elem0 m x [q0; q1; a; c]) i j)))) /\
  (vdims r = [M; N0; N1; B; C] -> vdims x = [M; X0; X1; A; C] -> vdims w = [W0; W1; B; A] -> exists m', conv2_back1 r x w m = Ok m' /\ untouched m m' w /\
     forall i j b a v, 0 <= i < W0 -> 0 <= j < W1 -> 0 <= b < B -> 0 <= a < A -> elem m w [i; j; b; a] = Some v ->
       elem m' w [i; j; b; a] = Some (cadd v (sum_to M (fun e => sum_to C (fun c => corr2_dw N0 N1 X0 X1 p0 p1 (fun k0 k1 => elem0 m r [e; k0; k1; b; c]) (fun q0 q1 => elem0 m x [e; q0; q1; a; c]) i j))))).
Proof.
  intros Wr Wx Ww Dw (Rw & Rx & Rr & D1 & D2). cbn zeta. split; [|split; [|split]]; intros Er Ex Ew.
  - destruct (back1_2d_ok r x w N0 N1 X0 X1 W0 W1 m) as (m' & E & V & U); try assumption. eauto.
  - destruct (back1_3d_ok r x w N0 N1 X0 X1 W0 W1 A B m) as (m' & E & V & U); try assumption. exists m'. split; [exact E|]. split; [exact U|]. intros i j b a v Hi Hj Hb Ha. apply (V [i; j; b; a]). rewrite Ew. now apply in_range_4.
  - destruct (back1_4d_gains (back1_2lvl (fun _ _ _ m => Ok m)) r x w N0 N1 X0 X1 W0 W1 A B C m) as (m' & E & V & U); try assumption. exists m'. split; [exact E|]. split; [exact U|]. intros i j b a v Hi Hj Hb Ha. apply (V [i; j; b; a]). rewrite Ew. now apply in_range_4.
  - destruct (back1_5d_ok r x w M N0 N1 X0 X1 W0 W1 A B C m) as (m' & E & V & U); try assumption. exists m'. split; [exact E|]. split; [exact U|]. intros i j b a v Hi Hj Hb Ha. apply (V [i; j; b; a]). rewrite Ew. now apply in_range_4.
Qed.
Print Assumptions C79_filter_gradient.
Example C79_case : let x := View 0 0 [2; 2] [2; 1] in let w := View 0 4 [1; 3] [3; 1] in let r := View 0 7 [2; 2] [2; 1] in let m := zm [9; 9; 9; 9; 1; 10; 100; 1; 2; 3; 4] in let m2 := zm [1; 2; 3; 4; 9; 9; 9; 1; 2; 3; 4] in
  matching 2 2 1 /\ matching 2 2 3 /\ separate m x r w /\ separate m2 w x r /\
  (exists m', conv2_back0 (R := ZRing) r x w m = Ok m' /\ map (elem m' x) (all_indices [2; 2]) = map Some [12; 120; 34; 340]) /\
  exists m', conv2_back1 (R := ZRing) r x w m2 = Ok m' /\ map (elem m' w) (all_indices [1; 3]) = map Some [14; 30; 14].
Proof.
  cbn zeta. split; [split; [lia|left; now exists 0]|]. split; [split; [lia|left; now exists 1]|]. split; [repeat split; (apply readable_by; reflexivity) || (apply disjoint_by; reflexivity)|].
  split; [repeat split; (apply readable_by; reflexivity) || (apply disjoint_by; reflexivity)|].
  split; eexists; (split; [vm_compute; reflexivity|]); vm_compute; reflexivity.
Qed.
