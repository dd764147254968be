(* Proofs_RView2.v -- products and sums of the fixed-rank views; derived views. *)
From Verif Require Import Base BaseFacts Model_Index Model_View Model_Tensor Model_Ops Model_RView Spec_Index Spec_View Spec_Tensor Spec_RView
  Proofs_Axes Proofs_Index Proofs_View Proofs_Tensor Proofs_Tensor2 Proofs_Tensor3 Proofs_Convolve2 Proofs_Ops2 Proofs_Ops3 Proofs_RView.
Local Open Scope Z_scope.

Lemma vaddr1 v i n0 : vwf v -> vdims v = [n0] -> vaddr v [i] = Ok (vblk v, voff v + i * sd v 0).
Proof. intros W D. unfold vaddr. rewrite (str1 v n0 W D). cbn. do 2 f_equal. lia. Qed.
Lemma vaddr2 v i j n0 n1 : vwf v -> vdims v = [n0; n1] -> vaddr v [i; j] = Ok (vblk v, voff v + i * sd v 0 + j * sd v 1).
Proof. intros W D. unfold vaddr. rewrite (str2 v n0 n1 W D). cbn. do 2 f_equal. lia. Qed.
Lemma vaddr3 v i j k n0 n1 n2 : vwf v -> vdims v = [n0; n1; n2] -> vaddr v [i; j; k] = Ok (vblk v, voff v + i * sd v 0 + j * sd v 1 + k * sd v 2).
Proof. intros W D. unfold vaddr. rewrite (str3 v n0 n1 n2 W D). cbn. do 2 f_equal. lia. Qed.
Lemma pos1 v n0 : vwf v -> vdims v = [n0] -> 0 <= n0.
Proof. intros [_ N] D. rewrite D in N. now inversion N. Qed.
Lemma pos2 v n0 n1 : vwf v -> vdims v = [n0; n1] -> 0 <= n0 /\ 0 <= n1.
Proof. intros [_ N] D. rewrite D in N. inversion N as [|? ? H1 H2]; subst. inversion H2; subst. auto. Qed.
Lemma pos3 v n0 n1 n2 : vwf v -> vdims v = [n0; n1; n2] -> 0 <= n0 /\ 0 <= n1 /\ 0 <= n2.
Proof. intros [_ N] D. rewrite D in N. inversion N as [|? ? H1 H2]; subst. inversion H2 as [|? ? H3 H4]; subst. inversion H4; subst. auto. Qed.

(* ---- derived views ---- *)
Section Derived.
Variable v : view.
Ltac shape2 := match goal with H : in_range ?ix _ |- _ => apply in_range_2_inv in H as (i & j & -> & Hi & Hj) end.
Ltac shape1 := match goal with H : in_range ?ix _ |- _ => apply in_range_1_inv in H as (i & -> & Hi) end.
Ltac shape3 := match goal with H : in_range ?ix _ |- _ => apply in_range_3_inv in H as (i & j & k & -> & Hi & Hj & Hk) end.
Ltac addr := unfold vaddr; cbn -[Z.mul Z.add]; do 2 f_equal; lia.

Lemma block1_shows n0 i0 m0 : vwf v -> vdims v = [n0] -> 0 <= i0 -> 0 <= m0 -> i0 + m0 <= n0 ->
  vwf (rv1_block v i0 m0) /\ vdims (rv1_block v i0 m0) = [m0] /\ shows (rv1_block v i0 m0) v (fun ix => [i0 + nth 0 ix 0]).
Proof.
  intros W D H1 H2 H3. split; [split; [reflexivity|repeat constructor; assumption]|]. split; [reflexivity|]. intros ix Hix. cbn in Hix. shape1.
  cbn [nth]. split; [rewrite D; repeat constructor; lia|]. rewrite (vaddr1 v _ n0 W D). addr.
Qed.
Lemma block2_shows n0 n1 i0 i1 m0 m1 : vwf v -> vdims v = [n0; n1] -> 0 <= i0 -> 0 <= i1 -> i0 <= n0 -> i1 <= n1 -> (0 <= m0 -> i0 + m0 <= n0) -> (0 <= m1 -> i1 + m1 <= n1) ->
  vwf (rv2_block v i0 i1 m0 m1) /\ vdims (rv2_block v i0 i1 m0 m1) = [if m0 <? 0 then n0 - i0 else m0; if m1 <? 0 then n1 - i1 else m1] /\
  shows (rv2_block v i0 i1 m0 m1) v (fun ix => [i0 + nth 0 ix 0; i1 + nth 1 ix 0]).
Proof.
  intros W D H1 H2 H3 H4 H5 H6.
  assert (Dd : vdims (rv2_block v i0 i1 m0 m1) = [if m0 <? 0 then n0 - i0 else m0; if m1 <? 0 then n1 - i1 else m1]) by (cbn; rewrite !(nd_eq v _ _ D); reflexivity).
  split; [split; [reflexivity|rewrite Dd; destruct (m0 <? 0) eqn:?, (m1 <? 0) eqn:?; repeat constructor; lia]|]. split; [exact Dd|].
  intros ix Hix. rewrite Dd in Hix. shape2. cbn [nth].
  split; [rewrite D; destruct (m0 <? 0) eqn:?, (m1 <? 0) eqn:?; repeat constructor; lia|]. rewrite (vaddr2 v _ _ n0 n1 W D). addr.
Qed.
Lemma cols_rows_shows n0 n1 i k : vwf v -> vdims v = [n0; n1] ->
  (0 <= i <= n1 -> (0 <= k -> i + k <= n1) -> vwf (rv2_cols v i k) /\ vdims (rv2_cols v i k) = [n0; if k <? 0 then n1 - i else k] /\
     shows (rv2_cols v i k) v (fun ix => [nth 0 ix 0; i + nth 1 ix 0])) /\
  (0 <= i -> 0 <= k -> i + k <= n0 -> vwf (rv2_rows v i k) /\ vdims (rv2_rows v i k) = [k; n1] /\
     shows (rv2_rows v i k) v (fun ix => [i + nth 0 ix 0; nth 1 ix 0])).
Proof.
  intros W D. pose proof (pos2 v n0 n1 W D) as [P0 P1]. split.
  - intros H1 H2.
    assert (Dd : vdims (rv2_cols v i k) = [n0; if k <? 0 then n1 - i else k]) by (cbn; rewrite !(nd_eq v _ _ D); reflexivity).
    split; [split; [reflexivity|rewrite Dd; destruct (k <? 0) eqn:?; repeat constructor; lia]|]. split; [exact Dd|].
    intros ix Hix. rewrite Dd in Hix. apply in_range_2_inv in Hix as (a & b & -> & Ha & Hb). cbn [nth].
    split; [rewrite D; destruct (k <? 0) eqn:?; repeat constructor; lia|]. rewrite (vaddr2 v _ _ n0 n1 W D). addr.
  - intros H1 H2 H3.
    assert (Dd : vdims (rv2_rows v i k) = [k; n1]) by (cbn; rewrite !(nd_eq v _ _ D); reflexivity).
    split; [split; [reflexivity|rewrite Dd; repeat constructor; lia]|]. split; [exact Dd|].
    intros ix Hix. rewrite Dd in Hix. apply in_range_2_inv in Hix as (a & b & -> & Ha & Hb). cbn [nth].
    split; [rewrite D; repeat constructor; lia|]. rewrite (vaddr2 v _ _ n0 n1 W D). addr.
Qed.
Lemma transp_shows n0 n1 : vwf v -> vdims v = [n0; n1] ->
  vwf (rv2_transp v) /\ vdims (rv2_transp v) = [n1; n0] /\ shows (rv2_transp v) v (fun ix => [nth 1 ix 0; nth 0 ix 0]).
Proof.
  intros W D. pose proof (pos2 v n0 n1 W D) as [P0 P1].
  assert (Dd : vdims (rv2_transp v) = [n1; n0]) by (cbn; rewrite !(nd_eq v _ _ D); reflexivity).
  split; [split; [reflexivity|rewrite Dd; repeat constructor; lia]|]. split; [exact Dd|].
  intros ix Hix. rewrite Dd in Hix. shape2. cbn [nth]. split; [rewrite D; repeat constructor; lia|]. rewrite (vaddr2 v _ _ n0 n1 W D). addr.
Qed.
Lemma slices2_shows n0 n1 : vwf v -> vdims v = [n0; n1] ->
  (forall p, 0 <= p < n0 -> vwf (rv2_slice0 v p) /\ vdims (rv2_slice0 v p) = [n1] /\ shows (rv2_slice0 v p) v (fun ix => p :: ix)) /\
  (forall p, 0 <= p < n1 -> vwf (rv2_slice1 v p) /\ vdims (rv2_slice1 v p) = [n0] /\ shows (rv2_slice1 v p) v (fun ix => ix ++ [p])).
Proof.
  intros W D. pose proof (pos2 v n0 n1 W D) as [P0 P1]. split; intros p Hp.
  - assert (Dd : vdims (rv2_slice0 v p) = [n1]) by (cbn; rewrite !(nd_eq v _ _ D); reflexivity).
    split; [split; [reflexivity|rewrite Dd; repeat constructor; lia]|]. split; [exact Dd|].
    intros ix Hix. rewrite Dd in Hix. shape1. split; [rewrite D; repeat constructor; lia|]. rewrite (vaddr2 v _ _ n0 n1 W D). addr.
  - assert (Dd : vdims (rv2_slice1 v p) = [n0]) by (cbn; rewrite !(nd_eq v _ _ D); reflexivity).
    split; [split; [reflexivity|rewrite Dd; repeat constructor; lia]|]. split; [exact Dd|].
    intros ix Hix. rewrite Dd in Hix. shape1. cbn [app]. split; [rewrite D; repeat constructor; lia|]. rewrite (vaddr2 v _ _ n0 n1 W D). addr.
Qed.
Lemma diag2_shows n : vwf v -> vdims v = [n; n] -> exists w, rv2_diag v = Ok w /\ vwf w /\ vdims w = [n] /\ shows w v (fun ix => [nth 0 ix 0; nth 0 ix 0]).
Proof.
  intros W D. pose proof (pos2 v n n W D) as [P0 P1]. unfold rv2_diag. rewrite !(nd_eq v _ _ D). cbn [nth]. rewrite Z.eqb_refl. cbn [assrt]. eexists. split; [reflexivity|].
  split; [split; [reflexivity|repeat constructor; lia]|]. split; [reflexivity|]. intros ix Hix. cbn in Hix. shape1. cbn [nth]. split; [rewrite D; repeat constructor; lia|]. rewrite (vaddr2 v _ _ n n W D). addr.
Qed.
(* fuse01 of a matrix: right when the rows follow each other *)
Lemma fuse2_shows n0 n1 : vwf v -> vdims v = [n0; n1] -> sd v 0 = n1 * sd v 1 ->
  vwf (rv2_fuse01 v) /\ vdims (rv2_fuse01 v) = [n0 * n1] /\ shows (rv2_fuse01 v) v (fun ix => [nth 0 ix 0 / n1; nth 0 ix 0 mod n1]).
Proof.
  intros W D Hs. pose proof (pos2 v n0 n1 W D) as [P0 P1].
  assert (Dd : vdims (rv2_fuse01 v) = [n0 * n1]) by (cbn; rewrite !(nd_eq v _ _ D); reflexivity).
  split; [split; [reflexivity|rewrite Dd; repeat constructor; nia]|]. split; [exact Dd|].
  intros ix Hix. rewrite Dd in Hix. shape1. cbn [nth]. assert (0 < n1) by nia.
  pose proof (Z.div_mod i n1 ltac:(lia)). pose proof (Z.mod_pos_bound i n1 ltac:(lia)).
  split; [rewrite D; repeat constructor; try lia; [apply Z.div_pos; lia|apply Z.div_lt_upper_bound; nia]|].
  rewrite (vaddr2 v _ _ n0 n1 W D). unfold vaddr. cbn -[Z.mul Z.add Z.div Z.modulo]. rewrite Hs. do 2 f_equal.
  transitivity (voff v + (n1 * (i / n1) + i mod n1) * sd v 1); [rewrite <- H0; lia|nia].
Qed.

(* rank 3 *)
Lemma slices3_shows n0 n1 n2 : vwf v -> vdims v = [n0; n1; n2] ->
  (forall p, 0 <= p < n0 -> vwf (rv3_slice0 v p) /\ vdims (rv3_slice0 v p) = [n1; n2] /\ shows (rv3_slice0 v p) v (fun ix => p :: ix)) /\
  (forall p, 0 <= p < n1 -> vwf (rv3_slice1 v p) /\ vdims (rv3_slice1 v p) = [n0; n2] /\ shows (rv3_slice1 v p) v (fun ix => [nth 0 ix 0; p; nth 1 ix 0])) /\
  (forall p, 0 <= p < n2 -> vwf (rv3_slice2 v p) /\ vdims (rv3_slice2 v p) = [n0; n1] /\ shows (rv3_slice2 v p) v (fun ix => ix ++ [p])).
Proof.
  intros W D. pose proof (pos3 v n0 n1 n2 W D) as (P0 & P1 & P2). split; [|split]; intros p Hp.
  - assert (Dd : vdims (rv3_slice0 v p) = [n1; n2]) by (cbn; rewrite !(nd_eq v _ _ D); reflexivity).
    split; [split; [reflexivity|rewrite Dd; repeat constructor; lia]|]. split; [exact Dd|].
    intros ix Hix. rewrite Dd in Hix. shape2. split; [rewrite D; repeat constructor; lia|]. rewrite (vaddr3 v _ _ _ n0 n1 n2 W D). addr.
  - assert (Dd : vdims (rv3_slice1 v p) = [n0; n2]) by (cbn; rewrite !(nd_eq v _ _ D); reflexivity).
    split; [split; [reflexivity|rewrite Dd; repeat constructor; lia]|]. split; [exact Dd|].
    intros ix Hix. rewrite Dd in Hix. shape2. cbn [nth]. split; [rewrite D; repeat constructor; lia|]. rewrite (vaddr3 v _ _ _ n0 n1 n2 W D). addr.
  - assert (Dd : vdims (rv3_slice2 v p) = [n0; n1]) by (cbn; rewrite !(nd_eq v _ _ D); reflexivity).
    split; [split; [reflexivity|rewrite Dd; repeat constructor; lia]|]. split; [exact Dd|].
    intros ix Hix. rewrite Dd in Hix. shape2. cbn [app]. split; [rewrite D; repeat constructor; lia|]. rewrite (vaddr3 v _ _ _ n0 n1 n2 W D). addr.
Qed.
Lemma transp01_shows n0 n1 n2 : vwf v -> vdims v = [n0; n1; n2] ->
  vwf (rv3_transp01 v) /\ vdims (rv3_transp01 v) = [n1; n0; n2] /\ shows (rv3_transp01 v) v (fun ix => [nth 1 ix 0; nth 0 ix 0; nth 2 ix 0]).
Proof.
  intros W D. pose proof (pos3 v n0 n1 n2 W D) as (P0 & P1 & P2).
  assert (Dd : vdims (rv3_transp01 v) = [n1; n0; n2]) by (cbn; rewrite !(nd_eq v _ _ D); reflexivity).
  split; [split; [reflexivity|rewrite Dd; repeat constructor; lia]|]. split; [exact Dd|].
  intros ix Hix. rewrite Dd in Hix. shape3. cbn [nth]. split; [rewrite D; repeat constructor; lia|]. rewrite (vaddr3 v _ _ _ n0 n1 n2 W D). addr.
Qed.
Lemma diag3_shows n0 n1 n2 : vwf v -> vdims v = [n0; n1; n2] ->
  (n0 = n1 -> exists w, rv3_diag01 v = Ok w /\ vwf w /\ vdims w = [n0; n2] /\ shows w v (fun ix => [nth 0 ix 0; nth 0 ix 0; nth 1 ix 0])) /\
  (n0 = n2 -> exists w, rv3_diag02 v = Ok w /\ vwf w /\ vdims w = [n0; n1] /\ shows w v (fun ix => [nth 0 ix 0; nth 1 ix 0; nth 0 ix 0])) /\
  (n1 = n2 -> exists w, rv3_diag12 v = Ok w /\ vwf w /\ vdims w = [n0; n1] /\ shows w v (fun ix => [nth 0 ix 0; nth 1 ix 0; nth 1 ix 0])).
Proof.
  intros W D. pose proof (pos3 v n0 n1 n2 W D) as (P0 & P1 & P2). unfold rv3_diag01, rv3_diag02, rv3_diag12. rewrite !(nd_eq v _ _ D). cbn [nth].
  split; [|split]; intros En; rewrite (proj2 (Z.eqb_eq _ _) En); cbn [assrt]; (eexists; split; [reflexivity|]);
    (split; [split; [reflexivity|repeat constructor; lia]|]); (split; [reflexivity|]); intros ix Hix; cbn in Hix; shape2; cbn [nth];
    (split; [rewrite D; repeat constructor; lia|]); rewrite (vaddr3 v _ _ _ n0 n1 n2 W D); addr.
Qed.
Lemma fuse3_shows n0 n1 n2 : vwf v -> vdims v = [n0; n1; n2] -> reg3 v = true ->
  (exists w, rv3_fuse01 v = Ok w /\ w = View (vblk v) (voff v) [n0 * n1; n2] [n2; 1] /\ vwf w /\ shows w v (fun ix => [nth 0 ix 0 / n1; nth 0 ix 0 mod n1; nth 1 ix 0])) /\
  (exists w, rv3_fuse12 v = Ok w /\ w = View (vblk v) (voff v) [n0; n1 * n2] [n1 * n2; 1] /\ vwf w /\ shows w v (fun ix => [nth 0 ix 0; nth 1 ix 0 / n2; nth 1 ix 0 mod n2])).
Proof.
  intros W D Hr. pose proof (pos3 v n0 n1 n2 W D) as (P0 & P1 & P2). unfold rv3_fuse01, rv3_fuse12. rewrite Hr. cbn [assrt].
  unfold reg3 in Hr. rewrite !(nd_eq v _ _ D) in Hr. cbn [nth] in Hr. apply andb_true_iff in Hr as [Hr E3]. apply andb_true_iff in Hr as [E1 E2]. apply Z.eqb_eq in E1, E2, E3.
  rewrite !(nd_eq v _ _ D). cbn [nth]. rewrite E3, E2, E1. split; (eexists; split; [reflexivity|]); (split; [reflexivity|]);
    (split; [split; [reflexivity|repeat constructor; nia]|]); intros ix Hix; cbn [vdims] in Hix; shape2; cbn [nth].
  - assert (0 < n1) by nia. pose proof (Z.div_mod i n1 ltac:(lia)) as Q. pose proof (Z.mod_pos_bound i n1 ltac:(lia)).
    split; [rewrite D; repeat constructor; try lia; [apply Z.div_pos; lia|apply Z.div_lt_upper_bound; nia]|].
    rewrite (vaddr3 v _ _ _ n0 n1 n2 W D), E3, E2, E1. unfold vaddr. cbn -[Z.mul Z.add Z.div Z.modulo]. do 2 f_equal.
    transitivity (voff v + n2 * (n1 * (i / n1) + i mod n1) + j); [rewrite <- Q; lia|nia].
  - assert (0 < n2) by nia. pose proof (Z.div_mod j n2 ltac:(lia)) as Q. pose proof (Z.mod_pos_bound j n2 ltac:(lia)).
    split; [rewrite D; repeat constructor; try lia; [apply Z.div_pos; lia|apply Z.div_lt_upper_bound; nia]|].
    rewrite (vaddr3 v _ _ _ n0 n1 n2 W D), E3, E2, E1. unfold vaddr. cbn -[Z.mul Z.add Z.div Z.modulo]. do 2 f_equal. nia.
Qed.
Lemma block3_shows n0 n1 n2 i0 i1 i2 m0 m1 m2 : vwf v -> vdims v = [n0; n1; n2] -> 0 <= i0 <= n0 -> 0 <= i1 <= n1 -> 0 <= i2 <= n2 ->
  (m0 = -1 \/ 0 <= m0 /\ i0 + m0 <= n0) -> (m1 = -1 \/ 0 <= m1 /\ i1 + m1 <= n1) -> (m2 = -1 \/ 0 <= m2 /\ i2 + m2 <= n2) ->
  vwf (rv3_block v i0 i1 i2 m0 m1 m2) /\
  vdims (rv3_block v i0 i1 i2 m0 m1 m2) = [if m0 =? -1 then n0 - i0 else m0; if m1 =? -1 then n1 - i1 else m1; if m2 =? -1 then n2 - i2 else m2] /\
  shows (rv3_block v i0 i1 i2 m0 m1 m2) v (fun ix => [i0 + nth 0 ix 0; i1 + nth 1 ix 0; i2 + nth 2 ix 0]).
Proof.
  intros W D B0 B1 B2 H0 H1 H2.
  assert (Dd : vdims (rv3_block v i0 i1 i2 m0 m1 m2) = [if m0 =? -1 then n0 - i0 else m0; if m1 =? -1 then n1 - i1 else m1; if m2 =? -1 then n2 - i2 else m2]) by (cbn; rewrite !(nd_eq v _ _ D); reflexivity).
  split; [split; [reflexivity|rewrite Dd; destruct (m0 =? -1) eqn:?, (m1 =? -1) eqn:?, (m2 =? -1) eqn:?; repeat constructor; lia]|]. split; [exact Dd|].
  intros ix Hix. rewrite Dd in Hix. shape3. cbn [nth].
  split; [rewrite D; destruct (m0 =? -1) eqn:?, (m1 =? -1) eqn:?, (m2 =? -1) eqn:?; repeat constructor; lia|]. rewrite (vaddr3 v _ _ _ n0 n1 n2 W D). addr.
Qed.
Lemma split_shows n0 n1 p q : vwf v -> vdims v = [n0; n1] -> 0 <= p -> 0 <= q ->
  (p * q = n0 -> exists w, rv_split0 v p q = Ok w /\ vwf w /\ vdims w = [p; q; n1] /\ shows w v (fun ix => [nth 0 ix 0 * q + nth 1 ix 0; nth 2 ix 0])) /\
  (p * q = n1 -> exists w, rv_split1 v p q = Ok w /\ vwf w /\ vdims w = [n0; p; q] /\ shows w v (fun ix => [nth 0 ix 0; nth 1 ix 0 * q + nth 2 ix 0])).
Proof.
  intros W D Hp Hq. pose proof (pos2 v n0 n1 W D) as [P0 P1]. unfold rv_split0, rv_split1. rewrite !(nd_eq v _ _ D). cbn [nth].
  split; intros En; rewrite (proj2 (Z.eqb_eq _ _) En); cbn [assrt]; (eexists; split; [reflexivity|]);
    (split; [split; [reflexivity|repeat constructor; lia]|]); (split; [reflexivity|]); intros ix Hix; cbn [vdims] in Hix; shape3; cbn [nth];
    (split; [rewrite D; repeat constructor; nia|]); rewrite (vaddr2 v _ _ n0 n1 W D); addr.
Qed.
Lemma repeat_shows n0 n1 n : vwf v -> vdims v = [n0; n1] -> 0 <= n ->
  (vwf (rv_repeat0 v n) /\ vdims (rv_repeat0 v n) = [n; n0; n1] /\ shows (rv_repeat0 v n) v (fun ix => [nth 1 ix 0; nth 2 ix 0])) /\
  (vwf (rv_repeat1 v n) /\ vdims (rv_repeat1 v n) = [n0; n; n1] /\ shows (rv_repeat1 v n) v (fun ix => [nth 0 ix 0; nth 2 ix 0])) /\
  (vwf (rv_repeat2 v n) /\ vdims (rv_repeat2 v n) = [n0; n1; n] /\ shows (rv_repeat2 v n) v (fun ix => [nth 0 ix 0; nth 1 ix 0])).
Proof.
  intros W D Hn. pose proof (pos2 v n0 n1 W D) as [P0 P1]. unfold rv_repeat0, rv_repeat1, rv_repeat2. rewrite !(nd_eq v _ _ D). cbn [nth].
  split; [|split]; (split; [split; [reflexivity|repeat constructor; lia]|]); (split; [reflexivity|]); intros ix Hix; cbn [vdims] in Hix; shape3; cbn [nth];
    (split; [rewrite D; repeat constructor; lia|]); rewrite (vaddr2 v _ _ n0 n1 W D); addr.
Qed.
End Derived.
