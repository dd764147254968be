(* Proofs_CuMixLast.v -- lemmas on products along the last axis on a device. *)
From Verif Require Import Base BaseFacts Model_Index Model_View Model_Tensor Model_Ops Model_RView Model_CView Model_HView Model_Cuda Model_CuConv Model_CuBlas Model_CuComplex Model_CuMixLast
  Spec_Index Spec_View Spec_Tensor Spec_Cuda Spec_RView Spec_HView Proofs_Index Proofs_View Proofs_Tensor Proofs_Tensor3 Proofs_Convolve2 Proofs_Ops3 Proofs_RView3 Proofs_RView6 Proofs_CView4 Proofs_HView Proofs_Cuda Proofs_CuComplex.
Local Open Scope Z_scope.

Lemma unfused_inj q p ds ix jx : in_range ix (p * q :: ds) -> in_range jx (p * q :: ds) -> unfused 0 q ix = unfused 0 q jx -> ix = jx.
Proof.
  intros I J E. inversion I as [|i ? it ? Hi _]; inversion J as [|j ? jt ? Hj _]; subst. unfold unfused in E. cbn [firstn nth skipn app] in E. injection E as E1 E2 E3. subst jt. f_equal.
  assert (q <> 0) by nia. pose proof (Z.div_mod i q ltac:(lia)). pose proof (Z.div_mod j q ltac:(lia)). nia.
Qed.
Section S.
Context {R : cring}.
Notation memR := (mem (car R)).
Lemma fuse_operands r x y (m : memR) : operands r [x; y] m -> (1 < length (vdims r))%nat -> (1 < length (vdims x))%nat -> joined r 0 -> joined x 0 -> operands (hv_fuse 0 r) [hv_fuse 0 x; y] m.
Proof.
  intros O Lr Lx Jr Jx. pose proof O as (Wr & _ & _ & F). inversion F as [|? ? (Wx & _ & _) _]; subst.
  destruct (fuse_shows 0 r Wr Lr Jr) as (W1 & D1 & S1 & _). destruct (fuse_shows 0 x Wx Lx Jx) as (W2 & D2 & S2 & _).
  eapply operands_through; try eassumption. intros ix jx I J E. rewrite D1 in I, J. cbn [firstn app] in I, J. exact (unfused_inj _ _ _ ix jx I J E).
Qed.
Lemma fuse_gains r (g : list Z -> R) (m m' : memR) : vwf r -> (1 < length (vdims r))%nat -> joined r 0 -> gains (hv_fuse 0 r) g m m' -> gains r (fun ix => g (fused 0 (nth 1 (vdims r) 0) ix)) m m'.
Proof.
  intros W L J [G U]. destruct (fuse_shows 0 r W L J) as (W1 & D1 & S1 & B). split; [|eapply sub_untouched; eassumption].
  intros ix v I E. destruct (B ix I) as [I' E']. specialize (G (fused 0 (nth 1 (vdims r) 0) ix) v I').
  rewrite !(window_elem _ _ r _ S1 _ I'), E' in G. now apply G.
Qed.
Lemma fuse_elem0 x (m : memR) i j ix : vwf x -> (1 < length (vdims x))%nat -> joined x 0 -> in_range (i :: j :: ix) (vdims x) -> elem0 m (hv_fuse 0 x) (i * nth 1 (vdims x) 0 + j :: ix) = elem0 m x (i :: j :: ix).
Proof.
  intros W L J I. destruct (fuse_shows 0 x W L J) as (W1 & D1 & S1 & B). destruct (B _ I) as [I' E']. rewrite <- E'. rewrite <- (shows_elem0 m _ x _ _ S1 I'). reflexivity.
Qed.
End S.

Lemma str3 v (a b c : Z) : vwf v -> vdims v = [a; b; c] -> exists s t u, vstr v = [s; t; u].
Proof. intros [L _] D. rewrite D in L. destruct (vstr v) as [|s [|t [|u [|? ?]]]]; try discriminate L. now exists s, t, u. Qed.
Lemma cm3_hv v a b c s t u : vdims v = [a; b; c] -> vstr v = [s; t; u] -> cm3_fuse01 v = hv_fuse 0 v.
Proof. intros D T. unfold cm3_fuse01, hv_fuse, nd, sd. rewrite D, T. reflexivity. Qed.
Lemma cm4_hv v a b c d s t u w : vdims v = [a; b; c; d] -> vstr v = [s; t; u; w] -> cm4_fuse01 v = hv_fuse 0 v.
Proof. intros D T. unfold cm4_fuse01, hv_fuse, nd, sd. rewrite D, T. reflexivity. Qed.

Section T.
Context {R : cring}.
Notation memC := (mem (car (CxRing R))).
Lemma cmix2_dev r x y (m : memC) a b n c : operands r [x; y] m -> vdims r = [a; b; c] -> vstr r = [b * c; c; 1] -> vdims x = [a; b; n] -> vstr x = [b * n; n; 1] -> 1 <= n -> 1 <= c ->
  (vdims y = [n; c] -> vstr y = [c; 1] -> exists plan, cu_cmix_2_0 r x y = Ok plan /\ forall order, Permutation order plan -> exists m', cu_exec (f_cgemm false false) [order] m = Ok m' /\
    gains r (fun ix => rsum (map (fun k => cmul (elem0 m x [nth 0 ix 0; nth 1 ix 0; k]) (elem0 m y [k; nth 2 ix 0])) (zrange n))) m m') /\
  (vdims y = [c; n] -> vstr y = [n; 1] -> exists plan, cu_cmix_2_H r x y = Ok plan /\ forall order, Permutation order plan -> exists m', cu_exec (f_cgemm true false) [order] m = Ok m' /\
    gains r (fun ix => rsum (map (fun k => cmul (elem0 m x [nth 0 ix 0; nth 1 ix 0; k]) (conj (elem0 m y [nth 2 ix 0; k]))) (zrange n))) m m').
Proof.
  intros O Dr Tr Dx Tx Hn Hc. pose proof O as (Wr & _ & _ & F). inversion F as [|? ? (Wx & _ & _) _]; subst.
  assert (Jr : joined r 0) by (unfold joined; rewrite Dr, Tr; reflexivity). assert (Jx : joined x 0) by (unfold joined; rewrite Dx, Tx; reflexivity).
  assert (Lr : (1 < length (vdims r))%nat) by (rewrite Dr; cbn; lia). assert (Lx : (1 < length (vdims x))%nat) by (rewrite Dx; cbn; lia).
  pose proof (fuse_operands r x y m O Lr Lx Jr Jx) as O'. pose proof (cm3_hv r _ _ _ _ _ _ Dr Tr) as Er. pose proof (cm3_hv x _ _ _ _ _ _ Dx Tx) as Ex.
  assert (D1 : vdims (cm3_fuse01 r) = [a * b; c] /\ vstr (cm3_fuse01 r) = [c; 1]) by (unfold cm3_fuse01, nd, sd; rewrite Dr, Tr; split; reflexivity).
  assert (D2 : vdims (cm3_fuse01 x) = [a * b; n] /\ vstr (cm3_fuse01 x) = [n; 1]) by (unfold cm3_fuse01, nd, sd; rewrite Dx, Tx; split; reflexivity).
  assert (El : forall ix k, in_range ix [a; b; c] -> In k (zrange n) -> elem0 m (cm3_fuse01 x) [nth 0 (fused 0 b ix) 0; k] = elem0 m x [nth 0 ix 0; nth 1 ix 0; k]).
  { intros ix k I K. apply in_range_3_inv in I as (i & j & l & -> & Hi & Hj & Hl). apply in_zrange in K. rewrite Ex. unfold fused. cbn [firstn app nth].
    pose proof (fuse_elem0 x m i j [k] Wx Lx Jx) as Q. rewrite Dx in Q. cbn [nth] in Q. apply Q. now apply in3. }
  rewrite <- Er, <- Ex in O'. destruct D1 as [D1 T1]. destruct D2 as [D2 T2]. split; intros Dy Ty.
  - destruct (cAA_ok _ _ y m (a * b) n c O' D1 T1 D2 T2 Dy Ty Hn Hc) as (plan & E & P). exists plan. split; [exact E|]. intros order Ho. destruct (P order Ho) as (m' & E' & G). exists m'. split; [exact E'|].
    rewrite Er in G. apply fuse_gains in G; try assumption. revert G. apply gains_ext. rewrite Dr. intros ix I. cbn [nth]. f_equal. apply map_ext_in. intros k K. rewrite (El ix k I K). f_equal. f_equal.
    apply in_range_3_inv in I as (i & j & l & -> & Hi & Hj & Hl). reflexivity.
  - destruct (cAH_ok _ _ y m (a * b) n c O' D1 T1 D2 T2 Dy Ty Hn Hc) as (plan & E & P). exists plan. split; [exact E|]. intros order Ho. destruct (P order Ho) as (m' & E' & G). exists m'. split; [exact E'|].
    rewrite Er in G. apply fuse_gains in G; try assumption. revert G. apply gains_ext. rewrite Dr. intros ix I. cbn [nth]. f_equal. apply map_ext_in. intros k K. rewrite (El ix k I K). f_equal. f_equal. f_equal.
    apply in_range_3_inv in I as (i & j & l & -> & Hi & Hj & Hl). reflexivity.
Qed.
Lemma cmix3_dev r x y (m : memC) a b d n c : operands r [x; y] m -> vdims r = [a; b; d; c] -> vstr r = [b * (d * c); d * c; c; 1] -> vdims x = [a; b; d; n] -> vstr x = [b * (d * n); d * n; n; 1] -> 1 <= n -> 1 <= c ->
  (vdims y = [n; c] -> vstr y = [c; 1] -> exists plan, cu_cmix_3_0 r x y = Ok plan /\ forall order, Permutation order plan -> exists m', cu_exec (f_cgemm false false) [order] m = Ok m' /\
    gains r (fun ix => rsum (map (fun k => cmul (elem0 m x [nth 0 ix 0; nth 1 ix 0; nth 2 ix 0; k]) (elem0 m y [k; nth 3 ix 0])) (zrange n))) m m') /\
  (vdims y = [c; n] -> vstr y = [n; 1] -> exists plan, cu_cmix_3_H r x y = Ok plan /\ forall order, Permutation order plan -> exists m', cu_exec (f_cgemm true false) [order] m = Ok m' /\
    gains r (fun ix => rsum (map (fun k => cmul (elem0 m x [nth 0 ix 0; nth 1 ix 0; nth 2 ix 0; k]) (conj (elem0 m y [nth 3 ix 0; k]))) (zrange n))) m m').
Proof.
  intros O Dr Tr Dx Tx Hn Hc. pose proof O as (Wr & _ & _ & F). inversion F as [|? ? (Wx & _ & _) _]; subst.
  assert (Jr : joined r 0) by (unfold joined; rewrite Dr, Tr; reflexivity). assert (Jx : joined x 0) by (unfold joined; rewrite Dx, Tx; reflexivity).
  assert (Lr : (1 < length (vdims r))%nat) by (rewrite Dr; cbn; lia). assert (Lx : (1 < length (vdims x))%nat) by (rewrite Dx; cbn; lia).
  pose proof (fuse_operands r x y m O Lr Lx Jr Jx) as O'. pose proof (cm4_hv r _ _ _ _ _ _ _ _ Dr Tr) as Er. pose proof (cm4_hv x _ _ _ _ _ _ _ _ Dx Tx) as Ex.
  assert (D1 : vdims (cm4_fuse01 r) = [a * b; d; c] /\ vstr (cm4_fuse01 r) = [d * c; c; 1]) by (unfold cm4_fuse01, nd, sd; rewrite Dr, Tr; split; reflexivity).
  assert (D2 : vdims (cm4_fuse01 x) = [a * b; d; n] /\ vstr (cm4_fuse01 x) = [d * n; n; 1]) by (unfold cm4_fuse01, nd, sd; rewrite Dx, Tx; split; reflexivity).
  assert (El : forall ix k, in_range ix [a; b; d; c] -> In k (zrange n) -> elem0 m (cm4_fuse01 x) [nth 0 (fused 0 b ix) 0; nth 1 (fused 0 b ix) 0; k] = elem0 m x [nth 0 ix 0; nth 1 ix 0; nth 2 ix 0; k]).
  { intros ix k I K. apply in4_inv in I as (i & j & h & l & -> & Hi & Hj & Hh & Hl). apply in_zrange in K. rewrite Ex. unfold fused. cbn [firstn skipn app nth].
    pose proof (fuse_elem0 x m i j [h; k] Wx Lx Jx) as Q. rewrite Dx in Q. cbn [nth] in Q. apply Q. repeat constructor; lia. }
  rewrite <- Er, <- Ex in O'. destruct D1 as [D1 T1]. destruct D2 as [D2 T2]. destruct (cmix2_dev _ _ y m (a * b) d n c O' D1 T1 D2 T2 Hn Hc) as [P0 PH]. split; intros Dy Ty.
  - destruct (P0 Dy Ty) as (plan & E & P). exists plan. split; [exact E|]. intros order Ho. destruct (P order Ho) as (m' & E' & G). exists m'. split; [exact E'|].
    rewrite Er in G. apply fuse_gains in G; try assumption. revert G. apply gains_ext. rewrite Dr. intros ix I. cbn [nth]. f_equal. apply map_ext_in. intros k K. rewrite (El ix k I K). f_equal. f_equal.
    apply in4_inv in I as (i & j & h & l & -> & Hi & Hj & Hh & Hl). reflexivity.
  - destruct (PH Dy Ty) as (plan & E & P). exists plan. split; [exact E|]. intros order Ho. destruct (P order Ho) as (m' & E' & G). exists m'. split; [exact E'|].
    rewrite Er in G. apply fuse_gains in G; try assumption. revert G. apply gains_ext. rewrite Dr. intros ix I. cbn [nth]. f_equal. apply map_ext_in. intros k K. rewrite (El ix k I K). f_equal. f_equal. f_equal.
    apply in4_inv in I as (i & j & h & l & -> & Hi & Hj & Hh & Hl). reflexivity.
Qed.
End T.
