(* Proofs_CuREinsum.v -- lemmas on Einstein sums of real arrays on a device. *)
From Verif Require Import Base BaseFacts Model_Index Model_View Model_Tensor Model_Einsum Model_Ops Model_RView Model_Convolve Model_Cuda Model_CuConv Model_CuBlas Model_CuRtensor Model_CuREinsum Spec_Index Spec_View Spec_Tensor Spec_Cuda
  Proofs_Axes Proofs_Index Proofs_View Proofs_Tensor Proofs_Tensor2 Proofs_Tensor3 Proofs_Convolve2 Proofs_Ops2 Proofs_Ops3 Proofs_Cuda Spec_RView Proofs_RView Proofs_CuConv Proofs_CuBlas Proofs_CuRtensor Proofs_CuColumns Proofs_CuContract.
Local Open Scope Z_scope.

Lemma loops_all js : re_loops js = all_indices js.
Proof. induction js as [|n js IH]; [reflexivity|]. cbn [re_loops all_indices]. now rewrite IH. Qed.
Lemma th_b a : map k_b (cu_threads (a, 1, 1) (1, 1, 1)) = all_indices [a].
Proof. unfold cu_threads. change (zrange 1) with [0]. cbn [flat_map map app all_indices]. rewrite !flat_map_single, map_map. reflexivity. Qed.
Lemma th_bbb a b c : map k_bbb (cu_threads (a, b, c) (1, 1, 1)) = all_indices [a; b; c].
Proof.
  unfold cu_threads. change (zrange 1) with [0]. cbn [flat_map map app all_indices]. rewrite map_flat_map. apply flat_map_ext. intro i. rewrite !map_flat_map. apply flat_map_ext. intro j. rewrite !flat_map_single, !map_map. reflexivity.
Qed.
Lemma in_range_join a b d e : in_range a d -> in_range b e -> in_range (a ++ b) (d ++ e).
Proof. intros A B. now apply Forall2_app. Qed.
(* what one launch that covers the indices of d does *)
Definition re_plan (d js : list Z) (x : addr) (xs : list Z) (y : addr) (ys : list Z) (r : addr) (rs : list Z) : list (addr * list addr) :=
  map (fun ix => (shift r (dot rs ix), flat_map (fun j => [shift x (dot xs (ix ++ j)); shift y (dot ys (ix ++ j))]) (all_indices js))) (all_indices d).
Lemma re_ok g b co js x xs y ys r rs d : cu_ok g b = true \/ all_indices d = [] -> map co (cu_threads g b) = all_indices d -> re_launch g b co js x xs y ys r rs = re_plan d js x xs y ys r rs.
Proof.
  intros O E. unfold re_launch, re_plan. destruct (cu_ok g b) eqn:C.
  - rewrite <- E, map_map, loops_all. reflexivity.
  - destruct O as [O|O]; [discriminate|]. now rewrite O.
Qed.
Lemma no_index d : (forall ix, ~ in_range ix d) -> all_indices d = [].
Proof. intro H. destruct (all_indices d) as [|ix l] eqn:E; [reflexivity|]. exfalso. apply (H ix). apply in_all_indices. rewrite E. now left. Qed.
Ltac none := right; apply no_index; intros ix I; rng; lia.
Lemma re1_plan n js x xs y ys r rs : 0 <= n <= 2147483647 -> re_add_1 n js x xs y ys r rs = [re_plan [n] js x xs y ys r rs].
Proof.
  intro H. unfold re_add_1. destruct (Z.leb_spec n 1024); f_equal; apply re_ok; try apply th_t; try apply th_b.
  - destruct (Z.eq_dec n 0) as [->|N]; [none|left; apply ok_true; lia].
  - left. apply ok_true; lia.
Qed.
Lemma re2_plan n0 n1 js x xs y ys r rs : 0 <= n0 <= 2147483647 -> 0 <= n1 <= 65535 -> re_add_2 n0 n1 js x xs y ys r rs = [re_plan [n0; n1] js x xs y ys r rs].
Proof.
  intros H0 H1. assert (D : n0 = 0 \/ n1 = 0 \/ (1 <= n0 /\ 1 <= n1)) by lia. unfold re_add_2.
  destruct (Z.leb_spec (n0 * n1) 1024); [|destruct (Z.leb_spec n1 1024)]; f_equal; apply re_ok; try apply th_tt; try apply th_bt; try apply th_bb; (destruct D as [->|[->|[P0 P1]]]; [none|none|left; apply ok_true; nia]).
Qed.
Lemma re31_plan n0 n1 n2 js x xs y ys r rs : 0 <= n0 <= 2147483647 -> 0 <= n1 <= 65535 -> 0 <= n2 <= 65535 -> n2 <= 64 \/ 1024 < n0 * n1 * n2 -> re_add_3_1 n0 n1 n2 js x xs y ys r rs = [re_plan [n0; n1; n2] js x xs y ys r rs].
Proof.
  intros H0 H1 H2 H3. assert (D : n0 = 0 \/ n1 = 0 \/ n2 = 0 \/ (1 <= n0 /\ 1 <= n1 /\ 1 <= n2)) by lia. unfold re_add_3_1.
  destruct (Z.leb_spec (n0 * n1 * n2) 1024); [|destruct (Z.leb_spec (n1 * n2) 1024); [|destruct (Z.leb_spec n2 1024)]]; f_equal; apply re_ok; try apply th_ttt; try apply th_btt; try apply th_bbt; try apply th_bbb;
    (destruct D as [->|[->|[->|(P0 & P1 & P2)]]]; [none|none|none|left; assert (1 <= n0 * n1) by nia; assert (1 <= n1 * n2) by nia; apply ok_true; nia]).
Qed.
Lemma re30_plan n0 n1 n2 x xs y ys r rs : 0 <= n0 <= 2147483647 -> 0 <= n1 <= 65535 -> 0 <= n2 <= 65535 -> (n1 = 1 /\ n2 = 1) \/ 1024 < n0 * n1 * n2 -> re_add_3_0 n0 n1 n2 x xs y ys r rs = [re_plan [n0; n1; n2] [] x xs y ys r rs].
Proof.
  intros H0 H1 H2 H3. rewrite <- (re31_plan n0 n1 n2 [] x xs y ys r rs) by lia. unfold re_add_3_0, re_add_3_1. destruct (Z.leb_spec (n0 * n1 * n2) 1024); [|reflexivity]. destruct H3 as [[-> ->]|]; [|lia]. now rewrite Z.mul_1_r.
Qed.

Section S.
Context {R : cring}.
Add Ring RrCuRE : (cth R).
Notation memR := (mem (car R)).
Implicit Types m : memR.
Notation Sum x y js m ix := (rsum (map (fun j => cmul (elem0 m x (ix ++ j)) (elem0 m y (ix ++ j))) (all_indices js))).
Lemma re_gains r x y m js order : operands r [x; y] m -> vdims x = vdims r ++ js -> vdims y = vdims r ++ js ->
  Permutation order (re_plan (vdims r) js (arr x) (vstr x) (arr y) (vstr y) (arr r) (vstr r)) ->
  exists m', cu_exec f_conv [order] m = Ok m' /\ gains r (fun ix => Sum x y js m ix) m m'.
Proof.
  intros O Dx Dy P. pose proof O as (Wr & Dr & Rr_ & F). inversion F as [|? ? (Wx & Rx & Jx) F2]; subst. inversion F2 as [|? ? (Wy & Ry & Jy) _]; subst.
  assert (H : forall ix j, in_range ix (vdims r) -> In j (all_indices js) -> in_range (ix ++ j) (vdims x) /\ in_range (ix ++ j) (vdims y)).
  { intros ix j I J. apply in_all_indices in J. rewrite Dx, Dy. split; now apply in_range_join. }
  apply (plan_gains f_conv r (fun ix => flat_map (fun j => [cell x (ix ++ j); cell y (ix ++ j)]) (all_indices js))); auto.
  - intros ix p I J. apply in_flat_map in J. destruct J as (k & Ik & [<-|[<-|[]]]); destruct (H ix k I Ik) as [A B].
    + destruct (apart r x m Wr Wx Rx Jx _ A) as [Q1 Q2]. split; [exact Q1|]. intros jx J E. exfalso. exact (Q2 jx J E).
    + destruct (apart r y m Wr Wy Ry Jy _ B) as [Q1 Q2]. split; [exact Q1|]. intros jx J E. exfalso. exact (Q2 jx J E).
  - intros ix v us I _ E. destruct (dots_terms m x y (fun j => ix ++ j) (fun j => ix ++ j) (all_indices js) c0 Wx Wy Rx Ry (fun k Ik => H ix k I Ik)) as (us' & B' & D). rewrite E in B'. injection B' as <-. unfold f_conv. rewrite D. ring.
Qed.
Lemma one_launch r x y m js orders : operands r [x; y] m -> vdims x = vdims r ++ js -> vdims y = vdims r ++ js ->
  any_order [re_plan (vdims r) js (arr x) (vstr x) (arr y) (vstr y) (arr r) (vstr r)] orders -> exists m', cu_exec f_conv orders m = Ok m' /\ gains r (fun ix => Sum x y js m ix) m m'.
Proof.
  intros O Dx Dy P. inversion P as [|o p os ps Po Ps E1 E2]; subst. inversion Ps; subst. now apply re_gains.
Qed.
(* the operands stay operands *)
Lemma kept_elem r x m m' ix : untouched m m' r -> vwf x -> disjoint_views r x -> in_range ix (vdims x) -> elem m' x ix = elem m x ix.
Proof.
  intros U [L _] D I. rewrite !elem_cell by assumption. unfold at_. apply U. intros jx J E. apply (D jx ix J I). rewrite E, vaddr_cell by assumption. now destruct (cell x ix).
Qed.
Lemma still r x y m m' (G : list Z -> R) : operands r [x; y] m -> gains r G m m' -> operands r [x; y] m' /\ (forall ix, in_range ix (vdims x) -> elem0 m' x ix = elem0 m x ix) /\ (forall ix, in_range ix (vdims y) -> elem0 m' y ix = elem0 m y ix).
Proof.
  intros (Wr & Dr & Rr_ & F) [A U]. inversion F as [|? ? (Wx & Rx & Jx) F2]; subst. inversion F2 as [|? ? (Wy & Ry & Jy) _]; subst.
  assert (Kx : forall ix, in_range ix (vdims x) -> elem m' x ix = elem m x ix) by (intros; now apply (kept_elem r)).
  assert (Ky : forall ix, in_range ix (vdims y) -> elem m' y ix = elem m y ix) by (intros; now apply (kept_elem r)).
  split; [|split; intros ix I; unfold elem0; [now rewrite Kx|now rewrite Ky]]. split; [exact Wr|]. split; [exact Dr|]. split.
  - intros ix I. specialize (Rr_ ix I). destruct (elem m r ix) as [v|] eqn:E; [|congruence]. rewrite (A ix v I E). discriminate.
  - repeat constructor; try assumption; try (now apply Wx); try (now apply Wy); intros ix I; [rewrite Kx by assumption; now apply Rx|rewrite Ky by assumption; now apply Ry].
Qed.
Lemma gains_then r (G H : list Z -> R) m m1 m2 : gains r G m m1 -> gains r H m1 m2 -> gains r (fun ix => cadd (G ix) (H ix)) m m2.
Proof.
  intros [A U] [B V]. split.
  - intros ix v I E. rewrite (B ix _ I (A ix v I E)). f_equal. ring.
  - intros b a N. now rewrite V, U.
Qed.
(* launches one after the other *)
Lemma launches r x y js k : forall m orders, operands r [x; y] m -> vdims x = vdims r ++ js -> vdims y = vdims r ++ js ->
  any_order (repeat (re_plan (vdims r) js (arr x) (vstr x) (arr y) (vstr y) (arr r) (vstr r)) k) orders -> exists m', cu_exec f_conv orders m = Ok m' /\ gains r (fun ix => rsum (repeat (Sum x y js m ix) k)) m m'.
Proof.
  induction k as [|k IH]; intros m orders O Dx Dy P.
  - inversion P; subst. exists m. split; [reflexivity|]. split; [|intros b a _; reflexivity]. intros ix v I E. rewrite E. cbn [repeat]. rewrite rsum_nil. f_equal. ring.
  - cbn [repeat] in P. inversion P as [|o p os ps Po Ps E1 E2]; subst. destruct (re_gains r x y m js o O Dx Dy Po) as (m1 & E & G). destruct (still r x y m m1 _ O G) as (O1 & Kx & Ky).
    destruct (IH m1 os O1 Dx Dy Ps) as (m2 & E' & G'). exists m2. split.
    + rewrite exec_run in *. cbn [concat] in *. rewrite app_nil_r in E. unfold run in *. rewrite foldM_app, E. exact E'.
    + eapply gains_ext; [|exact (gains_then _ _ _ _ _ _ G G')]. intros ix I. cbn [repeat]. rewrite rsum_cons. f_equal. f_equal. f_equal. f_equal. apply map_ext_in. intros j J. apply in_all_indices in J.
      assert (in_range (ix ++ j) (vdims x)) by (rewrite Dx; now apply in_range_join). assert (in_range (ix ++ j) (vdims y)) by (rewrite Dy; now apply in_range_join). now rewrite Kx, Ky.
Qed.
(* an address that is not allocated cannot be written *)
Lemma run_unallocated (f : R -> list R -> R) L m m' p : run f L m = Ok m' -> at_ m p = None -> ~ In p (map fst L).
Proof.
  revert m. induction L as [|e L IH]; intros m E N; [intros []|]. unfold run in E. cbn [foldM] in E. destruct (rmw f (fst e) (snd e) m) as [m1| |] eqn:Em; try discriminate. cbn [bind] in E.
  assert (X : fst e <> p).
  { intro Ep. rewrite Ep in Em. unfold rmw in Em. unfold loadA, load in Em. unfold at_ in N. rewrite N in Em. discriminate. }
  intros [I|I]; [contradiction|]. refine (IH m1 E _ I). rewrite <- N. refine (run_untouched f [e] m m1 p _ _); [unfold run; cbn [foldM]; now rewrite Em|]. cbn [map]. intros [|[]]. contradiction.
Qed.
End S.

(* how many times the sum is added *)
Definition re_times (n0 n1 n2 : Z) : nat := if n0 * n1 * n2 <=? 1024 then 4 else if n1 * n2 <=? 1024 then 3 else if n2 <=? 1024 then 2 else 1.
Lemma re32_plan n0 n1 n2 js x xs y ys r rs : 1 <= n0 <= 2147483647 -> 1 <= n1 <= 65535 -> 1 <= n2 <= 65535 -> n2 <= 64 \/ 1024 < n0 * n1 * n2 ->
  re_add_3_2 n0 n1 n2 js x xs y ys r rs = repeat (re_plan [n0; n1; n2] js x xs y [nth 0 ys 0; nth 1 ys 0; nth 2 ys 0; nth 3 ys 0; nth 4 xs 0] r rs) (re_times n0 n1 n2).
Proof.
  intros H0 H1 H2 H3. unfold re_add_3_2, re_times. cbv zeta. set (ys' := [nth 0 ys 0; nth 1 ys 0; nth 2 ys 0; nth 3 ys 0; nth 4 xs 0]).
  assert (1 <= n0 * n1) by nia. assert (P : 1 <= n1 * n2) by nia.
  assert (L1 : n0 * n1 * n2 <= 1024 -> re_launch (1, 1, 1) (n0, n1, n2) k_ttt js x xs y ys' r rs = re_plan [n0; n1; n2] js x xs y ys' r rs) by (intro; apply re_ok; [left; apply ok_true; nia|apply th_ttt]).
  assert (L2 : n1 * n2 <= 1024 -> re_launch (n0, 1, 1) (n1, n2, 1) k_btt js x xs y ys' r rs = re_plan [n0; n1; n2] js x xs y ys' r rs) by (intro; apply re_ok; [left; apply ok_true; nia|apply th_btt]).
  assert (L3 : n2 <= 1024 -> re_launch (n0, n1, 1) (n2, 1, 1) k_bbt js x xs y ys' r rs = re_plan [n0; n1; n2] js x xs y ys' r rs) by (intro; apply re_ok; [left; apply ok_true; lia|apply th_bbt]).
  rewrite (re_ok (n0, n1, n2) (1, 1, 1) k_bbb js x xs y ys' r rs [n0; n1; n2]) by (try apply th_bbb; left; apply ok_true; lia).
  destruct (Z.leb_spec (n0 * n1 * n2) 1024) as [A|A]; [destruct (Z.leb_spec (n1 * n2) 1024); [|nia]; destruct (Z.leb_spec n2 1024); [|nia]; now rewrite L1, L2, L3|].
  destruct (Z.leb_spec (n1 * n2) 1024) as [B|B]; [destruct (Z.leb_spec n2 1024); [|nia]; now rewrite L2, L3|].
  destruct (Z.leb_spec n2 1024) as [C|C]; [now rewrite L3|reflexivity].
Qed.
Lemma re0_plan js x xs y ys r : re_add_0 js x xs y ys r = [re_plan [] js x xs y ys r []].
Proof. unfold re_add_0. rewrite (re_ok (1, 1, 1) (1, 1, 1) k_none js x xs y ys r [] []); [reflexivity|now left|reflexivity]. Qed.
Lemma re02_plan js x xs y ys r : re_add_0_2 js x xs y ys r = [re_plan [] js x xs y [nth 0 ys 0; nth 1 xs 0] r []].
Proof. unfold re_add_0_2. rewrite (re_ok (1, 1, 1) (1, 1, 1) k_none js x xs y _ r [] []); [reflexivity|now left|reflexivity]. Qed.
