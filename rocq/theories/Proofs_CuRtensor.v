(* Proofs_CuRtensor.v -- copies and sums of fixed-rank views on a device. *)
From Verif Require Import Base BaseFacts Model_Index Model_View Model_Tensor Model_Ops Model_RView Model_Einsum Model_Convolve Model_Cuda Model_CuConv Model_CuBlas Model_Containers Model_CuGather Model_CuRtensor
  Spec_Index Spec_View Spec_Tensor Spec_Cuda Spec_CuRtensor Proofs_Axes Proofs_Index Proofs_View Proofs_Tensor Proofs_Cuda Spec_RView Proofs_CuConv Proofs_CuBlas.
Local Open Scope Z_scope.

(* ---- orders of indices ---- *)
Lemma perm_idx d d' (phi psi : list Z -> list Z) : (forall c, in_range c d' -> in_range (phi c) d /\ psi (phi c) = c) -> (forall c, in_range c d -> in_range (psi c) d' /\ phi (psi c) = c) ->
  Permutation (map phi (all_indices d')) (all_indices d).
Proof.
  intros A B. apply NoDup_Permutation; [|apply all_indices_nodup|].
  - apply NoDup_map_in; [apply all_indices_nodup|]. intros i j Hi Hj E. apply in_all_indices in Hi, Hj. destruct (A i Hi) as [_ <-], (A j Hj) as [_ <-]. now rewrite E.
  - intro c. rewrite in_all_indices, in_map_iff. split.
    + intros (c' & <- & I). apply in_all_indices in I. now apply A.
    + intro I. destruct (B c I) as [B1 B2]. exists (psi c). split; [exact B2|now apply in_all_indices].
Qed.
Lemma th_bb a b : map k_bb (cu_threads (a, b, 1) (1, 1, 1)) = all_indices [a; b].
Proof. unfold cu_threads. change (zrange 1) with [0]. cbn [flat_map map app all_indices]. rewrite map_flat_map. apply flat_map_ext. intro i. rewrite !flat_map_single, !map_map. reflexivity. Qed.

Lemma rt_ok g b co r rs x xs d' phi psi : cu_ok g b = true -> map co (cu_threads g b) = all_indices d' ->
  (forall c, in_range c d' -> in_range (phi c) (vdims r) /\ psi (phi c) = c) -> (forall c, in_range c (vdims r) -> in_range (psi c) d' /\ phi (psi c) = c) ->
  (forall c, in_range c d' -> dot rs c = dot (vstr r) (phi c) /\ dot xs c = dot (vstr x) (phi c)) ->
  Permutation (rt_launch g b co (arr r) rs (arr x) xs) (entries r [x]).
Proof.
  intros O T A B D. unfold rt_launch, entries. rewrite O. rewrite <- (map_map co (fun c => (shift (arr r) (dot rs c), [shift (arr x) (dot xs c)]))), T.
  rewrite <- (perm_idx (vdims r) d' phi psi A B), map_map. erewrite map_ext_in; [reflexivity|]. intros c I. apply in_all_indices in I. destruct (D c I) as [-> ->]. reflexivity.
Qed.

Definition perm3 (i j k : nat) (c : list Z) : list Z := [nth i c 0; nth j c 0; nth k c 0].
Definition perm2 (i j : nat) (c : list Z) : list Z := [nth i c 0; nth j c 0].

Section D.
Variables (r x : view).
Lemma disp2 a b : vdims r = [a; b] -> vdims x = [a; b] -> vwf r -> vwf x -> rt_fits [a; b] -> Permutation (rt_dispatch2 r x) (entries r [x]).
Proof.
  intros Dr Dx Wr Wx F. destruct Wr as [Lr _], Wx as [Lx _]. rewrite Dr in Lr. rewrite Dx in Lx. destruct (vstr r) as [|s0 [|s1 [|]]] eqn:Sr; try discriminate. destruct (vstr x) as [|t0 [|t1 [|]]] eqn:Sx; try discriminate.
  destruct (two r a b s0 s1 Dr Sr) as (_ & _ & R2 & R3). destruct (two x a b t0 t1 Dx Sx) as (X0 & X1 & X2 & X3). cbn [rt_fits] in F.
  unfold rt_dispatch2. rewrite R2, R3, X0, X1, X2, X3. destruct (a * b <=? 1024) eqn:E1; [|destruct (b <=? 1024) eqn:E2; [|destruct (a <=? 1024) eqn:E3]].
  - apply (rt_ok _ _ _ _ _ _ _ [a; b] (perm2 0 1) (perm2 0 1)); [apply ok_true; nia|apply th_tt| | |]; rewrite ?Dr, ?Sr, ?Sx; intros c I; rng; unfold perm2; cbn [nth dot]; (split; [first [inr|lia]|first [reflexivity|lia]]).
  - apply (rt_ok _ _ _ _ _ _ _ [a; b] (perm2 0 1) (perm2 0 1)); [apply ok_true; lia|apply th_bt| | |]; rewrite ?Dr, ?Sr, ?Sx; intros c I; rng; unfold perm2; cbn [nth dot]; (split; [first [inr|lia]|first [reflexivity|lia]]).
  - apply (rt_ok _ _ _ _ _ _ _ [b; a] (perm2 1 0) (perm2 1 0)); [apply ok_true; lia|apply th_bt| | |]; rewrite ?Dr, ?Sr, ?Sx; intros c I; rng; unfold perm2; cbn [nth dot]; (split; [first [inr|lia]|first [reflexivity|lia]]).
  - apply (rt_ok _ _ _ _ _ _ _ [a; b] (perm2 0 1) (perm2 0 1)); [apply ok_true; lia|apply th_bb| | |]; rewrite ?Dr, ?Sr, ?Sx; intros c I; rng; unfold perm2; cbn [nth dot]; (split; [first [inr|lia]|first [reflexivity|lia]]).
Qed.
Lemma disp3 a b c : vdims r = [a; b; c] -> vdims x = [a; b; c] -> vwf r -> vwf x -> rt_fits [a; b; c] -> Permutation (rt_dispatch3 r x) (entries r [x]).
Proof.
  intros Dr Dx Wr Wx F. destruct Wr as [Lr _], Wx as [Lx _]. rewrite Dr in Lr. rewrite Dx in Lx. destruct (vstr r) as [|s0 [|s1 [|s2 [|]]]] eqn:Sr; try discriminate. destruct (vstr x) as [|t0 [|t1 [|t2 [|]]]] eqn:Sx; try discriminate.
  destruct (three r a b c s0 s1 s2 Dr Sr) as (_ & _ & _ & R2 & R3 & R4). destruct (three x a b c t0 t1 t2 Dx Sx) as (X0 & X1 & X5 & X2 & X3 & X4). cbn [rt_fits] in F. destruct F as (Fa & Fb & Fc & F1 & F2).
  unfold rt_dispatch3. rewrite R2, R3, R4, X0, X1, X2, X3, X4, X5. destruct (a * b * c <=? 1024) eqn:E1; [|destruct (b * c <=? 1024) eqn:E2; [|destruct (a * c <=? 1024) eqn:E3; [|destruct (a * b <=? 1024) eqn:E4; [|lia]]]].
  - apply Z.leb_le in E1. specialize (F1 E1). assert (1 <= a * b <= 1024) by nia.
    apply (rt_ok _ _ _ _ _ _ _ [a; b; c] (perm3 0 1 2) (perm3 0 1 2)); [apply ok_true; nia|apply th_ttt| | |]; rewrite ?Dr, ?Sr, ?Sx; intros q I; rng; unfold perm3; cbn [nth dot]; (split; [first [inr|lia]|first [reflexivity|lia]]).
  - apply (rt_ok _ _ _ _ _ _ _ [a; b; c] (perm3 0 1 2) (perm3 0 1 2)); [apply ok_true; nia|apply th_btt| | |]; rewrite ?Dr, ?Sr, ?Sx; intros q I; rng; unfold perm3; cbn [nth dot]; (split; [first [inr|lia]|first [reflexivity|lia]]).
  - apply (rt_ok _ _ _ _ _ _ _ [b; a; c] (perm3 1 0 2) (perm3 1 0 2)); [apply ok_true; nia|apply th_btt| | |]; rewrite ?Dr, ?Sr, ?Sx; intros q I; rng; unfold perm3; cbn [nth dot]; (split; [first [inr|lia]|first [reflexivity|lia]]).
  - apply (rt_ok _ _ _ _ _ _ _ [c; a; b] (perm3 1 2 0) (perm3 2 0 1)); [apply ok_true; nia|apply th_btt| | |]; rewrite ?Dr, ?Sr, ?Sx; intros q I; rng; unfold perm3; cbn [nth dot]; (split; [first [inr|lia]|first [reflexivity|lia]]).
Qed.
Lemma copy1 n : vdims r = [n] -> vdims x = [n] -> vwf r -> vwf x -> rt_fits [n] -> Permutation (concat (rt_copy1 r x)) (entries r [x]).
Proof.
  intros Dr Dx Wr Wx [F1 F2]. destruct Wr as [Lr _], Wx as [Lx _]. rewrite Dr in Lr. rewrite Dx in Lx. destruct (vstr r) as [|s0 [|]] eqn:Sr; try discriminate. destruct (vstr x) as [|t0 [|]] eqn:Sx; try discriminate.
  unfold rt_copy1. replace (nd x 0) with n by (unfold nd; now rewrite Dx). replace (sd r 0) with s0 by (unfold sd; now rewrite Sr). replace (sd x 0) with t0 by (unfold sd; now rewrite Sx).
  pose proof (Z_div_mod_eq_full n 1024) as Q. destruct (n <? 1024) eqn:E.
  - assert (n = 0) as -> by lia. unfold entries. rewrite Dr. reflexivity.
  - cbn [concat]. replace (rt_launch (0, 1, 1) (n mod 1024, 1, 1) k_t (shift (arr r) ((n - n mod 1024) * s0)) [s0] (shift (arr x) (n - n mod 1024)) [t0]) with (@nil (addr * list addr)) by reflexivity. rewrite !app_nil_r.
    apply (rt_ok _ _ _ _ _ _ _ [n / 1024; 1024] (fun c => [nth 0 c 0 * 1024 + nth 1 c 0]) (fun c => [nth 0 c 0 / 1024; nth 0 c 0 mod 1024])); [apply ok_true; lia|apply th_bt| | |]; rewrite ?Dr, ?Sr, ?Sx; intros c I; rng; cbn [nth dot].
    + split; [inr|]. rewrite Z.div_add_l by lia. rewrite (Z.add_comm _ i0), Z_mod_plus_full, Z.mod_small, Z.div_small by lia. now rewrite Z.add_0_r.
    + pose proof (Z_div_mod_eq_full i 1024). pose proof (Z.mod_pos_bound i 1024 ltac:(lia)). split; [inr|]. f_equal. lia.
    + split; lia.
Qed.
(* one array after the other *)
Lemma flat1 n : vdims r = [n] -> vdims x = [n] -> vstr r = [1] -> vstr x = [1] -> axpy n (arr x) 1 (arr r) 1 = entries r [x].
Proof.
  intros Dr Dx Sr Sx. unfold axpy, entries. rewrite Dr, ai1, map_map. apply map_ext. intro i. unfold axat, cell, shift, arr. cbn [map fst snd Z.leb Z.compare]. rewrite Sr, Sx. cbn [dot]. f_equal; [f_equal; lia|f_equal; f_equal; lia].
Qed.
Lemma flat2_ a b : 0 <= a -> 0 <= b -> vdims r = [a; b] -> vdims x = [a; b] -> vstr r = [b; 1] -> vstr x = [b; 1] -> axpy (a * b) (arr x) 1 (arr r) 1 = entries r [x].
Proof.
  intros Ha Hb Dr Dx Sr Sx. unfold axpy, entries. rewrite Dr, zrange_mul by assumption. rewrite map_flat_map. erewrite flat_map_ext; [|intro i; rewrite map_map; reflexivity].
  rewrite (all2 (fun i j => (axat (arr r) (a * b) 1 (i * b + j), [axat (arr x) (a * b) 1 (i * b + j)])) a b). apply map_ext_in. intros ix I. apply in_all_indices in I. rng.
  unfold axat, cell, shift, arr. cbn [map fst snd nth Z.leb Z.compare]. rewrite Sr, Sx. cbn [dot]. f_equal; [f_equal; lia|f_equal; f_equal; lia].
Qed.
Lemma flat3_ a b c : 0 <= a -> 0 <= b -> 0 <= c -> vdims r = [a; b; c] -> vdims x = [a; b; c] -> vstr r = [b * c; c; 1] -> vstr x = [b * c; c; 1] -> axpy (a * b * c) (arr x) 1 (arr r) 1 = entries r [x].
Proof.
  intros Ha Hb Hc Dr Dx Sr Sx. unfold axpy, entries. rewrite Dr. assert (Z3 : zrange (a * b * c) = flat_map (fun i => flat_map (fun j => map (fun k => i * (b * c) + (j * c + k)) (zrange c)) (zrange b)) (zrange a)).
  { rewrite <- Z.mul_assoc, zrange_mul by nia. apply flat_map_ext. intro i. rewrite zrange_mul by assumption. rewrite map_flat_map. apply flat_map_ext. intro j. now rewrite map_map. }
  rewrite Z3. erewrite map_flat_map, flat_map_ext; [|intro i; rewrite map_flat_map; erewrite flat_map_ext; [reflexivity|intro j; rewrite map_map; reflexivity]].
  rewrite (all3 (fun i j k => (axat (arr r) (a * b * c) 1 (i * (b * c) + (j * c + k)), [axat (arr x) (a * b * c) 1 (i * (b * c) + (j * c + k))])) a b c). apply map_ext_in. intros ix I. apply in_all_indices in I. rng.
  unfold axat, cell, shift, arr. cbn [map fst snd nth Z.leb Z.compare]. rewrite Sr, Sx. cbn [dot]. f_equal; [f_equal; lia|f_equal; f_equal; lia].
Qed.
End D.

(* ---- execution ---- *)
Lemma zip_done {V} (f : V -> list V -> V) r x (m : mem V) plan orders : zipable r x m -> Permutation (concat plan) (entries r [x]) -> any_order plan orders -> exists m', cu_exec f orders m = Ok m' /\ done f r [x] m m'.
Proof.
  intros (Wr & Wx & D & Di & Rr & Rx & N) P O. rewrite exec_run. apply (elementwise_of_run f r [x] m (concat orders) Wr Di Rr); [|rewrite <- P; now apply order_concat].
  repeat constructor; auto; apply Wx.
Qed.
Lemma reg1_inv v n s : vdims v = [n] -> vstr v = [s] -> reg1 v = true -> s = 1.
Proof. unfold reg1, sd. intros _ ->. cbn [nth]. apply Z.eqb_eq. Qed.
Lemma one_str v n : vwf v -> vdims v = [n] -> exists s, vstr v = [s].
Proof. intros [L _] D. rewrite D in L. destruct (vstr v) as [|s [|]]; try discriminate. now exists s. Qed.
Lemma reg2_inv v a b : vwf v -> vdims v = [a; b] -> reg2 v = true -> vstr v = [b; 1].
Proof.
  intros [L _] D. rewrite D in L. unfold reg2, sd, nd. rewrite D. destruct (vstr v) as [|s [|t [|]]]; try discriminate. cbn [nth]. rewrite andb_true_iff, !Z.eqb_eq. now intros [-> ->].
Qed.
Lemma reg3_inv v a b c : vwf v -> vdims v = [a; b; c] -> reg3 v = true -> vstr v = [b * c; c; 1].
Proof.
  intros [L _] D. rewrite D in L. unfold reg3, sd, nd. rewrite D. destruct (vstr v) as [|s [|t [|u [|]]]]; try discriminate. cbn [nth]. rewrite !andb_true_iff, !Z.eqb_eq. now intros [[-> ->] ->].
Qed.
Lemma nd1 v n : vdims v = [n] -> nd v 0 = n. Proof. unfold nd. now intros ->. Qed.
Lemma nd2 v a b : vdims v = [a; b] -> nd v 0 = a /\ nd v 1 = b. Proof. unfold nd. now intros ->. Qed.
Lemma nd3 v a b c : vdims v = [a; b; c] -> nd v 0 = a /\ nd v 1 = b /\ nd v 2 = c. Proof. unfold nd. now intros ->. Qed.

Lemma set1_done {V} (f : V -> list V -> V) r x (m : mem V) n : zipable r x m -> vdims r = [n] -> (reg1 r = true /\ reg1 x = true) \/ rt_fits [n] ->
  exists plan, cu_set1 r x = Ok plan /\ forall orders, any_order plan orders -> exists m', cu_exec f orders m = Ok m' /\ done f r [x] m m'.
Proof.
  intros Zp Dr H. pose proof Zp as (Wr & Wx & D & _). rewrite Dr in D. unfold cu_set1. rewrite (nd1 r n Dr), (nd1 x n D), Z.eqb_refl. cbn [assrt]. eexists. split; [reflexivity|]. intros orders O. eapply zip_done; [exact Zp| |exact O].
  destruct (reg1 r && reg1 x) eqn:E.
  - apply andb_true_iff in E. destruct E as [E1 E2]. destruct (one_str r n Wr Dr) as [s Sr], (one_str x n Wx D) as [t Sx]. rewrite (reg1_inv r n s Dr Sr E1) in Sr. rewrite (reg1_inv x n t D Sx E2) in Sx. cbn [concat]. rewrite app_nil_r, (flat1 r x n); auto.
  - destruct H as [[H1 H2]|H]; [rewrite H1, H2 in E; discriminate|]. now apply copy1 with (n := n).
Qed.
Lemma plan2_perm r x a b : vwf r -> vwf x -> vdims r = [a; b] -> vdims x = [a; b] -> (reg2 r = true /\ reg2 x = true) \/ rt_fits [a; b] ->
  Permutation (if reg2 r && reg2 x then axpy (a * b) (arr x) 1 (arr r) 1 else rt_dispatch2 r x) (entries r [x]).
Proof.
  intros Wr Wx Dr D H. destruct (sides2 r a b Wr Dr) as [Ha Hb]. destruct (reg2 r && reg2 x) eqn:E.
  - apply andb_true_iff in E. destruct E as [E1 E2]. rewrite (flat2_ r x a b); auto; now apply reg2_inv with (a := a).
  - destruct H as [[H1 H2]|H]; [rewrite H1, H2 in E; discriminate|]. now apply disp2 with (a := a) (b := b).
Qed.
Lemma set2_done {V} (f : V -> list V -> V) r x (m : mem V) a b : zipable r x m -> vdims r = [a; b] -> (reg2 r = true /\ reg2 x = true) \/ rt_fits [a; b] ->
  exists plan, cu_set2 r x = Ok plan /\ forall orders, any_order plan orders -> exists m', cu_exec f orders m = Ok m' /\ done f r [x] m m'.
Proof.
  intros Zp Dr H. pose proof Zp as (Wr & Wx & D & _). rewrite Dr in D. destruct (nd2 r a b Dr) as [R0 R1], (nd2 x a b D) as [X0 X1]. unfold cu_set2. rewrite R0, R1, X0, X1, !Z.eqb_refl. cbn [assrt]. eexists. split; [reflexivity|].
  intros orders O. eapply zip_done; [exact Zp| |exact O]. cbn [concat]. rewrite app_nil_r. now apply plan2_perm.
Qed.
Lemma empty2 a b : a * b = 0 -> all_indices [a; b] = [].
Proof.
  intro H. destruct (all_indices [a; b]) as [|ix l] eqn:E; [reflexivity|]. assert (I : In ix (all_indices [a; b])) by (rewrite E; now left). apply in_all_indices in I. rng. nia.
Qed.
Lemma add2_done {V} (f : V -> list V -> V) r x (m : mem V) a b : zipable r x m -> vdims r = [a; b] -> (reg2 r = true /\ reg2 x = true) \/ rt_fits [a; b] ->
  exists plan, cu_add2 r x = Ok plan /\ forall orders, any_order plan orders -> exists m', cu_exec f orders m = Ok m' /\ done f r [x] m m'.
Proof.
  intros Zp Dr H. pose proof Zp as (Wr & Wx & D & _). rewrite Dr in D. destruct (nd2 r a b Dr) as [R0 R1], (nd2 x a b D) as [X0 X1]. unfold cu_add2. rewrite R0, R1, X0, X1, !Z.eqb_refl. cbn [assrt]. eexists. split; [reflexivity|].
  intros orders O. eapply zip_done; [exact Zp| |exact O]. destruct (a * b =? 0) eqn:E.
  - apply Z.eqb_eq in E. unfold entries. now rewrite Dr, empty2.
  - cbn [concat]. rewrite app_nil_r. now apply plan2_perm.
Qed.
Lemma add3_done {V} (f : V -> list V -> V) r x (m : mem V) a b c : zipable r x m -> vdims r = [a; b; c] -> (reg3 r = true /\ reg3 x = true) \/ rt_fits [a; b; c] ->
  exists plan, cu_add3 r x = Ok plan /\ forall orders, any_order plan orders -> exists m', cu_exec f orders m = Ok m' /\ done f r [x] m m'.
Proof.
  intros Zp Dr H. pose proof Zp as (Wr & Wx & D & _). rewrite Dr in D. destruct (nd3 r a b c Dr) as (R0 & R1 & R2), (nd3 x a b c D) as (X0 & X1 & X2). unfold cu_add3, reg_pair. rewrite R0, R1, R2, X0, X1, X2, !Z.eqb_refl. cbn [andb]. eexists. split; [reflexivity|].
  intros orders O. eapply zip_done; [exact Zp| |exact O]. cbn [concat]. rewrite app_nil_r. destruct (sides3 r a b c Wr Dr) as (Ha & Hb & Hc). destruct (reg3 r && reg3 x) eqn:E.
  - apply andb_true_iff in E. destruct E as [E1 E2]. rewrite (flat3_ r x a b c); auto; now apply reg3_inv with (a := a).
  - destruct H as [[H1 H2]|H]; [rewrite H1, H2 in E; discriminate|]. now apply disp3 with (a := a) (b := b) (c := c).
Qed.
Lemma set3_done {V} (f : V -> list V -> V) r x (m : mem V) a b c : zipable r x m -> vdims r = [a; b; c] -> reg3 r && reg3 x = false -> rt_fits [a; b; c] ->
  exists plan, cu_set3 r x = Ok plan /\ forall orders, any_order plan orders -> exists m', cu_exec f orders m = Ok m' /\ done f r [x] m m'.
Proof.
  intros Zp Dr E H. pose proof Zp as (Wr & Wx & D & _). rewrite Dr in D. destruct (nd3 r a b c Dr) as (R0 & R1 & R2), (nd3 x a b c D) as (X0 & X1 & X2). unfold cu_set3, reg_pair. rewrite R0, R1, R2, X0, X1, X2, !Z.eqb_refl. cbn [andb]. rewrite E. eexists. split; [reflexivity|].
  intros orders O. eapply zip_done; [exact Zp| |exact O]. cbn [concat]. rewrite app_nil_r. now apply disp3 with (a := a) (b := b) (c := c).
Qed.

(* ---- what is missed ---- *)
Lemma set1_missed {V} (f : V -> list V -> V) r x (m : mem V) n : zipable r x m -> vdims r = [n] -> n <= 2147483647 -> reg1 r && reg1 x = false ->
  exists plan, cu_set1 r x = Ok plan /\ forall orders, any_order plan orders -> exists m', cu_exec f orders m = Ok m' /\ (forall i, 1024 * (n / 1024) <= i < n -> elem m' r [i] = elem m r [i]) /\ untouched m m' r.
Proof.
  intros Zp Dr Hn E. pose proof Zp as (Wr & Wx & D & Di & Rr & Rx & N). rewrite Dr in D. unfold cu_set1. rewrite (nd1 r n Dr), (nd1 x n D), Z.eqb_refl. cbn [assrt]. rewrite E. eexists. split; [reflexivity|]. intros orders O.
  destruct (one_str r n Wr Dr) as [s Sr], (one_str x n Wx D) as [t Sx]. pose proof (Z_div_mod_eq_full n 1024) as Q. pose proof (Z.mod_pos_bound n 1024 ltac:(lia)) as Q2.
  assert (Hn0 : 0 <= n) by (destruct Wr as [_ Nn]; rewrite Dr in Nn; now inversion Nn).
  assert (H : forall e, In e (concat orders) -> exists i, 0 <= i < 1024 * (n / 1024) /\ e = (cell r [i], [cell x [i]])).
  { intros e I. apply (Permutation_in e (order_concat _ _ O)) in I. unfold rt_copy1 in I. rewrite (nd1 x n D) in I. replace (sd r 0) with s in I by (unfold sd; now rewrite Sr). replace (sd x 0) with t in I by (unfold sd; now rewrite Sx).
    destruct (n <? 1024) eqn:E1; [destruct I|]. cbn [concat] in I. apply in_app_iff in I. destruct I as [I|I]; [|destruct I]. unfold rt_launch in I. apply in_if in I. destruct I as [_ I].
    rewrite <- (map_map k_bt (fun c => (shift (arr r) (dot [1024 * s; s] c), [shift (arr x) (dot [1024 * t; t] c)]))), th_bt in I. apply in_map_iff in I. destruct I as (c & <- & I). apply in_all_indices in I. rng.
    exists (i * 1024 + i0). split; [lia|]. unfold cell, shift, arr. rewrite Sr, Sx. cbn [fst snd dot]. f_equal; [f_equal; lia|f_equal; f_equal; lia]. }
  assert (Lr : length (vstr r) = length (vdims r)) by apply Wr. assert (Lx : length (vstr x) = length (vdims x)) by apply Wx.
  rewrite exec_run. destruct (run_total f (concat orders) m) as (m' & Em).
  - intros e I. destruct (H e I) as (i & Hi & ->). cbn [fst snd]. split; [rewrite <- elem_cell; [apply Rr; rewrite Dr; inr|exact Lr|rewrite Dr; inr]|constructor; [|constructor]; rewrite <- elem_cell; [apply Rx; rewrite D; inr|exact Lx|rewrite D; inr]].
  - exists m'. split; [exact Em|]. split.
    + intros i Hi. rewrite !elem_cell by (exact Lr || rewrite Dr; inr). apply (run_untouched f (concat orders) m m' _ Em). intro I. apply in_map_iff in I. destruct I as (e & E2 & I). destruct (H e I) as (j & Hj & ->). cbn [fst] in E2.
      assert ([j] = [i]) as Q3; [|injection Q3; lia]. apply Di; [rewrite Dr; inr|rewrite Dr; inr|]. rewrite !vaddr_cell by (exact Lr || rewrite Dr; inr). now rewrite E2.
    + intros p a Np. apply (run_untouched f (concat orders) m m' (p, a) Em). intro I. apply in_map_iff in I. destruct I as (e & E2 & I). destruct (H e I) as (j & Hj & ->). cbn [fst] in E2. apply (Np [j]); [rewrite Dr; inr|]. rewrite vaddr_cell by (exact Lr || rewrite Dr; inr). now rewrite E2.
Qed.
Lemma set3_missed {V} (f : V -> list V -> V) r x (m : mem V) a b c : zipable r x m -> vdims r = [a; b; c] -> 0 < c -> reg3 r = true -> reg3 x = true ->
  exists plan, cu_set3 r x = Ok plan /\ forall orders, any_order plan orders -> exists m', cu_exec f orders m = Ok m' /\
    (forall i j k, in_range [i; j; k] [a; b; c] -> a * b <= (i * b + j) * c + k -> elem m' r [i; j; k] = elem m r [i; j; k]) /\ untouched m m' r.
Proof.
  intros Zp Dr Hc E1 E2. pose proof Zp as (Wr & Wx & D & Di & Rr & Rx & N). rewrite Dr in D. destruct (nd3 r a b c Dr) as (R0 & R1 & R2), (nd3 x a b c D) as (X0 & X1 & X2). destruct (sides3 r a b c Wr Dr) as (Ha & Hb & _). unfold cu_set3, reg_pair. rewrite R0, R1, R2, X0, X1, X2, !Z.eqb_refl, E1, E2. cbn [andb]. eexists. split; [reflexivity|].
  intros orders O. pose proof (reg3_inv r a b c Wr Dr E1) as Sr. pose proof (reg3_inv x a b c Wx D E2) as Sx. assert (Lr : length (vstr r) = length (vdims r)) by apply Wr. assert (Lx : length (vstr x) = length (vdims x)) by apply Wx.
  assert (H : forall e, In e (concat orders) -> exists ix, in_range ix [a; b; c] /\ e = (cell r ix, [cell x ix]) /\ exists o, 0 <= o < a * b /\ snd (cell r ix) = voff r + o).
  { intros e I. apply (Permutation_in e (order_concat _ _ O)) in I. cbn [concat] in I. rewrite app_nil_r in I. unfold axpy in I. apply in_map_iff in I. destruct I as (o & <- & I). apply in_zrange in I.
    exists [o / (b * c); o / c mod b; o mod c]. pose proof (Z_div_mod_eq_full o c) as Q. pose proof (Z.mod_pos_bound o c ltac:(lia)) as Q2. assert (0 < b) by nia. pose proof (Z_div_mod_eq_full (o / c) b) as Q3. pose proof (Z.mod_pos_bound (o / c) b ltac:(lia)) as Q4.
    assert (Q5 : o / (b * c) = o / c / b) by (rewrite (Z.mul_comm b c); symmetry; apply Z.div_div; lia). assert (0 <= o / c) by (apply Z.div_pos; lia). assert (0 <= o / c / b) by (apply Z.div_pos; lia).
    assert (o / c <= o) by (apply Z.div_le_upper_bound; nia). assert (o / c / b < a) by (apply Z.div_lt_upper_bound; lia). rewrite Q5.
    assert (Qo : o = o / c / b * (b * c) + (o / c mod b * c + o mod c)) by nia.
    split; [inr|]. unfold axat, cell, shift, arr. rewrite Sr, Sx. cbn [fst snd dot Z.leb Z.compare]. split; [f_equal; [f_equal; lia|f_equal; f_equal; lia]|]. exists o. split; [lia|]. lia. }
  rewrite exec_run. destruct (run_total f (concat orders) m) as (m' & Em).
  - intros e I. destruct (H e I) as (ix & Hi & -> & _). cbn [fst snd]. split; [rewrite <- elem_cell; [apply Rr; now rewrite Dr|exact Lr|now rewrite Dr]|constructor; [|constructor]; rewrite <- elem_cell; [apply Rx; now rewrite D|exact Lx|now rewrite D]].
  - exists m'. split; [exact Em|]. split.
    + intros i j k Hi Ho. rewrite !elem_cell by (exact Lr || now rewrite Dr). apply (run_untouched f (concat orders) m m' _ Em). intro I. apply in_map_iff in I. destruct I as (e & E3 & I). destruct (H e I) as (jx & Hj & -> & o & Hoo & Eo). cbn [fst] in E3.
      rewrite E3 in Eo. unfold cell in Eo. rewrite Sr in Eo. cbn [snd dot] in Eo. nia.
    + intros p q Np. apply (run_untouched f (concat orders) m m' (p, q) Em). intro I. apply in_map_iff in I. destruct I as (e & E3 & I). destruct (H e I) as (jx & Hj & -> & _). cbn [fst] in E3. apply (Np jx); [now rewrite Dr|]. rewrite vaddr_cell by (exact Lr || now rewrite Dr). now rewrite E3.
Qed.
Lemma thin_missed r x a b c : vdims r = [a; b; c] -> vdims x = [a; b; c] -> a * b * c <= 1024 -> 64 < c -> rt_dispatch3 r x = [].
Proof.
  intros Dr D H Hc. destruct (nd3 x a b c D) as (X0 & X1 & X2). unfold rt_dispatch3. rewrite X0, X1, X2. replace (a * b * c <=? 1024) with true by lia. unfold rt_launch.
  replace (cu_ok (1, 1, 1) (a, b, c)) with false; [reflexivity|]. symmetry. apply not_true_iff_false. intro K. apply ok_inv in K. lia.
Qed.

(* a statement with its target outside every array *)
Lemma run_wild {V} (f : V -> list V -> V) L m e : In e L -> at_ m (fst e) = None -> run f L m = UB.
Proof.
  revert m. induction L as [|e0 L IH]; intros m I A; [destruct I|]. unfold run. cbn [foldM]. unfold rmw at 1. destruct (loadA m (fst e0)) as [v| |] eqn:E.
  - cbn [bind]. destruct (loads m (snd e0)) as [us| |] eqn:E1; [cbn [bind]| exfalso; clear - E1; revert E1; generalize (snd e0); intro l; induction l as [|p l IHl]; cbn [loads]; [discriminate|]; unfold loadA, load; destruct (m (fst p) (snd p)); cbn [bind]; [|discriminate]; destruct (loads m l); cbn [bind]; try discriminate; auto|reflexivity].
    assert (N : fst e0 <> fst e) by (intro Q; unfold loadA, load in E; rewrite Q in E; unfold at_ in A; rewrite A in E; discriminate).
    unfold store. destruct (m (fst (fst e0)) (snd (fst e0))) eqn:E2; [|reflexivity]. cbn [bind]. destruct I as [->|I]; [now destruct N|]. apply IH; [exact I|]. rewrite at_upd_other; [exact A|]. congruence.
  - unfold loadA, load in E. destruct (m _ _); discriminate.
  - reflexivity.
Qed.
Lemma wide_wild {V} (f : V -> list V -> V) r x (m : mem V) a b c : vwf r -> vdims r = [a; b; c] -> vdims x = [a; b; c] -> reg3 r = true -> reg3 x = false ->
  0 < a <= 2147483647 -> 0 < b <= 65535 -> 0 < c <= 1024 -> 1024 < a * b -> 1024 < a * c -> 1024 < b * c -> (forall o, a * b * c <= o -> m (vblk r) (voff r + o) = None) ->
  cu_set3 r x = Ok [rt_dispatch3 r x] /\ cu_add3 r x = Ok [rt_dispatch3 r x] /\ forall orders, any_order [rt_dispatch3 r x] orders -> cu_exec f orders m = UB.
Proof.
  intros Wr Dr D E1 E2 Ha Hb Hc H1 H2 H3 Hm. unfold cu_set3, cu_add3, reg_pair. rewrite E2, andb_false_r. split; [reflexivity|]. split; [reflexivity|]. intros orders O. rewrite exec_run.
  pose proof (reg3_inv r a b c Wr Dr E1) as Sr. destruct (three r a b c _ _ _ Dr Sr) as (_ & _ & _ & R0 & R1 & R2). destruct (nd3 x a b c D) as (X0 & X1 & X2).
  apply (run_wild f _ m (shift (arr r) (dot [b * c; b * c; 1] [a - 1; b - 1; 0]), [shift (arr x) (dot [sd x 0; sd x 1; sd x 2] [a - 1; b - 1; 0])])).
  - apply (Permutation_in _ (Permutation_sym (order_concat _ _ O))). cbn [concat]. rewrite app_nil_r. unfold rt_dispatch3. rewrite X0, X1, X2, R0, R2.
    replace (a * b * c <=? 1024) with false by nia. replace (b * c <=? 1024) with false by lia. replace (a * c <=? 1024) with false by lia. replace (a * b <=? 1024) with false by lia. replace (c <=? 1024) with true by lia.
    unfold rt_launch. rewrite ok_true by lia. rewrite <- (map_map k_bbt (fun q => (shift (arr r) (dot [b * c; b * c; 1] q), [shift (arr x) (dot [sd x 0; sd x 1; sd x 2] q)]))), th_bbt.
    apply in_map_iff. exists [a - 1; b - 1; 0]. split; [reflexivity|]. apply in_all_indices. inr.
  - unfold at_, shift, arr. cbn [fst snd dot]. apply Hm. assert (2 <= b) by nia. assert (0 <= (b - 2) * (b * c)) by nia. lia.
Qed.

(* ---- sums ---- *)
Section Sum.
Context {R : cring}.
Add Ring Rs : (cth R).
Notation memR := (mem (car R)).
Implicit Types m : memR.
Lemma fold_sum (us : list R) t : fold_left cadd us t = cadd t (rsum us).
Proof. revert t. induction us as [|u us IH]; intro t; cbn [fold_left]; [rewrite rsum_nil; ring|]. rewrite IH, rsum_cons. ring. Qed.
Lemma loads_elems m x (L : list Z) (xi : Z -> list Z) us : vwf x -> readable m x -> (forall i, In i L -> in_range (xi i) (vdims x)) -> loads m (map (fun i => cell x (xi i)) L) = Ok us -> us = map (fun i => elem0 m x (xi i)) L.
Proof.
  intros W Rd. revert us. induction L as [|i L IH]; intros us H E; cbn [map loads] in E |- *; [now injection E as <-|].
  rewrite (loadA_some _ _ _ (load_elem0 m x (xi i) W Rd (H i (or_introl eq_refl)))) in E. cbn [bind] in E. destruct (loads m (map (fun i => cell x (xi i)) L)) as [us'| |] eqn:E'; try discriminate. injection E as <-. f_equal. apply IH; [|reflexivity]. intros j J. apply H. now right.
Qed.
Lemma sum_gains c r x m (L : list Z) (xi : list Z -> Z -> list Z) plan orders : operands r [x] m -> (forall ix i, in_range ix (vdims r) -> In i L -> in_range (xi ix i) (vdims x)) ->
  Permutation (concat plan) (map (fun ix => (cell r ix, map (fun i => cell x (xi ix i)) L)) (all_indices (vdims r))) -> any_order plan orders ->
  exists m', cu_exec (f_sumc c) orders m = Ok m' /\ gains r (fun ix => cmul (rsum (map (fun i => elem0 m x (xi ix i)) L)) c) m m'.
Proof.
  intros Op H P O. pose proof (first_wf _ _ _ _ Op) as Wx. destruct (first_ops _ _ _ _ Op) as [Rx Dx]. destruct Op as (Wr & Di & Rr & _).
  replace (cu_exec (f_sumc c) orders m) with (cu_exec (f_sumc c) [concat orders] m) by (rewrite !exec_run; cbn [concat]; now rewrite app_nil_r).
  apply (plan_gains (f_sumc c) r (fun ix => map (fun i => cell x (xi ix i)) L)); auto.
  - intros ix p I J. apply in_map_iff in J. destruct J as (i & <- & J). destruct (apart r x m Wr Wx Rx Dx _ (H ix i I J)) as [Q1 Q2]. split; [exact Q1|]. intros jx Jx E. exfalso. exact (Q2 jx Jx E).
  - intros ix v us I _ E. unfold f_sumc. rewrite fold_sum, (loads_elems m x L (xi ix) us Wx Rx (fun i J => H ix i I J) E). ring.
  - now rewrite (order_concat _ _ O).
Qed.
Lemma sum0_done c r x m a n : operands r [x] m -> vdims x = [a; n] -> vdims r = [n] -> n <= 2147483647 ->
  exists plan, cu_sum0 r x = Ok plan /\ forall orders, any_order plan orders -> exists m', cu_exec (f_sumc c) orders m = Ok m' /\ gains r (fun ix => cmul (rsum (map (fun i => elem0 m x (i :: ix)) (zrange a))) c) m m'.
Proof.
  intros Op Dx Dr Hn. pose proof (first_wf _ _ _ _ Op) as Wx. assert (Wr : vwf r) by apply Op. destruct (sides2 x a n Wx Dx) as [Ha Hn0].
  destruct (nd2 x a n Dx) as [X0 X1]. pose proof (nd1 r n Dr) as R0. destruct (one_str r n Wr Dr) as [s Sr]. assert (R1 : sd r 0 = s) by (unfold sd; now rewrite Sr).
  assert (Lx : length (vstr x) = length (vdims x)) by apply Wx. rewrite Dx in Lx. destruct (vstr x) as [|t0 [|t1 [|]]] eqn:Sx; try discriminate. destruct (two x a n t0 t1 Dx Sx) as (_ & _ & X2 & X3).
  unfold cu_sum0. rewrite X0, X1, R0, R1, X2, X3, Z.eqb_refl. cbn [assrt]. eexists. split; [reflexivity|]. intros orders O.
  eapply (sum_gains c r x m (zrange a) (fun ix i => i :: ix)); [exact Op| | |exact O].
  - intros ix i I J. apply in_zrange in J. rewrite Dr in I. rewrite Dx. rng. inr.
  - rewrite Dr, ai1, map_map. destruct (n <=? 1024) eqn:E.
    + cbn [concat]. rewrite app_nil_r. unfold sum0_launch. destruct (cu_ok (1, 1, 1) (n, 1, 1)) eqn:K.
      * rewrite <- (map_map tx (fun j => (shift (arr r) (j * s), map (fun i => shift (arr x) (i * t0 + j * t1)) (zrange a)))). replace (map tx (cu_threads (1, 1, 1) (n, 1, 1))) with (zrange n).
        -- erewrite map_ext; [reflexivity|]. intro j. unfold cell, shift, arr. rewrite Sr, Sx. cbn [fst snd dot]. f_equal; [f_equal; lia|]. apply map_ext. intro i. f_equal. lia.
        -- pose proof (f_equal (map (fun c => nth 0 c 0)) (th_t n)) as T. rewrite ai1, !map_map in T. cbn [k_t nth] in T. rewrite map_id in T. now rewrite <- T.
      * assert (n = 0) as ->; [|reflexivity]. destruct (Z.eq_dec n 0); [assumption|]. rewrite ok_true in K by lia. discriminate.
    + pose proof (Z_div_mod_eq_full n 1024) as Q. pose proof (Z.mod_pos_bound n 1024 ltac:(lia)) as Q2. assert (0 <= n / 1024 <= 2147483647) by lia. assert (1 <= n / 1024) by lia.
      assert (P1 : sum0_launch (n / 1024, 1, 1) (1024, 1, 1) (fun t => bx t * 1024 + tx t) (arr r) s (arr x) t0 t1 a = map (fun j => (cell r [j], map (fun i => cell x [i; j]) (zrange a))) (zrange (1024 * (n / 1024)))).
      { unfold sum0_launch. rewrite ok_true by lia. rewrite <- (map_map (fun t => bx t * 1024 + tx t) (fun j => (shift (arr r) (j * s), map (fun i => shift (arr x) (i * t0 + j * t1)) (zrange a)))).
        replace (map (fun t => bx t * 1024 + tx t) (cu_threads (n / 1024, 1, 1) (1024, 1, 1))) with (zrange (1024 * (n / 1024))).
        - apply map_ext. intro j. unfold cell, shift, arr. rewrite Sr, Sx. cbn [fst snd dot]. f_equal; [f_equal; lia|]. apply map_ext. intro i. f_equal. lia.
        - pose proof (split1 (n / 1024) ltac:(lia)) as T. rewrite <- th_bt in T. rewrite map_map in T. apply (f_equal (map (fun c => nth 0 c 0))) in T. rewrite ai1, !map_map in T. cbn [k_bt nth] in T. rewrite map_id in T. now rewrite <- T. }
      cbn [concat]. rewrite P1. replace (zrange n) with (zrange (1024 * (n / 1024)) ++ map (Z.add (1024 * (n / 1024))) (zrange (n mod 1024))) by (rewrite <- zrange_app by lia; f_equal; lia). rewrite map_app. apply Permutation_app_head. destruct (0 <? n mod 1024) eqn:E3.
      * cbn [concat]. rewrite app_nil_r. unfold sum0_launch. rewrite ok_true by lia.
        rewrite <- (map_map tx (fun j => (shift (shift (arr r) ((n - n mod 1024) * s)) (j * s), map (fun i => shift (shift (arr x) ((n - n mod 1024) * t1)) (i * t0 + j * t1)) (zrange a)))).
        replace (map tx (cu_threads (1, 1, 1) (n mod 1024, 1, 1))) with (zrange (n mod 1024)).
        -- rewrite map_map. erewrite map_ext; [reflexivity|]. intro j. replace (n - n mod 1024) with (1024 * (n / 1024)) by lia. unfold cell, shift, arr. rewrite Sr, Sx. cbn [fst snd dot]. f_equal; [f_equal; lia|]. apply map_ext. intro i. f_equal. lia.
        -- pose proof (f_equal (map (fun c => nth 0 c 0)) (th_t (n mod 1024))) as T. rewrite ai1, !map_map in T. cbn [k_t nth] in T. rewrite map_id in T. now rewrite <- T.
      * replace (n mod 1024) with 0 by lia. reflexivity.
Qed.
Lemma sum1_done r x m a n b : operands r [x] m -> vdims x = [a; n; b] -> vdims r = [a; b] -> 0 < a <= 2147483647 -> 0 < b <= 1024 ->
  exists plan, cu_sum1 r x = Ok plan /\ forall orders, any_order plan orders -> exists m', cu_exec (f_sumc c1) orders m = Ok m' /\
    gains r (fun ix => rsum (map (fun i => elem0 m x [nth 0 ix 0; i; nth 1 ix 0]) (zrange n))) m m'.
Proof.
  intros Op Dx Dr Ha Hb. pose proof (first_wf _ _ _ _ Op) as Wx. assert (Wr : vwf r) by apply Op. destruct (nd3 x a n b Dx) as (X0 & X1 & X2). destruct (nd2 r a b Dr) as [R0 R1].
  assert (Lx : length (vstr x) = length (vdims x)) by apply Wx. assert (Lr : length (vstr r) = length (vdims r)) by apply Wr. rewrite Dx in Lx. rewrite Dr in Lr.
  destruct (vstr x) as [|t0 [|t1 [|t2 [|]]]] eqn:Sx; try discriminate. destruct (vstr r) as [|s0 [|s1 [|]]] eqn:Sr; try discriminate. destruct (three x a n b t0 t1 t2 Dx Sx) as (_ & _ & _ & X3 & X4 & X5). destruct (two r a b s0 s1 Dr Sr) as (_ & _ & R2 & R3).
  unfold cu_sum1. rewrite X0, X1, X2, X3, X4, X5, R0, R1, R2, R3, !Z.eqb_refl. cbn [assrt]. replace (b <=? 1024) with true by lia. rewrite ok_true by lia. eexists. split; [reflexivity|]. intros orders O.
  edestruct (sum_gains c1 r x m (zrange n) (fun ix i => [nth 0 ix 0; i; nth 1 ix 0])) as (m' & E & G); [exact Op| | |exact O|].
  - intros ix i I J. apply in_zrange in J. rewrite Dr in I. rewrite Dx. rng. cbn [nth]. inr.
  - rewrite Dr. cbn [concat]. rewrite app_nil_r. rewrite <- th_bt, map_map. erewrite map_ext; [reflexivity|]. intro t. unfold k_bt, cell, shift, arr. rewrite Sr, Sx. cbn [fst snd dot nth]. f_equal; [f_equal; lia|]. apply map_ext. intro i. f_equal. lia.
  - exists m'. split; [exact E|]. eapply gains_ext; [|exact G]. intros ix _. cbn beta. ring.
Qed.
Lemma sum1_missed r x a n b : vdims x = [a; n; b] -> vdims r = [a; b] -> 1024 < b -> cu_sum1 r x = Ok [].
Proof.
  intros Dx Dr H. destruct (nd3 x a n b Dx) as (X0 & X1 & X2). destruct (nd2 r a b Dr) as [R0 R1]. unfold cu_sum1. rewrite X0, X2, R0, R1, !Z.eqb_refl. cbn [assrt]. now replace (b <=? 1024) with false by lia.
Qed.
End Sum.

(* ---- rectifier ---- *)
Lemma relu_perm r xs n : vdims r = [n] -> 0 <= n <= 2147483647 -> vstr r = [1] -> Forall (fun x => vdims x = [n] /\ vstr x = [1]) xs -> exists plan, cu_relu r xs = Ok plan /\ Permutation (concat plan) (entries r xs).
Proof.
  intros Dr Hn Sr F. pose proof (nd1 r n Dr) as R0. assert (F1 : forallb (fun x => nd x 0 =? n) xs = true) by (apply forallb_forall; intros x I; rewrite Forall_forall in F; destruct (F x I) as [A _]; rewrite (nd1 x n A); apply Z.eqb_refl).
  assert (F2 : forallb (fun x => sd x 0 =? 1) (r :: xs) = true).
  { cbn [forallb]. unfold sd at 1. rewrite Sr. cbn [nth Z.eqb Pos.eqb andb]. apply forallb_forall. intros x I. rewrite Forall_forall in F. destruct (F x I) as [_ A]. unfold sd. rewrite A. reflexivity. }
  unfold cu_relu. rewrite R0, F1, F2. cbn [assrt]. eexists. split; [reflexivity|]. pose proof (Z_div_mod_eq_full n 32) as Q. pose proof (Z.mod_pos_bound n 32 ltac:(lia)) as Q2. assert (0 <= n / 32) by lia.
  assert (C1 : forall j, (shift (arr r) j, map (fun x => shift x j) (map arr xs)) = (cell r [j], map (fun x => cell x [j]) xs)).
  { intro j. unfold cell at 1. rewrite Sr. cbn [dot]. f_equal; [unfold shift, arr; cbn [fst snd]; f_equal; lia|]. rewrite map_map. apply map_ext_in. intros x I. rewrite Forall_forall in F. destruct (F x I) as [_ A]. unfold cell, shift, arr. rewrite A. cbn [fst snd dot]. f_equal. lia. }
  assert (P : forall g b o, 0 <= o -> relu_launch g b o (arr r) (map arr xs) = if cu_ok (g, 1, 1) (b, 1, 1) then map (fun c => (cell r [o + (nth 0 c 0 * 32 + nth 1 c 0)], map (fun x => cell x [o + (nth 0 c 0 * 32 + nth 1 c 0)]) xs)) (all_indices [g; b]) else []).
  { intros g b o Ho. unfold relu_launch. destruct (cu_ok (g, 1, 1) (b, 1, 1)); [|reflexivity]. rewrite <- th_bt, map_map. apply map_ext. intro t. unfold k_bt. cbn [nth]. apply C1. }
  assert (P1 : concat (if 32 <=? n then [relu_launch (n / 32) 32 0 (arr r) (map arr xs)] else []) = map (fun j => (cell r [j], map (fun x => cell x [j]) xs)) (zrange (n / 32 * 32))).
  { destruct (32 <=? n) eqn:E.
    - cbn [concat]. rewrite app_nil_r, P by lia. rewrite ok_true by lia. rewrite zrange_mul by lia. rewrite map_flat_map. erewrite (flat_map_ext (fun i => map _ (map _ _))); [|intro i; rewrite map_map; reflexivity].
      rewrite (all2 (fun i j => (cell r [i * 32 + j], map (fun x => cell x [i * 32 + j]) xs))). reflexivity.
    - replace (n / 32) with 0 by (symmetry; apply Z.div_small; lia). reflexivity. }
  rewrite concat_app, P1. unfold entries. rewrite Dr, ai1, map_map. replace (zrange n) with (zrange (n / 32 * 32) ++ map (Z.add (n / 32 * 32)) (zrange (n mod 32))) by (rewrite <- zrange_app by lia; f_equal; lia). rewrite map_app. apply Permutation_app_head. destruct (0 <? n mod 32) eqn:E.
  - cbn [concat]. rewrite app_nil_r, P by lia. rewrite ok_true by lia. rewrite map_map. change (all_indices [1; n mod 32]) with (map (cons 0) (all_indices [n mod 32]) ++ []). rewrite app_nil_r, ai1, !map_map. reflexivity.
  - replace (n mod 32) with 0 by lia. reflexivity.
Qed.
Lemma relu_done {V} (f : V -> list V -> V) r xs (m : mem V) n : vwf r -> distinct_cells r -> readable m r -> Forall (fun x => vwf x /\ vdims x = vdims r /\ readable m x /\ no_clobber r x) xs ->
  vdims r = [n] -> n <= 2147483647 -> Forall (fun v => vstr v = [1]) (r :: xs) ->
  exists plan, cu_relu r xs = Ok plan /\ forall orders, any_order plan orders -> exists m', cu_exec f orders m = Ok m' /\ done f r xs m m'.
Proof.
  intros Wr Di Rr F Dr Hn S. inversion S as [|? ? Sr S']; subst. assert (0 <= n) by (destruct Wr as [_ N]; rewrite Dr in N; now inversion N).
  destruct (relu_perm r xs n Dr ltac:(lia) Sr) as (plan & E & P).
  - rewrite Forall_forall in *. intros x I. split; [|now apply S']. rewrite <- Dr. now apply F.
  - exists plan. split; [exact E|]. intros orders O. rewrite exec_run. apply (elementwise_of_run f r xs m (concat orders) Wr Di Rr F). rewrite <- P. now apply order_concat.
Qed.
