(* Prop_Graph2.v -- C153-C157: named graphs, graphs and matrices, equality of graphs, placing a graph in another, building from edges. *)
From Verif Require Import Base BaseFacts Map Proofs_Containers2 Model_Containers Proofs_Containers Proofs_Containers4 Model_Tree Model_Graph Spec_Graph Proofs_Graph Proofs_Graph2 Proofs_Graph5
  Model_Index Model_View Model_Tensor Model_Ops Model_RView Spec_Index Spec_View Spec_Tensor Proofs_Tensor Proofs_Tensor2 Proofs_Tensor3 Spec_Ops Proofs_Ops Proofs_Ops2 Model_Graph2 Spec_Graph2 Proofs_Graph7 Proofs_Graph8.
From Verif Require Import Spec_Graph.
Local Open Scope Z_scope.

(* ---- C153 ---- *)
Theorem C153_complete n : 0 <= n -> is_graph (g_complete n) n (fun i j => 0 <= i < n /\ 0 <= j < n /\ i <> j) (n * (n - 1) / 2).
Proof. apply complete_ok. Qed.
Theorem C153_cycle n : 3 <= n -> is_graph (g_cycle n) n (fun i j => 0 <= i < n /\ 0 <= j < n /\ (j = (i + 1) mod n \/ i = (j + 1) mod n)) n.
Proof. apply cycle_ok. Qed.
Theorem C153_star m : (0 <= m -> exists g, g_star m = Ok g /\ is_graph g (m + 1) (fun i j => (i = 0 /\ 1 <= j <= m) \/ (j = 0 /\ 1 <= i <= m)) m) /\ (m < 0 -> g_star m = Throw).
Proof. split; [apply star_ok|]. intro H. unfold g_star. now replace (m <? 0) with true by lia. Qed.
(* the small ones are cases of the others *)
Theorem C153_small : is_graph g_trivial 1 (fun _ _ => False) 0 /\ is_graph g_edge 2 (fun i j => 0 <= i < 2 /\ 0 <= j < 2 /\ i <> j) 1 /\
  is_graph g_triangle 3 (fun i j => 0 <= i < 3 /\ 0 <= j < 3 /\ i <> j) 3 /\
  is_graph g_square 4 (fun i j => 0 <= i < 4 /\ 0 <= j < 4 /\ (j = (i + 1) mod 4 \/ i = (j + 1) mod 4)) 4.
Proof.
  split; [|split; [|split]].
  - destruct (complete_ok 1 ltac:(lia)) as (A & B & C & D). change g_trivial with (g_complete 1). split; [exact A|]. split; [exact B|]. split; [|exact D]. intros i j v. rewrite C. lia.
  - destruct (star_ok 1 ltac:(lia)) as (g & E & A & B & C & D). injection E as <-. split; [exact A|]. split; [exact B|]. split; [|exact D]. intros i j v. change g_edge with (gof (1 + 1) (map (fun i => (0, i + 1)) (zrange 1))). rewrite C. lia.
  - destruct (cycle_ok 3 ltac:(lia)) as (A & B & C & D). change g_triangle with (g_cycle 3). split; [exact A|]. split; [exact B|]. split; [|exact D]. intros i j v. rewrite C. split.
    + intros (-> & Ri & Rj & H). rewrite (wrap 3 i j Ri), (wrap 3 j i Rj) in H. lia.
    + intros (-> & Ri & Rj & H). split; [reflexivity|]. split; [exact Ri|]. split; [exact Rj|]. rewrite (wrap 3 i j Ri), (wrap 3 j i Rj). lia.
  - exact (cycle_ok 4 ltac:(lia)).
Qed.
(* cycle(1) is a self loop that is counted as no edge, cycle(2) has one edge, and cycle(n) for n<=0 joins two numbers that are not vertices *)
Theorem C153_cycle_refuted : (exists v, entry 0 0 v (gd (g_cycle 1))) /\ gnedges (g_cycle 1) = 0 /\ gnedges (g_cycle 2) = 1 /\
  forall n, n <= 0 -> gn (g_cycle n) = n /\ entry (n - 1) 0 1 (gd (g_cycle n)) /\ ~ good (g_cycle n).
Proof.
  split; [exists 1; apply gof_entry; split; [reflexivity|left; rewrite in_app_iff; right; now left]|]. split; [reflexivity|]. split; [reflexivity|]. intros n Hn. assert (E : entry (n - 1) 0 1 (gd (g_cycle n))) by (apply gof_entry; split; [reflexivity|]; left; rewrite in_app_iff; cbn; auto).
  split; [apply gof_n|]. split; [exact E|]. intro G. apply (good_range _ G) in E. lia.
Qed.
Example C153_case : is_graph (g_complete 5) 5 (fun i j => 0 <= i < 5 /\ 0 <= j < 5 /\ i <> j) 10 /\ gedges (g_cycle 4) = [(0, 1, 1); (0, 3, 1); (1, 2, 1); (2, 3, 1)] /\ (do g <- g_star 3; Ok (gedges g)) = Ok [(0, 1, 1); (0, 2, 1); (0, 3, 1)].
Proof. split; [exact (complete_ok 5 ltac:(lia))|]. vm_compute. auto. Qed.
Print Assumptions C153_complete.
Print Assumptions C153_cycle.
Print Assumptions C153_star.
Print Assumptions C153_small.
Print Assumptions C153_cycle_refuted.

(* ---- C154 ---- *)
Theorem C154_dense b g (m : mem Z) : good g -> 0 <= gn g ->
  exists r m', g_dense b g m = Ok (r, m') /\ makes b m m' r [gn g; gn g] (fun ix => gget (nth 0 ix 0) (nth 1 ix 0) g).
Proof. apply dense_ok. Qed.
(* a graph read from a matrix: f is the matrix *)
Theorem C154_of_dense x (m : mem Z) n f : 0 <= n -> vdims x = [n; n] -> (forall i j, 0 <= i < n -> 0 <= j < n -> elem m x [i; j] = Some (f i j)) ->
  exists g, g_of_dense x m = Ok g /\ gn g = n /\ good g /\ forall i j v, entry i j v (gd g) <-> 0 <= i < n /\ 0 <= j < n /\ v = f (Z.max i j) (Z.min i j) /\ v <> 0.
Proof. apply of_dense_ok. Qed.
Theorem C154_of_dense_shape x (m : mem Z) : (forall n, vdims x <> [n; n]) -> g_of_dense x m = Throw.
Proof. intro N. unfold g_of_dense. destruct (vdims x) as [|a [|c [|d l]]] eqn:D; try reflexivity. destruct (Z.eqb_spec a c) as [->|]; [now destruct (N c)|reflexivity]. Qed.
(* graph to matrix to graph: every weight survives, the edges of weight zero do not *)
Theorem C154_round_trip b g (m : mem Z) : good g -> 0 <= gn g ->
  exists r m' g', g_dense b g m = Ok (r, m') /\ g_of_dense r m' = Ok g' /\ gn g' = gn g /\ (forall i j, gget i j g' = gget i j g) /\ (forall i j v, entry i j v (gd g') <-> v <> 0 /\ entry i j v (gd g)).
Proof.
  intros G Hn. destruct (dense_ok b g m G Hn) as (r & m' & E & D & Bl & W & Dc & El & _). exists r, m'.
  destruct (of_dense_ok r m' (gn g) (fun i j => gget i j g) Hn D) as (g' & E' & N' & G' & C).
  { intros i j Hi Hj. apply (El [i; j]). repeat constructor; lia. }
  exists g'. split; [exact E|]. split; [exact E'|]. split; [exact N'|].
  pose proof (proj1 (tables_wf _) (good_tables g G)) as Wg. pose proof (proj1 (tables_wf _) (good_tables g' G')) as Wg'.
  assert (K : forall i j v, entry i j v (gd g') <-> v <> 0 /\ entry i j v (gd g)).
  { intros i j v. rewrite C. assert (Mx : gget (Z.max i j) (Z.min i j) g = gget i j g) by (destruct (Z.le_ge_cases i j); [rewrite Z.max_r, Z.min_l by lia; now apply sym_get|now rewrite Z.max_l, Z.min_r by lia]). rewrite Mx, gget_find. split.
    - intros (Ri & Rj & -> & N). split; [exact N|]. destruct (mom_find i j (gd g)) as [v|] eqn:F; [now apply entry_find|congruence].
    - intros [N Ev]. pose proof (good_range g G i j v Ev) as [Ri Rj]. apply entry_find in Ev; [|exact Wg]. rewrite Ev. auto. }
  split; [|exact K]. intros i j. rewrite !gget_find. destruct (mom_find i j (gd g')) as [v|] eqn:F.
  - apply entry_find, K in F; [|exact Wg']. destruct F as [_ F]. apply entry_find in F; [|exact Wg]. now rewrite F.
  - destruct (mom_find i j (gd g)) as [v|] eqn:F'; [|reflexivity]. destruct (Z.eq_dec v 0) as [->|N]; [reflexivity|]. apply entry_find in F'; [|exact Wg]. assert (X : entry i j v (gd g')) by (apply K; auto). apply entry_find in X; [|exact Wg']. congruence.
Qed.
(* the upper half of a matrix is never read: where it differs from the lower half it is lost *)
Theorem C154_upper_refuted x (m : mem Z) n f i j : 0 <= i < j -> j < n -> vdims x = [n; n] -> (forall i j, 0 <= i < n -> 0 <= j < n -> elem m x [i; j] = Some (f i j)) -> f i j <> f j i ->
  exists g, g_of_dense x m = Ok g /\ gget i j g = f j i /\ gget i j g <> f i j.
Proof.
  intros Hi Hj D F N. destruct (of_dense_ok x m n f ltac:(lia) D F) as (g & E & N' & G & C). exists g. split; [exact E|]. pose proof (proj1 (tables_wf _) (good_tables g G)) as W. assert (K : gget i j g = f j i); [|split; [exact K|congruence]].
  rewrite gget_find. destruct (mom_find i j (gd g)) as [v|] eqn:Fd.
  - apply entry_find, C in Fd; [|exact W]. rewrite Z.max_r, Z.min_l in Fd by lia. lia.
  - destruct (Z.eq_dec (f j i) 0) as [->|Nz]; [reflexivity|]. assert (X : entry i j (f j i) (gd g)) by (apply C; rewrite Z.max_r, Z.min_l by lia; lia). apply entry_find in X; [|exact W]. congruence.
Qed.
(* an edge to a vertex beyond the last is accepted by set and makes dense() write outside the matrix *)
Theorem C154_outside_refuted b g (m : mem Z) i j v : good g -> 0 <= j -> gn g <= i -> 0 <= gn g -> g_dense b (gset i j v g) m = UB.
Proof.
  intros G Hj Hi Hn. pose proof (proj1 (tables_wf _) (good_tables g G)) as W. assert (W' : momwf (gd (gset i j v g))) by now apply gset_wf.
  apply (dense_outside b _ m i j v); [now apply tables_wf| |exact Hi|exact Hn|exact Hj]. apply entry_find; [exact W'|]. rewrite gset_find. now rewrite (proj2 (hits_iff i j i j v)) by auto.
Qed.
Example C154_case : let g := inserts 3 [(0, 1, 5); (2, 2, 7); (1, 2, 0)] in good g /\
  (do ' (r, m) <- g_dense 4 g (fun _ _ => None); Ok (map (fun k => m 4 k) (zrange 9))) = Ok (map Some [0; 5; 0; 5; 0; 0; 0; 0; 7]) /\
  (do ' (r, m) <- g_dense 4 g (fun _ _ => None); do g' <- g_of_dense r m; Ok (gedges g')) = Ok [(0, 1, 5); (2, 2, 7)].
Proof. cbv zeta. split; [apply inserts_good; repeat constructor; cbn; lia|]. vm_compute. auto. Qed.
Example C154_case_upper : (do g <- g_of_dense (View 0 0 [2; 2] [2; 1]) (fun _ a => nth_error [0; 9; 4; 0] (Z.to_nat a)); Ok (gedges g)) = Ok [(0, 1, 4)].
Proof. reflexivity. Qed.
Print Assumptions C154_dense.
Print Assumptions C154_of_dense.
Print Assumptions C154_of_dense_shape.
Print Assumptions C154_round_trip.
Print Assumptions C154_upper_refuted.
Print Assumptions C154_outside_refuted.

(* ---- C155.  Two graphs, each built by any sequence of set and of questions about neighbours. ---- *)
Theorem C155_equality n k os ps : g_eq (ghist n os) (ghist k ps) = true <->
  n = k /\ (forall i j, last_pair i j (gwrites os) = last_pair i j (gwrites ps)) /\ (forall i, Exists (gmentions i) os <-> Exists (gmentions i) ps).
Proof. apply ghist_eq. Qed.
Theorem C155_equality_sets n k es fs : g_eq (inserts n es) (inserts k fs) = true <-> n = k /\ forall i j, last_pair i j es = last_pair i j fs.
Proof.
  set (mk := map (fun e : Z * Z * Z => GSet (fst (fst e)) (snd (fst e)) (snd e))).
  assert (A : forall n l, inserts n l = ghist n (mk l)). { intros n0 l. induction l as [|e l IH] using rev_ind; [reflexivity|]. unfold mk in *. rewrite map_app. cbn [map]. rewrite ghist_snoc, inserts_snoc, IH. reflexivity. }
  assert (B : forall l, gwrites (mk l) = l). { intro l. unfold gwrites, mk. induction l as [|[[a b] v] l IH]; [reflexivity|]. cbn in *. now rewrite IH. }
  assert (C : forall l i, Exists (gmentions i) (mk l) <-> exists j v, last_pair i j l = Some v).
  { intros l i. split.
    - intro E. apply Exists_exists in E. destruct E as (o & I & M). unfold mk in I. apply in_map_iff in I. destruct I as ([[a b] v] & <- & I). cbn in M.
      assert (X : forall j, hits i j (a, b, v) = true -> exists w, last_pair i j l = Some w).
      { intros j Hh. clear M B A. induction l as [|e l IH] using rev_ind; [contradiction|]. rewrite last_pair_snoc. destruct (hits i j e) eqn:Q; [eauto|]. apply in_app_iff in I. destruct I as [I|[->|[]]]; [auto|congruence]. }
      destruct M as [->| ->]; [exists b|exists a]; apply X, hits_iff; auto.
    - intros (j & v & E). apply last_pair_in in E. destruct E as ([[a b] w] & I & Hh). apply Exists_exists. exists (GSet a b w). split; [unfold mk; apply in_map_iff; exists (a, b, w); auto|]. apply hits_iff in Hh. cbn. lia. }
  rewrite !A, ghist_eq, !B. split; [tauto|]. intros [-> H]. split; [reflexivity|]. split; [exact H|]. intro i. rewrite !C. split; intros (j & v & E); exists j, v; [rewrite <- H|rewrite H]; exact E.
Qed.
(* asking one of two equal graphs for the neighbours of a vertex without any makes them different *)
Theorem C155_asking_refuted n es i : (forall j, last_pair i j es = None) ->
  fst (g_neighbors i (inserts n es)) = [] /\ g_eq (inserts n es) (inserts n es) = true /\ g_eq (snd (g_neighbors i (inserts n es))) (inserts n es) = false.
Proof.
  intro N. assert (Rw : mom_row i (gd (inserts n es)) = []).
  { destruct (mom_row i (gd (inserts n es))) as [|[j v] r] eqn:E; [reflexivity|]. assert (I : In (j, v) (mom_row i (gd (inserts n es)))) by (rewrite E; now left). apply row_in in I; [|apply inserts_wf]. rewrite inserts_find, N in I. discriminate. }
  assert (Fn : mfind i (gd (inserts n es)) = None).
  { destruct (mfind i (gd (inserts n es))) as [r|] eqn:E; [|reflexivity]. exfalso. clear Rw. revert r E. induction es as [|[[a b] v] es IH] using rev_ind; intros r E; [discriminate E|].
    assert (N' : forall j, last_pair i j es = None). { intro j. specialize (N j). rewrite last_pair_snoc in N. destruct (hits i j (a, b, v)); [discriminate|exact N]. }
    rewrite inserts_snoc in E. cbn [gset gd fst snd] in E. assert (X : mfind i (mom_set b a v (mom_set a b v (gd (inserts n es)))) <> None) by congruence. rewrite !set_rows in X.
    destruct X as [->|[->|X]].
    - specialize (N a). rewrite last_pair_snoc, (proj2 (hits_iff b a a b v)) in N by auto. discriminate.
    - specialize (N b). rewrite last_pair_snoc, (proj2 (hits_iff a b a b v)) in N by auto. discriminate.
    - destruct (mfind i (gd (inserts n es))) as [r'|] eqn:E2; [|congruence]. exact (IH N' r' eq_refl). }
  split; [|split].
  - unfold g_neighbors. cbn [fst]. unfold gneighbors. cbn [g_touch gd]. unfold mom_touch. rewrite Fn. unfold mom_row. rewrite mfind_set, Z.eqb_refl. reflexivity.
  - apply C155_equality_sets. auto.
  - destruct (g_eq (snd (g_neighbors i (inserts n es))) (inserts n es)) eqn:Q; [|reflexivity]. exfalso. unfold g_eq, mom_eq in Q. rewrite !andb_true_iff in Q. destruct Q as [_ [Q _]].
    cbn [snd g_neighbors g_touch gd] in Q. apply subset_rows in Q; [|apply touch_wf, inserts_wf]. destruct Q as [Q _]. apply (Q i); [apply touch_rows; now left|exact Fn].
Qed.
Example C155_case : g_eq (inserts 3 [(0, 1, 5); (2, 1, 4); (1, 0, 6)]) (inserts 3 [(1, 2, 4); (0, 1, 6)]) = true /\
  g_eq (ghist 3 [GSet 0 1 5; GAsk 2]) (ghist 3 [GSet 0 1 5]) = false /\ g_eq (ghist 3 [GSet 0 1 5; GAsk 2]) (ghist 3 [GAsk 2; GSet 1 0 5]) = true.
Proof. vm_compute. auto. Qed.
Print Assumptions C155_equality.
Print Assumptions C155_equality_sets.
Print Assumptions C155_asking_refuted.

(* ---- C156 ---- *)
Theorem C156_insert H v g : good g -> good H -> NoDup v -> gn H <= Z.of_nat (length v) -> (forall p, In p v -> 0 <= p < gn g) ->
  let at_ i := nth (Z.to_nat i) v 0 in
  exists g', g_insert H v g = Ok g' /\ good g' /\ gn g' = gn g /\ glab g' = glab g /\ gdeg g' = gdeg g /\
    (forall i j x, edge H i j -> (entry (at_ i) (at_ j) x (gd g') <-> entry i j x (gd H))) /\
    (forall a b x, (forall i j, edge H i j -> ~ (a = at_ i /\ b = at_ j)) -> (entry a b x (gd g') <-> entry a b x (gd g))).
Proof. apply insert_ok. Qed.
Theorem C156_insert_refused H v g p : In p v -> gn g <= p -> g_insert H v g = Throw.
Proof.
  intros I Hp. unfold g_insert. destruct (forallb _ v) eqn:E; [|reflexivity]. rewrite forallb_forall in E. specialize (E p I). lia.
Qed.
(* the number of places is not compared with the number of vertices of H, and negative places are accepted *)
Theorem C156_insert_short_refuted H v g i j : good H -> edge H i j -> Z.of_nat (length v) <= j -> (forall p, In p v -> p < gn g) -> g_insert H v g = UB.
Proof. intros GH [x E] L P. exact (insert_short H v g i j x GH E L P). Qed.
Theorem C156_insert_negative_refuted g p : good g -> p < 0 -> 0 < gn g -> exists g', g_insert g_edge [p; 0] g = Ok g' /\ edge g' p 0 /\ ~ good g'.
Proof.
  intros G Hp Hn. exists (gset p 0 1 g). assert (E : edge (gset p 0 1 g) p 0).
  { exists 1. apply entry_find; [apply gset_wf; exact (proj1 (tables_wf _) (good_tables g G))|]. rewrite gset_find, (proj2 (hits_iff p 0 p 0 1)) by auto. reflexivity. }
  split; [|split; [exact E|]].
  - unfold g_insert. cbn [forallb]. replace (p <? gn g) with true by lia. replace (0 <? gn g) with true by lia. reflexivity.
  - intro G'. destruct E as [x E]. apply (good_range _ G') in E. lia.
Qed.
Example C156_case : let g := inserts 5 [(0, 1, 9); (1, 3, 2)] in good g /\ good g_triangle /\ (do g' <- g_insert g_triangle [1; 4; 3] g; Ok (gedges g')) = Ok [(0, 1, 9); (1, 3, 1); (1, 4, 1); (3, 4, 1)] /\
  g_insert g_triangle [1; 4] g = UB /\ g_insert g_triangle [1; 4; 5] g = Throw.
Proof. cbv zeta. split; [apply inserts_good; repeat constructor; cbn; lia|]. split; [exact (proj1 (proj2 (cycle_ok 3 ltac:(lia))))|]. vm_compute. auto. Qed.
Print Assumptions C156_insert.
Print Assumptions C156_insert_refused.
Print Assumptions C156_insert_short_refuted.
Print Assumptions C156_insert_negative_refuted.

(* ---- C157 ---- *)
Theorem C157_of_list l : let g := g_of_list l in
  (forall i j v, entry i j v (gd g) <-> v = 1 /\ (In (i, j) l \/ In (j, i) l)) /\
  ((forall a b, In (a, b) l -> 0 <= a /\ 0 <= b) -> good g /\ (l <> [] -> exists a b, In (a, b) l /\ gn g = Z.max a b + 1) /\ (l = [] -> gn g = 1)).
Proof.
  cbv zeta. unfold g_of_list. split; [intros; apply gof_entry|]. intro P. rewrite gof_n. pose proof (list_max l 0) as X. cbv zeta in X. set (M := fold_left _ l 0) in *. destruct X as (A & B & C). split; [|split].
  - apply gof_good. intros a b I. pose proof (P a b I). pose proof (B a b I). lia.
  - intro N. destruct C as [C|(a & b & I & C)].
    + destruct l as [|[a b] l']; [contradiction|]. exists a, b. split; [now left|]. pose proof (P a b ltac:(now left)). pose proof (B a b ltac:(now left)). lia.
    + exists a, b. split; [exact I|]. pose proof (B a b I). lia.
  - intros ->. reflexivity.
Qed.
Theorem C157_of_edges n e (m : mem Z) k f : vwf e -> nonneg (vstr e) -> distinct_cells e -> vdims e = [2; k] -> 0 < k ->
  (forall r i, 0 <= r < 2 -> 0 <= i < k -> elem m e [r; i] = Some (f r i)) ->
  ((forall r i, 0 <= r < 2 -> 0 <= i < k -> f r i < n) -> exists g, g_of_edges n e m = Ok g /\ gn g = n /\
     (forall i j v, entry i j v (gd g) <-> v = 1 /\ exists t, 0 <= t < k /\ ((f 0 t = i /\ f 1 t = j) \/ (f 0 t = j /\ f 1 t = i))) /\
     ((forall r i, 0 <= r < 2 -> 0 <= i < k -> 0 <= f r i) -> good g)) /\
  ((exists r i, 0 <= r < 2 /\ 0 <= i < k /\ n <= f r i) -> g_of_edges n e m = Throw).
Proof.
  intros W Ns Hd D Hk F. split.
  - intro Lt. eexists. split; [apply (of_edges_ok n e m k f); assumption|]. split; [apply gof_n|].
    assert (IL : forall i j, In (i, j) (map (fun i => (f 0 i, f 1 i)) (zrange k)) <-> exists t, 0 <= t < k /\ f 0 t = i /\ f 1 t = j).
    { intros i j. rewrite in_map_iff. split; [intros (t & E & I); injection E as <- <-; apply in_zrange in I; eauto|]. intros (t & Ht & <- & <-). exists t. split; [reflexivity|now apply in_zrange]. }
    split.
    + intros i j v. rewrite gof_entry, !IL. split; (intros [-> H]; split; [reflexivity|]).
      * destruct H as [(t & A & B)|(t & A & B)]; exists t; auto.
      * destruct H as (t & A & [B|B]); [left|right]; exists t; auto.
    + intro P. apply gof_good. intros a b I. apply IL in I. destruct I as (t & Ht & <- & <-). pose proof (P 0 t ltac:(lia) Ht). pose proof (P 1 t ltac:(lia) Ht). pose proof (Lt 0 t ltac:(lia) Ht). pose proof (Lt 1 t ltac:(lia) Ht). lia.
  - intros (r & i & Hr & Hi & Hf). now apply (of_edges_high n e m k f r i).
Qed.
Theorem C157_of_no_edges n e (m : mem Z) : vdims e = [2; 0] -> (0 < n -> g_of_edges n e m = Ok (gnew n)) /\ (n <= 0 -> g_of_edges n e m = Throw).
Proof. intro D. rewrite (of_edges_none n e m D). split; intro H; [now replace (0 <? n) with true by lia|now replace (0 <? n) with false by lia]. Qed.
Theorem C157_shape_refused n e (m : mem Z) : (forall k, vdims e <> [2; k]) -> g_of_edges n e m = Throw.
Proof.
  intro H. unfold g_of_edges. destruct (vdims e) as [|d [|k [|? ?]]] eqn:E; try reflexivity. destruct (d =? 2) eqn:D; [|reflexivity]. destruct (H k). f_equal. lia.
Qed.
(* only the largest entry is checked: an edge to a negative number is accepted *)
Theorem C157_negative_refuted n p : p < 0 -> 0 < n ->
  let e := fresh_view 0 [2; 1] in let m := fun b a => if (b =? 0) && (a =? 0) then Some p else if (b =? 0) && (a =? 1) then Some 0 else None in
  exists g, g_of_edges n e m = Ok g /\ edge g p 0 /\ ~ good g.
Proof.
  intros Hp Hn. cbv zeta. set (m := fun b a => if (b =? 0) && (a =? 0) then Some p else if (b =? 0) && (a =? 1) then Some 0 else None). set (f := fun r (_ : Z) => if r =? 0 then p else 0).
  exists (gof n [(p, 0)]). assert (E : edge (gof n [(p, 0)]) p 0) by (exists 1; apply gof_entry; cbn; auto). split; [|split; [exact E|intro G; destruct E as [x E]; apply (good_range _ G) in E; lia]].
  assert (Nn : nonneg [2; 1]) by (repeat constructor; lia). rewrite (of_edges_ok n _ m 1 f); [reflexivity|now apply fresh_vwf|repeat constructor; cbn; lia|now apply fresh_distinct|reflexivity|lia| |].
  - intros r i Hr Hi. replace i with 0 by lia. assert (r = 0 \/ r = 1) as [->| ->] by lia; reflexivity.
  - intros r i Hr Hi. unfold f. destruct (r =? 0); lia.
Qed.
(* labels: attached by set_labels and set_degrees; the constructor that takes them always fails *)
Theorem C157_labels lab g : (Z.of_nat (length lab) = gn g -> exists g', g_set_labels lab g = Ok g' /\ gn g' = gn g /\ gd g' = gd g /\ gdeg g' = gdeg g /\ exists L, glab g' = Some L /\ forall i, 0 <= i < gn g -> L i = [nth (Z.to_nat i) lab 0]) /\
  (Z.of_nat (length lab) = gn g -> exists g', g_set_degrees lab g = Ok g' /\ gn g' = gn g /\ gd g' = gd g /\ glab g' = glab g /\ exists D, gdeg g' = Some D /\ forall i, 0 <= i < gn g -> D i = nth (Z.to_nat i) lab 0) /\
  (Z.of_nat (length lab) <> gn g -> g_set_labels lab g = Throw /\ g_set_degrees lab g = Throw).
Proof.
  unfold g_set_labels, g_set_degrees. split; [|split]; intro E; [rewrite (proj2 (Z.eqb_eq _ _) E)..|rewrite (proj2 (Z.eqb_neq _ _) E)]; cbn [assrt].
  - eexists. split; [reflexivity|]. repeat (split; [reflexivity|]). eexists. split; [reflexivity|]. reflexivity.
  - eexists. split; [reflexivity|]. repeat (split; [reflexivity|]). eexists. split; [reflexivity|]. reflexivity.
  - auto.
Qed.
Theorem C157_labelled_constructor_refuted n l ldims : ldims <> [] -> g_labelled n l ldims = Throw.
Proof. destruct ldims; [contradiction|reflexivity]. Qed.
Example C157_case : let e := fresh_view 0 [2; 3] in let m := fun b a => if b =? 0 then nth_error [0; 1; 2; 1; 3; 2] (Z.to_nat a) else None in
  (do g <- g_of_edges 4 e m; Ok (gedges g)) = Ok [(0, 1, 1); (1, 3, 1); (2, 2, 1)] /\ g_of_edges 3 e m = Throw /\ gn (g_of_list [(0, 1); (4, 2)]) = 5 /\
  (do g <- g_set_labels [7; 8; 7] g_triangle; Ok (g_eq g g_triangle, g_eq g g)) = Ok (false, true).
Proof. vm_compute. auto. Qed.
Print Assumptions C157_of_list.
Print Assumptions C157_shape_refused.
Print Assumptions C157_of_edges.
Print Assumptions C157_of_no_edges.
Print Assumptions C157_negative_refuted.
Print Assumptions C157_labels.
Print Assumptions C157_labelled_constructor_refuted.
