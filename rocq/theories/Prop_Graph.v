(* Prop_Graph.v -- C56, C57, C58, C59: sparse graphs, integer pools, spanning trees, planted subgraphs. *)
From Verif Require Import Base BaseFacts Map Proofs_Containers2 Model_Containers Proofs_Containers Proofs_Containers4 Model_Tree Proofs_Tree Proofs_Tree2 Model_Graph Spec_Graph
  Proofs_Graph Proofs_Graph2 Proofs_Graph3 Proofs_Graph4 Proofs_Graph5 Proofs_Graph6.
Local Open Scope Z_scope.

(* ---- C56.  es is any sequence of set(i,j,v); m are the resulting hash tables walked in any order. ---- *)
Theorem C56_symmetric_last_value n es m : same_tables (gd (inserts n es)) m -> let g := Graph n m None None in
  (forall i j, gneighbor i j g = gneighbor j i g) /\ (forall i j, gget i j g = gget j i g) /\
  (forall i j, gneighbor i j g = true <-> exists v, last_pair i j es = Some v) /\
  (forall i j, gget i j g = match last_pair i j es with Some v => v | None => 0 end).
Proof.
  intros Hs g. apply same_find in Hs. destruct Hs as (A & B & C).
  assert (F : forall i j, mom_find i j m = last_pair i j es) by (intros i j; now rewrite <- C, inserts_find).
  assert (N : forall i j, gneighbor i j g = match last_pair i j es with Some _ => true | None => false end) by (intros i j; unfold gneighbor; cbn; now rewrite mom_filled_find, F).
  assert (V : forall i j, gget i j g = match last_pair i j es with Some v => v | None => 0 end) by (intros i j; now rewrite gget_find; cbn; rewrite F).
  split; [intros i j; now rewrite !N, last_pair_sym|]. split; [intros i j; now rewrite !V, last_pair_sym|]. split; [|exact V].
  intros i j. rewrite N. destruct (last_pair i j es) as [v|]; split; eauto; [discriminate|intros [v Hv]; discriminate].
Qed.
Theorem C56_edges_once n es m : same_tables (gd (inserts n es)) m -> let g := Graph n m None None in
  NoDup (map fst (gedges g)) /\ (forall i j v, In (i, j, v) (gedges g) <-> i <= j /\ last_pair i j es = Some v) /\
  (forall i, NoDup (gneighbors i g)) /\ (forall i j, In j (gneighbors i g) <-> exists v, last_pair i j es = Some v) /\
  (forall i, gnneighbors i g = Z.of_nat (length (gneighbors i g))).
Proof.
  intros Hs g. apply same_find in Hs. destruct Hs as (A & B & C).
  assert (F : forall i j, mom_find i j m = last_pair i j es) by (intros i j; now rewrite <- C, inserts_find).
  destruct (gedges_ok g B) as [E1 E2]. split; [exact E1|]. split; [intros i j v; rewrite E2; cbn; now rewrite F|]. split; [intro i; now apply row_nodup|]. split.
  - intros i j. unfold gneighbors. rewrite in_map_iff. cbn. split.
    + intros ([j' v] & E & I). cbn in E. subst j'. exists v. rewrite <- F. now apply row_in.
    + intros [v Hv]. exists (j, v). split; [reflexivity|]. apply row_in; [exact B|]. now rewrite F.
  - intro i. unfold gnneighbors, gneighbors. now rewrite map_length.
Qed.
(* nedges() halves the number of stored entries, so every two self loops are counted as one edge *)
Theorem C56_nedges g : good g -> Z.of_nat (length (gedges g)) = gnedges g + (self_loops g + 1) / 2.
Proof. apply nedges_count. Qed.
Theorem C56_nedges_simple g : good g -> (gnedges g = Z.of_nat (length (gedges g)) <-> self_loops g = 0).
Proof.
  intro Gd. rewrite (nedges_count g Gd). assert (0 <= self_loops g) by (unfold self_loops; lia). pose proof (Z.div_mod (self_loops g + 1) 2 ltac:(lia)). pose proof (Z.mod_pos_bound (self_loops g + 1) 2 ltac:(lia)). split; intro E; [lia|rewrite E; change ((0 + 1) / 2) with 0; lia].
Qed.
Example C56_case : let es := [(0, 1, 5); (2, 2, 7); (1, 0, 6); (2, 0, 1)] in let m := [(2, [(0, 1); (2, 7)]); (9, []); (1, [(0, 6)]); (0, [(2, 1); (1, 6)])] in
  same_tables (gd (inserts 3 es)) m /\ gedges (Graph 3 m None None) = [(2, 2, 7); (0, 2, 1); (0, 1, 6)] /\ gnedges (Graph 3 m None None) = 2.
Proof.
  cbv zeta. split; [|vm_compute; auto]. apply same_find. split; [apply inserts_wf|]. split.
  - apply tables_wf. split; [cbn; repeat constructor; cbn; intuition lia|]. cbn. intros i r H. intuition (match goal with E : (_, _) = (_, _) |- _ => injection E as <- <- end; repeat constructor; cbn; intuition lia).
  - intros i j. rewrite inserts_find. unfold last_pair, mom_find, mom_row, hits. cbn [fold_left mfind fst snd].
    destruct (Z.eqb_spec 2 i), (Z.eqb_spec 9 i), (Z.eqb_spec 1 i), (Z.eqb_spec 0 i); try lia; cbn [mfind andb orb]; destruct (Z.eqb_spec 2 j), (Z.eqb_spec 1 j), (Z.eqb_spec 0 j); try lia; cbn [mfind andb orb]; reflexivity.
Qed.
Example C56_case_good : good (inserts 3 [(0, 1, 5); (2, 2, 7); (1, 0, 6)]).
Proof. apply inserts_good. repeat constructor; cbn; lia. Qed.
Print Assumptions C56_symmetric_last_value.
Print Assumptions C56_edges_once.
Print Assumptions C56_nedges.
Print Assumptions C56_nedges_simple.

(* ---- C57 ---- *)
Theorem C57_round_trip_even_loops_partial g : good g -> 0 <= gn g -> (self_loops g) mod 2 = 0 ->
  exists p, as_int_pool g = Ok p /\ ipn p = gn g /\
    (forall i, 0 <= i < gn g -> ip_size p i = Ok (gnneighbors i g)) /\
    exists g', gof_pool p = Ok g' /\ gn g' = gn g /\ tables (gd g') /\ forall i j v, entry i j v (gd g') <-> v = 1 /\ edge g i j.
Proof.
  intros Gd Hn He. pose proof (off_total g Gd Hn) as Ot. pose proof (size_parity g Gd) as [q Eq]. pose proof (as_int_pool_ok g Hn) as P.
  assert (S0 : 0 <= mom_size (gd g)) by (rewrite mom_size_calls; unfold zlen; lia).
  assert (E : 2 * gnedges g = mom_size (gd g)). { unfold gnedges. rewrite Z.quot_div_nonneg by lia. pose proof (Z.div_mod (mom_size (gd g)) 2 ltac:(lia)) as D. assert (M0 : mom_size (gd g) mod 2 = 0) by (rewrite Eq, (Z.mul_comm 2 q), Z.mod_add by lia; exact He). lia. }
  rewrite Ot, E in P. rewrite Z.leb_refl in P. destruct P as (b & Ep & F & _). exists (IPool (gn g) b). split; [exact Ep|]. split; [reflexivity|]. split.
  - intros i Hi. destruct F as [F1 _]. unfold ip_size. cbn [ipn iparr]. replace (i <? gn g) with true by lia. cbn [assrt]. replace (i + 2) with (i + 1 + 1) by lia.
    rewrite (bget_cell _ _ _ (F1 (i + 1) ltac:(lia))), (bget_cell _ _ _ (F1 i ltac:(lia))). cbn [bind]. rewrite off_succ by lia. unfold gnneighbors, nrow. rewrite map_length. f_equal. lia.
  - exists (inserts (gn g) (flat_edges g)). split; [now apply gof_pool_ok|]. split; [apply inserts_n|]. split; [apply tables_wf, inserts_wf|].
    intros i j v. rewrite entry_find, inserts_find, flat_edges_find by (try assumption; apply inserts_wf). rewrite mom_filled_find. pose proof (proj1 (tables_wf _) (good_tables g Gd)) as W.
    destruct (mom_find i j (gd g)) as [w|] eqn:Ef; split.
    + intro Ev. split; [congruence|]. exists w. now apply entry_find.
    + intros [-> _]. reflexivity.
    + discriminate.
    + intros [_ [w Ew]]. apply entry_find in Ew; [|exact W]. congruence.
Qed.
(* with an odd number of self loops the pool is one entry too short and the last neighbour is written past its end *)
Theorem C57_odd_loops_refuted g : good g -> 0 <= gn g -> (self_loops g) mod 2 = 1 -> as_int_pool g = UB.
Proof.
  intros Gd Hn He. pose proof (off_total g Gd Hn) as Ot. pose proof (size_parity g Gd) as [q Eq]. pose proof (as_int_pool_ok g Hn) as P.
  assert (S0 : 0 <= mom_size (gd g)) by (rewrite mom_size_calls; unfold zlen; lia).
  assert (E : 2 * gnedges g = mom_size (gd g) - 1). { unfold gnedges. rewrite Z.quot_div_nonneg by lia. pose proof (Z.div_mod (mom_size (gd g)) 2 ltac:(lia)) as D. assert (M0 : mom_size (gd g) mod 2 = 1) by (rewrite Eq, (Z.mul_comm 2 q), Z.mod_add by lia; exact He). lia. }
  rewrite Ot, E in P. replace (mom_size (gd g) <=? mom_size (gd g) - 1) with false in P by lia. exact P.
Qed.
Example C57_case : let g := inserts 4 [(0, 1, 3); (1, 2, 1); (3, 3, 2); (0, 0, 1); (2, 0, 1)] in good g /\ self_loops g = 2 /\ as_int_pool g = Ok (IPool 4 (map Some [4; 6; 9; 11; 13; 14; 1; 0; 2; 0; 2; 1; 0; 3])).
Proof. cbv zeta. split; [apply inserts_good; repeat constructor; cbn; lia|]. vm_compute. auto. Qed.
Example C57_case_odd : let g := inserts 2 [(0, 1, 1); (1, 1, 1)] in good g /\ self_loops g = 1 /\ as_int_pool g = UB.
Proof. cbv zeta. split; [apply inserts_good; repeat constructor; cbn; lia|]. vm_compute. auto. Qed.
Print Assumptions C57_round_trip_even_loops_partial.
Print Assumptions C57_odd_loops_refuted.

(* ---- C58.  Edges of weight zero are not edges for this purpose. ---- *)
Theorem C58_spanning_tree g root : good g -> 0 <= root < gn g ->
  exists k0, forall k, (k0 <= k)%nat -> exists t, greedy_spanning_tree k g root = Ok (root, t) /\
    NoDup (depth_first (root, t)) /\ (forall v, In v (depth_first (root, t)) <-> reach g root v) /\ (forall a b, In (a, b) (links t root) -> nz_edge g a b).
Proof.
  intros Gd Hr. exists (Z.to_nat (gn g)). intros k Hk. destruct Gd as [T Sy R]. apply tables_wf in T.
  destruct (spanning_ok g T) with (root := root) (k := k) as (t & E & N & C & L & _); [|lia|exact Hr|lia|].
  - intros i j (v & _ & Ev). now apply (R i j v).
  - exists t. split; [exact E|]. split; [exact N|]. split; [exact C|]. intros a b I. exact (L (a, b) I).
Qed.
Theorem C58_root_range k g root : ~ (0 <= root < gn g) -> greedy_spanning_tree k g root = UB.
Proof. intro N. unfold greedy_spanning_tree, in_n. replace ((0 <=? root) && (root <? gn g)) with false by lia. reflexivity. Qed.
Example C58_case : let g := inserts 6 [(0, 1, 1); (1, 2, 1); (2, 0, 1); (3, 4, 1); (2, 5, 0); (2, 2, 4)] in good g /\ greedy_spanning_tree 6 g 0 = Ok (0, Tree [(1, Tree [(2, Tree [])])]).
Proof. cbv zeta. split; [apply inserts_good; repeat constructor; cbn; lia|vm_compute; reflexivity]. Qed.
Print Assumptions C58_spanning_tree.
Print Assumptions C58_root_range.

(* ---- C59.  The rows of the result are the images of the vertices of H in the order of the traversal. ---- *)
Theorem C59_planted_subgraphs G H nb : good G -> good H -> 1 <= gn H -> (forall v, 0 <= v < gn H -> reach H 0 v) -> (forall i, Permutation (nb i) (gneighbors i G)) ->
  exists k0, forall k, (k0 <= k)%nat -> exists f rows, find_planted k G H nb = Ok f /\ planted_rows (gn H) f = Ok rows /\
    (forall r, In r rows -> exists c, copy G H c /\ Permutation r (map c (zrange (gn H)))) /\
    (forall c, copy G H c -> exists r, In r rows /\ Permutation r (map c (zrange (gn H)))) /\
    ForallOrdPairs (fun a b => ~ Permutation a b) rows.
Proof.
  intros GG GH Hn Hc NB. exists (S (Z.to_nat (gn H))). intros k Hk. destruct GH as [T Sy R] eqn:EG. clear EG. pose proof (Good H T Sy R) as GH'. apply tables_wf in T.
  destruct (spanning_ok H T) with (root := 0) (k := k) as (t & E & N & C & Lk & Rg); [|lia|lia|lia|].
  { intros i j (v & _ & Ev). now apply (R i j v). }
  destruct (idf_trav t 0 0 (-1)) as (o & Eo & Fo & _ & Tr).
  assert (PL : Permutation (map fst o) (zrange (gn H))).
  { rewrite Fo. apply NoDup_Permutation; [exact N|apply zrange_nodup|]. intro v. rewrite in_zrange. split; [apply Rg|]. intro Hv. apply C. now apply Hc. }
  assert (Hn' : gn H = Z.of_nat (Z.to_nat (gn H))) by lia.
  assert (HT : forall k v q, (0 < k)%nat -> nth_error o k = Some (v, q) -> 0 <= q < Z.of_nat k /\ exists u z, nth_error o (Z.to_nat q) = Some (u, z) /\ nz_edge H u v).
  { intros j v q Hj Ej. destruct (Tr j v q Hj Ej) as (Q & u & z & Eu & I). split; [lia|]. rewrite Z.sub_0_r in Eu. exists u, z. split; [exact Eu|]. exact (Lk (u, v) I). }
  destruct (search_ok G H GG GH' nb NB (Z.to_nat (gn H)) Hn' ltac:(lia) o (map fst o) eq_refl PL HT k ltac:(lia)) as (roots & Er & _ & K2 & K3 & K4).
  exists roots, (flat_map lmaximal roots). split.
  { unfold find_planted. rewrite E. cbn [bind]. unfold indexed_depth_first. cbn [fst snd]. rewrite Eo. cbn [fst]. exact Er. }
  split; [apply planted_rows_ok; intros x I; destruct (K2 x I); lia|]. split; [|split; [|exact K3]].
  - intros r I. destruct (K2 r I) as [V Lr]. destruct (valid_copy G H GG GH' _ Hn' (map fst o) PL r V Lr) as (c & Cc & ->). exists c. split; [exact Cc|]. now apply Permutation_map.
  - intros c Cc. destruct (copy_valid G H GG GH' _ Hn' (map fst o) PL c Cc) as [V Lr]. destruct (K4 _ V Lr) as (x & I & P). exists x. split; [exact I|]. rewrite P. now apply Permutation_map.
Qed.
(* self loops are never compared: a pattern with a loop is found where there is none, and the other way round *)
Theorem C59_self_loop_refuted a b : good (inserts 1 [(0, 0, a)]) /\
  find_planted 2 (gnew 1) (inserts 1 [(0, 0, a)]) (fun i => gneighbors i (gnew 1)) = Ok [(0, Tree [])] /\
  find_planted 2 (inserts 1 [(0, 0, a)]) (gnew 1) (fun i => gneighbors i (inserts 1 [(0, 0, a)])) = Ok [(0, Tree [])] /\
  find_planted 2 (inserts 1 [(0, 0, a)]) (inserts 1 [(0, 0, b)]) (fun i => gneighbors i (inserts 1 [(0, 0, a)])) = Ok [(0, Tree [])].
Proof.
  split; [apply inserts_good; repeat constructor; cbn; lia|].
  split; [|split]; unfold find_planted, greedy_spanning_tree, inserts; cbn; try (destruct (a =? 0)); try (destruct (b =? 0)); reflexivity.
Qed.
Example C59_case : let G := inserts 4 [(0, 1, 1); (1, 2, 1); (2, 3, 1); (3, 0, 1); (0, 2, 1)] in let H := inserts 3 [(0, 1, 1); (1, 2, 1); (0, 2, 1)] in
  good G /\ good H /\ (forall v, 0 <= v < gn H -> reach H 0 v) /\
  (do f <- find_planted 5 G H (fun i => gneighbors i G); planted_rows 3 f) = Ok [[0; 1; 2]; [0; 3; 2]].
Proof.
  cbv zeta. split; [apply inserts_good; repeat constructor; cbn; lia|]. split; [apply inserts_good; repeat constructor; cbn; lia|]. split; [|vm_compute; reflexivity].
  intros v Hv. cbn in Hv. assert (E : forall a b x, mom_find a b (gd (inserts 3 [(0, 1, 1); (1, 2, 1); (0, 2, 1)])) = Some x -> x <> 0 -> nz_edge (inserts 3 [(0, 1, 1); (1, 2, 1); (0, 2, 1)]) a b).
  { intros a b x Ef Nx. exists x. split; [exact Nx|]. apply entry_find; [apply inserts_wf|exact Ef]. }
  assert (v = 0 \/ v = 1 \/ v = 2) as [->|[->| ->]] by lia; [constructor| |]; (eapply reach_step; [constructor|]; apply (E _ _ 1); [vm_compute; reflexivity|lia]).
Qed.
Print Assumptions C59_planted_subgraphs.
Print Assumptions C59_self_loop_refuted.
