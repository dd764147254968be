From Verif Require Import Base BaseFacts Map Proofs_Containers2 Model_Containers Proofs_Containers Proofs_Containers4 Model_Tree Model_Graph Spec_Graph Proofs_Graph Proofs_Graph2 Model_Graph2 Spec_Graph2.
Local Open Scope Z_scope.

Lemma last_pair_const i j v es : (forall e, In e es -> hits i j e = true -> snd e = v) -> last_pair i j es = if existsb (hits i j) es then Some v else None.
Proof.
  induction es as [|e es IH] using rev_ind; [reflexivity|]. intro H. rewrite last_pair_snoc, existsb_app. cbn [existsb]. rewrite orb_false_r.
  destruct (hits i j e) eqn:E; [rewrite orb_true_r; rewrite (H e) by (try assumption; rewrite in_app_iff; cbn; auto); reflexivity|].
  rewrite orb_false_r. apply IH. intros e' I. apply H. rewrite in_app_iff. auto.
Qed.
Lemma hits_iff i j a b v : hits i j (a, b, v) = true <-> (a = i /\ b = j) \/ (a = j /\ b = i).
Proof. cbn. rewrite orb_true_iff, !andb_true_iff. lia. Qed.
Definition one (e : Z * Z) : Z * Z * Z := (fst e, snd e, 1).
Lemma gof_inserts n l : gof n l = inserts n (map one l).
Proof. unfold gof, inserts. generalize (gnew n). induction l as [|e l IH]; intro g; cbn; [reflexivity|]. apply IH. Qed.
Lemma inserts_entry n es i j v : entry i j v (gd (inserts n es)) <-> last_pair i j es = Some v.
Proof. rewrite entry_find by apply inserts_wf. now rewrite inserts_find. Qed.
Lemma gof_entry n l i j v : entry i j v (gd (gof n l)) <-> v = 1 /\ (In (i, j) l \/ In (j, i) l).
Proof.
  rewrite gof_inserts, inserts_entry, (last_pair_const i j 1).
  - destruct (existsb _ _) eqn:E.
    + apply existsb_exists in E. destruct E as (e & I & H). apply in_map_iff in I. destruct I as ([a b] & <- & I). apply hits_iff in H. cbn in H.
      split; [|intros [-> _]; reflexivity]. intro Q. injection Q as <-. split; [reflexivity|]. destruct H as [[-> ->]|[-> ->]]; auto.
    + split; [discriminate|]. intros [_ I]. exfalso. assert (X : existsb (hits i j) (map one l) = true); [|congruence].
      apply existsb_exists. destruct I as [I|I]; eexists; (split; [apply (in_map one), I|apply hits_iff; cbn; auto]).
  - intros e I _. apply in_map_iff in I. destruct I as (x & <- & _). reflexivity.
Qed.
Lemma gof_n n l : gn (gof n l) = n. Proof. now rewrite gof_inserts, inserts_n. Qed.
Lemma gof_good n l : (forall a b, In (a, b) l -> 0 <= a < n /\ 0 <= b < n) -> good (gof n l).
Proof. intro H. rewrite gof_inserts. apply inserts_good. apply Forall_forall. intros e I. apply in_map_iff in I. destruct I as ([a b] & <- & I). cbn. now apply H. Qed.

(* counting *)
Lemma no_loops g : momwf (gd g) -> (forall i, ~ edge g i i) -> self_loops g = 0.
Proof.
  intros W N. unfold self_loops. destruct (filter _ _) as [|[[a b] v] l] eqn:E; [reflexivity|]. exfalso.
  assert (I : In (a, b, v) (filter (fun c => fst (fst c) =? snd (fst c)) (mom_calls (gd g)))) by (rewrite E; now left).
  apply filter_In in I. destruct I as [I Q]. cbn in Q. replace b with a in I by lia. apply mom_calls_in in I; [|exact W]. apply (N a). exists v. now apply entry_find.
Qed.
Lemma nedges_list g L : good g -> (forall i, ~ edge g i i) -> NoDup L -> (forall i j, In (i, j) L <-> i < j /\ edge g i j) -> gnedges g = Z.of_nat (length L).
Proof.
  intros Gd N ND HL. pose proof (nedges_count g Gd) as C. pose proof (proj1 (tables_wf _) (good_tables g Gd)) as W. rewrite (no_loops g W N) in C. change ((0 + 1) / 2) with 0 in C.
  rewrite Z.add_0_r in C. rewrite <- C. f_equal. rewrite <- (map_length fst). destruct (gedges_ok g W) as [E1 E2]. apply Permutation_length. apply NoDup_Permutation; [exact E1|exact ND|].
  intros [i j]. rewrite HL, in_map_iff. split.
  - intros ([[a b] v] & E & I). cbn in E. injection E as -> ->. apply E2 in I. destruct I as [Le F]. assert (Ed : edge g i j) by (exists v; now apply entry_find).
    split; [|exact Ed]. assert (i <> j) by (intros ->; now apply (N j)). lia.
  - intros [Lt [v Ev]]. exists (i, j, v). split; [reflexivity|]. apply E2. split; [lia|]. now apply entry_find.
Qed.

(* named graphs *)
Lemma nodup_flat {B} (f : Z -> list B) : forall l, NoDup l -> (forall a, NoDup (f a)) -> (forall a b x, a <> b -> In x (f a) -> ~ In x (f b)) -> NoDup (flat_map f l).
Proof.
  induction l as [|a l IH]; intros N F D; cbn; [constructor|]. inversion_clear N. assert (G : forall x y : list B, NoDup x -> NoDup y -> (forall z, In z x -> ~ In z y) -> NoDup (x ++ y)).
  { clear. induction x as [|x0 x IH]; intros y A A2 H; [exact A2|]. cbn. inversion_clear A. constructor; [rewrite in_app_iff; intros [I|I]; [auto|now apply (H x0 (or_introl eq_refl))]|]. apply IH; auto. intros z I. apply H. now right. }
  apply G; auto. intros z I J. apply in_flat_map in J. destruct J as (b & Ib & J). apply (D a b z); auto. intros ->. contradiction.
Qed.
Definition below_pairs (n : Z) : list (Z * Z) := flat_map (fun i => map (fun j => (i, j)) (zrange i)) (zrange n).
Lemma in_below n i j : In (i, j) (below_pairs n) <-> 0 <= j < i /\ i < n.
Proof.
  unfold below_pairs. rewrite in_flat_map. split.
  - intros (a & Ia & I). apply in_map_iff in I. destruct I as (b & E & I). injection E as -> ->. apply in_zrange in Ia, I. lia.
  - intro H. exists i. split; [apply in_zrange; lia|]. apply in_map_iff. exists j. split; [reflexivity|]. apply in_zrange. lia.
Qed.
Lemma below_nodup n : NoDup (below_pairs n).
Proof.
  apply nodup_flat; [apply zrange_nodup| |].
  - intro a. apply FinFun.Injective_map_NoDup; [intros x y E; now injection E|apply zrange_nodup].
  - intros a b x N I J. apply in_map_iff in I, J. destruct I as (u & <- & _), J as (v & E & _). injection E as ->. contradiction.
Qed.
Lemma below_length n : 0 <= n -> 2 * Z.of_nat (length (below_pairs n)) = n * (n - 1).
Proof.
  intro H. pattern n. apply natlike_ind; [reflexivity| |exact H]. intros k Hk IH. unfold below_pairs. rewrite <- Z.add_1_r, zrange_succ by lia. rewrite flat_map_app, app_length. cbn [flat_map]. rewrite app_nil_r, map_length, zrange_length.
  change (flat_map _ (zrange k)) with (below_pairs k). rewrite Nat2Z.inj_add, Z2Nat.id by lia. nia.
Qed.
Definition swap (p : Z * Z) : Z * Z := (snd p, fst p).
Lemma in_swap l i j : In (i, j) (map swap l) <-> In (j, i) l.
Proof. rewrite in_map_iff. split; [intros ([a b] & E & I); unfold swap in E; injection E as -> ->; exact I|intro I; exists (j, i); auto]. Qed.
Lemma swap_nodup l : NoDup l -> NoDup (map swap l).
Proof. apply FinFun.Injective_map_NoDup. intros [a b] [c d] E. unfold swap in E. cbn in E. injection E as -> ->. reflexivity. Qed.

Lemma complete_ok n : 0 <= n -> is_graph (g_complete n) n (fun i j => 0 <= i < n /\ 0 <= j < n /\ i <> j) (n * (n - 1) / 2).
Proof.
  intro Hn. unfold g_complete. change (flat_map _ (zrange n)) with (below_pairs n). assert (Gd : good (gof n (below_pairs n))) by (apply gof_good; intros a b I; apply in_below in I; lia).
  assert (En : forall i j v, entry i j v (gd (gof n (below_pairs n))) <-> v = 1 /\ 0 <= i < n /\ 0 <= j < n /\ i <> j) by (intros i j v; rewrite gof_entry, !in_below; lia).
  split; [apply gof_n|]. split; [exact Gd|]. split; [exact En|].
  rewrite (nedges_list _ (map swap (below_pairs n)) Gd).
  - rewrite map_length. rewrite <- (below_length n Hn), Z.mul_comm, Z.div_mul by lia. reflexivity.
  - intros i [v E]. apply En in E. lia.
  - apply swap_nodup, below_nodup.
  - intros i j. rewrite in_swap, in_below. split; [intro H; split; [lia|]; exists 1; apply En; lia|]. intros [L [v E]]. apply En in E. lia.
Qed.
Definition steps (n : Z) : list (Z * Z) := map (fun i => (i, i + 1)) (zrange (n - 1)).
Lemma in_steps n i j : In (i, j) (steps n) <-> 0 <= i /\ j = i + 1 /\ j < n.
Proof.
  unfold steps. rewrite in_map_iff. split; [intros (a & E & I); injection E as -> <-; apply in_zrange in I; lia|]. intros (A & -> & B). exists i. split; [reflexivity|]. apply in_zrange. lia.
Qed.
Lemma steps_nodup n : NoDup (steps n).
Proof. apply FinFun.Injective_map_NoDup; [|apply zrange_nodup]. intros a b E. now injection E. Qed.
Lemma wrap n i j : 0 <= i < n -> (j = (i + 1) mod n <-> (i < n - 1 /\ j = i + 1) \/ (i = n - 1 /\ j = 0)).
Proof.
  intro H. destruct (Z.eq_dec i (n - 1)) as [->|N].
  - replace (n - 1 + 1) with n by lia. rewrite Z.mod_same by lia. lia.
  - rewrite Z.mod_small by lia. lia.
Qed.
Lemma cycle_ok n : 3 <= n -> is_graph (g_cycle n) n (fun i j => 0 <= i < n /\ 0 <= j < n /\ (j = (i + 1) mod n \/ i = (j + 1) mod n)) n.
Proof.
  intro Hn. unfold g_cycle. change (map _ (zrange (n - 1))) with (steps n).
  assert (IL : forall i j, In (i, j) (steps n ++ [(n - 1, 0)]) <-> (0 <= i /\ j = i + 1 /\ j < n) \/ (i = n - 1 /\ j = 0)).
  { intros i j. rewrite in_app_iff, in_steps. cbn. split; (intros [H|H]; [auto|right]); [destruct H as [E|[]]; injection E; lia|left; f_equal; lia]. }
  assert (Gd : good (gof n (steps n ++ [(n - 1, 0)]))) by (apply gof_good; intros a b I; apply IL in I; lia).
  assert (En : forall i j v, entry i j v (gd (gof n (steps n ++ [(n - 1, 0)]))) <-> v = 1 /\ 0 <= i < n /\ 0 <= j < n /\ (j = (i + 1) mod n \/ i = (j + 1) mod n)).
  { intros i j v. rewrite gof_entry, !IL. split.
    - intros [-> H]. split; [reflexivity|]. assert (Ri : 0 <= i < n) by lia. assert (Rj : 0 <= j < n) by lia. split; [exact Ri|]. split; [exact Rj|]. rewrite (wrap n i j Ri), (wrap n j i Rj). lia.
    - intros (-> & Ri & Rj & H). split; [reflexivity|]. rewrite (wrap n i j Ri), (wrap n j i Rj) in H. lia. }
  split; [apply gof_n|]. split; [exact Gd|]. split; [exact En|].
  rewrite (nedges_list _ (steps n ++ [(0, n - 1)]) Gd).
  - rewrite app_length. unfold steps. rewrite map_length, zrange_length. cbn. lia.
  - intros i [v E]. apply En in E. destruct E as (_ & Ri & _ & H). rewrite (wrap n i i Ri) in H. lia.
  - rewrite <- (rev_involutive (_ ++ _)), rev_app_distr. apply NoDup_rev. cbn. constructor; [|apply NoDup_rev, steps_nodup]. rewrite <- in_rev, in_steps. lia.
  - intros i j. rewrite in_app_iff, in_steps. cbn. split.
    + intro H. assert (K : (0 <= i /\ j = i + 1 /\ j < n) \/ (i = 0 /\ j = n - 1)) by (destruct H as [H|[E|[]]]; [auto|injection E; lia]). split; [lia|]. exists 1. apply En. split; [reflexivity|].
      assert (Ri : 0 <= i < n) by lia. assert (Rj : 0 <= j < n) by lia. split; [exact Ri|]. split; [exact Rj|]. rewrite (wrap n i j Ri), (wrap n j i Rj). lia.
    + intros [Lt [v E]]. apply En in E. destruct E as (_ & Ri & Rj & H). rewrite (wrap n i j Ri), (wrap n j i Rj) in H. destruct (Z.eq_dec j (i + 1)); [left; lia|right; left; f_equal; lia].
Qed.
Lemma star_ok m : 0 <= m -> exists g, g_star m = Ok g /\ is_graph g (m + 1) (fun i j => (i = 0 /\ 1 <= j <= m) \/ (j = 0 /\ 1 <= i <= m)) m.
Proof.
  intro Hm. unfold g_star. replace (m <? 0) with false by lia. eexists. split; [reflexivity|]. set (l := map (fun i => (0, i + 1)) (zrange m)).
  assert (IL : forall i j, In (i, j) l <-> i = 0 /\ 1 <= j <= m).
  { intros i j. unfold l. rewrite in_map_iff. split; [intros (a & E & I); injection E as <- <-; apply in_zrange in I; lia|]. intros [-> H]. exists (j - 1). split; [f_equal; lia|apply in_zrange; lia]. }
  assert (Gd : good (gof (m + 1) l)) by (apply gof_good; intros a b I; apply IL in I; lia).
  assert (En : forall i j v, entry i j v (gd (gof (m + 1) l)) <-> v = 1 /\ ((i = 0 /\ 1 <= j <= m) \/ (j = 0 /\ 1 <= i <= m))) by (intros i j v; rewrite gof_entry, !IL; reflexivity).
  split; [apply gof_n|]. split; [exact Gd|]. split; [exact En|]. rewrite (nedges_list _ l Gd).
  - unfold l. rewrite map_length, zrange_length. lia.
  - intros i [v E]. apply En in E. lia.
  - apply FinFun.Injective_map_NoDup; [intros a b E; injection E; lia|apply zrange_nodup].
  - intros i j. rewrite IL. split; [intro H; split; [lia|]; exists 1; apply En; lia|]. intros [L [v E]]. apply En in E. lia.
Qed.

(* rows created by asking *)
Lemma touch_find i m a b : mom_find a b (mom_touch i m) = mom_find a b m.
Proof.
  unfold mom_touch. destruct (mfind i m) eqn:E; [reflexivity|]. unfold mom_find, mom_row. rewrite mfind_set. destruct (i =? a) eqn:Ei; [|reflexivity]. replace a with i by lia. now rewrite E.
Qed.
Lemma touch_wf i m : momwf m -> momwf (mom_touch i m).
Proof.
  intros [A B]. unfold mom_touch. destruct (mfind i m) eqn:E; [split; assumption|]. split; [now apply mset_wf|]. intros a r. rewrite mfind_set. destruct (i =? a); [intro Q; injection Q as <-; constructor|apply B].
Qed.
Lemma touch_rows i m a : mfind a (mom_touch i m) <> None <-> a = i \/ mfind a m <> None.
Proof.
  unfold mom_touch. destruct (mfind i m) eqn:E.
  - split; [auto|]. intros [->|H]; [congruence|exact H].
  - rewrite mfind_set. destruct (i =? a) eqn:Ei; split; intro H; try discriminate; try (left; lia); [now right|destruct H; [lia|assumption]].
Qed.
Lemma set_rows i j v m a : mfind a (mom_set i j v m) <> None <-> a = i \/ mfind a m <> None.
Proof. unfold mom_set. rewrite mfind_set. destruct (i =? a) eqn:E; split; intro H; try discriminate; try (left; lia); [now right|destruct H; [lia|assumption]]. Qed.
Lemma subset_rows a b : momwf a ->
  (mom_subset a b = true <-> (forall i, mfind i a <> None -> mfind i b <> None) /\ (forall i j x, mom_find i j a = Some x -> mom_find i j b = Some x)).
Proof.
  intros [W1 W2]. unfold mom_subset. rewrite forallb_forall. split.
  - intro H. split.
    + intros i Hi. destruct (mfind i a) as [r|] eqn:E; [|congruence]. specialize (H (i, r) (mfind_in _ _ _ E)). cbn in H. destruct (mfind i b); congruence.
    + intros i j x. unfold mom_find at 1, mom_row. destruct (mfind i a) as [r|] eqn:E; [|discriminate]. intro Hx.
      specialize (H (i, r) (mfind_in _ _ _ E)). cbn in H. unfold mom_find, mom_row. destruct (mfind i b) as [r'|]; [|discriminate].
      rewrite forallb_forall in H. specialize (H (j, x) (mfind_in _ _ _ Hx)). cbn in H. destruct (mfind j r') as [y|]; [|discriminate]. f_equal. lia.
  - intros [K H] [i r] Hin. cbn. apply mfind_iff in Hin; [|assumption].
    assert (L : forall j x, mfind j r = Some x -> mom_find i j b = Some x) by (intros j x Hx; apply H; unfold mom_find, mom_row; now rewrite Hin).
    specialize (K i ltac:(rewrite Hin; discriminate)). unfold mom_find, mom_row in L. destruct (mfind i b) as [r'|]; [|congruence].
    apply forallb_forall. intros [j x] Hj. cbn. apply mfind_iff in Hj; [|eauto]. rewrite (L _ _ Hj). lia.
Qed.
Lemma ghist_snoc n os o : ghist n (os ++ [o]) = gop_do (ghist n os) o.
Proof. unfold ghist. now rewrite fold_left_app. Qed.
Lemma gwrites_snoc os o : gwrites (os ++ [o]) = gwrites os ++ match o with GSet i j v => [(i, j, v)] | GAsk _ => [] end.
Proof. unfold gwrites. rewrite flat_map_app. cbn. now rewrite app_nil_r. Qed.
Lemma ghist_ok n os : gn (ghist n os) = n /\ glab (ghist n os) = None /\ gdeg (ghist n os) = None /\ momwf (gd (ghist n os)) /\
  (forall i j, mom_find i j (gd (ghist n os)) = last_pair i j (gwrites os)) /\ (forall i, mfind i (gd (ghist n os)) <> None <-> Exists (gmentions i) os).
Proof.
  induction os as [|o os (A & B & C & D & E & F)] using rev_ind.
  - repeat (split; [reflexivity|]). split; [split; [constructor|discriminate]|]. split; [reflexivity|]. intro i. cbn. split; [congruence|intro X; inversion X].
  - rewrite ghist_snoc. destruct o as [a b v|a]; cbn [gop_do snd g_neighbors].
    + repeat (split; [assumption|]). split; [now apply gset_wf|]. split.
      * intros i j. rewrite gset_find, gwrites_snoc, last_pair_snoc, E. reflexivity.
      * intro i. cbn [gset gd]. rewrite !set_rows, F, Exists_app, Exists_cons, Exists_nil. cbn. tauto.
    + repeat (split; [assumption|]). split; [now apply touch_wf|]. split.
      * intros i j. cbn [g_touch gd]. rewrite touch_find, gwrites_snoc, app_nil_r. apply E.
      * intro i. cbn [g_touch gd]. rewrite touch_rows, F, Exists_app, Exists_cons, Exists_nil. cbn. tauto.
Qed.
Lemma ghist_eq n k os ps : g_eq (ghist n os) (ghist k ps) = true <->
  n = k /\ (forall i j, last_pair i j (gwrites os) = last_pair i j (gwrites ps)) /\ (forall i, Exists (gmentions i) os <-> Exists (gmentions i) ps).
Proof.
  destruct (ghist_ok n os) as (A & B & C & D & E & F), (ghist_ok k ps) as (A' & B' & C' & D' & E' & F').
  unfold g_eq, mom_eq. rewrite A, A', B, B', C, C'. cbn [same_upto]. rewrite !andb_true_iff, !subset_rows, Z.eqb_eq by assumption. setoid_rewrite F. setoid_rewrite F'. setoid_rewrite E. setoid_rewrite E'. split.
  - intros [[[-> _] _] [[H1 H2] [H3 H4]]]. split; [reflexivity|]. split; [|intro i; split; auto]. intros i j. destruct (last_pair i j (gwrites os)) as [x|] eqn:X; [symmetry; now apply H2|].
    destruct (last_pair i j (gwrites ps)) as [y|] eqn:Y; [|reflexivity]. apply H4 in Y. congruence.
  - intros (-> & H & K). repeat split; auto; try (intros; apply K; assumption); intros i j x X; [rewrite <- H|rewrite H]; exact X.
Qed.
