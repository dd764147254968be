(* Proofs_Graph2.v -- flattening a graph and reading it back. *)
From Verif Require Import Base BaseFacts Map Proofs_Containers2 Model_Containers Proofs_Containers Proofs_Containers4 Model_Tree Proofs_Tree Model_Graph Spec_Graph Proofs_Graph.
Local Open Scope Z_scope.

Lemma bput_out b i v : blen b <= i -> bput b i v = UB.
Proof. intro. unfold bput, blen in *. replace ((0 <=? i) && (i <? Z.of_nat (length b))) with false by lia. reflexivity. Qed.
Lemma ip_row_ok row : forall b t, 0 <= t <= blen b ->
  if t + Z.of_nat (length row) <=? blen b then
    exists b', ip_row row (b, t) = Ok (b', t + Z.of_nat (length row)) /\ blen b' = blen b /\
      forall j, cell b' j = if (t <=? j) && (j <? t + Z.of_nat (length row)) then Some (nth (Z.to_nat (j - t)) row 0) else cell b j
  else ip_row row (b, t) = UB.
Proof.
  induction row as [|x row IH]; intros b t Ht; cbn [length].
  - replace (t + Z.of_nat 0 <=? blen b) with true by lia.
    exists b. split; [cbn; do 2 f_equal; lia|]. split; [reflexivity|]. intro j. replace ((t <=? j) && (j <? t + Z.of_nat 0)) with false by lia. reflexivity.
  - unfold ip_row. cbn [foldM fst snd]. destruct (Z_lt_le_dec t (blen b)) as [L|L].
    + destruct (bput_ok b t x ltac:(lia)) as (b1 & -> & L1 & C1). cbn [bind]. specialize (IH b1 (t + 1) ltac:(lia)). rewrite L1 in IH.
      replace (t + 1 + Z.of_nat (length row)) with (t + Z.of_nat (S (length row))) in IH by lia.
      destruct (t + Z.of_nat (S (length row)) <=? blen b); [|exact IH].
      destruct IH as (b' & E & Lb & C). exists b'. split; [exact E|]. split; [congruence|]. intro j. rewrite C, C1. destruct (j =? t) eqn:Ej.
      * replace ((t + 1 <=? j) && (j <? t + Z.of_nat (S (length row)))) with false by lia. replace ((t <=? j) && (j <? t + Z.of_nat (S (length row)))) with true by lia. now replace (Z.to_nat (j - t)) with O by lia.
      * destruct ((t + 1 <=? j) && (j <? t + Z.of_nat (S (length row)))) eqn:E1.
        -- replace ((t <=? j) && (j <? t + Z.of_nat (S (length row)))) with true by lia. replace (Z.to_nat (j - t)) with (S (Z.to_nat (j - (t + 1)))) by lia. reflexivity.
        -- replace ((t <=? j) && (j <? t + Z.of_nat (S (length row)))) with false by lia. reflexivity.
    + replace (t + Z.of_nat (S (length row)) <=? blen b) with false by lia. rewrite bput_out by lia. reflexivity.
Qed.

Section Pool.
Context (g : graph).
Let n := gn g.
Definition nrow (i : Z) : list Z := map fst (mom_row i (gd g)).
Definition off (k : Z) : Z := Z.of_nat (length (flat_map nrow (zrange k))).
Lemma off_0 : off 0 = 0. Proof. reflexivity. Qed.
Lemma off_succ k : 0 <= k -> off (k + 1) = off k + Z.of_nat (length (nrow k)).
Proof. intro. unfold off. rewrite zrange_succ by lia. rewrite flat_map_app, app_length. cbn. rewrite app_nil_r. lia. Qed.
Lemma off_mono i j : 0 <= i <= j -> off i <= off j.
Proof.
  intro. replace j with (i + Z.of_nat (Z.to_nat (j - i))) by lia. induction (Z.to_nat (j - i)) as [|d IH]; [replace (i + Z.of_nat 0) with i by lia; lia|].
  replace (i + Z.of_nat (S d)) with (i + Z.of_nat d + 1) by lia. rewrite off_succ by lia. lia.
Qed.
(* the array after the first k vertices *)
Definition filled (k : Z) (b : buf) : Prop :=
  (forall i, 0 <= i <= k -> cell b (i + 1) = Some (n + 2 + off i)) /\
  (forall i j, 0 <= i < k -> 0 <= j < Z.of_nat (length (nrow i)) -> cell b (n + 2 + off i + j) = Some (nth (Z.to_nat j) (nrow i) 0)).
Definition pool_step (i : Z) (bt : buf * Z) : res (buf * Z) :=
  do bt <- ip_row (nrow i) bt; do b <- bput (fst bt) (i + 2) (snd bt); Ok (b, snd bt).
Lemma pool_loop b0 : cell b0 1 = Some (n + 2) -> forall k, 0 <= k <= n -> n + 2 <= blen b0 ->
  if n + 2 + off k <=? blen b0 then exists b, foldM pool_step (zrange k) (b0, n + 2) = Ok (b, n + 2 + off k) /\ blen b = blen b0 /\ filled k b
  else foldM pool_step (zrange k) (b0, n + 2) = UB.
Proof.
  intros C0 k [Hk Hn] L0. replace k with (Z.of_nat (Z.to_nat k)) in * by lia. induction (Z.to_nat k) as [|d IH].
  - change (Z.of_nat 0) with 0 in *. rewrite off_0. replace (n + 2 + 0 <=? blen b0) with true by lia. exists b0. split; [replace (n + 2 + 0) with (n + 2) by lia; reflexivity|]. split; [reflexivity|].
    split; [|lia]. intros i Hi. replace i with 0 by lia. rewrite off_0. replace (n + 2 + 0) with (n + 2) by lia. exact C0.
  - specialize (IH ltac:(lia) ltac:(lia)). set (q := Z.of_nat d) in *. replace (Z.of_nat (S d)) with (q + 1) in * by lia.
    rewrite zrange_succ by lia. rewrite foldM_app. rewrite off_succ by lia. destruct (n + 2 + off q <=? blen b0) eqn:E1.
    + destruct IH as (b & -> & L & F1 & F2). cbn [bind foldM]. unfold pool_step.
      assert (P : 0 <= off q) by (unfold off; lia). assert (Ht : 0 <= n + 2 + off q <= blen b) by lia.
      pose proof (ip_row_ok (nrow q) b (n + 2 + off q) Ht) as R. rewrite L in R.
      replace (n + 2 + off q + Z.of_nat (length (nrow q))) with (n + 2 + (off q + Z.of_nat (length (nrow q)))) in R by lia.
      destruct (n + 2 + (off q + Z.of_nat (length (nrow q))) <=? blen b0) eqn:E2.
      * destruct R as (b1 & -> & L1 & C1). cbn [bind fst snd]. destruct (bput_ok b1 (q + 2) (n + 2 + (off q + Z.of_nat (length (nrow q)))) ltac:(lia)) as (b2 & -> & L2 & C2).
        cbn [bind]. exists b2. split; [reflexivity|]. split; [lia|]. split.
        -- intros i Hi. rewrite C2. destruct (i + 1 =? q + 2) eqn:Ei.
           ++ replace i with (q + 1) by lia. rewrite off_succ by lia. reflexivity.
           ++ rewrite C1. replace ((n + 2 + off q <=? i + 1) && (i + 1 <? n + 2 + (off q + Z.of_nat (length (nrow q))))) with false by lia. apply F1. lia.
        -- intros i j Hi Hj. assert (Pi : 0 <= off i) by (unfold off; lia). rewrite C2. replace (n + 2 + off i + j =? q + 2) with false by lia. rewrite C1.
           destruct (Z.eq_dec i q) as [->|Ne].
           ++ replace ((n + 2 + off q <=? n + 2 + off q + j) && (n + 2 + off q + j <? n + 2 + (off q + Z.of_nat (length (nrow q))))) with true by lia. do 2 f_equal. lia.
           ++ pose proof (off_mono (i + 1) q ltac:(lia)) as Mo. rewrite off_succ in Mo by lia.
              replace ((n + 2 + off q <=? n + 2 + off i + j) && (n + 2 + off i + j <? n + 2 + (off q + Z.of_nat (length (nrow q))))) with false by lia. apply F2; lia.
      * rewrite R. reflexivity.
    + rewrite IH. replace (n + 2 + (off q + Z.of_nat (length (nrow q))) <=? blen b0) with false by lia. reflexivity.
Qed.

Lemma as_int_pool_ok : 0 <= n ->
  if off n <=? 2 * gnedges g then exists b, as_int_pool g = Ok (IPool n b) /\ filled n b /\ blen b = n + 2 * gnedges g + 2
  else as_int_pool g = UB.
Proof.
  intro Hn. unfold as_int_pool, ip_new. fold n. assert (Q : 0 <= gnedges g). { unfold gnedges. apply Z.quot_pos; [rewrite mom_size_calls; unfold zlen; lia|lia]. }
  pose proof (blen_new (n + 2 * gnedges g + 2) ltac:(lia)) as Ln.
  destruct (bput_ok (bnew (n + 2 * gnedges g + 2)) 0 n ltac:(lia)) as (b1 & -> & L1 & C1). cbn [bind].
  destruct (bput_ok b1 1 (n + 2) ltac:(lia)) as (b2 & -> & L2 & C2). cbn [bind iparr].
  destruct (bput_ok b2 1 (n + 2) ltac:(lia)) as (b3 & -> & L3 & C3). cbn [bind].
  pose proof (pool_loop b3 ltac:(rewrite C3; reflexivity) n ltac:(lia) ltac:(lia)) as P. unfold forZ. rewrite L3, L2, L1, Ln in P.
  change (fun i bt => _) with pool_step. replace (n + 2 + off n <=? n + 2 * gnedges g + 2) with (off n <=? 2 * gnedges g) in P by lia.
  destruct (off n <=? 2 * gnedges g).
  - destruct P as (b & -> & L & F). cbn [bind fst]. exists b. auto.
  - rewrite P. reflexivity.
Qed.

Definition flat_edges : list (Z * Z * Z) := flat_map (fun i => map (fun x => (i, x, 1)) (nrow i)) (zrange n).
Lemma gof_pool_ok b : 0 <= n -> filled n b -> gof_pool (IPool n b) = Ok (inserts n flat_edges).
Proof.
  intros Hn [F1 F2]. unfold gof_pool, flat_edges, forZ. cbn [ipn].
  destruct (foldM_inv (fun done g' => g' = inserts n (flat_map (fun i => map (fun x => (i, x, 1)) (nrow i)) done))
    (fun i g => do m <- ip_size (IPool n b) i; foldM (fun j g => do x <- ip_get (IPool n b) i j; Ok (gset i x 1 g)) (zrange m) g) (zrange n) (gnew n)) as (s & E & H); [reflexivity| |rewrite E, H; reflexivity].
  intros done i rest g0 El Hg. assert (Hi : 0 <= i < n) by (apply in_zrange; rewrite El, in_app_iff; cbn; auto).
  assert (Es : ip_size (IPool n b) i = Ok (Z.of_nat (length (nrow i)))).
  { unfold ip_size. cbn [ipn iparr]. replace (i <? n) with true by lia. cbn [assrt]. replace (i + 2) with (i + 1 + 1) by lia.
    rewrite (bget_cell _ _ _ (F1 (i + 1) ltac:(lia))), (bget_cell _ _ _ (F1 i ltac:(lia))). cbn [bind]. rewrite off_succ by lia. f_equal. lia. }
  rewrite Es. cbn [bind].
  destruct (foldM_inv (fun d2 g' => g' = inserts n (flat_map (fun i => map (fun x => (i, x, 1)) (nrow i)) done ++ map (fun j => (i, nth (Z.to_nat j) (nrow i) 0, 1)) d2))
    (fun j g => do x <- ip_get (IPool n b) i j; Ok (gset i x 1 g)) (zrange (Z.of_nat (length (nrow i)))) g0) as (s & E & H).
  - now rewrite app_nil_r.
  - intros d2 j r2 g1 El2 Hg1. assert (Hj : 0 <= j < Z.of_nat (length (nrow i))) by (apply in_zrange; rewrite El2, in_app_iff; cbn; auto).
    unfold ip_get. cbn [ipn iparr]. replace (i <? n) with true by lia. cbn [assrt]. rewrite Es. cbn [bind]. replace (j <? Z.of_nat (length (nrow i))) with true by lia. cbn [assrt].
    rewrite (bget_cell _ _ _ (F1 i ltac:(lia))). cbn [bind]. rewrite (bget_cell _ _ _ (F2 i j ltac:(lia) ltac:(lia))). cbn [bind].
    eexists. split; [reflexivity|]. rewrite map_app. cbn [map]. rewrite app_assoc, inserts_snoc, Hg1. reflexivity.
  - rewrite E. eexists. split; [reflexivity|]. rewrite H, flat_map_app. cbn. rewrite app_nil_r. do 2 f_equal.
    clear. set (l := nrow i). clearbody l. induction l as [|x l IH] using rev_ind; [reflexivity|]. rewrite app_length. cbn [length]. replace (Z.of_nat (length l + 1)) with (Z.of_nat (length l) + 1) by lia.
    rewrite zrange_succ by lia. rewrite !map_app. cbn [map]. rewrite app_nth2 by lia. replace (Z.to_nat (Z.of_nat (length l)) - length l)%nat with O by lia. cbn [nth]. f_equal. rewrite <- IH. apply map_ext_in. intros j Hj. apply in_zrange in Hj. rewrite app_nth1 by lia. reflexivity.
Qed.
End Pool.

Lemma flat_edges_find g i j : good g -> 0 <= gn g -> last_pair i j (flat_edges g) = if mom_filled i j (gd g) then Some 1 else None.
Proof.
  intros [T Sy R] Hn. apply tables_wf in T.
  assert (A : forall a b v, In (a, b, v) (flat_edges g) <-> v = 1 /\ edge g a b).
  { intros a b v. unfold flat_edges. rewrite in_flat_map. split.
    - intros (c & Hc & I). apply in_map_iff in I. destruct I as (x & E & I). injection E as -> -> <-. split; [reflexivity|]. unfold nrow in I. apply in_map_iff in I. destruct I as ([b' w] & E & I). cbn in E. subst b'. apply row_in in I; [|exact T]. exists w. now apply entry_find.
    - intros [-> [w E]]. exists a. split; [apply in_zrange; now apply (R a b w)|]. apply in_map_iff. exists b. split; [reflexivity|]. apply in_map_iff. exists (b, w). split; [reflexivity|]. apply row_in; [exact T|]. now apply entry_find. }
  assert (B : mom_filled i j (gd g) = true <-> edge g i j).
  { rewrite mom_filled_find. unfold edge. split.
    - destruct (mom_find i j (gd g)) as [v|] eqn:E; [|discriminate]. intros _. exists v. now apply entry_find.
    - intros [v E]. apply entry_find in E; [|exact T]. now rewrite E. }
  assert (C : forall v, last_pair i j (flat_edges g) = Some v -> v = 1 /\ edge g i j).
  { intros v. generalize (fun a b v => proj1 (A a b v)). clear A B. generalize (flat_edges g). intro es. induction es as [|[[a b] w] es IH] using rev_ind; [discriminate|].
    intros A. rewrite last_pair_snoc. destruct (hits i j (a, b, w)) eqn:E.
    - intro F. injection F as ->. destruct (A a b v ltac:(rewrite in_app_iff; cbn; auto)) as [-> [x Ex]]. split; [reflexivity|]. cbn in E. apply orb_true_iff in E. destruct E as [E|E].
      + replace i with a by lia. replace j with b by lia. now exists x.
      + replace i with b by lia. replace j with a by lia. exists x. now apply Sy.
    - intro F. apply IH; [|exact F]. intros a' b' v' I. apply A. rewrite in_app_iff. auto. }
  destruct (mom_filled i j (gd g)) eqn:E.
  - destruct (last_pair i j (flat_edges g)) as [v|] eqn:F; [destruct (C _ eq_refl) as [-> _]; reflexivity|]. exfalso. apply proj1 in B. specialize (B eq_refl). assert (I : In (i, j, 1) (flat_edges g)) by now apply A.
    clear - I F. induction (flat_edges g) as [|e es IH] using rev_ind; [contradiction|]. rewrite last_pair_snoc in F. destruct (hits i j e) eqn:E; [discriminate|]. apply in_app_iff in I. destruct I as [I|[I|[]]]; [auto|]. rewrite I in E. cbn in E. rewrite !Z.eqb_refl in E. discriminate.
  - destruct (last_pair i j (flat_edges g)) as [v|] eqn:F; [|reflexivity]. destruct (C _ eq_refl) as [_ X]. apply B in X. congruence.
Qed.

(* the number of entries is the number of self loops plus twice the number of other edges *)
Lemma size_count g : good g -> mom_size (gd g) = self_loops g + 2 * Z.of_nat (length (filter (fun c => fst (fst c) <? snd (fst c)) (mom_calls (gd g)))).
Proof.
  intros [T Sy R]. apply tables_wf in T. unfold self_loops. rewrite mom_size_calls. unfold zlen.
  assert (P : length (filter (fun c : Z * Z * Z => fst (fst c) <? snd (fst c)) (mom_calls (gd g))) = length (filter (fun c : Z * Z * Z => snd (fst c) <? fst (fst c)) (mom_calls (gd g)))).
  { rewrite <- (map_length fst (filter _ _)), <- (map_length (fun c : Z * Z * Z => (snd (fst c), fst (fst c))) (filter (fun c : Z * Z * Z => snd (fst c) <? fst (fst c)) _)). apply Permutation_length. pose proof (mom_calls_nodup _ T) as N. apply NoDup_Permutation.
    - now apply nodup_fst_filter.
    - rewrite <- (map_map fst (fun p : Z * Z => (snd p, fst p))). apply FinFun.Injective_map_NoDup; [intros [a b] [c d]; cbn; congruence|]. now apply nodup_fst_filter.
    - intros [a b]. rewrite !in_map_iff. split.
      + intros ([[c d] v] & E & I). cbn in E. injection E as -> ->. apply filter_In in I. destruct I as [I L]. exists (b, a, v). split; [reflexivity|]. apply filter_In. split; [|exact L]. apply mom_calls_in; [exact T|]. apply entry_find; [exact T|]. apply Sy, entry_find; [exact T|]. now apply mom_calls_in in I.
      + intros ([[c d] v] & E & I). cbn in E. injection E as -> ->. apply filter_In in I. destruct I as [I L]. exists (a, b, v). split; [reflexivity|]. apply filter_In. split; [|exact L]. apply mom_calls_in; [exact T|]. apply entry_find; [exact T|]. apply Sy, entry_find; [exact T|]. now apply mom_calls_in in I. }
  replace (2 * Z.of_nat (length (filter (fun c : Z * Z * Z => fst (fst c) <? snd (fst c)) (mom_calls (gd g))))) with
    (Z.of_nat (length (filter (fun c : Z * Z * Z => fst (fst c) <? snd (fst c)) (mom_calls (gd g)))) + Z.of_nat (length (filter (fun c : Z * Z * Z => snd (fst c) <? fst (fst c)) (mom_calls (gd g))))) by lia.
  clear. induction (mom_calls (gd g)) as [|[[a b] v] l IH]; [reflexivity|]. cbn [filter fst snd]. destruct (a =? b) eqn:E1, (a <? b) eqn:E2, (b <? a) eqn:E3; cbn [length]; lia.
Qed.
Lemma size_parity g : good g -> exists q, mom_size (gd g) = self_loops g + 2 * q.
Proof. intro Gd. eexists. now apply size_count. Qed.
Lemma nedges_count g : good g -> Z.of_nat (length (gedges g)) = gnedges g + (self_loops g + 1) / 2.
Proof.
  intro Gd. unfold gnedges. rewrite Z.quot_div_nonneg by (try lia; rewrite mom_size_calls; unfold zlen; lia). rewrite (size_count g Gd).
  set (q := Z.of_nat (length (filter (fun c => fst (fst c) <? snd (fst c)) (mom_calls (gd g))))).
  assert (E : Z.of_nat (length (gedges g)) = self_loops g + q).
  { unfold q, gedges, self_loops. clear. induction (mom_calls (gd g)) as [|[[a b] v] l IH]; [reflexivity|]. cbn [filter fst snd]. destruct (a =? b) eqn:E1, (a <? b) eqn:E2, (a <=? b) eqn:E3; cbn [length]; lia. }
  rewrite E. replace (self_loops g + 2 * q) with (self_loops g + q * 2) by lia. rewrite Z.div_add by lia. pose proof (Z.div_mod (self_loops g) 2 ltac:(lia)). pose proof (Z.mod_pos_bound (self_loops g) 2 ltac:(lia)).
  pose proof (Z.div_mod (self_loops g + 1) 2 ltac:(lia)). pose proof (Z.mod_pos_bound (self_loops g + 1) 2 ltac:(lia)). lia.
Qed.
Lemma off_total g : good g -> 0 <= gn g -> off g (gn g) = mom_size (gd g).
Proof.
  intros [T Sy R] Hn. apply tables_wf in T. rewrite mom_size_calls. unfold zlen, off. f_equal.
  transitivity (length (flat_map (fun i => map (fun p => (i, fst p)) (mom_row i (gd g))) (zrange (gn g)))).
  { generalize (zrange (gn g)). clear. induction l as [|i l IH]; [reflexivity|]. cbn. rewrite !app_length, IH. unfold nrow. now rewrite !map_length. }
  rewrite <- (map_length fst (mom_calls (gd g))). apply Permutation_length. apply NoDup_Permutation.
  - generalize (zrange_nodup (gn g)). generalize (zrange (gn g)). induction l as [|i l IH]; [constructor|]. intro N. inversion_clear N. cbn. apply nodup_app'; [|now apply IH|].
    + rewrite <- (map_map fst (pair i)). apply FinFun.Injective_map_NoDup; [intros a b E; congruence|]. now apply row_nodup.
    + intros [a b] I J. apply in_map_iff in I. destruct I as (p & E & I). injection E as <- <-. apply in_flat_map in J. destruct J as (c & Ic & J). apply in_map_iff in J. destruct J as (q & E & J). injection E as -> _. contradiction.
  - now apply mom_calls_nodup.
  - intros [a b]. rewrite in_flat_map, in_map_iff. split.
    + intros (c & Ic & J). apply in_map_iff in J. destruct J as ([d v] & E & J). injection E as -> <-. exists (a, d, v). split; [reflexivity|]. apply mom_calls_in; [exact T|]. now apply row_in in J.
    + intros ([[c d] v] & E & I). cbn in E. injection E as -> ->. apply mom_calls_in in I; [|exact T]. exists a. split; [apply in_zrange; apply (R a b v); now apply entry_find|]. apply in_map_iff. exists (b, v). split; [reflexivity|]. now apply row_in.
Qed.
