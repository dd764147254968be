From Verif Require Import Base BaseFacts Map Proofs_Containers2 Model_Containers Proofs_Containers Proofs_Containers4 Model_Tree Model_Graph Spec_Graph Proofs_Graph Proofs_Graph2 Proofs_Graph5
  Model_Index Model_View Model_Tensor Model_Ops Model_RView Spec_Index Spec_View Spec_Tensor Proofs_Tensor Proofs_Tensor2 Proofs_Tensor3 Spec_Ops Proofs_Ops Proofs_Ops2 Model_Graph2 Spec_Graph2 Proofs_Graph7.
From Verif Require Import Spec_Graph.
Local Open Scope Z_scope.

Lemma foldM_ub {S A} (P : S -> Prop) (f : A -> S -> res S) l x s : In x l -> P s -> (forall a s, P s -> f a s = UB \/ exists s', f a s = Ok s' /\ P s') -> (forall s, P s -> f x s = UB) -> foldM f l s = UB.
Proof.
  revert s. induction l as [|a l IH]; intros s I Ps H U; [contradiction|]. cbn. destruct I as [->|I]; [now rewrite U|]. destruct (H a s Ps) as [->|(s' & -> & Ps')]; [reflexivity|]. cbn. now apply IH.
Qed.

(* a graph with insertions on top *)
Definition gsets (es : list (Z * Z * Z)) (g : graph) : graph := fold_left (fun g e => gset (fst (fst e)) (snd (fst e)) (snd e) g) es g.
Lemma gsets_snoc es e g : gsets (es ++ [e]) g = gset (fst (fst e)) (snd (fst e)) (snd e) (gsets es g).
Proof. unfold gsets. now rewrite fold_left_app. Qed.
Lemma gsets_find es g i j : mom_find i j (gd (gsets es g)) = match last_pair i j es with Some v => Some v | None => mom_find i j (gd g) end.
Proof.
  induction es as [|e es IH] using rev_ind; [reflexivity|]. rewrite gsets_snoc, gset_find, last_pair_snoc, IH. destruct e as [[a b] v]. cbn [fst snd]. now destruct (hits i j (a, b, v)).
Qed.
Lemma gsets_wf es g : momwf (gd g) -> momwf (gd (gsets es g)).
Proof. intro W. induction es as [|e es IH] using rev_ind; [exact W|]. rewrite gsets_snoc. now apply gset_wf. Qed.
Lemma gsets_rest es g : gn (gsets es g) = gn g /\ glab (gsets es g) = glab g /\ gdeg (gsets es g) = gdeg g.
Proof. induction es as [|e es IH] using rev_ind; [auto|]. rewrite gsets_snoc. exact IH. Qed.

(* ---- dense ---- *)
Lemma vaddr_dense b n i j : vaddr (fresh_view b [n; n]) [i; j] = Ok (b, i * n + j).
Proof. unfold vaddr, fresh_view. cbn -[Z.mul Z.add]. do 2 f_equal. lia. Qed.
Lemma dense_ok b g (m : mem Z) : good g -> 0 <= gn g ->
  exists r m', g_dense b g m = Ok (r, m') /\ makes b m m' r [gn g; gn g] (fun ix => gget (nth 0 ix 0) (nth 1 ix 0) g).
Proof.
  intros [T Sy Rg] Hn. apply tables_wf in T. unfold g_dense. set (n := gn g). assert (Nn : nonneg [n; n]) by (repeat constructor; exact Hn).
  assert (F : forall i j v, In (i, j, v) (mom_calls (gd g)) -> gget i j g = v) by (intros i j v I; apply mom_calls_in in I; [|exact T]; now rewrite gget_find, I).
  destruct (put_loop (fresh_view b [n; n]) (mom_calls (gd g)) (fun c => [fst (fst c); snd (fst c)]) (fun c (_ : mem Z) => Ok (snd c)) (fun ix => gget (nth 0 ix 0) (nth 1 ix 0) g) (alloc 0 b (asize [n; n]) m)) as (m' & E & E1 & E2 & U).
  - now apply fresh_vwf.
  - now apply fresh_distinct.
  - now apply fresh_rd.
  - intros [[i j] v] I. cbn. apply mom_calls_in in I; [|exact T]. apply entry_find in I; [|exact T]. apply Rg in I. repeat constructor; fold n in I; lia.
  - intros [[i j] v] m1 I _. cbn [fst snd nth]. now rewrite (F i j v I).
  - exists (fresh_view b [n; n]), m'. split; [cbn [bind] in E; rewrite E; reflexivity|]. apply (makes_fresh 0); [exact Nn|exact U|]. intros ix Hix.
    destruct (in_range_2_inv ix n n Hix) as (i & j & -> & Hi & Hj). cbn [nth]. rewrite gget_find. destruct (mom_find i j (gd g)) as [v|] eqn:Ef.
    + assert (I : In (i, j, v) (mom_calls (gd g))) by now apply mom_calls_in. pose proof (E1 _ I) as X. cbn [fst snd nth] in X. rewrite X, (F i j v I). reflexivity.
    + rewrite E2; [|exact Hix|].
      * rewrite fresh_readable; [reflexivity|exact Nn|exact Hix].
      * intros [[a c] v] I Q. cbn in Q. injection Q as -> ->. apply mom_calls_in in I; [|exact T]. congruence.
Qed.
Lemma dense_outside b g (m : mem Z) i j v : tables (gd g) -> entry i j v (gd g) -> gn g <= i -> 0 <= gn g -> 0 <= j -> g_dense b g m = UB.
Proof.
  intros T E Hi Hn Hj. apply tables_wf in T. unfold g_dense. set (n := gn g) in *.
  rewrite (foldM_ub (fun m1 : mem Z => forall a, n * n <= a -> m1 b a = None) _ _ (i, j, v)); [reflexivity| | | |].
  - apply mom_calls_in; [exact T|]. now apply entry_find.
  - intros a Ha. unfold alloc. rewrite Z.eqb_refl. destruct ((0 <=? a) && (a <? _)) eqn:Q; [|reflexivity]. exfalso. unfold asize in Q. cbn -[Z.mul] in Q. lia.
  - intros [[a c] w] m1 Hm. unfold put_at. cbn [fst snd]. rewrite vaddr_dense. cbn [bind fst snd]. unfold store. destruct (m1 b (a * n + c)) eqn:Q; [right|now left]. eexists. split; [reflexivity|].
    intros x Hx. unfold upd. destruct (_ && _) eqn:X; [|now apply Hm]. exfalso. rewrite Hm in Q by lia. discriminate.
  - intros m1 Hm. unfold put_at. cbn [fst snd]. rewrite vaddr_dense. cbn [bind fst snd]. unfold store. rewrite Hm by nia. reflexivity.
Qed.

(* ---- from a matrix ---- *)
Definition lower_es (n : Z) (f : Z -> Z -> Z) : list (Z * Z * Z) :=
  flat_map (fun i => flat_map (fun j => if f i j =? 0 then [] else [(i, j, f i j)]) (zrange (i + 1))) (zrange n).
Lemma in_lower n f i j v : In (i, j, v) (lower_es n f) <-> 0 <= j <= i /\ i < n /\ v = f i j /\ v <> 0.
Proof.
  unfold lower_es. rewrite in_flat_map. split.
  - intros (a & Ia & I). apply in_flat_map in I. destruct I as (c & Ic & I). apply in_zrange in Ia, Ic. destruct (f a c =? 0) eqn:E; [contradiction|]. destruct I as [Q|[]]. injection Q as <- <- <-. lia.
  - intros (A & B & -> & N). exists i. split; [apply in_zrange; lia|]. apply in_flat_map. exists j. split; [apply in_zrange; lia|]. replace (f i j =? 0) with false by lia. now left.
Qed.
Lemma get_elem (m : mem Z) x ix v : elem m x ix = Some v -> get_at x ix m = Ok v.
Proof. unfold elem, get_at. destruct (vaddr x ix) as [[b a]| |]; try discriminate. intro E. cbn. unfold loadA, load. cbn. now rewrite E. Qed.
Lemma of_dense_run x (m : mem Z) n f : vdims x = [n; n] -> (forall i j, 0 <= i < n -> 0 <= j < n -> elem m x [i; j] = Some (f i j)) -> g_of_dense x m = Ok (inserts n (lower_es n f)).
Proof.
  intros D F. unfold g_of_dense. rewrite D, Z.eqb_refl. cbn [assrt]. unfold lower_es, forZ.
  destruct (foldM_inv (fun done g => g = inserts n (flat_map (fun i => flat_map (fun j => if f i j =? 0 then [] else [(i, j, f i j)]) (zrange (i + 1))) done))
    (fun i g => foldM (fun j g => do v <- get_at x [i; j] m; Ok (if v =? 0 then g else gset i j v g)) (zrange (i + 1)) g) (zrange n) (gnew n)) as (g & E & ->); [reflexivity| |exact E].
  intros done i rest g El ->. assert (Hi : 0 <= i < n) by (apply in_zrange; rewrite El, in_app_iff; cbn; auto).
  destruct (foldM_inv (fun dj g => g = inserts n (flat_map (fun i => flat_map (fun j => if f i j =? 0 then [] else [(i, j, f i j)]) (zrange (i + 1))) done ++ flat_map (fun j => if f i j =? 0 then [] else [(i, j, f i j)]) dj))
    (fun j g => do v <- get_at x [i; j] m; Ok (if v =? 0 then g else gset i j v g)) (zrange (i + 1)) (inserts n (flat_map (fun i => flat_map (fun j => if f i j =? 0 then [] else [(i, j, f i j)]) (zrange (i + 1))) done))) as (g & E & Hg).
  - cbn [flat_map]. now rewrite app_nil_r.
  - intros dj j rj g Ej ->. assert (Hj : 0 <= j < i + 1) by (apply in_zrange; rewrite Ej, in_app_iff; cbn; auto). rewrite (get_elem m x [i; j] (f i j)) by (apply F; lia). cbn [bind]. eexists. split; [reflexivity|].
    rewrite flat_map_app. cbn [flat_map]. rewrite app_nil_r, app_assoc. destruct (f i j =? 0); [now rewrite app_nil_r|]. now rewrite inserts_snoc.
  - exists g. split; [exact E|]. rewrite flat_map_app. cbn [flat_map]. now rewrite app_nil_r.
Qed.
Lemma lower_find n f i j : last_pair i j (lower_es n f) = if (0 <=? i) && (i <? n) && (0 <=? j) && (j <? n) && negb (f (Z.max i j) (Z.min i j) =? 0) then Some (f (Z.max i j) (Z.min i j)) else None.
Proof.
  rewrite (last_pair_const i j (f (Z.max i j) (Z.min i j))).
  - destruct (existsb _ _) eqn:E.
    + apply existsb_exists in E. destruct E as ([[a b] v] & I & H). apply in_lower in I. apply hits_iff in H. destruct I as (A & B & -> & N).
      replace (Z.max i j) with a by lia. replace (Z.min i j) with b by lia. replace (_ && _) with true by lia. reflexivity.
    + destruct (_ && _) eqn:Q; [|reflexivity]. exfalso. assert (X : existsb (hits i j) (lower_es n f) = true); [|congruence]. apply existsb_exists. exists (Z.max i j, Z.min i j, f (Z.max i j) (Z.min i j)).
      split; [apply in_lower; lia|apply hits_iff; lia].
  - intros [[a b] v] I H. apply in_lower in I. apply hits_iff in H. cbn. destruct I as (A & B & -> & N). replace (Z.max i j) with a by lia. replace (Z.min i j) with b by lia. reflexivity.
Qed.
Lemma of_dense_ok x (m : mem Z) n f : 0 <= n -> vdims x = [n; n] -> (forall i j, 0 <= i < n -> 0 <= j < n -> elem m x [i; j] = Some (f i j)) ->
  exists g, g_of_dense x m = Ok g /\ gn g = n /\ good g /\ forall i j v, entry i j v (gd g) <-> 0 <= i < n /\ 0 <= j < n /\ v = f (Z.max i j) (Z.min i j) /\ v <> 0.
Proof.
  intros Hn D F. exists (inserts n (lower_es n f)). split; [now apply of_dense_run|]. split; [apply inserts_n|]. split.
  - apply inserts_good. apply Forall_forall. intros [[a b] v] I. apply in_lower in I. cbn. lia.
  - intros i j v. rewrite inserts_entry, lower_find. destruct (_ && _) eqn:Q; split; [intro X; injection X; lia|intro; f_equal; lia|discriminate|lia].
Qed.

(* ---- insert ---- *)
Definition vat (v : list Z) (i : Z) : Z := nth (Z.to_nat i) v 0.
Lemma zget_vat v i : 0 <= i < Z.of_nat (length v) -> zget v i = Ok (vat v i).
Proof. intro H. replace i with (Z.of_nat (Z.to_nat i)) at 1 by lia. apply zget_nat. unfold vat. apply nth_error_nth'. lia. Qed.
Lemma zget_out (v : list Z) i : Z.of_nat (length v) <= i -> zget v i = UB.
Proof. intro H. unfold zget, vget. replace (i <? 0) with false by lia. rewrite (proj2 (nth_error_None _ _)) by lia. reflexivity. Qed.
Lemma vat_inj v i j : NoDup v -> 0 <= i < Z.of_nat (length v) -> 0 <= j < Z.of_nat (length v) -> vat v i = vat v j -> i = j.
Proof. intros N A B E. apply (proj1 (NoDup_nth v 0) N) in E; lia. Qed.
Definition placed (v : list Z) (es : list (Z * Z * Z)) : list (Z * Z * Z) := map (fun c => (vat v (fst (fst c)), vat v (snd (fst c)), snd c)) es.
Lemma insert_run H v g : good H -> gn H <= Z.of_nat (length v) -> (forall p, In p v -> p < gn g) -> g_insert H v g = Ok (gsets (placed v (gedges H)) g).
Proof.
  intros [T Sy R] L P. apply tables_wf in T. unfold g_insert. replace (forallb _ v) with true by (symmetry; apply forallb_forall; intros p I; apply P in I; lia). cbn [assrt].
  destruct (foldM_inv (fun done g' => g' = gsets (placed v done) g) (fun c g => do a <- zget v (fst (fst c)); do b <- zget v (snd (fst c)); Ok (gset a b (snd c) g)) (gedges H) g) as (g' & E & ->); [reflexivity| |exact E].
  intros done [[i j] x] rest g' El ->. assert (I : In (i, j, x) (gedges H)) by (rewrite El, in_app_iff; cbn; auto). apply (gedges_ok H T) in I. destruct I as [_ I]. apply entry_find in I; [|exact T]. apply R in I. cbn [fst snd].
  rewrite !zget_vat by lia. cbn [bind]. eexists. split; [reflexivity|]. unfold placed. rewrite map_app. cbn [map]. rewrite gsets_snoc. reflexivity.
Qed.
Lemma insert_ok H v g : good g -> good H -> NoDup v -> gn H <= Z.of_nat (length v) -> (forall p, In p v -> 0 <= p < gn g) ->
  exists g', g_insert H v g = Ok g' /\ good g' /\ gn g' = gn g /\ glab g' = glab g /\ gdeg g' = gdeg g /\
    (forall i j x, edge H i j -> (entry (vat v i) (vat v j) x (gd g') <-> entry i j x (gd H))) /\
    (forall a b x, (forall i j, edge H i j -> ~ (a = vat v i /\ b = vat v j)) -> (entry a b x (gd g') <-> entry a b x (gd g))).
Proof.
  intros Gg GH N L P. exists (gsets (placed v (gedges H)) g). split; [apply insert_run; try assumption; intros p I; now apply P|].
  pose proof (proj1 (tables_wf _) (good_tables g Gg)) as Wg. pose proof (proj1 (tables_wf _) (good_tables H GH)) as WH. pose proof (gsets_wf (placed v (gedges H)) g Wg) as W'. destruct (gsets_rest (placed v (gedges H)) g) as (R1 & R2 & R3).
  assert (Pl : forall a b x, In (a, b, x) (placed v (gedges H)) <-> exists i j, a = vat v i /\ b = vat v j /\ i <= j /\ entry i j x (gd H)).
  { intros a b x. unfold placed. rewrite in_map_iff. split.
    - intros ([[i j] y] & E & I). cbn in E. injection E as <- <- <-. apply (gedges_ok H WH) in I. exists i, j. rewrite entry_find by exact WH. tauto.
    - intros (i & j & -> & -> & Le & E). exists (i, j, x). split; [reflexivity|]. apply (gedges_ok H WH). rewrite <- entry_find by exact WH. auto. }
  assert (Inr : forall i j x, entry i j x (gd H) -> 0 <= i < Z.of_nat (length v) /\ 0 <= j < Z.of_nat (length v)) by (intros i j x E; apply (good_range H GH) in E; lia).
  assert (On : forall i j x, entry i j x (gd H) -> last_pair (vat v i) (vat v j) (placed v (gedges H)) = Some x).
  { intros i j x E. rewrite (last_pair_const _ _ x).
    - replace (existsb _ _) with true; [reflexivity|]. symmetry. apply existsb_exists. destruct (Z.le_ge_cases i j) as [Le|Le].
      + exists (vat v i, vat v j, x). split; [apply Pl; eauto 8|apply hits_iff; auto].
      + exists (vat v j, vat v i, x). split; [apply Pl; exists j, i; repeat split; auto; now apply (good_sym H GH)|apply hits_iff; auto].
    - intros [[a b] y] I Hh. apply Pl in I. destruct I as (i' & j' & -> & -> & Le & E'). cbn. apply hits_iff in Hh. pose proof (Inr _ _ _ E) as [Q1 Q2]. pose proof (Inr _ _ _ E') as [Q3 Q4].
      assert (F : entry i j y (gd H)).
      { destruct Hh as [[A B]|[A B]]; apply vat_inj in A; try assumption; apply vat_inj in B; try assumption; subst; [exact E'|now apply (good_sym H GH)]. }
      apply entry_find in E, F; try exact WH. congruence. }
  assert (Off : forall a b, (forall i j, edge H i j -> ~ (a = vat v i /\ b = vat v j)) -> last_pair a b (placed v (gedges H)) = None).
  { intros a b Hab. destruct (last_pair a b _) as [x|] eqn:E; [|reflexivity]. exfalso. apply last_pair_in in E. destruct E as ([[c d] y] & I & Hh). apply Pl in I. destruct I as (i & j & -> & -> & _ & E). apply hits_iff in Hh.
    destruct Hh as [[A B]|[A B]]; [apply (Hab i j); [now exists y|auto]|apply (Hab j i); [exists y; now apply (good_sym H GH)|auto]]. }
  assert (Lp : forall a b x, last_pair a b (placed v (gedges H)) = Some x -> 0 <= a < gn g /\ 0 <= b < gn g).
  { intros a b x E. apply last_pair_in in E. destruct E as ([[c d] y] & I & Hh). apply Pl in I. destruct I as (i & j & -> & -> & _ & E). apply Inr in E. apply hits_iff in Hh.
    assert (V : forall t, 0 <= t < Z.of_nat (length v) -> 0 <= vat v t < gn g) by (intros t Ht; apply P, nth_In; lia). pose proof (V i ltac:(lia)). pose proof (V j ltac:(lia)). lia. }
  split; [|split; [exact R1|split; [exact R2|split; [exact R3|split]]]].
  - constructor.
    + now apply tables_wf.
    + intros i j x. rewrite !entry_find, !gsets_find by exact W'. rewrite (last_pair_sym j i). destruct (last_pair i j _); [auto|]. rewrite <- !entry_find by exact Wg. apply (good_sym g Gg).
    + intros i j x. rewrite entry_find, gsets_find by exact W'. rewrite R1. destruct (last_pair i j _) as [y|] eqn:E; [intros _; now apply (Lp i j y)|]. rewrite <- entry_find by exact Wg. apply (good_range g Gg).
  - intros i j x [y Ey]. rewrite entry_find, gsets_find by exact W'. rewrite (On i j y Ey). rewrite entry_find by exact WH. apply entry_find in Ey; [|exact WH]. rewrite Ey. reflexivity.
  - intros a b x Hab. rewrite entry_find, gsets_find by exact W'. rewrite (Off a b Hab). now rewrite <- entry_find by exact Wg.
Qed.
Lemma insert_short H v g i j x : good H -> entry i j x (gd H) -> Z.of_nat (length v) <= j -> (forall p, In p v -> p < gn g) -> g_insert H v g = UB.
Proof.
  intros [T Sy R] E L P. apply tables_wf in T. unfold g_insert. replace (forallb _ v) with true by (symmetry; apply forallb_forall; intros p I; apply P in I; lia). cbn [assrt].
  assert (K : exists a b, a <= b /\ Z.of_nat (length v) <= b /\ 0 <= a /\ entry a b x (gd H)).
  { pose proof (R i j x E). destruct (Z.le_ge_cases i j); [exists i, j|exists j, i]; repeat split; try lia; auto. }
  destruct K as (a & b & Le & Lb & H0 & E'). apply (foldM_ub (fun _ => True) _ _ (a, b, x)); auto.
  - apply (gedges_ok H T). split; [exact Le|]. now apply entry_find.
  - intros [[c d] y] s _. cbn [fst snd]. unfold zget, vget. destruct (c <? 0); [now left|]. destruct (nth_error v (Z.to_nat c)); [|now left]. cbn [bind]. destruct (d <? 0); [now left|]. destruct (nth_error v (Z.to_nat d)); [|now left]. cbn. eauto.
  - intros s _. cbn [fst snd]. rewrite (zget_out v b Lb). unfold zget, vget. destruct (a <? 0); [reflexivity|]. destruct (nth_error v (Z.to_nat a)); reflexivity.
Qed.

(* ---- edges from a tensor ---- *)
Lemma of_edges_ok n e (m : mem Z) k f : vwf e -> nonneg (vstr e) -> distinct_cells e -> vdims e = [2; k] -> 0 < k ->
  (forall r i, 0 <= r < 2 -> 0 <= i < k -> elem m e [r; i] = Some (f r i)) -> (forall r i, 0 <= r < 2 -> 0 <= i < k -> f r i < n) ->
  g_of_edges n e m = Ok (gof n (map (fun i => (f 0 i, f 1 i)) (zrange k))).
Proof.
  intros W Ns Hd D Hk F Lt. unfold g_of_edges. rewrite D. replace (2 =? 2) with true by reflexivity. cbn [assrt].
  assert (Rd : readable m e). { intros ix Hix. rewrite D in Hix. destruct (in_range_2_inv ix 2 k Hix) as (r & i & -> & Hr & Hi). rewrite F by assumption. discriminate. }
  destruct (max_ok e m W Ns Hd Rd) as (t & Et & _ & (ix & Hix & Ex)); [rewrite D; repeat constructor; lia|]. rewrite Et. cbn [bind]. rewrite D in Hix. destruct (in_range_2_inv ix 2 k Hix) as (r & i & -> & Hr & Hi).
  rewrite F in Ex by assumption. injection Ex as <-. pose proof (Lt r i Hr Hi). replace (f r i <? n) with true by lia. cbn [assrt].
  unfold forZ. destruct (foldM_inv (fun done g => g = gof n (map (fun i => (f 0 i, f 1 i)) done)) (fun i g => do a <- get_at e [0; i] m; do b <- get_at e [1; i] m; Ok (gset a b 1 g)) (zrange k) (gnew n)) as (g & E & ->); [reflexivity| |exact E].
  intros done j rest g El ->. assert (Hj : 0 <= j < k) by (apply in_zrange; rewrite El, in_app_iff; cbn; auto). rewrite (get_elem m e [0; j] (f 0 j)), (get_elem m e [1; j] (f 1 j)) by (apply F; lia). cbn [bind]. eexists. split; [reflexivity|].
  rewrite map_app. unfold gof. rewrite fold_left_app. reflexivity.
Qed.
Lemma of_edges_high n e (m : mem Z) k f r i : vwf e -> nonneg (vstr e) -> distinct_cells e -> vdims e = [2; k] ->
  (forall r i, 0 <= r < 2 -> 0 <= i < k -> elem m e [r; i] = Some (f r i)) -> 0 <= r < 2 -> 0 <= i < k -> n <= f r i -> g_of_edges n e m = Throw.
Proof.
  intros W Ns Hd D F Hr Hi Hf. unfold g_of_edges. rewrite D. replace (2 =? 2) with true by reflexivity. cbn [assrt].
  assert (Rd : readable m e). { intros ix Hix. rewrite D in Hix. destruct (in_range_2_inv ix 2 k Hix) as (r' & i' & -> & Hr' & Hi'). rewrite F by assumption. discriminate. }
  destruct (max_ok e m W Ns Hd Rd) as (t & Et & Ub & _); [rewrite D; repeat constructor; lia|]. rewrite Et. cbn [bind]. destruct (Ub [r; i]) as (w & Ew & Le); [rewrite D; repeat constructor; lia|]. rewrite F in Ew by assumption. injection Ew as <-.
  replace (t <? n) with false by lia. reflexivity.
Qed.
Lemma of_edges_none n e (m : mem Z) : vdims e = [2; 0] -> g_of_edges n e m = if 0 <? n then Ok (gnew n) else Throw.
Proof. intro D. unfold g_of_edges. rewrite D. cbn. unfold tv_max. rewrite D. cbn. destruct (0 <? n); reflexivity. Qed.

(* ---- edges from a list ---- *)
Lemma list_max l : forall t, let M := fold_left (fun t e => Z.max (Z.max (fst e) (snd e)) t) l t in t <= M /\ (forall a b, In (a, b) l -> a <= M /\ b <= M) /\ (M = t \/ exists a b, In (a, b) l /\ (M = a \/ M = b)).
Proof.
  induction l as [|[a b] l IH]; intro t; cbn; [repeat split; auto; lia|]. destruct (IH (Z.max (Z.max a b) t)) as (A & B & C). split; [lia|]. split.
  - intros c d [E|I]; [injection E as -> ->; lia|now apply B].
  - destruct C as [C|(c & d & I & C)]; [|right; exists c, d; auto]. destruct (Z.max_spec (Z.max a b) t) as [[_ E]|[_ E]]; rewrite E in *; [left; exact C|right]. exists a, b. split; [auto|]. lia.
Qed.
