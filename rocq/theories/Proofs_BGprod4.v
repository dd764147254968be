(* Proofs_BGprod4.v -- results in new tensors, and sums over elements against sums over places. *)
From Verif Require Import Base BaseFacts Model_Index Model_View Spec_Index Proofs_Index Spec_View Proofs_View Model_Tensor Spec_Tensor Proofs_Tensor Proofs_Tensor2 Proofs_Tensor3 Model_Threads Model_BG Spec_BG Proofs_BG Proofs_BG2 Proofs_BG3 Prop_BG Model_BGprod Spec_BGprod Proofs_BGprod Proofs_BGprod2 Proofs_BGprod3 Proofs_Ops.
From Coq Require Import Permutation.
Local Open Scope Z_scope.

Lemma app_inj_length {A} (a : list A) : forall a' b b', length a = length a' -> a ++ b = a' ++ b' -> a = a' /\ b = b'.
Proof. induction a as [|x a IH]; intros [|x' a'] b b' L E; try discriminate; cbn in E; [auto|]. injection E as -> E. destruct (IH a' b b') as [-> ->]; [now injection L|assumption|auto]. Qed.
Lemma NoDup_app_intro {A} (a b : list A) : NoDup a -> NoDup b -> (forall x, In x a -> In x b -> False) -> NoDup (a ++ b).
Proof. induction 1 as [|x a Nx N IH]; intros Nb H; cbn; [assumption|]. constructor; [rewrite in_app_iff; intros [?|?]; [contradiction|]; now apply (H x); [left|]|]. apply IH; [assumption|]. intros y H1 H2. now apply (H y); [right|]. Qed.
Lemma in_all_places B gd cd f : In f (all_places B gd cd) <-> 0 <= fst (fst f) < B /\ in_range (snd (fst f)) gd /\ in_range (snd f) cd.
Proof.
  unfold all_places. rewrite in_flat_map. split.
  - intros (c & Hc & Hf). apply in_map_iff in Hf as (jx & <- & Hj). apply in_all_indices in Hj. apply in_all_cells in Hc as (H1 & H2). auto.
  - intros (H1 & H2 & H3). exists (fst f). split; [now apply in_all_cells|]. apply in_map_iff. exists (snd f). split; [now destruct f|now apply in_all_indices].
Qed.
Lemma part_range b g c B gd cd f : (b = 1 \/ b = B) -> (g = [] \/ g = gd) -> (c = [] \/ c = cd) -> In f (all_places B gd cd) -> in_range (part b g c f) (b :: g ++ c).
Proof.
  intros Hb Hg Hc Hf. apply in_all_places in Hf as (H1 & H2 & H3). unfold part. constructor; [destruct (b =? 1) eqn:E; lia|]. apply in_range_app.
  - destruct Hg as [->| ->]; [constructor|]. destruct gd; [constructor|assumption].
  - destruct Hc as [->| ->]; [constructor|]. destruct cd; [constructor|assumption].
Qed.
Lemma nil_range ix : in_range ix [] -> ix = []. Proof. inversion 1; reflexivity. Qed.
Lemma part_inj B gd cd f f' : In f (all_places B gd cd) -> In f' (all_places B gd cd) -> part B gd cd f = part B gd cd f' -> f = f'.
Proof.
  intros Hf Hf' E. apply in_all_places in Hf as (H1 & H2 & H3). apply in_all_places in Hf' as (H1' & H2' & H3'). destruct f as [[b ix] jx], f' as [[b' ix'] jx']. cbn [fst snd] in *. unfold part in E. cbn [fst snd] in E. injection E as Eb E.
  assert (Ex : match gd with [] => [] | _ => ix end = ix) by (destruct gd; [symmetry; now apply nil_range|reflexivity]).
  assert (Ex' : match gd with [] => [] | _ => ix' end = ix') by (destruct gd; [symmetry; now apply nil_range|reflexivity]).
  assert (Ej : match cd with [] => [] | _ => jx end = jx) by (destruct cd; [symmetry; now apply nil_range|reflexivity]).
  assert (Ej' : match cd with [] => [] | _ => jx' end = jx') by (destruct cd; [symmetry; now apply nil_range|reflexivity]).
  rewrite Ex, Ex', Ej, Ej' in E. assert (L := in_range_length _ _ H2). assert (L' := in_range_length _ _ H2').
  assert (Ei : ix = ix' /\ jx = jx'). { apply app_inj_length; [congruence|assumption]. } destruct Ei as (-> & ->). f_equal. f_equal. destruct (B =? 1) eqn:EB; lia.
Qed.
Lemma all_cells_nodup B gd : NoDup (all_cells B gd).
Proof.
  unfold all_cells. assert (N := zrange_nodup B). induction N as [|b l Nb N IH]; [constructor|]. cbn [flat_map]. apply NoDup_app_intro.
  - apply FinFun.Injective_map_NoDup; [intros a c E; congruence|apply all_indices_nodup].
  - assumption.
  - intros c H1 H2. apply in_map_iff in H1 as (ix & <- & _). apply in_flat_map in H2 as (b' & Hb' & H2). apply in_map_iff in H2 as (ix' & E & _). congruence.
Qed.
Lemma all_places_nodup B gd cd : NoDup (all_places B gd cd).
Proof.
  unfold all_places. assert (N := all_cells_nodup B gd). induction N as [|b l Nb N IH]; [constructor|]. cbn [flat_map]. apply NoDup_app_intro.
  - apply FinFun.Injective_map_NoDup; [intros a c E; congruence|apply all_indices_nodup].
  - assumption.
  - intros c H1 H2. apply in_map_iff in H1 as (ix & <- & _). apply in_flat_map in H2 as (b' & Hb' & H2). apply in_map_iff in H2 as (ix' & E & _). congruence.
Qed.
Lemma same_index_iff k l : same_index k l = true <-> k = l.
Proof. unfold same_index. destruct (list_eq_dec _ _ _); split; congruence. Qed.

Section T.
Context {R : cring}.
Add Ring Rring4 : (cth R).
Notation memR := (mem (car R)).
(* one place per element when r has all the batches, the grid and the cells *)
Lemma full_sum B gd cd (F : place -> R) f : In f (all_places B gd cd) -> rsum (map F (filter (fun f' => same_index (part B gd cd f') (part B gd cd f)) (all_places B gd cd))) = F f.
Proof.
  intro Hf. apply rsum_single; [apply all_places_nodup|assumption|]. intros f' Hf'. rewrite same_index_iff. split; [intro E; now apply (part_inj B gd cd)|now intros ->].
Qed.
(* ---- new tensors ---- *)
Lemma zero_ok k B gd cd (m : memR) r m1 : 0 <= B -> nonneg gd -> nonneg cd -> bg_zero k B gd cd m = (r, m1) ->
  shaped r B gd cd /\ vblk (bv r) = k /\ target_ok m1 r /\ (forall ix, in_range ix (vdims (bv r)) -> elem0 m1 (bv r) ix = c0) /\ (forall b a, b <> k -> m1 b a = m b a).
Proof.
  intros HB Ng Nc E. unfold bg_zero in E. injection E as <- <-. cbn [bv].
  assert (N : nonneg (B :: gd ++ cd)) by (constructor; [assumption|apply Forall_app; auto]).
  assert (El : forall ix, in_range ix (B :: gd ++ cd) -> elem (alloc c0 k (asize (B :: gd ++ cd)) m) (fresh_view k (B :: gd ++ cd)) ix = Some (@c0 R)) by (intros; now apply fresh_readable).
  split; [split; [reflexivity|]; split; [reflexivity|]; split; [apply strides_of_length|assumption]|]. split; [reflexivity|]. split.
  - split; [now apply fresh_distinct|]. intros ix Hi. cbn [vdims fresh_view] in Hi. rewrite El by assumption. discriminate.
  - split; [|intros; now apply alloc_other]. intros ix Hi. cbn [vdims fresh_view] in Hi. unfold elem0. now rewrite El.
Qed.
Lemma elsewhere (m m1 : memR) k x : (forall a, m k a = None) -> (forall b a, b <> k -> m1 b a = m b a) -> readable m (bv x) -> forall ix, in_range ix (vdims (bv x)) -> elem m1 (bv x) ix = elem m (bv x) ix /\ forall b a, vaddr (bv x) ix = Ok (b, a) -> b <> k.
Proof.
  intros Fk Hm Rx ix Hi. specialize (Rx ix Hi). unfold elem in *. destruct (vaddr (bv x) ix) as [[b a]| |]; try congruence. assert (b <> k) by (intros ->; now rewrite Fk in Rx). split; [now apply Hm|]. intros b' a' [= <- <-]. assumption.
Qed.
Lemma elsewhere_ok (m m1 : memR) k x r : (forall a, m k a = None) -> (forall b a, b <> k -> m1 b a = m b a) -> readable m (bv x) -> vblk (bv r) = k -> source_ok m1 r x.
Proof.
  intros Fk Hm Rx Hk. split.
  - intros ix Hi. destruct (elsewhere m m1 k x Fk Hm Rx ix Hi) as (-> & _). now apply Rx.
  - intros ix jx Hi Hj E. destruct (elsewhere m m1 k x Fk Hm Rx jx Hj) as (_ & H). specialize (Rx jx Hj). unfold elem in Rx. destruct (vaddr (bv x) jx) as [[b a]| |] eqn:Ea; try congruence. apply (H b a eq_refl). apply vaddr_blk in E. cbn [fst] in E. congruence.
Qed.
Lemma elsewhere_val (m m1 : memR) k x b g c B gd cd f : shaped x b g c -> (forall a, m k a = None) -> (forall b a, b <> k -> m1 b a = m b a) -> readable m (bv x) -> (b = 1 \/ b = B) -> (g = [] \/ g = gd) -> (c = [] \/ c = cd) -> In f (all_places B gd cd) ->
  val m1 x b g c f = val m x b g c f.
Proof.
  intros Hs Fk Hm Rx Hb Hg Hc Hf. unfold val, elem0. destruct (elsewhere m m1 k x Fk Hm Rx (part b g c f)) as (-> & _); [|reflexivity]. destruct Hs as (-> & _). eapply part_range; eassumption.
Qed.
Lemma result_ok k B gd cd (m : memR) r m1 (F F' : place -> R) out : 0 <= B -> nonneg gd -> nonneg cd -> bg_zero k B gd cd m = (r, m1) ->
  (exists m', out = Ok m' /\ adds m1 m' r B gd cd B gd cd F') -> (forall f, In f (all_places B gd cd) -> F' f = F f) ->
  exists m', out = Ok m' /\ makes m k B gd cd F (r, m').
Proof.
  intros HB Ng Nc E (m' & -> & El & U) HF. destruct (zero_ok k B gd cd m r m1 HB Ng Nc E) as (Hs & Hk & _ & Z & O). exists m'. split; [reflexivity|]. unfold makes. cbn [fst snd]. split; [assumption|]. split; [assumption|]. split.
  - intros f Hf. assert (I : in_range (part B gd cd f) (vdims (bv r))) by (destruct Hs as (-> & _); eapply part_range; eauto). rewrite El by assumption. rewrite Z by assumption. rewrite full_sum by assumption. rewrite HF by assumption. f_equal. ring.
  - intros b a Hb. rewrite <- (O b a Hb). apply U. intros ix Hi E'. apply vaddr_blk in E'. cbn [fst] in E'. congruence.
Qed.
(* ---- sums over elements ---- *)
Lemma fibres r b g c B gd cd (a : list Z -> R) (F : place -> R) : shaped r b g c -> (b = 1 \/ b = B) -> (g = [] \/ g = gd) -> (c = [] \/ c = cd) ->
  over_elems r (fun k => cmul (a k) (rsum (map F (filter (fun f => same_index (part b g c f) k) (all_places B gd cd))))) = rsum (map (fun f => cmul (a (part b g c f)) (F f)) (all_places B gd cd)).
Proof.
  intros Hs Hb Hg Hc. unfold over_elems.
  assert (I : forall f, In f (all_places B gd cd) -> in_range (part b g c f) (vdims (bv r))) by (intros f Hf; destruct Hs as (-> & _); eapply part_range; eassumption).
  revert I. generalize (all_places B gd cd) as l. induction l as [|f l IH]; intro I.
  - cbn [filter map]. rewrite rsum_nil. apply rsum_zero. intros k _. ring.
  - cbn [filter map]. rewrite rsum_cons, <- IH by (intros; apply I; now right).
    rewrite (rsum_ext R _ (fun k => cadd (if same_index (part b g c f) k then cmul (a k) (F f) else c0) (cmul (a k) (rsum (map F (filter (fun f => same_index (part b g c f) k) l)))))).
    2:{ intros k _. destruct (same_index (part b g c f) k); cbn [map]; rewrite ?rsum_cons; ring. }
    rewrite rsum_map_add. f_equal.
    assert (Hf := I f (or_introl eq_refl)). apply in_all_indices in Hf. revert Hf. assert (N := all_indices_nodup (vdims (bv r))). revert N. clear. generalize (all_indices (vdims (bv r))) as ks. induction 1 as [|k ks Nk N IH]; intro Hf; [destruct Hf|]. cbn [map]. rewrite rsum_cons.
    destruct (same_index (part b g c f) k) eqn:E.
    + apply same_index_iff in E. subst k. rewrite rsum_zero; [ring|]. intros k Hk. destruct (same_index (part b g c f) k) eqn:E; [|reflexivity]. apply same_index_iff in E. congruence.
    + destruct Hf as [->|Hf]; [assert (same_index (part b g c f) (part b g c f) = true) by (now apply same_index_iff); congruence|]. rewrite (IH Hf). ring.
Qed.
End T.
(* ---- traversals that do nothing, or throw ---- *)
Lemma run_same {V} (f : list view -> mem V -> res (mem V)) l m : (forall c, In c l -> f (snd c) m = Ok m) -> run_calls f l m = Ok m.
Proof. unfold run_calls. induction l as [|c l IH]; intro H; cbn [foldM]; [reflexivity|]. rewrite (H c) by now left. cbn [bind]. apply IH. intros; apply H; now right. Qed.
Lemma over_calls {V} xs dB dg B gd target nt (f : list view -> mem V -> res (mem V)) m out : dB = Ok B -> dg = Ok gd -> 0 <= B -> nonneg gd -> Forall (joins B gd) xs -> lone xs target \/ nt <= 1 \/ gd = [] -> over_cells xs dB dg target nt f m out ->
  exists l, out = run_calls f l m /\ Permutation (map fst l) (all_cells B gd) /\ Forall (right_cells xs) l.
Proof.
  intros -> -> HB Ng J Hc O. unfold over_cells in O. cbn [bind] in O. destruct O as (tr & T & Rt & ->). exists (calls tr). split; [reflexivity|]. split; [exact (proj2 (C44_each_cell_once xs B gd target nt tr HB Ng J T) Rt)|].
  destruct Hc as [Hc|[Hc|Hc]]; [apply (C44_sequential xs B gd target nt tr); auto|apply (C44_sequential xs B gd target nt tr); auto|]. subst gd. now apply (C44_no_grid xs B target nt tr).
Qed.
Lemma rank0_none {V} (f : V -> list V -> V) r x y (m : mem V) : vwf r -> vwf x -> vwf y -> vdims r = [] -> vdims x <> [] -> vdims y = vdims x -> reg_or_each f r [x; y] m = Ok m.
Proof.
  intros (Lr & _) (Lx & _) (Ly & _) Er Nx Eyx. unfold reg_or_each. cbn [all_regular]. unfold is_regular. rewrite Lr, Lx, Ly, !Nat.eqb_refl. cbn [bind]. rewrite Er in *. destruct (vstr r); [|discriminate].
  assert (E : eqlb [] (vstr x) = false) by (destruct (vstr x); [destruct (vdims x); [congruence|discriminate]|reflexivity]). rewrite E. cbn [assrt bind]. rewrite !andb_false_r. unfold each. now rewrite Er.
Qed.
