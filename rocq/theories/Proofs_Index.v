(* Proofs_Index.v -- lemmas for C01-C06 *)
From Coq Require Import Sorted.
From Verif Require Import Base BaseFacts Model_Index Spec_Index Proofs_Axes.
Local Open Scope Z_scope.

Lemma asize_prod dims : asize dims = prod dims.
Proof.
  unfold asize, prod. rewrite fold_symmetric; [reflexivity|intros; ring|intros; ring].
Qed.
Lemma prod_nil : prod [] = 1. Proof. reflexivity. Qed.
Lemma prod_cons d ds : prod (d :: ds) = d * prod ds. Proof. reflexivity. Qed.
Lemma prod_app a b : prod (a ++ b) = prod a * prod b.
Proof. induction a as [|x a IH]; [cbn [app]; change (prod []) with 1; ring|]. cbn [app]. rewrite !prod_cons, IH. ring. Qed.
Lemma prod_nonneg dims : nonneg dims -> 0 <= prod dims.
Proof. induction 1; [rewrite prod_nil; lia|]. rewrite prod_cons. nia. Qed.
Lemma prod_pos dims : positive dims -> 0 < prod dims.
Proof. induction 1; [rewrite prod_nil; lia|]. rewrite prod_cons. nia. Qed.
Lemma positive_nonneg dims : positive dims -> nonneg dims.
Proof. apply Forall_impl. intros; lia. Qed.
Lemma prod_pos_positive dims : nonneg dims -> 0 < prod dims -> positive dims.
Proof.
  induction 1 as [|d ds Hd Hds IH]; intro Hp; [constructor|]. rewrite prod_cons in Hp.
  pose proof (prod_nonneg ds Hds). constructor; [nia|]. apply IH. nia.
Qed.

Lemma in_range_length ix dims : in_range ix dims -> length ix = length dims.
Proof. induction 1; cbn; congruence. Qed.
Lemma in_range_positive ix dims : in_range ix dims -> positive dims.
Proof. induction 1; constructor; [lia|assumption]. Qed.

Lemma flat_range ix dims : in_range ix dims -> 0 <= flat ix dims < prod dims.
Proof.
  induction 1 as [|i d is ds Hi His IH]; [cbn; rewrite ?prod_nil; lia|].
  rewrite prod_cons. cbn [flat]. nia.
Qed.

Lemma flat_inj ix jx dims : in_range ix dims -> in_range jx dims ->
  flat ix dims = flat jx dims -> ix = jx.
Proof.
  intros Hi; revert jx. induction Hi as [|i d is ds Hi His IH]; intros jx Hj E.
  - inversion Hj; reflexivity.
  - inversion Hj as [|j d' js ds' Hj0 Hjs]; subst. cbn [flat] in E.
    pose proof (flat_range _ _ His). pose proof (flat_range _ _ Hjs).
    assert (i = j) by nia. subst. f_equal. apply IH; [assumption|]. nia.
Qed.

(* ---- all_indices ---- *)
Lemma in_all_indices dims ix : In ix (all_indices dims) <-> in_range ix dims.
Proof.
  revert ix; induction dims as [|d ds IH]; intro ix; cbn [all_indices].
  - split; [intros [<-|[]]; constructor|]. intro H; inversion H. left; reflexivity.
  - rewrite in_flat_map. split.
    + intros (i & Hi & Hm). apply in_map_iff in Hm as (jx & <- & Hj).
      constructor; [now apply in_zrange|now apply IH].
    + intro H; inversion H as [|i d' is ds' Hi His]; subst. exists i.
      split; [now apply in_zrange|]. apply in_map. now apply IH.
Qed.

Lemma lex_lt_irrefl x : ~ lex_lt x x.
Proof. induction x as [|a x IH]; intro H; inversion H; subst; [lia|auto]. Qed.
Lemma lex_lt_trans x y z : lex_lt x y -> lex_lt y z -> lex_lt x z.
Proof.
  intro H; revert z; induction H; intros z Hz; inversion Hz; subst.
  - apply lex_head; lia.
  - now apply lex_head.
  - now apply lex_head.
  - apply lex_tail; auto.
Qed.

Lemma Sorted_zrange n : Sorted.StronglySorted Z.lt (zrange n).
Proof.
  unfold zrange. generalize 0%nat as k. induction (Z.to_nat n) as [|m IH]; intro k; simpl; constructor.
  - apply IH.
  - apply Forall_forall. intros x Hx. apply in_map_iff in Hx as (y & <- & Hy).
    apply in_seq in Hy. lia.
Qed.

Lemma StronglySorted_app {A} (R : A -> A -> Prop) l1 l2 :
  Sorted.StronglySorted R l1 -> Sorted.StronglySorted R l2 ->
  (forall a b, In a l1 -> In b l2 -> R a b) -> Sorted.StronglySorted R (l1 ++ l2).
Proof.
  induction 1 as [|a l1 H1 IH Ha]; intros H2 HR; [exact H2|]. cbn. constructor.
  - apply IH; auto. intros; apply HR; auto. right; assumption.
  - apply Forall_app; split; [exact Ha|]. apply Forall_forall. intros; apply HR; auto. left; reflexivity.
Qed.

Lemma all_indices_sorted dims : Sorted.StronglySorted lex_lt (all_indices dims).
Proof.
  induction dims as [|d ds IH]; cbn [all_indices]; [repeat constructor|].
  generalize (Sorted_zrange d). induction 1 as [|i l Hs IHs Hi]; cbn [flat_map]; [constructor|].
  apply StronglySorted_app.
  - clear -IH. induction IH as [|a l Hl IHl Ha]; cbn; constructor; [assumption|].
    apply Forall_map. eapply Forall_impl; [|exact Ha]. intros; now apply lex_tail.
  - exact IHs.
  - intros a b Ha Hb. apply in_map_iff in Ha as (a' & <- & Ha').
    apply in_flat_map in Hb as (j & Hj & Hb). apply in_map_iff in Hb as (b' & <- & _).
    apply lex_head. rewrite Forall_forall in Hi. now apply Hi.
Qed.

Lemma StronglySorted_NoDup {A} (R : A -> A -> Prop) l :
  (forall x, ~ R x x) -> Sorted.StronglySorted R l -> NoDup l.
Proof.
  intros Hirr. induction 1 as [|a l Hl IH Ha]; constructor; [|assumption].
  intro Hin. rewrite Forall_forall in Ha. exact (Hirr a (Ha a Hin)).
Qed.
Lemma all_indices_nodup dims : NoDup (all_indices dims).
Proof. eapply StronglySorted_NoDup; [apply lex_lt_irrefl|apply all_indices_sorted]. Qed.

Lemma all_indices_length dims : nonneg dims -> Z.of_nat (length (all_indices dims)) = prod dims.
Proof.
  induction 1 as [|d ds Hd Hds IH]; [reflexivity|]. rewrite prod_cons, <- IH. cbn [all_indices].
  replace d with (Z.of_nat (length (zrange d))) at 2 by (rewrite zrange_length; lia).
  induction (zrange d) as [|i l IHl]; cbn [flat_map length]; [reflexivity|].
  rewrite app_length, map_length. lia.
Qed.

(* flat positions of all_indices are 0,1,2,... in order *)
Lemma flat_all_indices dims : nonneg dims ->
  map (fun ix => flat ix dims) (all_indices dims) = zrange (prod dims).
Proof.
  induction 1 as [|d ds Hd Hds IH]; [reflexivity|].
  rewrite prod_cons, zrange_mul; [|assumption|now apply prod_nonneg].
  cbn [all_indices]. rewrite map_flat_map. apply flat_map_ext_in. intros i _.
  rewrite map_map. cbn [flat]. rewrite <- IH, map_map. reflexivity.
Qed.

(* ---- C01 ---- *)
Lemma unflat_aux_ok dims a : positive dims -> 0 <= a ->
  exists ix q, unflat_aux a dims = Ok (ix, q) /\ in_range ix dims /\ 0 <= q /\
    a = q * prod dims + flat ix dims.
Proof.
  intros H Ha. induction H as [|d ds Hd Hds IH].
  - exists [], a. cbn. split; [reflexivity|]. split; [constructor|]. rewrite prod_nil. lia.
  - destruct IH as (ix & q & E & Hr & Hq & Ea). cbn [unflat_aux]. rewrite E. cbn.
    unfold crem, cdiv. replace (d =? 0) with false by lia. cbn.
    exists (Z.rem q d :: ix), (Z.quot q d). rewrite Z.rem_mod_nonneg, Z.quot_div_nonneg by lia.
    split; [reflexivity|]. split; [constructor; [apply Z.mod_pos_bound; lia|assumption]|].
    split; [apply Z.div_pos; lia|]. rewrite prod_cons. cbn [flat].
    rewrite Ea at 1. rewrite (Z.div_mod q d) at 1 by lia. ring.
Qed.

Lemma to_int_aux_ok ix dims : length ix = length dims ->
  to_int_aux ix dims = Ok (flat ix dims, prod dims).
Proof.
  revert dims; induction ix as [|i ix IH]; intros [|d ds] L; try discriminate; [reflexivity|].
  cbn [to_int_aux]. rewrite IH by (now injection L). cbn [bind fst snd flat].
  rewrite prod_cons. do 2 f_equal; ring.
Qed.
Lemma to_int_flat ix dims : length ix = length dims -> to_int ix dims = Ok (flat ix dims).
Proof. intro H. unfold to_int. now rewrite to_int_aux_ok. Qed.

Lemma unflat_ok dims a : positive dims -> 0 <= a < prod dims ->
  exists ix, unflat a dims = Ok ix /\ in_range ix dims /\ flat ix dims = a.
Proof.
  intros H Ha. destruct (unflat_aux_ok dims a H) as (ix & q & E & Hr & Hq & Ea); [lia|].
  exists ix. unfold unflat. rewrite E. cbn. split; [reflexivity|]. split; [assumption|].
  pose proof (flat_range _ _ Hr).
  assert (q = 0) by (destruct (Z.eq_dec q 0); [assumption|exfalso; nia]). subst q. lia.
Qed.

Lemma C01_flat_multi_l dims a : positive dims -> 0 <= a < prod dims ->
  exists ix, unflat a dims = Ok ix /\ in_range ix dims /\ to_int ix dims = Ok a.
Proof.
  intros H Ha. destruct (unflat_ok dims a H Ha) as (ix & E & Hr & Ef). exists ix.
  rewrite to_int_flat by now apply in_range_length. now rewrite Ef.
Qed.
Lemma C01_multi_flat_l dims ix : in_range ix dims ->
  exists a, to_int ix dims = Ok a /\ 0 <= a < asize dims /\ unflat a dims = Ok ix.
Proof.
  intro Hr. exists (flat ix dims). rewrite to_int_flat by now apply in_range_length.
  rewrite asize_prod. pose proof (flat_range _ _ Hr) as Hf. split; [reflexivity|]. split; [assumption|].
  destruct (unflat_ok dims (flat ix dims)) as (jx & E & Hj & Ef); [now apply in_range_positive with ix|assumption|].
  rewrite E. f_equal. now apply flat_inj with dims.
Qed.

(* ---- strides ---- *)
Lemma strides_of_length s0 dims : length (strides_of s0 dims) = length dims.
Proof.
  induction dims as [|d ds IH]; [reflexivity|]. cbn.
  destruct (strides_of s0 ds) as [|s1 ss] eqn:E; cbn in *; destruct ds; cbn in *; try lia; congruence.
Qed.
Lemma strides_of_hd s0 d ds : hd 0 (strides_of s0 (d :: ds)) = s0 * prod ds.
Proof.
  revert d; induction ds as [|d1 ds IH]; intro d; [cbn; rewrite ?prod_nil; lia|].
  specialize (IH d1). remember (d1 :: ds) as l. cbn [strides_of].
  destruct (strides_of s0 l) as [|s1 ss] eqn:E.
  - subst l. apply (f_equal (@length Z)) in E. rewrite strides_of_length in E. discriminate.
  - cbn [hd] in *. subst l. cbn [hd]. rewrite IH, prod_cons. ring.
Qed.
Lemma strides_of_cons s0 d ds : strides_of s0 (d :: ds) = s0 * prod ds :: strides_of s0 ds.
Proof.
  rewrite <- (strides_of_hd s0 d ds). cbn [strides_of].
  destruct (strides_of s0 ds) as [|s1 ss] eqn:E; [|reflexivity].
  reflexivity.
Qed.

Lemma dot_strides_of s0 ix dims : length ix = length dims ->
  dot (strides_of s0 dims) ix = s0 * flat ix dims.
Proof.
  revert dims; induction ix as [|i ix IH]; intros [|d ds] L; try discriminate; [cbn; lia|].
  rewrite strides_of_cons. cbn [dot flat]. rewrite IH by (now injection L). ring.
Qed.
Lemma dot_nil_r s : dot s [] = 0. Proof. destruct s; reflexivity. Qed.

Lemma offs_row_major ix dims : length ix = length dims ->
  offs (strides_of 1 dims) ix = Ok (flat ix dims).
Proof.
  intro H. unfold offs. rewrite strides_of_length, H, Nat.leb_refl. cbn.
  rewrite dot_strides_of by assumption. f_equal; lia.
Qed.

(* ---- C02 ---- *)
Lemma decode_ok ix dims : in_range ix dims -> decode (flat ix dims) (strides_of 1 dims) = Ok ix.
Proof.
  induction 1 as [|i d is ds Hi His IH]; [reflexivity|].
  rewrite strides_of_cons. cbn [decode flat]. unfold cdiv.
  pose proof (prod_pos ds (in_range_positive _ _ His)) as Hp.
  pose proof (flat_range _ _ His) as Hf.
  replace (1 * prod ds) with (prod ds) by ring. replace (prod ds =? 0) with false by lia. cbn.
  rewrite Z.quot_div_nonneg by nia.
  replace ((i * prod ds + flat is ds) / prod ds) with i.
  2:{ rewrite Z.add_comm, Z.div_add, Z.div_small by lia. lia. }
  replace (i * prod ds + flat is ds - i * prod ds) with (flat is ds) by ring.
  rewrite IH. reflexivity.
Qed.

Lemma foreach_index_fold {S} dims (f : list Z -> S -> res S) st :
  nonneg dims -> dims <> [] -> foreach_index dims f st = foldM f (all_indices dims) st.
Proof.
  intros Hn Hne. destruct dims as [|d ds]; [contradiction|]. unfold foreach_index.
  rewrite strides_of_hd. unfold forZ.
  replace (1 * prod ds * d) with (prod (d :: ds)) by (rewrite prod_cons; ring).
  rewrite <- (flat_all_indices (d :: ds)) by assumption. rewrite foldM_map.
  apply foldM_ext. intros ix s Hin. apply in_all_indices in Hin. now rewrite decode_ok.
Qed.

(* ---- C04 ---- *)
Lemma regular_aux_ok s dims : length s = length dims ->
  forall t, regular_aux s dims = Some t <-> (s = strides_of 1 dims /\ t = prod dims).
Proof.
  revert dims; induction s as [|s0 ss IH]; intros [|d ds] L t; try discriminate.
  - cbn. rewrite prod_nil. split; [intro E; injection E as <-; auto|intros [_ ->]; reflexivity].
  - injection L as L. specialize (IH ds L). cbn [regular_aux]. rewrite strides_of_cons, prod_cons.
    replace (1 * prod ds) with (prod ds) by ring.
    destruct (regular_aux ss ds) as [u|].
    + destruct (proj1 (IH u) eq_refl) as [-> ->]. destruct (s0 =? prod ds) eqn:E.
      * split; [intro H; injection H as <-; split; [f_equal; lia|ring]|].
        intros [H ->]. f_equal. ring.
      * split; [discriminate|]. intros [H _]. injection H as ->. lia.
    + split; [discriminate|]. intros [H _]. injection H as -> ->.
      destruct (IH (prod ds)) as [_ IH']. discriminate IH'. auto.
Qed.
Lemma is_regular_iff s dims : length s = length dims ->
  is_regular s dims = Ok true <-> s = strides_of 1 dims.
Proof.
  intro L. unfold is_regular. rewrite L, Nat.eqb_refl. cbn.
  pose proof (regular_aux_ok s dims L) as H. destruct (regular_aux s dims) as [t|].
  - destruct (proj1 (H t) eq_refl). tauto.
  - split; [discriminate|]. intro E. specialize (H (prod dims)). destruct H as [_ H].
    discriminate H. auto.
Qed.

(* axes of a strided layout *)
Definition axes (dims s : list Z) : list (Z * ZO) := combine dims s.
Lemma addrs_axes dims s : length s = length dims ->
  addrs (axes dims s) = map (dot s) (all_indices dims).
Proof.
  revert s; induction dims as [|d ds IH]; intros [|s0 ss] L; try discriminate; [reflexivity|].
  injection L as L. cbn [axes combine addrs all_indices]. fold (axes ds ss). rewrite (IH ss L).
  rewrite map_flat_map. apply flat_map_ext_in. intros i _. rewrite !map_map.
  apply map_ext. intro ix. cbn. ring.
Qed.

(* A chain of axes t, t*d1, t*d1*d2, ... (fastest first) *)
Fixpoint chain (t : Z) (ax : list (Z * Z)) : Prop :=
  match ax with
  | [] => True
  | (d, s) :: ax' => s = t /\ chain (t * d) ax'
  end.
Lemma chain_addrs ax t : Forall (fun p => 0 <= fst p) ax -> chain t ax ->
  Permutation (addrs (ax : list (Z * ZO))) (map (Z.mul t) (zrange (fold_right Z.mul 1 (map fst ax)))).
Proof.
  intros Hn; revert t. induction Hn as [|[d s] ax Hd Hax IH]; intros t Hc.
  - cbn. change (zrange 1) with [0]. cbn. rewrite Z.mul_0_r. reflexivity.
  - destruct Hc as [-> Hc]. cbn [fst map fold_right] in *.
    specialize (IH _ Hc).
    set (P := fold_right Z.mul 1 (map fst ax)) in *.
    assert (0 <= P) by (unfold P; clear -Hax; induction Hax as [|x l Hx Hl IHl]; cbn; [lia|nia]).
    replace (d * P) with (P * d) by ring. rewrite zrange_mul by assumption.
    cbn [addrs]. rewrite map_flat_map.
    erewrite Permutation_flat_map_ext.
    2:{ intros i _. apply Permutation_map. exact IH. }
    erewrite (flat_map_ext_in _ (fun i => map (fun q => t * (q * d + i)) (zrange P))).
    2:{ intros i _. rewrite map_map. apply map_ext. intro q. cbn. ring. }
    rewrite Permutation_flat_map_swap. apply Permutation_flat_map_ext. intros q _.
    rewrite map_map. reflexivity.
Qed.

(* the axes whose (working) stride has not been zeroed yet *)
Fixpoint remaining (dims v : list Z) : list (Z * Z) :=
  match dims, v with
  | d :: ds, x :: v' => if 0 <? x then (d, x) :: remaining ds v' else remaining ds v'
  | _, _ => []
  end.
Lemma find_take_ok t v dims v' d : 0 < t -> length v = length dims ->
  find_take t v dims = Some (v', d) ->
  Permutation (remaining dims v) ((d, t) :: remaining dims v') /\ length v' = length dims
  /\ npos v = S (npos v') /\ (nonneg v -> nonneg v').
Proof.
  intros Ht. revert dims v' d. induction v as [|x v IH]; intros [|d0 ds] v' d L E; try discriminate.
  injection L as L. cbn in E. destruct (x =? t) eqn:Ex.
  - injection E as <- <-. replace x with t by lia. cbn. replace (0 <? t) with true by lia.
    unfold npos. cbn. replace (0 <? t) with true by lia. cbn.
    split; [reflexivity|]. split; [lia|]. split; [reflexivity|].
    intro Hn. inversion Hn; constructor; [lia|assumption].
  - destruct (find_take t v ds) as [[v'' d']|] eqn:Ef; [|discriminate].
    injection E as <- <-. destruct (IH _ _ _ L Ef) as (P & L' & N & Hnn).
    cbn. unfold npos in *. cbn. repeat split.
    + destruct (0 <? x); [|exact P]. rewrite P. apply perm_swap.
    + lia.
    + destruct (0 <? x); cbn; lia.
    + intro Hn. inversion Hn; subst; constructor; [assumption|now apply Hnn].
Qed.
Lemma npos_remaining v dims : length v = length dims -> length (remaining dims v) = npos v.
Proof.
  revert dims; induction v as [|x v IH]; intros [|d ds] L; try discriminate; [reflexivity|].
  injection L as L. cbn. unfold npos in *. cbn. destruct (0 <? x); cbn; rewrite IH by assumption; reflexivity.
Qed.
Lemma remaining_fst v dims : positive dims -> Forall (fun p => 0 < fst p) (remaining dims v).
Proof.
  intro H; revert v; induction H as [|d ds Hd Hds IH]; intros [|x v]; cbn; try constructor.
  destruct (0 <? x); [constructor; [exact Hd|apply IH]|apply IH].
Qed.

Lemma contig_loop_ok n t v dims : 0 < t -> positive dims -> length v = length dims ->
  contig_loop n t v dims = true -> npos v = n ->
  exists ax, Permutation (remaining dims v) ax /\ chain t ax.
Proof.
  revert t v. induction n as [|n IH]; intros t v Ht Hp L E Hn.
  - exists []. split; [|exact I]. pose proof (npos_remaining v dims L) as Hl. rewrite Hn in Hl.
    destruct (remaining dims v); [constructor|discriminate].
  - cbn in E. destruct (find_take t v dims) as [[v' d]|] eqn:Ef; [|discriminate].
    destruct (find_take_ok t v dims v' d Ht L Ef) as (P & L' & N & _).
    assert (0 < d).
    { pose proof (remaining_fst v dims Hp) as Hf. rewrite P in Hf. inversion Hf; assumption. }
    destruct (IH (t * d) v') as (ax & Hax & Hc); [nia|assumption|assumption|assumption|lia|].
    exists ((d, t) :: ax). split; [|split; auto]. rewrite P. now constructor.
Qed.

Lemma remaining_all_pos v dims : length v = length dims -> positive v -> remaining dims v = combine dims v.
Proof.
  intros L Hv; revert dims L; induction Hv as [|x v Hx Hv IH]; intros [|d ds] L; try discriminate; [reflexivity|].
  injection L as L. cbn. replace (0 <? x) with true by lia. now rewrite IH.
Qed.
Lemma combine_fst {A B} (l : list A) (m : list B) : length m = length l -> map fst (combine l m) = l.
Proof.
  revert m; induction l as [|a l IH]; intros [|b m] L; try discriminate; [reflexivity|].
  cbn. f_equal. apply IH. now injection L.
Qed.
Lemma combine_snd {A B} (l : list A) (m : list B) : length m = length l -> map snd (combine l m) = m.
Proof.
  revert m; induction l as [|a l IH]; intros [|b m] L; try discriminate; [reflexivity|].
  cbn. f_equal. apply IH. now injection L.
Qed.

Lemma row_major_addrs dims : nonneg dims ->
  map (dot (strides_of 1 dims)) (all_indices dims) = zrange (prod dims).
Proof.
  intro Hn. rewrite <- flat_all_indices by assumption. apply map_ext_in. intros ix Hin.
  apply in_all_indices in Hin. rewrite dot_strides_of by now apply in_range_length. ring.
Qed.

Lemma contiguous_solid s dims : positive dims -> positive s -> length s = length dims ->
  is_contiguous s dims = Ok true ->
  Permutation (map (dot s) (all_indices dims)) (zrange (prod dims)).
Proof.
  intros Hd Hs L E. unfold is_contiguous in E.
  destruct (is_regular s dims) as [r| |] eqn:Er; cbn in E; try discriminate.
  destruct r.
  - apply is_regular_iff in Er; [|assumption]. subst s.
    rewrite row_major_addrs by now apply positive_nonneg. reflexivity.
  - injection E as E. destruct (contig_loop_ok (npos s) 1 s dims) as (ax & P & Hc); try assumption; try lia; try reflexivity.
    rewrite remaining_all_pos in P by assumption.
    rewrite <- addrs_axes by assumption. unfold axes. rewrite (addrs_perm ZO _ _ P).
    rewrite (chain_addrs ax 1).
    + assert (E2 : fold_right Z.mul 1 (map fst ax) = prod dims).
      { rewrite <- (combine_fst dims s L) at 1. clear -P. unfold prod.
        apply Permutation_map with (f := fst) in P. induction P; cbn; try lia. }
      rewrite E2. erewrite map_ext; [rewrite map_id; reflexivity|]. intro; lia.
    + assert (F : Forall (fun p => 0 <= fst p) (combine dims s)).
      { apply Forall_forall. intros [a b] Hin. apply in_combine_l in Hin. cbn.
        unfold positive in Hd. rewrite Forall_forall in Hd. specialize (Hd a Hin). lia. }
      rewrite P in F. exact F.
    + exact Hc.
Qed.

(* memsize of a contiguous positive-stride layout is the number of elements *)
Lemma max_extent_le s dims t : t <= max_extent s dims t.
Proof.
  revert dims t; induction s as [|x s IH]; intros [|d ds] t; cbn; try reflexivity.
  pose proof (IH ds (Z.max t (x * d))). lia.
Qed.
Lemma max_extent_spec s dims t b : length s = length dims ->
  (max_extent s dims t <= b <-> t <= b /\ Forall (fun p => snd p * fst p <= b) (combine dims s)).
Proof.
  revert dims t; induction s as [|x s IH]; intros [|d ds] t L; try discriminate; cbn.
  - split; [intro; split; [assumption|constructor]|tauto].
  - injection L as L. rewrite IH by assumption. rewrite Forall_cons_iff, Z.max_lub_iff. cbn. tauto.
Qed.

Lemma chain_extent ax t : 0 < t -> Forall (fun p => 0 < fst p) ax -> chain t ax -> ax <> [] ->
  let P := t * fold_right Z.mul 1 (map fst ax) in
  Forall (fun p => snd p * fst p <= P) ax /\ Exists (fun p => snd p * fst p = P) ax.
Proof.
  intros Ht Hp; revert t Ht. induction Hp as [|[d s] ax Hd Hax IH]; intros t Ht Hc Hne; [contradiction|].
  destruct Hc as [-> Hc]. cbn [fst snd map fold_right] in *.
  destruct ax as [|p ax].
  - cbn. split; repeat constructor; cbn; lia.
  - destruct (IH (t * d)) as [IH1 IH2]; [nia|assumption|discriminate|].
    set (Q := fold_right Z.mul 1 (map fst (p :: ax))) in *.
    replace (t * (d * Q)) with (t * d * Q) by ring.
    assert (0 < Q).
    { unfold Q; clear -Hax. induction Hax as [|x l Hx Hl IHl]; cbn; [lia|nia]. }
    split.
    + clearbody Q. constructor; [cbn; nia|assumption].
    + now right.
Qed.

Lemma prod_perm_fst (ax : list (Z * Z)) dims s : length s = length dims -> Permutation (combine dims s) ax ->
  fold_right Z.mul 1 (map fst ax) = prod dims.
Proof.
  intros L P. rewrite <- (combine_fst dims s L) at 1. unfold prod.
  apply Permutation_map with (f := fst) in P.
  clear -P. induction P; cbn; try congruence; try lia.
Qed.

Lemma chain_of_strides_of dims : nonneg dims ->
  chain 1 (rev (combine dims (strides_of 1 dims))).
Proof.
  assert (G : forall ax t ax2, chain t (ax ++ ax2) <->
     chain t ax /\ chain (t * fold_right Z.mul 1 (map fst ax)) ax2).
  { induction ax as [|[d s] ax IH]; intros t ax2; cbn.
    - rewrite Z.mul_1_r. tauto.
    - rewrite IH. rewrite Z.mul_assoc. tauto. }
  induction 1 as [|d ds Hd Hds IH]; [exact I|].
  rewrite strides_of_cons. cbn [combine rev]. rewrite G. split; [exact IH|]. cbn.
  split; [|exact I].
  rewrite (prod_perm_fst _ ds (strides_of 1 ds)); [ring|apply strides_of_length|apply Permutation_rev].
Qed.

(* every positive-stride contiguous layout is, up to order of axes, a chain from 1 *)
Lemma contiguous_chain s dims : positive dims -> positive s -> length s = length dims ->
  is_contiguous s dims = Ok true ->
  exists ax, Permutation (combine dims s) ax /\ chain 1 ax.
Proof.
  intros Hd Hs L E. unfold is_contiguous in E.
  destruct (is_regular s dims) as [r| |] eqn:Er; cbn in E; try discriminate.
  destruct r.
  - apply is_regular_iff in Er; [|assumption]. subst s.
    exists (rev (combine dims (strides_of 1 dims))). split; [apply Permutation_rev|].
    apply chain_of_strides_of. now apply positive_nonneg.
  - injection E as E. destruct (contig_loop_ok (npos s) 1 s dims) as (ax & P & Hc); try assumption; try lia; try reflexivity.
    rewrite remaining_all_pos in P by assumption. eauto.
Qed.

Lemma memsize_contiguous s dims : positive dims -> positive s -> length s = length dims ->
  is_contiguous s dims = Ok true -> memsize s dims = Ok (prod dims).
Proof.
  intros Hd Hs L E. destruct (contiguous_chain s dims Hd Hs L E) as (ax & P & Hc).
  unfold memsize. rewrite L, Nat.eqb_refl. cbn [assrt]. rewrite asize_prod.
  pose proof (prod_pos dims Hd) as Hp.
  destruct s as [|s0 ss]; [destruct dims; [reflexivity|discriminate]|].
  replace (prod dims =? 0) with false by lia. f_equal.
  assert (F : Forall (fun p => 0 < fst p) ax).
  { rewrite <- P. apply Forall_forall. intros [a b] Hin. apply in_combine_l in Hin. cbn.
    unfold positive in Hd. rewrite Forall_forall in Hd. now apply Hd. }
  destruct (chain_extent ax 1) as [H1 H2]; try assumption; [lia| |].
  { intros ->. symmetry in P. apply Permutation_nil in P.
    destruct dims; discriminate. }
  rewrite (prod_perm_fst ax dims (s0 :: ss) L P), Z.mul_1_l in H1, H2.
  rewrite <- P in H1.
  apply Z.le_antisymm.
  - apply max_extent_spec; [assumption|]. split; [lia|assumption].
  - destruct (proj1 (max_extent_spec (s0 :: ss) dims 0 _ L) (Z.le_refl _)) as [_ H3].
    rewrite P in H3. apply Exists_exists in H2 as (p & Hin & Hp2).
    rewrite Forall_forall in H3. specialize (H3 p Hin). cbv beta in H3. lia.
Qed.

(* ---- C05 ---- *)
Lemma zget_ok {A} (l : list A) i : 0 <= i < Z.of_nat (length l) ->
  exists a, zget l i = Ok a /\ nth_error l (Z.to_nat i) = Some a.
Proof.
  intro H. unfold zget, vget. replace (i <? 0) with false by lia.
  destruct (nth_error l (Z.to_nat i)) eqn:E; [eauto|].
  apply nth_error_None in E. lia.
Qed.
Lemma insert_ok {A} j (x : A) l : 0 <= j <= Z.of_nat (length l) ->
  vinsert j x l = Ok (firstn (Z.to_nat j) l ++ x :: skipn (Z.to_nat j) l).
Proof.
  intro H. unfold vinsert.
  replace ((j <? 0) || (Z.of_nat (length l) <? j)) with false by lia. reflexivity.
Qed.
Lemma remove_ok {A} j (l : list A) : 0 <= j < Z.of_nat (length l) ->
  vremove j l = Ok (firstn (Z.to_nat j) l ++ skipn (S (Z.to_nat j)) l).
Proof.
  intro H. unfold vremove, assrt.
  replace ((0 <=? j) && (j <? Z.of_nat (length l))) with true by lia. reflexivity.
Qed.

Lemma C05_cat_l a b : asize (vcat a b) = asize a * asize b.
Proof. rewrite !asize_prod. apply prod_app. Qed.
Lemma C05_insert_remove_l {A} j (x : A) l : 0 <= j <= Z.of_nat (length l) ->
  exists l', vinsert j x l = Ok l' /\ zget l' j = Ok x /\ vremove j l' = Ok l.
Proof.
  intro H. exists (firstn (Z.to_nat j) l ++ x :: skipn (Z.to_nat j) l).
  assert (Lf : length (firstn (Z.to_nat j) l) = Z.to_nat j) by (rewrite firstn_length; lia).
  split; [now apply insert_ok|]. split.
  - unfold zget, vget. replace (j <? 0) with false by lia.
    rewrite nth_error_app2 by lia. rewrite Lf, Nat.sub_diag. reflexivity.
  - rewrite remove_ok by (rewrite app_length; cbn; rewrite skipn_length, Lf; lia).
    f_equal. rewrite firstn_app, Lf, Nat.sub_diag. cbn [firstn].
    rewrite firstn_firstn, Nat.min_id, app_nil_r.
    rewrite skipn_app, Lf. rewrite skipn_all2 by lia.
    replace (S (Z.to_nat j) - Z.to_nat j)%nat with 1%nat by lia. cbn [skipn app].
    apply firstn_skipn.
Qed.
Lemma skipn_nth_cons {A} n (l : list A) x : nth_error l n = Some x -> skipn n l = x :: skipn (S n) l.
Proof.
  revert l; induction n as [|n IH]; intros [|a l] E; try discriminate.
  - injection E as ->. reflexivity.
  - cbn in *. exact (IH l E).
Qed.
Lemma C05_remove_insert_l {A} j (l : list A) : 0 <= j < Z.of_nat (length l) ->
  exists x l', zget l j = Ok x /\ vremove j l = Ok l' /\ vinsert j x l' = Ok l.
Proof.
  intro H. destruct (zget_ok l j H) as (x & Hx & En). exists x.
  exists (firstn (Z.to_nat j) l ++ skipn (S (Z.to_nat j)) l).
  assert (Lf : length (firstn (Z.to_nat j) l) = Z.to_nat j) by (rewrite firstn_length; lia).
  split; [assumption|]. split; [now apply remove_ok|].
  rewrite insert_ok by (rewrite app_length, Lf; lia). f_equal.
  rewrite firstn_app, Lf, Nat.sub_diag. cbn [firstn]. rewrite firstn_firstn, Nat.min_id, app_nil_r.
  rewrite skipn_app, Lf, Nat.sub_diag, skipn_O. rewrite skipn_all2 by lia. cbn [app].
  rewrite <- skipn_nth_cons by assumption. apply firstn_skipn.
Qed.
Lemma chunk_ok {A} beg n (l : list A) : 0 <= beg -> 0 <= n -> beg + n <= Z.of_nat (length l) ->
  vchunk beg n l = Ok (firstn (Z.to_nat n) (skipn (Z.to_nat beg) l)).
Proof.
  intros. unfold vchunk. replace (beg <? 0) with false by lia. replace (n =? -1) with false by lia.
  ifF. reflexivity.
Qed.
Lemma C05_chunks_l {A} j (l : list A) : 0 <= j <= Z.of_nat (length l) ->
  exists a b, vchunk 0 j l = Ok a /\ vchunk j (-1) l = Ok b /\ vcat a b = l.
Proof.
  intro H. exists (firstn (Z.to_nat j) l), (skipn (Z.to_nat j) l). split.
  - rewrite chunk_ok by lia. reflexivity.
  - split; [|apply firstn_skipn]. unfold vchunk. replace (j <? 0) with false by lia.
    change (-1 =? -1) with true. cbv iota zeta. ifF. f_equal.
    rewrite firstn_all2; [reflexivity|]. rewrite skipn_length. lia.
Qed.


Lemma gather_ok {A} (l : list A) p : Forall (fun i => 0 <= i < Z.of_nat (length l)) p ->
  exists r, gather l p = Ok r /\ length r = length p /\
    forall k i, nth_error p k = Some i -> nth_error r k = nth_error l (Z.to_nat i).
Proof.
  induction 1 as [|i p Hi Hp IH].
  - exists []. repeat split; auto. intros [|k] i; discriminate.
  - destruct IH as (r & E & L & H). destruct (zget_ok l i Hi) as (x & Hx & En).
    exists (x :: r). cbn. rewrite Hx, E. cbn. repeat split; [lia|].
    intros [|k] j Hj; cbn in *; [injection Hj as <-; auto|now apply H].
Qed.
Lemma gather_map_iff {A} (l : list A) p r : gather l p = Ok r ->
  length r = length p /\ forall k i, nth_error p k = Some i -> 0 <= i < Z.of_nat (length l) /\ nth_error r k = nth_error l (Z.to_nat i).
Proof.
  revert r; induction p as [|i p IH]; intros r E; cbn in E.
  - injection E as <-. split; [reflexivity|]. intros [|k] i; discriminate.
  - unfold zget, vget in E. destruct (i <? 0) eqn:Ei; cbn in E; [discriminate|].
    destruct (nth_error l (Z.to_nat i)) as [x|] eqn:En; cbn in E; [|discriminate].
    destruct (gather l p) as [r'| |]; cbn in E; try discriminate. injection E as <-.
    destruct (IH r' eq_refl) as [L H]. split; [cbn; lia|].
    intros [|k] j Hj; cbn in *.
    + injection Hj as <-. split; [|auto]. assert (Z.to_nat i < length l)%nat by (apply nth_error_Some; congruence). lia.
    + now apply H.
Qed.

Lemma list_nth_ext {A} (l1 l2 : list A) : length l1 = length l2 ->
  (forall k, (k < length l1)%nat -> nth_error l1 k = nth_error l2 k) -> l1 = l2.
Proof.
  revert l2; induction l1 as [|a l1 IH]; intros [|b l2] L H; try discriminate; [reflexivity|].
  f_equal.
  - specialize (H 0%nat). cbn in H. assert (Some a = Some b) as E by (apply H; lia). now injection E.
  - apply IH; [now injection L|]. intros k Hk. apply (H (S k)). cbn; lia.
Qed.

Lemma is_perm_bounds p : is_perm p -> Forall (fun i => 0 <= i < Z.of_nat (length p)) p.
Proof. intro H. apply Forall_forall. intros i Hi. apply (Permutation_in _ H) in Hi. now apply in_zrange. Qed.

Lemma C05_permute_l {A} p q (l : list A) : is_perm p -> is_perm q -> inverse_perm p q ->
  length p = length l ->
  exists l', vpermute p l = Ok l' /\ vpermute q l' = Ok l.
Proof.
  intros Hp Hq [Lq Hinv] L.
  assert (Bp := is_perm_bounds p Hp). assert (Bq := is_perm_bounds q Hq). rewrite L in Bp.
  destruct (gather_ok l p Bp) as (r & E & Lr & Hr). exists r.
  unfold vpermute. rewrite L, Nat.eqb_refl. cbn. split; [exact E|].
  rewrite Lq, L, Lr, L, Nat.eqb_refl. cbn.
  rewrite Lq in Bq. rewrite <- Lr in Bq.
  destruct (gather_ok r q Bq) as (l2 & E2 & L2 & H2). rewrite E2. f_equal.
  apply list_nth_ext; [lia|]. intros k Hk.
  (* q is a bijection: position k of q comes from some position of p *)
  assert (Hk' : 0 <= Z.of_nat k < Z.of_nat (length p)) by lia.
  assert (Hin : In (Z.of_nat k) p).
  { unfold is_perm in Hp. eapply Permutation_in; [symmetry; exact Hp|]. now apply in_zrange. }
  apply In_nth_error in Hin as (m & Hm).
  assert (Hz : zget p (Z.of_nat m) = Ok (Z.of_nat k)).
  { unfold zget, vget. replace (Z.of_nat m <? 0) with false by lia. rewrite Nat2Z.id, Hm. reflexivity. }
  apply Hinv in Hz. unfold zget, vget in Hz. replace (Z.of_nat k <? 0) with false in Hz by lia.
  rewrite Nat2Z.id in Hz. destruct (nth_error q k) as [u|] eqn:Eq; [|discriminate]. injection Hz as ->.
  rewrite (H2 k (Z.of_nat m) Eq), Nat2Z.id. rewrite (Hr m (Z.of_nat k) Hm), Nat2Z.id. reflexivity.
Qed.
Lemma gather_perm {A} (l r : list A) p : is_perm p -> length p = length l -> gather l p = Ok r -> Permutation r l.
Proof.
  intros Hp L E. unfold is_perm in Hp.
  assert (G : forall p r, gather l p = Ok r -> map Some r = map (fun i => nth_error l (Z.to_nat i)) p).
  { clear. induction p as [|i p IH]; intros r E; cbn in E; [injection E as <-; reflexivity|].
    unfold zget, vget in E. destruct (i <? 0); cbn in E; [discriminate|].
    destruct (nth_error l (Z.to_nat i)) as [x|] eqn:En; cbn in E; [|discriminate].
    destruct (gather l p) as [r'| |]; cbn in E; try discriminate. injection E as <-.
    cbn. rewrite En. f_equal. now apply IH. }
  apply G in E. clear G.
  assert (P : Permutation (map Some r) (map Some l)).
  { rewrite E. rewrite (Permutation_map _ Hp). rewrite L. unfold zrange. rewrite map_map, Nat2Z.id.
    erewrite map_ext; [|intro; rewrite Nat2Z.id; reflexivity].
    clear. induction l as [|a l IH]; [constructor|]. cbn. constructor.
    rewrite <- seq_shift, map_map. exact IH. }
  clear -P. apply Permutation_map_inv in P as (l3 & E & P).
  assert (r = l3) as -> ; [|now symmetry].
  clear -E. revert l3 E. induction r as [|a r IH]; intros [|b l3] E; try discriminate; [reflexivity|].
  injection E as -> E. f_equal. now apply IH.
Qed.
Lemma C05_permute_asize_l p (l l' : list Z) : is_perm p -> vpermute p l = Ok l' -> asize l' = asize l.
Proof.
  intros Hp E. unfold vpermute, assrt in E. destruct (length p =? length l)%nat eqn:L; [|discriminate].
  apply Nat.eqb_eq in L. apply gather_perm in E; auto. rewrite !asize_prod. unfold prod.
  clear -E. induction E; cbn; try congruence; lia.
Qed.

(* ---- C06 ---- *)
Lemma symm_half a : 0 <= a -> 2 * Z.quot (a * (a + 1)) 2 = a * (a + 1).
Proof.
  intro H. rewrite Z.quot_div_nonneg by nia.
  assert (Z.even (a * (a + 1)) = true).
  { rewrite Z.even_mul, Z.even_add. cbn. destruct (Z.even a); reflexivity. }
  apply Z.even_spec in H0 as [m Hm]. rewrite Hm. replace (2 * m) with (m * 2) by ring.
  rewrite Z.div_mul by lia. ring.
Qed.
Lemma C06_sym_l n i j : symm_index n i j = symm_index n j i.
Proof.
  unfold symm_index. destruct (i <=? j) eqn:E1, (j <=? i) eqn:E2; try lia; try reflexivity.
  assert (i = j) by lia. subst. reflexivity.
Qed.
Lemma symm_le n i j : i <= j -> symm_index n i j = i * n - Z.quot (i * (i + 1)) 2 + j.
Proof. intro H. unfold symm_index. replace (i <=? j) with true by lia. reflexivity. Qed.
Lemma symm_range n i j : 0 <= i <= j -> j < n -> 0 <= symm_index n i j < Z.quot (n * (n + 1)) 2.
Proof.
  intros Hi Hj. rewrite symm_le by lia. pose proof (symm_half i). pose proof (symm_half n). nia.
Qed.
Lemma symm_inj_le n i j k l : 0 <= i <= j -> j < n -> 0 <= k <= l -> l < n ->
  symm_index n i j = symm_index n k l -> i = k /\ j = l.
Proof.
  intros. rewrite !symm_le in H3 by lia. pose proof (symm_half i). pose proof (symm_half k).
  assert (i = k); [|subst; lia].
  (* row i occupies [base i + i, base i + n), base (i+1)+(i+1) = base i + n *)
  destruct (Z.lt_trichotomy i k) as [?|[?|?]]; [exfalso|assumption|exfalso]; nia.
Qed.
Lemma C06_inj_l n i j k l : 0 <= i < n -> 0 <= j < n -> 0 <= k < n -> 0 <= l < n ->
  symm_index n i j = symm_index n k l -> (i = k /\ j = l) \/ (i = l /\ j = k).
Proof.
  intros Hi Hj Hk Hl E.
  destruct (Z.le_gt_cases i j), (Z.le_gt_cases k l).
  - destruct (symm_inj_le n i j k l); auto; lia.
  - rewrite (C06_sym_l n k l) in E. destruct (symm_inj_le n i j l k); auto; lia.
  - rewrite (C06_sym_l n i j) in E. destruct (symm_inj_le n j i k l); auto; lia.
  - rewrite (C06_sym_l n k l), (C06_sym_l n i j) in E. destruct (symm_inj_le n j i l k); auto; lia.
Qed.
Lemma C06_surj_l n a : 0 <= n -> 0 <= a < Z.quot (n * (n + 1)) 2 ->
  exists i j, 0 <= i <= j /\ j < n /\ symm_index n i j = a.
Proof.
  intros Hn Ha.
  (* find the row: largest i with base i + i <= a, by induction on rows *)
  assert (G : forall m, 0 <= m -> m <= n -> a < m * n - Z.quot (m * (m + 1)) 2 + m ->
     exists i j, 0 <= i <= j /\ j < n /\ symm_index n i j = a).
  { intros m Hm. pattern m. apply natlike_ind; [cbn; lia| |exact Hm].
    intros x Hx IH Hxn Hlt. unfold Z.succ in *.
    destruct (Z.lt_ge_cases a (x * n - Z.quot (x * (x + 1)) 2 + x)) as [H|H]; [apply IH; lia|].
    exists x, (a - (x * n - Z.quot (x * (x + 1)) 2)).
    pose proof (symm_half x Hx). pose proof (symm_half (x + 1)).
    split; [lia|]. split; [nia|]. rewrite symm_le by lia. lia. }
  apply (G n); [lia|lia|]. pose proof (symm_half n Hn). nia.
Qed.

(* ---- statements used by Prop_Index ---- *)
Lemma all_indices_empty dims : nonneg dims -> prod dims = 0 -> all_indices dims = [].
Proof.
  intros Hn Hp. pose proof (all_indices_length dims Hn) as L. rewrite Hp in L.
  destruct (all_indices dims); [reflexivity|cbn in L; lia].
Qed.
Lemma not_in_range_empty dims ix : nonneg dims -> prod dims = 0 -> ~ in_range ix dims.
Proof. intros Hn Hp H. apply in_all_indices in H. now rewrite all_indices_empty in H. Qed.

Lemma C02_l dims : nonneg dims -> dims <> [] ->
  exists visits : list (list Z),
    (forall (S : Type) (f : list Z -> S -> res S) st, foreach_index dims f st = foldM f visits st) /\
    StronglySorted lex_lt visits /\ NoDup visits /\
    (forall ix, In ix visits <-> in_range ix dims).
Proof.
  intros Hn Hne. exists (all_indices dims). split; [intros; now apply foreach_index_fold|].
  split; [apply all_indices_sorted|]. split; [apply all_indices_nodup|]. apply in_all_indices.
Qed.
Lemma offs_dot s ix : length ix = length s -> offs s ix = Ok (dot s ix).
Proof. intro L. unfold offs. rewrite L, Nat.leb_refl. reflexivity. Qed.

Lemma solid_of_perm s dims : length s = length dims ->
  Permutation (map (dot s) (all_indices dims)) (zrange (prod dims)) ->
  (forall ix, in_range ix dims -> exists a, offs s ix = Ok a /\ 0 <= a < prod dims) /\
  (forall ix jx, in_range ix dims -> in_range jx dims -> offs s ix = offs s jx -> ix = jx) /\
  (forall a, 0 <= a < prod dims -> exists ix, in_range ix dims /\ offs s ix = Ok a).
Proof.
  intros L P.
  assert (O : forall ix, in_range ix dims -> offs s ix = Ok (dot s ix)).
  { intros ix H. apply offs_dot. apply in_range_length in H. lia. }
  split; [|split].
  - intros ix H. exists (dot s ix). split; [auto|]. apply in_zrange.
    eapply Permutation_in; [exact P|]. apply in_map. now apply in_all_indices.
  - intros ix jx Hi Hj E. rewrite !O in E by assumption. injection E as E.
    assert (N : NoDup (map (dot s) (all_indices dims))).
    { eapply Permutation_NoDup; [symmetry; exact P|apply zrange_nodup]. }
    eapply NoDup_map_inv'; [exact N| | |exact E]; now apply in_all_indices.
  - intros a Ha. apply in_zrange in Ha. eapply Permutation_in in Ha; [|symmetry; exact P].
    apply in_map_iff in Ha as (ix & <- & Hin). apply in_all_indices in Hin. exists ix. auto.
Qed.
Lemma C03_l dims : nonneg dims ->
  (forall ix, in_range ix dims -> exists a, offs (strides_of 1 dims) ix = Ok a /\ to_int ix dims = Ok a
                                           /\ 0 <= a < asize dims) /\
  (forall ix jx, in_range ix dims -> in_range jx dims ->
     offs (strides_of 1 dims) ix = offs (strides_of 1 dims) jx -> ix = jx) /\
  (forall a, 0 <= a < asize dims -> exists ix, in_range ix dims /\ offs (strides_of 1 dims) ix = Ok a).
Proof.
  intro Hn. rewrite asize_prod.
  destruct (solid_of_perm (strides_of 1 dims) dims) as (H1 & H2 & H3);
    [apply strides_of_length|rewrite row_major_addrs by assumption; reflexivity|].
  split; [|split; assumption]. intros ix H. exists (flat ix dims).
  rewrite offs_row_major, to_int_flat by now apply in_range_length.
  split; [reflexivity|]. split; [reflexivity|]. now apply flat_range.
Qed.

Lemma nonneg_prod_cases dims : nonneg dims -> positive dims \/ prod dims = 0.
Proof.
  intro Hn. pose proof (prod_nonneg dims Hn). destruct (Z.eq_dec (prod dims) 0); [now right|].
  left. apply prod_pos_positive; [assumption|lia].
Qed.
Lemma C04_contiguous_l s dims : length s = length dims -> nonneg dims -> positive s ->
  is_contiguous s dims = Ok true ->
  memsize s dims = Ok (asize dims) /\
  (forall ix, in_range ix dims -> exists a, offs s ix = Ok a /\ 0 <= a < asize dims) /\
  (forall ix jx, in_range ix dims -> in_range jx dims -> offs s ix = offs s jx -> ix = jx) /\
  (forall a, 0 <= a < asize dims -> exists ix, in_range ix dims /\ offs s ix = Ok a).
Proof.
  intros L Hn Hs E. rewrite asize_prod. destruct (nonneg_prod_cases dims Hn) as [Hp|Hz].
  - split; [now apply memsize_contiguous|]. apply solid_of_perm; [assumption|]. now apply contiguous_solid.
  - split.
    + unfold memsize. rewrite L, Nat.eqb_refl. cbn [assrt]. rewrite asize_prod, Hz.
      destruct s; [|reflexivity]. destruct dims; [|discriminate]. rewrite prod_nil in Hz. lia.
    + rewrite Hz. repeat split; intros; try lia;
        exfalso; eapply not_in_range_empty; eassumption.
Qed.
(* row-major layouts are reported contiguous *)
Lemma C04_regular_l s dims : length s = length dims ->
  (is_regular s dims = Ok true <-> s = strides_of 1 dims) /\
  (s = strides_of 1 dims -> is_contiguous s dims = Ok true).
Proof.
  intro L. split; [now apply is_regular_iff|]. intro E.
  unfold is_contiguous. rewrite (proj2 (is_regular_iff s dims L) E). reflexivity.
Qed.

(* fuse *)
Lemma strides_of_app s0 a b : exists sa, strides_of s0 (a ++ b) = sa ++ strides_of s0 b /\ length sa = length a /\ sa = strides_of (s0 * prod b) a.
Proof.
  exists (strides_of (s0 * prod b) a). split; [|split; [apply strides_of_length|reflexivity]]. induction a as [|d a IH]; [reflexivity|].
  cbn [app]. rewrite !strides_of_cons, IH, prod_app. cbn [app]. f_equal. ring.
Qed.
Lemma C05_fuse_l p q t : exists l', dims_fuse (Z.of_nat (length p)) (Z.of_nat (length q)) (p ++ q ++ t) = Ok l' /\ l' = p ++ prod q :: t /\ prod l' = prod (p ++ q ++ t) /\
  (q <> [] -> strides_fuse (Z.of_nat (length p)) (Z.of_nat (length q)) (strides_of 1 (p ++ q ++ t)) = Ok (strides_of 1 l')).
Proof.
  exists (p ++ prod q :: t). split; [|split; [reflexivity|split]].
  - unfold dims_fuse. rewrite !app_length. replace ((_ <? _) || _ || _) with false by (symmetry; rewrite !orb_false_iff, !Z.ltb_ge; lia).
    rewrite <- Nat2Z.inj_add, !Nat2Z.id, firstn_app, firstn_all, Nat.sub_diag, firstn_O, app_nil_r, skipn_app, skipn_all, Nat.sub_diag, skipn_O. cbn [app].
    rewrite firstn_app, firstn_all, Nat.sub_diag, firstn_O, app_nil_r, asize_prod. rewrite app_assoc, skipn_app, <- app_length, skipn_all, Nat.sub_diag. reflexivity.
  - rewrite !prod_app, prod_cons. ring.
  - intro Hq. unfold strides_fuse. rewrite strides_of_length, !app_length. assert (0 < length q)%nat by (destruct q; [easy|cbn; lia]).
    replace ((_ <? _) || _ || _) with false by (symmetry; rewrite !orb_false_iff, !Z.ltb_ge; lia).
    destruct (strides_of_app 1 p (q ++ t)) as (sp & Ep & Lp & Ep'). destruct (strides_of_app 1 q t) as (sq & Eq & Lq & Eq'). destruct (strides_of_app 1 p (prod q :: t)) as (sp' & E1 & L1 & E1').
    rewrite Ep, Eq, E1. rewrite Nat2Z.id, firstn_app, <- Lp, firstn_all, Nat.sub_diag, firstn_O, app_nil_r.
    assert (sp = sp') by (subst; f_equal; rewrite prod_app, prod_cons; ring). subst sp'. rewrite <- H0. f_equal. f_equal.
    rewrite strides_of_cons. assert (Hl : exists sq' z, sq = sq' ++ [z] /\ z = 1 * prod t).
    { destruct (exists_last Hq) as (q' & z & ->). destruct (strides_of_app (1 * prod t) q' [z]) as (a & Ea & La & _). exists a. exists (1 * prod t). rewrite Eq', Ea. split; [cbn; repeat f_equal; lia|reflexivity]. }
    destruct Hl as (sq' & z & -> & ->). rewrite app_length in Lq. cbn in Lq. replace (Z.to_nat _) with (length sp + length sq')%nat by lia.
    rewrite skipn_app, skipn_all2 by lia. replace (length sp + length sq' - length sp)%nat with (length sq') by lia. rewrite <- app_assoc, skipn_app, skipn_all, Nat.sub_diag. reflexivity.
Qed.
