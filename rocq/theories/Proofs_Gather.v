From Verif Require Import Base BaseFacts Map Model_Index Model_View Model_Tensor Model_Containers Model_Gather
  Proofs_Index Proofs_Containers Proofs_Containers2 Proofs_Containers3 Proofs_Containers4.
Local Open Scope Z_scope.

Lemma by_key_perm {V} (l : list (Z * V)) : Permutation (by_key l) l.
Proof.
  induction l as [|p l IH]; [constructor|]. change (by_key (p :: l)) with (kinsert p (by_key l)).
  transitivity (p :: by_key l); [|now constructor]. generalize (by_key l) as k. clear.
  induction k as [|q k IH]; [apply Permutation_refl|]. cbn. destruct (_ <=? _); [reflexivity|]. rewrite IH. constructor.
Qed.
Lemma forZ_list {A S} (d : A) (L : list A) (g : Z -> S -> res S) (f : A -> S -> res S) s :
  (forall i s, 0 <= i < Z.of_nat (length L) -> g i s = f (nth (Z.to_nat i) L d) s) -> forZ (Z.of_nat (length L)) g s = foldM f L s.
Proof.
  intro H. unfold forZ. transitivity (foldM (fun i => f (nth (Z.to_nat i) L d)) (zrange (Z.of_nat (length L))) s).
  - apply foldM_ext. intros i s' Hi. apply in_zrange in Hi. now apply H.
  - rewrite <- (foldM_map (fun i => nth (Z.to_nat i) L d) f). f_equal. unfold zrange. rewrite Nat2Z.id, map_map. clear.
    induction L as [|a L IH]; [reflexivity|]. cbn [length seq map]. f_equal.
    etransitivity; [|exact IH]. rewrite <- seq_shift, map_map. apply map_ext. intro k. rewrite !Nat2Z.id. reflexivity.
Qed.
(* what the accessors of the list structure return; rd_ok below: this is all the gather loops depend on *)
Definition rd (p : apool) (qs : list (Z * list Z)) : Prop :=
  ap_size p = Z.of_nat (length qs) /\
  forall i h l, 0 <= i < Z.of_nat (length qs) -> nth (Z.to_nat i) qs (0, []) = (h, l) ->
    hl_head p i = Ok h /\ hl_size_of p i = Ok (Z.of_nat (length l)) /\
    forall j, 0 <= j < Z.of_nat (length l) -> hl_get p i j = Ok (nth (Z.to_nat j) l 0).
Lemma prep_rd p qs : prep p (map hrow qs) -> rd p qs.
Proof.
  intro P. split; [rewrite (prep_size _ _ P); unfold zlen; now rewrite map_length|]. intros i h l Hi E.
  destruct (hl_row p (map hrow qs) i h l P) as (A & _ & B & C); auto.
  - unfold zlen. rewrite map_length. lia.
  - unfold znth. rewrite (nth_indep _ [] (hrow (0, []))) by (rewrite map_length; lia). rewrite map_nth, E. reflexivity.
Qed.
Lemma foldM_calls {S} (f : Z -> Z -> S -> res S) qs s :
  foldM (fun q s => foldM (fun j s => f (fst q) j s) (snd q) s) qs s = foldM (fun e s => f (fst e) (snd e) s) (mol_calls qs) s.
Proof.
  unfold mol_calls. rewrite foldM_flat_map. apply foldM_ext. intros q s' _. now rewrite foldM_map.
Qed.
Lemma for_each_ok {S} p qs (f : Z -> Z -> S -> res S) s : rd p qs ->
  gm_for_each p f s = foldM (fun e s => f (fst e) (snd e) s) (mol_calls qs) s.
Proof.
  intros (Sz & H). rewrite <- foldM_calls. unfold gm_for_each. rewrite Sz. apply (forZ_list (0, [])). intros i s' Hi.
  destruct (nth (Z.to_nat i) qs (0, [])) as [h l] eqn:E. destruct (H i h l Hi E) as (A & B & C). rewrite A, B. cbn [bind fst snd].
  apply (forZ_list 0). intros j s1 Hj. rewrite C by assumption. reflexivity.
Qed.
Lemma foldM_pure {S A} (f : A -> S -> S) l s : foldM (fun a s => Ok (f a s)) l s = Ok (fold_left (fun s a => f a s) l s).
Proof. revert s. induction l as [|a l IH]; intro s; cbn; [reflexivity|]. apply IH. Qed.

Definition swap (p : Z * Z) : Z * Z := (snd p, fst p).
Lemma mol_calls_perm_l qs qs' : Permutation qs qs' -> Permutation (mol_calls qs) (mol_calls qs').
Proof. unfold mol_calls. apply Permutation_flat_map. Qed.
Lemma push_rows_ok l p L : prep p L -> exists p', push_rows l p = Ok p' /\ prep p' (L ++ map hrow l).
Proof. apply hl_pushes_ok. Qed.
Lemma make_inv_ok g qs : rd (garr g) qs -> exists g' qs', make_inv g = Ok g' /\ prep (garr g') (map hrow qs') /\
  Permutation (mol_calls qs') (map swap (mol_calls qs)) /\ NoDup (map fst qs') /\
  gout g' = gin g /\ gin g' = gout g /\ goc g' = gic g /\ gic g' = goc g /\ gocn g' = gicn g /\ gicn g' = gocn g /\ gfixed g' = [].
Proof.
  intro H. unfold make_inv. rewrite (for_each_ok _ _ _ _ H), foldM_pure. cbn [bind].
  set (im := fold_left _ _ _). assert (E : im = mol_run (map swap (mol_calls qs))).
  { unfold im, mol_run. generalize (@nil (Z * list Z)) as s. generalize (mol_calls qs) as l. induction l as [|a l IH]; intro s; [reflexivity|]. cbn. apply IH. }
  destruct (prep_reserve (Z.of_nat (length im) + mol_tsize im) ap_new [] prep_new) as (p & -> & P). cbn [bind].
  destruct (push_rows_ok (by_key im) p [] P) as (p' & -> & P'). cbn [bind]. eexists. exists (by_key im). split; [reflexivity|]. cbn.
  split; [exact P'|]. split.
  - rewrite (mol_calls_perm_l _ _ (by_key_perm im)), E. apply mol_calls_perm.
  - split; [|repeat split]. apply (Permutation_NoDup (l := map fst im)); [apply Permutation_map; symmetry; apply by_key_perm|]. rewrite E. apply mol_wf.
Qed.

(* ---- constructors *)
Lemma get0_set k v m k' : get0 k' (mset k v m) = if k =? k' then v else get0 k' m.
Proof. unfold get0. rewrite mfind_set. destruct (k =? k'); reflexivity. Qed.
Definition ccount (ps : list (Z * Z)) (k : Z) : Z := zlen (filter (fun p => snd p =? k) ps).
Lemma count_get0 ps k : get0 k (count_targets ps) = ccount ps k.
Proof.
  unfold count_targets, ccount. induction ps as [|p ps IH] using rev_ind; [reflexivity|]. rewrite fold_left_app. cbn [fold_left]. rewrite get0_set, filter_app.
  unfold zlen in *. rewrite app_length. cbn [filter]. destruct (snd p =? k) eqn:E; cbn [length].
  - assert (snd p = k) by lia. subst k. rewrite IH. lia.
  - rewrite IH. lia.
Qed.
Lemma count_wf ps : mwf (count_targets ps).
Proof. unfold count_targets. induction ps as [|p ps IH] using rev_ind; [constructor|]. rewrite fold_left_app. cbn [fold_left]. now apply mset_wf. Qed.
Lemma count_keys ps k : In k (map fst (count_targets ps)) <-> In k (map snd ps).
Proof.
  unfold count_targets. induction ps as [|p ps IH] using rev_ind; [reflexivity|]. rewrite fold_left_app, map_app, in_app_iff. cbn [fold_left map].
  set (m := fold_left _ ps _) in *. rewrite <- IH. destruct (mset_keys m (snd p) (get0 (snd p) m + 1)) as [E|[E N]]; rewrite E.
  - split; [tauto|]. intros [H|[<-|[]]]; [assumption|]. rewrite <- E. destruct (mset_keys m (snd p) (get0 (snd p) m + 1)) as [E'|[E' _]].
    + assert (F : mfind (snd p) (mset (snd p) (get0 (snd p) m + 1) m) = Some (get0 (snd p) m + 1)) by (rewrite mfind_set, Z.eqb_refl; reflexivity).
      apply mfind_in in F. apply (in_map fst) in F. exact F.
    + rewrite E'. apply in_or_app. right. now left.
  - rewrite in_app_iff. cbn. tauto.
Qed.
Definition srcs (ps : list (Z * Z)) (h : Z) : list Z := map fst (filter (fun p => snd p =? h) ps).
Definition rows_for (ps : list (Z * Z)) (heads : list Z) : list (list Z) := map (fun h => h :: srcs ps h) heads.
Lemma znth_rows_for ps heads i : 0 <= i < zlen heads -> znth (rows_for ps heads) i = nth (Z.to_nat i) heads 0 :: srcs ps (nth (Z.to_nat i) heads 0).
Proof.
  intro H. unfold znth, rows_for. rewrite (nth_indep _ [] (0 :: srcs ps 0)) by (rewrite map_length; unfold zlen in H; lia). now rewrite (map_nth (fun h => h :: srcs ps h)).
Qed.
Lemma upd_rows_for ps s t heads i : NoDup heads -> 0 <= i < zlen heads -> nth (Z.to_nat i) heads 0 = t ->
  upd_row i s (rows_for ps heads) = rows_for (ps ++ [(s, t)]) heads.
Proof.
  intros N Hi E. assert (Lr : zlen (rows_for ps heads) = zlen heads) by (unfold zlen, rows_for; now rewrite map_length).
  apply (nth_ext _ _ [] []).
  - unfold upd_row. rewrite set_at_length. unfold rows_for. now rewrite !map_length.
  - intros k Hk. unfold upd_row in Hk. rewrite set_at_length in Hk. unfold rows_for in Hk. rewrite map_length in Hk.
    rewrite <- (Nat2Z.id k).
    fold (znth (upd_row i s (rows_for ps heads)) (Z.of_nat k)). fold (znth (rows_for (ps ++ [(s, t)]) heads) (Z.of_nat k)).
    rewrite znth_upd by lia. unfold zlen in *. rewrite !znth_rows_for by (unfold zlen; lia).
    unfold srcs. rewrite filter_app, map_app. cbn [filter snd]. destruct (Z.of_nat k =? i) eqn:Ek.
    + assert (Z.of_nat k = i) by lia. subst i. rewrite E, Z.eqb_refl. reflexivity.
    + destruct (t =? nth (Z.to_nat (Z.of_nat k)) heads 0) eqn:Et; [|rewrite app_nil_r; reflexivity]. exfalso.
      rewrite Nat2Z.id in Et. assert (nth (Z.to_nat i) heads 0 = nth k heads 0) as Q by lia. rewrite NoDup_nth in N. apply N in Q; lia.
Qed.
Lemma mapping_get heads i : NoDup heads -> 0 <= i < zlen heads -> get0 (nth (Z.to_nat i) heads 0) (combine heads (zrange (zlen heads))) = i.
Proof.
  intros N Hi. unfold get0. assert (Lz : length heads = length (zrange (zlen heads))) by (rewrite zrange_length; unfold zlen; lia).
  assert (mfind (nth (Z.to_nat i) heads 0) (combine heads (zrange (zlen heads))) = Some i) as ->; [|reflexivity].
  apply mfind_iff.
  - unfold mwf. rewrite combine_fst by congruence. assumption.
  - assert (E : nth (Z.to_nat i) (combine heads (zrange (zlen heads))) (0, 0) = (nth (Z.to_nat i) heads 0, i)).
    { rewrite combine_nth by assumption. f_equal. apply nth_error_nth. now apply zrange_nth. }
    rewrite <- E. apply nth_In. rewrite combine_length, <- Lz. unfold zlen in Hi. lia.
Qed.
Lemma filter_split_perm {A} (key : A -> Z) heads l : NoDup heads -> (forall a, In a l -> In (key a) heads) ->
  Permutation (flat_map (fun h => filter (fun a => key a =? h) l) heads) l.
Proof.
  intro N. induction l as [|a l IH]; intro H.
  - rewrite flat_map_concat_map. cbn. clear. induction heads; cbn; auto.
  - specialize (IH (fun b Hb => H b (or_intror Hb))). assert (Ha := H a (or_introl eq_refl)).
    destruct (in_split _ _ Ha) as (h1 & h2 & E). rewrite E in *. rewrite flat_map_app in *. cbn [flat_map] in *.
    assert (G : forall hs, ~ In (key a) hs -> flat_map (fun h => filter (fun b => key b =? h) (a :: l)) hs = flat_map (fun h => filter (fun b => key b =? h) l) hs).
    { clear. induction hs as [|h hs IH]; intro H; [reflexivity|]. cbn [flat_map]. rewrite IH by (intro; apply H; now right). cbn [filter].
      destruct (key a =? h) eqn:E; [exfalso; apply H; left; lia|reflexivity]. }
    assert (N1 : ~ In (key a) (h1 ++ h2)) by now apply NoDup_remove_2. rewrite in_app_iff in N1.
    rewrite !G by tauto. cbn [filter]. rewrite Z.eqb_refl. cbn [app]. rewrite <- Permutation_middle. now constructor.
Qed.
Lemma calls_srcs ps heads : NoDup heads -> (forall p, In p ps -> In (snd p) heads) ->
  Permutation (mol_calls (map (fun h => (h, srcs ps h)) heads)) (map swap ps).
Proof.
  intros N H. unfold mol_calls. rewrite <- (filter_split_perm snd heads ps N H). rewrite !flat_map_concat_map, concat_map, !map_map.
  apply Permutation_refl'. f_equal. apply map_ext. intro h. cbn. unfold srcs. rewrite map_map.
  induction ps as [|p ps IH]; [reflexivity|]. cbn. destruct (snd p =? h) eqn:E; cbn; [|apply IH; intros; apply H; now right].
  f_equal; [unfold swap; f_equal; lia|]. apply IH. intros; apply H; now right.
Qed.
Definition ho_ok (ho : zmap Z -> zmap Z) : Prop := forall m, Permutation (ho m) m.
Lemma gm_fill_ok ho ps : ho_ok ho -> exists p qs, gm_fill false ho ps = Ok p /\ prep p (map hrow qs) /\ Permutation (mol_calls qs) (map swap ps).
Proof.
  intro Hho. unfold gm_fill. set (sizes := ho (count_targets ps)). set (heads := map fst sizes). set (lens := map snd sizes).
  assert (Pm := Hho (count_targets ps)). fold sizes in Pm.
  assert (N : NoDup heads) by (apply (Permutation_NoDup (l := map fst (count_targets ps))); [apply Permutation_map; now symmetry|apply count_wf]).
  assert (K : forall k, In k heads <-> In k (map snd ps)).
  { intro k. rewrite <- count_keys. split; apply Permutation_in; [|symmetry]; now apply Permutation_map. }
  assert (Ln : forall i, 0 <= i < zlen heads -> nth (Z.to_nat i) lens 0 = ccount ps (nth (Z.to_nat i) heads 0)).
  { intros i Hi. rewrite <- count_get0. unfold zlen, heads in Hi. rewrite map_length in Hi.
    assert (Is : In (nth (Z.to_nat i) sizes (0, 0)) (count_targets ps)) by (eapply Permutation_in; [exact Pm|apply nth_In; lia]).
    unfold lens, heads. rewrite (map_nth snd _ (0, 0)), (map_nth fst _ (0, 0)). destruct (nth (Z.to_nat i) sizes (0, 0)) as [k v]. cbn [fst snd].
    apply mfind_iff in Is; [|apply count_wf]. unfold get0. now rewrite Is. }
  assert (Lh : zlen heads = zlen lens) by (unfold zlen, heads, lens; now rewrite !map_length).
  assert (F : Forall (fun x => 0 <= x) lens).
  { apply Forall_forall. intros x Hx. apply (In_nth _ _ 0) in Hx. destruct Hx as (n & Hn & <-). rewrite <- (Nat2Z.id n). rewrite Ln by (unfold zlen in *; lia). unfold ccount, zlen. lia. }
  destruct (hl_make_hrep heads lens F ltac:(unfold zlen in Lh; lia)) as (p & -> & Hp). cbn [bind].
  replace (Z.of_nat (length sizes)) with (zlen heads) by (unfold heads, zlen; now rewrite map_length).
  assert (G : exists p', foldM (fun pr p => hl_push_at (get0 (snd pr) (combine heads (zrange (zlen heads)))) (fst pr) p) ps p = Ok p' /\ hrep p' lens (rows_for ps heads)).
  { apply (foldM_inv (fun done p => hrep p lens (rows_for done heads))).
    - unfold rows_for, srcs. cbn. exact Hp.
    - intros done [s t] rest p1 E Hr. cbn [fst snd]. assert (Ht : In t heads) by (apply K; rewrite E, map_app; apply in_or_app; right; now left).
      apply (In_nth _ _ 0) in Ht. destruct Ht as (n & Hn & En). set (i := Z.of_nat n). assert (Hi : 0 <= i < zlen heads) by (unfold i, zlen; lia).
      assert (Ei : nth (Z.to_nat i) heads 0 = t) by (unfold i; now rewrite Nat2Z.id). replace (get0 t _) with i by (rewrite <- Ei; symmetry; now apply mapping_get).
      pose proof (hl_push_at_ok p1 lens _ i s Hr ltac:(lia)) as Q. rewrite znth_rows_for in Q by assumption. rewrite Ei in Q.
      assert (Lt : zlen (t :: srcs done t) <=? nth (Z.to_nat i) lens 0 = true).
      { rewrite Ln, Ei by assumption. unfold ccount. rewrite E, filter_app. cbn [filter snd]. rewrite Z.eqb_refl. unfold zlen, srcs. cbn [length]. rewrite app_length, map_length. cbn [length]. lia. }
      rewrite Lt in Q. destruct Q as (p2 & -> & H2). exists p2. split; [reflexivity|]. now rewrite (upd_rows_for done s t heads i N Hi Ei) in H2. }
  destruct G as (p' & E & Hr). exists p', (map (fun h => (h, srcs ps h)) heads). split; [exact E|]. split.
  - apply hrep_prep in Hr. rewrite map_map. exact Hr.
  - apply calls_srcs; [assumption|]. intros q Hq. apply K. now apply in_map.
Qed.
Lemma gm_fill_throws ho ps : ho_ok ho -> ps <> [] -> gm_fill true ho ps = Throw.
Proof.
  intros Hho Np. destruct ps as [|[s t] ps]; [congruence|]. unfold gm_fill. set (qs := (s, t) :: ps). set (sizes := ho (count_targets qs)). set (heads := map fst sizes). set (lens := map snd sizes).
  assert (Pm := Hho (count_targets qs)). fold sizes in Pm.
  assert (N : NoDup heads) by (apply (Permutation_NoDup (l := map fst (count_targets qs))); [apply Permutation_map; now symmetry|apply count_wf]).
  assert (Ht : In t heads).
  { eapply Permutation_in; [symmetry; apply Permutation_map; exact Pm|]. apply count_keys. now left. }
  assert (F : Forall (fun x => 0 <= x) lens).
  { apply Forall_forall. intros x Hx. unfold lens in Hx. apply in_map_iff in Hx. destruct Hx as ([k v] & <- & Hx). cbn.
    apply (Permutation_in _ Pm) in Hx. apply mfind_iff in Hx; [|apply count_wf]. assert (Q := count_get0 qs k). unfold get0 in Q. rewrite Hx in Q. rewrite Q. unfold ccount, zlen. lia. }
  assert (Lh : length heads = length lens) by (unfold heads, lens; now rewrite !map_length).
  destruct (hl_make true heads lens) as [p| |] eqn:Ep.
  2,3: destruct (hl_make_ok true heads lens F Lh) as (p & E & _); rewrite Ep in E; discriminate.
  cbn [bind]. cbn [qs foldM fst snd]. apply (In_nth _ _ 0) in Ht. destruct Ht as (n & Hn & En). 
  replace (Z.of_nat (length sizes)) with (zlen heads) by (unfold heads, zlen; now rewrite map_length).
  assert (Hn' : 0 <= Z.of_nat n < zlen heads) by (unfold zlen; lia). pose proof (mapping_get heads (Z.of_nat n) N Hn') as Q. rewrite Nat2Z.id, En in Q. rewrite Q.
  rewrite (hl_full_throws heads lens p _ s F Lh Ep); [reflexivity|unfold zlen in *; lia].
Qed.
Lemma gm_of_lists_ok l oc ic ocn icn : exists g, gm_of_lists l oc ic ocn icn = Ok g /\ prep (garr g) (map hrow l) /\
  goc g = oc /\ gic g = ic /\ gocn g = ocn /\ gicn g = icn /\ gfixed g = [].
Proof.
  unfold gm_of_lists. destruct (prep_reserve (Z.of_nat (length l) + mol_tsize l) ap_new [] prep_new) as (p & -> & P). cbn [bind].
  destruct (push_rows_ok l p [] P) as (p' & -> & P'). cbn [bind]. eexists. split; [reflexivity|]. cbn. repeat split; try reflexivity; apply P'.
Qed.
Lemma max_end_ok l : forall n, n <= max_end n l /\ Forall (fun x => x < max_end n l) l.
Proof.
  unfold max_end. induction l as [|a l IH]; intro n; cbn [fold_left]; [split; [lia|constructor]|].
  destruct (IH (Z.max n (a + 1))) as [A B]. split; [lia|]. constructor; [lia|assumption].
Qed.

(* ---- copying rows *)
Lemma copy_row_ok p q t l r L : hl_head p q = Ok t -> (forall j, 0 <= j < zlen l -> hl_get p q j = Ok (nth (Z.to_nat j) l 0)) -> prep r L ->
  exists r', copy_row p (zlen l) q r = Ok r' /\ prep r' (L ++ [t :: l]).
Proof.
  intros Hh Hg (T & Ht & H). unfold copy_row, hl_push_raw, ap_push_raw. pose proof (zlen_nonneg l) as Zl.
  assert (RM : exists r1, ap_room (zlen l + 1) r = Ok r1 /\ prep r1 L /\ atail r1 + (zlen l + 1) <= blen (amem r1)).
  { unfold ap_room. destruct (_ <? _) eqn:E.
    - pose proof (ap_reserve_ok (Z.max (2 * blen (amem r)) (atail r + (zlen l + 1))) r) as (r1 & E1 & _ & Q1 & Q2 & _).
      destruct (prep_reserve (Z.max (2 * blen (amem r)) (atail r + (zlen l + 1))) r L (conj T (conj Ht H))) as (r1' & E1' & P1). rewrite E1 in E1'. injection E1' as <-.
      exists r1. split; [exact E1|]. split; [exact P1|]. rewrite Q1. lia.
    - exists r. split; [reflexivity|]. split; [exact (conj T (conj Ht H))|]. lia. }
  destruct RM as (r1 & -> & (T1 & Ht1 & H1) & Rm). clear T Ht H. cbn [bind].
  destruct (it_push_ok (adir r1) 2 (zlen L) [atail r1; zlen l + 1] T1 eq_refl) as (d & Ed & Td & D1 & D2). unfold it_push2. rewrite Ed. cbn [bind].
  pose proof (zlen_nonneg L) as ZL. assert (A0 : cell (ibuf d) (zlen L * 2) = Some (atail r1)) by (rewrite <- (Z.add_0_r (zlen L * 2)); apply (D2 0); lia).
  assert (A1 : cell (ibuf d) (zlen L * 2 + 1) = Some (zlen l + 1)) by (apply (D2 1); lia).
  assert (G0 : it_get d (zlen L) 0 = Ok (atail r1)) by (apply (it_get_ok _ 2 (zlen L + 1)); [assumption|now rewrite Z.add_0_r]).
  assert (G1 : it_get d (zlen L) 1 = Ok (zlen l + 1)) by (eapply it_get_ok; eassumption).
  assert (Sz : irows d = zlen L + 1) by apply Td. cbv zeta.
  replace (ap_size _ - 1) with (zlen L) by (unfold ap_size; cbn [adir]; lia).
  rewrite Hh. cbn [bind]. unfold hl_set_head, ap_size. cbn [adir amem atail]. rewrite Sz. replace (zlen L <? zlen L + 1) with true by lia. cbn [assrt]. rewrite G0. cbn [bind].
  destruct (bput_ok (amem r1) (atail r1) t) as (b & -> & Lb & Cb); [lia|]. cbn [bind].
  set (Inv := fun (done : list Z) (r : apool) => adir r = d /\ atail r = atail r1 + (zlen l + 1) /\ blen (amem r) = blen (amem r1) /\
     (forall k, k < atail r1 -> cell (amem r) k = cell (amem r1) k) /\ cell (amem r) (atail r1) = Some t /\
     forall k, 0 <= k < zlen done -> cell (amem r) (atail r1 + 1 + k) = Some (nth (Z.to_nat k) l 0)).
  destruct (foldM_inv Inv (fun a r => do v <- hl_get p q a; hl_set (zlen L) a v r) (zrange (zlen l)) (APool b (atail r1 + (zlen l + 1)) d)) as (r' & E & I).
  - unfold Inv. cbn [adir atail amem]. repeat split; auto.
    + intros k Hk. rewrite Cb. now replace (k =? _) with false by lia.
    + rewrite Cb, Z.eqb_refl. reflexivity.
    + unfold zlen; cbn; lia.
  - intros done a rest r2 Ea (I1 & I2 & I3 & I4 & I5 & I6). apply zrange_split in Ea. destruct Ea as [-> Ha].
    rewrite Hg by assumption. cbn [bind]. unfold hl_set, ap_size. rewrite I1, Sz. replace (zlen L <? zlen L + 1) with true by lia. cbn [assrt]. rewrite G0, G1. cbn [bind].
    replace (_ <? _) with true by lia. cbn [assrt].
    destruct (bput_ok (amem r2) (atail r1 + zlen done + 1) (nth (Z.to_nat (zlen done)) l 0)) as (b2 & -> & L2 & C2); [lia|]. cbn [bind].
    eexists. split; [reflexivity|]. unfold Inv. cbn [adir atail amem]. repeat split; auto; try lia.
    + intros k Hk. rewrite C2. replace (k =? _) with false by lia. now apply I4.
    + rewrite C2. replace (_ =? _) with false by lia. exact I5.
    + intros k Hk. rewrite zlen_app in Hk. change (zlen [zlen done]) with 1 in Hk. rewrite C2. destruct (_ =? _) eqn:Ek.
      * f_equal. f_equal. lia.
      * apply I6. lia.
  - exists r'. split; [exact E|]. destruct I as (I1 & I2 & I3 & I4 & I5 & I6). unfold zlen in I6 at 1. rewrite zrange_length, Z2Nat.id in I6 by lia. split; [rewrite I1, zlen_app; exact Td|].
    split; [lia|]. intros i Hi. rewrite zlen_app in Hi. change (zlen [t :: l]) with 1 in Hi. destruct (Z.eq_dec i (zlen L)) as [->|Ni].
    + rewrite znth_app2, Z.sub_diag by lia. change (znth [t :: l] 0) with (t :: l). exists (atail r1). rewrite I1. assert (Zt : zlen (t :: l) = zlen l + 1) by (unfold zlen; cbn [length]; lia). rewrite Zt.
      repeat split; auto; try lia. intros k Hk. destruct (Z.eq_dec k 0) as [->|]; [now rewrite Z.add_0_r|].
      replace (atail r1 + k) with (atail r1 + 1 + (k - 1)) by lia. rewrite I6 by lia. replace (Z.to_nat k) with (S (Z.to_nat (k - 1))) by lia. reflexivity.
    + rewrite znth_app1 by lia. apply (holds_mono r1); [apply H1; lia| |lia|assumption]. intros k Hk. rewrite I1. apply D1. lia.
Qed.

(* ---- sort and grade *)
Definition qnth (qs : list (Z * list Z)) (i : Z) : Z * list Z := nth (Z.to_nat i) qs (0, []).
Lemma qnth_all qs : map (qnth qs) (zrange (zlen qs)) = qs.
Proof.
  unfold zrange, zlen, qnth. rewrite Nat2Z.id, map_map. induction qs as [|q qs IH]; [reflexivity|]. cbn [length seq map]. f_equal.
  etransitivity; [|exact IH]. rewrite <- seq_shift, map_map. apply map_ext. intro k. rewrite !Nat2Z.id. reflexivity.
Qed.
Lemma by_length_ok key p qs : rd p qs -> exists ls, by_length key p = Ok ls /\
  Permutation (mol_calls ls) (map (fun i => (key (zlen (snd (qnth qs i))), i)) (zrange (zlen qs))).
Proof.
  intros (Sz & H). unfold by_length. set (ps := map (fun i => (key (zlen (snd (qnth qs i))), i)) (zrange (zlen qs))).
  assert (E : forZ (ap_size p) (fun i m => do s <- hl_size_of p i; Ok (mol_push (key s) i m)) [] = Ok (mol_run ps)).
  { rewrite Sz. unfold forZ, mol_run, ps. rewrite (foldM_ext _ (fun i m => Ok (mol_push (key (zlen (snd (qnth qs i)))) i m))).
    - rewrite foldM_pure. f_equal. fold (zlen qs). generalize (zrange (zlen qs)) as is_. generalize (@nil (Z * list Z)) as s.
      intros s is_. revert s. induction is_ as [|i is_ IH]; intro s; cbn; [reflexivity|]. apply IH.
    - intros i m Hi. apply in_zrange in Hi. destruct (nth (Z.to_nat i) qs (0, [])) as [h l] eqn:Eq. destruct (H i h l Hi Eq) as (_ & -> & _).
      cbn [bind]. unfold qnth. now rewrite Eq. }
  rewrite E. cbn [bind]. eexists. split; [reflexivity|]. rewrite (mol_calls_perm_l _ _ (by_key_perm _)). apply mol_calls_perm.
Qed.
Lemma copies_ok p qs cs : rd p qs -> Forall (fun c => 0 <= snd c < zlen qs /\ fst c = zlen (snd (qnth qs (snd c)))) cs ->
  forall r L, prep r L -> exists r', foldM (fun c r => copy_row p (fst c) (snd c) r) cs r = Ok r' /\ prep r' (L ++ map (fun c => hrow (qnth qs (snd c))) cs).
Proof.
  intros (Sz & H) F. induction F as [|[k i] cs [Hi Hk] F IH]; intros r L P; [exists r; rewrite app_nil_r; auto|]. cbn [foldM fst snd] in *. subst k.
  destruct (qnth qs i) as [h l] eqn:E. destruct (H i h l Hi E) as (A & _ & B). cbn [snd].
  destruct (copy_row_ok p i h l r L A B P) as (r1 & -> & P1). cbn [bind]. destruct (IH r1 _ P1) as (r' & -> & P'). exists r'. split; [reflexivity|].
  cbn [map snd]. rewrite E. now rewrite <- app_assoc in P'.
Qed.
Lemma keyed_rows (key : Z -> Z) qs cs : Permutation cs (map (fun i => (key (zlen (snd (qnth qs i))), i)) (zrange (zlen qs))) ->
  Permutation (map (fun c => qnth qs (snd c)) cs) qs /\ Forall (fun c => 0 <= snd c < zlen qs /\ fst c = key (zlen (snd (qnth qs (snd c))))) cs.
Proof.
  intro P. split.
  - rewrite P, map_map. cbn. rewrite qnth_all. reflexivity.
  - apply Forall_forall. intros [k i] Hc. apply (Permutation_in _ P) in Hc. apply in_map_iff in Hc. destruct Hc as (j & Ej & Hj). injection Ej as <- <-. apply in_zrange in Hj. cbn. auto.
Qed.
Lemma map_neg_calls p ls : forall r, foldM (fun e r => foldM (copy_row p (- fst e)) (snd e) r) ls r =
  foldM (fun c r => copy_row p (fst c) (snd c) r) (map (fun c => (- fst c, snd c)) (mol_calls ls)) r.
Proof. intro r. rewrite foldM_map. cbn. rewrite <- (foldM_calls (fun k i r => copy_row p (- k) i r)). reflexivity. Qed.
Lemma gm_sort_ok g qs : rd (garr g) qs -> exists g' qs', gm_sort g = Ok g' /\ rd (garr g') qs' /\ Permutation qs' qs /\
  gout g' = gout g /\ gin g' = gin g /\ goc g' = goc g /\ gic g' = gic g /\ gocn g' = gocn g /\ gicn g' = gicn g /\ gfixed g' = gfixed g.
Proof.
  intro H. unfold gm_sort. destruct (gsorted g); [exists g, qs; split; [reflexivity|]; split; [exact H|]; split; [reflexivity|]; now repeat split|].
  destruct (by_length_ok Z.opp _ _ H) as (ls & -> & P). cbn [bind].
  destruct (prep_reserve (atail (garr g)) ap_new [] prep_new) as (r & -> & Pr). cbn [bind]. rewrite map_neg_calls.
  destruct (keyed_rows _ _ _ P) as [K1 K2].
  destruct (copies_ok (garr g) qs (map (fun c => (- fst c, snd c)) (mol_calls ls)) H) with (r := r) (L := @nil (list Z)) as (r' & -> & P').
  - apply Forall_forall. intros c Hc. apply in_map_iff in Hc. destruct Hc as (d & <- & Hd). rewrite Forall_forall in K2. destruct (K2 d Hd). cbn [fst snd]. lia.
  - assumption.
  - cbn [bind]. eexists. exists (map (fun c => qnth qs (snd c)) (mol_calls ls)). split; [reflexivity|]. cbn. rewrite map_map in P'. cbn in P'.
    split; [|repeat split; auto]. apply prep_rd. rewrite map_map. exact P'.
Qed.
Lemma part_perm {A B} (c : A -> bool) (f : A -> list B) l :
  Permutation (flat_map f (filter c l) ++ flat_map f (filter (fun a => negb (c a)) l)) (flat_map f l).
Proof.
  induction l as [|a l IH]; [constructor|]. cbn. destruct (c a); cbn; [rewrite <- app_assoc; now apply Permutation_app_head|].
  rewrite app_assoc, (Permutation_app_comm _ (f a)), <- app_assoc. now apply Permutation_app_head.
Qed.
Lemma gm_grade_ok ms g qs : prep (garr g) (map hrow qs) -> exists g' fk qs', gm_grade ms g = Ok g' /\ prep (garr g') (map hrow qs') /\
  gfixed g' = gfixed g ++ map (map hrow) fk /\ Permutation (concat fk ++ qs') qs /\
  gout g' = gout g /\ gin g' = gin g /\ goc g' = goc g /\ gic g' = gic g /\ gocn g' = gocn g /\ gicn g' = gicn g.
Proof.
  intro Pg. assert (H := prep_rd _ _ Pg). unfold gm_grade. destruct (by_length_ok (fun s => s) _ _ H) as (ls & -> & P). cbn [bind].
  set (rem := fold_right _ _ _). clearbody rem. destruct (prep_reserve rem ap_new [] prep_new) as (r & -> & Pr). cbn [bind].
  destruct (keyed_rows (fun s => s) _ _ P) as [K1 K2]. cbv beta in K2. set (c := fun e : Z * list Z => ms <=? Z.of_nat (length (snd e))).
  assert (G : exists r', foldM (fun e st => let '(fk, r) := st in
     if ms <=? Z.of_nat (length (snd e)) then do rows <- mapM (ap_list (garr g)) (snd e); Ok (fk ++ [rows], r)
     else do r <- foldM (copy_row (garr g) (fst e)) (snd e) r; Ok (fk, r)) ls (gfixed g, r) =
       Ok (gfixed g ++ map (map hrow) (map (fun e => map (qnth qs) (snd e)) (filter c ls)), r') /\
       prep r' (map hrow (flat_map (fun e => map (qnth qs) (snd e)) (filter (fun e => negb (c e)) ls)))).
  { assert (KE : Forall (fun e => Forall (fun i => 0 <= i < zlen qs /\ fst e = zlen (snd (qnth qs i))) (snd e)) ls).
    { apply Forall_forall. intros e He. apply Forall_forall. intros i Hi. rewrite Forall_forall in K2. apply (K2 (fst e, i)). unfold mol_calls. apply in_flat_map. exists e. split; [assumption|]. now apply in_map. }
    assert (G0 : forall L fk r, prep r L -> exists r', foldM (fun e st => let '(fk, r) := st in
     if ms <=? Z.of_nat (length (snd e)) then do rows <- mapM (ap_list (garr g)) (snd e); Ok (fk ++ [rows], r)
     else do r <- foldM (copy_row (garr g) (fst e)) (snd e) r; Ok (fk, r)) ls (fk, r) =
       Ok (fk ++ map (map hrow) (map (fun e => map (qnth qs) (snd e)) (filter c ls)), r') /\
       prep r' (L ++ map hrow (flat_map (fun e => map (qnth qs) (snd e)) (filter (fun e => negb (c e)) ls)))); [|exact (G0 [] (gfixed g) r Pr)].
    clear -KE H Pg. induction KE as [|e ls Ke KE IH]; intros L fk r Pr.
    - exists r. cbn. now rewrite !app_nil_r.
    - cbn [foldM filter map flat_map]. change (ms <=? Z.of_nat (length (snd e))) with (c e). destruct (c e).
      + assert (M : mapM (ap_list (garr g)) (snd e) = Ok (map hrow (map (qnth qs) (snd e)))).
        { rewrite map_map. clear -Ke Pg. induction Ke as [|i l [Hi _] Ke IH]; [reflexivity|]. cbn [mapM map].
          assert (Zm : zlen (map hrow qs) = zlen qs) by (unfold zlen; now rewrite map_length).
          rewrite (prep_list _ _ i Pg) by lia. cbn [bind]. rewrite IH. cbn. do 2 f_equal. unfold znth, qnth. rewrite (nth_indep _ [] (hrow (0, []))) by (rewrite map_length; unfold zlen in Hi; lia). apply map_nth. }
        rewrite M. cbn [bind negb]. destruct (IH L (fk ++ [map hrow (map (qnth qs) (snd e))]) r Pr) as (r' & -> & P'). exists r'. cbn [map]. rewrite <- app_assoc. auto.
      + destruct (copies_ok (garr g) qs (map (pair (fst e)) (snd e)) H) with (r := r) (L := L) as (r1 & E1 & P1); [|assumption|].
        { apply Forall_forall. intros x Hx. apply in_map_iff in Hx. destruct Hx as (i & <- & Hi). rewrite Forall_forall in Ke. apply (Ke i Hi). }
        rewrite foldM_map in E1. cbn [fst snd] in E1. assert (E2 : foldM (copy_row (garr g) (fst e)) (snd e) r = Ok r1) by exact E1.
        rewrite E2. cbn [bind negb]. destruct (IH _ fk r1 P1) as (r' & -> & P'). exists r'. split; [reflexivity|]. cbn [flat_map]. rewrite map_app. rewrite map_map in P'. rewrite !map_map. cbn [snd] in P'. rewrite app_assoc. exact P'. }
  destruct G as (r' & -> & P'). cbn [bind]. eexists. eexists. eexists. split; [reflexivity|]. cbn. split; [exact P'|]. split; [reflexivity|]. split; [|repeat split].
  rewrite <- flat_map_concat_map, part_perm. etransitivity; [|exact K1]. unfold mol_calls. clear.
  induction ls as [|e ls IH]; [constructor|]. cbn [flat_map]. rewrite map_app, map_map. now apply Permutation_app_head.
Qed.
