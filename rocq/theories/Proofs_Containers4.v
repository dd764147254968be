From Verif Require Import Base BaseFacts Map Model_Containers Proofs_Containers2.
Local Open Scope Z_scope.

(* ---- map_of_lists *)
Definition mol_run (ps : list (Z * Z)) : mol := fold_left (fun m p => mol_push (fst p) (snd p) m) ps [].
Definition vals (k : Z) (ps : list (Z * Z)) : list Z := map snd (filter (fun p => fst p =? k) ps).
Lemma vals_app k a b : vals k (a ++ b) = vals k a ++ vals k b.
Proof. unfold vals. now rewrite filter_app, map_app. Qed.
Lemma mol_run_snoc ps p : mol_run (ps ++ [p]) = mol_push (fst p) (snd p) (mol_run ps).
Proof. unfold mol_run. now rewrite fold_left_app. Qed.
Lemma mol_find ps k : mfind k (mol_run ps) = match vals k ps with [] => None | l => Some l end.
Proof.
  induction ps as [|[a b] ps IH] using rev_ind; [reflexivity|]. rewrite mol_run_snoc, vals_app. cbn [fst snd].
  assert (E : vals k [(a, b)] = if a =? k then [b] else []) by (unfold vals; cbn; destruct (a =? k); reflexivity). rewrite E.
  unfold mol_push. destruct (a =? k) eqn:Ek.
  - assert (a = k) by lia. subst a. rewrite IH. destruct (vals k ps) eqn:Ev; rewrite mfind_set, Z.eqb_refl; reflexivity.
  - rewrite app_nil_r, <- IH. destruct (mfind a _); rewrite mfind_set, Ek; reflexivity.
Qed.
Lemma mol_wf ps : mwf (mol_run ps).
Proof.
  induction ps as [|p ps IH] using rev_ind; [constructor|]. rewrite mol_run_snoc. unfold mol_push. destruct (mfind _ _); now apply mset_wf.
Qed.
Lemma mset_calls m k l l' : mwf m -> mfind k m = Some l -> Permutation (mol_calls (mset k l' m) ++ map (pair k) l) (mol_calls m ++ map (pair k) l').
Proof.
  unfold mol_calls. intro W. induction m as [|[a b] m IH]; cbn; [discriminate|]. inversion W; subst. destruct (a =? k) eqn:E.
  - intro H. injection H as ->. cbn. assert (a = k) by lia. subst a.
    rewrite (Permutation_app_comm _ (map (pair k) l)), <- app_assoc. apply Permutation_app_head, Permutation_app_comm.
  - intro H. cbn. rewrite <- !app_assoc. apply Permutation_app_head. auto.
Qed.
Lemma mset_new {V} (m : zmap V) k v : mfind k m = None -> mset k v m = m ++ [(k, v)].
Proof. induction m as [|[a b] m IH]; cbn; [reflexivity|]. destruct (a =? k); [discriminate|]. intro H. now rewrite IH. Qed.
Lemma mol_calls_perm ps : Permutation (mol_calls (mol_run ps)) ps.
Proof.
  induction ps as [|[a b] ps IH] using rev_ind; [constructor|]. rewrite mol_run_snoc. cbn [fst snd]. unfold mol_push. destruct (mfind a (mol_run ps)) as [l|] eqn:E.
  - pose proof (mset_calls _ _ _ (l ++ [b]) (mol_wf ps) E) as P. rewrite map_app in P. cbn in P.
    assert (Q : Permutation (mol_calls (mset a (l ++ [b]) (mol_run ps))) (mol_calls (mol_run ps) ++ [(a, b)])).
    { apply (Permutation_app_inv_r (map (pair a) l)). rewrite P. rewrite <- app_assoc. apply Permutation_app_head, Permutation_app_comm. }
    rewrite Q. now apply Permutation_app_tail.
  - rewrite mset_new by assumption. unfold mol_calls. rewrite flat_map_app. cbn. now apply Permutation_app_tail.
Qed.
Lemma mol_tsize_calls m : mol_tsize m = zlen (mol_calls m).
Proof.
  unfold mol_tsize, mol_calls, zlen. induction m as [|[a b] m IH]; cbn [map fold_right flat_map]; [reflexivity|]. rewrite IH, app_length, map_length. cbn. lia.
Qed.

(* ---- map_of_maps *)
Definition write := (Z * Z * Z)%type.
Definition mom_run (ws : list write) : mom := fold_left (fun m w => mom_set (fst (fst w)) (snd (fst w)) (snd w) m) ws [].
(* the value last written at (i,j) *)
Definition last_write (i j : Z) (ws : list write) : option Z :=
  option_map snd (find (fun w => (fst (fst w) =? i) && (snd (fst w) =? j)) (rev ws)).
Definition mom_find (i j : Z) (m : mom) : option Z := mfind j (mom_row i m).
Definition momwf (m : mom) : Prop := mwf m /\ forall i r, mfind i m = Some r -> mwf r.
Lemma mom_find_set i j x m i' j' : mom_find i' j' (mom_set i j x m) = if (i =? i') && (j =? j') then Some x else mom_find i' j' m.
Proof.
  unfold mom_find, mom_set, mom_row at 1. rewrite mfind_set. destruct (i =? i') eqn:E; [|reflexivity]. assert (i' = i) by lia. subst i'.
  rewrite mfind_set. destruct (j =? j'); reflexivity.
Qed.
Lemma mom_set_wf i j x m : momwf m -> momwf (mom_set i j x m).
Proof.
  intros [W1 W2]. split; [now apply mset_wf|]. intros i' r. unfold mom_set. rewrite mfind_set. destruct (i =? i'); [|apply W2].
  intro H. injection H as <-. apply mset_wf. unfold mom_row. destruct (mfind i m) eqn:E; [eauto|constructor].
Qed.
Lemma mom_run_snoc ws w : mom_run (ws ++ [w]) = mom_set (fst (fst w)) (snd (fst w)) (snd w) (mom_run ws).
Proof. unfold mom_run. now rewrite fold_left_app. Qed.
Lemma last_write_snoc i j ws w : last_write i j (ws ++ [w]) = if (fst (fst w) =? i) && (snd (fst w) =? j) then Some (snd w) else last_write i j ws.
Proof. unfold last_write. rewrite rev_app_distr. cbn. destruct (_ && _); reflexivity. Qed.
Lemma mom_run_find ws i j : mom_find i j (mom_run ws) = last_write i j ws.
Proof. induction ws as [|w ws IH] using rev_ind; [reflexivity|]. now rewrite mom_run_snoc, last_write_snoc, mom_find_set, IH. Qed.
Lemma mom_run_wf ws : momwf (mom_run ws).
Proof. induction ws as [|w ws IH] using rev_ind; [split; [constructor|discriminate]|]. rewrite mom_run_snoc. now apply mom_set_wf. Qed.
Definition rows_nonempty (m : mom) : Prop := forall i r, mfind i m = Some r -> r <> [].
Lemma mom_run_ne ws : rows_nonempty (mom_run ws).
Proof.
  induction ws as [|w ws IH] using rev_ind; [discriminate|]. rewrite mom_run_snoc. intros i r. unfold mom_set. rewrite mfind_set. destruct (_ =? i); [|apply IH].
  intro H. injection H as <-. destruct (mom_row _ _) as [|[a b] l]; cbn; [discriminate|]. destruct (a =? _); discriminate.
Qed.
Lemma mom_get_find i j m : mom_get i j m = match mom_find i j m with Some v => v | None => 0 end.
Proof. unfold mom_get, mom_find, mom_row. destruct (mfind i m); reflexivity. Qed.
Lemma mom_filled_find i j m : mom_filled i j m = match mom_find i j m with Some _ => true | None => false end.
Proof. unfold mom_filled, mom_find, mom_row. destruct (mfind i m); reflexivity. Qed.
Lemma mom_calls_in m i j x : momwf m -> (In (i, j, x) (mom_calls m) <-> mom_find i j m = Some x).
Proof.
  intros [W1 W2]. unfold mom_calls. rewrite in_flat_map. unfold mom_find, mom_row. split.
  - intros ([a r] & H1 & H2). apply in_map_iff in H2 as ([b y] & E & H2). cbn in E. injection E as -> -> ->. cbn in H2.
    apply mfind_iff in H1; [|assumption]. rewrite H1. apply mfind_iff; eauto.
  - destruct (mfind i m) as [r|] eqn:E; [|discriminate]. intro H. exists (i, r). split; [now apply mfind_in|]. apply in_map_iff. exists (j, x). split; [reflexivity|]. now apply mfind_in.
Qed.
Lemma mom_calls_nodup m : momwf m -> NoDup (map fst (mom_calls m)).
Proof.
  intros [W1 W2]. unfold mom_calls. induction m as [|[a r] m IH]; cbn; [constructor|]. inversion W1 as [|? ? N W]; subst.
  rewrite map_app, map_map. cbn.
  assert (Wr : mwf r) by (apply (W2 a); cbn; now rewrite Z.eqb_refl).
  assert (IH' : NoDup (map fst (flat_map (fun p => map (fun q => (fst p, fst q, snd q)) (snd p)) m))).
  { apply IH; [assumption|]. intros i r' H. apply (W2 i). cbn. destruct (a =? i) eqn:E; [|assumption]. exfalso. apply N. cbn. assert (a = i) by lia. subst i.
    apply mfind_in in H. now apply (in_map fst) in H. }
  clear IH W1 W2 W. unfold mwf in Wr. induction r as [|[b x] r IHr]; cbn; [assumption|]. inversion Wr as [|? ? Nr Wr']; subst. constructor; [|auto].
  intro H. apply in_app_or in H as [H|H].
  - apply in_map_iff in H as ([b' x'] & E & H). cbn in E. injection E as ->. apply Nr. cbn. now apply (in_map fst) in H.
  - apply in_map_iff in H as ([[a' b'] x'] & E & H). cbn in E. injection E as -> ->. apply in_flat_map in H as ([a' r'] & H1 & H2). apply in_map_iff in H2 as ([? ?] & E & _). cbn in E. injection E as -> _ _.
    apply N. cbn. now apply (in_map fst) in H1.
Qed.
Lemma mom_size_calls m : mom_size m = zlen (mom_calls m).
Proof.
  unfold mom_size, mom_calls, zlen. induction m as [|[a b] m IH]; cbn [map fold_right flat_map]; [reflexivity|]. rewrite IH, app_length, map_length. cbn. lia.
Qed.
Lemma mom_subset_ok a b : momwf a -> rows_nonempty a ->
  (mom_subset a b = true <-> forall i j x, mom_find i j a = Some x -> mom_find i j b = Some x).
Proof.
  intros [W1 W2] Ne. unfold mom_subset. rewrite forallb_forall. split.
  - intros H i j x. unfold mom_find at 1, mom_row. destruct (mfind i a) as [r|] eqn:E; [|discriminate]. intro Hx.
    specialize (H (i, r) (mfind_in _ _ _ E)). cbn in H. unfold mom_find, mom_row. destruct (mfind i b) as [r'|]; [|discriminate].
    rewrite forallb_forall in H. specialize (H (j, x) (mfind_in _ _ _ Hx)). cbn in H. destruct (mfind j r') as [y|]; [|discriminate]. f_equal. lia.
  - intros H [i r] Hin. cbn. apply mfind_iff in Hin; [|assumption].
    assert (K : forall j x, mfind j r = Some x -> mom_find i j b = Some x) by (intros j x Hx; apply H; unfold mom_find, mom_row; now rewrite Hin).
    unfold mom_find, mom_row in K. destruct (mfind i b) as [r'|].
    + apply forallb_forall. intros [j x] Hj. cbn. apply mfind_iff in Hj; [|eauto]. rewrite (K _ _ Hj). lia.
    + exfalso. destruct r as [|[j x] r]; [now apply (Ne i [])|]. specialize (K j x). cbn in K. rewrite Z.eqb_refl in K. now specialize (K eq_refl).
Qed.

(* ---- double_indexed_map *)
Inductive dop := DSet (i j x : Z) | DRow (i : Z).
Definition dstep (m : dmap) (o : dop) : dmap := match o with DSet i j x => dm_set i j x m | DRow i => snd (dm_row_calls i m) end.
Definition drun (ops : list dop) : dmap := fold_left dstep ops dm_new.
Definition dwrites (ops : list dop) : list write := flat_map (fun o => match o with DSet i j x => [(i, j, x)] | DRow _ => [] end) ops.
Lemma drun_ok ops : momwf (rmap (drun ops)) /\ momwf (cmap (drun ops)) /\
  (forall i j, mom_find i j (rmap (drun ops)) = last_write i j (dwrites ops)) /\ (forall i j, mom_find j i (cmap (drun ops)) = last_write i j (dwrites ops)).
Proof.
  induction ops as [|o ops (A & B & C & D)] using rev_ind; [repeat split; try constructor; try discriminate|].
  unfold drun, dwrites in *. rewrite fold_left_app, flat_map_app. cbn [fold_left flat_map]. rewrite app_nil_r. set (m := fold_left dstep ops dm_new) in *. destruct o as [i j x|i]; cbn [dstep].
  - unfold dm_set. cbn [rmap cmap]. split; [now apply mom_set_wf|]. split; [now apply mom_set_wf|]. split; intros i' j'; rewrite mom_find_set, last_write_snoc; cbn.
    + now rewrite C.
    + rewrite D, andb_comm. reflexivity.
  - rewrite app_nil_r. cbn. destruct (mfind i (rmap m)) as [r|] eqn:E; [auto|]. cbn [rmap cmap]. split; [|split; [assumption|split; [|assumption]]].
    + destruct A as [A1 A2]. split; [now apply mset_wf|]. intros i' r. rewrite mfind_set. destruct (i =? i'); [|apply A2]. intro H. injection H as <-. constructor.
    + intros i' j. rewrite <- C. unfold mom_find, mom_row. rewrite mfind_set. destruct (i =? i') eqn:Ei; [|reflexivity]. replace i' with i by lia. now rewrite E.
Qed.

(* ---- bidirectional_map *)
Definition inverse (m : bmap) : Prop := mwf (fwd m) /\ mwf (bwd m) /\ forall k v, mfind k (fwd m) = Some v <-> mfind v (bwd m) = Some k.
Lemma inverse_len m : inverse m -> length (fwd m) = length (bwd m).
Proof.
  intros (W1 & W2 & H).
  assert (P : Permutation (map (fun p => (snd p, fst p)) (fwd m)) (bwd m)).
  { apply NoDup_Permutation.
    - apply NoDup_map_inj; [|now apply mwf_nodup]. intros [a b] [c d] _ _ E; cbn in E; congruence.
    - now apply mwf_nodup.
    - intros [v k]. rewrite in_map_iff. split.
      + intros ([a b] & E & Hin). cbn in E. injection E as <- <-. apply mfind_in, H. now apply mfind_iff.
      + intro Hin. exists (k, v). split; [reflexivity|]. apply mfind_in, H. now apply mfind_iff. }
  rewrite <- (Permutation_length P). now rewrite map_length.
Qed.
Lemma bm_erase_ok k m : inverse m -> inverse (bm_erase k m) /\ forall k', mfind k' (fwd (bm_erase k m)) = if k =? k' then None else mfind k' (fwd m).
Proof.
  intros (W1 & W2 & H). unfold bm_erase. destruct (mfind k (fwd m)) as [v|] eqn:E.
  - split; [|intro k'; apply mfind_erase]. split; [now apply merase_wf|]. split; [now apply merase_wf|]. cbn. intros k' v'. rewrite !mfind_erase.
    destruct (k =? k') eqn:Ek, (v =? v') eqn:Ev; [split; discriminate| | |apply H].
    + split; [discriminate|]. intro H'. apply H in H'. replace k' with k in H' by lia. rewrite E in H'. injection H' as H'. lia.
    + split; [|discriminate]. intro H'. apply H in H'. replace v' with v in H' by lia. apply H in E. rewrite E in H'. injection H' as H'. lia.
  - split; [now split|]. intro k'. destruct (k =? k') eqn:Ek; [|reflexivity]. now replace k' with k by lia.
Qed.
Lemma bm_erase_backward_ok v m : inverse m -> inverse (bm_erase_backward v m) /\ forall v', mfind v' (bwd (bm_erase_backward v m)) = if v =? v' then None else mfind v' (bwd m).
Proof.
  intros (W1 & W2 & H). unfold bm_erase_backward. destruct (mfind v (bwd m)) as [k|] eqn:E.
  - split; [|intro v'; apply mfind_erase]. split; [now apply merase_wf|]. split; [now apply merase_wf|]. cbn. intros k' v'. rewrite !mfind_erase.
    destruct (k =? k') eqn:Ek, (v =? v') eqn:Ev; [split; discriminate| | |apply H].
    + split; [discriminate|]. intro H'. apply H in H', E. replace k' with k in H' by lia. rewrite E in H'. injection H' as H'. lia.
    + split; [|discriminate]. intro H'. apply H in H'. replace v' with v in H' by lia. rewrite E in H'. injection H' as H'. lia.
  - split; [now split|]. intro v'. destruct (v =? v') eqn:Ev; [|reflexivity]. now replace v' with v by lia.
Qed.
(* the four cases of insert from a consistent state *)
Lemma bm_insert_ok k v m : inverse m ->
  match mfind k (fwd m) with
  | Some v' => if v' =? v then bm_insert k v m = Ok m else bm_insert k v m = UB
  | None => exists m', bm_insert k v m = Ok m' /\ (forall k', mfind k' (fwd m') = if k =? k' then Some v else mfind k' (fwd m)) /\
      match mfind v (bwd m) with None => inverse m' | Some k0 => ~ inverse m' /\ mfind v (bwd m') = Some k0 end
  end.
Proof.
  intros I. assert (I0 := I). destruct I as (W1 & W2 & H). unfold bm_insert. destruct (mfind k (fwd m)) as [v'|] eqn:E.
  - destruct (v' =? v) eqn:Ev; [reflexivity|]. unfold bm_erase_backward. assert (E' := E). apply H in E'. rewrite E'. cbn [fwd]. rewrite mfind_erase, Z.eqb_refl. reflexivity.
  - eexists. split; [reflexivity|]. cbn. unfold memplace. rewrite E. split; [intro; apply mfind_set|]. destruct (mfind v (bwd m)) as [k0|] eqn:Eb.
    + split; [|assumption]. intros (_ & _ & H'). cbn in H'. specialize (H' k v). rewrite mfind_set, Z.eqb_refl, Eb in H'. destruct H' as [H' _]. specialize (H' eq_refl).
      injection H' as ->. apply H in Eb. congruence.
    + split; [now apply mset_wf|]. split; [now apply mset_wf|]. cbn. intros k' v'. rewrite !mfind_set. destruct (k =? k') eqn:Ek, (v =? v') eqn:Ev.
      * split; intro; f_equal; lia.
      * split; [intro H'; injection H' as H'; lia|]. intro H'. apply H in H'. replace k' with k in H' by lia. congruence.
      * split; [|intro H'; injection H' as H'; lia]. intro H'. apply H in H'. replace v' with v in H' by lia. congruence.
      * apply H.
Qed.
Inductive bop := BIns (k v : Z) | BErase (k : Z) | BEraseB (v : Z).
Definition bstep (o : bop) (m : bmap) : res bmap :=
  match o with BIns k v => bm_insert k v m | BErase k => Ok (bm_erase k m) | BEraseB v => Ok (bm_erase_backward v m) end.
(* the set of pairs a history is meant to leave, and histories whose insertions repeat a stored pair or use
   a new key and a new value *)
Definition bspec (o : bop) (R : list (Z * Z)) : list (Z * Z) :=
  match o with
  | BIns k v => (k, v) :: R
  | BErase k => filter (fun p => negb (fst p =? k)) R
  | BEraseB v => filter (fun p => negb (snd p =? v)) R
  end.
Fixpoint fresh_history (ops : list bop) (R : list (Z * Z)) : Prop :=
  match ops with
  | [] => True
  | o :: ops' => match o with BIns k v => In (k, v) R \/ (forall p, In p R -> fst p <> k /\ snd p <> v) | _ => True end /\
                 fresh_history ops' (bspec o R)
  end.
Definition bagree (m : bmap) (R : list (Z * Z)) : Prop := inverse m /\ forall k v, mfind k (fwd m) = Some v <-> In (k, v) R.
Lemma brun_ok ops : forall m R, bagree m R -> fresh_history ops R ->
  exists m', foldM bstep ops m = Ok m' /\ bagree m' (fold_left (fun R o => bspec o R) ops R).
Proof.
  induction ops as [|o ops IH]; intros m R [I A] F; [exists m; split; [reflexivity|split; assumption]|]. destruct F as [F1 F2].
  assert (Q : exists m1, bstep o m = Ok m1 /\ bagree m1 (bspec o R)).
  { destruct o as [k v|k|v]; cbn [bstep bspec] in *.
    - pose proof (bm_insert_ok k v m I) as B. destruct F1 as [F1|F1].
      + assert (E := F1). apply A in E. rewrite E, Z.eqb_refl in B. exists m. split; [assumption|]. split; [assumption|].
        intros k' v'. rewrite A. cbn. split; [auto|intros [E'|H]; [now rewrite <- E'|exact H]].
      + assert (E : mfind k (fwd m) = None) by (destruct (mfind k (fwd m)) as [w|] eqn:E; [apply A, F1 in E; cbn in E; lia|reflexivity]).
        assert (E3 : mfind v (bwd m) = None).
        { destruct (mfind v (bwd m)) as [k'|] eqn:E3; [|reflexivity]. destruct I as (_ & _ & H). apply H in E3. apply A, F1 in E3. cbn in E3. lia. }
        rewrite E in B. destruct B as (m' & B0 & Bf & B). rewrite E3 in B. exists m'. split; [assumption|]. split; [assumption|].
        intros k' v'. rewrite Bf. cbn. destruct (k =? k') eqn:Ek.
        * split; [intro H; injection H as H; left; f_equal; lia|]. intros [H|H]; [congruence|]. apply F1 in H. cbn in H. lia.
        * rewrite A. split; [auto|intros [H|H]; [injection H; lia|exact H]].
    - eexists. split; [reflexivity|]. destruct (bm_erase_ok k m I) as [I' B]. split; [assumption|]. intros k' v'. rewrite B, filter_In. cbn [fst].
      destruct (k =? k') eqn:Ek; [split; [discriminate|intros [_ H]; lia]|]. rewrite A. split; [intro H; split; [exact H|lia]|now intros []].
    - eexists. split; [reflexivity|]. destruct (bm_erase_backward_ok v m I) as [I' B]. split; [assumption|]. intros k' v'. rewrite filter_In. cbn [snd].
      destruct I' as (_ & _ & H'). rewrite H', B. destruct I as (_ & _ & H).
      destruct (v =? v') eqn:Ek; [split; [discriminate|intros [_ ?]; lia]|]. rewrite <- H, A. split; [intro; split; [assumption|lia]|now intros []]. }
  destruct Q as (m1 & E & I1). cbn [foldM fold_left]. rewrite E. cbn [bind]. now apply IH.
Qed.

(* ---- multivec *)
Definition mvrep (m : mvec) (k : nat) (rows : list (list Z)) : Prop :=
  length m = k /\ Forall (fun r => length r = k) rows /\ forall j, (j < k)%nat -> nth j m [] = map (fun r => nth j r 0) rows.
Lemma mv_push_ok m k rows t : (0 < k)%nat -> length t = k -> mvrep m k rows -> exists m', mv_push t m = Ok m' /\ mvrep m' k (rows ++ [t]).
Proof.
  intros Hk Ht (L & F & H). unfold mv_push. destruct m as [|v m]; [cbn in L; lia|]. rewrite L, Ht, Nat.eqb_refl. cbn [assrt]. eexists. split; [reflexivity|].
  set (mm := v :: m) in *. split; [rewrite map_length, combine_length; lia|]. split; [apply Forall_app; auto|]. intros j Hj.
  set (f := fun p : list Z * Z => fst p ++ [snd p]).
  rewrite (nth_indep _ [] (f ([], 0))) by (rewrite map_length, combine_length; lia).
  rewrite (map_nth f), combine_nth by lia. unfold f. cbn [fst snd]. rewrite H by assumption. now rewrite map_app.
Qed.
Lemma mv_pushes_ok k ts : (0 < k)%nat -> Forall (fun t => length t = k) ts -> forall m rows, mvrep m k rows ->
  exists m', foldM mv_push ts m = Ok m' /\ mvrep m' k (rows ++ ts).
Proof.
  intros Hk F. induction F as [|t ts Ht F IH]; intros m rows R; [exists m; rewrite app_nil_r; auto|]. cbn [foldM].
  destruct (mv_push_ok m k rows t Hk Ht R) as (m1 & -> & R1). cbn [bind]. destruct (IH _ _ R1) as (m' & -> & R'). exists m'. split; [reflexivity|]. now rewrite <- app_assoc in R'.
Qed.
Lemma mv_new_rep k : mvrep (mv_new k) k [].
Proof. split; [apply repeat_length|]. split; [constructor|]. intros j Hj. cbn. unfold mv_new. apply nth_repeat. Qed.
(* the default-constructed multivec takes its width from the first tuple *)
Lemma mv_first t : mv_push t [] = mv_push t (mv_new (length t)).
Proof. destruct t; reflexivity. Qed.
Lemma mv_get_ok m k rows i : mvrep m k rows -> 0 <= i < zlen rows -> mv_get m i = Ok (nth (Z.to_nat i) rows []).
Proof.
  intros (L & F & H) Hi. unfold zlen in Hi.
  assert (Hr : length (nth (Z.to_nat i) rows []) = k) by (rewrite Forall_forall in F; apply F, nth_In; lia).
  assert (G : forall m' r, length m' = length r -> (forall j, (j < length r)%nat -> nth_error (nth j m' []) (Z.to_nat i) = Some (nth j r 0)) -> mv_get m' i = Ok r).
  { clear -Hi. induction m' as [|v m' IH]; intros [|x r] Hl Hn; cbn in Hl; try discriminate; [reflexivity|]. cbn [mv_get].
    pose proof (Hn 0%nat ltac:(cbn; lia)) as H0. cbn in H0. unfold zget, vget. replace (i <? 0) with false by lia. rewrite H0. cbn [bind].
    rewrite (IH r); [reflexivity|lia|]. intros j Hj. apply (Hn (S j)). cbn. lia. }
  apply G; [lia|]. intros j Hj. rewrite H by lia. rewrite nth_error_map. rewrite (nth_error_nth' rows []) by lia. reflexivity.
Qed.
Lemma mv_mismatch m k rows t : (0 < k)%nat -> length t <> k -> mvrep m k rows -> mv_push t m = Throw.
Proof.
  intros Hk Ht (L & _). unfold mv_push. destruct m as [|v m]; [cbn in L; lia|]. rewrite L. replace (k =? length t)%nat with false by (symmetry; apply Nat.eqb_neq; lia). reflexivity.
Qed.
