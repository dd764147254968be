(* CSR element access; map-based sparse matrices. *)
From Coq Require Import ZArith List Bool Lia Permutation.
Import ListNotations.
From Verif Require Import Base BaseFacts Map Model_BG Model_Containers Proofs_Containers Proofs_Containers2 Proofs_Containers4 Model_Sparse Spec_Sparse Proofs_Sparse Proofs_Sparse2 Proofs_Sparse3.
Open Scope Z_scope.

(* ---- CSR element access *)
Definition scan (b : buf) (offs j : Z) : nat -> Z -> res Z :=
  fix go (k : nat) (a : Z) : res Z :=
    match k with
    | O => Throw
    | S k' => do c <- bget b (offs + 2 * a); if c =? j then bget b (offs + 2 * a + 1) else go k' (a + 1)
    end.
Lemma csr_get_scan rc A rows i j : csr_rep A rows -> 0 <= i < zlen rows -> (rc = true -> i < cm A) ->
  exists o, 0 <= o /\ o + 2 * zlen (rowz rows i) <= atail (cpool A) /\ cells (amem (cpool A)) o (flat2 (rowz rows i)) /\
    csr_get rc A i j = scan (amem (cpool A)) o j (Z.to_nat (2 * zlen (rowz rows i))) 0 /\ it_get (adir (cpool A)) i 0 = Ok o.
Proof.
  intros H Hi Hm. destruct (rep_dir A rows i H Hi) as (o & E0 & E1 & Ho & Ht & C & Es & _). exists o. split; [exact Ho|]. split; [exact Ht|]. split; [exact C|]. split; [|exact E0].
  unfold csr_get. destruct H as (En & _). unfold chk. rewrite En. replace (i <? zlen rows) with true by (symmetry; apply Z.ltb_lt; lia). replace (rc && negb true)%bool with false by now destruct rc.
  replace (rc && negb (i <? cm A))%bool with false by (destruct rc; [cbn; specialize (Hm eq_refl); apply Z.ltb_lt in Hm; now rewrite Hm|reflexivity]).
  rewrite Es. unfold assrt. replace (i <? zlen rows) with true by (symmetry; apply Z.ltb_lt; lia). rewrite E0. cbn [bind]. rewrite E1. cbn [bind]. reflexivity.
Qed.
Lemma scan_found b o j v r : cells b o (flat2 r) -> NoDup (map fst r) -> In (j, v) r -> scan b o j (Z.to_nat (2 * zlen r)) 0 = Ok v.
Proof.
  intros C N Hin.
  enough (G : forall s a (k : nat), cells b (o + 2 * a) (flat2 s) -> NoDup (map fst s) -> In (j, v) s -> (length s <= k)%nat -> scan b o j k a = Ok v).
  { apply (G r); [now rewrite Z.add_0_r|exact N|exact Hin|unfold zlen; lia]. }
  clear. induction s as [|p s IH]; intros a k C N Hin Hk; [destruct Hin|]. destruct k as [|k]; [cbn in Hk; lia|]. cbn [scan].
  assert (C0 : cell b (o + 2 * a) = Some (fst p)). { specialize (C 0). rewrite Z.add_0_r in C. apply C. rewrite zlen_flat2. unfold zlen. cbn [length]. lia. }
  assert (C1 : cell b (o + 2 * a + 1) = Some (snd p)). { apply (C 1). rewrite zlen_flat2. unfold zlen. cbn [length]. lia. }
  rewrite (bget_cell _ _ _ C0). cbn [bind]. inversion N as [|? ? Np Ns]; subst. destruct (Z.eqb_spec (fst p) j) as [E|E].
  - rewrite (bget_cell _ _ _ C1). destruct Hin as [-> |Hin]; [reflexivity|]. exfalso. apply Np. rewrite E. apply in_map_iff. now exists (j, v).
  - destruct Hin as [-> |Hin]; [cbn in E; contradiction|]. apply IH; [|exact Ns|exact Hin|cbn in Hk; lia].
    change (flat2 (p :: s)) with ([fst p; snd p] ++ flat2 s) in C. apply cells_app in C as [_ C]. replace (o + 2 * (a + 1)) with (o + 2 * a + zlen [fst p; snd p]) by (change (zlen [fst p; snd p]) with 2; lia). exact C.
Qed.
(* an absent column is never answered by zero for want of an entry: the only way to return is to read a cell
   beyond the row *)
Lemma scan_ok b o j : forall k a w, scan b o j k a = Ok w -> exists q, a <= q < a + Z.of_nat k /\ cell b (o + 2 * q) = Some j /\ cell b (o + 2 * q + 1) = Some w.
Proof.
  induction k as [|k IH]; intros a w E; [discriminate|]. cbn [scan] in E. destruct (cell b (o + 2 * a)) as [c|] eqn:C0; [|rewrite (bget_none _ _ C0) in E; discriminate].
  rewrite (bget_cell _ _ _ C0) in E. cbn [bind] in E. destruct (Z.eqb_spec c j) as [Ec|N].
  - rewrite Ec in C0. exists a. split; [lia|]. split; [exact C0|]. destruct (cell b (o + 2 * a + 1)) as [c1|] eqn:C1; [|rewrite (bget_none _ _ C1) in E; discriminate]. rewrite (bget_cell _ _ _ C1) in E. congruence.
  - destruct (IH (a + 1) w E) as (q & Hq & H0 & H1). exists q. repeat split; try assumption; lia.
Qed.
Lemma row_cell b o r q : cells b o (flat2 r) -> 0 <= q < zlen r -> cell b (o + 2 * q) = Some (fst (nth (Z.to_nat q) r (0, 0))).
Proof. intros C Hq. rewrite C by (rewrite zlen_flat2; lia). f_equal. now apply nth_flat2. Qed.

(* ---- SparseRmatrix *)
Definition srwf (A : srm) : Prop := momwf (slists A) /\ forall i j v, mom_find i j (slists A) = Some v -> i < sn A /\ j < sm A.
Lemma sr_get_find A i j : sr_get A i j = assrt (i <? sn A) (Ok (match mom_find i j (slists A) with Some v => v | None => 0 end)).
Proof. unfold sr_get, mom_find, mom_row. destruct (mfind i (slists A)); reflexivity. Qed.
Lemma sets_ok n m ws : Forall (fun w => fst (fst w) < n /\ snd (fst w) < m) ws -> forall L,
  foldM (fun w A => sr_set (fst (fst w)) (snd (fst w)) (snd w) A) ws (SRM n m L) = Ok (SRM n m (fold_left (fun l w => mom_set (fst (fst w)) (snd (fst w)) (snd w) l) ws L)).
Proof.
  induction 1 as [|w ws [H1 H2] Hw IH]; intro L; [reflexivity|]. cbn [foldM fold_left]. unfold sr_set at 1. cbn [sn sm slists].
  replace (fst (fst w) <? n) with true by (symmetry; now apply Z.ltb_lt). replace (snd (fst w) <? m) with true by (symmetry; now apply Z.ltb_lt). cbn [assrt bind]. apply IH.
Qed.
Lemma sets_run n m ws : Forall (fun w => fst (fst w) < n /\ snd (fst w) < m) ws ->
  foldM (fun w A => sr_set (fst (fst w)) (snd (fst w)) (snd w) A) ws (sr_new n m) = Ok (SRM n m (mom_run ws)).
Proof. intro H. unfold sr_new. rewrite (sets_ok n m ws H). reflexivity. Qed.
Lemma last_write_in i j ws v : last_write i j ws = Some v -> In (i, j, v) ws.
Proof.
  unfold last_write. intro E. match type of E with option_map snd ?o = _ => destruct o as [w|] eqn:F; [|discriminate] end. apply find_some in F as [Hw Hk]. cbn in E. injection E as <-. apply in_rev in Hw.
  apply andb_true_iff in Hk as [H1 H2]. apply Z.eqb_eq in H1, H2. destruct w as [[a b] u]. cbn in *. now subst.
Qed.
Lemma run_srwf n m ws : Forall (fun w => fst (fst w) < n /\ snd (fst w) < m) ws -> srwf (SRM n m (mom_run ws)).
Proof.
  intro H. split; cbn [slists sn sm]; [apply mom_run_wf|]. intros i j v E. rewrite mom_run_find in E. apply last_write_in in E. rewrite Forall_forall in H. apply (H _ E).
Qed.
(* with one write per place, the last write is the only one *)
Lemma last_write_uniq ws i j v : NoDup (map fst ws) -> (last_write i j ws = Some v <-> In (i, j, v) ws).
Proof.
  intro N. split; [apply last_write_in|]. intro H. destruct (last_write i j ws) as [u|] eqn:E.
  - apply last_write_in in E. f_equal. clear - N E H. induction ws as [|w ws IH]; [destruct E|]. inversion N as [|? ? Nw Nws]; subst. destruct E as [-> |E], H as [H|H].
    + congruence. + exfalso. apply Nw. apply in_map_iff. now exists (i, j, v). + subst w. exfalso. apply Nw. apply in_map_iff. now exists (i, j, u). + now apply IH.
  - exfalso. unfold last_write in E. match type of E with option_map snd ?o = _ => destruct o as [w|] eqn:F; [discriminate|] end. pose proof (find_none _ _ F (i, j, v)) as Q. cbn in Q. rewrite !Z.eqb_refl in Q. specialize (Q ltac:(now apply in_rev in H)). discriminate.
Qed.
Lemma sr_transp_ok A : srwf A -> exists T, sr_transp A = Ok T /\ srwf T /\ sn T = sm A /\ sm T = sn A /\ forall i j, mom_find j i (slists T) = mom_find i j (slists A).
Proof.
  intros [W Hr]. unfold sr_transp. set (l := map swap3 (sr_calls A)).
  assert (E : foldM (fun c R => sr_set (snd (fst c)) (fst (fst c)) (snd c) R) (sr_calls A) (sr_new (sm A) (sn A)) = foldM (fun w A => sr_set (fst (fst w)) (snd (fst w)) (snd w) A) l (sr_new (sm A) (sn A))).
  { unfold l. now rewrite foldM_map. }
  rewrite E. assert (F : Forall (fun w => fst (fst w) < sm A /\ snd (fst w) < sn A) l).
  { unfold l. apply Forall_forall. intros w Hw. apply in_map_iff in Hw as ([[i j] v] & <- & Hc). unfold sr_calls in Hc. apply mom_calls_in in Hc; [|exact W]. cbn. destruct (Hr _ _ _ Hc). now split. }
  rewrite (sets_run _ _ _ F). eexists. split; [reflexivity|]. split; [now apply run_srwf|]. split; [reflexivity|]. split; [reflexivity|]. cbn [slists]. intros i j. rewrite mom_run_find.
  assert (N : NoDup (map fst l)) by (unfold l, sr_calls; apply swap_nodup, mom_calls_nodup; exact W).
  destruct (mom_find i j (slists A)) as [v|] eqn:Ef.
  - apply last_write_uniq; [exact N|]. unfold l. apply in_map_iff. exists (i, j, v). split; [reflexivity|]. unfold sr_calls. now apply mom_calls_in.
  - destruct (last_write j i l) as [v|] eqn:El; [|reflexivity]. exfalso. apply last_write_in in El. unfold l in El. apply in_map_iff in El as ([[a b] u] & [= -> -> ->] & Hc). apply mom_calls_in in Hc; [|exact W]. congruence.
Qed.

(* dense conversions *)
Definition pairs (n m : Z) : list (Z * Z) := flat_map (fun i => map (pair i) (zrange m)) (zrange n).
Lemma in_pairs n m i j : In (i, j) (pairs n m) <-> 0 <= i < n /\ 0 <= j < m.
Proof.
  unfold pairs. rewrite in_flat_map. split.
  - intros (a & Ha & H). apply in_map_iff in H as (b & [= -> ->] & Hb). now rewrite !in_zrange in *.
  - intros [Hi Hj]. exists i. split; [now apply in_zrange|]. apply in_map. now apply in_zrange.
Qed.
Lemma pairs_nodup n m : NoDup (pairs n m).
Proof.
  unfold pairs. pose proof (zrange_nodup n) as N. induction (zrange n) as [|i l IH]; [constructor|]. inversion N as [|? ? Ni Nl]; subst. cbn [flat_map]. apply nodup_app2.
  - apply FinFun.Injective_map_NoDup; [|apply zrange_nodup]. intros a b [= ->]. reflexivity.
  - now apply IH.
  - intros (a, b) H1 H2. apply in_map_iff in H1 as (c & [= <- _] & _). apply in_flat_map in H2 as (d & Hd & H2). apply in_map_iff in H2 as (c' & [= -> _] & _). contradiction.
Qed.
Definition sel_writes (g : Z -> Z -> bool) (x : Z -> Z -> Z) (n m : Z) : list write := map (fun p => (p, x (fst p) (snd p))) (filter (fun p => g (fst p) (snd p)) (pairs n m)).
Lemma sel_loops (g : Z -> Z -> bool) x n m R : forZ n (fun i R => forZ m (fun j R => if g i j then sr_set i j (x i j) R else Ok R) R) R =
  foldM (fun w A => sr_set (fst (fst w)) (snd (fst w)) (snd w) A) (sel_writes g x n m) R.
Proof.
  unfold forZ, sel_writes, pairs. rewrite foldM_map. revert R. induction (zrange n) as [|i l IH]; intro R; [reflexivity|]. cbn [foldM flat_map]. rewrite filter_app, foldM_app.
  assert (E : forall js R, foldM (fun j R => if g i j then sr_set i j (x i j) R else Ok R) js R = foldM (fun b A => sr_set (fst b) (snd b) (x (fst b) (snd b)) A) (filter (fun p => g (fst p) (snd p)) (map (pair i) js)) R).
  { induction js as [|j js IHj]; intro R'; [reflexivity|]. cbn [foldM map filter fst snd]. destruct (g i j); cbn [foldM fst snd bind]; [|apply IHj]. destruct (sr_set i j (x i j) R'); cbn [bind]; [apply IHj|reflexivity|reflexivity]. }
  rewrite E. cbn [fst snd]. destruct (foldM (fun b A => sr_set (fst b) (snd b) (x (fst b) (snd b)) A) (filter (fun p => g (fst p) (snd p)) (map (pair i) (zrange m))) R); cbn [bind]; [apply IH|reflexivity|reflexivity].
Qed.
Lemma sel_ok (g : Z -> Z -> bool) x n m : exists A, forZ n (fun i R => forZ m (fun j R => if g i j then sr_set i j (x i j) R else Ok R) R) (sr_new n m) = Ok A /\ srwf A /\ sn A = n /\ sm A = m /\
  (forall i j, mom_find i j (slists A) = if (0 <=? i) && (i <? n) && (0 <=? j) && (j <? m) && g i j then Some (x i j) else None) /\ rows_nonempty (slists A).
Proof.
  assert (F : Forall (fun w => fst (fst w) < n /\ snd (fst w) < m) (sel_writes g x n m)).
  { apply Forall_forall. intros w Hw. unfold sel_writes in Hw. apply in_map_iff in Hw as ((i, j) & <- & Hp). apply filter_In in Hp as [Hp _]. apply in_pairs in Hp. cbn. lia. }
  rewrite sel_loops, (sets_run n m _ F). eexists. split; [reflexivity|]. split; [now apply run_srwf|]. split; [reflexivity|]. split; [reflexivity|]. cbn [slists]. split; [|apply mom_run_ne].
  intros i j. rewrite mom_run_find.
  assert (N : NoDup (map fst (sel_writes g x n m))). { unfold sel_writes. rewrite map_map. cbn. rewrite map_id. apply NoDup_filter, pairs_nodup. }
  destruct ((0 <=? i) && (i <? n) && (0 <=? j) && (j <? m) && g i j) eqn:Eb.
  - apply last_write_uniq; [exact N|]. rewrite !andb_true_iff, !Z.leb_le, !Z.ltb_lt in Eb. unfold sel_writes. apply in_map_iff. exists (i, j). split; [reflexivity|]. apply filter_In. cbn. split; [apply in_pairs; lia|apply Eb].
  - destruct (last_write i j (sel_writes g x n m)) as [v|] eqn:El; [|reflexivity]. exfalso. apply last_write_in in El. unfold sel_writes in El. apply in_map_iff in El as ((a, b) & [= -> -> _] & Hp). apply filter_In in Hp as [Hp Hg]. apply in_pairs in Hp. cbn in Hg.
    rewrite Hg, andb_true_r in Eb. apply (eq_true_false_abs _ (proj2 (andb_true_iff _ _) (conj (proj2 (andb_true_iff _ _) (conj (proj2 (andb_true_iff _ _) (conj (proj2 (Z.leb_le 0 i) ltac:(lia)) (proj2 (Z.ltb_lt i n) ltac:(lia)))) (proj2 (Z.leb_le 0 j) ltac:(lia)))) (proj2 (Z.ltb_lt j m) ltac:(lia)))) Eb).
Qed.
Lemma sr_dense_ok A : srwf A -> (forall i j v, mom_find i j (slists A) = Some v -> 0 <= i /\ 0 <= j) ->
  exists R, sr_dense A = Ok R /\ is_dense R (sn A) (sm A) (fun i j => match mom_find i j (slists A) with Some v => v | None => 0 end).
Proof.
  intros [W Hr] Hn. unfold sr_dense. pose proof (mom_calls_nodup _ W) as N. destruct (dense_fold (sn A) (sm A) (sr_calls A)) as (R & E & E1 & E2 & Hv).
  - apply Forall_forall. intros [[i j] v] Hc. unfold sr_calls in Hc. apply mom_calls_in in Hc; [|exact W]. cbn. destruct (Hr _ _ _ Hc), (Hn _ _ _ Hc). lia.
  - exact N.
  - exists R. split; [exact E|]. split; [exact E1|]. split; [exact E2|]. intros i j Hi Hj. rewrite Hv by assumption. destruct (mom_find i j (slists A)) as [v|] eqn:Ef.
    + apply entry_in; [exact N|]. now apply mom_calls_in.
    + apply entry_absent. intros v Hc. apply mom_calls_in in Hc; [|exact W]. congruence.
Qed.

(* equality *)
Lemma sv_eq_ok a b : mwf a -> (sv_eq a b = true <-> forall k v, mfind k a = Some v -> mfind k b = Some v).
Proof.
  intro W. unfold sv_eq. rewrite forallb_forall. split.
  - intros H k v E. apply mfind_in in E. specialize (H _ E). cbn in H. destruct (mfind k b); [|discriminate]. apply Z.eqb_eq in H. now subst.
  - intros H (k, v) Hp. apply mfind_iff in Hp; [|exact W]. cbn. rewrite (H _ _ Hp). apply Z.eqb_refl.
Qed.
Lemma incl_same {V} (a b : zmap V) : mwf a -> mwf b -> length a = length b -> (forall k v, mfind k a = Some v -> mfind k b = Some v) -> forall k, mfind k a = mfind k b.
Proof.
  intros Wa Wb L H k. destruct (mfind k a) as [v|] eqn:E; [symmetry; now apply H|]. destruct (mfind k b) as [v|] eqn:Eb; [|reflexivity]. exfalso.
  assert (I : incl (map fst b) (map fst a)). { apply NoDup_length_incl; [exact Wa|rewrite !map_length; lia|]. intros q Hq. destruct (mfind q a) as [u|] eqn:Eq; [|now apply mfind_none in Eq]. apply H in Eq. apply mfind_in in Eq. apply in_map_iff. now exists (q, u). }
  apply mfind_none in E. apply E, I. apply mfind_in in Eb. apply in_map_iff. now exists (k, v).
Qed.
Lemma map_eq_ok a b : mwf a -> mwf b -> (map_eq a b = true <-> forall k, mfind k a = mfind k b).
Proof.
  intros Wa Wb. unfold map_eq. rewrite andb_true_iff, Nat.eqb_eq, sv_eq_ok by exact Wa. split.
  - intros [L H]. now apply incl_same.
  - intro H. split; [apply Permutation_length, mfind_ext_perm; assumption|]. intros k v E. now rewrite <- H.
Qed.
Lemma sr_eq_ok a b : momwf (slists a) -> momwf (slists b) ->
  (sr_eq a b = true <-> sn a = sn b /\ sm a = sm b /\ (forall i, mfind i (slists a) = None <-> mfind i (slists b) = None) /\ forall i j, mom_find i j (slists a) = mom_find i j (slists b)).
Proof.
  intros [Wa Ra] [Wb Rb]. unfold sr_eq. rewrite !andb_true_iff, !Z.eqb_eq, Nat.eqb_eq, forallb_forall. split.
  - intros (((En & Em) & L) & H). split; [exact En|]. split; [exact Em|].
    assert (F : forall i r, mfind i (slists a) = Some r -> exists r', mfind i (slists b) = Some r' /\ forall k, mfind k r = mfind k r').
    { intros i r E. pose proof (mfind_in _ _ _ E) as Hin. specialize (H _ Hin). cbn in H. destruct (mfind i (slists b)) as [r'|] eqn:Eb; [|discriminate]. exists r'. split; [reflexivity|]. apply map_eq_ok; [eapply Ra; exact E|eapply Rb; exact Eb|exact H]. }
    assert (K : forall i, mfind i (slists a) = None <-> mfind i (slists b) = None).
    { intro i. split; intro E.
      - destruct (mfind i (slists b)) as [r'|] eqn:Eb; [|reflexivity]. exfalso. assert (I : incl (map fst (slists b)) (map fst (slists a))). { apply NoDup_length_incl; [exact Wa|rewrite !map_length; lia|]. intros q Hq. destruct (mfind q (slists a)) as [u|] eqn:Eq; [|now apply mfind_none in Eq]. destruct (F _ _ Eq) as (r'' & Eq' & _). apply mfind_in in Eq'. apply in_map_iff. now exists (q, r''). }
        apply mfind_none in E. apply E, I. apply mfind_in in Eb. apply in_map_iff. now exists (i, r').
      - destruct (mfind i (slists a)) as [r|] eqn:Ea; [|reflexivity]. destruct (F _ _ Ea) as (r' & E' & _). congruence. }
    split; [exact K|]. intros i j. unfold mom_find, mom_row. destruct (mfind i (slists a)) as [r|] eqn:Ea.
    + destruct (F _ _ Ea) as (r' & -> & E'). apply E'.
    + apply K in Ea. now rewrite Ea.
  - intros (En & Em & K & F). split; [split; [now split|]|].
    + assert (I1 : incl (map fst (slists a)) (map fst (slists b))). { intros q Hq. destruct (mfind q (slists b)) as [u|] eqn:Eq; [apply mfind_in in Eq; apply in_map_iff; now exists (q, u)|]. apply K in Eq. now apply mfind_none in Eq. }
      assert (I2 : incl (map fst (slists b)) (map fst (slists a))). { intros q Hq. destruct (mfind q (slists a)) as [u|] eqn:Eq; [apply mfind_in in Eq; apply in_map_iff; now exists (q, u)|]. apply K in Eq. now apply mfind_none in Eq. }
      pose proof (NoDup_incl_length Wa I1). pose proof (NoDup_incl_length Wb I2). rewrite !map_length in *. lia.
    + intros (i, r) Hin. cbn. apply mfind_iff in Hin; [|exact Wa]. destruct (mfind i (slists b)) as [r'|] eqn:Eb; [|apply K in Eb; congruence]. apply map_eq_ok; [eapply Ra; exact Hin|eapply Rb; exact Eb|].
      intro k. specialize (F i k). unfold mom_find, mom_row in F. now rewrite Hin, Eb in F.
Qed.
