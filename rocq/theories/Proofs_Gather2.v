From Verif Require Import Base BaseFacts Map Model_Index Model_View Model_Tensor Model_Containers Model_Gather Proofs_Tensor Accum Proofs_Gather.
Local Open Scope Z_scope.

Section G.
Context {R : cring}.
Add Ring RrG : (cth R).
Notation memR := (mem (car R)).
Lemma rmw_acc p q (m : memR) : rmw f_add1 p [q] m = do v <- loadA m q; incA p v m.
Proof.
  rewrite rmw_inc. unfold incA, rmw, loadA, load. destruct (m (fst p) (snd p)); destruct (m (fst q) (snd q)); reflexivity.
Qed.
(* value of a cell; 0 if there is none *)
Definition val0 (m : memR) (p : addr) : R := match at_ m p with Some v => v | None => c0 end.
Lemma val0_at (m : memR) p : at_ m p <> None -> at_ m p = Some (val0 m p).
Proof. unfold val0. destruct (at_ m p); congruence. Qed.
(* entry e=(target,source) with a column *)
Definition eks (es : list (Z * Z)) (K : Z) : list ((Z * Z) * Z) := flat_map (fun e => map (pair e) (zrange K)) es.
Definition tg (r : mview) (ek : (Z * Z) * Z) : addr := mcell r (fst (fst ek)) (snd ek).
Definition sr (x : mview) (ek : (Z * Z) * Z) : addr := mcell x (snd (fst ek)) (snd ek).
Lemma in_eks es K ek : In ek (eks es K) <-> In (fst ek) es /\ 0 <= snd ek < K.
Proof.
  unfold eks. rewrite in_flat_map. split.
  - intros (e & He & H). apply in_map_iff in H. destruct H as (k & <- & Hk). apply in_zrange in Hk. auto.
  - intros [H1 H2]. exists (fst ek). split; [assumption|]. apply in_map_iff. exists (snd ek). split; [now destruct ek|now apply in_zrange].
Qed.
Definition gsum (m : memR) (r x : mview) (es : list (Z * Z)) (p : addr) : R := added (tg r) (fun ek => val0 m (sr x ek)) (eks es (n1 r)) p.
Lemma accum_copy_ok {A} (t s : A -> addr) l (m : memR) :
  (forall a, In a l -> at_ m (t a) <> None /\ at_ m (s a) <> None) ->
  (forall a b, In a l -> In b l -> t a <> s b) ->
  exists m', foldM (fun a => rmw f_add1 (t a) [s a]) l m = Ok m' /\ plus_on (added t (fun a => val0 m (s a)) l) m m'.
Proof.
  intros Hal Hd. destruct (accum_ok t (fun a m => loadA m (s a)) (fun a => val0 m (s a)) l m (fun p => exists a, In a l /\ t a = p)) as (m' & E & P).
  - intros a Ha. exists a. auto.
  - intros a Ha. apply Hal. assumption.
  - intros a m' Ha Ag. apply loadA_some. rewrite Ag; [apply val0_at; now apply Hal|]. intros (b & Hb & Eb). now apply (Hd b a Hb Ha).
  - exists m'. split; [|exact P]. rewrite <- E. unfold accum. apply foldM_ext. intros a m0 _. apply rmw_acc.
Qed.
Lemma rows_run r x es (m : memR) : n1 x = n1 r ->
  foldM (fun e => row_add r x (fst e) (snd e)) es m = foldM (fun ek => rmw f_add1 (tg r ek) [sr x ek]) (eks es (n1 r)) m.
Proof.
  intro E. unfold eks. rewrite foldM_flat_map. apply foldM_ext. intros e m0 _. unfold row_add. rewrite E, Z.eqb_refl. cbn [assrt]. unfold forZ. now rewrite foldM_map.
Qed.
Definition gather_pre (m : memR) (r x : mview) (es : list (Z * Z)) : Prop :=
  (forall e k, In e es -> 0 <= k < n1 r -> at_ m (mcell r (fst e) k) <> None /\ at_ m (mcell x (snd e) k) <> None) /\
  (forall e e' k k', In e es -> In e' es -> 0 <= k < n1 r -> 0 <= k' < n1 r -> mcell r (fst e) k <> mcell x (snd e') k').
Lemma rows_ok r x es (m : memR) : n1 x = n1 r -> gather_pre m r x es ->
  exists m', foldM (fun e => row_add r x (fst e) (snd e)) es m = Ok m' /\ plus_on (gsum m r x es) m m'.
Proof.
  intros E [H1 H2]. rewrite rows_run by assumption. apply accum_copy_ok.
  - intros a Ha. apply in_eks in Ha. destruct Ha. now apply H1.
  - intros a b Ha Hb. apply in_eks in Ha, Hb. destruct Ha, Hb. now apply H2.
Qed.
Lemma loop_ok r x p qs (m : memR) : rd p qs -> gather_loop r x p m = foldM (fun e => row_add r x (fst e) (snd e)) (mol_calls qs) m.
Proof.
  intros (Sz & H). rewrite <- (foldM_calls (fun i j => row_add r x i j)). unfold gather_loop. rewrite Sz. apply (forZ_list (0, [])). intros i s' Hi.
  destruct (nth (Z.to_nat i) qs (0, [])) as [h l] eqn:E. destruct (H i h l Hi E) as (A & B & C). rewrite A, B. cbn [bind fst snd].
  apply (forZ_list 0). intros j s1 Hj. rewrite C by assumption. reflexivity.
Qed.
Lemma fixed_ok r x rows (m : memR) : gather_fixed r x (map (fun q => fst q :: snd q) rows) m = foldM (fun e => row_add r x (fst e) (snd e)) (mol_calls rows) m.
Proof. unfold gather_fixed. rewrite foldM_map. rewrite <- (foldM_calls (fun i j => row_add r x i j)). reflexivity. Qed.
Lemma plus_ev (d : addr -> R) m m' p : plus_on d m m' -> d p = c0 -> val0 m' p = val0 m p.
Proof. intros H E. unfold val0. now rewrite (plus_off d m m' p H E). Qed.
(* two lists of entries one after the other *)
Lemma rows_app_pre m r x a b : gather_pre m r x (a ++ b) -> gather_pre m r x a /\ gather_pre m r x b.
Proof.
  intros [H1 H2]. split; (split; [intros; apply H1; try apply in_or_app; auto|intros; apply H2; try apply in_or_app; auto]).
Qed.
Lemma gsum_perm m r x a b p : Permutation a b -> gsum m r x a p = gsum m r x b p.
Proof. intro P. unfold gsum. apply added_perm. unfold eks. now apply Permutation_flat_map. Qed.
Lemma gather_pre_perm m r x a b : Permutation a b -> gather_pre m r x a -> gather_pre m r x b.
Proof.
  intros P [H1 H2]. split; intros; [apply H1|apply H2]; auto; eapply Permutation_in; try (symmetry; eassumption); auto.
Qed.
(* value at a cell of r that belongs to one (row,column) only *)
Lemma gsum_cell m r x es i k : 0 <= k < n1 r ->
  (forall e k', In e es -> 0 <= k' < n1 r -> mcell r (fst e) k' = mcell r i k -> fst e = i /\ k' = k) ->
  gsum m r x es (mcell r i k) = rsum (map (fun e => val0 m (mcell x (snd e) k)) (filter (fun e => fst e =? i) es)).
Proof.
  intros Hk Inj. unfold gsum. rewrite added_if, filter_rsum. unfold eks. rewrite rsum_flat_map. apply rsum_ext. intros e He. rewrite map_map. cbn [fst snd].
  destruct (fst e =? i) eqn:Ei.
  - assert (Ee : fst e = i) by lia. rewrite (rsum_single R _ _ k); [|apply zrange_nodup|now apply in_zrange|].
    + unfold tg, sr. cbn [fst snd]. rewrite Ee, aeqb_refl. reflexivity.
    + intros k' Hk' Nk. apply in_zrange in Hk'. destruct (aeqb _ _) eqn:Ea; [|reflexivity]. exfalso. apply aeqb_eq in Ea. apply Nk. now apply (Inj e k').
  - apply rsum_zero. intros k' Hk'. apply in_zrange in Hk'. destruct (aeqb _ _) eqn:Ea; [|reflexivity]. exfalso. apply aeqb_eq in Ea.
    destruct (Inj e k' He Hk' Ea). lia.
Qed.
Lemma gsum_app m r x a b p : gsum m r x (a ++ b) p = cadd (gsum m r x a p) (gsum m r x b p).
Proof. unfold gsum, eks. rewrite flat_map_app. apply added_app. Qed.
Lemma gsum_nil m r x p : gsum m r x [] p = c0.
Proof. reflexivity. Qed.
Lemma crem_ok a b : b <> 0 -> Z.rem a b = 0 -> crem a b = Ok 0.
Proof. intros H E. unfold crem. replace (b =? 0) with false by lia. now rewrite E. Qed.
Lemma split_one v : split_cols 1 1 v = Ok v.
Proof. unfold split_cols. cbn. rewrite Z.mul_1_r, Z.mul_1_r, !Z.quot_1_r. now destruct v. Qed.
Lemma fixed_all r x fk (m : memR) : foldM (gather_fixed r x) (map (map (fun q => fst q :: snd q)) fk) m =
  foldM (fun e => row_add r x (fst e) (snd e)) (mol_calls (concat fk)) m.
Proof.
  rewrite foldM_map. revert m. induction fk as [|rows fk IH]; intro m; [reflexivity|]. cbn [foldM concat]. unfold mol_calls in *. rewrite flat_map_app, foldM_app.
  rewrite fixed_ok. unfold mol_calls. destruct (foldM _ (flat_map _ rows) m); cbn [bind]; auto.
Qed.
Lemma gather_rows_ok _r _x r x r' x' g qs (m : memR) :
  gfixed g = [] -> rd (garr g) qs -> view2 _r = Ok r -> view2 _x = Ok x ->
  goc g <> 0 -> gic g <> 0 -> Z.rem (n1 r) (goc g) = 0 -> Z.rem (n1 x) (gic g) = 0 ->
  split_cols (goc g) (gocn g) r = Ok r' -> split_cols (gic g) (gicn g) x = Ok x' -> n1 x' = n1 r' ->
  gather_pre m r' x' (mol_calls qs) ->
  exists m', gather_rows _r _x g m = Ok m' /\ plus_on (gsum m r' x' (mol_calls qs)) m m'.
Proof.
  intros F H Er Ex N1 N2 M1 M2 Sr Sx En Pre. unfold gather_rows. rewrite Er, Ex. cbn [bind].
  rewrite (crem_ok _ _ N1 M1), (crem_ok _ _ N2 M2). cbn [bind assrt Z.eqb]. rewrite F. cbn [foldM bind].
  destruct (rows_ok r' x' (mol_calls qs) m En Pre) as (m' & E & P). exists m'. split; [|exact P].
  destruct (ap_size (garr g) =? 0) eqn:Z0.
  - destruct H as (Sz & _). assert (length qs = 0%nat) by lia. destruct qs; [|discriminate]. exact E.
  - rewrite Sr, Sx. cbn [bind]. rewrite En, Z.eqb_refl. cbn [assrt]. now rewrite (loop_ok r' x' _ _ m H).
Qed.
Lemma gather_graded_ok _r _x r x g fk qs (m : memR) :
  gfixed g = map (map (fun q => fst q :: snd q)) fk -> rd (garr g) qs -> view2 _r = Ok r -> view2 _x = Ok x ->
  goc g = 1 -> gic g = 1 -> gocn g = 1 -> gicn g = 1 -> n1 x = n1 r -> gather_pre m r x (mol_calls (concat fk ++ qs)) ->
  exists m', gather_rows _r _x g m = Ok m' /\ plus_on (gsum m r x (mol_calls (concat fk ++ qs))) m m'.
Proof.
  intros F H Er Ex N1 N2 N3 N4 En Pre. unfold gather_rows. rewrite Er, Ex. cbn [bind]. rewrite N1, N2, N3, N4.
  rewrite !crem_ok by (try apply Z.rem_1_r; lia). cbn [bind assrt Z.eqb]. rewrite F, fixed_all, !split_one. cbn [bind]. rewrite En, Z.eqb_refl. cbn [assrt].
  destruct (rows_ok r x _ m En Pre) as (m' & E & P). exists m'. split; [|exact P]. unfold mol_calls in E. rewrite flat_map_app, foldM_app in E. unfold mol_calls.
  destruct (foldM _ (flat_map _ (concat fk)) m) as [m1| |]; cbn [bind] in *; try discriminate.
  destruct (ap_size (garr g) =? 0) eqn:Z0.
  - destruct H as (Sz & _). assert (length qs = 0%nat) by lia. destruct qs; [|discriminate]. exact E.
  - rewrite (loop_ok r x _ _ m1 H). exact E.
Qed.
End G.
