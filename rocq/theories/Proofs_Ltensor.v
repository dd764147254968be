(* Proofs_Ltensor.v -- batches and cells of labelled tensors. *)
From Verif Require Import Base BaseFacts Model_Index Model_View Model_Tensor Model_Ltensor Spec_Index Spec_View Spec_Ltensor Proofs_Index Proofs_View Proofs_View2.
Local Open Scope Z_scope.

Lemma chunk_mid {A} (p q r : list A) : vchunk (Z.of_nat (length p)) (Z.of_nat (length q)) (p ++ q ++ r) = Ok q.
Proof.
  unfold vchunk. rewrite !app_length. replace (Z.of_nat (length p) <? 0) with false by lia. replace (Z.of_nat (length q) =? -1) with false by lia. cbv zeta.
  replace (_ || _ || _) with false by (symmetry; rewrite !orb_false_iff, !Z.ltb_ge; lia). rewrite !Nat2Z.id, skipn_app, skipn_all, Nat.sub_diag, skipn_O. cbn [app].
  now rewrite firstn_app, firstn_all, Nat.sub_diag, firstn_O, app_nil_r.
Qed.
Lemma chunk_end {A} (p q : list A) : vchunk (Z.of_nat (length p)) (-1) (p ++ q) = Ok q.
Proof.
  unfold vchunk. rewrite !app_length. replace (Z.of_nat (length p) <? 0) with false by lia. change (-1 =? -1) with true. cbv iota zeta.
  replace (_ || _ || _) with false by (symmetry; rewrite !orb_false_iff, !Z.ltb_ge; lia). rewrite !Nat2Z.id, skipn_app, skipn_all, Nat.sub_diag, skipn_O. cbn [app].
  f_equal. apply firstn_all2. lia.
Qed.
Lemma chunk_begin {A} (p q : list A) : vchunk 0 (Z.of_nat (length p)) (p ++ q) = Ok p.
Proof. exact (chunk_mid [] p q). Qed.

Lemma zget_at {A} (p : list A) a q : zget (p ++ a :: q) (Z.of_nat (length p)) = Ok a.
Proof. unfold zget. replace (Z.of_nat (length p) <? 0) with false by lia. unfold vget. now rewrite Nat2Z.id, nth_error_app2, Nat.sub_diag by lia. Qed.

Lemma lsplit x B g c : lshape x B g c -> exists bs gs cs, vstr (lview x) = bs ++ gs ++ cs /\ length bs = length (olist B) /\ length gs = length g /\ length cs = length c.
Proof.
  intros ((L & _) & D & _). rewrite D, !app_length in L. set (s := vstr (lview x)) in *. exists (firstn (length (olist B)) s), (firstn (length g) (skipn (length (olist B)) s)), (skipn (length g) (skipn (length (olist B)) s)).
  rewrite !firstn_skipn. split; [reflexivity|]. rewrite !firstn_length, !skipn_length. lia.
Qed.

Lemma in_range_app a b da db : length a = length da -> in_range (a ++ b) (da ++ db) <-> in_range a da /\ in_range b db.
Proof.
  unfold in_range. revert da. induction a as [|i a IH]; intros [|d da] L; try discriminate L; cbn.
  - split; [intro H; split; [constructor|exact H]|tauto].
  - injection L as L. split.
    + intro H. inversion H; subst. apply IH in H5 as [P Q]; [|assumption]. split; [now constructor|assumption].
    + intros [P Q]. inversion P; subst. constructor; [assumption|]. now apply IH.
Qed.
Lemma in_range_app_i a b da db : in_range a da -> in_range b db -> in_range (a ++ b) (da ++ db).
Proof. intros P Q. apply in_range_app; [now apply in_range_length|auto]. Qed.
Lemma in_range_app_e ix da db : in_range ix (da ++ db) -> exists a b, ix = a ++ b /\ in_range a da /\ in_range b db.
Proof.
  intro H. pose proof (in_range_length _ _ H) as L. rewrite app_length in L. exists (firstn (length da) ix), (skipn (length da) ix).
  rewrite firstn_skipn. split; [reflexivity|]. apply in_range_app; [rewrite firstn_length; lia|]. now rewrite firstn_skipn.
Qed.
Lemma in_range_cons i ix d ds : in_range (i :: ix) (d :: ds) <-> 0 <= i < d /\ in_range ix ds.
Proof. unfold in_range. split; [intro H; inversion H; auto|intros []; now constructor]. Qed.
Lemma nonneg_app a b : nonneg (a ++ b) <-> nonneg a /\ nonneg b.
Proof. unfold nonneg. apply Forall_app. Qed.

(* a view that fixes a leading part of the index *)
Lemma shows_fix v v' (f : list Z -> list Z) : vwf v -> vwf v' -> vblk v' = vblk v ->
  (forall jx, in_range jx (vdims v') -> in_range (f jx) (vdims v) /\ voff v' + dot (vstr v') jx = voff v + dot (vstr v) (f jx)) ->
  shows v' v f.
Proof.
  intros W W' Eb H jx Hj. destruct (H jx Hj) as [A B]. split; [assumption|]. rewrite !vaddr_in_range by assumption. now rewrite Eb, B.
Qed.

Ltac lsh S := let L := fresh "L" in let N := fresh "N" in destruct S as ((L & N) & ? & ? & ?).

Lemma olist_len x B g c : lshape x B g c -> b2z (batched (llab x)) = Z.of_nat (length (olist B)).
Proof. intros (_ & _ & -> & _). now destruct B. Qed.

Lemma gdims_ok x B g c : lshape x B g c -> gdims x = Ok g.
Proof. intro S. unfold gdims, dl_grid. rewrite (olist_len x B g c S). destruct S as (_ & -> & _ & ->). apply chunk_mid. Qed.
Lemma cdims_ok x B g c : lshape x B g c -> cdims x = Ok c.
Proof. intro S. unfold cdims, dl_cell. rewrite (olist_len x B g c S). destruct S as (_ & -> & _ & ->). rewrite <- Nat2Z.inj_add, <- app_length, app_assoc. apply chunk_end. Qed.
Lemma nbatch_ok x B g c : lshape x B g c -> nbatch x = Ok match B with Some b => b | None => 1 end.
Proof. intros (_ & D & Hb & _). unfold nbatch. rewrite Hb, D. now destruct B. Qed.
Lemma ncdims_ok x B g c : lshape x B g c -> ncdims x = Z.of_nat (length c).
Proof. intro S. unfold ncdims, ndims. rewrite (olist_len x B g c S). destruct S as (_ & -> & _ & ->). rewrite !app_length. lia. Qed.
Lemma nbgdims_ok x B g c : lshape x B g c -> nbgdims x = Z.of_nat (length (olist B ++ g)).
Proof. intro S. unfold nbgdims. rewrite (olist_len x B g c S). destruct S as (_ & _ & _ & ->). rewrite app_length. lia. Qed.
Lemma cdim_ok x B g c i : lshape x B g c -> (i < length c)%nat -> cdim (Z.of_nat i) x = Ok (nth i c 0).
Proof.
  intros S Hi. unfold cdim. rewrite (nbgdims_ok x B g c S). destruct S as (_ & D & _ & _). unfold ndims. rewrite D, !app_length. rewrite app_assoc.
  replace (_ <? _) with true by lia. cbn [assrt]. rewrite zget_nth_ok by (rewrite !app_length; lia). f_equal. rewrite <- app_length, app_nth2 by lia. f_equal. lia.
Qed.
Lemma cstride_ok x B g c i : lshape x B g c -> (i < length c)%nat -> cstride (Z.of_nat i) x = Ok (nth (length (olist B ++ g) + i) (vstr (lview x)) 0).
Proof.
  intros S Hi. unfold cstride. rewrite (nbgdims_ok x B g c S). destruct S as ((L & _) & D & _ & _). unfold ndims. rewrite D, !app_length in *.
  replace (_ <? _) with true by lia. cbn [assrt]. rewrite zget_nth_ok by lia. do 2 f_equal. lia.
Qed.
Lemma gstrides_of x B bs gs cs : batched (llab x) = (match B with Some _ => true | None => false end) -> vstr (lview x) = bs ++ gs ++ cs -> length bs = length (olist B) ->
  narray (llab x) = Z.of_nat (length gs) -> gstrides x = Ok gs /\ cstrides x = Ok cs /\ dl_bcell (llab x) (vstr (lview x)) = Ok (bs ++ cs).
Proof.
  intros Hb E Lb Hg. unfold gstrides, cstrides, dl_grid, dl_cell, dl_bcell. rewrite E, Hb, Hg.
  assert (Eb : b2z match B with Some _ => true | None => false end = Z.of_nat (length bs)) by (rewrite Lb; now destruct B).
  rewrite Eb. split; [apply chunk_mid|]. split; [rewrite <- Nat2Z.inj_add, <- app_length, app_assoc; apply chunk_end|].
  destruct B as [b|]; destruct bs as [|s0 [|? ?]]; try discriminate Lb; cbn [app].
  - replace (1 + Z.of_nat (length gs)) with (Z.of_nat (length (s0 :: gs))) by (cbn [length]; lia). pose proof (chunk_end (s0 :: gs) cs) as Hc. cbn [app] in Hc. rewrite Hc. reflexivity.
  - apply (chunk_end gs cs).
Qed.

Lemma batch_ok x B g c i : lshape x (Some B) g c -> 0 <= i < B ->
  exists y, batch i x = Ok y /\ lshape y None g c /\ shows (lview y) (lview x) (cons i).
Proof.
  intros S Hi. destruct (lsplit _ _ _ _ S) as (bs & gs & cs & E & Lb & Lg & Lc). destruct bs as [|s0 [|? ?]]; try discriminate Lb. cbn [app] in E.
  destruct S as ((L & N) & D & Hb & Hg). cbn [olist app] in D. unfold batch. rewrite Hb, E, D. cbn [assrt].
  change (zget (s0 :: gs ++ cs) 0) with (Ok s0). cbn [bind]. pose proof (chunk_end [B] (g ++ c)) as C1. pose proof (chunk_end [s0] (gs ++ cs)) as C2. cbn [length Z.of_nat Pos.of_succ_nat app] in C1, C2. rewrite C1, C2. cbn [bind].
  eexists. split; [reflexivity|]. rewrite D in N. inversion N; subst.
  assert (W : vwf (View (vblk (lview x)) (voff (lview x) + s0 * i) (g ++ c) (gs ++ cs))) by (split; cbn; [rewrite !app_length; lia|assumption]).
  split; [repeat split; cbn; try assumption; apply W|]. apply shows_fix; [|exact W|reflexivity|]; cbn.
  - split; [rewrite E, D; cbn; rewrite !app_length; lia|rewrite D; assumption].
  - intros jx Hj. rewrite D, E. split; [apply in_range_cons; auto|]. cbn [dot]. lia.
Qed.
Lemma batch_throw x i : batched (llab x) = false -> batch i x = Throw.
Proof. unfold batch. now intros ->. Qed.

Lemma cell_ok x g c ix : lshape x None g c -> in_range ix g ->
  exists y, cell ix x = Ok y /\ lshape y None [] c /\ shows (lview y) (lview x) (app ix).
Proof.
  intros S Hi. destruct (lsplit _ _ _ _ S) as (bs & gs & cs & E & Lb & Lg & Lc). destruct bs as [|? ?]; try discriminate Lb. cbn [app] in E.
  pose proof (cdims_ok _ _ _ _ S) as EC. destruct S as ((L & N) & D & Hb & Hg). cbn [olist app] in D. pose proof (in_range_length _ _ Hi) as Li.
  destruct (gstrides_of x None [] gs cs Hb E eq_refl) as (G1 & G2 & _); [rewrite Hg; now f_equal|].
  unfold cell. rewrite Hb, Hg, Li, Z.eqb_refl, G1, G2, EC. cbn [negb assrt bind]. rewrite offs_dot by congruence. cbn [bind]. eexists. split; [reflexivity|].
  rewrite D, nonneg_app in N. assert (W : vwf (View (vblk (lview x)) (voff (lview x) + dot gs ix) c cs)) by (split; [exact Lc|apply N]).
  split; [repeat split; cbn; try assumption; apply W|]. apply shows_fix; [|exact W|reflexivity|]; cbn.
  - split; [assumption|rewrite D; now apply nonneg_app].
  - intros jx Hj. rewrite D, E. split; [now apply in_range_app_i|]. rewrite dot_app by congruence. lia.
Qed.
Lemma cell_b_ok x B g c b ix : lshape x (Some B) g c -> 0 <= b < B -> in_range ix g ->
  exists y, cell_b b ix x = Ok y /\ lshape y None [] c /\ shows (lview y) (lview x) (fun jx => b :: ix ++ jx).
Proof.
  intros S Hb' Hi. destruct (lsplit _ _ _ _ S) as (bs & gs & cs & E & Lb & Lg & Lc). destruct bs as [|s0 [|? ?]]; try discriminate Lb.
  pose proof (cdims_ok _ _ _ _ S) as EC. pose proof (nbatch_ok _ _ _ _ S) as EN. destruct S as ((L & N) & D & Hb & Hg). cbn [olist app] in D. pose proof (in_range_length _ _ Hi) as Li.
  destruct (gstrides_of x (Some B) [s0] gs cs Hb E eq_refl) as (G1 & G2 & _); [rewrite Hg; now f_equal|]. cbn [app] in E.
  unfold cell_b. rewrite Hb, EN, Hg, Li, Z.eqb_refl, G1, G2, EC. cbn [assrt bind]. replace (b <? B) with true by lia. cbn [assrt]. rewrite E. change (zget (s0 :: gs ++ cs) 0) with (Ok s0). cbn [bind]. rewrite offs_dot by congruence. cbn [bind]. eexists. split; [reflexivity|].
  rewrite D in N. assert (N' : nonneg g /\ nonneg c) by (inversion N; now apply nonneg_app).
  assert (W : vwf (View (vblk (lview x)) (voff (lview x) + s0 * b + dot gs ix) c cs)) by (split; [exact Lc|apply N']).
  split; [repeat split; cbn; try assumption; apply W|]. apply shows_fix; [|exact W|reflexivity|]; cbn.
  - split; [rewrite E, D; cbn; rewrite !app_length; lia|rewrite D; assumption].
  - intros jx Hj. rewrite D, E. split; [apply in_range_cons; split; [assumption|now apply in_range_app_i]|]. cbn [dot]. rewrite dot_app by congruence. lia.
Qed.
Lemma batched_cell_ok x B g c ix : lshape x B g c -> in_range ix g ->
  exists y, batched_cell ix x = Ok y /\ lshape y B [] c /\
    shows (lview y) (lview x) (fun jx => match B with Some _ => hd 0 jx :: ix ++ tl jx | None => ix ++ jx end).
Proof.
  intros S Hi. destruct (lsplit _ _ _ _ S) as (bs & gs & cs & E & Lb & Lg & Lc).
  destruct S as ((L & N) & D & Hb & Hg). pose proof (in_range_length _ _ Hi) as Li.
  destruct (gstrides_of x B bs gs cs Hb E Lb) as (G1 & _ & G3); [rewrite Hg; now f_equal|].
  assert (D3 : dl_bcell (llab x) (vdims (lview x)) = Ok (olist B ++ c)).
  { destruct (gstrides_of (LT (View 0 0 [] (vdims (lview x))) (llab x)) B (olist B) g c Hb D eq_refl Hg) as (_ & _ & Q). exact Q. }
  unfold batched_cell. rewrite Hg, Li, Z.eqb_refl, G1, G3, D3. cbn [assrt bind]. rewrite offs_dot by congruence. cbn [bind]. eexists. split; [reflexivity|].
  rewrite D, !nonneg_app in N. assert (W : vwf (View (vblk (lview x)) (voff (lview x) + dot gs ix) (olist B ++ c) (bs ++ cs))) by (split; cbn; [rewrite !app_length; lia|apply nonneg_app; tauto]).
  split; [repeat split; cbn; try assumption; apply W|]. apply shows_fix; [|exact W|reflexivity|]; cbn.
  - split; [assumption|rewrite D, !nonneg_app; exact N].
  - intros jx Hj. rewrite D, E. destruct B as [b|]; destruct bs as [|s0 [|? ?]]; try discriminate Lb; cbn [olist app] in *.
    + inversion Hj as [|j d jx' ds Hj1 Hj2]; subst. cbn [hd tl]. split; [apply in_range_cons; split; [assumption|now apply in_range_app_i]|]. cbn [dot]. rewrite dot_app by congruence. lia.
    + split; [now apply in_range_app_i|]. rewrite dot_app by congruence. lia.
Qed.

(* ---- traversals ---- *)
Lemma foldM_visits {A Y S} (get : A -> res Y) (l : list A) : (forall a, In a l -> exists y, get a = Ok y) ->
  exists ys, map fst ys = l /\ Forall (fun p => get (fst p) = Ok (snd p)) ys /\
    forall (f : A -> Y -> S -> res S) st, foldM (fun a st => do y <- get a; f a y st) l st = foldM (fun p => f (fst p) (snd p)) ys st.
Proof.
  induction l as [|a l IH]; intro H.
  - exists []. split; [reflexivity|]. split; [constructor|reflexivity].
  - destruct (H a (or_introl eq_refl)) as [y Ey]. destruct IH as (ys & E1 & E2 & E3); [intros; apply H; now right|].
    exists ((a, y) :: ys). cbn. split; [now f_equal|]. split; [now constructor|]. intros f st. rewrite Ey. cbn [bind]. destruct (f a y st); cbn; auto.
Qed.
Lemma foldM_visits_all {A Y} (get : A -> res Y) (l : list A) : (forall a, In a l -> exists y, get a = Ok y) ->
  exists ys, map fst ys = l /\ Forall (fun p => get (fst p) = Ok (snd p)) ys /\
    forall S (f : A -> Y -> S -> res S) st, foldM (fun a st => do y <- get a; f a y st) l st = foldM (fun p => f (fst p) (snd p)) ys st.
Proof.
  induction l as [|a l IH]; intro H.
  - exists []. split; [reflexivity|]. split; [constructor|reflexivity].
  - destruct (H a (or_introl eq_refl)) as [y Ey]. destruct IH as (ys & E1 & E2 & E3); [intros; apply H; now right|].
    exists ((a, y) :: ys). cbn. split; [now f_equal|]. split; [now constructor|]. intros S f st. rewrite Ey. cbn [bind]. destruct (f a y st); cbn; auto.
Qed.

Lemma each_batch_ok x B g c : lshape x (Some B) g c ->
  exists visits, map fst visits = zrange B /\ Forall (fun p => batch (fst p) x = Ok (snd p)) visits /\
    forall S (f : Z -> ltensor -> S -> res S) st, for_each_batch f x st = foldM (fun p => f (fst p) (snd p)) visits st.
Proof.
  intro Sh. destruct (foldM_visits_all (fun b => batch b x) (zrange B)) as (ys & E1 & E2 & E3).
  - intros b Hb. apply in_zrange in Hb. destruct (batch_ok x B g c b Sh Hb) as (y & Ey & _). eauto.
  - exists ys. split; [assumption|]. split; [assumption|]. intros S f st. unfold for_each_batch. rewrite (nbatch_ok _ _ _ _ Sh). cbn [bind]. apply E3.
Qed.
Lemma lshape_nonneg x B g c : lshape x B g c -> nonneg (olist B) /\ nonneg g /\ nonneg c.
Proof. intros ((_ & N) & D & _). now rewrite D, !nonneg_app in N. Qed.
Lemma each_cell_ok x g c : lshape x None g c -> g <> [] ->
  exists visits, map fst visits = all_indices g /\ Forall (fun p => cell (fst p) x = Ok (snd p)) visits /\
    forall S (f : list Z -> ltensor -> S -> res S) st, for_each_cell f x st = foldM (fun p => f (fst p) (snd p)) visits st.
Proof.
  intros Sh Hg. destruct (foldM_visits_all (fun ix => cell ix x) (all_indices g)) as (ys & E1 & E2 & E3).
  - intros ix Hi. apply in_all_indices in Hi. destruct (cell_ok x g c ix Sh Hi) as (y & Ey & _). eauto.
  - exists ys. split; [assumption|]. split; [assumption|]. intros S f st. unfold for_each_cell. rewrite (gdims_ok _ _ _ _ Sh). cbn [bind].
    pose proof Sh as (_ & _ & -> & _). cbn [negb assrt]. rewrite foreach_index_fold; [apply E3|apply (lshape_nonneg _ _ _ _ Sh)|assumption].
Qed.
Lemma foldM_nest {A B S} (f : A -> B -> S -> res S) (l : list A) (k : list B) st :
  foldM (fun a => foldM (f a) k) l st = foldM (fun p => f (fst p) (snd p)) (list_prod l k) st.
Proof.
  revert st. induction l as [|a l IH]; intro st; [reflexivity|]. cbn [foldM list_prod]. rewrite foldM_app, foldM_map. cbn [fst snd].
  destruct (foldM _ k st); cbn [bind]; auto.
Qed.
Lemma each_cell_b_ok x B g c : lshape x (Some B) g c -> g <> [] ->
  exists visits, map fst visits = list_prod (zrange B) (all_indices g) /\ Forall (fun p => cell_b (fst (fst p)) (snd (fst p)) x = Ok (snd p)) visits /\
    forall S (f : Z -> list Z -> ltensor -> S -> res S) st, for_each_cell_b f x st = foldM (fun p => f (fst (fst p)) (snd (fst p)) (snd p)) visits st.
Proof.
  intros Sh Hg. destruct (foldM_visits_all (fun p => cell_b (fst p) (snd p) x) (list_prod (zrange B) (all_indices g))) as (ys & E1 & E2 & E3).
  - intros [b ix] Hi. apply in_prod_iff in Hi as [Hb Hi]. apply in_zrange in Hb. apply in_all_indices in Hi. destruct (cell_b_ok x B g c b ix Sh Hb Hi) as (y & Ey & _). eauto.
  - exists ys. split; [assumption|]. split; [assumption|]. intros S f st. unfold for_each_cell_b. rewrite (nbatch_ok _ _ _ _ Sh). pose proof Sh as (_ & _ & -> & _). cbn [assrt bind].
    specialize (E3 S (fun p => f (fst p) (snd p)) st). cbn beta in E3. rewrite <- E3. rewrite <- (foldM_nest (fun b ix st => do y <- cell_b b ix x; f b ix y st)).
    unfold forZ. apply foldM_ext. intros b s _. rewrite (gdims_ok _ _ _ _ Sh). cbn [bind]. apply foreach_index_fold; [apply (lshape_nonneg _ _ _ _ Sh)|assumption].
Qed.
