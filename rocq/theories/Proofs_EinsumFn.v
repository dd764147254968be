(* Proofs_EinsumFn.v -- reading the strings of RtensorEinsumFn and CtensorEinsumFn. *)
From Verif Require Import Base BaseFacts Model_Index Model_View Model_Tensor Model_Einsum Model_EinsumFn Spec_Index Spec_View Spec_Tensor Spec_Einsum
  Proofs_Index Proofs_View Proofs_Tensor Accum Proofs_Einsum Proofs_Einsum2 Proofs_Einsum3 Proofs_Einsum4 Proofs_Einsum5 Spec_Einsum2 Spec_CView Spec_EinsumFn.
Local Open Scope Z_scope.

Definition xlive (s : list ascii) : list ascii := letters (filter (neb xch) s).
Lemma xlive_plain s : ~ In xch s -> xlive s = letters s.
Proof.
  intro H. unfold xlive. f_equal. induction s as [|a s IH]; [reflexivity|]. cbn. unfold neb at 1. destruct (aeq a xch) eqn:E; cbn.
  - aeqs. subst. exfalso. apply H. now left.
  - f_equal. apply IH. intro K. apply H. now right.
Qed.
Lemma xlive_len s : (length (xlive s) <= length s)%nat.
Proof.
  unfold xlive. pose proof (letters_len (filter (neb xch) s)).
  assert (H0 : forall (l : list ascii) f, (length (filter f l) <= length l)%nat) by (intros l f; induction l as [|x l I]; cbn; [lia|destruct (f x); cbn; lia]).
  specialize (H0 s (neb xch)). lia.
Qed.
Lemma filter_xblank c s : c <> xch -> filter (neb xch) (xblank c s) = filter (neb c) (filter (neb xch) s).
Proof.
  intro N. induction s as [|a s IH]; [reflexivity|]. cbn [xblank map filter]. destruct (aeq a c) eqn:E.
  - aeqs. subst a. unfold neb at 1. rewrite aeq_refl. cbn [negb]. unfold neb at 3. destruct (aeq c xch) eqn:E2; [aeqs; congruence|]. cbn [negb filter].
    unfold neb at 2. rewrite aeq_refl. cbn [negb]. exact IH.
  - destruct (neb xch a) eqn:E2; cbn [filter]; [|exact IH]. replace (neb c a) with true by (unfold neb; now rewrite E). f_equal. exact IH.
Qed.
Lemma xnext_none s : xnext s = None -> xlive s = [].
Proof.
  unfold xlive. induction s as [|a s IH]; [reflexivity|]. cbn [xnext filter]. unfold neb at 1. destruct (aeq a xch); cbn [negb]; [exact IH|discriminate].
Qed.
Lemma xnext_some s c : xnext s = Some c -> c <> xch /\ xlive s = c :: xlive (xblank c s).
Proof.
  intro H. assert (N : c <> xch).
  { induction s as [|a s IH]; [discriminate|]. cbn [xnext] in H. destruct (aeq a xch) eqn:E; [now apply IH|]. aeqs. congruence. }
  split; [exact N|]. unfold xlive. rewrite (filter_xblank c s N).
  assert (exists t, filter (neb xch) s = c :: t) as (t & E).
  { clear N. induction s as [|a s IH]; [discriminate|]. cbn [xnext filter] in H |- *. unfold neb at 1. destruct (aeq a xch); cbn [negb]; [now apply IH|]. injection H as ->. eauto. }
  rewrite E. cbn [filter letters]. replace (neb c c) with false by (unfold neb; now rewrite aeq_refl). now rewrite letters_filter.
Qed.
Lemma occs_xblank c c' s : c' <> c -> c' <> xch -> forall i, occs c' (xblank c s) i = occs c' s i.
Proof.
  intros N N'. induction s as [|a s IH]; intro i; [reflexivity|]. cbn [xblank map occs]. destruct (aeq a c) eqn:E.
  - aeqs. subst a. destruct (aeq xch c') eqn:E1; [aeqs; congruence|]. destruct (aeq c c') eqn:E2; [aeqs; congruence|]. apply IH.
  - destruct (aeq a c'); [f_equal|]; apply IH.
Qed.
Lemma has_xblank c c' s : c' <> c -> c' <> xch -> has c' (xblank c s) = has c' s.
Proof.
  intros N N'. unfold has, xblank. induction s as [|a s IH]; [reflexivity|]. cbn [map existsb]. rewrite IH. f_equal. destruct (aeq a c) eqn:E; [|reflexivity].
  aeqs. subst a. destruct (aeq c' xch) eqn:E1; [aeqs; congruence|]. destruct (aeq c' c) eqn:E2; [aeqs; congruence|reflexivity].
Qed.
Lemma xblank_absent c s : has c s = false -> xblank c s = s.
Proof.
  unfold has, xblank. induction s as [|a s IH]; [reflexivity|]. cbn [map existsb]. rewrite orb_false_iff. intros [E H]. rewrite aeq_sym, E. now rewrite IH.
Qed.
Lemma xlive_in s c : In c (xlive s) <-> In c s /\ c <> xch.
Proof.
  unfold xlive. rewrite in_letters, filter_In. unfold neb. rewrite negb_true_iff. split; intros [H K]; (split; [exact H|]).
  - intros ->. now rewrite aeq_refl in K.
  - now apply aeq_neq.
Qed.
Lemma xlive_xblank c s : c <> xch -> xlive (xblank c s) = filter (neb c) (xlive s).
Proof. intro N. unfold xlive. now rewrite filter_xblank, letters_filter. Qed.
Definition xblanks (L s : list ascii) : list ascii := fold_left (fun s c => xblank c s) L s.
Lemma xlive_xblanks L : forall s, ~ In xch L -> xlive (xblanks L s) = filter (notin L) (xlive s).
Proof.
  induction L as [|a L IH]; intros s H; cbn [xblanks fold_left].
  - induction (xlive s) as [|b l I]; [reflexivity|]. cbn. now f_equal.
  - assert (Na : a <> xch) by (intros ->; apply H; now left).
    change (fold_left _ L (xblank a s)) with (xblanks L (xblank a s)). rewrite IH by (intro K; apply H; now right).
    rewrite xlive_xblank by assumption.
    induction (xlive s) as [|b l I]; [reflexivity|]. cbn. unfold neb at 1, notin at 2, isin. cbn. destruct (aeq b a); cbn.
    + exact I.
    + unfold notin at 1, isin. destruct (existsb (aeq b) L); cbn; [exact I|]. f_equal. exact I.
Qed.
Lemma occs_xblanks L c : c <> xch -> ~ In c L -> forall s i, occs c (xblanks L s) i = occs c s i.
Proof.
  intros N. induction L as [|a L IH]; intros H s i; [reflexivity|]. change (xblanks (a :: L) s) with (xblanks L (xblank a s)).
  rewrite IH by (intro K; apply H; now right). apply occs_xblank; [intros ->; apply H; now left|exact N].
Qed.
Definition kd (xs ys : list ascii) (c : ascii) : bool := isin xs c || isin ys c.
Lemma efn_r_ok fuel : forall rs xs ys F, (length (xlive rs) <= fuel)%nat ->
  efn_r fuel rs xs ys F = Ok (xblanks (xlive rs) xs, xblanks (xlive rs) ys,
    EFn (e_d F ++ map (fun c => (occs c rs 0, occs c xs 0, occs c ys 0)) (filter (kd xs ys) (xlive rs))) (e_s F)
        (e_b F ++ map (fun c => occs c rs 0) (filter (fun c => negb (kd xs ys c)) (xlive rs)))).
Proof.
  induction fuel as [|fuel IH]; intros rs xs ys F Hf.
  - destruct (xlive rs) as [|c l] eqn:E; [|cbn in Hf; lia]. cbn [efn_r]. destruct (xnext rs) as [c|] eqn:En; [apply xnext_some in En as [_ En]; rewrite E in En; discriminate|].
    cbn. rewrite !app_nil_r. now destruct F.
  - cbn [efn_r]. destruct (xnext rs) as [c|] eqn:En; [|rewrite (xnext_none rs En); cbn; rewrite !app_nil_r; now destruct F].
    apply xnext_some in En as [N E]. rewrite E in Hf |- *. cbn [length] in Hf.
    assert (Inn : forall d, In d (xlive (xblank c rs)) -> d <> c /\ d <> xch).
    { intros d Hd. rewrite xlive_xblank in Hd by assumption. apply filter_In in Hd as [Hd K]. split; [|now apply xlive_in in Hd]. intros ->. unfold neb in K. now rewrite aeq_refl in K. }
    cbn [xblanks fold_left filter]. fold (xblanks (xlive (xblank c rs)) (xblank c xs)) (xblanks (xlive (xblank c rs)) (xblank c ys)).
    assert (Ek : negb (has c xs) && negb (has c ys) = negb (kd xs ys c)) by (unfold kd; rewrite !has_isin; now rewrite negb_orb). rewrite Ek.
    assert (Fk : forall xs' ys', (forall d, d <> c -> d <> xch -> has d xs' = has d xs /\ has d ys' = has d ys) ->
      filter (kd xs' ys') (xlive (xblank c rs)) = filter (kd xs ys) (xlive (xblank c rs)) /\
      filter (fun d => negb (kd xs' ys' d)) (xlive (xblank c rs)) = filter (fun d => negb (kd xs ys d)) (xlive (xblank c rs))).
    { intros xs' ys' H. split; apply filter_ext_in; intros d Hd; apply Inn in Hd as [H1 H2]; destruct (H d H1 H2) as [A B]; unfold kd; rewrite !has_isin in A, B; now rewrite A, B. }
    destruct (kd xs ys c) eqn:Ekc; cbn [negb].
    + rewrite IH by lia. cbn [e_d e_s e_b]. destruct (Fk (xblank c xs) (xblank c ys)) as [-> ->]; [intros; split; now apply has_xblank|]. f_equal. f_equal. f_equal.
      * rewrite <- app_assoc. f_equal. cbn [app map]. f_equal. apply map_ext_in. intros d Hd. apply filter_In in Hd as [Hd _]. apply Inn in Hd as [H1 H2]. now rewrite !occs_xblank.
      * f_equal. apply map_ext_in. intros d Hd. apply filter_In in Hd as [Hd _]. apply Inn in Hd as [H1 H2]. now rewrite !occs_xblank.
    + assert (Hx : has c xs = false /\ has c ys = false) by (unfold kd in Ekc; rewrite !has_isin; now apply orb_false_iff in Ekc). destruct Hx as [Hx Hy].
      rewrite IH by lia. cbn [e_d e_s e_b]. rewrite (xblank_absent c xs Hx), (xblank_absent c ys Hy). f_equal. f_equal. f_equal.
      * f_equal. apply map_ext_in. intros d Hd. apply filter_In in Hd as [Hd _]. apply Inn in Hd as [H1 H2]. now rewrite !occs_xblank.
      * rewrite <- app_assoc. f_equal. cbn [app map]. f_equal. apply map_ext_in. intros d Hd. apply filter_In in Hd as [Hd _]. apply Inn in Hd as [H1 H2]. now rewrite !occs_xblank.
Qed.
Lemma efn_x_ok fuel : forall xs ys F, (length (xlive xs) <= fuel)%nat ->
  efn_x fuel xs ys F = Ok (EFn (e_d F) (e_s F ++ map (fun c => (occs c xs 0, occs c ys 0)) (xlive xs)) (e_b F)).
Proof.
  induction fuel as [|fuel IH]; intros xs ys F Hf.
  - destruct (xlive xs) as [|c l] eqn:E; [|cbn in Hf; lia]. cbn [efn_x]. destruct (xnext xs) as [c|] eqn:En; [apply xnext_some in En as [_ En]; rewrite E in En; discriminate|].
    cbn. rewrite !app_nil_r. now destruct F.
  - cbn [efn_x]. destruct (xnext xs) as [c|] eqn:En; [|rewrite (xnext_none xs En); cbn; rewrite !app_nil_r; now destruct F].
    apply xnext_some in En as [N E]. rewrite E in Hf |- *. cbn [length] in Hf. rewrite IH by lia. cbn [e_d e_s e_b]. f_equal. f_equal. rewrite <- app_assoc. f_equal. cbn [app map]. f_equal.
    apply map_ext_in. intros d Hd. rewrite xlive_xblank in Hd by assumption. apply filter_In in Hd as [Hd K]. apply xlive_in in Hd as [_ Hd].
    assert (d <> c) by (intros ->; unfold neb in K; now rewrite aeq_refl in K). now rewrite !occs_xblank.
Qed.
Lemma efn_parse_ok xs ys rs : efn_parse xs ys rs = Ok (EFn (map (fun c => (occ rs c, occ xs c, occ ys c)) (filter (kd xs ys) (xlive rs)))
  (map (fun c => (occ xs c, occ ys c)) (filter (notin (xlive rs)) (xlive xs))) (map (occ rs) (filter (fun c => negb (kd xs ys c)) (xlive rs)))).
Proof.
  unfold efn_parse. assert (Nx : ~ In xch (xlive rs)) by (intro K; now apply xlive_in in K).
  rewrite efn_r_ok by apply xlive_len. cbn [bind e_d e_s e_b]. rewrite efn_x_ok; [|rewrite xlive_xblanks by assumption].
  - cbn [e_d e_s e_b app]. rewrite xlive_xblanks by assumption. f_equal. f_equal.
    + apply map_ext. intro c. now rewrite !occs_occ.
    + apply map_ext_in. intros c Hc. apply filter_In in Hc as [Hc K]. assert (~ In c (xlive rs)) by (intro I; unfold notin in K; rewrite (proj2 (isin_In _ _) I) in K; discriminate).
      apply xlive_in in Hc as [_ Hc]. now rewrite !occs_xblanks, !occs_occ.
    + apply map_ext. intro c. apply occs_occ.
  - assert (H0 : forall (l : list ascii) f, (length (filter f l) <= length l)%nat) by (intros l f; induction l as [|x l I]; cbn; [lia|destruct (f x); cbn; lia]).
    etransitivity; [apply H0|apply xlive_len].
Qed.
