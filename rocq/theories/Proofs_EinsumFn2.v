(* Proofs_EinsumFn2.v -- the classes of letters, and loops adding values that depend on the whole index. *)
From Verif Require Import Base BaseFacts Model_Index Model_View Model_Tensor Model_Einsum Model_EinsumFn Spec_Index Spec_View Spec_Tensor Spec_Einsum
  Proofs_Index Proofs_View Proofs_Tensor Accum Proofs_Einsum Proofs_Einsum2 Proofs_Einsum3 Proofs_Einsum4 Proofs_Einsum5 Spec_Einsum2 Spec_CView Spec_EinsumFn Proofs_EinsumFn.
Local Open Scope Z_scope.

Lemma worded_no s c : worded s -> c = "x"%char \/ c = ","%char \/ c = "-"%char \/ c = "*"%char -> ~ In c s.
Proof. intros H K I. unfold worded in H. rewrite Forall_forall in H. destruct (H c I) as (A & B & C & E). destruct K as [-> |[-> |[-> | ->]]]; congruence. Qed.
Lemma kd_app xs ys c : kd xs ys c = isin (xs ++ ys) c.
Proof. unfold kd, isin. now rewrite existsb_app. Qed.
(* the summed letters in the order of the code *)
Definition xsum (xs rs : list ascii) : list ascii := filter (notin rs) (letters xs).
Definition efn_std (xs ys rs : list ascii) : efn :=
  EFn (map (fun c => (occ rs c, occ xs c, occ ys c)) (carried xs ys rs)) (map (fun c => (occ xs c, occ ys c)) (xsum xs rs)) (map (occ rs) (spread xs ys rs)).
Lemma split3_ok xs ys rs : ~ In "-"%char xs -> ~ In "-"%char ys -> ~ In ","%char xs -> split3 (str2 xs ys rs) = Some (xs, ys, rs).
Proof.
  intros H1 H2 H3. unfold split3, str2. rewrite !app_assoc, <- app_assoc.
  change ((xs ++ [","%char]) ++ ys) with ((xs ++ [","%char]) ++ ys). rewrite cut_arrow_ok.
  - rewrite <- app_assoc. cbn [app]. rewrite cut_comma_ok by assumption. reflexivity.
  - intro K. rewrite !in_app_iff in K. destruct K as [[K|K]|K]; [tauto| |tauto]. cbn in K. destruct K as [K|[]]. discriminate.
Qed.
Lemma rfn_of_ok xs ys rs : worded xs -> worded ys -> worded rs -> rfn_of (str2 xs ys rs) = Ok (efn_std xs ys rs).
Proof.
  intros Wx Wy Wr. unfold rfn_of. rewrite split3_ok by (eapply worded_no; eauto). rewrite efn_parse_ok. unfold efn_std, carried, spread, xsum.
  rewrite !xlive_plain by (eapply worded_no; eauto; unfold xch; auto). rewrite filter_notin_letters.
  rewrite (filter_ext (kd xs ys) (isin (xs ++ ys))) by apply kd_app. rewrite (filter_ext (fun c => negb (kd xs ys c)) (notin (xs ++ ys))) by (intro c; unfold notin; now rewrite kd_app). reflexivity.
Qed.
(* a string whose star has become an x *)
Definition wiped (c : bool) (s : list ascii) : list ascii := if c then s ++ [xch] else s.
Lemma is_conj_ok c s : worded s -> marked c s <> [] -> is_conj (marked c s) = Ok (c, wiped c s).
Proof.
  intros W N. unfold is_conj, marked, wiped in *. destruct c.
  - rewrite rev_app_distr. cbn [rev app]. change (Ascii.eqb "*" "*") with true. cbn [rev]. rewrite rev_involutive. reflexivity.
  - destruct (rev s) as [|a t] eqn:E; [apply (f_equal (@rev ascii)) in E; rewrite rev_involutive in E; cbn in E; congruence|].
    assert (I : In a s) by (apply in_rev; rewrite E; now left). destruct (Ascii.eqb a "*"%char) eqn:Ea; [|reflexivity]. apply Ascii.eqb_eq in Ea. subst a.
    exfalso. revert I. eapply worded_no; eauto.
Qed.
Lemma occs_app c s t : forall i, occs c (s ++ t) i = occs c s i ++ occs c t (i + Z.of_nat (length s)).
Proof.
  induction s as [|a s IH]; intro i; [cbn; f_equal; lia|]. cbn [app occs length]. rewrite IH. replace (i + 1 + Z.of_nat (length s)) with (i + Z.of_nat (S (length s))) by lia. now destruct (aeq a c).
Qed.
Lemma occ_wiped b s c : c <> xch -> occ (wiped b s) c = occ s c.
Proof.
  intro N. rewrite <- !occs_occ. unfold wiped. destruct b; [|reflexivity]. rewrite occs_app. cbn [occs]. destruct (Ascii.eqb xch c) eqn:E; [apply Ascii.eqb_eq in E; congruence|]. apply app_nil_r.
Qed.
Lemma isin_wiped b s c : c <> xch -> isin (wiped b s) c = isin s c.
Proof.
  intro N. unfold wiped. destruct b; [|reflexivity]. unfold isin. rewrite existsb_app. cbn. destruct (Ascii.eqb c xch) eqn:E; [apply Ascii.eqb_eq in E; congruence|]. now rewrite orb_false_r.
Qed.
Lemma xlive_wiped b s : worded s -> xlive (wiped b s) = letters s.
Proof.
  intro W. assert (Nx : ~ In xch s) by (eapply worded_no; eauto; unfold xch; auto). unfold wiped. destruct b; [|now apply xlive_plain].
  unfold xlive. rewrite filter_app. change (filter (neb xch) [xch]) with (@nil ascii). rewrite app_nil_r. now apply xlive_plain.
Qed.
Lemma cfn_of_ok cx cy cr xs ys rs : worded xs -> worded ys -> worded rs -> marked cx xs <> [] -> marked cy ys <> [] -> marked cr rs <> [] ->
  cfn_of (strc cx cy cr xs ys rs) = Ok (efn_std xs ys rs, Some (xorb cr cx, xorb cr cy)).
Proof.
  intros Wx Wy Wr Nx Ny Nr. unfold cfn_of, strc.
  assert (Mk : forall b s c, worded s -> c = ","%char \/ c = "-"%char -> ~ In c (marked b s)).
  { intros b s c W K I. unfold marked in I. destruct b.
    - apply in_app_iff in I as [I|I]; [revert I; eapply worded_no; eauto; tauto|]. destruct I as [I|[]]. subst c. destruct K; discriminate.
    - revert I. eapply worded_no; eauto; tauto. }
  rewrite split3_ok by (apply Mk; auto). rewrite !is_conj_ok by assumption. cbn [bind].
  rewrite efn_parse_ok. cbn [bind]. rewrite !xlive_wiped by assumption.
  assert (NL : forall s c, worded s -> In c (letters s) -> c <> xch).
  { intros s c W I ->. apply (proj1 (in_letters _ _)) in I. revert I. eapply worded_no; eauto; unfold xch; auto. }
  f_equal. f_equal.
  - unfold efn_std, carried, spread, xsum. rewrite filter_notin_letters.
    assert (K : forall c, In c (letters rs) -> kd (wiped cx xs) (wiped cy ys) c = isin (xs ++ ys) c).
    { intros c Hc. rewrite <- kd_app. unfold kd. rewrite !isin_wiped by eauto. reflexivity. }
    rewrite (filter_ext_in (kd (wiped cx xs) (wiped cy ys)) (isin (xs ++ ys))) by exact K.
    rewrite (filter_ext_in (fun c => negb (kd (wiped cx xs) (wiped cy ys) c)) (notin (xs ++ ys))) by (intros c Hc; unfold notin; now rewrite K).
    f_equal; apply map_ext_in; intros c Hc; apply filter_In in Hc as [Hc _]; rewrite !occ_wiped by eauto; reflexivity.
  - destruct cr, cx, cy; reflexivity.
Qed.
(* letters of the strings *)
Lemma letters_app s t : letters (s ++ t) = letters s ++ filter (notin s) (letters t).
Proof.
  induction s as [|a s IH]; cbn [app letters].
  - cbn [app]. induction (letters t) as [|b l I]; [reflexivity|]. cbn. now f_equal.
  - rewrite IH. f_equal. rewrite filter_app. f_equal.
    clear IH. induction (letters t) as [|b l I]; [reflexivity|]. cbn [filter]. assert (E : notin (a :: s) b = negb (Ascii.eqb b a) && notin s b) by (unfold notin, isin; cbn [existsb]; now rewrite negb_orb).
    rewrite E. destruct (notin s b); cbn [filter]; [|now rewrite andb_false_r]. destruct (Ascii.eqb b a); cbn [negb andb]; [exact I|]. f_equal. exact I.
Qed.
Definition y_covered (xs ys rs : list ascii) : Prop := forall c, In c ys -> In c xs \/ In c rs.
Lemma contracted_xsum xs ys rs : y_covered xs ys rs -> contracted xs ys rs = xsum xs rs.
Proof.
  intro H. unfold contracted, xsum. rewrite letters_app, filter_app. replace (filter (notin rs) (filter (notin xs) (letters ys))) with (@nil ascii); [apply app_nil_r|].
  symmetry. assert (K : forall c, In c (letters ys) -> notin xs c && notin rs c = false).
  { intros c Hc. apply (proj1 (in_letters _ _)) in Hc. unfold notin. destruct (H c Hc) as [I|I]; apply isin_In in I; rewrite I; cbn; [reflexivity|apply andb_false_r]. }
  revert K. induction (letters ys) as [|a l IH]; intro K; [reflexivity|]. cbn [filter]. specialize (K a (or_introl eq_refl)) as Ka. specialize (IH (fun c Hc => K c (or_intror Hc))).
  destruct (notin xs a); cbn in Ka; [|exact IH]. cbn [filter]. rewrite Ka. exact IH.
Qed.
Lemma classes xs ys rs : NoDup (carried xs ys rs ++ spread xs ys rs) /\ (forall c, In c (carried xs ys rs ++ spread xs ys rs) <-> In c rs) /\
  NoDup (carried xs ys rs ++ xsum xs rs) /\ (forall c, In c xs -> In c (carried xs ys rs ++ xsum xs rs)) /\
  (y_covered xs ys rs -> forall c, In c ys -> In c (carried xs ys rs ++ xsum xs rs)) /\
  (forall c, In c (carried xs ys rs) -> In c xs \/ In c ys) /\ (forall c, In c (xsum xs rs) -> In c xs /\ ~ In c rs).
Proof.
  assert (A : forall c, In c xs -> In c (carried xs ys rs ++ xsum xs rs)).
  { intros c Hc. apply in_app_iff. unfold carried, xsum. rewrite !filter_In. destruct (isin rs c) eqn:E.
    - left. split; [apply in_letters; now apply isin_In|]. apply isin_In, in_app_iff. now left.
    - right. split; [now apply in_letters|]. unfold notin. now rewrite E. }
  split; [|split; [|split; [|split; [exact A|split; [|split]]]]].
  - apply nodup_app; [apply NoDup_filter, letters_nodup..|]. intros c H K. apply filter_In in H as [_ H], K as [_ K]. unfold notin in K. rewrite H in K. discriminate.
  - intro c. rewrite in_app_iff. unfold carried, spread. rewrite !filter_In. unfold notin. rewrite in_letters. destruct (isin (xs ++ ys) c); cbn; intuition discriminate.
  - apply nodup_app; [apply NoDup_filter, letters_nodup..|]. intros c H K. apply filter_In in H as [H _], K as [_ K]. unfold notin in K. apply (proj1 (in_letters _ _)), isin_In in H. rewrite H in K. discriminate.
  - intros Y c Hc. destruct (Y c Hc) as [I|I]; [now apply A|]. apply in_app_iff. left. apply filter_In. split; [now apply in_letters|]. apply isin_In, in_app_iff. now right.
  - intros c Hc. apply filter_In in Hc as [_ Hc]. apply isin_In, in_app_iff in Hc. exact Hc.
  - intros c Hc. apply filter_In in Hc as [H K]. split; [now apply in_letters|]. intro I. apply isin_In in I. unfold notin in K. rewrite I in K. discriminate.
Qed.
(* loops *)
Lemma nest_all {S} ds : forall (f : list Z -> S -> res S) s, nest ds f s = foldM f (all_indices ds) s.
Proof.
  induction ds as [|d ds IH]; intros f s; cbn [nest]; [symmetry; apply foldM_one|]. rewrite foldM_all_cons. unfold forZ. apply foldM_ext. intros i s' _. apply IH.
Qed.

Section Core.
Context {R : cring}.
Add Ring RrEinFn : (cth R).
Notation memR := (mem (car R)).
Lemma accumV_ok {A B} (ad : A -> B -> addr) (act : A -> memR -> res (B -> R)) (val : A -> B -> R) (bs : list B) (T : addr -> Prop) l : forall m,
  (forall a b, In a l -> In b bs -> T (ad a b)) -> (forall a b, In a l -> In b bs -> at_ m (ad a b) <> None) ->
  (forall a m', In a l -> agree_off T m m' -> act a m' = Ok (val a)) ->
  exists m', foldM (fun a m => do v <- act a m; foldM (fun b m => incA (ad a b) (v b) m) bs m) l m = Ok m' /\
    plus_on (fun p => rsum (map (fun a => rsum (map (fun b => if aeqb (ad a b) p then val a b else c0) bs)) l)) m m'.
Proof.
  induction l as [|a l IH]; intros m HT Hal Hact.
  - exists m. split; [reflexivity|]. cbn. apply (plus_ext (fun _ => c0)); [apply plus_refl|]. intro p. now rewrite rsum_nil.
  - cbn [foldM]. rewrite (Hact a m); [|now left|intros ? ?; reflexivity]. cbn [bind].
    destruct (accum_ok (ad a) (fun b _ => Ok (val a b)) (fun b => val a b) bs m T) as (m1 & E1 & P1).
    { intros b Hb. apply HT; [now left|exact Hb]. }
    { intros b Hb. apply Hal; [now left|exact Hb]. }
    { intros; reflexivity. }
    unfold accum in E1. cbn [bind] in E1. rewrite E1. cbn [bind].
    assert (Off : agree_off T m m1).
    { intros p Hp. apply (plus_off _ _ _ p P1). apply added_off. intros b Hb <-. apply Hp, HT; [now left|exact Hb]. }
    destruct (IH m1) as (m2 & E2 & P2).
    { intros; apply HT; [now right|assumption]. }
    { intros a' b Ha Hb. rewrite (plus_alloc _ _ _ _ P1). apply Hal; [now right|exact Hb]. }
    { intros a' m' Ha Ag. apply Hact; [now right|]. intros p Hp. rewrite Ag by assumption. now apply Off. }
    exists m2. split; [exact E2|]. eapply plus_ext; [exact (plus_trans _ _ _ _ _ P1 P2)|]. intro p. cbn [map]. rewrite rsum_cons, added_if. reflexivity.
Qed.
Definition einloopV (r : view) (rs T B : list ascii) (D : ascii -> Z) (act : list Z -> memR -> res (list Z -> R)) (m : memR) : res memR :=
  foldM (fun t m => do v <- act t m;
    foldM (fun b m => incA (vblk r, voff r + (dot (cs r rs T) t + dot (cs r rs B) b)) (v b) m) (all_indices (map D B)) m) (all_indices (map D T)) m.
Lemma ein_coreV (r : view) (rs T B : list ascii) (D : ascii -> Z) (act : list Z -> memR -> res (list Z -> R)) (g : list Z -> list Z -> R) (m : memR) :
  vdims r = map D rs -> length (vstr r) = length rs -> NoDup (T ++ B) -> (forall c, In c (T ++ B) <-> In c rs) ->
  readable m r -> distinct_cells r ->
  (forall t m', in_range t (map D T) -> agree_off (rcells r) m m' -> act t m' = Ok (g t)) ->
  exists m', einloopV r rs T B D act m = Ok m' /\
    (forall e, fits D e rs -> elem m' r (map e rs) = Some (cadd (elem0 m r (map e rs)) (g (map e T) (map e B)))) /\
    (forall ix, in_range ix (vdims r) -> ~ coherent rs ix -> elem m' r ix = elem m r ix) /\
    untouched m m' r.
Proof.
  intros Hd Hs N HL Hr Hdist Hact.
  assert (Ls : length (vstr r) = length (vdims r)) by (rewrite Hd, map_length; exact Hs).
  set (e0 := fun _ : ascii => 0). set (env := fun t b => over (over e0 B b) T t).
  assert (NT : NoDup T) by now apply nodup_l in N. assert (NB : NoDup B) by now apply nodup_r in N.
  assert (TB : forall c, In c T -> ~ In c B) by (intros c Hc Kc; now apply (nodup_lr T B c)).
  set (ad := fun t b => (vblk r, voff r + (dot (cs r rs T) t + dot (cs r rs B) b))).
  assert (Cell : forall e, cell r (map e rs) = ad (map e T) (map e B)).
  { intro e. unfold cell, ad. f_equal. f_equal. rewrite (dot_cs r rs (T ++ B) e Hs N) by (intros c Hc; now apply HL). unfold cs. apply dot_app_map. }
  assert (Env : forall t b, in_range t (map D T) -> in_range b (map D B) -> map (env t b) T = t /\ map (env t b) B = b /\ fits D (env t b) rs).
  { intros t b Ht Hb. pose proof (in_range_length _ _ Ht) as Lt. pose proof (in_range_length _ _ Hb) as Lb. rewrite map_length in Lt, Lb.
    assert (ET : map (env t b) T = t) by (unfold env; now apply over_map).
    assert (EB : map (env t b) B = b).
    { transitivity (map (over e0 B b) B); [|now apply over_map]. apply map_ext_in. intros c Hc. unfold env. apply over_out. intro K. now apply (TB c). }
    split; [exact ET|]. split; [exact EB|]. intros c Hc. apply HL, in_app_iff in Hc as [Hc|Hc].
    - revert c Hc. apply range_fits. now rewrite ET.
    - revert c Hc. apply range_fits. now rewrite EB. }
  assert (AdCell : forall t b, in_range t (map D T) -> in_range b (map D B) -> ad t b = cell r (map (env t b) rs)).
  { intros t b Ht Hb. destruct (Env t b Ht Hb) as (E1 & E2 & _). rewrite Cell, E1, E2. reflexivity. }
  assert (FR : forall e, fits D e rs -> in_range (map e rs) (vdims r)) by (intros e He; rewrite Hd; now apply fits_range).
  assert (Inj : forall ix jx, in_range ix (vdims r) -> in_range jx (vdims r) -> cell r ix = cell r jx -> ix = jx).
  { intros ix jx Hi Hj E. apply Hdist; try assumption. rewrite !vaddr_cell by assumption. now rewrite E. }
  destruct (accumV_ok ad act g (all_indices (map D B)) (rcells r) (all_indices (map D T)) m) as (m' & E & P).
  { intros t b Ht Hb. apply in_all_indices in Ht, Hb. destruct (Env t b Ht Hb) as (_ & _ & F). exists (map (env t b) rs). split; [now apply FR|now apply AdCell]. }
  { intros t b Ht Hb. apply in_all_indices in Ht, Hb. destruct (Env t b Ht Hb) as (_ & _ & F). rewrite AdCell by assumption.
    rewrite <- elem_cell by (try assumption; now apply FR). apply Hr. now apply FR. }
  { intros t m' Ht Ag. apply in_all_indices in Ht. now apply Hact. }
  exists m'. split; [exact E|]. split; [|split].
  - intros e He. pose proof (FR e He) as Hi. rewrite elem_cell by assumption. unfold elem0. rewrite elem_cell by assumption.
    destruct (at_ m (cell r (map e rs))) as [u|] eqn:Eu; [|exfalso; apply (Hr _ Hi); now rewrite elem_cell].
    rewrite (plus_at _ _ _ _ _ P Eu). f_equal. f_equal.
    assert (HeT : fits D e T) by (intros c Hc; apply He, HL, in_app_iff; now left).
    assert (HeB : fits D e B) by (intros c Hc; apply He, HL, in_app_iff; now right).
    assert (Hit : forall t b, in_range t (map D T) -> in_range b (map D B) -> ad t b = cell r (map e rs) -> t = map e T /\ b = map e B).
    { intros t b Ht Hb Eq. destruct (Env t b Ht Hb) as (E1 & E2 & F). rewrite AdCell in Eq by assumption. apply Inj in Eq; [|now apply FR|assumption].
      assert (X : forall c, In c rs -> env t b c = e c).
      { clear - Eq. revert Eq. induction rs as [|a l IH]; intros Eq c Hc; [destruct Hc|]. cbn in Eq. injection Eq as Ea El. destruct Hc as [->|Hc]; [exact Ea|now apply IH]. }
      split; [rewrite <- E1|rewrite <- E2]; apply map_ext_in; intros c Hc; apply X, HL, in_app_iff; [now left|now right]. }
    rewrite (rsum_single R _ _ (map e T)); [|apply all_indices_nodup|apply in_all_indices; now apply fits_range|].
    + rewrite (rsum_single R _ _ (map e B)); [|apply all_indices_nodup|apply in_all_indices; now apply fits_range|].
      * rewrite <- Cell, aeqb_refl. reflexivity.
      * intros b Hb Nb. apply in_all_indices in Hb. destruct (aeqb _ _) eqn:Ea; [|reflexivity]. apply aeqb_eq in Ea. exfalso. apply Nb.
        now apply (Hit (map e T) b) in Ea; [|now apply fits_range|].
    + intros t Ht Nt. apply in_all_indices in Ht. apply rsum_zero. intros b Hb. apply in_all_indices in Hb. destruct (aeqb _ _) eqn:Ea; [|reflexivity].
      apply aeqb_eq in Ea. exfalso. apply Nt. now apply (Hit t b).
  - intros ix Hi Nc. rewrite !elem_cell by assumption. apply (plus_off _ _ _ _ P). apply rsum_zero. intros t Ht. apply rsum_zero. intros b Hb.
    apply in_all_indices in Ht, Hb. destruct (aeqb _ _) eqn:Ea; [|reflexivity]. apply aeqb_eq in Ea. exfalso. apply Nc. exists (env t b).
    destruct (Env t b Ht Hb) as (_ & _ & F). rewrite AdCell in Ea by assumption. symmetry. apply Inj; [now apply FR|assumption|exact Ea].
  - intros bl a Hno. change (at_ m' (bl, a) = at_ m (bl, a)). apply (plus_off _ _ _ _ P). apply rsum_zero. intros t Ht. apply rsum_zero. intros b Hb.
    apply in_all_indices in Ht, Hb. destruct (aeqb _ _) eqn:Ea; [|reflexivity]. apply aeqb_eq in Ea. exfalso.
    destruct (Env t b Ht Hb) as (_ & _ & F). apply (Hno (map (env t b) rs)); [now apply FR|]. rewrite vaddr_cell by (auto; now apply FR). rewrite <- AdCell by assumption. now rewrite Ea.
Qed.
End Core.
