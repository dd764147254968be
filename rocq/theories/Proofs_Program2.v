From Verif Require Import Base BaseFacts Map Model_Index Model_View Model_Tensor Model_Containers Model_Gather Model_Gather2
  Spec_Index Spec_View Spec_Tensor Spec_Gather Proofs_Axes Proofs_Index Proofs_View Proofs_Tensor Proofs_Tensor2 Accum Proofs_Gather Proofs_Gather2 Proofs_Gather3 Proofs_Program.
Local Open Scope Z_scope.
Section S6.
Context {R : cring}.
Add Ring RrP2 : (cth R).
Notation memR := (mem (car R)).
Definition st := Z -> Z -> Z -> R.
Definition ains : Type := (Z * Z) * list (Z * Z).
Definition astep (a : ains) (s : st) : st := fun v => if v =? fst (fst a) then (fun i k => cadd (s v i k) (gathered (snd a) (s (snd (fst a))) i k)) else s v.
Definition asteps (l : list ains) (s : st) : st := fold_left (fun s a => astep a s) l s.
Definition dimN (nk : list (Z * Z)) (v : Z) := fst (nth (Z.to_nat v) nk (0, 0)).
Definition dimK (nk : list (Z * Z)) (v : Z) := snd (nth (Z.to_nat v) nk (0, 0)).
Definition ip (nk : list (Z * Z)) (s t : st) : R := rsum (map (fun v => inner (dimN nk v) (dimK nk v) (s v) (t v)) (zrange (Z.of_nat (length nk)))).
Definition vok (nk : list (Z * Z)) (v : Z) := 0 <= v < Z.of_nat (length nk).
Definition aok (nk : list (Z * Z)) (a : ains) : Prop :=
  let '((o, i), es) := a in vok nk o /\ vok nk i /\ o <> i /\ dimK nk o = dimK nk i /\ within (dimN nk o) (dimN nk i) es.
Definition ainv (a b : ains) : Prop := fst b = swap (fst a) /\ Permutation (snd b) (map swap (snd a)).
Lemma ip_step nk o i es s t : vok nk o ->
  ip nk (astep ((o, i), es) s) t = cadd (ip nk s t) (inner (dimN nk o) (dimK nk o) (gathered es (s i)) (t o)).
Proof.
  intros Ho. unfold ip. rewrite <- (rsum_zif (fun v => inner (dimN nk v) (dimK nk v) (gathered es (s i)) (t v)) o (Z.of_nat (length nk)) Ho).
  rewrite <- rsum_map_add. apply rsum_ext. intros v Hv. unfold astep. cbn [fst snd]. destruct (v =? o) eqn:E.
  - apply Z.eqb_eq in E. subst. rewrite Z.eqb_refl. rewrite inner_add. reflexivity.
  - replace (o =? v) with false by lia. ring.
Qed.
Lemma ip_comm nk s t : ip nk s t = ip nk t s.
Proof. unfold ip. apply rsum_ext. intros. apply inner_comm. Qed.
Lemma step_adj nk a b s t : aok nk a -> ainv a b -> ip nk (astep a s) t = ip nk s (astep b t).
Proof.
  destruct a as [[o i] es], b as [[o' i'] es']. intros (Ho & Hi & Ne & Ek & W) [Es P]. cbn in Es, P. injection Es as -> ->.
  rewrite ip_step by assumption. rewrite (ip_comm nk s (astep _ t)), ip_step by assumption. rewrite (ip_comm nk t s). f_equal.
  rewrite (adjoint es es' _ (dimN nk i)) by assumption. rewrite Ek. apply inner_comm.
Qed.
Lemma asteps_app l l' s : asteps (l ++ l') s = asteps l' (asteps l s).
Proof. unfold asteps. apply fold_left_app. Qed.
Lemma steps_adj nk l l' : Forall (aok nk) l -> Forall2 ainv l l' -> forall s t, ip nk (asteps l s) t = ip nk s (asteps (rev l') t).
Proof.
  intros F F2. induction F2 as [|a b l l' Hab F2 IH]; intros s t; [reflexivity|]. inversion F as [|? ? Ha Fl]; subst. cbn [rev]. rewrite asteps_app.
  change (asteps (a :: l) s) with (asteps l (astep a s)). rewrite (IH Fl). now apply step_adj.
Qed.
(* running *)
Definition vnth (vs : list view) v := nth (Z.to_nat v) vs (View 0 0 [] []).
Definition vars (m : memR) (vs : list view) (nk : list (Z * Z)) (s : st) : Prop :=
  length vs = length nk /\ forall v, vok nk v -> mat m (vnth vs v) (dimN nk v) (dimK nk v) (s v).
Definition apart (vs : list view) : Prop := forall u v, 0 <= u < Z.of_nat (length vs) -> 0 <= v < Z.of_nat (length vs) ->
  distinct_cells (vnth vs u) /\ (u <> v -> disjoint_views (vnth vs u) (vnth vs v)).
Lemma mat_untouched (m m' : memR) r x N K X : mat m x N K X -> disjoint_views r x -> untouched m m' r -> mat m' x N K X.
Proof.
  intros (D & L & H) Dj U. split; [assumption|]. split; [assumption|]. intros i k Hi Hk. rewrite <- (H i k Hi Hk). unfold elem. destruct (vaddr x [i; k]) as [[b a]| |] eqn:E; auto.
  apply U. intros ix Hix Ec. apply (Dj ix [i; k]); auto; [rewrite D; apply range2; auto|congruence].
Qed.
Definition runs (i : instr) (a : ains) : Prop := iout i = fst (fst a) /\ iin i = snd (fst a) /\ one_col (imap i) /\ map_entries (imap i) (snd a).
Lemma run_ok nk vs : apart vs -> forall is l, Forall2 runs is l -> Forall (aok nk) l -> forall (m : memR) s, vars m vs nk s ->
  exists m', foldM (fun i m => assrt (iout i <? Z.of_nat (length nk)) (assrt (iin i <? Z.of_nat (length nk))
          (do r <- zget vs (iout i); do x <- zget vs (iin i); gather_rows r x (imap i) m))) is m = Ok m' /\ vars m' vs nk (asteps l s) /\
     (forall b a, (forall v ix, vok nk v -> in_range ix (vdims (vnth vs v)) -> vaddr (vnth vs v) ix <> Ok (b, a)) -> m' b a = m b a).
Proof.
  intro Ap. induction 1 as [|i [[o j] es] is l (E1 & E2 & Oc & Me) F IH]; intros Fa m s Hv; [exists m; auto|]. cbn [fst snd] in *.
  inversion Fa as [|? ? Ha Fl]; subst. clear Fa. destruct Ha as (Ho & Hj & Ne & Ek & W). destruct Hv as [Lv Hv]. unfold vok in *. cbn [foldM].
  replace (iout i <? _) with true by lia. replace (iin i <? _) with true by lia. cbn [assrt].
  rewrite (zget_some vs (iout i) (View 0 0 [] [])), (zget_some vs (iin i) (View 0 0 [] [])) by lia. cbn [bind]. fold (vnth vs (iout i)) (vnth vs (iin i)).
  assert (Hr := Hv _ Ho). assert (Hx := Hv _ Hj). rewrite <- Ek in Hx.
  destruct (gather_mat m _ _ (imap i) es _ _ _ _ _ Hr Hx) as (m1 & E & M1 & U); auto; [apply (Ap (iout i) (iout i)); lia|apply (Ap (iout i) (iin i)); lia|].
  rewrite E. cbn [bind]. destruct (IH Fl m1 (astep ((iout i, iin i), es) s)) as (m' & E' & V' & U').
  - split; [assumption|]. intros v Hvv. unfold astep. cbn [fst snd]. destruct (v =? iout i) eqn:Ev.
    + apply Z.eqb_eq in Ev. subst v. exact M1.
    + apply (mat_untouched m m1 (vnth vs (iout i))); auto. apply (Ap (iout i) v); unfold vok in *; lia.
  - exists m'. split; [exact E'|]. split; [exact V'|]. intros b a Hno. rewrite U' by assumption. apply U. intros ix Hix. now apply Hno.
Qed.
(* setting up the variables *)
Definition setup (P : tprog) (nc : Z) (output input : view) (l : list (Z * (list Z * Z))) (z : list view * memR) : res (list view * memR) :=
  foldM (fun ib st => let '(vs, m) := st in let '(i, (d, b)) := ib in
        if i =? poutput P then Ok (vs ++ [output], m)
        else if i =? pinput P then Ok (vs ++ [input], m)
        else do dd <- scale_last d nc; Ok (vs ++ [fresh_view b dd], alloc c0 b (asize dd) m)) l z.
Definition vw (P : tprog) (nc : Z) (output input : view) (ib : Z * (list Z * Z)) : view :=
  let '(i, (d, b)) := ib in if i =? poutput P then output else if i =? pinput P then input else fresh_view b [nth 0 d 0; nth 1 d 0 * nc].
Definition mid (P : tprog) (i : Z) := i <> poutput P /\ i <> pinput P.
Lemma setup_ok P nc output input l : (forall i d b, In (i, (d, b)) l -> exists n k, d = [n; k]) -> NoDup (map (fun ib => snd (snd ib)) l) -> forall vs (m : memR),
  exists m', setup P nc output input l (vs, m) = Ok (vs ++ map (vw P nc output input) l, m') /\
   (forall b a, ~ In b (map (fun ib => snd (snd ib)) l) -> m' b a = m b a) /\
   (forall i n k b, In (i, ([n; k], b)) l -> mid P i -> forall a, m' b a = if (0 <=? a) && (a <? asize [n; k * nc]) then Some c0 else None).
Proof.
  intro H. induction l as [|[i [d b]] l IH]; intros N vs m.
  - exists m. cbn. rewrite app_nil_r. split; [reflexivity|]. split; [auto|]. intros ? ? ? ? [].
  - destruct (H i d b (or_introl eq_refl)) as (n & k & ->). cbn [map snd] in N. apply NoDup_cons_iff in N. destruct N as [Nb Nl].
    assert (H' : forall i d b, In (i, (d, b)) l -> exists n k, d = [n; k]) by (intros; eapply H; right; eauto).
    unfold setup. cbn [foldM map vw]. destruct (i =? poutput P) eqn:Eo; [|destruct (i =? pinput P) eqn:Ei]; cbn [bind scale_last rev app nth].
    { destruct (IH H' Nl (vs ++ [output]) m) as (m' & E & U & A). exists m'. rewrite <- app_assoc in E. split; [exact E|]. split.
      - intros b' a Hb. apply U. intro. apply Hb. right. auto.
      - intros i' n' k' b' [Eq|Hin] [M1 M2]; [injection Eq as <- <- <- <-; exfalso; lia|]. eapply A; eauto. split; auto. }
    { destruct (IH H' Nl (vs ++ [input]) m) as (m' & E & U & A). exists m'. rewrite <- app_assoc in E. split; [exact E|]. split.
      - intros b' a Hb. apply U. intro. apply Hb. right. auto.
      - intros i' n' k' b' [Eq|Hin] [M1 M2]; [injection Eq as <- <- <- <-; exfalso; lia|]. eapply A; eauto. split; auto. }
    destruct (IH H' Nl (vs ++ [fresh_view b [n; k * nc]]) (alloc c0 b (asize [n; k * nc]) m)) as (m' & E & U & A).
    exists m'. rewrite <- app_assoc in E. split; [exact E|]. split.
    + intros b' a Hb. rewrite U by (intro; apply Hb; right; auto). apply alloc_other. intro; subst. apply Hb. left. reflexivity.
    + intros i' n' k' b' [Eq|Hin] M a; [|eapply A; eauto]. injection Eq as <- <- <- <-. rewrite U by assumption. unfold alloc. now rewrite Z.eqb_refl.
Qed.
Lemma fresh_zero (m : memR) b n k : 0 <= n -> 0 <= k -> (forall a, m b a = if (0 <=? a) && (a <? asize [n; k]) then Some c0 else None) -> mat m (fresh_view b [n; k]) n k (fun _ _ => c0).
Proof.
  intros Hn Hk H. split; [reflexivity|]. split; [reflexivity|]. intros i j Hi Hj. assert (Hnn : nonneg [n; k]) by (repeat constructor; lia).
  destruct (fresh_inside b _ Hnn) as [Hin _]. destruct (Hin [i; j]) as (a & E & Ha); [apply range2; auto|]. unfold elem. rewrite E, H. now replace ((0 <=? a) && (a <? asize [n; k])) with true by lia.
Qed.
Lemma nth_combine3 {A B} (l : list A) (fr : list B) i a b : 0 <= i < Z.of_nat (length l) -> length fr = length l ->
  nth (Z.to_nat i) (combine (zrange (Z.of_nat (length l))) (combine l fr)) (0, (a, b)) = (i, (nth (Z.to_nat i) l a, nth (Z.to_nat i) fr b)).
Proof.
  intros Hi Lf. assert (Lz : length (zrange (Z.of_nat (length l))) = length l) by (unfold zrange; rewrite map_length, seq_length; lia).
  rewrite combine_nth by (rewrite combine_length; lia). rewrite combine_nth by lia. f_equal.
  unfold zrange. rewrite (nth_indep _ 0 (Z.of_nat 0)) by (rewrite map_length, seq_length; lia). rewrite map_nth, seq_nth by lia. lia.
Qed.
Definition nks (P : tprog) (nc : Z) : list (Z * Z) := map (fun d => (nth 0 d 0, nth 1 d 0 * nc)) (pvars P).
Lemma nks_at P nc v : is_var P v -> dimN (nks P nc) v = var_rows P v /\ dimK (nks P nc) v = var_cols P v * nc.
Proof.
  unfold is_var, dimN, dimK, nks, var_rows, var_cols. intro H. rewrite (nth_indep _ (0, 0) ((fun d : list Z => (nth 0 d 0, nth 1 d 0 * nc)) [])) by (rewrite map_length; lia).
  rewrite (map_nth (fun d : list Z => (nth 0 d 0, nth 1 d 0 * nc))). auto.
Qed.
Lemma disj_blk u v : length (vstr u) = length (vdims u) -> vblk u <> vblk v -> disjoint_views u v.
Proof.
  intros L H ix jx Hu _ E. rewrite vaddr_cell in E by assumption. apply H. symmetry in E. apply vaddr_blk in E. now rewrite <- E.
Qed.
Lemma disj_sym u v : disjoint_views u v -> disjoint_views v u.
Proof. intros H ix jx Hi Hj E. now apply (H jx ix). Qed.
Lemma mat_block (m m' : memR) v N K X : mat m v N K X -> (forall a, m' (vblk v) a = m (vblk v) a) -> mat m' v N K X.
Proof.
  intros (D & L & H) U. split; [assumption|]. split; [assumption|]. intros i k Hi Hk. rewrite <- (H i k Hi Hk). unfold elem.
  destruct (vaddr v [i; k]) as [[b a]| |] eqn:E; auto. apply vaddr_blk in E. cbn in E. subst b. apply U.
Qed.
Definition st0 (P : tprog) (O X : Z -> Z -> R) : st := fun v => if v =? poutput P then O else if v =? pinput P then X else fun _ _ => c0.
Lemma eqlb_refl l : eqlb l l = true.
Proof. unfold eqlb. induction l as [|a l IH]; [reflexivity|]. cbn. now rewrite Z.eqb_refl. Qed.
Definition prog_dims (P : tprog) : Prop := (forall d, In d (pvars P) -> exists n k, d = [n; k] /\ 0 <= n /\ 0 < k) /\
  is_var P (pinput P) /\ is_var P (poutput P) /\ pinput P <> poutput P.
Lemma prog_run P nc fresh out inp (m : memR) O X l : prog_dims P -> 0 <= nc -> storage_ok P fresh out inp ->
  mat m out (var_rows P (poutput P)) (var_cols P (poutput P) * nc) O -> mat m inp (var_rows P (pinput P)) (var_cols P (pinput P) * nc) X ->
  Forall2 runs (pinstrs P) l -> Forall (aok (nks P nc)) l ->
  exists m', tp_run P fresh out inp m = Ok m' /\ mat m' out (var_rows P (poutput P)) (var_cols P (poutput P) * nc) (asteps l (st0 P O X) (poutput P)).
Proof.
  intros (Hd & Vi & Vo & Nio) Hnc (Lf & Nf & Fo & Fi & Do & Di & Doi) Mo Mi Fr Fa.
  assert (Hdim : forall v, is_var P v -> exists n k, nth (Z.to_nat v) (pvars P) [] = [n; k] /\ 0 <= n /\ 0 < k).
  { intros v Hv. apply Hd. apply nth_In. unfold is_var in Hv. lia. }
  destruct (Hdim _ Vi) as (ni & ki & Ei & Hni & Hki). destruct (Hdim _ Vo) as (no & ko & Eo & Hno & Hko).
  assert (Do' := proj1 Mo). assert (Di' := proj1 Mi). unfold var_rows, var_cols in Do', Di'. rewrite Ei in Di'. rewrite Eo in Do'. cbn [nth] in Do', Di'.
  unfold tp_run. unfold is_var in Vi, Vo. rewrite (zget_some _ _ [] Vi), (zget_some _ _ [] Vo). cbn [bind]. rewrite Ei, Eo, Do', Di'. cbn [rev app].
  assert (Ec : (if pfrom_out P then cdiv (ko * nc) ko else cdiv (ki * nc) ki) = Ok nc).
  { destruct (pfrom_out P); unfold cdiv; [replace (ko =? 0) with false by lia|replace (ki =? 0) with false by lia]; rewrite Z.mul_comm, Z.quot_mul by lia; reflexivity. }
  rewrite Ec. cbn [bind scale_last rev app]. rewrite !eqlb_refl. cbn [assrt].
  set (L := combine (zrange (Z.of_nat (length (pvars P)))) (combine (pvars P) fresh)).
  assert (Lz : length (zrange (Z.of_nat (length (pvars P)))) = length (pvars P)) by (unfold zrange; rewrite map_length, seq_length; lia).
  assert (LL : length L = length (pvars P)) by (unfold L; rewrite !combine_length; lia).
  assert (Lat : forall v, is_var P v -> nth (Z.to_nat v) L (0, ([], 0)) = (v, (nth (Z.to_nat v) (pvars P) [], nth (Z.to_nat v) fresh 0))) by (intros v Hv; apply nth_combine3; auto).
  assert (Lsn : map (fun ib => snd (snd ib)) L = fresh).
  { unfold L. rewrite <- map_map. rewrite combine_snd by (rewrite combine_length; lia). apply combine_snd. lia. }
  destruct (setup_ok P nc out inp L) with (vs := @nil view) (m := m) as (m1 & E & U & A).
  - intros i d b Hin. unfold L in Hin. apply in_combine_r, in_combine_l in Hin. destruct (Hd d Hin) as (n & k & -> & _). eauto.
  - now rewrite Lsn.
  - unfold setup in E. fold L. rewrite E. cbn [bind app]. rewrite Lsn in U. set (vs := map (vw P nc out inp) L).
    assert (Lvs : length vs = length (pvars P)) by (unfold vs; now rewrite map_length).
    assert (Vat : forall v, is_var P v -> vnth vs v = vw P nc out inp (v, (nth (Z.to_nat v) (pvars P) [], nth (Z.to_nat v) fresh 0))).
    { intros v Hv. unfold vnth, vs. rewrite (nth_indep _ _ (vw P nc out inp (0, ([], 0)))) by (rewrite map_length; unfold is_var in Hv; lia). now rewrite map_nth, Lat. }
    assert (Inf : forall v, is_var P v -> In (nth (Z.to_nat v) fresh 0) fresh) by (intros v Hv; apply nth_In; unfold is_var in Hv; lia).
    assert (Ap : apart vs).
    { assert (Nb : forall u v, is_var P u -> is_var P v -> u <> v -> nth (Z.to_nat u) fresh 0 <> nth (Z.to_nat v) fresh 0).
      { intros u v Hu Hv Nuv En. unfold is_var in *. apply Nuv. apply Z2Nat.inj; try lia. apply (proj1 (NoDup_nth fresh 0) Nf); lia. }
      assert (Lo : length (vstr out) = length (vdims out)) by (destruct Mo as (-> & -> & _); reflexivity).
      assert (Li : length (vstr inp) = length (vdims inp)) by (destruct Mi as (-> & -> & _); reflexivity).
      intros u v Hu Hv. rewrite Lvs in *. rewrite (Vat u Hu), (Vat v Hv). split.
      - unfold vw. destruct (u =? poutput P); [assumption|]. destruct (u =? pinput P); [assumption|]. destruct (Hdim u Hu) as (n & k & -> & Hn & Hk). cbn [nth].
        apply fresh_inside. repeat constructor; nia.
      - intro Nuv. assert (Iu := Inf u Hu). assert (Iv := Inf v Hv). assert (Nuv' := Nb u v Hu Hv Nuv). unfold vw.
        destruct (u =? poutput P) eqn:E1; destruct (v =? poutput P) eqn:E2; try (exfalso; lia).
        + destruct (v =? pinput P) eqn:E3; [assumption|]. apply disj_blk; [assumption|]. cbn. intro Q. apply Fo. now rewrite Q.
        + destruct (u =? pinput P) eqn:E3; [now apply disj_sym|]. apply disj_sym, disj_blk; [assumption|]. cbn. intro Q. apply Fo. now rewrite Q.
        + destruct (u =? pinput P) eqn:E3; destruct (v =? pinput P) eqn:E4; try (exfalso; lia).
          * apply disj_blk; [assumption|]. cbn. intro Q. apply Fi. now rewrite Q.
          * apply disj_sym, disj_blk; [assumption|]. cbn. intro Q. apply Fi. now rewrite Q.
          * apply disj_blk; [destruct (Hdim u Hu) as (n & k & -> & _); reflexivity|]. exact Nuv'. }
    destruct (run_ok (nks P nc) vs Ap _ _ Fr Fa m1 (st0 P O X)) as (m' & E' & [_ V'] & _).
    + split; [unfold nks; now rewrite map_length|]. intros v Hv. assert (Hv' : is_var P v) by (unfold vok, nks in Hv; rewrite map_length in Hv; exact Hv).
      destruct (nks_at P nc v Hv') as [-> ->]. rewrite (Vat v Hv'). unfold vw, st0. destruct (v =? poutput P) eqn:E1; [|destruct (v =? pinput P) eqn:E2].
      * apply Z.eqb_eq in E1. subst v. apply (mat_block m); auto.
      * apply Z.eqb_eq in E2. subst v. apply (mat_block m); auto.
      * destruct (Hdim v Hv') as (n & k & En & Hn & Hk). unfold var_rows, var_cols. rewrite En. cbn [nth]. apply fresh_zero; [assumption|nia|]. apply (A v).
        -- rewrite <- En, <- (Lat v Hv'). apply nth_In. unfold is_var in Hv'. lia.
        -- split; lia.
    + unfold nks in E'. rewrite map_length in E'. exists m'. split; [exact E'|].
      assert (Hvo : vok (nks P nc) (poutput P)) by (unfold vok, nks; rewrite map_length; assumption).
      specialize (V' _ Hvo). destruct (nks_at P nc _ Vo) as [N1 N2]. rewrite N1, N2, (Vat _ Vo) in V'. unfold vw in V'. rewrite Z.eqb_refl in V'. exact V'.
Qed.
(* the inverse program *)
Lemma prog_abs P nc : prog_ok P -> exists l, Forall2 runs (pinstrs P) l /\ Forall (aok (nks P nc)) l.
Proof.
  intros (Hd & Vi & Vo & Nio & Hi). induction (pinstrs P) as [|i is IH]; [exists []; auto|].
  destruct IH as (l & F1 & F2); [intros j Hj; apply Hi; now right|]. destruct (Hi i (or_introl eq_refl)) as (Io & Ii & Ne & Ek & Oc & Gf & es & Me & W).
  exists (((iout i, iin i), es) :: l). split; constructor; auto; [split; auto|]. destruct (nks_at P nc _ Io) as [N1 K1], (nks_at P nc _ Ii) as [N2 K2].
  unfold aok, vok, nks. rewrite map_length. fold (nks P nc). unfold is_var in *. rewrite N1, N2, K1, K2, Ek. auto 10.
Qed.
Lemma entries_inv g es : gfixed g = [] -> map_entries g es -> exists g' es', make_inv g = Ok g' /\ map_entries g' es' /\ Permutation es' (map swap es) /\ gfixed g' = [] /\
  goc g' = gic g /\ gic g' = goc g /\ gocn g' = gicn g /\ gicn g' = gocn g /\ gout g' = gin g /\ gin g' = gout g.
Proof.
  intros Gf (fk & qs & F & Q & ->). rewrite Gf in F. symmetry in F. apply map_eq_nil in F. subst fk. cbn [concat app].
  destruct (make_inv_ok g qs Q) as (g' & qs' & E & Pg & P & _ & A & B & C & D & C' & D' & F'). exists g', (pairs qs'). split; [assumption|]. split.
  - exists [], qs'. rewrite F'. split; [reflexivity|]. split; [now apply prep_rd|reflexivity].
  - auto 10.
Qed.
Lemma inv_instrs (is : list instr) l : Forall2 runs is l -> (forall i, In i is -> gfixed (imap i) = []) ->
  exists is' l', mapM (fun i => do g <- make_inv (imap i); Ok (Instr (iin i) (iout i) g)) is = Ok is' /\ Forall2 runs is' l' /\ Forall2 ainv l l' /\
    Forall (fun i => gfixed (imap i) = []) is'.
Proof.
  induction 1 as [|i [[o j] es] is l (E1 & E2 & Oc & Me) F IH]; intro Gf; [exists [], []; repeat split; constructor|]. cbn [fst snd] in *.
  destruct IH as (is' & l' & E & R' & A' & G'); [intros k Hk; apply Gf; now right|].
  destruct (entries_inv _ _ (Gf i (or_introl eq_refl)) Me) as (g' & es' & Eg & Me' & P & Gf' & C1 & C2 & C3 & C4 & _).
  exists (Instr (iin i) (iout i) g' :: is'), (((j, o), es') :: l'). cbn [mapM]. rewrite Eg. cbn [bind]. rewrite E. cbn [bind]. split; [reflexivity|].
  destruct Oc as (O1 & O2 & O3 & O4). split; [|split].
  - constructor; auto. split; [exact E2|]. split; [exact E1|]. split; [|exact Me']. unfold one_col. cbn. rewrite C1, C2, C3, C4. auto.
  - constructor; auto. split; [reflexivity|exact P].
  - constructor; auto.
Qed.
Lemma Forall2_rev {A B} (Q : A -> B -> Prop) l l' : Forall2 Q l l' -> Forall2 Q (rev l) (rev l').
Proof. induction 1; [constructor|]. cbn. apply Forall2_app; auto. Qed.
Lemma program_adjoint P nc fresh fresh' out inp gx w (m mb : memR) X W : prog_ok P -> 0 <= nc -> storage_ok P fresh out inp -> storage_ok P fresh' gx w ->
  let no := var_rows P (poutput P) in let ko := var_cols P (poutput P) * nc in let ni := var_rows P (pinput P) in let ki := var_cols P (pinput P) * nc in
  mat m inp ni ki X -> mat m out no ko (fun _ _ => c0) -> mat mb w no ko W -> mat mb gx ni ki (fun _ _ => c0) ->
  exists P' m1 m2 O G, tp_run P fresh out inp m = Ok m1 /\ mat m1 out no ko O /\ tp_inv P = Ok P' /\ tp_run P' fresh' gx w mb = Ok m2 /\ mat m2 gx ni ki G /\
    inner no ko O W = inner ni ki X G.
Proof.
  intros Hp Hnc St St' no ko ni ki Mi Mo Mw Mg. destruct (prog_abs P nc Hp) as (l & Fr & Fa). assert (Hp' := Hp). destruct Hp' as (Hd & Vi & Vo & Nio & Hi).
  destruct (prog_run P nc fresh out inp m _ X l (conj Hd (conj Vi (conj Vo Nio))) Hnc St Mo Mi Fr Fa) as (m1 & E1 & M1).
  destruct (inv_instrs (rev (pinstrs P)) (rev l)) as (is' & l' & E & R' & A' & G').
  { now apply Forall2_rev. } { intros i Hin. apply in_rev in Hin. now apply Hi. }
  set (P' := TProg (pvars P) (poutput P) (pinput P) (negb (pfrom_out P)) is').
  assert (EP : tp_inv P = Ok P') by (unfold tp_inv; now rewrite E).
  assert (Fa' : Forall (aok (nks P' nc)) l').
  { change (nks P' nc) with (nks P nc). assert (Fv := Forall_rev Fa). clear - A' Fv. generalize dependent (rev l). clear l. intros l A' Fv. induction A' as [|a b l l' Hab A' IH]; [constructor|].
    inversion Fv as [|? ? Ha Fl]; subst. constructor; [|auto]. destruct a as [[o i] es], b as [[o' i'] es'], Hab as [Eq Pm]. cbn in Eq, Pm. injection Eq as -> ->.
    destruct Ha as (H1 & H2 & H3 & H4 & H5). split; [assumption|]. split; [assumption|]. split; [congruence|]. split; [congruence|].
    apply (within_perm _ _ _ _ (Permutation_sym Pm)). now apply within_swap. }
  destruct (prog_run P' nc fresh' gx w mb (fun _ _ => c0) W l' (conj Hd (conj Vo (conj Vi (not_eq_sym Nio)))) Hnc St' Mg Mw R' Fa') as (m2 & E2 & M2).
  exists P', m1, m2, (asteps l (st0 P (fun _ _ => c0) X) (poutput P)), (asteps l' (st0 P' (fun _ _ => c0) W) (pinput P)).
  split; [exact E1|]. split; [exact M1|]. split; [exact EP|]. split; [exact E2|]. split; [exact M2|].
  assert (Ip := steps_adj (nks P nc) l (rev l')). rewrite rev_involutive in Ip. specialize (Ip Fa).
  assert (A2 : Forall2 ainv l (rev l')) by (rewrite <- (rev_involutive l); now apply Forall2_rev). specialize (Ip A2 (st0 P (fun _ _ => c0) X) (st0 P' (fun _ _ => c0) W)).
  assert (one : forall v s t, is_var P v -> (forall u, u <> v -> forall i k, t u i k = c0) -> ip (nks P nc) s t = inner (var_rows P v) (var_cols P v * nc) (s v) (t v)).
  { intros v s t Hv Hz. unfold ip. destruct (nks_at P nc v Hv) as [<- <-]. apply (rsum_single R (fun v => inner (dimN (nks P nc) v) (dimK (nks P nc) v) (s v) (t v))).
    - apply zrange_nodup.
    - apply in_zrange. unfold nks. rewrite map_length. exact Hv.
    - intros u _ Nu. rewrite inner_comm. rewrite (inner_ext _ _ _ (fun _ _ => c0) _ (s u)); [apply inner_zero|]. intros. split; [now apply Hz|reflexivity]. }
  rewrite (one (poutput P)) in Ip; [|exact Vo|intros u Nu i k; unfold st0, P'; cbn; destruct (u =? pinput P); [reflexivity|]; now replace (u =? poutput P) with false by lia].
  rewrite ip_comm, (one (pinput P)) in Ip; [|exact Vi|intros u Nu i k; unfold st0; destruct (u =? poutput P); [reflexivity|]; now replace (u =? pinput P) with false by lia].
  rewrite (inner_comm _ _ (asteps l' _ _)) in Ip. unfold no, ko, ni, ki.
  rewrite (inner_ext _ _ _ (asteps l (st0 P (fun _ _ => c0) X) (poutput P)) W (st0 P' (fun _ _ => c0) W (poutput P))).
  - rewrite Ip. apply inner_ext. intros. split; [|reflexivity]. unfold st0. rewrite Z.eqb_refl. now replace (pinput P =? poutput P) with false by lia.
  - intros. split; [reflexivity|]. unfold st0, P'. cbn. rewrite Z.eqb_refl. now replace (poutput P =? pinput P) with false by lia.
Qed.
End S6.
