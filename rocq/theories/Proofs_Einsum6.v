(* Proofs_Einsum6.v -- the shape of the result of einsum calls, and the calls. *)
From Verif Require Import Base BaseFacts Model_Index Model_View Model_Tensor Model_Einsum Spec_Index Spec_View Spec_Tensor Spec_Einsum
  Proofs_Gather Proofs_Index Proofs_View Proofs_Tensor Accum Proofs_Einsum Proofs_Einsum2 Proofs_Einsum3 Proofs_Einsum4 Proofs_Einsum5.
Local Open Scope Z_scope.

(* the vector of dimensions by id: letter c has w c slots *)
Definition slots (w : ascii -> Z) (g : ascii -> Z -> Z) (L : list ascii) : list Z := flat_map (fun c => map (g c) (zrange (w c))) L.
Lemma start_nonneg w L c : (forall a, 0 <= w a) -> 0 <= start w L c.
Proof. intro H. induction L as [|a L IH]; cbn; [lia|]. specialize (H a). destruct (aeq a c); lia. Qed.
Lemma slots_get w g L c j : (forall a, 0 <= w a) -> In c L -> 0 <= j < w c -> zget (slots w g L) (start w L c + j) = Ok (g c j).
Proof.
  intros Hw. induction L as [|a L IH]; [intros []|]. intros Hc Hj. pose proof (Hw a). cbn [slots flat_map start]. fold (slots w g L).
  assert (La : length (map (g a) (zrange (w a))) = Z.to_nat (w a)) by (rewrite map_length, zrange_length by lia; reflexivity).
  unfold zget, vget in *. destruct (aeq a c) eqn:E.
  - aeqs. subst a. cbn [Z.add]. destruct (j <? 0) eqn:Ej; [lia|]. rewrite nth_error_app1 by lia.
    rewrite (map_nth_error (g c) (Z.to_nat j) (zrange (w c)) (d := j)); [reflexivity|]. apply zrange_nth. lia.
  - pose proof (start_nonneg w L c Hw). destruct Hc as [->|Hc]; [now rewrite aeq_refl in E|]. specialize (IH Hc Hj).
    destruct (start w L c + j <? 0) eqn:E1; [lia|]. destruct (w a + start w L c + j <? 0) eqn:E2; [lia|].
    rewrite nth_error_app2 by lia. rewrite La. replace (Z.to_nat (w a + start w L c + j) - Z.to_nat (w a))%nat with (Z.to_nat (start w L c + j)) by lia. exact IH.
Qed.
Lemma slots_len w g L : (forall a, 0 <= w a) -> Z.of_nat (length (slots w g L)) = total w L.
Proof.
  intro H. induction L as [|a L IH]; [reflexivity|]. cbn [slots flat_map]. rewrite app_length, map_length, zrange_length by apply H. specialize (H a). unfold total. cbn [fold_right]. fold (total w L). fold (slots w g L). lia.
Qed.
Lemma slots_ext w g h L : (forall c j, In c L -> 0 <= j < w c -> g c j = h c j) -> slots w g L = slots w h L.
Proof.
  intro H. unfold slots. induction L as [|a L IH]; [reflexivity|]. cbn. f_equal; [|apply IH; intros; apply H; [now right|assumption]].
  apply map_ext_in. intros j Hj. apply in_zrange in Hj. apply H; [now left|assumption].
Qed.
Definition updg (g : ascii -> Z -> Z) (c : ascii) (j v : Z) : ascii -> Z -> Z := fun a i => if aeq a c && (i =? j) then v else g a i.
Lemma set_nth_app1 {A} (v : A) l m k : (k < length l)%nat -> set_nth k v (l ++ m) = set_nth k v l ++ m.
Proof. revert k. induction l as [|a l IH]; intros k H; cbn in H; [lia|]. destruct k; [reflexivity|]. cbn. now rewrite IH by lia. Qed.
Lemma set_nth_app2 {A} (v : A) l m k : set_nth (length l + k) v (l ++ m) = l ++ set_nth k v m.
Proof. induction l as [|a l IH]; [reflexivity|]. cbn. now rewrite IH. Qed.
Lemma set_nth_map_seq (f : nat -> Z) v n : forall k s, (k < n)%nat -> set_nth k v (map f (seq s n)) = map (fun i => if Nat.eqb i (s + k) then v else f i) (seq s n).
Proof.
  induction n as [|n IH]; intros k s H; [lia|]. cbn [seq map]. destruct k as [|k]; cbn [set_nth].
  - rewrite Nat.add_0_r, Nat.eqb_refl. f_equal. apply map_ext_in. intros i Hi. apply in_seq in Hi. destruct (Nat.eqb_spec i s); [lia|reflexivity].
  - destruct (Nat.eqb_spec s (s + S k)); [lia|]. f_equal. rewrite IH by lia. apply map_ext. intro i. now replace (S s + k)%nat with (s + S k)%nat by lia.
Qed.
Lemma set_nth_zrange (f : Z -> Z) v n j : 0 <= j < n -> set_nth (Z.to_nat j) v (map f (zrange n)) = map (fun i => if i =? j then v else f i) (zrange n).
Proof.
  intro H. unfold zrange. rewrite !map_map. rewrite set_nth_map_seq by lia. apply map_ext. intro i. cbn.
  destruct (Nat.eqb_spec i (Z.to_nat j)), (Z.eqb_spec (Z.of_nat i) j); try reflexivity; lia.
Qed.
Lemma slots_set w g L c j v : (forall a, 0 <= w a) -> NoDup L -> In c L -> 0 <= j < w c -> vset (start w L c + j) v (slots w g L) = Ok (slots w (updg g c j v) L).
Proof.
  intros Hw N Hc Hj. pose proof (start_nonneg w L c Hw) as S0.
  assert (K : start w L c + j < total w L).
  { clear N. induction L as [|a L IH]; [destruct Hc|]. unfold total. cbn [fold_right start]. fold (total w L). specialize (Hw a) as Ha.
    assert (0 <= total w L) by (clear - Hw; induction L as [|b L I]; [cbn; lia|]; unfold total; cbn [fold_right]; fold (total w L); specialize (Hw b); lia).
    destruct (aeq a c) eqn:E; [aeqs; subst; lia|]. destruct Hc as [->|Hc]; [now rewrite aeq_refl in E|]. assert (0 <= start w L c) by now apply start_nonneg. specialize (IH Hc H0). lia. }
  unfold vset. rewrite slots_len by assumption. destruct (_ || _) eqn:E; [lia|]. f_equal. clear E K.
  induction L as [|a L IH]; [destruct Hc|]. inversion N; subst. cbn [slots flat_map start]. fold (slots w g L). fold (slots w (updg g c j v) L). specialize (Hw a) as Ha.
  assert (La : length (map (g a) (zrange (w a))) = Z.to_nat (w a)) by (rewrite map_length, zrange_length by lia; reflexivity).
  destruct (aeq a c) eqn:E.
  - aeqs. subst a. rewrite Z.add_0_l, set_nth_app1 by lia. rewrite set_nth_zrange by assumption. f_equal.
    + apply map_ext. intro i. unfold updg. now rewrite aeq_refl.
    + apply slots_ext. intros b i Hb _. unfold updg. destruct (aeq b c) eqn:Eb; [aeqs; subst; contradiction|reflexivity].
  - destruct Hc as [->|Hc]; [now rewrite aeq_refl in E|]. pose proof (start_nonneg w L c Hw).
    replace (Z.to_nat (w a + start w L c + j)) with (length (map (g a) (zrange (w a))) + Z.to_nat (start w L c + j))%nat by lia. rewrite set_nth_app2. f_equal.
    + apply map_ext. intro i. unfold updg. now rewrite E.
    + apply IH; assumption.
Qed.
Lemma nth_map_in {A B} (f : A -> B) l k d d' : (k < length l)%nat -> nth k (map f l) d = f (nth k l d').
Proof. intro H. rewrite (nth_indep _ d (f d')) by now rewrite map_length. apply map_nth. Qed.
Lemma zget_map_nth {A} (f : A -> Z) l i d : 0 <= i < Z.of_nat (length l) -> zget (map f l) i = Ok (f (nth (Z.to_nat i) l d)).
Proof.
  intro H. unfold zget, vget. destruct (i <? 0) eqn:E; [lia|]. rewrite (map_nth_error f _ l (d := nth (Z.to_nat i) l d)); [reflexivity|]. apply nth_error_nth'. lia.
Qed.
(* one pass over the letters of an operand with dimensions dd *)
Definition dstep (w d : ascii -> Z) (L : list ascii) (p : ascii * Z) (Dv : list Z) : res (list Z) :=
  do c <- zget Dv (start w L (fst p) + d (fst p));
  if c =? -1 then vset (start w L (fst p) + d (fst p)) (snd p) Dv else assrt (c =? snd p) (Ok Dv).
Lemma set_dims_fold w d L s dims Dv : length dims = length s ->
  set_dims (map (fun c => start w L c + d c) s) dims Dv = foldM (dstep w d L) (combine s dims) Dv.
Proof.
  intro Hl. unfold set_dims. rewrite map_length. change (foldM ?f (zrange ?n) ?x) with (forZ n f x).
  replace (length s) with (length (combine s dims)) by (rewrite combine_length; lia).
  apply (forZ_list ("_"%char, 0)). intros i Dv' Hi. rewrite combine_length in Hi. rewrite (zget_map_nth _ s i "_"%char) by lia. cbn [bind].
  unfold zget at 1, vget. destruct (i <? 0) eqn:E; [lia|]. rewrite (nth_error_nth' dims 0) by lia. cbn [bind]. rewrite combine_nth by lia. reflexivity.
Qed.
Lemma dsteps_ok w d (L : list ascii) Dd s : (forall a, 0 <= w a) -> (forall c, 0 <= d c < w c) -> NoDup L -> (forall c, In c s -> In c L) -> (forall c, In c s -> Dd c <> -1) ->
  forall g, (forall c, In c s -> g c (d c) = -1 \/ g c (d c) = Dd c) ->
  foldM (dstep w d L) (combine s (map Dd s)) (slots w g L) = Ok (slots w (fun c j => if isin s c && (j =? d c) then Dd c else g c j) L).
Proof.
  intros Hw Hd N HL H1. induction s as [|c s IH]; intros g Hg; [reflexivity|]. cbn [map combine foldM]. unfold dstep at 1. cbn [fst snd].
  assert (Hc : In c L) by (apply HL; now left). rewrite slots_get by auto. cbn [bind].
  assert (St : (if g c (d c) =? -1 then vset (start w L c + d c) (Dd c) (slots w g L) else assrt (g c (d c) =? Dd c) (Ok (slots w g L))) =
               Ok (slots w (updg g c (d c) (Dd c)) L)).
  { destruct (g c (d c) =? -1) eqn:E; [now apply slots_set|]. destruct (Hg c (or_introl eq_refl)) as [K|K]; [lia|]. rewrite K, Z.eqb_refl. cbn. f_equal.
    apply slots_ext. intros a j _ _. unfold updg. destruct (aeq a c && (j =? d c)) eqn:E2; [|reflexivity]. apply andb_true_iff in E2 as [E2 E3]. aeqs. subst a. apply Z.eqb_eq in E3. now subst j. }
  rewrite St. cbn [bind]. rewrite IH.
  - f_equal. apply slots_ext. intros a j _ _. unfold isin. cbn [existsb]. fold (isin s a). unfold updg. destruct (aeq a c) eqn:E; cbn [orb andb].
    + aeqs. subst a. destruct (isin s c); cbn [andb]; destruct (j =? d c); reflexivity.
    + reflexivity.
  - intros; apply HL; now right.
  - intros; apply H1; now right.
  - intros a Ha. unfold updg. destruct (aeq a c) eqn:E; cbn [andb]; [aeqs; subst; rewrite Z.eqb_refl; now right|]. apply Hg. now right.
Qed.
(* inconsistent dimensions *)
Lemma dsteps_bad w d (L : list ascii) s : (forall a, 0 <= w a) -> (forall c, 0 <= d c < w c) -> NoDup L -> (forall c, In c s -> In c L) ->
  forall dims g, length dims = length s -> Forall (fun n => 0 <= n) dims -> (forall c, g c (d c) = -1 \/ 0 <= g c (d c)) ->
  (exists f, dims = map f s /\ (forall c, In c s -> g c (d c) = -1 \/ g c (d c) = f c)) \/ foldM (dstep w d L) (combine s dims) (slots w g L) = Throw.
Proof.
  intros Hw Hd N HL. induction s as [|c s IH]; intros dims g Hl Hn Hg; destruct dims as [|n dims]; try discriminate Hl.
  - left. exists (fun _ => 0). split; [reflexivity|intros ? []].
  - injection Hl as Hl. inversion Hn; subst. cbn [combine foldM]. unfold dstep at 1. cbn [fst snd].
    assert (Hc : In c L) by (apply HL; now left). rewrite slots_get by auto. cbn [bind].
    destruct (Hg c) as [K|K].
    + rewrite K. change (-1 =? -1) with true. cbn [bind]. rewrite slots_set by auto. cbn [bind].
      destruct (IH (fun a Ha => HL a (or_intror Ha)) dims (updg g c (d c) n) Hl H2) as [(f & -> & Hf)|E]; [|left|now right].
      * intro a. unfold updg. destruct (aeq a c) eqn:E; cbn [andb]; [aeqs; subst; rewrite Z.eqb_refl; now right|apply Hg].
      * exists (fun a => if aeq a c then n else f a). split.
        { cbn [map]. rewrite aeq_refl. f_equal. apply map_ext_in. intros a Ha. destruct (aeq a c) eqn:E; [|reflexivity]. aeqs. subst a.
          specialize (Hf c Ha). unfold updg in Hf. rewrite aeq_refl, Z.eqb_refl in Hf. cbn in Hf. lia. }
        { intros a Ha. destruct (aeq a c) eqn:E; [aeqs; subst; now left|]. assert (Ha' : In a s) by (destruct Ha as [->|]; [now rewrite aeq_refl in E|assumption]).
          specialize (Hf a Ha'). unfold updg in Hf. rewrite E in Hf. exact Hf. }
    + destruct (g c (d c) =? -1) eqn:E1; [lia|]. destruct (g c (d c) =? n) eqn:E2; cbn [assrt bind]; [|now right]. apply Z.eqb_eq in E2.
      destruct (IH (fun a Ha => HL a (or_intror Ha)) dims g Hl H2 Hg) as [(f & -> & Hf)|E]; [|now right]. left.
      exists (fun a => if aeq a c then n else f a). split.
      * cbn [map]. rewrite aeq_refl. f_equal. apply map_ext_in. intros a Ha. destruct (aeq a c) eqn:E; [|reflexivity]. aeqs. subst a. destruct (Hf c Ha); lia.
      * intros a Ha. destruct (aeq a c) eqn:E; [aeqs; subst; right; reflexivity|]. apply Hf. destruct Ha as [->|]; [now rewrite aeq_refl in E|assumption].
Qed.
(* the given dimensions of broadcast letters *)
Lemma set_bc w (L Bl : list ascii) Dd : (forall a, 0 < w a) -> NoDup L -> (forall c, In c Bl -> In c L) -> forall g,
  foldM (fun i D => do id <- zget (map (start w L) Bl) i; do d <- zget (map Dd Bl) i; vset id d D) (zrange (Z.of_nat (length (map (start w L) Bl)))) (slots w g L) =
  Ok (slots w (fun c j => if isin Bl c && (j =? 0) then Dd c else g c j) L).
Proof.
  intros Hw N HB g. rewrite map_length. change (foldM ?f (zrange ?n) ?x) with (forZ n f x).
  rewrite (forZ_list "_"%char Bl _ (fun c D => vset (start w L c + 0) (Dd c) D)).
  2:{ intros i D Hi. rewrite !(zget_map_nth _ Bl i "_"%char) by lia. cbn [bind]. now rewrite Z.add_0_r. }
  assert (Hw' : forall a, 0 <= w a) by (intro a; specialize (Hw a); lia).
  revert g. induction Bl as [|c Bl IH]; intro g; [reflexivity|]. cbn [foldM]. rewrite slots_set; auto; [|apply HB; now left|specialize (Hw c); lia]. cbn [bind].
  rewrite IH by (intros; apply HB; now right). f_equal. apply slots_ext. intros a j _ _. unfold isin. cbn [existsb]. fold (isin Bl a). unfold updg.
  destruct (aeq a c) eqn:E; cbn [orb andb]; [|reflexivity]. aeqs. subst a. destruct (isin Bl c); cbn [andb]; destruct (j =? 0); reflexivity.
Qed.
Lemma repeat_slots w L : (forall a, 0 <= w a) -> repeat (-1) (Z.to_nat (total w L)) = slots w (fun _ _ => -1) L.
Proof.
  intro Hw. induction L as [|a L IH]; [reflexivity|]. cbn [slots flat_map]. fold (slots w (fun _ _ => -1) L). rewrite <- IH. unfold total. cbn [fold_right]. fold (total w L).
  specialize (Hw a) as Ha. assert (0 <= total w L) by (clear - Hw; induction L as [|b L I]; [cbn; lia|]; unfold total; cbn [fold_right]; fold (total w L); specialize (Hw b); lia).
  rewrite Z2Nat.inj_add, repeat_app by lia. f_equal. unfold zrange. rewrite map_map. generalize 0%nat. induction (Z.to_nat (w a)) as [|n I]; intro k; [reflexivity|]. cbn. now rewrite (I (S k)).
Qed.
Lemma read_dims w (L rs : list ascii) g : (forall a, 0 < w a) -> (forall c, In c rs -> In c L) -> mapM (zget (slots w g L)) (map (start w L) rs) = Ok (map (fun c => g c 0) rs).
Proof.
  intros Hw HL. rewrite mapM_map. apply mapM_all. intros c Hc. rewrite <- (Z.add_0_r (start w L c)). apply slots_get; [intro a; specialize (Hw a); lia|now apply HL|specialize (Hw c); lia].
Qed.

Section Call.
Context {R : cring}.
Add Ring RrEin6 : (cth R).
Notation memR := (mem (car R)).
Lemma alloc_readable (m : memR) b dims : nonneg dims -> readable (alloc c0 b (asize dims) m) (fresh_view b dims) /\
  forall ix, in_range ix dims -> elem (alloc c0 b (asize dims) m) (fresh_view b dims) ix = Some c0.
Proof.
  intro Hn. destruct (fresh_inside b dims Hn) as [Hi _].
  assert (K : forall ix, in_range ix dims -> elem (alloc c0 b (asize dims) m) (fresh_view b dims) ix = Some c0).
  { intros ix Hix. destruct (Hi ix Hix) as (a & E & Ha). unfold elem. rewrite E. unfold alloc. rewrite Z.eqb_refl. destruct (_ && _) eqn:E2; [reflexivity|lia]. }
  split; [|exact K]. intros ix Hix. change (vdims (fresh_view b dims)) with dims in Hix. now rewrite K.
Qed.
Lemma alloc_other (m : memR) b dims x : vblk x <> b -> forall ix, elem (alloc c0 b (asize dims) m) x ix = elem m x ix.
Proof.
  intros Hb ix. unfold elem, vaddr. destruct (offs (vstr x) ix); cbn; [|reflexivity..]. unfold alloc. destruct (vblk x =? b) eqn:E; [lia|reflexivity].
Qed.
Lemma fresh_disjoint b dims x : nonneg dims -> length (vstr x) = length (vdims x) -> vblk x <> b -> disjoint_views (fresh_view b dims) x.
Proof.
  intros Hn Hl Hb ix jx Hi Hj E. rewrite (vaddr_cell x) in E by assumption. destruct (fresh_wf b dims Hn) as [W _]. rewrite vaddr_cell in E by assumption. injection E as E _. congruence.
Qed.
Lemma sum1_of_ext (m m' : memR) x xs S D e : (forall ix, elem m' x ix = elem m x ix) -> sum1_of m' x xs S D e = sum1_of m x xs S D e.
Proof. intro H. unfold sum1_of. apply rsum_ext. intros s _. unfold elem0. now rewrite H. Qed.
(* what a call returns: a fresh tensor of the right shape; memory outside its block unchanged *)
Definition returned (m m' : memR) (b : Z) (r : view) (rs : list ascii) (D : ascii -> Z) (val : (ascii -> Z) -> R) : Prop :=
  r = fresh_view b (map D rs) /\
  (forall e, fits D e rs -> elem m' r (map e rs) = Some (val e)) /\
  (forall ix, in_range ix (map D rs) -> ~ coherent rs ix -> elem m' r ix = Some c0) /\
  (forall b' a, b' <> b -> m' b' a = m b' a).
Lemma order1_in xs rs c : In c xs \/ In c rs -> In c (order1 xs rs).
Proof. intros [H|H]; unfold order1; [now apply in_two|apply in_app_iff; left; now apply in_letters]. Qed.
Lemma ein1_call_ok xs rs (D : ascii -> Z) (x : view) (b : Z) (m : memR) F :
  plain xs -> plain rs -> no_gather xs rs -> form1_of (str1 xs rs) = Ok F ->
  (forall c, 0 <= D c) -> vdims x = map D xs -> length (vstr x) = length xs -> readable m x -> vblk x <> b ->
  (length (tr1 xs rs) <= 4)%nat -> (length (only rs xs) <= 3)%nat -> (length (only xs rs) <= 3)%nat ->
  fourth (tr1 xs rs) (lstride x xs) (lstride (fresh_view b (map D rs)) rs) ->
  exists r m', ein1_call F x (map D (only rs xs)) b m = Ok (r, m') /\ returned m m' b r rs D (sum1_of m x xs (only xs rs) D).
Proof.
  intros Px Pr Ng EF HD Hdx Hsx Rx Hb LT LB LS H4. pose proof EF as EF0. rewrite form1_ok in EF by assumption. injection EF as <-.
  unfold ein1_call. cbn [f1_xsum f1_rsum f1_xr f1_gat f1_rids f1_xids f1_bc f1_tail]. fold (only rs xs). fold (only xs rs). rewrite !map_length, Nat.eqb_refl. cbn [assrt].
  set (L := order1 xs rs). assert (NL : NoDup L) by apply nodup_two. rewrite <- (total_one L). rewrite repeat_slots by (intro; unfold one; lia).
  replace (map (start one L) xs) with (map (fun c => start one L c + z0 c) xs) by (apply map_ext; intro; unfold z0; lia).
  rewrite set_dims_fold by (rewrite Hdx; now rewrite map_length). rewrite Hdx.
  rewrite dsteps_ok; [|intro; unfold one; lia|intro; unfold one, z0; lia|exact NL|intros; apply order1_in; now left|intros c _; specialize (HD c); lia|intros; now left].
  cbn [bind]. rewrite <- (map_length (start one L) (only rs xs)).
  rewrite set_bc; [|intro; unfold one; lia|exact NL|intros c Hc; apply order1_in; right; apply filter_In in Hc as [Hc _]; now apply in_letters].
  cbn [bind]. rewrite read_dims; [|intro; unfold one; lia|intros; apply order1_in; now right]. cbn [bind].
  assert (Ed : map (fun c => if isin (only rs xs) c && (0 =? 0) then D c else if isin xs c && (0 =? z0 c) then D c else -1) rs = map D rs).
  { apply map_ext_in. intros c Hc. change (0 =? 0) with true. change (0 =? z0 c) with true. rewrite !andb_true_r. destruct (isin xs c) eqn:E; [now destruct (isin (only rs xs) c)|].
    rewrite (proj2 (isin_In _ c)); [reflexivity|]. apply filter_In. split; [now apply in_letters|]. unfold notin. now rewrite E. }
  rewrite Ed. set (r := fresh_view b (map D rs)).
  assert (Hn : nonneg (map D rs)) by (unfold nonneg; apply Forall_forall; intros n Hn; apply in_map_iff in Hn as (c & <- & _); apply HD).
  destruct (fresh_wf b (map D rs) Hn) as [Wl _]. change (vdims (fresh_view b (map D rs))) with (map D rs) in Wl. rewrite map_length in Wl.
  destruct (alloc_readable m b (map D rs) Hn) as [Ra Za]. destruct (fresh_inside b (map D rs) Hn) as [_ Dr].
  destruct (ein1_add_ok xs rs D r x (alloc c0 b (asize (map D rs)) m) _ Px Pr Ng EF0) as (m' & E & (A1 & A2 & A3)); try assumption; try reflexivity.
  { intros ix Hix. rewrite alloc_other by assumption. now apply Rx. }
  { apply fresh_disjoint; [exact Hn|rewrite Hdx, map_length; exact Hsx|exact Hb]. }
  match goal with |- context [bind (ein1_add ?f ?p ?q ?o) _] => replace (ein1_add f p q o) with (@Ok memR m') by (symmetry; exact E) end. cbn [bind]. exists r, m'. split; [reflexivity|]. split; [reflexivity|]. split; [|split].
  - intros e He. rewrite A1 by exact He. unfold elem0 at 1. unfold r. rewrite Za by now apply fits_range. f_equal. rewrite (sum1_of_ext m) by (now apply alloc_other). ring.
  - intros ix Hi Nc. rewrite A2 by assumption. now apply Za.
  - intros b' a Hne. rewrite A3.
    + unfold alloc. destruct (b' =? b) eqn:Eb; [lia|reflexivity].
    + intros ix Hix K. unfold vaddr in K. destruct (offs _ _); cbn in K; try discriminate. injection K as K _. congruence.
Qed.
(* inconsistent dimensions are refused *)
Lemma ein1_call_bad xs rs (x : view) rd (b : Z) (m : memR) F :
  plain xs -> plain rs -> form1_of (str1 xs rs) = Ok F -> length (vdims x) = length xs -> nonneg (vdims x) -> ~ coherent xs (vdims x) ->
  ein1_call F x rd b m = Throw.
Proof.
  intros Px Pr EF Hl Hn Nc. rewrite form1_ok in EF by assumption. injection EF as <-.
  unfold ein1_call. cbn [f1_xsum f1_rsum f1_xr f1_gat f1_rids f1_xids f1_bc f1_tail]. destruct (_ =? _)%nat; cbn [assrt]; [|reflexivity].
  set (L := order1 xs rs). assert (NL : NoDup L) by apply nodup_two. rewrite <- (total_one L). rewrite repeat_slots by (intro; unfold one; lia).
  replace (map (start one L) xs) with (map (fun c => start one L c + z0 c) xs) by (apply map_ext; intro; unfold z0; lia).
  rewrite set_dims_fold by exact Hl.
  destruct (dsteps_bad one z0 L xs) with (dims := vdims x) (g := fun (_ : ascii) (_ : Z) => -1) as [(f & E & _)|E]; try assumption.
  - intro; unfold one; lia.
  - intro; unfold one, z0; lia.
  - intros c Hc. apply order1_in. now left.
  - intro. now left.
  - exfalso. apply Nc. now exists f.
  - rewrite E. reflexivity.
Qed.
End Call.
