(* Proofs_Einsum.v -- the einsum string parser. *)
From Verif Require Import Base BaseFacts Model_Index Model_View Model_Tensor Model_Einsum Spec_Index Spec_View Spec_Tensor Spec_Einsum.
Local Open Scope Z_scope.

Notation aeq := Ascii.eqb.
Lemma aeq_refl c : aeq c c = true. Proof. apply Ascii.eqb_refl. Qed.
Lemma aeq_eq a b : aeq a b = true <-> a = b. Proof. apply Ascii.eqb_eq. Qed.
Lemma aeq_neq a b : aeq a b = false <-> a <> b. Proof. apply Ascii.eqb_neq. Qed.
Lemma aeq_sym a b : aeq a b = aeq b a. Proof. apply Ascii.eqb_sym. Qed.
Ltac aeqs := repeat match goal with
  | H : aeq _ _ = true |- _ => apply aeq_eq in H
  | H : aeq _ _ = false |- _ => apply aeq_neq in H end.

Definition neb (a b : ascii) : bool := negb (aeq b a).
Lemma filter_comm {A} (f g : A -> bool) l : filter f (filter g l) = filter g (filter f l).
Proof. induction l as [|a l IH]; [reflexivity|]. cbn. destruct (g a) eqn:G, (f a) eqn:E; cbn; rewrite ?G, ?E, ?IH; reflexivity. Qed.
Lemma filter_idem {A} (f : A -> bool) l : filter f (filter f l) = filter f l.
Proof. induction l as [|a l IH]; [reflexivity|]. cbn. destruct (f a) eqn:E; cbn; rewrite ?E, ?IH; reflexivity. Qed.
Lemma letters_filter f s : letters (filter f s) = filter f (letters s).
Proof.
  induction s as [|a s IH]; [reflexivity|]. cbn [filter letters]. fold (neb a). destruct (f a) eqn:E; cbn [letters filter].
  - fold (neb a). rewrite IH. f_equal. apply filter_comm.
  - rewrite IH. clear IH. rewrite filter_comm. induction (letters s) as [|b l IHl]; [reflexivity|]. cbn.
    destruct (f b) eqn:Fb; cbn; [|apply IHl]. unfold neb at 1. destruct (aeq b a) eqn:B; cbn; [aeqs; congruence|]. f_equal. exact IHl.
Qed.
Lemma in_letters s c : In c (letters s) <-> In c s.
Proof.
  induction s as [|a s IH]; [tauto|]. cbn [letters]. split.
  - intros [->|H]; [now left|]. right. apply filter_In in H. now apply IH.
  - intros [->|H]; [now left|]. destruct (aeq c a) eqn:E; [left; aeqs; congruence|]. right. apply filter_In. split; [now apply IH|]. now rewrite E.
Qed.
Lemma letters_nodup s : NoDup (letters s).
Proof.
  induction s as [|a s IH]; [constructor|]. cbn [letters]. constructor.
  - intro H. apply filter_In in H as [_ H]. now rewrite aeq_refl in H.
  - now apply NoDup_filter.
Qed.
Lemma letters_len s : (length (letters s) <= length s)%nat.
Proof.
  induction s as [|a s IH]; [cbn; lia|]. cbn [letters length].
  assert (H : forall (l : list ascii) f, (length (filter f l) <= length l)%nat) by (intros l f; induction l as [|x l I]; cbn; [lia|destruct (f x); cbn; lia]).
  specialize (H (letters s) (fun b => negb (aeq b a))). lia.
Qed.
(* the letters that are not blanked *)
Definition live (s : list ascii) : list ascii := letters (filter (neb us) s).
Lemma live_plain s : ~ In us s -> live s = letters s.
Proof.
  intro H. unfold live. f_equal. induction s as [|a s IH]; [reflexivity|]. cbn. unfold neb at 1. destruct (aeq a us) eqn:E; cbn.
  - aeqs. subst. exfalso. apply H. now left.
  - f_equal. apply IH. intro K. apply H. now right.
Qed.
Lemma live_len s : (length (live s) <= length s)%nat.
Proof.
  unfold live. pose proof (letters_len (filter (neb us) s)).
  assert (H0 : forall (l : list ascii) f, (length (filter f l) <= length l)%nat) by (intros l f; induction l as [|x l I]; cbn; [lia|destruct (f x); cbn; lia]).
  specialize (H0 s (neb us)). lia.
Qed.
Lemma filter_blank c s : c <> us -> filter (neb us) (blank c s) = filter (neb c) (filter (neb us) s).
Proof.
  intro N. induction s as [|a s IH]; [reflexivity|]. cbn. destruct (aeq a c) eqn:E.
  - aeqs. subst a. unfold neb at 1. rewrite aeq_refl. cbn. unfold neb at 3. destruct (aeq c us) eqn:E2; [aeqs; congruence|]. cbn.
    unfold neb at 2. rewrite aeq_refl. cbn. exact IH.
  - destruct (neb us a) eqn:E2; cbn; [|exact IH]. replace (neb c a) with true by (unfold neb; now rewrite E). f_equal. exact IH.
Qed.
Lemma next_none s : next_letter s = None -> live s = [].
Proof.
  unfold live. induction s as [|a s IH]; [reflexivity|]. cbn. unfold neb at 1. destruct (aeq a us); cbn; [exact IH|discriminate].
Qed.
Lemma next_some s c : next_letter s = Some c -> c <> us /\ live s = c :: live (blank c s).
Proof.
  intro H. assert (N : c <> us).
  { induction s as [|a s IH]; [discriminate|]. cbn in H. destruct (aeq a us) eqn:E; [now apply IH|]. aeqs. congruence. }
  split; [exact N|]. unfold live. rewrite (filter_blank c s N).
  assert (exists t, filter (neb us) s = c :: t) as (t & E).
  { clear N. induction s as [|a s IH]; [discriminate|]. cbn in H |- *. unfold neb at 1. destruct (aeq a us); cbn; [now apply IH|]. injection H as ->. eauto. }
  rewrite E. cbn [filter letters]. replace (neb c c) with false by (unfold neb; now rewrite aeq_refl). now rewrite letters_filter.
Qed.
Lemma occs_blank c c' s : c' <> c -> c' <> us -> forall i, occs c' (blank c s) i = occs c' s i.
Proof.
  intros N N'. induction s as [|a s IH]; intro i; [reflexivity|]. cbn. destruct (aeq a c) eqn:E.
  - aeqs. subst a. destruct (aeq us c') eqn:E1; [aeqs; congruence|]. destruct (aeq c c') eqn:E2; [aeqs; congruence|]. apply IH.
  - destruct (aeq a c'); [f_equal|]; apply IH.
Qed.
Lemma has_isin c s : has c s = isin s c. Proof. reflexivity. Qed.
Lemma isin_In s c : isin s c = true <-> In c s.
Proof. unfold isin. rewrite existsb_exists. split; [intros (x & H & E); aeqs; now subst|intro H; exists c; split; [exact H|apply aeq_refl]]. Qed.
Lemma has_blank c c' s : c' <> c -> c' <> us -> has c' (blank c s) = has c' s.
Proof.
  intros N N'. unfold has, blank. induction s as [|a s IH]; [reflexivity|]. cbn. rewrite IH. f_equal. destruct (aeq a c) eqn:E; [|reflexivity].
  aeqs. subst a. destruct (aeq c' us) eqn:E1; [aeqs; congruence|]. destruct (aeq c' c) eqn:E2; [aeqs; congruence|reflexivity].
Qed.
Lemma blank_absent c s : has c s = false -> blank c s = s.
Proof.
  unfold has, blank. induction s as [|a s IH]; [reflexivity|]. cbn. rewrite orb_false_iff. intros [E H]. rewrite aeq_sym, E. now rewrite IH.
Qed.
Lemma blank_if_eq c s : blank_if c s = blank c s.
Proof. unfold blank_if. destruct (has c s) eqn:E; [reflexivity|]. now rewrite blank_absent. Qed.
Definition blanks (L : list ascii) (s : list ascii) : list ascii := fold_left (fun s c => blank c s) L s.
Lemma fold_left_ext {A B} (f g : A -> B -> A) l : (forall b a, In b l -> f a b = g a b) -> forall a, fold_left f l a = fold_left g l a.
Proof. induction l as [|b l IH]; intros H a; [reflexivity|]. cbn. rewrite H by now left. apply IH. intros. apply H. now right. Qed.
Lemma live_tail c s l : live s = c :: live (blank c s) -> In l (live (blank c s)) -> c <> us -> l <> c /\ l <> us.
Proof.
  intros H I N. unfold live in I. rewrite in_letters, filter_blank in I by assumption. apply filter_In in I as [I E].
  apply filter_In in I as [_ E2]. unfold neb in *. split; intros ->.
  - now rewrite aeq_refl in E.
  - now rewrite aeq_refl in E2.
Qed.
Lemma loop1r_ok fuel : forall rs xs F, (length (live rs) <= fuel)%nat ->
  loop1r fuel rs xs F = Ok (blanks (live rs) xs, fold_left (fun F c => step1r c (occs c rs 0) (occs c xs 0) (has c xs) F) (live rs) F).
Proof.
  induction fuel as [|fuel IH]; intros rs xs F Hl; cbn [loop1r]; destruct (next_letter rs) as [c|] eqn:E.
  - apply next_some in E as [_ E]. rewrite E in Hl. cbn in Hl. lia.
  - rewrite (next_none _ E). reflexivity.
  - apply next_some in E as [N E]. change (if has c xs then blank c xs else xs) with (blank_if c xs). rewrite blank_if_eq.
    rewrite IH by (rewrite E in Hl; cbn in Hl; lia). rewrite E. cbn [blanks fold_left]. f_equal. f_equal.
    apply fold_left_ext. intros l a I. destruct (live_tail _ _ _ E I N) as [N1 N2]. now rewrite !occs_blank, has_blank by assumption.
  - rewrite (next_none _ E). reflexivity.
Qed.
Lemma loop1x_ok fuel : forall xs F, (length (live xs) <= fuel)%nat ->
  loop1x fuel xs F = Ok (fold_left (fun F c => step1x (occs c xs 0) F) (live xs) F).
Proof.
  induction fuel as [|fuel IH]; intros xs F Hl; cbn [loop1x]; destruct (next_letter xs) as [c|] eqn:E.
  - apply next_some in E as [_ E]. rewrite E in Hl. cbn in Hl. lia.
  - rewrite (next_none _ E). reflexivity.
  - apply next_some in E as [N E]. rewrite IH by (rewrite E in Hl; cbn in Hl; lia). rewrite E. cbn [fold_left]. f_equal.
    apply fold_left_ext. intros l a I. destruct (live_tail _ _ _ E I N) as [N1 N2]. now rewrite !occs_blank by assumption.
  - rewrite (next_none _ E). reflexivity.
Qed.
Lemma loop2r_ok fuel : forall rs xs ys F, (length (live rs) <= fuel)%nat ->
  loop2r fuel rs xs ys F = Ok (blanks (live rs) xs, blanks (live rs) ys,
    fold_left (fun F c => step2r c (occs c rs 0) (occs c xs 0) (occs c ys 0) (has c xs) (has c ys) F) (live rs) F).
Proof.
  induction fuel as [|fuel IH]; intros rs xs ys F Hl; cbn [loop2r]; destruct (next_letter rs) as [c|] eqn:E.
  - apply next_some in E as [_ E]. rewrite E in Hl. cbn in Hl. lia.
  - rewrite (next_none _ E). reflexivity.
  - apply next_some in E as [N E]. rewrite !blank_if_eq.
    rewrite IH by (rewrite E in Hl; cbn in Hl; lia). rewrite E. cbn [blanks fold_left]. f_equal. f_equal.
    apply fold_left_ext. intros l a I. destruct (live_tail _ _ _ E I N) as [N1 N2]. now rewrite !occs_blank, !has_blank by assumption.
  - rewrite (next_none _ E). reflexivity.
Qed.
Lemma loop2x_ok fuel : forall xs ys F, (length (live xs) <= fuel)%nat ->
  loop2x fuel xs ys F = Ok (blanks (live xs) ys, fold_left (fun F c => step2x (occs c xs 0) (occs c ys 0) (has c ys) F) (live xs) F).
Proof.
  induction fuel as [|fuel IH]; intros xs ys F Hl; cbn [loop2x]; destruct (next_letter xs) as [c|] eqn:E.
  - apply next_some in E as [_ E]. rewrite E in Hl. cbn in Hl. lia.
  - rewrite (next_none _ E). reflexivity.
  - apply next_some in E as [N E]. rewrite !blank_if_eq. rewrite IH by (rewrite E in Hl; cbn in Hl; lia). rewrite E. cbn [blanks fold_left]. f_equal. f_equal.
    apply fold_left_ext. intros l a I. destruct (live_tail _ _ _ E I N) as [N1 N2]. now rewrite !occs_blank, !has_blank by assumption.
  - rewrite (next_none _ E). reflexivity.
Qed.
Lemma loop2y_ok fuel : forall ys F, (length (live ys) <= fuel)%nat ->
  loop2y fuel ys F = Ok (fold_left (fun F c => step2y (occs c ys 0) F) (live ys) F).
Proof.
  induction fuel as [|fuel IH]; intros xs F Hl; cbn [loop2y]; destruct (next_letter xs) as [c|] eqn:E.
  - apply next_some in E as [_ E]. rewrite E in Hl. cbn in Hl. lia.
  - rewrite (next_none _ E). reflexivity.
  - apply next_some in E as [N E]. rewrite IH by (rewrite E in Hl; cbn in Hl; lia). rewrite E. cbn [fold_left]. f_equal.
    apply fold_left_ext. intros l a I. destruct (live_tail _ _ _ E I N) as [N1 N2]. now rewrite !occs_blank by assumption.
  - rewrite (next_none _ E). reflexivity.
Qed.
(* blanking a set of letters *)
Lemma live_blanks L : forall s, ~ In us L -> live (blanks L s) = filter (notin L) (live s).
Proof.
  induction L as [|a L IH]; intros s H; cbn [blanks fold_left].
  - induction (live s) as [|b l I]; [reflexivity|]. cbn. now f_equal.
  - assert (Na : a <> us) by (intros ->; apply H; now left).
    change (fold_left _ L (blank a s)) with (blanks L (blank a s)). rewrite IH by (intro K; apply H; now right).
    unfold live at 1. rewrite filter_blank by assumption. rewrite letters_filter. fold (live s).
    induction (live s) as [|b l I]; [reflexivity|]. cbn. unfold neb at 1, notin at 2, isin. cbn. destruct (aeq b a); cbn.
    + exact I.
    + unfold notin at 1, isin. destruct (existsb (aeq b) L); cbn; [exact I|]. f_equal. exact I.
Qed.
Lemma live_sub s c : In c (live s) -> In c s /\ c <> us.
Proof.
  unfold live. rewrite in_letters, filter_In. unfold neb. intros [H E]. split; [exact H|]. intros ->. now rewrite aeq_refl in E.
Qed.
Lemma occs_blanks L c : c <> us -> ~ In c L -> forall s i, occs c (blanks L s) i = occs c s i.
Proof.
  intros N. induction L as [|a L IH]; intros H s i; [reflexivity|]. cbn. change (fold_left _ L (blank a s)) with (blanks L (blank a s)).
  rewrite IH by (intro K; apply H; now right). apply occs_blank; [intros ->; apply H; now left|exact N].
Qed.
Lemma has_blanks L c : c <> us -> ~ In c L -> forall s, has c (blanks L s) = has c s.
Proof.
  intros N. induction L as [|a L IH]; intros H s; [reflexivity|]. change (blanks (a :: L) s) with (blanks L (blank a s)).
  rewrite IH by (intro K; apply H; now right). apply has_blank; [intros ->; apply H; now left|exact N].
Qed.
(* positions *)
Lemma occs_in c s : forall i p, In p (occs c s i) <-> i <= p /\ nth_error s (Z.to_nat (p - i)) = Some c.
Proof.
  induction s as [|a s IH]; intros i p; cbn [occs].
  - split; [intros []|intros [_ H]; destruct (Z.to_nat (p - i)); discriminate].
  - assert (K : In p (occs c s (i + 1)) <-> i + 1 <= p /\ nth_error (a :: s) (Z.to_nat (p - i)) = Some c).
    { rewrite IH. split; intros [H1 H2]; (split; [lia|]).
      - replace (Z.to_nat (p - i)) with (S (Z.to_nat (p - (i + 1)))) by lia. exact H2.
      - replace (Z.to_nat (p - i)) with (S (Z.to_nat (p - (i + 1)))) in H2 by lia. exact H2. }
    destruct (aeq a c) eqn:E; cbn [In]; rewrite K.
    + aeqs. subst a. split.
      * intros [->|[H1 H2]]; [split; [lia|]; now rewrite Z.sub_diag|split; [lia|exact H2]].
      * intros [H1 H2]. destruct (Z.eq_dec i p) as [->|]; [now left|right; split; [lia|exact H2]].
    + aeqs. split; intros [H1 H2]; (split; [|exact H2]); [lia|]. destruct (Z.eq_dec i p) as [->|]; [|lia].
      rewrite Z.sub_diag in H2. cbn in H2. congruence.
Qed.
Lemma occs_filter c s : forall n, occs c s (Z.of_nat n) =
  map Z.of_nat (filter (fun i => match nth_error s (i - n) with Some a => aeq a c | None => false end) (seq n (length s))).
Proof.
  induction s as [|a s IH]; intro n; [reflexivity|]. cbn [occs length seq filter]. rewrite Nat.sub_diag. cbn [nth_error].
  replace (Z.of_nat n + 1) with (Z.of_nat (S n)) by lia. rewrite IH.
  assert (K : filter (fun i => match nth_error s (i - S n) with Some a => aeq a c | None => false end) (seq (S n) (length s)) =
              filter (fun i => match nth_error (a :: s) (i - n) with Some a => aeq a c | None => false end) (seq (S n) (length s))).
  { apply filter_ext_in. intros i Hi. apply in_seq in Hi. replace (i - n)%nat with (S (i - S n)) by lia. reflexivity. }
  rewrite K. destruct (aeq a c); reflexivity.
Qed.
Lemma occs_occ c s : occs c s 0 = occ s c.
Proof.
  change 0 with (Z.of_nat 0). rewrite occs_filter. unfold occ, zrange. rewrite Nat2Z.id.
  induction (seq 0 (length s)) as [|i l IH]; [reflexivity|]. cbn. rewrite Nat2Z.id, Nat.sub_0_r. destruct (nth_error s i) as [a|]; [destruct (aeq a c)|]; cbn; now rewrite IH.
Qed.
Lemma occ_in s c p : In p (occ s c) <-> 0 <= p /\ nth_error s (Z.to_nat p) = Some c.
Proof. rewrite <- occs_occ, occs_in, Z.sub_0_r. reflexivity. Qed.
Lemma occ_nodup s c : NoDup (occ s c).
Proof. unfold occ. apply NoDup_filter, zrange_nodup. Qed.
(* the position lists of the letters of s partition the positions *)
Lemma nodup_app {A} (l m : list A) : NoDup l -> NoDup m -> (forall x, In x l -> ~ In x m) -> NoDup (l ++ m).
Proof.
  induction l as [|a l IH]; intros Hl Hm H; [exact Hm|]. inversion Hl; subst. cbn. constructor.
  - rewrite in_app_iff. intros [K|K]; [contradiction|]. now apply (H a (or_introl eq_refl)).
  - apply IH; auto. intros x Hx. apply H. now right.
Qed.
Lemma nodup_concat_map {A B} (f : A -> list B) l : NoDup l -> (forall a, NoDup (f a)) -> (forall a a' b, In b (f a) -> In b (f a') -> a = a') -> NoDup (concat (map f l)).
Proof.
  intros Hl Hf Hd. induction Hl as [|a l Ha Hl IH]; [constructor|]. cbn. apply nodup_app; [apply Hf|exact IH|].
  intros x Hx K. apply in_concat in K as (m & Hm & Hxm). apply in_map_iff in Hm as (a' & <- & Ha'). rewrite (Hd _ _ _ Hx Hxm) in Ha. contradiction.
Qed.
Lemma occ_partition s : Permutation (concat (map (occ s) (letters s))) (zrange (Z.of_nat (length s))).
Proof.
  apply NoDup_Permutation.
  - apply nodup_concat_map; [apply letters_nodup|intro; apply occ_nodup|]. intros a a' b H H'. apply occ_in in H, H'. destruct H, H'. congruence.
  - apply zrange_nodup.
  - intro p. rewrite in_zrange. split.
    + intro H. apply in_concat in H as (m & Hm & Hp). apply in_map_iff in Hm as (c & <- & Hc). apply occ_in in Hp as [H0 H1].
      assert (Z.to_nat p < length s)%nat by (apply nth_error_Some; congruence). lia.
    + intro H. destruct (nth_error s (Z.to_nat p)) as [c|] eqn:E; [|apply nth_error_None in E; lia].
      apply in_concat. exists (occ s c). split; [apply in_map, in_letters; eapply nth_error_In; exact E|]. apply occ_in. split; [lia|exact E].
Qed.
(* ids *)
Lemma set_ids_ok s a t (g : ascii -> Z) : set_ids (occs a s 0) t (map g s) = map (fun c => if aeq c a then t else g c) s.
Proof.
  unfold set_ids. rewrite map_length. unfold zrange. rewrite Nat2Z.id.
  assert (K : forall (l : list ascii) n, (forall i, nth_error l i = nth_error s (n + i)) ->
     map (fun p => if existsb (Z.eqb (fst p)) (occs a s 0) then t else snd p) (combine (map Z.of_nat (seq n (length l))) (map g l)) = map (fun c => if aeq c a then t else g c) l).
  { induction l as [|b l IH]; intros n H; [reflexivity|]. cbn [length seq map combine fst snd]. f_equal.
    - specialize (H 0%nat). cbn in H. rewrite Nat.add_0_r in H. destruct (aeq b a) eqn:E.
      + aeqs. subst b. assert (X : existsb (Z.eqb (Z.of_nat n)) (occs a s 0) = true); [|now rewrite X].
        apply existsb_exists. exists (Z.of_nat n). split; [|apply Z.eqb_refl]. apply occs_in. split; [lia|]. rewrite Z.sub_0_r, Nat2Z.id. now symmetry.
      + aeqs. assert (X : existsb (Z.eqb (Z.of_nat n)) (occs a s 0) = false); [|now rewrite X].
        apply not_true_is_false. intro X. apply existsb_exists in X as (p & Hp & Ep). apply Z.eqb_eq in Ep. subst p. apply occs_in in Hp as [_ Hp].
        rewrite Z.sub_0_r, Nat2Z.id in Hp. congruence.
    - apply IH. intro i. replace (S n + i)%nat with (n + S i)%nat by lia. rewrite <- H. reflexivity. }
  apply K. intro i. reflexivity.
Qed.
Lemma zeros_map (s : list ascii) : zeros s = map (fun _ => 0) s.
Proof. unfold zeros. induction s; cbn; [reflexivity|now f_equal]. Qed.
(* handing out ids to the letters of L, letter c taking w c of them; its positions in s get the d c-th *)
Fixpoint give (w d : ascii -> Z) (s L : list ascii) (t : Z) (ids : list Z) : list Z :=
  match L with [] => ids | a :: L' => give w d s L' (t + w a) (set_ids (occs a s 0) (t + d a) ids) end.
Lemma give_ok w d s L : NoDup L -> forall t g, give w d s L t (map g s) = map (fun c => if isin L c then t + start w L c + d c else g c) s.
Proof.
  induction L as [|a L IH]; intros N t g; [reflexivity|]. inversion N; subst. cbn [give]. rewrite set_ids_ok.
  rewrite (IH H2 (t + w a) (fun c => if aeq c a then t + d a else g c)). apply map_ext. intro c. cbn [start]. unfold isin. cbn [existsb].
  fold (isin L c). rewrite (aeq_sym a c). destruct (aeq c a) eqn:E; cbn.
  - aeqs. subst c. destruct (isin L a) eqn:I; [apply isin_In in I; contradiction|]. lia.
  - destruct (isin L c); [lia|reflexivity].
Qed.
Lemma give_app w d s L L' : forall t ids, give w d s (L ++ L') t ids = give w d s L' (t + total w L) (give w d s L t ids).
Proof. induction L as [|a L IH]; intros t ids; cbn [give app total fold_right]; [now rewrite Z.add_0_r|]. rewrite IH. fold (total w L). f_equal. lia. Qed.
Lemma total_app w L L' : total w (L ++ L') = total w L + total w L'.
Proof. unfold total. induction L as [|a L IH]; cbn; [reflexivity|rewrite IH; lia]. Qed.
Lemma total_one L : total one L = Z.of_nat (length L).
Proof. unfold total. induction L as [|a L IH]; [reflexivity|]. cbn [fold_right length]. rewrite IH. unfold one. lia. Qed.
