(* Proofs_Plan.v -- reading Einstein sums: labels, groups, numbering, unpacking *)
From Coq Require Import Ascii Sorted.
From Verif Require Import Base Model_Einsum Model_Plan Spec_Plan.
Import ListNotations.
Local Open Scope nat_scope.

(* ---- strings ---- *)
Lemma str_eqb_eq a b : str_eqb a b = true <-> a = b.
Proof.
  revert b. induction a as [|x a IH]; intros [|y b]; cbn; try (split; congruence). rewrite andb_true_iff, IH, Ascii.eqb_eq. split; [intros [-> ->]; reflexivity|injection 1; auto].
Qed.
Lemma str_eqb_refl a : str_eqb a a = true.
Proof. now apply str_eqb_eq. Qed.
Lemma str_eqb_neq a b : str_eqb a b = false <-> a <> b.
Proof. rewrite <- (str_eqb_eq a b). destruct (str_eqb a b); split; congruence. Qed.
Lemma str_lt_irr a : str_ltb a a = false.
Proof. induction a as [|x a IH]; cbn [str_ltb]; [reflexivity|]. rewrite Nat.ltb_irrefl, IH, andb_false_r. reflexivity. Qed.
Lemma str_lt_trans a b c : str_ltb a b = true -> str_ltb b c = true -> str_ltb a c = true.
Proof.
  revert b c. induction a as [|x a IH]; intros [|y b] [|z c]; cbn [str_ltb]; try congruence. rewrite !orb_true_iff, !andb_true_iff, !Ascii.eqb_eq, !Nat.ltb_lt.
  intros [H1|[-> H1]] [H2|[-> H2]]; [left; lia|left; lia|left; lia|right; split; [reflexivity|now apply (IH b)]].
Qed.
Lemma str_trichotomy a b : str_ltb a b = true \/ a = b \/ str_ltb b a = true.
Proof.
  revert b. induction a as [|x a IH]; intros [|y b]; cbn [str_ltb]; auto. rewrite !orb_true_iff, !andb_true_iff, !Ascii.eqb_eq, !Nat.ltb_lt.
  destruct (lt_eq_lt_dec (nat_of_ascii x) (nat_of_ascii y)) as [[H|H]|H]; auto.
  assert (x = y) as ->. { rewrite <- (ascii_nat_embedding x), <- (ascii_nat_embedding y), H. reflexivity. }
  destruct (IH b) as [P|[->|P]]; auto.
Qed.

(* ---- reading ---- *)
Lemma labels_open t s o : ~ In ")"%char t -> labels (t ++ ")"%char :: s) (Some o) = do l <- labels s None; Ok (rev (rev t ++ o) :: l).
Proof.
  revert o. induction t as [|c t IH]; intros o H; cbn [app labels rev].
  - reflexivity.
  - destruct (Ascii.eqb_spec c ")"%char) as [->|_]; [destruct H; now left|]. rewrite IH by (intro; apply H; now right). now rewrite <- app_assoc.
Qed.
Lemma labels_writes s l : writes s l -> labels s None = Ok l.
Proof.
  induction 1 as [|c s l Hc _ IH|t s l Ht _ IH]; [reflexivity| |].
  - cbn [labels]. destruct (Ascii.eqb_spec c "("%char); [contradiction|]. now rewrite IH.
  - cbn [labels]. cbn [Ascii.eqb Bool.eqb]. rewrite labels_open by assumption. rewrite IH. cbn [bind]. now rewrite app_nil_r, rev_involutive.
Qed.
Lemma writes_labels s l : labels s None = Ok l -> writes s l.
Proof.
  assert (G : forall n s, length s <= n -> (forall l, labels s None = Ok l -> writes s l) /\ (forall o l, labels s (Some o) = Ok l -> exists t s' l', s = t ++ ")"%char :: s' /\ ~ In ")"%char t /\ l = (rev o ++ t) :: l' /\ labels s' None = Ok l' /\ length s' < length s)).
  { clear s l. induction n as [|n IH]; intros s Hn.
    - destruct s; [|cbn in Hn; lia]. split; [injection 1 as <-; constructor|discriminate].
    - destruct s as [|c s]; [split; [injection 1 as <-; constructor|discriminate]|]. cbn in Hn. destruct (IH s ltac:(lia)) as [I1 I2]. split.
      + intros l. cbn [labels]. destruct (Ascii.eqb_spec c "("%char) as [->|Hc].
        * intro H. destruct (I2 [] l H) as (t & s' & l' & -> & Ht & -> & E & Hl). cbn [rev app]. constructor; [assumption|]. apply (IH s'); [rewrite app_length in *; cbn in *; lia|assumption].
        * destruct (labels s None) as [l0| |] eqn:E; try discriminate. injection 1 as <-. constructor; auto.
      + intros o l. cbn [labels]. destruct (Ascii.eqb_spec c ")"%char) as [->|Hc].
        * destruct (labels s None) as [l0| |] eqn:E; try discriminate. injection 1 as <-. exists [], s, l0. rewrite app_nil_r. cbn. repeat split; auto.
        * intro H. destruct (I2 _ _ H) as (t & s' & l' & -> & Ht & -> & E & Hl). exists (c :: t), s', l'. cbn [rev]. rewrite <- app_assoc. cbn. repeat split; auto. intros [->|P]; contradiction. }
  destruct (G (length s) s (le_n _)) as [H _]. apply H.
Qed.
Lemma cut_arrow_ok lhs r : ~ In "-"%char lhs -> cut_arrow (lhs ++ "-"%char :: ">"%char :: r) = Some (lhs, r).
Proof.
  induction lhs as [|c s IH]; intro H; [reflexivity|]. cbn [app cut_arrow]. destruct (Ascii.eqb_spec c "-"%char) as [->|_]; [destruct H; now left|]. cbn [andb]. rewrite IH by (intro; apply H; now right). reflexivity.
Qed.
Lemma pieces_last a cur : ~ In ","%char a -> pieces a cur = match rev cur ++ a with [] => [] | b => [b] end.
Proof.
  revert cur. induction a as [|c a IH]; intros cur H; cbn [pieces].
  - rewrite app_nil_r. destruct cur as [|x cur]; [reflexivity|]. destruct (rev (x :: cur)) eqn:E; [|reflexivity]. apply (f_equal (@length _)) in E. rewrite rev_length in E. discriminate.
  - destruct (Ascii.eqb_spec c ","%char) as [->|_]; [destruct H; now left|]. rewrite IH by (intro; apply H; now right). cbn [rev]. now rewrite <- app_assoc.
Qed.
Lemma pieces_more a cur s : ~ In ","%char a -> pieces (a ++ ","%char :: s) cur = (rev cur ++ a) :: pieces s [].
Proof.
  revert cur. induction a as [|c a IH]; intros cur H; cbn [app pieces].
  - cbn. now rewrite app_nil_r.
  - destruct (Ascii.eqb_spec c ","%char) as [->|_]; [destruct H; now left|]. rewrite IH by (intro; apply H; now right). cbn [rev]. now rewrite <- app_assoc.
Qed.
Lemma pieces_join ss : Forall (fun a => ~ In ","%char a) ss -> ss = [] \/ last ss [] <> [] -> pieces (join ss) [] = ss.
Proof.
  induction ss as [|a ss IH]; intros F H; [reflexivity|]. inversion F as [|? ? Ha Fs]; subst. destruct H as [H|H]; [discriminate|]. destruct ss as [|b ss].
  - cbn [join last] in *. rewrite pieces_last by assumption. cbn [rev app]. now destruct a.
  - change (join (a :: b :: ss)) with (a ++ ","%char :: join (b :: ss)). rewrite pieces_more by assumption. cbn [rev app]. rewrite IH; [reflexivity|assumption|now right].
Qed.
Lemma join_no c ss : c <> ","%char -> Forall (fun a => ~ In c a) ss -> ~ In c (join ss).
Proof.
  intros Hc F. induction ss as [|a ss IH]; [auto|]. inversion F; subst. destruct ss as [|b ss]; [assumption|]. change (join (a :: b :: ss)) with (a ++ ","%char :: join (b :: ss)).
  rewrite in_app_iff. intros [P|[P|P]]; [contradiction|congruence|now apply IH].
Qed.

(* ---- grouping the axes by their labels ---- *)
Definition gsorted (r : list (str * list nat)) : Prop := StronglySorted (fun a b => str_ltb (fst a) (fst b) = true) r.
Lemma map_push_in k i r t q : gsorted r ->
  (exists v, In (t, v) (map_push k i r) /\ In q v) <-> (t = k /\ q = i) \/ (exists v, In (t, v) r /\ In q v).
Proof.
  intro H. induction H as [|[k' v'] r Hr IH F]; cbn [map_push].
  - split; [intros (v & [E|[]] & Q); injection E as <- <-; destruct Q as [<-|[]]; auto|intros [[-> ->]|(v & [] & _)]; exists [i]; cbn; auto].
  - destruct (str_eqb k k') eqn:Ek; [apply str_eqb_eq in Ek; subst k'|destruct (str_ltb k k')].
    + split.
      * intros (v & [E|P] & Q); [injection E as <- <-; apply in_app_iff in Q; destruct Q as [Q|[<-|[]]]; [right; exists v'; split; [now left|exact Q]|auto]|right; exists v; split; [now right|exact Q]].
      * intros [[-> ->]|(v & [E|P] & Q)]; [exists (v' ++ [i]); split; [now left|apply in_app_iff; right; now left]|injection E as <- <-; exists (v' ++ [i]); split; [now left|apply in_app_iff; now left]|exists v; split; [now right|exact Q]].
    + split.
      * intros (v & [E|P] & Q); [injection E as <- <-; destruct Q as [<-|[]]; auto|right; eauto].
      * intros [[-> ->]|(v & P & Q)]; [exists [i]; split; [now left|now left]|exists v; split; [now right|exact Q]].
    + split.
      * intros (v & [E|P] & Q); [injection E as <- <-; right; exists v'; split; [now left|exact Q]|]. destruct (proj1 IH) as [X|(v0 & P0 & Q0)]; [eauto|auto|right; exists v0; split; [now right|exact Q0]].
      * intros [X|(v & [E|P] & Q)]; [destruct (proj2 IH (or_introl X)) as (v & P & Q); exists v; split; [now right|exact Q]|injection E as <- <-; exists v'; split; [now left|exact Q]|].
        destruct (proj2 IH) as (v0 & P0 & Q0); [right; eauto|exists v0; split; [now right|exact Q0]].
Qed.
Lemma map_push_keys k i r a : In a (map fst (map_push k i r)) <-> a = k \/ In a (map fst r).
Proof.
  induction r as [|[k' v'] r IH]; cbn [map_push map fst]; [cbn; intuition|]. destruct (str_eqb k k') eqn:Ek; [apply str_eqb_eq in Ek; subst k'; cbn [map fst In]; intuition|]. destruct (str_ltb k k'); cbn [map fst In]; [intuition|]. rewrite IH. cbn. intuition.
Qed.
Lemma map_push_sorted k i r : gsorted r -> gsorted (map_push k i r).
Proof.
  intro H. induction H as [|[k' v'] r Hr IH F]; cbn [map_push]; [repeat constructor|]. destruct (str_eqb k k') eqn:Ek; [constructor; assumption|]. destruct (str_ltb k k') eqn:El.
  - constructor; [now constructor|]. constructor; [exact El|]. rewrite Forall_forall in *. intros p Hp. cbn. eapply str_lt_trans; [exact El|exact (F p Hp)].
  - constructor; [assumption|]. rewrite Forall_forall in *. intros [a v] Hp. cbn. assert (Ha : In a (map fst (map_push k i r))) by (apply in_map_iff; exists (a, v); auto). apply map_push_keys in Ha. destruct Ha as [->|Ha].
    + destruct (str_trichotomy k k') as [P|[P|P]]; [congruence|apply str_eqb_neq in Ek; contradiction|exact P].
    + apply in_map_iff in Ha. destruct Ha as ([a' v0] & <- & Q). exact (F _ Q).
Qed.
(* positions inside one group increase, and every group has one *)
Lemma combine_seq_app {A} (l1 l2 : list A) n : combine (seq n (length (l1 ++ l2))) (l1 ++ l2) = combine (seq n (length l1)) l1 ++ combine (seq (n + length l1) (length l2)) l2.
Proof. revert n. induction l1 as [|a l1 IH]; intro n; cbn; [now rewrite Nat.add_0_r|]. rewrite IH. now replace (n + S (length l1)) with (S n + length l1) by lia. Qed.
Lemma group_snoc l t : group (l ++ [t]) = map_push t (length l) (group l).
Proof. unfold group. rewrite combine_seq_app, fold_left_app. reflexivity. Qed.
Lemma group_sorted l : gsorted (group l).
Proof. induction l as [|t l IH] using rev_ind; [constructor|]. rewrite group_snoc. now apply map_push_sorted. Qed.
Lemma group_in l t q : (exists v, In (t, v) (group l) /\ In q v) <-> nth_error l q = Some t.
Proof.
  revert q. induction l as [|a l IH] using rev_ind; intro q.
  - split; [intros (v & [] & _)|destruct q; discriminate].
  - rewrite group_snoc, map_push_in by apply group_sorted. rewrite IH. destruct (lt_eq_lt_dec q (length l)) as [[H|H]|H].
    + rewrite nth_error_app1 by lia. split; [intros [[_ ->]|P]; [lia|exact P]|auto].
    + subst q. rewrite nth_error_app2, Nat.sub_diag by lia. cbn. split; [intros [[-> _]|P]; [reflexivity|]|injection 1 as ->; auto]. assert (length l < length l) by (apply nth_error_Some; congruence). lia.
    + split; [intros [[_ ->]|P]; [lia|]|intro P; exfalso]; assert (Hq : q < length l \/ q < length (l ++ [a])) by (first [left; apply nth_error_Some; congruence|right; apply nth_error_Some; congruence]); rewrite app_length in Hq; cbn in Hq; lia.
Qed.
Lemma group_keys l t : In t (map fst (group l)) <-> In t l.
Proof.
  induction l as [|a l IH] using rev_ind; [reflexivity|]. rewrite group_snoc, map_push_keys, IH, in_app_iff. cbn. intuition.
Qed.
Lemma sorted_keys r : gsorted r -> NoDup (map fst r).
Proof.
  induction 1 as [|p r Hr IH F]; cbn; constructor; [|assumption]. intro H. apply in_map_iff in H. destruct H as (p' & E & Hp). rewrite Forall_forall in F. specialize (F p' Hp). cbn in F. rewrite E, str_lt_irr in F. discriminate.
Qed.
Lemma key_unique {A} (r : list (str * A)) t v w : NoDup (map fst r) -> In (t, v) r -> In (t, w) r -> v = w.
Proof.
  induction r as [|[k u] r IH]; intros N H0 H; [destruct H0|destruct H0 as [H0|H0]]; cbn in N; inversion N as [|? ? Nk Nr]; subst.
  - destruct H as [H|H]; [congruence|]. injection H0 as -> ->. destruct Nk. apply in_map_iff. exists (t, w). auto.
  - destruct H as [H|H]; [injection H as -> ->; destruct Nk; apply in_map_iff; exists (t, v); auto|auto].
Qed.

(* ---- numbering ---- *)
Lemma Forall2_in {A B} (P : A -> B -> Prop) l l' a : Forall2 P l l' -> In a l -> exists b, In b l' /\ P a b.
Proof. induction 1 as [|x y l l' H F IH]; intro H0; [destruct H0|destruct H0 as [H0|H0]]; [subst; exists y; split; [now left|assumption]|]. destruct (IH H0) as (b & Hb & E). exists b. split; [now right|assumption]. Qed.
Lemma Forall2_in_r {A B} (P : A -> B -> Prop) l l' b : Forall2 P l l' -> In b l' -> exists a, In a l /\ P a b.
Proof. induction 1 as [|x y l l' H F IH]; intro H0; [destruct H0|destruct H0 as [H0|H0]]; [subst; exists x; split; [now left|assumption]|]. destruct (IH H0) as (a & Ha & E). exists a. split; [now right|assumption]. Qed.
Lemma Forall2_nth {A B} (P : A -> B -> Prop) l l' n a : Forall2 P l l' -> nth_error l n = Some a -> exists b, nth_error l' n = Some b /\ P a b.
Proof. intro F. revert n. induction F as [|x y l l' H F IH]; intros [|n] E; try discriminate; [injection E as ->; exists y; auto|now apply IH]. Qed.
Lemma Forall2_nth_r {A B} (P : A -> B -> Prop) l l' n b : Forall2 P l l' -> nth_error l' n = Some b -> exists a, nth_error l n = Some a /\ P a b.
Proof. intro F. revert n. induction F as [|x y l l' H F IH]; intros [|n] E; try discriminate; [injection E as ->; exists x; auto|now apply IH]. Qed.
Lemma Forall2_len {A B} (P : A -> B -> Prop) l l' : Forall2 P l l' -> length l = length l'.
Proof. induction 1; cbn; congruence. Qed.
Lemma nth_error_eq {A} (l l' : list A) : (forall n, nth_error l n = nth_error l' n) -> l = l'.
Proof. revert l'. induction l as [|a l IH]; intros [|b l'] H; [reflexivity|discriminate (H 0)|discriminate (H 0)|]. f_equal; [specialize (H 0); cbn in H; congruence|]. apply IH. intro n. exact (H (S n)). Qed.
Lemma nth_error_seq a n i : nth_error (seq a n) i = if (i <? n)%nat then Some (a + i) else None.
Proof.
  revert a i. induction n as [|n IH]; intros a i; [now destruct i|]. destruct i as [|i]; cbn [seq nth_error]; [cbn; now rewrite Nat.add_0_r|]. rewrite IH. destruct (Nat.ltb_spec i n), (Nat.ltb_spec (S i) (S n)); try lia; [f_equal; lia|reflexivity].
Qed.
Lemma tok_pos_some t tk i : tok_pos t tk = Some i -> nth_error tk i = Some t.
Proof.
  revert i. induction tk as [|a l IH]; intros i; cbn; [discriminate|]. destruct (str_eqb t a) eqn:E; [injection 1 as <-; apply str_eqb_eq in E; now subst|]. destruct (tok_pos t l); [|discriminate]. injection 1 as <-. now apply IH.
Qed.
Lemma tok_pos_none t tk : tok_pos t tk = None -> ~ In t tk.
Proof.
  induction tk as [|a l IH]; cbn; [auto|]. destruct (str_eqb t a) eqn:E; [discriminate|]. apply str_eqb_neq in E. destruct (tok_pos t l); [discriminate|]. intros _ [P|P]; [congruence|now apply IH].
Qed.
Lemma number_spec t tk i tk1 : number t tk = (i, tk1) -> NoDup tk ->
  NoDup tk1 /\ (exists e, tk1 = tk ++ e) /\ nth_error tk1 i = Some t /\ (forall a, In a tk1 <-> In a tk \/ a = t).
Proof.
  unfold number. destruct (tok_pos t tk) eqn:E; injection 1 as <- <-; intro N.
  - apply tok_pos_some in E. repeat split; auto; [exists []; now rewrite app_nil_r|intros [P| ->]; [assumption|now apply nth_error_In in E]].
  - apply tok_pos_none in E. repeat split; auto.
    + apply NoDup_Add with (a := t) (l := tk); [rewrite <- (app_nil_r tk) at 1; apply Add_app|]. auto.
    + eexists; reflexivity.
    + rewrite nth_error_app2, Nat.sub_diag by lia. reflexivity.
    + rewrite in_app_iff. cbn. intuition.
    + rewrite in_app_iff. cbn. intuition.
Qed.
Lemma number_all_spec g tk a mp tk' : number_all g tk = (a, mp, tk') -> NoDup tk ->
  NoDup tk' /\ (exists e, tk' = tk ++ e) /\ mp = map snd g /\ Forall2 (fun i p => nth_error tk' i = Some (fst p)) a g /\ (forall t, In t tk' <-> In t tk \/ In t (map fst g)).
Proof.
  revert tk a mp tk'. induction g as [|[t v] g IH]; intros tk a mp tk'; cbn [number_all].
  - injection 1 as <- <- <-. intro N. repeat split; auto; [exists []; now rewrite app_nil_r|intros [P|[]]; exact P].
  - destruct (number t tk) as [i tk1] eqn:E1. destruct (number_all g tk1) as [[a1 mp1] tk2] eqn:E2. injection 1 as <- <- <-. intro N.
    destruct (number_spec _ _ _ _ E1 N) as (N1 & [e1 X1] & A1 & I1). destruct (IH _ _ _ _ E2 N1) as (N2 & [e2 X2] & M2 & F2 & I2).
    assert (L1 : i < length tk1) by (apply nth_error_Some; congruence).
    repeat split; auto.
    + exists (e1 ++ e2). rewrite X2, X1. now rewrite app_assoc.
    + cbn. now rewrite M2.
    + constructor; [|assumption]. cbn. rewrite X2, nth_error_app1 by assumption. exact A1.
    + intro P. apply I2 in P. destruct P as [P|P]; [apply I1 in P; destruct P as [P| ->]; [auto|right; now left]|right; now right].
    + intro P. apply I2. cbn [map fst In] in P. destruct P as [P|[P|P]]; [left; apply I1; auto|left; apply I1; auto|auto].
Qed.
Lemma numbers_nodup {A} tk a (g : list (str * A)) : NoDup (map fst g) -> Forall2 (fun i p => nth_error tk i = Some (fst p)) a g -> NoDup a.
Proof.
  intros N F. induction F as [|i p a g H F IH]; [constructor|]. cbn in N. inversion N as [|? ? N1 N2]; subst. constructor; [|auto]. intro P. destruct (Forall2_in _ _ _ _ F P) as (p' & Hp & E). destruct N1. apply in_map_iff. exists p'. split; [congruence|assumption].
Qed.

(* ---- unpacking ---- *)
Lemma max_fold l n : fold_left (fun n q => if (n <=? q)%nat then S q else n) l n = Nat.max n (list_max (map S l)).
Proof. revert n. induction l as [|q l IH]; intro n; cbn [fold_left map list_max fold_right]; [lia|]. rewrite IH. change (fold_right Nat.max 0 (map S l)) with (list_max (map S l)). destruct (Nat.leb_spec n q); lia. Qed.
Lemma list_max_ge l x : In x l -> x <= list_max l.
Proof. induction l as [|a l IH]; cbn; [tauto|]. change (fold_right Nat.max 0 l) with (list_max l). intros [->|H]; [lia|]. specialize (IH H). lia. Qed.
Lemma list_max_lub l n : (forall x, In x l -> x <= n) -> list_max l <= n.
Proof. intro H. apply list_max_le. now apply Forall_forall. Qed.
Lemma set_nth_len {A} i (x : A) v : length (set_nth i x v) = length v.
Proof. revert i. induction v as [|a v IH]; intros [|i]; cbn; auto. Qed.
Lemma set_nth_nth {A} i (x : A) v k : nth_error (set_nth i x v) k = if ((k =? i) && (k <? length v))%nat then Some x else nth_error v k.
Proof.
  revert i k. induction v as [|a v IH]; intros [|i] [|k]; cbn [set_nth nth_error length]; try reflexivity; [now rewrite andb_false_r|]. rewrite IH. destruct (Nat.eqb_spec k i), (Nat.eqb_spec (S k) (S i)), (Nat.ltb_spec k (length v)), (Nat.ltb_spec (S k) (S (length v))); try lia; reflexivity.
Qed.
Lemma sets_len {A} (x : A) l v : length (fold_left (fun r q => set_nth q x r) l v) = length v.
Proof. revert v. induction l as [|q l IH]; intro v; cbn; [reflexivity|]. rewrite IH. apply set_nth_len. Qed.
Lemma sets_nth {A} (x : A) l v k : k < length v -> nth_error (fold_left (fun r q => set_nth q x r) l v) k = if existsb (Nat.eqb k) l then Some x else nth_error v k.
Proof.
  revert v. induction l as [|q l IH]; intros v H; cbn [fold_left existsb]; [reflexivity|]. rewrite IH by (now rewrite set_nth_len). rewrite set_nth_nth. destruct (Nat.ltb_spec k (length v)); [|lia]. rewrite andb_true_r. destruct (existsb (Nat.eqb k) l); [now rewrite orb_true_r|]. rewrite orb_false_r. reflexivity.
Qed.
(* the loop over the groups, started at group a *)
Lemma unpack_loop (v : list nat) mp a r n : length r = n -> a + length mp <= length v ->
  exists r', foldM (fun p r => do x <- vget v (fst p); Ok (fold_left (fun r q => set_nth q x r) (snd p) r)) (combine (seq a (length mp)) mp) r = Ok r' /\ length r' = n /\
    (forall k, k < n -> (forall i l, nth_error mp i = Some l -> ~ In k l) -> nth_error r' k = nth_error r k) /\
    (forall k i l, k < n -> nth_error mp i = Some l -> In k l -> (forall j l', nth_error mp j = Some l' -> In k l' -> j = i) -> nth_error r' k = nth_error v (a + i)).
Proof.
  revert a r. induction mp as [|l mp IH]; intros a r Hr Hl; cbn [length seq combine foldM].
  - exists r. repeat split; auto. intros k i l _ H. destruct i; discriminate.
  - cbn in Hl. cbn [fst snd]. unfold vget at 1. destruct (nth_error v a) as [x|] eqn:Ex; [|apply nth_error_None in Ex; lia]. cbn [bind].
    destruct (IH (S a) (fold_left (fun r q => set_nth q x r) l r) ltac:(now rewrite sets_len) ltac:(lia)) as (r' & E & L & Z & U). exists r'. repeat split; auto.
    + intros k Hk Hn. rewrite Z; [|assumption|intros i l' Hi; exact (Hn (S i) l' Hi)]. rewrite sets_nth by lia. destruct (existsb (Nat.eqb k) l) eqn:X; [|reflexivity]. apply existsb_exists in X. destruct X as (q & Q1 & Q2). apply Nat.eqb_eq in Q2. subst q. destruct (Hn 0 l eq_refl Q1).
    + intros k [|i] l0 Hk Hi Hin Hu.
      * cbn in Hi. injection Hi as <-. rewrite Z; [|assumption|intros i l' Hi P; specialize (Hu (S i) l' Hi P); lia]. rewrite sets_nth by lia. rewrite Nat.add_0_r, Ex. destruct (existsb (Nat.eqb k) l) eqn:X; [reflexivity|]. exfalso. assert (T : existsb (Nat.eqb k) l = true) by (apply existsb_exists; exists k; split; [assumption|apply Nat.eqb_refl]). congruence.
      * rewrite (U k i l0 Hk Hi Hin); [f_equal; lia|]. intros j l' Hj P. specialize (Hu (S j) l' Hj P). lia.
Qed.
Lemma unpack_group l a (tk : list str) : Forall2 (fun i p => nth_error tk i = Some (fst p)) a (group l) ->
  exists ids, unpack a (map snd (group l)) = Ok ids /\ Forall2 (fun i t => nth_error tk i = Some t) ids l /\ forall i, In i a <-> In i ids.
Proof.
  intro F. pose proof (Forall2_len _ _ _ F) as La. pose proof (sorted_keys _ (group_sorted l)) as NK.
  assert (G : forall k, k < length l <-> In k (concat (map snd (group l)))).
  { intro k. rewrite in_concat. split.
    - intro H. destruct (nth_error l k) as [t|] eqn:E; [|apply nth_error_None in E; lia]. apply group_in in E. destruct E as (v & H1 & H2). exists v. split; [apply in_map_iff; exists (t, v); auto|assumption].
    - intros (v & H1 & H2). apply in_map_iff in H1. destruct H1 as ([t v'] & <- & H1). apply nth_error_Some. assert (nth_error l k = Some t) by (apply group_in; eauto). congruence. }
  assert (N : fold_left (fun n q => if (n <=? q)%nat then S q else n) (concat (map snd (group l))) 0 = length l).
  { rewrite max_fold, Nat.max_0_l. apply Nat.le_antisymm.
    - apply list_max_lub. intros x H. apply in_map_iff in H. destruct H as (k & <- & H). apply G in H. lia.
    - destruct (length l) as [|n]; [lia|]. apply list_max_ge. apply in_map_iff. exists n. split; [reflexivity|]. apply G. lia. }
  unfold unpack. rewrite N. destruct (unpack_loop a (map snd (group l)) 0 (repeat 0 (length l)) (length l) (repeat_length _ _) ltac:(rewrite map_length; lia)) as (r & E & Lr & _ & U).
  exists r. split; [exact E|].
  assert (V : forall k t, nth_error l k = Some t -> exists i, nth_error r k = Some i /\ nth_error tk i = Some t).
  { intros k t Hk. assert (Hlt : k < length l) by (apply nth_error_Some; congruence). apply group_in in Hk. destruct Hk as (v & H1 & H2). apply In_nth_error in H1. destruct H1 as [g H1].
    destruct (Forall2_nth_r _ _ _ _ _ F H1) as (i & Hi & Ht). exists i. split; [|exact Ht]. rewrite (U k g v Hlt); [exact Hi|now apply (map_nth_error snd) in H1|assumption|].
    intros j l' Hj P. rewrite nth_error_map in Hj. destruct (nth_error (group l) j) as [[t' v']|] eqn:Ej; [|discriminate]. cbn in Hj. injection Hj as ->.
    assert (t' = t). { assert (nth_error l k = Some t') by (apply group_in; exists l'; split; [now apply nth_error_In in Ej|assumption]). assert (nth_error l k = Some t) by (apply group_in; exists v; split; [now apply nth_error_In in H1|assumption]). congruence. } subst t'.
    eapply NoDup_nth_error; [exact NK|rewrite map_length; apply nth_error_Some; congruence|]. rewrite !nth_error_map, Ej, H1. reflexivity. }
  assert (F2 : Forall2 (fun i t => nth_error tk i = Some t) r l).
  { clear - V Lr. revert r V Lr. induction l as [|t l IH]; intros [|i r] V Lr; try discriminate; constructor.
    - destruct (V 0 t eq_refl) as (i' & E & H). injection E as ->. exact H.
    - apply IH; [intros k t' Hk; exact (V (S k) t' Hk)|cbn in Lr; lia]. }
  split; [exact F2|]. intro i. split.
  - intro H. apply In_nth_error in H. destruct H as [g Hg]. destruct (Forall2_nth _ _ _ _ _ F Hg) as ([t v] & H1 & _). assert (T : In t l) by (apply group_keys, in_map_iff; exists (t, v); split; [reflexivity|now apply nth_error_In in H1]).
    apply In_nth_error in T. destruct T as [k Hk]. pose proof Hk as Hk'. apply group_in in Hk. destruct Hk as (v' & H2 & H3). assert (v' = v) as -> by (eapply key_unique; [exact NK|exact H2|now apply nth_error_In in H1]).
    apply nth_error_In with (n := k). rewrite (U k g v); [exact Hg|apply nth_error_Some; congruence|now apply (map_nth_error snd) in H1|assumption|].
    intros j l' Hj P. rewrite nth_error_map in Hj. destruct (nth_error (group l) j) as [[t' v']|] eqn:Ej; [|discriminate]. cbn in Hj. injection Hj as ->.
    assert (nth_error l k = Some t') by (apply group_in; exists l'; split; [now apply nth_error_In in Ej|assumption]). assert (t' = t) by congruence. subst t'.
    eapply NoDup_nth_error; [exact NK|rewrite map_length; apply nth_error_Some; congruence|]. rewrite !nth_error_map, Ej, H1. reflexivity.
  - intro H. apply In_nth_error in H. destruct H as [k Hk]. destruct (Forall2_nth _ _ _ _ _ F2 Hk) as (t & Ht & _). assert (Hlt : k < length l) by (apply nth_error_Some; congruence). pose proof Ht as Ht'. apply group_in in Ht. destruct Ht as (v & H1 & H2). apply In_nth_error in H1. destruct H1 as [g H1].
    rewrite (U k g v Hlt) in Hk; [now apply nth_error_In in Hk|now apply (map_nth_error snd) in H1|assumption|].
    intros j l' Hj P. rewrite nth_error_map in Hj. destruct (nth_error (group l) j) as [[t' v']|] eqn:Ej; [|discriminate]. cbn in Hj. injection Hj as ->.
    assert (nth_error l k = Some t') by (apply group_in; exists l'; split; [now apply nth_error_In in Ej|assumption]). assert (t' = t) by congruence. subst t'.
    eapply NoDup_nth_error; [exact NK|rewrite map_length; apply nth_error_Some; congruence|]. rewrite !nth_error_map, Ej, H1. reflexivity.
Qed.
