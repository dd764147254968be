(* Prop_Plan.v -- planning of Einstein sums: C98 (reading them), C99 (trees of contractions), C100 (index sets) *)
From Coq Require Import Ascii String Sorted Permutation Relations.
From Verif Require Import Base BaseFacts Model_Einsum Model_Plan Spec_Plan Proofs_Plan Proofs_Plan2 Proofs_Plan3 Proofs_Plan4 Proofs_Plan5.
Import ListNotations.
Local Open Scope nat_scope.

(* ================= C98 ================= *)
Definition chars (s : string) : str := list_ascii_of_string s.
Definition plan_of (s : str) (ll : list (list str)) (tk : list str) (al : list (list nat)) (ml : list (list (list nat))) : Prop :=
  NoDup tk /\ List.length al = List.length ll /\ List.length ml = List.length ll /\ (forall t, In t tk <-> exists l, In l ll /\ In t l) /\
  (forall j l, nth_error ll j = Some l -> exists a mp, nth_error al j = Some a /\ nth_error ml j = Some mp /\ read_as tk a mp l) /\
  form_of s = if forallb (conv_ok tk al) (seq 0 (List.length tk)) then Ok (sorted_form tk al ml (List.length tk)) else Throw.
Lemma uses_occ s ll tk al ml i t o : plan_of s ll tk al ml -> nth_error tk i = Some t -> uses ll t o -> occ_of al i = o.
Proof.
  intros (N & L1 & L2 & I & R & _) Hi (No & So & Uo). apply sorted_same; [apply occ_sorted|now apply nth_sorted|]. intro q. rewrite occ_in, Uo. split.
  - intros (a & Ha & Hin). assert (q < List.length ll) by (rewrite <- L1; apply nth_error_Some; congruence). destruct (nth_error ll q) as [l|] eqn:El; [|apply nth_error_None in El; lia].
    destruct (R q l El) as (a' & mp & Ha' & _ & _ & F). assert (a' = a) by congruence. subst a'. exists l. split; [reflexivity|]. destruct (Forall2_in _ _ _ _ F Hin) as (p & Hp & Ep). apply group_keys, in_map_iff. exists p. split; [congruence|assumption].
  - intros (l & El & Hin). destruct (R q l El) as (a & mp & Ha & _ & _ & F). exists a. split; [assumption|]. apply group_keys, in_map_iff in Hin. destruct Hin as (p & Ep & Hp). destruct (Forall2_in_r _ _ _ _ F Hp) as (i' & Hi' & E).
    assert (i' = i). { eapply NoDup_nth_error; [exact N|apply nth_error_Some; congruence|]. rewrite E, Hi. congruence. } now subst i'.
Qed.
Lemma occ_uses s ll tk al ml i t : plan_of s ll tk al ml -> nth_error tk i = Some t -> uses ll t (occ_of al i).
Proof.
  intros (N & L1 & L2 & I & R & _) Hi. repeat split; [apply sorted_nodup, occ_sorted|intros a b x y; apply sorted_nth, occ_sorted| |].
  - intro H. apply occ_in in H. destruct H as (a & Ha & Hin). assert (j < List.length ll) by (rewrite <- L1; apply nth_error_Some; congruence). destruct (nth_error ll j) as [l|] eqn:El; [|apply nth_error_None in El; lia].
    destruct (R j l El) as (a' & mp & Ha' & _ & _ & F). assert (a' = a) by congruence. subst a'. exists l. split; [reflexivity|]. destruct (Forall2_in _ _ _ _ F Hin) as (p & Hp & Ep). apply group_keys, in_map_iff. exists p. split; [congruence|assumption].
  - intros (l & El & Hin). apply occ_in. destruct (R j l El) as (a & mp & Ha & _ & _ & F). exists a. split; [assumption|]. apply group_keys, in_map_iff in Hin. destruct Hin as (p & Ep & Hp). destruct (Forall2_in_r _ _ _ _ F Hp) as (i' & Hi' & E).
    assert (i' = i). { eapply NoDup_nth_error; [exact N|apply nth_error_Some; congruence|]. rewrite E, Hi. congruence. } now subst i'.
Qed.
Lemma planned s ls lr : written s ls lr -> exists tk al ml, plan_of s (lr :: ls) tk al ml.
Proof.
  intros (ss & r & -> & W & Wr & F & Hl). assert (W' : Forall2 writes (r :: ss) (lr :: ls)) by now constructor.
  destruct (tokenize_all_spec _ _ [] W' (NoDup_nil _)) as (al & ml & tk & E & N & _ & L1 & L2 & I & R). exists tk, al, ml.
  assert (I' : forall t, In t tk <-> exists l, In l (lr :: ls) /\ In t l) by (intro t; rewrite I; split; [intros [[]|P]; exact P|auto]).
  repeat split; auto; [apply I'|apply I'|]. unfold form_of. rewrite cut_arrow_ok.
  - rewrite pieces_join; [|eapply Forall_impl; [|exact F]; intros a [H _]; exact H|exact Hl]. rewrite E. cbn [bind]. rewrite <- first_form. apply classify_all; [|lia].
    intros i Hi. destruct (nth_error tk i) as [t|] eqn:Et; [|apply nth_error_None in Et; lia]. destruct (proj1 (I' t) (nth_error_In _ _ Et)) as (l & Hl' & Ht). apply In_nth_error in Hl'. destruct Hl' as [j Hj]. destruct (R j l Hj) as (a & mp & Ha & _ & _ & F').
    apply group_keys, in_map_iff in Ht. destruct Ht as (p & Ep & Hp). destruct (Forall2_in_r _ _ _ _ F' Hp) as (i' & Hi' & E'). assert (i' = i) by (eapply NoDup_nth_error; [exact N|apply nth_error_Some; congruence|]; rewrite E', Et; congruence). subst i'.
    intro Z. assert (In j (occ_of al i)) by (apply occ_in; eauto). rewrite Z in H. destruct H.
  - apply join_no; [discriminate|]. eapply Forall_impl; [|exact F]. intros a [_ H]; exact H.
Qed.
Lemma conv_token_iff t : conv_token t = true <-> conv_label t.
Proof.
  unfold conv_label. destruct t as [|c [|d [|e t]]]; cbn [conv_token]; try (split; [discriminate|intros [x H]; discriminate]). rewrite Ascii.eqb_eq. split; [intros ->; eauto|intros [x H]; congruence].
Qed.

Theorem C98_reads s ls lr F : written s ls lr -> form_of s = Ok F ->
  List.length (args F) = S (List.length ls) /\ NoDup (tokens F) /\ (forall t, In t (tokens F) <-> exists l, In l (lr :: ls) /\ In t l) /\
  forall j l, nth_error (lr :: ls) j = Some l -> exists a mp ids, nth_error (args F) j = Some a /\ nth_error (maps F) j = Some mp /\ NoDup a /\
    unpack a mp = Ok ids /\ Forall2 (fun i t => nth_error (tokens F) i = Some t) ids l /\ forall i, In i a <-> In i ids.
Proof.
  intros W E. destruct (planned _ _ _ W) as (tk & al & ml & P). pose proof P as (N & L1 & L2 & I & R & Ef). rewrite Ef in E. destruct (forallb _ _); [|discriminate]. injection E as <-. cbn [args tokens maps sorted_form]. split; [exact L1|]. split; [exact N|]. split; [exact I|].
  intros j l Hj. destruct (R j l Hj) as (a & mp & Ha & Hm & -> & Fg). destruct (unpack_group l a tk Fg) as (ids & U & F2 & In2). exists a, (map snd (group l)), ids. repeat split; auto; [|apply In2|apply In2].
  eapply numbers_nodup; [|exact Fg]. apply sorted_keys, group_sorted.
Qed.
Print Assumptions C98_reads.

Lemma two_len o : two o = (2 <=? List.length o)%nat.
Proof. now destruct o as [|a [|b o]]. Qed.
Lemma zer_in o : StronglySorted lt o -> zer o = true <-> In 0 o.
Proof.
  intro H. destruct o as [|a o]; [split; [discriminate|intros []]|]. cbn [zer]. rewrite Nat.eqb_eq. split; [intros ->; now left|]. intros [->|P]; [reflexivity|]. inversion H as [|? ? _ F]; subst. rewrite Forall_forall in F. specialize (F 0 P). lia.
Qed.
Lemma filter_seq_sorted f a n : StronglySorted lt (filter f (seq a n)).
Proof.
  revert a. induction n as [|n IH]; intro a; [constructor|]. cbn [seq filter]. destruct (f a); [|apply IH]. constructor; [apply IH|]. apply Forall_forall. intros x H. apply filter_In in H. destruct H as [H _]. apply in_seq in H. lia.
Qed.
Lemma in_filter_seq f n i : In i (filter f (seq 0 n)) <-> i < n /\ f i = true.
Proof. rewrite filter_In, in_seq. intuition lia. Qed.

(* the four lists *)
Theorem C98_sorts s ls lr F : written s ls lr -> form_of s = Ok F ->
  (forall i t o, nth_error (tokens F) i = Some t -> uses (lr :: ls) t o ->
     nth_error (occ F) i = Some o /\
     (In i (contr F) <-> ~ In 0 o /\ 2 <= List.length o) /\
     (In i (conv F) <-> In 0 o /\ List.length o = 3 /\ conv_label t) /\
     ((exists v, In v (transfers F) /\ Forall2 (fun q p => fst p = q /\ exists a, nth_error (args F) q = Some a /\ nth_error a (snd p) = Some i) o v) <-> In 0 o /\ 2 <= List.length o /\ ~ conv_label t) /\
     (forall j, (exists a v k, nth_error (args F) j = Some a /\ nth_error (summations F) j = Some v /\ In k v /\ nth_error a k = Some i) <-> o = [j])) /\
  (forall i, In i (contr F) \/ In i (conv F) -> i < List.length (tokens F)) /\ increasing (contr F) /\ increasing (conv F) /\
  (forall v, In v (transfers F) -> exists i t o, nth_error (tokens F) i = Some t /\ uses (lr :: ls) t o /\ Forall2 (fun q p => fst p = q /\ exists a, nth_error (args F) q = Some a /\ nth_error a (snd p) = Some i) o v) /\
  (forall j v k, nth_error (summations F) j = Some v -> In k v -> exists a i, nth_error (args F) j = Some a /\ nth_error a k = Some i).
Proof.
  intros W E. destruct (planned _ _ _ W) as (tk & al & ml & P). pose proof P as (N & L1 & L2 & I & R & Ef). rewrite Ef in E. destruct (forallb _ _) eqn:Ec; [|discriminate]. injection E as <-. cbn [args tokens maps occ contr conv summations transfers sorted_form].
  rewrite forallb_forall in Ec.
  assert (AN : forall j a, nth_error al j = Some a -> NoDup a).
  { intros j a Ha. assert (j < List.length (lr :: ls)) by (rewrite <- L1; apply nth_error_Some; congruence). destruct (nth_error (lr :: ls) j) as [l|] eqn:El; [|apply nth_error_None in El; lia]. destruct (R j l El) as (a' & mp & Ha' & _ & _ & Fg). assert (a' = a) by congruence. subst a'. eapply numbers_nodup; [|exact Fg]. apply sorted_keys, group_sorted. }
  assert (PN : forall i q, In q (occ_of al i) -> exists a, nth_error al q = Some a /\ nth_error a (posn al i q) = Some i).
  { intros i q Hq. apply occ_in in Hq. destruct Hq as (a & Ha & Hi). exists a. split; [assumption|]. now apply (find_posn al i q a). }
  assert (TR : forall i, Forall2 (fun q p => fst p = q /\ exists a, nth_error al q = Some a /\ nth_error a (snd p) = Some i) (occ_of al i) (trans al i)).
  { intro i. unfold trans. specialize (PN i). revert PN. generalize (occ_of al i). intro o. induction o as [|q o IH]; intro PN; constructor; [split; [reflexivity|apply PN; now left]|apply IH; intros; apply PN; now right]. }
  assert (SM : forall j, nth_error (map (fun j => map (fun i => posn al i j) (filter (is_s al j) (seq 0 (List.length tk)))) (seq 0 (List.length al))) j = if (j <? List.length al)%nat then Some (map (fun i => posn al i j) (filter (is_s al j) (seq 0 (List.length tk)))) else None).
  { intro j. rewrite nth_error_map, nth_error_seq. now destruct (j <? List.length al)%nat. }
  assert (IS : forall j i, is_s al j i = true <-> occ_of al i = [j]).
  { intros j i. unfold is_s. destruct (occ_of al i) as [|x [|y o]]; cbn [kind_s]; try (split; discriminate). rewrite Nat.eqb_eq. split; congruence. }
  split; [|split; [|split; [|split; [|split]]]].
  - intros i t o Hi Ho. pose proof (uses_occ _ _ _ _ _ _ _ _ P Hi Ho) as Eo. assert (Hlt : i < List.length tk) by (apply nth_error_Some; congruence). assert (Et : nth i tk [] = t) by now apply nth_error_nth. pose proof (occ_sorted al i) as So. rewrite Eo in So. pose proof (zer_in o So) as Zo.
    specialize (Ec i ltac:(apply in_seq; lia)).
    split; [|split; [|split; [|split]]].
    + rewrite nth_error_map, nth_error_seq. destruct (Nat.ltb_spec i (List.length tk)); [|lia]. cbn. now rewrite Eo.
    + rewrite in_filter_seq. unfold is_c. rewrite Eo, two_len, andb_true_iff, negb_true_iff, Nat.leb_le, <- Zo. destruct (zer o); intuition congruence.
    + rewrite in_filter_seq. unfold conv_ok, is_v in *. rewrite Eo, Et, two_len in *. rewrite !andb_true_iff, Nat.leb_le, conv_token_iff, Zo. split.
      * intros [_ [[H1 H2] H3]]. apply Zo in H2. apply conv_token_iff in H3. rewrite H2, H3 in Ec. destruct (Nat.leb_spec 2 (List.length o)); [|lia]. cbn in Ec. apply Nat.eqb_eq in Ec. apply Zo in H2. apply conv_token_iff in H3. auto.
      * intros (H1 & H2 & H3). repeat split; auto; lia.
    + split.
      * intros (v & Hv & Fv). apply in_map_iff in Hv. destruct Hv as (i' & <- & Hi'). apply in_filter_seq in Hi'. destruct Hi' as [Hl' Hi'].
        assert (o <> []). { intros ->. pose proof (Forall2_len _ _ _ Fv) as Z. unfold trans in Z. rewrite map_length in Z. unfold is_t in Hi'. destruct (occ_of al i'); discriminate. }
        assert (i' = i).
        { pose proof (TR i') as T. destruct o as [|q o']; [contradiction|]. inversion Fv as [|? p ? v' [Hq (a & Ha & Hk)] _ Z1 Z2]. subst. rewrite <- Z2 in T. inversion T as [|? ? ? ? [Hq' (a' & Ha' & Hk')] _]; subst. assert (a' = a) by congruence. subst a'. congruence. } subst i'.
        unfold is_t in Hi'. rewrite Eo, Et, two_len, !andb_true_iff, negb_true_iff, Nat.leb_le, Zo in Hi'. destruct Hi' as [[H1 H2] H3]. repeat split; auto. intro C. apply conv_token_iff in C. congruence.
      * intros (H1 & H2 & H3). exists (trans al i). split; [|rewrite <- Eo; apply TR]. apply in_map_iff. exists i. split; [reflexivity|]. apply in_filter_seq. split; [assumption|]. unfold is_t. rewrite Eo, Et, two_len, !andb_true_iff, negb_true_iff, Nat.leb_le, Zo. repeat split; auto. destruct (conv_token t) eqn:C; [|reflexivity]. apply conv_token_iff in C. contradiction.
    + intro j. split.
      * intros (a & v & k & Ha & Hv & Hk & Hn). rewrite SM in Hv. destruct (j <? List.length al)%nat; [|discriminate]. injection Hv as <-. apply in_map_iff in Hk. destruct Hk as (i' & <- & Hi'). apply in_filter_seq in Hi'. destruct Hi' as [_ Hi']. apply IS in Hi'. destruct (PN i' j ltac:(rewrite Hi'; now left)) as (a' & Ha' & Hn'). assert (a' = a) by congruence. subst a'. assert (i' = i) by congruence. subst i'. congruence.
      * intros ->. destruct (PN i j ltac:(rewrite Eo; now left)) as (a & Ha & Hn). assert (j < List.length al) by (apply nth_error_Some; congruence). exists a, (map (fun i => posn al i j) (filter (is_s al j) (seq 0 (List.length tk)))), (posn al i j). split; [assumption|]. split; [rewrite SM; now destruct (Nat.ltb_spec j (List.length al)); [|lia]|]. split; [|assumption]. apply in_map_iff. exists i. split; [reflexivity|]. apply in_filter_seq. split; [assumption|]. now apply IS.
  - intros i [H|H]; apply in_filter_seq in H; apply H.
  - intros a b x y. apply sorted_nth, filter_seq_sorted.
  - intros a b x y. apply sorted_nth, filter_seq_sorted.
  - intros v Hv. apply in_map_iff in Hv. destruct Hv as (i & <- & Hi). apply in_filter_seq in Hi. destruct Hi as [Hl _]. destruct (nth_error tk i) as [t|] eqn:Et; [|apply nth_error_None in Et; lia]. exists i, t, (occ_of al i). split; [assumption|]. split; [eapply occ_uses; eassumption|apply TR].
  - intros j v k Hv Hk. rewrite SM in Hv. destruct (j <? List.length al)%nat; [|discriminate]. injection Hv as <-. apply in_map_iff in Hk. destruct Hk as (i & <- & Hi). apply in_filter_seq in Hi. destruct Hi as [_ Hi]. apply IS in Hi. destruct (PN i j ltac:(rewrite Hi; now left)) as (a & Ha & Hn). eauto.
Qed.
Print Assumptions C98_sorts.

(* which expressions are taken *)
Theorem C98_accepts s ls lr : written s ls lr ->
  ((forall t o, uses (lr :: ls) t o -> conv_label t -> In 0 o -> List.length o = 1 \/ List.length o = 3) -> exists F, form_of s = Ok F) /\
  (forall t o, uses (lr :: ls) t o -> conv_label t -> In 0 o -> List.length o <> 1 -> List.length o <> 3 -> form_of s = Throw).
Proof.
  intro W. destruct (planned _ _ _ W) as (tk & al & ml & P). pose proof P as (N & L1 & L2 & I & R & Ef). rewrite Ef. split.
  - intro H. destruct (forallb _ _) eqn:Ec; [eauto|]. exfalso. apply Bool.not_true_iff_false in Ec. apply Ec. apply forallb_forall. intros i Hi. apply in_seq in Hi. destruct (nth_error tk i) as [t|] eqn:Et; [|apply nth_error_None in Et; lia].
    unfold conv_ok, is_v. rewrite (nth_error_nth _ _ _ Et). destruct (two (occ_of al i) && zer (occ_of al i) && conv_token t) eqn:X; [|reflexivity]. rewrite !andb_true_iff, two_len, Nat.leb_le, (zer_in _ (occ_sorted al i)), conv_token_iff in X. destruct X as [[X1 X2] X3].
    destruct (H t (occ_of al i) ltac:(eapply occ_uses; eassumption) X3 X2); [lia|]. cbn. now apply Nat.eqb_eq.
  - intros t o Ho Hc H0 H1 H3. destruct Ho as (No & So & Uo). pose proof (proj1 (Uo 0) H0) as (l & Hl & Ht). assert (Tk : In t tk) by (apply I; exists l; split; [eapply nth_error_In; exact Hl|assumption]). apply In_nth_error in Tk. destruct Tk as [i Hi]. assert (Eo : occ_of al i = o) by (eapply uses_occ; [exact P|exact Hi|now repeat split; try apply Uo]).
    destruct (forallb _ _) eqn:Ec; [|reflexivity]. exfalso. rewrite forallb_forall in Ec. assert (Hlt : i < List.length tk) by (apply nth_error_Some; congruence). specialize (Ec i ltac:(apply in_seq; lia)). unfold conv_ok, is_v in Ec. rewrite (nth_error_nth _ _ _ Hi), Eo, two_len in Ec.
    assert (Z : zer o = true) by (rewrite <- Eo; apply zer_in; [apply occ_sorted|now rewrite Eo]). rewrite Z, (proj2 (conv_token_iff t) Hc) in Ec. destruct o as [|x [|y o]]; [destruct H0|cbn in H1; lia|]. cbn [List.length Nat.leb andb negb orb] in Ec. apply Nat.eqb_eq in Ec. cbn in H3. lia.
Qed.
Print Assumptions C98_accepts.

Lemma no_arrow s : (forall a b, s <> a ++ "-"%char :: ">"%char :: b) -> cut_arrow s = None.
Proof.
  induction s as [|c s IH]; intro H; [reflexivity|]. destruct s as [|d s].
  - cbn. destruct (Ascii.eqb c "-"); reflexivity.
  - cbn [cut_arrow]. destruct (Ascii.eqb_spec c "-"%char) as [->|_]; cbn [andb].
    + destruct (Ascii.eqb_spec d ">"%char) as [->|_]; [destruct (H [] s eq_refl)|]. cbn [cut_arrow] in IH. rewrite IH; [reflexivity|]. intros a b E. apply (H ("-"%char :: a) b). cbn. now rewrite E.
    + cbn [cut_arrow] in IH. rewrite IH; [reflexivity|]. intros a b E. apply (H (c :: a) b). cbn. now rewrite E.
Qed.
Lemma labels_no_ub s o : labels s o <> UB.
Proof.
  revert o. induction s as [|c s IH]; intros [t|]; cbn [labels]; try discriminate; destruct (Ascii.eqb c _); try apply IH; specialize (IH None); destruct (labels s None); cbn; congruence.
Qed.
Lemma tokenize_bad ss tk : Exists (fun a => forall l, ~ writes a l) ss -> tokenize_all ss tk = Throw.
Proof.
  intro H. revert tk. induction ss as [|s ss IH]; intro tk; [inversion H|]. cbn [tokenize_all]. unfold tokenize. destruct (labels s None) as [l| |] eqn:E; cbn [bind]; [|reflexivity|destruct (labels_no_ub _ _ E)].
  inversion H as [? ? B|? ? B]; subst; [destruct (B l); now apply writes_labels|]. destruct (number_all (group l) tk) as [[a mp] tk']. now rewrite IH.
Qed.
Theorem C98_malformed :
  (forall s, (forall a b, s <> a ++ "-"%char :: ">"%char :: b) -> form_of s = Throw) /\
  (forall ss r, Forall (fun a => ~ In ","%char a /\ ~ In "-"%char a) ss -> ss = [] \/ last ss [] <> [] -> Exists (fun a => forall l, ~ writes a l) (r :: ss) -> form_of (join ss ++ "-"%char :: ">"%char :: r) = Throw).
Proof.
  split.
  - intros s H. unfold form_of. now rewrite no_arrow.
  - intros ss r F Hl B. unfold form_of. rewrite cut_arrow_ok.
    + rewrite pieces_join; [|eapply Forall_impl; [|exact F]; intros a [H _]; exact H|exact Hl]. now rewrite tokenize_bad.
    + apply join_no; [discriminate|]. eapply Forall_impl; [|exact F]. intros a [_ H]; exact H.
Qed.
Print Assumptions C98_malformed.

(* a last tensor without axes is lost: x,->r is read as x->r *)
Lemma pieces_trail ss : Forall (fun a => ~ In ","%char a) ss -> ss <> [] -> last ss [] <> [] -> pieces (join ss ++ [","%char]) [] = ss.
Proof.
  induction ss as [|a ss IH]; intros F N H; [contradiction|]. inversion F as [|? ? Ha Fs]; subst. destruct ss as [|b ss].
  - cbn [join last] in *. rewrite pieces_more by assumption. reflexivity.
  - change (join (a :: b :: ss)) with (a ++ ","%char :: join (b :: ss)). rewrite <- app_assoc. cbn [app]. rewrite pieces_more by assumption. cbn [rev app]. rewrite IH; [reflexivity|assumption|discriminate|exact H].
Qed.
Theorem C98_last_scalar_refuted ss r : Forall (fun a => ~ In ","%char a /\ ~ In "-"%char a) ss -> ss <> [] -> last ss [] <> [] ->
  form_of (join (ss ++ [[]]) ++ "-"%char :: ">"%char :: r) = form_of (join ss ++ "-"%char :: ">"%char :: r).
Proof.
  intros F N Hl. assert (J : join (ss ++ [[]]) = join ss ++ [","%char]).
  { clear F Hl. induction ss as [|a [|b ss] IH]; [contradiction|reflexivity|]. change (join ((a :: b :: ss) ++ [[]])) with (a ++ ","%char :: join ((b :: ss) ++ [[]])). rewrite IH by discriminate. change (join (a :: b :: ss)) with (a ++ ","%char :: join (b :: ss)). now rewrite <- app_assoc. }
  assert (F1 : Forall (fun a => ~ In ","%char a) ss) by (eapply Forall_impl; [|exact F]; intros a [H _]; exact H). assert (F2 : ~ In "-"%char (join ss)) by (apply join_no; [discriminate|]; eapply Forall_impl; [|exact F]; intros a [_ H]; exact H).
  unfold form_of. rewrite J, !cut_arrow_ok; [|assumption|rewrite in_app_iff; intros [H|[H|[]]]; [contradiction|discriminate]]. rewrite pieces_trail, pieces_join; auto.
Qed.
Print Assumptions C98_last_scalar_refuted.

(* tuples of indices are ordered by < *)
Theorem C98_tuple_order u v w :
  tup_lt u u = false /\ (tup_lt u v = true -> tup_lt v w = true -> tup_lt u w = true) /\ (tup_lt u v = true \/ u = v \/ tup_lt v u = true).
Proof.
  assert (L1 : forall u, tup_lex u u = false) by (induction u0 as [|a u0 IH]; [reflexivity|]; cbn [tup_lex]; rewrite Nat.ltb_irrefl, IH, andb_false_r; reflexivity).
  assert (L2 : forall u v w, List.length u = List.length v -> tup_lex u v = true -> tup_lex v w = true -> tup_lex u w = true).
  { clear u v w. induction u as [|a u IH]; intros [|b v] [|c w] E; cbn [tup_lex]; try discriminate. cbn in E. rewrite !orb_true_iff, !andb_true_iff, !Nat.ltb_lt, !Nat.eqb_eq. intros [H1|[-> H1]] [H2|[-> H2]]; [left; lia|left; lia|left; lia|right; split; [reflexivity|]]. apply (IH v); auto. }
  assert (L3 : forall u v, List.length u = List.length v -> tup_lex u v = true \/ u = v \/ tup_lex v u = true).
  { clear u v w. induction u as [|a u IH]; intros [|b v] E; cbn [tup_lex]; try discriminate; auto. rewrite !orb_true_iff, !andb_true_iff, !Nat.ltb_lt, !Nat.eqb_eq. destruct (lt_eq_lt_dec a b) as [[H| ->]|H]; auto. destruct (IH v ltac:(cbn in E; lia)) as [H|[->|H]]; auto. }
  unfold tup_lt. rewrite !orb_true_iff, !andb_true_iff, !Nat.ltb_lt, !Nat.eqb_eq. split; [|split].
  - now rewrite Nat.ltb_irrefl, L1, andb_false_r.
  - intros [H1|[E1 H1]] [H2|[E2 H2]]; [left; lia|left; lia|left; lia|right; split; [lia|now apply (L2 u v w)]].
  - destruct (lt_eq_lt_dec (List.length u) (List.length v)) as [[H|H]|H]; auto. destruct (L3 u v H) as [P|[P|P]]; auto.
Qed.
Print Assumptions C98_tuple_order.

(* matrix times vector, with a named axis, and a trace *)
Example C98_case_written : written (chars "i(row)j,j(row),kk->ii") [[chars "i"; chars "row"; chars "j"]; [chars "j"; chars "row"]; [chars "k"; chars "k"]] [chars "i"; chars "i"].
Proof.
  exists [chars "i(row)j"; chars "j(row)"; chars "kk"], (chars "ii"). split; [reflexivity|]. split; [|split; [|split]].
  - repeat (constructor; [apply writes_labels; vm_compute; reflexivity|]). constructor.
  - apply writes_labels. vm_compute. reflexivity.
  - repeat constructor; cbn; intuition discriminate.
  - right. discriminate.
Qed.
Example C98_case : form_of (chars "i(row)j,j(row),kk->ii") =
  Ok (Form [chars "i"; chars "j"; chars "row"; chars "k"] [[0]; [0; 1; 2]; [1; 2]; [3]] [[[0; 1]]; [[0]; [2]; [1]]; [[0]; [1]]; [[0; 1]]]
        [[0; 1]; [1; 2]; [1; 2]; [3]] [[]; []; []; [0]] [[(0, 0); (1, 0)]] [1; 2] []).
Proof. vm_compute. reflexivity. Qed.
Example C98_case_conv : exists F, form_of (chars "(cx)a,(cx)b->(cx)") = Ok F /\ conv F = [0] /\ form_of (chars "(cx)a->(cx)") = Throw /\ form_of (chars "i(j->i") = Throw /\ form_of (chars "ij") = Throw.
Proof. eexists. split; [vm_compute; reflexivity|]. repeat split; vm_compute; reflexivity. Qed.
Example C98_case_scalar : form_of (chars "i,->i") = form_of (chars "i->i") /\ exists F G, form_of (chars ",i->i") = Ok F /\ form_of (chars "i,->i") = Ok G /\ List.length (args F) = 3 /\ List.length (args G) = 2.
Proof. split; [vm_compute; reflexivity|]. do 2 eexists. repeat split; vm_compute; reflexivity. Qed.

(* ================= C99 ================= *)
Lemma trees_inv al fr place rem t : Permutation fr (leaves al) -> In t (trees_of place fr rem) -> exists D, Permutation D rem /\ inv al D t.
Proof.
  intros P H. destruct (trees_run _ _ _ _ H) as (cs & Pc & ->). destruct (inv_run al cs place [] _ [] (inv_start al fr P)) as (D & PD & I). exists D. split; [|exact I]. rewrite PD, app_nil_r. exact Pc.
Qed.
Lemma nodup_flat {A B} (f : A -> list B) l x y a : NoDup (flat_map f l) -> In x l -> In y l -> In a (f x) -> In a (f y) -> x = y.
Proof.
  induction l as [|z l IH]; intros N Hx Hy Ax Ay; [destruct Hx|]. cbn [flat_map] in N.
  assert (N2 : NoDup (flat_map f l)) by (clear - N; induction (f z) as [|b u IHu]; [exact N|]; cbn in N; inversion N; auto).
  assert (X : forall w, In w l -> In a (f w) -> In a (f z) -> False).
  { intros w Hw Aw Az. clear - N Hw Aw Az. induction (f z) as [|b u IHu]; [destruct Az|]. cbn in N. inversion N as [|? ? N1 N3]; subst. destruct Az as [->|Az]; [|auto]. apply N1, in_app_iff. right. apply in_flat_map. eauto. }
  destruct Hx as [<-|Hx], Hy as [<-|Hy]; [reflexivity|destruct (X y Hy Ay Ax)|destruct (X x Hx Ax Ay)|auto].
Qed.

(* whatever the order of the contractions, the product of the nodes left is the sum of the product of the tensors *)
Theorem C99_value (R : cring) (dim : nat -> Z) (T : nat -> list Z -> R) al fr place rem t e :
  Permutation fr (leaves al) -> In t (trees_of place fr rem) ->
  rprod (map (fun x => val dim T x e) (frontier t)) = sum_over dim rem (product T 1 al) e.
Proof. apply trees_value. Qed.
Print Assumptions C99_value.

(* of the trees of an expression: the tensor of the result is a factor of its own *)
Lemma contr_not_result s ls lr F c : written s ls lr -> form_of s = Ok F -> In c (contr F) -> forall r, nth_error (args F) 0 = Some r -> ~ In c r.
Proof.
  intros W E Hc r Hr Hin. destruct (C98_sorts s ls lr F W E) as (S1 & S2 & _). specialize (S2 c (or_introl Hc)). destruct (nth_error (tokens F) c) as [t|] eqn:Et; [|apply nth_error_None in Et; lia].
  destruct (planned _ _ _ W) as (tk & al & ml & P). pose proof P as (N & L1 & L2 & I & R & Ef). rewrite Ef in E. destruct (forallb _ _); [|discriminate]. injection E as <-. cbn [tokens args sorted_form] in *.
  pose proof (occ_uses _ _ _ _ _ _ _ P Et) as U. destruct (S1 c t _ Et U) as (_ & Sc & _). apply Sc in Hc. destruct Hc as [H0 _]. apply H0. apply occ_in. eauto.
Qed.
Theorem C99_value_form (R : cring) (dim : nat -> Z) (T : nat -> list Z -> R) s ls lr F r al fr place t e :
  written s ls lr -> form_of s = Ok F -> args F = r :: al -> Permutation fr (leaves (args F)) -> In t (trees_of place fr (contr F)) ->
  rprod (map (fun x => val dim T x e) (frontier t)) = cmul (T 1 (map e r)) (sum_over dim (contr F) (product T 2 al) e).
Proof.
  intros W E Ea P H. rewrite (trees_value dim T (args F) fr place (contr F) t e P H). rewrite Ea.
  assert (Hr : forall c, In c (contr F) -> ~ In c r) by (intros c Hc; eapply contr_not_result; [exact W|exact E|exact Hc|rewrite Ea; reflexivity]). clear W E Ea P H. revert e Hr. generalize (contr F). intro cs. induction cs as [|c cs IH]; intros e Hr; cbn [sum_over]; [reflexivity|].
  rewrite (rsum_ext R _ (fun k => cmul (T 1 (map e r)) (sum_over dim cs (product T 2 al) (eupd e c k)))).
  - apply (rsum_map_mul_l R).
  - intros k _. rewrite IH by (intros; apply Hr; now right). f_equal. f_equal. apply map_ext_in. intros i Hi. unfold eupd. destruct (Nat.eqb_spec i c) as [->|]; [|reflexivity]. destruct (Hr c (or_introl eq_refl) Hi).
Qed.
Print Assumptions C99_value_form.

(* the nodes of a tree *)
Theorem C99_nodes al fr place rem t x y : Permutation fr (leaves al) -> In t (trees_of place fr rem) -> In x (frontier t) -> below y x ->
  match y with
  | CArg id ix => 1 <= id /\ nth_error al (pred id) = Some ix
  | CCon c ch ix ext int lv => In c rem /\ NoDup ix /\ (forall i, In i ix <-> free y i) /\ (forall z, In z ch -> free z c) /\
      (forall i, In i ext <-> In i ix /\ forall z, In z ch -> free z i) /\ (forall i, In i int <-> In i ix /\ exists z, In z ch /\ ~ free z i) /\
      increasing ext /\ increasing int /\ lv = height y
  end.
Proof.
  intros P H Hx Hy. destruct (trees_inv _ _ _ _ _ P H) as (D & PD & I). destruct y as [id ix|c ch ix ext int lv]; [now apply (i_leaf _ _ _ I x)|].
  assert (W : wf (CCon c ch ix ext int lv)) by (intros z Hz; apply (i_wf _ _ _ I x Hx); eapply below_trans; eassumption). split; [|now apply node_facts].
  apply (Permutation_in _ PD), (Permutation_in _ (i_cons _ _ _ I)), in_flat_map. exists x. split; [assumption|]. clear - Hy. remember (CCon c ch ix ext int lv) as y. induction Hy as [x|y d ch' ix' e n lv' x Hx Hb IH]; [subst; now left|]. cbn. right. apply in_flat_map. eauto.
Qed.
Print Assumptions C99_nodes.

(* every tensor is in one of the nodes left and every contraction is made, once each; the levels list them by height *)
Theorem C99_complete al fr place rem t : Permutation fr (leaves al) -> In t (trees_of place fr rem) ->
  Permutation (flat_map args_of (frontier t)) (seq 1 (List.length al)) /\ Permutation (flat_map cons_of (frontier t)) rem /\
  (forall l c, (exists s, lev_find l (levels t) = Some s /\ In c s) <-> made_at (frontier t) l c) /\ (forall c x, In c rem -> In x (frontier t) -> ~ free x c).
Proof.
  intros P H. destruct (trees_inv _ _ _ _ _ P H) as (D & PD & I). split; [apply I|]. split; [rewrite <- PD; apply I|]. split; [apply I|]. intros c x Hc. apply (i_gone _ _ _ I). now apply (Permutation_in _ (Permutation_sym PD)).
Qed.
Print Assumptions C99_complete.

(* two tensors end up in the same node exactly if contracted indices link them *)
Theorem C99_components al fr place rem t x i j : Permutation fr (leaves al) -> In t (trees_of place fr rem) -> In x (frontier t) -> In (S i) (args_of x) ->
  In (S j) (args_of x) <-> linked al rem i j.
Proof.
  intros P H Hx Hi. destruct (trees_inv _ _ _ _ _ P H) as (D & PD & I). split.
  - intro Hj. apply (linked_more al D); [intros c Hc; now apply (Permutation_in _ PD)|]. now apply (i_link _ _ _ I x).
  - intro L. assert (N : NoDup (flat_map args_of (frontier t))) by (apply (Permutation_NoDup (Permutation_sym (i_args _ _ _ I))); apply seq_NoDup).
    assert (G : forall y, In y (frontier t) -> In (S i) (args_of y) <-> In (S j) (args_of y)).
    { clear x Hx Hi. induction L as [i j (c & a & b & Hc & Ha & Hb & Ia & Ib)|i|i j _ IH|i j k _ IH1 _ IH2]; intros y Hy; [|reflexivity|symmetry; auto|rewrite IH1 by assumption; auto].
      destruct (i_join _ _ _ I c i j a b ltac:(now apply (Permutation_in _ (Permutation_sym PD))) Ha Hb Ia Ib) as (z & Hz & Zi & Zj). split; intro Q.
      - assert (y = z) by (eapply nodup_flat; [exact N|exact Hy|exact Hz|exact Q|exact Zi]). now subst.
      - assert (y = z) by (eapply nodup_flat; [exact N|exact Hy|exact Hz|exact Q|exact Zj]). now subst. }
    now apply G.
Qed.
Print Assumptions C99_components.

(* the list of trees: one for each way the orders of contraction can share out the levels *)
Theorem C99_orders al fr place rem : Permutation fr (leaves al) ->
  (forall t, In t (trees_of place fr rem) -> exists cs, Permutation cs rem /\ t = run place [] (Ctr None fr []) cs) /\
  (forall cs, Permutation cs rem -> exists t, In t (trees_of place fr rem) /\ levels t = levels (run place [] (Ctr None fr []) cs)) /\
  NoDup (map levels (trees_of place fr rem)).
Proof.
  intro P. split; [apply trees_run|]. unfold trees_of. destruct (build_spec (List.length rem) place [] (Ctr None fr []) rem [] eq_refl ltac:(intros [] ? ? ? ? H; discriminate)) as (new & E & A & B & D). rewrite E in *. cbn [app] in *.
  assert (LS : forall cs, lsorted (levels (run place [] (Ctr None fr []) cs))) by (intro cs; destruct (inv_run al cs place [] _ [] (inv_start al fr P)) as (D' & _ & I); apply I).
  assert (LN : forall t, In t new -> lsorted (levels t)) by (intros t Ht; destruct (A t Ht) as (cs & _ & ->); apply LS).
  split.
  - intros cs Pc. destruct (B cs Pc) as [(t & Ht & X)|Ht]; [|eauto]. exists t. split; [assumption|]. apply levelwise_spec in X; [now symmetry|apply LS|now apply LN].
  - apply NoDup_nth_error. intros i j Hi Ej. rewrite map_length in Hi. rewrite !nth_error_map in Ej. destruct (nth_error new i) as [a|] eqn:Ea; [|apply nth_error_None in Ea; lia]. destruct (nth_error new j) as [b|] eqn:Eb; [|discriminate]. cbn in Ej. injection Ej as Ej.
    destruct (lt_eq_lt_dec i j) as [[Hl|Hl]|Hl]; [|assumption|]; exfalso.
    + specialize (D i j a b Hl Ea Eb). rewrite (proj2 (levelwise_spec b a (LN b (nth_error_In _ _ Eb)) (LN a (nth_error_In _ _ Ea)))) in D by congruence. discriminate.
    + specialize (D j i b a Hl Eb Ea). rewrite (proj2 (levelwise_spec a b (LN a (nth_error_In _ _ Ea)) (LN b (nth_error_In _ _ Eb)))) in D by congruence. discriminate.
Qed.
Print Assumptions C99_orders.
(* levelwise_equal compares the levels *)
Theorem C99_levelwise_equal al fr place path place' path' cs cs' : Permutation fr (leaves al) ->
  let t := run place path (Ctr None fr []) cs in let x := run place' path' (Ctr None fr []) cs' in levelwise_equal t x = true <-> forall l, lev_find l (levels t) = lev_find l (levels x).
Proof.
  intros P t x. destruct (inv_run al cs place path _ [] (inv_start al fr P)) as (D & _ & I). destruct (inv_run al cs' place' path' _ [] (inv_start al fr P)) as (D' & _ & I'). fold t in I. fold x in I'. pose proof (i_ls _ _ _ I) as L1. pose proof (i_ls _ _ _ I') as L2. rewrite (levelwise_spec t x L1 L2). split; [intros ->; reflexivity|]. intro H. destruct L1 as [L1 _]. destruct L2 as [L2 _].
  assert (J : forall p, In p (levels t) <-> In p (levels x)) by (intros [l s]; rewrite <- (lev_find_in _ l s L1), <- (lev_find_in _ l s L2), H; reflexivity).
  apply same_levels_lists; auto; [intros p; apply J|]. assert (ND : forall m : list (nat * list nat), StronglySorted (fun a b => fst a < fst b) m -> NoDup m). { induction 1 as [|p m Hm IH F]; constructor; [|assumption]. intro Q. rewrite Forall_forall in F. specialize (F _ Q). lia. }
  apply Nat.le_antisymm; apply NoDup_incl_length; auto; intros p; apply J.
Qed.
Print Assumptions C99_levelwise_equal.

(* the root: the node of the last contraction; a tree without contractions has none *)
Theorem C99_root al fr place rem t : Permutation fr (leaves al) -> In t (trees_of place fr rem) ->
  (rem = [] -> t = Ctr None fr []) /\
  (rem <> [] -> exists x c ch ix e n lv, root t = Some x /\ In x (frontier t) /\ x = CCon c ch ix e n lv /\ In c rem).
Proof.
  intros P H. destruct (trees_run _ _ _ _ H) as (cs & Pc & ->). split.
  - intros ->. apply Permutation_sym, Permutation_nil in Pc. now subst.
  - intro N. destruct (exists_last (l := cs)) as (cs' & c & ->); [intros ->; apply Permutation_nil in Pc; contradiction|]. destruct (run_root place cs' c [] (Ctr None fr [])) as (x & Rx & Fx & ch & ix & e & n & lv & Ex). exists x, c, ch, ix, e, n, lv. repeat split; auto. apply (Permutation_in _ Pc), in_app_iff. right. now left.
Qed.
Print Assumptions C99_root.
(* it does not hold all the tensors: never the result, and never two that no contracted index links *)
Lemma linked_lone al cs i j : (forall a c, nth_error al i = Some a -> In c cs -> ~ In c a) -> linked al cs i j -> j = i.
Proof.
  intros H L. assert (G : forall x y, linked al cs x y -> x = i <-> y = i); [|now apply (G i j L)]. clear L. induction 1 as [x y (c & a & b & Hc & Ha & Hb & Ia & Ib)|x|x y _ IH|x y z _ IH1 _ IH2]; [|reflexivity|now symmetry|now rewrite IH1].
  split; intros ->; exfalso; [apply (H a c Ha Hc Ia)|apply (H b c Hb Hc Ib)].
Qed.
Theorem C99_root_refuted al fr place rem t x : Permutation fr (leaves al) -> In t (trees_of place fr rem) -> root t = Some x ->
  (forall i j, i < List.length al -> j < List.length al -> ~ linked al rem i j -> exists k, k < List.length al /\ ~ In (S k) (args_of x)) /\
  (forall i a, nth_error al i = Some a -> (forall c, In c rem -> ~ In c a) -> ~ In (S i) (args_of x)).
Proof.
  intros P H Hr. destruct rem as [|c0 rem0]; [destruct (C99_root _ _ _ _ _ P H) as [Z _]; rewrite (Z eq_refl) in Hr; discriminate|]. set (rem := c0 :: rem0) in *.
  destruct (proj2 (C99_root _ _ _ _ _ P H) ltac:(discriminate)) as (x' & c & ch & ix & e & n & lv & Rx & Fx & Ex & Hc). pose proof (eq_trans (eq_sym Rx) Hr) as Z. injection Z as Z. rewrite Z in Fx, Ex. clear Rx Z. split.
  - intros i j Hi Hj Hn. destruct (in_dec Nat.eq_dec (S i) (args_of x)) as [Ai|]; [|exists i; auto]. exists j. split; [assumption|]. intro Aj. apply Hn. now apply (C99_components al fr place rem t x i j P H Fx Ai).
  - intros i a Ha Hno Ai. pose proof (C99_nodes al fr place rem t x x P H Fx (b_self x)) as NX. destruct x as [|c' ch' ix' e' n' lv']; [discriminate|]. injection Ex as -> -> -> -> -> ->. assert (Ex : CCon c ch ix e n lv = CCon c ch ix e n lv) by reflexivity. destruct NX as (_ & _ & _ & Hch & _). cbn [args_of] in Ai. apply in_flat_map in Ai. destruct Ai as (z & Hz & Ai). specialize (Hch z Hz). destruct (free_arg _ _ Hch) as (id & iz & B & Hi & A).
    destruct (C99_nodes al fr place rem t _ (CArg id iz) P H Fx ltac:(eapply b_child; eassumption)) as [H1 H2].
    assert (L : linked al rem i (pred id)). { apply (C99_components al fr place rem t _ i (pred id) P H Fx); cbn [args_of]; apply in_flat_map; exists z; (split; [assumption|]); [assumption|]. now replace (S (pred id)) with id by lia. }
    apply linked_lone in L; [|intros a' c' Ha' Hc'; replace a' with a by congruence; now apply Hno]. rewrite L in H2. replace iz with a in Hi by congruence. apply (Hno c Hc Hi).
Qed.
Print Assumptions C99_root_refuted.
Theorem C99_root_form_refuted s ls lr F fr place t x : written s ls lr -> form_of s = Ok F -> Permutation fr (leaves (args F)) -> In t (trees_of place fr (contr F)) -> root t = Some x -> ~ In 1 (args_of x).
Proof.
  intros W E P H Hr. destruct (C98_reads s ls lr F W E) as (L & _). destruct (args F) as [|r al] eqn:Ea; [cbn in L; lia|]. apply (proj2 (C99_root_refuted (r :: al) fr place (contr F) t x P H Hr) 0 r eq_refl). intros c Hc. eapply contr_not_result; [exact W|exact E|exact Hc|rewrite Ea; reflexivity].
Qed.
Print Assumptions C99_root_form_refuted.

(* four matrices in a row: six orders of the three contractions, five trees *)
Definition chain_form : form := match form_of (chars "ij,jk,kl,lm->im") with Ok F => F | _ => Form [] [] [] [] [] [] [] [] end.
Example C99_case : contr chain_form = [2; 3; 4] /\ args chain_form = [[0; 1]; [0; 2]; [2; 3]; [3; 4]; [4; 1]] /\
  map levels (trees_of (fun _ => 0) (leaves (args chain_form)) (contr chain_form)) =
    [[(1, [2]); (2, [3]); (3, [4])]; [(1, [2; 4]); (2, [3])]; [(1, [3]); (2, [2]); (3, [4])]; [(1, [3]); (2, [4]); (3, [2])]; [(1, [4]); (2, [3]); (3, [2])]].
Proof. vm_compute. repeat split; reflexivity. Qed.
Example C99_case_place : exists t, In t (trees_of (fun p => List.length p) (rev (leaves (args chain_form))) (contr chain_form)) /\ Permutation (rev (leaves (args chain_form))) (leaves (args chain_form)) /\ List.length (frontier t) = 2.
Proof. eexists. split; [vm_compute; left; reflexivity|]. split; [apply Permutation_sym, Permutation_rev|vm_compute; reflexivity]. Qed.
(* two products of a matrix and a vector: no root holds all four *)
Definition two_form : form := match form_of (chars "ij,j,kl,l->ik") with Ok F => F | _ => Form [] [] [] [] [] [] [] [] end.
Example C99_case_root : map (fun t => option_map args_of (root t)) (trees_of (fun _ => 0) (leaves (args two_form)) (contr two_form)) = [Some [4; 5]] /\ contr two_form = [2; 3] /\ args two_form = [[0; 1]; [0; 2]; [2]; [1; 3]; [3]].
Proof. vm_compute. repeat split; reflexivity. Qed.

(* ================= C100 ================= *)
Definition is_set (s : list nat) : Prop := StronglySorted lt s.
Lemma set_erase_in x s a : In a (set_erase x s) <-> In a s /\ a <> x.
Proof. unfold set_erase. rewrite filter_In, negb_true_iff, Nat.eqb_neq. intuition congruence. Qed.
Lemma set_erase_sorted x s : StronglySorted lt s -> StronglySorted lt (set_erase x s).
Proof.
  unfold set_erase. induction 1 as [|b s H IH F]; [constructor|]. cbn. destruct (x =? b)%nat; cbn; [assumption|]. constructor; [assumption|]. apply Forall_forall. intros a Ha. apply filter_In in Ha. rewrite Forall_forall in F. now apply F.
Qed.
Theorem C100_sets x y i : is_set x -> is_set y ->
  is_set (cset_contract x y i) /\ (forall a, In a (cset_contract x y i) <-> (In a x \/ In a y) /\ a <> i) /\
  is_set (cset_minus x y) /\ (forall a, In a (cset_minus x y) <-> In a x /\ ~ In a y).
Proof.
  unfold is_set. intros Hx Hy. assert (U : forall l s, StronglySorted lt s -> StronglySorted lt (fold_left (fun s p => set_insert p s) l s) /\ forall a, In a (fold_left (fun s p => set_insert p s) l s) <-> In a s \/ In a l).
  { induction l as [|p l IH]; intros s Hs; cbn [fold_left]; [split; [assumption|intro a; cbn; intuition]|]. destruct (IH (set_insert p s) (set_insert_sorted p s Hs)) as [I1 I2]. split; [assumption|]. intro a. rewrite I2, set_insert_in. cbn. intuition. }
  assert (M : forall l s, StronglySorted lt s -> StronglySorted lt (fold_left (fun s p => set_erase p s) l s) /\ forall a, In a (fold_left (fun s p => set_erase p s) l s) <-> In a s /\ ~ In a l).
  { induction l as [|p l IH]; intros s Hs; cbn [fold_left]; [split; [assumption|intro a; cbn; intuition]|]. destruct (IH (set_erase p s) (set_erase_sorted p s Hs)) as [I1 I2]. split; [assumption|]. intro a. rewrite I2, set_erase_in. cbn. intuition congruence. }
  destruct (U y x Hx) as [U1 U2]. destruct (M y x Hx) as [M1 M2]. unfold cset_contract, cset_minus. split; [now apply set_erase_sorted|]. split; [intro a; now rewrite set_erase_in, U2|]. split; assumption.
Qed.
Print Assumptions C100_sets.

Lemma erase_len_set p s : NoDup s -> In p s -> S (List.length (set_erase p s)) = List.length s /\ NoDup (set_erase p s) /\ Permutation (p :: set_erase p s) s.
Proof.
  intros N H. assert (N' : NoDup (set_erase p s)) by (apply NoDup_filter; assumption). assert (P : Permutation (p :: set_erase p s) s).
  { apply NoDup_Permutation; [constructor; [rewrite set_erase_in; intuition|assumption]|assumption|]. intro a. cbn [In]. rewrite set_erase_in. destruct (Nat.eq_dec a p) as [->|]; intuition congruence. }
  split; [exact (Permutation_length P)|auto].
Qed.
Lemma nodup_flat_map {A B} (f : A -> list B) l : NoDup l -> (forall x, In x l -> NoDup (f x)) -> (forall x y a, In x l -> In y l -> In a (f x) -> In a (f y) -> x = y) -> NoDup (flat_map f l).
Proof.
  induction l as [|z l IH]; intros N F D; [constructor|]. inversion N as [|? ? Nz Nl]; subst. cbn [flat_map]. assert (R : NoDup (flat_map f l)) by (apply IH; [assumption|intros; apply F; now right|intros x y a Hx Hy; apply D; now right]).
  assert (X : forall a, In a (f z) -> ~ In a (flat_map f l)). { intros a Ha Q. apply in_flat_map in Q. destruct Q as (y & Hy & Hay). apply Nz. rewrite (D z y a (or_introl eq_refl) (or_intror Hy) Ha Hay). assumption. }
  specialize (F z (or_introl eq_refl)). clear - R X F. induction (f z) as [|b u IHu]; [exact R|]. inversion F; subst. cbn. constructor; [rewrite in_app_iff; intros [Q|Q]; [contradiction|apply (X b); [now left|assumption]]|]. apply IHu; [assumption|]. intros a Ha. apply X. now right.
Qed.
Lemma perms_spec n : forall s, List.length s = n -> s <> [] -> NoDup s -> (forall p, In p (cset_perms n s) <-> Permutation p s) /\ NoDup (cset_perms n s) /\ List.length (cset_perms n s) = fact n.
Proof.
  induction n as [|n IH]; intros s L Ne N; [destruct s; [contradiction|discriminate]|]. destruct s as [|a [|b s']]; [contradiction| |].
  - cbn in L. injection L as <-. cbn. repeat split; auto.
    + intros [<-|[]]. constructor. constructor.
    + intro P. left. apply Permutation_sym, Permutation_length_1_inv in P. now symmetry.
    + repeat constructor. intros [].
  - set (s := a :: b :: s') in *. assert (E : cset_perms (S n) s = flat_map (fun p => map (fun q => q ++ [p]) (cset_perms n (set_erase p s))) s) by reflexivity. rewrite E.
    assert (H : forall p, In p s -> (forall q, In q (cset_perms n (set_erase p s)) <-> Permutation q (set_erase p s)) /\ NoDup (cset_perms n (set_erase p s)) /\ List.length (cset_perms n (set_erase p s)) = fact n).
    { intros p Hp. destruct (erase_len_set p s N Hp) as (L1 & N1 & _). apply IH; [lia| |assumption]. intro Z. rewrite Z in L1. cbn in L1, L. lia. }
    split; [|split].
    + intro p. rewrite in_flat_map. split.
      * intros (x & Hx & Hp). apply in_map_iff in Hp. destruct Hp as (q & <- & Hq). apply H in Hq; [|assumption]. rewrite Hq. rewrite <- Permutation_cons_append. now apply erase_len_set.
      * intro P. destruct (exists_last (l := p)) as (q & x & ->); [intros ->; apply Permutation_nil in P; discriminate|]. assert (Hx : In x s) by (apply (Permutation_in _ P), in_app_iff; right; now left). exists x. split; [assumption|]. apply in_map_iff. exists q. split; [reflexivity|]. apply H; [assumption|]. apply (Permutation_cons_inv (a := x)). rewrite Permutation_cons_append, P. symmetry. now apply erase_len_set.
    + apply nodup_flat_map; [assumption| |].
      * intros x Hx. apply FinFun.Injective_map_NoDup; [intros u v Z; now apply app_inj_tail in Z|now apply H].
      * intros x y q _ _ Hq Hq'. apply in_map_iff in Hq, Hq'. destruct Hq as (u & <- & _). destruct Hq' as (v & Z & _). apply app_inj_tail in Z. now symmetry.
    + rewrite flat_map_concat_map. assert (LC : forall l, (forall p, In p l -> In p s) -> List.length (concat (map (fun p => map (fun q => q ++ [p]) (cset_perms n (set_erase p s))) l)) = List.length l * fact n).
      { induction l as [|p l IHl]; intro Hl; [reflexivity|]. cbn [map concat List.length]. rewrite app_length, map_length, IHl by (intros; apply Hl; now right). destruct (H p (Hl p (or_introl eq_refl))) as (_ & _ & ->). lia. }
      rewrite LC by auto. rewrite L. reflexivity.
Qed.
(* permutations() of a set with an element: each once *)
Theorem C100_permutations s : s <> [] -> NoDup s -> (forall p, In p (cset_perms (List.length s) s) <-> Permutation p s) /\ NoDup (cset_perms (List.length s) s) /\ List.length (cset_perms (List.length s) s) = fact (List.length s).
Proof. intros Ne N. now apply perms_spec. Qed.
Print Assumptions C100_permutations.
(* of the empty set: none, though it has one *)
Theorem C100_permutations_refuted n : cset_perms n [] = [] /\ Permutation (@nil nat) [].
Proof. split; [now destruct n|constructor]. Qed.
Print Assumptions C100_permutations_refuted.
(* the loop orders tried: every choice of one for each contraction, once; none if a contraction leaves no index *)
Theorem C100_loop_orders ls : (forall s, In s ls -> s <> [] /\ NoDup s) ->
  (forall os, In os (loop_orders ls) <-> Forall2 (@Permutation nat) os ls) /\ NoDup (loop_orders ls) /\ List.length (loop_orders ls) = fold_right Nat.mul 1 (map (fun s => fact (List.length s)) ls).
Proof.
  induction ls as [|s ls IH]; intro H.
  - cbn. repeat split; [intros [<-|[]]; constructor|inversion 1; now left|repeat constructor; intros []].
  - destruct (IH ltac:(intros; apply H; now right)) as (I1 & I2 & I3). destruct (H s (or_introl eq_refl)) as [Ne N]. destruct (C100_permutations s Ne N) as (P1 & P2 & P3). cbn [loop_orders]. split; [|split].
    + intro os. rewrite in_flat_map. split.
      * intros (p & Hp & Hm). apply in_map_iff in Hm. destruct Hm as (r & <- & Hr). constructor; [now apply P1|now apply I1].
      * intro F. inversion F as [|p ? r ? Hp Hr]; subst. exists p. split; [now apply P1|]. apply in_map_iff. exists r. split; [reflexivity|now apply I1].
    + apply nodup_flat_map; [assumption| |].
      * intros p _. apply FinFun.Injective_map_NoDup; [intros u v Z; congruence|assumption].
      * intros x y q _ _ Hq Hq'. apply in_map_iff in Hq, Hq'. destruct Hq as (u & <- & _). destruct Hq' as (v & Z & _). congruence.
    + cbn [map fold_right]. rewrite <- I3, <- P3. generalize (cset_perms (List.length s) s). intro l. induction l as [|p l IHl]; [reflexivity|]. cbn [flat_map List.length]. rewrite app_length, map_length, IHl. lia.
Qed.
Print Assumptions C100_loop_orders.
Theorem C100_scalar_refuted ls : In [] ls -> loop_orders ls = [].
Proof.
  induction ls as [|s ls IH]; intros []; [subst; reflexivity|]. cbn [loop_orders]. rewrite IH by assumption. cbn. induction (cset_perms (List.length s) s) as [|p l IHl]; [reflexivity|exact IHl].
Qed.
Print Assumptions C100_scalar_refuted.

Lemma filter_pick {A} (f : A -> bool) l : forall p a q, filter f l = p ++ a :: q -> exists p' q', l = p' ++ a :: q' /\ filter f q' = q.
Proof.
  induction l as [|x l IH]; intros p a q E; [destruct p; discriminate|]. cbn in E. destruct (f x).
  - destruct p as [|y p]; cbn in E; [injection E as -> <-; now exists [], l|]. injection E as _ E. destruct (IH p a q E) as (p' & q' & -> & Eq). now exists (x :: p'), q'.
  - destruct (IH p a q E) as (p' & q' & -> & Eq). now exists (x :: p'), q'.
Qed.
(* an index set put in the order of the loops: the same indices, and one index before another only if it is so in the loop order *)
Theorem C100_order s lo : is_set s -> NoDup lo -> (forall x, In x s -> In x lo) ->
  Permutation (set_order s lo) s /\
  (forall p a q b r, set_order s lo = p ++ a :: q ++ b :: r -> exists p' q' r', lo = p' ++ a :: q' ++ b :: r').
Proof.
  intros Hs Hn Hi. split.
  - assert (Ns : NoDup s) by (clear - Hs; induction Hs as [|x l Hl IH Hx]; constructor; [intro Hin; rewrite Forall_forall in Hx; apply Hx in Hin; lia|exact IH]). apply NoDup_Permutation; [now apply NoDup_filter|exact Ns|].
    intro x. unfold set_order. rewrite filter_In. unfold tup_contains. rewrite existsb_exists. split.
    + intros (_ & y & Hy & E). apply Nat.eqb_eq in E. now subst.
    + intro Hx. split; [now apply Hi|]. exists x. now rewrite Nat.eqb_refl.
  - intros p a q b r E. unfold set_order in E. destruct (filter_pick _ _ _ _ _ E) as (p' & l & -> & E'). destruct (filter_pick _ _ _ _ _ E') as (q' & r' & -> & _). now exists p', q', r'.
Qed.
Print Assumptions C100_order.
Example C100_order_case : set_order [0; 2; 5] [4; 5; 0; 3; 2] = [5; 0; 2] /\ is_set [0; 2; 5] /\ NoDup [4; 5; 0; 3; 2].
Proof. split; [reflexivity|]. split; [repeat (constructor; [|repeat constructor; lia]); constructor|]. repeat (constructor; [cbn; intuition lia|]). constructor. Qed.

Example C100_case : cset_contract [0; 2; 5] [2; 3] 2 = [0; 3; 5] /\ cset_minus [0; 3; 5] [3; 4] = [0; 5] /\
  cset_perms 3 [0; 3; 5] = [[5; 3; 0]; [3; 5; 0]; [5; 0; 3]; [0; 5; 3]; [3; 0; 5]; [0; 3; 5]] /\ is_set [0; 2; 5] /\ is_set [2; 3] /\ List.length (loop_orders [[0; 3]; [0; 3; 5]]) = 12 /\ loop_orders [[0; 1]; []] = [].
Proof. repeat split; try reflexivity; repeat (constructor; [|repeat constructor; lia]); constructor. Qed.
