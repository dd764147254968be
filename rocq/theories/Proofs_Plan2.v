(* Proofs_Plan2.v -- numbering all the tensors of an Einstein sum and sorting the labels *)
From Coq Require Import Ascii Sorted.
From Verif Require Import Base Model_Einsum BaseFacts Model_Plan Spec_Plan Proofs_Plan.
Import ListNotations.
Local Open Scope nat_scope.

Definition read_as (tk : list str) (a : list nat) (mp : list (list nat)) (l : list str) : Prop :=
  mp = map snd (group l) /\ Forall2 (fun i p => nth_error tk i = Some (fst p)) a (group l).
Lemma read_more tk e a mp l : read_as tk a mp l -> read_as (tk ++ e) a mp l.
Proof.
  intros [-> F]. split; [reflexivity|]. induction F as [|i p a g H F IH]; constructor; [|assumption]. rewrite nth_error_app1; [assumption|]. apply nth_error_Some. congruence.
Qed.
Lemma tokenize_all_spec ss ll tk : Forall2 writes ss ll -> NoDup tk ->
  exists al ml tk', tokenize_all ss tk = Ok (al, ml, tk') /\ NoDup tk' /\ (exists e, tk' = tk ++ e) /\ length al = length ll /\ length ml = length ll /\
    (forall t, In t tk' <-> In t tk \/ exists l, In l ll /\ In t l) /\
    forall j l, nth_error ll j = Some l -> exists a mp, nth_error al j = Some a /\ nth_error ml j = Some mp /\ read_as tk' a mp l.
Proof.
  intro F. revert tk. induction F as [|s l ss ll W F IH]; intros tk N.
  - exists [], [], tk. repeat split; auto; [exists []; now rewrite app_nil_r|intros [P|(l & [] & _)]; exact P|]. intros [|j] l H; discriminate.
  - cbn [tokenize_all]. unfold tokenize. rewrite (labels_writes _ _ W). cbn [bind]. destruct (number_all (group l) tk) as [[a mp] tk1] eqn:E. cbn [bind].
    destruct (number_all_spec _ _ _ _ _ E N) as (N1 & [e1 X1] & M1 & F1 & I1). destruct (IH tk1 N1) as (al & ml & tk' & E2 & N2 & [e2 X2] & L1 & L2 & I2 & R2). rewrite E2. cbn [bind].
    exists (a :: al), (mp :: ml), tk'. split; [reflexivity|]. split; [assumption|]. split; [exists (e1 ++ e2); rewrite X2, X1; now rewrite app_assoc|]. split; [cbn; congruence|]. split; [cbn; congruence|]. split.
    + intro t. rewrite I2, I1, group_keys. split.
      * intros [[P|P]|(l0 & P & Q)]; [auto|right; exists l; split; [now left|assumption]|right; exists l0; split; [now right|assumption]].
      * intros [P|(l0 & [->|P] & Q)]; [auto|auto|right; eauto].
    + intros [|j] l0 H; cbn in H; [injection H as <-|now apply R2]. exists a, mp. split; [reflexivity|]. split; [reflexivity|]. rewrite X2. apply read_more. split; assumption.
Qed.

(* ---- sorting the labels ---- *)
Lemma tup_contains_in v x : tup_contains v x = true <-> In x v.
Proof. unfold tup_contains. rewrite existsb_exists. split; [intros (y & H & E); apply Nat.eqb_eq in E; now subst|intro H; exists x; split; [assumption|apply Nat.eqb_refl]]. Qed.
Lemma tup_pos_some v x k : tup_pos v x = Some k -> nth_error v k = Some x.
Proof.
  revert k. induction v as [|a v IH]; intros k; cbn [tup_pos]; [discriminate|]. destruct (Nat.eqb_spec x a) as [->|_]; [injection 1 as <-; reflexivity|]. destruct (tup_pos v x); [|discriminate]. injection 1 as <-. now apply IH.
Qed.
Lemma tup_pos_none v x : tup_pos v x = None -> ~ In x v.
Proof.
  induction v as [|a v IH]; cbn [tup_pos]; [auto|]. destruct (Nat.eqb_spec x a) as [->|H]; [discriminate|]. destruct (tup_pos v x); [discriminate|]. intros _ [P|P]; [congruence|now apply IH].
Qed.
Definition posn (al : list (list nat)) (i q : nat) : nat := match tup_pos (nth q al []) i with Some k => k | None => 0 end.
Lemma find_posn al i q a : nth_error al q = Some a -> In i a -> tup_find a i = Ok (posn al i q) /\ nth_error a (posn al i q) = Some i.
Proof.
  intros H Hi. unfold posn. rewrite (nth_error_nth al q [] H). unfold tup_find. destruct (tup_pos a i) eqn:E; [split; [reflexivity|now apply tup_pos_some]|]. apply tup_pos_none in E. contradiction.
Qed.
Lemma in_combine_seq {A} (l : list A) a i x : In (i, x) (combine (seq a (length l)) l) <-> a <= i /\ nth_error l (i - a) = Some x.
Proof.
  revert a. induction l as [|y l IH]; intro a; cbn [length seq combine In].
  - split; [tauto|intros [_ H]; destruct (i - a); discriminate].
  - rewrite IH. split.
    + intros [E|[H1 H2]]; [injection E as -> ->; split; [lia|now rewrite Nat.sub_diag]|split; [lia|]]. replace (i - a) with (S (i - S a)) by lia. exact H2.
    + intros [H1 H2]. destruct (Nat.eq_dec i a) as [->|Hn]; [left; rewrite Nat.sub_diag in H2; cbn in H2; congruence|right; split; [lia|]]. replace (i - a) with (S (i - S a)) in H2 by lia. exact H2.
Qed.
Lemma occ_in al i q : In q (occ_of al i) <-> exists a, nth_error al q = Some a /\ In i a.
Proof.
  unfold occ_of. rewrite in_map_iff. split.
  - intros ([q' a] & <- & H). apply filter_In in H. destruct H as [H1 H2]. apply in_combine_seq in H1. cbn in *. apply tup_contains_in in H2. exists a. rewrite Nat.sub_0_r in H1. split; [apply H1|assumption].
  - intros (a & H1 & H2). exists (q, a). split; [reflexivity|]. apply filter_In. split; [apply in_combine_seq; rewrite Nat.sub_0_r; split; [lia|assumption]|now apply tup_contains_in].
Qed.
Lemma occ_sorted al i : StronglySorted lt (occ_of al i).
Proof.
  unfold occ_of. generalize 0. induction al as [|a al IH]; intro n; cbn [length seq combine filter map]; [constructor|]. destruct (tup_contains (snd (n, a)) i); [|apply IH]. cbn [map fst]. constructor; [apply IH|]. apply Forall_forall. intros q H. apply in_map_iff in H. destruct H as ([q' b] & <- & H). apply filter_In in H. destruct H as [H _]. apply in_combine_seq in H. cbn. lia.
Qed.
Lemma sorted_nth v a b i j : StronglySorted lt v -> nth_error v a = Some i -> nth_error v b = Some j -> a < b -> i < j.
Proof.
  intro H. revert a b. induction H as [|x v H IH F]; intros [|a] [|b] Ha Hb Hl; try lia; try discriminate; cbn in *.
  - injection Ha as ->. apply nth_error_In in Hb. rewrite Forall_forall in F. auto.
  - apply (IH a b); auto; lia.
Qed.
Lemma sorted_nodup v : StronglySorted lt v -> NoDup v.
Proof. induction 1 as [|x v H IH F]; constructor; [|assumption]. intro P. rewrite Forall_forall in F. specialize (F x P). lia. Qed.
Lemma nth_sorted v : NoDup v -> (forall a b i j, nth_error v a = Some i -> nth_error v b = Some j -> a < b -> i < j) -> StronglySorted lt v.
Proof.
  induction v as [|x v IH]; intros N H; constructor.
  - inversion N; subst. apply IH; [assumption|]. intros a b i j Ha Hb Hl. apply (H (S a) (S b)); auto. lia.
  - apply Forall_forall. intros y Hy. apply In_nth_error in Hy. destruct Hy as [k Hk]. apply (H 0 (S k)); auto. lia.
Qed.
Lemma sorted_same v w : StronglySorted lt v -> StronglySorted lt w -> (forall x, In x v <-> In x w) -> v = w.
Proof.
  intro Hv. revert w. induction Hv as [|x v Hv IH Fv]; intros [|y w] Hw E; [reflexivity|exfalso; apply (E y); now left|exfalso; apply (E x); now left|].
  inversion Hw as [|? ? Hw' Fw]; subst. rewrite Forall_forall in *.
  assert (x = y). { destruct (proj1 (E x) (or_introl eq_refl)) as [P|P]; [auto|]. destruct (proj2 (E y) (or_introl eq_refl)) as [Q|Q]; [auto|]. specialize (Fw x P). specialize (Fv y Q). lia. } subst y. f_equal.
  apply IH; [assumption|]. intro z. specialize (E z). split; intro P.
  - destruct (proj1 E (or_intror P)) as [->|Q]; [|assumption]. specialize (Fv z P). lia.
  - destruct (proj2 E (or_intror P)) as [->|Q]; [|assumption]. specialize (Fw z P). lia.
Qed.
(* four kinds of label *)
Definition kind_s (o : list nat) : option nat := match o with [j] => Some j | _ => None end.
Definition two (o : list nat) : bool := match o with _ :: _ :: _ => true | _ => false end.
Definition zer (o : list nat) : bool := match o with j :: _ => (j =? 0)%nat | _ => false end.
Definition is_s (al : list (list nat)) (j i : nat) : bool := match kind_s (occ_of al i) with Some j' => (j =? j')%nat | None => false end.
Definition is_c (al : list (list nat)) (i : nat) : bool := two (occ_of al i) && negb (zer (occ_of al i)).
Definition is_v (tk : list str) (al : list (list nat)) (i : nat) : bool := two (occ_of al i) && zer (occ_of al i) && conv_token (nth i tk []).
Definition is_t (tk : list str) (al : list (list nat)) (i : nat) : bool := two (occ_of al i) && zer (occ_of al i) && negb (conv_token (nth i tk [])).
Definition trans (al : list (list nat)) (i : nat) : list (nat * nat) := map (fun q => (q, posn al i q)) (occ_of al i).
Definition sorted_form (tk : list str) (al : list (list nat)) (ml : list (list (list nat))) (m : nat) : form :=
  Form tk al ml (map (occ_of al) (seq 0 (length tk))) (map (fun j => map (fun i => posn al i j) (filter (is_s al j) (seq 0 m))) (seq 0 (length al)))
    (map (trans al) (filter (is_t tk al) (seq 0 m))) (filter (is_c al) (seq 0 m)) (filter (is_v tk al) (seq 0 m)).
Lemma trans_loop al i o v : (forall q, In q o -> exists a, nth_error al q = Some a /\ In i a) ->
  foldM (fun q v => do a <- vget al q; do k <- tup_find a i; Ok (v ++ [(q, k)])) o v = Ok (v ++ map (fun q => (q, posn al i q)) o).
Proof.
  revert v. induction o as [|q o IH]; intros v H; cbn [foldM map]; [now rewrite app_nil_r|]. destruct (H q (or_introl eq_refl)) as (a & Ha & Hi). unfold vget at 1. rewrite Ha. cbn [bind]. rewrite (proj1 (find_posn _ _ _ _ Ha Hi)). cbn [bind]. rewrite IH by (intros; apply H; now right). now rewrite <- app_assoc.
Qed.
Lemma push_map {A} (f : nat -> list A) n j x : j < n -> push_nth j x (map f (seq 0 n)) = map (fun k => if (k =? j)%nat then f k ++ [x] else f k) (seq 0 n).
Proof.
  intro H. unfold push_nth. assert (N : forall (B : Type) (g : nat -> B) k, nth_error (map g (seq 0 n)) k = if (k <? n)%nat then Some (g k) else None).
  { intros B g k. rewrite nth_error_map, nth_error_seq. now destruct (k <? n)%nat. }
  rewrite N. destruct (Nat.ltb_spec j n); [|lia]. apply nth_error_eq. intro k. rewrite set_nth_nth, !N, map_length, seq_length.
  destruct (Nat.ltb_spec k n); [|now rewrite andb_false_r]. rewrite andb_true_r. destruct (Nat.eqb_spec k j) as [->|]; reflexivity.
Qed.
Lemma filter_snoc {A} (f : A -> bool) l a : filter f (l ++ [a]) = filter f l ++ (if f a then [a] else []).
Proof. rewrite filter_app. cbn. now destruct (f a). Qed.
Lemma classify_step tk al ml m : m < length tk -> occ_of al m <> [] ->
  classify m (sorted_form tk al ml m) = (if is_v tk al m then assrt (length (occ_of al m) =? 3)%nat (Ok (sorted_form tk al ml (S m))) else Ok (sorted_form tk al ml (S m))).
Proof.
  intros Hm Ho. unfold classify. cbn [occ tokens args maps summations transfers contr conv sorted_form].
  unfold vget at 1. rewrite nth_error_map, nth_error_seq. destruct (Nat.ltb_spec m (length tk)); [|lia]. cbn [option_map bind Nat.add].
  unfold vget at 1. destruct (nth_error tk m) as [t|] eqn:Et; [|apply nth_error_None in Et; lia]. cbn [bind].
  assert (Oc : forall q, In q (occ_of al m) -> exists a, nth_error al q = Some a /\ In m a) by (intro q; apply occ_in).
  assert (Et' : nth m tk [] = t) by now apply nth_error_nth. unfold sorted_form.
  assert (S1 : seq 0 (S m) = seq 0 m ++ [m]) by (rewrite seq_S; reflexivity). rewrite S1, !filter_snoc, map_app.
  assert (X : map (fun j => map (fun i => posn al i j) (filter (is_s al j) (seq 0 m ++ [m]))) (seq 0 (length al)) = map (fun j => map (fun i => posn al i j) (filter (is_s al j) (seq 0 m)) ++ (if is_s al j m then [posn al m j] else [])) (seq 0 (length al))).
  { apply map_ext. intro j. rewrite filter_snoc, map_app. now destruct (is_s al j m). } rewrite X. clear X.
  unfold is_v, is_t, is_c, is_s. rewrite Et'. destruct (occ_of al m) as [|j [|j2 o]] eqn:Eo; [contradiction| |]; cbn [two zer kind_s andb negb].
  - destruct (Oc j (or_introl eq_refl)) as (a & Ha & Hi). unfold vget at 1. rewrite Ha. cbn [bind]. rewrite (proj1 (find_posn _ _ _ _ Ha Hi)). cbn [bind].
    rewrite push_map by (apply nth_error_Some; congruence). cbn [map]. rewrite !app_nil_r. do 2 f_equal.
    apply map_ext. intro k. destruct (Nat.eqb_spec k j) as [->|]; [reflexivity|now rewrite app_nil_r].
  - assert (Y : forall f : nat -> list nat, map (fun j0 => f j0 ++ []) (seq 0 (length al)) = map f (seq 0 (length al))) by (intro f; apply map_ext; intro; apply app_nil_r). rewrite Y.
    destruct (j =? 0)%nat; cbn [negb]; [destruct (conv_token t); cbn [negb map]|cbn [map]]; rewrite ?app_nil_r; try reflexivity.
    rewrite trans_loop by exact Oc. cbn [bind app]. rewrite <- Eo. reflexivity.
Qed.
Definition conv_ok (tk : list str) (al : list (list nat)) (i : nat) : bool := negb (is_v tk al i) || (length (occ_of al i) =? 3)%nat.
Lemma classify_all tk al ml m : (forall i, i < length tk -> occ_of al i <> []) -> m <= length tk ->
  foldM classify (seq 0 m) (sorted_form tk al ml 0) = if forallb (conv_ok tk al) (seq 0 m) then Ok (sorted_form tk al ml m) else Throw.
Proof.
  intros Ho. induction m as [|m IH]; intro Hm; [reflexivity|]. rewrite seq_S, Nat.add_0_l. rewrite foldM_app, IH by lia. rewrite forallb_app. destruct (forallb (conv_ok tk al) (seq 0 m)); [|reflexivity]. cbn [bind foldM andb forallb]. rewrite classify_step by (try lia; apply Ho; lia).
  unfold conv_ok. destruct (is_v tk al m); [|reflexivity]. unfold assrt. cbn [negb orb]. destruct (length (occ_of al m) =? 3)%nat; reflexivity.
Qed.
Lemma first_form tk al ml : sorted_form tk al ml 0 = Form tk al ml (map (occ_of al) (seq 0 (length tk))) (repeat [] (length al)) [] [] [].
Proof. unfold sorted_form. cbn [seq filter map]. f_equal. generalize 0. induction (length al) as [|n IH]; intro a; cbn; [reflexivity|]. now rewrite IH. Qed.
