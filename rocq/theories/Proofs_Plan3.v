(* Proofs_Plan3.v -- trees of contractions: what their nodes are and what they compute *)
From Coq Require Import Ascii Sorted Permutation Relations.
From Verif Require Import Base BaseFacts Model_Plan Spec_Plan Proofs_Plan Proofs_Plan2.
Import ListNotations.
Local Open Scope nat_scope.

Definition cnode_ind2 (P : cnode -> Prop) (HA : forall id ix, P (CArg id ix))
  (HC : forall c ch ix e n lv, Forall P ch -> P (CCon c ch ix e n lv)) : forall x, P x :=
  fix F x := match x with
    | CArg id ix => HA id ix
    | CCon c ch ix e n lv => HC c ch ix e n lv ((fix G l : Forall P l := match l with [] => Forall_nil P | y :: l' => Forall_cons y (F y) (G l') end) ch)
    end.
(* every node below x was made by the constructor, from children with its index *)
Definition wf (x : cnode) : Prop := forall y, below y x ->
  match y with CArg _ _ => True | CCon c ch _ _ _ _ => y = con_node c ch /\ forall z, In z ch -> n_has c z = true end.
Lemma wf_child c ch ix e n lv y : wf (CCon c ch ix e n lv) -> In y ch -> wf y.
Proof. intros H Hy z Hz. apply H. now apply b_child with (x := y). Qed.
Lemma wf_con c ch : (forall y, In y ch -> wf y /\ n_has c y = true) -> wf (con_node c ch).
Proof.
  intros H y Hy. inversion Hy as [|? ? ? ? ? ? ? x Hx Hb]; subst; [split; [reflexivity|intros z Hz; now apply H]|]. now apply (H x).
Qed.
Lemma set_insert_in x s a : In a (set_insert x s) <-> a = x \/ In a s.
Proof.
  induction s as [|b s IH]; cbn [set_insert]; [cbn; intuition|]. destruct (x <? b)%nat; [cbn; intuition|]. destruct (Nat.eqb_spec x b) as [->|]; [cbn; intuition|]. cbn [In]. rewrite IH. intuition.
Qed.
Lemma set_of_in v a : In a (set_of v) <-> In a v.
Proof.
  unfold set_of. assert (G : forall s, In a (fold_left (fun s x => set_insert x s) v s) <-> In a s \/ In a v); [|rewrite G; cbn; intuition].
  induction v as [|x v IH]; intro s; cbn [fold_left]; [cbn; intuition|]. rewrite IH, set_insert_in. cbn. intuition.
Qed.
Lemma set_insert_sorted x s : StronglySorted lt s -> StronglySorted lt (set_insert x s).
Proof.
  induction 1 as [|b s H IH F]; cbn [set_insert]; [repeat constructor|]. destruct (Nat.ltb_spec x b); [constructor; [now constructor|]; constructor; [assumption|]; eapply Forall_impl; [|exact F]; intros; lia|].
  destruct (Nat.eqb_spec x b); [now constructor|]. constructor; [assumption|]. apply Forall_forall. intros a Ha. apply set_insert_in in Ha. rewrite Forall_forall in F. destruct Ha as [->|Ha]; [lia|auto].
Qed.
Lemma con_ix_inner c l ix : (NoDup ix -> NoDup (fold_left (fun ix q => if negb (q =? c)%nat && negb (tup_contains ix q) then ix ++ [q] else ix) l ix)) /\
  forall i, In i (fold_left (fun ix q => if negb (q =? c)%nat && negb (tup_contains ix q) then ix ++ [q] else ix) l ix) <-> In i ix \/ (i <> c /\ In i l).
Proof.
  revert ix. induction l as [|q l IH]; intro ix; cbn [fold_left]; [split; [auto|intro i; cbn; intuition]|]. destruct (IH (if negb (q =? c)%nat && negb (tup_contains ix q) then ix ++ [q] else ix)) as [I1 I2]. split.
  - intro N. apply I1. destruct (negb (q =? c)%nat && negb (tup_contains ix q)) eqn:E; [|assumption]. apply andb_true_iff in E. destruct E as [_ E]. apply negb_true_iff in E. apply NoDup_Add with (a := q) (l := ix); [rewrite <- (app_nil_r ix) at 1; apply Add_app|]. split; [assumption|]. intro H. apply tup_contains_in in H. congruence.
  - intro i. rewrite I2. destruct (Nat.eqb_spec q c) as [->|Hq]; cbn [negb andb]; [cbn; intuition congruence|]. destruct (tup_contains ix q) eqn:E; cbn [negb].
    + apply tup_contains_in in E. cbn. intuition (subst; auto).
    + rewrite in_app_iff. cbn. intuition (subst; auto).
Qed.
Lemma con_ix_spec c ch : NoDup (con_ix c ch) /\ forall i, In i (con_ix c ch) <-> i <> c /\ exists y, In y ch /\ In i (n_ix y).
Proof.
  unfold con_ix. assert (G : forall ix, (NoDup ix -> NoDup (fold_left (fun ix p => fold_left (fun ix q => if negb (q =? c)%nat && negb (tup_contains ix q) then ix ++ [q] else ix) (n_ix p) ix) ch ix)) /\
    forall i, In i (fold_left (fun ix p => fold_left (fun ix q => if negb (q =? c)%nat && negb (tup_contains ix q) then ix ++ [q] else ix) (n_ix p) ix) ch ix) <-> In i ix \/ (i <> c /\ exists y, In y ch /\ In i (n_ix y))).
  { induction ch as [|y ch IH]; intro ix; cbn [fold_left]; [split; [auto|]; intro i; split; [auto|intros [H|[_ (y & [] & _)]]; exact H]|].
    destruct (con_ix_inner c (n_ix y) ix) as [J1 J2]. destruct (IH (fold_left (fun ix q => if negb (q =? c)%nat && negb (tup_contains ix q) then ix ++ [q] else ix) (n_ix y) ix)) as [I1 I2]. split; [auto|]. intro i. rewrite I2, J2. split.
    - intros [[H|[H1 H2]]|[H1 (z & H2 & H3)]]; [auto|right; split; [assumption|exists y; split; [now left|assumption]]|right; split; [assumption|exists z; split; [now right|assumption]]].
    - intros [H|[H1 (z & [->|H2] & H3)]]; [auto|auto|right; split; [assumption|eauto]]. }
  destruct (G []) as [G1 G2]. split; [apply G1; constructor|]. intro i. rewrite G2. cbn. intuition.
Qed.
Lemma wf_ix x : wf x -> forall i, In i (n_ix x) <-> free x i.
Proof.
  induction x as [id ix|c ch ix e n lv IH] using cnode_ind2; intros W i.
  - split; [intro; now constructor|inversion 1; subst; assumption].
  - destruct (W _ (b_self _)) as [E H]. pose proof (f_equal n_ix E) as Ex. cbn in Ex. cbn [n_ix]. rewrite Ex. rewrite (proj2 (con_ix_spec c ch)). rewrite Forall_forall in IH. split.
    + intros [Hi (y & Hy & Hin)]. apply f_con with (x := y); auto. apply IH; auto. eapply wf_child; eassumption.
    + inversion 1; subst. split; [assumption|]. eexists. split; [eassumption|]. apply IH; auto. eapply wf_child; eassumption.
Qed.
Lemma fold_max ch f a : fold_left (fun l (p : cnode) => Nat.max l (f p)) ch a = Nat.max a (list_max (map f ch)).
Proof. revert a. induction ch as [|y ch IH]; intro a; cbn [fold_left map list_max fold_right]; [lia|]. rewrite IH. change (fold_right Nat.max 0 (map f ch)) with (list_max (map f ch)). lia. Qed.
Lemma wf_lv x : wf x -> n_lv x = height x.
Proof.
  induction x as [id ix|c ch ix e n lv IH] using cnode_ind2; intro W; [reflexivity|]. destruct (W _ (b_self _)) as [E H]. pose proof (f_equal n_lv E) as Ex. cbn in Ex. cbn [n_lv height]. rewrite Ex, fold_max, Nat.max_0_l. f_equal. f_equal. apply map_ext_in. intros y Hy. rewrite Forall_forall in IH. apply IH; auto. eapply wf_child; eassumption.
Qed.
Lemma n_has_in i x : n_has i x = true <-> In i (n_ix x).
Proof. apply tup_contains_in. Qed.
Lemma has_free i x : wf x -> n_has i x = true <-> free x i.
Proof. intro W. rewrite n_has_in. now apply wf_ix. Qed.
Lemma below_trans x y z : below x y -> below y z -> below x z.
Proof. intros H1 H2. revert H1. induction H2; auto. intro H1. econstructor; [eassumption|auto]. Qed.
Lemma node_facts c ch ix e n lv : wf (CCon c ch ix e n lv) -> NoDup ix /\ (forall i, In i ix <-> free (CCon c ch ix e n lv) i) /\ (forall z, In z ch -> free z c) /\
  (forall i, In i e <-> In i ix /\ forall z, In z ch -> free z i) /\ (forall i, In i n <-> In i ix /\ exists z, In z ch /\ ~ free z i) /\ increasing e /\ increasing n /\ lv = height (CCon c ch ix e n lv).
Proof.
  intro W. pose proof (wf_ix _ W) as Wi. pose proof (wf_lv _ W) as Wl. destruct (W _ (b_self _)) as [E H]. unfold con_node in E. injection E as Ex Ee En El. cbn [n_ix n_lv] in *.
  assert (WC : forall z, In z ch -> wf z) by (intros z Hz; eapply wf_child; eassumption).
  assert (AL : forall i, forallb (n_has i) ch = true <-> forall z, In z ch -> free z i). { intro i. rewrite forallb_forall. split; intros P z Hz; [apply has_free; auto|apply has_free; auto]. }
  split; [rewrite Ex; apply con_ix_spec|]. split; [exact Wi|]. split; [intros z Hz; apply has_free; auto|].
  assert (SO : forall v, StronglySorted lt (set_of v)). { intro v. unfold set_of. assert (G : forall s, StronglySorted lt s -> StronglySorted lt (fold_left (fun s x => set_insert x s) v s)); [|apply G; constructor]. induction v as [|a v IHv]; intros s Hs; [assumption|]. cbn. apply IHv. now apply set_insert_sorted. }
  split; [|split; [|split; [|split; [|exact Wl]]]].
  - intro i. rewrite Ee, set_of_in, filter_In, AL, <- Ex. reflexivity.
  - intro i. rewrite En, set_of_in, filter_In, negb_true_iff, <- Ex. split; intros [H1 H2]; (split; [assumption|]).
    + clear - H2 WC. induction ch as [|z ch IH]; [discriminate|]. cbn in H2. apply andb_false_iff in H2. destruct H2 as [H2|H2].
      * exists z. split; [now left|]. intro F. apply has_free in F; [congruence|]. apply WC. now left.
      * destruct IH as (z' & Hz & Hn); [intros; apply WC; now right|assumption|]. exists z'. split; [now right|assumption].
    + destruct H2 as (z & Hz & Hn). destruct (forallb (n_has i) ch) eqn:X; [|reflexivity]. rewrite AL in X. destruct Hn. auto.
  - intros a b i j. rewrite Ee. apply sorted_nth, SO.
  - intros a b i j. rewrite En. apply sorted_nth, SO.
Qed.

(* ---- values ---- *)
Section Value.
Context {R : cring}.
Add Ring Rr3 : (cth R).
Context (dim : nat -> Z) (T : nat -> list Z -> R).
Lemma rprod_app (l1 l2 : list R) : rprod (l1 ++ l2) = cmul (rprod l1) (rprod l2).
Proof. induction l1 as [|a l1 IH]; cbn [app rprod fold_right]; [unfold rprod; ring|]. fold (rprod (l1 ++ l2)) (rprod l1). unfold rprod in *. cbn. rewrite IH. ring. Qed.
Lemma rprod_perm (l1 l2 : list R) : Permutation l1 l2 -> rprod l1 = rprod l2.
Proof. induction 1; unfold rprod in *; cbn; [reflexivity|now rewrite IHPermutation|ring|congruence]. Qed.
Lemma rprod_cons (a : R) l : rprod (a :: l) = cmul a (rprod l).
Proof. reflexivity. Qed.
Lemma val_ext x e e' : (forall i, free x i -> e i = e' i) -> val dim T x e = val dim T x e'.
Proof.
  revert e e'. induction x as [id ix|c ch ix ex n lv IH] using cnode_ind2; intros e e' H; cbn [val].
  - f_equal. apply map_ext_in. intros i Hi. apply H. now constructor.
  - f_equal. apply map_ext. intro k. f_equal. apply map_ext_in. intros y Hy. rewrite Forall_forall in IH. apply (IH y Hy). intros i Hi. unfold eupd. destruct (Nat.eqb_spec i c); [reflexivity|]. apply H. now apply f_con with (x := y).
Qed.
Definition fval (fr : list cnode) (e : env) : R := rprod (map (fun x => val dim T x e) fr).
Definition proper (f : env -> R) : Prop := forall e e', (forall i, e i = e' i) -> f e = f e'.
Lemma fval_proper fr : proper (fval fr).
Proof. intros e e' H. unfold fval. f_equal. apply map_ext. intro x. apply val_ext. auto. Qed.
Lemma sum_ext cs (f g : env -> R) e : (forall e', f e' = g e') -> sum_over dim cs f e = sum_over dim cs g e.
Proof. intro H. revert e. induction cs as [|c cs IH]; intro e; cbn [sum_over]; [apply H|]. f_equal. apply map_ext. intro k. apply IH. Qed.
Lemma sum_proper cs (f : env -> R) : proper f -> proper (sum_over dim cs f).
Proof. intro H. induction cs as [|c cs IH]; intros e e' He; cbn [sum_over]; [now apply H|]. f_equal. apply map_ext. intro k. apply IH. intro i. unfold eupd. now destruct (i =? c). Qed.
Lemma sum_perm cs cs' (f : env -> R) e : proper f -> Permutation cs cs' -> sum_over dim cs f e = sum_over dim cs' f e.
Proof.
  intros Hf P. revert e. induction P as [|c cs cs' P IH|c d cs|cs1 cs2 cs3 P1 IH1 P2 IH2]; intro e; cbn [sum_over]; [reflexivity| | |now rewrite IH1].
  - f_equal. apply map_ext. intro k. apply IH.
  - destruct (Nat.eq_dec c d) as [->|Hn]; [reflexivity|]. rewrite rsum_swap. f_equal. apply map_ext. intro k. f_equal. apply map_ext. intro l. apply sum_proper; [assumption|]. intro i. unfold eupd. destruct (Nat.eqb_spec i c), (Nat.eqb_spec i d); congruence.
Qed.
Lemma sum_snoc cs c (f : env -> R) e : sum_over dim (cs ++ [c]) f e = sum_over dim cs (fun e' => rsum (map (fun k => f (eupd e' c k)) (zrange (dim c)))) e.
Proof. revert e. induction cs as [|d cs IH]; intro e; cbn [app sum_over]; [reflexivity|]. f_equal. apply map_ext. intro k. apply IH. Qed.
Lemma insert_perm k x l : Permutation (insert_at k x l) (x :: l).
Proof. unfold insert_at. rewrite <- (firstn_skipn k l) at 3. symmetry. apply Permutation_middle. Qed.
Lemma filter_perm {A} (f : A -> bool) l : Permutation (filter f l ++ filter (fun x => negb (f x)) l) l.
Proof. induction l as [|a l IH]; cbn; [constructor|]. destruct (f a); cbn; [now constructor|]. rewrite <- Permutation_middle. now constructor. Qed.
Lemma add_value place c t e : (forall x, In x (frontier t) -> wf x) ->
  fval (frontier (snd (add_contraction place c t))) e = rsum (map (fun k => fval (frontier t) (eupd e c k)) (zrange (dim c))).
Proof.
  intro W. cbn [add_contraction snd frontier]. unfold fval at 1. rewrite (rprod_perm _ _ (Permutation_map _ (insert_perm _ _ _))). cbn [map]. rewrite rprod_cons. cbn [val con_node].
  set (rest := filter (fun p => negb (n_has c p)) (frontier t)). set (ch := filter (n_has c) (frontier t)).
  rewrite (rsum_ext R (fun k => fval (frontier t) (eupd e c k)) (fun k => cmul (rprod (map (fun y => val dim T y (eupd e c k)) ch)) (rprod (map (fun x => val dim T x e) rest)))).
  - generalize (rprod (map (fun x => val dim T x e) rest)). intro r. generalize (zrange (dim c)). intro l. induction l as [|k l IH]; [cbn [map]; rewrite !(rsum_nil R); ring|]. cbn [map]. rewrite !(rsum_cons R). rewrite <- IH. ring.
  - intros k _. unfold fval. rewrite <- (rprod_perm _ _ (Permutation_map _ (filter_perm (n_has c) (frontier t)))). rewrite map_app, rprod_app. f_equal. f_equal. apply map_ext_in. intros x Hx. apply filter_In in Hx. destruct Hx as [Hx Hn]. apply val_ext. intros i Hi. unfold eupd. destruct (Nat.eqb_spec i c) as [->|]; [|reflexivity]. apply has_free in Hi; [|auto]. rewrite Hi in Hn. discriminate.
Qed.
End Value.
