From Coq Require Import Sorting.Permutation Sorting.Sorted.
From Verif Require Import Base BaseFacts Model_Components Spec_Components.
Local Open Scope Z_scope.

(* ---- sets ---- *)
Lemma set_insert_in x y l : In y (set_insert x l) <-> y = x \/ In y l.
Proof.
  induction l as [|a l IH]; cbn; [intuition|]. destruct (x <? a) eqn:E1; [cbn; intuition|]. destruct (x =? a) eqn:E2; cbn; [|rewrite IH; intuition].
  assert (x = a) by lia. subst. intuition.
Qed.
Lemma set_insert_sorted x l : StronglySorted Z.lt l -> StronglySorted Z.lt (set_insert x l).
Proof.
  induction 1 as [|a l S IH F]; cbn; [constructor; constructor|]. destruct (x <? a) eqn:E1.
  - constructor; [now constructor|]. constructor; [lia|]. eapply Forall_impl; [|exact F]. cbn. lia.
  - destruct (x =? a) eqn:E2; [now constructor|]. constructor; [exact IH|]. apply Forall_forall. intros y Hy. apply set_insert_in in Hy as [->|Hy]; [lia|].
    rewrite Forall_forall in F. now apply F.
Qed.
Lemma sorted_nodup l : StronglySorted Z.lt l -> NoDup l.
Proof. induction 1 as [|a l S IH F]; constructor; [|assumption]. intro K. rewrite Forall_forall in F. specialize (F a K). lia. Qed.
Lemma range_set_ok n : StronglySorted Z.lt (range_set n) /\ forall x, In x (range_set n) <-> 0 <= x < n.
Proof.
  unfold range_set. assert (G : forall l s, StronglySorted Z.lt s -> StronglySorted Z.lt (fold_left (fun s i => set_insert i s) l s) /\
    forall x, In x (fold_left (fun s i => set_insert i s) l s) <-> In x l \/ In x s).
  { induction l as [|a l IH]; intros s Hs; cbn; [intuition|]. destruct (IH (set_insert a s) (set_insert_sorted a s Hs)) as [A B]. split; [exact A|].
    intro x. rewrite B, set_insert_in. intuition. }
  destruct (G (zrange n) [] (SSorted_nil _)) as [A B]. split; [exact A|]. intro x. rewrite B, in_zrange. cbn. tauto.
Qed.
Lemma set_erase_in x y l : In x (set_erase y l) <-> In x l /\ x <> y.
Proof. unfold set_erase. rewrite filter_In. split; intros [A B]; split; auto; [intros ->; rewrite Z.eqb_refl in B; discriminate|]. apply negb_true_iff. lia. Qed.
Lemma set_erase_nodup y l : NoDup l -> NoDup (set_erase y l).
Proof. apply NoDup_filter. Qed.
Lemma set_erase_perm y l : NoDup l -> In y l -> Permutation l (y :: set_erase y l).
Proof.
  intros N I. apply NoDup_Permutation; [exact N| |].
  - constructor; [|now apply set_erase_nodup]. intro K. apply set_erase_in in K. tauto.
  - intro x. cbn. rewrite set_erase_in. destruct (Z.eq_dec x y); intuition congruence.
Qed.

Lemma NoDup_app_r {X} (a b : list X) : NoDup (a ++ b) -> NoDup b.
Proof. induction a as [|x a IH]; cbn; [auto|]. intro K. inversion K; auto. Qed.

Section Components.
Context (R : Z -> Z -> bool).

Lemma reaches_in l x y : reaches R l x y -> In y l.
Proof. destruct 1; assumption. Qed.
Lemma reaches_mono l l' x y : (forall z, In z l -> In z l') -> reaches R l x y -> reaches R l' x y.
Proof. intros K. induction 1; [apply reach_here; auto|eapply reach_step; eauto]. Qed.
Lemma reaches_trans l x y z : reaches R l x y -> reaches R l y z -> reaches R l x z.
Proof. intros A B. induction B as [|y u v B IH I E]; [exact A|]. eapply reach_step; [now apply IH|exact I|exact E]. Qed.

Lemma find_none (f : Z -> bool) l : find f l = None -> forall y, In y l -> f y = false.
Proof. intros E y Hy. exact (find_none f l E y Hy). Qed.

(* what grow_component does: the nodes it takes, l, can be reached from x, and nothing related to x or to them is left *)
Lemma grow_ok fuel : forall x nodes comp, NoDup nodes -> (length nodes < fuel)%nat ->
  exists l nodes', grow_component R fuel x (nodes, comp) = Ok (nodes', comp ++ l) /\ Permutation nodes (l ++ nodes') /\
    (forall y, In y l -> reaches R (x :: l) x y) /\
    (forall y z, y = x \/ In y l -> In z nodes' -> R y z = false).
Proof.
  induction fuel as [|f IH]; intros x nodes comp N L; [lia|]. cbn [grow_component fst snd].
  destruct (find (R x) nodes) as [y|] eqn:E.
  - apply find_some in E as [Iy Ry]. pose proof (set_erase_perm y nodes N Iy) as P. pose proof (Permutation_length P) as PL. cbn in PL.
    destruct (IH y (set_erase y nodes) (comp ++ [y]) (set_erase_nodup y nodes N) ltac:(lia)) as (l1 & n1 & E1 & P1 & R1 & S1). rewrite E1. cbn [bind].
    pose proof (Permutation_length P1) as PL1. rewrite app_length in PL1.
    assert (N1 : NoDup n1). { eapply NoDup_app_r. exact (Permutation_NoDup P1 (set_erase_nodup y nodes N)). }
    destruct (IH x n1 ((comp ++ [y]) ++ l1) N1 ltac:(lia)) as (l2 & n2 & E2 & P2 & R2 & S2). rewrite E2.
    exists (y :: l1 ++ l2), n2. split; [f_equal; f_equal; rewrite <- !app_assoc; reflexivity|]. split; [|split].
    + rewrite P. cbn. constructor. rewrite P1, P2. now rewrite app_assoc.
    + assert (Y : reaches R (x :: y :: l1 ++ l2) x y) by (eapply reach_step; [apply reach_here; now left|now right; left|exact Ry]).
      intros z [<-|Hz]; [exact Y|]. apply in_app_iff in Hz as [Hz|Hz].
      * apply (reaches_trans _ x y z Y). apply (reaches_mono (y :: l1)); [|now apply R1]. intros u [<-|Hu]; [now right; left|]. right; right. apply in_app_iff. now left.
      * apply (reaches_mono (x :: l2)); [|now apply R2]. intros u [<-|Hu]; [now left|]. right; right. apply in_app_iff. now right.
    + intros u z Hu Hz. destruct Hu as [->|[<-|Hu]].
      * apply (S2 x z); auto.
      * apply (S1 y z); [now left|]. apply (Permutation_in _ (Permutation_sym P2)). apply in_app_iff. now right.
      * apply in_app_iff in Hu as [Hu|Hu]; [|apply (S2 u z); auto].
        apply (S1 u z); [now right|]. apply (Permutation_in _ (Permutation_sym P2)). apply in_app_iff. now right.
  - exists [], nodes. rewrite app_nil_r. split; [reflexivity|]. split; [reflexivity|]. split; [intros y []|].
    intros y z [->|[]] Hz. now apply (find_none _ _ E).
Qed.

(* a component: its first node reaches all of it *)
Definition rooted (c : list Z) : Prop := exists x c', c = x :: c' /\ forall y, In y c -> reaches R c x y.
Lemma before_snoc {X} (cs : list X) c d e : before (cs ++ [e]) c d -> before cs c d \/ (In c cs /\ d = e).
Proof.
  intros (l1 & l2 & l3 & E). destruct l3 as [|z l3 _] using rev_ind.
  - right. assert (E' : cs ++ [e] = (l1 ++ c :: l2) ++ [d]) by (rewrite E; now rewrite <- app_assoc). apply app_inj_tail in E' as [-> ->].
    split; [|reflexivity]. apply in_app_iff. right. now left.
  - left. assert (E' : cs ++ [e] = (l1 ++ c :: l2 ++ d :: l3) ++ [z]).
    { rewrite E. rewrite <- !app_assoc. cbn. rewrite <- !app_assoc. reflexivity. }
    apply app_inj_tail in E' as [-> _]. now exists l1, l2, l3.
Qed.
Lemma loop_ok fuel : forall nodes comps, NoDup nodes -> (length nodes <= fuel)%nat ->
  Forall rooted comps -> (forall c d x y, before comps c d -> In x c -> In y d -> R x y = false) ->
  (forall c x y, In c comps -> In x c -> In y nodes -> R x y = false) ->
  exists cs, components_loop R fuel nodes comps = Ok cs /\ Permutation (concat cs) (concat comps ++ nodes) /\ Forall rooted cs /\
    (forall c d x y, before cs c d -> In x c -> In y d -> R x y = false).
Proof.
  induction fuel as [|f IH]; intros nodes comps N L Rt Bf Nx.
  - destruct nodes; [|cbn in L; lia]. exists comps. cbn. rewrite app_nil_r. auto.
  - destruct nodes as [|x rest]; [exists comps; cbn; rewrite app_nil_r; auto|]. cbn [components_loop].
    inversion N as [|? ? Nx' Nr]; subst.
    destruct (grow_ok (S (length rest)) x rest [x] Nr ltac:(lia)) as (l & n1 & E1 & P1 & R1 & S1). rewrite E1. cbn [bind].
    pose proof (Permutation_length P1) as PL. rewrite app_length in PL. cbn in L.
    assert (Sub : forall z, In z n1 -> In z rest) by (intros z Hz; apply (Permutation_in _ (Permutation_sym P1)); apply in_app_iff; now right).
    assert (SubL : forall z, In z l -> In z rest) by (intros z Hz; apply (Permutation_in _ (Permutation_sym P1)); apply in_app_iff; now left).
    destruct (IH n1 (comps ++ [x :: l])) as (cs & E & P & Rt' & Bf').
    + eapply NoDup_app_r. exact (Permutation_NoDup P1 Nr).
    + lia.
    + apply Forall_app. split; [exact Rt|]. constructor; [|constructor]. exists x, l. split; [reflexivity|]. intros y [<-|Hy]; [apply reach_here; now left|now apply R1].
    + intros c d u v Hb Hu Hv. apply before_snoc in Hb as [Hb|[Hc ->]]; [eapply Bf; eauto|]. apply (Nx c u v Hc Hu). destruct Hv as [<-|Hv]; [now left|right; auto].
    + intros c u v Hc Hu Hv. apply in_app_iff in Hc as [Hc|[<-|[]]]; [apply (Nx c u v Hc Hu); right; auto|]. apply (S1 u v); [|exact Hv]. destruct Hu as [<-|Hu]; auto.
    + exists cs. split; [exact E|]. split; [|split; [exact Rt'|exact Bf']].
      rewrite P, concat_app. cbn. rewrite app_nil_r, <- app_assoc. cbn. apply Permutation_app_head. constructor. now rewrite P1.
Qed.
Lemma before_nil {X} (c d : X) : ~ before [] c d.
Proof. intros (l1 & l2 & l3 & E). destruct l1; discriminate. Qed.
Lemma components_ok nodes : NoDup nodes ->
  exists cs, connected_components R nodes = Ok cs /\ Permutation (concat cs) nodes /\ Forall rooted cs /\
    (forall c d x y, before cs c d -> In x c -> In y d -> R x y = false).
Proof.
  intro N. destruct (loop_ok (length nodes) nodes [] N (le_n _) (Forall_nil _)) as (cs & E & P & Rt & Bf).
  - intros c d x y Hb. now apply before_nil in Hb.
  - intros c x y [].
  - exists cs. auto.
Qed.
(* two members of the list of components are the same or one comes before the other *)
Lemma before_total {X} (cs : list X) c d : In c cs -> In d cs -> c = d \/ before cs c d \/ before cs d c.
Proof.
  intros Hc Hd. apply in_split in Hc as (l1 & l2 & ->). apply in_app_iff in Hd as [Hd|[->|Hd]]; [|now left|].
  - right; right. apply in_split in Hd as (a & b & ->). exists a, b, l2. now rewrite <- app_assoc.
  - right; left. apply in_split in Hd as (a & b & ->). now exists l1, a, b.
Qed.
(* symmetric relations *)
Lemma reaches_sym l x y : (forall a b, R a b = R b a) -> reaches R l x y -> In x l -> reaches R l y x.
Proof.
  intros S. induction 1 as [|x y z A IH I E]; intro Hx; [now apply reach_here|].
  apply (reaches_trans l z y x); [|now apply IH]. eapply reach_step; [now apply reach_here|eapply reaches_in; eauto|rewrite S; exact E].
Qed.
Lemma components_sym nodes cs : (forall a b, R a b = R b a) -> NoDup nodes -> connected_components R nodes = Ok cs ->
  forall x y, In x nodes -> In y nodes -> (exists c, In c cs /\ In x c /\ In y c) <-> reaches R nodes x y.
Proof.
  intros Sy N E x y Hx Hy. destruct (components_ok nodes N) as (cs' & E' & P & Rt & Bf). assert (cs' = cs) by congruence. subst cs'.
  assert (Sub : forall c z, In c cs -> In z c -> In z nodes) by (intros c z Hc Hz; apply (Permutation_in _ P); apply in_concat; eauto).
  split.
  - intros (c & Hc & Xc & Yc). rewrite Forall_forall in Rt. destruct (Rt c Hc) as (r & c' & -> & K).
    apply (reaches_mono (r :: c') nodes); [intros z Hz; eapply Sub; eauto|]. apply (reaches_trans _ x r y); [|now apply K].
    apply reaches_sym; auto. now left.
  - intro K. induction K as [x _|x y z A IH Iz Ez].
    + apply (Permutation_in _ (Permutation_sym P)) in Hx. apply in_concat in Hx as (c & Hc & Xc). now exists c.
    + destruct (IH Hx (reaches_in _ _ _ A)) as (c & Hc & Xc & Yc).
      apply (Permutation_in _ (Permutation_sym P)) in Iz. apply in_concat in Iz as (d & Hd & Zd).
      destruct (before_total cs c d Hc Hd) as [->|[B|B]]; [now exists d| |].
      * rewrite (Bf c d y z B Yc Zd) in Ez. discriminate.
      * rewrite Sy, (Bf d c z y B Zd Yc) in Ez. discriminate.
Qed.
End Components.
