(* Proofs_Tree.v -- labelled trees and prefix trees. *)
From Verif Require Import Base BaseFacts Model_Tree Spec_Tree.
Local Open Scope Z_scope.

Section P.
Context {A : Type} (eqb : A -> A -> bool) (Eq : reflects eqb).
Lemma eqb_refl a : eqb a a = true. Proof. now apply Eq. Qed.
Lemma eqb_neq a b : a <> b -> eqb a b = false. Proof. intro H. destruct (eqb a b) eqn:E; [apply Eq in E; contradiction|reflexivity]. Qed.
Lemma eq_dec' (a b : A) : {a = b} + {a <> b}. Proof. destruct (eqb a b) eqn:E; [left; now apply Eq|right; intro H; apply Eq in H; congruence]. Qed.
Lemma tree_ind2 (P : tree A -> Prop) : (forall ks, (forall k t, In (k, t) ks -> P t) -> P (Tree ks)) -> forall t, P t.
Proof.
  intro H. fix IH 1. intros [ks]. apply H. induction ks as [|[k t] ks IHk]; [intros ? ? []|]. intros k' t' [E|Hin]; [injection E as <- <-; apply IH|exact (IHk k' t' Hin)].
Qed.
Inductive wf : tree A -> Prop := WF ks : NoDup (map fst ks) -> (forall k t, In (k, t) ks -> wf t) -> wf (Tree ks).

Lemma branch_with x f ks y : branch eqb y (with_branch eqb x f ks) = if eqb x y then Some (f (match branch eqb x ks with Some t => t | None => Tree [] end)) else branch eqb y ks.
Proof.
  induction ks as [|[k t] ks IH]; cbn [with_branch branch]; [reflexivity|]. destruct (eqb k x) eqn:E.
  - apply Eq in E. subst k. cbn [branch]. destruct (eqb x y) eqn:E2; reflexivity.
  - cbn [branch]. destruct (eqb k y) eqn:E2; [|exact IH]. apply Eq in E2. subst y. rewrite eqb_neq; [reflexivity|]. intros ->. now rewrite eqb_refl in E.
Qed.
Lemma branch_in x ks t : branch eqb x ks = Some t -> In (x, t) ks.
Proof. induction ks as [|[k u] ks IH]; cbn; [discriminate|]. destruct (eqb k x) eqn:E; [intros [= <-]; left; apply Eq in E; now subst|auto]. Qed.
Lemma branch_in' x ks t : NoDup (map fst ks) -> In (x, t) ks -> branch eqb x ks = Some t.
Proof.
  induction ks as [|[k u] ks IH]; cbn; [contradiction|]. intros ND [E|Hin]; inversion ND as [|? ? N1 N2]; subst.
  - injection E as -> ->. now rewrite eqb_refl.
  - rewrite eqb_neq; [auto|]. intros ->. apply N1. apply in_map_iff. exists (x, t). auto.
Qed.
(* a path is found exactly when it was found before or is a prefix of the path added *)
Lemma prefix_nil (y : list A) : prefix [] y. Proof. now exists y. Qed.
Lemma prefix_cons a x b y : prefix (a :: x) (b :: y : list A) <-> a = b /\ prefix x y.
Proof. split; [intros (z & E); cbn in E; injection E as <- ->; split; [reflexivity|now exists z]|]. intros (-> & z & ->). now exists z. Qed.
Lemma prefix_nil_r (x : list A) : prefix x [] <-> x = []. Proof. split; [intros (z & E); now destruct x|intros ->; apply prefix_nil]. Qed.
Lemma find_empty x : find_path eqb x (Tree []) = true <-> x = []. Proof. destruct x; cbn; split; congruence. Qed.
Lemma find_add x : forall t y, find_path eqb y (add_path eqb x t) = true <-> find_path eqb y t = true \/ prefix y x.
Proof.
  induction x as [|a x IH]; intros t y.
  - cbn [add_path]. rewrite prefix_nil_r. split; [auto|]. intros [H| ->]; [assumption|reflexivity].
  - destruct y as [|b y]; [cbn; split; auto using prefix_nil|]. cbn [add_path find_path kids]. rewrite branch_with, prefix_cons. destruct (eqb a b) eqn:E.
    + apply Eq in E. subst b. rewrite IH. destruct (branch eqb a (kids t)) as [u|]; [intuition|]. rewrite find_empty. split; [|intuition discriminate]. intros [->|H]; right; (split; [reflexivity|]); [apply prefix_nil|assumption].
    + split; [auto|]. intros [H|[-> _]]; [assumption|]. now rewrite eqb_refl in E.
Qed.
Lemma keys_with x f ks : map fst (with_branch eqb x f ks) = match branch eqb x ks with Some _ => map fst ks | None => map fst ks ++ [x] end.
Proof. induction ks as [|[k t] ks IH]; cbn; [reflexivity|]. destruct (eqb k x) eqn:E; cbn; [reflexivity|]. rewrite IH. now destruct (branch eqb x ks). Qed.
Lemma branch_none x ks : branch eqb x ks = None -> ~ In x (map fst ks).
Proof. induction ks as [|[k t] ks IH]; cbn; [auto|]. destruct (eqb k x) eqn:E; [discriminate|]. intros H [->|Hin]; [now rewrite eqb_refl in E|now apply IH]. Qed.
Lemma in_with x f ks k t : In (k, t) (with_branch eqb x f ks) -> In (k, t) ks \/ exists u, t = f u /\ (u = Tree [] \/ In (k, u) ks).
Proof.
  induction ks as [|[k0 t0] ks IH]; cbn; [intros [E|[]]; injection E as <- <-; right; eauto|]. destruct (eqb k0 x); cbn.
  - intros [E|Hin]; [injection E as <- <-; right; exists t0; auto|auto].
  - intros [E|Hin]; [auto|]. destruct (IH Hin) as [H|(u & -> & [->|H])]; eauto 6.
Qed.
Lemma wf_empty : wf (Tree []). Proof. constructor; [constructor|intros ? ? []]. Qed.
Lemma add_wf x : forall t, wf t -> wf (add_path eqb x t).
Proof.
  induction x as [|a x IH]; intros t W; cbn [add_path]; [assumption|]. inversion W as [ks ND K]; subst. cbn [kids]. constructor.
  - rewrite keys_with. destruct (branch eqb a ks) eqn:B; [assumption|]. apply branch_none in B.
    apply Permutation_NoDup with (l := a :: map fst ks); [apply Permutation_cons_append|]. now constructor.
  - intros k t Hin. apply in_with in Hin. destruct Hin as [Hin|(u & -> & [->|Hin])]; [eauto|apply IH, wf_empty|apply IH; eauto].
Qed.

(* maximal paths of a well-formed tree, in whatever order children are visited *)
Definition leaf_path (t : tree A) (x : list A) : Prop := find_path eqb x t = true /\ forall y, find_path eqb y t = true -> prefix x y -> y = x.
Lemma leaf_cons ks k x : NoDup (map fst ks) -> (leaf_path (Tree ks) (k :: x) <-> exists t, In (k, t) ks /\ leaf_path t x).
Proof.
  intro ND. unfold leaf_path. split.
  - cbn [find_path kids]. destruct (branch eqb k ks) as [t|] eqn:B; [|intros [H _]; discriminate]. intros [F M]. exists t. split; [now apply branch_in|]. split; [assumption|]. intros y Fy P. specialize (M (k :: y)). cbn [find_path kids] in M. rewrite B in M. assert (E : k :: y = k :: x) by (apply M; [assumption|apply prefix_cons; auto]). congruence.
  - intros (t & Hin & F & M). cbn [find_path kids]. rewrite (branch_in' _ _ _ ND Hin). split; [assumption|]. intros [|b y] Fy P; [apply prefix_nil_r in P; discriminate|]. apply prefix_cons in P. destruct P as [<- P]. cbn [find_path kids] in Fy. rewrite (branch_in' _ _ _ ND Hin) in Fy. f_equal. auto.
Qed.
Lemma leaf_nil ks : NoDup (map fst ks) -> (leaf_path (Tree ks) [] <-> ks = []).
Proof.
  intro ND. split.
  - intros [_ M]. destruct ks as [|[k t] ks]; [reflexivity|]. specialize (M [k]). cbn in M. rewrite eqb_refl in M. specialize (M eq_refl (prefix_nil _)). discriminate.
  - intros ->. split; [reflexivity|]. intros y H _. now apply find_empty.
Qed.
Lemma in_concat_F2 {B C} (R : B -> list C -> Prop) l Ls x : Forall2 R l Ls -> (In x (concat Ls) <-> exists a L, In a l /\ In (a, L) (combine l Ls) /\ R a L /\ In x L).
Proof.
  induction 1 as [|a L l Ls HR F IH]; cbn; [split; [contradiction|intros (? & ? & [] & _)]|]. rewrite in_app_iff, IH. split.
  - intros [H|(b & M & H1 & H2 & H3 & H4)]; [exists a, L; auto|exists b, M; auto 8].
  - intros (b & M & H1 & [E|H2] & H3 & H4); [injection E as <- <-; auto|right; exists b, M; repeat split; auto; now apply in_combine_l in H2].
Qed.
Lemma F2_in_l {B C} (R : B -> C -> Prop) l Ls a : Forall2 R l Ls -> In a l -> exists L, In (a, L) (combine l Ls) /\ R a L.
Proof. induction 1 as [|b L l Ls HR F IH]; [contradiction|]. intros [->|Hin]; [exists L; cbn; auto|]. destruct (IH Hin) as (M & H1 & H2). exists M. cbn. auto. Qed.
Lemma F2_in {B C} (R : B -> C -> Prop) l Ls a L : Forall2 R l Ls -> In (a, L) (combine l Ls) -> R a L.
Proof. induction 1 as [|b M l Ls HR F IH]; cbn; [contradiction|]. intros [E|Hin]; [injection E as <- <-; assumption|auto]. Qed.
Lemma nodup_app' {B} (l1 l2 : list B) : NoDup l1 -> NoDup l2 -> (forall x, In x l1 -> In x l2 -> False) -> NoDup (l1 ++ l2).
Proof. induction l1 as [|a l1 IH]; intros H1 H2 H3; cbn; [assumption|]. inversion H1; subst. constructor; [rewrite in_app_iff; intros [H|H]; [contradiction|eapply H3; [left; reflexivity|assumption]]|]. apply IH; auto. intros x Hx. apply H3. now right. Qed.
Lemma visits_ok : forall t, wf t -> forall p L, visits t p L -> (forall y, In y L <-> exists x, y = p ++ x /\ leaf_path t x) /\ NoDup L.
Proof.
  induction t as [ks IH] using tree_ind2. intros W p L V. inversion W as [? ND K]; subst. inversion V as [p'|ks0 ks' p' Ls Hne Pm F]; subst.
  - split; [|repeat constructor; intros []]. intro y. cbn. split.
    + intros [<-|[]]. exists []. rewrite app_nil_r. split; [reflexivity|]. now apply leaf_nil.
    + intros (x & -> & Lx). destruct x as [|k x]; [rewrite app_nil_r; auto|]. apply leaf_cons in Lx; [|assumption]. destruct Lx as (t & [] & _).
  - assert (G : forall k t L, In ((k, t), L) (combine ks' Ls) -> (forall y, In y L <-> exists x, y = p ++ k :: x /\ leaf_path t x) /\ NoDup L).
    { intros k t L Hin. assert (Hk : In (k, t) ks) by (apply (Permutation_in _ Pm); now apply in_combine_l in Hin). pose proof (F2_in _ _ _ _ _ F Hin) as Vt. cbn in Vt. destruct (IH k t Hk (K k t Hk) _ _ Vt) as [H1 H2]. split; [|assumption]. intro y. rewrite H1. split; intros (x & -> & Lx); exists x; rewrite <- app_assoc; auto. }
    split.
    + intro y. rewrite (in_concat_F2 _ _ _ y F). split.
      * intros ([k t] & L & H1 & H2 & H3 & H4). destruct (G k t L H2) as [HL _]. apply HL in H4. destruct H4 as (x & -> & Lx). exists (k :: x). split; [reflexivity|]. apply leaf_cons; [assumption|]. exists t. split; [apply (Permutation_in _ Pm); assumption|assumption].
      * intros (x & -> & Lx). destruct x as [|k x]; [apply leaf_nil in Lx; [contradiction|assumption]|]. apply leaf_cons in Lx; [|assumption]. destruct Lx as (t & Hin & Lx). apply (Permutation_in _ (Permutation_sym Pm)) in Hin. destruct (F2_in_l _ _ _ _ F Hin) as (L & HL & HV). exists (k, t), L. repeat (split; [assumption|]). destruct (G k t L HL) as [H1 _]. apply H1. eauto.
    + assert (ND' : NoDup (map fst ks')) by (apply (Permutation_NoDup (Permutation_map fst (Permutation_sym Pm)) ND)). clear - F G ND'. induction F as [|[k t] L ks' Ls HR F IHF]; cbn; [constructor|]. cbn in ND'. inversion ND' as [|? ? N1 N2]; subst. apply nodup_app'.
      * apply (G k t L). cbn. auto.
      * apply IHF; [intros k' t' L' H; apply (G k' t' L'); cbn; auto|assumption].
      * intros y H1 H2. destruct (G k t L ltac:(cbn; auto)) as [HL _]. apply HL in H1. destruct H1 as (x & -> & _). apply (in_concat_F2 _ _ _ _ F) in H2. destruct H2 as ([k' t'] & L' & Hk & H2 & _ & H4). destruct (G k' t' L' ltac:(cbn; auto)) as [HL' _]. apply HL' in H4. destruct H4 as (x' & E & _). apply app_inv_head in E. injection E as <- _. apply N1. apply in_map_iff. exists (k, t'). auto.
Qed.
Lemma visits_maximal : forall t (p : list A), visits t p (maximal t p).
Proof.
  induction t as [ks IH] using tree_ind2. intro p. destruct ks as [|kt ks]; [constructor|]. cbn [maximal]. set (K := kt :: ks) in *. rewrite flat_map_concat_map. apply visits_node with (ks' := K); [discriminate|apply Permutation_refl|].
  clearbody K. induction K as [|[k t] K IHK]; cbn [map]; constructor; [apply (IH k t); left; reflexivity|]. apply IHK. intros k' t' H. apply (IH k' t'). now right.
Qed.
(* all paths added *)
Definition adds (ps : list (list A)) (t : tree A) : tree A := fold_left (fun t x => add_path eqb x t) ps t.
Lemma adds_wf ps : forall t, wf t -> wf (adds ps t). Proof. induction ps as [|x ps IH]; intros t W; cbn; [assumption|]. now apply IH, add_wf. Qed.
Lemma adds_find ps : forall t y, find_path eqb y (adds ps t) = true <-> find_path eqb y t = true \/ exists x, In x ps /\ prefix y x.
Proof.
  induction ps as [|x ps IH]; intros t y; cbn; [split; [auto|intros [H|(? & [] & _)]; assumption]|]. rewrite IH, find_add. split.
  - intros [[H|H]|(z & H1 & H2)]; [auto|right; exists x; auto|right; exists z; auto].
  - intros [H|(z & [->|H1] & H2)]; [auto|auto|right; eauto].
Qed.
Lemma prefix_refl (x : list A) : prefix x x. Proof. exists []. now rewrite app_nil_r. Qed.
Lemma prefix_trans (x y z : list A) : prefix x y -> prefix y z -> prefix x z. Proof. intros (a & ->) (b & ->). exists (a ++ b). now rewrite app_assoc. Qed.
Lemma prefix_antisym (x y : list A) : prefix x y -> prefix y x -> x = y.
Proof. intros (a & ->) (b & E). rewrite <- app_assoc in E. assert (H : a ++ b = []) by (apply (app_inv_head x); now rewrite app_nil_r). apply app_eq_nil in H. destruct H as [-> _]. now rewrite app_nil_r. Qed.
Lemma leaf_longest ps x : leaf_path (adds ps (Tree [])) x <-> longest ps x.
Proof.
  unfold leaf_path, longest. split.
  - intros [F M]. apply adds_find in F. assert (M' : forall y, In y ps -> prefix x y -> y = x) by (intros y Hy P; apply M; [apply adds_find; right; exists y; auto using prefix_refl|assumption]). split; [|assumption]. destruct F as [F|(y & Hy & P)]; [left; symmetry; now apply find_empty|]. right. rewrite <- (M' y Hy P). assumption.
  - intros [I M]. split.
    + apply adds_find. destruct I as [<-|I]; [left; reflexivity|right; exists x; auto using prefix_refl].
    + intros y F P. apply adds_find in F. destruct F as [F|(z & Hz & Pz)]; [apply find_empty in F; subst y; apply prefix_nil_r in P; auto|]. assert (z = x) by (apply M; [assumption|now apply prefix_trans with y]). subst z. apply prefix_antisym; assumption.
Qed.
End P.
