(* Prop_Tree.v -- C53, C54, C55, C75, C76: labelled trees, serialised trees, prefix trees, growing arrays. *)
From Verif Require Import Base BaseFacts Model_Index Model_Containers Proofs_Containers Model_Tree Spec_Tree Proofs_Tree Proofs_Tree2.
Local Open Scope Z_scope.

(* ================= C53 ================= *)
Section T.
Context {A : Type} (eqb : A -> A -> bool) (Eq : reflects eqb).
(* labeled_tree(root) followed by add_rooted_path of each path *)
Definition grown (root : A) (ps : list (list A)) : ltree A := fold_left (fun t x => ladd eqb x t) ps (root, Tree []).
Lemma grown_eq root ps : grown root ps = (root, adds eqb ps (Tree [])).
Proof.
  unfold grown, adds. generalize (@Tree A []) as t. induction ps as [|x ps IH]; intro t; cbn [fold_left]; [reflexivity|]. unfold ladd at 2. cbn [fst snd]. apply IH.
Qed.
Lemma grown_wf ps : wf (adds eqb ps (Tree [])). Proof. apply (adds_wf eqb Eq). constructor; [constructor|intros ? ? []]. Qed.
End T.
(* contained paths are exactly the prefixes of the paths added *)
Theorem C53_contains : forall A (eqb : A -> A -> bool), reflects eqb -> forall root ps x, lcontains eqb x (grown eqb root ps) = true <-> x = [] \/ exists p, In p ps /\ prefix x p.
Proof. intros A eqb Eq root ps x. rewrite grown_eq. unfold lcontains. cbn [snd]. rewrite (adds_find eqb Eq), find_empty. tauto. Qed.
Print Assumptions C53_contains.
(* the maximal paths listed are the root followed by each path that no other path extends, once *)
Theorem C53_maximal : forall A (eqb : A -> A -> bool), reflects eqb -> forall root ps, (forall y, In y (lmaximal (grown eqb root ps)) <-> exists x, y = root :: x /\ longest ps x) /\ NoDup (lmaximal (grown eqb root ps)).
Proof.
  intros A eqb Eq root ps. rewrite grown_eq. unfold lmaximal. cbn [fst snd app]. destruct (visits_ok eqb Eq _ (grown_wf eqb Eq ps) _ _ (visits_maximal (adds eqb ps (Tree [])) [root])) as [H ND]. split; [|assumption]. intro y. rewrite H. split; intros (x & -> & L); exists x; (split; [reflexivity|]); now apply (leaf_longest eqb Eq).
Qed.
Print Assumptions C53_maximal.
(* order and repetition of the additions do not matter *)
Theorem C53_order_irrelevant : forall A (eqb : A -> A -> bool), reflects eqb -> forall root ps qs, (forall p, In p ps <-> In p qs) -> (forall x, lcontains eqb x (grown eqb root ps) = lcontains eqb x (grown eqb root qs)) /\ Permutation (lmaximal (grown eqb root ps)) (lmaximal (grown eqb root qs)).
Proof.
  intros A eqb Eq root ps qs H. split.
  - intro x. assert (E : lcontains eqb x (grown eqb root ps) = true <-> lcontains eqb x (grown eqb root qs) = true) by (rewrite !C53_contains by assumption; split; (intros [->|(p & H1 & H2)]; [auto|right; exists p; split; [now apply H|assumption]])).
    destruct (lcontains eqb x (grown eqb root ps)), (lcontains eqb x (grown eqb root qs)); try reflexivity; [symmetry|]; now apply E.
  - destruct (C53_maximal A eqb Eq root ps) as [H1 N1]. destruct (C53_maximal A eqb Eq root qs) as [H2 N2]. apply NoDup_Permutation; [assumption|assumption|]. intro y. rewrite H1, H2. assert (G : forall x, longest ps x <-> longest qs x).
    { intro x. unfold longest. cbn [In]. split; intros [I M]; (split; [destruct I as [I|I]; [auto|right; now apply H]|]); intros z Hz; apply M; now apply H. }
    split; intros (x & -> & L); exists x; (split; [reflexivity|]); now apply G.
Qed.
Print Assumptions C53_order_irrelevant.
Definition zr : reflects Z.eqb := Z.eqb_eq.
Example C53_case : reflects Z.eqb /\ lmaximal (grown Z.eqb 9 [[1; 2]; [1]; [1; 2; 3]; []; [4]; [1; 5]; [4]]) = [[9; 1; 2; 3]; [9; 1; 5]; [9; 4]] /\ lcontains Z.eqb [1; 2] (grown Z.eqb 9 [[1; 2; 3]]) = true /\ lcontains Z.eqb [2] (grown Z.eqb 9 [[1; 2; 3]]) = false /\ longest [[1; 2]; [1]] [1; 2].
Proof. split; [exact zr|]. repeat split; [right; now left|]. intros y [<-|[<-|[]]] (z & E); [reflexivity|discriminate]. Qed.

(* ================= C76 ================= *)
(* a rooted path consisting of the given labels is found exactly when some rooted path visits each of them once and nothing else *)
Theorem C76_path_of_labels : forall A (eqb : A -> A -> bool), reflects eqb -> forall root ps xs,
  lconsists eqb xs (grown eqb root ps) = true <-> exists y, lcontains eqb y (grown eqb root ps) = true /\ NoDup (root :: y) /\ forall a, In a (root :: y) <-> In a xs.
Proof.
  intros A eqb Eq root ps xs. rewrite grown_eq. unfold lconsists, lcontains. cbn [fst snd]. destruct (to_set_ok eqb Eq xs) as [ND HS]. rewrite (consists_ok eqb Eq _ (grown_wf eqb Eq ps) root _ ND). split.
  - intros (y & F & P). exists y. split; [assumption|]. split; [exact (Permutation_NoDup (Permutation_sym P) ND)|]. intro a. rewrite <- HS. split; apply Permutation_in; [assumption|now apply Permutation_sym].
  - intros (y & F & N & H). exists y. split; [assumption|]. apply NoDup_Permutation; [assumption|assumption|]. intro a. now rewrite HS.
Qed.
Print Assumptions C76_path_of_labels.
Example C76_case : lconsists Z.eqb [3; 9; 1; 3] (grown Z.eqb 9 [[1; 3; 2]; [4]]) = true /\ lconsists Z.eqb [3; 9] (grown Z.eqb 9 [[1; 3; 2]; [4]]) = false /\ lconsists Z.eqb [1; 3] (grown Z.eqb 9 [[1; 3; 2]]) = false.
Proof. repeat split. Qed.

(* ================= C55 ================= *)
Definition planted {A} (eqb : A -> A -> bool) (ps : list (list A)) : tree A := fold_left (fun t x => add_path eqb x t) ps (Tree []).
Theorem C55_find : forall A (eqb : A -> A -> bool), reflects eqb -> forall ps x, find_path eqb x (planted eqb ps) = true <-> x = [] \/ exists p, In p ps /\ prefix x p.
Proof. intros A eqb Eq ps x. unfold planted. fold (adds eqb ps (Tree [])). rewrite (adds_find eqb Eq), find_empty. tauto. Qed.
Print Assumptions C55_find.
(* whatever order the hash tables are walked in *)
Theorem C55_maximal : forall A (eqb : A -> A -> bool), reflects eqb -> forall ps L, visits (planted eqb ps) [] L -> (forall x, In x L <-> longest ps x) /\ NoDup L.
Proof.
  intros A eqb Eq ps L V. unfold planted in V. fold (adds eqb ps (Tree [])) in V. destruct (visits_ok eqb Eq _ (grown_wf eqb Eq ps) _ _ V) as [H ND]. split; [|assumption]. intro x. rewrite H. split; [intros (y & -> & L'); now apply (leaf_longest eqb Eq)|]. intro L'. exists x. split; [reflexivity|]. now apply (leaf_longest eqb Eq).
Qed.
Print Assumptions C55_maximal.
Theorem C55_some_walk : forall A (t : tree A), exists L, visits t [] L. Proof. intros A t. exists (maximal t []). apply visits_maximal. Qed.
Print Assumptions C55_some_walk.
Example C55_case : visits (planted Z.eqb [[1; 2]; [3]; [1]]) [] [[3]; [1; 2]] /\ visits (planted Z.eqb [[1; 2]; [3]; [1]]) [] [[1; 2]; [3]] /\ find_path Z.eqb [1] (planted Z.eqb [[1; 2]; [3]; [1]]) = true /\ find_path Z.eqb [2] (planted Z.eqb [[1; 2]; [3]; [1]]) = false.
Proof.
  assert (V : visits (Tree [(2, Tree [])]) [1] [[1; 2]]) by (apply (visits_node _ [(2, Tree [])] _ [[[1; 2]]]); [discriminate|apply Permutation_refl|repeat constructor]). split; [|split; [|split; reflexivity]].
  - apply (visits_node [(1, Tree [(2, Tree [])]); (3, Tree [])] [(3, Tree []); (1, Tree [(2, Tree [])])] [] [[[3]]; [[1; 2]]]); [discriminate|apply perm_swap|]. constructor; [constructor|]. constructor; [exact V|constructor].
  - apply (visits_maximal (planted Z.eqb [[1; 2]; [3]; [1]]) []).
Qed.

(* ================= C54 ================= *)
(* traversing the flat form visits the nodes in depth-first order, with the labels, numbers of children and parents of the tree *)
Theorem C54_flat_form : forall t : ltree Z, exists a L, as_int_tree t = Ok a /\ (exists k0, forall k, (k0 <= k)%nat -> traverse k a 0 = Ok L /\ int_depth_first k a 0 = Ok (depth_first t)) /\
  map labn L = depth_first t /\ NoDup (map posn L) /\ Forall2 (same_node (map posn L)) (indexed_depth_first t) L.
Proof.
  intro t. destruct (as_int_tree_ok t) as (a & E & O & S' & R). exists a, (nodes (snd t) (fst t) 0 (-1) (3 + nkids (snd t))). split; [assumption|]. pose proof (nkids_nonneg (snd t)). pose proof (tot_nonneg (snd t)). split; [|split; [|split]].
  - exists (height (snd t)). intros k Hk. destruct (traverse_ok (snd t) k a (fst t) 0 (-1) (3 + nkids (snd t)) Hk O ltac:(lia) ltac:(lia) ltac:(lia) ltac:(lia) R) as [H1 H2]. split; [assumption|]. rewrite H2. f_equal. apply labels_nodes.
  - exact (labels_nodes (snd t) (fst t) 0 (-1) (3 + nkids (snd t))).
  - apply nodes_pos. lia.
  - unfold indexed_depth_first. apply idf_ok; [lia|reflexivity|left; auto].
Qed.
Print Assumptions C54_flat_form.
(* the labels of the indexed traversal are those of the plain one *)
Theorem C54_traversals_agree : forall t : ltree Z, map fst (indexed_depth_first t) = depth_first t.
Proof.
  intro t. destruct (C54_flat_form t) as (a & L & _ & _ & HL & _ & F). rewrite <- HL. clear HL. revert F. generalize (map posn L) as G. intros G F. induction F as [|[l o] n x L' [H _] F IH]; cbn; [reflexivity|]. now rewrite IH, H.
Qed.
Print Assumptions C54_traversals_agree.
Definition t1 : ltree Z := (7, Tree [(1, Tree [(2, Tree []); (3, Tree [])]); (4, Tree [(5, Tree [])])]).
Example C54_case : indexed_depth_first t1 = [(7, -1); (1, 0); (2, 1); (3, 1); (4, 0); (5, 4)] /\ exists a, as_int_tree t1 = Ok a /\ traverse 4 a 0 = Ok [(0, 7, 2, -1); (5, 1, 2, 0); (10, 2, 0, 5); (13, 3, 0, 5); (16, 4, 1, 0); (20, 5, 0, 16)].
Proof. split; [reflexivity|]. eexists. split; vm_compute; reflexivity. Qed.

(* ================= C75 ================= *)
(* what a growing array should hold: the last value set at each position *)
Inductive aop := ASet (i x : Z) | AResize (n : Z) | AGet (i : Z).
Definition astep (o : aop) (a : aarr) : res aarr :=
  match o with ASet i x => aa_set i x a | AResize n => aa_resize n a | AGet i => do va <- aa_get i a; Ok (snd va) end.
Definition aspec (o : aop) (fs : (Z -> option Z) * Z) : (Z -> option Z) * Z :=
  let '(f, n) := fs in
  match o with ASet i x => (fun j => if j =? i then Some x else f j, Z.max n (i + 1)) | AResize n' => (f, n') | AGet i => (f, Z.max n (i + 1)) end.
Definition avalid (o : aop) (fs : (Z -> option Z) * Z) : Prop :=
  match o with ASet i x => 0 <= i | AResize n => 0 <= n | AGet i => 0 <= i /\ fst fs i <> None end.
Fixpoint avalids (l : list aop) (fs : (Z -> option Z) * Z) : Prop := match l with [] => True | o :: l => avalid o fs /\ avalids l (aspec o fs) end.
Definition aholds (a : aarr) (fs : (Z -> option Z) * Z) : Prop := aok a /\ asz a = snd fs /\ forall j, cell (abuf a) j = fst fs j.
(* growing never loses a value: after any operations every position holds the last value set there, the size is as expected *)
Theorem C75_growth : forall ops, avalids ops (fun _ => None, 0) -> exists a, foldM astep ops aa_new = Ok a /\ aholds a (fold_left (fun fs o => aspec o fs) ops (fun _ => None, 0)) /\
  forall i, 0 <= i -> match fst (fold_left (fun fs o => aspec o fs) ops (fun _ => None, 0)) i with Some v => exists a', aa_get i a = Ok (v, a') | None => aa_get i a = UB end.
Proof.
  assert (G : forall ops a fs, avalids ops fs -> aholds a fs -> exists a', foldM astep ops a = Ok a' /\ aholds a' (fold_left (fun fs o => aspec o fs) ops fs)).
  { induction ops as [|o ops IH]; intros a fs V H; cbn [foldM fold_left]; [eauto|]. destruct V as [V Vs]. destruct fs as [f n]. destruct H as (O & S' & C). cbn [fst snd] in *.
    assert (E : exists a', astep o a = Ok a' /\ aholds a' (aspec o (f, n))).
    { destruct o as [i x|n'|i]; cbn [astep aspec avalid fst] in *.
      - destruct (aa_set_ok i x a O V) as (a' & E & O' & S1 & C1). exists a'. split; [assumption|]. split; [assumption|]. cbn [fst snd]. split; [lia|]. intro j. rewrite C1, C. reflexivity.
      - destruct (aa_resize_ok n' a O V) as (a' & E & O' & S1 & C1). exists a'. split; [assumption|]. split; [assumption|]. cbn [fst snd]. split; [assumption|]. intro j. now rewrite C1.
      - destruct V as [Vi Vf]. destruct (aa_get_ok i a O Vi) as (a' & O' & S1 & C1 & E). rewrite C in E. destruct (f i) as [v|]; [|contradiction]. exists a'. rewrite E. split; [reflexivity|]. split; [assumption|]. cbn [fst snd]. split; [lia|]. intro j. now rewrite C1. }
    destruct E as (a' & -> & H'). cbn [bind]. now apply IH. }
  intros ops V. destruct (G ops aa_new _ V) as (a & E & H). { split; [split; vm_compute; discriminate|]. split; [reflexivity|]. intro j. apply cell_new. }
  exists a. split; [assumption|]. split; [assumption|]. intros i Hi. destruct H as (O & _ & C). rewrite <- C. destruct (aa_get_ok i a O Hi) as (a' & _ & _ & _ & ->). destruct (cell (abuf a) i); [eauto|reflexivity].
Qed.
Print Assumptions C75_growth.
(* a copy has the size of the original but none of its values *)
Theorem C75_copy_refuted : forall a i, aok a -> 0 <= i < asz a -> asz (aa_copy a) = asz a /\ aa_get i (aa_copy a) = UB.
Proof.
  intros a i [H1 H2] Hi. split; [reflexivity|]. unfold aa_get, aa_copy. cbn [asz abuf]. replace (asz a <=? i) with false by lia. cbn [bind abuf]. rewrite (bget_none _ _ (cell_new _ _)). reflexivity.
Qed.
Print Assumptions C75_copy_refuted.
Example C75_case : avalids [ASet 3 5; ASet 0 2; AResize 1; ASet 6 8; AGet 3] (fun _ => None, 0) /\ exists a, foldM astep [ASet 3 5; ASet 0 2; AResize 1; ASet 6 8; AGet 3] aa_new = Ok a /\ asz a = 7 /\ aa_read a 3 = Ok 5 /\ aa_get 3 (aa_copy a) = UB.
Proof. split; [cbn; repeat split; lia || discriminate|]. eexists. split; [vm_compute; reflexivity|]. vm_compute. auto. Qed.
