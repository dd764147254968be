(* Checks.v -- decidable versions of the hypotheses used in the theorems, so that the examples beside
   the theorems can be discharged by computation. *)
From Verif Require Import Base BaseFacts Model_Index Model_View Model_Tensor Spec_Index Spec_View Spec_Tensor
  Proofs_Axes Proofs_Index Proofs_View Proofs_Tensor.
Local Open Scope Z_scope.

Lemma forall_in_range (P : list Z -> Prop) (f : list Z -> bool) dims :
  (forall ix, f ix = true -> P ix) -> forallb f (all_indices dims) = true -> forall ix, in_range ix dims -> P ix.
Proof. intros H E ix Hix. apply H. rewrite forallb_forall in E. apply E. now apply in_all_indices. Qed.

Definition readableb {V} (m : mem V) (v : view) : bool :=
  forallb (fun ix => match elem m v ix with Some _ => true | None => false end) (all_indices (vdims v)).
Lemma readable_check {V} (m : mem V) v : readableb m v = true -> readable m v.
Proof.
  intro H. unfold readable. apply (forall_in_range _ (fun ix => match elem m v ix with Some _ => true | None => false end)); [|exact H].
  intros ix E. destruct (elem m v ix); [discriminate|discriminate].
Qed.

Definition addr_eqb (p q : res (Z * Z)) : bool :=
  match p, q with Ok (a, b), Ok (c, d) => (a =? c) && (b =? d) | UB, UB => true | Throw, Throw => true | _, _ => false end.
Lemma addr_eqb_ok p q : addr_eqb p q = false -> p <> q.
Proof.
  intros E ->. destruct q as [[a b]| |]; cbn in E; try discriminate. rewrite !Z.eqb_refl in E. discriminate.
Qed.
Definition no_clobberb (r x : view) : bool :=
  forallb (fun ix => forallb (fun jx => if addr_eqb (vaddr r ix) (vaddr x jx) then eqlb ix jx else true)
    (all_indices (vdims x))) (all_indices (vdims r)).
Lemma no_clobber_check r x : no_clobberb r x = true -> no_clobber r x.
Proof.
  intros H ix jx Hix Hjx Eq. unfold no_clobberb in H. rewrite forallb_forall in H.
  apply in_all_indices in Hix. specialize (H ix Hix). rewrite forallb_forall in H.
  apply in_all_indices in Hjx. specialize (H jx Hjx).
  destruct (addr_eqb (vaddr r ix) (vaddr x jx)) eqn:E; [now apply eqlb_eq|].
  now apply addr_eqb_ok in E.
Qed.
Lemma distinct_check v : no_clobberb v v = true -> distinct_cells v.
Proof. intros H ix jx Hi Hj E. now apply (no_clobber_check v v H). Qed.
Definition disjointb (r x : view) : bool :=
  forallb (fun ix => forallb (fun jx => negb (addr_eqb (vaddr r ix) (vaddr x jx)))
    (all_indices (vdims x))) (all_indices (vdims r)).
Lemma disjoint_check r x : disjointb r x = true -> disjoint_views r x.
Proof.
  intros H ix jx Hix Hjx. unfold disjointb in H. rewrite forallb_forall in H.
  apply in_all_indices in Hix. specialize (H ix Hix). rewrite forallb_forall in H.
  apply in_all_indices in Hjx. specialize (H jx Hjx). apply addr_eqb_ok. now apply negb_true_iff in H.
Qed.
Ltac by_check := first
  [ apply readable_check | apply no_clobber_check | apply distinct_check | apply disjoint_check ]; vm_compute; reflexivity.
