(* Proofs_Graph.v -- lemmas about sparse graphs, their pools and their spanning trees. *)
From Verif Require Import Base Map Model_Containers Proofs_Containers Proofs_Containers4 Model_Tree Model_Graph Spec_Graph.
Local Open Scope Z_scope.

Lemma tables_wf m : tables m <-> momwf m.
Proof.
  unfold tables, momwf, mwf. split; intros [A B]; (split; [exact A|]); intros i r HI; apply (B i).
  - now apply mfind_in.
  - apply mfind_iff; assumption.
Qed.
Lemma entry_find m i j v : momwf m -> (entry i j v m <-> mom_find i j m = Some v).
Proof.
  intros [A B]. unfold entry, mom_find, mom_row. split.
  - intros (r & I1 & I2). apply mfind_iff in I1; [|exact A]. rewrite I1. apply mfind_iff; [now apply (B i)|exact I2].
  - destruct (mfind i m) as [r|] eqn:E; [|discriminate]. intro F. exists r. split; [now apply mfind_in|now apply mfind_in].
Qed.
Lemma same_find m m' : same_tables m m' <-> momwf m /\ momwf m' /\ forall i j, mom_find i j m = mom_find i j m'.
Proof.
  unfold same_tables. rewrite !tables_wf. split; intros (A & B & C); (split; [exact A|split; [exact B|]]).
  - intros i j. destruct (mom_find i j m) as [v|] eqn:E1; destruct (mom_find i j m') as [v'|] eqn:E2; try reflexivity.
    + apply (entry_find m) in E1; [|exact A]. apply C, entry_find in E1; [|exact B]. congruence.
    + apply (entry_find m) in E1; [|exact A]. apply C, entry_find in E1; [|exact B]. congruence.
    + apply (entry_find m') in E2; [|exact B]. apply C, entry_find in E2; [|exact A]. congruence.
  - intros i j v. rewrite !entry_find by assumption. now rewrite C.
Qed.

Lemma inserts_snoc n es e : inserts n (es ++ [e]) = gset (fst (fst e)) (snd (fst e)) (snd e) (inserts n es).
Proof. unfold inserts. now rewrite fold_left_app. Qed.
Lemma last_pair_snoc i j es e : last_pair i j (es ++ [e]) = if hits i j e then Some (snd e) else last_pair i j es.
Proof. unfold last_pair. now rewrite fold_left_app. Qed.
Lemma gset_wf i j v g : momwf (gd g) -> momwf (gd (gset i j v g)).
Proof. intro. cbn. now apply mom_set_wf, mom_set_wf. Qed.
Lemma gset_find i j v g a b : mom_find a b (gd (gset i j v g)) = if hits a b (i, j, v) then Some v else mom_find a b (gd g).
Proof.
  cbn. rewrite !mom_find_set. destruct (i =? a) eqn:E1, (j =? b) eqn:E2, (i =? b) eqn:E3, (j =? a) eqn:E4; cbn; try reflexivity.
Qed.
Lemma inserts_wf n es : momwf (gd (inserts n es)).
Proof.
  induction es as [|e es IH] using rev_ind; [split; [constructor|cbn; discriminate]|].
  rewrite inserts_snoc. now apply gset_wf.
Qed.
Lemma inserts_find n es i j : mom_find i j (gd (inserts n es)) = last_pair i j es.
Proof.
  induction es as [|e es IH] using rev_ind; [reflexivity|].
  rewrite inserts_snoc, gset_find, last_pair_snoc, IH. now destruct e as [[a b] v].
Qed.
Lemma inserts_n n es : gn (inserts n es) = n.
Proof. induction es as [|e es IH] using rev_ind; [reflexivity|]. now rewrite inserts_snoc. Qed.
Lemma hits_sym i j e : hits i j e = hits j i e.
Proof. destruct e as [[a b] v]. cbn. apply orb_comm. Qed.
Lemma last_pair_sym i j es : last_pair i j es = last_pair j i es.
Proof. induction es as [|e es IH] using rev_ind; [reflexivity|]. rewrite !last_pair_snoc, hits_sym, IH. reflexivity. Qed.
Lemma last_pair_in i j es v : last_pair i j es = Some v -> exists e, In e es /\ hits i j e = true.
Proof.
  induction es as [|e es IH] using rev_ind; [discriminate|]. rewrite last_pair_snoc. destruct (hits i j e) eqn:E.
  - intros _. exists e. rewrite in_app_iff. cbn. auto.
  - intro F. destruct (IH F) as (e' & I & E'). exists e'. rewrite in_app_iff. auto.
Qed.
Lemma inserts_good n es : Forall (fun e => 0 <= fst (fst e) < n /\ 0 <= snd (fst e) < n) es -> good (inserts n es).
Proof.
  intro R. constructor.
  - apply tables_wf, inserts_wf.
  - intros i j v. rewrite !entry_find, !inserts_find by apply inserts_wf. now rewrite last_pair_sym.
  - intros i j v. rewrite entry_find, inserts_find, inserts_n by apply inserts_wf. intro F.
    destruct (last_pair_in _ _ _ _ F) as (((a, b), x) & I & E). rewrite Forall_forall in R. specialize (R _ I). cbn in *. lia.
Qed.

(* edges *)
Lemma nodup_fst_filter {B C} (f : B * C -> bool) (l : list (B * C)) : NoDup (map fst l) -> NoDup (map fst (filter f l)).
Proof.
  induction l as [|x l IH]; [auto|]. cbn. intro N. inversion_clear N. destruct (f x); cbn; auto. constructor; auto.
  intro I. apply H. apply in_map_iff in I. destruct I as (y & E & I). apply filter_In in I. apply in_map_iff. exists y. tauto.
Qed.
Lemma gedges_ok g : momwf (gd g) -> NoDup (map fst (gedges g)) /\ forall i j v, In (i, j, v) (gedges g) <-> i <= j /\ mom_find i j (gd g) = Some v.
Proof.
  intro W. split.
  - apply nodup_fst_filter. now apply mom_calls_nodup.
  - intros i j v. unfold gedges. rewrite filter_In, mom_calls_in by assumption. cbn. rewrite Z.leb_le. tauto.
Qed.
Lemma row_nodup m i : momwf m -> NoDup (map fst (mom_row i m)).
Proof. intros [A B]. unfold mom_row. destruct (mfind i m) eqn:E; [now apply (B i)|constructor]. Qed.
Lemma row_in m i j v : momwf m -> (In (j, v) (mom_row i m) <-> mom_find i j m = Some v).
Proof. intro W. unfold mom_find. symmetry. apply mfind_iff. now apply row_nodup. Qed.
