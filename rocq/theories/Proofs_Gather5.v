(* Proofs_Gather5.v -- sort() orders the rows by length. *)
From Verif Require Import Base BaseFacts Map Model_Containers Model_Gather Proofs_Containers2 Proofs_Containers3 Proofs_Containers4 Spec_Gather Proofs_Gather.
From Coq Require Import Sorting.Sorted Permutation.
Local Open Scope Z_scope.

Definition longer_first (qs : list (Z * list Z)) : Prop := StronglySorted (fun a b => (length (snd b) <= length (snd a))%nat) qs.
Lemma kinsert_in {V} (p q : Z * V) l : In q (kinsert p l) <-> q = p \/ In q l.
Proof. induction l as [|r l IH]; cbn; [intuition|]. destruct (fst p <=? fst r); cbn; [intuition|]. rewrite IH. intuition. Qed.
Lemma by_key_sorted {V} (l : list (Z * V)) : StronglySorted (fun a b => fst a <= fst b) (by_key l).
Proof.
  induction l as [|p l IH]; [constructor|]. change (by_key (p :: l)) with (kinsert p (by_key l)). induction (by_key l) as [|q k IHk]; [cbn; repeat constructor|].
  cbn [kinsert]. apply StronglySorted_inv in IH as [Hs Hf]. destruct (fst p <=? fst q) eqn:E.
  - constructor; [now constructor|]. constructor; [lia|]. eapply Forall_impl; [|exact Hf]. cbn. intros a Ha. lia.
  - constructor; [auto|]. apply Forall_forall. intros r Hr. apply kinsert_in in Hr as [->|Hr]; [lia|]. rewrite Forall_forall in Hf. now apply Hf.
Qed.
Lemma calls_sorted (ls : list (Z * list Z)) : StronglySorted (fun a b => fst a <= fst b) ls -> StronglySorted (fun a b => fst a <= fst b) (mol_calls ls).
Proof.
  intro H. induction H as [|[k l] ls Hs IH Hf]; [constructor|]. unfold mol_calls in *. cbn [flat_map fst snd].
  assert (A : forall c, In c (flat_map (fun e => map (fun v => (fst e, v)) (snd e)) ls) -> k <= fst c).
  { intros c Hc. apply in_flat_map in Hc as (e & He & Hc). apply in_map_iff in Hc as (v & <- & _). rewrite Forall_forall in Hf. now apply (Hf e). }
  clear Hf Hs. induction l as [|v l IHl]; cbn [map app]; [exact IH|]. constructor; [exact IHl|]. apply Forall_forall. intros c Hc. apply in_app_iff in Hc as [Hc|Hc]; [apply in_map_iff in Hc as (u & <- & _); cbn; lia|now apply A].
Qed.
Lemma gm_sort_sorted g qs : rd (garr g) qs -> gsorted g = false -> exists g' qs', gm_sort g = Ok g' /\ rd (garr g') qs' /\ Permutation qs' qs /\ longer_first qs'.
Proof.
  intros H Sf. unfold gm_sort. rewrite Sf. destruct (by_length_ok Z.opp _ _ H) as (ls & El & P). rewrite El. cbn [bind].
  assert (Sl : StronglySorted (fun a b => fst a <= fst b) ls).
  { unfold by_length in El. destruct (forZ _ _ _) as [l| |]; try discriminate. cbn [bind] in El. injection El as <-. apply by_key_sorted. }
  destruct (prep_reserve (atail (garr g)) ap_new [] prep_new) as (r & -> & Pr). cbn [bind]. rewrite map_neg_calls.
  destruct (keyed_rows _ _ _ P) as [K1 K2].
  destruct (copies_ok (garr g) qs (map (fun c => (- fst c, snd c)) (mol_calls ls)) H) with (r := r) (L := @nil (list Z)) as (r' & -> & P').
  - apply Forall_forall. intros c Hc. apply in_map_iff in Hc. destruct Hc as (d & <- & Hd). rewrite Forall_forall in K2. destruct (K2 d Hd). cbn [fst snd]. lia.
  - assumption.
  - cbn [bind]. eexists. exists (map (fun c => qnth qs (snd c)) (mol_calls ls)). split; [reflexivity|]. cbn. rewrite map_map in P'. cbn in P'.
    split; [apply prep_rd; rewrite map_map; exact P'|]. split; [assumption|]. apply calls_sorted in Sl. clear - Sl K2. unfold longer_first. induction Sl as [|c cs Hs IH Hf]; [constructor|]. apply Forall_inv in K2 as Hc. apply Forall_inv_tail in K2 as Ht.
    cbn [map]. constructor; [now apply IH|]. apply Forall_forall. intros q Hq. apply in_map_iff in Hq as (d & <- & Hd). rewrite Forall_forall in Hf. specialize (Hf d Hd). cbn in Hf. rewrite Forall_forall in Ht. destruct (Ht d Hd) as [_ Ed]. destruct Hc as [_ Ec].
    unfold zlen in *. lia.
Qed.
