(* Prop_TupleMap.v -- C200: maps keyed by two to five indices.  The hash functions of the indices are arbitrary, so different keys may have the same hash value; the table may grow at any insertion. *)
From Verif Require Import Base BaseFacts Model_TupleMap Proofs_TupleMap.
Local Open Scope Z_scope.

(* operator== of a type of indices *)
Definition equality {A} (e : A -> A -> bool) : Prop := forall a b, e a b = true <-> a = b.
(* after any history of reads M(k) and assignments M(k)=o, M(k) is the object last assigned to these indices, or a default object if there is none; the map has an entry for exactly the indices named *)
Theorem C200_double {A B O : Type} (ea : A -> A -> bool) (eb : B -> B -> bool) (ha : A -> Z) (hb : B -> Z) (dflt : O) l n x1 x2 : equality ea -> equality eb ->
  let eq := ix2_eq ea eb in let hash := ix2_hash ha hb in let k := Ix2 x1 x2 in
  left_at dflt k l (fst (um_ref eq hash dflt n k (mrun eq hash dflt l))) /\ (um_find eq hash k (mrun eq hash dflt l) <> None <-> named k l).
Proof.
  intros Q1 Q2 eq hash k. assert (Eq : forall a b, eq a b = true <-> a = b).
  { intros [a1 a2] [b1 b2]. unfold eq, ix2_eq. cbn [p1 p2]. rewrite !andb_true_iff, (Q1 a1 b1), (Q2 a2 b2). split; [intuition congruence|intro H; injection H; intuition]. }
  split; [now apply get_ok|]. destruct (run_ok eq hash dflt Eq l) as [_ H]. specialize (H k). destruct (um_find eq hash k (mrun eq hash dflt l)); [split; [intros _; apply H|discriminate]|]. split; [congruence|]. intros N _. exact (H N).
Qed.
Print Assumptions C200_double.
Theorem C200_triple {A B C O : Type} (ea : A -> A -> bool) (eb : B -> B -> bool) (ec : C -> C -> bool) (ha : A -> Z) (hb : B -> Z) (hc : C -> Z) (dflt : O) l n x1 x2 x3 : equality ea -> equality eb -> equality ec ->
  let eq := ix3_eq ea eb ec in let hash := ix3_hash ha hb hc in let k := Ix3 x1 x2 x3 in
  left_at dflt k l (fst (um_ref eq hash dflt n k (mrun eq hash dflt l))) /\ (um_find eq hash k (mrun eq hash dflt l) <> None <-> named k l).
Proof.
  intros Q1 Q2 Q3 eq hash k. assert (Eq : forall a b, eq a b = true <-> a = b).
  { intros [a1 a2 a3] [b1 b2 b3]. unfold eq, ix3_eq. cbn [t1 t2 t3]. rewrite !andb_true_iff, (Q1 a1 b1), (Q2 a2 b2), (Q3 a3 b3). split; [intuition congruence|intro H; injection H; intuition]. }
  split; [now apply get_ok|]. destruct (run_ok eq hash dflt Eq l) as [_ H]. specialize (H k). destruct (um_find eq hash k (mrun eq hash dflt l)); [split; [intros _; apply H|discriminate]|]. split; [congruence|]. intros N _. exact (H N).
Qed.
Print Assumptions C200_triple.
Theorem C200_quadruple {A B C D O : Type} (ea : A -> A -> bool) (eb : B -> B -> bool) (ec : C -> C -> bool) (ed : D -> D -> bool) (ha : A -> Z) (hb : B -> Z) (hc : C -> Z) (hd : D -> Z) (dflt : O) l n x1 x2 x3 x4 : equality ea -> equality eb -> equality ec -> equality ed ->
  let eq := ix4_eq ea eb ec ed in let hash := ix4_hash ha hb hc hd in let k := Ix4 x1 x2 x3 x4 in
  left_at dflt k l (fst (um_ref eq hash dflt n k (mrun eq hash dflt l))) /\ (um_find eq hash k (mrun eq hash dflt l) <> None <-> named k l).
Proof.
  intros Q1 Q2 Q3 Q4 eq hash k. assert (Eq : forall a b, eq a b = true <-> a = b).
  { intros [a1 a2 a3 a4] [b1 b2 b3 b4]. unfold eq, ix4_eq. cbn [q1 q2 q3 q4]. rewrite !andb_true_iff, (Q1 a1 b1), (Q2 a2 b2), (Q3 a3 b3), (Q4 a4 b4). split; [intuition congruence|intro H; injection H; intuition]. }
  split; [now apply get_ok|]. destruct (run_ok eq hash dflt Eq l) as [_ H]. specialize (H k). destruct (um_find eq hash k (mrun eq hash dflt l)); [split; [intros _; apply H|discriminate]|]. split; [congruence|]. intros N _. exact (H N).
Qed.
Print Assumptions C200_quadruple.
Theorem C200_quintuple {A B C D E O : Type} (ea : A -> A -> bool) (eb : B -> B -> bool) (ec : C -> C -> bool) (ed : D -> D -> bool) (ee : E -> E -> bool) (ha : A -> Z) (hb : B -> Z) (hc : C -> Z) (hd : D -> Z) (he : E -> Z) (dflt : O) l n x1 x2 x3 x4 x5 : equality ea -> equality eb -> equality ec -> equality ed -> equality ee ->
  let eq := ix5_eq ea eb ec ed ee in let hash := ix5_hash ha hb hc hd he in let k := Ix5 x1 x2 x3 x4 x5 in
  left_at dflt k l (fst (um_ref eq hash dflt n k (mrun eq hash dflt l))) /\ (um_find eq hash k (mrun eq hash dflt l) <> None <-> named k l).
Proof.
  intros Q1 Q2 Q3 Q4 Q5 eq hash k. assert (Eq : forall a b, eq a b = true <-> a = b).
  { intros [a1 a2 a3 a4 a5] [b1 b2 b3 b4 b5]. unfold eq, ix5_eq. cbn [v1 v2 v3 v4 v5]. rewrite !andb_true_iff, (Q1 a1 b1), (Q2 a2 b2), (Q3 a3 b3), (Q4 a4 b4), (Q5 a5 b5). split; [intuition congruence|intro H; injection H; intuition]. }
  split; [now apply get_ok|]. destruct (run_ok eq hash dflt Eq l) as [_ H]. specialize (H k). destruct (um_find eq hash k (mrun eq hash dflt l)); [split; [intros _; apply H|discriminate]|]. split; [congruence|]. intros N _. exact (H N).
Qed.
Print Assumptions C200_quintuple.
(* operator< of double_index is a strict total order when those of its two indices are: it can be the key of a std::map too *)
Definition strict_total {A} (lt : A -> A -> bool) : Prop := (forall a, lt a a = false) /\ (forall a b c, lt a b = true -> lt b c = true -> lt a c = true) /\ forall a b, lt a b = true \/ a = b \/ lt b a = true.
Theorem C200_order {A B : Type} (la : A -> A -> bool) (lb : B -> B -> bool) : strict_total la -> strict_total lb -> strict_total (ix2_lt la lb) /\
  forall a b a' b', ix2_lt la lb (Ix2 a b) (Ix2 a' b') = true <-> la a a' = true \/ a = a' /\ lb b b' = true.
Proof.
  intros (A1 & A2 & A3) (B1 & B2 & B3).
  assert (S : forall a b a' b', ix2_lt la lb (Ix2 a b) (Ix2 a' b') = true <-> la a a' = true \/ a = a' /\ lb b b' = true).
  { intros a b a' b'. unfold ix2_lt. cbn [p1 p2]. destruct (la a a') eqn:E; [intuition|]. destruct (la a' a) eqn:E'.
    - split; [discriminate|]. intros [H|[-> _]]; [discriminate|]. now rewrite A1 in E'.
    - destruct (A3 a a') as [H|[->|H]]; [congruence| |congruence]. destruct (lb b b'); intuition congruence. }
  split; [|exact S]. split; [|split].
  - intros [a b]. destruct (ix2_lt la lb (Ix2 a b) (Ix2 a b)) eqn:E; [|reflexivity]. apply S in E. rewrite A1, B1 in E. intuition congruence.
  - intros [a b] [a' b'] [a2 b2] H H'. apply S in H. apply S in H'. apply S. destruct H as [H|[-> H]], H' as [H'|[-> H']]; eauto.
  - intros [a b] [a' b']. destruct (A3 a a') as [H|[->|H]]; [left; apply S; now left| |right; right; apply S; now left]. destruct (B3 b b') as [H|[->|H]]; [left; apply S; now right|right; now left|right; right; apply S; now right].
Qed.
Print Assumptions C200_order.

(* ---- the hypotheses can be met ---- *)
(* whole numbers, all with the same hash value: every key is in the same bucket *)
Definition tm_l : list (mop (ix2 (A := Z) (B := Z)) Z) := [MSet None (Ix2 1 2) 7; MSet (Some 4%nat) (Ix2 2 1) 8; MRef None (Ix2 5 5); MSet None (Ix2 1 2) 9].
Example C200_case : equality Z.eqb /\ left_at 0 (Ix2 1 2) tm_l 9 /\
  let eq := ix2_eq Z.eqb Z.eqb in let hash := ix2_hash (fun _ : Z => 3) (fun _ : Z => 1) in let u := mrun eq hash 0 tm_l in
  map (fun k => fst (um_ref eq hash 0 None k u)) [Ix2 1 2; Ix2 2 1; Ix2 5 5; Ix2 2 2] = [9; 8; 0; 0] /\ length u = 5%nat /\ um_find eq hash (Ix2 2 2) u = None.
Proof. split; [intros a b; apply Z.eqb_eq|]. split; [left; exists None, [MSet None (Ix2 1 2) 7; MSet (Some 4%nat) (Ix2 2 1) 8; MRef None (Ix2 5 5)], []; split; [reflexivity|intros ? ? []]|]. vm_compute. repeat split; reflexivity. Qed.
Example C200_case5 : let eq := ix5_eq Z.eqb Z.eqb Z.eqb Z.eqb Z.eqb in let hash := ix5_hash (fun z => z) (fun z => z) (fun z => z) (fun z => z) (fun z => z) in
  let u := mrun eq hash 0 [MSet (Some 2%nat) (Ix5 1 2 3 4 5) 7; MSet None (Ix5 1 2 3 4 6) 8; MSet (Some 6%nat) (Ix5 0 2 3 4 5) 9] in map (fun k => fst (um_ref eq hash 0 None k u)) [Ix5 1 2 3 4 5; Ix5 1 2 3 4 6; Ix5 0 2 3 4 5; Ix5 0 2 3 4 6] = [7; 8; 9; 0].
Proof. vm_compute. reflexivity. Qed.
Example C200_case_order : strict_total Z.ltb /\ ix2_lt Z.ltb Z.ltb (Ix2 1 5) (Ix2 2 0) = true /\ ix2_lt Z.ltb Z.ltb (Ix2 2 1) (Ix2 2 0) = false.
Proof. split; [repeat split; intros; rewrite ?Z.ltb_lt, ?Z.ltb_ge in *; lia|]. split; reflexivity. Qed.
