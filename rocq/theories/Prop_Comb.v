(* Prop_Comb.v -- C51, C52: combinations. *)
From Verif Require Import Base BaseFacts Model_Index Proofs_Index Model_BG Model_Comb Spec_Math Spec_Comb Proofs_Comb.
From Coq Require Import Sorting.Sorted.
Local Open Scope Z_scope.

(* ================= C51 ================= *)
(* enumeration: every increasing sequence of m numbers below n exactly once, in lexicographic order *)
Theorem C51_enumeration : forall m n c, proper m n c -> exists L, for_each m c = Ok L /\ (forall x, In x L <-> increasing n (Z.of_nat m) x) /\ NoDup L /\ StronglySorted lex_lt L.
Proof.
  intros m n c P. exists (combs m n). split; [now apply for_each_ok|]. split; [intro x; apply in_combs|]. pose proof (combs_sorted m n) as S'. split; [|assumption]. exact (sorted_nodup lex_lt _ lex_irrefl S').
Qed.
Print Assumptions C51_enumeration.
(* the objects handed out by the bank, whatever was asked of it before and whatever its uninitialised storage holds, enumerate so *)
Theorem C51_from_bank : forall junk (requests : list (Z * Z)) n m, 1 <= m -> Forall (fun r => 1 <= snd r) requests ->
  exists b c b' L, foldM (fun r b => rmap snd (cget junk (Z.to_nat (snd r)) (fst r) (snd r) b)) requests [] = Ok b /\ cget junk (Z.to_nat m) n m b = Ok (c, b') /\
    for_each (Z.to_nat m) c = Ok L /\ (forall x, In x L <-> increasing n m x) /\ NoDup L /\ StronglySorted lex_lt L.
Proof.
  intros junk requests n m Hm F. assert (G : forall b0, bank_ok junk b0 -> exists b, foldM (fun r b => rmap snd (cget junk (Z.to_nat (snd r)) (fst r) (snd r) b)) requests b0 = Ok b /\ bank_ok junk b).
  { induction F as [|r l Hr F IH]; intros b0 B0; cbn [foldM]; [eauto|]. destruct (cget_ok junk (Z.to_nat (snd r)) (fst r) (snd r) b0 ltac:(lia) B0) as (c & b' & E & _ & B'). rewrite E. cbn [rmap bind snd]. now apply IH. }
  destruct (G []) as (b & E & B). { intros n' m' c' E. discriminate. }
  destruct (cget_ok junk (Z.to_nat m) n m b ltac:(lia) B) as (c & b' & E' & [P _] & _). destruct (C51_enumeration _ _ _ P) as (L & El & Hl & ND & S'). exists b, c, b', L. repeat (split; [assumption|]). rewrite Z2Nat.id in Hl by lia. auto.
Qed.
Print Assumptions C51_from_bank.
Example C51_case : exists c b, cget None 3 5 3 [] = Ok (c, b) /\ for_each 3 c = Ok [[0;1;2];[0;1;3];[0;1;4];[0;2;3];[0;2;4];[0;3;4];[1;2;3];[1;2;4];[1;3;4];[2;3;4]].
Proof. eexists _, _. split; [reflexivity|]. reflexivity. Qed.

(* ================= C52 ================= *)
(* With right counts, the i-th combination by index is the i-th one enumerated, and asking beyond the last fails *)
Theorem C52_index_partial : forall m n c, counted m n c -> exists L, for_each m c = Ok L /\ Z.of_nat (length L) = binom (Z.to_nat n) m /\ getN c = Ok (Z.of_nat (length L)) /\
  forall i, 0 <= i -> at_index m c i = match nth_error L (Z.to_nat i) with Some x => Ok x | None => Throw end.
Proof.
  intros m n c H. exists (combs m n). split; [apply for_each_ok; now apply counted_proper|]. split; [apply combs_length|]. split; [now apply getN_counted|]. intros i Hi. now apply at_index_ok.
Qed.
Print Assumptions C52_index_partial.
(* index is the inverse: it returns the place of a combination in the enumeration *)
Theorem C52_rank_partial : forall m n c x, counted m n c -> increasing n (Z.of_nat m) x -> exists i, index_of m c x = Ok i /\ 0 <= i /\ at_index m c i = Ok x.
Proof.
  intros m n c x H Hx. apply in_combs in Hx. destruct (index_ok m n c x H Hx) as (i & E & Hi & N). exists i. split; [assumption|]. split; [assumption|]. rewrite (at_index_ok _ _ _ _ H Hi), N. reflexivity.
Qed.
Print Assumptions C52_rank_partial.
Theorem C52_rank_inverse_partial : forall m n c i x, counted m n c -> 0 <= i -> at_index m c i = Ok x -> index_of m c x = Ok i.
Proof.
  intros m n c i x H Hi E. rewrite (at_index_ok _ _ _ _ H Hi) in E. destruct (nth_error (combs m n) (Z.to_nat i)) as [y|] eqn:N; [|discriminate]. injection E as ->. destruct (index_ok m n c x H (nth_error_In _ _ N)) as (j & Ej & Hj & Nj). rewrite Ej. f_equal.
  pose proof (sorted_nodup lex_lt _ lex_irrefl (combs_sorted m n)) as ND. assert (Z.to_nat j = Z.to_nat i); [|lia]. eapply NoDup_nth_error; [exact ND|apply nth_error_Some; congruence|congruence].
Qed.
Print Assumptions C52_rank_inverse_partial.
(* for m=1 the bank's objects do have right counts, whatever was requested before *)
Theorem C52_single : forall junk k n b, 0 <= n -> bank_ok junk b -> exists c b', cget junk (S k) n 1 b = Ok (c, b') /\ counted 1 n c.
Proof.
  intros junk k n b N B. destruct (cget_ok junk (S k) n 1 b ltac:(lia) B) as (c & b' & E & [P C] & _). exists c, b'. split; [assumption|]. destruct P as (Hn & Hm & _). repeat (split; [assumption|]). split; [|exact I]. rewrite C. cbn. f_equal. clear - N.
  rewrite <- (Z2Nat.id n) at 1 by lia. induction (Z.to_nat n) as [|q IH]; [reflexivity|]. cbn [binom]. rewrite <- IH. destruct q; cbn [binom]; lia.
Qed.
Print Assumptions C52_single.
(* for m>=2 the reported count has no determined value: it is accumulated into storage that was never initialised *)
Theorem C52_count_refuted : forall k n m b, 2 <= m <= Z.of_nat k -> bank_ok None b -> exists c b', cget None k n m b = Ok (c, b') /\ getN c = UB /\ forall i, at_index (Z.to_nat m) c i = UB.
Proof.
  intros k n m b Hm B. destruct (cget_ok None k n m b ltac:(lia) B) as (c & b' & E & [P C] & _). exists c, b'. split; [assumption|]. replace (m =? 1) with false in C by lia. cbn [oplus] in C. assert (G : getN c = UB) by (unfold getN; now rewrite C). split; [assumption|]. intro i. destruct (Z.to_nat m) eqn:Em; [lia|]. cbn [at_index]. now rewrite G.
Qed.
Print Assumptions C52_count_refuted.
(* and were that storage zero, the count would be the sum of the sizes of the ground sets of the branches,
   (n-m+1)(n+m-2)/2, not the sum of their counts *)
Lemma shown_count_eq n m : 2 * shown_count n m = Z.max 0 (n - m + 1) * (n + m - 2) \/ n - m + 1 <= 0 /\ shown_count n m = 0.
Proof.
  unfold shown_count. destruct (Z.le_gt_cases (n - m + 1) 0) as [L|L]; [right; rewrite zrange_nil by lia; auto|left].
  assert (G : forall j, 2 * fold_right Z.add 0 (map (fun i => n - i - 1) (zrange (Z.of_nat j))) = Z.of_nat j * (2 * n - Z.of_nat j - 1)).
  { induction j as [|j IH]; [reflexivity|]. replace (Z.of_nat (S j)) with (Z.of_nat j + 1) by lia. rewrite zrange_app by lia. change (zrange 1) with [0]. cbn [map]. rewrite map_app, fold_right_app. cbn [map fold_right].
    assert (F : forall l a, fold_right Z.add a l = fold_right Z.add 0 l + a) by (induction l as [|x l IHl]; intro a; cbn; [lia|rewrite IHl; lia]). rewrite F. lia. }
  specialize (G (Z.to_nat (n - m + 1))). rewrite Z2Nat.id in G by lia. rewrite Z.max_r by lia. lia.
Qed.
Theorem C52_zeroed_count_refuted : forall k n m b, 2 <= m <= Z.of_nat k -> m <= n + 1 -> bank_ok (Some 0) b -> exists c b' N, cget (Some 0) k n m b = Ok (c, b') /\ getN c = Ok N /\ 2 * N = (n - m + 1) * (n + m - 2).
Proof.
  intros k n m b Hm Hn B. destruct (cget_ok (Some 0) k n m b ltac:(lia) B) as (c & b' & E & [P C] & _). exists c, b', (shown_count n m). split; [assumption|]. replace (m =? 1) with false in C by lia. cbn [oplus] in C. split; [unfold getN; now rewrite C|]. destruct (shown_count_eq n m) as [H|[H1 H2]]; [rewrite H; f_equal; lia|]. rewrite H2. nia.
Qed.
Print Assumptions C52_zeroed_count_refuted.
Definition c1 n := Comb n 1 (Some n) [].
Definition c2 n := Comb n 2 (Some (binom (Z.to_nat n) 2)) (map (fun i => c1 (n - i - 1)) (zrange (n - 1))).
Definition c3 n := Comb n 3 (Some (binom (Z.to_nat n) 3)) (map (fun i => c2 (n - i - 1)) (zrange (n - 2))).
Lemma nth_map_range (f : Z -> comb) N i s : nth_error (map f (zrange N)) i = Some s -> Z.of_nat i < N /\ s = f (Z.of_nat i).
Proof.
  intro E. assert (L : (i < length (map f (zrange N)))%nat) by (apply nth_error_Some; congruence). rewrite map_length, zrange_length in L. split; [lia|]. unfold zrange in E. rewrite map_map, nth_error_map in E. rewrite nth_error_nth' with (d := 0%nat) in E by (rewrite seq_length; lia). rewrite seq_nth in E by lia. cbn in E. congruence.
Qed.
Lemma counted_c1 n : 0 <= n -> counted 1 n (c1 n).
Proof. intro N. destruct (C52_single None 0 n [] N) as (c & b & E & H); [intros ? ? ? X; discriminate|]. cbn in E. injection E as <- <-. exact H. Qed.
Lemma counted_c2 n : 0 <= n -> counted 2 n (c2 n).
Proof. intro N. do 3 (split; [reflexivity|]). split; [cbn [csub c2]; rewrite map_length, zrange_length; lia|]. intros i s E. cbn [csub c2] in E. apply nth_map_range in E. destruct E as [L ->]. apply counted_c1. lia. Qed.
Lemma counted_c3 n : 0 <= n -> counted 3 n (c3 n).
Proof. intro N. do 3 (split; [reflexivity|]). split; [cbn [csub c3]; rewrite map_length, zrange_length; lia|]. intros i s E. cbn [csub c3] in E. apply nth_map_range in E. destruct E as [L ->]. apply counted_c2. lia. Qed.
Example C52_case : counted 3 5 (c3 5) /\ at_index 3 (c3 5) 7 = Ok [1; 2; 4] /\ index_of 3 (c3 5) [1; 2; 4] = Ok 7 /\ at_index 3 (c3 5) 10 = Throw /\ binom 5 3 = 10 /\
  exists c b, cget (Some 0) 3 5 3 [] = Ok (c, b) /\ getN c = Ok 9.
Proof.
  split; [apply counted_c3; lia|]. repeat split. eexists _, _; split; reflexivity.
Qed.
