(* Prop_Threads.v -- C42, C43: parallel loops. *)
From Verif Require Import Base BaseFacts Model_Threads Spec_Threads Proofs_Threads.
From Coq Require Import Permutation.
Local Open Scope Z_scope.

(* C42 *)
Lemma in_order_prefix n nt p q : 0 <= n -> p ++ q = flat_map (fun i => [Begin i nt; Finish i nt]) (zrange n) ++ [Return] ->
  exists k, 0 <= k <= n /\ ((k < n /\ p = flat_map (fun i => [Begin i nt; Finish i nt]) (zrange k)) \/ (k < n /\ p = flat_map (fun i => [Begin i nt; Finish i nt]) (zrange k) ++ [Begin k nt]) \/
    (k = n /\ p = flat_map (fun i => [Begin i nt; Finish i nt]) (zrange n)) \/ (k = n /\ p = flat_map (fun i => [Begin i nt; Finish i nt]) (zrange n) ++ [Return] /\ q = [])).
Proof.
  intros Hn. revert p q. pattern n. apply natlike_ind; [| |assumption]; clear n Hn.
  - intros p q E. exists 0. split; [lia|]. cbn in E |- *. destruct p as [|e p]; [right; right; left; auto|]. cbn in E. injection E as -> E. apply app_eq_nil in E as [-> ->]. right. right. right. auto.
  - intros n Hn IH p q E. rewrite <- Z.add_1_r in *. rewrite (zrange_succ n) in * by assumption. rewrite flat_map_app in *. cbn [flat_map app] in E. rewrite <- app_assoc in E.
    set (F := flat_map _ (zrange n)) in *.
    destruct (list_eq_dec (fun a b : label => ltac:(decide equality; apply Z.eq_dec)) p (F ++ [Begin n nt; Finish n nt; Return])) as [Ep|Ne].
    + exists (n + 1). split; [lia|]. right. right. right. split; [reflexivity|]. cbn [flat_map app]. rewrite <- app_assoc. cbn. rewrite Ep in E. rewrite <- (app_nil_r (F ++ [Begin n nt; Finish n nt] ++ [Return])) in E. split; [exact Ep|]. apply app_inv_head in E. exact E.
    + apply app_eq_app in E as (l & [[-> E]|[E1 E2]]).
      * (* p extends F *) destruct l as [|e1 l]; [exists n; split; [lia|]; left; split; [lia|now rewrite app_nil_r]|]. cbn in E. injection E as <- E. destruct l as [|e2 l]; [exists n; split; [lia|]; right; left; split; [lia|reflexivity]|].
        cbn in E. injection E as <- E. destruct l as [|e3 l]; [exists (n + 1); split; [lia|]; right; right; left; split; [reflexivity|reflexivity]|]. cbn in E. injection E as <- E. symmetry in E. apply app_eq_nil in E as [-> ->]. congruence.
      * (* F extends p *) destruct (IH p (l ++ [Return])) as (k & Hk & Hc); [rewrite app_assoc; now rewrite <- E1|]. destruct Hc as [[L P]|[[L P]|[[L P]|[L [P Q]]]]].
        -- exists k. split; [lia|]. left. split; [lia|assumption].
        -- exists k. split; [lia|]. right. left. split; [lia|assumption].
        -- exists n. split; [lia|]. left. split; [lia|assumption].
        -- destruct l; discriminate.
Qed.
Lemma seq_begun nt l : begun (flat_map (fun i => [Begin i nt; Finish i nt]) l) = l. Proof. unfold begun. induction l as [|i l IH]; cbn; [reflexivity|now rewrite IH]. Qed.
Lemma seq_finished nt l : finished (flat_map (fun i => [Begin i nt; Finish i nt]) l) = l. Proof. unfold finished. induction l as [|i l IH]; cbn; [reflexivity|now rewrite IH]. Qed.
Lemma seq_granted nt l : granted (flat_map (fun i => [Begin i nt; Finish i nt]) l) = 0. Proof. unfold granted. induction l as [|i l IH]; cbn [flat_map app fold_right]; [reflexivity|rewrite IH; lia]. Qed.
Lemma seq_noret nt l : ~ In Return (flat_map (fun i => [Begin i nt; Finish i nt]) l).
Proof. intro H. apply in_flat_map in H as (i & _ & [H|[H|[]]]); discriminate. Qed.
Lemma zrange_incl k n : k <= n -> incl (zrange k) (zrange n). Proof. intros H x Hx. apply in_zrange in Hx. apply in_zrange. lia. Qed.
(* at every moment p of every execution: no index begins or ends twice, only indices below n begin, only begun ones
   end, at most max(1,nthreads) bodies run (one if sequential was asked for), the thread limits handed to the running
   bodies do not exceed that number together; and once the loop has returned, every index has begun and ended and
   nothing happens any more *)
Theorem C42_loop : forall n nt sequential tr p q, loop_trace n nt sequential tr -> tr = p ++ q ->
  NoDup (begun p) /\ NoDup (finished p) /\ incl (begun p) (zrange n) /\ incl (finished p) (begun p) /\
  0 <= running p <= (if sequential then 1 else Z.max 1 nt) /\ granted p <= Z.max 1 nt /\
  (In Return p -> q = [] /\ Permutation (begun p) (zrange n) /\ Permutation (finished p) (zrange n)).
Proof.
  intros n nt sq tr p q T ->. unfold loop_trace in T. destruct (sq || (nt <=? 1)) eqn:Sq.
  - destruct T as (rest & E). rewrite <- app_assoc in E. unfold in_order in E.
    assert (Zn : zrange n = zrange (Z.max 0 n)) by (unfold zrange; f_equal; f_equal; lia). rewrite Zn in *. apply in_order_prefix in E; [|lia]. destruct E as (k & Hk & H).
    assert (B : 1 <= if sq then 1 else Z.max 1 nt) by (destruct sq; lia).
    destruct H as [[L ->]|[[L ->]|[[L ->]|[L [-> Q]]]]].
    + unfold running. rewrite seq_begun, seq_finished, seq_granted. repeat split; try lia; try apply zrange_nodup; try apply incl_refl; [apply zrange_incl; lia| | |]; exfalso; eapply seq_noret; eassumption.
    + unfold running. rewrite begun_app, finished_app, granted_app, seq_begun, seq_finished, seq_granted. cbn [begun finished flat_map app granted fold_right]. rewrite app_nil_r.
      assert (Nd : NoDup (zrange k ++ [k])) by (rewrite <- zrange_succ by lia; apply zrange_nodup).
      split; [assumption|]. split; [apply zrange_nodup|]. split; [rewrite <- zrange_succ by lia; apply zrange_incl; lia|]. split; [apply incl_appl, incl_refl|]. split; [rewrite app_length; cbn; lia|]. split; [lia|].
      intro R. apply in_app_iff in R as [R|[R|[]]]; [|discriminate]. exfalso. eapply seq_noret; eassumption.
    + unfold running. rewrite seq_begun, seq_finished, seq_granted. repeat split; try lia; try apply zrange_nodup; try apply incl_refl; exfalso; eapply seq_noret; eassumption.
    + unfold running. rewrite begun_app, finished_app, granted_app, seq_begun, seq_finished, seq_granted. cbn [begun finished flat_map app granted fold_right]. rewrite app_nil_r.
      split; [apply zrange_nodup|]. split; [apply zrange_nodup|]. split; [apply incl_refl|]. split; [apply incl_refl|]. split; [lia|]. split; [lia|]. intros _. apply app_eq_nil in Q as [-> _]. auto.
  - destruct T as (sch & s & E). destruct (exec_split n nt sch tstart p q s E) as (a & b & s1 & -> & Ea & Eb). destruct sq; [discriminate|]. cbn [orb] in Sq.
    assert (Hm : 1 <= nt) by lia. destruct (safe n nt Hm a p s1 Ea) as (A & B & C & D & F & G & H).
    split; [assumption|]. split; [assumption|]. split; [assumption|]. split; [assumption|]. split; [lia|]. split; [lia|]. intro R. split; [|now apply H].
    destruct (exec_inv n nt Hm a tstart [] p s1 (inv_start n nt Hm) (told_start n nt) Ea) as [I (_ & _ & _ & T4)]. cbn [app] in T4. apply T4 in R. now destruct (no_more n nt b s1 q s I R Eb).
Qed.
Print Assumptions C42_loop.
(* three bodies, at most two at a time: the second runs while the first has not ended, and the third only after it *)
Definition ex_sched : list who := [Main; Main; Main; Main; Main; Main; Main; Main; Worker 1; Worker 0; Main; Worker 0; Worker 0; Worker 0; Main; Main; Main; Worker 2; Worker 1; Worker 1; Worker 1; Worker 2; Worker 2; Worker 2; Main; Main; Main; Main; Main]%nat.
Example C42_case : loop_trace 3 2 false [Begin 1 1; Begin 0 1; Finish 0 1; Begin 2 1; Finish 1 1; Finish 2 1; Return] /\
  loop_trace 2 8 true [Begin 0 8; Finish 0 8; Begin 1 8] /\ running [Begin 1 1; Begin 0 1] = 2.
Proof. split; [exists ex_sched; eexists; vm_compute; reflexivity|]. split; [exists [Finish 1 8; Return]; reflexivity|reflexivity]. Qed.

(* C43 *)
(* the claim is false whenever there are more indices than threads: a worker may lower the counter and notify after
   the main thread has found its waiting condition false but before it blocks; if all running workers do so, the main
   thread waits for ever *)
Theorem C43_lost_wakeup_refuted : forall n nt, 2 <= nt < n ->
  exists sch tr s, exec n nt sch tstart = Some (tr, s) /\ ~ In Return tr /\ stuck n nt s /\ spurious sch = 0%nat.
Proof. exact lost. Qed.
Print Assumptions C43_lost_wakeup_refuted.
(* what does hold.  Every execution is finite: its length is bounded, up to the spurious wake-ups in it *)
Theorem C43_finite : forall n nt sch tr s, 2 <= nt -> 0 <= n -> exec n nt sch tstart = Some (tr, s) ->
  Z.of_nat (length sch) <= 13 * n + 2 + 3 * Z.of_nat (spurious sch).
Proof.
  intros n nt sch tr s Hm Hn E. assert (Hm1 : 1 <= nt) by lia. assert (H := exec_bound n nt sch tstart tr s (inv_start n nt Hm1) E). unfold weight, mweight in H. cbn [mp wks tstart wweights fold_right] in H. lia.
Qed.
Print Assumptions C43_finite.
(* and the lost wake-up is the only way not to return: an execution that cannot go on has either returned, or is
   blocked with all its workers gone after some worker lowered the counter in the gap *)
Theorem C43_returns_partial : forall n nt sch tr s, 2 <= nt -> exec n nt sch tstart = Some (tr, s) -> stuck n nt s ->
  misses_none n nt sch tstart -> In Return tr.
Proof.
  intros n nt sch tr s Hm E St M. assert (Hm1 : 1 <= nt) by lia. destruct (exec_inv n nt Hm1 sch tstart [] tr s (inv_start n nt Hm1) (told_start n nt) E) as [I (_ & _ & _ & T4)]. cbn [app] in T4. apply T4.
  apply (heard_returns n nt Hm1); [assumption| |assumption]. eapply exec_heard; [apply inv_start; assumption|exact Logic.I|exact M|exact E].
Qed.
Print Assumptions C43_returns_partial.
(* in particular a loop with no more indices than threads always returns, as does every sequential one *)
Theorem C43_few_indices : forall n nt sch tr s, 2 <= nt -> n <= nt -> exec n nt sch tstart = Some (tr, s) -> stuck n nt s -> In Return tr.
Proof.
  intros n nt sch tr s Hm Hn E St. assert (Hm1 : 1 <= nt) by lia. apply (C43_returns_partial n nt sch tr s Hm E St). eapply easy_exec; [exact Hn|apply inv_start; assumption|exact Logic.I|exact E].
Qed.
Print Assumptions C43_few_indices.
(* the schedule above returns and misses nothing; n = 2, nt = 2 returns *)
Example C43_case : (exists tr s, exec 3 2 ex_sched tstart = Some (tr, s) /\ mp s = MRet /\ In Return tr) /\ misses_none 3 2 ex_sched tstart /\
  (exists sch tr s, exec 2 2 sch tstart = Some (tr, s) /\ stuck 2 2 s).
Proof.
  split; [eexists; eexists; split; [vm_compute; reflexivity|split; [reflexivity|cbn; tauto]]|]. split; [vm_compute; repeat split|].
  exists (repeat Main 7 ++ repeat (Worker 0) 4 ++ repeat (Worker 1) 4 ++ repeat Main 3). eexists. eexists. split; [vm_compute; reflexivity|].
  intros w Hw. destruct w as [| |k]; [reflexivity|congruence|]. destruct k as [|[|k]]; [reflexivity|reflexivity|]. cbn. destruct k; reflexivity.
Qed.
