(* Proofs_BG3.v -- for_each_cell_multi: whole executions. *)
From Verif Require Import Base BaseFacts Model_Index Model_View Spec_Index Proofs_Index Spec_View Proofs_View Model_Threads Spec_Threads Proofs_Threads Model_BG Spec_BG Proofs_BG Proofs_BG2.
From Coq Require Import Permutation.
Local Open Scope Z_scope.

Lemma calls_app a b : calls (a ++ b) = calls a ++ calls b. Proof. unfold calls. now rewrite flat_map_app. Qed.
Lemma called_app a b : called (a ++ b) = called a ++ called b. Proof. unfold called. now rewrite calls_app, map_app. Qed.
Lemma run_noev cells l : forall rs e, In e (fst (run_ops cells l rs)) -> exists b ix vs, e = Call b ix vs.
Proof.
  induction l as [|o l IH]; intros rs e H; cbn [run_ops fst snd] in H; [destruct H|]. apply in_app_iff in H as [H|H]; [|eapply IH; eassumption].
  destruct o; cbn in H; [destruct H|destruct H as [<-|[]]; eauto|destruct H as [<-|[]]; eauto].
Qed.
Lemma run_cells_ok xs cells b ixs ls : Forall2 (good_cell xs cells b) ixs ls -> forall rs, length rs = length xs ->
  called (fst (run_ops cells (concat ls) rs)) = map (pair b) ixs /\ Forall (right_cells xs) (calls (fst (run_ops cells (concat ls) rs))) /\ length (snd (run_ops cells (concat ls) rs)) = length xs.
Proof.
  induction 1 as [|ix l ixs ls G F IH]; intros rs L; [repeat split; [constructor|assumption]|]. destruct G as (os & Lo & -> & R). cbn [concat map]. rewrite run_app. rewrite run_cell by congruence. cbn [fst snd].
  destruct (IH os Lo) as (A & C & D). rewrite called_app, calls_app, A. split; [reflexivity|]. split; [|assumption]. apply Forall_app. split; [|assumption]. repeat constructor. exact R.
Qed.
Lemma run_body_ok xs cells gd b l rs : good_body xs cells gd b l -> length rs = length xs ->
  called (fst (run_ops cells l rs)) = map (pair b) (all_indices gd) /\ Forall (right_cells xs) (calls (fst (run_ops cells l rs))) /\ length (snd (run_ops cells l rs)) = length xs.
Proof.
  intros G L. destruct gd as [|d gd]; [destruct G as (vs & -> & R); cbn; repeat split; [repeat constructor; exact R|assumption]|]. destruct G as (ls & -> & F). eapply run_cells_ok; eassumption.
Qed.
Lemma run_bodies_ok xs cells gd nt bs bodies : Forall2 (good_body xs cells gd) bs bodies -> forall b0 rs, length rs = length xs -> exists tr,
  run_bodies cells nt b0 bodies rs = tr ++ [Ev Return] /\ ~ In (Ev Return) tr /\ called tr = flat_map (fun b => map (pair b) (all_indices gd)) bs /\ Forall (right_cells xs) (calls tr).
Proof.
  induction 1 as [|b l bs bodies G F IH]; intros b0 rs L; cbn [run_bodies]; [exists []; repeat split; [intros []|constructor]|].
  destruct (run_body_ok xs cells gd b l rs G L) as (A & C & D). destruct (IH (b0 + 1) _ D) as (tr & E & N & Ct & Ft). rewrite E.
  exists (Ev (Begin b0 nt) :: fst (run_ops cells l rs) ++ Ev (Finish b0 nt) :: tr). split; [cbn [app]; f_equal; rewrite <- app_assoc; reflexivity|].
  split. { intros [H|H]; [discriminate|]. apply in_app_iff in H as [H|[H|H]]; [|discriminate|contradiction]. apply run_noev in H as (? & ? & ? & H). discriminate. }
  change (Ev (Begin b0 nt) :: fst (run_ops cells l rs) ++ Ev (Finish b0 nt) :: tr) with ([Ev (Begin b0 nt)] ++ fst (run_ops cells l rs) ++ [Ev (Finish b0 nt)] ++ tr).
  rewrite !called_app, !calls_app. change (called [Ev (Begin b0 nt)]) with (@nil (Z * list Z)). change (called [Ev (Finish b0 nt)]) with (@nil (Z * list Z)). change (calls [Ev (Begin b0 nt)]) with (@nil (Z * list Z * list view)). change (calls [Ev (Finish b0 nt)]) with (@nil (Z * list Z * list view)).
  cbn [app flat_map]. rewrite A, Ct. split; [reflexivity|]. apply Forall_app. auto.
Qed.
Lemma app_last {A} (tr rest l : list A) (x : A) : tr ++ rest = l ++ [x] -> ~ In x l -> (In x tr /\ tr = l ++ [x] /\ rest = []) \/ (~ In x tr /\ exists r, l = tr ++ r).
Proof.
  intros E N. destruct rest as [|r0 rest] using rev_ind; [left; rewrite app_nil_r in E; subst tr; split; [apply in_app_iff; cbn; auto|auto]|].
  right. rewrite app_assoc in E. apply app_inj_tail in E as [<- <-]. split; [intro H; apply N, in_app_iff; auto|]. eauto.
Qed.

(* parallel *)
Definition op_called (o : mop) : list (Z * list Z) := match o with Aim _ _ => [] | CallShared b ix => [(b, ix)] | CallOwn b ix _ => [(b, ix)] end.
Definition prog_called (l : list mop) : list (Z * list Z) := flat_map op_called l.
Lemma do_op_called cells o rs : called (fst (do_op cells o rs)) = op_called o. Proof. destruct o; reflexivity. Qed.
Lemma run_called cells l : forall rs, called (fst (run_ops cells l rs)) = prog_called l.
Proof. induction l as [|o l IH]; intro rs; cbn [run_ops fst snd prog_called flat_map]; [reflexivity|]. rewrite called_app, do_op_called, IH. reflexivity. Qed.
Lemma prog_good xs cells gd b l : good_body xs cells gd b l -> prog_called l = map (pair b) (all_indices gd).
Proof.
  intro G. rewrite <- (run_called cells l (repeat 0 (length xs))). destruct (run_body_ok xs cells gd b l (repeat 0 (length xs)) G (repeat_length _ _)) as (A & _). exact A.
Qed.
Lemma called_ev l : called (map Ev (seen l)) = []. Proof. destruct l; reflexivity. Qed.
Section P.
Variables (cells : list view) (bodies : list (list mop)) (n nt : Z).
Hypothesis Hnt : 1 <= nt.
Definition bod (k : nat) : list mop := nth k bodies [].
Definition cinv (tr : list event) (s : cstate) : Prop :=
  inv n nt (base s) /\ (forall k, pc s k <= length (bod k))%nat /\
  (forall k u, nth_error (wks (base s)) k = Some u -> bdone u = true -> pc s k = length (bod k)) /\
  (forall k, (length (wks (base s)) <= k)%nat -> pc s k = O) /\
  Permutation (called tr) (flat_map (fun k => prog_called (firstn (pc s k) (bod k))) (seq 0 (length (wks (base s))))) /\
  (returned tr <-> mp (base s) = MRet).
Lemma tstep_wks w s l s' : tstep n nt w s = Some (l, s') -> (exists k u u', w = Worker k /\ nth_error (wks s) k = Some u /\ wks s' = upd_nth k u' (wks s) /\ (bdone u' = true -> bdone u = true \/ wpos u = WBody) /\ (mp s' = MRet <-> mp s = MRet) /\ l <> Return) \/
  (w <> Worker 0 /\ (forall k, w <> Worker k) /\ (wks s' = wks s \/ exists u, wks s' = wks s ++ [u] /\ bdone u = false) /\ (l = Return <-> mp s' = MRet) /\ mp s <> MRet).
Proof.
  intro E. destruct w as [| |k]; cbn [tstep] in E.
  - right. split; [discriminate|]. split; [discriminate|].
    destruct (mp s) eqn:Em; try discriminate;
    repeat match goal with E : context [if ?c then _ else _] |- _ => destruct c end;
    repeat match goal with E : match nth_error ?a ?b with _ => _ end = _ |- _ => destruct (nth_error a b) end;
    repeat match goal with E : match wpos ?a with _ => _ end = _ |- _ => destruct (wpos a); try discriminate end;
    injection E as <- <-; cbn [wks mp]; (split; [first [left; reflexivity|right; eexists; split; [reflexivity|reflexivity]]|split; [split; intro; try reflexivity; discriminate|discriminate]]).
  - right. split; [discriminate|]. split; [discriminate|]. destruct (mp s) eqn:Em; try discriminate. injection E as <- <-. cbn [wks mp]. split; [left; reflexivity|]. split; [split; intro; discriminate|discriminate].
  - left. destruct (nth_error (wks s) k) as [u|] eqn:Ek; [|discriminate]. destruct (wpos u) eqn:Ep; try discriminate; injection E as <- <-; exists k, u; eexists; cbn [wks mp]; (split; [reflexivity|]; split; [exact Ek|]; split; [reflexivity|]); unfold bdone; cbn [wpos]; rewrite Ep.
    + split; [discriminate|]. split; [tauto|discriminate].
    + split; [auto|]. split; [tauto|discriminate].
    + split; [auto|]. split; [tauto|discriminate].
    + split; [auto|]. split; [destruct (mp s); cbn [notify]; split; congruence|discriminate].
Qed.
Lemma firstn_S {A} (l : list A) m x : nth_error l m = Some x -> firstn (S m) l = firstn m l ++ [x].
Proof. revert m. induction l as [|y l IH]; intros [|m] H; try discriminate; cbn in H |- *; [injection H as ->; reflexivity|]. f_equal. now apply IH. Qed.
Lemma fm_upd {B} (f g : nat -> list B) k e m i : (forall j, j <> k -> g j = f j) -> g k = f k ++ e -> (i <= k < i + m)%nat -> Permutation (e ++ flat_map f (seq i m)) (flat_map g (seq i m)).
Proof.
  intros H1 H2. revert i. induction m as [|m IH]; intros i Hk; [lia|]. cbn [seq flat_map]. destruct (Nat.eq_dec i k) as [->|N].
  - rewrite H2. assert (E : flat_map g (seq (S k) m) = flat_map f (seq (S k) m)). { apply flat_map_ext_in. intros j Hj. apply in_seq in Hj. apply H1. lia. } rewrite E. rewrite app_assoc. apply Permutation_app_tail, Permutation_app_comm.
  - rewrite H1 by assumption. rewrite <- (IH (S i)) by lia. rewrite !app_assoc. apply Permutation_app_tail, Permutation_app_comm.
Qed.
Lemma cinv_step tr w s e s' : cinv tr s -> cstep cells bodies n nt w s = Some (e, s') -> cinv (tr ++ e) s'.
Proof.
  intros (I & P1 & P2 & P3 & P4 & P5) E. unfold cstep in E.
  assert (Outer : match tstep n nt w (base s) with None => None | Some (l, t) => Some (map Ev (seen l), CS t (regs s) (pc s)) end = Some (e, s') -> (forall k u, w = Worker k -> nth_error (wks (base s)) k = Some u -> wpos u = WBody -> pc s k = length (bod k)) -> cinv (tr ++ e) s').
  { clear E. intros E Hb. destruct (tstep n nt w (base s)) as [[l t]|] eqn:Et; [|discriminate]. injection E as <- <-. unfold cinv. cbn [base pc].
    split; [eapply inv_step; eassumption|]. split; [assumption|]. rewrite called_app, called_ev, app_nil_r.
    assert (Ret : returned (tr ++ map Ev (seen l)) <-> returned tr \/ l = Return).
    { unfold returned. rewrite in_app_iff. split; (intros [H|H]; [now left|right]); [apply in_map_iff in H as (l' & [= ->] & H); destruct l; cbn in H; intuition congruence|subst l; cbn; auto]. }
    destruct (tstep_wks w (base s) l t Et) as [(k & u & u' & -> & Ek & Ew & Hd & Hm & Nl)|(_ & Nw & Hw & Hm & Nm)].
    - destruct (upd_split k u u' _ Ek) as (a & b & El & La & Eu).
      assert (Ln : length (wks t) = length (wks (base s))) by (rewrite Ew, Eu, El, !app_length; reflexivity).
      split; [|split; [|split]].
      + intros j v Hj Hv. rewrite Ew, Eu in Hj. destruct (Nat.eq_dec j k) as [->|Nj].
        * rewrite nth_error_app2 in Hj by lia. replace (k - length a)%nat with 0%nat in Hj by lia. cbn in Hj. injection Hj as <-. destruct (Hd Hv) as [Hu|Hu]; [now apply (P2 k u)|]. now apply (Hb k u).
        * apply (P2 j v); [|assumption]. rewrite El. destruct (Nat.lt_ge_cases j (length a)) as [L|G]; [rewrite nth_error_app1 in * by lia; assumption|]. rewrite nth_error_app2 in * by lia. destruct (j - length a)%nat eqn:D; [lia|]. exact Hj.
      + intros j Hj. apply P3. lia.
      + rewrite Ln. assumption.
      + rewrite Ret, P5, Hm. tauto.
    - split; [|split; [|split]].
      + intros j v Hj Hv. destruct Hw as [Hw|(u & Hw & Hu)]; rewrite Hw in Hj; [now apply (P2 j v)|]. destruct (Nat.lt_ge_cases j (length (wks (base s)))) as [L|G]; [rewrite nth_error_app1 in Hj by assumption; now apply (P2 j v)|].
        rewrite nth_error_app2 in Hj by assumption. destruct (j - length (wks (base s)))%nat as [|q]; cbn in Hj; [congruence|destruct q; discriminate].
      + intros j Hj. apply P3. destruct Hw as [Hw|(u & Hw & _)]; rewrite Hw in Hj; [assumption|]. rewrite app_length in Hj. lia.
      + destruct Hw as [Hw|(u & Hw & _)]; rewrite Hw; [assumption|]. rewrite app_length. cbn [length]. rewrite Nat.add_1_r, seq_S, flat_map_app. cbn [flat_map Nat.add]. rewrite (P3 (length (wks (base s)))) by lia. cbn [firstn prog_called flat_map]. rewrite !app_nil_r. assumption.
      + rewrite Ret, P5, Hm. tauto. }
  destruct w as [| |k]; [apply Outer; [assumption|discriminate]|apply Outer; [assumption|discriminate]|].
  destruct (in_body k (base s)) eqn:Ib.
  - unfold in_body in Ib. destruct (nth_error (wks (base s)) k) as [u|] eqn:Ek; [|discriminate]. destruct (wpos u) eqn:Ep; try discriminate.
    fold (bod k) in E. destruct (nth_error (bod k) (pc s k)) as [o|] eqn:Eo.
    + injection E as <- <-. assert (Lk : (k < length (wks (base s)))%nat) by (apply nth_error_Some; congruence). unfold cinv. cbn [base pc regs].
      split; [assumption|]. split; [|split; [|split; [|split]]].
      * intro j. destruct (j =? k)%nat eqn:Ej; [|apply P1]. apply Nat.eqb_eq in Ej. subst j. apply nth_error_Some. congruence.
      * intros j v Hj Hv. destruct (j =? k)%nat eqn:Ej; [|now apply (P2 j v)]. apply Nat.eqb_eq in Ej. subst j. rewrite Ek in Hj. injection Hj as <-. unfold bdone in Hv. rewrite Ep in Hv. discriminate.
      * intros j Hj. destruct (j =? k)%nat eqn:Ej; [apply Nat.eqb_eq in Ej; lia|now apply P3].
      * rewrite called_app, do_op_called. rewrite Permutation_app_comm. rewrite P4. apply (fm_upd _ _ k); [| |lia].
        -- intros j Nj. replace (j =? k)%nat with false; [reflexivity|]. symmetry. now apply Nat.eqb_neq.
        -- rewrite Nat.eqb_refl. rewrite (firstn_S _ _ _ Eo). unfold prog_called. rewrite flat_map_app. cbn [flat_map]. now rewrite app_nil_r.
      * unfold returned in *. rewrite in_app_iff, <- P5. split; [intros [H|H]; [assumption|]|auto]. destruct o; cbn in H; [destruct H|destruct H as [H|[]]; discriminate|destruct H as [H|[]]; discriminate].
    + apply Outer; [assumption|]. intros k' u' [= <-] Hk' _. apply nth_error_None in Eo. specialize (P1 k). lia.
  - apply Outer; [assumption|]. intros k' u' [= <-] Hk' Hp. unfold in_body in Ib. rewrite Hk', Hp in Ib. discriminate.
Qed.
Lemma cinv_exec sch : forall tr s e s', cinv tr s -> cexec cells bodies n nt sch s = Some (e, s') -> cinv (tr ++ e) s'.
Proof.
  induction sch as [|w sch IH]; intros tr s e s' I E; cbn [cexec] in E; [injection E as <- <-; now rewrite app_nil_r|].
  destruct (cstep cells bodies n nt w s) as [[e1 s1]|] eqn:E1; [|discriminate]. destruct (cexec cells bodies n nt sch s1) as [[e2 s2]|] eqn:E2; [|discriminate]. injection E as <- <-.
  rewrite app_assoc. eapply IH; [|eassumption]. eapply cinv_step; eassumption.
Qed.
Lemma cinv_start rs : cinv [] (CS tstart rs (fun _ => O)).
Proof.
  split; [apply inv_start; assumption|]. cbn. split; [intro; lia|]. split; [intros k u H; destruct k; discriminate|]. split; [reflexivity|]. split; [constructor|]. split; [intros []|discriminate].
Qed.
(* every call comes from a step of a body *)
Lemma calls_from (P : Z * list Z * list view -> Prop) : (forall l b ix, In l bodies -> In (CallShared b ix) l -> False) -> (forall l b ix vs, In l bodies -> In (CallOwn b ix vs) l -> P (b, ix, vs)) ->
  forall sch s e s', cexec cells bodies n nt sch s = Some (e, s') -> Forall P (calls e).
Proof.
  intros H1 H2. induction sch as [|w sch IH]; intros s e s' E; cbn [cexec] in E; [injection E as <- <-; constructor|].
  destruct (cstep cells bodies n nt w s) as [[e1 s1]|] eqn:E1; [|discriminate]. destruct (cexec cells bodies n nt sch s1) as [[e2 s2]|] eqn:E2; [|discriminate]. injection E as <- <-.
  rewrite calls_app. apply Forall_app. split; [|eapply IH; eassumption].
  assert (O : forall r, match tstep n nt w (base s) with None => None | Some (l, t) => Some (map Ev (seen l), r t) end = Some (e1, s1) -> Forall P (calls e1)).
  { intros r E. destruct (tstep n nt w (base s)) as [[l t]|]; [|discriminate]. injection E as <- _. destruct l; constructor. }
  unfold cstep in E1. destruct w as [| |k]; [eapply O; exact E1|eapply O; exact E1|]. destruct (in_body k (base s)); [|eapply O; exact E1]. destruct (nth_error (nth k bodies []) (pc s k)) as [o|] eqn:Eo; [|eapply O; exact E1].
  injection E1 as <- _. apply nth_error_In in Eo. assert (In (nth k bodies []) bodies). { destruct (nth_in_or_default k bodies []) as [Hin|Hd]; [assumption|]. rewrite Hd in Eo. destruct Eo. }
  destruct o; cbn; [constructor|exfalso; eapply H1; eassumption|]. repeat constructor. eapply H2; eassumption.
Qed.
(* the steps of one worker, taken without interruption *)
Lemma steps_alone k : forall a s b, in_body k (base s) = true -> skipn (pc s k) (nth k bodies []) = a ++ b -> exists s', cexec cells bodies n nt (repeat (Worker k) (length a)) s = Some (fst (run_ops cells a (regs s)), s') /\
  base s' = base s /\ regs s' = snd (run_ops cells a (regs s)) /\ (forall j, pc s' j = if (j =? k)%nat then (pc s k + length a)%nat else pc s j).
Proof.
  induction a as [|o a IH]; intros s b Ib Sk; cbn [length repeat cexec run_ops fst snd].
  - exists s. split; [reflexivity|]. split; [reflexivity|]. split; [reflexivity|]. intro j. destruct (j =? k)%nat eqn:E; [apply Nat.eqb_eq in E; subst; lia|reflexivity].
  - cbn [app] in Sk. assert (Eo : nth_error (nth k bodies []) (pc s k) = Some o). { clear - Sk. revert Sk. generalize (nth k bodies []) (pc s k). intros l m. revert l. induction m as [|m IH]; intros [|x l] H; cbn in H |- *; try discriminate; [now injection H as ->|now apply IH]. }
    unfold cstep. rewrite Ib, Eo. set (s1 := CS (base s) _ _).
    assert (Sk1 : skipn (pc s1 k) (nth k bodies []) = a ++ b). { cbn [pc s1]. rewrite Nat.eqb_refl. clear - Sk. revert Sk. generalize (nth k bodies []) (pc s k). intros l m. revert l. induction m as [|m IH]; intros [|x l] H; cbn in H |- *; try discriminate; [now injection H as _ ->|now apply IH]. }
    destruct (IH s1 b Ib Sk1) as (s' & E & B1 & B2 & B3). rewrite E. exists s'. split; [reflexivity|]. split; [assumption|]. split; [assumption|]. intro j. rewrite B3. cbn [pc s1]. rewrite Nat.eqb_refl. destruct (j =? k)%nat; lia.
Qed.
End P.
