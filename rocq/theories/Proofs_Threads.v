(* Proofs_Threads.v -- invariants of the parallel loop. *)
From Verif Require Import Base BaseFacts Model_Threads Spec_Threads.
From Coq Require Import Permutation.
Local Open Scope Z_scope.

Lemma upd_split {A} k (x y : A) l : nth_error l k = Some x -> exists a b, l = a ++ x :: b /\ length a = k /\ upd_nth k y l = a ++ y :: b.
Proof.
  revert k. induction l as [|z l IH]; intros [|k] H; try discriminate; cbn in H.
  - injection H as ->. exists [], l. auto.
  - destruct (IH k H) as (a & b & -> & L & E). exists (z :: a), b. cbn. rewrite E. auto.
Qed.
Lemma exec_app n mt a : forall b s, exec n mt (a ++ b) s = match exec n mt a s with None => None | Some (t, s1) => match exec n mt b s1 with None => None | Some (t', s2) => Some (t ++ t', s2) end end.
Proof.
  induction a as [|w a IH]; intros b s; cbn [app exec]; [destruct (exec n mt b s) as [[? ?]|]; reflexivity|].
  destruct (tstep n mt w s) as [[l s1]|]; [|reflexivity]. rewrite IH. destruct (exec n mt a s1) as [[t s2]|]; [|reflexivity]. destruct (exec n mt b s2) as [[t' s3]|]; [|reflexivity]. now rewrite app_assoc.
Qed.
Lemma exec_split n mt sch : forall s p q s', exec n mt sch s = Some (p ++ q, s') -> exists a b s1, sch = a ++ b /\ exec n mt a s = Some (p, s1) /\ exec n mt b s1 = Some (q, s').
Proof.
  induction sch as [|w sch IH]; intros s p q s' E.
  - cbn in E. injection E as E <-. symmetry in E. apply app_eq_nil in E as [-> ->]. exists [], [], s. auto.
  - cbn [exec] in E. destruct (tstep n mt w s) as [[l s1]|] eqn:Es; [|discriminate]. destruct (exec n mt sch s1) as [[tr s2]|] eqn:Er; [|discriminate]. injection E as E <-.
    destruct p as [|e p]; [exists [], (w :: sch), s; split; [reflexivity|]; split; [reflexivity|]; cbn [exec]; rewrite Es, Er; now rewrite E|].
    assert (H : exists p', e :: p = seen l ++ p' /\ tr = p' ++ q).
    { destruct l; cbn [seen app] in E |- *; [injection E as <- ->; exists p; auto|injection E as <- ->; exists p; auto|injection E as <- ->; exists p; auto|]. exists (e :: p). auto. }
    destruct H as (p' & Ep & ->). destruct (IH s1 p' q s2 Er) as (a & b & s3 & -> & Ea & Eb). exists (w :: a), b, s3. split; [reflexivity|]. split; [|assumption]. cbn [exec]. now rewrite Es, Ea, Ep.
Qed.

Definition act (u : worker) : Z := match wpos u with WNew | WBody | WDec => 1 | _ => 0 end.
Definition started (u : worker) : bool := match wpos u with WNew => false | _ => true end.
Definition bdone (u : worker) : bool := match wpos u with WNew | WBody => false | _ => true end.
Definition acts (l : list worker) : Z := fold_right (fun u a => act u + a) 0 l.
Definition allend (l : list worker) : Prop := forall u, In u l -> wpos u = WEnd.
Lemma acts_app a b : acts (a ++ b) = acts a + acts b. Proof. induction a as [|u a IH]; cbn; [reflexivity|]. unfold acts in *. lia. Qed.
Lemma acts_range l : 0 <= acts l <= Z.of_nat (length l).
Proof. induction l as [|u l IH]; cbn [acts fold_right length]; [lia|]. fold (acts l). unfold act. destruct (wpos u); lia. Qed.

Section T.
Variables n mt : Z.
Hypothesis Hmt : 1 <= mt.
Definition bud : Z := Z.max 1 (Z.quot mt n).
Definition inv (s : tstate) : Prop :=
  (forall k u, nth_error (wks s) k = Some u -> warg u = Z.of_nat k /\ wbud u = bud) /\
  nrun s = acts (wks s) + match mp s with MSpawn _ => 1 | _ => 0 end /\ nrun s <= mt /\
  match mp s with
  | MTest i => Z.of_nat (length (wks s)) = i /\ i <= Z.max 0 n
  | MPred i | MWait i | MBlocked i | MSpawn i => Z.of_nat (length (wks s)) = i /\ i < n
  | MInc i => Z.of_nat (length (wks s)) = i /\ i < n /\ nrun s < mt
  | MJoin j => Z.of_nat (length (wks s)) = Z.max 0 n /\ (j <= length (wks s))%nat /\ forall k u, (k < j)%nat -> nth_error (wks s) k = Some u -> wpos u = WEnd
  | MRet => Z.of_nat (length (wks s)) = Z.max 0 n /\ allend (wks s)
  end.
Definition told (tr : list label) (s : tstate) : Prop :=
  Permutation (begun tr) (map warg (filter started (wks s))) /\ Permutation (finished tr) (map warg (filter bdone (wks s))) /\
  granted tr = bud * running tr /\ (In Return tr <-> mp s = MRet).
Lemma inv_start : inv tstart. Proof. repeat split; cbn; try lia; destruct k; discriminate. Qed.
Lemma told_start : told [] tstart. Proof. split; [constructor|]. split; [constructor|]. split; [cbn; lia|]. split; [intros []|discriminate]. Qed.

(* a worker moves from u to u' *)
Lemma inv_move (s : tstate) k u p d m : inv s -> nth_error (wks s) k = Some u -> wpos u <> WEnd -> act (Wk (warg u) (wbud u) p) = act u + d -> d <= 0 -> m = mp s \/ m = notify (mp s) ->
  inv (TS m (nrun s + d) (upd_nth k (Wk (warg u) (wbud u) p) (wks s))).
Proof.
  intros (I1 & I2 & I3 & I4) Hk Ne Ha Hd Hm. destruct (upd_split k u (Wk (warg u) (wbud u) p) (wks s) Hk) as (a & b & El & La & Eu).
  assert (Ln : length (upd_nth k (Wk (warg u) (wbud u) p) (wks s)) = length (wks s)) by (rewrite Eu, El, !app_length; reflexivity).
  assert (N : forall j v, nth_error (upd_nth k (Wk (warg u) (wbud u) p) (wks s)) j = Some v -> (j = k /\ v = Wk (warg u) (wbud u) p) \/ (j <> k /\ nth_error (wks s) j = Some v)).
  { intros j v. rewrite Eu, El. intro H. destruct (Nat.eq_dec j k) as [->|Nj].
    - left. split; [reflexivity|]. rewrite nth_error_app2 in H by lia. replace (k - length a)%nat with 0%nat in H by lia. cbn in H. congruence.
    - right. split; [assumption|]. destruct (Nat.lt_ge_cases j (length a)) as [L|G]; [rewrite nth_error_app1 in * by lia; assumption|].
      rewrite nth_error_app2 in * by lia. destruct (j - length a)%nat eqn:D; [lia|]. exact H. }
  split; [|split; [|split]]; cbn [wks nrun mp].
  - intros j v H. apply N in H as [[-> ->]|[_ H]]; [cbn; now apply I1|now apply I1].
  - rewrite I2, Eu, El, !acts_app. cbn [acts fold_right]. rewrite Ha. fold (acts b). destruct Hm as [->| ->]; [lia|]. destruct (mp s); cbn [notify]; lia.
  - lia.
  - destruct Hm as [->| ->].
    + destruct (mp s); rewrite ?Ln; try assumption; try lia.
      * destruct I4 as (A & B & C). split; [assumption|]. split; [assumption|]. intros j0 v Lj H. apply N in H as [[-> ->]|[_ H]]; [|now apply (C j0)]. exfalso. apply Ne. now apply (C k).
      * destruct I4 as (A & B). exfalso. apply Ne, B. eapply nth_error_In; eassumption.
    + destruct (mp s); cbn [notify]; rewrite ?Ln; try assumption; try lia.
      * destruct I4 as (A & B & C). split; [assumption|]. split; [assumption|]. intros j0 v Lj H. apply N in H as [[-> ->]|[_ H]]; [|now apply (C j0)]. exfalso. apply Ne. now apply (C k).
      * destruct I4 as (A & B). exfalso. apply Ne, B. eapply nth_error_In; eassumption.
Qed.
Lemma inv_step w s l s' : inv s -> tstep n mt w s = Some (l, s') -> inv s'.
Proof.
  intros I E. assert (I0 := I). destruct w as [| |k]; cbn [tstep] in E.
  - destruct I as (I1 & I2 & I3 & I4). destruct (mp s) as [i|i|i|i|i|i|j|] eqn:Em; try discriminate.
    + destruct (i <? n) eqn:Ei.
      * destruct (mt <=? nrun s) eqn:Er; injection E as <- <-; (split; [|split; [|split]]); cbn [mp nrun wks]; try assumption; lia.
      * injection E as <- <-. (split; [|split; [|split]]); cbn [mp nrun wks]; try assumption; try lia. split; [lia|]. split; [lia|]. intros k u H. lia.
    + destruct (nrun s <? mt) eqn:Er; injection E as <- <-; (split; [|split; [|split]]); cbn [mp nrun wks]; try assumption; lia.
    + injection E as <- <-. (split; [|split; [|split]]); cbn [mp nrun wks]; try assumption; lia.
    + injection E as <- <-. (split; [|split; [|split]]); cbn [mp nrun wks]; try assumption; lia.
    + injection E as <- <-. (split; [|split; [|split]]); cbn [mp nrun wks]; try assumption.
      * intros k u H. destruct (Nat.lt_ge_cases k (length (wks s))) as [L|G]; [rewrite nth_error_app1 in H by assumption; now apply I1|].
        rewrite nth_error_app2 in H by assumption. destruct (k - length (wks s))%nat eqn:D; [|destruct n0; discriminate]. cbn in H. injection H as <-. cbn. split; [lia|reflexivity].
      * rewrite acts_app. change (acts [Wk i (Z.max 1 (Z.quot mt n)) WNew]) with 1. lia.
      * rewrite app_length. cbn [length]. lia.
    + destruct (nth_error (wks s) j) as [u|] eqn:Ej.
      * destruct (wpos u) eqn:Ep; try discriminate. injection E as <- <-. (split; [|split; [|split]]); cbn [mp nrun wks]; try assumption. destruct I4 as (A & B & C). split; [assumption|]. split; [apply nth_error_Some; congruence|].
        intros k v Lk Hk. destruct (Nat.eq_dec k j) as [->|]; [congruence|apply (C k v); [lia|assumption]].
      * injection E as <- <-. (split; [|split; [|split]]); cbn [mp nrun wks]; try assumption. destruct I4 as (A & B & C). split; [assumption|]. intros v Iv. apply In_nth_error in Iv as (k & Hk). apply (C k v); [|assumption].
        apply nth_error_None in Ej. assert (k < length (wks s))%nat by (apply nth_error_Some; congruence). lia.
  - destruct I as (I1 & I2 & I3 & I4). destruct (mp s) as [i|i|i|i|i|i|j|] eqn:Em; try discriminate. injection E as <- <-. (split; [|split; [|split]]); cbn [mp nrun wks]; try assumption; lia.
  - destruct (nth_error (wks s) k) as [u|] eqn:Ek; [|discriminate].
    destruct (wpos u) eqn:Ep; try discriminate; injection E as <- <-.
    + rewrite <- (Z.add_0_r (nrun s)). eapply inv_move; try eassumption; try congruence; [cbn; unfold act; cbn; rewrite Ep; lia|lia|now left].
    + rewrite <- (Z.add_0_r (nrun s)). eapply inv_move; try eassumption; try congruence; [cbn; unfold act; cbn; rewrite Ep; lia|lia|now left].
    + unfold Z.sub. eapply inv_move; try eassumption; try congruence; [cbn; unfold act; cbn; rewrite Ep; lia|lia|now left].
    + rewrite <- (Z.add_0_r (nrun s)). eapply inv_move; try eassumption; try congruence; [cbn; unfold act; cbn; rewrite Ep; lia|lia|now right].
Qed.
Lemma begun_app a b : begun (a ++ b) = begun a ++ begun b. Proof. unfold begun. now rewrite flat_map_app. Qed.
Lemma finished_app a b : finished (a ++ b) = finished a ++ finished b. Proof. unfold finished. now rewrite flat_map_app. Qed.
Lemma granted_app a b : granted (a ++ b) = granted a + granted b.
Proof. induction a as [|l a IH]; cbn; [reflexivity|]. unfold granted in *. cbn. rewrite IH. lia. Qed.
Lemma running_app a b : running (a ++ b) = running a + running b.
Proof. unfold running. rewrite begun_app, finished_app, !app_length. lia. Qed.
Lemma filt_move (f : worker -> bool) k u p l : nth_error l k = Some u ->
  Permutation (map warg (filter f (upd_nth k (Wk (warg u) (wbud u) p) l)) ++ (if f u then [warg u] else [])) (map warg (filter f l) ++ (if f (Wk (warg u) (wbud u) p) then [warg u] else [])).
Proof.
  intro H. destruct (upd_split k u (Wk (warg u) (wbud u) p) l H) as (a & b & -> & _ & ->). rewrite !filter_app, !map_app. cbn [filter].
  destruct (f (Wk (warg u) (wbud u) p)), (f u); cbn [map warg app]; rewrite ?app_nil_r, <- ?app_assoc; cbn; try reflexivity.
  - rewrite (app_assoc (map warg (filter f a)) (map warg (filter f b)) [warg u]). rewrite <- Permutation_middle. apply Permutation_cons_append.
  - rewrite (app_assoc (map warg (filter f a)) (map warg (filter f b)) [warg u]). symmetry. rewrite <- Permutation_middle. apply Permutation_cons_append.
Qed.
Lemma told_step w s l s' tr : inv s -> told tr s -> tstep n mt w s = Some (l, s') -> told (tr ++ seen l) s'.
Proof.
  intros I (T1 & T2 & T3 & T4) E. assert (Hid : forall m r, (m = MRet <-> mp s = MRet) -> told (tr ++ seen Tau) (TS m r (wks s))).
  { intros m r Hm. cbn [seen]. rewrite app_nil_r. split; [exact T1|]. split; [exact T2|]. split; [exact T3|]. cbn. tauto. }
  destruct w as [| |k]; cbn [tstep] in E.
  - destruct (mp s) as [i|i|i|i|i|i|j|] eqn:Em; try discriminate.
    + destruct (i <? n); [destruct (mt <=? nrun s)|]; injection E as <- <-; apply Hid; split; discriminate.
    + destruct (nrun s <? mt); injection E as <- <-; apply Hid; split; discriminate.
    + injection E as <- <-; apply Hid; split; discriminate.
    + injection E as <- <-; apply Hid; split; discriminate.
    + injection E as <- <-. cbn [seen]. rewrite app_nil_r. split; [|split; [|split]]; cbn [wks mp].
      * rewrite filter_app. cbn. now rewrite app_nil_r.
      * rewrite filter_app. cbn. now rewrite app_nil_r.
      * exact T3.
      * rewrite T4. split; discriminate.
    + destruct (nth_error (wks s) j) as [u|]; [destruct (wpos u); try discriminate; injection E as <- <-; apply Hid; split; discriminate|].
      injection E as <- <-. cbn [seen]. split; [|split; [|split]]; cbn [wks mp].
      * rewrite begun_app. cbn. now rewrite app_nil_r.
      * rewrite finished_app. cbn. now rewrite app_nil_r.
      * rewrite granted_app, running_app. cbn. lia.
      * split; [reflexivity|]. intros _. apply in_app_iff. right. now left.
  - destruct (mp s) as [i|i|i|i|i|i|j|] eqn:Em; try discriminate. injection E as <- <-; apply Hid; split; discriminate.
  - destruct (nth_error (wks s) k) as [u|] eqn:Ek; [|discriminate].
    assert (Bu : wbud u = bud) by (destruct I as [I1 _]; now apply (I1 k)). assert (Pb : Z.max 1 bud = bud) by (unfold bud; lia).
    assert (Nr : forall m, (m = notify (mp s)) -> (m = MRet <-> mp s = MRet)) by (intros m ->; destruct (mp s); cbn; split; try discriminate; auto).
    assert (Fs := fun p => filt_move started k u p (wks s) Ek). assert (Fd := fun p => filt_move bdone k u p (wks s) Ek).
    destruct (wpos u) eqn:Ep; try discriminate; injection E as <- <-; cbn [seen]; unfold started, bdone in Fs, Fd; rewrite Ep in Fs, Fd; fold started in Fs; fold bdone in Fd.
    + specialize (Fs WBody). specialize (Fd WBody). cbn in Fs, Fd. rewrite !app_nil_r in Fd. rewrite app_nil_r in Fs. split; [|split; [|split]]; cbn [wks mp].
      * rewrite begun_app. cbn. rewrite T1. symmetry. exact Fs.
      * rewrite finished_app. cbn. rewrite app_nil_r, T2. symmetry. exact Fd.
      * rewrite granted_app, running_app. cbn. rewrite T3, Bu, Pb. change (running [Begin (warg u) bud]) with 1. lia.
      * rewrite in_app_iff. cbn. rewrite T4. intuition discriminate.
    + specialize (Fs WDec). specialize (Fd WDec). cbn in Fs, Fd. rewrite app_nil_r in Fd. apply Permutation_app_inv_r in Fs. split; [|split; [|split]]; cbn [wks mp].
      * rewrite begun_app. cbn. rewrite app_nil_r, T1. symmetry. exact Fs.
      * rewrite finished_app. cbn. rewrite T2. symmetry. exact Fd.
      * rewrite granted_app, running_app. cbn. rewrite T3, Bu, Pb. change (running [Finish (warg u) bud]) with (-1). lia.
      * rewrite in_app_iff. cbn. rewrite T4. intuition discriminate.
    + specialize (Fs WNotify). specialize (Fd WNotify). cbn in Fs, Fd. apply Permutation_app_inv_r in Fs. apply Permutation_app_inv_r in Fd. rewrite app_nil_r. split; [|split; [|split]]; cbn [wks mp]; try assumption; [now rewrite T1|now rewrite T2].
    + specialize (Fs WEnd). specialize (Fd WEnd). cbn in Fs, Fd. apply Permutation_app_inv_r in Fs. apply Permutation_app_inv_r in Fd. rewrite app_nil_r. split; [|split; [|split]]; cbn [wks mp]; try assumption; [now rewrite T1|now rewrite T2|].
      rewrite T4. symmetry. now apply Nr.
Qed.
Lemma exec_inv sch : forall s tr0 tr s', inv s -> told tr0 s -> exec n mt sch s = Some (tr, s') -> inv s' /\ told (tr0 ++ tr) s'.
Proof.
  induction sch as [|w sch IH]; intros s tr0 tr s' I T E; cbn [exec] in E; [injection E as <- <-; now rewrite app_nil_r|].
  destruct (tstep n mt w s) as [[l s1]|] eqn:Es; [|discriminate]. destruct (exec n mt sch s1) as [[t s2]|] eqn:Er; [|discriminate]. injection E as <- <-.
  rewrite app_assoc. apply (IH s1); [eapply inv_step; eassumption|eapply told_step; eassumption|assumption].
Qed.
Lemma args_zrange l : (forall k u, nth_error l k = Some u -> warg u = Z.of_nat k) -> map warg l = zrange (Z.of_nat (length l)).
Proof.
  intro H. unfold zrange. rewrite Nat2Z.id. apply (nth_ext _ _ 0 0); [now rewrite !map_length, seq_length|]. intros k Hk. rewrite map_length in Hk.
  destruct (nth_error l k) as [u|] eqn:E; [|apply nth_error_None in E; lia]. specialize (H k u E).
  rewrite (nth_indep _ 0 (warg u)) by (now rewrite map_length). rewrite map_nth. rewrite (nth_error_nth l k u E), H.
  rewrite (nth_indep _ 0 (Z.of_nat 0)) by (now rewrite map_length, seq_length). rewrite map_nth, seq_nth by assumption. reflexivity.
Qed.
Lemma filt_counts l : Z.of_nat (length (filter started l)) - Z.of_nat (length (filter bdone l)) <= acts l.
Proof. induction l as [|u l IH]; cbn [filter acts fold_right]; [cbn; lia|]. fold (acts l). unfold act, started, bdone in *. destruct (wpos u); cbn [length]; lia. Qed.
Lemma filt_sub (f g : worker -> bool) l : (forall u, f u = true -> g u = true) -> incl (map warg (filter f l)) (map warg (filter g l)).
Proof. intros H x Hx. apply in_map_iff in Hx as (u & <- & Hu). apply filter_In in Hu as [Hu Fu]. apply in_map. apply filter_In. auto. Qed.
Lemma filt_nodup (f : worker -> bool) l : NoDup (map warg l) -> NoDup (map warg (filter f l)).
Proof.
  induction l as [|u l IH]; cbn; [auto|]. intro H. apply NoDup_cons_iff in H as [Hu Hl]. destruct (f u); cbn; [|auto]. constructor; [|auto]. intro Q. apply Hu. apply in_map_iff in Q as (v & Ev & Hv). apply filter_In in Hv as [Hv _]. rewrite <- Ev. now apply in_map.
Qed.
Lemma bud_bound r : r <= mt -> r <= Z.max 0 n -> bud * r <= mt.
Proof.
  intros R1 R2. unfold bud. destruct (Z.leb_spec n 0) as [N|N]; [replace (Z.max 0 n) with 0 in R2 by lia; destruct (Z.eq_dec r 0) as [->|]; nia|].
  rewrite Z.quot_div_nonneg by lia. destruct (Z.leb_spec 1 (mt / n)) as [Q|Q]; [|replace (Z.max 1 (mt / n)) with 1 by lia; lia].
  replace (Z.max 1 (mt / n)) with (mt / n) by lia. assert (n * (mt / n) <= mt) by (apply Z.mul_div_le; lia). nia.
Qed.
(* C42 for a reachable state *)
Lemma safe sch tr s : exec n mt sch tstart = Some (tr, s) ->
  NoDup (begun tr) /\ NoDup (finished tr) /\ incl (begun tr) (zrange n) /\ incl (finished tr) (begun tr) /\ 0 <= running tr <= mt /\ granted tr <= mt /\
  (In Return tr -> Permutation (begun tr) (zrange n) /\ Permutation (finished tr) (zrange n)).
Proof.
  intro E. destruct (exec_inv sch tstart [] tr s inv_start told_start E) as ((I1 & I2 & I3 & I4) & T1 & T2 & T3 & T4). cbn [app] in *.
  assert (Ar := args_zrange (wks s) (fun k u H => proj1 (I1 k u H))).
  assert (Nd : NoDup (map warg (wks s))) by (rewrite Ar; apply zrange_nodup).
  assert (Ln : Z.of_nat (length (wks s)) <= Z.max 0 n) by (destruct (mp s); lia).
  assert (Rg := acts_range (wks s)). assert (Fc := filt_counts (wks s)).
  assert (Lb := Permutation_length T1). assert (Lf := Permutation_length T2). rewrite map_length in Lb, Lf.
  assert (S2 : incl (finished tr) (begun tr)).
  { intros x Hx. apply (Permutation_in x T2) in Hx. apply (Permutation_in x (Permutation_sym T1)). revert x Hx. apply filt_sub. intros u. unfold started, bdone. destruct (wpos u); auto. }
  assert (N1 : NoDup (begun tr)) by (apply (Permutation_NoDup (Permutation_sym T1)); now apply filt_nodup).
  assert (N2 : NoDup (finished tr)) by (apply (Permutation_NoDup (Permutation_sym T2)); now apply filt_nodup).
  assert (Ru : 0 <= running tr <= mt /\ running tr <= Z.max 0 n).
  { unfold running. assert (L := NoDup_incl_length N2 S2). assert (acts (wks s) <= mt) by (rewrite I2 in I3; destruct (mp s); lia). lia. }
  split; [assumption|]. split; [assumption|]. split; [|split; [assumption|split; [lia|split]]].
  - intros x Hx. apply (Permutation_in x T1) in Hx. assert (Hm : In x (map warg (wks s))) by (apply in_map_iff in Hx as (u & <- & Hu); apply filter_In in Hu as [Hu _]; now apply in_map).
    rewrite Ar in Hm. apply in_zrange in Hm. apply in_zrange. lia.
  - rewrite T3. apply bud_bound; lia.
  - intro R. apply T4 in R. rewrite R in I4. destruct I4 as [A B].
    assert (Fl : forall f, (forall u, wpos u = WEnd -> f u = true) -> filter f (wks s) = wks s).
    { intros f Hf. assert (Q := B). clear - Hf Q. induction (wks s) as [|u l IH]; cbn; [reflexivity|]. rewrite (Hf u) by (apply Q; now left). f_equal. apply IH. intros v Hv. apply Q. now right. }
    assert (Zn : zrange (Z.max 0 n) = zrange n) by (unfold zrange; f_equal; f_equal; lia).
    rewrite (Fl started) in T1 by (intros u Hu; unfold started; now rewrite Hu). rewrite (Fl bdone) in T2 by (intros u Hu; unfold bdone; now rewrite Hu). rewrite Ar, A, Zn in T1, T2. auto.
Qed.
Lemma no_more sch s tr s' : inv s -> mp s = MRet -> exec n mt sch s = Some (tr, s') -> tr = [] /\ sch = [].
Proof.
  intros (_ & _ & _ & I4) R E. destruct sch as [|w sch]; [now injection E as <- <-|]. exfalso. cbn [exec] in E. rewrite R in I4. destruct I4 as [_ B].
  assert (H : tstep n mt w s = None). { destruct w as [| |k]; cbn [tstep]; rewrite ?R; try reflexivity. destruct (nth_error (wks s) k) as [u|] eqn:Ek; [|reflexivity]. now rewrite (B u (nth_error_In _ _ Ek)). }
  rewrite H in E. discriminate.
Qed.

(* ---- progress *)
Lemma stuck_state s : inv s -> stuck n mt s -> mp s = MRet \/ exists i, mp s = MBlocked i /\ allend (wks s).
Proof.
  intros (I1 & I2 & I3 & I4) St.
  assert (Ae : allend (wks s)).
  { intros u Iu. apply In_nth_error in Iu as (k & Hk). assert (H := St (Worker k) ltac:(discriminate)). cbn [tstep] in H. rewrite Hk in H. destruct (wpos u); try discriminate; reflexivity. }
  assert (H := St Main ltac:(discriminate)). cbn [tstep] in H. destruct (mp s) as [i|i|i|i|i|i|j|] eqn:Em; try discriminate; auto.
  - destruct (i <? n); [destruct (mt <=? nrun s)|]; discriminate.
  - destruct (nrun s <? mt); discriminate.
  - right. eauto.
  - destruct (nth_error (wks s) j) as [u|] eqn:Ej; [|discriminate]. rewrite (Ae u (nth_error_In _ _ Ej)) in H. discriminate.
Qed.
Definition wweight (u : worker) : Z := match wpos u with WNew => 6 | WBody => 5 | WDec => 4 | WNotify => 3 | WEnd => 0 end.
Definition wweights (l : list worker) : Z := fold_right (fun u a => wweight u + a) 0 l.
Lemma wweights_app a b : wweights (a ++ b) = wweights a + wweights b. Proof. induction a as [|u a IH]; cbn; [reflexivity|]. unfold wweights in *. lia. Qed.
Lemma wweights_nonneg l : 0 <= wweights l. Proof. induction l as [|u l IH]; cbn; [lia|]. fold (wweights l). unfold wweight. destruct (wpos u); lia. Qed.
Definition mweight (m : mpc) : Z :=
  let N := Z.max 0 n in let r i := 12 * (N - i) + (N + 2) in
  match m with MTest i => r i | MPred i => r i - 1 | MWait i => r i - 2 | MBlocked i => r i - 3 | MInc i => r i - 4 | MSpawn i => r i - 5 | MJoin j => N + 1 - Z.of_nat j | MRet => 0 end.
Definition weight (s : tstate) : Z := mweight (mp s) + wweights (wks s).
Lemma weight_nonneg s : inv s -> 0 <= weight s.
Proof. intros (_ & _ & _ & I4). unfold weight. assert (W := wweights_nonneg (wks s)). unfold mweight. destruct (mp s); lia. Qed.
Lemma weight_step w s l s' : inv s -> tstep n mt w s = Some (l, s') -> weight s' <= weight s + match w with Spurious => 2 | _ => -1 end.
Proof.
  intros (I1 & I2 & I3 & I4) E. unfold weight. destruct w as [| |k]; cbn [tstep] in E.
  - destruct (mp s) as [i|i|i|i|i|i|j|] eqn:Em; try discriminate.
    + destruct (i <? n) eqn:Ei; [destruct (mt <=? nrun s)|]; injection E as <- <-; cbn [mp wks mweight]; lia.
    + destruct (nrun s <? mt); injection E as <- <-; cbn [mp wks mweight]; lia.
    + injection E as <- <-; cbn [mp wks mweight]; lia.
    + injection E as <- <-; cbn [mp wks mweight]; lia.
    + injection E as <- <-; cbn [mp wks mweight]. rewrite wweights_app. change (wweights [Wk i (Z.max 1 (Z.quot mt n)) WNew]) with 6. lia.
    + destruct (nth_error (wks s) j) as [u|] eqn:Ej; [destruct (wpos u); try discriminate; injection E as <- <-; cbn [mp wks mweight]; lia|].
      injection E as <- <-. cbn [mp wks mweight]. lia.
  - destruct (mp s) as [i|i|i|i|i|i|j|] eqn:Em; try discriminate. injection E as <- <-; cbn [mp wks mweight]; lia.
  - destruct (nth_error (wks s) k) as [u|] eqn:Ek; [|discriminate].
    assert (M : forall p, wweights (upd_nth k (Wk (warg u) (wbud u) p) (wks s)) = wweights (wks s) - wweight u + wweight (Wk (warg u) (wbud u) p)).
    { intro p. destruct (upd_split k u (Wk (warg u) (wbud u) p) (wks s) Ek) as (a & b & -> & _ & ->). rewrite !wweights_app. cbn [wweights fold_right]. lia. }
    destruct (wpos u) eqn:Ep; try discriminate; injection E as <- <-; cbn [mp wks]; rewrite M; unfold wweight; rewrite Ep; cbn [wpos]; try lia.
    destruct (mp s); cbn [notify mweight]; lia.
Qed.
Lemma exec_bound sch : forall s tr s', inv s -> exec n mt sch s = Some (tr, s') -> Z.of_nat (length sch) <= weight s + 3 * Z.of_nat (spurious sch).
Proof.
  induction sch as [|w sch IH]; intros s tr s' I E; cbn [exec] in E; [cbn; assert (W := weight_nonneg s I); lia|].
  destruct (tstep n mt w s) as [[l s1]|] eqn:Es; [|discriminate]. destruct (exec n mt sch s1) as [[t s2]|] eqn:Er; [|discriminate].
  assert (I1 := inv_step _ _ _ _ I Es). assert (W := weight_step _ _ _ _ I Es). specialize (IH s1 t s2 I1 Er). unfold spurious in *. cbn [length filter]. destruct w; cbn [length]; lia.
Qed.
(* nobody misses a notification *)
Definition heard (s : tstate) : Prop :=
  match mp s with MWait _ => mt <= nrun s | MBlocked _ => mt <= nrun s \/ exists u, In u (wks s) /\ wpos u = WNotify | _ => True end.
Lemma heard_step w s l s' : inv s -> heard s -> misses w s = false -> tstep n mt w s = Some (l, s') -> heard s'.
Proof.
  intros I H M E. unfold heard in *. destruct w as [| |k]; cbn [tstep] in E.
  - destruct (mp s) as [i|i|i|i|i|i|j|] eqn:Em; try discriminate.
    + destruct (i <? n); [destruct (mt <=? nrun s)|]; injection E as <- <-; exact Logic.I.
    + destruct (nrun s <? mt) eqn:Er; injection E as <- <-; cbn; [exact Logic.I|lia].
    + injection E as <- <-. cbn. now left.
    + injection E as <- <-. exact Logic.I.
    + injection E as <- <-. exact Logic.I.
    + destruct (nth_error (wks s) j) as [u|]; [destruct (wpos u); try discriminate|]; injection E as <- <-; exact Logic.I.
  - destruct (mp s) as [i|i|i|i|i|i|j|] eqn:Em; try discriminate. injection E as <- <-; exact Logic.I.
  - unfold misses in M. destruct (nth_error (wks s) k) as [u|] eqn:Ek; [|discriminate].
    assert (K : forall p v, In v (wks s) -> wpos v <> wpos u -> In v (upd_nth k (Wk (warg u) (wbud u) p) (wks s))).
    { intros p v Hv Ne. destruct (upd_split k u (Wk (warg u) (wbud u) p) (wks s) Ek) as (a & b & El & _ & ->). rewrite El in Hv. apply in_app_iff in Hv. apply in_app_iff. destruct Hv as [Hv|[->|Hv]]; [auto|congruence|right; now right]. }
    assert (N : forall p, In (Wk (warg u) (wbud u) p) (upd_nth k (Wk (warg u) (wbud u) p) (wks s))).
    { intros p. destruct (upd_split k u (Wk (warg u) (wbud u) p) (wks s) Ek) as (a & b & _ & _ & ->). apply in_app_iff. right. now left. }
    destruct (wpos u) eqn:Ep; try discriminate; injection E as <- <-; cbn [mp nrun wks].
    + destruct (mp s); auto. destruct H as [H|(v & Hv & Pv)]; [auto|]. right. exists v. split; [apply K; congruence|assumption].
    + destruct (mp s); auto. destruct H as [H|(v & Hv & Pv)]; [auto|]. right. exists v. split; [apply K; congruence|assumption].
    + destruct (mp s); auto; [discriminate|]. right. eexists. split; [apply N|reflexivity].
    + destruct (mp s); cbn [notify]; auto.
Qed.
Lemma exec_heard sch : forall s tr s', inv s -> heard s -> misses_none n mt sch s -> exec n mt sch s = Some (tr, s') -> heard s'.
Proof.
  induction sch as [|w sch IH]; intros s tr s' I H M E; cbn [exec] in E; [now injection E as <- <-|].
  cbn [misses_none] in M. destruct M as [M1 M2]. destruct (tstep n mt w s) as [[l s1]|] eqn:Es; [|discriminate]. destruct (exec n mt sch s1) as [[t s2]|] eqn:Er; [|discriminate]. injection E as <- <-.
  apply (IH s1 t s2); [eapply inv_step; eassumption|eapply heard_step; eassumption|assumption|assumption].
Qed.
Lemma heard_returns s : inv s -> heard s -> stuck n mt s -> mp s = MRet.
Proof.
  intros I H St. destruct (stuck_state s I St) as [R|(i & Em & Ae)]; [assumption|]. exfalso. unfold heard in H. rewrite Em in H. destruct I as (I1 & I2 & I3 & I4). rewrite Em in I2.
  assert (acts (wks s) = 0). { clear - Ae. induction (wks s) as [|u l IH]; [reflexivity|]. cbn. fold (acts l). rewrite IH by (intros v Hv; apply Ae; now right). unfold act. now rewrite (Ae u (or_introl eq_refl)). }
  destruct H as [H|(v & Hv & Pv)]; [lia|]. rewrite (Ae v Hv) in Pv. discriminate.
Qed.
(* with at most mt indices the main thread never waits *)
Definition easy (s : tstate) : Prop := match mp s with MPred _ | MWait _ | MBlocked _ => False | _ => True end.
Lemma easy_exec sch : n <= mt -> forall s tr s', inv s -> easy s -> exec n mt sch s = Some (tr, s') -> misses_none n mt sch s.
Proof.
  intro Hn. induction sch as [|w sch IH]; intros s tr s' I H E; cbn [exec misses_none] in *; [exact Logic.I|].
  split; [unfold misses, easy in *; destruct w; try reflexivity; destruct (mp s); try reflexivity; destruct H|].
  destruct (tstep n mt w s) as [[l s1]|] eqn:Es; [|exact Logic.I]. destruct (exec n mt sch s1) as [[t s2]|] eqn:Er; [|discriminate].
  assert (I' := inv_step _ _ _ _ I Es). apply (IH s1 t s2); [assumption| |assumption]. clear IH Er I' E. destruct I as (I1 & I2 & I3 & I4). unfold easy in *. destruct w as [| |k]; cbn [tstep] in Es.
  - destruct (mp s) as [i|i|i|i|i|i|j|] eqn:Em; try discriminate; try destruct H.
    + assert (R := acts_range (wks s)). destruct (i <? n) eqn:Ei; [destruct (mt <=? nrun s) eqn:Er|]; injection Es as <- <-; cbn; auto. lia.
    + injection Es as <- <-. exact Logic.I.
    + injection Es as <- <-. exact Logic.I.
    + destruct (nth_error (wks s) j) as [u|]; [destruct (wpos u); try discriminate|]; injection Es as <- <-; exact Logic.I.
  - destruct (mp s) as [i|i|i|i|i|i|j|] eqn:Em; try discriminate. destruct H.
  - destruct (nth_error (wks s) k) as [u|]; [|discriminate]. destruct (wpos u); try discriminate; injection Es as <- <-; cbn [mp]; try assumption. destruct (mp s); cbn; auto.
Qed.
End T.

(* ---- the lost wake-up *)
Definition news (n mt : Z) (k : nat) : list worker := map (fun i => Wk (Z.of_nat i) (Z.max 1 (Z.quot mt n)) WNew) (seq 0 k).
Definition fin (u : worker) : worker := Wk (warg u) (wbud u) WEnd.
Lemma spawns n mt k : Z.of_nat k <= mt -> Z.of_nat k <= n -> exec n mt (repeat Main (3 * k)) tstart = Some ([], TS (MTest (Z.of_nat k)) (Z.of_nat k) (news n mt k)).
Proof.
  induction k as [|k IH]; intros H1 H2; [reflexivity|]. replace (3 * S k)%nat with (3 * k + 3)%nat by lia. rewrite repeat_app, exec_app, IH by lia. cbn [repeat exec tstep mp nrun wks].
  replace (Z.of_nat k <? n) with true by lia. replace (mt <=? Z.of_nat k) with false by lia. cbn [mp nrun wks seen app]. unfold news. rewrite seq_S, map_app. cbn [map Nat.add]. repeat f_equal; lia.
Qed.
Definition four (k : nat) : list who := repeat (Worker k) 4.
Lemma wstep n mt m r a u l : tstep n mt (Worker (length a)) (TS m r (a ++ u :: l)) =
  let move p := a ++ Wk (warg u) (wbud u) p :: l in
  match wpos u with
  | WNew => Some (Begin (warg u) (wbud u), TS m r (move WBody))
  | WBody => Some (Finish (warg u) (wbud u), TS m r (move WDec))
  | WDec => Some (Tau, TS m (r - 1) (move WNotify))
  | WNotify => Some (Tau, TS (notify m) r (move WEnd))
  | WEnd => None
  end.
Proof.
  cbn [tstep wks mp nrun]. rewrite nth_error_app2, Nat.sub_diag by lia. cbn [nth_error].
  assert (U : forall w, upd_nth (length a) w (a ++ u :: l) = a ++ w :: l) by (intro w; clear; induction a; cbn; [reflexivity|now rewrite IHa]).
  cbn zeta. rewrite !U. reflexivity.
Qed.
Lemma one_worker n mt i a u l r : wpos u = WNew -> exec n mt (four (length a)) (TS (MWait i) r (a ++ u :: l)) = Some ([Begin (warg u) (wbud u); Finish (warg u) (wbud u)], TS (MWait i) (r - 1) (a ++ fin u :: l)).
Proof.
  intro H. unfold four. cbn [repeat exec]. rewrite wstep, H. cbn zeta. cbn [exec]. rewrite wstep. cbn [wpos warg wbud]. cbn zeta. rewrite wstep. cbn [wpos warg wbud]. cbn zeta. rewrite wstep. cbn [wpos warg wbud notify]. reflexivity.
Qed.
Lemma ends n mt i l : forall a r, (forall u, In u l -> wpos u = WNew) -> exists tr,
  exec n mt (flat_map four (seq (length a) (length l))) (TS (MWait i) r (a ++ l)) = Some (tr, TS (MWait i) (r - Z.of_nat (length l)) (a ++ map fin l)) /\ ~ In Return tr.
Proof.
  induction l as [|u l IH]; intros a r H.
  - cbn. exists []. rewrite Z.sub_0_r. split; [reflexivity|intros []].
  - cbn [length seq flat_map]. rewrite exec_app.
    rewrite (one_worker n mt i a u l r (H u (or_introl eq_refl))).
    destruct (IH (a ++ [fin u]) (r - 1)) as (tr & E & R); [intros v Hv; apply H; now right|]. rewrite app_length in E. cbn [length] in E. rewrite Nat.add_comm in E. cbn [Nat.add] in E. rewrite <- !app_assoc in E. cbn [app] in E.
    rewrite E. eexists. split; [replace (r - Z.of_nat (S (length l))) with (r - 1 - Z.of_nat (length l)) by lia; reflexivity|]. cbn. intuition discriminate.
Qed.
Lemma lost n mt : 2 <= mt < n -> exists sch tr s, exec n mt sch tstart = Some (tr, s) /\ ~ In Return tr /\ stuck n mt s /\ spurious sch = 0%nat.
Proof.
  intro H. set (k := Z.to_nat mt). assert (Hk : Z.of_nat k = mt) by (unfold k; lia).
  destruct (ends n mt mt (news n mt k) [] mt) as (tr & E & R). { intros u Hu. unfold news in Hu. apply in_map_iff in Hu as (i & <- & _). reflexivity. }
  assert (Ln : length (news n mt k) = k) by (unfold news; now rewrite map_length, seq_length). rewrite Ln in E. cbn [length app] in E.
  exists (repeat Main (3 * k) ++ [Main; Main] ++ flat_map four (seq 0 k) ++ [Main]), tr, (TS (MBlocked mt) 0 (map fin (news n mt k))).
  split; [|split; [assumption|split]].
  - rewrite exec_app, spawns by lia. rewrite exec_app. cbn [exec tstep mp nrun wks]. rewrite Hk. replace (mt <? n) with true by lia. rewrite Z.leb_refl. cbn [exec mp nrun wks seen app]. rewrite Z.ltb_irrefl. cbn [seen app].
    rewrite exec_app, E. cbn [exec tstep mp nrun wks seen app]. rewrite app_nil_r. replace (mt - Z.of_nat k) with 0 by lia. reflexivity.
  - intros w Hw. destruct w as [| |j]; [reflexivity|congruence|]. cbn [tstep wks]. destruct (nth_error (map fin (news n mt k)) j) as [u|] eqn:Ej; [|reflexivity].
    apply nth_error_In, in_map_iff in Ej as (v & <- & _). reflexivity.
  - unfold spurious. rewrite !filter_app, !app_length. assert (A : forall m, filter (fun w => match w with Spurious => true | _ => false end) (repeat Main m) = []) by (induction m; auto). rewrite A. cbn [filter length app].
    assert (B : forall l, filter (fun w => match w with Spurious => true | _ => false end) (flat_map four l) = []) by (induction l; cbn; auto). rewrite B. reflexivity.
Qed.
