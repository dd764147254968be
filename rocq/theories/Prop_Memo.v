(* Prop_Memo.v -- C41: memoised values. *)
From Verif Require Import Base BaseFacts Model_Observer Model_Memo.
Local Open Scope Z_scope.

Lemma F2_impl {A B} (P Q : A -> B -> Prop) l m : (forall a b, P a b -> Q a b) -> Forall2 P l m -> Forall2 Q l m.
Proof. intros H F. induction F; constructor; auto. Qed.
Section P.
Context {V : Type}.
Variable gen : nat -> Z -> res (option V).
Hypothesis nonnull : forall n k, gen n k <> Ok None.
(* the table holds what exactly one call returned, and calls that did not return stored nothing *)
Definition oinv (s : obank V) : Prop :=
  (forall k, match otab s k with
    | None => forall n, nth_error (ocalls s) n = Some k -> forall p, gen n k <> Ok p
    | Some None => False
    | Some (Some v) => exists n, nth_error (ocalls s) n = Some k /\ gen n k = Ok (Some v) /\ forall n' p, nth_error (ocalls s) n' = Some k -> gen n' k = Ok p -> n' = n
    end).
Lemma nth_error_snoc {A} (l : list A) x n y : nth_error (l ++ [x]) n = Some y <-> nth_error l n = Some y \/ (n = length l /\ y = x).
Proof.
  destruct (Nat.lt_ge_cases n (length l)) as [H|H].
  - rewrite nth_error_app1 by assumption. split; [tauto|]. intros [E|[-> _]]; [assumption|lia].
  - rewrite nth_error_app2 by assumption. split.
    + intro E. right. destruct (n - length l)%nat eqn:D; cbn in E; [split; [lia|congruence]|]. destruct n0; discriminate.
    + intros [E|[-> ->]]; [|now rewrite Nat.sub_diag]. apply nth_error_None in H. congruence.
Qed.
Lemma oget_inv k s : oinv s -> let '(r, s') := obank_get gen k s in oinv s' /\ (forall v, otab s k = Some (Some v) -> r = Ok v /\ s' = s) /\
  (forall k' v, otab s k' = Some (Some v) -> otab s' k' = Some (Some v)) /\ (forall v, r = Ok v -> otab s' k = Some (Some v)) /\ (exists l, ocalls s' = ocalls s ++ l) /\
  ((exists v, r = Ok v) \/ exists n, nth_error (ocalls s') n = Some k /\ gen n k = match r with Throw => Throw | _ => UB end).
Proof.
  intro I. unfold obank_get. assert (Ik := I k). destruct (otab s k) as [[v|]|] eqn:E; [|destruct Ik|].
  - cbn [deref]. split; [assumption|]. split; [intros u Q; injection Q as <-; auto|]. split; [auto|]. split; [intros u Q; injection Q as <-; assumption|]. split; [exists []; now rewrite app_nil_r|left; eauto].
  - assert (Keep : forall s', ocalls s' = ocalls s ++ [k] -> (forall k', k' <> k -> otab s' k' = otab s k') ->
       (match otab s' k with None => forall p, gen (length (ocalls s)) k <> Ok p | Some None => False | Some (Some v) => gen (length (ocalls s)) k = Ok (Some v) end) -> oinv s').
    { intros s' Ec Eo Em k'. destruct (Z.eq_dec k' k) as [->|N].
      - destruct (otab s' k) as [[v|]|]; [|assumption|].
        + exists (length (ocalls s)). rewrite Ec. split; [apply nth_error_snoc; auto|]. split; [assumption|]. intros n' p Hn Hg. apply nth_error_snoc in Hn as [Hn|[-> _]]; [|reflexivity]. now apply Ik in Hg.
        + intros n Hn. rewrite Ec in Hn. apply nth_error_snoc in Hn as [Hn|[-> _]]; [now apply Ik|assumption].
      - specialize (I k'). rewrite (Eo k' N). destruct (otab s k') as [[v|]|]; [|assumption|].
        + destruct I as (n & Hn & Hg & U). exists n. rewrite Ec. split; [apply nth_error_snoc; auto|]. split; [assumption|]. intros n' p Hn' Hg'. apply nth_error_snoc in Hn' as [Hn'|[_ ?]]; [now apply (U n' p)|congruence].
        + intros n Hn. rewrite Ec in Hn. apply nth_error_snoc in Hn as [Hn|[_ ?]]; [now apply I|congruence]. }
    assert (Lst : nth_error (ocalls s ++ [k]) (length (ocalls s)) = Some k) by (apply nth_error_snoc; auto).
    assert (Up : forall k' v p, otab s k' = Some (Some v) -> upd1 k (Some p) (otab s) k' = Some (Some v)).
    { intros k' v p Q. unfold upd1. destruct (k' =? k) eqn:D; [|assumption]. replace k' with k in Q by lia. congruence. }
    destruct (gen (length (ocalls s)) k) as [[v|]| |] eqn:G.
    + split; [apply Keep; cbn; [reflexivity|intros k' N; unfold upd1; destruct (k' =? k) eqn:D; [lia|reflexivity]|unfold upd1; rewrite Z.eqb_refl; reflexivity]|].
      cbn. split; [congruence|]. split; [intros k' u Q; now apply Up|]. split; [intros u Q; injection Q as <-; unfold upd1; now rewrite Z.eqb_refl|]. split; [now exists [k]|left; eauto].
    + exfalso. eapply nonnull; eassumption.
    + split; [apply Keep; cbn; [reflexivity|reflexivity|rewrite E; intros p Q; congruence]|]. cbn. split; [congruence|]. split; [auto|]. split; [congruence|]. split; [now exists [k]|right; eauto].
    + split; [apply Keep; cbn; [reflexivity|reflexivity|rewrite E; intros p Q; congruence]|]. cbn. split; [congruence|]. split; [auto|]. split; [congruence|]. split; [now exists [k]|right; eauto].
Qed.
Lemma ogets_inv ks : forall s, oinv s -> let '(rs, s') := gets (obank_get gen) ks s in oinv s' /\ (exists l, ocalls s' = ocalls s ++ l) /\
  (forall k v, otab s k = Some (Some v) -> otab s' k = Some (Some v)) /\
  Forall2 (fun k r => (exists v, r = Ok v /\ otab s' k = Some (Some v)) \/ (exists n, nth_error (ocalls s') n = Some k /\ gen n k = match r with Throw => Throw | _ => UB end /\ forall v, r <> Ok v)) ks rs.
Proof.
  induction ks as [|k ks IH]; intros s I; cbn [gets]; [split; [assumption|]; split; [exists []; now rewrite app_nil_r|]; split; [auto|constructor]|].
  assert (H := oget_inv k s I). destruct (obank_get gen k s) as [r s1]. destruct H as (I1 & A & B & C & (l1 & El1) & D). specialize (IH s1 I1). destruct (gets _ ks s1) as [rs s2].
  destruct IH as (I2 & (l2 & El2) & K & F). split; [assumption|]. split; [exists (l1 ++ l2); now rewrite El2, El1, app_assoc|]. split; [auto|]. constructor; [|exact F].
  destruct r as [v| |]; [left; exists v; split; [reflexivity|]; apply K; now apply C| |];
    (right; destruct D as [(v & Q)|(n & Hn & Hg)]; [discriminate|]; exists n; split; [rewrite El2; rewrite nth_error_app1; [assumption|]; apply nth_error_Some; congruence|]; split; [assumption|congruence]).
Qed.
End P.
Lemma obank0_inv {V} gen : oinv gen (obank0 (V := V)). Proof. intro k. cbn. intros n H. destruct n; discriminate. Qed.

(* C41 *)
(* any generator that never returns null: for every sequence of look-ups, a look-up that succeeds gives what the
   one successful call of the generator for that key gave, and one that fails does so because the generator did *)
Theorem C41_object_bank : forall (V : Type) (gen : nat -> Z -> res (option V)) ks, (forall n k, gen n k <> Ok None) ->
  exists rs s, gets (obank_get gen) ks obank0 = (rs, s) /\
  Forall2 (fun k r =>
    match r with
    | Ok v => exists n, nth_error (ocalls s) n = Some k /\ gen n k = Ok (Some v) /\ forall n' p, nth_error (ocalls s) n' = Some k -> gen n' k = Ok p -> n' = n
    | Throw => exists n, nth_error (ocalls s) n = Some k /\ gen n k = Throw
    | UB => exists n, nth_error (ocalls s) n = Some k /\ gen n k = UB
    end) ks rs.
Proof.
  intros V gen ks N. assert (H := ogets_inv gen N ks obank0 (obank0_inv gen)). destruct (gets _ ks obank0) as [rs s]. destruct H as (I & _ & _ & F). exists rs, s. split; [reflexivity|].
  eapply F2_impl; [|exact F]. cbn. intros k r [(v & -> & E)|(n & Hn & Hg & Nv)].
  - specialize (I k). rewrite E in I. exact I.
  - destruct r as [v| |]; [destruct (Nv v eq_refl)|eauto|eauto].
Qed.
Print Assumptions C41_object_bank.
(* if the generator always returns, it runs at most once per key, and equal keys get equal answers *)
Theorem C41_object_bank_total : forall (V : Type) (g : nat -> Z -> V) ks,
  exists vs s, gets (obank_get (fun n k => Ok (Some (g n k)))) ks obank0 = (map Ok vs, s) /\ NoDup (ocalls s) /\ (forall k, In k (ocalls s) <-> In k ks) /\
  length vs = length ks /\ forall i j k v w, nth_error ks i = Some k -> nth_error ks j = Some k -> nth_error vs i = Some v -> nth_error vs j = Some w -> v = w.
Proof.
  intros V g ks. set (gen := fun n k => Ok (Some (g n k))). assert (N : forall n k, gen n k <> Ok None) by (intros; discriminate).
  assert (H := ogets_inv gen N ks obank0 (obank0_inv gen)). destruct (gets _ ks obank0) as [rs s] eqn:E. destruct H as (I & _ & _ & F).
  assert (F' : Forall2 (fun k r => exists v, r = Ok v /\ otab s k = Some (Some v)) ks rs).
  { eapply F2_impl; [|exact F]. cbn. intros k r [H|(n & _ & Hg & _)]; [assumption|]. unfold gen in Hg. destruct r; discriminate. }
  assert (Hv : exists vs, rs = map Ok vs /\ Forall2 (fun k v => otab s k = Some (Some v)) ks vs).
  { clear - F'. induction F' as [|k r ks rs (v & -> & E) _ (vs & -> & IH)]; [exists []; split; [reflexivity|constructor]|]. exists (v :: vs). split; [reflexivity|constructor; assumption]. }
  destruct Hv as (vs & -> & Fv). exists vs, s. split; [reflexivity|]. split; [|split; [|split]].
  - apply NoDup_nth_error. intros i j Hi Hij. destruct (nth_error (ocalls s) i) as [k|] eqn:Ei; [|apply nth_error_Some in Hi; congruence].
    specialize (I k). destruct (otab s k) as [[v|]|]; [|destruct I|].
    + destruct I as (n & _ & _ & U). rewrite (U i (Some (g i k)) Ei eq_refl). symmetry in Hij. now rewrite (U j (Some (g j k)) Hij eq_refl).
    + exfalso. now apply (I i Ei (Some (g i k))).
  - intro k. split.
    + assert (Sub : forall ks s0 rs s', gets (obank_get gen) ks s0 = (rs, s') -> incl (ocalls s') (ocalls s0 ++ ks)).
      { clear. induction ks as [|k ks IH]; intros s0 rs s' E; cbn [gets] in E; [injection E as <- <-; rewrite app_nil_r; apply incl_refl|].
        destruct (obank_get gen k s0) as [r s1] eqn:G. destruct (gets _ ks s1) as [rs1 s2] eqn:E1. injection E as <- <-. apply IH in E1.
        assert (Hs : incl (ocalls s1) (ocalls s0 ++ [k])). { unfold obank_get in G. cbn in G. destruct (otab s0 k); injection G as <- <-; cbn; [apply incl_appl, incl_refl|apply incl_refl]. }
        intros x Hx. apply E1 in Hx. apply in_app_iff in Hx as [Hx|Hx]; [apply Hs in Hx; apply in_app_iff in Hx as [Hx|[->|[]]]|]; apply in_app_iff; cbn; auto. }
      intro H. apply Sub in E. apply E in H. exact H.
    + intro H. apply In_nth_error in H as (i & Hi).
      assert (exists v, otab s k = Some (Some v)) as (v & Ev). { clear - Fv Hi. revert i Hi. induction Fv as [|k0 v ks vs E _ IH]; intros [|i] Hi; try discriminate; cbn in Hi; [injection Hi as <-; eauto|eauto]. }
      specialize (I k). rewrite Ev in I. destruct I as (n & Hn & _). eapply nth_error_In; eassumption.
  - clear - Fv. induction Fv; cbn; congruence.
  - assert (Hn : forall i k v, nth_error ks i = Some k -> nth_error vs i = Some v -> otab s k = Some (Some v)).
    { clear - Fv. induction Fv as [|k0 v0 ks vs E _ IH]; intros [|i] k v Hk Hv; try discriminate; cbn in *; [congruence|eauto]. }
    intros i j k v w Hi Hj Hv Hw. assert (A := Hn i k v Hi Hv). assert (B := Hn j k w Hj Hw). congruence.
Qed.
Print Assumptions C41_object_bank_total.
(* a generator that counts its calls, and fails the second time *)
Example C41_object_bank_case : let gen := fun n k => if Nat.eqb n 1 then Throw else Ok (Some (10 * k + Z.of_nat n)) in
  (forall n k, gen n k <> Ok None) /\ fst (gets (obank_get gen) [3; 4; 3; 4; 4; 3] obank0) = [Ok 30; Throw; Ok 30; Ok 42; Ok 42; Ok 30] /\
  ocalls (snd (gets (obank_get gen) [3; 4; 3; 4; 4; 3] obank0)) = [3; 4; 4].
Proof. split; [intros n k; cbn; destruct (Nat.eqb n 1); discriminate|split; reflexivity]. Qed.

(* once and cachedF: the first call that returns is kept for ever, and is the last one *)
Theorem C41_once : forall (V : Type) (gen : nat -> res V) d n, exists rs s, gets (fun _ : unit => once_get gen) (repeat tt n) (Once false d 0) = (rs, s) /\
  forall i r, nth_error rs i = Some r ->
    match r with
    | Ok v => exists c, (c <= i)%nat /\ gen c = Ok v /\ (forall c', (c' < c)%nat -> forall u, gen c' <> Ok u) /\ oncalls s = S c
    | Throw => gen i = Throw
    | UB => gen i = UB
    end.
Proof.
  intros V gen d n.
  assert (Don : forall n v c, gets (fun _ : unit => once_get gen) (repeat tt n) (Once true v c) = (repeat (Ok v) n, Once true v c)).
  { clear n. induction n as [|m IH]; intros v c; cbn; [reflexivity|]. now rewrite IH. }
  assert (H : forall n c d, (forall c', (c' < c)%nat -> forall u, gen c' <> Ok u) -> exists rs s, gets (fun _ : unit => once_get gen) (repeat tt n) (Once false d c) = (rs, s) /\
    forall i r, nth_error rs i = Some r -> match r with
    | Ok v => exists c', (c' <= c + i)%nat /\ gen c' = Ok v /\ (forall c'', (c'' < c')%nat -> forall u, gen c'' <> Ok u) /\ oncalls s = S c'
    | Throw => gen (c + i)%nat = Throw | UB => gen (c + i)%nat = UB end).
  { clear n d. induction n as [|n IH]; intros c d Hc; cbn [repeat gets]; [exists [], (Once false d c); split; [reflexivity|]; intros [|i] r Q; discriminate|].
    unfold once_get at 1. cbn [odone oncalls oval].
    destruct (gen c) as [v| |] eqn:G.
    - rewrite Don. eexists. eexists. split; [reflexivity|]. intros i r Q. assert (r = Ok v) as ->.
      { destruct i; cbn in Q; [congruence|]. apply nth_error_In, repeat_spec in Q. assumption. }
      exists c. repeat split; auto; lia.
    - destruct (IH (S c) d) as (rs & s & E & H). { intros c' Hc' u. destruct (Nat.eq_dec c' c) as [->|]; [congruence|apply Hc; lia]. }
      rewrite E. exists (Throw :: rs), s. split; [reflexivity|]. intros [|i] r Q; cbn in Q; [injection Q as <-; now rewrite Nat.add_0_r|]. specialize (H i r Q). now rewrite Nat.add_succ_r.
    - destruct (IH (S c) d) as (rs & s & E & H). { intros c' Hc' u. destruct (Nat.eq_dec c' c) as [->|]; [congruence|apply Hc; lia]. }
      rewrite E. exists (UB :: rs), s. split; [reflexivity|]. intros [|i] r Q; cbn in Q; [injection Q as <-; now rewrite Nat.add_0_r|]. specialize (H i r Q). now rewrite Nat.add_succ_r. }
  destruct (H n O d) as (rs & s & E & A); [intros; lia|]. exists rs, s. split; [exact E|]. exact A.
Qed.
Print Assumptions C41_once.
Example C41_once_case : fst (gets (fun _ : unit => once_get (fun n => if Nat.eqb n 0 then Throw else Ok (7 + Z.of_nat n))) (repeat tt 4) (Once false 0 0)) = [Throw; Ok 8; Ok 8; Ok 8].
Proof. reflexivity. Qed.
(* oncep and cachedf: the same, for generators that never return null *)
Theorem C41_oncep : forall (V : Type) (gen : nat -> res (option V)) n, (forall c, gen c <> Ok None) ->
  exists rs s, gets (fun _ : unit => oncep_get gen) (repeat tt n) oncep0 = (rs, s) /\
  forall i r, nth_error rs i = Some r ->
    match r with
    | Ok v => exists c, (c <= i)%nat /\ gen c = Ok (Some v) /\ (forall c', (c' < c)%nat -> forall u, gen c' <> Ok u) /\ pcalls s = S c
    | Throw => gen i = Throw
    | UB => gen i = UB
    end.
Proof.
  intros V gen n Nn.
  assert (Don : forall n v c, gets (fun _ : unit => oncep_get gen) (repeat tt n) (Oncep (Some v) c) = (repeat (Ok v) n, Oncep (Some v) c)).
  { clear n. induction n as [|m IH]; intros v c; cbn; [reflexivity|]. now rewrite IH. }
  assert (H : forall n c, (forall c', (c' < c)%nat -> forall u, gen c' <> Ok u) -> exists rs s, gets (fun _ : unit => oncep_get gen) (repeat tt n) (Oncep None c) = (rs, s) /\
    forall i r, nth_error rs i = Some r -> match r with
    | Ok v => exists c', (c' <= c + i)%nat /\ gen c' = Ok (Some v) /\ (forall c'', (c'' < c')%nat -> forall u, gen c'' <> Ok u) /\ pcalls s = S c'
    | Throw => gen (c + i)%nat = Throw | UB => gen (c + i)%nat = UB end).
  { clear n. induction n as [|n IH]; intros c Hc; cbn [repeat gets]; [exists [], (Oncep None c); split; [reflexivity|]; intros [|i] r Q; discriminate|].
    unfold oncep_get at 1. cbn [pobj pcalls].
    destruct (gen c) as [[v|]| |] eqn:G.
    - rewrite Don. eexists. eexists. split; [reflexivity|]. intros i r Q. assert (r = Ok v) as ->.
      { destruct i; cbn in Q; [congruence|]. apply nth_error_In, repeat_spec in Q. assumption. }
      exists c. repeat split; auto; lia.
    - destruct (Nn c G).
    - destruct (IH (S c)) as (rs & s & E & H). { intros c' Hc' u. destruct (Nat.eq_dec c' c) as [->|]; [congruence|apply Hc; lia]. }
      rewrite E. exists (Throw :: rs), s. split; [reflexivity|]. intros [|i] r Q; cbn in Q; [injection Q as <-; now rewrite Nat.add_0_r|]. specialize (H i r Q). now rewrite Nat.add_succ_r.
    - destruct (IH (S c)) as (rs & s & E & H). { intros c' Hc' u. destruct (Nat.eq_dec c' c) as [->|]; [congruence|apply Hc; lia]. }
      rewrite E. exists (UB :: rs), s. split; [reflexivity|]. intros [|i] r Q; cbn in Q; [injection Q as <-; now rewrite Nat.add_0_r|]. specialize (H i r Q). now rewrite Nat.add_succ_r. }
  destruct (H n O) as (rs & s & E & A); [intros; lia|]. exists rs, s. split; [exact E|]. exact A.
Qed.
Print Assumptions C41_oncep.
Example C41_oncep_case : fst (gets (fun _ : unit => oncep_get (fun n => Ok (Some (7 + Z.of_nat n)))) (repeat tt 3) oncep0) = [Ok 7; Ok 7; Ok 7].
Proof. reflexivity. Qed.

(* what fails: an object bank made by its default constructor dereferences null on every look-up; *)
Theorem C41_default_bank_refuted : forall (V : Type) k ks, exists rs s, gets (obank_get (V := V) obank_default) (k :: ks) obank0 = (UB :: rs, s).
Proof. intros V k ks. cbn [gets]. unfold obank_get at 1. cbn. destruct (gets _ ks _) as [rs s]. eauto. Qed.
Print Assumptions C41_default_bank_refuted.
(* a generator that returns null is run again by oncep and cachedf; *)
Theorem C41_null_runs_again_refuted : exists s, gets (fun _ : unit => oncep_get (fun n => Ok (if Nat.eqb n 2 then Some 5 else None))) (repeat tt 4) oncep0 = ([Throw; Throw; Ok 5; Ok 5], s) /\ pcalls s = 3%nat.
Proof. eexists. split; reflexivity. Qed.
Print Assumptions C41_null_runs_again_refuted.
(* and cachedf built from a function returning a value has undefined behaviour on its first call *)
Theorem C41_cachedf_reference_refuted : forall (V : Type) (gen : nat -> res V), fst (oncep_get (cachedf_of gen) oncep0) = UB.
Proof. reflexivity. Qed.
Print Assumptions C41_cachedf_reference_refuted.
