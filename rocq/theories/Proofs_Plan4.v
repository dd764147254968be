(* Proofs_Plan4.v -- trees of contractions: the list of trees, levels, components *)
From Coq Require Import Ascii Sorted Permutation Relations.
From Verif Require Import Base BaseFacts Model_Plan Spec_Plan Proofs_Plan Proofs_Plan2 Proofs_Plan3.
Import ListNotations.
Local Open Scope nat_scope.

(* ---- all orders ---- *)
Lemma erase_perm i rem : i < length rem -> Permutation (nth i rem 0 :: erase_nth i rem) rem.
Proof.
  revert i. induction rem as [|a rem IH]; intros i H; [cbn in H; lia|]. destruct i as [|i]; [reflexivity|]. cbn [nth]. unfold erase_nth in *. cbn [firstn app] in *. cbn [length] in H. change (skipn (S (S i)) (a :: rem)) with (skipn (S i) rem). rewrite perm_swap. constructor. apply IH. lia.
Qed.
Lemma erase_len i rem : i < length rem -> length (erase_nth i rem) = pred (length rem).
Proof. intro H. pose proof (Permutation_length (erase_perm i rem H)) as E. cbn in E. lia. Qed.
Lemma perm_pick c cs rem : Permutation (c :: cs) rem -> exists i, i < length rem /\ nth i rem 0 = c /\ Permutation cs (erase_nth i rem).
Proof.
  intro P. assert (H : In c rem) by (eapply Permutation_in; [exact P|now left]). destruct (In_nth rem c 0 H) as (i & Hi & E). exists i. split; [assumption|]. split; [assumption|]. apply (Permutation_cons_inv (a := c)). rewrite P. rewrite <- E. symmetry. now apply erase_perm.
Qed.
Definition distinct (l : list ctr) : Prop := forall i j a b, i < j -> nth_error l i = Some a -> nth_error l j = Some b -> levelwise_equal b a = false.
Lemma step_eq place path t c (rem1 : list nat) : forall x t1, add_contraction (place (path ++ [c])) c t = (x, t1) ->
  forall cs, length cs = length rem1 -> run place path t (c :: cs) = run place (path ++ [c]) (if (S (length rem1) =? 1)%nat then Ctr (Some x) (frontier t1) (levels t1) else t1) cs.
Proof. intros x t1 E cs L. cbn [run]. rewrite E. destruct cs as [|d cs], rem1 as [|r rem1]; try discriminate; reflexivity. Qed.
Lemma build_spec n : forall place path t rem trees, length rem = n -> distinct trees ->
  exists new, build_trees n place path t rem trees = trees ++ new /\
    (forall x, In x new -> exists cs, Permutation cs rem /\ x = run place path t cs) /\
    (forall cs, Permutation cs rem -> (exists x, In x (trees ++ new) /\ levelwise_equal (run place path t cs) x = true) \/ In (run place path t cs) new) /\
    distinct (trees ++ new).
Proof.
  induction n as [|n IH]; intros place path t rem trees L D.
  - destruct rem; [|discriminate]. cbn [build_trees]. destruct (existsb (levelwise_equal t) trees) eqn:E.
    + exists []. rewrite app_nil_r. repeat split; auto; [intros x []|]. intros cs P. apply Permutation_sym, Permutation_nil in P. subst cs. left. apply existsb_exists in E. exact E.
    + exists [t]. repeat split; auto.
      * intros x [<-|[]]. exists []. split; [constructor|reflexivity].
      * intros cs P. apply Permutation_sym, Permutation_nil in P. subst cs. right. now left.
      * intros i j a b Hij Ha Hb. assert (Hj : j < length (trees ++ [t])) by (apply nth_error_Some; congruence). rewrite app_length in Hj. cbn in Hj. destruct (Nat.eq_dec j (length trees)) as [->|Hn].
        -- rewrite nth_error_app2, Nat.sub_diag in Hb by lia. cbn in Hb. injection Hb as <-. rewrite nth_error_app1 in Ha by lia. apply nth_error_In in Ha. destruct (levelwise_equal t a) eqn:X; [|reflexivity]. exfalso. assert (existsb (levelwise_equal t) trees = true) by (apply existsb_exists; eauto). congruence.
        -- rewrite nth_error_app1 in Ha by lia. rewrite nth_error_app1 in Hb by lia. now apply (D i j).
  - destruct rem as [|r0 rem0]; [discriminate|]. set (rem := r0 :: rem0) in *. cbn [build_trees]. change (match rem with [] => _ | _ => ?x end) with x.
    assert (G : forall is, (forall i, In i is -> i < length rem) -> forall trees, distinct trees -> exists new,
      fold_left (fun trees i => let c := nth i rem 0 in let '(x, t1) := add_contraction (place (path ++ [c])) c t in
               let t2 := if (length rem =? 1)%nat then Ctr (Some x) (frontier t1) (levels t1) else t1 in
               build_trees n place (path ++ [c]) t2 (erase_nth i rem) trees) is trees = trees ++ new /\
        (forall x, In x new -> exists cs, Permutation cs rem /\ x = run place path t cs) /\
        (forall i cs, In i is -> Permutation cs (erase_nth i rem) -> (exists x, In x (trees ++ new) /\ levelwise_equal (run place path t (nth i rem 0 :: cs)) x = true) \/ In (run place path t (nth i rem 0 :: cs)) new) /\
        distinct (trees ++ new)).
    { clear trees D. induction is as [|i is IHi]; intros Hi trees D; cbn [fold_left].
      - exists []. rewrite app_nil_r. split; [reflexivity|]. split; [intros x []|]. split; [intros i cs []|assumption].
      - destruct (add_contraction (place (path ++ [nth i rem 0])) (nth i rem 0) t) as [x t1] eqn:Ea. cbv zeta in IHi |- *. set (t2 := if (length rem =? 1)%nat then Ctr (Some x) (frontier t1) (levels t1) else t1).
        assert (Hil : i < length rem) by (apply Hi; now left). pose proof (erase_len i rem Hil) as Le.
        assert (ST : forall cs, length cs = n -> run place path t (nth i rem 0 :: cs) = run place (path ++ [nth i rem 0]) t2 cs).
        { intros cs Lc. unfold t2. rewrite L. rewrite (step_eq place path t (nth i rem 0) (erase_nth i rem) x t1 Ea) by (rewrite Le, L; exact Lc). rewrite Le, L. reflexivity. }
        destruct (IH place (path ++ [nth i rem 0]) t2 (erase_nth i rem) trees ltac:(rewrite Le, L; reflexivity) D) as (n1 & E1 & A1 & B1 & D1). rewrite E1.
        destruct (IHi ltac:(intros; apply Hi; now right) (trees ++ n1) D1) as (n2 & E2 & A2 & B2 & D2). exists (n1 ++ n2). rewrite E2, app_assoc. split; [reflexivity|]. split; [|split; [|assumption]].
        + intros y Hy. apply in_app_iff in Hy. destruct Hy as [Hy|Hy]; [|auto]. destruct (A1 y Hy) as (cs & P & Ey). exists (nth i rem 0 :: cs). assert (Lc : length cs = n) by (rewrite (Permutation_length P), Le, L; reflexivity). split; [rewrite P; now apply erase_perm|]. rewrite ST by assumption. exact Ey.
        + intros i' cs [<-|Hi'] P.
          * assert (Lc : length cs = n) by (rewrite (Permutation_length P), Le, L; reflexivity). rewrite ST by assumption. destruct (B1 cs P) as [(y & Hy & E)|Hy]; [left; exists y; split; [rewrite in_app_iff; auto|assumption]|right; apply in_app_iff; now left].
          * destruct (B2 i' cs Hi' P) as [H|Hy]; [left; exact H|right; apply in_app_iff; now right]. }
    destruct (G (seq 0 (length rem)) ltac:(intros i Hi; apply in_seq in Hi; lia) trees D) as (new & E & A & B & D'). exists new. split; [exact E|]. split; [exact A|]. split; [|exact D'].
    intros cs P. destruct cs as [|c cs]; [apply Permutation_nil in P; discriminate|]. destruct (perm_pick c cs rem P) as (i & Hi & <- & P'). apply (B i cs); [apply in_seq; lia|assumption].
Qed.
Lemma trees_run place fr rem t : In t (trees_of place fr rem) -> exists cs, Permutation cs rem /\ t = run place [] (Ctr None fr []) cs.
Proof.
  unfold trees_of. destruct (build_spec (length rem) place [] (Ctr None fr []) rem [] eq_refl ltac:(intros [] ? ? ? ? H; discriminate)) as (new & E & A & _ & _). rewrite E. cbn. auto.
Qed.

(* ---- levels ---- *)
Definition lsorted (m : list (nat * list nat)) : Prop := StronglySorted (fun a b => fst a < fst b) m /\ forall l s, In (l, s) m -> StronglySorted lt s /\ s <> [].
Lemma lev_find_in m l s : StronglySorted (fun a b => fst a < fst b) m -> lev_find l m = Some s <-> In (l, s) m.
Proof.
  induction 1 as [|[k v] m H IH F]; cbn [lev_find]; [split; [discriminate|intros []]|]. destruct (Nat.eqb_spec l k) as [->|Hn].
  - split; [injection 1 as ->; now left|]. intros [E|P]; [congruence|]. rewrite Forall_forall in F. specialize (F _ P). cbn in F. lia.
  - rewrite IH. split; [intro; now right|intros [E|P]; [congruence|assumption]].
Qed.
Lemma lev_insert_keys l c m a : In a (map fst (lev_insert l c m)) <-> a = l \/ In a (map fst m).
Proof.
  induction m as [|[k s] m IH]; cbn [lev_insert map fst In]; [intuition|]. destruct (Nat.eqb_spec l k) as [->|]; [cbn [map fst In]; intuition|]. destruct (l <? k)%nat; cbn [map fst In]; [intuition|]. rewrite IH. intuition.
Qed.
Lemma lev_insert_spec l c m : lsorted m -> lsorted (lev_insert l c m) /\
  forall l' d, (exists s, lev_find l' (lev_insert l c m) = Some s /\ In d s) <-> (l' = l /\ d = c) \/ exists s, lev_find l' m = Some s /\ In d s.
Proof.
  intros [H G]. induction H as [|[k v] m H IH F]; cbn [lev_insert].
  - split; [split; [repeat constructor|intros l0 s [E|[]]; injection E as <- <-; split; [repeat constructor|discriminate]]|]. intros l' d. cbn [lev_find]. destruct (Nat.eqb_spec l' l) as [->|Hn].
    + split; [intros (s & E & Hd); injection E as <-; destruct Hd as [<-|[]]; auto|intros [[_ ->]|(s & E & _)]; [exists [c]; cbn; auto|discriminate]].
    + split; [intros (s & E & _); discriminate|intros [[E _]|(s & E & _)]; [contradiction|discriminate]].
  - destruct (IH ltac:(intros l0 s Hs; apply (G l0 s); now right)) as [[J1 J2] J3]. destruct (Nat.eqb_spec l k) as [->|Hn]; [|destruct (Nat.ltb_spec l k)].
    + split; [split|].
      * constructor; assumption.
      * intros l0 s [E|P]; [injection E as <- <-|apply (G l0 s); now right]. destruct (G k v (or_introl eq_refl)) as [G1 _]. split; [now apply set_insert_sorted|]. intro E. assert (X : In c (set_insert c v)) by (apply set_insert_in; auto). rewrite E in X. destruct X.
      * intros l' d. cbn [lev_find]. destruct (Nat.eqb_spec l' k) as [->|Hn].
        -- split; [intros (s & E & Hd); injection E as <-; apply set_insert_in in Hd; destruct Hd as [->|Hd]; [auto|right; exists v; auto]|].
           intros [[_ ->]|(s & E & Hd)]; [exists (set_insert c v); split; [reflexivity|apply set_insert_in; auto]|injection E as <-; exists (set_insert c v); split; [reflexivity|apply set_insert_in; auto]].
        -- split; [auto|intros [[E _]|P]; [contradiction|exact P]].
    + split; [split|].
      * constructor; [now constructor|]. constructor; [assumption|]. eapply Forall_impl; [|exact F]. cbn. intros; lia.
      * intros l0 s [E|P]; [injection E as <- <-; split; [repeat constructor|discriminate]|now apply (G l0 s)].
      * intros l' d. cbn [lev_find]. destruct (Nat.eqb_spec l' l) as [->|Hn'].
        -- split; [intros (s & E & Hd); injection E as <-; destruct Hd as [<-|[]]; auto|]. intros [[_ ->]|(s & E & Hd)]; [exists [c]; cbn; auto|]. exfalso. destruct (Nat.eqb_spec l k); [lia|]. apply lev_find_in in E; [|assumption]. rewrite Forall_forall in F. specialize (F _ E). cbn in F. lia.
        -- split; [auto|intros [[E _]|P]; [contradiction|exact P]].
    + split; [split|].
      * constructor; [exact J1|]. apply Forall_forall. intros [a s] Hp. assert (Ha : In a (map fst (lev_insert l c m))) by (apply in_map_iff; exists (a, s); auto). apply lev_insert_keys in Ha. cbn. destruct Ha as [->|Ha]; [lia|]. apply in_map_iff in Ha. destruct Ha as ([a' s'] & <- & Q). rewrite Forall_forall in F. exact (F _ Q).
      * intros l0 s [E|P]; [injection E as <- <-; apply (G k v); now left|now apply (J2 l0 s)].
      * intros l' d. cbn [lev_find]. destruct (Nat.eqb_spec l' k) as [->|Hn'].
        -- split; [auto|intros [[E _]|P]; [congruence|exact P]].
        -- apply J3.
Qed.
Lemma nats_eqb_eq a b : nats_eqb a b = true <-> a = b.
Proof. revert b. induction a as [|x a IH]; intros [|y b]; cbn [nats_eqb]; try (split; congruence). rewrite andb_true_iff, IH, Nat.eqb_eq. split; [intros [-> ->]; reflexivity|injection 1; auto]. Qed.
Lemma same_levels_lists m1 m2 : StronglySorted (fun a b : nat * list nat => fst a < fst b) m1 -> StronglySorted (fun a b => fst a < fst b) m2 ->
  (forall p, In p m1 -> In p m2) -> length m1 = length m2 -> m1 = m2.
Proof.
  intros H1 H2 I L. assert (ND : forall m : list (nat * list nat), StronglySorted (fun a b => fst a < fst b) m -> NoDup m). { induction 1 as [|p m H IH F]; constructor; [|assumption]. intro P. rewrite Forall_forall in F. specialize (F _ P). lia. }
  assert (I' : forall p, In p m2 -> In p m1) by (apply (NoDup_length_incl (ND _ H1)); [lia|exact I]).
  clear L ND. revert m2 H2 I I'. induction H1 as [|p m1 H1 IH F1]; intros m2 H2 I I'; [destruct m2 as [|q m2]; [reflexivity|destruct (I' q); now left]|].
  destruct m2 as [|q m2]; [destruct (I p); now left|]. inversion H2 as [|? ? H2' F2]; subst. rewrite Forall_forall in *.
  assert (p = q). { destruct (I p (or_introl eq_refl)) as [E|P]; [auto|]. destruct (I' q (or_introl eq_refl)) as [E|Q]; [auto|]. specialize (F1 _ Q). specialize (F2 _ P). lia. } subst q. f_equal. apply IH; [assumption| |].
  - intros x Hx. destruct (I x (or_intror Hx)) as [<-|P]; [|assumption]. specialize (F1 _ Hx). lia.
  - intros x Hx. destruct (I' x (or_intror Hx)) as [<-|P]; [|assumption]. specialize (F2 _ Hx). lia.
Qed.
Lemma levelwise_spec t x : lsorted (levels t) -> lsorted (levels x) -> levelwise_equal t x = true <-> levels t = levels x.
Proof.
  intros [H1 _] [H2 _]. unfold levelwise_equal. rewrite andb_true_iff, Nat.eqb_eq, forallb_forall. split.
  - intros [L F]. apply same_levels_lists; auto. intros [l s] Hp. specialize (F _ Hp). cbn in F. destruct (lev_find l (levels x)) as [s'|] eqn:E; [|discriminate]. apply nats_eqb_eq in F. subst s'. now apply lev_find_in in E.
  - intro E. rewrite <- E. split; [reflexivity|]. intros [l s] Hp. cbn. apply lev_find_in in Hp; [|assumption]. rewrite Hp. now apply nats_eqb_eq.
Qed.
