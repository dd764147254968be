(* Proofs_Plan5.v -- trees of contractions: what holds after every contraction *)
From Coq Require Import Ascii Sorted Permutation Relations.
From Verif Require Import Base BaseFacts Model_Plan Spec_Plan Proofs_Plan Proofs_Plan2 Proofs_Plan3 Proofs_Plan4.
Import ListNotations.
Local Open Scope nat_scope.

Lemma free_arg x i : free x i -> exists id ix, below (CArg id ix) x /\ In i ix /\ In id (args_of x).
Proof.
  induction 1 as [id ix i H|c ch ix e n lv x i Hx F IH Hn]; [exists id, ix; repeat split; [constructor|assumption|now left]|]. destruct IH as (id & ix' & B & Hi & A). exists id, ix'. repeat split; [now apply b_child with (x := x)|assumption|]. cbn. apply in_flat_map. eauto.
Qed.
Lemma linked_more al D D' i j : (forall c, In c D -> In c D') -> linked al D i j -> linked al D' i j.
Proof. intro H. unfold linked. induction 1 as [x y (c & a & b & Hc & R)|x|x y _ IH|x y z _ IH1 _ IH2]; [apply rst_step; exists c, a, b; split; [auto|exact R]|apply rst_refl|now apply rst_sym|now apply rst_trans with y]. Qed.
Record inv (al : list (list nat)) (D : list nat) (t : ctr) : Prop := Inv {
  i_wf : forall x, In x (frontier t) -> wf x;
  i_ls : lsorted (levels t);
  i_lv : forall l c, (exists s, lev_find l (levels t) = Some s /\ In c s) <-> made_at (frontier t) l c;
  i_args : Permutation (flat_map args_of (frontier t)) (seq 1 (length al));
  i_cons : Permutation (flat_map cons_of (frontier t)) D;
  i_leaf : forall x id ix, In x (frontier t) -> below (CArg id ix) x -> 1 <= id /\ nth_error al (pred id) = Some ix;
  i_gone : forall c x, In c D -> In x (frontier t) -> ~ free x c;
  i_open : forall x j a i, In x (frontier t) -> In (S j) (args_of x) -> nth_error al j = Some a -> In i a -> free x i \/ In i D;
  i_link : forall x i j, In x (frontier t) -> In (S i) (args_of x) -> In (S j) (args_of x) -> linked al D i j;
  i_join : forall c i j a b, In c D -> nth_error al i = Some a -> nth_error al j = Some b -> In c a -> In c b -> exists x, In x (frontier t) /\ In (S i) (args_of x) /\ In (S j) (args_of x) }.
Lemma in_insert k x l y : In y (insert_at k x l) <-> y = x \/ In y l.
Proof. split; intro H; [apply (Permutation_in y (insert_perm k x l)) in H; destruct H; auto|apply (Permutation_in y (Permutation_sym (insert_perm k x l))); destruct H; [left; auto|now right]]. Qed.
Lemma flat_split {B} (f : cnode -> list B) (p : cnode -> bool) l : Permutation (flat_map f (filter p l) ++ flat_map f (filter (fun x => negb (p x)) l)) (flat_map f l).
Proof. rewrite <- flat_map_app. apply Permutation_flat_map. apply filter_perm. Qed.
Lemma inv_step al D t place c : inv al D t -> inv al (c :: D) (snd (add_contraction place c t)).
Proof.
  intros [W LS LV AR CO LF GO OP LK JN]. cbn [add_contraction snd]. set (ch := filter (n_has c) (frontier t)). set (rest := filter (fun p => negb (n_has c p)) (frontier t)). set (x := con_node c ch).
  assert (Hch : forall y, In y ch <-> In y (frontier t) /\ free y c). { intro y. unfold ch. rewrite filter_In. split; intros [H1 H2]; (split; [assumption|]); apply has_free; auto. }
  assert (Hre : forall y, In y rest <-> In y (frontier t) /\ ~ free y c). { intro y. unfold rest. rewrite filter_In, negb_true_iff. split; intros [H1 H2]; (split; [assumption|]). - intro F. apply has_free in F; [congruence|auto]. - destruct (n_has c y) eqn:E; [|reflexivity]. apply has_free in E; [contradiction|auto]. }
  assert (Wx : wf x). { apply wf_con. intros y Hy. split; [apply W; now apply Hch|]. unfold ch in Hy. now apply filter_In in Hy. }
  assert (Hfr : forall y, In y (frontier t) -> In y ch \/ In y rest). { intros y Hy. destruct (n_has c y) eqn:E; [left; apply Hch; split; [assumption|apply has_free; auto]|right; apply Hre; split; [assumption|intro F; apply has_free in F; [congruence|auto]]]. }
  assert (Bx : forall y, below y x <-> y = x \/ exists z, In z ch /\ below y z). { intro y. unfold x, con_node. split; [inversion 1; subst; [auto|right; eauto]|]. intros [->|(z & Hz & Hb)]; [constructor|econstructor; eassumption]. }
  assert (Ax : args_of x = flat_map args_of ch) by reflexivity.
  assert (Fx : forall i, free x i <-> i <> c /\ exists z, In z ch /\ free z i). { intro i. unfold x, con_node. split; [inversion 1; subst; split; [assumption|eauto]|]. intros [Hn (z & Hz & Hf)]. econstructor; eassumption. }
  destruct (lev_insert_spec (n_lv x) c (levels t) LS) as [LS' LV'].
  assert (NX : forall z, In z ch -> exists k a, In (S k) (args_of z) /\ nth_error al k = Some a /\ In c a).
  { intros z Hz. apply Hch in Hz. destruct Hz as [Hz Hf]. destruct (free_arg _ _ Hf) as (id & ix & B & Hi & A). destruct (LF z id ix Hz B) as [H1 H2]. exists (pred id), ix. replace (S (pred id)) with id by lia. auto. }
  constructor; cbn [frontier levels].
  - intros y Hy. apply in_insert in Hy. destruct Hy as [->|Hy]; [exact Wx|apply W; now apply Hre].
  - exact LS'.
  - intros l d. rewrite LV', LV. split.
    + intros [[-> ->]|(z & y & ch' & ix & e & n & lv & Hz & Hb & Hy & Hh)].
      * exists x, x, ch. do 4 eexists. split; [apply in_insert; now left|]. split; [constructor|]. split; [reflexivity|]. symmetry. now apply wf_lv.
      * destruct (Hfr z Hz) as [Hz'|Hz'].
        -- exists x, y, ch', ix, e, n, lv. split; [apply in_insert; now left|]. split; [apply Bx; right; eauto|auto].
        -- exists z, y, ch', ix, e, n, lv. split; [apply in_insert; now right|auto].
    + intros (z & y & ch' & ix & e & n & lv & Hz & Hb & Hy & Hh). apply in_insert in Hz. destruct Hz as [->|Hz].
      * apply Bx in Hb. destruct Hb as [->|(z & Hz & Hb)].
        -- left. unfold x, con_node in Hy. injection Hy as -> _ _ _ _ _. split; [rewrite <- Hh; symmetry; now apply wf_lv|reflexivity].
        -- right. apply Hch in Hz. exists z, y, ch', ix, e, n, lv. intuition.
      * right. apply Hre in Hz. exists z, y, ch', ix, e, n, lv. intuition.
  - rewrite (Permutation_flat_map args_of (insert_perm place x rest)). cbn [flat_map]. rewrite Ax. unfold ch, rest. rewrite flat_split. exact AR.
  - rewrite (Permutation_flat_map cons_of (insert_perm place x rest)). cbn [flat_map]. change (cons_of x) with (c :: flat_map cons_of ch). cbn [app]. constructor. unfold ch, rest. rewrite flat_split. exact CO.
  - intros y id ix Hy Hb. apply in_insert in Hy. destruct Hy as [->|Hy].
    + apply Bx in Hb. destruct Hb as [E|(z & Hz & Hb)]; [discriminate|]. apply (LF z id ix); [now apply Hch|assumption].
    + apply (LF y id ix); [now apply Hre|assumption].
  - intros d y Hd Hy Hf. apply in_insert in Hy. destruct Hy as [->|Hy].
    + apply Fx in Hf. destruct Hf as [Hn (z & Hz & Hf)]. destruct Hd as [->|Hd]; [contradiction|]. apply (GO d z Hd); [now apply Hch|assumption].
    + apply Hre in Hy. destruct Hd as [->|Hd]; [now apply Hy|]. apply (GO d y Hd); [apply Hy|assumption].
  - intros y j a i Hy Hj Ha Hi. apply in_insert in Hy. destruct Hy as [->|Hy].
    + rewrite Ax in Hj. apply in_flat_map in Hj. destruct Hj as (z & Hz & Hj). destruct (Nat.eq_dec i c) as [->|Hn]; [right; now left|]. destruct (OP z j a i ltac:(now apply Hch) Hj Ha Hi) as [F|Hd]; [left; apply Fx; eauto|right; now right].
    + destruct (OP y j a i ltac:(now apply Hre) Hj Ha Hi) as [F|Hd]; [now left|right; now right].
  - intros y i j Hy Hi Hj. apply in_insert in Hy. destruct Hy as [->|Hy].
    + rewrite Ax in Hi, Hj. apply in_flat_map in Hi, Hj. destruct Hi as (z1 & Hz1 & Hi). destruct Hj as (z2 & Hz2 & Hj). destruct (NX z1 Hz1) as (k1 & a1 & K1 & N1 & C1). destruct (NX z2 Hz2) as (k2 & a2 & K2 & N2 & C2).
      apply rst_trans with k1; [apply (linked_more al D); [intros; now right|]; apply (LK z1); auto; now apply Hch|]. apply rst_trans with k2; [|apply (linked_more al D); [intros; now right|]; apply (LK z2); auto; now apply Hch].
      apply rst_step. exists c, a1, a2. split; [now left|auto].
    + apply (linked_more al D); [intros; now right|]. apply (LK y); auto. now apply Hre.
  - assert (OLD : forall i j, (exists y, In y (frontier t) /\ In (S i) (args_of y) /\ In (S j) (args_of y)) -> exists y, In y (insert_at place x rest) /\ In (S i) (args_of y) /\ In (S j) (args_of y)).
    { intros i j (y & Hy & Hi & Hj). destruct (Hfr y Hy) as [Hy'|Hy'].
      - exists x. split; [apply in_insert; now left|]. rewrite Ax. split; apply in_flat_map; eauto.
      - exists y. split; [apply in_insert; now right|auto]. }
    intros d i j a b Hd Ha Hb Ia Ib. destruct Hd as [<-|Hd]; [|apply OLD; now apply (JN d i j a b)].
    destruct (in_dec Nat.eq_dec c D) as [Hc|Hc]; [apply OLD; now apply (JN c i j a b)|].
    assert (FIND : forall k a, nth_error al k = Some a -> In c a -> exists z, In z ch /\ In (S k) (args_of z)).
    { intros k u Hk Hu. assert (In (S k) (flat_map args_of (frontier t))). { apply (Permutation_in _ (Permutation_sym AR)). apply in_seq. assert (k < length al) by (apply nth_error_Some; congruence). lia. }
      apply in_flat_map in H. destruct H as (z & Hz & Hk'). exists z. split; [|assumption]. apply Hch. split; [assumption|]. destruct (OP z k u c Hz Hk' Hk Hu); [assumption|contradiction]. }
    destruct (FIND i a Ha Ia) as (z1 & Z1 & K1). destruct (FIND j b Hb Ib) as (z2 & Z2 & K2). exists x. split; [apply in_insert; now left|]. rewrite Ax. split; apply in_flat_map; eauto.
Qed.
Lemma inv_start al fr : Permutation fr (leaves al) -> inv al [] (Ctr None fr []).
Proof.
  intro P. assert (Hin : forall x, In x fr <-> exists j a, x = CArg (S j) a /\ nth_error al j = Some a).
  { intro x. split.
    - intro H. apply (Permutation_in _ P) in H. unfold leaves in H. apply in_map_iff in H. destruct H as ([j a] & <- & H). apply in_combine_seq in H. exists j, a. cbn. rewrite Nat.sub_0_r in H. now split.
    - intros (j & a & -> & H). apply (Permutation_in _ (Permutation_sym P)). unfold leaves. apply in_map_iff. exists (j, a). split; [reflexivity|]. apply in_combine_seq. rewrite Nat.sub_0_r. split; [lia|assumption]. }
  assert (AO : forall l a, flat_map args_of (map (fun p : nat * list nat => CArg (S (fst p)) (snd p)) (combine (seq a (length l)) l)) = seq (S a) (length l)).
  { induction l as [|u l IH]; intro a; [reflexivity|]. cbn. now rewrite IH. }
  constructor; cbn [frontier levels].
  - intros x Hx y Hy. apply Hin in Hx. destruct Hx as (j & a & -> & _). inversion Hy; subst. exact I.
  - split; [constructor|intros l s []].
  - intros l c. split; [intros (s & E & _); discriminate|]. intros (x & y & ch & ix & e & n & lv & Hx & Hb & Hy & _). apply Hin in Hx. destruct Hx as (j & a & -> & _). inversion Hb; subst; discriminate.
  - rewrite (Permutation_flat_map args_of P). unfold leaves. now rewrite AO.
  - rewrite (Permutation_flat_map cons_of P). unfold leaves. generalize 0. clear. induction al as [|u l IH]; intro n; [constructor|]. cbn. apply IH.
  - intros x id ix Hx Hb. apply Hin in Hx. destruct Hx as (j & a & -> & H). inversion Hb; subst. split; [lia|assumption].
  - intros c x [].
  - intros x j a i Hx Hj Ha Hi. apply Hin in Hx. destruct Hx as (j' & a' & -> & H). destruct Hj as [Hj|[]]. injection Hj as ->. assert (a' = a) by congruence. subst. left. now constructor.
  - intros x i j Hx Hi Hj. apply Hin in Hx. destruct Hx as (j' & a' & -> & H). destruct Hi as [Hi|[]]. destruct Hj as [Hj|[]]. replace j with i by congruence. apply rst_refl.
  - intros c i j a b [].
Qed.
Lemma run_step place path t c cs : run place path t (c :: cs) = run place (path ++ [c]) (match cs with [] => Ctr (Some (fst (add_contraction (place (path ++ [c])) c t))) (frontier (snd (add_contraction (place (path ++ [c])) c t))) (levels (snd (add_contraction (place (path ++ [c])) c t))) | _ => snd (add_contraction (place (path ++ [c])) c t) end) cs.
Proof. cbn [run]. now destruct (add_contraction (place (path ++ [c])) c t) as [x t1]. Qed.
Lemma inv_root al D t r : inv al D t -> inv al D (Ctr r (frontier t) (levels t)).
Proof. intros [W LS LV AR CO LF GO OP LK JN]. constructor; cbn [frontier levels]; assumption. Qed.
Lemma inv_run al cs : forall place path t D, inv al D t -> exists D', Permutation D' (cs ++ D) /\ inv al D' (run place path t cs).
Proof.
  induction cs as [|c cs IH]; intros place path t D H; [exists D; split; [reflexivity|exact H]|]. rewrite run_step. pose proof (inv_step al D t (place (path ++ [c])) c H) as H1.
  set (t1 := match cs with [] => _ | _ => _ end). assert (H2 : inv al (c :: D) t1) by (unfold t1; destruct cs; [now apply inv_root|exact H1]).
  destruct (IH place (path ++ [c]) t1 (c :: D) H2) as (D' & P & I). exists D'. split; [|exact I]. rewrite P. symmetry. apply (Permutation_middle cs D c).
Qed.
(* the root is the last node made *)
Lemma run_root place cs c : forall path t, exists x, root (run place path t (cs ++ [c])) = Some x /\ In x (frontier (run place path t (cs ++ [c]))) /\ exists ch ix e n lv, x = CCon c ch ix e n lv.
Proof.
  induction cs as [|d cs IH]; intros path t; cbn [app]; rewrite run_step.
  - cbn [run root frontier]. eexists. split; [reflexivity|]. cbn [add_contraction fst snd frontier]. split; [apply in_insert; now left|]. unfold con_node. repeat eexists.
  - destruct (cs ++ [c]) as [|a l] eqn:E; [destruct cs; discriminate|]. apply IH.
Qed.
Section Value.
Context {R : cring}.
Context (dim : nat -> Z) (T : nat -> list Z -> R).
Lemma run_value cs : forall place path t e, (forall x, In x (frontier t) -> wf x) -> fval dim T (frontier (run place path t cs)) e = sum_over dim (rev cs) (fval dim T (frontier t)) e.
Proof.
  induction cs as [|c cs IH]; intros place path t e W; [reflexivity|]. rewrite run_step. set (t1 := match cs with [] => _ | _ => _ end).
  assert (F1 : frontier t1 = frontier (snd (add_contraction (place (path ++ [c])) c t))) by (unfold t1; now destruct cs).
  rewrite IH.
  - rewrite F1. cbn [rev]. rewrite sum_snoc. apply sum_ext. intro e'. now apply add_value.
  - rewrite F1. cbn [add_contraction snd frontier]. intros x Hx. apply in_insert in Hx. destruct Hx as [->|Hx].
    + apply wf_con. intros y Hy. apply filter_In in Hy. split; [apply W|]; apply Hy.
    + apply filter_In in Hx. apply W, Hx.
Qed.
Lemma leaves_value al fr e : Permutation fr (leaves al) -> fval dim T fr e = product T 1 al e.
Proof.
  intro P. unfold fval. rewrite (rprod_perm _ _ (Permutation_map _ P)). unfold leaves. clear P. change 1 with (S 0). generalize 0. induction al as [|ix al IH]; intro n; [reflexivity|]. cbn [length seq combine map fst snd product val]. rewrite rprod_cons. now rewrite IH.
Qed.
Lemma trees_value al fr place rem t e : Permutation fr (leaves al) -> In t (trees_of place fr rem) -> rprod (map (fun x => val dim T x e) (frontier t)) = sum_over dim rem (product T 1 al) e.
Proof.
  intros P H. destruct (trees_run _ _ _ _ H) as (cs & Pc & ->). change (fval dim T (frontier (run place [] (Ctr None fr []) cs)) e = sum_over dim rem (product T 1 al) e).
  rewrite run_value by (apply (inv_start al fr P)). rewrite <- (sum_ext dim rem (fval dim T fr) (product T 1 al) e) by (intro; now apply leaves_value). cbn [frontier]. apply sum_perm; [apply fval_proper|]. rewrite <- Pc. apply Permutation_sym, Permutation_rev.
Qed.
End Value.
