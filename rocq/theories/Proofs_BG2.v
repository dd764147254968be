(* Proofs_BG2.v -- for_each_cell_multi: the cells handed to the lambda, sequentially and in parallel. *)
From Verif Require Import Base BaseFacts Model_Index Model_View Spec_Index Proofs_Index Spec_View Proofs_View Model_Threads Spec_Threads Proofs_Threads Model_BG Spec_BG Proofs_BG.
From Coq Require Import Permutation.
Local Open Scope Z_scope.

Lemma dot_zero k : forall ix, dot (repeat 0 k) ix = 0.
Proof. induction k as [|k IH]; intros [|i ix]; cbn [repeat dot]; try reflexivity. rewrite IH. lia. Qed.
Lemma in_range_app a b d e : in_range a d -> in_range b e -> in_range (a ++ b) (d ++ e).
Proof. apply Forall2_app. Qed.
(* the shared view aimed at the computed position is the cell *)
Lemma cell_ok B gd x b ix : joins B gd x -> 0 <= b < B -> in_range ix gd -> exists v p, cell_view x = Ok v /\ cell_pos (Z.of_nat (length gd)) b ix x = Ok p /\
  is_cell x b ix (View (vblk v) p (vdims v) (vstr v)).
Proof.
  intros (b0 & g & c & Hs & Hb & Hg) Rb Rix. destruct (shaped_str _ _ _ _ Hs) as (s & gs & cs & Es & Lg & Lc). assert (Hs' := Hs). destruct Hs' as (Ed & En & Wl & Wn).
  unfold cell_view, cell_pos. rewrite (shaped_cdims _ _ _ _ Hs). cbn [bind].
  assert (Ec : cstrides x = Ok cs).
  { unfold cstrides. rewrite (shaped_has_cells _ _ _ _ Hs). destruct c as [|c0 c]; cbn [nonempty]; [destruct cs; [reflexivity|discriminate]|]. rewrite Es, En, <- Lg. apply chunk_end. }
  rewrite Ec. cbn [bind]. eexists. eexists. split; [reflexivity|]. cbn [vblk vdims vstr].
  assert (Eg : (if has_grid x then gstrides x else Ok (repeat 0 (Z.to_nat (Z.of_nat (length gd))))) = Ok (match g with [] => repeat 0 (length gd) | _ => gs end)).
  { rewrite (shaped_has_grid _ _ _ _ Hs). destruct g as [|g0 g]; cbn [nonempty]; [now rewrite Nat2Z.id|]. unfold gstrides. rewrite En, Es, <- Lg. apply chunk_mid. }
  rewrite Eg. cbn [bind]. rewrite Es. cbn [zget vget nth_error Z.ltb Z.compare Z.to_nat bind]. unfold is_batched. rewrite (shaped_getb _ _ _ _ Hs). cbn [bind].
  assert (Lix := in_range_length _ _ Rix).
  assert (Eo : offs (match g with [] => repeat 0 (length gd) | _ => gs end) ix = Ok (dot gs (match g with [] => [] | _ => ix end))).
  { destruct Hg as [->| ->].
    - rewrite offs_dot by (rewrite repeat_length; lia). rewrite dot_zero. destruct gs; reflexivity.
    - destruct gd as [|d gd]; [destruct ix; [|discriminate]; destruct gs; reflexivity|]. apply offs_dot. congruence. }
  rewrite Eo. cbn [bind]. split; [reflexivity|]. exists b0, g, c. split; [assumption|]. split; [reflexivity|]. split; [split; [exact Lc|cbn [vdims]; rewrite Ed in Wn; inversion Wn as [|? ? _ Wn']; apply Forall_app in Wn'; apply Wn']|].
  intros jx Rj. cbn [vdims] in Rj. set (gi := match g with [] => [] | _ => ix end).
  assert (Rg : in_range gi g). { unfold gi. destruct Hg as [->| ->]; [constructor|]. destruct gd; [constructor|assumption]. }
  assert (Lgi := in_range_length _ _ Rg). assert (Lj := in_range_length _ _ Rj).
  split; [rewrite Ed; constructor; [destruct (b0 =? 1) eqn:?; lia|now apply in_range_app]|].
  unfold vaddr. cbn [vstr vblk voff]. rewrite Es. rewrite !offs_dot by (cbn [length]; rewrite ?app_length; lia). cbn [bind dot]. rewrite dot_app by lia. f_equal. f_equal.
  replace (Z.b2z (1 <? b0)) with (if b0 =? 1 then 0 else 1) by (destruct (b0 =? 1) eqn:?, (1 <? b0) eqn:?; cbn; lia). destruct (b0 =? 1); lia.
Qed.
Lemma slice_cell_ok B x b : joins B [] x -> 0 <= b < B -> exists v, batch_slice b x = Ok v /\ is_cell x b [] v.
Proof.
  intros (b0 & g & c & Hs & Hb & Hg) Rb. assert (g = []) by tauto. subst g. clear Hg. destruct (shaped_str _ _ _ _ Hs) as (s & gs & cs & Es & Lg & Lc). destruct gs; [|discriminate]. cbn [app] in Es. assert (Hs' := Hs). destruct Hs' as (Ed & En & Wl & Wn). cbn [app] in Ed.
  unfold batch_slice, slice. rewrite Ed, Es. cbn [zget vget nth_error Z.ltb Z.compare Z.to_nat bind]. unfold vremove. cbn [length]. replace ((0 <=? 0) && (0 <? Z.of_nat (S (length c)))) with true by lia. replace ((0 <=? 0) && (0 <? Z.of_nat (S (length cs)))) with true by lia. cbn [assrt bind Z.to_nat firstn skipn app].
  eexists. split; [reflexivity|]. exists b0, [], c. split; [assumption|]. split; [reflexivity|]. split; [split; [exact Lc|cbn [vdims]; rewrite Ed in Wn; inversion Wn; assumption]|]. intros jx Rj. cbn [vdims app] in Rj |- *. assert (Lj := in_range_length _ _ Rj).
  split; [rewrite Ed; constructor; [destruct (b0 =? 1) eqn:?; lia|assumption]|]. unfold vaddr. cbn [vstr vblk voff]. rewrite Es. rewrite !offs_dot by (cbn [length]; lia). cbn [bind dot]. f_equal. f_equal.
  replace (Z.b2z (1 <? b0)) with (if b0 =? 1 then 0 else 1) by (destruct (b0 =? 1) eqn:?, (1 <? b0) eqn:?; cbn; lia). destruct (b0 =? 1); lia.
Qed.

(* mapM *)
Lemma mapM_spec {A B} (f : A -> res B) (P : A -> B -> Prop) l : (forall a, In a l -> exists b, f a = Ok b /\ P a b) -> exists r, mapM f l = Ok r /\ Forall2 P l r.
Proof.
  induction l as [|a l IH]; intro H; cbn [mapM]; [exists []; split; [reflexivity|constructor]|]. destruct (H a) as (b & E & Pb); [now left|]. destruct IH as (r & Er & Pr); [intros; apply H; now right|].
  exists (b :: r). rewrite E, Er. split; [reflexivity|now constructor].
Qed.
Lemma F2_len {A B} (P : A -> B -> Prop) l r : Forall2 P l r -> length l = length r. Proof. induction 1; cbn; congruence. Qed.
Lemma F2_map {A B C} (f : A -> C) (g : B -> C) l r : Forall2 (fun a b => f a = g b) l r -> map f l = map g r.
Proof. induction 1; cbn; congruence. Qed.
Lemma F2_weaken {A B} (P Q : A -> B -> Prop) l r : (forall a b, In a l -> P a b -> Q a b) -> Forall2 P l r -> Forall2 Q l r.
Proof. intros H F. induction F; constructor; [apply H; [now left|assumption]|]. apply IHF. intros; apply H; [now right|assumption]. Qed.
Lemma mapM_F2 {A B} (f : A -> res B) l r : mapM f l = Ok r <-> Forall2 (fun a b => f a = Ok b) l r.
Proof.
  revert r. induction l as [|a l IH]; intro r; cbn [mapM].
  - split; [intros [= <-]; constructor|intro H; inversion H; reflexivity].
  - split.
    + destruct (f a) as [b| |] eqn:E; cbn [bind]; try discriminate. destruct (mapM f l) as [q| |] eqn:Eq; cbn [bind]; try discriminate. intros [= <-]. constructor; [assumption|now apply IH].
    + intro H. inversion H; subst. rewrite H2. cbn [bind]. apply IH in H4. now rewrite H4.
Qed.

(* the steps of one cell *)
Lemma run_app cells a : forall b rs, run_ops cells (a ++ b) rs = (fst (run_ops cells a rs) ++ fst (run_ops cells b (snd (run_ops cells a rs))), snd (run_ops cells b (snd (run_ops cells a rs)))).
Proof. induction a as [|o a IH]; intros b rs; cbn [app run_ops fst snd]; [destruct (run_ops cells b rs); reflexivity|]. rewrite IH. cbn [fst snd]. now rewrite app_assoc. Qed.
Lemma run_aims cells os : forall (pre rs : list Z), length rs = length os -> run_ops cells (aims (length pre) os) (pre ++ rs) = ([], pre ++ os).
Proof.
  induction os as [|o os IH]; intros pre rs L; [destruct rs; [reflexivity|discriminate]|]. destruct rs as [|r rs]; [discriminate|]. cbn [aims run_ops do_op fst snd app].
  assert (E : set_nth (length pre) o (pre ++ r :: rs) = (pre ++ [o]) ++ rs). { clear. rewrite <- app_assoc. cbn [app]. induction pre as [|p pre IH]; cbn; [reflexivity|now rewrite IH]. }
  rewrite E. replace (S (length pre)) with (length (pre ++ [o])) by (rewrite app_length; cbn; lia). rewrite IH by (cbn in L; lia). cbn [fst snd]. now rewrite <- app_assoc.
Qed.
Lemma run_cell cells os b ix rs : length rs = length os -> run_ops cells (aims 0 os ++ [CallShared b ix]) rs = ([Call b ix (aimed cells os)], os).
Proof. intro L. rewrite run_app. change 0%nat with (length (@nil Z)). change rs with ([] ++ rs) at 1 2 3. rewrite run_aims by assumption. reflexivity. Qed.
(* what a body is *)
Definition good_cell (xs : list bg) (cells : list view) (b : Z) (ix : list Z) (l : list mop) : Prop :=
  exists os, length os = length xs /\ l = aims 0 os ++ [CallShared b ix] /\ right_cells xs (b, ix, aimed cells os).
Definition good_body (xs : list bg) (cells : list view) (gd : list Z) (b : Z) (l : list mop) : Prop :=
  match gd with
  | [] => exists vs, l = [CallOwn b [] vs] /\ right_cells xs (b, [], vs)
  | _ => exists ls, l = concat ls /\ Forall2 (good_cell xs cells b) (all_indices gd) ls
  end.
Lemma F2_mapleft {A B C} (P : B -> C -> Prop) (f : A -> B) l r : Forall2 P (map f l) r <-> Forall2 (fun a c => P (f a) c) l r.
Proof.
  split.
  - revert r. induction l as [|a l IH]; intros r H; cbn in H; inversion H; subst; constructor; auto.
  - induction 1; cbn; constructor; auto.
Qed.
Lemma aimed_cells xs cells os b ix : Forall2 (fun x v => cell_view x = Ok v) xs cells -> Forall2 (fun x o => exists v, cell_view x = Ok v /\ is_cell x b ix (View (vblk v) o (vdims v) (vstr v))) xs os -> right_cells xs (b, ix, aimed cells os).
Proof.
  unfold right_cells, aimed. cbn [fst snd]. intro F. revert os. induction F as [|x v xs cells Hv F IH]; intros os G; inversion G; subst; cbn [combine map fst snd]; constructor; [|apply IH; assumption].
  destruct H1 as (v' & Ev & I). rewrite Hv in Ev. injection Ev as <-. exact I.
Qed.
Lemma cell_steps xs cells B gd b ix : Forall (joins B gd) xs -> Forall2 (fun x v => cell_view x = Ok v) xs cells -> 0 <= b < B -> in_range ix gd ->
  exists l, cell_ops xs gd b (flat ix gd) = Ok l /\ good_cell xs cells b ix l.
Proof.
  intros J C Rb Rix. unfold cell_ops.
  assert (Ei : unflat (flat ix gd) gd = Ok ix). { destruct (C01_multi_flat_l gd ix Rix) as (a & Ea & Ra & Eu). rewrite to_int_flat in Ea by now apply in_range_length. injection Ea as <-. exact Eu. }
  rewrite Ei. cbn [bind].
  destruct (mapM_spec (cell_pos (Z.of_nat (length gd)) b ix) (fun x o => exists v, cell_view x = Ok v /\ is_cell x b ix (View (vblk v) o (vdims v) (vstr v))) xs) as (os & Eo & Fo).
  { intros x Hx. rewrite Forall_forall in J. destruct (cell_ok B gd x b ix (J x Hx) Rb Rix) as (v & p & A1 & A2 & A3). exists p. split; [assumption|]. exists v. auto. }
  rewrite Eo. cbn [bind]. eexists. split; [reflexivity|]. exists os. split; [symmetry; eapply F2_len; eassumption|]. split; [reflexivity|]. eapply aimed_cells; eassumption.
Qed.
Lemma body_ok xs cells B gd b : Forall (joins B gd) xs -> Forall2 (fun x v => cell_view x = Ok v) xs cells -> nonneg gd -> 0 <= b < B -> exists l, body xs gd b = Ok l /\ good_body xs cells gd b l.
Proof.
  intros J C Ng Rb. destruct gd as [|d gd].
  - unfold body. destruct (mapM_spec (batch_slice b) (fun x v => is_cell x b [] v) xs) as (vs & E & F).
    { intros x Hx. rewrite Forall_forall in J. destruct (slice_cell_ok B x b (J x Hx) Rb) as (v & A1 & A2). eauto. }
    rewrite E. cbn [bind]. eexists. split; [reflexivity|]. exists vs. split; [reflexivity|assumption].
  - set (g := d :: gd) in *. unfold body. replace (match g with [] => _ | _ => _ end) with (do l <- mapM (cell_ops xs g b) (zrange (asize g)); Ok (concat l)) by reflexivity.
    assert (E : exists ls, mapM (cell_ops xs g b) (zrange (asize g)) = Ok ls /\ Forall2 (good_cell xs cells b) (all_indices g) ls).
    { rewrite asize_prod. rewrite <- flat_all_indices by assumption. destruct (mapM_spec (fun ix => cell_ops xs g b (flat ix g)) (good_cell xs cells b) (all_indices g)) as (ls & El & Fl).
      { intros ix Hix. apply in_all_indices in Hix. now apply (cell_steps xs cells B). }
      exists ls. split; [|assumption]. apply mapM_F2. apply mapM_F2 in El. now apply F2_mapleft. }
    destruct E as (ls & El & Fl). rewrite El. cbn [bind]. eexists. split; [reflexivity|]. exists ls. auto.
Qed.
Lemma cell_view_ok B gd x : joins B gd x -> exists v, cell_view x = Ok v.
Proof.
  intros (b0 & g & c & Hs & _). destruct (shaped_str _ _ _ _ Hs) as (s & gs & cs & Es & Lg & Lc). unfold cell_view. rewrite (shaped_cdims _ _ _ _ Hs). cbn [bind]. unfold cstrides. rewrite (shaped_has_cells _ _ _ _ Hs). destruct Hs as (Ed & En & _).
  destruct (nonempty c); [|eexists; reflexivity]. rewrite Es, En, <- Lg, chunk_end. eexists. reflexivity.
Qed.
Lemma getb_ok B gd x : joins B gd x -> exists b, getb x = Ok b /\ (b = 1 \/ b = B).
Proof. intros (b & g & c & Hs & Hb & _). exists b. split; [eapply shaped_getb; eassumption|assumption]. Qed.
Lemma setup_ok xs B gd target : Forall (joins B gd) xs -> nonneg gd -> exists cells bodies sq, cell_setup xs B gd target = Ok (cells, bodies, sq) /\
  Forall2 (fun x v => cell_view x = Ok v) xs cells /\ Forall2 (good_body xs cells gd) (zrange B) bodies /\ (sq = true <-> lone xs target).
Proof.
  intros J Ng. unfold cell_setup.
  assert (S : exists sq, is_sequential xs target = Ok sq /\ (sq = true <-> lone xs target)).
  { unfold is_sequential. destruct ((target <? 0) || (Z.of_nat (length xs) <=? target)) eqn:E.
    - exists false. split; [reflexivity|]. split; [discriminate|]. intros (x & Hz & _). apply zget_inv in Hz. lia.
    - unfold zget. replace (target <? 0) with false by lia. unfold vget. destruct (nth_error xs (Z.to_nat target)) as [x|] eqn:En; [|apply nth_error_None in En; lia]. cbn [bind].
      assert (Jx : joins B gd x) by (rewrite Forall_forall in J; apply J; eapply nth_error_In; eassumption). destruct (getb_ok B gd x Jx) as (b & Eb & _). rewrite Eb. cbn [bind].
      exists (b =? 1). split; [reflexivity|]. unfold lone, zget, vget. replace (target <? 0) with false by lia. rewrite En. split; [intro H; exists x; split; [reflexivity|]; rewrite Eb; f_equal; lia|]. intros (x' & [= <-] & E1). rewrite Eb in E1. injection E1 as ->. reflexivity. }
  destruct S as (sq & -> & Hsq). cbn [bind].
  destruct (mapM_spec cell_view (fun x v => cell_view x = Ok v) xs) as (cells & Ec & Fc). { intros x Hx. rewrite Forall_forall in J. destruct (cell_view_ok B gd x (J x Hx)) as (v & Ev). eauto. }
  rewrite Ec. cbn [bind]. destruct (mapM_spec (body xs gd) (good_body xs cells gd) (zrange B)) as (bodies & Eb & Fb). { intros b Hb. apply in_zrange in Hb. now apply (body_ok xs cells B). }
  rewrite Eb. cbn [bind]. exists cells, bodies, sq. auto.
Qed.
