(* Proofs_Keyed2.v -- histories of indexed maps. *)
From Coq Require Import Sorted.
From Verif Require Import Base BaseFacts Model_Keyed Spec_Keyed Proofs_Keyed.
Local Open Scope Z_scope.

Lemma last_snoc V k a (o : V) l : last_under V k (l ++ [(a, o)]) = if a =? k then Some o else last_under V k l.
Proof. unfold last_under. rewrite fold_left_app. reflexivity. Qed.
Lemma last_none V k (l : list (Z * V)) : last_under V k l = None <-> ~ In k (map fst l).
Proof.
  induction l as [|[a o] l IH] using rev_ind; [split; [intros _ []|reflexivity]|]. rewrite last_snoc, map_app, in_app_iff. cbn [map fst In]. destruct (a =? k) eqn:E.
  - split; [discriminate|]. intro H. exfalso. apply H. right. left. lia.
  - rewrite IH. split; [intros H [K|[K|[]]]; [auto|lia]|intros H K; apply H; now left].
Qed.
Lemma last_rel U V (R : U -> V -> Prop) k l1 : forall l2, Forall2 (fun a b => fst a = fst b /\ R (snd a) (snd b)) l1 l2 ->
  match last_under U k l1, last_under V k l2 with Some p, Some o => R p o | None, None => True | _, _ => False end.
Proof.
  induction l1 as [|[a p] l1 IH] using rev_ind; intros l2 F; [inversion F; exact I|].
  apply Forall2_app_inv_l in F as (m1 & m2 & F1 & F2 & ->). inversion F2 as [|? [b o] ? ? [H1 H2] F3]; subst. inversion F3; subst. cbn [fst snd] in *. subst.
  rewrite !last_snoc. destruct (b =? k); [assumption|now apply IH].
Qed.

Lemma Forall2_weaken {U V} (P Q : U -> V -> Prop) l1 l2 : (forall a b, P a b -> Q a b) -> Forall2 P l1 l2 -> Forall2 Q l1 l2.
Proof. intros H F. induction F; constructor; auto. Qed.

Section IMap.
Variable O : Type.
Variable okey : O -> Z.
Notation world := (world O imap).
Notation hp := (hp O imap). Notation nx := (nx O imap). Notation cs := (cs O imap).
Notation Wd := (W O imap).
Notation sound := (sound O iv). Notation no_leak := (no_leak O iv). Notation owns := (owns O iv). Notation good := (good O imap iv).

Definition holds_log (h : Z -> option O) (x : imap) (a : iview O) : Prop :=
  exists pl, iv x = map snd pl /\ Forall2 (fun p e => fst p = fst e /\ h (snd p) = Some (snd e)) pl (fst a) /\ StronglySorted Z.lt (map fst (im x)) /\
    forall k, mfind k (im x) = match last_under Z k pl with Some p => Some (Some p) | None => if existsb (Z.eqb k) (snd a) then Some None else None end.
Definition Rel (w : world) (A : istate O) : Prop :=
  good w /\ forall c, match cs w c, A c with Some x, Some a => holds_log (hp w) x a | None, None => True | _, _ => False end.
Lemma Rel_ext w A B : Rel w A -> (forall c, A c = B c) -> Rel w B.
Proof. intros [G H] E. split; [assumption|]. intro c. rewrite <- E. apply H. Qed.
Lemma Rel_some w A c a : Rel w A -> A c = Some a -> exists x, cs w c = Some x /\ holds_log (hp w) x a.
Proof. intros [_ H] E. specialize (H c). rewrite E in H. destruct (cs w c) as [x|]; [now exists x|destruct H]. Qed.
Lemma Rel_none w A c : Rel w A -> A c = None -> cs w c = None.
Proof. intros [_ H] E. specialize (H c). rewrite E in H. destruct (cs w c); [destruct H|reflexivity]. Qed.
Lemma the_some w A c a : Rel w A -> A c = Some a -> exists x, the O c w = Ok x /\ cs w c = Some x /\ holds_log (hp w) x a.
Proof. intros R E. destruct (Rel_some w A c a R E) as (x & Ex & Hx). exists x. unfold the. now rewrite Ex. Qed.
Lemma holds_frame h h' x a : holds_log h x a -> (forall p, In p (iv x) -> h' p = h p) -> holds_log h' x a.
Proof.
  intros (pl & E & F & S & M) H. exists pl. split; [assumption|]. split; [|now split]. rewrite E in H. clear - F H.
  induction F as [|p e pl l [H1 H2] F IH]; constructor; [|apply IH; intros q Hq; apply H; now right]. split; [assumption|]. rewrite H; [assumption|]. now left.
Qed.
Lemma holds_empty h : holds_log h iempty ([], []).
Proof. exists []. repeat split; try constructor. Qed.

(* changing one container, when what the others hold is left alone *)
Lemma Rel_set w A h n c x a : Rel w A -> good (Wd h n (put (cs w) c x)) ->
  (forall d y p, d <> c -> cs w d = Some y -> In p (iv y) -> h p = hp w p) ->
  (match x, a with Some x, Some a => holds_log h x a | None, None => True | _, _ => False end) ->
  Rel (Wd h n (put (cs w) c x)) (supd A c a).
Proof.
  intros [G R] G' Fr H. split; [assumption|]. intro d. cbn [Model_Keyed.cs Model_Keyed.hp]. unfold put, supd. destruct (d =? c) eqn:E; [exact H|].
  specialize (R d). destruct (cs w d) as [y|] eqn:Ey; [|exact R]. destruct (A d) as [b|]; [|exact R]. apply (holds_frame (hp w)); [assumption|]. intros p Hp. apply (Fr d y); [lia|assumption|assumption].
Qed.

Lemma fresh w c x p : good w -> cs w c = Some x -> In p (iv x) -> p < nx w.
Proof. intros [(_ & _ & I3) I4] E H. apply I4, (I3 c). now exists x. Qed.
Lemma ptrs_add w c x k : good w -> cs w c = Some x -> (forall p, In p (iv (i_insert k (nx w) x)) <-> p = nx w \/ In p (iv x)) /\ NoDup (iv (i_insert k (nx w) x)).
Proof.
  intros G E. pose proof G as [(I1 & I2 & I3) I4]. cbn [i_insert iv]. split.
  - intro p. rewrite in_app_iff. cbn [In]. intuition.
  - specialize (I2 c x E). assert (N : ~ In (nx w) (iv x)) by (intro H; pose proof (fresh w c x _ G E H); lia). revert I2 N. generalize (iv x). clear.
    induction l as [|a l IH]; intros N1 N2; cbn [app]; [repeat constructor; intros []|]. inversion N1; subst. constructor; [|apply IH; [assumption|intro; apply N2; now right]].
    rewrite in_app_iff. intros [H|[H|[]]]; [contradiction|]. apply N2. now left.
Qed.
Lemma holds_insert w c x l pr k o : good w -> cs w c = Some x -> holds_log (hp w) x (l, pr) -> holds_log (put (hp w) (nx w) (Some o)) (i_insert k (nx w) x) (l ++ [(k, o)], pr).
Proof.
  intros G E H. assert (H' : holds_log (put (hp w) (nx w) (Some o)) x (l, pr)).
  { apply (holds_frame (hp w)); [assumption|]. intros p Hp. pose proof (fresh w c x p G E Hp). unfold put. now replace (p =? nx w) with false by lia. }
  destruct H' as (pl & E1 & F & S & M). exists (pl ++ [(k, nx w)]). cbn [i_insert iv im fst snd] in *. split; [rewrite E1, map_app; reflexivity|]. split; [|split].
  - apply Forall2_app; [assumption|]. constructor; [|constructor]. split; [reflexivity|]. cbn [snd]. unfold put. now rewrite Z.eqb_refl.
  - now apply mput_sorted.
  - intro k'. rewrite mfind_mput, last_snoc by assumption. rewrite (Z.eqb_sym k' k). destruct (k =? k'); [reflexivity|]. apply M.
Qed.
Lemma add_ok w A c x l pr k o : Rel w A -> A c = Some (l, pr) -> cs w c = Some x ->
  Rel (Wd (put (hp w) (nx w) (Some o)) (nx w + 1) (put (cs w) c (Some (i_insert k (nx w) x)))) (supd A c (Some (l ++ [(k, o)], pr))) /\
  (no_leak w -> no_leak (Wd (put (hp w) (nx w) (Some o)) (nx w + 1) (put (cs w) c (Some (i_insert k (nx w) x))))).
Proof.
  intros R EA Ex. pose proof R as [G R']. destruct (ptrs_add w c x k G Ex) as [P1 P2]. split.
  - apply Rel_set; [assumption| | |].
    + now apply (good_add O imap iv w c x).
    + intros d y p D Ey Hp. pose proof (fresh w d y p G Ey Hp). unfold put. now replace (p =? nx w) with false by lia.
    + destruct (Rel_some w A c _ R EA) as (x' & Ex' & Hx). assert (x' = x) by congruence. subst. now apply (holds_insert w c).
  - intro L. now apply (leak_add O imap iv w c x).
Qed.
Lemma push_is w x o k : k = okey o -> i_push O okey (nx w) x (Wd (put (hp w) (nx w) (Some o)) (nx w + 1) (cs w)) = Ok (i_insert k (nx w) x).
Proof. intros ->. unfold i_push, deref. cbn [Model_Keyed.hp]. unfold put at 1. rewrite Z.eqb_refl. reflexivity. Qed.

Lemma copy_loop c pl : forall w A l0 l pr, Rel w A -> A c = Some (l0, pr) -> Forall2 (fun p e => fst p = fst e /\ hp w (snd p) = Some (snd e)) pl l ->
  exists w', i_copy_into O okey c (map snd pl) w = Ok w' /\ Rel w' (supd A c (Some (l0 ++ rekey O okey l, pr))) /\ (no_leak w -> no_leak w').
Proof.
  induction pl as [|[a p] pl IH]; intros w A l0 l pr R EA F.
  - inversion F; subst. exists w. split; [reflexivity|]. split; [|trivial]. cbn [rekey map]. rewrite app_nil_r. apply (Rel_ext w A); [assumption|]. intro d. unfold supd. destruct (d =? c) eqn:E; [|reflexivity]. apply Z.eqb_eq in E. now subst.
  - inversion F as [|? [b o] ? l' [H1 H2] F']; subst. cbn [fst snd] in *. subst b. destruct (Rel_some w A c _ R EA) as (x & Ex & Hx).
    destruct (add_ok w A c x l0 pr (okey o) o R EA Ex) as [R1 L1].
    destruct (IH _ _ (l0 ++ [(okey o, o)]) l' pr R1) as (w' & E' & R' & L').
    { unfold supd. now rewrite Z.eqb_refl. }
    { cbn [Model_Keyed.hp]. assert (G : forall q, hp w q <> None -> q < nx w) by apply R. eapply Forall2_weaken; [|exact F']. intros u e [K1 K2]. split; [assumption|]. unfold put. assert (snd u < nx w) by (apply G; congruence). now replace (snd u =? nx w) with false by lia. }
    exists w'. split; [|split].
    + unfold i_copy_into. cbn [map snd foldM]. unfold deref at 1. rewrite H2. cbn [bind]. unfold make. cbn [fst snd]. unfold the at 1. cbn [Model_Keyed.cs]. rewrite Ex. cbn [bind].
      rewrite (push_is w x o (okey o) eq_refl). cbn [bind]. exact E'.
    + apply (Rel_ext _ _ _ R'). intro d. unfold supd. destruct (d =? c); [|reflexivity]. cbn [rekey map snd]. rewrite <- app_assoc. reflexivity.
    + auto.
Qed.
Lemma wipe_ok w A c a : Rel w A -> A c = Some a -> exists h, (exists x, the O c w = Ok x /\ foldM (del O (X := imap)) (iv x) w = Ok (Wd h (nx w) (cs w))) /\
  forall x a', (match x, a' with Some x, Some a => x = iempty /\ a = ([], []) | None, None => True | _, _ => False end) ->
    Rel (Wd h (nx w) (put (cs w) c x)) (supd A c a') /\ (no_leak w -> no_leak (Wd h (nx w) (put (cs w) c x))).
Proof.
  intros R EA. pose proof R as [G _]. pose proof G as [(I1 & I2 & I3) I4]. destruct (the_some w A c a R EA) as (x & Et & Ex & Hx).
  destruct (del_all O imap (iv x) w (I2 c x Ex)) as (h & Eh & Hh); [intros p Hp; apply (I3 c); now exists x|]. exists h. split; [now exists x|].
  intros y a' Hy. destruct (good_freed O imap iv w h c x y G Ex Hh) as [G' L'].
  { intros z ->. destruct a'; [|destruct Hy]. destruct Hy as [-> _]. reflexivity. }
  split; [|assumption]. apply Rel_set; [assumption|assumption| |].
  - intros d z p D Ez Hp. apply Hh. intro K. apply D, (I1 d c p); [now exists z|now exists x].
  - destruct y as [y|], a' as [a'|]; try exact Hy. destruct Hy as [-> ->]. apply holds_empty.
Qed.
Lemma move_ok w A c d y a : Rel w A -> cs w d = Some y -> A d = Some a -> (forall x, cs w c = Some x -> iv x = []) -> c <> d ->
  Rel (Wd (hp w) (nx w) (put (put (cs w) c (Some y)) d (Some iempty))) (supd (supd A c (Some a)) d (Some ([], []))) /\
  (no_leak w -> no_leak (Wd (hp w) (nx w) (put (put (cs w) c (Some y)) d (Some iempty)))).
Proof.
  intros R Ed EA Ec N. pose proof R as [G R']. destruct (move_set O imap iv w c d y iempty Ed eq_refl) as [G' L']; [intros x _; apply Ec|assumption|assumption|]. split; [|assumption].
  split; [assumption|]. intro b. cbn [Model_Keyed.cs Model_Keyed.hp]. unfold put, supd. destruct (b =? d) eqn:K; [apply holds_empty|]. destruct (b =? c) eqn:K'; [|apply R'].
  destruct (Rel_some w A d a R EA) as (y' & Ey' & Hy). congruence.
Qed.

Lemma step_ok op w A B : Rel w A -> ispec O okey op A = Some B -> exists w', istep O okey op w = Ok w' /\ Rel w' B /\ (no_clear O op -> no_leak w -> no_leak w').
Proof.
  intros R E. pose proof R as [G R']. destruct op; cbn [ispec istep] in *.
  - destruct (A c) eqn:EA; [discriminate|]. injection E as <-. pose proof (Rel_none w A c R EA) as Ec. unfold unused. rewrite Ec. cbn [bind]. eexists. split; [reflexivity|]. split; [|intros _ L; now apply leak_new].
    apply Rel_set; [assumption| | |apply holds_empty]; [now apply good_new|reflexivity].
  - destruct (A c) as [[l pr]|] eqn:EA; [|discriminate]. injection E as <-. destruct (the_some w A c _ R EA) as (x & Et & Ex & Hx). rewrite Et. cbn [bind make]. eexists. split; [reflexivity|].
    destruct (add_ok w A c x l pr k o R EA Ex) as [R1 L1]. split; [exact R1|]. intros _. exact L1.
  - destruct (A c) as [[l pr]|] eqn:EA; [|discriminate]. injection E as <-. destruct (the_some w A c _ R EA) as (x & Et & Ex & Hx). rewrite Et. cbn [bind make]. rewrite (push_is w x o _ eq_refl). cbn [bind]. eexists. split; [reflexivity|].
    destruct (add_ok w A c x l pr (okey o) o R EA Ex) as [R1 L1]. split; [exact R1|]. intros _. exact L1.
  - destruct (A c) as [[l pr]|] eqn:EA; [|discriminate]. injection E as <-. destruct (the_some w A c _ R EA) as (x & Et & Ex & Hx). rewrite Et. cbn [bind]. eexists. split; [reflexivity|].
    assert (Ei : iv (snd (i_look k x)) = iv x) by (unfold i_look; destruct (mfind k (im x)); reflexivity).
    split; [|intros _ L; now apply (leak_same O imap iv w c x)]. apply Rel_set; [assumption|now apply (good_same O imap iv w c x)|reflexivity|].
    destruct Hx as (pl & E1 & F & S & M). exists pl. rewrite Ei. split; [assumption|]. split; [assumption|]. cbn [fst snd] in *.
    pose proof (last_rel Z O (fun p o => hp w p = Some o) k pl l F) as Lk. pose proof (M k) as Mk. unfold i_look.
    destruct (last_under Z k pl) as [p|] eqn:EL.
    + destruct (last_under O k l); [|destruct Lk]. rewrite Mk. cbn [snd]. now split.
    + destruct (last_under O k l); [destruct Lk|]. rewrite Mk. cbn [existsb]. destruct (existsb (Z.eqb k) pr) eqn:EP; cbn [snd im].
      * split; [assumption|]. intro k'. rewrite M. destruct (last_under Z k' pl); [reflexivity|]. destruct (k' =? k) eqn:K; [|reflexivity]. apply Z.eqb_eq in K. subst. cbn [orb]. now rewrite EP.
      * split; [now apply mput_sorted|]. intro k'. rewrite mfind_mput, M by assumption. destruct (k' =? k) eqn:K; [|reflexivity]. apply Z.eqb_eq in K. subst. now rewrite EL.
  - destruct (A c) eqn:EA; [discriminate|]. destruct (A d) as [[l pr]|] eqn:ED; [|discriminate]. injection E as <-. pose proof (Rel_none w A c R EA) as Ec. unfold unused. rewrite Ec. cbn [bind].
    destruct (the_some w A d _ R ED) as (y & Et & Ey & Hy). rewrite Et. cbn [bind].
    assert (R1 : Rel (set_c O c (Some iempty) w) (supd A c (Some ([], [])))) by (apply Rel_set; [assumption| | |apply holds_empty]; [now apply good_new|reflexivity]).
    destruct Hy as (pl & E1 & F & S & M). destruct (copy_loop c pl _ _ [] l [] R1) as (w' & E' & R2 & L2); [unfold supd; now rewrite Z.eqb_refl|exact F|].
    exists w'. rewrite E1. split; [assumption|]. split; [|intros _ L; apply L2; now apply leak_new]. apply (Rel_ext _ _ _ R2). intro b. unfold supd. destruct (b =? c); reflexivity.
  - destruct (A c) eqn:EA; [discriminate|]. destruct (A d) as [a|] eqn:ED; [|discriminate]. injection E as <-. pose proof (Rel_none w A c R EA) as Ec. unfold unused. rewrite Ec. cbn [bind].
    destruct (the_some w A d _ R ED) as (y & Et & Ey & Hy). rewrite Et. cbn [bind]. eexists. split; [reflexivity|].
    destruct (move_ok w A c d y a R Ey ED) as [R1 L1]; [congruence|congruence|]. split; [exact R1|]. intros _. exact L1.
  - destruct (A c) as [a|] eqn:EA; [|discriminate]. destruct (A d) as [[l pr]|] eqn:ED; [|discriminate]. injection E as <-.
    destruct (wipe_ok w A c a R EA) as (h & (x & Et & Ed) & K). unfold i_wipe. rewrite Et. cbn [bind]. rewrite Ed. cbn [bind].
    destruct (K (Some iempty) (Some ([], [])) ltac:(now split)) as [R1 L1]. change (set_c O c (Some iempty) (Wd h (nx w) (cs w))) with (Wd h (nx w) (put (cs w) c (Some iempty))).
    assert (ED1 : supd A c (Some ([], [])) d = Some (if c =? d then ([], []) else (l, pr))) by (unfold supd; rewrite (Z.eqb_sym d c); destruct (c =? d); [reflexivity|assumption]).
    destruct (the_some _ _ d _ R1 ED1) as (y & Et' & Ey & (pl & E1 & F & S & M)). rewrite Et'. cbn [bind].
    destruct (copy_loop c pl _ _ [] (fst (if c =? d then ([], []) else (l, pr))) [] R1) as (w' & E' & R2 & L2); [unfold supd; now rewrite Z.eqb_refl|exact F|].
    exists w'. rewrite E1. split; [assumption|]. split; [|intros _ L; now apply L2, L1]. apply (Rel_ext _ _ _ R2). intro b. unfold supd. destruct (b =? c); [|reflexivity]. destruct (c =? d); reflexivity.
  - destruct (A c) as [a|] eqn:EA; [|discriminate]. destruct (A d) as [a'|] eqn:ED; [|discriminate]. injection E as <-.
    destruct (wipe_ok w A c a R EA) as (h & (x & Et & Ed) & K). unfold i_wipe. rewrite Et. cbn [bind]. rewrite Ed. cbn [bind].
    destruct (K (Some iempty) (Some ([], [])) ltac:(now split)) as [R1 L1]. change (set_c O c (Some iempty) (Wd h (nx w) (cs w))) with (Wd h (nx w) (put (cs w) c (Some iempty))).
    assert (Ec1 : cs (Wd h (nx w) (put (cs w) c (Some iempty))) c = Some iempty) by (cbn [Model_Keyed.cs]; unfold put; now rewrite Z.eqb_refl).
    destruct (Z.eq_dec c d) as [<-|N].
    + unfold the. rewrite Ec1. cbn [bind]. eexists. split; [reflexivity|]. unfold set_c. cbn [Model_Keyed.cs Model_Keyed.hp Model_Keyed.nx]. pose proof R1 as [G1 R1'].
      assert (Q : forall b, put (put (put (cs w) c (Some iempty)) c (Some iempty)) c (Some iempty) b = put (cs w) c (Some iempty) b) by (intro b; unfold put; destruct (b =? c); reflexivity).
      split; [split|].
      * destruct G1 as [(J1 & J2 & J3) J4]. split; [|exact J4]. unfold Spec_Keyed.sound, Spec_Keyed.owns in *. cbn [Model_Keyed.cs Model_Keyed.hp] in *. split; [|split].
        -- intros b b' p. rewrite !Q. apply J1.
        -- intros b z. rewrite Q. apply J2.
        -- intros b p. rewrite Q. apply J3.
      * intro b. specialize (R1' b). cbn [Model_Keyed.cs Model_Keyed.hp] in *. rewrite Q. unfold supd in *. destruct (b =? c); exact R1'.
      * intros _ L p Hp. destruct (L1 L p Hp) as (b & z & Ez & Hz). exists b, z. cbn [Model_Keyed.cs] in *. now rewrite Q.
    + assert (ED1 : supd A c (Some ([], [])) d = Some a') by (unfold supd; replace (d =? c) with false by lia; assumption).
      destruct (the_some _ _ d _ R1 ED1) as (y & Et' & Ey & Hy). rewrite Et'. cbn [bind]. eexists. split; [reflexivity|].
      destruct (move_ok _ _ c d y a' R1 Ey ED1) as [R2 L2]; [intros z Ez; rewrite Ec1 in Ez; now injection Ez as <-|assumption|]. split; [|intros _ L; now apply L2, L1].
      apply (Rel_ext _ _ _ R2). intro b. unfold supd. destruct (b =? d); [reflexivity|]. destruct (b =? c); reflexivity.
  - destruct (A c) as [a|] eqn:EA; [|discriminate]. injection E as <-. destruct (wipe_ok w A c a R EA) as (h & (x & Et & Ed) & K). unfold i_wipe. rewrite Et. cbn [bind]. rewrite Ed. cbn [bind].
    destruct (K (Some iempty) (Some ([], [])) ltac:(now split)) as [R1 L1]. eexists. split; [reflexivity|]. split; [exact R1|]. intros _. exact L1.
  - destruct (A c) as [a|] eqn:EA; [|discriminate]. injection E as <-. destruct (the_some w A c _ R EA) as (x & Et & Ex & Hx). rewrite Et. cbn [bind]. eexists. split; [reflexivity|]. split; [|intros []].
    apply Rel_set; [assumption|now apply good_forget|reflexivity|apply holds_empty].
  - destruct (A c) as [a|] eqn:EA; [|discriminate]. injection E as <-. destruct (wipe_ok w A c a R EA) as (h & (x & Et & Ed) & K). rewrite Et. cbn [bind]. rewrite Ed. cbn [bind].
    destruct (K None None I) as [R1 L1]. eexists. split; [reflexivity|]. split; [exact R1|]. intros _. exact L1.
Qed.
Lemma run_ok ops : forall w A B, Rel w A -> ispecs O okey ops A = Some B -> exists w', irun O okey ops w = Ok w' /\ Rel w' B /\ (Forall (no_clear O) ops -> no_leak w -> no_leak w').
Proof.
  induction ops as [|op ops IH]; intros w A B R E; cbn [ispecs] in E.
  - injection E as <-. exists w. now split.
  - destruct (ispec O okey op A) as [A1|] eqn:E1; [|discriminate]. destruct (step_ok op w A A1 R E1) as (w1 & S1 & R1 & L1). destruct (IH w1 A1 B R1 E) as (w2 & S2 & R2 & L2).
    exists w2. split; [unfold irun; cbn [foldM]; rewrite S1; exact S2|]. split; [assumption|]. intros F L. inversion F; subst. auto.
Qed.
Lemma Rel_start : Rel (w0 O) (fun _ => None) /\ no_leak (w0 O).
Proof.
  split; [|intros p H; exfalso; now apply H]. split; [|intro c; exact I]. split; [|intros p H; exfalso; now apply H]. split; [|split].
  - intros c d p (x & E & _). discriminate.
  - intros c x E. discriminate.
  - intros c p (x & E & _). discriminate.
Qed.
(* what the reading operations give *)
Lemma reads h x l pr : holds_log h x (l, pr) ->
  i_size x = Z.of_nat (length l) /\
  (forall i e, nth_error l i = Some e -> exists p, i_at (Z.of_nat i) x = Ok p /\ h p = Some (snd e)) /\
  (forall k, match last_under O k l with Some o => exists p, fst (i_look k x) = Some p /\ h p = Some o | None => fst (i_look k x) = None end) /\
  (forall k, i_exists k x = true <-> In k (map fst l) \/ In k pr).
Proof.
  intros (pl & E & F & S & M). cbn [fst snd] in *. split; [|split; [|split]].
  - unfold i_size. rewrite E, map_length. f_equal. clear - F. induction F; [reflexivity|cbn [length]; congruence].
  - intros i e Hi. unfold i_at. rewrite E. assert (exists p, nth_error pl i = Some p /\ h (snd p) = Some (snd e)) as (p & Hp & Hh).
    { revert i Hi. clear - F. induction F as [|p e' pl l [H1 H2] F IH]; intros [|i] Hi; try discriminate; [injection Hi as <-; now exists p|]. now apply IH. }
    exists (snd p). split; [|assumption]. unfold zget. replace (Z.of_nat i <? 0) with false by lia. rewrite Nat2Z.id. unfold vget. now rewrite (map_nth_error snd _ _ Hp).
  - intro k. pose proof (last_rel Z O (fun p o => h p = Some o) k pl l F) as Lk. unfold i_look. rewrite M. destruct (last_under Z k pl) as [p|]; destruct (last_under O k l) as [o|]; try (now destruct Lk).
    + exists p. now split.
    + destruct (existsb (Z.eqb k) pr); reflexivity.
  - intro k. unfold i_exists. rewrite M. assert (Em : map fst pl = map fst l) by (clear - F; induction F as [|? ? ? ? [H1 _] F IH]; [reflexivity|cbn [map]; congruence]). rewrite <- Em.
    destruct (last_under Z k pl) as [p|] eqn:EL.
    + split; [|reflexivity]. intros _. left. destruct (in_dec Z.eq_dec k (map fst pl)) as [H|H]; [assumption|]. apply last_none in H. congruence.
    + apply last_none in EL. destruct (existsb (Z.eqb k) pr) eqn:EP.
      * split; [|reflexivity]. intros _. right. apply existsb_exists in EP as (z & Hz & K). apply Z.eqb_eq in K. now subst.
      * split; [discriminate|]. intros [H|H]; [contradiction|]. exfalso. assert (existsb (Z.eqb k) pr = true) by (apply existsb_exists; exists k; split; [assumption|apply Z.eqb_refl]). congruence.
Qed.
End IMap.
