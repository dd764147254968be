From Verif Require Import Base BaseFacts Model_Observer Spec_Observer.
Local Open Scope Z_scope.

Lemma upd1_same {V} k (v : V) f : upd1 k v f k = v. Proof. unfold upd1. now rewrite Z.eqb_refl. Qed.
Lemma upd1_other {V} k (v : V) f k' : k' <> k -> upd1 k v f k' = f k'. Proof. intro H. unfold upd1. now replace (k' =? k) with false by lia. Qed.
Lemma memb_in x l : memb x l = true <-> In x l.
Proof. unfold memb. rewrite existsb_exists. split; [intros (y & H & E); now replace x with y by lia|]. intro H. exists x. split; [assumption|apply Z.eqb_refl]. Qed.
Lemma memb_not x l : memb x l = false <-> ~ In x l.
Proof. rewrite <- memb_in. destruct (memb x l); intuition congruence. Qed.
Lemma sadd_in y x l : In y (sadd x l) <-> y = x \/ In y l.
Proof. unfold sadd. destruct (memb x l) eqn:E; [apply memb_in in E; intuition congruence|]. rewrite in_app_iff. cbn. intuition congruence. Qed.
Lemma sadd_nodup x l : NoDup l -> NoDup (sadd x l).
Proof.
  intro H. unfold sadd. destruct (memb x l) eqn:E; [assumption|]. apply memb_not in E. apply NoDup_rev in H. rewrite <- (rev_involutive (_ ++ _)), rev_app_distr. apply NoDup_rev. cbn. constructor; [now rewrite <- in_rev|assumption].
Qed.
Lemma sdel_in y x l : In y (sdel x l) <-> y <> x /\ In y l.
Proof. unfold sdel. rewrite filter_In. rewrite negb_true_iff, Z.eqb_neq. tauto. Qed.
Lemma sdel_nodup x l : NoDup l -> NoDup (sdel x l). Proof. apply NoDup_filter. Qed.
Lemma sdel_out x l : ~ In x l -> sdel x l = l.
Proof. unfold sdel. induction l as [|a l IH]; cbn; [reflexivity|]. intro H. replace (a =? x) with false by (symmetry; apply Z.eqb_neq; intro; apply H; now left). cbn. f_equal. tauto. Qed.

(* the two sides agree *)
Record wfw (w : world) : Prop := Wfw {
  w_no : forall x l, objs w x = Some l -> NoDup l;
  w_nt : forall o t, obsv w o = Some t -> NoDup t;
  w_ot : forall o x t, obsv w o = Some t -> In x t -> exists l, objs w x = Some l /\ In o l;
  w_to : forall o x l, objs w x = Some l -> In o l -> exists t, obsv w o = Some t /\ In x t }.
Lemma wfw0 : wfw w0. Proof. split; cbn; discriminate. Qed.
Lemma wfw_new_obj x w : wfw w -> objs w x = None -> wfw (World (upd1 x (Some []) (objs w)) (obsv w)).
Proof.
  intros [H1 H2 H3 H4] N. split; cbn; intros *.
  - unfold upd1. destruct (_ =? _); [intro E; injection E as <-; constructor|apply H1].
  - apply H2.
  - intros E I. destruct (H3 _ _ _ E I) as (l & El & Il). exists l. rewrite upd1_other; [auto|]. congruence.
  - unfold upd1. destruct (_ =? _); [intro E; injection E as <-; intros []|apply H4].
Qed.
Lemma wfw_new_obs o w : wfw w -> obsv w o = None -> wfw (World (objs w) (upd1 o (Some []) (obsv w))).
Proof.
  intros [H1 H2 H3 H4] N. split; cbn; intros *.
  - apply H1.
  - unfold upd1. destruct (_ =? _); [intro E; injection E as <-; constructor|apply H2].
  - unfold upd1. destruct (_ =? _); [intro E; injection E as <-; intros []|apply H3].
  - intros E I. destruct (H4 _ _ _ E I) as (t & El & Il). exists t. rewrite upd1_other; [auto|]. congruence.
Qed.
(* add *)
Lemma add_ok o x w t l : wfw w -> obsv w o = Some t -> objs w x = Some l -> exists w', add_target o x w = Ok w' /\ wfw w' /\
  (forall y, objs w' y = if y =? x then Some (sadd o l) else objs w y) /\ (forall p, obsv w' p = if p =? o then Some (sadd x t) else obsv w p).
Proof.
  intros W Eo Ex. assert (W' := W). destruct W as [H1 H2 H3 H4]. unfold add_target. rewrite Eo. destruct (memb x t) eqn:M.
  - apply memb_in in M. exists w. split; [reflexivity|]. split; [assumption|]. destruct (H3 _ _ _ Eo M) as (l' & El & Il). rewrite Ex in El. injection El as <-.
    split; intro y; (destruct (_ =? _) eqn:E; [|reflexivity]); apply Z.eqb_eq in E; subst y; [rewrite Ex|rewrite Eo]; f_equal; unfold sadd; [apply memb_in in Il|apply memb_in in M]; now rewrite ?Il, ?M.
  - apply memb_not in M. unfold attach. rewrite Ex. cbn [bind objs obsv]. eexists. split; [reflexivity|]. split; [|split; intro; reflexivity]. split; cbn; intros *.
    + unfold upd1. destruct (_ =? _); [intro E; injection E as <-; apply sadd_nodup; eauto|apply H1].
    + unfold upd1. destruct (_ =? _); [intro E; injection E as <-; apply sadd_nodup; eauto|apply H2].
    + unfold upd1. destruct (o0 =? o) eqn:E0; destruct (x0 =? x) eqn:E1; intros E I.
      * exists (sadd o l). split; [reflexivity|]. apply sadd_in. left. lia.
      * injection E as <-. apply sadd_in in I as [?|I]; [lia|]. replace o0 with o by lia. eauto.
      * exists (sadd o l). split; [reflexivity|]. destruct (H3 _ _ _ E I) as (l' & El & Il). replace x0 with x in El by lia. rewrite Ex in El. injection El as <-. apply sadd_in. now right.
      * eauto.
    + unfold upd1. destruct (o0 =? o) eqn:E0; destruct (x0 =? x) eqn:E1; intros E I.
      * exists (sadd x t). split; [reflexivity|]. apply sadd_in. left. lia.
      * exists (sadd x t). split; [reflexivity|]. destruct (H4 _ _ _ E I) as (l' & El & Il). replace o0 with o in El by lia. rewrite Eo in El. injection El as <-. apply sadd_in. now right.
      * injection E as <-. apply sadd_in in I as [?|I]; [lia|]. replace x0 with x by lia. eauto.
      * eauto.
Qed.
(* remove *)
Lemma remove_ok o x w t l : wfw w -> obsv w o = Some t -> objs w x = Some l -> exists w', remove_target o x w = Ok w' /\ wfw w' /\
  (forall y, objs w' y = if y =? x then Some (sdel o l) else objs w y) /\ (forall p, obsv w' p = if p =? o then Some (sdel x t) else obsv w p).
Proof.
  intros W Eo Ex. assert (W' := W). destruct W as [H1 H2 H3 H4]. unfold remove_target. rewrite Eo. destruct (memb x t) eqn:M.
  - apply memb_in in M. unfold detach. rewrite Ex. cbn [bind objs obsv]. eexists. split; [reflexivity|]. split; [|split; intro; reflexivity]. split; cbn; intros *.
    + unfold upd1. destruct (_ =? _); [intro E; injection E as <-; apply sdel_nodup; eauto|apply H1].
    + unfold upd1. destruct (_ =? _); [intro E; injection E as <-; apply sdel_nodup; eauto|apply H2].
    + unfold upd1. destruct (o0 =? o) eqn:E0; destruct (x0 =? x) eqn:E1; intros E I.
      * injection E as <-. apply sdel_in in I as [? I]. lia.
      * injection E as <-. apply sdel_in in I as [? I]. replace o0 with o by lia. eauto.
      * exists (sdel o l). split; [reflexivity|]. destruct (H3 _ _ _ E I) as (l' & El & Il). replace x0 with x in El by lia. rewrite Ex in El. injection El as <-. apply sdel_in. split; [lia|assumption].
      * eauto.
    + unfold upd1. destruct (o0 =? o) eqn:E0; destruct (x0 =? x) eqn:E1; intros E I.
      * injection E as <-. apply sdel_in in I as [? I]. lia.
      * exists (sdel x t). split; [reflexivity|]. destruct (H4 _ _ _ E I) as (l' & El & Il). replace o0 with o in El by lia. rewrite Eo in El. injection El as <-. apply sdel_in. split; [lia|assumption].
      * injection E as <-. apply sdel_in in I as [? I]. replace x0 with x by lia. eauto.
      * eauto.
  - apply memb_not in M. exists w. split; [reflexivity|]. split; [assumption|].
    assert (~ In o l). { intro I. destruct (H4 _ _ _ Ex I) as (t' & Et & It). congruence. }
    split; intro y; (destruct (_ =? _) eqn:E; [|reflexivity]); apply Z.eqb_eq in E; subst y; [rewrite Ex|rewrite Eo]; f_equal; symmetry; now apply sdel_out.
Qed.
(* destroying an observed object *)
Section Del.
Context {S : Type} (act : Z -> Z -> S -> res S).
Lemma signal_loop x l : forall w s s', NoDup l -> (forall o, In o l -> exists t, obsv w o = Some t /\ In x t) -> foldM (fun o => act o x) l s = Ok s' ->
  exists w', foldM (fun o => deleted_signal act o x) l (w, s) = Ok (w', s') /\ (forall y, objs w' y = objs w y) /\
    (forall o, obsv w' o = if memb o l then option_map (sdel x) (obsv w o) else obsv w o).
Proof.
  induction l as [|o l IH]; intros w s s' N H E.
  - injection E as <-. exists w. split; [reflexivity|]. split; reflexivity.
  - cbn [foldM] in E. destruct (act o x s) as [s1| |] eqn:E1; cbn [bind] in E; try discriminate. destruct (H o (or_introl eq_refl)) as (t & Et & It).
    inversion N as [|? ? No Nl]; subst. destruct (IH (World (objs w) (upd1 o (Some (sdel x t)) (obsv w))) s1 s' Nl) as (w' & E' & A & B); auto.
    { intros o' Io. destruct (H o' (or_intror Io)) as (t' & Et' & It'). exists t'. cbn. rewrite upd1_other by congruence. auto. }
    exists w'. split; [|split].
    + cbn [foldM]. unfold deleted_signal at 1. rewrite Et. replace (memb x t) with true by (symmetry; now apply memb_in). cbn [assrt]. rewrite E1. cbn [bind]. exact E'.
    + intro y. now rewrite A.
    + intro p. rewrite B. cbn [obsv]. unfold memb in *. cbn [existsb]. unfold upd1. destruct (p =? o) eqn:Ep; cbn [orb].
      * replace p with o by lia. assert (existsb (Z.eqb o) l = false) as -> by (fold (memb o l); now apply memb_not). now rewrite Et.
      * reflexivity.
Qed.
Lemma del_obj_ok ord x w s l s' : (forall l, Permutation (ord l) l) -> wfw w -> objs w x = Some l -> foldM (fun o => act o x) (ord l) s = Ok s' ->
  exists w', del_obj act ord x (w, s) = Ok (w', s') /\ wfw w' /\ (forall y, objs w' y = if y =? x then None else objs w y) /\ (forall o, obsv w' o = option_map (sdel x) (obsv w o)).
Proof.
  intros Po W Ex E. assert (W' := W). destruct W as [H1 H2 H3 H4]. destruct (signal_loop x (ord l) w s s') as (w' & E' & A & B).
  - eapply Permutation_NoDup; [symmetry; apply Po|]. eauto.
  - intros o Io. apply (Permutation_in _ (Po l)) in Io. eauto.
  - exact E.
  - exists (World (upd1 x None (objs w')) (obsv w')). split; [unfold del_obj; cbn [fst]; rewrite Ex, E'; reflexivity|].
    assert (C : forall o, obsv w' o = option_map (sdel x) (obsv w o)).
    { intro o. rewrite B. destruct (memb o (ord l)) eqn:M; [reflexivity|]. apply memb_not in M. destruct (obsv w o) as [t|] eqn:Et; [|reflexivity]. cbn. f_equal. symmetry. apply sdel_out. intro I.
      destruct (H3 _ _ _ Et I) as (l' & El & Il). rewrite Ex in El. injection El as <-. apply M. apply (Permutation_in _ (Permutation_sym (Po l))). exact Il. }
    split; [|split; [intro y; cbn; unfold upd1; now rewrite A|exact C]]. split; cbn; intros *.
    + unfold upd1. destruct (_ =? _); [discriminate|]. rewrite A. apply H1.
    + rewrite C. destruct (obsv w o) eqn:Et; cbn; [|discriminate]. intro Q; injection Q as <-. apply sdel_nodup. eauto.
    + rewrite C. destruct (obsv w o) eqn:Et; cbn; [|discriminate]. intros Q I; injection Q as <-. apply sdel_in in I as [Ne I]. destruct (H3 _ _ _ Et I) as (l' & El). exists l'. rewrite upd1_other by assumption. now rewrite A.
    + unfold upd1. destruct (x0 =? x) eqn:Q; [discriminate|]. rewrite A. intros E0 I. destruct (H4 _ _ _ E0 I) as (t & Et & It). exists (sdel x t). rewrite C, Et. split; [reflexivity|]. apply sdel_in. split; [lia|assumption].
Qed.
End Del.
(* destroying an observer *)
Lemma detach_loop o ts : forall w, NoDup ts -> (forall x, In x ts -> exists l, objs w x = Some l) ->
  exists w', foldM (fun x => detach x o) ts w = Ok w' /\ (forall x, objs w' x = if memb x ts then option_map (sdel o) (objs w x) else objs w x) /\ (forall p, obsv w' p = obsv w p).
Proof.
  induction ts as [|x ts IH]; intros w N H; [exists w; repeat split; reflexivity|]. inversion N as [|? ? Nx Nl]; subst. destruct (H x (or_introl eq_refl)) as (l & El).
  destruct (IH (World (upd1 x (Some (sdel o l)) (objs w)) (obsv w)) Nl) as (w' & E' & A & B).
  { intros y Iy. cbn. unfold upd1. destruct (_ =? _); [eauto|]. apply H. now right. }
  exists w'. split; [cbn [foldM]; unfold detach at 1; rewrite El; exact E'|]. split; [|exact B]. intro y. rewrite A. cbn [objs]. unfold memb in *. cbn [existsb]. unfold upd1. destruct (y =? x) eqn:Ey; cbn [orb].
  - replace y with x by lia. assert (existsb (Z.eqb x) ts = false) as -> by (fold (memb x ts); now apply memb_not). now rewrite El.
  - reflexivity.
Qed.
Lemma del_obs_ok ord o w t : (forall l, Permutation (ord l) l) -> wfw w -> obsv w o = Some t ->
  exists w', del_obs ord o w = Ok w' /\ wfw w' /\ (forall p, obsv w' p = if p =? o then None else obsv w p) /\ (forall x, objs w' x = option_map (sdel o) (objs w x)).
Proof.
  intros Po W Eo. assert (W' := W). destruct W as [H1 H2 H3 H4]. destruct (detach_loop o (ord t) w) as (w' & E' & A & B).
  - eapply Permutation_NoDup; [symmetry; apply Po|]. eauto.
  - intros x Ix. apply (Permutation_in _ (Po t)) in Ix. destruct (H3 _ _ _ Eo Ix) as (l & El & _). eauto.
  - exists (World (objs w') (upd1 o None (obsv w'))). split; [unfold del_obs; rewrite Eo, E'; reflexivity|].
    assert (C : forall x, objs w' x = option_map (sdel o) (objs w x)).
    { intro x. rewrite A. destruct (memb x (ord t)) eqn:M; [reflexivity|]. apply memb_not in M. destruct (objs w x) as [l|] eqn:El; [|reflexivity]. cbn. f_equal. symmetry. apply sdel_out. intro I.
      destruct (H4 _ _ _ El I) as (t' & Et & It). rewrite Eo in Et. injection Et as <-. apply M. apply (Permutation_in _ (Permutation_sym (Po t))). exact It. }
    split; [|split; [intro y; cbn; unfold upd1; now rewrite B|exact C]]. split; cbn; intros *.
    + rewrite C. destruct (objs w x) eqn:Et; cbn; [|discriminate]. intro Q; injection Q as <-. apply sdel_nodup. eauto.
    + unfold upd1. destruct (_ =? _); [discriminate|]. rewrite B. apply H2.
    + unfold upd1. destruct (o0 =? o) eqn:Q; [discriminate|]. rewrite B. intros E0 I. destruct (H3 _ _ _ E0 I) as (l & El & Il). exists (sdel o l). rewrite C, El. split; [reflexivity|]. apply sdel_in. split; [lia|assumption].
    + rewrite C. destruct (objs w x) eqn:Et; cbn; [|discriminate]. intros Q I; injection Q as <-. apply sdel_in in I as [Ne I]. destruct (H4 _ _ _ Et I) as (l' & El). exists l'. rewrite upd1_other by assumption. now rewrite B.
Qed.

(* ---- C39 *)
Definition agree (w : world) (a : links) : Prop :=
  wfw w /\ (forall x, objs w x <> None <-> In x (live_obj a)) /\ (forall o, obsv w o <> None <-> In o (live_obs a)) /\
  (forall o x, knows_target w o x <-> In (o, x) (pairs_of a)) /\ NoDup (live_obj a) /\ NoDup (live_obs a).
Lemma knows_sym w o x : wfw w -> (knows_target w o x <-> knows_observer w x o).
Proof. intros [H1 H2 H3 H4]. split; intros (t & E & I); [destruct (H3 _ _ _ E I) as (l & ?)|destruct (H4 _ _ _ E I) as (l & ?)]; exists l; tauto. Qed.
Definition sig1 (e : oevent) (a : links) : list (Z * Z) :=
  match e with DelObj x => map (fun o => (o, x)) (nodup Z.eq_dec (map fst (filter (fun p => snd p =? x) (pairs_of a)))) | _ => [] end.
Lemma log_loop x l : forall s, foldM (fun o => log_act o x) l s = Ok (s ++ map (fun o => (o, x)) l).
Proof. induction l as [|o l IH]; intro s; [cbn; now rewrite app_nil_r|]. cbn [foldM log_act bind]. rewrite IH, <- app_assoc. reflexivity. Qed.
Lemma some_or {A} (o : option A) : o <> None -> exists a, o = Some a. Proof. destruct o; [eauto|congruence]. Qed.
Lemma drop_in y x l : In y (drop x l) <-> y <> x /\ In y l. Proof. apply sdel_in. Qed.
Lemma ostep_ok ord e w s a : (forall l, Permutation (ord l) l) -> agree w a -> possible e a ->
  exists w' s', ostep ord e (w, s) = Ok (w', s') /\ agree w' (after e a) /\ exists d, s' = s ++ d /\ Permutation d (sig1 e a).
Proof.
  intros Po (W & Ao & Ab & Ap & No & Nb) P. destruct e; cbn [ostep possible after sig1] in *.
  - destruct (objs w x) eqn:Ex; [exfalso; apply P, Ao; congruence|]. unfold new_obj. rewrite Ex. cbn [bind]. do 2 eexists. split; [reflexivity|]. split; [|exists []; now rewrite app_nil_r].
    split; [now apply wfw_new_obj|]. cbn. split; [|split; [exact Ab|split; [|split; [now constructor|assumption]]]].
    + intro y. unfold upd1. destruct (y =? x) eqn:E; [split; [left; lia|discriminate]|]. rewrite Ao. split; [auto|]. intros [?|?]; [lia|assumption].
    + intros o y. rewrite <- Ap. unfold knows_target. reflexivity.
  - destruct (obsv w o) eqn:Ex; [exfalso; apply P, Ab; congruence|]. unfold new_obs. rewrite Ex. cbn [bind]. do 2 eexists. split; [reflexivity|]. split; [|exists []; now rewrite app_nil_r].
    split; [now apply wfw_new_obs|]. cbn. split; [exact Ao|split; [|split; [|split; [assumption|now constructor]]]].
    + intro y. unfold upd1. destruct (y =? o) eqn:E; [split; [left; lia|discriminate]|]. rewrite Ab. split; [auto|]. intros [?|?]; [lia|assumption].
    + intros p y. rewrite <- Ap. unfold knows_target. cbn. unfold upd1. destruct (p =? o) eqn:E; [|reflexivity]. replace p with o by lia. split; intros (t & Et & I); [injection Et as <-; contradiction|congruence].
  - destruct P as [Po' Px]. apply Ab, some_or in Po' as (t & Et). apply Ao, some_or in Px as (l & El). destruct (add_ok o x w t l W Et El) as (w' & E' & W' & A & B). rewrite E'. cbn [bind].
    do 2 eexists. split; [reflexivity|]. split; [|exists []; now rewrite app_nil_r]. split; [assumption|]. cbn. split; [|split; [|split; [|tauto]]].
    + intro y. rewrite A. destruct (y =? x) eqn:E; [replace y with x by lia; rewrite <- Ao; split; congruence|apply Ao].
    + intro y. rewrite B. destruct (y =? o) eqn:E; [replace y with o by lia; rewrite <- Ab; split; congruence|apply Ab].
    + intros p y. rewrite <- Ap. unfold knows_target. rewrite B. destruct (p =? o) eqn:E.
      * replace p with o by lia. split.
        -- intros (t' & Q & I). injection Q as <-. apply sadd_in in I as [->|I]; [now left|right; eauto].
        -- intros [Q|(t' & Q & I)]; exists (sadd x t); (split; [reflexivity|]); apply sadd_in; [left; congruence|right; congruence].
      * split; [auto|]. intros [Q|?]; [injection Q; lia|assumption].
  - destruct P as [Po' Px]. apply Ab, some_or in Po' as (t & Et). apply Ao, some_or in Px as (l & El). destruct (remove_ok o x w t l W Et El) as (w' & E' & W' & A & B). rewrite E'. cbn [bind].
    do 2 eexists. split; [reflexivity|]. split; [|exists []; now rewrite app_nil_r]. split; [assumption|]. cbn. split; [|split; [|split; [|tauto]]].
    + intro y. rewrite A. destruct (y =? x) eqn:E; [replace y with x by lia; rewrite <- Ao; split; congruence|apply Ao].
    + intro y. rewrite B. destruct (y =? o) eqn:E; [replace y with o by lia; rewrite <- Ab; split; congruence|apply Ab].
    + intros p y. rewrite filter_In. cbn [fst snd]. rewrite <- Ap. unfold knows_target. rewrite B. destruct (p =? o) eqn:E; cbn [andb negb].
      * replace p with o by lia. split.
        -- intros (t' & Q & I). injection Q as <-. apply sdel_in in I as [Ne I]. split; [eauto|]. apply negb_true_iff, Z.eqb_neq. assumption.
        -- intros [(t' & Q & I) N]. exists (sdel x t). split; [reflexivity|]. apply sdel_in. split; [lia|congruence].
      * tauto.
  - apply Ao, some_or in P as (l & El). assert (E := log_loop x (ord l) s). destruct (del_obj_ok log_act ord x w s l _ Po W El E) as (w' & E' & W' & A & B). rewrite E'.
    do 2 eexists. split; [reflexivity|]. split.
    + split; [assumption|]. cbn. split; [|split; [|split; [|split; [now apply NoDup_filter|assumption]]]].
      * intro y. rewrite A, drop_in, <- Ao. destruct (y =? x) eqn:Ey; [split; [congruence|lia]|]. split; [split; [lia|assumption]|tauto].
      * intro o. rewrite B, <- Ab. destruct (obsv w o); cbn; split; congruence.
      * intros o y. rewrite filter_In. cbn. rewrite <- Ap, negb_true_iff, Z.eqb_neq. unfold knows_target. rewrite B. split.
        -- intros (t & Q & I). destruct (obsv w o) eqn:Eo; cbn in Q; [|discriminate]. injection Q as <-. apply sdel_in in I. split; [|tauto]. eexists. split; [reflexivity|]. tauto.
        -- intros [(t & Q & I) N]. rewrite Q. cbn. exists (sdel x t). split; [reflexivity|]. now apply sdel_in.
    + eexists. split; [reflexivity|]. apply Permutation_map. rewrite Po. destruct W as [H1 H2 H3 H4]. apply NoDup_Permutation; [eauto|apply NoDup_nodup|]. intro o. rewrite nodup_In, in_map_iff. split.
      * intro I. exists (o, x). split; [reflexivity|]. rewrite filter_In, Z.eqb_refl. split; [|reflexivity]. apply Ap. destruct (H4 _ _ _ El I) as (t & Et). now exists t.
      * intros ([o' y] & <- & I). rewrite filter_In in I. destruct I as [I Q]. cbn in Q. apply Ap in I as (t & Et & It). destruct (H3 _ _ _ Et It) as (l' & El' & Il). replace y with x in * by lia. cbn. congruence.
  - apply Ab, some_or in P as (t & Et). destruct (del_obs_ok ord o w t Po W Et) as (w' & E' & W' & A & B). rewrite E'. cbn [bind].
    do 2 eexists. split; [reflexivity|]. split; [|exists []; now rewrite app_nil_r]. split; [assumption|]. cbn. split; [|split; [|split; [|split; [assumption|now apply NoDup_filter]]]].
    + intro y. rewrite B, <- Ao. destruct (objs w y); cbn; split; congruence.
    + intro p. rewrite A, drop_in, <- Ab. destruct (p =? o) eqn:Ey; [split; [congruence|lia]|]. split; [split; [lia|assumption]|tauto].
    + intros p y. rewrite filter_In. cbn. rewrite <- Ap, negb_true_iff, Z.eqb_neq. unfold knows_target. rewrite A. destruct (p =? o) eqn:E; [|intuition lia]. split; [intros (? & ? & _); discriminate|lia].
Qed.
Lemma orun_ok ord h : (forall l, Permutation (ord l) l) -> forall w s a, agree w a -> all_possible h a ->
  exists w' d, foldM (ostep ord) h (w, s) = Ok (w', s ++ d) /\ agree w' (fold_left (fun a e => after e a) h a) /\ Permutation d (signals h a).
Proof.
  intro Po. induction h as [|e h IH]; intros w s a A P; [exists w, []; rewrite app_nil_r; repeat split; auto; apply A|]. destruct P as [P Ps].
  destruct (ostep_ok ord e w s a Po A P) as (w1 & s1 & E & A1 & d & -> & Pd). destruct (IH w1 (s ++ d) _ A1 Ps) as (w' & d' & E' & A' & Pd'). exists w', (d ++ d'). split; [|split; [exact A'|]].
  - cbn [foldM]. rewrite E. cbn [bind]. rewrite E', app_assoc. reflexivity.
  - cbn [signals]. now apply Permutation_app.
Qed.
Lemma agree0 : agree w0 l0.
Proof. split; [apply wfw0|]. cbn. repeat split; try tauto; try congruence; try constructor. intros (t & E & _). discriminate. Qed.
Lemma observers_ok ord h : (forall l, Permutation (ord l) l) -> all_possible h l0 -> exists w log, orun ord h = Ok (w, log) /\
  (forall o x, knows_target w o x <-> In (o, x) (pairs_of (history h))) /\ (forall o x, knows_observer w x o <-> In (o, x) (pairs_of (history h))) /\
  (forall x, objs w x <> None <-> In x (live_obj (history h))) /\ (forall o, obsv w o <> None <-> In o (live_obs (history h))) /\
  (forall o x, In (o, x) (pairs_of (history h)) -> In o (live_obs (history h)) /\ In x (live_obj (history h))) /\ Permutation log (signals h l0).
Proof.
  intros Po P. destruct (orun_ok ord h Po w0 [] l0 agree0 P) as (w & d & E & (W & Ao & Ab & Ap & _) & Pd). exists w, d. split; [exact E|]. split; [exact Ap|].
  split; [intros o x; rewrite <- knows_sym by assumption; apply Ap|]. split; [exact Ao|]. split; [exact Ab|]. split; [|exact Pd].
  intros o x I. apply Ap in I. assert (I' := I). apply knows_sym in I'; [|assumption]. destruct I as (t & Et & _), I' as (l & El & _). split; [apply Ab|apply Ao]; congruence.
Qed.
