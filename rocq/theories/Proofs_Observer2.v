From Verif Require Import Base BaseFacts Model_Observer Spec_Observer Proofs_Observer.
Local Open Scope Z_scope.

Lemma keq_true k k' : keq k k' = true <-> k = k'.
Proof. unfold keq. destruct (list_eq_dec _ _ _); split; congruence. Qed.
Lemma keq_refl k : keq k k = true. Proof. now apply keq_true. Qed.
Lemma keq_false k k' : k <> k' -> keq k k' = false. Proof. unfold keq. destruct (list_eq_dec _ _ _); congruence. Qed.

Section Generic.
Context {V : Type} (b : bank V) (ord : list Z -> list Z) (make : list Z -> V).
Hypothesis Hord : forall l, Permutation (ord l) l.
Variables (n : Z) (shape : list Z -> Prop) (hits : Z -> Z -> list Z -> bool) (LI : bstate b -> Prop) (tracked : Z -> Z -> bstate b -> Prop).
Hypothesis Hinit : LI (binit b) /\ forall ks, btab b (binit b) ks = None.
Hypothesis Hhits : forall ks x, shape ks -> (In x ks <-> exists o, 0 <= o < n /\ hits o x ks = true).
Hypothesis Hact : forall s o x, LI s -> tracked o x s -> 0 <= o < n -> exists s', bact b o x s = Ok s' /\ LI s' /\
  (forall ks, btab b s' ks = if hits o x ks then None else btab b s ks) /\ (forall o' y, 0 <= o' < n -> o' <> o \/ y <> x -> tracked o' y s -> tracked o' y s').
Hypothesis Hreg : forall w s ks, LI s -> shape ks -> wfw w -> (forall o, 0 <= o < n -> obsv w o <> None) -> (forall x, In x ks -> objs w x <> None) ->
  exists w' s', breg b ks (w, s) = Ok (w', s') /\ wfw w' /\ (forall x, objs w' x <> None <-> objs w x <> None) /\ (forall o, obsv w' o <> None <-> obsv w o <> None) /\
    (forall o x, knows_target w' o x <-> knows_target w o x \/ (0 <= o < n /\ hits o x ks = true)) /\
    (forall v, LI (binsert b ks v s')) /\ (forall v k, btab b (binsert b ks v s') k = if keq k ks then Some v else btab b s k) /\
    (forall o x v, tracked o x s \/ (0 <= o < n /\ hits o x ks = true) -> tracked o x (binsert b ks v s')).

Record inv (s : cst b) (l : lives) : Prop := Inv {
  i_w : wfw (cw b s);
  i_obj : forall x, objs (cw b s) x <> None <-> at_ l x <> None;
  i_id : forall x i, at_ l x = Some i -> cid b s x = i /\ 0 <= i < born l;
  i_inj : forall x y i, at_ l x = Some i -> at_ l y = Some i -> x = y;
  i_next : cnext b s = born l;
  i_born : 0 <= born l;
  i_obs : forall o, 0 <= o < n -> obsv (cw b s) o <> None;
  i_li : LI (cb b s);
  i_tab : forall ks v, btab b (cb b s) ks = Some v -> shape ks /\ (forall x, In x ks -> at_ l x <> None) /\ v = make (lifetimes l ks) /\
            forall o x, 0 <= o < n -> hits o x ks = true -> knows_target (cw b s) o x;
  i_trk : forall o x, knows_target (cw b s) o x -> 0 <= o < n /\ tracked o x (cb b s);
  i_nd : NoDup (ccalls b s);
  i_old : forall c i, In c (ccalls b s) -> In i c -> 0 <= i < born l;
  i_once : forall ks, shape ks -> (forall x, In x ks -> at_ l x <> None) -> In (lifetimes l ks) (ccalls b s) -> btab b (cb b s) ks <> None }.
Lemma ids_lifetimes s l ks : inv s l -> (forall x, In x ks -> at_ l x <> None) -> map (cid b s) ks = lifetimes l ks.
Proof. intros I H. unfold lifetimes. apply map_ext_in. intros x Hx. specialize (H x Hx). destruct (at_ l x) as [i|] eqn:E; [|congruence]. now apply (i_id s l I) in E. Qed.
Lemma act_loop x os : forall s, LI s -> NoDup os -> (forall o, In o os -> tracked o x s /\ 0 <= o < n) ->
  exists s', foldM (fun o => bact b o x) os s = Ok s' /\ LI s' /\ (forall ks, btab b s' ks = if existsb (fun o => hits o x ks) os then None else btab b s ks) /\
    (forall o y, 0 <= o < n -> y <> x -> tracked o y s -> tracked o y s').
Proof.
  induction os as [|o os IH]; intros s L N H; [exists s; repeat split; auto|]. inversion N as [|? ? No Nl]; subst. destruct (H o (or_introl eq_refl)) as [T B].
  destruct (Hact s o x L T B) as (s1 & E1 & L1 & T1 & K1). destruct (IH s1 L1 Nl) as (s' & E' & L' & T' & K').
  { intros o' Io. destruct (H o' (or_intror Io)) as [T2 B2]. split; [|assumption]. apply K1; [assumption|left; congruence|assumption]. }
  exists s'. split; [cbn [foldM]; rewrite E1; exact E'|]. split; [assumption|]. split.
  - intro ks. rewrite T', T1. cbn [existsb]. destruct (hits o x ks); cbn [orb]; [destruct (existsb _ _); reflexivity|reflexivity].
  - intros o' y Bo Ne T2. apply K'; [assumption|assumption|]. apply K1; [assumption|now right|assumption].
Qed.
Lemma step_ok s l e : inv s l -> can shape e l -> exists v s', step b ord make e s = Ok (v, s') /\ inv s' (grow e l) /\
  v = match e with Look ks => Some (make (lifetimes l ks)) | _ => None end.
Proof.
  intros I C. assert (I' := I). destruct I. destruct e as [x|x|ks]; cbn [can step grow] in *.
  - unfold new_obj. destruct (objs (cw b s) x) eqn:Ex; [exfalso; apply (proj1 (i_obj0 x)); congruence|]. cbn [bind]. do 2 eexists. split; [reflexivity|]. split; [|reflexivity].
    assert (K : forall ks, (forall y, In y ks -> at_ l y <> None) -> lifetimes (Lives (upd1 x (Some (born l)) (at_ l)) (born l + 1)) ks = lifetimes l ks).
    { intros ks H. unfold lifetimes. apply map_ext_in. intros y Iy. cbn. rewrite upd1_other; [reflexivity|]. intros ->. now apply (H x). }
    split; cbn [cw cb cid cnext ccalls at_ born objs obsv]; auto.
    + now apply wfw_new_obj.
    + intro y. unfold upd1. destruct (y =? x); [split; discriminate|apply i_obj0].
    + intros y i. unfold upd1. destruct (y =? x) eqn:E.
      * intro Q. injection Q as <-. split; [assumption|lia].
      * intro Q. apply i_id0 in Q. split; [tauto|lia].
    + intros y z i. unfold upd1. destruct (y =? x) eqn:E1, (z =? x) eqn:E2; intros Q1 Q2; [lia| | |eauto].
      * injection Q1 as <-. apply i_id0 in Q2. lia.
      * injection Q2 as <-. apply i_id0 in Q1. lia.
    + lia.
    + lia.
    + intros ks v H. destruct (i_tab0 ks v H) as (A & B & D & E). split; [assumption|]. split; [|split; [|assumption]].
      * intros y Iy. unfold upd1. destruct (y =? x); [discriminate|auto].
      * now rewrite K.
    + intros c i Ic Ii. specialize (i_old0 c i Ic Ii). lia.
    + intros ks Sh H Ic. assert (Hx : ~ In x ks).
      { intro Ix. specialize (i_old0 _ (born l) Ic). assert (In (born l) (lifetimes (Lives (upd1 x (Some (born l)) (at_ l)) (born l + 1)) ks)); [|intuition lia].
        apply in_map_iff. exists x. cbn. now rewrite upd1_same. }
      assert (H' : forall y, In y ks -> at_ l y <> None). { intros y Iy. specialize (H y Iy). rewrite upd1_other in H; [assumption|congruence]. }
      apply i_once0; auto. now rewrite K in Ic.
  - apply (proj2 (i_obj0 x)) in C. destruct (objs (cw b s) x) as [os|] eqn:Ex; [|congruence]. 
    destruct (act_loop x (ord os) (cb b s)) as (s' & Es & Ls & Ts & Ks); auto.
    { eapply Permutation_NoDup; [symmetry; apply Hord|]. eapply w_no; eassumption. }
    { intros o Io. apply (Permutation_in _ (Hord os)) in Io. destruct (i_trk0 o x) as [A B]; [|auto]. destruct (w_to _ i_w0 _ _ _ Ex Io) as (t & Et). now exists t. }
    destruct (del_obj_ok (bact b) ord x (cw b s) (cb b s) os s' Hord i_w0 Ex Es) as (w' & E' & W' & A & B). rewrite E'. cbn [bind]. do 2 eexists. split; [reflexivity|]. split; [|reflexivity].
    assert (Kt : forall o y, knows_target w' o y <-> knows_target (cw b s) o y /\ y <> x).
    { intros o y. unfold knows_target. rewrite B. split.
      - intros (t & Q & Iy). destruct (obsv (cw b s) o) eqn:Eo; [|discriminate]. injection Q as <-. apply sdel_in in Iy. split; [|tauto]. eexists. split; [reflexivity|tauto].
      - intros [(t & Q & Iy) Ne]. rewrite Q. cbn. eexists. split; [reflexivity|]. now apply sdel_in. }
    assert (Hit : forall ks, existsb (fun o => hits o x ks) (ord os) = true -> btab b (cb b s) ks <> None -> In x ks).
    { intros ks H T. apply existsb_exists in H as (o & Io & Ho). destruct (btab b (cb b s) ks) eqn:Et; [|congruence]. destruct (i_tab0 _ _ Et) as (Sh & _). apply Hhits; [assumption|]. exists o. split; [|assumption].
      apply (Permutation_in _ (Hord os)) in Io. destruct (w_to _ i_w0 _ _ _ Ex Io) as (t & Et'). apply (i_trk0 o x). now exists t. }
    assert (Tab : forall ks, btab b s' ks = if memb x ks then None else btab b (cb b s) ks).
    { intro ks. rewrite Ts. destruct (memb x ks) eqn:M.
      - apply memb_in in M. destruct (existsb _ _) eqn:Eb; [reflexivity|]. destruct (btab b (cb b s) ks) eqn:Et; [|reflexivity]. exfalso. destruct (i_tab0 _ _ Et) as (Sh & _ & _ & Kn). apply (Hhits ks x Sh) in M as (o & Bo & Ho).
        specialize (Kn o x Bo Ho). apply (knows_sym _ _ _ i_w0) in Kn as (l' & El & Il). rewrite Ex in El. injection El as <-.
        assert (existsb (fun o => hits o x ks) (ord os) = true); [|congruence]. apply existsb_exists. exists o. split; [|assumption]. now apply (Permutation_in _ (Permutation_sym (Hord os))).
      - apply memb_not in M. destruct (existsb _ _) eqn:Eb; [|reflexivity]. destruct (btab b (cb b s) ks) eqn:Et; [|reflexivity]. exfalso. apply M. apply Hit; [assumption|congruence]. }
    assert (K : forall ks, ~ In x ks -> lifetimes (Lives (upd1 x None (at_ l)) (born l)) ks = lifetimes l ks).
    { intros ks H. unfold lifetimes. apply map_ext_in. intros y Iy. cbn. rewrite upd1_other; [reflexivity|]. congruence. }
    split; cbn [cw cb cid cnext ccalls at_ born]; auto.
    + intro y. rewrite A. unfold upd1. destruct (y =? x); [tauto|apply i_obj0].
    + intros y i. unfold upd1. destruct (y =? x); [discriminate|apply i_id0].
    + intros y z i. unfold upd1. destruct (y =? x), (z =? x); try discriminate. apply i_inj0.
    + intros o Bo. rewrite B. specialize (i_obs0 o Bo). destruct (obsv (cw b s) o); [discriminate|congruence].
    + intros ks v. rewrite Tab. destruct (memb x ks) eqn:M; [discriminate|]. apply memb_not in M. intro Et. destruct (i_tab0 _ _ Et) as (Sh & Al & Ev & Kn). split; [assumption|]. split; [|split].
      * intros y Iy. rewrite upd1_other; [auto|congruence].
      * now rewrite K.
      * intros o y Bo Ho. apply Kt. split; [auto|]. intros ->. apply M. apply Hhits; eauto.
    + intros o y Q. apply Kt in Q as [Q Ne]. destruct (i_trk0 o y Q). auto.
    + intros ks Sh H Ic. assert (Hx : ~ In x ks) by (intro Ix; specialize (H x Ix); rewrite upd1_same in H; congruence).
      rewrite Tab. rewrite (proj2 (memb_not x ks) Hx). apply i_once0; auto; [|now rewrite K in Ic]. intros y Iy. specialize (H y Iy). rewrite upd1_other in H; [assumption|congruence].
  - destruct C as [Sh Al]. unfold bcall. cbn [snd]. destruct (btab b (cb b s) ks) as [v|] eqn:Et.
    + cbn [bind]. do 2 eexists. split; [reflexivity|]. split.
      * split; cbn; auto.
      * destruct (i_tab0 _ _ Et) as (_ & _ & -> & _). reflexivity.
    + destruct (Hreg (cw b s) (cb b s) ks) as (w' & s' & E & W' & Ho & Hb & Kt & L' & T' & K'); auto. { intros x Ix. apply i_obj0. auto. }
      rewrite E. cbn [bind]. do 2 eexists. split; [reflexivity|]. rewrite (ids_lifetimes s l ks I' Al). split; [|reflexivity].
      split; cbn [cw cb cid cnext ccalls]; auto.
      * intro x. now rewrite Ho.
      * intros o Bo. apply Hb. auto.
      * intros k v. rewrite T'. destruct (keq k ks) eqn:Ek.
        -- apply keq_true in Ek. subst k. intro Q. injection Q as <-. split; [assumption|]. split; [assumption|]. split; [reflexivity|]. intros o x Bo Hx. apply Kt. auto.
        -- intro Q. destruct (i_tab0 _ _ Q) as (A & B & D & Kn). split; [assumption|]. split; [assumption|]. split; [assumption|]. intros o x Bo Hx. apply Kt. left. auto.
      * intros o x Q. apply Kt in Q as [Q|[Bo Q]]; [destruct (i_trk0 _ _ Q); split; auto|split; [assumption|auto]].
      * apply NoDup_rev in i_nd0. rewrite <- (rev_involutive (_ ++ _)), rev_app_distr. apply NoDup_rev. cbn. constructor; [|assumption]. rewrite <- in_rev. intro Ic. now apply (i_once0 ks).
      * intros c i Ic Ii. apply in_app_or in Ic as [Ic|[<-|[]]]; [eauto|]. apply in_map_iff in Ii as (x & <- & Ix). specialize (Al x Ix). destruct (at_ l x) eqn:Ex; [|congruence]. apply i_id0 in Ex. tauto.
      * intros k Sk Ak Ic. rewrite T'. destruct (keq k ks) eqn:Ek; [discriminate|]. apply in_app_or in Ic as [Ic|[Ic|[]]]; [auto|]. exfalso.
        assert (k = ks); [|subst k; now rewrite keq_refl in Ek]. clear - Ic Ak Al i_inj0. unfold lifetimes in Ic. revert ks Ic Ak Al. induction k as [|x k IHk]; intros [|y ks] Ic Ak Al; try discriminate; [reflexivity|].
        cbn in Ic. injection Ic as E1 E2. f_equal.
        -- specialize (Ak x (or_introl eq_refl)). specialize (Al y (or_introl eq_refl)). destruct (at_ l x) eqn:Ex; [|congruence]. destruct (at_ l y) eqn:Ey; [|congruence]. subst. eauto.
        -- apply IHk; auto; intros z Iz; [apply Ak|apply Al]; now right.
Qed.
Lemma run_ok h : forall s l, inv s l -> all_can shape h l -> exists s', brun b ord make h s = Ok (answers make h l, s') /\ NoDup (ccalls b s').
Proof.
  induction h as [|e h IH]; intros s l I C; [exists s; split; [reflexivity|apply I]|]. destruct C as [C Cs]. destruct (step_ok s l e I C) as (v & s1 & E & I1 & ->).
  destruct (IH s1 _ I1 Cs) as (s' & E' & N). exists s'. split; [|assumption]. cbn [brun answers]. rewrite E. cbn [bind]. rewrite E'. reflexivity.
Qed.
Lemma start_ok : inv (start b n) nobody.
Proof.
  split; cbn [start cw cb cid cnext ccalls nobody at_ born]; try discriminate; try contradiction; try lia; try tauto.
  - split; cbn [objs obsv]; try discriminate.
    + intros o t. destruct (_ && _); [|discriminate]. intro E. injection E as <-. constructor.
    + intros o x t. destruct (_ && _); [|discriminate]. intro E. injection E as <-. contradiction.
  - intros o Bo. cbn. replace (_ && _) with true by lia. discriminate.
  - intros ks v. rewrite (proj2 Hinit). discriminate.
  - intros o x (t & E & Ix). cbn in E. destruct (_ && _); [|discriminate]. injection E as <-. contradiction.
  - constructor.
Qed.
Lemma bank_ok h : all_can shape h nobody -> exists s', brun b ord make h (start b n) = Ok (answers make h nobody, s') /\ NoDup (ccalls b s').
Proof. apply run_ok. apply start_ok. Qed.
End Generic.

(* registering a list of (observer, object) *)
Lemma reg_list ps : forall w, wfw w -> (forall o x, In (o, x) ps -> obsv w o <> None /\ objs w x <> None) ->
  exists w', foldM (fun p => add_target (fst p) (snd p)) ps w = Ok w' /\ wfw w' /\ (forall x, objs w' x <> None <-> objs w x <> None) /\ (forall o, obsv w' o <> None <-> obsv w o <> None) /\
    (forall o x, knows_target w' o x <-> knows_target w o x \/ In (o, x) ps).
Proof.
  induction ps as [|[o x] ps IH]; intros w W H; [exists w; cbn; split; [reflexivity|]; split; [assumption|]; repeat split; tauto|].
  destruct (H o x (or_introl eq_refl)) as [Ho Hx]. apply some_or in Ho as (t & Et). apply some_or in Hx as (l & El). destruct (add_ok o x w t l W Et El) as (w1 & E1 & W1 & A & B).
  assert (O1 : forall y, objs w1 y <> None <-> objs w y <> None). { intro y. rewrite A. destruct (y =? x) eqn:Q; [replace y with x by lia; rewrite El; split; discriminate|reflexivity]. }
  assert (B1 : forall y, obsv w1 y <> None <-> obsv w y <> None). { intro y. rewrite B. destruct (y =? o) eqn:Q; [replace y with o by lia; rewrite Et; split; discriminate|reflexivity]. }
  destruct (IH w1 W1) as (w' & E' & W' & O' & B' & K').
  { intros p y Ip. rewrite O1, B1. apply H. now right. }
  exists w'. split; [cbn [foldM fst snd]; rewrite E1; exact E'|]. split; [assumption|]. split; [intro y; now rewrite O'|]. split; [intro y; now rewrite B'|].
  intros p y. rewrite K'. cbn [In]. unfold knows_target at 1. rewrite B. destruct (p =? o) eqn:Ep.
  - replace p with o by lia. split.
    + intros [(t' & Q & I)|I]; [|auto]. injection Q as <-. apply sadd_in in I as [->|I]; [right; left; reflexivity|left; now exists t].
    + intros [(t' & Q & I)|[Q|I]]; [left; exists (sadd x t); split; [reflexivity|]; apply sadd_in; right; congruence| |auto]. injection Q as <-. left. exists (sadd x t). split; [reflexivity|]. apply sadd_in. now left.
  - unfold knows_target. split; [tauto|]. intros [?|[Q|?]]; [auto| |auto]. injection Q as -> _. lia.
Qed.

Section One.
Context {V : Type} (ord : list Z -> list Z) (make : list Z -> V) (Hord : forall l, Permutation (ord l) l).
Definition len (k : nat) (ks : list Z) : Prop := length ks = k.
Lemma bank1_ok h : all_can (len 1) h nobody -> exists s', brun bank1 ord make h (start bank1 1) = Ok (answers make h nobody, s') /\ NoDup (ccalls bank1 s').
Proof.
  apply (bank_ok (bank1 (V := V)) ord make Hord 1 (len 1) (fun _ x ks => keq [x] ks) (fun _ => True) (fun _ _ _ => True)).
  - split; [exact I|reflexivity].
  - intros ks x L. destruct ks as [|y [|z ks]]; try discriminate. split.
    + intros [->|[]]. exists 0. split; [lia|apply keq_refl].
    + intros (o & _ & E). apply keq_true in E. injection E as ->. now left.
  - intros s o x _ _ _. eexists. split; [reflexivity|]. split; [exact I|]. split; [|auto]. intro ks. cbn. unfold kupd. destruct (keq ks [x]) eqn:E1, (keq [x] ks) eqn:E2; try reflexivity; [apply keq_true in E1; subst ks; rewrite keq_refl in E2; discriminate|apply keq_true in E2; subst ks; rewrite keq_refl in E1; discriminate].
  - intros w s ks _ L W Ho Hx. destruct ks as [|x [|z ks]]; try discriminate. destruct (reg_list [(0, x)] w W) as (w' & E & W' & A & B & K).
    { intros o y [Q|[]]. injection Q as <- <-. split; [apply Ho; lia|apply Hx; now left]. }
    exists w', s. cbn in E. destruct (add_target 0 x w) as [w1| |] eqn:E1; try discriminate. injection E as ->. cbn. rewrite E1. cbn. split; [reflexivity|]. split; [assumption|]. split; [assumption|]. split; [assumption|]. split.
    + intros o y. rewrite K. cbn [In]. split; (intros [H|H]; [now left|right]).
      * destruct H as [Q|[]]. injection Q as <- <-. split; [lia|apply keq_refl].
      * destruct H as [Bo Q]. apply keq_true in Q. injection Q as ->. left. f_equal. lia.
    + auto.
Qed.

Definition hit (k : nat) (o x : Z) (ks : list Z) : bool := (length ks =? k)%nat && (nth (Z.to_nat o) ks 0 =? x).
Lemma hit_in k ks x : len k ks -> (In x ks <-> exists o, 0 <= o < Z.of_nat k /\ hit k o x ks = true).
Proof.
  unfold len, hit. intro L. rewrite L, Nat.eqb_refl. cbn [andb]. split.
  - intro I. apply (In_nth _ _ 0) in I as (i & Li & E). exists (Z.of_nat i). rewrite Nat2Z.id. split; [lia|]. apply Z.eqb_eq. assumption.
  - intros (o & Bo & E). apply Z.eqb_eq in E. subst x. apply nth_In. lia.
Qed.

(* pairs *)
Definition LI2 (s : st2 V) : Prop := forall ks v, tab2 s ks = Some v -> exists x y m0 m1, ks = [x; y] /\ look0 s x = Some m0 /\ In y m0 /\ look1 s y = Some m1 /\ In x m1.
Lemma erase0_ok x s : LI2 s -> LI2 (erase0 x s) /\ forall ks, tab2 (erase0 x s) ks = if hit 2 0 x ks then None else tab2 s ks.
Proof.
  intro L. unfold erase0. destruct (look0 s x) as [l|] eqn:El.
  - assert (H : forall l (s : st2 V), let s' := fold_left (fun s y => St2 (kupd [x; y] None (tab2 s)) (look0 s) (upd1 y (Some (sdel x (olist (look1 s y)))) (look1 s))) l s in
       (forall ks, tab2 s' ks = if existsb (fun y => keq ks [x; y]) l then None else tab2 s ks) /\ look0 s' = look0 s /\
       (forall b a m, a <> x -> look1 s b = Some m -> In a m -> exists m', look1 s' b = Some m' /\ In a m')).
    { clear. induction l as [|y l IH]; intro s; cbn zeta; cbn [fold_left existsb]; [repeat split; eauto|]. specialize (IH (St2 (kupd [x; y] None (tab2 s)) (look0 s) (upd1 y (Some (sdel x (olist (look1 s y)))) (look1 s)))).
      cbn zeta in IH. destruct IH as (A & B & C). split; [|split].
      - intro ks. rewrite A. cbn [tab2]. unfold kupd. destruct (keq ks [x; y]); cbn [orb]; [destruct (existsb _ _); reflexivity|reflexivity].
      - rewrite B. reflexivity.
      - intros b a m Ne Eb I. cbn [look1] in C. destruct (Z.eq_dec b y) as [->|Nb].
        + apply (C y a (sdel x m) Ne); [rewrite upd1_same, Eb; reflexivity|]. now apply sdel_in.
        + apply (C b a m Ne); [now rewrite upd1_other|assumption]. }
    specialize (H l s). cbn zeta in H. set (s' := fold_left _ l s) in *. destruct H as (A & B & C).
    assert (T : forall ks, tab2 s' ks = if hit 2 0 x ks then None else tab2 s ks).
    { intro ks. rewrite A. destruct (existsb _ l) eqn:Eb.
      - apply existsb_exists in Eb as (y & _ & E). apply keq_true in E. subst ks. unfold hit. cbn. now rewrite Z.eqb_refl.
      - destruct (hit 2 0 x ks) eqn:Eh; [|reflexivity]. destruct (tab2 s ks) eqn:Et; [|reflexivity]. exfalso. destruct (L _ _ Et) as (a & b & m0 & m1 & -> & E0 & I0 & _). unfold hit in Eh. cbn in Eh. replace a with x in * by lia.
        rewrite El in E0. injection E0 as <-. assert (existsb (fun y => keq [x; b] [x; y]) l = true); [|congruence]. apply existsb_exists. exists b. split; [assumption|apply keq_refl]. }
    split; [|exact T]. intros ks v. cbn [tab2 look0 look1]. rewrite T. destruct (hit 2 0 x ks) eqn:Eh; [discriminate|]. intro Et. destruct (L _ _ Et) as (a & b & m0 & m1 & -> & E0 & I0 & E1 & I1).
    unfold hit in Eh. cbn in Eh. assert (a <> x) by lia. destruct (C b a m1) as (m1' & E1' & I1'); auto. exists a, b, m0, m1'. split; [reflexivity|]. rewrite upd1_other by assumption. rewrite B. auto.
  - split; [assumption|]. intro ks. destruct (hit 2 0 x ks) eqn:Eh; [|reflexivity]. destruct (tab2 s ks) eqn:Et; [|reflexivity]. exfalso. destruct (L _ _ Et) as (a & b & m0 & m1 & -> & E0 & _). unfold hit in Eh. cbn in Eh. replace a with x in * by lia. congruence.
Qed.
Lemma erase1_ok y s : LI2 s -> LI2 (erase1 y s) /\ forall ks, tab2 (erase1 y s) ks = if hit 2 1 y ks then None else tab2 s ks.
Proof.
  intro L. unfold erase1. destruct (look1 s y) as [l|] eqn:El.
  - assert (H : forall l (s : st2 V), let s' := fold_left (fun s x => St2 (kupd [x; y] None (tab2 s)) (upd1 x (Some (sdel y (olist (look0 s x)))) (look0 s)) (look1 s)) l s in
       (forall ks, tab2 s' ks = if existsb (fun x => keq ks [x; y]) l then None else tab2 s ks) /\ look1 s' = look1 s /\
       (forall b a m, a <> y -> look0 s b = Some m -> In a m -> exists m', look0 s' b = Some m' /\ In a m')).
    { clear. induction l as [|x l IH]; intro s; cbn zeta; cbn [fold_left existsb]; [repeat split; eauto|]. specialize (IH (St2 (kupd [x; y] None (tab2 s)) (upd1 x (Some (sdel y (olist (look0 s x)))) (look0 s)) (look1 s))).
      cbn zeta in IH. destruct IH as (A & B & C). split; [|split].
      - intro ks. rewrite A. cbn [tab2]. unfold kupd. destruct (keq ks [x; y]); cbn [orb]; [destruct (existsb _ _); reflexivity|reflexivity].
      - rewrite B. reflexivity.
      - intros b a m Ne Eb I. cbn [look0] in C. destruct (Z.eq_dec b x) as [->|Nb].
        + apply (C x a (sdel y m) Ne); [rewrite upd1_same, Eb; reflexivity|]. now apply sdel_in.
        + apply (C b a m Ne); [now rewrite upd1_other|assumption]. }
    specialize (H l s). cbn zeta in H. set (s' := fold_left _ l s) in *. destruct H as (A & B & C).
    assert (T : forall ks, tab2 s' ks = if hit 2 1 y ks then None else tab2 s ks).
    { intro ks. rewrite A. destruct (existsb _ l) eqn:Eb.
      - apply existsb_exists in Eb as (x & _ & E). apply keq_true in E. subst ks. unfold hit. cbn. now rewrite Z.eqb_refl.
      - destruct (hit 2 1 y ks) eqn:Eh; [|reflexivity]. destruct (tab2 s ks) eqn:Et; [|reflexivity]. exfalso. destruct (L _ _ Et) as (a & b & m0 & m1 & -> & _ & _ & E0 & I0). unfold hit in Eh. change (nth (Z.to_nat 1) [a; b] 0) with b in Eh. cbn in Eh. replace b with y in * by lia.
        rewrite El in E0. injection E0 as <-. assert (existsb (fun x => keq [a; y] [x; y]) l = true); [|congruence]. apply existsb_exists. exists a. split; [assumption|apply keq_refl]. }
    split; [|exact T]. intros ks v. cbn [tab2 look0 look1]. rewrite T. destruct (hit 2 1 y ks) eqn:Eh; [discriminate|]. intro Et. destruct (L _ _ Et) as (a & b & m0 & m1 & -> & E0 & I0 & E1 & I1).
    unfold hit in Eh. change (nth (Z.to_nat 1) [a; b] 0) with b in Eh. cbn in Eh. assert (b <> y) by lia. destruct (C a b m0) as (m0' & E0' & I0'); auto. exists a, b, m0', m1. split; [reflexivity|]. rewrite upd1_other by assumption. rewrite B. auto.
  - split; [assumption|]. intro ks. destruct (hit 2 1 y ks) eqn:Eh; [|reflexivity]. destruct (tab2 s ks) eqn:Et; [|reflexivity]. exfalso. destruct (L _ _ Et) as (a & b & m0 & m1 & -> & _ & _ & E0 & _). unfold hit in Eh. change (nth (Z.to_nat 1) [a; b] 0) with b in Eh. cbn in Eh. replace b with y in * by lia. congruence.
Qed.
Lemma olist_in {A} (o : option (list A)) x : In x (olist o) <-> exists l, o = Some l /\ In x l.
Proof. destruct o; cbn; split; [eauto|intros (? & E & I); congruence|intros []|intros (? & E & _); discriminate]. Qed.
Lemma bank2_ok h : all_can (len 2) h nobody -> exists s', brun bank2 ord make h (start bank2 2) = Ok (answers make h nobody, s') /\ NoDup (ccalls bank2 s').
Proof.
  apply (bank_ok (bank2 (V := V)) ord make Hord 2 (len 2) (hit 2) LI2 (fun _ _ _ => True)).
  - split; [intros ks v; discriminate|reflexivity].
  - intros ks x. apply (hit_in 2).
  - intros s o x L _ Bo. eexists. split; [reflexivity|]. destruct (Z.eq_dec o 0) as [->|No].
    + cbn. destruct (erase0_ok x s L) as [A B]. split; [assumption|]. split; auto.
    + replace o with 1 by lia. cbn. destruct (erase1_ok x s L) as [A B]. split; [assumption|]. split; auto.
  - intros w s ks L Ln W Ho Hx. destruct ks as [|x [|y [|z ks]]]; try discriminate. destruct (reg_list [(0, x); (1, y)] w W) as (w' & E & W' & A & B & K).
    { intros o u [Q|[Q|[]]]; injection Q as <- <-; (split; [apply Ho; lia|apply Hx; cbn; auto]). }
    cbn in E. destruct (add_target 0 x w) as [w1| |] eqn:E1; try discriminate. cbn in E. destruct (add_target 1 y w1) as [w2| |] eqn:E2; try discriminate. injection E as ->. cbn. rewrite E1. cbn. rewrite E2. cbn.
    do 2 eexists. split; [reflexivity|]. split; [assumption|]. split; [assumption|]. split; [assumption|]. split; [|split; [|split; [|auto]]].
    + intros o u. rewrite K. cbn [In]. unfold hit. cbn [length Nat.eqb andb]. split; (intros [H|H]; [now left|right]).
      * destruct H as [Q|[Q|[]]]; injection Q as <- <-; (split; [lia|apply Z.eqb_refl]).
      * destruct H as [Bo Q]. assert (Hc : o = 0 \/ o = 1) by lia. destruct Hc as [-> | ->]; apply Z.eqb_eq in Q; [left|right; left]; f_equal; exact Q.
    + intros v ks v'. cbn [tab2 look0 look1]. unfold kupd. destruct (keq ks [x; y]) eqn:Ek.
      * intros _. apply keq_true in Ek. subst ks. do 4 eexists. split; [reflexivity|]. rewrite !upd1_same. split; [reflexivity|]. split; [apply sadd_in; now left|]. split; [reflexivity|]. apply sadd_in. now left.
      * intro Et. destruct (L _ _ Et) as (a & b & m0 & m1 & -> & E0 & I0 & E3 & I3). unfold upd1. exists a, b.
        destruct (a =? x) eqn:Ea; destruct (b =? y) eqn:Eb; do 2 eexists; (split; [reflexivity|]).
        all: try replace x with a by lia; try replace y with b by lia; rewrite ?E0, ?E3; cbn [olist].
        all: split; [reflexivity|]; split; [try (apply sadd_in; right); eassumption|]; split; [reflexivity|]; try (apply sadd_in; right); eassumption.
    + intros v k. cbn. reflexivity.
Qed.

(* triples *)
Definition LI3 (s : st3 V) : Prop :=
  (forall ks v, tab3 s ks = Some v -> len 3 ks /\ forall d, 0 <= d < 3 -> exists m, lk3 s d (nth (Z.to_nat d) ks 0) = Some m /\ In ks m) /\
  (forall d a m k, lk3 s d a = Some m -> In k m -> len 3 k /\ nth (Z.to_nat d) k 0 = a).
Lemma ksdel_in k p l : In k (ksdel p l) <-> k <> p /\ In k l.
Proof. unfold ksdel. rewrite filter_In, negb_true_iff. split; [intros [I E]; split; [intros ->; now rewrite keq_refl in E|assumption]|intros [N I]; split; [assumption|now apply keq_false]]. Qed.
Lemma ksadd_in k p l : In k (ksadd p l) <-> k = p \/ In k l.
Proof.
  unfold ksadd. destruct (kmemb p l) eqn:E; [|rewrite in_app_iff; cbn; intuition congruence]. unfold kmemb in E. apply existsb_exists in E as (q & I & Q). apply keq_true in Q. subst q. intuition congruence.
Qed.
(* what unlink keeps and adds *)
Definition keeps (lk lk' : Z -> Z -> option (list (list Z))) (Q : list Z -> Prop) : Prop :=
  (forall e a m k, Q k -> lk e a = Some m -> In k m -> exists m', lk' e a = Some m' /\ In k m') /\ (forall e a m k, lk' e a = Some m -> In k m -> exists m0, lk e a = Some m0 /\ In k m0).
Lemma keeps_refl lk Q : keeps lk lk Q. Proof. split; eauto. Qed.
Lemma keeps_trans lk lk1 lk2 (Q Q1 Q2 : list Z -> Prop) : keeps lk lk1 Q1 -> keeps lk1 lk2 Q2 -> (forall k, Q k -> Q1 k /\ Q2 k) -> keeps lk lk2 Q.
Proof.
  intros [A B] [C D] H. split; intros e a m k; [intros Hq E I|intros E I].
  - destruct (H k Hq) as [H1 H2]. destruct (A _ _ _ _ H1 E I) as (m1 & E1 & I1). eauto.
  - destruct (D _ _ _ _ E I) as (m1 & E1 & I1). eauto.
Qed.
Lemma unlink_keeps d p lk : keeps lk (unlink d p lk) (fun k => k <> p).
Proof.
  unfold unlink. split; intros e a m k; [intros Hk E I|intros E I].
  - unfold upd1 at 1. destruct (e =? d) eqn:Ed; [|eauto]. replace e with d in * by lia. unfold upd1. destruct (a =? _) eqn:Ea; [|eauto]. eexists. split; [reflexivity|]. apply ksdel_in. split; [assumption|]. apply olist_in. exists m. split; [|assumption]. now replace (nth (Z.to_nat d) p 0) with a by lia.
  - unfold upd1 at 1 in E. destruct (e =? d) eqn:Ed; [|eauto]. replace e with d in * by lia. unfold upd1 in E. destruct (a =? _) eqn:Ea; [|eauto]. injection E as <-. apply ksdel_in in I as [_ I]. apply olist_in in I as (m0 & E0 & I0). exists m0. now replace a with (nth (Z.to_nat d) p 0) by lia.
Qed.
Lemma unlinks_keeps p es : forall lk, keeps lk (fold_left (fun lk e => unlink e p lk) es lk) (fun k => k <> p).
Proof. induction es as [|e es IH]; intro lk; cbn [fold_left]; [apply keeps_refl|]. eapply keeps_trans; [apply unlink_keeps|apply IH|auto]. Qed.
Lemma erase3_ok d x s : LI3 s -> 0 <= d < 3 -> LI3 (erase3 d x s) /\ forall ks, tab3 (erase3 d x s) ks = if hit 3 d x ks then None else tab3 s ks.
Proof.
  intros [L1 L2] Bd. unfold erase3. destruct (lk3 s d x) as [l|] eqn:El.
  - assert (H : forall es l (s : st3 V), let s' := fold_left (fun s p => St3 (kupd p None (tab3 s)) (fold_left (fun lk e => unlink e p lk) es (lk3 s))) l s in
       (forall ks, tab3 s' ks = if existsb (keq ks) l then None else tab3 s ks) /\ keeps (lk3 s) (lk3 s') (fun k => ~ In k l)).
    { clear - ord make Hord. intros es. induction l as [|p l IH]; intro s; cbn zeta; cbn [fold_left existsb]; [split; [reflexivity|apply keeps_refl]|]. specialize (IH (St3 (kupd p None (tab3 s)) (fold_left (fun lk e => unlink e p lk) es (lk3 s)))).
      cbn zeta in IH. destruct IH as (A & B). split.
      - intro ks. rewrite A. cbn [tab3]. unfold kupd. destruct (keq ks p); cbn [orb]; [destruct (existsb _ _); reflexivity|reflexivity].
      - eapply keeps_trans; [apply (unlinks_keeps p es (lk3 s))|exact B|]. cbn. intros k N. split; [intros ->; apply N; now left|tauto]. }
    specialize (H (filter (fun e => negb (e =? d)) [0; 1; 2]) l s). cbn zeta in H. set (s' := fold_left _ l s) in *. destruct H as (A & B & C).
    assert (T : forall ks, tab3 s' ks = if hit 3 d x ks then None else tab3 s ks).
    { intro ks. rewrite A. destruct (existsb _ l) eqn:Eb.
      - apply existsb_exists in Eb as (y & Iy & E). apply keq_true in E. subst ks. destruct (L2 _ _ _ _ El Iy) as [Ly Ny]. unfold hit. rewrite Ly, Ny, Z.eqb_refl. reflexivity.
      - destruct (hit 3 d x ks) eqn:Eh; [|reflexivity]. destruct (tab3 s ks) eqn:Et; [|reflexivity]. exfalso. destruct (L1 _ _ Et) as [_ H]. destruct (H d Bd) as (m & Em & Im). unfold hit in Eh. apply andb_true_iff in Eh as [_ Eh]. apply Z.eqb_eq in Eh. rewrite Eh, El in Em. injection Em as <-.
        assert (existsb (keq ks) l = true); [|congruence]. apply existsb_exists. exists ks. split; [assumption|apply keq_refl]. }
    split; [|exact T]. split; cbn [tab3 lk3].
    + intros ks v. rewrite T. destruct (hit 3 d x ks) eqn:Eh; [discriminate|]. intro Et. destruct (L1 _ _ Et) as [Ln H]. split; [assumption|]. intros e Be. destruct (H e Be) as (m & Em & Im).
      assert (Nd : nth (Z.to_nat d) ks 0 <> x). { unfold hit in Eh. rewrite Ln, Nat.eqb_refl in Eh. cbn in Eh. lia. }
      assert (Nl : ~ In ks l). { intro I. destruct (L2 _ _ _ _ El I). congruence. }
      destruct (B e _ m ks Nl Em Im) as (m' & Em' & Im'). exists m'. split; [|assumption]. unfold upd1 at 1. destruct (e =? d) eqn:Ed; [|assumption]. replace e with d in * by lia. now rewrite upd1_other.
    + intros e a m k. unfold upd1 at 1. destruct (e =? d) eqn:Ed.
      * replace e with d by lia. unfold upd1. destruct (a =? x); [discriminate|]. intros E I. destruct (C _ _ _ _ E I) as (m0 & E0 & I0). eauto.
      * intros E I. destruct (C _ _ _ _ E I) as (m0 & E0 & I0). eauto.
  - split; [now split|]. intro ks. destruct (hit 3 d x ks) eqn:Eh; [|reflexivity]. destruct (tab3 s ks) eqn:Et; [|reflexivity]. exfalso. destruct (L1 _ _ Et) as [_ H]. destruct (H d Bd) as (m & Em & Im). unfold hit in Eh. apply andb_true_iff in Eh as [_ Eh]. apply Z.eqb_eq in Eh. rewrite Eh in Em. congruence.
Qed.
Lemma link_keeps d p lk : (forall e a m k, lk e a = Some m -> In k m -> exists m', link d p lk e a = Some m' /\ In k m') /\
  (exists m, link d p lk d (nth (Z.to_nat d) p 0) = Some m /\ In p m) /\
  (forall e a m k, link d p lk e a = Some m -> In k m -> (k = p /\ e = d /\ a = nth (Z.to_nat d) p 0) \/ exists m0, lk e a = Some m0 /\ In k m0).
Proof.
  unfold link. split; [|split].
  - intros e a m k E I. unfold upd1 at 1. destruct (e =? d) eqn:Ed; [|eauto]. replace e with d in * by lia. unfold upd1. destruct (a =? _) eqn:Ea; [|eauto]. eexists. split; [reflexivity|]. apply ksadd_in. right. apply olist_in. exists m. split; [|assumption]. now replace (nth (Z.to_nat d) p 0) with a by lia.
  - rewrite upd1_same, upd1_same. eexists. split; [reflexivity|]. apply ksadd_in. now left.
  - intros e a m k E I. unfold upd1 at 1 in E. destruct (e =? d) eqn:Ed; [|eauto]. replace e with d in * by lia. unfold upd1 in E. destruct (a =? _) eqn:Ea; [|eauto]. injection E as <-. apply ksadd_in in I as [->|I]; [left; repeat split; lia|]. apply olist_in in I as (m0 & E0 & I0). right. exists m0. now replace a with (nth (Z.to_nat d) p 0) by lia.
Qed.
Lemma bank3_ok h : all_can (len 3) h nobody -> exists s', brun bank3 ord make h (start bank3 3) = Ok (answers make h nobody, s') /\ NoDup (ccalls bank3 s').
Proof.
  apply (bank_ok (bank3 (V := V)) ord make Hord 3 (len 3) (hit 3) LI3 (fun _ _ _ => True)).
  - split; [split; [intros ks v; discriminate|intros d a m k; discriminate]|reflexivity].
  - intros ks x. apply (hit_in 3).
  - intros s o x L _ Bo. eexists. split; [reflexivity|]. destruct (erase3_ok o x s L Bo) as [A B]. split; [assumption|]. split; auto.
  - intros w s ks [L1 L2] Ln W Ho Hx. destruct ks as [|x [|y [|z [|u ks]]]]; try discriminate. destruct (reg_list [(0, x); (1, y); (2, z)] w W) as (w' & E & W' & A & B & K).
    { intros o u [Q|[Q|[Q|[]]]]; injection Q as <- <-; (split; [apply Ho; lia|apply Hx; cbn; auto]). }
    cbn in E. destruct (add_target 0 x w) as [w1| |] eqn:E1; try discriminate. cbn in E. destruct (add_target 1 y w1) as [w2| |] eqn:E2; try discriminate. cbn in E. destruct (add_target 2 z w2) as [w3| |] eqn:E3; try discriminate. injection E as ->.
    cbn [breg bank3 fst snd]. rewrite E1. cbn [bind]. rewrite E2. cbn [bind]. rewrite E3. cbn [bind].
    do 2 eexists. split; [reflexivity|]. split; [assumption|]. split; [assumption|]. split; [assumption|]. split; [|split; [|split; [|auto]]].
    + intros o u. rewrite K. cbn [In]. unfold hit. cbn [length Nat.eqb andb]. split; (intros [H|H]; [now left|right]).
      * destruct H as [Q|[Q|[Q|[]]]]; injection Q as <- <-; (split; [lia|apply Z.eqb_refl]).
      * destruct H as [Bo Q]. assert (Hc : o = 0 \/ o = 1 \/ o = 2) by lia. destruct Hc as [-> | [-> | ->]]; apply Z.eqb_eq in Q; [left|right; left|right; right; left]; f_equal; exact Q.
    + intros v. set (p := [x; y; z]) in *. destruct (link_keeps 0 p (lk3 s)) as (A0 & B0 & C0). destruct (link_keeps 1 p (link 0 p (lk3 s))) as (A1 & B1 & C1). destruct (link_keeps 2 p (link 1 p (link 0 p (lk3 s)))) as (A2 & B2 & C2). split; cbn [tab3 lk3 binsert bank3].
      * intros ks v'. unfold kupd. destruct (keq ks p) eqn:Ek.
        -- intros _. apply keq_true in Ek. subst ks. split; [reflexivity|]. intros d Bd. assert (Hc : d = 0 \/ d = 1 \/ d = 2) by lia. destruct Hc as [-> | [-> | ->]]; [| |exact B2].
           ++ destruct B0 as (m & E & I). destruct (A1 _ _ _ _ E I) as (m' & E' & I'). eauto.
           ++ destruct B1 as (m & E & I). eauto.
        -- intro Et. destruct (L1 _ _ Et) as [Lk H]. split; [assumption|]. intros d Bd. destruct (H d Bd) as (m & E & I). destruct (A0 _ _ _ _ E I) as (m1 & Q1 & I1). destruct (A1 _ _ _ _ Q1 I1) as (m2 & Q2 & I2). eauto.
      * intros d a m k E I. destruct (C2 _ _ _ _ E I) as [(-> & -> & ->)|(m2 & Q2 & I2)]; [split; reflexivity|]. destruct (C1 _ _ _ _ Q2 I2) as [(-> & -> & ->)|(m1 & Q1 & I1)]; [split; reflexivity|].
        destruct (C0 _ _ _ _ Q1 I1) as [(-> & -> & ->)|(m0 & Q0 & I0)]; [split; reflexivity|]. eauto.
    + intros v k. reflexivity.
Qed.

(* lists *)
Definition LIl (s : stl V) : Prop :=
  (forall ks v x, tabl s ks = Some v -> In x ks -> exists m, memberships s x = Some m /\ In ks m) /\ (forall x m k, memberships s x = Some m -> In k m -> In x k).
Lemma erases l : forall (t : list Z -> option V) ks, fold_left (fun t k => kupd k None t) l t ks = if existsb (keq ks) l then None else t ks.
Proof. induction l as [|k l IH]; intros t ks; cbn [fold_left existsb]; [reflexivity|]. rewrite IH. unfold kupd. destruct (keq ks k); cbn [orb]; [destruct (existsb _ _); reflexivity|reflexivity]. Qed.
Lemma bankl_ok h : all_can (fun _ => True) h nobody -> exists s', brun bankl ord make h (start bankl 1) = Ok (answers make h nobody, s') /\ NoDup (ccalls bankl s').
Proof.
  apply (bank_ok (bankl (V := V)) ord make Hord 1 (fun _ => True) (fun _ x ks => memb x ks) LIl (fun _ x s => memberships s x <> None)).
  - split; [split; [intros ks v x; discriminate|intros x m k; discriminate]|reflexivity].
  - intros ks x _. rewrite <- memb_in. split; [intro H; exists 0; split; [lia|assumption]|now intros (o & _ & H)].
  - intros s o x [L1 L2] T Bo. cbn [bact bankl]. destruct (memberships s x) as [l|] eqn:El; [|congruence]. eexists. split; [reflexivity|].
    assert (Tb : forall ks, fold_left (fun t k => kupd k None t) l (tabl s) ks = if memb x ks then None else tabl s ks).
    { intro ks. rewrite erases. destruct (existsb _ l) eqn:Eb.
      - apply existsb_exists in Eb as (k & Ik & E). apply keq_true in E. subst k. specialize (L2 _ _ _ El Ik). apply memb_in in L2. now rewrite L2.
      - destruct (memb x ks) eqn:M; [|reflexivity]. apply memb_in in M. destruct (tabl s ks) eqn:Et; [|reflexivity]. exfalso. destruct (L1 _ _ _ Et M) as (m & Em & Im). rewrite El in Em. injection Em as <-.
        assert (existsb (keq ks) l = true); [|congruence]. apply existsb_exists. exists ks. split; [assumption|apply keq_refl]. }
    split; [|split].
    + split; cbn [tabl memberships].
      * intros ks v y. rewrite Tb. destruct (memb x ks) eqn:M; [discriminate|]. apply memb_not in M. intros Et Iy. rewrite upd1_other by congruence. eauto.
      * intros y m k. unfold upd1. destruct (y =? x); [discriminate|eauto].
    + exact Tb.
    + intros o' y Bo' Ne T'. cbn [memberships]. rewrite upd1_other; [assumption|]. destruct Ne; [lia|assumption].
  - intros w s ks [L1 L2] _ W Ho Hx.
    assert (H : forall r w (s : stl V), wfw w -> obsv w 0 <> None -> (forall x, In x r -> objs w x <> None) -> exists w' s', foldM (fun p ws => do w <- add_target 0 p (fst ws);
       let s := snd ws in Ok (w, Stl (tabl s) (upd1 p (Some (olist (memberships s p) ++ [ks])) (memberships s)))) r (w, s) = Ok (w', s') /\
       wfw w' /\ (forall x, objs w' x <> None <-> objs w x <> None) /\ (forall o, obsv w' o <> None <-> obsv w o <> None) /\ (forall o x, knows_target w' o x <-> knows_target w o x \/ (o = 0 /\ In x r)) /\
       tabl s' = tabl s /\ (forall x m k, memberships s x = Some m -> In k m -> exists m', memberships s' x = Some m' /\ In k m') /\ (forall x, In x r -> exists m, memberships s' x = Some m /\ In ks m) /\
       (forall x m k, memberships s' x = Some m -> In k m -> (k = ks /\ In x r) \/ exists m0, memberships s x = Some m0 /\ In k m0) /\ (forall x, memberships s x <> None -> memberships s' x <> None)).
    { clear - ord make Hord. induction r as [|p r IH]; intros w s W H0 Hx; [exists w, s; cbn [foldM]; split; [reflexivity|]; split; [assumption|]; repeat split; try tauto; eauto; solve [intros ? []|intros [?|[_ []]]; auto]|].
      destruct (reg_list [(0, p)] w W) as (w1 & E1 & W1 & A & B & K). { intros o u [Q|[]]. injection Q as <- <-. split; [assumption|apply Hx; now left]. }
      cbn in E1. destruct (add_target 0 p w) as [w2| |] eqn:E2; try discriminate. injection E1 as ->.
      destruct (IH w1 (Stl (tabl s) (upd1 p (Some (olist (memberships s p) ++ [ks])) (memberships s)))) as (w' & s' & E' & W' & A' & B' & K' & T' & M1 & M2 & M3 & M4); auto.
      { now apply B. } { intros x Ix. apply A, Hx. now right. }
      exists w', s'. split; [cbn [foldM fst snd]; rewrite E2; exact E'|]. split; [assumption|]. split; [intro x; now rewrite A', A|]. split; [intro o; now rewrite B', B|]. split; [|split; [|split; [|split; [|split]]]].
      - intros o x. rewrite K', K. cbn [In]. split; [intros [[?|[Q|[]]]|[? ?]]; auto; injection Q as <- <-; auto|]. intros [?|[-> [->|?]]]; auto.
      - rewrite T'. reflexivity.
      - intros x m k E I. cbn [memberships] in M1. destruct (Z.eq_dec x p) as [->|Nx]; [|apply (M1 x m k); [now rewrite upd1_other|assumption]]. apply (M1 p (m ++ [ks]) k); [rewrite upd1_same, E; reflexivity|apply in_or_app; now left].
      - intros x [->|I]; [|auto]. cbn [memberships] in M1. apply (M1 x (olist (memberships s x) ++ [ks]) ks); [now rewrite upd1_same|]. apply in_or_app. right. now left.
      - intros x m k E I. destruct (M3 _ _ _ E I) as [[-> I']|(m0 & E0 & I0)]; [left; split; [reflexivity|now right]|]. cbn [memberships] in E0. unfold upd1 in E0. destruct (x =? p) eqn:Ep; [|right; eauto].
        replace x with p in * by lia. injection E0 as <-. apply in_app_or in I0 as [I0|[<-|[]]]; [|left; split; [reflexivity|now left]]. apply olist_in in I0. right. assumption.
      - intros x N. apply M4. cbn [memberships]. unfold upd1. destruct (x =? p); [discriminate|assumption]. }
    destruct (H ks w s W (Ho 0 ltac:(lia)) Hx) as (w' & s' & E & W' & A & B & K & T & M1 & M2 & M3 & M4). exists w', s'. split; [exact E|]. split; [assumption|]. split; [assumption|]. split; [assumption|]. split; [|split; [|split]].
    + intros o x. rewrite K, memb_in. split; (intros [?|[? ?]]; [now left|right]); split; auto; lia.
    + intro v. split; cbn [tabl memberships binsert bankl].
      * intros k v' x. unfold kupd. destruct (keq k ks) eqn:Ek; [apply keq_true in Ek; subst k; intros _; apply M2|]. rewrite T. intros Et Ix. destruct (L1 _ _ _ Et Ix) as (m & Em & Im). eauto.
      * intros x m k Em Ik. destruct (M3 _ _ _ Em Ik) as [[-> ?]|(m0 & ? & ?)]; eauto.
    + intros v k. cbn. unfold kupd. now rewrite T.
    + intros o x v [?|[_ M]]; cbn [memberships binsert bankl]; [auto|]. apply memb_in in M. destruct (M2 x M) as (m & Em & _). congruence.
Qed.
End One.
