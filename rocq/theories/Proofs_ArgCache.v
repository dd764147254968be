(* Proofs_ArgCache.v -- caches keyed by an object and an argument. *)
From Verif Require Import Base BaseFacts Model_Observer Spec_Observer Proofs_Observer Model_ArgCache Spec_ArgCache.
Local Open Scope Z_scope.

Section P.
Context {V : Type} (keep : bool) (ord : list Z -> list Z) (make : Z -> Z -> V) (Hord : forall l, Permutation (ord l) l).

Record ainv (s : acst V) (k : facts V) : Prop := AInv {
  v_w : wfw (iw s);
  v_obs : exists t, obsv (iw s) 0 = Some t;
  v_one : forall o, obsv (iw s) o <> None -> o = 0;
  v_obj : forall x, objs (iw s) x <> None <-> fat k x <> None;
  v_id : forall x i, fat k x = Some i -> iid s x = i /\ 0 <= i < fborn k;
  v_inj : forall x y i, fat k x = Some i -> fat k y = Some i -> x = y;
  v_next : inext s = fborn k;
  v_born : 0 <= fborn k;
  v_tab : forall x a, atab (ic s) x a = match fat k x with Some i => fval k i a | None => None end;
  v_new : forall i a, fborn k <= i -> fval k i a = None;
  v_lk : forall x a, atab (ic s) x a <> None -> In a (olist (alook (ic s) x)) /\ knows_target (iw s) 0 x;
  v_calls : icalls s = fcalls k;
  v_nd : NoDup (fcalls k);
  v_called : forall i a, In (i, a) (fcalls k) -> fval k i a <> None }.

Lemma erase_tab x l : forall t y b, fold_left (fun (t : Z -> Z -> option V) a => aput x a None t) l t y b = if (y =? x) && existsb (Z.eqb b) l then None else t y b.
Proof.
  induction l as [|a l IH]; intros t y b; cbn [fold_left existsb]; [now rewrite andb_false_r|]. rewrite IH. unfold aput. destruct (y =? x); cbn [andb]; [|reflexivity]. destruct (b =? a); cbn [orb]; destruct (existsb _ l); reflexivity.
Qed.
Lemma reg_ok s k x a i : ainv s k -> fat k x = Some i -> exists w c, a_register x a (iw s, ic s) = Ok (w, c) /\ wfw w /\ (exists t, obsv w 0 = Some t) /\ (forall o, obsv w o <> None -> o = 0) /\
  (forall y, objs w y <> None <-> fat k y <> None) /\ knows_target w 0 x /\ (forall y, knows_target (iw s) 0 y -> knows_target w 0 y) /\
  (forall y b, atab c y b = atab (ic s) y b) /\ (forall y b, In b (olist (alook (ic s) y)) -> In b (olist (alook c y))) /\ In a (olist (alook c x)).
Proof.
  intros I Ex. destruct I. destruct v_obs0 as (t & Et). destruct (objs (iw s) x) as [l|] eqn:El; [|exfalso; apply (proj2 (v_obj0 x)); congruence].
  destruct (add_ok 0 x (iw s) t l v_w0 Et El) as (w & Ew & W & A & B). unfold a_register. cbn [fst snd]. rewrite Ew. cbn [bind]. do 2 eexists. split; [reflexivity|]. split; [assumption|].
  split; [rewrite B; cbn; eauto|]. split; [|split; [|split; [|split; [|split; [|split]]]]].
  - intro o. rewrite B. destruct (o =? 0) eqn:K; [intros _; lia|apply v_one0].
  - intro y. rewrite A. destruct (y =? x) eqn:K; [|apply v_obj0]. replace y with x by lia. rewrite Ex. split; discriminate.
  - unfold knows_target. rewrite B. cbn. eexists. split; [reflexivity|]. apply sadd_in. now left.
  - intros y (t' & Et' & Hy). unfold knows_target. rewrite B. cbn. eexists. split; [reflexivity|]. apply sadd_in. right. congruence.
  - reflexivity.
  - intros y b Hb. cbn [alook]. unfold upd1. destruct (y =? x) eqn:K; [|assumption]. cbn [olist]. apply sadd_in. right. now replace x with y by lia.
  - cbn [alook]. rewrite upd1_same. cbn [olist]. apply sadd_in. now left.
Qed.
Lemma fat_inj_b s k x y i : ainv s k -> fat k x = Some i -> fat k y = Some i -> y = x.
Proof. intros I H1 H2. exact (v_inj s k I y x i H2 H1). Qed.

(* filing v under (x,a) *)
Lemma file_ok s k x a i v w c cl : ainv s k -> fat k x = Some i -> fval k i a = None ->
  wfw w -> (exists t, obsv w 0 = Some t) -> (forall o, obsv w o <> None -> o = 0) ->
  (forall y, objs w y <> None <-> fat k y <> None) -> knows_target w 0 x -> (forall y, knows_target (iw s) 0 y -> knows_target w 0 y) ->
  (forall y b, atab c y b = atab (ic s) y b) -> (forall y b, In b (olist (alook (ic s) y)) -> In b (olist (alook c y))) -> In a (olist (alook c x)) ->
  cl = fcalls k \/ cl = fcalls k ++ [(i, a)] ->
  a_ins x a v c = (v, AC (aput x a (Some v) (atab c)) (alook c)) /\
  ainv (ACst w (AC (aput x a (Some v) (atab c)) (alook c)) (iid s) (inext s) cl) (Facts (fat k) (fborn k) (set2 i a v (fval k)) cl).
Proof.
  intros I Ex En W1 W2 W3 W4 W5 W6 T1 T2 T3 Hcl. pose proof I as I'. destruct I. split.
  - unfold a_ins. rewrite T1, v_tab0, Ex, En. reflexivity.
  - split; cbn [iw ic iid inext icalls fat fborn fval fcalls atab alook]; auto.
    + intros y b. unfold aput, set2. destruct (y =? x) eqn:K.
      * replace y with x by lia. rewrite Ex, Z.eqb_refl. cbn [andb]. destruct (b =? a); [reflexivity|]. now rewrite T1, v_tab0, Ex.
      * cbn [andb]. rewrite T1, v_tab0. destruct (fat k y) as [j|] eqn:Ey; [|reflexivity]. destruct (j =? i) eqn:Kj; [|reflexivity]. replace j with i in Ey by lia. pose proof (fat_inj_b s k x y i I' Ex Ey). lia.
    + intros j b H. unfold set2. destruct ((j =? i) && (b =? a)) eqn:K; [|now apply v_new0]. destruct (v_id0 x i Ex). lia.
    + intros y b. unfold aput. destruct ((y =? x) && (b =? a)) eqn:K.
      * intros _. replace y with x by lia. replace b with a by lia. now split.
      * rewrite T1. intro H. destruct (v_lk0 y b H) as [H1 H2]. split; auto.
    + destruct Hcl as [->| ->]; [assumption|]. apply NoDup_rev in v_nd0. rewrite <- (rev_involutive (_ ++ _)), rev_app_distr. apply NoDup_rev. cbn. constructor; [|assumption]. rewrite <- in_rev. intro Ic. apply (v_called0 i a Ic En).
    + intros j b H. unfold set2. destruct ((j =? i) && (b =? a)) eqn:K; [discriminate|]. destruct Hcl as [->| ->]; [now apply v_called0|]. apply in_app_or in H as [H|[H|[]]]; [now apply v_called0|]. injection H as -> ->. rewrite !Z.eqb_refl in K. discriminate.
Qed.
Lemma aev_ok s k e v k' : ainv s k -> fact make e k = Some (v, k') -> exists s', aev keep ord make e s = Ok (v, s') /\ ainv s' k'.
Proof.
  intros I E. pose proof I as I'. destruct I. destruct e as [x|x|x a|x a u]; cbn [fact aev] in *.
  - destruct (fat k x) eqn:Ex; [discriminate|]. injection E as <- <-. unfold new_obj. destruct (objs (iw s) x) eqn:Eo; [exfalso; apply (proj1 (v_obj0 x)); congruence|]. cbn [bind]. eexists. split; [reflexivity|].
    assert (Fr : forall y, y <> x -> set1 x (Some (fborn k)) (fat k) y = fat k y) by (intros y Hy; unfold set1; now replace (y =? x) with false by lia).
    split; cbn [iw ic iid inext icalls fat fborn fval fcalls objs obsv]; auto.
    + now apply wfw_new_obj.
    + intro y. unfold upd1, set1. destruct (y =? x); [split; discriminate|apply v_obj0].
    + intros y i. unfold upd1, set1. destruct (y =? x) eqn:K; [intro Q; injection Q as <-; split; [assumption|lia]|]. intro Q. apply v_id0 in Q. split; [tauto|lia].
    + intros y z i. unfold set1. destruct (y =? x) eqn:E1, (z =? x) eqn:E2; intros Q1 Q2; [lia| | |eauto].
      * injection Q1 as <-. apply v_id0 in Q2. lia.
      * injection Q2 as <-. apply v_id0 in Q1. lia.
    + lia.
    + lia.
    + intros y a. unfold set1. destruct (y =? x) eqn:K; [|apply v_tab0]. replace y with x by lia. rewrite v_tab0, Ex. symmetry. apply v_new0. lia.
    + intros i a H. apply v_new0. lia.
  - destruct (fat k x) as [i|] eqn:Ex; [|discriminate]. injection E as <- <-. destruct (objs (iw s) x) as [os|] eqn:Eo; [|exfalso; apply (proj2 (v_obj0 x)); congruence].
    assert (Hos : os = [] \/ os = [0]).
    { assert (N : NoDup os) by (eapply w_no; eassumption). assert (Z0 : forall o, In o os -> o = 0) by (intros o Ho; destruct (w_to _ v_w0 _ _ _ Eo Ho) as (t & Et & _); apply v_one0; congruence).
      destruct os as [|o1 [|o2 os]]; [now left|right; now rewrite (Z0 o1 (or_introl eq_refl))|]. exfalso. inversion N; subst. apply H1. left. rewrite (Z0 o1), (Z0 o2); [reflexivity|right; now left|now left]. }
    assert (Ho' : ord os = os). { destruct Hos as [->| ->]; [apply Permutation_nil; symmetry; apply Hord|]. apply Permutation_length_1_inv. symmetry. apply Hord. }
    assert (Hs : exists c, foldM (fun o => a_erase keep o x) (ord os) (ic s) = Ok c /\ (forall y b, y <> x -> atab c y b = atab (ic s) y b /\ alook c y = alook (ic s) y) /\ forall b, atab c x b = None).
    { rewrite Ho'. destruct Hos as [->| ->]; cbn [foldM].
      - exists (ic s). split; [reflexivity|]. split; [now split|]. intro b. destruct (atab (ic s) x b) eqn:Et; [|reflexivity]. exfalso. destruct (v_lk0 x b) as [_ Kn]; [congruence|]. apply (knows_sym _ _ _ v_w0) in Kn as (l & El & Il). rewrite Eo in El. injection El as <-. destruct Il.
      - unfold a_erase. cbn [bind]. eexists. split; [reflexivity|]. cbn [atab alook]. split.
        + intros y b Hy. rewrite erase_tab, upd1_other by assumption. replace (y =? x) with false by lia. now split.
        + intro b. rewrite erase_tab, Z.eqb_refl. cbn [andb]. destruct (existsb (Z.eqb b) (olist (alook (ic s) x))) eqn:K; [reflexivity|]. destruct (atab (ic s) x b) eqn:Et; [|reflexivity]. exfalso. destruct (v_lk0 x b) as [Hb _]; [congruence|].
          assert (existsb (Z.eqb b) (olist (alook (ic s) x)) = true); [|congruence]. apply existsb_exists. exists b. split; [assumption|apply Z.eqb_refl]. }
    destruct Hs as (c & Ec & C1 & C2). destruct (del_obj_ok (a_erase keep) ord x (iw s) (ic s) os c Hord v_w0 Eo Ec) as (w' & E' & W' & A & B). rewrite E'. cbn [bind]. eexists. split; [reflexivity|].
    split; cbn [iw ic iid inext icalls fat fborn fval fcalls]; auto.
    + destruct v_obs0 as (t & Et). rewrite B, Et. cbn. eauto.
    + intro o. rewrite B. destruct (obsv (iw s) o) eqn:Eb; [|intro Q; cbn in Q; congruence]. intros _. apply v_one0. congruence.
    + intro y. rewrite A. unfold set1, upd1. destruct (y =? x); [tauto|apply v_obj0].
    + intros y j. unfold set1. destruct (y =? x); [discriminate|apply v_id0].
    + intros y z j. unfold set1. destruct (y =? x), (z =? x); try discriminate. apply v_inj0.
    + intros y b. unfold set1. destruct (y =? x) eqn:K; [replace y with x by lia; apply C2|]. destruct (C1 y b ltac:(lia)) as [-> _]. apply v_tab0.
    + intros y b H. destruct (Z.eq_dec y x) as [->|Ny]; [now rewrite C2 in H|]. destruct (C1 y b Ny) as [Q1 Q2]. rewrite Q1 in H. rewrite Q2. destruct (v_lk0 y b H) as [H1 (t & Et & Ht)]. split; [assumption|]. unfold knows_target. rewrite B, Et. cbn. eexists. split; [reflexivity|]. now apply sdel_in.
  - destruct (fat k x) as [i|] eqn:Ex; [|discriminate]. destruct (v_id0 x i Ex) as [Ei _]. unfold a_call. cbn [snd]. rewrite v_tab0, Ex. destruct (fval k i a) as [u|] eqn:Ev.
    + injection E as <- <-. cbn [bind]. eexists. split; [reflexivity|]. now destruct s.
    + injection E as <- <-. destruct (reg_ok s k x a i I' Ex) as (w & c & Er & W1 & W2 & W3 & W4 & W5 & W6 & T1 & T2 & T3). rewrite Er. cbn [bind]. rewrite Ei.
      destruct (file_ok s k x a i (make i a) w c (fcalls k ++ [(i, a)]) I' Ex Ev W1 W2 W3 W4 W5 W6 T1 T2 T3 (or_intror eq_refl)) as [Ea Ii]. rewrite Ea. cbn [bind]. eexists. split; [reflexivity|]. rewrite v_calls0. exact Ii.
  - destruct (fat k x) as [i|] eqn:Ex; [|discriminate]. unfold a_enter. destruct (reg_ok s k x a i I' Ex) as (w & c & Er & W1 & W2 & W3 & W4 & W5 & W6 & T1 & T2 & T3). rewrite Er. cbn [bind]. destruct (fval k i a) as [u'|] eqn:Ev.
    + injection E as <- <-. unfold a_ins. rewrite T1, v_tab0, Ex, Ev. cbn [bind]. eexists. split; [reflexivity|]. split; cbn [iw ic iid inext icalls]; auto.
      * intros y b. rewrite T1. apply v_tab0.
      * intros y b. rewrite T1. intro H. destruct (v_lk0 y b H). split; auto.
    + injection E as <- <-. destruct (file_ok s k x a i u w c (fcalls k) I' Ex Ev W1 W2 W3 W4 W5 W6 T1 T2 T3 (or_introl eq_refl)) as [Ea Ii]. rewrite Ea. cbn [bind]. eexists. split; [reflexivity|]. rewrite v_calls0. exact Ii.
Qed.
Lemma aevs_ok h : forall s k vs k', ainv s k -> facts_of make h k = Some (vs, k') -> exists s', aevs keep ord make h s = Ok (vs, s') /\ ainv s' k'.
Proof.
  induction h as [|e h IH]; intros s k vs k' I E; cbn [facts_of aevs] in *; [injection E as <- <-; now exists s|]. destruct (fact make e k) as [[v k1]|] eqn:E1; [|discriminate]. destruct (facts_of make h k1) as [[vs2 k2]|] eqn:E2; [|discriminate]. injection E as <- <-.
  destruct (aev_ok s k e v k1 I E1) as (s1 & Q1 & I1). destruct (IH s1 k1 vs2 k2 I1 E2) as (s2 & Q2 & I2). exists s2. split; [|assumption]. rewrite Q1. cbn [bind]. rewrite Q2. reflexivity.
Qed.
Lemma astart_ok : ainv acst0 no_facts.
Proof.
  split; cbn [acst0 no_facts iw ic iid inext icalls fat fborn fval fcalls objs obsv]; try discriminate; try contradiction; try lia; try tauto; auto.
  - split; cbn [objs obsv]; try discriminate.
    + intros o t. destruct (o =? 0); [|discriminate]. intro E. injection E as <-. constructor.
    + intros o x t. destruct (o =? 0); [|discriminate]. intro E. injection E as <-. contradiction.
  - now exists [].
  - intro o. destruct (o =? 0) eqn:K; [lia|congruence].
  - constructor.
Qed.
End P.
