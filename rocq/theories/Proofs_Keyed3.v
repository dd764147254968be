(* Proofs_Keyed3.v -- histories of associative containers. *)
From Coq Require Import Sorted Permutation.
From Verif Require Import Base BaseFacts Model_Keyed Spec_Keyed Proofs_Keyed Proofs_Keyed2.
Local Open Scope Z_scope.

Lemma mfind_none {V} k (m : list (Z * V)) : mfind k m = None <-> ~ In k (map fst m).
Proof.
  induction m as [|[a u] m IH]; cbn [mfind map fst In]; [split; [intros _ []|reflexivity]|]. destruct (k =? a) eqn:E.
  - split; [discriminate|]. intro H. exfalso. apply H. left. lia.
  - rewrite IH. split; [intros H [K|K]; [lia|contradiction]|intros H K; apply H; now right].
Qed.
Lemma mfind_in {V} k (v : V) m : mfind k m = Some v -> In (k, v) m.
Proof. induction m as [|[a u] m IH]; cbn [mfind In]; [discriminate|]. destruct (k =? a) eqn:E; [intro H; injection H as <-; left; f_equal; lia|]. intro H. right. auto. Qed.
Lemma in_mfind {V} k (v : V) m : NoDup (map fst m) -> In (k, v) m -> mfind k m = Some v.
Proof.
  induction m as [|[a u] m IH]; cbn [mfind In map fst]; intros N [].
  - injection H as -> ->. now rewrite Z.eqb_refl.
  - inversion N; subst. destruct (k =? a) eqn:E; [|now apply IH]. exfalso. apply H2. apply Z.eqb_eq in E. subst. now apply (in_map fst) in H.
Qed.
Lemma sorted_nodup l : StronglySorted Z.lt l -> NoDup l.
Proof. induction 1 as [|a l S IH F]; constructor; [|assumption]. intro H. rewrite Forall_forall in F. specialize (F a H). lia. Qed.
Lemma mput_perm {V} k (v : V) m : mfind k m = None -> Permutation (mput k v m) ((k, v) :: m).
Proof.
  induction m as [|[a u] m IH]; cbn [mfind mput]; intro E; [reflexivity|]. destruct (k =? a) eqn:K; [discriminate|]. destruct (k <? a); [reflexivity|].
  rewrite (IH E). apply perm_swap.
Qed.
Lemma foldM_map {S U V} (f : V -> S -> res S) (g : U -> V) l : forall s, foldM (fun u => f (g u)) l s = foldM f (map g l) s.
Proof. induction l as [|a l IH]; intro s; cbn [foldM map]; [reflexivity|]. destruct (f (g a) s); cbn [bind]; auto. Qed.

Section AMap.
Variable O : Type.
Variable odef : O.
Notation world := (world O amap).
Notation hp := (hp O amap). Notation nx := (nx O amap). Notation cs := (cs O amap).
Notation Wd := (W O amap).
Definition ptr (x : amap) : list Z := map snd x.
Notation sound := (sound O ptr). Notation no_leak := (no_leak O ptr). Notation owns := (owns O ptr). Notation good := (good O amap ptr).

Definition holds_fun (h : Z -> option O) (x : amap) (f : Z -> option O) : Prop :=
  StronglySorted Z.lt (map fst x) /\ forall k, match mfind k x, f k with Some p, Some o => h p = Some o | None, None => True | _, _ => False end.
Definition ARel (w : world) (A : astate O) : Prop :=
  good w /\ forall c, match cs w c, A c with Some x, Some f => holds_fun (hp w) x f | None, None => True | _, _ => False end.
Definition aeq (A B : astate O) : Prop := forall c, match A c, B c with Some f, Some g => forall k, f k = g k | None, None => True | _, _ => False end.
Lemma ARel_ext w A B : ARel w A -> aeq A B -> ARel w B.
Proof.
  intros [G H] E. split; [assumption|]. intro c. specialize (H c). specialize (E c). destruct (cs w c); destruct (A c), (B c); try contradiction; [|exact I].
  destruct H as [S M]. split; [assumption|]. intro k. rewrite <- E. apply M.
Qed.
Lemma aeq_twice (A : astate O) c a f g : (forall k, f k = g k) -> aeq (supd (supd A c a) c (Some f)) (supd A c (Some g)).
Proof. intros H d. unfold supd. destruct (d =? c); [exact H|]. destruct (A d); [reflexivity|exact I]. Qed.
Lemma A_some w A c f : ARel w A -> A c = Some f -> exists x, the O c w = Ok x /\ cs w c = Some x /\ holds_fun (hp w) x f.
Proof. intros [_ H] E. specialize (H c). rewrite E in H. unfold the. destruct (cs w c) as [x|]; [now exists x|destruct H]. Qed.
Lemma A_none w A c : ARel w A -> A c = None -> cs w c = None.
Proof. intros [_ H] E. specialize (H c). rewrite E in H. destruct (cs w c); [destruct H|reflexivity]. Qed.
Lemma hfun_frame h h' x f : holds_fun h x f -> (forall p, In p (ptr x) -> h' p = h p) -> holds_fun h' x f.
Proof.
  intros [S M] H. split; [assumption|]. intro k. specialize (M k). destruct (mfind k x) as [p|] eqn:E; [|exact M]. destruct (f k); [|exact M]. rewrite H; [assumption|]. apply mfind_in in E. now apply (in_map snd) in E.
Qed.
Lemma hfun_empty h : holds_fun h [] (fun _ => None).
Proof. split; [constructor|]. intro k. exact I. Qed.
Lemma ARel_set w A h n c x a : ARel w A -> good (Wd h n (put (cs w) c x)) ->
  (forall d y p, d <> c -> cs w d = Some y -> In p (ptr y) -> h p = hp w p) ->
  (match x, a with Some x, Some f => holds_fun h x f | None, None => True | _, _ => False end) ->
  ARel (Wd h n (put (cs w) c x)) (supd A c a).
Proof.
  intros [G R] G' Fr H. split; [assumption|]. intro d. cbn [Model_Keyed.cs Model_Keyed.hp]. unfold put, supd. destruct (d =? c) eqn:E; [exact H|].
  specialize (R d). destruct (cs w d) as [y|] eqn:Ey; [|exact R]. destruct (A d) as [b|]; [|exact R]. apply (hfun_frame (hp w)); [assumption|]. intros p Hp. apply (Fr d y); [lia|assumption|assumption].
Qed.
Lemma afresh w c x p : good w -> cs w c = Some x -> In p (ptr x) -> p < nx w.
Proof. intros [(_ & _ & I3) I4] E H. apply I4, (I3 c). now exists x. Qed.
Lemma aadd_ok w A c x f k o : ARel w A -> A c = Some f -> cs w c = Some x -> f k = None ->
  ARel (Wd (put (hp w) (nx w) (Some o)) (nx w + 1) (put (cs w) c (Some (mput k (nx w) x)))) (supd A c (Some (supd f k (Some o)))) /\
  (no_leak w -> no_leak (Wd (put (hp w) (nx w) (Some o)) (nx w + 1) (put (cs w) c (Some (mput k (nx w) x))))).
Proof.
  intros R EA Ex Ek. pose proof R as [G R']. pose proof G as [(I1 & I2 & I3) I4]. destruct (A_some w A c f R EA) as (x' & _ & Ex' & [S M]). assert (x' = x) by congruence. subst x'.
  assert (Em : mfind k x = None) by (specialize (M k); rewrite Ek in M; destruct (mfind k x); [destruct M|reflexivity]).
  assert (P : Permutation (ptr (mput k (nx w) x)) (nx w :: ptr x)) by (unfold ptr; rewrite (mput_perm k (nx w) x Em); reflexivity).
  assert (P1 : forall p, In p (ptr (mput k (nx w) x)) <-> p = nx w \/ In p (ptr x)) by (intro p; split; intro H; [apply (Permutation_in _ P) in H as [H|H]; auto|apply (Permutation_in _ (Permutation_sym P)); destruct H; [now left|now right]]).
  assert (P2 : NoDup (ptr (mput k (nx w) x))) by (apply (Permutation_NoDup (Permutation_sym P)); constructor; [intro H; pose proof (afresh w c x _ G Ex H); lia|now apply (I2 c)]).
  split; [|intro L; now apply (leak_add O amap ptr w c x)]. apply ARel_set; [assumption|now apply (good_add O amap ptr w c x)| |].
  - intros d y p D Ey Hp. pose proof (afresh w d y p G Ey Hp). unfold put. now replace (p =? nx w) with false by lia.
  - split; [now apply mput_sorted|]. intro k'. rewrite mfind_mput by assumption. unfold supd. destruct (k' =? k); [unfold put; now rewrite Z.eqb_refl|].
    specialize (M k'). destruct (mfind k' x) as [p|] eqn:Ep; [|exact M]. destruct (f k'); [|exact M]. apply mfind_in in Ep. apply (in_map snd) in Ep. pose proof (afresh w c x p G Ex Ep). unfold put. now replace (p =? nx w) with false by lia.
Qed.
Lemma a_exists_iff h x f k : holds_fun h x f -> a_exists k x = match f k with Some _ => true | None => false end.
Proof. intros [S M]. specialize (M k). unfold a_exists. destruct (mfind k x), (f k); try destruct M; reflexivity. Qed.
Lemma ins_ok w A c f k o : ARel w A -> A c = Some f ->
  match f k with
  | Some _ => a_insert O c k o w = Throw
  | None => exists w', a_insert O c k o w = Ok w' /\ ARel w' (supd A c (Some (supd f k (Some o)))) /\ (no_leak w -> no_leak w')
  end.
Proof.
  intros R EA. destruct (A_some w A c f R EA) as (x & Et & Ex & H). unfold a_insert. rewrite Et. cbn [bind]. rewrite (a_exists_iff _ _ _ k H). destruct (f k) eqn:Ek; [reflexivity|]. cbn [negb assrt make].
  eexists. split; [reflexivity|]. exact (aadd_ok w A c x f k o R EA Ex Ek).
Qed.
Lemma at_ok w A c f k : ARel w A -> A c = Some f -> let g := match f k with Some _ => f | None => supd f k (Some odef) end in
  exists p w' x, a_at O odef c k w = Ok (p, w') /\ ARel w' (supd A c (Some g)) /\ cs w' c = Some x /\ mfind k x = Some p /\ (no_leak w -> no_leak w').
Proof.
  intros R EA g. destruct (A_some w A c f R EA) as (x & Et & Ex & H). unfold a_at. rewrite Et. cbn [bind]. rewrite (a_exists_iff _ _ _ k H). pose proof (ins_ok w A c f k odef R EA) as Hi.
  assert (Q : exists w', (if negb match f k with Some _ => true | None => false end then a_insert O c k odef w else Ok w) = Ok w' /\ ARel w' (supd A c (Some g)) /\ (no_leak w -> no_leak w')).
  { unfold g. destruct (f k); cbn [negb]; [|assumption]. exists w. split; [reflexivity|]. split; [|trivial]. apply (ARel_ext w A); [assumption|]. intro d. unfold supd. destruct (d =? c) eqn:E; [apply Z.eqb_eq in E; subst; rewrite EA; reflexivity|]. destruct (A d); [reflexivity|exact I]. }
  destruct Q as (w' & E' & R' & L'). rewrite E'. cbn [bind]. destruct (A_some w' _ c g R') as (x' & Et' & Ex' & [S' M']); [unfold supd; now rewrite Z.eqb_refl|]. rewrite Et'. cbn [bind].
  assert (Gk : g k <> None) by (unfold g; destruct (f k) eqn:E; [congruence|unfold supd; rewrite Z.eqb_refl; discriminate]).
  specialize (M' k). destruct (mfind k x') as [p|] eqn:Ep; [|destruct (g k); [destruct M'|congruence]]. exists p, w', x'. repeat split; auto; apply R'.
Qed.
Lemma acopy_loop c ys : forall w A g, ARel w A -> A c = Some g -> NoDup (map fst ys) -> (forall p, In p ys -> hp w (snd p) <> None /\ g (fst p) = None) ->
  exists w', foldM (fun p (w : world) => do o <- deref O w (snd p); let ' (q, w) := make O o w in do x <- the O c w; Ok (set_c O (X := amap) c (Some (mput (fst p) q x)) w)) ys w = Ok w' /\
    ARel w' (supd A c (Some (fun k => match mfind k ys with Some p => hp w p | None => g k end))) /\ (no_leak w -> no_leak w').
Proof.
  induction ys as [|[k p] ys IH]; intros w A g R EA N H; cbn [foldM].
  - exists w. split; [reflexivity|]. split; [|trivial]. apply (ARel_ext w A); [assumption|]. intro d. unfold supd. destruct (d =? c) eqn:E; [apply Z.eqb_eq in E; subst; rewrite EA; reflexivity|]. destruct (A d); [reflexivity|exact I].
  - inversion N; subst. destruct (H (k, p) (or_introl eq_refl)) as [Hp Hk]. cbn [fst snd] in *. unfold deref at 1. destruct (hp w p) as [o|] eqn:Eo; [|congruence]. cbn [bind make].
    destruct (A_some w A c g R EA) as (x & Et & Ex & Hx). unfold the at 1. cbn [Model_Keyed.cs]. rewrite Ex. cbn [bind]. destruct (aadd_ok w A c x g k o R EA Ex Hk) as [R1 L1].
    assert (Fr : forall q, hp w q <> None -> q < nx w) by apply R.
    destruct (IH _ _ (supd g k (Some o)) R1) as (w' & E' & R' & L'); [unfold supd; now rewrite Z.eqb_refl|assumption| |].
    { intros q Hq. destruct (H q (or_intror Hq)) as [Q1 Q2]. cbn [Model_Keyed.hp]. split.
      - unfold put. destruct (snd q =? nx w); [discriminate|assumption].
      - unfold supd. destruct (fst q =? k) eqn:K; [|assumption]. exfalso. apply H2. apply Z.eqb_eq in K. rewrite <- K. now apply in_map. }
    exists w'. split; [exact E'|]. split; [|auto]. apply (ARel_ext _ _ _ R'). apply aeq_twice.
    + intro k'. cbn [mfind Model_Keyed.hp]. destruct (k' =? k) eqn:K.
      * apply Z.eqb_eq in K. subst. destruct (mfind k ys) as [q|] eqn:E; [exfalso; apply H2; apply mfind_in in E; now apply (in_map fst) in E|]. unfold supd. rewrite Z.eqb_refl. now rewrite Eo.
      * destruct (mfind k' ys) as [q|] eqn:E; [|unfold supd; now rewrite K]. apply mfind_in in E. destruct (H (k', q) (or_intror E)) as [Q1 _]. cbn [snd] in Q1. specialize (Fr q Q1). unfold put. now replace (q =? nx w) with false by lia.
Qed.
Lemma afree_ok w A c f : ARel w A -> A c = Some f -> exists w', (do x <- the O c w; do w <- foldM (fun p w => del O (snd p) w) x w; Ok (set_c O c None w)) = Ok w' /\ ARel w' (supd A c None) /\ (no_leak w -> no_leak w').
Proof.
  intros R EA. pose proof R as [G _]. pose proof G as [(I1 & I2 & I3) I4]. destruct (A_some w A c f R EA) as (x & Et & Ex & Hx).
  destruct (del_all O amap (ptr x) w (I2 c x Ex)) as (h & Eh & Hh); [intros p Hp; apply (I3 c); now exists x|].
  rewrite Et. cbn [bind]. rewrite (foldM_map (del O (X := amap)) snd). unfold ptr in Eh. rewrite Eh. cbn [bind]. eexists. split; [reflexivity|].
  destruct (good_freed O amap ptr w h c x None G Ex Hh) as [G' L']; [discriminate|]. split; [|exact L']. apply (ARel_set w A h (nx w) c None None); [assumption|exact G'| |exact I].
  intros d z p D Ez Hp. apply Hh. intro K. apply D, (I1 d c p); [now exists z|now exists x].
Qed.
(* writing an object in place *)
Lemma write_ok w A c f x k p o : ARel w A -> A c = Some f -> cs w c = Some x -> mfind k x = Some p ->
  ARel (Wd (put (hp w) p (Some o)) (nx w) (cs w)) (supd A c (Some (supd f k (Some o)))) /\ (no_leak w -> no_leak (Wd (put (hp w) p (Some o)) (nx w) (cs w))).
Proof.
  intros R EA Ex Ep. pose proof R as [G R']. pose proof G as [(I1 & I2 & I3) I4]. pose proof (mfind_in _ _ _ Ep) as Hin. assert (Hp : In p (ptr x)) by now apply (in_map snd) in Hin.
  assert (Hl : hp w p <> None) by (apply (I3 c); now exists x). split.
  - split; [split|].
    + split; [exact I1|]. split; [exact I2|]. intros d q H. cbn [Model_Keyed.hp]. unfold put. destruct (q =? p); [discriminate|]. now apply (I3 d).
    + intros q H. cbn [Model_Keyed.hp Model_Keyed.nx] in *. unfold put in H. destruct (q =? p) eqn:K; [apply Z.eqb_eq in K; subst; now apply I4|now apply I4].
    + intro d. specialize (R' d). cbn [Model_Keyed.hp Model_Keyed.cs]. unfold supd. destruct (d =? c) eqn:K.
      * apply Z.eqb_eq in K. subst d. rewrite Ex in *. rewrite EA in R'. destruct R' as [S M]. split; [assumption|]. intro k'. specialize (M k'). destruct (k' =? k) eqn:Kk.
        -- apply Z.eqb_eq in Kk. subst. rewrite Ep. unfold put. now rewrite Z.eqb_refl.
        -- destruct (mfind k' x) as [q|] eqn:Eq; [|exact M]. destruct (f k'); [|exact M]. unfold put. destruct (q =? p) eqn:Kq; [|exact M]. exfalso. apply Z.eqb_eq in Kq. subst q.
           pose proof (mfind_in _ _ _ Eq) as Hin'. specialize (I2 c x Ex). assert (Kne : k' <> k) by lia. revert I2 Hin Hin' Kne. clear. unfold ptr. induction x as [|[a b] x IH]; intros N H1 H2 Ne; [destruct H1|]. cbn [map snd] in N. inversion N; subst.
           destruct H1 as [H1|H1], H2 as [H2|H2].
           ++ congruence.
           ++ injection H1 as -> ->. apply H3. now apply (in_map snd) in H2.
           ++ injection H2 as -> ->. apply H3. now apply (in_map snd) in H1.
           ++ now apply IH.
      * destruct (cs w d) as [y|] eqn:Ey; [|exact R']. destruct (A d); [|exact R']. apply (hfun_frame (hp w)); [assumption|]. intros q Hq. unfold put. destruct (q =? p) eqn:Kq; [|reflexivity].
        apply Z.eqb_eq in Kq. subst q. assert (d = c) by (apply (I1 d c p); [now exists y|now exists x]). lia.
  - intros L q H. cbn [Model_Keyed.hp] in H. unfold put in H. destruct (q =? p) eqn:K; [apply Z.eqb_eq in K; subst; now apply L|now apply L].
Qed.
Lemma get_ok w A c f k : ARel w A -> A c = Some f -> a_get O c k w = match f k with Some o => Ok o | None => Throw end.
Proof.
  intros R EA. destruct (A_some w A c f R EA) as (x & Et & Ex & H). unfold a_get. rewrite Et. cbn [bind]. rewrite (a_exists_iff _ _ _ k H). destruct H as [S M]. specialize (M k).
  destruct (f k); [|reflexivity]. cbn [assrt]. destruct (mfind k x) as [p|]; [|destruct M]. unfold deref. now rewrite M.
Qed.
Lemma astep_ok op w A : ARel w A ->
  match aspec O odef op A with
  | Done _ B => exists w', astep O odef op w = Ok w' /\ ARel w' B /\ (no_leak w -> no_leak w')
  | Stops _ => astep O odef op w = Throw
  | Misuse _ => True
  end.
Proof.
  intro R. pose proof R as [G R']. destruct op; cbn [aspec astep].
  - destruct (A c) eqn:EA; [exact I|]. pose proof (A_none w A c R EA) as Ec. unfold unused. rewrite Ec. cbn [bind]. eexists. split; [reflexivity|]. split; [|intro L; now apply leak_new].
    apply ARel_set; [assumption| | |apply hfun_empty]; [now apply good_new|reflexivity].
  - destruct (A c) as [f|] eqn:EA; [|exact I]. pose proof (ins_ok w A c f k o R EA) as H. destruct (f k); exact H.
  - destruct (A c) as [f|] eqn:EA; [|exact I]. destruct (at_ok w A c f k R EA) as (p & w' & x & E & R1 & _ & _ & L1). destruct (f k).
    + rewrite E. cbn [bind]. exists w'. split; [reflexivity|]. split; [|assumption]. apply (ARel_ext _ _ _ R1). intro d. unfold supd. destruct (d =? c) eqn:K; [apply Z.eqb_eq in K; subst; rewrite EA; reflexivity|]. destruct (A d); [reflexivity|exact I].
    + rewrite E. cbn [bind]. exists w'. now split.
  - destruct (A c) as [f|] eqn:EA; [|exact I]. destruct (at_ok w A c f k R EA) as (p & w' & x & E & R1 & Ex & Ep & L1). rewrite E. cbn [bind].
    destruct (write_ok w' _ c _ x k p o R1 ltac:(unfold supd; rewrite Z.eqb_refl; reflexivity) Ex Ep) as [R2 L2].
    assert (Hd : exists o', hp w' p = Some o').
    { destruct R1 as [_ R1]. specialize (R1 c). rewrite Ex in R1. unfold supd at 1 in R1. rewrite Z.eqb_refl in R1. destruct R1 as [_ M]. specialize (M k). rewrite Ep in M. match type of M with match ?t with _ => _ end => destruct t as [o'|] end; [now exists o'|destruct M]. }
    destruct Hd as [o' Ho]. unfold deref. rewrite Ho. cbn [bind]. eexists. split; [reflexivity|]. split; [|auto]. apply (ARel_ext _ _ _ R2). apply aeq_twice.
    intro k'. unfold supd. destruct (k' =? k) eqn:Kk; [reflexivity|]. destruct (f k); [reflexivity|]. now rewrite Kk.
  - destruct (A c) as [f|] eqn:EA; [|exact I]. rewrite (get_ok w A c f k R EA). destruct (f k); [|reflexivity]. cbn [bind]. exists w. now split.
  - destruct (A c) eqn:EA; [exact I|]. destruct (A d) as [f|] eqn:ED; [|exact I]. pose proof (A_none w A c R EA) as Ec. unfold unused. rewrite Ec. cbn [bind].
    destruct (A_some w A d f R ED) as (y & Et & Ey & [S M]). rewrite Et. cbn [bind].
    assert (R1 : ARel (set_c O c (Some []) w) (supd A c (Some (fun _ => None)))) by (apply ARel_set; [assumption| | |apply hfun_empty]; [now apply good_new|reflexivity]).
    destruct (acopy_loop c y _ _ (fun _ => None) R1) as (w' & E' & R2 & L2).
    + unfold supd. now rewrite Z.eqb_refl.
    + now apply sorted_nodup.
    + intros [k p] Hp. split; [|reflexivity]. cbn [snd set_c Model_Keyed.hp]. destruct G as [(_ & _ & I3) _]. apply (I3 d). exists y. split; [assumption|]. now apply (in_map snd) in Hp.
    + exists w'. split; [exact E'|]. split; [|intro L; apply L2; now apply leak_new]. apply (ARel_ext _ _ _ R2). apply aeq_twice.
      intro k. specialize (M k). cbn [set_c Model_Keyed.hp]. destruct (mfind k y), (f k); now destruct M.
  - destruct (A c) eqn:EA; [exact I|]. destruct (A d) as [f|] eqn:ED; [|exact I]. pose proof (A_none w A c R EA) as Ec. unfold unused. rewrite Ec. cbn [bind].
    destruct (A_some w A d f R ED) as (y & Et & Ey & Hy). rewrite Et. cbn [bind]. eexists. split; [reflexivity|]. assert (N : c <> d) by congruence.
    destruct (move_set O amap ptr w c d y [] Ey eq_refl) as [G' L']; [intros x _ Ex; congruence|assumption|assumption|]. split; [|exact L'].
    split; [assumption|]. intro b. unfold set_c. cbn [Model_Keyed.cs Model_Keyed.hp]. unfold put, supd. destruct (b =? d); [apply hfun_empty|]. destruct (b =? c); [exact Hy|apply R'].
  - destruct (A c) as [f|] eqn:EA; [|exact I]. exact (afree_ok w A c f R EA).
Qed.
Lemma arun_ok ops : forall w A, ARel w A ->
  match aspecs O odef ops A with
  | Done _ B => exists w', arun O odef ops w = Ok w' /\ ARel w' B /\ (no_leak w -> no_leak w')
  | Stops _ => arun O odef ops w = Throw
  | Misuse _ => True
  end.
Proof.
  induction ops as [|op ops IH]; intros w A R; cbn [aspecs].
  - exists w. now split.
  - pose proof (astep_ok op w A R) as H. destruct (aspec O odef op A) as [A1| |]; [|unfold arun; cbn [foldM]; now rewrite H|exact I].
    destruct H as (w1 & E1 & R1 & L1). specialize (IH w1 A1 R1). unfold arun in *. cbn [foldM]. rewrite E1. cbn [bind]. destruct (aspecs O odef ops A1); [|assumption|exact I].
    destruct IH as (w2 & E2 & R2 & L2). exists w2. split; [assumption|]. split; [assumption|]. auto.
Qed.
Lemma ARel_start : ARel (w0 O) (fun _ => None) /\ no_leak (w0 O).
Proof.
  split; [|intros p H; exfalso; now apply H]. split; [|intro c; exact I]. split; [|intros p H; exfalso; now apply H]. split; [|split].
  - intros c d p (x & E & _). discriminate.
  - intros c x E. discriminate.
  - intros c p (x & E & _). discriminate.
Qed.
Lemma values_ok w A c f : ARel w A -> A c = Some f -> exists x L, cs w c = Some x /\ a_values O c w = Ok L /\ a_size x = Z.of_nat (length L) /\ StronglySorted Z.lt (map fst L) /\ (forall k o, In (k, o) L <-> f k = Some o) /\
  a_first O c w = match L with [] => UB | e :: _ => Ok (snd e) end.
Proof.
  intros R EA. destruct (A_some w A c f R EA) as (x & Et & Ex & [S M]). exists x. pose proof (sorted_nodup _ S) as N.
  assert (P : forall k p, In (k, p) x -> exists o, f k = Some o /\ hp w p = Some o).
  { intros k p H. apply in_mfind in H; [|assumption]. specialize (M k). rewrite H in M. destruct (f k) as [o|]; [now exists o|destruct M]. }
  assert (Q : forall x' acc, (forall k p, In (k, p) x' -> exists o, f k = Some o /\ hp w p = Some o) ->
    exists L, foldM (fun p l => do o <- deref O w (snd p); Ok (l ++ [(fst p, o)])) x' acc = Ok (acc ++ L) /\ map fst L = map fst x' /\ Forall2 (fun a b => fst a = fst b /\ hp w (snd a) = Some (snd b) /\ f (fst a) = Some (snd b)) x' L).
  { induction x' as [|[k p] x' IH]; intros acc H.
    - exists []. cbn [foldM]. rewrite app_nil_r. repeat split; constructor.
    - destruct (H k p (or_introl eq_refl)) as (o & F1 & F2). cbn [foldM fst snd]. unfold deref at 1. rewrite F2. cbn [bind]. destruct (IH (acc ++ [(k, o)]) ltac:(intros; apply H; now right)) as (L & E & E1 & E2).
      exists ((k, o) :: L). rewrite E, <- app_assoc. split; [reflexivity|]. split; [cbn [map fst]; now rewrite E1|]. constructor; [now repeat split|assumption]. }
  destruct (Q x [] P) as (L & E & E1 & E2). exists L. split; [assumption|]. unfold a_values, a_first. rewrite Et. cbn [bind]. split; [exact E|]. split; [|split; [|split]].
  - unfold a_size. f_equal. rewrite <- (map_length fst L), E1. now rewrite map_length.
  - now rewrite E1.
  - intros k o. split.
    + intro H. clear - E2 H. induction E2 as [|a b x L (H1 & H2 & H3) F IH]; [destruct H|]. destruct H as [->|H]; [|auto]. cbn [fst snd] in *. now rewrite <- H1.
    + intro Hf. specialize (M k). rewrite Hf in M. destruct (mfind k x) as [p|] eqn:Ek; [|destruct M]. apply mfind_in in Ek. clear - E2 Ek Hf. induction E2 as [|a b x L (H1 & H2 & H3) F IH]; [destruct Ek|].
      destruct Ek as [->|Ek]; [|right; auto]. left. cbn [fst snd] in *. destruct b as [kb ob]. cbn [fst snd] in *. subst. congruence.
  - destruct E2 as [|[k p] b x L (H1 & H2 & H3) F]; [reflexivity|]. unfold deref. cbn [snd] in H2. now rewrite H2.
Qed.
End AMap.
