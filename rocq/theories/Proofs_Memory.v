From Verif Require Import Base BaseFacts Model_Memory.
Local Open Scope Z_scope.

Fixpoint tiles (a : Z) (l : list block) (e : Z) : Prop :=
  match l with
  | [] => a = e
  | b :: l' => bbeg b = a /\ 0 < bsize b /\ (128 | bsize b) /\ tiles (a + bsize b) l' e
  end.
Lemma tiles_app a l1 l2 e : tiles a (l1 ++ l2) e <-> exists m, tiles a l1 m /\ tiles m l2 e.
Proof.
  revert a; induction l1 as [|b l1 IH]; intro a; cbn.
  - split; [eauto|]. now intros (m & -> & H).
  - rewrite IH. firstorder.
Qed.
Lemma tiles_le a l e : tiles a l e -> a <= e.
Proof. revert a; induction l as [|b l IH]; intros a H; cbn in H; [lia|]. destruct H as (_ & ? & _ & H). apply IH in H. lia. Qed.
Lemma tiles_in a l e b : tiles a l e -> In b l -> a <= bbeg b /\ bbeg b + bsize b <= e /\ 0 < bsize b /\ (128 | bbeg b - a) /\ (128 | bsize b).
Proof.
  revert a; induction l as [|c l IH]; intros a H []; cbn in H; destruct H as (E & P & D & T); subst.
  - apply tiles_le in T. repeat split; try lia; [|assumption]. now replace (bbeg b - bbeg b) with 0 by lia; apply Z.divide_0_r.
  - destruct (IH _ T H0) as (A & B & C & F & G). repeat split; try lia; [|assumption].
    replace (bbeg b - bbeg c) with ((bbeg b - (bbeg c + bsize c)) + bsize c) by lia. now apply Z.divide_add_r.
Qed.
Lemma tiles_disj a l e b c : tiles a l e -> In b l -> In c l -> bbeg b <> bbeg c ->
  bbeg b + bsize b <= bbeg c \/ bbeg c + bsize c <= bbeg b.
Proof.
  revert a; induction l as [|x l IH]; intros a T Hb Hc Hne; [destruct Hb|]. cbn in T. destruct T as (E & P & D & T).
  destruct Hb as [->|Hb], Hc as [->|Hc]; [congruence| | |now apply (IH _ T)].
  - left. destruct (tiles_in _ _ _ _ T Hc). lia.
  - right. destruct (tiles_in _ _ _ _ T Hb). lia.
Qed.
Lemma tiles_nodup a l e : tiles a l e -> NoDup (map bbeg l).
Proof.
  revert a; induction l as [|x l IH]; intros a T; cbn in *; constructor; destruct T as (E & P & D & T).
  - intro H. apply in_map_iff in H as (y & Ey & Hy). destruct (tiles_in _ _ _ _ T Hy). lia.
  - eapply IH; eauto.
Qed.
Lemma tiles_inj a l e b c : tiles a l e -> In b l -> In c l -> bbeg b = bbeg c -> b = c.
Proof.
  intros T Hb Hc E. apply tiles_nodup in T. revert T Hb Hc. induction l as [|x l IH]; cbn; intros T Hb Hc; [contradiction|].
  inversion T as [|? ? Hn Hl]; subst. destruct Hb as [->|Hb], Hc as [->|Hc]; auto.
  - exfalso. apply Hn. rewrite E. now apply in_map.
  - exfalso. apply Hn. rewrite <- E. now apply in_map.
Qed.

Fixpoint coal (pv : bool) (l : list block) : Prop :=
  match l with [] => True | b :: l' => (pv || bused b) = true /\ coal (bused b) l' end.
Definition lastu (pv : bool) (l : list block) : bool := fold_left (fun _ b => bused b) l pv.
Lemma coal_app pv l1 l2 : coal pv (l1 ++ l2) <-> coal pv l1 /\ coal (lastu pv l1) l2.
Proof. revert pv; induction l1 as [|b l1 IH]; intro pv; cbn; [tauto|]. rewrite IH. unfold lastu. cbn. tauto. Qed.
Lemma lastu_snoc pv l b : lastu pv (l ++ [b]) = bused b.
Proof. unfold lastu. now rewrite fold_left_app. Qed.
Lemma coal_weaken pv l : coal pv l -> coal true l.
Proof. destruct l; cbn; tauto. Qed.

Definition ukeys (l : list block) : list (Z * nat) := map (fun b => (bbeg b, bid b)) (filter bused l).
Lemma ukeys_app l1 l2 : ukeys (l1 ++ l2) = ukeys l1 ++ ukeys l2.
Proof. unfold ukeys. now rewrite filter_app, map_app. Qed.
Lemma in_ukeys p i l : In (p, i) (ukeys l) <-> exists b, In b l /\ bused b = true /\ bbeg b = p /\ bid b = i.
Proof.
  unfold ukeys. rewrite in_map_iff. split.
  - intros (b & E & H). apply filter_In in H as [H1 H2]. injection E as <- <-. eauto.
  - intros (b & H1 & H2 & <- & <-). exists b. split; [reflexivity|]. now apply filter_In.
Qed.

Definition good (s : mm) (live : list (Z * Z)) : Prop :=
  (128 | msize s) /\ 0 < msize s /\ tiles 0 (mblocks s) (msize s) /\
  NoDup (map bid (mblocks s)) /\ Forall (fun b => (bid b < mnext s)%nat) (mblocks s) /\
  coal true (mblocks s) /\
  Permutation (mmap s) (ukeys (mblocks s)) /\
  Permutation (map fst live) (map fst (ukeys (mblocks s))) /\
  (forall p n b, In (p, n) live -> In b (mblocks s) -> bbeg b = p -> n <= bsize b /\ roundup128 n = Ok (bsize b)).
Definition inv (s : mm) (live : list (Z * Z)) : Prop :=
  good s live \/ (msize s = 1 /\ mblocks s = [Block 0 0 1 false] /\ mmap s = [] /\ live = []).

Lemma init_inv sz : 0 <= sz -> inv (mm_init sz) [].
Proof.
  intro H. unfold inv, mm_init. destruct (sz / 128 * 128 =? 0) eqn:E; [right; auto|]. left.
  assert (0 <= sz / 128) by (apply Z.div_pos; lia).
  unfold good. cbn. assert (D : (128 | sz / 128 * 128)) by now exists (sz / 128).
  split; [assumption|]. split; [lia|]. split; [repeat split; try lia; assumption|].
  split; [repeat constructor; intros []|]. split; [repeat constructor; cbn; lia|]. split; [auto|].
  split; [constructor|]. split; [constructor|]. intros p n b [].
Qed.

Lemma roundup_ok x n : roundup128 x = Ok n -> 0 <= x -> x <= n /\ 0 < n /\ (128 | n).
Proof.
  unfold roundup128. destruct (_ <? _); [discriminate|]. destruct (_ <? _); [discriminate|].
  intros H Hx. injection H as <-. destruct (Z.eq_dec x 0) as [->|Hne].
  - cbn. repeat split; try lia. now exists 1.
  - rewrite Z.quot_div_nonneg by lia. pose proof (Z.div_mod (x - 1) 128 ltac:(lia)).
    pose proof (Z.mod_pos_bound (x - 1) 128 ltac:(lia)). pose proof (Z.div_pos (x - 1) 128 ltac:(lia) ltac:(lia)).
    repeat split; try lia. eexists. reflexivity.
Qed.

Lemma take_block_spec f n l b' l' : take_block f n l = Some (b', l') ->
  exists pre b post, l = pre ++ b :: post /\ bused b = false /\ n <= bsize b /\ b' = Block (bid b) (bbeg b) n true /\
    l' = pre ++ (if n <? bsize b then [b'; Block f (bbeg b + n) (bsize b - n) false] else [b']) ++ post.
Proof.
  revert b' l'; induction l as [|b l IH]; intros b' l' H; [discriminate|]. cbn [take_block] in H.
  destruct (fits n b) eqn:E.
  - injection H as <- <-. unfold fits in E. exists [], b, l. split; [reflexivity|].
    split; [destruct (bused b); [discriminate|reflexivity]|]. split; [lia|]. split; [reflexivity|].
    destruct (n <? bsize b); reflexivity.
  - destruct (take_block f n l) as [[r l'']|] eqn:E2; [|discriminate]. injection H as <- <-.
    destruct (IH _ _ eq_refl) as (pre & c & post & -> & A & B & C & ->). exists (b :: pre), c, post. auto.
Qed.
Lemma at_node_spec i l pre b post : at_node i l = Some (pre, b, post) -> l = pre ++ b :: post /\ bid b = i.
Proof.
  revert pre b post; induction l as [|c l IH]; intros pre b post H; [discriminate|]. cbn in H.
  destruct (bid c =? i)%nat eqn:E.
  - injection H as <- <- <-. apply Nat.eqb_eq in E. auto.
  - destruct (at_node i l) as [[[p x] q]|] eqn:E2; [|discriminate]. injection H as <- <- <-.
    destruct (IH _ _ _ eq_refl) as [-> <-]. auto.
Qed.
Lemma at_node_some i l b : In b l -> bid b = i -> exists pre b' post, at_node i l = Some (pre, b', post).
Proof.
  induction l as [|c l IH]; intros [] E; cbn.
  - subst. rewrite Nat.eqb_refl. eauto.
  - destruct (bid c =? i)%nat; [eauto|]. destruct IH as (? & ? & ? & ->); auto. eauto.
Qed.

Lemma filter_all {A} (f : A -> bool) l : (forall x, In x l -> f x = true) -> filter f l = l.
Proof. induction l as [|x l IH]; intro H; cbn; [reflexivity|]. rewrite H by now left. f_equal. apply IH. intros; apply H; now right. Qed.

Lemma malloc_inv s live _n p s' : 0 <= _n -> inv s live -> mm_malloc _n s = Ok (p, s') -> inv s' ((p, _n) :: live).
Proof.
  intros Hn I E. unfold mm_malloc in E. destruct (roundup128 _n) as [n| |] eqn:Er; try discriminate. cbn [bind] in E.
  assert (Er0 := Er). apply roundup_ok in Er as (Hle & Hpos & Hdiv); [|assumption].
  destruct (take_block (mnext s) n (mblocks s)) as [[b' l']|] eqn:Et; [|discriminate]. injection E as <- <-.
  destruct I as [G|(E1 & E2 & E3 & E4)].
  2:{ exfalso. rewrite E2 in Et. cbn in Et. unfold fits in Et. cbn in Et. replace (n <=? 1) with false in Et.
      - rewrite andb_false_r in Et. discriminate.
      - destruct Hdiv as [k ->]. lia. }
  destruct G as (G1 & G2 & T & Nd & Fr & Co & Pm & Pl & Sz).
  apply take_block_spec in Et as (pre & b & post & El & Hu & Hsz & -> & ->).
  rewrite El in *. cbn [bbeg bid] in *.
  assert (Hb : In b (pre ++ b :: post)) by (apply in_or_app; right; now left).
  apply tiles_app in T as (m & T1 & T2). cbn in T2. destruct T2 as (Hbeg & Hp & Hd & T2).
  assert (Uk : ukeys (pre ++ b :: post) = ukeys pre ++ ukeys post).
  { rewrite ukeys_app. unfold ukeys at 2. cbn. rewrite Hu. reflexivity. }
  rewrite Uk in Pm, Pl.
  assert (Hnm : forall q, In q (mmap s) -> fst q <> bbeg b).
  { intros [q i] Hq Eq. cbn in Eq. subst q. apply (Permutation_in _ Pm) in Hq. rewrite <- Uk in Hq.
    apply in_ukeys in Hq as (c & Hc & Hcu & Hcb & _).
    assert (c = b); [|congruence].
    apply (tiles_inj 0 (pre ++ b :: post) (msize s)); auto. apply tiles_app. exists m. split; [assumption|]. cbn. auto. }
  left. unfold good. cbn [msize mblocks mmap mnext]. set (mid := if n <? bsize b then _ else _).
  assert (Hmid : mid = [Block (bid b) (bbeg b) n true; Block (mnext s) (bbeg b + n) (bsize b - n) false] /\ n < bsize b
               \/ mid = [Block (bid b) (bbeg b) n true] /\ n = bsize b).
  { unfold mid. destruct (n <? bsize b) eqn:En; [left|right]; split; auto; lia. }
  clearbody mid.
  assert (Um : ukeys mid = [(bbeg b, bid b)]) by (destruct Hmid as [[-> _]|[-> _]]; reflexivity).
  rewrite map_app in Nd. cbn in Nd.
  split; [assumption|]. split; [assumption|]. split; [|split; [|split; [|split; [|split; [|split]]]]].
  - apply tiles_app. exists m. split; [assumption|]. apply tiles_app. exists (m + bsize b). split; [|assumption].
    destruct Hmid as [[-> Hlt]|[-> ->]]; cbn; repeat split; try lia; try assumption.
    replace (bsize b - n) with (bsize b + - n) by lia. apply Z.divide_add_r; [assumption|]. now apply Z.divide_opp_r.
  - rewrite !map_app. destruct Hmid as [[-> _]|[-> _]]; cbn; [|exact Nd].
    apply (Permutation_NoDup (l := mnext s :: map bid pre ++ bid b :: map bid post)).
    + rewrite (Permutation_middle (map bid pre) (bid b :: map bid post) (mnext s)). apply Permutation_app_head, perm_swap.
    + constructor; [|exact Nd]. intro H. rewrite Forall_forall in Fr.
      assert (Hin : In (mnext s) (map bid (pre ++ b :: post))) by (rewrite map_app; exact H).
      apply in_map_iff in Hin as (c & Ec & Hc). specialize (Fr c Hc). lia.
  - apply Forall_app in Fr as [F1 F2]. inversion F2 as [|? ? F3 F4]; subst.
    apply Forall_app. split; [eapply Forall_impl; [|exact F1]; cbn; lia|]. apply Forall_app. split.
    + destruct Hmid as [[-> _]|[-> _]]; repeat constructor; cbn; lia.
    + eapply Forall_impl; [|exact F4]; cbn; lia.
  - apply coal_app in Co as [C1 C2]. cbn in C2. destruct C2 as [C2 C3]. rewrite Hu in *.
    apply coal_app. split; [exact C1|]. apply coal_app. rewrite orb_false_r in C2. rewrite C2.
    destruct Hmid as [[-> _]|[-> _]]; cbn; repeat split; try exact C3. eapply coal_weaken; exact C3.
  - unfold map_set. rewrite filter_all.
    + rewrite !ukeys_app, Um. cbn. apply Permutation_cons_app. exact Pm.
    + intros q Hq. specialize (Hnm q Hq). lia.
  - rewrite !ukeys_app, Um. cbn. rewrite map_app. cbn. apply Permutation_cons_app. rewrite <- map_app. exact Pl.
  - intros p k c Hin Hc Hp'.
    assert (Hc' : c = Block (bid b) (bbeg b) n true \/ (n < bsize b /\ c = Block (mnext s) (bbeg b + n) (bsize b - n) false)
        \/ (In c pre \/ In c post)).
    { apply in_app_or in Hc as [Hc|Hc]; [tauto|]. apply in_app_or in Hc as [Hc|Hc]; [|tauto].
      destruct Hmid as [[-> Hlt]|[-> _]]; cbn in Hc; [destruct Hc as [<-|[<-|[]]]|destruct Hc as [<-|[]]]; auto. }
    assert (Hlive : forall k, In (p, k) live -> p <> bbeg b /\ (n < bsize b -> p <> bbeg b + n)).
    { intros k' Hk.
      assert (Hin' : In p (map fst (ukeys pre ++ ukeys post))).
      { apply (Permutation_in _ Pl). now apply (in_map fst) in Hk. }
      apply in_map_iff in Hin' as ([q i] & Eq & Hq). cbn in Eq. subst q. rewrite <- Uk in Hq.
      apply in_ukeys in Hq as (d & Hd' & Hdu & Hdp & _). rewrite <- Hdp.
      assert (Td : tiles 0 (pre ++ b :: post) (msize s)) by (apply tiles_app; exists m; split; [assumption|]; cbn; auto).
      assert (Hdb : bbeg d <> bbeg b) by (intro Eq; apply (tiles_inj _ _ _ _ _ Td) in Eq; auto; congruence).
      split; [exact Hdb|]. intros Hlt Eq.
      destruct (tiles_disj _ _ _ d b Td Hd' Hb Hdb); [|lia]. pose proof (tiles_in _ _ _ _ Td Hd'). lia. }
    destruct Hin as [Hin|Hin].
    + injection Hin as <- <-. destruct Hc' as [->|[[Hlt ->]|Hc']]; cbn in *; [auto|lia|].
      exfalso. assert (Hc2 : In c (pre ++ b :: post)) by (apply in_or_app; destruct Hc'; [tauto|right; now right]).
      assert (Td : tiles 0 (pre ++ b :: post) (msize s)) by (apply tiles_app; exists m; split; [assumption|]; cbn; auto).
      pose proof (tiles_nodup _ _ _ Td) as ND. rewrite map_app in ND. cbn in ND. apply NoDup_remove_2 in ND. apply ND.
      rewrite <- map_app, <- Hp'. apply in_map. apply in_or_app. exact Hc'.
    + destruct (Hlive k Hin) as [L1 L2]. destruct Hc' as [->|[[Hlt ->]|Hc']]; cbn in *.
      * congruence.
      * exfalso. apply L2; [assumption|congruence].
      * apply (Sz p k c Hin); [|assumption]. apply in_or_app. destruct Hc'; [tauto|right; now right].
Qed.

Lemma NoDup_fst {A B} (l : list (A * B)) x y z : NoDup (map fst l) -> In (x, y) l -> In (x, z) l -> y = z.
Proof.
  induction l as [|[a b] l IH]; cbn; intros N Hy Hz; [contradiction|]. inversion N as [|? ? Hn Hl]; subst.
  destruct Hy as [E1|Hy], Hz as [E2|Hz]; [congruence| | |auto].
  - injection E1 as <- <-. exfalso. apply Hn. now apply (in_map fst) in Hz.
  - injection E2 as <- <-. exfalso. apply Hn. now apply (in_map fst) in Hy.
Qed.
Lemma perm_filter_out {A} (f : Z * A -> bool) (p : Z) l m i : (forall q, f q = negb (fst q =? p)) ->
  Permutation l ((p, i) :: m) -> NoDup (map fst l) -> Permutation (filter f l) m.
Proof.
  intros Hf P N.
  assert (G : forall a b, Permutation a b -> Permutation (filter f a) (filter f b)).
  { induction 1; cbn; [constructor|destruct (f x); auto|destruct (f x), (f y); try constructor; auto|etransitivity; eauto]. }
  rewrite (G _ _ P). cbn. rewrite Hf. cbn. rewrite Z.eqb_refl. cbn. rewrite filter_all; [reflexivity|].
  intros [q j] Hq. rewrite Hf. cbn. apply (Permutation_map fst) in P. pose proof (Permutation_NoDup P N) as N2. cbn in N2.
  inversion N2 as [|? ? Hn _]; subst. destruct (q =? p) eqn:E; [|reflexivity]. exfalso. apply Hn.
  replace p with q by lia. now apply (in_map fst) in Hq.
Qed.
Lemma map_filter_fst (f : Z * Z -> bool) (g : Z -> bool) l : (forall q, f q = g (fst q)) -> map fst (filter f l) = filter g (map fst l).
Proof. intro H. induction l as [|q l IH]; cbn; [reflexivity|]. rewrite H. destruct (g (fst q)); cbn; congruence. Qed.

Lemma free_inv strict s live p s' : inv s live -> mm_free strict p s = Ok s' ->
  inv s' (filter (fun q => negb (fst q =? p)) live).
Proof.
  intros I E. unfold mm_free in E. destruct (find (fun q => fst q =? p) (mmap s)) as [[p' i]|] eqn:Ef; [|discriminate].
  destruct strict; [discriminate|]. apply find_some in Ef as [Hin Ep]. cbn in Ep. assert (p' = p) by lia. subst p'.
  destruct I as [G|(E1 & E2 & E3 & E4)]; [|rewrite E3 in Hin; destruct Hin].
  destruct G as (G1 & G2 & T & Nd & Fr & Co & Pm & Pl & Sz).
  destruct (at_node i (mblocks s)) as [[[pre b] [|nx post]]|] eqn:Ea; try discriminate.
  apply at_node_spec in Ea as [El Hi].
  assert (Hb : b = b /\ bbeg b = p /\ bused b = true).
  { apply (Permutation_in _ Pm) in Hin. apply in_ukeys in Hin as (c & Hc & Hu & Hcb & Hci).
    assert (Ec : c = b); [|subst c; auto].
    rewrite El in Hc, Nd. clear -Hc Nd Hci Hi. rewrite map_app in Nd. cbn in Nd. apply NoDup_remove_2 in Nd.
    apply in_app_or in Hc as [Hc|[Hc|Hc]]; [|congruence|]; exfalso; apply Nd; rewrite Hi, <- Hci; apply in_or_app;
      [left|right; change (bid nx :: map bid post) with (map bid (nx :: post))]; now apply in_map. }
  destruct Hb as (_ & Hbp & Hbu).
  assert (N1 : NoDup (map fst (ukeys (mblocks s)))).
  { unfold ukeys. rewrite map_map. cbn. pose proof (tiles_nodup _ _ _ T) as N. clear -N.
    induction (mblocks s) as [|c l IH]; cbn in *; [constructor|]. inversion N; subst. destruct (bused c); cbn; auto.
    constructor; auto. intro H. apply H1. apply in_map_iff in H as (d & <- & Hd). apply filter_In in Hd as [Hd _]. now apply in_map. }
  assert (Uk : ukeys (mblocks s) = ukeys pre ++ (p, i) :: ukeys (nx :: post)).
  { rewrite El, ukeys_app. f_equal. unfold ukeys at 1. cbn. rewrite Hbu. cbn. congruence. }
  assert (Hx : exists y post', nx :: post = y ++ post' /\ ukeys y = [] /\ coal false post' /\
       (if bused nx then (bsize b, nx :: post) else (bsize b + bsize nx, post)) = (bsize b + fold_right Z.add 0 (map bsize y), post')).
  { rewrite El in Co. apply coal_app in Co as [_ C2]. cbn in C2. destruct C2 as (_ & _ & C2).
    destruct (bused nx) eqn:En.
    - exists [], (nx :: post). cbn. rewrite En in *. repeat split; auto. f_equal. lia.
    - exists [nx], post. unfold ukeys. cbn. rewrite En in *. cbn. repeat split; auto. f_equal. lia. }
  destruct Hx as (y & post0 & Ey & Uy & Cy & Ez). rewrite Ez in E.
  match type of E with context [MM _ ?x _ _] => set (l' := x) in E end.
  assert (HE : s' = MM (msize s) l' (filter (fun q => negb (fst q =? p)) (mmap s)) (mnext s)) by (injection E as <-; reflexivity).
  clear E. subst s'.
  assert (Key : exists pre' x post' c, mblocks s = pre' ++ x ++ post' /\
       l' = pre' ++ c :: post' /\ x <> [] /\ bbeg c = bbeg (hd b x) /\ bid c = bid (hd b x) /\ bused c = false /\
       bsize c = fold_right Z.add 0 (map bsize x) /\
       ukeys x = [(p, i)] /\ lastu true pre' = true /\ coal false post').
  { rewrite El in Co. apply coal_app in Co as [C1 C2]. clear C2.
    unfold l'.
    assert (Ub : ukeys [b] = [(p, i)]) by (unfold ukeys; cbn; rewrite Hbu; cbn; congruence).
    destruct pre as [|pv pre0 _] using rev_ind.
    - exists [], (b :: y), post0, (Block (bid b) (bbeg b) (bsize b + fold_right Z.add 0 (map bsize y)) false).
      rewrite El, Ey. change (b :: y) with ([b] ++ y). rewrite ukeys_app, Ub, Uy. cbn. repeat split; auto. discriminate.
    - rewrite rev_app_distr. cbn [rev app]. rewrite rev_involutive. destruct (bused pv) eqn:Epv.
      + exists (pre0 ++ [pv]), (b :: y), post0, (Block (bid b) (bbeg b) (bsize b + fold_right Z.add 0 (map bsize y)) false).
        rewrite El, Ey. change (b :: y) with ([b] ++ y). rewrite ukeys_app, Ub, Uy, lastu_snoc. cbn. repeat split; auto. discriminate.
      + exists pre0, (pv :: b :: y), post0, (Block (bid pv) (bbeg pv) (bsize pv + (bsize b + fold_right Z.add 0 (map bsize y))) (bused pv)).
        rewrite El, Ey. change (pv :: b :: y) with ([pv] ++ [b] ++ y). rewrite !ukeys_app, Ub, Uy. rewrite <- !app_assoc. cbn. unfold ukeys. cbn. rewrite Epv.
        apply coal_app in C1 as [_ C1]. cbn in C1. rewrite Epv, orb_false_r in C1. repeat split; auto; try discriminate. tauto. }
  clearbody l'. clear El Hi Uk Ey Uy Cy Ez post0 y. destruct Key as (pre' & x & post' & c & El & -> & Hxn & Hcb & Hci & Hcu & Hcs & Ux & Lp & Cp).
  rewrite El in *. destruct x as [|h x]; [congruence|]. cbn [hd] in *.
  assert (T0 := T). apply tiles_app in T as (m & T1 & T2). apply tiles_app in T2 as (m2 & T2 & T3).
  assert (Tx : bbeg h = m /\ m + bsize c = m2 /\ 0 < bsize c /\ (128 | bsize c)).
  { cbn in T2. destruct T2 as (<- & P0 & D0 & T2). split; [reflexivity|]. rewrite Hcs. cbn. clear -P0 D0 T2.
    generalize dependent (bbeg h). intros a T2.
    assert (G : forall a, tiles a x m2 -> 0 <= fold_right Z.add 0 (map bsize x) /\ (128 | fold_right Z.add 0 (map bsize x)) /\ a + fold_right Z.add 0 (map bsize x) = m2).
    { clear. induction x as [|d x IH]; cbn; intros a0 H; [repeat split; try lia; apply Z.divide_0_r|]. destruct H as (A & B & C & D).
      destruct (IH _ D) as (I1 & I2 & I3). repeat split; try lia. now apply Z.divide_add_r. }
    destruct (G _ T2) as (A & B & C). repeat split; try lia. now apply Z.divide_add_r. }
  destruct Tx as (Hhm & Hm2 & Hcp & Hcd).
  rewrite !ukeys_app, Ux in *. cbn [app] in *.
  left. unfold good. cbn [msize mblocks mmap mnext].
  assert (Uc : ukeys (pre' ++ c :: post') = ukeys pre' ++ ukeys post').
  { rewrite ukeys_app. f_equal. unfold ukeys. cbn. now rewrite Hcu. }
  rewrite Uc.
  split; [assumption|]. split; [assumption|]. split; [|split; [|split; [|split; [|split; [|split]]]]].
  - apply tiles_app. exists m. split; [assumption|]. cbn. rewrite Hm2. repeat split; auto; congruence.
  - rewrite !map_app in *. cbn in *. rewrite ?map_app in Nd. rewrite Hci. clear -Nd. induction (map bid pre') as [|a l IH]; cbn in *.
    + inversion Nd as [|? ? N1 N2]; subst. constructor; [intro; apply N1; apply in_or_app; auto|]. clear N1 Nd. induction (map bid x); cbn in *; auto. inversion N2; auto.
    + inversion Nd as [|? ? N1 N2]; subst. constructor; [|auto]. intro H. apply N1. apply in_app_or in H as [H|[H|H]]; apply in_or_app; [auto|right; now left|right; right; apply in_or_app; auto].
  - apply Forall_app in Fr as [F1 F2]. inversion F2 as [|? ? F3 F4]; subst. apply Forall_app in F4 as [F4 F5].
    apply Forall_app. split; [assumption|]. constructor; [|assumption]. now rewrite Hci.
  - apply coal_app in Co as [C1 _]. apply coal_app. split; [exact C1|]. cbn. rewrite Lp, Hcu. auto.
  - apply (perm_filter_out _ p _ _ i); [reflexivity| |].
    + rewrite Pm. symmetry. apply Permutation_middle.
    + eapply Permutation_NoDup; [symmetry; apply Permutation_map; exact Pm|exact N1].
  - rewrite (map_filter_fst _ (fun q => negb (q =? p))) by reflexivity.
    rewrite map_app in Pl, N1. cbn in Pl, N1. rewrite map_app.
    assert (Gf : forall (g : Z -> bool) a b, Permutation a b -> Permutation (filter g a) (filter g b)).
    { intro g. induction 1; cbn; [constructor|destruct (g x0); auto|destruct (g x0), (g y); try constructor; auto|etransitivity; eauto]. }
    rewrite (Gf _ _ _ Pl), filter_app. cbn. rewrite Z.eqb_refl. cbn. apply NoDup_remove_2 in N1.
    rewrite !filter_all; [reflexivity| |]; intros q Hq; destruct (q =? p) eqn:Eq; auto; exfalso; apply N1; replace p with q by lia; apply in_or_app; auto.
  - intros q k d Hq Hd Eq. apply filter_In in Hq as [Hq Hne]. cbn in Hne. apply in_app_or in Hd as [Hd|[<-|Hd]].
    + apply (Sz q k d); auto. apply in_or_app; auto.
    + exfalso. assert (Hin' : In q (map fst (ukeys pre' ++ (p, i) :: ukeys post'))).
      { apply (Permutation_in _ Pl). now apply (in_map fst) in Hq. }
      assert (exists e, In e (pre' ++ (h :: x) ++ post') /\ bused e = true /\ bbeg e = q) as (e & He & Heu & Heq).
      { apply in_map_iff in Hin' as ([q' j] & Eq' & Hq'). cbn in Eq'. subst q'.
        change (In (q, j) (ukeys pre' ++ [(p, i)] ++ ukeys post')) in Hq'. rewrite <- Ux, <- !ukeys_app in Hq'.
        apply in_ukeys in Hq' as (e & ? & ? & ? & _). eauto. }
      assert (Eh : e = h) by (apply (tiles_inj _ _ _ _ _ T0 He); [apply in_or_app; right; now left|congruence]). subst e.
      assert (Hh : In (bbeg h, bid h) (ukeys (h :: x))) by (apply in_ukeys; exists h; split; [now left|auto]).
      rewrite Ux in Hh. destruct Hh as [Hh|[]]. injection Hh as Hh _. lia.
    + apply (Sz q k d); auto. apply in_or_app; right; right. apply in_or_app; auto.
Qed.

Definition sane (o : mop) : Prop := match o with Malloc n => 0 <= n | Free _ => True end.
Lemma mstep_inv strict o s live s' live' : sane o -> inv s live -> mstep strict o (s, live) = Ok (s', live') -> inv s' live'.
Proof.
  intros So I E. destruct o as [n|p]; cbn in E.
  - destruct (mm_malloc n s) as [[p s1]| |] eqn:Em; [|now injection E as <- <-|discriminate].
    injection E as <- <-. eapply malloc_inv; eauto.
  - destruct (mm_free strict p s) as [s1| |] eqn:Em; try discriminate. cbn in E. injection E as <- <-. eapply free_inv; eauto.
Qed.
Lemma foldM_pres {A S} (f : A -> S -> res S) (P : S -> Prop) l : forall s s',
  (forall a s s', In a l -> P s -> f a s = Ok s' -> P s') -> P s -> foldM f l s = Ok s' -> P s'.
Proof.
  induction l as [|a l IH]; intros s s' Hs Ps E; cbn in E; [now injection E as <-|].
  destruct (f a s) as [s1| |] eqn:Ef; try discriminate. cbn in E.
  apply (IH s1 s'); auto; [|eapply Hs; eauto; now left]. intros; eapply Hs; eauto; now right.
Qed.
Lemma mrun_inv strict h sz s live : 0 <= sz -> Forall sane h -> mrun strict h sz = Ok (s, live) -> inv s live.
Proof.
  intros Hs Hh E. apply (foldM_pres (mstep strict) (fun st => inv (fst st) (snd st)) h (mm_init sz, []) (s, live)); auto.
  - intros o [s0 l0] [s1 l1] Ho I Es. cbn in *. eapply mstep_inv; eauto. rewrite Forall_forall in Hh. auto.
  - now apply init_inv.
Qed.
Lemma mrun_msize strict h sz s live : mrun strict h sz = Ok (s, live) -> msize s = msize (mm_init sz).
Proof.
  intro E. apply (foldM_pres (mstep strict) (fun st => msize (fst st) = msize (mm_init sz)) h (mm_init sz, []) (s, live)); auto.
  intros o [s0 l0] [s1 l1] _ I Es. cbn in *. rewrite <- I. destruct o as [n|p]; cbn in Es.
  - unfold mm_malloc in Es. destruct (roundup128 n); cbn in Es; [|now injection Es as <- <-|discriminate].
    destruct (take_block _ _ _) as [[]|]; cbn in Es; injection Es as <- <-; reflexivity.
  - unfold mm_free in Es. destruct (find _ _) as [[]|]; [|discriminate]. destruct strict; [discriminate|].
    destruct (at_node _ _) as [[[? ?] [|? ?]]|]; try discriminate. destruct (bused _); cbn in Es; injection Es as <- <-; reflexivity.
Qed.

(* what the invariant says of the client's pointers *)
Lemma good_live s live p n : inv s live -> In (p, n) live ->
  exists b, In b (mblocks s) /\ bused b = true /\ bbeg b = p /\ n <= bsize b /\ roundup128 n = Ok (bsize b) /\ good s live.
Proof.
  intros [G|(_ & _ & _ & ->)] H; [|destruct H]. assert (G0 := G). destruct G as (G1 & G2 & T & Nd & Fr & Co & Pm & Pl & Sz).
  assert (H' : In p (map fst (ukeys (mblocks s)))) by (apply (Permutation_in _ Pl); now apply (in_map fst) in H).
  apply in_map_iff in H' as ([q i] & E & H'). cbn in E. subst q. apply in_ukeys in H' as (b & Hb & Hu & Hp & _).
  destruct (Sz _ _ _ H Hb Hp). exists b. auto 10.
Qed.
Lemma inv_bounds s live p n : inv s live -> In (p, n) live -> 0 <= p /\ p + n <= msize s /\ (128 | p).
Proof.
  intros I H. destruct (good_live _ _ _ _ I H) as (b & Hb & _ & <- & Hn & _ & G). destruct G as (_ & _ & T & _).
  destruct (tiles_in _ _ _ _ T Hb) as (A & B & C & D & _). rewrite Z.sub_0_r in D. repeat split; auto; lia.
Qed.
Lemma inv_nodup s live : inv s live -> NoDup (map fst live).
Proof.
  intros [G|(_ & _ & _ & ->)]; [|constructor]. destruct G as (G1 & G2 & T & Nd & Fr & Co & Pm & Pl & Sz).
  eapply Permutation_NoDup; [symmetry; exact Pl|]. unfold ukeys. rewrite map_map. cbn. apply tiles_nodup in T. clear -T.
  induction (mblocks s) as [|c l IH]; cbn in *; [constructor|]. inversion T; subst. destruct (bused c); cbn; auto.
  constructor; auto. intro H. apply H1. apply in_map_iff in H as (d & <- & Hd). apply filter_In in Hd as [Hd _]. now apply in_map.
Qed.
Lemma inv_disj s live p n q k : inv s live -> In (p, n) live -> In (q, k) live -> p <> q -> p + n <= q \/ q + k <= p.
Proof.
  intros I H1 H2 Hne. destruct (good_live _ _ _ _ I H1) as (b & Hb & _ & <- & Hn & _ & G).
  destruct (good_live _ _ _ _ I H2) as (c & Hc & _ & <- & Hk & _ & _). destruct G as (_ & _ & T & _).
  destruct (tiles_disj _ _ _ _ _ T Hb Hc Hne); [left|right]; lia.
Qed.
(* nothing live: the free list is one block again *)
Lemma inv_empty s : inv s [] -> exists i, mblocks s = [Block i 0 (msize s) false].
Proof.
  intros [G|(E1 & E2 & _ & _)]; [|rewrite E1; eauto]. destruct G as (G1 & G2 & T & Nd & Fr & Co & Pm & Pl & Sz).
  cbn in Pl. apply Permutation_nil in Pl. destruct (mblocks s) as [|b l] eqn:El; cbn in T; [lia|].
  assert (Hall : forall c, In c (b :: l) -> bused c = false).
  { intros c Hc. destruct (bused c) eqn:E; [|reflexivity]. exfalso.
    assert (H : In (bbeg c, bid c) (ukeys (b :: l))) by (apply in_ukeys; eauto). apply (in_map fst) in H. rewrite Pl in H. destruct H. }
  destruct l as [|c l].
  - cbn in T. destruct T as (E & _ & _ & E2). exists (bid b). f_equal. destruct b as [i bg sz u]; cbn in *.
    pose proof (Hall _ (or_introl eq_refl)) as Hu. cbn in Hu. f_equal; auto; lia.
  - exfalso. cbn in Co. destruct Co as (_ & H & _). rewrite (Hall b), (Hall c) in H by (cbn; auto). discriminate.
Qed.
Lemma empty_malloc s n : inv s [] -> 0 <= n -> (128 | msize s) -> msize s <= INT32_MAX -> n <= msize s -> exists s', mm_malloc n s = Ok (0, s').
Proof.
  intros I Hn [k Hd] Hb Hle. destruct (inv_empty _ I) as [i El].
  assert (R : exists r, roundup128 n = Ok r /\ 0 <= r <= msize s).
  { unfold roundup128, INT32_MAX in *. destruct (Z.eq_dec n 0) as [->|Hne].
    - exists 128. split; [reflexivity|]. split; [lia|]. destruct I as [(G1 & G2 & _)|(E1 & _)]; lia.
    - destruct (n - 1 <? _) eqn:E0; [lia|]. rewrite Z.quot_div_nonneg by lia. pose proof (Z.div_mod (n - 1) 128 ltac:(lia)). pose proof (Z.mod_pos_bound (n - 1) 128 ltac:(lia)).
      pose proof (Z.div_pos (n - 1) 128 ltac:(lia) ltac:(lia)).
      destruct (2147483647 <? _) eqn:E; [nia|]. eexists. split; [reflexivity|]. nia. }
  destruct R as (r & Er & Hr). unfold mm_malloc. rewrite Er, El. cbn. unfold fits. cbn.
  replace (0 <=? r) with true by lia. replace (r <=? msize s) with true by lia. cbn. eauto.
Qed.

Lemma free_ok s live p n : inv s live -> In (p, n) live ->
  (exists r, roundup128 n = Ok r /\ p + r < msize s) <-> exists s', mm_free false p s = Ok s'.
Proof.
  intros I H. destruct (good_live _ _ _ _ I H) as (b & Hb & Hu & Hp & Hn & Hr & G). destruct G as (_ & _ & T & Nd & _ & _ & Pm & _ & _).
  assert (Hm : In (p, bid b) (mmap s)) by (apply (Permutation_in _ (Permutation_sym Pm)); apply in_ukeys; eauto).
  assert (Nm : NoDup (map fst (mmap s))).
  { eapply Permutation_NoDup; [symmetry; apply Permutation_map; exact Pm|]. unfold ukeys. rewrite map_map. cbn. apply tiles_nodup in T. clear -T.
    induction (mblocks s) as [|c l IH]; cbn in *; [constructor|]. inversion T; subst. destruct (bused c); cbn; auto.
    constructor; auto. intro H. apply H1. apply in_map_iff in H as (d & <- & Hd). apply filter_In in Hd as [Hd _]. now apply in_map. }
  unfold mm_free. destruct (find (fun q => fst q =? p) (mmap s)) as [[p' i]|] eqn:Ef.
  2:{ exfalso. apply (find_none _ _ Ef) in Hm. cbn in Hm. lia. }
  apply find_some in Ef as [Hin Ep]. cbn in Ep. assert (p' = p) by lia. subst p'.
  assert (i = bid b) by (eapply NoDup_fst; eauto). subst i.
  destruct (at_node_some (bid b) (mblocks s) b Hb eq_refl) as (pre & b' & post & Ea). rewrite Ea. apply at_node_spec in Ea as [El Ei].
  assert (b' = b).
  { rewrite El in Hb, Nd. clear -Hb Nd Ei. rewrite map_app in Nd. cbn in Nd. apply NoDup_remove_2 in Nd.
    apply in_app_or in Hb as [Hc|[Hc|Hc]]; [|congruence|]; exfalso; apply Nd; rewrite Ei; apply in_or_app;
      [left|right]; now apply in_map. }
  subst b'. rewrite El in T. apply tiles_app in T as (m & T1 & T2). cbn in T2. destruct T2 as (Eb & P & D & T2).
  rewrite Hr. destruct post as [|nx post]; cbn in T2.
  - split; [intros (r & Er & Hlt); injection Er as <-; lia|intros (? & ?); discriminate].
  - split; [|intros _; exists (bsize b); split; [reflexivity|]; destruct T2 as (_ & ? & _ & T2); apply tiles_le in T2; lia].
    intros _. destruct (bused nx); eauto.
Qed.

Lemma take_block_some f n l c : In c l -> bused c = false -> 0 <= n <= bsize c -> exists r, take_block f n l = Some r.
Proof.
  intros Hc Hu Hn. induction l as [|b l IH]; [destruct Hc|]. cbn [take_block]. destruct (fits n b) eqn:E; [eauto|].
  destruct Hc as [->|Hc]; [|destruct (IH Hc) as [[] ->]; eauto]. exfalso. unfold fits in E. rewrite Hu in E. cbn in E. lia.
Qed.
Lemma reuse_ok h sz s live p n s1 : 0 <= sz -> Forall sane h -> mrun false h sz = Ok (s, live) ->
  In (p, n) live -> mm_free false p s = Ok s1 -> exists q s2, mm_malloc n s1 = Ok (q, s2).
Proof.
  intros Hs Hh E H F. pose proof (mrun_inv _ _ _ _ _ Hs Hh E) as I.
  destruct (good_live _ _ _ _ I H) as (b & Hb & Hu & Hp & Hn & Hr & G). destruct G as (_ & _ & T & Nd & _ & _ & Pm & _ & _).
  unfold mm_free in F. destruct (find _ _) as [[p' i]|] eqn:Ef; [|discriminate].
  apply find_some in Ef as [Hin Ep]. cbn in Ep. assert (p' = p) by lia. subst p'.
  destruct (at_node i (mblocks s)) as [[[pre b'] [|nx post]]|] eqn:Ea; try discriminate.
  apply at_node_spec in Ea as [El Hi].
  assert (b' = b).
  { apply (Permutation_in _ Pm) in Hin. apply in_ukeys in Hin as (c & Hc & Hcu & Hcb & Hci).
    assert (c = b) by (eapply tiles_inj; eauto; congruence). subst c. rewrite <- Hci in Hi.
    rewrite El in Hb, Nd. clear -Hb Nd Hi. rewrite map_app in Nd. cbn in Nd. apply NoDup_remove_2 in Nd.
    apply in_app_or in Hb as [Hc|[Hc|Hc]]; [|congruence|]; exfalso; apply Nd; rewrite Hi; apply in_or_app;
      [left|right; change (bid nx :: map bid post) with (map bid (nx :: post))]; now apply in_map. }
  subst b'.
  assert (Pb : 0 < bsize b) by (eapply tiles_in; eauto).
  assert (Pn : 0 < bsize nx) by (eapply tiles_in; [exact T|]; rewrite El; apply in_or_app; right; right; now left).
  assert (Q : exists c, In c (mblocks s1) /\ bused c = false /\ 0 <= bsize b <= bsize c).
  { assert (Hz : exists sz' post', (if bused nx then (bsize b, nx :: post) else (bsize b + bsize nx, post)) = (sz', post') /\ bsize b <= sz').
    { destruct (bused nx); do 2 eexists; (split; [reflexivity|]); lia. }
    destruct Hz as (sz' & post' & Ez & Hz). rewrite Ez in F. injection F as <-. cbn [mblocks].
    destruct pre as [|pv pre0 _] using rev_ind; [eexists; split; [left; reflexivity|]; cbn; split; [reflexivity|lia]|].
    rewrite rev_app_distr. cbn [rev app]. destruct (bused pv) eqn:Epv.
    - eexists. split; [apply in_or_app; right; left; reflexivity|]. cbn. split; [reflexivity|lia].
    - assert (0 < bsize pv) by (eapply tiles_in; [exact T|]; rewrite El; apply in_or_app; left; apply in_or_app; right; now left).
      eexists. split; [apply in_or_app; right; left; reflexivity|]. cbn. split; [reflexivity|lia]. }
  destruct Q as (c & Hc & Hcu & Hcs). unfold mm_malloc. rewrite Hr. cbn.
  destruct (take_block_some (mnext s1) (bsize b) (mblocks s1) c Hc Hcu Hcs) as [[r l] ->]. eauto.
Qed.
