(* Proofs_Tree2.v -- label sets of rooted paths, growing arrays, serialised trees. *)
From Verif Require Import Base BaseFacts Model_Index Model_Containers Proofs_Containers Model_Tree Spec_Tree Proofs_Tree.
Local Open Scope Z_scope.

Section C.
Context {A : Type} (eqb : A -> A -> bool) (Eq : reflects eqb).
Lemma existsb_in a s : existsb (eqb a) s = true <-> In a s.
Proof. rewrite existsb_exists. split; [intros (x & H & E); apply Eq in E; now subst|intro H; exists a; split; [assumption|now apply Eq]]. Qed.
Lemma erase_none a s : ~ In a s -> set_erase eqb a s = s.
Proof. unfold set_erase. induction s as [|b s IH]; intro H; cbn; [reflexivity|]. rewrite (eqb_neq eqb Eq b a) by (intros ->; apply H; now left). cbn. f_equal. apply IH. intro; apply H; now right. Qed.
Lemma erase_perm a s : NoDup s -> In a s -> Permutation s (a :: set_erase eqb a s) /\ NoDup (set_erase eqb a s).
Proof.
  intros ND Hin. split; [|unfold set_erase; now apply NoDup_filter]. induction s as [|b s IH]; [contradiction|]. inversion ND as [|? ? N1 N2]; subst. cbn. destruct (eqb b a) eqn:E; cbn.
  - apply Eq in E. subst b. fold (set_erase eqb a s). rewrite erase_none by assumption. reflexivity.
  - destruct Hin as [->|Hin]; [rewrite (eqb_refl eqb Eq) in E; discriminate|]. fold (set_erase eqb a s). rewrite (IH N2 Hin) at 1. apply perm_swap.
Qed.
Lemma consists_ok : forall t, wf t -> forall l s, NoDup s -> (consists_t eqb t l s = true <-> exists x, find_path eqb x t = true /\ Permutation (l :: x) s).
Proof.
  induction t as [ks IH] using tree_ind2. intros W l s ND. inversion W as [? NDk K]; subst. cbn [consists_t]. destruct (existsb (eqb l) s) eqn:E.
  2:{ split; [discriminate|]. intros (x & _ & P). assert (In l s) by (apply (Permutation_in _ P); now left). apply existsb_in in H. congruence. }
  apply existsb_in in E. destruct (erase_perm l s ND E) as [P1 N1]. destruct (Z.of_nat (length s) =? 1) eqn:E1.
  - split; [|reflexivity]. intros _. exists []. split; [reflexivity|]. destruct s as [|a [|b s]]; cbn [length] in E1; [contradiction| |lia]. destruct E as [->|[]]. reflexivity.
  - rewrite existsb_exists. split.
    + intros ([k t] & Hin & H). cbn [fst snd] in H. apply (IH k t Hin (K k t Hin)) in H; [|assumption]. destruct H as (x & F & P). exists (k :: x). split; [cbn [find_path kids]; rewrite (branch_in' eqb Eq _ _ _ NDk Hin); assumption|]. rewrite P1. now constructor.
    + intros (x & F & P). destruct x as [|k x]; [apply Permutation_length in P; cbn in P; lia|]. cbn [find_path kids] in F. destruct (branch eqb k ks) as [t|] eqn:B; [|discriminate]. apply (branch_in eqb Eq) in B. exists (k, t). split; [assumption|]. cbn [fst snd]. apply (IH k t B (K k t B)); [assumption|]. exists x. split; [assumption|]. rewrite P1 in P. now apply Permutation_cons_inv in P.
Qed.
Lemma to_set_ok x : NoDup (to_set eqb x) /\ forall a, In a (to_set eqb x) <-> In a x.
Proof.
  induction x as [|a x [ND H]]; cbn; [split; [constructor|tauto]|]. destruct (existsb (eqb a) x) eqn:E.
  - apply existsb_in in E. split; [assumption|]. intro b. rewrite H. split; [auto|]. intros [->|Hb]; auto.
  - split; [constructor; [|assumption]|]; [rewrite H; intro Hin; apply existsb_in in Hin; congruence|]. intro b. cbn. rewrite H. tauto.
Qed.
End C.

(* ---- growing arrays ---- *)
Definition aok (a : aarr) : Prop := 0 <= asz a <= blen (abuf a).
Lemma aa_resize_ok n a : aok a -> 0 <= n -> exists a', aa_resize n a = Ok a' /\ aok a' /\ asz a' = n /\ forall j, cell (abuf a') j = cell (abuf a) j.
Proof.
  intros [H1 H2] Hn. unfold aa_resize. destruct (blen (abuf a) <? n) eqn:E.
  - unfold aa_reserve. replace (n <=? blen (abuf a)) with false by lia. pose proof (blen_new (Z.max n (2 * blen (abuf a))) ltac:(lia)) as L0. destruct (bcopy_ok (abuf a) (blen (abuf a)) (bnew (Z.max n (2 * blen (abuf a)))) 0 ltac:(lia) ltac:(lia) ltac:(lia)) as (b & Eb & Lb & Cb). rewrite Eb. cbn [bind abuf asz].
    eexists. split; [reflexivity|]. cbn [abuf asz]. split; [split; cbn [abuf asz]; lia|]. split; [reflexivity|]. intro j. rewrite Cb. destruct ((0 <=? j) && (j <? 0 + blen (abuf a))) eqn:Ej; [f_equal; lia|]. rewrite cell_new. destruct (cell (abuf a) j) eqn:Ec; [apply cell_bound in Ec; lia|reflexivity].
  - cbn [bind]. eexists. split; [reflexivity|]. cbn [abuf asz]. split; [split; cbn [abuf asz]; lia|]. auto.
Qed.
Lemma aa_set_ok i x a : aok a -> 0 <= i -> exists a', aa_set i x a = Ok a' /\ aok a' /\ asz a' = Z.max (asz a) (i + 1) /\ forall j, cell (abuf a') j = if j =? i then Some x else cell (abuf a) j.
Proof.
  intros O Hi. unfold aa_set. destruct (asz a <=? i) eqn:E.
  - destruct (aa_resize_ok (i + 1) a O ltac:(lia)) as (a1 & E1 & O1 & S1 & C1). rewrite E1. cbn [bind]. destruct O1 as [O1 O2]. destruct (bput_ok (abuf a1) i x ltac:(lia)) as (b & Eb & Lb & Cb). rewrite Eb. cbn [bind]. eexists. split; [reflexivity|]. cbn [abuf asz]. split; [split; cbn [abuf asz]; lia|]. split; [destruct O; lia|]. intro j. rewrite Cb. now rewrite C1.
  - cbn [bind]. destruct O as [O1 O2]. destruct (bput_ok (abuf a) i x ltac:(lia)) as (b & Eb & Lb & Cb). rewrite Eb. cbn [bind]. eexists. split; [reflexivity|]. cbn [abuf asz]. split; [split; cbn [abuf asz]; lia|]. split; [lia|]. exact Cb.
Qed.
Lemma aa_get_ok i a : aok a -> 0 <= i -> exists a', aok a' /\ asz a' = Z.max (asz a) (i + 1) /\ (forall j, cell (abuf a') j = cell (abuf a) j) /\ aa_get i a = match cell (abuf a) i with Some v => Ok (v, a') | None => UB end.
Proof.
  intros O Hi. unfold aa_get. destruct (asz a <=? i) eqn:E.
  - destruct (aa_resize_ok (i + 1) a O ltac:(lia)) as (a1 & E1 & O1 & S1 & C1). exists a1. split; [assumption|]. split; [destruct O; lia|]. split; [assumption|]. rewrite E1. cbn [bind]. rewrite <- (C1 i). destruct (cell (abuf a1) i) as [v|] eqn:Ec; [rewrite (bget_cell _ _ _ Ec)|rewrite (bget_none _ _ Ec)]; reflexivity.
  - exists a. split; [assumption|]. split; [lia|]. split; [auto|]. cbn [bind]. destruct (cell (abuf a) i) as [v|] eqn:Ec; [rewrite (bget_cell _ _ _ Ec)|rewrite (bget_none _ _ Ec)]; reflexivity.
Qed.
Lemma aa_get_in i a v : i < asz a -> cell (abuf a) i = Some v -> aa_get i a = Ok (v, a).
Proof. intros H E. unfold aa_get. replace (asz a <=? i) with false by lia. cbn [bind]. now rewrite (bget_cell _ _ _ E). Qed.
Lemma aa_read_in i a v : i < asz a -> cell (abuf a) i = Some v -> aa_read a i = Ok v.
Proof. intros H E. unfold aa_read. now rewrite (aa_get_in i a v H E). Qed.
Lemma aa_set_in i x a : aok a -> 0 <= i < asz a -> exists a', aa_set i x a = Ok a' /\ aok a' /\ asz a' = asz a /\ forall j, cell (abuf a') j = if j =? i then Some x else cell (abuf a) j.
Proof. intros O H. destruct (aa_set_ok i x a O ltac:(lia)) as (a' & E & O' & S' & C). exists a'. split; [assumption|]. split; [assumption|]. split; [lia|assumption]. Qed.
Lemma clear_ok at_ n a : aok a -> 0 <= at_ -> 0 <= n -> at_ + n <= asz a -> exists a', clear_slots at_ n a = Ok a' /\ aok a' /\ asz a' = asz a /\ forall j, cell (abuf a') j = if (at_ <=? j) && (j <? at_ + n) then Some (-1) else cell (abuf a) j.
Proof.
  intros O Ha Hn Hb. unfold clear_slots, forZ. rewrite <- (Z2Nat.id n) in Hb by lia. rewrite <- (Z2Nat.id n) by lia. revert Hb. induction (Z.to_nat n) as [|q IH]; intro Hb.
  - exists a. repeat split; try apply O. intro j. replace ((at_ <=? j) && (j <? at_ + Z.of_nat 0)) with false by lia. reflexivity.
  - destruct IH as (a1 & E1 & O1 & S1 & C1); [lia|]. replace (Z.of_nat (S q)) with (Z.of_nat q + 1) by lia. rewrite zrange_app by lia. change (zrange 1) with [0]. cbn [map]. rewrite foldM_app, E1. cbn [bind foldM]. rewrite Z.add_0_r.
    destruct (aa_set_in (at_ + Z.of_nat q) (-1) a1 O1 ltac:(lia)) as (a2 & E2 & O2 & S2 & C2). rewrite E2. exists a2. split; [reflexivity|]. split; [assumption|]. split; [lia|]. intro j. rewrite C2, C1. destruct (j =? at_ + Z.of_nat q) eqn:Ej; [replace ((at_ <=? j) && (j <? at_ + (Z.of_nat q + 1))) with true by lia; reflexivity|]. replace ((at_ <=? j) && (j <? at_ + (Z.of_nat q + 1))) with ((at_ <=? j) && (j <? at_ + Z.of_nat q)) by lia. reflexivity.
Qed.

(* ---- serialised trees ---- *)
Fixpoint tot (t : tree Z) : Z := let 'Tree ks := t in fold_right (fun kt acc => 3 + nkids (snd kt) + tot (snd kt) + acc) 0 ks.
Definition tots (ks : list (Z * tree Z)) : Z := fold_right (fun kt acc => 3 + nkids (snd kt) + tot (snd kt) + acc) 0 ks.
Lemma nkids_nonneg {A} (t : tree A) : 0 <= nkids t. Proof. unfold nkids. lia. Qed.
Lemma tot_nonneg : forall t, 0 <= tot t.
Proof. induction t as [ks IH] using tree_ind2. cbn [tot]. induction ks as [|[k t] ks IHk]; cbn [fold_right]; [lia|]. pose proof (IH k t ltac:(now left)). pose proof (nkids_nonneg t). cbn [snd]. assert (0 <= fold_right (fun kt acc => 3 + nkids (snd kt) + tot (snd kt) + acc) 0 ks) by (apply IHk; intros k' t' H'; apply (IH k' t'); now right). lia. Qed.
Lemma tots_nonneg ks : 0 <= tots ks. Proof. exact (tot_nonneg (Tree ks)). Qed.
(* t with label l is stored at p with parent par, its descendants from s on *)
Fixpoint rep (f : Z -> option Z) (t : tree Z) (l p par s : Z) : Prop :=
  let 'Tree ks := t in
  f p = Some l /\ f (p + 1) = Some (Z.of_nat (length ks)) /\ f (p + 2) = Some par /\
  (fix go (ks : list (Z * tree Z)) (i s : Z) : Prop :=
     match ks with [] => True | kt :: ks => f (p + 3 + i) = Some s /\ rep f (snd kt) (fst kt) s p (s + 3 + nkids (snd kt)) /\ go ks (i + 1) (s + 3 + nkids (snd kt) + tot (snd kt)) end) ks 0 s.
Fixpoint kidrep (f : Z -> option Z) (p : Z) (ks : list (Z * tree Z)) (i s : Z) : Prop :=
  match ks with [] => True | kt :: ks => f (p + 3 + i) = Some s /\ rep f (snd kt) (fst kt) s p (s + 3 + nkids (snd kt)) /\ kidrep f p ks (i + 1) (s + 3 + nkids (snd kt) + tot (snd kt)) end.
Lemma rep_eq f ks l p par s : rep f (Tree ks) l p par s = (f p = Some l /\ f (p + 1) = Some (Z.of_nat (length ks)) /\ f (p + 2) = Some par /\ kidrep f p ks 0 s).
Proof. cbn [rep]. do 3 f_equal. generalize 0 as i. revert s. induction ks as [|kt ks IH]; intros s i; [reflexivity|]. cbn [kidrep]. now rewrite <- IH. Qed.
Fixpoint serk (p : Z) (ks : list (Z * tree Z)) (i : Z) (a : aarr) : res aarr :=
  match ks with [] => Ok a | kt :: ks => do ' (q, a) <- add_node p i (fst kt) (nkids (snd kt)) a; do a <- ser (snd kt) q a; serk p ks (i + 1) a end.
Lemma ser_eq ks p a : ser (Tree ks) p a = serk p ks 0 a.
Proof. cbn [ser]. generalize 0 as i. revert a. induction ks as [|kt ks IH]; intros a i; [reflexivity|]. cbn [serk]. destruct (add_node p i (fst kt) (nkids (snd kt)) a) as [[q a']| |]; cbn [bind]; [|reflexivity|reflexivity]. destruct (ser (snd kt) q a'); cbn [bind]; [apply IH|reflexivity|reflexivity]. Qed.
Lemma kidrep_frame f f' p ks (IH : forall k t, In (k, t) ks -> forall l q par s, (forall j, q <= j < q + 3 + nkids t -> f' j = f j) -> (forall j, s <= j < s + tot t -> f' j = f j) -> rep f t l q par s -> rep f' t l q par s) :
  forall i s, (forall j, p + 3 + i <= j < p + 3 + i + Z.of_nat (length ks) -> f' j = f j) -> (forall j, s <= j < s + tots ks -> f' j = f j) -> kidrep f p ks i s -> kidrep f' p ks i s.
Proof.
  induction ks as [|[k t] ks IHk]; intros i s H1 H2; cbn [kidrep fst snd]; [auto|]. cbn [tots fold_right snd] in H2. fold (tots ks) in H2. cbn [length] in H1. pose proof (nkids_nonneg t). pose proof (tot_nonneg t). pose proof (tots_nonneg ks). intros (F1 & F2 & F3). split; [rewrite H1 by lia; assumption|]. split.
  - apply (IH k t); [now left| | |assumption]; intros j Hj; apply H2; lia.
  - apply IHk; [intros k' t' Hin; apply (IH k' t'); now right| | |assumption]; intros j Hj; [apply H1|apply H2]; lia.
Qed.
Lemma rep_frame : forall t f f' l p par s, (forall j, p <= j < p + 3 + nkids t -> f' j = f j) -> (forall j, s <= j < s + tot t -> f' j = f j) -> rep f t l p par s -> rep f' t l p par s.
Proof.
  induction t as [ks IH] using tree_ind2. intros f f' l p par s H1 H2. unfold nkids in H1. cbn [kids] in H1. rewrite !rep_eq. intros (F1 & F2 & F3 & F4). split; [rewrite H1 by lia; assumption|]. split; [rewrite H1 by lia; assumption|]. split; [rewrite H1 by lia; assumption|].
  apply (kidrep_frame f); [intros k t Hin l' q par' s'; now apply (IH k t Hin)| |exact H2|assumption]. intros j Hj. apply H1. lia.
Qed.
Lemma add_node_ok p i v n m a : aok a -> 0 <= p -> 0 <= n -> 0 <= i < m -> p + 3 + m <= asz a -> cell (abuf a) (p + 1) = Some m -> cell (abuf a) (p + 3 + i) = Some (-1) ->
  exists a', add_node p i v n a = Ok (asz a, a') /\ aok a' /\ asz a' = asz a + 3 + n /\
    cell (abuf a') (p + 3 + i) = Some (asz a) /\ cell (abuf a') (asz a) = Some v /\ cell (abuf a') (asz a + 1) = Some n /\ cell (abuf a') (asz a + 2) = Some p /\
    (forall j, asz a + 3 <= j < asz a + 3 + n -> cell (abuf a') j = Some (-1)) /\ forall j, j < asz a -> j <> p + 3 + i -> cell (abuf a') j = cell (abuf a) j.
Proof.
  intros O Hp Hn Hi Hs C1 C2. unfold add_node. rewrite (aa_get_in (p + 1) a m ltac:(lia) C1). cbn [bind]. replace (i <? m) with true by lia. cbn [assrt]. replace (p + i + 3) with (p + 3 + i) by lia. rewrite (aa_get_in (p + 3 + i) a (-1) ltac:(lia) C2). cbn [bind assrt Z.eqb]. replace (-1 =? -1) with true by lia. cbn [assrt].
  destruct (aa_set_in (p + 3 + i) (asz a) a O ltac:(lia)) as (a1 & E1 & O1 & S1 & D1). rewrite E1. cbn [bind]. destruct (aa_resize_ok (asz a + n + 3) a1 O1 ltac:(destruct O; lia)) as (a2 & E2 & O2 & S2 & D2). rewrite E2. cbn [bind]. assert (0 <= asz a) by apply O.
  destruct (aa_set_in (asz a) v a2 O2 ltac:(lia)) as (a3 & E3 & O3 & S3 & D3). rewrite E3. cbn [bind]. destruct (aa_set_in (asz a + 1) n a3 O3 ltac:(lia)) as (a4 & E4 & O4 & S4 & D4). rewrite E4. cbn [bind]. destruct (aa_set_in (asz a + 2) p a4 O4 ltac:(lia)) as (a5 & E5 & O5 & S5 & D5). rewrite E5. cbn [bind].
  destruct (clear_ok (asz a + 3) n a5 O5 ltac:(lia) Hn ltac:(lia)) as (a6 & E6 & O6 & S6 & D6). rewrite E6. cbn [bind]. exists a6. split; [reflexivity|]. split; [assumption|]. split; [lia|].
  assert (G : forall j, cell (abuf a6) j = if (asz a + 3 <=? j) && (j <? asz a + 3 + n) then Some (-1) else if j =? asz a + 2 then Some p else if j =? asz a + 1 then Some n else if j =? asz a then Some v else if j =? p + 3 + i then Some (asz a) else cell (abuf a) j).
  { intro j. rewrite D6, D5, D4, D3, D2, D1. reflexivity. }
  repeat split; intros; rewrite G.
  all: repeat match goal with |- context [?x <=? ?y] => let E := fresh in destruct (x <=? y) eqn:E; try lia; cbn [andb] | |- context [?x <? ?y] => let E := fresh in destruct (x <? y) eqn:E; try lia | |- context [?x =? ?y] => let E := fresh in destruct (x =? y) eqn:E; try lia end; auto.
Qed.
Lemma ser_ok : forall t l p par a, aok a -> 0 <= p -> p + 3 + nkids t <= asz a -> cell (abuf a) p = Some l -> cell (abuf a) (p + 1) = Some (nkids t) -> cell (abuf a) (p + 2) = Some par ->
  (forall j, p + 3 <= j < p + 3 + nkids t -> cell (abuf a) j = Some (-1)) ->
  exists a', ser t p a = Ok a' /\ aok a' /\ asz a' = asz a + tot t /\ rep (cell (abuf a')) t l p par (asz a) /\ forall j, j < asz a -> ~ (p + 3 <= j < p + 3 + nkids t) -> cell (abuf a') j = cell (abuf a) j.
Proof.
  induction t as [ks IH] using tree_ind2. intros l p par a O Hp Hs C0 C1 C2 C3. unfold nkids in *. cbn [kids] in *. rewrite ser_eq.
  assert (G : forall m, cell (abuf a) (p + 1) = Some m -> forall ks' i a, (forall kt, In kt ks' -> In kt ks) -> aok a -> 0 <= i -> i + Z.of_nat (length ks') = m -> p + 3 + m <= asz a -> cell (abuf a) (p + 1) = Some m -> (forall j, p + 3 + i <= j < p + 3 + m -> cell (abuf a) j = Some (-1)) ->
    exists a', serk p ks' i a = Ok a' /\ aok a' /\ asz a' = asz a + tots ks' /\ kidrep (cell (abuf a')) p ks' i (asz a) /\ forall j, j < asz a -> ~ (p + 3 + i <= j < p + 3 + m) -> cell (abuf a') j = cell (abuf a) j).
  { intros m _. clear a O Hs C0 C1 C2 C3. induction ks' as [|[k t] ks' IHk]; intros i a Sub O Hi Hm Hs C1 C3; cbn [serk fst snd].
    - exists a. cbn. split; [reflexivity|]. split; [assumption|]. split; [lia|]. auto.
    - cbn [length] in Hm. pose proof (nkids_nonneg t) as Nt. pose proof (tot_nonneg t) as Tt. destruct (add_node_ok p i k (nkids t) m a O Hp Nt ltac:(lia) Hs C1 ltac:(apply C3; lia)) as (a1 & E1 & O1 & S1 & D1 & D2 & D3 & D4 & D5 & D6). rewrite E1. cbn [bind].
      assert (0 <= asz a) by apply O. destruct (IH k t ltac:(apply Sub; now left) k (asz a) p a1 O1 ltac:(lia) ltac:(unfold nkids in *; lia) D2 D3 D4 D5) as (a2 & E2 & O2 & S2 & R2 & F2). rewrite E2. cbn [bind].
      destruct (IHk (i + 1) a2) as (a3 & E3 & O3 & S3 & R3 & F3).
      + intros kt Hin. apply Sub. now right.
      + assumption.
      + lia.
      + lia.
      + lia.
      + rewrite F2, D6 by lia. assumption.
      + intros j Hj. rewrite F2, D6 by lia. apply C3. lia.
      + rewrite E3. exists a3. split; [reflexivity|]. split; [assumption|]. cbn [tots fold_right snd]. fold (tots ks'). split; [lia|]. split.
        * cbn [kidrep fst snd]. split; [rewrite F3, F2 by lia; assumption|]. replace (asz a + 3 + nkids t) with (asz a1) by lia. split; [|replace (asz a1 + tot t) with (asz a2) by lia; assumption]. apply rep_frame with (f := cell (abuf a2)); [| |assumption]; intros j Hj; apply F3; lia.
        * intros j Hj Hn. rewrite F3, F2, D6 by lia. reflexivity. }
  destruct (G (Z.of_nat (length ks)) C1 ks 0 a ltac:(auto) O ltac:(lia) ltac:(lia) Hs C1 ltac:(intros j Hj; apply C3; lia)) as (a' & E & O' & S' & R & F). exists a'. split; [assumption|]. split; [assumption|]. split; [assumption|]. split; [|intros j Hj Hn; apply F; lia]. rewrite rep_eq. rewrite !F by lia. auto.
Qed.
Lemma as_int_tree_ok t : exists a, as_int_tree t = Ok a /\ aok a /\ asz a = 3 + nkids (snd t) + tot (snd t) /\ rep (cell (abuf a)) (snd t) (fst t) 0 (-1) (3 + nkids (snd t)).
Proof.
  destruct t as [l t]. cbn [fst snd]. unfold as_int_tree, add_root. cbn [fst snd aa_new asz Z.eqb assrt]. pose proof (nkids_nonneg t) as Nt. assert (O : aok aa_new) by (split; vm_compute; discriminate).
  destruct (aa_resize_ok (nkids t + 3) aa_new O ltac:(lia)) as (a1 & E1 & O1 & S1 & D1). rewrite E1. cbn [bind]. destruct (aa_set_in 0 l a1 O1 ltac:(lia)) as (a2 & E2 & O2 & S2 & D2). rewrite E2. cbn [bind]. destruct (aa_set_in 1 (nkids t) a2 O2 ltac:(lia)) as (a3 & E3 & O3 & S3 & D3). rewrite E3. cbn [bind]. destruct (aa_set_in 2 (-1) a3 O3 ltac:(lia)) as (a4 & E4 & O4 & S4 & D4). rewrite E4. cbn [bind].
  destruct (clear_ok 3 (nkids t) a4 O4 ltac:(lia) Nt ltac:(lia)) as (a5 & E5 & O5 & S5 & D5). rewrite E5. cbn [bind]. destruct (ser_ok t l 0 (-1) a5 O5 ltac:(lia) ltac:(lia)) as (a' & E & O' & S' & R & _).
  - rewrite D5, D4, D3, D2. replace ((3 <=? 0) && _) with false by lia. reflexivity.
  - rewrite D5, D4, D3. reflexivity.
  - rewrite D5, D4. reflexivity.
  - intros j Hj. rewrite D5. replace ((3 <=? j) && (j <? 3 + nkids t)) with true by lia. reflexivity.
  - rewrite E. exists a'. split; [reflexivity|]. split; [assumption|]. split; [lia|]. now replace (3 + nkids t) with (asz a5) by lia.
Qed.
(* the nodes in depth-first order: position, label, number of children, parent *)
Fixpoint nodes (t : tree Z) (l p par s : Z) : list (Z * Z * Z * Z) :=
  let 'Tree ks := t in
  (p, l, Z.of_nat (length ks), par) ::
  (fix go (ks : list (Z * tree Z)) (s : Z) :=
     match ks with [] => [] | kt :: ks => nodes (snd kt) (fst kt) s p (s + 3 + nkids (snd kt)) ++ go ks (s + 3 + nkids (snd kt) + tot (snd kt)) end) ks s.
Fixpoint knodes (p : Z) (ks : list (Z * tree Z)) (s : Z) : list (Z * Z * Z * Z) :=
  match ks with [] => [] | kt :: ks => nodes (snd kt) (fst kt) s p (s + 3 + nkids (snd kt)) ++ knodes p ks (s + 3 + nkids (snd kt) + tot (snd kt)) end.
Lemma nodes_eq ks l p par s : nodes (Tree ks) l p par s = (p, l, Z.of_nat (length ks), par) :: knodes p ks s.
Proof. cbn [nodes]. f_equal. revert s. induction ks as [|kt ks IH]; intro s; [reflexivity|]. cbn [knodes]. now rewrite <- IH. Qed.
Fixpoint height (t : tree Z) : nat := let 'Tree ks := t in S (fold_right (fun kt acc => Nat.max (height (snd kt)) acc) 0%nat ks).
Lemma height_kid ks k t : In (k, t) ks -> (height t < height (Tree ks))%nat.
Proof. cbn [height]. induction ks as [|[k' t'] ks IH]; [contradiction|]. intros [E|Hin]; cbn [fold_right snd]; [injection E as <- <-; lia|]. specialize (IH Hin). lia. Qed.
Definition labels (L : list (Z * Z * Z * Z)) : list Z := map (fun n => let '(_, l, _, _) := n in l) L.
Lemma traverse_ok : forall t k a l p par s, (height t <= k)%nat -> aok a -> 0 <= p -> p + 3 + nkids t <= asz a -> 0 <= s -> s + tot t <= asz a -> rep (cell (abuf a)) t l p par s ->
  traverse k a p = Ok (nodes t l p par s) /\ int_depth_first k a p = Ok (labels (nodes t l p par s)).
Proof.
  induction t as [ks IH] using tree_ind2. intros k a l p par s Hk O Hp Hs Hq Ht R. destruct k as [|k]; [cbn in Hk; lia|]. rewrite rep_eq in R. destruct R as (R1 & R2 & R3 & R4). unfold nkids in Hs. cbn [kids] in Hs. cbn [traverse int_depth_first].
  rewrite (aa_read_in p a l ltac:(lia) R1), (aa_read_in (p + 1) a _ ltac:(lia) R2), (aa_read_in (p + 2) a _ ltac:(lia) R3). cbn [bind]. rewrite nodes_eq. unfold forZ.
  assert (G : forall ks' i s out1 out2, (forall kt, In kt ks' -> In kt ks) -> 0 <= i -> p + 3 + i + Z.of_nat (length ks') <= asz a -> 0 <= s -> s + tots ks' <= asz a -> kidrep (cell (abuf a)) p ks' i s ->
    foldM (fun i out => do q <- aa_read a (p + 3 + i); do o <- traverse k a q; Ok (out ++ o)) (map (Z.add i) (zrange (Z.of_nat (length ks')))) out1 = Ok (out1 ++ knodes p ks' s) /\
    foldM (fun i out => do q <- aa_read a (p + 3 + i); do o <- int_depth_first k a q; Ok (out ++ o)) (map (Z.add i) (zrange (Z.of_nat (length ks')))) out2 = Ok (out2 ++ labels (knodes p ks' s))).
  { induction ks' as [|[k' t] ks' IHk]; intros i s0 out1 out2 Sub Hi Hl Hs0 Hb K.
    - change (zrange (Z.of_nat (length (@nil (Z * tree Z))))) with (@nil Z). cbn. now rewrite !app_nil_r.
    - cbn [length] in *. replace (Z.of_nat (S (length ks'))) with (1 + Z.of_nat (length ks')) by lia. rewrite zrange_app by lia. change (zrange 1) with [0]. cbn [app map foldM]. rewrite map_map. rewrite (map_ext (fun x => i + (1 + x)) (Z.add (i + 1))) by (intro; lia). replace (i + 0) with i by lia.
      cbn [kidrep fst snd] in K. destruct K as (K1 & K2 & K3). cbn [tots fold_right snd] in Hb. fold (tots ks') in Hb. pose proof (nkids_nonneg t). pose proof (tot_nonneg t). pose proof (tots_nonneg ks'). rewrite (aa_read_in (p + 3 + i) a _ ltac:(lia) K1). cbn [bind].
      pose proof (height_kid ks k' t ltac:(apply Sub; now left)) as Hh. destruct (IH k' t ltac:(apply Sub; now left) k a k' s0 p (s0 + 3 + nkids t) ltac:(lia) O ltac:(lia) ltac:(lia) ltac:(lia) ltac:(lia) K2) as [-> ->]. cbn [bind].
      destruct (IHk (i + 1) (s0 + 3 + nkids t + tot t) (out1 ++ nodes t k' s0 p (s0 + 3 + nkids t)) (out2 ++ labels (nodes t k' s0 p (s0 + 3 + nkids t)))) as [-> ->]; [intros kt Hin; apply Sub; now right|lia|lia|lia|lia|assumption|].
      cbn [knodes fst snd]. unfold labels. rewrite map_app, <- !app_assoc. auto. }
  rewrite <- (map_id (zrange (Z.of_nat (length ks)))). rewrite (map_ext (fun x => x) (Z.add 0)) by (intro; lia). destruct (G ks 0 s [(p, l, Z.of_nat (length ks), par)] [l] ltac:(auto) ltac:(lia) ltac:(lia) Hq Ht R4) as [-> ->]. auto.
Qed.
Lemma labels_nodes : forall t l p par s, labels (nodes t l p par s) = depth_first_t t l.
Proof.
  induction t as [ks IH] using tree_ind2. intros l p par s. rewrite nodes_eq. cbn [labels map depth_first_t]. f_equal. revert s. induction ks as [|[k t] ks IHk]; intro s; [reflexivity|]. cbn [knodes fst snd flat_map]. unfold labels in *. rewrite map_app. f_equal; [apply (IH k t); now left|]. apply IHk. intros k' t' H. apply (IH k' t'). now right.
Qed.
(* positions are all different *)
Lemma nodes_pos : forall t l p par s, p + 3 + nkids t <= s -> NoDup (map posn (nodes t l p par s)) /\ forall q, In q (map posn (nodes t l p par s)) -> q = p \/ s <= q < s + tot t.
Proof.
  induction t as [ks IH] using tree_ind2. intros l p par s Hs. rewrite nodes_eq. cbn [map posn].
  assert (G : forall s0, NoDup (map posn (knodes p ks s0)) /\ forall q, In q (map posn (knodes p ks s0)) -> s0 <= q < s0 + tots ks).
  { clear Hs s. induction ks as [|[k t] ks IHk]; intro s; [cbn; split; [constructor|contradiction]|]. cbn [knodes fst snd]. rewrite map_app. cbn [tots fold_right snd]. fold (tots ks). pose proof (nkids_nonneg t). pose proof (tot_nonneg t). pose proof (tots_nonneg ks).
    destruct (IH k t ltac:(now left) k s p (s + 3 + nkids t) ltac:(lia)) as [N1 B1]. destruct (IHk ltac:(intros k' t' Hin; apply (IH k' t'); now right) (s + 3 + nkids t + tot t)) as [N2 B2]. split.
    - apply nodup_app'; [assumption|assumption|]. intros q I1 I2. specialize (B1 q I1). specialize (B2 q I2). lia.
    - intros q Hq. apply in_app_iff in Hq. destruct Hq as [Hq|Hq]; [specialize (B1 q Hq)|specialize (B2 q Hq)]; lia. }
  destruct (G s) as [N B]. unfold nkids in Hs. cbn [kids] in Hs. split; [constructor; [|assumption]; intro Hin; specialize (B p Hin); lia|]. intros q [<-|Hq]; [auto|right; exact (B q Hq)].
Qed.
(* parent references of the indexed traversal point at the same nodes *)
Fixpoint idfk (ks : list (Z * tree Z)) (ix : Z) (out : list (Z * Z)) (j : Z) : list (Z * Z) * Z :=
  match ks with [] => (out, j) | kt :: ks => let '(o, n) := idf_t (snd kt) (fst kt) (ix + j) ix in idfk ks ix (out ++ o) (j + n) end.
Lemma idf_eq ks l ix old : idf_t (Tree ks) l ix old = idfk ks ix [(l, old)] 1.
Proof. cbn [idf_t]. generalize [(l, old)] as out. generalize 1 as j. induction ks as [|kt ks IH]; intros j out; [reflexivity|]. cbn [idfk]. destruct (idf_t (snd kt) (fst kt) (ix + j) ix). apply IH. Qed.
Lemma F2_app {B C} (R : B -> C -> Prop) l1 l2 m1 m2 : Forall2 R l1 m1 -> Forall2 R l2 m2 -> Forall2 R (l1 ++ l2) (m1 ++ m2).
Proof. induction 1; cbn; [auto|constructor; auto]. Qed.
Lemma idf_ok G : forall t l p par s ix old, 0 <= ix -> (forall k, (k < length (nodes t l p par s))%nat -> nth_error G (Z.to_nat ix + k) = nth_error (map posn (nodes t l p par s)) k) -> link G old par ->
  Forall2 (same_node G) (fst (idf_t t l ix old)) (nodes t l p par s) /\ snd (idf_t t l ix old) = Z.of_nat (length (nodes t l p par s)).
Proof.
  induction t as [ks IH] using tree_ind2. intros l p par s ix old Hix HG HL. rewrite idf_eq. rewrite nodes_eq in *. assert (Lp : link G ix p). { right. split; [assumption|]. specialize (HG 0%nat ltac:(cbn; lia)). rewrite Nat.add_0_r in HG. exact HG. }
  assert (K : forall ks' s0 out done j, (forall kt, In kt ks' -> In kt ks) -> j = Z.of_nat (length done) -> Forall2 (same_node G) out done -> (forall k, (k < length (knodes p ks' s0))%nat -> nth_error G (Z.to_nat (ix + j) + k) = nth_error (map posn (knodes p ks' s0)) k) ->
    Forall2 (same_node G) (fst (idfk ks' ix out j)) (done ++ knodes p ks' s0) /\ snd (idfk ks' ix out j) = Z.of_nat (length (done ++ knodes p ks' s0))).
  { induction ks' as [|[k t] ks' IHk]; intros s0 out done j Sub Hj F HK; cbn [idfk knodes fst snd]; [rewrite app_nil_r; auto|]. cbn [knodes fst snd] in HK. rewrite map_app in HK.
    destruct (IH k t ltac:(apply Sub; now left) k s0 p (s0 + 3 + nkids t) (ix + j) ix ltac:(lia)) as [F1 L1].
    - intros q Hq. rewrite HK by (rewrite app_length; lia). rewrite nth_error_app1 by (rewrite map_length; lia). reflexivity.
    - assumption.
    - destruct (idf_t t k (ix + j) ix) as [o n] eqn:Ei. cbn [fst snd] in F1, L1. rewrite app_assoc. apply IHk.
      + intros kt Hin. apply Sub. now right.
      + rewrite app_length. lia.
      + now apply F2_app.
      + intros q Hq. replace (Z.to_nat (ix + (j + n)) + q)%nat with (Z.to_nat (ix + j) + (Z.to_nat n + q))%nat by lia. rewrite HK by (rewrite app_length; lia). rewrite nth_error_app2 by (rewrite map_length; lia). f_equal. rewrite map_length. lia. }
  change ((p, l, Z.of_nat (length ks), par) :: knodes p ks s) with ([(p, l, Z.of_nat (length ks), par)] ++ knodes p ks s). apply K.
  - auto.
  - reflexivity.
  - constructor; [split; [reflexivity|exact HL]|constructor].
  - intros q Hq. specialize (HG (S q) ltac:(cbn; lia)). cbn [map nth_error] in HG. rewrite <- HG. f_equal. lia.
Qed.
