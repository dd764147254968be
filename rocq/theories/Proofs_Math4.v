(* Proofs_Math4.v -- 3x3 determinants; sorting rows. *)
From Verif Require Import Base BaseFacts Map Model_Index Model_View Spec_Index Proofs_Index Model_Math Spec_Math Proofs_Math.
Local Open Scope Z_scope.

Section Det.
Context {R : cring}.
Add Ring Rring : (@cth R).
Lemma entries_elem (m : mem R) x a n c i j : entries m x a n c -> 0 <= i < n -> 0 <= j < c -> det_elem m x i j = Ok (a i j).
Proof. intros (_ & _ & H) Hi Hj. destruct (H i j Hi Hj) as (p & E & Ep). unfold det_elem. rewrite E. cbn [bind]. unfold load. now rewrite Ep. Qed.
Lemma det_ok (m : mem R) x a : entries m x a 3 3 -> determinant m x = Ok (leibniz 3 a).
Proof.
  intro E. unfold determinant. rewrite (proj1 E). cbn [Z.eqb assrt Pos.eqb]. repeat rewrite (entries_elem m x a 3 3 _ _ E) by lia. cbn [bind]. f_equal.
  unfold leibniz. change (zrange 3) with [0; 1; 2]. cbn. unfold rsum. cbn. ring.
Qed.
End Det.

(* ---- rows ---- *)
Definition shows_row (m : mem Z) (x : row) (l : list Z) : Prop :=
  rn x = Z.of_nat (length l) /\ forall i, 0 <= i < rn x -> m (rb x) (ro x + i * rs x) = Some (nth (Z.to_nat i) l 0).
Fixpoint lexb (x y : list Z) : bool :=
  match x, y with a :: x, b :: y => if a <? b then true else if b <? a then false else lexb x y | _, _ => false end.
Lemma less_from_ok m x y lx ly : shows_row m x lx -> shows_row m y ly -> length lx = length ly -> forall k i, (i + k = length lx)%nat ->
  row_less_from m x y (Z.of_nat i) k = Ok (lexb (skipn i lx) (skipn i ly)).
Proof.
  intros [Nx Hx] [Ny Hy] L. induction k as [|k IH]; intros i E.
  - cbn. rewrite !skipn_all2 by lia. reflexivity.
  - cbn [row_less_from]. unfold load. rewrite Hx, Hy by lia. cbn [bind]. rewrite Nat2Z.id.
    assert (Sk : forall l, (i < length l)%nat -> skipn i l = nth i l 0 :: skipn (S i) l). { clear. induction i as [|i IH]; intros [|a l] H; cbn in *; try lia; [reflexivity|]. apply IH. lia. }
    rewrite (Sk lx), (Sk ly) by lia. cbn [lexb]. destruct (nth i lx 0 <? nth i ly 0); [reflexivity|]. destruct (nth i ly 0 <? nth i lx 0); [reflexivity|]. replace (Z.of_nat i + 1) with (Z.of_nat (S i)) by lia. apply IH. lia.
Qed.
Lemma less_ok m x y lx ly : shows_row m x lx -> shows_row m y ly -> length lx = length ly -> row_less m x y = Ok (lexb lx ly).
Proof.
  intros Hx Hy L. unfold row_less. rewrite (proj1 Hx), (proj1 Hy), L, Z.eqb_refl, Nat2Z.id. cbn [assrt]. apply (less_from_ok m x y lx ly Hx Hy L (length ly) 0). lia.
Qed.
Lemma lexb_lt x : forall y, length x = length y -> (lexb x y = true <-> lex_lt x y).
Proof.
  induction x as [|a x IH]; intros [|b y] L; cbn in *; try discriminate; [split; [discriminate|tauto]|]. destruct (a <? b) eqn:E; [split; [left; lia|reflexivity]|]. destruct (b <? a) eqn:E2; [split; [discriminate|lia]|].
  rewrite IH by lia. split; [right; split; [lia|assumption]|]. intros [|[_ H]]; [lia|assumption].
Qed.
Lemma lex_trichotomy x : forall y, length x = length y -> lexb x y = false -> lexb y x = false -> x = y.
Proof.
  induction x as [|a x IH]; intros [|b y] L; cbn in *; try discriminate; [reflexivity|]. destruct (a <? b) eqn:E; [discriminate|]. destruct (b <? a) eqn:E2; [discriminate|]. intros. f_equal; [lia|]. apply IH; auto.
Qed.
Lemma lex_lt_trans x : forall y z, lex_lt x y -> lex_lt y z -> lex_lt x z.
Proof.
  induction x as [|a x IH]; intros [|b y] [|c z]; cbn; try tauto. intros [H|[-> H]] [H'|[-> H']]; [left; lia|left; assumption|left; assumption|right; split; [reflexivity|eapply IH; eassumption]].
Qed.
Definition sorted_set (m : mem Z) (c : nat) (s : list row) (L : list (list Z)) : Prop :=
  Forall2 (shows_row m) s L /\ Forall (fun l => length l = c) L /\ StronglySorted lex_lt L.
Lemma insert_ok m c x lx : shows_row m x lx -> length lx = c -> forall s L, sorted_set m c s L ->
  exists s' L', set_insert m x s = Ok s' /\ sorted_set m c s' L' /\ forall l, In l L' <-> l = lx \/ In l L.
Proof.
  intros Hx Lx. induction s as [|y s IH]; intros L (F & K & O).
  - inversion F; subst. exists [x], [lx]. cbn. split; [reflexivity|]. split; [split; [constructor; auto|split; repeat constructor]|]. intro l. intuition congruence.
  - inversion F as [|? ly ? L1 Hy F1]; subst. inversion K as [|? ? Ly K1]; subst. inversion O as [|? ? O1 B]; subst. cbn [set_insert].
    rewrite (less_ok m x y lx ly Hx Hy ltac:(congruence)). cbn [bind]. destruct (lexb lx ly) eqn:E.
    + exists (x :: y :: s), (lx :: ly :: L1). split; [reflexivity|]. split; [|intro l; cbn; intuition]. split; [constructor; [assumption|constructor; assumption]|]. split; [constructor; [reflexivity|constructor; assumption]|].
      constructor; [assumption|]. apply lexb_lt in E; [|congruence]. constructor; [assumption|]. rewrite Forall_forall in *. intros z Iz. eapply lex_lt_trans; [exact E|now apply B].
    + rewrite (less_ok m y x ly lx Hy Hx ltac:(congruence)). cbn [bind]. destruct (lexb ly lx) eqn:E2.
      * destruct (IH L1) as (s' & L' & Es & (F' & K' & O') & I'); [split; [assumption|split; assumption]|]. rewrite Es. cbn [bind]. exists (y :: s'), (ly :: L'). split; [reflexivity|]. split.
        -- split; [constructor; auto|]. split; [constructor; auto|]. constructor; [assumption|]. apply lexb_lt in E2; [|congruence]. rewrite Forall_forall in *. intros z Iz. apply I' in Iz. destruct Iz as [->|Iz]; [assumption|now apply B].
        -- intro l. cbn. rewrite I'. tauto.
      * assert (lx = ly) by (apply lex_trichotomy; congruence). subst ly. exists (y :: s), (lx :: L1). split; [reflexivity|]. split; [split; [assumption|split; assumption]|]. intro l. cbn. intuition congruence.
Qed.
Lemma assign_ok m x y l : shows_row m y l -> rn x = rn y -> rs x = 1 -> rb x <> rb y -> (forall i, 0 <= i < rn x -> exists v, m (rb x) (ro x + i) = Some v) ->
  exists m', row_assign x y m = Ok m' /\ (forall b a, ~ (b = rb x /\ ro x <= a < ro x + rn x) -> m' b a = m b a) /\ forall i, 0 <= i < rn x -> m' (rb x) (ro x + i) = Some (nth (Z.to_nat i) l 0).
Proof.
  intros [Ny Hy] En Es Nb A. unfold row_assign, forZ.
  destruct (foldM_inv (fun done m' => (forall b a, ~ (b = rb x /\ ro x <= a < ro x + rn x) -> m' b a = m b a) /\ (forall i, 0 <= i < rn x -> exists v, m' (rb x) (ro x + i) = Some v) /\ forall i, In i done -> 0 <= i < rn x -> m' (rb x) (ro x + i) = Some (nth (Z.to_nat i) l 0))
    (fun i m0 => do v <- load m0 (rb y) (ro y + i * rs y); store m0 (rb x) (ro x + i * rs x) v) (zrange (rn x)) m) as (m' & E & I1 & _ & I3).
  - split; [auto|]. split; [assumption|]. intros i [].
  - intros done i rest m1 Er (I1 & I2 & I3). assert (Hi : 0 <= i < rn x) by (apply in_zrange; rewrite Er; apply in_or_app; right; now left).
    unfold load. rewrite I1 by (intros [B _]; congruence). rewrite Hy by lia. cbn [bind]. rewrite Es, Z.mul_1_r. unfold store. destruct (I2 i Hi) as (v & Ev). rewrite Ev. eexists. split; [reflexivity|]. unfold upd. split; [|split].
    + intros b a Hb. destruct ((b =? rb x) && (a =? ro x + i)) eqn:Eb; [|now apply I1]. exfalso. apply Hb. lia.
    + intros k Hk. rewrite Z.eqb_refl. cbn. destruct (ro x + k =? ro x + i) eqn:Ek; [eauto|now apply I2].
    + intros k Ik Hk. rewrite Z.eqb_refl. cbn. destruct (ro x + k =? ro x + i) eqn:Ek; [do 2 f_equal; lia|]. apply I3; [|assumption]. apply in_app_or in Ik. destruct Ik as [Ik|[Ik|[]]]; [assumption|lia].
  - exists m'. split; [exact E|]. split; [assumption|]. intros i Hi. apply I3; [now apply in_zrange|assumption].
Qed.
Lemma combine_split {A B} (l : list A) : forall (l' : list B) pre p post, combine l l' = pre ++ p :: post -> nth_error l (length pre) = Some (fst p) /\ nth_error l' (length pre) = Some (snd p).
Proof.
  induction l as [|a l IH]; intros [|b l'] [|q pre] p post E; cbn in *; try discriminate; [injection E as <- _; auto|]. injection E as _ E. now apply IH in E.
Qed.
Lemma F2_nth {A B} (P : A -> B -> Prop) l l' i a (d : B) : Forall2 P l l' -> nth_error l i = Some a -> P a (nth i l' d).
Proof. intro F. revert i. induction F as [|x y l l' H F IH]; intros [|i] E; cbn in *; try discriminate; [now injection E as <-|auto]. Qed.
Lemma nth_error_zrange n i j : nth_error (zrange n) i = Some j -> j = Z.of_nat i /\ j < n.
Proof.
  intro E. assert (L : (i < length (zrange n))%nat) by (apply nth_error_Some; congruence). rewrite zrange_length in L. rewrite <- (Nat2Z.id i), zrange_nth in E by lia. injection E as <-. lia.
Qed.
Lemma sort_ok nb x m a n c : 0 <= n -> 0 <= c -> entries m x a n c -> nb <> vblk x ->
  exists R m' L, sort_rows_unique nb x m = Ok (R, m') /\ (forall b p, b <> nb -> m' b p = m b p) /\ StronglySorted lex_lt L /\ (forall l, In l L <-> exists i, 0 <= i < n /\ l = row_of a c i) /\
    entries m' R (fun i j => nth (Z.to_nat j) (nth (Z.to_nat i) L []) 0) (Z.of_nat (length L)) c.
Proof.
  intros Hn Hc (Dx & Sx & Hx) Nb. destruct (vstr x) as [|s0 [|s1 [|]]] eqn:Ex; try discriminate. unfold sort_rows_unique. rewrite Dx, Ex.
  set (rowi := fun i => Row (vblk x) (voff x + s0 * i) c s1).
  assert (Shows : forall i, 0 <= i < n -> shows_row m (rowi i) (row_of a c i)).
  { intros i Hi. split; [unfold row_of; rewrite map_length, zrange_length; cbn; lia|]. cbn [rowi rn rb ro rs]. intros j Hj. destruct (Hx i j Hi Hj) as (p & Ep & Mp). unfold vaddr in Ep. rewrite Ex in Ep. cbn in Ep. injection Ep as <-. cbn in Mp.
    replace (voff x + s0 * i + j * s1) with (voff x + (i * s0 + j * s1)) by lia. transitivity (Some (a i j)); [rewrite <- Mp; f_equal; lia|]. f_equal. unfold row_of. rewrite (nth_indep _ 0 (a i 0)) by (rewrite map_length, zrange_length; lia). rewrite map_nth. f_equal.
    symmetry. apply nth_error_nth. apply zrange_nth. lia. }
  assert (Loop : forall k, (0 <= k <= Z.to_nat n)%nat -> exists s L, foldM (fun i s => set_insert m (rowi i) s) (zrange (Z.of_nat k)) [] = Ok s /\ sorted_set m (Z.to_nat c) s L /\ forall l, In l L <-> exists i, 0 <= i < Z.of_nat k /\ l = row_of a c i).
  { induction k as [|k IH]; intro Hk.
    - exists [], []. split; [reflexivity|]. split; [repeat constructor|]. intro l. cbn. split; [tauto|intros (i & Hi & _); lia].
    - destruct IH as (s & L & E & St & I); [lia|]. replace (Z.of_nat (S k)) with (Z.of_nat k + 1) by lia. rewrite zrange_succ by lia. rewrite foldM_app, E. cbn [bind foldM].
      destruct (insert_ok m (Z.to_nat c) (rowi (Z.of_nat k)) (row_of a c (Z.of_nat k)) (Shows (Z.of_nat k) ltac:(lia))) with (s := s) (L := L) as (s' & L' & E' & St' & I'); [unfold row_of; now rewrite map_length, zrange_length|assumption|]. rewrite E'. cbn [bind].
      exists s', L'. split; [reflexivity|]. split; [assumption|]. intro l. rewrite I', I. split; [intros [->|(i & Hi & ->)]; [exists (Z.of_nat k)|exists i]; split; auto; lia|]. intros (i & Hi & ->). destruct (Z.eq_dec i (Z.of_nat k)) as [->|]; [now left|right; exists i; split; [lia|reflexivity]]. }
  destruct (Loop (Z.to_nat n) ltac:(lia)) as (s & L & E & (F & K & O) & I). rewrite Z2Nat.id in E, I by assumption. change (forZ n _ []) with (foldM (fun i s => set_insert m (rowi i) s) (zrange n) []). rewrite E. cbn [bind].
  assert (LL : length s = length L) by (clear - F; induction F; cbn; congruence). set (k := Z.of_nat (length s)).
  destruct (foldM_inv (fun done (m' : mem Z) => (forall b p, b <> nb -> m' b p = m b p) /\ (forall p, 0 <= p < k * c -> exists v, m' nb p = Some v) /\ forall i j, 0 <= i < Z.of_nat (length done) -> 0 <= j < c -> m' nb (c * i + j) = Some (nth (Z.to_nat j) (nth (Z.to_nat i) L []) 0))
    (fun p (m : mem Z) => row_assign (Row nb (c * fst p) c 1) (snd p) m) (combine (zrange k) s) (alloc nb (k * c) m)) as (m' & E' & J1 & J2 & J3).
  - split; [intros b p Hb; unfold alloc; now replace (b =? nb) with false by lia|]. split; [intros p Hp; unfold alloc; replace (_ && _ && _) with true by lia; eauto|]. cbn. lia.
  - intros done [i y] rest m1 Ed (J1 & J2 & J3). apply combine_split in Ed. cbn [fst snd] in *. destruct Ed as [Ei Ey]. apply nth_error_zrange in Ei. destruct Ei as [-> Hi]. set (q := length done) in *.
    pose proof (F2_nth _ _ _ _ _ [] F Ey) as Hy. set (l := nth q L []) in *. assert (Hyb : rb y = vblk x /\ rn y = c).
    { split; [|rewrite (proj1 Hy); rewrite Forall_forall in K; rewrite (K l); [lia|]; apply nth_In; rewrite <- LL; apply nth_error_Some; rewrite Ey; discriminate].
      assert (Inv : forall z, In z s -> rb z = vblk x); [|apply Inv; eapply nth_error_In; eassumption]. clear - E. 
      assert (Gen : forall js s0 s, (forall z, In z s0 -> rb z = vblk x) -> foldM (fun i s => set_insert m (rowi i) s) js s0 = Ok s -> forall z, In z s -> rb z = vblk x).
      { induction js as [|j js IH]; intros u s' H0 Es; cbn [foldM] in Es; [injection Es as <-; assumption|]. destruct (set_insert m (rowi j) u) as [u'| |] eqn:Eu; cbn [bind] in Es; try discriminate. refine (IH _ _ _ Es). clear - H0 Eu.
        revert u' Eu. induction u as [|w u IHu]; intros u' Eu z Iz; cbn [set_insert] in Eu; [injection Eu as <-; destruct Iz as [<-|[]]; reflexivity|].
        destruct (row_less m (rowi j) w) as [[|]| |]; cbn [bind] in Eu; try discriminate; [injection Eu as <-; destruct Iz as [<-|Iz]; [reflexivity|now apply H0]|].
        destruct (row_less m w (rowi j)) as [[|]| |]; cbn [bind] in Eu; try discriminate; [|injection Eu as <-; now apply H0].
        destruct (set_insert m (rowi j) u) as [u2| |] eqn:E2; cbn [bind] in Eu; try discriminate. injection Eu as <-. destruct Iz as [<-|Iz]; [apply H0; now left|]. apply (IHu (fun z Hz => H0 z (or_intror Hz)) u2 eq_refl z Iz). }
      intros z Iz. eapply Gen; [|exact E|exact Iz]. intros ? []. }
    destruct Hyb as [Yb Yn].
    destruct (assign_ok m1 (Row nb (c * Z.of_nat q) c 1) y l) as (m2 & E2 & O2 & I2); cbn [rb ro rn rs] in *.
    + split; [apply Hy|]. intros j Hj. rewrite J1 by congruence. now apply Hy.
    + now symmetry.
    + reflexivity.
    + congruence.
    + intros j Hj. apply J2. nia.
    + exists m2. split; [exact E2|]. split; [intros b p Hb; rewrite O2 by tauto; now apply J1|]. split.
      * intros p Hp. destruct (Z.lt_ge_cases p (c * Z.of_nat q)) as [L1|L1]; [rewrite O2 by lia; now apply J2|]. destruct (Z.lt_ge_cases p (c * Z.of_nat q + c)) as [L2|L2]; [|rewrite O2 by lia; now apply J2].
        replace p with (c * Z.of_nat q + (p - c * Z.of_nat q)) by lia. rewrite I2 by lia. eauto.
      * rewrite app_length. cbn [length]. intros i j Hi' Hj. destruct (Z.eq_dec i (Z.of_nat q)) as [->|Ni]; [rewrite I2 by assumption; rewrite Nat2Z.id; reflexivity|]. rewrite O2 by nia. apply J3; lia.
  - rewrite E'. cbn [bind]. eexists _, m', L. split; [reflexivity|]. split; [assumption|]. split; [assumption|]. split; [assumption|]. unfold k. rewrite LL. unfold fresh_view. split; [reflexivity|]. split; [reflexivity|].
    intros i j Hi Hj. exists (nb, c * i + j). split; [unfold vaddr, offs; cbn -[Z.mul Z.add]; do 2 f_equal; lia|]. cbn [fst snd]. apply J3; [|assumption]. rewrite combine_length, zrange_length. unfold k. lia.
Qed.
