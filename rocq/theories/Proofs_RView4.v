(* Proofs_RView4.v -- pairwise reductions and doubling broadcasts of regular matrices. *)
From Verif Require Import Base BaseFacts Model_Index Model_View Model_Tensor Model_Ops Model_RView Spec_Index Spec_View Spec_Tensor Spec_RView
  Proofs_Axes Proofs_Index Proofs_View Proofs_Tensor Proofs_Tensor2 Proofs_Tensor3 Proofs_Convolve2 Proofs_Ops2 Proofs_Ops3 Proofs_RView Proofs_RView2 Proofs_RView3.
Local Open Scope Z_scope.

(* ---- the two counting loops ---- *)
Lemma grow_ok k : forall a n, 1 <= a -> n <= a * 2 ^ Z.of_nat k ->
  exists q, grow k a n = a * 2 ^ Z.of_nat q /\ n <= a * 2 ^ Z.of_nat q /\ (q = O \/ a * 2 ^ Z.of_nat q < 2 * n).
Proof.
  induction k as [|k IH]; intros a n Ha Hn; cbn [grow].
  - exists O. cbn in *. split; [lia|]. split; [lia|now left].
  - destruct (a <? n) eqn:E.
    + destruct (IH (a * 2) n) as (q & E1 & E2 & E3); [lia|rewrite Nat2Z.inj_succ, Z.pow_succ_r in Hn by lia; nia|].
      exists (S q). rewrite Nat2Z.inj_succ, Z.pow_succ_r by lia. split; [rewrite E1; ring|]. split; [nia|]. right.
      destruct E3 as [E3|E3]; [subst q; change (Z.of_nat 0) with 0; rewrite Z.pow_0_r; lia|lia].
    + exists O. cbn. split; [lia|]. split; [lia|now left].
Qed.
Lemma pow_ge n : 0 <= n -> n < 2 ^ n.
Proof. intro H. apply Z.pow_gt_lin_r; lia. Qed.
Lemma grow_half n : 2 <= n -> exists p, grow (Z.to_nat n) 1 n / 2 = 2 ^ Z.of_nat p /\ 2 ^ Z.of_nat p < n <= 2 * 2 ^ Z.of_nat p.
Proof.
  intro H. destruct (grow_ok (Z.to_nat n) 1 n) as (q & E1 & E2 & E3); [lia|rewrite Z2Nat.id by lia; pose proof (pow_ge n); lia|].
  destruct q as [|p]; [cbn in E2; lia|]. destruct E3 as [E3|E3]; [discriminate|]. exists p. rewrite E1. rewrite Nat2Z.inj_succ, Z.pow_succ_r in * by lia.
  split; [replace (1 * (2 * 2 ^ Z.of_nat p)) with (2 ^ Z.of_nat p * 2) by ring; apply Z.div_mul; lia|lia].
Qed.
Lemma grow_small n : n <= 1 -> grow (Z.to_nat n) 1 n / 2 = 0.
Proof.
  intro H. destruct (Z.to_nat n); cbn [grow]; [reflexivity|]. replace (1 <? n) with false by lia. reflexivity.
Qed.

(* ---- flat loops ---- *)
Lemma flat_gen {V} (f : V -> V -> V) n sb so db d (m : mem V) (fs fd : Z -> V) :
  (forall i, 0 <= i < n -> m sb (so + i) = Some (fs i)) -> (forall i, 0 <= i < n -> m db (d + i) = Some (fd i)) ->
  (sb = db -> d <= so \/ so + n <= d) ->
  exists m', forZ n (fun i m => do v <- load m sb (so + i); rmw (fun u _ => f u v) (db, d + i) [] m) m = Ok m' /\
    (forall i, 0 <= i < n -> m' db (d + i) = Some (f (fd i) (fs i))) /\
    (forall b a, ~ (b = db /\ d <= a < d + n) -> m' b a = m b a).
Proof.
  intros Hs Hd Hov. unfold forZ.
  destruct (foldM_inv (fun done m' => (forall i, 0 <= i < n -> m' db (d + i) = Some (if in_dec Z.eq_dec i done then f (fd i) (fs i) else fd i)) /\
     (forall b a, ~ (b = db /\ exists i, In i done /\ a = d + i) -> m' b a = m b a))
    (fun i m => do v <- load m sb (so + i); rmw (fun u _ => f u v) (db, d + i) [] m) (zrange n) m) as (m' & E & A & B).
  - split; [intros i Hi; rewrite Hd by assumption; reflexivity|reflexivity].
  - intros done i rest m1 El (A & B).
    assert (Hi : 0 <= i < n) by (apply in_zrange; rewrite El; apply in_or_app; right; now left).
    assert (Hn : ~ In i done). { pose proof (zrange_nodup n) as Nd. rewrite El in Nd. apply NoDup_remove_2 in Nd. intro I. apply Nd. apply in_or_app. now left. }
    assert (Lt : forall k, In k done -> 0 <= k < i).
    { intros k Hk. assert (Ei : i = Z.of_nat (length done)).
      { assert (nth_error (zrange n) (length done) = Some i) by (rewrite El, nth_error_app2, Nat.sub_diag by lia; reflexivity).
        assert (length done < length (zrange n))%nat by (rewrite El, app_length; cbn; lia). rewrite zrange_length in H0.
        rewrite <- (Nat2Z.id (length done)) in H. rewrite zrange_nth in H by lia. now injection H. }
      apply In_nth_error in Hk as [t Ht]. assert (Lt : (t < length done)%nat) by (apply nth_error_Some; congruence).
      assert (Q : nth_error (zrange n) t = Some k) by (rewrite El, nth_error_app1 by assumption; exact Ht).
      assert (length done < length (zrange n))%nat by (rewrite El, app_length; cbn; lia). rewrite zrange_length in H.
      rewrite <- (Nat2Z.id t) in Q. rewrite zrange_nth in Q by lia. injection Q as <-. lia. }
    assert (Ls : m1 sb (so + i) = Some (fs i)).
    { rewrite B; [now apply Hs|]. intros (-> & k & Hk & Ek). pose proof (Lt k Hk). destruct (Hov eq_refl); lia. }
    unfold load at 1. rewrite Ls. cbn [bind]. unfold rmw, loadA. cbn [fst snd loads]. pose proof (A i Hi) as Ai. destruct (in_dec Z.eq_dec i done); [contradiction|].
    unfold load. rewrite Ai. cbn [bind]. unfold store. rewrite Ai. eexists. split; [reflexivity|]. unfold upd. split.
    + intros k Hk. rewrite Z.eqb_refl. cbn [andb]. destruct (d + k =? d + i) eqn:Ek.
      * replace k with i by lia. destruct (in_dec Z.eq_dec i (done ++ [i])) as [_|N]; [reflexivity|]. exfalso. apply N. apply in_or_app. right. now left.
      * rewrite A by assumption. destruct (in_dec Z.eq_dec k done), (in_dec Z.eq_dec k (done ++ [i])) as [I|I]; try reflexivity.
        -- exfalso. apply I. apply in_or_app. now left.
        -- exfalso. apply in_app_or in I as [I|[I|[]]]; [contradiction|lia].
    + intros b a Hba. destruct ((b =? db) && (a =? d + i)) eqn:Eb.
      * exfalso. apply Hba. apply andb_true_iff in Eb as [E1 E2]. split; [lia|]. exists i. split; [apply in_or_app; right; now left|lia].
      * apply B. intros (-> & k & Hk & ->). apply Hba. split; [reflexivity|]. exists k. split; [apply in_or_app; now left|reflexivity].
  - exists m'. split; [exact E|]. split.
    + intros i Hi. rewrite A by assumption. destruct (in_dec Z.eq_dec i (zrange n)) as [_|N]; [reflexivity|]. exfalso. apply N. now apply in_zrange.
    + intros b a Hba. apply B. intros (-> & i & Hi & ->). apply in_zrange in Hi. apply Hba. lia.
Qed.
Lemma flat_copy_ok {V} n sb so db d (m : mem V) (fs : Z -> V) :
  (forall i, 0 <= i < n -> m sb (so + i) = Some (fs i)) -> (forall i, 0 <= i < n -> m db (d + i) <> None) ->
  (sb = db -> d <= so \/ so + n <= d) ->
  exists m', flat_copy n sb so db d m = Ok m' /\ (forall i, 0 <= i < n -> m' db (d + i) = Some (fs i)) /\
    (forall b a, ~ (b = db /\ d <= a < d + n) -> m' b a = m b a).
Proof.
  intros Hs Hd Hov. destruct (Z_lt_le_dec 0 n) as [Hn|Hn].
  - assert (D : V) by (exact (fs 0)).
    destruct (flat_gen (fun _ v => v) n sb so db d m fs (fun i => match m db (d + i) with Some v => v | None => D end)) as (m' & E & A & B); try assumption.
    + intros i Hi. specialize (Hd i Hi). destruct (m db (d + i)); [reflexivity|congruence].
    + exists m'. split; [|split; assumption]. rewrite <- E. unfold flat_copy, forZ. apply foldM_ext. intros i s _. unfold load. destruct (s sb (so + i)); cbn; [|reflexivity].
      unfold rmw, loadA, load, store. cbn. destruct (s db (d + i)); reflexivity.
  - exists m. unfold flat_copy, forZ. rewrite zrange_nil by assumption. cbn. split; [reflexivity|]. split; [intros; lia|reflexivity].
Qed.

Section Rows.
Context {R : cring}.
Add Ring RrRV4 : (cth R).
Notation memR := (mem (car R)).
Variables (v : view) (n0 n1 : Z).
Hypotheses (W : vwf v) (D : vdims v = [n0; n1]) (Hr : reg2 v = true).

Lemma reg_s : sd v 0 = n1 /\ sd v 1 = 1.
Proof. unfold reg2 in Hr. rewrite (nd_eq v _ 1 D) in Hr. cbn [nth] in Hr. lia. Qed.
Lemma reg_elem (m : memR) i j : elem m v [i; j] = m (vblk v) (voff v + (i * n1 + j)).
Proof. unfold elem. rewrite (vaddr2 v i j n0 n1 W D). destruct reg_s as [-> ->]. f_equal. lia. Qed.
Lemma reg_vaddr i j : vaddr v [i; j] = Ok (vblk v, voff v + (i * n1 + j)).
Proof. rewrite (vaddr2 v i j n0 n1 W D). destruct reg_s as [-> ->]. do 2 f_equal. lia. Qed.
Lemma reg_cell (m : memR) t : readable m v -> 0 <= t < n0 * n1 -> m (vblk v) (voff v + t) = Some (elem0 m v [t / n1; t mod n1]).
Proof.
  intros Rv Ht. pose proof (pos2 v n0 n1 W D). assert (0 < n1) by nia. pose proof (Z.div_mod t n1 ltac:(lia)) as Q. pose proof (Z.mod_pos_bound t n1 ltac:(lia)).
  assert (In1 : in_range [t / n1; t mod n1] (vdims v)) by (rewrite D; apply in_range_2; [split; [apply Z.div_pos; lia|apply Z.div_lt_upper_bound; nia]|lia]).
  rewrite <- (readable_elem m v _ Rv In1), reg_elem. do 2 f_equal. lia.
Qed.
Lemma reg_out (m m' : memR) lo hi : 0 <= lo -> hi <= n0 * n1 -> (forall b a, ~ (b = vblk v /\ voff v + lo <= a < voff v + hi) -> m' b a = m b a) -> untouched m m' v.
Proof.
  intros H1 H2 H b a Hn. apply H. intros (-> & Ha). pose proof (pos2 v n0 n1 W D). assert (0 < n1) by nia.
  pose (t := a - voff v). pose proof (Z.div_mod t n1 ltac:(lia)). pose proof (Z.mod_pos_bound t n1 ltac:(lia)).
  apply (Hn [t / n1; t mod n1]); [rewrite D; apply in_range_2; [split; [apply Z.div_pos; lia|apply Z.div_lt_upper_bound; nia]|lia]|]. rewrite reg_vaddr. do 2 f_equal. lia.
Qed.
Lemma divmod_at i j : 0 <= j < n1 -> (i * n1 + j) / n1 = i /\ (i * n1 + j) mod n1 = j.
Proof. intro H. split; [rewrite Z.div_add_l by lia; rewrite Z.div_small by lia; lia|]. rewrite Z.add_comm, Z_mod_plus_full. now apply Z.mod_small. Qed.

(* rows a..a+c-1 are added to rows 0..c-1 *)
Lemma add_rows (m : memR) a c : readable m v -> 0 <= a -> 0 <= c -> a + c <= n0 ->
  exists m', flat_add (c * n1) (vblk v) (voff v + a * n1) (vblk v) (voff v) m = Ok m' /\ readable m' v /\ untouched m m' v /\
    forall i j, 0 <= i < n0 -> 0 <= j < n1 ->
      elem0 m' v [i; j] = if i <? c then cadd (elem0 m v [i; j]) (elem0 m v [a + i; j]) else elem0 m v [i; j].
Proof.
  intros Rv Ha Hc Hac. pose proof (pos2 v n0 n1 W D) as [P0 P1].
  destruct (flat_gen cadd (c * n1) (vblk v) (voff v + a * n1) (vblk v) (voff v) m
     (fun t => elem0 m v [(a * n1 + t) / n1; (a * n1 + t) mod n1]) (fun t => elem0 m v [t / n1; t mod n1])) as (m' & E & A & B).
  - intros t Ht. rewrite <- reg_cell; [f_equal; lia|assumption|nia].
  - intros t Ht. apply reg_cell; [assumption|nia].
  - intros _. left. nia.
  - exists m'. split; [exact E|].
    assert (Q : forall i j, 0 <= i < n0 -> 0 <= j < n1 -> elem m' v [i; j] = Some (if i <? c then cadd (elem0 m v [i; j]) (elem0 m v [a + i; j]) else elem0 m v [i; j])).
    { intros i j Hi Hj. rewrite reg_elem. destruct (i <? c) eqn:Ei.
      - rewrite A by nia. destruct (divmod_at i j Hj) as [-> ->]. replace (a * n1 + (i * n1 + j)) with ((a + i) * n1 + j) by ring. destruct (divmod_at (a + i) j Hj) as [-> ->]. reflexivity.
      - rewrite B by nia. rewrite <- reg_elem. apply readable_elem; [assumption|]. rewrite D. now apply in_range_2. }
    split; [|split].
    + intros ix Hix. rewrite D in Hix. apply in_range_2_inv in Hix as (i & j & -> & Hi & Hj). rewrite Q by assumption. congruence.
    + apply (reg_out m m' 0 (c * n1)); [lia|nia|]. intros b x Hn. apply B. intros [H1 H2]. apply Hn. split; [assumption|lia].
    + intros i j Hi Hj. unfold elem0 at 1. now rewrite Q.
Qed.
(* rows 0..c-1 are copied to rows a..a+c-1 *)
Lemma copy_rows (m : memR) a c : readable m v -> 0 <= c <= a -> a + c <= n0 ->
  exists m', flat_copy (c * n1) (vblk v) (voff v) (vblk v) (voff v + a * n1) m = Ok m' /\ readable m' v /\ untouched m m' v /\
    forall i j, 0 <= i < n0 -> 0 <= j < n1 ->
      elem0 m' v [i; j] = if (a <=? i) && (i <? a + c) then elem0 m v [i - a; j] else elem0 m v [i; j].
Proof.
  intros Rv Hc Hac. pose proof (pos2 v n0 n1 W D) as [P0 P1].
  destruct (flat_copy_ok (c * n1) (vblk v) (voff v) (vblk v) (voff v + a * n1) m (fun t => elem0 m v [t / n1; t mod n1])) as (m' & E & A & B).
  - intros t Ht. apply reg_cell; [assumption|nia].
  - intros t Ht. rewrite <- Z.add_assoc, reg_cell; [congruence|assumption|nia].
  - intros _. right. nia.
  - exists m'. split; [exact E|].
    assert (Q : forall i j, 0 <= i < n0 -> 0 <= j < n1 -> elem m' v [i; j] = Some (if (a <=? i) && (i <? a + c) then elem0 m v [i - a; j] else elem0 m v [i; j])).
    { intros i j Hi Hj. rewrite reg_elem. destruct ((a <=? i) && (i <? a + c)) eqn:Ei.
      - apply andb_true_iff in Ei as [E1 E2]. replace (voff v + (i * n1 + j)) with (voff v + a * n1 + ((i - a) * n1 + j)) by ring. rewrite A by nia. destruct (divmod_at (i - a) j Hj) as [-> ->]. reflexivity.
      - rewrite B by nia. rewrite <- reg_elem. apply readable_elem; [assumption|]. rewrite D. now apply in_range_2. }
    split; [|split].
    + intros ix Hix. rewrite D in Hix. apply in_range_2_inv in Hix as (i & j & -> & Hi & Hj). rewrite Q by assumption. congruence.
    + apply (reg_out m m' (a * n1) (a * n1 + c * n1)); [nia|nia|]. intros b x Hn. apply B. intros [H1 H2]. apply Hn. split; [assumption|lia].
    + intros i j Hi Hj. unfold elem0 at 1. now rewrite Q.
Qed.

(* ---- reduce0_destructively ---- *)
Definition colsum (m : memR) (a j : Z) : R := rsum (map (fun i => elem0 m v [i; j]) (zrange a)).
Lemma colsum_step (m m' : memR) a c j : 0 <= c <= a -> a + c <= n0 -> 0 <= j < n1 ->
  (forall i j, 0 <= i < n0 -> 0 <= j < n1 -> elem0 m' v [i; j] = if i <? c then cadd (elem0 m v [i; j]) (elem0 m v [a + i; j]) else elem0 m v [i; j]) ->
  colsum m' a j = colsum m (a + c) j.
Proof.
  intros Hc Hac Hj H. unfold colsum. rewrite zrange_app, map_app, rsum_app, map_map by lia.
  replace a with (c + (a - c)) at 1 2 by ring. rewrite !zrange_app, !map_app, !rsum_app, !map_map by lia.
  rewrite (rsum_ext R (fun i => elem0 m' v [i; j]) (fun i => cadd (elem0 m v [i; j]) (elem0 m v [a + i; j]))).
  2:{ intros i Hi. apply in_zrange in Hi. rewrite H by lia. now replace (i <? c) with true by lia. }
  rewrite (rsum_ext R (fun x => elem0 m' v [c + x; j]) (fun x => elem0 m v [c + x; j])).
  2:{ intros i Hi. apply in_zrange in Hi. rewrite H by lia. now replace (c + i <? c) with false by lia. }
  rewrite rsum_map_add. ring.
Qed.
Lemma halve_ok p : forall k (m : memR), (p <= k)%nat -> 2 ^ Z.of_nat p <= n0 -> readable m v ->
  exists m', halve k (2 ^ Z.of_nat p / 2) v m = Ok m' /\ readable m' v /\ untouched m m' v /\
    forall j, 0 <= j < n1 -> elem0 m' v [0; j] = colsum m (2 ^ Z.of_nat p) j.
Proof.
  induction p as [|p IH]; intros k m Hk Hp Rv.
  - cbn in Hp. exists m. split; [destruct k; reflexivity|]. split; [assumption|]. split; [intros b a _; reflexivity|]. intros j Hj. unfold colsum. change (zrange (2 ^ Z.of_nat 0)) with [0]. cbn [map]. rewrite rsum_cons, rsum_nil. ring.
  - destruct k as [|k]; [lia|]. rewrite Nat2Z.inj_succ, Z.pow_succ_r in * by lia. set (a := 2 ^ Z.of_nat p) in *. assert (0 < a) by (apply Z.pow_pos_nonneg; lia).
    replace (2 * a / 2) with a by (rewrite Z.mul_comm, Z.div_mul; lia). cbn [halve]. replace (0 <? a) with true by lia.
    destruct reg_s as [Es _]. rewrite Es. replace (2 * a * n1 - a * n1) with (a * n1) by ring.
    destruct (add_rows m a a Rv) as (m1 & E1 & R1 & U1 & H1); try lia. rewrite E1. cbn [bind].
    destruct (IH k m1) as (m' & E2 & R2 & U2 & H2); [lia|fold a; lia|assumption|]. fold a in E2, H2. exists m'. split; [exact E2|]. split; [assumption|]. split; [eapply untouched_trans; eassumption|].
    intros j Hj. rewrite H2 by assumption. rewrite (colsum_step m m1 a a j) by (try assumption; lia). f_equal. lia.
Qed.
Lemma reduce_reg (m : memR) : readable m v -> 2 <= n0 ->
  exists m', rv2_reduce0 v m = Ok m' /\ readable m' v /\ untouched m m' v /\ forall j, 0 <= j < n1 -> elem0 m' v [0; j] = colsum m n0 j.
Proof.
  intros Rv H2. unfold rv2_reduce0. rewrite Hr, !(nd_eq v _ _ D). cbn [nth]. destruct (grow_half n0 H2) as (p & -> & Hp). set (a := 2 ^ Z.of_nat p) in *.
  destruct reg_s as [Es _]. rewrite Es. cbv zeta. replace (n0 * n1 - a * n1) with ((n0 - a) * n1) by ring.
  destruct (add_rows m a (n0 - a) Rv) as (m1 & E1 & R1 & U1 & H1); try lia. rewrite E1. cbn [bind].
  destruct (halve_ok p (Z.to_nat a) m1) as (m' & E3 & R3 & U3 & H3); [|fold a; lia|assumption|].
  { pose proof (pow_ge (Z.of_nat p)). fold a in H. lia. }
  fold a in E3, H3. exists m'. split; [exact E3|]. split; [assumption|]. split; [eapply untouched_trans; eassumption|].
  intros j Hj. rewrite H3 by assumption. rewrite (colsum_step m m1 a (n0 - a) j) by (try assumption; lia). f_equal. lia.
Qed.
(* a single row is added to itself *)
Lemma reduce_one (m : memR) : readable m v -> n0 = 1 ->
  exists m', rv2_reduce0 v m = Ok m' /\ untouched m m' v /\ forall j, 0 <= j < n1 -> elem m' v [0; j] = Some (cadd (elem0 m v [0; j]) (elem0 m v [0; j])).
Proof.
  intros Rv H2. unfold rv2_reduce0. rewrite Hr, !(nd_eq v _ _ D). cbn [nth]. rewrite H2. rewrite grow_small by lia. cbv zeta. destruct reg_s as [Es _]. rewrite Es.
  destruct (add_rows m 0 1 Rv) as (m1 & E1 & R1 & U1 & H1); try lia.
  replace (1 * n1 - 0 * n1) with (1 * n1) by ring. rewrite E1. cbn [bind]. exists m1. split; [reflexivity|]. split; [assumption|].
  intros j Hj. rewrite (readable_elem m1 v [0; j] R1) by (rewrite D; apply in_range_2; lia). rewrite H1 by lia. reflexivity.
Qed.

(* ---- broadcast0 ---- *)
Lemma spread_ok k : forall a (m : memR), 1 <= a <= n0 -> n0 - a <= Z.of_nat k -> readable m v ->
  exists m', spread k a v m = Ok m' /\ readable m' v /\ untouched m m' v /\
    forall i j, 0 <= i < n0 -> 0 <= j < n1 -> exists t, 0 <= t < a /\ (i < a -> t = i) /\ elem0 m' v [i; j] = elem0 m v [t; j].
Proof.
  induction k as [|k IH]; intros a m Ha Hk Rv.
  - cbn [spread]. rewrite !(nd_eq v _ _ D). cbn [nth]. replace (a <? n0) with false by lia. exists m. split; [reflexivity|]. split; [assumption|]. split; [intros b c _; reflexivity|].
    intros i j Hi Hj. exists i. split; [lia|]. split; [auto|reflexivity].
  - cbn [spread]. rewrite !(nd_eq v _ _ D). cbn [nth]. destruct (a <=? n0 / 2) eqn:E.
    + assert (2 * a <= n0) by (pose proof (Z.mul_div_le n0 2); lia).
      destruct (copy_rows m a a Rv) as (m1 & E1 & R1 & U1 & H1); try lia. rewrite E1. cbn [bind].
      destruct (IH (a * 2) m1) as (m' & E2 & R2 & U2 & H2); try lia; [assumption|]. exists m'. split; [exact E2|]. split; [assumption|]. split; [eapply untouched_trans; eassumption|].
      intros i j Hi Hj. destruct (H2 i j Hi Hj) as (t & Ht & Hti & ->). rewrite H1 by lia. destruct ((a <=? t) && (t <? a + a)) eqn:Et.
      * exists (t - a). split; [lia|]. split; [intro; exfalso; specialize (Hti ltac:(lia)); lia|reflexivity].
      * exists t. split; [lia|]. split; [intro; apply Hti; lia|reflexivity].
    + destruct (a <? n0) eqn:E2.
      * assert (n0 - a <= a) by (pose proof (Z.div_mod n0 2); pose proof (Z.mod_pos_bound n0 2); lia).
        destruct (copy_rows m a (n0 - a) Rv) as (m1 & E1 & R1 & U1 & H1); try lia. exists m1. split; [exact E1|]. split; [assumption|]. split; [assumption|].
        intros i j Hi Hj. rewrite H1 by assumption. destruct ((a <=? i) && (i <? a + (n0 - a))) eqn:Et; [exists (i - a)|exists i]; (split; [lia|]); (split; [lia|reflexivity]).
      * exists m. split; [reflexivity|]. split; [assumption|]. split; [intros b c _; reflexivity|]. intros i j Hi Hj. exists i. split; [lia|]. split; [auto|reflexivity].
Qed.
Lemma broadcast_reg (x : view) (m : memR) : readable m v -> vwf x -> vdims x = [n1] -> reg1 x = true -> readable m x -> disjoint_views v x -> 1 <= n0 ->
  exists m', rv2_broadcast0 v x m = Ok m' /\ becomes v (fun ix => elem0 m x [nth 1 ix 0]) m m'.
Proof.
  intros Rv Wx Dx Ex Rx B H1. pose proof (pos2 v n0 n1 W D) as [P0 P1]. unfold rv2_broadcast0. rewrite !(nd_eq v _ _ D), !(nd_eq x _ _ Dx). cbn [nth]. rewrite Z.eqb_refl, Hr, Ex. cbn [assrt andb].
  assert (Cx : forall j, elem m x [j] = m (vblk x) (voff x + j)).
  { intro j. unfold elem. rewrite (vaddr1 x j n1 Wx Dx). unfold reg1 in Ex. f_equal. apply Z.eqb_eq in Ex. rewrite Ex. lia. }
  assert (Vx : forall j, vaddr x [j] = Ok (vblk x, voff x + j)).
  { intro j. rewrite (vaddr1 x j n1 Wx Dx). unfold reg1 in Ex. apply Z.eqb_eq in Ex. rewrite Ex. do 2 f_equal. lia. }
  destruct (flat_copy_ok n1 (vblk x) (voff x) (vblk v) (voff v) m (fun j => elem0 m x [j])) as (m1 & E1 & A & Bo).
  - intros j Hj. rewrite <- Cx. apply readable_elem; [assumption|]. rewrite Dx. repeat constructor; lia.
  - intros j Hj. rewrite reg_cell; [congruence|assumption|nia].
  - intro Eb. destruct (Z_le_gt_dec (voff v) (voff x)); [now left|]. destruct (Z_le_gt_dec (voff x + n1) (voff v)); [now right|]. exfalso.
    apply (B [0; 0] [voff v - voff x]); [rewrite D; apply in_range_2; lia|rewrite Dx; repeat constructor; lia|]. rewrite reg_vaddr, Vx, Eb. do 2 f_equal. lia.
  - rewrite E1. cbn [bind].
    assert (U1 : untouched m m1 v). { apply (reg_out m m1 0 n1); [lia|nia|]. intros b a Hn. apply Bo. intros [H2 H3]. apply Hn. split; [assumption|lia]. }
    assert (R1 : readable m1 v).
    { intros ix Hix. rewrite D in Hix. apply in_range_2_inv in Hix as (i & j & -> & Hi & Hj). rewrite reg_elem. destruct (Z.eq_dec i 0) as [->|Ni].
      - replace (0 * n1 + j) with j by ring. rewrite A by assumption. congruence.
      - rewrite Bo by nia. rewrite <- reg_elem. apply Rv. rewrite D. now apply in_range_2. }
    destruct (spread_ok (Z.to_nat n0) 1 m1) as (m' & E2 & R2 & U2 & H2); [lia|lia|assumption|]. exists m'. split; [exact E2|]. split; [|eapply untouched_trans; eassumption].
    intros ix Hix. rewrite D in Hix. apply in_range_2_inv in Hix as (i & j & -> & Hi & Hj). cbn [nth]. destruct (H2 i j Hi Hj) as (t & Ht & _ & E).
    rewrite (readable_elem m' v [i; j] R2) by (rewrite D; now apply in_range_2). rewrite E. replace t with 0 by lia. f_equal. unfold elem0 at 1. rewrite reg_elem.
    replace (0 * n1 + j) with j by ring. now rewrite A.
Qed.
End Rows.
