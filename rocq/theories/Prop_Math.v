(* Prop_Math.v -- C45-C48, C72, C73: primes, factored rationals, factorials, modular numbers, sorted rows, determinants. *)
From Verif Require Import Base BaseFacts Map Model_Index Model_View Spec_Index Proofs_Index Model_Math Spec_Math Proofs_Math Proofs_Math2 Proofs_Math3 Proofs_Math4.
Local Open Scope Z_scope.

(* ================= C45 ================= *)
Lemma extends_ok hs : forall s, pinv s -> exists s', foldM extend hs s = Ok s' /\ pinv s' /\ plimit s' = fold_left Z.max hs (plimit s).
Proof.
  induction hs as [|h hs IH]; intros s I; [exists s; cbn; auto|]. cbn [foldM fold_left]. destruct (extend_ok h s I) as (s1 & E1 & I1 & L1). rewrite E1. cbn [bind]. rewrite <- L1. now apply IH.
Qed.
(* after any sequence of extension requests the table holds, in ascending order, exactly the primes up to the largest
   limit asked for *)
Theorem C45_prime_table : forall hs, exists s, foldM extend hs no_primes = Ok s /\ plimit s = fold_left Z.max hs 1 /\
  StronglySorted Z.lt (plist s) /\ forall p, In p (plist s) <-> prime p /\ p <= plimit s.
Proof. intro hs. destruct (extends_ok hs no_primes no_primes_inv) as (s & E & [_ [A B]] & L). exists s. auto. Qed.
Print Assumptions C45_prime_table.
(* primes[i] is the prime with exactly i smaller primes *)
Theorem C45_ith_prime : forall hs s, foldM extend hs no_primes = Ok s -> forall i p,
  prime_at i s = Ok p <-> prime p /\ p <= plimit s /\ exists below, NoDup below /\ Z.of_nat (length below) = i /\ forall q, In q below <-> prime q /\ q < p.
Proof.
  intros hs s E i p. destruct (extends_ok hs no_primes no_primes_inv) as (s' & E' & [_ [A B]] & _). rewrite E in E'. injection E' as <-.
  assert (Down : forall j r, nth_error (plist s) j = Some r -> exists below, NoDup below /\ length below = j /\ forall q, In q below <-> prime q /\ q < r).
  { intros j r H. exists (firstn j (plist s)). assert (j < length (plist s))%nat by (apply nth_error_Some; congruence). split; [now apply nodup_firstn, sorted_nodup|]. split; [rewrite firstn_length; lia|].
    intro q. rewrite (sorted_split _ _ _ A H q), B. apply nth_error_In in H. apply B in H. intuition lia. }
  unfold prime_at. rewrite nth_error_zget. split.
  - intros [Hi H]. pose proof (nth_error_In _ _ H) as Ip. apply B in Ip. split; [tauto|]. split; [tauto|]. destruct (Down _ _ H) as (below & N & L & Q). exists below. split; [assumption|]. split; [lia|assumption].
  - intros (P & Lp & below & N & Li & Q). split; [lia|]. assert (Ip : In p (plist s)) by (apply B; auto). apply In_nth_error in Ip. destruct Ip as (j & Hj). destruct (Down _ _ Hj) as (below' & N' & L' & Q').
    assert (length below = length below'). { apply Nat.le_antisymm; apply NoDup_incl_length; auto; intros q Iq; [apply Q', Q, Iq|apply Q, Q', Iq]. } replace (Z.to_nat i) with j by lia. exact Hj.
Qed.
Print Assumptions C45_ith_prime.
Example C45_case : exists s, foldM extend [10; 3; -5; 30] no_primes = Ok s /\ plimit s = 30 /\ plist s = [2; 3; 5; 7; 11; 13; 17; 19; 23; 29] /\ prime_at 4 s = Ok 11 /\ prime_at 10 s = UB.
Proof. eexists. split; [vm_compute; reflexivity|]. repeat split. Qed.

(* ================= C46 ================= *)
(* any sequence of computations in a fresh process: every result has the exact value, whatever was computed before *)
Theorem C46_exact : forall es, Forall proper es -> exists d fs d', dfact_new = Ok d /\ eval_all es d = Ok (fs, d') /\
  Forall2 (fun e f => (value f == number e)%Q) es fs.
Proof.
  intros es P. destruct dfact_new_inv as (d & E & I). destruct (eval_all_ok es P d I) as (fs & d' & E' & _ & F). exists d, fs, d'. split; [assumption|]. split; [assumption|]. clear - F. induction F as [|e f es fs [_ V] F IH]; constructor; auto.
Qed.
Print Assumptions C46_exact.
Lemma eval_good es d fs d' : Forall proper es -> dfact_new = Ok d -> eval_all es d = Ok (fs, d') -> Forall2 (fun e f => fgood f /\ (value f == number e)%Q) es fs /\ dinv d'.
Proof. intros P Ed E. destruct dfact_new_inv as (d0 & E0 & I). rewrite Ed in E0. injection E0 as <-. destruct (eval_all_ok es P d I) as (fs' & d1 & E1 & I1 & F). rewrite E in E1. injection E1 as <- <-. auto. Qed.
Lemma F2_pair {A B} (P : A -> B -> Prop) l l' i a b : Forall2 P l l' -> nth_error l i = Some a -> nth_error l' i = Some b -> P a b.
Proof. intro F. revert i. induction F as [|x y l l' H F IH]; intros [|i] Ea Eb; cbn in *; try discriminate; [injection Ea as <-; injection Eb as <-; assumption|eauto]. Qed.
(* two results stand for the same number exactly when they agree in every exponent *)
Theorem C46_equality : forall es d fs d', Forall proper es -> dfact_new = Ok d -> eval_all es d = Ok (fs, d') ->
  forall i j e1 e2 f1 f2, nth_error es i = Some e1 -> nth_error es j = Some e2 -> nth_error fs i = Some f1 -> nth_error fs j = Some f2 ->
  ((number e1 == number e2)%Q <-> forall p, expo p f1 = expo p f2).
Proof.
  intros es d fs d' P Ed E i j e1 e2 f1 f2 H1 H2 F1 F2. destruct (eval_good es d fs d' P Ed E) as [F _]. destruct (F2_pair _ _ _ _ _ _ F H1 F1) as [G1 V1]. destruct (F2_pair _ _ _ _ _ _ F H2 F2) as [G2 V2].
  rewrite <- V1, <- V2. now apply value_inj.
Qed.
Print Assumptions C46_equality.
(* p_not_one and q_not_one tell whether the numerator and the denominator in lowest terms differ from one *)
Theorem C46_lowest_terms : forall es d fs d', Forall proper es -> dfact_new = Ok d -> eval_all es d = Ok (fs, d') ->
  forall i e f, nth_error es i = Some e -> nth_error fs i = Some f ->
  exists a b, 0 < a /\ 0 < b /\ Z.gcd a b = 1 /\ (number e == inject_Z a / inject_Z b)%Q /\ (p_not_one f = true <-> a <> 1) /\ (q_not_one f = true <-> b <> 1).
Proof.
  intros es d fs d' P Ed E i e f He Hf. destruct (eval_good es d fs d' P Ed E) as [F _]. destruct (F2_pair _ _ _ _ _ _ F He Hf) as [G V]. pose proof (den_pos f (proj2 G)).
  exists (num f), (den f). split; [apply num_pos, G|]. split; [assumption|]. split; [now apply num_den_coprime|]. split; [|split; [now apply num_one|now apply den_one]].
  rewrite <- V, <- (value_num_den f (proj2 G)). field. apply inj_nz. lia.
Qed.
Print Assumptions C46_lowest_terms.
(* zero and negative integers are not represented: if the conversion ends at all, its value is positive ... *)
Theorem C46_nonpositive_refuted : forall hs s x f s', foldM extend hs no_primes = Ok s -> x <= 0 -> frational_of x s = Ok (f, s') -> ~ (value f == inject_Z x)%Q.
Proof.
  intros hs s x f s' Es X E V. destruct (extends_ok hs no_primes no_primes_inv) as (s0 & E0 & I & _). rewrite Es in E0. injection E0 as <-. pose proof (value_pos f (proj2 (frational_good x s f s' I E))) as P. rewrite V in P. unfold Qlt in P. cbn in P. lia.
Qed.
Print Assumptions C46_nonpositive_refuted.
(* ... and for zero it never ends once the prime table is not empty *)
Theorem C46_zero_loops_refuted : forall hs s, foldM extend hs no_primes = Ok s -> plist s <> [] -> frational_of 0 s = UB.
Proof.
  intros hs s Es N. destruct (extends_ok hs no_primes no_primes_inv) as (s0 & E0 & [L [A B]] & _). rewrite Es in E0. injection E0 as <-. unfold frational_of, extend. replace (0 <=? plimit s) with true by lia. cbn [bind].
  destruct (plist s) as [|p ps] eqn:Ep; [congruence|]. cbn [factorise]. assert (P : prime p) by (apply B; now left). pose proof (prime_ge2 p P). rewrite divide_zero by lia. reflexivity.
Qed.
Print Assumptions C46_zero_loops_refuted.
(* comparing the factor maps themselves is not equality: the same call gives different maps before and after another *)
Theorem C46_maps_differ_refuted : exists f s g s', frational_of 1 no_primes = Ok (f, s) /\ (exists h s1, frational_of 5 s = Ok (h, s1) /\ frational_of 1 s1 = Ok (g, s')) /\ f <> g /\ (value f == value g)%Q.
Proof. exists [], no_primes, [(2, 0)], (Primes [2; 3; 5] 5). split; [vm_compute; reflexivity|]. split; [|split; [discriminate|reflexivity]]. eexists _, _. split; vm_compute; reflexivity. Qed.
Print Assumptions C46_maps_differ_refuted.
Definition es46 := [EFact 5; EDiv (EMul (EInt 12) (EPQ 10 9)) (EInt 4); EDelta 2 2 2; EMulInt (EPQ 10 9) 3; EDelta 2 2 2].
Example C46_case : Forall proper es46 /\ (forall d, dfact_new = Ok d -> exists fs d', eval_all es46 d = Ok (fs, d') /\
  map (expo 2) fs = [3; 1; -1; 1; -1] /\ map (expo 3) fs = [1; -1; -2; -1; -2] /\ map (expo 5) fs = [1; 1; -1; 1; -1] /\ map (expo 7) fs = [0; 0; -1; 0; -1] /\
  map p_not_one fs = [true; true; false; true; false] /\ map q_not_one fs = [false; true; true; true; true]) /\
  (number (EDelta 2 2 2) == 1 # 630)%Q.
Proof.
  split; [unfold es46; repeat constructor; cbn; lia|]. split; [|vm_compute; reflexivity]. intros d Ed. vm_compute in Ed. injection Ed as <-. eexists _, _. split; [vm_compute; reflexivity|]. repeat split.
Qed.

(* ================= C47 ================= *)
(* any sequence of calls with arguments whose factorial fits a machine integer returns the factorials *)
Theorem C47_factorials : forall ns, Forall (fun n => 0 <= n /\ zfact n <= int_max) ns -> exists t, factorials ns fact_new = Ok (map zfact ns, t).
Proof. intros ns F. destruct (factorials_ok ns F fact_new fact_new_table) as (t & E & _). eauto. Qed.
Print Assumptions C47_factorials.
(* and a call whose factorial does not fit overflows, whatever came before *)
Theorem C47_too_large : forall ns xs t n, Forall (fun n => 0 <= n /\ zfact n <= int_max) ns -> factorials ns fact_new = Ok (xs, t) -> int_max < zfact n -> 0 <= n -> factorial n t = UB.
Proof.
  intros ns xs t n F E B N. destruct (factorials_ok ns F fact_new fact_new_table) as (t' & E' & T). rewrite E in E'. injection E' as -> ->.
  assert (N13 : 13 <= n) by (destruct (Z.lt_ge_cases n 13) as [L|L]; [apply Z.lt_nge in B; exfalso; apply B, zfact_fits; lia|exact L]). clear B.
  assert (Len : (length t' <= 13)%nat). { destruct (Nat.le_gt_cases (length t') 13) as [|L]; [assumption|exfalso].
    assert (Hall : forall ns t0, (length t0 <= 13)%nat -> table t0 -> Forall (fun n => 0 <= n /\ zfact n <= int_max) ns -> forall ys t1, factorials ns t0 = Ok (ys, t1) -> (length t1 <= 13)%nat).
    { clear. induction ns as [|k ns IH]; intros t0 L0 T0 F ys t1 E; cbn [factorials] in E; [injection E as _ <-; assumption|]. inversion F as [|? ? [K Bk] F']; subst.
      pose proof (proj1 (zfact_fits k K) Bk) as K12.
      assert (S1 : exists t2, factorial k t0 = Ok (zfact k, t2) /\ (length t2 <= 13)%nat /\ table t2).
      { destruct (factorial_ok k t0 K Bk T0) as (t2 & E2 & T2). exists t2. split; [assumption|]. split; [|assumption]. unfold factorial in E2. replace (k <? -1) with false in E2 by lia. replace (k <? 0) with false in E2 by lia. destruct (k <? Z.of_nat (length t0)) eqn:Ek.
        - destruct (zget t0 k); cbn [bind] in E2; try discriminate. now injection E2 as _ <-.
        - destruct (fact_loop (Z.to_nat (k - Z.of_nat (length t0) + 1)) t0 T0) as (t3 & E3 & T3 & L3); [replace (Z.of_nat _ - 1) with k by lia; assumption|]. rewrite Z2Nat.id in E3 by lia. rewrite E3 in E2. cbn [bind] in E2. destruct (zget t3 k); cbn [bind] in E2; try discriminate. injection E2 as _ <-. lia. }
      destruct S1 as (t2 & E2 & L2 & T2). rewrite E2 in E. cbn [bind] in E. destruct (factorials ns t2) as [[zs t3]| |] eqn:E3; cbn [bind] in E; try discriminate. injection E as _ <-. eapply IH; eassumption. }
    pose proof (Hall ns fact_new ltac:(cbn; lia) fact_new_table F _ _ E). lia. }
  unfold factorial. replace (n <? -1) with false by lia. replace (n <? 0) with false by lia. replace (n <? Z.of_nat (length t')) with false by lia.
  set (m := Z.of_nat (length t')). replace (n - m + 1) with ((13 - m) + (1 + (n - 13))) by lia. rewrite zrange_app by lia. rewrite map_app, foldM_app.
  destruct (fact_loop (Z.to_nat (13 - m)) t' T) as (t3 & E3 & T3 & L3); [replace (Z.of_nat _ - 1) with 12 by lia; apply zfact_fits; lia|]. fold m in E3. rewrite Z2Nat.id in E3 by lia. rewrite E3. cbn [bind].
  rewrite zrange_app by lia. change (zrange 1) with [0]. cbn [map app foldM]. replace (m + (13 - m + 0)) with 13 by lia. unfold fact_step at 1. destruct T3 as [_ T3].
  destruct (nth_error t3 (Z.to_nat (13 - 1))) as [p|] eqn:En; [|apply nth_error_None in En; lia]. rewrite (proj2 (nth_error_zget t3 (13 - 1) p)) by (split; [lia|exact En]). cbn [bind]. apply T3 in En. subst p.
  change (Z.of_nat (Z.to_nat (13 - 1))) with 12. rewrite zfact_12. reflexivity.
Qed.
Print Assumptions C47_too_large.
Example C47_case : Forall (fun n => 0 <= n /\ zfact n <= int_max) [5; 3; 12; 0] /\ rmap fst (factorials [5; 3; 12; 0] fact_new) = Ok [120; 6; 479001600; 1] /\ rmap fst (factorials [13] fact_new) = UB.
Proof.
  split; [|split; vm_compute; reflexivity]. apply Forall_forall. intros n In. assert (0 <= n <= 12) by (cbn in In; lia). split; [lia|apply zfact_fits; lia].
Qed.

(* ================= C48 ================= *)
(* sums, differences and negatives agree with arithmetic modulo n, for a modulus up to 2^30 *)
Theorem C48_arithmetic : forall n e, 0 < n <= 2 ^ 30 -> exists x, ceval n e = Ok x /\ cn x = n /\ cv x mod n = integer e mod n /\ - n < cv x < n.
Proof. intros n e N. destruct (ceval_ok n e N) as (x & E & Nx & B & M). exists x. repeat (split; [assumption|]). lia. Qed.
Print Assumptions C48_arithmetic.
(* numbers that are congruent need not have the same representative: get() and the printed form differ *)
Theorem C48_representatives_refuted : forall n, 1 < n -> exists x y z, cyc n (-1) = Ok x /\ cyc n (n - 1) = Ok y /\ integer (CVal (-1)) mod n = integer (CVal (n - 1)) mod n /\ cv x <> cv y /\
  ceval n (CSub (CVal 0) (CVal 1)) = Ok z /\ cv z <> cv y.
Proof.
  intros n N. assert (A : cyc n (-1) = Ok (Cyc n (-1))). { unfold cyc. rewrite crem_ok by lia. replace (Z.rem (-1) n) with (-1); [reflexivity|]. change (-1) with (- (1)) at 2. rewrite Z.rem_opp_l by lia. rewrite Z.rem_small; lia. }
  exists (Cyc n (-1)), (Cyc n (n - 1)), (Cyc n (-1)). split; [exact A|]. split; [unfold cyc; rewrite crem_ok by lia; rewrite Z.rem_small by lia; reflexivity|]. split; [cbn; replace (n - 1) with (-1 + 1 * n) by lia; now rewrite Z.mod_add by lia|]. split; [cbn; lia|]. split; [|cbn; lia].
  cbn [ceval]. unfold cyc at 1 2. rewrite !crem_ok by lia. rewrite Z.rem_0_l, Z.rem_small by lia. cbn [bind]. unfold cyc_sub. cbn [cv cn]. change (chk (0 - 1)) with (Ok (-1)). exact A.
Qed.
Print Assumptions C48_representatives_refuted.
(* representatives are canonical as long as only non-negative values and sums are used *)
Fixpoint sums_only (e : cexpr) : Prop := match e with CVal v => 0 <= v | CAdd a b => sums_only a /\ sums_only b | CSub _ _ => False | CNeg a => sums_only a end.
Theorem C48_canonical : forall n e, 0 < n <= 2 ^ 30 -> sums_only e -> ceval n e = Ok (Cyc n (integer e mod n)).
Proof.
  intros n e N So. assert (H : exists x, ceval n e = Ok x /\ 0 <= cv x).
  { assert (R : forall v, 0 <= v -> exists x, cyc n v = Ok x /\ 0 <= cv x < n /\ cn x = n). { intros v V. unfold cyc. rewrite crem_ok by lia. eexists. split; [reflexivity|]. cbn. pose proof (Z.rem_bound_pos v n). lia. }
    assert (C : forall z, Z.abs z <= 2147483647 -> chk z = Ok z) by (intros z Hz; unfold chk, fits_int, int_min, int_max; now replace (_ && _) with true by lia).
    assert (G : exists x, ceval n e = Ok x /\ 0 <= cv x < n /\ cn x = n).
    { induction e as [v|a IHa b IHb|a IHa b IHb|a IHa]; cbn [ceval sums_only] in *; [now apply R| |contradiction|].
      - destruct IHa as (x & Ea & Ba & Na); [tauto|]. destruct IHb as (y & Eb & Bb & Nb); [tauto|]. rewrite Ea. cbn [bind]. rewrite Eb. cbn [bind]. unfold cyc_add. rewrite C by lia. cbn [bind]. rewrite Na. apply R. lia.
      - destruct IHa as (x & Ea & Ba & Na); [tauto|]. rewrite Ea. cbn [bind]. unfold cyc_neg. rewrite C by lia. cbn [bind]. rewrite Na. apply R. lia. }
    destruct G as (x & E & B & _). exists x. split; [assumption|lia]. }
  destruct H as (x & E & P). destruct (ceval_ok n e N) as (x' & E' & Nx & B & M). rewrite E in E'. injection E' as <-. rewrite E. f_equal. destruct x as [n' v]. cbn in *. subst n'. f_equal. rewrite <- M. symmetry. apply Z.mod_small. lia.
Qed.
Print Assumptions C48_canonical.
(* above 2^30 the sum of two numbers can overflow *)
Theorem C48_overflow_refuted : forall n, 2 ^ 30 < n <= int_max -> ceval n (CAdd (CVal (n - 1)) (CVal (n - 1))) = UB.
Proof.
  intros n N. unfold int_max in N. cbn [ceval]. unfold cyc. rewrite !crem_ok by lia. rewrite !Z.rem_small by lia. cbn [bind]. unfold cyc_add. cbn [cv]. unfold chk, fits_int, int_min, int_max. replace (_ && _) with false by lia. reflexivity.
Qed.
Print Assumptions C48_overflow_refuted.
Example C48_case : ceval 7 (CAdd (CVal 12) (CNeg (CVal 4))) = Ok (Cyc 7 1) /\ sums_only (CAdd (CVal 12) (CNeg (CVal 4))) /\ ceval 7 (CSub (CVal 3) (CVal 5)) = Ok (Cyc 7 (-2)).
Proof. split; [vm_compute; reflexivity|]. split; [cbn; lia|vm_compute; reflexivity]. Qed.

(* ================= C72 ================= *)
Lemma lex_irrefl l : ~ lex_lt l l. Proof. induction l as [|a l IH]; cbn; [tauto|]. intros [H|[_ H]]; [lia|auto]. Qed.
(* the result is a fresh matrix whose rows are the distinct rows of x in ascending lexicographic order; nothing else is
   written *)
Theorem C72_sorted_distinct_rows : forall nb x m a n c, 0 <= n -> 0 <= c -> entries m x a n c -> nb <> vblk x ->
  exists R m' L, sort_rows_unique nb x m = Ok (R, m') /\ (forall b p, b <> nb -> m' b p = m b p) /\
    StronglySorted lex_lt L /\ NoDup L /\ (forall l, In l L <-> exists i, 0 <= i < n /\ l = row_of a c i) /\
    entries m' R (fun i j => nth (Z.to_nat j) (nth (Z.to_nat i) L []) 0) (Z.of_nat (length L)) c.
Proof.
  intros nb x m a n c Hn Hc E N. destruct (sort_ok nb x m a n c Hn Hc E N) as (R & m' & L & E1 & E2 & E3 & E4 & E5). exists R, m', L. repeat (split; [assumption|]). split; [|split; assumption].
  clear - E3. induction E3 as [|l L O IH B]; constructor; [|assumption]. intro I. rewrite Forall_forall in B. exact (lex_irrefl l (B l I)).
Qed.
Print Assumptions C72_sorted_distinct_rows.
Definition m72 : mem Z := fun b a => if (b =? 0) && (0 <=? a) && (a <? 8) then Some (nth (Z.to_nat a) [2; 1; 2; 1; 0; 5; 0; 4] 0) else None.
Definition x72 : view := View 0 0 [4; 2] [1; 4].  (* rows (2,0) (1,5) (2,0) (1,4) *)
Example C72_case : entries m72 x72 (fun i j => nth (Z.to_nat (i + 4 * j)) [2; 1; 2; 1; 0; 5; 0; 4] 0) 4 2 /\
  exists R m', sort_rows_unique 7 x72 m72 = Ok (R, m') /\ vdims R = [3; 2] /\ map (fun p => m' 7 p) (zrange 6) = map Some [1; 4; 1; 5; 2; 0].
Proof.
  split.
  - split; [reflexivity|]. split; [reflexivity|]. intros i j Hi Hj. exists (0, i + 4 * j). split; [unfold vaddr; cbn -[Z.mul Z.add]; do 2 f_equal; lia|]. cbn [fst snd]. unfold m72. replace (_ && _ && _) with true by lia. reflexivity.
  - eexists _, _. split; [vm_compute; reflexivity|]. split; vm_compute; reflexivity.
Qed.

(* ================= C73 ================= *)
Section C73.
Context {R : cring}.
Add Ring Rring73 : (@cth R).
(* the determinant is the sum over all permutations of the signed products *)
Theorem C73_leibniz : forall (m : mem R) x a, entries m x a 3 3 -> determinant m x = Ok (leibniz 3 a).
Proof. intros m x a E. now apply det_ok. Qed.
Lemma leib3 (a : Z -> Z -> R) : leibniz 3 a =
  cadd (cadd (cmul (a 0 0) (csub (cmul (a 1 1) (a 2 2)) (cmul (a 1 2) (a 2 1)))) (cmul (a 0 1) (csub (cmul (a 1 2) (a 2 0)) (cmul (a 1 0) (a 2 2))))) (cmul (a 0 2) (csub (cmul (a 1 0) (a 2 1)) (cmul (a 1 1) (a 2 0)))).
Proof. unfold leibniz. change (zrange 3) with [0; 1; 2]. cbn. unfold rsum. cbn. ring. Qed.
(* it is linear in every row *)
Theorem C73_multilinear : forall (m : mem R) x y z a b d s t i, entries m x a 3 3 -> entries m y b 3 3 -> entries m z d 3 3 -> 0 <= i < 3 ->
  (forall j, 0 <= j < 3 -> d i j = cadd (cmul s (a i j)) (cmul t (b i j))) ->
  (forall k j, 0 <= k < 3 -> 0 <= j < 3 -> k <> i -> d k j = a k j /\ b k j = a k j) ->
  exists u v w, determinant m x = Ok u /\ determinant m y = Ok v /\ determinant m z = Ok w /\ w = cadd (cmul s u) (cmul t v).
Proof.
  intros m x y z a b d s t i Ex Ey Ez Hi Lin Oth. exists (leibniz 3 a), (leibniz 3 b), (leibniz 3 d). split; [now apply det_ok|]. split; [now apply det_ok|]. split; [now apply det_ok|]. rewrite !leib3.
  assert (O1 : forall k j, 0 <= k < 3 -> 0 <= j < 3 -> k <> i -> d k j = a k j) by (intros k j A B C; now apply Oth). assert (O2 : forall k j, 0 <= k < 3 -> 0 <= j < 3 -> k <> i -> b k j = a k j) by (intros k j A B C; now apply Oth).
  assert (i = 0 \/ i = 1 \/ i = 2) as [->|[->| ->]] by lia;
    [rewrite !(O1 1), !(O1 2), !(O2 1), !(O2 2), !Lin by lia|rewrite !(O1 0), !(O1 2), !(O2 0), !(O2 2), !Lin by lia|rewrite !(O1 1), !(O1 0), !(O2 1), !(O2 0), !Lin by lia]; ring.
Qed.
(* it vanishes when two rows are equal *)
Theorem C73_alternating : forall (m : mem R) x a i k, entries m x a 3 3 -> 0 <= i < 3 -> 0 <= k < 3 -> i <> k -> (forall j, 0 <= j < 3 -> a i j = a k j) -> determinant m x = Ok c0.
Proof.
  intros m x a i k E Hi Hk N H. rewrite (det_ok m x a E), leib3. f_equal.
  assert (W : forall p q, 0 <= p < 3 -> 0 <= q < 3 -> p < q -> (forall j, 0 <= j < 3 -> a p j = a q j) -> cadd (cadd (cmul (a 0 0) (csub (cmul (a 1 1) (a 2 2)) (cmul (a 1 2) (a 2 1)))) (cmul (a 0 1) (csub (cmul (a 1 2) (a 2 0)) (cmul (a 1 0) (a 2 2))))) (cmul (a 0 2) (csub (cmul (a 1 0) (a 2 1)) (cmul (a 1 1) (a 2 0)))) = c0).
  { clear. intros p q Hp Hq L H. assert ((p = 0 /\ q = 1) \/ (p = 0 /\ q = 2) \/ (p = 1 /\ q = 2)) as [[-> ->]|[[-> ->]|[-> ->]]] by lia; rewrite !H by lia; ring. }
  destruct (Z.lt_ge_cases i k); [apply (W i k); auto|apply (W k i); auto; [lia|intros; symmetry; auto]].
Qed.
Theorem C73_identity : forall (m : mem R) x a, entries m x a 3 3 -> (forall i j, 0 <= i < 3 -> 0 <= j < 3 -> a i j = if i =? j then c1 else c0) -> determinant m x = Ok c1.
Proof. intros m x a E H. rewrite (det_ok m x a E), leib3. f_equal. rewrite !H by lia. cbn. ring. Qed.
(* any other shape is rejected *)
Theorem C73_other_shapes : forall (m : mem R) x, vdims x <> [3; 3] -> determinant m x = Throw.
Proof.
  intros m x N. unfold determinant. destruct (vdims x) as [|d0 [|d1 [|]]]; try reflexivity. destruct (d0 =? d1) eqn:E; [|reflexivity]. cbn [assrt]. destruct (d0 =? 3) eqn:E3; [|reflexivity]. exfalso. apply N. f_equal; [lia|f_equal; lia].
Qed.
End C73.
Print Assumptions C73_leibniz.
Print Assumptions C73_multilinear.
Print Assumptions C73_alternating.
Print Assumptions C73_identity.
Print Assumptions C73_other_shapes.
Definition m73 : mem ZRing := fun b a => if (b =? 0) && (0 <=? a) && (a <? 9) then Some (nth (Z.to_nat a) [2; 1; 3; 0; 5; 4; 7; 6; 8] 0) else None.
Example C73_case : entries m73 (View 0 0 [3; 3] [3; 1]) (fun i j => nth (Z.to_nat (3 * i + j)) [2; 1; 3; 0; 5; 4; 7; 6; 8] 0) 3 3 /\ @determinant ZRing m73 (View 0 0 [3; 3] [3; 1]) = Ok (-45).
Proof.
  split; [|vm_compute; reflexivity]. split; [reflexivity|]. split; [reflexivity|]. intros i j Hi Hj. exists (0, 3 * i + j). split; [unfold vaddr; cbn -[Z.mul Z.add]; do 2 f_equal; lia|]. cbn [fst snd]. unfold m73. replace (_ && _ && _) with true by lia. reflexivity.
Qed.
