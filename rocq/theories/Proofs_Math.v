(* Proofs_Math.v -- the prime table. *)
From Verif Require Import Base BaseFacts Map Model_Index Model_View Spec_Index Proofs_Index Model_Math.
From Coq Require Import Znumtheory Sorting.Sorted.
Local Open Scope Z_scope.

Lemma prime_factor x : 1 < x -> exists p, prime p /\ (p | x).
Proof.
  intro H. assert (H0 : 0 <= x) by lia. revert H. pattern x. apply Z_lt_induction; [clear x H0|assumption]. intros x IH H. destruct (prime_dec x) as [P|N]; [exists x; split; [assumption|apply Z.divide_refl]|].
  destruct (not_prime_divide x H N) as (y & Hy & Dy). destruct (IH y ltac:(lia) ltac:(lia)) as (p & P & D). exists p. split; [assumption|]. now apply Z.divide_trans with y.
Qed.
Lemma prime_ge2 p : prime p -> 2 <= p. Proof. apply prime_ge_2. Qed.
Lemma crem_ok x p : p <> 0 -> crem x p = Ok (Z.rem x p). Proof. intro H. unfold crem. now replace (p =? 0) with false by lia. Qed.
Lemma cdiv_ok x p : p <> 0 -> cdiv x p = Ok (Z.quot x p). Proof. intro H. unfold cdiv. now replace (p =? 0) with false by lia. Qed.
Lemma rem_div x p : p <> 0 -> Z.rem x p = 0 <-> (p | x). Proof. apply Z.rem_divide. Qed.
Lemma quot_facts x p : 2 <= p -> x <> 0 -> Z.rem x p = 0 -> x = p * Z.quot x p /\ Z.quot x p <> 0 /\ Z.abs (Z.quot x p) < Z.abs x.
Proof.
  intros P X E. pose proof (Z.quot_rem' x p) as Q. rewrite E, Z.add_0_r in Q. set (q := Z.quot x p) in *. assert (q <> 0) by (intro Z0; rewrite Z0 in Q; lia). repeat split; [assumption|assumption|].
  rewrite Q, Z.abs_mul. nia.
Qed.
(* dividing out p leaves the cofactor not divisible by p *)
Lemma divide_count_ok p : 2 <= p -> forall fuel x i, x <> 0 -> (Z.to_nat (Z.abs x) < fuel)%nat ->
  exists y k, divide_count fuel x p i = Ok (y, i + k) /\ 0 <= k /\ x = p ^ k * y /\ ~ (p | y).
Proof.
  intro P. induction fuel as [|fuel IH]; intros x i X L; [lia|]. cbn [divide_count]. rewrite crem_ok by lia. cbn [bind]. destruct (Z.rem x p =? 0) eqn:E.
  - destruct (quot_facts x p P X ltac:(lia)) as (Q & N & A). rewrite cdiv_ok by lia. cbn [bind]. destruct (IH (Z.quot x p) (i + 1) N ltac:(lia)) as (y & k & Ey & K & Ex & D).
    exists y, (k + 1). rewrite Ey. split; [do 2 f_equal; lia|]. split; [lia|]. split; [|assumption]. rewrite Z.pow_add_r by lia. rewrite Q, Ex at 1. ring.
  - exists x, 0. rewrite Z.add_0_r. split; [reflexivity|]. split; [lia|]. split; [rewrite Z.pow_0_r; lia|]. intro D. apply rem_div in D; lia.
Qed.
Lemma divide_out_count p : forall fuel x i, divide_out fuel x p = rmap fst (divide_count fuel x p i).
Proof. induction fuel as [|fuel IH]; intros x i; [reflexivity|]. cbn. destruct (crem x p) as [r| |]; cbn; try reflexivity. destruct (r =? 0); [|reflexivity]. destruct (cdiv x p) as [q| |]; cbn; auto. Qed.
Lemma pow_pos p k : 2 <= p -> 0 <= k -> 0 < p ^ k. Proof. intros. apply Z.pow_pos_nonneg; lia. Qed.

Lemma strip_ok ps : Forall (fun p => 2 <= p) ps -> forall x, 0 < x ->
  exists y, strip ps x = Ok y /\ 0 < y /\ (y | x) /\ (y = 1 \/ forall p, In p ps -> ~ (p | y)) /\ ((forall p, In p ps -> ~ (p | x)) -> y = x).
Proof.
  induction 1 as [|p ps P F IH]; intros x X.
  - exists x. cbn. repeat split; auto using Z.divide_refl.
  - cbn [strip]. rewrite (divide_out_count p _ x 0). destruct (divide_count_ok p P (S (Z.to_nat (Z.abs x))) x 0 ltac:(lia) ltac:(lia)) as (y & k & E & K & Ex & D). rewrite E. cbn [rmap fst bind].
    pose proof (pow_pos p k P K) as Hk. assert (Y : 0 < y) by nia. assert (Dy : (y | x)) by (exists (p ^ k); assumption).
    assert (Same : ~ (p | x) -> y = x). { intro N. destruct (Z.eq_dec k 0) as [->|Nk]; [rewrite Z.pow_0_r in Ex; lia|]. exfalso. apply N. rewrite Ex. apply Z.divide_mul_l. replace k with (1 + (k - 1)) by lia. rewrite Z.pow_add_r, Z.pow_1_r by lia. apply Z.divide_factor_l. }
    destruct (y =? 1) eqn:E1.
    + exists y. split; [reflexivity|]. split; [assumption|]. split; [assumption|]. split; [left; lia|]. intro N. apply Same, N. now left.
    + destruct (IH y Y) as (z & Ez & Z0 & Dz & N & Same'). exists z. split; [assumption|]. split; [assumption|]. split; [now apply Z.divide_trans with y|]. split.
      * destruct N as [->|N]; [now left|]. right. intros q [<-|Iq]; [|now apply N]. intro D'. apply D. now apply Z.divide_trans with z.
      * intro N'. rewrite <- Same by (apply N'; now left). apply Same'. intros q Iq Dq. apply (N' q); [now right|]. now apply Z.divide_trans with y.
Qed.

Definition ptable (l : list Z) (lim : Z) : Prop := StronglySorted Z.lt l /\ forall p, In p l <-> prime p /\ p <= lim.
Lemma sorted_snoc l x : StronglySorted Z.lt l -> (forall y, In y l -> y < x) -> StronglySorted Z.lt (l ++ [x]).
Proof.
  induction l as [|a l IH]; intros S0 H; cbn; [repeat constructor|]. inversion S0 as [|? ? S' F]; subst. constructor; [apply IH; [assumption|intros; apply H; now right]|].
  apply Forall_app. split; [assumption|]. constructor; [apply H; now left|constructor].
Qed.
Lemma extend_step_ok l lim : 1 <= lim -> ptable l lim -> exists l', extend_step (lim + 1) l = Ok l' /\ ptable l' (lim + 1).
Proof.
  intros L [S0 T]. unfold extend_step.
  assert (F : Forall (fun p => 2 <= p) l) by (apply Forall_forall; intros p Ip; apply T in Ip; now apply prime_ge2).
  destruct (strip_ok l F (lim + 1) ltac:(lia)) as (y & E & Y & D & N & Same). rewrite E. cbn [bind]. eexists. split; [reflexivity|].
  destruct (prime_dec (lim + 1)) as [P|NP].
  - assert (Ey : y = lim + 1). { apply Same. intros p Ip Dp. apply T in Ip. destruct Ip as [Pp Lp]. apply prime_ge2 in Pp. destruct (prime_divisors _ P p Dp) as [|[|[|]]]; lia. }
    subst y. replace (1 <? lim + 1) with true by lia. split.
    + apply sorted_snoc; [assumption|]. intros p Ip. apply T in Ip. lia.
    + intro p. rewrite in_app_iff, T. cbn. split; [intros [[Pp Lp]|[<-|[]]]; split; auto; lia|]. intros [Pp Lp]. destruct (Z.eq_dec p (lim + 1)) as [->|]; [right; now left|left; split; [assumption|lia]].
  - assert (Ey : y = 1). { destruct N as [|N]; [assumption|]. destruct (Z.eq_dec y 1) as [|N1]; [assumption|]. destruct (prime_factor y ltac:(lia)) as (q & Pq & Dq).
      exfalso. apply (N q); [|assumption]. apply T. split; [assumption|]. assert (Dq' : (q | lim + 1)) by now apply Z.divide_trans with y. pose proof (Z.divide_pos_le q (lim + 1) ltac:(lia) Dq').
      destruct (Z.eq_dec q (lim + 1)) as [->|]; [now apply NP in Pq|lia]. }
    subst y. cbn. split; [assumption|]. intro p. rewrite T. split; intros [Pp Lp]; (split; [assumption|]); [lia|]. destruct (Z.eq_dec p (lim + 1)) as [->|]; [contradiction|lia].
Qed.
Lemma extend_loop k l lim : 1 <= lim -> ptable l lim -> exists l', foldM extend_step (map (Z.add (lim + 1)) (zrange (Z.of_nat k))) l = Ok l' /\ ptable l' (lim + Z.of_nat k).
Proof.
  intros L T. induction k as [|k IH].
  - exists l. cbn. rewrite Z.add_0_r. auto.
  - destruct IH as (l' & E & T'). replace (Z.of_nat (S k)) with (Z.of_nat k + 1) by lia. rewrite zrange_succ by lia. rewrite map_app, foldM_app, E. cbn [bind map foldM].
    replace (lim + 1 + Z.of_nat k) with (lim + Z.of_nat k + 1) by lia. destruct (extend_step_ok l' (lim + Z.of_nat k) ltac:(lia) T') as (l2 & E2 & T2). rewrite E2. cbn [bind]. exists l2. split; [reflexivity|]. now rewrite Z.add_assoc.
Qed.
Definition pinv (s : primes) : Prop := 1 <= plimit s /\ ptable (plist s) (plimit s).
Lemma no_primes_inv : pinv no_primes.
Proof. split; [cbn; lia|]. split; [constructor|]. cbn. intro p. split; [tauto|]. intros [P L]. apply prime_ge2 in P. lia. Qed.
Lemma extend_ok lim s : pinv s -> exists s', extend lim s = Ok s' /\ pinv s' /\ plimit s' = Z.max (plimit s) lim.
Proof.
  intros [L T]. unfold extend. destruct (lim <=? plimit s) eqn:E; [exists s; split; [reflexivity|]; split; [split; assumption|lia]|].
  destruct (extend_loop (Z.to_nat (lim - plimit s)) _ _ L T) as (l & E' & T'). rewrite Z2Nat.id in E', T' by lia. rewrite E'. cbn [bind]. eexists. split; [reflexivity|]. cbn.
  replace (plimit s + (lim - plimit s)) with lim in T' by lia. split; [split; [cbn; lia|assumption]|lia].
Qed.

Lemma sorted_split l i p : StronglySorted Z.lt l -> nth_error l i = Some p -> forall q, In q (firstn i l) <-> In q l /\ q < p.
Proof.
  intros S0. revert i. induction S0 as [|a l S0 IH F]; intros [|i] E q; cbn in *; try discriminate.
  - injection E as <-. rewrite Forall_forall in F. split; [tauto|]. intros [[<-|I] L]; [lia|]. specialize (F q I). lia.
  - rewrite (IH i E q). rewrite Forall_forall in F. pose proof (F p (nth_error_In _ _ E)). intuition (subst; auto).
Qed.
Lemma sorted_nodup l : StronglySorted Z.lt l -> NoDup l.
Proof. induction 1 as [|a l S0 IH F]; constructor; [|assumption]. intro I. rewrite Forall_forall in F. specialize (F a I). lia. Qed.
Lemma nodup_firstn {A} (l : list A) n : NoDup l -> NoDup (firstn n l).
Proof.
  intro N. revert n. induction N as [|a l H N IH]; intros [|n]; cbn; constructor; [|apply IH]. intro I. apply H. rewrite <- (firstn_skipn n l). apply in_or_app. now left.
Qed.
