(* Proofs_Math2.v -- factored rationals. *)
From Verif Require Import Base BaseFacts Map Model_Index Model_View Spec_Index Proofs_Index Model_Math Spec_Math Proofs_Math.
From Coq Require Import Qpower.
Local Open Scope Z_scope.

Lemma inj_nz p : p <> 0 -> ~ (inject_Z p == 0)%Q.
Proof. intros H E. apply H. apply inject_Z_injective. exact E. Qed.
Lemma inj_mul a b : (inject_Z (a * b) == inject_Z a * inject_Z b)%Q. Proof. reflexivity. Qed.
Definition keys_pos (f : factors) : Prop := Forall (fun x => prime (fst x)) f.
Definition fgood (f : factors) : Prop := mwf f /\ keys_pos f.
Lemma nil_good : fgood []. Proof. split; constructor. Qed.
Lemma value_fadd p e f : p <> 0 -> (value (fadd p e f) == Qpower (inject_Z p) e * value f)%Q.
Proof.
  intro P. unfold fadd, expo. induction f as [|[k v] f IH].
  - cbn [mset mfind value fold_right fst snd]. rewrite Z.add_0_l. reflexivity.
  - cbn [mset mfind]. destruct (k =? p) eqn:E.
    + cbn [value fold_right fst snd]. fold (value f). rewrite Qpower_plus by now apply inj_nz. replace k with p by lia. ring.
    + cbn [value fold_right fst snd]. fold (value f). fold (value (mset p (match mfind p f with Some e0 => e0 | None => 0 end + e) f)). rewrite IH. ring.
Qed.
Lemma expo_fadd p e f q : expo q (fadd p e f) = expo q f + (if p =? q then e else 0).
Proof. unfold fadd, expo. rewrite mfind_set. destruct (p =? q) eqn:E; [|lia]. replace q with p by lia. reflexivity. Qed.
Lemma fadd_good p e f : prime p -> fgood f -> fgood (fadd p e f).
Proof.
  intros P [W K]. unfold fadd. split; [now apply mset_wf|]. unfold keys_pos in *. rewrite Forall_forall in *. intros x Ix. apply mset_in in Ix; [|assumption]. destruct Ix as [->|[_ Ix]]; [assumption|auto].
Qed.

Lemma combine_ok sg g : forall f, keys_pos g -> fgood f ->
  let r := fold_left (fun r x => fadd (fst x) (sg * snd x) r) g f in
  fgood r /\ (forall q, expo q r = expo q f + sg * fold_right (fun x a => (if fst x =? q then snd x else 0) + a) 0 g) /\ (value r == value f * Qpower (value g) sg)%Q.
Proof.
  induction g as [|[k e] g IH]; intros f K G; cbn [fold_left].
  - cbn. split; [assumption|]. split; [intro; lia|]. rewrite Qpower_1. ring.
  - inversion K as [|? ? P K']; subst. cbn [fst snd] in *. destruct (IH (fadd k (sg * e) f) K' (fadd_good k _ f P G)) as (A & B & C). cbn zeta. split; [exact A|]. split.
    + intro q. rewrite B, expo_fadd. cbn [fold_right fst snd]. destruct (k =? q); lia.
    + rewrite C. pose proof (prime_ge2 k P). rewrite value_fadd by lia. cbn [value fold_right fst snd]. fold (value g). rewrite Qmult_power, <- Qpower_mult, (Z.mul_comm e sg). ring.
Qed.
Lemma expo_sum g q : mwf g -> fold_right (fun x a => (if fst x =? q then snd x else 0) + a) 0 g = expo q g.
Proof.
  unfold expo. induction g as [|[k e] g IH]; intro W; cbn; [reflexivity|]. inversion W as [|? ? N W']; subst. specialize (IH W'). destruct (k =? q) eqn:E; [|lia].
  cbn [fst] in N. replace k with q in * by lia. apply mfind_none in N. rewrite N in IH. rewrite IH. lia.
Qed.
Lemma fold_left_ext_in {A B} (f g : A -> B -> A) l : (forall a x, In x l -> f a x = g a x) -> forall a, fold_left f l a = fold_left g l a.
Proof. induction l as [|x l IH]; intros H a; cbn; [reflexivity|]. rewrite (H a x) by now left. apply IH. intros. apply H. now right. Qed.
Lemma frmul_ok f g : fgood f -> fgood g -> fgood (frmul f g) /\ (forall q, expo q (frmul f g) = expo q f + expo q g) /\ (value (frmul f g) == value f * value g)%Q.
Proof.
  intros F G. destruct (combine_ok 1 g f (proj2 G) F) as (A & B & C). assert (E : fold_left (fun r x => fadd (fst x) (1 * snd x) r) g f = frmul f g) by (unfold frmul; apply fold_left_ext_in; intros; now rewrite Z.mul_1_l).
  cbv zeta in *. rewrite E in A, B, C. split; [assumption|]. split; [intro q; rewrite B, expo_sum by apply G; lia|]. rewrite C. cbn. reflexivity.
Qed.
Lemma frdiv_ok f g : fgood f -> fgood g -> fgood (frdiv f g) /\ (forall q, expo q (frdiv f g) = expo q f - expo q g) /\ (value (frdiv f g) == value f / value g)%Q.
Proof.
  intros F G. destruct (combine_ok (-1) g f (proj2 G) F) as (A & B & C). assert (E : fold_left (fun r x => fadd (fst x) (-1 * snd x) r) g f = frdiv f g) by (unfold frdiv; apply fold_left_ext_in; intros; f_equal; lia).
  cbv zeta in *. rewrite E in A, B, C. split; [assumption|]. split; [intro q; rewrite B, expo_sum by apply G; lia|]. rewrite C. reflexivity.
Qed.

(* converting a positive integer *)
Lemma factorise_ok ps : Forall prime ps -> forall x f, 0 < x -> (forall q, prime q -> (q | x) -> In q ps) -> fgood f ->
  exists f', factorise ps x f = Ok f' /\ fgood f' /\ (value f' == inject_Z x * value f)%Q.
Proof.
  induction 1 as [|p ps P F IH]; intros x f X D G.
  - exists f. cbn. split; [reflexivity|]. split; [assumption|]. destruct (Z.eq_dec x 1) as [->|N]; [ring|]. destruct (prime_factor x ltac:(lia)) as (q & Pq & Dq). destruct (D q Pq Dq).
  - cbn [factorise]. pose proof (prime_ge2 p P) as P2. destruct (divide_count_ok p P2 (S (Z.to_nat (Z.abs x))) x 0 ltac:(lia) ltac:(lia)) as (y & k & E & K & Ex & N). rewrite E. cbn [bind]. rewrite Z.add_0_l.
    pose proof (pow_pos p k P2 K). assert (Y : 0 < y) by nia. pose proof (fadd_good p k f P G) as G'.
    assert (V : (inject_Z y * value (fadd p k f) == inject_Z x * value f)%Q). { rewrite value_fadd by lia. rewrite Ex, inj_mul, Zpower_Qpower by lia. ring. }
    destruct (y =? 1) eqn:E1.
    + eexists. split; [reflexivity|]. split; [assumption|]. rewrite <- V. replace y with 1 by lia. ring.
    + destruct (IH y (fadd p k f) Y) as (f' & Ef & Gf & Vf); [|assumption|].
      * intros q Pq Dq. destruct (D q Pq) as [<-|I]; [rewrite Ex; now apply Z.divide_mul_r|contradiction|assumption].
      * exists f'. split; [assumption|]. split; [assumption|]. now rewrite Vf.
Qed.
Lemma frational_ok x s : 0 < x -> pinv s -> exists f s', frational_of x s = Ok (f, s') /\ pinv s' /\ plimit s' = Z.max (plimit s) x /\ fgood f /\ (value f == inject_Z x)%Q.
Proof.
  intros X I. unfold frational_of. destruct (extend_ok x s I) as (s' & E & I' & L). rewrite E. cbn [bind]. destruct I' as [L' [S' T]].
  destruct (factorise_ok (plist s')) with (x := x) (f := @nil (Z * Z)) as (f & Ef & G & V); [apply Forall_forall; intros p Ip; now apply T in Ip|assumption| |apply nil_good|].
  - intros q Pq Dq. apply T. split; [assumption|]. pose proof (Z.divide_pos_le q x X Dq). lia.
  - rewrite Ef. cbn [bind]. exists f, s'. split; [reflexivity|]. split; [split; [assumption|split; assumption]|]. split; [assumption|]. split; [assumption|]. rewrite V. cbn. ring.
Qed.

(* unique factorisation *)
Definition num (f : factors) : Z := fold_right (fun x a => fst x ^ Z.max (snd x) 0 * a) 1 f.
Definition den (f : factors) : Z := fold_right (fun x a => fst x ^ Z.max (- snd x) 0 * a) 1 f.
Lemma num_pos f : keys_pos f -> 0 < num f.
Proof. induction 1 as [|x f P F IH]; cbn; [lia|]. pose proof (pow_pos (fst x) (Z.max (snd x) 0) (prime_ge2 _ P) ltac:(lia)). unfold num in IH. nia. Qed.
Lemma den_pos f : keys_pos f -> 0 < den f.
Proof. induction 1 as [|x f P F IH]; cbn; [lia|]. pose proof (pow_pos (fst x) (Z.max (- snd x) 0) (prime_ge2 _ P) ltac:(lia)). unfold den in IH. nia. Qed.
Lemma value_num_den f : keys_pos f -> (value f * inject_Z (den f) == inject_Z (num f))%Q.
Proof.
  induction 1 as [|[p e] f P F IH]; cbn [value num den fold_right fst snd]; [ring|]. fold (value f) (num f) (den f). rewrite !inj_mul. cbn [fst] in P. pose proof (prime_ge2 p P).
  assert (E : (Qpower (inject_Z p) e * inject_Z (p ^ Z.max (- e) 0) == inject_Z (p ^ Z.max e 0))%Q).
  { rewrite !Zpower_Qpower by lia. rewrite <- Qpower_plus by (apply inj_nz; lia). replace (e + Z.max (- e) 0) with (Z.max e 0) by lia. reflexivity. }
  rewrite <- E, <- IH. ring.
Qed.
Lemma prime_pow p q k : prime p -> prime q -> 0 <= k -> (p | q ^ k) -> p = q /\ 0 < k.
Proof.
  intros P Q K. pattern k. apply natlike_ind; [| |assumption]; clear k K.
  - rewrite Z.pow_0_r. intro D. apply Z.divide_1_r_nonneg in D; pose proof (prime_ge2 p P); lia.
  - intros k K IH D. rewrite Z.pow_succ_r in D by lia. split; [|lia]. apply prime_mult in D; [|assumption]. destruct D as [D|D]; [now apply prime_div_prime|]. now apply IH.
Qed.
Lemma num_div f p : fgood f -> prime p -> ((p | num f) <-> 0 < expo p f).
Proof.
  intros [W K] P. induction K as [|[q e] f Q K IH]; [cbn; split; [|unfold expo; cbn; lia]; intro D; apply Z.divide_1_r_nonneg in D; pose proof (prime_ge2 p P); lia|].
  inversion W as [|? ? N W']; subst. specialize (IH W'). cbn [fst map] in *. cbn [num fold_right fst snd]. fold (num f). unfold expo in *. cbn [mfind]. destruct (q =? p) eqn:E.
  - replace q with p in * by lia. apply mfind_none in N. rewrite N in IH. split.
    + intro D. apply prime_mult in D; [|assumption]. destruct D as [D|D]; [|apply IH in D; lia]. apply prime_pow in D; auto; lia.
    + intro L. apply Z.divide_mul_l. replace (Z.max e 0) with (1 + (e - 1)) by lia. rewrite Z.pow_add_r, Z.pow_1_r by lia. apply Z.divide_factor_l.
  - rewrite <- IH. split; [|apply Z.divide_mul_r]. intro D. apply prime_mult in D; [|assumption]. destruct D as [D|D]; [|assumption]. apply prime_pow in D; auto; lia.
Qed.
Lemma den_div f p : fgood f -> prime p -> ((p | den f) <-> expo p f < 0).
Proof.
  intros [W K] P. induction K as [|[q e] f Q K IH]; [cbn; split; [|unfold expo; cbn; lia]; intro D; apply Z.divide_1_r_nonneg in D; pose proof (prime_ge2 p P); lia|].
  inversion W as [|? ? N W']; subst. specialize (IH W'). cbn [fst map] in *. cbn [den fold_right fst snd]. fold (den f). unfold expo in *. cbn [mfind]. destruct (q =? p) eqn:E.
  - replace q with p in * by lia. apply mfind_none in N. rewrite N in IH. split.
    + intro D. apply prime_mult in D; [|assumption]. destruct D as [D|D]; [|apply IH in D; lia]. apply prime_pow in D; auto; lia.
    + intro L. apply Z.divide_mul_l. replace (Z.max (- e) 0) with (1 + (- e - 1)) by lia. rewrite Z.pow_add_r, Z.pow_1_r by lia. apply Z.divide_factor_l.
  - rewrite <- IH. split; [|apply Z.divide_mul_r]. intro D. apply prime_mult in D; [|assumption]. destruct D as [D|D]; [|assumption]. apply prime_pow in D; auto; lia.
Qed.
Lemma num_den_coprime f : fgood f -> Z.gcd (num f) (den f) = 1.
Proof.
  intro G. pose proof (Z.gcd_nonneg (num f) (den f)). pose proof (num_pos f (proj2 G)). assert (Z.gcd (num f) (den f) <> 0) by (intro E; apply Z.gcd_eq_0_l in E; lia).
  destruct (Z.eq_dec (Z.gcd (num f) (den f)) 1) as [|N]; [assumption|]. destruct (prime_factor (Z.gcd (num f) (den f)) ltac:(lia)) as (p & P & D).
  assert (A : (p | num f)) by (eapply Z.divide_trans; [exact D|apply Z.gcd_divide_l]). assert (B : (p | den f)) by (eapply Z.divide_trans; [exact D|apply Z.gcd_divide_r]).
  apply num_div in A; auto. apply den_div in B; auto. lia.
Qed.
Lemma expo_notprime f p : fgood f -> ~ prime p -> expo p f = 0.
Proof.
  intros [W K] N. unfold expo. destruct (mfind p f) as [e|] eqn:E; [|reflexivity]. apply mfind_in in E. unfold keys_pos in K. rewrite Forall_forall in K. now apply K in E.
Qed.
Lemma value_one f : fgood f -> (value f == 1)%Q -> forall p, expo p f = 0.
Proof.
  intros G V p. destruct (prime_dec p) as [P|N]; [|now apply expo_notprime]. pose proof (value_num_den f (proj2 G)) as E. rewrite V, Qmult_1_l in E. assert (E' : den f = num f) by (apply inject_Z_injective; exact E).
  pose proof (num_div f p G P). pose proof (den_div f p G P). rewrite E' in *. destruct (Z.lt_trichotomy (expo p f) 0) as [L|[L|L]]; [|assumption|]; exfalso; tauto || (assert (expo p f < 0) by tauto; lia) || (assert (0 < expo p f) by tauto; lia).
Qed.
Lemma value_pos f : keys_pos f -> (0 < value f)%Q.
Proof.
  induction 1 as [|[p e] f P F IH]; cbn [value fold_right fst snd]; [reflexivity|]. fold (value f). cbn [fst] in P. pose proof (prime_ge2 p P). apply Qmult_lt_0_compat; [|assumption]. apply Qpower_0_lt. unfold Qlt. cbn. lia.
Qed.
Lemma value_inj f g : fgood f -> fgood g -> ((value f == value g)%Q <-> forall p, expo p f = expo p g).
Proof.
  intros F G. destruct (frdiv_ok f g F G) as (A & B & C). pose proof (value_pos g (proj2 G)) as Pg. assert (Ng : ~ (value g == 0)%Q) by (intro E; rewrite E in Pg; discriminate Pg). split.
  - intros V p. assert (V1 : (value (frdiv f g) == 1)%Q) by (rewrite C, V; field; assumption). pose proof (value_one _ A V1 p) as E. rewrite B in E. lia.
  - intro E. assert (Z0 : forall p, expo p (frdiv f g) = 0) by (intro p; rewrite B, E; lia).
    assert (V1 : (value (frdiv f g) == 1)%Q). { generalize dependent (frdiv f g). intros h W B' C' Z0. destruct W as [W _]. unfold value. clear - W Z0. 
      assert (H : forall x, In x h -> snd x = 0). { intros [k e] I. apply mfind_iff in I; [|assumption]. specialize (Z0 k). unfold expo in Z0. rewrite I in Z0. exact Z0. }
      clear - H. induction h as [|x h IH]; cbn; [reflexivity|]. rewrite IH by (intros; apply H; now right). rewrite (H x) by now left. reflexivity. }
    rewrite C in V1. assert (E2 : (value f == value f / value g * value g)%Q) by (field; assumption). rewrite E2, V1. ring.
Qed.
Lemma num_one f : fgood f -> (p_not_one f = true <-> num f <> 1).
Proof.
  intro G. pose proof (num_pos f (proj2 G)). split.
  - unfold p_not_one. rewrite existsb_exists. intros ([p e] & I & L) E. cbn in L. pose proof (proj2 G) as K. unfold keys_pos in K. rewrite Forall_forall in K. pose proof (K _ I) as P. cbn in P.
    apply mfind_iff in I; [|apply G]. assert (D : (p | num f)) by (apply num_div; auto; unfold expo; rewrite I; lia). rewrite E in D. apply Z.divide_1_r_nonneg in D; pose proof (prime_ge2 p P); lia.
  - intro N. destruct (prime_factor (num f) ltac:(lia)) as (p & P & D). apply num_div in D; auto. unfold p_not_one. apply existsb_exists. unfold expo in D. destruct (mfind p f) as [e|] eqn:E; [|lia]. apply mfind_in in E. exists (p, e). split; [assumption|cbn; lia].
Qed.
Lemma den_one f : fgood f -> (q_not_one f = true <-> den f <> 1).
Proof.
  intro G. pose proof (den_pos f (proj2 G)). split.
  - unfold q_not_one. rewrite existsb_exists. intros ([p e] & I & L) E. cbn in L. pose proof (proj2 G) as K. unfold keys_pos in K. rewrite Forall_forall in K. pose proof (K _ I) as P. cbn in P.
    apply mfind_iff in I; [|apply G]. assert (D : (p | den f)) by (apply den_div; auto; unfold expo; rewrite I; lia). rewrite E in D. apply Z.divide_1_r_nonneg in D; pose proof (prime_ge2 p P); lia.
  - intro N. destruct (prime_factor (den f) ltac:(lia)) as (p & P & D). apply den_div in D; auto. unfold q_not_one. apply existsb_exists. unfold expo in D. destruct (mfind p f) as [e|] eqn:E; [|lia]. apply mfind_in in E. exists (p, e). split; [assumption|cbn; lia].
Qed.
