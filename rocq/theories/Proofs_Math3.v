(* Proofs_Math3.v -- factored factorials and expressions, machine factorials, modular numbers. *)
From Verif Require Import Base BaseFacts Map Model_Index Model_View Spec_Index Proofs_Index Model_Math Spec_Math Proofs_Math Proofs_Math2.
Local Open Scope Z_scope.

Lemma zfact_succ n : 0 <= n -> zfact (n + 1) = zfact n * (n + 1).
Proof. intro H. unfold zfact. replace (Z.to_nat (n + 1)) with (S (Z.to_nat n)) by lia. change (fact (S (Z.to_nat n))) with (S (Z.to_nat n) * fact (Z.to_nat n))%nat. rewrite Nat2Z.inj_mul. lia. Qed.
Lemma zfact_pos n : 0 < zfact n. Proof. unfold zfact. pose proof (lt_O_fact (Z.to_nat n)). lia. Qed.
Fixpoint zf (k : nat) : Z := match k with O => 1 | S k => zf k * Z.of_nat (S k) end.
Lemma zfact_zf k : zfact (Z.of_nat k) = zf k.
Proof. induction k as [|k IH]; [reflexivity|]. cbn [zf]. rewrite <- IH. replace (Z.of_nat (S k)) with (Z.of_nat k + 1) by lia. apply zfact_succ. lia. Qed.
Lemma zfact_12 : zfact 12 = 479001600. Proof. exact (zfact_zf 12). Qed.
Lemma zfact_13 : zfact 13 = 6227020800. Proof. exact (zfact_zf 13). Qed.
Definition finv (t : ffact) : Prop :=
  pinv (fprimes t) /\ (0 < length (fvec t))%nat /\ forall i f, nth_error (fvec t) i = Some f -> fgood f /\ (value f == inject_Z (zfact (Z.of_nat i)))%Q.
Lemma with_primes_inv t s : finv t -> pinv s -> finv (FF (fvec t) s). Proof. intros (_ & A & B) I. split; [exact I|]. split; assumption. Qed.
Lemma ffact_new_inv s : pinv s -> exists t, ffact_new s = Ok t /\ finv t.
Proof.
  intro I. unfold ffact_new. destruct (frational_ok 1 s ltac:(lia) I) as (f & s' & E & I' & _ & G & V). rewrite E. cbn [bind]. eexists. split; [reflexivity|]. split; [exact I'|]. split; [cbn; lia|].
  intros [|i] g H; cbn in H; [|destruct i; discriminate]. injection H as <-. split; [assumption|]. rewrite V. reflexivity.
Qed.
Lemma nth_error_zget {A} (l : list A) i x : zget l i = Ok x <-> 0 <= i /\ nth_error l (Z.to_nat i) = Some x.
Proof. unfold zget, vget. destruct (i <? 0) eqn:E; [split; [discriminate|lia]|]. destruct (nth_error l (Z.to_nat i)); (split; [intro H; split; [lia|congruence]|intros [_ H]; congruence]). Qed.
Lemma ffact_step_ok t : finv t -> exists t', ffact_step (Z.of_nat (length (fvec t))) t = Ok t' /\ finv t' /\ length (fvec t') = S (length (fvec t)).
Proof.
  intros (I & L & F). unfold ffact_step. set (n := Z.of_nat (length (fvec t))) in *. destruct (frational_ok n (fprimes t) ltac:(unfold n; lia) I) as (f & s' & E & I' & _ & G & V). rewrite E. cbn [bind].
  destruct (nth_error (fvec t) (Z.to_nat (n - 1))) as [g|] eqn:En; [|apply nth_error_None in En; unfold n in En; lia]. rewrite (proj2 (nth_error_zget (fvec t) (n - 1) g)) by (split; [unfold n; lia|exact En]). cbn [bind].
  eexists. split; [reflexivity|]. cbn [fvec fprimes]. destruct (F _ _ En) as [Gg Vg]. destruct (frmul_ok g f Gg G) as (A & _ & C). split; [|rewrite app_length; cbn; lia].
  split; [exact I'|]. cbn [fvec]. split; [rewrite app_length; lia|]. intros i h H. cbn [fvec] in H. destruct (Nat.lt_ge_cases i (length (fvec t))) as [Li|Li].
  - rewrite nth_error_app1 in H by assumption. now apply F.
  - rewrite nth_error_app2 in H by assumption. destruct (i - length (fvec t))%nat as [|k] eqn:Ek; cbn in H; [|destruct k; discriminate]. injection H as <-. split; [assumption|]. rewrite C, Vg, V, <- inj_mul.
    replace (Z.of_nat (Z.to_nat (n - 1))) with (n - 1) by (unfold n; lia). replace (Z.of_nat i) with (n - 1 + 1) by (unfold n; lia). rewrite zfact_succ by (unfold n; lia). replace (n - 1 + 1) with n by lia. reflexivity.
Qed.
Lemma ffact_loop k : forall t, finv t -> exists t', foldM ffact_step (map (Z.add (Z.of_nat (length (fvec t)))) (zrange (Z.of_nat k))) t = Ok t' /\ finv t' /\ length (fvec t') = (length (fvec t) + k)%nat.
Proof.
  intros t I. induction k as [|k IH].
  - exists t. cbn. split; [reflexivity|]. split; [assumption|lia].
  - destruct IH as (t' & E & I' & L). replace (Z.of_nat (S k)) with (Z.of_nat k + 1) by lia. rewrite zrange_succ by lia. rewrite map_app, foldM_app, E. cbn [bind map foldM].
    replace (Z.of_nat (length (fvec t)) + Z.of_nat k) with (Z.of_nat (length (fvec t'))) by lia. destruct (ffact_step_ok t' I') as (t2 & E2 & I2 & L2). rewrite E2. cbn [bind]. exists t2. split; [reflexivity|]. split; [assumption|lia].
Qed.
Lemma ffactorial_ok n t : 0 <= n -> finv t -> exists f t', ffactorial n t = Ok (f, t') /\ finv t' /\ fgood f /\ (value f == inject_Z (zfact n))%Q.
Proof.
  intros N I. unfold ffactorial, ffact_extend. set (m := Z.of_nat (length (fvec t))). assert (H : exists t', (if (0 <=? n) && (n <? m) then Ok t else foldM ffact_step (map (Z.add m) (zrange (n - m + 1))) t) = Ok t' /\ finv t' /\ n < Z.of_nat (length (fvec t'))).
  { destruct ((0 <=? n) && (n <? m)) eqn:E; [exists t; split; [reflexivity|]; split; [assumption|unfold m in E; lia]|].
    destruct (ffact_loop (Z.to_nat (n - m + 1)) t I) as (t' & E' & I' & L). exists t'. fold m in E'. rewrite Z2Nat.id in E' by lia. split; [assumption|]. split; [assumption|]. unfold m in *. lia. }
  destruct H as (t' & E & I' & L). rewrite E. cbn [bind]. destruct (nth_error (fvec t') (Z.to_nat n)) as [f|] eqn:En; [|apply nth_error_None in En; lia].
  rewrite (proj2 (nth_error_zget (fvec t') n f)) by auto. cbn [bind]. exists f, t'. split; [reflexivity|]. split; [assumption|]. destruct (proj2 (proj2 I') _ _ En) as [G V]. split; [assumption|]. rewrite Z2Nat.id in V by assumption. exact V.
Qed.

Lemma dkey_eqb_eq k l : dkey_eqb k l = true <-> k = l.
Proof. destruct k as [[a b] c], l as [[x y] z]. unfold dkey_eqb. split; [intro; repeat f_equal; lia|intros [= -> -> ->]; lia]. Qed.
Definition delta_ok (k : dkey) (f : factors) : Prop := let '(a, b, c) := k in fgood f /\ (value f == delta2 a b c)%Q.
Definition dinv (d : dfact) : Prop := finv (dff d) /\ forall k f, In (k, f) (dmap d) -> delta_ok k f.
Lemma dfind_in k m f : dfind k m = Some f -> In (k, f) m.
Proof. induction m as [|[l g] m IH]; cbn; [discriminate|]. destruct (dkey_eqb l k) eqn:E; [|auto]. intros [= ->]. apply dkey_eqb_eq in E. subst. now left. Qed.
Lemma delta_make_ok a b c t : proper (EDelta a b c) -> finv t -> exists f t', delta_make (a, b, c) t = Ok (f, t') /\ finv t' /\ fgood f /\ (value f == delta2 a b c)%Q.
Proof.
  intros (A & B & C) I. unfold delta_make. destruct (ffactorial_ok (a + b - c) t A I) as (r & t1 & E1 & I1 & G1 & V1). rewrite E1. cbn [bind].
  destruct (ffactorial_ok (a - b + c) t1 B I1) as (u & t2 & E2 & I2 & G2 & V2). rewrite E2. cbn [bind]. destruct (ffactorial_ok (- a + b + c) t2 C I2) as (v & t3 & E3 & I3 & G3 & V3). rewrite E3. cbn [bind].
  destruct (ffactorial_ok (a + b + c + 1) t3 ltac:(lia) I3) as (w & t4 & E4 & I4 & G4 & V4). rewrite E4. cbn [bind]. eexists _, _. split; [reflexivity|]. split; [assumption|].
  destruct (frmul_ok r u G1 G2) as (Ga & _ & Va). destruct (frmul_ok _ v Ga G3) as (Gb & _ & Vb). destruct (frdiv_ok _ w Gb G4) as (Gc & _ & Vc). split; [assumption|].
  unfold delta2. rewrite Vc, Vb, Va, V1, V2, V3, V4, !inj_mul. reflexivity.
Qed.
Lemma eval_ok e : proper e -> forall d, dinv d -> exists f d', eval e d = Ok (f, d') /\ dinv d' /\ fgood f /\ (value f == number e)%Q.
Proof.
  induction e as [n|p q|a IHa b IHb|a IHa n|a IHa b IHb|n|a b c]; intros P d [I D]; cbn [eval number proper] in *; unfold on_primes.
  - destruct (frational_ok n (fprimes (dff d)) P (proj1 I)) as (f & s & E & Is & _ & G & V). rewrite E. cbn [bind]. eexists _, _. split; [reflexivity|]. split; [|split; assumption]. split; [now apply with_primes_inv|assumption].
  - unfold frational_pq. destruct P as [P Q]. destruct (frational_ok p (fprimes (dff d)) P (proj1 I)) as (f & s & E & Is & _ & G & V). rewrite E. cbn [bind]. destruct (frational_ok q s Q Is) as (g & s2 & E2 & Is2 & _ & G2 & V2). rewrite E2. cbn [bind].
    destruct (frdiv_ok f g G G2) as (A & _ & C). eexists _, _. split; [reflexivity|]. split; [split; [now apply with_primes_inv|assumption]|]. split; [assumption|]. rewrite C, V, V2. reflexivity.
  - destruct P as [Pa Pb]. destruct (IHa Pa d (conj I D)) as (f & d1 & E1 & D1 & G1 & V1). rewrite E1. cbn [bind]. destruct (IHb Pb d1 D1) as (g & d2 & E2 & D2 & G2 & V2). rewrite E2. cbn [bind].
    destruct (frmul_ok f g G1 G2) as (A & _ & C). eexists _, _. split; [reflexivity|]. split; [assumption|]. split; [assumption|]. rewrite C, V1, V2. reflexivity.
  - destruct P as [Pa Pn]. destruct (IHa Pa d (conj I D)) as (f & d1 & E1 & [I1 D1] & G1 & V1). rewrite E1. cbn [bind]. unfold frmul_int. destruct (frational_ok n (fprimes (dff d1)) Pn (proj1 I1)) as (g & s & E & Is & _ & G & V). rewrite E. cbn [bind].
    destruct (frmul_ok f g G1 G) as (A & _ & C). eexists _, _. split; [reflexivity|]. split; [split; [now apply with_primes_inv|assumption]|]. split; [assumption|]. rewrite C, V, V1. reflexivity.
  - destruct P as [Pa Pb]. destruct (IHa Pa d (conj I D)) as (f & d1 & E1 & D1 & G1 & V1). rewrite E1. cbn [bind]. destruct (IHb Pb d1 D1) as (g & d2 & E2 & D2 & G2 & V2). rewrite E2. cbn [bind].
    destruct (frdiv_ok f g G1 G2) as (A & _ & C). eexists _, _. split; [reflexivity|]. split; [assumption|]. split; [assumption|]. rewrite C, V1, V2. reflexivity.
  - destruct (ffactorial_ok n (dff d) P I) as (f & t & E & It & G & V). rewrite E. cbn [bind]. eexists _, _. split; [reflexivity|]. split; [split; assumption|]. split; assumption.
  - unfold delta_squared. destruct (dfind (a, b, c) (dmap d)) as [f|] eqn:Ef.
    + apply dfind_in, D in Ef. destruct Ef as [G V]. exists f, d. split; [reflexivity|]. split; [split; assumption|]. split; assumption.
    + destruct (delta_make_ok a b c (dff d) P I) as (f & t & E & It & G & V). rewrite E. cbn [bind]. eexists _, _. split; [reflexivity|]. split; [|split; assumption]. split; [exact It|]. cbn [dmap]. intros k g [[= <- <-]|Hk]; [split; assumption|now apply D].
Qed.
Lemma eval_all_ok l : Forall proper l -> forall d, dinv d -> exists fs d', eval_all l d = Ok (fs, d') /\ dinv d' /\ Forall2 (fun e f => fgood f /\ (value f == number e)%Q) l fs.
Proof.
  induction 1 as [|e l P F IH]; intros d D; cbn [eval_all]; [exists [], d; split; [reflexivity|]; split; [assumption|constructor]|].
  destruct (eval_ok e P d D) as (f & d1 & E1 & D1 & G1 & V1). rewrite E1. cbn [bind]. destruct (IH d1 D1) as (fs & d2 & E2 & D2 & F2). rewrite E2. cbn [bind]. eexists _, _. split; [reflexivity|]. split; [assumption|]. constructor; auto.
Qed.
Lemma dfact_new_inv : exists d, dfact_new = Ok d /\ dinv d.
Proof. unfold dfact_new. destruct (ffact_new_inv no_primes no_primes_inv) as (t & E & I). rewrite E. cbn [bind]. eexists. split; [reflexivity|]. split; [exact I|]. intros k f []. Qed.
Lemma dinv_primes d : dinv d -> pinv (fprimes (dff d)). Proof. intros [[I _] _]. exact I. Qed.
(* whatever conversion is asked for, keys are primes *)
Lemma factorise_good ps : Forall prime ps -> forall x f f', fgood f -> factorise ps x f = Ok f' -> fgood f'.
Proof.
  induction 1 as [|p ps P F IH]; intros x f f' G E; cbn [factorise] in E; [injection E as <-; assumption|].
  destruct (divide_count _ x p 0) as [[y k]| |]; cbn [bind] in E; try discriminate. pose proof (fadd_good p k f P G). destruct (y =? 1); [injection E as <-; assumption|]. eapply IH; eassumption.
Qed.
Lemma frational_good x s f s' : pinv s -> frational_of x s = Ok (f, s') -> fgood f.
Proof.
  intros I E. unfold frational_of in E. destruct (extend_ok x s I) as (s1 & E1 & [_ [_ T]] & _). rewrite E1 in E. cbn [bind] in E. destruct (factorise (plist s1) x []) as [g| |] eqn:Ef; cbn [bind] in E; try discriminate. injection E as <- _.
  eapply factorise_good; [|apply nil_good|exact Ef]. apply Forall_forall. intros p Ip. now apply T in Ip.
Qed.
Lemma divide_zero p : p <> 0 -> forall fuel i, divide_count fuel 0 p i = UB.
Proof. intro P. induction fuel as [|fuel IH]; intro i; [reflexivity|]. cbn [divide_count]. rewrite crem_ok by assumption. rewrite Z.rem_0_l by assumption. cbn [bind Z.eqb]. rewrite cdiv_ok by assumption. rewrite Z.quot_0_l by assumption. cbn [bind]. apply IH. Qed.

(* ---- machine factorials ---- *)
Definition table (t : list Z) : Prop := (0 < length t)%nat /\ forall i x, nth_error t i = Some x -> x = zfact (Z.of_nat i).
Lemma fact_new_table : table fact_new. Proof. split; [cbn; lia|]. intros [|i] x H; cbn in H; [now injection H as <-|destruct i; discriminate]. Qed.
Lemma zfact_mono a b : 0 <= a <= b -> zfact a <= zfact b. Proof. intro H. unfold zfact. pose proof (fact_le (Z.to_nat a) (Z.to_nat b) ltac:(lia)). lia. Qed.
Lemma fact_step_ok t : table t -> zfact (Z.of_nat (length t)) <= int_max -> exists t', fact_step (Z.of_nat (length t)) t = Ok t' /\ table t' /\ length t' = S (length t).
Proof.
  intros [L T] B. unfold fact_step. set (n := Z.of_nat (length t)) in *. destruct (nth_error t (Z.to_nat (n - 1))) as [p|] eqn:En; [|apply nth_error_None in En; unfold n in En; lia].
  rewrite (proj2 (nth_error_zget t (n - 1) p)) by (split; [unfold n; lia|exact En]). cbn [bind]. apply T in En. replace (Z.of_nat (Z.to_nat (n - 1))) with (n - 1) in En by (unfold n; lia).
  assert (E : p * n = zfact n) by (rewrite En; replace n with (n - 1 + 1) at 2 3 by lia; rewrite zfact_succ by (unfold n; lia); reflexivity). unfold chk, fits_int. pose proof (zfact_pos n). rewrite E. replace (_ && _) with true by (unfold int_min; lia). cbn [bind].
  eexists. split; [reflexivity|]. split; [|rewrite app_length; cbn; lia]. split; [rewrite app_length; lia|]. intros i x H'. destruct (Nat.lt_ge_cases i (length t)) as [Li|Li]; [rewrite nth_error_app1 in H' by assumption; now apply T|].
  rewrite nth_error_app2 in H' by assumption. destruct (i - length t)%nat as [|k] eqn:Ek; cbn in H'; [|destruct k; discriminate]. injection H' as <-. f_equal. unfold n. lia.
Qed.
Lemma fact_loop k : forall t, table t -> zfact (Z.of_nat (length t + k) - 1) <= int_max -> exists t', foldM fact_step (map (Z.add (Z.of_nat (length t))) (zrange (Z.of_nat k))) t = Ok t' /\ table t' /\ length t' = (length t + k)%nat.
Proof.
  intros t I. induction k as [|k IH]; intro B.
  - exists t. cbn. split; [reflexivity|]. split; [assumption|lia].
  - pose proof (zfact_mono (Z.of_nat (length t + k) - 1) (Z.of_nat (length t + S k) - 1) ltac:(destruct I; lia)). destruct IH as (t' & E & I' & L); [lia|]. replace (Z.of_nat (S k)) with (Z.of_nat k + 1) by lia. rewrite zrange_succ by lia. rewrite map_app, foldM_app, E. cbn [bind map foldM].
    replace (Z.of_nat (length t) + Z.of_nat k) with (Z.of_nat (length t')) by lia. destruct (fact_step_ok t' I') as (t2 & E2 & I2 & L2); [replace (Z.of_nat (length t')) with (Z.of_nat (length t + S k) - 1) by lia; assumption|]. rewrite E2. cbn [bind]. exists t2. split; [reflexivity|]. split; [assumption|lia].
Qed.
Lemma factorial_ok n t : 0 <= n -> zfact n <= int_max -> table t -> exists t', factorial n t = Ok (zfact n, t') /\ table t'.
Proof.
  intros N B T. unfold factorial. replace (n <? -1) with false by lia. replace (n <? 0) with false by lia. set (m := Z.of_nat (length t)).
  assert (H : exists t', (if n <? m then Ok t else foldM fact_step (map (Z.add m) (zrange (n - m + 1))) t) = Ok t' /\ table t' /\ n < Z.of_nat (length t')).
  { destruct (n <? m) eqn:E; [exists t; split; [reflexivity|]; split; [assumption|unfold m in E; lia]|].
    destruct (fact_loop (Z.to_nat (n - m + 1)) t T) as (t' & E' & I' & L); [replace (Z.of_nat _ - 1) with n by (unfold m in *; lia); assumption|]. exists t'. fold m in E'. rewrite Z2Nat.id in E' by lia. split; [assumption|]. split; [assumption|]. unfold m in *. lia. }
  destruct H as (t' & E & I' & L). assert (G : zget t' n = Ok (zfact n)).
  { destruct (nth_error t' (Z.to_nat n)) as [f|] eqn:En; [|apply nth_error_None in En; lia]. apply nth_error_zget. split; [assumption|]. rewrite En. apply (proj2 I') in En. rewrite Z2Nat.id in En by assumption. now subst. }
  exists t'. split; [|assumption]. destruct (n <? m); [injection E as ->|rewrite E]; cbn [bind]; rewrite G; reflexivity.
Qed.
Lemma factorials_ok l : Forall (fun n => 0 <= n /\ zfact n <= int_max) l -> forall t, table t -> exists t', factorials l t = Ok (map zfact l, t') /\ table t'.
Proof.
  induction 1 as [|n l [N B] F IH]; intros t T; cbn [factorials]; [exists t; auto|]. destruct (factorial_ok n t N B T) as (t1 & E1 & T1). rewrite E1. cbn [bind]. destruct (IH t1 T1) as (t2 & E2 & T2). rewrite E2. cbn [bind]. exists t2. auto.
Qed.

(* ---- modular numbers ---- *)
Lemma ceval_ok n e : 0 < n <= 2 ^ 30 -> exists x, ceval n e = Ok x /\ cn x = n /\ Z.abs (cv x) < n /\ cv x mod n = integer e mod n.
Proof.
  intro N. assert (R : forall v, exists x, cyc n v = Ok x /\ cn x = n /\ Z.abs (cv x) < n /\ cv x mod n = v mod n).
  { intro v. unfold cyc. rewrite crem_ok by lia. cbn [bind]. eexists. split; [reflexivity|]. cbn [cn cv]. split; [reflexivity|]. pose proof (Z.rem_bound_abs v n ltac:(lia)). split; [lia|].
    pose proof (Z.quot_rem' v n) as Q. rewrite Q at 2. rewrite Z.add_comm, Z.mul_comm, Z.mod_add by lia. reflexivity. }
  assert (C : forall z, Z.abs z <= 2147483647 -> chk z = Ok z) by (intros z Hz; unfold chk, fits_int, int_min, int_max; now replace (_ && _) with true by lia).
  induction e as [v|a (x & Ea & Na & Ba & Ma) b (y & Eb & Nb & Bb & Mb)|a (x & Ea & Na & Ba & Ma) b (y & Eb & Nb & Bb & Mb)|a (x & Ea & Na & Ba & Ma)]; cbn [ceval integer].
  - apply R.
  - rewrite Ea. cbn [bind]. rewrite Eb. cbn [bind]. unfold cyc_add. rewrite C by lia. cbn [bind]. rewrite Na. destruct (R (cv x + cv y)) as (z & Ez & Nz & Bz & Mz). exists z. repeat (split; [assumption|]). rewrite Mz, Zplus_mod, Ma, Mb, <- Zplus_mod. reflexivity.
  - rewrite Ea. cbn [bind]. rewrite Eb. cbn [bind]. unfold cyc_sub. rewrite C by lia. cbn [bind]. rewrite Na. destruct (R (cv x - cv y)) as (z & Ez & Nz & Bz & Mz). exists z. repeat (split; [assumption|]). rewrite Mz, Zminus_mod, Ma, Mb, <- Zminus_mod. reflexivity.
  - rewrite Ea. cbn [bind]. unfold cyc_neg. rewrite Na. rewrite C by lia. cbn [bind]. destruct (R (n - cv x)) as (z & Ez & Nz & Bz & Mz). exists z. repeat (split; [assumption|]). rewrite Mz, Zminus_mod, Ma, Z.mod_same, <- (Z.mod_0_l n), <- Zminus_mod by lia. reflexivity.
Qed.
Lemma zfact_fits n : 0 <= n -> (zfact n <= int_max <-> n <= 12).
Proof.
  intro N. split; intro H.
  - destruct (Z.lt_ge_cases n 13) as [L|L]; [lia|]. pose proof (zfact_mono 13 n ltac:(lia)) as M. rewrite zfact_13 in M. unfold int_max in H. lia.
  - pose proof (zfact_mono n 12 ltac:(lia)) as M. rewrite zfact_12 in M. unfold int_max. lia.
Qed.
