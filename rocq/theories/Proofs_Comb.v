(* Proofs_Comb.v -- combinations: enumeration, ranks, counts. *)
From Verif Require Import Base BaseFacts Model_Index Proofs_Index Model_BG Model_Comb Spec_Math Spec_Comb.
From Coq Require Import Sorting.Sorted.
Local Open Scope Z_scope.

(* the m-element combinations of n in lexicographic order *)
Definition lift (i : Z) (x : list Z) : list Z := i :: map (fun v => v + (i + 1)) x.
Fixpoint combs (k : nat) (n : Z) : list (list Z) :=
  match k with O => [[]] | S k => flat_map (fun i => map (lift i) (combs k (n - i - 1))) (zrange n) end.
Lemma sorted_map_add l c : StronglySorted Z.lt l <-> StronglySorted Z.lt (map (fun v => v + c) l).
Proof.
  induction l as [|a l IH]; [split; constructor|]. cbn [map]. split; intro H; inversion H as [|? ? H1 H2]; subst; constructor; try tauto.
  - apply Forall_forall. intros x Hx. apply in_map_iff in Hx. destruct Hx as (y & <- & Hy). rewrite Forall_forall in H2. specialize (H2 y Hy). lia.
  - apply Forall_forall. intros x Hx. rewrite Forall_forall in H2. specialize (H2 (x + c) ltac:(apply in_map_iff; eauto)). lia.
Qed.
Lemma increasing_cons n m a x : increasing n (m + 1) (a :: x) <-> 0 <= a < n /\ increasing (n - a - 1) m (map (fun v => v + - (a + 1)) x).
Proof.
  unfold increasing. rewrite map_length, <- sorted_map_add. cbn [length]. split.
  - intros (L & S' & F). inversion S' as [|? ? S1 S2]; subst. inversion F as [|? ? F1 F2]; subst. split; [assumption|]. split; [lia|]. split; [assumption|].
    apply Forall_forall. intros v Hv. apply in_map_iff in Hv. destruct Hv as (y & <- & Hy). rewrite Forall_forall in S2, F2. specialize (S2 y Hy). specialize (F2 y Hy). lia.
  - intros (A & L & S1 & F). split; [lia|]. rewrite Forall_forall in F. assert (G : forall y, In y x -> a < y < n) by (intros y Hy; specialize (F (y + - (a + 1)) ltac:(apply in_map_iff; eauto)); lia). split.
    + constructor; [assumption|]. apply Forall_forall. intros y Hy. now apply G.
    + constructor; [lia|]. apply Forall_forall. intros y Hy. specialize (G y Hy). lia.
Qed.
Lemma map_add_add x a : map (fun v => v + (a + 1)) (map (fun v => v + - (a + 1)) x) = x.
Proof. rewrite map_map. rewrite <- (map_id x) at 2. apply map_ext. intros; lia. Qed.
Lemma map_add_add' x a : map (fun v => v + - (a + 1)) (map (fun v => v + (a + 1)) x) = x.
Proof. rewrite map_map. rewrite <- (map_id x) at 2. apply map_ext. intros; lia. Qed.
Lemma in_combs k : forall n x, In x (combs k n) <-> increasing n (Z.of_nat k) x.
Proof.
  induction k as [|k IH]; intros n x.
  - cbn. split; [intros [<-|[]]; repeat constructor|]. intros (L & _). destruct x; [auto|cbn in L; lia].
  - replace (Z.of_nat (S k)) with (Z.of_nat k + 1) by lia. cbn [combs]. rewrite in_flat_map. split.
    + intros (i & Hi & Hx). apply in_zrange in Hi. apply in_map_iff in Hx. destruct Hx as (y & <- & Hy). apply IH in Hy. unfold lift. apply increasing_cons. rewrite map_add_add'. auto.
    + destruct x as [|a x]; [intros (L & _); cbn in L; lia|]. intro H. apply increasing_cons in H. destruct H as [Ha H]. exists a. split; [apply in_zrange; lia|]. apply in_map_iff. exists (map (fun v => v + - (a + 1)) x). split; [unfold lift; now rewrite map_add_add|]. now apply IH.
Qed.
Lemma lex_lift i x y : lex_lt x y -> lex_lt (lift i x) (lift i y).
Proof.
  unfold lift. intro H. cbn. right. split; [reflexivity|]. revert y H. induction x as [|a x IH]; intros [|b y] H; cbn in *; auto. destruct H as [H|[-> H]]; [left; lia|right; auto].
Qed.
Lemma sorted_app {A} (R : A -> A -> Prop) l1 l2 : StronglySorted R l1 -> StronglySorted R l2 -> (forall a b, In a l1 -> In b l2 -> R a b) -> StronglySorted R (l1 ++ l2).
Proof.
  induction l1 as [|a l1 IH]; intros S1 S2 H; cbn; [assumption|]. inversion S1 as [|? ? S3 S4]; subst. constructor; [apply IH; auto; intros; apply H; cbn; auto|].
  apply Forall_app. split; [assumption|]. apply Forall_forall. intros b Hb. apply H; cbn; auto.
Qed.
Lemma sorted_mapR {A B} (R : A -> A -> Prop) (Q : B -> B -> Prop) (f : A -> B) l : (forall a b, R a b -> Q (f a) (f b)) -> StronglySorted R l -> StronglySorted Q (map f l).
Proof.
  intros H S'. induction S' as [|a l S1 IH F]; cbn; constructor; auto. apply Forall_forall. intros x Hx. apply in_map_iff in Hx. destruct Hx as (y & <- & Hy). apply H. rewrite Forall_forall in F. auto.
Qed.
Lemma sorted_flat (f : Z -> list (list Z)) l : StronglySorted Z.lt l -> (forall i, StronglySorted lex_lt (map (lift i) (f i))) -> StronglySorted lex_lt (flat_map (fun i => map (lift i) (f i)) l).
Proof.
  intros S' H. induction S' as [|i l S1 IH F]; cbn; [constructor|]. apply sorted_app; auto. intros a b Ha Hb. apply in_map_iff in Ha. destruct Ha as (x & <- & _). apply in_flat_map in Hb. destruct Hb as (j & Hj & Hb). apply in_map_iff in Hb. destruct Hb as (y & <- & _). rewrite Forall_forall in F. left. auto.
Qed.
Lemma zrange_sorted n : StronglySorted Z.lt (zrange n).
Proof.
  unfold zrange. generalize 0%nat as s. induction (Z.to_nat n) as [|k IH]; intro s; cbn; constructor; [apply IH|]. apply Forall_forall. intros x Hx. apply in_map_iff in Hx. destruct Hx as (y & <- & Hy). apply in_seq in Hy. lia.
Qed.
Lemma combs_sorted k : forall n, StronglySorted lex_lt (combs k n).
Proof.
  induction k as [|k IH]; intro n; cbn [combs]; [repeat constructor|]. apply (sorted_flat (fun i => combs k (n - i - 1))); [apply zrange_sorted|]. intro i. apply sorted_mapR with (R := lex_lt); [intros; now apply lex_lift|apply IH].
Qed.
Lemma lex_irrefl x : ~ lex_lt x x. Proof. induction x as [|a x IH]; cbn; [auto|]. intros [H|[_ H]]; [lia|auto]. Qed.
Lemma sorted_nodup {A} (R : A -> A -> Prop) l : (forall x, ~ R x x) -> StronglySorted R l -> NoDup l.
Proof. intros I S'. induction S' as [|a l S1 IH F]; constructor; auto. intro Hin. rewrite Forall_forall in F. exact (I a (F a Hin)). Qed.
Lemma combs_nil k n : 0 <= n < Z.of_nat k -> combs k n = [].
Proof.
  intro H. destruct (combs k n) as [|x l] eqn:E; [reflexivity|]. assert (Hin : In x (combs k n)) by (rewrite E; left; reflexivity). apply in_combs in Hin. exfalso. clear E l. revert n x H Hin. induction k as [|k IH]; intros n x H Hin; [lia|].
  destruct x as [|a x]; [destruct Hin as (L & _); cbn in L; lia|]. replace (Z.of_nat (S k)) with (Z.of_nat k + 1) in Hin by lia. apply increasing_cons in Hin. destruct Hin as [Ha Hi]. eapply IH; [|exact Hi]. lia.
Qed.
Lemma combs_cons k n : combs (S k) n = flat_map (fun i => map (lift i) (combs k (n - i - 1))) (zrange (n - Z.of_nat k)).
Proof.
  cbn [combs]. destruct (Z.le_gt_cases n 0) as [N|N]; [rewrite !zrange_nil by lia; reflexivity|]. destruct (Z.le_gt_cases (Z.of_nat k) n) as [K|K].
  - rewrite (f_equal zrange (ltac:(lia) : n = (n - Z.of_nat k) + Z.of_nat k)) at 1. rewrite zrange_app by lia. rewrite flat_map_app. rewrite <- (app_nil_r (flat_map _ (zrange (n - Z.of_nat k)))) at 2. f_equal.
    rewrite flat_map_concat_map. rewrite (map_ext_in _ (fun _ => [])); [now induction (map _ (zrange (Z.of_nat k)))|]. intros i Hi. apply in_map_iff in Hi. destruct Hi as (j & <- & Hj). apply in_zrange in Hj. rewrite combs_nil by lia. reflexivity.
  - rewrite (zrange_nil (n - Z.of_nat k)) by lia. cbn. rewrite flat_map_concat_map. rewrite (map_ext_in _ (fun _ => [])); [now induction (zrange n)|]. intros i Hi. apply in_zrange in Hi. rewrite combs_nil by lia. reflexivity.
Qed.
Lemma combs_1 n : combs 1 n = map (fun i => [i]) (zrange n).
Proof. cbn [combs]. induction (zrange n) as [|a l IH]; [reflexivity|]. cbn [flat_map]. rewrite IH. reflexivity. Qed.
Lemma foldM_collect {A B} (f : A -> res (list B)) (g : A -> list B) l : (forall a, In a l -> f a = Ok (g a)) -> forall out, foldM (fun a out => do x <- f a; Ok (out ++ x)) l out = Ok (out ++ flat_map g l).
Proof. induction l as [|a l IH]; intros H out; cbn; [now rewrite app_nil_r|]. rewrite H by (left; reflexivity). cbn [bind]. rewrite IH by (intros; apply H; right; assumption). now rewrite app_assoc. Qed.
Lemma bind_assoc {A B C} (r : res A) (f : A -> res B) (g : B -> res C) : (do x <- (do y <- r; f y); g x) = (do y <- r; do x <- f y; g x).
Proof. now destruct r. Qed.
Lemma nth_error_zget {A} (l : list A) i : 0 <= i < Z.of_nat (length l) -> exists s, nth_error l (Z.to_nat i) = Some s /\ zget l i = Ok s.
Proof.
  intro H. destruct (nth_error l (Z.to_nat i)) as [s|] eqn:E; [|apply nth_error_None in E; lia]. exists s. split; [reflexivity|]. unfold zget, vget. replace (i <? 0) with false by lia. now rewrite E.
Qed.
Lemma for_each_ok k : forall n c, proper k n c -> for_each k c = Ok (combs k n).
Proof.
  induction k as [|k IH]; intros n c (Hn & Hm & P); [contradiction|]. cbn [for_each]. rewrite Hn, Hm. destruct k as [|k].
  - cbn [Z.of_nat Z.eqb]. now rewrite combs_1.
  - replace (Z.of_nat (S (S k)) =? 1) with false by lia. destruct P as [L P]. rewrite combs_cons. replace (n - Z.of_nat (S (S k)) + 1) with (n - Z.of_nat (S k)) by lia.
    rewrite (foldM_ext _ (fun i out => do x <- (do s <- zget (csub c) i; do l <- for_each (S k) s; Ok (map (lift i) l)); Ok (out ++ x))).
    + rewrite (foldM_collect _ (fun i => map (lift i) (combs (S k) (n - i - 1)))); [reflexivity|]. intros i Hi. apply in_zrange in Hi. destruct (nth_error_zget (csub c) i ltac:(lia)) as (s & E & ->). cbn [bind]. rewrite (IH (n - i - 1)); [reflexivity|]. specialize (P _ _ E). now rewrite Z2Nat.id in P by lia.
    + intros i out _. rewrite !bind_assoc. destruct (zget (csub c) i); cbn [bind]; [|reflexivity|reflexivity]. rewrite bind_assoc. reflexivity.
Qed.

(* ---- counts ---- *)
Lemma binom_nonneg n : forall m, 0 <= binom n m.
Proof. induction n as [|n IH]; intros [|m]; cbn; try lia. pose proof (IH m). pose proof (IH (S m)). cbn in *. lia. Qed.
Lemma flat_len {A} (f : Z -> list A) l : Z.of_nat (length (flat_map f l)) = fold_right Z.add 0 (map (fun i => Z.of_nat (length (f i))) l).
Proof. induction l as [|a l IH]; cbn; [reflexivity|]. rewrite app_length. lia. Qed.
Lemma combs_length k : forall n, Z.of_nat (length (combs k n)) = binom (Z.to_nat n) k.
Proof.
  induction k as [|k IH]; intro n; [cbn; destruct (Z.to_nat n); reflexivity|]. cbn [combs]. rewrite flat_len. rewrite (map_ext _ (fun i => binom (Z.to_nat (n - i - 1)) k)) by (intro i; rewrite map_length; apply IH).
  destruct (Z.le_gt_cases n 0) as [N|N]; [rewrite zrange_nil by lia; replace (Z.to_nat n) with 0%nat by lia; reflexivity|]. assert (G : forall j, fold_right Z.add 0 (map (fun i => binom (Z.to_nat (Z.of_nat j - i - 1)) k) (zrange (Z.of_nat j))) = binom j (S k)).
  { clear. induction j as [|j IHj]; [reflexivity|]. replace (Z.of_nat (S j)) with (1 + Z.of_nat j) by lia. rewrite zrange_app by lia. rewrite map_app, map_map. cbn [zrange Z.to_nat]. change (zrange 1) with [0]. cbn [map app fold_right]. rewrite (map_ext _ (fun i => binom (Z.to_nat (Z.of_nat j - i - 1)) k)) by (intro i; f_equal; lia). rewrite IHj. replace (Z.to_nat (1 + Z.of_nat j - 0 - 1)) with j by lia. reflexivity. }
  specialize (G (Z.to_nat n)). rewrite Z2Nat.id in G by lia. exact G.
Qed.
Lemma counted_proper k : forall n c, counted k n c -> proper k n c.
Proof.
  induction k as [|k IH]; intros n c (Hn & Hm & HN & P); [contradiction|]. split; [assumption|]. split; [assumption|]. destruct k as [|k]; [exact I|]. destruct P as [L P]. split; [assumption|]. intros i s E. apply IH. now apply P.
Qed.

(* ---- ranks ---- *)
Lemma nth_flat {A} (g : Z -> list A) N a u : 0 <= a < N -> (u < length (g a))%nat -> nth_error (flat_map g (zrange N)) (length (flat_map g (zrange a)) + u) = nth_error (g a) u.
Proof.
  intros Ha Hu. replace N with (a + (1 + (N - a - 1))) by lia. rewrite zrange_app by lia. rewrite flat_map_app. rewrite nth_error_app2 by lia. replace (_ + u - _)%nat with u by lia.
  rewrite zrange_app by lia. change (zrange 1) with [0]. cbn [map app flat_map]. replace (a + 0) with a by lia. now rewrite nth_error_app1.
Qed.
Lemma locate_ok {A} (g : Z -> list A) subs : forall j t i, t <= i -> (forall q s, nth_error subs q = Some s -> getN s = Ok (Z.of_nat (length (g (j + Z.of_nat q))))) ->
  i - t < Z.of_nat (length (flat_map g (map (Z.add j) (zrange (Z.of_nat (length subs)))))) ->
  exists q s t', nth_error subs q = Some s /\ locate i j t subs = Ok (j + Z.of_nat q, t', s) /\ 0 <= i - t' < Z.of_nat (length (g (j + Z.of_nat q))) /\
    nth_error (flat_map g (map (Z.add j) (zrange (Z.of_nat (length subs))))) (Z.to_nat (i - t)) = nth_error (g (j + Z.of_nat q)) (Z.to_nat (i - t')).
Proof.
  induction subs as [|s subs IH]; intros j t i Ht HN Hi; [change (zrange (Z.of_nat (length (@nil comb)))) with (@nil Z) in Hi; cbn in Hi; lia|]. cbn [length locate] in *. pose proof (HN 0%nat s eq_refl) as H0. replace (j + Z.of_nat 0) with j in H0 by lia. rewrite H0. cbn [bind].
  replace (Z.of_nat (S (length subs))) with (1 + Z.of_nat (length subs)) in * by lia. rewrite zrange_app in * by lia. change (zrange 1) with [0] in *. cbn [app map flat_map] in *. replace (j + 0) with j in * by lia. rewrite map_map in *.
  rewrite (map_ext (fun x => j + (1 + x)) (Z.add (j + 1))) in * by (intro; lia). rewrite app_length in Hi. destruct (t + Z.of_nat (length (g j)) <=? i) eqn:E.
  - destruct (IH (j + 1) (t + Z.of_nat (length (g j))) i ltac:(lia)) as (q & s' & t' & Eq & El & Hq & En).
    + intros q s' Es. rewrite (HN (S q) s' Es). replace (j + Z.of_nat (S q)) with (j + 1 + Z.of_nat q) by lia. reflexivity.
    + lia.
    + exists (S q), s', t'. replace (j + Z.of_nat (S q)) with (j + 1 + Z.of_nat q) by lia. repeat (split; [assumption|]). rewrite nth_error_app2 by lia. rewrite <- En. f_equal. lia.
  - exists 0%nat, s, t. replace (j + Z.of_nat 0) with j by lia. split; [reflexivity|]. split; [reflexivity|]. split; [lia|]. rewrite nth_error_app1 by lia. reflexivity.
Qed.
Lemma getN_counted k n c : counted k n c -> getN c = Ok (Z.of_nat (length (combs k n))).
Proof. intro H. unfold getN. destruct k; destruct H as (_ & _ & -> & _); now rewrite combs_length. Qed.
Lemma counted_sub k n c : counted (S (S k)) n c -> forall q s, nth_error (csub c) q = Some s -> counted (S k) (n - Z.of_nat q - 1) s.
Proof. intros (_ & _ & _ & _ & P). exact P. Qed.
Lemma map_add0 N : map (Z.add 0) (zrange N) = zrange N. Proof. rewrite (map_ext _ (fun x => x)) by (intro; lia). apply map_id. Qed.
Lemma at_index_ok k : forall n c i, counted k n c -> 0 <= i -> at_index k c i = match nth_error (combs k n) (Z.to_nat i) with Some x => Ok x | None => Throw end.
Proof.
  induction k as [|k IH]; intros n c i H Hi; [destruct H as (_ & _ & _ & [])|]. cbn [at_index]. rewrite (getN_counted _ _ _ H). cbn [bind]. destruct (i <? Z.of_nat (length (combs (S k) n))) eqn:E; unfold assrt.
  2:{ destruct (nth_error _ _) eqn:En; [|reflexivity]. assert (Z.to_nat i < length (combs (S k) n))%nat by (apply nth_error_Some; congruence). lia. }
  replace (cm c) with (Z.of_nat (S k)) by (symmetry; apply H). destruct k as [|k].
  - cbn [Z.of_nat Pos.of_succ_nat Z.eqb Pos.eqb]. rewrite combs_1 in E |- *. rewrite map_length, zrange_length in E. erewrite map_nth_error; [reflexivity|]. unfold zrange. rewrite nth_error_map. rewrite nth_error_nth' with (d := 0%nat) by (rewrite seq_length; lia). rewrite seq_nth by lia. cbn. f_equal. lia.
  - replace (Z.of_nat (S (S k)) =? 1) with false by lia. pose proof (counted_sub _ _ _ H) as P. assert (L : Z.of_nat (length (csub c)) = Z.max 0 (n - Z.of_nat (S k))) by (destruct H as (_ & _ & _ & L & _); lia).
    rewrite combs_cons in E |- *. destruct (locate_ok (fun i => map (lift i) (combs (S k) (n - i - 1))) (csub c) 0 0 i Hi) as (q & s & t' & Es & El & Ht & En).
    + intros q s Es. rewrite (getN_counted _ _ _ (P q s Es)), map_length. reflexivity.
    + rewrite map_add0, L. replace (zrange (Z.max 0 (n - Z.of_nat (S k)))) with (zrange (n - Z.of_nat (S k))) by (unfold zrange; do 2 f_equal; lia). lia.
    + rewrite map_add0, L in En. replace (zrange (Z.max 0 (n - Z.of_nat (S k)))) with (zrange (n - Z.of_nat (S k))) in En by (unfold zrange; do 2 f_equal; lia). rewrite Z.sub_0_r in En. rewrite En. rewrite El. cbn [bind]. change (0 + Z.of_nat q) with (Z.of_nat q) in *.
      rewrite (IH _ _ (i - t') (P q s Es) ltac:(lia)). rewrite nth_error_map. rewrite map_length in Ht. destruct (nth_error (combs (S k) (n - Z.of_nat q - 1)) (Z.to_nat (i - t'))) as [x|] eqn:Ex; [reflexivity|]. apply nth_error_None in Ex. lia.
Qed.
Lemma index_ok k : forall n c x, counted k n c -> In x (combs k n) -> exists i, index_of k c x = Ok i /\ 0 <= i /\ nth_error (combs k n) (Z.to_nat i) = Some x.
Proof.
  induction k as [|k IH]; intros n c x H Hx; [destruct H as (_ & _ & _ & [])|]. destruct k as [|k].
  - rewrite combs_1 in *. apply in_map_iff in Hx. destruct Hx as (i & <- & Hi). apply in_zrange in Hi. exists i. split; [reflexivity|]. split; [lia|]. erewrite map_nth_error; [reflexivity|]. unfold zrange. rewrite nth_error_map. rewrite nth_error_nth' with (d := 0%nat) by (rewrite seq_length; lia). rewrite seq_nth by lia. cbn. f_equal. lia.
  - pose proof (counted_sub _ _ _ H) as P. assert (L : Z.of_nat (length (csub c)) = Z.max 0 (n - Z.of_nat (S k))) by (destruct H as (_ & _ & _ & L & _); lia).
    rewrite combs_cons in *. apply in_flat_map in Hx. destruct Hx as (a & Ha & Hx). apply in_zrange in Ha. apply in_map_iff in Hx. destruct Hx as (y & <- & Hy).
    destruct (nth_error_zget (csub c) a ltac:(lia)) as (s & Es & Zs). pose proof (P _ _ Es) as Cs. rewrite Z2Nat.id in Cs by lia. destruct (IH _ _ _ Cs Hy) as (u & Eu & Hu & Nu).
    assert (Ly : length y = S k). { apply in_combs in Hy. destruct Hy as (Ly & _). lia. }
    set (g := fun i => map (lift i) (combs (S k) (n - i - 1))). exists (Z.of_nat (length (flat_map g (zrange a))) + u). split; [|split; [lia|]].
    + remember (S k) as k1. cbn [index_of]. unfold lift at 1. cbn [zget vget nth_error bind Z.ltb Z.compare Z.to_nat]. change (zget (a :: _) 0) with (Ok a). cbn [bind]. cbn [lift length]. rewrite map_length. replace (Z.of_nat (S (length y)) =? 1) with false by lia.
      assert (F : forall j, 0 <= j <= a -> foldM (fun i t => do s <- zget (csub c) i; do N <- getN s; Ok (t + N)) (zrange j) 0 = Ok (Z.of_nat (length (flat_map g (zrange j))))).
      { intros j Hj. rewrite <- (Z2Nat.id j) by lia. assert (Hj' : Z.of_nat (Z.to_nat j) <= a) by lia. revert Hj'. generalize (Z.to_nat j) as q. induction q as [|q IHq]; intro Hq; [reflexivity|]. replace (Z.of_nat (S q)) with (Z.of_nat q + 1) by lia. rewrite zrange_app by lia. change (zrange 1) with [0]. cbn [map]. rewrite foldM_app, IHq by lia. cbn [bind foldM]. rewrite Z.add_0_r.
        destruct (nth_error_zget (csub c) (Z.of_nat q) ltac:(lia)) as (s1 & E1 & ->). cbn [bind]. pose proof (P _ _ E1) as C1. rewrite Nat2Z.id in C1. rewrite (getN_counted _ _ _ C1). cbn [bind]. rewrite flat_map_app, app_length. cbn [flat_map]. rewrite app_nil_r. unfold g at 3. rewrite map_length. f_equal. lia. }
      rewrite F by lia. cbn [bind]. rewrite Zs. cbn [bind crest lift]. unfold shift. rewrite map_add_add'. rewrite Eu. reflexivity.
    + replace (Z.to_nat (Z.of_nat (length (flat_map g (zrange a))) + u)) with (length (flat_map g (zrange a)) + Z.to_nat u)%nat by lia. rewrite nth_flat.
      * unfold g. now apply map_nth_error.
      * assumption.
      * unfold g. rewrite map_length. apply nth_error_Some. congruence.
Qed.
(* ---- the bank ---- *)
Definition shown_count (n m : Z) : Z := fold_right Z.add 0 (map (fun i => n - i - 1) (zrange (n - m + 1))).
Definition made (junk : option Z) (n m : Z) (c : comb) : Prop := proper (Z.to_nat m) n c /\ cN c = if m =? 1 then Some n else oplus junk (shown_count n m).
Definition bank_ok (junk : option Z) (b : bank) : Prop := forall n m c, bfind n m b = Some c -> 1 <= m -> made junk n m c.
Lemma proper_cn k n c : proper k n c -> cn c = n. Proof. destruct k; intros (H & _); exact H. Qed.
Lemma oplus_add a x y : oplus (oplus a x) y = oplus a (x + y). Proof. destruct a; cbn; [f_equal; lia|reflexivity]. Qed.
Lemma bank_add junk b n m c : bank_ok junk b -> made junk n m c -> bank_ok junk ((n, m, c) :: b).
Proof. intros B M n' m' c' E Hm. cbn in E. destruct ((n =? n') && (m =? m')) eqn:K; [injection E as <-; assert (n = n') by lia; assert (m = m') by lia; now subst|]. now apply B. Qed.
Lemma cget_ok junk k : forall n m b, 1 <= m <= Z.of_nat k -> bank_ok junk b -> exists c b', cget junk k n m b = Ok (c, b') /\ made junk n m c /\ bank_ok junk b'.
Proof.
  induction k as [|k IH]; intros n m b Hm B; [lia|]. cbn [cget]. destruct (bfind n m b) as [c|] eqn:E; [exists c, b; split; [reflexivity|]; split; [apply B; [assumption|lia]|assumption]|]. destruct (m =? 1) eqn:E1.
  - assert (m = 1) by lia. subst m. eexists _, _. split; [reflexivity|]. assert (M : made junk n 1 (Comb n 1 (Some n) [])) by (split; [repeat split|reflexivity]). split; [assumption|]. now apply bank_add.
  - assert (G : forall j, 0 <= j <= Z.max 0 (n - m + 1) -> exists subs b', forZ j (fun i st => let '(N, subs, b) := st in do ' (s, b) <- cget junk k (n - i - 1) (m - 1) b; Ok (oplus N (cn s), subs ++ [s], b)) (junk, [], b) =
        Ok (oplus junk (fold_right Z.add 0 (map (fun i => n - i - 1) (zrange j))), subs, b') /\ bank_ok junk b' /\ Z.of_nat (length subs) = j /\ forall q s, nth_error subs q = Some s -> proper (Z.to_nat (m - 1)) (n - Z.of_nat q - 1) s).
    { intros j Hj. rewrite <- (Z2Nat.id j) by lia. assert (Hj' : Z.of_nat (Z.to_nat j) <= Z.max 0 (n - m + 1)) by lia. revert Hj'. generalize (Z.to_nat j) as q. clear j Hj. induction q as [|q IHq]; intro Hq.
      - exists [], b. unfold forZ. cbn. split; [destruct junk; cbn; [rewrite Z.add_0_r|]; reflexivity|]. split; [assumption|]. split; [reflexivity|]. intros [|q] s Hs; discriminate.
      - destruct (IHq ltac:(lia)) as (subs & b1 & E2 & B1 & L & P). unfold forZ in *. replace (Z.of_nat (S q)) with (Z.of_nat q + 1) by lia. rewrite zrange_app by lia. change (zrange 1) with [0]. cbn [map]. rewrite foldM_app, E2. cbn [bind foldM]. rewrite Z.add_0_r.
        destruct (IH (n - Z.of_nat q - 1) (m - 1) b1 ltac:(lia) B1) as (s & b2 & E3 & [Ps _] & B2). rewrite E3. cbn [bind]. exists (subs ++ [s]), b2. split.
        + rewrite oplus_add, (proper_cn _ _ _ Ps). rewrite map_app. cbn [map]. rewrite fold_right_app. cbn [fold_right]. do 4 f_equal. clear. induction (zrange (Z.of_nat q)) as [|a l IHl]; cbn; lia.
        + split; [assumption|]. split; [rewrite app_length; cbn; lia|]. intros q' s' Es. destruct (lt_dec q' (length subs)) as [Lt|Ge]; [rewrite nth_error_app1 in Es by assumption; now apply P|]. rewrite nth_error_app2 in Es by lia. destruct (q' - length subs)%nat as [|d] eqn:Ed; [|destruct d; discriminate]. cbn in Es. injection Es as <-. replace (Z.of_nat q') with (Z.of_nat q) by lia. assumption. }
    assert (R : zrange (Z.max 0 (n - m + 1)) = zrange (n - m + 1)) by (unfold zrange; do 2 f_equal; lia). destruct (G (Z.max 0 (n - m + 1)) ltac:(lia)) as (subs & b' & E2 & B2 & L & P). unfold forZ in *. rewrite R in E2. rewrite E2. cbn [bind]. eexists _, _. split; [reflexivity|].
    match goal with |- made _ _ _ ?c /\ _ => assert (M : made junk n m c) end; [|split; [assumption|now apply bank_add]]. split.
    + destruct (Z.to_nat m) as [|[|k']] eqn:Ek; [lia|lia|]. split; [reflexivity|]. split; [cbn; lia|]. cbn [csub]. split; [lia|]. intros q s Es. replace (S k') with (Z.to_nat (m - 1)) by lia. now apply P.
    + rewrite E1. cbn [cN]. reflexivity.
Qed.
