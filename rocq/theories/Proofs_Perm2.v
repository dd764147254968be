(* Proofs_Perm2.v -- ordering, reordering and the named constructors. *)
From Verif Require Import Base BaseFacts Model_Index Spec_Index Proofs_Index Model_Containers Proofs_Containers Model_Perm Spec_Perm Proofs_Perm.
Local Open Scope Z_scope.

Lemma existsb_in v l : existsb (Z.eqb v) l = true <-> In v l.
Proof. rewrite existsb_exists. split; [intros (x & I & E); replace v with x by lia; assumption|intro I; exists v; split; [assumption|lia]]. Qed.
Lemma existsb_notin v l : existsb (Z.eqb v) l = false <-> ~ In v l.
Proof. rewrite <- existsb_in. destruct (existsb _ l); split; congruence. Qed.
(* the position picked: some position not yet done, if there is one *)
Definition picked (done : list Z) (k m : Z) : Prop := (m = -1 /\ forall j, 0 <= j < k -> In j done) \/ (0 <= m < k /\ ~ In m done).
Lemma pick_any less done n : 0 <= n -> picked done n (pick less done n).
Proof.
  intro N. unfold pick. pattern n at 1 2. rewrite <- (Z2Nat.id n N). induction (Z.to_nat n) as [|k IH]; [left; split; [reflexivity|intros; lia]|].
  replace (Z.of_nat (S k)) with (Z.of_nat k + 1) by lia. rewrite zrange_succ by lia. rewrite fold_left_app. cbn [fold_left]. set (m := fold_left _ (zrange (Z.of_nat k)) (-1)) in *.
  destruct (existsb (Z.eqb (Z.of_nat k)) done) eqn:E; cbn [negb andb].
  - apply existsb_in in E. destruct IH as [[-> A]|[A B]]; [left; split; [reflexivity|]|right; split; [lia|assumption]]. intros j Hj. destruct (Z.eq_dec j (Z.of_nat k)) as [->|]; [assumption|apply A; lia].
  - apply existsb_notin in E. destruct ((m =? -1) || less (Z.of_nat k) m) eqn:E2; [right; split; [lia|assumption]|]. destruct IH as [[A _]|[A B]]; [rewrite A in E2; discriminate|right; split; [lia|assumption]].
Qed.
Lemma pick_least less done n : weak_order less -> 0 <= n -> let m := pick less done n in m <> -1 ->
  (forall j, 0 <= j < n -> ~ In j done -> less j m = false) /\ forall j, 0 <= j < m -> ~ In j done -> less m j = true.
Proof.
  intros [As Nt] N. cbv zeta. unfold pick. assert (Bnd : forall k : nat, fold_left (fun least j => if negb (existsb (Z.eqb j) done) && ((least =? -1) || less j least) then j else least) (zrange (Z.of_nat k)) (-1) = pick less done (Z.of_nat k)) by reflexivity.
  pattern n. rewrite <- (Z2Nat.id n N). induction (Z.to_nat n) as [|k IH]; [intro H; now elim H|].
  replace (Z.of_nat (S k)) with (Z.of_nat k + 1) by lia. rewrite zrange_succ by lia. rewrite fold_left_app. cbn [fold_left]. rewrite Bnd in *. pose proof (pick_any less done (Z.of_nat k) ltac:(lia)) as Pk. set (m := pick less done (Z.of_nat k)) in *.
  assert (Irr : forall a, less a a = false) by (intro a; destruct (less a a) eqn:Ea; [pose proof (As a a Ea); congruence|reflexivity]).
  destruct (existsb (Z.eqb (Z.of_nat k)) done) eqn:E; cbn [negb andb].
  - apply existsb_in in E. intro M. destruct (IH M) as [A B]. split; [|assumption]. intros j Hj Nj. destruct (Z.eq_dec j (Z.of_nat k)) as [->|]; [contradiction|apply A; [lia|assumption]].
  - apply existsb_notin in E. destruct ((m =? -1) || less (Z.of_nat k) m) eqn:E2; intro M.
    + assert (Lt : forall j, 0 <= j < Z.of_nat k -> ~ In j done -> less (Z.of_nat k) j = true).
      { intros j Hj Nj. destruct (m =? -1) eqn:Em; [destruct Pk as [[_ Pk]|[Pk _]]; [exfalso; apply Nj, Pk; lia|lia]|]. cbn in E2. destruct (IH ltac:(lia)) as [A B]. destruct (Nt _ _ j E2) as [T|T]; [assumption|]. rewrite (A j Hj Nj) in T. discriminate. }
      split; [|assumption]. intros j Hj Nj. destruct (Z.eq_dec j (Z.of_nat k)) as [->|]; [apply Irr|]. apply As. apply Lt; [lia|assumption].
    + apply orb_false_iff in E2. destruct E2 as [E2 E3]. destruct (IH M) as [A B]. split; [|assumption]. intros j Hj Nj. destruct (Z.eq_dec j (Z.of_nat k)) as [->|]; [assumption|apply A; [lia|assumption]].
Qed.
Lemma pigeon n l : NoDup l -> (forall x, In x l -> 0 <= x < n) -> Z.of_nat (length l) < n -> exists j, 0 <= j < n /\ ~ In j l.
Proof.
  intros Nd B L. destruct (existsb (fun j => negb (existsb (Z.eqb j) l)) (zrange n)) eqn:E.
  - apply existsb_exists in E. destruct E as (j & Hj & Nj). exists j. split; [now apply in_zrange|]. apply existsb_notin. now apply negb_true_iff.
  - exfalso. assert (I : incl (zrange n) l). { intros j Hj. apply existsb_in. destruct (existsb (Z.eqb j) l) eqn:Ej; [reflexivity|]. exfalso. assert (T : existsb (fun j => negb (existsb (Z.eqb j) l)) (zrange n) = true) by (apply existsb_exists; exists j; rewrite Ej; auto). congruence. }
    apply NoDup_incl_length in I; [|apply zrange_nodup]. rewrite zrange_length in I. lia.
Qed.
Fixpoint picks (less : Z -> Z -> bool) (n : Z) (k : nat) : list Z := match k with O => [] | S k => pick less (picks less n k) n :: picks less n k end.
Lemma picks_ok less n : forall k, Z.of_nat k <= n -> NoDup (picks less n k) /\ length (picks less n k) = k /\ forall x, In x (picks less n k) -> 0 <= x < n.
Proof.
  induction k as [|k IH]; intro H; cbn [picks]; [split; [constructor|split; [reflexivity|intros x []]]|]. destruct IH as (Nd & L & B); [lia|].
  destruct (pigeon n (picks less n k) Nd B ltac:(lia)) as (j & Hj & Nj). destruct (pick_any less (picks less n k) n ltac:(lia)) as [[E A]|[A Np]]; [exfalso; apply Nj, A; lia|].
  split; [now constructor|]. split; [cbn; lia|]. intros x [<-|I]; [assumption|now apply B].
Qed.
Lemma picks_bounds less n k : Z.of_nat k < n -> 0 <= pick less (picks less n k) n < n /\ ~ In (pick less (picks less n k) n) (picks less n k).
Proof.
  intro H. destruct (picks_ok less n k ltac:(lia)) as (Nd & L & B). destruct (pigeon n (picks less n k) Nd B ltac:(lia)) as (j & Hj & Nj). destruct (pick_any less (picks less n k) n ltac:(lia)) as [[E A]|[A Np]]; [exfalso; apply Nj, A; lia|auto].
Qed.
Definition order_fun (less : Z -> Z -> bool) (n i : Z) : Z := pick less (picks less n (Z.to_nat i)) n.
Lemma picks_in less n k x : In x (picks less n k) <-> exists j, 0 <= j < Z.of_nat k /\ x = order_fun less n j.
Proof.
  induction k as [|k IH]; cbn [picks]; [split; [intros []|intros (j & Hj & _); lia]|]. split.
  - intros [<-|I]; [exists (Z.of_nat k); split; [lia|unfold order_fun; now rewrite Nat2Z.id]|]. apply IH in I. destruct I as (j & Hj & E). exists j. split; [lia|assumption].
  - intros (j & Hj & ->). destruct (Z.eq_dec j (Z.of_nat k)) as [->|]; [left; unfold order_fun; now rewrite Nat2Z.id|right]. apply IH. exists j. split; [lia|reflexivity].
Qed.
Lemma ordering_loop less n : 0 <= n -> exists r done, forZ n (ordering_step less n) (bnew n, []) = Ok (r, done) /\ holds r n (order_fun less n).
Proof.
  intro N. assert (H : forall k : nat, Z.of_nat k <= n -> exists r, foldM (ordering_step less n) (zrange (Z.of_nat k)) (bnew n, []) = Ok (r, picks less n k) /\ blen r = n /\ forall i, 0 <= i < Z.of_nat k -> cell r i = Some (order_fun less n i)).
  { induction k as [|k IH]; intro H; [exists (bnew n); split; [reflexivity|]; split; [now apply blen_new|intros; lia]|]. destruct IH as (r & E & L & C); [lia|].
    replace (Z.of_nat (S k)) with (Z.of_nat k + 1) by lia. rewrite zrange_succ by lia. rewrite foldM_app, E. cbn [bind foldM]. unfold ordering_step at 1. destruct (picks_bounds less n k ltac:(lia)) as [B _]. set (m := pick less (picks less n k) n) in *.
    replace ((0 <=? m) && (m <? n)) with true by lia. destruct (bput_ok r (Z.of_nat k) m ltac:(lia)) as (r' & E' & L' & C'). rewrite E'. cbn [bind]. exists r'. split; [reflexivity|]. split; [lia|].
    intros i Hi. rewrite C'. destruct (i =? Z.of_nat k) eqn:Ei; [|apply C; lia]. unfold order_fun. replace (Z.to_nat i) with k by lia. reflexivity. }
  destruct (H (Z.to_nat n) ltac:(lia)) as (r & E & L & C). rewrite Z2Nat.id in E, C by assumption. exists r, (picks less n (Z.to_nat n)). split; [exact E|]. now apply holds_intro.
Qed.
Lemma ordering_by_ok less n : 0 <= n -> exists r, ordering_by n less = Ok r /\ holds r n (order_fun less n) /\ bij n (order_fun less n).
Proof.
  intro N. destruct (ordering_loop less n N) as (r & d & E & H). exists r. unfold ordering_by. rewrite E. split; [reflexivity|]. split; [assumption|].
  assert (D : forall i j, 0 <= i < j -> j < n -> order_fun less n i <> order_fun less n j).
  { intros i j Hi Hj Ee. destruct (picks_bounds less n (Z.to_nat j) ltac:(lia)) as [_ Np]. apply Np. change (pick less (picks less n (Z.to_nat j)) n) with (order_fun less n j). rewrite <- Ee. apply picks_in. exists i. split; [lia|reflexivity]. }
  split.
  - intros i Hi. apply (picks_bounds less n (Z.to_nat i)). lia.
  - intros i j Hi Hj Ee. destruct (Z.lt_trichotomy i j) as [L|[L|L]]; [exfalso; apply (D i j); lia|assumption|exfalso; apply (D j i); lia].
Qed.
Lemma order_sorted less n : weak_order less -> 0 <= n -> forall i j, 0 <= i < j -> j < n ->
  less (order_fun less n j) (order_fun less n i) = false /\ (less (order_fun less n i) (order_fun less n j) = false -> order_fun less n i < order_fun less n j).
Proof.
  intros W N i j Hi Hj. destruct (ordering_by_ok less n N) as (_ & _ & _ & [I J]).
  assert (Nd : ~ In (order_fun less n j) (picks less n (Z.to_nat i))). { intro H. apply picks_in in H. destruct H as (k & Hk & E). apply J in E; lia. }
  assert (M : order_fun less n i <> -1) by (pose proof (I i ltac:(lia)); lia). unfold order_fun in M at 1. destruct (pick_least less (picks less n (Z.to_nat i)) n W N M) as [A B]. change (pick less (picks less n (Z.to_nat i)) n) with (order_fun less n i) in *.
  pose proof (I j ltac:(lia)) as Bj. split; [now apply A|]. intro F. destruct (Z.lt_trichotomy (order_fun less n i) (order_fun less n j)) as [L|[L|L]]; [assumption|apply J in L; lia|]. rewrite (B (order_fun less n j)) in F by (lia || assumption). discriminate.
Qed.
(* reorder *)
Lemma reorder_ok {A} (d : A) p x f : holds p (Z.of_nat (length x)) f -> into (Z.of_nat (length x)) f ->
  preorder p x = Ok (map (fun i => nth (Z.to_nat (f i)) x d) (zrange (Z.of_nat (length x)))).
Proof.
  intros P I. unfold preorder. set (n := Z.of_nat (length x)) in *. assert (H : forall k : nat, Z.of_nat k <= n -> foldM (fun i r => do k <- bget p i; do v <- zget x k; Ok (r ++ [v])) (zrange (Z.of_nat k)) [] = Ok (map (fun i => nth (Z.to_nat (f i)) x d) (zrange (Z.of_nat k)))).
  { induction k as [|k IH]; intro Hk; [reflexivity|]. replace (Z.of_nat (S k)) with (Z.of_nat k + 1) by lia. rewrite zrange_succ by lia. rewrite foldM_app, IH by lia. cbn [bind foldM]. rewrite (holds_get p n f _ P) by lia. cbn [bind]. pose proof (I (Z.of_nat k) ltac:(lia)) as B.
    unfold zget, vget. replace (f (Z.of_nat k) <? 0) with false by lia. destruct (nth_error x (Z.to_nat (f (Z.of_nat k)))) as [v|] eqn:E; [|apply nth_error_None in E; unfold n in B; lia]. cbn [bind]. rewrite map_app. cbn. do 3 f_equal. symmetry. now apply nth_error_nth. }
  specialize (H (Z.to_nat n) ltac:(lia)). rewrite Z2Nat.id in H by lia. exact H.
Qed.
Lemma reorder_perm {A} (d : A) x f : bij (Z.of_nat (length x)) f -> Permutation (map (fun i => nth (Z.to_nat (f i)) x d) (zrange (Z.of_nat (length x)))) x.
Proof.
  intro B. set (n := Z.of_nat (length x)) in *. assert (P : Permutation (map f (zrange n)) (zrange n)).
  { assert (Nd : NoDup (map f (zrange n))). { destruct B as [I J]. assert (H : forall l, NoDup l -> (forall i, In i l -> 0 <= i < n) -> NoDup (map f l)).
      { induction 1 as [|a l Na Nl IH]; intro B'; cbn; constructor; [|apply IH; intros; apply B'; now right]. intro Ia. apply in_map_iff in Ia. destruct Ia as (b & Eb & Ib). apply Na. replace a with b; [assumption|]. apply J; auto; apply B'; [now right|now left]. }
      apply H; [apply zrange_nodup|intros i Hi; now apply in_zrange]. }
    apply NoDup_Permutation; [assumption|apply zrange_nodup|]. intro y. rewrite in_map_iff, in_zrange. split; [intros (i & <- & Hi); apply in_zrange in Hi; now apply B|]. intro Hy. destruct (bij_surj n f B y Hy) as (i & Hi & E). exists i. split; [assumption|now apply in_zrange]. }
  rewrite <- (map_map f (fun k => nth (Z.to_nat k) x d)). eapply perm_trans; [apply Permutation_map; exact P|]. replace (map _ (zrange n)) with x; [reflexivity|]. unfold zrange, n. rewrite Nat2Z.id, map_map. clear. 
  induction x as [|a x IH] using rev_ind; [reflexivity|]. rewrite app_length. cbn [length]. rewrite Nat.add_1_r, seq_S, map_app. cbn. f_equal.
  - rewrite IH at 1. apply map_ext_in. intros i Hi. apply in_seq in Hi. rewrite Nat2Z.id, app_nth1 by lia. reflexivity.
  - rewrite Nat2Z.id, app_nth2, Nat.sub_diag by lia. reflexivity.
Qed.
(* ---- named constructors ---- *)
Definition swap (i j k : Z) : Z := if k =? i then j else if k =? j then i else k.
Lemma swap_bij n i j : 0 <= i < n -> 0 <= j < n -> bij n (swap i j).
Proof. intros Hi Hj. unfold swap. split; [intros k Hk; destruct (k =? i), (k =? j); lia|]. intros k l Hk Hl. destruct (k =? i) eqn:A, (l =? i) eqn:B, (k =? j) eqn:C, (l =? j) eqn:D; lia. Qed.
Lemma transposition_ok n i j : 0 <= i < n -> 0 <= j < n -> exists r, ptransposition n i j = Ok r /\ holds r n (swap i j).
Proof.
  intros Hi Hj. unfold ptransposition. destruct (identity_ok n ltac:(lia)) as (p & E & P). rewrite E. cbn [bind]. pose proof (holds_len p n _ ltac:(lia) P) as L.
  destruct (bput_ok p i j ltac:(lia)) as (p1 & E1 & L1 & C1). rewrite E1. cbn [bind]. destruct (bput_ok p1 j i ltac:(lia)) as (p2 & E2 & L2 & C2). exists p2. split; [exact E2|]. apply holds_intro; [lia|lia|].
  intros k Hk. rewrite C2, C1, (holds_cell p n _ k P Hk). unfold swap. destruct (k =? j) eqn:A, (k =? i) eqn:B; try reflexivity. f_equal. lia.
Qed.
Lemma verase_ok v t x : 0 <= t -> nth_error v (Z.to_nat t) = Some x -> NoDup v -> exists w, verase t v = Ok w /\ length v = S (length w) /\ NoDup w /\ forall y, In y w <-> In y v /\ y <> x.
Proof.
  intros T E Nd. unfold verase. assert (L : (Z.to_nat t < length v)%nat) by (apply nth_error_Some; congruence). replace ((0 <=? t) && (t <? Z.of_nat (length v))) with true by lia. eexists. split; [reflexivity|].
  apply nth_error_split in E. destruct E as (l1 & l2 & -> & <-). rewrite firstn_app, firstn_all, Nat.sub_diag, firstn_O, app_nil_r. replace (S (length l1)) with (length (l1 ++ [x])) by (rewrite app_length; cbn; lia).
  replace (l1 ++ x :: l2) with ((l1 ++ [x]) ++ l2) by (rewrite <- app_assoc; reflexivity). rewrite skipn_app, skipn_all, Nat.sub_diag. cbn [skipn app]. rewrite <- app_assoc in *. cbn [app] in *.
  pose proof (NoDup_remove_1 _ _ _ Nd). pose proof (NoDup_remove_2 _ _ _ Nd) as N2. split; [rewrite !app_length; cbn; lia|]. split; [assumption|]. intro y. rewrite !in_app_iff in *. cbn. split; [intro I; split; [tauto|]; intros ->; tauto|]. intros [[?|[?|?]] ?]; auto. congruence.
Qed.
Lemma random_ok n draws : 0 <= n -> (forall i, 0 <= i < n -> 0 <= draws i <= n - 1 - i) -> exists r, prandom n draws = Ok r /\ perm_of r n.
Proof.
  intros N D. unfold prandom, forZ. set (step := fun i (st : buf * list Z) => let '(p, v) := st in _).
  assert (H : forall k : nat, Z.of_nat k <= n -> exists r v f, foldM step (zrange (Z.of_nat k)) (bnew n, zrange n) = Ok (r, v) /\ blen r = n /\ Z.of_nat (length v) = n - Z.of_nat k /\ NoDup v /\
     (forall i, 0 <= i < Z.of_nat k -> cell r i = Some (f i) /\ 0 <= f i < n /\ ~ In (f i) v) /\ (forall y, In y v -> 0 <= y < n) /\ forall i j, 0 <= i < Z.of_nat k -> 0 <= j < Z.of_nat k -> f i = f j -> i = j).
  { induction k as [|k IH]; intro Hk.
    - exists (bnew n), (zrange n), (fun i => i). split; [reflexivity|]. split; [now apply blen_new|]. split; [rewrite zrange_length; lia|]. split; [apply zrange_nodup|]. split; [intros; lia|]. split; [intros y Hy; now apply in_zrange|intros; lia].
    - destruct IH as (r & v & f & E & L & Lv & Nd & C & Bv & J); [lia|]. replace (Z.of_nat (S k)) with (Z.of_nat k + 1) by lia. rewrite zrange_succ by lia. rewrite foldM_app, E. cbn [bind foldM]. unfold step at 1.
      pose proof (D (Z.of_nat k) ltac:(lia)) as Dk. set (t := draws (Z.of_nat k)) in *. destruct (nth_error v (Z.to_nat t)) as [x|] eqn:Ex; [|apply nth_error_None in Ex; lia].
      unfold zget at 1, vget. replace (t <? 0) with false by lia. rewrite Ex. cbn [bind]. destruct (bput_ok r (Z.of_nat k) x ltac:(lia)) as (r' & E' & L' & C'). rewrite E'. cbn [bind]. destruct (verase_ok v t x ltac:(lia) Ex Nd) as (w & Ew & Lw & Nw & Iw). rewrite Ew. cbn [bind].
      pose proof (nth_error_In _ _ Ex) as Ix. exists r', w, (fun i => if i =? Z.of_nat k then x else f i). split; [reflexivity|]. split; [lia|]. split; [lia|]. split; [assumption|]. split; [|split].
      + intros i Hi. rewrite C'. destruct (i =? Z.of_nat k) eqn:Ei; [split; [reflexivity|]; split; [now apply Bv|]; rewrite Iw; tauto|]. destruct (C i ltac:(lia)) as (Ci & Bi & Ni). split; [assumption|]. split; [assumption|]. rewrite Iw. tauto.
      + intros y Iy. apply Bv. now apply Iw.
      + intros i j Hi Hj. destruct (i =? Z.of_nat k) eqn:Ei, (j =? Z.of_nat k) eqn:Ej; [lia| | |intro Ef; apply J; [lia|lia|assumption]].
        * intro Ef. exfalso. destruct (C j ltac:(lia)) as (_ & _ & Nj). apply Nj. now rewrite <- Ef.
        * intro Ef. exfalso. destruct (C i ltac:(lia)) as (_ & _ & Ni). apply Ni. now rewrite Ef. }
  destruct (H (Z.to_nat n) ltac:(lia)) as (r & v & f & E & L & _ & _ & C & _ & J). rewrite Z2Nat.id in * by lia. rewrite E. cbn [bind]. exists r. split; [reflexivity|]. exists f. split; [apply holds_intro; auto; intros i Hi; now apply C|]. split; [intros i Hi; now apply C|exact J].
Qed.
Lemma fill_bad r idx f g i k : In i idx -> f i = Ok k -> ~ 0 <= k < blen r -> (forall j, exists a b, f j = Ok a /\ g j = Ok b) -> fill r idx f g = UB.
Proof.
  intros I E B T. revert r B. induction idx as [|j idx IH]; [destruct I|]. intros r B. unfold fill. cbn [foldM]. destruct (T j) as (a & b & Ea & Eb). rewrite Ea. cbn [bind]. rewrite Eb. cbn [bind].
  destruct (bput r a b) as [r'| |] eqn:Ep; cbn [bind]; [|unfold bput in Ep; destruct ((0 <=? a) && (a <? blen r)); discriminate|reflexivity].
  assert (Hr : 0 <= a < blen r /\ blen r' = blen r). { unfold bput in Ep. destruct ((0 <=? a) && (a <? blen r)) eqn:Ea'; [|discriminate]. split; [lia|]. destruct (bput_ok r a b ltac:(lia)) as (r2 & E2 & L2 & _). unfold bput in E2. rewrite Ea' in E2. rewrite E2 in Ep. injection Ep as <-. exact L2. }
  destruct I as [<-|I]; [exfalso; apply B; replace k with a by congruence; apply Hr|]. apply IH; [assumption|]. destruct Hr as [_ ->]. exact B.
Qed.
Lemma in_from_to a b i : In i (from_to a b) <-> a <= i <= b.
Proof. unfold from_to. rewrite in_map_iff. split; [intros (k & <- & Hk); apply in_zrange in Hk; lia|]. intro H. exists (i - a). split; [lia|apply in_zrange; lia]. Qed.
Lemma fill_safe r idx f g : (forall j, exists a b, f j = Ok a /\ g j = Ok b) -> fill r idx f g = UB \/ exists r', fill r idx f g = Ok r' /\ blen r' = blen r /\ forall k, (forall i a, In i idx -> f i = Ok a -> a <> k) -> cell r' k = cell r k.
Proof.
  intro T. revert r. induction idx as [|j idx IH]; intro r; unfold fill; cbn [foldM]; [right; exists r; auto|]. destruct (T j) as (a & b & Ea & Eb). rewrite Ea. cbn [bind]. rewrite Eb. cbn [bind].
  destruct (Z.le_gt_cases 0 a) as [A0|A0]; [destruct (Z.lt_ge_cases a (blen r)) as [A1|A1]|].
  - destruct (bput_ok r a b (conj A0 A1)) as (r1 & E1 & L1 & C1). rewrite E1. cbn [bind]. destruct (IH r1) as [U|(r' & E' & L' & C')]; [left; exact U|right; exists r'; split; [exact E'|]; split; [lia|]].
    intros k Hk. rewrite C' by (intros i c Ii; apply Hk; now right). rewrite C1. replace (k =? a) with false; [reflexivity|]. specialize (Hk j a (or_introl eq_refl) Ea). lia.
  - left. unfold bput. now replace ((0 <=? a) && (a <? blen r)) with false by lia.
  - left. unfold bput. now replace ((0 <=? a) && (a <? blen r)) with false by lia.
Qed.
