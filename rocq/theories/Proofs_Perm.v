(* Proofs_Perm.v *)
From Verif Require Import Base BaseFacts Model_Index Spec_Index Proofs_Index Model_Containers Proofs_Containers Model_Perm Spec_Perm.
Local Open Scope Z_scope.

Lemma holds_len p n f : 0 <= n -> holds p n f -> blen p = n.
Proof. intros N ->. unfold blen. rewrite map_length, zrange_length. lia. Qed.
Lemma map_zrange_nth {A} (g : Z -> A) n i d : 0 <= i < n -> nth (Z.to_nat i) (map g (zrange n)) d = g i.
Proof. intro H. rewrite (nth_indep _ d (g 0)) by (rewrite map_length, zrange_length; lia). rewrite map_nth. f_equal. apply nth_error_nth, zrange_nth. lia. Qed.
Lemma holds_cell p n f i : holds p n f -> 0 <= i < n -> cell p i = Some (f i).
Proof. intros -> H. unfold cell. replace (0 <=? i) with true by lia. now apply (map_zrange_nth (fun i => Some (f i))). Qed.
Lemma holds_get p n f i : holds p n f -> 0 <= i < n -> bget p i = Ok (f i). Proof. intros H Hi. apply bget_cell. now apply holds_cell with n. Qed.
Lemma holds_intro p n f : 0 <= n -> blen p = n -> (forall i, 0 <= i < n -> cell p i = Some (f i)) -> holds p n f.
Proof.
  intros N L H. unfold holds. apply nth_ext with (d := None) (d' := None); [rewrite map_length, zrange_length; unfold blen in L; lia|]. intros k Hk. unfold blen in L.
  specialize (H (Z.of_nat k) ltac:(lia)). unfold cell in H. replace (0 <=? Z.of_nat k) with true in H by lia. rewrite Nat2Z.id in H. rewrite H. pose proof (map_zrange_nth (fun i => Some (f i)) n (Z.of_nat k) None ltac:(lia)) as E. rewrite Nat2Z.id in E. now rewrite E.
Qed.
Lemma holds_ext p n f g : holds p n f -> (forall i, 0 <= i < n -> f i = g i) -> holds p n g.
Proof. intros -> H. unfold holds. apply map_ext_in. intros i Hi. apply in_zrange in Hi. now rewrite H. Qed.
(* filling a fresh array *)
Lemma fill_ok n idx f g fi gi r0 : 0 <= n -> blen r0 = n -> (forall i, In i idx -> f i = Ok (fi i) /\ g i = Ok (gi i) /\ 0 <= fi i < n) -> (forall i j, In i idx -> In j idx -> fi i = fi j -> i = j) ->
  exists r, fill r0 idx f g = Ok r /\ blen r = n /\ (forall i, In i idx -> cell r (fi i) = Some (gi i)) /\ forall k, (forall i, In i idx -> fi i <> k) -> cell r k = cell r0 k.
Proof.
  intros N L H J. unfold fill. destruct (foldM_inv (fun done r => blen r = n /\ (forall i, In i done -> cell r (fi i) = Some (gi i)) /\ forall k, (forall i, In i done -> fi i <> k) -> cell r k = cell r0 k)
    (fun i r => do k <- f i; do v <- g i; bput r k v) idx r0) as (r & E & A & B & C).
  - split; [assumption|]. split; [intros i []|reflexivity].
  - intros done i rest r E (A & B & C). assert (Ii : In i idx) by (rewrite E; apply in_or_app; right; now left). destruct (H i Ii) as (Ef & Eg & Bi). rewrite Ef. cbn [bind]. rewrite Eg. cbn [bind].
    destruct (bput_ok r (fi i) (gi i) ltac:(lia)) as (r' & E' & L' & C'). exists r'. split; [exact E'|]. split; [lia|]. split.
    + intros j Ij. rewrite C'. destruct (fi j =? fi i) eqn:Ej; [|apply in_app_or in Ij; destruct Ij as [Ij|[<-|[]]]; [now apply B|lia]].
      assert (j = i) by (apply J; [rewrite E; apply in_app_or in Ij; destruct Ij as [Ij|[<-|[]]]; apply in_or_app; [now left|right; now left]|assumption|lia]). now subst.
    + intros k Hk. rewrite C'. destruct (k =? fi i) eqn:Ek; [exfalso; apply (Hk i); [apply in_or_app; right; now left|lia]|]. apply C. intros j Ij. apply Hk. apply in_or_app. now left.
  - exists r. auto.
Qed.
Lemma fill_all n f g fi : 0 <= n -> (forall i, 0 <= i < n -> f i = Ok (fi i) /\ g i = Ok i) -> bij n fi -> exists r, fill (bnew n) (zrange n) f g = Ok r /\ blen r = n /\ forall i, 0 <= i < n -> cell r (fi i) = Some i.
Proof.
  intros N H [I J]. destruct (fill_ok n (zrange n) f g fi (fun i => i) (bnew n) N (blen_new n N)) as (r & E & L & C & _).
  - intros i Hi. apply in_zrange in Hi. destruct (H i Hi). auto.
  - intros i j Hi Hj. apply in_zrange in Hi, Hj. now apply J.
  - exists r. split; [exact E|]. split; [exact L|]. intros i Hi. apply C. now apply in_zrange.
Qed.
Lemma fill_holds n g gi : 0 <= n -> (forall i, 0 <= i < n -> g i = Ok (gi i)) -> exists r, fill (bnew n) (zrange n) Ok g = Ok r /\ holds r n gi.
Proof.
  intros N H. destruct (fill_ok n (zrange n) Ok g (fun i => i) gi (bnew n) N (blen_new n N)) as (r & E & L & C & _).
  - intros i Hi. apply in_zrange in Hi. auto.
  - auto.
  - exists r. split; [exact E|]. apply holds_intro; auto. intros i Hi. apply C. now apply in_zrange.
Qed.
Lemma identity_ok n : 0 <= n -> exists r, pidentity n = Ok r /\ holds r n (fun i => i).
Proof. intro N. apply fill_holds; auto. Qed.
Lemma pof_ok x : exists r, pof x = Ok r /\ holds r (Z.of_nat (length x)) (fun i => nth (Z.to_nat i) x 0).
Proof.
  apply fill_holds; [lia|]. intros i Hi. unfold zget, vget. replace (i <? 0) with false by lia. destruct (nth_error x (Z.to_nat i)) as [v|] eqn:E; [|apply nth_error_None in E; lia]. f_equal. symmetry. now apply nth_error_nth.
Qed.
Lemma pmul_ok p x n f g : 0 <= n -> holds p n f -> holds x n g -> into n g -> exists r, pmul p x = Ok r /\ holds r n (fun i => f (g i)).
Proof.
  intros N P X I. unfold pmul. rewrite (holds_len p n f N P). apply fill_holds; [assumption|]. intros i Hi. rewrite (holds_get x n g i X Hi). cbn [bind]. apply (holds_get p n f); auto.
Qed.
Lemma bij_surj n f : bij n f -> forall j, 0 <= j < n -> exists i, 0 <= i < n /\ f i = j.
Proof.
  intros [I J] j Hj. assert (Nd : NoDup (map f (zrange n))).
  { assert (H : forall l, NoDup l -> (forall i, In i l -> 0 <= i < n) -> NoDup (map f l)).
    { induction 1 as [|a l Na Nl IH]; intro B; cbn; constructor; [|apply IH; intros; apply B; now right]. intro Ia. apply in_map_iff in Ia. destruct Ia as (b & Eb & Ib). apply Na. replace a with b; [assumption|]. apply J; auto; apply B; [now right|now left]. }
    apply H; [apply zrange_nodup|intros i Hi; now apply in_zrange]. }
  assert (Inc : incl (zrange n) (map f (zrange n))).
  { apply NoDup_length_incl; [assumption|rewrite map_length; lia|]. intros y Hy. apply in_map_iff in Hy. destruct Hy as (i & <- & Hi). apply in_zrange in Hi. apply in_zrange. auto. }
  specialize (Inc j (proj2 (in_zrange n j) Hj)). apply in_map_iff in Inc. destruct Inc as (i & E & Hi). exists i. split; [now apply in_zrange|assumption].
Qed.
Lemma pinverse_ok p n f : 0 <= n -> holds p n f -> bij n f -> exists r g, pinverse p = Ok r /\ holds r n g /\ bij n g /\ (forall i, 0 <= i < n -> g (f i) = i) /\ forall i, 0 <= i < n -> f (g i) = i.
Proof.
  intros N P B. unfold pinverse. rewrite (holds_len p n f N P). destruct (fill_all n (bget p) Ok f N) as (r & E & L & C); [intros i Hi; split; [now apply (holds_get p n)|reflexivity]|assumption|].
  exists r, (fun j => match cell r j with Some i => i | None => 0 end). split; [exact E|]. assert (G : forall i, 0 <= i < n -> exists k, 0 <= k < n /\ f k = i /\ cell r i = Some k).
  { intros i Hi. destruct (bij_surj n f B i Hi) as (k & Hk & <-). exists k. auto. }
  split; [apply holds_intro; auto; intros i Hi; destruct (G i Hi) as (k & _ & _ & Ek); now rewrite Ek|]. split; [|split].
  - split; [intros i Hi; destruct (G i Hi) as (k & Hk & _ & Ek); now rewrite Ek|]. intros i j Hi Hj. destruct (G i Hi) as (k & Hk & Fk & Ek), (G j Hj) as (l & Hl & Fl & El). rewrite Ek, El. congruence.
  - intros i Hi. now rewrite (C i Hi).
  - intros i Hi. destruct (G i Hi) as (k & Hk & Fk & Ek). now rewrite Ek.
Qed.
Lemma holds_fun p n f g : 0 <= n -> holds p n f -> holds p n g -> forall i, 0 <= i < n -> f i = g i.
Proof. intros N P G i Hi. pose proof (holds_cell p n f i P Hi). pose proof (holds_cell p n g i G Hi). congruence. Qed.
(* in place *)
Lemma pmul_assign_ok p x n f g : 0 <= n -> holds p n f -> holds x n g -> into n f -> exists r, pmul_assign p x = Ok r /\ holds r n (fun i => g (f i)).
Proof.
  intros N P X I. unfold pmul_assign, forZ. rewrite (holds_len p n f N P).
  destruct (foldM_inv (fun done r => blen r = n /\ (forall i, In i done -> 0 <= i < n -> cell r i = Some (g (f i))) /\ forall i, ~ In i done -> 0 <= i < n -> cell r i = Some (f i))
    (fun i p => do k <- bget p i; do v <- bget x k; bput p i v) (zrange n) p) as (r & E & L & C & _).
  - split; [now apply holds_len with f|]. split; [intros i []|]. intros i _ Hi. now apply holds_cell with n.
  - intros done i rest r E (L & C & D). assert (Ni : ~ In i done). { pose proof (zrange_nodup n) as Nd. rewrite E in Nd. apply NoDup_remove_2 in Nd. intro H. apply Nd. apply in_or_app. now left. }
    assert (Hi : 0 <= i < n) by (apply in_zrange; rewrite E; apply in_or_app; right; now left). rewrite (bget_cell r i (f i)) by (now apply D). cbn [bind]. rewrite (holds_get x n g (f i) X) by auto. cbn [bind].
    destruct (bput_ok r i (g (f i)) ltac:(lia)) as (r' & E' & L' & C'). exists r'. split; [exact E'|]. split; [lia|]. split.
    + intros j Ij Hj. rewrite C'. destruct (j =? i) eqn:Ej; [do 3 f_equal; lia|]. apply C; [|assumption]. apply in_app_or in Ij. destruct Ij as [|[|[]]]; [assumption|lia].
    + intros j Nj Hj. rewrite C'. destruct (j =? i) eqn:Ej; [exfalso; apply Nj; apply in_or_app; right; left; lia|]. apply D; [|assumption]. intro H. apply Nj. apply in_or_app. now left.
  - exists r. split; [exact E|]. apply holds_intro; auto. intros i Hi. apply C; [now apply in_zrange|assumption].
Qed.
(* is_valid *)
Lemma valid_from_ok p n f : 0 <= n -> holds p n f -> forall k i, 0 <= i -> i + Z.of_nat k = n ->
  exists b, pvalid_from p (rev (map f (zrange i))) i k = Ok b /\ (b = true <-> (forall j, i <= j < n -> 0 <= f j < n) /\ forall j l, 0 <= l < j -> i <= j < n -> f j <> f l).
Proof.
  intros N P. induction k as [|k IH]; intros i Hi E.
  - exists true. cbn. split; [reflexivity|]. split; [intros _|reflexivity]. split; intros; lia.
  - cbn [pvalid_from]. rewrite (holds_get p n f i P) by lia. cbn [bind]. rewrite (holds_len p n f N P). destruct ((f i <? 0) || (n - 1 <? f i) || existsb (Z.eqb (f i)) (rev (map f (zrange i)))) eqn:B.
    + exists false. split; [reflexivity|]. split; [discriminate|]. intros [H1 H2]. exfalso. specialize (H1 i ltac:(lia)). replace (f i <? 0) with false in B by lia. replace (n - 1 <? f i) with false in B by lia. cbn in B.
      apply existsb_exists in B. destruct B as (v & Iv & Ev). apply in_rev, in_map_iff in Iv. destruct Iv as (l & <- & Hl). apply in_zrange in Hl. apply (H2 i l ltac:(lia) ltac:(lia)). lia.
    + destruct (IH (i + 1) ltac:(lia) ltac:(lia)) as (b & Eb & Hb). rewrite zrange_succ in Eb by lia. rewrite map_app, rev_app_distr in Eb. cbn in Eb. exists b. split; [exact Eb|]. rewrite Hb. apply orb_false_iff in B. destruct B as [B B3]. apply orb_false_iff in B. destruct B as [B1 B2].
      assert (Nl : forall l, 0 <= l < i -> f i <> f l). { intros l Hl El. assert (T : existsb (Z.eqb (f i)) (rev (map f (zrange i))) = true); [|congruence]. apply existsb_exists. exists (f l). split; [|lia]. apply -> in_rev. apply in_map. now apply in_zrange. }
      split; intros [H1 H2]; split.
      * intros j Hj. destruct (Z.eq_dec j i) as [->|]; [lia|apply H1; lia].
      * intros j l Hl Hj. destruct (Z.eq_dec j i) as [->|]; [now apply Nl|apply H2; lia].
      * intros j Hj. apply H1. lia.
      * intros j l Hl Hj. apply H2; lia.
Qed.
Lemma pvalid_ok p n f : 0 <= n -> holds p n f -> exists b, pvalid p = Ok b /\ (b = true <-> bij n f).
Proof.
  intros N P. destruct (valid_from_ok p n f N P (length p) 0 ltac:(lia)) as (b & E & H); [pose proof (holds_len p n f N P) as L; unfold blen in L; lia|]. exists b. split; [exact E|]. rewrite H. split; intros [H1 H2]; split.
  - intros i Hi. apply H1. lia.
  - intros i j Hi Hj Ef. destruct (Z.lt_trichotomy i j) as [L|[L|L]]; [exfalso; apply (H2 j i); lia|assumption|exfalso; apply (H2 i j); lia].
  - intros j Hj. apply H1. lia.
  - intros j l Hl Hj Ef. apply H2 in Ef; lia.
Qed.
Lemma pinv_from_ok p n f i : holds p n f -> forall k j, 0 <= j -> j + Z.of_nat k = n -> (forall l, 0 <= l < j -> f l <> i) ->
  (exists r, pinv_from p i j k = Ok r /\ 0 <= r < n /\ f r = i /\ forall l, 0 <= l < r -> f l <> i) \/ (pinv_from p i j k = Throw /\ forall l, 0 <= l < n -> f l <> i).
Proof.
  intros P. induction k as [|k IH]; intros j Hj E B; cbn [pinv_from].
  - right. split; [reflexivity|]. intros l Hl. apply B. lia.
  - rewrite (holds_get p n f j P) by lia. cbn [bind]. destruct (f j =? i) eqn:Ef; [left; exists j; repeat split; auto; lia|]. apply IH; [lia|lia|]. intros l Hl. destruct (Z.eq_dec l j) as [->|]; [lia|apply B; lia].
Qed.
Lemma peq_ok p x n n' f g : 0 <= n -> 0 <= n' -> holds p n f -> holds x n' g -> exists b, peq p x = Ok b /\ (b = true <-> n = n' /\ forall i, 0 <= i < n -> f i = g i).
Proof.
  intros N N' P X. unfold peq. rewrite (holds_len p n f N P), (holds_len x n' g N' X). destruct (n =? n') eqn:En; cbn [negb]; [|exists false; split; [reflexivity|]; split; [discriminate|lia]]. assert (n' = n) by lia. subst n'.
  assert (H : forall k j, 0 <= j -> j + Z.of_nat k = n -> exists b, peq_from p x j k = Ok b /\ (b = true <-> forall i, j <= i < n -> f i = g i)).
  { induction k as [|k IH]; intros j Hj E; cbn [peq_from]; [exists true; split; [reflexivity|]; split; [intros; lia|reflexivity]|].
    rewrite (holds_get p n f j P), (holds_get x n g j X) by lia. cbn [bind]. destruct (f j =? g j) eqn:Ej; [|exists false; split; [reflexivity|]; split; [discriminate|]; intro A; specialize (A j); lia].
    destruct (IH (j + 1) ltac:(lia) ltac:(lia)) as (b & Eb & Hb). exists b. split; [exact Eb|]. rewrite Hb. split; intros A i Hi; [destruct (Z.eq_dec i j) as [->|]; [lia|apply A; lia]|apply A; lia]. }
  destruct (H (length p) 0 ltac:(lia)) as (b & Eb & Hb); [pose proof (holds_len p n f N P) as L; unfold blen in L; lia|]. exists b. split; [exact Eb|]. rewrite Hb. intuition.
Qed.
