(* Proofs_Minivec.v -- lemmas for Prop_Minivec.v *)
From Verif Require Import Base Model_Minivec.
Local Open Scope nat_scope.

Section S.
Context {V : Type} (junk : V).
Implicit Types (s : @mvst V).
(* what an object should be: where it is, and its elements unless they were moved out *)
Definition content := (Z * option (list V))%type.
Definition stands (h : nat -> option (Z * list V)) (o : mvec) (c : content) : Prop :=
  mv_dev o = fst c /\
  match snd c with
  | None => mv_arr o = None
  | Some l => exists a cells, mv_arr o = Some a /\ h a = Some (fst c, cells) /\ mv_size o = length l /\ firstn (length l) cells = l
  end.
Record inv s (t : nat -> option content) (n : nat) : Prop := {
  i_cnt : mv_cnt s = n;
  i_new : forall i, n <= i -> mv_obj s i = None;
  i_obj : forall i, match mv_obj s i, t i with None, None => True | Some o, Some c => stands (mv_heap s) o c | _, _ => False end;
  i_one : forall i j oi oj a, mv_obj s i = Some oi -> mv_obj s j = Some oj -> mv_arr oi = Some a -> mv_arr oj = Some a -> i = j;
  i_own : forall a, mv_heap s a <> None -> exists i o, mv_obj s i = Some o /\ mv_arr o = Some a;
  i_lt : forall a, mv_next s <= a -> mv_heap s a = None }.

Lemma put_eq {A} (f : nat -> option A) k a : put f k a k = a. Proof. unfold put. now rewrite Nat.eqb_refl. Qed.
Lemma put_ne {A} (f : nat -> option A) k a j : j <> k -> put f k a j = f j. Proof. intros H. unfold put. apply Nat.eqb_neq in H. now rewrite H. Qed.
Lemma firstn_own (l r : list V) : firstn (length l) (l ++ r) = l.
Proof. rewrite firstn_app, Nat.sub_diag, firstn_all, firstn_O. apply app_nil_r. Qed.

Lemma has s t n i c : inv s t n -> t i = Some c -> exists o, mv_obj s i = Some o /\ stands (mv_heap s) o c /\ i < n.
Proof.
  intros I H. pose proof (i_obj _ _ _ I i) as K. rewrite H in K. destruct (mv_obj s i) as [o|] eqn:E; [|easy].
  exists o. repeat split; try apply K. destruct (Nat.lt_ge_cases i n) as [|G]; [assumption|]. rewrite (i_new _ _ _ I i G) in E. discriminate.
Qed.
(* arrays of an object are live unless null *)
Lemma alive s t n i o a : inv s t n -> mv_obj s i = Some o -> mv_arr o = Some a -> mv_heap s a <> None /\ a < mv_next s.
Proof.
  intros I H A. pose proof (i_obj _ _ _ I i) as K. rewrite H in K. destruct (t i) as [[d [l|]]|]; try easy; destruct K as (_ & K); cbn in K; [|congruence].
  destruct K as (b & cs & B & C & _). assert (b = a) by congruence. subst. split; [congruence|].
  destruct (Nat.lt_ge_cases a (mv_next s)) as [|G]; [assumption|]. rewrite (i_lt _ _ _ I a G) in C. discriminate.
Qed.
(* changes to arrays that the object does not own do not matter *)
Lemma stands_frame h h' o c : stands h o c -> (forall a, mv_arr o = Some a -> h' a = h a) -> stands h' o c.
Proof.
  intros (D & K) F. split; [exact D|]. destruct (snd c); [|exact K]. destruct K as (a & cs & A & B & C). exists a, cs. rewrite (F a A). auto.
Qed.

Lemma inv_make s t n l d : inv s t n -> inv (mv_make junk (length l) d l s) (put t n (Some (d, Some l))) (S n).
Proof.
  intros I. pose proof (i_cnt _ _ _ I) as N. subst n. constructor; cbn.
  - reflexivity.
  - intros i H. rewrite put_ne by lia. apply (i_new _ _ _ I). lia.
  - intros i. destruct (Nat.eq_dec i (mv_cnt s)) as [->|Ne].
    + rewrite !put_eq. split; [reflexivity|]. cbn. eexists _, _. split; [reflexivity|]. rewrite put_eq. split; [reflexivity|]. split; [reflexivity|]. apply firstn_own.
    + rewrite !put_ne by assumption. pose proof (i_obj _ _ _ I i) as K. destruct (mv_obj s i) as [o|] eqn:E, (t i); try easy.
      eapply stands_frame; [exact K|]. intros a A. apply put_ne. destruct (alive _ _ _ _ _ _ I E A). lia.
  - intros i j oi oj a Hi Hj Ai Aj. destruct (Nat.eq_dec i (mv_cnt s)) as [->|Ni], (Nat.eq_dec j (mv_cnt s)) as [->|Nj]; [reflexivity| | |].
    + rewrite put_eq in Hi. rewrite put_ne in Hj by assumption. injection Hi as <-. cbn in Ai. injection Ai as <-. destruct (alive _ _ _ _ _ _ I Hj Aj). lia.
    + rewrite put_eq in Hj. rewrite put_ne in Hi by assumption. injection Hj as <-. cbn in Aj. injection Aj as <-. destruct (alive _ _ _ _ _ _ I Hi Ai). lia.
    + rewrite put_ne in Hi, Hj by assumption. eapply (i_one _ _ _ I); eauto.
  - intros a H. destruct (Nat.eq_dec a (mv_next s)) as [->|Na].
    + exists (mv_cnt s). rewrite put_eq. eauto.
    + rewrite put_ne in H by assumption. destruct (i_own _ _ _ I a H) as (i & o & O & A). exists i, o. split; [|exact A]. rewrite put_ne; [exact O|].
      intros ->. rewrite (i_new _ _ _ I) in O by lia. discriminate.
  - intros a H. rewrite put_ne by lia. apply (i_lt _ _ _ I). lia.
Qed.

Lemma read_ok s o d l : stands (mv_heap s) o (d, Some l) -> mv_read o s = Ok l /\ mv_size o = length l /\ mv_dev o = d.
Proof.
  intros (D & a & cs & A & B & C & F). cbn in D, B. split; [|auto]. unfold mv_read, mv_cells. destruct (mv_size o =? 0) eqn:Z.
  - apply Nat.eqb_eq in Z. rewrite C in Z. destruct l; [reflexivity|discriminate].
  - rewrite A, B, D, Z.eqb_refl. cbn. rewrite C, F. reflexivity.
Qed.

Lemma free_del s t n i o c : inv s t n -> mv_obj s i = Some o -> stands (mv_heap s) o c ->
  exists s', mv_free o s = Ok s' /\ mv_next s' = mv_next s /\ mv_obj s' = mv_obj s /\ mv_cnt s' = mv_cnt s /\
    (forall a, mv_arr o = Some a -> mv_heap s' a = None) /\ (forall a, mv_arr o <> Some a -> mv_heap s' a = mv_heap s a).
Proof.
  intros I O (D & K). unfold mv_free. destruct (snd c) as [l|] eqn:S.
  - destruct K as (a & cs & A & B & _). unfold mv_cells. rewrite A, B, D, Z.eqb_refl. cbn. eexists. split; [reflexivity|]. cbn. repeat split.
    + intros b H. injection H as <-. apply put_eq.
    + intros b H. apply put_ne. congruence.
  - rewrite K. exists s. repeat split; intros; congruence.
Qed.

Lemma step_del s t n i c : inv s t n -> t i = Some c -> exists s', mv_del i s = Ok s' /\ inv s' (put t i None) n.
Proof.
  intros I T. destruct (has _ _ _ _ _ I T) as (o & O & K & L). destruct (free_del _ _ _ _ _ _ I O K) as (s' & F & Nx & Ob & Ct & G & H).
  unfold mv_del, mv_at. rewrite O. cbn. rewrite F. cbn. eexists. split; [reflexivity|]. constructor; cbn.
  - rewrite Ct. apply I.
  - intros j J. rewrite put_ne by lia. rewrite Ob. now apply (i_new _ _ _ I).
  - intros j. destruct (Nat.eq_dec j i) as [->|Ne]; [now rewrite !put_eq|]. rewrite !put_ne, Ob by assumption.
    pose proof (i_obj _ _ _ I j) as Kj. destruct (mv_obj s j) as [oj|] eqn:E, (t j); try easy. eapply stands_frame; [exact Kj|].
    intros a A. apply H. intros A'. apply Ne. eapply (i_one _ _ _ I); eauto.
  - intros j k oj ok a Hj Hk. destruct (Nat.eq_dec j i) as [->|Nj]; [rewrite put_eq in Hj; discriminate|]. destruct (Nat.eq_dec k i) as [->|Nk]; [rewrite put_eq in Hk; discriminate|].
    rewrite put_ne, Ob in Hj, Hk by assumption. eapply (i_one _ _ _ I); eauto.
  - intros a A. assert (X : mv_arr o <> Some a) by (intros X; apply A; auto). rewrite (H a X) in A. destruct (i_own _ _ _ I a A) as (j & oj & Oj & Aj).
    exists j, oj. split; [|exact Aj]. rewrite put_ne, Ob; [exact Oj|]. intros ->. congruence.
  - intros a A. rewrite Nx in A. assert (X : mv_arr o <> Some a). { intros X. destruct (alive _ _ _ _ _ _ I O X). lia. } rewrite (H a X). now apply (i_lt _ _ _ I).
Qed.

Lemma step_move s t n i l : inv s t n -> t i = Some (0%Z, Some l) -> exists s', mv_move i s = Ok s' /\ inv s' (put (put t i (Some (0%Z, None))) n (Some (0%Z, Some l))) (S n).
Proof.
  intros I T. destruct (has _ _ _ _ _ I T) as (o & O & K & L). pose proof (i_cnt _ _ _ I) as N. subst n.
  unfold mv_move, mv_at. rewrite O. cbn. eexists. split; [reflexivity|]. constructor; cbn.
  - reflexivity.
  - intros j J. rewrite !put_ne by lia. apply (i_new _ _ _ I). lia.
  - intros j. destruct (Nat.eq_dec j (mv_cnt s)) as [->|Nc]; [|destruct (Nat.eq_dec j i) as [->|Ni]].
    + rewrite !put_eq. destruct K as (D & K). split; [first [reflexivity|exact D]|exact K].
    + rewrite !(put_ne _ (mv_cnt s)) by lia. rewrite !put_eq. split; [apply K|reflexivity].
    + rewrite !put_ne by assumption. apply (i_obj _ _ _ I).
  - assert (Q : forall d j oj a, put (put (mv_obj s) i (Some (MV None (mv_size o) (mv_dev o)))) (mv_cnt s) (Some (MV (mv_arr o) (mv_size o) d)) j = Some oj -> mv_arr oj = Some a ->
      (j = mv_cnt s /\ mv_arr o = Some a) \/ (j <> i /\ mv_obj s j = Some oj)).
    { intros d j oj a H A. destruct (Nat.eq_dec j (mv_cnt s)) as [->|Nc]; [|destruct (Nat.eq_dec j i) as [->|Ni]].
      - rewrite put_eq in H. injection H as <-. auto.
      - rewrite put_ne, put_eq in H by lia. injection H as <-. discriminate.
      - rewrite !put_ne in H by assumption. auto. }
    intros j k oj ok a Hj Hk Aj Ak. destruct (Q _ _ _ _ Hj Aj) as [(-> & X)|(X & Y)], (Q _ _ _ _ Hk Ak) as [(-> & X')|(X' & Y')]; try reflexivity.
    + exfalso. apply X'. eapply (i_one _ _ _ I); eauto.
    + exfalso. apply X. eapply (i_one _ _ _ I); eauto.
    + eapply (i_one _ _ _ I); eauto.
  - intros a A. destruct (i_own _ _ _ I a A) as (j & oj & Oj & Aj). destruct (Nat.eq_dec j i) as [->|Ni].
    + exists (mv_cnt s). rewrite put_eq. eexists. split; [reflexivity|]. cbn. congruence.
    + exists j, oj. split; [|exact Aj]. rewrite !put_ne; [exact Oj|assumption|]. intros ->. rewrite (i_new _ _ _ I) in Oj by lia. discriminate.
  - apply I.
Qed.

Lemma step_dev s t n i d d' l : inv s t n -> t i = Some (d, Some l) -> exists s', mv_todev junk i d' s = Ok s' /\ inv s' (put t i (Some (d', Some l))) n.
Proof.
  intros I T. destruct (has _ _ _ _ _ I T) as (o & O & K & L). destruct (read_ok _ _ _ _ K) as (R & Sz & D). unfold mv_todev, mv_at. rewrite O. cbn.
  destruct (mv_dev o =? d')%Z eqn:E.
  - apply Z.eqb_eq in E. exists s. split; [reflexivity|]. destruct I as [I1 I2 I3 I4 I5 I6]. constructor; auto.
    intros j. destruct (Nat.eq_dec j i) as [->|Ne]; [rewrite put_eq, O; rewrite <- E, D; exact K|rewrite put_ne by assumption; apply I3].
  - rewrite R. cbn. destruct (free_del _ _ _ _ _ _ I O K) as (s' & F & Nx & Ob & Ct & G & H). rewrite F. cbn. eexists. split; [reflexivity|].
    assert (W : forall j oj a, j <> i -> mv_obj s j = Some oj -> mv_arr oj = Some a -> mv_heap s' a = mv_heap s a /\ a < mv_next s).
    { intros j oj a Ne Oj Aj. split; [|apply (alive _ _ _ _ _ _ I Oj Aj)]. apply H. intros A'. apply Ne. eapply (i_one _ _ _ I); eauto. }
    rewrite Nx, Ob, Ct, Sz. constructor; cbn.
    + apply I.
    + intros j J. rewrite put_ne by lia. now apply (i_new _ _ _ I).
    + intros j. destruct (Nat.eq_dec j i) as [->|Ne].
      * rewrite !put_eq. split; [reflexivity|]. cbn. eexists _, _. split; [reflexivity|]. rewrite put_eq. split; [reflexivity|]. split; [reflexivity|]. apply firstn_own.
      * rewrite !(put_ne _ i) by assumption. pose proof (i_obj _ _ _ I j) as Kj. destruct (mv_obj s j) as [oj|] eqn:Ej, (t j); try easy. eapply stands_frame; [exact Kj|].
        intros a A. destruct (W _ _ _ Ne Ej A) as (W1 & W2). rewrite put_ne by lia. exact W1.
    + intros j k oj ok a Hj Hk Aj Ak. destruct (Nat.eq_dec j i) as [->|Nj], (Nat.eq_dec k i) as [->|Nk]; [reflexivity| | |].
      * rewrite put_eq in Hj. rewrite put_ne in Hk by assumption. injection Hj as <-. cbn in Aj. injection Aj as <-. destruct (W _ _ _ Nk Hk Ak). lia.
      * rewrite put_eq in Hk. rewrite put_ne in Hj by assumption. injection Hk as <-. cbn in Ak. injection Ak as <-. destruct (W _ _ _ Nj Hj Aj). lia.
      * rewrite put_ne in Hj, Hk by assumption. eapply (i_one _ _ _ I); eauto.
    + intros a A. destruct (Nat.eq_dec a (mv_next s)) as [->|Na]; [exists i; rewrite put_eq; eauto|]. rewrite put_ne in A by assumption.
      assert (X : mv_arr o <> Some a) by (intros X; apply A; auto). rewrite (H a X) in A. destruct (i_own _ _ _ I a A) as (j & oj & Oj & Aj).
      exists j, oj. split; [|exact Aj]. rewrite put_ne; [exact Oj|]. intros ->. congruence.
    + intros a A. rewrite put_ne by lia. assert (X : mv_arr o <> Some a). { intros X. destruct (alive _ _ _ _ _ _ I O X). lia. } rewrite (H a X). apply (i_lt _ _ _ I). lia.
Qed.

Lemma get_ok s t n i l k v : inv s t n -> t i = Some (0%Z, Some l) -> nth_error l k = Some v -> mv_get i k s = Ok v.
Proof.
  intros I T E. destruct (has _ _ _ _ _ I T) as (o & O & (D & a & cs & A & B & C & F) & L). unfold mv_get, mv_at, mv_cells. rewrite O. cbn. rewrite A, B. cbn.
  assert (X : nth_error cs k = Some v). { rewrite <- F in E. rewrite <- (firstn_skipn (length l) cs), nth_error_app1; [exact E|]. apply nth_error_Some. congruence. }
  now rewrite X.
Qed.
Lemma set_cell_app (l r : list V) k v : k < length l -> set_cell k v (l ++ r) = set_cell k v l ++ r.
Proof. revert k. induction l; intros k H; cbn in *; [lia|]. destruct k; [reflexivity|]. cbn. rewrite IHl by lia. reflexivity. Qed.
Lemma set_cell_length (l : list V) k v : length (set_cell k v l) = length l.
Proof. revert k. induction l; intros [|k]; cbn; auto. Qed.

Lemma step_set s t n i l k v : inv s t n -> t i = Some (0%Z, Some l) -> k < length l -> exists s', mv_set i k v s = Ok s' /\ inv s' (put t i (Some (0%Z, Some (set_cell k v l)))) n.
Proof.
  intros I T Hk. destruct (nth_error l k) as [w|] eqn:E; [|apply nth_error_None in E; lia]. unfold mv_set. rewrite (get_ok _ _ _ _ _ _ _ I T E). cbn.
  destruct (has _ _ _ _ _ I T) as (o & O & (D & a & cs & A & B & C & F) & L). cbn in D, B. unfold mv_at, mv_cells. rewrite O. cbn. rewrite A, B. cbn. eexists. split; [reflexivity|].
  constructor; cbn; try apply I.
  - intros j. destruct (Nat.eq_dec j i) as [->|Ne].
    + rewrite put_eq, O. split; [exact D|]. cbn. exists a. eexists. split; [exact A|]. rewrite put_eq. split; [reflexivity|]. rewrite set_cell_length. split; [exact C|].
      rewrite <- (firstn_skipn (length l) cs), F, set_cell_app by assumption. rewrite <- (set_cell_length l k v) at 1. apply firstn_own.
    + rewrite put_ne by assumption. pose proof (i_obj _ _ _ I j) as Kj. destruct (mv_obj s j) as [oj|] eqn:Ej, (t j); try easy. eapply stands_frame; [exact Kj|].
      intros b Hb. apply put_ne. intros ->. apply Ne. eapply (i_one _ _ _ I); eauto.
  - intros b Hb. apply (i_own _ _ _ I). destruct (Nat.eq_dec b a) as [->|Nb]; [congruence|]. now rewrite put_ne in Hb.
  - intros b Hb. rewrite put_ne; [now apply (i_lt _ _ _ I)|]. intros ->. destruct (alive _ _ _ _ _ _ I O A). lia.
Qed.

Lemma step_copyto s t n i d d' l : inv s t n -> t i = Some (d, Some l) -> exists s', mv_copyto junk i d' s = Ok s' /\ inv s' (put t n (Some (d', Some l))) (S n).
Proof.
  intros I T. destruct (has _ _ _ _ _ I T) as (o & O & K & L). destruct (read_ok _ _ _ _ K) as (R & Sz & D). unfold mv_copyto, mv_at. rewrite O. cbn. rewrite R. cbn. rewrite Sz.
  eexists. split; [reflexivity|]. now apply inv_make.
Qed.
Lemma inv_start : inv mv_start (fun _ => None) 0.
Proof. constructor; cbn; try easy. Qed.
End S.
