(* Proofs_TupleMap.v -- the hash table of Model_TupleMap holds a function of the keys. *)
From Verif Require Import Base BaseFacts Model_TupleMap.
Local Open Scope Z_scope.

(* M(k) and M(k)=o; n as in um_ref *)
Inductive mop {K O : Type} := MRef (n : option nat) (k : K) | MSet (n : option nat) (k : K) (o : O).
Arguments mop : clear implicits.

Section P.
Context {K O : Type} (eqb : K -> K -> bool) (hash : K -> Z) (dflt : O).
Hypothesis E : forall k k', eqb k k' = true <-> k = k'.
Notation umap := (umap (K := K) (O := O)).
Implicit Types (u v : umap) (k : K) (o : O).
Notation find := (um_find eqb hash).
Notation bkt := (um_bkt (O := O) hash).

Definition mstep (a : mop K O) u : umap := match a with MRef n k => snd (um_ref eqb hash dflt n k u) | MSet n k o => um_assign eqb hash dflt n k o u end.
Definition mrun (l : list (mop K O)) : umap := fold_left (fun u a => mstep a u) l um_new.

Lemma eqb_spec k k' : Bool.reflect (k = k') (eqb k k').
Proof. destruct (eqb k k') eqn:Q; constructor; [now apply E|]. intros ->. assert (eqb k' k' = true) by (now apply E). congruence. Qed.
Lemma set_len n b u : length (set_nth n b u) = length u.
Proof. revert n. induction u as [|c u IH]; intros [|n]; cbn; auto. Qed.
Lemma nth_set n b u j : (n < length u)%nat -> nth j (set_nth n b u) [] = if Nat.eqb j n then b else nth j u [].
Proof. revert n j. induction u as [|c u IH]; intros [|n] [|j] H; cbn in *; try lia; try reflexivity. apply IH. lia. Qed.
Lemma bkt_len u v k : length u = length v -> bkt u k = bkt v k.
Proof. intro H. unfold um_bkt. now rewrite H. Qed.
Lemma bkt_lt u k : u <> [] -> (bkt u k < length u)%nat.
Proof. intro H. assert (0 < Z.of_nat (length u)) by (destruct u; [congruence|cbn [length]; lia]). unfold um_bkt. pose proof (Z.mod_pos_bound (hash k) (Z.of_nat (length u))). lia. Qed.
Lemma find_app k (a b : list (K * O)) : b_find eqb k (a ++ b) = match b_find eqb k a with Some o => Some o | None => b_find eqb k b end.
Proof. induction a as [|[k' o] a IH]; [reflexivity|]. cbn [app b_find]. now destruct (eqb k' k). Qed.
Lemma find_none k (a : list (K * O)) : (forall p, In p a -> fst p <> k) -> b_find eqb k a = None.
Proof. induction a as [|[k' o] a IH]; intro H; [reflexivity|]. cbn [b_find]. destruct (eqb_spec k' k) as [->|]; [now destruct (H (k, o) (or_introl eq_refl))|]. apply IH. intros p I. apply H. now right. Qed.
Lemma find_nil k : find k ([] : umap) = None.
Proof. unfold um_find. now destruct (um_bkt (O := O) hash [] k). Qed.
(* every key is in its bucket *)
Definition placed u : Prop := forall i p, In p (nth i u []) -> bkt u (fst p) = i.
Lemma find_add k o u k' : u <> [] -> find k' (um_add hash k o u) = if eqb k k' then Some o else find k' u.
Proof.
  intro H. unfold um_find, um_add. rewrite (bkt_len _ u) by apply set_len. rewrite nth_set by (now apply bkt_lt). destruct (Nat.eqb_spec (bkt u k') (bkt u k)) as [Q|Q].
  - cbn [b_find]. now rewrite Q.
  - destruct (eqb_spec k k') as [->|]; [congruence|reflexivity].
Qed.
Lemma placed_add k o u : u <> [] -> placed u -> placed (um_add hash k o u).
Proof.
  intros H P i p I. unfold um_add in *. rewrite (bkt_len _ u) by apply set_len. rewrite nth_set in I by (now apply bkt_lt). destruct (Nat.eqb_spec i (bkt u k)) as [->|]; [|now apply P]. destruct I as [<-|I]; [reflexivity|]. now apply P.
Qed.
Lemma add_some k o u : u <> [] -> um_add hash k o u <> [].
Proof. intros H Q. apply (f_equal (@length _)) in Q. unfold um_add in Q. rewrite set_len in Q. now destruct u. Qed.
Lemma find_concat k u : u <> [] -> placed u -> find k u = b_find eqb k (concat u).
Proof.
  intros H P. pose proof (bkt_lt u k H) as L. unfold um_find. set (n := bkt u k) in *. destruct (nth_split u [] L) as (a & b & Eu & La). rewrite Eu at 2. rewrite concat_app. cbn [concat]. rewrite !find_app.
  rewrite (find_none k (concat a)). 2: { intros p I Q. apply in_concat in I. destruct I as (c & Ic & Ip). apply (In_nth _ _ []) in Ic. destruct Ic as (j & Lj & Ec). assert (In p (nth j u [])) by (rewrite Eu, app_nth1 by assumption; now rewrite Ec). apply P in H0. rewrite Q in H0. unfold n in La. lia. }
  destruct (b_find eqb k (nth n u [])) as [o|] eqn:F; [reflexivity|]. symmetry. apply find_none. intros p I Q. apply in_concat in I. destruct I as (c & Ic & Ip). apply (In_nth _ _ []) in Ic. destruct Ic as (j & Lj & Ec).
  assert (I' : In p (nth (n + S j) u [])) by (rewrite Eu, app_nth2 by lia; replace (n + S j - length a)%nat with (S j) by lia; cbn [nth]; now rewrite Ec). apply P in I'. rewrite Q in I'. unfold n in I'. lia.
Qed.
Lemma repeat_nth n i : nth i (repeat (@nil (K * O)) n) [] = [].
Proof. revert i. induction n as [|n IH]; intros [|i]; cbn; auto. Qed.
Lemma rehash_ok n u : u = [] \/ placed u -> um_rehash hash (S n) u <> [] /\ placed (um_rehash hash (S n) u) /\ forall k, find k (um_rehash hash (S n) u) = find k u.
Proof.
  intro P. assert (G : forall l : list (K * O), let v := fold_right (fun p => um_add hash (fst p) (snd p)) (repeat [] (S n)) l in v <> [] /\ placed v /\ forall k, find k v = b_find eqb k l).
  { induction l as [|[k o] l (I1 & I2 & I3)]; cbn [fold_right].
    - split; [discriminate|]. split; [intros i p I; rewrite repeat_nth in I; destruct I|]. intro k. unfold um_find. now rewrite repeat_nth.
    - split; [now apply add_some|]. split; [now apply placed_add|]. intro k'. rewrite find_add by assumption. cbn [b_find fst snd]. now rewrite I3. }
  destruct (G (concat u)) as (G1 & G2 & G3). split; [exact G1|]. split; [exact G2|]. intro k. unfold um_rehash. rewrite G3. destruct P as [->|P]; [unfold um_find; now destruct (um_bkt (O := O) hash [] k)|]. destruct u as [|b u']; [unfold um_find; now destruct (um_bkt (O := O) hash [] k)|]. symmetry. now apply find_concat.
Qed.
Definition good u : Prop := u = [] \/ (u <> [] /\ placed u).
Lemma ref_ok n k u : good u -> let '(o, u') := um_ref eqb hash dflt n k u in good u' /\ o = match find k u with Some o => o | None => dflt end /\ (forall k', find k' u' = if eqb k k' then Some o else find k' u).
Proof.
  intro G. unfold um_ref. destruct (find k u) as [o|] eqn:F.
  - split; [exact G|]. split; [reflexivity|]. intro k'. destruct (eqb_spec k k') as [<-|]; [exact F|reflexivity].
  - set (v := match n with Some n => um_rehash hash (S n) u | None => match u with [] => um_rehash hash 1 u | _ => u end end).
    assert (V : v <> [] /\ placed v /\ forall k, find k v = find k u). { unfold v. destruct n as [n|]; [apply rehash_ok; destruct G as [->|[_ G]]; auto|]. destruct u as [|b u']; [apply rehash_ok; now left|]. destruct G as [G|[G1 G2]]; [discriminate|]. auto. }
    destruct V as (V1 & V2 & V3). split; [right; split; [now apply add_some|now apply placed_add]|]. split; [reflexivity|]. intro k'. rewrite find_add by assumption. now rewrite V3.
Qed.
Lemma b_set_find k o k' (l : list (K * O)) : b_find eqb k' (b_set eqb k o l) = if eqb k k' then match b_find eqb k l with Some _ => Some o | None => None end else b_find eqb k' l.
Proof.
  induction l as [|[a b] l IH]; cbn [b_set b_find]; [now destruct (eqb k k')|]. destruct (eqb_spec a k) as [->|N].
  - cbn [b_find]. now destruct (eqb k k').
  - cbn [b_find]. rewrite IH. destruct (eqb_spec a k') as [->|]; [|reflexivity]. destruct (eqb_spec k k') as [->|]; [congruence|reflexivity].
Qed.
Lemma b_set_keys k o (l : list (K * O)) p : In p (b_set eqb k o l) -> exists p', In p' l /\ fst p' = fst p.
Proof.
  induction l as [|[a b] l IH]; [intros []|]. cbn [b_set]. destruct (eqb a k).
  - intros [<-|I]; [exists (a, b); split; [now left|reflexivity]|exists p; split; [now right|reflexivity]].
  - intros [<-|I]; [exists (a, b); split; [now left|reflexivity]|]. destruct (IH I) as (p' & I' & Q). exists p'. split; [now right|assumption].
Qed.
Lemma put_ok k o u : good u -> find k u <> None -> good (um_put eqb hash k o u) /\ forall k', find k' (um_put eqb hash k o u) = if eqb k k' then Some o else find k' u.
Proof.
  intros [->|[G1 G2]] F; [exfalso; apply F; unfold um_find; now destruct (um_bkt (O := O) hash [] k)|]. unfold um_put. split.
  - right. split; [intro Q; apply (f_equal (@length _)) in Q; rewrite set_len in Q; now destruct u|]. intros i p I. rewrite (bkt_len _ u) by apply set_len. rewrite nth_set in I by (now apply bkt_lt). destruct (Nat.eqb_spec i (bkt u k)) as [->|]; [|now apply G2].
    apply b_set_keys in I. destruct I as (p' & I & Q). rewrite <- Q. now apply G2.
  - intro k'. unfold um_find in *. rewrite (bkt_len _ u) by apply set_len. rewrite nth_set by (now apply bkt_lt). destruct (Nat.eqb_spec (bkt u k') (bkt u k)) as [Q|Q].
    + rewrite b_set_find, Q. destruct (eqb k k'); [|reflexivity]. now destruct (b_find eqb k (nth (bkt u k) u [])).
    + destruct (eqb_spec k k') as [->|]; [congruence|reflexivity].
Qed.
Lemma step_ok a u : good u -> good (mstep a u) /\ forall k', find k' (mstep a u) =
  match a with MRef _ k => if eqb k k' then Some (match find k u with Some o => o | None => dflt end) else find k' u | MSet _ k o => if eqb k k' then Some o else find k' u end.
Proof.
  intro G. destruct a as [n k|n k o]; cbn [mstep].
  - pose proof (ref_ok n k u G) as H. destruct (um_ref eqb hash dflt n k u) as [o u']. destruct H as (H1 & H2 & H3). cbn [snd]. split; [exact H1|]. intro k'. now rewrite H3, H2.
  - unfold um_assign. pose proof (ref_ok n k u G) as H. destruct (um_ref eqb hash dflt n k u) as [o1 u']. destruct H as (H1 & H2 & H3). cbn [snd]. destruct (put_ok k o u' H1) as [P1 P2]; [rewrite H3; assert (eqb k k = true) as -> by (now apply E); discriminate|].
    split; [exact P1|]. intro k'. rewrite P2, H3. now destruct (eqb k k').
Qed.

(* what the history l leaves at k: the object last assigned, or a default object *)
Definition left_at k (l : list (mop K O)) o : Prop :=
  (exists n l1 l2, l = l1 ++ MSet n k o :: l2 /\ forall n' o', ~ In (MSet n' k o') l2) \/ (o = dflt /\ forall n' o', ~ In (MSet n' k o') l).
Definition named k (l : list (mop K O)) : Prop := exists n, In (MRef n k) l \/ exists o, In (MSet n k o) l.
Lemma run_ok l : good (mrun l) /\ forall k, match find k (mrun l) with Some o => named k l /\ left_at k l o | None => ~ named k l end.
Proof.
  unfold mrun. induction l as [|a l IH] using rev_ind.
  - split; [now left|]. intro k. cbn [fold_left]. change um_new with ([] : umap). rewrite find_nil. intros (n & [[]|(o & [])]).
  - rewrite fold_left_app. cbn [fold_left]. destruct IH as [G H]. set (u := fold_left (fun u a => mstep a u) l um_new) in *. destruct (step_ok a u G) as [S1 S2]. split; [exact S1|]. intro k. rewrite S2. specialize (H k).
    assert (Old : forall b, (forall n o, b <> MSet n k o) -> forall o, left_at k l o -> left_at k (l ++ [b]) o).
    { intros b Nb o [(n & l1 & l2 & -> & Q)|[-> Q]]; [left|right].
      - exists n, l1, (l2 ++ [b]). split; [now rewrite <- app_assoc|]. intros n' o' I. apply in_app_or in I. destruct I as [I|[I|[]]]; [exact (Q n' o' I)|exact (Nb n' o' I)].
      - split; [reflexivity|]. intros n' o' I. apply in_app_or in I. destruct I as [I|[I|[]]]; [exact (Q n' o' I)|exact (Nb n' o' I)]. }
    assert (Nm : forall b, named k l -> named k (l ++ [b])). { intros b (n & [I|(o & I)]); exists n; [left|right; exists o]; apply in_or_app; now left. }
    assert (Nn : forall b, (forall n, b <> MRef n k) -> (forall n o, b <> MSet n k o) -> ~ named k l -> ~ named k (l ++ [b])).
    { intros b B1 B2 N (n & [I|(o & I)]); apply in_app_or in I; destruct I as [I|[I|[]]]; [apply N; exists n; now left|exact (B1 n I)|apply N; exists n; right; now exists o|exact (B2 n o I)]. }
    destruct a as [n j|n j o].
    + destruct (eqb_spec j k) as [->|D].
      * split; [exists n; left; apply in_or_app; right; now left|]. apply Old; [discriminate|]. destruct (find k u) as [o|]; [apply H|]. right. split; [reflexivity|]. intros n' o' I. apply H. exists n'. right. now exists o'.
      * destruct (find k u) as [o|]; [destruct H; split; [now apply Nm|now apply Old]|]. apply Nn; [congruence|discriminate|exact H].
    + destruct (eqb_spec j k) as [->|D].
      * split; [exists n; right; exists o; apply in_or_app; right; now left|]. left. exists n, l, []. split; [reflexivity|intros ? ? []].
      * destruct (find k u) as [o'|]; [destruct H; split; [now apply Nm|apply Old; [congruence|assumption]]|]. apply Nn; [discriminate|congruence|exact H].
Qed.
Lemma get_ok l n k : left_at k l (fst (um_ref eqb hash dflt n k (mrun l))).
Proof.
  destruct (run_ok l) as [G H]. specialize (H k). pose proof (ref_ok n k (mrun l) G) as Q. destruct (um_ref eqb hash dflt n k (mrun l)) as [o u']. destruct Q as (_ & -> & _). cbn [fst]. destruct (find k (mrun l)) as [o|]; [apply H|]. right. split; [reflexivity|]. intros n' o' I. apply H. exists n'. right. now exists o'.
Qed.
End P.
