(* Map.v -- std::map / std::unordered_map with Z keys as association lists.  find returns the value of the
   first entry; operator[]= replaces in place or appends; erase removes.  Iteration order is the order of
   the list; properties about iteration are stated up to permutation, so they hold for any order. *)
From Verif Require Import Base.
Local Open Scope Z_scope.

Notation zmap V := (list (Z * V)) (only parsing).
Fixpoint mfind {V} (k : Z) (m : zmap V) : option V :=
  match m with [] => None | (k', v) :: m' => if k' =? k then Some v else mfind k m' end.
Fixpoint mset {V} (k : Z) (v : V) (m : zmap V) : zmap V :=
  match m with [] => [(k, v)] | (k', v') :: m' => if k' =? k then (k, v) :: m' else (k', v') :: mset k v m' end.
Definition merase {V} (k : Z) (m : zmap V) : zmap V := filter (fun p => negb (fst p =? k)) m.
(* every key occurs once *)
Definition mwf {V} (m : zmap V) : Prop := NoDup (map fst m).

Section Facts.
Context {V : Type}.
Implicit Type m : zmap V.
Lemma mfind_in m k v : mfind k m = Some v -> In (k, v) m.
Proof.
  induction m as [|[k' v'] m IH]; cbn; [discriminate|]. destruct (k' =? k) eqn:E; intro H; [|now right; apply IH].
  injection H as ->. left. f_equal. lia.
Qed.
Lemma mfind_none m k : mfind k m = None <-> ~ In k (map fst m).
Proof.
  induction m as [|[k' v'] m IH]; cbn; [tauto|]. destruct (k' =? k) eqn:E.
  - split; [discriminate|]. intro H. exfalso. apply H. left. lia.
  - rewrite IH. split; [intros H [E'|H']; [lia|auto]|tauto].
Qed.
Lemma mfind_iff m k v : mwf m -> (mfind k m = Some v <-> In (k, v) m).
Proof.
  intro W. split; [apply mfind_in|]. induction m as [|[k' v'] m IH]; cbn; [contradiction|]. inversion W as [|? ? N W']; subst. intros [E|H].
  - injection E as -> ->. now rewrite Z.eqb_refl.
  - destruct (k' =? k) eqn:E; [|now apply IH]. exfalso. apply N. cbn. replace k' with k by lia. now apply (in_map fst) in H.
Qed.
Lemma mfind_set m k v k' : mfind k' (mset k v m) = if k =? k' then Some v else mfind k' m.
Proof.
  induction m as [|[a b] m IH]; cbn.
  - reflexivity.
  - destruct (a =? k) eqn:E; cbn.
    + destruct (k =? k') eqn:E'; [reflexivity|]. replace (a =? k') with false by lia. reflexivity.
    + rewrite IH. destruct (a =? k') eqn:E'; [|reflexivity]. now replace (k =? k') with false by lia.
Qed.
Lemma mset_keys m k v : map fst (mset k v m) = map fst m \/ (map fst (mset k v m) = map fst m ++ [k] /\ ~ In k (map fst m)).
Proof.
  induction m as [|[a b] m IH]; cbn; [right; split; [reflexivity|tauto]|]. destruct (a =? k) eqn:E; cbn.
  - left. f_equal. lia.
  - destruct IH as [->|[-> N]]; [now left|right]. split; [reflexivity|]. intros [E'|H]; [lia|auto].
Qed.
Lemma mset_wf m k v : mwf m -> mwf (mset k v m).
Proof.
  unfold mwf. intro W. destruct (mset_keys m k v) as [->|[-> N]]; [assumption|].
  apply NoDup_rev in W. rewrite <- (rev_involutive (_ ++ _)), rev_app_distr. apply NoDup_rev. cbn. constructor; [|assumption].
  now rewrite <- in_rev.
Qed.
Lemma mset_in m k v p : mwf m -> (In p (mset k v m) <-> p = (k, v) \/ (fst p <> k /\ In p m)).
Proof.
  intro W. destruct p as [a b]. rewrite <- !mfind_iff by auto using mset_wf. rewrite mfind_set. cbn. split.
  - destruct (k =? a) eqn:E; intro H; [left|right; split; [lia|assumption]]. injection H as ->. f_equal. lia.
  - intros [E|[N H]]; [injection E as -> ->; now rewrite Z.eqb_refl|]. now replace (k =? a) with false by lia.
Qed.
Lemma mfind_erase m k k' : mfind k' (merase k m) = if k =? k' then None else mfind k' m.
Proof.
  unfold merase.   induction m as [|[a b] m IH]; cbn; [destruct (_ =? _); reflexivity|]. destruct (a =? k) eqn:E; cbn.
  - rewrite IH. destruct (k =? k') eqn:E'; [reflexivity|]. now replace (a =? k') with false by lia.
  - rewrite IH. destruct (a =? k') eqn:E'; [|reflexivity]. now replace (k =? k') with false by lia.
Qed.
Lemma merase_wf m k : mwf m -> mwf (merase k m).
Proof.
  unfold mwf, merase. induction m as [|[a b] m IH]; cbn; [auto|]. intro W. inversion W as [|? ? N W']; subst.
  destruct (negb (a =? k)); cbn; [|auto]. constructor; [|auto]. intro H. apply N. apply in_map_iff in H as (q & <- & Hq).
  apply filter_In in Hq as [Hq _]. now apply in_map.
Qed.
Lemma mset_length m k v : length (mset k v m) = (length m + match mfind k m with None => 1 | Some _ => 0 end)%nat.
Proof. induction m as [|[a b] m IH]; cbn; [reflexivity|]. destruct (a =? k); cbn; [lia|rewrite IH; lia]. Qed.
Lemma merase_length m k : mwf m -> length m = (length (merase k m) + match mfind k m with None => 0 | Some _ => 1 end)%nat.
Proof.
  unfold merase. induction m as [|[a b] m IH]; cbn; [reflexivity|]. intro W. inversion W as [|? ? N W']; subst.
  destruct (a =? k) eqn:E; cbn; [|rewrite IH by assumption; lia].
  assert (F : mfind k m = None) by (apply mfind_none; intro H; apply N; cbn; now replace a with k by lia).
  specialize (IH W'). rewrite F in IH. lia.
Qed.
Lemma mwf_nodup m : mwf m -> NoDup m.
Proof. unfold mwf. induction m as [|p m IH]; cbn; intro W; constructor; inversion W; subst; auto. intro H. apply H1. now apply in_map. Qed.
(* two maps with the same lookups have the same entries *)
Lemma mfind_ext_perm m m' : mwf m -> mwf m' -> (forall k, mfind k m = mfind k m') -> Permutation m m'.
Proof.
  intros W W' H. apply NoDup_Permutation; auto using mwf_nodup. intros [k v]. rewrite <- !mfind_iff by assumption. now rewrite H.
Qed.
End Facts.
