(* CSR matrices: iteration, conversion to dense, transposition, element access. *)
From Coq Require Import ZArith List Bool Lia Permutation.
Import ListNotations.
From Verif Require Import Base BaseFacts Map Model_BG Model_Containers Proofs_Containers Proofs_Containers2 Proofs_Containers4 Model_Sparse Spec_Sparse Proofs_Sparse.
Open Scope Z_scope.

Lemma nodup_app2 {A} (a b : list A) : NoDup a -> NoDup b -> (forall x, In x a -> In x b -> False) -> NoDup (a ++ b).
Proof.
  intros Na Nb H. induction a as [|x a IH]; [exact Nb|]. inversion Na as [|? ? Nx Na']; subst. cbn [app]. constructor.
  - intro Hc. apply in_app_or in Hc as [Hc|Hc]; [contradiction|]. apply (H x); [now left|exact Hc].
  - apply IH; [exact Na'|]. intros y Hy. apply H. now right.
Qed.

Lemma mapM_okl {A B} (f : A -> res B) (g : A -> B) l : (forall a, In a l -> f a = Ok (g a)) -> mapM f l = Ok (map g l).
Proof. induction l as [|a l IH]; intro H; [reflexivity|]. cbn [mapM map]. rewrite H by (left; reflexivity). cbn [bind]. rewrite IH by (intros; apply H; right; assumption). reflexivity. Qed.
Lemma nth_flat2 r k : 0 <= k < zlen r -> nth (Z.to_nat (2 * k)) (flat2 r) 0 = fst (nth (Z.to_nat k) r (0, 0)) /\ nth (Z.to_nat (2 * k + 1)) (flat2 r) 0 = snd (nth (Z.to_nat k) r (0, 0)).
Proof.
  revert k. induction r as [|p r IH]; intros k Hk; [unfold zlen in Hk; cbn in Hk; lia|]. unfold zlen in *. cbn [length] in Hk. cbn [flat2 flat_map app]. fold (flat2 r).
  destruct (Z.eq_dec k 0) as [-> | N]; [now split|]. specialize (IH (k - 1) ltac:(lia)).
  replace (Z.to_nat (2 * k)) with (S (S (Z.to_nat (2 * (k - 1))))) by lia. replace (Z.to_nat (2 * k + 1)) with (S (S (Z.to_nat (2 * (k - 1) + 1)))) by lia. replace (Z.to_nat k) with (S (Z.to_nat (k - 1))) by lia. exact IH.
Qed.
Lemma map_zrange_nth {A B} (g : A -> B) (d : A) (l : list A) : map (fun k => g (nth (Z.to_nat k) l d)) (zrange (zlen l)) = map g l.
Proof.
  unfold zrange, zlen. rewrite Nat2Z.id, map_map. erewrite map_ext; [|intro k; rewrite Nat2Z.id; reflexivity].
  rewrite <- (map_map (fun k => nth k l d) g). f_equal. induction l as [|a l IH]; [reflexivity|]. cbn [length seq map nth]. f_equal. rewrite <- seq_shift, map_map. exact IH.
Qed.

Lemma rep_dir A rows i : csr_rep A rows -> 0 <= i < zlen rows -> exists o, it_get (adir (cpool A)) i 0 = Ok o /\ it_get (adir (cpool A)) i 1 = Ok (2 * zlen (rowz rows i)) /\
  0 <= o /\ o + 2 * zlen (rowz rows i) <= atail (cpool A) /\ cells (amem (cpool A)) o (flat2 (rowz rows i)) /\ ap_size (cpool A) = zlen rows /\ tab (adir (cpool A)) 2 (zlen rows).
Proof.
  intros (En & Hm & Hp & Ht & Hf) Hi. pose proof (prep_size _ _ Hp) as Es. destruct Hp as (T & Hb & Hh). unfold zlen at 1 in T. rewrite map_length in T. fold (zlen rows) in T.
  specialize (Hh i). unfold zlen at 1 in Hh. rewrite map_length in Hh. specialize (Hh Hi). rewrite rowz_nth in Hh by exact Hi. destruct Hh as (o & H1 & H2 & H3 & H4 & H5). rewrite zlen_flat2 in *.
  exists o. split; [eapply it_get_ok; [exact T|rewrite Z.add_0_r; exact H1]|]. split; [eapply it_get_ok; [exact T|exact H2]|]. repeat split; try assumption; try lia.
  - intros k Hk. apply H5. now rewrite zlen_flat2 in Hk.
  - rewrite Es. unfold zlen. now rewrite map_length.
  - apply T. - apply T. - apply T.
Qed.
Lemma csr_calls_ok rc A rows : csr_rep A rows -> csr_calls rc A = Ok (elems rows).
Proof.
  intro H. unfold csr_calls. assert (Es : ap_size (cpool A) = zlen rows). { destruct H as (_ & _ & Hp & _). rewrite (prep_size _ _ Hp). unfold zlen. now rewrite map_length. }
  rewrite Es, (mapM_okl _ (fun i => row_elems i (rowz rows i))); [reflexivity|]. intros i Hi. apply in_zrange in Hi.
  destruct (rep_dir A rows i H Hi) as (o & E0 & E1 & Ho & Ht & C & _ & T). unfold csr_row_calls, csr_size_of, chk, ap_size_of. destruct H as (En & _). rewrite En, Es.
  replace (i <? zlen rows) with true by (symmetry; apply Z.ltb_lt; lia). replace (rc && negb true)%bool with false by now destruct rc.
  unfold assrt. rewrite E1. cbn [bind]. rewrite E0. cbn [bind]. replace (Z.quot (2 * zlen (rowz rows i)) 2) with (zlen (rowz rows i)) by (rewrite Z.mul_comm, Z.quot_mul; lia).
  rewrite (mapM_okl _ (fun k => (fun p => (i, fst p, snd p)) (nth (Z.to_nat k) (rowz rows i) (0, 0)))); [f_equal; apply (map_zrange_nth (fun p => (i, fst p, snd p)))|].
  intros k Hk. apply in_zrange in Hk. destruct (nth_flat2 (rowz rows i) k Hk) as [N0 N1].
  rewrite (bget_cell _ _ (fst (nth (Z.to_nat k) (rowz rows i) (0, 0)))) by (rewrite C by (rewrite zlen_flat2; lia); now rewrite N0). cbn [bind].
  rewrite (bget_cell _ _ (snd (nth (Z.to_nat k) (rowz rows i) (0, 0)))); [reflexivity|]. rewrite <- Z.add_assoc, C by (rewrite zlen_flat2; lia). now rewrite N1.
Qed.

(* the stored elements *)
Lemma in_elems rows i j v : In (i, j, v) (elems rows) <-> 0 <= i < zlen rows /\ In (j, v) (rowz rows i).
Proof.
  unfold elems. rewrite in_concat. split.
  - intros (l & Hl & Hc). apply in_map_iff in Hl as (a & <- & Ha). apply in_zrange in Ha. unfold row_elems in Hc. apply in_map_iff in Hc as ((j' & v') & E & Hp). injection E as <- <- <-. now split.
  - intros [Hi Hp]. exists (row_elems i (rowz rows i)). split; [apply in_map_iff; exists i; split; [reflexivity|now apply in_zrange]|]. unfold row_elems. apply in_map_iff. now exists (j, v).
Qed.
Lemma rowz_in rows i : 0 <= i < zlen rows -> In (rowz rows i) rows.
Proof. intro H. unfold rowz. apply nth_In. unfold zlen in H. lia. Qed.
Lemma elems_nodup_rows rows : Forall (fun r => NoDup (map fst r)) rows -> NoDup (map fst (elems rows)).
Proof.
  intro Hf. unfold elems. rewrite concat_map, map_map.
  assert (G : forall l, NoDup l -> (forall i, In i l -> 0 <= i < zlen rows) -> NoDup (concat (map (fun i => map fst (row_elems i (rowz rows i))) l))).
  { induction l as [|i l IH]; intros Nl Hl; [constructor|]. inversion Nl as [|? ? Ni Nl']; subst. cbn [map concat]. apply nodup_app2.
    - unfold row_elems. rewrite map_map. cbn. rewrite Forall_forall in Hf. assert (Hn : NoDup (map fst (rowz rows i))) by (apply Hf, rowz_in, Hl; now left).
      clear - Hn. induction (rowz rows i) as [|p r IH]; [constructor|]. cbn [map] in *. inversion Hn as [|? ? Np Hr]; subst. constructor; [|now apply IH]. intro Hc. apply in_map_iff in Hc as (q & E & Hq). injection E as E. apply Np. rewrite <- E. now apply in_map.
    - apply IH; [exact Nl'|]. intros; apply Hl; now right.
    - intros (a, b) H1 H2. apply in_map_iff in H1 as (c1 & E1 & H1). unfold row_elems in H1. apply in_map_iff in H1 as (p & <- & _). injection E1 as <- <-.
      apply in_concat in H2 as (r & Hr & H2). apply in_map_iff in Hr as (i' & <- & Hi'). apply in_map_iff in H2 as (c2 & E2 & H2). unfold row_elems in H2. apply in_map_iff in H2 as (p' & <- & _). injection E2 as E2 _. congruence. }
  apply G; [apply zrange_nodup|]. intros i Hi. now apply in_zrange in Hi.
Qed.
Lemma elems_nodup A rows : csr_rep A rows -> NoDup (map fst (elems rows)).
Proof. intros (_ & _ & _ & _ & Hf). apply elems_nodup_rows. eapply Forall_impl; [|exact Hf]. intros r [H _]. exact H. Qed.
Lemma elems_range A rows i j v : csr_rep A rows -> In (i, j, v) (elems rows) -> 0 <= i < zlen rows /\ 0 <= j < cm A.
Proof.
  intros (_ & _ & _ & _ & Hf) H. apply in_elems in H as [Hi Hp]. split; [exact Hi|]. rewrite Forall_forall in Hf. destruct (Hf _ (rowz_in rows i Hi)) as [_ Hr]. rewrite Forall_forall in Hr. apply (Hr _ Hp).
Qed.

(* the entry function of a list of elements *)
Definition keyb (i j : Z) (c : Z * Z * Z) : bool := (fst (fst c) =? i) && (snd (fst c) =? j).
Lemma keyb_true i j c : keyb i j c = true <-> fst c = (i, j).
Proof. unfold keyb. rewrite andb_true_iff, !Z.eqb_eq. destruct c as [[a b] v]. cbn. split; [now intros [-> ->]|now intros [= -> ->]]. Qed.
Lemma entry_in l i j v : NoDup (map fst l) -> In (i, j, v) l -> entry_of l i j = v.
Proof.
  intros N H. unfold entry_of. fold (keyb i j). induction l as [|c l IH]; [destruct H|]. cbn [find map] in *. inversion N as [|? ? Nc Nl]; subst. destruct (keyb i j c) eqn:E.
  - apply keyb_true in E. destruct H as [-> |H]; [reflexivity|]. exfalso. apply Nc. rewrite E. apply in_map_iff. now exists (i, j, v).
  - destruct H as [-> |H]; [|now apply IH]. exfalso. rewrite (proj2 (keyb_true i j (i, j, v))) in E; [discriminate|reflexivity].
Qed.
Lemma entry_absent l i j : (forall v, ~ In (i, j, v) l) -> entry_of l i j = 0.
Proof.
  intro H. unfold entry_of. fold (keyb i j). destruct (find (keyb i j) l) as [c|] eqn:E; [|reflexivity]. exfalso. apply find_some in E as [Hc Ek]. apply keyb_true in Ek.
  destruct c as [ij v]. cbn in Ek. subst ij. now apply (H v).
Qed.
Lemma entry_perm l l' i j : NoDup (map fst l) -> Permutation l l' -> entry_of l i j = entry_of l' i j.
Proof.
  intros N P. assert (N' : NoDup (map fst l')) by (eapply Permutation_NoDup; [apply Permutation_map, P|exact N]).
  destruct (find (keyb i j) l) as [c|] eqn:E.
  - apply find_some in E as [Hc Ek]. apply keyb_true in Ek. destruct c as [ij v]. cbn in Ek. subst ij. rewrite (entry_in l i j v) by assumption. symmetry. apply entry_in; [assumption|]. now apply (Permutation_in _ P).
  - assert (A : forall v, ~ In (i, j, v) l). { intros v Hv. pose proof (find_none _ _ E _ Hv) as Q. rewrite (proj2 (keyb_true i j (i, j, v))) in Q; [discriminate|reflexivity]. }
    rewrite entry_absent by assumption. symmetry. apply entry_absent. intros v Hv. apply (A v). now apply (Permutation_in _ (Permutation_sym P)).
Qed.
Lemma swap_nodup l : NoDup (map fst l) -> NoDup (map fst (map swap3 l)).
Proof.
  intro N. rewrite map_map. induction l as [|c l IH]; [constructor|]. cbn [map] in *. inversion N as [|? ? Nc Nl]; subst. constructor; [|now apply IH].
  intro H. apply in_map_iff in H as (d & E & Hd). cbn in E. apply Nc. apply in_map_iff. exists d. split; [|exact Hd]. destruct c as [[a b] v], d as [[a' b'] v']. cbn in *. congruence.
Qed.
Lemma entry_swap l i j : NoDup (map fst l) -> entry_of (map swap3 l) j i = entry_of l i j.
Proof.
  intro N. unfold entry_of. clear N. induction l as [|c l IH]; [reflexivity|]. cbn [map find]. destruct c as [[a b] v]. cbn [swap3 fst snd]. rewrite andb_comm. now destruct ((a =? i) && (b =? j)).
Qed.

(* writing the elements into a zero matrix *)
Lemma dense_fold n m l : Forall (fun c => 0 <= fst (fst c) < n /\ 0 <= snd (fst c) < m) l -> NoDup (map fst l) ->
  exists R, foldM (fun c R => d_set (fst (fst c)) (snd (fst c)) (snd c) R) l (d_zero n m) = Ok R /\ is_dense R n m (entry_of l).
Proof.
  intros Hr N.
  destruct (foldM_inv (fun done R => dn R = n /\ dm R = m /\ forall i j, dval R i j = match last_write i j done with Some v => v | None => 0 end)
    (fun c R => d_set (fst (fst c)) (snd (fst c)) (snd c) R) l (d_zero n m)) as (R & E & E1 & E2 & Hv).
  - repeat split.
  - intros done c rest R El (E1 & E2 & Hv). rewrite Forall_forall in Hr. destruct (Hr c) as [H1 H2]; [rewrite El; apply in_or_app; right; now left|].
    unfold d_set. rewrite E1, E2. replace ((0 <=? fst (fst c)) && (fst (fst c) <? n) && (0 <=? snd (fst c)) && (snd (fst c) <? m)) with true.
    + eexists. split; [reflexivity|]. cbn [dn dm dval]. repeat split; []. intros i j. rewrite last_write_snoc. rewrite (Z.eqb_sym (fst (fst c)) i), (Z.eqb_sym (snd (fst c)) j). destruct ((i =? fst (fst c)) && (j =? snd (fst c))); [reflexivity|apply Hv].
    + symmetry. rewrite !andb_true_iff, !Z.leb_le, !Z.ltb_lt. lia.
  - exists R. split; [exact E|]. split; [exact E1|]. split; [exact E2|]. intros i j _ _. rewrite Hv. unfold last_write. rewrite <- (entry_perm (rev l) l).
    + unfold entry_of. change write with (Z * Z * Z)%type. match goal with |- _ = match ?o with Some _ => _ | None => _ end => change (match option_map snd o with Some v => v | None => 0 end = match o with Some c => snd c | None => 0 end); destruct o end; reflexivity.
    + rewrite map_rev. now apply NoDup_rev.
    + symmetry. apply Permutation_rev.
Qed.
Lemma csr_dense_ok rc A rows : csr_rep A rows -> exists R, csr_dense rc A = Ok R /\ is_dense R (cn A) (cm A) (entry_of (elems rows)).
Proof.
  intro H. unfold csr_dense. rewrite (csr_calls_ok rc A rows H). cbn [bind]. apply dense_fold; [|eapply elems_nodup; exact H].
  apply Forall_forall. intros [[i j] v] Hc. destruct (elems_range A rows i j v H Hc). destruct H as (-> & _). now split.
Qed.
Lemma drows_elems n m x i j : 0 <= n -> 0 <= i < n -> 0 <= j < m -> entry_of (elems (drows n m x)) i j = x i j.
Proof.
  intros Hn Hi Hj. destruct (csr_of_dense_ok n m x) as (A & _ & H & _); [exact Hn|lia|]. destruct (Z.eq_dec (x i j) 0) as [E|N].
  - rewrite E. apply entry_absent. intros v Hv. apply in_elems in Hv as [_ Hp]. rewrite drows_row in Hp by exact Hi. unfold nzrow in Hp. apply in_map_iff in Hp as (a & [= -> <-] & Ha). apply filter_In in Ha as [_ Ha]. rewrite E in Ha. discriminate.
  - apply entry_in; [eapply elems_nodup; exact H|]. apply in_elems. rewrite drows_len by exact Hn. split; [exact Hi|]. rewrite drows_row by exact Hi. unfold nzrow. apply in_map_iff. exists j. split; [reflexivity|].
    apply filter_In. split; [now apply in_zrange|]. apply negb_true_iff. now apply Z.eqb_neq.
Qed.
