(* Prop_Sparse.v -- C60, C61, C62: compressed and map-based sparse matrices. *)
From Coq Require Import ZArith List Bool Lia Permutation.
Import ListNotations.
From Verif Require Import Base BaseFacts Map Model_BG Model_Containers Proofs_Containers Proofs_Containers2 Proofs_Containers4 Model_Sparse Spec_Sparse
  Proofs_Sparse Proofs_Sparse2 Proofs_Sparse3 Proofs_Sparse4 Proofs_Sparse5.
Local Open Scope Z_scope.

(* ---- C60.  rc: whether range checks are compiled in. ---- *)
Theorem C60_dense_round_trip rc n m x : 0 <= n -> 0 <= m -> exists A R,
  csr_of_dense n m x = Ok A /\ cn A = n /\ cm A = m /\ csr_dense rc A = Ok R /\ is_dense R n m x.
Proof.
  intros Hn Hm. destruct (csr_of_dense_ok n m x Hn Hm) as (A & E & H & Em). destruct (csr_dense_ok rc A _ H) as (R & ER & D1 & D2 & D3).
  pose proof H as (En & _). rewrite drows_len in En by exact Hn. exists A, R. split; [exact E|]. split; [exact En|]. split; [exact Em|]. split; [exact ER|].
  rewrite En in D1, D3. rewrite Em in D2, D3. split; [exact D1|]. split; [exact D2|]. intros i j Hi Hj. rewrite D3 by assumption. now apply drows_elems.
Qed.
Theorem C60_stores_the_nonzeros rc n m x : 0 <= n -> 0 <= m -> exists A l, csr_of_dense n m x = Ok A /\ csr_calls rc A = Ok l /\ NoDup (map fst l) /\
  forall i j v, In (i, j, v) l <-> 0 <= i < n /\ 0 <= j < m /\ v = x i j /\ v <> 0.
Proof.
  intros Hn Hm. destruct (csr_of_dense_ok n m x Hn Hm) as (A & E & H & Em). exists A, (elems (drows n m x)). split; [exact E|]. split; [now apply csr_calls_ok|]. split; [eapply elems_nodup; exact H|].
  intros i j v. rewrite in_elems, drows_len by exact Hn. split.
  - intros [Hi Hp]. rewrite drows_row in Hp by exact Hi. unfold nzrow in Hp. apply in_map_iff in Hp as (a & [= -> <-] & Ha). apply filter_In in Ha as [Ha Hz]. apply in_zrange in Ha.
    split; [exact Hi|]. split; [exact Ha|]. split; [reflexivity|]. intro K. rewrite K in Hz. discriminate.
  - intros (Hi & Hj & -> & Hz). split; [exact Hi|]. rewrite drows_row by exact Hi. unfold nzrow. apply in_map_iff. exists j. split; [reflexivity|]. apply filter_In. split; [now apply in_zrange|].
    apply negb_true_iff. now apply Z.eqb_neq.
Qed.
(* any matrix with well-formed rows, not only one converted from a dense matrix *)
Theorem C60_transpose_elements rc A rows : csr_rep A rows -> exists T rows' l l', csr_transp rc A = Ok T /\ csr_rep T rows' /\ cn T = cm A /\ cm T = cn A /\
  csr_calls rc A = Ok l /\ csr_calls rc T = Ok l' /\ Permutation l' (map swap3 l).
Proof.
  intro H. destruct (csr_transp_ok rc A rows H) as (T & E & HT & En & Em). exists T, (trows (cm A) (elems rows)), (elems rows), (elems (trows (cm A) (elems rows))).
  split; [exact E|]. split; [exact HT|]. split; [exact En|]. split; [exact Em|]. split; [now apply csr_calls_ok|]. split; [now apply csr_calls_ok|].
  apply trows_elems; [apply H|eapply elems_nodup; exact H|]. intros [[i j] v] Hc. apply (elems_range A rows i j v H Hc).
Qed.
Theorem C60_transpose_is_the_transpose rc n m x : 0 <= n -> 0 <= m -> exists A T R,
  csr_of_dense n m x = Ok A /\ csr_transp rc A = Ok T /\ csr_dense rc T = Ok R /\ is_dense R m n (fun j i => x i j).
Proof.
  intros Hn Hm. destruct (csr_of_dense_ok n m x Hn Hm) as (A & E & H & Em). destruct (csr_transp_ok rc A _ H) as (T & ET & HT & EnT & EmT). destruct (csr_dense_ok rc T _ HT) as (R & ER & D1 & D2 & D3).
  pose proof H as (En & _). rewrite drows_len in En by exact Hn. exists A, T, R. split; [exact E|]. split; [exact ET|]. split; [exact ER|]. rewrite EnT, Em in D1, D3. rewrite EmT, En in D2, D3.
  split; [exact D1|]. split; [exact D2|]. intros j i Hj Hi. rewrite D3 by assumption.
  assert (N : NoDup (map fst (elems (drows n m x)))) by (eapply elems_nodup; exact H).
  assert (P : Permutation (elems (trows m (elems (drows n m x)))) (map swap3 (elems (drows n m x)))). { apply trows_elems; [exact Hm|exact N|]. intros [[a b] v] Hc. rewrite <- Em. apply (elems_range A _ a b v H Hc). }
  rewrite (entry_perm _ (map swap3 (elems (drows n m x)))); [|rewrite Em in HT; eapply elems_nodup; exact HT|exact P]. rewrite entry_swap by exact N. now apply drows_elems.
Qed.
(* transposing twice: same sizes, same elements visited in the same order *)
Theorem C60_transpose_twice rc n m x : 0 <= n -> 0 <= m -> exists A T A' l,
  csr_of_dense n m x = Ok A /\ csr_transp rc A = Ok T /\ csr_transp rc T = Ok A' /\ cn A' = n /\ cm A' = m /\ csr_calls rc A = Ok l /\ csr_calls rc A' = Ok l.
Proof.
  intros Hn Hm. destruct (csr_of_dense_ok n m x Hn Hm) as (A & E & H & Em). destruct (csr_transp_ok rc A _ H) as (T & ET & HT & EnT & EmT). destruct (csr_transp_ok rc T _ HT) as (A' & EA & HA & En' & Em').
  pose proof H as (En & _). rewrite drows_len in En by exact Hn. exists A, T, A', (elems (drows n m x)). split; [exact E|]. split; [exact ET|]. split; [exact EA|]. split; [congruence|]. split; [congruence|].
  split; [now apply csr_calls_ok|]. rewrite EmT, Em, En, drows_twice in HA by assumption. now apply csr_calls_ok.
Qed.
Print Assumptions C60_transpose_twice.
(* transp() computes the transpose once *)
Theorem C60_first_transp rc A rows : csr_rep A rows -> exists T, csrc_transp rc (CSRC A None) = Ok (T, CSRC A (Some T)) /\ csr_transp rc A = Ok T.
Proof. intro H. destruct (csr_transp_ok rc A rows H) as (T & E & _). exists T. unfold csrc_transp. cbn. rewrite E. now split. Qed.
(* and keeps answering with it: after any element update or assignment, transp() still returns the old transpose *)
Inductive csr_change (rc : bool) : csrc -> csrc -> Prop :=
| ch_set A i k j v A' : csrc_set_at rc A i k j v = Ok A' -> csr_change rc A A'
| ch_assign A x A' : csrc_assign A x = Ok A' -> csr_change rc A A'
| ch_none A : csr_change rc A A
| ch_seq A B D : csr_change rc A B -> csr_change rc B D -> csr_change rc A D.
Theorem C60_stale_transpose_refuted rc A T A1 A2 : csrc_transp rc A = Ok (T, A1) -> csr_change rc A1 A2 -> csrc_transp rc A2 = Ok (T, A2).
Proof.
  intros E C. assert (K : ccache A1 = Some T). { unfold csrc_transp in E. destruct (ccache A) as [T'|] eqn:EC; [injection E as -> <-; exact EC|]. destruct (csr_transp rc (cbase A)) as [T'| |]; try discriminate. cbn in E. now injection E as <- <-. }
  assert (K2 : ccache A2 = Some T). { clear E. induction C as [A1 i k j v A' H|A1 x A' H|A1|A1 B D C1 IH1 C2 IH2]; [| |exact K|auto].
    - unfold csrc_set_at in H. destruct (csr_set_at rc (cbase A1) i k j v) as [b| |]; try discriminate. cbn in H. now injection H as <-.
    - unfold csrc_assign in H. destruct (csr_copy (cbase x)) as [b| |]; try discriminate. cbn in H. now injection H as <-. }
  unfold csrc_transp. now rewrite K2.
Qed.
Print Assumptions C60_stale_transpose_refuted.
Definition case_x : Z -> Z -> Z := fun i j => nth (Z.to_nat j) (nth (Z.to_nat i) [[0; 7; 0]; [5; 0; -2]] []) 0.
Example C60_case : match csr_of_dense 2 3 case_x with
  | Ok A => match csr_calls true A, csr_transp true A with
            | Ok l, Ok T => l = [(0, 1, 7); (1, 0, 5); (1, 2, -2)] /\ csr_calls true T = Ok [(0, 1, 5); (1, 0, 7); (2, 1, -2)]
            | _, _ => False end
  | _ => False end.
Proof. vm_compute. split; reflexivity. Qed.
Example C60_stale_case : match csr_of_dense 2 3 case_x with
  | Ok A => match csrc_transp true (CSRC A None) with
            | Ok (T, A1) => match csrc_set_at true A1 0 0 1 9 with
                            | Ok A2 => match csrc_transp true A2, csr_transp true (cbase A2) with
                                       | Ok (T2, _), Ok T3 => csr_calls true T2 = Ok [(0, 1, 5); (1, 0, 7); (2, 1, -2)] /\ csr_calls true T3 = Ok [(0, 1, 5); (1, 0, 9); (2, 1, -2)]
                                       | _, _ => False end
                            | _ => False end
            | _ => False end
  | _ => False end.
Proof. vm_compute. split; reflexivity. Qed.

(* ---- C61 ---- *)
(* a stored element is returned (the range check compares the row index with the number of columns) *)
Theorem C61_stored_element rc A rows i j v : csr_rep A rows -> 0 <= i < cn A -> (rc = true -> i < cm A) -> In (j, v) (rowz rows i) -> csr_get rc A i j = Ok v.
Proof.
  intros H Hi Hc Hin. pose proof H as (En & _ & _ & _ & Hf). rewrite En in Hi. destruct (csr_get_scan rc A rows i j H Hi Hc) as (o & Ho & _ & C & E & _). rewrite E. apply scan_found; [exact C| |exact Hin].
  rewrite Forall_forall in Hf. apply (Hf _ (rowz_in rows i Hi)).
Qed.
(* the same for a matrix made from a dense one, in terms of its entries *)
Theorem C61_nonzero_entry rc n m x i j : 0 <= i < n -> 0 <= j < m -> (rc = true -> i < m) -> x i j <> 0 -> exists A, csr_of_dense n m x = Ok A /\ csr_get rc A i j = Ok (x i j).
Proof.
  intros Hi Hj Hc Hx. destruct (csr_of_dense_ok n m x) as (A & E & H & Em); [lia|lia|]. exists A. split; [exact E|]. pose proof H as (En & _). rewrite drows_len in En by lia.
  apply (C61_stored_element rc A (drows n m x)); [exact H|lia|now rewrite Em|]. rewrite drows_row by exact Hi. unfold nzrow. apply in_map_iff. exists j. split; [reflexivity|]. apply filter_In. split; [now apply in_zrange|].
  apply negb_true_iff. now apply Z.eqb_neq.
Qed.
Print Assumptions C61_nonzero_entry.
(* an element that is not stored is never reported as zero: an answer comes from a cell past the end of the row, and in an empty row the call throws *)
Theorem C61_absent_element_refuted rc A rows i j : csr_rep A rows -> 0 <= i < cn A -> (rc = true -> i < cm A) -> (forall v, ~ In (j, v) (rowz rows i)) ->
  (rowz rows i = [] -> csr_get rc A i j = Throw) /\
  forall w, csr_get rc A i j = Ok w -> exists o q, it_get (adir (cpool A)) i 0 = Ok o /\ zlen (rowz rows i) <= q < 2 * zlen (rowz rows i) /\
    cell (amem (cpool A)) (o + 2 * q) = Some j /\ cell (amem (cpool A)) (o + 2 * q + 1) = Some w.
Proof.
  intros H Hi Hc Hin. pose proof H as (En & _). rewrite En in Hi. destruct (csr_get_scan rc A rows i j H Hi Hc) as (o & Ho & _ & C & E & Eo). rewrite E. split.
  - intro R0. rewrite R0. reflexivity.
  - intros w Hw. destruct (scan_ok _ _ _ _ _ _ Hw) as (q & Hq & C1 & C2). exists o, q. split; [exact Eo|]. split; [|now split]. split; [|pose proof (zlen_nonneg (rowz rows i)); lia].
    destruct (Z_lt_le_dec q (zlen (rowz rows i))) as [L|L]; [|exact L]. exfalso. rewrite (row_cell _ _ _ q C) in C1 by lia. injection C1 as C1.
    set (p := nth (Z.to_nat q) (rowz rows i) (0, 0)) in *. apply (Hin (snd p)). rewrite <- C1. rewrite <- surjective_pairing. apply nth_In. unfold zlen in L. lia.
Qed.
(* so the entry (0,1) of the diagonal matrix (u,v) is reported as v, and no entry of an empty row can be read *)
Theorem C61_diagonal_refuted u v : u <> 0 -> v <> 0 -> exists A, csr_of_dense 2 2 (fun i j => if i =? j then if i =? 0 then u else v else 0) = Ok A /\ csr_get false A 0 1 = Ok v /\ csr_get true A 0 1 = Ok v.
Proof. intros Hu Hv. destruct u as [|u|u], v as [|v|v]; try congruence; (eexists; split; [vm_compute; reflexivity|split; vm_compute; reflexivity]). Qed.
(* with range checks on, no entry of a row past the number of columns can be read *)
Theorem C61_tall_matrix_refuted A i j : cm A <= i -> csr_get true A i j = Throw.
Proof. intro H. unfold csr_get, chk. cbn [andb]. destruct (negb (i <? cn A)); [reflexivity|]. replace (i <? cm A) with false by (symmetry; apply Z.ltb_ge; lia). reflexivity. Qed.
Print Assumptions C61_absent_element_refuted.
Example C61_case : match csr_of_dense 2 3 case_x with
  | Ok A => csr_get true A 1 2 = Ok (-2) /\ csr_get true A 0 1 = Ok 7 /\ csr_get true A 0 0 = Ok 5
  | _ => False end.
Proof. vm_compute. repeat split. Qed.

(* ---- C62.  ws is any sequence of set(i,j,v) inside the matrix. ---- *)
Definition sr_sets (n m : Z) (ws : list (Z * Z * Z)) : res srm := foldM (fun w A => sr_set (fst (fst w)) (snd (fst w)) (snd w) A) ws (sr_new n m).
Definition in_matrix (n m : Z) (ws : list (Z * Z * Z)) : Prop := Forall (fun w => 0 <= fst (fst w) < n /\ 0 <= snd (fst w) < m) ws.
Definition val_at (i j : Z) (ws : list (Z * Z * Z)) : Z := match last_write i j ws with Some v => v | None => 0 end.
Lemma in_matrix_lt n m ws : in_matrix n m ws -> Forall (fun w => fst (fst w) < n /\ snd (fst w) < m) ws.
Proof. intro H. eapply Forall_impl; [|exact H]. cbn. intros w Hw. lia. Qed.
Lemma run_nonneg n m ws i j v : in_matrix n m ws -> mom_find i j (mom_run ws) = Some v -> 0 <= i /\ 0 <= j.
Proof. intros H E. rewrite mom_run_find in E. apply last_write_in in E. unfold in_matrix in H. rewrite Forall_forall in H. specialize (H _ E). cbn in H. lia. Qed.
Theorem C62_last_write n m ws : in_matrix n m ws -> exists A, sr_sets n m ws = Ok A /\ sn A = n /\ sm A = m /\ forall i j, i < n -> sr_get A i j = Ok (val_at i j ws).
Proof.
  intro H. apply in_matrix_lt in H. exists (SRM n m (mom_run ws)). split; [now apply sets_run|]. split; [reflexivity|]. split; [reflexivity|]. intros i j Hi. rewrite sr_get_find. cbn.
  replace (i <? n) with true by (symmetry; now apply Z.ltb_lt). cbn. f_equal. unfold val_at. now rewrite mom_run_find.
Qed.
Theorem C62_outside_refused i j v A : sn A <= i \/ sm A <= j -> sr_set i j v A = Throw.
Proof.
  intro H. unfold sr_set. destruct (Z.ltb_spec i (sn A)) as [L|]; [|reflexivity]. cbn. destruct (Z.ltb_spec j (sm A)) as [L'|]; [lia|reflexivity].
Qed.
Theorem C62_transpose n m ws : in_matrix n m ws -> exists A T, sr_sets n m ws = Ok A /\ sr_transp A = Ok T /\ sn T = m /\ sm T = n /\ forall i j, j < m -> sr_get T j i = Ok (val_at i j ws).
Proof.
  intro H. apply in_matrix_lt in H. destruct (sr_transp_ok _ (run_srwf n m ws H)) as (T & ET & WT & En & Em & Hf). exists (SRM n m (mom_run ws)), T. split; [now apply sets_run|]. split; [exact ET|]. cbn in En, Em.
  split; [exact En|]. split; [exact Em|]. intros i j Hj. rewrite sr_get_find, En. replace (j <? m) with true by (symmetry; now apply Z.ltb_lt). cbn. f_equal. rewrite Hf. cbn. unfold val_at. now rewrite mom_run_find.
Qed.
(* == compares the sizes and what has been written *)
Theorem C62_equality_of_written n m ws n' m' ws' : in_matrix n m ws -> in_matrix n' m' ws' -> exists A B, sr_sets n m ws = Ok A /\ sr_sets n' m' ws' = Ok B /\
  (sr_eq A B = true <-> n = n' /\ m = m' /\ forall i j, last_write i j ws = last_write i j ws').
Proof.
  intros H H'. apply in_matrix_lt in H, H'. exists (SRM n m (mom_run ws)), (SRM n' m' (mom_run ws')). split; [now apply sets_run|]. split; [now apply sets_run|]. rewrite sr_eq_ok by apply mom_run_wf. cbn.
  split.
  - intros (E1 & E2 & _ & E3). split; [exact E1|]. split; [exact E2|]. intros i j. rewrite <- !mom_run_find. apply E3.
  - intros (E1 & E2 & E3). assert (E4 : forall i j, mom_find i j (mom_run ws) = mom_find i j (mom_run ws')) by (intros i j; rewrite !mom_run_find; apply E3). split; [exact E1|]. split; [exact E2|]. split; [|exact E4].
    assert (G : forall m1 m2, rows_nonempty m1 -> (forall i j, mom_find i j m1 = mom_find i j m2) -> forall i, mfind i m2 = None -> mfind i m1 = None).
    { intros m1 m2 N E i E0. destruct (mfind i m1) as [r|] eqn:Er; [|reflexivity]. exfalso. apply (N i r Er). destruct r as [|[k v] r]; [reflexivity|]. specialize (E i k). unfold mom_find, mom_row in E. rewrite Er, E0 in E. cbn in E. rewrite Z.eqb_refl in E. discriminate. }
    intro i. split; apply G; try apply mom_run_ne; auto.
Qed.
(* with no zero ever stored that is equality of entries *)
Theorem C62_equality_is_equal_entries n m ws ws' : in_matrix n m ws -> in_matrix n m ws' -> Forall (fun w => snd w <> 0) ws -> Forall (fun w => snd w <> 0) ws' -> exists A B, sr_sets n m ws = Ok A /\ sr_sets n m ws' = Ok B /\
  (sr_eq A B = true <-> forall i j, 0 <= i < n -> 0 <= j < m -> sr_get A i j = sr_get B i j).
Proof.
  intros H H' Z1 Z2. destruct (C62_equality_of_written n m ws n m ws' H H') as (A & B & EA & EB & Heq). exists A, B. split; [exact EA|]. split; [exact EB|].
  destruct (C62_last_write n m ws H) as (A' & EA' & _ & _ & GA). rewrite EA in EA'. injection EA' as <-. destruct (C62_last_write n m ws' H') as (B' & EB' & _ & _ & GB). rewrite EB in EB'. injection EB' as <-.
  rewrite Heq. split.
  - intros (_ & _ & E) i j Hi Hj. rewrite GA, GB by lia. unfold val_at. now rewrite E.
  - intro E. split; [reflexivity|]. split; [reflexivity|]. intros i j.
    assert (K : forall us k l v, in_matrix n m us -> Forall (fun w => snd w <> 0) us -> last_write k l us = Some v -> 0 <= k < n /\ 0 <= l < m /\ v <> 0).
    { intros us k l v Hu Hz El. apply last_write_in in El. unfold in_matrix in Hu. rewrite Forall_forall in Hu, Hz. specialize (Hu _ El). specialize (Hz _ El). cbn in *. lia. }
    destruct (last_write i j ws) as [v|] eqn:E1, (last_write i j ws') as [v'|] eqn:E2; [| | |reflexivity].
    + destruct (K _ _ _ _ H Z1 E1) as (Hi & Hj & Hv). specialize (E i j Hi Hj). rewrite GA, GB in E by lia. unfold val_at in E. rewrite E1, E2 in E. congruence.
    + destruct (K _ _ _ _ H Z1 E1) as (Hi & Hj & Hv). specialize (E i j Hi Hj). rewrite GA, GB in E by lia. unfold val_at in E. rewrite E1, E2 in E. congruence.
    + destruct (K _ _ _ _ H' Z2 E2) as (Hi & Hj & Hv). specialize (E i j Hi Hj). rewrite GA, GB in E by lia. unfold val_at in E. rewrite E1, E2 in E. congruence.
Qed.
Print Assumptions C62_equality_is_equal_entries.
(* writing a zero makes a matrix differ from the empty one though all entries agree; so does looking at a row *)
Theorem C62_stored_zero_refuted n m i j : 0 <= i < n -> 0 <= j < m -> exists A, sr_sets n m [(i, j, 0)] = Ok A /\ (forall k l, k < n -> sr_get A k l = sr_get (sr_new n m) k l) /\ sr_eq A (sr_new n m) = false.
Proof.
  intros Hi Hj. destruct (C62_last_write n m [(i, j, 0)]) as (A & E & En & Em & G); [repeat constructor; cbn; lia|]. exists A. split; [exact E|]. split.
  - intros k l Hk. rewrite G by exact Hk. rewrite sr_get_find. cbn [sn sr_new slists]. replace (k <? n) with true by (symmetry; now apply Z.ltb_lt). cbn. unfold val_at, last_write. cbn. destruct ((i =? k) && (j =? l)); reflexivity.
  - unfold sr_sets in E. rewrite sets_run in E by (repeat constructor; cbn; lia). injection E as <-. unfold sr_eq. cbn. now rewrite !andb_false_r.
Qed.
Theorem C62_row_access_refuted n m i : i < n -> exists A, sr_row i (sr_new n m) = Ok ([], A) /\ (forall k l, sr_get A k l = sr_get (sr_new n m) k l) /\ sr_eq A (sr_new n m) = false.
Proof.
  intro Hi. unfold sr_row. cbn. replace (i <? n) with true by (symmetry; now apply Z.ltb_lt). cbn. eexists. split; [reflexivity|]. split.
  - intros k l. unfold sr_get. cbn. rewrite Z.eqb_sym. destruct (k =? i); reflexivity.
  - unfold sr_eq. cbn. now rewrite !andb_false_r.
Qed.
(* == of sparse vectors looks only at the left one *)
Theorem C62_vector_equality_one_sided a b : mwf a -> (sv_eq a b = true <-> forall k v, mfind k a = Some v -> mfind k b = Some v).
Proof. apply sv_eq_ok. Qed.
Theorem C62_vector_equality_refuted k v : sv_eq [] [(k, v)] = true /\ sv_eq [(k, v)] [] = false.
Proof. now split. Qed.
(* dense conversions *)
Theorem C62_dense_round_trip n m x : exists A R, sr_of_dense n m x = Ok A /\ sr_dense A = Ok R /\ is_dense R n m x /\ forall i j, 0 <= i < n -> 0 <= j < m -> sr_get A i j = Ok (x i j).
Proof.
  destruct (sel_ok (fun i j => negb (x i j =? 0)) x n m) as (A & E & W & En & Em & Hf & _). exists A.
  assert (E' : sr_of_dense n m x = Ok A). { unfold sr_of_dense. rewrite <- E. unfold forZ. apply foldM_ext. intros i s _. apply foldM_ext. intros j s' _. now destruct (x i j =? 0). }
  destruct (sr_dense_ok A W) as (R & ER & D1 & D2 & D3). { intros i j v F. rewrite Hf in F. destruct ((0 <=? i) && (i <? n) && (0 <=? j) && (j <? m) && _) eqn:B; [|discriminate]. lia. }
  assert (V : forall i j, 0 <= i < n -> 0 <= j < m -> match mom_find i j (slists A) with Some v => v | None => 0 end = x i j).
  { intros i j Hi Hj. rewrite Hf. destruct (Z.eqb_spec (x i j) 0) as [Z0|Z0]; cbn [negb]; [rewrite andb_false_r; auto|]. replace ((0 <=? i) && (i <? n) && (0 <=? j) && (j <? m) && true) with true by (symmetry; rewrite !andb_true_iff; lia). reflexivity. }
  exists R. split; [exact E'|]. split; [exact ER|]. rewrite En, Em in *. split.
  - split; [exact D1|]. split; [exact D2|]. intros i j Hi Hj. rewrite D3 by assumption. now apply V.
  - intros i j Hi Hj. rewrite sr_get_find, En. replace (i <? n) with true by (symmetry; apply Z.ltb_lt; lia). cbn. f_equal. now apply V.
Qed.
Theorem C62_dense_of_written n m ws : in_matrix n m ws -> exists A R, sr_sets n m ws = Ok A /\ sr_dense A = Ok R /\ is_dense R n m (fun i j => val_at i j ws).
Proof.
  intro H. destruct (sr_dense_ok _ (run_srwf n m ws (in_matrix_lt n m ws H))) as (R & ER & D1 & D2 & D3); [intros i j v; apply (run_nonneg n m ws i j v H)|]. exists (SRM n m (mom_run ws)), R.
  split; [apply sets_run, in_matrix_lt, H|]. split; [exact ER|]. split; [exact D1|]. split; [exact D2|]. intros i j Hi Hj. rewrite D3 by assumption. cbn. unfold val_at. now rewrite mom_run_find.
Qed.
Print Assumptions C62_dense_of_written.
(* from_matrix keeps only the positive entries *)
Theorem C62_from_matrix_refuted n m x : exists A, sr_from_matrix n m x = Ok A /\ forall i j, 0 <= i < n -> 0 <= j < m -> sr_get A i j = Ok (if 0 <? x i j then x i j else 0).
Proof.
  destruct (sel_ok (fun i j => 0 <? x i j) x n m) as (A & E & W & En & Em & Hf & _). exists A. split; [exact E|]. intros i j Hi Hj. rewrite sr_get_find, En. replace (i <? n) with true by (symmetry; apply Z.ltb_lt; lia). cbn. f_equal.
  rewrite Hf. replace ((0 <=? i) && (i <? n) && (0 <=? j) && (j <? m)) with true by (symmetry; rewrite !andb_true_iff; lia). cbn. now destruct (0 <? x i j).
Qed.
(* from_list never succeeds: the sizes are the largest indices, not one more *)
Theorem C62_from_list_refuted M : M <> [] -> Forall (fun p => 0 <= fst p) M -> sr_from_list M = Throw.
Proof.
  intros Hne Hf. unfold sr_from_list. set (n := fold_left (fun a p => Z.max (fst p) a) M 0). set (m := fold_left (fun a p => Z.max (snd p) a) M 0).
  assert (X : exists p, In p M /\ n <= fst p).
  { assert (G : forall l a, (fold_left (fun a p => Z.max (fst p) a) l a = a \/ exists p : Z * Z, In p l /\ fold_left (fun a p => Z.max (fst p) a) l a = fst p) /\ a <= fold_left (fun a p => Z.max (fst p) a) l a).
    { induction l as [|p l IH]; intro a; [cbn; split; [now left|lia]|]. cbn [fold_left]. destruct (IH (Z.max (fst p) a)) as [[E|(q & Hq & E)] L]; (split; [|lia]).
      - rewrite E. destruct (Z.max_spec (fst p) a) as [[_ ->]|[_ ->]]; [now left|]. right. exists p. split; [now left|reflexivity].
      - right. exists q. split; [now right|exact E]. }
    destruct (G M 0) as [[E|(q & Hq & E)] L]; fold n in E; [|exists q; split; [exact Hq|lia]]. destruct M as [|p M]; [congruence|]. exists p. split; [now left|]. inversion Hf; subst. lia. }
  assert (G : forall l R, sn R = n -> (exists p, In p l /\ n <= fst p) -> foldM (fun p R => sr_set (fst p) (snd p) 1 R) l R = Throw).
  { induction l as [|p l IH]; intros R En (q & Hq & Lq); [destruct Hq|]. cbn [foldM]. unfold sr_set at 1. rewrite En. destruct (Z.ltb_spec (fst p) n) as [L|L]; [|reflexivity]. cbn [assrt]. destruct (snd p <? sm R); [|reflexivity]. cbn [assrt bind].
    apply IH; [reflexivity|]. destruct Hq as [-> |Hq]; [lia|]. now exists q. }
  apply G; [reflexivity|exact X].
Qed.
(* csrmatrix() stores all the elements but leaves the sizes of the result 0 by 0 *)
Theorem C62_csr_elements n m ws : 0 <= n -> 0 <= m -> in_matrix n m ws -> exists A C l, sr_sets n m ws = Ok A /\ sr_csr A = Ok C /\ csr_calls false C = Ok l /\ Permutation l (sr_calls A).
Proof.
  intros Hn Hm H. pose proof (run_srwf n m ws (in_matrix_lt n m ws H)) as W. destruct (sr_csr_ok _ W Hn Hm) as (P & E & HP); [intros i j v; apply (run_nonneg n m ws i j v H)|].
  exists (SRM n m (mom_run ws)), (CSR 0 0 P), (elems (srows (SRM n m (mom_run ws)))). split; [apply sets_run, in_matrix_lt, H|]. split; [exact E|].
  split; [apply (csr_calls_ok false _ _ HP)|]. apply srows_elems; [exact W|intros i j v; apply (run_nonneg n m ws i j v H)|exact Hn].
Qed.
Theorem C62_csr_sizes_refuted n m ws : 0 < n -> 0 <= m -> in_matrix n m ws -> exists A C, sr_sets n m ws = Ok A /\ sr_csr A = Ok C /\ cn C = 0 /\ cm C = 0 /\ csr_calls true C = Throw /\ csr_dense true C = Throw /\
  (ws <> [] -> csr_dense false C = UB /\ csr_transp false C = UB).
Proof.
  intros Hn Hm H. pose proof (run_srwf n m ws (in_matrix_lt n m ws H)) as W. destruct (sr_csr_ok _ W (Z.lt_le_incl _ _ Hn) Hm) as (P & E & HP); [intros i j v; apply (run_nonneg n m ws i j v H)|].
  set (A := SRM n m (mom_run ws)) in *. exists A, (CSR 0 0 P). split; [apply sets_run, in_matrix_lt, H|]. split; [exact E|]. split; [reflexivity|]. split; [reflexivity|].
  assert (Es : ap_size P = n). { pose proof HP as (_ & _ & Hp & _). cbn [cpool] in Hp. rewrite (prep_size _ _ Hp). unfold zlen. rewrite map_length. fold (zlen (srows A)). apply srows_len. cbn. lia. }
  assert (Et : csr_calls true (CSR 0 0 P) = Throw).
  { unfold csr_calls. cbn [cpool]. rewrite Es. replace (zrange n) with (0 :: map Z.succ (zrange (n - 1))) by (rewrite (zrange_cons n) by lia; reflexivity). reflexivity. }
  split; [exact Et|]. split; [unfold csr_dense; now rewrite Et|].
  intro Hne. pose proof (csr_calls_ok false _ _ HP) as Ec. change (csr_calls false (CSR (sn A) (sm A) P)) with (csr_calls false (CSR 0 0 P)) in Ec.
  assert (Hel : elems (srows A) <> []).
  { intro E0. pose proof (srows_elems A W) as Pm. rewrite E0 in Pm. specialize (Pm ltac:(intros i j v; apply (run_nonneg n m ws i j v H)) ltac:(cbn; lia)). apply Permutation_nil in Pm.
    destruct (exists_last Hne) as (ws0 & [[i j] v] & Ew). assert (F : mom_find i j (slists A) = Some v). { cbn. rewrite mom_run_find, Ew. unfold last_write. rewrite rev_app_distr. cbn. now rewrite !Z.eqb_refl. }
    apply mom_calls_in in F; [|apply W]. fold (sr_calls A) in F. rewrite Pm in F. destruct F. }
  destruct (elems (srows A)) as [|[[i j] v] l]; [congruence|]. split.
  - unfold csr_dense. rewrite Ec. cbn [bind foldM cn cm fst snd]. unfold d_set at 1. cbn [dn d_zero dm]. destruct ((0 <=? i) && (i <? 0)) eqn:B; [exfalso; lia|reflexivity].
  - unfold csr_transp. cbn [cn cm cpool]. destruct (prep_reserve (atail P) (ap_new_n 0) []) as (Q & EQ & _); [apply prep_new|]. rewrite EQ. cbn [bind]. rewrite Ec. cbn [bind foldM]. unfold cnt_inc at 1, cnt_get at 1. cbn [fst snd]. destruct ((0 <=? j) && (j <? 0)) eqn:B; [exfalso; lia|reflexivity].
Qed.
Print Assumptions C62_csr_sizes_refuted.
Example C62_case : let ws := [(0, 1, 3); (1, 0, 4); (0, 1, -5)] in in_matrix 2 2 ws /\
  match sr_sets 2 2 ws with Ok A => sr_get A 0 1 = Ok (-5) /\ sr_get A 1 1 = Ok 0 /\ match sr_transp A with Ok T => sr_get T 1 0 = Ok (-5) /\ sr_eq A T = false | _ => False end | _ => False end.
Proof. split; [repeat constructor; cbn; lia|]. vm_compute. repeat split. Qed.
Example C62_list_case : sr_from_list [(0, 0); (1, 2)] = Throw /\ sr_from_list [(0, 0)] = Throw. Proof. now split. Qed.
Example C62_csr_case : match sr_sets 2 2 [(0, 1, 3); (1, 0, 4)] with Ok A => match sr_csr A with Ok C => csr_calls false C = Ok [(0, 1, 3); (1, 0, 4)] /\ csr_transp false C = UB | _ => False end | _ => False end.
Proof. vm_compute. now split. Qed.
