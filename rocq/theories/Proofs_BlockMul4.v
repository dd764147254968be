(* Tables made from the offsets of a block sparse matrix. *)
From Coq Require Import ZArith List Bool Lia Permutation Sorting.Sorted.
Import ListNotations.
From Verif Require Import Base BaseFacts Map Model_Containers Proofs_Containers Proofs_Containers2 Proofs_Containers3 Proofs_Containers4 Model_Index Model_View Model_Tensor
  Model_Gather Spec_Gather Proofs_Gather Proofs_Gather5 Model_Block Spec_Block Spec_BlockMul Proofs_Block Model_BlockMul Proofs_BlockMul.
Open Scope Z_scope.

Lemma keys_sorted {V} (l : zmap V) : mwf l -> StronglySorted Z.lt (map fst (by_key l)).
Proof.
  intro W. apply by_key_wf in W. pose proof (by_key_sorted l) as S0. unfold mwf in W. induction S0 as [|p k S1 IH F]; [constructor|]. cbn [map] in *. inversion W as [|? ? N W']; subst. constructor; [now apply IH|].
  apply Forall_forall. intros x Hx. apply in_map_iff in Hx as (q & <- & Hq). rewrite Forall_forall in F. specialize (F q Hq). cbn in F. destruct (Z.eq_dec (fst p) (fst q)) as [E|E]; [|lia]. exfalso. apply N. rewrite E. now apply in_map.
Qed.
Lemma walk_tabulates t l : momwf t -> rows_nonempty t -> (forall i j, In (i, j) l <-> mom_find i j t <> None) -> tabulates (map (fun p => (fst p, map fst (snd p))) (walk t)) l.
Proof.
  intros W Ne Hl. split; [|split].
  - unfold walk. rewrite !map_map. cbn. apply keys_sorted. apply W.
  - intros i js Hin. unfold walk in Hin. rewrite map_map in Hin. apply in_map_iff in Hin as ([k r] & E & Hin). cbn in E. injection E as -> <-. apply (Permutation_in _ (by_key_perm t)) in Hin. apply mfind_iff in Hin; [|apply W]. split; [|apply keys_sorted; now apply (proj2 W i)].
    specialize (Ne i r Hin). intro E. apply map_eq_nil in E. apply Ne. apply Permutation_nil. rewrite <- E. apply by_key_perm.
  - intros i j. rewrite Hl. split.
    + intro H. destruct (mom_find i j t) as [v|] eqn:E; [|congruence]. rewrite <- walk_get in E by exact W. unfold mom_find, mom_row in E. destruct (mfind i (walk t)) as [r|] eqn:Er; [|discriminate].
      exists (map fst r). split; [apply mfind_in in Er; apply in_map_iff; exists (i, r); auto|]. apply mfind_in in E. now apply (in_map fst) in E.
    + intros (js & Hin & Hj). apply in_map_iff in Hin as ([k r] & E & Hin). cbn in E. injection E as -> <-. apply mfind_iff in Hin; [|apply (walk_wf t W)]. apply in_map_iff in Hj as ([j' v] & <- & Hj). cbn.
      rewrite <- walk_get by exact W. unfold mom_find, mom_row. rewrite Hin. intro E. apply mfind_none in E. apply E. now apply (in_map fst) in Hj.
Qed.
Lemma gather_table t l : momwf t -> rows_nonempty t -> (forall i j, In (i, j) l <-> mom_find i j t <> None) ->
  exists g rows, gm_of_maps t 1 1 1 1 = Ok g /\ shows (garr g) rows /\ tabulates rows l /\ gout g = max_end 0 (map fst rows) /\ gin g = max_end 0 (flat_map snd rows).
Proof.
  intros W Ne Hl. unfold gm_of_maps. set (rows := map (fun p => (fst p, map fst (snd p))) (walk t)). destruct (gm_of_lists_ok rows 1 1 1 1) as (g & E & Pr & _). exists g, rows. split; [exact E|].
  split; [now apply prep_rd|]. split; [now apply walk_tabulates|]. unfold gm_of_lists in E. destruct (ap_reserve _ ap_new); [|discriminate|discriminate]. cbn [bind] in E. destruct (push_rows rows a); [|discriminate|discriminate]. cbn [bind] in E. injection E as <-. split; reflexivity.
Qed.
Lemma otabc_nonempty l : rows_nonempty (otabc l).
Proof.
  induction l as [|p l IH] using rev_ind; [intros i r E; discriminate|]. intros i r E. unfold otabc in E. rewrite offsets_snoc in E. cbn [fst cmap dm_set] in E. fold (otabc l) in E. unfold mom_set in E. rewrite mfind_set in E. destruct (snd p =? i); [|now apply (IH i)]. injection E as <-.
  destruct (mom_row (snd p) (otabc l)) as [|[k v] q]; cbn [mset]; [discriminate|]. destruct (k =? fst p); discriminate.
Qed.
Lemma otab_has l i j : In (i, j) l <-> mom_find i j (otab l) <> None.
Proof.
  pose proof (otab_none l i j) as N. destruct (mom_find i j (otab l)) as [t|] eqn:E; [|tauto]. split; [discriminate|]. intros _. apply otab_some in E as [_ E]. now apply nth_error_In in E.
Qed.
Lemma mapM_nth {X Y} (f : X -> res Y) l : (forall x, In x l -> exists y, f x = Ok y) -> exists ys, mapM f l = Ok ys /\ length ys = length l /\ forall n x, nth_error l n = Some x -> exists y, f x = Ok y /\ nth_error ys n = Some y.
Proof.
  induction l as [|a l IH]; intro H; [exists []; split; [reflexivity|]; split; [reflexivity|]; intros [|n] x; discriminate|].
  destruct (H a (or_introl eq_refl)) as (y & Ey). destruct IH as (ys & Es & L & N); [intros x Hx; apply H; now right|]. exists (y :: ys). cbn [mapM]. rewrite Ey, Es. split; [reflexivity|]. split; [cbn; now rewrite L|].
  intros [|n] x Hx; cbn in *; [injection Hx as <-; eauto|now apply N].
Qed.
(* the i-th entry is the slot of the first block of the i-th row *)
Lemma row_offsets_ok A ma : made_from A ma -> exists offs rows, bc_row_offsets A = Ok offs /\ tabulates rows ma /\ length offs = length rows /\
  forall n i j js, nth_error rows n = Some (i, j :: js) -> exists t, nth_error offs n = Some t /\ bc_offset A i j = Ok t.
Proof.
  intros (nb & mb & bn & bm & b0 & -> & _). unfold bc_row_offsets. change (Model_Containers.rmap (boffs (bc_make nb mb bn bm ma b0))) with (otab ma). destruct (otab_wf ma) as [W Ne].
  pose proof (walk_tabulates (otab ma) ma W Ne (otab_has ma)) as Tb.
  destruct (mapM_nth (fun p : Z * zmap Z => match snd p with [] => UB | q :: _ => Ok (snd q) end) (walk (otab ma))) as (offs & E & L & N).
  - intros [i r] Hin. cbn. destruct r as [|q r]; [|eauto]. exfalso. destruct Tb as (_ & H & _). destruct (H i []) as [H0 _]; [apply in_map_iff; exists (i, []); auto|]. now apply H0.
  - exists offs. eexists. split; [exact E|]. split; [exact Tb|]. split; [now rewrite map_length|]. intros n i j js Hn. rewrite nth_error_map in Hn. destruct (nth_error (walk (otab ma)) n) as [[i' r]|] eqn:En; [|discriminate].
    cbn in Hn. injection Hn as -> Hr. destruct r as [|[j' t] r]; [discriminate|]. cbn in Hr. injection Hr as -> _. destruct (N n _ En) as (y & Ey & Ny). cbn in Ey. injection Ey as <-. exists t. split; [exact Ny|].
    apply nth_error_In in En. apply mfind_iff in En; [|apply (walk_wf _ W)]. unfold bc_offset. change (Model_Containers.rmap (boffs (bc_make nb mb bn bm ma b0))) with (otab ma).
    assert (F : mom_find i j (otab ma) = Some t). { rewrite <- walk_get by exact W. unfold mom_find, mom_row. rewrite En. cbn. now rewrite Z.eqb_refl. }
    unfold mom_find, mom_row in F. destruct (mfind i (otab ma)); [|discriminate]. now rewrite F.
Qed.
