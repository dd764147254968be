(* The product of two block sparse matrices. *)
From Coq Require Import ZArith List Bool Lia Permutation.
Import ListNotations.
From Verif Require Import Base BaseFacts Map Model_Containers Proofs_Containers Proofs_Containers2 Proofs_Containers4 Model_Index Model_View Model_Tensor
  Spec_Index Spec_View Spec_Tensor Proofs_Index Proofs_View Proofs_View2 Proofs_Tensor Proofs_Tensor2 Proofs_Tensor3 Model_Ops Model_Gather Proofs_Gather Model_Block Spec_Block Proofs_Block Proofs_Block2 Model_BlockMul.
Open Scope Z_scope.

(* ---- tables in order *)
Lemma perm_mfind {V} (l k : zmap V) i : mwf l -> Permutation k l -> mfind i k = mfind i l.
Proof.
  intros W P. assert (Wk : mwf k). { unfold mwf in *. apply (Permutation_NoDup (l := map fst l)); [apply Permutation_map; now symmetry|exact W]. }
  destruct (mfind i l) as [v|] eqn:E.
  - apply mfind_iff; [exact Wk|]. apply mfind_iff in E; [|exact W]. apply (Permutation_in _ (Permutation_sym P)). exact E.
  - apply mfind_none. apply mfind_none in E. intro H. apply E. apply (Permutation_in _ (Permutation_map fst P)). exact H.
Qed.
Lemma by_key_wf {V} (l : zmap V) : mwf l -> mwf (by_key l).
Proof. intro W. unfold mwf in *. apply (Permutation_NoDup (l := map fst l)); [apply Permutation_map; symmetry; apply by_key_perm|exact W]. Qed.
Lemma walk_find t i : momwf t -> mfind i (walk t) = match mfind i t with Some r => Some (by_key r) | None => None end.
Proof.
  intros [W _]. rewrite <- (perm_mfind t (by_key t) i W (by_key_perm t)). unfold walk. induction (by_key t) as [|[k r] l IH]; [reflexivity|]. cbn. destruct (k =? i); [reflexivity|exact IH].
Qed.
Lemma walk_wf t : momwf t -> momwf (walk t).
Proof.
  intro W. split.
  - destruct W as [W _]. apply by_key_wf in W. unfold mwf in *. unfold walk. rewrite map_map. cbn. exact W.
  - intros i r E. rewrite (walk_find t i W) in E. destruct (mfind i t) as [r'|] eqn:F; [|discriminate]. injection E as <-. apply by_key_wf. now apply (proj2 W i).
Qed.
Lemma walk_get t i j : momwf t -> mom_find i j (walk t) = mom_find i j t.
Proof.
  intro W. unfold mom_find, mom_row. rewrite (walk_find t i W). destruct (mfind i t) as [r|] eqn:F; [|reflexivity]. apply perm_mfind; [now apply (proj2 W i)|apply by_key_perm].
Qed.
Definition otabc (l : list (Z * Z)) : mom := cmap (fst (offsets_of l)).
Lemma otabc_wf l : momwf (otabc l).
Proof.
  induction l as [|p l IH] using rev_ind; [split; [constructor|intros i r E; discriminate]|]. unfold otabc. rewrite offsets_snoc. cbn [fst cmap dm_set]. now apply mom_set_wf.
Qed.
Lemma otabc_find l i j : mom_find j i (otabc l) = mom_find i j (otab l).
Proof.
  induction l as [|p l IH] using rev_ind; [reflexivity|]. rewrite otab_snoc. unfold otabc. rewrite offsets_snoc. cbn [fst cmap dm_set]. rewrite !mom_find_set, offsets_count, andb_comm. fold (otabc l). now rewrite IH.
Qed.

(* ---- which blocks the product has *)
Lemma pairs_in A B ma mb : made_from A ma -> made_from B mb -> forall i k, In (i, k) (bc_mul_pairs A B) <-> exists j, In (i, j) ma /\ In (j, k) mb.
Proof.
  intros (na & mA & bna & bma & ba & -> & _) (nb' & mB & bnb' & bmb' & bb & -> & _) i k. unfold bc_mul_pairs.
  change (Model_Containers.rmap (boffs (bc_make na mA bna bma ma ba))) with (otab ma). change (cmap (boffs (bc_make nb' mB bnb' bmb' mb bb))) with (otabc mb).
  pose proof (proj1 (otab_wf ma)) as Wa. pose proof (otabc_wf mb) as Wb. pose proof (walk_wf _ Wa) as Wwa. pose proof (walk_wf _ Wb) as Wwb.
  assert (Fa : forall j t, mom_find i j (walk (otab ma)) = Some t -> In (i, j) ma). { intros j t H. rewrite walk_get in H by assumption. apply otab_some in H as [_ H]. now apply nth_error_In in H. }
  rewrite in_flat_map. split.
  - intros ([i' row] & Hi & H). apply in_flat_map in H as ([k' col] & Hk & H). cbn [fst snd] in H.
    destruct (existsb _ row) eqn:Ex; [|destruct H]. destruct H as [H|[]]. injection H as -> ->. apply existsb_exists in Ex as ([j t] & Hj & Hm). cbn in Hm. destruct (mfind j col) as [u|] eqn:Ec; [|discriminate].
    apply mfind_iff in Hi; [|apply Wwa]. apply mfind_iff in Hk; [|apply Wwb]. exists j. split.
    + apply (Fa j t). unfold mom_find, mom_row. rewrite Hi. apply mfind_iff; [|exact Hj]. now apply (proj2 Wwa i).
    + assert (H : mom_find k j (walk (otabc mb)) = Some u) by (unfold mom_find, mom_row; now rewrite Hk). rewrite walk_get, otabc_find in H by assumption. apply otab_some in H as [_ H]. now apply nth_error_In in H.
  - intros (j & Ha & Hb). destruct (mom_find i j (otab ma)) as [t|] eqn:Ea; [|apply otab_none in Ea; contradiction]. destruct (mom_find j k (otab mb)) as [u|] eqn:Eb; [|apply otab_none in Eb; contradiction].
    rewrite <- walk_get in Ea by assumption. rewrite <- otabc_find, <- walk_get in Eb by assumption. unfold mom_find, mom_row in Ea, Eb.
    destruct (mfind i (walk (otab ma))) as [row|] eqn:Er; [|discriminate]. destruct (mfind k (walk (otabc mb))) as [col|] eqn:Ec; [|discriminate].
    exists (i, row). split; [now apply mfind_in|]. apply in_flat_map. exists (k, col). split; [now apply mfind_in|]. cbn [fst snd].
    replace (existsb _ row) with true; [now left|]. symmetry. apply existsb_exists. exists (j, t). split; [now apply mfind_in|]. cbn. now rewrite Eb.
Qed.

Section Mul.
Context {R : cring}.
Notation memR := (mem (car R)).
Add Ring Rbm : (cth R).

Lemma rsum_key {V} (l : zmap V) i (G : V -> R) : mwf l -> rsum (map (fun p => if fst p =? i then G (snd p) else c0) l) = match mfind i l with Some v => G v | None => c0 end.
Proof.
  intro W. induction l as [|[k v] l IH]; [reflexivity|]. inversion W as [|? ? N W']; subst. cbn [map mfind fst snd]. change (rsum (?a :: ?b)) with (cadd a (rsum b)). destruct (Z.eqb_spec k i) as [->|Hne].
  - rewrite rsum_zero; [ring|]. intros [k' v'] Hin. cbn. destruct (Z.eqb_spec k' i) as [->|]; [|reflexivity]. exfalso. apply N. cbn. now apply (in_map fst) in Hin.
  - rewrite IH by exact W'. ring.
Qed.
Lemma rsum_row (l : zmap Z) n (H : Z -> Z -> R) : mwf l -> (forall j, In j (map fst l) -> 0 <= j < n) ->
  rsum (map (fun q => H (fst q) (snd q)) l) = rsum (map (fun j => match mfind j l with Some t => H j t | None => c0 end) (zrange n)).
Proof.
  intros W Hk. transitivity (rsum (map (fun j => rsum (map (fun q => if fst q =? j then H (fst q) (snd q) else c0) l)) (zrange n))).
  - rewrite rsum_swap. apply rsum_ext. intros [k t] Hin. cbn [fst snd]. rewrite (rsum_single R _ (zrange n) k); [now rewrite Z.eqb_refl|apply zrange_nodup|apply in_zrange; apply Hk; now apply (in_map fst) in Hin|].
    intros j _ Hj. destruct (Z.eqb_spec k j); [congruence|reflexivity].
  - apply rsum_ext. intros j _. transitivity (rsum (map (fun q => if fst q =? j then H j (snd q) else c0) l)).
    + apply rsum_ext. intros [k t] _. cbn. destruct (Z.eqb_spec k j) as [->|]; reflexivity.
    + now apply (rsum_key l j (H j)).
Qed.
End Mul.
