(* Proofs_Graph6.v -- partial copies along the traversal and copies in the sense of Spec_Graph. *)
From Verif Require Import Base BaseFacts Map Proofs_Containers2 Model_Containers Proofs_Containers Proofs_Containers4 Model_Tree Proofs_Tree Proofs_Tree2 Model_Graph Spec_Graph Proofs_Graph Proofs_Graph3 Proofs_Graph4 Proofs_Graph5.
Local Open Scope Z_scope.

Lemma weight_get g i j w : momwf (gd g) -> (weight g i j w <-> w = gget i j g).
Proof.
  intro W. unfold weight, edge. rewrite gget_find. rewrite entry_find by exact W. destruct (mom_find i j (gd g)) as [v|] eqn:E; split.
  - intros [Ev|[-> N]]; [congruence|]. exfalso. apply N. exists v. now apply entry_find.
  - intros ->. now left.
  - intros [Ev|[-> _]]; [discriminate|reflexivity].
  - intros ->. right. split; [reflexivity|]. intros [v Ev]. apply entry_find in Ev; [|exact W]. congruence.
Qed.
Lemma weight_iff G H i j x y : momwf (gd G) -> momwf (gd H) -> ((forall w, weight H i j w <-> weight G x y w) <-> gget i j H = gget x y G).
Proof.
  intros WG WH. split.
  - intro E. apply (weight_get G); [exact WG|]. apply E. now apply weight_get.
  - intros E w. rewrite !weight_get by assumption. now rewrite E.
Qed.
Lemma compatible_ok G H v w : momwf (gd G) -> (compatible G H v w = true <->
  (forall lg lh, glab G = Some lg -> glab H = Some lh -> lg w = lh v) /\
  (forall d, gdeg H = Some d -> 0 <= d v -> exists r, NoDup r /\ (forall x, In x r <-> edge G w x) /\ Z.of_nat (length r) = d v)).
Proof.
  intro W. unfold compatible. rewrite andb_true_iff. split.
  - intros [A B]. split.
    + intros lg lh E1 E2. rewrite E1, E2 in A. destruct (list_eq_dec Z.eq_dec (lg w) (lh v)); congruence.
    + intros d E Hd. rewrite E in B. exists (gneighbors w G). split; [now apply row_nodup|]. split.
      * intro x. unfold gneighbors, edge. rewrite in_map_iff. split.
        -- intros ([x' y] & Ex & I). cbn in Ex. subst x'. exists y. apply entry_find; [exact W|]. now apply row_in.
        -- intros [y Ey]. exists (x, y). split; [reflexivity|]. apply row_in; [exact W|]. now apply entry_find.
      * unfold gneighbors. rewrite map_length. unfold gnneighbors in B. lia.
  - intros [A B]. split.
    + destruct (glab G) as [lg|]; [|reflexivity]. destruct (glab H) as [lh|]; [|reflexivity]. destruct (list_eq_dec Z.eq_dec (lg w) (lh v)) as [|N]; [reflexivity|]. exfalso. apply N. now apply A.
    + destruct (gdeg H) as [d|]; [|reflexivity]. destruct (0 <=? d v) eqn:Hd; [|reflexivity]. destruct (B d eq_refl ltac:(lia)) as (r & N & I & L).
      assert (P : Permutation r (gneighbors w G)).
      { apply NoDup_Permutation; [exact N|now apply row_nodup|]. intro x. rewrite I. unfold gneighbors, edge. rewrite in_map_iff. split.
        - intros [y Ey]. exists (x, y). split; [reflexivity|]. apply row_in; [exact W|]. now apply entry_find.
        - intros ([x' y] & Ex & Iy). cbn in Ex. subst x'. exists y. apply entry_find; [exact W|]. now apply row_in. }
      apply Permutation_length in P. unfold gneighbors in P. rewrite map_length in P. unfold gnneighbors. replace (Z.of_nat (length (mom_row w (gd G))) =? d v) with true by lia. reflexivity.
Qed.

Section Copies.
Context (G H : graph) (GG : good G) (GH : good H) (n : nat) (Hn : gn H = Z.of_nat n) (L : list Z) (PL : Permutation L (zrange (gn H))).
Let WG : momwf (gd G) := proj1 (tables_wf _) (good_tables G GG).
Let WH : momwf (gd H) := proj1 (tables_wf _) (good_tables H GH).
Lemma combine_keys : forall (l x : list Z), length l = length x -> map fst (combine l x) = l.
Proof. induction l as [|a l IH]; intros [|b x] E; cbn in *; try lia; [reflexivity|]. f_equal. apply IH. lia. Qed.
Lemma combine_nth_error : forall (l x : list Z) i v w, nth_error l i = Some v -> nth_error x i = Some w -> In (v, w) (combine l x).
Proof. induction l as [|a l IH]; intros [|b x] [|i] v w A B; cbn in *; try discriminate; [left; congruence|right; now apply (IH x i)]. Qed.
Lemma valid_copy x : valid G H n L x -> length x = n -> exists f, copy G H f /\ x = map f L.
Proof.
  intros (N & Rg & _ & Cm & We) Lx. assert (LL : length L = n) by (rewrite (Permutation_length PL), zrange_length; lia). pose proof (NL H L PL) as ND.
  set (f := fun v => match mfind v (combine L x) with Some w => w | None => 0 end).
  assert (Fat : forall i v w, nth_error L i = Some v -> nth_error x i = Some w -> f v = w).
  { intros i v w A B. unfold f. replace (mfind v (combine L x)) with (Some w); [reflexivity|]. symmetry. apply mfind_iff; [unfold mwf; rewrite combine_keys by congruence; exact ND|]. now apply (combine_nth_error L x i). }
  assert (At : forall v, 0 <= v < gn H -> exists i, nth_error L i = Some v /\ nth_error x i = Some (f v)).
  { intros v Hv. destruct (L_at H L PL v Hv) as [i Ei]. exists i. split; [exact Ei|]. assert (i < length L)%nat by (apply nth_error_Some; congruence). destruct (nth_error x i) as [w|] eqn:Ew; [|apply nth_error_None in Ew; lia]. now rewrite (Fat i v w). }
  exists f. split.
  - constructor.
    + intros v Hv. destruct (At v Hv) as (i & _ & E). apply Rg. now apply nth_error_In in E.
    + intros u v Hu Hv E. destruct (At u Hu) as (i & A1 & A2). destruct (At v Hv) as (j & B1 & B2). rewrite E in A2. assert (i = j) by (apply (proj1 (NoDup_nth_error x) N); [apply nth_error_Some|]; congruence). subst j. congruence.
    + intros v lg lh Hv E1 E2. destruct (At v Hv) as (i & A1 & A2). pose proof (Cm i v _ A1 A2) as C. apply compatible_ok in C; [|exact WG]. now apply C.
    + intros v d Hv E1 E2. destruct (At v Hv) as (i & A1 & A2). pose proof (Cm i v _ A1 A2) as C. apply compatible_ok in C; [|exact WG]. now apply C.
    + intros u v w Hu Hv Ne. revert w. apply weight_iff; [exact WG|exact WH|]. destruct (At u Hu) as (i & A1 & A2). destruct (At v Hv) as (j & B1 & B2). apply (We i j); auto. intros ->. congruence.
  - apply nth_error_ext'. intro i. rewrite nth_error_map. destruct (nth_error L i) as [v|] eqn:Ev; cbn.
    + assert (i < length L)%nat by (apply nth_error_Some; congruence). destruct (nth_error x i) as [w|] eqn:Ew; [|apply nth_error_None in Ew; lia]. now rewrite (Fat i v w).
    + apply nth_error_None in Ev. apply nth_error_None. lia.
Qed.
Lemma copy_valid f : copy G H f -> valid G H n L (map f L) /\ length (map f L) = n.
Proof.
  intros [C1 C2 C3 C4 C5]. assert (LL : length L = n) by (rewrite (Permutation_length PL), zrange_length; lia). pose proof (NL H L PL) as ND.
  assert (RL : forall v, In v L -> 0 <= v < gn H) by (intros v I; apply in_zrange; now apply (Permutation_in _ PL)).
  split; [|rewrite map_length; exact LL]. split; [|split; [|split; [rewrite map_length; lia|split]]].
  - clear - ND RL C2. induction L as [|v l IH]; [constructor|]. cbn. inversion_clear ND. constructor; [|apply IH; auto; intros; apply RL; now right].
    intro I. apply in_map_iff in I. destruct I as (u & E & I). apply H0. replace v with u; [exact I|]. apply C2; [apply RL; now right|apply RL; now left|exact E].
  - intros w I. apply in_map_iff in I. destruct I as (v & <- & I). apply C1. now apply RL.
  - intros i v w E1 E2. rewrite nth_error_map, E1 in E2. cbn in E2. injection E2 as <-. assert (0 <= v < gn H) by (apply RL; now apply nth_error_In in E1). apply compatible_ok; [exact WG|]. split; [intros lg lh; now apply C3|intros d; now apply C4].
  - intros i j u v x y E1 E2 E3 E4 Ne. rewrite nth_error_map, E1 in E3. rewrite nth_error_map, E2 in E4. cbn in E3, E4. injection E3 as <-. injection E4 as <-.
    apply weight_iff; [exact WG|exact WH|]. intro w. apply C5; [apply RL; now apply nth_error_In in E1|apply RL; now apply nth_error_In in E2|]. intros ->. apply Ne. now apply (L_inj H L PL i j v).
Qed.
End Copies.

Lemma copy_row (x : list Z) : foldM (fun i r => do e <- zget x i; Ok (r ++ [e])) (zrange (Z.of_nat (length x))) [] = Ok x.
Proof.
  destruct (foldM_inv (fun done r => r = firstn (length done) x) (fun i r => do e <- zget x i; Ok (r ++ [e])) (zrange (Z.of_nat (length x))) []) as (r & E & Hr); [reflexivity| |].
  - intros done i rest r El Hr. assert (Li : i = Z.of_nat (length done)).
    { assert (Lt : (length done < length x)%nat). { pose proof (f_equal (@length Z) El) as LE. rewrite zrange_length, app_length in LE. cbn in LE. lia. }
      pose proof (zrange_nth (Z.of_nat (length x)) (Z.of_nat (length done)) ltac:(lia)) as Zn. rewrite El, Nat2Z.id in Zn. rewrite nth_error_app2, Nat.sub_diag in Zn by lia. cbn in Zn. congruence. }
    assert (Lt : (length done < length x)%nat). { pose proof (f_equal (@length Z) El) as LE. rewrite zrange_length, app_length in LE. cbn in LE. lia. }
    destruct (nth_error x (length done)) as [e|] eqn:Ee; [|apply nth_error_None in Ee; lia]. rewrite Li, (zget_nat _ _ _ Ee). cbn [bind]. eexists. split; [reflexivity|]. subst r. rewrite app_length. cbn [length]. clear - Ee. revert Ee. generalize (length done) as k. intros k Ee.
    revert x Ee. induction k as [|k IH]; intros [|a x] E; cbn in *; try discriminate; [congruence|]. f_equal. now apply IH.
  - rewrite E. f_equal. rewrite Hr, zrange_length, Nat2Z.id. apply firstn_all.
Qed.
Lemma planted_rows_ok n f : (forall x, In x (flat_map lmaximal f) -> Z.of_nat (length x) = n) -> planted_rows n f = Ok (flat_map lmaximal f).
Proof.
  intro HL. unfold planted_rows. destruct (foldM_inv (fun done out => out = done) (fun x out => do row <- foldM (fun i r => do e <- zget x i; Ok (r ++ [e])) (zrange n) []; Ok (out ++ [row])) (flat_map lmaximal f) []) as (r & E & Hr); [reflexivity| |rewrite E; now f_equal].
  intros done x rest out El ->. assert (Lx : Z.of_nat (length x) = n) by (apply HL; rewrite El, in_app_iff; cbn; auto). rewrite <- Lx, copy_row. cbn [bind]. eauto.
Qed.
