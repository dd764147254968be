(* Prop_Einsum.v -- C65, C66, C67, C77: einsum strings and their evaluation. *)
From Coq Require Import String Permutation.
From Verif Require Import Base BaseFacts Model_Index Model_View Model_Tensor Model_Einsum Spec_Index Spec_View Spec_Tensor Spec_Einsum
  Proofs_Index Proofs_View Proofs_Tensor Accum Proofs_Einsum Proofs_Einsum2 Proofs_Einsum3 Proofs_Einsum4 Proofs_Einsum5 Proofs_Einsum6 Proofs_Einsum7 Proofs_Einsum8 Proofs_Einsum9 Spec_Einsum2.
Local Open Scope Z_scope.

Definition st (s : string) : list ascii := list_ascii_of_string s.

(* ---- C65 *)
Lemma perm_classes s (P : list ascii) : NoDup P -> (forall c, In c P <-> In c s) -> Permutation (concat (map (occ s) P)) (zrange (Z.of_nat (length s))).
Proof.
  intros N H. etransitivity; [|apply occ_partition]. assert (Pm : Permutation P (letters s)).
  { apply NoDup_Permutation; [exact N|apply letters_nodup|]. intro c. rewrite in_letters. apply H. }
  clear - Pm. induction Pm; cbn; [constructor|now apply Permutation_app_head| |now transitivity (concat (map (occ s) l'))].
  rewrite !app_assoc. apply Permutation_app_tail, Permutation_app_comm.
Qed.
Lemma concat_fst {A} (f : A -> list Z) (g : A -> list Z) l : concat (map fst (map (fun c => (f c, g c)) l)) = concat (map f l).
Proof. now rewrite map_map. Qed.

Lemma start_apart w L : (forall a, 0 < w a) -> forall c c' j j', In c L -> In c' L -> 0 <= j < w c -> 0 <= j' < w c' -> start w L c + j = start w L c' + j' -> c = c' /\ j = j'.
Proof.
  intros Hw. assert (Hp : forall L c, 0 <= start w L c) by (intros; apply start_nonneg; intro a; specialize (Hw a); lia).
  induction L as [|a L IH]; intros c c' j j' H H' Hj Hj' E; [destruct H|]. cbn [start] in E.
  destruct (aeq a c) eqn:E1, (aeq a c') eqn:E2; aeqs; subst.
  - split; [reflexivity|lia].
  - specialize (Hp L c'). lia.
  - specialize (Hp L c). lia.
  - apply IH; try assumption; [destruct H as [->|]; [congruence|assumption]|destruct H' as [->|]; [congruence|assumption]|lia].
Qed.
Lemma start_below w L : (forall a, 0 < w a) -> forall c j, In c L -> 0 <= j < w c -> 0 <= start w L c + j < total w L.
Proof.
  intros Hw c j Hc Hj. assert (Hw0 : forall a, 0 <= w a) by (intro a; specialize (Hw a); lia). pose proof (start_nonneg w L c Hw0). split; [lia|].
  induction L as [|a L IH]; [destruct Hc|]. unfold total. cbn [start fold_right]. fold (total w L). assert (0 <= total w L) by (rewrite <- (slots_len w (fun _ _ => 0) L Hw0); lia).
  destruct (aeq a c) eqn:E; [aeqs; subst; lia|]. destruct Hc as [->|Hc]; [now rewrite aeq_refl in E|]. specialize (IH Hc (start_nonneg w L c Hw0)). lia.
Qed.
Lemma perm_split {A} (p : A -> bool) (l : list A) : Permutation (filter (fun a => negb (p a)) l ++ filter p l) l.
Proof.
  induction l as [|a l IH]; [constructor|]. cbn. destruct (p a); cbn; [|now constructor]. etransitivity; [symmetry; apply Permutation_middle|]. now constructor.
Qed.
Lemma concat_perm {A} (f : A -> list Z) l l' : Permutation l l' -> Permutation (concat (map f l)) (concat (map f l')).
Proof.
  induction 1; cbn; [constructor|now apply Permutation_app_head| |now transitivity (concat (map f l'))]. rewrite !app_assoc. apply Permutation_app_tail, Permutation_app_comm.
Qed.

(* the parsed classes of a one-operand string: positions listed per letter, all positions of both strings in exactly one class;
   ids are equal exactly for equal letters *)
Theorem C65_one_operand xs rs : plain xs -> plain rs -> exists F, form1_of (str1 xs rs) = Ok F /\
  f1_xsum F = map (occ xs) (private xs rs) /\
  f1_rsum F = map (occ rs) (private rs xs) /\
  f1_xr F = map (fun c => (occ xs c, occ rs c)) (filter (fun c => negb (gather_letter c)) (shared xs rs)) /\
  f1_gat F = map (fun c => (occ xs c, occ rs c)) (filter gather_letter (shared xs rs)) /\
  Permutation (concat (f1_xsum F) ++ concat (map fst (f1_xr F)) ++ concat (map fst (f1_gat F))) (zrange (Z.of_nat (List.length xs))) /\
  Permutation (concat (f1_rsum F) ++ concat (map snd (f1_xr F)) ++ concat (map snd (f1_gat F))) (zrange (Z.of_nat (List.length rs))) /\
  (exists id, f1_xids F = map id xs /\ f1_rids F = map id rs /\ f1_bc F = map id (private rs xs) /\
     (forall c c', In c (xs ++ rs) -> In c' (xs ++ rs) -> id c = id c' -> c = c') /\ (forall c, In c (xs ++ rs) -> 0 <= id c < f1_tail F)).
Proof.
  intros Px Pr. eexists. split; [now apply form1_ok|]. cbn [f1_xsum f1_rsum f1_xr f1_gat f1_rids f1_xids f1_bc f1_tail].
  assert (E1 : filter (fun c => isin xs c && negb (gather_letter c)) (letters rs) = filter (fun c => negb (gather_letter c)) (shared xs rs)).
  { unfold shared. induction (letters rs) as [|a l IH]; [reflexivity|]. cbn. destruct (isin xs a); cbn; [|exact IH]. destruct (gather_letter a); cbn; [exact IH|now f_equal]. }
  assert (E2 : filter (fun c => isin xs c && gather_letter c) (letters rs) = filter gather_letter (shared xs rs)).
  { clear E1. unfold shared. induction (letters rs) as [|a l IH]; [reflexivity|]. cbn. destruct (isin xs a); cbn; [|exact IH]. destruct (gather_letter a); cbn; [now f_equal|exact IH]. }
  rewrite E1, E2. destruct (cover1 xs rs) as (C1 & C2 & C3 & C4). fold (private xs rs) (private rs xs). do 4 (split; [reflexivity|]). split; [|split].
  - rewrite !map_map. cbn [fst]. rewrite <- !concat_app, <- !map_app. apply perm_classes.
    + eapply Permutation_NoDup; [|exact C3]. etransitivity; [apply Permutation_app_comm|]. apply Permutation_app_head. symmetry. apply perm_split.
    + intro c. rewrite <- C4. assert (Pm : Permutation (private xs rs ++ filter (fun c => negb (gather_letter c)) (shared xs rs) ++ filter gather_letter (shared xs rs)) (tr1 xs rs ++ only xs rs)) by (etransitivity; [|apply Permutation_app_comm]; apply Permutation_app_head, perm_split).
      split; intro H; [eapply Permutation_in; [exact Pm|exact H]|eapply Permutation_in; [symmetry; exact Pm|exact H]].
  - rewrite !map_map. cbn [snd]. rewrite <- !concat_app, <- !map_app. apply perm_classes.
    + eapply Permutation_NoDup; [|exact C1]. etransitivity; [apply Permutation_app_comm|]. apply Permutation_app_head. symmetry. apply perm_split.
    + intro c. rewrite <- C2. assert (Pm : Permutation (private rs xs ++ filter (fun c => negb (gather_letter c)) (shared xs rs) ++ filter gather_letter (shared xs rs)) (tr1 xs rs ++ only rs xs)) by (etransitivity; [|apply Permutation_app_comm]; apply Permutation_app_head, perm_split).
      split; intro H; [eapply Permutation_in; [exact Pm|exact H]|eapply Permutation_in; [symmetry; exact Pm|exact H]].
  - exists (start one (order1 xs rs)). do 3 (split; [reflexivity|]).
    assert (HL : forall c, In c (xs ++ rs) -> In c (order1 xs rs)) by (intros c H; apply in_app_iff in H; now apply order1_in).
    assert (H1 : forall a, 0 < one a) by (intro; unfold one; lia). split.
    + intros c c' H H' E. destruct (start_apart one (order1 xs rs) H1 c c' 0 0) as [K _]; auto; try (unfold one; lia). now rewrite !Z.add_0_r.
    + intros c H. rewrite <- total_one. rewrite <- (Z.add_0_r (start _ _ _)). apply start_below; auto. unfold one. lia.
Qed.
Print Assumptions C65_one_operand.
(* "iijS->jSaSb": i summed, j transferred, S gathered, a and b broadcast *)
Example C65_case1 : match form1_of (str1 (st "iijS") (st "jSaSb")) with
  | Ok F => (f1_xsum F, f1_rsum F, f1_xr F, f1_gat F, f1_xids F, f1_rids F) = ([[0; 1]], [[2]; [4]], [([2], [0])], [([3], [1; 3])], [4; 4; 0; 1], [0; 1; 2; 1; 3]) | _ => False end.
Proof. vm_compute. reflexivity. Qed.

(* two operands *)
Theorem C65_two_operands xs ys rs : plain xs -> plain ys -> plain rs -> exists F, form2_of (str2 xs ys rs) = Ok F /\
  f2_xsum F = map (occ xs) (l_x xs ys rs) /\ f2_ysum F = map (occ ys) (l_y xs ys rs) /\ f2_rsum F = map (occ rs) (l_r xs ys rs) /\
  f2_xr F = map (fun c => (occ xs c, occ rs c)) (filter (fun c => negb (gather_letter c)) (l_xr xs ys rs)) /\
  f2_xgat F = map (fun c => (occ xs c, occ rs c)) (filter gather_letter (l_xr xs ys rs)) /\
  f2_yr F = map (fun c => (occ ys c, occ rs c)) (filter (fun c => negb (gather_letter c)) (l_yr xs ys rs)) /\
  f2_ygat F = map (fun c => (occ ys c, occ rs c)) (filter gather_letter (l_yr xs ys rs)) /\
  f2_xy F = map (fun c => (occ xs c, occ ys c)) (l_xy xs ys rs) /\
  f2_tr F = map (fun c => (occ xs c, occ ys c, occ rs c)) (filter (fun c => negb (star c)) (l_all xs ys rs)) /\
  f2_trip F = map (fun c => (occ xs c, occ ys c, occ rs c)) (filter star (l_all xs ys rs)) /\
  f2_conv F = map (fun c => (occ xs c, occ ys c, occ rs c)) (l_conv xs ys rs) /\
  Permutation (concat (f2_xsum F ++ map fst (f2_xr F) ++ map fst (f2_xgat F) ++ map fst (f2_xy F) ++ map (fun p => fst (fst p)) (f2_tr F ++ f2_trip F ++ f2_conv F))) (zrange (Z.of_nat (List.length xs))) /\
  Permutation (concat (f2_ysum F ++ map fst (f2_yr F) ++ map fst (f2_ygat F) ++ map snd (f2_xy F) ++ map (fun p => snd (fst p)) (f2_tr F ++ f2_trip F ++ f2_conv F))) (zrange (Z.of_nat (List.length ys))) /\
  Permutation (concat (f2_rsum F ++ map snd (f2_xr F) ++ map snd (f2_xgat F) ++ map snd (f2_yr F) ++ map snd (f2_ygat F) ++ map snd (f2_tr F ++ f2_trip F ++ f2_conv F))) (zrange (Z.of_nat (List.length rs))) /\
  (exists id, let width c := if is_conv3 xs ys rs c then 2 else 1 in
     f2_xids F = map id xs /\ f2_yids F = map (fun c => id c + (width c - 1)) ys /\ f2_rids F = map id rs /\ f2_bc F = map id (l_r xs ys rs) /\
     (forall c c' j j', In c (xs ++ ys ++ rs) -> In c' (xs ++ ys ++ rs) -> 0 <= j < width c -> 0 <= j' < width c' -> id c + j = id c' + j' -> c = c' /\ j = j') /\
     (forall c j, In c (xs ++ ys ++ rs) -> 0 <= j < width c -> 0 <= id c + j < f2_tail F)).
Proof.
  intros Px Py Pr. eexists. split; [now apply form2_ok|]. cbn [f2_xsum f2_ysum f2_rsum f2_xr f2_yr f2_xy f2_tr f2_conv f2_trip f2_xgat f2_ygat f2_xids f2_yids f2_rids f2_bc f2_tail].
  assert (FF : forall (p q : ascii -> bool) l, filter q (filter p l) = filter (fun c => p c && q c) l).
  { intros p q l. induction l as [|a l IH]; [reflexivity|]. cbn. destruct (p a); cbn; [destruct (q a); now rewrite IH|exact IH]. }
  assert (Ex : filter (kx xs ys) (letters rs) = filter (fun c => negb (gather_letter c)) (l_xr xs ys rs)) by (unfold l_xr; rewrite FF; reflexivity).
  assert (Exg : filter (kxg xs ys) (letters rs) = filter gather_letter (l_xr xs ys rs)) by (unfold l_xr; rewrite FF; reflexivity).
  assert (Ey : filter (ky xs ys) (letters rs) = filter (fun c => negb (gather_letter c)) (l_yr xs ys rs)) by (unfold l_yr; rewrite FF; reflexivity).
  assert (Eyg : filter (kyg xs ys) (letters rs) = filter gather_letter (l_yr xs ys rs)) by (unfold l_yr; rewrite FF; reflexivity).
  assert (Et : filter (kt xs ys) (letters rs) = filter (fun c => negb (star c)) (l_all xs ys rs)).
  { unfold l_all. rewrite FF. apply filter_ext. intro c. unfold kt, both. destruct (isin xs c), (isin ys c), (star c), (convolved c); reflexivity. }
  assert (Es : filter (kstar xs ys) (letters rs) = filter star (l_all xs ys rs)).
  { unfold l_all. rewrite FF. apply filter_ext. intro c. unfold kstar, both. generalize (conv_star c); destruct (isin xs c), (isin ys c), (star c), (convolved c); cbn; intro K; try reflexivity; specialize (K eq_refl); discriminate. }
  rewrite Ex, Exg, Ey, Eyg, Et, Es. do 11 (split; [reflexivity|]). split; [|split; [|split]].
  - rewrite !map_app, !map_map. cbn [fst snd trio]. unfold trio. cbn [fst snd]. rewrite <- !map_app. apply perm_classes.
    + rewrite <- Ex, <- Exg, <- Et, <- Es. unfold only_x. repeat (first [apply nd_f|apply NoDup_filter, nd_f|apply nd_app]); intro c; rewrite ?isin_app, ?isin_filter2, ?isin_filter;
      unfold kx, kxg, kt, kstar, kc, both, notin; generalize (conv_star c); destruct (isin rs c), (isin xs c), (isin ys c), (gather_letter c), (star c), (convolved c); intro K; try reflexivity; specialize (K eq_refl); discriminate.
    + intro c. rewrite <- Ex, <- Exg, <- Et, <- Es. rewrite <- !isin_In. unfold only_x. rewrite ?isin_app, ?isin_filter2, ?isin_filter. unfold kx, kxg, kt, kstar, kc, both, notin.
      generalize (conv_star c); destruct (isin rs c), (isin xs c), (isin ys c), (gather_letter c), (star c), (convolved c); cbn; intuition congruence.
  - rewrite !map_app, !map_map. cbn [fst snd]. unfold trio. cbn [fst snd]. rewrite <- !map_app. apply perm_classes.
    + rewrite <- Ey, <- Eyg, <- Et, <- Es. unfold only_x, only_y. repeat (first [apply nd_f|apply NoDup_filter, nd_f|apply nd_app]); intro c; rewrite ?isin_app, ?isin_filter2, ?isin_filter;
      unfold ky, kyg, kt, kstar, kc, both, notin; generalize (conv_star c); destruct (isin rs c), (isin xs c), (isin ys c), (gather_letter c), (star c), (convolved c); intro K; try reflexivity; specialize (K eq_refl); discriminate.
    + intro c. rewrite <- Ey, <- Eyg, <- Et, <- Es. rewrite <- !isin_In. unfold only_x, only_y. rewrite ?isin_app, ?isin_filter2, ?isin_filter. unfold ky, kyg, kt, kstar, kc, both, notin.
      generalize (conv_star c); destruct (isin rs c), (isin xs c), (isin ys c), (gather_letter c), (star c), (convolved c); cbn; intuition congruence.
  - rewrite !map_app, !map_map. cbn [fst snd]. unfold trio. cbn [fst snd]. rewrite <- !map_app. apply perm_classes.
    + rewrite <- Ex, <- Exg, <- Ey, <- Eyg, <- Et, <- Es. repeat (first [apply nd_f|apply NoDup_filter, nd_f|apply nd_app]); intro c; rewrite ?isin_app, ?isin_filter2, ?isin_filter;
      unfold kx, kxg, ky, kyg, kt, kb, kstar, kc, both, notin; generalize (conv_star c); destruct (isin rs c), (isin xs c), (isin ys c), (gather_letter c), (star c), (convolved c); intro K; try reflexivity; specialize (K eq_refl); discriminate.
    + intro c. rewrite <- Ex, <- Exg, <- Ey, <- Eyg, <- Et, <- Es. rewrite <- !isin_In. rewrite ?isin_app, ?isin_filter2, ?isin_filter. unfold kx, kxg, ky, kyg, kt, kb, kstar, kc, both, notin.
      generalize (conv_star c); destruct (isin rs c), (isin xs c), (isin ys c), (gather_letter c), (star c), (convolved c); cbn; intuition congruence.
  - exists (start (w2 xs ys rs) (order2 xs ys rs)). cbn zeta. do 4 (split; [reflexivity|]).
    assert (HL : forall c, In c (xs ++ ys ++ rs) -> In c (order2 xs ys rs)) by (intros c H; rewrite !in_app_iff in H; apply order2_in; tauto).
    assert (H1 : forall a, 0 < w2 xs ys rs a) by (intro; unfold w2; destruct (_ && _); lia). split.
    + intros c c' j j' H H' Hj Hj' E. apply (start_apart (w2 xs ys rs) (order2 xs ys rs) H1); auto.
    + intros c j H Hj. apply start_below; auto.
Qed.
Print Assumptions C65_two_operands.
Example C65_case2 : match form2_of (str2 (st "aiUk") (st "bkUk") (st "iUbz")) with
  | Ok F => (f2_xsum F, f2_ysum F, f2_rsum F, f2_xr F, f2_yr F, f2_xy F, f2_conv F, f2_yids F) = ([[0]], [], [[3]], [([1], [0])], [([0], [2])], [([3], [1; 3])], [([2], [2], [1])], [3; 6; 2; 6]) | _ => False end.
Proof. vm_compute. reflexivity. Qed.

(* strings without an arrow, or without a comma before it, are refused *)
Lemma cut_none s c : (c = "-" \/ c = ">")%char -> ~ In c s -> cut_arrow s = None.
Proof.
  intros Hc. induction s as [|a s IH]; intro H; [reflexivity|]. cbn [cut_arrow]. destruct (aeq a "-"%char && _) eqn:E.
  - exfalso. apply andb_true_iff in E as [E1 E2]. aeqs. subst a. destruct s as [|b s]; [discriminate|]. aeqs. subst b. apply H. destruct Hc as [->| ->]; cbn; auto.
  - now rewrite IH by (intro K; apply H; now right).
Qed.
Lemma comma_none s : ~ In ","%char s -> cut_comma s = None.
Proof. induction s as [|a s IH]; intro H; [reflexivity|]. cbn. destruct (aeq a ","%char) eqn:E; [aeqs; subst; exfalso; apply H; now left|]. now rewrite IH by (intro K; apply H; now right). Qed.
Theorem C65_malformed : (forall s c, (c = "-" \/ c = ">")%char -> ~ In c s -> form1_of s = Throw /\ form2_of s = Throw) /\
  (forall xs rs, ~ In "-"%char xs -> ~ In ","%char xs -> form2_of (str1 xs rs) = Throw).
Proof.
  split.
  - intros s c Hc H. unfold form1_of, form2_of. now rewrite (cut_none s c Hc H).
  - intros xs rs H1 H2. unfold form2_of, str1. now rewrite cut_arrow_ok, comma_none.
Qed.
Print Assumptions C65_malformed.
Example C65_case3 : form1_of (st "ij>i") = Throw /\ form2_of (st "ij->i") = Throw.
Proof. split; reflexivity. Qed.

(* ---- C66 *)
Definition zm (l : list Z) : mem Z := fun b a => if b =? 0 then (if a <? 0 then None else nth_error l (Z.to_nat a)) else None.
Lemma readable_by {V} (m : mem V) v : forallb (fun ix => match elem m v ix with Some _ => true | None => false end) (all_indices (vdims v)) = true -> readable m v.
Proof. intros H ix Hi E. rewrite forallb_forall in H. specialize (H ix). rewrite E in H. discriminate H. now apply in_all_indices. Qed.
(* x(xs) added to r(rs): any letters, sides, strides and offsets, within the numbers of letters the code handles *)
Theorem C66_add_einsum (R : cring) xs rs D (r x : view) (m : mem (car R)) F :
  plain xs -> plain rs -> no_gather xs rs -> few1 xs rs -> form1_of (str1 xs rs) = Ok F ->
  lettered r rs D -> lettered x xs D -> same_fourth (shared xs rs) (lstride x xs) (lstride r rs) ->
  readable m r -> distinct_cells r -> readable m x -> disjoint_views r x ->
  exists m', ein1_add F r x m = Ok m' /\ adds m m' r rs D (einsum1 m x xs rs D).
Proof. intros Px Pr Ng (A & B & C) EF [Hr1 Hr2] [Hx1 Hx2] H4 Rr Dr Rx Dis. now apply ein1_add_ok. Qed.
Print Assumptions C66_add_einsum.
(* the call makes the result: its sides are those of the letters, broadcast sides as given *)
Theorem C66_call (R : cring) xs rs D (x : view) b (m : mem (car R)) F :
  plain xs -> plain rs -> no_gather xs rs -> few1 xs rs -> form1_of (str1 xs rs) = Ok F ->
  (forall c, 0 <= D c) -> lettered x xs D -> same_fourth (shared xs rs) (lstride x xs) (lstride (fresh_view b (map D rs)) rs) ->
  readable m x -> vblk x <> b ->
  exists r m', ein1_call F x (map D (private rs xs)) b m = Ok (r, m') /\ returns m m' b r rs D (einsum1 m x xs rs D).
Proof. intros Px Pr Ng (A & B & C) EF HD [Hx1 Hx2] H4 Rx Hb. now apply ein1_call_ok. Qed.
Print Assumptions C66_call.
(* different sides at equal letters, and too many letters, are refused *)
Theorem C66_refuses (R : cring) xs rs (x : view) F : plain xs -> plain rs -> form1_of (str1 xs rs) = Ok F ->
  (forall rd b (m : mem (car R)), List.length (vdims x) = List.length xs -> nonneg (vdims x) -> ~ coherent xs (vdims x) -> ein1_call F x rd b m = Throw) /\
  (forall r (m : mem (car R)), no_gather xs rs -> ~ few1 xs rs -> ein1_add F r x m = Throw).
Proof.
  intros Px Pr EF. split; [intros; now apply (ein1_call_bad xs rs)|]. intros r m Ng Nf. rewrite form1_ok in EF by assumption. injection EF as <-.
  destruct (no_gather_eq xs rs Ng) as [Et Eg]. unfold ein1_add. cbn [f1_xsum f1_rsum f1_xr f1_gat]. rewrite Et, Eg. unfold le3, le4. rewrite !map_length.
  fold (private xs rs) (private rs xs). change (tr1 xs rs) with (shared xs rs). unfold few1 in Nf.
  destruct (List.length (private xs rs) <=? 3)%nat eqn:E1; cbn [assrt]; [|reflexivity]. destruct (List.length (private rs xs) <=? 3)%nat eqn:E2; cbn [assrt]; [|reflexivity].
  destruct (List.length (shared xs rs) <=? 4)%nat eqn:E3; cbn [assrt]; [|reflexivity]. exfalso. apply Nf. apply Nat.leb_le in E1, E2, E3. auto.
Qed.
Print Assumptions C66_refuses.
(* "iij->ja", x of sides 2,2,3 with strides 6,3,1: r(j,a) = x(0,0,j)+x(1,1,j), broadcast over a *)
Example C66_case : let x := View 0 0 [2; 2; 3] [6; 3; 1] in let m := zm [0; 1; 2; 3; 4; 5; 6; 7; 8; 9; 10; 11] in
  let D := fun c : ascii => if Ascii.eqb c "j"%char then 3 else 2 in
  exists F r m', form1_of (str1 (st "iij") (st "ja")) = Ok F /\ few1 (st "iij") (st "ja") /\ lettered x (st "iij") D /\
    ein1_call (R := ZRing) F x [2] 1 m = Ok (r, m') /\ vdims r = [3; 2] /\ map (elem m' r) [[0; 0]; [0; 1]; [1; 0]; [2; 1]] = [Some 9; Some 9; Some 11; Some 13].
Proof. cbn zeta. do 3 eexists. split; [vm_compute; reflexivity|]. split; [vm_compute; lia|]. split; [split; reflexivity|]. split; [vm_compute; reflexivity|]. split; vm_compute; reflexivity. Qed.
(* with four transferred letters the result is written at the stride the operand has in the fourth one *)
Theorem C66_fourth_letter_refuted : ~ (forall xs rs D (x : view) b (m : mem Z) F,
  plain xs -> plain rs -> no_gather xs rs -> few1 xs rs -> form1_of (str1 xs rs) = Ok F -> (forall c, 0 <= D c) -> lettered x xs D -> readable m x -> vblk x <> b ->
  exists r m', ein1_call (R := ZRing) F x (map D (private rs xs)) b m = Ok (r, m') /\ returns (R := ZRing) m m' b r rs D (einsum1 (R := ZRing) m x xs rs D)).
Proof.
  intro H. set (D := fun c : ascii => if Ascii.eqb c "a"%char || Ascii.eqb c "b"%char then 2 else 1).
  destruct (form1_of (str1 (st "abcd") (st "dcba"))) as [F| |] eqn:EF; [|discriminate EF..].
  destruct (H (st "abcd") (st "dcba") D (fresh_view 0 [2; 2; 1; 1]) 1 (zm [0; 1; 2; 3]) F) as (r & m' & E & _).
  - repeat constructor; discriminate.
  - repeat constructor; discriminate.
  - intros [K _]. cbn in K. intuition discriminate.
  - vm_compute. lia.
  - exact EF.
  - intro c. unfold D. destruct (_ || _); lia.
  - split; reflexivity.
  - apply readable_by. reflexivity.
  - cbn. lia.
  - vm_compute in EF. injection EF as <-. vm_compute in E. discriminate.
Qed.
Print Assumptions C66_fourth_letter_refuted.

(* ---- C67 *)
Lemma to_ord xs ys rs : ordinary xs ys rs -> gx xs ys rs = l_xr xs ys rs /\ gy xs ys rs = l_yr xs ys rs /\ gt xs ys rs = l_all xs ys rs.
Proof.
  intro O. assert (K : forall p q l, (forall c, isin rs c = true -> p c = q c) -> (forall c, In c l -> In c (letters rs)) -> filter p l = filter q l).
  { intros p q l H Hl. apply filter_ext_in. intros c Hc. apply H, isin_In, in_letters, Hl, Hc. }
  split; [|split]; (apply K; [|auto]); intros c Hc.
  - unfold kx. pose proof (gather_case xs ys rs O c Hc). destruct (gather_letter c); [rewrite H by reflexivity; unfold notin; now destruct (isin ys c)|]. cbn. apply andb_true_r.
  - unfold ky, notin. pose proof (gather_case xs ys rs O c Hc). destruct (gather_letter c); [rewrite H by reflexivity; now destruct (isin ys c)|]. cbn. apply andb_true_r.
  - unfold kt, both. pose proof (star_case xs ys rs O c Hc). destruct (star c); [rewrite H by reflexivity; reflexivity|]. cbn. now rewrite andb_true_r.
Qed.
Definition few_l xs ys rs : ordinary xs ys rs -> few xs ys rs -> few2 xs ys rs.
Proof. intros O H. destruct (to_ord xs ys rs O) as (E1 & E2 & E3). unfold few2. rewrite E1, E2, E3. exact H. Qed.
(* the transferred letters in the order the loops take them *)
Definition moved2 xs ys rs : list ascii := l_xr xs ys rs ++ l_conv xs ys rs ++ l_yr xs ys rs ++ l_all xs ys rs.
Theorem C67_add_einsum (R : cring) xs ys rs Dx Dy Dr (r x y : view) (m : mem (car R)) F :
  plain xs -> plain ys -> plain rs -> ordinary xs ys rs -> few xs ys rs -> form2_of (str2 xs ys rs) = Ok F ->
  lettered r rs Dr -> lettered x xs Dx -> lettered y ys Dy -> sides_agree xs ys rs Dx Dy Dr ->
  (forall c, is_conv3 xs ys rs c = true -> Dy c <= Dx c /\ Dr c <= Dx c - Dy c + 1) ->
  same_fourth (moved2 xs ys rs) (lstride x xs) (lstride r rs) -> same_fourth (moved2 xs ys rs) (fun c => if is_conv3 xs ys rs c then 0 else lstride y ys c) (lstride x xs) ->
  readable m r -> distinct_cells r -> readable m x -> readable m y -> disjoint_views r x -> disjoint_views r y ->
  exists m', ein2_add F r x y m = Ok m' /\ adds m m' r rs Dr (einsum2 m x y xs ys rs Dx Dy).
Proof.
  intros Px Py Pr O Fw EF [Hr1 Hr2] [Hx1 Hx2] [Hy1 Hy2] Ag Hcv F1 F2 Rr Di Rx Ry Ds1 Ds2. destruct (to_ord xs ys rs O) as (E1 & E2 & E3). unfold moved2 in F1, F2. rewrite <- E1, <- E2, <- E3 in F1, F2.
  apply (ein2_add_ok xs ys rs Dx Dy Dr x y r F Px Py Pr O EF Hx1 Hy1 Hr1 Hx2 Hy2 Hr2 Ag (few_l _ _ _ O Fw) Hcv); assumption.
Qed.
Print Assumptions C67_add_einsum.
Theorem C67_call (R : cring) xs ys rs Dx Dy Dr (x y : view) b (m : mem (car R)) F :
  plain xs -> plain ys -> plain rs -> ordinary xs ys rs -> few xs ys rs -> form2_of (str2 xs ys rs) = Ok F ->
  lettered x xs Dx -> lettered y ys Dy -> (forall c, 0 <= Dx c /\ 0 <= Dy c /\ 0 <= Dr c) -> sides_agree xs ys rs Dx Dy Dr ->
  (forall c, is_conv3 xs ys rs c = true -> Dy c <= Dx c /\ Dr c = Dx c - Dy c + 1) ->
  same_fourth (moved2 xs ys rs) (lstride x xs) (lstride (fresh_view b (map Dr rs)) rs) -> same_fourth (moved2 xs ys rs) (fun c => if is_conv3 xs ys rs c then 0 else lstride y ys c) (lstride x xs) ->
  readable m x -> readable m y -> vblk x <> b -> vblk y <> b ->
  exists r m', ein2_call F x y (map Dr (l_r xs ys rs)) b m = Ok (r, m') /\ returns m m' b r rs Dr (einsum2 m x y xs ys rs Dx Dy).
Proof.
  intros Px Py Pr O Fw EF [Hx1 Hx2] [Hy1 Hy2] Pos Ag Hcv F1 F2 Rx Ry B1 B2. destruct (to_ord xs ys rs O) as (E1 & E2 & E3). unfold moved2 in F1, F2. rewrite <- E1, <- E2, <- E3 in F1, F2.
  apply (ein2_call_ok xs ys rs Dx Dy Dr x y b m F); try assumption. now apply few_l.
Qed.
Print Assumptions C67_call.
Theorem C67_too_many (R : cring) xs ys rs (r x y : view) (m : mem (car R)) F :
  plain xs -> plain ys -> plain rs -> ordinary xs ys rs -> ~ few xs ys rs -> form2_of (str2 xs ys rs) = Ok F ->
  ein2_add F r x y m = Throw /\ ein2_back0 F x r y m = Throw /\ ein2_back1 F y r x m = Throw.
Proof.
  intros Px Py Pr O Nf EF. assert (K : forall A (k : res A), ein2_sizes F k = Throw).
  { intros A k. rewrite form2_ok in EF by assumption. injection EF as <-. destruct (to_ord xs ys rs O) as (E1 & E2 & E3). unfold ein2_sizes, le3. cbn [f2_xsum f2_ysum f2_rsum f2_tr f2_xr f2_yr f2_conv f2_xy f2_trip].
    fold (gx xs ys rs) (gy xs ys rs) (gt xs ys rs). rewrite E1, E2, E3, !map_length. unfold few in Nf.
    change (filter (notin ys) (only_x xs rs)) with (l_x xs ys rs). change (only_y xs ys rs) with (l_y xs ys rs). change (filter (kb xs ys) (letters rs)) with (l_r xs ys rs).
    change (filter (kc xs ys) (letters rs)) with (l_conv xs ys rs). change (filter (isin ys) (only_x xs rs)) with (l_xy xs ys rs).
    destruct (List.length (l_x xs ys rs) <=? 3)%nat eqn:A1; cbn [assrt]; [|reflexivity]. destruct (List.length (l_y xs ys rs) <=? 3)%nat eqn:A2; cbn [assrt]; [|reflexivity].
    destruct (List.length (l_r xs ys rs) <=? 3)%nat eqn:A3; cbn [assrt]; [|reflexivity]. destruct (_ <=? 4)%nat eqn:A4; cbn [assrt]; [|reflexivity]. destruct (List.length (l_xy xs ys rs) + _ <=? 3)%nat eqn:A5; cbn [assrt]; [|reflexivity].
    exfalso. apply Nf. apply Nat.leb_le in A1, A2, A3, A4, A5. auto. }
  unfold ein2_add, ein2_back0, ein2_back1, ein2_params, ein2_params_back0, ein2_params_back1. rewrite !K. cbn. auto.
Qed.
Print Assumptions C67_too_many.
(* a matrix product with a convolved letter: "iUk,kU->iU", x of sides 2,3,2, y of sides 2,2: r(i,u) = sum_k,v x(i,u+v,k) y(k,v) *)
Definition Dx67 (c : ascii) : Z := if Ascii.eqb c "U"%char then 3 else 2.
Definition Dy67 (c : ascii) : Z := 2.
Definition m67 : mem Z := zm [0; 1; 2; 3; 4; 5; 6; 7; 8; 9; 10; 11; 1; 10; 100; 1000].
Example C67_case : let x := fresh_view 0 [2; 3; 2] in let y := View 0 12 [2; 2] [2; 1] in
  exists F r m', form2_of (str2 (st "iUk") (st "kU") (st "iU")) = Ok F /\ ordinary (st "iUk") (st "kU") (st "iU") /\ few (st "iUk") (st "kU") (st "iU") /\
    lettered x (st "iUk") Dx67 /\ lettered y (st "kU") Dy67 /\ sides_agree (st "iUk") (st "kU") (st "iU") Dx67 Dy67 Dy67 /\ readable m67 x /\ readable m67 y /\
    ein2_call (R := ZRing) F x y [] 1 m67 = Ok (r, m') /\ vdims r = [2; 2] /\
    map (elem m' r) [[0; 0]; [0; 1]; [1; 0]; [1; 1]] = [Some 3120; Some 5342; Some 9786; Some 12008].
Proof.
  cbn zeta. do 3 eexists. split; [vm_compute; reflexivity|]. split; [split; [cbn; intuition discriminate|cbn; intuition discriminate]|]. split; [vm_compute; lia|]. split; [split; reflexivity|]. split; [split; reflexivity|].
  split. { intros c H. unfold Dx67, Dy67. destruct (Ascii.eqb c "U"%char) eqn:E; [apply Ascii.eqb_eq in E; subst; discriminate H|auto]. }
  split; [apply readable_by; reflexivity|]. split; [apply readable_by; reflexivity|]. split; [vm_compute; reflexivity|]. split; vm_compute; reflexivity.
Qed.
(* as for one operand, a fourth transferred letter is taken at the stride it has in x *)
Theorem C67_fourth_letter_refuted : ~ (forall xs ys rs D (x y : view) b (m : mem Z) F,
  plain xs -> plain ys -> plain rs -> ordinary xs ys rs -> few xs ys rs -> form2_of (str2 xs ys rs) = Ok F -> (forall c, convolved c = true -> ~ In c rs) ->
  lettered x xs D -> lettered y ys D -> (forall c, 0 <= D c) -> readable m x -> readable m y -> vblk x <> b -> vblk y <> b ->
  exists r m', ein2_call (R := ZRing) F x y (map D (l_r xs ys rs)) b m = Ok (r, m') /\ returns (R := ZRing) m m' b r rs D (einsum2 (R := ZRing) m x y xs ys rs D D)).
Proof.
  intro H. set (D := fun c : ascii => if Ascii.eqb c "a"%char || Ascii.eqb c "d"%char then 2 else 1).
  destruct (form2_of (str2 (st "ab") (st "cd") (st "abcd"))) as [F| |] eqn:EF; [|discriminate EF..].
  destruct (H (st "ab") (st "cd") (st "abcd") D (View 0 0 [2; 1] [1; 1]) (View 0 0 [1; 2] [2; 1]) 1 (zm [1; 2]) F) as (r & m' & E & _ & A & _).
  - repeat constructor; discriminate.
  - repeat constructor; discriminate.
  - repeat constructor; discriminate.
  - split; cbn; intuition discriminate.
  - vm_compute. lia.
  - exact EF.
  - intros c Hc K. cbn in K. decompose [or] K; subst; try discriminate; contradiction.
  - split; reflexivity.
  - split; reflexivity.
  - intro c. unfold D. destruct (_ || _); lia.
  - apply readable_by. reflexivity.
  - apply readable_by. reflexivity.
  - cbn. lia.
  - cbn. lia.
  - vm_compute in EF. injection EF as <-. vm_compute in E. injection E as <- <-.
    assert (Hf : fits D (fun c => if Ascii.eqb c "d"%char then 1 else 0) (st "abcd")) by (intros c Hc; cbn in Hc; decompose [or] Hc; subst; try contradiction; vm_compute; split; congruence).
    specialize (A _ Hf). vm_compute in A. discriminate A.
Qed.
Print Assumptions C67_fourth_letter_refuted.
(* a letter S shared by x and r only is dropped instead of refused *)
Theorem C67_gather_letter_refuted : ~ (forall xs ys rs D (x y : view) b (m : mem Z) F,
  plain xs -> plain ys -> plain rs -> few xs ys rs -> form2_of (str2 xs ys rs) = Ok F -> (forall c, convolved c = true \/ star c = true -> ~ In c rs) ->
  lettered x xs D -> lettered y ys D -> (forall c, 0 <= D c) -> readable m x -> readable m y -> vblk x <> b -> vblk y <> b -> (List.length (moved2 xs ys rs) < 4)%nat ->
  ein2_call (R := ZRing) F x y (map D (l_r xs ys rs)) b m = Throw \/
  exists r m', ein2_call (R := ZRing) F x y (map D (l_r xs ys rs)) b m = Ok (r, m') /\ returns (R := ZRing) m m' b r rs D (einsum2 (R := ZRing) m x y xs ys rs D D)).
Proof.
  intro H. set (D := fun c : ascii => 2).
  destruct (form2_of (str2 (st "S") (st "a") (st "S"))) as [F| |] eqn:EF; [|discriminate EF..].
  destruct (H (st "S") (st "a") (st "S") D (View 0 0 [2] [1]) (View 0 0 [2] [1]) 1 (zm [1; 2]) F) as [E|(r & m' & E & _ & A & _)].
  - repeat constructor; discriminate.
  - repeat constructor; discriminate.
  - repeat constructor; discriminate.
  - vm_compute. lia.
  - exact EF.
  - intros c Hc K. cbn in K. decompose [or] K; subst; [destruct Hc; discriminate|contradiction].
  - split; reflexivity.
  - split; reflexivity.
  - intro c. unfold D. lia.
  - apply readable_by. reflexivity.
  - apply readable_by. reflexivity.
  - cbn. lia.
  - cbn. lia.
  - vm_compute. lia.
  - vm_compute in EF. injection EF as <-. vm_compute in E. discriminate E.
  - vm_compute in EF. injection EF as <-. vm_compute in E. injection E as <- <-.
    assert (Hf : fits D (fun c => 1) (st "S")) by (intros c Hc; unfold D; lia).
    specialize (A _ Hf). vm_compute in A. discriminate A.
Qed.
Print Assumptions C67_gather_letter_refuted.

(* ---- C77: gradients *)
(* add_einsum_back adds the einsum rs->xs of r to x *)
Theorem C77_one_operand (R : cring) xs rs D (x r : view) (m : mem (car R)) F :
  plain xs -> plain rs -> no_gather xs rs -> few1 xs rs -> form1_of (str1 xs rs) = Ok F ->
  lettered r rs D -> lettered x xs D -> same_fourth (shared xs rs) (lstride x xs) (lstride r rs) ->
  readable m r -> distinct_cells x -> readable m x -> disjoint_views x r ->
  exists m', ein1_back F x r m = Ok m' /\ adds m m' x xs D (einsum1 m r rs xs D).
Proof. intros Px Pr Ng (A & B & C) EF [Hr1 Hr2] [Hx1 Hx2] H4 Rr Dr Rx Dis. now apply ein1_back_ok. Qed.
Print Assumptions C77_one_operand.
Definition moved_y xs ys rs : list ascii := l_yr xs ys rs ++ l_conv xs ys rs ++ l_xy xs ys rs ++ l_all xs ys rs.
Definition moved_x xs ys rs : list ascii := l_conv xs ys rs ++ l_xr xs ys rs ++ l_xy xs ys rs ++ l_all xs ys rs.
Theorem C77_in_y (R : cring) xs ys rs Dx Dy Dr (r x y : view) (m : mem (car R)) F :
  plain xs -> plain ys -> plain rs -> ordinary xs ys rs -> few xs ys rs -> form2_of (str2 xs ys rs) = Ok F ->
  lettered r rs Dr -> lettered x xs Dx -> lettered y ys Dy -> sides_agree xs ys rs Dx Dy Dr ->
  (forall c, is_conv3 xs ys rs c = true -> Dy c <= Dx c /\ Dr c <= Dx c /\ Dr c <= Dx c - Dy c + 1) ->
  (List.length (moved_y xs ys rs) <= 4)%nat -> (List.length (l_xr xs ys rs ++ l_conv xs ys rs) <= 3)%nat ->
  same_fourth (moved_y xs ys rs) (fun c => if is_conv3 xs ys rs c then 0 else lstride r rs c) (lstride y ys) ->
  same_fourth (moved_y xs ys rs) (lstride x xs) (fun c => if is_conv3 xs ys rs c then 0 else lstride r rs c) ->
  readable m y -> distinct_cells y -> readable m r -> readable m x -> disjoint_views y r -> disjoint_views y x ->
  exists m', ein2_back1 F y r x m = Ok m' /\ adds m m' y ys Dy (einsum2_dy m r x xs ys rs Dx Dr).
Proof.
  intros Px Py Pr O Fw EF [Hr1 Hr2] [Hx1 Hx2] [Hy1 Hy2] Ag Hcv L1 L2 F1 F2 Ry Di Rr Rx Ds1 Ds2. destruct (to_ord xs ys rs O) as (E1 & E2 & E3). unfold moved_y in *. unfold einsum2_dy. rewrite <- E1 in *. rewrite <- E2, <- E3 in *.
  rewrite !app_length in L1. rewrite !app_length in L2. rewrite ?Nat.add_assoc in L1.
  apply (ein2_back1_ok xs ys rs Dx Dy Dr x y r F Px Py Pr O EF Hx1 Hy1 Hr1 Hx2 Hy2 Hr2 Ag (few_l _ _ _ O Fw)); try assumption.
  - intros c Hc. destruct (Hcv c Hc). lia.
  - intros c Hc. destruct (Hcv c Hc). lia.
Qed.
Print Assumptions C77_in_y.
Theorem C77_in_x (R : cring) xs ys rs Dx Dy Dr (r x y : view) (m : mem (car R)) F :
  plain xs -> plain ys -> plain rs -> ordinary xs ys rs -> few xs ys rs -> form2_of (str2 xs ys rs) = Ok F ->
  lettered r rs Dr -> lettered x xs Dx -> lettered y ys Dy -> sides_agree xs ys rs Dx Dy Dr ->
  (forall c, is_conv3 xs ys rs c = true -> Dr c = Dx c - Dy c + 1 /\ 0 < Dy c <= Dr c) ->
  (List.length (moved_x xs ys rs) <= 4)%nat -> (List.length (l_conv xs ys rs ++ l_yr xs ys rs) <= 3)%nat ->
  same_fourth (moved_x xs ys rs) (lstride r rs) (lstride x xs) -> same_fourth (moved_x xs ys rs) (fun c => if is_conv3 xs ys rs c then 0 else lstride y ys c) (lstride r rs) ->
  readable m x -> distinct_cells x -> readable m r -> readable m y -> disjoint_views x r -> disjoint_views x y ->
  exists m', ein2_back0 F x r y m = Ok m' /\ adds m m' x xs Dx (einsum2_dx m r y xs ys rs Dy Dr).
Proof.
  intros Px Py Pr O Fw EF [Hr1 Hr2] [Hx1 Hx2] [Hy1 Hy2] Ag Hcv L1 L2 F1 F2 Rx Di Rr Ry Ds1 Ds2. destruct (to_ord xs ys rs O) as (E1 & E2 & E3). unfold moved_x in *. unfold einsum2_dx. rewrite <- E2 in *. rewrite <- E1, <- E3 in *.
  rewrite !app_length in L1. rewrite !app_length in L2. rewrite ?Nat.add_assoc in L1.
  apply (ein2_back0_ok xs ys rs Dx Dy Dr x y r F Px Py Pr O EF Hx1 Hy1 Hr1 Hx2 Hy2 Hr2 Ag (few_l _ _ _ O Fw)); try assumption.
  - intros c Hc. destruct (Hcv c Hc). lia.
  - intros c Hc. destruct (Hcv c Hc). lia.
Qed.
Print Assumptions C77_in_x.
(* the same convolution as in C67_case, now with gradients *)
Definition m77 : mem Z := zm [0; 0; 0; 0; 0; 0; 0; 0; 0; 0; 0; 0; 1; 10; 100; 1000; 1; 2; 3; 4].
Example C77_case : let x := fresh_view 0 [2; 3; 2] in let y := View 0 12 [2; 2] [2; 1] in let r := View 0 16 [2; 2] [2; 1] in
  exists F m' m'', form2_of (str2 (st "iUk") (st "kU") (st "iU")) = Ok F /\
    (List.length (moved_x (st "iUk") (st "kU") (st "iU")) <= 4)%nat /\ (List.length (moved_y (st "iUk") (st "kU") (st "iU")) <= 4)%nat /\
    disjoint_views x r /\ disjoint_views x y /\ disjoint_views y r /\
    ein2_back0 (R := ZRing) F x r y m77 = Ok m' /\ map (elem m' x) [[0; 0; 0]; [0; 1; 0]; [0; 2; 1]; [1; 1; 1]] = [Some 1; Some 12; Some 2000; Some 3400] /\
    ein2_back1 (R := ZRing) F y r x (zm [0; 1; 2; 3; 4; 5; 6; 7; 8; 9; 10; 11; 0; 0; 0; 0; 1; 2; 3; 4]) = Ok m'' /\ map (elem m'' y) [[0; 0]; [0; 1]; [1; 0]; [1; 1]] = [Some 54; Some 74; Some 64; Some 84].
Proof.
  cbn zeta. assert (Dj : forall v w, forallb (fun ix => forallb (fun jx => match vaddr v ix, vaddr w jx with Ok a, Ok b => negb ((fst a =? fst b) && (snd a =? snd b)) | _, _ => false end) (all_indices (vdims w))) (all_indices (vdims v)) = true -> disjoint_views v w).
  { intros v w H ix jx Hi Hj E. rewrite forallb_forall in H. specialize (H ix (proj2 (in_all_indices _ _) Hi)). rewrite forallb_forall in H. specialize (H jx (proj2 (in_all_indices _ _) Hj)).
    rewrite E in H. destruct (vaddr w jx) as [[p q]| |]; try discriminate H. cbn in H. rewrite !Z.eqb_refl in H. discriminate H. }
  do 3 eexists. split; [vm_compute; reflexivity|]. split; [vm_compute; lia|]. split; [vm_compute; lia|]. do 3 (split; [apply Dj; vm_compute; reflexivity|]). split; [vm_compute; reflexivity|]. split; [vm_compute; reflexivity|]. split; [vm_compute; reflexivity|]. vm_compute. reflexivity.
Qed.
(* a filter longer than the result makes the x-gradient read outside y or r *)
Theorem C77_long_filter_refuted : ~ (forall xs ys rs Dx Dy Dr (r x y : view) (m : mem Z) F,
  plain xs -> plain ys -> plain rs -> ordinary xs ys rs -> few xs ys rs -> form2_of (str2 xs ys rs) = Ok F ->
  lettered r rs Dr -> lettered x xs Dx -> lettered y ys Dy -> sides_agree xs ys rs Dx Dy Dr ->
  (forall c, is_conv3 xs ys rs c = true -> Dr c = Dx c - Dy c + 1 /\ 0 < Dy c <= Dx c) -> (List.length (moved_x xs ys rs) <= 3)%nat -> (List.length (l_conv xs ys rs ++ l_yr xs ys rs) <= 3)%nat ->
  readable m x -> readable m r -> readable m y -> exists m', ein2_back0 (R := ZRing) F x r y m = Ok m').
Proof.
  intro H. destruct (form2_of (str2 (st "U") (st "U") (st "U"))) as [F| |] eqn:EF; [|discriminate EF..].
  destruct (H (st "U") (st "U") (st "U") (fun _ => 3) (fun _ => 3) (fun _ => 1) (View 0 6 [1] [1]) (View 0 0 [3] [1]) (View 0 3 [3] [1]) (zm [0; 0; 0; 1; 10; 100; 7]) F) as (m' & E).
  - repeat constructor; discriminate.
  - repeat constructor; discriminate.
  - repeat constructor; discriminate.
  - split; cbn; intuition discriminate.
  - vm_compute. lia.
  - exact EF.
  - split; reflexivity.
  - split; reflexivity.
  - split; reflexivity.
  - intros c Hc. unfold is_conv3 in Hc. destruct (isin (st "U") c) eqn:E1; [|repeat split; intros; congruence]. exfalso. apply isin_In in E1. cbn in E1. destruct E1 as [<-|[]]. discriminate Hc.
  - intros. lia.
  - vm_compute. lia.
  - vm_compute. lia.
  - apply readable_by. reflexivity.
  - apply readable_by. reflexivity.
  - apply readable_by. reflexivity.
  - vm_compute in EF. injection EF as <-. vm_compute in E. discriminate E.
Qed.
Print Assumptions C77_long_filter_refuted.
(* five transferred letters of the x-gradient overrun the table of four: not refused *)
Theorem C77_five_letters_refuted : ~ (forall xs ys rs D (r x y : view) (m : mem Z) F,
  plain xs -> plain ys -> plain rs -> ordinary xs ys rs -> few xs ys rs -> form2_of (str2 xs ys rs) = Ok F -> (forall c, convolved c = true -> ~ In c rs) ->
  lettered r rs D -> lettered x xs D -> lettered y ys D -> readable m x -> readable m r -> readable m y -> ein2_back0 (R := ZRing) F x r y m <> UB).
Proof.
  intro H. destruct (form2_of (str2 (st "abcde") (st "abc") (st "de"))) as [F| |] eqn:EF; [|discriminate EF..].
  refine (H (st "abcde") (st "abc") (st "de") (fun _ => 1) (View 0 2 [1; 1] [1; 1]) (View 0 0 [1; 1; 1; 1; 1] [1; 1; 1; 1; 1]) (View 0 1 [1; 1; 1] [1; 1; 1]) (zm [0; 1; 2]) F _ _ _ _ _ EF _ _ _ _ _ _ _ _).
  - repeat constructor; discriminate.
  - repeat constructor; discriminate.
  - repeat constructor; discriminate.
  - split; cbn; intuition discriminate.
  - vm_compute. lia.
  - intros c Hc K. cbn in K. decompose [or] K; subst; try discriminate; contradiction.
  - split; reflexivity.
  - split; reflexivity.
  - split; reflexivity.
  - apply readable_by. reflexivity.
  - apply readable_by. reflexivity.
  - apply readable_by. reflexivity.
  - vm_compute in EF. injection EF as <-. vm_compute. reflexivity.
Qed.
Print Assumptions C77_five_letters_refuted.
(* with four letters of y and r only, the x-gradient leaves out all but the first value of the fourth *)
Theorem C77_four_letters_refuted : ~ (forall xs ys rs D (r x y : view) (m : mem Z) F m',
  plain xs -> plain ys -> plain rs -> ordinary xs ys rs -> few xs ys rs -> form2_of (str2 xs ys rs) = Ok F -> (forall c, convolved c = true -> ~ In c rs) ->
  lettered r rs D -> lettered x xs D -> lettered y ys D -> readable m x -> readable m r -> readable m y -> (List.length (moved_x xs ys rs) <= 3)%nat ->
  ein2_back0 (R := ZRing) F x r y m = Ok m' -> adds (R := ZRing) m m' x xs D (einsum2_dx (R := ZRing) m r y xs ys rs D D)).
Proof.
  intro H. set (D := fun c : ascii => if Ascii.eqb c "e"%char then 2 else 1).
  destruct (form2_of (str2 (st "a") (st "bcde") (st "bcde"))) as [F| |] eqn:EF; [|discriminate EF..].
  destruct (ein2_back0 (R := ZRing) F (View 0 0 [1] [1]) (View 0 1 [1; 1; 1; 2] [1; 1; 1; 1]) (View 0 3 [1; 1; 1; 2] [1; 1; 1; 1]) (zm [0; 1; 10; 3; 5])) as [m'| |] eqn:E.
  2-3: vm_compute in EF; injection EF as <-; vm_compute in E; discriminate E.
  assert (A : adds (R := ZRing) (zm [0; 1; 10; 3; 5]) m' (View 0 0 [1] [1]) (st "a") D (einsum2_dx (R := ZRing) (zm [0; 1; 10; 3; 5]) (View 0 1 [1; 1; 1; 2] [1; 1; 1; 1]) (View 0 3 [1; 1; 1; 2] [1; 1; 1; 1]) (st "a") (st "bcde") (st "bcde") D D)).
  { apply (H (st "a") (st "bcde") (st "bcde") D (View 0 1 [1; 1; 1; 2] [1; 1; 1; 1]) (View 0 0 [1] [1]) (View 0 3 [1; 1; 1; 2] [1; 1; 1; 1]) (zm [0; 1; 10; 3; 5]) F m').
    - repeat constructor; discriminate.
    - repeat constructor; discriminate.
    - repeat constructor; discriminate.
    - split; cbn; intuition discriminate.
    - vm_compute. lia.
    - exact EF.
    - intros c Hc K. cbn in K. decompose [or] K; subst; try discriminate; contradiction.
    - split; reflexivity.
    - split; reflexivity.
    - split; reflexivity.
    - apply readable_by. reflexivity.
    - apply readable_by. reflexivity.
    - apply readable_by. reflexivity.
    - vm_compute. lia.
    - exact E. }
  destruct A as [A _]. assert (Hf : fits D (fun c => 0) (st "a")) by (intros c [<-|[]]; cbn; lia). specialize (A _ Hf).
  vm_compute in EF. injection EF as <-. vm_compute in E. injection E as <-. vm_compute in A. discriminate A.
Qed.
Print Assumptions C77_four_letters_refuted.
