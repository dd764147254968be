(* Proofs_Einsum2.v -- the classes of letters found by the einsum parsers. *)
From Verif Require Import Base BaseFacts Model_Index Model_View Model_Tensor Model_Einsum Spec_Index Spec_View Spec_Tensor Spec_Einsum Proofs_Einsum.
Local Open Scope Z_scope.

Lemma occs_absent c s : has c s = false -> occs c s 0 = [].
Proof.
  intro H. destruct (occs c s 0) as [|p l] eqn:E; [reflexivity|]. exfalso. assert (I : In p (occs c s 0)) by (rewrite E; now left).
  apply occs_in in I as [_ I]. apply nth_error_In in I. apply isin_In in I. unfold isin in I. unfold has in H. congruence.
Qed.
Lemma set_ids_nil t ids : set_ids [] t ids = ids.
Proof.
  unfold set_ids. cbn [existsb]. unfold zrange. rewrite Nat2Z.id. generalize 0%nat. induction ids as [|a l IH]; intro n; [reflexivity|]. cbn. f_equal. apply IH.
Qed.
Definition z0 (c : ascii) : Z := 0.
Definition cl_b1 (xs : list ascii) (c : ascii) := notin xs c.
Definition cl_t1 (xs : list ascii) (c : ascii) := isin xs c && negb (gather_letter c).
Definition cl_g1 (xs : list ascii) (c : ascii) := isin xs c && gather_letter c.
Lemma start_tail w a L c : NoDup (a :: L) -> In c L -> start w (a :: L) c = w a + start w L c.
Proof. intros N H. cbn [start]. destruct (aeq a c) eqn:E; [|reflexivity]. aeqs. subst. inversion N; contradiction. Qed.
Lemma fold1r rs xs L : NoDup L -> forall F, length (f1_rids F) = length rs -> length (f1_xids F) = length xs ->
  fold_left (fun F c => step1r c (occs c rs 0) (occs c xs 0) (has c xs) F) L F =
  Form1 (f1_xsum F) (f1_rsum F ++ map (occ rs) (filter (cl_b1 xs) L)) (f1_xr F ++ map (fun c => (occ xs c, occ rs c)) (filter (cl_t1 xs) L))
    (f1_gat F ++ map (fun c => (occ xs c, occ rs c)) (filter (cl_g1 xs) L))
    (give one z0 rs L (f1_tail F) (f1_rids F)) (give one z0 xs L (f1_tail F) (f1_xids F))
    (f1_bc F ++ map (fun c => f1_tail F + start one L c) (filter (cl_b1 xs) L)) (f1_tail F + total one L).
Proof.
  induction L as [|a L IH]; intros N F H1 H2.
  - cbn. rewrite !app_nil_r, Z.add_0_r. now destruct F.
  - inversion N; subst. cbn [fold_left]. assert (Ls : forall v t ids, length (set_ids v t ids) = length ids).
    { intros. unfold set_ids. rewrite map_length, combine_length, zrange_length by lia. lia. }
    rewrite IH; [|assumption|unfold step1r; destruct (has a xs), (aeq a "S"); cbn; rewrite ?Ls; assumption..].
    assert (Bc : map (fun c => f1_tail F + start one (a :: L) c) (filter (cl_b1 xs) L) = map (fun c => f1_tail F + 1 + start one L c) (filter (cl_b1 xs) L)).
    { apply map_ext_in. intros c Hc. apply filter_In in Hc as [Hc _]. rewrite start_tail by assumption. unfold one at 1. lia. }
    assert (Cb : cl_b1 xs a = negb (has a xs)) by reflexivity. assert (Ct : cl_t1 xs a = has a xs && negb (aeq a "S")) by reflexivity.
    assert (Cg : cl_g1 xs a = has a xs && aeq a "S") by reflexivity.
    assert (Tt : total one (a :: L) = 1 + total one L) by reflexivity. rewrite Tt, Z.add_assoc. cbn [filter give]. rewrite Cb, Ct, Cg.
    change (one a) with 1. change (z0 a) with 0.
    unfold step1r. destruct (has a xs) eqn:Hx; [destruct (aeq a "S") eqn:ES|]; cbn [negb andb f1_xsum f1_rsum f1_xr f1_gat f1_rids f1_xids f1_bc f1_tail map].
    + rewrite Bc, <- app_assoc, !Z.add_0_r, !occs_occ. reflexivity.
    + rewrite Bc, <- app_assoc, !Z.add_0_r, !occs_occ. reflexivity.
    + rewrite Bc, <- !app_assoc, !Z.add_0_r, !(occs_occ a rs). rewrite (occs_absent _ _ Hx), set_ids_nil. cbn [app start]. rewrite aeq_refl, Z.add_0_r. reflexivity.
Qed.
Lemma fold1x xs L : NoDup L -> forall F,
  fold_left (fun F c => step1x (occs c xs 0) F) L F =
  Form1 (f1_xsum F ++ map (occ xs) L) (f1_rsum F) (f1_xr F) (f1_gat F) (f1_rids F) (give one z0 xs L (f1_tail F) (f1_xids F)) (f1_bc F) (f1_tail F + total one L).
Proof.
  induction L as [|a L IH]; intros N F.
  - cbn. rewrite !app_nil_r, Z.add_0_r. now destruct F.
  - inversion N; subst. cbn [fold_left]. rewrite IH by assumption. cbn [give]. unfold step1x. cbn [f1_xsum f1_rsum f1_xr f1_gat f1_rids f1_xids f1_bc f1_tail map].
    change (one a) with 1. change (z0 a) with 0. assert (Tt : total one (a :: L) = 1 + total one L) by reflexivity. rewrite Tt, Z.add_assoc.
    rewrite <- app_assoc, occs_occ, Z.add_0_r. reflexivity.
Qed.
Lemma cut_arrow_ok xs rs : ~ In "-"%char xs -> cut_arrow (xs ++ arrow ++ rs) = Some (xs, rs).
Proof.
  induction xs as [|a xs IH]; intro H; [reflexivity|]. cbn [app cut_arrow].
  assert (E : aeq a "-" = false) by (apply aeq_neq; intros ->; apply H; now left). rewrite E. cbn [andb].
  rewrite IH by (intro K; apply H; now right). reflexivity.
Qed.
Lemma cut_comma_ok xs ys : ~ In ","%char xs -> cut_comma (xs ++ ","%char :: ys) = Some (xs, ys).
Proof.
  induction xs as [|a xs IH]; intro H; [reflexivity|]. cbn [app cut_comma].
  assert (E : aeq a "," = false) by (apply aeq_neq; intros ->; apply H; now left). rewrite E.
  rewrite IH by (intro K; apply H; now right). reflexivity.
Qed.
Lemma plain_no s c : plain s -> c = "_"%char \/ c = ","%char \/ c = "-"%char -> ~ In c s.
Proof. intros H K I. unfold plain in H. rewrite Forall_forall in H. destruct (H c I) as (A & B & C). destruct K as [-> |[-> | ->]]; congruence. Qed.
Lemma isin_letters s c : isin (letters s) c = isin s c.
Proof. apply eq_true_iff_eq. rewrite !isin_In. apply in_letters. Qed.
Lemma filter_notin_letters s l : filter (notin (letters s)) l = filter (notin s) l.
Proof. apply filter_ext. intro c. unfold notin. now rewrite isin_letters. Qed.
Lemma give_all w d s L t g : NoDup L -> (forall c, In c s -> In c L) -> give w d s L t (map g s) = map (fun c => t + start w L c + d c) s.
Proof.
  intros N H. rewrite give_ok by assumption. apply map_ext_in. intros c Hc. now rewrite (proj2 (isin_In L c) (H c Hc)).
Qed.
Lemma nodup_two s t : NoDup (letters s ++ filter (notin s) (letters t)).
Proof.
  apply nodup_app; [apply letters_nodup|apply NoDup_filter, letters_nodup|]. intros c Hc K. apply filter_In in K as [_ K]. unfold notin in K.
  rewrite (proj2 (isin_In s c)) in K; [discriminate|]. now apply in_letters.
Qed.
Lemma in_two s t c : In c t -> In c (letters s ++ filter (notin s) (letters t)).
Proof.
  intro H. apply in_app_iff. destruct (isin s c) eqn:E; [left; apply in_letters; now apply isin_In|right]. apply filter_In. split; [now apply in_letters|]. unfold notin. now rewrite E.
Qed.
Lemma give_other w d s L : (forall c, In c L -> ~ In c s) -> forall t ids, give w d s L t ids = ids.
Proof.
  induction L as [|a L IH]; intros H t ids; [reflexivity|]. cbn [give]. rewrite occs_absent.
  - rewrite set_ids_nil. apply IH. intros c Hc. apply H. now right.
  - rewrite has_isin. apply not_true_is_false. rewrite isin_In. apply H. now left.
Qed.
(* the order in which ids are given out *)
Definition order1 (xs rs : list ascii) : list ascii := letters rs ++ filter (notin rs) (letters xs).
Lemma form1_ok xs rs : plain xs -> plain rs ->
  form1_of (str1 xs rs) = Ok (Form1 (map (occ xs) (filter (notin rs) (letters xs))) (map (occ rs) (filter (notin xs) (letters rs)))
    (map (fun c => (occ xs c, occ rs c)) (filter (fun c => isin xs c && negb (gather_letter c)) (letters rs)))
    (map (fun c => (occ xs c, occ rs c)) (filter (fun c => isin xs c && gather_letter c) (letters rs)))
    (map (start one (order1 xs rs)) rs) (map (start one (order1 xs rs)) xs)
    (map (start one (order1 xs rs)) (filter (notin xs) (letters rs))) (Z.of_nat (length (order1 xs rs)))).
Proof.
  intros Px Pr. unfold form1_of, str1. rewrite cut_arrow_ok by (apply plain_no; auto).
  assert (Ux : ~ In us xs) by (apply plain_no; auto). assert (Ur : ~ In us rs) by (apply plain_no; auto).
  rewrite loop1r_ok by apply live_len. cbn [bind]. rewrite (live_plain rs Ur).
  assert (Lx : live (blanks (letters rs) xs) = filter (notin rs) (letters xs)).
  { rewrite live_blanks by (now rewrite in_letters). now rewrite (live_plain xs Ux), filter_notin_letters. }
  rewrite loop1x_ok.
  2:{ rewrite Lx. etransitivity; [|apply (letters_len xs)]. clear. induction (letters xs) as [|c l IH]; cbn; [lia|]. destruct (notin rs c); cbn; lia. }
  rewrite Lx. f_equal.
  rewrite (fold_left_ext _ (fun F c => step1x (occs c xs 0) F)).
  2:{ intros c F Hc. apply filter_In in Hc as [Hc E]. rewrite occs_blanks; [reflexivity|intros ->; apply Ux; now apply in_letters|].
      intro K. apply (proj1 (in_letters _ _)), isin_In in K. unfold notin in E. rewrite K in E. discriminate. }
  rewrite fold1x by apply NoDup_filter, letters_nodup.
  rewrite fold1r by (try apply letters_nodup; cbn; unfold zeros; apply repeat_length).
  cbn [f1_xsum f1_rsum f1_xr f1_gat f1_rids f1_xids f1_bc f1_tail app]. rewrite !zeros_map.
  assert (N : NoDup (order1 xs rs)) by apply nodup_two.
  f_equal.
  - replace (give one z0 rs (letters rs) 0 (map (fun _ => 0) rs)) with (give one z0 rs (order1 xs rs) 0 (map (fun _ => 0) rs)).
    + rewrite give_all; [|exact N|intros c Hc; apply in_app_iff; left; now apply in_letters]. apply map_ext. intro. unfold z0. lia.
    + unfold order1. rewrite give_app. apply give_other. intros c Hc. apply filter_In in Hc as [_ E]. unfold notin in E. intro K. apply isin_In in K. rewrite K in E. discriminate.
  - rewrite <- give_app. fold (order1 xs rs). rewrite give_all; [|exact N|intros c Hc; now apply in_two]. apply map_ext. intro. unfold z0. lia.
  - apply map_ext_in. intros c Hc. apply filter_In in Hc as [Hc _]. unfold order1. cbn [Z.add]. clear - Hc. induction (letters rs) as [|a l IH]; [destruct Hc|]. cbn.
    destruct (aeq a c) eqn:E; [reflexivity|]. rewrite IH; [reflexivity|]. destruct Hc as [->|]; [now rewrite aeq_refl in E|assumption].
  - unfold order1. rewrite app_length, !total_one. lia.
Qed.

(* ---- two operands *)
Section Two.
Variables xs ys rs : list ascii.
Definition both (c : ascii) : bool := isin xs c && isin ys c.
Definition kc (c : ascii) : bool := both c && convolved c.
Definition kt (c : ascii) : bool := both c && negb (star c) && negb (convolved c).
Definition kstar (c : ascii) : bool := both c && star c.
Definition kx (c : ascii) : bool := isin xs c && notin ys c && negb (gather_letter c).
Definition kxg (c : ascii) : bool := isin xs c && notin ys c && gather_letter c.
Definition ky (c : ascii) : bool := notin xs c && isin ys c && negb (gather_letter c).
Definition kyg (c : ascii) : bool := notin xs c && isin ys c && gather_letter c.
Definition kb (c : ascii) : bool := notin xs c && notin ys c.
Definition w2 (c : ascii) : Z := if isin rs c && kc c then 2 else 1.
Definition d2 (c : ascii) : Z := w2 c - 1.
Definition trio (c : ascii) : tri := (occ xs c, occ ys c, occ rs c).
Lemma conv_star c : convolved c = true -> star c = false.
Proof. unfold convolved, star. cbn. rewrite !orb_true_iff, !aeq_eq. intros [-> | [-> | [-> | K]]]; try reflexivity. discriminate. Qed.
Lemma conv_is c : is_conv c = convolved c.
Proof. unfold is_conv, convolved. cbn. now rewrite orb_false_r, orb_assoc. Qed.
Lemma fold2r L : NoDup L -> (forall c, In c L -> In c rs) -> forall F,
  fold_left (fun F c => step2r c (occs c rs 0) (occs c xs 0) (occs c ys 0) (has c xs) (has c ys) F) L F =
  Form2 (f2_xsum F) (f2_ysum F) (f2_rsum F ++ map (occ rs) (filter kb L))
    (f2_xr F ++ map (fun c => (occ xs c, occ rs c)) (filter kx L)) (f2_yr F ++ map (fun c => (occ ys c, occ rs c)) (filter ky L)) (f2_xy F)
    (f2_tr F ++ map trio (filter kt L)) (f2_conv F ++ map trio (filter kc L)) (f2_trip F ++ map trio (filter kstar L))
    (f2_xgat F ++ map (fun c => (occ xs c, occ rs c)) (filter kxg L)) (f2_ygat F ++ map (fun c => (occ ys c, occ rs c)) (filter kyg L))
    (give w2 z0 xs L (f2_tail F) (f2_xids F)) (give w2 d2 ys L (f2_tail F) (f2_yids F)) (give w2 z0 rs L (f2_tail F) (f2_rids F))
    (f2_bc F ++ map (fun c => f2_tail F + start w2 L c) (filter kb L)) (f2_tail F + total w2 L).
Proof.
  induction L as [|a L IH]; intros N Hr F.
  - cbn. rewrite !app_nil_r, Z.add_0_r. now destruct F.
  - inversion N; subst. cbn [fold_left]. rewrite IH by (auto; intros; apply Hr; now right).
    assert (Bc : map (fun c => f2_tail F + start w2 (a :: L) c) (filter kb L) = map (fun c => f2_tail F + w2 a + start w2 L c) (filter kb L)).
    { apply map_ext_in. intros c Hc. apply filter_In in Hc as [Hc _]. rewrite start_tail by assumption. lia. }
    assert (Ra : isin rs a = true) by (apply isin_In, Hr; now left).
    assert (Wa : w2 a = if kc a then 2 else 1) by (unfold w2; now rewrite Ra).
    assert (Da : d2 a = if kc a then 1 else 0) by (unfold d2; rewrite Wa; destruct (kc a); reflexivity).
    assert (Tt : total w2 (a :: L) = w2 a + total w2 L) by reflexivity. rewrite Tt, Z.add_assoc. cbn [filter give].
    change (z0 a) with 0. rewrite Da.
    assert (Hx : isin xs a = has a xs) by reflexivity. assert (Hy : isin ys a = has a ys) by reflexivity.
    assert (Cs : convolved a = true -> star a = false) by apply conv_star.
    unfold step2r. rewrite conv_is. change (aeq a "*") with (star a). change (aeq a "S") with (gather_letter a).
    assert (Kc : kc a = has a xs && has a ys && convolved a) by reflexivity. assert (Kt : kt a = has a xs && has a ys && negb (star a) && negb (convolved a)) by reflexivity.
    assert (Ks : kstar a = has a xs && has a ys && star a) by reflexivity. assert (Kx : kx a = has a xs && negb (has a ys) && negb (gather_letter a)) by reflexivity.
    assert (Kxg : kxg a = has a xs && negb (has a ys) && gather_letter a) by reflexivity. assert (Ky : ky a = negb (has a xs) && has a ys && negb (gather_letter a)) by reflexivity.
    assert (Kyg : kyg a = negb (has a xs) && has a ys && gather_letter a) by reflexivity. assert (Kb : kb a = negb (has a xs) && negb (has a ys)) by reflexivity.
    rewrite Kt, Ks, Kx, Kxg, Ky, Kyg, Kb. rewrite Wa in *. rewrite Kc in *.
    destruct (has a xs) eqn:Ex, (has a ys) eqn:Ey; cbn [andb negb].
    + destruct (convolved a) eqn:Ec.
      * rewrite (Cs eq_refl). cbn [andb negb f2_xsum f2_ysum f2_rsum f2_xr f2_yr f2_xy f2_tr f2_conv f2_trip f2_xgat f2_ygat f2_xids f2_yids f2_rids f2_bc f2_tail map].
        rewrite Bc, <- app_assoc, !Z.add_0_r, !occs_occ. reflexivity.
      * destruct (star a) eqn:Es; cbn [andb negb f2_xsum f2_ysum f2_rsum f2_xr f2_yr f2_xy f2_tr f2_conv f2_trip f2_xgat f2_ygat f2_xids f2_yids f2_rids f2_bc f2_tail map];
        rewrite Bc, <- app_assoc, !Z.add_0_r, !occs_occ; reflexivity.
    + rewrite (occs_absent _ _ Ey), set_ids_nil.
      destruct (gather_letter a); cbn [andb negb f2_xsum f2_ysum f2_rsum f2_xr f2_yr f2_xy f2_tr f2_conv f2_trip f2_xgat f2_ygat f2_xids f2_yids f2_rids f2_bc f2_tail map];
        rewrite Bc, <- app_assoc, !Z.add_0_r, ?occs_occ; reflexivity.
    + rewrite (occs_absent _ _ Ex), set_ids_nil.
      destruct (gather_letter a); cbn [andb negb f2_xsum f2_ysum f2_rsum f2_xr f2_yr f2_xy f2_tr f2_conv f2_trip f2_xgat f2_ygat f2_xids f2_yids f2_rids f2_bc f2_tail map];
        rewrite Bc, <- app_assoc, !Z.add_0_r, ?occs_occ; reflexivity.
    + rewrite (occs_absent _ _ Ex), (occs_absent _ _ Ey), !set_ids_nil.
      cbn [andb negb f2_xsum f2_ysum f2_rsum f2_xr f2_yr f2_xy f2_tr f2_conv f2_trip f2_xgat f2_ygat f2_xids f2_yids f2_rids f2_bc f2_tail map].
      rewrite Bc, <- !app_assoc, !Z.add_0_r, ?occs_occ. cbn [app start]. rewrite aeq_refl, Z.add_0_r. reflexivity.
Qed.
Lemma fold2x L : NoDup L -> (forall c, In c L -> ~ In c rs) -> forall F,
  fold_left (fun F c => step2x (occs c xs 0) (occs c ys 0) (has c ys) F) L F =
  Form2 (f2_xsum F ++ map (occ xs) (filter (notin ys) L)) (f2_ysum F) (f2_rsum F) (f2_xr F) (f2_yr F)
    (f2_xy F ++ map (fun c => (occ xs c, occ ys c)) (filter (isin ys) L)) (f2_tr F) (f2_conv F) (f2_trip F) (f2_xgat F) (f2_ygat F)
    (give w2 z0 xs L (f2_tail F) (f2_xids F)) (give w2 d2 ys L (f2_tail F) (f2_yids F)) (f2_rids F) (f2_bc F) (f2_tail F + total w2 L).
Proof.
  induction L as [|a L IH]; intros N Hr F.
  - cbn. rewrite !app_nil_r, Z.add_0_r. now destruct F.
  - inversion N; subst. cbn [fold_left]. rewrite IH by (auto; intros; apply Hr; now right).
    assert (Ra : isin rs a = false) by (apply not_true_is_false; rewrite isin_In; apply Hr; now left).
    assert (Wa : w2 a = 1) by (unfold w2; now rewrite Ra).
    assert (Da : d2 a = 0) by (unfold d2; rewrite Wa; reflexivity).
    assert (Tt : total w2 (a :: L) = w2 a + total w2 L) by reflexivity. rewrite Tt, Z.add_assoc. cbn [filter give].
    change (z0 a) with 0. rewrite Da, Wa. unfold step2x.
    assert (Hy : isin ys a = has a ys) by reflexivity. assert (Hn : notin ys a = negb (has a ys)) by reflexivity. rewrite Hy, Hn.
    destruct (has a ys) eqn:Ey; cbn [andb negb f2_xsum f2_ysum f2_rsum f2_xr f2_yr f2_xy f2_tr f2_conv f2_trip f2_xgat f2_ygat f2_xids f2_yids f2_rids f2_bc f2_tail map].
    + rewrite <- app_assoc, !Z.add_0_r, !occs_occ. reflexivity.
    + rewrite (occs_absent _ _ Ey), set_ids_nil. rewrite <- app_assoc, !Z.add_0_r, !occs_occ. reflexivity.
Qed.
Lemma fold2y L : NoDup L -> (forall c, In c L -> ~ In c rs) -> forall F,
  fold_left (fun F c => step2y (occs c ys 0) F) L F =
  Form2 (f2_xsum F) (f2_ysum F ++ map (occ ys) L) (f2_rsum F) (f2_xr F) (f2_yr F) (f2_xy F) (f2_tr F) (f2_conv F) (f2_trip F) (f2_xgat F) (f2_ygat F)
    (f2_xids F) (give w2 d2 ys L (f2_tail F) (f2_yids F)) (f2_rids F) (f2_bc F) (f2_tail F + total w2 L).
Proof.
  induction L as [|a L IH]; intros N Hr F.
  - cbn. rewrite !app_nil_r, Z.add_0_r. now destruct F.
  - inversion N; subst. cbn [fold_left]. rewrite IH by (auto; intros; apply Hr; now right).
    assert (Ra : isin rs a = false) by (apply not_true_is_false; rewrite isin_In; apply Hr; now left).
    assert (Wa : w2 a = 1) by (unfold w2; now rewrite Ra).
    assert (Da : d2 a = 0) by (unfold d2; rewrite Wa; reflexivity).
    assert (Tt : total w2 (a :: L) = w2 a + total w2 L) by reflexivity. rewrite Tt, Z.add_assoc. cbn [give].
    rewrite Da, Wa. unfold step2y. cbn [f2_xsum f2_ysum f2_rsum f2_xr f2_yr f2_xy f2_tr f2_conv f2_trip f2_xgat f2_ygat f2_xids f2_yids f2_rids f2_bc f2_tail map].
    rewrite <- app_assoc, !Z.add_0_r, !occs_occ. reflexivity.
Qed.
Definition only_x : list ascii := filter (notin rs) (letters xs).
Definition only_y : list ascii := filter (fun c => notin rs c && notin xs c) (letters ys).
Definition order2 : list ascii := letters rs ++ only_x ++ only_y.
Lemma nodup_order2 : NoDup order2.
Proof.
  unfold order2. rewrite app_assoc. apply nodup_app; [apply nodup_two|apply NoDup_filter, letters_nodup|].
  intros c Hc K. apply filter_In in K as [_ K]. apply andb_true_iff in K as [K1 K2]. unfold notin in *. apply in_app_iff in Hc as [Hc|Hc].
  - apply (proj1 (in_letters _ _)), isin_In in Hc. rewrite Hc in K1. discriminate.
  - apply filter_In in Hc as [Hc _]. apply (proj1 (in_letters _ _)), isin_In in Hc. rewrite Hc in K2. discriminate.
Qed.
Lemma start_app_l w L L' c : In c L -> start w (L ++ L') c = start w L c.
Proof.
  induction L as [|a l IH]; [intros []|]. intro Hc. cbn. destruct (aeq a c) eqn:E; [reflexivity|]. rewrite IH; [reflexivity|]. destruct Hc as [->|]; [now rewrite aeq_refl in E|assumption].
Qed.
Lemma form2_ok : plain xs -> plain ys -> plain rs ->
  form2_of (str2 xs ys rs) = Ok (Form2
    (map (occ xs) (filter (notin ys) only_x)) (map (occ ys) only_y) (map (occ rs) (filter kb (letters rs)))
    (map (fun c => (occ xs c, occ rs c)) (filter kx (letters rs))) (map (fun c => (occ ys c, occ rs c)) (filter ky (letters rs)))
    (map (fun c => (occ xs c, occ ys c)) (filter (isin ys) only_x))
    (map trio (filter kt (letters rs))) (map trio (filter kc (letters rs))) (map trio (filter kstar (letters rs)))
    (map (fun c => (occ xs c, occ rs c)) (filter kxg (letters rs))) (map (fun c => (occ ys c, occ rs c)) (filter kyg (letters rs)))
    (map (start w2 order2) xs) (map (fun c => start w2 order2 c + d2 c) ys) (map (start w2 order2) rs)
    (map (start w2 order2) (filter kb (letters rs))) (total w2 order2)).
Proof.
  intros Px Py Pr. unfold form2_of, str2. replace (xs ++ [","%char] ++ ys ++ arrow ++ rs) with ((xs ++ ","%char :: ys) ++ arrow ++ rs) by (rewrite <- app_assoc; reflexivity).
  rewrite cut_arrow_ok.
  2:{ rewrite in_app_iff. intros [K|[K|K]]; [eapply plain_no; [exact Px| |exact K]; auto|discriminate|eapply plain_no; [exact Py| |exact K]; auto]. }
  rewrite cut_comma_ok by (apply plain_no; auto).
  assert (Ux : ~ In us xs) by (apply plain_no; auto). assert (Uy : ~ In us ys) by (apply plain_no; auto). assert (Ur : ~ In us rs) by (apply plain_no; auto).
  assert (Ulr : ~ In us (letters rs)) by now rewrite in_letters.
  rewrite loop2r_ok by apply live_len. cbn [bind]. rewrite (live_plain rs Ur).
  assert (Lx : live (blanks (letters rs) xs) = only_x).
  { rewrite live_blanks by assumption. now rewrite (live_plain xs Ux), filter_notin_letters. }
  assert (Fl : forall (l : list ascii) f, (length (filter f l) <= length l)%nat) by (intros l f; induction l as [|x l I]; cbn; [lia|destruct (f x); cbn; lia]).
  rewrite loop2x_ok by (rewrite Lx; etransitivity; [apply Fl|apply letters_len]). cbn [bind]. rewrite Lx.
  assert (Uox : ~ In us only_x). { intro K. apply filter_In in K as [K _]. apply (proj1 (in_letters _ _)) in K. contradiction. }
  assert (Ly : live (blanks only_x (blanks (letters rs) ys)) = only_y).
  { rewrite !live_blanks by assumption. rewrite (live_plain ys Uy), filter_notin_letters. unfold only_y, only_x. clear.
    induction (letters ys) as [|c l IH]; [reflexivity|]. cbn. destruct (notin rs c) eqn:E; cbn; [|exact IH].
    assert (X : notin (filter (notin rs) (letters xs)) c = notin xs c).
    { unfold notin. f_equal. apply eq_true_iff_eq. rewrite !isin_In, filter_In, in_letters. tauto. }
    rewrite X. destruct (notin xs c); cbn; now rewrite IH. }
  rewrite loop2y_ok by (rewrite Ly; etransitivity; [apply Fl|apply letters_len]). rewrite Ly. f_equal.
  assert (Hxr : forall c, In c only_x -> ~ In c rs).
  { intros c Hc K. apply filter_In in Hc as [_ E]. apply isin_In in K. unfold notin in E. rewrite K in E. discriminate. }
  assert (Hyr : forall c, In c only_y -> ~ In c rs /\ ~ In c xs).
  { intros c Hc. apply filter_In in Hc as [_ E]. apply andb_true_iff in E as [E1 E2]. unfold notin in *. split; intro K; apply isin_In in K; [rewrite K in E1|rewrite K in E2]; discriminate. }
  rewrite (fold_left_ext _ (fun F c => step2y (occs c ys 0) F) only_y).
  2:{ intros c F Hc. destruct (Hyr c Hc) as [H1 H2]. assert (c <> us). { intros ->. apply filter_In in Hc as [Hc _]. apply (proj1 (in_letters _ _)) in Hc. contradiction. }
      rewrite !occs_blanks; try assumption; [reflexivity|now rewrite in_letters|]. intro K. apply filter_In in K as [K _]. apply (proj1 (in_letters _ _)) in K. contradiction. }
  rewrite fold2y; [|apply NoDup_filter, letters_nodup|intros; now apply Hyr].
  rewrite (fold_left_ext _ (fun F c => step2x (occs c xs 0) (occs c ys 0) (has c ys) F) only_x).
  2:{ intros c F Hc. assert (c <> us) by (intros ->; contradiction). rewrite !occs_blanks, has_blanks; try assumption; try reflexivity; rewrite in_letters; now apply Hxr. }
  rewrite fold2x; [|apply NoDup_filter, letters_nodup|exact Hxr].
  rewrite fold2r; [|apply letters_nodup|intros c; apply in_letters].
  cbn [f2_xsum f2_ysum f2_rsum f2_xr f2_yr f2_xy f2_tr f2_conv f2_trip f2_xgat f2_ygat f2_xids f2_yids f2_rids f2_bc f2_tail app]. rewrite !zeros_map.
  assert (N : NoDup order2) by apply nodup_order2.
  assert (Ix : forall c, In c xs -> In c order2) by (intros c Hc; unfold order2; rewrite app_assoc; apply in_app_iff; left; now apply in_two).
  assert (Ir : forall c, In c rs -> In c order2) by (intros c Hc; apply in_app_iff; left; now apply in_letters).
  assert (Iy : forall c, In c ys -> In c order2).
  { intros c Hc. destruct (isin rs c) eqn:E1; [apply Ir; now apply isin_In|]. destruct (isin xs c) eqn:E2; [apply Ix; now apply isin_In|].
    unfold order2. rewrite !in_app_iff. right. right. apply filter_In. split; [now apply in_letters|]. unfold notin. now rewrite E1, E2. }
  f_equal.
  - rewrite <- give_app. transitivity (give w2 z0 xs order2 0 (map (fun _ => 0) xs)).
    + unfold order2. rewrite app_assoc, (give_app w2 z0 xs (letters rs ++ only_x)). symmetry. apply give_other. intros c Hc. now apply Hyr.
    + rewrite give_all by assumption. apply map_ext. intro. unfold z0. lia.
  - rewrite <- give_app.
    replace (0 + total w2 (letters rs) + total w2 only_x) with (0 + total w2 (letters rs ++ only_x)) by (rewrite total_app; lia). rewrite <- give_app.
    replace ((letters rs ++ only_x) ++ only_y) with order2 by (unfold order2; apply app_assoc).
    rewrite give_all by assumption. apply map_ext. intro c. now rewrite Z.add_0_l.
  - transitivity (give w2 z0 rs order2 0 (map (fun _ => 0) rs)).
    + unfold order2. rewrite give_app. symmetry. apply give_other. intros c Hc. apply in_app_iff in Hc as [Hc|Hc]; [now apply Hxr|now apply Hyr].
    + rewrite give_all by assumption. apply map_ext. intro. unfold z0. lia.
  - apply map_ext_in. intros c Hc. apply filter_In in Hc as [Hc _]. unfold order2. now rewrite start_app_l.
  - unfold order2. rewrite !total_app. lia.
Qed.
End Two.
