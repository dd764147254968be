(* Proofs_Einsum9.v -- calls of two-operand einsum. *)
From Verif Require Import Base BaseFacts Model_Index Model_View Model_Tensor Model_Einsum Spec_Index Spec_View Spec_Tensor Spec_Einsum
  Proofs_Gather Proofs_Index Proofs_View Proofs_Tensor Accum Proofs_Einsum Proofs_Einsum2 Proofs_Einsum3 Proofs_Einsum4 Proofs_Einsum5 Proofs_Einsum6 Proofs_Einsum7 Proofs_Einsum8.
Local Open Scope Z_scope.

Lemma vsets_ok v n l : forall f, (forall j, In j l -> 0 <= j < n) ->
  foldM (fun j rd => vset j v rd) l (map f (zrange n)) = Ok (map (fun i => if existsb (Z.eqb i) l then v else f i) (zrange n)).
Proof.
  induction l as [|j l IH]; intros f H; [reflexivity|]. cbn [foldM]. assert (Hj : 0 <= j < n) by (apply H; now left).
  unfold vset at 1. rewrite map_length, zrange_length by lia. destruct (_ || _) eqn:E; [lia|]. cbn [bind]. rewrite set_nth_zrange by assumption. rewrite IH by (intros; apply H; now right).
  f_equal. apply map_ext. intro i. cbn [existsb]. destruct (i =? j), (existsb (Z.eqb i) l); reflexivity.
Qed.
Lemma map_zrange {A B} (g : A -> B) (l : list A) d : map g l = map (fun i => g (nth (Z.to_nat i) l d)) (zrange (Z.of_nat (length l))).
Proof.
  unfold zrange. rewrite map_map, Nat2Z.id. transitivity (map (fun k => g (nth k l d)) (seq 0 (length l))).
  - rewrite <- (map_map (fun k => nth k l d) g). f_equal. induction l as [|a l IH]; [reflexivity|]. cbn. f_equal. rewrite <- seq_shift, map_map. exact IH.
  - apply map_ext. intro k. now rewrite Nat2Z.id.
Qed.
Lemma vsets_occ v rs c g : foldM (fun j rd => vset j v rd) (occ rs c) (map g rs) = Ok (map (fun a => if aeq a c then v else g a) rs).
Proof.
  rewrite (map_zrange g rs "_"%char), vsets_ok.
  - f_equal. rewrite (map_zrange (fun a => if aeq a c then v else g a) rs "_"%char). apply map_ext_in. intros i Hi. apply in_zrange in Hi.
    assert (N : nth_error rs (Z.to_nat i) = Some (nth (Z.to_nat i) rs "_"%char)) by (apply nth_error_nth'; lia).
    destruct (existsb (Z.eqb i) (occ rs c)) eqn:E.
    + apply existsb_exists in E as (j & Hj & Ej). apply Z.eqb_eq in Ej. subst j. apply occ_in in Hj as [_ Hj]. rewrite N in Hj. injection Hj as Hj. rewrite Hj. now rewrite aeq_refl.
    + destruct (aeq (nth (Z.to_nat i) rs "_"%char) c) eqn:E2; [|reflexivity]. aeqs. exfalso. apply not_true_iff_false in E. apply E, existsb_exists. exists i. split; [|apply Z.eqb_refl]. apply occ_in. split; [lia|]. now rewrite N, E2.
  - intros j Hj. apply occ_in in Hj as [P N]. assert (Z.to_nat j < length rs)%nat by (apply nth_error_Some; congruence). lia.
Qed.
Lemma conv_dims xs ys rs (Dx Dy : ascii -> Z) x y : vdims x = map Dx xs -> vdims y = map Dy ys -> forall G, (forall c, In c G -> In c xs /\ In c ys) -> forall g,
  foldM (fun (p : tri) rd => do dx <- dim_of x (fst (fst p)); do dy <- dim_of y (snd (fst p)); foldM (fun j rd => vset j (dx - dy + 1) rd) (snd p) rd) (map (trio xs ys rs) G) (map g rs) =
  Ok (map (fun a => if isin G a then Dx a - Dy a + 1 else g a) rs).
Proof.
  intros Hx Hy. induction G as [|c G IH]; intros HG g; [reflexivity|]. destruct (HG c (or_introl eq_refl)) as [Ix Iy]. cbn [map foldM]. unfold trio at 1 2 3. cbn [fst snd].
  rewrite (dim_of_ok x xs Dx), (dim_of_ok y ys Dy) by assumption. cbn [bind]. rewrite vsets_occ. cbn [bind]. rewrite IH by (intros; apply HG; now right).
  f_equal. apply map_ext. intro a. unfold isin at 2. cbn [existsb]. fold (isin G a). destruct (aeq a c) eqn:E; cbn [orb]; [|reflexivity]. aeqs. subst. now destruct (isin G c).
Qed.
Section Call2.
Context {R : cring}.
Add Ring RrEin9 : (cth R).
Notation memR := (mem (car R)).
Notation box D L := (all_indices (map D L)).
Definition val_fwd (m : memR) (xs ys rs : list ascii) (Dx Dy : ascii -> Z) (x y : view) (e : ascii -> Z) : R :=
  let C := gk xs ys rs ++ gc xs ys rs in
  rsum (map (fun k => cmul (rsum (map (fun s => elem0 m x (fwd_x xs ys rs C e k s)) (box Dx (sx xs ys rs)))) (rsum (map (fun s => elem0 m y (fwd_y xs ys rs C e k s)) (box Dy (sy xs ys rs))))) (box Dy C)).
Lemma order2_in xs ys rs c : In c (order2 xs ys rs) <-> In c xs \/ In c ys \/ In c rs.
Proof.
  unfold order2, only_x, only_y. rewrite !in_app_iff, !filter_In, !in_letters. unfold notin. rewrite <- !isin_In.
  destruct (isin rs c), (isin xs c), (isin ys c); cbn; intuition congruence.
Qed.
Lemma ein2_call_ok xs ys rs (Dx Dy Dr : ascii -> Z) (x y : view) (b : Z) (m : memR) F :
  plain xs -> plain ys -> plain rs -> ordinary2 xs ys rs -> form2_of (str2 xs ys rs) = Ok F ->
  vdims x = map Dx xs -> vdims y = map Dy ys -> length (vstr x) = length xs -> length (vstr y) = length ys ->
  (forall c, 0 <= Dx c /\ 0 <= Dy c /\ 0 <= Dr c) -> agree2 xs ys rs Dx Dy Dr -> few2 xs ys rs ->
  (forall c, cv xs ys rs c = true -> Dy c <= Dx c /\ Dr c = Dx c - Dy c + 1) ->
  let T := gx xs ys rs ++ gc xs ys rs ++ gy xs ys rs ++ gt xs ys rs in
  fourth T (lstride x xs) (lstride (fresh_view b (map Dr rs)) rs) -> fourth T (fun c => if cv xs ys rs c then 0 else lstride y ys c) (lstride x xs) ->
  readable m x -> readable m y -> vblk x <> b -> vblk y <> b ->
  exists r m', ein2_call F x y (map Dr (gb xs ys rs)) b m = Ok (r, m') /\ returned m m' b r rs Dr (val_fwd m xs ys rs Dx Dy x y).
Proof.
  intros Px Py Pr O2 EF Hdx Hdy Hsx Hsy Pos Ag Few Hcv T F1 F2 Rx Ry Bx By. subst T.
  pose proof (form2_ok xs ys rs Px Py Pr) as EF'. pose proof EF as EF0. rewrite EF' in EF. injection EF as <-. clear EF'.
  unfold ein2_call. cbn [f2_xids f2_yids f2_rids f2_bc f2_tail f2_conv]. fold (gb xs ys rs). fold (gc xs ys rs). rewrite !map_length, Nat.eqb_refl. cbn [assrt].
  set (L := order2 xs ys rs) in *. assert (NL : NoDup L) by apply nodup_order2. set (w := w2 xs ys rs) in *. set (d := d2 xs ys rs) in *.
  assert (Hw : forall a, 0 < w a) by (intro a; subst w; unfold w2; destruct (_ && _); lia). assert (Hw0 : forall a, 0 <= w a) by (intro a; specialize (Hw a); lia).
  assert (Hd : forall c, 0 <= d c < w c) by (intro c; subst d; unfold d2; fold w; subst w; unfold w2; destruct (_ && _); lia).
  assert (Ed0 : forall c, cv xs ys rs c = false -> d c = 0). { intros c H. subst d. unfold d2, w2. change (isin rs c && kc xs ys c) with (cv xs ys rs c). now rewrite H. }
  assert (Ed1 : forall c, cv xs ys rs c = true -> d c = 1). { intros c H. subst d. unfold d2, w2. change (isin rs c && kc xs ys c) with (cv xs ys rs c). now rewrite H. }
  rewrite repeat_slots by assumption.
  replace (map (start w L) xs) with (map (fun c => start w L c + z0 c) xs) by (apply map_ext; intro; unfold z0; lia).
  rewrite set_dims_fold by (rewrite Hdx; now rewrite map_length). rewrite Hdx.
  rewrite dsteps_ok; [|exact Hw0|intro c; unfold z0; specialize (Hw c); lia|exact NL|intros c Hc; apply order2_in; auto|intros c _; destruct (Pos c); lia|intros; now left].
  cbn [bind]. rewrite set_dims_fold by (rewrite Hdy; now rewrite map_length). rewrite Hdy.
  rewrite dsteps_ok; [|exact Hw0|exact Hd|exact NL|intros c Hc; apply order2_in; auto|intros c _; destruct (Pos c) as (_ & ? & _); lia|].
  2:{ intros c Hc. destruct (isin xs c) eqn:Ix; cbn [andb]; [|now left]. destruct (cv xs ys rs c) eqn:Ec.
      - rewrite (Ed1 c Ec). unfold z0. now left.
      - right. rewrite (Ed0 c Ec). unfold z0. cbn. apply (Ag c Ec); [exact Ix|now apply isin_In]. }
  cbn [bind]. rewrite <- (map_length (start w L) (gb xs ys rs)).
  rewrite set_bc; [|exact Hw|exact NL|intros c Hc; apply order2_in; right; right; apply filter_In in Hc as [Hc _]; now apply in_letters].
  cbn [bind]. rewrite read_dims; [|exact Hw|intros; apply order2_in; auto]. cbn [bind].
  rewrite (conv_dims xs ys rs Dx Dy x y Hdx Hdy).
  2:{ intros c Hc. apply filter_In in Hc as [_ Hc]. unfold kc, both in Hc. rewrite !andb_true_iff in Hc. destruct Hc as [[H1 H2] _]. split; now apply isin_In. }
  cbn [bind].
  match goal with |- context [fresh_view b (map ?g rs)] => replace (map g rs) with (map Dr rs) end.
  2:{ apply map_ext_in. intros c Hc. apply isin_In in Hc. rewrite is_gc. destruct (cv xs ys rs c) eqn:Ec; [apply Hcv; exact Ec|]. destruct (Ag c Ec) as (_ & A2 & A3). rewrite (Ed0 c Ec). unfold z0. change (0 =? 0) with true. rewrite !andb_true_r.
      rewrite is_gb by assumption. unfold notin. rewrite Hc. destruct (isin xs c) eqn:Ix, (isin ys c) eqn:Iy; cbn [andb negb]; auto; symmetry; auto. }
  set (r := fresh_view b (map Dr rs)) in *.
  assert (Hn : nonneg (map Dr rs)) by (unfold nonneg; apply Forall_forall; intros n Hn; apply in_map_iff in Hn as (c & <- & _); apply Pos).
  destruct (fresh_wf b (map Dr rs) Hn) as [Wl _]. change (vdims (fresh_view b (map Dr rs))) with (map Dr rs) in Wl. rewrite map_length in Wl.
  destruct (alloc_readable m b (map Dr rs) Hn) as [Ra Za]. destruct (fresh_inside b (map Dr rs) Hn) as [_ Di].
  assert (Dx' : forall v, vblk v <> b -> length (vstr v) = length (vdims v) -> disjoint_views r v) by (intros; now apply fresh_disjoint).
  assert (Hcv' : forall c, cv xs ys rs c = true -> Dy c <= Dx c /\ Dr c <= Dx c - Dy c + 1) by (intros c Hc; destruct (Hcv c Hc); lia).
  destruct (ein2_add_ok (R := R) xs ys rs Dx Dy Dr x y r _ Px Py Pr O2 EF0 Hdx Hdy eq_refl Hsx Hsy Wl Ag Few Hcv' (alloc c0 b (asize (map Dr rs)) m)) as (m' & E & (A1 & A2 & A3)); try assumption; try reflexivity.
  { intros ix Hix. rewrite alloc_other by assumption. now apply Rx. }
  { intros ix Hix. rewrite alloc_other by assumption. now apply Ry. }
  { apply Dx'; [assumption|now rewrite Hdx, map_length]. }
  { apply Dx'; [assumption|now rewrite Hdy, map_length]. }
  match goal with |- context [bind (ein2_add ?f ?p ?q ?s ?o) _] => replace (ein2_add f p q s o) with (@Ok memR m') by (symmetry; exact E) end. cbn [bind]. exists r, m'. split; [reflexivity|]. split; [reflexivity|]. split; [|split].
  - intros e He. rewrite A1 by exact He. unfold elem0 at 1. unfold r. rewrite Za by now apply fits_range. f_equal. unfold val_fwd. 
    match goal with |- cadd c0 ?a = ?b => replace a with b; [ring|] end. apply rsum_ext. intros k _. f_equal; apply rsum_ext; intros s _; unfold elem0; now rewrite alloc_other.
  - intros ix Hi Nc. rewrite A2 by assumption. now apply Za.
  - intros b' a Hne. rewrite A3.
    + unfold alloc. destruct (b' =? b) eqn:Eb; [lia|reflexivity].
    + intros ix Hix K. unfold vaddr in K. destruct (offs _ _); cbn in K; try discriminate. injection K as K _. congruence.
Qed.
End Call2.
