(* Proofs_EinsumFn4.v -- evaluating a complex Einstein sum of two views. *)
From Verif Require Import Base BaseFacts Model_Index Model_View Model_Tensor Model_Einsum Model_RView Model_CView Model_EinsumFn Spec_Index Spec_View Spec_Tensor Spec_Einsum
  Proofs_Index Proofs_View Proofs_Tensor Accum Proofs_Einsum Proofs_Einsum2 Proofs_Einsum3 Proofs_Einsum4 Proofs_Einsum5 Spec_Einsum2 Spec_CView Spec_EinsumFn Proofs_EinsumFn Proofs_EinsumFn2 Proofs_EinsumFn3.
Local Open Scope Z_scope.

Definition str : ascii := "*"%char.
Lemma worded_str s : worded s -> ~ In str s. Proof. intros W. eapply worded_no; eauto; unfold str; auto. Qed.
Lemma dot_snoc s : forall ix a k, length s = length ix -> dot (s ++ [a]) (ix ++ [k]) = dot s ix + a * k.
Proof. induction s as [|b s IH]; intros [|i ix] a k H; try discriminate H; cbn [app dot]; [lia|]. injection H as H. rewrite IH by exact H. lia. Qed.
Lemma in_range_snoc ix d k n : in_range (ix ++ [k]) (d ++ [n]) <-> in_range ix d /\ 0 <= k < n.
Proof.
  unfold in_range. split.
  - intro H. apply Forall2_app_inv_l in H as (a & b & H1 & H2 & E). inversion H2 as [|? ? ? ? Hk Hb]; subst. inversion Hb; subst. apply app_inj_tail in E as [-> ->]. auto.
  - intros [H1 H2]. apply Forall2_app; auto.
Qed.
Lemma all_snoc2 ds : all_indices (ds ++ [2]) = flat_map (fun b => [b ++ [0]; b ++ [1]]) (all_indices ds).
Proof.
  induction ds as [|d ds IH]; [reflexivity|]. cbn [app all_indices]. induction (zrange d) as [|i l I]; [reflexivity|]. cbn [flat_map]. rewrite flat_map_app, I. f_equal. rewrite IH.
  clear. induction (all_indices ds) as [|b l I]; [reflexivity|]. cbn [flat_map map app]. now rewrite I.
Qed.
Lemma range_last ix d n : in_range ix (d ++ [n]) -> exists jx k, ix = jx ++ [k] /\ in_range jx d /\ 0 <= k < n.
Proof.
  intro H. destruct (exists_last (l := ix)) as (jx & k & ->); [intros ->; apply in_range_length in H; rewrite app_length in H; cbn in H; lia|]. apply in_range_snoc in H as [A B]. eauto.
Qed.
(* the view of the real parts (k = 0) or of the imaginary parts (k = 1) *)
Definition part (v : view) (s : list Z) (d : list Z) (k : Z) : view := View (vblk v) (voff v + coffs v * k) d s.
Record csplit (v : view) (s : list ascii) (D : ascii -> Z) (sv : list Z) : Prop := { cs_len : length sv = length s; cs_str : vstr v = sv ++ [coffs v]; cs_dim : vdims v = map D s ++ [2] }.
Lemma csplit_ok v s D : clettered v s D -> exists sv, csplit v s D sv.
Proof.
  intros [Hd Hl]. destruct (exists_last (l := vstr v)) as (sv & co & E); [intros E; rewrite E in Hl; discriminate|]. exists sv. split; [rewrite E, app_length in Hl; cbn in Hl; lia| |exact Hd].
  unfold coffs. now rewrite E, last_last.
Qed.
Lemma part_lettered v s D sv k : csplit v s D sv -> lettered (part v sv (map D s) k) s D.
Proof. intros [A B C]. split; [reflexivity|exact A]. Qed.
Lemma part_lstride v s D sv k c : csplit v s D sv -> lstride (part v sv (map D s) k) s c = lstride v s c.
Proof.
  intros [A B C]. unfold lstride. cbn [part vstr]. rewrite B. f_equal. apply map_ext_in. intros i Hi. apply occ_in in Hi as [P N]. assert (Z.to_nat i < length s)%nat by (apply nth_error_Some; congruence). symmetry. apply app_nth1. lia.
Qed.
Lemma part_cs v s D sv k L : csplit v s D sv -> cs (part v sv (map D s) k) s L = cs v s L.
Proof. intro H. unfold cs. apply map_ext. intro c. now apply (part_lstride v s D sv). Qed.
Lemma part_cell v s D sv k ix : csplit v s D sv -> length ix = length s -> cell (part v sv (map D s) k) ix = cell v (ix ++ [k]).
Proof. intros [A B C] H. unfold cell. cbn [part vblk voff vstr]. f_equal. rewrite B, dot_snoc by congruence. lia. Qed.
Lemma csplit_len v s D sv : csplit v s D sv -> length (vstr v) = length (vdims v).
Proof. intros [A B C]. rewrite B, C, !app_length, map_length. cbn. lia. Qed.
Lemma csplit_axes v s D sv : csplit v s D sv -> axes v s D.
Proof.
  intros [A B C] p c H. assert (Hp : (p < length s)%nat) by (apply nth_error_Some; congruence). rewrite B, C, app_length. split; [|cbn; lia].
  rewrite nth_error_app1 by now rewrite map_length. now apply map_nth_error.
Qed.
(* the letters of a complex view, the last axis having the letter star *)
Definition D2 (D : ascii -> Z) (c : ascii) : Z := if Ascii.eqb c str then 2 else D c.
Lemma D2_map D s : ~ In str s -> map (D2 D) s = map D s.
Proof. intro H. apply map_ext_in. intros c Hc. unfold D2. destruct (Ascii.eqb c str) eqn:E; [aeqs; subst; contradiction|reflexivity]. Qed.
Lemma occ_snoc s c : c <> str -> occ (s ++ [str]) c = occ s c.
Proof. intro N. rewrite <- !occs_occ, occs_app. cbn [occs]. destruct (Ascii.eqb str c) eqn:E; [apply Ascii.eqb_eq in E; congruence|]. apply app_nil_r. Qed.
Lemma occ_str s : ~ In str s -> occ (s ++ [str]) str = [Z.of_nat (length s)].
Proof.
  intro N. rewrite <- occs_occ, occs_app. rewrite occs_absent by (apply not_true_is_false; intro K; apply N; now apply isin_In). cbn [occs app]. rewrite aeq_refl. now rewrite Z.add_0_l.
Qed.
Lemma cs_snoc v s L : ~ In str L -> cs v (s ++ [str]) L = cs v s L.
Proof. intro N. unfold cs. apply map_ext_in. intros c Hc. unfold lstride. rewrite occ_snoc; [reflexivity|]. intros ->. contradiction. Qed.
Lemma lstride_str v s D sv : csplit v s D sv -> ~ In str s -> lstride v (s ++ [str]) str = coffs v.
Proof.
  intros [A B C] N. unfold lstride. rewrite occ_str by assumption. cbn [map fold_right]. rewrite Nat2Z.id, B, <- A, app_nth2, Nat.sub_diag by lia. cbn [nth]. lia.
Qed.
Definition coherent_dec s ix : {coherent s ix} + {~ coherent s ix}.
Proof.
  destruct (list_eq_dec Z.eq_dec (map (over e00 s ix) s) ix) as [E|E]; [left; now exists (over e00 s ix)|right].
  intros (e & ->). apply E. apply map_ext_in. intros c Hc. now apply over_self.
Defined.

Section Complex.
Context {R : cring}.
Add Ring RrEinFn4 : (cth R).
Notation memR := (mem (car R)).
Notation C := (CxRing R).
Lemma part_elem v s D sv k ix (m : memR) : csplit v s D sv -> in_range ix (map D s) -> 0 <= k < 2 -> elem0 m (part v sv (map D s) k) ix = elem0 m v (ix ++ [k]).
Proof.
  intros H Hi Hk. pose proof (in_range_length _ _ Hi) as L. rewrite map_length in L. unfold elem0. rewrite !elem_cell.
  - now rewrite (part_cell v s D sv).
  - now apply (csplit_len v s D sv).
  - rewrite (cs_dim _ _ _ _ H). now apply in_range_snoc.
  - cbn. rewrite map_length. apply (cs_len _ _ _ _ H).
  - exact Hi.
Qed.
Lemma part_readable v s D sv k (m : memR) : csplit v s D sv -> 0 <= k < 2 -> readable m v -> readable m (part v sv (map D s) k).
Proof.
  intros H Hk Rv ix Hi. cbn in Hi. pose proof (in_range_length _ _ Hi) as L. rewrite map_length in L.
  assert (I : in_range (ix ++ [k]) (vdims v)) by (rewrite (cs_dim _ _ _ _ H); now apply in_range_snoc). specialize (Rv _ I). rewrite elem_cell in Rv by (try assumption; now apply (csplit_len v s D sv)).
  rewrite elem_cell; [now rewrite (part_cell v s D sv)| |exact Hi]. cbn. rewrite map_length. apply (cs_len _ _ _ _ H).
Qed.
Lemma cload_ok b (r x : view) xs T S D (m m' : memR) t k : clettered x xs D -> length (vstr r) = length (vdims r) -> NoDup (T ++ S) -> (forall c, In c xs -> In c (T ++ S)) ->
  in_range t (map D T) -> in_range k (map D S) -> readable m x -> disjoint_views r x -> agree_off (rcells r) m m' ->
  cload b x (dot (cs x xs T) t + dot (cs x xs S) k) m' = Ok (cj b (celem m x (map (joint T S t k) xs))).
Proof.
  intros Hx Lr N Hin Ht Hk Rx Dis Ag. destruct (csplit_ok x xs D Hx) as (sx & Cx). set (o := dot (cs x xs T) t + dot (cs x xs S) k).
  assert (K : forall q, 0 <= q < 2 -> loadA m' (vblk x, voff x + coffs x * q + o) = Ok (elem0 m x (map (joint T S t k) xs ++ [q]))).
  { intros q Hq. rewrite <- (part_elem x xs D sx q _ m Cx) by (try assumption; apply fits_range; now apply joint_fits).
    rewrite <- (read_letters r (part x sx (map D xs) q) xs T S D m m' t k); try assumption.
    - rewrite !(part_cs x xs D sx q) by assumption. reflexivity.
    - now apply part_lettered.
    - now apply (part_readable x xs D sx).
    - intros jx Hj. cbn in Hj. pose proof (in_range_length _ _ Hj) as Lj. rewrite map_length in Lj. rewrite (part_cell x xs D sx) by assumption.
      apply (disjoint_off r x m m'); try assumption; [now apply (csplit_len x xs D sx)|]. rewrite (cs_dim _ _ _ _ Cx). now apply in_range_snoc. }
  unfold cload. replace (voff x + o) with (voff x + coffs x * 0 + o) by lia. rewrite K by lia. cbn [bind]. replace (voff x + coffs x * 0 + o + coffs x) with (voff x + coffs x * 1 + o) by lia. rewrite K by lia. reflexivity.
Qed.
Definition comp (v : C) (b : list Z) : R := if last b 0 =? 0 then fst v else snd v.
Lemma cfn_b_ok F r rs D L ro (v : C) (m : memR) sr : csplit r rs D sr -> ~ In str rs -> e_b F = map (occ rs) L -> (length L <= 3)%nat -> (forall c, In c L -> In c rs) ->
  cfn_b F r ro v m = foldM (fun b m => incA (vblk r, voff r + (ro + dot (cs r (rs ++ [str]) (L ++ [str])) b)) (comp v b) m) (all_indices (map (D2 D) (L ++ [str]))) m.
Proof.
  intros Cr Ns E Hl HL. assert (NL : ~ In str L) by (intro K; now apply Ns, HL).
  unfold cfn_b. rewrite E, map_length. destruct (3 <? length L)%nat eqn:E3; [apply Nat.ltb_lt in E3; lia|]. rewrite (p_sum_axes r rs D) by (try assumption; now apply (csplit_axes r rs D sr)). cbn [bind]. rewrite !map_map. cbn [fst snd]. rewrite nest_all.
  rewrite map_app, (D2_map D L NL). cbn [map]. replace (D2 D str) with 2 by reflexivity. rewrite all_snoc2, foldM_flat_map. apply foldM_ext. intros b m1 Hb. apply in_all_indices, in_range_length in Hb. rewrite map_length in Hb.
  assert (Dt : forall k, dot (cs r (rs ++ [str]) (L ++ [str])) (b ++ [k]) = dot (cs r rs L) b + coffs r * k).
  { intro k. unfold cs. rewrite map_app. cbn [map]. rewrite (lstride_str r rs D sr Cr Ns). fold (cs r (rs ++ [str]) L). rewrite (cs_snoc r rs L NL). apply dot_snoc. unfold cs. now rewrite map_length. }
  cbn [foldM]. rewrite !Dt. unfold comp. rewrite !last_last. cbn [Z.eqb]. fold (cs r rs L). unfold incA.
  replace (voff r + (ro + (dot (cs r rs L) b + coffs r * 0))) with (voff r + (ro + dot (cs r rs L) b)) by lia. replace (voff r + (ro + (dot (cs r rs L) b + coffs r * 1))) with (voff r + (ro + dot (cs r rs L) b) + coffs r) by lia.
  destruct (rmw _ _ _ _) as [m2| |]; [|reflexivity..]. cbn [bind]. now destruct (rmw _ _ _ _).
Qed.
Lemma cfn_call_ok cx cy cr xs ys rs D (r x y : view) (m : memR) :
  worded xs -> worded ys -> worded rs -> marked cx xs <> [] -> marked cy ys <> [] -> marked cr rs <> [] ->
  clettered r rs D -> clettered x xs D -> clettered y ys D -> y_covered xs ys rs ->
  (length (carried xs ys rs) <= 4)%nat -> (length (contracted xs ys rs) <= 3)%nat -> (length (spread xs ys rs) <= 3)%nat ->
  (length (contracted xs ys rs) = 3%nat -> xorb cr cx = false) ->
  readable m r -> distinct_cells r -> readable m x -> readable m y -> disjoint_views r x -> disjoint_views r y ->
  exists F m', cfn_of (strc cx cy cr xs ys rs) = Ok F /\ cfn_call F r x y m = Ok m' /\ cadds m m' r rs D (cesum (xorb cr cx) (xorb cr cy) m x y xs ys rs D).
Proof.
  intros Wx Wy Wr Mx My Mr Lr Lx Ly Yc L1 L2 L3 H3 Rr Dr Rx Ry Dx Dy. destruct (classes xs ys rs) as (C1 & C2 & C3 & C4 & C5 & C6 & C7). specialize (C5 Yc).
  rewrite (contracted_xsum xs ys rs Yc) in L2, H3. set (T := carried xs ys rs) in *. set (B := spread xs ys rs) in *. set (S := xsum xs rs) in *.
  assert (Sub : forall c, In c T -> In c rs) by (intros c Hc; apply C2, in_app_iff; now left). assert (SubB : forall c, In c B -> In c rs) by (intros c Hc; apply C2, in_app_iff; now right).
  destruct (csplit_ok r rs D Lr) as (sr & Cr). destruct (csplit_ok x xs D Lx) as (sx & Cx). destruct (csplit_ok y ys D Ly) as (sy & Cy).
  pose proof (csplit_axes _ _ _ _ Cr) as Ar. pose proof (csplit_axes _ _ _ _ Cx) as Ax. pose proof (csplit_axes _ _ _ _ Cy) as Ay.
  pose proof (csplit_len _ _ _ _ Cr) as LLr. pose proof (worded_str rs Wr) as Ns.
  assert (NT : ~ In str T) by (intro K; now apply Ns, Sub). assert (NB : ~ In str B) by (intro K; now apply Ns, SubB).
  set (xc := xorb cr cx) in *. set (yc := xorb cr cy) in *.
  set (act := fun (t : list Z) (m : memR) =>
    do v <- foldM (fun k (a : C) => do u <- cload xc x (dot (cs x xs T) t + dot (cs x xs S) k) m; do v <- cload yc y (dot (cs y ys T) t + dot (cs y ys S) k) m; Ok (cadd a (cmul u v))) (all_indices (map D S)) c0;
    Ok (comp v)).
  set (G := fun (t : list Z) => rsum (map (fun k => cmul (cj xc (celem m x (map (joint T S t k) xs))) (cj yc (celem m y (map (joint T S t k) ys))) : C) (all_indices (map D S))) : C).
  assert (Cl : vdims r = map (D2 D) (rs ++ [str])) by (rewrite map_app, (D2_map D rs Ns); exact (cs_dim _ _ _ _ Cr)).
  assert (Cs : length (vstr r) = length (rs ++ [str])) by (rewrite app_length; cbn; destruct Lr as [_ H]; lia).
  assert (P1 : NoDup (T ++ B ++ [str])).
  { rewrite app_assoc. apply nodup_app; [exact C1|repeat constructor; intros []|]. intros c Hc [<-|[]]. apply C2 in Hc. contradiction. }
  assert (P2 : forall c, In c (T ++ B ++ [str]) <-> In c (rs ++ [str])) by (intro c; rewrite app_assoc, !(in_app_iff _ [str]), C2; tauto).
  destruct (ein_coreV r (rs ++ [str]) T (B ++ [str]) (D2 D) act (fun t => comp (G t)) m Cl Cs P1 P2 Rr Dr) as (m' & E & A1 & A2 & A3).
  { intros t m' Ht Ag. rewrite (D2_map D T NT) in Ht. unfold act.
    rewrite (dot_sum C (fun k => cload xc x (dot (cs x xs T) t + dot (cs x xs S) k) m') (fun k => cload yc y (dot (cs y ys T) t + dot (cs y ys S) k) m')
      (fun k => cmul (cj xc (celem m x (map (joint T S t k) xs))) (cj yc (celem m y (map (joint T S t k) ys))))); [reflexivity|].
    intros k Hk. apply in_all_indices in Hk. do 2 eexists. split; [|split; [|reflexivity]]; now apply (cload_ok _ r _ _ T S D m m' t k). }
  exists (efn_std xs ys rs, Some (xc, yc)), m'. split; [now apply cfn_of_ok|]. split.
  - rewrite <- E. unfold cfn_call, efn_std. cbn [e_d fst snd]. rewrite map_length. fold T. destruct (4 <? length T)%nat eqn:E3; [apply Nat.ltb_lt in E3; lia|].
    rewrite (d_par_ok r x y rs xs ys D D D) by assumption. cbn [bind]. rewrite !map_map. cbn [d_I d_r d_x d_y fst snd]. rewrite nest_all. unfold einloopV. rewrite (D2_map D T NT). apply foldM_ext. intros t m1 _.
    unfold cfn_s. cbn [e_s]. rewrite map_length. fold S. destruct (3 <? length S)%nat eqn:E4; [apply Nat.ltb_lt in E4; lia|].
    rewrite (s_par_ok x y xs ys D D) by (try assumption; intros c Hc; now apply C7). cbn [bind]. rewrite !map_map. cbn [s_I s_x s_y fst snd]. rewrite nest_all. unfold act. fold (cs x xs S) (cs y ys S) (cs x xs T) (cs y ys T) (cs r rs T).
    assert (Ey : forall d s b, ysign (EFn d (map s S) b) xc yc = yc).
    { intros d s0 b. unfold ysign. cbn [e_s]. rewrite map_length. destruct (length S =? 3)%nat eqn:E5; [|reflexivity]. apply Nat.eqb_eq in E5. now rewrite (H3 E5). }
    rewrite Ey. destruct (foldM _ _ _) as [v| |]; [|reflexivity..]. cbn [bind]. rewrite (cfn_b_ok _ r rs D B _ v m1 sr) by (try assumption; reflexivity). rewrite (cs_snoc r rs T NT). reflexivity.
  - assert (Ev : forall e k, fits D e rs -> 0 <= k < 2 -> elem m' r (map e rs ++ [k]) = Some (cadd (elem0 m r (map e rs ++ [k])) (comp (G (map e T)) [k]))).
    { intros e k He Hk. set (e' := fun c => if Ascii.eqb c str then k else e c).
      assert (Me : forall s, ~ In str s -> map e' s = map e s) by (intros s Hs; apply map_ext_in; intros c Hc; unfold e'; destruct (Ascii.eqb c str) eqn:Ec; [aeqs; subst; contradiction|reflexivity]).
      assert (F' : fits (D2 D) e' (rs ++ [str])).
      { intros c Hc. unfold D2, e'. destruct (Ascii.eqb c str) eqn:Ec; [lia|]. apply He. apply in_app_iff in Hc as [Hc|[<-|[]]]; [exact Hc|now rewrite aeq_refl in Ec]. }
      specialize (A1 e' F'). rewrite !map_app, (Me rs Ns), (Me T NT), (Me B NB) in A1. cbn [map] in A1. replace (e' str) with k in A1 by reflexivity. rewrite A1. f_equal. f_equal. unfold comp. now rewrite !last_last. }
    assert (GT : forall e, G (map e T) = cesum xc yc m x y xs ys rs D e).
    { intro e. unfold G, cesum. rewrite (contracted_xsum xs ys rs Yc). fold S. apply rsum_ext. intros k Hk. apply in_all_indices, in_range_length in Hk. rewrite map_length in Hk. now rewrite !joint_self by assumption. }
    assert (Nco : forall ix k, ~ coherent rs ix -> ~ coherent (rs ++ [str]) (ix ++ [k])) by (intros ix k H (e & Ee); apply H; exists e; rewrite map_app in Ee; now apply app_inj_tail in Ee).
    assert (Un : forall ix k, in_range ix (map D rs) -> 0 <= k < 2 -> ~ coherent rs ix -> elem m' r (ix ++ [k]) = elem m r (ix ++ [k])).
    { intros ix k Hi Hk Nc. apply A2; [|now apply Nco]. rewrite (cs_dim _ _ _ _ Cr). now apply in_range_snoc. }
    split; [|split; [|split]].
    + intros ix Hi. pose proof Hi as Hi0. rewrite (cs_dim _ _ _ _ Cr) in Hi. apply range_last in Hi as (jx & k & -> & Hj & Hk). destruct (coherent_dec rs jx) as [(e & ->)|Nc].
      * rewrite Ev; [discriminate|now apply range_fits|exact Hk].
      * rewrite Un by assumption. now apply Rr.
    + intros e He. unfold celem. assert (F0 : forall k, 0 <= k < 2 -> elem0 m' r (map e rs ++ [k]) = cadd (elem0 m r (map e rs ++ [k])) (comp (cesum xc yc m x y xs ys rs D e) [k])).
      { intros k Hk. unfold elem0 at 1. rewrite (Ev e k He Hk), GT. reflexivity. }
      rewrite !F0 by lia. reflexivity.
    + intros ix Hi Nc. unfold celem, elem0. rewrite !Un by (assumption || lia). reflexivity.
    + exact A3.
Qed.
End Complex.
