(* Proofs_EinsumFn3.v -- evaluating a real Einstein sum of two views. *)
From Verif Require Import Base BaseFacts Model_Index Model_View Model_Tensor Model_Einsum Model_EinsumFn Spec_Index Spec_View Spec_Tensor Spec_Einsum
  Proofs_Index Proofs_View Proofs_Tensor Accum Proofs_Einsum Proofs_Einsum2 Proofs_Einsum3 Proofs_Einsum4 Proofs_Einsum5 Spec_Einsum2 Spec_CView Spec_EinsumFn Proofs_EinsumFn Proofs_EinsumFn2.
Local Open Scope Z_scope.

(* sides and strides of the axes of a letter; ws may be longer than the lettering *)
Definition axes (v : view) (s : list ascii) (D : ascii -> Z) : Prop := forall p c, nth_error s p = Some c -> nth_error (vdims v) p = Some (D c) /\ (p < length (vstr v))%nat.
Lemma lettered_axes v s D : lettered v s D -> axes v s D.
Proof. intros [H1 H2] p c H. rewrite H1. split; [now apply map_nth_error|]. rewrite H2. apply nth_error_Some. congruence. Qed.
Lemma dim_axes v s D c : axes v s D -> In c s -> dim_of v (occ s c) = Ok (D c).
Proof.
  intros A I. destruct (occ_head s c I) as (p & l & E & P & N). destruct (A _ _ N) as [H _]. unfold dim_of. rewrite E. unfold zget at 1, vget. cbn [Z.ltb]. change (0 <? 0) with false. cbn [Z.to_nat nth_error bind].
  unfold zget, vget. destruct (p <? 0) eqn:Ep; [lia|]. now rewrite H.
Qed.
Lemma cmb_axes v s D c : axes v s D -> cmb (vstr v) (occ s c) = Ok (lstride v s c).
Proof.
  intro A. unfold cmb, lstride. assert (H : forall p, In p (occ s c) -> 0 <= p < Z.of_nat (length (vstr v))).
  { intros p Hp. apply occ_in in Hp as [P N]. apply A in N as [_ N]. lia. }
  assert (K : forall t, foldM (fun p t => do a <- zget (vstr v) p; Ok (t + a)) (occ s c) t = Ok (t + fold_right Z.add 0 (map (fun i => nth (Z.to_nat i) (vstr v) 0) (occ s c)))).
  { induction (occ s c) as [|p l IH]; intro t; [cbn; f_equal; lia|]. cbn [foldM map fold_right]. specialize (H p (or_introl eq_refl)) as Hp. unfold zget at 1, vget. destruct (p <? 0) eqn:Ep; [lia|].
    destruct (nth_error (vstr v) (Z.to_nat p)) as [a|] eqn:En; [|apply nth_error_None in En; lia]. cbn [bind]. rewrite IH by (intros; apply H; now right). rewrite (nth_error_nth _ _ 0 En). f_equal. lia. }
  apply K.
Qed.
Lemma d_par_ok r x y rs xs ys D Dx Dy L : axes r rs D -> axes x xs Dx -> axes y ys Dy -> (forall c, In c L -> In c rs) ->
  d_par (map (fun c => (occ rs c, occ xs c, occ ys c)) L) r x y = Ok (map (fun c => (D c, lstride r rs c, lstride x xs c, lstride y ys c)) L).
Proof.
  intros Ar Ax Ay HL. unfold d_par. rewrite mapM_map. apply mapM_all. intros c Hc. cbn [fst snd]. rewrite (dim_axes r rs D) by auto. cbn [bind].
  rewrite (cmb_axes r rs D), (cmb_axes x xs Dx), (cmb_axes y ys Dy) by assumption. reflexivity.
Qed.
Lemma s_par_ok x y xs ys D Dy L : axes x xs D -> axes y ys Dy -> (forall c, In c L -> In c xs) ->
  s_par (map (fun c => (occ xs c, occ ys c)) L) x x y = Ok (map (fun c => (D c, lstride x xs c, lstride y ys c)) L).
Proof.
  intros Ax Ay HL. unfold s_par. rewrite mapM_map. apply mapM_all. intros c Hc. cbn [fst snd]. rewrite (dim_axes x xs D) by auto. cbn [bind].
  rewrite (cmb_axes x xs D), (cmb_axes y ys Dy) by assumption. reflexivity.
Qed.
Lemma cmb_alike r v s c : alike r v s c -> cmb (vstr r) (occ s c) = cmb (vstr v) (occ s c).
Proof.
  intro A. unfold cmb. apply foldM_ext. intros p t Hp. apply occ_in in Hp as [P N]. unfold zget, vget. destruct (p <? 0); [reflexivity|]. destruct (A _ N) as [_ ->]. reflexivity.
Qed.
Lemma dim_alike r v s c : alike r v s c -> In c s -> dim_of r (occ s c) = dim_of v (occ s c).
Proof.
  intros A I. destruct (occ_head s c I) as (p & l & E & P & N). unfold dim_of. rewrite E. unfold zget at 1 3, vget. cbn [Z.ltb]. change (0 <? 0) with false. cbn [Z.to_nat nth_error bind].
  unfold zget, vget. destruct (p <? 0) eqn:Ep; [lia|]. now destruct (A _ N) as [-> _].
Qed.
Lemma s_par_alike r x y xs ys D Dy L : axes x xs D -> axes y ys Dy -> (forall c, In c L -> In c xs) -> (forall c, In c L -> alike r x xs c /\ alike r y ys c) ->
  s_par (map (fun c => (occ xs c, occ ys c)) L) r r r = Ok (map (fun c => (D c, lstride x xs c, lstride y ys c)) L).
Proof.
  intros Ax Ay HL HA. rewrite <- (s_par_ok x y xs ys D Dy L Ax Ay HL). unfold s_par. rewrite !mapM_map.
  assert (K : forall l (f g : ascii -> res (Z * Z * Z)), (forall c, In c l -> f c = g c) -> mapM f l = mapM g l).
  { intros l f g. induction l as [|a l IH]; intro H; [reflexivity|]. cbn [mapM]. rewrite (H a) by now left. now rewrite IH by (intros; apply H; now right). }
  apply K. intros c Hc. cbn [fst snd]. destruct (HA c Hc) as [A1 A2]. now rewrite (dim_alike r x xs c A1 (HL c Hc)), (cmb_alike r x xs c A1), (cmb_alike r y ys c A2).
Qed.
Lemma p_sum_axes v s D L : axes v s D -> (forall c, In c L -> In c s) -> p_sum (map (occ s) L) v = Ok (map (fun c => (D c, lstride v s c)) L).
Proof.
  intros A HL. unfold p_sum. rewrite mapM_map. apply mapM_all. intros c Hc. rewrite (dim_axes v s D) by auto. cbn [bind]. rewrite (cmb_axes v s D) by assumption. reflexivity.
Qed.
Lemma over_in e f L : NoDup L -> forall k c, length k = length L -> In c L -> over e L k c = over f L k c.
Proof.
  induction L as [|a L IH]; intros N k c Hk Hc; [destruct Hc|]. destruct k as [|v k]; [discriminate Hk|]. cbn. destruct (aeq c a) eqn:E; [reflexivity|].
  inversion N; subst. apply IH; [assumption|now injection Hk|]. destruct Hc as [->|Hc]; [now rewrite aeq_refl in E|exact Hc].
Qed.
Definition e00 : ascii -> Z := fun _ => 0.
(* the letter values given by t for T and k for S *)
Definition joint (T S : list ascii) (t k : list Z) : ascii -> Z := over (over e00 T t) S k.
Lemma joint_self T S e k s : NoDup (T ++ S) -> length k = length S -> (forall c, In c s -> In c (T ++ S)) -> map (joint T S (map e T) k) s = map (over e S k) s.
Proof.
  intros N Lk Hs. apply map_ext_in. intros c Hc. unfold joint. destruct (isin S c) eqn:E.
  - apply isin_In in E. apply over_in; [now apply nodup_r in N|exact Lk|exact E].
  - assert (~ In c S) by (intro K; apply isin_In in K; congruence). rewrite (over_out _ S) by assumption. rewrite (over_out e S) by assumption. apply over_self. apply Hs, in_app_iff in Hc as [Hc|Hc]; [exact Hc|contradiction].
Qed.
Lemma joint_fits D T S t k s : NoDup (T ++ S) -> in_range t (map D T) -> in_range k (map D S) -> (forall c, In c s -> In c (T ++ S)) -> fits D (joint T S t k) s.
Proof.
  intros N Ht Hk Hs c Hc. unfold joint. apply Hs, in_app_iff in Hc as [Hc|Hc].
  - rewrite over_out by (intro K; now apply (nodup_lr T S c)). now apply (over_fits D e00 T t (nodup_l _ _ N) Ht).
  - now apply (over_fits D _ S k (nodup_r _ _ N) Hk).
Qed.
Section Real.
Context {R : cring}.
Add Ring RrEinFn3 : (cth R).
Notation memR := (mem (car R)).
Lemma read_letters (r x : view) xs T S D (m m' : memR) t k : lettered x xs D -> NoDup (T ++ S) -> (forall c, In c xs -> In c (T ++ S)) ->
  in_range t (map D T) -> in_range k (map D S) -> readable m x -> (forall jx, in_range jx (vdims x) -> at_ m' (cell x jx) = at_ m (cell x jx)) ->
  loadA m' (vblk x, voff x + (dot (cs x xs T) t + dot (cs x xs S) k)) = Ok (elem0 m x (map (joint T S t k) xs)).
Proof.
  intros [Hd Hs] N Hx Ht Hk Rx Off. pose proof (in_range_length _ _ Ht) as Lt. pose proof (in_range_length _ _ Hk) as Lk. rewrite map_length in Lt, Lk.
  assert (Lx : length (vstr x) = length (vdims x)) by (rewrite Hd, map_length; exact Hs).
  assert (Hin : in_range (map (joint T S t k) xs) (vdims x)) by (rewrite Hd; apply fits_range; now apply joint_fits).
  apply loadA_some. rewrite <- (read_some m x) by assumption. rewrite <- (Off _ Hin). f_equal. unfold cell. f_equal. f_equal.
  rewrite (dot_cs x xs (T ++ S)) by assumption. unfold cs. rewrite dot_app_map. f_equal.
  - f_equal. transitivity (map (over e00 T t) T); [symmetry; apply over_map; [now apply nodup_l in N|exact Lt]|]. apply map_ext_in. intros c Hc. symmetry. unfold joint. apply over_out. intro K. now apply (nodup_lr T S c).
  - f_equal. symmetry. unfold joint. apply over_map; [now apply nodup_r in N|exact Lk].
Qed.
Lemma dot_sum (S : cring) (f : list Z -> res S) (g : list Z -> res S) (val : list Z -> S) l :
  (forall k, In k l -> exists u v, f k = Ok u /\ g k = Ok v /\ val k = cmul u v) ->
  foldM (fun k t => do u <- f k; do v <- g k; Ok (cadd t (cmul u v))) l c0 = Ok (rsum (map val l)).
Proof.
  intro H. assert (K : forall t : S, foldM (fun k t => do u <- f k; do v <- g k; Ok (cadd t (cmul u v))) l t = Ok (cadd t (rsum (map val l)))).
  { clear - H. pose (T := cth S). induction l as [|a l IH]; intro t.
    - cbn [foldM map]. rewrite rsum_nil. f_equal. rewrite (Ring_theory.Radd_comm T). symmetry. apply (Ring_theory.Radd_0_l T).
    - cbn [foldM map]. destruct (H a (or_introl eq_refl)) as (u & v & -> & -> & E). cbn [bind]. rewrite IH by (intros; apply H; now right). rewrite rsum_cons, E. f_equal. symmetry. apply (Ring_theory.Radd_assoc T). }
  rewrite K. f_equal. apply (Ring_theory.Radd_0_l (cth S)).
Qed.
Lemma rfn_b_ok F r rs D L ro t (m : memR) : e_b F = map (occ rs) L -> (length L <= 3)%nat -> axes r rs D -> (forall c, In c L -> In c rs) ->
  rfn_b F r ro t m = foldM (fun b m => incA (vblk r, voff r + (ro + dot (cs r rs L) b)) t m) (all_indices (map D L)) m.
Proof.
  intros E Hl A HL. unfold rfn_b. rewrite E, map_length. destruct (3 <? length L)%nat eqn:E3; [apply Nat.ltb_lt in E3; lia|]. rewrite (p_sum_axes r rs D) by assumption. cbn [bind]. rewrite !map_map. cbn [fst snd]. rewrite nest_all. reflexivity.
Qed.
Lemma rfn_call_ok xs ys rs D (r x y : view) (m : memR) :
  worded xs -> worded ys -> worded rs -> lettered r rs D -> lettered x xs D -> lettered y ys D -> y_covered xs ys rs ->
  (length (carried xs ys rs) <= 3)%nat -> (length (contracted xs ys rs) <= 3)%nat -> (length (spread xs ys rs) <= 3)%nat ->
  (forall c, In c (contracted xs ys rs) -> alike r x xs c /\ alike r y ys c) ->
  readable m r -> distinct_cells r -> readable m x -> readable m y -> disjoint_views r x -> disjoint_views r y ->
  exists F m', rfn_of (str2 xs ys rs) = Ok F /\ rfn_call F r x y m = Ok m' /\ Spec_Einsum2.adds m m' r rs D (esum m x y xs ys rs D).
Proof.
  intros Wx Wy Wr Lr Lx Ly Yc L1 L2 L3 Al Rr Dr Rx Ry Dx Dy. destruct (classes xs ys rs) as (C1 & C2 & C3 & C4 & C5 & C6 & C7). specialize (C5 Yc).
  rewrite (contracted_xsum xs ys rs Yc) in L2, Al. set (T := carried xs ys rs) in *. set (B := spread xs ys rs) in *. set (S := xsum xs rs) in *.
  assert (Sub : forall c, In c T -> In c rs) by (intros c Hc; apply C2, in_app_iff; now left). assert (SubB : forall c, In c B -> In c rs) by (intros c Hc; apply C2, in_app_iff; now right).
  pose proof (lettered_axes _ _ _ Lr) as Ar. pose proof (lettered_axes _ _ _ Lx) as Ax. pose proof (lettered_axes _ _ _ Ly) as Ay.
  set (act := fun (t : list Z) (m : memR) =>
    do v <- foldM (fun k (a : R) => do u <- loadA m (vblk x, voff x + (dot (cs x xs T) t + dot (cs x xs S) k)); do v <- loadA m (vblk y, voff y + (dot (cs y ys T) t + dot (cs y ys S) k)); Ok (cadd a (cmul u v))) (all_indices (map D S)) c0;
    Ok (fun _ : list Z => v)).
  set (g := fun (t _ : list Z) => rsum (map (fun k => cmul (elem0 m x (map (joint T S t k) xs)) (elem0 m y (map (joint T S t k) ys))) (all_indices (map D S)))).
  assert (LLr : length (vstr r) = length (vdims r)) by (destruct Lr as [H1 H2]; rewrite H1, map_length; exact H2).
  assert (LLx : length (vstr x) = length (vdims x)) by (destruct Lx as [H1 H2]; rewrite H1, map_length; exact H2).
  assert (LLy : length (vstr y) = length (vdims y)) by (destruct Ly as [H1 H2]; rewrite H1, map_length; exact H2).
  destruct (ein_coreV r rs T B D act g m (proj1 Lr) (proj2 Lr) C1 C2 Rr Dr) as (m' & E & A1 & A2 & A3).
  { intros t m' Ht Ag. unfold act. rewrite (dot_sum R (fun k => loadA m' (vblk x, voff x + (dot (cs x xs T) t + dot (cs x xs S) k))) (fun k => loadA m' (vblk y, voff y + (dot (cs y ys T) t + dot (cs y ys S) k)))
      (fun k => cmul (elem0 m x (map (joint T S t k) xs)) (elem0 m y (map (joint T S t k) ys)))); [reflexivity|].
    intros k Hk. apply in_all_indices in Hk. do 2 eexists. split; [|split; [|reflexivity]].
    - apply (read_letters r x xs T S D); try assumption. intros jx Hj. apply (disjoint_off r x m m'); assumption.
    - apply (read_letters r y ys T S D); try assumption. intros jx Hj. apply (disjoint_off r y m m'); assumption. }
  exists (efn_std xs ys rs), m'. split; [now apply rfn_of_ok|]. split.
  - rewrite <- E. unfold rfn_call, efn_std. cbn [e_d]. rewrite map_length. fold T. destruct (3 <? length T)%nat eqn:E3; [apply Nat.ltb_lt in E3; lia|].
    rewrite (d_par_ok r x y rs xs ys D D D) by assumption. cbn [bind]. rewrite !map_map. cbn [d_I d_r d_x d_y fst snd]. rewrite nest_all. unfold einloopV. apply foldM_ext. intros t m1 _.
    unfold rfn_s. cbn [e_s]. rewrite map_length. fold S. destruct (3 <? length S)%nat eqn:E4; [apply Nat.ltb_lt in E4; lia|].
    rewrite (s_par_alike r x y xs ys D D) by (try assumption; intros c Hc; now apply C7). cbn [bind]. rewrite !map_map. cbn [s_I s_x s_y fst snd]. rewrite nest_all. unfold act. fold (cs x xs S) (cs y ys S) (cs x xs T) (cs y ys T) (cs r rs T).
    destruct (foldM _ _ _) as [v| |]; [|reflexivity..]. cbn [bind]. now rewrite (rfn_b_ok _ r rs D B).
  - split; [|split; assumption]. intros e He. rewrite A1 by assumption. f_equal. f_equal. unfold g, esum. rewrite (contracted_xsum xs ys rs Yc). fold S.
    apply rsum_ext. intros k Hk. apply in_all_indices, in_range_length in Hk. rewrite map_length in Hk. now rewrite !joint_self by assumption.
Qed.
End Real.
