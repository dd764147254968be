(* Proofs_Einsum8.v -- two-operand einsum and its two gradients. *)
From Verif Require Import Base BaseFacts Model_Index Model_View Model_Tensor Model_Einsum Spec_Index Spec_View Spec_Tensor Spec_Einsum
  Proofs_Index Proofs_View Proofs_Tensor Accum Proofs_Einsum Proofs_Einsum2 Proofs_Einsum3 Proofs_Einsum4 Proofs_Einsum5 Proofs_Einsum7.
Local Open Scope Z_scope.

(* ---- sums over letters *)
Definition zs (g : ascii -> Z) (L : list ascii) : Z := fold_right (fun c a => g c + a) 0 L.
Lemma dot_zs f e L : dot (map f L) (map e L) = zs (fun c => f c * e c) L.
Proof. induction L as [|a L IH]; [reflexivity|]. cbn [map dot zs fold_right]. rewrite IH. unfold zs. lia. Qed.
Lemma zs_ext f g L : (forall c, In c L -> f c = g c) -> zs f L = zs g L.
Proof. induction L as [|a L IH]; intro H; [reflexivity|]. cbn. rewrite (H a) by now left. f_equal. apply IH. intros; apply H; now right. Qed.
Lemma zs_add f g L : zs (fun c => f c + g c) L = zs f L + zs g L.
Proof. induction L as [|a L IH]; [reflexivity|]. cbn. unfold zs in IH. rewrite IH. lia. Qed.
Lemma zs_pick a (v : Z) L : NoDup L -> zs (fun c => if aeq c a then v else 0) L = if isin L a then v else 0.
Proof.
  induction L as [|c L IH]; intro N; [reflexivity|]. inversion N; subst. cbn [zs fold_right]. fold (zs (fun c => if aeq c a then v else 0) L). rewrite IH by assumption.
  unfold isin. cbn [existsb]. fold (isin L a). destruct (aeq c a) eqn:E.
  - aeqs. subst c. rewrite aeq_refl. cbn. destruct (isin L a) eqn:I; [apply isin_In in I; contradiction|lia].
  - destruct (aeq a c) eqn:E2; [aeqs; congruence|]. cbn. lia.
Qed.
Lemma zs_sub g T L : NoDup T -> NoDup L -> (forall c, In c T -> In c L) -> zs g T = zs (fun c => if isin T c then g c else 0) L.
Proof.
  intros NT NL. induction T as [|a T IH]; intro H.
  - cbn. clear. induction L; cbn in *; auto.
  - inversion NT; subst. cbn [zs fold_right]. fold (zs g T). rewrite (IH H3) by (intros; apply H; now right).
    rewrite (zs_ext (fun c => if isin (a :: T) c then g c else 0) (fun c => (if aeq c a then g a else 0) + (if isin T c then g c else 0))).
    + rewrite zs_add, zs_pick by assumption. rewrite (proj2 (isin_In L a)) by (apply H; now left). reflexivity.
    + intros c _. unfold isin at 1. cbn [existsb]. fold (isin T c). destruct (aeq c a) eqn:E; cbn [orb]; [|lia]. aeqs. subst c. destruct (isin T a) eqn:I; [apply isin_In in I; contradiction|lia].
Qed.
Definition zro : ascii -> Z := fun _ => 0.
(* the address of an operand as a sum over transfer, contraction and summation letters *)
Lemma dot_split v s (T C S : list ascii) (t c : ascii -> Z) (e f : ascii -> Z) k q :
  length (vstr v) = length s -> NoDup T -> NoDup C -> NoDup S -> length k = length C -> length q = length S ->
  (forall a, (if isin T a then t a * e a else 0) + (if isin C a then c a * over zro C k a else 0) + (if isin S a then lstride v s a * over zro S q a else 0) = lstride v s a * f a) ->
  dot (map t T) (map e T) + dot (map c C) k + dot (map (lstride v s) S) q = dot (vstr v) (map f s).
Proof.
  intros Hl NT NC NS Lk Lq H. set (L := letters (s ++ T ++ C ++ S)). assert (NL : NoDup L) by apply letters_nodup.
  assert (I : forall l a, In a l -> (forall b, In b l -> In b (s ++ T ++ C ++ S)) -> In a L) by (intros l a Ha Hs; apply in_letters; now apply Hs).
  rewrite (dot_cs v s L f Hl NL) by (intros a Ha; apply (I s a Ha); intros; apply in_app_iff; now left).
  replace (dot (map c C) k) with (dot (map c C) (map (over zro C k) C)) by now rewrite over_map.
  replace (dot (map (lstride v s) S) q) with (dot (map (lstride v s) S) (map (over zro S q) S)) by now rewrite over_map. unfold cs.
  rewrite !dot_zs. rewrite (zs_sub _ T L), (zs_sub _ C L), (zs_sub _ S L); try assumption.
  - rewrite <- !zs_add. apply zs_ext. intros a _. apply H.
  - intros a Ha. apply (I S a Ha). intros b Hb. rewrite !in_app_iff. auto.
  - intros a Ha. apply (I C a Ha). intros b Hb. rewrite !in_app_iff. auto.
  - intros a Ha. apply (I T a Ha). intros b Hb. rewrite !in_app_iff. auto.
Qed.

Lemma isin_app a b c : isin (a ++ b) c = isin a c || isin b c.
Proof. unfold isin. apply existsb_app. Qed.
Lemma isin_filter p L c : isin (filter p (letters L)) c = isin L c && p c.
Proof.
  apply Bool.eq_iff_eq_true. rewrite andb_true_iff, !isin_In, filter_In. split; intros [H K]; (split; [|exact K]); now apply in_letters.
Qed.
Lemma isin_filter2 p q L c : isin (filter p (filter q (letters L))) c = isin L c && q c && p c.
Proof.
  apply Bool.eq_iff_eq_true. rewrite !andb_true_iff, !isin_In, !filter_In. split; intros [[H K] J]; (split; [split|exact J]; [|exact K]); now apply in_letters.
Qed.
Lemma over_zro_e e L t c : In c L -> length t = length L -> over zro L t c = over e L t c.
Proof.
  revert t. induction L as [|a L IH]; intros t H Ht; [destruct H|]. destruct t as [|v t]; [discriminate|]. cbn. destruct (aeq c a) eqn:E; [reflexivity|].
  apply IH; [|now injection Ht]. destruct H as [->|]; [now rewrite aeq_refl in E|assumption].
Qed.
Lemma lstride_absent' v s c : length (vstr v) = length s -> isin s c = false -> lstride v s c = 0.
Proof. intros L H. apply lstride_absent; [exact L|]. intro K. apply isin_In in K. congruence. Qed.
Lemma over_isin e L t c : length t = length L -> over e L t c = if isin L c then over zro L t c else e c.
Proof.
  intro H. destruct (isin L c) eqn:E; [symmetry; apply over_zro_e; [now apply isin_In|exact H]|]. apply over_out. intro K. apply isin_In in K. congruence.
Qed.
Lemma over_in_range D L t c : NoDup L -> in_range t (map D L) -> isin L c = true -> 0 <= over zro L t c < D c.
Proof. intros N H I. apply (over_fits D zro L t N H). now apply isin_In. Qed.

(* ---- the letter classes of a two-operand einsum *)
Section Classes.
Variables (xs ys rs : list ascii).
Definition gx : list ascii := filter (kx xs ys) (letters rs).      (* in x and r *)
Definition gy : list ascii := filter (ky xs ys) (letters rs).      (* in y and r *)
Definition gc : list ascii := filter (kc xs ys) (letters rs).      (* U, V, W in x, y and r *)
Definition gt : list ascii := filter (kt xs ys) (letters rs).      (* other letters in x, y and r *)
Definition gb : list ascii := filter (kb xs ys) (letters rs).      (* in r only *)
Definition gk : list ascii := filter (isin ys) (only_x xs rs).     (* in x and y *)
Definition sx : list ascii := filter (notin ys) (only_x xs rs).    (* in x only *)
Definition sy : list ascii := only_y xs ys rs.                     (* in y only *)
Definition cv (c : ascii) : bool := isin rs c && (isin xs c && isin ys c && convolved c).
(* no gather letter is transferred and no star occurs in all three *)
Definition ordinary2 : Prop := (In "S"%char rs -> In "S"%char xs <-> In "S"%char ys) /\ ~ (In "*"%char xs /\ In "*"%char ys /\ In "*"%char rs).
Lemma gather_case : ordinary2 -> forall c, isin rs c = true -> gather_letter c = true -> isin xs c = isin ys c.
Proof.
  intros [H _] c Hr Hg. apply aeq_eq in Hg. subst c. apply Bool.eq_iff_eq_true. rewrite !isin_In. apply H. now apply isin_In.
Qed.
Lemma star_case : ordinary2 -> forall c, isin rs c = true -> star c = true -> isin xs c && isin ys c = false.
Proof.
  intros [_ H] c Hr Hg. apply aeq_eq in Hg. subst c. apply not_true_is_false. intro K. apply andb_true_iff in K as [K1 K2]. apply H. repeat split; now apply isin_In.
Qed.
Hypothesis O2 : ordinary2.
Lemma is_gx c : isin gx c = isin rs c && isin xs c && notin ys c.
Proof.
  unfold gx. rewrite isin_filter. unfold kx. pose proof (gather_case O2 c) as G. unfold notin. destruct (isin rs c); [|reflexivity]. destruct (gather_letter c); [rewrite (G eq_refl eq_refl); destruct (isin ys c); reflexivity|].
  destruct (isin xs c), (isin ys c); reflexivity.
Qed.
Lemma is_gy c : isin gy c = isin rs c && notin xs c && isin ys c.
Proof.
  unfold gy. rewrite isin_filter. unfold ky. pose proof (gather_case O2 c) as G. unfold notin. destruct (isin rs c); [|reflexivity]. destruct (gather_letter c); [rewrite (G eq_refl eq_refl); destruct (isin ys c); reflexivity|].
  destruct (isin xs c), (isin ys c); reflexivity.
Qed.
Lemma is_gc c : isin gc c = cv c.
Proof. unfold gc, cv. now rewrite isin_filter. Qed.
Lemma is_gt c : isin gt c = isin rs c && (isin xs c && isin ys c && negb (convolved c)).
Proof.
  unfold gt. rewrite isin_filter. unfold kt, both. pose proof (star_case O2 c) as G. destruct (isin rs c); [|reflexivity]. destruct (star c); [rewrite (G eq_refl eq_refl); reflexivity|].
  cbn. now rewrite andb_true_r.
Qed.
Lemma is_gb c : isin gb c = isin rs c && (notin xs c && notin ys c).
Proof. unfold gb. now rewrite isin_filter. Qed.
Lemma is_gk c : isin gk c = isin xs c && notin rs c && isin ys c.
Proof. unfold gk, only_x. now rewrite isin_filter2. Qed.
Lemma is_sx c : isin sx c = isin xs c && notin rs c && notin ys c.
Proof. unfold sx, only_x. now rewrite isin_filter2. Qed.
Lemma is_sy c : isin sy c = isin ys c && (notin rs c && notin xs c).
Proof. unfold sy, only_y. now rewrite isin_filter. Qed.
Lemma nd_f p L : NoDup (filter p (letters L)).
Proof. apply NoDup_filter, letters_nodup. Qed.
Lemma nd_app (a b : list ascii) : NoDup a -> NoDup b -> (forall c, isin a c && isin b c = false) -> NoDup (a ++ b).
Proof. intros Ha Hb H. apply nodup_app; [exact Ha|exact Hb|]. intros c I J. specialize (H c). apply isin_In in I, J. rewrite I, J in H. discriminate. Qed.
End Classes.
Ltac is_rw := rewrite ?isin_app, ?is_gx, ?is_gy, ?is_gc, ?is_gt, ?is_gb, ?is_gk, ?is_sx, ?is_sy by assumption; unfold cv, notin.
Ltac is_rw_in H := rewrite ?isin_app, ?is_gx, ?is_gy, ?is_gc, ?is_gt, ?is_gb, ?is_gk, ?is_sx, ?is_sy in H by assumption; unfold cv, notin in H.
Ltac cases4 xs ys rs c := destruct (isin rs c) eqn:?Ir, (isin xs c) eqn:?Ix, (isin ys c) eqn:?Iy, (convolved c) eqn:?Ic; cbn [andb orb negb] in *; try discriminate; try congruence.
Ltac into xs ys rs := let c := fresh "c" in let H := fresh "H" in intros c H; apply isin_In in H; is_rw_in H; apply isin_In; cases4 xs ys rs c.
Ltac into2 xs ys rs := let c := fresh "c" in let H := fresh "H" in intros c H; apply isin_In in H; is_rw_in H; split; apply isin_In; cases4 xs ys rs c.
Ltac nd xs ys rs := repeat (first [apply nd_f | apply NoDup_filter, nd_f | apply nd_app]); let c := fresh "c" in intro c; is_rw; cases4 xs ys rs c; reflexivity.

Lemma mk_par2_ok (sx sy b : list (Z * Z)) t c lim : (length sx <= 4)%nat -> (length sy <= 4)%nat -> (length b <= 4)%nat -> (length t <= 4)%nat -> (length c <= 4)%nat -> (length lim <= 4)%nat ->
  mk_par2 sx sy b t c lim = Ok (Par2 (pad 1 (map t_d t)) (pad 0 (map t_x t)) (pad 0 (map t_y t)) (pad 0 (map t_r t)) (pad 1 (map fst sx)) (pad 0 (map snd sx)) (pad 1 (map fst sy)) (pad 0 (map snd sy))
    (pad 1 (map (fun q => fst (fst q)) c)) (pad 0 (map (fun q => snd (fst q)) c)) (pad 0 (map snd c)) (pad 1 (map fst b)) (pad 0 (map snd b)) (pad 0 lim)).
Proof. intros. unfold mk_par2. rewrite !arr4_ok by (rewrite ?map_length; assumption). reflexivity. Qed.
Lemma ein2_sizes_ok F {A} (k : res A) : (length (f2_xsum F) <= 3)%nat -> (length (f2_ysum F) <= 3)%nat -> (length (f2_rsum F) <= 3)%nat ->
  (length (f2_tr F) + length (f2_xr F) + length (f2_yr F) + length (f2_conv F) <= 4)%nat -> (length (f2_xy F) + length (f2_conv F) <= 3)%nat -> (length (f2_trip F) <= 1)%nat ->
  ein2_sizes F k = k.
Proof.
  intros H1 H2 H3 H4 H5 H6. unfold ein2_sizes, le3. rewrite (proj2 (Nat.leb_le _ _) H1), (proj2 (Nat.leb_le _ _) H2), (proj2 (Nat.leb_le _ _) H3), (proj2 (Nat.leb_le _ _) H4), (proj2 (Nat.leb_le _ _) H5), (proj2 (Nat.leb_le _ _) H6). reflexivity.
Qed.
(* the sides of the three tensors fit together *)
Definition agree2 (xs ys rs : list ascii) (Dx Dy Dr : ascii -> Z) : Prop := forall c, cv xs ys rs c = false ->
  (isin xs c = true -> isin ys c = true -> Dx c = Dy c) /\ (isin xs c = true -> isin rs c = true -> Dx c = Dr c) /\ (isin ys c = true -> isin rs c = true -> Dy c = Dr c).
(* the numbers of letters of each kind that the code accepts *)
Definition few2 (xs ys rs : list ascii) : Prop :=
  (length (sx xs ys rs) <= 3)%nat /\ (length (sy xs ys rs) <= 3)%nat /\ (length (gb xs ys rs) <= 3)%nat /\
  (length (gt xs ys rs) + length (gx xs ys rs) + length (gy xs ys rs) + length (gc xs ys rs) <= 4)%nat /\ (length (gk xs ys rs) + length (gc xs ys rs) <= 3)%nat.
Lemma no_stars xs ys rs : ordinary2 xs ys rs -> filter (kstar xs ys) (letters rs) = [].
Proof.
  intro O. assert (H : forall c, In c (filter (kstar xs ys) (letters rs)) -> False).
  { intros c H. apply isin_In in H. rewrite isin_filter in H. unfold kstar, both in H. apply andb_true_iff in H as [H1 H2]. apply andb_true_iff in H2 as [H2 H3]. rewrite (star_case xs ys rs O c H1 H3) in H2. discriminate. }
  destruct (filter (kstar xs ys) (letters rs)) as [|c l]; [reflexivity|]. destruct (H c (or_introl eq_refl)).
Qed.

Lemma app_cong {A} (a b c d : list A) : a = b -> c = d -> a ++ c = b ++ d.
Proof. now intros -> ->. Qed.
Ltac fin := repeat match goal with
  | H : true = true -> _ |- _ => specialize (H eq_refl) | H : false = false -> _ |- _ => specialize (H eq_refl)
  | H : true = false -> _ |- _ => clear H | H : false = true -> _ |- _ => clear H
  | H : _ /\ _ |- _ => destruct H end.
Ltac fin2 := repeat match goal with H : lstride _ _ _ = 0 |- _ => rewrite H in *; clear H end; try reflexivity; try lia; try (now f_equal).
Lemma forallb_ext_in {A} (p q : A -> bool) l : (forall a, In a l -> p a = q a) -> forallb p l = forallb q l.
Proof. induction l as [|a l IH]; intro H; [reflexivity|]. cbn. rewrite (H a) by now left. f_equal. apply IH. intros; apply H; now right. Qed.
(* ---- the limited loops *)
Definition los (lim cd td t : list Z) : list Z := [lim_lo (at0 lim) (at0 cd) (at0 td) (nth 0 t 0); lim_lo (at1 lim) (at1 cd) (at1 td) (nth 1 t 0); lim_lo (at2 lim) (at2 cd) (at2 td) (nth 2 t 0)].
Definition his (lim cd t : list Z) : list Z := [lim_hi (at0 lim) (at0 cd) (nth 0 t 0); lim_hi (at1 lim) (at1 cd) (nth 1 t 0); lim_hi (at2 lim) (at2 cd) (nth 2 t 0)].
Lemma lim_lo_pos l c t k : 0 <= lim_lo l c t k.
Proof. unfold lim_lo. destruct (l =? 0); lia. Qed.
Lemma lim_hi_le l c k : lim_hi l c k <= c.
Proof. unfold lim_hi. destruct (l =? 0); lia. Qed.
Lemma ein2_conv_loops_ok {R : cring} (r x y : view) rs T B D (fx fy : ascii -> Z) sxd sxs syd sys cd cx cy lim (m : mem (car R)) :
  (length T <= 4)%nat -> (length B <= 3)%nat -> (length cd <= 3)%nat -> length cx = length cd -> length cy = length cd ->
  fourth T fx (lstride r rs) -> fourth T fy fx ->
  ein2_conv_loops (Par2 (pad 1 (map D T)) (pad 0 (map fx T)) (pad 0 (map fy T)) (pad 0 (map (lstride r rs) T)) (pad 1 sxd) (pad 0 sxs) (pad 1 syd) (pad 0 sys)
     (pad 1 cd) (pad 0 cx) (pad 0 cy) (pad 1 (map D B)) (pad 0 (map (lstride r rs) B)) lim) r x y m =
  einloop r rs T B D (act2 x y (map fx T) (map fy T) sxd sxs syd sys cx cy (fun t => filter (in_win3 (los lim (pad 1 cd) (pad 1 (map D T)) t) (his lim (pad 1 cd) t)) (all_indices cd))) m.
Proof.
  intros HT HB HC Lx Ly F1 F2. unfold ein2_conv_loops, einloop. cbn [p2_td p2_tx p2_ty p2_tr p2_xd p2_xs p2_yd p2_ys p2_cd p2_cx p2_cy p2_bd p2_bs p2_lim].
  rewrite nest4 by now rewrite map_length. apply foldM_ext. intros t m' Ht. apply in_all_indices, in_range_length in Ht. rewrite map_length in Ht.
  rewrite body_ok; try assumption; try (cbn [at0 at1 at2 nth]; first [apply lim_lo_pos|apply lim_hi_le]).
  rewrite (dot4_pad (map fx T) t) by (rewrite map_length; auto). rewrite <- (at3_eq T fy fx F2), (dot4_pad (map fy T) t) by (rewrite map_length; auto).
  rewrite (at3_eq T fy fx F2), (at3_eq T fx (lstride r rs) F1), (dot4_pad (map (lstride r rs) T) t) by (rewrite map_length; auto).
  reflexivity.
Qed.
Lemma win_all k d : 0 <= k < d -> win (lim_lo 0 d 0 0) (lim_hi 0 d 0) k = true.
Proof. unfold win, lim_lo, lim_hi. cbn. lia. Qed.
Lemma lim_lo_0 c t k : lim_lo 0 c t k = 0. Proof. reflexivity. Qed.
Lemma lim_hi_0 c k : lim_hi 0 c k = c. Proof. reflexivity. Qed.
Lemma win_limits G T' C' (D Dc e : ascii -> Z) k : NoDup (G ++ C') -> (length (G ++ C') <= 3)%nat -> (length (G ++ T') <= 4)%nat -> in_range k (map Dc (G ++ C')) ->
  in_win3 (los (pad 0 (repeat 1 (length G))) (pad 1 (map Dc (G ++ C'))) (pad 1 (map D (G ++ T'))) (map e (G ++ T'))) (his (pad 0 (repeat 1 (length G))) (pad 1 (map Dc (G ++ C'))) (map e (G ++ T'))) k =
  forallb (fun c => win (lim_lo 1 (Dc c) (D c) (e c)) (lim_hi 1 (Dc c) (e c)) (over zro (G ++ C') k c)) G.
Proof.
  intros N L LT Hk. unfold in_win3, los, his. cbn [at0 at1 at2 nth].
  unfold at0, at1, at2. rewrite !nth_pad_dim by (rewrite ?map_length; lia). unfold pad. rewrite !nth_pad.
  assert (Hw : forall n, (n < 3)%nat -> 0 <= nth n k 0 < nth n (map Dc (G ++ C')) 1).
  { intros n _. clear - Hk. revert n. unfold in_range in Hk. induction Hk as [|a b k d H Hk IH]; intro n; destruct n; cbn; try lia; apply IH. }
  pose proof (Hw 0%nat ltac:(lia)) as W0. pose proof (Hw 1%nat ltac:(lia)) as W1. pose proof (Hw 2%nat ltac:(lia)) as W2. clear Hw.
  pose proof (in_range_length _ _ Hk) as Lk. rewrite map_length in Lk.
  assert (Wfull : forall n t e', 0 <= nth n k 0 < nth n (map Dc (G ++ C')) 1 -> win (lim_lo 0 (nth n (map Dc (G ++ C')) 1) t e') (lim_hi 0 (nth n (map Dc (G ++ C')) 1) e') (nth n k 0) = true) by (intros; unfold win; rewrite lim_lo_0, lim_hi_0; lia).
  destruct G as [|a [|b [|d [|? ?]]]]; cbn [app length] in L; try lia; cbn [repeat length nth forallb andb].
  - cbn [app] in *. rewrite !Wfull by assumption. reflexivity.
  - rewrite !Wfull by assumption. cbn [app map nth andb] in *. destruct k as [|k0 k]; [discriminate|]. cbn [over nth]. rewrite aeq_refl. now rewrite !andb_true_r.
  - rewrite !Wfull by assumption. cbn [app map nth andb] in *. destruct k as [|k0 [|k1 k]]; try discriminate. cbn [over nth]. rewrite !aeq_refl.
    destruct (aeq b a) eqn:E; [aeqs; subst; inversion N; subst; exfalso; apply H1; now left|]. now rewrite !andb_true_r.
  - cbn [app map nth andb] in *. destruct k as [|k0 [|k1 [|k2 k]]]; try discriminate. cbn [over nth]. rewrite !aeq_refl.
    destruct (aeq b a) eqn:E; [aeqs; subst; inversion N; subst; exfalso; apply H1; now left|].
    destruct (aeq d a) eqn:E2; [aeqs; subst; inversion N; subst; exfalso; apply H1; right; now left|].
    destruct (aeq d b) eqn:E3; [aeqs; subst; inversion N; subst; inversion H2; subst; exfalso; apply H3; now left|]. now rewrite !andb_true_r.
Qed.

Section Three.
Context {R : cring}.
Add Ring RrEin8 : (cth R).
Notation memR := (mem (car R)).
Variables (xs ys rs : list ascii) (Dx Dy Dr : ascii -> Z) (x y r : view) (F : form2).
Hypotheses (Px : plain xs) (Py : plain ys) (Pr : plain rs) (O2 : ordinary2 xs ys rs) (EF : form2_of (str2 xs ys rs) = Ok F).
Hypotheses (Hdx : vdims x = map Dx xs) (Hdy : vdims y = map Dy ys) (Hdr : vdims r = map Dr rs).
Hypotheses (Hsx : length (vstr x) = length xs) (Hsy : length (vstr y) = length ys) (Hsr : length (vstr r) = length rs).
Hypotheses (Ag : agree2 xs ys rs Dx Dy Dr) (Few : few2 xs ys rs).
Notation gx := (gx xs ys rs). Notation gy := (gy xs ys rs). Notation gc := (gc xs ys rs). Notation gt := (gt xs ys rs). Notation gb := (gb xs ys rs).
Notation gk := (gk xs ys rs). Notation sx := (sx xs ys rs). Notation sy := (sy xs ys rs). Notation cv := (cv xs ys rs).
Notation box D L := (all_indices (map D L)).

(* the selected elements *)
Definition g_of (C : list ascii) (k : list Z) : ascii -> Z := over zro C k.
Definition fwd_x (C : list ascii) (e : ascii -> Z) (k s : list Z) : list Z :=
  map (over (fun c => if cv c then e c + g_of C k c else if isin rs c then e c else g_of C k c) sx s) xs.
Definition fwd_y (C : list ascii) (e : ascii -> Z) (k s : list Z) : list Z :=
  map (over (fun c => if cv c then g_of C k c else if isin rs c then e c else g_of C k c) sy s) ys.

Hypothesis Hcv : forall c, cv c = true -> Dy c <= Dx c /\ Dr c <= Dx c - Dy c + 1.
Ltac facts c := generalize (Ag c) (Hcv c) (lstride_absent' x xs c Hsx) (lstride_absent' y ys c Hsy) (lstride_absent' r rs c Hsr); unfold Proofs_Einsum8.cv, notin.
Ltac by_cases c := facts c; destruct (isin rs c) eqn:?Ir, (isin xs c) eqn:?Ix, (isin ys c) eqn:?Iy, (convolved c) eqn:?Ic; cbn [andb orb negb]; intros; try discriminate; fin; fin2.
Ltac maps := rewrite ?map_app, ?map_map; repeat apply app_cong; apply map_ext_in; let c := fresh "c" in let Hc := fresh "Hc" in intros c Hc; apply isin_In in Hc; is_rw_in Hc;
   unfold x4, y4, t_d, t_x, t_y, t_r; cbn [fst snd]; revert Hc; by_cases c.
Lemma ein2_add_ok (m : memR) :
  fourth (gx ++ gc ++ gy ++ gt) (lstride x xs) (lstride r rs) -> fourth (gx ++ gc ++ gy ++ gt) (fun c => if cv c then 0 else lstride y ys c) (lstride x xs) ->
  readable m r -> distinct_cells r -> readable m x -> readable m y -> disjoint_views r x -> disjoint_views r y ->
  exists m', ein2_add F r x y m = Ok m' /\
    result1 m m' r rs Dr (fun e => rsum (map (fun k => cmul (rsum (map (fun s => elem0 m x (fwd_x (gk ++ gc) e k s)) (box Dx sx))) (rsum (map (fun s => elem0 m y (fwd_y (gk ++ gc) e k s)) (box Dy sy)))) (box Dy (gk ++ gc)))).
Proof.
  intros F1 F2 Rr Di Rx Ry Dis1 Dis2. destruct Few as (L1 & L2 & L3 & L4 & L5).
  pose proof (form2_ok xs ys rs Px Py Pr) as EF'. rewrite EF in EF'. injection EF' as ->. unfold ein2_add, ein2_params. rewrite ein2_sizes_ok; cbn [f2_xsum f2_ysum f2_rsum f2_tr f2_xr f2_yr f2_conv f2_xy f2_trip]; rewrite ?map_length; try assumption.
  2:{ rewrite no_stars by assumption. cbn. lia. }
  fold gx gy gc gt gb gk sx sy.
  rewrite (p_sum_ok x xs Dx) by (try assumption; into xs ys rs). cbn [bind].
  rewrite (p_sum_ok y ys Dy) by (try assumption; into xs ys rs). cbn [bind].
  rewrite (p_sum_ok r rs Dr) by (try assumption; into xs ys rs). cbn [bind].
  rewrite (p_tr_ok x xs r rs Dr) by (try assumption; try reflexivity; into xs ys rs). cbn [bind].
  rewrite map_map. rewrite (p_tr_ok x xs r rs Dr) by (try assumption; try reflexivity; into xs ys rs). cbn [bind].
  rewrite (p_tr_ok y ys r rs Dr) by (try assumption; try reflexivity; into xs ys rs). cbn [bind].
  rewrite (p_tr12_ok x xs y ys r rs Dx) by (try assumption; try reflexivity; into xs ys rs). cbn [bind].
  rewrite (p_con_ok 1 x xs Dx y ys Dy) by (try assumption; try reflexivity; into2 xs ys rs). cbn [bind].
  rewrite map_map. rewrite (p_con_ok 1 x xs Dx y ys Dy) by (try assumption; try reflexivity; into2 xs ys rs). cbn [bind].
  rewrite mk_par2_ok by (rewrite ?app_length, ?map_length; cbn [length]; lia). cbn [bind].
  set (T := gx ++ gc ++ gy ++ gt) in *. set (C := gk ++ gc).
  set (fy := fun c => if cv c then 0 else lstride y ys c) in *.
  match goal with |- context [Par2 (pad 1 ?a1) (pad 0 ?a2) (pad 0 ?a3) (pad 0 ?a4) (pad 1 ?b1) (pad 0 ?b2) (pad 1 ?b3) (pad 0 ?b4) (pad 1 ?c1) (pad 0 ?c2) (pad 0 ?c3) (pad 1 ?d1) (pad 0 ?d2)] =>
    replace a1 with (map Dr T); [replace a2 with (map (lstride x xs) T); [replace a3 with (map fy T); [replace a4 with (map (lstride r rs) T);
    [replace b1 with (map Dx sx) by (rewrite map_map; reflexivity); replace b2 with (map (lstride x xs) sx) by (rewrite map_map; reflexivity);
     replace b3 with (map Dy sy) by (rewrite map_map; reflexivity); replace b4 with (map (lstride y ys) sy) by (rewrite map_map; reflexivity);
     replace c1 with (map Dy C); [replace c2 with (map (lstride x xs) C); [replace c3 with (map (lstride y ys) C);
     [replace d1 with (map Dr gb) by (rewrite map_map; reflexivity); replace d2 with (map (lstride r rs) gb) by (rewrite map_map; reflexivity)|]|]|]|]|]|]|] end.
  2-8: subst T C fy; maps.
  rewrite ein2_loops_ok; try assumption; try (rewrite !map_length; reflexivity); try (subst T C; rewrite ?map_length, ?app_length; lia).
  assert (NT : NoDup T) by (subst T; nd xs ys rs). assert (NC : NoDup C) by (subst C; nd xs ys rs).
  assert (NX : NoDup sx) by (nd xs ys rs). assert (NY : NoDup sy) by (nd xs ys rs).
  apply (kernel2 r x y rs T gb sx sy Dr Dx Dy (map (lstride x xs) T) (map fy T) _ _ _ _ (fun _ => box Dy C) (fwd_x C) (fwd_y C)); try assumption; try (rewrite map_length; reflexivity); try (rewrite Hdx, map_length; exact Hsx); try (rewrite Hdy, map_length; exact Hsy).
  - subst T. nd xs ys rs.
  - intro c. rewrite <- !isin_In. subst T. is_rw. cases4 xs ys rs c; tauto.
  - intros e k s He Hk Hs. apply in_all_indices in Hk. split.
    + rewrite Hdx. apply fits_range. intros c Hc. apply isin_In in Hc. rewrite over_isin by (apply in_range_length in Hs; now rewrite map_length in Hs).
      pose proof (over_in_range Dx sx s c NX Hs) as Fs. pose proof (over_in_range Dy C k c NC Hk) as Fk. assert (Fe : isin T c = true -> 0 <= e c < Dr c) by (intro I; apply He; now apply isin_In).
      revert Hc Fs Fk Fe. unfold g_of. subst T C. is_rw. by_cases c.
    + apply dot_split; try assumption; try (apply in_range_length in Hk; now rewrite map_length in Hk); try (apply in_range_length in Hs; now rewrite map_length in Hs).
      intro c. match goal with |- _ = _ * over ?f ?a ?b ?d => rewrite (over_isin f a b d) by (apply in_range_length in Hs; now rewrite map_length in Hs) end. unfold g_of. subst T C. is_rw. by_cases c.
  - intros e k s He Hk Hs. apply in_all_indices in Hk. split.
    + rewrite Hdy. apply fits_range. intros c Hc. apply isin_In in Hc. rewrite over_isin by (apply in_range_length in Hs; now rewrite map_length in Hs).
      pose proof (over_in_range Dy sy s c NY Hs) as Fs. pose proof (over_in_range Dy C k c NC Hk) as Fk. assert (Fe : isin T c = true -> 0 <= e c < Dr c) by (intro I; apply He; now apply isin_In).
      revert Hc Fs Fk Fe. unfold g_of. subst T C. is_rw. by_cases c.
    + apply dot_split; try assumption; try (apply in_range_length in Hk; now rewrite map_length in Hk); try (apply in_range_length in Hs; now rewrite map_length in Hs).
      intro c. match goal with |- _ = _ * over ?f ?a ?b ?d => rewrite (over_isin f a b d) by (apply in_range_length in Hs; now rewrite map_length in Hs) end. unfold g_of. subst T C fy. is_rw. by_cases c.
Qed.

(* the gradient in y *)
Definition bk1_r (C : list ascii) (e : ascii -> Z) (k s : list Z) : list Z :=
  map (over (fun c => if cv c then g_of C k c else if isin ys c then e c else g_of C k c) gb s) rs.
Definition bk1_x (C : list ascii) (e : ascii -> Z) (k s : list Z) : list Z :=
  map (over (fun c => if cv c then e c + g_of C k c else if isin ys c then e c else g_of C k c) sx s) xs.
Lemma ein2_back1_ok (m : memR) :
  (forall c, cv c = true -> Dr c <= Dx c) ->
  (length gy + length gc + length gk + length gt <= 4)%nat -> (length gx + length gc <= 3)%nat ->
  fourth (gy ++ gc ++ gk ++ gt) (fun c => if cv c then 0 else lstride r rs c) (lstride y ys) -> fourth (gy ++ gc ++ gk ++ gt) (lstride x xs) (fun c => if cv c then 0 else lstride r rs c) ->
  readable m y -> distinct_cells y -> readable m r -> readable m x -> disjoint_views y r -> disjoint_views y x ->
  exists m', ein2_back1 F y r x m = Ok m' /\
    result1 m m' y ys Dy (fun e => rsum (map (fun k => cmul (rsum (map (fun s => elem0 m r (bk1_r (gx ++ gc) e k s)) (box Dr gb))) (rsum (map (fun s => elem0 m x (bk1_x (gx ++ gc) e k s)) (box Dx sx)))) (box Dr (gx ++ gc)))).
Proof.
  intros Hcv1 L6 L7 F1 F2 Ry Di Rr Rx Dis1 Dis2. destruct Few as (L1 & L2 & L3 & L4 & L5).
  pose proof (form2_ok xs ys rs Px Py Pr) as EF'. rewrite EF in EF'. injection EF' as ->. unfold ein2_back1, ein2_params_back1. rewrite ein2_sizes_ok; cbn [f2_xsum f2_ysum f2_rsum f2_tr f2_xr f2_yr f2_conv f2_xy f2_trip]; rewrite ?map_length; try assumption.
  2:{ rewrite no_stars by assumption. cbn. lia. }
  fold gx gy gc gt gb gk sx sy. rewrite !map_map.
  rewrite (p_sum_ok r rs Dr) by (try assumption; into xs ys rs). cbn [bind].
  rewrite (p_sum_ok x xs Dx) by (try assumption; into xs ys rs). cbn [bind].
  rewrite (p_sum_ok y ys Dy) by (try assumption; into xs ys rs). cbn [bind].
  rewrite (p_tr_ok r rs y ys Dy) by (try assumption; try reflexivity; into xs ys rs). cbn [bind].
  rewrite (p_tr_ok x xs y ys Dy) by (try assumption; try reflexivity; into xs ys rs). cbn [bind].
  rewrite (p_tr_ok x xs y ys Dy) by (try assumption; try reflexivity; into xs ys rs). cbn [bind].
  rewrite (p_tr12_ok r rs x xs y ys Dr) by (try assumption; try reflexivity; into xs ys rs). cbn [bind].
  rewrite (p_con_ok 1 r rs Dr x xs Dx) by (try assumption; try reflexivity; into2 xs ys rs). cbn [bind].
  rewrite (p_con_ok 1 r rs Dr x xs Dx) by (try assumption; try reflexivity; into2 xs ys rs). cbn [bind].
  rewrite mk_par2_ok by (rewrite ?app_length, ?map_length; cbn [length]; lia). cbn [bind].
  set (T := gy ++ gc ++ gk ++ gt) in *. set (C := gx ++ gc).
  set (fr := fun c => if cv c then 0 else lstride r rs c) in *.
  match goal with |- context [Par2 (pad 1 ?a1) (pad 0 ?a2) (pad 0 ?a3) (pad 0 ?a4) (pad 1 ?b1) (pad 0 ?b2) (pad 1 ?b3) (pad 0 ?b4) (pad 1 ?c1) (pad 0 ?c2) (pad 0 ?c3) (pad 1 ?d1) (pad 0 ?d2)] =>
    replace a1 with (map Dy T); [replace a2 with (map fr T); [replace a3 with (map (lstride x xs) T); [replace a4 with (map (lstride y ys) T);
    [replace b1 with (map Dr gb) by (rewrite map_map; reflexivity); replace b2 with (map (lstride r rs) gb) by (rewrite map_map; reflexivity);
     replace b3 with (map Dx sx) by (rewrite map_map; reflexivity); replace b4 with (map (lstride x xs) sx) by (rewrite map_map; reflexivity);
     replace c1 with (map Dr C); [replace c2 with (map (lstride r rs) C); [replace c3 with (map (lstride x xs) C);
     [replace d1 with (map Dy sy) by (rewrite map_map; reflexivity); replace d2 with (map (lstride y ys) sy) by (rewrite map_map; reflexivity)|]|]|]|]|]|]|] end.
  2-8: subst T C fr; rewrite ?map_app, ?map_map; repeat apply app_cong; apply map_ext_in; intros c Hc; apply isin_In in Hc; is_rw_in Hc;
   unfold x4, y4, t_d, t_x, t_y, t_r; cbn [fst snd]; revert Hc; generalize (Hcv1 c); by_cases c.
  rewrite ein2_loops_ok; try assumption; try (rewrite !map_length; reflexivity); try (subst T C; rewrite ?map_length, ?app_length; lia).
  assert (NT : NoDup T) by (subst T; nd xs ys rs). assert (NC : NoDup C) by (subst C; nd xs ys rs).
  assert (NX : NoDup sx) by (nd xs ys rs). assert (NB : NoDup gb) by (nd xs ys rs).
  apply (kernel2 y r x ys T sy gb sx Dy Dr Dx (map fr T) (map (lstride x xs) T) _ _ _ _ (fun _ => box Dr C) (bk1_r C) (bk1_x C)); try assumption; try (rewrite map_length; reflexivity); try (rewrite Hdx, map_length; exact Hsx); try (rewrite Hdr, map_length; exact Hsr).
  - subst T. nd xs ys rs.
  - intro c. rewrite <- !isin_In. subst T. is_rw. cases4 xs ys rs c; tauto.
  - intros e k s He Hk Hs. apply in_all_indices in Hk. split.
    + rewrite Hdr. apply fits_range. intros c Hc. apply isin_In in Hc. rewrite over_isin by (apply in_range_length in Hs; now rewrite map_length in Hs).
      pose proof (over_in_range Dr gb s c NB Hs) as Fs. pose proof (over_in_range Dr C k c NC Hk) as Fk. assert (Fe : isin T c = true -> 0 <= e c < Dy c) by (intro I; apply He; now apply isin_In).
      revert Hc Fs Fk Fe. unfold g_of. subst T C. is_rw. by_cases c.
    + apply dot_split; try assumption; try (apply in_range_length in Hk; now rewrite map_length in Hk); try (apply in_range_length in Hs; now rewrite map_length in Hs).
      intro c. match goal with |- _ = _ * over ?f ?a ?b ?d => rewrite (over_isin f a b d) by (apply in_range_length in Hs; now rewrite map_length in Hs) end. unfold g_of. subst T C fr. is_rw. by_cases c.
  - intros e k s He Hk Hs. apply in_all_indices in Hk. split.
    + rewrite Hdx. apply fits_range. intros c Hc. apply isin_In in Hc. rewrite over_isin by (apply in_range_length in Hs; now rewrite map_length in Hs).
      pose proof (over_in_range Dx sx s c NX Hs) as Fs. pose proof (over_in_range Dr C k c NC Hk) as Fk. assert (Fe : isin T c = true -> 0 <= e c < Dy c) by (intro I; apply He; now apply isin_In).
      revert Hc Fs Fk Fe. unfold g_of. subst T C. is_rw. by_cases c.
    + apply dot_split; try assumption; try (apply in_range_length in Hk; now rewrite map_length in Hk); try (apply in_range_length in Hs; now rewrite map_length in Hs).
      intro c. match goal with |- _ = _ * over ?f ?a ?b ?d => rewrite (over_isin f a b d) by (apply in_range_length in Hs; now rewrite map_length in Hs) end. unfold g_of. subst T C. is_rw. by_cases c.
Qed.

(* the gradient in x *)
Definition bk0_r (C : list ascii) (e : ascii -> Z) (k s : list Z) : list Z :=
  map (over (fun c => if cv c then e c - g_of C k c else if isin xs c then e c else g_of C k c) gb s) rs.
Definition bk0_y (C : list ascii) (e : ascii -> Z) (k s : list Z) : list Z :=
  map (over (fun c => if cv c then g_of C k c else if isin xs c then e c else g_of C k c) sy s) ys.
Definition meets (C : list ascii) (e : ascii -> Z) (k : list Z) : bool := forallb (fun c => (0 <=? e c - g_of C k c) && (e c - g_of C k c <? Dr c)) gc.
Lemma ein2_back0_ok (m : memR) :
  (forall c, cv c = true -> Dr c = Dx c - Dy c + 1 /\ Dy c <= Dr c) ->
  (length gc + length gx + length gk + length gt <= 4)%nat -> (length gc + length gy <= 3)%nat ->
  fourth (gc ++ gx ++ gk ++ gt) (lstride r rs) (lstride x xs) -> fourth (gc ++ gx ++ gk ++ gt) (fun c => if cv c then 0 else lstride y ys c) (lstride r rs) ->
  readable m x -> distinct_cells x -> readable m r -> readable m y -> disjoint_views x r -> disjoint_views x y ->
  exists m', ein2_back0 F x r y m = Ok m' /\
    result1 m m' x xs Dx (fun e => rsum (map (fun k => cmul (rsum (map (fun s => elem0 m r (bk0_r (gc ++ gy) e k s)) (box Dr gb))) (rsum (map (fun s => elem0 m y (bk0_y (gc ++ gy) e k s)) (box Dy sy)))) (filter (meets (gc ++ gy) e) (box Dy (gc ++ gy))))).
Proof.
  intros Hcv1 L6 L7 F1 F2 Rx Di Rr Ry Dis1 Dis2. destruct Few as (L1 & L2 & L3 & L4 & L5).
  pose proof (form2_ok xs ys rs Px Py Pr) as EF'. rewrite EF in EF'. injection EF' as ->. unfold ein2_back0, ein2_params_back0. rewrite ein2_sizes_ok; cbn [f2_xsum f2_ysum f2_rsum f2_tr f2_xr f2_yr f2_conv f2_xy f2_trip]; rewrite ?map_length; try assumption.
  2:{ rewrite no_stars by assumption. cbn. lia. }
  fold gx gy gc gt gb gk sx sy. rewrite !map_map.
  rewrite (p_sum_ok r rs Dr) by (try assumption; into xs ys rs). cbn [bind].
  rewrite (p_sum_ok y ys Dy) by (try assumption; into xs ys rs). cbn [bind].
  rewrite (p_sum_ok x xs Dx) by (try assumption; into xs ys rs). cbn [bind].
  rewrite (p_tr_ok r rs x xs Dx) by (try assumption; try reflexivity; into xs ys rs). cbn [bind].
  rewrite (p_tr_ok r rs x xs Dx) by (try assumption; try reflexivity; into xs ys rs). cbn [bind].
  rewrite (p_tr_ok y ys x xs Dx) by (try assumption; try reflexivity; into xs ys rs). cbn [bind].
  rewrite (p_tr12_ok r rs y ys x xs Dr) by (try assumption; try reflexivity; into xs ys rs). cbn [bind].
  rewrite (p_con_ok (-1) r rs Dr y ys Dy) by (try assumption; try reflexivity; into2 xs ys rs). cbn [bind].
  rewrite (p_con_ok 1 r rs Dr y ys Dy) by (try assumption; try reflexivity; into2 xs ys rs). cbn [bind].
  rewrite mk_par2_ok by (rewrite ?app_length, ?map_length, ?repeat_length; cbn [length]; lia). cbn [bind].
  set (T := gc ++ gx ++ gk ++ gt) in *. set (C := gc ++ gy).
  set (fy := fun c => if cv c then 0 else lstride y ys c) in *. set (cr := fun c => if cv c then - lstride r rs c else lstride r rs c).
  match goal with |- context [Par2 (pad 1 ?a1) (pad 0 ?a2) (pad 0 ?a3) (pad 0 ?a4) (pad 1 ?b1) (pad 0 ?b2) (pad 1 ?b3) (pad 0 ?b4) (pad 1 ?c1) (pad 0 ?c2) (pad 0 ?c3) (pad 1 ?d1) (pad 0 ?d2)] =>
    replace a1 with (map Dx T); [replace a2 with (map (lstride r rs) T); [replace a3 with (map fy T); [replace a4 with (map (lstride x xs) T);
    [replace b1 with (map Dr gb) by (rewrite map_map; reflexivity); replace b2 with (map (lstride r rs) gb) by (rewrite map_map; reflexivity);
     replace b3 with (map Dy sy) by (rewrite map_map; reflexivity); replace b4 with (map (lstride y ys) sy) by (rewrite map_map; reflexivity);
     replace c1 with (map Dy C); [replace c2 with (map cr C); [replace c3 with (map (lstride y ys) C);
     [replace d1 with (map Dx sx) by (rewrite map_map; reflexivity); replace d2 with (map (lstride x xs) sx) by (rewrite map_map; reflexivity)|]|]|]|]|]|]|] end.
  2-8: subst T C fy cr; rewrite ?map_app, ?map_map; repeat apply app_cong; apply map_ext_in; intros c Hc; apply isin_In in Hc; is_rw_in Hc;
   unfold x4, y4, t_d, t_x, t_y, t_r; cbn [fst snd]; revert Hc; generalize (Hcv1 c); by_cases c.
  assert (NT : NoDup T) by (subst T; nd xs ys rs). assert (NC : NoDup C) by (subst C; nd xs ys rs).
  assert (NY : NoDup sy) by (nd xs ys rs). assert (NB : NoDup gb) by (nd xs ys rs).
  assert (Gen : forall K, (forall e, fits Dx e T -> K (map e T) = filter (meets C e) (box Dy C)) ->
    exists m', einloop x xs T sx Dx (act2 r y (map (lstride r rs) T) (map fy T) (map Dr gb) (map (lstride r rs) gb) (map Dy sy) (map (lstride y ys) sy) (map cr C) (map (lstride y ys) C) K) m = Ok m' /\
      result1 m m' x xs Dx (fun e => rsum (map (fun k => cmul (rsum (map (fun s => elem0 m r (bk0_r C e k s)) (box Dr gb))) (rsum (map (fun s => elem0 m y (bk0_y C e k s)) (box Dy sy)))) (filter (meets C e) (box Dy C))))).
  { intros K HK.
    destruct (kernel2 x r y xs T sx gb sy Dx Dr Dy (map (lstride r rs) T) (map fy T) (map (lstride r rs) gb) (map (lstride y ys) sy) (map cr C) (map (lstride y ys) C) K (bk0_r C) (bk0_y C) m) as (m' & E & P1 & P2 & P3);
      try assumption; try (rewrite map_length; reflexivity); try (rewrite Hdy, map_length; exact Hsy); try (rewrite Hdr, map_length; exact Hsr).
    - subst T. nd xs ys rs.
    - intro c. rewrite <- !isin_In. subst T. is_rw. cases4 xs ys rs c; tauto.
    - intros e k s He Hk Hs. rewrite HK in Hk by assumption. apply filter_In in Hk as [Hk Hm]. apply in_all_indices in Hk. split.
      + rewrite Hdr. apply fits_range. intros c Hc. apply isin_In in Hc. rewrite over_isin by (apply in_range_length in Hs; now rewrite map_length in Hs).
        pose proof (over_in_range Dr gb s c NB Hs) as Fs. pose proof (over_in_range Dy C k c NC Hk) as Fk. assert (Fe : isin T c = true -> 0 <= e c < Dx c) by (intro I; apply He; now apply isin_In).
        assert (Fm : cv c = true -> 0 <= e c - over zro C k c < Dr c).
        { intro I. unfold meets in Hm. rewrite forallb_forall in Hm. specialize (Hm c). rewrite <- is_gc in I. apply isin_In in I. specialize (Hm I). unfold g_of in Hm. lia. }
        revert Hc Fs Fk Fe Fm. unfold g_of. subst T C. is_rw. by_cases c.
      + apply dot_split; try assumption; try (apply in_range_length in Hk; now rewrite map_length in Hk); try (apply in_range_length in Hs; now rewrite map_length in Hs).
        intro c. match goal with |- _ = _ * over ?f ?a ?b ?d => rewrite (over_isin f a b d) by (apply in_range_length in Hs; now rewrite map_length in Hs) end. unfold g_of. subst T C cr. is_rw. by_cases c.
    - intros e k s He Hk Hs. rewrite HK in Hk by assumption. apply filter_In in Hk as [Hk Hm]. apply in_all_indices in Hk. split.
      + rewrite Hdy. apply fits_range. intros c Hc. apply isin_In in Hc. rewrite over_isin by (apply in_range_length in Hs; now rewrite map_length in Hs).
        pose proof (over_in_range Dy sy s c NY Hs) as Fs. pose proof (over_in_range Dy C k c NC Hk) as Fk. assert (Fe : isin T c = true -> 0 <= e c < Dx c) by (intro I; apply He; now apply isin_In).
        revert Hc Fs Fk Fe. unfold g_of. subst T C. is_rw. by_cases c.
      + apply dot_split; try assumption; try (apply in_range_length in Hk; now rewrite map_length in Hk); try (apply in_range_length in Hs; now rewrite map_length in Hs).
        intro c. match goal with |- _ = _ * over ?f ?a ?b ?d => rewrite (over_isin f a b d) by (apply in_range_length in Hs; now rewrite map_length in Hs) end. unfold g_of. subst T C fy. is_rw. by_cases c.
    - exists m'. split; [exact E|]. split; [|split; assumption]. intros e He. rewrite P1 by assumption. unfold val2. rewrite HK; [reflexivity|]. intros c Hc. apply He. apply isin_In in Hc. apply isin_In. subst T. is_rw_in Hc. cases4 xs ys rs c. }
  destruct (0 <? length gc)%nat eqn:Eg.
  - rewrite ein2_conv_loops_ok; try assumption; try (rewrite !map_length; reflexivity); try (subst T C; rewrite ?map_length, ?app_length; lia).
    apply Gen. intros e He. apply filter_ext_in. intros k Hk. apply in_all_indices in Hk. subst T C.
    rewrite (win_limits gc (gx ++ gk ++ gt) gy Dx Dy e k) by (try assumption; rewrite ?app_length; lia).
    unfold meets. apply forallb_ext_in. intros c Hc. pose proof (He c ltac:(apply in_app_iff; now left)) as Hec.
    apply isin_In in Hc. pose proof (over_in_range Dy (gc ++ gy) k c NC Hk ltac:(now rewrite isin_app, Hc)) as Hkc.
    rewrite is_gc in Hc. destruct (Hcv1 c Hc). unfold win, lim_lo, lim_hi, g_of. cbn [Z.eqb]. lia.
  - rewrite ein2_loops_ok; try assumption; try (rewrite !map_length; reflexivity); try (subst T C; rewrite ?map_length, ?app_length; lia).
    apply Gen. intros e He. symmetry. unfold meets. apply Nat.ltb_ge in Eg. destruct gc; [|cbn in Eg; lia]. cbn [forallb]. clear. induction (box Dy C) as [|a l IH]; [reflexivity|]. cbn [filter]. now rewrite IH.
Qed.
End Three.
