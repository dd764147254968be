(* Proofs_Einsum7.v -- the loop nest of two-operand einsum. *)
From Verif Require Import Base BaseFacts Model_Index Model_View Model_Tensor Model_Einsum Spec_Index Spec_View Spec_Tensor Spec_Einsum
  Proofs_Index Proofs_View Proofs_Tensor Accum Proofs_Einsum Proofs_Einsum2 Proofs_Einsum3 Proofs_Einsum4 Proofs_Einsum5.
Local Open Scope Z_scope.

Lemma forR_0 {S} n (f : Z -> S -> res S) s : forR 0 n f s = forZ n f s.
Proof. unfold forR. rewrite Z.sub_0_r. unfold forZ. apply foldM_ext. intros i s' _. reflexivity. Qed.
Lemma zrange_window lo hi n : 0 <= lo -> hi <= n -> map (Z.add lo) (zrange (hi - lo)) = filter (fun i => (lo <=? i) && (i <? hi)) (zrange n).
Proof.
  intros H1 H2. destruct (Z_le_gt_dec lo hi) as [H3|H3].
  2:{ replace (zrange (hi - lo)) with (@nil Z) by (unfold zrange; replace (Z.to_nat (hi - lo)) with 0%nat by lia; reflexivity). cbn.
      symmetry. induction (zrange n) as [|i l IH]; [reflexivity|]. cbn. destruct ((lo <=? i) && (i <? hi)) eqn:E; [lia|exact IH]. }
  assert (F : forall (p : Z -> bool) l, (forall i, In i l -> p i = true) -> filter p l = l).
  { intros p l H. induction l as [|i l IH]; [reflexivity|]. cbn. rewrite H by now left. now rewrite IH by (intros; apply H; now right). }
  assert (G : forall (p : Z -> bool) l, (forall i, In i l -> p i = false) -> filter p l = []).
  { intros p l H. induction l as [|i l IH]; [reflexivity|]. cbn. rewrite H by now left. now rewrite IH by (intros; apply H; now right). }
  assert (P : forall a b, 0 <= a -> 0 <= b -> zrange (a + b) = zrange a ++ map (Z.add a) (zrange b)).
  { intros a b Ha Hb. unfold zrange. rewrite Z2Nat.inj_add, seq_app, map_app by lia. f_equal. cbn. rewrite map_map.
    rewrite <- (Nat.add_0_r (Z.to_nat a)) at 1. generalize 0%nat. induction (Z.to_nat b) as [|k IH]; intro q; [reflexivity|]. cbn. f_equal; [lia|]. rewrite <- IH. f_equal. f_equal. lia. }
  replace n with (lo + ((hi - lo) + (n - hi))) by lia. rewrite !P by lia. rewrite map_app, !filter_app.
  rewrite (G _ (zrange lo)) by (intros i Hi; apply in_zrange in Hi; lia). cbn [app].
  rewrite (F _ (map (Z.add lo) (zrange (hi - lo)))) by (intros i Hi; apply in_map_iff in Hi as (j & <- & Hj); apply in_zrange in Hj; lia).
  rewrite (G _ (map (Z.add lo) (map _ _))); [now rewrite app_nil_r|]. intros i Hi. rewrite map_map in Hi. apply in_map_iff in Hi as (j & <- & Hj). apply in_zrange in Hj. lia.
Qed.
Definition win (lo hi : Z) (i : Z) : bool := (lo <=? i) && (i <? hi).
Lemma forR_window {S} lo hi n (f : Z -> S -> res S) s : 0 <= lo -> hi <= n -> forR lo hi f s = foldM (fun i s => if win lo hi i then f i s else Ok s) (zrange n) s.
Proof.
  intros H1 H2. unfold forR, forZ. rewrite <- (foldM_map (Z.add lo) f). rewrite (zrange_window lo hi n) by assumption.
  generalize (zrange n). intro l. revert s. induction l as [|i l IH]; intro s; [reflexivity|]. cbn [filter foldM]. fold (win lo hi i). destruct (win lo hi i); cbn [foldM bind]; [|apply IH].
  destruct (f i s); cbn; [apply IH|reflexivity..].
Qed.
Lemma foldM_filter {S A} (p : A -> bool) (f : A -> S -> res S) l : forall s, foldM f (filter p l) s = foldM (fun a s => if p a then f a s else Ok s) l s.
Proof. induction l as [|a l IH]; intro s; [reflexivity|]. cbn. destruct (p a); cbn; [|apply IH]. destruct (f a s); cbn; auto. Qed.
Lemma foldM_skip {S A} l (s : S) : foldM (fun (_ : A) s => Ok s) l s = Ok s.
Proof. induction l; cbn; auto. Qed.
(* the contraction loops with windows *)
Definition in_win3 (lo hi k : list Z) : bool :=
  win (at0 lo) (at0 hi) (nth 0 k 0) && (win (at1 lo) (at1 hi) (nth 1 k 0) && win (at2 lo) (at2 hi) (nth 2 k 0)).
Lemma nestR {S} (g : Z -> Z -> Z -> S -> res S) cd lo hi s : (length cd <= 3)%nat ->
  0 <= at0 lo -> 0 <= at1 lo -> 0 <= at2 lo -> at0 hi <= at0 (pad 1 cd) -> at1 hi <= at1 (pad 1 cd) -> at2 hi <= at2 (pad 1 cd) ->
  forR (at0 lo) (at0 hi) (fun i0 s => forR (at1 lo) (at1 hi) (fun i1 s => forR (at2 lo) (at2 hi) (fun i2 s => g i0 i1 i2 s) s) s) s =
  foldM (fun k => g (nth 0 k 0) (nth 1 k 0) (nth 2 k 0)) (filter (in_win3 lo hi) (all_indices cd)) s.
Proof.
  intros H L0 L1 L2 U0 U1 U2. rewrite foldM_filter. unfold in_win3.
  rewrite <- (nest3 (fun i0 i1 i2 s => if win (at0 lo) (at0 hi) i0 && (win (at1 lo) (at1 hi) i1 && win (at2 lo) (at2 hi) i2) then g i0 i1 i2 s else Ok s) cd s H).
  rewrite (forR_window _ _ (at0 (pad 1 cd))) by assumption. unfold forZ at 1. apply foldM_ext. intros i0 s0 _.
  destruct (win (at0 lo) (at0 hi) i0); cbn [andb].
  - rewrite (forR_window _ _ (at1 (pad 1 cd))) by assumption. unfold forZ at 1. apply foldM_ext. intros i1 s1 _.
    destruct (win (at1 lo) (at1 hi) i1); cbn [andb].
    + rewrite (forR_window _ _ (at2 (pad 1 cd))) by assumption. reflexivity.
    + symmetry. unfold forZ. apply foldM_skip.
  - symmetry. unfold forZ. rewrite (foldM_ext _ (fun _ s => Ok s)); [apply foldM_skip|]. intros. apply foldM_skip.
Qed.

Section Two.
Context {R : cring}.
Add Ring RrEin7 : (cth R).
Notation memR := (mem (car R)).
Definition act2 (x y : view) (tx ty sxd sxs syd sys cx cy : list Z) (K : list Z -> list (list Z)) (t : list Z) (m : memR) : res R :=
  foldM (fun k a => do u <- sum3 x (dot tx t + dot cx k) (pad 1 sxd) (pad 0 sxs) m; do v <- sum3 y (dot ty t + dot cy k) (pad 1 syd) (pad 0 sys) m; Ok (cadd a (cmul u v))) (K t) c0.
Lemma body_ok (r x y : view) rs B D td tx ty tr sxd sxs syd sys cd cx cy lim xt yt rt lo hi (m : memR) :
  (length B <= 3)%nat -> (length cd <= 3)%nat -> length cx = length cd -> length cy = length cd ->
  0 <= at0 lo -> 0 <= at1 lo -> 0 <= at2 lo -> at0 hi <= at0 (pad 1 cd) -> at1 hi <= at1 (pad 1 cd) -> at2 hi <= at2 (pad 1 cd) ->
  ein2_body (Par2 td tx ty tr (pad 1 sxd) (pad 0 sxs) (pad 1 syd) (pad 0 sys) (pad 1 cd) (pad 0 cx) (pad 0 cy) (pad 1 (map D B)) (pad 0 (map (lstride r rs) B)) lim) r x y xt yt rt lo hi m =
  do v <- foldM (fun k a => do u <- sum3 x (xt + dot cx k) (pad 1 sxd) (pad 0 sxs) m; do v <- sum3 y (yt + dot cy k) (pad 1 syd) (pad 0 sys) m; Ok (cadd a (cmul u v)))
            (filter (in_win3 lo hi) (all_indices cd)) c0;
  foldM (fun b m => incA (vblk r, voff r + (rt + dot (cs r rs B) b)) v m) (all_indices (map D B)) m.
Proof.
  intros HB HC Lx Ly A0 A1 A2 U0 U1 U2. unfold ein2_body. cbn [p2_td p2_tx p2_ty p2_tr p2_xd p2_xs p2_yd p2_ys p2_cd p2_cx p2_cy p2_bd p2_bs p2_lim].
  rewrite (nestR (fun c0 c1 c2 t => do u <- sum3 x (xt + c0 * at0 (pad 0 cx) + c1 * at1 (pad 0 cx) + c2 * at2 (pad 0 cx)) (pad 1 sxd) (pad 0 sxs) m;
     do v <- sum3 y (yt + c0 * at0 (pad 0 cy) + c1 * at1 (pad 0 cy) + c2 * at2 (pad 0 cy)) (pad 1 syd) (pad 0 sys) m; Ok (cadd t (cmul u v))) cd lo hi) by assumption.
  match goal with |- bind ?a _ = bind ?b _ => replace a with b end.
  - destruct (foldM _ _ c0) as [v| |]; cbn [bind]; [|reflexivity..]. apply bcast3_ok; unfold cs; rewrite !map_length; auto.
  - apply foldM_ext. intros k a Hk. apply filter_In in Hk as [Hk _]. apply in_all_indices, in_range_length in Hk.
    rewrite <- (dot3_pad cx k), <- (dot3_pad cy k) by lia. rewrite !Z.add_assoc. reflexivity.
Qed.
Lemma ein2_loops_ok (r x y : view) rs T B D (fx fy : ascii -> Z) sxd sxs syd sys cd cx cy lim (m : memR) :
  (length T <= 4)%nat -> (length B <= 3)%nat -> (length cd <= 3)%nat -> length cx = length cd -> length cy = length cd ->
  fourth T fx (lstride r rs) -> fourth T fy fx ->
  ein2_loops (Par2 (pad 1 (map D T)) (pad 0 (map fx T)) (pad 0 (map fy T)) (pad 0 (map (lstride r rs) T)) (pad 1 sxd) (pad 0 sxs) (pad 1 syd) (pad 0 sys)
     (pad 1 cd) (pad 0 cx) (pad 0 cy) (pad 1 (map D B)) (pad 0 (map (lstride r rs) B)) lim) r x y m =
  einloop r rs T B D (act2 x y (map fx T) (map fy T) sxd sxs syd sys cx cy (fun _ => all_indices cd)) m.
Proof.
  intros HT HB HC Lx Ly F1 F2. unfold ein2_loops, einloop. cbn [p2_td p2_tx p2_ty p2_tr p2_xd p2_xs p2_yd p2_ys p2_cd p2_cx p2_cy p2_bd p2_bs p2_lim].
  rewrite nest4 by now rewrite map_length. apply foldM_ext. intros t m' Ht. apply in_all_indices, in_range_length in Ht. rewrite map_length in Ht.
  rewrite body_ok; try assumption; try (cbn; lia); try (apply Z.le_refl).
  rewrite (dot4_pad (map fx T) t) by (rewrite map_length; auto). rewrite <- (at3_eq T fy fx F2), (dot4_pad (map fy T) t) by (rewrite map_length; auto).
  rewrite (at3_eq T fy fx F2), (at3_eq T fx (lstride r rs) F1), (dot4_pad (map (lstride r rs) T) t) by (rewrite map_length; auto).
  unfold act2. replace (filter (in_win3 [0; 0; 0] (pad 1 cd)) (all_indices cd)) with (all_indices cd); [reflexivity|].
  symmetry. assert (G : forall (p : list Z -> bool) l, (forall i, In i l -> p i = true) -> filter p l = l).
  { intros p l H. induction l as [|i l IH]; [reflexivity|]. cbn. rewrite H by now left. now rewrite IH by (intros; apply H; now right). }
  apply G. intros k Hk. apply in_all_indices in Hk. unfold in_win3, win, at0, at1, at2. rewrite !nth_pad_dim by lia.
  destruct cd as [|a [|b [|c [|? ?]]]]; cbn in HC; try lia; repeat (apply Forall2_cons_iff in Hk || (inversion Hk; subst; clear Hk)); cbn [nth]; try lia;
  repeat match goal with H : Forall2 _ _ _ |- _ => inversion H; subst; clear H end; cbn [nth]; lia.
Qed.
Definition val2 (m : memR) (x y : view) (T Sx Sy : list ascii) (Dx Dy : ascii -> Z) (K : list Z -> list (list Z)) (fx fy : (ascii -> Z) -> list Z -> list Z -> list Z) (e : ascii -> Z) : R :=
  rsum (map (fun k => cmul (rsum (map (fun s => elem0 m x (fx e k s)) (all_indices (map Dx Sx)))) (rsum (map (fun s => elem0 m y (fy e k s)) (all_indices (map Dy Sy))))) (K (map e T))).
Lemma kernel2 (r x y : view) (rs T B Sx Sy : list ascii) (D Dx Dy : ascii -> Z) (tx ty : list Z) sxs sys cx cy K fx fy (m : memR) :
  vdims r = map D rs -> length (vstr r) = length rs -> length (vstr x) = length (vdims x) -> length (vstr y) = length (vdims y) ->
  NoDup (T ++ B) -> (forall c, In c (T ++ B) <-> In c rs) -> (length Sx <= 3)%nat -> (length Sy <= 3)%nat -> length sxs = length Sx -> length sys = length Sy ->
  readable m r -> distinct_cells r -> readable m x -> readable m y -> disjoint_views r x -> disjoint_views r y ->
  (forall e k s, fits D e T -> In k (K (map e T)) -> in_range s (map Dx Sx) ->
     in_range (fx e k s) (vdims x) /\ dot tx (map e T) + dot cx k + dot sxs s = dot (vstr x) (fx e k s)) ->
  (forall e k s, fits D e T -> In k (K (map e T)) -> in_range s (map Dy Sy) ->
     in_range (fy e k s) (vdims y) /\ dot ty (map e T) + dot cy k + dot sys s = dot (vstr y) (fy e k s)) ->
  exists m', einloop r rs T B D (act2 x y tx ty (map Dx Sx) sxs (map Dy Sy) sys cx cy K) m = Ok m' /\
    result1 m m' r rs D (val2 m x y T Sx Sy Dx Dy K fx fy).
Proof.
  intros Hdr Hsr Lx Ly N1 H1 HSx HSy Ex Ey Rr Dr Rx Ry Disx Disy Cx Cy. apply ein_core; try assumption.
  assert (Lr : length (vstr r) = length (vdims r)) by (rewrite Hdr, map_length; exact Hsr).
  intros e m' He Ag. unfold act2, val2.
  rewrite (foldM_ext _ (fun k a => do w <- (do u <- sum3 x (dot tx (map e T) + dot cx k) (pad 1 (map Dx Sx)) (pad 0 sxs) m'; do v <- sum3 y (dot ty (map e T) + dot cy k) (pad 1 (map Dy Sy)) (pad 0 sys) m'; Ok (cmul u v)); Ok (cadd a w))).
  2:{ intros k a _. destruct (sum3 x _ _ _ _); cbn [bind]; [|reflexivity..]. destruct (sum3 y _ _ _ _); reflexivity. }
  rewrite (sum_loop _ (fun k => cmul (rsum (map (fun s => elem0 m x (fx e k s)) (all_indices (map Dx Sx)))) (rsum (map (fun s => elem0 m y (fy e k s)) (all_indices (map Dy Sy)))))).
  - f_equal. ring.
  - intros k Hk. rewrite (sum3_ok x _ _ _ m' (fun s => elem0 m x (fx e k s))); [|now rewrite map_length|now rewrite map_length|].
    + cbn [bind]. rewrite (sum3_ok y _ _ _ m' (fun s => elem0 m y (fy e k s))); [reflexivity|now rewrite map_length|now rewrite map_length|].
      intros s Hs. apply in_all_indices in Hs. destruct (Cy e k s He Hk Hs) as [Hr Ha]. rewrite Ha. change (vblk y, voff y + dot (vstr y) (fy e k s)) with (cell y (fy e k s)).
      rewrite (disjoint_off r y m m') by assumption. now apply read_some.
    + intros s Hs. apply in_all_indices in Hs. destruct (Cx e k s He Hk Hs) as [Hr Ha]. rewrite Ha. change (vblk x, voff x + dot (vstr x) (fx e k s)) with (cell x (fx e k s)).
      rewrite (disjoint_off r x m m') by assumption. now apply read_some.
Qed.

End Two.
