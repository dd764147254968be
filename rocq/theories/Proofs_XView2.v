(* Proofs_XView2.v -- slices, fused axes and other views of an RtensorView *)
From Verif Require Import Base BaseFacts Model_Index Model_View Model_Tensor Model_Groups Model_Shape Model_XView Spec_Index Proofs_Axes Proofs_Index Proofs_View
  Spec_Shape Proofs_Shape Proofs_Shape2 Proofs_Shape3 Proofs_Shape4 Spec_XView Proofs_XView.
Local Open Scope Z_scope.

Lemma vremove_app {A} (p : list A) x r : vremove (zlen p) (p ++ x :: r) = Ok (p ++ r).
Proof.
  rewrite remove_ok by (rewrite app_length; cbn [length]; lia). rewrite Nat2Z.id, firstn_app, skipn_app, Nat.sub_diag, firstn_all, (skipn_all2 (n := S (length p))) by lia.
  replace (S (length p) - length p)%nat with 1%nat by lia. cbn [firstn skipn app]. now rewrite app_nil_r.
Qed.
(* ---- slices *)
Lemma slice_ok chk rc v p n r q s t i : vdims v = p ++ n :: r -> vstr v = q ++ s :: t -> length q = length p -> q ++ t <> [] -> (rc = true -> 0 <= i < n) ->
  exists w, xv_slice chk rc (zlen p) i v = Ok w /\ vblk w = vblk v /\ vdims w = p ++ r /\ vstr w = q ++ t /\
    forall ip ir, length ip = length p -> xcell w (ip ++ ir) = xcell v (ip ++ i :: ir) + i * (n - s).
Proof.
  intros D S L Ne H. unfold xv_slice. rewrite least_pass by (rewrite ?D, ?app_length; cbn [length]; lia). rewrite D. rewrite check1_pass by assumption. cbn [bind].
  rewrite zget_app. cbn [bind]. rewrite vremove_app. cbn [bind]. rewrite S, <- L, gs_remove_ok by assumption. cbn [bind]. eexists. split; [reflexivity|]. cbn [vblk vdims vstr]. repeat split; auto.
  intros ip ir E. unfold xcell. cbn [voff vstr]. rewrite S. rewrite (remove_place q s t ip i ir) by lia. lia.
Qed.
Lemma slice_one chk rc v n s i : vdims v = [n] -> vstr v = [s] -> (rc = true -> 0 <= i < n) -> xv_slice chk rc 0 i v = Ok (View (vblk v) (voff v + i * n) [] [1]).
Proof.
  intros D S H. unfold xv_slice. rewrite least_pass by (rewrite ?D; cbn [length]; lia). rewrite D. pose proof (check1_pass rc [] n [] i H) as K. cbn [app length Z.of_nat] in K. rewrite K. cbn [bind].
  replace (zget [n] 0) with (Ok n) by reflexivity. cbn [bind]. replace (vremove 0 [n]) with (Ok (@nil Z)) by reflexivity. cbn [bind]. rewrite S, gs_remove_one. reflexivity.
Qed.
Lemma slice_throw chk v p n r i : vdims v = p ++ n :: r -> ~ (0 <= i < n) -> xv_slice chk true (zlen p) i v = Throw.
Proof. intros D H. unfold xv_slice. rewrite least_pass by (rewrite ?D, ?app_length; cbn [length]; lia). rewrite D, check1_throw by assumption. reflexivity. Qed.
Lemma slice_few chk v k i : zlen (vdims v) <= k -> xv_slice chk true k i v = Throw.
Proof. intro H. unfold xv_slice, xv_least. cbn [andb]. now replace ((k + 1 <? 0) || (zlen (vdims v) <? k + 1)) with true by lia. Qed.
Lemma front_check rc : forall ix p q pi, (rc = true -> in_range ix (firstn (length ix) q)) -> (length ix <= length q)%nat -> length pi = length p ->
  foldM (fun j _ => do i <- zget (pi ++ ix) j; xv_check1 rc (p ++ q) j i) (map (Z.add (zlen p)) (zrange (zlen ix))) tt = Ok tt.
Proof.
  induction ix as [|i ix IH]; intros p q pi H L E; [reflexivity|]. destruct q as [|n q]; [cbn in L; lia|]. cbn [length]. rewrite zrange_cons by lia. cbn [map foldM]. rewrite Z.add_0_r.
  rewrite <- E at 1. rewrite zget_app. cbn [bind]. rewrite check1_pass by (intro T; specialize (H T); now inversion H). cbn [bind]. rewrite map_map. replace (Z.of_nat (S (length ix)) - 1) with (zlen ix) by lia.
  rewrite (map_ext _ (Z.add (zlen (p ++ [n])))) by (intro; rewrite app_length; cbn [length]; lia).
  specialize (IH (p ++ [n]) q (pi ++ [i])). rewrite <- !app_assoc in IH. cbn [app] in IH. apply IH; [intro T; specialize (H T); now inversion H|cbn in L; lia|rewrite !app_length; cbn; lia].
Qed.
Lemma slice_front_ok rc v ix p r q t : vdims v = p ++ r -> vstr v = q ++ t -> length p = length ix -> length q = length ix -> (rc = true -> in_range ix p) ->
  exists w, xv_slice_front rc ix v = Ok w /\ vblk w = vblk v /\ vdims w = r /\ vstr w = t /\
    forall ir, xcell w ir = xcell v (ix ++ ir) + (place p ix - place q ix).
Proof.
  intros D S Lp Lq H. unfold xv_slice_front. rewrite least_pass by (rewrite ?D, ?app_length; lia).
  pose proof (front_check rc ix [] (vdims v) []) as K. cbn [app length Z.of_nat] in K. rewrite (map_ext (Z.add 0) (fun i => i)), map_id in K by (intro; lia).
  rewrite K; [|intro T; rewrite D, firstn_app, <- Lp, Nat.sub_diag, firstn_all, app_nil_r; auto|rewrite D, app_length; lia|reflexivity]. cbn [bind]. rewrite D, S.
  assert (E : forZ (zlen ix) (fun j t0 => do i <- zget ix j; do n <- zget (p ++ r) j; Ok (t0 + i * n)) 0 = Ok (place p ix)).
  { pose proof (gi_dot_ok false ix (p ++ r)) as G. unfold gi_dot, passert in G. rewrite <- (place_app1 p r ix) by lia. apply G. rewrite app_length. lia. }
  rewrite E. cbn [bind].
  assert (F : vchunk (zlen ix) (-1) (p ++ r) = Ok r).
  { unfold vchunk. rewrite app_length. ifF. ifT. replace ((_ <? 0) || _ || _) with false by lia. f_equal. rewrite Nat2Z.id, <- Lp, skipn_app, Nat.sub_diag, skipn_all. cbn [skipn app]. rewrite firstn_all2 by lia. reflexivity. }
  rewrite F. cbn [bind]. rewrite <- Lq, gs_chunk_end. cbn [bind]. eexists. split; [reflexivity|]. cbn [vblk vdims vstr]. repeat split; auto.
  intro ir. unfold xcell. cbn [voff vstr]. rewrite S, place_app by lia. lia.
Qed.

(* ---- fusing two neighbouring axes *)
Lemma fuse_ok chk rc v p a b r q s t u : vdims v = p ++ a :: b :: r -> vstr v = q ++ s :: t :: u -> length q = length p ->
  let w := View (vblk v) (voff v) (p ++ a * b :: r) (q ++ t :: u) in
  xv_fuse chk rc (zlen p) v = Ok w /\ xv_fuse chk rc (- 2 - zlen r) v = Ok w /\ xv_fuse2 chk rc (zlen p) v = Ok w.
Proof.
  intros D S L w.
  assert (Ne : q ++ t :: u <> []) by (destruct q; discriminate).
  assert (A : xv_fuse chk rc (zlen p) v = Ok w).
  { unfold xv_fuse. replace (zlen p <? 0) with false by lia. rewrite least_pass by (rewrite ?D, ?app_length; cbn [length]; lia). rewrite D, vremove_app. cbn [bind]. rewrite zget_app. cbn [bind].
    replace (p ++ a :: b :: r) with ((p ++ [a]) ++ b :: r) by now rewrite <- app_assoc. replace (zlen p + 1) with (zlen (p ++ [a])) by (rewrite app_length; cbn [length]; lia). rewrite zget_app. cbn [bind].
    rewrite vset_app. cbn [bind]. rewrite S, <- L, gs_remove_ok by assumption. reflexivity. }
  split; [exact A|]. split.
  - rewrite <- A. unfold xv_fuse. replace (-2 - zlen r <? 0) with true by lia. replace (zlen p <? 0) with false by lia.
    replace (zlen (vdims v) + (-2 - zlen r)) with (zlen p) by (rewrite D, app_length; cbn [length]; lia). reflexivity.
  - unfold xv_fuse2. rewrite least_pass by (rewrite ?D, ?app_length; cbn [length]; lia). rewrite D.
    replace (p ++ a :: b :: r) with ((p ++ [a]) ++ b :: r) by now rewrite <- app_assoc. replace (zlen p + 1) with (zlen (p ++ [a])) by (rewrite app_length; cbn [length]; lia). rewrite vremove_app. cbn [bind].
    rewrite <- app_assoc. cbn [app]. rewrite zget_app. cbn [bind]. replace (p ++ a :: b :: r) with ((p ++ [a]) ++ b :: r) by now rewrite <- app_assoc. rewrite zget_app. cbn [bind].
    rewrite vset_app. cbn [bind]. rewrite S, <- L, gs_remove_ok by assumption. reflexivity.
Qed.
Lemma fuse_cell q s t u b ip x y ir : s = t * b -> length ip = length q -> place (q ++ t :: u) (ip ++ x * b + y :: ir) = place (q ++ s :: t :: u) (ip ++ x :: y :: ir).
Proof. intros -> L. rewrite !place_app by lia. rewrite !place_cons. ring. Qed.
Lemma fuse23_ok chk rc v a b c d r s0 s1 s2 s3 u : vdims v = a :: b :: c :: d :: r -> vstr v = s0 :: s1 :: s2 :: s3 :: u ->
  xv_fuse23 chk rc v = Ok (View (vblk v) (voff v) (a :: b :: c * b :: r) (s0 :: s1 :: s3 :: u)).
Proof.
  intros D S. unfold xv_fuse23. rewrite least_pass by (rewrite ?D; cbn [length]; lia). rewrite D.
  pose proof (vremove_app [a; b; c] d r) as E. cbn [length app Z.of_nat Pos.of_succ_nat Pos.succ] in E. rewrite E. cbn [bind].
  pose proof (zget_app [a; b] c r) as F. cbn [length app Z.of_nat Pos.of_succ_nat Pos.succ] in F. rewrite F. cbn [bind].
  pose proof (zget_app [a] b (c :: d :: r)) as G. cbn [length app Z.of_nat Pos.of_succ_nat Pos.succ] in G. rewrite G. cbn [bind].
  pose proof (vset_app [a; b] (c * b) c r) as K. cbn [length app Z.of_nat Pos.of_succ_nat Pos.succ] in K. rewrite K. cbn [bind]. rewrite S.
  pose proof (gs_remove_ok chk [s0; s1] s2 (s3 :: u) ltac:(discriminate)) as M. cbn [length app Z.of_nat Pos.of_succ_nat Pos.succ] in M. rewrite M. reflexivity.
Qed.
Lemma fuse_front_ok chk rc v p a b q x s t : vdims v = p ++ [a; b] -> vstr v = q ++ [x; s; t] -> length p = S (length q) ->
  xv_fuse_front chk rc v = Ok (View (vblk v) (voff v) [prod p; a; b] [x; s; t]).
Proof.
  intros D S L. unfold xv_fuse_front. rewrite least_pass by (rewrite ?D, ?app_length; cbn [length]; lia). rewrite D, S. replace (zlen (p ++ [a; b]) - 2) with (zlen p) by (rewrite app_length; cbn [length]; lia).
  replace (dims_fuse 0 (zlen p) (p ++ [a; b])) with (Ok [prod p; a; b]).
  2: { unfold dims_fuse. rewrite app_length. cbn [length]. replace ((0 <? 0) || _ || _) with false by lia. cbn [Z.to_nat firstn skipn app]. rewrite Z.add_0_l, Nat2Z.id, firstn_app, skipn_app, Nat.sub_diag, firstn_all, skipn_all. cbn [firstn skipn app].
       now rewrite app_nil_r, asize_prod. }
  pose proof (gs_fuse_ok [] q x [s; t]) as E. cbn [app length Z.of_nat] in E. rewrite app_length in E. cbn [length] in E. replace (Z.of_nat (length q + 1)) with (zlen p) in E by lia. rewrite <- app_assoc in E. cbn [app] in E. rewrite E.
  unfold passert. replace (0 <=? zlen p) with true by lia. cbn [bind]. destruct chk; reflexivity.
Qed.
Lemma fuse_front_cell q x s t p ip j k : run (q ++ [x]) p -> in_range ip p -> place [x; s; t] [flat ip p; j; k] = place (q ++ [x; s; t]) (ip ++ [j; k]).
Proof.
  intros H I. pose proof (fuse_place [] q x [s; t] p [] ip [j; k] H eq_refl I) as E. cbn [app] in E. rewrite <- app_assoc in E. exact E.
Qed.

(* ---- matricize *)
Lemma prod_loop l : forall p t, forZ (zlen l) (fun i t => do d <- zget (p ++ l) (zlen p + i); Ok (t * d)) t = Ok (t * prod l).
Proof.
  induction l as [|a l IH]; intros p t; [change (prod []) with 1; rewrite Z.mul_1_r; reflexivity|]. unfold forZ. cbn [length]. rewrite zrange_cons by lia. cbn [foldM]. rewrite Z.add_0_r, zget_app. cbn [bind]. rewrite foldM_map.
  replace (Z.of_nat (S (length l)) - 1) with (zlen l) by lia. specialize (IH (p ++ [a]) (t * a)). rewrite <- app_assoc in IH. cbn [app] in IH. unfold forZ in IH. rewrite prod_cons.
  replace (t * (a * prod l)) with (t * a * prod l) by ring. rewrite <- IH. apply foldM_ext. intros i s _. rewrite app_length. cbn [length]. replace (Z.of_nat (length p + 1) + i) with (zlen p + Z.succ i) by lia. reflexivity.
Qed.
Lemma matricize_ok rc v p r q x u : vdims v = p ++ r -> vstr v = q ++ x :: u -> length p = S (length q) -> (rc = true -> r <> []) ->
  xv_matricize rc (zlen p) v = Ok (View (vblk v) (voff v) [prod p; prod r] [x; 1]).
Proof.
  intros D S L H. unfold xv_matricize. rewrite least_pass; [|lia|rewrite D, app_length; intro T; destruct r; [now destruct (H T)|cbn [length]; lia]]. rewrite D, S.
  assert (A : forZ (zlen p) (fun i t => do d <- zget (p ++ r) i; Ok (t * d)) 1 = Ok (prod p)).
  { replace (prod p) with (1 * prod p) by lia. rewrite <- (prod_loop p [] 1). cbn [app length Z.of_nat]. unfold forZ. apply foldM_ext. intros i s I. apply in_zrange in I.
    rewrite Z.add_0_l. unfold zget, vget. destruct (i <? 0); [reflexivity|]. rewrite nth_error_app1 by lia. reflexivity. }
  rewrite A. cbn [bind]. replace (zlen p <? 0) with false by lia. replace (zlen (p ++ r) - zlen p) with (zlen r) by (rewrite app_length; lia). rewrite prod_loop. cbn [bind].
  replace (zlen p - 1) with (zlen q) by lia. rewrite zget_app. cbn [bind]. now rewrite Z.mul_1_l.
Qed.
Lemma matricize_cell q x u p r ip ir : run (q ++ [x]) p -> u = strides_of 1 r -> in_range ip p -> in_range ir r ->
  place [x; 1] [flat ip p; flat ir r] = place (q ++ x :: u) (ip ++ ir).
Proof.
  intros H -> I J. pose proof (fuse_place [] q x (strides_of 1 r) p [] ip ir H eq_refl I) as E. cbn [app] in E. rewrite <- app_assoc in E. cbn [app] in E. rewrite <- E.
  rewrite !place_cons, <- (dot_place (strides_of 1 r)), dot_strides_of by (now apply in_range_length). cbn [place combine map fold_right]. unfold place. cbn. ring.
Qed.
Lemma matricize_zero rc v : vdims v <> [] -> xv_matricize rc 0 v = UB.
Proof.
  intro N. unfold xv_matricize. rewrite least_pass by (destruct (vdims v); [easy|cbn [length]; lia]). replace (forZ 0 _ 1) with (@Ok Z 1) by reflexivity. cbn [bind]. change (0 <? 0) with false.
  rewrite Z.sub_0_r. pose proof (prod_loop (vdims v) [] 1) as E. cbn [app length Z.of_nat] in E. rewrite E. reflexivity.
Qed.

(* ---- other views *)
Lemma take_all (l : list Z) : copy_in (zlen l) l 0 0 (repeat 0 (Z.to_nat (zlen l))) = Ok l.
Proof. rewrite Nat2Z.id. rewrite (copy_in_gen _ l _ _ _ [] l [] [] (repeat 0 (length l)) []); auto; rewrite ?app_nil_r, ?repeat_length; auto. Qed.
Lemma view_ok rc v : length (vstr v) = length (vdims v) -> xv_view rc (zlen (vdims v)) v = Ok v.
Proof. intro L. unfold xv_view, xv_is. rewrite Z.eqb_refl, andb_false_r, take_all. cbn [bind]. rewrite <- L, take_all. cbn [bind]. now destruct v. Qed.
Lemma view_throw k v : zlen (vdims v) <> k -> xv_view true k v = Throw.
Proof. intro H. unfold xv_view, xv_is. now replace (zlen (vdims v) =? k) with false by lia. Qed.
Lemma flatten_ok rc v q x p : vdims v = p -> vstr v = q ++ [x] -> (rc = true -> length p = 1%nat) -> xv_flatten rc v = Ok (View (vblk v) (voff v) [prod p] [x]).
Proof.
  intros D S H. unfold xv_flatten, xv_is. rewrite D. replace (rc && _) with false by (destruct rc; [rewrite (H eq_refl); reflexivity|reflexivity]). rewrite S. pose proof (at_back_ok q x []) as E. cbn [length Z.of_nat] in E. rewrite E. cbn [bind].
  now rewrite asize_prod.
Qed.
Lemma flatten_throw v : length (vdims v) <> 1%nat -> xv_flatten true v = Throw.
Proof. intro H. unfold xv_flatten, xv_is. now replace (zlen (vdims v) =? 1) with false by lia. Qed.
