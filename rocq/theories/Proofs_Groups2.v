(* Proofs_Groups2.v -- index maps, sets of axes and views by groups of axes. *)
From Verif Require Import Base BaseFacts Model_Index Model_View Model_Tensor Model_Groups Spec_Index Spec_View Spec_Groups Proofs_Index Proofs_Tensor Proofs_Mask2 Proofs_Groups.
Local Open Scope Z_scope.

Lemma below_iff a l : below a l = true <-> 0 <= a < Z.of_nat (length l).
Proof. unfold below. lia. Qed.
Lemma zget_nth (l : list Z) a : 0 <= a < Z.of_nat (length l) -> zget l a = Ok (nth (Z.to_nat a) l 0).
Proof.
  intro H. unfold zget, vget. replace (a <? 0) with false by lia.
  rewrite (nth_error_nth' l 0) by lia. reflexivity.
Qed.
Lemma map_ndims_ok mp : map_ndims mp = Z.of_nat (length (concat mp)).
Proof.
  unfold map_ndims. assert (G : forall t, fold_left (fun t p => t + Z.of_nat (length p)) mp t = t + Z.of_nat (length (concat mp))); [|now rewrite G].
  induction mp as [|p mp IH]; intro t; cbn [fold_left concat]; [cbn; lia|]. rewrite IH, app_length. lia.
Qed.

(* Gdims::map on one group: all axes exist and have the same side *)
Definition same_side (d : list Z) (r : Z) (g : list Z) : Prop := g <> [] /\ Forall (fun a => 0 <= a < Z.of_nat (length d) /\ nth (Z.to_nat a) d 0 = r) g.
Lemma same_rest d r rest : let k := foldM (fun b (_ : unit) => assrt (below b d) (do y <- zget d b; assrt (y =? r) (Ok tt))) rest tt in
  (k = Ok tt /\ Forall (fun a => 0 <= a < Z.of_nat (length d) /\ nth (Z.to_nat a) d 0 = r) rest) \/
  (k = Throw /\ ~ Forall (fun a => 0 <= a < Z.of_nat (length d) /\ nth (Z.to_nat a) d 0 = r) rest).
Proof.
  cbv zeta. induction rest as [|b rest IH]; [left; now split; [|constructor]|]. cbn [foldM]. destruct (below b d) eqn:B; cbn [assrt bind].
  - apply below_iff in B. rewrite zget_nth by assumption. cbn [bind]. destruct (nth (Z.to_nat b) d 0 =? r) eqn:E; cbn [assrt bind].
    + destruct IH as [[E' F]|[E' F]]; [left|right]; (split; [assumption|]).
      * constructor; [|assumption]. split; [assumption|lia].
      * intro K. inversion K; subst. contradiction.
    + right. split; [reflexivity|]. intro K. inversion K; subst. lia.
  - right. split; [reflexivity|]. intro K. inversion K; subst. destruct H1 as [H1 _]. apply below_iff in H1. congruence.
Qed.
Lemma dims_map1_ok d g : (exists r, dims_map1 d g = Ok r /\ same_side d r g) \/ (dims_map1 d g = Throw /\ forall r, ~ same_side d r g).
Proof.
  destruct g as [|a rest]; [right; split; [reflexivity|]; intros r [N _]; congruence|]. unfold dims_map1. destruct (below a d) eqn:B; cbn [assrt].
  - apply below_iff in B. rewrite zget_nth by assumption. cbn [bind]. destruct (same_rest d (nth (Z.to_nat a) d 0) rest) as [[E F]|[E F]]; rewrite E; cbn [bind].
    + left. exists (nth (Z.to_nat a) d 0). split; [reflexivity|]. split; [discriminate|]. now constructor.
    + right. split; [reflexivity|]. intros r [_ K]. inversion K; subst. destruct H1 as [_ <-]. contradiction.
  - right. split; [reflexivity|]. intros r [_ K]. inversion K; subst. destruct H1 as [H1 _]. apply below_iff in H1. congruence.
Qed.
Lemma same_side_fun d r r' g : same_side d r g -> same_side d r' g -> r = r'.
Proof. intros [N F] [_ F']. destruct g as [|a g]; [congruence|]. inversion F; inversion F'; subst. destruct H1, H5. congruence. Qed.
Lemma dims_maps d mp : forall r0, (exists D, foldM (fun ix r => do x <- dims_map1 d ix; Ok (r ++ [x])) mp r0 = Ok (r0 ++ D) /\ Forall2 (same_side d) D mp) \/
  (foldM (fun ix r => do x <- dims_map1 d ix; Ok (r ++ [x])) mp r0 = Throw /\ forall D, ~ Forall2 (same_side d) D mp).
Proof.
  induction mp as [|g mp IH]; intro r0; [left; exists []; rewrite app_nil_r; now split; [|constructor]|]. cbn [foldM].
  destruct (dims_map1_ok d g) as [(r & E & S)|[E S]]; rewrite E; cbn [bind].
  - destruct (IH (r0 ++ [r])) as [(D & E' & F)|[E' F]]; rewrite E'; [left|right].
    + exists (r :: D). split; [now rewrite <- app_assoc|now constructor].
    + split; [reflexivity|]. intros D K. inversion K; subst. now apply (F l).
  - right. split; [reflexivity|]. intros D K. inversion K; subst. now apply (S x).
Qed.
Lemma strides_map1_ok s g : Forall (fun a => 0 <= a < Z.of_nat (length s)) g -> strides_map1 s g = Ok (zsum (comps s g)).
Proof.
  unfold strides_map1. intro F. assert (G : forall t, foldM (fun a t => assrt (below a s) (do x <- zget s a; Ok (t + x))) g t = Ok (t + zsum (comps s g))); [|now rewrite G].
  induction F as [|a g A F IH]; intro t; cbn [foldM comps map zsum fold_right]; [f_equal; lia|]. rewrite (proj2 (below_iff a s) A), zget_nth by assumption. cbn [assrt bind].
  rewrite IH. f_equal. unfold comps, zsum. lia.
Qed.
Lemma strides_maps s mp : Forall (Forall (fun a => 0 <= a < Z.of_nat (length s))) mp -> forall r0,
  foldM (fun ix r => do x <- strides_map1 s ix; Ok (r ++ [x])) mp r0 = Ok (r0 ++ map (fun g => zsum (comps s g)) mp).
Proof.
  induction 1 as [|g mp G F IH]; intro r0; cbn [foldM map]; [now rewrite app_nil_r|]. rewrite strides_map1_ok by assumption. cbn [bind]. rewrite IH, <- app_assoc. reflexivity.
Qed.
Lemma dot_const l c g : dot (comps l g) (map (fun _ => c) g) = zsum (comps l g) * c.
Proof. induction g as [|a g IH]; [reflexivity|]. cbn [comps map dot zsum fold_right]. unfold comps, zsum in IH. rewrite IH. ring. Qed.
Lemma dot_zsum {A} (f : A -> Z) (h : A -> Z) l : dot (map f l) (map h l) = zsum (map (fun a => f a * h a) l).
Proof. induction l as [|a l IH]; [reflexivity|]. cbn [map dot zsum fold_right]. now rewrite IH. Qed.

(* sets *)
Lemma mem_ax_iff i s : mem_ax i s = true <-> In i s.
Proof. unfold mem_ax. rewrite existsb_exists. split; [intros (x & H & E); apply Z.eqb_eq in E; now subst|intro H; exists i; split; [assumption|apply Z.eqb_refl]]. Qed.
Lemma contig_first a s : contig_from (a - 1) (a :: s) = false.
Proof. cbn [contig_from]. replace (a =? a - 1) with false by lia. reflexivity. Qed.
Lemma ax_last_run a n : 0 < n -> ax_last (axis_run a n) = Ok (a + n - 1).
Proof.
  intro N. unfold axis_run. assert (E : zrange n = zrange (n - 1) ++ [n - 1]) by (replace n with (n - 1 + 1) at 1 by lia; apply zrange_succ; lia).
  rewrite E, map_app. cbn [map]. replace (a + n - 1) with (a + (n - 1)) by lia. generalize (a + (n - 1)) as z. intro z.
  induction (map (Z.add a) (zrange (n - 1))) as [|y l IH]; [reflexivity|]. cbn [app ax_last]. destruct (l ++ [z]) eqn:K; [destruct l; discriminate|exact IH].
Qed.
Lemma unite_ok chk d g : Forall (fun a => 0 <= a < Z.of_nat (length d)) g -> dims_unite chk d g = Ok (prod (comps d g)).
Proof.
  unfold dims_unite. intro F. assert (G : forall t, foldM (fun p r => passert chk (below p d) (do x <- zget d p; Ok (r * x))) g t = Ok (t * prod (comps d g))); [|rewrite G; f_equal; lia].
  induction F as [|a g A F IH]; intro t; cbn [foldM comps map]; [rewrite prod_nil; f_equal; lia|]. unfold passert at 1. rewrite (proj2 (below_iff a d) A), zget_nth by assumption.
  assert (E : (if chk then assrt true (do x <- Ok (nth (Z.to_nat a) d 0); Ok (t * x)) else (do x <- Ok (nth (Z.to_nat a) d 0); Ok (t * x))) = Ok (t * nth (Z.to_nat a) d 0)) by (now destruct chk).
  rewrite E. cbn [bind]. rewrite IH, prod_cons. f_equal. unfold comps. ring.
Qed.
Lemma select_ok chk d g : Forall (fun a => 0 <= a < Z.of_nat (length d)) g -> dims_select chk d g = Ok (comps d g).
Proof.
  unfold dims_select. intro F. assert (G : forall t, foldM (fun p r => passert chk (below p d) (do x <- zget d p; Ok (r ++ [x]))) g t = Ok (t ++ comps d g)); [|now rewrite G].
  induction F as [|a g A F IH]; intro t; cbn [foldM comps map]; [now rewrite app_nil_r|]. unfold passert at 1. rewrite (proj2 (below_iff a d) A), zget_nth by assumption.
  assert (E : (if chk then assrt true (do x <- Ok (nth (Z.to_nat a) d 0); Ok (t ++ [x])) else (do x <- Ok (nth (Z.to_nat a) d 0); Ok (t ++ [x]))) = Ok (t ++ [nth (Z.to_nat a) d 0])) by (now destruct chk).
  rewrite E. cbn [bind]. rewrite IH, <- app_assoc. reflexivity.
Qed.

(* a run of axes of a row-major tensor *)
Lemma comps_app_l p q g : Forall (fun a => 0 <= a < Z.of_nat (length p)) g -> comps (p ++ q) g = comps p g.
Proof. intro F. unfold comps. apply map_ext_in. intros a Ha. rewrite Forall_forall in F. specialize (F a Ha). apply app_nth1. lia. Qed.
Lemma comps_run p q t : comps (p ++ q ++ t) (axis_run (Z.of_nat (length p)) (Z.of_nat (length q))) = q.
Proof.
  unfold axis_run, comps. rewrite map_map. transitivity (comps q (zrange (Z.of_nat (length q)))); [|apply comps_all]. unfold comps. apply map_ext_in. intros a Ha. apply in_zrange in Ha.
  rewrite app_nth2 by lia. replace (Z.to_nat (Z.of_nat (length p) + a) - length p)%nat with (Z.to_nat a) by lia. apply app_nth1. lia.
Qed.
Lemma split3 {A} (d : list A) a n : 0 <= a -> 0 <= n -> a + n <= Z.of_nat (length d) ->
  exists p q t, d = p ++ q ++ t /\ Z.of_nat (length p) = a /\ Z.of_nat (length q) = n.
Proof.
  intros A0 N0 H. exists (firstn (Z.to_nat a) d), (firstn (Z.to_nat n) (skipn (Z.to_nat a) d)), (skipn (Z.to_nat n) (skipn (Z.to_nat a) d)).
  rewrite firstn_skipn, firstn_skipn. split; [reflexivity|]. rewrite !firstn_length, skipn_length. lia.
Qed.
Lemma run_strides d a n : 0 <= a -> 0 < n -> a + n <= Z.of_nat (length d) ->
  comps (strides_of 1 d) (axis_run a n) = strides_of (nth (Z.to_nat (a + n - 1)) (strides_of 1 d) 0) (comps d (axis_run a n)).
Proof.
  intros A0 N0 H. destruct (split3 d a n A0 ltac:(lia) H) as (p & q & t & -> & <- & <-).
  destruct (strides_of_app 1 p (q ++ t)) as (sa & -> & La & _). destruct (strides_of_app 1 q t) as (sq & -> & Lq & Eq).
  rewrite comps_run. rewrite <- La, <- Lq at 1. rewrite comps_run. rewrite Eq at 1. f_equal.
  rewrite app_nth2 by lia. rewrite app_nth1 by lia. replace (Z.to_nat (Z.of_nat (length p) + Z.of_nat (length q) - 1) - length sa)%nat with (length q - 1)%nat by lia.
  rewrite Eq. symmetry. destruct q as [|d0 q]; [cbn in N0; lia|].
  clear. revert d0; induction q as [|d1 q IH]; intro d0; [cbn; reflexivity|].
  rewrite strides_of_cons. cbn [length]. replace (S (S (length q)) - 1)%nat with (S (length (d1 :: q) - 1)) by (cbn; lia). cbn [nth]. apply IH.
Qed.
Lemma run_offset d ix a n : 0 <= a -> 0 < n -> a + n <= Z.of_nat (length d) -> dot (comps (strides_of 1 d) (axis_run a n)) (comps ix (axis_run a n)) =
  nth (Z.to_nat (a + n - 1)) (strides_of 1 d) 0 * flat (comps ix (axis_run a n)) (comps d (axis_run a n)).
Proof. intros A0 N0 H. rewrite run_strides by assumption. rewrite dot_strides_of by (now rewrite !comps_length). reflexivity. Qed.
