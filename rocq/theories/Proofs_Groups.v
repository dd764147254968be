(* Proofs_Groups.v -- picking components, splitting axes into groups. *)
From Verif Require Import Base BaseFacts Model_Index Model_View Model_Tensor Model_Groups Spec_Index Spec_View Spec_Groups Proofs_Index Proofs_Tensor Proofs_Mask2.
Local Open Scope Z_scope.

Definition zsum (l : list Z) : Z := fold_right Z.add 0 l.
Lemma zsum_app a b : zsum (a ++ b) = zsum a + zsum b.
Proof. induction a as [|x a IH]; [reflexivity|]. cbn [app zsum fold_right]. unfold zsum in IH. rewrite IH. unfold zsum. lia. Qed.
Lemma zsum_perm a b : Permutation a b -> zsum a = zsum b.
Proof. unfold zsum. induction 1; cbn [fold_right]; lia. Qed.

Lemma comps_length l g : length (comps l g) = length g.
Proof. apply map_length. Qed.
Lemma comps_all l : comps l (zrange (Z.of_nat (length l))) = l.
Proof.
  unfold comps, zrange. rewrite Nat2Z.id, map_map. rewrite (map_ext _ (fun k => nth k l 0)) by (intro; now rewrite Nat2Z.id).
  induction l as [|x l IH]; [reflexivity|]. cbn [length seq map nth]. f_equal. rewrite <- seq_shift, map_map. exact IH.
Qed.
Lemma dot_comps g s ix : dot (comps s g) (comps ix g) = zsum (map (fun a => nth (Z.to_nat a) s 0 * nth (Z.to_nat a) ix 0) g).
Proof. induction g as [|a g IH]; [reflexivity|]. cbn [comps map dot zsum fold_right]. unfold comps, zsum in IH. now rewrite IH. Qed.
Lemma concat_map_sum (f : Z -> Z) gs : zsum (map f (concat gs)) = zsum (map (fun g => zsum (map f g)) gs).
Proof. induction gs as [|g gs IH]; [reflexivity|]. cbn [concat map]. rewrite map_app, zsum_app, IH. reflexivity. Qed.
Lemma dot_groups gs s ix : splits gs (Z.of_nat (length s)) -> length ix = length s -> dot s ix = zsum (map (fun g => dot (comps s g) (comps ix g)) gs).
Proof.
  intros P L. rewrite <- (comps_all s) at 1. rewrite <- (comps_all ix) at 1. rewrite L. rewrite dot_comps.
  rewrite <- (zsum_perm _ _ (Permutation_map _ P)). rewrite concat_map_sum. f_equal. apply map_ext. intro g. now rewrite dot_comps.
Qed.

Fixpoint look (a : Z) (ks vs : list Z) : Z := match ks, vs with k :: ks', v :: vs' => if a =? k then v else look a ks' vs' | _, _ => 0 end.
Lemma look_map ks vs : NoDup ks -> length vs = length ks -> map (fun a => look a ks vs) ks = vs.
Proof.
  revert vs; induction ks as [|k ks IH]; intros [|v vs] N L; cbn in L; try lia; [reflexivity|]. inversion N; subst.
  cbn [map look]. rewrite Z.eqb_refl. f_equal. transitivity (map (fun a => look a ks vs) ks); [|apply IH; [assumption|lia]].
  apply map_ext_in. intros a Ha. destruct (a =? k) eqn:E; [|reflexivity]. apply Z.eqb_eq in E; subst. contradiction.
Qed.
Lemma nth_map_zrange (f : Z -> Z) k a : 0 <= a < k -> nth (Z.to_nat a) (map f (zrange k)) 0 = f a.
Proof.
  intro H. unfold zrange. rewrite map_map.
  erewrite nth_indep; [rewrite (map_nth (fun x => f (Z.of_nat x)) _ 0%nat)|]; [rewrite seq_nth by lia; f_equal; lia|rewrite map_length, seq_length; lia].
Qed.
Lemma fill_exists ks vs k : Permutation ks (zrange k) -> length vs = length ks -> exists ix, length ix = Z.to_nat k /\ comps ix ks = vs.
Proof.
  intros P L. exists (map (fun a => look a ks vs) (zrange k)). split; [unfold zrange; now rewrite !map_length, seq_length|].
  assert (N : NoDup ks) by (apply (Permutation_NoDup (Permutation_sym P)), zrange_nodup).
  transitivity (map (fun a => look a ks vs) ks); [|now apply look_map]. unfold comps. apply map_ext_in. intros a Ha.
  apply (nth_map_zrange (fun a => look a ks vs)). apply in_zrange. now apply (Permutation_in _ P).
Qed.

Lemma Forall2_map2 {A} (P : Z -> Z -> Prop) (f h : A -> Z) l : Forall2 P (map f l) (map h l) <-> forall a, In a l -> P (f a) (h a).
Proof.
  induction l as [|x l IH]; cbn [map]; split; intro H.
  - intros a [].
  - constructor.
  - inversion H; subst. intros a [<-|Ha]; [assumption|]. now apply IH.
  - constructor; [apply H; now left|]. apply IH. intros a Ha. apply H. now right.
Qed.
Lemma in_range_nth ix d : in_range ix d <-> length ix = length d /\ forall a, 0 <= a < Z.of_nat (length d) -> 0 <= nth (Z.to_nat a) ix 0 < nth (Z.to_nat a) d 0.
Proof.
  split.
  - intro H. assert (L := in_range_length _ _ H). split; [assumption|]. intros a Ha. rewrite <- (comps_all d), <- (comps_all ix), L in H.
    unfold in_range, comps in H. rewrite Forall2_map2 in H. apply H. now apply in_zrange.
  - intros [L H]. rewrite <- (comps_all d), <- (comps_all ix), L. unfold in_range, comps. apply Forall2_map2. intros a Ha. apply H. now apply in_zrange.
Qed.
Lemma comps_range ix d g : in_range ix d -> Forall (fun a => 0 <= a < Z.of_nat (length d)) g -> in_range (comps ix g) (comps d g).
Proof. intros H G. apply in_range_nth in H as [L H]. unfold in_range, comps. apply Forall2_map2. intros a Ha. apply H. rewrite Forall_forall in G. now apply G. Qed.
Lemma range_comps ix d ks : Permutation ks (zrange (Z.of_nat (length d))) -> length ix = length d -> in_range (comps ix ks) (comps d ks) -> in_range ix d.
Proof.
  intros P L H. apply in_range_nth. split; [assumption|]. intros a Ha. unfold in_range, comps in H. rewrite Forall2_map2 in H. apply H.
  apply (Permutation_in _ (Permutation_sym P)). now apply in_zrange.
Qed.
Lemma comps_inj ix jx ks k : Permutation ks (zrange k) -> length ix = Z.to_nat k -> length jx = Z.to_nat k -> comps ix ks = comps jx ks -> ix = jx.
Proof.
  intros P L1 L2 E. destruct (Z.leb_spec 0 k); [|replace (Z.to_nat k) with 0%nat in * by lia; destruct ix, jx; cbn in L1, L2; congruence || lia].
  rewrite <- (comps_all ix), <- (comps_all jx), L1, L2, Z2Nat.id by lia.
  apply map_ext_in. intros a Ha. apply (Permutation_in _ (Permutation_sym P)) in Ha. clear -E Ha. induction ks as [|x ks IH]; [destruct Ha|].
  cbn [comps map] in E. injection E as E1 E2. destruct Ha as [<-|Ha]; [assumption|]. now apply IH.
Qed.
Lemma splits_bounds gs k g : splits gs k -> In g gs -> Forall (fun a => 0 <= a < k) g.
Proof.
  intros P G. apply Forall_forall. intros a Ha. apply in_zrange. apply (Permutation_in _ P). apply in_concat. now exists g.
Qed.
Lemma concat_split {A B} (f : A -> B) gs vs : map f (concat gs) = concat vs -> Forall2 (fun g v => length v = length g) gs vs -> map (map f) gs = vs.
Proof.
  revert vs; induction gs as [|g gs IH]; intros vs E F; inversion F; subst; [reflexivity|]. cbn [concat map] in *. rewrite map_app in E.
  assert (E1 : map f g = y /\ map f (concat gs) = concat l').
  { clear -E H1. revert y H1 E; induction g as [|a g IHg]; intros [|b y] L E; cbn in L; try lia; cbn in *; [now split|].
    injection E as E1 E2. destruct (IHg y ltac:(lia) E2). split; [now rewrite E1, H|assumption]. }
  destruct E1 as [E1 E2]. f_equal; [assumption|]. now apply IH.
Qed.
(* one value list per group determines an index *)
Lemma groups_exist gs vs k : 0 <= k -> splits gs k -> Forall2 (fun g v => length v = length g) gs vs ->
  exists ix, length ix = Z.to_nat k /\ map (comps ix) gs = vs.
Proof.
  intros K P F. destruct (fill_exists (concat gs) (concat vs) k P) as (ix & L & E).
  - clear P. induction F; [reflexivity|]. cbn [concat]. rewrite !app_length. lia.
  - exists ix. split; [assumption|]. now apply concat_split.
Qed.
Lemma groups_range gs ix d : splits gs (Z.of_nat (length d)) -> length ix = length d -> Forall (fun g => in_range (comps ix g) (comps d g)) gs -> in_range ix d.
Proof.
  intros P L F. apply (range_comps ix d (concat gs) P L). unfold comps. clear P. induction F as [|g gs H F IH]; [constructor|].
  cbn [concat]. rewrite !map_app. apply Forall2_app; assumption.
Qed.
Lemma groups_inj gs ix jx k : splits gs k -> length ix = Z.to_nat k -> length jx = Z.to_nat k -> (forall g, In g gs -> comps ix g = comps jx g) -> ix = jx.
Proof.
  intros P L1 L2 H. apply (comps_inj ix jx (concat gs) k P L1 L2). unfold comps. clear P. induction gs as [|g gs IH]; [reflexivity|].
  cbn [concat]. rewrite !map_app. f_equal; [apply (H g); now left|]. apply IH. intros g' G. apply H. now right.
Qed.

(* foldM that appends one result per element *)
Lemma foldM_push {A B} (f : A -> res B) l r0 : (forall a, In a l -> exists b, f a = Ok b) ->
  exists r, foldM (fun a r => do x <- f a; Ok (r ++ [x])) l r0 = Ok (r0 ++ r) /\ Forall2 (fun a b => f a = Ok b) l r.
Proof.
  revert r0; induction l as [|a l IH]; intros r0 H; [exists []; rewrite app_nil_r; now split; [|constructor]|].
  destruct (H a (or_introl eq_refl)) as [b E]. cbn [foldM]. rewrite E. cbn [bind].
  destruct (IH (r0 ++ [b])) as (r & E' & F); [intros; apply H; now right|]. exists (b :: r). rewrite E'. split; [now rewrite <- app_assoc|now constructor].
Qed.
Lemma foldM_push_inv {A B} (f : A -> res B) l : forall r0 r, foldM (fun a r => do x <- f a; Ok (r ++ [x])) l r0 = Ok r -> exists s, r = r0 ++ s /\ Forall2 (fun a b => f a = Ok b) l s.
Proof.
  induction l as [|a l IH]; intros r0 r E; cbn [foldM] in E; [injection E as <-; exists []; rewrite app_nil_r; now split; [|constructor]|].
  destruct (f a) as [b| |] eqn:Ea; cbn [bind] in E; try discriminate. apply IH in E as (s & -> & F). exists (b :: s). split; [now rewrite <- app_assoc|now constructor].
Qed.
