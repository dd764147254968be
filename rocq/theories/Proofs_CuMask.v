(* Proofs_CuMask.v -- aggregation of rows by a mask on a device: the arrays of the mask, the cells of the threads, the steps in any order. *)
From Coq Require Import Sorted Permutation.
From Verif Require Import Base BaseFacts Model_Index Model_View Model_Tensor Model_RView Model_CView Model_Cuda Model_CuBlas Model_Mask Model_CuMask Spec_Index Spec_View Spec_Tensor Spec_Mask
  Proofs_Axes Proofs_Index Proofs_View Proofs_Tensor Proofs_Cuda Spec_RView Proofs_CuBlas.
Local Open Scope Z_scope.

Lemma flat_nodup {A B} (f : A -> list B) l : NoDup l -> (forall x, In x l -> NoDup (f x)) -> (forall x y a, In x l -> In y l -> In a (f x) -> In a (f y) -> x = y) -> NoDup (flat_map f l).
Proof.
  induction l as [|z l IH]; intros N F D; [constructor|]. inversion N as [|? ? Nz Nl]; subst. cbn [flat_map]. assert (R : NoDup (flat_map f l)) by (apply IH; [assumption|intros; apply F; now right|intros x y a Hx Hy; apply D; now right]).
  assert (X : forall a, In a (f z) -> ~ In a (flat_map f l)). { intros a Ha Q. apply in_flat_map in Q. destruct Q as (y & Hy & Hay). apply Nz. rewrite (D z y a (or_introl eq_refl) (or_intror Hy) Ha Hay). assumption. }
  specialize (F z (or_introl eq_refl)). clear - R X F. induction (f z) as [|b u IHu]; [exact R|]. inversion F; subst. cbn. constructor; [rewrite in_app_iff; intros [Q|Q]; [contradiction|apply (X b); [now left|assumption]]|]. apply IHu; [assumption|]. intros a Ha. apply X. now right.
Qed.
Lemma app_cons_end_ {A} (l : list A) x t : l ++ x :: t = (l ++ [x]) ++ t.
Proof. now rewrite <- app_assoc. Qed.
Lemma zget_mid {A} (l : list A) x t i : i = Z.of_nat (length l) -> zget (l ++ x :: t) i = Ok x.
Proof. intros ->. unfold zget. destruct (Z.ltb_spec (Z.of_nat (length l)) 0); [lia|]. rewrite Nat2Z.id. rewrite (vget_nth _ _ x) by (rewrite app_length; cbn; lia). now rewrite nth_middle. Qed.
Lemma cut {A} (l : list A) i d : 0 <= i < Z.of_nat (length l) -> exists a b, l = a ++ nth (Z.to_nat i) l d :: b /\ i = Z.of_nat (length a).
Proof.
  intro H. exists (firstn (Z.to_nat i) l), (skipn (S (Z.to_nat i)) l). split; [|rewrite firstn_length; lia]. assert (L : (Z.to_nat i < length l)%nat) by lia. clear H. revert L. generalize (Z.to_nat i) as k. clear i. induction l as [|a l IH]; intros k L; [cbn in L; lia|].
  destruct k; [reflexivity|]. cbn in L |- *. f_equal. apply IH. lia.
Qed.
Lemma nths {A} (l : list A) d : map (fun i => nth (Z.to_nat i) l d) (zrange (Z.of_nat (length l))) = l.
Proof.
  unfold zrange. rewrite Nat2Z.id, map_map. induction l as [|a l IH]; [reflexivity|]. cbn [length seq map]. f_equal. rewrite <- seq_shift, map_map. rewrite <- IH at 2. apply map_ext. intro k. rewrite !Nat2Z.id. reflexivity.
Qed.

Section S.
Context {R : cring}.
Add Ring Rcm : (cth R).
Notation memR := (mem (car R)).
Implicit Types (m : memR) (l : mlists (R := R)) (T : list (tcell (R := R))).

(* ---- the arrays ---- *)
Lemma flat_len (es : list (Z * R)) : length (flat_map (fun e => [TInt (fst e); TFac (snd e)]) es) = (2 * length es)%nat.
Proof. induction es as [|e es IH]; [reflexivity|]. cbn [flat_map app length]. rewrite IH. lia. Qed.
Lemma list_len (p : Z * list (Z * R)) : length (pr_list p) = (2 + 2 * length (snd p))%nat.
Proof. unfold pr_list. cbn [length]. now rewrite flat_len. Qed.
Lemma ptr_at (l1 : mlists (R := R)) p l2 : forall h, zget (pr_ptr h (l1 ++ p :: l2)) (Z.of_nat (length l1)) = Ok (h + Z.of_nat (length (pr_arr l1))).
Proof.
  induction l1 as [|e l1 IH]; intro h; [cbn; f_equal; lia|]. cbn [app pr_ptr length]. rewrite Nat2Z.inj_succ. unfold pr_arr. cbn [flat_map]. rewrite app_length, list_len.
  assert (Q : forall k (s : list Z) a, 0 <= k -> zget (a :: s) (Z.succ k) = zget s k). { intros k s a K. unfold zget. destruct (Z.ltb_spec (Z.succ k) 0); [lia|]. destruct (Z.ltb_spec k 0); [lia|]. rewrite Z2Nat.inj_succ by assumption. reflexivity. }
  rewrite Q by lia. rewrite IH. unfold pr_arr. f_equal. lia.
Qed.
Lemma row_in (A : list (tcell (R := R))) p B P b : zget P b = Ok (Z.of_nat (length A)) -> ac_row (A ++ pr_list p ++ B) P b = Ok p.
Proof.
  intro E. unfold ac_row. rewrite E. cbn [bind]. set (h := Z.of_nat (length A)). unfold pr_list. destruct p as [t es]. cbn [fst snd].
  assert (E1 : t_int (A ++ (TInt t :: TInt (Z.of_nat (length es)) :: flat_map (fun e => [TInt (fst e); TFac (snd e)]) es) ++ B) (h + 2 - 1) = Ok (Z.of_nat (length es))).
  { unfold t_int. replace (A ++ (TInt t :: TInt (Z.of_nat (length es)) :: flat_map (fun e => [TInt (fst e); TFac (snd e)]) es) ++ B) with ((A ++ [TInt t]) ++ TInt (Z.of_nat (length es)) :: flat_map (fun e => [TInt (fst e); TFac (snd e)]) es ++ B) by (now rewrite <- app_assoc).
    rewrite zget_mid; [reflexivity|]. rewrite app_length. cbn [length]. unfold h. lia. }
  assert (E2 : t_int (A ++ (TInt t :: TInt (Z.of_nat (length es)) :: flat_map (fun e => [TInt (fst e); TFac (snd e)]) es) ++ B) (h + 2 - 2) = Ok t).
  { unfold t_int. cbn [app]. rewrite zget_mid; [reflexivity|unfold h; lia]. }
  rewrite E1. cbn [bind]. rewrite E2. cbn [bind].
  rewrite (mapM_ok _ (fun i => nth (Z.to_nat i) es (0, c0))); [cbn [bind]; now rewrite nths|]. apply Forall_forall. intros i I. apply in_zrange in I. destruct (cut es i (0, c0) I) as (e1 & e2 & Ee & Ei).
  set (e := nth (Z.to_nat i) es (0, c0)) in *.
  assert (L : forall x, A ++ (TInt t :: TInt x :: flat_map (fun e => [TInt (fst e); TFac (snd e)]) es) ++ B =
    (A ++ TInt t :: TInt x :: flat_map (fun e => [TInt (fst e); TFac (snd e)]) e1) ++ TInt (fst e) :: TFac (snd e) :: flat_map (fun e => [TInt (fst e); TFac (snd e)]) e2 ++ B).
  { intro x. rewrite Ee, flat_map_app. cbn [flat_map]. rewrite <- !app_assoc. cbn [app]. rewrite <- !app_assoc. reflexivity. }
  unfold t_int, t_fac. rewrite L. rewrite zget_mid by (rewrite app_length; cbn [length]; rewrite flat_len; unfold h; lia). cbn [bind].
  rewrite (app_cons_end_ _ (TInt (fst e))). rewrite zget_mid by (rewrite !app_length; cbn [length]; rewrite flat_len; unfold h; lia). cbn [bind]. now destruct e.
Qed.
Lemma rows_ok l b : 0 <= b < Z.of_nat (length l) -> ac_row (pr_arr l) (pr_ptr 0 l) b = Ok (nth (Z.to_nat b) l (0, [])).
Proof.
  intro H. destruct (cut l b (0, []) H) as (l1 & l2 & El & Eb). set (p := nth (Z.to_nat b) l (0, [])) in *. rewrite El. unfold pr_arr. rewrite flat_map_app. cbn [flat_map]. apply row_in. rewrite Eb. apply (ptr_at l1 p l2 0).
Qed.
(* ---- the cells ---- *)
Lemma in_cells n t k : 0 <= n -> 0 <= t < 32 -> (In k (ac_cells n t) <-> 0 <= k < n /\ k mod 32 = t).
Proof.
  intros Hn Ht. unfold ac_cells. rewrite Z.quot_div_nonneg by lia. pose proof (Z.div_mod n 32 ltac:(lia)) as E. pose proof (Z.mod_pos_bound n 32 ltac:(lia)) as B. pose proof (Z.div_mod k 32 ltac:(lia)) as Ek. pose proof (Z.mod_pos_bound k 32 ltac:(lia)) as Bk.
  rewrite in_app_iff, in_map_iff. split.
  - intros [(j & <- & J)|J].
    + apply in_zrange in J. split; [lia|]. rewrite Z.add_comm, Z_mod_plus_full. now apply Z.mod_small.
    + destruct (Z.ltb_spec t (n - n / 32 * 32)); [|destruct J]. destruct J as [<-|[]]. split; [lia|]. rewrite Z.add_comm, Z_mod_plus_full. now apply Z.mod_small.
  - intros [K M]. destruct (Z.lt_ge_cases (k / 32) (n / 32)) as [L|L].
    + left. exists (k / 32). split; [lia|]. apply in_zrange. split; [apply Z.div_pos; lia|assumption].
    + right. assert (k / 32 <= n / 32) by (apply Z.div_le_mono; lia). destruct (Z.ltb_spec t (n - n / 32 * 32)); [left; lia|lia].
Qed.
Lemma nodup_cells n t : 0 <= n -> 0 <= t < 32 -> NoDup (ac_cells n t).
Proof.
  intros Hn Ht. unfold ac_cells. set (q := Z.quot n 32). assert (N : NoDup (map (fun j => j * 32 + t) (zrange q))) by (apply NoDup_map_in; [apply zrange_nodup|intros; lia]).
  destruct (t <? n - q * 32); [|now rewrite app_nil_r]. apply (Permutation_NoDup (Permutation_cons_append _ _)). constructor; [|assumption]. intro I. apply in_map_iff in I. destruct I as (j & E & J). apply in_zrange in J. lia.
Qed.
(* ---- the steps ---- *)
Definition step_of (r x : addr) rs xs (p : Z * list (Z * R)) (k : Z) : addr * list (R * addr) := (shift r (fst p * rs + k), map (fun e => (snd e, shift x (fst e * xs + k))) (snd p)).
Definition steps_of r x rs xs n l : list (addr * list (R * addr)) := flat_map (fun p => flat_map (fun t => map (step_of r x rs xs p) (ac_cells n t)) (zrange 32)) l.
Lemma plan_eq (q : rmask) r x n c nx rs xs : vdims r = [n; c; 2] -> vdims x = [nx; c; 2] -> vstr r = [rs; 2; 1] -> vstr x = [xs; 2; 1] -> 0 <= c <= 6144 -> Z.of_nat (length (rm_lists q)) <= 2147483647 ->
  ac_plan q r x = Ok (steps_of (arr r) (arr x) rs xs c (rm_lists q)).
Proof.
  intros Dr Dx Sr Sx Hc Hq. unfold ac_plan, sd, nd. rewrite Dr, Dx, Sr, Sx. cbn [nth]. rewrite !Z.eqb_refl. cbn [assrt].
  assert (Q : Z.quot ((Z.quot (c * 2 - 1) 32 + 1) * 32) 32 <=? 384 = true).
  { rewrite Z.quot_mul by lia. apply Z.leb_le. destruct (Z.eq_dec c 0) as [->|]; [cbn; lia|]. rewrite Z.quot_div_nonneg by lia. assert ((c * 2 - 1) / 32 < 384) by (apply Z.div_lt_upper_bound; lia). lia. }
  rewrite Q. cbn [assrt]. destruct (rm_lists q) as [|p0 l0] eqn:El; [reflexivity|]. rewrite <- El in *. set (l := rm_lists q) in *. assert (L : 1 <= Z.of_nat (length l)) by (rewrite El; cbn [length]; lia).
  rewrite ok_true by lia. rewrite (mapM_ok _ (fun th => map (step_of (arr r) (arr x) rs xs (nth (Z.to_nat (bx th)) l (0, []))) (ac_cells c (tx th)))).
  - cbn [bind]. f_equal. rewrite <- flat_map_concat_map. unfold cu_threads. change (zrange 1) with [0]. cbn [flat_map map]. unfold steps_of. rewrite <- (nths l (0, [])) at 2.
    rewrite flat_map_concat_map with (l := map _ _). rewrite map_map. rewrite <- flat_map_concat_map.
    generalize (zrange (Z.of_nat (length l))) as bs. induction bs as [|b bs IH]; [reflexivity|]. cbn [flat_map]. rewrite flat_map_app, IH. f_equal.
  - apply Forall_forall. intros th I. unfold cu_threads in I. apply in_flat_map in I. destruct I as (b & Ib & I). apply in_zrange in Ib. change (zrange 1) with [0] in I. cbn [flat_map map] in I. rewrite !app_nil_r in I.
    assert (E : bx th = b). { apply in_flat_map in I. destruct I as (u & _ & [<-|[]]). reflexivity. } rewrite E. unfold ac_thread. rewrite E, rows_ok by assumption. cbn [bind]. destruct (nth (Z.to_nat b) l (0, [])) as [t es]. reflexivity.
Qed.
(* what a list of sources adds *)
Definition total m (es : list (R * addr)) : R := rsum (map (fun e => cmul (fst e) (match at_ m (snd e) with Some u => u | None => c0 end)) es).
Lemma sum_fold m es : (forall e, In e es -> at_ m (snd e) <> None) -> forall v, foldM (fun cp s => do u <- loadA m (snd cp); Ok (cadd s (cmul (fst cp) u))) es v = Ok (cadd v (total m es)).
Proof.
  induction es as [|e es IH]; intros H v; [cbn; f_equal; unfold total; cbn [map]; unfold rsum; cbn [fold_right]; ring|]. cbn [foldM]. destruct (at_ m (snd e)) as [u|] eqn:E; [|now destruct (H e (or_introl eq_refl))].
  rewrite (loadA_some m (snd e) u E). cbn [bind]. rewrite IH by (intros; apply H; now right). f_equal. unfold total. cbn [map]. rewrite E. unfold rsum. cbn [fold_right]. ring.
Qed.
Lemma total_ext m m' es : (forall e, In e es -> at_ m' (snd e) = at_ m (snd e)) -> total m' es = total m es.
Proof. intro H. unfold total. f_equal. apply map_ext_in. intros e I. now rewrite H. Qed.
Lemma steps_ok L : forall m, NoDup (map fst L) -> (forall e, In e L -> at_ m (fst e) <> None) -> (forall e s, In e L -> In s (snd e) -> at_ m (snd s) <> None /\ ~ In (snd s) (map fst L)) ->
  exists m', ac_exec L m = Ok m' /\ (forall e v, In e L -> at_ m (fst e) = Some v -> at_ m' (fst e) = Some (cadd v (total m (snd e)))) /\ forall p, ~ In p (map fst L) -> at_ m' p = at_ m p.
Proof.
  induction L as [|e L IH]; intros m N H1 H2; [exists m; split; [reflexivity|]; split; [intros ? ? []|reflexivity]|]. cbn [map] in N. inversion N as [|? ? Ne NL]; subst.
  destruct (at_ m (fst e)) as [v|] eqn:Ev; [|now destruct (H1 e (or_introl eq_refl))].
  assert (E1 : ac_step e m = Ok (upd m (fst (fst e)) (snd (fst e)) (cadd v (total m (snd e))))).
  { unfold ac_step. rewrite (loadA_some m _ v Ev). cbn [bind]. rewrite sum_fold by (intros s I; now apply (H2 e s (or_introl eq_refl))). cbn [bind]. unfold store. unfold at_ in Ev. now rewrite Ev. }
  set (m1 := upd m (fst (fst e)) (snd (fst e)) (cadd v (total m (snd e)))) in *.
  assert (U : forall p, p <> fst e -> at_ m1 p = at_ m p) by (intros p Q; now apply at_upd_other).
  destruct (IH m1 NL) as (m' & E & A & B).
  - intros e' I. rewrite U; [apply H1; now right|]. intro Q. apply Ne. rewrite <- Q. now apply in_map.
  - intros e' s I J. destruct (H2 e' s (or_intror I) J) as [P1 P2]. cbn [map In] in P2. split; [rewrite U by intuition; exact P1|intuition].
  - exists m'. split; [unfold ac_exec; cbn [foldM]; rewrite E1; exact E|]. split.
    + intros e' w [->|I] Ew.
      * rewrite B by assumption. rewrite Ev in Ew. injection Ew as <-. apply at_upd_same.
      * rewrite (A e' w I); [|rewrite U; [assumption|intro Q; apply Ne; rewrite <- Q; now apply in_map]]. f_equal. f_equal. apply total_ext. intros s J. apply U. destruct (H2 e' s (or_intror I) J) as [_ P2]. cbn [map In] in P2. intuition.
    + intros p Q. cbn [map In] in Q. rewrite B by intuition. apply U. intuition.
Qed.
End S.
