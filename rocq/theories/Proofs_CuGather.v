From Verif Require Import Base BaseFacts Model_Index Model_View Model_Tensor Model_Cuda Model_Containers Model_CuGather.
From Verif Require Import Spec_PoolMem Spec_Index Spec_View Spec_Tensor Spec_Cuda Spec_CuGather Proofs_Index Proofs_Tensor Proofs_Cuda.
Local Open Scope Z_scope.

(* ---- the table ---- *)
Lemma bget_nth (T : buf) k v : 0 <= k -> nth (Z.to_nat k) T None = Some v -> bget T k = Ok v.
Proof.
  intros Hk E. unfold bget, zget, vget. replace (k <? 0) with false by lia. destruct (nth_error T (Z.to_nat k)) as [o|] eqn:En.
  - apply (nth_error_nth _ _ None) in En. cbn [bind]. now rewrite <- En, E.
  - apply nth_error_None in En. rewrite nth_overflow in E by lia. discriminate.
Qed.
Lemma slice_nth (T : buf) a n l j : firstn n (skipn a T) = map Some l -> (j < length l)%nat -> nth (a + j) T None = Some (nth j l 0).
Proof.
  intros E Hj. assert (X : nth j (firstn n (skipn a T)) None = Some (nth j l 0)).
  { rewrite E. rewrite (nth_indep _ None (Some 0)) by (now rewrite map_length). now rewrite map_nth. }
  assert (F1 : forall (l : buf) m n, (n < m)%nat -> nth n (firstn m l) None = nth n l None) by (induction l0 as [|x l0 IH]; intros [|m] [|k] Hk; cbn; try lia; auto; apply IH; lia).
  assert (F2 : forall m (l : buf) n, nth n (skipn m l) None = nth (m + n) l None) by (induction m as [|m IH]; intros [|x l0] k; cbn; auto; now destruct k).
  assert (Hn : (j < n)%nat). { assert (L : length (firstn n (skipn a T)) = length l) by (rewrite E; apply map_length). rewrite firstn_length in L. lia. }
  rewrite F1, F2 in X by exact Hn. exact X.
Qed.
Definition flatq (q : Z * list Z) : list Z := fst q :: snd q.
Lemma g_row_ok T qs i : encodes T (map flatq qs) -> 0 <= i < zl qs -> g_row T i = Ok (nth (Z.to_nat i) qs (0, [])).
Proof.
  intros (_ & _ & H) Hi. destruct (H i) as (a & b & Ea & Eb & Ha & Hb & E); [unfold zl in *; rewrite map_length; lia|].
  unfold row_of in E. rewrite (nth_indep _ [] (flatq (0, []))) in E by (unfold zl in Hi; rewrite map_length; lia). rewrite map_nth in E. set (q := nth (Z.to_nat i) qs (0, [])) in *.
  assert (L : b - a = 1 + zl (snd q)).
  { assert (L : length (firstn (Z.to_nat (b - a)) (skipn (Z.to_nat a) T)) = length (flatq q)) by (rewrite E; apply map_length). rewrite firstn_length, skipn_length in L. unfold flatq, zl in *. cbn [length] in L. lia. }
  unfold g_row. rewrite (bget_nth T (i + 1) a) by (lia || exact Ea). cbn [bind]. rewrite (bget_nth T (i + 2) b) by (lia || exact Eb). cbn [bind].
  rewrite (bget_nth T a (fst q)).
  2: lia. 2: { replace (Z.to_nat a) with (Z.to_nat a + 0)%nat by lia. rewrite (slice_nth _ _ _ _ _ E) by (cbn [flatq length]; lia). reflexivity. }
  cbn [bind]. rewrite (mapM_ok _ (fun j => nth (Z.to_nat j) (snd q) 0)).
  - cbn [bind]. replace (map _ _) with (snd q); [now destruct q|]. replace (b - a - 1) with (zl (snd q)) by lia. apply (nth_ext _ _ 0 0).
    + rewrite map_length, zrange_length. unfold zl. lia.
    + intros n Hn. rewrite (nth_indep (map _ _) 0 (nth (Z.to_nat 0) (snd q) 0)) by (rewrite map_length, zrange_length; unfold zl; lia). rewrite (map_nth (fun j => nth (Z.to_nat j) (snd q) 0)). f_equal.
      unfold zl, zrange. rewrite Nat2Z.id. change 0 with (Z.of_nat 0). rewrite map_nth, seq_nth by exact Hn. lia.
  - apply Forall_forall. intros j I. apply in_zrange in I. apply bget_nth; [lia|]. replace (Z.to_nat (a + (j + 1))) with (Z.to_nat a + Z.to_nat (j + 1))%nat by lia.
    rewrite (slice_nth _ _ _ _ _ E) by (cbn [flatq length]; unfold zl in L; lia). unfold flatq. replace (Z.to_nat (j + 1)) with (S (Z.to_nat j)) by lia. reflexivity.
Qed.

(* ---- threads ---- *)
Ltac thr := unfold cu_threads; change (zrange 1) with [0]; cbn [flat_map map app all_indices]; rewrite ?app_nil_r;
  repeat first [rewrite !map_flat_map; apply flat_map_ext; intro; cbn [flat_map map app]; rewrite ?app_nil_r | reflexivity | rewrite !flat_map_single, !map_map; reflexivity].
Lemma gth_t a b : map g_t (cu_threads (a, 1, 1) (b, 1, 1)) = all_indices [a; b].
Proof. exact (th_bt a b). Qed.
Lemma gth_tt a b c : map g_tt (cu_threads (a, 1, 1) (b, c, 1)) = all_indices [a; b; c].
Proof. exact (th_btt a b c). Qed.
Lemma gth_bt a b c : map g_bt (cu_threads (a, b, 1) (c, 1, 1)) = all_indices [a; b; c].
Proof. exact (th_bbt a b c). Qed.
Lemma gth_bbt a b c d : map g_bbt (cu_threads (a, b, c) (d, 1, 1)) = all_indices [a; b; c; d].
Proof. exact (th_bbbt a b c d). Qed.
Lemma gth_ttt a b c d : map g_ttt (cu_threads (a, 1, 1) (b, c, d)) = all_indices [a; b; c; d].
Proof. thr. Qed.
Lemma gth_btt a b c d : map g_btt (cu_threads (a, b, 1) (c, d, 1)) = all_indices [a; b; c; d].
Proof. thr. Qed.
Lemma gth_bttt a b c d e : map g_bttt (cu_threads (a, b, 1) (c, d, e)) = all_indices [a; b; c; d; e].
Proof. thr. Qed.

(* ---- the statements of a launch ---- *)
Definition gent (ds : list Z) (r x : view) (qs : list (Z * list Z)) : list entry :=
  flat_map (fun q => map (fun c => (cell r (fst q :: c), map (fun j => cell x (j :: c)) (snd q))) (all_indices ds)) qs.
Lemma list_nths {A} (l : list A) d : map (fun i => nth (Z.to_nat i) l d) (zrange (zl l)) = l.
Proof.
  apply (nth_ext _ _ d d).
  - rewrite map_length, zrange_length. unfold zl. lia.
  - intros n Hn. rewrite map_length, zrange_length in Hn. rewrite (nth_indep (map _ _) d (nth (Z.to_nat 0) l d)) by (rewrite map_length, zrange_length; lia). rewrite (map_nth (fun i => nth (Z.to_nat i) l d)). f_equal.
    unfold zl, zrange in *. rewrite Nat2Z.id in *. change 0 with (Z.of_nat 0). rewrite map_nth, seq_nth by lia. lia.
Qed.
Lemma launch_gather g b co r x T qs ds : map co (cu_threads g b) = all_indices (zl qs :: ds) -> encodes T (map flatq qs) -> (qs <> [] -> cu_ok g b = true) ->
  g_launch g b co (vstr r) (vstr x) r x T = Ok (gent ds r x qs).
Proof.
  intros Et En Ok_. assert (X : mapM (fun t => g_thread (vstr r) (vstr x) r x T (co t)) (cu_threads g b) = Ok (gent ds r x qs)).
  { assert (Y : forall L, mapM (fun t => g_thread (vstr r) (vstr x) r x T (co t)) L = mapM (g_thread (vstr r) (vstr x) r x T) (map co L)) by (induction L as [|t L IH]; cbn [mapM map]; [reflexivity|now rewrite IH]).
    rewrite Y, Et. set (F := fun i c => let q := nth (Z.to_nat i) qs (0, []) in (cell r (fst q :: c), map (fun j => cell x (j :: c)) (snd q))).
    rewrite (mapM_ok _ (fun c => match c with i :: c => F i c | [] => ((0, 0), []) end)).
    - f_equal. change (all_indices (zl qs :: ds)) with (flat_map (fun i => map (cons i) (all_indices ds)) (zrange (zl qs))). rewrite map_flat_map. unfold gent.
      replace (flat_map _ qs) with (flat_map (fun q => map (fun c => (cell r (fst q :: c), map (fun j => cell x (j :: c)) (snd q))) (all_indices ds)) (map (fun i => nth (Z.to_nat i) qs (0, [])) (zrange (zl qs)))) by (now rewrite list_nths).
      rewrite !flat_map_concat_map, map_map. f_equal. apply map_ext. intro i. rewrite map_map. reflexivity.
    - apply Forall_forall. intros c I. apply in_all_indices in I. rng. cbn [g_thread]. rewrite (g_row_ok T qs) by assumption. cbn [bind]. unfold F, cell. destruct (nth _ qs _) as [t js]. reflexivity. }
  unfold g_launch. destruct qs as [|q qs].
  - cbn [gent flat_map] in *. now destruct (cu_ok g b).
  - rewrite Ok_ by discriminate. exact X.
Qed.

Section P.
Context (r x : view) (T : buf) (qs : list (Z * list Z)) (no ni : Z) (ds : list Z).
Context (Dr : vdims r = no :: ds) (Dx : vdims x = ni :: ds) (En : encodes T (map flatq qs)) (Hq : zl qs <= 2147483647) (F : gath_fits ds).
Lemma nonempty : qs <> [] -> 1 <= zl qs.
Proof. unfold zl. destruct qs; [congruence|cbn [length]; lia]. Qed.
Lemma div_lt a b : 0 < b -> a < 1024 / b -> a * b <= 1024.
Proof. intros H L. pose proof (Z.mul_div_le 1024 b H). nia. Qed.
Lemma eqlb_same (l : list Z) : eqlb l l = true.
Proof. induction l as [|z l IH]; [reflexivity|]. cbn [eqlb]. now rewrite Z.eqb_refl, IH. Qed.
Ltac ll E C := apply launch_gather; [apply E|exact En|let N := fresh "N" in intro N; apply nonempty in N; apply ok_true; C].
Ltac start := unfold g_kernel; rewrite Dx; cbn [tl rev app]; cbn [g_tdims]; rewrite ?Z.mul_1_l; change (1024 / 1) with 1024.
Lemma kernel_gather : g_kernel r x (zl qs) T = Ok (gent ds r x qs).
Proof.
  destruct ds as [|a [|b [|c [|d [|e l]]]]]; cbn [gath_fits] in F; try contradiction.
  - start. replace (a <? 1024) with true by lia. cbn [length]. cbv zeta.
    change (Z.of_nat 2 - 1 - Z.of_nat 1) with 0. cbv iota. ll gth_t ltac:(lia).
  - start. replace (b <? 1024) with true by lia. destruct (a <? 1024 / b) eqn:E; cbn [length]; cbv zeta.
    + change (Z.of_nat 3 - 1 - Z.of_nat 2) with 0. cbv iota. pose proof (div_lt a b). ll gth_tt ltac:(nia).
    + change (Z.of_nat 3 - 1 - Z.of_nat 1) with 1. cbv iota. change (zget [ni; a; b] 1) with (Ok a). cbn [bind]. ll gth_bt ltac:(nia).
  - start. replace (c <? 1024) with true by lia. destruct (b <? 1024 / c) eqn:E; [destruct (a <? 1024 / (c * b)) eqn:E2|]; cbn [length]; cbv zeta.
    + change (Z.of_nat 4 - 1 - Z.of_nat 3) with 0. cbv iota. pose proof (div_lt b c). pose proof (div_lt a (c * b)). ll gth_ttt ltac:(nia).
    + change (Z.of_nat 4 - 1 - Z.of_nat 2) with 1. cbv iota. change (zget [ni; a; b; c] 1) with (Ok a). cbn [bind]. pose proof (div_lt b c). ll gth_btt ltac:(nia).
    + change (Z.of_nat 4 - 1 - Z.of_nat 1) with 2. cbv iota. change (zget [ni; a; b; c] 1) with (Ok a). change (zget [ni; a; b; c] 2) with (Ok b). cbn [bind]. ll gth_bbt ltac:(nia).
  - destruct F as (A & B & C & D & E1 & E2). pose proof (div_lt c d ltac:(lia) E1). pose proof (div_lt b (d * c) ltac:(nia) E2). start. replace (d <? 1024) with true by lia. replace (c <? 1024 / d) with true by lia. replace (b <? 1024 / (d * c)) with true by lia.
    cbn [length]; cbv zeta. change (Z.of_nat 5 - 1 - Z.of_nat 3) with 1. cbv iota. change (zget [ni; a; b; c; d] 1) with (Ok a). cbn [bind]. ll gth_bttt ltac:(nia).
Qed.
Lemma last_small : exists v, zget (no :: ds) (Z.of_nat (length (no :: ds)) - 1) = Ok v /\ (1024 <? v) = false /\ (1 <= length ds)%nat.
Proof.
  destruct ds as [|a [|b [|c [|d [|e l]]]]]; cbn [gath_fits] in F; try contradiction; eexists; (split; [reflexivity|]); (split; [lia|cbn [length]; lia]).
Qed.
Lemma plan_gather : gather_plan r x (zl qs) T = Ok (gent ds r x qs).
Proof.
  unfold gather_plan. rewrite Dr, Dx. cbn [tl]. rewrite eqlb_same. destruct last_small as (v & E & L & N). rewrite E. cbn [length]. rewrite Nat.eqb_refl. destruct (length ds) as [|k] eqn:El; [lia|]. cbn [Nat.leb assrt bind]. rewrite L. cbn [bind]. apply kernel_gather.
Qed.
End P.

(* ---- what the launch does ---- *)
Section Q.
Context {R : cring}.
Add Ring Rr : (cth R).
Notation memR := (mem (car R)).
Lemma fold_left_rsum (us : list R) a : fold_left cadd us a = cadd a (rsum us).
Proof. revert a. induction us as [|u us IH]; intro a; cbn [fold_left]; [rewrite rsum_nil; ring|]. rewrite IH, rsum_cons. ring. Qed.
Lemma f_gather_sum (v : R) us : f_gather v us = cadd v (rsum us).
Proof. unfold f_gather. rewrite fold_left_rsum. ring. Qed.
Context (r x : view) (qs : list (Z * list Z)) (no ni : Z) (ds : list Z) (m : memR).
Context (Dr : vdims r = no :: ds) (Dx : vdims x = ni :: ds) (Wr : vwf r) (Wx : vwf x) (Di : distinct_cells r) (Rr : readable m r) (Rx : readable m x) (Dj : disjoint_views r x) (Q : rows_ok no ni qs).
Lemma Lr : length (vstr r) = length (vdims r). Proof. apply Wr. Qed.
Lemma Lx : length (vstr x) = length (vdims x). Proof. apply Wx. Qed.
Lemma rin q c : In q qs -> in_range c ds -> in_range (fst q :: c) (vdims r).
Proof. intros I C. rewrite Dr. destruct Q as [_ Q']. rewrite Forall_forall in Q'. destruct (Q' q I) as [A _]. now constructor. Qed.
Lemma xin q j c : In q qs -> In j (snd q) -> in_range c ds -> in_range (j :: c) (vdims x).
Proof. intros I J C. rewrite Dx. destruct Q as [_ Q']. rewrite Forall_forall in Q'. destruct (Q' q I) as [_ A]. rewrite Forall_forall in A. constructor; [now apply A|exact C]. Qed.
Lemma in_gent e : In e (gent ds r x qs) <-> exists q c, In q qs /\ in_range c ds /\ e = (cell r (fst q :: c), map (fun j => cell x (j :: c)) (snd q)).
Proof.
  unfold gent. rewrite in_flat_map. split.
  - intros (q & I & J). apply in_map_iff in J. destruct J as (c & <- & C). apply in_all_indices in C. now exists q, c.
  - intros (q & c & I & C & ->). exists q. split; [exact I|]. apply in_map_iff. exists c. split; [reflexivity|]. now apply in_all_indices.
Qed.
Lemma cell_inj ix jx : in_range ix (vdims r) -> in_range jx (vdims r) -> cell r ix = cell r jx -> ix = jx.
Proof. intros I J E. apply Di; try assumption. rewrite !vaddr_cell by (apply Lr || assumption). now rewrite E. Qed.
Lemma nodup_app3 {A} (a b : list A) : NoDup a -> NoDup b -> (forall x, In x a -> In x b -> False) -> NoDup (a ++ b).
Proof. induction a as [|y a IH]; intros Na Nb H; [exact Nb|]. inversion Na; subst. cbn [app]. constructor; [rewrite in_app_iff; intros [I|I]; [contradiction|apply (H y); [now left|exact I]]|]. apply IH; auto. intros z I J. apply (H z); [now right|exact J]. Qed.
Lemma gent_nodup l : NoDup (map fst l) -> (forall q, In q l -> In q qs) -> NoDup (map fst (gent ds r x l)).
Proof.
  induction l as [|q l IH]; intros N S; [constructor|]. inversion N as [|? ? N1 N2]; subst. cbn [gent flat_map]. fold (gent ds r x l). rewrite map_app. apply nodup_app3.
  - rewrite map_map. apply NoDup_map_in; [apply all_indices_nodup|]. intros c d I J E. cbn [fst] in E. apply in_all_indices in I, J. apply cell_inj in E; [congruence| |]; apply rin; auto; apply S; now left.
  - apply IH; [exact N2|]. intros q' I. apply S. now right.
  - intros p I J. rewrite map_map in I. apply in_map_iff in I, J. destruct I as (c & <- & I), J as (e & E & J). apply in_all_indices in I. unfold gent in J. apply in_flat_map in J. destruct J as (q' & J1 & J2). apply in_map_iff in J2. destruct J2 as (d & <- & J2). apply in_all_indices in J2. cbn [fst] in E.
    apply cell_inj in E; [|apply rin; auto; apply S; now right|apply rin; auto; apply S; now left]. apply N1. injection E as E _. rewrite <- E. now apply in_map.
Qed.
Lemma loads_elems q c us : In q qs -> in_range c ds -> loads m (map (fun j => cell x (j :: c)) (snd q)) = Ok us -> us = map (fun j => elem0 m x (j :: c)) (snd q).
Proof.
  intros I C. assert (A : forall j, In j (snd q) -> in_range (j :: c) (vdims x)) by (intros; now apply (xin q)). revert us. induction (snd q) as [|j js IH]; intros us E; [now injection E as <-|].
  cbn [map] in E. unfold loads in E. cbn [mapM] in E. destruct (loadA m (cell x (j :: c))) as [u| |] eqn:Eu; try discriminate. cbn [bind] in E. fold (loads m (map (fun j => cell x (j :: c)) js)) in E. destruct (loads m _) as [us'| |] eqn:Eus; try discriminate. injection E as <-. cbn [map]. f_equal; [|apply IH; [|reflexivity]].
  - unfold elem0. rewrite elem_cell by (apply Lx || (apply A; now left)). unfold loadA, load in Eu. unfold at_. destruct (m (fst _) (snd _)); [congruence|discriminate].
  - intros k K. apply A. now right.
Qed.
Lemma row_none l i (F : Z * list Z -> list R) : ~ In i (map fst l) -> flat_map (fun q => if fst q =? i then F q else []) l = [].
Proof.
  induction l as [|p l IH]; intro N; [reflexivity|]. cbn [map] in N. cbn [flat_map]. destruct (fst p =? i) eqn:E; [exfalso; apply N; left; lia|]. apply IH. intro I. apply N. now right.
Qed.
Lemma row_sum l i (F : Z * list Z -> list R) q : NoDup (map fst l) -> In q l -> fst q = i -> flat_map (fun q => if fst q =? i then F q else []) l = F q.
Proof.
  induction l as [|p l IH]; intros N I E; [contradiction|]. cbn [map] in N. inversion N as [|? ? N1 N2]; subst. cbn [flat_map]. destruct I as [->|I].
  - rewrite Z.eqb_refl. rewrite row_none by exact N1. apply app_nil_r.
  - destruct (fst p =? fst q) eqn:E; [exfalso; apply N1; replace (fst p) with (fst q) by lia; now apply in_map|]. cbn [app]. now apply IH.
Qed.
Lemma gather_done order : Permutation order (gent ds r x qs) -> exists m', cu_exec f_gather [order] m = Ok m' /\ untouched m m' r /\ gathered qs r x m m'.
Proof.
  intro P. destruct (run_perm f_gather order (gent ds r x qs) m P) as (m' & E & A & B).
  - apply gent_nodup; [apply Q|auto].
  - intros e I. apply in_gent in I. destruct I as (q & c & I & C & ->). cbn [fst snd]. split.
    + rewrite <- elem_cell by (apply Lr || now apply rin). apply Rr. now apply rin.
    + apply Forall_forall. intros p J. apply in_map_iff in J. destruct J as (j & <- & J). rewrite <- elem_cell by (apply Lx || now apply (xin q)). apply Rx. now apply (xin q).
  - intros e e' I I' J. exfalso. apply in_gent in I, I'. destruct I as (q & c & I & C & ->), I' as (q' & c' & I' & C' & ->). cbn [fst snd] in J. apply in_map_iff in J. destruct J as (j & E & J).
    apply (Dj (fst q :: c) (j :: c')); [now apply rin|now apply (xin q')|]. rewrite !vaddr_cell by (apply Lr || apply Lx || now apply rin || now apply (xin q')). now rewrite E.
  - exists m'. split; [|split].
    + rewrite exec_run. cbn [concat]. now rewrite app_nil_r.
    + intros b a N. change (m' b a) with (at_ m' (b, a)). rewrite B; [reflexivity|]. intro I. apply in_map_iff in I. destruct I as (e & E' & I). apply in_gent in I. destruct I as (q & c & I & C & ->). cbn [fst] in E'.
      apply (N (fst q :: c)); [now apply rin|]. rewrite vaddr_cell by (apply Lr || now apply rin). now rewrite E'.
    + intros i ix I. destruct (in_dec Z.eq_dec i (map fst qs)) as [J|J].
      * apply in_map_iff in J. destruct J as (q & <- & J). assert (C : in_range ix ds) by (rewrite Dr in I; now inversion I). rewrite (row_sum _ _ (fun q => map (fun j => elem0 m x (j :: ix)) (snd q)) q) by (reflexivity || assumption || apply Q).
        destruct (A (cell r (fst q :: ix), map (fun j => cell x (j :: ix)) (snd q))) as (v & us & Ev & Eu & E'); [apply in_gent; now exists q, ix|]. cbn [fst snd] in *. apply (loads_elems q) in Eu; try assumption. subst us.
        unfold elem0 at 1 2. rewrite !elem_cell by (apply Lr || exact I). rewrite E', Ev. apply f_gather_sum.
      * rewrite (row_none _ _ (fun q => map (fun j => elem0 m x (j :: ix)) (snd q))) by exact J. rewrite rsum_nil. replace (elem0 m' r (i :: ix)) with (elem0 m r (i :: ix)); [ring|]. unfold elem0. rewrite !elem_cell by (apply Lr || exact I). rewrite B; [reflexivity|].
        intro K. apply in_map_iff in K. destruct K as (e & E' & K). apply in_gent in K. destruct K as (q & c & K & C & ->). cbn [fst] in E'. apply cell_inj in E'; [|now apply rin|exact I]. apply J. injection E' as <- _. now apply in_map.
Qed.
End Q.

(* ---- where it goes wrong ---- *)
Lemma split_row b o n k s0 s1 : split 1 1024 (View b o [n; k] [s0; s1]) = if Z.rem k 1024 =? 0 then Ok (View b o [n; Z.quot k 1024; 1024] [s0; s1 * 1024; s1]) else Throw.
Proof.
  unfold split. cbn [vdims vstr vblk voff]. change (1 <? ndims _) with true. cbn [assrt]. change (zget [n; k] 1) with (Ok k). cbn [bind]. change (crem k 1024) with (Ok (Z.rem k 1024)). cbn [bind]. destruct (Z.rem k 1024 =? 0); reflexivity.
Qed.
Lemma long_gather (r x : view) no ni k n T : vdims r = [no; k] -> vdims x = [ni; k] -> vwf r -> vwf x -> 1024 <= k ->
  gather_plan r x n T = if k mod 1024 =? 0 then Ok [] else Throw.
Proof.
  intros Dr Dx Wr Wx K. unfold gather_plan. rewrite Dr, Dx. cbn [tl]. rewrite eqlb_same. cbn [length Nat.eqb Nat.leb assrt]. change (zget [no; k] (Z.of_nat 2 - 1)) with (Ok k). cbn [bind]. change (Z.of_nat 2 - 1) with 1.
  destruct (1024 <? k) eqn:E.
  - destruct r as [rb ro rd rs], x as [xb xo xd xs]. cbn [vdims] in Dr, Dx. subst rd xd. destruct Wr as [Lr _], Wx as [Lx _]. cbn [vdims vstr length] in Lr, Lx. destruct rs as [|r0 [|r1 [|]]]; try discriminate Lr. destruct xs as [|x0 [|x1 [|]]]; try discriminate Lx.
    rewrite !split_row. rewrite Z.rem_mod_nonneg by lia. destruct (k mod 1024 =? 0); reflexivity.
  - assert (k = 1024) by lia. subst k. cbn [bind]. unfold g_kernel. rewrite Dx. reflexivity.
Qed.
Lemma thin_gather (r x : view) no ni a b c n T : vdims r = [no; a; b; c] -> vdims x = [ni; a; b; c] ->
  64 < c < 1024 -> 0 < b < 1024 / c -> 0 < a < 1024 / (c * b) -> gather_plan r x n T = Ok [].
Proof.
  intros Dr Dx C B A. unfold gather_plan. rewrite Dr, Dx. cbn [tl]. rewrite eqlb_same. cbn [length Nat.eqb Nat.leb assrt]. change (zget [no; a; b; c] (Z.of_nat 4 - 1)) with (Ok c). cbn [bind]. replace (1024 <? c) with false by lia. cbn [bind].
  unfold g_kernel. rewrite Dx. cbn [tl rev app]. cbn [g_tdims]. rewrite ?Z.mul_1_l. change (1024 / 1) with 1024. replace (c <? 1024) with true by lia. replace (b <? 1024 / c) with true by lia. replace (a <? 1024 / (c * b)) with true by lia.
  cbn [length]. cbv zeta. change (Z.of_nat 4 - 1 - Z.of_nat 3) with 0. cbv iota. unfold g_launch. replace (cu_ok (n, 1, 1) (a, b, c)) with false; [reflexivity|]. symmetry. destruct (cu_ok (n, 1, 1) (a, b, c)) eqn:E; [|reflexivity]. apply ok_inv in E. lia.
Qed.
Lemma stride_gather rb ro no a b c d r0 r1 r2 r3 r4 r4' (x : view) ni n T : vdims x = [ni; a; b; c; d] ->
  0 < d < 1024 -> 0 < c < 1024 / d -> 1024 / (d * c) <= b ->
  gather_plan (View rb ro [no; a; b; c; d] [r0; r1; r2; r3; r4]) x n T = gather_plan (View rb ro [no; a; b; c; d] [r0; r1; r2; r3; r4']) x n T.
Proof.
  intros Dx D C B. unfold gather_plan. cbn [vdims]. rewrite Dx. cbn [tl]. rewrite eqlb_same. cbn [length Nat.eqb Nat.leb assrt]. change (zget [no; a; b; c; d] (Z.of_nat 5 - 1)) with (Ok d). cbn [bind]. replace (1024 <? d) with false by lia. cbn [bind].
  unfold g_kernel. rewrite Dx. cbn [tl rev app]. cbn [g_tdims]. rewrite ?Z.mul_1_l. change (1024 / 1) with 1024. replace (d <? 1024) with true by lia. replace (c <? 1024 / d) with true by lia. replace (b <? 1024 / (d * c)) with false by lia.
  cbn [length]. cbv zeta. change (Z.of_nat 5 - 1 - Z.of_nat 2) with 2. cbv iota. unfold g_mixed. cbn [vstr]. destruct (zget (vstr x) 4) as [s| |]; reflexivity.
Qed.
