(* Proofs_Einsum5.v -- one-operand einsum. *)
From Verif Require Import Base BaseFacts Model_Index Model_View Model_Tensor Model_Einsum Spec_Index Spec_View Spec_Tensor Spec_Einsum
  Proofs_Index Proofs_View Proofs_Tensor Accum Proofs_Einsum Proofs_Einsum2 Proofs_Einsum3 Proofs_Einsum4.
Local Open Scope Z_scope.

Lemma nodup_l {A} (a b : list A) : NoDup (a ++ b) -> NoDup a.
Proof. induction a as [|x a IH]; intro H; [constructor|]. inversion H; subst. constructor; [intro K; apply H2, in_app_iff; now left|auto]. Qed.
Lemma nodup_r {A} (a b : list A) : NoDup (a ++ b) -> NoDup b.
Proof. induction a as [|x a IH]; intro H; [exact H|]. inversion H; auto. Qed.
Lemma nodup_lr {A} (a b : list A) c : NoDup (a ++ b) -> In c a -> In c b -> False.
Proof. induction a as [|x a IH]; intros H I J; [destruct I|]. cbn in H. inversion H; subst. destruct I as [->|I]; [apply H2, in_app_iff; now right|now apply IH]. Qed.
Lemma disjoint_off {V} (r x : view) (m m' : mem V) ix : length (vstr r) = length (vdims r) -> length (vstr x) = length (vdims x) -> disjoint_views r x ->
  (forall p, ~ rcells r p -> at_ m' p = at_ m p) -> in_range ix (vdims x) -> at_ m' (cell x ix) = at_ m (cell x ix).
Proof.
  intros Lr Lx Hd Ag Hi. apply Ag. intros (jx & Hj & E). apply (Hd jx ix Hj Hi). rewrite !vaddr_cell by assumption. now rewrite E.
Qed.

Section One.
Context {R : cring}.
Add Ring RrEin5 : (cth R).
Notation memR := (mem (car R)).
Lemma read_some (m : memR) x ix : length (vstr x) = length (vdims x) -> readable m x -> in_range ix (vdims x) -> at_ m (cell x ix) = Some (elem0 m x ix).
Proof. intros L Hr Hi. unfold elem0. rewrite elem_cell by assumption. specialize (Hr ix Hi). rewrite elem_cell in Hr by assumption. destruct (at_ m (cell x ix)); congruence. Qed.

Definition sum1_of (m : memR) (x : view) (xs S : list ascii) (D : ascii -> Z) (e : ascii -> Z) : R :=
  rsum (map (fun s => elem0 m x (map (over e S s) xs)) (all_indices (map D S))).
Lemma kernel1 (r x : view) (rs xs T B S : list ascii) (D : ascii -> Z) (m : memR) :
  vdims r = map D rs -> length (vstr r) = length rs -> vdims x = map D xs -> length (vstr x) = length xs ->
  NoDup (T ++ B) -> (forall c, In c (T ++ B) <-> In c rs) -> NoDup (T ++ S) -> (forall c, In c (T ++ S) <-> In c xs) ->
  (length T <= 4)%nat -> (length B <= 3)%nat -> (length S <= 3)%nat -> fourth T (lstride x xs) (lstride r rs) ->
  readable m r -> distinct_cells r -> readable m x -> disjoint_views r x ->
  exists m', ein1_loops (Par1 (pad 1 (map D T)) (pad 0 (map (lstride x xs) T)) (pad 0 (map (lstride r rs) T)) (pad 1 (map D S)) (pad 0 (map (lstride x xs) S))
      (pad 1 (map D B)) (pad 0 (map (lstride r rs) B))) r x 0 0 m = Ok m' /\
    (forall e, fits D e rs -> elem m' r (map e rs) = Some (cadd (elem0 m r (map e rs)) (sum1_of m x xs S D e))) /\
    (forall ix, in_range ix (vdims r) -> ~ coherent rs ix -> elem m' r ix = elem m r ix) /\
    untouched m m' r.
Proof.
  intros Hdr Hsr Hdx Hsx N1 H1 N2 H2 LT LB LS H4 Rr Dr Rx Dis.
  rewrite ein1_loops_ok by assumption. apply ein_core; try assumption.
  intros e m' He Ag. apply sum3_ok; [now rewrite map_length|now rewrite !map_length|].
  intros s Hs. apply in_all_indices in Hs. pose proof (in_range_length _ _ Hs) as Ls. rewrite map_length in Ls.
  assert (NS : NoDup S) by now apply nodup_r in N2.
  assert (Lx : length (vstr x) = length (vdims x)) by (rewrite Hdx, map_length; exact Hsx).
  assert (Lr : length (vstr r) = length (vdims r)) by (rewrite Hdr, map_length; exact Hsr).
  assert (Hin : in_range (map (over e S s) xs) (vdims x)).
  { rewrite Hdx. apply fits_range. intros c Hc. apply H2, in_app_iff in Hc as [Hc|Hc].
    - rewrite over_out by (intro K; now apply (nodup_lr T S c)). now apply He.
    - now apply (over_fits D e S s NS Hs). }
  rewrite <- (read_some m x) by assumption. rewrite <- (disjoint_off r x m m') by assumption. f_equal. unfold cell. f_equal. f_equal.
  rewrite (dot_cs x xs (T ++ S)); [|assumption..|intros c Hc; now apply H2]. unfold cs. rewrite dot_app_map. f_equal.
  - f_equal. apply map_ext_in. intros c Hc. symmetry. apply over_out. intro K. now apply (nodup_lr T S c).
  - now rewrite over_map.
Qed.

(* the letter classes of a one-operand einsum *)
Definition tr1 (xs rs : list ascii) : list ascii := filter (isin xs) (letters rs).
Definition only (a b : list ascii) : list ascii := filter (notin b) (letters a).
Lemma cover1 xs rs : NoDup (tr1 xs rs ++ only rs xs) /\ (forall c, In c (tr1 xs rs ++ only rs xs) <-> In c rs) /\
  NoDup (tr1 xs rs ++ only xs rs) /\ (forall c, In c (tr1 xs rs ++ only xs rs) <-> In c xs).
Proof.
  unfold tr1, only. repeat split.
  - apply nodup_app; [apply NoDup_filter, letters_nodup..|]. intros c H K. apply filter_In in H as [_ H], K as [_ K]. unfold notin in K. rewrite H in K. discriminate.
  - intro H. apply in_app_iff in H as [H|H]; apply filter_In in H as [H _]; now apply in_letters.
  - intro H. apply in_app_iff. destruct (isin xs c) eqn:E; [left|right]; apply filter_In; (split; [now apply in_letters|]); [exact E|unfold notin; now rewrite E].
  - apply nodup_app; [apply NoDup_filter, letters_nodup..|]. intros c H K. apply filter_In in H as [H _], K as [_ K]. unfold notin in K. apply (proj1 (in_letters _ _)), isin_In in H. rewrite H in K. discriminate.
  - intro H. apply in_app_iff in H as [H|H]; apply filter_In in H as [H E]; [now apply isin_In|now apply in_letters].
  - intro H. apply in_app_iff. destruct (isin rs c) eqn:E; [left|right]; apply filter_In.
    + split; [apply in_letters; now apply isin_In|now apply isin_In].
    + split; [now apply in_letters|unfold notin; now rewrite E].
Qed.
(* no letter 'S' in both strings *)
Definition no_gather (xs rs : list ascii) : Prop := ~ (In "S"%char xs /\ In "S"%char rs).
Lemma no_gather_eq xs rs : no_gather xs rs ->
  filter (fun c => isin xs c && negb (gather_letter c)) (letters rs) = tr1 xs rs /\ filter (fun c => isin xs c && gather_letter c) (letters rs) = [].
Proof.
  intro H. assert (K : forall c, In c (letters rs) -> isin xs c && gather_letter c = false).
  { intros c Hc. apply not_true_is_false. intro E. apply andb_true_iff in E as [E1 E2]. apply aeq_eq in E2. subst c. apply H. split; [now apply isin_In|now apply in_letters]. }
  split.
  - apply filter_ext_in. intros c Hc. specialize (K c Hc). destruct (isin xs c), (gather_letter c); cbn in *; congruence.
  - clear H. revert K. induction (letters rs) as [|a l IH]; intro K; [reflexivity|]. cbn [filter]. rewrite (K a) by now left. apply IH. intros. apply K. now right.
Qed.
Lemma mk_par1_ok (s b : list (Z * Z)) t : (length s <= 4)%nat -> (length b <= 4)%nat -> (length t <= 4)%nat ->
  mk_par1 s b t = Ok (Par1 (pad 1 (map (fun q => fst (fst q)) t)) (pad 0 (map (fun q => snd (fst q)) t)) (pad 0 (map snd t)) (pad 1 (map fst s)) (pad 0 (map snd s)) (pad 1 (map fst b)) (pad 0 (map snd b))).
Proof. intros. unfold mk_par1. rewrite !arr4_ok by (rewrite map_length; assumption). reflexivity. Qed.
Definition result1 (m m' : memR) (r : view) (rs : list ascii) (D : ascii -> Z) (val : (ascii -> Z) -> R) : Prop :=
  (forall e, fits D e rs -> elem m' r (map e rs) = Some (cadd (elem0 m r (map e rs)) (val e))) /\
  (forall ix, in_range ix (vdims r) -> ~ coherent rs ix -> elem m' r ix = elem m r ix) /\
  untouched m m' r.
Lemma ein1_add_ok xs rs (D : ascii -> Z) (r x : view) (m : memR) F :
  plain xs -> plain rs -> no_gather xs rs -> form1_of (str1 xs rs) = Ok F ->
  vdims r = map D rs -> length (vstr r) = length rs -> vdims x = map D xs -> length (vstr x) = length xs ->
  (length (tr1 xs rs) <= 4)%nat -> (length (only rs xs) <= 3)%nat -> (length (only xs rs) <= 3)%nat -> fourth (tr1 xs rs) (lstride x xs) (lstride r rs) ->
  readable m r -> distinct_cells r -> readable m x -> disjoint_views r x ->
  exists m', ein1_add F r x m = Ok m' /\ result1 m m' r rs D (sum1_of m x xs (only xs rs) D).
Proof.
  intros Px Pr Ng EF Hdr Hsr Hdx Hsx LT LB LS H4 Rr Dr Rx Dis. rewrite form1_ok in EF by assumption. injection EF as <-.
  destruct (no_gather_eq xs rs Ng) as [Et Eg]. rewrite Et, Eg. destruct (cover1 xs rs) as (C1 & C2 & C3 & C4).
  unfold ein1_add. cbn [f1_xsum f1_rsum f1_xr f1_gat f1_rids f1_xids f1_bc f1_tail]. fold (only xs rs). fold (only rs xs).
  unfold le3, le4. rewrite !map_length. rewrite (proj2 (Nat.leb_le _ _) LS), (proj2 (Nat.leb_le _ _) LB), (proj2 (Nat.leb_le _ _) LT). cbn [assrt length map Nat.eqb].
  rewrite (p_sum_ok x xs D) by (try assumption; intros c Hc; apply C4, in_app_iff; now right). cbn [bind].
  rewrite (p_sum_ok r rs D) by (try assumption; intros c Hc; apply C2, in_app_iff; now right). cbn [bind].
  rewrite (p_tr_ok x xs r rs D) by (try assumption; try reflexivity; intros c Hc; apply C2, in_app_iff; now left). cbn [bind].
  rewrite mk_par1_ok by (rewrite map_length; lia). cbn [bind]. rewrite !map_map. cbn [fst snd].
  apply kernel1; assumption.
Qed.
Lemma ein1_back_ok xs rs (D : ascii -> Z) (x r : view) (m : memR) F :
  plain xs -> plain rs -> no_gather xs rs -> form1_of (str1 xs rs) = Ok F ->
  vdims r = map D rs -> length (vstr r) = length rs -> vdims x = map D xs -> length (vstr x) = length xs ->
  (length (tr1 xs rs) <= 4)%nat -> (length (only rs xs) <= 3)%nat -> (length (only xs rs) <= 3)%nat -> fourth (tr1 xs rs) (lstride x xs) (lstride r rs) ->
  readable m r -> distinct_cells x -> readable m x -> disjoint_views x r ->
  exists m', ein1_back F x r m = Ok m' /\ result1 m m' x xs D (sum1_of m r rs (only rs xs) D).
Proof.
  intros Px Pr Ng EF Hdr Hsr Hdx Hsx LT LB LS H4 Rr Dx Rx Dis. rewrite form1_ok in EF by assumption. injection EF as <-.
  destruct (no_gather_eq xs rs Ng) as [Et Eg]. rewrite Et, Eg. destruct (cover1 xs rs) as (C1 & C2 & C3 & C4).
  unfold ein1_back. cbn [f1_xsum f1_rsum f1_xr f1_gat f1_rids f1_xids f1_bc f1_tail]. fold (only xs rs). fold (only rs xs).
  unfold le3, le4. rewrite !map_length. rewrite (proj2 (Nat.leb_le _ _) LS), (proj2 (Nat.leb_le _ _) LB), (proj2 (Nat.leb_le _ _) LT). cbn [assrt length].
  rewrite (p_sum_ok r rs D) by (try assumption; intros c Hc; apply C2, in_app_iff; now right). cbn [bind].
  rewrite (p_sum_ok x xs D) by (try assumption; intros c Hc; apply C4, in_app_iff; now right). cbn [bind].
  rewrite map_map. rewrite (p_tr_ok r rs x xs D) by (try assumption; try reflexivity; intros c Hc; apply C4, in_app_iff; now left). cbn [bind].
  rewrite mk_par1_ok by (rewrite map_length; lia). cbn [bind]. rewrite !map_map. cbn [fst snd].
  apply kernel1; try assumption. intros c Hc. symmetry. now apply H4.
Qed.
End One.
