(* Prop_BG.v -- C44: cell-wise traversal of batched and gridded tensors; C71: reconciling batch sizes and grids. *)
From Verif Require Import Base BaseFacts Model_Index Model_View Spec_Index Proofs_Index Spec_View Proofs_View Model_Threads Spec_Threads Proofs_Threads Model_BG Spec_BG Proofs_BG Proofs_BG2 Proofs_BG3.
From Coq Require Import Permutation.
Local Open Scope Z_scope.

(* ---- C44 ---- *)
Lemma perm_rest {A B} (f : nat -> list A) (g : nat -> list A) (h : B -> list A) m n (l : list B) : (m <= n)%nat -> (forall k, exists r, g k = f k ++ r) -> flat_map g (seq 0 n) = flat_map h l ->
  exists rest, Permutation (flat_map f (seq 0 m) ++ rest) (flat_map h l).
Proof.
  intros Hm Hg <-. replace n with (m + (n - m))%nat by lia. rewrite seq_app, flat_map_app. cbn [Nat.add].
  assert (H : forall q, exists r, Permutation (flat_map f q ++ r) (flat_map g q)).
  { induction q as [|k q (r & IH)]; [exists []; constructor|]. destruct (Hg k) as (e & Ek). exists (e ++ r). cbn [flat_map]. rewrite Ek, <- !app_assoc. apply Permutation_app_head. rewrite <- IH. rewrite !app_assoc. apply Permutation_app_tail, Permutation_app_comm. }
  destruct (H (seq 0 m)) as (r & P). exists (r ++ flat_map g (seq m (n - m))). rewrite app_assoc. now apply Permutation_app_tail.
Qed.
Lemma bodies_cells xs cells gd B bodies : 0 <= B -> Forall2 (good_body xs cells gd) (zrange B) bodies -> flat_map (fun k => prog_called (nth k bodies [])) (seq 0 (Z.to_nat B)) = all_cells B gd.
Proof.
  intros HB F. unfold all_cells. assert (L : length bodies = Z.to_nat B) by (rewrite <- (F2_len _ _ _ F), zrange_length; reflexivity). rewrite <- L. clear HB L.
  induction F as [|b l bs bodies G F IH]; [reflexivity|]. cbn [length seq flat_map nth]. rewrite <- seq_shift. rewrite flat_map_concat_map, map_map, <- flat_map_concat_map. rewrite IH. f_equal. eapply prog_good; eassumption.
Qed.
(* For every number of tensors, every schedule and at every moment of the execution: no pair of a batch index and a
   grid index is visited twice, only those of the common batch size and grid are, and when the call has returned every
   one has been visited. *)
Theorem C44_each_cell_once : forall xs B gd target nt tr, 0 <= B -> nonneg gd -> Forall (joins B gd) xs -> cell_trace xs B gd target nt tr ->
  (exists rest, Permutation (called tr ++ rest) (all_cells B gd)) /\ (returned tr -> Permutation (called tr) (all_cells B gd)).
Proof.
  intros xs B gd target nt tr HB Ng J (cells & bodies & sq & Es & T). destruct (setup_ok xs B gd target J Ng) as (cells' & bodies' & sq' & Es' & Fc & Fb & _). rewrite Es in Es'. injection Es' as <- <- <-. cbv zeta in T.
  destruct (sq || (nt <=? 1)) eqn:Sq.
  - destruct T as (rest & E). destruct (run_bodies_ok xs cells gd nt (zrange B) bodies Fb 0 (map voff cells)) as (t & Et & Nt & Ct & Ft); [rewrite map_length; symmetry; eapply F2_len; eassumption|]. rewrite Et in E.
    change (flat_map (fun b => map (pair b) (all_indices gd)) (zrange B)) with (all_cells B gd) in Ct.
    destruct (app_last tr rest t (Ev Return) E Nt) as [(R & -> & _)|(R & r & ->)].
    + rewrite called_app, Ct. change (called [Ev Return]) with (@nil (Z * list Z)). rewrite app_nil_r. split; [exists []; now rewrite app_nil_r|intros _; reflexivity].
    + rewrite called_app in Ct. split; [exists (called r); now rewrite Ct|]. intro R'. contradiction.
  - destruct T as (sch & s & E). assert (Hnt : 1 <= nt) by (destruct sq; [discriminate|cbn in Sq; lia]).
    assert (I := cinv_exec cells bodies B nt sch [] _ _ _ (cinv_start bodies B nt Hnt (map voff cells)) E). cbn [app] in I. destruct I as (I & P1 & P2 & P3 & P4 & P5).
    assert (Hc := bodies_cells xs cells gd B bodies HB Fb). assert (Ln : (length (wks (base s)) <= Z.to_nat B)%nat) by (destruct I as (_ & _ & _ & I4); destruct (mp (base s)); lia).
    split.
    + destruct (perm_rest (fun k => prog_called (firstn (pc s k) (bod bodies k))) (fun k => prog_called (nth k bodies [])) (fun b => map (pair b) (all_indices gd)) (length (wks (base s))) (Z.to_nat B) (zrange B) Ln) as (rest & P); [|exact Hc|].
      { intro k. exists (prog_called (skipn (pc s k) (bod bodies k))). unfold prog_called. rewrite <- flat_map_app, firstn_skipn. reflexivity. }
      exists rest. rewrite P4. exact P.
    + intro R. apply P5 in R. rewrite P4. destruct I as (_ & _ & _ & I4). rewrite R in I4. destruct I4 as (L & A). replace (length (wks (base s))) with (Z.to_nat B) by lia. rewrite <- Hc. apply Permutation_refl'. apply flat_map_ext_in. intros k Hk. apply in_seq in Hk.
      destruct (nth_error (wks (base s)) k) as [u|] eqn:Ek; [|apply nth_error_None in Ek; lia]. rewrite (P2 k u Ek) by (unfold bdone; rewrite (A u); [reflexivity|eapply nth_error_In; eassumption]). unfold bod. rewrite firstn_all. reflexivity.
Qed.
Print Assumptions C44_each_cell_once.
(* If the target has batch size one, or the calling thread may not start others, the cells come in row-major order and
   every call gets exactly the matching cells of all the tensors. *)
Theorem C44_sequential : forall xs B gd target nt tr, 0 <= B -> nonneg gd -> Forall (joins B gd) xs -> lone xs target \/ nt <= 1 -> cell_trace xs B gd target nt tr ->
  (exists rest, called tr ++ rest = all_cells B gd) /\ (returned tr -> called tr = all_cells B gd) /\ Forall (right_cells xs) (calls tr).
Proof.
  intros xs B gd target nt tr HB Ng J Hl (cells & bodies & sq & Es & T). destruct (setup_ok xs B gd target J Ng) as (cells' & bodies' & sq' & Es' & Fc & Fb & Hsq). rewrite Es in Es'. injection Es' as <- <- <-. cbv zeta in T.
  replace (sq || (nt <=? 1)) with true in T by (destruct Hl as [Hl|Hl]; [apply Hsq in Hl; now subst|lia]).
  destruct T as (rest & E). destruct (run_bodies_ok xs cells gd nt (zrange B) bodies Fb 0 (map voff cells)) as (t & Et & Nt & Ct & Ft); [rewrite map_length; symmetry; eapply F2_len; eassumption|]. rewrite Et in E.
  change (flat_map (fun b => map (pair b) (all_indices gd)) (zrange B)) with (all_cells B gd) in Ct.
  destruct (app_last tr rest t (Ev Return) E Nt) as [(R & -> & _)|(R & r & ->)].
  - rewrite called_app, calls_app, Ct. change (called [Ev Return]) with (@nil (Z * list Z)). change (calls [Ev Return]) with (@nil (Z * list Z * list view)). rewrite !app_nil_r. split; [exists []; now rewrite app_nil_r|]. split; [reflexivity|assumption].
  - rewrite called_app in Ct. rewrite calls_app in Ft. apply Forall_app in Ft as [Ft _]. split; [exists (called r); assumption|]. split; [intro R'; contradiction|assumption].
Qed.
Print Assumptions C44_sequential.
(* If no tensor has a grid, this is so for every schedule. *)
Theorem C44_no_grid : forall xs B target nt tr, 0 <= B -> Forall (joins B []) xs -> cell_trace xs B [] target nt tr -> Forall (right_cells xs) (calls tr).
Proof.
  intros xs B target nt tr HB J T. assert (T0 := T). destruct T as (cells & bodies & sq & Es & T). destruct (setup_ok xs B [] target J ltac:(constructor)) as (cells' & bodies' & sq' & Es' & Fc & Fb & Hsq). rewrite Es in Es'. injection Es' as <- <- <-. cbv zeta in T.
  destruct (sq || (nt <=? 1)) eqn:Sq.
  - apply (C44_sequential xs B [] target nt tr HB); [constructor|assumption| |assumption]. destruct sq; [left; now apply Hsq|right; cbn in Sq; lia].
  - destruct T as (sch & s & E). eapply calls_from; [| |exact E].
    + intros l b ix Hl Hc. apply In_nth_error in Hl as (k & Hk). revert k Hk. clear - Fb Hc. induction Fb as [|b0 l0 bs ls G F IH]; intros [|k] Hk; try discriminate; cbn in Hk; [|eapply IH; eassumption]. injection Hk as ->. destruct G as (vs & -> & _). destruct Hc as [Hc|[]]. discriminate.
    + intros l b ix vs Hl Hc. apply In_nth_error in Hl as (k & Hk). revert k Hk. clear - Fb Hc. induction Fb as [|b0 l0 bs ls G F IH]; intros [|k] Hk; try discriminate; cbn in Hk; [|eapply IH; eassumption]. injection Hk as ->. destruct G as (vs' & -> & R). destruct Hc as [Hc|[]]. injection Hc as <- <- <-. exact R.
Qed.
Print Assumptions C44_no_grid.
(* With a grid and several threads the claim is false.  The views are shared by the threads, and for all tensors (at least
   one of which has several batches, laid out without overlap) there is a schedule in which the very first call, for
   batch 0, gets the cells of batch 1. *)
Theorem C44_shared_views_refuted : forall xs B gd target nt, 2 <= B -> 2 <= nt -> positive gd -> gd <> [] -> Forall (joins B gd) xs -> ~ lone xs target ->
  (exists x g c, In x xs /\ shaped x B g c /\ positive c /\ distinct_cells (bv x)) ->
  exists tr ix vs, cell_trace xs B gd target nt tr /\ calls tr = [(0, ix, vs)] /\ right_cells xs (1, ix, vs) /\ ~ right_cells xs (0, ix, vs).
Proof.
  intros xs B gd target nt HB Hnt Pg Ne J Nl Hx. assert (Ng := positive_nonneg gd Pg). destruct (setup_ok xs B gd target J Ng) as (cells & bodies & sq & Es & Fc & Fb & Hsq). assert (sq = false) by (destruct sq; [exfalso; now apply Nl, Hsq|reflexivity]). subst sq.
  assert (Zb : exists l0 l1 lr, bodies = l0 :: l1 :: lr /\ good_body xs cells gd 0 l0 /\ good_body xs cells gd 1 l1).
  { replace (zrange B) with (0 :: 1 :: map (Z.add 2) (zrange (B - 2))) in Fb. 2:{ replace B with (2 + (B - 2)) at 2 by lia. rewrite zrange_app by lia. reflexivity. }
    inversion Fb as [|? l0 ? ? G0 F0]; subst. inversion F0 as [|? l1 ? lr G1 F1]; subst. exists l0, l1, lr. auto. }
  destruct Zb as (l0 & l1 & lr & -> & G0 & G1).
  assert (Ia : exists ix ixs, all_indices gd = ix :: ixs). { assert (L := all_indices_length gd Ng). assert (P := prod_pos gd Pg). destruct (all_indices gd) as [|ix ixs]; [cbn in L; lia|eauto]. }
  destruct Ia as (ix & ixs & Ei). assert (Hi : in_range ix gd) by (apply in_all_indices; rewrite Ei; now left).
  destruct gd as [|d gd]; [congruence|]. destruct G0 as (ls0 & El0 & F0). destruct G1 as (ls1 & El1 & F1). rewrite Ei in F0, F1. inversion F0 as [|? c0 ? q0 C0 _]; subst ls0. inversion F1 as [|? c1 ? q1 C1 _]; subst ls1.
  destruct C0 as (os0 & L0 & E0 & R0). destruct C1 as (os1 & L1 & E1 & R1). set (bodies := l0 :: l1 :: lr) in *.
  cbn [concat] in El0, El1. rewrite E0, <- app_assoc in El0. rewrite E1, <- app_assoc in El1. cbn [app] in El0, El1.
  assert (La : forall os k, length (aims k os) = length os) by (induction os; intro k; cbn; [reflexivity|now rewrite IHos]).
  (* the schedule *)
  set (s0 := CS tstart (map voff cells) (fun _ => O)).
  set (bd := Z.max 1 (Z.quot nt B)).
  set (t2 := TS (MTest 2) 2 [Wk 0 bd WBody; Wk 1 bd WBody]).
  assert (A1 : cexec cells bodies B nt (repeat Main 6 ++ [Worker 0; Worker 1]) s0 = Some ([Ev (Begin 0 bd); Ev (Begin 1 bd)], CS t2 (map voff cells) (fun _ => O))).
  { unfold s0, tstart. cbn [repeat app cexec cstep tstep base mp nrun wks]. replace (0 <? B) with true by lia. replace (nt <=? 0) with false by lia. cbn [cexec cstep tstep base mp nrun wks]. cbn [Z.add Pos.add]. replace (1 <? B) with true by lia. replace (nt <=? 1) with false by lia. cbn. reflexivity. }
  assert (Hrun : forall os rs, length rs = length os -> run_ops cells (aims 0 os) rs = ([], os)) by (intros os rs L; exact (run_aims cells os [] rs L)).
  assert (Lr : length (map voff cells) = length xs) by (rewrite map_length; symmetry; eapply F2_len; eassumption).
  destruct (steps_alone cells bodies B nt 0 (aims 0 os0) (CS t2 (map voff cells) (fun _ => O)) (CallShared 0 ix :: concat q0)) as (s3 & A3 & B3 & D3 & P3); [reflexivity|cbn [pc skipn]; exact El0|].
  cbn [regs] in A3, D3. rewrite Hrun in A3, D3 by congruence. cbn [fst snd] in A3, D3. cbn [base pc] in B3, P3.
  destruct (steps_alone cells bodies B nt 1 (aims 0 os1) s3 (CallShared 1 ix :: concat q1)) as (s4 & A4 & B4 & D4 & P4); [rewrite B3; reflexivity|rewrite P3; cbn [Nat.eqb skipn]; exact El1|].
  rewrite D3 in A4, D4. rewrite Hrun in A4, D4 by congruence. cbn [fst snd] in A4, D4.
  destruct (steps_alone cells bodies B nt 0 [CallShared 0 ix] s4 (concat q0)) as (s5 & A5 & _).
  { rewrite B4, B3. reflexivity. } { rewrite P4. cbn [Nat.eqb]. rewrite P3. cbn [Nat.eqb]. change (nth 0 bodies []) with l0. rewrite El0. cbn [Nat.add]. rewrite skipn_app, skipn_all, Nat.sub_diag. reflexivity. }
  rewrite D4 in A5. cbn [run_ops do_op fst snd app] in A5.
  assert (Capp : forall a b s, cexec cells bodies B nt (a ++ b) s = match cexec cells bodies B nt a s with None => None | Some (t, s1) => match cexec cells bodies B nt b s1 with None => None | Some (t', s2) => Some (t ++ t', s2) end end).
  { clear. induction a as [|w a IH]; intros b s; cbn [app cexec]; [destruct (cexec _ _ _ _ b s) as [[? ?]|]; reflexivity|]. destruct (cstep _ _ _ _ w s) as [[l s1]|]; [|reflexivity]. rewrite IH. destruct (cexec _ _ _ _ a s1) as [[t s2]|]; [|reflexivity]. destruct (cexec _ _ _ _ b s2) as [[t' s3]|]; [|reflexivity]. now rewrite app_assoc. }
  exists [Ev (Begin 0 bd); Ev (Begin 1 bd); Call 0 ix (aimed cells os1)], ix, (aimed cells os1). split; [|split; [reflexivity|split; [exact R1|]]].
  - exists cells, bodies, false. split; [exact Es|]. cbv zeta. replace (false || (nt <=? 1)) with false by (cbn; lia).
    exists ((repeat Main 6 ++ [Worker 0; Worker 1]) ++ repeat (Worker 0) (length (aims 0 os0)) ++ repeat (Worker 1) (length (aims 0 os1)) ++ repeat (Worker 0) (length [CallShared 0 ix])), s5.
    fold s0. rewrite Capp, A1, Capp, A3, Capp, A4, A5. reflexivity.
  - intro R. destruct Hx as (xx & g & c & Ix & Hs & Pc & Dc). unfold right_cells in R, R1. cbn [fst snd] in R, R1.
    assert (Hc : exists v, is_cell xx 1 ix v /\ is_cell xx 0 ix v).
    { clear - Ix R R1. revert R R1. generalize (aimed cells os1) as vs. induction xs as [|y xs IH]; intros vs R R1; [destruct Ix|]. inversion R; subst. inversion R1; subst. destruct Ix as [->|Ix]; [eauto|]. eapply IH; eauto. }
    destruct Hc as (v & C1 & C0). destruct C1 as (b1 & g1 & c1' & S1 & V1 & _ & W1). destruct C0 as (b2 & g2 & c2 & S2 & V2 & _ & W2).
    assert (Un : forall b' g' c', shaped xx b' g' c' -> b' = B /\ g' = g /\ c' = c). { intros b' g' c' (Ed & En & _). destruct Hs as (Ed' & En' & _). rewrite Ed in Ed'. injection Ed' as -> Ea. rewrite En in En'. apply Nat2Z.inj in En'. split; [reflexivity|]. revert Ea En'. clear. revert g. induction g' as [|z g' IH]; intros [|z' g] Ea L; try discriminate; cbn in Ea; [auto|]. injection Ea as -> Ea. destruct (IH g Ea) as [-> ->]; [now injection L|auto]. }
    destruct (Un _ _ _ S1) as (-> & -> & ->). destruct (Un _ _ _ S2) as (-> & -> & ->).
    assert (Zc : in_range (map (fun _ => 0) c) c) by (clear - Pc; induction Pc; cbn; constructor; [lia|assumption]).
    destruct (W1 (map (fun _ => 0) c)) as (I1 & X1); [now rewrite V1|]. destruct (W2 (map (fun _ => 0) c)) as (I2 & X2); [now rewrite V1|]. rewrite X1 in X2. apply Dc in X2; [|assumption|assumption]. replace (B =? 1) with false in X2 by lia. discriminate.
Qed.
Print Assumptions C44_shared_views_refuted.
(* two tensors: their batch sizes and grids are reconciled first, so the theorems above apply whenever the call runs *)
Theorem C44_two_tensors : forall x y bx gx cx by_ gy cy target nt tr, shaped x bx gx cx -> shaped y by_ gy cy -> for_each_cell_multi2 x y target nt tr ->
  exists B gd, fits 1 [bx; by_] B /\ fits [] [gx; gy] gd /\ 0 <= B /\ nonneg gd /\ Forall (joins B gd) [x; y] /\ cell_trace [x; y] B gd target nt tr.
Proof.
  intros x y bx gx cx by_ gy cy target nt tr Hx Hy (B & gd & EB & Eg & T). unfold dominant_batch2 in EB. rewrite (shaped_getb _ _ _ _ Hx), (shaped_getb _ _ _ _ Hy) in EB. cbn [bind] in EB.
  unfold dominant_gdims2 in Eg. rewrite (shaped_gdims _ _ _ _ Hx), (shaped_gdims _ _ _ _ Hy), (shaped_has_grid _ _ _ _ Hx), (shaped_has_grid _ _ _ _ Hy) in Eg. cbn [bind] in Eg.
  assert (FB := proj1 (proj1 (batch2_ok bx by_) B) EB). assert (Fg := proj1 (proj1 (two_ok gx gy) gd) Eg). exists B, gd. split; [assumption|]. split; [assumption|].
  destruct FB as [IB FB]. destruct Fg as [Ig Fg].
  assert (N : forall z bz gz cz, shaped z bz gz cz -> 0 <= bz /\ nonneg gz). { intros z bz gz cz (Ed & _ & _ & Nn). rewrite Ed in Nn. inversion Nn; subst. split; [assumption|]. unfold nonneg in *. apply Forall_app in H2. tauto. }
  destruct (N _ _ _ _ Hx) as [Nx Nx']. destruct (N _ _ _ _ Hy) as [Ny Ny']. split; [destruct IB as [<-|[<-|[]]]; assumption|]. split; [destruct Ig as [<-|[<-|[]]]; assumption|]. split; [|assumption].
  constructor; [|constructor; [|constructor]]; [exists bx, gx, cx|exists by_, gy, cy]; (split; [assumption|]); (split; [apply FB; cbn; auto|apply Fg; cbn; auto]).
Qed.
Print Assumptions C44_two_tensors.
(* a batched tensor on a 2-grid of 2-vectors, and a single 2-vector on the same grid *)
Definition ex_x : bg := BG (fresh_view 0 [2; 2; 2]) 1.
Definition ex_y : bg := BG (fresh_view 1 [1; 2; 2]) 1.
Definition ex_u : bg := BG (fresh_view 0 [3; 2]) 0.
Definition ex_w : bg := BG (fresh_view 1 [1; 4]) 0.
Lemma joins_case x B gd : (let d := vdims (bv x) in exists b g c, d = b :: g ++ c /\ ng x = Z.of_nat (length g) /\ length (vstr (bv x)) = length d /\ forallb (Z.leb 0) d = true /\ (b = 1 \/ b = B) /\ (g = [] \/ g = gd)) -> joins B gd x.
Proof. intros (b & g & c & Ed & En & L & N & Hb & Hg). exists b, g, c. split; [|auto]. split; [assumption|]. split; [assumption|]. split; [assumption|]. unfold nonneg. apply Forall_forall. intros z Hz. rewrite forallb_forall in N. specialize (N z Hz). lia. Qed.
Example C44_case :
  (* sequential: y is the target *)
  Forall (joins 2 [2]) [ex_x; ex_y] /\ lone [ex_x; ex_y] 1 /\ ~ lone [ex_x; ex_y] 0 /\
  (exists tr, for_each_cell_multi2 ex_x ex_y 1 4 tr /\ returned tr /\ calls tr =
     [(0, [0], [View 0 0 [2] [1]; View 1 0 [2] [1]]); (0, [1], [View 0 2 [2] [1]; View 1 2 [2] [1]]);
      (1, [0], [View 0 4 [2] [1]; View 1 0 [2] [1]]); (1, [1], [View 0 6 [2] [1]; View 1 2 [2] [1]])]) /\
  (* parallel, no grid: the last batch first *)
  Forall (joins 3 []) [ex_u; ex_w] /\
  (exists tr, for_each_cell_multi2 ex_u ex_w 0 4 tr /\ calls tr = [(2, [], [View 0 4 [2] [1]; View 1 0 [4] [1]]); (0, [], [View 0 0 [2] [1]; View 1 0 [4] [1]])]) /\
  (* parallel, grid: x is the target *)
  (exists tr, for_each_cell_multi2 ex_x ex_y 0 4 tr /\ calls tr = [(0, [0], [View 0 4 [2] [1]; View 1 0 [2] [1]])]).
Proof.
  split; [constructor; [|constructor; [|constructor]]; apply joins_case; [exists 2, [2], [2]|exists 1, [2], [2]]; cbn; tauto|].
  split; [exists ex_y; split; reflexivity|]. split; [intros (x & E & B); injection E as <-; discriminate|].
  split.
  { eexists. split; [exists 2, [2]; split; [reflexivity|]; split; [reflexivity|]; eexists; eexists; eexists; split; [reflexivity|]; exists []; rewrite app_nil_r; vm_compute; reflexivity|]. split; [vm_compute; repeat (try (left; reflexivity); right)|reflexivity]. }
  split; [constructor; [|constructor; [|constructor]]; apply joins_case; [exists 3, [], [2]|exists 1, [], [4]]; cbn; tauto|].
  split.
  { eexists. split; [exists 3, []; split; [reflexivity|]; split; [reflexivity|]; eexists; eexists; eexists; split; [reflexivity|]; exists (repeat Main 9 ++ [Worker 2; Worker 2; Worker 0; Worker 0])%nat; eexists; vm_compute; reflexivity|reflexivity]. }
  { eexists. split; [exists 2, [2]; split; [reflexivity|]; split; [reflexivity|]; eexists; eexists; eexists; split; [reflexivity|]; exists (repeat Main 6 ++ [Worker 0; Worker 0; Worker 0; Worker 1; Worker 1; Worker 0])%nat; eexists; vm_compute; reflexivity|reflexivity]. }
Qed.
(* three tensors: the grid of the third is not looked at, so a grid only it has is not traversed: for x and y without
   grid, the lambda is called once per batch with all the cells of z at once, as a view whose shape still has the grid *)
Theorem C44_third_grid_refuted : forall x y z bx cx by_ cy bz gz cz, shaped x bx [] cx -> shaped y by_ [] cy -> shaped z bz gz cz -> gz <> [] ->
  bx = 1 -> by_ = 1 -> bz = 1 -> forall target nt tr, for_each_cell_multi3 x y z target nt tr ->
  forall c, In c (calls tr) -> exists vx vy vz, c = (0, [], [vx; vy; vz]) /\ vdims vz = gz ++ cz.
Proof.
  intros x y z bx cx by_ cy bz gz cz Hx Hy Hz Ne -> -> -> target nt tr (B & gd & EB & Eg & T) c Hc.
  rewrite (gdims3_is_2 x y z 1 [] cx 1 [] cy Hx Hy) in Eg. unfold dominant_gdims2 in Eg. rewrite (shaped_gdims _ _ _ _ Hx), (shaped_gdims _ _ _ _ Hy) in Eg. injection Eg as <-.
  unfold dominant_batch3 in EB. rewrite (shaped_getb _ _ _ _ Hx), (shaped_getb _ _ _ _ Hy), (shaped_getb _ _ _ _ Hz) in EB. injection EB as <-.
  destruct T as (cells & bodies & sq & Es & T). cbv zeta in T.
  assert (Eb : exists vx vy vz, bodies = [[CallOwn 0 [] [vx; vy; vz]]] /\ vdims vz = gz ++ cz).
  { unfold cell_setup in Es. destruct (is_sequential [x; y; z] target) as [q| |]; try discriminate. cbn [bind] in Es. destruct (mapM cell_view [x; y; z]) as [cl| |]; try discriminate. cbn [bind] in Es. change (zrange 1) with [0] in Es. cbn [mapM body] in Es.
    destruct (batch_slice 0 x) as [vx| |]; try discriminate. destruct (batch_slice 0 y) as [vy| |]; try discriminate. destruct (batch_slice 0 z) as [vz| |] eqn:Ez; try discriminate. injection Es as <- <- <-. exists vx, vy, vz. split; [reflexivity|].
    destruct (shaped_str _ _ _ _ Hz) as (s & gs & cs & Est & Lg & Lc). destruct Hz as (Ed & _). unfold batch_slice, slice in Ez. rewrite Ed, Est in Ez. cbn [zget vget nth_error Z.ltb Z.compare Z.to_nat bind] in Ez. unfold vremove in Ez. cbn [length] in Ez.
    replace ((0 <=? 0) && (0 <? Z.of_nat (S (length (gz ++ cz))))) with true in Ez by lia. replace ((0 <=? 0) && (0 <? Z.of_nat (S (length (gs ++ cs))))) with true in Ez by lia. cbn in Ez. injection Ez as <-. reflexivity. }
  destruct Eb as (vx & vy & vz & -> & Dz). exists vx, vy, vz. split; [|assumption].
  assert (F : Forall (fun c => c = (0, @nil Z, [vx; vy; vz])) (calls tr)).
  { destruct (sq || (nt <=? 1)).
    - destruct T as (rest & E). cbn in E. assert (Ec := f_equal calls E). rewrite calls_app in Ec. cbn in Ec. destruct (calls tr) as [|c0 l]; [constructor|]. injection Ec as -> Ec. apply app_eq_nil in Ec as [-> _]. repeat constructor.
    - destruct T as (sch & s & E). eapply calls_from; [| |exact E].
      + intros l b ix [<-|[]] [H|[]]. discriminate.
      + intros l b ix vs [<-|[]] [H|[]]. injection H as <- <- <-. reflexivity. }
  rewrite Forall_forall in F. now apply F.
Qed.
Print Assumptions C44_third_grid_refuted.
Example C44_third_grid_case : shaped (BG (fresh_view 0 [1; 2]) 0) 1 [] [2] /\ shaped (BG (fresh_view 2 [1; 3; 2]) 1) 1 [3] [2] /\
  exists tr, for_each_cell_multi3 (BG (fresh_view 0 [1; 2]) 0) (BG (fresh_view 1 [1; 2]) 0) (BG (fresh_view 2 [1; 3; 2]) 1) 0 1 tr /\ calls tr = [(0, [], [View 0 0 [2] [1]; View 1 0 [2] [1]; View 2 0 [3; 2] [2; 1]])].
Proof.
  split; [split; [reflexivity|]; split; [reflexivity|]; split; [reflexivity|repeat constructor; lia]|]. split; [split; [reflexivity|]; split; [reflexivity|]; split; [reflexivity|repeat constructor; lia]|].
  eexists. split; [exists 1, []; split; [reflexivity|]; split; [reflexivity|]; eexists; eexists; eexists; split; [reflexivity|]; exists []; rewrite app_nil_r; vm_compute; reflexivity|reflexivity].
Qed.
(* BatchedTensor::for_each_batch_multi with one other tensor: correct if r has one batch, or if the two have equally many *)
Lemma slice0_ok v n d i : vwf v -> vdims v = n :: d -> 0 <= i < n -> exists w, slice 0 i v = Ok w /\ vdims w = d /\ shows w v (fun jx => i :: jx).
Proof.
  intros [L N] Ed Hi. unfold slice. rewrite Ed in *. destruct (vstr v) as [|s ss] eqn:Es; [discriminate|]. cbn [zget vget nth_error Z.ltb Z.compare Z.to_nat bind]. unfold vremove. cbn [length].
  replace ((0 <=? 0) && (0 <? Z.of_nat (S (length d)))) with true by lia. replace ((0 <=? 0) && (0 <? Z.of_nat (S (length ss)))) with true by lia. cbn [assrt bind Z.to_nat firstn skipn app]. eexists. split; [reflexivity|]. split; [reflexivity|].
  intros jx Rj. cbn [vdims] in Rj. assert (Lj := in_range_length _ _ Rj). split; [rewrite Ed; constructor; assumption|]. unfold vaddr. cbn [vstr vblk voff]. rewrite Es. cbn in L. rewrite !offs_dot by (cbn [length]; lia). cbn [bind dot]. f_equal. f_equal. lia.
Qed.
Theorem C44_batch_multi : forall r x nr nx dr dx, vwf r -> vwf x -> vdims r = nr :: dr -> vdims x = nx :: dx -> nr = 1 \/ nr = nx ->
  exists cs, for_each_batch_multi2 r x = Ok cs /\ Forall2 (right_slices [r; x]) (zrange nx) cs.
Proof.
  intros r x nr nx dr dx Wr Wx Er Ex Hn. unfold for_each_batch_multi2. rewrite Er, Ex. cbn [zget vget nth_error Z.ltb Z.compare Z.to_nat bind].
  assert (G : forall i b, 0 <= i < nr -> i = (if nr =? 1 then 0 else b) -> 0 <= b < nx -> exists c, batch_call b i b r x = Ok c /\ right_slices [r; x] b c).
  { intros i b Hi Ei Hb. destruct (slice0_ok r nr dr i Wr Er Hi) as (w & E1 & D1 & S1). destruct (slice0_ok x nx dx b Wx Ex Hb) as (u & E2 & D2 & S2). unfold batch_call. rewrite E1, E2. cbn [bind]. eexists. split; [reflexivity|]. split; [reflexivity|]. cbn [snd].
    constructor; [exists nr, dr; rewrite <- Ei; auto|]. constructor; [|constructor]. exists nx, dx. split; [assumption|]. split; [assumption|]. replace (if nx =? 1 then 0 else b) with b by (destruct (nx =? 1) eqn:?; lia). assumption. }
  destruct (nr =? 1) eqn:E1.
  - apply mapM_spec. intros b Hb. apply in_zrange in Hb. apply G; [lia|reflexivity|assumption].
  - assert (nr = nx) by lia. subst nx. rewrite E1. cbn [bind]. destruct (mapM_spec (fun b => batch_call b b b r x) (right_slices [r; x]) (zrange nr)) as (cs & Ec & Fc).
    { intros b Hb. apply in_zrange in Hb. now apply G. } rewrite Ec. cbn [bind app]. exists cs. auto.
Qed.
Print Assumptions C44_batch_multi.
(* if r has several batches and x only one, every batch is visited twice, the second time with a slice of x that lies
   beyond its only batch (the first branch lacks a return) *)
Theorem C44_batch_multi_refuted : forall r x nr dr dx sx ss, vwf r -> vdims r = nr :: dr -> vwf x -> vdims x = 1 :: dx -> vstr x = sx :: ss -> 2 <= nr ->
  exists cs, for_each_batch_multi2 r x = Ok cs /\ map fst cs = zrange nr ++ zrange nr /\
    forall b, 0 <= b < nr -> exists w, In (b, [w; View (vblk x) (voff x + sx * b) dx ss]) cs.
Proof.
  intros r x nr dr dx sx ss Wr Er Wx Ex Esx Hn. unfold for_each_batch_multi2. rewrite Er, Ex. cbn [zget vget nth_error Z.ltb Z.compare Z.to_nat bind Pos.compare]. replace (nr =? 1) with false by lia. change (1 =? 1) with true. cbv iota.
  assert (G : forall j b, 0 <= b < nr -> exists c, batch_call b b j r x = Ok c /\ (fst c = b /\ exists w, c = (b, [w; View (vblk x) (voff x + sx * j) dx ss]))).
  { intros j b Hb. destruct (slice0_ok r nr dr b Wr Er Hb) as (w & E1 & D1 & S1). unfold batch_call. rewrite E1. cbn [bind]. unfold slice. rewrite Ex, Esx. cbn [zget vget nth_error Z.ltb Z.compare Z.to_nat bind]. unfold vremove. cbn [length].
    replace ((0 <=? 0) && (0 <? Z.of_nat (S (length dx)))) with true by lia. replace ((0 <=? 0) && (0 <? Z.of_nat (S (length ss)))) with true by lia. cbn [assrt bind Z.to_nat firstn skipn app]. eexists. split; [reflexivity|]. split; [reflexivity|]. exists w. reflexivity. }
  destruct (mapM_spec (fun b => batch_call b b 0 r x) (fun b c => fst c = b /\ exists w, c = (b, [w; View (vblk x) (voff x + sx * 0) dx ss])) (zrange nr)) as (c1 & E1 & F1). { intros b Hb. apply in_zrange in Hb. now apply G. }
  destruct (mapM_spec (fun b => batch_call b b b r x) (fun b c => fst c = b /\ exists w, c = (b, [w; View (vblk x) (voff x + sx * b) dx ss])) (zrange nr)) as (c2 & E2 & F2). { intros b Hb. apply in_zrange in Hb. now apply G. }
  rewrite E1. cbn [bind]. rewrite E2. cbn [bind]. exists (c1 ++ c2). split; [reflexivity|]. split.
  - rewrite map_app. assert (H : forall (P : Z -> Z * list view -> Prop) l c, Forall2 (fun b c => fst c = b /\ P b c) l c -> map fst c = l) by (induction 1 as [|? ? ? ? [H _]]; cbn; congruence). rewrite (H _ _ _ F1), (H _ _ _ F2). reflexivity.
  - intros b Hb. apply in_zrange in Hb. clear - F2 Hb. induction F2 as [|b0 c l cs (_ & w & ->) F IH]; [destruct Hb|]. destruct Hb as [->|Hb]; [exists w; apply in_app_iff; right; now left|]. destruct (IH Hb) as (w' & I). exists w'. apply in_app_iff. apply in_app_iff in I as [I|I]; [left; assumption|right; now right].
Qed.
Print Assumptions C44_batch_multi_refuted.
Theorem C44_batch_multi3 : forall r x y nr nx ny dr dx dy, vwf r -> vwf x -> vwf y -> vdims r = nr :: dr -> vdims x = nx :: dx -> vdims y = ny :: dy ->
  (nx = nr -> ny = nr -> exists cs, for_each_batch_multi3 r x y = Ok cs /\ Forall2 (right_slices [r; x; y]) (zrange nr) cs) /\
  (nx <> nr \/ ny <> nr -> for_each_batch_multi3 r x y = Throw).
Proof.
  intros r x y nr nx ny dr dx dy Wr Wx Wy Er Ex Ey. unfold for_each_batch_multi3. rewrite Er, Ex, Ey. cbn [zget vget nth_error Z.ltb Z.compare Z.to_nat bind]. split.
  - intros -> ->. rewrite Z.eqb_refl. cbn [assrt]. apply mapM_spec. intros b Hb. apply in_zrange in Hb.
    destruct (slice0_ok r nr dr b Wr Er Hb) as (w & E1 & D1 & S1). destruct (slice0_ok x nr dx b Wx Ex Hb) as (u & E2 & D2 & S2). destruct (slice0_ok y nr dy b Wy Ey Hb) as (t & E3 & D3 & S3). rewrite E1, E2, E3. cbn [bind]. eexists. split; [reflexivity|]. split; [reflexivity|]. cbn [snd].
    assert (Eb : (if nr =? 1 then 0 else b) = b) by (destruct (nr =? 1) eqn:?; lia).
    constructor; [exists nr, dr; rewrite Eb; auto|]. constructor; [exists nr, dx; rewrite Eb; auto|]. constructor; [exists nr, dy; rewrite Eb; auto|constructor].
  - intro H. destruct (nx =? nr) eqn:E1; [|reflexivity]. destruct (ny =? nr) eqn:E2; [lia|reflexivity].
Qed.
Print Assumptions C44_batch_multi3.
Example C44_batch_multi_case : for_each_batch_multi2 (fresh_view 0 [1; 2]) (fresh_view 1 [2; 2]) = Ok [(0, [View 0 0 [2] [1]; View 1 0 [2] [1]]); (1, [View 0 0 [2] [1]; View 1 2 [2] [1]])] /\
  rmap (map fst) (for_each_batch_multi2 (fresh_view 0 [3; 2]) (fresh_view 1 [1; 2])) = Ok [0; 1; 2; 0; 1; 2] /\ for_each_batch_multi3 (fresh_view 0 [2; 2]) (fresh_view 1 [1; 2]) (fresh_view 1 [2; 2]) = Throw.
Proof. repeat split. Qed.

(* ---- C71 ---- *)
(* Combining succeeds exactly when the batch sizes other than one agree, with that size as the outcome, and otherwise
   throws: for two, three and four tensors (of at least one batch). *)
Theorem C71_batch2 : forall x y bx gx cx by_ gy cy, shaped x bx gx cx -> shaped y by_ gy cy -> decides 1 [bx; by_] (dominant_batch2 x y).
Proof. intros x y bx gx cx by_ gy cy Hx Hy. unfold dominant_batch2. rewrite (shaped_getb _ _ _ _ Hx), (shaped_getb _ _ _ _ Hy). apply batch2_ok. Qed.
Print Assumptions C71_batch2.
Theorem C71_batch3 : forall x y z bx gx cx by_ gy cy bz gz cz, shaped x bx gx cx -> shaped y by_ gy cy -> shaped z bz gz cz -> 0 < bx -> 0 < by_ -> 0 < bz ->
  decides 1 [bx; by_; bz] (dominant_batch3 x y z).
Proof. intros x y z bx gx cx by_ gy cy bz gz cz Hx Hy Hz. apply batch3_ok; eapply shaped_getb; eassumption. Qed.
Print Assumptions C71_batch3.
Theorem C71_batch4 : forall x y z w bx gx cx by_ gy cy bz gz cz bw gw cw, shaped x bx gx cx -> shaped y by_ gy cy -> shaped z bz gz cz -> shaped w bw gw cw -> 0 < bx -> 0 < by_ -> 0 < bz -> 0 < bw ->
  decides 1 [bx; by_; bz; bw] (dominant_batch4 x y z w).
Proof. intros x y z w bx gx cx by_ gy cy bz gz cz bw gw cw Hx Hy Hz Hw. apply batch4_ok; eapply shaped_getb; eassumption. Qed.
Print Assumptions C71_batch4.
(* an outcome decided in this way does not depend on the order of the arguments *)
Theorem C71_order : forall A (t : A) l l' o o', Permutation l l' -> decides t l o -> decides t l' o' -> (forall r, o = Ok r <-> o' = Ok r) /\ (o = Throw <-> o' = Throw).
Proof.
  intros A t l l' o o' P [D1 D2] [D1' D2']. assert (F : forall r, fits t l r <-> fits t l' r) by (intro r; split; apply fits_perm; [assumption|now apply Permutation_sym]). split.
  - intro r. rewrite D1, D1'. apply F.
  - rewrite D2, D2'. split; intros N (r & H); apply N; exists r; now apply F.
Qed.
Print Assumptions C71_order.
(* grids and cells of two tensors: the shapes other than the empty one must agree *)
Theorem C71_grid2 : forall x y bx gx cx by_ gy cy, shaped x bx gx cx -> shaped y by_ gy cy -> decides [] [gx; gy] (dominant_gdims2 x y).
Proof. intros x y bx gx cx by_ gy cy Hx Hy. unfold dominant_gdims2. rewrite (shaped_gdims _ _ _ _ Hx), (shaped_gdims _ _ _ _ Hy), (shaped_has_grid _ _ _ _ Hx), (shaped_has_grid _ _ _ _ Hy). apply two_ok. Qed.
Print Assumptions C71_grid2.
Theorem C71_cells2 : forall x y bx gx cx by_ gy cy, shaped x bx gx cx -> shaped y by_ gy cy -> decides [] [cx; cy] (dominant_cdims2 x y).
Proof. intros x y bx gx cx by_ gy cy Hx Hy. unfold dominant_cdims2. rewrite (shaped_cdims _ _ _ _ Hx), (shaped_cdims _ _ _ _ Hy), (shaped_has_cells _ _ _ _ Hx), (shaped_has_cells _ _ _ _ Hy). apply two_ok. Qed.
Print Assumptions C71_cells2.
(* the grids of three and of four tensors: the third is never looked at *)
Theorem C71_grid3_ignores_third : forall x y z bx gx cx by_ gy cy, shaped x bx gx cx -> shaped y by_ gy cy -> decides [] [gx; gy] (dominant_gdims3 x y z).
Proof. intros x y z bx gx cx by_ gy cy Hx Hy. rewrite (gdims3_is_2 x y z bx gx cx by_ gy cy Hx Hy). eapply C71_grid2; eassumption. Qed.
Print Assumptions C71_grid3_ignores_third.
Theorem C71_grid4_ignores_third : forall x y z w bx gx cx by_ gy cy bw gw cw, shaped x bx gx cx -> shaped y by_ gy cy -> shaped w bw gw cw -> decides [] [gx; gy; gw] (dominant_gdims4 x y z w).
Proof. exact gdims4_is. Qed.
Print Assumptions C71_grid4_ignores_third.
(* so the claim is false: whatever non-empty grid the third tensor has, it is dropped if the first two have none, and
   with the same tensors in another order it is not *)
Theorem C71_grid3_refuted : forall x y z bx cx by_ cy bz gz cz, shaped x bx [] cx -> shaped y by_ [] cy -> shaped z bz gz cz -> gz <> [] ->
  fits [] [[]; []; gz] gz /\ dominant_gdims3 x y z = Ok [] /\ dominant_gdims3 x z y = Ok gz /\ dominant_gdims3 z x y = Ok gz.
Proof.
  intros x y z bx cx by_ cy bz gz cz Hx Hy Hz Ne. split; [split; cbn; [tauto|intuition (subst; auto)]|].
  split; [apply (proj1 (C71_grid3_ignores_third x y z _ _ _ _ _ _ Hx Hy)); split; cbn; intuition (subst; auto)|].
  split; [apply (proj1 (C71_grid3_ignores_third x z y _ _ _ _ _ _ Hx Hz))|apply (proj1 (C71_grid3_ignores_third z x y _ _ _ _ _ _ Hz Hx))]; split; cbn; intuition (subst; auto).
Qed.
Print Assumptions C71_grid3_refuted.
(* and of a third tensor with a different grid: the mismatch goes unnoticed *)
Theorem C71_grid3_mismatch_refuted : forall x y z bx gx cx by_ cy bz gz cz, shaped x bx gx cx -> shaped y by_ gx cy -> shaped z bz gz cz -> gx <> [] -> gz <> [] -> gz <> gx ->
  (forall r, ~ fits [] [gx; gx; gz] r) /\ dominant_gdims3 x y z = Ok gx /\ dominant_gdims3 x z y = Throw.
Proof.
  intros x y z bx gx cx by_ cy bz gz cz Hx Hy Hz Nx Nz N. assert (Nf : forall r, ~ fits [] [gx; gz] r) by (intros r [I F]; cbn in I, F; destruct (F gx ltac:(auto)) as [D|D]; [congruence|]; destruct (F gz ltac:(auto)) as [D'|D']; congruence).
  split; [intros r [I F]; apply (Nf r); split; cbn in *; intuition (subst; auto)|]. split; [apply (proj1 (C71_grid3_ignores_third x y z _ _ _ _ _ _ Hx Hy)); split; cbn; intuition (subst; auto)|].
  apply (proj2 (C71_grid3_ignores_third x z y _ _ _ _ _ _ Hx Hz)). intros (r & F). now apply (Nf r).
Qed.
Print Assumptions C71_grid3_mismatch_refuted.
Definition ex_bg (b : Z) (g c : list Z) : bg := BG (fresh_view 0 (b :: g ++ c)) (Z.of_nat (length g)).
Example C71_case : shaped (ex_bg 3 [2; 2] [4]) 3 [2; 2] [4] /\
  dominant_batch2 (ex_bg 3 [] [4]) (ex_bg 1 [] [4]) = Ok 3 /\ dominant_batch2 (ex_bg 3 [] [4]) (ex_bg 2 [] [4]) = Throw /\
  dominant_batch3 (ex_bg 1 [] [4]) (ex_bg 5 [] [4]) (ex_bg 5 [] []) = Ok 5 /\ dominant_batch3 (ex_bg 4 [] [4]) (ex_bg 5 [] [4]) (ex_bg 5 [] []) = Throw /\
  dominant_batch4 (ex_bg 4 [] [4]) (ex_bg 1 [] [4]) (ex_bg 1 [] []) (ex_bg 4 [] []) = Ok 4 /\
  dominant_gdims2 (ex_bg 3 [2; 2] [4]) (ex_bg 1 [] [4]) = Ok [2; 2] /\ dominant_gdims2 (ex_bg 3 [2; 2] [4]) (ex_bg 1 [4] [4]) = Throw /\
  dominant_cdims2 (ex_bg 3 [2; 2] [4]) (ex_bg 1 [] []) = Ok [4] /\ dominant_gdims3 (ex_bg 1 [] []) (ex_bg 1 [] []) (ex_bg 1 [7] []) = Ok [] /\
  dominant_gdims4 (ex_bg 1 [] []) (ex_bg 1 [] []) (ex_bg 1 [7] []) (ex_bg 1 [8] []) = Ok [8].
Proof. split; [split; [reflexivity|]; split; [reflexivity|]; split; [reflexivity|repeat constructor; lia]|]. repeat split. Qed.
