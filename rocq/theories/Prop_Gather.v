(* Prop_Gather.v -- C31..C38: gather maps. *)
From Verif Require Import Base BaseFacts Map Model_Index Model_View Model_Tensor Model_Containers Model_Gather Model_Gather2
  Proofs_Containers2 Proofs_Containers3 Proofs_Containers4 Spec_Index Spec_View Spec_Tensor Spec_Gather
  Proofs_Tensor Accum Proofs_Gather Proofs_Gather2 Proofs_Gather3 Proofs_Program Proofs_Program2 Proofs_Program3 Proofs_Gather4 Proofs_Gather5 Checks.
Local Open Scope Z_scope.
Ltac run := repeat match goal with |- exists _, _ => eexists | |- _ /\ _ => split; [solve [vm_compute; reflexivity]|] end; vm_compute; reflexivity.

(* ---- the cases used in the examples *)
Definition ex_rows : list (Z * list Z) := [(2, [0; 1; 1]); (0, [3]); (2, [2])].
Definition ex_m : mem Z := alloc 5 0 6 (fun b a => if (b =? 1) && (0 <=? a) && (a <? 8) then Some (10 * a) else None).
Definition ex_out : view := fresh_view 0 [3; 2].
Definition ex_inp : view := View 1 0 [4; 2] [1; 4].
Lemma mat_check (m : mem Z) v N K X : vdims v = [N; K] -> length (vstr v) = 2%nat ->
  forallb (fun i => forallb (fun k => match elem m v [i; k] with Some u => u =? X i k | None => false end) (zrange K)) (zrange N) = true -> mat (R := ZRing) m v N K X.
Proof.
  intros D L H. split; [assumption|]. split; [assumption|]. intros i k Hi Hk. rewrite forallb_forall in H. specialize (H i (proj2 (in_zrange N i) Hi)). rewrite forallb_forall in H. specialize (H k (proj2 (in_zrange K k) Hk)).
  change (@elem Z m v [i; k] = Some (X i k)). destruct (@elem Z m v [i; k]) as [u|]; [|discriminate]. apply Z.eqb_eq in H. now subst.
Qed.
Definition within_b (no ni : Z) (es : list (Z * Z)) : bool := forallb (fun e => (0 <=? fst e) && (fst e <? no) && (0 <=? snd e) && (snd e <? ni)) es.
Lemma within_check no ni es : within_b no ni es = true -> within no ni es.
Proof. intros H e He. unfold within_b in H. rewrite forallb_forall in H. specialize (H e He). lia. Qed.
Lemma lists_entries l oc ic ocn icn g : gm_of_lists l oc ic ocn icn = Ok g -> map_entries g (pairs l).
Proof.
  intro E. destruct (gm_of_lists_ok l oc ic ocn icn) as (g1 & E1 & P & _ & _ & _ & _ & F). rewrite E in E1. injection E1 as <-. exists [], l. rewrite F. split; [reflexivity|]. split; [now apply prep_rd|reflexivity].
Qed.

(* C31 *)
(* every constructor and push_back gives the entries it was asked for *)
Theorem C31_from_lists : forall l oc ic ocn icn, exists g, gm_of_lists l oc ic ocn icn = Ok g /\ map_entries g (pairs l) /\ gfixed g = [] /\
  goc g = oc /\ gic g = ic /\ gocn g = ocn /\ gicn g = icn.
Proof.
  intros l oc ic ocn icn. destruct (gm_of_lists_ok l oc ic ocn icn) as (g & E & P & A & B & C & D & F). exists g. split; [exact E|]. split; [eapply lists_entries; exact E|]. auto.
Qed.
Print Assumptions C31_from_lists.
Theorem C31_from_matrix : forall ho ps ni no, (forall m, Permutation (ho m) m) -> (forall p, In p ps -> fst p < ni /\ snd p < no) -> ni <> -1 -> no <> -1 ->
  exists g es, gm_of_matrix ho ps ni no = Ok g /\ map_entries g es /\ Permutation es (map (fun p => (snd p, fst p)) ps) /\ gout g = no /\ gin g = ni /\ one_col g.
Proof.
  intros ho ps ni no Hho Hb Hi Ho. unfold gm_of_matrix. replace (ni =? -1) with false by lia. replace (no =? -1) with false by lia.
  replace (forallb _ ps) with true by (symmetry; apply forallb_forall; intros p Hp; destruct (Hb p Hp); lia). cbn [assrt].
  destruct (gm_fill_ok ho ps Hho) as (p & qs & -> & P & Pm). cbn [bind]. eexists. exists (pairs qs). split; [reflexivity|]. cbn.
  split; [exists [], qs; split; [reflexivity|]; split; [now apply prep_rd|reflexivity]|]. split; [exact Pm|]. repeat split.
Qed.
Print Assumptions C31_from_matrix.
(* the sizes are checked: an index beyond them throws *)
Theorem C31_from_matrix_checked : forall ho ps ni no p, In p ps -> ni <> -1 -> no <> -1 -> ni <= fst p \/ no <= snd p -> gm_of_matrix ho ps ni no = Throw.
Proof.
  intros ho ps ni no p Ip Hi Ho H. unfold gm_of_matrix. replace (ni =? -1) with false by lia. replace (no =? -1) with false by lia.
  replace (forallb _ ps) with false; [reflexivity|]. symmetry. apply not_true_is_false. intro Q. rewrite forallb_forall in Q. specialize (Q p Ip). lia.
Qed.
Print Assumptions C31_from_matrix_checked.
(* and without them (-1) the smallest sizes that hold all entries are used *)
Theorem C31_from_matrix_sizes : forall ho ps g, (forall m, Permutation (ho m) m) -> ps <> [] -> (forall p, In p ps -> 0 <= fst p /\ 0 <= snd p) -> gm_of_matrix ho ps (-1) (-1) = Ok g ->
  (forall p, In p ps -> fst p < gin g /\ snd p < gout g) /\ (exists p, In p ps /\ gin g = fst p + 1) /\ (exists p, In p ps /\ gout g = snd p + 1).
Proof.
  intros ho ps g Hho Ne Hn E. unfold gm_of_matrix in E. cbn [Z.eqb Z.opp Pos.eqb] in E. set (ni := max_end (-1) (map fst ps)) in *. set (no := max_end (-1) (map snd ps)) in *.
  assert (Mx : forall l k, k = -1 -> l <> [] -> (forall x, In x l -> 0 <= x) -> exists x, In x l /\ max_end k l = x + 1).
  { assert (A : forall l k, (exists x, In x l /\ max_end k l = x + 1) \/ max_end k l = k).
    { intros l k. unfold max_end. revert k. induction l as [|x l IH]; intro k; cbn; [auto|]. destruct (IH (Z.max k (x + 1))) as [(y & Hy & Ey)|Ey]; [left; eauto|]. rewrite Ey. destruct (Z.leb_spec k (x + 1)); [left; exists x; split; [auto|lia]|right; lia]. }
    assert (B : forall l k, k <= max_end k l /\ forall x, In x l -> x < max_end k l).
    { intros l k. unfold max_end. revert k. induction l as [|x l IH]; intro k; cbn; [split; [lia|intros ? []]|]. destruct (IH (Z.max k (x + 1))) as [B1 B2]. split; [lia|]. intros y [<-|Hy]; [lia|auto]. }
    intros l k -> Nl Hl. destruct (A l (-1)) as [H|H]; [assumption|]. exfalso. destruct l as [|x l]; [congruence|]. destruct (B (x :: l) (-1)) as [_ B2]. specialize (B2 x (or_introl eq_refl)). specialize (Hl x (or_introl eq_refl)). lia. }
  destruct (forallb _ ps) eqn:Ef; [|discriminate]. rewrite forallb_forall in Ef. cbn [assrt] in E. destruct (gm_fill false ho ps) as [p| |]; try discriminate. injection E as <-. cbn [gin gout].
  split; [intros p0 Hp; specialize (Ef p0 Hp); lia|]. split.
  - destruct (Mx (map fst ps) (-1) eq_refl) as (x & Hx & Ex); [intro Q; apply map_eq_nil in Q; contradiction|intros x Hx; apply in_map_iff in Hx as (q & <- & Hq); now apply Hn|]. apply in_map_iff in Hx as (q & <- & Hq). eauto.
  - destruct (Mx (map snd ps) (-1) eq_refl) as (x & Hx & Ex); [intro Q; apply map_eq_nil in Q; contradiction|intros x Hx; apply in_map_iff in Hx as (q & <- & Hq); now apply Hn|]. apply in_map_iff in Hx as (q & <- & Hq). eauto.
Qed.
Print Assumptions C31_from_matrix_sizes.
Theorem C31_push_back : forall g c t v es, made g -> gfixed g = [] -> map_entries g es ->
  exists g', gm_push t v (GObj g c) = Ok g' /\ map_entries (gm g') (es ++ map (pair t) v) /\ gfixed (gm g') = [].
Proof.
  intros g c t v es M Gf (fk & qs & F & Q & ->). destruct (made_prep g M) as (fk0 & qs0 & _ & P).
  assert (qs = qs0) by (apply (shows_unique (garr g)); [assumption|now apply prep_rd]). subst qs0.
  rewrite Gf in F. symmetry in F. apply map_eq_nil in F. subst fk. cbn [concat app].
  destruct (push_rows_ok [(t, v)] (garr g) _ P) as (p' & Ep & P'). cbn [push_rows foldM fst snd] in Ep. unfold gm_push. cbn [gm].
  destruct (hl_push t v (garr g)) as [p1| |] eqn:E1; cbn [bind] in *; try discriminate. injection Ep as <-. eexists. split; [reflexivity|]. cbn. split; [|assumption].
  exists [], (qs ++ [(t, v)]). cbn [gfixed garr gm_sorted_with]. rewrite Gf. split; [reflexivity|]. split; [apply prep_rd; now rewrite map_app|]. unfold pairs. cbn [concat app]. rewrite flat_map_app. cbn. now rewrite app_nil_r.
Qed.
Print Assumptions C31_push_back.
(* the constructor from two vectors throws whenever there is an entry *)
Theorem C31_from_vectors_refuted : forall ho sources targets, (forall m, Permutation (ho m) m) -> length sources = length targets -> sources <> [] ->
  gm_of_vectors ho sources targets = Throw.
Proof.
  intros ho s t Hho L Ne. unfold gm_of_vectors. rewrite L, Nat.eqb_refl. cbn [assrt]. rewrite gm_fill_throws; [reflexivity|assumption|].
  destruct s, t; try discriminate; congruence.
Qed.
Print Assumptions C31_from_vectors_refuted.
Theorem C31_gather : forall (R : cring) (m : mem (car R)) r x g es N Nx K A X, mat m r N K A -> mat m x Nx K X -> distinct_cells r -> disjoint_views r x ->
  one_col g -> map_entries g es -> within N Nx es ->
  exists m', gather_rows r x g m = Ok m' /\ mat m' r N K (fun i k => cadd (A i k) (gathered es X i k)) /\ untouched m m' r.
Proof. exact @gather_mat. Qed.
Print Assumptions C31_gather.
(* with column factors: the rows of r and x are read as goc and gic shorter rows *)
Theorem C31_gather_columns : forall (R : cring) (m : mem (car R)) r x g qs N Nx K Kx A X, mat m r N K A -> mat m x Nx Kx X -> rows_adjacent r -> rows_adjacent x ->
  distinct_cells r -> disjoint_views r x ->
  gocn g = 1 -> gicn g = 1 -> 0 < goc g -> 0 < gic g -> (goc g | K) -> (gic g | Kx) -> K / goc g = Kx / gic g -> 0 <= K -> 0 <= Kx ->
  gfixed g = [] -> shows (garr g) qs -> within (N * goc g) (Nx * gic g) (pairs qs) ->
  exists m', gather_rows r x g m = Ok m' /\
    (forall i k, 0 <= i < N * goc g -> 0 <= k < K / goc g ->
       elem m' r [i / goc g; i mod goc g * (K / goc g) + k] =
       Some (cadd (in_pieces (goc g) K A i k) (gathered (pairs qs) (in_pieces (gic g) Kx X) i k))) /\ untouched m m' r.
Proof. exact @gather_cols. Qed.
Print Assumptions C31_gather_columns.
Example C31_case : exists g m', gm_of_lists ex_rows 1 1 1 1 = Ok g /\ one_col g /\ map_entries g (pairs ex_rows) /\ within 3 4 (pairs ex_rows) /\
  distinct_cells ex_out /\ disjoint_views ex_out ex_inp /\ mat (R := ZRing) ex_m ex_out 3 2 (fun _ _ => 5) /\ mat (R := ZRing) ex_m ex_inp 4 2 (fun i k => 10 * i + 40 * k) /\
  gather_rows (R := ZRing) ex_out ex_inp g ex_m = Ok m' /\ elem m' ex_out [2; 1] = Some (5 + 40 + 50 + 50 + 60).
Proof.
  destruct (C31_from_lists ex_rows 1 1 1 1) as (g & E & M & F & A & B & C & D). exists g. eexists. split; [exact E|]. split; [repeat split; assumption|]. split; [exact M|].
  split; [apply within_check; reflexivity|]. split; [by_check|]. split; [by_check|]. split; [apply mat_check; reflexivity|]. split; [apply mat_check; reflexivity|].
  vm_compute in E. injection E as <-. run.
Qed.
Example C31_columns_case : exists g m', gm_of_lists [(1, [3; 2]); (5, [0])] 2 1 1 1 = Ok g /\ shows (garr g) [(1, [3; 2]); (5, [0])] /\ within (3 * 2) (4 * 1) (pairs [(1, [3; 2]); (5, [0])]) /\
  rows_adjacent (fresh_view 0 [3; 2]) /\ rows_adjacent (View 1 0 [4; 1] [2; 2]) /\
  gather_rows (R := ZRing) (fresh_view 0 [3; 2]) (View 1 0 [4; 1] [2; 2]) g ex_m = Ok m' /\ elem m' ex_out [0; 1] = Some (5 + 60 + 40) /\ elem m' ex_out [2; 1] = Some 5.
Proof.
  destruct (gm_of_lists_ok [(1, [3; 2]); (5, [0])] 2 1 1 1) as (g & E & P & A & B & C & D & F). exists g. eexists. split; [exact E|]. split; [now apply prep_rd|]. split; [apply within_check; reflexivity|].
  split; [exists 3, 2, 1; auto|]. split; [exists 4, 1, 2; auto|]. vm_compute in E. injection E as <-. run.
Qed.

(* C32 *)
Theorem C32_inverse : forall g es, gfixed g = [] -> map_entries g es ->
  exists g1 es1 g2 es2, make_inv g = Ok g1 /\ map_entries g1 es1 /\ Permutation es1 (map (fun e => (snd e, fst e)) es) /\
    make_inv g1 = Ok g2 /\ map_entries g2 es2 /\ Permutation es2 es /\
    gout g1 = gin g /\ gin g1 = gout g /\ goc g1 = gic g /\ gic g1 = goc g /\ gocn g1 = gicn g /\ gicn g1 = gocn g.
Proof.
  intros g es Gf Me. destruct (entries_inv g es Gf Me) as (g1 & es1 & E1 & M1 & P1 & G1 & C1 & C2 & C3 & C4 & C5 & C6).
  destruct (entries_inv g1 es1 G1 M1) as (g2 & es2 & E2 & M2 & P2 & _). exists g1, es1, g2, es2. split; [assumption|]. split; [assumption|]. split; [exact P1|]. split; [assumption|]. split; [assumption|].
  split; [|auto 10]. rewrite P2, P1, map_map. erewrite map_ext; [rewrite map_id; reflexivity|]. intros [a b]. reflexivity.
Qed.
Print Assumptions C32_inverse.
(* <gather(g,x),y> = <x,gather(inv g,y)> *)
Theorem C32_adjoint : forall (R : cring) (m mb : mem (car R)) r x y z g es N Nx K X Y, gfixed g = [] -> one_col g -> map_entries g es -> within N Nx es ->
  mat m r N K (fun _ _ => c0) -> mat m x Nx K X -> distinct_cells r -> disjoint_views r x ->
  mat mb z Nx K (fun _ _ => c0) -> mat mb y N K Y -> distinct_cells z -> disjoint_views z y ->
  exists g' m1 m2 G B, gather_rows r x g m = Ok m1 /\ mat m1 r N K G /\ make_inv g = Ok g' /\ gather_rows z y g' mb = Ok m2 /\ mat m2 z Nx K B /\
    inner N K G Y = inner Nx K X B.
Proof.
  intros R m mb r x y z g es N Nx K X Y Gf Oc Me W Mr Mx Dr Dx Mz My Dz Dy. destruct (entries_inv g es Gf Me) as (g' & es' & E' & M' & P' & G' & C1 & C2 & C3 & C4 & _).
  destruct (gather_mat m r x g es N Nx K _ X Mr Mx Dr Dx Oc Me W) as (m1 & E1 & R1 & _).
  destruct (gather_mat mb z y g' es' Nx N K _ Y Mz My Dz Dy) as (m2 & E2 & R2 & _); auto.
  - destruct Oc as (O1 & O2 & O3 & O4). unfold one_col. rewrite C1, C2, C3, C4. auto.
  - apply (within_perm _ _ _ _ (Permutation_sym P')). now apply within_swap.
  - exists g', m1, m2, (gathered es X), (gathered es' Y). split; [exact E1|]. split.
    { destruct R1 as (D & L & H). split; [assumption|]. split; [assumption|]. intros. rewrite H by assumption. f_equal. rewrite (Radd_0_l (cth R)). reflexivity. }
    split; [exact E'|]. split; [exact E2|]. split.
    { destruct R2 as (D & L & H). split; [assumption|]. split; [assumption|]. intros. rewrite H by assumption. f_equal. rewrite (Radd_0_l (cth R)). reflexivity. }
    now apply adjoint.
Qed.
Print Assumptions C32_adjoint.
(* after grade() the inverse has lost the entries that were moved to fixed-width parts *)
Theorem C32_graded_refuted : exists g g1 g2 es, made g /\ gm_grade 1 g = Ok g1 /\ make_inv g1 = Ok g2 /\ map_entries g es /\ es = [(0, 1); (1, 0)] /\ map_entries g2 [].
Proof.
  destruct (C31_from_lists [(0, [1]); (1, [0])] 1 1 1 1) as (g & E & M & _). exists g. assert (Mg := made_lists _ _ _ _ _ _ E). vm_compute in E. injection E as <-.
  eexists. eexists. exists [(0, 1); (1, 0)]. split; [exact Mg|]. split; [vm_compute; reflexivity|]. split; [vm_compute; reflexivity|]. split; [exact M|]. split; [reflexivity|].
  exists [], []. split; [reflexivity|]. split; [|reflexivity]. split; [reflexivity|]. intros i h l Hi. cbn in Hi. lia.
Qed.
Print Assumptions C32_graded_refuted.
Example C32_case : exists g g' m1 m2, gm_of_lists ex_rows 1 1 1 1 = Ok g /\ make_inv g = Ok g' /\
  let m := alloc 0 0 6 (fun b a => if (b =? 1) && (0 <=? a) && (a <? 8) then Some (10 * a) else None) in
  let mb := alloc 0 2 8 (fun b a => if (b =? 3) && (0 <=? a) && (a <? 6) then Some (a + 1) else None) in
  gather_rows (R := ZRing) ex_out ex_inp g m = Ok m1 /\ gather_rows (R := ZRing) (fresh_view 2 [4; 2]) (fresh_view 3 [3; 2]) g' mb = Ok m2 /\
  inner (R := ZRing) 3 2 (fun i k => elem0 (R := ZRing) m1 ex_out [i; k]) (fun i k => 2 * i + k + 1) =
  inner (R := ZRing) 4 2 (fun i k => elem0 (R := ZRing) ex_m ex_inp [i; k]) (fun i k => elem0 (R := ZRing) m2 (fresh_view 2 [4; 2]) [i; k]).
Proof. cbv zeta. run. Qed.

(* C33 *)
Theorem C33_adjoint : forall (R : cring) P nc fresh fresh' out inp gx w (m mb : mem (car R)) X W,
  prog_ok P -> 0 <= nc -> storage_ok P fresh out inp -> storage_ok P fresh' gx w ->
  let no := var_rows P (poutput P) in let ko := var_cols P (poutput P) * nc in let ni := var_rows P (pinput P) in let ki := var_cols P (pinput P) * nc in
  mat m inp ni ki X -> mat m out no ko (fun _ _ => c0) -> mat mb w no ko W -> mat mb gx ni ki (fun _ _ => c0) ->
  exists P' m1 m2 O G, tp_run P fresh out inp m = Ok m1 /\ mat m1 out no ko O /\ tp_inv P = Ok P' /\ tp_run P' fresh' gx w mb = Ok m2 /\ mat m2 gx ni ki G /\
    inner no ko O W = inner ni ki X G.
Proof. exact @program_adjoint. Qed.
Print Assumptions C33_adjoint.
(* the forward direction: running a program performs the gathers in the order of the calls of add_map, on matrices
   that start as the given output, the input, and zero *)
Definition add_maps (calls : list (gmap * (Z * Z))) (P : tprog) : tprog := fold_left (fun P c => tp_add_map (fst c) (fst (snd c)) (snd (snd c)) P) calls P.
Definition gather_step {R : cring} (c : (Z * Z) * list (Z * Z)) (s : Z -> Z -> Z -> R) : Z -> Z -> Z -> R :=
  fun v i k => if v =? fst (fst c) then cadd (s v i k) (gathered (snd c) (s (snd (fst c))) i k) else s v i k.
Theorem C33_forward : forall (R : cring) calls P0 nc fresh out inp (m : mem (car R)) O X, let P := add_maps calls P0 in
  pinstrs P0 = [] -> prog_ok P -> 0 <= nc -> storage_ok P fresh out inp ->
  mat m out (var_rows P (poutput P)) (var_cols P (poutput P) * nc) O -> mat m inp (var_rows P (pinput P)) (var_cols P (pinput P) * nc) X ->
  exists ess m', Forall2 (fun c es => map_entries (fst c) es) calls ess /\ tp_run P fresh out inp m = Ok m' /\
    mat m' out (var_rows P (poutput P)) (var_cols P (poutput P) * nc)
      (fold_left (fun s c => gather_step c s) (combine (map snd calls) ess) (fun v => if v =? poutput P then O else if v =? pinput P then X else fun _ _ => c0) (poutput P)).
Proof.
  intros R calls P0 nc fresh out inp m O X P E0 Hp Hnc Hs Mo Mi.
  assert (Ei : pinstrs P = map (fun c => Instr (fst (snd c)) (snd (snd c)) (fst c)) calls).
  { unfold P, add_maps. assert (H : forall P0, pinstrs (fold_left (fun P c => tp_add_map (fst c) (fst (snd c)) (snd (snd c)) P) calls P0) = pinstrs P0 ++ map (fun c => Instr (fst (snd c)) (snd (snd c)) (fst c)) calls).
    { clear. induction calls as [|c calls IH]; intro P0; cbn; [now rewrite app_nil_r|]. rewrite IH. cbn. now rewrite <- app_assoc. }
    now rewrite H, E0. }
  destruct (prog_abs P nc Hp) as (l & Fr & Fa). assert (Hp' := Hp). destruct Hp' as (Hd & Vi & Vo & Nio & _).
  destruct (prog_run P nc fresh out inp m O X l (conj Hd (conj Vi (conj Vo Nio))) Hnc Hs Mo Mi Fr Fa) as (m' & E & M').
  assert (H : exists ess, Forall2 (fun (c : gmap * (Z * Z)) es => map_entries (fst c) es) calls ess /\ l = combine (map snd calls) ess).
  { clear - Fr Ei. rewrite Ei in Fr. clear Ei. revert l Fr. induction calls as [|[g [o i]] calls IH]; intros l Fr; inversion Fr as [|? [[o' i'] es] ? l' (A & B & _ & C) F']; subst; [exists []; split; [constructor|reflexivity]|].
    destruct (IH l' F') as (ess & G & ->). cbn in A, B, C. subst. exists (es :: ess). split; [constructor; assumption|reflexivity]. }
  destruct H as (ess & Fe & ->). exists ess, m'. split; [assumption|]. split; [assumption|]. destruct M' as (D & L & H). split; [assumption|]. split; [assumption|].
  intros i k Hi Hk. rewrite H by assumption. f_equal. unfold asteps, st0. set (s0 := fun v => if v =? poutput P then O else if v =? pinput P then X else fun _ _ => c0).
  assert (Q : forall cs (s s' : Z -> Z -> Z -> R), (forall v i k, s v i k = s' v i k) -> forall v i k, fold_left (fun s a => astep a s) cs s v i k = fold_left (fun s c => gather_step c s) cs s' v i k).
  { clear. induction cs as [|c cs IH]; intros s s' Hs v i k; cbn; [apply Hs|]. apply IH. clear v i k. intros v i k. unfold astep, gather_step. destruct (v =? fst (fst c)); [|apply Hs]. rewrite Hs. f_equal. unfold gathered. f_equal. apply map_ext. intro e. apply Hs. }
  now apply Q.
Qed.
Print Assumptions C33_forward.
(* a program of three instructions through an intermediate variable, with 2 columns per unit *)
Definition ex_prog (g h : gmap) : tprog := tp_add_map h 1 0 (tp_add_map g 1 2 (tp_add_map g 2 0 (tp_add_var [3; 1] (tp_new [3; 1] [3; 1])))).
Example C33_case : exists g h, gm_of_lists [(0, [1; 2]); (2, [0])] 1 1 1 1 = Ok g /\ gm_of_lists [(1, [1; 1])] 1 1 1 1 = Ok h /\ prog_ok (ex_prog g h) /\
  storage_ok (ex_prog g h) [10; 11; 12] (fresh_view 0 [3; 2]) (fresh_view 1 [3; 2]).
Proof.
  destruct (C31_from_lists [(0, [1; 2]); (2, [0])] 1 1 1 1) as (g & E & Mg & F1 & A1 & A2 & A3 & A4).
  destruct (C31_from_lists [(1, [1; 1])] 1 1 1 1) as (h & Eh & Mh & F2 & B1 & B2 & B3 & B4). exists g, h. split; [exact E|]. split; [exact Eh|]. split.
  - split; [|split; [|split; [|split]]].
    + intros d [<-|[<-|[<-|[]]]]; exists 3, 1; split; [reflexivity|lia|reflexivity|lia|reflexivity|lia].
    + unfold is_var; cbn; lia.
    + unfold is_var; cbn; lia.
    + cbn; lia.
    + assert (Og : one_col g) by (repeat split; assumption). assert (Oh : one_col h) by (repeat split; assumption).
      assert (Wg : within 3 3 (pairs [(0, [1; 2]); (2, [0])])) by (apply within_check; reflexivity). assert (Wh : within 3 3 (pairs [(1, [1; 1])])) by (apply within_check; reflexivity).
      intros i [<-|[<-|[<-|[]]]]; cbn [iout iin imap]; unfold is_var; (split; [cbn; lia|]); (split; [cbn; lia|]); (split; [lia|]); (split; [reflexivity|]); (split; [assumption|]); (split; [assumption|]); eexists; split; eassumption.
  - split; [reflexivity|]. split; [repeat constructor; cbn; intuition lia|]. split; [cbn; intuition lia|]. split; [cbn; intuition lia|]. repeat split; by_check.
Qed.
(* the value it computes: with input [0 1; 10 11; 20 21] *)
Example C33_forward_case : exists g h m', gm_of_lists [(0, [1; 2]); (2, [0])] 1 1 1 1 = Ok g /\ gm_of_lists [(1, [1; 1])] 1 1 1 1 = Ok h /\
  ex_prog g h = add_maps [(g, (2, 0)); (g, (1, 2)); (h, (1, 0))] (tp_add_var [3; 1] (tp_new [3; 1] [3; 1])) /\
  tp_run (R := ZRing) (ex_prog g h) [10; 11; 12] (fresh_view 0 [3; 2]) (fresh_view 1 [3; 2])
    (fun b a => if (0 <=? a) && (a <? 6) then Some (if b =? 1 then 10 * (a / 2) + a mod 2 else 0) else None) = Ok m' /\
  map (m' 0) (zrange 6) = [Some 0; Some 1; Some 20; Some 22; Some 30; Some 32].
Proof. run. Qed.
(* an instruction that gathers a variable into itself: the inverse program is not the adjoint.  Input e2, cotangent e0 *)
Theorem C33_in_place_refuted : exists g h P P' (m1 m2 : mem Z), gm_of_lists [(0, [0]); (1, [1]); (2, [2])] 1 1 1 1 = Ok g /\ gm_of_lists [(0, [1]); (1, [2])] 1 1 1 1 = Ok h /\
  P = tp_add_map h 1 1 (tp_add_map g 1 0 (tp_new [3; 1] [3; 1])) /\ tp_inv P = Ok P' /\
  let m b a := if (0 <=? a) && (a <? 3) then Some (if (b =? 1) && (a =? 2) then 1 else 0) else None in
  let mb b a := if (0 <=? a) && (a <? 3) then Some (if (b =? 1) && (a =? 0) then 1 else 0) else None in
  tp_run (R := ZRing) P [10; 11] (fresh_view 0 [3; 1]) (fresh_view 1 [3; 1]) m = Ok m1 /\
  tp_run (R := ZRing) P' [10; 11] (fresh_view 0 [3; 1]) (fresh_view 1 [3; 1]) mb = Ok m2 /\
  map (m1 0) (zrange 3) = [Some 0; Some 1; Some 1] /\ map (m2 0) (zrange 3) = [Some 1; Some 1; Some 1].
Proof. cbv zeta. run. Qed.
Print Assumptions C33_in_place_refuted.

(* C34 *)
Theorem C34_grade : forall (R : cring) (m : mem (car R)) ms r x g es N Nx K A X, made g -> mat m r N K A -> mat m x Nx K X -> distinct_cells r -> disjoint_views r x ->
  one_col g -> map_entries g es -> within N Nx es ->
  exists g' m1 m2 B, gm_grade ms g = Ok g' /\ gather_rows r x g m = Ok m1 /\ gather_rows r x g' m = Ok m2 /\ mat m1 r N K B /\ mat m2 r N K B /\
    untouched m m1 r /\ untouched m m2 r.
Proof.
  intros R m ms r x g es N Nx K A X M Mr Mx Dr Dx Oc Me W. destruct (grade_entries ms g es M Me) as (g' & es' & E & Me' & P & _ & _ & C1 & C2 & C3 & C4).
  destruct (gather_mat m r x g es N Nx K A X Mr Mx Dr Dx Oc Me W) as (m1 & E1 & R1 & U1).
  destruct (gather_mat m r x g' es' N Nx K A X Mr Mx Dr Dx) as (m2 & E2 & R2 & U2); auto.
  - destruct Oc as (O1 & O2 & O3 & O4). unfold one_col. rewrite C1, C2, C3, C4. auto.
  - now apply (within_perm _ _ es).
  - exists g', m1, m2, (fun i k => cadd (A i k) (gathered es X i k)). repeat (split; [assumption|]). split; [|auto]. destruct R2 as (D & L & H). split; [assumption|]. split; [assumption|].
    intros i k Hi Hk. rewrite H by assumption. do 2 f_equal. now apply gathered_perm.
Qed.
Print Assumptions C34_grade.
Theorem C34_sort : forall (R : cring) (m : mem (car R)) r x g es N Nx K A X, mat m r N K A -> mat m x Nx K X -> distinct_cells r -> disjoint_views r x ->
  one_col g -> map_entries g es -> within N Nx es ->
  exists g' m1 m2 B, gm_sort g = Ok g' /\ gather_rows r x g m = Ok m1 /\ gather_rows r x g' m = Ok m2 /\ mat m1 r N K B /\ mat m2 r N K B /\
    untouched m m1 r /\ untouched m m2 r.
Proof.
  intros R m r x g es N Nx K A X Mr Mx Dr Dx Oc Me W. destruct (sort_entries g es Me) as (g' & es' & E & Me' & P & _ & _ & C1 & C2 & C3 & C4).
  destruct (gather_mat m r x g es N Nx K A X Mr Mx Dr Dx Oc Me W) as (m1 & E1 & R1 & U1).
  destruct (gather_mat m r x g' es' N Nx K A X Mr Mx Dr Dx) as (m2 & E2 & R2 & U2); auto.
  - destruct Oc as (O1 & O2 & O3 & O4). unfold one_col. rewrite C1, C2, C3, C4. auto.
  - now apply (within_perm _ _ es).
  - exists g', m1, m2, (fun i k => cadd (A i k) (gathered es X i k)). repeat (split; [assumption|]). split; [|auto]. destruct R2 as (D & L & H). split; [assumption|]. split; [assumption|].
    intros i k Hi Hk. rewrite H by assumption. do 2 f_equal. now apply gathered_perm.
Qed.
Print Assumptions C34_sort.
(* sort() puts longer rows first, on new maps and again after every push_back *)
Theorem C34_sort_order : forall g c t v g1, made g -> gm_push t v (GObj g c) = Ok g1 ->
  exists g2 qs, gm_sort (gm g1) = Ok g2 /\ Spec_Gather.shows (garr g2) qs /\ longer_first qs.
Proof.
  intros g c t v g1 M E. destruct (made_prep (gm g1) (made_push _ _ _ _ _ M E)) as (_ & qs & _ & P).
  destruct (gm_sort_sorted (gm g1) qs (prep_rd _ _ P)) as (g2 & qs' & E2 & S2 & _ & L2); [|eauto].
  unfold gm_push in E. destruct (hl_push t v (garr (gm (GObj g c)))) as [p| |]; try discriminate. cbn [bind] in E. injection E as <-. reflexivity.
Qed.
Print Assumptions C34_sort_order.
Theorem C34_sort_order_new : forall l oc ic ocn icn g, gm_of_lists l oc ic ocn icn = Ok g ->
  exists g2 qs, gm_sort g = Ok g2 /\ Spec_Gather.shows (garr g2) qs /\ longer_first qs.
Proof.
  intros l oc ic ocn icn g E. destruct (made_prep g (made_lists _ _ _ _ _ _ E)) as (_ & qs & _ & P).
  destruct (gm_sort_sorted g qs (prep_rd _ _ P)) as (g2 & qs' & E2 & S2 & _ & L2); [|eauto].
  unfold gm_of_lists in E. destruct (ap_reserve _ _) as [p| |]; try discriminate. cbn [bind] in E. destruct (push_rows l p) as [p1| |]; try discriminate. cbn [bind] in E. injection E as <-. reflexivity.
Qed.
Print Assumptions C34_sort_order_new.
(* but grade() keeps the sorted mark while writing the rows in increasing order, so a later sort() does nothing *)
Theorem C34_sort_after_grade_refuted : exists g g1 g2 g3, gm_of_lists [(0, [1; 2]); (1, [0])] 1 1 1 1 = Ok g /\ gm_sort g = Ok g1 /\ gm_grade 5 g1 = Ok g2 /\ gm_sort g2 = Ok g3 /\
  hl_size_of (garr g3) 0 = Ok 1 /\ hl_size_of (garr g3) 1 = Ok 2.
Proof. eexists. eexists. eexists. eexists. do 5 (split; [vm_compute; reflexivity|]). vm_compute. reflexivity. Qed.
Print Assumptions C34_sort_after_grade_refuted.
(* the fixed-width parts ignore the column factors: with 2 columns the map works on 1 x 2 matrices, its graded form leaves them *)
Theorem C34_columns_refuted : exists g g' (m m1 : mem Z), gm_of_lists [(0, [1]); (1, [0])] 2 2 1 1 = Ok g /\ gm_grade 2 g = Ok g' /\
  gather_rows (R := ZRing) (fresh_view 0 [1; 2]) (fresh_view 1 [1; 2]) g m = Ok m1 /\ gather_rows (R := ZRing) (fresh_view 0 [1; 2]) (fresh_view 1 [1; 2]) g' m = UB /\
  readable m (fresh_view 0 [1; 2]) /\ readable m (fresh_view 1 [1; 2]).
Proof.
  eexists. eexists. exists (fun b a => if (0 <=? b) && (b <? 2) && (0 <=? a) && (a <? 2) then Some (10 * b + a) else None). eexists.
  do 4 (split; [vm_compute; reflexivity|]). split; by_check.
Qed.
Print Assumptions C34_columns_refuted.
Example C34_case : exists g g' fk, gm_of_lists [(0, [1]); (1, [0; 2]); (2, [1])] 1 1 1 1 = Ok g /\ made g /\ one_col g /\ gm_grade 2 g = Ok g' /\
  gfixed g' = [fk] /\ fk = [[0; 1]; [2; 1]] /\ shows (garr g') [(1, [0; 2])].
Proof.
  destruct (C31_from_lists [(0, [1]); (1, [0; 2]); (2, [1])] 1 1 1 1) as (g & E & M & F & A & B & C & D). exists g. assert (Mg := made_lists _ _ _ _ _ _ E).
  destruct (made_prep g Mg) as (_ & qs & _ & P). destruct M as (fk0 & qs0 & F0 & Q0 & Eq).
  vm_compute in E. injection E as <-. eexists. eexists. split; [vm_compute; reflexivity|]. split; [exact Mg|]. split; [repeat split|]. split; [vm_compute; reflexivity|]. split; [reflexivity|]. split; [reflexivity|].
  split; [reflexivity|]. intros i h l Hi. cbn in Hi. assert (i = 0) by lia. subst i. cbn. intro El. injection El as <- <-. split; [reflexivity|]. split; [reflexivity|].
  intros j Hj. cbn in Hj. assert (Hc : j = 0 \/ j = 1) by lia. destruct Hc as [-> | ->]; reflexivity.
Qed.

(* C35 *)
(* stacked 0 0 gs ess: the entries of map j moved by the numbers of rows of the maps before it *)
Theorem C35_pack : forall (R : cring) gs ess r x N Nx K (m : mem (car R)) A X, gs <> [] ->
  Forall2 (fun g es => one_col g /\ map_entries g es /\ 0 <= gout g /\ 0 <= gin g /\ within (gout g) (gin g) es) gs ess ->
  (forall g, In g gs -> gin g = gin (hd (gm_new 0 0) gs)) -> distinct_cells r -> disjoint_views r x ->
  fold_right Z.add 0 (map gout gs) <= N -> fold_right Z.add 0 (map gin gs) <= Nx -> mat m r N K A -> mat m x Nx K X ->
  exists P m', pack_of_vector gs = Ok P /\ gather_pack r x P m = Ok m' /\
    mat m' r N K (fun i k => cadd (A i k) (gathered (stacked 0 0 gs ess) X i k)) /\ untouched m m' r.
Proof. exact @gather_pack_ok. Qed.
Print Assumptions C35_pack.
Theorem C35_push_back : forall gs g no P, gs <> [] -> (forall h, In h (gs ++ [g]) -> one_col h /\ gin h = gin (hd (gm_new 0 0) gs) /\ gout h = no) ->
  pack_of_vector gs = Ok P -> pack_push g P = pack_of_vector (gs ++ [g]).
Proof.
  intros gs g no P Ne H E. rewrite pack_vec_ok in E; [|assumption|intros h Hh; destruct (H h) as (A & B & _); [apply in_or_app; now left|auto]]. injection E as <-.
  rewrite pack_vec_ok.
  - destruct gs as [|g0 gs]; [congruence|]. unfold pack_push. cbn [pmaps pin pout]. cbn [hd] in H.
    destruct (H g0 (or_introl eq_refl)) as ((A1 & A2 & A3 & A4) & _ & Ho). destruct (H g) as ((B1 & B2 & B3 & B4) & Bi & Bo); [apply in_or_app; right; now left|].
    rewrite A1, A2, A3, A4, B1, B2, B3, B4, Bi, !Z.eqb_refl. cbn [andb assrt]. f_equal.
    assert (L : forall (f : gmap -> Z) a l, (forall h, In h (l ++ [g]) -> f h = a) -> l <> [] -> forall o,
       offsets o (map f (l ++ [g])) = offsets o (map f l) ++ [last (offsets o (map f l)) 0 + f g * 1]).
    { intros f a l Hl Nl. destruct l as [|h l]; [congruence|]. clear Nl. revert h Hl. induction l as [|h' l IH]; intros h Hl o.
      - cbn. rewrite (Hl h (or_introl eq_refl)), (Hl g (or_intror (or_introl eq_refl))). do 2 f_equal. lia.
      - cbn [app map offsets] in *. specialize (IH h' (fun x Hx => Hl x (or_intror Hx)) (o + f h)). cbn [app map offsets] in IH. rewrite IH. reflexivity. }
    f_equal.
    + rewrite (L gin (gin g0)); [|intros h Hh; now destruct (H h Hh) as (_ & ? & _)|discriminate]. now rewrite Bi.
    + rewrite (L gout no); [reflexivity|intros h Hh; now destruct (H h Hh) as (_ & _ & ?)|discriminate].
  - destruct gs; discriminate.
  - intros h Hh. destruct (H h Hh) as (A & B & _). split; [assumption|]. destruct gs; [congruence|]. exact B.
Qed.
Print Assumptions C35_push_back.
(* push_back adds the size of the new map, not of the one before it: the second of two maps with 2 and 1
   targets starts at row 1 instead of 2 *)
Theorem C35_push_back_refuted : exists g h P Q, gm_of_lists [(0, [0]); (1, [0])] 1 1 1 1 = Ok g /\ gm_of_lists [(0, [0])] 1 1 1 1 = Ok h /\
  pack_push h (pack_of g) = Ok P /\ pack_of_vector [g; h] = Ok Q /\ pout P = [0; 1] /\ pout Q = [0; 2].
Proof. run. Qed.
Print Assumptions C35_push_back_refuted.
(* the offsets are multiplied by the column factor although they count rows of the full width: two 1 x 2
   blocks with 2 columns throw *)
Theorem C35_columns_refuted : exists g P (m : mem Z), gm_of_lists [(0, [0])] 2 2 1 1 = Ok g /\ gout g = 1 /\ gin g = 1 /\ pack_of_vector [g; g] = Ok P /\ pout P = [0; 2] /\
  gather_pack (R := ZRing) (fresh_view 0 [2; 2]) (fresh_view 1 [2; 2]) P m = Throw /\ readable m (fresh_view 0 [2; 2]) /\ readable m (fresh_view 1 [2; 2]).
Proof.
  eexists. eexists. exists (fun b a => if (0 <=? a) && (a <? 4) then Some a else None). do 6 (split; [vm_compute; reflexivity|]). split; by_check.
Qed.
Print Assumptions C35_columns_refuted.
Example C35_case : exists g h P m', gm_of_lists [(0, [1]); (1, [0; 1])] 1 1 1 1 = Ok g /\ gm_of_lists [(0, [0; 1])] 1 1 1 1 = Ok h /\
  stacked 0 0 [g; h] [[(0, 1); (1, 0); (1, 1)]; [(0, 0); (0, 1)]] = [(0, 1); (1, 0); (1, 1); (2, 2); (2, 3)] /\
  pack_of_vector [g; h] = Ok P /\ gather_pack (R := ZRing) ex_out ex_inp P ex_m = Ok m' /\ elem m' ex_out [2; 1] = Some (5 + 60 + 70) /\
  one_col g /\ one_col h /\ map_entries g [(0, 1); (1, 0); (1, 1)] /\ map_entries h [(0, 0); (0, 1)].
Proof.
  destruct (C31_from_lists [(0, [1]); (1, [0; 1])] 1 1 1 1) as (g & E & M & F & A & B & C & D). destruct (C31_from_lists [(0, [0; 1])] 1 1 1 1) as (h & E' & M' & F' & A' & B' & C' & D').
  vm_compute in E, E'. injection E as <-. injection E' as <-. eexists. eexists. eexists. eexists.
  do 6 (split; [vm_compute; reflexivity|]). split; [repeat split|]. split; [repeat split|]. split; [exact M|exact M'].
Qed.

(* C36 *)
Inductive edit := EPush (t : Z) (v : list Z) | ESet (i j x : Z).
Definition do_edit (e : edit) : gobj -> res gobj := match e with EPush t v => gm_push t v | ESet i j x => gm_set i j x end.
(* edits before the first inv() *)
Theorem C36_edits_then_inverse : forall edits g o es, foldM do_edit edits (GObj g None) = Ok o -> gfixed (gm o) = [] -> map_entries (gm o) es ->
  exists gi es', gm_inv o = Ok (gi, GObj (gm o) (Some gi)) /\ map_entries gi es' /\ Permutation es' (map (fun e => (snd e, fst e)) es).
Proof.
  assert (N : forall edits o o', ginv o = None -> foldM do_edit edits o = Ok o' -> ginv o' = None).
  { induction edits as [|e edits IH]; intros o o' Hn E; [now injection E as <-|]. cbn [foldM] in E. destruct (do_edit e o) as [o1| |] eqn:E1; cbn [bind] in E; try discriminate.
    apply (IH o1 o'); [|exact E]. destruct e; cbn in E1; unfold gm_push, gm_set in E1; [destruct (hl_push _ _ _)|destruct (hl_set _ _ _ _)]; cbn [bind] in E1; try discriminate; injection E1 as <-; exact Hn. }
  intros edits g o es E Gf Me. assert (Hn := N edits (GObj g None) o eq_refl E). destruct (entries_inv (gm o) es Gf Me) as (gi & es' & Ei & Mi & P & _).
  exists gi, es'. split; [|auto]. unfold gm_inv. rewrite Hn, Ei. reflexivity.
Qed.
Print Assumptions C36_edits_then_inverse.
(* after the first inv() no edit changes what inv() returns *)
Theorem C36_frozen_refuted : forall edits gi o o', ginv o = Some gi -> foldM do_edit edits o = Ok o' -> gm_inv o' = Ok (gi, o').
Proof.
  induction edits as [|e edits IH]; intros gi o o' Hn E; [injection E as <-; unfold gm_inv; now rewrite Hn|]. cbn [foldM] in E. destruct (do_edit e o) as [o1| |] eqn:E1; cbn [bind] in E; try discriminate.
  apply (IH gi o1 o'); [|exact E]. destruct e; cbn in E1; unfold gm_push, gm_set in E1; [destruct (hl_push _ _ _)|destruct (hl_set _ _ _ _)]; cbn [bind] in E1; try discriminate; injection E1 as <-; exact Hn.
Qed.
Print Assumptions C36_frozen_refuted.
Theorem C36_stale_refuted : exists g gi o o' gi', gm_of_lists [(0, [1])] 1 1 1 1 = Ok g /\ gm_inv (GObj g None) = Ok (gi, o) /\ gm_push 2 [1] o = Ok o' /\ fst gi' = gi /\ gm_inv o' = Ok gi' /\
  map_entries (gm o') [(0, 1); (2, 1)] /\ map_entries gi [(1, 0)].
Proof.
  destruct (C31_from_lists [(0, [1])] 1 1 1 1) as (g & E & M & F & _). assert (Mg := made_lists _ _ _ _ _ _ E).
  destruct (entries_inv g _ F M) as (gi & es' & Ei & Mi & P & _). exists g, gi, (GObj g (Some gi)). destruct (C31_push_back g (Some gi) 2 [1] _ Mg F M) as (o' & Eo & Mo & _). exists o', (gi, o').
  split; [exact E|]. split; [unfold gm_inv; cbn [ginv gm]; rewrite Ei; reflexivity|]. split; [exact Eo|]. split; [reflexivity|].
  split; [apply (C36_frozen_refuted [EPush 2 [1]] gi (GObj g (Some gi))); [reflexivity|cbn [foldM do_edit]; rewrite Eo; reflexivity]|]. split; [exact Mo|].
  cbn in P. apply Permutation_length_1_inv in P || (apply Permutation_sym, Permutation_length_1_inv in P). subst es'. exact Mi.
Qed.
Print Assumptions C36_stale_refuted.
Example C36_case : exists g o o', gm_of_lists [(0, [1])] 1 1 1 1 = Ok g /\ foldM do_edit [EPush 2 [1; 3]; ESet 0 0 5] (GObj g None) = Ok o /\
  gm_inv o = Ok o' /\ hl_size_of (garr (fst o')) 0 = Ok 1 /\ hl_head (garr (fst o')) 2 = Ok 5 /\ hl_get (garr (fst o')) 2 0 = Ok 0.
Proof. run. Qed.

(* C37 *)
Theorem C37_naive : forall (R : cring) (m : mem (car R)) r x g qs in_dim out_dim, shows (garr g) qs -> (length (vdims r) < 5)%nat -> length (vdims x) = length (vdims r) ->
  0 <= in_dim -> 0 <= out_dim -> slices_pre m r x (Z.to_nat out_dim) (Z.to_nat in_dim) (pairs qs) ->
  exists m', gather_slices_naive r x g in_dim out_dim m = Ok m' /\ slices_post m m' r x (Z.to_nat out_dim) (Z.to_nat in_dim) (pairs qs).
Proof. exact @naive_ok. Qed.
Print Assumptions C37_naive.
(* operator(): not along the last dimension, and only if fusing the other dimensions leaves one or two with unit stride last *)
Theorem C37_fused_partial : forall (R : cring) (m : mem (car R)) r x g qs n o r' x', shows (garr g) qs -> length (vdims x) = length (vdims r) -> Forall (fun s => s < INT_MAX) (vstr r) ->
  0 <= n < ndims r - 1 -> 0 <= o < ndims r - 1 -> slices_pre m r x (Z.to_nat o) (Z.to_nat n) (pairs qs) ->
  gout g = nth (Z.to_nat o) (vdims r) 0 -> gin g = nth (Z.to_nat n) (vdims x) 0 ->
  co_scrunch_except r x o n = Ok (r', x') -> (length (vdims r') = 2%nat \/ length (vdims r') = 3%nat) -> last (vstr r') 0 = 1 -> last (vstr x') 0 = 1 ->
  exists m', gather_slices r x g n o m = Ok m' /\ slices_post m m' r x (Z.to_nat o) (Z.to_nat n) (pairs qs).
Proof. exact @slices_op_ok. Qed.
Print Assumptions C37_fused_partial.
Definition ex_gs (no ni : Z) (l : list (Z * list Z)) : res gmap :=
  foldM (fun q g => do o <- gm_push (fst q) (snd q) (GObj g None); Ok (gm o)) l (gm_new no ni).
Definition ex_m4 : mem Z := fun b a => if (0 <=? a) && (a <? 400) then Some (1000 * b + a) else None.
(* along the last dimension it throws *)
Theorem C37_last_dimension_refuted : exists g, ex_gs 3 3 [(0, [1])] = Ok g /\
  gather_slices (R := ZRing) (fresh_view 0 [2; 3]) (fresh_view 1 [2; 3]) g 1 1 ex_m4 = Throw.
Proof. run. Qed.
Print Assumptions C37_last_dimension_refuted.
(* a transposed source: slice 0 should get slice 1 = (1001,1003); slice 1 changes instead *)
Theorem C37_strided_refuted : exists g m', ex_gs 2 2 [(0, [1])] = Ok g /\
  gather_slices (R := ZRing) (fresh_view 0 [2; 2]) (View 1 0 [2; 2] [1; 2]) g 0 0 ex_m4 = Ok m' /\
  map (fun a => m' 0 a) [0; 1; 2; 3] = [Some 0; Some 1; Some (2 + 1001); Some (3 + 1001)].
Proof. run. Qed.
Print Assumptions C37_strided_refuted.
(* three dimensions besides the gathered one: the size of the last is taken from the one before it *)
Theorem C37_rank4_refuted : exists g m', ex_gs 1 1 [(0, [0])] = Ok g /\
  gather_slices (R := ZRing) (View 0 0 [1; 2; 2; 3] [100; 20; 5; 1]) (View 1 0 [1; 2; 2; 3] [100; 20; 5; 1]) g 0 0 ex_m4 = Ok m' /\
  m' 0 1 = Some (1 + 1001) /\ m' 0 2 = Some 2.
Proof. run. Qed.
Print Assumptions C37_rank4_refuted.
(* four: nothing happens *)
Theorem C37_rank5_refuted : exists g m', ex_gs 1 1 [(0, [0])] = Ok g /\
  gather_slices (R := ZRing) (View 0 0 [1; 2; 2; 2; 2] [200; 100; 20; 5; 1]) (View 1 0 [1; 2; 2; 2; 2] [200; 100; 20; 5; 1]) g 0 0 ex_m4 = Ok m' /\
  m' = ex_m4.
Proof. run. Qed.
Print Assumptions C37_rank5_refuted.
Example C37_case : slices_pre (R := ZRing) ex_m4 (fresh_view 0 [3; 4; 2]) (fresh_view 1 [3; 5; 2]) 1 1 [(0, 4); (3, 2)] /\
  exists g m', ex_gs 4 5 [(0, [4]); (3, [2])] = Ok g /\ gather_slices (R := ZRing) (fresh_view 0 [3; 4; 2]) (fresh_view 1 [3; 5; 2]) g 1 1 ex_m4 = Ok m' /\
    elem m' (fresh_view 0 [3; 4; 2]) [2; 3; 1] = Some (23 + 1025).
Proof.
  split; [|run]. split; [split; [reflexivity|repeat constructor; lia]|]. split; [split; [reflexivity|repeat constructor; lia]|]. split; [cbn; lia|]. split; [cbn; lia|]. split; [reflexivity|].
  repeat (split; [by_check|]). repeat constructor; cbn; lia.
Qed.

(* C38 *)
(* the weighted kernel *)
Theorem C38_weighted : forall (R : cring) (fl : Z -> R) (m : mem (car R)) r x g qs N Nx K A X, mat m r N K A -> mat m x Nx K X -> distinct_cells r -> disjoint_views r x ->
  goc g = 1 -> gic g = 1 -> wshows (garr g) qs -> (forall e, In e (wpairs qs) -> 0 <= fst e < N /\ 0 <= fst (snd e) < Nx) ->
  exists m', gather_weighted fl r x g m = Ok m' /\ mat m' r N K (fun i k => cadd (A i k) (wgathered fl (wpairs qs) X i k)) /\ untouched m m' r.
Proof. exact @weighted_mat. Qed.
Print Assumptions C38_weighted.
Theorem C38_inverse : forall g qs, wshows (garr g) qs -> exists g' qs', wg_make_inv g = Ok g' /\ wshows (garr g') qs' /\
  Permutation (wpairs qs') (map (fun e => (fst (snd e), (fst e, snd (snd e)))) (wpairs qs)) /\ gout g' = gin g /\ gin g' = gout g.
Proof. exact wg_make_inv_ok. Qed.
Print Assumptions C38_inverse.
(* operator() goes on with the loop for unweighted maps and takes the bits of the weight for a row number:
   out of bounds on 1 x 1 matrices with weight 1.0 (bits 1065353216), whatever the values are *)
Theorem C38_gather_refuted : exists g, ex_gs 1 1 [(0, [0; 1065353216])] = Ok g /\ wshows (garr g) [(0, [(0, 1065353216)])] /\
  forall (R : cring) (fl : Z -> R) (u v : R), gather_rows_w fl (fresh_view 0 [1; 1]) (fresh_view 1 [1; 1]) g (alloc u 0 1 (alloc v 1 1 (fun _ _ => None))) = UB.
Proof.
  destruct (C31_push_back (gm_new 1 1) None 0 [0; 1065353216] []) as (o & E & M & F).
  { constructor. } { reflexivity. } { exists [], []. split; [reflexivity|]. split; [apply (prep_rd _ [] prep_new)|reflexivity]. }
  exists (gm o). assert (Eo := E). vm_compute in Eo. injection Eo as Eo.
  split; [unfold ex_gs; cbn [foldM fst snd]; rewrite E; reflexivity|]. split.
  - split; [rewrite <- Eo; reflexivity|]. intros i h l Hi. cbn in Hi. assert (i = 0) by lia. subst i. cbn. intro El. injection El as <- <-. rewrite <- Eo. split; [reflexivity|]. split; [reflexivity|].
    intros j Hj. cbn in Hj. assert (Hc : j = 0 \/ j = 1) by lia. destruct Hc as [-> | ->]; reflexivity.
  - intros R fl u v. rewrite <- Eo. vm_compute. reflexivity.
Qed.
Print Assumptions C38_gather_refuted.
(* the constructor from vectors throws whenever there is an entry *)
Theorem C38_from_vectors_refuted : forall ho s t w, (forall m, Permutation (ho m) m) -> wg_of_vectors ho [s] [t] [w] = Throw.
Proof.
  intros ho s t w Hho. unfold wg_of_vectors. cbn [length Nat.eqb assrt combine]. assert (Pm := Hho (count_targets [(s, t)])). cbn in Pm.
  apply Permutation_sym, Permutation_length_1_inv in Pm. change (count_targets [(s, t)]) with [(t, 1)]. rewrite Pm.
  assert (Hg : get0 t [(t, 0)] = 0) by (unfold get0; cbn; now rewrite Z.eqb_refl).
  change (combine (map fst [(t, 1)]) (zrange (Z.of_nat (length [(t, 1)])))) with [(t, 0)]. cbn [combine map fst snd foldM]. rewrite Hg. vm_compute. reflexivity.
Qed.
Print Assumptions C38_from_vectors_refuted.
(* sort() converts every weight to an integer: 0.5 (bits 1056964608) becomes the number 0, for any entry *)
Theorem C38_sort_refuted : forall fi b, fi b <> b -> exists g g', ex_gs 1 1 [(0, [0; b])] = Ok g /\ wg_weight (garr g) 0 0 = Ok b /\ wg_sort fi g = Ok g' /\ wg_weight (garr g') 0 0 = Ok (fi b).
Proof. intros fi b H. eexists. eexists. split; [vm_compute; reflexivity|]. split; [vm_compute; reflexivity|]. split; [vm_compute; reflexivity|]. vm_compute. reflexivity. Qed.
Print Assumptions C38_sort_refuted.
Example C38_case : exists g m', ex_gs 3 4 [(2, [0; 7; 1; 100]); (0, [3; 1])] = Ok g /\
  gather_weighted (R := ZRing) (fun w => w) ex_out ex_inp g ex_m = Ok m' /\ elem m' ex_out [2; 1] = Some (5 + 7 * 40 + 100 * 50) /\ elem m' ex_out [1; 0] = Some 5.
Proof. run. Qed.
