(* Prop_Groups.v -- C127 to C132: index maps, sets of axes, views by groups of axes, one-progression strides, offsets in another
   layout, range checks. *)
From Coq Require Import Sorted.
From Verif Require Import Base BaseFacts Model_Index Model_View Model_Tensor Model_Groups Spec_Index Spec_View Spec_Tensor Spec_Groups Proofs_Index Proofs_Tensor Proofs_Mask2 Proofs_Groups Proofs_Groups2 Proofs_Groups3.
Local Open Scope Z_scope.

(* ---- C127: the shape and strides seen through an index map *)
Theorem C127_index_map : forall d s mp, length s = length d -> splits mp (Z.of_nat (length d)) ->
  (forall g, In g mp -> g <> [] /\ exists n, Forall (fun a => nth (Z.to_nat a) d 0 = n) g) ->
  exists D S, dims_map d mp = Ok D /\ strides_map s mp = Ok S /\ length D = length mp /\ length S = length mp /\
  (forall k a, (k < length mp)%nat -> In a (nth k mp []) -> nth (Z.to_nat a) d 0 = nth k D 0) /\
  forall j, in_range j D -> exists ix, in_range ix d /\
    (forall k a, (k < length mp)%nat -> In a (nth k mp []) -> nth (Z.to_nat a) ix 0 = nth k j 0) /\
    dot S j = dot s ix /\
    forall jx, in_range jx d -> (forall k a, (k < length mp)%nat -> In a (nth k mp []) -> nth (Z.to_nat a) jx 0 = nth k j 0) -> jx = ix.
Proof.
  intros d s mp L P H. unfold dims_map, strides_map. rewrite !map_ndims_ok. assert (Lc : length (concat mp) = length d).
  { apply Permutation_length in P. unfold zrange in P. rewrite map_length, seq_length, Nat2Z.id in P. exact P. }
  rewrite Lc, L, Z.eqb_refl. cbn [assrt]. assert (Bd : forall g, In g mp -> Forall (fun a => 0 <= a < Z.of_nat (length d)) g) by (intros g G; now apply (splits_bounds mp)).
  destruct (dims_maps d mp []) as [(D & E & F)|[_ F]].
  2:{ exfalso. clear -H Bd F. assert (G : exists D, Forall2 (same_side d) D mp); [|destruct G as [D G]; now apply (F D)]. clear F.
      induction mp as [|g mp IH]; [exists []; constructor|]. destruct IH as [D IH]; [intros; apply H; now right|intros; apply Bd; now right|].
      destruct (H g (or_introl eq_refl)) as [Ng [n Hn]]. exists (n :: D). constructor; [|assumption]. split; [assumption|].
      specialize (Bd g (or_introl eq_refl)). rewrite Forall_forall in *. intros a Ha. split; [now apply Bd|now apply Hn]. }
  rewrite E. cbn [app]. exists D, (map (fun g => zsum (comps s g)) mp). split; [reflexivity|].
  rewrite strides_maps by (rewrite L; apply Forall_forall; exact Bd). cbn [app]. split; [reflexivity|].
  assert (LD : length D = length mp) by (clear -F; induction F; cbn; lia). split; [assumption|]. split; [apply map_length|].
  assert (SD : forall k a, (k < length mp)%nat -> In a (nth k mp []) -> nth (Z.to_nat a) d 0 = nth k D 0).
  { clear -F. induction F as [|n g D mp S F IH]; intros k a K A; cbn in K; [lia|]. destruct k; cbn [nth] in *; [|apply IH; [lia|assumption]].
    destruct S as [_ S]. rewrite Forall_forall in S. now apply S. }
  split; [assumption|]. intros j J. pose proof (in_range_length _ _ J) as LJ.
  destruct (groups_exist mp (map (fun p => map (fun _ => snd p) (fst p)) (combine mp j)) (Z.of_nat (length d)) ltac:(lia) P) as (ix & Lx & Ex).
  { assert (Lm : length j = length mp) by lia. clear -Lm. revert j Lm; induction mp as [|g mp IH]; intros [|c j] Lm; cbn in Lm; try lia; cbn [combine map]; constructor; [now rewrite map_length|apply IH; lia]. }
  rewrite Nat2Z.id in Lx.
  assert (X : forall k a, (k < length mp)%nat -> In a (nth k mp []) -> nth (Z.to_nat a) ix 0 = nth k j 0).
  { assert (Lm : length j = length mp) by lia. clear -Ex Lm. revert j Lm Ex; induction mp as [|g mp IH]; intros [|c j] Lm Ex k a K A; cbn in Lm, K; try lia. cbn [combine map fst snd] in Ex. injection Ex as E1 E2.
    destruct k; cbn [nth] in *; [|now apply IH with (k := k); [lia|assumption|lia|assumption]].
    clear -E1 A. unfold comps in E1. induction g as [|b g IH]; [destruct A|]. cbn [map] in E1. injection E1 as E0 E1. destruct A as [<-|A]; [assumption|now apply IH]. }
  assert (Wh : forall a, 0 <= a < Z.of_nat (length d) -> exists k, (k < length mp)%nat /\ In a (nth k mp [])).
  { intros a Ha. assert (I : In a (concat mp)) by (apply (Permutation_in _ (Permutation_sym P)), in_zrange; assumption). apply in_concat in I as (g & G & A).
    apply (In_nth _ _ []) in G as (k & K & <-). now exists k. }
  exists ix. split.
  { apply in_range_nth. split; [assumption|]. intros a Ha. destruct (Wh a Ha) as (k & K & A). rewrite (X k a K A), (SD k a K A).
    apply in_range_nth in J as [_ J]. specialize (J (Z.of_nat k)). rewrite Nat2Z.id in J. apply J. lia. }
  split; [assumption|]. split.
  - rewrite (dot_groups mp s ix) by (rewrite ?L; assumption || lia). clear -X LJ LD.
    assert (Lm : length j = length mp) by lia. clear LJ LD. revert j Lm X; induction mp as [|g mp IH]; intros [|c j] Lm X; cbn in Lm; try lia; [reflexivity|].
    cbn [map dot zsum fold_right]. f_equal.
    + rewrite <- dot_const. f_equal. unfold comps. symmetry. apply map_ext_in. intros a A. apply (X 0%nat a); [cbn; lia|assumption].
    + apply IH; [lia|]. intros k a K A. apply (X (S k) a); [cbn; lia|assumption].
  - intros jx Jx Y. apply (groups_inj mp jx ix (Z.of_nat (length d)) P); rewrite ?Nat2Z.id; [now apply in_range_length|assumption|].
    intros g G. apply (In_nth _ _ []) in G as (k & K & <-). unfold comps. apply map_ext_in. intros a A. now rewrite (X k a K A), (Y k a K A).
Qed.
Print Assumptions C127_index_map.
Theorem C127_accepts : forall d mp, (exists D, dims_map d mp = Ok D /\ Z.of_nat (length (concat mp)) = Z.of_nat (length d) /\ Forall2 (same_side d) D mp) \/
  (dims_map d mp = Throw /\ (length (concat mp) <> length d \/ forall D, ~ Forall2 (same_side d) D mp)).
Proof.
  intros d mp. unfold dims_map. rewrite map_ndims_ok. destruct (_ =? _) eqn:E; cbn [assrt].
  - destruct (dims_maps d mp []) as [(D & -> & F)|[-> F]]; [left; exists D; split; [reflexivity|]; split; [lia|assumption]|right; split; [reflexivity|now right]].
  - right. split; [reflexivity|]. left. lia.
Qed.
Print Assumptions C127_accepts.
(* a map that names one axis twice and leaves another out passes every check; the view it describes leaves the tensor *)
Theorem C127_repeated_axis_refuted : forall n, 2 <= n ->
  dims_map [n; n] [[0; 0]] = Ok [n] /\ strides_map (strides_of 1 [n; n]) [[0; 0]] = Ok [2 * n] /\
  in_range [n - 1] [n] /\ n * n <= dot [2 * n] [n - 1].
Proof.
  intros n N. split; [|split; [|split]].
  - unfold dims_map, dims_map1. cbn. unfold zget. cbn. rewrite Z.eqb_refl. reflexivity.
  - replace (strides_of 1 [n; n]) with [n; 1] by (rewrite !strides_of_cons; unfold prod; cbn [fold_right]; repeat f_equal; try lia).
    unfold strides_map. rewrite strides_maps by (repeat constructor; cbn; lia). transitivity (@Ok (list Z) [n + (n + 0)]); [reflexivity|]. f_equal. f_equal. lia.
  - constructor; [lia|constructor].
  - cbn [dot]. nia.
Qed.
Print Assumptions C127_repeated_axis_refuted.
Example C127_case : splits [[0; 2]; [1]] 3 /\ (forall g, In g [[0; 2]; [1]] -> g <> [] /\ exists n, Forall (fun a => nth (Z.to_nat a) [4; 5; 4] 0 = n) g) /\
  dims_map [4; 5; 4] [[0; 2]; [1]] = Ok [4; 5] /\ strides_map [20; 4; 1] [[0; 2]; [1]] = Ok [21; 4].
Proof.
  split; [unfold splits; vm_compute; apply perm_skip, perm_swap|]. split; [|split; reflexivity].
  intros g [<-|[<-|[]]]; (split; [discriminate|]); [exists 4|exists 5]; repeat constructor.
Qed.

(* ---- C128: sets of axes *)
Theorem C128_contiguous_refuted : forall s, is_set s -> (s = [] /\ ax_contiguous s = UB) \/ (s <> [] /\ ax_contiguous s = Ok false).
Proof. intros [|a s] _; [now left|]. right. split; [discriminate|]. unfold ax_contiguous. cbn [ax_first bind]. now rewrite contig_first. Qed.
Print Assumptions C128_contiguous_refuted.
Theorem C128_disjoint : forall s y, ax_disjoint s y = true <-> forall i, ~ (In i s /\ In i y).
Proof.
  intros s y. unfold ax_disjoint. rewrite forallb_forall. split.
  - intros H i [A B]. specialize (H i A). apply mem_ax_iff in B. rewrite B in H. discriminate.
  - intros H i A. destruct (mem_ax i y) eqn:E; [|reflexivity]. apply mem_ax_iff in E. exfalso. now apply (H i).
Qed.
Print Assumptions C128_disjoint.
Theorem C128_covers : forall s x n, (ax_covers1 s n = true <-> forall i, 0 <= i < n -> In i s) /\ (ax_covers2 s n x = true <-> forall i, 0 <= i < n -> In i s \/ In i x).
Proof.
  intros s x n. unfold ax_covers1, ax_covers2. rewrite !forallb_forall. split; split; intros H i Hi.
  - apply mem_ax_iff, H. now apply in_zrange.
  - apply mem_ax_iff, H. now apply in_zrange.
  - apply in_zrange in Hi. specialize (H i Hi). rewrite <- !mem_ax_iff. destruct (mem_ax i s), (mem_ax i x); cbn in H; tauto || congruence.
  - apply in_zrange in Hi. specialize (H i Hi). rewrite <- !mem_ax_iff in H. destruct (mem_ax i s), (mem_ax i x); cbn; try reflexivity. destruct H; discriminate.
Qed.
Print Assumptions C128_covers.
Theorem C128_covers3_refuted : (forall s n x y, ax_covers3 s n x y = ax_covers2 s n x) /\
  forall n i, 0 <= i < n -> exists s x y, is_set s /\ is_set x /\ is_set y /\ (forall j, 0 <= j < n -> In j s \/ In j x \/ In j y) /\ ax_covers3 s n x y = false.
Proof.
  assert (G : forall s n x y, ax_covers3 s n x y = ax_covers2 s n x).
  { intros s n x y. unfold ax_covers3, ax_covers2. induction (zrange n) as [|i l IH]; [reflexivity|]. cbn [forallb]. rewrite IH. destruct (mem_ax i s), (mem_ax i x); reflexivity. }
  split; [exact G|]. intros n i Hi. exists [], [], (zrange n). split; [constructor|]. split; [constructor|]. split; [apply Sorted_zrange|]. split.
  - intros j Hj. right. right. now apply in_zrange.
  - rewrite G. destruct (ax_covers2 [] n []) eqn:E; [|reflexivity]. destruct (C128_covers [] [] n) as [_ C]. destruct (proj1 C E i Hi) as [[]|[]].
Qed.
Print Assumptions C128_covers3_refuted.
Theorem C128_shapes : forall chk d s, Forall (fun a => 0 <= a < Z.of_nat (length d)) s ->
  dims_select chk d s = Ok (comps d s) /\ dims_unite chk d s = Ok (prod (comps d s)).
Proof. intros chk d s F. split; [now apply select_ok|now apply unite_ok]. Qed.
Print Assumptions C128_shapes.
Theorem C128_bad_axis : forall d s, ~ Forall (fun a => 0 <= a < Z.of_nat (length d)) s -> dims_select true d s = Throw /\ dims_unite true d s = Throw.
Proof.
  intros d s N. unfold dims_select, dims_unite, passert. split.
  - assert (G : forall t, foldM (fun p r => assrt (below p d) (do x <- zget d p; Ok (r ++ [x]))) s t = Throw); [|apply G]. induction s as [|a s IH]; intro t; [exfalso; apply N; constructor|]. cbn [foldM]. destruct (below a d) eqn:B; cbn [assrt]; [|reflexivity].
    apply below_iff in B. rewrite zget_nth by assumption. cbn [bind]. apply IH. intro F. apply N. now constructor.
  - generalize 1 as t. induction s as [|a s IH]; intro t; [exfalso; apply N; constructor|]. cbn [foldM]. destruct (below a d) eqn:B; cbn [assrt]; [|reflexivity].
    apply below_iff in B. rewrite zget_nth by assumption. cbn [bind]. apply IH. intro F. apply N. now constructor.
Qed.
Print Assumptions C128_bad_axis.
Theorem C128_combined : forall chk p q t, dims_combined chk (p ++ q ++ t) (Z.of_nat (length p)) (Z.of_nat (length p) + Z.of_nat (length q)) = Ok (prod q).
Proof.
  intros chk p q t. unfold dims_combined, passert. rewrite !app_length.
  replace ((Z.of_nat (length p) <=? Z.of_nat (length p) + Z.of_nat (length q)) && ((0 <=? Z.of_nat (length p) + Z.of_nat (length q)) && (Z.of_nat (length p) + Z.of_nat (length q) <=? Z.of_nat (length p + (length q + length t))))) with true by lia.
  cbn [assrt]. replace (Z.of_nat (length p) + Z.of_nat (length q) - Z.of_nat (length p)) with (Z.of_nat (length q)) by lia.
  assert (G : forall g x, Forall (fun i => 0 <= i < Z.of_nat (length q)) g -> foldM (fun i t0 => do x <- zget (p ++ q ++ t) (Z.of_nat (length p) + i); Ok (t0 * x)) g x = Ok (x * prod (comps q g))).
  { induction g as [|i g IH]; intros x F; cbn [foldM comps map]; [rewrite prod_nil; f_equal; lia|]. inversion F; subst. rewrite zget_nth by (rewrite !app_length; lia). cbn [bind].
    rewrite IH by assumption. rewrite prod_cons. f_equal. rewrite app_nth2 by lia. replace (Z.to_nat (Z.of_nat (length p) + i) - length p)%nat with (Z.to_nat i) by lia. rewrite app_nth1 by lia. unfold comps. ring. }
  assert (E : foldM (fun i t0 => do x <- zget (p ++ q ++ t) (Z.of_nat (length p) + i); Ok (t0 * x)) (zrange (Z.of_nat (length q))) 1 = Ok (prod q)).
  { rewrite G by (apply Forall_forall; intros i Hi; now apply in_zrange). rewrite comps_all. f_equal. lia. }
  rewrite E. now destruct chk.
Qed.
Print Assumptions C128_combined.
Example C128_case : is_set [1; 2] /\ ax_contiguous [1; 2] = Ok false /\ ax_disjoint [0] [1; 2] = true /\ ax_covers2 [0] 3 [1; 2] = true /\ ax_covers3 [0] 3 [1] [2] = false /\
  dims_select true [4; 5; 6] [0; 2] = Ok [4; 6] /\ dims_unite true [4; 5; 6] [1; 2] = Ok 30.
Proof. split; [repeat constructor|]. repeat split; reflexivity. Qed.

(* ---- C129: views by groups of axes *)
Theorem C129_group_view_refuted : forall chk x gs, gs <> [] -> Forall is_set gs -> length (vstr x) = length (vdims x) ->
  group_view true chk x gs = Throw \/ (group_view true chk x gs = UB /\ exists r, gs = [] :: r).
Proof.
  intros chk x gs Ne S L. unfold group_view, groups_ok. unfold is_regular. rewrite L, Nat.eqb_refl. cbn [assrt bind]. destruct (regular_aux _ _); cbn [bind negb]; [|now left].
  destruct gs as [|g gs]; [congruence|]. cbn [foldM]. inversion S; subst. destruct (C128_contiguous_refuted g H1) as [[-> E]|[_ E]]; rewrite E; cbn [bind]; [right; split; [reflexivity|now exists gs]|].
  left. assert (G : foldM (fun (g : list Z) (ok : bool) => if ok then ax_contiguous g else Ok false) gs false = Ok false) by (clear; induction gs as [|h gs IH]; [reflexivity|cbn [foldM bind]; exact IH]).
  rewrite G. reflexivity.
Qed.
Print Assumptions C129_group_view_refuted.
(* with assertions compiled out: the element at (j1,..,jr) is x's element whose components along group k have row-major position jk *)
Theorem C129_group_view_partial : forall chk x rs, vstr x = strides_of 1 (vdims x) -> nonneg (vdims x) -> Forall (fun r => 0 < snd r) rs ->
  let gs := map (fun r => axis_run (fst r) (snd r)) rs in splits gs (Z.of_nat (length (vdims x))) ->
  exists v, group_view false chk x gs = Ok v /\ vdims v = map (fun g => prod (comps (vdims x) g)) gs /\ length (vstr v) = length gs /\
  (forall V (m : mem V) ix, in_range ix (vdims x) -> let j := map (fun g => flat (comps ix g) (comps (vdims x) g)) gs in in_range j (vdims v) /\ elem m v j = elem m x ix) /\
  forall j, in_range j (vdims v) -> exists ix, in_range ix (vdims x) /\ j = map (fun g => flat (comps ix g) (comps (vdims x) g)) gs.
Proof.
  intros chk x rs Sx Nx Rs gs P. set (d := vdims x) in *.
  assert (Bd : forall g, In g gs -> Forall (fun a => 0 <= a < Z.of_nat (length d)) g) by (intros g G; now apply (splits_bounds gs)).
  assert (Rb : Forall (fun r => 0 < snd r /\ 0 <= fst r /\ fst r + snd r <= Z.of_nat (length d)) rs).
  { rewrite Forall_forall in *. intros r Hr. specialize (Rs r Hr). split; [assumption|]. assert (G : In (axis_run (fst r) (snd r)) gs) by (apply in_map_iff; now exists r).
    specialize (Bd _ G). rewrite Forall_forall in Bd. unfold axis_run in Bd. split.
    - specialize (Bd (fst r + 0)). assert (In (fst r + 0) (map (Z.add (fst r)) (zrange (snd r)))) by (apply in_map, in_zrange; lia). specialize (Bd H). lia.
    - specialize (Bd (fst r + (snd r - 1))). assert (In (fst r + (snd r - 1)) (map (Z.add (fst r)) (zrange (snd r)))) by (apply in_map, in_zrange; lia). specialize (Bd H). lia. }
  assert (U : forall r0, foldM (fun g r => do c <- dims_unite chk d g; Ok (r ++ [c])) gs r0 = Ok (r0 ++ map (fun g => prod (comps d g)) gs)).
  { clear -Bd. induction gs as [|g gs IH]; intro r0; cbn [foldM map]; [now rewrite app_nil_r|]. rewrite unite_ok by (apply Bd; now left). cbn [bind]. rewrite IH by (intros; apply Bd; now right). now rewrite <- app_assoc. }
  assert (T : forall r0, foldM (fun g r => do l <- ax_last g; do c <- zget (vstr x) l; Ok (r ++ [c])) gs r0 = Ok (r0 ++ map (fun r => nth (Z.to_nat (fst r + snd r - 1)) (vstr x) 0) rs)).
  { assert (Ls : length (vstr x) = length d) by (rewrite Sx; apply strides_of_length). clear -Rb Ls. subst gs. induction rs as [|r rs IH]; intro r0; cbn [foldM map]; [now rewrite app_nil_r|]. inversion Rb; subst. destruct H1 as (A & B & C).
    rewrite ax_last_run by assumption. cbn [bind]. rewrite zget_nth by lia. cbn [bind]. rewrite IH by assumption. now rewrite <- app_assoc. }
  unfold group_view. cbn [bind negb]. fold d. rewrite U, T. cbn [bind app]. eexists. split; [reflexivity|]. cbn [vdims vstr]. split; [reflexivity|]. split; [subst gs; now rewrite !map_length|].
  assert (O : forall ix, length ix = length d -> dot (map (fun r => nth (Z.to_nat (fst r + snd r - 1)) (vstr x) 0) rs) (map (fun g => flat (comps ix g) (comps d g)) gs) = dot (vstr x) ix).
  { intros ix Lx. rewrite (dot_groups gs (vstr x) ix) by (rewrite ?Sx, strides_of_length; assumption). subst gs. rewrite !map_map, dot_zsum. f_equal. apply map_ext_in. intros r Hr.
    rewrite Forall_forall in Rb. destruct (Rb r Hr) as (A & B & C). rewrite Sx. now rewrite run_offset. }
  split.
  - intros V m ix H. split.
    + unfold in_range. clear -Bd H. induction gs as [|g gs IH]; [constructor|]. constructor; [apply flat_range, comps_range; [assumption|apply Bd; now left]|apply IH; intros; apply Bd; now right].
    + pose proof (in_range_length _ _ H) as Lx. unfold elem, vaddr. cbn [vblk voff vstr vdims]. unfold offs. rewrite Sx, !map_length, strides_of_length. fold d. rewrite Lx. unfold gs at 1. rewrite map_length.
      rewrite !Nat.leb_refl. cbn [assrt bind]. rewrite <- Sx. now rewrite O.
  - intros j J. assert (Nc : forall g, In g gs -> nonneg (comps d g)).
    { intros g G. unfold nonneg, comps. apply Forall_forall. intros z Hz. apply in_map_iff in Hz as (a & <- & Ha). unfold nonneg in Nx. rewrite Forall_forall in Nx. apply Nx, nth_In. specialize (Bd g G). rewrite Forall_forall in Bd. specialize (Bd a Ha). fold d. lia. }
    destruct (groups_exist gs (map (fun p => undo (comps d (fst p)) (snd p)) (combine gs j)) (Z.of_nat (length d)) ltac:(lia) P) as (ix & Lx & Ex).
    { clear -J Nc. revert j J; induction gs as [|g gs IH]; intros j J; inversion J as [|c ? l ? Hc Hl]; subst; [constructor|]. cbn [combine map fst snd]. constructor; [|apply IH; [intros; apply Nc; now right|assumption]].
      destruct (undo_ok (comps d g) c (Nc g (or_introl eq_refl)) Hc) as [R _]. rewrite (in_range_length _ _ R). apply comps_length. }
    rewrite Nat2Z.id in Lx.
    assert (K : Forall (fun g => in_range (comps ix g) (comps d g)) gs /\ j = map (fun g => flat (comps ix g) (comps d g)) gs).
    { clear -Ex J Nc. revert j J Ex; induction gs as [|g gs IH]; intros j J Ex; inversion J as [|c ? l ? Hc Hl]; subst; [split; [constructor|reflexivity]|]. cbn [combine map fst snd] in Ex. injection Ex as E1 E2.
      destruct (undo_ok (comps d g) c (Nc g (or_introl eq_refl)) Hc) as [R F]. destruct (IH (fun g G => Nc g (or_intror G)) l Hl E2) as [I1 I2]. split; [constructor; [now rewrite E1|assumption]|].
      cbn [map]. f_equal; [now rewrite E1|assumption]. }
    exists ix. split; [|apply K]. apply (groups_range gs ix d P Lx), K.
Qed.
Print Assumptions C129_group_view_partial.
Example C129_case : let gs := map (fun r => axis_run (fst r) (snd r)) [(1, 2); (0, 1)] in gs = [[1; 2]; [0]] /\ splits gs 3 /\ Forall is_set gs /\
  group_view true true (View 0 0 [2; 3; 4] [12; 4; 1]) gs = Throw /\ group_view false false (View 0 0 [2; 3; 4] [12; 4; 1]) gs = Ok (View 0 0 [12; 2] [1; 12]).
Proof.
  split; [reflexivity|]. split; [|split; [|split; reflexivity]].
  - change (Permutation ([1; 2] ++ [0]) [0; 1; 2]). apply Permutation_sym, (Permutation_cons_append [1; 2] 0).
  - vm_compute. repeat constructor.
Qed.

(* ---- C130: strides that form one progression *)
Theorem C130_fuser : forall s d, s <> [] -> length d = length s -> nonneg d -> Forall (fun x => 0 < x < INT_MAX) s ->
  exists t n, fuser s d = Ok (t, n) /\ ((t, n) = (0, -1) \/ (0 < t /\ In t s /\ n = prod d /\ one_progression s d t n)).
Proof.
  intros s d Ne L N F. destruct (fuser_run s d Ne L F) as (a & p & _ & P & [[_ E]|(_ & E & Pa & C)]); rewrite E; [exists 0, (-1); split; [reflexivity|now left]|].
  exists (nth a s 0), (prod d). split; [reflexivity|]. right. split; [assumption|]. split.
  - apply nth_In. assert (In a (seq 0 (length s))) by (apply (Permutation_in _ P); now left). apply in_seq in H. lia.
  - split; [reflexivity|]. apply (progression_of s d (map Z.of_nat (rev (a :: p)))); [assumption|assumption|lia| |assumption].
    apply perm_nat_Z. rewrite <- Permutation_rev. assumption.
Qed.
Print Assumptions C130_fuser.
(* every rearrangement of the axes of a row-major layout with sides of at least two is recognised *)
Theorem C130_fuser_complete : forall s d q t, s <> [] -> length d = length s -> Forall (fun x => 0 < x < INT_MAX) s -> Forall (fun x => 2 <= x) d -> 0 < t ->
  Permutation q (zrange (Z.of_nat (length s))) -> comps s q = strides_of t (comps d q) -> fuser s d = Ok (t, prod d).
Proof.
  intros s d q t Ne L F D T Pq Eq. destruct (fuser_run s d Ne L F) as (a & p & Eo & P & R).
  set (qn := map Z.to_nat q). assert (Eqn : map Z.of_nat qn = q).
  { unfold qn. rewrite map_map. rewrite <- (map_id q) at 2. apply map_ext_in. intros z Hz. apply (Permutation_in _ Pq), in_zrange in Hz. lia. }
  assert (Pn : Permutation qn (seq 0 (length s))).
  { unfold qn. rewrite (Permutation_map Z.to_nat Pq). unfold zrange. rewrite map_map, Nat2Z.id. rewrite (map_ext _ (fun x => x)) by (intro; apply Nat2Z.id). now rewrite map_id. }
  assert (F' : Forall (fun x => x < INT_MAX) s) by (eapply Forall_impl; [|exact F]; cbn; lia).
  assert (Er : rev qn = a :: p).
  { rewrite <- Eo. apply (sorted_unique (fun k => nth k s 0)).
    - rewrite <- Permutation_rev, Pn. symmetry. now apply ordering_perm.
    - apply (sorted_rev (fun x y => nth y s 0 < nth x s 0)). apply (sorted_map (fun k => nth k s 0) (fun x y => y < x)). change (StronglySorted (fun x y => y < x) (nc s qn)). rewrite nc_comps, Eqn, Eq. apply strides_dec; [assumption|].
      apply Forall_forall. intros z Hz. apply in_map_iff in Hz as (b & <- & Hb). rewrite Forall_forall in D. apply D, nth_In. apply (Permutation_in _ Pq), in_zrange in Hb. lia.
    - now apply ordering_sorted. }
  assert (C : nc s (rev (a :: p)) = strides_of t (nc d (rev (a :: p)))) by (rewrite <- Er, rev_involutive, !nc_comps, Eqn; assumption).
  assert (B : Forall (fun k => (k < length s)%nat) (a :: p)) by (apply Forall_forall; intros k Hk; apply (Permutation_in _ P), in_seq in Hk; lia).
  pose proof (chains_of s d (a :: p) t L B C) as Ch. destruct R as [[R _]|(_ & R & _ & _)]; [congruence|]. rewrite R. f_equal. f_equal.
  change (rev (a :: p)) with (rev p ++ [a]) in C. rewrite !nc_snoc, strides_of_snoc in C. now apply app_inj_tail in C.
Qed.
Print Assumptions C130_fuser_complete.
(* an axis of length one can make it miss a single progression *)
Theorem C130_unit_axis_refuted : forall n t u, 2 <= n -> 0 < t -> t * n < u < INT_MAX -> fuser [u; t] [1; n] = Ok (0, -1) /\ one_progression [u; t] [1; n] t n.
Proof.
  intros n t u N T U. split.
  - unfold fuser, ordering. cbn [length ordering_loop]. unfold argmin at 1. cbn [argmin_aux]. replace (t <? u) with true by nia. cbn [argmin_aux].
    replace (argmin [u; t]) with 1%nat by (unfold argmin; cbn [argmin_aux]; replace (t <? u) with true by nia; reflexivity).
    change (set_nth 1 INT_MAX [u; t]) with [u; INT_MAX]. replace (argmin [u; INT_MAX]) with 0%nat by (unfold argmin; cbn [argmin_aux]; replace (INT_MAX <? u) with false by lia; reflexivity).
    change (vget [1%nat; 0%nat] 0) with (@Ok nat 1%nat). cbn [bind]. rewrite chains_two. unfold vget. cbn [nth_error bind]. replace (u =? t * n) with false by lia. reflexivity.
  - split.
    + intros ix H. inversion H as [|i ? ix1 ? Hi H1]; subst. inversion H1 as [|j ? ix2 ? Hj H2]; subst. inversion H2; subst. exists j. split; [lia|]. cbn [dot]. replace i with 0 by lia. lia.
    + intros k K. exists [0; k]. split; [repeat constructor; lia|]. split; [cbn [dot]; lia|]. intros jx H E. inversion H as [|i ? ix1 ? Hi H1]; subst. inversion H1 as [|j ? ix2 ? Hj H2]; subst. inversion H2; subst.
      cbn [dot] in E. replace i with 0 in * by lia. assert (j = k) by nia. now subst.
Qed.
Print Assumptions C130_unit_axis_refuted.
Theorem C130_empty_refuted : fuser [] [] = UB /\ forall s d o, s <> [] -> length d = length s -> length o = length s -> fusible s d o = UB \/ fusible s d o = Throw.
Proof.
  split; [reflexivity|]. intros s d o Ne Ld Lo. unfold fusible. rewrite Ld, Lo, Nat.eqb_refl. cbn [assrt]. destruct s as [|s0 s]; [congruence|]. destruct o as [|o0 o]; [discriminate|]. cbn [length Nat.eqb].
  change (zget (o0 :: o) 0) with (@Ok Z o0). cbn [bind]. destruct (o0 <? Z.of_nat (S (length s))) eqn:E; cbn [assrt]; [|now right]. left.
  unfold forZ. replace (zrange (Z.of_nat (S (length s)))) with (0 :: map Z.succ (zrange (Z.of_nat (length s)))).
  2:{ unfold zrange. rewrite !Nat2Z.id. cbn [length seq map]. f_equal. rewrite <- seq_shift, !map_map. apply map_ext. intro. lia. }
  cbn [foldM]. change (zget (o0 :: o) 0) with (@Ok Z o0). cbn [bind]. rewrite E. reflexivity.
Qed.
Print Assumptions C130_empty_refuted.
Example C130_case : fuser [1; 12; 3] [3; 2; 4] = Ok (1, 24) /\ fuser [2; 8] [4; 3] = Ok (2, 12) /\ fuser [1; 5] [4; 3] = Ok (0, -1) /\ comps [1; 12; 3] [1; 2; 0] = strides_of 1 (comps [3; 2; 4] [1; 2; 0]).
Proof. repeat split; reflexivity. Qed.

(* ---- C131: an offset in a row-major layout, translated to other strides *)
Theorem C131_offset_translation : forall chk s d ix t, 0 < t -> in_range ix d -> length s = length d -> offs_from chk s (t * flat ix d) (strides_of t d) = Ok (dot s ix).
Proof. intros chk s d ix t T H L. unfold offs_from, passert. rewrite strides_of_length, L, Nat.eqb_refl. cbn [assrt]. rewrite (offs_ok s ix d t T H L 0). now destruct chk. Qed.
Print Assumptions C131_offset_translation.
(* the strides of the source must be those of a row-major layout: for the transpose of one the offset is read as another index *)
Theorem C131_transposed_refuted : forall n a b, 2 <= n -> a * n <> b -> in_range [0; 1] [n; n] /\ offs_from true [a; b] (dot [1; n] [0; 1]) [1; n] = Ok (a * n) /\ a * n <> dot [a; b] [0; 1].
Proof.
  intros n a b N Ne. split; [repeat constructor; lia|]. split.
  - unfold offs_from, passert. cbn [length Nat.eqb assrt dot offs_loop]. unfold cdiv. replace (1 =? 0) with false by lia. cbn [bind].
    replace (1 * 0 + (n * 1 + 0)) with n by ring. rewrite Z.quot_1_r. replace (n =? 0) with false by lia. cbn [bind]. replace (n - n * 1) with 0 by ring. rewrite Z.quot_0_l by lia. cbn [bind]. f_equal. ring.
  - cbn [dot]. lia.
Qed.
Print Assumptions C131_transposed_refuted.
Example C131_case : in_range [1; 2; 3] [2; 3; 4] /\ offs_from true [1; 10; 100] 23 [12; 4; 1] = Ok 321.
Proof. split; [repeat constructor; lia|reflexivity]. Qed.

(* ---- C132: range checks *)
Theorem C132_checks : forall d ix,
  (in_range ix d -> check_in_range d ix = Ok tt /\ check_args true d ix = Ok tt /\ check_range ix d = Ok tt) /\
  (~ in_range ix d -> check_in_range d ix = Throw /\ check_args true d ix = Throw /\ check_range ix d = Throw).
Proof. intros d ix. rewrite check_range_iff, check_args_iff. destruct (check_in_range_iff d ix) as [[-> H]|[-> H]]; split; intro K; try contradiction; now repeat split. Qed.
Print Assumptions C132_checks.
Theorem C132_axis : forall d a i, (0 <= a < Z.of_nat (length d) -> 0 <= i < nth (Z.to_nat a) d 0 -> check_axis true d a i = Ok tt) /\
  (~ (0 <= a < Z.of_nat (length d) /\ 0 <= i < nth (Z.to_nat a) d 0) -> check_axis true d a i = Throw).
Proof.
  intros d a i. unfold check_axis. cbn [negb]. destruct (below a d) eqn:B.
  - apply below_iff in B. rewrite zget_nth by assumption. cbn [negb orb bind]. destruct (i <? 0) eqn:I; [split; intros; [lia|reflexivity]|].
    destruct (_ <=? i) eqn:K; split; intros; try reflexivity; lia.
  - cbn [negb orb]. split; intro H; [|reflexivity]. apply below_iff in H. congruence.
Qed.
Print Assumptions C132_axis.
Theorem C132_unchecked_refuted : forall d ix a i, check_args false d ix = Ok tt /\ check_axis false d a i = Ok tt.
Proof. now split. Qed.
Print Assumptions C132_unchecked_refuted.
Theorem C132_shapes : forall d x, (check_eq d x = Ok tt <-> d = x) /\ (check_eq d x = Throw <-> d <> x) /\ (dims_valid d = true <-> nonneg d).
Proof.
  intros d x. assert (E : eqlb d x = true <-> d = x).
  { revert x; induction d as [|n d IH]; intros [|m x]; cbn [eqlb]; split; intro H; try reflexivity; try discriminate.
    - destruct (n =? m) eqn:K; [|discriminate]. apply Z.eqb_eq in K. subst. f_equal. now apply IH.
    - injection H as -> ->. rewrite Z.eqb_refl. now apply IH. }
  unfold check_eq. split; [|split].
  - rewrite <- E. destruct (eqlb d x); split; intro; try reflexivity; discriminate.
  - rewrite <- E. destruct (eqlb d x); split; intro H; try reflexivity; try discriminate. now destruct H.
  - unfold dims_valid, nonneg. rewrite forallb_forall, Forall_forall. split; intros H z Hz; specialize (H z Hz); lia.
Qed.
Print Assumptions C132_shapes.
Example C132_case : in_range [1; 2] [2; 3] /\ ~ in_range [1; 3] [2; 3] /\ check_args true [2; 3] [1; 3] = Throw /\ check_args true [2; 3] [1; 2] = Ok tt.
Proof. split; [repeat constructor; lia|]. split; [intro H; inversion H; subst; inversion H5; subst; lia|]. now split. Qed.
